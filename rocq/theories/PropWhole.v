(** Theorems about whole plans: from the binary plan to text and back. *)
From Verif Require Import Base BaseFacts StringsModel StringsFacts EnumModel TypeModel TypeProtoFacts LexModel LexFacts NameModel NameFacts ExprModel TypeTokenFacts LiteralFacts ExprFacts RelModel RelFacts SectionModel
  SectionFacts PropExpr PropRel WholeModel WholeFacts WholeTripFacts EvalFacts.
From Verif Require DeclModel DeclFacts SymbolMoreFacts.
From Coq Require Import Lia ZifyBool ZifyNat ZifyN.

(** * C91: whole plans *)
(** Every plan in the class [Convertible] is converted to text without errors, and that text is converted back without errors to the same plan ([same_plan]): the
    same trees of relations with the same sources and schemas, and expressions that use the same functions (by URI and name) and the same columns. *)
Theorem C91_round_trip_partial b : Convertible b -> exists t b', to_text b = Ok (t, 0) /\ from_text t = Ok (Some b', []) /\ same_plan b b'.
Proof. exact (whole_trip b). Qed.
(** Plans that are written alike are the same as one plan. *)
Theorem C91_injective b1 b2 : Convertible b1 -> Convertible b2 -> to_text b1 = to_text b2 -> exists b', same_plan b1 b' /\ same_plan b2 b'.
Proof.
  intros H1 H2 E. destruct (whole_trip b1 H1) as (t & b' & A1 & A2 & A3). destruct (whole_trip b2 H2) as (u & b2' & B1 & B2 & B3). rewrite A1, B1 in E. injection E as <-. rewrite A2 in B2. injection B2 as <-. exists b'. auto.
Qed.
Print Assumptions C91_round_trip_partial. Print Assumptions C91_injective.

(** ** A plan of this class *)
Definition numberedb (bases : list str) (n : str) : bool := existsb (fun b => (b =s firstn (length b) n) && forallb is_digit (skipn (length b) n)) bases.
Lemma numberedb_not bases n : numberedb bases n = false -> ~ numbered_from bases n.
Proof.
  intros H (x & d & I & Hd & ->). apply Bool.not_true_iff_false in H. apply H. apply existsb_exists. exists x. split; [exact I|]. rewrite firstn_app, Nat.sub_diag, firstn_all, skipn_app, Nat.sub_diag, skipn_all. cbn [firstn skipn app]. rewrite app_nil_r, seq_eqb_refl, Hd. reflexivity.
Qed.
Definition independentb (l : list str) : bool := forallb (fun b => forallb (fun b' => negb (b =s firstn (length b) b') || negb (forallb is_digit (skipn (length b) b')) || (length b' <=? length b)) l) l.
Lemma independentb_ok l : independentb l = true -> SymbolMoreFacts.Independent l.
Proof.
  intros H x y d Ix Iy -> Hd. unfold independentb in H. rewrite forallb_forall in H. specialize (H x Ix). rewrite forallb_forall in H. specialize (H _ Iy). rewrite firstn_app, Nat.sub_diag, firstn_all, skipn_app, Nat.sub_diag, skipn_all in H. cbn [firstn skipn app] in H.
  rewrite app_nil_r, seq_eqb_refl, Hd in H. cbn [negb orb] in H. rewrite app_length in H. destruct d; [reflexivity|]. cbn [length] in H. lia.
Qed.
Definition exw_i32 := PtScalar SI32 NRequired.
Definition exw_col z := ESel (SegField z None) RootRef.
Definition exw_read table cols := Node (Relation (BRead [] [] None None false) []) (Some (NamedTable [table])) (Some (NamedStruct cols (map (fun _ => exw_i32) cols) NRequired)) [].
(** The sum of a column of a join that is projected and grouped *)
Definition exw : bplan :=
  BPlan [($"/f.yaml", 5%N)] [{| DeclModel.d_space := 5; DeclModel.d_anchor := 7; DeclModel.d_name := $"add:i32_i32" |}; {| DeclModel.d_space := 5; DeclModel.d_anchor := 9; DeclModel.d_name := $"sum:i32" |}]
  [(Node (Relation (BAggregate [[exw_col 0]] [Measure (Some (AF 9 [AValue (exw_col 1)] [] [] exw_i32 PInitialToResult IAll [])) (Some (exw_col 3))]) [1%Z]) None None
    [Node (Relation (BProject [exw_col 0; EFun 7 [AValue (exw_col 0); AValue (exw_col 3)] [] [] exw_i32; exw_col 2]) [0%Z; 3%Z; 5%Z; 6%Z]) None None
      [Node (Relation (BJoin JInner (Some (EFun 7 [AValue (exw_col 0); AValue (exw_col 3)] [] [] exw_i32)) None) []) None None
        [Node (Relation (BFilter (Some (exw_col 1))) []) None None [exw_read $"t" [$"a"; $"b"]]; exw_read $"t" [$"a"; $"b"]]]], Some [$"x"])].
Lemma exw_type : Printable exw_i32 exw_i32.
Proof. apply (PR_scalar SI32 NRequired). cbn. tauto. Qed.
Lemma exw_function f : f = 7%N \/ f = 9%N -> declared_function exw f.
Proof.
  intros [-> | ->]; exists $"/f.yaml"; eexists; eexists.
  - split; [left; reflexivity|]. split; [reflexivity|]. split; [reflexivity|left; reflexivity].
  - split; [right; left; reflexivity|]. split; [reflexivity|]. split; [reflexivity|left; reflexivity].
Qed.
Lemma exw_schema : SchemaReads (NamedStruct [$"a"; $"b"] [exw_i32; exw_i32] NRequired) (NamedStruct [$"a"; $"b"] [exw_i32; exw_i32] NRequired).
Proof. apply (SchemaR [$"a"; $"b"] [exw_i32; exw_i32] [exw_i32; exw_i32]); [reflexivity|constructor; [name|constructor; [name|constructor]]|constructor; [exact exw_type|constructor; [exact exw_type|constructor]]]. Qed.
Lemma exw_reads known n t : Quotable t -> tree_ok known n (exw_read t [$"a"; $"b"]).
Proof.
  intros Q. unfold exw_read. cbn [tree_ok all_ok all_columns]. split; [exact I|]. split; [cbn; lia|]. cbn [r_body r_emit Nat.eqb length]. do 6 (split; [reflexivity|]). split; [exact I|]. split.
  - eexists. split; [reflexivity|]. apply SourceR_named; [discriminate|]. constructor; [exact Q|constructor].
  - split; [exact exw_schema|]. cbn. repeat constructor; cbn; intuition discriminate.
Qed.
Lemma exw_add F x y : in_range F x -> in_range F y -> plain (declared_function exw) (in_range F) (EFun 7 [AValue (exw_col x); AValue (exw_col y)] [] [] exw_i32).
Proof. intros Hx Hy. cbn [plain exw_col]. split; [apply exw_function; auto|]. split; [discriminate|]. split; [exact exw_type|]. auto. Qed.
Lemma exw_shorts : short_names exw = [$"add"; $"sum"].
Proof. vm_compute. reflexivity. Qed.
Lemma exw_free n : numberedb (made_up ++ [$"add"; $"sum"]) n = false -> ~ numbered_from (made_up ++ short_names exw) n.
Proof. rewrite exw_shorts. apply numberedb_not. Qed.
Ltac column_there := vm_compute; discriminate.
Lemma tree_node known n r src sch ins : all_ok (tree_ok known) n ins ->
  relation_ok known (length ins) (snd (all_columns columns n ins)) (added (fst (all_columns columns n ins)) (snd (all_columns columns n ins)) (r_body r) sch) r src sch -> tree_ok known n (Node r src sch ins).
Proof. intros A B. cbn [tree_ok]. split; [exact A|]. destruct (all_columns columns n ins). exact B. Qed.
Lemma exw_tree : tree_ok (declared_function exw) 0 (fst (hd (exw_read [] [], None) (b_rels exw))).
Proof.
  cbn [hd exw b_rels fst]. apply tree_node; [split; [|exact I]; apply tree_node; [split; [|exact I]; apply tree_node; [split; [apply tree_node; [split; [apply exw_reads; reflexivity|exact I]|]|split; [apply exw_reads; reflexivity|exact I]]|]|]|].
  all: match goal with |- relation_ok _ _ ?F ?G _ _ _ => let F' := eval vm_compute in F in let G' := eval vm_compute in G in change F with F'; change G with G' end.
  all: split; [vm_compute; reflexivity|]; cbn [r_body r_emit]; (split; [reflexivity|]); (split; [reflexivity|]); (split; [reflexivity|]).
  - split; [reflexivity|]. column_there.
  - split; [reflexivity|]. split; [exact I|]. split; [|reflexivity]. apply exw_add; column_there.
  - split; [|repeat (constructor; [column_there|]); constructor]. constructor; [column_there|]. constructor; [apply exw_add; column_there|]. constructor; [column_there|constructor].
  - split; [discriminate|]. split; [exists [0%Z]; split; [reflexivity|constructor; [column_there|constructor]]|]. split; [vm_compute; constructor|]. split; [|constructor; [eexists; reflexivity|constructor]].
    constructor; [|constructor]. split; [apply exw_function; auto|]. split; [|split; [exact exw_type|]].
    + constructor; [|constructor]. eexists. split; [reflexivity|]. vm_compute. intuition discriminate.
    + eexists. split; [reflexivity|]. vm_compute. intuition discriminate.
Qed.
Lemma exw_convertible : Convertible exw.
Proof.
  constructor.
  - constructor; cbn; try (repeat constructor; cbn; intuition discriminate). intros d [<- | [<- | []]]; cbn; auto.
  - constructor; [|constructor]. apply (LU_abs $"f.yaml"), LP_one. split; [discriminate|reflexivity].
  - repeat constructor; [exists $"add", $"i32_i32"|exists $"sum", $"i32"]; (split; [name|]); (split; [name|reflexivity]).
  - rewrite exw_shorts. repeat constructor; try (apply numberedb_not; vm_compute; reflexivity); vm_compute; discriminate.
  - rewrite exw_shorts. apply independentb_ok. vm_compute. reflexivity.
  - constructor; [exact exw_tree|constructor].
  - intros x s n [<- | []] Is In0. assert (E : In n [$"a"; $"b"]) by (destruct Is as [<- | [<- | []]]; exact In0). destruct E as [<- | [<- | []]]; (split; [apply exw_free; vm_compute; reflexivity|reflexivity]).
  - intros x s n [<- | []] Is In0. assert (E : In n [$"t"]) by (destruct Is as [<- | [<- | []]]; exact In0). destruct E as [<- | []]. apply exw_free. vm_compute. reflexivity.
  - intros u [<- | []]. apply exw_free. vm_compute. reflexivity.
  - vm_compute. constructor.
  - constructor; [|constructor]. cbn. split; [constructor; [name|constructor]|reflexivity].
Qed.
Example C91_case : Convertible exw /\ to_text exw = Ok ($"pipelines {
  read -> filter -> join;
  read2 -> join;
  join -> project -> aggregate -> root;
}

read relation read {
  source named;
  base_schema schema;
}

filter relation filter {
  filter schema.b;
}

read relation read2 {
  source named2;
  base_schema schema2;
}

join relation join {
  type JOIN_TYPE_INNER;
  expression add(schema.a, schema2.b)->i32;
}

project relation project {
  expression schema.a;
  expression add(schema.a, schema2.b)->i32 NAMED intermediate;
  expression schema2.a;

  emit schema.a;
  emit schema2.b;
  emit intermediate;
  emit schema2.a;
}

aggregate relation aggregate {
  grouping schema.a;
  measure {
    measure sum(schema2.b)->i32@AGGREGATION_PHASE_INITIAL_TO_RESULT NAMED measurename;
    filter schema2.a;
    invocation all;
  }

  emit measurename;
}

root {
  names = [
    x
  ]
}

schema schema {
  a i32;
  b i32;
}

schema schema2 {
  a i32;
  b i32;
}

source named_table named {
  names = [
    ""t"",
  ]
}

source named_table named2 {
  names = [
    ""t"",
  ]
}

extension_space /f.yaml {
  function add:i32_i32 as add;
  function sum:i32 as sum;
}
", 0).
Proof. split; [exact exw_convertible|vm_compute; reflexivity]. Qed.

(** ** Plans outside of it *)
Definition comes_back (b : bplan) (t : str) (b' : bplan) (e : list werr) : Prop := to_text b = Ok (t, 0) /\ from_text t = Ok (Some b', e).
(** Finding: if a computed column is grouped by and also used in a measure, the measure comes back with the number of a column that is not there; no error is reported. *)
Definition exw_functions := [{| DeclModel.d_space := 5; DeclModel.d_anchor := 7; DeclModel.d_name := $"add:i32_i32" |}; {| DeclModel.d_space := 5; DeclModel.d_anchor := 9; DeclModel.d_name := $"sum:i32" |}].
Definition exw_functions' := [{| DeclModel.d_space := 1; DeclModel.d_anchor := 0; DeclModel.d_name := $"add:i32_i32" |}; {| DeclModel.d_space := 1; DeclModel.d_anchor := 1; DeclModel.d_name := $"sum:i32" |}].
Definition exw_grouped (add sum : N) (g z : Z) : tree :=
  Node (Relation (BAggregate [[exw_col g]] [Measure (Some (AF sum [AValue (exw_col z)] [] [] exw_i32 PInitialToResult IAll [])) None]) []) None None
    [Node (Relation (BProject [EFun add [AValue (exw_col 0); AValue (exw_col 1)] [] [] exw_i32]) []) None None [exw_read $"t" [$"a"; $"b"]]].
Definition text_for (b : bplan) : str := match to_text b with Ok (t, _) => t | _ => [] end.
Theorem C91_grouped_refuted : let b := BPlan [($"/f.yaml", 5%N)] exw_functions [(exw_grouped 7 9 2 2, None)] in let b' := BPlan [($"/f.yaml", 1%N)] exw_functions' [(exw_grouped 0 1 2 3, Some [])] in
  comes_back b (text_for b) b' [] /\ ~ same_plan b b'.
Proof.
  intros b b'. split; [split; vm_compute; reflexivity|]. intros H. inversion H as [|x x' l l' (S1 & _) _]. clear H. subst x x' l l'. cbn [fst] in S1. destruct S1 as (_ & _ & _ & S1 & _). cbn [r_body] in S1.
  inversion S1 as [| | |gs gs' ms ms' _ M E1 E2| | | |]. clear S1. inversion M as [|m m' l l' M1 _]. inversion M1 as [f f' args args' ty ph v fi fi' _ A _]. inversion A as [|a a' l0 l0' A1 _]. inversion A1 as [e e' A2|]. inversion A2 as [|z z' (_ & C)| | |]. subst. 
  vm_compute in C. discriminate C.
Qed.
(** Finding: the columns in the filter of a read are written with their names, but are not found again, since the columns of the relation are those of its inputs. *)
Definition exw_filtered (f : option expr) : tree := Node (Relation (BRead [] [] f None false) []) (Some (NamedTable [$"t"])) (Some (NamedStruct [$"a"] [exw_i32] NRequired)) [].
Theorem C91_read_filter_refuted : let b := BPlan [] [] [(exw_filtered (Some (exw_col 0)), None)] in
  comes_back b (text_for b) (BPlan [] [] [(exw_filtered (Some EUnset), Some [])]) [WRelation (RExpr (XNoField $"schema.a"))].
Proof. intros b. split; vm_compute; reflexivity. Qed.
Print Assumptions C91_grouped_refuted. Print Assumptions C91_read_filter_refuted.

(** * C92: the results of plans *)
(** Whatever values are, and whatever tables hold and functions, literals, casts, conditions, orders, groups and joins mean ([meaning]): the plan that comes back from the text
    has the same results as the plan that was converted ([results]: the rows of every relation with the names of its columns). *)
Theorem C92_results_partial b : Convertible b -> exists t b', to_text b = Ok (t, 0) /\ from_text t = Ok (Some b', []) /\ forall V (M : meaning V), results M b' = results M b.
Proof. intros Hb. destruct (whole_trip b Hb) as (t & b' & H1 & H2 & H3). exists t, b'. split; [exact H1|]. split; [exact H2|]. intros V M. exact (same_results M b b' Hb H3). Qed.
(** Plans with the same text have the same results. *)
Theorem C92_text_partial b1 b2 : Convertible b1 -> Convertible b2 -> to_text b1 = to_text b2 -> forall V (M : meaning V), results M b1 = results M b2.
Proof.
  intros H1 H2 E V M. destruct (C91_injective b1 b2 H1 H2 E) as (b' & S1 & S2). rewrite <- (same_results M b1 b' H1 S1). apply same_results; assumption.
Qed.
(** ** An example *)
(** Numbers, a table of two columns, addition and sums; rows are grouped if their keys are equal and joined if the condition is not zero *)
Definition exm_values (l : list (value_or_name Z)) : Z := fold_right (fun x y => match x with inl z => z + y | inr _ => y end)%Z 0%Z l.
Definition exm_groups (keys : list (list Z)) : list (nat * list nat) :=
  let same a b := if list_eq_dec Z.eq_dec a b then true else false in
  let at_ i := nth i keys [] in
  flat_map (fun i => if existsb (fun j => same (at_ i) (at_ j)) (seq 0 i) then [] else [(i, filter (fun j => same (at_ i) (at_ j)) (seq 0 (length keys)))]) (seq 0 (length keys)).
Definition exm : meaning Z := {|
  mn_null := (-1)%Z; mn_true := fun z => negb (z =? 0)%Z; mn_literal := fun _ => 0%Z; mn_cast := fun _ z => z; mn_if := fun _ _ => 0%Z; mn_function := fun _ _ _ => exm_values; mn_measure := fun _ _ _ _ _ l => exm_values (concat l);
  mn_table := fun _ _ => map (fun l i => nth i l 0%Z) [[1; 0]; [2; 5]; [3; 7]]%Z; mn_order := fun l => seq 0 (length l); mn_groups := exm_groups;
  mn_pairs := fun _ k m => flat_map (fun x => flat_map (fun y => if nth y (nth x m []) false then [(Some x, Some y)] else []) (seq 0 k)) (seq 0 (length m)) |}.
(** all rows of the table joined with those whose second column is not zero, and the sums of the second column of the other side for each first column *)
Example C92_case : results exm exw = [([[12]; [12]]%Z, [$"x"])].
Proof. vm_compute. reflexivity. Qed.
(** Finding: the plan of C91_grouped_refuted comes back with other results. *)
Theorem C92_grouped_refuted : exists b b', comes_back b (text_for b) b' [] /\ results exm b <> results exm b'.
Proof.
  exists (BPlan [($"/f.yaml", 5%N)] exw_functions [(exw_grouped 7 9 2 2, None)]), (BPlan [($"/f.yaml", 1%N)] exw_functions' [(exw_grouped 0 1 2 3, Some [])]). split; [split; vm_compute; reflexivity|]. vm_compute. discriminate.
Qed.
Print Assumptions C92_results_partial. Print Assumptions C92_text_partial. Print Assumptions C92_grouped_refuted.
