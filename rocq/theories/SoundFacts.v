(** What a plan that is made from a text without a report refers to: its functions are declared, and its columns are there. *)
From Verif Require Import Base BaseFacts StringsModel StringsFacts EnumModel TypeModel LexModel NameModel ExprModel RelModel RelFacts RelReadFacts ResolveFacts SectionModel WholeModel.
From Verif Require FieldModel DeclModel DeclFacts PipeModel PipeFacts TreeModel TreeFacts PrintFacts WholeFacts.
From Coq Require Import Lia ZifyBool ZifyNat ZifyN Permutation.

(** * Specification *)
(** The functions that an expression calls, and the columns it reads *)
Definition given {A B} (f : A -> list B) (x : option A) : list B := match x with Some a => f a | None => [] end.
Fixpoint e_functions (e : expr) : list N :=
  match e with
  | EFun f args deprecated _ _ => f :: flat_map (fun a => match a with AValue x => e_functions x | _ => [] end) args ++ flat_map e_functions deprecated
  | EIfThen ifs els => flat_map (fun c => let '(i, t) := c in given e_functions i ++ given e_functions t) ifs ++ given e_functions els
  | ECast x _ _ => e_functions x
  | EIn l _ => flat_map e_functions l
  | ECompare _ _ x _ => given e_functions x
  | _ => []
  end.
Fixpoint e_columns (e : expr) : list Z :=
  match e with
  | ESel (SegField z _) _ => [z]
  | EFun _ args deprecated _ _ => flat_map (fun a => match a with AValue x => e_columns x | _ => [] end) args ++ flat_map e_columns deprecated
  | EIfThen ifs els => flat_map (fun c => let '(i, t) := c in given e_columns i ++ given e_columns t) ifs ++ given e_columns els
  | ECast x _ _ => e_columns x
  | EIn l _ => flat_map e_columns l
  | ECompare _ _ x _ => given e_columns x
  | _ => []
  end.
(** The expressions of a relation *)
Definition some {A} (x : option A) : list A := match x with Some a => [a] | None => [] end.
Definition values (l : list (arg expr)) : list expr := flat_map (fun a => match a with AValue x => [x] | _ => [] end) l.
Definition function_exprs (f : aggregate_function) : list expr := values (af_args f) ++ af_deprecated f ++ map fst (af_sorts f).
Definition measure_exprs (m : measure) : list expr := given function_exprs (m_function m) ++ some (m_filter m).
Definition body_exprs (b : body) : list expr :=
  match b with
  | BRead _ _ f g _ => some f ++ some g
  | BFilter c => some c
  | BFetch _ _ | BCross | BOther _ => []
  | BAggregate gs ms => concat gs ++ flat_map measure_exprs ms
  | BSort l => map fst l
  | BProject l => l
  | BJoin _ e p => some e ++ some p
  end.
(** The functions of its measures *)
Definition body_measures (b : body) : list aggregate_function := match b with BAggregate _ ms => flat_map (fun m => some (m_function m)) ms | _ => [] end.
(** All relations of a tree *)
Definition rel_of (t : tree) : relation := let 'Node r _ _ _ := t in r.
Definition ins_of (t : tree) : list tree := let 'Node _ _ _ ins := t in ins.
Fixpoint nodes (t : tree) : list tree := match t with Node _ _ _ ins => t :: flat_map nodes ins end.
(** A measure about which nothing is said but how it is invoked or sorted *)
Definition no_call (f : aggregate_function) : Prop := f = AF 0 [] [] [] PtNone PUnspecified (af_invocation f) (af_sorts f).
Definition declared (b : bplan) (f : N) : Prop := exists d, In d (b_decls b) /\ DeclModel.d_anchor d = f.
Definition calls_declared (b : bplan) (r : relation) : Prop :=
  Forall (declared b) (flat_map e_functions (body_exprs (r_body r))) /\ Forall (fun f => declared b (af_ref f) \/ no_call f) (body_measures (r_body r)).
(** How many columns a relation has *)
Fixpoint width (t : tree) : nat :=
  match t with
  | Node r _ sch ins =>
    let inputs := fold_right (fun i n => width i + n) 0 ins in
    match r_emit r with
    | [] => match r_body r with
            | BRead _ _ _ _ _ => match sch with Some s => length (ns_names s) | None => 0 end
            | BAggregate gs ms => length (concat gs) + length ms
            | BProject l => inputs + length l
            | _ => inputs
            end
    | e => length e
    end
  end.
Definition widths (l : list tree) : nat := fold_right (fun i n => width i + n) 0 l.
(** The columns to choose from with an emit *)
Definition full (t : tree) : nat :=
  match t with
  | Node r _ sch ins =>
    match r_body r with
    | BRead _ _ _ _ _ => match sch with Some s => length (ns_names s) | None => 0 end
    | BAggregate gs ms => length (concat gs) + length ms
    | BProject l => widths ins + length l
    | _ => widths ins
    end
  end.
Definition below (n : nat) (z : Z) : Prop := (0 <= z < Z.of_nat n)%Z.
Definition columns_exist (t : tree) : Prop :=
  (WholeModel.is_aggregate (r_body (rel_of t)) = false -> Forall (below (widths (ins_of t))) (flat_map e_columns (body_exprs (r_body (rel_of t))))) /\
  Forall (below (full t)) (r_emit (rel_of t)).
(** A text whose relations come after their inputs, with one input each (joins and cross products two, read relations none); its pipelines are of its relations, and each
    aggregation gives a measure a name. *)
Definition arrows (nodes : list pnode) : list (list str) := map (map fst) (pipelines_of nodes).
Definition names_a_measure (d : RelModel.detail) : Prop := exists e ty phase n rest l, d = OnMeasure l /\ In (MMeasure e ty (phase :: n :: rest)) l.
Record orderly (nodes : list pnode) : Prop := {
  od_order : forall before n after x, relations_of nodes = before ++ n :: after ->
     In x (PipeFacts.into true (n_name n) (arrows nodes)) \/ In x (PipeFacts.into false (n_name n) (arrows nodes)) -> In x (map n_name before);
  od_inputs : forall n, In n (relations_of nodes) -> let on := PipeFacts.into false (n_name n) (arrows nodes) in let ends := PipeFacts.into true (n_name n) (arrows nodes) in
     let k := to_lower (n_kind n) in
     if k =s $"read" then on = [] /\ ends = [] else if (k =s $"join") || (k =s $"cross") then on = [] /\ length ends = 2 else length on + length ends = 1 /\ k <> $"set";
  od_names : forall x, In x (concat (arrows nodes)) -> In x (map n_name (relations_of nodes)) \/ x = $"root" /\ roots_of nodes <> [];
  od_named : ~ In [] (map n_name (relations_of nodes));      (* the text of an id is never empty *)
  od_measures : forall n, In n (relations_of nodes) -> to_lower (n_kind n) = $"aggregate" -> Exists names_a_measure (n_details n) }.

(** * Expressions *)
Section Uses.
  Variables (F : N -> Prop) (C : Z -> Prop).
  Definition uses (e : expr) : Prop := Forall F (e_functions e) /\ Forall C (e_columns e).
  Lemma uses_each {A} (f : A -> list N) (g : A -> list Z) l : Forall (fun a => Forall F (f a) /\ Forall C (g a)) l -> Forall F (flat_map f l) /\ Forall C (flat_map g l).
  Proof. intros H. rewrite !Forall_flat_map. split; (eapply Forall_impl; [|exact H]); intros a [A1 A2]; assumption. Qed.
  Lemma uses_resolved ff fr fc : (forall n f, ff n = Some f -> F f) -> (forall n steps z, fc n = Some (steps, z) -> C z) -> forall e, Resolved ff fr fc e -> uses e.
  Proof.
    intros HF HC. induction e as [|l|s r|r|r|f args deprecated options ty Ha Hd|ifs els Hi He|e ty f IH|n|l n Hl|q n|op red e n He|u] using PrintFacts.expr_ind2; intros R; unfold uses; cbn [e_functions e_columns]; try (split; constructor).
    - inversion R as [|? ? (n & steps & z & E & -> & _)| | | | | | | |]; subst. split; [constructor|]. constructor; [exact (HC _ _ _ E)|constructor].
    - inversion R as [| |? ? ? (n & E) A| | | | | | |]; subst. cbn [flat_map]. rewrite !app_nil_r. assert (X : Forall F (flat_map (fun a => match a with AValue x => e_functions x | _ => [] end) args) /\ Forall C (flat_map (fun a => match a with AValue x => e_columns x | _ => [] end) args)).
      { apply uses_each. clear R. induction Ha as [|a args Ha1 _ IHa]; [constructor|]. inversion A as [|? ? A1 A2]; subst. constructor; [|exact (IHa A2)]. inversion A1; subst; [apply Ha1; assumption|split; constructor]. }
      split; [constructor; [exact (HF _ _ E)|]|]; apply X.
    - inversion R as [| | | |? ? A1 A2| | | | |]; subst.
      assert (X : Forall F (flat_map (fun c : option expr * option expr => let '(i, t) := c in given e_functions i ++ given e_functions t) ifs) /\ Forall C (flat_map (fun c : option expr * option expr => let '(i, t) := c in given e_columns i ++ given e_columns t) ifs)).
      { apply uses_each. clear R He A2. induction Hi as [|[i t] ifs [Hi1 Hi2] _ IHi]; [constructor|]. inversion A1 as [|? ? (i' & t' & Ec & R1 & R2) A3]; subst. injection Ec as -> ->. constructor; [|exact (IHi A3)]. cbn [given].
        destruct (Hi1 _ eq_refl R1), (Hi2 _ eq_refl R2). split; apply Forall_app; split; assumption. }
      destruct X. assert (Y : Forall F (given e_functions els) /\ Forall C (given e_columns els)) by (destruct els as [x|]; [apply He; [reflexivity|apply A2; reflexivity]|split; constructor]).
      destruct Y. split; apply Forall_app; split; assumption.
    - inversion R; subst. apply IH; assumption.
    - inversion R as [| | | | | | |? ? A _| |]; subst. apply uses_each. clear R. induction Hl as [|x l Hx _ IHl]; [constructor|]. inversion A; subst. constructor; [apply Hx; assumption|apply IHl; assumption].
    - inversion R; subst. cbn [given]. apply He; [reflexivity|assumption].
  Qed.
  (** what a relation's expressions use *)
  Definition all_use (b : body) : Prop := Forall uses (body_exprs b) /\ Forall (fun f => F (af_ref f) \/ no_call f) (body_measures b).
  Lemma values_use f args deprecated options ty : uses (EFun f args deprecated options ty) -> F f /\ Forall uses (values args).
  Proof.
    unfold uses. cbn [e_functions e_columns]. intros [H1 H2]. inversion H1 as [|? ? Hf H3]; subst. split; [exact Hf|]. apply Forall_app in H3 as [H3 _]. apply Forall_app in H2 as [H2 _].
    unfold values. rewrite Forall_flat_map in *. rewrite Forall_forall in *. intros a I. specialize (H3 a I). specialize (H2 a I). destruct a; constructor; [|constructor]. split; assumption.
  Qed.
  Section Detail.
    Variables (ff : str -> option N) (fr : str -> option bool) (fc : nat -> nat -> str -> option (N * Z)) (columns : nat) (ks ksch : str -> bool).
    Hypothesis HF : forall n f, ff n = Some f -> F f.
    Lemma reads_use i j e x : (forall n steps z, fc i j n = Some (steps, z) -> C z) -> reads ff fr fc i j e x -> uses x.
    Proof.
      intros HC. unfold reads, visitE. destruct (known ff fc i j e) as [[|]| |]; cbn [obind]; try discriminate. rewrite lift_clean. intros R. apply read_resolved in R. exact (uses_resolved _ _ _ HF HC _ R).
    Qed.
    Lemma group_use x y : GroupSays columns x y -> uses x -> uses y.
    Proof. intros G U. inversion G; subst; exact U. Qed.
    Lemma sort_use i j e b s : (forall n steps z, fc i j n = Some (steps, z) -> C z) -> SortSays ff fr fc i j e b s -> uses (fst s).
    Proof. intros HC H. inversion H; subst; cbn [fst]; eapply reads_use; eassumption. Qed.
    Definition mitem_use (x : mitem) : Prop :=
      match x with IsFunction f => Forall uses (function_exprs f) /\ F (af_ref f) | IsCondition x => uses x | IsInvocation _ => True | IsOrder s => uses (fst s) end.
    Lemma mitems_use i : (forall j n steps z, fc i j n = Some (steps, z) -> C z) -> forall j l items, ForallAt (fun j => MeasureItem ff fr fc i j) j l items -> Forall mitem_use items.
    Proof.
      intros HC j l items H. induction H as [|j d l x items M _ IH]; constructor; [|exact IH]. inversion M; subst; cbn [mitem_use].
      - pose proof (reads_use i j _ _ (HC j) H) as U. apply values_use in U as [U1 U2]. split; [|exact U1]. unfold function_exprs. cbn [af_args af_deprecated af_sorts map]. rewrite !app_nil_r. exact U2.
      - eapply reads_use; [apply HC|eassumption].
      - exact I.
      - eapply sort_use; [apply HC|eassumption].
    Qed.
    Lemma measure_use i l m : (forall j n steps z, fc i j n = Some (steps, z) -> C z) -> MeasureSays ff fr fc i l m -> Forall uses (measure_exprs m) /\ Forall (fun f => F (af_ref f) \/ no_call f) (some (m_function m)).
    Proof.
      intros HC H. inversion H as [? items f Hi _ _ Hf]; subst. pose proof (mitems_use i HC 0 l items Hi) as U. unfold measure_exprs. cbn [m_function m_filter].
      assert (O : Forall uses (map fst (orders items))). { clear -U. induction U as [|x items Hx _ IH]; [constructor|]. destruct x; cbn [orders flat_map app map]; try exact IH. constructor; [exact Hx|exact IH]. }
      assert (K : Forall uses (some (hd_error (conditions items)))). { clear -U. induction U as [|x items Hx _ IH]; [constructor|]. destruct x; cbn [conditions flat_map app hd_error]; try exact IH. constructor; [exact Hx|constructor]. }
      assert (G : forall g, hd_error (functions items) = Some g -> mitem_use (IsFunction g)). { clear -U. induction U as [|x items Hx _ IH]; [discriminate|]. intros g. destruct x; cbn [functions flat_map app hd_error]; try exact (IH g). intros E. injection E as <-. exact Hx. }
      inversion Hf as [E1 E2 E3 E4|v s Hs E1 E2 E3 E4|g args options t ph v s E1 E2 E3 E4]; subst f.
      - cbn [given app some]. split; [exact K|constructor].
      - cbn [given function_exprs values af_args af_deprecated af_sorts flat_map app some]. split; [apply Forall_app; split; [unfold function_exprs; cbn; subst; exact O|exact K]|]. constructor; [right; reflexivity|constructor].
      - symmetry in E1. destruct (G _ E1) as [G1 G2]. cbn [given some]. split; [|constructor; [left; exact G2|constructor]]. apply Forall_app. split; [|exact K]. unfold function_exprs in *. cbn [af_args af_deprecated af_sorts map app] in *.
        rewrite !app_nil_r in G1. apply Forall_app. split; [exact G1|subst; exact O].
    Qed.
    Lemma detail_use i b d b' : (forall j n steps z, fc i j n = Some (steps, z) -> C z) -> all_use b -> visitDetail ff fr fc columns ks ksch i b d = Ok (b', []) -> all_use b'.
    Proof.
      intros HC [U1 U2] H. apply detail_iff in H as (x & I & A). unfold all_use. inversion I; subst; cbn [add] in A; destruct b as [so sc f g p|cd|o ct|gs ms|l0|l0|t0 e0 p0| |nm]; try discriminate A;
        try (injection A as <-; cbn [body_exprs body_measures] in *; split; assumption).
      all: try match goal with H : reads ff fr fc ?q 0 ?e ?y |- _ => pose proof (reads_use q 0 e y (HC 0) H) as Uy end.
      all: repeat match goal with A : match ?o with _ => _ end = Some _ |- _ => destruct o; try discriminate A end; injection A as <-; cbn [body_exprs body_measures some app] in *.
      all: try (split; [|assumption]; rewrite ?Forall_app in *; repeat (match goal with |- _ /\ _ => split | |- Forall _ (_ :: _) => constructor | |- Forall _ [] => constructor end); tauto).
      - (* grouping *)
        split; [|exact U2]. apply Forall_app in U1 as [U1 U3]. apply Forall_app. split; [|exact U3]. pose proof (group_use _ _ H0 Uy) as Ug. destruct gs as [|g1 gs]; cbn [add_group concat] in *.
        + constructor; [exact Ug|constructor].
        + apply Forall_app in U1 as [U1 U4]. apply Forall_app. split; [|exact U4]. apply Forall_app. split; [exact U1|constructor; [exact Ug|constructor]].
      - destruct (measure_use i l m HC H) as [M1 M2]. rewrite !flat_map_app. cbn [flat_map]. rewrite !app_nil_r. split; [|apply Forall_app; split; assumption]. apply Forall_app in U1 as [U1 U3]. rewrite !Forall_app. auto.
      - split; [|exact U2]. rewrite map_app. apply Forall_app. split; [exact U1|]. constructor; [eapply sort_use; [apply HC|eassumption]|constructor].
    Qed.
  End Detail.
End Uses.

(** * Relations *)
Definition head (b : body) : nat := match b with BRead _ _ _ _ _ => 0 | BFilter _ => 1 | BFetch _ _ => 2 | BAggregate _ _ => 3 | BSort _ => 4 | BProject _ => 5 | BJoin _ _ _ => 6 | BCross => 7 | BOther _ => 8 end.
Lemma add_head ks ksch b x b' : add ks ksch b x = Some b' -> head b' = head b.
Proof.
  destruct x, b; cbn [add]; try discriminate; repeat match goal with |- context [match ?o with _ => _ end] => destruct o; try discriminate end; intros H; injection H as <-; reflexivity.
Qed.
Lemma add_kind ks ksch b x b' : add ks ksch b x = Some b' -> kind_name b' = kind_name b.
Proof.
  destruct x, b; cbn [add]; try discriminate; repeat match goal with |- context [match ?o with _ => _ end] => destruct o; try discriminate end; intros H; injection H as <-; reflexivity.
Qed.
Lemma empty_kind k b : empty_body k = Some b -> kind_name b = to_lower k /\ body_exprs b = [] /\ body_measures b = [].
Proof.
  unfold empty_body. repeat match goal with |- context [?a =s ?w] => destruct (seq_eqb_spec a w) as [E|_]; [intros H; injection H as <-; rewrite E; repeat split|] end. discriminate.
Qed.
Lemma aggregate_kind b : WholeModel.is_aggregate b = true -> kind_name b = $"aggregate".
Proof. destruct b; try discriminate. reflexivity. Qed.
Lemma find_pos_lt P l p : FieldModel.find_pos P l = Some p -> p < length l.
Proof. revert p. induction l as [|c l IH]; intros p; cbn; [discriminate|]. destruct (P c); [intros H; injection H as <-; lia|]. destruct (FieldModel.find_pos P l) as [q|]; [|discriminate]. intros H. injection H as <-. specialize (IH q eq_refl). lia. Qed.
Lemma index32_range z : (0 <= FieldModel.index32 z < 2 ^ 31)%Z.
Proof.
  unfold FieldModel.index32. change 2147483647%Z with (Z.ones 31). rewrite Z.land_ones by lia. apply Z.mod_pos_bound. lia.
Qed.
Lemma index32_below z n : (0 <= z < Z.of_nat n)%Z -> below n (FieldModel.index32 z).
Proof.
  intros H. unfold below, FieldModel.index32. change 2147483647%Z with (Z.ones 31). rewrite Z.land_ones by lia. assert (M : (0 <= z mod 2 ^ 64 <= z)%Z) by (split; [apply Z.mod_pos_bound; lia|apply Z.mod_le; lia]).
  assert (0 <= (z mod 2 ^ 64) mod 2 ^ 31 <= z mod 2 ^ 64)%Z by (split; [apply Z.mod_pos_bound; lia|apply Z.mod_le; lia]). lia.
Qed.
Lemma found_below ss ag fields name z : FieldModel.find_in ss false (scope_with ag fields []) name = Some z -> below (length fields) z.
Proof.
  unfold FieldModel.find_in, scope_with. cbn [FieldModel.q_aggregate FieldModel.q_fields FieldModel.q_generated FieldModel.rfind rev FieldModel.find_pos]. rewrite andb_false_r. unfold FieldModel.rfind.
  cbn [rev FieldModel.find_pos]. destruct (FieldModel.find_pos _ (rev fields)) as [p|] eqn:E; [|discriminate]. intros H. injection H as <-. apply find_pos_lt in E. rewrite rev_length in E. apply index32_below. unfold FieldModel.size. lia.
Qed.
Lemma mapped cols m : forall o o', FieldModel.map_columns cols m o = (o', []) -> Forall (fun z => (z mod 2 ^ 64 < FieldModel.size cols)%Z) m /\ length o' = length o + length m.
Proof.
  induction m as [|z m IH]; intros o o'; cbn [FieldModel.map_columns]; [intros H; injection H as <-; split; [constructor|cbn; lia]|].
  destruct (Z.ltb_spec (z mod 2 ^ 64) (FieldModel.size cols)) as [L|L].
  - unfold FieldModel.at_index. destruct (nth_error cols (Z.to_nat (z mod 2 ^ 64))) as [c|] eqn:E.
    + intros H. apply IH in H as [H1 H2]. rewrite app_length in H2. cbn [length] in *. split; [constructor; assumption|lia].
    + apply nth_error_None in E. unfold FieldModel.size in L. pose proof (Z.mod_pos_bound z (2 ^ 64)). lia.
  - destruct (FieldModel.map_columns cols m o) as [o1 e1]. discriminate.
Qed.

(** One relation, read without a report *)
Section Node.
  Variables (ff : str -> option N) (fr : str -> option bool) (kn : str -> bool) (ss : FieldModel.schemas) (ag : bool) (fields : list FieldModel.column) (F : N -> Prop).
  Hypothesis HF : forall n f, ff n = Some f -> F f.
  Notation track := (track ff fr kn ss ag fields).
  Lemma track_functions ds : forall i g b b' g', all_use F (fun _ => True) b -> track i g b ds = Ok ((b', g'), []) -> all_use F (fun _ => True) b'.
  Proof.
    induction ds as [|d ds IH]; intros i g b b' g' U H; cbn [WholeModel.track] in H; [apply fine_inj in H; injection H as <- <-; exact U|]. apply bindR_clean in H as (b1 & H1 & H). apply IH in H; [exact H|].
    refine (detail_use F (fun _ => True) ff fr _ _ _ _ HF i b d b1 _ U H1). auto.
  Qed.
  Lemma track_kind ds : forall i g b b' g', track i g b ds = Ok ((b', g'), []) -> kind_name b' = kind_name b.
  Proof.
    induction ds as [|d ds IH]; intros i g b b' g' H; cbn [WholeModel.track] in H; [apply fine_inj in H; injection H as <- <-; reflexivity|]. apply bindR_clean in H as (b1 & H1 & H). apply IH in H. rewrite H.
    apply detail_iff in H1 as (x & _ & A). exact (add_kind _ _ _ _ _ A).
  Qed.
  Lemma track_head ds : forall i g b b' g', track i g b ds = Ok ((b', g'), []) -> head b' = head b.
  Proof.
    induction ds as [|d ds IH]; intros i g b b' g' H; cbn [WholeModel.track] in H; [apply fine_inj in H; injection H as <- <-; reflexivity|]. apply bindR_clean in H as (b1 & H1 & H). apply IH in H. rewrite H.
    apply detail_iff in H1 as (x & _ & A). exact (add_head _ _ _ _ _ A).
  Qed.
  (** outside of aggregations no columns are added, and there are schemas for read relations only *)
  Definition grows (d : RelModel.detail) : bool := match d with OnGrouping _ | OnMeasure _ => true | _ => false end.
  Lemma adds_nothing fc c i b d b' : WholeModel.is_aggregate b = false -> visitDetail ff fr fc c kn kn i b d = Ok (b', []) -> grows d = false /\ WholeModel.is_aggregate b' = false.
  Proof.
    intros Hb H. apply detail_iff in H as (x & I & A). inversion I; subst; destruct b; cbn [add] in A; try discriminate A; try discriminate Hb; split; try reflexivity;
      repeat match goal with A : match ?o with _ => _ end = Some _ |- _ => destruct o; try discriminate A end; injection A as <-; reflexivity.
  Qed.
  Lemma track_columns ds : forall i b b' g', WholeModel.is_aggregate b = false -> all_use F (below (length fields)) b -> track i [] b ds = Ok ((b', g'), []) -> all_use F (below (length fields)) b' /\ g' = [].
  Proof.
    induction ds as [|d ds IH]; intros i b b' g' Hb U H; cbn [WholeModel.track] in H; [apply fine_inj in H; injection H as <- <-; auto|]. apply bindR_clean in H as (b1 & H1 & H).
    destruct (adds_nothing _ _ i b d b1 Hb H1) as [G Hb1]. assert (O : forall j, own_columns j d = []) by (intros j; destruct d; try reflexivity; discriminate G). assert (A : added_columns fields d b1 = []) by (destruct d; try reflexivity; discriminate G).
    rewrite A in H. cbn [app] in H. apply IH in H; [exact H|exact Hb1|]. refine (detail_use F (below (length fields)) ff fr _ _ _ _ HF i b d b1 _ U H1). intros j n steps z E. rewrite O in E. cbn [app] in E. unfold find_field in E.
    destruct (FieldModel.find_in ss false (scope_with ag fields []) n) as [z'|] eqn:E'; [|discriminate]. injection E as _ <-. exact (found_below _ _ _ _ _ E').
  Qed.
  Lemma add_schemas b x b' : add kn kn b x = Some b' -> schemas_of b' = schemas_of b ++ match x with IsSchema n => filter kn [n] | _ => [] end.
  Proof. destruct x, b; cbn [add]; try discriminate; repeat match goal with |- context [match ?o with _ => _ end] => destruct o; try discriminate end; intros H; injection H as <-; cbn [schemas_of]; rewrite ?app_nil_r; reflexivity. Qed.
  Lemma track_schemas ds : forall i g b b' g', track i g b ds = Ok ((b', g'), []) -> schemas_of b' = schemas_of b ++ filter kn (used_schemas ds) /\ (kind_name b <> $"read" -> used_schemas ds = []).
  Proof.
    induction ds as [|d ds IH]; intros i g b b' g' H; cbn [WholeModel.track] in H.
    - apply fine_inj in H. injection H as <- <-. cbn. rewrite app_nil_r. auto.
    - apply bindR_clean in H as (b1 & H1 & H). apply IH in H as [H2 H3]. apply detail_iff in H1 as (x & I & A). pose proof (add_schemas _ _ _ A) as E. pose proof (add_kind _ _ _ _ _ A) as K. rewrite K in H3. rewrite H2, E. unfold used_schemas. cbn [flat_map]. fold (used_schemas ds).
      rewrite filter_app, <- app_assoc. split.
      + inversion I; subst; reflexivity.
      + intros N. rewrite (H3 N), app_nil_r. inversion I; subst; try reflexivity. destruct b; try discriminate A. exfalso. apply N. reflexivity.
  Qed.
  (** an aggregation has a column for every one that is tracked *)
  Lemma functions_given fc i j l items : ForallAt (fun j => MeasureItem ff fr fc i j) j l items -> length (measure_given l) <= length (functions items).
  Proof.
    intros H. induction H as [|j d l x items M _ IH]; [cbn; lia|]. inversion M; subst; unfold measure_given, functions in *; cbn [flat_map]; try exact IH. rewrite !app_length. destruct ids as [|? [|? ?]]; cbn [length]; lia.
  Qed.
  Lemma added_group e b : length (added_columns fields (OnGrouping e) b) <= 1.
  Proof.
    unfold added_columns. destruct b as [| | |gs ms| | | | |]; try (cbn; lia). destruct gs as [|g gs]; [cbn; lia|]. destruct (rev g) as [|x l]; [cbn; lia|]. destruct x; try (cbn; lia). destruct s; try (cbn; lia). destruct (nth_error _ _); cbn; lia.
  Qed.
  Lemma group_one gs e : length (concat (add_group gs e)) = length (concat gs) + 1.
  Proof. destruct gs as [|g gs]; [reflexivity|]. cbn [add_group concat]. rewrite !app_length. cbn [length]. lia. Qed.
  Lemma track_grows ds : forall i g gs ms b' g', length g <= length (concat gs) + length ms -> track i g (BAggregate gs ms) ds = Ok ((b', g'), []) ->
    exists gs' ms', b' = BAggregate gs' ms' /\ length g' <= length (concat gs') + length ms' /\ (g <> [] \/ Exists names_a_measure ds -> g' <> []).
  Proof.
    induction ds as [|d ds IH]; intros i g gs ms b' g' L H; cbn [WholeModel.track] in H.
    - apply fine_inj in H. injection H as <- <-. exists gs, ms. split; [reflexivity|]. split; [exact L|]. intros [N|N]; [exact N|inversion N].
    - apply bindR_clean in H as (b1 & H1 & H). apply detail_iff in H1 as (x & I & A).
      assert (X : exists gs1 ms1, b1 = BAggregate gs1 ms1 /\ length (g ++ added_columns fields d b1) <= length (concat gs1) + length ms1 /\ (names_a_measure d -> added_columns fields d b1 <> [])).
      { inversion I; subst; cbn [add] in A; try discriminate A; injection A as <-; cbn [added_columns]; rewrite ?app_nil_r; rewrite ?app_length.
        1-3: exists gs, ms; split; [reflexivity|]; split; [exact L|]; intros (? & ? & ? & ? & ? & ? & Q & _); discriminate Q.
        - eexists _, _. split; [reflexivity|]. split; [|intros (? & ? & ? & ? & ? & ? & Q & _); discriminate Q]. rewrite group_one. pose proof (added_group e (BAggregate (add_group gs y) ms)) as G. cbn [added_columns] in G. lia.
        - eexists _, _. split; [reflexivity|]. rewrite map_length, app_length. cbn [length]. inversion H0 as [? items f Hi Hm _ _]; subst. pose proof (functions_given _ i 0 l items Hi) as G. unfold at_most_one in Hm. split; [lia|].
          intros (e1 & ty & ph & n & rest & l' & Q & J) E. injection Q as <-. apply map_eq_nil in E. assert (K : In n (measure_given l)) by (unfold measure_given; apply in_flat_map; eexists; split; [exact J|left; reflexivity]). rewrite E in K. exact K. }
      destruct X as (gs1 & ms1 & -> & L1 & N1). destruct (IH _ _ _ _ _ _ L1 H) as (gs2 & ms2 & -> & L2 & N2). exists gs2, ms2. split; [reflexivity|]. split; [exact L2|]. intros N. apply N2. destruct N as [N|N].
      + left. destruct g; [contradiction|discriminate].
      + inversion N as [? ? Q|? ? Q]; subst; [left; intros E; apply app_eq_nil in E as [_ E]; exact (N1 Q E)|right; exact Q].
  Qed.
  (** its columns in terms of the numbers of its inputs' columns and of its schema's *)
  Lemma added_expressions gv l : forall g, length (add_expressions fields gv l g) <= length g + length l.
  Proof.
    induction l as [|e l IH]; intros g; cbn [add_expressions]; [cbn; lia|]. assert (X : forall c, length c <= 1 -> length (add_expressions fields gv l (g ++ c)) <= length g + length (e :: l)).
    { intros c Hc. specialize (IH (g ++ c)). rewrite app_length in IH. cbn [length]. lia. }
    destruct e; try (apply X; cbn; lia). destruct s; apply X; try (cbn; lia). destruct (FieldModel.at_index _ _); cbn; lia.
  Qed.
  Definition all_columns (b : body) (schema : nat) : nat :=
    match b with
    | BRead _ _ _ _ _ => schema
    | BAggregate gs ms => length (concat gs) + length ms
    | BProject l => length fields + length l
    | _ => length fields
    end.
  Definition reported_columns (r : relation) (schema : nat) : nat := match r_emit r with [] => all_columns (r_body r) schema | e => length e end.
  Lemma node_read gv schema b0 ds k r d :
    empty_body k = Some b0 -> ag = WholeModel.is_aggregate b0 -> visitColumns ff fr kn ss ag fields gv schema b0 ds = Ok ((r, d), []) -> FieldModel.d_missing d = [] ->
    (used_schemas ds = [] -> schema = []) ->
    all_use F (fun _ => True) (r_body r) /\ kind_name (r_body r) = to_lower k /\ schemas_of (r_body r) = filter kn (used_schemas ds) /\ FieldModel.d_fields d = fields /\
    (WholeModel.is_aggregate (r_body r) = false -> all_use F (below (length fields)) (r_body r)) /\
    ((to_lower k = $"read" -> fields = []) -> (to_lower k = $"aggregate" -> Exists names_a_measure ds) ->
      Forall (below (all_columns (r_body r) (length schema))) (r_emit r) /\ length (FieldModel.exposed d) <= reported_columns r (length schema)).
  Proof.
    intros Hk Hag H Hm Hs. destruct (empty_kind k b0 Hk) as (K1 & K2 & K3). unfold visitColumns in H. apply bindR_clean in H as ([b g] & H1 & H). apply bindR_clean in H as (emit & H2 & H).
    destruct (FieldModel.applyOutputMapping _ _ _ _ _) as [output missing] eqn:Em. apply fine_inj in H. injection H as <- <-. cbn [FieldModel.d_missing r_body r_emit FieldModel.d_fields] in *. subst missing.
    assert (U0 : forall C, all_use F C b0) by (intros C; split; [rewrite K2; constructor|rewrite K3; constructor]).
    pose proof (track_functions ds _ _ _ _ _ (U0 _) H1) as U1. pose proof (track_kind ds _ _ _ _ _ H1) as K. destruct (track_schemas ds _ _ _ _ _ H1) as [S1 S2].
    assert (Fin : body_exprs (finish b) = body_exprs b /\ body_measures (finish b) = body_measures b /\ kind_name (finish b) = kind_name b /\ schemas_of (finish b) = schemas_of b /\ WholeModel.is_aggregate (finish b) = WholeModel.is_aggregate b /\
      forall n, all_columns (finish b) n = all_columns b n) by (destruct b as [| | |[|? ?]| | | | |]; repeat split; reflexivity).
    destruct Fin as (F1 & F2 & F3 & F4 & F5 & F6). assert (Fu : forall C, all_use F C b -> all_use F C (finish b)) by (intros C [A1 A2]; split; [rewrite F1; exact A1|rewrite F2; exact A2]).
    pose proof (track_head ds _ _ _ _ _ H1) as Hh. assert (Ka : WholeModel.is_aggregate b = WholeModel.is_aggregate b0) by (destruct b, b0; try discriminate Hh; reflexivity).
    split; [apply Fu, U1|]. split; [rewrite F3, K; exact K1|]. split; [rewrite F4, S1|]. { unfold empty_body in Hk. repeat match type of Hk with context [?a =s ?w] => destruct (a =s w); [injection Hk as <-; reflexivity|] end. discriminate Hk. }
    split; [reflexivity|]. split. { rewrite F5, Ka. intros Hn. apply Fu. exact (proj1 (track_columns ds 0 b0 b g Hn (U0 _) H1)). }
    intros Hread Hagg.
    assert (E0 : forall cols, Forall (fun z => (z mod 2 ^ 64 < FieldModel.size cols)%Z) emit -> Forall (below (length cols)) emit).
    { intros cols. apply (emits_iff ff fr (fun _ _ _ => None) _ 0 kn kn) in H2. clear -H2. induction H2 as [|c z l emit Hc _ IH]; intros X; [constructor|]. inversion X as [|? ? X1 X2]; subst. constructor; [|exact (IH X2)]. unfold find_emit in Hc.
      destruct (FieldModel.find_in _ _ _ _) as [z'|] eqn:E; [|discriminate Hc]. injection Hc as <-. assert (R : (0 <= z' < 2 ^ 31)%Z).
      { unfold FieldModel.find_in in E. destruct (FieldModel.rfind _ _); [injection E as <-; apply index32_range|]. destruct (FieldModel.rfind _ _); [injection E as <-; apply index32_range|discriminate E]. }
      rewrite Z.mod_small in X1 by lia. unfold FieldModel.size in X1. split; lia. }
    set (g2 := match b with BProject es => add_expressions fields gv es g | _ => g end) in *.
    assert (Sch : kind_name b0 <> $"read" -> schema = []) by (intros N; apply Hs, S2, N).
    rewrite F6. unfold reported_columns. cbn [r_emit r_body]. rewrite F6. unfold FieldModel.exposed. cbn [FieldModel.d_output FieldModel.d_fields FieldModel.d_generated].
    destruct (Bool.bool_dec ag true) as [Eag|Eag]; [|apply Bool.not_true_is_false in Eag]; rewrite Eag in Em; rewrite Eag in Hag.
    - (* aggregation *)
      destruct b0 as [| | |gs ms| | | | |]; try discriminate Hag. assert (Z0 : length (@nil FieldModel.column) <= length (concat gs) + length ms) by (cbn; lia).
      destruct (track_grows ds 0 [] gs ms b g Z0 H1) as (gs' & ms' & -> & L & N). cbn [all_columns] in *. assert (G : g <> []) by (apply N; right; apply Hagg; rewrite <- K1; reflexivity).
      rewrite (Sch ltac:(discriminate)) in Em. cbn [app] in Em. unfold g2 in *. destruct emit as [|z emit]; cbn [FieldModel.applyOutputMapping] in Em.
      + injection Em as <-. split; [constructor|]. destruct g; [contradiction|exact L].
      + apply mapped in Em as [M1 M2]. cbn [length] in M2. split; [|destruct output; [discriminate M2|cbn [length] in *; lia]]. specialize (E0 g M1). eapply Forall_impl; [|exact E0]. intros z' Q. unfold below in *. lia.
    - assert (Hn : WholeModel.is_aggregate b0 = false) by (symmetry; exact Hag). destruct (track_columns ds 0 b0 b g Hn (U0 _) H1) as [_ ->].
      assert (W : kind_name b0 <> $"read" -> length fields + length g2 <= all_columns b (length schema)).
      { unfold g2. intros N. destruct b; cbn [all_columns]; try (cbn [length]; lia); [destruct b0; try discriminate Hh; exfalso; apply N; reflexivity|exfalso; destruct b0; try discriminate Hh; discriminate Hn|]. pose proof (added_expressions gv expressions []). cbn [length] in *. lia. }
      destruct emit as [|z emit]; cbn [FieldModel.applyOutputMapping] in Em.
      + injection Em as <-. split; [constructor|]. destruct (seq_eqb_spec (kind_name b0) $"read") as [Er|Er].
        * rewrite (Hread ltac:(congruence)). assert (B : head b = 0). { rewrite Hh. destruct b0; try discriminate Er; try reflexivity. exfalso. cbn [kind_name] in Er. subst name. unfold empty_body in Hk.
            repeat match type of Hk with context [?a =s ?w] => destruct (a =s w); [discriminate Hk|] end. discriminate Hk. }
          destruct b; try discriminate B. unfold g2. cbn [all_columns app]. destruct schema; cbn [length]; lia.
        * pose proof (W Er) as W1. rewrite (Sch Er) in *. rewrite app_length. exact W1.
      + apply mapped in Em as [M1 M2]. specialize (E0 _ M1). rewrite app_length in E0. destruct (seq_eqb_spec (kind_name b0) $"read") as [Er|Er].
        * exfalso. assert (B : head b = 0). { rewrite Hh. destruct b0; try discriminate Er; try reflexivity. exfalso. cbn [kind_name] in Er. subst name. unfold empty_body in Hk.
            repeat match type of Hk with context [?a =s ?w] => destruct (a =s w); [discriminate Hk|] end. discriminate Hk. }
          rewrite (Hread ltac:(congruence)) in E0. unfold g2 in E0. destruct b; try discriminate B. cbn [length Nat.add] in E0. inversion E0 as [|? ? Q _]. unfold below in Q. lia.
        * rewrite (Sch Er) in M2. cbn [length] in M2. split; [|destruct output; [discriminate M2|cbn [length] in *; lia]]. eapply Forall_impl; [|exact E0]. intros z' Q. unfold below in *. specialize (W Er). lia.
  Qed.
End Node.

(** * All relations *)
Section Nodes.
  Variables (ff : str -> option N) (tab : table) (S : TreeModel.read_plan) (earlier : list known_rel) (F : N -> Prop).
  Hypothesis HF : forall n f, ff n = Some f -> F f.
  Definition schema_of (n : rnode) : list FieldModel.column := flat_map (schema_columns tab) (used_schemas (n_details n)).
  (** the names of the expressions of a project relation *)
  Definition names_given (b0 : body) (n : rnode) (gv : list str) : Prop := exists t, gv = match b0 with BProject _ => snd (given_names t (n_details n)) | _ => [] end.
  Definition reads_node (known : list known_rel) (n : rnode) (x : relation * FieldModel.data) : Prop :=
    exists b0 gv, empty_body (n_kind n) = Some b0 /\ FieldModel.d_missing (snd x) = [] /\ names_given b0 n gv /\
      visitColumns ff (find_relation S) (known_symbol tab) (schema_list tab) (WholeModel.is_aggregate b0) (fields_of S (known ++ earlier) (n_name n)) gv (schema_of n) b0 (n_details n) = Ok (x, []).
  Inductive Visited : list known_rel -> list rnode -> list known_rel -> Prop :=
  | V_nil known : Visited known [] known
  | V_taken known n l known' : taken S known (n_name n) = true -> Visited known l known' -> Visited known (n :: l) known'
  | V_one known n l known' x : taken S known (n_name n) = false -> reads_node known n x -> Visited (known ++ [(n_name n, x)]) l known' -> Visited known (n :: l) known'.
  Lemma visited l : forall t known known', visit_nodes ff tab S earlier t known l = Ok (known', []) -> Visited known l known'.
  Proof.
    induction l as [|n l IH]; intros t known known' H; cbn [visit_nodes] in H; [injection H as <-; constructor|]. unfold visit_node in H. destruct (taken S known (n_name n)) eqn:T.
    - cbn [obind] in H. destruct (visit_nodes ff tab S earlier t known l) as [[k e]| |] eqn:E; cbn [obind fst snd app] in H; try discriminate H. injection H as <- ->. apply V_taken; [exact T|exact (IH _ _ _ E)].
    - destruct (empty_body (n_kind n)) as [b0|] eqn:B.
      + destruct (match b0 with BProject _ => given_names t (n_details n) | _ => (t, []) end) as [t1 gv] eqn:Gv.
        destruct (visitColumns _ _ _ _ _ _ _ _ _ _) as [[x e]| |] eqn:V; cbn [obind fst snd] in H; try discriminate H.
        destruct (visit_nodes ff tab S earlier t1 (known ++ [(n_name n, x)]) l) as [[k e']| |] eqn:E; cbn [obind fst snd] in H; try discriminate H. injection H as <- H. apply app_eq_nil in H as [H ->]. apply app_eq_nil in H as [H1 H2].
        apply map_eq_nil in H1, H2. subst e. apply (V_one _ _ _ _ x T); [|exact (IH _ _ _ E)]. exists b0, gv. split; [exact B|]. split; [exact H2|]. split; [|exact V]. exists t. destruct b0; try (injection Gv as _ <-; reflexivity). rewrite Gv. reflexivity.
      + cbn [obind] in H. destruct (visit_nodes ff tab S earlier t known l) as [[k e]| |]; cbn [obind fst snd app] in H; discriminate H.
  Qed.
  (** every function is one that was found *)
  Lemma visited_functions known l known' : Visited known l known' -> Forall (fun e => all_use F (fun _ => True) (r_body (fst (snd e)))) known -> Forall (fun e => all_use F (fun _ => True) (r_body (fst (snd e)))) known'.
  Proof.
    induction 1 as [known|known n l known' T _ IH|known n l known' [r d] T (b0 & gv & B & M & _ & V) _ IH]; intros H; [exact H|exact (IH H)|]. apply IH. apply Forall_app. split; [exact H|]. constructor; [|constructor]. cbn [fst snd] in *.
    eapply (node_read ff _ _ _ (WholeModel.is_aggregate b0) _ F HF gv (schema_of n) b0 (n_details n) (n_kind n) r d B eq_refl V M). intros Q. unfold schema_of. rewrite Q. reflexivity.
  Qed.
  Lemma visited_find known l known' : Visited known l known' -> exists more, known' = known ++ more.
  Proof.
    induction 1 as [known|known n l known' T _ (more & ->)|known n l known' x T _ _ (more & ->)]; [exists []; rewrite app_nil_r; reflexivity|exists more; reflexivity|]. exists ((n_name n, x) :: more). rewrite <- app_assoc. reflexivity.
  Qed.
End Nodes.
Lemma find_rel_in n l x : find_rel n l = Some x -> In (n, x) l.
Proof. induction l as [|[m y] l IH]; cbn; [discriminate|]. destruct (seq_eqb_spec m n) as [->|_]; [intros H; injection H as ->; auto|auto]. Qed.
Lemma found_function fs n f : DeclModel.resolve_function fs n = Some f -> exists g, In g (DeclModel.functions fs) /\ DeclModel.f_anchor g = f.
Proof.
  unfold DeclModel.resolve_function. destruct (find _ fs) as [[u a|g|o]|] eqn:E; try discriminate. intros H. injection H as <-. apply find_some in E as [I _]. exists g. split; [|reflexivity]. unfold DeclModel.functions. apply in_flat_map. exists (DeclModel.EFunction g). split; [exact I|left; reflexivity].
Qed.

(** * Trees *)
Lemma fill_eq tab known a k n ins es : fill tab known (TreeModel.Rel a k n ins es) =
  (l <- TreeModel.omap_list (fill tab known) ins ;;
   match find_rel n known with
   | None => Ok (Node (Relation (BOther $"unknown") []) None None l)
   | Some (r, _) => s <- message_source tab None (sources_of (r_body r)) ;; Ok (Node (message r) s (message_schema tab (schemas_of (r_body r))) l)
   end).
Proof.
  cbn [fill]. assert (E : (fix go (l : list (TreeModel.rel unit)) : outcome (list tree) := match l with [] => Ok [] | i :: l => x <- fill tab known i ;; r <- go l ;; Ok (x :: r) end) ins = TreeModel.omap_list (fill tab known) ins).
  { induction ins as [|i ins IH]; [reflexivity|]. cbn [TreeModel.omap_list]. rewrite IH. reflexivity. }
  rewrite E. reflexivity.
Qed.
Lemma message_body r : body_exprs (r_body (message r)) = body_exprs (r_body r) /\ body_measures (r_body (message r)) = body_measures (r_body r) /\ r_emit (message r) = r_emit r /\
  WholeModel.is_aggregate (r_body (message r)) = WholeModel.is_aggregate (r_body r) /\ kind_name (r_body (message r)) = kind_name (r_body r).
Proof. destruct r as [b e]. unfold message. cbn [r_body r_emit]. destruct b; repeat split; reflexivity. Qed.
Section Everywhere.
  Variables (tab : table) (known : list known_rel) (P : relation -> Prop).
  Hypothesis H0 : P (Relation (BOther $"unknown") []).
  Hypothesis H1 : forall n r d, find_rel n known = Some (r, d) -> P (message r).
  Fixpoint fill_everywhere (t : TreeModel.rel unit) : forall x, fill tab known t = Ok x -> Forall (fun y => P (rel_of y)) (nodes x).
  Proof.
    destruct t as [|a k n ins es]; intros x E; [injection E as <-; constructor; [exact H0|constructor]|]. rewrite fill_eq in E. destruct (TreeModel.omap_list (fill tab known) ins) as [l| |] eqn:El; cbn [obind] in E; try discriminate E.
    assert (Hl : Forall (fun y => P (rel_of y)) (flat_map nodes l)).
    { clear E n k es. revert l El. induction ins as [|i ins IH]; intros l El; cbn [TreeModel.omap_list] in El; [injection El as <-; constructor|].
      destruct (fill tab known i) as [y| |] eqn:Ei; cbn [obind] in El; try discriminate El. destruct (TreeModel.omap_list (fill tab known) ins) as [ys| |]; cbn [obind] in El; try discriminate El. injection El as <-.
      cbn [flat_map]. apply Forall_app. split; [exact (fill_everywhere i y Ei)|exact (IH ys eq_refl)]. }
    destruct (find_rel n known) as [[r d]|] eqn:Fn.
    - destruct (message_source tab None (sources_of (r_body r))) as [src| |]; cbn [obind] in E; try discriminate E. injection E as <-. cbn [nodes]. constructor; [exact (H1 n r d Fn)|exact Hl].
    - injection E as <-. cbn [nodes]. constructor; [exact H0|exact Hl].
  Qed.
End Everywhere.
Lemma fill_all_in tab known l : forall rels, fill_all tab known l = Ok rels -> forall x names, In (x, names) rels -> exists t ns, In (t, ns) l /\ fill tab known t = Ok x.
Proof.
  induction l as [|[t ns] l IH]; intros rels E x names I; cbn [fill_all] in E; [injection E as <-; destruct I|]. destruct (fill tab known t) as [y| |] eqn:Ey; cbn [obind] in E; try discriminate E.
  destruct (fill_all tab known l) as [r| |]; cbn [obind] in E; try discriminate E. injection E as <-. destruct I as [Q|I]; [injection Q as <- _; exists t, ns; split; [left; reflexivity|exact Ey]|].
  destruct (IH r eq_refl x names I) as (t' & ns' & I' & E'). exists t', ns'. split; [right; exact I'|exact E'].
Qed.
(** Everything that a text without reports went through *)
Lemma from_text_parts s b : from_text s = Ok (Some b, []) -> exists nodes tab rp first known l,
  parse s = Some nodes /\ symbols nodes = Ok (tab, []) /\ TreeModel.readText (text_of nodes tab) = Ok (rp, []) /\
  visit_nodes (DeclModel.resolve_function (entries 0 0 nodes)) tab rp first SymbolModel.empty_table [] (relations_of nodes) = Ok (known, []) /\
  TreeModel.outputToBinaryPlan rp (Datatypes.S (length (relations_of nodes))) = Ok l /\ fill_all tab known l = Ok (b_rels b) /\
  b_decls b = DeclModel.outputFunctions (entries 0 0 nodes).
Proof.
  unfold from_text. destruct (parse s) as [nodes|]; [|discriminate]. destruct (symbols nodes) as [[tab e1]| |] eqn:E1; cbn [obind]; try discriminate.
  destruct (TreeModel.readText (text_of nodes tab)) as [[rp e2]| |] eqn:E2; cbn [obind]; try discriminate.
  destruct (visit_nodes _ _ _ [] _ _ _) as [[first e3]| |]; cbn [obind]; try discriminate. destruct (map WPass e1 ++ map WTree e2 ++ filter reported_first e3) eqn:E; [|discriminate].
  apply app_eq_nil in E as [Ea E]. apply app_eq_nil in E as [Eb _]. apply map_eq_nil in Ea, Eb. subst e1 e2.
  destruct (visit_nodes _ _ _ first _ _ _) as [[known e4]| |] eqn:E4; cbn [obind]; try discriminate. destruct (TreeModel.outputToBinaryPlan _ _) as [l| |] eqn:El; cbn [obind]; try discriminate.
  destruct (fill_all tab known l) as [rels| |] eqn:Ef; cbn [obind]; try discriminate. intros H. injection H as <- ->. exists nodes, tab, rp, first, known, l. repeat split; assumption || reflexivity.
Qed.
Theorem functions_declared s b : from_text s = Ok (Some b, []) -> forall t names, In (t, names) (b_rels b) -> Forall (fun x => calls_declared b (rel_of x)) (nodes t).
Proof.
  intros H t names I. destruct (from_text_parts s b H) as (nodes & tab & rp & first & known & l & Ep & Es & Er & Ev & El & Ef & Ed).
  assert (HF : forall n f, DeclModel.resolve_function (entries 0 0 nodes) n = Some f -> declared b f).
  { intros n f E. apply found_function in E as (g & Ig & <-). unfold declared. rewrite Ed. destruct (DeclFacts.output_functions (entries 0 0 nodes)) as (w & wo & -> & Pm & _).
    exists (DeclModel.binary_decl (entries 0 0 nodes) g). split; [|reflexivity]. apply in_map. apply (Permutation_in _ (Permutation_sym Pm)). exact Ig. }
  pose proof (visited_functions _ _ _ _ (declared b) HF _ _ _ (visited _ _ _ _ _ _ _ _ Ev) (Forall_nil _)) as K.
  destruct (fill_all_in _ _ _ _ Ef _ _ I) as (t0 & ns & _ & Et). refine (fill_everywhere tab known (calls_declared b) _ _ t0 t Et).
  - split; constructor.
  - intros n r d Fn. apply find_rel_in in Fn. rewrite Forall_forall in K. specialize (K _ Fn). cbn [fst snd] in K. destruct K as [K1 K2]. destruct (message_body r) as (M1 & M2 & _). unfold calls_declared. rewrite M1, M2. split; [|exact K2].
    rewrite Forall_flat_map. eapply Forall_impl; [|exact K1]. intros e [U _]. exact U.
Qed.

(** * Columns *)
Lemma find_rel_app n a b : find_rel n (a ++ b) = match find_rel n a with Some x => Some x | None => find_rel n b end.
Proof. induction a as [|[m x] a IH]; cbn; [reflexivity|]. destruct (m =s n); auto. Qed.
Lemma find_rel_some n l : In n (map fst l) <-> exists x, find_rel n l = Some x.
Proof.
  induction l as [|[m y] l IH]; cbn; [split; [intros []|intros (x & H); discriminate]|]. destruct (seq_eqb_spec m n) as [->|N]; [split; eauto|]. rewrite <- IH. intuition congruence.
Qed.
Section Known.
  Variables (ff : str -> option N) (tab : table) (S : TreeModel.read_plan) (earlier : list known_rel).
  Notation Visited := (Visited ff tab S earlier).
  Lemma fields_known n k known' : incl (inputs_of S n) (map fst k) -> (exists more, known' = k ++ more) -> fields_of S (k ++ earlier) n = fields_of S known' n.
  Proof.
    intros Hi (more & ->). unfold fields_of. induction (inputs_of S n) as [|i l IH]; [reflexivity|]. cbn [flat_map]. rewrite IH by (intros j J; apply Hi; right; exact J). f_equal. assert (I : In i (map fst k)) by (apply Hi; left; reflexivity).
    apply find_rel_some in I as (x & E). rewrite !find_rel_app, E. reflexivity.
  Qed.
  Lemma visited_info known l known' : Visited known l known' -> (forall n, In n l -> find_relation S (n_name n) = Some true) -> NoDup (map fst known ++ map n_name l) ->
    (forall before n after, l = before ++ n :: after -> incl (inputs_of S (n_name n)) (map fst known ++ map n_name before)) ->
    map fst known' = map fst known ++ map n_name l /\
    forall n, In n l -> exists x b0 gv, find_rel (n_name n) known' = Some x /\ empty_body (n_kind n) = Some b0 /\ FieldModel.d_missing (snd x) = [] /\ names_given b0 n gv /\
      visitColumns ff (find_relation S) (known_symbol tab) (schema_list tab) (WholeModel.is_aggregate b0) (fields_of S known' (n_name n)) gv (schema_of tab n) b0 (n_details n) = Ok (x, []).
  Proof.
    induction 1 as [known|known n l known' T _ IH|known n l known' x T (b0 & gv & B & M & N & V) Vs IH]; intros R ND O.
    - rewrite app_nil_r. split; [reflexivity|intros n []].
    - exfalso. unfold taken in T. rewrite (R n (or_introl eq_refl)) in T. destruct (find_rel (n_name n) known) as [y|] eqn:E; [|discriminate T]. assert (I : In (n_name n) (map fst known)) by (apply find_rel_some; eauto).
      cbn [map] in ND. apply NoDup_remove_2 in ND. apply ND, in_or_app. left. exact I.
    - destruct (visited_find _ _ _ _ _ _ _ Vs) as (more & Em). assert (Nn : find_rel (n_name n) known = None).
      { destruct (find_rel (n_name n) known) as [y|] eqn:E; [|reflexivity]. exfalso. cbn [map] in ND. apply NoDup_remove_2 in ND. apply ND, in_or_app. left. apply find_rel_some. eauto. }
      destruct IH as [I1 I2].
      { intros m I. apply R. right. exact I. }
      { rewrite map_app. cbn [map fst]. rewrite <- app_assoc. exact ND. }
      { intros before m after E. rewrite map_app. cbn [map fst]. rewrite <- app_assoc. cbn [app]. apply (O (n :: before) m after). rewrite E. reflexivity. }
      split; [rewrite I1, map_app, <- app_assoc; reflexivity|]. intros m [<-|I]; [|exact (I2 m I)]. exists x, b0, gv. split; [rewrite Em, !find_rel_app, Nn; cbn; rewrite seq_eqb_refl; reflexivity|]. split; [exact B|]. split; [exact M|]. split; [exact N|].
      rewrite <- (fields_known (n_name n) known known'); [exact V| |].
      + specialize (O [] n l eq_refl). cbn [map] in O. rewrite app_nil_r in O. exact O.
      + exists ((n_name n, x) :: more). rewrite Em, <- app_assoc. reflexivity.
  Qed.
End Known.
(** the columns of a schema are those of the message *)
Definition names_of (s : option named_struct) : nat := match s with Some s => length (ns_names s) | None => 0 end.
Lemma schema_size tab l : forall acc, names_of (fold_left (fun acc n => merge_schema acc (use_schema tab n)) l acc) = names_of acc + length (flat_map (schema_columns tab) l).
Proof.
  induction l as [|n l IH]; intros acc; cbn [fold_left flat_map length]; [lia|]. rewrite IH, app_length. unfold use_schema, schema_columns. destruct (find_symbol tab n) as [s|].
  - rewrite map_length. destruct acc as [a|]; cbn [merge_schema names_of ns_names]; rewrite ?app_length, !map_length; lia.
  - destruct acc; cbn [merge_schema names_of length]; lia.
Qed.
Lemma schema_filter tab l : flat_map (schema_columns tab) (filter (known_symbol tab) l) = flat_map (schema_columns tab) l.
Proof.
  induction l as [|n l IH]; [reflexivity|]. cbn [filter flat_map]. unfold known_symbol at 1. destruct (find_symbol tab n) as [s|] eqn:E; cbn [flat_map]; rewrite IH; [reflexivity|]. unfold schema_columns at 2. rewrite E. reflexivity.
Qed.
Section Built.
  Variables (tab : table) (known : list known_rel) (S : TreeModel.read_plan) (rels : list rnode).
  Notation fields n := (fields_of S known (n_name n)).
  Definition Good (n : rnode) (r : relation) (d : FieldModel.data) : Prop :=
    (exists b0, empty_body (n_kind n) = Some b0) /\ schemas_of (r_body r) = filter (known_symbol tab) (used_schemas (n_details n)) /\
    (WholeModel.is_aggregate (r_body r) = false -> all_use (fun _ => True) (below (length (fields n))) (r_body r)) /\
    Forall (below (all_columns (fields n) (r_body r) (length (schema_of tab n)))) (r_emit r) /\ length (FieldModel.exposed d) <= reported_columns (fields n) r (length (schema_of tab n)).
  Hypothesis info : forall n, In n rels -> exists r d, find_rel (n_name n) known = Some (r, d) /\ Good n r d.
  Hypothesis names_known : map fst known = map n_name rels.
  Hypothesis named : ~ In [] (map n_name rels).
  Hypothesis sections : TreeModel.r_rels S = map (fun n => {| TreeModel.x_name := n_name n; TreeModel.x_kind := kind_read (n_kind n); TreeModel.x_body := n_name n; TreeModel.x_exprs := [] |}) rels.
  Hypothesis inputs : forall n, In n rels -> let d := TreeModel.rel_data S (n_name n) in let k := to_lower (n_kind n) in
    if k =s $"read" then PipeModel.cont d = None /\ PipeModel.news d = [] else if (k =s $"join") || (k =s $"cross") then PipeModel.cont d = None /\ length (PipeModel.news d) = 2
    else (exists i, inputs_of S (n_name n) = [i]) /\ k <> $"set".
  Definition exposes (n : str) : nat := match find_rel n known with Some (_, d) => length (FieldModel.exposed d) | None => 0 end.
  Lemma fields_size n : length (fields_of S known n) = fold_right (fun i k => exposes i + k) 0 (inputs_of S n).
  Proof. unfold fields_of. induction (inputs_of S n) as [|i l IH]; [reflexivity|]. cbn [flat_map fold_right]. rewrite app_length, IH. unfold exposes. destruct (find_rel i known) as [[r d]|]; reflexivity. Qed.
  Lemma section_node n : TreeModel.find_section S n = None /\ find_rel n known = None \/
    exists m, In m rels /\ n_name m = n /\ TreeModel.find_section S n = Some {| TreeModel.x_name := n; TreeModel.x_kind := kind_read (n_kind m); TreeModel.x_body := n; TreeModel.x_exprs := [] |}.
  Proof.
    unfold TreeModel.find_section. rewrite sections. destruct (find _ _) as [s|] eqn:E.
    - right. apply find_some in E as [I E]. apply in_map_iff in I as (m & <- & I). cbn [TreeModel.x_name] in E. apply seq_eqb_eq in E. exists m. subst n. auto.
    - left. split; [reflexivity|]. destruct (find_rel n known) as [x|] eqn:Fn; [|reflexivity]. exfalso. assert (I : In n (map fst known)) by (apply find_rel_some; eauto). rewrite names_known in I. apply in_map_iff in I as (m & <- & I).
      assert (J := find_none _ _ E _ (in_map _ _ _ I)). cbn [TreeModel.x_name] in J. rewrite seq_eqb_refl in J. discriminate J.
  Qed.
  Lemma below_more n m z : n <= m -> below n z -> below m z.
  Proof. unfold below. lia. Qed.
  (** a relation of the text with inputs that have the columns it counts *)
  Lemma node_columns n r d src l : In n rels -> find_rel (n_name n) known = Some (r, d) -> Good n r d -> length (fields n) <= widths l ->
    let x := Node (message r) src (message_schema tab (schemas_of (r_body r))) l in columns_exist x /\ exposes (n_name n) <= width x.
  Proof.
    intros I Fn (G1 & G2 & G3 & G4 & G5) L. cbv zeta. destruct (message_body r) as (M1 & M2 & M3 & M4 & M5).
    assert (Sz : names_of (message_schema tab (schemas_of (r_body r))) = length (schema_of tab n)) by (unfold message_schema; rewrite schema_size, G2, schema_filter; reflexivity).
    assert (Fl : all_columns (fields n) (r_body r) (length (schema_of tab n)) <= full (Node (message r) src (message_schema tab (schemas_of (r_body r))) l)).
    { rewrite <- Sz. cbn [full]. unfold message. cbn [r_body]. destruct (r_body r); cbn [all_columns names_of]; try exact L; try (unfold names_of; destruct (message_schema _ _); lia); lia. }
    unfold columns_exist. cbn [rel_of ins_of]. rewrite M1, M3, M4. split; [split|].
    - intros Ha. destruct (G3 Ha) as [U _]. rewrite Forall_flat_map. eapply Forall_impl; [|exact U]. intros e [_ C]. eapply Forall_impl; [|exact C]. intros z. apply below_more, L.
    - eapply Forall_impl; [|exact G4]. intros z. apply below_more, Fl.
    - unfold exposes. rewrite Fn. etransitivity; [exact G5|]. unfold reported_columns. cbn [width]. rewrite M3. destruct (r_emit r) as [|z e]; [|lia]. cbn [full] in Fl. fold (widths l). exact Fl.
  Qed.
  Lemma kinds k b : empty_body k = Some b ->
    to_lower k = $"read" /\ kind_read k = TreeModel.KRead \/ (to_lower k = $"join" /\ kind_read k = TreeModel.KJoin \/ to_lower k = $"cross" /\ kind_read k = TreeModel.KCross) \/ to_lower k = $"set" \/
    In (to_lower k) [$"project"; $"fetch"; $"aggregate"; $"sort"; $"filter"] /\ In (kind_read k) [TreeModel.KProject; TreeModel.KFetch; TreeModel.KAggregate; TreeModel.KSort; TreeModel.KFilter].
  Proof.
    intros H. assert (E : kind_read k = kind_of b) by (unfold kind_read; rewrite H; reflexivity). rewrite E. clear E. unfold empty_body in H.
    repeat match type of H with context [?a =s ?w] => destruct (seq_eqb_spec a w) as [Ek|_]; [injection H as <-; rewrite Ek; cbn; tauto|] end. discriminate H.
  Qed.
  Lemma built fuel : forall n t x, TreeModel.build S fuel n = Ok t -> fill tab known t = Ok x -> Forall columns_exist (nodes x) /\ exposes n <= width x.
  Proof.
    induction fuel as [|fuel IH]; intros n t x B Fx; [discriminate B|]. cbn [TreeModel.build] in B. destruct (section_node n) as [[E En]|(m & I & <- & E)]; rewrite E in B.
    - unfold TreeModel.bare in B. rewrite E in B. injection B as <-. rewrite fill_eq in Fx. cbn [TreeModel.omap_list obind] in Fx. assert (Z : find_rel [] known = None).
      { destruct (find_rel [] known) as [y|] eqn:Fn; [|reflexivity]. exfalso. apply named. rewrite <- names_known. apply find_rel_some. eauto. }
      rewrite Z in Fx. injection Fx as <-. split; [|unfold exposes; rewrite En; lia]. constructor; [|constructor]. split; cbn; constructor.
    - destruct (info m I) as (r & d & Fm & G). cbn [TreeModel.x_kind TreeModel.x_body TreeModel.x_exprs flat_map TreeModel.attaches obind fst map] in B.
      assert (Done : forall ins l, t = TreeModel.Rel tt (kind_read (n_kind m)) (n_name m) ins [] -> TreeModel.omap_list (fill tab known) ins = Ok l -> Forall columns_exist (flat_map nodes l) -> length (fields m) <= widths l -> Forall columns_exist (nodes x) /\ exposes (n_name m) <= width x).
      { intros ins l -> El Hl L. rewrite fill_eq, El in Fx. cbn [obind] in Fx. rewrite Fm in Fx. destruct (message_source _ _ _) as [src| |]; cbn [obind] in Fx; try discriminate Fx. injection Fx as <-.
        destruct (node_columns m r d src l I Fm G L) as [N1 N2]. split; [|exact N2]. cbn [nodes]. constructor; [exact N1|exact Hl]. }
      assert (One : forall i, inputs_of S (n_name m) = [i] -> (r0 <- TreeModel.build S fuel i ;; Ok (TreeModel.Rel tt (kind_read (n_kind m)) (n_name m) [r0] [])) = Ok t -> Forall columns_exist (nodes x) /\ exposes (n_name m) <= width x).
      { intros i Ei Bi. destruct (TreeModel.build S fuel i) as [ti| |] eqn:Eb; cbn [obind] in Bi; try discriminate Bi. injection Bi as <-. pose proof Fx as Fx'. rewrite fill_eq in Fx'. cbn [TreeModel.omap_list] in Fx'.
        destruct (fill tab known ti) as [y| |] eqn:Ey; cbn [obind] in Fx'; try discriminate Fx'. destruct (IH i ti y Eb Ey) as [Y1 Y2]. apply (Done [ti] [y] eq_refl).
        - cbn [TreeModel.omap_list]. rewrite Ey. reflexivity.
        - cbn [flat_map]. rewrite app_nil_r. exact Y1.
        - rewrite fields_size, Ei. cbn [fold_right widths]. lia. }
      assert (Two : PipeModel.cont (TreeModel.rel_data S (n_name m)) = None -> length (PipeModel.news (TreeModel.rel_data S (n_name m))) = 2 ->
        match PipeModel.news (TreeModel.rel_data S (n_name m)) with [l; r0] => x0 <- TreeModel.build S fuel l ;; y <- TreeModel.build S fuel r0 ;; Ok (TreeModel.Rel tt (kind_read (n_kind m)) (n_name m) [x0; y] []) | _ => Ok (TreeModel.bare S (n_name m)) end = Ok t ->
        Forall columns_exist (nodes x) /\ exposes (n_name m) <= width x).
      { intros Ec L2 Bi. destruct (PipeModel.news _) as [|i1 [|i2 [|? ?]]] eqn:Ew; try discriminate L2.
        destruct (TreeModel.build S fuel i1) as [t1| |] eqn:Eb1; cbn [obind] in Bi; try discriminate Bi. destruct (TreeModel.build S fuel i2) as [t2| |] eqn:Eb2; cbn [obind] in Bi; try discriminate Bi. injection Bi as <-.
        pose proof Fx as Fx'. rewrite fill_eq in Fx'. cbn [TreeModel.omap_list] in Fx'. destruct (fill tab known t1) as [y1| |] eqn:Ey1; cbn [obind] in Fx'; try discriminate Fx'. destruct (fill tab known t2) as [y2| |] eqn:Ey2; cbn [obind] in Fx'; try discriminate Fx'.
        destruct (IH i1 t1 y1 Eb1 Ey1) as [Y1 Y2]. destruct (IH i2 t2 y2 Eb2 Ey2) as [Y3 Y4]. apply (Done [t1; t2] [y1; y2] eq_refl).
        - cbn [TreeModel.omap_list]. rewrite Ey1. cbn [obind]. rewrite Ey2. reflexivity.
        - cbn [flat_map]. rewrite app_nil_r. apply Forall_app. split; assumption.
        - rewrite fields_size. unfold inputs_of. rewrite Ec, Ew. cbn [some_list app fold_right widths]. lia. }
      assert (Next : forall i, inputs_of S (n_name m) = [i] -> TreeModel.getNextSinglePipeline (TreeModel.rel_data S (n_name m)) = Some i).
      { intros i. unfold inputs_of, TreeModel.getNextSinglePipeline. destruct (PipeModel.cont _) as [c|]; cbn [some_list app]; [intros Q; injection Q as -> _; reflexivity|]. intros ->. reflexivity. }
      pose proof (inputs m I) as X. cbv zeta in X. destruct G as ((b0 & G1) & _). destruct (kinds _ _ G1) as [[K1 K2]|[[[K1 K2]|[K1 K2]]|[K1|[K1 K2]]]].
      + rewrite K1 in X. cbn in X. destruct X as [X1 X2]. rewrite K2 in B. unfold TreeModel.bare in B. rewrite E in B. cbn [map TreeModel.x_exprs TreeModel.x_kind TreeModel.x_body] in B. injection B as <-. apply (Done [] [] eq_refl eq_refl); [constructor|].
        rewrite fields_size. unfold inputs_of. rewrite X1, X2. cbn. lia.
      + rewrite K1 in X. cbn in X. destruct X as [X1 X2]. apply (Two X1 X2). rewrite K2 in *. exact B.
      + rewrite K1 in X. cbn in X. destruct X as [X1 X2]. apply (Two X1 X2). rewrite K2 in *. exact B.
      + rewrite K1 in X. cbn in X. destruct X as [_ X]. exfalso. apply X. reflexivity.
      + assert (X' : exists i, inputs_of S (n_name m) = [i]) by (cbn [In] in K1; repeat destruct K1 as [K1|K1]; [rewrite <- K1 in X; cbn in X; apply X..|destruct K1]). destruct X' as (i & Ei). apply (One i Ei). rewrite (Next i Ei) in B.
        cbn [In] in K2. repeat destruct K2 as [K2|K2]; [rewrite <- K2 in *; exact B..|destruct K2].
  Qed.
End Built.

Lemma define_clean rs : forall t t', TreeModel.define_rels t rs = (t', []) -> t' = t ++ map (fun r => (TreeModel.x_name r, PipeModel.PRel PipeModel.no_data)) rs /\
  NoDup (map TreeModel.x_name rs) /\ forall r, In r rs -> PipeModel.plookup t (TreeModel.x_name r) = None.
Proof.
  induction rs as [|r rs IH]; intros t t' H; cbn [TreeModel.define_rels map] in H.
  - injection H as <-. rewrite app_nil_r. split; [reflexivity|]. split; [constructor|intros r []].
  - destruct (PipeModel.plookup t (TreeModel.x_name r)) eqn:E; [destruct (TreeModel.define_rels t rs); discriminate H|]. apply IH in H as (-> & ND & N). cbn [map]. rewrite <- app_assoc. split; [reflexivity|].
    assert (Q : forall y, In y rs -> PipeModel.plookup t (TreeModel.x_name y) = None /\ TreeModel.x_name r <> TreeModel.x_name y).
    { intros y I. specialize (N y I). rewrite PipeFacts.plookup_app in N. destruct (PipeModel.plookup t (TreeModel.x_name y)); [discriminate N|]. split; [reflexivity|]. intros Eq. rewrite Eq in N. cbn in N. rewrite seq_eqb_refl in N. discriminate N. }
    split; [constructor; [|exact ND]|].
    + intros I. apply in_map_iff in I as (y & Ey & I). destruct (Q y I) as [_ Q']. congruence.
    + intros y [<-|I]; [exact E|apply Q, I].
Qed.
Lemma roots_clean l t t' : TreeModel.define_roots t false l = (t', []) -> l = [] /\ t' = t \/ t' = t ++ [(TreeModel.root_name, PipeModel.PRel PipeModel.no_data)] /\ PipeModel.plookup t TreeModel.root_name = None.
Proof.
  destruct l as [|y l]; cbn [TreeModel.define_roots]; [intros H; injection H as <-; auto|]. destruct (PipeModel.plookup t TreeModel.root_name) eqn:E; [destruct (TreeModel.define_roots t false l); discriminate|].
  destruct l as [|z l]; cbn [TreeModel.define_roots]; [intros H; injection H as <-; auto|]. destruct (TreeModel.define_roots _ true l); discriminate.
Qed.

Lemma keys_unique l : forall ks, NoDup ks -> NoDup (fold_left TreeFacts.addkey l ks).
Proof.
  induction l as [|n l IH]; intros ks ND; [exact ND|]. cbn [fold_left]. apply IH. unfold TreeFacts.addkey. destruct (existsb (fun m => m =s n) ks) eqn:E; [exact ND|]. apply (Permutation_NoDup (Permutation_cons_append ks n)). constructor; [|exact ND].
  intros I. assert (T : existsb (fun m => m =s n) ks = true) by (apply existsb_exists; exists n; split; [exact I|apply seq_eqb_refl]). congruence.
Qed.
Lemma omap_in {A B} (f : A -> outcome B) l : forall l' y, TreeModel.omap_list f l = Ok l' -> In y l' -> exists x, In x l /\ f x = Ok y.
Proof.
  induction l as [|a l IH]; intros l' y H I; cbn [TreeModel.omap_list] in H; [injection H as <-; destruct I|]. destruct (f a) as [z| |] eqn:Ez; cbn [obind] in H; try discriminate H.
  destruct (TreeModel.omap_list f l) as [zs| |]; cbn [obind] in H; try discriminate H. injection H as <-. destruct I as [<-|I]; [exists a; split; [left; reflexivity|exact Ez]|]. destruct (IH zs y eq_refl I) as (x & I' & E). exists x. split; [right; exact I'|exact E].
Qed.
Lemma fresh_other l : PipeFacts.fresh (map (fun n => (n, PipeModel.POther)) l).
Proof. intros n d H. exfalso. induction l as [|m l IH]; cbn in H; [discriminate H|]. destruct (m =s n); [discriminate H|exact (IH H)]. Qed.
Lemma fresh_app t u : PipeFacts.fresh t -> PipeFacts.fresh u -> PipeFacts.fresh (t ++ u).
Proof. intros A B n d. rewrite PipeFacts.plookup_app. destruct (PipeModel.plookup t n) as [s|] eqn:E; [|apply B]. intros H. apply (A n). congruence. Qed.
Lemma fresh_rels (l : list str) : PipeFacts.fresh (map (fun n => (n, PipeModel.PRel PipeModel.no_data)) l).
Proof. intros n d. induction l as [|m l IH]; cbn; [discriminate|]. destruct (m =s n); [intros H; injection H as <-; reflexivity|exact IH]. Qed.
Lemma lookup_rels n (l : list str) : In n l -> PipeModel.plookup (map (fun n => (n, PipeModel.PRel PipeModel.no_data)) l) n = Some (PipeModel.PRel PipeModel.no_data).
Proof. induction l as [|m l IH]; [intros []|]. cbn. destruct (seq_eqb_spec m n) as [->|N]; [reflexivity|]. intros [E|I]; [congruence|exact (IH I)]. Qed.
Lemma into_middle x ps y : In y (PipeFacts.into false x ps) -> exists p, In p ps /\ In x (removelast p).
Proof.
  unfold PipeFacts.into. intros I. apply in_map_iff in I as ([z [f a]] & _ & I). apply filter_In in I as [I E]. cbn [fst snd] in E. apply andb_true_iff in E as [E1 E2]. apply seq_eqb_eq in E1. subst z. destruct f; [discriminate E2|].
  apply in_flat_map in I as (p & Ip & I). exists p. split; [exact Ip|]. clear Ip E2. induction p as [|u p IH]; [destruct I|]. destruct p as [|v p]; [destruct I|]. cbn [PipeFacts.links] in I. destruct I as [Q|I].
  - injection Q as -> Q _. destruct p as [|w p]; [discriminate Q|]. right. left. reflexivity.
  - right. exact (IH I).
Qed.
(** what is known about the relations and the trees of an orderly text *)
Definition one_or_two (rp : TreeModel.read_plan) (n : rnode) : Prop := let d := TreeModel.rel_data rp (n_name n) in let k := to_lower (n_kind n) in
  if k =s $"read" then PipeModel.cont d = None /\ PipeModel.news d = [] else if (k =s $"join") || (k =s $"cross") then PipeModel.cont d = None /\ length (PipeModel.news d) = 2
  else (exists i, inputs_of rp (n_name n) = [i]) /\ k <> $"set".
Lemma text_read s b pn : from_text s = Ok (Some b, []) -> parse s = Some pn -> orderly pn -> exists tab rp known ff,
  symbols pn = Ok (tab, []) /\ map fst known = map n_name (relations_of pn) /\
  TreeModel.r_rels rp = map (fun n => {| TreeModel.x_name := n_name n; TreeModel.x_kind := kind_read (n_kind n); TreeModel.x_body := n_name n; TreeModel.x_exprs := [] |}) (relations_of pn) /\
  (forall n, inputs_of rp n = some_list (hd_error (PipeFacts.into false n (arrows pn))) ++ PipeFacts.into true n (arrows pn)) /\
  (forall n, In n (relations_of pn) -> one_or_two rp n) /\
  (forall n, In n (relations_of pn) -> exists x b0 gv, find_rel (n_name n) known = Some x /\ empty_body (n_kind n) = Some b0 /\ FieldModel.d_missing (snd x) = [] /\ names_given b0 n gv /\
      visitColumns ff (find_relation rp) (known_symbol tab) (schema_list tab) (WholeModel.is_aggregate b0) (fields_of rp known (n_name n)) gv (schema_of tab n) b0 (n_details n) = Ok (x, [])) /\
  (forall t names, In (t, names) (b_rels b) -> exists fuel n u, TreeModel.build rp fuel n = Ok u /\ fill tab known u = Ok t).
Proof.
  intros H Hp O. destruct (from_text_parts s b H) as (pn' & tab & rp & first & known & l & Ep & Es & Er & Ev & El & Ef & Ed). rewrite Hp in Ep. injection Ep as <-. destruct O as [O1 O2 O3 O4 O5].
  set (rels := relations_of pn) in *. set (ps := arrows pn) in *.
  (* the table of the pipelines *)
  unfold TreeModel.readText in Er. cbn [text_of TreeModel.x_others TreeModel.x_rels TreeModel.x_roots TreeModel.x_pipes] in Er. fold rels in Er. change (map (map fst) (pipelines_of pn)) with ps in Er.
  set (secs := map _ rels) in Er. cbv zeta in Er. match type of Er with context [TreeModel.define_rels ?x secs] => set (t0 := x) in Er end.
  destruct (TreeModel.define_rels t0 secs) as [t1 e1] eqn:E1. destruct (TreeModel.define_roots t1 false (roots_of pn)) as [t2 e2] eqn:E2. change (map (map (fun n => (n, n))) ps) with (map PipeFacts.plain ps) in Er.
  destruct (PipeModel.visitPipelines t2 (map PipeFacts.plain ps)) as [[t3 e3]| |] eqn:E3; cbn [obind fst snd] in Er; try discriminate Er. injection Er as Erp Ee. apply app_eq_nil in Ee as [-> Ee]. apply app_eq_nil in Ee as [-> Ee]. apply app_eq_nil in Ee as [Ee _]. apply map_eq_nil in Ee. subst e3.
  apply define_clean in E1 as (T1 & ND & Nw). assert (Sn : map TreeModel.x_name secs = map n_name rels) by (unfold secs; rewrite map_map; reflexivity). rewrite Sn in ND.
  assert (T1' : t1 = t0 ++ map (fun n => (n, PipeModel.PRel PipeModel.no_data)) (map n_name rels)) by (rewrite T1, <- Sn, map_map; reflexivity). clear T1.
  assert (Nt0 : forall n, In n (map n_name rels) -> PipeModel.plookup t0 n = None) by (intros n In_; rewrite <- Sn in In_; apply in_map_iff in In_ as (y & <- & Iy); exact (Nw y Iy)).
  assert (L1 : forall n, In n (map n_name rels) -> PipeModel.plookup t1 n = Some (PipeModel.PRel PipeModel.no_data)) by (intros n In_; rewrite T1', PipeFacts.plookup_app, (Nt0 n In_); apply lookup_rels, In_).
  assert (F1 : PipeFacts.fresh t1) by (rewrite T1'; apply fresh_app; [apply fresh_other|apply fresh_rels]).
  pose proof (roots_clean _ _ _ E2) as R. assert (F2 : PipeFacts.fresh t2) by (destruct R as [[_ ->]|[-> _]]; [exact F1|apply fresh_app; [exact F1|exact (fresh_rels [TreeModel.root_name])]]).
  assert (L2 : forall n, In n (map n_name rels) -> PipeModel.plookup t2 n = Some (PipeModel.PRel PipeModel.no_data)) by (intros n In_; destruct R as [[_ ->]|[-> _]]; [exact (L1 n In_)|rewrite PipeFacts.plookup_app, (L1 n In_); reflexivity]).
  assert (On : PipeFacts.only_relations t2 ps).
  { intros n In_. destruct (O3 n In_) as [Q|[-> Q]]; [rewrite (L2 n Q); discriminate|]. destruct R as [[X _]|[-> X]]; [contradiction|]. rewrite PipeFacts.plookup_app. change $"root" with TreeModel.root_name. rewrite X. cbn. discriminate. }
  destruct (PipeFacts.read_pipelines t2 ps F2 On) as (t3' & errs & E3' & _ & Rec & Rel & _). assert (Q3 : Ok (t3, []) = Ok (t3', errs)) by (transitivity (PipeModel.visitPipelines t2 (map PipeFacts.plain ps)); [symmetry; exact E3|exact E3']). injection Q3 as <- <-. specialize (Rec eq_refl).
  assert (K3 : NoDup (map fst t3)).
  { pose proof (TreeFacts.keys_pipelines _ _ _ E3) as Kp. cbn [fst] in Kp. rewrite Kp. clear Kp. apply keys_unique. assert (K1 : NoDup (map fst t1)).
    { rewrite T1', map_app. unfold t0. rewrite !map_map, !map_id. assert (X : forall a c, NoDup a -> NoDup c -> (forall n : str, In n c -> ~ In n a) -> NoDup (a ++ c)).
      { clear. induction a as [|x a IH]; intros c A C D; [exact C|]. inversion A; subst. cbn [app]. constructor; [|apply IH; auto; intros n N; specialize (D n N); cbn in D; tauto]. intros J. apply in_app_or in J as [J|J]; [contradiction|]. apply (D x J). left. reflexivity. }
      apply X; [apply NoDup_nodup|exact ND|]. intros n In_ J. specialize (Nt0 n In_). apply TreeFacts.unknown_name in Nt0. apply Nt0. unfold t0. rewrite map_map, map_id. exact J. }
    destruct R as [[_ ->]|[-> X]]; [exact K1|]. rewrite map_app. apply (Permutation_NoDup (Permutation_cons_append _ _)). constructor; [|exact K1]. apply TreeFacts.unknown_name. exact X. }
  assert (Dt : forall n, TreeModel.rel_data rp n = PipeFacts.data t3 n) by (intros n; rewrite <- Erp; reflexivity).
  assert (Inp : forall n, inputs_of rp n = some_list (hd_error (PipeFacts.into false n ps)) ++ PipeFacts.into true n ps).
  { intros n. unfold inputs_of. rewrite Dt. destruct (Rec n) as (A1 & A2 & _). rewrite A1, A2. reflexivity. }
  assert (Fr : forall n, In n rels -> find_relation rp (n_name n) = Some true).
  { intros n In_. unfold find_relation. rewrite <- Erp. cbn [TreeModel.r_tab]. assert (X : PipeModel.is_rel t3 (n_name n) = true) by (apply Rel; left; unfold PipeModel.is_rel; rewrite (L2 (n_name n) (in_map _ _ _ In_)); reflexivity).
    unfold PipeModel.is_rel in X. destruct (PipeModel.plookup t3 (n_name n)) as [[]|]; try discriminate X. reflexivity. }
  (* the relations *)
  pose proof (visited _ _ _ _ _ _ _ _ Ev) as Vs. destruct (visited_info _ _ _ _ [] rels known Vs Fr ND) as [Kn Info].
  { intros before n after E x Ix. cbn [map app]. apply (O1 before n after x E). rewrite Inp in Ix. apply in_app_or in Ix as [Ix|Ix]; [right|left; exact Ix]. fold ps.
    destruct (PipeFacts.into false (n_name n) ps) as [|y q]; cbn in Ix; [destruct Ix|]. left. destruct Ix as [Ix|[]]. exact Ix. }
  cbn [map app] in Kn.
  assert (Ins : forall n, In n rels -> let d := TreeModel.rel_data rp (n_name n) in let k := to_lower (n_kind n) in
    if k =s $"read" then PipeModel.cont d = None /\ PipeModel.news d = [] else if (k =s $"join") || (k =s $"cross") then PipeModel.cont d = None /\ length (PipeModel.news d) = 2
    else (exists i, inputs_of rp (n_name n) = [i]) /\ k <> $"set").
  { intros n In_. specialize (O2 n In_). cbv zeta in *. fold ps in O2. rewrite Dt, Inp. destruct (Rec (n_name n)) as (A1 & A2 & _). rewrite A1, A2. destruct (to_lower (n_kind n) =s $"read"); [destruct O2 as [-> ->]; auto|].
    destruct ((to_lower (n_kind n) =s $"join") || (to_lower (n_kind n) =s $"cross")); [destruct O2 as [-> ?]; auto|]. destruct O2 as [Q1 Q2]. split; [|exact Q2].
    destruct (PipeFacts.into false (n_name n) ps) as [|y [|? ?]], (PipeFacts.into true (n_name n) ps) as [|z [|? ?]]; cbn in *; try lia; eauto. }
  exists tab, rp, known, (DeclModel.resolve_function (entries 0 0 pn)). split; [exact Es|]. split; [exact Kn|]. assert (Secs : TreeModel.r_rels rp = secs) by (rewrite <- Erp; reflexivity).
  split; [exact Secs|]. split; [exact Inp|]. split; [exact Ins|]. split; [exact Info|]. intros t names It0.
  (* the trees *)
  destruct (fill_all_in _ _ _ _ Ef _ _ It0) as (tt0 & ns & It & Et). unfold TreeModel.outputToBinaryPlan in El. apply (omap_in _ _ _ _ El) in It as ([n d] & Is & Eb).
  cbn [fst snd] in Eb. destruct (PipeModel.news d) as [|i rest] eqn:Ew.
  - injection Eb as <- _. exists 1, n, (TreeModel.bare rp n). split; [|exact Et]. cbn [TreeModel.build]. unfold TreeModel.starts in Is. apply in_flat_map in Is as ([n' [d'|]] & Ie & Is); [|destruct Is]. destruct (existsb _ _); [destruct Is|].
    destruct (PipeModel.start d') eqn:Est; [destruct Is|]. destruct Is as [Q|[]]. injection Q as -> ->. rewrite <- Erp in Ie. cbn [TreeModel.r_tab] in Ie. apply (TreeFacts.plookup_some _ _ _ K3) in Ie.
    destruct (section_node known rp rels Kn Secs n) as [[Q _]|(m & Im & <- & Q)]; rewrite Q; [reflexivity|]. cbn [TreeModel.x_kind].
    assert (Dn : PipeFacts.data t3 (n_name m) = d) by (unfold PipeFacts.data; rewrite Ie; reflexivity). destruct (Rec (n_name m)) as (A1 & A2 & A3). rewrite Dn in A1, A2, A3.
    assert (Nf : PipeFacts.into false (n_name m) ps = []). { destruct (PipeFacts.into false (n_name m) ps) as [|y q] eqn:Qf; [reflexivity|]. exfalso. apply A3; [|exact Est]. apply (into_middle _ _ y). rewrite Qf. left. reflexivity. }
    pose proof (O2 m Im) as X. cbv zeta in X. fold ps in X. rewrite Nf, <- A1, Ew in X. cbn [length] in X. destruct (Info m Im) as (_ & b0 & _ & _ & Gb & _). destruct (kinds _ _ Gb) as [[K1 K2]|[[[K1 K2]|[K1 K2]]|[K1|[K1 K2]]]].
    + rewrite K2. reflexivity.
    + rewrite K1 in X. cbn in X. destruct X; discriminate.
    + rewrite K1 in X. cbn in X. destruct X; discriminate.
    + rewrite K1 in X. cbn in X. destruct X; discriminate.
    + exfalso. cbn [In] in K1. repeat destruct K1 as [K1|K1]; [rewrite <- K1 in X; cbn in X; destruct X; discriminate..|destruct K1].
  - destruct (TreeModel.build rp _ i) as [r| |] eqn:Er; cbn [obind] in Eb; try discriminate Eb. injection Eb as <- _. eauto.
Qed.
Theorem columns_there s b pn : from_text s = Ok (Some b, []) -> parse s = Some pn -> orderly pn -> forall t names, In (t, names) (b_rels b) -> Forall columns_exist (nodes t).
Proof.
  intros H Hp O t names It0. destruct (text_read s b pn H Hp O) as (tab & rp & known & ff & _ & Kn & Secs & _ & Ins & Info & Trees). destruct O as [_ _ _ O4 O5]. set (rels := relations_of pn) in *.
  assert (Good_ : forall n, In n rels -> exists r d, find_rel (n_name n) known = Some (r, d) /\ Good tab known rp n r d).
  { intros n In_. destruct (Info n In_) as ([r d] & b0 & gv & Fn & B & M & _ & V). exists r, d. split; [exact Fn|]. cbn [snd] in M.
    destruct (node_read _ _ _ _ (WholeModel.is_aggregate b0) _ (fun _ => True) (fun _ _ _ => I) gv (schema_of tab n) b0 (n_details n) (n_kind n) r d B eq_refl V M) as (_ & N1 & N2 & _ & N3 & N4); [intros Q; unfold schema_of; rewrite Q; reflexivity|].
    destruct N4 as [N4 N5]; [|intros Ha; exact (O5 n In_ Ha)|].
    - intros Hr. specialize (Ins n In_). unfold one_or_two in Ins. cbv zeta in Ins. rewrite Hr in Ins. cbn in Ins. destruct Ins as [X1 X2]. unfold fields_of, inputs_of. rewrite X1, X2. reflexivity.
    - split; [exists b0; exact B|]. split; [exact N2|]. split; [exact N3|]. split; [exact N4|exact N5]. }
  destruct (Trees t names It0) as (fuel & n & u & B & Fx). exact (proj1 (built tab known rp rels Good_ Kn O4 Secs Ins fuel n u t B Fx)).
Qed.
