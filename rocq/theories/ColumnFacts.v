(** Which columns the names in a text stand for. *)
From Verif Require Import Base BaseFacts StringsModel StringsFacts EnumModel TypeModel LexModel NameModel ExprModel RelModel RelFacts RelReadFacts ResolveFacts SectionModel WholeModel SoundFacts.
From Verif Require Import FirstFacts.
From Verif Require TrapFacts FieldModel DeclModel DefineFacts PipeModel PipeFacts TreeModel TreeFacts FirstFacts.
From Coq Require Import Lia ZifyBool ZifyNat ZifyN Permutation.

(** * Specification *)
(** A column has a name, and a schema if it is one of a schema's. *)
Definition label := (str * option str)%type.
Definition called (x : str) (l : label) : Prop := fst l = x.
(** It is referred to by its name, or by the name of its schema and its own with a dot between them. *)
Definition refers (x : str) (l : label) : Prop := called x l \/ exists s, snd l = Some s /\ x = s ++ $"." ++ fst l.
(** Of several columns with the same name the last one is meant. *)
Definition last_at (P : label -> Prop) (ls : list label) (k : Z) : Prop :=
  (0 <= k)%Z /\ exists l, nth_error ls (Z.to_nat k) = Some l /\ P l /\ forall j m, Z.to_nat k < j -> nth_error ls j = Some m -> ~ P m.
(** The columns that an expression of a text names, in order; texts of enumerations are not read *)
Fixpoint columns_in (e : enode) : list str :=
  match e with
  | NCol x => [x]
  | NFun n args _ => flat_map (fun a => let '(text, x) := a in if negb (to_lower n =s $"ifthen") && endsWith text enum_suffix then [] else columns_in x) args
  | NCast e _ => columns_in e
  | NIn l _ => flat_map columns_in l
  | NCompare e _ _ _ => columns_in e
  | NConst _ | NScalar _ | NSet _ _ => []
  end.
(** The parts of a relation of a text *)
Definition expressions_of (n : rnode) : list enode := flat_map (fun d => match d with OnFilter _ e | OnExpression e _ | OnSort e _ => [e] | _ => [] end) (n_details n).
Definition named_expressions (n : rnode) : list (enode * option str) := flat_map (fun d => match d with OnExpression e x => [(e, x)] | _ => [] end) (n_details n).
Definition groupings_of (n : rnode) : list enode := flat_map (fun d => match d with OnGrouping e => [e] | _ => [] end) (n_details n).
Definition measures_of (n : rnode) : list (list mdetail) := flat_map (fun d => match d with OnMeasure l => [l] | _ => [] end) (n_details n).
Definition emitted (n : rnode) : list str := flat_map (fun d => match d with OnEmit x => [x] | _ => [] end) (n_details n).
Definition schemas_used (n : rnode) : list str := flat_map (fun d => match d with OnSchema x => [x] | _ => [] end) (n_details n).
Definition is_kind (n : rnode) (k : str) : Prop := to_lower (n_kind n) = k.
Definition measure_names (l : list mdetail) : list str := flat_map (fun d => match d with MMeasure _ _ (_ :: n :: _) => [n] | _ => [] end) l.
(** The schema that a name stands for: nothing before it has that name *)
Definition schema_named (nodes : list pnode) (n : str) (items : list (str * str)) : Prop :=
  exists before after, nodes = before ++ PSchema n items :: after /\ ~ In n (map (fun x => fst (fst x)) (DefineFacts.defines_all 0 before)).
(** The columns that a relation adds to those of its inputs *)
Definition copies (inputs : list label) (x : str) (l : label) : Prop := exists k, last_at (refers x) inputs k /\ nth_error inputs (Z.to_nat k) = Some l.
Definition expression_label (inputs : list label) (e : enode * option str) (l : label) : Prop :=
  match e with
  | (NCol x, None) => copies inputs x l            (* a column as it is *)
  | (_, Some n) => l = (n, None)
  | (_, None) => snd l = None                      (* it is given a name of its own *)
  end.
Definition grouping_label (inputs : list label) (e : enode) (l : label) : Prop := exists x, e = NCol x /\ copies inputs x l.
Definition measure_label (m : list mdetail) (l : label) : Prop := exists n, measure_names m = [n] /\ l = (n, None).
Inductive Own (nodes : list pnode) (n : rnode) (inputs : list label) : list label -> Prop :=
| O_read tables : is_kind n $"read" -> Forall2 (schema_named nodes) (schemas_used n) tables ->
    Own nodes n inputs (flat_map (fun t => map (fun i => (fst i, Some (fst t))) (snd t)) (combine (schemas_used n) tables))
| O_project ls : is_kind n $"project" -> Forall2 (expression_label inputs) (named_expressions n) ls -> Own nodes n inputs ls
| O_aggregate gs ms : is_kind n $"aggregate" -> Forall2 (grouping_label inputs) (groupings_of n) gs -> Forall2 measure_label (measures_of n) ms -> Own nodes n inputs (gs ++ ms)
| O_other : ~ is_kind n $"read" -> ~ is_kind n $"project" -> ~ is_kind n $"aggregate" -> Own nodes n inputs [].
(** What can be emitted: the inputs' columns and its own, only the latter of an aggregation.  Its own go first, and by their names only. *)
Definition kept (n : rnode) (inputs : list label) : list label := if to_lower (n_kind n) =s $"aggregate" then [] else inputs.
Definition picks (inputs own : list label) (x : str) (k : Z) : Prop :=
  (exists j, last_at (called x) own j /\ k = (Z.of_nat (length inputs) + j)%Z) \/ (forall l, In l own -> ~ called x l) /\ last_at (refers x) inputs k.
(** The columns in the expressions of a relation are those that are named in the text; those of a join or of a measure may have been written in another order.  A name in a measure that is
    also a column of the aggregation may stand for something else. *)
Definition meant (inputs : list label) (x : str) (k : Z) : Prop := last_at (refers x) inputs k.
Definition measure_columns_in (l : list mdetail) : list str := flat_map (fun d => match d with MMeasure e _ _ | MFilter e | MSort e _ => columns_in e | MInvocation _ => [] end) l.
Definition meant_unless_own (inputs own : list label) (x : str) (k : Z) : Prop := (forall l, In l own -> ~ called x l) -> meant inputs x k.
Definition right_measure (inputs own : list label) (l : list mdetail) (m : measure) : Prop :=
  exists names, Permutation names (measure_columns_in l) /\ Forall2 (meant_unless_own inputs own) names (flat_map e_columns (measure_exprs m)).
Definition right_columns (n : rnode) (r : relation) (inputs own : list label) : Prop :=
  match r_body r with
  | BAggregate gs ms => Forall2 (meant inputs) (flat_map columns_in (groupings_of n)) (flat_map e_columns (concat gs)) /\ Forall2 (right_measure inputs own) (measures_of n) ms
  | BJoin _ _ _ => exists names, Permutation names (flat_map columns_in (expressions_of n)) /\ Forall2 (meant inputs) names (flat_map e_columns (body_exprs (r_body r)))
  | b => Forall2 (meant inputs) (flat_map columns_in (expressions_of n)) (flat_map e_columns (body_exprs b))
  end.
(** The columns of a relation: all of them, or those it emits *)
Definition shows (r : relation) (all labels : list label) : Prop :=
  match r_emit r with [] => labels = all | e => Forall2 (fun k l => nth_error all (Z.to_nat k) = Some l) e labels end.
Definition inputs_named (nodes : list pnode) (n : str) : list str := some_list (hd_error (PipeFacts.into false n (arrows nodes))) ++ PipeFacts.into true n (arrows nodes).
(** A tree that says what the relation with a name does, with the columns of the names in the text; and its columns *)
Inductive Named (nodes : list pnode) : str -> tree -> list label -> Prop :=
| N_relation n r src sch ins inputs own labels : In n (relations_of nodes) -> kind_name (r_body r) = to_lower (n_kind n) -> AllNamed nodes (inputs_named nodes (n_name n)) ins inputs ->
    Own nodes n inputs own -> right_columns n r inputs own -> Forall2 (picks (kept n inputs) own) (emitted n) (r_emit r) -> shows r (kept n inputs ++ own) labels -> Named nodes (n_name n) (Node r src sch ins) labels
with AllNamed (nodes : list pnode) : list str -> list tree -> list label -> Prop :=
| N_none : AllNamed nodes [] [] []
| N_more n t l ns ts ls : Named nodes n t l -> AllNamed nodes ns ts ls -> AllNamed nodes (n :: ns) (t :: ts) (l ++ ls).
(** Texts in which schemas are there, columns are not renamed, and aggregations group by columns before they measure, with one name for each measure *)
Record tidy (nodes : list pnode) : Prop := {
  td_schemas : forall n x, In n (relations_of nodes) -> In x (schemas_used n) -> exists items, schema_named nodes x items;
  td_names : forall n x y, In n (relations_of nodes) -> ~ In (NCol x, Some y) (named_expressions n);
  td_groups : forall n e, In n (relations_of nodes) -> In e (groupings_of n) -> exists x, e = NCol x;
  td_measures : forall n l, In n (relations_of nodes) -> In l (measures_of n) -> exists x, measure_names l = [x];
  td_first : forall n before l after e, In n (relations_of nodes) -> n_details n = before ++ OnMeasure l :: after -> ~ In (OnGrouping e) after }.
(** Column numbers are 32 bits wide. *)
Definition narrow (t : tree) : Prop := Forall (fun x => (Z.of_nat (widths (ins_of x) + full x) < 2 ^ 31)%Z) (nodes t).

(** * Finding columns *)
Section Labels.
  Variable ss : FieldModel.schemas.
  Definition lab (c : FieldModel.column) : label := (FieldModel.c_name c, option_map fst (find (fun s => snd s =? FieldModel.c_loc c) ss)).
  Definition plain (c : FieldModel.column) : Prop := FieldModel.c_alias c = [].
  Lemma called_iff x c : plain c -> FieldModel.match_generated x c = true <-> called x (lab c).
  Proof. unfold plain, FieldModel.match_generated, called, lab. intros ->. cbn [FieldModel.nonempty andb orb fst]. apply seq_eqb_eq. Qed.
  Lemma refers_iff x c : plain c -> FieldModel.match_input ss x c = true <-> refers x (lab c).
  Proof.
    intros P. unfold FieldModel.match_input, refers. rewrite orb_true_iff, (called_iff x c P), seq_eqb_eq. unfold FieldModel.fullyQualifiedReference, called, lab. cbn [fst snd]. destruct (find _ ss) as [[q i]|]; cbn [option_map fst].
    - split; (intros [H|H]; [left; exact H|right]); [eauto|destruct H as (s & E & ->); injection E as <-; reflexivity].
    - split; [intros [H|H]; left; exact H|]. intros [H|(s & E & _)]; [left; exact H|discriminate E].
  Qed.
  Lemma rfind_last P l : match FieldModel.rfind P l with
    | Some p => p < length l /\ exists c, nth_error l (length l - p - 1) = Some c /\ P c = true /\ forall j m, length l - p - 1 < j -> nth_error l j = Some m -> P m = false
    | None => forall m, In m l -> P m = false
    end.
  Proof.
    induction l as [|c l IH] using rev_ind; [intros m []|]. unfold FieldModel.rfind in *. rewrite rev_unit. cbn [FieldModel.find_pos]. rewrite app_length. cbn [length]. destruct (P c) eqn:E.
    - split; [lia|]. exists c. split; [rewrite nth_error_app2 by lia; replace (_ - _) with 0 by lia; reflexivity|]. split; [exact E|]. intros j m L H. exfalso. assert (X : nth_error (l ++ [c]) j <> None) by congruence. apply nth_error_Some in X. rewrite app_length in X. cbn in X. lia.
    - destruct (FieldModel.find_pos P (rev l)) as [p|]; cbn [option_map].
      + destruct IH as (L & c' & N & Pc & Q). split; [lia|]. exists c'. replace (length l + 1 - S p - 1) with (length l - p - 1) by lia. split; [rewrite nth_error_app1 by lia; exact N|]. split; [exact Pc|]. intros j m Lj H. destruct (Nat.ltb_spec j (length l)) as [X|X].
        * rewrite nth_error_app1 in H by lia. exact (Q j m Lj H).
        * rewrite nth_error_app2 in H by lia. destruct (j - length l) as [|i]; cbn in H; [congruence|destruct i; discriminate H].
      + intros m I. apply in_app_or in I as [I|[<-|[]]]; [exact (IH m I)|exact E].
  Qed.
  Lemma last_columns (P : FieldModel.column -> bool) (Q : label -> Prop) l : Forall plain l -> (forall c, plain c -> P c = true <-> Q (lab c)) ->
    match FieldModel.rfind P l with
    | Some p => p < length l /\ last_at Q (map lab l) (Z.of_nat (length l) - Z.of_nat p - 1)
    | None => forall m, In m (map lab l) -> ~ Q m
    end.
  Proof.
    intros Hp HQ. rewrite Forall_forall in Hp. pose proof (rfind_last P l) as R. destruct (FieldModel.rfind P l) as [p|].
    - destruct R as (L & c & N & Pc & R). split; [exact L|]. split; [lia|]. replace (Z.to_nat _) with (length l - p - 1) by lia. exists (lab c). split; [rewrite nth_error_map, N; reflexivity|]. split; [apply HQ; [apply Hp, (nth_error_In _ _ N)|exact Pc]|].
      intros j m Lj H C. rewrite nth_error_map in H. destruct (nth_error l j) as [c'|] eqn:E; [|discriminate H]. injection H as <-. apply HQ in C; [|apply Hp, (nth_error_In _ _ E)]. rewrite (R j c' Lj E) in C. discriminate C.
    - intros m I C. apply in_map_iff in I as (c & <- & I). apply HQ in C; [|apply Hp, I]. rewrite (R c I) in C. discriminate C.
  Qed.
  Variable ag : bool.
  Variable fields : list FieldModel.column.
  Hypothesis Hf : Forall plain fields.
  (** a column of an expression *)
  Lemma field_found g x z : Forall plain g -> (Z.of_nat (length fields + length g) < 2 ^ 31)%Z -> FieldModel.find_in ss false (scope_with ag fields g) x = Some z ->
    (Z.of_nat (length fields) <= z)%Z \/ meant (map lab fields) x z /\ (z < Z.of_nat (length fields))%Z.
  Proof.
    intros Hg L. unfold FieldModel.find_in, scope_with, FieldModel.size. cbn [FieldModel.q_aggregate FieldModel.q_fields FieldModel.q_generated]. rewrite andb_false_r.
    pose proof (last_columns (FieldModel.match_generated x) (called x) g Hg (called_iff x)) as G. destruct (FieldModel.rfind _ g) as [p|].
    - intros H. injection H as <-. left. destruct G as [G _]. rewrite TrapFacts.index32_small by lia. lia.
    - pose proof (last_columns (FieldModel.match_input ss x) (refers x) fields Hf (refers_iff x)) as I. destruct (FieldModel.rfind _ fields) as [p|]; [|discriminate]. intros H. injection H as <-. right. destruct I as [I1 I2]. rewrite TrapFacts.index32_small by lia. split; [exact I2|lia].
  Qed.
  Lemma field_unless_own g x z : Forall plain g -> (Z.of_nat (length fields + length g) < 2 ^ 31)%Z -> FieldModel.find_in ss false (scope_with ag fields g) x = Some z ->
    (forall l, In l (map lab g) -> ~ called x l) -> meant (map lab fields) x z.
  Proof.
    intros Hg L H N. unfold FieldModel.find_in, scope_with, FieldModel.size in H. cbn [FieldModel.q_aggregate FieldModel.q_fields FieldModel.q_generated] in H. rewrite andb_false_r in H.
    pose proof (last_columns (FieldModel.match_generated x) (called x) g Hg (called_iff x)) as G. destruct (FieldModel.rfind _ g) as [p|].
    - exfalso. destruct G as [_ (_ & l & E & C & _)]. exact (N l (nth_error_In _ _ E) C).
    - pose proof (last_columns (FieldModel.match_input ss x) (refers x) fields Hf (refers_iff x)) as I. destruct (FieldModel.rfind _ fields) as [p|]; [|discriminate]. injection H as <-. destruct I as [I1 I2]. rewrite TrapFacts.index32_small by lia. exact I2.
  Qed.
  Lemma field_meant x z : (Z.of_nat (length fields) < 2 ^ 31)%Z -> FieldModel.find_in ss false (scope_with ag fields []) x = Some z -> meant (map lab fields) x z /\ (z < Z.of_nat (length fields))%Z.
  Proof.
    intros L H. pose proof (found_below _ _ _ _ _ H) as B. apply field_found in H; [|constructor|cbn; lia]. destruct H as [H|H]; [exfalso; unfold below in B; lia|exact H].
  Qed.
  (** a column that is emitted *)
  Lemma emit_found g x z : Forall plain g -> (Z.of_nat (length fields + length g) < 2 ^ 31)%Z -> FieldModel.find_in ss true (scope_with ag fields g) x = Some z ->
    (z < Z.of_nat (length (if ag then g else fields ++ g)))%Z -> picks (map lab (if ag then [] else fields)) (map lab g) x z.
  Proof.
    intros Hg L. unfold FieldModel.find_in, scope_with, FieldModel.size, picks. cbn [FieldModel.q_aggregate FieldModel.q_fields FieldModel.q_generated]. rewrite andb_true_r, map_length.
    pose proof (last_columns (FieldModel.match_generated x) (called x) g Hg (called_iff x)) as G. destruct (FieldModel.rfind _ g) as [p|].
    - intros H _. injection H as <-. left. destruct G as [G1 G2]. eexists. split; [exact G2|]. destruct ag; cbn [length]; rewrite TrapFacts.index32_small by lia; lia.
    - pose proof (last_columns (FieldModel.match_input ss x) (refers x) fields Hf (refers_iff x)) as I. destruct (FieldModel.rfind _ fields) as [p|]; [|discriminate]. intros H. injection H as <-. destruct I as [I1 I2]. destruct ag.
      + intros Q. exfalso. unfold FieldModel.index32 in Q. change 2147483647%Z with (Z.ones 31) in Q. rewrite Z.land_ones in Q by lia. replace (0 - Z.of_nat p - 1)%Z with (2 ^ 64 - 1 - Z.of_nat p + (-1) * 2 ^ 64)%Z in Q by lia.
        rewrite Z_mod_plus_full, (Z.mod_small _ (2 ^ 64)) in Q by lia. replace (2 ^ 64 - 1 - Z.of_nat p)%Z with (2 ^ 31 - 1 - Z.of_nat p + (2 ^ 33 - 1) * 2 ^ 31)%Z in Q by lia. rewrite Z_mod_plus_full, Z.mod_small in Q by lia. lia.
      + intros _. right. split; [exact G|]. rewrite TrapFacts.index32_small by lia. exact I2.
  Qed.
End Labels.

(** * Expressions *)
Lemma each_columns {A B} (R : str -> Z -> Prop) (f : A -> evaluated B) (g : B -> list Z) (w : A -> list str) l : Forall (fun a => forall b, f a = Ok (b, []) -> Forall2 R (w a) (g b)) l -> forall bs,
  eachE f l = Ok (bs, []) -> Forall2 R (flat_map w l) (flat_map g bs).
Proof.
  induction 1 as [|a l Ha _ IH]; intros bs E; [injection E as <-; constructor|]. apply FirstFacts.each_cons in E as (b & bs' & -> & Eb & Ebs). cbn [flat_map]. apply Forall2_app; [exact (Ha b Eb)|exact (IH bs' Ebs)].
Qed.
Lemma pairs_columns l p o : pairs_of l = (p, o) -> flat_map (fun c : option expr * option expr => let '(i, t) := c in given e_columns i ++ given e_columns t) (map (fun q => (Some (fst q), Some (snd q))) p) ++ given e_columns o = flat_map e_columns l.
Proof.
  revert l p o. fix IH 1. intros [|a [|b l]] p o E; cbn [pairs_of] in E.
  - injection E as <- <-. reflexivity.
  - injection E as <- <-. cbn. rewrite app_nil_r. reflexivity.
  - destruct (pairs_of l) as [p' o'] eqn:F. injection E as <- <-. cbn [map flat_map fst snd given]. rewrite <- (IH l p' o' F), <- !app_assoc. reflexivity.
Qed.
Definition finds (fc : str -> option (N * Z)) (x : str) (z : Z) : Prop := exists s, fc x = Some (s, z).
Lemma read_columns ff fr fc node : forall e, visitExpr ff fr fc node = Ok (e, []) -> Forall2 (finds fc) (columns_in node) (e_columns e).
Proof.
  induction node as [n args ty IH|c|t|e ty IH|n|l n IH|b n|e op b n IH] using FirstFacts.enode_ind2; intros e' E; cbn [visitExpr columns_in] in *.
  - destruct (to_lower n =s $"ifthen") eqn:Ei; cbn [negb andb].
    + apply bindE_ok in E as (l & El & E).
      assert (X : Forall2 (finds fc) (flat_map (fun a : str * enode => let '(_, x) := a in columns_in x) args) (flat_map e_columns l)).
      { revert El. apply each_columns. rewrite Forall_forall in *. intros [s x] Hin. exact (IH _ Hin). }
      destruct l as [|a l]; [injection E as <-; cbn [e_columns]; exact X|]. destruct (pairs_of (a :: l)) as [p o] eqn:Fp. injection E as <-. cbn [e_columns]. rewrite (pairs_columns _ _ _ Fp). exact X.
    + apply bindE_ok in E as (f & Ef & E). apply bindE_ok in E as (l & El & E). apply bindE_ok in E as (ty' & _ & E). injection E as <-. cbn [e_columns flat_map]. rewrite app_nil_r.
      revert El. apply each_columns. rewrite Forall_forall in *. intros [s x] Hin b. destruct (endsWith s enum_suffix); [intros X; injection X as <-; constructor|]. intros X. apply bindE_ok in X as (y & Hy & X). injection X as <-. exact (IH _ Hin _ Hy).
  - apply bindE_ok in E as (l & _ & E). injection E as <-. constructor.
  - destruct (fc t) as [[s f]|] eqn:F; [|discriminate]. injection E as <-. constructor; [exists s; exact F|constructor].
  - apply bindE_ok in E as (x & Ex & E). apply bindE_ok in E as (ty' & _ & E). injection E as <-. exact (IH x Ex).
  - apply subquery_found in E as [-> E]. constructor.
  - destruct (fr n) eqn:F; [|discriminate]. apply bindE_ok in E as (es & Ees & E). apply subquery_found in E as [-> E]. cbn [e_columns]. revert Ees. apply each_columns. exact IH.
  - apply subquery_found in E as [-> E]. constructor.
  - apply bindE_ok in E as (x & Ex & E). apply subquery_found in E as [-> E]. cbn [e_columns given]. exact (IH x Ex).
Qed.
(** an expression that is a column is one in the text too *)
Lemma read_column_only ff fr fc node e : visitExpr ff fr fc node = Ok (e, []) ->
  match node with NCol x => exists s z r, fc x = Some (s, z) /\ e = ESel (SegField z None) r | _ => forall s r, e <> ESel s r end.
Proof.
  destruct node; cbn [visitExpr]; intros E.
  - destruct (to_lower name =s $"ifthen").
    + apply bindE_ok in E as (l & _ & E). destruct l as [|a l]; [injection E as <-; discriminate|]. destruct (pairs_of _). injection E as <-. discriminate.
    + apply bindE_ok in E as (f & Ef & E). apply bindE_ok in E as (l & El & E). apply bindE_ok in E as (ty' & _ & E). injection E as <-. discriminate.
  - apply bindE_ok in E as (l & _ & E). injection E as <-. discriminate.
  - destruct (fc text) as [[s f]|] eqn:F; [|discriminate]. injection E as <-. eexists _, _, _. split; reflexivity.
  - apply bindE_ok in E as (x & Ex & E). apply bindE_ok in E as (ty' & _ & E). injection E as <-. discriminate.
  - apply subquery_found in E as [-> E]. discriminate.
  - destruct (fr rel); [|discriminate]. apply bindE_ok in E as (es & _ & E). apply subquery_found in E as [-> E]. discriminate.
  - apply subquery_found in E as [-> E]. discriminate.
  - apply bindE_ok in E as (x & Ex & E). apply subquery_found in E as [-> E]. discriminate.
Qed.
Lemma reads_visit ff fr fc i j e x : reads ff fr fc i j e x -> visitExpr ff fr (fc i j) e = Ok (x, []).
Proof. unfold reads, visitE. destruct (known ff fc i j e) as [[|]| |]; cbn [obind]; try discriminate. rewrite lift_clean. auto. Qed.

(** * Details *)
Definition detail_names (d : RelModel.detail) : list str := match d with OnFilter _ e | OnExpression e _ | OnSort e _ => columns_in e | _ => [] end.
Definition cols (b : body) : list Z := flat_map e_columns (body_exprs b).
Section Detail.
  Variables (ff : str -> option N) (fr : str -> option bool) (fc : str -> option (N * Z)) (columns : nat) (ks ksch : str -> bool).
  Notation fc' := (fun _ _ => fc).
  Lemma reads_columns i j e x : reads ff fr fc' i j e x -> Forall2 (finds fc) (columns_in e) (e_columns x).
  Proof. intros H. apply (read_columns ff fr fc e). exact (reads_visit ff fr fc' i j e x H). Qed.
  Lemma sort_columns i j e b s : SortSays ff fr fc' i j e b s -> Forall2 (finds fc) (columns_in e) (e_columns (fst s)).
  Proof. intros H. inversion H; subst; cbn [fst]; eapply reads_columns; eassumption. Qed.
  Lemma detail_columns i b d b' : WholeModel.is_aggregate b = false -> visitDetail ff fr fc' columns ks ksch i b d = Ok (b', []) ->
    exists zs, Forall2 (finds fc) (detail_names d) zs /\ Permutation (cols b') (cols b ++ zs) /\ (head b <> 0 -> head b <> 6 -> cols b' = cols b ++ zs).
  Proof.
    intros Hb H. apply detail_iff in H as (x & I & A). unfold cols.
    assert (N : forall b, body_exprs b' = body_exprs b -> exists zs, Forall2 (finds fc) [] zs /\ Permutation (flat_map e_columns (body_exprs b')) (flat_map e_columns (body_exprs b) ++ zs) /\ (head b <> 0 -> head b <> 6 -> flat_map e_columns (body_exprs b') = flat_map e_columns (body_exprs b) ++ zs)).
    { intros b1 ->. exists []. split; [constructor|]. rewrite app_nil_r. auto. }
    inversion I; subst; cbn [add] in A; destruct b as [so sc f g p|cd|o ct|gs ms|l0|l0|t0 e0 p0| |nm]; try discriminate A; try discriminate Hb;
      repeat match goal with A : match ?o with _ => _ end = Some _ |- _ => destruct o; try discriminate A end; injection A as <-; cbn [detail_names]; try (apply N; reflexivity); clear N.
    all: try match goal with H : reads ff fr _ _ _ _ _ |- _ => apply reads_columns in H as R; eexists; split; [exact R|] end.
    all: try match goal with H : SortSays _ _ _ _ _ _ _ _ |- _ => apply sort_columns in H as R; eexists; split; [exact R|] end.
    all: cbn [body_exprs some flat_map app head]; rewrite ?map_app, ?flat_map_app; cbn [map flat_map]; rewrite ?app_nil_r.
    all: try (split; [reflexivity|]; reflexivity).
    all: try (split; [reflexivity|]; intros _ N6; exfalso; apply N6; reflexivity).
    all: try (split; [apply Permutation_app_comm|]; intros ? N6; exfalso; apply N6; reflexivity).
    all: try (split; [|intros N0; exfalso; apply N0; reflexivity]; rewrite ?flat_map_app; cbn [flat_map]; rewrite ?app_nil_r; (reflexivity || apply Permutation_app_comm)).
    all: try (split; [|intros _ N0; exfalso; apply N0; reflexivity]; rewrite ?flat_map_app; cbn [flat_map]; rewrite ?app_nil_r; (reflexivity || apply Permutation_app_comm)).
  Qed.
End Detail.

(** * Measures *)
Lemma values_columns l : flat_map e_columns (values l) = flat_map (fun a => match a with AValue x => e_columns x | _ => [] end) l.
Proof. unfold values. induction l as [|a l IH]; [reflexivity|]. cbn [flat_map]. rewrite flat_map_app, IH. f_equal. destruct a; cbn; rewrite ?app_nil_r; reflexivity. Qed.
Definition building_columns (s : building) : list Z :=
  given (fun f => flat_map e_columns (values (af_args f))) (b_function s) ++ flat_map (fun x => e_columns (fst x)) (b_sorts s) ++ given e_columns (b_filter s).
Definition bare_function (s : building) : Prop := forall f, b_function s = Some f -> af_deprecated f = [] /\ af_sorts f = [].
Lemma built_columns s : bare_function s -> flat_map e_columns (measure_exprs (RelModel.built s)) = building_columns s.
Proof.
  intros B. unfold RelModel.built, measure_exprs, building_columns. cbn [m_function m_filter]. rewrite flat_map_app.
  assert (Fs : forall f, flat_map e_columns (function_exprs f) = flat_map e_columns (values (af_args f)) ++ flat_map e_columns (af_deprecated f) ++ flat_map (fun x => e_columns (fst x)) (af_sorts f)).
  { intros f. unfold function_exprs. rewrite !flat_map_app. do 2 f_equal. induction (af_sorts f) as [|x l IH]; [reflexivity|]. cbn. rewrite IH. reflexivity. }
  rewrite app_assoc. f_equal; [|destruct (b_filter s); cbn; rewrite ?app_nil_r; reflexivity].
  assert (G : forall f, bare_function s -> with_invocation (b_invocation s) (b_function s) = Some f -> af_deprecated f = [] /\ af_sorts f = [] /\ flat_map e_columns (values (af_args f)) = given (fun f => flat_map e_columns (values (af_args f))) (b_function s)).
  { intros f Bs. unfold with_invocation. destruct (b_function s) as [f0|] eqn:Ef; [destruct (Bs f0 Ef) as [B1 B2]|]; destruct (b_invocation s); intros H; try discriminate H; injection H as <-; cbn; auto. }
  assert (N : with_invocation (b_invocation s) (b_function s) = None -> b_function s = None) by (unfold with_invocation; destruct (b_invocation s); auto; discriminate).
  destruct (b_sorts s) as [|x l] eqn:Eso; cbn [with_sorts].
  - destruct (with_invocation _ _) as [f|]; cbn [given]; [|rewrite N; reflexivity]. destruct (G f B eq_refl) as (G1 & G2 & G3). rewrite Fs, G1, G2, G3. reflexivity.
  - cbn [given]. rewrite Fs. cbn [af_args af_deprecated af_sorts]. destruct (with_invocation _ _) as [f|]; [|rewrite N by reflexivity; reflexivity]. destruct (G f B eq_refl) as (G1 & G2 & G3). rewrite G1, G2, G3. reflexivity.
Qed.
Lemma measured ff fr fc (R : str -> Z -> Prop) i l : forall j s s', (forall j x z, finds (fc i j) x z -> R x z) -> bare_function s -> visitMeasureDetails ff fr fc i j s l = Ok (s', []) ->
  bare_function s' /\ exists zs, Forall2 R (measure_columns_in l) zs /\ Permutation (building_columns s') (building_columns s ++ zs).
Proof.
  assert (Rd : (forall j x z, finds (fc i j) x z -> R x z) -> forall j e x, reads ff fr fc i j e x -> Forall2 R (columns_in e) (e_columns x)).
  { intros HR j e x H. apply reads_visit, read_columns in H. clear -H HR. induction H; constructor; [eapply HR; eassumption|assumption]. }
  induction l as [|d l IH]; intros j s s' HR B H; cbn [visitMeasureDetails] in H.
  - apply fine_inj in H. subst s'. split; [exact B|]. exists []. rewrite app_nil_r. split; [constructor|reflexivity].
  - assert (Go : forall j s1 zs1, Forall2 R (measure_columns_in [d]) zs1 -> Permutation (building_columns s1) (building_columns s ++ zs1) -> bare_function s1 -> visitMeasureDetails ff fr fc i j s1 l = Ok (s', []) ->
      bare_function s' /\ exists zs, Forall2 R (measure_columns_in (d :: l)) zs /\ Permutation (building_columns s') (building_columns s ++ zs)).
    { intros j1 s1 zs1 F1 P1 B1 H1. destruct (IH _ _ _ HR B1 H1) as (B2 & zs2 & F2 & P2). split; [exact B2|]. exists (zs1 ++ zs2). unfold measure_columns_in in *. cbn [flat_map] in *. rewrite app_nil_r in F1. split; [apply Forall2_app; assumption|]. rewrite P2, P1, app_assoc. reflexivity. }
    assert (Nil : forall zs : list Z, Permutation zs (zs ++ [])) by (intros zs; rewrite app_nil_r; reflexivity).
    destruct d as [e ty ids|e|n|e by_]; apply bindR_clean in H as (x & Hx & H).
    + destruct (b_function s) as [f0|] eqn:Ef; [discriminate H|]. unfold visitMeasure in Hx. apply bindR_clean in Hx as (y & Hy & Hx). pose proof (Rd HR j e y Hy) as Fy.
      destruct y; try (destruct ids; discriminate Hx). apply bindR_clean in Hx as (t & _ & Hx). apply bindR_clean in Hx as (ph & _ & Hx). apply fine_inj in Hx. subst x.
      assert (D : deprecated = []). { apply reads_visit in Hy. destruct e; cbn [visitExpr] in Hy.
        - destruct (to_lower name =s $"ifthen").
          + apply bindE_ok in Hy as (l1 & _ & Hy). destruct l1 as [|a l1]; [discriminate Hy|]. destruct (pairs_of _). discriminate Hy.
          + apply bindE_ok in Hy as (f1 & _ & Hy). apply bindE_ok in Hy as (l1 & _ & Hy). apply bindE_ok in Hy as (t1 & _ & Hy). injection Hy as <- <- <- <- <-. reflexivity.
        - apply bindE_ok in Hy as (l1 & _ & Hy). discriminate Hy.
        - destruct (fc i j text) as [[? ?]|]; discriminate Hy.
        - apply bindE_ok in Hy as (x1 & _ & Hy). apply bindE_ok in Hy as (t1 & _ & Hy). discriminate Hy.
        - apply subquery_found in Hy as [Hy _]. discriminate Hy.
        - destruct (fr rel); [|discriminate Hy]. apply bindE_ok in Hy as (x1 & _ & Hy). apply subquery_found in Hy as [Hy _]. discriminate Hy.
        - apply subquery_found in Hy as [Hy _]. discriminate Hy.
        - apply bindE_ok in Hy as (x1 & _ & Hy). apply subquery_found in Hy as [Hy _]. discriminate Hy. }
      subst deprecated. cbn [e_columns flat_map] in Fy. rewrite app_nil_r, <- values_columns in Fy.
      revert H. apply Go with (zs1 := flat_map e_columns (values args)); [unfold measure_columns_in; cbn [flat_map]; rewrite app_nil_r; exact Fy| |intros f Q; injection Q as <-; auto].
      unfold building_columns. cbn [b_function b_sorts b_filter given af_args]. rewrite Ef. cbn [given app]. apply Permutation_app_comm.
    + destruct (b_filter s) as [f0|] eqn:Ef; [discriminate H|]. revert H. apply Go with (zs1 := e_columns x); [unfold measure_columns_in; cbn [flat_map]; rewrite app_nil_r; exact (Rd HR j e x Hx)| |exact B].
      unfold building_columns. cbn [b_function b_sorts b_filter given]. rewrite Ef. cbn [given]. rewrite app_nil_r, app_assoc. reflexivity.
    + revert H. apply Go with (zs1 := []); [constructor|apply Nil|exact B].
    + apply sort_iff in Hx. revert H. apply Go with (zs1 := e_columns (fst x)); [unfold measure_columns_in; cbn [flat_map]; rewrite app_nil_r; inversion Hx; subst; cbn [fst]; eapply (Rd HR); eassumption| |exact B].
      unfold building_columns. cbn [b_function b_sorts b_filter]. rewrite flat_map_app. cbn [flat_map]. rewrite app_nil_r, <- !app_assoc. do 2 apply Permutation_app_head. apply Permutation_app_comm.
Qed.

(** * One relation *)
Definition expressions_in (ds : list RelModel.detail) : list (enode * option str) := flat_map (fun d => match d with OnExpression e x => [(e, x)] | _ => [] end) ds.
Definition groupings_in (ds : list RelModel.detail) : list enode := flat_map (fun d => match d with OnGrouping e => [e] | _ => [] end) ds.
Definition measures_in (ds : list RelModel.detail) : list (list mdetail) := flat_map (fun d => match d with OnMeasure l => [l] | _ => [] end) ds.
Fixpoint grouped_first (ds : list RelModel.detail) : Prop := match ds with [] => True | OnMeasure _ :: ds => groupings_in ds = [] /\ grouped_first ds | _ :: ds => grouped_first ds end.
Lemma given_all ds : forall t, Forall2 (fun (p : enode * option str) n => forall y, snd p = Some y -> n = y) (expressions_in ds) (snd (given_names t ds)).
Proof.
  induction ds as [|d ds IH]; intros t; [constructor|]. unfold expressions_in. cbn [flat_map]. fold (expressions_in ds). destruct d as [|n|k e|e [n|]| |n|e|l|e by_|tx|n|c]; cbn [given_names app]; try exact (IH t).
  - specialize (IH t). destruct (given_names t ds) as [t1 r]. cbn [snd] in *. constructor; [|exact IH]. cbn. intros y H. injection H as <-. reflexivity.
  - destruct (unique t $"intermediate") as [t1 u]. specialize (IH t1). destruct (given_names t1 ds) as [t2 r]. cbn [snd] in *. constructor; [|exact IH]. cbn. discriminate.
Qed.
Section Track.
  Variables (ff : str -> option N) (fr : str -> option bool) (kn : str -> bool) (ss : FieldModel.schemas) (ag : bool) (fields : list FieldModel.column).
  Hypothesis Hf : Forall plain fields.
  Hypothesis Hs : forall q i, In (q, i) ss -> i <> 0.
  Notation track := (track ff fr kn ss ag fields).
  Notation fc := (find_field ss ag fields []).
  Notation inputs := (map (lab ss) fields).
  Lemma track_cols ds : forall i b b' g', WholeModel.is_aggregate b = false -> track i [] b ds = Ok ((b', g'), []) ->
    g' = [] /\ exists zs, Forall2 (finds fc) (flat_map detail_names ds) zs /\ Permutation (cols b') (cols b ++ zs) /\ (head b <> 0 -> head b <> 6 -> cols b' = cols b ++ zs).
  Proof.
    induction ds as [|d ds IH]; intros i b b' g' Hb H; cbn [WholeModel.track] in H.
    - apply fine_inj in H. injection H as <- <-. split; [reflexivity|]. exists []. split; [constructor|]. rewrite app_nil_r. auto.
    - apply bindR_clean in H as (b1 & H1 & H). destruct (adds_nothing ff fr kn _ _ i b d b1 Hb H1) as [G Hb1]. assert (A : added_columns fields d b1 = []) by (destruct d; try reflexivity; discriminate G). rewrite A in H. cbn [app] in H.
      assert (H1' : visitDetail ff fr (fun _ _ => fc) (length fields) kn kn i b d = Ok (b1, [])) by (destruct d; try discriminate G; exact H1). assert (Hh : head b1 = head b) by (apply detail_iff in H1 as (x & _ & Ad); exact (add_head _ _ _ _ _ Ad)).
      apply detail_columns in H1' as (z1 & R1 & P1 & Q1); [|exact Hb]. apply IH in H as (-> & z2 & R2 & P2 & Q2); [|exact Hb1]. rewrite Hh in Q2. split; [reflexivity|]. exists (z1 ++ z2). split; [cbn [flat_map]; apply Forall2_app; assumption|]. rewrite app_assoc. split.
      + rewrite P2. apply Permutation_app_tail. exact P1.
      + intros N0 N6. rewrite (Q2 N0 N6), (Q1 N0 N6). reflexivity.
  Qed.
  Lemma track_project ds : forall i es b' g', track i [] (BProject es) ds = Ok ((b', g'), []) ->
    exists new, b' = BProject (es ++ new) /\ Forall2 (fun p x => visitExpr ff fr fc (fst p) = Ok (x, [])) (expressions_in ds) new.
  Proof.
    induction ds as [|d ds IH]; intros i es b' g' H; cbn [WholeModel.track] in H.
    - apply fine_inj in H. injection H as <- <-. exists []. rewrite app_nil_r. split; [reflexivity|constructor].
    - apply bindR_clean in H as (b1 & H1 & H). destruct (adds_nothing ff fr kn _ _ i (BProject es) d b1 eq_refl H1) as [G Hb1]. assert (A : added_columns fields d b1 = []) by (destruct d; try reflexivity; discriminate G). rewrite A in H. cbn [app] in H.
      assert (H1' : visitDetail ff fr (fun _ _ => fc) (length fields) kn kn i (BProject es) d = Ok (b1, [])) by (destruct d; try discriminate G; exact H1). apply detail_iff in H1' as (x & I & Ad).
      assert (X : exists l, b1 = BProject (es ++ l) /\ Forall2 (fun p x => visitExpr ff fr fc (fst p) = Ok (x, [])) (expressions_in [d]) l).
      { inversion I; subst; cbn [add] in Ad; try discriminate Ad; injection Ad as <-; try (exists []; rewrite app_nil_r; split; [reflexivity|constructor]). exists [x0]. split; [reflexivity|]. cbn. constructor; [|constructor]. exact (reads_visit ff fr (fun _ _ => fc) _ _ _ _ H0). }
      destruct X as (l & -> & R). apply IH in H as (new & -> & Rn). exists (l ++ new). rewrite <- app_assoc. split; [reflexivity|]. unfold expressions_in in *. cbn [flat_map] in *. rewrite app_nil_r in R. apply Forall2_app; assumption.
  Qed.
  Lemma lab_named n : lab ss (column_named n) = (n, None).
  Proof. unfold lab, column_named, read_column. cbn. destruct (find _ ss) as [[q i]|] eqn:E; [|reflexivity]. exfalso. apply find_some in E as [I E]. cbn in E. apply (Hs q i I). destruct i; [reflexivity|discriminate E]. Qed.
  Lemma found_meant x s z : (Z.of_nat (length fields) < 2 ^ 31)%Z -> fc x = Some (s, z) -> meant inputs x z /\ (z < Z.of_nat (length fields))%Z.
  Proof. unfold find_field. destruct (FieldModel.find_in _ _ _ x) as [z'|] eqn:E; [|discriminate]. intros L H. injection H as _ <-. exact (field_meant ss ag fields Hf x z' L E). Qed.
  Lemma all_meant names zs : (Z.of_nat (length fields) < 2 ^ 31)%Z -> Forall2 (finds fc) names zs -> Forall2 (meant inputs) names zs.
  Proof. intros L H. induction H as [|x z names zs (s & F) _ IH]; constructor; [exact (proj1 (found_meant x s z L F))|exact IH]. Qed.
  Lemma expression_labels ps : forall es names pre g, (Z.of_nat (length fields) < 2 ^ 31)%Z -> (forall x y, ~ In (NCol x, Some y) ps) -> Forall2 (fun p x => visitExpr ff fr fc (fst p) = Ok (x, [])) ps es ->
    Forall2 (fun (p : enode * option str) n => forall y, snd p = Some y -> n = y) ps names -> length pre = length g -> Forall plain g ->
    exists new, add_expressions fields (pre ++ names) es g = g ++ new /\ Forall2 (expression_label inputs) ps (map (lab ss) new) /\ Forall plain new.
  Proof.
    induction ps as [|[e o] ps IH]; intros es names pre g L Hn Fe Fn Lp Pg.
    - inversion Fe; subst. exists []. rewrite app_nil_r. repeat constructor.
    - inversion Fe as [|? x ? es' Hx Fe']; subst. inversion Fn as [|? n ? names' Hna Fn']; subst. cbn [fst snd] in *.
      assert (Go : forall c, plain c -> expression_label inputs (e, o) (lab ss c) -> exists new, add_expressions fields (pre ++ n :: names') es' (g ++ [c]) = g ++ new /\ Forall2 (expression_label inputs) ((e, o) :: ps) (map (lab ss) new) /\ Forall plain new).
      { intros c Pc Hc. destruct (IH es' names' (pre ++ [n]) (g ++ [c]) L) as (new & E & F & P); [intros u v I; apply (Hn u v); right; exact I|exact Fe'|exact Fn'|rewrite !app_length, Lp; reflexivity|apply Forall_app; split; [exact Pg|constructor; [exact Pc|constructor]]|].
        rewrite <- app_assoc in E. exists (c :: new). split; [change (n :: names') with ([n] ++ names'); rewrite E, <- app_assoc; reflexivity|]. split; [constructor; assumption|constructor; assumption]. }
      apply read_column_only in Hx.
      assert (Other : (forall s r, x <> ESel s r) -> (forall y, e <> NCol y) -> exists new, add_expressions fields (pre ++ n :: names') (x :: es') g = g ++ new /\ Forall2 (expression_label inputs) ((e, o) :: ps) (map (lab ss) new) /\ Forall plain new).
      { intros Nx Ne. assert (E : add_expressions fields (pre ++ n :: names') (x :: es') g = add_expressions fields (pre ++ n :: names') es' (g ++ [column_named n])).
        { assert (Nn : nth (length g) (pre ++ n :: names') [] = n) by (rewrite <- Lp, app_nth2, Nat.sub_diag by lia; reflexivity). cbn [add_expressions]. rewrite Nn. destruct x; try reflexivity. exfalso. exact (Nx _ _ eq_refl). }
        rewrite E. apply Go; [reflexivity|]. rewrite lab_named. unfold expression_label. destruct o as [y|]; [rewrite (Hna y eq_refl); destruct e; reflexivity|]. destruct e; try reflexivity. exfalso. exact (Ne _ eq_refl). }
      destruct e; try (apply Other; [exact Hx|discriminate]). destruct Hx as (s & z & r & Fz & ->). destruct (found_meant _ _ _ L Fz) as [M B]. pose proof M as (M0 & l & Nl & _). cbn [add_expressions].
      unfold FieldModel.at_index. rewrite Z.mod_small by lia. rewrite nth_error_map in Nl. destruct (nth_error fields (Z.to_nat z)) as [c|] eqn:Ec; [|discriminate Nl]. cbn [some_list]. apply Go.
      + rewrite Forall_forall in Hf. apply Hf, (nth_error_In _ _ Ec).
      + cbn [expression_label]. destruct o as [y|]; [exfalso; apply (Hn text y); left; reflexivity|]. exists z. split; [exact M|]. rewrite nth_error_map, Ec. reflexivity.
  Qed.
  Lemma track_more ds : forall i g b b' g', track i g b ds = Ok ((b', g'), []) -> length g <= length g'.
  Proof.
    induction ds as [|d ds IH]; intros i g b b' g' H; cbn [WholeModel.track] in H; [apply fine_inj in H; injection H as <- <-; lia|]. apply bindR_clean in H as (b1 & _ & H). apply IH in H. rewrite app_length in H. lia.
  Qed.
  Lemma track_groups ds : forall i g gs ms b' g', (gs = [] \/ exists a, gs = [a]) -> Forall plain g -> (Z.of_nat (length fields + length g') < 2 ^ 31)%Z -> (forall e, In e (groupings_in ds) -> exists x, e = NCol x) ->
    (forall l, In l (measures_in ds) -> exists x, measure_names l = [x]) -> grouped_first ds -> track i g (BAggregate gs ms) ds = Ok ((b', g'), []) ->
    exists zs cs gs' ms', b' = BAggregate gs' ms' /\ Forall2 (fun e z => exists x, e = NCol x /\ meant inputs x z) (groupings_in ds) zs /\ Forall2 (fun z c => nth_error fields (Z.to_nat z) = Some c) zs cs /\
      concat gs' = concat gs ++ map (fun z => ESel (SegField z None) RootRef) zs /\ g' = g ++ cs ++ map column_named (flat_map measure_names (measures_in ds)) /\
      exists new, ms' = ms ++ new /\ Forall2 (right_measure inputs (map (lab ss) g')) (measures_in ds) new.
  Proof.
    induction ds as [|d ds IH]; intros i g gs ms b' g' Hg Pg L Hgr Hme Hfi H; cbn [WholeModel.track] in H.
    - apply fine_inj in H. injection H as <- <-. exists [], [], gs, ms. cbn. rewrite !app_nil_r. repeat split; try constructor. exists []. rewrite app_nil_r. split; [reflexivity|constructor].
    - apply bindR_clean in H as (b1 & H1 & H). pose proof (track_more _ _ _ _ _ _ H) as Lm. apply detail_iff in H1 as (x & I & A).
      assert (Same : groupings_in [d] = [] -> measures_in [d] = [] -> b1 = BAggregate gs ms -> added_columns fields d b1 = [] -> grouped_first ds -> exists zs cs gs' ms', b' = BAggregate gs' ms' /\ Forall2 (fun e z => exists x, e = NCol x /\ meant inputs x z) (groupings_in (d :: ds)) zs /\ Forall2 (fun z c => nth_error fields (Z.to_nat z) = Some c) zs cs /\
        concat gs' = concat gs ++ map (fun z => ESel (SegField z None) RootRef) zs /\ g' = g ++ cs ++ map column_named (flat_map measure_names (measures_in (d :: ds))) /\
        exists new, ms' = ms ++ new /\ Forall2 (right_measure inputs (map (lab ss) g')) (measures_in (d :: ds)) new).
      { intros Dg Dm -> Da Gf. unfold groupings_in, measures_in in *. cbn [flat_map] in *. rewrite app_nil_r in Dg, Dm. rewrite Dg, Dm in *. rewrite Da, app_nil_r in H. exact (IH _ _ _ _ _ _ Hg Pg L Hgr Hme Gf H). }
      inversion I; subst; cbn [add] in A; try discriminate A; injection A as <-; try (apply Same; [reflexivity|reflexivity|reflexivity|reflexivity|exact Hfi]); clear Same.
      + (* grouping *)
        destruct (Hgr e) as (c & ->); [left; reflexivity|]. match goal with R : reads _ _ _ _ _ _ _ |- _ => apply reads_visit in R as Hv end. apply read_column_only in Hv as (s & z & r & Fz & ->).
        match goal with G : GroupSays _ _ _ |- _ => inversion G as [f0 c0 r0 Bz| | | |? N1 _ _]; subst end; [|match goal with N : forall f c, SegField _ _ <> SegField f c |- _ => exfalso; exact (N _ _ eq_refl) end|exfalso; exact (N1 _ _ eq_refl)].
        unfold find_field in Fz. cbn [own_columns] in Fz. rewrite app_nil_r in Fz. destruct (FieldModel.find_in _ _ _ c) as [z'|] eqn:Ez; [|discriminate Fz]. injection Fz as _ <-.
        rewrite app_length in Lm. apply field_found in Ez; [|exact Hf|exact Pg|lia]. destruct Ez as [Ez|[M _]]; [lia|]. pose proof M as (M0 & l & Nl & _). rewrite nth_error_map in Nl. destruct (nth_error fields (Z.to_nat z')) as [cc|] eqn:Ec; [|discriminate Nl].
        assert (Ad : added_columns fields (OnGrouping (NCol c)) (BAggregate (add_group gs (ESel (SegField z' None) RootRef)) ms) = [cc] /\ concat (add_group gs (ESel (SegField z' None) RootRef)) = concat gs ++ [ESel (SegField z' None) RootRef] /\ exists a, add_group gs (ESel (SegField z' None) RootRef) = [a]).
        { destruct Hg as [->|(a & ->)]; cbn [add_group added_columns concat]; [cbn [rev app]; rewrite Ec; eauto|]. rewrite rev_unit, Ec, !app_nil_r. eauto. }
        destruct Ad as (Ad & Ac & Aa). rewrite Ad in H. apply IH in H as (zs & cs & gs' & ms' & -> & F1 & F2 & C & -> & Lms); [|right; exact Aa|apply Forall_app; split; [exact Pg|constructor; [rewrite Forall_forall in Hf; apply Hf, (nth_error_In _ _ Ec)|constructor]]|exact L|intros e J; apply Hgr; right; exact J|exact Hme|exact Hfi].
        exists (z' :: zs), (cc :: cs), gs', ms'. split; [reflexivity|]. split; [unfold groupings_in; cbn [flat_map app]; constructor; [eauto|exact F1]|]. split; [constructor; assumption|]. split; [rewrite C, Ac, <- app_assoc; reflexivity|].
        split; [rewrite <- app_assoc; reflexivity|]. destruct Lms as (new & -> & Fn). exists new. split; [reflexivity|]. exact Fn.
      + (* measure *)
        destruct Hfi as [Hno Hfi]. cbn [added_columns] in H. apply IH in H as (zs & cs & gs' & ms' & -> & F1 & F2 & C & -> & Lms); [|exact Hg| |exact L|intros e J; apply Hgr; exact J|intros k J; apply Hme; right; exact J|exact Hfi].
        * rewrite Hno in F1. inversion F1; subst. inversion F2; subst. exists [], [], gs', ms'. split; [reflexivity|]. split; [unfold groupings_in; cbn [flat_map app]; fold (groupings_in ds); rewrite Hno; constructor|]. split; [constructor|]. split; [exact C|].
          split; [unfold measures_in; cbn [flat_map app]; rewrite map_app, <- app_assoc; reflexivity|]. destruct Lms as (new & -> & Fn). exists (m :: new). rewrite <- app_assoc. split; [reflexivity|]. unfold measures_in. cbn [flat_map app]. constructor; [|exact Fn].
          match goal with M : MeasureSays _ _ _ _ _ _ |- _ => apply measure_iff in M as (s & Hs' & <-) end. cbn [app] in *. set (g' := (g ++ map column_named (measure_given l)) ++ map column_named (flat_map measure_names (measures_in ds))) in *.
          eapply (measured ff fr _ (meant_unless_own inputs (map (lab ss) g'))) in Hs' as (B & zs & Fz & P); [| |intros f Q; discriminate Q].
          -- cbn [building_columns start_building b_function b_sorts b_filter given flat_map app] in P. unfold right_measure. rewrite (built_columns _ B).
             assert (Ff : Forall2 (fun z x => meant_unless_own inputs (map (lab ss) g') x z) zs (measure_columns_in l)) by (clear -Fz; induction Fz; constructor; assumption).
             destruct (Permutation_Forall2 (Permutation_sym P) Ff) as (names & Pn & Fn'). exists names. split; [apply Permutation_sym, Pn|]. clear -Fn'. induction Fn'; constructor; assumption.
          -- intros j x z (sp & Q) No. unfold find_field in Q. cbn [own_columns] in Q. destruct (FieldModel.find_in _ _ _ x) as [z'|] eqn:Ez; [|discriminate Q]. injection Q as _ <-.
             assert (Pre : exists rest, measure_given l = measure_given (firstn j l) ++ rest) by (exists (measure_given (skipn j l)); unfold measure_given; rewrite <- flat_map_app, firstn_skipn; reflexivity). destruct Pre as (rest & Pre).
             assert (Pp : Forall plain (g ++ map column_named (measure_given (firstn j l)))) by (apply Forall_app; split; [exact Pg|]; apply Forall_forall; intros k J; apply in_map_iff in J as (n & <- & _); reflexivity).
             apply (field_unless_own ss ag fields Hf _ x z' Pp) in Ez; [exact Ez| |].
             ++ unfold g' in L. rewrite Pre, map_app, !app_length in L. rewrite app_length. lia.
             ++ intros k J. apply No. unfold g'. rewrite Pre, map_app, !map_app. rewrite map_app in J. rewrite !in_app_iff in *. tauto.
        * apply Forall_app. split; [exact Pg|]. apply Forall_forall. intros k J. apply in_map_iff in J as (n & <- & _). reflexivity.
  Qed.
End Track.
Lemma same_length {A B} (R : A -> B -> Prop) l l' : Forall2 R l l' -> length l = length l'.
Proof. induction 1 as [|a b l l' _ _ IH]; [reflexivity|]. cbn. rewrite IH. reflexivity. Qed.
Lemma selected cs m : forall o o', Forall (fun z => 0 <= z < 2 ^ 31)%Z m -> FieldModel.map_columns cs m o = (o', []) ->
  exists sel, o' = o ++ sel /\ Forall2 (fun z c => nth_error cs (Z.to_nat z) = Some c) m sel.
Proof.
  induction m as [|z m IH]; intros o o' R; cbn [FieldModel.map_columns]; [intros H; injection H as <-; exists []; rewrite app_nil_r; split; [reflexivity|constructor]|]. inversion R as [|? ? Rz R']; subst.
  destruct (Z.ltb_spec (z mod 2 ^ 64) (FieldModel.size cs)) as [L|L]; [|destruct (FieldModel.map_columns cs m o); discriminate].
  unfold FieldModel.at_index. rewrite Z.mod_small in * by lia. destruct (nth_error cs (Z.to_nat z)) as [c|] eqn:E.
  - intros H. apply IH in H as (sel & -> & F); [|exact R']. exists (c :: sel). rewrite <- app_assoc. split; [reflexivity|]. constructor; assumption.
  - apply nth_error_None in E. unfold FieldModel.size in L. lia.
Qed.
Lemma grouped_first_from ds : (forall before l after e, ds = before ++ OnMeasure l :: after -> ~ In (OnGrouping e) after) -> grouped_first ds.
Proof.
  induction ds as [|d ds IH]; intros H; [exact I|]. assert (G : grouped_first ds) by (apply IH; intros before l after e -> ; apply (H (d :: before) l after e); reflexivity). destruct d; try exact G. cbn [grouped_first]. split; [|exact G].
  specialize (H [] l ds). unfold groupings_in. destruct (flat_map _ ds) as [|e r] eqn:E; [reflexivity|]. exfalso. apply (H e eq_refl). assert (J : In e (e :: r)) by (left; reflexivity). rewrite <- E in J. apply in_flat_map in J as (d & Id & J). destruct d; cbn in J; try destruct J as [<-|[]]; try destruct J. exact Id.
Qed.
Section One.
  Variables (ff : str -> option N) (fr : str -> option bool) (kn : str -> bool) (ss : FieldModel.schemas) (fields : list FieldModel.column) (pn : list pnode) (n : rnode).
  Hypothesis Hf : Forall plain fields.
  Hypothesis Hs : forall q i, In (q, i) ss -> i <> 0.
  Notation inputs := (map (lab ss) fields).
  Variables (b0 : body) (gv : list str) (schema : list FieldModel.column) (r : relation) (d : FieldModel.data).
  Hypothesis Hk : empty_body (n_kind n) = Some b0.
  Hypothesis V : visitColumns ff fr kn ss (WholeModel.is_aggregate b0) fields gv schema b0 (n_details n) = Ok ((r, d), []).
  Hypothesis Hm : FieldModel.d_missing d = [].
  Hypothesis Hgv : names_given b0 n gv.
  Hypothesis Hread : is_kind n $"read" -> fields = [].
  Hypothesis Hschema : used_schemas (n_details n) = [] -> schema = [].
  Hypothesis Psch : Forall plain schema.
  Hypothesis Hlab : exists tables, Forall2 (schema_named pn) (schemas_used n) tables /\ map (lab ss) schema = flat_map (fun t => map (fun i => (fst i, Some (fst t))) (snd t)) (combine (schemas_used n) tables).
  Hypothesis Hnames : forall x y, ~ In (NCol x, Some y) (named_expressions n).
  Hypothesis Hgroups : forall e, In e (groupings_of n) -> exists x, e = NCol x.
  Hypothesis Hmeasures : forall l, In l (measures_of n) -> exists x, measure_names l = [x].
  Hypothesis Hfirst : forall before l after e, n_details n = before ++ OnMeasure l :: after -> ~ In (OnGrouping e) after.
  Hypothesis Hsome : is_kind n $"aggregate" -> Exists names_a_measure (n_details n).
  Hypothesis Hsize : (Z.of_nat (length fields + all_columns fields (r_body r) (length schema)) < 2 ^ 31)%Z.
  Lemma empty_head : head b0 = match kind_read (n_kind n) with TreeModel.KRead => 0 | TreeModel.KFilter => 1 | TreeModel.KFetch => 2 | TreeModel.KAggregate => 3 | TreeModel.KSort => 4 | TreeModel.KProject => 5 | TreeModel.KJoin => 6 | TreeModel.KCross => 7 | _ => 8 end.
  Proof. unfold kind_read. rewrite Hk. revert Hk. unfold empty_body. repeat match goal with |- context [?a =s ?w] => destruct (a =s w); [intros H; injection H as <-; reflexivity|] end. discriminate. Qed.
  Lemma head_kind : (head b0 = 0 <-> is_kind n $"read") /\ (head b0 = 3 <-> is_kind n $"aggregate") /\ (head b0 = 5 <-> is_kind n $"project").
  Proof.
    unfold is_kind. revert Hk. unfold empty_body. repeat match goal with |- context [?a =s ?w] => destruct (seq_eqb_spec a w) as [Ek|_]; [intros H; injection H as <-; rewrite Ek; cbn; repeat split; (reflexivity || discriminate)|] end. discriminate.
  Qed.
  Definition result (own : list label) : Prop :=
    Own pn n inputs own /\ right_columns n r inputs own /\ Forall2 (picks (kept n inputs) own) (emitted n) (r_emit r) /\ shows r (kept n inputs ++ own) (map (lab ss) (FieldModel.exposed d)) /\
    Forall plain (FieldModel.exposed d) /\ length (FieldModel.exposed d) = reported_columns fields r (length schema) /\ kind_name (r_body r) = to_lower (n_kind n).
  Lemma one_relation : exists own, result own.
  Proof.
    pose proof V as H. unfold visitColumns in H. apply bindR_clean in H as ([b g] & H1 & H). apply bindR_clean in H as (emit & H2 & H).
    set (g2 := match b with BProject es => add_expressions fields gv es g | _ => g end) in *. set (ag := WholeModel.is_aggregate b0) in *.
    destruct (FieldModel.applyOutputMapping _ _ _ _ _) as [output missing] eqn:Em. apply fine_inj in H. injection H as Er Ed. rewrite <- Ed in Hm. cbn [FieldModel.d_missing] in Hm. subst missing.
    pose proof (track_head ff fr kn ss ag fields (n_details n) _ _ _ _ _ H1) as Hh. pose proof (track_kind ff fr kn ss ag fields (n_details n) _ _ _ _ _ H1) as Hkn. destruct (track_schemas ff fr kn ss ag fields (n_details n) _ _ _ _ _ H1) as [_ S2].
    destruct (empty_kind _ _ Hk) as (K1 & K2 & _). destruct head_kind as (HK0 & HK3 & HK5). rewrite <- Hh in HK0, HK3, HK5.
    assert (Kr : kind_name (r_body r) = to_lower (n_kind n)) by (rewrite <- Er; cbn [r_body]; transitivity (kind_name b); [destruct b as [| | |[|? ?]| | | | |]; reflexivity|congruence]).
    assert (Fa : forall k, all_columns fields (r_body r) k = all_columns fields b k) by (intros k; rewrite <- Er; cbn [r_body]; destruct b as [| | |[|? ?]| | | | |]; reflexivity).
    assert (Ee : r_emit r = emit) by (rewrite <- Er; reflexivity). assert (Sch : head b <> 0 -> schema = []). { intros N0. apply Hschema, S2. rewrite K1. intros Q. apply N0, HK0. exact Q. }
    assert (Ec : Forall2 (fun c z => FieldModel.find_in ss true (scope_with ag fields g2) c = Some z) (emitted n) emit).
    { apply (emits_iff ff fr (fun _ _ _ => None) _ 0 kn kn) in H2. change (emit_columns (n_details n)) with (emitted n) in H2. clear -H2. induction H2 as [|c z l emit Hc _ IH]; constructor; [|exact IH]. unfold find_emit in Hc. destruct (FieldModel.find_in _ _ _ _) as [z'|]; [|discriminate Hc]. injection Hc as <-. reflexivity. }
    assert (Rg : Forall (fun z => 0 <= z < 2 ^ 31)%Z emit).
    { clear -Ec. induction Ec as [|c z l emit Hc _ IH]; constructor; [|exact IH]. unfold FieldModel.find_in in Hc. destruct (FieldModel.rfind _ _); [injection Hc as <-; apply index32_range|]. destruct (FieldModel.rfind _ _); [injection Hc as <-; apply index32_range|discriminate Hc]. }
    assert (Pick : Forall plain g2 -> (Z.of_nat (length fields + length g2) < 2 ^ 31)%Z -> forall sel, Forall2 (fun z c => nth_error (if ag then g2 else fields ++ g2) (Z.to_nat z) = Some c) emit sel -> Forall2 (picks (map (lab ss) (if ag then [] else fields)) (map (lab ss) g2)) (emitted n) emit).
    { intros Pg2 L2 sel Fs. clear -Ec Fs Hf Pg2 L2 Rg. revert sel Fs Rg. induction Ec as [|c z l emit Hc _ IH]; intros sel Fs Rg; constructor; inversion Fs as [|? ? ? ? Nz Fs']; subst; inversion Rg; subst.
      - apply (emit_found ss ag fields Hf g2 c z Pg2 L2 Hc). assert (X : nth_error (if ag then g2 else fields ++ g2) (Z.to_nat z) <> None) by congruence. apply nth_error_Some in X. lia.
      - eapply IH; eassumption. }
    assert (Pl : forall l sel m, Forall plain l -> Forall2 (fun z c => nth_error l (Z.to_nat z) = Some c) m sel -> Forall plain sel).
    { clear. intros l sel m Hl F. rewrite Forall_forall in Hl. induction F as [|z c m sel Hc _ IH]; constructor; [apply Hl, (nth_error_In _ _ Hc)|exact IH]. }
    assert (Fm : forall l sel m, Forall2 (fun z c => nth_error l (Z.to_nat z) = Some c) m sel -> Forall2 (fun k x => nth_error (map (lab ss) l) (Z.to_nat k) = Some x) m (map (lab ss) sel)).
    { clear. intros l sel m F. induction F as [|z c m sel Hc _ IH]; constructor; [rewrite nth_error_map, Hc; reflexivity|exact IH]. }
    unfold result, reported_columns. rewrite Ee. rewrite Fa in Hsize |- *. unfold FieldModel.exposed. rewrite <- Ed. cbn [FieldModel.d_output FieldModel.d_fields FieldModel.d_generated].
    unfold kept. destruct (Nat.eq_dec (head b) 3) as [E3|E3].
    - (* aggregation *)
      apply HK3 in E3 as Ka. unfold is_kind in Ka. rewrite Ka, seq_eqb_refl. assert (Eb : exists gs ms, b0 = BAggregate gs ms) by (rewrite Hh in E3; destruct b0; try discriminate E3; eauto). destruct Eb as (gs0 & ms0 & Eb).
      assert (Eag : ag = true) by (unfold ag; rewrite Eb; reflexivity). rewrite Eag in *. rewrite (Sch ltac:(lia)) in *. cbn [app] in Em.
      assert (G0 : gs0 = [] /\ ms0 = []). { revert Hk. rewrite Eb. unfold empty_body. repeat match goal with |- context [?a =s ?w] => destruct (a =s w); [try discriminate|] end; try discriminate. intros Q. injection Q as <- <-. auto. }
      destruct G0 as [-> ->]. rewrite Eb in H1. assert (Z0 : length (@nil FieldModel.column) <= length (concat (@nil (list expr))) + length (@nil measure)) by (cbn; lia).
      destruct (track_grows ff fr kn ss true fields (fun _ => True) (fun _ _ _ => I) (n_details n) 0 [] [] [] b g Z0 H1) as (gs1 & ms1 & -> & Lg & Ng). cbn [all_columns] in Hsize. assert (Gn : g <> []) by (apply Ng; right; apply Hsome, Ka). unfold g2 in *.
      destruct (track_groups ff fr kn ss true fields Hf Hs (n_details n) 0 [] [] [] _ g (or_introl eq_refl) (Forall_nil _) ltac:(lia) Hgroups Hmeasures (grouped_first_from _ Hfirst) H1) as (zs & cs & gs' & ms' & Eb' & F1 & F2 & C & Eg & Lms).
      injection Eb' as <- <-. cbn [app] in Eg. cbn [concat app] in C, Lms. change (groupings_in (n_details n)) with (groupings_of n) in F1. change (measures_in (n_details n)) with (measures_of n) in Lms, Eg. destruct Lms as (new & <- & Fme). pose proof (eq_sym (same_length _ _ _ Fme)) as Lms.
      assert (Pcs : Forall plain cs) by exact (Pl fields cs zs Hf F2).
      assert (Pg : Forall plain g) by (rewrite Eg; apply Forall_app; split; [exact Pcs|apply Forall_forall; intros k J; apply in_map_iff in J as (q & <- & _); reflexivity]).
      assert (Lgm : length (flat_map measure_names (measures_of n)) = length (measures_of n)).
      { clear -Hmeasures. induction (measures_of n) as [|l ls IH]; [reflexivity|]. cbn [flat_map]. rewrite app_length, IH by (intros k J; apply Hmeasures; right; exact J). destruct (Hmeasures l (or_introl eq_refl)) as (x & ->). reflexivity. }
      assert (Lcs : length cs = length zs) by (symmetry; exact (same_length _ _ _ F2)). assert (Lall : length g = length (concat gs1) + length ms1) by (rewrite Eg, app_length, map_length, C, map_length, Lcs, Lms; f_equal; exact Lgm).
      exists (map (lab ss) g). split.
      { rewrite Eg, map_app. apply O_aggregate; [exact Ka| |].
        - clear -F1 F2. revert cs F2. induction F1 as [|e z es zs (x & -> & M) _ IH]; intros cs F2; inversion F2 as [|? c ? cs' Nc F2']; subst; cbn [map]; constructor; [|exact (IH _ F2')]. exists x. split; [reflexivity|]. exists z. split; [exact M|]. rewrite nth_error_map, Nc. reflexivity.
        - rewrite map_map. clear -Hmeasures Hs. induction (measures_of n) as [|l ls IH]; [constructor|]. destruct (Hmeasures l (or_introl eq_refl)) as (x & Ex). cbn [flat_map]. rewrite Ex. cbn [app map]. constructor; [|apply IH; intros k J; apply Hmeasures; right; exact J].
          exists x. split; [exact Ex|apply lab_named, Hs]. }
      split.
      { unfold right_columns. rewrite <- Er. cbn [r_body]. assert (Q : forall gs, concat gs = concat gs1 -> Forall2 (meant inputs) (flat_map columns_in (groupings_of n)) (flat_map e_columns (concat gs)) /\ Forall2 (right_measure inputs (map (lab ss) g)) (measures_of n) ms1).
        { intros gs ->. split; [|exact Fme]. rewrite C. clear -F1. induction F1 as [|e z es zs (x & -> & M) _ IH]; cbn; constructor; assumption. }
        destruct gs1 as [|? ?]; cbn [finish]; apply Q; reflexivity. }
      assert (L2 : (Z.of_nat (length fields + length g) < 2 ^ 31)%Z) by lia.
      destruct emit as [|z emit].
      + cbn [FieldModel.applyOutputMapping] in Em. injection Em as <-. split; [inversion Ec; constructor|]. destruct g as [|c g]; [contradiction|]. split; [unfold shows; rewrite Ee; reflexivity|]. split; [exact Pg|]. split; [cbn [all_columns]; exact Lall|congruence].
      + cbn [FieldModel.applyOutputMapping] in Em. apply selected in Em as (sel & -> & Fs); [|exact Rg]. cbn [app] in *. split; [exact (Pick Pg L2 sel Fs)|]. assert (Ln : length sel = length (z :: emit)) by (symmetry; exact (same_length _ _ _ Fs)).
        destruct sel as [|c sel]; [discriminate Ln|]. split; [unfold shows; rewrite Ee; exact (Fm _ _ _ Fs)|]. split; [exact (Pl _ _ _ Pg Fs)|]. split; [exact Ln|congruence].
    - assert (Ka : to_lower (n_kind n) =s $"aggregate" = false) by (apply seq_eqb_neq; intros Q; apply E3, HK3; exact Q). rewrite Ka.
      assert (Eag : ag = false) by (unfold ag; rewrite Hh in E3; destruct b0; try reflexivity; exfalso; apply E3; reflexivity). rewrite Eag in *.
      destruct (track_cols ff fr kn ss false fields (n_details n) 0 b0 b g Eag H1) as (-> & zs & Fz & Pz & Qz). unfold cols in Pz, Qz. rewrite K2 in Pz, Qz. cbn [flat_map app] in Pz, Qz.
      assert (Lf : (Z.of_nat (length fields) < 2 ^ 31)%Z) by lia. apply (all_meant ss false fields Hf _ _ Lf) in Fz.
      assert (En : flat_map detail_names (n_details n) = flat_map columns_in (expressions_of n)).
      { unfold expressions_of. clear. induction (n_details n) as [|x l IH]; [reflexivity|]. cbn [flat_map]. rewrite flat_map_app, IH. f_equal. destruct x; cbn; rewrite ?app_nil_r; reflexivity. }
      rewrite En in Fz.
      assert (Rc : forall own, right_columns n r inputs own).
      { intros own. assert (X : forall names, Forall2 (meant (@nil label)) names zs -> names = [] /\ zs = []).
        { intros names F. inversion F as [|? ? ? ? (_ & l & Q & _)]; [auto|]. exfalso. destruct (Z.to_nat _); discriminate Q. }
        unfold right_columns. rewrite <- Er. cbn [r_body]. rewrite Hh in *. destruct b as [so sc f0 g0 p|cd|o ct|gs ms|l0|l0|t0 e0 p0| |nm]; cbn [finish]; try (rewrite Qz by (rewrite <- Hh; discriminate); exact Fz).
        - assert (Q : is_kind n $"read") by (apply HK0; rewrite <- Hh; reflexivity). rewrite (Hread Q) in *. cbn [map] in *. destruct (X _ Fz) as [-> ->]. apply Permutation_sym, Permutation_nil in Pz. rewrite Pz. constructor.
        - exfalso. apply E3. rewrite <- Hh. reflexivity.
        - assert (Ff : Forall2 (fun z x => meant inputs x z) zs (flat_map columns_in (expressions_of n))) by (clear -Fz; induction Fz; constructor; assumption). apply Permutation_sym in Pz.
          destruct (Permutation_Forall2 Pz Ff) as (names & Pn & Fn). exists names. split; [apply Permutation_sym, Pn|]. clear -Fn. induction Fn; constructor; assumption. }
      destruct (Nat.eq_dec (head b) 0) as [E0|E0].
      + (* read *)
        apply HK0 in E0 as Q. pose proof (Hread Q) as Ef. unfold is_kind in Q. destruct Hlab as (tables & T1 & T2). rewrite Ef in *. assert (Eg : g2 = []) by (unfold g2; destruct b; try discriminate E0; reflexivity). rewrite Eg in *.
        exists (map (lab ss) schema). split; [rewrite T2; apply O_read; [exact Q|exact T1]|]. split; [apply Rc|]. destruct emit as [|z emit].
        * cbn [FieldModel.applyOutputMapping] in Em. injection Em as <-. split; [inversion Ec; constructor|]. cbn [map app]. destruct schema as [|c0 s0]; (split; [unfold shows; rewrite Ee; reflexivity|]; split; [exact Psch|]; split; [|congruence]; destruct b; try discriminate E0; reflexivity).
        * exfalso. inversion Ec as [|? ? ? ? Hc]; subst. unfold FieldModel.find_in in Hc. cbn in Hc. discriminate Hc.
      + pose proof (Sch E0) as Es. rewrite Es in *.
        assert (New : exists own, Own pn n inputs (map (lab ss) own) /\ g2 = own /\ Forall plain own /\ length fields + length own = all_columns fields b 0).
        { destruct (Nat.eq_dec (head b) 5) as [E5|E5].
          - apply HK5 in E5 as Q. destruct b as [| | | | |es| | |]; try discriminate E5. assert (Eb : exists es0, b0 = BProject es0) by (destruct b0; try discriminate Hh; eauto). destruct Eb as (es0 & Eb).
            assert (es0 = []) by (revert Hk; rewrite Eb; unfold empty_body; repeat match goal with |- context [?a =s ?w] => destruct (a =s w); [try discriminate; intros X; injection X as <-; reflexivity|] end; discriminate). subst es0. rewrite Eb in H1.
            destruct (track_project ff fr kn ss false fields (n_details n) 0 [] _ _ H1) as (new & En' & Fv). injection En' as ->. destruct Hgv as (t & Gv). rewrite Eb in Gv.
            destruct (expression_labels ff fr kn ss false fields Hf Hs (named_expressions n) new gv [] [] Lf Hnames Fv) as (c & Ec' & Fl & Pc); [rewrite Gv; apply given_all|reflexivity|constructor|]. cbn [app] in Ec'. exists c. split; [apply O_project; [exact Q|exact Fl]|].
            split; [exact Ec'|]. split; [exact Pc|]. cbn [all_columns]. f_equal. rewrite <- (map_length (lab ss) c), <- (same_length _ _ _ Fl). exact (same_length _ _ _ Fv).
          - exists []. split; [apply O_other; rewrite ?HK0, <- ?HK0, <- ?HK5, <- ?HK3; assumption|]. split; [unfold g2; destruct b; try reflexivity; exfalso; apply E5; reflexivity|]. split; [constructor|]. destruct b; cbn [all_columns length]; try lia; exfalso; [apply E0|apply E3|apply E5]; reflexivity. }
        destruct New as (c & Oc & -> & Pc & Lc). change (length (@nil FieldModel.column)) with 0 in *. rewrite <- Lc in Hsize |- *. assert (L2 : (Z.of_nat (length fields + length c) < 2 ^ 31)%Z) by lia. assert (Pall : Forall plain (fields ++ c)) by (apply Forall_app; split; assumption).
        exists (map (lab ss) c). split; [exact Oc|]. split; [apply Rc|]. rewrite <- map_app. destruct emit as [|z emit]; cbn [FieldModel.applyOutputMapping] in Em.
        * injection Em as <-. split; [inversion Ec; constructor|]. split; [unfold shows; rewrite Ee; reflexivity|]. split; [exact Pall|]. split; [apply app_length|congruence].
        * apply selected in Em as (sel & -> & Fs); [|exact Rg]. cbn [app] in *. split; [exact (Pick Pc L2 sel Fs)|]. assert (Ln : length sel = length (z :: emit)) by (symmetry; exact (same_length _ _ _ Fs)).
          destruct sel as [|y sel]; [discriminate Ln|]. split; [unfold shows; rewrite Ee; exact (Fm _ _ _ Fs)|]. split; [exact (Pl _ _ _ Pall Fs)|]. split; [exact Ln|congruence].
  Qed.
End One.

(** * Schemas *)
Lemma defines_here i x a : In a (DefineFacts.defines i x) -> fst (snd (fst a)) = i.
Proof.
  destruct x; cbn [DefineFacts.defines]; try (intros J; exact (False_ind _ J)).
  - intros [<-|J]; [reflexivity|]. apply in_map_iff in J as (y & <- & _). reflexivity.
  - destruct s; (intros [<-|J]; [reflexivity|]); try exact (False_ind _ J); apply in_map_iff in J as (y & <- & _); reflexivity.
  - intros J. apply in_app_or in J as [J|J]; [destruct uri; [destruct J as [<-|[]]; reflexivity|destruct J]|]. apply in_map_iff in J as (y & <- & _). reflexivity.
Qed.
Lemma defines_range l : forall i a, In a (DefineFacts.defines_all i l) -> i <= fst (snd (fst a)) < i + length l.
Proof.
  induction l as [|x l IH]; intros i a J; [destruct J|]. cbn [DefineFacts.defines_all length] in *. apply in_app_or in J as [J|J]; [apply defines_here in J; lia|]. apply IH in J. lia.
Qed.
Lemma defines_split a : forall i c, DefineFacts.defines_all i (a ++ c) = DefineFacts.defines_all i a ++ DefineFacts.defines_all (i + length a) c.
Proof. induction a as [|x a IH]; intros i c; cbn [DefineFacts.defines_all app length]; [rewrite Nat.add_0_r; reflexivity|]. rewrite IH, <- app_assoc. replace (S i + length a) with (i + S (length a)) by lia. reflexivity. Qed.
Lemma schema_labels pn tab n items : symbols pn = Ok (tab, []) -> schema_named pn n items ->
  map (lab (schema_list tab)) (schema_columns tab n) = map (fun i => (fst i, Some n)) items.
Proof.
  intros Hs (before & after & -> & Nb). apply DefineFacts.define_all_view in Hs as [Hv _]. cbn [map app] in Hv. rewrite defines_split in Hv. cbn [DefineFacts.defines_all DefineFacts.defines] in Hv. set (i := 0 + length before) in *.
  apply map_eq_app in Hv as (tb & t1 & -> & Vb & V1). apply map_eq_cons in V1 as (h & t2 & -> & Vh & V2). apply map_eq_app in V2 as (ts & tc & -> & Vs & Vc).
  destruct h as [hn hl hw]. unfold DefineFacts.view in Vh. cbn [s_name s_loc s_what] in Vh. injection Vh as -> -> Hw. destruct hw as [| | | | | |[?|]| |]; try discriminate Hw. clear Hw.
  assert (Rb : forall s, In s tb -> fst (s_loc s) <> i /\ s_name s <> n).
  { intros s J. assert (K : In (DefineFacts.view s) (DefineFacts.defines_all 0 before)) by (rewrite <- Vb; apply in_map, J). split; [apply defines_range in K; cbn in K; unfold i; lia|]. intros <-. apply Nb. apply in_map_iff. exists (DefineFacts.view s). split; [reflexivity|exact K]. }
  assert (Rc : forall s, In s tc -> fst (s_loc s) <> i).
  { intros s J. assert (K : In (DefineFacts.view s) (DefineFacts.defines_all (S i) after)) by (rewrite <- Vc; apply in_map, J). apply defines_range in K. cbn in K. lia. }
  assert (F : find_symbol (tb ++ Sym n (i, 0) WSchema :: ts ++ tc) n = Some (Sym n (i, 0) WSchema)).
  { unfold find_symbol. clear -Rb. induction tb as [|s tb IH]; cbn [app find s_name]; [rewrite seq_eqb_refl; reflexivity|]. destruct (seq_eqb_spec (s_name s) n) as [E|_]; [exfalso; exact (proj2 (Rb s (or_introl eq_refl)) E)|]. apply IH. intros u J. apply Rb. right. exact J. }
  unfold schema_columns. rewrite F. cbn [s_loc fst]. rewrite map_map.
  assert (L : forall x, lab (schema_list (tb ++ Sym n (i, 0) WSchema :: ts ++ tc)) (read_column (S i) x) = (x, Some n)).
  { intros x. unfold lab, read_column. cbn [FieldModel.c_name FieldModel.c_loc]. unfold schema_list. rewrite flat_map_app. cbn [flat_map s_what s_name s_loc fst app].
    assert (Q : forall l rest, (forall s, In s l -> fst (s_loc s) <> i) -> find (fun s : str * nat => snd s =? S i) (flat_map (fun s => match s_what s with WSchema => [(s_name s, S (fst (s_loc s)))] | _ => [] end) l ++ rest) = find (fun s => snd s =? S i) rest).
    { clear. induction l as [|s l IH]; intros rest R; [reflexivity|]. cbn [flat_map]. rewrite <- app_assoc. assert (E : forall r, find (fun s : str * nat => snd s =? S i) (match s_what s with WSchema => [(s_name s, S (fst (s_loc s)))] | _ => [] end ++ r) = find (fun s => snd s =? S i) r).
      { intros r. destruct (s_what s); try reflexivity. cbn [app find snd]. destruct (Nat.eqb_spec (S (fst (s_loc s))) (S i)) as [E|_]; [|reflexivity]. exfalso. apply (R s (or_introl eq_refl)). congruence. }
      rewrite E. apply IH. intros u J. apply R. right. exact J. }
    rewrite Q by (intros s J; apply Rb, J). cbn [find snd]. rewrite Nat.eqb_refl. reflexivity. }
  assert (E : forall l, map (fun c => lab (schema_list (tb ++ Sym n (i, 0) WSchema :: ts ++ tc)) (read_column (S i) (s_name c))) l = map (fun c => (s_name c, Some n)) l) by (intros l; apply map_ext; intros c; apply L).
  rewrite E. clear E L F. unfold columns_at. rewrite filter_app. cbn [filter at_loc s_loc s_what fst snd]. rewrite andb_false_r, filter_app.
  assert (Z : forall l, (forall s, In s l -> fst (s_loc s) <> i) -> filter (fun s => at_loc (i, 0) s && match s_what s with WColumn _ => true | _ => false end) l = []).
  { clear. induction l as [|s l IH]; intros R; [reflexivity|]. cbn [filter]. unfold at_loc at 1. cbn [fst snd]. destruct (Nat.eqb_spec (fst (s_loc s)) i) as [E|_]; [exfalso; exact (R s (or_introl eq_refl) E)|]. cbn [andb]. apply IH. intros u J. apply R. right. exact J. }
  rewrite (Z tb) by (intros s J; apply Rb, J). rewrite (Z tc Rc), app_nil_r. cbn [app]. clear -Vs. revert items Vs. induction ts as [|s ts IH]; intros items Vs; destruct items as [|it items]; try discriminate Vs; [reflexivity|].
  cbn [map] in Vs. injection Vs as V1 Vl Vw Vs. cbn [filter]. unfold at_loc at 1. rewrite Vl. cbn [fst snd]. rewrite !Nat.eqb_refl. cbn [andb]. destruct (s_what s) as [| | | | | |[?|]| |]; try discriminate Vw. cbn [map fst]. rewrite V1, (IH items Vs). reflexivity.
Qed.
Lemma used_labels pn tab n : symbols pn = Ok (tab, []) -> (forall x, In x (schemas_used n) -> exists items, schema_named pn x items) ->
  exists tables, Forall2 (schema_named pn) (schemas_used n) tables /\ map (lab (schema_list tab)) (schema_of tab n) = flat_map (fun t => map (fun i => (fst i, Some (fst t))) (snd t)) (combine (schemas_used n) tables).
Proof.
  intros Hs. unfold schema_of. change (used_schemas (n_details n)) with (schemas_used n). induction (schemas_used n) as [|x l IH]; intros H; [exists []; split; [constructor|reflexivity]|].
  destruct IH as (ts & F & E); [intros y J; apply H; right; exact J|]. destruct (H x (or_introl eq_refl)) as (items & Hi). exists (items :: ts). split; [constructor; assumption|]. cbn [flat_map combine fst snd]. rewrite map_app, E, (schema_labels pn tab x items Hs Hi). reflexivity.
Qed.
Lemma no_zero tab q i : In (q, i) (schema_list tab) -> i <> 0.
Proof. unfold schema_list. intros J. apply in_flat_map in J as (s & _ & J). destruct (s_what s); try exact (False_ind _ J). destruct J as [J|[]]. injection J as _ <-. discriminate. Qed.
Lemma schema_plain tab l : Forall plain (flat_map (schema_columns tab) l).
Proof.
  apply Forall_forall. intros c J. apply in_flat_map in J as (n & _ & J). unfold schema_columns in J. destruct (find_symbol tab n) as [s|]; [|destruct J]. apply in_map_iff in J as (y & <- & _). reflexivity.
Qed.

(** * Trees *)
Section Trees.
  Variables (pn : list pnode) (tab : table) (rp : TreeModel.read_plan) (known : list known_rel) (ff : str -> option N).
  Notation rels := (relations_of pn).
  Notation ss := (schema_list tab).
  Hypothesis Hsym : symbols pn = Ok (tab, []).
  Hypothesis names_known : map fst known = map n_name rels.
  Hypothesis named : ~ In [] (map n_name rels).
  Hypothesis sections : TreeModel.r_rels rp = map (fun n => {| TreeModel.x_name := n_name n; TreeModel.x_kind := kind_read (n_kind n); TreeModel.x_body := n_name n; TreeModel.x_exprs := [] |}) rels.
  Hypothesis Hinp : forall n, inputs_of rp n = inputs_named pn n.
  Hypothesis Hone : forall n, In n rels -> one_or_two rp n.
  Hypothesis info : forall n, In n rels -> exists x b0 gv, find_rel (n_name n) known = Some x /\ empty_body (n_kind n) = Some b0 /\ FieldModel.d_missing (snd x) = [] /\ names_given b0 n gv /\
    visitColumns ff (find_relation rp) (known_symbol tab) ss (WholeModel.is_aggregate b0) (fields_of rp known (n_name n)) gv (schema_of tab n) b0 (n_details n) = Ok (x, []).
  Hypothesis Hin : forall n i, In n rels -> In i (inputs_of rp (n_name n)) -> In i (map n_name rels).
  Hypothesis Htidy : tidy pn.
  Hypothesis Hmeasured : forall n, In n rels -> to_lower (n_kind n) = $"aggregate" -> Exists names_a_measure (n_details n).
  Definition columns_of (n : str) : list FieldModel.column := match find_rel n known with Some (_, d) => FieldModel.exposed d | None => [] end.
  Lemma fields_columns n : fields_of rp known n = flat_map columns_of (inputs_of rp n).
  Proof. reflexivity. Qed.
  Definition Right (n : str) (x : tree) : Prop := Named pn n x (map (lab ss) (columns_of n)) /\ Forall plain (columns_of n) /\ length (columns_of n) = width x.
  Lemma message_right n r ls own : right_columns n (message r) ls own <-> right_columns n r ls own.
  Proof. unfold right_columns, message. cbn [r_body]. destruct (r_body r); reflexivity. Qed.
  Lemma node_right n r d src l : In n rels -> find_rel (n_name n) known = Some (r, d) -> AllNamed pn (inputs_named pn (n_name n)) l (map (lab ss) (fields_of rp known (n_name n))) -> Forall plain (fields_of rp known (n_name n)) ->
    length (fields_of rp known (n_name n)) = widths l -> (Z.of_nat (widths l + full (Node (message r) src (message_schema tab (schemas_of (r_body r))) l)) < 2 ^ 31)%Z ->
    Right (n_name n) (Node (message r) src (message_schema tab (schemas_of (r_body r))) l).
  Proof.
    intros I Fn An Pf Lf Sz. destruct (info n I) as ([r' d'] & b0 & gv & Fn' & B & M & Gv & V). rewrite Fn in Fn'. injection Fn' as <- <-. cbn [snd] in M.
    assert (Hs0 : used_schemas (n_details n) = [] -> schema_of tab n = []) by (intros Q; unfold schema_of; rewrite Q; reflexivity).
    destruct (node_read _ _ _ _ (WholeModel.is_aggregate b0) _ (fun _ => True) (fun _ _ _ => Logic.I) gv (schema_of tab n) b0 (n_details n) (n_kind n) r d B eq_refl V M Hs0) as (_ & _ & N2 & _).
    assert (Sc : names_of (message_schema tab (schemas_of (r_body r))) = length (schema_of tab n)) by (unfold message_schema; rewrite schema_size, N2, schema_filter; reflexivity).
    assert (Fl : all_columns (fields_of rp known (n_name n)) (r_body r) (length (schema_of tab n)) = full (Node (message r) src (message_schema tab (schemas_of (r_body r))) l)).
    { rewrite <- Sc. cbn [full]. unfold message. cbn [r_body]. destruct (r_body r); cbn [all_columns]; rewrite ?Lf; reflexivity. }
    destruct Htidy as [T1 T2 T3 T4 T5].
    destruct (one_relation ff (find_relation rp) (known_symbol tab) ss (fields_of rp known (n_name n)) pn n Pf (no_zero tab) b0 gv (schema_of tab n) r d B V M Gv) as (own & R1 & R2 & R3 & R4 & R5 & R6 & R7).
    - intros Q. specialize (Hone n I). unfold one_or_two, is_kind in *. cbv zeta in Hone. rewrite Q in Hone. cbn in Hone. destruct Hone as [X1 X2]. unfold fields_of, inputs_of. rewrite X1, X2. reflexivity.
    - exact Hs0.
    - apply schema_plain.
    - apply (used_labels pn tab n Hsym). intros x J. exact (T1 n x I J).
    - intros x y. exact (T2 n x y I).
    - intros e. exact (T3 n e I).
    - intros k. exact (T4 n k I).
    - intros before k after e. exact (T5 n before k after e I).
    - exact (Hmeasured n I).
    - rewrite Fl, Lf. exact Sz.
    - unfold Right, columns_of. rewrite Fn. destruct (message_body r) as (_ & _ & M3 & _ & M5). split; [|split; [exact R5|]].
      + econstructor; [exact I|rewrite M5; exact R7|exact An|exact R1|apply message_right, R2|rewrite M3; exact R3|unfold shows in *; rewrite M3; exact R4].
      + rewrite R6. unfold reported_columns. cbn [width]. rewrite M3. fold (widths l). destruct (r_emit r) as [|z e]; [|reflexivity]. rewrite Fl. cbn [full]. reflexivity.
  Qed.
  Lemma tree_right fuel : forall n t x, TreeModel.build rp fuel n = Ok t -> fill tab known t = Ok x -> narrow x -> In n (map n_name rels) -> Right n x.
  Proof.
    induction fuel as [|fuel IH]; intros n t x B Fx Nx Jn; [discriminate B|]. cbn [TreeModel.build] in B. destruct (section_node known rp rels names_known sections n) as [[E En]|(m & I & <- & E)]; rewrite E in B.
    - exfalso. rewrite <- names_known in Jn. apply find_rel_some in Jn as (y & Q). congruence.
    - destruct (info m I) as ([r d] & b0 & gv & Fm & G1 & _). cbn [TreeModel.x_kind TreeModel.x_body TreeModel.x_exprs flat_map TreeModel.attaches obind fst map] in B.
      assert (Done : forall ins l, t = TreeModel.Rel tt (kind_read (n_kind m)) (n_name m) ins [] -> TreeModel.omap_list (fill tab known) ins = Ok l ->
        (Forall narrow l -> Forall2 (fun i y => Right i y) (inputs_of rp (n_name m)) l) -> Right (n_name m) x).
      { intros ins l -> El Hl. rewrite fill_eq, El in Fx. cbn [obind] in Fx. rewrite Fm in Fx. destruct (message_source _ _ _) as [src| |]; cbn [obind] in Fx; try discriminate Fx. injection Fx as <-.
        unfold narrow in Nx. cbn [nodes] in Nx. inversion Nx as [|? ? N1 N2]; subst. cbn [ins_of] in N1. specialize (Hl (proj1 (Forall_flat_map _ _ _) N2)).
        assert (All : AllNamed pn (inputs_of rp (n_name m)) l (map (lab ss) (fields_of rp known (n_name m))) /\ Forall plain (fields_of rp known (n_name m)) /\ length (fields_of rp known (n_name m)) = widths l).
        { rewrite fields_columns. clear -Hl. induction Hl as [|i y is ys (R1 & R2 & R3) _ (A1 & A2 & A3)]; [repeat constructor|]. cbn [flat_map widths fold_right]. rewrite map_app, app_length, R3, A3. split; [constructor; assumption|]. split; [apply Forall_app; auto|reflexivity]. }
        destruct All as (A1 & A2 & A3). apply (node_right m r d src l I Fm); [rewrite <- Hinp; exact A1|exact A2|exact A3|exact N1]. }
      assert (One : forall i, inputs_of rp (n_name m) = [i] -> (r0 <- TreeModel.build rp fuel i ;; Ok (TreeModel.Rel tt (kind_read (n_kind m)) (n_name m) [r0] [])) = Ok t -> Right (n_name m) x).
      { intros i Ei Bi. destruct (TreeModel.build rp fuel i) as [ti| |] eqn:Eb; cbn [obind] in Bi; try discriminate Bi. injection Bi as <-. pose proof Fx as Fx'. rewrite fill_eq in Fx'. cbn [TreeModel.omap_list] in Fx'.
        destruct (fill tab known ti) as [y| |] eqn:Ey; cbn [obind] in Fx'; try discriminate Fx'. apply (Done [ti] [y] eq_refl).
        - cbn [TreeModel.omap_list]. rewrite Ey. reflexivity.
        - intros Ny. rewrite Ei. constructor; [|constructor]. inversion Ny; subst. apply (IH i ti y Eb Ey); [assumption|]. apply (Hin m i I). rewrite Ei. left. reflexivity. }
      assert (Two : PipeModel.cont (TreeModel.rel_data rp (n_name m)) = None -> length (PipeModel.news (TreeModel.rel_data rp (n_name m))) = 2 ->
        match PipeModel.news (TreeModel.rel_data rp (n_name m)) with [l; r0] => x0 <- TreeModel.build rp fuel l ;; y <- TreeModel.build rp fuel r0 ;; Ok (TreeModel.Rel tt (kind_read (n_kind m)) (n_name m) [x0; y] []) | _ => Ok (TreeModel.bare rp (n_name m)) end = Ok t ->
        Right (n_name m) x).
      { intros Ec L2 Bi. destruct (PipeModel.news _) as [|i1 [|i2 [|? ?]]] eqn:Ew; try discriminate L2. assert (Ei : inputs_of rp (n_name m) = [i1; i2]) by (unfold inputs_of; rewrite Ec, Ew; reflexivity).
        destruct (TreeModel.build rp fuel i1) as [t1| |] eqn:Eb1; cbn [obind] in Bi; try discriminate Bi. destruct (TreeModel.build rp fuel i2) as [t2| |] eqn:Eb2; cbn [obind] in Bi; try discriminate Bi. injection Bi as <-.
        pose proof Fx as Fx'. rewrite fill_eq in Fx'. cbn [TreeModel.omap_list] in Fx'. destruct (fill tab known t1) as [y1| |] eqn:Ey1; cbn [obind] in Fx'; try discriminate Fx'. destruct (fill tab known t2) as [y2| |] eqn:Ey2; cbn [obind] in Fx'; try discriminate Fx'.
        apply (Done [t1; t2] [y1; y2] eq_refl).
        - cbn [TreeModel.omap_list]. rewrite Ey1. cbn [obind]. rewrite Ey2. reflexivity.
        - intros Ny. rewrite Ei. inversion Ny as [|? ? Ny1 Ny']; subst. inversion Ny' as [|? ? Ny2 _]; subst.
          constructor; [|constructor; [|constructor]]; [apply (IH i1 t1 y1 Eb1 Ey1 Ny1)|apply (IH i2 t2 y2 Eb2 Ey2 Ny2)]; apply (Hin m _ I); rewrite Ei; cbn; auto. }
      assert (Next : forall i, inputs_of rp (n_name m) = [i] -> TreeModel.getNextSinglePipeline (TreeModel.rel_data rp (n_name m)) = Some i).
      { intros i. unfold inputs_of, TreeModel.getNextSinglePipeline. destruct (PipeModel.cont _) as [c|]; cbn [some_list app]; [intros Q; injection Q as -> _; reflexivity|]. intros ->. reflexivity. }
      pose proof (Hone m I) as X. unfold one_or_two in X. cbv zeta in X. destruct (kinds _ _ G1) as [[K1 K2]|[[[K1 K2]|[K1 K2]]|[K1|[K1 K2]]]].
      + rewrite K1 in X. cbn in X. destruct X as [X1 X2]. rewrite K2 in B. unfold TreeModel.bare in B. rewrite E in B. cbn [map TreeModel.x_exprs TreeModel.x_kind TreeModel.x_body] in B. injection B as <-. apply (Done [] [] eq_refl eq_refl).
        intros _. unfold inputs_of. rewrite X1, X2. constructor.
      + rewrite K1 in X. cbn in X. destruct X as [X1 X2]. apply (Two X1 X2). rewrite K2 in *. exact B.
      + rewrite K1 in X. cbn in X. destruct X as [X1 X2]. apply (Two X1 X2). rewrite K2 in *. exact B.
      + rewrite K1 in X. cbn in X. destruct X as [_ X]. exfalso. apply X. reflexivity.
      + assert (X' : exists i, inputs_of rp (n_name m) = [i]) by (cbn [In] in K1; repeat destruct K1 as [K1|K1]; [rewrite <- K1 in X; cbn in X; apply X..|destruct K1]). destruct X' as (i & Ei). apply (One i Ei). rewrite (Next i Ei) in B.
        cbn [In] in K2. repeat destruct K2 as [K2|K2]; [rewrite <- K2 in *; exact B..|destruct K2].
  Qed.
  Lemma tree_known fuel n t x : TreeModel.build rp fuel n = Ok t -> fill tab known t = Ok x -> In n (map n_name rels) \/ x = Node (Relation (BOther $"unknown") []) None None [].
  Proof.
    destruct fuel as [|fuel]; [discriminate|]. cbn [TreeModel.build]. destruct (section_node known rp rels names_known sections n) as [[E En]|(m & I & <- & E)]; [|intros _ _; left; apply in_map, I]. rewrite E. intros B Fx. right.
    unfold TreeModel.bare in B. rewrite E in B. injection B as <-. rewrite fill_eq in Fx. cbn [TreeModel.omap_list obind] in Fx. assert (Z : find_rel [] known = None).
    { destruct (find_rel [] known) as [y|] eqn:Fn; [|reflexivity]. exfalso. apply named. rewrite <- names_known. apply find_rel_some. eauto. }
    rewrite Z in Fx. injection Fx as <-. reflexivity.
  Qed.
End Trees.
Theorem names_resolved s b pn : from_text s = Ok (Some b, []) -> parse s = Some pn -> orderly pn -> tidy pn -> forall t names, In (t, names) (b_rels b) -> narrow t ->
  t = Node (Relation (BOther $"unknown") []) None None [] \/ exists n labels, Named pn n t labels /\ length labels = width t.
Proof.
  intros H Hp O T t names It Nt. destruct (text_read s b pn H Hp O) as (tab & rp & known & ff & Es & Kn & Secs & Inp & Ins & Info & Trees). destruct (Trees t names It) as (fuel & n & u & B & Fx). pose proof O as [O1 O2 O3 O4 O5].
  destruct (tree_known pn tab rp known Kn O4 Secs fuel n u t B Fx) as [J|J]; [right|left; exact J].
  assert (Hin : forall n i, In n (relations_of pn) -> In i (inputs_of rp (n_name n)) -> In i (map n_name (relations_of pn))).
  { intros m i I Ii. apply in_split in I as (before & after & E). assert (X : In i (map n_name before)); [|rewrite E, map_app; apply in_or_app; left; exact X]. apply (O1 before m after i E). rewrite Inp in Ii. apply in_app_or in Ii as [Ii|Ii]; [right|left; exact Ii].
    destruct (PipeFacts.into false (n_name m) (arrows pn)) as [|y q]; cbn in Ii; [destruct Ii|]. left. destruct Ii as [Ii|[]]. exact Ii. }
  destruct (tree_right pn tab rp known ff Es Kn Secs Inp Ins Info Hin T O5 fuel n u t B Fx Nt J) as (R1 & _ & R3). exists n. eexists. split; [exact R1|]. rewrite map_length. exact R3.
Qed.
