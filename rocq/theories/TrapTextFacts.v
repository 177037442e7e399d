(** Which texts lead to undefined behaviour when they are read: those that are left once the parser has accepted the text. *)
From Verif Require Import Base BaseFacts StringsModel TypeModel LexModel EscapeModel TimeModel ExprModel RelModel SectionModel WholeModel SoundFacts.
From Verif Require TrapFacts TrapPlanFacts WrittenTypeFacts TypeWordFacts FieldModel DeclModel TreeModel DefineFacts SymbolModel.
From Coq Require Import Lia.

(** * What is meant *)
(** A constant, with its own type ([None]) or one that is given *)
Definition braces (c : cnode) : bool := match c with CStruct _ _ => true | _ => false end.
Inductive Trap : bool -> cnode -> option ptype -> Prop :=
| T_own i c w t e : type_of c = Some w -> textToTypeProto (i || braces c) w = Ok (t, e) -> Trap i c (Some t) -> Trap i c None
(* a timestamp that is too far away for nanoseconds in 64 bits *)
| T_time i q ty n s e z : evalString q = Some (s, e) -> parse_timestamp s = PValue z -> (z * 1000000000 < - 2 ^ 63 \/ 2 ^ 63 <= z * 1000000000)%Z -> Trap i (CString q ty) (Some (PtScalar STimestamp n))
(* an interval with too few parts *)
| T_pairs i l ty k n : k = SIntervalYear \/ k = SIntervalDay -> Trap i (CMap l ty) (Some (PtScalar k n))
| T_year i l ty n : length l < 2 -> Trap i (CStruct l ty) (Some (PtScalar SIntervalYear n))
| T_day i l ty n : length l < 3 -> Trap i (CStruct l ty) (Some (PtScalar SIntervalDay n))
(* something of these inside *)
| T_member i l ty ts n j c t : nth_error l j = Some c -> nth_error ts j = Some t -> Trap true c (Some t) -> Trap i (CStruct l ty) (Some (PtStruct ts n))
| T_element i l ty e n c : In c l -> Trap true c (Some e) -> Trap i (CStruct l ty) (Some (PtList e n))
| T_listed i l ty e n a b : In (a, b) l -> Trap i a None \/ Trap i b None -> Trap i (CMap l ty) (Some (PtList e n))
| T_entry i l ty k v n a b : In (a, b) l -> Trap i a (Some k) \/ Trap i b (Some v) -> Trap i (CMap l ty) (Some (PtMap k v n)).
(** The constants of an expression and the expressions of a detail *)
Fixpoint constants (e : enode) : list cnode :=
  match e with
  | NConst c => [c] | NFun _ args _ => flat_map (fun a => let '(_, x) := a in constants x) args | NCast e _ => constants e | NIn l _ => flat_map constants l | NCompare e _ _ _ => constants e
  | NCol _ | NScalar _ | NSet _ _ => []
  end.
Definition mdetail_exprs (d : mdetail) : list enode := match d with MMeasure e _ _ | MFilter e | MSort e _ => [e] | MInvocation _ => [] end.
Definition detail_exprs (d : RelModel.detail) : list enode :=
  match d with OnFilter _ e | OnExpression e _ | OnGrouping e | OnSort e _ => [e] | OnMeasure l => flat_map mdetail_exprs l | _ => [] end.
(** A measure that is no call, without a phase and a name *)
Definition a_call (e : enode) : Prop := exists n args ty, e = NFun n args ty /\ to_lower n <> $"ifthen".
Definition measure_trap (d : mdetail) : Prop := match d with MMeasure e _ ids => ids = [] /\ ~ a_call e | _ => False end.
(** A column that is grouped by though a column before it has its name: one that is grouped by, or a measure *)
Definition names_column (d : RelModel.detail) (x : str) : Prop :=
  match d with OnGrouping (NCol y) => y = x \/ exists q, y = q ++ $"." ++ x | OnMeasure l => In x (measure_given l) | _ => False end.
Definition grouped_again (ds : list RelModel.detail) : Prop := exists before x after, ds = before ++ OnGrouping (NCol x) :: after /\ exists d, In d before /\ names_column d x.
Definition relation_trap (n : rnode) : Prop :=
  (exists d e c, In d (n_details n) /\ In e (detail_exprs d) /\ In c (constants e) /\ Trap false c None) \/
  (exists l m, In (OnMeasure l) (n_details n) /\ In m l /\ measure_trap m) \/ grouped_again (n_details n).
(** The names that schemas, sources and extension spaces define *)
Definition defined (nodes : list pnode) : list str := map (fun d => fst (fst d)) (DefineFacts.defines_all 0 nodes).
(** A relation whose inputs have too many columns for 32 bits when it is visited, by either pass *)
Definition too_wide (nodes : list pnode) : Prop := exists tab e1 rp e2 earlier before n after known e3,
  symbols nodes = Ok (tab, e1) /\ TreeModel.readText (text_of nodes tab) = Ok (rp, e2) /\
  let visit := fun earlier => visit_nodes (DeclModel.resolve_function (entries 0 0 nodes)) tab rp earlier SymbolModel.empty_table [] in
  (earlier = [] \/ exists e, visit [] (relations_of nodes) = Ok (earlier, e)) /\
  relations_of nodes = before ++ n :: after /\ visit earlier before = Ok (known, e3) /\ (2 ^ 31 <= Z.of_nat (length (fields_of rp (known ++ earlier) (n_name n))))%Z.
Definition plan_trap (nodes : list pnode) : Prop :=
  (* a pipeline that goes through something that is no relation *)
  (exists x, In x (concat (arrows nodes)) /\ In x (defined nodes)) \/
  (* a relation *)
  (exists n, In n (relations_of nodes) /\ relation_trap n) \/ too_wide nodes.

(** * Constants *)
Lemma no_type_trap i w : WrittenTypeFacts.written w -> ~ TrapFacts.TypeTrap i w.
Proof. exact (WrittenTypeFacts.written_read i w). Qed.
Lemma types_own c w : type_of c = Some w -> In w (TypeWordFacts.constant_types c).
Proof. destruct c; cbn; intros ->; try (left; reflexivity); apply in_or_app; right; left; reflexivity. Qed.
Lemma of_any i c o : TrapFacts.Trap i c o -> TypeWordFacts.all_written (TypeWordFacts.constant_types c) -> Trap i c o.
Proof.
  assert (P : forall (l : list (cnode * cnode)) ty a b, In (a, b) l -> TypeWordFacts.all_written (TypeWordFacts.constant_types (CMap l ty)) -> TypeWordFacts.all_written (TypeWordFacts.constant_types a) /\ TypeWordFacts.all_written (TypeWordFacts.constant_types b)).
  { intros l ty a b I W. unfold TypeWordFacts.all_written in *. cbn [TypeWordFacts.constant_types] in W. apply Forall_app in W as [W _]. rewrite Forall_flat_map, Forall_forall in W. specialize (W _ I). cbv beta iota in W. apply Forall_app in W. exact W. }
  assert (M : forall (l : list cnode) ty a, In a l -> TypeWordFacts.all_written (TypeWordFacts.constant_types (CStruct l ty)) -> TypeWordFacts.all_written (TypeWordFacts.constant_types a)).
  { intros l ty a I W. unfold TypeWordFacts.all_written in *. cbn [TypeWordFacts.constant_types] in W. apply Forall_app in W as [W _]. rewrite Forall_flat_map, Forall_forall in W. exact (W _ I). }
  assert (O : forall c, (forall i t, TrapFacts.Trap i c (Some t) -> TypeWordFacts.all_written (TypeWordFacts.constant_types c) -> Trap i c (Some t)) ->
    forall i o, TrapFacts.Trap i c o -> TypeWordFacts.all_written (TypeWordFacts.constant_types c) -> Trap i c o).
  { intros c' H i' [t|] T W; [exact (H _ _ T W)|]. inversion T as [? ? w Ty TT|? ? w t e Ty E T'| | | | | | | |]; subst; [|exact (T_own _ _ _ _ _ Ty E (H _ _ T' W))].
    destruct (no_type_trap _ _ (proj1 (Forall_forall _ _) W _ (types_own _ _ Ty)) TT). }
  revert i o. induction c as [s ty|s ty|ty|ty|ty|l ty IH|l ty IH] using WrittenFacts.cnode_ind2; apply O; intros i t T W; inversion T; subst;
    try (econstructor; eauto; fail); rewrite Forall_forall in IH.
  - match goal with I : In (?a, ?b) l |- _ => destruct (IH _ I) as [Ia Ib]; destruct (P _ _ _ _ I W) as [Wa Wb]; cbn [fst snd] in *; apply (T_listed _ _ _ _ _ a b I) end. match goal with D : _ \/ _ |- _ => destruct D end; auto.
  - match goal with I : In (?a, ?b) l |- _ => destruct (IH _ I) as [Ia Ib]; destruct (P _ _ _ _ I W) as [Wa Wb]; cbn [fst snd] in *; apply (T_entry _ _ _ _ _ _ a b I) end. match goal with D : _ \/ _ |- _ => destruct D end; auto.
  - match goal with Hl : nth_error l _ = _, Ht : nth_error _ _ = Some _, T' : _ true _ (Some ?y) |- _ => match type of Ht with _ = Some y => apply (T_member _ _ _ _ _ _ _ _ Hl Ht); apply IH; [exact (nth_error_In _ _ Hl)|exact T'|exact (M _ _ _ (nth_error_In _ _ Hl) W)] end end.
  - apply (T_element _ _ _ _ _ c); [assumption|]. apply IH; eauto.
Qed.
Lemma to_any i c o : Trap i c o -> TrapFacts.Trap i c o.
Proof.
  assert (O : forall c, (forall i t, Trap i c (Some t) -> TrapFacts.Trap i c (Some t)) -> forall i o, Trap i c o -> TrapFacts.Trap i c o).
  { intros c' H i' [t|] T; [exact (H _ _ T)|]. inversion T as [? ? w t e Ty E T'| | | | | | | |]; subst. exact (TrapFacts.T_own _ _ _ _ _ Ty E (H _ _ T')). }
  revert i o. induction c as [s ty|s ty|ty|ty|ty|l ty IH|l ty IH] using WrittenFacts.cnode_ind2; apply O; intros i t T; inversion T; subst;
    try (econstructor; eauto; fail); rewrite Forall_forall in IH.
  - match goal with I : In (?a, ?b) l |- _ => destruct (IH _ I) as [Ia Ib]; cbn [fst snd] in *; apply (TrapFacts.T_listed _ _ _ _ _ a b I) end. match goal with D : _ \/ _ |- _ => destruct D end; auto.
  - match goal with I : In (?a, ?b) l |- _ => destruct (IH _ I) as [Ia Ib]; cbn [fst snd] in *; apply (TrapFacts.T_entry _ _ _ _ _ _ a b I) end. match goal with D : _ \/ _ |- _ => destruct D end; auto.
  - match goal with Hl : nth_error l _ = _, Ht : nth_error _ _ = Some _, T' : _ true _ (Some ?y) |- _ => match type of Ht with _ = Some y => apply (TrapFacts.T_member _ _ _ _ _ _ _ _ Hl Ht); apply IH; [exact (nth_error_In _ _ Hl)|exact T'] end end.
  - apply (TrapFacts.T_element _ _ _ _ _ c); [assumption|]. apply IH; eauto.
Qed.

(** * Expressions *)
Lemma constants_same e : TrapFacts.constants e = constants e.
Proof. reflexivity. Qed.
Lemma of_expr e : TrapFacts.expr_trap e -> TypeWordFacts.clean e -> exists c, In c (constants e) /\ Trap false c None.
Proof.
  assert (A : forall e c, In c (TrapFacts.constants e) -> forall w, In w (TypeWordFacts.constant_types c) -> In w (TypeWordFacts.expr_types e)).
  { clear e. induction e as [n args ty IH|c0|t|e ty IH|n|l n IH|b n|e op b n IH] using FirstFacts.enode_ind2; cbn [TrapFacts.constants TypeWordFacts.expr_types]; intros c I w Hw; try (destruct I; fail).
    - rewrite Forall_forall in IH. apply in_or_app. left. apply in_flat_map in I as ([s x] & Ix & I). apply in_flat_map. exists (s, x). split; [exact Ix|]. exact (IH _ Ix c I w Hw).
    - destruct I as [<-|[]]. exact Hw.
    - apply in_or_app. left. exact (IH _ I _ Hw).
    - rewrite Forall_forall in IH. apply in_flat_map in I as (x & Ix & I). apply in_flat_map. exists x. split; [exact Ix|]. exact (IH _ Ix c I w Hw).
    - exact (IH _ I _ Hw). }
  assert (B : forall e w, In w (TrapFacts.type_texts e) -> In w (TypeWordFacts.expr_types e)).
  { clear e. induction e as [n args ty IH|c0|t|e ty IH|n|l n IH|b n|e op b n IH] using FirstFacts.enode_ind2; cbn [TrapFacts.type_texts TypeWordFacts.expr_types]; intros w I; try (destruct I; fail).
    - rewrite Forall_forall in IH. apply in_app_or in I as [I|I]; apply in_or_app; [left|right; exact I]. apply in_flat_map in I as ([s x] & Ix & I). apply in_flat_map. exists (s, x). split; [exact Ix|]. exact (IH _ Ix w I).
    - apply in_app_or in I as [I|I]; apply in_or_app; [left; exact (IH _ I)|right; exact I].
    - rewrite Forall_forall in IH. apply in_flat_map in I as (x & Ix & I). apply in_flat_map. exists x. split; [exact Ix|]. exact (IH _ Ix w I).
    - exact (IH _ I). }
  intros H W. unfold TypeWordFacts.clean, TypeWordFacts.all_written in W. rewrite Forall_forall in W. destruct H as [(c & I & T)|(w & I & T)].
  - exists c. split; [exact I|]. apply (of_any _ _ _ T), Forall_forall. intros w Hw. exact (W _ (A _ _ I _ Hw)).
  - destruct (no_type_trap _ _ (W _ (B _ _ I)) T).
Qed.

(** * Texts *)
Lemma of_relation n : TypeWordFacts.node_clean (PRelation n) -> TrapPlanFacts.relation_trap n -> relation_trap n.
Proof.
  cbn [TypeWordFacts.node_clean]. intros W [(d & Id & [(e & Ie & T)|(l & m & -> & Im & T)])|G]; [| |right; right; exact G]; rewrite Forall_forall in W; destruct (W _ Id) as [W1 W2].
  - rewrite Forall_forall in W1. destruct (of_expr e T (W1 _ Ie)) as (c & Ic & Tc). left. exists d, e, c. auto.
  - right. left. exists l, m. repeat (split; [assumption|]). destruct m as [e ty ids| | |]; [|destruct T..]. destruct T as [(w & -> & T)|T]; [|exact T].
    unfold TypeWordFacts.all_written in W2. rewrite Forall_forall in W2. destruct (no_type_trap false w); [|exact T]. apply W2, in_flat_map. exists (MMeasure e (Some w) ids). split; [exact Im|left; reflexivity].
Qed.
Theorem defined_unless_trap s : from_text s = UB -> exists nodes, parse s = Some nodes /\ plan_trap nodes.
Proof.
  intros H. destruct (TrapPlanFacts.defined_unless_trap s H) as (nodes & E & T). exists nodes. split; [exact E|]. pose proof (TypeWordFacts.parsed_types s nodes E) as W. rewrite Forall_forall in W.
  destruct T as [(n & items & c & w & In1 & In2 & T)|[T|[(n & In1 & T)|T]]].
  - pose proof (W _ In1) as W1. cbn in W1. rewrite Forall_forall in W1. destruct (no_type_trap false w (W1 _ In2) T).
  - left. exact T.
  - right. left. exists n. split; [exact In1|]. apply of_relation; [|exact T]. apply W. unfold relations_of in In1. apply in_flat_map in In1 as (p & Ip & I). destruct p; try destruct I as [<-|[]]; try destruct I. exact Ip.
  - right. right. exact T.
Qed.
Theorem constants_trap c : Forall WrittenTypeFacts.written (TypeWordFacts.constant_types c) -> visitConstant c = UB <-> Trap false c None.
Proof. intros W. rewrite (TrapFacts.constant_trap c). split; [intros T; exact (of_any _ _ _ T W)|apply to_any]. Qed.
Theorem types_read s nodes n items c w : parse s = Some nodes -> In (PSchema n items) nodes -> In (c, w) items -> forall inside, textToTypeProto inside w <> UB.
Proof.
  intros E I1 I2 inside. pose proof (TypeWordFacts.parsed_types s nodes E) as W. rewrite Forall_forall in W. specialize (W _ I1). cbn in W. rewrite Forall_forall in W. exact (WrittenTypeFacts.written_read inside w (W _ I2)).
Qed.
