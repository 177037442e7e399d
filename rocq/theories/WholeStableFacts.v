(** Texts of plans that were converted before: they stay as they are. *)
From Verif Require Import Base BaseFacts StringsModel TypeModel LexModel NameModel NameFacts ExprModel LiteralFacts ExprFacts RelModel RelFacts SectionModel SectionFacts WholeModel WholeFacts WholeNameFacts WholeReadFacts WholeTripFacts WholeAgainFacts.
From Verif Require SymbolModel SymbolFacts SymbolMoreFacts FieldModel DeclModel DeclFacts DeclAgainFacts PrintFacts TreeModel.
From Coq Require Import Lia ZifyBool ZifyNat ZifyN Permutation.

(** * Names *)
Definition Agree (t t' : names) : Prop := forall b, In b made_up -> SymbolModel.lookup b (SymbolModel.t_names t) = SymbolModel.lookup b (SymbolModel.t_names t').
Lemma agree_unique t t' b : Agree t t' -> In b made_up -> snd (unique t' b) = snd (unique t b) /\ Agree (fst (unique t b)) (fst (unique t' b)).
Proof.
  intros A I. pose proof (A b I) as E. unfold unique, SymbolModel.getUniqueName. rewrite <- E. destruct (SymbolModel.lookup b (SymbolModel.t_names t)) as [c|]; cbn [fst snd SymbolModel.t_names]; (split; [reflexivity|]); intros x Ix; cbn [SymbolModel.t_names].
  - rewrite !SymbolFacts.lookup_assign. specialize (A x Ix). destruct (b =s x); rewrite ?A; reflexivity.
  - rewrite !SymbolFacts.lookup_insert. rewrite <- (A x Ix). reflexivity.
Qed.
Lemma agree_uniques b n : In b made_up -> forall t t', Agree t t' -> snd (uniques t' b n) = snd (uniques t b n) /\ Agree (fst (uniques t b n)) (fst (uniques t' b n)).
Proof.
  intros I. induction n as [|n IH]; intros t t' A; [auto|]. cbn [uniques]. destruct (agree_unique t t' b A I) as (E & A1). destruct (unique t b) as [t1 u]. destruct (unique t' b) as [t1' u']. cbn [fst snd] in *. subst u'.
  destruct (IH _ _ A1) as (E2 & A2). destruct (uniques t1 b n) as [t2 l]. destruct (uniques t1' b n) as [t2' l']. cbn [fst snd] in *. subst l'. auto.
Qed.
(** * Columns *)
(** Two numbers of one column *)
Definition At (A : list FieldModel.column) (z : Z) (c : FieldModel.column) : Prop :=
  FieldModel.at_index A z = Some c /\ (z mod 2 ^ 64 <? FieldModel.size A)%Z = true /\ nth_error A (Z.to_nat (z mod 2 ^ 32)) = Some c.
Definition SameAt (A : list FieldModel.column) (z z' : Z) : Prop := exists c, At A z c /\ At A z' c.
Lemma same_at L F C z z' : Forall2 (Rep L) F C -> (Z.of_nat (length F) < 2 ^ 31)%Z -> same_column F z z' -> SameAt C z z'.
Proof.
  intros H Hl (N0 & E). destruct (pick F z) as [i|] eqn:Ez; [|congruence]. destruct (rep_pick L F C z i H Ez Hl) as (c & R & D & Rc & A & B & M). destruct (rep_pick L F C z' i H E Hl) as (c' & R' & D' & Rc' & A' & B' & M').
  assert (c' = c) by (destruct Rc as (X & _), Rc' as (X' & _); congruence). subst c'. exists c. unfold At. rewrite M, M'. auto 10.
Qed.
Lemma lookup_same A g z z' : SameAt A z z' -> exists n, FieldModel.lookupFieldReference A g z = Some n /\ FieldModel.lookupFieldReference A g z' = Some n.
Proof.
  intros (c & (_ & _ & N1) & (_ & _ & N2)). exists (FieldModel.column_text c). unfold FieldModel.lookupFieldReference. rewrite !nth_error_app1 by (apply nth_error_Some; congruence). rewrite N1, N2. auto.
Qed.
Lemma emit_same (ag : bool) C g z z' : SameAt (if ag then g else C ++ g) z z' -> exists n, FieldModel.lookupFieldReferenceForEmit ag C g z = Some n /\ FieldModel.lookupFieldReferenceForEmit ag C g z' = Some n.
Proof. intros (c & (_ & _ & N1) & (_ & _ & N2)). exists (FieldModel.column_text c). unfold FieldModel.lookupFieldReferenceForEmit. destruct ag; rewrite N1, N2; auto. Qed.
Lemma map_columns_same A l l' : Forall2 (SameAt A) l l' -> forall out, FieldModel.map_columns A l out = FieldModel.map_columns A l' out.
Proof. induction 1 as [|z z' l l' (c & (A1 & B1 & _) & (A2 & B2 & _)) _ IH]; intros out; [reflexivity|]. cbn [FieldModel.map_columns]. rewrite A1, A2, B1, B2. apply IH. Qed.
Lemma convert_emit_same (ag : bool) C g o l l' : Forall2 (SameAt (if ag then g else C ++ g)) l l' -> FieldModel.convert_emit ag C g o (Some l) = FieldModel.convert_emit ag C g o (Some l').
Proof.
  intros H. unfold FieldModel.convert_emit. destruct H as [|z z' l l' Hz H]; [reflexivity|]. assert (X : Forall2 (SameAt (if ag then g else C ++ g)) (z :: l) (z' :: l')) by (constructor; assumption).
  destruct ag; rewrite (map_columns_same _ _ _ X); reflexivity.
Qed.
(** * Printing *)
Section Printing.
  Variables (R : N -> N -> Prop) (C : Z -> Z -> Prop) (fn fn' : N -> option str) (fld : N -> Z -> option str).
  Hypothesis HR : forall f f', R f f' -> exists n, fn f = Some n /\ fn' f' = Some n.
  Hypothesis HC : forall z z', C z z' -> exists n, fld 0%N z = Some n /\ fld 0%N z' = Some n.
  Lemma function_same f f' : R f f' -> lookupFunctionReference fn' f' = lookupFunctionReference fn f.
  Proof. intros H. destruct (HR _ _ H) as (n & A & B). unfold lookupFunctionReference. rewrite A, B. reflexivity. Qed.
  Lemma print_same e : forall e' d, SameE R C e e' -> printExpr fn' fld d e' = printExpr fn fld d e.
  Proof.
    induction e as [|l|s r|r|r|f args deprecated options ty Ha Hd|ifs els Hi He|e ty f IH|n|l n Hl|q n|op red e n He|u] using PrintFacts.expr_ind2; intros e' d S; inversion S as [l0|z z' Hz|f0 f' args0 args' ty0 Hf Hargs|ifs0 ifs' els0 els' Hifs Hels|e0 e0' ty0 He0]; subst.
    - reflexivity.
    - cbn [printExpr steps_of field_of]. unfold lookupFieldReference. destruct (HC _ _ Hz) as (n & A & B). rewrite A, B. reflexivity.
    - cbn [printExpr map]. rewrite (function_same _ _ Hf). 
      assert (E : map (fun a => match a with AValue e => printExpr fn' fld (Datatypes.S d) e | AEnum s => Ok (s ++ $"_enum", 0) | AType t => Ok (printType t) | AUnset => Ok ($"SCALAR_FUNCTION_ARGUMENT_TYPE_MISSING", 1) end) args' =
        map (fun a => match a with AValue e => printExpr fn fld (Datatypes.S d) e | AEnum s => Ok (s ++ $"_enum", 0) | AType t => Ok (printType t) | AUnset => Ok ($"SCALAR_FUNCTION_ARGUMENT_TYPE_MISSING", 1) end) args).
      { clear -Ha Hargs. revert Ha. induction Hargs as [|a a' l l' Sa _ IHl]; intros Ha; [reflexivity|]. inversion Ha as [|? ? Ha1 Ha2]; subst. cbn [map]. rewrite (IHl Ha2). f_equal. inversion Sa; subst; [|reflexivity]. apply Ha1. assumption. }
      rewrite E. f_equal. destruct Hargs; reflexivity.
    - cbn [printExpr].
      assert (E : map (fun c => match c with (Some i, Some t) => Some [printExpr fn' fld d i; printExpr fn' fld d t] | _ => None end) ifs' = map (fun c => match c with (Some i, Some t) => Some [printExpr fn fld d i; printExpr fn fld d t] | _ => None end) ifs).
      { clear -Hi Hifs. revert Hi. induction Hifs as [|c c' l l' Sc _ IHl]; intros Hi; [reflexivity|]. inversion Hi as [|? ? Hi1 Hi2]; subst. cbn [map]. rewrite (IHl Hi2). f_equal. inversion Sc; subst. destruct Hi1 as (H1 & H2). erewrite H1, H2; [reflexivity|reflexivity|assumption|reflexivity|assumption]. }
      rewrite E. replace (match els' with Some e => [printExpr fn' fld d e] | None => [] end) with (match els with Some e => [printExpr fn fld d e] | None => [] end); [reflexivity|].
      inversion Hels; subst; [reflexivity|]. erewrite He; [reflexivity|reflexivity|assumption].
    - cbn [printExpr]. rewrite (IH e0' d) by assumption. reflexivity.
  Qed.
  Variables (en en' : Z -> option str) (mn : nat -> option str) (alt al : nat -> option str).
  Notation PB := (printBody fn fld en mn alt al).
  Notation PB' := (printBody fn' fld en' mn alt al).
  Lemma print_option key o o' : SameO R C o o' -> optional (fun e => line key (printE fn' fld e)) o' = optional (fun e => line key (printE fn fld e)) o.
  Proof. intros S. inversion S; subst; [reflexivity|]. cbn [optional]. unfold printE. rewrite (print_same e e' 0) by assumption. reflexivity. Qed.
  Lemma print_inner key o o' : SameO R C o o' -> optional (fun e => inner_line key (printE fn' fld e)) o' = optional (fun e => inner_line key (printE fn fld e)) o.
  Proof. intros S. inversion S; subst; [reflexivity|]. cbn [optional]. unfold printE. rewrite (print_same e e' 0) by assumption. reflexivity. Qed.
  Lemma print_args l l' : Forall2 (SameArg R C) l l' -> map (fun a => match a with AValue e => printExpr fn' fld 1 e | AEnum s => Ok (s ++ $"_enum", 0) | AType t => Ok (printType t) | AUnset => text $"UNKNOWN_AGGREGATE_FUNCTION_ARGUMENT_TYPE" end) l' =
    map (fun a => match a with AValue e => printExpr fn fld 1 e | AEnum s => Ok (s ++ $"_enum", 0) | AType t => Ok (printType t) | AUnset => text $"UNKNOWN_AGGREGATE_FUNCTION_ARGUMENT_TYPE" end) l.
  Proof. induction 1 as [|a a' l l' Sa _ IH]; [reflexivity|]. cbn [map]. rewrite IH. f_equal. inversion Sa; subst; [|reflexivity]. apply print_same. assumption. Qed.
  Lemma print_measure i m m' : SameMeasure R C m m' -> printMeasure fn' fld mn i m' = printMeasure fn fld mn i m.
  Proof.
    intros S. inversion S; subst. unfold printMeasure. cbn [m_function m_filter]. unfold printAggregateFunction. cbn [af_ref af_args af_deprecated af_options af_type af_phase af_invocation].
    rewrite (print_inner _ _ _ H1), (print_args _ _ H0), (function_same _ _ H). reflexivity.
  Qed.
  Lemma print_measures l l' : Forall2 (SameMeasure R C) l l' -> forall i, printMeasures fn' fld mn i l' = printMeasures fn fld mn i l.
  Proof. induction 1 as [|m m' l l' Sm _ IH]; intros i; [reflexivity|]. cbn [printMeasures]. rewrite (print_measure i _ _ Sm), IH. reflexivity. Qed.
  Lemma print_sorts l l' : Forall2 (SameSort R C) l l' -> forall b, printSorts fn' fld b l' = printSorts fn fld b l.
  Proof.
    induction 1 as [|m m' l l' Sm _ IH]; intros b; [reflexivity|]. inversion Sm; subst. cbn [printSorts]. unfold printE. rewrite (print_same _ _ 0 H). destruct (printExpr fn fld 0 e) as [x| |]; [|reflexivity..]. cbn [obind]. rewrite IH. reflexivity.
  Qed.
  Lemma print_expressions l l' : Forall2 (SameE R C) l l' -> forall i, printExpressions fn' fld alt al i l' = printExpressions fn fld alt al i l.
  Proof. induction 1 as [|m m' l l' Sm _ IH]; intros i; [reflexivity|]. cbn [printExpressions]. unfold printE. rewrite (print_same _ _ 0 Sm), IH. reflexivity. Qed.
  Lemma print_groupings l l' : Forall2 (SameE R C) l l' -> map (fun e => line $"grouping" (printE fn' fld e)) l' = map (fun e => line $"grouping" (printE fn fld e)) l.
  Proof. induction 1 as [|m m' l l' Sm _ IH]; [reflexivity|]. cbn [map]. unfold printE at 1 3. rewrite (print_same _ _ 0 Sm), IH. reflexivity. Qed.
  Lemma print_emits l l' : Forall2 (fun z z' => exists n, en z = Some n /\ en' z' = Some n) l l' -> printEmit en' l' = printEmit en l.
  Proof.
    intros H. assert (E : map (fun z => line $"emit" (Ok (lookupEmit en' z))) l' = map (fun z => line $"emit" (Ok (lookupEmit en z))) l) by (induction H as [|z z' l l' (n & A & B) _ IH]; [reflexivity|]; cbn [map]; rewrite IH; unfold lookupEmit at 1 3; rewrite A, B; reflexivity).
    unfold printEmit. destruct H; [reflexivity|]. rewrite E. reflexivity.
  Qed.
  (** The whole relation, with the names of source and schema *)
  Lemma print_relation name b b' emit emit' sn cn : SameBody R C b b' -> Forall2 (fun z z' => exists n, en z = Some n /\ en' z' = Some n) emit emit' ->
    printRelation fn' fld en' mn alt al name (Relation (with_names b' sn cn) emit') = printRelation fn fld en mn alt al name (Relation (with_names b sn cn) emit).
  Proof.
    intros S He. pose proof (print_emits _ _ He) as Ee. inversion S as [f f' Sf E1 E2|c c' Sc E1 E2|o c E1 E2|gs gs' ms ms' Sg Sm E1 E2|l l' Sl E1 E2|l l' Sl E1 E2|t e e' Sx E1 E2|E1 E2]; subst; unfold printRelation; cbn [with_names r_body kind_name sources_of schemas_of]; unfold printBody; cbn [r_body r_emit].
    - destruct sn as [|s sn]; [reflexivity|]. rewrite (print_option _ _ _ Sf). reflexivity.
    - rewrite (print_option _ _ _ Sc). reflexivity.
    - reflexivity.
    - cbn [concat]. rewrite !app_nil_r, (print_groupings _ _ Sg), (print_measures _ _ Sm), Ee. reflexivity.
    - rewrite (print_sorts _ _ Sl). reflexivity.
    - rewrite (print_expressions _ _ Sl), Ee. reflexivity.
    - rewrite (print_option _ _ _ Sx). reflexivity.
    - reflexivity.
  Qed.
End Printing.
(** * What is recorded *)
Definition gsame (C : list FieldModel.column) (g g' : FieldModel.gexpr) : Prop :=
  match g, g' with FieldModel.GColumn z, FieldModel.GColumn z' => SameAt C z z' | FieldModel.GOther c, FieldModel.GOther c' => c' = c | _, _ => False end.
Lemma convert_exprs_same C l l' : Forall2 (gsame C) l l' -> FieldModel.convert_exprs C l' = FieldModel.convert_exprs C l.
Proof.
  induction 1 as [|g g' l l' Hg _ IH]; [reflexivity|]. destruct g as [z|c], g' as [z'|c']; cbn in Hg; try contradiction; cbn [FieldModel.convert_exprs]; rewrite IH; [|subst; reflexivity]. destruct Hg as (c & (A & B & _) & (A' & B' & _)). rewrite A, A', B, B'. reflexivity.
Qed.
Lemma convert_groupings_same C l l' : Forall2 (gsame C) l l' -> FieldModel.convert_groupings C l' = FieldModel.convert_groupings C l.
Proof.
  induction 1 as [|g g' l l' Hg _ IH]; [reflexivity|]. destruct g as [z|c], g' as [z'|c']; cbn in Hg; try contradiction; cbn [FieldModel.convert_groupings]; rewrite IH; [|subst; reflexivity]. destruct Hg as (c & (A & B & _) & (A' & B' & _)). rewrite A, A', B, B'. reflexivity.
Qed.
Lemma alternatives_same C l l' : Forall2 (gsame C) l l' -> forall g seen, alternatives C l' g seen = alternatives C l g seen.
Proof.
  induction 1 as [|g g' l l' Hg _ IH]; intros gs seen; [reflexivity|]. destruct g as [z|c], g' as [z'|c']; cbn in Hg; try contradiction; cbn [alternatives]; [|subst; apply IH]. destruct Hg as (c & (A & _) & (A' & _)). rewrite A, A', !IH.
  destruct (FieldModel.nonempty (FieldModel.c_alias c)); [reflexivity|]. destruct (seen_at (FieldModel.c_name c) seen); [|reflexivity]. reflexivity.
Qed.
Section Lockstep.
  Variables (known : N -> Prop) (R : N -> N -> Prop) (fs fs' : list DeclModel.entry).
  Hypothesis HR : forall f f', R f f' -> exists n, DeclModel.lookupFunctionReference fs f = Some n /\ DeclModel.lookupFunctionReference fs' f' = Some n.
  Lemma project_exprs_same L F C l l' : Forall2 (Rep L) F C -> (Z.of_nat (length F) < 2 ^ 31)%Z -> Forall2 (SameE R (same_column F)) l l' -> forall t t', Agree t t' ->
    Agree (fst (project_exprs t l)) (fst (project_exprs t' l')) /\ Forall2 (gsame C) (snd (project_exprs t l)) (snd (project_exprs t' l')).
  Proof.
    intros HF Hl. induction 1 as [|e e' l l' Se _ IH]; intros t t' A; [split; [exact A|constructor]|].
    assert (X : (exists z z', e = ESel (SegField z None) RootRef /\ e' = ESel (SegField z' None) RootRef /\ same_column F z z') \/
      (forall t, project_exprs t (e :: l) = let '(t, n) := unique t $"intermediate" in let '(t, r) := project_exprs t l in (t, FieldModel.GOther (new_column n n) :: r)) /\
      (forall t, project_exprs t (e' :: l') = let '(t, n) := unique t $"intermediate" in let '(t, r) := project_exprs t l' in (t, FieldModel.GOther (new_column n n) :: r))).
    { inversion Se; subst; try (right; split; reflexivity). left. eauto. }
    destruct X as [(z & z' & -> & -> & Sz)|(-> & ->)].
    - cbn [project_exprs]. destruct (IH t t' A) as (B & D). destruct (project_exprs t l) as [t1 g]. destruct (project_exprs t' l') as [t1' g']. cbn [fst snd] in *. split; [exact B|]. constructor; [|exact D]. exact (same_at _ _ _ _ _ HF Hl Sz).
    - destruct (agree_unique t t' $"intermediate" A) as (E & B); [cbn; tauto|]. destruct (unique t $"intermediate") as [t1 u]. destruct (unique t' $"intermediate") as [t1' u']. cbn [fst snd] in E, B. subst u'. destruct (IH t1 t1' B) as (B2 & D).
      destruct (project_exprs t1 l) as [t2 g]. destruct (project_exprs t1' l') as [t2' g']. cbn [fst snd] in *. split; [exact B2|]. constructor; [reflexivity|exact D].
  Qed.
  Lemma groupings_same L F C l l' : Forall2 (Rep L) F C -> (Z.of_nat (length F) < 2 ^ 31)%Z -> Forall2 (SameE R (same_column F)) l l' -> Forall2 (gsame C) (map grouping_expr l) (map grouping_expr l').
  Proof. intros HF Hl. induction 1 as [|e e' l l' Se _ IH]; [constructor|]. cbn [map]. constructor; [|exact IH]. inversion Se; subst; try reflexivity. cbn [grouping_expr gsame]. eapply same_at; eassumption. Qed.
  Definition printed_as (fs : list DeclModel.entry) (x : recorded) : outcome printed :=
    let m := naming_of fs x in printRelation (nm_function m) (nm_field m) (nm_emit m) (nm_measure m) (nm_alternative m) (nm_alias m) (rn_name x) (rn_relation x).
  Record Alike (x x' : recorded) : Prop := {
    al_name : rn_name x' = rn_name x; al_source : rn_source x' = rn_source x; al_schema : rn_schema x' = rn_schema x; al_data : rn_data x' = rn_data x;
    al_kind : kind_of (r_body (rn_relation x')) = kind_of (r_body (rn_relation x)); al_printed : printed_as fs' x' = printed_as fs x }.
  (** Two relations with the same text, if they have the same names *)
  Lemma alike_by F L C n0 b b' emit emit' from schema data ms alts : 
    (Z.of_nat (length F) < 2 ^ 31)%Z -> SameBody R (same_column F) b b' ->
    Forall2 (Rep L) F C -> FieldModel.d_fields data = C \/ F = [] ->
    Forall2 (SameAt (if is_aggregate b then FieldModel.d_generated data else FieldModel.d_fields data ++ FieldModel.d_generated data)) emit emit' ->
    Alike (Recorded n0 (Relation (with_names b (listed_name from) (listed_name schema)) emit) from schema data ms alts) (Recorded n0 (Relation (with_names b' (listed_name from) (listed_name schema)) emit') from schema data ms alts).
  Proof.
    intros HlF S HF Hd He. assert (Kb : is_aggregate (with_names b' (listed_name from) (listed_name schema)) = is_aggregate b /\ is_aggregate (with_names b (listed_name from) (listed_name schema)) = is_aggregate b /\ kind_of (with_names b' (listed_name from) (listed_name schema)) = kind_of (with_names b (listed_name from) (listed_name schema))) by (inversion S; subst; auto).
    destruct Kb as (K1 & K2 & K3). constructor; try reflexivity; [exact K3|]. unfold printed_as, naming_of. cbn [nm_function nm_field nm_emit nm_measure nm_alternative nm_alias rn_name rn_relation rn_data rn_measures rn_alternatives r_body]. rewrite K1, K2.
    apply (print_relation R (same_column F)).
    - exact HR.
    - intros z z' Sz. cbn [N.eqb]. destruct Hd as [Ed|Ed].
      + rewrite Ed. apply lookup_same. eapply same_at; eassumption.
      + exfalso. subst F. destruct Sz as (Sz & _). apply Sz. unfold pick. destruct (z <? 0)%Z; [reflexivity|]. destruct (Z.to_nat z); reflexivity.
    - exact S.
    - eapply DeclFacts.F2_imp; [|exact He]. intros z z'. apply emit_same.
  Qed.
  Lemma emits_at n F C L r src sch x : RecordedAs known n F C L r src sch x -> Forall2 (Rep L) F C -> is_read (r_body r) = false -> (Z.of_nat (length (F ++ added n F (r_body r) sch)) < 2 ^ 31)%Z ->
    forall l l', Forall2 (same_column (available F (added n F (r_body r) sch) (r_body r))) l l' ->
    Forall2 (SameAt (if is_aggregate (r_body r) then FieldModel.d_generated (rn_data x) else C ++ FieldModel.d_generated (rn_data x))) l l'.
  Proof.
    intros RA HF Hr Hl l l' H. pose proof (rc_added _ _ _ _ _ _ _ _ _ RA) as Ra. unfold added_cols in Ra. rewrite (rc_relation _ _ _ _ _ _ _ _ _ RA) in Ra. cbn [r_body] in Ra.
    assert (E : is_read (with_names (r_body r) (listed_name (rn_source x)) (listed_name (rn_schema x))) = false) by (destruct (r_body r); try reflexivity; discriminate Hr). rewrite E in Ra. rewrite app_length in Hl.
    assert (X : Forall2 (Rep (L ++ made_cols x)) (F ++ added n F (r_body r) sch) (C ++ FieldModel.d_generated (rn_data x))) by (apply reps_app; [apply reps_extend, HF|exact Ra]).
    eapply DeclFacts.F2_imp; [|exact H]. intros z z' Sz. cbn beta. destruct (r_body r); cbn [available is_aggregate] in *; try (eapply same_at; [exact X|rewrite app_length; lia|exact Sz]). eapply same_at; [exact Ra|lia|exact Sz].
  Qed.
  Lemma node_same k n F C L0 H t t' r r' src sch t1 t1' x x' :
    relation_ok known k F (added n F (r_body r) sch) r src sch -> length L0 = n -> Forall2 (Rep L0) F C -> (k = 0 -> F = []) -> Handed t H -> Agree t t' ->
    SameBody R (same_column F) (r_body r) (r_body r') -> Forall2 (same_column (available F (added n F (r_body r) sch) (r_body r))) (r_emit r) (r_emit r') ->
    record_node t r src sch C = (t1, x) -> record_node t' r' src sch C = (t1', x') -> Agree t1 t1' /\ Alike x x'.
  Proof.
    intros Hok Hn HF Hk Hd A S Se E E'. destruct (node_recorded known k n F C L0 H t r src sch t1 x Hok Hn HF Hk Hd E) as (_ & RA). pose proof (fun Hr Hl => emits_at _ _ _ _ _ _ _ _ RA HF Hr Hl _ _ Se) as EA. clear RA Hd. destruct Hok as (Hl & K).
    specialize (fun Hr => EA Hr Hl). assert (HlF : (Z.of_nat (length F) < 2 ^ 31)%Z) by (rewrite app_length in Hl; lia).
    destruct r as [b emit], r' as [b' emit']. cbn [r_body r_emit] in *. unfold record_node in E, E'. cbn [r_body r_emit] in E, E'.
    assert (Simple : forall d d', is_read d = false -> is_aggregate d = false -> (forall s c, with_names d s c = d) -> (forall s c, with_names d' s c = d') -> (match d with BProject _ => false | _ => true end) = true -> d = b -> d' = b' -> SameBody R (same_column F) d d' -> kind_name d' = kind_name d -> In (kind_name d) made_up ->
      (let '(t, m) := unique t (kind_name d) in (t, Recorded m (Relation d emit) None None (FieldModel.convert_emit false C [] [] (Some emit)) [] [])) = (t1, x) ->
      (let '(t, m) := unique t' (kind_name d') in (t, Recorded m (Relation d' emit') None None (FieldModel.convert_emit false C [] [] (Some emit')) [] [])) = (t1', x') -> Agree t1 t1' /\ Alike x x').
    { intros d d' Hr Ha Wd Wd' Hp -> -> Sd Kd Id F1 F2. rewrite Kd in F2. destruct (agree_unique t t' (kind_name b) A Id) as (Eu & A1). destruct (unique t (kind_name b)) as [u m]. destruct (unique t' (kind_name b)) as [u' m']. cbn [fst snd] in Eu, A1. subst m'.
      injection F1 as <- <-. injection F2 as <- <-. split; [exact A1|]. specialize (EA Hr). rewrite Ha in EA. cbn [rn_data] in EA. rewrite <- (Wd [] []) at 1. rewrite <- (Wd' [] []) at 1.
      assert (Ed : FieldModel.d_generated (FieldModel.convert_emit false C [] [] (Some emit)) = []) by (unfold FieldModel.convert_emit; destruct emit; [reflexivity|]; destruct (FieldModel.map_columns _ _ _); reflexivity). rewrite Ed in EA.
      rewrite <- (convert_emit_same false C [] [] emit emit' EA).
      assert (Ef : FieldModel.d_fields (FieldModel.convert_emit false C [] [] (Some emit)) = C) by (unfold FieldModel.convert_emit; destruct emit; [reflexivity|]; destruct (FieldModel.map_columns _ _ _); reflexivity).
      apply (alike_by F L0 C m b b' emit emit' None None _ [] []); [exact HlF|exact Sd|exact HF|left; exact Ef|]. rewrite Ha, Ed, Ef. exact EA. }
    inversion S as [f f' So|c c' So|o c|gs gs' ms ms' Sg Sm|l l' Sl|l l' Sl|ty e e' So|]; subst b b'; cbn [is_read] in E, E'.
    - destruct K as (-> & _ & _ & _ & _ & -> & _ & (so & -> & _) & _). inversion Se; subst emit'. clear EA Simple. pose proof (Hk eq_refl) as F0.
      assert (X : exists u u' schema, match sch with Some s => let '(t, n) := unique t $"schema" in (t, Some (n, s)) | None => (t, None) end = (u, schema) /\ match sch with Some s => let '(t, n) := unique t' $"schema" in (t, Some (n, s)) | None => (t', None) end = (u', schema) /\ Agree u u').
      { destruct sch as [s|]; [|exists t, t', None; auto]. destruct (agree_unique t t' $"schema" A) as (Eu & A1); [cbn; tauto|]. destruct (unique t $"schema") as [u m]. destruct (unique t' $"schema") as [u' m']. cbn [fst snd] in *. subst m'. exists u, u', (Some (m, s)). auto. }
      destruct X as (u & u' & schema & X1 & X2 & A1).
      replace (match sch with Some s => let '(t, n) := unique t $"schema" in (t, Some (n, s)) | None => (t, None) end) with (u, schema) in E. replace (match sch with Some s => let '(t, n) := unique t' $"schema" in (t, Some (n, s)) | None => (t', None) end) with (u', schema) in E'. cbv beta iota in E, E'.
      destruct (agree_unique u u' (source_base so) A1) as (Ev & A2); [destruct so; cbn; tauto|]. destruct (unique u (source_base so)) as [v m]. destruct (unique u' (source_base so)) as [v' m']. cbn [fst snd] in *. subst m'. cbv beta iota zeta in E, E'. cbn [kind_name] in E, E'.
      destruct (agree_unique v v' $"read" A2) as (Ew & A3); [cbn; tauto|]. destruct (unique v $"read") as [w q]. destruct (unique v' $"read") as [w' q']. cbn [fst snd] in *. subst q'. injection E as <- <-. injection E' as <- <-. split; [exact A3|].
      apply (alike_by F L0 C q (BRead [] [] f None false) (BRead [] [] f' None false) [] [] (Some (m, so)) schema); [exact HlF|exact S|exact HF|right; exact F0|constructor].
    - destruct K as (-> & -> & _). match type of S with SameBody _ _ ?d ?d' => refine (Simple d d' eq_refl eq_refl (fun _ _ => eq_refl) (fun _ _ => eq_refl) eq_refl eq_refl eq_refl S eq_refl _ E E') end. cbn; tauto.
    - destruct K as (-> & -> & _). match type of S with SameBody _ _ ?d ?d' => refine (Simple d d' eq_refl eq_refl (fun _ _ => eq_refl) (fun _ _ => eq_refl) eq_refl eq_refl eq_refl S eq_refl _ E E') end. cbn; tauto.
    - destruct K as (-> & -> & _). specialize (EA eq_refl). clear Simple. cbn [is_aggregate] in EA. cbv beta iota zeta in E, E'. assert (Lm : length ms' = length ms) by (generalize (forall2_len _ _ _ Sm); congruence). rewrite Lm in E'.
      destruct (agree_uniques $"measurename" (length ms) ltac:(cbn; tauto) t t' A) as (Eu & A1). destruct (uniques t $"measurename" (length ms)) as [u ns]. destruct (uniques t' $"measurename" (length ms)) as [u' ns']. cbn [fst snd] in *. subst ns'. cbn [concat] in *. rewrite app_nil_r in *.
      rewrite (convert_groupings_same C _ _ (groupings_same L0 F C gs gs' HF HlF Sg)) in E'. destruct (FieldModel.convert_groupings C (map grouping_expr gs)) as [cs er]. cbn [kind_name] in E, E'.
      destruct (agree_unique u u' $"aggregate" A1) as (Ew & A3); [cbn; tauto|]. destruct (unique u $"aggregate") as [w q]. destruct (unique u' $"aggregate") as [w' q']. cbn [fst snd] in *. subst q'. injection E as <- <-. injection E' as <- <-. split; [exact A3|].
      cbn [rn_data] in EA. set (g := cs ++ map (fun n => new_column n []) ns) in *.
      assert (Eg : FieldModel.d_generated (FieldModel.also er (FieldModel.convert_emit true C g g (Some emit))) = g) by (unfold FieldModel.convert_emit; destruct emit; [reflexivity|]; destruct (FieldModel.map_columns _ _ _); reflexivity). rewrite Eg in EA.
      rewrite <- (convert_emit_same true C g g emit emit' EA).
      apply (alike_by F L0 C q (BAggregate [gs] ms) (BAggregate [gs'] ms') emit emit' None None _ ns []); [exact HlF|exact S|exact HF| |cbn [is_aggregate]; rewrite Eg; exact EA].
      left. unfold FieldModel.convert_emit; destruct emit; [reflexivity|]; destruct (FieldModel.map_columns _ _ _); reflexivity.
    - destruct K as (-> & -> & _). match type of S with SameBody _ _ ?d ?d' => refine (Simple d d' eq_refl eq_refl (fun _ _ => eq_refl) (fun _ _ => eq_refl) eq_refl eq_refl eq_refl S eq_refl _ E E') end. cbn; tauto.
    - destruct K as (-> & -> & _). specialize (EA eq_refl). clear Simple. cbn [is_aggregate] in EA. cbv beta iota zeta in E, E'. destruct (project_exprs_same L0 F C l l' HF HlF Sl t t' A) as (A1 & Gx). destruct (project_exprs t l) as [u gx]. destruct (project_exprs t' l') as [u' gx']. cbn [fst snd] in A1, Gx.
      rewrite (convert_exprs_same C _ _ Gx), (alternatives_same C _ _ Gx) in E'. destruct (FieldModel.convert_exprs C gx) as [cs er]. cbn [kind_name] in E, E'.
      destruct (agree_unique u u' $"project" A1) as (Ew & A3); [cbn; tauto|]. destruct (unique u $"project") as [w q]. destruct (unique u' $"project") as [w' q']. cbn [fst snd] in *. subst q'. injection E as <- <-. injection E' as <- <-. split; [exact A3|].
      cbn [rn_data] in EA.
      assert (Eg : FieldModel.d_generated (FieldModel.also er (FieldModel.convert_emit false C cs [] (Some emit))) = cs) by (unfold FieldModel.convert_emit; destruct emit; [reflexivity|]; destruct (FieldModel.map_columns _ _ _); reflexivity). rewrite Eg in EA.
      rewrite <- (convert_emit_same false C cs [] emit emit' EA).
      assert (Ef : FieldModel.d_fields (FieldModel.also er (FieldModel.convert_emit false C cs [] (Some emit))) = C) by (unfold FieldModel.convert_emit; destruct emit; [reflexivity|]; destruct (FieldModel.map_columns _ _ _); reflexivity).
      apply (alike_by F L0 C q (BProject l) (BProject l') emit emit' None None _ [] (alternatives C gx [] [])); [exact HlF|exact S|exact HF|left; exact Ef|cbn [is_aggregate]; rewrite Eg, Ef; exact EA].
    - destruct K as (-> & -> & _). match type of S with SameBody _ _ ?d ?d' => refine (Simple d d' eq_refl eq_refl (fun _ _ => eq_refl) (fun _ _ => eq_refl) eq_refl eq_refl eq_refl S eq_refl _ E E') end. cbn; tauto.
    - destruct K as (-> & -> & _). match type of S with SameBody _ _ ?d ?d' => refine (Simple d d' eq_refl eq_refl (fun _ _ => eq_refl) (fun _ _ => eq_refl) eq_refl eq_refl eq_refl S eq_refl _ E E') end. cbn; tauto.
  Qed.
  Definition columns_out (l : list rtree) : list FieldModel.column := flat_map (fun i => FieldModel.exposed (rn_data (top i))) l.
  Record TreeAlike (rt rt' : rtree) : Prop := {
    ta_inorder : Forall2 Alike (inorder rt) (inorder rt'); ta_named : named_tree rt' = named_tree rt; ta_data : rn_data (top rt') = rn_data (top rt) }.
  Lemma tree_alike x : forall n (L : list FieldModel.column) H t t' t1 t1' rt rt' x', tree_ok known n x -> length L = n -> Handed t H -> Agree t t' -> same_tree R n x x' -> record t x = (t1, rt) -> record t' x' = (t1', rt') -> Agree t1 t1' /\ TreeAlike rt rt'.
  Proof.
    induction x as [r src sch ins IH] using tree_ind2. intros n L H t t' t1 t1' rt rt' [r' src' sch' ins'] Ok0 Hn Hd A S E E'. pose proof Ok0 as (Hall & Hr). destruct S as (-> & -> & Si & Sb). rewrite record_node_eq in E, E'.
    destruct (record_list t ins) as [u rins] eqn:E1. destruct (record_list t' ins') as [u' rins'] eqn:E1'.
    assert (X : Agree u u' /\ Forall2 TreeAlike rins rins' /\ Handed u (H ++ flat_map asked rins) /\ length (L ++ flat_map made rins) = fst (all_columns columns n ins) /\
      Forall2 (Rep (L ++ flat_map made rins)) (snd (all_columns columns n ins)) (columns_out rins) /\ length rins = length ins).
    { clear Hr E E' Sb Ok0. revert n L H t t' u u' rins rins' ins' Hall Hn Hd A Si E1 E1'. induction IH as [|i ins Hi _ IHl]; intros n L H t t' u u' rins rins' [|i' ins'] Hall Hn Hd A Si E1 E1'; try contradiction; cbn in E1, E1'.
      - injection E1 as <- <-. injection E1' as <- <-. cbn. rewrite !app_nil_r. repeat match goal with |- _ /\ _ => split end; try assumption; try constructor.
      - destruct (record t i) as [t2 ri] eqn:Ei. destruct (record t' i') as [t2' ri'] eqn:Ei'. fold (record_list t2 ins) in E1. fold (record_list t2' ins') in E1'. destruct (record_list t2 ins) as [t3 rl] eqn:El. destruct (record_list t2' ins') as [t3' rl'] eqn:El'. injection E1 as <- <-. injection E1' as <- <-.
        destruct Hall as (Ti & Hall). destruct Si as (Si & Sl). destruct (tree_recorded known i n L H t t2 ri Ti Hn Hd Ei) as (Hd2 & [_ _ A3 A4 _ _]). destruct (Hi n L H t t' t2 t2' ri ri' i' Ti Hn Hd A Si Ei Ei') as (Ag & Ta).
        destruct (IHl _ (L ++ made ri) _ _ _ _ _ _ _ ins' Hall A3 Hd2 Ag Sl El El') as (B0 & B1 & B2 & B3 & B4 & B5). rewrite columns_cons. unfold columns_out in *. cbn [flat_map]. rewrite <- !app_assoc in *.
        destruct (columns n i) as [n1 ids] eqn:Ec. cbn [fst snd] in *. destruct (all_columns columns n1 ins) as [n2 F2] eqn:Ec2. cbn [fst snd] in *.
        split; [exact B0|]. split; [constructor; assumption|]. split; [exact B2|]. split; [exact B3|]. split; [apply reps_app; [rewrite app_assoc; apply reps_extend, A4|exact B4]|]. cbn. congruence. }
    destruct X as (A1 & B1 & Hd1 & B3 & B4 & B7). cbn [tree_ok] in Hr. destruct (all_columns columns n ins) as [n1 F] eqn:Ec. cbn [fst snd] in *. rewrite <- B7 in Hr.
    assert (EC : columns_out rins' = columns_out rins). { unfold columns_out. clear -B1. induction B1 as [|i i' l l' [_ _ D] _ IHl]; [reflexivity|]. cbn [flat_map]. rewrite IHl, D. reflexivity. }
    fold (columns_out rins) in E. fold (columns_out rins') in E'. rewrite EC in E'. set (C := columns_out rins) in *. destruct (record_node u r src sch C) as [v x] eqn:E2. destruct (record_node u' r' src sch C) as [v' x'] eqn:E2'. injection E as <- <-. injection E' as <- <-.
    assert (Hk : length rins = 0 -> F = []). { intros Z0. destruct rins; [|discriminate]. cbn in C. subst C. inversion B4. reflexivity. }
    destruct Sb as (Sb & Se). destruct (node_same (length rins) n1 F C (L ++ flat_map made rins) _ u u' r r' src sch v v' x x' Hr B3 B4 Hk Hd1 A1 Sb Se E2 E2') as (A2 & Ax). split; [exact A2|]. constructor.
    - cbn [inorder]. apply Forall2_app; [|constructor; [exact Ax|constructor]]. clear -B1. induction B1 as [|i i' l l' [D _ _] _ IHl]; [constructor|]. cbn [flat_map]. apply Forall2_app; assumption.
    - cbn [named_tree]. rewrite (al_name _ _ Ax), (al_kind _ _ Ax). f_equal. clear -B1. induction B1 as [|i i' l l' [_ D _] _ IHl]; [reflexivity|]. cbn [map]. rewrite IHl, D. reflexivity.
    - exact (al_data _ _ Ax).
  Qed.
  Record EntryAlike (e e' : entry_of) : Prop := { ea_label : e_label e' = e_label e; ea_names : e_names e' = e_names e; ea_tree : TreeAlike (e_tree e) (e_tree e') }.
  Lemma entries_alike l l' : Forall (fun x => tree_ok known 0 (fst x)) l -> Forall2 (fun x x' => same_tree R 0 (fst x) (fst x') /\ snd x' = snd x) l l' -> forall t t' H, Handed t H -> Agree t t' ->
    Forall2 EntryAlike (snd (record_all t l)) (snd (record_all t' l')).
  Proof.
    intros Ok0 S. revert Ok0. induction S as [|[x o] [x' o'] l l' (Sx & So) _ IH]; intros Ok0 t t' H Hd A; [constructor|]. inversion Ok0 as [|? ? O1 O2]; subst. cbn [fst snd] in *. subst o'. cbn [record_all]. unfold record_entry. cbn [fst snd].
    assert (X : exists u u' m H', match o with Some _ => unique t $"root.names" | None => (t, []) end = (u, m) /\ match o with Some _ => unique t' $"root.names" | None => (t', []) end = (u', m) /\ Agree u u' /\ Handed u H').
    { destruct o as [o|]; [|exists t, t', [], H; auto]. destruct (agree_unique t t' $"root.names" A) as (Eu & A1); [cbn; tauto|]. destruct (unique t $"root.names") as [u m] eqn:E1. destruct (unique t' $"root.names") as [u' m']. cbn [fst snd] in *. subst m'. pose proof (handed_step _ _ _ _ _ Hd E1) as Hd1. eauto 10. }
    destruct X as (u & u' & m & H' & -> & -> & A1 & Hd1). destruct (record u x) as [v r] eqn:E2. destruct (record u' x') as [v' r'] eqn:E2'. destruct (tree_alike x 0 [] H' u u' v v' r r' x' O1 eq_refl Hd1 A1 Sx E2 E2') as (A2 & Tr). destruct (tree_recorded known x 0 [] H' u v r O1 eq_refl Hd1 E2) as (Hd2 & _).
    set (base := match o with Some _ => $"root" | None => $"rel" end). destruct (agree_unique v v' base A2) as (Eu & A3); [unfold base; destruct o; cbn; tauto|]. destruct (unique v base) as [w q] eqn:E3. destruct (unique v' base) as [w' q']. cbn [fst snd] in Eu, A3. subst q'. pose proof (handed_step _ _ _ _ _ Hd2 E3) as Hd3.
    specialize (IH O2 w w' _ Hd3 A3). destruct (record_all w l) as [z es]. destruct (record_all w' l') as [z' es']. cbn [snd] in *. constructor; [|exact IH]. constructor; [reflexivity..|exact Tr].
  Qed.
End Lockstep.
Lemma flat_same {A B C} (P : A -> B -> Prop) (f : A -> list C) (g : B -> list C) l l' : (forall a b, P a b -> g b = f a) -> Forall2 P l l' -> flat_map g l' = flat_map f l.
Proof. intros H. induction 1 as [|a b l l' Hab _ IH]; [reflexivity|]. cbn. rewrite IH, (H _ _ Hab). reflexivity. Qed.
Lemma map_same {A B C} (P : A -> B -> Prop) (f : A -> C) (g : B -> C) l l' : (forall a b, P a b -> g b = f a) -> Forall2 P l l' -> map g l' = map f l.
Proof. intros H. induction 1 as [|a b l l' Hab _ IH]; [reflexivity|]. cbn. rewrite IH, (H _ _ Hab). reflexivity. Qed.
(** Plans whose relations are the same and whose functions get the same names have the same text. *)
Lemma text_same b b' H (R : N -> N -> Prop) : Forall (fun x => tree_ok (declared_function b) 0 (fst x)) (b_rels b) -> Forall2 (fun x x' => same_tree R 0 (fst x) (fst x') /\ snd x' = snd x) (b_rels b) (b_rels b') ->
  Handed (function_names (b_decls b)) H -> Agree (function_names (b_decls b)) (function_names (b_decls b')) ->
  (forall f f', R f f' -> exists n, DeclModel.lookupFunctionReference (declarations b) f = Some n /\ DeclModel.lookupFunctionReference (declarations b') f' = Some n) ->
  DeclModel.outputFunctionsSection (declarations b') = DeclModel.outputFunctionsSection (declarations b) -> to_text b' = to_text b.
Proof.
  intros Ok0 S Hd A HR Es. pose proof (entries_alike (declared_function b) R (declarations b) (declarations b') HR _ _ Ok0 S _ _ _ Hd A) as X. fold (entries_of b) in X. fold (entries_of b') in X.
  assert (Y : Forall2 (Alike (declarations b) (declarations b')) (all_recorded (entries_of b)) (all_recorded (entries_of b'))).
  { unfold all_recorded. clear -X. induction X as [|e e' l l' [_ _ [T _ _]] _ IH]; [constructor|]. cbn [flat_map]. apply Forall2_app; assumption. }
  unfold to_text, plan_of. rewrite Es. destruct (DeclModel.outputFunctionsSection (declarations b)) as [spaces|e|]; cbn [obind]; [|reflexivity..].
  rewrite (flat_same _ (fun x => FieldModel.d_missing (rn_data x)) _ _ _ (fun x x' a => f_equal _ (al_data _ _ _ _ a)) Y).
  rewrite (flat_same _ (fun x => some_list (rn_schema x)) _ _ _ (fun x x' a => f_equal _ (al_schema _ _ _ _ a)) Y).
  rewrite (flat_same _ (fun x => some_list (rn_source x)) _ _ _ (fun x x' a => f_equal _ (al_source _ _ _ _ a)) Y).
  rewrite (flat_same _ (fun e => some_list (e_names e)) _ _ _ (fun x x' a => f_equal _ (ea_names _ _ _ _ a)) X).
  assert (P : map plan_rel_of (entries_of b') = map plan_rel_of (entries_of b)).
  { apply (map_same (EntryAlike (declarations b) (declarations b'))); [|exact X]. intros e e' [E1 E2 [_ E3 _]]. unfold plan_rel_of. rewrite E1, E2, E3. reflexivity. }
  rewrite P. unfold outputToText. cbn [pl_relations pl_pipelines pl_roots pl_schemas pl_sources pl_spaces]. 
  assert (Q : printRelations (map (fun x => (naming_of (declarations b') x, rn_name x, rn_relation x)) (all_recorded (entries_of b'))) = printRelations (map (fun x => (naming_of (declarations b) x, rn_name x, rn_relation x)) (all_recorded (entries_of b)))).
  { unfold printRelations. match goal with |- obind ?u _ = obind ?v _ => assert (EQ : u = v); [|rewrite EQ; reflexivity] end. clear -Y. induction Y as [|x x' l l' Hx _ IH]; [reflexivity|]. cbn [map each]. rewrite IH.
    pose proof (al_printed _ _ _ _ Hx) as D. unfold printed_as in D. unfold SectionModel.print_relation. rewrite D. reflexivity. }
  rewrite Q. reflexivity.
Qed.
(** * The functions of the texts *)
Lemma few_uses b B : Convertible b -> DeclModel.outputFunctionsSection (declarations b) = Ok B -> forall s, DeclAgainFacts.uses s (flat_map snd B) = count_occ (list_eq_dec Ascii.ascii_dec) (short_names b) s.
Proof.
  intros Hb E s. destruct (DeclFacts.import_distinct _ _ (cv_declared _ Hb)) as (Hs & Dn & _). fold (declarations b) in Hs, Dn. pose proof (DeclFacts.all_listed _ _ Hs Dn E) as P.
  assert (U : forall l, DeclAgainFacts.uses s l = count_occ (list_eq_dec Ascii.ascii_dec) (map DeclAgainFacts.base l) s).
  { unfold DeclAgainFacts.uses, DeclAgainFacts.of_base. induction l as [|p l IH]; [reflexivity|]. cbn [filter map count_occ]. destruct (seq_eqb_spec (DeclAgainFacts.base p) s) as [Q|Q]; destruct (list_eq_dec Ascii.ascii_dec (DeclAgainFacts.base p) s); try contradiction; cbn [length]; congruence. }
  rewrite U. apply Permutation_count_occ. apply (Permutation_map (fun x => DeclAgainFacts.base (snd x))) in P.
  assert (E1 : map (fun x => DeclAgainFacts.base (snd x)) (flat_map DeclFacts.listed B) = map DeclAgainFacts.base (flat_map snd B)).
  { clear. induction B as [|x B IH]; [reflexivity|]. cbn [flat_map]. rewrite !map_app, IH. f_equal. unfold DeclFacts.listed. rewrite map_map. reflexivity. }
  rewrite E1 in P. eapply Permutation_trans; [exact P|]. rewrite map_map. unfold declarations. rewrite (proj2 (DeclFacts.import_parts _ _)). unfold short_names.
  assert (F : map (fun x => DeclAgainFacts.base (snd (DeclFacts.as_listed (DeclModel.import_decls (b_uris b) (b_decls b)) x))) (DeclModel.functions (DeclModel.import_functions SymbolModel.empty_table (b_decls b))) = map (fun d => DeclModel.shortName (DeclModel.d_name d)) (b_decls b)); [|rewrite F; apply Permutation_refl].
  symmetry. pose proof (DeclFacts.import_functions_decls (b_decls b) SymbolModel.empty_table) as F2. cbn [DeclFacts.as_listed snd]. unfold DeclAgainFacts.base. cbn [snd]. revert F2. generalize (DeclModel.functions (DeclModel.import_functions SymbolModel.empty_table (b_decls b))).
  generalize (DeclModel.import_decls (b_uris b) (b_decls b)). intros _ l F2. induction F2 as [|d f ds l (A & _) _ IH]; [reflexivity|]. cbn [map]. rewrite IH, A. reflexivity.
Qed.
Lemma resolved_named before B fs n f' : DeclModel.functions fs = DeclModel.functions (DeclModel.read_text before B) -> DeclModel.resolve_function (DeclModel.read_text before B) n = Some f' -> DeclModel.lookupFunctionReference fs f' = Some n.
Proof.
  intros E H. unfold DeclModel.resolve_function in H. destruct (find _ (DeclModel.read_text before B)) as [[|g|]|] eqn:F; try discriminate. injection H as <-. apply find_some in F as (I & F). cbn in F. apply seq_eqb_eq in F.
  unfold DeclModel.lookupFunctionReference. rewrite E. rewrite (DeclFacts.find_unique _ _ g).
  - cbn. congruence.
  - unfold DeclModel.functions. apply in_flat_map. exists (DeclModel.EFunction g). split; [exact I|left; reflexivity].
  - lia.
  - intros y J Q. apply (DeclFacts.nodup_map_eq DeclModel.f_anchor (DeclModel.functions (DeclModel.read_text before B))); [|exact J| |lia].
    + rewrite DeclAgainFacts.read_funcs. apply DeclFacts.read_blocks_nodup.
    + unfold DeclModel.functions. apply in_flat_map. exists (DeclModel.EFunction g). split; [exact I|left; reflexivity].
Qed.
Lemma unnamed x ds : ~ In x (map (fun d => DeclModel.shortName (DeclModel.d_name d)) ds) -> forall t, SymbolModel.lookup x (SymbolModel.t_names t) = None ->
  SymbolModel.lookup x (SymbolModel.t_names (fold_left (fun t d => fst (unique t (DeclModel.shortName (DeclModel.d_name d)))) ds t)) = None.
Proof.
  induction ds as [|d ds IH]; intros N0 t E; [exact E|]. cbn [fold_left]. apply IH; [intros I; apply N0; right; exact I|]. set (s := DeclModel.shortName (DeclModel.d_name d)) in *. assert (Ns : s <> x) by (intros Q; apply N0; left; exact Q).
  unfold unique, SymbolModel.getUniqueName. destruct (SymbolModel.lookup s (SymbolModel.t_names t)) as [c|]; cbn [fst SymbolModel.t_names]; rewrite ?SymbolFacts.lookup_assign, ?SymbolFacts.lookup_insert, ?E; destruct (seq_eqb_spec s x); try contradiction; reflexivity.
Qed.
Lemma not_made_up b x : Convertible b -> In x made_up -> SymbolModel.lookup x (SymbolModel.t_names (function_names (b_decls b))) = None.
Proof.
  intros Hb I. apply unnamed; [|reflexivity]. intros J. pose proof (cv_shorts _ Hb) as C. rewrite Forall_forall in C. destruct (C x J) as (N0 & _). apply N0. exists x, []. split; [exact I|]. split; [reflexivity|]. rewrite app_nil_r. reflexivity.
Qed.
Lemma functions_agree b b' : Convertible b -> Convertible b' -> Agree (function_names (b_decls b)) (function_names (b_decls b')).
Proof. intros Hb Hb' x I. rewrite !not_made_up by assumption. reflexivity. Qed.
(** A plan that was converted before has a text that stays. *)
Lemma text_stable b : Convertible b -> (forall s, count_occ (list_eq_dec Ascii.ascii_dec) (short_names b) s < 10) ->
  exists t b1 t1 b2, to_text b = Ok (t, 0) /\ from_text t = Ok (Some b1, []) /\ to_text b1 = Ok (t1, 0) /\ from_text t1 = Ok (Some b2, []) /\ to_text b2 = Ok (t1, 0).
Proof.
  intros Hb Few. destruct (whole_trip_more b Hb) as (t & b1 & B & T & F & S & Es & Eu & Ed & _). pose proof (plan_again b b1 B Hb S Es Eu Ed) as H1.
  destruct (whole_trip_more b1 H1) as (t1 & b2 & B1 & T1 & F1 & S1 & Es1 & Eu1 & Ed1 & Sr). pose proof (plan_again b1 b2 B1 H1 S1 Es1 Eu1 Ed1) as H2.
  exists t, b1, t1, b2. do 4 (split; [assumption|]).
  assert (G : DeclAgainFacts.good B).
  { destruct (DeclFacts.import_distinct _ _ (cv_declared _ Hb)) as (Hs & _ & K). fold (declarations b) in Hs, K. eapply (DeclAgainFacts.section_good (declarations b) B Hs); [|exact Es]. intros f s I E. destruct (K f I) as (u & s' & E1 & _ & E2). exists u. congruence. }
  unfold fs' in Eu, Ed, Eu1, Ed1. rewrite entries_definitions in Eu, Ed, Eu1, Ed1.
  assert (Fw : forall s, DeclAgainFacts.uses s (flat_map snd B) <= 9) by (intros s; rewrite (few_uses b B Hb Es); specialize (Few s); lia).
  destruct (DeclAgainFacts.first_again (before b B) B B1 G Fw) as (G1 & Sb1 & N1); [rewrite <- Eu, <- Ed; exact Es1|].
  destruct (DeclAgainFacts.section_again (before b1 B1) B1 G1 Sb1 N1) as (Es2 & Ef2). rewrite <- Eu1, <- Ed1 in Es2, Ef2. fold (declarations b2) in Es2, Ef2.
  rewrite <- T1. assert (H0 : Handed SymbolModel.empty_table []) by (split; [intros q; reflexivity|constructor]). pose proof (functions_handed (b_decls b1) _ _ H0) as Hd.
  eapply (text_same b1 b2 _ (R b1 B1)); [apply (cv_trees _ H1)| |exact Hd|apply functions_agree; assumption| |congruence].
  - clear -Sr S. revert S. unfold same_plan. generalize (b_rels b). intros l0 S. revert Sr. generalize (b_rels b2). induction S as [|x0 x l0 l (_ & E0) _ IH]; intros l2 Sr; inversion Sr as [|? x2 ? l2' (A & E) Sr']; subst; constructor; [|apply IH; assumption].
    split; [exact A|]. rewrite E, E0. reflexivity.
  - intros f f' (_ & n & L & Rs). exists n. split; [exact L|]. unfold fs' in Rs. rewrite entries_definitions in Rs. eapply resolved_named; [exact Ef2|exact Rs].
Qed.
