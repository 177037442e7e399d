(** C50, C51: names of relation kinds and the columns of schemas. *)
From Verif Require Import Base BaseFacts SymbolModel TreeModel RelModel KindModel KindFacts.
From Coq Require Import Lia.

(** ** C50 *)
(** Reading accepts exactly the nine spellings, in any case of letters, and gives the kind of that spelling. *)
Theorem C50_reads : forall s k, visitRelation_type s = Some k <-> Spelled k (to_lower s).
Proof. exact read_kind. Qed.
Print Assumptions C50_reads.
(** A kind that can be printed is printed with its spelling and read back as the same kind, also if its letters are changed to capitals. *)
Theorem C50_survives : forall k, printable k = true ->
  Spelled k (relTypeCaseName (rel_type_case k)) /\ forall s, to_lower s = relTypeCaseName (rel_type_case k) -> visitRelation_type s = Some k.
Proof. intros k P. pose proof (printed_kind k P) as S0. split; auto. intros s E. apply read_kind. rewrite E. exact S0. Qed.
Print Assumptions C50_survives.
(** Two different kinds that can be printed are never printed alike. *)
Theorem C50_distinct : forall k k', printable k = true -> printable k' = true -> relTypeCaseName (rel_type_case k) = relTypeCaseName (rel_type_case k') -> k = k'.
Proof. intros k k' P P' E. apply printed_kind in P, P'. rewrite E in P. eapply spelled_one; eauto. Qed.
Print Assumptions C50_distinct.
(** The name of any other kind is not mistaken for one that can be printed. *)
Theorem C50_others : forall k k', printable k = false -> visitRelation_type (relTypeCaseName (rel_type_case k)) = Some k' -> k = KSet /\ k' = KSet.
Proof. intros k k' P E. destruct k; try discriminate P; vm_compute in E; try discriminate E. injection E as <-. auto. Qed.
Print Assumptions C50_others.
(** The model of relations (C64, C74) uses the same names. *)
Theorem C50_relations : forall s b,
  (forall k, kind_of b = Some k -> kind_name b = relTypeCaseName (rel_type_case k)) /\
  (empty_body s = Some b -> forall k, kind_of b = Some k -> visitRelation_type s = Some k) /\
  (empty_body s = None <-> visitRelation_type s = None).
Proof.
  intros s b. split; [|split].
  - destruct b; intros k E; injection E as <- || discriminate E; reflexivity.
  - unfold empty_body, visitRelation_type. cbn zeta. generalize (to_lower s) as w. intros w E k K. apply lookup_spelled. revert E.
    repeat match goal with |- context [w =s ?x] => destruct (seq_eqb_spec w x) as [->|] end; intros E; try discriminate E; injection E as <-; cbn in K; injection K as <- || discriminate K; constructor.
  - unfold empty_body, visitRelation_type. cbn zeta. generalize (to_lower s) as w. intros w. split.
    + intros E. destruct (lookup w relationTypeMap) as [k|] eqn:F; auto. apply lookup_spelled in F. destruct F; discriminate E.
    + intros E. repeat match goal with |- context [w =s ?x] => destruct (seq_eqb_spec w x) as [->|] end; auto; discriminate E.
Qed.
Print Assumptions C50_relations.
Example C50_case : visitRelation_type $"ReaD" = Some KRead /\ visitRelation_type $"hashjoin" = None /\ relTypeCaseName (rel_type_case KWindow) = $"unknown" /\
  printable KCross = true /\ relTypeCaseName (rel_type_case KCross) = $"cross".
Proof. repeat split. Qed.

(** ** C51 *)
(** A schema of new, different names with enough types: every column is recorded with the type at its position, the names are found, nothing else
    changes and no error is reported. *)
Theorem C51_columns_partial : forall t l names types, NoDup names -> (forall n, In n names -> lookupSymbolByName t n = None) -> length names <= length types ->
  exists t', visitNamedStruct t l names types = (t', None) /\
    t_symbols t' = t_symbols t ++ map (column l) (combine names types) /\
    (forall i n ty, nth_error names i = Some n -> nth_error types i = Some ty -> found t' n = Some (column l (n, ty))) /\
    (forall n, ~ In n names -> lookupSymbolByName t' n = lookupSymbolByName t n).
Proof.
  intros t l names types D F L.
  destruct (visit_names l types names t 0 (Nat.le_0_l _)) as (H1 & H2 & H3 & H4 & H5). cbn [skipn] in *.
  rewrite added_all in * by (auto; intros n I; unfold known; rewrite F; auto).
  unfold visitNamedStruct. destruct (visitNames t l 0 types names) as [t' e]. cbn [fst snd] in *. exists t'. rewrite Nat.sub_0_r in H2.
  replace (length types <? length names) with false in H2 by (symmetry; apply Nat.ltb_ge; lia). subst e. split; auto. split; auto. split.
  - intros i n ty I J.
    assert (K : nth_error (combine names types) i = Some (n, ty)).
    { clear -I J. revert types i I J. induction names as [|a names IH]; intros [|b types] [|i] I J; try discriminate; cbn in *; [congruence|auto]. }
    unfold found. pose proof (H4 _ _ K) as E. cbn [fst] in E. rewrite E, H1, nth_error_app2 by lia.
    replace (length (t_symbols t) + i - length (t_symbols t)) with i by lia. rewrite nth_error_map, K. reflexivity.
  - intros n I. destruct (lookupSymbolByName t n) as [j|] eqn:E; [apply H3; auto|apply H5; auto]. intros J. apply I. apply in_map_iff in J as ([a b] & <- & J). apply in_combine_l in J. auto.
Qed.
Print Assumptions C51_columns_partial.
(** For every schema: the names that are new get the types in order, however many names were skipped between them; an error is reported exactly
    if there are more new names than types, and then it gives the number of types. *)
Theorem C51_exact : forall t l names types,
  let new := added (known t) names in let r := visitNamedStruct t l names types in
  t_symbols (fst r) = t_symbols t ++ map (column l) (combine new types) /\
  (forall i n ty, nth_error new i = Some n -> nth_error types i = Some ty -> found (fst r) n = Some (column l (n, ty))) /\
  (length new <= length types -> snd r = None) /\ (length types < length new -> snd r = Some (length types)) /\
  (forall n i, lookupSymbolByName t n = Some i -> lookupSymbolByName (fst r) n = Some i) /\
  (forall n, In n new <-> In n names /\ lookupSymbolByName t n = None) /\ NoDup new.
Proof.
  intros t l names types. cbn zeta. destruct (visit_names l types names t 0 (Nat.le_0_l _)) as (H1 & H2 & H3 & H4 & H5). cbn [skipn] in *. unfold visitNamedStruct.
  set (r := visitNames t l 0 types names) in *. set (new := added (known t) names) in *. rewrite Nat.sub_0_r in H2. split; auto. split; [|split; [|split; [|split; [|split]]]].
  - intros i n ty I J.
    assert (K : nth_error (combine new types) i = Some (n, ty)).
    { clear -I J. revert types i I J. generalize new as l. induction l as [|a l IH]; intros [|b types] [|i] I J; try discriminate; cbn in *; [congruence|auto]. }
    unfold found. pose proof (H4 _ _ K) as E. cbn [fst] in E. rewrite E, H1, nth_error_app2 by lia.
    replace (length (t_symbols t) + i - length (t_symbols t)) with i by lia. rewrite nth_error_map, K. reflexivity.
  - intros L. rewrite H2. replace (length types <? length new) with false; auto. symmetry. apply Nat.ltb_ge. auto.
  - intros L. rewrite H2. replace (length types <? length new) with true; auto. symmetry. apply Nat.ltb_lt. auto.
  - exact H3.
  - intros n. unfold new. rewrite added_In. unfold known. destruct (lookupSymbolByName t n); split; intros [A B]; split; auto; discriminate.
  - apply added_NoDup.
Qed.
Print Assumptions C51_exact.
(** If the first column has a name that is already in use, every later column is recorded with the type of the column before it. *)
Theorem C51_shift_refuted : forall t l n names types, lookupSymbolByName t n <> None -> NoDup names -> (forall m, In m names -> lookupSymbolByName t m = None) ->
  forall i m ty, nth_error (n :: names) (S i) = Some m -> nth_error types i = Some ty ->
  found (fst (visitNamedStruct t l (n :: names) types)) m = Some (column l (m, ty)) /\
  (forall right, nth_error types (S i) = Some right -> right <> ty -> forall s, found (fst (visitNamedStruct t l (n :: names) types)) m = Some s -> s_blob s <> right).
Proof.
  intros t l n names types K D F i m ty I J.
  assert (E : found (fst (visitNamedStruct t l (n :: names) types)) m = Some (column l (m, ty))).
  { apply (proj1 (proj2 (C51_exact t l (n :: names) types))) with (i := i); auto. cbn [added]. unfold known at 1. destruct (lookupSymbolByName t n); [|congruence].
    rewrite added_all; auto. intros x Ix. unfold known. rewrite F; auto. }
  split; auto. intros right R N s S0. rewrite E in S0. injection S0 as <-. cbn. congruence.
Qed.
Print Assumptions C51_shift_refuted.
(** Two tables that both have a column id: in the second one the column b is recorded with the type 3 of id. *)
Example C51_case : let t := visitSchemas empty_table [(LMsg 1, [$"id"; $"a"], [1; 2]%N); (LMsg 2, [$"id"; $"b"; $"c"], [3; 4; 5]%N)] in
  map (fun s => (s_name s, s_blob s)) (t_symbols t) = [($"id", 1); ($"a", 2); ($"b", 3); ($"c", 4)]%N /\
  NoDup [$"id"; $"a"] /\ lookupSymbolByName (visitSchemas empty_table [(LMsg 1, [$"id"; $"a"], [1; 2]%N)]) $"id" <> None /\
  snd (visitNamedStruct empty_table (LMsg 1) [$"id"; $"a"; $"b"] [1; 2]%N) = Some 2.
Proof. cbn. repeat split; try discriminate. constructor; [intros [K|[]]; discriminate|constructor; [intros []|constructor]]. Qed.
