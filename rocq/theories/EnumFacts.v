(** Specification and proofs for enumeration names. *)
From Verif Require Import Base BaseFacts StringsModel StringsFacts EnumModel.
From Coq Require Import Lia ZifyBool ZifyN.

(** * Specification *)
(** [t] spells the (lower case) word [w]: its letters, in any case, are those of the word; everything else is ignored. *)
Definition letter (c : ascii) : Prop := (65 <= code c <= 90)%N \/ (97 <= code c <= 122)%N.
Definition same_letter (c x : ascii) : Prop := letter c /\ (code x = code c \/ code x = code c + 32)%N /\ (97 <= code x <= 122)%N.
Inductive spells : str -> str -> Prop :=
| spells_nil : spells [] []
| spells_skip c t w : ~ letter c -> spells t w -> spells (c :: t) w
| spells_take c x t w : same_letter c x -> spells t w -> spells (c :: t) (x :: w).
Definition plain (t : str) : Prop := Forall (fun c => (code c < 128)%N) t.
(** With or without the prefix. *)
Definition names (prefix word t : str) : Prop := spells t word \/ spells t (prefix ++ word).

Definition join_word (j : join_type) : str :=
  match j with JUnspecified => $"unspecified" | JInner => $"inner" | JOuter => $"outer" | JLeft => $"left" | JRight => $"right" | JSemi => $"semi" | JAnti => $"anti" | JSingle => $"single" end.
Definition invocation_word (i : invocation) : str := match i with IUnspecified => $"unspecified" | IAll => $"all" | IDistinct => $"distinct" end.
Definition phase_word (p : phase) : str :=
  match p with PUnspecified => $"unspecified" | PInitialToIntermediate => $"initialtointermediate" | PIntermediateToIntermediate => $"intermediatetointermediate"
  | PInitialToResult => $"initialtoresult" | PIntermediateToResult => $"intermediatetoresult" end.
Definition direction_word (d : direction) : str :=
  match d with DUnspecified => $"unspecified" | DAscNullsFirst => $"ascnullsfirst" | DAscNullsLast => $"ascnullslast" | DDescNullsFirst => $"descnullsfirst" | DDescNullsLast => $"descnullslast" | DClustered => $"clustered" end.
Definition comparison_word (c : comparison) : str :=
  match c with CEq => $"eq" | CNe => $"ne" | CLt => $"lt" | CGt => $"gt" | CLe => $"le" | CGe => $"ge" | CUnspecified => [] end.

(** * Proofs *)
Lemma is_alpha_letter c : is_alpha c = true <-> letter c.
Proof. unfold is_alpha, is_upper, is_lower, letter. lia. Qed.
Lemma lower_letter c x : letter c -> (lower c = x <-> same_letter c x).
Proof.
  intros L. unfold same_letter, lower, is_upper. destruct ((65 <=? code c) && (code c <=? 90))%N eqn:E.
  - assert (C : code (ascii_of_N (code c + 32)) = (code c + 32)%N) by (apply code_of_N; lia). split.
    + intros <-. rewrite C. split; auto. split; [auto|lia].
    + intros (_ & [H|H] & R); [lia|]. apply code_inj. lia.
  - unfold letter in L. split; [intros <-; split; [right; lia|]; split; auto; lia|]. intros (_ & [H|H] & R); apply code_inj; lia.
Qed.
Lemma spells_iff t : forall w, to_lower (filter is_alpha t) = w <-> spells t w.
Proof.
  induction t as [|c t IH]; intros w; cbn [filter].
  - split; [intros <-; constructor|inversion 1; auto].
  - destruct (is_alpha c) eqn:E.
    + pose proof (proj1 (is_alpha_letter c) E) as L. cbn. split.
      * intros <-. constructor; [apply lower_letter; auto|]. apply IH. auto.
      * intros H. inversion H as [|? ? ? N0|? x ? ? S R]; subst; [tauto|]. f_equal; [apply lower_letter; auto|]. apply IH. auto.
    + assert (L : ~ letter c) by (rewrite <- is_alpha_letter; congruence). rewrite IH. split.
      * intros H. constructor; auto.
      * intros H. inversion H as [|? ? ? N0|? x ? ? S R]; subst; auto. destruct S. tauto.
Qed.
Lemma plain_iff t : plain t <-> forallb ascii7 t = true.
Proof. unfold plain. rewrite forallb_forall, Forall_forall. unfold ascii7. split; intros H x I; specialize (H x I); lia. Qed.
Lemma normalize_plain t p : plain t -> exists w, spells t w /\ normalizeProtoEnum t p = Ok (if startsWith w p then skipn (length p) w else w).
Proof. intros H. apply plain_iff in H. unfold normalizeProtoEnum. rewrite H. eexists. split; [apply spells_iff; reflexivity|reflexivity]. Qed.
Lemma spells_fun t w w' : spells t w -> spells t w' -> w = w'.
Proof. rewrite <- !spells_iff. congruence. Qed.
Lemma strip_iff w p word : startsWith word p = false -> word <> [] -> (((if startsWith w p then skipn (length p) w else w) = word) <-> (w = word \/ w = p ++ word)).
Proof.
  intros N0 NE. destruct (startsWith w p) eqn:E.
  - apply startsWith_iff in E as (c & r & ->). rewrite skipn_app, skipn_all, Nat.sub_diag. cbn. split.
    + intros <-. auto.
    + intros [H|H]; [|apply app_inv_head in H; auto]. exfalso. assert (startsWith word p = true) by (apply startsWith_iff; exists c, r; auto). congruence.
  - split; auto. intros [H|H]; auto. exfalso. subst w. destruct word as [|c r]; [auto|]. assert (startsWith (p ++ c :: r) p = true) by (apply startsWith_iff; eauto). congruence.
Qed.
Lemma names_strip t w p word : spells t w -> startsWith word p = false -> word <> [] ->
  (((if startsWith w p then skipn (length p) w else w) = word) <-> names p word t).
Proof.
  intros S N0 NE. rewrite strip_iff by auto. unfold names. split.
  - intros [->| ->]; auto.
  - intros [H|H]; [left|right]; eapply spells_fun; eauto.
Qed.
Ltac cases := repeat match goal with |- context [?a =s ?b] => let E := fresh "E" in destruct (a =s b) eqn:E; [apply seq_eqb_eq in E|apply seq_eqb_neq in E] end.
Ltac by_value := split; [cases; intros ?; first [assumption|discriminate|congruence]|intros ->; vm_compute; reflexivity].
(** Every text is read as exactly the value it names; texts that name none are errors. *)
Lemma join_iff t j : plain t -> j <> JUnspecified -> (visitRelationJoinType t = Ok (j, false) <-> names $"jointype" (join_word j) t).
Proof.
  intros P NJ. destruct (normalize_plain t $"jointype" P) as (w & S & E). unfold visitRelationJoinType. rewrite E. cbn [obind].
  rewrite <- (names_strip t w $"jointype" (join_word j) S) by (destruct j; vm_compute; congruence).
  generalize (if startsWith w $"jointype" then skipn (length $"jointype") w else w). intros r. unfold join_of. destruct j; [congruence|..]; by_value.
Qed.
Lemma join_error t : plain t -> (visitRelationJoinType t = Ok (JUnspecified, true) <-> ~ exists j, j <> JUnspecified /\ names $"jointype" (join_word j) t).
Proof.
  intros P. split.
  - intros H (j & N0 & K). apply join_iff in K; auto. rewrite K in H. injection H as ->. tauto.
  - intros H. destruct (normalize_plain t $"jointype" P) as (w & S & E). destruct (visitRelationJoinType t) as [[j b]| |] eqn:V; unfold visitRelationJoinType in V; rewrite E in V; try discriminate.
    destruct (b) eqn:B. { cbn in V. destruct (join_of _); try discriminate. injection V as <-. auto. }
    exfalso. apply H. exists j. assert (N0 : j <> JUnspecified) by (intros ->; cbn in V; destruct (join_of _); discriminate). split; auto.
    apply join_iff; auto. unfold visitRelationJoinType. rewrite E. auto.
Qed.
Lemma invocation_iff t i : plain t -> (visitAggregationInvocation t = Ok (i, false) <-> names $"aggregationinvocation" (invocation_word i) t).
Proof.
  intros P. destruct (normalize_plain t $"aggregationinvocation" P) as (w & S & E). unfold visitAggregationInvocation. rewrite E. cbn [obind].
  rewrite <- (names_strip t w $"aggregationinvocation" (invocation_word i) S) by (destruct i; vm_compute; congruence).
  generalize (if startsWith w $"aggregationinvocation" then skipn (length $"aggregationinvocation") w else w). intros r. destruct i; by_value.
Qed.
Lemma phase_iff t i : plain t -> (visitAggregationPhase t = Ok (i, false) <-> names $"aggregationphase" (phase_word i) t).
Proof.
  intros P. destruct (normalize_plain t $"aggregationphase" P) as (w & S & E). unfold visitAggregationPhase. rewrite E. cbn [obind].
  rewrite <- (names_strip t w $"aggregationphase" (phase_word i) S) by (destruct i; vm_compute; congruence).
  generalize (if startsWith w $"aggregationphase" then skipn (length $"aggregationphase") w else w). intros r. destruct i; by_value.
Qed.
Lemma direction_iff t i : plain t -> (visitSortDirection t = Ok (i, false) <-> names $"sortdirection" (direction_word i) t).
Proof.
  intros P. destruct (normalize_plain t $"sortdirection" P) as (w & S & E). unfold visitSortDirection. rewrite E. cbn [obind].
  rewrite <- (names_strip t w $"sortdirection" (direction_word i) S) by (destruct i; vm_compute; congruence).
  generalize (if startsWith w $"sortdirection" then skipn (length $"sortdirection") w else w). intros r. destruct i; by_value.
Qed.
(** The other outcome is the unspecified value with an error. *)
Lemma others t : plain t ->
  ((exists i, visitAggregationInvocation t = Ok (i, false)) \/ visitAggregationInvocation t = Ok (IUnspecified, true)) /\
  ((exists i, visitAggregationPhase t = Ok (i, false)) \/ visitAggregationPhase t = Ok (PUnspecified, true)) /\
  ((exists i, visitSortDirection t = Ok (i, false)) \/ visitSortDirection t = Ok (DUnspecified, true)).
Proof.
  intros P. repeat split; unfold visitAggregationInvocation, visitAggregationPhase, visitSortDirection;
    match goal with |- context [normalizeProtoEnum t ?p] => destruct (normalize_plain t p P) as (w & _ & ->) end; cbn [obind];
    match goal with |- context [if startsWith ?w ?p then ?a else ?w] => generalize (if startsWith w p then a else w) end; intros r; cases; eauto.
Qed.
(** Printing then reading. *)
Lemma join_round j : visitRelationJoinType (join_name j) = Ok (j, match j with JUnspecified => true | _ => false end).
Proof. destruct j; vm_compute; reflexivity. Qed.
Lemma phase_round p : visitAggregationPhase (phase_name p) = Ok (p, false).
Proof. destruct p; vm_compute; reflexivity. Qed.
Lemma invocation_round i : parse_invocation (print_invocation i) = Ok (i, false).
Proof. destruct i; vm_compute; reflexivity. Qed.
Lemma direction_round d : d <> Some DUnspecified -> visitSort_field (print_direction d) = Ok (d, false).
Proof. destruct d as [[]|]; intros H; try congruence; vm_compute; reflexivity. Qed.
Lemma comparison_round c t : print_comparison c = Some t -> comparisonToProto t = c.
Proof. destruct c; intros H; try discriminate; injection H as <-; vm_compute; reflexivity. Qed.
(** Only the case may vary here. *)
Lemma comparison_iff c t : c <> CUnspecified -> (comparisonToProto t = c <-> map lower t = comparison_word c).
Proof.
  intros N0. unfold comparisonToProto, to_lower. generalize (map lower t). intros r. destruct c; try congruence;
    (split; [cases; intros ?; first [assumption|discriminate|congruence]|intros ->; vm_compute; reflexivity]).
Qed.
