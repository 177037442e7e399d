(** Specification and proofs for columns and their names. *)
From Verif Require Import Base BaseFacts FieldModel.
From Coq Require Import ZArith Lia ZifyBool ZifyNat ZifyN.

(** * Specification *)
Definition named (name : str) (c : column) : Prop := (c_alias c <> [] /\ c_alias c = name) \/ c_name c = name.
(** The schema a column was declared in: the first schema symbol of the table with its location. *)
Definition in_schema (ss : schemas) (c : column) (s : str) : Prop :=
  exists before after, ss = before ++ (s, c_loc c) :: after /\ Forall (fun x => snd x <> c_loc c) before.
Definition called (ss : schemas) (name : str) (c : column) : Prop := named name c \/ exists s, in_schema ss c s /\ name = s ++ $"." ++ c_name c.
Definition last_with (P : column -> Prop) (l : list column) (i : nat) : Prop :=
  exists c, nth_error l i = Some c /\ P c /\ forall j c', i < j -> nth_error l j = Some c' -> ~ P c'.
Definition none_with (P : column -> Prop) (l : list column) : Prop := Forall (fun c => ~ P c) l.
(** The last generated column with the name or else the last input column with the name. *)
Definition resolves (ss : schemas) (fields generated : list column) (name : str) (r : option Z) : Prop :=
  (exists i, last_with (named name) generated i /\ r = Some (Z.of_nat (length fields + i))) \/
  (none_with (named name) generated /\ exists i, last_with (called ss name) fields i /\ r = Some (Z.of_nat i)) \/
  (none_with (named name) generated /\ none_with (called ss name) fields /\ r = None).
Definition fits (l : list column) : Prop := (Z.of_nat (length l) < 2147483648)%Z.

(** * Lookup *)
Lemma match_generated_iff name c : match_generated name c = true <-> named name c.
Proof.
  unfold match_generated, named. rewrite orb_true_iff, andb_true_iff, !seq_eqb_eq. destruct (c_alias c); cbn; intuition congruence.
Qed.
Lemma find_first (ss : schemas) l : find (fun s => snd s =? l) ss = None <-> Forall (fun x => snd x <> l) ss.
Proof.
  induction ss as [|[s k] ss IH]; cbn; [split; auto|]. destruct (Nat.eqb_spec k l).
  - split; [discriminate|]. inversion 1. cbn in *. congruence.
  - rewrite IH. split; [intros; constructor; auto|inversion 1; auto].
Qed.
Lemma find_some (ss : schemas) l s k : find (fun s => snd s =? l) ss = Some (s, k) -> k = l /\ exists a b, ss = a ++ (s, l) :: b /\ Forall (fun x => snd x <> l) a.
Proof.
  induction ss as [|[s' k'] ss IH]; cbn; [discriminate|]. destruct (Nat.eqb_spec k' l).
  - intros H. injection H as <- <-. subst. split; auto. exists [], ss. auto.
  - intros H. destruct (IH H) as (-> & a & b & -> & F). split; auto. exists ((s', k') :: a), b. auto.
Qed.
Lemma in_schema_fun ss c s s' : in_schema ss c s -> in_schema ss c s' -> s = s'.
Proof.
  intros (a & b & -> & F) (a' & b' & E & F'). revert a' E F'. induction F as [|x a Hx _ IH]; intros [|y a'] E F'; cbn in *.
  - congruence.
  - injection E as <- _. inversion F'. cbn in *. congruence.
  - injection E as -> _. cbn in Hx. congruence.
  - injection E as -> E. inversion F'. eauto.
Qed.
Lemma qualified_iff ss c : (exists s, in_schema ss c s /\ fullyQualifiedReference ss c = s ++ $"." ++ c_name c) \/ ((forall s, ~ in_schema ss c s) /\ fullyQualifiedReference ss c = c_name c).
Proof.
  unfold fullyQualifiedReference. destruct (find (fun s => snd s =? c_loc c) ss) as [[s k]|] eqn:E.
  - left. apply find_some in E as (-> & a & b & -> & F). exists s. split; auto. exists a, b. auto.
  - right. split; auto. intros s (a & b & -> & F). apply find_first in E. rewrite Forall_forall in E. apply (E (s, c_loc c)); auto. apply in_or_app. right. left. auto.
Qed.
Lemma match_input_iff ss name c : match_input ss name c = true <-> called ss name c.
Proof.
  unfold match_input, called. rewrite orb_true_iff, match_generated_iff, seq_eqb_eq. destruct (qualified_iff ss c) as [(s & I & ->)|(N0 & ->)].
  - split; [intros [H|<-]; eauto|]. intros [H|(s' & I' & ->)]; auto. rewrite (in_schema_fun _ _ _ _ I I'). auto.
  - unfold named. split; [intros [H|H]; auto|]. intros [H|(s & I & _)]; auto. destruct (N0 s I).
Qed.
Lemma find_pos_some P l k : find_pos P l = Some k <-> exists c, nth_error l k = Some c /\ P c = true /\ forall j c', j < k -> nth_error l j = Some c' -> P c' = false.
Proof.
  revert k. induction l as [|x l IH]; intros k; cbn [find_pos].
  - split; [discriminate|]. intros (c & E & _). destruct k; discriminate.
  - destruct (P x) eqn:E.
    + split.
      * intros H. injection H as <-. exists x. repeat split; auto. intros j c' L. lia.
      * intros (c & N0 & Pc & F). destruct k as [|k]; auto. specialize (F 0 x ltac:(lia) eq_refl). congruence.
    + destruct (find_pos P l) as [i|] eqn:Fp; cbn.
      * destruct (proj1 (IH i) eq_refl) as (ci & Ni & Pi & Fi). split.
        { intros H. injection H as <-. exists ci. repeat split; auto. intros [|j] c' L N'; cbn in N'; [congruence|]. apply (Fi j); auto. lia. }
        { intros (c & Nc & Pc & Fc). destruct k as [|k]; [cbn in Nc; congruence|]. cbn in Nc. f_equal. f_equal.
          destruct (lt_eq_lt_dec i k) as [[L| ->]|L]; auto; exfalso; [specialize (Fc (S i) ci ltac:(lia) Ni)|specialize (Fi k c L Nc)]; congruence. }
      * split; [discriminate|]. intros (c & Nc & Pc & Fc). destruct k as [|k]; [cbn in Nc; congruence|]. cbn in Nc.
        assert (X : None = Some k) by (apply IH; exists c; repeat split; auto; intros j c' L N'; apply (Fc (S j) c'); auto; lia). discriminate.
Qed.
Lemma find_pos_none P l : find_pos P l = None <-> Forall (fun c => P c = false) l.
Proof.
  induction l as [|x l IH]; cbn [find_pos]; [split; auto|]. destruct (P x) eqn:E.
  - split; [discriminate|]. inversion 1. congruence.
  - destruct (find_pos P l); cbn; split; intros H; try discriminate; [|constructor; auto; apply IH; auto|auto].
    inversion H; subst. assert (X : Some n = None) by (apply IH; auto). discriminate.
Qed.
Lemma nth_rev (l : list column) i : i < length l -> nth_error (rev l) i = nth_error l (length l - 1 - i).
Proof.
  intros L. destruct l as [|d l0]; [cbn in L; lia|]. set (l := d :: l0) in *.
  rewrite (nth_error_nth' (rev l) d) by (rewrite rev_length; lia). rewrite (nth_error_nth' l d) by lia. f_equal. rewrite rev_nth by lia. f_equal. lia.
Qed.
Lemma rfind_some P (Q : column -> Prop) l : (forall c, P c = true <-> Q c) -> forall k, rfind P l = Some k <-> k < length l /\ last_with Q l (length l - 1 - k).
Proof.
  intros PQ k. assert (NP : forall c, P c = false <-> ~ Q c). { intros c. rewrite <- PQ. destruct (P c); intuition congruence. }
  unfold rfind. rewrite find_pos_some. split.
  - intros (c & E & Pc & F). assert (L : k < length l). { rewrite <- rev_length. apply nth_error_Some. congruence. } split; auto. exists c.
    rewrite nth_rev in E by auto. split; auto. split; [apply PQ; auto|]. intros j c' Lj N0. assert (Lj' : j < length l) by (apply nth_error_Some; congruence).
    apply NP. apply (F (length l - 1 - j)); [lia|]. rewrite nth_rev by lia. rewrite <- N0. f_equal. lia.
  - intros (L & c & E & Qc & F). exists c. rewrite nth_rev by auto. split; auto. split; [apply PQ; auto|]. intros j c' Lj N0. apply NP.
    assert (Lj' : j < length l) by lia. rewrite nth_rev in N0 by auto. apply (F (length l - 1 - j) c'); auto. lia.
Qed.
Lemma rfind_none P (Q : column -> Prop) l : (forall c, P c = true <-> Q c) -> (rfind P l = None <-> none_with Q l).
Proof.
  intros PQ. unfold rfind, none_with. rewrite find_pos_none, !Forall_forall. split; intros H x I.
  - rewrite <- PQ. rewrite (H x) by (apply in_rev; rewrite rev_involutive; auto). discriminate.
  - apply in_rev in I. specialize (H x I). rewrite <- PQ in H. destruct (P x); congruence.
Qed.
Lemma last_bound P l i : last_with P l i -> i < length l.
Proof. intros (c & E & _). apply nth_error_Some. congruence. Qed.
Lemma last_some P l i : last_with P l i -> ~ none_with P l.
Proof. intros (c & E & Pc & _) N0. unfold none_with in N0. rewrite Forall_forall in N0. apply (N0 c); auto. eapply nth_error_In; eauto. Qed.
Lemma last_fun P l i j : last_with P l i -> last_with P l j -> i = j.
Proof.
  intros (c & E & Pc & F) (c' & E' & Pc' & F'). destruct (lt_eq_lt_dec i j) as [[L| ->]|L]; auto; exfalso; [eapply F|eapply F']; eauto.
Qed.
Lemma resolves_fun ss f g name r r' : resolves ss f g name r -> resolves ss f g name r' -> r = r'.
Proof.
  intros [(i & A & ->)|[(A & i & B & ->)|(A & B & ->)]] [(j & A' & ->)|[(A' & j & B' & ->)|(A' & B' & ->)]]; auto;
    try match goal with A : last_with ?P ?l _, B : last_with ?P ?l _ |- _ => rewrite (last_fun _ _ _ _ A B); reflexivity end;
    exfalso; match goal with A : last_with ?P ?l _, B : none_with ?P ?l |- _ => exact (last_some _ _ _ A B) end.
Qed.
Lemma index32_small z : (0 <= z < 2147483648)%Z -> index32 z = z.
Proof.
  intros H. unfold index32. rewrite (Z.mod_small z) by lia. change 2147483647%Z with (Z.ones 31). rewrite Z.land_ones by lia. apply Z.mod_small. lia.
Qed.
Lemma find_in_resolves ss emit q name : q_aggregate q && emit = false -> fits (q_fields q ++ q_generated q) -> resolves ss (q_fields q) (q_generated q) name (find_in ss emit q name).
Proof.
  intros A F. unfold find_in, fits in *. rewrite A. rewrite app_length in F. destruct (rfind (match_generated name) (q_generated q)) as [k|] eqn:E.
  - apply (rfind_some _ _ _ (match_generated_iff name)) in E as (L & W). left. exists (length (q_generated q) - 1 - k). split; auto. f_equal. unfold size. rewrite index32_small; lia.
  - apply (rfind_none _ _ _ (match_generated_iff name)) in E. right. destruct (rfind (match_input ss name) (q_fields q)) as [k|] eqn:E'.
    + apply (rfind_some _ _ _ (match_input_iff ss name)) in E' as (L & W). left. split; auto. exists (length (q_fields q) - 1 - k). split; auto. f_equal. unfold size. rewrite index32_small; lia.
    + apply (rfind_none _ _ _ (match_input_iff ss name)) in E'. auto.
Qed.
Lemma find_in_iff ss emit q name r : q_aggregate q && emit = false -> fits (q_fields q ++ q_generated q) -> (find_in ss emit q name = r <-> resolves ss (q_fields q) (q_generated q) name r).
Proof.
  intros A F. pose proof (find_in_resolves ss emit q name A F) as R. split; [intros <-; auto|]. intros R'. eapply resolves_fun; eauto.
Qed.
(** Emits of an aggregation: positions count from the generated columns. *)
Lemma find_in_aggregate ss q name : q_aggregate q = true -> fits (q_fields q ++ q_generated q) ->
  (forall i, last_with (named name) (q_generated q) i -> find_in ss true q name = Some (Z.of_nat i)) /\
  (none_with (named name) (q_generated q) -> none_with (called ss name) (q_fields q) -> find_in ss true q name = None).
Proof.
  intros A F. unfold find_in, fits in *. rewrite A. cbn [andb]. rewrite app_length in F. split.
  - intros i W. pose proof (last_bound _ _ _ W) as L. assert (E : rfind (match_generated name) (q_generated q) = Some (length (q_generated q) - 1 - i)).
    { apply (rfind_some _ _ _ (match_generated_iff name)). split; [lia|]. replace (length (q_generated q) - 1 - (length (q_generated q) - 1 - i)) with i by lia. auto. }
    rewrite E. f_equal. unfold size. rewrite index32_small; lia.
  - intros N1 N2. apply (rfind_none _ _ _ (match_generated_iff name)) in N1. apply (rfind_none _ _ _ (match_input_iff ss name)) in N2. rewrite N1, N2. auto.
Qed.
Lemma index32_neg k : (0 <= k < 2147483648)%Z -> index32 (0 - k - 1) = (2147483647 - k)%Z.
Proof.
  intros H. unfold index32. replace (0 - k - 1)%Z with ((2 ^ 64 - k - 1) + (-1) * 2 ^ 64)%Z by lia. rewrite Z.mod_add by lia. rewrite (Z.mod_small (2 ^ 64 - k - 1)) by lia.
  change 2147483647%Z with (Z.ones 31) at 1. rewrite Z.land_ones by lia. change (2 ^ 31)%Z with 2147483648%Z.
  replace (2 ^ 64 - k - 1)%Z with ((2147483647 - k) + 8589934591 * 2147483648)%Z by lia. rewrite Z.mod_add by lia. apply Z.mod_small. lia.
Qed.
Lemma find_in_aggregate_input ss q name i : q_aggregate q = true -> fits (q_fields q ++ q_generated q) -> none_with (named name) (q_generated q) -> last_with (called ss name) (q_fields q) i ->
  find_in ss true q name = Some (2147483647 - Z.of_nat (length (q_fields q) - 1 - i))%Z.
Proof.
  intros A F N0 W. unfold find_in, fits in *. rewrite A. cbn [andb]. rewrite app_length in F. apply (rfind_none _ _ _ (match_generated_iff name)) in N0. rewrite N0.
  pose proof (last_bound _ _ _ W) as L. assert (E : rfind (match_input ss name) (q_fields q) = Some (length (q_fields q) - 1 - i)).
  { apply (rfind_some _ _ _ (match_input_iff ss name)). split; [lia|]. replace (length (q_fields q) - 1 - (length (q_fields q) - 1 - i)) with i by lia. auto. }
  rewrite E. f_equal. apply index32_neg. lia.
Qed.

(** * Output mappings *)
Definition selects (cols : list column) (m : Z) (c : column) : Prop := (0 <= m)%Z /\ nth_error cols (Z.to_nat m) = Some c.
Definition absent (cols : list column) (m : Z) : Prop := (m < 0 \/ Z.of_nat (length cols) <= m)%Z.
(** The wanted columns in order, and the wanted numbers that do not exist in order. *)
Inductive mapped (cols : list column) : list Z -> list column -> list Z -> Prop :=
| mapped_nil : mapped cols [] [] []
| mapped_found m ms c cs e : selects cols m c -> mapped cols ms cs e -> mapped cols (m :: ms) (c :: cs) e
| mapped_absent m ms cs e : absent cols m -> mapped cols ms cs e -> mapped cols (m :: ms) cs (m :: e).
Definition int32 (m : Z) : Prop := (-2147483648 <= m < 2147483648)%Z.
Lemma index_range cols m : int32 m -> fits cols -> (m mod 2 ^ 64 <? size cols)%Z = true <-> (0 <= m < Z.of_nat (length cols))%Z.
Proof.
  unfold int32, fits, size. intros I F. rewrite Z.ltb_lt. destruct (Z.ltb_spec m 0).
  - change (2 ^ 64)%Z with 18446744073709551616%Z. assert (E : (m mod 18446744073709551616 = m + 18446744073709551616)%Z); [|lia].
    rewrite <- (Z.mod_add m 1) by lia. rewrite Z.mod_small; lia.
  - rewrite Z.mod_small by lia. lia.
Qed.
Lemma map_columns_iff cols : fits cols -> forall ms, Forall int32 ms -> forall out, exists cs e, map_columns cols ms out = (out ++ cs, e) /\ mapped cols ms cs e.
Proof.
  intros F. induction 1 as [|m ms I _ IH]; intros out; cbn [map_columns]; [exists [], []; rewrite app_nil_r; split; auto; constructor|].
  destruct (m mod 2 ^ 64 <? size cols)%Z eqn:E.
  - apply index_range in E; auto. unfold at_index. rewrite Z.mod_small by (unfold int32, fits in *; lia). destruct (nth_error cols (Z.to_nat m)) as [c|] eqn:Nc.
    + destruct (IH (out ++ [c])) as (cs & e & -> & M). exists (c :: cs), e. rewrite <- app_assoc. split; auto. constructor; auto. split; auto. lia.
    + apply nth_error_None in Nc. lia.
  - destruct (IH out) as (cs & e & -> & M). exists cs, (m :: e). split; auto. constructor; auto. unfold absent.
    assert (X : ~ (0 <= m < Z.of_nat (length cols))%Z) by (intros K; apply index_range in K; auto; congruence). lia.
Qed.
Lemma mapped_fun cols ms : forall cs e cs' e', mapped cols ms cs e -> mapped cols ms cs' e' -> cs = cs' /\ e = e'.
Proof.
  induction ms as [|m ms IH]; intros cs e cs' e' H H'; inversion H; subst; inversion H'; subst; auto.
  - match goal with A : selects _ _ ?c, B : selects _ _ ?d |- _ => assert (c = d) by (destruct A, B; congruence) end. subst. match goal with A : mapped _ _ _ _, B : mapped _ _ _ _ |- _ => destruct (IH _ _ _ _ A B) end. subst. auto.
  - exfalso. match goal with A : selects _ _ _, B : absent _ _ |- _ => destruct A as [G E], B end; [lia|]. assert (Z.to_nat m < length cols) by (apply nth_error_Some; congruence). lia.
  - exfalso. match goal with A : selects _ _ _, B : absent _ _ |- _ => destruct A as [G E], B end; [lia|]. assert (Z.to_nat m < length cols) by (apply nth_error_Some; congruence). lia.
  - match goal with A : mapped _ _ _ _, B : mapped _ _ _ _ |- _ => destruct (IH _ _ _ _ A B) end. subst. auto.
Qed.
Lemma apply_mapping fields generated output ms : ms <> [] -> Forall int32 ms -> fits (fields ++ generated) -> fits output ->
  (exists cs e, mapped (fields ++ generated) ms cs e /\ applyOutputMapping false fields generated output ms = (output ++ cs, e)) /\
  (exists cs e, mapped output ms cs e /\ applyOutputMapping true fields generated output ms = (cs, e)).
Proof.
  intros NE I F F'. destruct ms as [|m ms]; [congruence|]. split.
  - destruct (map_columns_iff _ F _ I output) as (cs & e & E & M). exists cs, e. auto.
  - destruct (map_columns_iff _ F' _ I []) as (cs & e & E & M). exists cs, e. auto.
Qed.
(** Nothing else is reported: every missing number once, in order, and if none is missing all are selected. *)
Lemma mapped_all cols ms cs : mapped cols ms cs [] <-> Forall2 (selects cols) ms cs.
Proof.
  split.
  - intros H. remember [] as e eqn:E. induction H; try discriminate; constructor; auto.
  - induction 1; constructor; auto.
Qed.
Lemma mapped_missing cols ms cs e m : mapped cols ms cs e -> (In m e <-> In m ms /\ absent cols m).
Proof.
  induction 1 as [|k ms c cs e S _ IH|k ms cs e A _ IH]; cbn; [tauto| |]; rewrite IH; [|intuition congruence].
  split; [intros []; auto|]. intros ([->|I] & B); auto. exfalso. destruct S as [G E], B; [lia|]. assert (Z.to_nat m < length cols) by (apply nth_error_Some; congruence). lia.
Qed.

(** * Outer queries *)
Section Chains.
  Variable t : list scope.
  (** The relation whose expression contains the query that the relation belongs to. *)
  Inductive enclosing : scope -> nat -> Prop :=
  | enclosing_own q p : q_parent q = Some p -> enclosing q p
  | enclosing_start q s q' p : q_parent q = None -> q_start q = Some s -> nth_error t s = Some q' -> enclosing q' p -> enclosing q p.
  Inductive outermost : scope -> Prop :=
  | outermost_first q : q_parent q = None -> q_start q = None -> outermost q
  | outermost_start q s q' : q_parent q = None -> q_start q = Some s -> nth_error t s = Some q' -> outermost q' -> outermost q.
  (** The enclosing queries from the inside out. *)
  Inductive chain : scope -> list scope -> Prop :=
  | chain_end q : outermost q -> chain q []
  | chain_next q p q' l : enclosing q p -> nth_error t p = Some q' -> chain q' l -> chain q (q' :: l).

  Lemma parent_start q : q_parent q = None -> forall f, getParentQueryLocation t f q = start_parent t f q.
  Proof. intros E f. unfold getParentQueryLocation. rewrite E. auto. Qed.
  Lemma parent_of q p : enclosing q p -> exists n, forall f, n <= f -> getParentQueryLocation t f q = Ok (Some p).
  Proof.
    induction 1 as [q p E|q s q' p E St N0 _ [n IH]].
    - exists 0. intros f _. unfold getParentQueryLocation. rewrite E. auto.
    - exists (S n). intros f L. rewrite parent_start by auto. destruct f as [|f]; [lia|]. cbn [start_parent]. rewrite St, N0.
      specialize (IH f ltac:(lia)). unfold getParentQueryLocation in IH. destruct (q_parent q'); auto.
  Qed.
  Lemma parent_none q : outermost q -> exists n, forall f, n <= f -> getParentQueryLocation t f q = Ok None.
  Proof.
    induction 1 as [q E St|q s q' E St N0 H [n IH]].
    - exists 0. intros f _. rewrite parent_start by auto. destruct f; cbn; rewrite St; auto.
    - exists (S n). intros f L. rewrite parent_start by auto. destruct f as [|f]; [lia|]. cbn [start_parent]. rewrite St, N0.
      specialize (IH f ltac:(lia)). unfold getParentQueryLocation in IH. destruct (q_parent q'); auto.
  Qed.
  Lemma find_here ss emit q name i : find_in ss emit q name = Some i -> forall f, findOuter t ss emit f q name = Ok (0%Z, i, false).
  Proof. intros H [|f]; cbn; rewrite H; auto. Qed.
  Lemma find_up ss emit q p q' name : find_in ss emit q name = None -> enclosing q p -> nth_error t p = Some q' -> exists n, forall f, n <= f ->
    findOuter t ss emit (S f) q name = (r <- findOuter t ss emit f q' name ;; let '(steps, i, e) := r in Ok ((steps + 1)%Z, i, e)).
  Proof.
    intros H E N0. destruct (parent_of _ _ E) as [n K]. exists n. intros f L. cbn [findOuter]. rewrite H, K by lia. cbn [obind]. rewrite N0. auto.
  Qed.
  (** The innermost query with the column. *)
  Lemma find_nearest ss emit name q l : chain q l -> forall k q' i, nth_error (q :: l) k = Some q' -> find_in ss emit q' name = Some i ->
    (forall j q'', j < k -> nth_error (q :: l) j = Some q'' -> find_in ss emit q'' name = None) ->
    exists n, forall f, n <= f -> findOuter t ss emit f q name = Ok (Z.of_nat k, i, false).
  Proof.
    induction 1 as [q O|q p q1 l E N0 C IH]; intros k q' i K H B.
    - destruct k as [|[|k]]; try discriminate. injection K as <-. exists 0. intros f _. apply find_here. auto.
    - destruct k as [|k]; [injection K as <-; exists 0; intros f _; apply find_here; auto|]. cbn in K.
      destruct (IH k q' i K H) as [n F]. { intros j q'' L N'. apply (B (S j)); auto. lia. }
      destruct (find_up ss emit q p q1 name) as [m G]; auto. { apply (B 0); auto. lia. }
      exists (S (Nat.max n m)). intros [|f] L; [lia|]. rewrite G, F by lia. cbn [obind]. repeat f_equal. lia.
  Qed.
  (** No query with the column. *)
  Lemma find_nowhere ss emit name q l : chain q l -> Forall (fun q => find_in ss emit q name = None) (q :: l) ->
    exists n, forall f, n <= f -> findOuter t ss emit f q name = Ok (Z.of_nat (length l), (-1)%Z, true).
  Proof.
    induction 1 as [q O|q p q1 l E N0 C IH]; intros F; inversion F as [|? ? H F']; subst.
    - destruct (parent_none _ O) as [n K]. exists n. intros f L. destruct f; cbn [findOuter]; rewrite H, K by lia; auto.
    - destruct (IH F') as [n G]. destruct (find_up ss emit q p q1 name) as [m U]; auto. exists (S (Nat.max n m)). intros [|f] L; [lia|].
      rewrite U, G by lia. cbn [obind length]. repeat f_equal. lia.
  Qed.
End Chains.

(** * Columns of a whole plan *)
Lemma set_nth_length i d l : length (set_nth i d l) = length l.
Proof. revert i. induction l as [|x l IH]; intros [|i]; cbn; auto. Qed.
Lemma set_nth_same i d l : i < length l -> nth i (set_nth i d l) no_data = d.
Proof. revert i. induction l as [|x l IH]; intros [|i] L; cbn in *; auto; try lia. apply IH. lia. Qed.
Lemma set_nth_other i j d l : i <> j -> nth j (set_nth i d l) no_data = nth j l no_data.
Proof. revert i j. induction l as [|x l IH]; intros [|i] [|j] N0; cbn; auto; try congruence. Qed.
Lemma visit_all_length ss nodes : forall i known ds, visit_all ss nodes i known = Ok ds -> length ds = length known.
Proof.
  induction nodes as [|n nodes IH]; cbn; intros i known ds H; [injection H as <-; auto|]. destruct (visitRelation ss known n); try discriminate. cbn in H. apply IH in H. rewrite set_nth_length in H. auto.
Qed.
Lemma visit_all_spec ss nodes : forall i known ds, visit_all ss nodes i known = Ok ds -> i + length nodes <= length known ->
  (forall j, j < i \/ i + length nodes <= j -> nth j ds no_data = nth j known no_data) /\
  (forall k n, nth_error nodes k = Some n -> exists before, visitRelation ss before n = Ok (nth (i + k) ds no_data) /\
     (forall j, j < i + k -> nth j before no_data = nth j ds no_data) /\ (forall j, i + k <= j -> nth j before no_data = nth j known no_data)).
Proof.
  induction nodes as [|n nodes IH]; cbn [visit_all length]; intros i known ds H L.
  - injection H as <-. split; auto. intros [|k] ? E; discriminate.
  - destruct (visitRelation ss known n) as [d| |] eqn:V; try discriminate. cbn [obind] in H. destruct (IH _ _ _ H) as [A B]; [rewrite set_nth_length; lia|]. split.
    + intros j J. rewrite A by lia. apply set_nth_other. lia.
    + intros [|k] n' E.
      * injection E as <-. exists known. rewrite Nat.add_0_r. split.
        { rewrite V. f_equal. rewrite A by lia. symmetry. apply set_nth_same. lia. }
        { split; auto. intros j J. rewrite A by lia. symmetry. apply set_nth_other. lia. }
      * destruct (B k n' E) as (before & V' & P & Q). exists before. replace (i + S k) with (S i + k) by lia. split; auto. split; auto.
        intros j J. rewrite Q by lia. apply set_nth_other. lia.
Qed.
Lemma nth_repeat_no j n : nth j (repeat no_data n) no_data = no_data.
Proof. revert j. induction n; intros [|j]; cbn; auto. Qed.
(** The data of relation [i] is computed from the final data of the relations above it in the text and from nothing of the ones below. *)
Lemma visitPlan_spec ss nodes ds : visitPlan ss nodes = Ok ds -> length ds = length nodes /\
  forall i n, nth_error nodes i = Some n -> exists before, visitRelation ss before n = Ok (nth i ds no_data) /\
    (forall j, j < i -> nth j before no_data = nth j ds no_data) /\ (forall j, i <= j -> nth j before no_data = no_data).
Proof.
  intros H. split; [apply visit_all_length in H; rewrite H; apply repeat_length|]. intros i n E.
  destruct (visit_all_spec _ _ _ _ _ H) as [_ B]; [rewrite repeat_length; cbn; lia|]. destruct (B i n E) as (before & V & P & Q). exists before. cbn in *.
  split; auto. split; auto. intros j J. rewrite Q by lia. apply nth_repeat_no.
Qed.

(** Parts of one relation. *)
Definition schema_columns (n : node) : list column := flat_map (fun d => match d with DSchema cols => cols | _ => [] end) (n_details n).
Lemma visit_details_output ss n fields l : forall g o x r g' o' x' r', visit_details ss n fields l g o x r = Ok (g', o', x', r') ->
  o' = o ++ flat_map (fun d => match d with DSchema cols => cols | _ => [] end) l.
Proof.
  induction l as [|d l IH]; cbn [visit_details flat_map]; intros g o x r g' o' x' r' H; [injection H as <- <- <- <-; rewrite app_nil_r; auto|].
  destruct d; cbn [app] in *; try (apply IH in H; auto; fail).
  - apply IH in H. rewrite H. rewrite app_assoc. auto.
  - destruct (_ =? -1)%Z; [apply IH in H; auto|]. destruct (nth_error fields _); [apply IH in H; auto|discriminate].
Qed.
(** What a relation exposes to the relations using it. *)
Definition exposes (n : node) (d : data) (cols : list column) : Prop :=
  let all := d_fields d ++ d_generated d in
  let basic := if n_aggregate n then schema_columns n ++ d_generated d else schema_columns n in
  match n_emit n with
  | [] => (basic <> [] /\ cols = basic) \/ (basic = [] /\ cols = all)
  | _ => exists chosen, mapped (if n_aggregate n then basic else all) (d_mapping d) chosen (d_missing d) /\
         let out := if n_aggregate n then chosen else basic ++ chosen in (out <> [] /\ cols = out) \/ (out = [] /\ cols = all)
  end.
Lemma exposed_if (d : data) (o : list column) : d_output d = o -> (o <> [] /\ exposed d = o) \/ (o = [] /\ exposed d = d_fields d ++ d_generated d).
Proof. intros <-. unfold exposed. destruct (d_output d); [right; auto|left; split; auto; discriminate]. Qed.
Lemma index32_range z : (0 <= index32 z < 2147483648)%Z.
Proof. unfold index32. change 2147483647%Z with (Z.ones 31). rewrite Z.land_ones by lia. apply Z.mod_pos_bound. lia. Qed.
Lemma found_int32 ss e q name : int32 (snd (findFieldReferenceByName ss e q name)).
Proof.
  unfold findFieldReferenceByName, find_in, int32. destruct (rfind _ _); [|destruct (rfind _ _)]; cbn; try lia; match goal with |- context [index32 ?z] => pose proof (index32_range z) end; lia.
Qed.
Lemma relation_parts ss before n d : visitRelation ss before n = Ok d ->
  d_fields d = input_fields before n /\
  d_mapping d = map (fun name => snd (findFieldReferenceByName ss true (scope_of n (d_fields d) (d_generated d)) name)) (n_emit n) /\
  (fits (d_fields d ++ d_generated d) -> fits (schema_columns n ++ d_generated d) -> exposes n d (exposed d)).
Proof.
  unfold visitRelation. destruct (visit_details _ _ _ _ _ _ _ _) as [[[[g o] x] r]| |] eqn:V; try discriminate. cbn [obind].
  pose proof (visit_details_output _ _ _ _ _ _ _ _ _ _ _ _ V) as O. cbn in O. subst o. fold (schema_columns n).
  set (g' := add_expressions (input_fields before n) x g). set (m := map _ (n_emit n)). set (out := if n_aggregate n then schema_columns n ++ g' else schema_columns n).
  destruct (applyOutputMapping (n_aggregate n) (input_fields before n) g' out m) as [o e] eqn:A. intros H. injection H as <-. cbn [d_fields d_generated d_mapping d_output d_missing].
  split; auto. split; auto. intros F F'. unfold exposes. cbn [d_fields d_generated d_mapping d_output d_missing]. fold out.
  assert (M0 : n_emit n = [] \/ (n_emit n <> [] /\ m <> [])) by (unfold m; destruct (n_emit n); [left|right]; auto; split; discriminate).
  destruct M0 as [E|[NE NM]].
  - rewrite E. assert (m = []) by (unfold m; rewrite E; auto). rewrite H in A. cbn in A. injection A as <- <-. subst m. apply exposed_if. auto.
  - assert (I : Forall int32 m). { unfold m. rewrite Forall_forall. intros z K. apply in_map_iff in K as (nm & <- & _). apply found_int32. }
    assert (Fo : fits out). { unfold out. destruct (n_aggregate n); auto. unfold fits in *. rewrite app_length in F'. lia. }
    destruct (apply_mapping (input_fields before n) g' out m NM I F Fo) as [(cs & er & M1 & E1) (cs2 & er2 & M2 & E2)].
    destruct (n_emit n) as [|nm nms] eqn:En; [congruence|]. destruct (n_aggregate n) eqn:Ag.
    + rewrite E2 in A. injection A as <- <-. exists cs2. split; auto. cbv zeta. apply exposed_if. auto.
    + rewrite E1 in A. injection A as <- <-. exists cs. split; auto. cbv zeta. apply exposed_if. auto.
Qed.
(** Projects: one column for each expression. *)
Definition project_detail (d : detail) : Prop := match d with DColumn _ _ | DExpression _ _ => True | _ => False end.
Definition expression_column (ss : schemas) (fields : list column) (d : detail) (c : column) : Prop :=
  match d with
  | DColumn name new => (exists i, last_with (called ss name) fields i /\ nth_error fields i = Some c) \/ (none_with (called ss name) fields /\ c = new)
  | DExpression _ new => c = new
  | _ => False
  end.
Lemma ref_empty ss n fields name : fits fields -> (exists i, last_with (called ss name) fields i /\ ref ss n fields [] name = Z.of_nat i) \/ (none_with (called ss name) fields /\ ref ss n fields [] name = (-1)%Z).
Proof.
  intros F. unfold ref, findFieldReferenceByName. assert (R : resolves ss fields [] name (find_in ss false (scope_of n fields []) name)).
  { apply (find_in_resolves ss false (scope_of n fields []) name); cbn; [apply andb_false_r|]. rewrite app_nil_r. auto. }
  destruct R as [(i & (c & E & _) & _)|[(_ & i & W & ->)|(_ & N0 & ->)]]; [destruct i; discriminate| |]; [left; eauto|right; auto].
Qed.
Lemma add_expressions_app fields x : forall g, add_expressions fields x g = g ++ add_expressions fields x [].
Proof.
  induction x as [|[i|c] x IH]; intros g; cbn [add_expressions]; [rewrite app_nil_r; auto| |].
  - destruct (nth_error fields (Z.to_nat i)) as [c|]; [|apply IH]. rewrite (IH (g ++ [c])), (IH ([] ++ [c])). rewrite <- app_assoc. auto.
  - rewrite (IH (g ++ [c])), (IH ([] ++ [c])). rewrite <- app_assoc. auto.
Qed.
Lemma project_details ss n fields l : fits fields -> Forall project_detail l -> forall o x r, exists x' r', visit_details ss n fields l [] o x r = Ok ([], o, x ++ x', r') /\
  Forall2 (expression_column ss fields) l (add_expressions fields x' []).
Proof.
  intros F. induction 1 as [|d l P _ IH]; intros o x r; cbn [visit_details]; [exists [], r; rewrite app_nil_r; split; auto; constructor|].
  destruct d; try contradiction.
  - set (i := ref ss n fields [] name). set (t := if (i =? -1)%Z then TNew new else TColumn i). destruct (IH o (x ++ [t]) (r ++ [i])) as (x' & r' & E & G).
    exists (t :: x'), r'. rewrite <- app_assoc in E. split; auto. unfold t in *. clear E. cbn [add_expressions].
    destruct (ref_empty ss n fields name F) as [(k & W & R)|(N0 & R)]; fold i in R.
    + destruct (i =? -1)%Z eqn:Ei; [lia|]. cbn [add_expressions]. rewrite R, Nat2Z.id. destruct W as (c & Ek & Wc). rewrite Ek. rewrite add_expressions_app. constructor; auto.
      cbn. left. exists k. split; auto. exists c. auto.
    + rewrite R. cbn. rewrite add_expressions_app. constructor; auto. cbn. auto.
  - destruct (IH o (x ++ [TNew new]) (r ++ map (ref ss n fields []) names)) as (x' & r' & E & G). exists (TNew new :: x'), r'. rewrite <- app_assoc in E. split; auto.
    cbn [add_expressions]. rewrite add_expressions_app. constructor; auto. cbn. auto.
Qed.
Lemma project_columns ss before n d : visitRelation ss before n = Ok d -> fits (d_fields d) -> Forall project_detail (n_details n) -> Forall2 (expression_column ss (d_fields d)) (n_details n) (d_generated d).
Proof.
  unfold visitRelation. intros H F P. assert (Ef : d_fields d = input_fields before n) by (apply relation_parts in H; tauto). rewrite Ef in *.
  destruct (project_details ss n (input_fields before n) (n_details n) F P [] [] []) as (x & r & E & G). rewrite E in H. cbn [obind] in H.
  cbn [app] in H. destruct (applyOutputMapping _ _ _ _ _). injection H as <-. cbn [d_generated]. auto.
Qed.

(** * Printed names *)
(** The column of the text plan that stands for a column of the converted plan: an alias becomes its name, otherwise the name is kept and
    the schema is the one with the same name. *)
Definition stands_for (ss : schemas) (c p : column) : Prop :=
  c_id p = c_id c /\ c_alias p = [] /\
  if nonempty (c_alias c) then c_name p = c_alias c /\ (forall s, ~ in_schema ss p s)
  else c_name p = c_name c /\ match c_schema c with Some s => in_schema ss p s | None => forall s, ~ in_schema ss p s end.
Lemma printed_called ss c p : stands_for ss c p -> called ss (column_text c) p.
Proof.
  intros (_ & A & H). unfold column_text. destruct (nonempty (c_alias c)) eqn:E.
  - destruct H as [H _]. left. right. auto.
  - destruct H as [H K]. destruct (c_schema c) as [s|]; [|left; right; auto]. right. exists s. rewrite H. auto.
Qed.
Definition unambiguous (ss : schemas) (fields generated : list column) (text : str) (id : nat) : Prop :=
  Forall (fun p => called ss text p -> c_id p = id) fields /\ Forall (fun p => named text p -> c_id p = id) generated.
Lemma forall2_nth {A B} (R : A -> B -> Prop) l l' i x : Forall2 R l l' -> nth_error l i = Some x -> exists y, nth_error l' i = Some y /\ R x y.
Proof. intros H. revert i. induction H as [|a b l l' r _ IH]; intros [|i] E; try discriminate; cbn in *; [injection E as <-; eauto|eauto]. Qed.
Lemma printed_resolves ss agg fields generated fields' generated' i c q :
  Forall2 (stands_for ss) fields fields' -> Forall2 (stands_for ss) generated generated' -> fits (fields' ++ generated') ->
  q_fields q = fields' -> q_generated q = generated' -> q_aggregate q = agg ->
  nth_error (fields ++ generated) i = Some c ->
  i < length fields \/ In c fields \/ c_alias c <> [] \/ c_schema c = None ->
  unambiguous ss fields' generated' (column_text c) (c_id c) ->
  exists j p, findFieldReferenceByName ss false q (column_text c) = (0%Z, Z.of_nat j) /\ nth_error (fields' ++ generated') j = Some p /\ c_id p = c_id c.
Proof.
  intros F G Fi <- <- <- E K [U V]. unfold findFieldReferenceByName.
  assert (R : resolves ss (q_fields q) (q_generated q) (column_text c) (find_in ss false q (column_text c))) by (apply find_in_resolves; [apply andb_false_r|auto]).
  rewrite Forall_forall in U, V. destruct R as [(k & (p & Np & Pp & _) & ->)|[(_ & k & (p & Np & Pp & _) & ->)|(NG & NF & _)]].
  - exists (length (q_fields q) + k), p. split; auto. rewrite nth_error_app2 by lia. replace (_ + k - _) with k by lia. split; auto. apply V; auto. eapply nth_error_In; eauto.
  - exists k, p. split; auto. split; [rewrite nth_error_app1; auto; apply nth_error_Some; congruence|]. apply U; auto. eapply nth_error_In; eauto.
  - exfalso. unfold none_with in *. rewrite Forall_forall in NG, NF.
    assert (W : In c fields \/ (exists k, nth_error generated k = Some c) /\ (c_alias c <> [] \/ c_schema c = None)).
    { destruct (Nat.lt_ge_cases i (length fields)) as [L|L].
      - rewrite nth_error_app1 in E by auto. left. eapply nth_error_In; eauto.
      - rewrite nth_error_app2 in E by auto. destruct K as [K|[K|K]]; [lia|auto|right; eauto]. }
    destruct W as [I|[(k & Ek) X]].
    + apply In_nth_error in I as (k & Ek). destruct (forall2_nth _ _ _ _ _ F Ek) as (p & Ep & S). apply (NF p); [eapply nth_error_In; eauto|]. apply printed_called. auto.
    + destruct (forall2_nth _ _ _ _ _ G Ek) as (p & Ep & S). apply (NG p); [eapply nth_error_In; eauto|]. destruct S as (_ & A & S). unfold column_text. destruct (nonempty (c_alias c)) eqn:Ec.
      * right. tauto.
      * destruct X as [X|X]; [destruct (c_alias c); [congruence|discriminate]|]. rewrite X. right. tauto.
Qed.
(** Emits of an aggregation: a column printed with its schema is not found again. *)
Lemma aggregate_emit_lost ss q s c output : q_aggregate q = true -> fits (q_fields q ++ q_generated q) -> c_alias c = [] -> c_schema c = Some s ->
  none_with (named (s ++ $"." ++ c_name c)) (q_generated q) -> (Z.of_nat (length output) + Z.of_nat (length (q_fields q)) < 2147483648)%Z ->
  exists m, findFieldReferenceByName ss true q (column_text c) = (0%Z, m) /\ absent output m.
Proof.
  intros A F Al Sc N0 L. unfold findFieldReferenceByName, column_text. rewrite Al, Sc. cbn [nonempty]. set (name := s ++ $"." ++ c_name c) in *.
  destruct (rfind (match_input ss name) (q_fields q)) as [k|] eqn:E.
  - pose proof E as E0. apply (rfind_some _ _ _ (match_input_iff ss name)) in E as (Lk & W). rewrite (find_in_aggregate_input ss q name _ A F N0 W). eexists. split; eauto.
    right. lia.
  - apply (rfind_none _ _ _ (match_input_iff ss name)) in E. rewrite (proj2 (find_in_aggregate ss q name A F) N0 E). exists (-1)%Z. split; auto. left. lia.
Qed.

(** * Names inside an aggregation *)
Definition aggregate_detail (d : detail) : Prop := match d with DGroupColumn _ | DGroupExpression _ | DMeasure _ _ => True | _ => False end.
Definition detail_names (d : detail) : list str :=
  match d with DSchema _ => [] | DColumn n _ | DGroupColumn n => [n] | DExpression ns _ | DGroupExpression ns | DMeasure ns _ | DUse ns => ns end.
(** The number of the last input column with the name, or -1. *)
Definition input_number (ss : schemas) (fields : list column) (name : str) (r : Z) : Prop :=
  (exists i, last_with (called ss name) fields i /\ r = Z.of_nat i) \/ (none_with (called ss name) fields /\ r = (-1)%Z).
Lemma ref_input ss n fields g name : fits (fields ++ g) -> none_with (named name) g -> input_number ss fields name (ref ss n fields g name).
Proof.
  intros F N0. unfold ref, findFieldReferenceByName. assert (R : resolves ss fields g name (find_in ss false (scope_of n fields g) name)).
  { apply (find_in_resolves ss false (scope_of n fields g) name); cbn; [apply andb_false_r|]. auto. }
  destruct R as [(i & W & _)|[(_ & i & W & ->)|(_ & X & ->)]]; [destruct (last_some _ _ _ W N0)|left; eauto|right; auto].
Qed.
Lemma refs_input ss n fields g names : fits (fields ++ g) -> Forall (fun name => none_with (named name) g) names -> Forall2 (input_number ss fields) names (map (ref ss n fields g) names).
Proof. intros F. induction 1; cbn; constructor; auto. apply ref_input; auto. Qed.
(** Columns an aggregation adds, one for each grouping column and named measure. *)
Definition aggregate_columns (ss : schemas) (fields : list column) (d : detail) (cols : list column) : Prop :=
  match d with
  | DGroupColumn name => (exists i c, last_with (called ss name) fields i /\ nth_error fields i = Some c /\ cols = [c]) \/ (none_with (called ss name) fields /\ cols = [])
  | DMeasure _ (Some c) => cols = [c]
  | _ => cols = []
  end.
(** No name used by a grouping or measure is the plain name or alias of a column that an earlier one of them has added ([g]). *)
Inductive unshadowed (ss : schemas) (fields : list column) : list column -> list detail -> Prop :=
| unshadowed_nil g : unshadowed ss fields g []
| unshadowed_cons g d cols l : Forall (fun name => none_with (named name) g) (detail_names d) -> aggregate_columns ss fields d cols ->
    unshadowed ss fields (g ++ cols) l -> unshadowed ss fields g (d :: l).
Lemma aggregate_columns_le ss fields d cols : aggregate_columns ss fields d cols -> length cols <= 1.
Proof. destruct d; cbn; try (intros ->; cbn; lia). - intros [(i & c & _ & _ & ->)|(_ & ->)]; cbn; lia. - destruct new; intros ->; cbn; lia. Qed.
Lemma aggregate_details ss n fields l : Forall aggregate_detail l -> forall g, unshadowed ss fields g l -> (Z.of_nat (length fields + length g + length l) < 2147483648)%Z ->
  forall o x r, exists parts refs, visit_details ss n fields l g o x r = Ok (g ++ concat parts, o, x, r ++ refs) /\
  Forall2 (aggregate_columns ss fields) l parts /\ Forall2 (input_number ss fields) (flat_map detail_names l) refs.
Proof.
  induction 1 as [|d l P _ IH]; intros g U B o x r; cbn [visit_details flat_map].
  - exists [], []. cbn. rewrite !app_nil_r. auto.
  - inversion U as [|? ? cols ? Nn Ac U']; subst. cbn [length] in B. pose proof (aggregate_columns_le _ _ _ _ Ac) as Le.
    assert (F : fits (fields ++ g)) by (unfold fits; rewrite app_length; lia).
    assert (Step : forall rs, Forall2 (input_number ss fields) (detail_names d) rs ->
      exists parts refs, visit_details ss n fields l (g ++ cols) o x (r ++ rs) = Ok (g ++ concat parts, o, x, r ++ refs) /\
      Forall2 (aggregate_columns ss fields) (d :: l) parts /\ Forall2 (input_number ss fields) (detail_names d ++ flat_map detail_names l) refs).
    { intros rs R. destruct (IH (g ++ cols) U' ltac:(rewrite app_length; lia) o x (r ++ rs)) as (parts & refs & E & Fp & Fr).
      exists (cols :: parts), (rs ++ refs). rewrite <- !app_assoc in E. cbn [concat]. split; [rewrite <- ?app_assoc; auto|]. split; [constructor; auto|]. apply Forall2_app; auto. }
    assert (R : Forall2 (input_number ss fields) (detail_names d) (map (ref ss n fields g) (detail_names d))) by (apply refs_input; auto).
    specialize (Step _ R). destruct d; try contradiction; cbn [detail_names map aggregate_columns] in *.
    + inversion R as [|? ? ? ? Rn _]; subst. destruct Ac as [(i & c & W & E & ->)|(N0 & ->)]; destruct Rn as [(j & W' & Ej)|(N' & Ej)];
        try match goal with A : last_with ?Q ?fs _, B : none_with ?Q ?fs |- _ => destruct (last_some _ _ _ A B) end; rewrite Ej in *.
      * destruct (Z.of_nat j =? -1)%Z eqn:X; [lia|]. rewrite (last_fun _ _ _ _ W' W), Nat2Z.id, E. rewrite (last_fun _ _ _ _ W' W) in Step. auto.
      * cbn. rewrite app_nil_r in Step. auto.
    + subst cols. rewrite app_nil_r in Step. auto.
    + destruct new; subst cols; [|rewrite app_nil_r in Step]; auto.
Qed.
Lemma aggregate_names ss before n : Forall aggregate_detail (n_details n) -> unshadowed ss (input_fields before n) [] (n_details n) ->
  (Z.of_nat (length (input_fields before n) + length (n_details n)) < 2147483648)%Z ->
  exists d parts, visitRelation ss before n = Ok d /\ Forall2 (aggregate_columns ss (d_fields d)) (n_details n) parts /\ d_generated d = concat parts /\
  Forall2 (input_number ss (d_fields d)) (flat_map detail_names (n_details n)) (d_refs d).
Proof.
  intros P U B. unfold visitRelation. destruct (aggregate_details ss n _ _ P [] U ltac:(cbn; lia) [] [] []) as (parts & refs & E & Fp & Fr). rewrite E. cbn [obind app add_expressions].
  destruct (applyOutputMapping _ _ _ _ _). eexists _, parts. split; [reflexivity|]. cbn. auto.
Qed.
(** The same column as a grouping twice by its plain name. *)
Lemma grouping_twice ss before n name i c rest : n_details n = DGroupColumn name :: DGroupColumn name :: rest -> fits (input_fields before n ++ [c]) ->
  last_with (called ss name) (input_fields before n) i -> nth_error (input_fields before n) i = Some c -> named name c -> visitRelation ss before n = UB.
Proof.
  intros D F W E Nm. unfold visitRelation. rewrite D. cbn [visit_details]. set (fields := input_fields before n) in *.
  assert (R1 : ref ss n fields [] name = Z.of_nat i).
  { destruct (ref_input ss n fields [] name) as [(j & Wj & ->)|(N0 & _)]; auto; [rewrite app_nil_r; unfold fits in *; rewrite app_length in F; lia|constructor|rewrite (last_fun _ _ _ _ W Wj); auto|destruct (last_some _ _ _ W N0)]. }
  rewrite R1. destruct (Z.of_nat i =? -1)%Z eqn:X; [lia|]. rewrite Nat2Z.id, E. cbn [app].
  assert (R2 : ref ss n fields [c] name = Z.of_nat (length fields)).
  { unfold ref, findFieldReferenceByName. assert (R : find_in ss false (scope_of n fields [c]) name = Some (Z.of_nat (length fields + 0))).
    { apply find_in_iff; cbn; [apply andb_false_r|auto|]. left. exists 0. split; auto. exists c. split; auto. split; auto. intros [|j] c' L; [lia|]. destruct j; discriminate. }
    rewrite R. cbn [snd]. f_equal. lia. }
  rewrite R2. destruct (Z.of_nat (length fields) =? -1)%Z eqn:Y; [lia|]. rewrite Nat2Z.id. assert (Z0 : nth_error fields (length fields) = None) by (apply nth_error_None; lia). rewrite Z0. reflexivity.
Qed.

(** * Columns in the converter *)
(** The columns of a relation according to the Substrait specification. *)
Definition emits (cols : list column) (emit : option (list Z)) (out : list column) : Prop :=
  match emit with None => out = cols | Some ms => Forall2 (selects cols) ms out end.
Definition value (fields : list column) (e : gexpr) (c : column) : Prop := match e with GColumn i => selects fields i c | GOther new => c = new end.
Inductive produces : crel -> list column -> Prop :=
| produces_read cols emit out : emits cols emit out -> produces (CRead cols emit) out
| produces_same input cols emit out : produces input cols -> emits cols emit out -> produces (CSame input emit) out
| produces_aggregate input cols keys values measures emit out : produces input cols -> Forall2 (value cols) keys values ->
    emits (values ++ measures) emit out -> produces (CAggregate input [keys] measures emit) out
| produces_join l r lcols rcols emit out : produces l lcols -> produces r rcols -> emits (lcols ++ rcols) emit out -> produces (CJoin false l r emit) out
| produces_semijoin l r lcols rcols emit out : produces l lcols -> produces r rcols -> emits lcols emit out -> produces (CJoin true l r emit) out
| produces_project input cols exprs values emit out : produces input cols -> Forall2 (value cols) exprs values -> emits (cols ++ values) emit out -> produces (CProject input exprs emit) out
| produces_set first others cols emit out : produces first cols -> Forall (fun r => exists rcols, produces r rcols /\ length rcols = length cols) others ->
    emits cols emit out -> produces (CSet first others emit) out
| produces_window input cols functions emit out : produces input cols -> emits (cols ++ functions) emit out -> produces (CWindow input functions emit) out.
(** What the converter gets right: no emit without columns, grouping by columns only and with at least one column or measure, no semi
    or anti joins, no set operations, no window relations. *)
Definition emit_ok (emit : option (list Z)) : Prop := match emit with None => True | Some ms => ms <> [] /\ Forall int32 ms end.
Definition expr_ok (e : gexpr) : Prop := match e with GColumn i => int32 i | GOther _ => True end.
Definition key_ok (e : gexpr) : Prop := match e with GColumn i => int32 i | GOther _ => False end.
Fixpoint supported (r : crel) : Prop :=
  match r with
  | CRead _ emit => emit_ok emit
  | CSame input emit => supported input /\ emit_ok emit
  | CAggregate input groupings measures emit => supported input /\ Forall key_ok (concat groupings) /\ (concat groupings <> [] \/ measures <> []) /\ emit_ok emit
  | CJoin left_only l r emit => left_only = false /\ supported l /\ supported r /\ emit_ok emit
  | CProject input exprs emit => supported input /\ Forall expr_ok exprs /\ emit_ok emit
  | CSet _ _ _ | CWindow _ _ _ => False
  end.
Lemma select_number cols m c : int32 m -> selects cols m c -> (m mod 2 ^ 64 <? size cols)%Z = true /\ at_index cols m = Some c.
Proof.
  intros I [G E]. assert (Z.to_nat m < length cols) by (apply nth_error_Some; congruence). unfold at_index, int32, size in *. rewrite Z.mod_small by (change (2 ^ 64)%Z with 18446744073709551616%Z; lia).
  split; auto. lia.
Qed.
Lemma map_columns_all cols ms out : Forall int32 ms -> Forall2 (selects cols) ms out -> forall o, map_columns cols ms o = (o ++ out, []).
Proof.
  intros I F. induction F as [|m c ms out S _ IH]; intros o; cbn [map_columns]; [rewrite app_nil_r; auto|]. inversion I; subst.
  destruct (select_number cols m c) as [-> ->]; auto. rewrite IH by auto. rewrite <- app_assoc. auto.
Qed.
Lemma convert_emit_plain fields generated emit out : emit_ok emit -> emits (fields ++ generated) emit out ->
  exposed (convert_emit false fields generated [] emit) = out /\ d_missing (convert_emit false fields generated [] emit) = [].
Proof.
  unfold convert_emit. destruct emit as [[|m ms]|]; cbn [emits emit_ok]; [tauto| |].
  - intros [_ I] F. rewrite (map_columns_all _ _ _ I F). cbn. inversion F; subst. auto.
  - intros _ ->. cbn. auto.
Qed.
Lemma convert_emit_aggregate fields generated emit out : generated <> [] -> emit_ok emit -> emits generated emit out ->
  exposed (convert_emit true fields generated generated emit) = out /\ d_missing (convert_emit true fields generated generated emit) = [].
Proof.
  unfold convert_emit. intros NE. destruct emit as [[|m ms]|]; cbn [emits emit_ok]; [tauto| |].
  - intros [_ I] F. rewrite (map_columns_all _ _ _ I F). cbn. inversion F; subst. auto.
  - intros _ ->. cbn. destruct generated; [congruence|auto].
Qed.
Lemma convert_exprs_all fields es cs : Forall expr_ok es -> Forall2 (value fields) es cs -> convert_exprs fields es = (cs, []).
Proof.
  intros I F. induction F as [|e c es cs V _ IH]; cbn [convert_exprs]; auto. inversion I; subst. rewrite IH by auto. destruct e; cbn in *; [|subst; auto].
  destruct (select_number fields i c) as [-> ->]; auto.
Qed.
Lemma convert_groupings_all fields es cs : Forall key_ok es -> Forall2 (value fields) es cs -> convert_groupings fields es = (cs, []).
Proof.
  intros I F. induction F as [|e c es cs V _ IH]; cbn [convert_groupings]; auto. inversion I; subst. rewrite IH by auto. destruct e; cbn in *; [|tauto].
  destruct (select_number fields i c) as [-> ->]; auto.
Qed.
Lemma convert_columns r cols : produces r cols -> supported r -> exposed (convert r) = cols /\ d_missing (convert r) = [].
Proof.
  induction 1; cbn [supported convert]; intros Su.
  - apply convert_emit_plain; auto. rewrite app_nil_r. auto.
  - destruct Su as [A B]. destruct (IHproduces A) as [-> _]. apply convert_emit_plain; auto. rewrite app_nil_r. auto.
  - destruct Su as (A & B & C & D). destruct (IHproduces A) as [-> _]. cbn [concat] in *. rewrite app_nil_r in *. erewrite convert_groupings_all by eauto.
    unfold also. cbn [exposed d_output d_fields d_generated d_missing app]. destruct (convert_emit_aggregate cols (values ++ measures) emit out) as [E1 E2]; auto.
    { intros X. apply app_eq_nil in X as [-> ->]. destruct C; auto. inversion H0; subst; auto. }
  - destruct Su as (_ & A & B & C). destruct (IHproduces1 A) as [-> _]. destruct (IHproduces2 B) as [-> _]. apply convert_emit_plain; auto. rewrite app_nil_r. auto.
  - destruct Su. discriminate.
  - destruct Su as (A & B & C). destruct (IHproduces A) as [-> _]. erewrite convert_exprs_all by eauto. unfold also. cbn [app].
    destruct (convert_emit_plain cols values emit out) as [E1 E2]; auto.
  - contradiction.
  - contradiction.
Qed.
(** Column numbers are 32 bits wide; the numbers among [keys] that are no column of [cols]. *)
Definition key_number (k : gexpr) : Prop := match k with GColumn i => int32 i | GOther _ => True end.
Definition missing_numbers (cols : list column) (keys : list gexpr) : list Z :=
  flat_map (fun k => match k with GColumn i => if ((i <? 0) || (Z.of_nat (length cols) <=? i))%Z then [i] else [] | GOther _ => [] end) keys.
Lemma key_missing cols i : int32 i -> fits cols -> (i mod 2 ^ 64 <? size cols)%Z = negb ((i <? 0) || (Z.of_nat (length cols) <=? i))%Z.
Proof.
  intros I F. pose proof (index_range cols i I F) as R. destruct (i mod 2 ^ 64 <? size cols)%Z; destruct ((i <? 0) || _)%Z eqn:E; auto.
  - apply orb_prop in E. destruct R as [R _]. specialize (R eq_refl). lia.
  - apply orb_false_iff in E. destruct R as [_ R]. assert (false = true) by (apply R; lia). discriminate.
Qed.
Lemma missing_reported input keys measures : Forall key_number keys -> fits (exposed (convert input)) ->
  d_missing (convert (CAggregate input [keys] measures None)) = missing_numbers (exposed (convert input)) keys /\
  d_missing (convert (CProject input keys None)) = missing_numbers (exposed (convert input)) keys.
Proof.
  intros K F. cbn [convert concat]. rewrite app_nil_r. set (cols := exposed (convert input)) in *. clearbody cols.
  assert (A : snd (convert_groupings cols keys) = missing_numbers cols keys).
  { induction K as [|k keys Hk _ IH]; auto. cbn [convert_groupings missing_numbers flat_map]. fold (missing_numbers cols keys). rewrite <- IH. destruct k as [i|c]; auto.
    rewrite key_missing by auto. destruct (convert_groupings cols keys) as [cs e]. destruct ((i <? 0) || _)%Z; reflexivity. }
  assert (B : snd (convert_exprs cols keys) = missing_numbers cols keys).
  { clear A. induction K as [|k keys Hk _ IH]; auto. cbn [convert_exprs missing_numbers flat_map]. fold (missing_numbers cols keys). rewrite <- IH.
    destruct k as [i|c]; [rewrite key_missing by auto|]; destruct (convert_exprs cols keys) as [cs e]; auto. destruct ((i <? 0) || _)%Z; reflexivity. }
  destruct (convert_groupings cols keys) as [gs e]. destruct (convert_exprs cols keys) as [cs e']. cbn [snd] in *. subst. unfold also, convert_emit. cbn. rewrite !app_nil_r. auto.
Qed.
(** The columns that expressions of a relation refer to are those of its inputs. *)
Definition inputs_of (r : crel) : list crel :=
  match r with CRead _ _ => [] | CSame i _ | CAggregate i _ _ _ | CProject i _ _ | CWindow i _ _ => [i] | CJoin _ l r _ => [l; r] | CSet f o _ => f :: o end.
Lemma convert_emit_fields a f g o e : d_fields (convert_emit a f g o e) = f.
Proof. unfold convert_emit. destruct (match e with None => _ | _ => _ end). auto. Qed.
Lemma convert_fields r : (forall cols e, r <> CRead cols e) -> d_fields (convert r) = flat_map (fun i => exposed (convert i)) (inputs_of r).
Proof.
  intros NR. destruct r; cbn [convert inputs_of flat_map]; try (rewrite convert_emit_fields, ?app_nil_r; auto; fail).
  - destruct (NR cols emit eq_refl).
  - destruct (convert_groupings _ _). cbn. rewrite convert_emit_fields, app_nil_r. auto.
  - destruct (convert_exprs _ _). cbn. rewrite convert_emit_fields, app_nil_r. auto.
Qed.
