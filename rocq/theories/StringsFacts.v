From Verif Require Import Base BaseFacts StringsModel.
From Coq Require Import Lia ZifyBool ZifyNat ZifyN.

(** * Specifications *)

(** The six whitespace characters, by code point. *)
Definition ws (c : ascii) : Prop := In (code c) [9; 10; 11; 12; 13; 32]%N.

(** [t] is [s] without its longest whitespace prefix and suffix. *)
Definition trimmed (s t : str) : Prop :=
  exists a b, s = a ++ t ++ b /\ Forall ws a /\ Forall ws b /\
    (forall c r, t = c :: r -> ~ ws c) /\ (forall c r, t = r ++ [c] -> ~ ws c).

(** Numeral grammars. *)
Definition digit (c : ascii) : Prop := In c $"0123456789".
Inductive Numeral : str -> Prop :=
| Num1 c : digit c -> Numeral [c]
| NumS c r : digit c -> Numeral r -> Numeral (c :: r).

(** * Proofs *)

Definition wsb (c : ascii) : bool := existsb (ceq c) kWhitespace.

Lemma wsb_ws c : wsb c = true <-> ws c.
Proof.
  destruct c as [[] [] [] [] [] [] [] []]; cbv; split; intros H; try discriminate; try tauto;
    repeat (destruct H as [H|H]; try discriminate H); try contradiction.
Qed.
Lemma wsb_false c : wsb c = false <-> ~ ws c.
Proof. rewrite <- wsb_ws. destruct (wsb c); split; congruence. Qed.

Lemma ltrim_cons c s : ltrim (c :: s) = if wsb c then ltrim s else c :: s.
Proof.
  unfold ltrim, wsb. cbn [find_first_not_of]. destruct (existsb (ceq c) kWhitespace).
  - destruct (find_first_not_of kWhitespace s); reflexivity.
  - reflexivity.
Qed.
Lemma ltrim_spec s : exists a, s = a ++ ltrim s /\ Forall ws a /\
  (forall c r, ltrim s = c :: r -> ~ ws c).
Proof.
  induction s as [|c s (a & E & Ha & Hf)].
  - exists []. split; [reflexivity|]. split; [constructor|]. intros c r H. discriminate.
  - rewrite ltrim_cons. destruct (wsb c) eqn:W.
    + exists (c :: a). simpl. rewrite <- E. split; [reflexivity|]. split; [|exact Hf].
      constructor; [now apply wsb_ws|exact Ha].
    + exists []. split; [reflexivity|]. split; [constructor|].
      intros c' r H. injection H as <- <-. now apply wsb_false.
Qed.
Lemma rtrim_cons c s : rtrim (c :: s) = match rtrim s with [] => if wsb c then [] else [c] | t => c :: t end.
Proof.
  unfold rtrim, wsb. cbn [find_last_not_of].
  destruct (find_last_not_of kWhitespace s) as [i|] eqn:E.
  - unfold substr. simpl. destruct s as [|d s]; [discriminate|].
    rewrite Nat.add_comm. simpl. reflexivity.
  - destruct (existsb (ceq c) kWhitespace); reflexivity.
Qed.
Lemma app_last_inv (t : str) c r d u : c :: t = r ++ [d] -> t = u -> u <> [] -> exists r', t = r' ++ [d].
Proof.
  intros H <- Hn. destruct r as [|x r]; simpl in H.
  - injection H as -> ->. congruence.
  - injection H as -> ->. exists r. reflexivity.
Qed.
Lemma rtrim_spec s : exists b, s = rtrim s ++ b /\ Forall ws b /\
  (forall c r, rtrim s = r ++ [c] -> ~ ws c).
Proof.
  induction s as [|c s (b & E & Hb & Hf)].
  - exists []. split; [reflexivity|]. split; [constructor|]. intros c r H. destruct r; discriminate.
  - rewrite rtrim_cons. destruct (rtrim s) as [|x t] eqn:R.
    + destruct (wsb c) eqn:W.
      * exists (c :: b). simpl in *. subst b. split; [reflexivity|]. split.
        -- constructor; [now apply wsb_ws|exact Hb].
        -- intros d r H. destruct r; discriminate.
      * exists b. simpl in *. subst b. split; [reflexivity|]. split; [exact Hb|].
        intros d r H. destruct r as [|y r]; simpl in H.
        -- injection H as ->. now apply wsb_false.
        -- destruct r; discriminate.
    + exists b. simpl in *. split; [congruence|]. split; [exact Hb|].
      intros d r H. destruct (app_last_inv _ _ _ _ _ H eq_refl) as [r' Hr']; [discriminate|].
      eapply Hf. exact Hr'.
Qed.

Lemma ltrim_rtrim_front s c r : rtrim s = c :: r -> (forall d q, s = d :: q -> ~ ws d) -> ~ ws c.
Proof.
  intros H Hs. destruct (rtrim_spec s) as (b & E & _). rewrite H in E. eapply Hs. exact E.
Qed.

Lemma trim_trimmed s : trimmed s (trim s).
Proof.
  unfold trim. destruct (ltrim_spec s) as (a & Ea & Ha & Hf).
  destruct (rtrim_spec (ltrim s)) as (b & Eb & Hb & Hl).
  exists a, b. rewrite <- Eb. split; [exact Ea|]. repeat split; auto.
  intros c r H. eapply ltrim_rtrim_front; eauto.
Qed.

Lemma ltrim_ws_app a s : Forall ws a -> ltrim (a ++ s) = ltrim s.
Proof.
  induction a as [|c a IH]; intros H; [reflexivity|].
  inversion H as [|? ? H1 H2]; subst. simpl. rewrite ltrim_cons.
  apply wsb_ws in H1. rewrite H1. auto.
Qed.
Lemma rtrim_ws b : Forall ws b -> rtrim b = [].
Proof.
  induction b as [|c b IH]; intros H; [reflexivity|].
  inversion H as [|? ? H1 H2]; subst. rewrite rtrim_cons, IH by auto.
  apply wsb_ws in H1. now rewrite H1.
Qed.
Lemma rtrim_app_ws s b : Forall ws b -> rtrim (s ++ b) = rtrim s.
Proof.
  intros Hb. induction s as [|c s IH]; simpl; [now apply rtrim_ws|].
  rewrite !rtrim_cons, IH. reflexivity.
Qed.
Lemma rtrim_id s : (forall c r, s = r ++ [c] -> ~ ws c) -> rtrim s = s.
Proof.
  intros H. destruct (rtrim_spec s) as (b & E & Hb & _).
  destruct b as [|x b] using rev_ind; [now rewrite app_nil_r in E|].
  exfalso. rewrite app_assoc in E. apply (H x _ E).
  rewrite Forall_forall in Hb. apply Hb. apply in_or_app. right. left. reflexivity.
Qed.

Lemma trimmed_unique s t : trimmed s t -> trim s = t.
Proof.
  intros (a & b & -> & Ha & Hb & Hf & Hl).
  unfold trim. rewrite ltrim_ws_app by auto.
  destruct t as [|c t].
  - simpl. destruct (ltrim_spec b) as (a' & E & Ha' & Hf').
    apply rtrim_ws. rewrite E in Hb. apply Forall_app in Hb. tauto.
  - simpl. rewrite ltrim_cons. specialize (Hf c t eq_refl). apply wsb_false in Hf. rewrite Hf.
    change (c :: t ++ b) with ((c :: t) ++ b). rewrite rtrim_app_ws by auto. now apply rtrim_id.
Qed.

Lemma trim_iff s t : trim s = t <-> trimmed s t.
Proof. split; [intros <-; apply trim_trimmed | apply trimmed_unique]. Qed.

Lemma trim_idem s : trim (trim s) = trim s.
Proof.
  apply trimmed_unique. destruct (trim_trimmed s) as (a & b & E & Ha & Hb & Hf & Hl).
  exists [], []. simpl. rewrite app_nil_r. repeat split; auto.
Qed.
Lemma trim_margins a s b : Forall ws a -> Forall ws b -> trim (a ++ s ++ b) = trim s.
Proof.
  intros Ha Hb. apply trimmed_unique.
  destruct (trim_trimmed s) as (a' & b' & E & Ha' & Hb' & Hf & Hl).
  exists (a ++ a'), (b' ++ b). split; [|repeat split; auto; apply Forall_app; auto].
  rewrite E at 1. rewrite <- !app_assoc. reflexivity.
Qed.

(** ** Integer recognisers *)
Lemma digit_is_digit c : digit c <-> is_digit c = true.
Proof.
  unfold digit. destruct c as [[] [] [] [] [] [] [] []]; cbv; split; intros H; try discriminate; try tauto;
    repeat (destruct H as [H|H]; try discriminate H); try contradiction.
Qed.
Lemma numeral_iff s : Numeral s <-> s <> [] /\ forallb is_digit s = true.
Proof.
  split.
  - induction 1 as [c H|c r H _ IH].
    + split; [discriminate|]. simpl. apply digit_is_digit in H. now rewrite H.
    + split; [discriminate|]. simpl. apply digit_is_digit in H. rewrite H. apply IH.
  - intros [Hn H]. induction s as [|c r IH]; [congruence|].
    simpl in H. apply andb_true_iff in H as [Hc Hr]. apply digit_is_digit in Hc.
    destruct r as [|d r]; [now constructor|]. constructor; [exact Hc|]. apply IH; [discriminate|exact Hr].
Qed.
Lemma isNonNegativeInteger_iff s : isNonNegativeInteger s = true <-> Numeral s.
Proof.
  rewrite numeral_iff. unfold isNonNegativeInteger. destruct s; split.
  - discriminate.
  - intros [H _]. congruence.
  - intros H. split; [discriminate|exact H].
  - tauto.
Qed.
Lemma isNegativeInteger_iff s : isNegativeInteger s = true <-> exists r, s = "-"%char :: r /\ Numeral r.
Proof.
  unfold isNegativeInteger. split.
  - intros H. apply andb_true_iff in H as [_ H]. destruct s as [|c r]; [discriminate|].
    apply andb_true_iff in H as [Hc Hr]. apply ceq_true in Hc. subst c.
    exists r. split; [reflexivity|]. now apply isNonNegativeInteger_iff.
  - intros (r & -> & Hr). apply andb_true_iff. split.
    + apply numeral_iff in Hr as [Hr _]. destruct r; [congruence|reflexivity].
    + rewrite ceq_refl. now apply isNonNegativeInteger_iff.
Qed.
Lemma isInteger_iff s : isInteger s = true <-> Numeral s \/ exists r, s = "-"%char :: r /\ Numeral r.
Proof.
  unfold isInteger. rewrite orb_true_iff, isNonNegativeInteger_iff, isNegativeInteger_iff. tauto.
Qed.
Lemma integer_disjoint s : ~ (isNonNegativeInteger s = true /\ isNegativeInteger s = true).
Proof.
  rewrite isNonNegativeInteger_iff, isNegativeInteger_iff. intros [H (r & -> & _)].
  apply numeral_iff in H as [_ H]. discriminate H.
Qed.

(** ** startsWith / endsWith *)
Lemma firstn_eq_iff (n h : str) : firstn (length n) h = n <-> exists r, h = n ++ r.
Proof.
  split.
  - intros H. exists (skipn (length n) h). rewrite <- H at 1. symmetry. apply firstn_skipn.
  - intros [r ->]. rewrite firstn_app, firstn_all, Nat.sub_diag. simpl. apply app_nil_r.
Qed.
Lemma startsWith_iff h n : startsWith h n = true <-> exists c r, h = n ++ c :: r.
Proof.
  unfold startsWith, substr. rewrite andb_true_iff, Nat.ltb_lt, seq_eqb_eq. simpl.
  rewrite firstn_eq_iff. split.
  - intros [L [r ->]]. rewrite app_length in L. destruct r as [|c r]; [simpl in L; lia|]. eauto.
  - intros (c & r & ->). split; [rewrite app_length; simpl; lia|eauto].
Qed.
Lemma endsWith_iff h n : endsWith h n = true <-> exists c r, h = c :: r ++ n.
Proof.
  unfold endsWith, substr. rewrite andb_true_iff, Nat.ltb_lt, seq_eqb_eq. split.
  - intros [L E].
    assert (E2 : skipn (length h - length n) h = n).
    { rewrite <- E at 2. symmetry. apply firstn_all2. rewrite skipn_length. lia. }
    pose proof (firstn_skipn (length h - length n) h) as F. rewrite E2 in F.
    destruct (firstn (length h - length n) h) as [|c r] eqn:Q.
    + apply (f_equal (@length _)) in Q. rewrite firstn_length in Q. simpl in Q. lia.
    + exists c, r. rewrite <- F. reflexivity.
  - intros (c & r & ->). split; [simpl; rewrite app_length; lia|].
    change (c :: r ++ n) with ((c :: r) ++ n).
    replace (length ((c :: r) ++ n) - length n) with (length (c :: r))
      by (rewrite app_length; lia).
    rewrite skipn_app, skipn_all, Nat.sub_diag. simpl. apply firstn_all.
Qed.

(** ** Quotation marks *)
Lemma extract_quoted s : extractFromString (dquote :: s ++ [dquote]) = s.
Proof.
  unfold extractFromString. replace (length (dquote :: s ++ [dquote]) <? 2) with false
    by (simpl; rewrite app_length; simpl; lia).
  replace (last (dquote :: s ++ [dquote]) dquote) with dquote
    by (change (dquote :: s ++ [dquote]) with ((dquote :: s) ++ [dquote]); now rewrite last_last).
  rewrite ceq_refl.
  replace (removelast (dquote :: s ++ [dquote])) with (dquote :: s)
    by (change (dquote :: s ++ [dquote]) with ((dquote :: s) ++ [dquote]); now rewrite removelast_last).
  now rewrite ceq_refl.
Qed.
Lemma extract_unquoted s :
  (forall c r, s = c :: r -> c <> dquote) -> (forall c r, s = r ++ [c] -> c <> dquote) ->
  extractFromString s = s.
Proof.
  intros Hf Hl. unfold extractFromString. destruct (length s <? 2); [reflexivity|].
  destruct s as [|c s] using rev_ind; [reflexivity|]. clear IHs.
  rewrite last_last. destruct (ceq c dquote) eqn:E.
  - apply ceq_true in E. exfalso. eapply Hl; eauto.
  - destruct (s ++ [c]) as [|d r] eqn:Q; [reflexivity|].
    destruct (ceq d dquote) eqn:E2; [|reflexivity].
    apply ceq_true in E2. exfalso. eapply (Hf d r); eauto.
Qed.

Lemma substr_mid (a m b : str) : substr (length a) (length m) (a ++ m ++ b) = m.
Proof.
  unfold substr. rewrite skipn_app, skipn_all, Nat.sub_diag. simpl.
  rewrite firstn_app, firstn_all, Nat.sub_diag. simpl. apply app_nil_r.
Qed.
Lemma substr_wrap_mid (a m b : str) :
  substr_wrap (length a) (length a + length b) (a ++ m ++ b) = m.
Proof.
  unfold substr_wrap. rewrite !app_length.
  replace (length a + length b <=? length a + (length m + length b)) with true by lia.
  replace (length a + (length m + length b) - (length a + length b)) with (length m) by lia.
  apply substr_mid.
Qed.
Lemma startsWith_head_neq c r d n : c <> d -> startsWith (c :: r) (d :: n) = false.
Proof.
  intros H. destruct (startsWith (c :: r) (d :: n)) eqn:E; [|reflexivity].
  apply startsWith_iff in E as (x & q & E). simpl in E. injection E as E _. congruence.
Qed.
Lemma unquote_dquote s : unquote (dquote :: s ++ [dquote]) = s.
Proof.
  unfold unquote. rewrite !startsWith_head_neq by discriminate.
  change (ceq dquote dquote) with true. simpl orb.
  apply (substr_wrap_mid [dquote] s [dquote]).
Qed.
Lemma unquote_bt1 s : (forall c r, s = c :: r -> c <> backtick) -> s <> [] ->
  unquote (backtick :: s ++ [backtick]) = s.
Proof.
  intros H Hn. destruct s as [|c s]; [congruence|]. specialize (H c s eq_refl).
  assert (forall n, startsWith (backtick :: (c :: s) ++ [backtick]) (backtick :: backtick :: n) = false).
  { intros n. destruct (startsWith _ _) eqn:E; [|reflexivity].
    apply startsWith_iff in E as (x & q & E). simpl in E. injection E as E _. congruence. }
  unfold unquote. rewrite !H0. change (ceq backtick dquote || ceq backtick backtick) with true.
  apply (substr_wrap_mid [backtick] (c :: s) [backtick]).
Qed.
Lemma unquote_bt2 s : (forall c r, s = c :: r -> c <> backtick) -> s <> [] ->
  unquote ([backtick; backtick] ++ s ++ [backtick; backtick]) = s.
Proof.
  intros H Hn. destruct s as [|c s]; [congruence|]. specialize (H c s eq_refl).
  unfold unquote.
  replace (startsWith ([backtick; backtick] ++ (c :: s) ++ [backtick; backtick]) [backtick; backtick; backtick]) with false.
  2:{ symmetry. destruct (startsWith _ _) eqn:E; [|reflexivity].
      apply startsWith_iff in E as (x & q & E). simpl in E. injection E as E _. congruence. }
  replace (startsWith ([backtick; backtick] ++ (c :: s) ++ [backtick; backtick]) [backtick; backtick]) with true.
  2:{ symmetry. apply startsWith_iff. exists c, (s ++ [backtick; backtick]). reflexivity. }
  apply (substr_wrap_mid [backtick; backtick] (c :: s) [backtick; backtick]).
Qed.
Lemma unquote_bt3 s :
  unquote ([backtick; backtick; backtick] ++ s ++ [backtick; backtick; backtick]) = s.
Proof.
  unfold unquote.
  replace (startsWith _ [backtick; backtick; backtick]) with true.
  2:{ symmetry. apply startsWith_iff. destruct s as [|c s]; simpl; eauto. }
  apply (substr_wrap_mid [backtick; backtick; backtick] s [backtick; backtick; backtick]).
Qed.
