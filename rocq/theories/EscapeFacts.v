From Verif Require Import Base BaseFacts StringsModel StringsFacts EscapeModel.
From Coq Require Import Lia ZifyBool ZifyNat ZifyN.

(** * Specification *)

(** The STRING token language of the grammar, rule by rule. *)
Inductive StrBody : str -> Prop :=
| SB_nil : StrBody []
| SB_esc r : StrBody r -> StrBody (backslash :: dquote :: r)
| SB_chr c r : c <> dquote -> StrBody r -> StrBody (c :: r).
Definition StrToken (t : str) : Prop := exists b, StrBody b /\ t = dquote :: b ++ [dquote].

(** The longest-match rule: [n] is the length of the longest prefix of [s] that is a token. *)
Definition longest_token (s : str) (n : nat) : Prop :=
  n <= length s /\ StrToken (firstn n s) /\ forall m, m <= length s -> StrToken (firstn m s) -> m <= n.

(** Documented escapes (README.md 109-118 and the code's additional b, f):
    [Esc b v]: the literal body [b] denotes the byte string [v]. *)
Inductive is_hex : ascii -> N -> Prop :=
| IH_dec c : (48 <= code c <= 57)%N -> is_hex c (code c - 48)
| IH_low c : (97 <= code c <= 102)%N -> is_hex c (code c - 87)
| IH_upp c : (65 <= code c <= 70)%N -> is_hex c (code c - 55).
Inductive HexNum : str -> N -> Prop :=
| HN_one c d : is_hex c d -> HexNum [c] d
| HN_snoc s n c d : HexNum s n -> is_hex c d -> HexNum (s ++ [c]) (16 * n + d).
Fixpoint be_bytes (k : nat) (n : N) : str :=
  match k with O => [] | S k' => ascii_of_N (n / 256 ^ N.of_nat k' mod 256) :: be_bytes k' n end.
(** One lexical element of a literal body: its text, the bytes it denotes, whether it is an error. *)
Definition simple_table : list (ascii * ascii) :=
  [("n"%char, ascii_of_N 10); ("r"%char, ascii_of_N 13); ("t"%char, ascii_of_N 9);
   (backslash, backslash); ("'"%char, "'"%char); (dquote, dquote);
   ("b"%char, ascii_of_N 8); ("f"%char, ascii_of_N 12)].
Inductive Elem : str -> str -> bool -> Prop :=
| L_plain c : c <> backslash -> Elem [c] [c] false
| L_simple c d : In (c, d) simple_table -> Elem [backslash; c] [d] false
| L_x h l n : HexNum [h; l] n -> Elem [backslash; "x"%char; h; l] [ascii_of_N n] false
| L_u hs n : HexNum hs n -> length hs <= 6 ->
    Elem (backslash :: "u"%char :: "{"%char :: hs ++ ["}"%char]) (be_bytes ((length hs + 1) / 2) n) false
| L_unknown c : ~ In c (map fst simple_table) -> c <> "x"%char -> c <> "u"%char ->
    Elem [backslash; c] [backslash; c] true.
(** [EscE o b v errs]: the body [b], at offset [o] of the literal, denotes [v]; the erroneous elements are at [errs]
    (offset of the character after the backslash). *)
Inductive EscE : nat -> str -> str -> list nat -> Prop :=
| EE_nil o : EscE o [] [] []
| EE_lone o : EscE o [backslash] [backslash] []
| EE_elem o t v e b v' es : Elem t v e -> EscE (o + length t) b v' es ->
    EscE o (t ++ b) (v ++ v') ((if e then [o + 1] else []) ++ es).
(** Bodies without errors. *)
Inductive Esc : str -> str -> Prop :=
| E_nil : Esc [] []
| E_elem t v b v' : Elem t v false -> Esc b v' -> Esc (t ++ b) (v ++ v').

(** * The lexer *)

Lemma StrBody_cons_nq c r : c <> dquote -> StrBody (c :: r) -> c <> backslash -> StrBody r.
Proof. intros Hq H Hb. inversion H; subst; auto. congruence. Qed.

(** Bodies as a scan: [ok esc b]: every quote in [b] is preceded by an available backslash. *)
Fixpoint body_ok (esc : bool) (b : str) : bool :=
  match b with
  | [] => true
  | c :: r => if ceq c dquote then esc && body_ok false r else body_ok (ceq c backslash) r
  end.
Lemma body_ok_mono b : body_ok false b = true -> body_ok true b = true.
Proof. destruct b as [|c r]; simpl; auto. destruct (ceq c dquote); auto. discriminate. Qed.
Lemma StrBody_ok b : StrBody b -> body_ok false b = true.
Proof.
  induction 1 as [|r H IH|c r Hc H IH]; [reflexivity|exact IH|].
  simpl. destruct (ceq c dquote) eqn:E; [apply ceq_true in E; contradiction|].
  destruct (ceq c backslash); auto using body_ok_mono.
Qed.
Lemma ok_StrBody n : forall b, length b <= n ->
  (body_ok false b = true -> StrBody b) /\ (body_ok true b = true -> StrBody (backslash :: b)).
Proof.
  induction n as [|n IH]; intros b L.
  - destruct b; [|simpl in L; lia]. split; intros _; [constructor|]. constructor; [discriminate|constructor].
  - destruct b as [|c r].
    + split; intros _; [constructor|]. constructor; [discriminate|constructor].
    + simpl in L. destruct (IH r ltac:(lia)) as [IH1 IH2]. simpl. destruct (ceq c dquote) eqn:E.
      * apply ceq_true in E. subst c. simpl. split; [discriminate|]. intros H. constructor. auto.
      * assert (c <> dquote) by (intros ->; rewrite ceq_refl in E; discriminate).
        destruct (ceq c backslash) eqn:B.
        -- apply ceq_true in B. subst c. split; intros H'.
           ++ auto.
           ++ constructor; [discriminate|]. auto.
        -- split; intros H'.
           ++ constructor; auto.
           ++ constructor; [discriminate|]. constructor; auto.
Qed.
Lemma StrBody_iff b : StrBody b <-> body_ok false b = true.
Proof. split; [apply StrBody_ok|]. apply (ok_StrBody (length b) b). lia. Qed.

(** Closing positions reachable from a scan state. *)
Definition closes (esc : bool) (s : str) (k : nat) : Prop :=
  exists b, s = b ++ dquote :: skipn (S k) s /\ length b = k /\ body_ok esc b = true.

Lemma closes_nil e k : ~ closes e [] k.
Proof. intros (b & E & _). destruct b; discriminate. Qed.
Lemma closes_0 e s : closes e s 0 <-> exists r, s = dquote :: r.
Proof.
  split.
  - intros (b & E & L & _). destruct b; [|discriminate]. eauto.
  - intros [r ->]. exists []. auto.
Qed.
Lemma closes_S e c s k : closes e (c :: s) (S k) <->
  (if ceq c dquote then e = true /\ closes false s k else closes (ceq c backslash) s k).
Proof.
  unfold closes. split.
  - intros (b & E & L & B). destruct b as [|d b]; [discriminate|]. simpl in E, L, B.
    injection E as <- E. destruct (ceq c dquote).
    + apply andb_true_iff in B as [-> B]. split; [reflexivity|]. exists b. auto.
    + exists b. auto.
  - destruct (ceq c dquote) eqn:Q.
    + intros [-> (b & E & L & B)]. exists (c :: b). simpl. rewrite Q. simpl. simpl in E. rewrite <- E. auto.
    + intros (b & E & L & B). exists (c :: b). simpl. rewrite Q. simpl in E. rewrite <- E. auto.
Qed.

Lemma lex_body_spec s : forall esc pos best,
  match lex_body esc pos best s with
  | Some n => (exists k, n = S (pos + k) /\ closes esc s k /\ forall j, closes esc s j -> j <= k) \/
              (best = Some n /\ forall j, ~ closes esc s j)
  | None => best = None /\ forall j, ~ closes esc s j
  end.
Proof.
  induction s as [|c r IH]; intros esc pos best.
  - simpl. destruct best as [n|]; [right|]; (split; [reflexivity|]; intros j; apply closes_nil).
  - cbn [lex_body]. destruct (ceq c dquote) eqn:Q.
    + pose proof Q as Q'. apply ceq_true in Q'. subst c.
      destruct esc.
      * specialize (IH false (S pos) (Some (S pos))).
        destruct (lex_body false (S pos) (Some (S pos)) r) as [n|]; [|destruct IH as [IH _]; discriminate].
        left. destruct IH as [(k & -> & C & M)|[E M]].
        -- exists (S k). split; [lia|]. split.
           ++ apply closes_S. rewrite Q. auto.
           ++ intros [|j] Hj; [lia|]. apply closes_S in Hj. rewrite Q in Hj. apply le_n_S, M. tauto.
        -- injection E as <-. exists 0. split; [lia|]. split; [apply closes_0; eauto|].
           intros [|j] Hj; [lia|]. apply closes_S in Hj. rewrite Q in Hj. exfalso. eapply M. apply Hj.
      * left. exists 0. split; [lia|]. split; [apply closes_0; eauto|].
        intros [|j] Hj; [lia|]. apply closes_S in Hj. rewrite Q in Hj. destruct Hj; discriminate.
    + specialize (IH (ceq c backslash) (S pos) best).
      assert (C0 : forall e, ~ closes e (c :: r) 0).
      { intros e H. apply closes_0 in H as [r' H]. injection H as -> _. rewrite ceq_refl in Q. discriminate. }
      destruct (lex_body (ceq c backslash) (S pos) best r) as [n|].
      * destruct IH as [(k & -> & C & M)|[E M]].
        -- left. exists (S k). split; [lia|]. split; [apply closes_S; now rewrite Q|].
           intros [|j] Hj; [lia|]. apply closes_S in Hj. rewrite Q in Hj. apply le_n_S. auto.
        -- right. split; [exact E|]. intros [|j] Hj; [eapply C0; eauto|].
           apply closes_S in Hj. rewrite Q in Hj. eapply M; eauto.
      * destruct IH as [E M]. split; [exact E|]. intros [|j] Hj; [eapply C0; eauto|].
        apply closes_S in Hj. rewrite Q in Hj. eapply M; eauto.
Qed.

Lemma StrToken_firstn s m : m <= length s ->
  StrToken (firstn m s) <-> exists r k, s = dquote :: r /\ m = S (S k) /\ closes false r k.
Proof.
  intros Lm. unfold StrToken. split.
  - intros (b & B & E). destruct s as [|c s]; [rewrite firstn_nil in E; destruct b; discriminate|].
    destruct m as [|m]; [discriminate|]. cbn [firstn] in E. injection E as -> E.
    assert (Hm : m = S (length b)).
    { apply (f_equal (@length _)) in E. rewrite firstn_length, app_length in E. simpl in *. lia. }
    exists s, (length b). split; [reflexivity|]. split; [lia|].
    exists b. split; [|split; [reflexivity|now apply StrBody_iff]].
    rewrite <- (firstn_skipn m s) at 1. rewrite E, Hm, <- app_assoc. reflexivity.
  - intros (r & k & -> & -> & b & E & Lb & B). exists b. split; [now apply StrBody_iff|].
    change (firstn (S (S k)) (dquote :: r)) with (dquote :: firstn (S k) r). f_equal. rewrite E, firstn_app.
    replace (S k - length b) with 1 by lia.
    rewrite (firstn_all2 b) by lia. reflexivity.
Qed.

Lemma lex_string_longest s n : lex_string s = Some n -> longest_token s n.
Proof.
  unfold lex_string. destruct s as [|c r]; [discriminate|].
  destruct (ceq c dquote) eqn:Q; [|discriminate]. apply ceq_true in Q. subst c.
  intros E. pose proof (lex_body_spec r false 1 None) as H. rewrite E in H.
  destruct H as [(k & -> & C & M)|[H _]]; [|discriminate].
  assert (L : S (1 + k) <= length (dquote :: r)).
  { destruct C as (b & Eb & Lb & _). rewrite Eb. simpl. rewrite app_length. simpl. lia. }
  split; [exact L|]. split.
  - apply StrToken_firstn; [exact L|]. exists r, k. auto.
  - intros m Lm T. apply StrToken_firstn in T as (r' & j & E' & -> & Cj); [|exact Lm].
    injection E' as <-. specialize (M j Cj). lia.
Qed.
Lemma lex_string_none s : lex_string s = None -> forall m, m <= length s -> ~ StrToken (firstn m s).
Proof.
  intros E m Lm T. apply StrToken_firstn in T as (r & k & -> & -> & C); [|exact Lm].
  unfold lex_string in E. rewrite ceq_refl in E.
  pose proof (lex_body_spec r false 1 None) as H. rewrite E in H. destruct H as [_ H]. eapply H; eauto.
Qed.
Lemma longest_unique s n m : longest_token s n -> longest_token s m -> n = m.
Proof. intros (L1 & T1 & M1) (L2 & T2 & M2). apply Nat.le_antisymm; auto. Qed.
Lemma longest_lex s n : longest_token s n -> lex_string s = Some n.
Proof.
  intros H. destruct (lex_string s) as [m|] eqn:E.
  - f_equal. eapply longest_unique; [apply lex_string_longest; exact E|exact H].
  - exfalso. destruct H as (L & T & _). eapply lex_string_none; eauto.
Qed.

(** * Printing and reading back *)
Lemma stringEscape_app a b : stringEscape (a ++ b) = stringEscape a ++ stringEscape b.
Proof.
  induction a as [|c a IH]; [reflexivity|]. simpl. destruct (ceq c dquote); simpl; now rewrite IH.
Qed.
Definition no_backslash (s : str) : Prop := ~ In backslash s.

Lemma lex_escaped v : no_backslash v -> forall pos best k,
  lex_body false pos best (stringEscape v ++ dquote :: k) = Some (S (pos + length (stringEscape v))).
Proof.
  induction v as [|c v IH]; intros H pos best k.
  - simpl. f_equal. lia.
  - cbn [stringEscape]. assert (no_backslash v) by (intros I; apply H; right; exact I).
    destruct (ceq c dquote) eqn:Q.
    + apply ceq_true in Q. subst c. cbn [app lex_body].
      change (ceq backslash dquote) with false. change (ceq backslash backslash) with true.
      change (ceq dquote dquote) with true. cbv iota. rewrite IH by assumption. f_equal. simpl. lia.
    + cbn [app lex_body]. rewrite Q.
      destruct (ceq c backslash) eqn:B.
      * apply ceq_true in B. subst c. exfalso. apply H. left. reflexivity.
      * rewrite IH by assumption. f_equal. simpl. lia.
Qed.
Lemma lex_printed v k : no_backslash v -> lex_string (printQuoted v ++ k) = Some (length (printQuoted v)).
Proof.
  intros H. unfold printQuoted. cbn [app lex_string]. rewrite ceq_refl, <- app_assoc. cbn [app].
  rewrite lex_escaped by exact H. f_equal. simpl. rewrite app_length. simpl. lia.
Qed.

(** * escapeText *)
Lemma escape_loop_total fuel : forall s i, 0 < fuel -> length s < i + fuel -> escape_loop fuel s i <> None.
Proof.
  induction fuel as [|f IH]; intros s i F H.
  - lia.
  - cbn [escape_loop]. destruct (i <? length s) eqn:L; [|discriminate].
    assert (N : forall k, i < k -> escape_loop f s k <> None) by (intros k Hk; apply IH; lia).
    assert (E : forall (o : str) (e : list nat) k, i < k ->
      match escape_loop f s k with None => None | Some (o', e') => Some (o ++ o', e ++ e') end <> None).
    { intros o e k Hk. specialize (N k Hk). destruct (escape_loop f s k) as [[]|]; congruence. }
    cbv zeta.
    repeat match goal with
    | |- context[match (match escape_loop f s ?k with _ => _ end) with _ => _ end] => fail 1
    | |- match escape_loop f s ?k with _ => _ end <> None => apply E; lia
    | |- (if ?b then _ else _) <> None => destruct b
    | |- match ?x with _ => _ end <> None => destruct x
    end.
Qed.

Lemma escapeText_total s : exists v errs, escapeText s = Some (v, errs).
Proof.
  unfold escapeText. destruct (escape_loop (S (length s)) s 0) as [[v e]|] eqn:E; [eauto|].
  exfalso. revert E. apply escape_loop_total; lia.
Qed.

(** More fuel does not change the result. *)
Lemma escape_loop_more fuel : forall s i r, escape_loop fuel s i = Some r ->
  forall f', fuel <= f' -> escape_loop f' s i = Some r.
Proof.
  induction fuel as [|f IH]; intros s i r H f' L; [discriminate|].
  destruct f' as [|f']; [lia|]. cbn [escape_loop] in *. cbv zeta in *.
  assert (E : forall (o : str) (e : list nat) k r,
    match escape_loop f s k with None => None | Some (o', e') => Some (o ++ o', e ++ e') end = Some r ->
    match escape_loop f' s k with None => None | Some (o', e') => Some (o ++ o', e ++ e') end = Some r).
  { intros o e k r0 H0. destruct (escape_loop f s k) as [q|] eqn:Q; [|discriminate].
    rewrite (IH s k q Q f') by lia. exact H0. }
  repeat match goal with
  | H : match escape_loop f s ?k with _ => _ end = Some _ |- _ => apply E in H; exact H
  | |- (if ?b then _ else _) = _ => destruct b
  | |- match escape_loop _ _ _ with _ => _ end = _ => fail 1
  | |- match ?x with _ => _ end = _ => destruct x
  end; exact H.
Qed.

(** Reading at a position of [p ++ r]. *)
Lemma char_at_app (p r : str) k : char_at (p ++ r) (length p + k) = char_at r k.
Proof. unfold char_at. rewrite app_nth2 by lia. f_equal. lia. Qed.
Lemma char_at_app0 (p r : str) : char_at (p ++ r) (length p) = char_at r 0.
Proof. rewrite <- (Nat.add_0_r (length p)) at 1. apply char_at_app. Qed.
Lemma substr_from_app (p r : str) k : substr_from (length p + k) (p ++ r) = substr_from k r.
Proof.
  unfold substr_from. rewrite skipn_app. rewrite skipn_all2 by lia.
  replace (length p + k - length p) with k by lia. reflexivity.
Qed.

(** One unfolding at position [length p] of [p ++ r], as a function of [r] only, for [r] long enough. *)
Definition res (o : str) (e : list nat) (q : option (str * list nat)) : option (str * list nat) :=
  match q with None => None | Some (o', e') => Some (o ++ o', e ++ e') end.

Lemma step_end f p : escape_loop (S f) p (length p) = Some ([], []).
Proof. cbn [escape_loop]. rewrite Nat.ltb_irrefl. reflexivity. Qed.
Lemma step_plain f p c r : c <> backslash ->
  escape_loop (S f) (p ++ c :: r) (length p) = res [c] [] (escape_loop f (p ++ c :: r) (length p + 1)).
Proof.
  intros H. cbn [escape_loop]. rewrite app_length. cbn [length].
  replace (length p <? length p + S (length r)) with true by lia.
  rewrite char_at_app0. change (char_at (c :: r) 0) with c.
  destruct (ceq c backslash) eqn:B; [apply ceq_true in B; contradiction|]. reflexivity.
Qed.
Lemma step_simple f p c d r : simple_escape c = Some d ->
  escape_loop (S f) (p ++ backslash :: c :: r) (length p) =
  res [d] [] (escape_loop f (p ++ backslash :: c :: r) (length p + 2)).
Proof.
  intros H. cbn [escape_loop]. rewrite app_length. cbn [length].
  replace (length p <? length p + S (S (length r))) with true by lia.
  rewrite char_at_app0, char_at_app. change (char_at (backslash :: c :: r) 0) with backslash.
  change (char_at (backslash :: c :: r) 1) with c. rewrite ceq_refl.
  replace (length p <? length p + S (S (length r)) - 1) with true by lia.
  cbn [andb]. rewrite H. reflexivity.
Qed.
Lemma step_x f p h l r z : simpleHexAtoi32 [h; l] = Some z ->
  escape_loop (S f) (p ++ backslash :: "x"%char :: h :: l :: r) (length p) =
  res [byte_at 0 z] [] (escape_loop f (p ++ backslash :: "x"%char :: h :: l :: r) (length p + 4)).
Proof.
  intros H. cbn [escape_loop]. rewrite app_length. cbn [length].
  replace (length p <? length p + S (S (S (S (length r))))) with true by lia.
  rewrite char_at_app0, char_at_app. change (char_at (backslash :: _) 0) with backslash.
  change (char_at (backslash :: "x"%char :: h :: l :: r) 1) with "x"%char. rewrite ceq_refl.
  replace (length p <? length p + S (S (S (S (length r)))) - 1) with true by lia.
  cbn [andb]. change (simple_escape "x"%char) with (@None ascii). change (ceq "x"%char "x"%char) with true. cbv iota.
  replace (length p <? length p + S (S (S (S (length r)))) - 3) with true by lia.
  rewrite orb_true_r.
  replace (substr (length p + 2) 2 (p ++ backslash :: "x"%char :: h :: l :: r)) with [h; l].
  2:{ unfold substr. change (skipn (length p + 2) ?x) with (substr_from (length p + 2) x).
      rewrite substr_from_app. reflexivity. }
  rewrite H. reflexivity.
Qed.

Lemma find_char_app c a b : ~ In c a -> find_char c (a ++ c :: b) = Some (length a).
Proof.
  induction a as [|d a IH]; intros H; cbn [find_char app length].
  - rewrite ceq_refl. reflexivity.
  - destruct (ceq c d) eqn:E; [apply ceq_true in E; subst d; exfalso; apply H; left; reflexivity|].
    rewrite IH by (intros I; apply H; right; exact I). reflexivity.
Qed.

Lemma step_u f p hs r z : ~ In "}"%char hs -> hs <> [] -> length hs <= 6 -> simpleHexAtoi64 hs = Some z ->
  let s := p ++ backslash :: "u"%char :: "{"%char :: hs ++ "}"%char :: r in
  escape_loop (S f) s (length p) =
  res (if length hs <=? 2 then [byte_at 0 z] else if length hs <=? 4 then [byte_at 8 z; byte_at 0 z]
       else [byte_at 16 z; byte_at 8 z; byte_at 0 z]) [] (escape_loop f s (length p + length hs + 4)).
Proof.
  intros Hn He Hl H s. cbn [escape_loop].
  assert (Ls : length s = length p + S (S (S (length hs + S (length r))))).
  { subst s. rewrite app_length. cbn [length]. rewrite app_length. reflexivity. }
  rewrite Ls.
  replace (length p <? length p + S (S (S (length hs + S (length r))))) with true by lia.
  assert (C0 : char_at s (length p) = backslash) by (subst s; now rewrite char_at_app0).
  assert (C1 : char_at s (length p + 1) = "u"%char) by (subst s; now rewrite char_at_app).
  assert (C2 : char_at s (length p + 2) = "{"%char) by (subst s; now rewrite char_at_app).
  rewrite C0, C1, C2, ceq_refl.
  replace (length p <? length p + S (S (S (length hs + S (length r)))) - 1) with true by lia.
  cbn [andb]. change (simple_escape "u"%char) with (@None ascii).
  change (ceq "u"%char "x"%char) with false. change (ceq "u"%char "u"%char) with true. cbv iota.
  assert (0 < length hs) by (destruct hs; [congruence|simpl; lia]).
  replace (length p <? length p + S (S (S (length hs + S (length r)))) - 3) with true by lia.
  rewrite orb_true_r. cbn [andb]. change (negb (ceq "{"%char "{"%char)) with false. cbv iota zeta.
  assert (Sub : substr_from (length p + 3) s = hs ++ "}"%char :: r) by (subst s; now rewrite substr_from_app).
  rewrite Sub, find_char_app by exact Hn.
  replace (0 <? length hs) with true by lia.
  replace (substr 0 (length hs) (hs ++ "}"%char :: r)) with hs.
  2:{ unfold substr. simpl. now rewrite firstn_app, firstn_all, Nat.sub_diag, app_nil_r. }
  rewrite H. replace (length hs <=? 6) with true by lia. reflexivity.
Qed.

(** Hexadecimal evaluation. *)
Lemma is_hex_digit c d : is_hex c d -> hex_digit c = Some d /\ (d < 16)%N.
Proof.
  intros [x Hx|x Hx|x Hx]; (split; [|lia]); unfold hex_digit, lower, is_upper, is_digit.
  - replace ((48 <=? code x) && (code x <=? 57))%N with true by lia. reflexivity.
  - replace ((48 <=? code x) && (code x <=? 57))%N with false by lia.
    replace ((65 <=? code x) && (code x <=? 90))%N with false by lia.
    replace ((97 <=? code x) && (code x <=? 102))%N with true by lia. reflexivity.
  - replace ((48 <=? code x) && (code x <=? 57))%N with false by lia.
    replace ((65 <=? code x) && (code x <=? 90))%N with true by lia.
    rewrite code_of_N by lia.
    replace ((97 <=? code x + 32) && (code x + 32 <=? 102))%N with true by lia. f_equal. lia.
Qed.
Lemma hex_val_app a : forall acc b, hex_val acc (a ++ b) =
  match hex_val acc a with Some n => hex_val n b | None => None end.
Proof. induction a as [|c a IH]; intros acc b; simpl; auto. destruct (hex_digit c); auto. Qed.
Lemma HexNum_val s n : HexNum s n -> hex_val 0 s = Some n.
Proof.
  induction 1 as [c d H|s n c d H IH Hd].
  - apply is_hex_digit in H as [H _]. simpl. rewrite H. f_equal; try lia.
  - rewrite hex_val_app, IH. apply is_hex_digit in Hd as [Hd _]. simpl. rewrite Hd. f_equal. lia.
Qed.
Lemma HexNum_bound s n : HexNum s n -> (n < 16 ^ N.of_nat (length s))%N.
Proof.
  induction 1 as [c d H|s n c d H IH Hd].
  - apply is_hex_digit in H as [_ H]. cbn. lia.
  - apply is_hex_digit in Hd as [_ Hd]. rewrite app_length. cbn [length].
    replace (N.of_nat (length s + 1)) with (N.succ (N.of_nat (length s))) by lia. rewrite N.pow_succ_r'. lia.
Qed.
Lemma HexNum_chars s n : HexNum s n -> Forall (fun c => exists d, is_hex c d) s.
Proof.
  induction 1 as [c d H|s n c d H IH Hd].
  - constructor; eauto.
  - apply Forall_app. split; [exact IH|]. constructor; eauto.
Qed.
Lemma HexNum_nonempty s n : HexNum s n -> s <> [].
Proof. destruct 1; [discriminate|]. destruct s; discriminate. Qed.
Lemma is_hex_not_ws c d : is_hex c d -> ~ ws c.
Proof. intros [x H|x H|x H] W; unfold ws in W; simpl in W; lia. Qed.
Lemma is_hex_range c d : is_hex c d -> (48 <= code c <= 57 \/ 97 <= code c <= 102 \/ 65 <= code c <= 70)%N.
Proof. intros [x H|x H|x H]; lia. Qed.
Lemma trim_hex s n : HexNum s n -> trim s = s.
Proof.
  intros H. apply trimmed_unique. exists [], []. simpl. rewrite app_nil_r.
  pose proof (HexNum_chars _ _ H) as F. rewrite Forall_forall in F.
  repeat split; auto.
  - intros c r E. destruct (F c) as [d Hd]; [rewrite E; left; reflexivity|]. eapply is_hex_not_ws; eauto.
  - intros c r E. destruct (F c) as [d Hd]; [rewrite E; apply in_or_app; right; left; reflexivity|].
    eapply is_hex_not_ws; eauto.
Qed.
Lemma hexAtoi_ok lo hi s n : HexNum s n -> (lo <= 0)%Z -> (Z.of_N n <= hi)%Z -> simpleHexAtoi lo hi s = Some (Z.of_N n).
Proof.
  intros H Hlo Hhi. unfold simpleHexAtoi. rewrite (trim_hex s n H).
  pose proof (HexNum_chars _ _ H) as F. pose proof (HexNum_nonempty _ _ H) as Ne.
  pose proof (HexNum_val _ _ H) as V.
  destruct s as [|c r]; [congruence|].
  inversion F as [|? ? [d Hd] F']; subst. apply is_hex_range in Hd.
  assert (N1 : ceq c "-"%char = false).
  { destruct (ceq c "-"%char) eqn:E; [|reflexivity]. apply ceq_true in E. subst c. change (code "-"%char) with 45%N in Hd. lia. }
  assert (N2 : ceq c "+"%char = false).
  { destruct (ceq c "+"%char) eqn:E; [|reflexivity]. apply ceq_true in E. subst c. change (code "+"%char) with 43%N in Hd. lia. }
  rewrite N1, N2. cbv beta iota zeta.
  assert (B : match r with x :: q => if ceq c "0"%char && ceq (lower x) "x"%char then q else c :: r | [] => c :: r end = c :: r).
  { destruct r as [|x q]; [reflexivity|]. inversion F' as [|? ? [d2 Hd2] _]; subst. apply is_hex_range in Hd2.
    replace (ceq (lower x) "x"%char) with false; [now rewrite andb_false_r|].
    symmetry. destruct (ceq (lower x) "x"%char) eqn:E; [|reflexivity]. apply ceq_true in E.
    apply (f_equal code) in E. change (code "x"%char) with 120%N in E. unfold lower, is_upper in E.
    destruct ((65 <=? code x) && (code x <=? 90))%N eqn:U; [rewrite code_of_N in E by lia|]; lia. }
  replace (match r with x :: q => if ceq c "0"%char && ceq (lower x) "x"%char then q else c :: r | [] => c :: r end)
    with (c :: r) by (symmetry; exact B).
  rewrite V. cbv zeta. replace ((lo <=? Z.of_N n) && (Z.of_N n <=? hi))%Z with true by lia. reflexivity.
Qed.

Lemma byte_at_div (k : nat) n : byte_at (8 * Z.of_nat k) (Z.of_N n) = ascii_of_N (n / 256 ^ N.of_nat k mod 256).
Proof.
  unfold byte_at. f_equal.
  rewrite Z.shiftr_div_pow2 by lia. change 255%Z with (Z.ones 8). rewrite Z.land_ones by lia.
  rewrite Z.pow_mul_r by lia. change (2 ^ 8)%Z with 256%Z.
  replace (256 ^ Z.of_nat k)%Z with (Z.of_N (256 ^ N.of_nat k)) by (rewrite N2Z.inj_pow; f_equal; lia).
  rewrite <- N2Z.inj_div. change 256%Z with (Z.of_N 256). rewrite <- N2Z.inj_mod. apply N2Z.id.
Qed.

Lemma simple_escape_table c d : In (c, d) simple_table -> simple_escape c = Some d.
Proof.
  intros H. cbn [In simple_table] in H.
  repeat (destruct H as [H|H]; [injection H as <- <-; reflexivity|]). contradiction.
Qed.
Lemma simple_escape_none c : ~ In c (map fst simple_table) -> simple_escape c = None.
Proof.
  intros H. unfold simple_escape.
  repeat match goal with
  | |- (if ceq c ?d then _ else _) = None =>
      let E := fresh in destruct (ceq c d) eqn:E; [apply ceq_true in E; subst c; exfalso; apply H; simpl; tauto|]
  end. reflexivity.
Qed.

(** One element is consumed by one turn of the loop. *)
Lemma elem_step t v e : Elem t v e -> forall p b f,
  escape_loop (S f) (p ++ t ++ b) (length p) =
  res v (if e then [length p + 1] else []) (escape_loop f (p ++ t ++ b) (length p + length t)).
Proof.
  intros [c Hc|c d H|h l n Hn|hs n Hn Hl|c H1 H2 H3] p b f.
  - cbn [app length]. now apply step_plain.
  - cbn [app length]. apply step_simple. now apply simple_escape_table.
  - pose proof (HexNum_bound _ _ Hn) as Bn. cbn [length] in Bn. change (16 ^ N.of_nat 2)%N with 256%N in Bn.
    cbn [app length]. rewrite (step_x f p h l b (Z.of_N n)) by (apply hexAtoi_ok; [exact Hn|lia|lia]).
    change 0%Z with (8 * Z.of_nat 0)%Z. rewrite byte_at_div. change (256 ^ N.of_nat 0)%N with 1%N.
    rewrite N.div_1_r, N.mod_small by exact Bn. reflexivity.
  - pose proof (HexNum_bound _ _ Hn) as Bn. pose proof (HexNum_nonempty _ _ Hn) as Ne.
    assert (Hb : ~ In "}"%char hs).
    { intros I. pose proof (HexNum_chars _ _ Hn) as F. rewrite Forall_forall in F. destruct (F _ I) as [d Hd].
      apply is_hex_range in Hd. change (code "}"%char) with 125%N in Hd. lia. }
    assert (B6 : (16 ^ N.of_nat (length hs) <= 16 ^ 6)%N) by (apply N.pow_le_mono_r; lia).
    change (16 ^ 6)%N with 16777216%N in B6.
    pose proof (step_u f p hs b (Z.of_N n) Hb Ne Hl) as St. cbv zeta in St.
    replace (p ++ (backslash :: "u"%char :: "{"%char :: hs ++ ["}"%char]) ++ b)
      with (p ++ backslash :: "u"%char :: "{"%char :: hs ++ "}"%char :: b)
      by (cbn [app]; rewrite <- app_assoc; reflexivity).
    rewrite St by (apply hexAtoi_ok; [exact Hn|lia|lia]).
    replace (length p + length hs + 4) with (length p + length (backslash :: "u"%char :: "{"%char :: hs ++ ["}"%char]))
      by (cbn [length]; rewrite app_length; cbn [length]; lia).
    f_equal.
    change 0%Z with (8 * Z.of_nat 0)%Z. change 16%Z with (8 * Z.of_nat 2)%Z.
    change (byte_at 8 (Z.of_N n)) with (byte_at (8 * Z.of_nat 1) (Z.of_N n)).
    assert (length hs = 1 \/ length hs = 2 \/ length hs = 3 \/ length hs = 4 \/ length hs = 5 \/ length hs = 6) as Cs.
    { destruct hs as [|? hs]; [congruence|]. simpl in *. lia. }
    repeat (destruct Cs as [Cs|Cs]); rewrite Cs; cbn [Nat.leb]; rewrite !byte_at_div; reflexivity.
  - cbn [app length escape_loop]. rewrite app_length. cbn [length].
    replace (length p <? length p + S (S (length b))) with true by lia.
    rewrite char_at_app0, char_at_app. change (char_at (backslash :: c :: b) 0) with backslash.
    change (char_at (backslash :: c :: b) 1) with c. rewrite ceq_refl.
    replace (length p <? length p + S (S (length b)) - 1) with true by lia.
    cbn [andb]. rewrite simple_escape_none by exact H1.
    destruct (ceq c "x"%char) eqn:X; [apply ceq_true in X; contradiction|].
    destruct (ceq c "u"%char) eqn:U; [apply ceq_true in U; contradiction|]. reflexivity.
Qed.

(** Main lemma: a body evaluates to its meaning and reports exactly its errors. *)
Lemma escape_loop_EscE o b v es : EscE o b v es -> forall p fuel, length p = o -> length b < fuel ->
  escape_loop fuel (p ++ b) o = Some (v, es).
Proof.
  induction 1 as [o|o|o t v e b v' es Ht H IH]; intros p fuel Hp Hf; (destruct fuel as [|f]; [lia|]); subst o.
  - rewrite app_nil_r. apply step_end.
  - simpl in Hf. destruct f as [|f]; [lia|]. cbn [escape_loop]. rewrite app_length. cbn [length].
    replace (length p <? length p + 1) with true by lia.
    replace (length p <? length p + 1 - 1) with false by lia. rewrite andb_false_r.
    replace (length p + 1 <? length p + 1) with false by lia. rewrite char_at_app0. reflexivity.
  - rewrite (elem_step t v e Ht). rewrite app_assoc.
    rewrite (IH (p ++ t) f); [reflexivity|apply app_length|].
    rewrite app_length in Hf. assert (0 < length t) by (destruct Ht; cbn [length]; lia). lia.
Qed.
Lemma Esc_EscE b v : Esc b v -> forall o, EscE o b v [].
Proof. induction 1 as [|t v b v' Ht H IH]; intros o; [constructor|]. apply (EE_elem o t v false b v' []); auto. Qed.
Lemma EscE_app a v1 : Esc a v1 -> forall o b v2 es, EscE (o + length a) b v2 es -> EscE o (a ++ b) (v1 ++ v2) es.
Proof.
  induction 1 as [|t v a v' Ht H IH]; intros o b v2 es Hb.
  - simpl in *. now rewrite Nat.add_0_r in Hb.
  - rewrite <- !app_assoc. apply (EE_elem o t v false (a ++ b) (v' ++ v2) es Ht). apply IH.
    rewrite app_length in Hb. replace (o + length t + length a) with (o + (length t + length a)) by lia. exact Hb.
Qed.
Lemma escapeText_EscE b v es : EscE 0 b v es -> escapeText b = Some (v, es).
Proof. intros H. apply (escape_loop_EscE 0 b v es H []); [reflexivity|lia]. Qed.
Lemma escapeText_Esc b v : Esc b v -> escapeText b = Some (v, []).
Proof. intros H. apply escapeText_EscE, Esc_EscE, H. Qed.
Lemma EscE_fun o b v es v2 es2 : EscE o b v es -> EscE o b v2 es2 -> v = v2 /\ es = es2.
Proof.
  intros H1 H2.
  pose proof (escape_loop_EscE _ _ _ _ H1 (repeat zero o) (S (length b)) (repeat_length _ _) ltac:(lia)) as E1.
  pose proof (escape_loop_EscE _ _ _ _ H2 (repeat zero o) (S (length b)) (repeat_length _ _) ltac:(lia)) as E2.
  rewrite E1 in E2. injection E2 as -> ->. auto.
Qed.

Lemma Esc_plain s : no_backslash s -> Esc s s.
Proof.
  induction s as [|c s IH]; intros H; [constructor|].
  apply (E_elem [c] [c] s s).
  - constructor. intros ->. apply H. left. reflexivity.
  - apply IH. intros I. apply H. right. exact I.
Qed.
Lemma escapeText_plain s : no_backslash s -> escapeText s = Some (s, []).
Proof. intros H. apply escapeText_Esc, Esc_plain, H. Qed.

Lemma Esc_printed v : no_backslash v -> Esc (stringEscape v) v.
Proof.
  induction v as [|c v IH]; intros H; [constructor|].
  assert (no_backslash v) by (intros I; apply H; right; exact I).
  cbn [stringEscape]. destruct (ceq c dquote) eqn:Q.
  - apply ceq_true in Q. subst c. apply (E_elem [backslash; dquote] [dquote]); [|auto]. apply L_simple. simpl. tauto.
  - apply (E_elem [c] [c]); [|auto]. apply L_plain. intros ->. apply H. left. reflexivity.
Qed.

Lemma evalString_printed v : no_backslash v -> evalString (printQuoted v) = Some (v, []).
Proof.
  intros H. unfold evalString, printQuoted.
  rewrite startsWith_head_neq by discriminate. rewrite unquote_dquote.
  apply escapeText_Esc, Esc_printed, H.
Qed.
