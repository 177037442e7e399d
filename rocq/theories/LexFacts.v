From Verif Require Import Base BaseFacts StringsModel StringsFacts EscapeModel EscapeFacts LexModel.
From Coq Require Import Lia ZifyBool ZifyNat ZifyN.

(** * Specification *)
(** The languages of the lexer rules as the grammar file writes them; case does not matter. *)
Definition all_ (P : ascii -> bool) (s : str) : Prop := forallb P s = true.
Definition some_ (P : ascii -> bool) (s : str) : Prop := s <> [] /\ all_ P s.                (* [...]+ *)
Definition letter (c : ascii) : bool := is_alpha c.
Definition LWord (w t : str) : Prop := to_lower t = w.
Inductive LIdentifier : str -> Prop := LI c r : is_alpha c = true -> all_ is_word r -> LIdentifier (c :: r).
Inductive LFraction : str -> Prop := LF d : some_ is_digit d -> LFraction ("."%char :: d).
Inductive LExponent : str -> Prop := LE e s d : lower e = "e"%char -> s = "+"%char \/ s = "-"%char -> some_ is_digit d -> LExponent (e :: s :: d).
Inductive LNumber : str -> Prop :=
| LN m d f e : m = [] \/ m = ["-"%char] -> some_ is_digit d -> f = [] \/ LFraction f -> e = [] \/ LExponent e -> LNumber (m ++ d ++ f ++ e).
(** [q .+? q]: the shortest *)
Definition ends_with (q t : str) : Prop := exists b, t = b ++ q.
Inductive LRaw (n : nat) : str -> Prop :=
| LR b : b <> [] ->
    (forall b' r, b' <> [] -> b ++ repeat backtick n = b' ++ repeat backtick n ++ r -> length b <= length b') ->
    LRaw n (repeat backtick n ++ b ++ repeat backtick n).
Inductive LRaw1 : str -> Prop := LR1 b : some_ (fun c => negb (ceq c backtick)) b -> LRaw1 (backtick :: b ++ [backtick]).
Inductive LSpace : str -> Prop := LS c : is_space c = true -> LSpace [c].
(** File names separated by slashes *)
Inductive LPath : str -> Prop :=
| LP_one f : some_ is_file f -> LPath f
| LP_more f p : some_ is_file f -> LPath p -> LPath (f ++ "/"%char :: p).
Inductive LUri : str -> Prop :=
| LU_host s h p : some_ is_alpha s -> some_ is_host h -> LPath p -> LUri (s ++ ":"%char :: $"//" ++ h ++ "/"%char :: p)
| LU_scheme s p : some_ is_alpha s -> LPath p -> LUri (s ++ ":"%char :: p)
| LU_abs p : LPath p -> LUri ("/"%char :: p)
| LU_rel p : LPath p -> LUri p.
(** A rule matches the first [n] characters of [s]; a comment may also end with the text. *)
Definition prefix_in (L : str -> Prop) (s : str) (n : nat) : Prop := exists t r, s = t ++ r /\ length t = n /\ L t.
Definition not_eol (c : ascii) : bool := negb (ceq c cr || ceq c lf).
Inductive MComment (s : str) : nat -> Prop :=
| MC_lf b r : s = $"//" ++ b ++ lf :: r -> all_ not_eol b -> MComment s (length b + 3)
| MC_crlf b r : s = $"//" ++ b ++ cr :: lf :: r -> all_ not_eol b -> MComment s (length b + 4)
| MC_eof b : s = $"//" ++ b -> all_ not_eol b -> MComment s (length b + 2).
Definition mrule := str -> nat -> Prop.
Definition spec_words (l : list (kind * str)) : list (kind * mrule) := map (fun e => (fst e, prefix_in (LWord (snd e)))) l.
Definition spec_rules (m : mode) : list (kind * mrule) :=
  match m with
  | Default => spec_words keywords ++ spec_words punctuation ++
      [(IDENTIFIER, prefix_in LIdentifier); (NUMBER, prefix_in LNumber); (STRING, prefix_in StrToken); (STRING, prefix_in LRaw1);
       (STRING, prefix_in (LRaw 2)); (STRING, prefix_in (LRaw 3)); (SINGLE_LINE_COMMENT, MComment); (SPACES, prefix_in LSpace)]
  | Extensions => [(URI, prefix_in LUri); (LEFTBRACE, prefix_in (LWord $"{")); (SPACES, prefix_in LSpace)]
  end.
(** The longest match, and the first rule among those that match as much. *)
Definition Longest (m : mode) (s : str) (k : kind) (n : nat) : Prop :=
  exists i M, nth_error (spec_rules m) i = Some (k, M) /\ M s n /\
  forall j k' M' n', nth_error (spec_rules m) j = Some (k', M') -> M' s n' -> n' < n \/ n' = n /\ i <= j.
Definition piece_text (p : piece) : str := match p with Token _ t => t | Bad c => [c] end.
Definition piece_kind (p : piece) : option kind := match p with Token k _ => Some k | Bad _ => None end.

(** * Rules *)
Definition correct (f : rule) (M : mrule) : Prop := forall s, (forall n, f s = Some n -> M s n /\ forall n', M s n' -> n' <= n) /\ (f s = None -> forall n, ~ M s n).

Lemma span_app P a : forall b, all_ P a -> span P (a ++ b) = length a + span P b.
Proof.
  induction a as [|c a IH]; intros b H; [reflexivity|]. unfold all_ in H. simpl in H. apply andb_true_iff in H as [Hc Ha].
  simpl. rewrite Hc. f_equal. apply IH. exact Ha.
Qed.
Lemma span_all P s : all_ P (firstn (span P s) s).
Proof. unfold all_. induction s as [|c s IH]; [reflexivity|]. simpl. destruct (P c) eqn:E; [|reflexivity]. simpl. rewrite E. exact IH. Qed.
Lemma span_le P s : span P s <= length s.
Proof. induction s as [|c s IH]; simpl; [lia|]. destruct (P c); lia. Qed.
Lemma span_stop P s : match skipn (span P s) s with [] => True | c :: _ => P c = false end.
Proof. induction s as [|c s IH]; simpl; [exact I|]. destruct (P c) eqn:E; [exact IH|]. exact E. Qed.
Lemma span_split P s : exists a b, s = a ++ b /\ span P s = length a /\ all_ P a /\ match b with [] => True | c :: _ => P c = false end.
Proof.
  exists (firstn (span P s) s), (skipn (span P s) s).
  split; [symmetry; apply firstn_skipn|]. split; [rewrite firstn_length_le; [reflexivity|apply span_le]|]. split; [apply span_all|apply span_stop].
Qed.
Lemma span_zero P c r : P c = false -> span P (c :: r) = 0.
Proof. simpl. intros ->. reflexivity. Qed.
Lemma all_app P a b : all_ P (a ++ b) <-> all_ P a /\ all_ P b.
Proof. unfold all_. rewrite forallb_app. apply andb_true_iff. Qed.
Lemma skipn_length_app {A} (a b : list A) : skipn (length a) (a ++ b) = b.
Proof. induction a; [reflexivity|assumption]. Qed.
Lemma skipn_plus {A} (a b : list A) x : skipn (length a + x) (a ++ b) = skipn x b.
Proof. induction a; [reflexivity|assumption]. Qed.
Lemma firstn_length_app {A} (a b : list A) : firstn (length a) (a ++ b) = a.
Proof. induction a; simpl; [reflexivity|f_equal; assumption]. Qed.

Lemma correct_word w : correct (word w) (prefix_in (LWord w)).
Proof.
  intros s. unfold word. destruct (to_lower (firstn (length w) s) =s w) eqn:E; split; intros H0; try discriminate.
  - intros [= <-]. apply seq_eqb_eq in E. split.
    + exists (firstn (length w) s), (skipn (length w) s). split; [symmetry; apply firstn_skipn|]. split; [|exact E].
      rewrite <- (to_lower_length (firstn _ _)), E. reflexivity.
    + intros n' (t & r & _ & <- & Ht). unfold LWord in Ht. rewrite <- Ht, to_lower_length. lia.
  - intros n (t & r & -> & _ & Ht). unfold LWord in Ht. rewrite <- Ht, to_lower_length, firstn_length_app, Ht, seq_eqb_refl in E. discriminate.
Qed.

Lemma correct_identifier : correct identifier (prefix_in LIdentifier).
Proof.
  intros s. unfold identifier. destruct s as [|c r].
  { split; [discriminate|]. intros _ n (t & r & H & _ & Ht). destruct Ht. discriminate. }
  destruct (is_alpha c) eqn:E; split; try discriminate.
  - intros n [= <-]. split.
    + exists (c :: firstn (span is_word r) r), (skipn (span is_word r) r). split; [simpl; f_equal; symmetry; apply firstn_skipn|]. split.
      * simpl. f_equal. apply firstn_length_le, span_le.
      * constructor; [exact E|apply span_all].
    + intros n' (t & r' & H & <- & Ht). destruct Ht as [c' b Hc Hb]. simpl in H. injection H as <- ->.
      simpl. rewrite span_app by exact Hb. lia.
  - intros _ n (t & r' & H & <- & Ht). destruct Ht as [c' b Hc Hb]. simpl in H. injection H as <- ->. congruence.
Qed.

Lemma digit_not_dot c : is_digit c = true -> c <> "."%char /\ c <> "-"%char /\ c <> "+"%char /\ lower c <> "e"%char.
Proof.
  intros H. apply is_digit_code in H. assert (Hl : lower c = c).
  { unfold lower, is_upper. destruct ((65 <=? code c) && (code c <=? 90))%N eqn:E; [|reflexivity]. lia. }
  rewrite Hl. repeat split; intros ->; unfold code in H; simpl in H; lia.
Qed.
Lemma span_some P d b : some_ P d -> span P (d ++ b) = length d + span P b /\ 1 <= length d.
Proof. intros [H1 H2]. split; [apply span_app, H2|]. destruct d; [congruence|simpl; lia]. Qed.
Lemma e_not_digit e : lower e = "e"%char -> is_digit e = false /\ ceq e "." = false.
Proof.
  intros H. split.
  - destruct (is_digit e) eqn:E; [|reflexivity]. apply digit_not_dot in E. tauto.
  - destruct (ceq e ".") eqn:E; [|reflexivity]. apply ceq_true in E. subst. discriminate.
Qed.
Lemma dot_not_digit : is_digit "." = false. Proof. reflexivity. Qed.
Lemma fraction_ok s : fraction s = 0 \/ exists a b, s = a ++ b /\ fraction s = length a /\ LFraction a /\ match b with [] => True | c :: _ => is_digit c = false end.
Proof.
  destruct s as [|c r]; [left; reflexivity|]. unfold fraction. destruct (ceq c ".") eqn:E; [|left; reflexivity].
  apply ceq_true in E. subst c. destruct (span_split is_digit r) as (a & b & -> & Hn & Ha & Hb). rewrite Hn.
  destruct a as [|x a]; [left; reflexivity|]. right. exists ("."%char :: x :: a), b. split; [reflexivity|]. split; [reflexivity|].
  split; [constructor; split; [discriminate|exact Ha]|exact Hb].
Qed.
Lemma exponent_ok s : exponent s = 0 \/ exists a b, s = a ++ b /\ exponent s = length a /\ LExponent a.
Proof.
  destruct s as [|c [|d r]]; [left; reflexivity..|]. unfold exponent. destruct (ceq (lower c) "e" && (ceq d "+" || ceq d "-")) eqn:E; [|left; reflexivity].
  apply andb_true_iff in E as [E1 E2]. apply ceq_true in E1. apply orb_true_iff in E2. rewrite !ceq_true in E2.
  destruct (span_split is_digit r) as (a & b & -> & Hn & Ha & Hb). rewrite Hn.
  destruct a as [|x a]; [left; reflexivity|]. right. exists (c :: d :: x :: a), b. split; [reflexivity|]. split; [reflexivity|].
  constructor; [exact E1|exact E2|]. split; [discriminate|exact Ha].
Qed.
Lemma fraction_least f r : LFraction f -> length f <= fraction (f ++ r).
Proof. intros [d Hd]. cbn [app fraction]. rewrite ceq_refl. destruct (span_some _ _ r Hd) as [-> Hl]. destruct (length d + _) eqn:E; simpl; lia. Qed.
Lemma fraction_exact f r : LFraction f -> match r with [] => True | c :: _ => is_digit c = false end -> fraction (f ++ r) = length f.
Proof.
  intros [d Hd] Hr. cbn [app fraction]. rewrite ceq_refl. destruct (span_some _ _ r Hd) as [-> Hl].
  replace (span is_digit r) with 0 by (destruct r as [|c r]; [reflexivity|]; simpl; rewrite Hr; reflexivity).
  rewrite Nat.add_0_r. simpl. destruct (length d); lia.
Qed.
Lemma exponent_least e r : LExponent e -> length e <= exponent (e ++ r).
Proof.
  intros [c s d Hc Hs Hd]. cbn [app exponent]. rewrite Hc, ceq_refl. replace (ceq s "+" || ceq s "-") with true by (destruct Hs; subst; reflexivity). simpl.
  destruct (span_some _ _ r Hd) as [-> Hl]. destruct (length d + _) eqn:E; simpl; lia.
Qed.
Lemma sub_minus m d r : m = [] \/ m = ["-"%char] -> some_ is_digit d -> minus (m ++ d ++ r) = length m.
Proof.
  intros [-> | ->] Hd; [|reflexivity]. destruct Hd as [Hne Hd]. destruct d as [|x d]; [congruence|]. unfold all_ in Hd. simpl in Hd.
  apply andb_true_iff in Hd as [Hx _]. simpl. destruct (ceq x "-") eqn:E; [|reflexivity]. apply ceq_true in E. subst. discriminate.
Qed.
Lemma number_least t r : LNumber t -> exists n, number (t ++ r) = Some n /\ length t <= n.
Proof.
  intros [m d f e Hm Hd Hf He]. unfold number. rewrite <- !app_assoc.
  rewrite (sub_minus m d _ Hm Hd), skipn_length_app.
  destruct (span_some _ d (f ++ e ++ r) Hd) as [Hs Hl]. rewrite Hs.
  destruct (length d + span is_digit (f ++ e ++ r)) as [|k] eqn:Ek; [lia|]. rewrite <- Ek. clear Ek.
  eexists. split; [reflexivity|]. rewrite !app_length.
  assert (Hsk : forall x, skipn (length m + (length d + x)) (m ++ d ++ f ++ e ++ r) = skipn x (f ++ e ++ r)).
  { intros x. rewrite app_assoc, Nat.add_assoc, <- app_length. apply skipn_plus. }
  rewrite Hsk.
  destruct Hf as [-> | Hf].
  - destruct He as [-> | He]; [simpl length; lia|]. simpl app.
    assert (Hz : span is_digit (e ++ r) = 0 /\ fraction (e ++ r) = 0).
    { destruct He as [c s d' Hc _ _]. destruct (e_not_digit c Hc) as [H1 H2]. simpl. rewrite H1, H2. split; reflexivity. }
    destruct Hz as [-> Hz2]. simpl skipn. rewrite Hz2.
    replace (length m + (length d + 0) + 0) with (length m + (length d + 0)) by lia. rewrite Hsk. simpl skipn. pose proof (exponent_least e r He). simpl. lia.
  - assert (Hz : span is_digit (f ++ e ++ r) = 0) by (destruct Hf as [d' _]; reflexivity). rewrite Hz. simpl skipn.
    destruct He as [-> | He].
    + simpl app. pose proof (fraction_least f r Hf). simpl length. lia.
    + assert (Hx : match e ++ r with [] => True | c :: _ => is_digit c = false end).
      { destruct He as [c s d' Hc _ _]. simpl. apply e_not_digit, Hc. }
      rewrite (fraction_exact f _ Hf Hx).
      replace (length m + (length d + 0) + length f) with (length m + (length d + length f)) by lia. rewrite Hsk, skipn_length_app.
      pose proof (exponent_least e r He). lia.
Qed.
Lemma minus_split s : exists m', (m' = [] \/ m' = ["-"%char]) /\ minus s = length m' /\ s = m' ++ skipn (minus s) s.
Proof.
  destruct s as [|c r]; [exists []; auto|]. unfold minus. destruct (ceq c "-") eqn:E; [|exists []; auto].
  apply ceq_true in E. subst c. exists ["-"%char]. auto.
Qed.
Lemma number_sound s n : number s = Some n -> prefix_in LNumber s n.
Proof.
  unfold number. destruct (minus_split s) as (m & Hm & Em & Es). rewrite Em in *. revert Es.
  destruct (span_split is_digit (skipn (length m) s)) as (d & b & Hs & Hn & Hd & _). rewrite Hn, Hs. intros ->.
  destruct d as [|x d]; [discriminate|]. cbn [length]. intros [= <-].
  replace (length m + S (length d)) with (length (m ++ x :: d)) by (rewrite app_length; reflexivity).
  change (x :: d ++ b) with ((x :: d) ++ b). rewrite (app_assoc m). rewrite skipn_length_app.
  assert (Hx : some_ is_digit (x :: d)) by (split; [discriminate|exact Hd]).
  destruct (fraction_ok b) as [Ef | (f & b' & -> & Ef & Hf & _)]; rewrite Ef.
  - rewrite Nat.add_0_r, skipn_length_app. destruct (exponent_ok b) as [Ee | (e & b' & -> & Ee & He)]; rewrite Ee.
    + exists (m ++ (x :: d) ++ [] ++ []), b. split; [rewrite <- !app_assoc; reflexivity|]. split; [rewrite !app_length; simpl; lia|]. constructor; auto.
    + exists (m ++ (x :: d) ++ [] ++ e), b'. split; [rewrite <- !app_assoc; reflexivity|]. split; [rewrite !app_length; simpl; lia|]. constructor; auto.
  - rewrite <- app_length, (app_assoc (m ++ x :: d) f), skipn_length_app. destruct (exponent_ok b') as [Ee | (e & b'' & -> & Ee & He)]; rewrite Ee.
    + exists (m ++ (x :: d) ++ f ++ []), b'. split; [rewrite app_nil_r, <- !app_assoc; reflexivity|]. split; [rewrite !app_length; simpl; lia|]. constructor; auto.
    + exists (m ++ (x :: d) ++ f ++ e), b''. split; [rewrite <- !app_assoc; reflexivity|]. split; [rewrite !app_length; simpl; lia|]. constructor; auto.
Qed.
Lemma correct_number : correct number (prefix_in LNumber).
Proof.
  intros s. split.
  - intros n H. split; [apply number_sound, H|]. intros n' (t & r & -> & <- & Ht). destruct (number_least t r Ht) as (k & Hk & Hle). congruence.
  - intros H n (t & r & -> & _ & Ht). destruct (number_least t r Ht) as (k & Hk & Hle). congruence.
Qed.

Lemma correct_string : correct lex_string (prefix_in StrToken).
Proof.
  intros s. split.
  - intros n H. apply lex_string_longest in H as (Hn & Ht & Hmax). split.
    + exists (firstn n s), (skipn n s). split; [symmetry; apply firstn_skipn|]. split; [apply firstn_length_le, Hn|exact Ht].
    + intros n' (t & r & -> & <- & H'). apply Hmax; [rewrite app_length; lia|]. rewrite firstn_length_app. exact H'.
  - intros H n (t & r & -> & <- & H'). apply (lex_string_none _ H (length t)); [rewrite app_length; lia|]. rewrite firstn_length_app. exact H'.
Qed.

Lemma starts_app p : forall s, starts p s = true <-> exists r, s = p ++ r.
Proof.
  induction p as [|c p IH]; intros s; simpl; [split; eauto|]. destruct s as [|d s]; [split; [discriminate|intros (r & H); discriminate]|].
  rewrite andb_true_iff, ceq_true, IH. split.
  - intros (-> & r & ->). eauto.
  - intros (r & [= -> ->]). eauto.
Qed.
Lemma upto_spec q s : (forall k, upto q s = Some k -> exists b r, s = b ++ q ++ r /\ k = length b + length q /\ forall b' r', s = b' ++ q ++ r' -> length b <= length b') /\
  (upto q s = None -> forall b r, s <> b ++ q ++ r).
Proof.
  induction s as [|c s [IH1 IH2]].
  - simpl. destruct (starts q []) eqn:E; split; try discriminate.
    + intros k [= <-]. apply starts_app in E as (r & Hr). exists [], r. split; [exact Hr|]. split; [reflexivity|]. simpl. lia.
    + intros _ b r H. symmetry in H. apply app_eq_nil in H as [-> H]. assert (X : starts q [] = true) by (apply starts_app; eauto). congruence.
  - simpl. destruct (starts q (c :: s)) eqn:E; split.
    + intros k [= <-]. apply starts_app in E as (r & Hr). exists [], r. split; [exact Hr|]. split; [reflexivity|]. simpl. lia.
    + discriminate.
    + intros k H. destruct (upto q s) as [k'|]; [|discriminate]. injection H as <-. destruct (IH1 k' eq_refl) as (b & r & -> & -> & Hmin).
      exists (c :: b), r. split; [reflexivity|]. split; [reflexivity|]. intros [|c' b'] r' H'.
      * simpl in H'. assert (X : starts q (c :: b ++ q ++ r) = true) by (apply starts_app; eauto). congruence.
      * simpl in H'. injection H' as _ H'. apply Hmin in H'. simpl. lia.
    + intros H. destruct (upto q s) as [k'|]; [discriminate|]. intros [|c' b'] r' H'.
      * simpl in H'. assert (X : starts q (c :: s) = true) by (apply starts_app; eauto). congruence.
      * simpl in H'. injection H' as _ H'. exact (IH2 eq_refl _ _ H').
Qed.
Lemma correct_raw n : correct (raw n) (prefix_in (LRaw n)).
Proof.
  assert (Hl : length (repeat backtick n) = n) by apply repeat_length.
  intros s. unfold raw. set (q := repeat backtick n) in *. destruct (starts q s) eqn:E.
  2:{ split; [discriminate|]. intros _ k (t & r & -> & _ & Ht). destruct Ht as [b _ _]. fold q in E. rewrite <- !app_assoc in E.
      assert (X : starts q (q ++ b ++ q ++ r) = true) by (apply starts_app; eauto). congruence. }
  apply starts_app in E as (x & ->).
  replace (skipn n (q ++ x)) with x by (rewrite <- Hl; symmetry; apply skipn_length_app).
  destruct x as [|c x].
  { split; [discriminate|]. intros _ k (t & r & H & _ & Ht). destruct Ht as [b Hb _]. fold q in H. rewrite <- !app_assoc in H.
    apply app_inv_head in H. symmetry in H. apply app_eq_nil in H as [H _]. contradiction. }
  destruct (upto_spec q x) as [H1 H2]. destruct (upto q x) as [k|]; split; try discriminate.
  - intros n' H. injection H as <-. destruct (H1 k eq_refl) as (b & r & -> & -> & Hmin). split.
    + exists (q ++ (c :: b) ++ q), r. split; [rewrite <- !app_assoc; reflexivity|]. split; [rewrite !app_length; simpl; lia|].
      unfold q. constructor; [discriminate|]. fold q. intros [|c' b'] r' Hb' H; [congruence|]. simpl in H. injection H as _ H.
      assert (HH : b ++ q ++ r = b' ++ q ++ r' ++ r).
      { rewrite app_assoc, H, <- !app_assoc. reflexivity. }
      apply Hmin in HH. simpl. lia.
    + intros n' (t & r' & H & <- & Ht). destruct Ht as [b0 Hb0 Hmin0]. fold q in H, Hmin0. fold q. rewrite <- !app_assoc in H. apply app_inv_head in H.
      rewrite !app_length, Hl. destruct b0 as [|c0 b0]; [congruence|]. simpl in H. injection H as <- H. simpl.
      assert (length b0 <= length b); [|lia].
      assert (Hle : length b <= length b0) by (apply (Hmin b0 r'); exact H).
      (* the closing backticks of the first occurrence lie within [b0 ++ q] *)
      destruct (Nat.eq_dec (length b) (length b0)) as [He|He]; [lia|].
      exfalso. assert (Hlt : length b < length b0) by lia.
      assert (Hpre : exists r'', b0 ++ q = b ++ q ++ r'').
      { exists (firstn (length b0 - length b) (skipn (length (b ++ q)) (b0 ++ q ++ r'))).
        assert (Hs : b0 ++ q ++ r' = (b ++ q) ++ r) by (rewrite <- H, <- app_assoc; reflexivity).
        rewrite Hs at 1. rewrite skipn_length_app. rewrite (app_assoc b q).
        assert (HL : length (b0 ++ q) = length (b ++ q) + (length b0 - length b)) by (rewrite !app_length; lia).
        transitivity (firstn (length (b0 ++ q)) ((b0 ++ q) ++ r')); [symmetry; apply firstn_length_app|].
        rewrite <- app_assoc, Hs, HL. rewrite firstn_app. rewrite firstn_all2 by lia. f_equal. f_equal. lia. }
      destruct Hpre as (r'' & Hpre). specialize (Hmin0 (c :: b) r''). simpl in Hmin0.
      assert (S (length b0) <= S (length b)) by (apply Hmin0; [discriminate|rewrite Hpre; reflexivity]). lia.
  - intros _ k (t & r' & H & <- & Ht). destruct Ht as [b0 Hb0 _]. fold q in H. rewrite <- !app_assoc in H. apply app_inv_head in H.
    destruct b0 as [|c0 b0]; [congruence|]. simpl in H. injection H as <- H. exact (H2 eq_refl _ _ H).
Qed.
Lemma correct_raw1 : correct raw1 (prefix_in LRaw1).
Proof.
  intros s. unfold raw1. destruct s as [|c s].
  { split; [discriminate|]. intros _ n (t & r & H & _ & Ht). destruct Ht. discriminate. }
  destruct (ceq c backtick) eqn:E.
  2:{ split; [discriminate|]. intros _ n (t & r & H & _ & Ht). destruct Ht. simpl in H. injection H as -> _. rewrite ceq_refl in E. discriminate. }
  apply ceq_true in E. subst c. set (P := fun d => negb (ceq d backtick)).
  destruct (span_split P s) as (a & b & -> & Hn & Ha & Hb). rewrite Hn.
  assert (Huniq : forall x r, some_ P x -> a ++ b = (x ++ [backtick]) ++ r -> a = x /\ b = backtick :: r).
  { intros x r [_ Hx] H. rewrite <- app_assoc in H. clear Hn. revert x Hx H. induction a as [|y a IH]; intros x Hx H.
    - destruct x as [|z x]; [split; [reflexivity|exact H]|]. simpl in H. subst b. unfold all_ in Hx. simpl in Hx. rewrite Hb in Hx. discriminate.
    - destruct x as [|z x].
      + simpl in H. injection H as -> H. unfold all_ in Ha. discriminate Ha.
      + simpl in H. injection H as -> H. unfold all_ in Ha, Hx. simpl in Ha, Hx. apply andb_true_iff in Ha as [_ Ha], Hx as [_ Hx].
        destruct (IH Ha x Hx H) as [-> ->]. split; reflexivity. }
  destruct a as [|x a].
  { split; [discriminate|]. intros _ n (t & r & H & _ & Ht). destruct Ht as [y Hy]. simpl in H. injection H as H.
    destruct (Huniq y r Hy H) as [<- _]. destruct Hy as [Hy _]. congruence. }
  cbn [length]. change (S (length a)) with (length (x :: a)). rewrite skipn_length_app. destruct b as [|y b].
  { split; [discriminate|]. intros _ n (t & r & H & _ & Ht). destruct Ht as [z Hz]. simpl in H. injection H as H0.
    destruct (Huniq z r Hz H0) as [_ H1]. discriminate. }
  split; [|discriminate]. intros n [= <-].
  assert (y = backtick). { unfold P in Hb. destruct (ceq y backtick) eqn:E; [apply ceq_true in E; exact E|discriminate]. } subst y. split.
  - exists (backtick :: (x :: a) ++ [backtick]), b. split; [simpl; f_equal; f_equal; rewrite <- app_assoc; reflexivity|]. split; [simpl; rewrite app_length; simpl; lia|].
    constructor. split; [discriminate|exact Ha].
  - intros n' (t & r & H & <- & Ht). destruct Ht as [z Hz]. simpl in H. injection H as H0. destruct (Huniq z r Hz H0) as [<- _]. simpl. rewrite app_length. simpl. lia.
Qed.
Lemma correct_spaces : correct spaces (prefix_in LSpace).
Proof.
  intros s. unfold spaces. destruct s as [|c s].
  { split; [discriminate|]. intros _ n (t & r & H & _ & Ht). destruct Ht. discriminate. }
  destruct (is_space c) eqn:E; split; try discriminate.
  - intros n [= <-]. split; [exists [c], s; repeat split; exact E|]. intros n' (t & r & H & <- & Ht). destruct Ht. simpl. lia.
  - intros _ n (t & r & H & _ & Ht). destruct Ht. simpl in H. injection H as -> _. congruence.
Qed.
Lemma all_split P a : forall b x y, all_ P a -> all_ P b -> P x = false -> P y = false -> forall r s, a ++ x :: r = b ++ y :: s -> a = b /\ x = y /\ r = s.
Proof.
  induction a as [|c a IH]; intros [|d b] x y Ha Hb Hx Hy r s H; simpl in H.
  - injection H as -> ->. auto.
  - injection H as -> H. unfold all_ in Hb. simpl in Hb. rewrite Hx in Hb. discriminate.
  - injection H as -> H. unfold all_ in Ha. simpl in Ha. rewrite Hy in Ha. discriminate.
  - injection H as -> H. unfold all_ in Ha, Hb. simpl in Ha, Hb. apply andb_true_iff in Ha as [_ Ha], Hb as [_ Hb].
    destruct (IH b x y Ha Hb Hx Hy r s H) as (-> & -> & ->). auto.
Qed.
Lemma all_end P a : forall b y s, all_ P a -> P y = false -> a <> b ++ y :: s.
Proof.
  induction a as [|c a IH]; intros [|d b] y s Ha Hy H; simpl in H; try discriminate; injection H as -> H; unfold all_ in Ha; simpl in Ha; apply andb_true_iff in Ha as [H1 H2].
  - congruence.
  - exact (IH b y s H2 Hy H).
Qed.
Lemma eol_cr : not_eol cr = false. Proof. reflexivity. Qed.
Lemma eol_lf : not_eol lf = false. Proof. reflexivity. Qed.
Lemma lf_cr : lf <> cr.
Proof. intros H. assert (X : ceq lf cr = true) by (rewrite H; apply ceq_refl). discriminate. Qed.
Lemma comment_func s n n' : MComment s n -> MComment s n' -> n = n'.
Proof.
  intros H H'. destruct H as [b r -> Hb | b r -> Hb | b -> Hb]; destruct H' as [b' r' E Hb' | b' r' E Hb' | b' E Hb'];
    apply app_inv_head in E;
    [ destruct (all_split _ _ _ _ _ Hb Hb' eol_lf eol_lf _ _ E) as (E1 & E2 & E3); rewrite E1; reflexivity
    | destruct (all_split _ _ _ _ _ Hb Hb' eol_lf eol_cr _ _ E) as (E1 & E2 & E3); exfalso; exact (lf_cr E2)
    | exfalso; symmetry in E; exact (all_end _ _ _ _ _ Hb' eol_lf E)
    | destruct (all_split _ _ _ _ _ Hb Hb' eol_cr eol_lf _ _ E) as (E1 & E2 & E3); exfalso; exact (lf_cr (eq_sym E2))
    | destruct (all_split _ _ _ _ _ Hb Hb' eol_cr eol_cr _ _ E) as (E1 & E2 & E3); rewrite E1; reflexivity
    | exfalso; symmetry in E; exact (all_end _ _ _ _ _ Hb' eol_cr E)
    | exfalso; exact (all_end _ _ _ _ _ Hb eol_lf E)
    | exfalso; exact (all_end _ _ _ _ _ Hb eol_cr E)
    | subst; reflexivity].
Qed.
Lemma correct_comment : correct comment MComment.
Proof.
  intros s. unfold comment. fold not_eol. destruct (starts $"//" s) eqn:E.
  2:{ split; [discriminate|]. intros _ n H. assert (X : starts $"//" s = true) by (apply starts_app; destruct H; subst; eauto). congruence. }
  apply starts_app in E as (x & ->). change (skipn 2 ($"//" ++ x)) with x.
  change (span (fun c => negb (ceq c cr || ceq c lf)) x) with (span not_eol x).
  destruct (span_split not_eol x) as (a & b & -> & Hn & Ha & Hb). rewrite Hn.
  replace (skipn (2 + length a) ($"//" ++ a ++ b)) with b by (symmetry; exact (skipn_length_app a b)).
  destruct b as [|c r].
  - split; [|discriminate]. intros n [= <-].
    assert (H : MComment ($"//" ++ a ++ []) (length a + 2)) by (apply MC_eof; [rewrite app_nil_r; reflexivity|exact Ha]).
    replace (S (S (length a))) with (length a + 2) by lia. split; [exact H|]. intros n' H'. rewrite (comment_func _ _ _ H' H). lia.
  - assert (Hc : c = cr \/ c = lf).
    { unfold not_eol in Hb. apply negb_false_iff, orb_true_iff in Hb. rewrite !ceq_true in Hb. exact Hb. }
    destruct (ceq c lf) eqn:El.
    + apply ceq_true in El. subst c. split; [|discriminate]. intros n [= <-].
      assert (H : MComment ($"//" ++ a ++ lf :: r) (length a + 3)) by (eapply MC_lf; [reflexivity|exact Ha]).
      replace (S (S (S (length a)))) with (length a + 3) by lia. split; [exact H|]. intros n' H'. rewrite (comment_func _ _ _ H' H). lia.
    + assert (c = cr) by (destruct Hc as [Hc | ->]; [exact Hc|rewrite ceq_refl in El; discriminate]). subst c.
      assert (Hno : (forall d r', r = d :: r' -> ceq d lf = false) -> forall n, ~ MComment ($"//" ++ a ++ cr :: r) n).
      { intros Hd n H. inversion H as [b' r' E Hb' | b' r' E Hb' | b' E Hb']; apply app_inv_head in E.
        - destruct (all_split _ _ _ _ _ Ha Hb' eol_cr eol_lf _ _ E) as (_ & E2 & _). exact (lf_cr (eq_sym E2)).
        - destruct (all_split _ _ _ _ _ Ha Hb' eol_cr eol_cr _ _ E) as (_ & _ & E2). specialize (Hd _ _ E2). rewrite ceq_refl in Hd. discriminate.
        - symmetry in E. exact (all_end _ _ _ _ _ Hb' eol_cr E). }
      destruct r as [|d r]; [split; [discriminate|]; intros _; apply Hno; discriminate|].
      destruct (ceq d lf) eqn:Ed.
      * apply ceq_true in Ed. subst d. split; [|discriminate]. intros n [= <-].
        assert (H : MComment ($"//" ++ a ++ cr :: lf :: r) (length a + 4)) by (eapply MC_crlf; [reflexivity|exact Ha]).
        replace (S (S (S (S (length a))))) with (length a + 4) by lia. split; [exact H|]. intros n' H'. rewrite (comment_func _ _ _ H' H). lia.
      * split; [discriminate|]. intros _. apply Hno. intros d' r' [= -> ->]. exact Ed.
Qed.

(** URIs *)
Lemma path_more_file f : forall r, all_ is_file f -> path_more (f ++ r) = length f + path_more r.
Proof.
  induction f as [|c f IH]; intros r H; [reflexivity|]. unfold all_ in H. simpl in H. apply andb_true_iff in H as [Hc Hf].
  cbn [app path_more length]. rewrite Hc. rewrite IH by exact Hf. reflexivity.
Qed.
Lemma path_head p : LPath p -> exists c r, p = c :: r /\ is_file c = true.
Proof.
  intros H. assert (X : forall f, some_ is_file f -> exists c r, f = c :: r /\ is_file c = true).
  { intros [|c f] [H1 H2]; [congruence|]. unfold all_ in H2. simpl in H2. apply andb_true_iff in H2 as [H2 _]. eauto. }
  destruct H as [f Hf | f p Hf Hp]; destruct (X f Hf) as (c & r & -> & Hc); [eauto|exists c, (r ++ "/"%char :: p); auto].
Qed.
Lemma path_least p r : LPath p -> length p <= path_more (p ++ r).
Proof.
  intros H. revert r. induction H as [f [_ Hf] | f p [_ Hf] Hp IH]; intros r.
  - rewrite path_more_file by exact Hf. lia.
  - rewrite <- app_assoc, path_more_file, app_length by exact Hf. cbn [app path_more]. destruct (path_head p Hp) as (c & q & -> & Hc).
    change (is_file "/") with false. rewrite ceq_refl. cbn [app]. rewrite Hc. specialize (IH r). cbn [app length] in IH. cbn [length]. lia.
Qed.
Lemma path_more_le s : path_more s <= length s.
Proof.
  induction s as [|c s IH]; [simpl; lia|]. cbn [path_more length]. destruct (is_file c); [lia|]. destruct (ceq c "/"); [|lia].
  destruct s as [|d s]; [lia|]. destruct (is_file d); lia.
Qed.
Lemma path_sound k : forall t, length t <= k -> forall x u, t = x :: u -> is_file x = true -> LPath (firstn (path_more t) t).
Proof.
  induction k as [|k IHk]; intros t Hk x u -> Hx; [simpl in Hk; lia|].
  cbn [path_more]. rewrite Hx. cbn [firstn]. cbn [length] in Hk.
  assert (Hone : some_ is_file [x]) by (split; [discriminate|]; unfold all_; simpl; rewrite Hx; reflexivity).
  destruct u as [|d u]; [apply LP_one, Hone|]. destruct (is_file d) eqn:Ed.
  + specialize (IHk (d :: u) ltac:(simpl in *; lia) d u eq_refl Ed). remember (firstn (path_more (d :: u)) (d :: u)) as q eqn:Eq. clear Eq. inversion IHk as [f [Hf1 Hf2] Ef | f p [Hf1 Hf2] Hp Ef].
    * apply LP_one. split; [discriminate|]. unfold all_ in *. simpl. rewrite Hx. exact Hf2.
    * change (x :: f ++ "/"%char :: p) with ((x :: f) ++ "/"%char :: p). subst q. apply (LP_more (x :: f)); [|exact Hp]. split; [discriminate|]. unfold all_ in *. simpl. rewrite Hx. exact Hf2.
  + cbn [path_more]. rewrite Ed. destruct (ceq d "/") eqn:Es; [|apply LP_one, Hone]. destruct u as [|e u]; [apply LP_one, Hone|].
    destruct (is_file e) eqn:Ee; [|apply LP_one, Hone]. apply ceq_true in Es. subst d. cbn [firstn]. apply (LP_more [x]); [exact Hone|].
    apply (IHk (e :: u) ltac:(simpl in *; lia) e u eq_refl Ee).
Qed.
Lemma correct_path : correct path_len (prefix_in LPath).
Proof.
  intros s. unfold path_len. destruct s as [|c s].
  { split; [discriminate|]. intros _ n (t & r & H & _ & Ht). destruct (path_head _ Ht) as (x & y & -> & _). discriminate. }
  destruct (is_file c) eqn:E; split; try discriminate.
  - intros n H0. assert (n = path_more (c :: s)) by congruence. subst n. clear H0. split.
    + exists (firstn (path_more (c :: s)) (c :: s)), (skipn (path_more (c :: s)) (c :: s)). split; [symmetry; apply firstn_skipn|].
      split; [apply firstn_length_le, path_more_le|]. apply (path_sound _ _ (le_n _) c s eq_refl E).
    + intros n' (t & r & H & <- & Ht). rewrite H. apply path_least, Ht.
  - intros _ n (t & r & H & _ & Ht). destruct (path_head _ Ht) as (x & y & -> & Hx). simpl in H. injection H as -> _. congruence.
Qed.
Lemma path_len_some t r : LPath t -> exists n, path_len (t ++ r) = Some n /\ length t <= n.
Proof.
  intros Ht. destruct (correct_path (t ++ r)) as [H1 H2]. destruct (path_len (t ++ r)) as [n|] eqn:E.
  - exists n. split; [reflexivity|]. apply (proj2 (H1 n eq_refl)). exists t, r. auto.
  - exfalso. apply (H2 eq_refl (length t)). exists t, r. auto.
Qed.
Lemma alpha_no_colon c : is_alpha c = true -> c <> ":"%char /\ c <> "/"%char.
Proof. intros H. split; intros ->; discriminate. Qed.
Lemma file_no_slash c : is_file c = true -> ceq c "/" = false /\ c <> ":"%char.
Proof. intros H. split; [destruct (ceq c "/") eqn:E; [apply ceq_true in E; subst; discriminate|reflexivity]|intros ->; discriminate]. Qed.
Definition plain_uri (s : str) : option nat := plus (slash s) (path_len (skipn (slash s) s)).
Lemma plain_least p r : LPath p -> (exists n, plain_uri (p ++ r) = Some n /\ length p <= n) /\ (exists n, plain_uri ("/"%char :: p ++ r) = Some n /\ S (length p) <= n).
Proof.
  intros Hp. destruct (path_len_some p r Hp) as (n & Hn & Hle). destruct (path_head p Hp) as (c & q & -> & Hc). split.
  - exists n. split; [|exact Hle]. unfold plain_uri. cbn [app slash]. rewrite (proj1 (file_no_slash c Hc)). cbn [skipn]. cbn [app] in Hn. rewrite Hn. reflexivity.
  - exists (S n). split; [|lia]. unfold plain_uri. cbn [slash]. rewrite ceq_refl. cbn [skipn]. rewrite Hn. reflexivity.
Qed.
Lemma plain_sound s n : plain_uri s = Some n -> prefix_in LUri s n.
Proof.
  unfold plain_uri. destruct (slash s) as [|k] eqn:E.
  - cbn [skipn]. destruct (path_len s) as [m|] eqn:Em; [|discriminate]. intros [= <-]. destruct (proj1 (correct_path s) m Em) as [(t & r & -> & <- & Ht) _].
    exists t, r. split; [reflexivity|]. split; [reflexivity|]. apply LU_rel, Ht.
  - destruct s as [|c s]; [discriminate|]. cbn [slash] in E. destruct (ceq c "/") eqn:Ec; [|discriminate]. injection E as <-. apply ceq_true in Ec. subst c. cbn [skipn].
    destruct (path_len s) as [m|] eqn:Em; [|discriminate]. intros [= <-]. destruct (proj1 (correct_path s) m Em) as [(t & r & -> & <- & Ht) _].
    exists ("/"%char :: t), r. split; [reflexivity|]. split; [reflexivity|]. apply LU_abs, Ht.
Qed.
Lemma uri_unfold s : uri s = match span is_alpha s with
  | 0 => plain_uri s
  | n => match skipn n s with
         | c :: r => if ceq c ":" then
             match authority r with
             | Some a => match path_len (skipn a r) with Some k => Some (n + 1 + a + k) | None => plain_uri s end
             | None => plain_uri s
             end else plain_uri s
         | [] => plain_uri s
         end
  end.
Proof. reflexivity. Qed.
Lemma path_no_colon p : LPath p -> ~ In ":"%char p.
Proof.
  assert (X : forall f, all_ is_file f -> ~ In ":"%char f).
  { intros f Hf Hin. unfold all_ in Hf. rewrite forallb_forall in Hf. specialize (Hf _ Hin). discriminate. }
  induction 1 as [f [_ Hf] | f p [_ Hf] Hp IH]; [apply X, Hf|]. rewrite in_app_iff. simpl. intros [H | [H | H]]; [exact (X _ Hf H)|discriminate|contradiction].
Qed.
(** A match of the plain form ends before the first colon. *)
Lemma plain_small a r n : plain_uri (a ++ ":"%char :: r) = Some n -> n <= length a.
Proof.
  intros H. destruct (le_lt_dec n (length a)) as [Hle|Hlt]; [exact Hle|]. exfalso.
  unfold plain_uri in H. destruct (slash (a ++ ":"%char :: r)) as [|k] eqn:E.
  - cbn [skipn plus option_map] in H. destruct (path_len (a ++ ":"%char :: r)) as [m|] eqn:Em; [|discriminate]. injection H as <-.
    destruct (proj1 (correct_path _) m Em) as [(t & r' & Et & <- & Ht) _].
    apply (path_no_colon t Ht). assert (Hn : nth_error (a ++ ":"%char :: r) (length a) = Some ":"%char) by (rewrite nth_error_app2, Nat.sub_diag by lia; reflexivity).
    rewrite Et, nth_error_app1 in Hn by lia. exact (nth_error_In _ _ Hn).
  - destruct a as [|c a]; [discriminate|]. cbn [app slash] in E. destruct (ceq c "/") eqn:Ec; [|discriminate]. injection E as <-. cbn [app skipn] in H.
    destruct (path_len (a ++ ":"%char :: r)) as [m|] eqn:Em; [|discriminate]. injection H as <-.
    destruct (proj1 (correct_path _) m Em) as [(t & r' & Et & <- & Ht) _]. cbn [length] in Hlt.
    apply (path_no_colon t Ht). assert (Hn : nth_error (a ++ ":"%char :: r) (length a) = Some ":"%char) by (rewrite nth_error_app2, Nat.sub_diag by lia; reflexivity).
    rewrite Et, nth_error_app1 in Hn by lia. exact (nth_error_In _ _ Hn).
Qed.
Lemma authority_ok r : authority r = Some 0 /\ starts $"//" r = false \/
  (exists h r', r = $"//" ++ h ++ "/"%char :: r' /\ some_ is_host h /\ authority r = Some (length ($"//" ++ h ++ ["/"%char]))) \/
  authority r = None /\ starts $"//" r = true /\ forall h r', some_ is_host h -> r <> $"//" ++ h ++ "/"%char :: r'.
Proof.
  unfold authority. destruct (starts $"//" r) eqn:E; [|auto]. apply starts_app in E as (x & ->). right.
  change (skipn 2 ($"//" ++ x)) with x. destruct (span_split is_host x) as (h & b & -> & Hn & Hh & Hb). rewrite Hn.
  assert (Hu : forall h' r', some_ is_host h' -> h ++ b = h' ++ "/"%char :: r' -> h = h' /\ b = "/"%char :: r').
  { intros h' r' [_ Hh'] H. destruct b as [|c b].
    - rewrite app_nil_r in H. exfalso. exact (all_end _ _ _ _ _ Hh (eq_refl : is_host "/" = false) H).
    - destruct (all_split _ _ _ _ _ Hh Hh' Hb (eq_refl : is_host "/" = false) _ _ H) as (-> & -> & ->). auto. }
  destruct h as [|y h].
  { right. split; [reflexivity|]. split; [reflexivity|]. intros h' r' Hh' H. apply app_inv_head in H. destruct (Hu _ _ Hh' H) as [<- _]. destruct Hh' as [Hh' _]. congruence. }
  cbn [length]. change (skipn (2 + S (length h)) ($"//" ++ (y :: h) ++ b)) with (skipn (length (y :: h)) ((y :: h) ++ b)). rewrite skipn_length_app.
  destruct b as [|c b].
  { right. split; [reflexivity|]. split; [reflexivity|]. intros h' r' Hh' H. apply app_inv_head in H. destruct (Hu _ _ Hh' H) as [_ H']. discriminate. }
  destruct (ceq c "/") eqn:Ec.
  - apply ceq_true in Ec. subst c. left. exists (y :: h), b. split; [reflexivity|]. split; [split; [discriminate|exact Hh]|]. f_equal. rewrite !app_length. simpl. lia.
  - right. split; [reflexivity|]. split; [reflexivity|]. intros h' r' Hh' H. apply app_inv_head in H. destruct (Hu _ _ Hh' H) as [_ H']. injection H' as -> _. rewrite ceq_refl in Ec. discriminate.
Qed.
Lemma alpha_colon : is_alpha ":" = false. Proof. reflexivity. Qed.
Lemma uri_sound s n : uri s = Some n -> prefix_in LUri s n.
Proof.
  rewrite uri_unfold. destruct (span_split is_alpha s) as (a & b & -> & Hn & Ha & Hb). rewrite Hn.
  destruct a as [|x a]; [apply plain_sound|]. cbn [length]. change (S (length a)) with (length (x :: a)). rewrite skipn_length_app.
  destruct b as [|c b]; [apply plain_sound|]. destruct (ceq c ":") eqn:Ec; [|apply plain_sound]. apply ceq_true in Ec. subst c.
  assert (Hs : some_ is_alpha (x :: a)) by (split; [discriminate|exact Ha]).
  destruct (authority_ok b) as [[-> _] | [(h & r' & -> & Hh & ->) | [-> _]]].
  - cbn [skipn]. destruct (path_len b) as [k|] eqn:Ek; [|apply plain_sound]. intros [= <-]. destruct (proj1 (correct_path b) k Ek) as [(t & r & -> & <- & Ht) _].
    exists ((x :: a) ++ ":"%char :: t), r. split; [rewrite <- app_assoc; reflexivity|]. split; [rewrite app_length; simpl; lia|]. apply LU_scheme; assumption.
  - replace ($"//" ++ h ++ "/"%char :: r') with (($"//" ++ h ++ ["/"%char]) ++ r') by (rewrite <- !app_assoc; reflexivity).
    rewrite skipn_length_app. destruct (path_len r') as [k|] eqn:Ek; [|apply plain_sound]. intros [= <-]. destruct (proj1 (correct_path r') k Ek) as [(t & r & -> & <- & Ht) _].
    exists ((x :: a) ++ ":"%char :: $"//" ++ h ++ "/"%char :: t), r. split; [rewrite <- !app_assoc; cbn [app]; rewrite <- !app_assoc; reflexivity|].
    split; [rewrite !app_length; cbn [length]; rewrite !app_length; simpl; lia|]. apply LU_host; assumption.
  - apply plain_sound.
Qed.
Lemma uri_least t r : LUri t -> exists n, uri (t ++ r) = Some n /\ length t <= n.
Proof.
  assert (Hp : forall s n, plain_uri s = Some n -> exists n', uri s = Some n' /\ n <= n').
  { intros s n H. rewrite uri_unfold. destruct (span_split is_alpha s) as (a & b & -> & Hn & Ha & Hb). rewrite Hn.
    destruct a as [|x a]; [eauto|]. cbn [length]. change (S (length a)) with (length (x :: a)). rewrite skipn_length_app.
    destruct b as [|c b]; [eauto|]. destruct (ceq c ":") eqn:Ec; [|eauto]. apply ceq_true in Ec. subst c. apply plain_small in H as Hs.
    destruct (authority b); [|eauto]. destruct (path_len _); [|eauto]. eexists. split; [reflexivity|]. lia. }
  assert (Hsch : forall s b, some_ is_alpha s -> uri (s ++ ":"%char :: b) =
    match authority b with
    | Some a => match path_len (skipn a b) with Some k => Some (length s + 1 + a + k) | None => plain_uri (s ++ ":"%char :: b) end
    | None => plain_uri (s ++ ":"%char :: b)
    end).
  { intros s b [Hne Hs]. rewrite uri_unfold, span_app by exact Hs. cbn [span]. rewrite alpha_colon, Nat.add_0_r.
    destruct s as [|x s]; [congruence|]. cbn [length]. change (S (length s)) with (length (x :: s)). rewrite skipn_length_app, ceq_refl. reflexivity. }
  intros [s h p Hs Hh Hpa | s p Hs Hpa | p Hpa | p Hpa].
  - rewrite <- app_assoc. cbn [app]. rewrite Hsch by exact Hs. destruct (path_len_some p r Hpa) as (k & Hk & Hle).
    destruct (authority_ok ($"//" ++ h ++ "/"%char :: p ++ r)) as [[_ X] | [(h' & r' & E & Hh' & Ea) | [_ [_ X]]]].
    + discriminate.
    + apply app_inv_head in E. destruct Hh as [Hne Hh], Hh' as [Hne' Hh'].
      destruct (all_split _ _ _ _ _ Hh Hh' (eq_refl : is_host "/" = false) (eq_refl : is_host "/" = false) _ _ E) as (<- & _ & <-).
      replace (($"//" ++ h ++ "/"%char :: p) ++ r) with ($"//" ++ h ++ "/"%char :: p ++ r) by (rewrite <- !app_assoc; reflexivity).
      rewrite Ea. replace ($"//" ++ h ++ "/"%char :: p ++ r) with (($"//" ++ h ++ ["/"%char]) ++ p ++ r) by (rewrite <- !app_assoc; reflexivity).
      rewrite skipn_length_app, Hk. eexists. split; [reflexivity|]. rewrite !app_length. cbn [length]. rewrite !app_length. simpl. lia.
    + exfalso. exact (X h (p ++ r) Hh eq_refl).
  - rewrite <- app_assoc. cbn [app]. rewrite Hsch by exact Hs. destruct (path_len_some p r Hpa) as (k & Hk & Hle).
    assert (Hst : starts $"//" (p ++ r) = false).
    { destruct (path_head p Hpa) as (c & q & -> & Hc). destruct (starts $"//" ((c :: q) ++ r)) eqn:E; [|reflexivity]. apply starts_app in E as (y & E). injection E as -> _. discriminate. }
    destruct (authority_ok (p ++ r)) as [[Ea _] | [(h' & r' & E & _) | [_ [X _]]]].
    + rewrite Ea. cbn [skipn]. rewrite Hk. eexists. split; [reflexivity|]. rewrite app_length. simpl. lia.
    + assert (X : starts $"//" (p ++ r) = true) by (apply starts_app; eauto). congruence.
    + congruence.
  - destruct (plain_least p r Hpa) as [_ (n & Hn & Hle)]. destruct (Hp _ _ Hn) as (n' & Hn' & Hle'). exists n'. split; [exact Hn'|]. simpl. lia.
  - destruct (plain_least p r Hpa) as [(n & Hn & Hle) _]. destruct (Hp _ _ Hn) as (n' & Hn' & Hle'). exists n'. split; [exact Hn'|]. lia.
Qed.
Lemma correct_uri : correct uri (prefix_in LUri).
Proof.
  intros s. split.
  - intros n H. split; [apply uri_sound, H|]. intros n' (t & r & -> & <- & Ht). destruct (uri_least t r Ht) as (k & Hk & Hle). congruence.
  - intros H n (t & r & -> & _ & Ht). destruct (uri_least t r Ht) as (k & Hk & Hle). congruence.
Qed.

(** * The longest match *)
Definition aligned (l : list (kind * rule)) (l' : list (kind * mrule)) : Prop := Forall2 (fun a b => fst a = fst b /\ correct (snd a) (snd b)) l l'.
Lemma aligned_words l : aligned (words l) (spec_words l).
Proof. induction l as [|[k w] l IH]; constructor; [|exact IH]. split; [reflexivity|apply correct_word]. Qed.
Lemma aligned_rules m : aligned (rules_of m) (spec_rules m).
Proof.
  destruct m; cbn [rules_of spec_rules].
  - apply Forall2_app; [apply aligned_words|]. apply Forall2_app; [apply aligned_words|].
    repeat (apply Forall2_cons; [split; [reflexivity|]; cbn [fst snd]|]); [..|apply Forall2_nil];
      first [apply correct_identifier | apply correct_number | apply correct_string | apply correct_raw1 | apply correct_raw | apply correct_comment | apply correct_spaces].
  - repeat (apply Forall2_cons; [split; [reflexivity|]; cbn [fst snd]|]); [..|apply Forall2_nil]; first [apply correct_uri | apply correct_word | apply correct_spaces].
Qed.
(** The best of the rules from position [i] on, given the best so far. *)
Definition Best (l : list (kind * mrule)) (s : str) (o : option (kind * nat)) : Prop :=
  match o with
  | None => forall j k M n, nth_error l j = Some (k, M) -> ~ M s n
  | Some (k, n) => exists i M, nth_error l i = Some (k, M) /\ M s n /\ forall j k' M' n', nth_error l j = Some (k', M') -> M' s n' -> n' < n \/ n' = n /\ i <= j
  end.
Lemma nth_snoc {A} (l : list A) x j y : nth_error (l ++ [x]) j = Some y -> nth_error l j = Some y \/ j = length l /\ y = x.
Proof.
  intros H. destruct (lt_eq_lt_dec j (length l)) as [[Hj|Hj]|Hj].
  - left. rewrite nth_error_app1 in H by exact Hj. exact H.
  - right. subst j. rewrite nth_error_app2, Nat.sub_diag in H by lia. injection H as <-. auto.
  - exfalso. rewrite nth_error_app2 in H by lia. destruct (j - length l) as [|q] eqn:E; [lia|]. destruct q; discriminate.
Qed.
Lemma choose_best rules : forall specs done s best, aligned rules specs -> Best done s best -> Best (done ++ specs) s (choose rules s best).
Proof.
  induction rules as [|[k f] rules IH]; intros specs done s best Hal Hb; inversion Hal as [|? [k' M] ? specs' [Hk Hc] Hal' E1 E2]; subst.
  { rewrite app_nil_r. exact Hb. }
  cbn [fst snd] in Hk, Hc. subst k'. cbn [choose].
  replace (done ++ (k, M) :: specs') with ((done ++ [(k, M)]) ++ specs') by (rewrite <- app_assoc; reflexivity).
  apply IH; [exact Hal'|]. destruct (Hc s) as [H1 H2].
  assert (Hlast : nth_error (done ++ [(k, M)]) (length done) = Some (k, M)) by (rewrite nth_error_app2, Nat.sub_diag by lia; reflexivity).
  destruct (f s) as [n|] eqn:Ef.
  - destruct (H1 n eq_refl) as [HM Hmax]. destruct best as [[kb m]|].
    + destruct Hb as (i & Mi & Hi & HMi & Hrest). destruct (m <? n) eqn:Elt.
      * apply Nat.ltb_lt in Elt. exists (length done), M. split; [exact Hlast|]. split; [exact HM|]. intros j k' M' n' Hj HM'.
        apply nth_snoc in Hj as [Hj | [-> Hj]]; [destruct (Hrest _ _ _ _ Hj HM'); lia|]. injection Hj as -> ->. specialize (Hmax _ HM'). lia.
      * apply Nat.ltb_ge in Elt. assert (Hil : i < length done) by (apply nth_error_Some; congruence).
        exists i, Mi. split; [rewrite nth_error_app1 by exact Hil; exact Hi|]. split; [exact HMi|]. intros j k' M' n' Hj HM'.
        apply nth_snoc in Hj as [Hj | [-> Hj]]; [apply (Hrest _ _ _ _ Hj HM')|]. injection Hj as -> ->. specialize (Hmax _ HM'). lia.
    + exists (length done), M. split; [exact Hlast|]. split; [exact HM|]. intros j k' M' n' Hj HM'.
      apply nth_snoc in Hj as [Hj | [-> Hj]]; [exfalso; exact (Hb _ _ _ _ Hj HM')|]. injection Hj as -> ->. specialize (Hmax _ HM'). lia.
  - specialize (H2 eq_refl). destruct best as [[kb m]|].
    + destruct Hb as (i & Mi & Hi & HMi & Hrest). assert (Hil : i < length done) by (apply nth_error_Some; congruence).
      exists i, Mi. split; [rewrite nth_error_app1 by exact Hil; exact Hi|]. split; [exact HMi|]. intros j k' M' n' Hj HM'.
      apply nth_snoc in Hj as [Hj | [-> Hj]]; [apply (Hrest _ _ _ _ Hj HM')|]. injection Hj as -> ->. exfalso. exact (H2 _ HM').
    + intros j k' M' n' Hj HM'. apply nth_snoc in Hj as [Hj | [-> Hj]]; [exact (Hb _ _ _ _ Hj HM')|]. injection Hj as -> ->. exact (H2 _ HM').
Qed.
Lemma next_best m s : Best (spec_rules m) s (next_token m s).
Proof.
  apply (choose_best (rules_of m) (spec_rules m) [] s None (aligned_rules m)). intros j k M n Hj. destruct j; discriminate.
Qed.
Lemma longest_func m s k n k' n' : Longest m s k n -> Longest m s k' n' -> k = k' /\ n = n'.
Proof.
  intros (i & M & Hi & HM & Hr) (i' & M' & Hi' & HM' & Hr'). destruct (Hr _ _ _ _ Hi' HM') as [H | [H H0]], (Hr' _ _ _ _ Hi HM) as [H1 | [H1 H2]]; try lia.
  subst n'. assert (i = i') by lia. subst i'. rewrite Hi in Hi'. injection Hi' as <- _. auto.
Qed.
Lemma next_longest m s k n : next_token m s = Some (k, n) <-> Longest m s k n.
Proof.
  pose proof (next_best m s) as H. split.
  - intros E. rewrite E in H. exact H.
  - intros HL. destruct (next_token m s) as [[k' n']|].
    + destruct (longest_func m s k n k' n' HL H) as [-> ->]. reflexivity.
    + destruct HL as (i & M & Hi & HM & _). exfalso. exact (H _ _ _ _ Hi HM).
Qed.
Lemma next_none m s : next_token m s = None <-> forall j k M n, nth_error (spec_rules m) j = Some (k, M) -> ~ M s n.
Proof.
  pose proof (next_best m s) as H. split.
  - intros E. rewrite E in H. exact H.
  - intros HN. destruct (next_token m s) as [[k n]|]; [|reflexivity]. destruct H as (i & M & Hi & HM & _). exfalso. exact (HN _ _ _ _ Hi HM).
Qed.

(** * The whole text *)
(** Cutting a text by repeating the longest match. *)
Inductive Lexes : mode -> str -> list piece -> Prop :=
| LX_nil m : Lexes m [] []
| LX_token m t r k l : t <> [] -> Longest m (t ++ r) k (length t) -> Lexes (next_mode m k) r l -> Lexes m (t ++ r) (Token k t :: l)
| LX_bad m c r l : (forall j k M n, nth_error (spec_rules m) j = Some (k, M) -> ~ M (c :: r) n) -> Lexes m r l -> Lexes m (c :: r) (Bad c :: l).

Lemma word_len w : word w = fun s => if to_lower (firstn (length w) s) =s w then Some (length w) else None.
Proof. reflexivity. Qed.
Definition sized (f : rule) : Prop := forall s n, f s = Some n -> 0 < n <= length s.
Lemma sized_word w : w <> [] -> sized (word w).
Proof.
  intros Hw s n. unfold word. destruct (to_lower (firstn (length w) s) =s w) eqn:E; [|discriminate]. intros [= <-]. apply seq_eqb_eq in E.
  assert (length (firstn (length w) s) = length w) by (rewrite <- E at 2; rewrite to_lower_length; reflexivity). rewrite firstn_length in H.
  assert (0 < length w) by (destruct w; [congruence|simpl; lia]). lia.
Qed.
Lemma sized_prefix f L : correct f (prefix_in L) -> ~ L [] -> sized f.
Proof.
  intros Hc HL s n H. destruct (proj1 (Hc s) n H) as [(t & r & -> & <- & Ht) _]. rewrite app_length. destruct t; [contradiction|]. simpl. lia.
Qed.
Lemma sized_rules m k f : In (k, f) (rules_of m) -> sized f.
Proof.
  assert (Hw : forall l, Forall (fun e => snd e <> []) l -> In (k, f) (words l) -> sized f).
  { intros l Hl Hin. unfold words in Hin. apply in_map_iff in Hin as ([k' w] & E & Hin). injection E as <- <-. rewrite Forall_forall in Hl. apply sized_word, (Hl _ Hin). }
  destruct m; cbn [rules_of].
  - unfold default_rules. rewrite !in_app_iff. intros [H | [H | H]].
    + apply (Hw keywords); [repeat constructor; discriminate|exact H].
    + apply (Hw punctuation); [repeat constructor; discriminate|exact H].
    + simpl in H. destruct H as [H | [H | [H | [H | [H | [H | [H | [H | []]]]]]]]]; injection H as <- <-.
      * apply (sized_prefix _ _ correct_identifier). intros X. inversion X.
      * apply (sized_prefix _ _ correct_number). intros X. inversion X as [a b c d Ha Hb Hc Hd E]. destruct Hb as [Hb _].
        destruct a; [|discriminate]. simpl in E. destruct b; [congruence|discriminate].
      * apply (sized_prefix _ _ correct_string). intros (b & _ & X). discriminate.
      * apply (sized_prefix _ _ correct_raw1). intros X. inversion X.
      * apply (sized_prefix _ _ (correct_raw 2)). intros X. inversion X.
      * apply (sized_prefix _ _ (correct_raw 3)). intros X. inversion X.
      * intros s n H. destruct (proj1 (correct_comment s) n H) as [HM _]. destruct HM as [b r E _ | b r E _ | b E _]; rewrite E, !app_length; simpl; lia.
      * apply (sized_prefix _ _ correct_spaces). intros X. inversion X.
  - simpl. intros [H | [H | [H | []]]]; injection H as <- <-.
    + assert (HP : ~ LPath []) by (intros X; destruct (path_head _ X) as (c & r & E & _); discriminate).
      apply (sized_prefix _ _ correct_uri). intros X. inversion X as [a b c d e g E | a b c d E | p Hp E | p Hp E]; try (destruct a; discriminate); contradiction.
    + apply sized_word. discriminate.
    + apply (sized_prefix _ _ correct_spaces). intros X. inversion X.
Qed.
Lemma choose_in rules s : forall best k n, choose rules s best = Some (k, n) -> best = Some (k, n) \/ exists f, In (k, f) rules /\ f s = Some n.
Proof.
  induction rules as [|[k' f] rules IH]; intros best k n H; [auto|]. cbn [choose] in H. destruct (IH _ _ _ H) as [H' | (g & Hg & Eg)].
  - destruct (f s) as [n'|] eqn:Ef; [|auto]. destruct best as [[kb m]|].
    + destruct (m <? n'); [|auto]. injection H' as <- <-. right. exists f. split; [left; reflexivity|exact Ef].
    + injection H' as <- <-. right. exists f. split; [left; reflexivity|exact Ef].
  - right. exists g. split; [right; exact Hg|exact Eg].
Qed.
Lemma next_sized m s k n : next_token m s = Some (k, n) -> 0 < n <= length s.
Proof. intros H. apply choose_in in H as [H | (f & Hin & Hf)]; [discriminate|]. exact (sized_rules m k f Hin s n Hf). Qed.

Lemma cut_lexes fuel : forall m s, length s <= fuel -> Lexes m s (cut fuel m s).
Proof.
  induction fuel as [|fuel IH]; intros m s H.
  - destruct s; [constructor|simpl in H; lia].
  - destruct s as [|c r]; [constructor|]. cbn [cut]. destruct (next_token m (c :: r)) as [[k n]|] eqn:E.
    + pose proof (next_sized _ _ _ _ E) as Hn. rewrite <- (firstn_skipn n (c :: r)) at 1.
      assert (Hl : length (firstn n (c :: r)) = n) by (apply firstn_length_le; lia).
      apply LX_token.
      * intros X. rewrite X in Hl. simpl in Hl. lia.
      * rewrite firstn_skipn, Hl. apply next_longest, E.
      * apply IH. rewrite skipn_length. cbn [length] in *. lia.
    + apply LX_bad; [apply next_none, E|]. apply IH. simpl in H. lia.
Qed.
Lemma pieces_lexes m s : Lexes m s (pieces m s).
Proof. apply cut_lexes. lia. Qed.
Lemma lexes_func m s l : Lexes m s l -> forall fuel, length s <= fuel -> cut fuel m s = l.
Proof.
  induction 1 as [m | m t r k l Ht HL _ IH | m c r l HN _ IH]; intros fuel Hf.
  - destruct fuel; reflexivity.
  - destruct t as [|c t]; [congruence|]. destruct fuel as [|fuel]; [simpl in Hf; lia|]. cbn [app cut]. change (c :: t ++ r) with ((c :: t) ++ r).
    rewrite (proj2 (next_longest _ _ _ _) HL), firstn_length_app, skipn_length_app. f_equal. apply IH. simpl in Hf. rewrite app_length in Hf. lia.
  - destruct fuel as [|fuel]; [simpl in Hf; lia|]. cbn [cut]. rewrite (proj2 (next_none _ _) HN). f_equal. apply IH. simpl in Hf. lia.
Qed.
Lemma lexes_iff m s l : Lexes m s l <-> pieces m s = l.
Proof. split; [intros H; apply lexes_func; [exact H|lia]|intros <-; apply pieces_lexes]. Qed.
Lemma lexes_text m s l : Lexes m s l -> concat (map piece_text l) = s.
Proof. induction 1 as [m | m t r k l Ht HL _ IH | m c r l HN _ IH]; cbn [map concat piece_text]; rewrite ?IH; reflexivity. Qed.
Lemma pieces_text m s : concat (map piece_text (pieces m s)) = s.
Proof. apply (lexes_text m), pieces_lexes. Qed.
(** One step *)
Lemma pieces_token m t r k : t <> [] -> next_token m (t ++ r) = Some (k, length t) -> pieces m (t ++ r) = Token k t :: pieces (next_mode m k) r.
Proof. intros Ht H. apply lexes_iff. apply LX_token; [exact Ht|apply next_longest, H|apply pieces_lexes]. Qed.
Lemma pieces_bad m c r : next_token m (c :: r) = None -> pieces m (c :: r) = Bad c :: pieces m r.
Proof. intros H. apply lexes_iff. apply LX_bad; [apply next_none, H|apply pieces_lexes]. Qed.

(** * Case does not matter *)
Definition low_piece (p : piece) : piece := match p with Token k t => Token k (to_lower t) | Bad c => Bad (lower c) end.
Definition low_inv (P : ascii -> bool) : Prop := forall c, P (lower c) = P c.
Definition caseless (f : rule) : Prop := forall s, f (to_lower s) = f s.
Ltac each_ascii c := destruct c as [[] [] [] [] [] [] [] []]; reflexivity.
Lemma li_digit : low_inv is_digit. Proof. intros c. each_ascii c. Qed.
Lemma li_alpha : low_inv is_alpha. Proof. intros c. each_ascii c. Qed.
Lemma li_word : low_inv is_word. Proof. intros c. each_ascii c. Qed.
Lemma li_host : low_inv is_host. Proof. intros c. each_ascii c. Qed.
Lemma li_file : low_inv is_file. Proof. intros c. each_ascii c. Qed.
Lemma li_space : low_inv is_space. Proof. intros c. each_ascii c. Qed.
Lemma li_eol : low_inv (fun c => negb (ceq c cr || ceq c lf)). Proof. intros c. each_ascii c. Qed.
Lemma li_tick : low_inv (fun c => negb (ceq c backtick)). Proof. intros c. each_ascii c. Qed.
Lemma li_eq d : is_alpha d = false -> low_inv (fun c => ceq c d).
Proof.
  intros H c. unfold low_inv, lower. destruct (is_upper c) eqn:E; [|reflexivity].
  destruct (ceq c d) eqn:E1; [apply ceq_true in E1; subst d; unfold is_alpha in H; rewrite E in H; discriminate|].
  destruct (ceq (ascii_of_N (code c + 32)) d) eqn:E2; [|reflexivity]. apply ceq_true in E2. subst d. exfalso. clear E1. revert E H. each_ascii c || (destruct c as [[] [] [] [] [] [] [] []]; discriminate).
Qed.
Lemma span_low P s : low_inv P -> span P (to_lower s) = span P s.
Proof. intros H. induction s as [|c s IH]; [reflexivity|]. cbn [to_lower map span]. rewrite H. fold (to_lower s). rewrite IH. reflexivity. Qed.
Lemma skipn_low n : forall s, skipn n (to_lower s) = to_lower (skipn n s).
Proof. induction n as [|n IH]; intros [|c s]; try reflexivity. exact (IH s). Qed.
Lemma firstn_low n : forall s, firstn n (to_lower s) = to_lower (firstn n s).
Proof. induction n as [|n IH]; intros [|c s]; try reflexivity. cbn. f_equal. exact (IH s). Qed.
Lemma case_word w : caseless (word w).
Proof. intros s. unfold word. rewrite firstn_low, to_lower_idem. reflexivity. Qed.
Lemma case_identifier : caseless identifier.
Proof. intros [|c s]; [reflexivity|]. cbn [to_lower map identifier]. rewrite li_alpha. fold (to_lower s). rewrite (span_low _ _ li_word). reflexivity. Qed.
Lemma fraction_low s : fraction (to_lower s) = fraction s.
Proof. destruct s as [|c s]; [reflexivity|]. cbn [to_lower map fraction]. fold (to_lower s). rewrite (span_low _ _ li_digit), (li_eq "." eq_refl c). reflexivity. Qed.
Lemma exponent_low s : exponent (to_lower s) = exponent s.
Proof.
  destruct s as [|c [|d s]]; try reflexivity. cbn [to_lower map exponent]. fold (to_lower s).
  rewrite (span_low _ _ li_digit), (li_eq "+" eq_refl d), (li_eq "-" eq_refl d), lower_idem. reflexivity.
Qed.
Lemma minus_low s : minus (to_lower s) = minus s.
Proof. destruct s as [|c s]; [reflexivity|]. cbn [to_lower map minus]. rewrite (li_eq "-" eq_refl c). reflexivity. Qed.
Lemma case_number : caseless number.
Proof.
  intros s. unfold number. rewrite minus_low, skipn_low, (span_low _ _ li_digit). destruct (span is_digit (skipn (minus s) s)); [reflexivity|].
  rewrite !skipn_low, fraction_low, exponent_low. reflexivity.
Qed.
Lemma lex_body_low s : forall e p b, lex_body e p b (to_lower s) = lex_body e p b s.
Proof.
  induction s as [|c s IH]; intros e p b; [reflexivity|]. cbn [to_lower map lex_body]. fold (to_lower s).
  rewrite (li_eq dquote eq_refl c), (li_eq backslash eq_refl c), !IH. reflexivity.
Qed.
Lemma case_string : caseless lex_string.
Proof. intros [|c s]; [reflexivity|]. cbn [to_lower map lex_string]. fold (to_lower s). rewrite (li_eq dquote eq_refl c), lex_body_low. reflexivity. Qed.
Lemma starts_low q : (forall c, In c q -> is_alpha c = false) -> forall s, starts q (to_lower s) = starts q s.
Proof.
  induction q as [|c q IH]; intros H s; [reflexivity|]. destruct s as [|d s]; [reflexivity|]. cbn [to_lower map starts]. fold (to_lower s).
  rewrite IH by (intros x Hx; apply H; right; exact Hx). f_equal. pose proof (li_eq c (H c (or_introl eq_refl)) d) as E. unfold ceq in *.
  rewrite Ascii.eqb_sym, E. apply Ascii.eqb_sym.
Qed.
Lemma upto_low q : (forall c, In c q -> is_alpha c = false) -> forall s, upto q (to_lower s) = upto q s.
Proof.
  intros H. induction s as [|c s IH]; [reflexivity|]. change (to_lower (c :: s)) with (lower c :: to_lower s).
  cbn [upto]. change (lower c :: to_lower s) with (to_lower (c :: s)). rewrite (starts_low q H), IH. reflexivity.
Qed.
Lemma tick_alpha n c : In c (repeat backtick n) -> is_alpha c = false.
Proof. intros H. apply repeat_spec in H. subst c. reflexivity. Qed.
Lemma case_raw n : caseless (raw n).
Proof.
  intros s. unfold raw. rewrite (starts_low _ (tick_alpha n)), skipn_low. destruct (starts _ s); [|reflexivity].
  destruct (skipn n s) as [|c r]; [reflexivity|]. cbn [to_lower map]. fold (to_lower r). rewrite (upto_low _ (tick_alpha n)). reflexivity.
Qed.
Lemma case_raw1 : caseless raw1.
Proof.
  intros [|c s]; [reflexivity|]. cbn [to_lower map raw1]. fold (to_lower s). rewrite (li_eq backtick eq_refl c), (span_low _ _ li_tick).
  destruct (ceq c backtick); [|reflexivity]. destruct (span _ s) as [|n]; [reflexivity|]. rewrite skipn_low. destruct (skipn (S n) s); reflexivity.
Qed.
Lemma slashes_alpha c : In c $"//" -> is_alpha c = false.
Proof. intros [<- | [<- | []]]; reflexivity. Qed.
Lemma case_comment : caseless comment.
Proof.
  intros s. unfold comment. rewrite (starts_low _ slashes_alpha), !skipn_low, (span_low _ _ li_eol). destruct (starts _ s); [|reflexivity].
  destruct (skipn _ s) as [|c r]; [reflexivity|]. cbn [to_lower map]. rewrite (li_eq lf eq_refl c). destruct (ceq c lf); [reflexivity|].
  destruct r as [|d r]; [reflexivity|]. cbn [map]. rewrite (li_eq lf eq_refl d). reflexivity.
Qed.
Lemma case_spaces : caseless spaces.
Proof. intros [|c s]; [reflexivity|]. cbn [to_lower map spaces]. rewrite li_space. reflexivity. Qed.
Lemma path_more_low s : path_more (to_lower s) = path_more s.
Proof.
  induction s as [|c s IH]; [reflexivity|]. cbn [to_lower map path_more]. fold (to_lower s). rewrite IH, li_file, (li_eq "/" eq_refl c).
  destruct s as [|d s]; [reflexivity|]. cbn [to_lower map]. rewrite li_file. reflexivity.
Qed.
Lemma path_len_low s : path_len (to_lower s) = path_len s.
Proof. destruct s as [|c s]; [reflexivity|]. unfold path_len. rewrite path_more_low. cbn [to_lower map]. rewrite li_file. reflexivity. Qed.
Lemma slash_low s : slash (to_lower s) = slash s.
Proof. destruct s as [|c s]; [reflexivity|]. cbn [to_lower map slash]. rewrite (li_eq "/" eq_refl c). reflexivity. Qed.
Lemma authority_low s : authority (to_lower s) = authority s.
Proof.
  unfold authority. rewrite (starts_low _ slashes_alpha), !skipn_low, (span_low _ _ li_host). destruct (starts _ s); [|reflexivity].
  destruct (span is_host (skipn 2 s)) as [|n]; [reflexivity|]. rewrite skipn_low. destruct (skipn (2 + S n) s) as [|c r]; [reflexivity|].
  cbn [to_lower map]. rewrite (li_eq "/" eq_refl c). reflexivity.
Qed.
Lemma case_uri : caseless uri.
Proof.
  intros s. rewrite !uri_unfold. unfold plain_uri. rewrite slash_low, !skipn_low, path_len_low, (span_low _ _ li_alpha).
  destruct (span is_alpha s) as [|n]; [reflexivity|]. rewrite skipn_low. destruct (skipn (S n) s) as [|c r]; [reflexivity|]. cbn [to_lower map]. fold (to_lower r).
  rewrite (li_eq ":" eq_refl c), authority_low. destruct (ceq c ":"); [|reflexivity]. destruct (authority r) as [a|]; [|reflexivity]. rewrite skipn_low, path_len_low. reflexivity.
Qed.
Lemma case_rules m k f : In (k, f) (rules_of m) -> caseless f.
Proof.
  assert (Hw : forall l, In (k, f) (words l) -> caseless f).
  { intros l Hin. unfold words in Hin. apply in_map_iff in Hin as ([k' w] & E & _). injection E as <- <-. apply case_word. }
  destruct m; cbn [rules_of].
  - unfold default_rules. rewrite !in_app_iff. intros [H | [H | H]]; [apply (Hw _ H)|apply (Hw _ H)|].
    simpl in H. destruct H as [H | [H | [H | [H | [H | [H | [H | [H | []]]]]]]]]; injection H as <- <-;
      first [apply case_identifier | apply case_number | apply case_string | apply case_raw1 | apply case_raw | apply case_comment | apply case_spaces].
  - simpl. intros [H | [H | [H | []]]]; injection H as <- <-; first [apply case_uri | apply case_word | apply case_spaces].
Qed.
Lemma choose_low rules s : (forall k f, In (k, f) rules -> caseless f) -> forall best, choose rules (to_lower s) best = choose rules s best.
Proof.
  induction rules as [|[k f] rules IH]; intros H best; [reflexivity|]. cbn [choose]. rewrite (H k f (or_introl eq_refl) s).
  apply IH. intros k' f' Hin. apply (H k' f'). right. exact Hin.
Qed.
Lemma next_low m s : next_token m (to_lower s) = next_token m s.
Proof. apply choose_low, case_rules. Qed.
Lemma cut_low fuel : forall m s, cut fuel m (to_lower s) = map low_piece (cut fuel m s).
Proof.
  induction fuel as [|fuel IH]; intros m s; [destruct s; reflexivity|]. destruct s as [|c s]; [reflexivity|]. cbn [to_lower map cut]. fold (to_lower s).
  change (lower c :: to_lower s) with (to_lower (c :: s)). rewrite next_low. destruct (next_token m (c :: s)) as [[k n]|]; cbn [map low_piece].
  - rewrite firstn_low, skipn_low, IH. reflexivity.
  - rewrite IH. reflexivity.
Qed.
Lemma pieces_low m s : pieces m (to_lower s) = map low_piece (pieces m s).
Proof. unfold pieces. rewrite to_lower_length. apply cut_low. Qed.

(** * White space *)
(** A gap between tokens: a white-space character and then more white space and, except between extension_space and its brace, comments to the end
    of their lines.  Comments with quotes or backticks are left out here. *)
Definition blank (c : ascii) : piece := Token SPACES [c].
Definition plain (c : ascii) : bool := negb (ceq c cr || ceq c lf || ceq c dquote || ceq c backtick).
Inductive White (m : mode) : piece -> Prop :=
| W_space c : is_space c = true -> White m (blank c)
| W_comment n : m = Default -> all_ plain n -> White m (Token SINGLE_LINE_COMMENT ($"//" ++ n ++ [lf])).
Inductive Gap (m : mode) : list piece -> Prop :=
| GAP c g : is_space c = true -> Forall (White m) g -> Gap m (blank c :: g).
(** The same pieces with other gaps: every gap becomes another gap. *)
Definition mode_after (m : mode) (p : piece) : mode :=
  match p with Token EXTENSION_SPACE _ => Extensions | Token LEFTBRACE _ => Default | _ => m end.
Inductive Respaced : mode -> list piece -> list piece -> Prop :=
| RS_nil m : Respaced m [] []
| RS_same m p l l' : Respaced (mode_after m p) l l' -> Respaced m (p :: l) (p :: l')
| RS_gap m g g' l l' : Gap m g -> Gap m g' -> Respaced m l l' -> Respaced m (g ++ l) (g' ++ l').
Definition text (l : list piece) : str := concat (map piece_text l).
Lemma text_app a b : text (a ++ b) = text a ++ text b.
Proof. unfold text. rewrite map_app. apply concat_app. Qed.

Definition quiet (c : ascii) : bool := negb (ceq c dquote || ceq c backtick).
Definition filler (w : str) : Prop := match w with c :: v => is_space c = true /\ all_ quiet v | [] => False end.
Lemma quiet_space c : is_space c = true -> quiet c = true.
Proof. destruct c as [[] [] [] [] [] [] [] []]; try reflexivity; discriminate. Qed.
Lemma quiet_plain c : plain c = true -> quiet c = true.
Proof. unfold plain, quiet. destruct (ceq c cr), (ceq c lf), (ceq c dquote), (ceq c backtick); intros X; try reflexivity; discriminate X. Qed.
Lemma filler_quiet w : filler w -> all_ quiet w.
Proof. destruct w as [|c w]; [intros []|]. intros [Hc Hw]. unfold all_ in *. cbn [forallb]. rewrite (quiet_space c Hc). exact Hw. Qed.
Lemma quiet_app a b : all_ quiet a -> all_ quiet b -> all_ quiet (a ++ b).
Proof. intros Ha Hb. apply all_app. auto. Qed.
Lemma gap_filler m g : Gap m g -> filler (text g).
Proof.
  intros [c l Hc Hl]. unfold text. cbn [map concat piece_text blank app filler]. split; [exact Hc|]. fold (text l).
  induction Hl as [|p l Hp _ IH]; [reflexivity|]. unfold text. cbn [map concat]. fold (text l). apply quiet_app; [|exact IH].
  destruct Hp as [d Hd | n _ Hn]; cbn [piece_text blank].
  - unfold all_. cbn [forallb]. rewrite (quiet_space d Hd). reflexivity.
  - apply quiet_app; [reflexivity|]. apply quiet_app; [|reflexivity]. unfold all_ in *. rewrite forallb_forall in *. intros d Hd. apply quiet_plain, Hn, Hd.
Qed.

Inductive Loose : str -> str -> Prop :=
| LO_nil : Loose [] []
| LO_same c s s' : Loose s s' -> Loose (c :: s) (c :: s')
| LO_run w w' s s' : filler w -> filler w' -> Loose s s' -> Loose (w ++ s) (w' ++ s').
Lemma loose_app t s s' : Loose s s' -> Loose (t ++ s) (t ++ s').
Proof. intros H. induction t as [|c t IH]; [exact H|]. apply LO_same, IH. Qed.
Lemma respaced_loose m l l' : Respaced m l l' -> Loose (text l) (text l').
Proof.
  induction 1 as [|m p l l' H IH | m g g' l l' Hg Hg' H IH]; [constructor| |].
  - unfold text. cbn [map concat]. apply loose_app, IH.
  - rewrite !text_app. apply LO_run; [exact (gap_filler _ _ Hg)|exact (gap_filler _ _ Hg')|exact IH].
Qed.
Lemma loose_sym s s' : Loose s s' -> Loose s' s.
Proof. induction 1; constructor; assumption. Qed.
Definition solid (s : str) : Prop := all_ (fun c => negb (is_space c)) s.
Lemma solid_cons c s : solid (c :: s) <-> is_space c = false /\ solid s.
Proof. unfold solid, all_. simpl. rewrite andb_true_iff, negb_true_iff. reflexivity. Qed.
Lemma loose_nil s : Loose [] s -> s = [].
Proof. intros H. inversion H as [|? ? ? ? E|w w' a b Hw _ _ E]; [reflexivity|]. destruct w; [destruct Hw|discriminate]. Qed.
Lemma loose_cons c s s' : Loose (c :: s) s' -> is_space c = false -> exists r', s' = c :: r' /\ Loose s r'.
Proof.
  intros H Hc. inversion H as [|d a b Hab E1 E2|w w' a b Hw _ _ E]; [eauto|]. subst. destruct w as [|d w]; [destruct Hw|]. injection E as -> _.
  destruct Hw as [Hw _]. congruence.
Qed.
Lemma loose_solid q : forall s s', solid q -> Loose (q ++ s) s' -> exists r', s' = q ++ r' /\ Loose s r'.
Proof.
  induction q as [|c q IH]; intros s s' Hq H; [exists s'; auto|]. apply solid_cons in Hq as [Hc Hq].
  destruct (loose_cons _ _ _ H Hc) as (r & -> & Hr). destruct (IH _ _ Hq Hr) as (r' & -> & Hr'). exists r'. auto.
Qed.
(** Backticks after any text *)
Definition ticks (s : str) : Prop := all_ (fun c => negb (quiet c)) s.
Lemma ticks_solid q : ticks q -> solid q.
Proof. unfold ticks, solid, all_. rewrite !forallb_forall. intros H c Hc. specialize (H c Hc). apply negb_true_iff in H. destruct (is_space c) eqn:E; [|reflexivity]. rewrite (quiet_space c E) in H. discriminate. Qed.
Lemma loose_split s s' : Loose s s' -> forall x q z, ticks q -> q <> [] -> s = x ++ q ++ z -> exists x' z', s' = x' ++ q ++ z' /\ Loose x x' /\ Loose z z'.
Proof.
  induction 1 as [|c s s' H IH | w w' s s' Hw Hw' H IH]; intros x q z Hq Hne E.
  - destruct x; [|discriminate]. destruct q; [congruence|discriminate].
  - destruct x as [|d x].
    + destruct q as [|d q]; [congruence|]. cbn [app] in E. injection E as -> ->. apply ticks_solid, solid_cons in Hq as [Hd Hq'].
      destruct (loose_solid _ _ _ Hq' H) as (r' & -> & Hr'). exists [], r'. split; [reflexivity|]. split; [constructor|exact Hr'].
    + cbn [app] in E. injection E as -> ->. destruct (IH x q z Hq Hne eq_refl) as (x' & z' & -> & Hx & Hz). exists (d :: x'), z'. split; [reflexivity|]. split; [constructor; exact Hx|exact Hz].
  - assert (X : exists y, x = w ++ y /\ s = y ++ q ++ z).
    { apply filler_quiet in Hw. clear -E Hw Hq Hne. revert x E. induction w as [|c w IHw]; intros x E; [exists x; auto|]. unfold all_ in Hw. cbn [forallb] in Hw. apply andb_true_iff in Hw as [Hc Hw].
      destruct x as [|d x].
      - destruct q as [|d q]; [congruence|]. cbn [app] in E. injection E as -> _. unfold ticks, all_ in Hq. cbn [forallb] in Hq. rewrite Hc in Hq. discriminate.
      - cbn [app] in E. injection E as <- E. destruct (IHw Hw x E) as (y & -> & ->). exists y. auto. }
    destruct X as (y & -> & ->). destruct (IH y q z Hq Hne eq_refl) as (x' & z' & -> & Hx & Hz).
    exists (w' ++ x'), z'. split; [rewrite <- app_assoc; reflexivity|]. split; [constructor; assumption|exact Hz].
Qed.
Lemma loose_in c s s' : Loose s s' -> quiet c = false -> In c s' -> In c s.
Proof.
  induction 1 as [|d s s' H IH | w w' s s' Hw Hw' H IH]; intros Hc Hin; [exact Hin| |].
  - destruct Hin as [-> | Hin]; [left; reflexivity|right; auto].
  - apply in_app_iff in Hin as [Hin | Hin]; [|apply in_app_iff; right; auto]. apply filler_quiet in Hw'. unfold all_ in Hw'. rewrite forallb_forall in Hw'. specialize (Hw' _ Hin). congruence.
Qed.
Lemma loose_ne s s' : Loose s s' -> s <> [] -> s' <> [].
Proof. intros H Hs ->. apply loose_sym, loose_nil in H. contradiction. Qed.

(** What a rule gives for a text that starts with a token does not depend on the white space after the token. *)
Definition stable (f : rule) : Prop := forall t r r', t <> [] -> Loose r r' -> (forall n, f (t ++ r) = Some n -> n <= length t) -> f (t ++ r') = f (t ++ r).
Lemma stable_solid f L : correct f (prefix_in L) -> (forall t, L t -> solid t) -> stable f.
Proof.
  intros Hc HL. assert (X : forall s s' n, Loose s s' -> prefix_in L s n -> prefix_in L s' n).
  { intros s s' n H (t & r & -> & <- & Ht). destruct (loose_solid _ _ _ (HL _ Ht) H) as (r' & -> & _). exists t, r'. auto. }
  intros t r r' _ H _. apply (loose_app t) in H. pose proof (loose_sym _ _ H) as H'. set (s := t ++ r) in *. set (s' := t ++ r') in *. clearbody s s'.
  destruct (Hc s) as [H1 H2], (Hc s') as [H1' H2']. destruct (f s) as [n|] eqn:E, (f s') as [n'|] eqn:E'.
  - destruct (H1 n eq_refl) as [HM Hmax], (H1' n' eq_refl) as [HM' Hmax']. specialize (Hmax _ (X _ _ _ H' HM')). specialize (Hmax' _ (X _ _ _ H HM)). f_equal. lia.
  - destruct (H1 n eq_refl) as [HM _]. exfalso. exact (H2' eq_refl _ (X _ _ _ H HM)).
  - destruct (H1' n' eq_refl) as [HM _]. exfalso. exact (H2 eq_refl _ (X _ _ _ H' HM)).
  - reflexivity.
Qed.
Lemma stable_unique f L : correct f (prefix_in L) ->
  (forall s s', Loose s s' -> forall n, prefix_in L s n -> exists n', prefix_in L s' n') ->
  (forall s n n', prefix_in L s n -> prefix_in L s n' -> n = n') -> stable f.
Proof.
  intros Hc HS HU t r r' _ H Hle. destruct (Hc (t ++ r)) as [H1 H2], (Hc (t ++ r')) as [H1' H2']. destruct (f (t ++ r)) as [n|] eqn:E.
  - specialize (Hle n eq_refl). destruct (H1 n eq_refl) as [(x & y & E1 & <- & Hx) _].
    assert (Ht : exists z, t = x ++ z).
    { exists (skipn (length x) t). transitivity (firstn (length x) t ++ skipn (length x) t); [symmetry; apply firstn_skipn|]. f_equal.
      transitivity (firstn (length x) (t ++ r)); [rewrite firstn_app; replace (length x - length t) with 0 by lia; rewrite app_nil_r; reflexivity|]. rewrite E1. apply firstn_length_app. }
    destruct Ht as (z & ->). rewrite <- app_assoc in *. assert (HM : prefix_in L (x ++ z ++ r') (length x)) by (exists x, (z ++ r'); auto).
    destruct (f (x ++ z ++ r')) as [n'|] eqn:E'; [|exfalso; exact (H2' eq_refl _ HM)]. f_equal. apply (HU _ _ _ (proj1 (H1' n' eq_refl)) HM).
  - destruct (f (t ++ r')) as [n'|] eqn:E'; [|reflexivity]. destruct (HS _ _ (loose_app t _ _ (loose_sym _ _ H)) _ (proj1 (H1' n' eq_refl))) as (n & Hn). exfalso. exact (H2 eq_refl _ Hn).
Qed.
Lemma lex_body_none s : forall e p b, ~ In dquote s -> lex_body e p b s = b.
Proof.
  induction s as [|c s IH]; intros e p b H; [reflexivity|]. cbn [lex_body]. destruct (ceq c dquote) eqn:E.
  - apply ceq_true in E. subst c. exfalso. apply H. left. reflexivity.
  - apply IH. intros Hin. apply H. right. exact Hin.
Qed.
Lemma lex_body_ge s : forall e p b, (forall n, b = Some n -> n <= p) -> In dquote s -> exists n, lex_body e p b s = Some n /\ p < n.
Proof.
  assert (Hb : forall s e p b, (forall n, b = Some n -> n <= p) -> lex_body e p b s = b \/ exists n, lex_body e p b s = Some n /\ p < n).
  { intros s'. induction s' as [|c s' IH]; intros e p b Hb; [left; reflexivity|]. cbn [lex_body]. destruct (ceq c dquote).
    - destruct e; [|right; exists (S p); split; [reflexivity|lia]]. right. destruct (IH false (S p) (Some (S p))) as [H | (n & H & Hn)]; [intros n [= <-]; lia| |].
      + exists (S p). split; [exact H|lia].
      + exists n. split; [exact H|lia].
    - destruct (IH (ceq c backslash) (S p) b) as [H | (n & H & Hn)]; [intros n Hn; specialize (Hb n Hn); lia|left; exact H|right; exists n; split; [exact H|lia]]. }
  induction s as [|c s IH]; intros e p b Hbp Hin; [destruct Hin|]. cbn [lex_body]. destruct (ceq c dquote) eqn:E.
  - destruct e; [|exists (S p); split; [reflexivity|lia]]. destruct (Hb s false (S p) (Some (S p))) as [H | (n & H & Hn)]; [intros n [= <-]; lia| |].
    + exists (S p). split; [exact H|lia].
    + exists n. split; [exact H|lia].
  - destruct Hin as [-> | Hin]; [rewrite ceq_refl in E; discriminate|].
    destruct (IH (ceq c backslash) (S p) b) as (n & H & Hn); [intros n Hn; specialize (Hbp n Hn); lia|exact Hin|]. exists n. split; [exact H|lia].
Qed.
Lemma lex_body_stable t : forall e p b r r', (forall n, b = Some n -> n <= p) -> Loose r r' -> (forall n, lex_body e p b (t ++ r) = Some n -> n <= p + length t) ->
  lex_body e p b (t ++ r') = lex_body e p b (t ++ r).
Proof.
  induction t as [|c t IH]; intros e p b r r' Hb H Hle.
  - cbn [app length] in *. assert (Hr : ~ In dquote r).
    { intros Hin. destruct (lex_body_ge r e p b Hb Hin) as (n & Hn & Hlt). specialize (Hle n Hn). lia. }
    assert (Hr' : ~ In dquote r') by (intros Hin; apply Hr; exact (loose_in dquote _ _ H eq_refl Hin)).
    rewrite !lex_body_none by assumption. reflexivity.
  - cbn [app length lex_body] in *. destruct (ceq c dquote).
    + destruct e; [|reflexivity]. apply IH; [intros n [= <-]; lia|exact H|]. intros n Hn. specialize (Hle n Hn). lia.
    + apply IH; [intros n Hn; specialize (Hb n Hn); lia|exact H|]. intros n Hn. specialize (Hle n Hn). lia.
Qed.
Lemma stable_string : stable lex_string.
Proof.
  intros [|c t] r r' Hne H Hle; [congruence|]. cbn [app lex_string length] in *. destruct (ceq c dquote); [|reflexivity].
  apply lex_body_stable; [discriminate|exact H|]. intros n Hn. specialize (Hle n Hn). lia.
Qed.
Lemma app_prefix {A} (a : list A) : forall b x y, a ++ x = b ++ y -> length a <= length b -> exists z, b = a ++ z.
Proof.
  induction a as [|c a IH]; intros b x y E H; [exists b; reflexivity|]. destruct b as [|d b]; [simpl in H; lia|]. cbn [app] in E. injection E as -> E.
  destruct (IH b x y E ltac:(simpl in H; lia)) as (z & ->). exists z. reflexivity.
Qed.
Lemma solid_ticks n : solid (repeat backtick n).
Proof. induction n; [reflexivity|]. cbn [repeat]. apply solid_cons. split; [reflexivity|assumption]. Qed.
Lemma ticks_ticks n : ticks (repeat backtick n).
Proof. induction n; [reflexivity|]. cbn [repeat]. unfold ticks, all_ in *. cbn [forallb]. rewrite IHn. reflexivity. Qed.
Lemma raw_unique n s k k' : prefix_in (LRaw n) s k -> prefix_in (LRaw n) s k' -> k = k'.
Proof.
  assert (X : forall k k', prefix_in (LRaw n) s k -> prefix_in (LRaw n) s k' -> k <= k').
  { clear k k'. intros k k' (t & r & -> & <- & Ht) (t' & r' & E & <- & Ht'). destruct Ht as [b Hb Hm], Ht' as [b' Hb' Hm'].
    rewrite <- !app_assoc in E. apply app_inv_head in E. rewrite !app_length. enough (length b <= length b') by lia.
    destruct (le_lt_dec (length b) (length b')) as [Hl|Hl]; [exact Hl|]. 
    assert (E' : (b' ++ repeat backtick n) ++ r' = (b ++ repeat backtick n) ++ r) by (rewrite <- !app_assoc; symmetry; exact E).
    destruct (app_prefix _ _ _ _ E') as (z & Ez); [rewrite !app_length; lia|]. rewrite <- app_assoc in Ez. exact (Hm b' z Hb' Ez). }
  intros H H'. pose proof (X _ _ H H'). pose proof (X _ _ H' H). lia.
Qed.
Lemma raw_exists n s s' k : 0 < n -> Loose s s' -> prefix_in (LRaw n) s k -> exists k', prefix_in (LRaw n) s' k'.
Proof.
  intros Hn H (t & r & -> & _ & Ht). destruct Ht as [b Hb _]. rewrite <- !app_assoc in H. destruct (loose_solid _ _ _ (solid_ticks n) H) as (s1 & -> & H1).
  destruct (loose_split _ _ H1 b (repeat backtick n) r (ticks_ticks n)) as (b' & r' & -> & Hb' & _); [destruct n; [lia|discriminate]|reflexivity|].
  pose proof (loose_ne _ _ Hb' Hb) as Hne. destruct (correct_raw n (repeat backtick n ++ b' ++ repeat backtick n ++ r')) as [H2 H3].
  destruct (raw n (repeat backtick n ++ b' ++ repeat backtick n ++ r')) as [k'|] eqn:E; [exists k'; apply (H2 k' eq_refl)|]. exfalso.
  unfold raw in E. replace (starts (repeat backtick n) (repeat backtick n ++ b' ++ repeat backtick n ++ r')) with true in E by (symmetry; apply starts_app; eauto).
  assert (Es : skipn n (repeat backtick n ++ b' ++ repeat backtick n ++ r') = b' ++ repeat backtick n ++ r').
  { transitivity (skipn (length (repeat backtick n)) (repeat backtick n ++ b' ++ repeat backtick n ++ r')); [rewrite repeat_length; reflexivity|apply skipn_length_app]. }
  rewrite Es in E. destruct b' as [|c b']; [congruence|]. cbn [app] in E. destruct (upto (repeat backtick n) (b' ++ repeat backtick n ++ r')) eqn:Eu; [discriminate|].
  clear -Eu. induction b' as [|c b' IH].
  - cbn [app] in Eu. destruct (repeat backtick n ++ r') eqn:Er; cbn [upto] in Eu; rewrite <- Er in Eu; replace (starts (repeat backtick n) (repeat backtick n ++ r')) with true in Eu by (symmetry; apply starts_app; eauto); discriminate.
  - cbn [app upto] in Eu. destruct (starts _ _); [discriminate|]. destruct (upto (repeat backtick n) (b' ++ repeat backtick n ++ r')); [discriminate|auto].
Qed.
Lemma stable_raw n : 0 < n -> stable (raw n).
Proof. intros Hn. apply (stable_unique _ _ (correct_raw n)); [intros s s' H k Hk; exact (raw_exists n s s' k Hn H Hk)|apply raw_unique]. Qed.
Lemma tick_not : (fun c => negb (ceq c backtick)) backtick = false. Proof. reflexivity. Qed.
Lemma stable_raw1 : stable raw1.
Proof.
  apply (stable_unique _ _ correct_raw1).
  - intros s s' H n (t & r & -> & _ & Ht). destruct Ht as [b [Hb1 Hb2]]. cbn [app] in H. destruct (loose_cons _ _ _ H eq_refl) as (s1 & -> & H1). rewrite <- app_assoc in H1.
    destruct (loose_split _ _ H1 b [backtick] r) as (b' & r' & -> & Hb & _); [reflexivity|discriminate|reflexivity|].
    exists (length (backtick :: b' ++ [backtick])), (backtick :: b' ++ [backtick]), r'. split; [cbn [app]; rewrite <- app_assoc; reflexivity|]. split; [reflexivity|].
    constructor. split; [exact (loose_ne _ _ Hb Hb1)|]. unfold all_ in *. rewrite forallb_forall in *. intros c Hc. destruct (ceq c backtick) eqn:E; [|reflexivity].
    apply ceq_true in E. subst c. exact (Hb2 _ (loose_in backtick _ _ Hb eq_refl Hc)).
  - intros s n n' (t & r & -> & <- & Ht) (t' & r' & E & <- & Ht'). destruct Ht as [b [_ Hb]], Ht' as [b' [_ Hb']]. cbn [app] in E. injection E as E. rewrite <- !app_assoc in E.
    destruct (all_split _ _ _ _ _ Hb Hb' tick_not tick_not _ _ E) as (-> & _ & _). reflexivity.
Qed.
Lemma stable_spaces : stable spaces.
Proof. intros [|c t] r r' Hne _ _; [congruence|reflexivity]. Qed.
(** Comments: only where there is one *)
Lemma comment_stable t r r' : Loose r r' -> (forall n, comment (t ++ r) = Some n -> n <= length t) -> (comment (t ++ r) = None -> match t with c :: _ => c <> "/"%char | [] => False end) ->
  comment (t ++ r') = comment (t ++ r).
Proof.
  intros H Hle Hnone. destruct (comment (t ++ r)) as [n|] eqn:E.
  - specialize (Hle n eq_refl). destruct (proj1 (correct_comment (t ++ r)) n E) as [HM _].
    assert (HM' : MComment (t ++ r') n).
    { assert (X : forall x y, t ++ r = x ++ y -> length x <= length t -> exists z, t = x ++ z) by (intros x y Exy Hl; symmetry in Exy; exact (app_prefix x t y r Exy Hl)).
      destruct HM as [b r1 E1 Hb | b r1 E1 Hb | b E1 Hb].
      - destruct (X ($"//" ++ b ++ [lf]) r1) as (z & ->); [rewrite E1, <- !app_assoc; reflexivity|rewrite !app_length; simpl; lia|]. rewrite <- !app_assoc. apply MC_lf with (r := z ++ r'); [reflexivity|exact Hb].
      - destruct (X ($"//" ++ b ++ [cr; lf]) r1) as (z & ->); [rewrite E1, <- !app_assoc; reflexivity|rewrite !app_length; simpl; lia|]. rewrite <- !app_assoc. apply MC_crlf with (r := z ++ r'); [reflexivity|exact Hb].
      - assert (r = []) as ->. { apply (f_equal (@length ascii)) in E1. rewrite !app_length in E1. destruct r; [reflexivity|]. simpl in E1. lia. }
        apply loose_nil in H. subst r'. rewrite app_nil_r in *. apply MC_eof; assumption. }
    destruct (correct_comment (t ++ r')) as [H1 H2]. destruct (comment (t ++ r')) as [n'|] eqn:E'; [|exfalso; exact (H2 eq_refl _ HM')].
    f_equal. exact (comment_func _ _ _ (proj1 (H1 n' eq_refl)) HM').
  - specialize (Hnone eq_refl). destruct t as [|c t]; [destruct Hnone|]. unfold comment.
    destruct (starts $"//" ((c :: t) ++ r')) eqn:Es; [|reflexivity]. apply starts_app in Es as (y & Es). injection Es as -> _. congruence.
Qed.
Lemma solid_word w t : forallb (fun c => negb (is_space c)) w = true -> LWord w t -> solid t.
Proof.
  unfold LWord, solid, all_. intros H <-. rewrite forallb_forall in *. intros c Hc. specialize (H (lower c) (in_map lower _ _ Hc)). rewrite li_space in H. exact H.
Qed.
Lemma solid_all P s : (forall c, P c = true -> is_space c = false) -> all_ P s -> solid s.
Proof. unfold solid, all_. intros H Hs. rewrite forallb_forall in *. intros c Hc. rewrite (H c (Hs c Hc)). reflexivity. Qed.
Lemma digit_solid c : is_digit c = true -> is_space c = false. Proof. destruct c as [[] [] [] [] [] [] [] []]; try reflexivity; discriminate. Qed.
Lemma alpha_solid c : is_alpha c = true -> is_space c = false. Proof. destruct c as [[] [] [] [] [] [] [] []]; try reflexivity; discriminate. Qed.
Lemma word_solid c : is_word c = true -> is_space c = false. Proof. destruct c as [[] [] [] [] [] [] [] []]; try reflexivity; discriminate. Qed.
Lemma host_solid c : is_host c = true -> is_space c = false. Proof. destruct c as [[] [] [] [] [] [] [] []]; try reflexivity; discriminate. Qed.
Lemma file_solid c : is_file c = true -> is_space c = false. Proof. destruct c as [[] [] [] [] [] [] [] []]; try reflexivity; discriminate. Qed.
Lemma solid_app a b : solid (a ++ b) <-> solid a /\ solid b.
Proof. apply all_app. Qed.
Lemma solid_identifier t : LIdentifier t -> solid t.
Proof. intros [c r Hc Hr]. apply solid_cons. split; [apply alpha_solid, Hc|apply (solid_all _ _ word_solid Hr)]. Qed.
Lemma solid_number t : LNumber t -> solid t.
Proof.
  intros [m d f e Hm [_ Hd] Hf He]. rewrite !solid_app. repeat split.
  - destruct Hm as [-> | ->]; reflexivity.
  - apply (solid_all _ _ digit_solid Hd).
  - destruct Hf as [-> | [d' [_ Hd']]]; [reflexivity|]. apply solid_cons. split; [reflexivity|apply (solid_all _ _ digit_solid Hd')].
  - destruct He as [-> | [x y d' Hx Hy [_ Hd']]]; [reflexivity|]. apply solid_cons. split; [rewrite <- li_space, Hx; reflexivity|]. apply solid_cons.
    split; [destruct Hy as [-> | ->]; reflexivity|apply (solid_all _ _ digit_solid Hd')].
Qed.
Lemma solid_path p : LPath p -> solid p.
Proof.
  induction 1 as [f [_ Hf] | f p [_ Hf] Hp IH]; [apply (solid_all _ _ file_solid Hf)|]. apply solid_app. split; [apply (solid_all _ _ file_solid Hf)|]. apply solid_cons. split; [reflexivity|exact IH].
Qed.
Lemma solid_uri t : LUri t -> solid t.
Proof.
  intros [s h p [_ Hs] [_ Hh] Hp | s p [_ Hs] Hp | p Hp | p Hp].
  - apply solid_app. split; [apply (solid_all _ _ alpha_solid Hs)|]. apply solid_cons. split; [reflexivity|]. apply solid_app. split; [reflexivity|].
    apply solid_app. split; [apply (solid_all _ _ host_solid Hh)|]. apply solid_cons. split; [reflexivity|apply solid_path, Hp].
  - apply solid_app. split; [apply (solid_all _ _ alpha_solid Hs)|]. apply solid_cons. split; [reflexivity|apply solid_path, Hp].
  - apply solid_cons. split; [reflexivity|apply solid_path, Hp].
  - apply solid_path, Hp.
Qed.
Lemma stable_word w : forallb (fun c => negb (is_space c)) w = true -> stable (word w).
Proof. intros H. apply (stable_solid _ _ (correct_word w)). intros t. apply solid_word, H. Qed.
Lemma stable_rules m k f : In (k, f) (rules_of m) -> stable f \/ m = Default /\ k = SINGLE_LINE_COMMENT /\ f = comment.
Proof.
  assert (Hw : forall l, Forall (fun e => forallb (fun c => negb (is_space c)) (snd e) = true) l -> In (k, f) (words l) -> stable f).
  { intros l Hl Hin. unfold words in Hin. apply in_map_iff in Hin as ([k' w] & E & Hin). injection E as <- <-. rewrite Forall_forall in Hl. apply stable_word, (Hl _ Hin). }
  destruct m; cbn [rules_of].
  - unfold default_rules. rewrite !in_app_iff. intros [H | [H | H]].
    + left. apply (Hw keywords); [repeat constructor|exact H].
    + left. apply (Hw punctuation); [repeat constructor|exact H].
    + simpl in H. destruct H as [H | [H | [H | [H | [H | [H | [H | [H | []]]]]]]]]; injection H as <- <-; [left..|right; auto|left].
      * apply (stable_solid _ _ correct_identifier solid_identifier).
      * apply (stable_solid _ _ correct_number solid_number).
      * apply stable_string.
      * apply stable_raw1.
      * apply stable_raw. lia.
      * apply stable_raw. lia.
      * apply stable_spaces.
  - simpl. intros [H | [H | [H | []]]]; injection H as <- <-; left.
    + apply (stable_solid _ _ correct_uri solid_uri).
    + apply stable_word. reflexivity.
    + apply stable_spaces.
Qed.
Lemma choose_eq rules s s' : (forall k f, In (k, f) rules -> f s' = f s) -> forall best, choose rules s' best = choose rules s best.
Proof.
  induction rules as [|[k f] rules IH]; intros H best; [reflexivity|]. cbn [choose]. rewrite (H k f (or_introl eq_refl)).
  apply IH. intros k' f' Hin. apply (H k' f'). right. exact Hin.
Qed.
Lemma choose_max rules s : forall best k n, choose rules s best = Some (k, n) -> (forall kb nb, best = Some (kb, nb) -> nb <= n) /\ forall k' f n', In (k', f) rules -> f s = Some n' -> n' <= n.
Proof.
  induction rules as [|[k0 f0] rules IH]; intros best k n H.
  { cbn [choose] in H. subst best. split; [intros kb nb [= _ <-]; lia|intros ? ? ? []]. }
  cbn [choose] in H. destruct (IH _ _ _ H) as [H1 H2]. split.
  - intros kb nb ->. destruct (f0 s) as [n0|]; [|apply (H1 _ _ eq_refl)]. destruct (nb <? n0) eqn:E; [apply Nat.ltb_lt in E; specialize (H1 _ _ eq_refl); lia|apply (H1 _ _ eq_refl)].
  - intros k' f n' [Hin | Hin] Hf; [|exact (H2 _ _ _ Hin Hf)]. injection Hin as -> ->. rewrite Hf in H1. destruct best as [[kb nb]|]; [|apply (H1 _ _ eq_refl)].
    destruct (nb <? n') eqn:E; [apply (H1 _ _ eq_refl)|]. apply Nat.ltb_ge in E. specialize (H1 _ _ eq_refl). lia.
Qed.
(** Only comments start with a slash in the default mode. *)
Lemma slash_comment s k n : next_token Default ("/"%char :: s) = Some (k, n) -> comment ("/"%char :: s) <> None.
Proof.
  intros H X. assert (E : next_token Default ("/"%char :: s) = None); [|congruence]. clear H.
  assert (Hw : forall l, Forall (fun e => word (snd e) ("/"%char :: s) = None) l -> forall rest, choose (words l ++ rest) ("/"%char :: s) None = choose rest ("/"%char :: s) None).
  { induction l as [|[k' w] l IH]; intros Hl rest; [reflexivity|]. inversion Hl as [|? ? H1 H2]; subst. cbn [words map fst snd app choose]. cbn [snd] in H1. rewrite H1. apply IH, H2. }
  unfold next_token, rules_of, default_rules. rewrite Hw by (repeat constructor). rewrite Hw by (repeat constructor).
  cbn [choose]. rewrite X. reflexivity.
Qed.
Lemma next_stable m t r r' k : t <> [] -> Loose r r' -> next_token m (t ++ r) = Some (k, length t) -> next_token m (t ++ r') = Some (k, length t).
Proof.
  intros Ht H E. rewrite <- E. unfold next_token. apply choose_eq. intros k' f Hin. destruct (choose_max _ _ _ _ _ E) as [_ Hmax].
  destruct (stable_rules m k' f Hin) as [Hs | (-> & -> & ->)].
  - apply Hs; [exact Ht|exact H|]. intros n Hn. exact (Hmax _ _ _ Hin Hn).
  - apply comment_stable; [exact H|intros n Hn; exact (Hmax _ _ _ Hin Hn)|]. intros Hnone. destruct t as [|c t]; [congruence|]. intros ->. cbn [app] in *. exact (slash_comment _ _ _ E Hnone).
Qed.
Lemma space_five c : is_space c = true -> c = ascii_of_N 32 \/ c = ascii_of_N 11 \/ c = ascii_of_N 9 \/ c = cr \/ c = lf.
Proof.
  unfold is_space. cbn [existsb]. rewrite !orb_true_iff. intros [H | [H | [H | [H | [H | H]]]]]; try discriminate; apply ceq_true in H; auto 6.
Qed.
Lemma next_space m c r : is_space c = true -> next_token m (c :: r) = Some (SPACES, 1).
Proof. intros H. destruct (space_five c H) as [-> | [-> | [-> | [-> | ->]]]]; destruct m; reflexivity. Qed.
Lemma mode_space m : next_mode m SPACES = m.
Proof. destruct m; reflexivity. Qed.
Lemma mode_token m k t s l : Lexes m s (Token k t :: l) -> next_mode m k = mode_after m (Token k t).
Proof.
  intros H. inversion H as [|? ? r ? ? _ HL _ E1 E2 |]; subst. destruct HL as (i & M & Hi & _). apply nth_error_In in Hi. destruct m, k; try reflexivity; exfalso.
  all: cbn in Hi; repeat (destruct Hi as [Hi | Hi]; [discriminate|]); exact Hi.
Qed.
Lemma next_comment n r : all_ plain n -> next_token Default (($"//" ++ n ++ [lf]) ++ r) = Some (SINGLE_LINE_COMMENT, length ($"//" ++ n ++ [lf])).
Proof.
  intros Hn. assert (E : comment (($"//" ++ n ++ [lf]) ++ r) = Some (length ($"//" ++ n ++ [lf]))).
  { assert (HM : MComment (($"//" ++ n ++ [lf]) ++ r) (length n + 3)).
    { apply MC_lf with (r := r); [rewrite <- !app_assoc; reflexivity|]. unfold all_ in *. rewrite forallb_forall in *. intros c Hc. specialize (Hn c Hc). unfold plain in Hn. unfold not_eol.
      destruct (ceq c cr), (ceq c lf); try reflexivity; discriminate Hn. }
    destruct (correct_comment (($"//" ++ n ++ [lf]) ++ r)) as [H1 H2]. destruct (comment _) as [k|] eqn:E; [|exfalso; exact (H2 eq_refl _ HM)].
    f_equal. rewrite (comment_func _ _ _ (proj1 (H1 k eq_refl)) HM), !app_length. change (length $"//") with 2. cbn [length]. lia. }
  remember (($"//" ++ n ++ [lf]) ++ r) as s eqn:Es. assert (Hs : exists s', s = "/"%char :: s') by (rewrite Es; eexists; reflexivity). destruct Hs as (s' & ->).
  assert (Hw : forall l, Forall (fun e => word (snd e) ("/"%char :: s') = None) l -> forall rest, choose (words l ++ rest) ("/"%char :: s') None = choose rest ("/"%char :: s') None).
  { induction l as [|[k' w] l IH]; intros Hl rest; [reflexivity|]. inversion Hl as [|? ? H1 H2]; subst. cbn [words map fst snd app choose]. cbn [snd] in H1. rewrite H1. apply IH, H2. }
  unfold next_token, rules_of, default_rules. rewrite Hw by (repeat constructor). rewrite Hw by (repeat constructor). cbn [choose]. rewrite E. reflexivity.
Qed.
Lemma white_mode m p l s : White m p -> Lexes m s (p :: l) -> exists r, s = piece_text p ++ r /\ Lexes m r l.
Proof.
  intros Hp H. inversion H as [|? t r k ? _ _ HX E1 E2 | ? c r ? _ HX E1 E2]; subst.
  - exists r. split; [reflexivity|]. inversion Hp as [c Hc E | n Hm Hn E]; subst; [rewrite mode_space in HX|]; exact HX.
  - inversion Hp.
Qed.
Lemma lexes_white m p l r : White m p -> Lexes m r l -> Lexes m (piece_text p ++ r) (p :: l).
Proof.
  intros [c Hc | n -> Hn] H; cbn [piece_text blank].
  - apply LX_token; [discriminate|apply next_longest, next_space, Hc|]. rewrite mode_space. exact H.
  - apply LX_token; [discriminate|apply next_longest, next_comment, Hn|exact H].
Qed.
Lemma gap_white m g : Gap m g -> Forall (White m) g.
Proof. intros [c l Hc Hl]. constructor; [constructor; exact Hc|exact Hl]. Qed.
Lemma lexes_gap m g l r : Forall (White m) g -> Lexes m r l -> Lexes m (text g ++ r) (g ++ l).
Proof.
  intros Hg H. induction Hg as [|p g Hp _ IH]; [exact H|]. unfold text. cbn [map concat app]. fold (text g). rewrite <- app_assoc. apply lexes_white; [exact Hp|exact IH].
Qed.
Lemma gap_lexes m g l : Forall (White m) g -> forall s, Lexes m s (g ++ l) -> exists r, s = text g ++ r /\ Lexes m r l.
Proof.
  induction 1 as [|p g Hp _ IH]; intros s H; [exists s; auto|]. cbn [app] in H. destruct (white_mode _ _ _ _ Hp H) as (r & -> & HX).
  destruct (IH _ HX) as (r' & -> & Hr). exists r'. split; [unfold text; cbn [map concat]; rewrite <- app_assoc; reflexivity|exact Hr].
Qed.
Lemma respaced_lexes m l l' : Respaced m l l' -> lex_ok l = true -> forall s, Lexes m s l -> Lexes m (text l') l'.
Proof.
  induction 1 as [|m p l l' H IH | m g g' l l' Hg Hg' H IH]; intros Hok s HL.
  - constructor.
  - unfold lex_ok in Hok. cbn [forallb] in Hok. apply andb_true_iff in Hok as [Hp Hok]. destruct p as [k t|c]; [|discriminate].
    pose proof (mode_token _ _ _ _ _ HL) as Em. inversion HL as [|? ? r ? ? Ht HLong HX E1 E2 |]; subst. unfold text. cbn [map concat piece_text]. fold (text l').
    apply LX_token; [exact Ht| |rewrite Em in *; exact (IH Hok _ HX)]. apply next_longest. apply next_longest in HLong.
    apply (next_stable m t r); [exact Ht| |exact HLong]. rewrite <- (lexes_text _ _ _ HX). fold (text l). exact (respaced_loose _ _ _ H).
  - assert (Hok' : lex_ok l = true) by (unfold lex_ok in *; rewrite forallb_app in Hok; apply andb_true_iff in Hok; tauto).
    destruct (gap_lexes _ _ _ (gap_white _ _ Hg) _ HL) as (r & -> & HX). rewrite text_app. apply lexes_gap; [exact (gap_white _ _ Hg')|exact (IH Hok' _ HX)].
Qed.
Lemma respaced_visible m l l' : Respaced m l l' -> visible l = visible l' /\ lex_ok l = lex_ok l'.
Proof.
  assert (Hb : forall m g l, Forall (White m) g -> visible (g ++ l) = visible l /\ lex_ok (g ++ l) = lex_ok l).
  { intros m0 g x Hg. induction Hg as [|p g Hp _ [IH1 IH2]]; [auto|]. destruct Hp; cbn [app]; split; assumption. }
  induction 1 as [|m p l l' H [IH1 IH2] | m g g' l l' Hw Hw' H [IH1 IH2]]; [auto| |].
  - unfold visible, lex_ok in *. cbn [flat_map forallb]. rewrite IH1, IH2. auto.
  - destruct (Hb m g l (gap_white _ _ Hw)) as [-> ->], (Hb m g' l' (gap_white _ _ Hw')) as [-> ->]. auto.
Qed.
Lemma tokens_respaced s l' : Respaced Default (pieces Default s) l' -> tokens s <> None -> tokens (text l') = tokens s.
Proof.
  intros H Hok. unfold tokens in *. destruct (lex_ok (pieces Default s)) eqn:E; [|congruence].
  rewrite (proj1 (lexes_iff _ _ _) (respaced_lexes _ _ _ H E _ (pieces_lexes Default s))). destruct (respaced_visible _ _ _ H) as [H1 H2]. rewrite <- H2, E, H1. reflexivity.
Qed.
