(** How texts put together from words, numbers, strings and punctuation are cut into tokens. *)
From Verif Require Import Base BaseFacts StringsModel StringsFacts EscapeModel EscapeFacts DecimalModel DecimalFacts LexModel LexFacts NameModel NameFacts.
From Coq Require Import Lia ZifyBool ZifyNat ZifyN.

(** The text [t] is cut into pieces with the visible tokens [ts], whatever text fit for [F] follows. *)
Definition Cuts (F : str -> Prop) (t : str) (ts : list token) : Prop :=
  exists ps, visible ps = ts /\ lex_ok ps = true /\ forall r, F r -> pieces Default (t ++ r) = ps ++ pieces Default r.
Definition any (_ : str) : Prop := True.
Lemma lex_ok_app a b : lex_ok (a ++ b) = lex_ok a && lex_ok b.
Proof. apply forallb_app. Qed.
Lemma cuts_app F G a b x y : Cuts F a x -> Cuts G b y -> (forall r, G r -> F (b ++ r)) -> Cuts G (a ++ b) (x ++ y).
Proof.
  intros (p & Hp & Op & Lp) (q & Hq & Oq & Lq) H. exists (p ++ q). split; [rewrite visible_app; congruence|]. split; [rewrite lex_ok_app, Op, Oq; reflexivity|].
  intros r Hr. rewrite <- app_assoc, Lp by (apply H, Hr). rewrite Lq by exact Hr. rewrite app_assoc. reflexivity.
Qed.
Lemma cuts_any F a b x y : Cuts any a x -> Cuts F b y -> Cuts F (a ++ b) (x ++ y).
Proof. intros Ha Hb. eapply cuts_app; [exact Ha|exact Hb|]. intros; exact I. Qed.
Lemma cuts_weaken (F G : str -> Prop) t ts : Cuts F t ts -> (forall r, G r -> F r) -> Cuts G t ts.
Proof. intros (p & Hp & Op & Lp) H. exists p. split; [exact Hp|]. split; [exact Op|]. intros r Hr. apply Lp, H, Hr. Qed.
Lemma cuts_nil F : Cuts F [] [].
Proof. exists []. repeat split. Qed.
Lemma cuts_tokens F t ts : Cuts F t ts -> F [] -> tokens t = Some ts.
Proof.
  intros (p & Hp & Op & Lp) H. specialize (Lp [] H). rewrite !app_nil_r in Lp. unfold tokens. rewrite Lp.
  rewrite Op, Hp. reflexivity.
Qed.

(** * Single tokens *)
Lemma cuts_token (F : str -> Prop) t k : t <> [] -> next_mode Default k = Default -> hidden k = false -> (forall r, F r -> next_token Default (t ++ r) = Some (k, length t)) -> Cuts F t [(k, t)].
Proof.
  intros Ht Hm Hh H. exists [Token k t]. split; [unfold visible; cbn [flat_map]; rewrite Hh; reflexivity|]. split; [reflexivity|].
  intros r Hr. rewrite (pieces_token _ _ _ _ Ht (H r Hr)), Hm. reflexivity.
Qed.
Ltac punct := apply cuts_token; [discriminate|reflexivity|reflexivity|intros r _; reflexivity].
Lemma cuts_lparen : Cuts any $"(" [(LEFTPAREN, $"(")]. Proof. punct. Qed.
Lemma cuts_rparen : Cuts any $")" [(RIGHTPAREN, $")")]. Proof. punct. Qed.
Lemma cuts_arrow : Cuts any $"->" [(ARROW, $"->")]. Proof. punct. Qed.
Lemma cuts_comma : Cuts any $"," [(COMMA, $",")]. Proof. punct. Qed.
Lemma cuts_period : Cuts any $"." [(PERIOD, $".")]. Proof. punct. Qed.
Lemma cuts_under : Cuts any $"_" [(UNDERSCORE, $"_")]. Proof. punct. Qed.
Lemma cuts_langle : Cuts any $"<" [(LEFTANGLEBRACKET, $"<")]. Proof. punct. Qed.
Lemma cuts_rangle : Cuts any $">" [(RIGHTANGLEBRACKET, $">")]. Proof. punct. Qed.
Lemma cuts_question : Cuts any $"?" [(QUESTIONMARK, $"?")]. Proof. punct. Qed.
Lemma cuts_lbrace : Cuts any $"{" [(LEFTBRACE, $"{")]. Proof. punct. Qed.
Lemma cuts_rbrace : Cuts any $"}" [(RIGHTBRACE, $"}")]. Proof. punct. Qed.
Lemma cuts_semicolon : Cuts any $";" [(SEMICOLON, $";")]. Proof. punct. Qed.
Lemma cuts_colon : Cuts any $":" [(COLON, $":")]. Proof. punct. Qed.
Lemma cuts_at : Cuts any $"@" [(ATSIGN, $"@")]. Proof. punct. Qed.
Lemma cuts_blank c : is_space c = true -> Cuts any [c] [].
Proof.
  intros H. exists [Token SPACES [c]]. split; [reflexivity|]. split; [reflexivity|]. intros r _.
  rewrite (pieces_token Default [c] r SPACES); [reflexivity|discriminate|apply next_space, H].
Qed.
Lemma cuts_blanks w : all_ is_space w -> Cuts any w [].
Proof.
  induction w as [|c w IH]; intros H; [apply cuts_nil|]. unfold all_ in H. cbn [forallb] in H. apply andb_true_iff in H as [Hc H].
  apply (cuts_any any [c] w [] []); [apply cuts_blank, Hc|apply IH, H].
Qed.
Lemma cuts_space : Cuts any $" " [].
Proof. apply cuts_blanks. reflexivity. Qed.
Lemma cuts_comma_space : Cuts any $", " [(COMMA, $",")].
Proof. exact (cuts_any any $"," $" " _ [] cuts_comma cuts_space). Qed.

(** * Names and keywords *)
Lemma cuts_name n : Name n -> Cuts ends n (visible (pieces Default n)).
Proof. intros H. destruct (name_pieces n H) as (Hr & Ho & _). exists (pieces Default n). auto. Qed.
Lemma cuts_keyword w k : LIdentifier w -> In (k, to_lower w) keywords -> In under w -> False.
Proof. intros H _. apply (identifier_no_under w H). Qed.
(** A keyword that is a word *)
Lemma cuts_word w : LIdentifier w -> next_mode Default (word_kind w) = Default -> hidden (word_kind w) = false -> Cuts ends w [(word_kind w, w)].
Proof.
  intros Hw Hm Hh. apply cuts_token; [destruct Hw; discriminate|exact Hm|exact Hh|].
  intros r Hr. apply next_word; [exact Hw|apply ends_apart, Hr|]. apply (short_ends w r (word_no_compound w Hw) Hr w []). symmetry. apply app_nil_r.
Qed.
Lemma cuts_as : Cuts ends $"AS" [(AS, $"AS")].
Proof. apply cuts_word; [|reflexivity|reflexivity]. constructor; reflexivity. Qed.

(** * Numbers and strings *)
Lemma choose_none rules s best : (forall k f, In (k, f) rules -> f s = None) -> choose rules s best = best.
Proof.
  revert best. induction rules as [|[k f] rules IH]; intros best H; [reflexivity|]. cbn [choose]. rewrite (H k f (or_introl eq_refl)). apply IH. intros. eapply H. right. eassumption.
Qed.
Lemma choose_app a b s best : choose (a ++ b) s best = choose b s (choose a s best).
Proof. revert best. induction a as [|[k f] a IH]; intros best; [reflexivity|]. cbn [app choose]. apply IH. Qed.
Lemma keywords_none c r : is_alpha c = false -> forall k f, In (k, f) (words keywords) -> f (c :: r) = None.
Proof.
  intros Hc k f Hin. apply words_in in Hin as (w & Hin & ->). destruct (word w (c :: r)) as [n|] eqn:E; [|reflexivity]. exfalso.
  apply word_some in E as (-> & t & r' & E & Ht & _).
  assert (X : forallb (fun e => match snd e with d :: _ => is_alpha d | [] => false end) keywords = true) by (vm_compute; reflexivity).
  rewrite forallb_forall in X. specialize (X _ Hin). cbn [snd] in X. destruct t as [|d t]; [rewrite <- Ht in X; discriminate|].
  injection E as <- _. rewrite <- Ht in X. cbn in X. rewrite lower_alpha in X. congruence.
Qed.
Lemma digit_cases c : is_digit c = true -> In c $"0123456789".
Proof. destruct c as [[] [] [] [] [] [] [] []]; intros H; try discriminate H; cbn; auto 20. Qed.
Lemma digits_not_alpha c : is_digit c = true -> is_alpha c = false.
Proof. intros H. apply digit_cases in H. cbn in H. repeat (destruct H as [<- | H]; [reflexivity|]). destruct H. Qed.
(** What may follow a number *)
Definition no_number (r : str) : Prop := match r with c :: _ => is_digit c = false /\ c <> "."%char /\ lower c <> "e"%char | [] => True end.
Lemma exponent_exact e r : LExponent e -> no_number r -> exponent (e ++ r) = length e.
Proof.
  intros [c s d Hc Hs Hd] Hr. cbn [app exponent]. rewrite Hc, ceq_refl. replace (ceq s "+" || ceq s "-") with true by (destruct Hs as [-> | ->]; reflexivity). cbn [andb].
  assert (E : span is_digit (d ++ r) = length d).
  { rewrite span_app by apply Hd. destruct r as [|x r]; [cbn [span]; lia|]. cbn in Hr. cbn [span]. destruct Hr as (-> & _). lia. }
  rewrite E. destruct Hd as [Hne _]. destruct d as [|x d]; [congruence|]. reflexivity.
Qed.
Lemma exponent_zero r : no_number r -> exponent r = 0.
Proof.
  destruct r as [|c [|d r]]; [reflexivity|reflexivity|]. intros (_ & _ & H). cbn [exponent]. destruct (ceq (lower c) "e") eqn:E; [apply ceq_true in E; congruence|reflexivity].
Qed.
Lemma fraction_zero r : no_number r -> fraction r = 0.
Proof.
  destruct r as [|c r]; [reflexivity|]. intros (_ & H & _). cbn [fraction]. destruct (ceq c ".") eqn:E; [apply ceq_true in E; congruence|reflexivity].
Qed.
Lemma number_exact t r : LNumber t -> no_number r -> number (t ++ r) = Some (length t).
Proof.
  intros [m d f e Hm Hd Hf He] Hr. unfold number. rewrite <- !app_assoc.
  rewrite (sub_minus m d _ Hm Hd), skipn_length_app.
  assert (Hz : match e ++ r with [] => True | c :: _ => is_digit c = false end).
  { destruct He as [-> | [c s d' Hc _ _]]; [|cbn; apply e_not_digit, Hc]. destruct r; [exact I|apply Hr]. }
  assert (Hf0 : match f ++ e ++ r with [] => True | c :: _ => is_digit c = false end).
  { destruct Hf as [-> | [d' _]]; [exact Hz|reflexivity]. }
  assert (Es : span is_digit (d ++ f ++ e ++ r) = length d).
  { rewrite span_app by apply Hd. destruct (f ++ e ++ r) as [|x q]; [cbn [span]; lia|]. cbn [span]. rewrite Hf0. lia. }
  rewrite Es. destruct (length d) as [|k] eqn:Ek; [destruct Hd as [Hne _]; destruct d; [congruence|discriminate]|]. rewrite <- Ek. clear Ek Es.
  assert (Hsk : skipn (length m + length d) (m ++ d ++ f ++ e ++ r) = f ++ e ++ r) by (rewrite app_assoc, <- app_length; apply skipn_length_app).
  rewrite Hsk.
  assert (Ef : fraction (f ++ e ++ r) = length f).
  { destruct Hf as [-> | Hf]; [|apply fraction_exact; [exact Hf|exact Hz]]. cbn [app length]. destruct He as [-> | He]; [apply fraction_zero, Hr|].
    destruct He as [c s d' Hc _ _]. destruct (e_not_digit c Hc) as [_ H2]. cbn [app fraction]. rewrite H2. reflexivity. }
  rewrite Ef. assert (Hsk2 : skipn (length m + length d + length f) (m ++ d ++ f ++ e ++ r) = e ++ r).
  { replace (m ++ d ++ f ++ e ++ r) with ((m ++ d ++ f) ++ e ++ r) by (rewrite <- !app_assoc; reflexivity).
    replace (length m + length d + length f) with (length (m ++ d ++ f)) by (rewrite !app_length; lia). apply skipn_length_app. }
  rewrite Hsk2. assert (Ee : exponent (e ++ r) = length e).
  { destruct He as [-> | He]; [apply exponent_zero, Hr|apply exponent_exact; assumption]. }
  rewrite Ee, !app_length. f_equal. lia.
Qed.
Lemma digit_punct d r k f : is_digit d = true -> In (k, f) (words punctuation) -> f (d :: r) = None.
Proof.
  intros Hd Hin. apply words_in in Hin as (w & Hin & ->). destruct (word w (d :: r)) as [n|] eqn:E; [|reflexivity]. exfalso.
  apply word_some in E as (-> & t & r' & E & Ht & _). apply digit_cases in Hd.
  assert (X : forallb (fun e => match snd e with c :: _ => negb (is_digit c) | [] => false end) punctuation = true) by (vm_compute; reflexivity).
  rewrite forallb_forall in X. specialize (X _ Hin). cbn [snd] in X. destruct t as [|c t]; [rewrite <- Ht in X; discriminate|]. injection E as <- _. rewrite <- Ht in X. cbn [to_lower map] in X.
  cbn in Hd. repeat (destruct Hd as [<- | Hd]; [discriminate X|]). destruct Hd.
Qed.
Lemma minus_punct d r : is_digit d = true -> choose (words punctuation) ("-"%char :: d :: r) None = Some (MINUS, 1).
Proof. intros Hd. apply digit_cases in Hd. cbn in Hd. repeat (destruct Hd as [<- | Hd]; [reflexivity|]). destruct Hd. Qed.
Lemma digit_rest c r best n : is_digit c = true \/ c = "-"%char -> number (c :: r) = Some n -> (forall k m, best = Some (k, m) -> m < n) ->
  choose ((IDENTIFIER, identifier) :: [(NUMBER, number); (STRING, lex_string); (STRING, raw1); (STRING, raw 2); (STRING, raw 3); (SINGLE_LINE_COMMENT, comment); (SPACES, spaces)]) (c :: r) best =
  Some (NUMBER, n).
Proof.
  intros Hc Hn Hb.
  assert (Hin : In c $"0123456789-") by (destruct Hc as [Hc | ->]; [apply digit_cases in Hc; cbn in *; tauto|cbn; tauto]).
  assert (H1 : identifier (c :: r) = None) by (cbn in Hin; repeat (destruct Hin as [<- | Hin]; [reflexivity|]); destruct Hin).
  assert (H2 : choose [(STRING, lex_string); (STRING, raw1); (STRING, raw 2); (STRING, raw 3); (SINGLE_LINE_COMMENT, comment); (SPACES, spaces)] (c :: r) (Some (NUMBER, n)) = Some (NUMBER, n)).
  { apply choose_none. intros k f H. clear Hn Hc H1. simpl in H. cbn in Hin.
    repeat (destruct H as [H | H]; [injection H as <- <-; repeat (destruct Hin as [<- | Hin]; [reflexivity|]); destruct Hin|]). destruct H. }
  cbn [choose]. rewrite H1, Hn. destruct best as [[k m]|]; [|exact H2]. specialize (Hb k m eq_refl). apply Nat.ltb_lt in Hb. rewrite Hb. exact H2.
Qed.
Lemma next_number t r : LNumber t -> no_number r -> next_token Default (t ++ r) = Some (NUMBER, length t).
Proof.
  intros Ht Hr. pose proof (number_exact t r Ht Hr) as En.
  assert (Hh : exists m d x, t = m ++ d :: x /\ (m = [] \/ m = ["-"%char]) /\ is_digit d = true).
  { destruct Ht as [m d f e Hm Hd _ _]. destruct Hd as [Hne Hd]. destruct d as [|c d]; [congruence|]. unfold all_ in Hd. cbn [forallb] in Hd. apply andb_true_iff in Hd as [Hc _].
    exists m, c, (d ++ f ++ e). auto. }
  destruct Hh as (m & d & x & -> & Hm & Hd). unfold next_token, rules_of. rewrite rules_split, !choose_app.
  destruct Hm as [-> | ->].
  - change (([] ++ d :: x) ++ r) with (d :: x ++ r) in *. rewrite (choose_none _ _ _ (keywords_none d (x ++ r) (digits_not_alpha d Hd))).
    rewrite (choose_none (words punctuation)) by (intros k f; apply digit_punct, Hd). apply (digit_rest d (x ++ r) None); [left; exact Hd|exact En|discriminate].
  - change ((["-"%char] ++ d :: x) ++ r) with ("-"%char :: d :: x ++ r) in *. rewrite (choose_none _ _ _ (keywords_none "-"%char (d :: x ++ r) eq_refl)).
    rewrite (minus_punct d (x ++ r) Hd). apply (digit_rest "-"%char (d :: x ++ r) (Some (MINUS, 1))); [right; reflexivity|exact En|]. intros ? ? [= <- <-]. rewrite app_length. cbn [length]. lia.
Qed.
Lemma cuts_number t : LNumber t -> Cuts no_number t [(NUMBER, t)].
Proof.
  intros H. apply cuts_token; [|reflexivity|reflexivity|intros r; apply next_number, H].
  destruct H as [m d f e _ [Hd _] _ _]. destruct m; [destruct d; [congruence|discriminate]|discriminate].
Qed.
Lemma print_N_number n : LNumber (print_N n).
Proof.
  rewrite <- (app_nil_r (print_N n)), <- (app_nil_r []). apply (LN [] (print_N n) [] []); auto. split; [apply print_N_nonempty|apply print_N_digits].
Qed.
Lemma print_Z_number z : LNumber (print_Z z).
Proof.
  destruct z as [|p|p]; cbn [print_Z]; try apply print_N_number.
  pose proof (LN ["-"%char] (print_N (N.pos p)) [] []) as X. cbn [app] in X. rewrite app_nil_r in X. apply X; auto. split; [apply print_N_nonempty|apply print_N_digits].
Qed.
Lemma next_printed v r : no_backslash v -> next_token Default (printQuoted v ++ r) = Some (STRING, length (printQuoted v)).
Proof.
  intros Hv. pose proof (lex_printed v r Hv) as E. unfold next_token, rules_of. rewrite rules_split, !choose_app. unfold printQuoted in *. cbn [app] in *.
  rewrite (choose_none _ _ _ (keywords_none dquote _ eq_refl)).
  change (choose (words punctuation) (dquote :: (stringEscape v ++ [dquote]) ++ r) None) with (@None (kind * nat)).
  cbn [choose]. rewrite E.
  change (identifier (dquote :: (stringEscape v ++ [dquote]) ++ r)) with (@None nat). change (number (dquote :: (stringEscape v ++ [dquote]) ++ r)) with (@None nat).
  change (raw1 (dquote :: (stringEscape v ++ [dquote]) ++ r)) with (@None nat). change (raw 2 (dquote :: (stringEscape v ++ [dquote]) ++ r)) with (@None nat).
  change (raw 3 (dquote :: (stringEscape v ++ [dquote]) ++ r)) with (@None nat). change (comment (dquote :: (stringEscape v ++ [dquote]) ++ r)) with (@None nat).
  change (spaces (dquote :: (stringEscape v ++ [dquote]) ++ r)) with (@None nat). reflexivity.
Qed.
Lemma cuts_printed v : no_backslash v -> Cuts any (printQuoted v) [(STRING, printQuoted v)].
Proof. intros H. apply cuts_token; [discriminate|reflexivity|reflexivity|]. intros r _. apply next_printed, H. Qed.
