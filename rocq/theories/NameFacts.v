From Verif Require Import Base BaseFacts StringsModel StringsFacts EscapeModel EscapeFacts LexModel LexFacts NameModel.
From Coq Require Import Lia ZifyBool ZifyNat ZifyN.

(** * Specification *)
(** Words that are keywords and not names, and keywords that contain underscores. *)
Definition reserved : list str :=
  [$"function"; $"as"; $"relation"; $"pipelines"; $"common"; $"projection"; $"expression"; $"invocation"; $"by"; $"subquery"; $"exists"; $"unique"; $"in";
   $"items"; $"names"; $"start"; $"length"; $"orc"; $"parquet"; $"true"; $"false"; $"list"; $"map"; $"struct"].
Definition compounds : list str :=
  [$"extension_space"; $"base_schema"; $"advanced_extension"; $"virtual_table"; $"local_files"; $"named_table"; $"extension_table"; $"uri_file"; $"uri_path";
   $"uri_path_glob"; $"uri_folder"; $"partition_index"].
Definition under : ascii := "_".
(** A name: words of letters, digits and dollar signs that start with a letter, separated by underscores; no word is reserved and no
    word starts a keyword with underscores. *)
Definition no_compound (s : str) : Prop := forall c r, In c compounds -> to_lower s <> c ++ r.
Inductive Name : str -> Prop :=
| Name_word w : LIdentifier w -> ~ In (to_lower w) reserved -> Name w
| Name_more w k n : LIdentifier w -> ~ In (to_lower w) reserved -> no_compound (w ++ repeat under (S k) ++ n) -> Name n -> Name (w ++ repeat under (S k) ++ n).

(** * Words *)
Lemma choose_skip rules s n : (forall k f n', In (k, f) rules -> f s = Some n' -> n' <= n) -> forall k0, choose rules s (Some (k0, n)) = Some (k0, n).
Proof.
  induction rules as [|[k f] rules IH]; intros H k0; [reflexivity|]. cbn [choose].
  assert (X : match f s with Some n0 => if n <? n0 then Some (k, n0) else Some (k0, n) | None => Some (k0, n) end = Some (k0, n)).
  { destruct (f s) as [n'|] eqn:E; [|reflexivity]. specialize (H k f n' (or_introl eq_refl) E). destruct (n <? n') eqn:E'; [apply Nat.ltb_lt in E'; lia|reflexivity]. }
  rewrite X. apply IH. intros k' f' n' Hin. apply (H k' f'). right. exact Hin.
Qed.
Lemma choose_first a k f b s n : f s = Some n -> (forall k' f' n', In (k', f') a -> f' s = Some n' -> n' < n) -> (forall k' f' n', In (k', f') b -> f' s = Some n' -> n' <= n) ->
  choose (a ++ (k, f) :: b) s None = Some (k, n).
Proof.
  intros Hf Ha Hb. assert (X : forall best, (forall kb nb, best = Some (kb, nb) -> nb < n) -> choose (a ++ (k, f) :: b) s best = Some (k, n)); [|apply X; discriminate].
  induction a as [|[k0 f0] a IH]; intros best Hbest.
  - cbn [app choose]. rewrite Hf. destruct best as [[kb nb]|].
    + specialize (Hbest kb nb eq_refl). replace (nb <? n) with true by (symmetry; apply Nat.ltb_lt; exact Hbest). apply choose_skip, Hb.
    + apply choose_skip, Hb.
  - cbn [app choose]. apply IH.
    + intros k' f' n' Hin. apply (Ha k' f'). right. exact Hin.
    + intros kb nb. destruct (f0 s) as [n0|] eqn:E0; [|apply Hbest]. specialize (Ha k0 f0 n0 (or_introl eq_refl) E0).
      destruct best as [[kb' nb']|]; [|intros [= _ <-]; exact Ha]. destruct (nb' <? n0); [intros [= _ <-]; exact Ha|apply Hbest].
Qed.
(** The kind of a word *)
Definition word_kind (w : str) : kind := match find (fun e => snd e =s to_lower w) keywords with Some (k, _) => k | None => IDENTIFIER end.
(** What follows a word *)
Definition apart (r : str) : Prop := match r with c :: _ => is_word c = false | [] => True end.
Definition plain_word (w : str) : bool := forallb is_alpha w.
Lemma words_in k f l : In (k, f) (words l) <-> exists w, In (k, w) l /\ f = word w.
Proof.
  unfold words. rewrite in_map_iff. split.
  - intros ([k' w] & E & Hin). injection E as <- <-. eauto.
  - intros (w & Hin & ->). exists (k, w). auto.
Qed.
Lemma keywords_split : forall k w, In (k, w) keywords -> plain_word w = true \/ In w compounds.
Proof.
  intros k w H. assert (X : forallb (fun e => plain_word (snd e) || existsb (fun c => c =s snd e) compounds) keywords = true) by (vm_compute; reflexivity).
  rewrite forallb_forall in X. specialize (X _ H). cbn [snd] in X. apply orb_true_iff in X as [X | X]; [auto|]. right. apply existsb_exists in X as (c & Hc & E). apply seq_eqb_eq in E. subst c. exact Hc.
Qed.
Lemma word_some w s n : word w s = Some n -> n = length w /\ exists t r, s = t ++ r /\ to_lower t = w /\ length t = n.
Proof.
  intros H. destruct (proj1 (correct_word w s) n H) as [(t & r & -> & <- & Ht) _]. unfold LWord in Ht. split; [rewrite <- Ht, to_lower_length; reflexivity|eauto].
Qed.
Lemma to_lower_alpha w : plain_word (to_lower w) = true -> forallb is_alpha w = true.
Proof.
  unfold plain_word. intros H. rewrite forallb_forall in *. intros c Hc. rewrite <- li_alpha. apply H. apply in_map, Hc.
Qed.
Lemma alpha_word c : is_alpha c = true -> is_word c = true.
Proof. unfold is_word. intros ->. reflexivity. Qed.
Lemma plain_word_short kw w r n : plain_word kw = true -> apart r -> word kw (w ++ r) = Some n -> n <= length w.
Proof.
  intros Hp Hr H. apply word_some in H as (-> & t & r' & E & Ht & Hl). destruct (le_lt_dec (length kw) (length w)) as [Hle|Hlt]; [exact Hle|]. exfalso.
  destruct (app_prefix w t r r' E ltac:(lia)) as (z & ->). rewrite <- app_assoc in E. apply app_inv_head in E. subst r.
  destruct z as [|c z]; [rewrite app_nil_r in Hl; lia|]. cbn in Hr. rewrite <- Ht in Hp. apply to_lower_alpha in Hp. rewrite forallb_app in Hp. apply andb_true_iff in Hp as [_ Hp].
  cbn [forallb] in Hp. apply andb_true_iff in Hp as [Hc _]. rewrite (alpha_word c Hc) in Hr. discriminate.
Qed.
(** No keyword with underscores goes on after the word. *)
Definition short (w r : str) : Prop := forall c, In c compounds -> word c (w ++ r) = None \/ length c <= length w.
Lemma alpha_ne c d : is_alpha c = true -> is_alpha d = false -> ceq c d = false.
Proof. intros Hc Hd. destruct (ceq c d) eqn:E; [apply ceq_true in E; congruence|reflexivity]. Qed.
Lemma lower_alpha c : is_alpha (lower c) = is_alpha c.
Proof. apply li_alpha. Qed.
Lemma punct_none c r k w : is_alpha c = true -> In (k, w) punctuation -> word w (c :: r) = None.
Proof.
  intros Hc Hin. destruct (word w (c :: r)) as [n|] eqn:E; [|reflexivity]. exfalso. apply word_some in E as (-> & t & r' & E & Ht & _).
  assert (X : Forall (fun e => match snd e with d :: _ => is_alpha d = false | [] => False end) punctuation) by (repeat constructor).
  rewrite Forall_forall in X. specialize (X _ Hin). cbn [snd] in X. destruct t as [|d t]; [rewrite <- Ht in X; exact X|]. injection E as <- _. rewrite <- Ht in X. cbn in X. rewrite lower_alpha in X. congruence.
Qed.
Lemma other_none c r k f : is_alpha c = true -> In (k, f) [(NUMBER, number); (STRING, lex_string); (STRING, raw1); (STRING, raw 2); (STRING, raw 3); (SINGLE_LINE_COMMENT, comment); (SPACES, spaces)] ->
  f (c :: r) = None.
Proof.
  intros Hc H. assert (Hd : is_digit c = false) by (destruct c as [[] [] [] [] [] [] [] []]; try reflexivity; discriminate).
  assert (Htick : ceq backtick c = false) by (unfold ceq; rewrite Ascii.eqb_sym; apply alpha_ne; [exact Hc|reflexivity]).
  simpl in H. destruct H as [H | [H | [H | [H | [H | [H | [H | []]]]]]]]; injection H as <- <-.
  - unfold number. cbn [minus]. rewrite (alpha_ne c "-" Hc eq_refl). cbn [skipn span]. rewrite Hd. reflexivity.
  - cbn [lex_string]. rewrite (alpha_ne c dquote Hc eq_refl). reflexivity.
  - cbn [raw1]. rewrite (alpha_ne c backtick Hc eq_refl). reflexivity.
  - unfold raw. cbn [repeat starts]. rewrite Htick. reflexivity.
  - unfold raw. cbn [repeat starts]. rewrite Htick. reflexivity.
  - unfold comment. destruct (starts $"//" (c :: r)) eqn:E; [|reflexivity]. apply starts_app in E as (x & E). injection E as -> _. discriminate.
  - cbn [spaces]. rewrite (alpha_solid c Hc). reflexivity.
Qed.
Lemma rules_split : default_rules = words keywords ++ words punctuation ++ (IDENTIFIER, identifier) ::
  [(NUMBER, number); (STRING, lex_string); (STRING, raw1); (STRING, raw 2); (STRING, raw 3); (SINGLE_LINE_COMMENT, comment); (SPACES, spaces)].
Proof. reflexivity. Qed.
Lemma identifier_word w r : LIdentifier w -> apart r -> identifier (w ++ r) = Some (length w).
Proof.
  intros [c b Hc Hb] Hr. cbn [app identifier length]. rewrite Hc, span_app by exact Hb. destruct r as [|d r]; [cbn [span]; do 2 f_equal; lia|]. cbn in Hr. cbn [span]. rewrite Hr. do 2 f_equal; lia.
Qed.
Lemma keyword_bound w r k kw n : apart r -> short w r -> In (k, kw) keywords -> word kw (w ++ r) = Some n -> n <= length w.
Proof.
  intros Hr Hs Hin Hn. destruct (keywords_split k kw Hin) as [Hp | Hc]; [exact (plain_word_short kw w r n Hp Hr Hn)|].
  destruct (Hs kw Hc) as [X | X]; [congruence|]. apply word_some in Hn as [-> _]. exact X.
Qed.
Lemma next_word w r : LIdentifier w -> apart r -> short w r -> next_token Default (w ++ r) = Some (word_kind w, length w).
Proof.
  intros Hw Hr Hs. assert (Hh : exists c b, w = c :: b /\ is_alpha c = true) by (destruct Hw as [c b Hc Hb]; eauto). destruct Hh as (c0 & b0 & Ew & Hc0).
  unfold next_token, rules_of. rewrite rules_split.
  assert (Hpun : forall k f n', In (k, f) (words punctuation) -> f (w ++ r) = Some n' -> False).
  { intros k f n' Hin Hf. apply words_in in Hin as (p & Hin & ->). rewrite Ew in Hf. cbn [app] in Hf. rewrite (punct_none _ _ _ _ Hc0 Hin) in Hf. discriminate. }
  assert (Hoth : forall k f n', In (k, f) [(NUMBER, number); (STRING, lex_string); (STRING, raw1); (STRING, raw 2); (STRING, raw 3); (SINGLE_LINE_COMMENT, comment); (SPACES, spaces)] -> f (w ++ r) = Some n' -> False).
  { intros k f n' Hin Hf. rewrite Ew in Hf. cbn [app] in Hf. rewrite (other_none _ _ _ _ Hc0 Hin) in Hf. discriminate. }
  assert (Hexact : forall k kw, In (k, kw) keywords -> word kw (w ++ r) = Some (length w) -> kw = to_lower w).
  { intros k kw _ Hf. apply word_some in Hf as (Hl & t & r' & E & Ht & Hlt). destruct (app_prefix w t r r' E ltac:(lia)) as (z & ->). rewrite app_length in Hlt.
    destruct z; [|simpl in Hlt; lia]. rewrite app_nil_r in Ht. auto. }
  unfold word_kind. destruct (find (fun e => snd e =s to_lower w) keywords) as [[k kw]|] eqn:Ef.
  - assert (Hsp : exists a b, keywords = a ++ (k, kw) :: b /\ forall e, In e a -> (snd e =s to_lower w) = false).
    { clear -Ef. revert Ef. generalize keywords. induction l as [|e l IH]; [discriminate|]. cbn [find]. destruct (snd e =s to_lower w) eqn:E.
      - intros [= ->]. exists [], l. split; [reflexivity|intros ? []].
      - intros H. destruct (IH H) as (a & b & -> & Ha). exists (e :: a), b. split; [reflexivity|]. intros e' [<- | Hin]; auto. }
    destruct Hsp as (a & b & Es & Ha). apply find_some in Ef as [_ Ekw]. cbn [snd] in Ekw. apply seq_eqb_eq in Ekw.
    replace (words keywords ++ words punctuation ++ (IDENTIFIER, identifier) :: [(NUMBER, number); (STRING, lex_string); (STRING, raw1); (STRING, raw 2); (STRING, raw 3); (SINGLE_LINE_COMMENT, comment); (SPACES, spaces)])
      with (words a ++ (k, word kw) :: words b ++ words punctuation ++ (IDENTIFIER, identifier) :: [(NUMBER, number); (STRING, lex_string); (STRING, raw1); (STRING, raw 2); (STRING, raw 3); (SINGLE_LINE_COMMENT, comment); (SPACES, spaces)])
      by (rewrite Es; unfold words; rewrite map_app, <- app_assoc; reflexivity).
    apply choose_first.
    + unfold word. rewrite Ekw, to_lower_length, firstn_length_app, seq_eqb_refl. reflexivity.
    + intros k' f' n' Hin Hf. apply words_in in Hin as (kw' & Hin & ->). assert (Hk : In (k', kw') keywords) by (rewrite Es; apply in_app_iff; auto).
      pose proof (keyword_bound w r k' kw' n' Hr Hs Hk Hf). destruct (Nat.eq_dec n' (length w)) as [->|]; [|lia]. pose proof (Hexact _ _ Hk Hf). subst kw'.
      specialize (Ha _ Hin). cbn [snd] in Ha. rewrite seq_eqb_refl in Ha. discriminate.
    + intros k' f' n' Hin Hf. rewrite !in_app_iff in Hin. destruct Hin as [Hin | [Hin | [Hin | Hin]]].
      * apply words_in in Hin as (kw' & Hin & ->). assert (Hk : In (k', kw') keywords) by (rewrite Es; apply in_app_iff; simpl; auto). exact (keyword_bound w r k' kw' n' Hr Hs Hk Hf).
      * destruct (Hpun _ _ _ Hin Hf).
      * injection Hin as <- <-. rewrite (identifier_word w r Hw Hr) in Hf. injection Hf as <-. lia.
      * destruct (Hoth _ _ _ Hin Hf).
  - rewrite app_assoc. apply choose_first.
    + apply identifier_word; assumption.
    + intros k' f' n' Hin Hf. apply in_app_iff in Hin as [Hin | Hin]; [|destruct (Hpun _ _ _ Hin Hf)]. apply words_in in Hin as (kw' & Hin & ->).
      pose proof (keyword_bound w r k' kw' n' Hr Hs Hin Hf). destruct (Nat.eq_dec n' (length w)) as [->|]; [|lia]. pose proof (Hexact _ _ Hin Hf). subst kw'.
      pose proof (find_none _ _ Ef _ Hin) as X. cbn [snd] in X. rewrite seq_eqb_refl in X. discriminate.
    + intros k' f' n' Hin Hf. destruct (Hoth _ _ _ Hin Hf).
Qed.

(** * Names *)
Definition ends (r : str) : Prop := match r with c :: _ => is_word c = false /\ c <> under | [] => True end.
Lemma ends_apart r : ends r -> apart r.
Proof. destruct r; [auto|]. intros [H _]. exact H. Qed.
Lemma compound_chars c : In c compounds -> Forall (fun x => is_alpha x = true \/ x = under) c.
Proof.
  intros H. assert (X : forallb (fun c => forallb (fun x => is_alpha x || ceq x under) c) compounds = true) by (vm_compute; reflexivity).
  rewrite forallb_forall in X. specialize (X _ H). rewrite forallb_forall in X. apply Forall_forall. intros x Hx. specialize (X _ Hx). apply orb_true_iff in X as [X | X]; [auto|right; apply ceq_true, X].
Qed.
Lemma compound_under c : In c compounds -> In under c.
Proof.
  intros H. assert (X : forallb (fun c => existsb (fun x => ceq x under) c) compounds = true) by (vm_compute; reflexivity).
  rewrite forallb_forall in X. specialize (X _ H). apply existsb_exists in X as (x & Hx & E). apply ceq_true in E. subst x. exact Hx.
Qed.
Lemma lower_under x : lower x = under -> x = under.
Proof. intros H. pose proof (li_eq under eq_refl x) as E. cbn beta in E. rewrite H, ceq_refl in E. symmetry in E. apply ceq_true, E. Qed.
Lemma short_ends s r : no_compound s -> ends r -> forall w x, s = w ++ x -> short w (x ++ r).
Proof.
  intros Hn Hr w x -> c Hc. rewrite app_assoc. destruct (word c ((w ++ x) ++ r)) as [n|] eqn:E; [|auto]. exfalso.
  apply word_some in E as (-> & t & r' & E & Ht & Hl). destruct (le_lt_dec (length t) (length (w ++ x))) as [Hle|Hlt].
  - symmetry in E. destruct (app_prefix t (w ++ x) r' r E Hle) as (z & Ez). apply (Hn c (to_lower z) Hc). rewrite Ez, to_lower_app, Ht. reflexivity.
  - destruct (app_prefix (w ++ x) t r r' E ltac:(lia)) as (z & ->). rewrite <- (app_assoc (w ++ x) z r') in E. apply app_inv_head in E. subst r.
    destruct z as [|d z]; [rewrite app_nil_r in Hlt; lia|]. destruct Hr as [Hw Hu]. pose proof (compound_chars c Hc) as X. rewrite <- Ht, to_lower_app in X.
    apply Forall_app in X as [_ X]. inversion X as [|? ? X0 _]; subst. destruct X0 as [X0 | X0]; [rewrite lower_alpha in X0; rewrite (alpha_word d X0) in Hw; discriminate|apply Hu, lower_under, X0].
Qed.
Lemma identifier_no_under w : LIdentifier w -> ~ In under w.
Proof.
  intros [c b Hc Hb] [-> | Hin]; [discriminate|]. unfold all_ in Hb. rewrite forallb_forall in Hb. specialize (Hb _ Hin). discriminate.
Qed.
Lemma word_no_compound w : LIdentifier w -> no_compound w.
Proof.
  intros Hw c r Hc E. apply (identifier_no_under w Hw). pose proof (compound_under c Hc) as X. assert (Hin : In under (to_lower w)) by (rewrite E; apply in_app_iff; auto).
  apply in_map_iff in Hin as (x & Ex & Hx). apply lower_under in Ex. subst x. exact Hx.
Qed.
Lemma word_kind_simple w : LIdentifier w -> ~ In (to_lower w) reserved -> simple_id (word_kind w) = true /\ next_mode Default (word_kind w) = Default /\ word_kind w <> UNDERSCORE /\ hidden (word_kind w) = false.
Proof.
  intros Hw Hres. unfold word_kind. destruct (find (fun e => snd e =s to_lower w) keywords) as [[k kw]|] eqn:E; [|repeat split; discriminate || reflexivity].
  apply find_some in E as [Hin E]. cbn [snd] in E. apply seq_eqb_eq in E.
  assert (X : forallb (fun e => simple_id (fst e) || existsb (fun c => c =s snd e) reserved || existsb (fun c => ceq c under) (snd e)) keywords = true) by (vm_compute; reflexivity).
  rewrite forallb_forall in X. specialize (X _ Hin). cbn [fst snd] in X. rewrite !orb_true_iff in X. destruct X as [[X | X] | X].
  - destruct k; try discriminate X; repeat split; discriminate.
  - exfalso. apply Hres. apply existsb_exists in X as (c & Hc & Ec). apply seq_eqb_eq in Ec. subst. exact Hc.
  - exfalso. apply existsb_exists in X as (x & Hx & Ex). apply ceq_true in Ex. subst x. apply (identifier_no_under w Hw). rewrite E in Hx. apply in_map_iff in Hx as (y & Ey & Hy). apply lower_under in Ey. subst y. exact Hy.
Qed.
Lemma pieces_word w r : LIdentifier w -> ~ In (to_lower w) reserved -> apart r -> short w r -> pieces Default (w ++ r) = Token (word_kind w) w :: pieces Default r.
Proof.
  intros Hw Hres Hr Hs. destruct (word_kind_simple w Hw Hres) as (_ & Hm & _). rewrite <- Hm at 2. apply pieces_token; [destruct Hw; discriminate|]. apply next_word; assumption.
Qed.
Definition bar : piece := Token UNDERSCORE [under].
Lemma pieces_bar r : pieces Default (under :: r) = bar :: pieces Default r.
Proof. apply (pieces_token Default [under]); [discriminate|reflexivity]. Qed.
Lemma pieces_bars k r : pieces Default (repeat under k ++ r) = repeat bar k ++ pieces Default r.
Proof. induction k as [|k IH]; [reflexivity|]. cbn [repeat app]. rewrite pieces_bar, IH. reflexivity. Qed.
Lemma name_head n : Name n -> exists c r, n = c :: r /\ is_alpha c = true.
Proof. intros [w [c b Hc _] _ | w k m [c b Hc _] _ _ _]; [eauto|]. exists c, (b ++ repeat under (S k) ++ m). auto. Qed.
Lemma id_bars k need acc ts : id_from need acc (visible (repeat bar k) ++ ts) = id_from (need || (0 <? k)) (acc ++ repeat under k) ts.
Proof.
  revert need acc. induction k as [|k IH]; intros need acc.
  - cbn [repeat visible flat_map app]. rewrite app_nil_r, orb_false_r. reflexivity.
  - cbn [repeat visible flat_map bar hidden app id_from]. fold (visible (repeat bar k)). rewrite IH, <- app_assoc. cbn [app]. rewrite orb_true_r. reflexivity.
Qed.
Lemma visible_app a b : visible (a ++ b) = visible a ++ visible b.
Proof. apply flat_map_app. Qed.
Lemma visible_word k t l : hidden k = false -> visible (Token k t :: l) = (k, t) :: visible l.
Proof. unfold visible. cbn [flat_map]. intros ->. reflexivity. Qed.
Lemma id_simple acc k t r : simple_id k = true -> id_from true acc ((k, t) :: r) = id_from false (acc ++ t) r.
Proof. intros H. cbn [id_from]. destruct k; try discriminate H; reflexivity. Qed.
(** What follows the tokens of a name *)
Definition no_bar (ts : list token) : Prop := match ts with (k, _) :: _ => k <> UNDERSCORE | [] => True end.
Lemma id_stop acc ts : no_bar ts -> id_from false acc ts = Some (acc, ts).
Proof. destruct ts as [|[k t] r]; [reflexivity|]. cbn. intros H. destruct k; try reflexivity. congruence. Qed.
Lemma name_pieces n : Name n ->
  (forall r, ends r -> pieces Default (n ++ r) = pieces Default n ++ pieces Default r) /\ lex_ok (pieces Default n) = true /\
  (exists k t ts, visible (pieces Default n) = (k, t) :: ts /\ simple_id k = true) /\
  forall acc ts, no_bar ts -> id_from true acc (visible (pieces Default n) ++ ts) = Some (acc ++ n, ts).
Proof.
  induction 1 as [w Hw Hres | w k n Hw Hres Hnc Hn IH].
  - destruct (word_kind_simple w Hw Hres) as (Hsim & Hm & Hbar & Hhid).
    assert (X : forall r, ends r -> pieces Default (w ++ r) = Token (word_kind w) w :: pieces Default r).
    { intros r Hr. apply pieces_word; [exact Hw|exact Hres|apply ends_apart, Hr|]. apply (short_ends w r (word_no_compound w Hw) Hr w []). rewrite app_nil_r. reflexivity. }
    assert (X0 : pieces Default w = [Token (word_kind w) w]) by (rewrite <- (app_nil_r w) at 1; rewrite (X [] I); reflexivity).
    rewrite X0. split; [exact X|]. split; [reflexivity|]. rewrite (visible_word _ _ _ Hhid). split; [eexists _, _, _; split; [reflexivity|exact Hsim]|].
    intros acc ts Hts. change (visible []) with (@nil token). rewrite <- app_comm_cons, (id_simple acc _ w _ Hsim). apply id_stop, Hts.
  - destruct IH as (IH1 & IH2 & (k1 & t1 & ts1 & IH3 & IH3') & IH4). destruct (word_kind_simple w Hw Hres) as (Hsim & Hm & Hbar & Hhid).
    assert (X : forall r, ends r -> pieces Default ((w ++ repeat under (S k) ++ n) ++ r) = (Token (word_kind w) w :: repeat bar (S k)) ++ pieces Default n ++ pieces Default r).
    { intros r Hr. rewrite <- !app_assoc. rewrite pieces_word; [|exact Hw|exact Hres|reflexivity|].
      - cbn [app]. f_equal. rewrite pieces_bars, IH1 by exact Hr. reflexivity.
      - rewrite app_assoc. apply (short_ends _ r Hnc Hr). reflexivity. }
    assert (X0 : pieces Default (w ++ repeat under (S k) ++ n) = (Token (word_kind w) w :: repeat bar (S k)) ++ pieces Default n).
    { rewrite <- (app_nil_r (w ++ repeat under (S k) ++ n)). rewrite (X [] I). cbn. rewrite app_nil_r. reflexivity. }
    rewrite X0. split; [intros r Hr; rewrite X by exact Hr; rewrite <- app_assoc; reflexivity|].
    split. { unfold lex_ok. rewrite forallb_app. apply andb_true_iff. split; [|exact IH2]. cbn [forallb]. apply forallb_forall. intros p Hp. apply repeat_spec in Hp. subst p. reflexivity. }
    rewrite visible_app, (visible_word _ _ _ Hhid). split; [eexists _, _, _; split; [reflexivity|exact Hsim]|].
    intros acc ts Hts. rewrite <- app_comm_cons, <- app_comm_cons. rewrite (id_simple acc _ w _ Hsim). rewrite <- app_assoc, id_bars. cbn [orb].
    replace (0 <? S k) with true by reflexivity. rewrite IH4 by exact Hts. rewrite <- !app_assoc. reflexivity.
Qed.
Lemma name_read n ts : Name n -> no_bar ts -> p_id (visible (pieces Default n) ++ ts) = Some (n, ts).
Proof.
  intros Hn Hts. destruct (name_pieces n Hn) as (_ & _ & (k & t & r & E & Hk) & H4). specialize (H4 [] ts Hts). rewrite E in *. cbn [app p_id] in *.
  rewrite Hk. rewrite (id_simple [] _ t _ Hk) in H4. exact H4.
Qed.
Lemma name_tokens n : Name n -> tokens n = Some (visible (pieces Default n)).
Proof. intros Hn. unfold tokens. destruct (name_pieces n Hn) as (_ & -> & _). reflexivity. Qed.
Lemma read_name_ok n : Name n -> read_name n = Some n.
Proof. intros Hn. unfold read_name. rewrite (name_tokens n Hn). rewrite <- (app_nil_r (visible _)), (name_read n [] Hn I). reflexivity. Qed.

(** ** Only names *)
Definition shown (l : list piece) : Prop := Forall (fun p => match p with Token k _ => hidden k = false | Bad _ => False end) l.
Lemma token_rule m s k n : Longest m s k n -> exists M, In (k, M) (spec_rules m) /\ M s n.
Proof. intros (i & M & Hi & HM & _). exists M. split; [exact (nth_error_In _ _ Hi)|exact HM]. Qed.
Lemma token_max m s k n k' M' n' : Longest m s k n -> In (k', M') (spec_rules m) -> M' s n' -> n' <= n.
Proof. intros (i & M & _ & _ & H) Hin HM. apply In_nth_error in Hin as (j & Hj). destruct (H _ _ _ _ Hj HM); lia. Qed.
Lemma spec_words_in k M l : In (k, M) (spec_words l) <-> exists w, In (k, w) l /\ M = prefix_in (LWord w).
Proof.
  unfold spec_words. rewrite in_map_iff. split.
  - intros ([k' w] & E & Hin). injection E as <- <-. eauto.
  - intros (w & Hin & ->). exists (k, w). auto.
Qed.
Lemma prefix_exact L t r : prefix_in L (t ++ r) (length t) -> L t.
Proof.
  intros (t' & r' & E & El & Ht). destruct (app_prefix t t' r r' E ltac:(lia)) as (z & ->). rewrite app_length in El. destruct z; [|simpl in El; lia]. rewrite app_nil_r in Ht. exact Ht.
Qed.
Lemma to_lower_identifier w : LIdentifier (to_lower w) -> LIdentifier w.
Proof.
  intros H. remember (to_lower w) as q eqn:E. destruct H as [a b Hc Hr]. destruct w as [|c w]; [discriminate|]. cbn in E. injection E as -> ->. constructor; [rewrite <- li_alpha; exact Hc|].
  unfold all_ in *. rewrite forallb_forall in *. intros x Hx. rewrite <- li_word. apply Hr, in_map, Hx.
Qed.
Lemma plain_identifier w : w <> [] -> plain_word w = true -> LIdentifier w.
Proof.
  destruct w as [|c w]; [congruence|]. intros _ H. unfold plain_word in H. cbn [forallb] in H. apply andb_true_iff in H as [Hc Hw]. constructor; [exact Hc|].
  unfold all_. rewrite forallb_forall in *. intros x Hx. apply alpha_word, Hw, Hx.
Qed.
Lemma simple_word t r k : Longest Default (t ++ r) k (length t) -> simple_id k = true -> LIdentifier t /\ ~ In (to_lower t) reserved.
Proof.
  intros HL Hk. destruct (token_rule _ _ _ _ HL) as (M & Hin & HM). cbn [spec_rules] in Hin. rewrite !in_app_iff in Hin. destruct Hin as [Hin | [Hin | Hin]].
  - apply spec_words_in in Hin as (w & Hin & ->). apply prefix_exact in HM. unfold LWord in HM.
    assert (X : forallb (fun e => negb (simple_id (fst e)) || (plain_word (snd e) && negb (match snd e with [] => true | _ => false end) && negb (existsb (fun c => c =s snd e) reserved))) keywords = true) by (vm_compute; reflexivity).
    rewrite forallb_forall in X. specialize (X _ Hin). cbn [fst snd] in X. rewrite Hk in X. cbn [negb orb] in X. rewrite !andb_true_iff, !negb_true_iff in X. destruct X as [[X1 X2] X3]. split.
    + apply to_lower_identifier. rewrite HM. apply plain_identifier; [intros ->; discriminate|exact X1].
    + rewrite HM. intros Hres. assert (existsb (fun c => c =s w) reserved = true) by (apply existsb_exists; exists w; split; [exact Hres|apply seq_eqb_refl]). congruence.
  - apply spec_words_in in Hin as (w & Hin & _).
    assert (X : forallb (fun e => negb (simple_id (fst e))) punctuation = true) by (vm_compute; reflexivity). rewrite forallb_forall in X. specialize (X _ Hin). cbn [fst] in X. rewrite Hk in X. discriminate.
  - simpl in Hin. destruct Hin as [Hin | [Hin | [Hin | [Hin | [Hin | [Hin | [Hin | [Hin | []]]]]]]]]; injection Hin as <- <-; try discriminate Hk.
    apply prefix_exact in HM. split; [exact HM|]. intros Hres.
    assert (X : forallb (fun c => existsb (fun e => snd e =s c) keywords) reserved = true) by (vm_compute; reflexivity). rewrite forallb_forall in X. specialize (X _ Hres).
    apply existsb_exists in X as ([k w] & Hw & E). cbn [snd] in E. apply seq_eqb_eq in E. subst w.
    destruct HL as (i & M & Hi & HMi & Hmax). apply (In_nth_error keywords) in Hw as (j & Hj).
    assert (Hj' : nth_error (spec_rules Default) j = Some (k, prefix_in (LWord (to_lower t)))).
    { cbn [spec_rules]. rewrite nth_error_app1; [|unfold spec_words; rewrite map_length; apply nth_error_Some; congruence]. unfold spec_words. rewrite nth_error_map, Hj. reflexivity. }
    destruct (Hmax _ _ _ (length t) Hj') as [Hlt | [_ Hle]]; [exists t, r; split; [reflexivity|split; reflexivity]|lia|].
    assert (Hjl : j < length keywords) by (apply nth_error_Some; congruence).
    assert (Hi' : i < length (spec_words keywords)) by (unfold spec_words; rewrite map_length; lia).
    cbn [spec_rules] in Hi. rewrite nth_error_app1 in Hi by exact Hi'. apply nth_error_In, spec_words_in in Hi as (w & Hin & _).
    assert (Y : forallb (fun e => match fst e with IDENTIFIER => false | _ => true end) keywords = true) by (vm_compute; reflexivity). rewrite forallb_forall in Y. specialize (Y _ Hin). discriminate.
Qed.
Lemma bar_text t r : Longest Default (t ++ r) UNDERSCORE (length t) -> t = [under].
Proof.
  intros HL. destruct (token_rule _ _ _ _ HL) as (M & Hin & HM). cbn [spec_rules] in Hin. rewrite !in_app_iff in Hin. destruct Hin as [Hin | [Hin | Hin]].
  - exfalso. apply spec_words_in in Hin as (w & Hin & _).
    assert (Y : forallb (fun e => match fst e with UNDERSCORE => false | _ => true end) keywords = true) by (vm_compute; reflexivity). rewrite forallb_forall in Y. specialize (Y _ Hin). discriminate.
  - apply spec_words_in in Hin as (w & Hin & ->). apply prefix_exact in HM. unfold LWord in HM.
    assert (Y : forallb (fun e => match fst e with UNDERSCORE => snd e =s [under] | _ => true end) punctuation = true) by (vm_compute; reflexivity). rewrite forallb_forall in Y. specialize (Y _ Hin). cbn in Y.
    apply seq_eqb_eq in Y. rewrite Y in HM. clear Y Hin HL. destruct t as [|c [|d t]]; try discriminate. apply (f_equal (hd under)) in HM. change (lower c = under) in HM. apply lower_under in HM. subst c. reflexivity.
  - exfalso. simpl in Hin. destruct Hin as [Hin | [Hin | [Hin | [Hin | [Hin | [Hin | [Hin | [Hin | []]]]]]]]]; discriminate.
Qed.
Lemma compound_longer t r k : Longest Default (t ++ r) k (length t) -> ~ In under t -> no_compound (t ++ r).
Proof.
  intros HL Ht c z Hc E.
  assert (X : forallb (fun c => existsb (fun e => snd e =s c) keywords) compounds = true) by (vm_compute; reflexivity). rewrite forallb_forall in X. specialize (X _ Hc).
  apply existsb_exists in X as ([k' w] & Hw & E'). cbn [snd] in E'. apply seq_eqb_eq in E'. subst w.
  set (n := length c). assert (Hlow : to_lower (firstn n (t ++ r)) = c) by (unfold to_lower; rewrite <- firstn_map; fold (to_lower (t ++ r)); rewrite E; apply firstn_length_app).
  assert (Hlen : length (firstn n (t ++ r)) = n) by (rewrite <- (to_lower_length (firstn n (t ++ r))), Hlow; reflexivity).
  assert (Hle : n <= length t).
  { apply (token_max _ _ _ _ k' (prefix_in (LWord c)) n HL).
    - cbn [spec_rules]. rewrite in_app_iff. left. apply spec_words_in. eauto.
    - exists (firstn n (t ++ r)), (skipn n (t ++ r)). split; [symmetry; apply firstn_skipn|]. split; [exact Hlen|exact Hlow]. }
  apply Ht. rewrite firstn_app in Hlow. replace (n - length t) with 0 in Hlow by lia. rewrite app_nil_r in Hlow. pose proof (compound_under c Hc) as Hu. rewrite <- Hlow in Hu.
  apply in_map_iff in Hu as (x & Ex & Hx). apply lower_under in Ex. subst x. rewrite <- (firstn_skipn n t). apply in_app_iff. auto.
Qed.
Lemma lexes_token m s k t l : Lexes m s (Token k t :: l) -> exists r, s = t ++ r /\ t <> [] /\ Longest m (t ++ r) k (length t) /\ Lexes (next_mode m k) r l.
Proof. intros H. inversion H; subst. eauto 6. Qed.
Lemma read_only_names l : forall s x, Lexes Default s l -> shown l ->
  (p_id (visible l) = Some (x, []) -> Name s) /\ (forall acc, id_from true acc (visible l) = Some (x, []) -> exists k n, s = repeat under k ++ n /\ Name n).
Proof.
  induction l as [|p l IH]; intros s x HL Hs.
  - split; intros; discriminate.
  - inversion Hs as [|? ? Hp Hs']; subst. destruct p as [k t|]; [|destruct Hp]. inversion HL as [|? ? r ? ? Ht HLong HX E1 E2 |]; subst. rewrite (visible_word _ _ _ Hp).
    assert (Hword : simple_id k = true -> id_from false x (visible l) = id_from false x (visible l) -> forall acc, id_from false acc (visible l) = Some (x, []) -> Name (t ++ r)).
    { intros Hk _ acc H. destruct (simple_word _ _ _ HLong Hk) as [Hi Hres]. assert (Hm : next_mode Default k = Default) by (destruct k; try discriminate Hk; reflexivity). rewrite Hm in HX.
      destruct l as [|p2 l2].
      - inversion HX; subst. rewrite app_nil_r. apply Name_word; assumption.
      - inversion Hs' as [|? ? Hp2 Hs2]; subst. destruct p2 as [k2 t2|]; [|destruct Hp2]. destruct (IH r x HX Hs') as [_ IH2]. rewrite (visible_word _ _ _ Hp2) in H, IH2.
        assert (Hk2 : k2 = UNDERSCORE) by (destruct k2; try reflexivity; discriminate H). subst k2. cbn [id_from] in H, IH2. destruct (IH2 acc H) as (b & n & E1 & Hn).
        destruct (lexes_token _ _ _ _ _ HX) as (r2 & -> & _ & HL2 & _). pose proof (bar_text _ _ HL2) as ->. destruct b as [|b].
        + exfalso. destruct (name_head n Hn) as (c & z & -> & Hc). cbn in E1. injection E1 as <- _. discriminate.
        + rewrite E1 in *. apply Name_more; [exact Hi|exact Hres| |exact Hn]. apply (compound_longer _ _ _ HLong), identifier_no_under, Hi. }
    split.
    + cbn [p_id]. destruct (simple_id k) eqn:Hk; [|discriminate]. intros H. exact (Hword eq_refl eq_refl t H).
    + intros acc H. cbn [id_from] in H. destruct (simple_id k) eqn:Hk.
      * exists 0, (t ++ r). split; [reflexivity|]. apply (Hword eq_refl eq_refl (acc ++ t)). destruct k; try discriminate Hk; exact H.
      * assert (k = UNDERSCORE) as -> by (destruct k; try reflexivity; discriminate H). pose proof (bar_text _ _ HLong) as ->. destruct (IH r x HX Hs') as [_ IH2].
        destruct (IH2 _ H) as (b & n & -> & Hn). exists (S b), n. auto.
Qed.
Lemma id_text need acc ts n rest : id_from need acc ts = Some (n, rest) -> acc ++ concat (map snd ts) = n ++ concat (map snd rest).
Proof.
  revert need acc. induction ts as [|[k t] ts IH]; intros need acc H.
  - cbn in H. destruct need; [discriminate|]. injection H as <- <-. reflexivity.
  - cbn [id_from] in H. cbn [map concat snd]. assert (X : id_from true (acc ++ t) ts = Some (n, rest) \/ id_from false (acc ++ t) ts = Some (n, rest) \/ (n = acc /\ rest = (k, t) :: ts)).
    { destruct k; auto; destruct need; try (injection H as <- <-; auto); try discriminate H; auto. }
    destruct X as [X | [X | [-> ->]]]; [rewrite app_assoc; exact (IH _ _ X)|rewrite app_assoc; exact (IH _ _ X)|reflexivity].
Qed.
Lemma visible_text l : lex_ok l = true -> length (concat (map snd (visible l))) <= length (text l) /\
  (Forall (fun p => match p with Token _ t => t <> [] | Bad _ => True end) l -> length (concat (map snd (visible l))) = length (text l) -> shown l).
Proof.
  induction l as [|p l IH]; intros H; [split; [auto|constructor]|]. unfold lex_ok in H. cbn [forallb] in H. apply andb_true_iff in H as [Hp H]. destruct p as [k t|]; [|discriminate].
  destruct (IH H) as [IH1 IH2]. unfold visible, text in *. cbn [flat_map map concat piece_text]. destruct (hidden k) eqn:Hk; cbn [app map concat snd]; rewrite !app_length.
  - split; [lia|]. intros Hne E. inversion Hne as [|? ? Ht _]; subst. destruct t; [congruence|]. cbn [length] in E. lia.
  - split; [lia|]. intros Hne E. inversion Hne as [|? ? Ht Hne']; subst. constructor; [exact Hk|]. apply IH2; [exact Hne'|lia].
Qed.
Lemma lexes_nonempty m s l : Lexes m s l -> Forall (fun p => match p with Token _ t => t <> [] | Bad _ => True end) l.
Proof. induction 1; constructor; auto. Qed.
Lemma read_name_iff s : read_name s = Some s <-> Name s.
Proof.
  split; [|apply read_name_ok]. unfold read_name, tokens. destruct (lex_ok (pieces Default s)) eqn:Hok; [|discriminate].
  destruct (p_id (visible (pieces Default s))) as [[n [|? ?]]|] eqn:E; try discriminate. intros [= ->].
  pose proof (pieces_lexes Default s) as HL. assert (Hsh : shown (pieces Default s)).
  { apply (visible_text _ Hok); [apply (lexes_nonempty _ _ _ HL)|]. fold (text (pieces Default s)). unfold text. rewrite pieces_text.
    unfold p_id in E. destruct (visible (pieces Default s)) as [|[k t] ts]; [discriminate|]. destruct (simple_id k); [|discriminate]. apply id_text in E. cbn [map concat snd] in E |- *. rewrite app_nil_r in E. rewrite E. reflexivity. }
  exact (proj1 (read_only_names _ s s HL Hsh) E).
Qed.

(** ** Numbered names *)
Lemma digit_word c : is_digit c = true -> is_word c = true.
Proof. unfold is_word. intros ->. rewrite orb_true_r. reflexivity. Qed.
Lemma lower_digit c : is_digit c = true -> lower c = c.
Proof. intros H. apply is_digit_code in H. unfold lower, is_upper. destruct ((65 <=? code c) && (code c <=? 90))%N eqn:E; [lia|reflexivity]. Qed.
Lemma identifier_digits w d : LIdentifier w -> all_ is_digit d -> LIdentifier (w ++ d).
Proof.
  intros [c b Hc Hb] Hd. cbn [app]. constructor; [exact Hc|]. apply all_app. split; [exact Hb|]. unfold all_ in *. rewrite forallb_forall in *. intros x Hx. apply digit_word, Hd, Hx.
Qed.
Lemma digits_last d : some_ is_digit d -> exists a c, d = a ++ [c] /\ is_digit c = true.
Proof.
  intros [Hne Hd]. destruct (exists_last Hne) as (a & c & ->). exists a, c. split; [reflexivity|]. apply all_app in Hd as [_ Hd]. unfold all_ in Hd. cbn in Hd. rewrite andb_true_r in Hd. exact Hd.
Qed.
Lemma digits_not_reserved w d : some_ is_digit d -> ~ In (to_lower (w ++ d)) reserved.
Proof.
  intros Hd Hin. destruct (digits_last d Hd) as (a & c & -> & Hc).
  assert (X : forallb (forallb is_alpha) reserved = true) by (vm_compute; reflexivity). rewrite forallb_forall in X. specialize (X _ Hin). rewrite forallb_forall in X.
  specialize (X c). rewrite app_assoc, to_lower_app, in_app_iff in X. cbn in X. rewrite (lower_digit c Hc) in X. specialize (X ltac:(auto)).
  clear -X Hc. destruct c as [[] [] [] [] [] [] [] []]; discriminate.
Qed.
Lemma no_compound_digits s d : no_compound s -> some_ is_digit d -> no_compound (s ++ d).
Proof.
  intros Hs [_ Hd] c r Hc E. rewrite to_lower_app in E. destruct (le_lt_dec (length c) (length s)) as [Hle|Hlt].
  - rewrite <- (to_lower_length s) in Hle. symmetry in E. destruct (app_prefix c (to_lower s) r (to_lower d) E Hle) as (z & Ez). exact (Hs c z Hc Ez).
  - rewrite <- (to_lower_length s) in Hlt. destruct (app_prefix (to_lower s) c (to_lower d) r E ltac:(lia)) as (z & ->). rewrite <- app_assoc in E. apply app_inv_head in E.
    destruct z as [|x z]; [rewrite app_nil_r in Hlt; lia|]. pose proof (compound_chars _ Hc) as X. apply Forall_app in X as [_ X]. inversion X as [|? ? X0 _]; subst.
    destruct d as [|y d]; [discriminate|]. unfold all_ in Hd. cbn [forallb] in Hd. apply andb_true_iff in Hd as [Hy _]. cbn in E. rewrite (lower_digit y Hy) in E. injection E as -> _.
    destruct X0 as [X0 | ->]; [|discriminate]. clear -X0 Hy. destruct x as [[] [] [] [] [] [] [] []]; discriminate.
Qed.
Lemma name_digits n d : Name n -> some_ is_digit d -> Name (n ++ d).
Proof.
  intros Hn Hd. induction Hn as [w Hw Hres | w k n Hw Hres Hnc Hn IH].
  - apply Name_word; [apply identifier_digits; [exact Hw|apply Hd]|apply digits_not_reserved, Hd].
  - rewrite <- !app_assoc. apply Name_more; [exact Hw|exact Hres| |exact IH]. rewrite !app_assoc. apply no_compound_digits; [rewrite <- app_assoc; exact Hnc|exact Hd].
Qed.
Lemma name_numbered n k : Name n -> Name (n ++ print_N k).
Proof. intros Hn. apply name_digits; [exact Hn|]. split; [apply print_N_nonempty|apply print_N_digits]. Qed.
(** A decision procedure for single words *)
Lemma word_name w : w <> [] -> forallb is_lower w = true -> existsb (fun c => c =s w) reserved = false -> Name w.
Proof.
  intros Hne Hl Hres. assert (Ew : to_lower w = w).
  { clear Hne Hres. induction w as [|c w IH]; [reflexivity|]. cbn [forallb] in Hl. apply andb_true_iff in Hl as [Hc Hl]. cbn. f_equal; [|apply IH, Hl]. clear -Hc. destruct c as [[] [] [] [] [] [] [] []]; (reflexivity || discriminate). }
  apply Name_word.
  - apply plain_identifier; [exact Hne|]. unfold plain_word. rewrite forallb_forall in *. intros x Hx. unfold is_alpha. rewrite (Hl x Hx). apply orb_true_r.
  - rewrite Ew. intros Hin. assert (existsb (fun c => c =s w) reserved = true) by (apply existsb_exists; exists w; split; [exact Hin|apply seq_eqb_refl]). congruence.
Qed.

(** * URIs *)
Lemma lexes_member m s l k t : Lexes m s l -> In (Token k t) l -> exists m' r, Longest m' (t ++ r) k (length t).
Proof.
  induction 1 as [m | m t' r k' l Ht HL _ IH | m c r l HN _ IH]; intros Hin; [destruct Hin| |].
  - destruct Hin as [E | Hin]; [injection E as <- <-; eauto|auto].
  - destruct Hin as [E | Hin]; [discriminate|auto].
Qed.
Lemma uri_rule m s n : Longest m s URI n -> prefix_in LUri s n.
Proof.
  intros HL. destruct (token_rule _ _ _ _ HL) as (M & Hin & HM). destruct m; cbn [spec_rules] in Hin.
  - exfalso. rewrite !in_app_iff in Hin. destruct Hin as [Hin | [Hin | Hin]].
    + apply spec_words_in in Hin as (w & Hin & _).
      assert (Y : forallb (fun e => match fst e with URI => false | _ => true end) keywords = true) by (vm_compute; reflexivity). rewrite forallb_forall in Y. specialize (Y _ Hin). discriminate.
    + apply spec_words_in in Hin as (w & Hin & _).
      assert (Y : forallb (fun e => match fst e with URI => false | _ => true end) punctuation = true) by (vm_compute; reflexivity). rewrite forallb_forall in Y. specialize (Y _ Hin). discriminate.
    + simpl in Hin. destruct Hin as [Hin | [Hin | [Hin | [Hin | [Hin | [Hin | [Hin | [Hin | []]]]]]]]]; discriminate.
  - simpl in Hin. destruct Hin as [Hin | [Hin | [Hin | []]]]; [injection Hin as <-; exact HM|discriminate|discriminate].
Qed.
Lemma visible_in l k t : In (k, t) (visible l) -> In (Token k t) l.
Proof.
  intros H. apply in_flat_map in H as (p & Hp & H). destruct p as [k' t'|c]; [|destruct H]. destruct (hidden k'); [destruct H|]. destruct H as [H | []]. injection H as -> ->. exact Hp.
Qed.
Lemma uri_nonempty u : LUri u -> u <> [].
Proof.
  assert (HP : ~ LPath []) by (intros X; destruct (path_head _ X) as (c & r & E & _); discriminate).
  intros H ->. inversion H as [a b c d e g E | a b c d E | p Hp E | p Hp E]; try (destruct a; discriminate); contradiction.
Qed.
Lemma next_uri u r : LUri u -> is_space (hd "a"%char r) = true -> next_token Extensions (u ++ r) = Some (URI, length u).
Proof.
  intros Hu Hr. destruct r as [|c r]; [discriminate|]. change (is_space c = true) in Hr. apply next_longest. exists 0, (prefix_in LUri). split; [reflexivity|]. split; [exists u, (c :: r); auto|].
  assert (Hlen : 1 <= length u) by (pose proof (uri_nonempty u Hu); destruct u; [congruence|simpl; lia]).
  intros j k' M' n' Hj HM. enough (n' <= length u) by (destruct (Nat.eq_dec n' (length u)); lia).
  destruct j as [|[|[|j]]]; cbn in Hj; try (injection Hj as <- <-).
  - destruct HM as (t & r' & E & <- & Ht). destruct (le_lt_dec (length t) (length u)) as [Hle|Hlt]; [exact Hle|]. exfalso.
    destruct (app_prefix u t (c :: r) r' E ltac:(lia)) as (z & ->). rewrite <- app_assoc in E. apply app_inv_head in E. destruct z as [|d z]; [rewrite app_nil_r in Hlt; lia|]. injection E as <- _.
    apply solid_uri, solid_app in Ht as [_ Ht]. apply solid_cons in Ht as [Ht _]. congruence.
  - destruct HM as (t & r' & E & <- & Ht). unfold LWord in Ht. apply (f_equal (@length ascii)) in Ht. rewrite to_lower_length in Ht. cbn in Ht. lia.
  - destruct HM as (t & r' & E & <- & Ht). destruct Ht. cbn. lia.
  - destruct j; discriminate.
Qed.
Definition declared (u : str) : str := $"extension_space " ++ u ++ $" {".
Lemma tokens_visible s l : tokens s = Some l -> visible (pieces Default s) = l.
Proof. unfold tokens. destruct (lex_ok _); congruence. Qed.
Lemma declared_uri u : tokens (declared u) = Some [(EXTENSION_SPACE, $"extension_space"); (URI, u); (LEFTBRACE, $"{")] <-> LUri u.
Proof.
  split.
  - intros H. apply tokens_visible in H. assert (Hin : In (URI, u) (visible (pieces Default (declared u)))) by (rewrite H; simpl; auto).
    apply visible_in in Hin. destruct (lexes_member _ _ _ _ _ (pieces_lexes Default (declared u)) Hin) as (m & r & HL). apply uri_rule, prefix_exact in HL. exact HL.
  - intros Hu. unfold tokens, declared. replace ($"extension_space " ++ u ++ $" {") with ($"extension_space" ++ $" " ++ u ++ $" {") by (rewrite app_assoc; reflexivity).
    rewrite (pieces_token Default $"extension_space" _ EXTENSION_SPACE); [|discriminate|reflexivity]. change (next_mode Default EXTENSION_SPACE) with Extensions.
    rewrite (pieces_token Extensions $" " _ SPACES); [|discriminate|apply next_space; reflexivity]. change (next_mode Extensions SPACES) with Extensions.
    rewrite (pieces_token Extensions u _ URI); [|apply uri_nonempty, Hu|apply next_uri; [exact Hu|reflexivity]]. change (next_mode Extensions URI) with Extensions.
    assert (E : pieces Extensions $" {" = [Token SPACES $" "; Token LEFTBRACE $"{"]) by (vm_compute; reflexivity). rewrite E. reflexivity.
Qed.
