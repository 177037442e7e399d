(** The types in a text that is accepted by the parser are written as WrittenTypeFacts.v wants them. *)
From Verif Require Import Base BaseFacts StringsModel LexModel LexFacts NameModel ExprModel RelModel SectionModel WrittenTypeFacts WordFacts.
From Verif Require TrapFacts.
From Coq Require Import Lia.

(** * What is meant *)
(** The types in a constant and in an expression *)
Definition given (ty : option str) : list str := match ty with Some w => [w] | None => [] end.
Fixpoint constant_types (c : cnode) : list str :=
  match c with
  | CNumber _ ty | CString _ ty | CTrue ty | CFalse ty | CNull ty => given ty
  | CMap l ty => flat_map (fun p => let '(a, b) := p in constant_types a ++ constant_types b) l ++ given ty
  | CStruct l ty => flat_map constant_types l ++ given ty
  end.
Fixpoint expr_types (e : enode) : list str :=
  match e with
  | NFun _ args ty => flat_map (fun a => let '(_, x) := a in expr_types x) args ++ given ty
  | NConst c => constant_types c | NCast e w => expr_types e ++ [w] | NIn l _ => flat_map expr_types l | NCompare e _ _ _ => expr_types e
  | NCol _ | NScalar _ | NSet _ _ => []
  end.
Definition all_written (l : list str) : Prop := Forall written l.

(** * Tokens *)
Definition type_token (t : token) : Prop :=
  match fst t with
  | LIST => to_lower (snd t) = $"list" | MAP => to_lower (snd t) = $"map" | STRUCT => to_lower (snd t) = $"struct"
  | QUESTIONMARK => snd t = $"?" | LEFTANGLEBRACKET => snd t = $"<" | RIGHTANGLEBRACKET => snd t = $">" | COMMA => snd t = $"," | NUMBER => numeral (snd t)
  | k => simple_id k = true \/ k = UNDERSCORE -> ~ In "<"%char (snd t)
  end.
Definition word_ok (e : kind * str) : bool :=
  match fst e with
  | LIST => snd e =s $"list" | MAP => snd e =s $"map" | STRUCT => snd e =s $"struct"
  | QUESTIONMARK => snd e =s $"?" | LEFTANGLEBRACKET => snd e =s $"<" | RIGHTANGLEBRACKET => snd e =s $">" | COMMA => snd e =s $"," | NUMBER => false
  | UNDERSCORE => negb (existsb (ceq "<"%char) (snd e))
  | k => if simple_id k then negb (existsb (ceq "<"%char) (snd e)) else true
  end.
Lemma lower_mark t d : to_lower t = [d] -> lower d = d -> is_alpha d = false -> t = [d].
Proof.
  destruct t as [|c [|]]; try discriminate. cbn. intros E L A. injection E as E. f_equal. destruct c as [[] [] [] [] [] [] [] []]; cbn in E; subst d; try reflexivity; discriminate.
Qed.
Lemma no_lt t w : to_lower t = w -> negb (existsb (ceq "<"%char) w) = true -> ~ In "<"%char t.
Proof. intros <- H I. apply negb_true_iff in H. assert (E : existsb (ceq "<"%char) (to_lower t) = true); [|congruence]. apply existsb_exists. exists "<"%char. split; [apply in_map_iff; exists "<"%char; auto|reflexivity]. Qed.
Lemma word_token k w t : word_ok (k, w) = true -> to_lower t = w -> type_token (k, t).
Proof.
  unfold word_ok, type_token. cbn [fst snd]. intros H E. destruct k; try (discriminate H); try (apply seq_eqb_eq in H; subst w; rewrite E, ?H; exact E || exact H); try (apply seq_eqb_eq in H; rewrite H in E; exact (lower_mark _ _ E eq_refl eq_refl) || exact E);
    try (intros _; exact (no_lt _ _ E H)); intros [Q|Q]; discriminate Q.
Qed.
Lemma span_all (P : ascii -> bool) s : forallb P (firstn (span P s) s) = true.
Proof. induction s as [|c s IH]; [reflexivity|]. cbn [span]. destruct (P c) eqn:E; [|reflexivity]. cbn [firstn forallb]. rewrite E. exact IH. Qed.
Definition number_char (c : ascii) : bool := is_digit c || ceq c "-" || ceq c "." || ceq c "+" || ceq (lower c) "e".
Lemma firstn_plus {A} (l : list A) : forall n m, firstn (n + m) l = firstn n l ++ firstn m (skipn n l).
Proof. induction l as [|a l IH]; intros n m; [rewrite skipn_nil, !firstn_nil; reflexivity|]. destruct n; [reflexivity|]. cbn. rewrite IH. reflexivity. Qed.
Lemma digits_chars s n : n = span is_digit s -> forallb number_char (firstn n s) = true.
Proof. intros ->. pose proof (span_all is_digit s) as H. rewrite forallb_forall in *. intros c I. unfold number_char. rewrite (H c I). reflexivity. Qed.
Lemma fraction_chars s : forallb number_char (firstn (fraction s) s) = true.
Proof. unfold fraction. destruct s as [|c r]; [reflexivity|]. destruct (ceq c ".") eqn:E; [|reflexivity]. destruct (span is_digit r) eqn:S; [reflexivity|]. rewrite <- S. change (number_char c && forallb number_char (firstn (span is_digit r) r) = true). rewrite (digits_chars r _ eq_refl), andb_true_r. unfold number_char. rewrite E, !orb_true_r. reflexivity. Qed.
Lemma exponent_chars s : forallb number_char (firstn (exponent s) s) = true.
Proof.
  unfold exponent. destruct s as [|c [|d r]]; try reflexivity. destruct (ceq (lower c) "e" && (ceq d "+" || ceq d "-")) eqn:E; [|reflexivity]. apply andb_true_iff in E as [E1 E2]. destruct (span is_digit r) eqn:S; [reflexivity|]. rewrite <- S. change (number_char c && (number_char d && forallb number_char (firstn (span is_digit r) r)) = true). rewrite (digits_chars r _ eq_refl), andb_true_r. unfold number_char. rewrite E1, !orb_true_r. cbn [andb].
  apply orb_true_iff in E2 as [->| ->]; rewrite !orb_true_r; reflexivity.
Qed.
Lemma number_numeral s n : number s = Some n -> numeral (firstn n s).
Proof.
  unfold number. destruct (span is_digit (skipn (minus s) s)) as [|d] eqn:S; [discriminate|]. intros Q. injection Q as <-. set (m := minus s) in *. set (f := fraction (skipn (m + Datatypes.S d) s)). set (x := exponent (skipn (m + Datatypes.S d + f) s)). split.
  - destruct s as [|c r]; [discriminate|]. exists c, (firstn (m + d + f + x) r). split; [replace (m + Datatypes.S d + f + x) with (Datatypes.S (m + d + f + x)) by lia; reflexivity|]. unfold figure. subst m. cbn [minus] in S. destruct (ceq c "-") eqn:C; [apply orb_true_r|]. cbn [skipn span] in S. destruct (is_digit c); [reflexivity|discriminate].
  - assert (H : forallb number_char (firstn (m + Datatypes.S d + f + x) s) = true).
    { rewrite !firstn_plus, !forallb_app. subst f x. rewrite exponent_chars, fraction_chars, (digits_chars _ _ (eq_sym S)), !andb_true_r. subst m. destruct s as [|c r]; [reflexivity|]. cbn [minus]. destruct (ceq c "-") eqn:C; [|reflexivity]. cbn [firstn forallb]. unfold number_char. rewrite C, !orb_true_r. reflexivity. }
    rewrite forallb_forall in H. intros c Ic I. specialize (H c I). destruct Ic as [<-|[<-|[<-|[]]]]; discriminate H.
Qed.
Lemma identifier_no_lt s n : identifier s = Some n -> ~ In "<"%char (firstn n s).
Proof.
  destruct s as [|c s]; [discriminate|]. cbn [identifier]. destruct (is_alpha c) eqn:A; [|discriminate]. intros Q. injection Q as <-. cbn [firstn]. intros [I|I]; [subst c; discriminate A|]. pose proof (span_all is_word s) as H. rewrite forallb_forall in H. specialize (H _ I). discriminate H.
Qed.
Lemma words_token l k f s n : forallb word_ok l = true -> In (k, f) (words l) -> f s = Some n -> type_token (k, firstn n s).
Proof.
  intros H I E. apply in_map_iff in I as ([k' w] & Q & I). injection Q as <- <-. rewrite forallb_forall in H. apply (word_token _ w); [exact (H _ I)|]. cbn [snd fst] in E. rewrite word_len in E. destruct (to_lower _ =s w) eqn:E'; [|discriminate]. injection E as <-. apply seq_eqb_eq. exact E'.
Qed.
Lemma next_type m s k n : next_token m s = Some (k, n) -> type_token (k, firstn n s).
Proof.
  intros H. apply choose_in in H as [H|(f & I & E)]; [discriminate|]. destruct m; cbn [rules_of] in I.
  - unfold default_rules in I. rewrite !in_app_iff in I. destruct I as [I|[I|I]]; [refine (words_token keywords k f s n _ I E); reflexivity|refine (words_token punctuation k f s n _ I E); reflexivity|].
    cbn [In] in I. destruct I as [Q|[Q|I]]; [injection Q as <- <-; intros _; exact (identifier_no_lt s n E)|injection Q as <- <-; exact (number_numeral s n E)|].
    repeat (destruct I as [Q|I]; [injection Q as <- _; cbn; intros [K|K]; discriminate K|]). destruct I.
  - unfold extension_rules in I. cbn [In] in I. repeat (destruct I as [Q|I]; [injection Q as <- _; cbn; intros [K|K]; discriminate K|]). destruct I.
Qed.
Lemma tokens_typed s ts : tokens s = Some ts -> Forall type_token ts.
Proof.
  unfold tokens. destruct (lex_ok _); [|discriminate]. intros H. injection H as <-. unfold pieces. generalize (length s) Default. intros fuel. revert s. induction fuel as [|fuel IH]; intros s m; [destruct s; constructor|]. destruct s as [|c r]; [constructor|]. cbn [cut].
  destruct (next_token m (c :: r)) as [[k n]|] eqn:E; cbn [visible flat_map]; [|apply IH]. apply Forall_app. split; [|apply IH]. destruct (hidden k); constructor; [exact (next_type _ _ _ _ E)|constructor].
Qed.

(** * Texts of types *)
Lemma split_at (a b u : str) c v : a ++ b = u ++ c :: v -> (exists x, a = u ++ c :: x /\ v = x ++ b) \/ exists x, u = a ++ x /\ b = x ++ c :: v.
Proof.
  revert u. induction a as [|d a IH]; intros u E; [right; exists u; auto|]. destruct u as [|e u]; cbn in E; injection E as -> E.
  - left. exists a. auto.
  - destruct (IH u E) as [(x & -> & ->)|(x & -> & ->)]; [left|right]; exists x; auto.
Qed.
Lemma written_plain w : ~ In "<"%char w -> written w.
Proof. intros N u v ->. destruct N. apply in_elt. Qed.
Lemma written_app a b : written a -> written b -> written (a ++ b).
Proof.
  intros A B u v E. apply split_at in E as [(x & Ea & ->)|(x & -> & Eb)].
  - destruct (A _ _ Ea) as [(l & r & N & F & ->)|L]; [left; exists l, (r ++ b); rewrite <- app_assoc; auto|right; exact L].
  - destruct (B _ _ Eb) as [L|L]; [left; exact L|right; exact (ends_in_more _ a x L)].
Qed.
Lemma written_open t q : (to_lower t = $"list" \/ to_lower t = $"map" \/ to_lower t = $"struct") -> q = [] \/ q = $"?" -> written (t ++ q ++ $"<").
Proof.
  intros T Q. assert (Nt : ~ In "<"%char t) by (destruct T as [T|[T|T]]; refine (no_lt _ _ T _); reflexivity). assert (Nq : ~ In "<"%char q) by (destruct Q as [->| ->]; cbn; intuition discriminate).
  rewrite app_assoc. intros u v E. apply split_at in E as [(x & Ea & _)|(x & -> & Eb)].
  - exfalso. assert (I : In "<"%char (t ++ q)) by (rewrite Ea; apply in_elt). apply in_app_iff in I as [I|I]; [exact (Nt I)|exact (Nq I)].
  - destruct x as [|d x]; [|destruct x; discriminate]. right. rewrite app_nil_r. exists [], (to_lower t), q. split; [unfold to_lower; rewrite map_app; destruct Q as [->| ->]; reflexivity|]. split; [destruct T as [->|[->| ->]]; cbn; auto|exact Q].
Qed.
Lemma listing_marks l : Forall numeral l -> ~ In "<"%char (listing l).
Proof.
  intros F. induction F as [|x l [_ M] F IH]; [intros []|]. destruct l as [|y l]; [apply M; cbn; auto|]. change (listing (x :: y :: l)) with (x ++ ","%char :: listing (y :: l)). rewrite in_app_iff. intros [I|[I|I]]; [|discriminate|exact (IH I)]. revert I. apply M. cbn. auto.
Qed.
Lemma written_numbers l : l <> [] -> Forall numeral l -> written ($"<" ++ listing l ++ $">").
Proof.
  intros N F u v E. assert (H : forall x y : str, "<"%char :: x = "<"%char :: y -> y = x) by (intros x y Q; injection Q as ->; reflexivity). destruct u as [|d u].
  - left. exists l, []. split; [exact N|]. split; [exact F|]. exact (H _ _ E).
  - exfalso. assert (E2 : listing l ++ $">" = u ++ "<"%char :: v) by (clear -E; cbn [app] in E; generalize dependent (listing l ++ $">"); intros x E; injection E as _ E; exact E).
    assert (I : In "<"%char (listing l ++ $">")) by (rewrite E2; apply in_elt). apply in_app_iff in I as [I|[I|[]]]; [exact (listing_marks l F I)|discriminate].
Qed.

(** * The parser *)
Definition yields {A} (Q : A -> Prop) (p : list token -> option (A * list token)) : Prop := forall ts a r, p ts = Some (a, r) -> Forall type_token ts -> Q a.
Lemma y_id : yields (fun n => ~ In "<"%char n) p_id.
Proof.
  intros ts n r E F. destruct ts as [|[k t] ts]; [discriminate|]. cbn [p_id] in E. destruct (simple_id k) eqn:K; [|discriminate]. inversion F as [|? ? W F']; subst. assert (W' : ~ In "<"%char t) by (destruct k; try discriminate K; apply W; auto). clear W F K.
  assert (G : forall b acc, id_from b acc ts = Some (n, r) -> ~ In "<"%char acc -> ~ In "<"%char n); [|exact (G false t E W')]. clear E W' k t.
  induction ts as [|[k t] ts IH]; intros b acc E W; cbn [id_from] in E.
  - destruct b; [discriminate|]. injection E as <- _. exact W.
  - inversion F' as [|? ? Hk F2]; subst.
    assert (A : simple_id k = true \/ k = UNDERSCORE -> ~ In "<"%char (acc ++ t)) by (intros Q I; apply in_app_iff in I as [I|I]; [exact (W I)|]; destruct k; destruct Q as [Q|Q]; try discriminate Q; apply Hk in I; auto).
    destruct (simple_id k) eqn:K; [|destruct k; try discriminate K; try (destruct b; [discriminate E|]; injection E as <- _; exact W); exact (IH F2 _ _ E (A (or_intror eq_refl)))].
    specialize (A (or_introl eq_refl)). destruct k; try discriminate K; (destruct b; [exact (IH F2 _ _ E A)|injection E as <- _; exact W]).
Qed.
Ltac one := intros ts a r E F; destruct ts as [|[[] t] ts]; try discriminate E; injection E as <- _; inversion F as [|? ? H _]; exact H.
Lemma y_comma : yields (fun t => t = $",") t_comma. Proof. one. Qed.
Lemma y_number : yields numeral t_number. Proof. one. Qed.
Lemma y_langle : yields (fun t => t = $"<") t_langle. Proof. one. Qed.
Lemma y_rangle : yields (fun t => t = $">") t_rangle. Proof. one. Qed.
Lemma y_question ts q r : maybe (t_question ts) ts = (q, r) -> Forall type_token ts -> (q = [] \/ q = $"?") /\ Forall type_token r.
Proof. intros E F. split; [|exact (keeps_maybe _ _ _ _ _ (k_question _) E F)]. destruct ts as [|[k t] ts]; [injection E as <- _; auto|]. destruct k; try (injection E as <- _; auto; fail). injection E as <- _. inversion F as [|? ? H _]. right. exact H. Qed.
Lemma y_spec fuel : forall acc ts w r, p_spec fuel acc ts = Some (w, r) -> Forall type_token ts -> exists l, Forall numeral l /\ w = acc ++ concat (map (cons ","%char) l) ++ $">".
Proof.
  induction fuel as [|fuel IH]; intros acc ts w r E F; cbn [p_spec] in E; (destruct (t_rangle ts) as [[t r0]|] eqn:T; [injection E as <- _; exists []; rewrite (y_rangle _ _ _ T F); auto|]); [discriminate|].
  destruct (t_comma ts) as [[c r1]|] eqn:C; [|discriminate]. pose proof (k_comma _ _ _ _ C F) as F1. destruct (t_number r1) as [[n r2]|] eqn:N; [|discriminate]. rewrite (y_comma _ _ _ C F) in E. destruct (IH _ _ _ _ E (k_number _ _ _ _ N F1)) as (l & L & ->). exists (n :: l). split; [constructor; [exact (y_number _ _ _ N F1)|exact L]|]. cbn [map concat]. rewrite <- !app_assoc. reflexivity.
Qed.
Lemma listing_cons x l : listing (x :: l) = x ++ concat (map (cons ","%char) l).
Proof. revert x. induction l as [|y l IH]; intros x; [symmetry; apply app_nil_r|]. change (listing (x :: y :: l)) with (x ++ ","%char :: listing (y :: l)). rewrite IH. reflexivity. Qed.
Lemma plain_q n q : ~ In "<"%char n -> q = [] \/ q = $"?" -> written (n ++ q).
Proof. intros N Q. apply written_plain. rewrite in_app_iff. intros [I|I]; [exact (N I)|]. destruct Q as [->| ->]; cbn in I; intuition discriminate. Qed.
Lemma y_basic : yields written p_basic.
Proof.
  intros ts w r E F. unfold p_basic in E. destruct (p_id ts) as [[n r0]|] eqn:N; [|discriminate]. pose proof (k_id _ _ _ _ N F) as F0. pose proof (y_id _ _ _ N F) as N'. clear N. rename N' into N. destruct (maybe (t_question r0) r0) as [q r1] eqn:Q. apply y_question in Q as [Q F1]; [|exact F0].
  destruct (t_langle r1) as [[t r2]|] eqn:T; [|injection E as <- _; exact (plain_q _ _ N Q)]. pose proof (k_langle _ _ _ _ T F1) as F2. rewrite (y_langle _ _ _ T F1) in E. destruct (t_number r2) as [[x r3]|] eqn:X; [|discriminate]. pose proof (k_number _ _ _ _ X F2) as F3. pose proof (y_number _ _ _ X F2) as X'. clear X. rename X' into X.
  apply y_spec in E as (l & L & ->); [|exact F3]. replace ((n ++ q ++ $"<" ++ x) ++ concat (map (cons ","%char) l) ++ $">") with ((n ++ q) ++ $"<" ++ listing (x :: l) ++ $">") by (rewrite listing_cons, <- !app_assoc; reflexivity).
  apply written_app; [exact (plain_q _ _ N Q)|]. apply written_numbers; [discriminate|constructor; assumption].
Qed.

Lemma y_complex fuel : yields written (p_complex fuel).
Proof.
  induction fuel as [|fuel IH]; intros ts a r E F; [discriminate|]. cbn [p_complex] in E.
  assert (St : match t_start ts with ExprModel.TList t r => to_lower t = $"list" /\ Forall type_token r | ExprModel.TMap t r => to_lower t = $"map" /\ Forall type_token r | ExprModel.TStruct t r => to_lower t = $"struct" /\ Forall type_token r | _ => True end).
  { destruct ts as [|[k t] ts]; [exact I|]. inversion F as [|? ? H F']; subst. destruct k; try exact I; split; assumption. }
  assert (Op : forall ts a r, match t_start ts with TNo => Some ([], ts) | _ => p_complex fuel ts end = Some (a, r) -> Forall type_token ts -> written a /\ Forall type_token r).
  { clear -IH. intros ts a r E F. assert (E' : p_complex fuel ts = Some (a, r) \/ a = [] /\ r = ts) by (destruct (t_start ts); auto; injection E as <- <-; auto). destruct E' as [E'|[-> ->]]; [split; [exact (IH _ _ _ E' F)|exact (k_complex _ _ _ _ _ E' F)]|split; [apply written_plain; intros []|exact F]]. }
  assert (Opened : forall t r x r', to_lower t = $"list" \/ to_lower t = $"map" \/ to_lower t = $"struct" -> (let '(q, r) := maybe (t_question r) r in match t_langle r with Some (l, r) => Some (t ++ q ++ l, r) | None => None end) = Some (x, r') -> Forall type_token r -> written x /\ Forall type_token r').
  { clear. intros t r x r' T E F. destruct (maybe (t_question r) r) as [q r1] eqn:Q. apply y_question in Q as [Q F1]; [|exact F]. destruct (t_langle r1) as [[l r2]|] eqn:L; [|discriminate]. injection E as <- <-. rewrite (y_langle _ _ _ L F1). split; [exact (written_open _ _ T Q)|exact (k_langle _ _ _ _ L F1)]. }
  assert (Cl : forall acc, written acc -> forall ts a r, match t_rangle ts with Some (t, r) => Some (acc ++ t, r) | None => None end = Some (a, r) -> Forall type_token ts -> written a) by (clear; intros acc W ts a r E F; destruct (t_rangle ts) as [[t r0]|] eqn:T; [|discriminate]; injection E as <- _; rewrite (y_rangle _ _ _ T F); apply written_app; [exact W|]; apply written_plain; cbn; intuition discriminate).
  cbv zeta in E. destruct (t_start ts) as [|t r0|t r0|t r0|]; [exact (y_basic _ _ _ E F)| | | |discriminate]; destruct St as [T F0];
    match type of E with match ?z with _ => _ end = _ => destruct z as [[t1 r1]|] eqn:E1; [|discriminate E] end; apply Opened in E1 as [W1 F1]; auto.
  - match type of E with match ?z with _ => _ end = _ => destruct z as [[e r2]|] eqn:E2; [|discriminate E] end. apply Op in E2 as [W2 F2]; [|exact F1]. exact (Cl _ (written_app _ _ W1 W2) _ _ _ E F2).
  - match type of E with match ?z with _ => _ end = _ => destruct z as [[x r2]|] eqn:E2; [|discriminate E] end.
    assert (W2 : written x /\ Forall type_token r2). { assert (E' : p_basic r1 = Some (x, r2) \/ x = [] /\ r2 = r1) by (destruct (t_start r1); auto; injection E2 as <- <-; auto). destruct E' as [E'|[-> ->]]; [split; [exact (y_basic _ _ _ E' F1)|exact (k_basic _ _ _ _ E' F1)]|split; [apply written_plain; intros []|exact F1]]. }
    destruct W2 as [W2 F2]. destruct (maybe (t_comma r2) r2) as [c r3] eqn:C. assert (W3 : written c). { unfold maybe in C. destruct (t_comma r2) as [[c' r']|] eqn:C'; injection C as <- _; apply written_plain; [rewrite (y_comma _ _ _ C' F2)|]; cbn; intuition discriminate. }
    pose proof (keeps_maybe _ _ _ _ _ (k_comma _) C F2) as F3. match type of E with match ?z with _ => _ end = _ => destruct z as [[b r4]|] eqn:E4; [|discriminate E] end. apply Op in E4 as [W4 F4]; [|exact F3].
    refine (Cl _ _ _ _ _ E F4). repeat apply written_app; assumption.
  - match type of E with match ?z with _ => _ end = _ => destruct z as [[x r2]|] eqn:E2; [|discriminate E] end. apply Op in E2 as [W2 F2]; [|exact F1]. pose proof (written_app _ _ W1 W2) as W. clear -E F2 IH Cl W.
    revert E F2 W. generalize (length r2) (t1 ++ x). intros n. revert r2. induction n as [|n IHn]; intros r3 acc E F3 W; [exact (Cl _ W _ _ _ E F3)|]. destruct (t_comma r3) as [[c r4]|] eqn:C; [|exact (Cl _ W _ _ _ E F3)]. pose proof (k_comma _ _ _ _ C F3) as F4. destruct (p_complex fuel r4) as [[b r5]|] eqn:B; [|discriminate].
    refine (IHn r5 _ E (k_complex _ _ _ _ _ B F4) _). apply written_app; [exact W|]. apply written_app; [rewrite (y_comma _ _ _ C F3); apply written_plain; cbn; intuition discriminate|exact (IH _ _ _ B F4)].
Qed.
Lemma y_suffix {A} p (f : option str -> A) ts a r : yields written p -> p_suffix p f ts = Some (a, r) -> Forall type_token ts -> exists ty, a = f ty /\ all_written (given ty).
Proof.
  intros Y E F. unfold p_suffix in E. destruct (t_under ts) as [[t r0]|] eqn:T; [|injection E as <- _; exists None; split; [reflexivity|constructor]]. pose proof (k_under _ _ _ _ T F) as F0. destruct (p r0) as [[w r1]|] eqn:W; [|discriminate]. injection E as <- _. exists (Some w). split; [reflexivity|]. constructor; [exact (Y _ _ _ W F0)|constructor].
Qed.
Lemma y_more {A} (p : list token -> option (A * list token)) Q n : keeps type_token p -> yields Q p -> yields (Forall Q) (more_of p n).
Proof.
  intros K Y. induction n as [|n IH]; intros ts l r E F.
  - cbn [more_of] in E. destruct (t_rbrace ts) as [[x r0]|]; [injection E as <- _; constructor|discriminate].
  - change (match t_rbrace ts with
        | Some (_, r) => Some ([], r)
        | None => match t_comma ts with
                  | Some (_, r) => match p r with Some (x, r) => match more_of p n r with Some (l, r) => Some (x :: l, r) | None => None end | None => None end
                  | _ => None
                  end
        end = Some (l, r)) in E. destruct (t_rbrace ts) as [[x r0]|]; [injection E as <- _; constructor|]. destruct (t_comma ts) as [[c r0]|] eqn:C; [|discriminate]. pose proof (k_comma _ _ _ _ C F) as F0. destruct (p r0) as [[a r1]|] eqn:A1; [|discriminate]. destruct (more_of p n r1) as [[l1 r2]|] eqn:M; [|discriminate]. injection E as <- _.
    constructor; [exact (Y _ _ _ A1 F0)|exact (IH _ _ _ M (K _ _ _ A1 F0))].
Qed.
Lemma all_flat {A} (f : A -> list str) l : Forall (fun x => all_written (f x)) l -> all_written (flat_map f l).
Proof. intros H. induction H as [|x l Hx _ IH]; [constructor|]. apply Forall_app. split; assumption. Qed.
Lemma y_listed {A} fuel p (f : list A -> option str -> cnode) Q : keeps type_token p -> yields Q p -> (forall l ty, Forall Q l -> all_written (given ty) -> all_written (constant_types (f l ty))) -> yields (fun c => all_written (constant_types c)) (listed_of fuel p f).
Proof.
  intros K Y H ts c r E F. unfold listed_of in E. destruct (p ts) as [[x r0]|] eqn:E0; [|discriminate]. pose proof (K _ _ _ E0 F) as F0. destruct (more_of p (length r0) r0) as [[l r1]|] eqn:E1; [|discriminate]. pose proof (k_more _ p _ K _ _ _ E1 F0) as F1.
  apply y_suffix in E as (ty & -> & W); [|apply y_complex|exact F1]. apply H; [|exact W]. constructor; [exact (Y _ _ _ E0 F)|exact (y_more p Q _ K Y _ _ _ E1 F0)].
Qed.
Lemma y_constant fuel : yields (fun c => all_written (constant_types c)) (p_constant fuel).
Proof.
  induction fuel as [|fuel IH]; intros ts c r E F; [discriminate|]. rewrite constant_S in E. pose proof (start_c _ ts F) as S0.
  assert (Kp : keeps type_token (pair_of fuel)) by (intros ts' a r' E' F'; unfold pair_of in E'; keep type_token).
  assert (Yp : yields (fun p => all_written (constant_types (fst p) ++ constant_types (snd p))) (pair_of fuel)).
  { clear -IH. intros ts a r E F. unfold pair_of in E. destruct (p_constant fuel ts) as [[k r0]|] eqn:E0; [|discriminate]. pose proof (k_constant _ _ _ _ _ E0 F) as F0. destruct (t_colon r0) as [[x r1]|] eqn:E1; [|discriminate]. pose proof (k_colon _ _ _ _ E1 F0) as F1. destruct (p_constant fuel r1) as [[v r2]|] eqn:E2; [|discriminate]. injection E as <- _. apply Forall_app. split; [exact (IH _ _ _ E0 F)|exact (IH _ _ _ E2 F1)]. }
  assert (Sm : forall p (f : option str -> cnode), yields written p -> (forall ty, constant_types (f ty) = given ty) -> forall r0, Forall type_token r0 -> p_suffix p f r0 = Some (c, r) -> all_written (constant_types c)).
  { intros p f Y H r0 F0 E0. apply (y_suffix p f _ _ _ Y) in E0 as (ty & -> & W); [|exact F0]. rewrite H. exact W. }
  destruct (c_start ts) as [t r0|t r0|r0|r0|r0|r0|]; [exact (Sm _ (CNumber t) y_basic (fun _ => eq_refl) _ S0 E)|exact (Sm _ (CString t) y_basic (fun _ => eq_refl) _ S0 E)|exact (Sm _ CTrue y_basic (fun _ => eq_refl) _ S0 E)|exact (Sm _ CFalse y_basic (fun _ => eq_refl) _ S0 E)|exact (Sm _ CNull (y_complex fuel) (fun _ => eq_refl) _ S0 E)| |discriminate].
  destruct (t_rbrace r0) as [[x r1]|] eqn:B; [exact (Sm _ (CMap []) (y_complex fuel) (fun _ => eq_refl) _ (k_rbrace _ _ _ _ B S0) E)|]. destruct (p_constant fuel r0) as [[y r1]|]; [|discriminate]. destruct (t_colon r1).
  - refine (y_listed fuel (pair_of fuel) CMap _ Kp Yp _ _ _ _ E S0). intros l ty L W. cbn [constant_types]. apply Forall_app. split; [|exact W]. apply all_flat. eapply Forall_impl; [|exact L]. intros [a b]. exact (fun H => H).
  - refine (y_listed fuel (p_constant fuel) CStruct _ (k_constant _ _) IH _ _ _ _ E S0). intros l ty L W. cbn [constant_types]. apply Forall_app. split; [|exact W]. apply all_flat. exact L.
Qed.
Definition clean (e : enode) : Prop := all_written (expr_types e).
Lemma y_column : yields clean p_column.
Proof. intros ts e r E F. unfold p_column in E. destruct (p_id ts) as [[n r0]|]; [|discriminate]. destruct (t_period r0) as [[p r1]|]; [destruct (p_id r1) as [[m r2]|]; [|discriminate]|]; injection E as <- _; constructor. Qed.
Lemma y_constant_expr fuel : yields clean (p_constant_expr fuel).
Proof. intros ts e r E F. unfold p_constant_expr in E. destruct (p_constant fuel ts) as [[c r0]|] eqn:C; [|discriminate]. injection E as <- _. exact (y_constant _ _ _ _ C F). Qed.
Lemma y_null fuel : yields clean (p_null_expr fuel).
Proof.
  intros ts e r E F. unfold p_null_expr in E. destruct (p_constant_expr fuel ts) as [[c r0]|] eqn:C; [|exact (y_column _ _ _ E F)]. destruct (t_period r0); [exact (y_column _ _ _ E F)|]. destruct (t_under r0); [exact (y_column _ _ _ E F)|]. injection E as <- _. exact (y_constant_expr _ _ _ _ C F).
Qed.
Lemma y_casts fuel : forall e ts a r, clean e -> p_casts fuel e ts = Some (a, r) -> Forall type_token ts -> clean a.
Proof.
  induction fuel as [|fuel IH]; intros e ts a r C E F; [discriminate|]. cbn [p_casts] in E. destruct (t_as ts) as [[x r0]|] eqn:A.
  - pose proof (k_as _ _ _ _ A F) as F0. destruct (p_complex fuel r0) as [[t r1]|] eqn:T; [|discriminate]. refine (IH _ _ _ _ _ E (k_complex _ _ _ _ _ T F0)). apply Forall_app. split; [exact C|]. constructor; [exact (y_complex _ _ _ _ T F0)|constructor].
  - destruct (t_compare ts) as [[[c b] r0]|] eqn:Q; [|injection E as <- _; exact C]. pose proof (k_compare _ _ _ _ Q F) as F0. destruct (p_text r0) as [[n r1]|] eqn:T; [|discriminate]. refine (IH _ _ _ _ _ E (k_text _ _ _ _ T F0)). exact C.
Qed.
Lemma y_expr fuel : yields clean (p_expr fuel) /\ yields (Forall (fun a => clean (snd a))) (p_args fuel) /\ yields (Forall clean) (p_list fuel).
Proof.
  induction fuel as [|fuel (IH1 & IH2 & IH3)]; [repeat split; intros ts a r E; discriminate E|]. destruct (k_expr type_token fuel) as (K1 & K2 & K3). repeat split; intros ts a r E F.
  - cbn [p_expr] in E. pose proof (start_c _ ts F) as S0. pose proof (start_q _ ts F) as S1.
    match type of E with match ?x with _ => _ end = _ => destruct x as [[e r0]|] eqn:E0; [|discriminate] end.
    assert (H : clean e /\ Forall type_token r0); [|exact (y_casts _ _ _ _ _ (proj1 H) E (proj2 H))]. clear E.
    split; [|clear IH1 IH2 IH3; keep type_token]. destruct (t_call ts) as [[n r1]|] eqn:C.
    + pose proof (k_call _ _ _ _ C F) as F1. destruct (p_args fuel r1) as [[l r2]|] eqn:A; [|discriminate]. pose proof (K2 _ _ _ A F1) as F2. pose proof (IH2 _ _ _ A F1) as L.
      assert (G : forall ty, all_written (given ty) -> clean (NFun n l ty)). { intros ty W. unfold clean. cbn [expr_types]. apply Forall_app. split; [|exact W]. apply all_flat. eapply Forall_impl; [|exact L]. intros [s x]. exact (fun H => H). }
      destruct (t_arrow r2) as [[x r3]|] eqn:W; [|injection E0 as <- _; apply G; constructor]. pose proof (k_arrow _ _ _ _ W F2) as F3. destruct (p_complex fuel r3) as [[t r4]|] eqn:T; [|discriminate]. injection E0 as <- _. apply G. constructor; [exact (y_complex _ _ _ _ T F3)|constructor].
    + destruct (c_start ts); try exact (y_constant_expr _ _ _ _ E0 F); [exact (y_null _ _ _ _ E0 F)|]. destruct (q_start ts) as [|b r1|r1|]; [| | |exact (y_column _ _ _ E0 F)].
      * destruct (p_subquery ts) as [[n r1]|]; [|discriminate]. injection E0 as <- _. constructor.
      * destruct (p_in_subquery r1) as [[n r2]|]; [|discriminate]. injection E0 as <- _. constructor.
      * destruct (p_list fuel r1) as [[l r2]|] eqn:L; [|discriminate]. destruct (p_in_subquery r2) as [[n r3]|]; [|discriminate]. injection E0 as <- _. unfold clean. cbn [expr_types]. apply all_flat. exact (IH3 _ _ _ L S1).
  - cbn [p_args] in E. destruct (t_rparen ts) as [[x r0]|]; [injection E as <- _; constructor|]. destruct (p_expr fuel ts) as [[e r0]|] eqn:E0; [|discriminate]. destruct (maybe (t_comma r0) r0) as [c r1] eqn:C. pose proof (keeps_maybe _ _ _ _ _ (k_comma _) C (K1 _ _ _ E0 F)) as F1. destruct (p_args fuel r1) as [[l r2]|] eqn:L; [|discriminate]. injection E as <- _. constructor; [exact (IH1 _ _ _ E0 F)|exact (IH2 _ _ _ L F1)].
  - cbn [p_list] in E. destruct (p_expr fuel ts) as [[e r0]|] eqn:E0; [|discriminate]. pose proof (K1 _ _ _ E0 F) as F0. destruct (t_comma r0) as [[c r1]|] eqn:C.
    + pose proof (k_comma _ _ _ _ C F0) as F1. destruct (p_list fuel r1) as [[l r2]|] eqn:L; [|discriminate]. injection E as <- _. constructor; [exact (IH1 _ _ _ E0 F)|exact (IH3 _ _ _ L F1)].
    + destruct (t_rparen r0) as [[x r1]|]; [|discriminate]. injection E as <- _. repeat constructor. exact (IH1 _ _ _ E0 F).
Qed.
Lemma y_e : yields clean p_e.
Proof. intros ts a r. apply (proj1 (y_expr _)). Qed.

Definition measure_types (d : mdetail) : list str := match d with MMeasure _ ty _ => given ty | _ => [] end.
Definition mdetail_clean (d : mdetail) : Prop := Forall clean (TrapFacts.mdetail_exprs d) /\ all_written (measure_types d).
Definition detail_clean (d : detail) : Prop := Forall clean (TrapFacts.detail_exprs d) /\ match d with OnMeasure l => all_written (flat_map measure_types l) | _ => True end.
Ltac semi E := unfold p_semi in E; match type of E with match ?z with _ => _ end = _ => destruct z as [[? ?]|]; [|discriminate E] end.
Lemma y_mdetail : yields mdetail_clean p_mdetail.
Proof.
  intros ts d r E F. unfold p_mdetail in E. pose proof (start_m _ ts F) as S0. destruct (m_start ts) as [r0|r0|r0|r0|]; [| | | |discriminate].
  - destruct (p_e r0) as [[e r1]|] eqn:E1; [|discriminate]. pose proof (k_e _ _ _ _ E1 S0) as F1. pose proof (y_e _ _ _ E1 S0) as C.
    match type of E with match ?z with _ => _ end = _ => destruct z as [[ty r3]|] eqn:E2; [|discriminate E] end.
    assert (W : all_written (given ty)). { destruct (t_arrow r1) as [[x r2]|] eqn:A; [|injection E2 as <- _; constructor]. pose proof (k_arrow _ _ _ _ A F1) as F2. destruct (p_complex (S (length r2)) r2) as [[t r4]|] eqn:T; [|discriminate]. injection E2 as <- _. constructor; [exact (y_complex _ _ _ _ T F2)|constructor]. }
    destruct (p_after t_at r3) as [[a r4]|]; [|discriminate]. destruct (p_after t_named r4) as [[n r5]|]; [|discriminate]. semi E. injection E as <- _. split; [repeat constructor; exact C|exact W].
  - unfold p_line in E. destruct (p_e r0) as [[e r1]|] eqn:E1; [|discriminate]. semi E. injection E as <- _. split; [repeat constructor; exact (y_e _ _ _ E1 S0)|constructor].
  - unfold p_line in E. destruct (p_id r0) as [[e r1]|]; [|discriminate]. semi E. injection E as <- _. split; constructor.
  - unfold p_sort in E. destruct (p_e r0) as [[e r1]|] eqn:E1; [|discriminate]. destruct (p_after t_by r1) as [[b r2]|]; [|discriminate]. semi E. injection E as <- _. split; [repeat constructor; exact (y_e _ _ _ E1 S0)|constructor].
Qed.
Lemma y_many {A} (p : list token -> option (A * list token)) Q fuel : keeps type_token p -> yields Q p -> yields (Forall Q) (p_many p fuel).
Proof.
  intros K H. induction fuel as [|fuel IH]; intros ts l r E F; cbn [p_many] in E; (destruct (t_rbrace ts) as [[x r0]|]; [injection E as <- _; constructor|]); [discriminate|].
  destruct (p ts) as [[a r1]|] eqn:E1; [|discriminate]. destruct (p_many p fuel r1) as [[l2 r2]|] eqn:E2; [|discriminate]. injection E as <- _. constructor; [exact (H _ _ _ E1 F)|exact (IH _ _ _ E2 (K _ _ _ E1 F))].
Qed.
Lemma y_line {B} (f : enode -> B) ts b r : p_line p_e f ts = Some (b, r) -> Forall type_token ts -> exists e, b = f e /\ clean e.
Proof. intros E F. unfold p_line in E. destruct (p_e ts) as [[e r1]|] eqn:E1; [|discriminate]. semi E. injection E as <- _. exists e. split; [reflexivity|exact (y_e _ _ _ E1 F)]. Qed.
Lemma y_detail : yields detail_clean p_detail.
Proof.
  intros ts d r E F. unfold p_detail in E. pose proof (start_d _ ts F) as S0. destruct (d_start ts) as [r0|r0|r0|r0|r0|r0|r0|r0|r0|r0|r0|r0|].
  - semi E. injection E as <- _. split; constructor.
  - unfold p_line in E. destruct (p_id r0) as [[? ?]|]; [|discriminate]. semi E. injection E as <- _. split; constructor.
  - apply y_line in E as (e & -> & C); [|exact S0]. split; [repeat constructor; exact C|exact I].
  - destruct (p_e r0) as [[e r1]|] eqn:E1; [|discriminate]. destruct (p_after t_named r1) as [[n r2]|]; [|discriminate]. semi E. injection E as <- _. split; [repeat constructor; exact (y_e _ _ _ E1 S0)|exact I].
  - semi E. injection E as <- _. split; constructor.
  - unfold p_line in E. destruct (p_id r0) as [[? ?]|]; [|discriminate]. semi E. injection E as <- _. split; constructor.
  - apply y_line in E as (e & -> & C); [|exact S0]. split; [repeat constructor; exact C|exact I].
  - destruct (t_lbrace r0) as [[x r1]|] eqn:E1; [|discriminate]. pose proof (k_lbrace _ _ _ _ E1 S0) as F1. destruct (p_many p_mdetail (length r1) r1) as [[l r2]|] eqn:E2; [|discriminate]. injection E as <- _. unfold detail_clean. cbn [TrapFacts.detail_exprs].
    pose proof (y_many p_mdetail _ _ (k_mdetail _) y_mdetail _ _ _ E2 F1) as L. clear -L. induction L as [|d l [H1 H2] _ [IH1 IH2]]; [split; constructor|]. cbn [flat_map]. split; apply Forall_app; split; assumption.
  - unfold p_sort in E. destruct (p_e r0) as [[e r1]|] eqn:E1; [|discriminate]. destruct (p_after t_by r1) as [[b r2]|]; [|discriminate]. semi E. injection E as <- _. split; [repeat constructor; exact (y_e _ _ _ E1 S0)|exact I].
  - destruct (t_number r0) as [[? ?]|]; [|discriminate]. semi E. injection E as <- _. split; constructor.
  - unfold p_line in E. destruct (p_id r0) as [[? ?]|]; [|discriminate]. semi E. injection E as <- _. split; constructor.
  - unfold p_line in E. destruct (p_column r0) as [[? ?]|]; [|discriminate]. semi E. injection E as <- _. split; constructor.
  - destruct (p_behavior ts) as [[b r0]|] eqn:B; [|discriminate]. apply y_line in E as (e & -> & C); [|exact (k_behavior _ _ _ _ B F)]. split; [repeat constructor; exact C|exact I].
Qed.
Definition node_clean (n : pnode) : Prop := match n with PRelation n => Forall detail_clean (n_details n) | PSchema _ items => Forall (fun i => written (snd i)) items | _ => True end.
Lemma y_item : yields (fun i => written (snd i)) p_item.
Proof. intros ts i r E F. unfold p_item in E. destruct (p_id ts) as [[n r0]|] eqn:N; [|discriminate]. pose proof (k_id _ _ _ _ N F) as F0. destruct (p_complex (S (length r0)) r0) as [[t r1]|] eqn:T; [|discriminate]. destruct (p_after t_named r1) as [[m r2]|]; [|discriminate]. semi E. injection E as <- _. exact (y_complex _ _ _ _ T F0). Qed.
Lemma y_node : yields node_clean p_plan_detail.
Proof.
  intros ts n r E F. unfold p_plan_detail in E. pose proof (start_p _ ts F) as S0. destruct (p_start ts) as [r0|r0|r0|r0|r0|r0|r0|r0|];
    try (unfold p_titled, p_in_braces in E; repeat match type of E with match ?z with _ => _ end = _ => destruct z as [[? ?]|]; try discriminate E end; injection E as <- _; exact I).
  - unfold p_titled in E. destruct (p_id r0) as [[m r1]|] eqn:N; [|discriminate]. pose proof (k_id _ _ _ _ N S0) as F1. unfold p_in_braces in E. destruct (t_lbrace r1) as [[x r2]|] eqn:B; [|discriminate]. destruct (p_many p_item (length r2) r2) as [[l r3]|] eqn:M; [|discriminate]. injection E as <- _. exact (y_many p_item _ _ (k_item _) y_item _ _ _ M (k_lbrace _ _ _ _ B F1)).
  - destruct (p_relation ts) as [[m r0]|] eqn:E0; [|discriminate]. injection E as <- _. cbn [node_clean]. unfold p_relation in E0.
    destruct (p_id ts) as [[k r1]|] eqn:E1; [|discriminate]. destruct (t_relation r1) as [[x r2]|] eqn:E2; [|discriminate]. destruct (p_ref r2) as [[n r3]|] eqn:E3; [|discriminate]. destruct (t_lbrace r3) as [[y r4]|] eqn:E4; [|discriminate].
    destruct (p_many p_detail (length r4) r4) as [[l r5]|] eqn:E5; [|discriminate]. injection E0 as <- _. cbn [n_details].
    pose proof (k_lbrace _ _ _ _ E4 (k_ref _ _ _ _ E3 (k_relation _ _ _ _ E2 (k_id _ _ _ _ E1 F)))) as F4. exact (y_many p_detail _ _ (k_detail _) y_detail _ _ _ E5 F4).
Qed.
Theorem parsed_types s nodes : parse s = Some nodes -> Forall node_clean nodes.
Proof.
  intros E. unfold parse in E. destruct (tokens s) as [ts|] eqn:T; [|discriminate]. pose proof (tokens_typed _ _ T) as F. clear T.
  revert E F. generalize (length ts). intros fuel. revert ts nodes. induction fuel as [|fuel IH]; intros ts nodes E F; destruct ts as [|t ts]; cbn [p_plan] in E; try discriminate; try (injection E as <-; constructor).
  destruct (p_plan_detail (t :: ts)) as [[n r]|] eqn:E1; [|discriminate]. destruct (p_plan fuel r) as [l|] eqn:E2; [|discriminate]. injection E as <-. constructor; [exact (y_node _ _ _ E1 F)|exact (IH _ _ E2 (k_plan_detail _ _ _ _ E1 F))].
Qed.
