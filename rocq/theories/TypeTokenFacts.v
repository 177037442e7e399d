(** How type texts and literals are cut into tokens and parsed. *)
From Verif Require Import Base BaseFacts StringsModel StringsFacts EscapeModel EscapeFacts DecimalModel DecimalFacts TypeModel TypeProtoFacts LexModel LexFacts NameModel NameFacts CutFacts FloatModel
  CalendarModel CalendarFacts ExprModel.
From Coq Require Import Lia ZifyBool ZifyNat ZifyN.

(** * Tokens *)
(** What may follow an expression: nothing that could continue it, except AS. *)
Definition stops (k : kind) : bool := match k with UNDERSCORE | QUESTIONMARK | LEFTANGLEBRACKET | PERIOD | LEFTPAREN | ARROW => false | _ => true end.
Definition follow (k : list token) : Prop := match k with (x, _) :: _ => stops x = true | [] => True end.
Definition text_of (ts : list token) : str := concat (map snd ts).
Lemma text_of_app a b : text_of (a ++ b) = text_of a ++ text_of b.
Proof. unfold text_of. rewrite map_app, concat_app. reflexivity. Qed.
Lemma consumed_text ts k : consumed (ts ++ k) k = text_of ts.
Proof.
  unfold consumed, text_of. rewrite app_length. replace (length ts + length k - length k) with (length ts) by lia. rewrite firstn_app, firstn_all, Nat.sub_diag, firstn_O, app_nil_r. reflexivity.
Qed.
Lemma follow_bar k : follow k -> no_bar k.
Proof. destruct k as [|[x t] r]; [auto|]. cbn. intros H ->. discriminate. Qed.
Lemma follow_question k : follow k -> t_question k = None.
Proof. destruct k as [|[x t] r]; [auto|]. cbn. destruct x; (reflexivity || discriminate). Qed.
Lemma follow_langle k : follow k -> t_langle k = None.
Proof. destruct k as [|[x t] r]; [auto|]. cbn. destruct x; (reflexivity || discriminate). Qed.
Lemma follow_period k : follow k -> t_period k = None.
Proof. destruct k as [|[x t] r]; [auto|]. cbn. destruct x; (reflexivity || discriminate). Qed.
Lemma follow_lparen k : follow k -> t_lparen k = None.
Proof. destruct k as [|[x t] r]; [auto|]. cbn. destruct x; (reflexivity || discriminate). Qed.
Lemma follow_arrow k : follow k -> t_arrow k = None.
Proof. destruct k as [|[x t] r]; [auto|]. cbn. destruct x; (reflexivity || discriminate). Qed.
Lemma follow_under k : follow k -> t_under k = None.
Proof. destruct k as [|[x t] r]; [auto|]. cbn. destruct x; (reflexivity || discriminate). Qed.

(** * Names *)
Definition name_tokens (n : str) : list token := visible (pieces Default n).
Lemma id_from_text need acc ts n r : id_from need acc ts = Some (n, r) -> n ++ text_of r = acc ++ text_of ts.
Proof.
  revert need acc. induction ts as [|[k t] ts IH]; intros need acc H; cbn [id_from] in H.
  - destruct need; [discriminate|]. injection H as <- <-. reflexivity.
  - assert (X : forall b, id_from b (acc ++ t) ts = Some (n, r) -> n ++ text_of r = acc ++ text_of ((k, t) :: ts)) by (intros b Hb; apply IH in Hb; rewrite Hb, <- app_assoc; reflexivity).
    assert (Y : (if need then if simple_id k then id_from false (acc ++ t) ts else None else Some (acc, (k, t) :: ts)) = Some (n, r) -> n ++ text_of r = acc ++ text_of ((k, t) :: ts)).
    { destruct need; [destruct (simple_id k); [apply X|discriminate]|]. intros E. injection E as <- <-. reflexivity. }
    destruct k; try exact (Y H). exact (X _ H).
Qed.
Lemma name_text n : Name n -> text_of (name_tokens n) = n.
Proof.
  intros Hn. pose proof (name_read n [] Hn I) as H. rewrite app_nil_r in H. fold (name_tokens n) in H. destruct (name_tokens n) as [|[k t] r]; [discriminate|]. cbn [p_id] in H. destruct (simple_id k); [|discriminate].
  apply id_from_text in H. cbn in H. rewrite app_nil_r in H. symmetry. exact H.
Qed.
Lemma name_start n : Name n -> exists k t r, name_tokens n = (k, t) :: r /\ simple_id k = true.
Proof. intros Hn. destruct (name_pieces n Hn) as (_ & _ & H & _). exact H. Qed.
Lemma name_t_start n k : Name n -> t_start (name_tokens n ++ k) = TBasic.
Proof. intros Hn. destruct (name_start n Hn) as (x & t & r & -> & Hx). cbn [app t_start]. rewrite Hx. destruct x; (reflexivity || discriminate). Qed.

(** * Types *)
Definition type_text (n : str) (q : bool) (l : list str) : str :=
  n ++ (if q then $"?" else []) ++ match l with [] => [] | x :: r => $"<" ++ x ++ concat (map (fun y => $"," ++ y) r) ++ $">" end.
Definition type_tokens (n : str) (q : bool) (l : list str) : list token :=
  name_tokens n ++ (if q then [(QUESTIONMARK, $"?")] else []) ++
  match l with [] => [] | x :: r => [(LEFTANGLEBRACKET, $"<")] ++ [(NUMBER, x)] ++ concat (map (fun y => [(COMMA, $","); (NUMBER, y)]) r) ++ [(RIGHTANGLEBRACKET, $">")] end.
Lemma number_rest r : forall x, LNumber x -> Forall LNumber r ->
  Cuts any (x ++ concat (map (fun y => $"," ++ y) r) ++ $">") ([(NUMBER, x)] ++ concat (map (fun y => [(COMMA, $","); (NUMBER, y)]) r) ++ [(RIGHTANGLEBRACKET, $">")]).
Proof.
  induction r as [|y r IH]; intros x Hx Hr.
  - cbn [map concat app]. apply (cuts_app no_number any x $">" [_] [_] (cuts_number x Hx) cuts_rangle). intros s _. cbn. repeat split; discriminate.
  - inversion Hr; subst. cbn [map concat]. apply (cuts_app no_number any x _ [_] _ (cuts_number x Hx)).
    + rewrite <- !app_assoc. apply (cuts_any any $"," _ [(COMMA, $",")] ([(NUMBER, y)] ++ concat (map (fun y => [(COMMA, $","); (NUMBER, y)]) r) ++ [(RIGHTANGLEBRACKET, $">")])); [exact cuts_comma|]. apply IH; assumption.
    + intros s _. cbn. repeat split; discriminate.
Qed.
Lemma type_cuts n q l : Name n -> Forall LNumber l -> Cuts ends (type_text n q l) (type_tokens n q l).
Proof.
  intros Hn Hl. unfold type_text, type_tokens.
  assert (T : Cuts any (match l with [] => [] | x :: r => $"<" ++ x ++ concat (map (fun y => $"," ++ y) r) ++ $">" end)
    (match l with [] => [] | x :: r => [(LEFTANGLEBRACKET, $"<")] ++ [(NUMBER, x)] ++ concat (map (fun y => [(COMMA, $","); (NUMBER, y)]) r) ++ [(RIGHTANGLEBRACKET, $">")] end)).
  { destruct l as [|x r]; [apply cuts_nil|]. inversion Hl; subst. apply (cuts_any any $"<" _ [(LEFTANGLEBRACKET, $"<")]); [exact cuts_langle|]. apply number_rest; assumption. }
  assert (Q : Cuts any (if q then $"?" else []) (if q then [(QUESTIONMARK, $"?")] else [])) by (destruct q; [exact cuts_question|apply cuts_nil]).
  eapply cuts_app; [exact (cuts_name n Hn)|eapply cuts_weaken; [exact (cuts_any _ _ _ _ _ Q T)|intros; exact I]|].
  intros r Hr. destruct q; [split; [reflexivity|discriminate]|]. destruct l as [|x l]; [exact Hr|]. split; [reflexivity|discriminate].
Qed.
Lemma spec_parse r : forall fuel acc k, length r <= fuel ->
  p_spec fuel acc (concat (map (fun y => [(COMMA, $","); (NUMBER, y)]) r) ++ (RIGHTANGLEBRACKET, $">") :: k) = Some (acc ++ concat (map (fun y => $"," ++ y) r) ++ $">", k).
Proof.
  induction r as [|y r IH]; intros fuel acc k Hf; cbn [map concat app].
  - destruct fuel; reflexivity.
  - cbn [length] in Hf. destruct fuel as [|fuel]; [lia|]. cbn [p_spec t_rangle t_comma t_number]. rewrite IH by lia. rewrite <- !app_assoc. reflexivity.
Qed.
Lemma pairs_long (r : list str) k : length r <= length (concat (map (fun y => [(COMMA, $","); (NUMBER, y)]) r) ++ k).
Proof. induction r as [|y r IH]; cbn [map concat app length] in *; lia. Qed.
Lemma type_parse n q l k : Name n -> follow k -> p_basic (type_tokens n q l ++ k) = Some (type_text n q l, k).
Proof.
  intros Hn Hk. unfold p_basic, type_tokens, type_text. rewrite <- app_assoc. unfold name_tokens. rewrite name_read.
  - destruct q; cbn [app t_question maybe].
    + destruct l as [|x r]; cbn [app t_langle t_number]; [rewrite (follow_langle k Hk); reflexivity|].
      rewrite <- app_assoc. cbn [app]. rewrite spec_parse by apply pairs_long. rewrite <- !app_assoc. reflexivity.
    + destruct l as [|x r]; cbn [app t_question maybe t_langle t_number].
      * rewrite (follow_question k Hk). cbn [maybe]. rewrite (follow_langle k Hk). reflexivity.
      * rewrite <- app_assoc. cbn [app]. rewrite spec_parse by apply pairs_long. rewrite <- !app_assoc. reflexivity.
  - exact Hn.
  - destruct q; [cbn; discriminate|]. destruct l as [|x r]; [apply follow_bar, Hk|cbn; discriminate].
Qed.
Lemma type_t_start n q l k : Name n -> t_start (type_tokens n q l ++ k) = TBasic.
Proof. intros Hn. unfold type_tokens. rewrite <- app_assoc. apply name_t_start, Hn. Qed.
Lemma concat_pairs r : text_of (concat (map (fun y => [(COMMA, $","); (NUMBER, y)]) r)) = concat (map (fun y => $"," ++ y) r).
Proof. unfold text_of. induction r as [|y r IH]; [reflexivity|]. cbn [map concat app snd]. rewrite IH. reflexivity. Qed.
Lemma type_text_of n q l : Name n -> text_of (type_tokens n q l) = type_text n q l.
Proof.
  intros Hn. unfold type_tokens, type_text. rewrite !text_of_app, (name_text n Hn). f_equal. f_equal; [destruct q; reflexivity|]. destruct l as [|x r]; [reflexivity|].
  change ([(LEFTANGLEBRACKET, $"<")] ++ [(NUMBER, x)] ++ concat (map (fun y : str => [(COMMA, $","); (NUMBER, y)]) r) ++ [(RIGHTANGLEBRACKET, $">")])
    with ((LEFTANGLEBRACKET, $"<") :: (NUMBER, x) :: concat (map (fun y : str => [(COMMA, $","); (NUMBER, y)]) r) ++ [(RIGHTANGLEBRACKET, $">")]).
  unfold text_of at 1. cbn [map snd concat]. fold (text_of (concat (map (fun y : str => [(COMMA, $","); (NUMBER, y)]) r) ++ [(RIGHTANGLEBRACKET, $">")])). rewrite text_of_app, concat_pairs. reflexivity.
Qed.
(** A type as the parser sees it *)
Definition last_char (s : str) : ascii := last s " "%char.
Lemma last_app s t : t <> [] -> last_char (s ++ t) = last_char t.
Proof.
  intros Ht. unfold last_char. induction s as [|c s IH]; [reflexivity|]. cbn [app last]. destruct (s ++ t) eqn:E; [destruct s; [cbn in E; congruence|discriminate]|exact IH].
Qed.
Record TypeText (s : str) (ts : list token) : Prop := {
  tt_cuts : Cuts ends s ts;
  tt_parse : forall k, follow k -> p_basic (ts ++ k) = Some (s, k);
  tt_start : forall k, t_start (ts ++ k) = TBasic;
  tt_text : text_of ts = s;
  tt_last : last_char s <> "m"%char;
  tt_long : 1 <= length ts;
  tt_some : s <> [] }.
Lemma tt_complex s ts fuel k : TypeText s ts -> follow k -> p_complex (S fuel) (ts ++ k) = Some (s, k).
Proof. intros H Hk. cbn [p_complex]. rewrite (tt_start s ts H). apply (tt_parse s ts H), Hk. Qed.
Lemma type_last n q l : n <> [] -> last_char n <> "m"%char -> last_char (type_text n q l) <> "m"%char.
Proof.
  intros Hn Hm. unfold type_text. destruct l as [|x r].
  - rewrite app_nil_r. destruct q; [|rewrite app_nil_r; exact Hm]. rewrite last_app by discriminate. cbn. discriminate.
  - rewrite !app_assoc. rewrite last_app by discriminate. cbn. discriminate.
Qed.
Lemma type_is n q l : Name n -> last_char n <> "m"%char -> Forall LNumber l -> TypeText (type_text n q l) (type_tokens n q l).
Proof.
  intros Hn Hm Hl. assert (Hne : n <> []) by (destruct (name_head n Hn) as (c & r & -> & _); discriminate). constructor.
  - apply type_cuts; assumption.
  - intros k Hk. apply type_parse; assumption.
  - intros k. apply type_t_start, Hn.
  - apply type_text_of, Hn.
  - apply type_last; assumption.
  - unfold type_tokens. destruct (name_start n Hn) as (x & t & r & -> & _). cbn [app length]. lia.
  - unfold type_text. destruct n; [congruence|discriminate].
Qed.
Ltac small_name := first [apply word_name; [discriminate|reflexivity|reflexivity] |
  constructor; [constructor; reflexivity|cbn; intuition discriminate]].
Lemma printable_text t t' : Printable t t' -> exists ts, TypeText (fst (printType t)) ts.
Proof.
  intros H. assert (X : exists n q l, fst (printType t) = type_text n q l /\ Name n /\ last_char n <> "m"%char /\ Forall LNumber l).
  { assert (Q : forall n, qmark n = if (match n with NNullable => true | _ => false end) then $"?" else []) by (intros []; reflexivity).
    destruct H as [k n I|p s n _ _|l n _|l n _].
    - assert (E : exists w, fst (printType (PtScalar k n)) = w ++ qmark n /\ Name w /\ last_char w <> "m"%char).
      { cbn [In] in I. repeat (destruct I as [<- | I]; [eexists; split; [reflexivity|]; split; [small_name|discriminate]|]). destruct I. }
      destruct E as (w & -> & Hw & Hl). exists w, (match n with NNullable => true | _ => false end), []. rewrite Q. unfold type_text. rewrite app_nil_r. auto.
    - exists $"decimal", (match n with NNullable => true | _ => false end), [print_Z p; print_Z s]. cbn [printType fst]. rewrite Q. unfold type_text. cbn [map concat]. rewrite app_nil_r, <- !app_assoc.
      split; [reflexivity|]. split; [small_name|]. split; [discriminate|]. repeat constructor; apply print_Z_number.
    - exists $"varchar", (match n with NNullable => true | _ => false end), [print_Z l]. cbn [printType fst]. rewrite Q. unfold type_text. cbn [map concat app].
      split; [reflexivity|]. split; [small_name|]. split; [discriminate|]. repeat constructor; apply print_Z_number.
    - exists $"fixedchar", (match n with NNullable => true | _ => false end), [print_Z l]. cbn [printType fst]. rewrite Q. unfold type_text. cbn [map concat app].
      split; [reflexivity|]. split; [small_name|]. split; [discriminate|]. repeat constructor; apply print_Z_number. }
  destruct X as (n & q & l & -> & Hn & Hm & Hl). exists (type_tokens n q l). apply type_is; assumption.
Qed.
