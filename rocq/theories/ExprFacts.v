(** Expressions: printed, cut into tokens, parsed and evaluated. *)
From Verif Require Import Base BaseFacts StringsModel StringsFacts EscapeModel EscapeFacts DecimalModel DecimalFacts TypeModel TypeFacts TypeCaseFacts TypeTextFacts TypeProtoFacts LexModel LexFacts NameModel NameFacts CutFacts FloatModel
  CalendarModel EnumModel ExprModel TypeTokenFacts LiteralFacts.
From Coq Require Import Lia ZifyBool ZifyNat ZifyN.

(** * Keywords *)
Lemma cuts_key b w k : all_ is_space b -> w <> [] -> next_mode Default k = Default -> hidden k = false ->
  (forall r, next_token Default (w ++ $" " ++ r) = Some (k, length w)) -> Cuts any (b ++ w ++ $" ") [(k, w)].
Proof.
  intros Hb Hw Hm Hh H. apply (cuts_any any b _ []); [apply cuts_blanks, Hb|].
  apply (cuts_app (fun r => exists r', r = $" " ++ r') any w $" " [(k, w)] []); [|exact cuts_space|intros r _; exists r; reflexivity].
  apply cuts_token; [exact Hw|exact Hm|exact Hh|]. intros r (r' & ->). apply H.
Qed.
Ltac rw H := let X := fresh in pose proof H as X; unfold token in *; rewrite X; clear X.
Ltac key := apply cuts_key; [reflexivity|discriminate|reflexivity|reflexivity|intros r; reflexivity].
(** * Specification *)
(** A name whose first word is not null. *)
Definition not_null (n : str) : Prop := to_lower n <> $"null" /\ forall r, to_lower n <> $"null_" ++ r.
(** The name of a column: a name, or the names of a schema and of a column in it. *)
Inductive Column : str -> Prop :=
| Column_plain n : Name n -> not_null n -> Column n
| Column_schema n m : Name n -> not_null n -> Name m -> Column (n ++ $"." ++ m).
Section Spec.
  Variables (function_name : N -> option str) (field_name : N -> Z -> option str) (find_function : str -> option N) (find_relation : str -> option bool) (find_field : str -> option (N * Z)).
  (** A column or a subquery whose text ends like that of an enum argument *)
  Definition looks_enum (e : expr) : bool :=
    match e with ESel s r => match field_name (steps_of r) (field_of s) with Some n => endsWith n enum_suffix | None => false end
    | EScalar (Some n) | EIn _ (Some n) | ESet _ (Some n) | ECompare _ _ _ (Some n) => endsWith n enum_suffix
    | _ => false
    end.
  (** A relation that can be written, and is known *)
  Definition KnownRelation (n : str) : Prop := Name n /\ find_relation n = Some true.
  Section Args.
    Variable R : expr -> expr -> Prop.
    Inductive ArgReads : arg expr -> arg expr -> Prop :=
    | AR_value e e' : R e e' -> looks_enum e = false -> ArgReads (AValue e) (AValue e')
    | AR_enum s : Name (s ++ enum_suffix) -> not_null (s ++ enum_suffix) -> ArgReads (AEnum s) (AEnum s).
    Inductive ClauseReads : option expr * option expr -> option expr * option expr -> Prop :=
    | CR_both i i' t t' : R i i' -> R t t' -> ClauseReads (Some i, Some t) (Some i', Some t').
    Inductive ElseReads : option expr -> option expr -> Prop :=
    | LR_none : ElseReads None None
    | LR_some e e' : R e e' -> ElseReads (Some e) (Some e').
    Inductive DeprecatedReads : expr -> arg expr -> Prop :=
    | DR_value e e' : R e e' -> looks_enum e = false -> DeprecatedReads e (AValue e').
  End Args.
  (** The expressions that are printed as a text that can be read, and what they are read as. *)
  Inductive Readable : expr -> expr -> Prop :=
  | RD_literal l l' : ReadsAs l l' -> Readable (ELit l) (ELit l')
  | RD_column s r n steps z : field_name (steps_of r) (field_of s) = Some n -> Column n -> find_field n = Some (steps, z) ->
      Readable (ESel s r) (ESel (SegField z None) (if (0 <? steps)%N then RootOuter steps else RootRef))
  | RD_function f f' n args args' deprecated deprecated' options ty ty' :
      function_name f = Some n -> Name n -> to_lower n <> $"ifthen" -> find_function n = Some f' ->
      Forall2 (ArgReads Readable) args args' -> Forall2 (DeprecatedReads Readable) deprecated deprecated' -> args' ++ deprecated' <> [] -> Printable ty ty' ->
      Readable (EFun f args deprecated options ty) (EFun f' (args' ++ deprecated') [] [] ty')
  | RD_if ifs ifs' els els' : Forall2 (ClauseReads Readable) ifs ifs' -> ElseReads Readable els els' -> ifs <> [] \/ els <> None -> Readable (EIfThen ifs els) (EIfThen ifs' els')
  | RD_cast e e' ty ty' failure : Readable e e' -> Printable ty ty' -> Readable (ECast e ty failure) (ECast e' ty' 0)
  | RD_scalar n : KnownRelation n -> Readable (EScalar (Some n)) (EScalar (Some n))
  | RD_in l l' n : Forall2 Readable l l' -> l <> [] -> KnownRelation n -> Readable (EIn l (Some n)) (EIn l' (Some n))
  | RD_set op n : op <> QUnspecified -> KnownRelation n -> Readable (ESet op (Some n)) (ESet op (Some n))
  | RD_compare op red e e' n : op <> CUnspecified -> Readable e e' -> KnownRelation n -> Readable (ECompare op (Some red) (Some e) (Some n)) (ECompare op (Some red) (Some e') (Some n)).

  (** * Induction *)
  Lemma forall2_weaken {A B} (P Q : A -> B -> Prop) l l' : Forall2 P l l' -> (forall a b, P a b -> Q a b) -> Forall2 Q l l'.
  Proof. intros H X. induction H; constructor; auto. Qed.
  Section Induction.
    Variable P : expr -> expr -> Prop.
    Hypothesis HL : forall l l', ReadsAs l l' -> P (ELit l) (ELit l').
    Hypothesis HC : forall s r n steps z, field_name (steps_of r) (field_of s) = Some n -> Column n -> find_field n = Some (steps, z) ->
      P (ESel s r) (ESel (SegField z None) (if (0 <? steps)%N then RootOuter steps else RootRef)).
    Hypothesis HF : forall f f' n args args' deprecated deprecated' options ty ty',
      function_name f = Some n -> Name n -> to_lower n <> $"ifthen" -> find_function n = Some f' ->
      Forall2 (ArgReads P) args args' -> Forall2 (DeprecatedReads P) deprecated deprecated' -> args' ++ deprecated' <> [] -> Printable ty ty' ->
      P (EFun f args deprecated options ty) (EFun f' (args' ++ deprecated') [] [] ty').
    Hypothesis HI : forall ifs ifs' els els', Forall2 (ClauseReads P) ifs ifs' -> ElseReads P els els' -> ifs <> [] \/ els <> None -> P (EIfThen ifs els) (EIfThen ifs' els').
    Hypothesis HK : forall e e' ty ty' failure, P e e' -> Printable ty ty' -> P (ECast e ty failure) (ECast e' ty' 0).
    Hypothesis HQ : forall n, KnownRelation n -> P (EScalar (Some n)) (EScalar (Some n)).
    Hypothesis HN : forall l l' n, Forall2 P l l' -> l <> [] -> KnownRelation n -> P (EIn l (Some n)) (EIn l' (Some n)).
    Hypothesis HS : forall op n, op <> QUnspecified -> KnownRelation n -> P (ESet op (Some n)) (ESet op (Some n)).
    Hypothesis HM : forall op red e e' n, op <> CUnspecified -> P e e' -> KnownRelation n -> P (ECompare op (Some red) (Some e) (Some n)) (ECompare op (Some red) (Some e') (Some n)).
    Fixpoint readable_ind e e' (H : Readable e e') {struct H} : P e e'.
    Proof.
      destruct H as [l l' H|s r n steps z H1 H2 H3|f f' n args args' dep dep' opts ty ty' H1 H2 H3 H4 H5 H6 H7 H8|ifs ifs' els els' H1 H2 H3|e e' ty ty' failure H1 H2|n H1|l l' n H1 H2 H3|op n H1 H2|op red e e' n H1 H2 H3].
      - apply HL, H.
      - eapply HC; eassumption.
      - eapply HF; try eassumption.
        + clear - H5 readable_ind. induction H5 as [|a a' l l' Ha _ IH]; constructor; [|exact IH]. destruct Ha as [e e' He Hl|s Hs Hn]; constructor; auto.
        + clear - H6 readable_ind. induction H6 as [|a a' l l' Ha _ IH]; constructor; [|exact IH]. destruct Ha as [e e' He Hl]; constructor; auto.
      - apply HI; [| |exact H3].
        + clear - H1 readable_ind. induction H1 as [|a a' l l' Ha _ IH]; constructor; [|exact IH]. destruct Ha as [i i' t t' Hi Ht]; constructor; auto.
        + destruct H2 as [|e e' He]; constructor; auto.
      - apply HK; [apply readable_ind, H1|exact H2].
      - apply HQ, H1.
      - apply HN; [|exact H2|exact H3]. clear - H1 readable_ind. induction H1 as [|a a' l l' Ha _ IH]; constructor; [apply readable_ind, Ha|exact IH].
      - apply HS; assumption.
      - apply HM; [exact H1|apply readable_ind, H2|exact H3].
    Qed.
  End Induction.

  (** * One expression *)
  (** The parser reads [ts] as [node], leaving what follows and the casts to the caller. *)
  Definition Parses (ts : list token) (node : enode) : Prop :=
    forall fuel k, 2 * length ts < fuel -> follow k -> exists f', fuel <= f' + length ts /\ p_expr fuel (ts ++ k) = p_casts f' node k.
  Definition stop (k : list token) : Prop := t_as k = None /\ t_compare k = None.
  Definition starts_ok (ts : list token) : Prop := match ts with [] => False | (k, _) :: _ => k <> RIGHTPAREN end.
  Lemma parses_whole ts node fuel k : Parses ts node -> 2 * length ts < fuel -> follow k -> stop k -> p_expr fuel (ts ++ k) = Some (node, k).
  Proof.
    intros H Hf Hk [Ha Hc]. destruct (H fuel k Hf Hk) as (f' & Hf' & ->). destruct f' as [|f']; [lia|]. cbn [p_casts]. rewrite Ha, Hc. reflexivity.
  Qed.
  Record Reads (ev : str * enode -> evaluated expr) (e' : expr) (enum : bool) (o : outcome printed) : Prop := {
    reads : exists t ts node, o = Ok (t, 0) /\ Cuts ends t ts /\ Parses ts node /\ starts_ok ts /\ ev (text_of ts, node) = Ok (e', []) /\ endsWith (text_of ts) enum_suffix = enum }.
  Lemma enum_last s : last_char s <> "m"%char -> endsWith s enum_suffix = false.
  Proof.
    intros H. destruct (endsWith s enum_suffix) eqn:E; [|reflexivity]. apply endsWith_iff in E as (c & r & ->). exfalso. apply H. change (c :: r ++ enum_suffix) with ((c :: r) ++ enum_suffix).
    rewrite last_app by discriminate. reflexivity.
  Qed.
  Definition visit (x : str * enode) : evaluated expr := visitExpr find_function find_relation find_field (snd x).
  Definition Expr (e e' : expr) : Prop := forall depth, Reads visit e' (looks_enum e) (printExpr function_name field_name depth e).

  Lemma const_head ts k : const_start ts -> t_call (ts ++ k) = None /\ match c_start (ts ++ k) with SNo | SNull _ => False | _ => True end.
  Proof. destruct ts as [|[x t] ts]; [intros []|]. cbn [const_start]. intros H. destruct x; try destruct H; (split; [reflexivity|exact I]). Qed.
  Lemma literal_reads l l' : ReadsAs l l' -> Expr (ELit l) (ELit l').
  Proof.
    intros H depth. destruct (literal_text l l' H) as [He (ts & c & Hc & Hs & Hp & Hv & Hl & Hn)]. constructor. cbn [printExpr looks_enum].
    exists (fst (printLiteral l)), ts, (NConst c). split; [destruct (printLiteral l); cbn in *; subst; reflexivity|]. split; [exact Hc|].
    split.
    { intros fuel k Hf Hk. destruct fuel as [|fuel]; [lia|]. exists fuel. split; [lia|]. cbn [p_expr]. specialize (Hp fuel k ltac:(lia) Hk). unfold p_constant_expr.
      destruct (const_head ts k Hs) as [-> Ec]. destruct (c_start (ts ++ k)); try destruct Ec; rewrite Hp; reflexivity. }
    split; [destruct ts as [|[x t] ts]; [destruct Hs|]; cbn in *; intros ->; exact Hs|].
    split; [|apply enum_last, Hl]. unfold visit. cbn [snd visitExpr]. rewrite Hv. reflexivity.
  Qed.
  (** Columns *)
  Lemma name_first n : Name n -> exists w r, name_tokens n = (word_kind w, w) :: r /\ (n = w \/ exists j m, n = w ++ repeat under (S j) ++ m).
  Proof.
    intros [w Hw Hres | w k m Hw Hres Hnc Hn]; exists w; destruct (word_kind_simple w Hw Hres) as (_ & _ & _ & Hh); unfold name_tokens.
    - exists []. split; [|left; reflexivity]. rewrite <- (app_nil_r w) at 1. rewrite pieces_word; [rewrite (visible_word _ _ _ Hh); reflexivity|exact Hw|exact Hres|exact I|].
      apply (short_ends w [] (word_no_compound w Hw) I w []). rewrite app_nil_r. reflexivity.
    - eexists. split; [|right; exists k, m; reflexivity]. rewrite pieces_word; [rewrite (visible_word _ _ _ Hh); reflexivity|exact Hw|exact Hres|reflexivity|].
      rewrite <- (app_nil_r (repeat under (S k) ++ m)). apply (short_ends _ [] Hnc I). reflexivity.
  Qed.
  Lemma not_null_kind n : Name n -> not_null n -> exists k t r, name_tokens n = (k, t) :: r /\ simple_id k = true /\ k <> NULLVAL.
  Proof.
    intros Hn [H1 H2]. destruct (name_start n Hn) as (k & t & r & E & Hk). exists k, t, r. split; [exact E|]. split; [exact Hk|]. intros ->.
    assert (X : forall w, word_kind w = NULLVAL -> to_lower w = $"null").
    { intros w. unfold word_kind. intros Hw. destruct (find (fun e => snd e =s to_lower w) keywords) as [[k' w']|] eqn:F; [|discriminate]. apply find_some in F as [Hin Hf]. cbn [snd] in Hf. apply seq_eqb_eq in Hf. subst k'.
      assert (Y : forallb (fun e => match fst e with NULLVAL => snd e =s $"null" | _ => true end) keywords = true) by (vm_compute; reflexivity). rewrite forallb_forall in Y. specialize (Y _ Hin). cbn [fst snd] in Y.
      apply seq_eqb_eq in Y. congruence. }
    destruct (name_first n Hn) as (w & r' & E' & Hw). rewrite E' in E. injection E as E _ _. specialize (X w E). destruct Hw as [-> | (j & m & ->)]; [exact (H1 X)|].
    apply (H2 (to_lower (repeat under j ++ m))). rewrite to_lower_app, X. reflexivity.
  Qed.
  Lemma column_kind k : simple_id k = true -> k <> NULLVAL -> forall t r, c_start ((k, t) :: r) = SNo /\ q_start ((k, t) :: r) = QNo.
  Proof. intros H Hn t r. destruct k; try discriminate H; try (split; reflexivity). congruence. Qed.
  Lemma column_text c : Column c -> exists ts, Cuts ends c ts /\ Parses ts (NCol c) /\ starts_ok ts /\ text_of ts = c.
  Proof.
    assert (X : forall n r x, Name n -> not_null n -> no_bar r -> t_lparen r = None -> p_column (name_tokens n ++ r) = Some x ->
      forall fuel, p_expr (S fuel) (name_tokens n ++ r) = p_casts fuel (fst x) (snd x)).
    { intros n r [y z] Hn Hnn Hr Hl Hx fuel. cbn [p_expr]. unfold t_call, name_tokens. rewrite (name_read n r Hn Hr), Hl. fold (name_tokens n).
      destruct (not_null_kind n Hn Hnn) as (k & t & l & E & Hk & Hkn). rewrite Hx. rewrite E. cbn [app]. rewrite (proj1 (column_kind k Hk Hkn _ _)), (proj2 (column_kind k Hk Hkn _ _)). reflexivity. }
    assert (Y : forall n r, Name n -> starts_ok (name_tokens n ++ r)).
    { intros n r Hn. destruct (name_start n Hn) as (k & t & l & -> & Hk). cbn. intros ->. discriminate. }
    intros [w Hn Hnn | w m Hn Hnn Hm].
    - exists (name_tokens w). split; [apply cuts_name, Hn|]. split.
      + intros [|fuel] k Hf Hk; [lia|]. exists fuel. split; [destruct (name_start w Hn) as (? & ? & ? & -> & _); cbn; lia|].
        rewrite (X w k (NCol w, k)); [reflexivity|exact Hn|exact Hnn|apply follow_bar, Hk|apply follow_lparen, Hk|].
        unfold p_column, name_tokens. rewrite (name_read w k Hn (follow_bar k Hk)), (follow_period k Hk). reflexivity.
      + split; [specialize (Y w [] Hn); rewrite app_nil_r in Y; exact Y|apply name_text, Hn].
    - exists (name_tokens w ++ [(PERIOD, $".")] ++ name_tokens m). split.
      { eapply cuts_app; [apply cuts_name, Hn|eapply cuts_any; [exact cuts_period|apply cuts_name, Hm]|]. intros r _. split; [reflexivity|discriminate]. }
      split.
      + intros [|fuel] k Hf Hk; [lia|]. exists fuel. split; [destruct (name_start w Hn) as (? & ? & ? & -> & _); cbn; lia|]. rewrite <- !app_assoc. cbn [app].
        rewrite (X w ((PERIOD, $".") :: name_tokens m ++ k) (NCol (w ++ $"." ++ m), k)); [reflexivity|exact Hn|exact Hnn|cbn; discriminate|reflexivity|].
        unfold p_column, name_tokens. rewrite (name_read w _ Hn); [|cbn; discriminate]. cbn [t_period]. rewrite (name_read m k Hm (follow_bar k Hk)). reflexivity.
      + split; [apply Y, Hn|]. rewrite !text_of_app, (name_text w Hn), (name_text m Hm). reflexivity.
  Qed.
  Lemma column_reads s r n steps z : field_name (steps_of r) (field_of s) = Some n -> Column n -> find_field n = Some (steps, z) ->
    Expr (ESel s r) (ESel (SegField z None) (if (0 <? steps)%N then RootOuter steps else RootRef)).
  Proof.
    intros H1 H2 H3 depth. destruct (column_text n H2) as (ts & Hc & Hp & Hs & Ht). constructor. exists n, ts, (NCol n). cbn [printExpr looks_enum]. unfold lookupFieldReference. rewrite H1.
    split; [reflexivity|]. split; [exact Hc|]. split; [exact Hp|]. split; [exact Hs|]. split; [|rewrite Ht; reflexivity]. unfold visit. cbn [snd visitExpr]. rewrite H3. reflexivity.
  Qed.
  (** Arguments *)
  Lemma bindE_good {A B} (a : A) (f : A -> evaluated B) : bindE (Ok (a, [])) f = f a.
  Proof. unfold bindE. cbn. destruct (f a) as [[b l]|x|]; reflexivity. Qed.
  Section Items.
    Context {B : Type}.
    Variable ev : str * enode -> evaluated B.
    Definition Item (o : outcome printed) (b : B) : Prop :=
      exists t ts node, o = Ok (t, 0) /\ Cuts ends t ts /\ Parses ts node /\ starts_ok ts /\ ev (text_of ts, node) = Ok (b, []).
    Fixpoint go (first : bool) (l : list (outcome printed)) : outcome printed :=
      match l with
      | [] => Ok ([], 0)
      | x :: r => a <- x ;; b <- go false r ;; Ok ((if first then [] else $", ") ++ fst a ++ fst b, snd a + snd b)
      end.
    Definition rp : token := (RIGHTPAREN, $")").
    Lemma rparen_none ts k : starts_ok ts -> t_rparen (ts ++ k) = None.
    Proof. destruct ts as [|[x t] ts]; [intros []|]. cbn. destruct x; (reflexivity || congruence). Qed.
    Lemma args_one ts node k fuel l rest : Parses ts node -> starts_ok ts -> 2 * length ts < fuel -> follow k -> stop k ->
      p_args fuel (snd (maybe (t_comma k) k)) = Some (l, rest) -> p_args (S fuel) (ts ++ k) = Some ((text_of ts, node) :: l, rest).
    Proof.
      intros Hp Hs Hf Hk Ha H. cbn [p_args]. rewrite (rparen_none ts k Hs), (parses_whole ts node fuel k Hp Hf Hk Ha), consumed_text. destruct (maybe (t_comma k) k) as [x r']. cbn [snd] in H. rewrite H. reflexivity.
    Qed.
    Lemma items_rest os bs : Forall2 Item os bs -> exists t ts nodes, go false os = Ok (t, 0) /\ Cuts ends t ts /\ (forall r, ends r -> ends (t ++ r)) /\ eachE ev nodes = Ok (bs, []) /\
      forall k, follow (ts ++ rp :: k) /\ stop (ts ++ rp :: k) /\
        forall fuel, 2 * length ts < fuel -> p_args fuel (snd (maybe (t_comma (ts ++ rp :: k)) (ts ++ rp :: k))) = Some (nodes, k).
    Proof.
      induction 1 as [|o b os bs Ho _ IH].
      - exists [], [], []. split; [reflexivity|]. split; [apply cuts_nil|]. split; [auto|]. split; [reflexivity|]. intros k. split; [reflexivity|]. split; [split; reflexivity|]. intros [|fuel] Hf; [lia|reflexivity].
      - destruct Ho as (t & ts & node & -> & Hc & Hp & Hs & Hv). destruct IH as (t2 & ts2 & nodes & E2 & Hc2 & He2 & Hv2 & Hk2).
        exists ($", " ++ t ++ t2), ((COMMA, $",") :: ts ++ ts2), ((text_of ts, node) :: nodes). split; [cbn [go obind]; rewrite E2; reflexivity|].
        split; [eapply (cuts_any ends $", " _ [(COMMA, $",")]); [exact cuts_comma_space|eapply cuts_app; [exact Hc|exact Hc2|exact He2]]|].
        split; [intros r _; split; [reflexivity|discriminate]|]. split; [cbn [eachE]; rewrite Hv, bindE_good, Hv2, bindE_good; reflexivity|].
        intros k. split; [reflexivity|]. split; [split; reflexivity|]. intros fuel Hf. cbn [app t_comma maybe snd]. rewrite <- app_assoc. destruct (Hk2 k) as (Hf2 & Ha2 & Hp2).
        cbn [length] in Hf. rewrite app_length in Hf. destruct fuel as [|fuel]; [lia|]. apply args_one; [exact Hp|exact Hs|lia|exact Hf2|exact Ha2|]. apply Hp2. lia.
    Qed.
    Lemma items_read os bs : Forall2 Item os bs -> exists t ts nodes, commas os = Ok (t, 0) /\ Cuts ends t ts /\ eachE ev nodes = Ok (bs, []) /\
      forall k fuel, 2 * length ts + 1 < fuel -> p_args fuel (ts ++ rp :: k) = Some (nodes, k).
    Proof.
      change commas with (go true). intros [|o b os' bs' Ho H].
      - exists [], [], []. split; [reflexivity|]. split; [apply cuts_nil|]. split; [reflexivity|]. intros k [|fuel] Hf; [lia|reflexivity].
      - destruct Ho as (t & ts & node & -> & Hc & Hp & Hs & Hv). destruct (items_rest os' bs' H) as (t2 & ts2 & nodes & E2 & Hc2 & He2 & Hv2 & Hk2).
        exists (t ++ t2), (ts ++ ts2), ((text_of ts, node) :: nodes). split; [cbn [go obind]; rewrite E2; reflexivity|]. split; [eapply cuts_app; [exact Hc|exact Hc2|exact He2]|].
        split; [cbn [eachE]; rewrite Hv, bindE_good, Hv2, bindE_good; reflexivity|]. intros k fuel Hf. rewrite app_length in Hf. rewrite <- app_assoc. destruct (Hk2 k) as (Hf2 & Ha2 & Hp2).
        destruct fuel as [|fuel]; [lia|]. apply args_one; [exact Hp|exact Hs|lia|exact Hf2|exact Ha2|]. apply Hp2. lia.
    Qed.
  End Items.
  (** Calls *)
  Lemma call_text n ts nodes ty tts : Name n ->
    (forall k fuel, 2 * length ts + 1 < fuel -> p_args fuel (ts ++ rp :: k) = Some (nodes, k)) ->
    match ty with Some s => TypeText s tts | None => tts = [] end ->
    let all := name_tokens n ++ (LEFTPAREN, $"(") :: ts ++ rp :: match ty with Some _ => (ARROW, $"->") :: tts | None => [] end in
    Parses all (NFun n nodes ty) /\ starts_ok all.
  Proof.
    intros Hn Ha Ht all. destruct (name_start n Hn) as (x & t & r & E & Hx). split; [|unfold all; rewrite E; cbn; intros ->; discriminate].
    assert (L : length all = length (name_tokens n) + 2 + length ts + length (match ty with Some _ => (ARROW, $"->") :: tts | None => [] end)).
    { unfold all. rewrite app_length. cbn [length]. rewrite app_length. destruct ty; cbn [length]; unfold token; lia. }
    intros [|fuel] k Hf Hk; [lia|]. exists fuel. split; [lia|]. unfold all at 1. rewrite <- app_assoc. cbn [app]. rewrite <- app_assoc. cbn [p_expr app]. unfold t_call, name_tokens. rewrite (name_read n _ Hn); [|cbn; discriminate].
    cbn [t_lparen]. rewrite Ha by lia. destruct ty as [s|].
    - cbn [app t_arrow]. destruct fuel as [|fuel]; [cbn [length] in L; lia|]. rewrite (tt_complex s tts fuel k Ht Hk). reflexivity.
    - cbn [app]. rewrite (follow_arrow k Hk). reflexivity.
  Qed.
  Lemma indent_space depth : all_ is_space (indent depth).
  Proof.
    destruct depth; [reflexivity|]. unfold indent. generalize (S (S depth)). intros n. unfold all_. cbn [forallb]. apply andb_true_iff. split; [reflexivity|]. induction n as [|n IH]; [reflexivity|]. cbn [repeat concat]. exact IH.
  Qed.
  Lemma ends_char c r : is_word c = false -> c <> under -> ends (c :: r).
  Proof. intros H1 H2. split; assumption. Qed.
  Definition argument (x : str * enode) : evaluated (arg expr) :=
    let '(text, e) := x in
    if endsWith text enum_suffix then good (AEnum (firstn (length text - length enum_suffix) text)) else bindE (visitExpr find_function find_relation find_field e) (fun x => good (AValue x)).
  Lemma value_item e e' depth : Expr e e' -> looks_enum e = false -> Item argument (printExpr function_name field_name depth e) (AValue e').
  Proof.
    intros H Hl. destruct (H depth) as [(t & ts & node & E & Hc & Hp & Hs & Hv & He)]. exists t, ts, node. split; [exact E|]. split; [exact Hc|]. split; [exact Hp|]. split; [exact Hs|].
    unfold argument. rewrite He, Hl. unfold visit in Hv. cbn [snd] in Hv. rewrite Hv, bindE_good. reflexivity.
  Qed.
  Lemma enum_item s : Name (s ++ enum_suffix) -> not_null (s ++ enum_suffix) -> Item argument (Ok (s ++ enum_suffix, 0)) (AEnum s).
  Proof.
    intros Hn Hnn. destruct (column_text _ (Column_plain _ Hn Hnn)) as (ts & Hc & Hp & Hs & Ht). exists (s ++ enum_suffix), ts, (NCol (s ++ enum_suffix)). split; [reflexivity|]. split; [exact Hc|]. split; [exact Hp|]. split; [exact Hs|].
    rewrite Ht. unfold argument. replace (endsWith (s ++ enum_suffix) enum_suffix) with true.
    - rewrite app_length. replace (length s + length enum_suffix - length enum_suffix) with (length s) by lia. rewrite firstn_app, Nat.sub_diag, firstn_all, firstn_O, app_nil_r. reflexivity.
    - symmetry. apply endsWith_iff. destruct (name_head _ Hn) as (c & r & E & Hc'). destruct s as [|c' s]; [|exists c', s; reflexivity]. injection E as <- _. discriminate Hc'.
  Qed.
  Lemma enum_looks e e' depth : Expr e e' -> looks_enum e = true -> exists s, Item argument (printExpr function_name field_name depth e) (AEnum s).
  Proof.
    intros H Hl. destruct (H depth) as [(t & ts & node & E & Hc & Hp & Hs & Hv & He)]. exists (firstn (length (text_of ts) - length enum_suffix) (text_of ts)), t, ts, node. split; [exact E|]. split; [exact Hc|]. split; [exact Hp|]. split; [exact Hs|].
    unfold argument. rewrite He, Hl. reflexivity.
  Qed.
  Definition printed_args depth (args : list (arg expr)) (deprecated : list expr) : list (outcome printed) :=
    map (fun a => match a with
               | AValue e => printExpr function_name field_name (S depth) e | AEnum s => Ok (s ++ $"_enum", 0) | AType t => Ok (printType t)
               | AUnset => Ok ($"SCALAR_FUNCTION_ARGUMENT_TYPE_MISSING", 1) end) args ++ map (printExpr function_name field_name (S depth)) deprecated.
  Lemma call_reads depth f f' n args deprecated bs options ty ty' :
      function_name f = Some n -> Name n -> to_lower n <> $"ifthen" -> find_function n = Some f' ->
      Forall2 (Item argument) (printed_args depth args deprecated) bs -> bs <> [] -> Printable ty ty' ->
      Reads visit (EFun f' bs [] [] ty') false (printExpr function_name field_name depth (EFun f args deprecated options ty)).
  Proof.
    intros H1 H2 H3 H4 H5 H7 H8. constructor. cbn [printExpr]. unfold lookupFunctionReference. rewrite H1. cbn [fst snd].
    destruct (print_roundtrip false ty ty' H8) as [Pt Rt]. destruct (printable_text ty ty' H8) as (tts & Htt).
    destruct (items_read argument (printed_args depth args deprecated) bs H5) as (t & ts & nodes & E & Hc & Hv & Hp). unfold printed_args in E, H5.
    rewrite E. cbn [obind fst snd]. destruct (call_text n ts nodes (Some (fst (printType ty))) tts H2 Hp Htt) as [Hpa Hst].
    eexists _, (name_tokens n ++ (LEFTPAREN, $"(") :: ts ++ rp :: (ARROW, $"->") :: tts), (NFun n nodes (Some (fst (printType ty)))). split.
    { rewrite Pt at 2. cbn [snd]. replace (match args with [] => match deprecated with [] => 1 | _ => 0 end | _ => 0 end) with 0; [reflexivity|].
      destruct args; [|reflexivity]. destruct deprecated; [|reflexivity]. inversion H5; subst. contradiction H7. reflexivity. }
    split.
    { apply (cuts_any ends (indent depth) _ []); [apply cuts_blanks, indent_space|]. eapply cuts_app; [apply cuts_name, H2| |].
      - apply (cuts_any ends $"(" _ [(LEFTPAREN, $"(")]); [exact cuts_lparen|]. eapply cuts_app; [exact Hc| |].
        + apply (cuts_any ends $")" ($"->" ++ fst (printType ty)) [rp]); [exact cuts_rparen|]. apply (cuts_any ends $"->" _ [(ARROW, $"->")]); [exact cuts_arrow|]. apply (tt_cuts _ _ Htt).
        + intros r _. apply ends_char; [reflexivity|discriminate].
      - intros r _. apply ends_char; [reflexivity|discriminate]. }
    split; [exact Hpa|]. split; [exact Hst|]. split.
    { unfold visit. cbn [snd visitExpr]. apply seq_eqb_neq in H3. rewrite H3, H4. unfold good at 1. rewrite bindE_good. fold argument. rewrite Hv, bindE_good. unfold read_type. rewrite Rt. cbn [obind fst snd map]. rewrite bindE_good. reflexivity. }
    apply enum_last. change (name_tokens n ++ (LEFTPAREN, $"(") :: ts ++ rp :: (ARROW, $"->") :: tts) with (name_tokens n ++ [(LEFTPAREN, $"(")] ++ ts ++ [rp; (ARROW, $"->")] ++ tts).
    rewrite !app_assoc, text_of_app, (tt_text _ _ Htt), last_app; [apply (tt_last _ _ Htt)|apply (tt_some _ _ Htt)].
  Qed.
  Lemma function_reads f f' n args args' deprecated deprecated' options ty ty' :
      function_name f = Some n -> Name n -> to_lower n <> $"ifthen" -> find_function n = Some f' ->
      Forall2 (ArgReads Expr) args args' -> Forall2 (DeprecatedReads Expr) deprecated deprecated' -> args' ++ deprecated' <> [] -> Printable ty ty' ->
      Expr (EFun f args deprecated options ty) (EFun f' (args' ++ deprecated') [] [] ty').
  Proof.
    intros H1 H2 H3 H4 H5 H6 H7 H8 depth. apply (call_reads depth f f' n); try assumption. apply Forall2_app.
    - clear - H5. induction H5 as [|a a' l l' Ha _ IH]; constructor; [|exact IH]. destruct Ha as [e e' He Hl|s Hs Hn]; [apply value_item; assumption|apply enum_item; assumption].
    - clear - H6. induction H6 as [|a a' l l' Ha _ IH]; constructor; [|exact IH]. destruct Ha as [e e' He Hl]. apply value_item; assumption.
  Qed.
  Lemma visit_item e e' depth : Expr e e' -> Item visit (printExpr function_name field_name depth e) e'.
  Proof. intros H. destruct (H depth) as [(t & ts & node & E & Hc & Hp & Hs & Hv & He)]. exists t, ts, node. auto. Qed.
  Lemma pairs_flat (p : list (expr * expr)) o : pairs_of (concat (map (fun q => [fst q; snd q]) p) ++ match o with Some e => [e] | None => [] end) = (p, o).
  Proof. induction p as [|[a b] p IH]; cbn [map concat app fst snd pairs_of]; [destruct o; reflexivity|]. rewrite IH. reflexivity. Qed.
  Lemma if_reads ifs ifs' els els' : Forall2 (ClauseReads Expr) ifs ifs' -> ElseReads Expr els els' -> ifs <> [] \/ els <> None -> Expr (EIfThen ifs els) (EIfThen ifs' els').
  Proof.
    intros H1 H2 H3 depth. constructor. cbn [printExpr looks_enum].
    set (clauses := map (fun c => match c with (Some i, Some t) => Some [printExpr function_name field_name depth i; printExpr function_name field_name depth t] | _ => None end) ifs).
    assert (X : exists p, ifs' = map (fun q => (Some (fst q), Some (snd q))) p /\ Forall2 (Item visit) (concat (map (fun c => match c with Some l => l | None => [] end) clauses)) (concat (map (fun q => [fst q; snd q]) p)) /\
      length (filter (fun c : option (list (outcome printed)) => match c with None => true | _ => false end) clauses) = 0 /\ (ifs <> [] -> p <> [])).
    { subst clauses. clear H2 H3. induction H1 as [|c c' l l' Hc _ (p & -> & Hp & Hf & _)]; [exists []; repeat split; [constructor|congruence]|]. destruct Hc as [i i' t t' Hi Ht]. exists ((i', t') :: p).
      split; [reflexivity|]. split; [|split; [exact Hf|discriminate]]. cbn [map concat fst snd app]. constructor; [apply visit_item, Hi|]. constructor; [apply visit_item, Ht|exact Hp]. }
    destruct X as (p & -> & Hp & Hf & Hne).
    assert (Y : Forall2 (Item visit) (match els with Some e => [printExpr function_name field_name depth e] | None => [] end) (match els' with Some e => [e] | None => [] end)).
    { destruct H2 as [|e e' He]; constructor; [apply visit_item, He|constructor]. }
    destruct (items_read visit _ _ (Forall2_app Hp Y)) as (t & ts & nodes & E & Hc & Hv & Hpa). rewrite E. cbn [obind fst snd]. rewrite Hf.
    assert (N : Name $"IFTHEN") by small_name.
    destruct (call_text $"IFTHEN" ts nodes None [] N Hpa eq_refl) as [Hps Hst].
    eexists _, (name_tokens $"IFTHEN" ++ (LEFTPAREN, $"(") :: ts ++ [rp]), (NFun $"IFTHEN" nodes None). split; [reflexivity|]. split.
    { change ($"IFTHEN(" ++ t ++ $")") with ($"IFTHEN" ++ $"(" ++ t ++ $")"). eapply cuts_app; [apply cuts_name, N| |].
      - apply (cuts_any ends $"(" _ [(LEFTPAREN, $"(")]); [exact cuts_lparen|]. eapply cuts_app; [exact Hc|eapply cuts_weaken; [exact cuts_rparen|intros; exact I]|]. intros r _. apply ends_char; [reflexivity|discriminate].
      - intros r _. apply ends_char; [reflexivity|discriminate]. }
    split; [exact Hps|]. split; [exact Hst|]. split.
    { unfold visit. cbn [snd visitExpr]. replace (to_lower $"IFTHEN" =s $"ifthen") with true by reflexivity.
      replace (eachE (fun a : str * enode => let '(_, x) := a in visitExpr find_function find_relation find_field x) nodes) with (eachE visit nodes).
      - rewrite Hv, bindE_good, pairs_flat. destruct (concat (map (fun q => [fst q; snd q]) p) ++ match els' with Some e => [e] | None => [] end) eqn:Z; [|reflexivity].
        apply app_eq_nil in Z as [Z1 Z2]. exfalso. destruct H3 as [H3|H3]; [specialize (Hne H3); destruct p; [apply Hne; reflexivity|discriminate Z1]|]. destruct H2; [apply H3; reflexivity|discriminate Z2].
      - clear. induction nodes as [|[a b] l IH]; [reflexivity|]. cbn [eachE]. rewrite IH. reflexivity. }
    apply enum_last. change (name_tokens $"IFTHEN" ++ (LEFTPAREN, $"(") :: ts ++ [rp]) with (name_tokens $"IFTHEN" ++ [(LEFTPAREN, $"(")] ++ ts ++ [rp]). rewrite !app_assoc, text_of_app, last_app; [|discriminate]. cbn. discriminate.
  Qed.
  Lemma cast_reads e e' ty ty' failure : Expr e e' -> Printable ty ty' -> Expr (ECast e ty failure) (ECast e' ty' 0).
  Proof.
    intros H H8 depth. constructor. cbn [printExpr looks_enum]. destruct (H depth) as [(t & ts & node & E & Hc & Hp & Hs & Hv & _)].
    destruct (print_roundtrip false ty ty' H8) as [Pt Rt]. destruct (printable_text ty ty' H8) as (tts & Htt). rewrite E. cbn [obind fst snd].
    eexists _, (ts ++ (AS, $"AS") :: tts), (NCast node (fst (printType ty))). split; [rewrite Pt at 2; reflexivity|]. split.
    { change ($" AS " ++ fst (printType ty)) with ($" " ++ $"AS" ++ $" " ++ fst (printType ty)). eapply cuts_app; [exact Hc| |].
      - apply (cuts_any ends $" " _ []); [exact cuts_space|]. apply (cuts_app ends ends $"AS" _ [(AS, $"AS")] tts cuts_as); [apply (cuts_any ends $" " _ []); [exact cuts_space|apply (tt_cuts _ _ Htt)]|].
        intros r _. apply ends_char; [reflexivity|discriminate].
      - intros r _. apply ends_char; [reflexivity|discriminate]. }
    split.
    { intros fuel k Hf Hk. rewrite app_length in *. cbn [length] in *. rewrite <- app_assoc. cbn [app]. destruct (Hp fuel ((AS, $"AS") :: tts ++ k) ltac:(lia) eq_refl) as (f' & Hf' & Ef).
      destruct f' as [|[|f']]; [lia|pose proof (tt_long _ _ Htt); lia|]. exists (S f'). split; [lia|]. etransitivity; [exact Ef|]. cbn [p_casts t_as]. rewrite (tt_complex _ tts f' k Htt Hk). reflexivity. }
    split; [destruct ts as [|[x y] ts]; [destruct Hs|exact Hs]|]. split.
    { unfold visit in *. cbn [snd visitExpr] in *. rewrite Hv, bindE_good. unfold read_type. rewrite Rt. cbn [obind fst snd map]. rewrite bindE_good. reflexivity. }
    apply enum_last. change ((AS, $"AS") :: tts) with ([(AS, $"AS")] ++ tts). rewrite app_assoc, text_of_app, (tt_text _ _ Htt), last_app; [apply (tt_last _ _ Htt)|apply (tt_some _ _ Htt)].
  Qed.
  (** Subqueries *)
  Definition sq : token := (SUBQUERY, $"SUBQUERY").
  Lemma text_read n k : Name n -> follow k -> p_text (name_tokens n ++ k) = Some (n, k).
  Proof.
    intros Hn Hk. unfold p_text, p_ref. unfold name_tokens at 1. rewrite (name_read n k Hn (follow_bar k Hk)), (follow_lparen k Hk), consumed_text. rewrite (name_text n Hn). reflexivity.
  Qed.
  Lemma enum_name q n : Name n -> endsWith ((q ++ $"SUBQUERY") ++ n) enum_suffix = endsWith n enum_suffix.
  Proof.
    intros Hn. destruct (name_head n Hn) as (c & r & -> & Hc). destruct (endsWith (c :: r) enum_suffix) eqn:E.
    - apply endsWith_iff in E as (d & s & E). apply endsWith_iff. destruct q as [|x q]; [exists "S"%char, ($"UBQUERY" ++ d :: s)|exists x, ((q ++ $"SUBQUERY") ++ d :: s)]; rewrite E; cbn [app]; rewrite <- ?app_assoc; reflexivity.
    - destruct (endsWith ((q ++ $"SUBQUERY") ++ c :: r) enum_suffix) eqn:F; [|reflexivity]. exfalso. apply endsWith_iff in F as (d & s & F). change (d :: s ++ enum_suffix) with ((d :: s) ++ enum_suffix) in F.
      apply app_eq_app in F as (l & [[F1 F2]|[F1 F2]]).
      + destruct l as [|y l _] using rev_ind; [injection F2 as Xc _; subst c; discriminate Hc|]. assert (Y : y = "Y"%char).
        { apply (f_equal last_char) in F1. rewrite app_assoc in F1. rewrite !last_app in F1 by discriminate. cbn in F1. congruence. }
        subst y. assert (I : In "Y"%char enum_suffix) by (rewrite F2; apply in_or_app; left; apply in_or_app; right; left; reflexivity). cbv in I. repeat (destruct I as [I|I]; [discriminate I|]). exact I.
      + destruct l as [|y l]; [injection F2 as Xc _; subst c; discriminate Hc|]. assert (X : endsWith (c :: r) enum_suffix = true) by (apply endsWith_iff; exists y, l; exact F2). congruence.
  Qed.
  Lemma enum_rel ts n : Name n -> endsWith (text_of (ts ++ sq :: name_tokens n)) enum_suffix = endsWith n enum_suffix.
  Proof.
    intros Hn. change (sq :: name_tokens n) with ([sq] ++ name_tokens n). rewrite app_assoc, !text_of_app, (name_text n Hn). exact (enum_name (text_of ts) n Hn).
  Qed.
  Lemma cuts_sq : Cuts any $"SUBQUERY " [sq].
  Proof. apply (cuts_key [] $"SUBQUERY"); [reflexivity|discriminate|reflexivity|reflexivity|intros r; reflexivity]. Qed.
  Lemma cuts_rel n : Name n -> Cuts ends ($"SUBQUERY " ++ n) (sq :: name_tokens n).
  Proof. intros Hn. apply (cuts_any ends $"SUBQUERY " n [sq]); [exact cuts_sq|apply cuts_name, Hn]. Qed.
  Lemma subquery_known {A} n (a : A) f : KnownRelation n -> subquery find_relation n a f = good (f (Some n)).
  Proof. intros [_ H]. unfold subquery. rewrite H. reflexivity. Qed.
  Lemma scalar_reads n : KnownRelation n -> Expr (EScalar (Some n)) (EScalar (Some n)).
  Proof.
    intros H depth. destruct H as [Hn Hr] eqn:EH. clear EH. constructor. cbn [printExpr looks_enum print_rel fst snd]. exists ($"SUBQUERY " ++ n), (sq :: name_tokens n), (NScalar n). split; [reflexivity|]. split; [apply cuts_rel, Hn|].
    split; [|split; [discriminate|split]].
    - intros [|fuel] k Hf Hk; [lia|]. exists fuel. split; [cbn [length]; lia|]. cbn [p_expr app]. unfold t_call, sq. cbn [p_id simple_id c_start q_start]. unfold p_subquery. cbn [t_subquery]. rewrite (text_read n k Hn Hk). reflexivity.
    - unfold visit. cbn [snd visitExpr]. apply subquery_known. split; assumption.
    - exact (enum_rel [] n Hn).
  Qed.
  Lemma list_read (os : list (outcome printed)) bs : Forall2 (Item visit) os bs -> os <> [] -> exists t ts nodes, go true os = Ok (t, 0) /\ go false os = Ok ($", " ++ t, 0) /\ Cuts ends t ts /\
    eachE (visitExpr find_function find_relation find_field) nodes = Ok (bs, []) /\ forall k fuel, 2 * length ts + 1 < fuel -> p_list fuel (ts ++ rp :: k) = Some (nodes, k).
  Proof.
    induction 1 as [|o b os bs Ho H IH]; intros Hne; [congruence|]. destruct Ho as (t & ts & node & -> & Hc & Hp & Hs & Hv). unfold visit in Hv. cbn [snd] in Hv. destruct os as [|o os].
    - inversion H; subst. exists t, ts, [node]. cbn [go obind fst snd]. rewrite !app_nil_r. split; [reflexivity|]. split; [reflexivity|]. split; [exact Hc|]. split; [cbn [eachE]; rewrite Hv, bindE_good; reflexivity|].
      intros k [|fuel] Hf; [lia|]. cbn [p_list]. rewrite (parses_whole ts node fuel (rp :: k) Hp ltac:(lia) eq_refl (conj eq_refl eq_refl)). reflexivity.
    - destruct (IH ltac:(discriminate)) as (t2 & ts2 & nodes & E1 & E2 & Hc2 & Hv2 & Hp2). remember (o :: os) as os' eqn:X. clear X. exists (t ++ $", " ++ t2), (ts ++ (COMMA, $",") :: ts2), (node :: nodes).
      cbn [go obind]. rewrite E2. cbn [obind fst snd]. split; [reflexivity|]. split; [reflexivity|].
      split; [eapply cuts_app; [exact Hc|eapply (cuts_any ends $", " _ [(COMMA, $",")]); [exact cuts_comma_space|exact Hc2]|intros r _; split; [reflexivity|discriminate]]|].
      split; [cbn [eachE]; rewrite Hv, bindE_good, Hv2, bindE_good; reflexivity|].
      intros k fuel Hf. rewrite app_length in Hf. cbn [length] in Hf. rewrite <- app_assoc. cbn [app]. destruct fuel as [|fuel]; [lia|]. cbn [p_list]. rw (parses_whole ts node fuel ((COMMA, $",") :: ts2 ++ rp :: k) Hp ltac:(lia) eq_refl (conj eq_refl eq_refl)).
      cbn [t_comma]. rw (Hp2 k fuel ltac:(lia)). reflexivity.
  Qed.
  Lemma in_read r n k : Name n -> follow k -> p_in_subquery ((IN, r) :: sq :: name_tokens n ++ k) = Some (n, k).
  Proof. intros Hn Hk. unfold p_in_subquery, p_subquery, sq. cbn [t_subquery]. apply text_read; assumption. Qed.
  Lemma in_reads l l' n : Forall2 Expr l l' -> l <> [] -> KnownRelation n -> Expr (EIn l (Some n)) (EIn l' (Some n)).
  Proof.
    intros H Hne R depth. assert (Hn := proj1 R). constructor. cbn [printExpr looks_enum print_rel fst snd].
    destruct (list_read (map (printExpr function_name field_name depth) l) l') as (t & ts & nodes & E & _ & Hc & Hv & Hp).
    { clear - H. induction H as [|e e' l l' He _ IH]; constructor; [apply visit_item, He|exact IH]. }
    { destruct l; [congruence|discriminate]. }
    change commas with (go true). rewrite E. cbn [obind fst snd]. eexists _, ((LEFTPAREN, $"(") :: (ts ++ rp :: [(IN, $"IN")]) ++ sq :: name_tokens n), (NIn nodes n). split; [reflexivity|]. split.
    { apply (cuts_any ends $"(" _ [(LEFTPAREN, $"(")]); [exact cuts_lparen|]. change ($") IN SUBQUERY " ++ n) with ($")" ++ ($" " ++ $"IN" ++ $" ") ++ $"SUBQUERY " ++ n). rewrite <- (app_assoc ts). eapply cuts_app; [exact Hc| |].
      - apply (cuts_any ends $")" _ [rp]); [exact cuts_rparen|]. apply (cuts_any ends ($" " ++ $"IN" ++ $" ") _ [(IN, $"IN")]); [key|apply cuts_rel, Hn].
      - intros r _. apply ends_char; [reflexivity|discriminate]. }
    split; [|split; [discriminate|split]].
    - intros [|fuel] k Hf Hk; [lia|]. cbn [length] in Hf. rewrite !app_length in Hf. cbn [length] in Hf. exists fuel. split; [cbn [length]; lia|]. cbn [app]. rewrite <- !app_assoc. cbn [app]. cbn [p_expr]. unfold t_call. cbn [p_id simple_id c_start q_start].
      rewrite Hp by lia. change ([(IN, $"IN")] ++ sq :: name_tokens n ++ k) with ((IN, $"IN") :: sq :: name_tokens n ++ k). rewrite (in_read _ n k Hn Hk). reflexivity.
    - unfold visit. cbn [snd visitExpr]. rewrite (proj2 R), Hv, bindE_good. apply subquery_known, R.
    - exact (enum_rel ((LEFTPAREN, $"(") :: ts ++ rp :: [(IN, $"IN")]) n Hn).
  Qed.
  Lemma set_reads op n : op <> QUnspecified -> KnownRelation n -> Expr (ESet op (Some n)) (ESet op (Some n)).
  Proof.
    intros Ho R depth. assert (Hn := proj1 R). constructor. cbn [printExpr looks_enum print_rel fst snd].
    assert (X : exists w (b : bool), print_predicate op = Some (w ++ $" " ++ $"IN" ++ $" ") /\ Cuts any (w ++ $" ") [(if b then EXISTS else UNIQUE, w)] /\ op = if b then QExists else QUnique).
    { destruct op; [congruence|exists $"EXISTS", true|exists $"UNIQUE", false]; (split; [reflexivity|split; [|reflexivity]]); [apply (cuts_key [] $"EXISTS")|apply (cuts_key [] $"UNIQUE")]; try reflexivity; try discriminate; intros r; reflexivity. }
    destruct X as (w & b & E & Hc & Eo). rewrite E. eexists _, ([(if b then EXISTS else UNIQUE, w); (IN, $"IN")] ++ sq :: name_tokens n), (NSet b n). split; [reflexivity|]. split.
    { replace ((w ++ $" " ++ $"IN" ++ $" ") ++ $"SUBQUERY " ++ n) with ((w ++ $" ") ++ ($"" ++ $"IN" ++ $" ") ++ $"SUBQUERY " ++ n) by (rewrite <- !app_assoc; reflexivity).
      apply (cuts_any ends (w ++ $" ") _ [(if b then EXISTS else UNIQUE, w)]); [exact Hc|]. apply (cuts_any ends ($"" ++ $"IN" ++ $" ") _ [(IN, $"IN")]); [key|apply cuts_rel, Hn]. }
    split; [|split; [destruct b; discriminate|split]].
    - intros [|fuel] k Hf Hk; [lia|]. exists fuel. split; [cbn [length app]; lia|]. cbn [app]. assert (P := in_read $"IN" n k Hn Hk). destruct b; cbn [p_expr]; unfold t_call; cbn [p_id simple_id c_start q_start]; rw P; reflexivity.
    - unfold visit. cbn [snd visitExpr]. rewrite subquery_known by exact R. rewrite Eo. reflexivity.
    - apply enum_rel, Hn.
  Qed.
  Lemma compare_reads op red e e' n : op <> CUnspecified -> Expr e e' -> KnownRelation n -> Expr (ECompare op (Some red) (Some e) (Some n)) (ECompare op (Some red) (Some e') (Some n)).
  Proof.
    intros Ho H R depth. assert (Hn := proj1 R). constructor. cbn [printExpr looks_enum print_rel fst snd]. destruct (H depth) as [(t & ts & node & E & Hc & Hp & Hs & Hv & _)]. rewrite E. cbn [obind fst snd].
    assert (X : exists o, print_comparison op = Some o /\ Cuts any (o ++ $" ") [(COMPARISON, o)] /\ comparisonToProto o = op).
    { destruct op; [congruence|exists $"EQ"|exists $"NE"|exists $"LT"|exists $"GT"|exists $"LE"|exists $"GE"]; (split; [reflexivity|split; [|reflexivity]]); apply (cuts_key []); try reflexivity; try discriminate; intros r; reflexivity. }
    destruct X as (o & -> & Hco & Eo).
    set (b := match red with RedAny => true | RedAll => false end). set (w := if b then $"ANY" else $"ALL").
    assert (X : print_reduction (Some red) = Some (w ++ $" ") /\ Cuts any (w ++ $" ") [(if b then ANY else ALL, w)]).
    { subst w b. destruct red; (split; [reflexivity|]); apply (cuts_key []); try reflexivity; try discriminate; intros r; reflexivity. }
    destruct X as [-> Hcw]. eexists _, ((ts ++ [(COMPARISON, o); (if b then ANY else ALL, w)]) ++ sq :: name_tokens n), (NCompare node o b n). split; [reflexivity|]. split.
    { replace ((t ++ $" ") ++ o ++ $" " ++ (w ++ $" ") ++ $"SUBQUERY " ++ n) with (t ++ $" " ++ (o ++ $" ") ++ (w ++ $" ") ++ $"SUBQUERY " ++ n) by (rewrite <- !app_assoc; reflexivity). rewrite <- (app_assoc ts).
      eapply cuts_app; [exact Hc| |intros r _; apply ends_char; [reflexivity|discriminate]]. apply (cuts_any ends $" " _ []); [exact cuts_space|].
      apply (cuts_any ends (o ++ $" ") _ [(COMPARISON, o)]); [exact Hco|]. apply (cuts_any ends (w ++ $" ") _ [(if b then ANY else ALL, w)]); [exact Hcw|apply cuts_rel, Hn]. }
    split; [|split; [destruct ts as [|[x y] ts]; [destruct Hs|exact Hs]|split]].
    - intros fuel k Hf Hk. rewrite !app_length in *. cbn [length] in *. rewrite <- !app_assoc. cbn [app].
      destruct (Hp fuel ((COMPARISON, o) :: (if b then ANY else ALL, w) :: sq :: name_tokens n ++ k) ltac:(lia) eq_refl) as (f' & Hf' & Ef). destruct f' as [|f']; [lia|]. exists f'. split; [lia|]. etransitivity; [exact Ef|].
      cbn [p_casts t_as]. assert (X : t_compare ((COMPARISON, o) :: (if b then ANY else ALL, w) :: sq :: name_tokens n ++ k) = Some (o, b, name_tokens n ++ k)) by (destruct b; reflexivity). rw X. rw (text_read n k Hn Hk). reflexivity.
    - unfold visit in *. cbn [snd visitExpr] in *. rewrite Hv, bindE_good, subquery_known by exact R. rewrite Eo. subst b. destruct red; reflexivity.
    - apply enum_rel, Hn.
  Qed.
  Theorem readable_reads e e' : Readable e e' -> Expr e e'.
  Proof.
    apply readable_ind; [exact literal_reads|exact column_reads|exact function_reads|exact if_reads|exact cast_reads|exact scalar_reads|exact in_reads|exact set_reads|exact compare_reads].
  Qed.
  Theorem readable_read e e' : Readable e e' -> exists t, printExpr function_name field_name 0 e = Ok (t, 0) /\ readExpr find_function find_relation find_field t = Some (Ok (e', [])).
  Proof.
    intros H. destruct (readable_reads e e' H 0) as [(t & ts & node & E & Hc & Hp & Hs & Hv & _)]. exists t. split; [exact E|]. unfold readExpr. rewrite (cuts_tokens _ _ _ Hc I).
    pose proof (parses_whole ts node (S (2 * length ts)) [] Hp ltac:(lia) I (conj eq_refl eq_refl)) as P. rewrite app_nil_r in P. rewrite P. f_equal. exact Hv.
  Qed.
  (** What looks like an enum argument becomes one. *)
  Theorem enum_call f f' n before before' e e' after after' options ty ty' :
      function_name f = Some n -> Name n -> to_lower n <> $"ifthen" -> find_function n = Some f' -> Printable ty ty' ->
      Forall2 (ArgReads Readable) before before' -> Readable e e' -> looks_enum e = true -> Forall2 (ArgReads Readable) after after' ->
      exists t s, printExpr function_name field_name 0 (EFun f (before ++ AValue e :: after) [] options ty) = Ok (t, 0) /\
        readExpr find_function find_relation find_field t = Some (Ok (EFun f' (before' ++ AEnum s :: after') [] [] ty', [])).
  Proof.
    intros H1 H2 H3 H4 H5 Hb He Hl Ha. destruct (enum_looks e e' 1 (readable_reads e e' He) Hl) as (s & Hs).
    assert (X : forall l l', Forall2 (ArgReads Readable) l l' -> Forall2 (Item argument) (map (fun a => match a with
               | AValue e => printExpr function_name field_name 1 e | AEnum s => Ok (s ++ $"_enum", 0) | AType t => Ok (printType t)
               | AUnset => Ok ($"SCALAR_FUNCTION_ARGUMENT_TYPE_MISSING", 1) end) l) l').
    { intros l l' H. induction H as [|a a' l l' Hx _ IH]; constructor; [|exact IH]. destruct Hx as [x x' Hx Hxl|w Hw Hn]; [apply value_item; [apply readable_reads, Hx|exact Hxl]|apply enum_item; assumption]. }
    destruct (call_reads 0 f f' n (before ++ AValue e :: after) [] (before' ++ AEnum s :: after') options ty ty' H1 H2 H3 H4) as [(t & ts & node & E & Hc & Hp & Hst & Hv & _)]; [| |exact H5|].
    - unfold printed_args. rewrite app_nil_r, map_app. cbn [map]. apply Forall2_app; [apply X, Hb|]. constructor; [exact Hs|apply X, Ha].
    - destruct before'; discriminate.
    - exists t, s. split; [exact E|]. unfold readExpr. rewrite (cuts_tokens _ _ _ Hc I).
      pose proof (parses_whole ts node (S (2 * length ts)) [] Hp ltac:(lia) I (conj eq_refl eq_refl)) as P. rewrite app_nil_r in P. rewrite P. f_equal. exact Hv.
  Qed.
End Spec.

(** * Literals by themselves *)
Lemma text_reads l' p find_function find_relation find_field : LitText l' p -> readExpr find_function find_relation find_field (fst p) = Some (Ok (ELit l', [])).
Proof.
  intros [He (ts & c & Hc & Hs & Hp & Hv & Hl & Hn)]. unfold readExpr. rewrite (cuts_tokens _ _ _ Hc I). specialize (Hp (2 * length ts) [] ltac:(lia) I). rewrite app_nil_r in Hp. destruct (const_head ts [] Hs) as [Ec Es]. rewrite app_nil_r in *.
  cbn [p_expr]. rewrite Ec. unfold p_constant_expr. destruct (2 * length ts) as [|n] eqn:E; [lia|].
  destruct (c_start ts); try destruct Es; rewrite Hp; cbn [p_casts t_as t_compare visitExpr]; rewrite Hv, bindE_good; reflexivity.
Qed.
Lemma take_digits_stop s r : forallb is_digit s = true -> match r with c :: _ => is_digit c = false | [] => True end -> take_digits (s ++ r) = s.
Proof.
  intros Hs Hr. induction s as [|c s IH]; cbn [app].
  - destruct r as [|c r]; [reflexivity|]. cbn [take_digits]. rewrite Hr. reflexivity.
  - cbn [forallb] in Hs. apply andb_true_iff in Hs as [Hc Hs]. cbn [take_digits]. rewrite Hc, (IH Hs). reflexivity.
Qed.
Lemma truncated_literal d f e : int32 (Z.of_N d) -> f = [] \/ LFraction f -> e = [] \/ LExponent e -> LitText (Lit (LI32 (Z.of_N d)) false) ((print_N d ++ f ++ e) ++ $"_" ++ $"i32", 0).
Proof.
  intros R Hf He. eapply (number_literal _ (print_N d ++ f ++ e) (PtScalar SI32 NRequired) (PtScalar SI32 NRequired)); [|apply (PR_scalar SI32 NRequired); cbn; tauto|reflexivity| |reflexivity].
  - apply (LN [] (print_N d) f e); auto. split; [apply print_N_nonempty|apply print_N_digits].
  - cbn [visitNumber]. assert (E : stoi (print_N d ++ f ++ e) = Ok (Z.of_N d)); [|rewrite E; reflexivity].
    pose proof (print_N_nonempty d) as Ne. pose proof (print_N_digits d) as D. pose proof (print_N_val d) as V. unfold stoi.
    assert (T : take_digits (print_N d ++ f ++ e) = print_N d).
    { apply take_digits_stop; [exact D|]. destruct Hf as [-> | [x _]]; [|reflexivity]. destruct He as [-> | [a b x Ha _ _]]; [exact I|]. cbn [app]. destruct (is_digit a) eqn:Da; [|reflexivity]. exfalso.
      apply digit_cases in Da. cbn in Da. repeat (destruct Da as [<- | Da]; [discriminate Ha|]). destruct Da. }
    destruct (print_N d) as [|c r]; [congruence|]. cbn [forallb] in D. apply andb_true_iff in D as [Dc D]. assert (Dc' := Dc). apply digit_cases in Dc'.
    assert (W : ~ ws c) by (cbn in Dc'; repeat (destruct Dc' as [<- | Dc']; [intros I; cbv in I; intuition discriminate|]); destruct Dc').
    assert (S1 : ceq c "-" = false) by (cbn in Dc'; repeat (destruct Dc' as [<- | Dc']; [reflexivity|]); destruct Dc').
    assert (S2 : ceq c "+" = false) by (cbn in Dc'; repeat (destruct Dc' as [<- | Dc']; [reflexivity|]); destruct Dc').
    cbn [app] in *. rewrite ltrim_head by exact W. rewrite S1, S2, T, V. unfold int32 in R.
    replace ((-2147483648 <=? Z.of_N d) && (Z.of_N d <=? 2147483647))%Z with true by lia. reflexivity.
Qed.
