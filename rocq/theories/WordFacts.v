(** What the parser makes of the tokens: nothing but what is there, and the words that it takes for words of enumerations are made of ASCII characters. *)
From Verif Require Import Base BaseFacts StringsModel LexModel LexFacts NameModel ExprModel RelModel SectionModel.
From Verif Require EnumModel TrapFacts.
From Coq Require Import Lia.

(** * Tokens *)
Definition plain_word (t : token) : Prop := simple_id (fst t) = true \/ fst t = UNDERSCORE \/ fst t = MINUS -> forallb EnumModel.ascii7 (snd t) = true.
Lemma lower_ascii c : EnumModel.ascii7 (lower c) = true -> EnumModel.ascii7 c = true.
Proof. destruct c as [[] [] [] [] [] [] [] []]; reflexivity || discriminate. Qed.
Lemma to_lower_ascii s : forallb EnumModel.ascii7 (to_lower s) = true -> forallb EnumModel.ascii7 s = true.
Proof. induction s as [|c s IH]; [reflexivity|]. cbn [to_lower map forallb]. intros H. apply andb_true_iff in H as [H1 H2]. rewrite (lower_ascii _ H1). exact (IH H2). Qed.
Lemma word_ascii w s n : forallb EnumModel.ascii7 w = true -> word w s = Some n -> forallb EnumModel.ascii7 (firstn n s) = true.
Proof. rewrite word_len. intros H. destruct (to_lower _ =s w) eqn:E; [|discriminate]. intros Q. injection Q as <-. apply to_lower_ascii. apply seq_eqb_eq in E. rewrite E. exact H. Qed.
Lemma identifier_ascii s n : identifier s = Some n -> forallb EnumModel.ascii7 (firstn n s) = true.
Proof.
  assert (W : forall c, is_word c = true -> EnumModel.ascii7 c = true) by (intros [[] [] [] [] [] [] [] []]; reflexivity || discriminate).
  destruct s as [|c s]; [discriminate|]. cbn [identifier]. destruct (is_alpha c) eqn:A; [|discriminate]. intros Q. injection Q as <-. cbn [firstn forallb]. rewrite (W c) by (unfold is_word; rewrite A; reflexivity). cbn [andb].
  induction s as [|d s IH]; [reflexivity|]. cbn [span]. destruct (is_word d) eqn:D; [|reflexivity]. cbn [firstn forallb]. rewrite (W d D). exact IH.
Qed.
Lemma words_ascii l k f : forallb (fun e => forallb EnumModel.ascii7 (snd e)) l = true -> In (k, f) (words l) -> forall s n, f s = Some n -> forallb EnumModel.ascii7 (firstn n s) = true.
Proof. intros H I s n E. apply in_map_iff in I as ([k' w] & Q & I). injection Q as <- <-. rewrite forallb_forall in H. exact (word_ascii w s n (H _ I) E). Qed.
Lemma next_plain m s k n : next_token m s = Some (k, n) -> plain_word (k, firstn n s).
Proof.
  intros H. apply choose_in in H as [H|(f & I & E)]; [discriminate|]. intros K. cbn [fst snd] in *. destruct m; cbn [rules_of] in I.
  - unfold default_rules in I. rewrite !in_app_iff in I. destruct I as [I|[I|I]]; [refine (words_ascii keywords k f _ I s n E); reflexivity|refine (words_ascii punctuation k f _ I s n E); reflexivity|].
    cbn [In] in I. destruct I as [Q|I]; [injection Q as <- <-; exact (identifier_ascii s n E)|]. repeat (destruct I as [Q|I]; [injection Q as <- _; destruct K as [K|[K|K]]; discriminate K|]). destruct I.
  - unfold extension_rules in I. cbn [In] in I. repeat (destruct I as [Q|I]; [injection Q as <- _; destruct K as [K|[K|K]]; discriminate K|]). destruct I.
Qed.
Lemma tokens_plain s ts : tokens s = Some ts -> Forall plain_word ts.
Proof.
  unfold tokens. destruct (lex_ok _); [|discriminate]. intros H. injection H as <-. unfold pieces. generalize (length s) Default. intros fuel. revert s. induction fuel as [|fuel IH]; intros s m; [destruct s; constructor|]. destruct s as [|c r]; [constructor|]. cbn [cut].
  destruct (next_token m (c :: r)) as [[k n]|] eqn:E; cbn [visible flat_map]; [|apply IH]. apply Forall_app. split; [|apply IH]. destruct (hidden k); constructor; [exact (next_plain _ _ _ _ E)|constructor].
Qed.

(** * The parser *)
Section Keep.
  Variable P : token -> Prop.
  Definition keeps {A} (p : list token -> option (A * list token)) : Prop := forall ts a r, p ts = Some (a, r) -> Forall P ts -> Forall P r.
  Lemma keeps_maybe t ts q r : keeps t -> maybe (t ts) ts = (q, r) -> Forall P ts -> Forall P r.
  Proof. intros K E F. unfold maybe in E. destruct (t ts) as [[a b]|] eqn:T; injection E as <- <-; [exact (K _ _ _ T F)|exact F]. Qed.
  Ltac one_token := intros ts a r E F; destruct ts as [|[[] t] ts]; try discriminate E; injection E as _ <-; inversion F; assumption.
  Lemma k_comma : keeps t_comma. Proof. one_token. Qed.
  Lemma k_number : keeps t_number. Proof. one_token. Qed.
  Lemma k_question : keeps t_question. Proof. one_token. Qed.
  Lemma k_langle : keeps t_langle. Proof. one_token. Qed.
  Lemma k_rangle : keeps t_rangle. Proof. one_token. Qed.
  Lemma k_under : keeps t_under. Proof. one_token. Qed.
  Lemma k_period : keeps t_period. Proof. one_token. Qed.
  Lemma k_colon : keeps t_colon. Proof. one_token. Qed.
  Lemma k_rbrace : keeps t_rbrace. Proof. one_token. Qed.
  Lemma k_lparen : keeps t_lparen. Proof. one_token. Qed.
  Lemma k_rparen : keeps t_rparen. Proof. one_token. Qed.
  Lemma k_arrow : keeps t_arrow. Proof. one_token. Qed.
  Lemma k_as : keeps t_as. Proof. one_token. Qed.
  Lemma k_schema : keeps t_schema. Proof. one_token. Qed.
  Lemma k_subquery : keeps t_subquery. Proof. one_token. Qed.
  Lemma k_id : keeps p_id.
  Proof.
    intros ts a r E F. destruct ts as [|[k t] ts]; [discriminate|]. cbn [p_id] in E. destruct (simple_id k); [|discriminate]. inversion F as [|? ? _ F']; subst. clear F. revert E. generalize false t. clear k t. induction ts as [|[k t] ts IH]; intros b acc E; cbn [id_from] in E.
    - destruct b; [discriminate|]. injection E as _ <-. constructor.
    - inversion F' as [|? ? Hk F2]; subst. destruct k; try exact (IH F2 _ _ E); (destruct b; [|injection E as _ <-; constructor; assumption]); cbn [simple_id] in E; try discriminate E; exact (IH F2 _ _ E).
  Qed.
End Keep.
Global Hint Resolve k_comma k_number k_question k_langle k_rangle k_under k_period k_colon k_rbrace k_lparen k_rparen k_arrow k_as k_schema k_subquery k_id : keep.
Ltac keep1 P :=
  match goal with
  | E : Some _ = Some _ |- _ => injection E; clear E; intros; subst
  | E : None = Some _ |- _ => discriminate E
  | E : maybe (?t ?ts) ?ts = (_, ?r), F : Forall P ?ts |- _ => let K := fresh in assert (K : Forall P r) by (refine (keeps_maybe P t ts _ r _ E F); auto with keep); clear E
  | E : ?p ?ts = Some (_, ?r), F : Forall P ?ts |- _ => let K := fresh in assert (K : Forall P r) by (refine ((_ : keeps P p) ts _ r E F); auto with keep); clear E
  | E : (let '(_, _) := ?x in _) = Some _ |- _ => destruct x eqn:?
  | E : match ?x with _ => _ end = Some _ |- _ => destruct x eqn:?
  | x : (_ * _)%type |- _ => destruct x
  end.
Ltac keep P := repeat keep1 P; try assumption; try (constructor; fail).
Section Parser.
  Variable P : token -> Prop.
  Lemma k_spec fuel : forall acc, keeps P (p_spec fuel acc).
  Proof. induction fuel as [|fuel IH]; intros acc ts a r E F; cbn [p_spec] in E; keep P. Qed.
  Hint Resolve k_spec : keep.
  Lemma k_basic : keeps P p_basic.
  Proof. intros ts a r E F. unfold p_basic in E. keep P. Qed.
  Hint Resolve k_basic : keep.
  Lemma start_t ts : Forall P ts -> match t_start ts with TList _ r | TMap _ r | TStruct _ r => Forall P r | _ => True end.
  Proof. intros F. destruct ts as [|[[] t] ts]; cbn; try exact I; inversion F; assumption. Qed.
  Lemma k_complex fuel : keeps P (p_complex fuel).
  Proof.
    induction fuel as [|fuel IH]; intros ts a r E F; [discriminate|]. cbn [p_complex] in E. pose proof (start_t ts F) as S0.
    assert (Op : keeps P (fun ts => match t_start ts with TNo => Some ([], ts) | _ => p_complex fuel ts end)) by (clear -IH; intros ts a r E F; cbv beta in E; destruct (t_start ts); keep P).
    set (op := fun ts => match t_start ts with TNo => Some ([], ts) | _ => p_complex fuel ts end) in *. clearbody op.
    set (close := fun (acc : str) (ts : list token) => match t_rangle ts with Some (t, r) => Some (acc ++ t, r) | _ => None end) in *.
    assert (Cl : forall acc, keeps P (close acc)) by (clear; intros acc ts a r E F; unfold close in E; keep P). clearbody close.
    cbv zeta in E. destruct (t_start ts) as [|t r0|t r0|t r0|]; [keep P| | | |discriminate].
    - keep P.
    - destruct (maybe _ _) as [q r1] eqn:? in E. destruct (t_langle r1) as [[l r2]|] eqn:?; [|discriminate]. assert (F2 : Forall P r2) by keep P.
      destruct (match t_start r2 with TBasic => p_basic r2 | _ => Some ([], r2) end) as [[x r3]|] eqn:E1; [|discriminate]. assert (F3 : Forall P r3) by (clear -E1 F2; destruct (t_start r2); keep P). clear E1. keep P.
    - destruct (maybe _ _) as [q r1] eqn:? in E. destruct (t_langle r1) as [[l r2]|] eqn:?; [|discriminate]. assert (F2 : Forall P r2) by keep P.
      match type of E with match ?z with _ => _ end = _ => destruct z as [[x r3]|] eqn:E1; [|discriminate E] end. assert (F3 : Forall P r3) by (clear -E1 F2 IH; destruct (t_start r2); keep P). clear -E F3 IH Cl.
      revert E. generalize (length r3) ((t ++ q ++ l) ++ x). intros n. revert F3. revert r3. induction n as [|n IHn]; intros r3 F3 acc E; [keep P|]. destruct (t_comma r3) as [[c r4]|] eqn:?; [|keep P]. destruct (p_complex fuel r4) as [[b r5]|] eqn:?; [|discriminate]. refine (IHn r5 _ _ E). keep P.
  Qed.
  Hint Resolve k_complex : keep.
  Lemma k_suffix A p (f : option str -> A) : keeps P p -> keeps P (p_suffix p f).
  Proof. intros K ts a r E F. unfold p_suffix in E. keep P. Qed.
  Hint Resolve k_suffix : keep.
  Lemma start_c ts : Forall P ts -> match c_start ts with SNumber _ r | SStr _ r | STrue r | SFalse r | SNull r | SBrace r => Forall P r | SNo => True end.
  Proof. intros F. destruct ts as [|[[] t] ts]; cbn; try exact I; inversion F; assumption. Qed.
  Section Listing.
    Context {A : Type}.
    Variable p : list token -> option (A * list token).
    Definition more_of :=
      fix more (n : nat) (ts : list token) : option (list A * list token) :=
        match t_rbrace ts with
        | Some (_, r) => Some ([], r)
        | None => match n, t_comma ts with
                  | S n, Some (_, r) =>
                      match p r with
                      | Some (x, r) => match more n r with Some (l, r) => Some (x :: l, r) | None => None end
                      | None => None
                      end
                  | _, _ => None
                  end
        end.
    Lemma k_more n : keeps P p -> keeps P (more_of n).
    Proof.
      intros K. induction n as [|n IH]; intros ts a r E F.
      - cbn [more_of] in E. keep P.
      - change (match t_rbrace ts with
        | Some (_, r) => Some ([], r)
        | None => match t_comma ts with
                  | Some (_, r) => match p r with Some (x, r) => match more_of n r with Some (l, r) => Some (x :: l, r) | None => None end | None => None end
                  | _ => None
                  end
        end = Some (a, r)) in E. keep P.
    Qed.
  End Listing.
  Hint Resolve k_more : keep.
  Definition pair_of (fuel : nat) (ts : list token) : option ((cnode * cnode) * list token) :=
    match p_constant fuel ts with
    | Some (k, r) => match t_colon r with Some (_, r) => match p_constant fuel r with Some (v, r) => Some ((k, v), r) | None => None end | None => None end
    | None => None
    end.
  Definition listed_of {A} (fuel : nat) (p : list token -> option (A * list token)) (f : list A -> option str -> cnode) (ts : list token) : option (cnode * list token) :=
    match p ts with
    | Some (x, r) => match more_of p (length r) r with Some (l, r) => p_suffix (p_complex fuel) (f (x :: l)) r | None => None end
    | None => None
    end.
  Lemma constant_S fuel ts : p_constant (S fuel) ts =
    match c_start ts with
    | SNumber t r => p_suffix p_basic (CNumber t) r
    | SStr t r => p_suffix p_basic (CString t) r
    | STrue r => p_suffix p_basic CTrue r
    | SFalse r => p_suffix p_basic CFalse r
    | SNull r => p_suffix (p_complex fuel) CNull r
    | SBrace r =>
        match t_rbrace r with
        | Some (_, r) => p_suffix (p_complex fuel) (CMap []) r
        | None => match p_constant fuel r with
                  | Some (_, r') => match t_colon r' with Some _ => listed_of fuel (pair_of fuel) CMap r | None => listed_of fuel (p_constant fuel) CStruct r end
                  | None => None
                  end
        end
    | SNo => None
    end.
  Proof. reflexivity. Qed.
  Lemma k_listed A fuel p (f : list A -> option str -> cnode) : keeps P p -> keeps P (listed_of fuel p f).
  Proof. intros K ts a r E F. unfold listed_of in E. keep P. Qed.
  Hint Resolve k_listed : keep.
  Lemma k_constant fuel : keeps P (p_constant fuel).
  Proof.
    induction fuel as [|fuel IH]; intros ts a r E F; [discriminate|]. rewrite constant_S in E. pose proof (start_c ts F) as S0.
    assert (Kp : keeps P (pair_of fuel)) by (clear -IH; intros ts a r E F; unfold pair_of in E; keep P).
    destruct (c_start ts) as [t r0|t r0|r0|r0|r0|r0|]; try discriminate; keep P.
  Qed.
  Hint Resolve k_constant : keep.
  Lemma k_ref : keeps P p_ref.
  Proof. intros ts a r E F. unfold p_ref in E. keep P. Qed.
  Hint Resolve k_ref : keep.
  Lemma k_text : keeps P p_text.
  Proof. intros ts a r E F. unfold p_text in E. keep P. Qed.
  Hint Resolve k_text : keep.
  Lemma k_subq : keeps P p_subquery.
  Proof. intros ts a r E F. unfold p_subquery in E. keep P. Qed.
  Hint Resolve k_subq : keep.
  Lemma k_in : keeps P p_in_subquery.
  Proof. intros ts a r E F. unfold p_in_subquery in E. destruct ts as [|[[] t] ts]; try discriminate E. inversion F; subst. keep P. Qed.
  Hint Resolve k_in : keep.
  Lemma k_compare : keeps P t_compare.
  Proof.
    intros ts a r E F. destruct ts as [|[k t] ts]; [discriminate E|]. destruct k; try discriminate E. destruct ts as [|[k t2] ts]; [discriminate E|]. inversion F as [|? ? _ F1]; inversion F1 as [|? ? _ F2]; subst.
    destruct k; try discriminate E; (destruct ts as [|[k t3] ts]; [discriminate E|]; destruct k; try discriminate E; injection E as _ <-; inversion F2; assumption).
  Qed.
  Hint Resolve k_compare : keep.
  Lemma k_column : keeps P p_column.
  Proof. intros ts a r E F. unfold p_column in E. keep P. Qed.
  Hint Resolve k_column : keep.
  Lemma k_constant_expr fuel : keeps P (p_constant_expr fuel).
  Proof. intros ts a r E F. unfold p_constant_expr in E. keep P. Qed.
  Hint Resolve k_constant_expr : keep.
  Lemma k_null fuel : keeps P (p_null_expr fuel).
  Proof. intros ts a r E F. unfold p_null_expr in E. keep P. Qed.
  Hint Resolve k_null : keep.
  Lemma k_casts fuel : forall e, keeps P (p_casts fuel e).
  Proof. induction fuel as [|fuel IH]; intros e ts a r E F; cbn [p_casts] in E; keep P. Qed.
  Hint Resolve k_casts : keep.
  Lemma k_call : keeps P t_call.
  Proof. intros ts a r E F. unfold t_call in E. keep P. Qed.
  Hint Resolve k_call : keep.
  Lemma start_q ts : Forall P ts -> match q_start ts with QSet _ r | QList r => Forall P r | _ => True end.
  Proof. intros F. destruct ts as [|[[] t] ts]; cbn; try exact I; inversion F; assumption. Qed.
  Lemma k_expr fuel : keeps P (p_expr fuel) /\ keeps P (p_args fuel) /\ keeps P (p_list fuel).
  Proof.
    induction fuel as [|fuel (IH1 & IH2 & IH3)]; [repeat split; intros ts a r E; discriminate E|]. repeat split; intros ts a r E F.
    - cbn [p_expr] in E. pose proof (start_c ts F) as S0. pose proof (start_q ts F) as S1.
      match type of E with match ?x with _ => _ end = _ => destruct x as [[e r0]|] eqn:E0; [|discriminate] end.
      assert (F0 : Forall P r0) by (clear E; keep P). clear E0. keep P.
    - cbn [p_args] in E. keep P.
    - cbn [p_list] in E. keep P.
  Qed.
  Lemma k_e : keeps P p_e.
  Proof. intros ts a r. apply (proj1 (k_expr _)). Qed.
  Hint Resolve k_e : keep.
End Parser.
Global Hint Resolve k_complex k_constant k_ref k_text k_column k_e k_null k_constant_expr k_call k_in k_subq : keep.

Section Rest.
  Variable P : token -> Prop.
  Ltac one_token := intros ts a r E F; destruct ts as [|[[] t] ts]; try discriminate E; injection E as _ <-; inversion F; assumption.
  Lemma k_semicolon : keeps P t_semicolon. Proof. one_token. Qed.
  Lemma k_lbrace : keeps P t_lbrace. Proof. one_token. Qed.
  Lemma k_minus : keeps P t_minus. Proof. one_token. Qed.
  Lemma k_at : keeps P t_at. Proof. one_token. Qed.
  Lemma k_nam : keeps P t_named. Proof. one_token. Qed.
  Lemma k_by : keeps P t_by. Proof. one_token. Qed.
  Lemma k_filter : keeps P t_filter. Proof. one_token. Qed.
  Lemma k_relation : keeps P t_relation. Proof. one_token. Qed.
  Lemma k_equal : keeps P t_equal. Proof. one_token. Qed.
  Lemma k_lbracket : keeps P t_lbracket. Proof. one_token. Qed.
  Lemma k_rbracket : keeps P t_rbracket. Proof. one_token. Qed.
  Lemma k_names : keeps P t_names. Proof. one_token. Qed.
  Lemma k_items : keeps P t_items. Proof. one_token. Qed.
  Lemma k_advanced : keeps P t_advanced. Proof. one_token. Qed.
  Lemma k_string : keeps P t_string. Proof. one_token. Qed.
  Lemma k_function : keeps P t_function. Proof. one_token. Qed.
  Lemma k_uri : keeps P t_uri. Proof. one_token. Qed.
  Hint Resolve k_semicolon k_lbrace k_minus k_at k_nam k_by k_filter k_relation k_equal k_lbracket k_rbracket k_names k_items k_advanced k_string k_function k_uri : keep.
  Lemma k_semi A (a : A) : keeps P (p_semi a).
  Proof. intros ts b r E F. unfold p_semi in E. keep P. Qed.
  Hint Resolve k_semi : keep.
  Lemma k_after t : keeps P t -> keeps P (p_after t).
  Proof. intros K ts b r E F. unfold p_after in E. keep P. Qed.
  Hint Resolve k_after : keep.
  Lemma k_line A B p (f : A -> B) : keeps P p -> keeps P (p_line p f).
  Proof. intros K ts b r E F. unfold p_line in E. keep P. Qed.
  Hint Resolve k_line : keep.
  Lemma k_sort B (f : enode -> option str -> B) : keeps P (p_sort f).
  Proof. intros ts b r E F. unfold p_sort in E. keep P. Qed.
  Hint Resolve k_sort : keep.
  Lemma start_m ts : Forall P ts -> match m_start ts with HmMeasure r | HmFilter r | HmInvocation r | HmSort r => Forall P r | HmNo => True end.
  Proof. intros F. destruct ts as [|[[] t] ts]; cbn; try exact I; inversion F; assumption. Qed.
  Lemma k_mdetail : keeps P p_mdetail.
  Proof. intros ts a r E F. unfold p_mdetail in E. pose proof (start_m ts F) as S0. destruct (m_start ts); keep P. Qed.
  Hint Resolve k_mdetail : keep.
  Lemma k_many A (p : list token -> option (A * list token)) fuel : keeps P p -> keeps P (p_many p fuel).
  Proof. intros K. induction fuel as [|fuel IH]; intros ts b r E F; cbn [p_many] in E; keep P. Qed.
  Hint Resolve k_many : keep.
  Lemma start_d ts : Forall P ts -> match d_start ts with HCommon r | HSchema r | HFilter r | HExpression r | HAdvanced r | HSource r | HGrouping r | HMeasure r | HSort r | HCount r | HType r | HEmit r => Forall P r | HOther => True end.
  Proof. intros F. destruct ts as [|[[] t] ts]; cbn; try exact I; inversion F; assumption. Qed.
  Lemma k_behavior : keeps P p_behavior.
  Proof. intros ts b r E F. unfold p_behavior in E. keep P. Qed.
  Hint Resolve k_behavior : keep.
  Lemma k_detail : keeps P p_detail.
  Proof. intros ts a r E F. unfold p_detail in E. pose proof (start_d ts F) as S0. destruct (d_start ts); keep P. Qed.
  Hint Resolve k_detail : keep.
  Lemma k_rel : keeps P p_relation.
  Proof. intros ts a r E F. unfold p_relation in E. keep P. Qed.
  Hint Resolve k_rel : keep.
  Lemma k_bracketed A (p : list token -> option (A * list token)) fuel : keeps P p -> keeps P (p_listed p fuel).
  Proof. intros K. induction fuel as [|fuel IH]; intros ts b r E F; cbn [p_listed] in E; keep P. Qed.
  Hint Resolve k_bracketed : keep.
  Lemma k_brackets A (p : list token -> option (A * list token)) : keeps P p -> keeps P (p_brackets p).
  Proof. intros K ts b r E F. unfold p_brackets in E. keep P. Qed.
  Hint Resolve k_brackets : keep.
  Lemma k_elem : keeps P p_elem.
  Proof. intros ts b r E F. unfold p_elem in E. keep P. Qed.
  Hint Resolve k_elem : keep.
  Lemma k_arrows fuel : keeps P (p_arrows fuel).
  Proof. induction fuel as [|fuel IH]; intros ts b r E F; cbn [p_arrows] in E; keep P. Qed.
  Hint Resolve k_arrows : keep.
  Lemma k_pipeline : keeps P p_pipeline.
  Proof. intros ts b r E F. unfold p_pipeline in E. keep P. Qed.
  Hint Resolve k_pipeline : keep.
  Lemma k_item : keeps P p_item.
  Proof. intros ts b r E F. unfold p_item in E. keep P. Qed.
  Hint Resolve k_item : keep.
  Lemma start_f ts : Forall P ts -> match f_head ts with HPartition r | HStart r | HLength r | HOrc r | HParquet r | HLocation _ r => Forall P r | HNone => True end.
  Proof. intros F. destruct ts as [|[[] t] ts]; cbn; try exact I; inversion F; assumption. Qed.
  Lemma k_colons A B t (f : A -> B) : keeps P t -> keeps P (p_colon t f).
  Proof. intros K ts b r E F. unfold p_colon in E. keep P. Qed.
  Hint Resolve k_colons : keep.
  Lemma k_braces : keeps P t_braces.
  Proof. intros ts b r E F. unfold t_braces in E. keep P. Qed.
  Hint Resolve k_braces : keep.
  Lemma k_fdetail : keeps P p_fdetail.
  Proof. intros ts b r E F. unfold p_fdetail in E. pose proof (start_f ts F) as S0. destruct (f_head ts); keep P. Qed.
  Hint Resolve k_fdetail : keep.
  Lemma k_file : keeps P p_file.
  Proof. intros ts b r E F. unfold p_file in E. keep P. Qed.
  Hint Resolve k_file : keep.
  Lemma k_unit ts r : p_unit_id ts = Some r -> Forall P ts -> Forall P r.
  Proof. intros E F. unfold p_unit_id in E. keep P. Qed.
  Lemma k_local : keeps P p_local.
  Proof. intros ts b r E F. unfold p_local, p_unit_id in E. keep P. Qed.
  Lemma k_name : keeps P p_named.
  Proof. intros ts b r E F. unfold p_named, p_unit_id in E. keep P. Qed.
  Hint Resolve k_local k_name : keep.
  Lemma k_in_braces A B (p : list token -> option (A * list token)) (f : list A -> B) : keeps P p -> keeps P (p_in_braces p f).
  Proof. intros K ts b r E F. unfold p_in_braces in E. keep P. Qed.
  Hint Resolve k_in_braces : keep.
  Lemma k_signature : keeps P p_signature.
  Proof. intros ts b r E F. unfold p_signature in E. destruct ts as [|[k t] ts]; [keep P|]. destruct (simple_id k); keep P. Qed.
  Hint Resolve k_signature : keep.
  Lemma k_fun : keeps P p_function.
  Proof. intros ts b r E F. unfold p_function in E. keep P. Qed.
  Hint Resolve k_fun : keep.
  Lemma start_p ts : Forall P ts -> match p_start ts with HPipelines r | HRoot r | HPSchema r | HLocal r | HVirtual r | HNamed r | HExtensionTable r | HSpace r => Forall P r | HRelation => True end.
  Proof.
    intros F. destruct ts as [|[k t] ts]; [exact I|]. inversion F as [|? ? _ F1]; subst. destruct k; try exact I; cbn [p_start]; try assumption.
    - destruct (goes_on ts); [exact I|assumption].
    - destruct ts as [|[k t2] ts]; [exact I|]. inversion F1; subst. destruct k; try exact I; assumption.
    - destruct (t_lbrace ts) as [[x r]|] eqn:E; [|exact I]. exact (k_lbrace _ _ _ E F1).
  Qed.
  Lemma k_titled A (p : list token -> option (A * list token)) f : keeps P p -> keeps P (p_titled p f).
  Proof. intros K ts b r E F. unfold p_titled in E. keep P. Qed.
  Hint Resolve k_titled : keep.
  Lemma k_plan_detail : keeps P p_plan_detail.
  Proof. intros ts b r E F. unfold p_plan_detail in E. pose proof (start_p ts F) as S0. destruct (p_start ts); keep P. Qed.
End Rest.

(** * The words *)
Lemma id_plain ts n r : p_id ts = Some (n, r) -> Forall plain_word ts -> forallb EnumModel.ascii7 n = true.
Proof.
  intros E F. destruct ts as [|[k t] ts]; [discriminate|]. cbn [p_id] in E. destruct (simple_id k) eqn:K; [|discriminate]. inversion F as [|? ? W F']; subst. specialize (W (or_introl K)). cbn [snd] in W. clear F K. revert E W. generalize false t. clear k t.
  induction ts as [|[k t] ts IH]; intros b acc E W; cbn [id_from] in E.
  - destruct b; [discriminate|]. injection E as <- _. exact W.
  - inversion F' as [|? ? Hk F2]; subst.
    assert (A : simple_id k = true \/ k = UNDERSCORE -> forallb EnumModel.ascii7 (acc ++ t) = true) by (intros [Q|Q]; rewrite forallb_app, W; apply Hk; cbn [fst]; auto).
    destruct (simple_id k) eqn:K; [|destruct k; try discriminate K; try (destruct b; [discriminate E|]; injection E as <- _; exact W); exact (IH F2 _ _ E (A (or_intror eq_refl)))].
    specialize (A (or_introl eq_refl)). destruct k; try discriminate K; (destruct b; [exact (IH F2 _ _ E A)|injection E as <- _; exact W]).
Qed.
Lemma after_plain t ts n r : keeps plain_word t -> p_after t ts = Some (Some n, r) -> Forall plain_word ts -> forallb EnumModel.ascii7 n = true.
Proof. intros K E F. unfold p_after in E. destruct (t ts) as [[x r1]|] eqn:T; [|discriminate]. pose proof (K _ _ _ T F) as F1. destruct (p_id r1) as [[m r2]|] eqn:I; [|discriminate]. injection E as -> _. exact (id_plain _ _ _ I F1). Qed.
Lemma mdetail_plain ts d r : p_mdetail ts = Some (d, r) -> Forall plain_word ts -> Forall (fun w => forallb EnumModel.ascii7 w = true) (TrapFacts.mdetail_words d).
Proof.
  intros E F. unfold p_mdetail in E. pose proof (start_m _ ts F) as S0. destruct (m_start ts) as [r0|r0|r0|r0|]; [| | | |discriminate].
  - destruct (p_e r0) as [[e r1]|] eqn:E1; [|discriminate]. pose proof (k_e _ _ _ _ E1 S0) as F1.
    match type of E with match ?z with _ => _ end = _ => destruct z as [[ty r3]|] eqn:E2; [|discriminate E] end. assert (F3 : Forall plain_word r3) by (clear E; keep plain_word). clear E2.
    destruct (p_after t_at r3) as [[a r4]|] eqn:E4; [|discriminate]. pose proof (k_after _ _ (k_at _) _ _ _ E4 F3) as F4. destruct (p_after t_named r4) as [[n r5]|] eqn:E5; [|discriminate]. unfold p_semi in E. destruct (t_semicolon r5) as [[x r6]|]; [|discriminate]. injection E as <- _.
    destruct a as [a|]; cbn [listed app TrapFacts.mdetail_words]; [repeat constructor; exact (after_plain _ _ _ _ (k_at _) E4 F3)|]. destruct n as [n|]; cbn [listed]; repeat constructor. exact (after_plain _ _ _ _ (k_nam _) E5 F4).
  - unfold p_line in E. destruct (p_e r0) as [[e r1]|]; [|discriminate]. unfold p_semi in E. destruct (t_semicolon r1) as [[x r2]|]; [|discriminate]. injection E as <- _. constructor.
  - unfold p_line in E. destruct (p_id r0) as [[e r1]|] eqn:E1; [|discriminate]. unfold p_semi in E. destruct (t_semicolon r1) as [[x r2]|]; [|discriminate]. injection E as <- _. repeat constructor. exact (id_plain _ _ _ E1 S0).
  - unfold p_sort in E. destruct (p_e r0) as [[e r1]|] eqn:E1; [|discriminate]. pose proof (k_e _ _ _ _ E1 S0) as F1. destruct (p_after t_by r1) as [[b r2]|] eqn:E2; [|discriminate]. unfold p_semi in E. destruct (t_semicolon r2) as [[x r3]|]; [|discriminate]. injection E as <- _.
    destruct b as [b|]; repeat constructor. exact (after_plain _ _ _ _ (k_by _) E2 F1).
Qed.
Lemma many_each {A} (p : list token -> option (A * list token)) (Q : A -> Prop) fuel : keeps plain_word p -> (forall ts a r, p ts = Some (a, r) -> Forall plain_word ts -> Q a) -> forall ts l r, p_many p fuel ts = Some (l, r) -> Forall plain_word ts -> Forall Q l.
Proof.
  intros K H. induction fuel as [|fuel IH]; intros ts l r E F; cbn [p_many] in E; (destruct (t_rbrace ts) as [[x r0]|]; [injection E as <- _; constructor|]); [discriminate|].
  destruct (p ts) as [[a r1]|] eqn:E1; [|discriminate]. destruct (p_many p fuel r1) as [[l2 r2]|] eqn:E2; [|discriminate]. injection E as <- _. constructor; [exact (H _ _ _ E1 F)|exact (IH _ _ _ E2 (K _ _ _ E1 F))].
Qed.
Lemma behavior_plain ts w r : p_behavior ts = Some (w, r) -> Forall plain_word ts -> forallb EnumModel.ascii7 w = true.
Proof.
  intros E F. unfold p_behavior in E. destruct (p_id ts) as [[a r1]|] eqn:E1; [|discriminate]. pose proof (id_plain _ _ _ E1 F) as Wa. pose proof (k_id _ _ _ _ E1 F) as F1. destruct (t_filter r1) as [[x r2]|]; [injection E as <- _; exact Wa|].
  destruct (maybe (t_minus r1) r1) as [m r2] eqn:M. assert (Wm : forallb EnumModel.ascii7 m = true /\ Forall plain_word r2). { unfold maybe in M. destruct (t_minus r1) as [[y r3]|] eqn:T; injection M as <- <-; [|split; [reflexivity|exact F1]]. split; [|exact (k_minus _ _ _ _ T F1)]. destruct r1 as [|[k t] r1]; [discriminate|]. destruct k; try discriminate T. injection T as <- _. inversion F1 as [|? ? W _]; subst. apply W. right. right. reflexivity. }
  destruct Wm as [Wm F2]. destruct (p_id r2) as [[b r3]|] eqn:E3; [|discriminate]. destruct (t_filter r3) as [[y r4]|]; [|discriminate]. injection E as <- _. rewrite !forallb_app, Wa, Wm. exact (id_plain _ _ _ E3 F2).
Qed.
Lemma detail_plain ts d r : p_detail ts = Some (d, r) -> Forall plain_word ts -> Forall (fun w => forallb EnumModel.ascii7 w = true) (TrapFacts.detail_words d).
Proof.
  intros E F. unfold p_detail in E. pose proof (start_d _ ts F) as S0. destruct (d_start ts) as [r0|r0|r0|r0|r0|r0|r0|r0|r0|r0|r0|r0|];
    try (unfold p_line in E; repeat match type of E with match ?z with _ => _ end = _ => destruct z as [[? ?]|]; [|discriminate E] end; unfold p_semi in E; match type of E with match ?z with _ => _ end = _ => destruct z as [[? ?]|]; [|discriminate E] end; injection E as <- _; exact (Forall_nil _)).
  - destruct (t_lbrace r0) as [[x r1]|] eqn:E1; [|discriminate]. pose proof (k_lbrace _ _ _ _ E1 S0) as F1. destruct (p_many p_mdetail (length r1) r1) as [[l r2]|] eqn:E2; [|discriminate]. injection E as <- _. cbn [TrapFacts.detail_words].
    pose proof (many_each p_mdetail _ _ (k_mdetail _) mdetail_plain _ _ _ E2 F1) as L. clear -L. induction L as [|d l Hd _ IH]; [constructor|]. cbn [flat_map]. apply Forall_app. split; assumption.
  - unfold p_sort in E. destruct (p_e r0) as [[e r1]|] eqn:E1; [|discriminate]. pose proof (k_e _ _ _ _ E1 S0) as F1. destruct (p_after t_by r1) as [[b r2]|] eqn:E2; [|discriminate]. unfold p_semi in E. destruct (t_semicolon r2) as [[x r3]|]; [|discriminate]. injection E as <- _.
    destruct b as [b|]; repeat constructor. exact (after_plain _ _ _ _ (k_by _) E2 F1).
  - unfold p_line in E. destruct (p_id r0) as [[e r1]|] eqn:E1; [|discriminate]. unfold p_semi in E. destruct (t_semicolon r1) as [[x r2]|]; [|discriminate]. injection E as <- _. repeat constructor. exact (id_plain _ _ _ E1 S0).
  - destruct (p_behavior ts) as [[b r0]|] eqn:E0; [|discriminate]. unfold p_line in E. destruct (p_e r0) as [[e r1]|] eqn:E1; [|discriminate]. unfold p_semi in E. destruct (t_semicolon r1) as [[x r2]|]; [|discriminate]. injection E as <- _. repeat constructor. exact (behavior_plain _ _ _ E0 F).
Qed.
Definition node_plain (n : pnode) : Prop := match n with PRelation n => forall d w, In d (n_details n) -> In w (TrapFacts.detail_words d) -> forallb EnumModel.ascii7 w = true | _ => True end.
Lemma node_of ts n r : p_plan_detail ts = Some (n, r) -> Forall plain_word ts -> node_plain n.
Proof.
  intros E F. unfold p_plan_detail in E. destruct (p_start ts);
    try (unfold p_titled, p_in_braces in E; repeat match type of E with match ?z with _ => _ end = _ => destruct z as [[? ?]|]; try discriminate E end; injection E as <- _; exact I).
  destruct (p_relation ts) as [[m r0]|] eqn:E0; [|discriminate]. injection E as <- _. cbn [node_plain]. unfold p_relation in E0.
  destruct (p_id ts) as [[k r1]|] eqn:E1; [|discriminate]. destruct (t_relation r1) as [[x r2]|] eqn:E2; [|discriminate]. destruct (p_ref r2) as [[n r3]|] eqn:E3; [|discriminate]. destruct (t_lbrace r3) as [[y r4]|] eqn:E4; [|discriminate].
  destruct (p_many p_detail (length r4) r4) as [[l r5]|] eqn:E5; [|discriminate]. injection E0 as <- _. cbn [n_details].
  pose proof (k_lbrace _ _ _ _ E4 (k_ref _ _ _ _ E3 (k_relation _ _ _ _ E2 (k_id _ _ _ _ E1 F)))) as F4. pose proof (many_each p_detail _ _ (k_detail _) detail_plain _ _ _ E5 F4) as L. rewrite Forall_forall in L. intros d w D W. pose proof (L d D) as Ld. rewrite Forall_forall in Ld. exact (Ld w W).
Qed.
Theorem parsed_words s nodes n d w : parse s = Some nodes -> In (PRelation n) nodes -> In d (n_details n) -> In w (TrapFacts.detail_words d) -> forallb EnumModel.ascii7 w = true.
Proof.
  intros E I. unfold parse in E. destruct (tokens s) as [ts|] eqn:T; [|discriminate]. pose proof (tokens_plain _ _ T) as F. clear T.
  assert (G : Forall node_plain nodes); [|rewrite Forall_forall in G; exact (G _ I d w)].
  clear I n d w. revert E F. generalize (length ts). intros fuel. revert ts nodes. induction fuel as [|fuel IH]; intros ts nodes E F; destruct ts as [|t ts]; cbn [p_plan] in E; try discriminate; try (injection E as <-; constructor).
  destruct (p_plan_detail (t :: ts)) as [[n r]|] eqn:E1; [|discriminate]. destruct (p_plan fuel r) as [l|] eqn:E2; [|discriminate]. injection E as <-. constructor; [exact (node_of _ _ _ E1 F)|exact (IH _ _ E2 (k_plan_detail _ _ _ _ E1 F))].
Qed.
