(** Theorems about literals written in texts. *)
From Verif Require Import Base BaseFacts StringsModel StringsFacts EscapeModel EscapeFacts DecimalModel TypeModel TypeFacts TypeTextFacts TypeProtoFacts LexModel LexFacts NameModel NameFacts CutFacts FloatModel CalendarModel CalendarFacts
  TimeModel TimeFacts ExprModel TypeTokenFacts LiteralFacts ExprFacts FirstFacts WrittenFacts.
From Coq Require Import ZArith Lia ZifyBool ZifyNat ZifyN.

(** * C89: literals written in a text mean what they say *)
(** The text [s] is the constant [c] with a type [t] next to it. *)
Definition Constant (s : str) (c : cnode) (t : ptype) : Prop :=
  exists ts w, tokens s = Some ts /\ Written c ts /\ (forall x, ~ In (LEFTPAREN, x) ts) /\ type_of c = Some w /\ textToTypeProto (in_braces c) w = Ok (t, []).
Lemma constant_reads s c t find_function find_relation find_field : Constant s c t ->
  readExpr find_function find_relation find_field s = Some (bindE (visitConst false c (Some t)) (fun l => good (ELit l))).
Proof.
  intros (ts & w & T & W & N & Y & R). unfold readExpr. rewrite T, (written_expr c ts W N). cbn [visitExpr]. unfold visitConstant. rewrite (typed_const c w Y). unfold read_type. rewrite R. cbn [obind fst snd map]. rewrite bindE_good. reflexivity.
Qed.
(** A constant with a type is read as what it means for this type, *)
Theorem C89_text s c ts w ty l find_function find_relation find_field :
  tokens s = Some ts -> Written c ts -> (forall x, ~ In (LEFTPAREN, x) ts) -> type_of c = Some w -> Txt ty w -> null_ok ty = true -> fits ty = true -> has_fixedbinary ty = false ->
  Means c (proto_of ty) l -> readExpr find_function find_relation find_field s = Some (Ok (ELit l, [])).
Proof.
  intros T W N Y X U F B M. destruct (TypeProtoFacts.text_reads (in_braces c) ty w X U) as (y & errs & E & P & Q & _). rewrite (P F B), (Q F) in E.
  rewrite (constant_reads s c (proto_of ty)) by (exists ts, w; auto). rewrite (const_complete _ _ _ M false). reflexivity.
Qed.
(** and what is read as a literal without errors is a constant that means this literal for the type written, or one of the listed oddities. *)
Theorem C89_sound s l find_function find_relation find_field : readExpr find_function find_relation find_field s = Some (Ok (ELit l, [])) ->
  exists c, ParsedAs s (NConst c) /\
    match type_of c with
    | Some w => exists t, textToTypeProto (in_braces c) w = Ok (t, []) /\ (Means c t l \/ Odd c t)
    | None => c = CTrue None /\ l = Lit (LBool true) false \/ c = CFalse None /\ l = Lit (LBool false) false \/ exists q t, c = CString q None /\ evalString q = Some (t, []) /\ l = Lit (LString t) false
    end.
Proof.
  unfold readExpr. destruct (tokens s) as [ts|] eqn:T; [|discriminate]. destruct (p_expr (S (2 * length ts)) ts) as [[node [|? ?]]|] eqn:P; try discriminate.
  intros H. injection H as H. apply visit_literal in H as (c & -> & H). exists c. split; [exists ts; auto|]. destruct (type_of c) as [w|] eqn:Y.
  - rewrite (typed_const c w Y) in H. apply bindE_ok in H as (t & R & H). exists t. split; [|apply (const_sound c false t l H)]. unfold read_type in R.
    destruct (textToTypeProto (in_braces c) w) as [[y e]| |]; try discriminate. injection R as <- R. destruct e; [reflexivity|discriminate].
  - destruct c as [n ty|q ty|ty|ty|ty|m ty|m ty]; cbn [type_of] in Y; subst ty; cbn in H; try discriminate H.
    + right. right. exists q. unfold visitString in H. destruct (evalString q) as [[t e]|]; [|discriminate]. exists t. cbn in H. injection H as <- H. destruct e; [auto|discriminate].
    + left. injection H as <-. auto.
    + right. left. injection H as <-. auto.
Qed.
(** What is neither is not accepted. *)
Theorem C89_reported s c t find_function find_relation find_field : Constant s c t -> (forall l, ~ Means c t l) -> ~ Odd c t ->
  forall e, readExpr find_function find_relation find_field s <> Some (Ok (e, [])).
Proof.
  intros C M O e H. rewrite (constant_reads s c t) in H by exact C. injection H as H. apply bindE_ok in H as (l & H & _). destruct (const_sound c false t l H) as [X|X]; [apply (M l X)|apply (O X)].
Qed.
(** Without types: booleans and strings are read, other constants are errors. *)
Theorem C89_untyped s c ts find_function find_relation find_field : tokens s = Some ts -> Written c ts -> (forall x, ~ In (LEFTPAREN, x) ts) -> type_of c = None ->
  match c with
  | CTrue _ => readExpr find_function find_relation find_field s = Some (Ok (ELit (Lit (LBool true) false), []))
  | CFalse _ => readExpr find_function find_relation find_field s = Some (Ok (ELit (Lit (LBool false) false), []))
  | CString q _ => forall t, evalString q = Some (t, []) -> readExpr find_function find_relation find_field s = Some (Ok (ELit (Lit (LString t) false), []))
  | CNull _ => readExpr find_function find_relation find_field s = Some (Ok (ELit (Lit LUnset false), [XNullType]))
  | _ => readExpr find_function find_relation find_field s = Some (Ok (ELit (Lit LUnset false), [XNoType]))
  end.
Proof.
  intros T W N Y. unfold readExpr. rewrite T, (written_expr c ts W N). destruct c as [n ty|q ty|ty|ty|ty|m ty|m ty]; cbn [type_of] in Y; subst ty; try reflexivity.
  intros t E. cbn [visitExpr]. unfold visitConstant. cbn [visitConst type_of]. unfold visitString. rewrite E. reflexivity.
Qed.
(** Findings.  A number with a type that is none of numbers is read as a literal without a value, and nothing is reported. *)
Theorem C89_number_refuted s n ty k q find_function find_relation find_field : Constant s (CNumber n ty) (PtScalar k q) -> ~ In k [SI8; SI16; SI32; SI64; SFp32; SFp64] ->
  readExpr find_function find_relation find_field s = Some (Ok (ELit (Lit LUnset false), [])).
Proof.
  intros C H. rewrite (constant_reads _ _ _ _ _ _ C). destruct k; try reflexivity; destruct H; cbn; auto 10.
Qed.
(** The lengths of fixed and variable strings are not compared with the type. *)
Theorem C89_length_refuted s q ty t n len find_function find_relation find_field : Constant s (CString q ty) t -> evalString q = Some (n, []) ->
  (t = PtFixedChar len NRequired -> readExpr find_function find_relation find_field s = Some (Ok (ELit (Lit (LFixedChar n) false), []))) /\
  (t = PtVarchar len NRequired -> readExpr find_function find_relation find_field s = Some (Ok (ELit (Lit (LVarChar n len) false), []))).
Proof. intros C E. split; intros ->; rewrite (constant_reads _ _ _ _ _ _ C); cbn [visitConst]; unfold visitString; rewrite E; reflexivity. Qed.
(** Pairs with a struct type are read as a struct without fields. *)
Theorem C89_pairs_refuted s l ty ts n find_function find_relation find_field : Constant s (CMap l ty) (PtStruct ts n) ->
  readExpr find_function find_relation find_field s = Some (Ok (ELit (Lit (LStruct []) false), [])).
Proof. intros C. rewrite (constant_reads _ _ _ _ _ _ C). reflexivity. Qed.
(** An interval of nothing is undefined behaviour, and null in an interval is zero. *)
Theorem C89_interval_refuted s l ty k n find_function find_relation find_field : Constant s (CMap l ty) (PtScalar k n) -> In k [SIntervalYear; SIntervalDay] ->
  readExpr find_function find_relation find_field s = Some UB.
Proof. intros C [<-|[<-|[]]]; rewrite (constant_reads _ _ _ _ _ _ C); reflexivity. Qed.
Theorem C89_interval_null_refuted s a b ty n find_function find_relation find_field : Constant s (CStruct [CNull a; CNull b] ty) (PtScalar SIntervalYear n) ->
  readExpr find_function find_relation find_field s = Some (Ok (ELit (Lit (LIntervalYear 0 0) false), [])).
Proof. intros C. rewrite (constant_reads _ _ _ _ _ _ C). reflexivity. Qed.
(** The types of constants inside braces are not looked at: a constant may be replaced by one with other types inside. *)
Inductive Retyped : cnode -> cnode -> Prop :=
| RT_number t a b : Retyped (CNumber t a) (CNumber t b)
| RT_string t a b : Retyped (CString t a) (CString t b)
| RT_true a b : Retyped (CTrue a) (CTrue b)
| RT_false a b : Retyped (CFalse a) (CFalse b)
| RT_null a b : Retyped (CNull a) (CNull b)
| RT_map l l' a b : Forall2 (fun x y => Retyped (fst x) (fst y) /\ Retyped (snd x) (snd y)) l l' -> Retyped (CMap l a) (CMap l' b)
| RT_struct l l' a b : Forall2 Retyped l l' -> Retyped (CStruct l a) (CStruct l' b).
Lemma same_length A (R : A -> A -> Prop) l l' : Forall2 R l l' -> length l = length l'.
Proof. intros H. induction H; cbn; congruence. Qed.
Lemma retyped_means c t l : Means c t l -> forall c', Retyped c c' -> Means c' t l.
Proof.
  intros H. induction H using Means_mind with
    (P0 := fun l ts r _ => forall l', Forall2 Retyped l l' -> Members l' ts r)
    (P1 := fun l k v r _ => forall l', Forall2 (fun x y => Retyped (fst x) (fst y) /\ Retyped (snd x) (snd y)) l l' -> Entries l' k v r); intros c' R; inversion R; subst;
    try (match goal with F : Forall2 _ [] ?l |- _ => inversion F; subst end); try (econstructor; eassumption); try (econstructor; eauto; fail).
  - constructor; [assumption| |auto]. match goal with F : Forall2 _ l l' |- _ => destruct F; [congruence|discriminate] end.
  - match goal with F : Forall2 _ l l' |- _ => pose proof (same_length _ _ _ _ F) as L end. apply ME_list; [assumption| |].
    + destruct l; [congruence|]. destruct l'; discriminate.
    + rewrite <- L. auto.
  - constructor; [assumption| |auto]. match goal with F : Forall2 _ l l' |- _ => destruct F; [congruence|discriminate] end.
  - repeat match goal with F : Forall2 _ (_ :: _) _ |- _ => inversion F; subst; clear F | F : Forall2 _ [] _ |- _ => inversion F; subst; clear F end. constructor; auto.
  - repeat match goal with F : Forall2 _ (_ :: _) _ |- _ => inversion F; subst; clear F | F : Forall2 _ [] _ |- _ => inversion F; subst; clear F end. constructor; auto.
  - match goal with y : (cnode * cnode)%type |- _ => destruct y end. match goal with F : _ /\ _ |- _ => destruct F end. cbn [fst snd] in *. constructor; auto.
Qed.
Theorem C89_inner_refuted s s' c c' t l find_function find_relation find_field : Constant s c t -> Constant s' c' t -> Retyped c c' -> Means c t l ->
  readExpr find_function find_relation find_field s = Some (Ok (ELit l, [])) /\ readExpr find_function find_relation find_field s' = Some (Ok (ELit l, [])).
Proof.
  intros C C' R M. rewrite (constant_reads _ _ _ _ _ _ C), (constant_reads _ _ _ _ _ _ C'). rewrite (const_complete _ _ _ M false), (const_complete _ _ _ (retyped_means _ _ _ M _ R) false). split; reflexivity.
Qed.
Print Assumptions C89_text. Print Assumptions C89_sound. Print Assumptions C89_reported. Print Assumptions C89_untyped. Print Assumptions C89_number_refuted.
Print Assumptions C89_length_refuted. Print Assumptions C89_pairs_refuted. Print Assumptions C89_interval_refuted. Print Assumptions C89_interval_null_refuted.
Print Assumptions C89_inner_refuted.
(** A struct, and constants for which something is reported *)
Lemma i32_type : TypeText $"i32" (type_tokens $"i32" false []).
Proof. assert (E : $"i32" = type_text $"i32" false []) by reflexivity. rewrite E at 1. apply type_is; [small_name|discriminate|constructor]. Qed.
Lemma string_type : TypeText $"string" (type_tokens $"string" false []).
Proof. assert (E : $"string" = type_text $"string" false []) by reflexivity. rewrite E at 1. apply type_is; [small_name|discriminate|constructor]. Qed.
Definition ex_struct : cnode := CStruct [CNumber $"-7" None; CString $"""a""" (Some $"i32")] (Some $"struct<i32,string>").
Definition ex_text : str := $"{-7, ""a""_i32} _struct<i32,string>".
Example C89_case : Constant ex_text ex_struct (PtStruct [PtScalar SI32 NRequired; PtScalar SString NRequired] NRequired) /\
  Means ex_struct (PtStruct [PtScalar SI32 NRequired; PtScalar SString NRequired] NRequired) (Lit (LStruct [Lit (LI32 (-7)) false; Lit (LString $"a") false]) false) /\
  Retyped ex_struct (CStruct [CNumber $"-7" (Some $"bool"); CString $"""a""" None] (Some $"struct<i32,string>")) /\
  Odd (CString $"""a""" (Some $"fixedchar<9>")) (PtFixedChar 9 NRequired).
Proof.
  split; [|split; [|split]].
  - eexists. exists $"struct<i32,string>". split; [vm_compute; reflexivity|]. split; [|split; [intros x H; repeat destruct H as [H|H]; try discriminate H; exact H|split; [reflexivity|vm_compute; reflexivity]]].
    apply (WR_struct (CNumber $"-7" None) [CString $"""a""" (Some $"i32")] [(NUMBER, $"-7")] ([comma_] ++ ([(STRING, $"""a"""); (UNDERSCORE, $"_"); (IDENTIFIER, $"i32")]) ++ []) (Some $"struct<i32,string>")
      ((UNDERSCORE, $"_") :: (STRUCT, $"struct") :: mark false ++ [open_] ++ [(IDENTIFIER, $"i32")] ++ ([comma_] ++ [(IDENTIFIER, $"string")] ++ []) ++ [close_])).
    + apply (WR_number _ None). reflexivity.
    + constructor; [|constructor]. apply (WR_string _ (Some $"i32")). eexists. split; [reflexivity|]. split; [|reflexivity]. eexists. exact i32_type.
    + eexists. split; [reflexivity|]. split; [|reflexivity]. apply TW_struct; [eapply TW_basic; exact i32_type|]. apply MW_cons; [eapply TW_basic; exact string_type|constructor].
  - apply ME_struct; [discriminate|discriminate|]. constructor; [|constructor; [|constructor]].
    + apply (ME_i32 _ _ NRequired (-7)); [apply (IT_minus $"7"); [discriminate|reflexivity]|unfold within; cbn; lia].
    + apply ME_string; [discriminate|vm_compute; reflexivity].
  - repeat constructor.
  - apply (OD_fixedchar _ _ _ $"a"); [vm_compute; reflexivity|cbn; lia].
Qed.
Example C89_text_case : let read := readExpr (fun _ => None) (fun _ => None) (fun _ => None) in
  read ex_text = Some (Ok (ELit (Lit (LStruct [Lit (LI32 (-7)) false; Lit (LString $"a") false]) false), [])) /\
  read $"5_bool" = Some (Ok (ELit (Lit LUnset false), [])) /\ read $"""abc""_fixedchar<9>" = Some (Ok (ELit (Lit (LFixedChar $"abc") false), [])) /\
  read $"{1: 2}_struct<i32>" = Some (Ok (ELit (Lit (LStruct []) false), [])) /\ read $"{}_interval_year" = Some UB /\
  read $"{null, null}_interval_year" = Some (Ok (ELit (Lit (LIntervalYear 0 0) false), [])) /\ read $"true_i32" = Some (Ok (ELit (Lit LUnset false), [XMismatch])) /\
  read $"{1, 2}_struct<i32>" = Some (Ok (ELit (Lit (LStruct [Lit (LI32 1) false]) false), [XFieldCount])).
Proof. cbv zeta. repeat (split; [vm_compute; reflexivity|]). vm_compute; reflexivity. Qed.

(** * C73: numbers beyond 32 or 64 bits are reported *)
Theorem C73_overflow s n ty k q z bits find_function find_relation find_field : Constant s (CNumber n ty) (PtScalar k q) -> IntText n z ->
  In (k, bits) [(SI8, 32%Z); (SI16, 32%Z); (SI32, 32%Z); (SI64, 64%Z)] -> ~ within bits z ->
  readExpr find_function find_relation find_field s = Some (Ok (ELit (Lit LUnset false), [XNumber])).
Proof.
  intros C I H W. rewrite (constant_reads _ _ _ _ _ _ C). cbn [visitConst]. unfold within in W.
  assert (E : sto bits n = Throw EStdOutOfRange) by (rewrite (sto_text bits n z I); destruct (_ && _) eqn:B; [destruct W; lia|reflexivity]).
  repeat destruct H as [H|H]; try (injection H as <- <-); try destruct H; unfold visitNumber; rewrite ?stoi_sto, ?stol_sto, E; reflexivity.
Qed.
Print Assumptions C73_overflow.
Example C73_overflow_case : readExpr (fun _ => None) (fun _ => None) (fun _ => None) $"2147483648_i32" = Some (Ok (ELit (Lit LUnset false), [XNumber])) /\ ~ within 32 2147483648 /\
  IntText $"2147483648" 2147483648.
Proof. split; [vm_compute; reflexivity|]. split; [unfold within; lia|]. apply (IT_plus $"2147483648"); [discriminate|reflexivity]. Qed.
