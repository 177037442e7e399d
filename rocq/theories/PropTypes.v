(** Properties C09 - C15 and C53: type texts, matching, signatures, protobuf types. *)
From Verif Require Import Base BaseFacts StringsModel StringsFacts TypeModel TypeFacts TypeCaseFacts TypeTextFacts MatchFacts
  SignatureFacts TypeProtoFacts.

(** ** C09: decoding ends in a type or an exception. *)
Theorem C09_terminates m s : decode m s <> Throw EFuel.
Proof. exact (decode_not_fuel m s). Qed.
Print Assumptions C09_terminates.
(** With parameter support (the mode used for function declarations and plans): a type or an exception of the library,
    never undefined, never a null type.  A brace in an unsupported type name turns the library exception into a formatting error. *)
Theorem C09_parameterised s :
  (exists t, decode true s = Ok t /\ t <> TNull) \/ (exists e, decode true s = Throw e /\
     (e = EUnsupported \/ e = EInvalidState \/ (e = EFmt /\ (In "{"%char s \/ In "}"%char s)))).
Proof.
  exact (match decode true s as o return decode true s = o -> (exists t, o = Ok t /\ t <> TNull) \/ (exists e, o = Throw e /\
     (e = EUnsupported \/ e = EInvalidState \/ (e = EFmt /\ (In "{"%char s \/ In "}"%char s)))) with
   | Ok t => fun E => or_introl (ex_intro _ t (conj eq_refl (fun N => decode_param_not_null s (eq_trans E (f_equal (@Ok ty) N)))))
   | Throw e => fun E => or_intror (ex_intro _ e (conj eq_refl (decode_param_throws s e E)))
   | UB => fun E => False_ind _ (decode_param_no_ub s E)
   end eq_refl).
Qed.
Print Assumptions C09_parameterised.
Example C09_ex : decode true $" Map< I32 , list<string?>>" = Ok (PMap (TScalar SI32 false) (PList (TScalar SString true) false) false) /\
  decode true $"decimal<3>" = Throw EInvalidState /\ decode true $"foo<i32>" = Throw EUnsupported.
Proof. repeat split; vm_compute; reflexivity. Qed.
(** Findings: without parameter support a missing second parameter is read out of bounds, a non-literal length
    is dereferenced as a null pointer; an unsupported name containing a brace makes the error message itself fail. *)
Theorem C09_concrete_refuted : decode false $"map<i32>" = UB /\ decode false $"decimal<i32,2>" = UB /\ decode false $"varchar<string>" = UB.
Proof. repeat split; vm_compute; reflexivity. Qed.
Print Assumptions C09_concrete_refuted.
Theorem C09_message_refuted : decode true $"foo{<i32>" = Throw EFmt.
Proof. vm_compute; reflexivity. Qed.
Print Assumptions C09_message_refuted.

(** ** C10 *)
Theorem C10_margins m a s b : Forall ws a -> Forall ws b -> decode m (a ++ s ++ b) = decode m s.
Proof. exact (decode_margins m a s b). Qed.
Print Assumptions C10_margins.
(** A text that decodes to a type (rather than to a placeholder) decodes to the same type in any capitalisation. *)
Theorem C10_case s s' t : to_lower s = to_lower s' -> decode false s = Ok t -> has_text t = false -> decode false s' = Ok t.
Proof. exact (decode_case_concrete s s' t). Qed.
Print Assumptions C10_case.
(** With parameter support, as long as no placeholder occurs ([lettered]); failures do not depend on case either. *)
Theorem C10_case_parameterised m s s' t : to_lower s = to_lower s' -> decode m s = Ok t -> lettered t = false -> decode m s' = Ok t.
Proof. exact (decode_case_param m s s' t). Qed.
Print Assumptions C10_case_parameterised.
Theorem C10_case_general m s s' : to_lower s = to_lower s' -> fold_out (decode m s) = fold_out (decode m s').
Proof. exact (decode_case m s s'). Qed.
Print Assumptions C10_case_general.
Example C10_ex : decode false $"LIST< Decimal<10, 2> >" = Ok (TList (TDecimal 10 2 false) false) /\
  to_lower $"LIST< Decimal<10, 2> >" = to_lower $"list< decimal<10, 2> >".
Proof. split; vm_compute; reflexivity. Qed.

(** ** C11: every way of writing a type ([Txt]) decodes to the type, provided no nullable compound type has a nullable
    part.  Missing: those types, which are rejected (C11_nested_nullable). *)
Theorem C11_text_partial t s : Txt t s -> fits t = true -> null_ok t = true -> decode false s = Ok (conc t).
Proof. exact (decode_text_concrete t s). Qed.
Print Assumptions C11_text_partial.
Theorem C11_text_parameterised_partial t s : Txt t s -> null_ok t = true -> exists y, decode true s = Ok y /\ Den true t y.
Proof. exact (fun H N => decode_text true t s H (fun E => False_ind _ (Bool.diff_true_false E)) N). Qed.
Print Assumptions C11_text_parameterised_partial.
Theorem C11_nested_nullable m t s : Txt t s -> (m = false -> fits t = true) -> null_ok t = false -> decode m s = Throw EUnsupported.
Proof. exact (decode_text_reject m t s). Qed.
Print Assumptions C11_nested_nullable.
Example C11_ex : Txt (CMap (CScalar SI32 false) (CList (CDecimal 10 2 true) false) false) $"map<i32, list< decimal?<10,02> > >" /\
  decode false $"map<i32, list< decimal?<10,02> > >" = Ok (TMap (TScalar SI32 false) (TList (TDecimal 10 2 true) false) false).
Proof.
  assert (W : ws " "%char) by (cbv; tauto).
  split; [|vm_compute; reflexivity].
  apply (X_map _ _ false $"map" [] $"i32" [] [" "%char] $"list< decimal?<10,02> >" [" "%char]); auto.
  - apply (X_scalar SI32 false $"i32"). left. reflexivity.
  - apply (X_list _ false $"list" [" "%char] $"decimal?<10,02>" [" "%char]); auto.
    apply (X_decimal 10 2 true $"decimal" $"10" $"02"); [reflexivity| |].
    + exists [], $"10", []. repeat split; auto. apply numeral_iff. split; [discriminate|reflexivity].
    + exists [], $"02", []. repeat split; auto. apply numeral_iff. split; [discriminate|reflexivity].
Qed.
(** Findings. *)
Theorem C11_nested_nullable_refuted : decode true $"list?<i32?>" = Throw EUnsupported.
Proof. vm_compute; reflexivity. Qed.
Print Assumptions C11_nested_nullable_refuted.
Theorem C11_trailing_refuted : decode true $"list<i32>?" = decode true $"list<i32>" /\ decode true $"list<i32>xyz" = decode true $"list<i32>".
Proof. split; vm_compute; reflexivity. Qed.
Print Assumptions C11_trailing_refuted.

(** ** C12: exact behaviour, agreement being checked at every level except for structs' own nullability. *)
Theorem C12_exact d a : Concrete d -> Concrete a -> (exists b, isMatch d a = Ok b) /\ (isMatch d a = Ok true <-> Agree false d a).
Proof. exact (fun Cd Ca => conj (match isMatch_concrete d Cd a Ca with ex_intro _ b (conj E _) => ex_intro _ b E end) (decides_true _ _ (isMatch_concrete d Cd a Ca))). Qed.
Print Assumptions C12_exact.
(** The full statement holds as long as the declared type has no required struct or the actual type no nullable struct.
    Missing: the remaining pairs, for which it is false. *)
Theorem C12_match_iff_partial d a : Concrete d -> Concrete a -> NoStruct false d \/ NoStruct true a ->
  (isMatch d a = Ok true <-> Agree true d a).
Proof.
  exact (fun Cd Ca N => conj (fun M => Agree_lenient_strict d a (proj1 (decides_true _ _ (isMatch_concrete d Cd a Ca)) M) N)
    (fun A => proj2 (decides_true _ _ (isMatch_concrete d Cd a Ca)) (Agree_strict_lenient d a A))).
Qed.
Print Assumptions C12_match_iff_partial.
(** One direction needs no restriction: whatever agrees is accepted. *)
Theorem C12_accepts d a : Concrete d -> Concrete a -> Agree true d a -> isMatch d a = Ok true.
Proof. exact (fun Cd Ca A => proj2 (decides_true _ _ (isMatch_concrete d Cd a Ca)) (Agree_strict_lenient d a A)). Qed.
Print Assumptions C12_accepts.
Example C12_ex : isMatch (TList (TStruct [TScalar SI32 true; TDecimal 3 1 false] true) false) (TList (TStruct [TScalar SI32 false; TDecimal 3 1 false] false) false) = Ok true
  /\ isMatch (TList (TScalar SI32 false) true) (TList (TScalar SI32 true) false) = Ok false.
Proof. split; reflexivity. Qed.
Theorem C12_struct_refuted : exists d a, Concrete d /\ Concrete a /\ isMatch d a = Ok true /\ ~ Agree true d a.
Proof.
  exists (TStruct [] false), (TStruct [] true). repeat split; try (constructor; constructor).
  intros A. inversion A as [| | | | | | |? ? ? ? N F]. destruct (N eq_refl); discriminate.
Qed.
Print Assumptions C12_struct_refuted.

(** ** C13 *)
Theorem C13_any m a s b : Forall ws a -> Forall ws b -> firstn 3 (to_lower s) = $"any" -> ~ In "<"%char s -> trim s = s ->
  exists d, decode m (a ++ s ++ b) = Ok d /\ forall t, isMatch d t = Ok true.
Proof. exact (fun Ha Hb H N T => ex_intro _ _ (conj (decode_any m a s b Ha Hb H N T) (fun t => eq_refl))). Qed.
Print Assumptions C13_any.
(** Every declaration accepts exactly its instances; with [fbin = false] a parameterised fixedbinary has none.
    Missing: parameterised fixedbinary (below). *)
Theorem C13_instances_partial d a : Declared d -> Concrete a -> (exists b, isMatch d a = Ok b) /\ (isMatch d a = Ok true <-> Inst false d a).
Proof. exact (fun Dd Ca => conj (match isMatch_declared d Dd a Ca with ex_intro _ b (conj E _) => ex_intro _ b E end) (decides_true _ _ (isMatch_declared d Dd a Ca))). Qed.
Print Assumptions C13_instances_partial.
Example C13_ex : Inst false (PMap (TStrLit $"any1" true false) (PDecimal (TStrLit $"P" false true) (TStrLit $"S" false true) true) false)
   (TMap (TScalar SI8 true) (TDecimal 38 6 true) false) /\
  decode true $"map<any1,decimal?<P,S>>" = Ok (PMap (TStrLit $"any1" true false) (PDecimal (TStrLit $"P" false true) (TStrLit $"S" false true) true) false).
Proof. split; [apply I_map; [right; reflexivity|apply I_wild|apply I_dec; left; reflexivity]|vm_compute; reflexivity]. Qed.
Theorem C13_fixedbinary_refuted : exists d, decode true $"fixedbinary<L>" = Ok d /\ forall a, Concrete a -> isMatch d a = Ok false.
Proof. eexists. split; [vm_compute; reflexivity|]. intros a C. destruct C; reflexivity. Qed.
Print Assumptions C13_fixedbinary_refuted.

(** ** C14 *)
Theorem C14_signature d a : Concrete d -> Concrete a -> isMatch d a = Ok true ->
  exists s, signature d = Ok s /\ signature a = Ok s.
Proof.
  exact (fun Cd Ca M => match signature_total d Cd with ex_intro _ s E =>
    ex_intro _ s (conj E (eq_trans (eq_sym (match_signature d a Cd Ca M)) E)) end).
Qed.
Print Assumptions C14_signature.
Example C14_ex : isMatch (TMap (TVarchar 10 true) (TStruct [TScalar SI64 false; TList (TDecimal 5 2 true) false] false) true)
     (TMap (TVarchar 10 false) (TStruct [TScalar SI64 false; TList (TDecimal 5 2 false) false] true) false) = Ok true /\
  signature (TMap (TVarchar 10 true) (TStruct [TScalar SI64 false; TList (TDecimal 5 2 true) false] false) true) = Ok $"map<vchar<10>,struct<i64,list<dec<5,2>>>>".
Proof. split; vm_compute; reflexivity. Qed.

(** ** C53: signatures identify concrete types up to nullability. *)
Theorem C53_signature_identifies d a : Concrete d -> Concrete a -> (signature d = signature a <-> strip d = strip a).
Proof. exact (signature_iff d a). Qed.
Print Assumptions C53_signature_identifies.
Example C53_ex : signature (TStruct [TStruct [] true; TScalar SI8 false] false) = Ok $"struct<struct<>,i8>" /\
  signature (TStruct [TStruct [TScalar SI8 true] true] false) = Ok $"struct<struct<i8>>".
Proof. split; vm_compute; reflexivity. Qed.

(** ** C15 *)
Theorem C15_roundtrip inside t t' : Printable t t' -> snd (printType t) = 0 /\ textToTypeProto inside (fst (printType t)) = Ok (t', []).
Proof. exact (fun H => conj (f_equal snd (proj1 (print_roundtrip inside t t' H))) (proj2 (print_roundtrip inside t t' H))). Qed.
Print Assumptions C15_roundtrip.
Theorem C15_unprintable_reported t : params_ok t -> (forall t', ~ Printable t t') -> snd (printType t) = 1.
Proof. exact (print_other t). Qed.
Print Assumptions C15_unprintable_reported.
Example C15_ex : printType (PtDecimal 38 (-2) NNullable) = ($"decimal?<38,-2>", 0) /\
  textToTypeProto false $"decimal?<38,-2>" = Ok (PtDecimal 38 (-2) NNullable, []).
Proof. split; vm_compute; reflexivity. Qed.
(** Reading any type text: the type it denotes without error when the parameters fit, at least one error otherwise. *)
Theorem C15_reading inside t s : Txt t s -> null_ok t = true -> has_fixedbinary t = false ->
  exists y errs, textToTypeProto inside s = Ok (y, errs) /\ (fits t = true -> y = proto_of t /\ errs = []) /\ (fits t = false -> errs <> []).
Proof.
  exact (fun H N F => match text_reads inside t s H N with ex_intro _ y (ex_intro _ errs (conj E (conj A (conj B C)))) =>
    ex_intro _ y (ex_intro _ errs (conj E (conj (fun X => conj (A X F) (B X)) (fun X => C X F)))) end).
Qed.
Print Assumptions C15_reading.
Lemma lower_same c d : is_alpha d = false -> lower c = d -> c = d.
Proof. intros A E. apply ceq_true. rewrite <- (ceq_lower c d A). apply ceq_true. exact E. Qed.
Lemma scalar_of_name k b : scalar_of (to_lower b) = Some k -> scalar_name k b.
Proof.
  unfold scalar_of, scalar_name. intros E.
  repeat match type of E with context [to_lower b =s ?x] => destruct (seq_eqb_spec (to_lower b) x) as [Q|_]; cbn [orb] in E end; try discriminate E; injection E as <-; rewrite Q; auto.
Qed.
(** A text without parameters that is not the name of a scalar type is reported. *)
Theorem C15_unknown_reported s : ~ In "<"%char s -> (forall k n b, scalar_name k b -> trim s <> b ++ q n) -> textToTypeProto false s = Ok (PtNone, [Unrecognised]).
Proof.
  intros NL NS. unfold textToTypeProto. rewrite decode_eq. cbn zeta.
  assert (F : find_first "<"%char (to_lower (trim s)) = None).
  { apply find_first_none. intros I. apply NL. apply in_map_iff in I as (c & E & I). apply (lower_same c "<"%char) in E; [subst c|reflexivity]. exact (trim_incl s _ I). }
  rewrite F. set (r := trim s) in *.
  match goal with |- context [scalar_of ?x] => set (base := x); destruct (scalar_of base) as [k|] eqn:S0 end; [|reflexivity]. exfalso.
  assert (L : exists n b, r = b ++ q n /\ base = to_lower b).
  { unfold base. destruct (to_lower r) as [|c l] eqn:E.
    - exists false, r. rewrite app_nil_r. split; auto.
    - destruct (ceq (last (c :: l) zero) "?"%char) eqn:Q; [|exists false, r; rewrite app_nil_r; auto]. apply ceq_true in Q.
      assert (K : exists l', to_lower r = l' ++ ["?"%char]) by (rewrite E; exists (removelast (c :: l)); rewrite <- Q; apply app_removelast_last; discriminate).
      destruct K as (l' & K). rewrite <- E, K. replace (l' ++ ["?"%char]) with (l' ++ "?"%char :: []) by reflexivity. rewrite rfind_app by intros [].
      exists true, (firstn (length l') r).
      assert (Len : length r = length l' + 1) by (rewrite <- (to_lower_length r), K, app_length; reflexivity).
      rewrite <- to_lower_firstn, K. split; [|reflexivity].
      rewrite <- (firstn_skipn (length l') r) at 1. f_equal.
      assert (M : to_lower (skipn (length l') r) = ["?"%char]).
      { rewrite <- to_lower_skipn, K, skipn_app, Nat.sub_diag, skipn_all. reflexivity. }
      destruct (skipn (length l') r) as [|x [|y z]]; try discriminate M. injection M as M. apply (lower_same x) in M; [subst x|]; reflexivity. }
  destruct L as (n & b & Er & Eb). apply (NS k n b); auto. rewrite Eb in S0. apply scalar_of_name. exact S0.
Qed.
Print Assumptions C15_unknown_reported.
Example C15_unknown_ex : textToTypeProto false $" int32 " = Ok (PtNone, [Unrecognised]) /\ ~ In "<"%char $" int32 ".
Proof. split; [vm_compute; reflexivity|]. intros I. cbn in I. repeat (destruct I as [I|I]; [discriminate I|]). destruct I. Qed.
(** Findings: the length of a fixedbinary is lost; a type as a length or decimal parameter is undefined behaviour
    (the plan grammar only admits numbers there, so this needs a text from elsewhere). *)
Theorem C15_fixedbinary_refuted : textToTypeProto false $"fixedbinary<16>" = Ok (PtFixedBinary 0 NRequired, []).
Proof. vm_compute; reflexivity. Qed.
Print Assumptions C15_fixedbinary_refuted.
Theorem C15_reading_refuted : textToTypeProto false $"decimal<i32,2>" = UB /\ textToTypeProto false $"varchar<i32>" = UB.
Proof. split; vm_compute; reflexivity. Qed.
Print Assumptions C15_reading_refuted.
