(** Properties C16 - C21, C54, C55: function matching, lookup, signatures, extension files. *)
From Verif Require Import Base BaseFacts StringsModel StringsFacts TypeModel TypeFacts TypeCaseFacts MatchFacts SignatureFacts
  FunctionModel FunctionFacts LoadFacts.
From Coq Require Import Lia ZifyBool ZifyNat ZifyN.

Definition i32 := TScalar SI32 false.
Definition str_t := TScalar SString false.
Definition scalar_impl name args ret var := {| f_name := name; f_uri := $"/f.yaml"; f_args := args; f_return := ret; f_variadic := var;
  f_aggregate := false; f_intermediate := TNull |}.
Definition add_impl2 := scalar_impl $"add" [AEnum true; AValue i32; AValue (TStrLit $"any1" true false)] i32 None.
Definition concat_impl := scalar_impl $"concat" [AValue str_t] str_t (Some {| v_min := 1; v_max := Some 3%Z |}).
Definition avg_impl := {| f_name := $"avg"; f_uri := $"/f.yaml"; f_args := [AValue i32]; f_return := i32; f_variadic := None;
  f_aggregate := true; f_intermediate := PStruct [i32; TScalar SI64 false] false |}.
Definition call name args ret := {| q_name := name; q_args := args; q_return := ret |}.

(** ** C16 *)
Theorem C16_first_match c rs s out : registered c (q_name s) rs out -> Forall ValidDecl out -> ValidQuery s ->
  exists o, lookupFunction c (registers rs) s = Ok o /\ First (fun f => Accepts f s) out o.
Proof. exact (lookup_spec c rs s out). Qed.
Print Assumptions C16_first_match.
(** [First] determines the answer. *)
Theorem C16_unique (s : query) out o o' : First (fun f => Accepts f s) out o -> First (fun f => Accepts f s) out o' -> o = o'.
Proof. exact (First_unique (fun f => Accepts f s) out o o'). Qed.
Print Assumptions C16_unique.
Example C16_ex :
  let other := scalar_impl $"add" [AValue i32; AValue i32] i32 None in
  let rs := [RFunction Scalar concat_impl; RFunction Scalar add_impl2; RType $"add" $"/t.yaml"; RFunction Scalar other] in
  registered Scalar $"add" rs [add_impl2; other] /\
  lookupFunction Scalar (registers rs) (call $"add" [i32; i32] TNull) = Ok (Some add_impl2) /\
  lookupFunction Scalar (registers rs) (call $"add" [i32] TNull) = Ok None.
Proof. cbv zeta. split; [apply registered_iff; reflexivity|]. split; vm_compute; reflexivity. Qed.
Lemma any_declared : Declared (TStrLit $"any1" true false).
Proof. apply Q_lit. Qed.
Lemma i32_concrete : Concrete i32.
Proof. apply K_scalar. Qed.
Lemma str_concrete : Concrete str_t.
Proof. apply K_scalar. Qed.
Example C16_valid : ValidDecl add_impl2 /\ ValidDecl concat_impl /\ ValidDecl avg_impl /\ ValidQuery (call $"add" [i32; i32] i32).
Proof.
  split; [|split; [|split]].
  - split; [|split; [|split]]; cbn.
    + intros t [H|[H|[H|[]]]]; try discriminate H; injection H as <-; [apply Q_concrete, i32_concrete|apply any_declared].
    + right. apply Q_concrete, i32_concrete.
    + now left.
    + discriminate.
  - split; [|split; [|split]]; cbn.
    + intros t [H|[]]. injection H as <-. apply Q_concrete, str_concrete.
    + right. apply Q_concrete, str_concrete.
    + now left.
    + intros v H. injection H as <-. cbn [v_min v_max]. split; [discriminate|]. split; [lia|]. intros m H. injection H as <-. lia.
  - split; [|split; [|split]]; cbn.
    + intros t [H|[]]. injection H as <-. apply Q_concrete, i32_concrete.
    + right. apply Q_concrete, i32_concrete.
    + right. apply Q_struct. constructor; [|constructor; [|constructor]]; apply Q_concrete, K_scalar.
    + discriminate.
  - split; cbn; [constructor; [|constructor; [|constructor]]; apply K_scalar|right; apply K_scalar].
Qed.

(** ** C17 *)
Theorem C17_fixed f s : ValidDecl f -> ValidQuery s -> f_variadic f = None -> f_aggregate f = false ->
  (exists b, tryMatch f s = Ok b) /\ (tryMatch f s = Ok true <-> FixedOk f s).
Proof. exact (fixed_exact f s). Qed.
Print Assumptions C17_fixed.
Example C17_ex : tryMatch add_impl2 (call $"add" [i32; str_t] i32) = Ok true /\ tryMatch add_impl2 (call $"add" [i32; str_t] str_t) = Ok false
  /\ tryMatch add_impl2 (call $"add" [str_t; i32] i32) = Ok false.
Proof. repeat split; vm_compute; reflexivity. Qed.

(** ** C18 *)
(** Exact behaviour for declarations with at least one argument and non-negative bounds. *)
Theorem C18_exact f v s : ValidDecl f -> ValidQuery s -> f_variadic f = Some v -> f_aggregate f = false ->
  (exists b, tryMatch f s = Ok b) /\ (tryMatch f s = Ok true <-> VariadicOk f v s).
Proof. exact (variadic_exact f v s). Qed.
Print Assumptions C18_exact.
(** The stated property, for declarations whose only argument is a value argument.
    Missing: other declarations, for which it is false or undefined (below). *)
Theorem C18_variadic_partial f v t s : ValidDecl f -> ValidQuery s -> f_variadic f = Some v -> f_aggregate f = false -> f_args f = [AValue t] ->
  (tryMatch f s = Ok true <->
   let n := Z.of_nat (length (q_args s)) in
   (v_min v <= n)%Z /\ (forall m, v_max v = Some m -> (n <= m)%Z) /\ Forall (Inst false t) (q_args s) /\ ReturnOk f s).
Proof. exact (variadic_single f v t s). Qed.
Print Assumptions C18_variadic_partial.
Example C18_ex : tryMatch concat_impl (call $"concat" [str_t; str_t; str_t] str_t) = Ok true /\
  tryMatch concat_impl (call $"concat" [] str_t) = Ok false /\ tryMatch concat_impl (call $"concat" [str_t; str_t; str_t; str_t] str_t) = Ok false
  /\ tryMatch concat_impl (call $"concat" [str_t; i32] str_t) = Ok false.
Proof. repeat split; vm_compute; reflexivity. Qed.
(** Findings.  A variadic declaration without arguments reads past the end of the argument vector; negative bounds are
    converted to huge ones; only the first declared argument counts, and nothing is checked if it is not a value argument. *)
Theorem C18_no_arguments_refuted s : (0 < length (q_args s)) -> tryMatch (scalar_impl $"f" [] TNull (Some {| v_min := 1; v_max := None |})) s = UB.
Proof. exact (variadic_empty_ub s). Qed.
Print Assumptions C18_no_arguments_refuted.
Theorem C18_negative_refuted :
  tryMatch (scalar_impl $"f" [AValue i32] TNull (Some {| v_min := -1; v_max := None |})) (call $"f" [i32] TNull) = Ok false /\
  tryMatch (scalar_impl $"f" [AValue i32] TNull (Some {| v_min := 0; v_max := Some (-1)%Z |})) (call $"f" [i32] TNull) = Ok true.
Proof. split; vm_compute; reflexivity. Qed.
Print Assumptions C18_negative_refuted.
Theorem C18_later_arguments_refuted :
  let v := Some {| v_min := 1; v_max := None |} in
  tryMatch (scalar_impl $"f" [AValue str_t; AValue i32] TNull v) (call $"f" [str_t; i32] TNull) = Ok false /\
  tryMatch (scalar_impl $"f" [AValue str_t; AValue i32] TNull v) (call $"f" [str_t; str_t] TNull) = Ok true /\
  tryMatch (scalar_impl $"f" [AEnum true; AValue i32] TNull v) (call $"f" [str_t; str_t] TNull) = Ok true.
Proof. repeat split; vm_compute; reflexivity. Qed.
Print Assumptions C18_later_arguments_refuted.

(** ** C19 *)
Theorem C19_aggregate f s : ValidDecl f -> ValidQuery s -> f_aggregate f = true ->
  (exists b, tryMatch f s = Ok b) /\
  (tryMatch f s = Ok true <-> CallOk f s \/ (f_intermediate f <> TNull /\ exists a, q_args s = [a] /\ Inst false (f_intermediate f) a)).
Proof. exact (aggregate_exact f s). Qed.
Print Assumptions C19_aggregate.
Example C19_ex : let st := TStruct [i32; TScalar SI64 false] false in
  tryMatch avg_impl (call $"avg" [st] TNull) = Ok true /\ tryMatch avg_impl (call $"avg" [i32] i32) = Ok true /\
  tryMatch avg_impl (call $"avg" [st; st] TNull) = Ok false /\ tryMatch avg_impl (call $"avg" [i32] str_t) = Ok false.
Proof. repeat split; vm_compute; reflexivity. Qed.
(** The requested return type is not consulted for an intermediate argument. *)
Theorem C19_return_unchecked : let st := TStruct [i32; TScalar SI64 false] false in tryMatch avg_impl (call $"avg" [st] str_t) = Ok true.
Proof. vm_compute; reflexivity. Qed.
Print Assumptions C19_return_unchecked.

(** ** C20 *)
Theorem C20_functions_stable c rs rs' s f : lookupFunction c (registers rs) s = Ok (Some f) ->
  lookupFunction c (registers (rs ++ rs')) s = Ok (Some f).
Proof. exact (lookup_stable c rs rs' s f). Qed.
Print Assumptions C20_functions_stable.
Theorem C20_functions_independent c rs rs' s :
  Forall (fun r => match r with RFunction c' f => c' <> c \/ f_name f <> q_name s | RType _ _ => True end) rs' ->
  lookupFunction c (registers (rs ++ rs')) s = lookupFunction c (registers rs) s.
Proof. exact (lookup_unrelated c rs rs' s). Qed.
Print Assumptions C20_functions_independent.
(** Types: the first registration of a name is the one found, whatever follows. *)
Theorem C20_types name l : match lookupType (registers l) name with
  | Some (n, u) => n = name /\ exists pre post, l = pre ++ RType name u :: post /\ Forall (fun r => ~ exists u', r = RType name u') pre
  | None => Forall (fun r => ~ exists u', r = RType name u') l
  end.
Proof. exact (lookupType_spec name l). Qed.
Print Assumptions C20_types.
Theorem C20_types_stable l l' name t : lookupType (registers l) name = Some t -> lookupType (registers (l ++ l')) name = Some t.
Proof. exact (lookupType_stable l l' name t). Qed.
Print Assumptions C20_types_stable.
Theorem C20_types_independent l l' name : Forall (fun r => ~ exists u, r = RType name u) l' ->
  lookupType (registers (l ++ l')) name = lookupType (registers l) name.
Proof. exact (lookupType_other l l' name). Qed.
Print Assumptions C20_types_independent.
Example C20_ex :
  let rs := [RFunction Scalar add_impl2; RType $"geo" $"/a.yaml"] in
  let rs' := [RFunction Scalar (scalar_impl $"add" [AValue i32; AValue i32] i32 None); RType $"geo" $"/b.yaml"; RFunction Window add_impl2] in
  lookupFunction Scalar (registers (rs ++ rs')) (call $"add" [i32; i32] TNull) = Ok (Some add_impl2) /\
  lookupType (registers (rs ++ rs')) $"geo" = Some ($"geo", $"/a.yaml") /\
  lookupFunction Window (registers (rs ++ rs')) (call $"add" [i32; i32] TNull) = Ok (Some add_impl2) /\
  lookupFunction Aggregate (registers (rs ++ rs')) (call $"add" [i32; i32] TNull) = Ok None.
Proof. repeat split; vm_compute; reflexivity. Qed.

(** ** C21 *)
Theorem C21_signature f s : f_signature f = Ok s <->
  (f_args f = [] /\ s = f_name f) \/
  (f_args f <> [] /\ exists ts j, Forall2 ArgText (f_args f) ts /\ Joined $"_" ts j /\ s = f_name f ++ $":" ++ j).
Proof. exact (f_signature_spec f s). Qed.
Print Assumptions C21_signature.
(** It is defined whenever the value arguments' types have signatures, in particular for all concrete types. *)
Theorem C21_defined f : (forall t, In (AValue t) (f_args f) -> exists s, signature t = Ok s) -> exists s, f_signature f = Ok s.
Proof. exact (f_signature_total f). Qed.
Print Assumptions C21_defined.
Theorem C21_defined_concrete f : (forall t, In (AValue t) (f_args f) -> Concrete t) -> exists s, f_signature f = Ok s.
Proof. exact (fun H => f_signature_total f (fun t I => signature_total t (H t I))). Qed.
Print Assumptions C21_defined_concrete.
Example C21_ex : f_signature add_impl2 = Ok $"add:req_i32_any1" /\ f_signature (scalar_impl $"now" [] i32 None) = Ok $"now".
Proof. split; vm_compute; reflexivity. Qed.

(** Finding: a declared type whose length parameter is itself a type name decodes, but its signature dereferences a null pointer. *)
Theorem C21_parameter_refuted : exists t, decode true $"decimal<i32,2>" = Ok t /\ f_signature (scalar_impl $"f" [AValue t] TNull None) = UB.
Proof. eexists. split; vm_compute; reflexivity. Qed.
Print Assumptions C21_parameter_refuted.

(** ** C54: extension files *)
Theorem C54_functions files x c name : load_files files = Ok x -> exists out,
  Forall2 (fun e f => ImplDecl (is_agg c) (fst (fst e)) (snd (fst e)) (snd e) f) (filter (fun e => fst (fst e) =s name) (listed c files)) out /\
  forall s, q_name s = name -> ValidQuery s -> Forall ValidDecl out ->
    exists o, lookupFunction c x s = Ok o /\ First (fun f => Accepts f s) out o.
Proof. exact (load_lookup files x c name). Qed.
Print Assumptions C54_functions.
Theorem C54_types files x name : load_files files = Ok x -> lookupType x name = find (fun p => fst p =s name) (listed_types files).
Proof. exact (load_types files x name). Qed.
Print Assumptions C54_types.
(** A loaded declaration is valid unless a map type lacks its value type, a variadic declaration has no argument or a negative bound. *)
Theorem C54_valid agg name uri n f : ImplDecl agg name uri n f ->
  (forall t, In (AValue t) (f_args f) -> whole t = true) -> (f_return f <> TNull -> whole (f_return f) = true) ->
  (f_intermediate f <> TNull -> whole (f_intermediate f) = true) ->
  (forall v, f_variadic f = Some v -> f_args f <> [] /\ (0 <= v_min v < 2 ^ 31)%Z /\ (forall m, v_max v = Some m -> (0 <= m < 2 ^ 31)%Z)) ->
  ValidDecl f.
Proof. exact (ImplDecl_valid agg name uri n f). Qed.
Print Assumptions C54_valid.
Definition sample : yaml := YMap [
  ($"scalar_functions", YSeq [YMap [($"name", YScalar $"add"); ($"impls", YSeq [
     YMap [($"args", YSeq [YMap [($"options", YSeq []); ($"required", YScalar $"true")]; YMap [($"value", YScalar $"i32")]]); ($"return", YScalar $"i32")];
     YMap [($"args", YSeq [YMap [($"value", YScalar $"string")]]); ($"variadic", YMap [($"min", YScalar $"1")]); ($"return", YScalar $"string")]])]]);
  ($"window_functions", YSeq [YMap [($"name", YScalar $"rank"); ($"impls", YSeq [YMap [($"args", YSeq [])]])]]);
  ($"types", YSeq [YMap [($"name", YScalar $"geo")]])].
Example C54_ex : exists x, load_files [($"/a.yaml", sample); ($"/b.yaml", sample)] = Ok x /\ length (listed Scalar [($"/a.yaml", sample); ($"/b.yaml", sample)]) = 4 /\
  (exists f, lookupFunction Scalar x (call $"add" [str_t; str_t] str_t) = Ok (Some f) /\ f_uri f = $"/a.yaml" /\ length (f_args f) = 1) /\
  lookupType x $"geo" = Some ($"geo", $"/a.yaml") /\ lookupFunction Window x (call $"rank" [] TNull) = Ok None.
Proof.
  eexists. split; [vm_compute; reflexivity|]. split; [reflexivity|]. split; [|split; vm_compute; reflexivity].
  eexists. split; [vm_compute; reflexivity|]. split; reflexivity.
Qed.
(** Findings: window functions of an extension file are never available; a declared [map<i32>] or a variadic declaration
    without arguments loads, and a later lookup is undefined. *)
Theorem C54_window_refuted files x s : load_files files = Ok x -> lookupFunction Window x s = Ok None.
Proof. exact (load_window files x s). Qed.
Print Assumptions C54_window_refuted.
Definition one_scalar (impl : yaml) : yaml :=
  YMap [($"scalar_functions", YSeq [YMap [($"name", YScalar $"f"); ($"impls", YSeq [impl])]])].
Theorem C54_lookup_refuted :
  (exists x, load_files [($"/a.yaml", one_scalar (YMap [($"args", YSeq [YMap [($"value", YScalar $"map<i32>")]])]))] = Ok x /\
     lookupFunction Scalar x (call $"f" [TMap i32 i32 false] TNull) = UB) /\
  (exists x, load_files [($"/a.yaml", one_scalar (YMap [($"variadic", YMap [($"min", YScalar $"0")])]))] = Ok x /\
     lookupFunction Scalar x (call $"f" [] TNull) = UB).
Proof. split; eexists; (split; [vm_compute; reflexivity|vm_compute; reflexivity]). Qed.
Print Assumptions C54_lookup_refuted.

(** ** C55: the return type of a multi-line return expression is its last line. *)
Theorem C55_last_line agg name uri n f s line : load_impl agg name uri n = Ok f -> field n $"return" = YScalar s -> LastLine s line ->
  decode true line = Ok (f_return f).
Proof. exact (return_last_line agg name uri n f s line). Qed.
Print Assumptions C55_last_line.
Example C55_ex : let s := $"x = 1" ++ ["010"%char] ++ $"y = x + 1" ++ ["010"%char] ++ $"decimal<x,y>" in
  LastLine s $"decimal<x,y>" /\
  exists f, load_impl false $"f" $"/a.yaml" (YMap [($"return", YScalar s)]) = Ok f /\ decode true $"decimal<x,y>" = Ok (f_return f).
Proof.
  cbv zeta. split.
  - split; [cbv; intuition discriminate|]. right. eexists ($"x = 1" ++ ["010"%char] ++ $"y = x + 1"). reflexivity.
  - eexists. split; vm_compute; reflexivity.
Qed.
(** Finding: if the text ends with a line break (a YAML block scalar does) the last line is empty and the
    declared return type is lost: nothing but a missing return type is accepted. *)
Theorem C55_trailing_newline_refuted s agg name uri n f : field n $"return" = YScalar (s ++ ["010"%char]) -> load_impl agg name uri n = Ok f ->
  f_return f = TStrLit [] false true /\ forall a, Concrete a -> isMatch (f_return f) a = Ok false.
Proof. exact (return_trailing_newline s agg name uri n f). Qed.
Print Assumptions C55_trailing_newline_refuted.
