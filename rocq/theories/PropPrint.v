(** Theorems about what printing an expression reports. *)
From Verif Require Import Base BaseFacts StringsModel TypeModel LexModel EnumModel ExprModel RelModel PrintFacts.
From Coq Require Import Lia.

(** * C90: an expression that is printed without errors has no gaps *)
Theorem C90_clean function_name field_name depth e : (exists t, printExpr function_name field_name depth e = Ok (t, 0)) <-> Clean function_name field_name e.
Proof. exact (quiet_expr function_name field_name depth e). Qed.
(** What is missing is reported, *)
Theorem C90_reported function_name field_name depth e t n : printExpr function_name field_name depth e = Ok (t, n) -> ~ Clean function_name field_name e -> 0 < n.
Proof. intros E N. destruct n; [|lia]. destruct N. apply (C90_clean function_name field_name depth). eauto. Qed.
(** and an expression without a kind, or with a selection of something else than a field, ends the printing by an exception; nothing else does. *)
Theorem C90_stuck function_name field_name depth e : Stuck e <-> exists x, printExpr function_name field_name depth e = Throw x.
Proof. destruct (print_fate function_name field_name e depth) as [(x & E & S)|(t & n & E & C & S)]; rewrite E; [split; eauto|]. split; [tauto|intros (x & X); discriminate]. Qed.
Theorem C90_defined function_name field_name depth e : printExpr function_name field_name depth e <> UB.
Proof. destruct (print_fate function_name field_name e depth) as [(x & E & S)|(t & n & E & C & S)]; rewrite E; discriminate. Qed.
(** The same for relations. *)
Theorem C90_relation function_name field_name emit_name measure_name alternative alias name r :
  (exists t, printRelation function_name field_name emit_name measure_name alternative alias name r = Ok (t, 0)) <-> CleanBody function_name field_name emit_name alternative (r_emit r) (r_body r).
Proof. exact (quiet_relation function_name field_name emit_name measure_name alternative alias name r). Qed.
(** Findings.  An argument of an aggregate function that has no value is printed as a word in its place and not reported, *)
Theorem C90_argument_refuted function_name field_name emit_name measure_name alternative alias name n f ty : function_name f = Some n -> TypeHas ty ->
  exists t, printRelation function_name field_name emit_name measure_name alternative alias name (Relation (BAggregate [] [Measure (Some (AF f [AUnset] [] [] ty PUnspecified IUnspecified [])) None]) []) = Ok (t, 0).
Proof. intros H T. apply C90_relation. cbn [r_emit r_body]. constructor; [constructor| |intros z []]. constructor; [|constructor]. constructor; [|discriminate]. constructor; cbn; [exists n; exact H| |constructor|exact T]. constructor; [right; reflexivity|constructor]. Qed.
(** and with a comparison function the text of a sort relation is the name of the function and nothing else: the keys before it and after it are lost. *)
Theorem C90_sorts_refuted function_name field_name emit_name measure_name alternative alias name n f e l l' emit : function_name f = Some n -> Clean function_name field_name e ->
  Forall (fun s => Clean function_name field_name (fst s) /\ exists d, snd s = SortDirection d) l ->
  printRelation function_name field_name emit_name measure_name alternative alias name (Relation (BSort (l ++ (e, SortFunction f) :: l')) emit) = Ok (($"sort relation " ++ name ++ $" {" ++ [lf]) ++ n ++ $"}" ++ [lf], 0).
Proof.
  intros H C L. assert (X : forall before, printSorts function_name field_name before (l ++ (e, SortFunction f) :: l') = Ok (n, 0)).
  { induction L as [|[x k] l [Cx (d & Ek)] _ IH]; intros before; [|cbn [fst snd] in Cx, Ek; subst k]; cbn [app printSorts]; unfold printE.
    - apply (C90_clean function_name field_name 0) in C as (t & ->). cbn [obind snd]. unfold lookupFunctionReference. rewrite H. reflexivity.
    - apply (C90_clean function_name field_name 0) in Cx as (t & ->). cbn [obind fst snd]. rewrite IH. reflexivity. }
  unfold printRelation. cbn [printBody r_body kind_name sources_of schemas_of map]. rewrite X. cbn [together fold_right both obind fst snd text app]. rewrite !app_nil_r, <- !app_assoc. reflexivity.
Qed.
Print Assumptions C90_clean. Print Assumptions C90_reported. Print Assumptions C90_stuck. Print Assumptions C90_defined. Print Assumptions C90_relation. Print Assumptions C90_argument_refuted. Print Assumptions C90_sorts_refuted.
Definition ex_names (f : N) : option str := if (f =? 0)%N then Some $"add" else None.
Definition ex_columns (steps : N) (f : Z) : option str := if (f =? 0)%Z then Some $"a" else None.
Definition ex_i64 : ptype := PtScalar SI64 NRequired.
Example C90_case : let call f args := EFun f args [] [] ex_i64 in let a := ESel (SegField 0 None) RootRef in
  Clean ex_names ex_columns (EIfThen [(Some a, Some (call 0%N [AValue a; AEnum $"X"]))] (Some (ECast a ex_i64 0))) /\
  printExpr ex_names ex_columns 0 (call 0%N [AValue (ESel (SegField 3 None) RootRef)]) = Ok ($"add(field#3)->i64", 1) /\
  printExpr ex_names ex_columns 0 (call 9%N [AValue a]) = Ok ($"functionref#9(a)->i64", 1) /\ printExpr ex_names ex_columns 0 (call 0%N [AUnset]) = Ok ($"add(SCALAR_FUNCTION_ARGUMENT_TYPE_MISSING)->i64", 1) /\
  Stuck (call 0%N [AValue (EMasked RootRef)]).
Proof.
  cbv zeta. split; [|split; [vm_compute; reflexivity|split; [vm_compute; reflexivity|split; [vm_compute; reflexivity|]]]].
  - assert (A : Clean ex_names ex_columns (ESel (SegField 0 None) RootRef)) by (constructor; eexists; reflexivity). assert (T : TypeHas ex_i64) by (constructor; cbn; tauto).
    constructor; [constructor; [|constructor]; eexists _, _; split; [reflexivity|]; split; [exact A|]|].
    + constructor; [eexists; reflexivity|left; discriminate|constructor; [constructor; exact A|constructor; constructor]|constructor|exact T].
    + intros e E. injection E as <-. constructor; assumption.
  - eapply SK_arg; [left; reflexivity|constructor].
Qed.
Example C90_relation_case : printRelation ex_names ex_columns (fun _ => None) (fun _ => None) (fun _ => None) (fun _ => None) $"s" (Relation (BSort [(ESel (SegField 0 None) RootRef, SortFunction 0%N)]) []) =
    Ok ($"sort relation s {" ++ [lf] ++ $"add}" ++ [lf], 0) /\
  CleanBody ex_names ex_columns (fun _ => Some $"c") (fun _ => None) [0%Z] (BProject [ESel (SegField 0 None) RootRef]).
Proof. split; [vm_compute; reflexivity|]. constructor; [|intros z _; exists $"c"; reflexivity]. apply CC_expression; [reflexivity|constructor; exists $"a"; reflexivity|constructor]. Qed.
