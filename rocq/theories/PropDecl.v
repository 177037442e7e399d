(** C39, C40, C62: declarations of extension spaces and functions. *)
From Verif Require Import Base BaseFacts SymbolModel SymbolFacts SymbolMoreFacts NormalizerModel NormalizerPlanFacts DeclModel DeclFacts.
From Coq Require Import NArith Permutation Sorted Lia.

(** * C39 *)
(** The declaration of a function: its name, its anchor, and its space if that is declared. *)
Definition declares (t : list entry) (f : func) (d : fdecl) : Prop :=
  d_name d = f_name f /\ d_anchor d = f_anchor f /\ (forall s, f_space f = Some s -> In s (map snd (spaces t)) -> d_space d = s) /\ (f_space f = None -> d_space d = 0%N).
Lemma binary_declares t f : declares t f (binary_decl t f).
Proof.
  unfold declares, binary_decl. cbn. repeat split; auto.
  - intros s E I. rewrite E. unfold spaceName. destruct (find _ _) eqn:F; auto. exfalso. apply in_map_iff in I as (x & Ex & I). pose proof (find_none _ _ F x I) as Q. cbn in Q. rewrite Ex, N.eqb_refl in Q. discriminate.
  - intros E. rewrite E. auto.
Qed.
Lemma map_declares t l : Forall2 (declares t) l (map (binary_decl t) l).
Proof. induction l; constructor; auto. apply binary_declares. Qed.
(** Each function gives exactly one declaration; the declarations are grouped by ascending space, in a group in the order of definition,
    functions without a space last.  Every space of the table is declared, in order. *)
Theorem C39_declarations : forall t, exists with_space without, Forall2 (declares t) (with_space ++ without) (outputFunctions t) /\
  Permutation (with_space ++ without) (functions t) /\ StronglySorted space_le with_space /\ Forall has_space with_space /\
  (forall s, filter (space_is s) with_space = filter (space_is s) (functions t)) /\ without = filter no_space (functions t) /\
  outputExtensionSpaces t = spaces t.
Proof.
  intros t. destruct (output_functions t) as (w & wo & E & A). exists w, wo. rewrite E. split; [apply map_declares|]. destruct A as (A & B & C & D & F). repeat split; auto.
Qed.
Print Assumptions C39_declarations.
Definition fn (short name : str) (s : option N) (a : N) : func := {| f_short := short; f_name := name; f_space := s; f_anchor := a |}.
Definition ex_table : list entry :=
  [ESpace $"/b.yaml" 7; EFunction (fn $"add" $"add:i32_i32" (Some 7%N) 3); EOther $"orders"; EFunction (fn $"raw" $"raw:i64" None 9); ESpace $"/a.yaml" 2;
   EFunction (fn $"lt" $"lt:any_any" (Some 2%N) 4); EFunction (fn $"sub" $"sub:i32_i32" (Some 7%N) 5)].
Example C39_ex : outputFunctions ex_table =
  [{| d_space := 2; d_anchor := 4; d_name := $"lt:any_any" |}; {| d_space := 7; d_anchor := 3; d_name := $"add:i32_i32" |};
   {| d_space := 7; d_anchor := 5; d_name := $"sub:i32_i32" |}; {| d_space := 0; d_anchor := 9; d_name := $"raw:i64" |}]%N.
Proof. vm_compute. reflexivity. Qed.
(** Finding: a function whose space is not declared is written as a function of space zero, which may be another, declared space. *)
Theorem C39_undeclared_refuted : forall f s, f_space f = Some s -> s <> 0%N -> forall uri,
  let t := [ESpace uri 0; EFunction f] in outputExtensionSpaces t = [(uri, 0%N)] /\ outputFunctions t = [{| d_space := 0; d_anchor := f_anchor f; d_name := f_name f |}].
Proof.
  intros f s E N0 uri t. split; auto. unfold t, outputFunctions. cbn. rewrite E. cbn. unfold space_is, no_space, binary_decl. rewrite E, N.eqb_refl. cbn.
  destruct s; [congruence|]. rewrite E. reflexivity.
Qed.
Print Assumptions C39_undeclared_refuted.

(** * C40 *)
(** When every function has a space and different used spaces have different URIs, each function is listed exactly once, under the URI of
    its space, and the blocks come in ascending order of URI. *)
Theorem C40_listed_partial : forall t l, Forall has_space (functions t) -> distinct_names t -> outputFunctionsSection t = Ok l ->
  Permutation (flat_map listed l) (map (as_listed t) (functions t)).
Proof. exact all_listed. Qed.
Print Assumptions C40_listed_partial.
Definition ex_spaced : list entry :=
  [ESpace $"/b.yaml" 7; EFunction (fn $"sub" $"sub:i32_i32" (Some 7%N) 3); EOther $"orders"; ESpace $"/a.yaml" 2;
   EFunction (fn $"lt" $"lt:any_any" (Some 2%N) 4); EFunction (fn $"add" $"add:i32_i32" (Some 7%N) 5)].
Example C40_ex : Forall has_space (functions ex_spaced) /\ distinct_names ex_spaced /\
  outputFunctionsSection ex_spaced = Ok [(Some $"/a.yaml", [($"lt", $"lt:any_any")]); (Some $"/b.yaml", [($"add", $"add:i32_i32"); ($"sub", $"sub:i32_i32")])].
Proof.
  split; [|split].
  - repeat constructor; discriminate.
  - intros f g a b If Ig Ea Eb En. cbn in If, Ig. destruct If as [<-|[<-|[<-|[]]]], Ig as [<-|[<-|[<-|[]]]]; cbn in Ea, Eb; injection Ea as <-; injection Eb as <-; auto; vm_compute in En; discriminate.
  - vm_compute. reflexivity.
Qed.
(** Findings.  One function without a space makes printing throw; ... *)
Theorem C40_no_space_refuted : forall t f, In f (functions t) -> f_space f = None -> outputFunctionsSection t = Throw EBadOptional.
Proof. intros t f I E. apply section_throws. intros F. rewrite Forall_forall in F. exact (F f I E). Qed.
Print Assumptions C40_no_space_refuted.
(** ... of two used spaces with the same URI, or both without one, only one is printed, and the functions of the other are missing. *)
Theorem C40_lost_refuted : forall t l f g a b, Forall has_space (functions t) -> In f (functions t) -> In g (functions t) -> f_space f = Some a -> f_space g = Some b -> a <> b ->
  spaceName t a = spaceName t b -> outputFunctionsSection t = Ok l -> length (flat_map listed l) < length (functions t).
Proof. exact some_lost. Qed.
Print Assumptions C40_lost_refuted.
Example C40_lost_ex : let t := [ESpace $"/a.yaml" 1; ESpace $"/a.yaml" 2; EFunction (fn $"add" $"add:i32_i32" (Some 1%N) 0); EFunction (fn $"lt" $"lt:any_any" (Some 2%N) 1)] in
  Forall has_space (functions t) /\ spaceName t 1 = spaceName t 2 /\ outputFunctionsSection t = Ok [(Some $"/a.yaml", [($"add", $"add:i32_i32")])].
Proof. split; [repeat constructor; discriminate|]. vm_compute. auto. Qed.

(** * C62 *)
(** Binary plan, printed, read: every function reference is printed as a name that, when read, becomes a reference to the same function. *)
Lemma import_unique uris ds : Independent (map (fun d => shortName (d_name d)) ds) -> NoDup (map f_short (functions (import_decls uris ds))).
Proof.
  intros I. destruct (import_run ds empty_table) as (t & T & R & A & B). destruct (import_parts uris ds) as [_ ->]. rewrite <- B. apply (unique_nodup _ t T R). rewrite A. exact I.
Qed.
Theorem C62_round_trip_partial : forall uris ds before blocks, declared uris ds -> Independent (map (fun d => shortName (d_name d)) ds) ->
  let t := import_decls uris ds in
  (forall f, In f (functions t) -> ~ In (f_short f) before /\ ~ In (f_short f) (map fst uris)) ->
  outputFunctionsSection t = Ok blocks ->
  let t' := read_text before blocks in
  (forall a uri name, denotes uris ds a uri name -> exists short a', lookupFunctionReference t a = Some short /\ resolve_function t' short = Some a' /\
     denotes_only (outputExtensionSpaces t') (outputFunctions t') a' uri name) /\
  declared (outputExtensionSpaces t') (outputFunctions t') /\ length (outputFunctions t') = length ds.
Proof. intros uris ds before blocks D I t Dis E t'. refine (round_trip uris ds before blocks D E _ Dis). apply import_unique, I. Qed.
Print Assumptions C62_round_trip_partial.
(** Printing never fails for such a plan. *)
Theorem C62_printed : forall uris ds, declared uris ds -> exists blocks, outputFunctionsSection (import_decls uris ds) = Ok blocks.
Proof. intros uris ds D. destruct (section_shown _ (proj1 (import_distinct uris ds D))) as (l & E & _). eauto. Qed.
Print Assumptions C62_printed.
Definition ex_uris : list (str * N) := [($"/b.yaml", 7%N); ($"/a.yaml", 2%N)].
Definition ex_decls : list fdecl := [{| d_space := 7; d_anchor := 30; d_name := $"add:i32_i32" |}; {| d_space := 2; d_anchor := 10; d_name := $"lt:any_any" |}; {| d_space := 7; d_anchor := 20; d_name := $"add:i64_i64" |}]%N.
Definition ex_read := read_text [$"schema1"; $"id"] [(Some $"/a.yaml", [($"lt", $"lt:any_any")]); (Some $"/b.yaml", [($"add", $"add:i32_i32"); ($"add2", $"add:i64_i64")])].
Example C62_ex : declared ex_uris ex_decls /\ Independent (map (fun d => shortName (d_name d)) ex_decls) /\
  outputFunctionsSection (import_decls ex_uris ex_decls) = Ok [(Some $"/a.yaml", [($"lt", $"lt:any_any")]); (Some $"/b.yaml", [($"add", $"add:i32_i32"); ($"add2", $"add:i64_i64")])] /\
  lookupFunctionReference (import_decls ex_uris ex_decls) 20 = Some $"add2" /\ resolve_function ex_read $"add2" = Some 2%N.
Proof.
  split; [|split; [|vm_compute; auto]].
  - constructor; cbn.
    + repeat constructor; cbn; intuition discriminate.
    + repeat constructor; cbn; intuition discriminate.
    + repeat constructor; cbn; intuition discriminate.
    + intros d [<-|[<-|[<-|[]]]]; cbn; auto.
  - apply no_digit_independent. apply Forall_forall. intros x H. right. cbn in H. destruct H as [<-|[<-|[<-|[]]]]; [exists $"ad", "d"%char|exists $"l", "t"%char|exists $"ad", "d"%char]; split; reflexivity.
Qed.
(** Findings.  A column (or schema, source, table) with the short name of a function hides it: the reference cannot be read back; ... *)
Theorem C62_hidden_refuted : forall before blocks name, In name before -> resolve_function (read_text before blocks) name = None.
Proof.
  intros before blocks name I. unfold resolve_function, read_text. destruct (find _ (map EOther before ++ _)) as [e|] eqn:F; auto.
  assert (G : forall l rest, In name l -> find (fun e => entry_name e =s name) (map EOther l ++ rest) = Some (EOther name)).
  { clear. induction l as [|x l IH]; intros rest; [intros []|]. cbn. destruct (x =s name) eqn:E; [apply seq_eqb_eq in E; subst; auto|]. intros [->|I]; [rewrite seq_eqb_refl in E; discriminate|auto]. }
  rewrite (G before _ I) in F. injection F as <-. auto.
Qed.
Print Assumptions C62_hidden_refuted.
(** ... short names that are others with a number collide (see C24), and one of the functions is read as the other: here the call of
    [a:i16] comes back as a call of [a2:i8]. *)
Theorem C62_collision_refuted :
  let uris := [($"/a.yaml", 1%N)] in
  let ds := [{| d_space := 1; d_anchor := 1; d_name := $"a:i8" |}; {| d_space := 1; d_anchor := 2; d_name := $"a:i16" |}; {| d_space := 1; d_anchor := 3; d_name := $"a2:i8" |}]%N in
  exists blocks short a', declared uris ds /\ outputFunctionsSection (import_decls uris ds) = Ok blocks /\ denotes uris ds 2 $"/a.yaml" $"a:i16" /\
    lookupFunctionReference (import_decls uris ds) 2 = Some short /\ resolve_function (read_text [] blocks) short = Some a' /\
    In {| d_space := 1; d_anchor := a'; d_name := $"a2:i8" |} (outputFunctions (read_text [] blocks)).
Proof.
  intros uris ds. eexists _, _, _. split; [|split; [vm_compute; reflexivity|split; [|split; [vm_compute; reflexivity|split; [vm_compute; reflexivity|vm_compute; auto]]]]].
  - constructor; cbn; [repeat constructor; cbn; intuition discriminate..|]. intros d [<-|[<-|[<-|[]]]]; cbn; auto.
  - eexists. split; [right; left; reflexivity|]. cbn. auto.
Qed.
Print Assumptions C62_collision_refuted.
