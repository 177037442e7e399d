(** C30 - C34: normalising extension references. *)
From Verif Require Import Base ProtoModel NormalizerModel NormalizerFacts NormalizerTreeFacts NormalizerRenFacts NormalizerPlanFacts NormalizerMainFacts.
From Coq Require Import Permutation.

(** Two spaces, two functions, one call nested in another. *)
Definition ex_decls := [DFun 7 9 $"sub"; DFun 3 4 $"add"; DFun 0 2 $"own"].
Definition ex_call := XScalar 9 [AValue (XCast (Some (XScalar 4 [] [] 0)) 0); AEnum 1] [] 5.
Definition ex_with (r : rel) : plan :=
  {| p_spaces := [{| sp_anchor := 7; sp_uri := $"b" |}; {| sp_anchor := 3; sp_uri := $"a" |}];
     p_decls := ex_decls; p_rels := [PRoot (Some r) 0; PNone]; p_rest := 1%N |}.
Definition ex_plan := ex_with (RFilter (Some (RRead None None 0)) (Some ex_call) 0).
Lemma ex_well r : well_numbered (ex_with r).
Proof.
  constructor; cbn.
  - repeat constructor.
  - repeat constructor; cbn; intuition discriminate.
  - repeat constructor; cbn; intuition discriminate.
  - intros s a n [E|[E|[E|[]]]]; injection E as <- _ _; auto.
Qed.

(** ** C30 *)
(** Partial: for the calls the normaliser looks at (see [mark]); the others are shown wrong below. *)
Theorem C30_meaning_preserved_partial : forall srt, valid srt -> forall p p', well_numbered p -> normalize srt p = Ok p' ->
  Forall2 (fun c c' => fst c <> Missed -> meaning p' (snd c') = meaning p (snd c) /\ meaning p (snd c) <> None) (calls p) (calls p').
Proof. exact meaning_preserved. Qed.
Print Assumptions C30_meaning_preserved_partial.
Example C30_ex : valid stable /\ well_numbered ex_plan /\ calls ex_plan = [(Reached, 9%N); (Reached, 4%N)] /\
  (exists p', normalize stable ex_plan = Ok p' /\ calls p' = [(Reached, 2%N); (Reached, 1%N)] /\ meaning p' 2 = Some (Some $"b", $"sub")).
Proof. split; [exact stable_valid|]. split; [apply ex_well|]. split; [reflexivity|]. eexists. split; [vm_compute; reflexivity|]. vm_compute. auto. Qed.

(** A call inside the argument of a measure keeps its old number and means something else afterwards. *)
Theorem C30_missed_calls_refuted : exists p p', well_numbered p /\ (forall c, In c (calls p) -> declared p (snd c)) /\ normalize stable p = Ok p' /\
  calls p' = [(Reached, 2%N); (Missed, 2%N)] /\ calls p = [(Reached, 9%N); (Missed, 2%N)] /\
  meaning p 2 = Some (None, $"own") /\ meaning p' 2 = Some (Some $"b", $"sub").
Proof.
  pose (r := RAggregate (Some (RRead None None 0)) [] [Measure (Some (AFun 9 [AValue (XScalar 2 [] [] 0)] [] [] 0)) None] 0).
  exists (ex_with r). eexists. split; [apply ex_well|]. split.
  { intros c [<-|[<-|[]]]; cbn; [exists 7%N, $"sub"|exists 0%N, $"own"]; cbn; auto. }
  split; [vm_compute; reflexivity|]. vm_compute. auto.
Qed.
Print Assumptions C30_missed_calls_refuted.
(** With a type declaration next to the functions, calls of function zero change their meaning. *)
Theorem C30_type_declaration_refuted : exists p p', NoDup (map sp_anchor (p_spaces p)) /\ calls p = [(Reached, 0%N)] /\ normalize stable p = Ok p' /\
  meaning p 0 = Some (Some $"a", $"add") /\ calls p' = [(Reached, 1%N)] /\ meaning p' 1 = Some (None, []).
Proof.
  exists {| p_spaces := [{| sp_anchor := 1; sp_uri := $"a" |}]; p_decls := [DFun 1 0 $"add"; DOther 8];
            p_rels := [PRoot (Some (RRead (Some (XScalar 0 [] [] 0)) None 0)) 0]; p_rest := 0%N |}.
  eexists. split; [repeat constructor; auto|]. split; [reflexivity|]. split; [vm_compute; reflexivity|]. vm_compute. auto.
Qed.
Print Assumptions C30_type_declaration_refuted.

(** ** C31 *)
Theorem C31_spaces_numbered : forall srt, valid srt -> forall p p', normalize srt p = Ok p' ->
  map sp_anchor (p_spaces p') = upto 1 (length (p_spaces p)) /\ Permutation (map sp_uri (p_spaces p)) (map sp_uri (p_spaces p')) /\
  sorted_by before (map sp_uri (p_spaces p')).
Proof. exact spaces_numbered. Qed.
Print Assumptions C31_spaces_numbered.
Theorem C31_functions_numbered : forall srt, valid srt -> forall p p', all_functions p -> normalize srt p = Ok p' ->
  map anchor (p_decls p') = upto 0 (length (p_decls p)) /\ all_functions p' /\ sorted_by decl_before (p_decls p').
Proof. exact functions_numbered. Qed.
Print Assumptions C31_functions_numbered.
Theorem C31_declarations_kept : forall srt, valid srt -> forall p p', well_numbered p -> normalize srt p = Ok p' ->
  Permutation (map (decl_meaning p) (p_decls p)) (map (decl_meaning p') (p_decls p')).
Proof. exact declarations_kept. Qed.
Print Assumptions C31_declarations_kept.
Example C31_ex : exists p', normalize unstable ex_plan = Ok p' /\ valid unstable /\
  p_spaces p' = [{| sp_anchor := 1; sp_uri := $"a" |}; {| sp_anchor := 2; sp_uri := $"b" |}] /\
  p_decls p' = [DFun 0 0 $"own"; DFun 1 1 $"add"; DFun 2 2 $"sub"].
Proof. eexists. split; [vm_compute; reflexivity|]. split; [exact unstable_valid|]. auto. Qed.
(** A type declaration is turned into a function without a name: a declaration is lost and another invented,
    and the result is not sorted. *)
Theorem C31_type_declaration_refuted : exists p p', normalize stable p = Ok p' /\
  p_decls p = [DFun 1 5 $"add"; DOther 8] /\ p_decls p' = [DFun 1 0 $"add"; DFun 0 1 []] /\ ~ sorted_by decl_before (p_decls p').
Proof.
  exists {| p_spaces := [{| sp_anchor := 1; sp_uri := $"a" |}]; p_decls := [DFun 1 5 $"add"; DOther 8]; p_rels := []; p_rest := 0%N |}.
  eexists. split; [vm_compute; reflexivity|]. split; auto. split; auto. cbn. intros S. inversion_clear S as [|? ? _ F]. inversion_clear F as [|? ? H _]. apply H. cbn. left. reflexivity.
Qed.
Print Assumptions C31_type_declaration_refuted.

(** ** C32 *)
(** Partial: only for distinct URIs and when no two functions end up with the same space and name (and without type declarations). *)
Theorem C32_idempotent_partial : forall srt srt' p p', valid srt -> valid srt' -> all_functions p -> normalize srt p = Ok p' ->
  distinct_uris p -> NoDup (map bare (p_decls p')) -> normalize srt' p' = Ok p'.
Proof. exact idempotent. Qed.
Print Assumptions C32_idempotent_partial.
Theorem C32_idempotent_well_numbered : forall srt srt' p p', valid srt -> valid srt' -> well_numbered p -> distinct_uris p -> distinct_meanings p ->
  normalize srt p = Ok p' -> normalize srt' p' = Ok p'.
Proof. exact idempotent_wn. Qed.
Print Assumptions C32_idempotent_well_numbered.
Example C32_ex : distinct_uris ex_plan /\ distinct_meanings ex_plan /\ (exists p', normalize stable ex_plan = Ok p' /\ p' <> ex_plan /\ normalize unstable p' = Ok p').
Proof.
  split; [repeat constructor; cbn; intuition discriminate|]. split; [repeat constructor; cbn; intuition discriminate|].
  eexists. split; [vm_compute; reflexivity|]. split; [discriminate|vm_compute; reflexivity].
Qed.
(** With two equally named functions a sort that is not stable makes the second run differ from the first. *)
Theorem C32_duplicates_refuted : exists srt p p' p'', valid srt /\ well_numbered p /\ distinct_uris p /\
  normalize srt p = Ok p' /\ normalize srt p' = Ok p'' /\ p'' <> p'.
Proof.
  exists unstable, {| p_spaces := []; p_decls := [DFun 0 5 $"f"; DFun 0 6 $"f"]; p_rels := [PRel (RRead (Some (XScalar 5 [] [] 0)) None 0)]; p_rest := 0%N |}.
  do 2 eexists. split; [exact unstable_valid|]. split.
  { constructor; cbn; [repeat constructor|constructor|repeat constructor; cbn; intuition discriminate|]. intros s a n [E|[E|[]]]; injection E as <- _ _; auto. }
  split; [constructor|]. split; [vm_compute; reflexivity|]. split; [vm_compute; reflexivity|]. discriminate.
Qed.
Print Assumptions C32_duplicates_refuted.
(** A type declaration makes the second run differ, whatever the sort. *)
Theorem C32_type_declaration_refuted : exists p p' p'', normalize stable p = Ok p' /\ normalize stable p' = Ok p'' /\ p'' <> p'.
Proof.
  exists {| p_spaces := [{| sp_anchor := 1; sp_uri := $"a" |}]; p_decls := [DFun 1 5 $"add"; DOther 8]; p_rels := []; p_rest := 0%N |}.
  do 2 eexists. split; [vm_compute; reflexivity|]. split; [vm_compute; reflexivity|]. discriminate.
Qed.
Print Assumptions C32_type_declaration_refuted.

(** ** C33 *)
(** Partial: only for plans whose calls are all in places the normaliser looks at. *)
Theorem C33_canonical_partial : forall srt srt' t s p q, valid srt -> valid srt' -> well_numbered p -> distinct_uris p -> distinct_meanings p ->
  injective t -> injective s -> t 0%N = 0%N -> renumbered t s p q -> Forall reached (calls p) -> normalize srt' q = normalize srt p.
Proof. exact canonical. Qed.
Print Assumptions C33_canonical_partial.
Definition ex_q : plan :=
  {| p_spaces := [{| sp_anchor := 6; sp_uri := $"a" |}; {| sp_anchor := 14; sp_uri := $"b" |}];
     p_decls := [DFun 6 5 $"add"; DFun 0 3 $"own"; DFun 14 10 $"sub"];
     p_rels := [PRoot (Some (RFilter (Some (RRead None None 0)) (Some (XScalar 10 [AValue (XCast (Some (XScalar 5 [] [] 0)) 0); AEnum 1] [] 5)) 0)) 0; PNone]; p_rest := 1%N |}.
Example C33_ex : renumbered (fun x => 2 * x)%N (fun x => x + 1)%N ex_plan ex_q /\ injective (fun x => 2 * x)%N /\ injective (fun x => x + 1)%N /\ Forall reached (calls ex_plan).
Proof.
  repeat split.
  - cbn. apply perm_swap.
  - cbn. eapply perm_trans; [apply perm_swap|]. apply perm_skip, perm_swap.
  - intros a b E. apply (N.mul_cancel_l a b 2); auto. discriminate.
  - intros a b E. apply (N.add_cancel_r a b 1). auto.
  - repeat constructor.
Qed.
(** Two numberings of a plan with a call in the argument of a measure are not brought together. *)
Theorem C33_missed_calls_refuted : exists s p q, injective s /\ well_numbered p /\ distinct_uris p /\ distinct_meanings p /\ renumbered (fun x => x) s p q /\
  normalize stable q <> normalize stable p.
Proof.
  pose (r := fun f g => RAggregate (Some (RRead None None 0)) [] [Measure (Some (AFun f [AValue (XScalar g [] [] 0)] [] [] 0)) None] 0).
  exists (fun x => x + 1)%N, (ex_with (r 9%N 2%N)), {| p_spaces := p_spaces ex_plan; p_decls := map (decl_ren (fun x => x) (fun x => x + 1)%N) ex_decls; p_rels := [PRoot (Some (r 10%N 3%N)) 0; PNone]; p_rest := 1%N |}.
  split; [intros a b E; apply (N.add_cancel_r a b 1); auto|]. split; [apply ex_well|].
  split; [repeat constructor; cbn; intuition discriminate|]. split; [repeat constructor; cbn; intuition discriminate|].
  split; [constructor; cbn; auto|]. vm_compute. discriminate.
Qed.
Print Assumptions C33_missed_calls_refuted.

(** ** C34 *)
Theorem C34_throws_iff_dangling : forall srt, valid srt -> forall p, all_functions p ->
  (normalize srt p = Throw EStdOutOfRange <-> Exists (dangles p) (calls p)).
Proof. exact throws_iff. Qed.
Print Assumptions C34_throws_iff_dangling.
Theorem C34_no_other_outcome : forall srt p, (exists p', normalize srt p = Ok p') \/ normalize srt p = Throw EStdOutOfRange.
Proof. intros srt p. destruct (plan_fails srt p) as [H|[H _]]; auto. Qed.
Print Assumptions C34_no_other_outcome.
(** Partial: up to inputs and measures that were absent and are now present but empty. *)
Theorem C34_only_references_partial : forall srt p p', normalize srt p = Ok p' -> map blank (p_rels p') = map blank (p_rels p) /\ p_rest p' = p_rest p.
Proof. exact only_references. Qed.
Print Assumptions C34_only_references_partial.
Example C34_ex : Exists (dangles (ex_with (RRead None (Some (XScalar 5 [] [] 0)) 0))) (calls (ex_with (RRead None (Some (XScalar 5 [] [] 0)) 0))) /\
  normalize stable (ex_with (RRead None (Some (XScalar 5 [] [] 0)) 0)) = Throw EStdOutOfRange /\ (exists p', normalize stable ex_plan = Ok p').
Proof.
  split; [|split; [vm_compute; reflexivity|eexists; vm_compute; reflexivity]]. constructor. split; [discriminate|]. intros (s & n & [E|[E|[E|[]]]]); discriminate.
Qed.
(** A filter without an input gets one (an empty relation). *)
Theorem C34_absent_input_refuted : exists p p', normalize stable p = Ok p' /\ p_rels p = [PRel (RFetch None 3)] /\ p_rels p' = [PRel (RFetch (Some RNone) 3)].
Proof. exists {| p_spaces := []; p_decls := []; p_rels := [PRel (RFetch None 3)]; p_rest := 0%N |}. eexists. split; [vm_compute; reflexivity|]. auto. Qed.
Print Assumptions C34_absent_input_refuted.
(** A function in an undeclared space is not reported; afterwards it is in some other space. *)
Theorem C34_dangling_space_refuted : exists p p', normalize stable p = Ok p' /\ meaning p 5 = Some (None, $"f") /\ meaning p' 0 = Some (Some $"a", $"f") /\
  calls p = [(Reached, 5%N)] /\ calls p' = [(Reached, 0%N)].
Proof.
  exists {| p_spaces := [{| sp_anchor := 7; sp_uri := $"a" |}]; p_decls := [DFun 1 5 $"f"]; p_rels := [PRel (RRead (Some (XScalar 5 [] [] 0)) None 0)]; p_rest := 0%N |}.
  eexists. split; [vm_compute; reflexivity|]. vm_compute. auto.
Qed.
Print Assumptions C34_dangling_space_refuted.
(** A call of function zero is not reported as dangling if there is a type declaration. *)
Theorem C34_type_declaration_refuted : exists p p', normalize stable p = Ok p' /\ calls p = [(Reached, 0%N)] /\ ~ declared p 0.
Proof.
  exists {| p_spaces := []; p_decls := [DOther 8]; p_rels := [PRel (RRead (Some (XScalar 0 [] [] 0)) None 0)]; p_rest := 0%N |}.
  eexists. split; [vm_compute; reflexivity|]. split; [reflexivity|]. intros (s & n & [E|[]]). discriminate.
Qed.
Print Assumptions C34_type_declaration_refuted.
