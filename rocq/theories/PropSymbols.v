(** Properties C22 - C29: symbol table, locations, errors. *)
From Verif Require Import Base BaseFacts SymbolModel SymbolFacts SymbolMoreFacts.

Definition mk n l t := {| k_name := n; k_loc := l; k_type := t |}.
Definition sample : list op := [
  ODefine $"a" (LMsg 7) KRelation 1; ODefine $"b" (LMsg 5) KField 2; ODefine $"a" (LMsg 7) KSource 3;
  OAlias $"c" (mk $"b" (LMsg 5) KField); OPermanent (mk $"b" (LMsg 5) KField) (LMsg 7); ODefineUnique $"r" (LMsg 9) KRelation 4;
  ODefineUnique $"r" (LMsg 9) KRelation 5; OParent (mk $"r2" (LMsg 9) KRelation) (LMsg 5); OParent (mk $"a" (LMsg 7) KRelation) (LMsg 5);
  OParent (mk $"r" (LMsg 9) KRelation) (LMsg 7); ODefine $"c" (LMsg 7) KRelation 6].

(** ** C22 *)
Theorem C22_first ops t T n : run empty_table ops = Ok (t, T) -> lookupSymbolByName t n = first_named n (name_events [] T).
Proof. exact (names_spec ops t T n). Qed.
Print Assumptions C22_first.
(** Whatever follows, the name keeps designating the same symbol, whose name, location, kind and contents stay. *)
Theorem C22_stable ops more t T t' T' n i : run empty_table ops = Ok (t, T) -> run empty_table (ops ++ more) = Ok (t', T') ->
  lookupSymbolByName t n = Some i ->
  lookupSymbolByName t' n = Some i /\ exists s s', nth_error (t_symbols t) i = Some s /\ nth_error (t_symbols t') i = Some s' /\
    s_name s' = s_name s /\ s_source s' = s_source s /\ s_type s' = s_type s /\ s_blob s' = s_blob s.
Proof. exact (names_stable ops more t T t' T' n i). Qed.
Print Assumptions C22_stable.
(** Operations are defined exactly when the symbol they designate was defined before. *)
Theorem C22_defined ops t T o : run empty_table ops = Ok (t, T) ->
  match designated o with
  | Some k => (exists b, In (k, b) (definitions T)) <-> step t o <> UB
  | None => step t o <> UB
  end /\ forall e, step t o <> Throw e.
Proof. exact (step_defined ops t T o). Qed.
Print Assumptions C22_defined.
Example C22_ex : exists t T, run empty_table sample = Ok (t, T) /\ lookupSymbolByName t $"a" = Some 0 /\ lookupSymbolByName t $"c" = Some 1 /\
  lookupSymbolByName t $"r2" = Some 4 /\ lookupSymbolByName t $"d" = None.
Proof. eexists. eexists. split; [vm_compute; reflexivity|]. repeat split; vm_compute; reflexivity. Qed.

(** ** C23 *)
Theorem C23_locations ops t T l : run empty_table ops = Ok (t, T) -> lookupSymbolsByLocation t l = here l (loc_events [] T).
Proof. exact (locs_spec ops t T l). Qed.
Print Assumptions C23_locations.
Theorem C23_types ops t T l types : run empty_table ops = Ok (t, T) ->
  lookupSymbolByLocationAndTypes t l types =
  find (fun i => match type_at (definitions T) i with Some ty => existsb (stype_eqb ty) types | None => false end) (here l (loc_events [] T)).
Proof. exact (locs_types_spec ops t T l types). Qed.
Print Assumptions C23_types.
Theorem C23_type ops t T l ty : run empty_table ops = Ok (t, T) ->
  lookupSymbolByLocationAndType t l ty =
  find (fun i => match type_at (definitions T) i with Some ty' => existsb (stype_eqb ty') [ty] | None => false end) (here l (loc_events [] T)).
Proof. exact (locs_types_spec ops t T l [ty]). Qed.
Print Assumptions C23_type.
Example C23_ex : exists t T, run empty_table sample = Ok (t, T) /\ lookupSymbolsByLocation t (LMsg 7) = [0; 2; 1; 5] /\
  lookupSymbolByLocationAndType t (LMsg 7) KField = Some 1 /\ lookupSymbolByLocationAndTypes t (LMsg 7) [KField; KSource] = Some 2 /\
  lookupSymbolsByLocation t (LMsg 9) = [3; 4] /\ lookupSymbolsByLocation t (LNode 7) = [].
Proof. eexists. eexists. split; [vm_compute; reflexivity|]. repeat split; vm_compute; reflexivity. Qed.
(** Finding: recording a location for a symbol that is not in the table writes out of bounds. *)
Theorem C23_unknown_refuted : step empty_table (OPermanent (mk $"x" (LMsg 1) KRelation) (LMsg 2)) = UB.
Proof. reflexivity. Qed.
Print Assumptions C23_unknown_refuted.

(** ** C24 *)
(** Exactly which names are handed out: the first request of a name gets it, the n-th gets it followed by n. *)
Theorem C24_exact ops t T : run empty_table ops = Ok (t, T) -> Numbered (handed T).
Proof. exact (handed_numbered ops t T). Qed.
Print Assumptions C24_exact.
(** They are pairwise distinct if no requested name is another requested name followed by digits.
    Missing: other requests and names defined without asking for uniqueness; false for both (below). *)
Theorem C24_unique_partial ops t T : run empty_table ops = Ok (t, T) -> Independent (map fst (handed T)) -> NoDup (map snd (handed T)).
Proof. exact (unique_nodup ops t T). Qed.
Print Assumptions C24_unique_partial.
Theorem C24_no_final_digit B : Forall no_final_digit B -> Independent B.
Proof. exact (no_digit_independent B). Qed.
Print Assumptions C24_no_final_digit.
(** If symbols are only defined under unique names, each is found by the name it was given. *)
Theorem C24_found_partial ops t T o i u : run empty_table ops = Ok (t, T) -> Forall unique_only ops -> Independent (map fst (handed T)) ->
  In (o, RSymbol i u) T -> lookupSymbolByName t u = Some i.
Proof. exact (unique_found ops t T o i u). Qed.
Print Assumptions C24_found_partial.
Definition requests3 : list op := [ODefineUnique $"join" (LMsg 1) KRelation 0; ODefineUnique $"read" (LMsg 2) KRelation 0;
  ODefineUnique $"join" (LMsg 3) KRelation 0; OParent (mk $"join2" (LMsg 3) KRelation) (LMsg 1); ODefineUnique $"join" (LMsg 4) KRelation 0].
Example C24_ex : exists t T, run empty_table requests3 = Ok (t, T) /\ map snd (handed T) = [$"join"; $"read"; $"join2"; $"join3"] /\
  Independent (map fst (handed T)) /\ Forall unique_only requests3 /\ lookupSymbolByName t $"join3" = Some 3.
Proof.
  eexists. eexists. split; [vm_compute; reflexivity|]. split; [vm_compute; reflexivity|]. split; [|split; [repeat constructor|vm_compute; reflexivity]].
  match goal with |- Independent ?x => change x with [$"join"; $"read"; $"join"; $"join"] end. apply no_digit_independent.
  apply Forall_forall. intros x H. right. cbn [In] in H. destruct H as [<-|[<-|[<-|[<-|[]]]]];
    [exists $"joi", "n"%char|exists $"rea", "d"%char|exists $"joi", "n"%char|exists $"joi", "n"%char]; split; reflexivity.
Qed.
(** Findings: a, a, a2 gives the name a2 twice, and the third symbol cannot be found; names of ordinary definitions are not avoided. *)
Theorem C24_collision_refuted : exists t T,
  run empty_table [ODefineUnique $"a" (LMsg 1) KRelation 0; ODefineUnique $"a" (LMsg 2) KRelation 0; ODefineUnique $"a2" (LMsg 3) KRelation 0] = Ok (t, T) /\
  map snd (handed T) = [$"a"; $"a2"; $"a2"] /\ lookupSymbolByName t $"a2" = Some 1.
Proof. eexists. eexists. split; [vm_compute; reflexivity|]. split; vm_compute; reflexivity. Qed.
Print Assumptions C24_collision_refuted.
Theorem C24_defined_refuted : exists t T,
  run empty_table [ODefine $"a" (LMsg 1) KRelation 0; ODefineUnique $"a" (LMsg 2) KRelation 0] = Ok (t, T) /\
  map snd (handed T) = [$"a"] /\ lookupSymbolByName t $"a" = Some 0.
Proof. eexists. eexists. split; [vm_compute; reflexivity|]. split; vm_compute; reflexivity. Qed.
Print Assumptions C24_defined_refuted.

(** ** C25 *)
(** Symbols attached at most once, to known parents: the k-th one attached to a parent carries number k ... *)
Theorem C25_numbered ops t T : run empty_table ops = Ok (t, T) -> NoDup (map fst (attachments [] T)) ->
  Forall (fun e => snd e <> unknown_loc) (attachments [] T) ->
  forall l k i, nth_error (attached_to l (attachments [] T)) k = Some i ->
    exists s, nth_error (t_symbols t) i = Some s /\ s_parent s = l /\ s_index s = Z.of_nat k.
Proof. exact (fun R N U => proj1 (attach_spec ops t T R N U)). Qed.
Print Assumptions C25_numbered.
(** ... and is what the lookup by parent, number and kind finds; nothing else is ever found. *)
Theorem C25_found ops t T q n ty : run empty_table ops = Ok (t, T) -> NoDup (map fst (attachments [] T)) ->
  Forall (fun e => snd e <> unknown_loc) (attachments [] T) -> q <> unknown_loc ->
  lookupSymbolByParentQueryAndType t q n ty =
  match nth_error (attached_to q (attachments [] T)) (Z.to_nat n) with
  | Some i => if (0 <=? n)%Z && match type_at (definitions T) i with Some ty' => stype_eqb ty' ty | None => false end then Some i else None
  | None => None
  end.
Proof. exact (attach_lookup ops t T q n ty). Qed.
Print Assumptions C25_found.
Example C25_ex : exists t T, run empty_table sample = Ok (t, T) /\ attachments [] T = [(4, LMsg 5); (0, LMsg 5); (3, LMsg 7)] /\
  lookupSymbolByParentQueryAndType t (LMsg 5) 1 KRelation = Some 0 /\ lookupSymbolByParentQueryAndType t (LMsg 5) 0 KRelation = Some 4 /\
  lookupSymbolByParentQueryAndType t (LMsg 5) 2 KRelation = None.
Proof. eexists. eexists. split; [vm_compute; reflexivity|]. repeat split; vm_compute; reflexivity. Qed.
(** Attaching the same symbol again skips a number: the restriction to distinct symbols is needed. *)
Theorem C25_again : let k := mk $"a" (LMsg 1) KRelation in exists t T,
  run empty_table [ODefine $"a" (LMsg 1) KRelation 0; OParent k (LMsg 2); OParent k (LMsg 2)] = Ok (t, T) /\
  lookupSymbolByParentQueryAndType t (LMsg 2) 0 KRelation = None /\ lookupSymbolByParentQueryAndType t (LMsg 2) 1 KRelation = Some 0.
Proof. eexists. eexists. split; [vm_compute; reflexivity|]. split; vm_compute; reflexivity. Qed.
Print Assumptions C25_again.

(** ** C26 *)
Theorem C26_iteration ops t T : run empty_table ops = Ok (t, T) ->
  map (fun s => ({| k_name := s_name s; k_loc := s_source s; k_type := s_type s |}, s_blob s)) (all_symbols t) = definitions T.
Proof. exact (iteration_spec ops t T). Qed.
Print Assumptions C26_iteration.
Theorem C26_nth ops t T n ty : run empty_table ops = Ok (t, T) -> nthSymbolByType t n ty = nth_error (of_kind ty (definitions T)) n.
Proof. exact (nth_spec ops t T n ty). Qed.
Print Assumptions C26_nth.
Example C26_ex : exists t T, run empty_table sample = Ok (t, T) /\ of_kind KRelation (definitions T) = [0; 3; 4; 5] /\
  nthSymbolByType t 2 KRelation = Some 4 /\ nthSymbolByType t 4 KRelation = None /\ length (all_symbols t) = 6.
Proof. eexists. eexists. split; [vm_compute; reflexivity|]. repeat split; vm_compute; reflexivity. Qed.

(** ** C27 *)
(** Missing: the kinds root, table and measure (below). *)
Theorem C27_names_partial t : t <> KRoot -> t <> KTable -> t <> KMeasure -> exists s, symbolTypeName t = Ok s.
Proof. exact (stype_name_defined t). Qed.
Print Assumptions C27_names_partial.
Theorem C27_distinct a b s : symbolTypeName a = Ok s -> symbolTypeName b = Ok s -> a = b.
Proof. exact (stype_name_inj a b s). Qed.
Print Assumptions C27_distinct.
Example C27_ex : symbolTypeName KSchema = Ok $"kSchema" /\ symbolTypeName KUnknown = Ok $"kUnknown".
Proof. split; reflexivity. Qed.
(** Finding: the name of the root kind is read past the end of the table; tables and measures have no name. *)
Theorem C27_root_refuted : symbolTypeName KRoot = UB /\ symbolTypeName KTable = Throw EInvalidState /\ symbolTypeName KMeasure = Throw EInvalidState.
Proof. repeat split. Qed.
Print Assumptions C27_root_refuted.

(** ** C28 *)
Theorem C28_equality a b : loc_eqb a b = true <-> a = b.
Proof. exact (loc_eqb_eq a b). Qed.
Print Assumptions C28_equality.
Theorem C28_hash h a b : loc_eqb a b = true -> loc_hash h a = loc_hash h b.
Proof. exact (fun E => f_equal (loc_hash h) (proj1 (loc_eqb_eq a b) E)). Qed.
Print Assumptions C28_hash.
Theorem C28_order a b c :
  loc_less a a = false /\ (loc_less a b = true -> loc_less b c = true -> loc_less a c = true) /\
  ((loc_less a b = false /\ loc_less b a = false) <-> loc_eqb a b = true).
Proof. exact (conj (less_irrefl a) (conj (less_trans a b c) (less_eq a b))). Qed.
Print Assumptions C28_order.
Example C28_ex : loc_less (LNode 9) (LMsg 3) = true /\ loc_less (LMsg 3) (LNode 9) = false /\ loc_eqb (LNode 3) (LMsg 3) = false /\ loc_hash (fun p => p) (LNode 3) = loc_hash (fun p => p) (LMsg 3).
Proof. repeat split. Qed.

(** ** C29 *)
Theorem C29_success r : successful r = true <-> r_syntax r = [] /\ r_semantic r = [].
Proof. exact (success_iff r). Qed.
Print Assumptions C29_success.
Theorem C29_all_errors r added : getAllErrors (addErrors r added) = r_syntax r ++ added ++ r_semantic r.
Proof. exact (eq_sym (app_assoc (r_syntax r) added (r_semantic r))). Qed.
Print Assumptions C29_all_errors.
(** The messages of a listener: one per recorded error, in order. *)
Definition Rendered (e : error) (m : str) : Prop :=
  (e_line e <> no_coordinate /\ e_column e <> no_coordinate /\ m = print_N (e_line e) ++ $":" ++ print_N (e_column e) ++ arrow ++ e_message e) \/
  ((e_line e = no_coordinate \/ e_column e = no_coordinate) /\ m = e_message e).
Theorem C29_messages ops : Forall2 Rendered (flat_map recorded ops) (getErrorMessages (listener ops)).
Proof. exact (messages_spec ops). Qed.
Print Assumptions C29_messages.
Theorem C29_has_errors ops : hasErrors (listener ops) = true <-> flat_map recorded ops <> [].
Proof. exact (has_errors_spec ops). Qed.
Print Assumptions C29_has_errors.
Example C29_ex : getErrorMessages (listener [EAdd 3 14 $"bad"; EAddBare $"worse"]) = [$"3:14" ++ arrow ++ $"bad"; $"worse"].
Proof. vm_compute. reflexivity. Qed.
