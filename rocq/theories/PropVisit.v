(** C95: how reading a binary plan ends. *)
From Verif Require Import Base VisitMessages VisitModel VisitFacts VisitMainFacts.
From Coq Require Import Lia.

(** * C95 *)
(** Reading gets to its end exactly if no message of the plan is unset, every declaration is one of a function, and every subquery has its relation: whatever names the
    schemas share with other things ([first], [second]). *)
Theorem C95_exact first second p : read_binary first second p = Ok tt <-> forall m, In m (parts p) -> ~ unset m /\ ~ no_function m /\ ~ without_relation m.
Proof. exact (read_iff first second p). Qed.
(** If it ends with an exception, something is unset (and the exception says that it is not supported) or declares something else than a function. *)
Theorem C95_exception first second p e : read_binary first second p = Throw e ->
  exists m, In m (parts p) /\ ((e = EUnsupported /\ unset m) \/ (e = EInvalidState /\ no_function m)).
Proof.
  intros H. destruct (read_fails first second p) as (m & I & D); [rewrite H; discriminate|]. rewrite H in D. exists m. split; [exact I|]. destruct D as [[E D]|[[E D]|[E _]]]; [left|right|discriminate E]; (split; [injection E as ->; reflexivity|exact D]).
Qed.
(** Only a subquery without a relation ends it with undefined behaviour. *)
Theorem C95_crash_only first second p : read_binary first second p = UB -> exists m, In m (parts p) /\ without_relation m.
Proof.
  intros H. destruct (read_fails first second p) as (m & I & D); [rewrite H; discriminate|]. rewrite H in D. exists m. split; [exact I|]. destruct D as [[E _]|[[E _]|[_ D]]]; [discriminate E|discriminate E|exact D].
Qed.
(** Finding: a subquery without a relation, if nothing else is wrong, always does: the symbol of the relation is not there and is used all the same. *)
Theorem C95_subquery_refuted first second p : (forall m, In m (parts p) -> ~ unset m /\ ~ no_function m) -> (exists m, In m (parts p) /\ without_relation m) -> read_binary first second p = UB.
Proof. exact (read_crash first second p). Qed.
(** Finding: the needles of an IN are not looked at, so that unset ones are not reported. *)
Theorem C95_needles_refuted first second names i needles needles' h :
  read_binary first second (Plan [] [] [PRoot names (Some (RFilter i (Some (XSubIn needles h))))]) = read_binary first second (Plan [] [] [PRoot names (Some (RFilter i (Some (XSubIn needles' h))))]).
Proof. reflexivity. Qed.
(** Finding: that an input is missing is not noticed, except for that of a root.  [drop_inputs] is the relation without its inputs. *)
Definition drop_inputs (r : rel) : rel :=
  match r with
  | RFilter _ c => RFilter None c | RFetch _ => RFetch None | RAggregate _ g m => RAggregate None g m | RSort _ s => RSort None s | RJoin _ _ c p => RJoin None None c p | RProject _ e => RProject None e
  | RSet _ => RSet [] | RExtSingle _ => RExtSingle None | RExtMulti _ => RExtMulti [] | RCross _ _ => RCross None None | RWrite s _ => RWrite s None | RDdl s d _ => RDdl s d None
  | RHashJoin _ _ a b c => RHashJoin None None a b c | RMergeJoin _ _ a b c => RMergeJoin None None a b c | RNestedLoop _ _ c => RNestedLoop None None c | RWindowRel _ a b c => RWindowRel None a b c
  | RExchange _ => RExchange None | RExpand _ f => RExpand None f
  | RNone | RRead _ _ _ _ _ | RExtLeaf | RReference => r
  end.
Lemma parts_root names r : parts (Plan [] [] [PRoot names (Some r)]) = flat_map with_types (PPlanRelation (PRoot names (Some r)) :: in_relation r).
Proof. unfold parts. cbn [p_decls p_rels map app]. f_equal. unfold listed. cbn [flat_map in_plan_relation]. apply app_nil_r. Qed.
Theorem C95_inputs_refuted first second names r : read_binary first second (Plan [] [] [PRoot names (Some r)]) = Ok tt -> read_binary first second (Plan [] [] [PRoot names (Some (drop_inputs r))]) = Ok tt.
Proof.
  intros H. apply right_fine. intros m I. pose proof (read_fine first second _ H) as R. clear H. rewrite parts_root in *.
  apply in_flat_map in I. destruct I as (x & [<-|I] & Ix); [destruct Ix as [<-|[]]; repeat split; cbn; tauto|].
  assert (S : In x (in_relation r) \/ x = PRelation (drop_inputs r)).
  { clear R Ix. destruct r; cbn [drop_inputs in_relation] in *; destruct I as [<-|I]; auto; left; right; rewrite ?in_app_iff in *; cbn [if_there In listed flat_map] in I; intuition. }
  destruct S as [S| ->].
  - apply R. apply in_flat_map. exists x. split; [right; exact S|exact Ix].
  - destruct Ix as [<-|[]]. assert (Rr : right (PRelation r)) by (apply R; apply in_flat_map; exists (PRelation r); split; [right; destruct r; left; reflexivity|left; reflexivity]). destruct r; exact Rr || (repeat split; cbn; tauto).
Qed.
(** Of a root it is. *)
Theorem C95_root first second uris decls before names after : read_binary first second (Plan uris decls (before ++ PRoot names None :: after)) <> Ok tt.
Proof.
  intros H. apply C95_exact with (m := PRelation RNone) in H; [destruct H as (H & _); apply H; exact I|].
  unfold parts. cbn [p_decls p_rels]. apply in_or_app. right. apply in_flat_map. exists (PRelation RNone). split; [|left; reflexivity]. apply in_flat_map. exists (PRoot names None). split; [apply in_or_app; right; left; reflexivity|right; left; reflexivity].
Qed.
Print Assumptions C95_exact. Print Assumptions C95_exception. Print Assumptions C95_crash_only. Print Assumptions C95_subquery_refuted. Print Assumptions C95_needles_refuted. Print Assumptions C95_inputs_refuted.
Print Assumptions C95_root.

(** A plan with a filter whose condition has a scalar function, a subquery, a switch and a map: it is read to its end; with a literal deep inside that is not set it is not,
    and neither if the subquery has no relation. *)
Definition sample_schema : schema := {| h_id := 0; h_names := [$"a"; $"b"]; h_types := [TPlain 1; TList (Some (TMap (Some (TPlain 2)) (Some (TUser [TPType (TPlain 3); TPPlain 4]))))] |}.
Definition sample_read : rel := RRead (Some sample_schema) None None None (DNamed [$"t"]).
Definition sample (l : lit) (sub : option rel) (sources : list decl) : plan :=
  Plan [] sources [PRoot [$"x"] (Some (RProject (Some (RFilter (Some sample_read) (Some (XScalar [AValue (XSwitch (Some (XLiteral (LPlain 7))) [IfValue (Some l) (Some (XSubScalar sub))] None); AType (TPlain 5)] (Some (TPlain 0)) []))))
    [XSelection (Ref (Some (GField 0 (Some (GKey (Some (LPlain 2)) None)))) None None); XLiteral (LMap [LKV (Some (LPlain 2)) (Some (LList [l]))])]))].
Definition all_new : N -> nat -> bool := fun _ _ => false.
Definition all_taken : N -> nat -> bool := fun _ _ => true.
Example C95_sample :
  read_binary all_new all_taken (sample (LPlain 1) (Some sample_read) [DFun $"add:i32"]) = Ok tt /\
  read_binary all_new all_taken (sample LNone (Some sample_read) [DFun $"add:i32"]) = Throw EUnsupported /\
  read_binary all_new all_taken (sample (LPlain 1) None [DFun $"add:i32"]) = UB /\
  read_binary all_new all_taken (sample (LPlain 1) (Some sample_read) [DFun $"add:i32"; DOther 1]) = Throw EInvalidState /\
  (40 <= length (parts (sample (LPlain 1) (Some sample_read) [DFun $"add:i32"])))%nat.
Proof. repeat split; try reflexivity. vm_compute. lia. Qed.
Example C95_sample_inputs : read_binary all_new all_taken (Plan [] [] [PRoot [] (Some (RFilter (Some sample_read) None))]) = Ok tt.
Proof. reflexivity. Qed.
