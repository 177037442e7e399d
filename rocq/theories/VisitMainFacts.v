(** How reading a binary plan ends: proofs about the whole traversal. *)
From Verif Require Import Base BaseFacts VisitMessages VisitModel VisitFacts.
From Coq Require Import Lia.
Lemma plan_relation_check w r p : visitPlanRelation w r p = check w r (in_plan_relation p).
Proof.
  destruct (plans_check w r) as (_ & _ & _ & _ & _ & _ & _ & _ & _ & _ & H). destruct p as [|x|n i]; unfold visitPlanRelation, in_plan_relation; rewrite check_cons; cbn [own]; [reflexivity|apply H|apply H].
Qed.
Lemma relations_check w r p : visitRelations w r p = check w r (listed in_plan_relation (p_rels p)).
Proof. unfold visitRelations. apply each_check, Forall_any. intros x. apply plan_relation_check. Qed.
Lemma check_fine w r l : check w r l = fine <-> forall m, In m l -> own w r m = fine.
Proof.
  induction l as [|x l IH]; [split; [intros _ ? []|reflexivity]|]. rewrite check_cons. split.
  - intros H. destruct (own w r x) as [[]| |] eqn:E; [|discriminate|discriminate]. rewrite fine_bind in H. intros m [<-|I]; [exact E|]. apply IH; assumption.
  - intros H. rewrite (H x (or_introl eq_refl)), fine_bind. apply IH. intros m I. apply H. right. exact I.
Qed.
Lemma check_fails w r l : check w r l <> fine -> exists m, In m l /\ own w r m = check w r l.
Proof.
  induction l as [|x l IH]; [intros H; destruct H; reflexivity|]. rewrite check_cons. destruct (own w r x) as [[]|e|] eqn:E; intros H.
  - rewrite fine_bind in *. destruct (IH H) as (m & I & Hm). exists m. split; [right; exact I|exact Hm].
  - exists x. split; [left; reflexivity|exact E].
  - exists x. split; [left; reflexivity|exact E].
Qed.
Lemma declarations_check l w r : each visitExtension l = check w r (map PDeclaration l).
Proof. induction l as [|[n|p] l IH]; [reflexivity| |reflexivity]. cbn [each map]. rewrite check_cons. cbn [visitExtension own]. rewrite !fine_bind. exact IH. Qed.
(** What is wrong with a message says how the traversal ends. *)
Lemma own_unset w r m : unset m -> own w r m = unsupported.
Proof. destruct m as [[]|[]|[]|[]|[| | |? []]|[]|[]|[]|[]|[]|? []|[]|[]]; cbn; intuition. Qed.
Lemma own_declaration w r m : no_function m -> own w r m = Throw EInvalidState.
Proof. destruct m as [[]|[]|[]|[]|[| | |? []]|[]|[]|[]|[]|[]|? []|[]|[]]; cbn; intuition. Qed.
Lemma own_subquery w r m : without_relation m -> own w r m = UB.
Proof. destruct m as [[]|[]|[]|[]|[| | |? []]|[]|[]|[]|[]|[]|? []|[]|[]]; cbn; intuition. Qed.
Definition is_schema (m : part) : bool := match m with PSchema _ _ => true | _ => false end.
Definition right (m : part) : Prop := ~ unset m /\ ~ no_function m /\ ~ without_relation m.
Lemma own_right w r m : is_schema m = false -> (own w r m = fine <-> right m).
Proof. unfold right. destruct m as [[]|[]|[]|[]|[| | |? []]|[]|[]|[]|[]|[]|? []|[]|[]]; cbn; intros E; try discriminate E; (split; [intros H; try discriminate H; tauto|intros H; try reflexivity; tauto]). Qed.
Lemma own_wrong w r m : is_schema m = false -> own w r m <> fine -> (own w r m = unsupported /\ unset m) \/ (own w r m = Throw EInvalidState /\ no_function m) \/ (own w r m = UB /\ without_relation m).
Proof. destruct m as [[]|[]|[]|[]|[| | |? []]|[]|[]|[]|[]|[]|? []|[]|[]]; cbn; intros E H; try discriminate E; try (destruct H; reflexivity); tauto. Qed.
(** Types have no schemas in them. *)
Lemma no_schema_type : (forall t m, In m (in_type t) -> is_schema m = false) /\ (forall p m, In m (in_parameter p) -> is_schema m = false).
Proof.
  assert (L : forall A (f : A -> list part) l m, Forall (fun x => forall m, In m (f x) -> is_schema m = false) l -> In m (listed f l) -> is_schema m = false).
  { intros A f l m F I. apply in_flat_map in I. destruct I as (x & Ix & I). rewrite Forall_forall in F. exact (F x Ix m I). }
  assert (O : forall A (f : A -> list part) o m, OAll (fun x => forall m, In m (f x) -> is_schema m = false) o -> In m (if_there f o) -> is_schema m = false).
  { intros A f [x|] m H I; [exact (H m I)|destruct I]. }
  apply type_all; intros; cbn [in_type in_parameter] in *;
    match goal with H : In _ (_ :: _) |- _ => destruct H as [<-|H]; [reflexivity|] end; try contradiction; try (rewrite in_app_iff in *); eauto.
  destruct H1 as [H1|H1]; eauto.
Qed.
Lemma schema_types s w r : base_NamedStruct s = check w r (listed in_type (h_types s)).
Proof. unfold base_NamedStruct. apply each_check, Forall_any. intros t. apply types_check. Qed.
Lemma in_parts p m : In m (parts p) <-> In m (map PDeclaration (p_decls p)) \/ (In m (listed in_plan_relation (p_rels p)) /\ is_schema m = false) \/
  (exists s b, In (PSchema s b) (listed in_plan_relation (p_rels p)) /\ (m = PSchema s b \/ In m (listed in_type (h_types s)))).
Proof.
  unfold parts. rewrite in_app_iff, in_flat_map. split.
  - intros [H|(x & I & H)]; [left; exact H|]. right. destruct x; try (destruct H as [<-|[]]; left; split; [exact I|reflexivity]). right. exists s, read. split; [exact I|]. destruct H as [H|H]; auto.
  - intros [H|[[I E]|(s & b & I & H)]]; [left; exact H| |].
    + right. exists m. split; [exact I|]. destruct m; try discriminate E; left; reflexivity.
    + right. exists (PSchema s b). split; [exact I|]. destruct H as [->|H]; [left; reflexivity|right; exact H].
Qed.

Lemma initial_schema taken s : initial_NamedStruct taken s = fine \/ initial_NamedStruct taken s = base_NamedStruct s.
Proof. unfold initial_NamedStruct. destruct enough_types; auto. Qed.
Lemma first_schema f g s : (initial_NamedStruct f s ;;; initial_NamedStruct g s) = fine \/ (initial_NamedStruct f s ;;; initial_NamedStruct g s) = base_NamedStruct s.
Proof.
  destruct (initial_schema f s) as [->| ->]; [rewrite fine_bind; apply initial_schema|]. destruct (base_NamedStruct s) as [[]| |] eqn:E; cbn [obind]; auto. destruct (initial_schema g s) as [H|H]; rewrite H; auto.
Qed.
Lemma initial_check f g p : initial f g p = check (initial_NamedStruct g) (fun s => initial_NamedStruct f s ;;; initial_NamedStruct g s) (map PDeclaration (p_decls p) ++ listed in_plan_relation (p_rels p)).
Proof. unfold initial. rewrite check_app, <- declarations_check, relations_check. reflexivity. Qed.
Lemma pipeline_check p : pipeline p = check base_NamedStruct base_NamedStruct (listed in_plan_relation (p_rels p)).
Proof. apply relations_check. Qed.
(** Whatever ends one of the passes is some message. *)
Lemma own_part w r p m (Hw : forall s, w s = fine \/ w s = base_NamedStruct s) (Hr : forall s, r s = fine \/ r s = base_NamedStruct s) :
  In m (map PDeclaration (p_decls p) ++ listed in_plan_relation (p_rels p)) -> own w r m <> fine -> exists m', In m' (parts p) /\ is_schema m' = false /\ own w r m' = own w r m /\ own w r m' <> fine.
Proof.
  intros I H. destruct (is_schema m) eqn:E.
  - destruct m as [| | | | | | | | | |s b| |]; try discriminate E. assert (B : own w r (PSchema s b) = base_NamedStruct s).
    { destruct b; cbn [own] in *; [destruct (Hr s) as [A|A]|destruct (Hw s) as [A|A]]; try contradiction; exact A. }
    rewrite B in *. rewrite (schema_types s w r) in H. destruct (check_fails _ _ _ H) as (m' & I' & E'). exists m'. rewrite (schema_types s w r). split; [|split; [|split; [exact E'|congruence]]].
    + apply in_parts. right. right. exists s, b. split; [|right; exact I']. apply in_app_or in I. destruct I as [I|I]; [|exact I]. apply in_map_iff in I. destruct I as (? & X & _). discriminate X.
    + apply in_flat_map in I'. destruct I' as (t & _ & I'). exact (proj1 no_schema_type t m' I').
  - exists m. split; [|auto]. apply in_parts. apply in_app_or in I. tauto.
Qed.
Lemma read_fails f g p : read_binary f g p <> fine -> exists m, In m (parts p) /\ ((read_binary f g p = unsupported /\ unset m) \/ (read_binary f g p = Throw EInvalidState /\ no_function m) \/ (read_binary f g p = UB /\ without_relation m)).
Proof.
  unfold read_binary. intros H. destruct (initial f g p) as [[]|e|] eqn:E.
  - rewrite fine_bind in *. rewrite pipeline_check in *. destruct (check_fails _ _ _ H) as (m & I & Em).
    destruct (own_part base_NamedStruct base_NamedStruct p m) as (m' & I' & S' & E' & F'); auto; [apply in_or_app; right; exact I|congruence|].
    exists m'. split; [exact I'|]. pose proof (own_wrong _ _ _ S' F') as W. rewrite E', Em in W. exact W.
  - cbn [obind] in *. assert (N : initial f g p <> fine) by (rewrite E; discriminate). rewrite initial_check in N. destruct (check_fails _ _ _ N) as (m & I & Em). rewrite <- initial_check, E in Em.
    destruct (own_part (initial_NamedStruct g) (fun s => initial_NamedStruct f s ;;; initial_NamedStruct g s) p m (initial_schema g) (first_schema f g) I) as (m' & I' & S' & E' & F'); [rewrite Em; discriminate|].
    exists m'. split; [exact I'|]. pose proof (own_wrong _ _ _ S' F') as W. rewrite E', Em in W. exact W.
  - cbn [obind] in *. assert (N : initial f g p <> fine) by (rewrite E; discriminate). rewrite initial_check in N. destruct (check_fails _ _ _ N) as (m & I & Em). rewrite <- initial_check, E in Em.
    destruct (own_part (initial_NamedStruct g) (fun s => initial_NamedStruct f s ;;; initial_NamedStruct g s) p m (initial_schema g) (first_schema f g) I) as (m' & I' & S' & E' & F'); [rewrite Em; discriminate|].
    exists m'. split; [exact I'|]. pose proof (own_wrong _ _ _ S' F') as W. rewrite E', Em in W. exact W.
Qed.
Lemma read_fine f g p : read_binary f g p = fine -> forall m, In m (parts p) -> right m.
Proof.
  unfold read_binary. intros H. destruct (initial f g p) as [[]|e|] eqn:E; try discriminate H. rewrite fine_bind in H. change (Ok tt) with fine in E. rewrite initial_check in E. rewrite pipeline_check in H. rewrite check_fine in E, H.
  intros m I. apply in_parts in I. destruct I as [I|[[I S]|(s & b & I & [-> |J])]].
  - apply (own_right (initial_NamedStruct g) (fun s => initial_NamedStruct f s ;;; initial_NamedStruct g s)); [apply in_map_iff in I; destruct I as (d & <- & _); reflexivity|]. apply E. apply in_or_app. auto.
  - apply (own_right base_NamedStruct base_NamedStruct); [exact S|]. apply H. exact I.
  - repeat split; cbn; tauto.
  - assert (S : is_schema m = false) by (apply in_flat_map in J; destruct J as (t & _ & J); exact (proj1 no_schema_type t m J)).
    apply (own_right base_NamedStruct base_NamedStruct); [exact S|]. specialize (H _ I). assert (B : base_NamedStruct s = fine) by (destruct b; exact H).
    rewrite (schema_types s base_NamedStruct base_NamedStruct), check_fine in B. apply B. exact J.
Qed.
Lemma right_fine f g p : (forall m, In m (parts p) -> right m) -> read_binary f g p = fine.
Proof.
  intros H. destruct (read_binary f g p) as [[]|e|] eqn:E; [reflexivity| |]; (destruct (read_fails f g p) as (m & I & D); [rewrite E; discriminate|]; destruct (H m I) as (A & B & C); tauto).
Qed.
Lemma read_iff f g p : read_binary f g p = fine <-> forall m, In m (parts p) -> right m.
Proof. split; [apply read_fine|apply right_fine]. Qed.
Lemma read_crash f g p : (forall m, In m (parts p) -> ~ unset m /\ ~ no_function m) -> (exists m, In m (parts p) /\ without_relation m) -> read_binary f g p = UB.
Proof.
  intros H (m & I & W). destruct (read_binary f g p) as [[]|e|] eqn:E; [|exfalso|reflexivity].
  - destruct (read_fine f g p E m I) as (_ & _ & C). contradiction.
  - destruct (read_fails f g p) as (m' & I' & D); [rewrite E; discriminate|]. rewrite E in D. destruct (H m' I') as (A & B). destruct D as [[_ D]|[[_ D]|[D _]]]; [contradiction|contradiction|discriminate D].
Qed.
