From Verif Require Import Base BaseFacts StringsModel StringsFacts TypeModel TypeFacts TypeCaseFacts MatchFacts SignatureFacts FunctionModel.
From Coq Require Import Lia ZifyBool ZifyNat ZifyN.

(** * Specifications *)

(** The types of the value arguments among the declared arguments, in order. *)
Inductive Values : list farg -> list ty -> Prop :=
| V_nil : Values [] []
| V_enum b l ts : Values l ts -> Values (AEnum b :: l) ts
| V_type l ts : Values l ts -> Values (AType :: l) ts
| V_value t l ts : Values l ts -> Values (AValue t :: l) (t :: ts).

(** Return types agree whenever both are known. *)
Definition ReturnOk (f : fimpl) (s : query) : Prop :=
  f_return f <> TNull -> q_return s <> TNull -> Inst false (f_return f) (q_return s).
(** The ordinary rule. *)
Definition FixedOk (f : fimpl) (s : query) : Prop :=
  (exists ts, Values (f_args f) ts /\ Forall2 (Inst false) ts (q_args s)) /\ ReturnOk f s.
Definition VariadicOk (f : fimpl) (v : variadic) (s : query) : Prop :=
  let n := Z.of_nat (length (q_args s)) in
  (v_min v <= n)%Z /\ (forall m, v_max v = Some m -> (n <= m)%Z) /\
  (forall t rest, f_args f = AValue t :: rest -> Forall (Inst false t) (q_args s)) /\ ReturnOk f s.
Definition CallOk (f : fimpl) (s : query) : Prop :=
  match f_variadic f with Some v => VariadicOk f v s | None => FixedOk f s end.
Definition IntermediateOk (f : fimpl) (s : query) : Prop :=
  f_aggregate f = true /\ f_intermediate f <> TNull /\ exists a, q_args s = [a] /\ Inst false (f_intermediate f) a.
Definition Accepts (f : fimpl) (s : query) : Prop := CallOk f s \/ IntermediateOk f s.

(** Declarations with all their parts present, and bounds that are not negative. *)
Definition DeclaredOr0 (t : ty) : Prop := t = TNull \/ Declared t.
Definition ConcreteOr0 (t : ty) : Prop := t = TNull \/ Concrete t.
Definition ValidDecl (f : fimpl) : Prop :=
  (forall t, In (AValue t) (f_args f) -> Declared t) /\ DeclaredOr0 (f_return f) /\ DeclaredOr0 (f_intermediate f) /\
  forall v, f_variadic f = Some v -> f_args f <> [] /\ (0 <= v_min v < 2 ^ 31)%Z /\ (forall m, v_max v = Some m -> (0 <= m < 2 ^ 31)%Z).
Definition ValidQuery (s : query) : Prop := Forall Concrete (q_args s) /\ ConcreteOr0 (q_return s).

(** The implementations registered under a class and a name, oldest first. *)
Fixpoint registered (c : fclass) (name : str) (l : list reg) (out : list fimpl) : Prop :=
  match l with
  | [] => out = []
  | RFunction c' f :: r =>
      if match c, c' with Scalar, Scalar | Aggregate, Aggregate | Window, Window => f_name f =s name | _, _ => false end
      then exists out', out = f :: out' /\ registered c name r out'
      else registered c name r out
  | RType _ _ :: r => registered c name r out
  end.
(** The first element satisfying [P]. *)
Definition First {A} (P : A -> Prop) (l : list A) (o : option A) : Prop :=
  match o with
  | Some x => exists pre post, l = pre ++ x :: post /\ P x /\ Forall (fun y => ~ P y) pre
  | None => Forall (fun y => ~ P y) l
  end.

(** Texts joined by a separator. *)
Inductive Joined (sep : str) : list str -> str -> Prop :=
| J_nil : Joined sep [] []
| J_one x : Joined sep [x] x
| J_cons x y l s : Joined sep (y :: l) s -> Joined sep (x :: y :: l) (x ++ sep ++ s).
Inductive ArgText : farg -> str -> Prop :=
| AT_req : ArgText (AEnum true) $"req"
| AT_opt : ArgText (AEnum false) $"opt"
| AT_type : ArgText AType $"type"
| AT_value t s : signature t = Ok s -> ArgText (AValue t) s.

(** * Matching *)
Lemma values_of l ts : Values l ts <-> ts = value_types l.
Proof.
  split.
  - induction 1; simpl; congruence.
  - intros ->. induction l as [|[b| |t] l IH]; simpl; constructor; exact IH.
Qed.
Lemma match_all_decides d l : Declared d -> Forall Concrete l -> decides (match_all d l) (Forall (Inst false d) l).
Proof.
  intros D C. induction C as [|a l Ca C IH]; cbn [match_all].
  - apply decides_ok. split; auto.
  - eapply decides_iff; [|apply decides_and; [exact (isMatch_declared d D a Ca)|exact IH]].
    split; [intros [? ?]; constructor; auto|intros F; inversion F; auto].
Qed.
Lemma match_each_decides ds : forall l, Forall Declared ds -> Forall Concrete l -> length ds = length l ->
  decides (match_each ds l) (Forall2 (Inst false) ds l).
Proof.
  induction ds as [|d ds IH]; intros [|a l] D C E; try discriminate E; cbn [match_each].
  - apply decides_ok. split; auto.
  - inversion D; subst. inversion C; subst.
    eapply decides_iff; [|apply decides_and; [apply isMatch_declared; auto|apply IH; auto]].
    split; [intros [? ?]; constructor; auto|intros F; inversion F; auto].
Qed.
Lemma value_types_declared l : (forall t, In (AValue t) l -> Declared t) -> Forall Declared (value_types l).
Proof.
  induction l as [|[b| |t] l IH]; intros H; simpl; [constructor| | |constructor].
  - apply IH. intros. apply H. now right.
  - apply IH. intros. apply H. now right.
  - apply H. now left.
  - apply IH. intros. apply H. now right.
Qed.
Lemma match_return_decides f s : DeclaredOr0 (f_return f) -> ConcreteOr0 (q_return s) -> decides (match_return f s) (ReturnOk f s).
Proof.
  intros D C. unfold match_return, ReturnOk.
  assert (T : f_return f <> TNull -> q_return s <> TNull -> decides (isMatch (f_return f) (q_return s)) (Inst false (f_return f) (q_return s))).
  { intros N N'. destruct D as [D|D]; [contradiction|]. destruct C as [C|C]; [contradiction|]. now apply isMatch_declared. }
  destruct (f_return f) eqn:E.
  1: apply decides_ok; split; [intros _ []; reflexivity|reflexivity].
  all: destruct (q_return s) eqn:E';
    [apply decides_ok; split; [intros _ _ []; reflexivity|reflexivity]|
     eapply decides_iff; [|apply T; discriminate]; split; [auto|intros H; apply H; discriminate] ..].
Qed.
Lemma to_size_id z : (0 <= z < 2 ^ 31)%Z -> to_size z = z.
Proof. intros H. unfold to_size. apply Z.mod_small. lia. Qed.
Lemma base_decides f s : ValidDecl f -> ValidQuery s -> decides (tryMatch_base f s) (CallOk f s).
Proof.
  intros (DA & DR & _ & DV) (CA & CR). unfold tryMatch_base, CallOk, VariadicOk, FixedOk. cbv zeta.
  pose proof (match_return_decides f s DR CR) as R.
  destruct (f_variadic f) as [v|].
  - destruct (DV v eq_refl) as (NE & MI & MA). rewrite to_size_id by exact MI.
    destruct (_ <? _)%Z eqn:B1; [apply decides_no; intros (X & _); lia|]. cbn [orb].
    destruct (match v_max v with Some m => _ | None => _ end) eqn:B2.
    { apply decides_no. intros (_ & X & _). destruct (v_max v) as [m|]; [|discriminate].
      specialize (X m eq_refl). specialize (MA m eq_refl). rewrite to_size_id in B2 by exact MA. lia. }
    assert (B3 : forall m, v_max v = Some m -> (Z.of_nat (length (q_args s)) <= m)%Z).
    { intros m E. rewrite E in B2. rewrite to_size_id in B2 by auto. lia. }
    destruct (f_args f) as [|[b| |t] rest]; [contradiction| | |].
    + eapply decides_iff; [|exact R]. split; [|tauto]. intros X. repeat split; [lia|exact B3|discriminate|exact X].
    + eapply decides_iff; [|exact R]. split; [|tauto]. intros X. repeat split; [lia|exact B3|discriminate|exact X].
    + eapply decides_iff; [|apply decides_and; [apply (match_all_decides t); [apply DA; now left|exact CA]|exact R]].
      split.
      * intros [X Y]. repeat split; [lia|exact B3| |exact Y]. intros t' rest' [= <- <-]. exact X.
      * intros (_ & _ & X & Y). split; [exact (X t rest eq_refl)|exact Y].
  - destruct (Nat.eqb_spec (length (value_types (f_args f))) (length (q_args s))) as [E|E]; cbn [negb].
    + eapply decides_iff; [|apply decides_and; [apply match_each_decides; [now apply value_types_declared|exact CA|exact E]|exact R]].
      split; [intros [X Y]; split; [exists (value_types (f_args f)); split; [now apply values_of|exact X]|exact Y]|].
      intros ((ts & V & X) & Y). apply values_of in V. subst ts. auto.
    + apply decides_no. intros ((ts & V & X) & _). apply values_of in V. subst ts. apply Forall2_len in X. contradiction.
Qed.
Lemma decides_or (o g : outcome bool) P Q : decides o P -> decides g Q ->
  decides (b <- o ;; if b then Ok true else g) (P \/ Q).
Proof.
  intros (b & -> & I) (c & -> & J). cbn [obind]. destruct b.
  - exists true. split; [reflexivity|]. tauto.
  - exists c. split; [reflexivity|]. rewrite J. intuition discriminate.
Qed.
Lemma tryMatch_decides f s : ValidDecl f -> ValidQuery s -> decides (tryMatch f s) (Accepts f s).
Proof.
  intros D C. pose proof (base_decides f s D C) as B. unfold tryMatch, Accepts.
  destruct (f_aggregate f) eqn:A.
  - apply decides_or; [exact B|]. unfold IntermediateOk. destruct D as (_ & _ & DI & _). destruct C as (CA & _).
    assert (T : f_intermediate f <> TNull -> decides (match q_args s with [a] => isMatch (f_intermediate f) a | _ => Ok false end)
      (f_aggregate f = true /\ f_intermediate f <> TNull /\ exists a, q_args s = [a] /\ Inst false (f_intermediate f) a)).
    { intros N. destruct DI as [DI|DI]; [contradiction|].
      destruct (q_args s) as [|a [|b l]].
      - apply decides_no. intros (_ & _ & a & E & _). discriminate.
      - inversion CA; subst. eapply decides_iff; [|apply isMatch_declared; eauto].
        split; [intros X; repeat split; eauto|]. intros (_ & _ & a' & [= <-] & X). exact X.
      - apply decides_no. intros (_ & _ & a' & E & _). discriminate. }
    destruct (f_intermediate f); [apply decides_no; intros (_ & [] & _); reflexivity| ..];
      (eapply decides_iff; [|apply T; discriminate]); rewrite A; reflexivity.
  - eapply decides_iff; [|destruct B as (b & -> & I); cbn [obind]; apply decides_ok; exact I].
    split; [auto|]. intros [X|(X & _)]; [exact X|congruence].
Qed.

(** * Registration and lookup *)
Definition same_class (a b : fclass) : bool :=
  match a, b with Scalar, Scalar | Aggregate, Aggregate | Window, Window => true | _, _ => false end.
Definition regs_of (c : fclass) (name : str) (r : reg) : list fimpl :=
  match r with RFunction c' f => if same_class c c' && (f_name f =s name) then [f] else [] | RType _ _ => [] end.
Definition impls (c : fclass) (name : str) (x : extension) : list fimpl :=
  match find_impls name (impls_of c x) with Some l => l | None => [] end.
Lemma find_add f m name : find_impls name (add_impl f m) =
  if f_name f =s name then Some (match find_impls name m with Some l => l | None => [] end ++ [f]) else find_impls name m.
Proof.
  induction m as [|[k l] m IH]; cbn [add_impl find_impls].
  - destruct (f_name f =s name); reflexivity.
  - destruct (seq_eqb_spec k (f_name f)) as [->|N]; cbn [find_impls].
    + destruct (f_name f =s name); reflexivity.
    + destruct (seq_eqb_spec k name) as [->|N'].
      * destruct (seq_eqb_spec (f_name f) name); [congruence|reflexivity].
      * exact IH.
Qed.
Lemma impls_register c name x r : impls c name (register x r) = impls c name x ++ regs_of c name r.
Proof.
  unfold impls. destruct r as [c' f|n u]; [|destruct c; cbn; now rewrite app_nil_r].
  destruct c, c'; cbn [register impls_of regs_of same_class andb x_scalar x_aggregate x_window]; try now rewrite app_nil_r.
  all: rewrite find_add; destruct (f_name f =s name); cbn [andb]; [reflexivity|now rewrite app_nil_r].
Qed.
Lemma impls_fold c name l : forall x, impls c name (fold_left register l x) = impls c name x ++ flat_map (regs_of c name) l.
Proof.
  induction l as [|r l IH]; intros x; cbn [fold_left flat_map]; [now rewrite app_nil_r|].
  rewrite IH, impls_register, app_assoc. reflexivity.
Qed.
Lemma impls_registers c name l : impls c name (registers l) = flat_map (regs_of c name) l.
Proof. unfold registers. rewrite impls_fold. destruct c; reflexivity. Qed.
Lemma registered_iff c name l : forall out, registered c name l out <-> out = flat_map (regs_of c name) l.
Proof.
  induction l as [|[c' f|n u] l IH]; intros out; cbn [registered flat_map regs_of].
  - reflexivity.
  - replace (match c, c' with Scalar, Scalar | Aggregate, Aggregate | Window, Window => f_name f =s name | _, _ => false end)
      with (same_class c c' && (f_name f =s name)) by (destruct c, c'; reflexivity).
    destruct (_ && _); cbn [app].
    + split; [intros (o & -> & H); apply IH in H; congruence|intros ->; eexists; split; [reflexivity|now apply IH]].
    + apply IH.
  - apply IH.
Qed.
Lemma lookup_first c x s : lookupFunction c x s = first_match s (impls c (q_name s) x).
Proof. unfold lookupFunction, impls. destruct (find_impls _ _); reflexivity. Qed.
Lemma first_match_spec s l : ValidQuery s -> Forall ValidDecl l ->
  exists o, first_match s l = Ok o /\ First (fun f => Accepts f s) l o.
Proof.
  intros Q D. induction D as [|f l Df D IH]; cbn [first_match].
  - exists None. split; [reflexivity|constructor].
  - destruct (tryMatch_decides f s Df Q) as (b & -> & I). cbn [obind]. destruct b.
    + exists (Some f). split; [reflexivity|]. exists [], l. repeat split; [now apply I|constructor].
    + assert (NA : ~ Accepts f s) by (intros X; apply I in X; discriminate).
      destruct IH as (o & -> & F). exists o. split; [reflexivity|]. destruct o as [g|]; cbn [First] in *.
      * destruct F as (pre & post & -> & A & P). exists (f :: pre), post. repeat split; auto.
      * now constructor.
Qed.
Lemma First_unique {A} (P : A -> Prop) l o o' : First P l o -> First P l o' -> o = o'.
Proof.
  destruct o as [x|], o' as [y|]; cbn [First]; [| | |reflexivity].
  - intros (p & q & -> & X & F) (p' & q' & E & Y & F'). f_equal. revert p' E F'.
    induction p as [|a p IH]; intros [|a' p'] E F'; cbn [app] in E; injection E; intros; subst.
    + reflexivity.
    + inversion F'. contradiction.
    + inversion F. contradiction.
    + inversion F; inversion F'; subst. eauto.
  - intros (p & q & -> & X & _) F. apply Forall_app in F as [_ F]. inversion F. contradiction.
  - intros F (p & q & -> & X & _). apply Forall_app in F as [_ F]. inversion F. contradiction.
Qed.
Lemma lookup_spec c rs s out : registered c (q_name s) rs out -> Forall ValidDecl out -> ValidQuery s ->
  exists o, lookupFunction c (registers rs) s = Ok o /\ First (fun f => Accepts f s) out o.
Proof.
  intros R D Q. rewrite lookup_first, impls_registers. apply registered_iff in R. subst out. now apply first_match_spec.
Qed.
Lemma first_match_app s l l' f : first_match s l = Ok (Some f) -> first_match s (l ++ l') = Ok (Some f).
Proof.
  induction l as [|g l IH]; cbn [first_match app]; [discriminate|].
  destruct (tryMatch g s) as [[|]| |]; cbn [obind]; auto; discriminate.
Qed.
Lemma lookup_stable c rs rs' s f : lookupFunction c (registers rs) s = Ok (Some f) ->
  lookupFunction c (registers (rs ++ rs')) s = Ok (Some f).
Proof. rewrite !lookup_first, !impls_registers, flat_map_app. apply first_match_app. Qed.
(** Registrations that concern another class or another name. *)
Definition unrelated (c : fclass) (name : str) (r : reg) : Prop :=
  match r with RFunction c' f => c' <> c \/ f_name f <> name | RType _ _ => True end.
Lemma lookup_unrelated c rs rs' s : Forall (unrelated c (q_name s)) rs' ->
  lookupFunction c (registers (rs ++ rs')) s = lookupFunction c (registers rs) s.
Proof.
  intros H. rewrite !lookup_first, !impls_registers, flat_map_app.
  replace (flat_map (regs_of c (q_name s)) rs') with (@nil fimpl); [now rewrite app_nil_r|].
  induction H as [|r rs' Hr _ IH]; [reflexivity|]. cbn [flat_map]. rewrite <- IH, app_nil_r.
  destruct r as [c' f|]; [|reflexivity]. cbn [regs_of]. destruct Hr as [N|N].
  - destruct c, c'; try reflexivity; contradiction.
  - apply seq_eqb_neq in N. rewrite N, andb_false_r. reflexivity.
Qed.

(** Types: the first registration of a name. *)
Fixpoint first_type (name : str) (l : list reg) : option (str * str) :=
  match l with
  | [] => None
  | RType n u :: r => if n =s name then Some (n, u) else first_type name r
  | _ :: r => first_type name r
  end.
Lemma find_type_app name a b : find_type name (a ++ b) = match find_type name a with Some x => Some x | None => find_type name b end.
Proof. induction a as [|[k u] a IH]; cbn; [reflexivity|]. destruct (k =s name); auto. Qed.
Lemma find_type_add n u m name : find_type name (add_type n u m) =
  match find_type name m with Some x => Some x | None => if n =s name then Some (n, u) else None end.
Proof.
  unfold add_type. destruct (find_type n m) eqn:E.
  - destruct (find_type name m) eqn:E'; [reflexivity|]. destruct (seq_eqb_spec n name); [congruence|reflexivity].
  - rewrite find_type_app. reflexivity.
Qed.
Lemma lookupType_fold name l : forall x, lookupType (fold_left register l x) name =
  match lookupType x name with Some y => Some y | None => first_type name l end.
Proof.
  induction l as [|r l IH]; intros x; cbn [fold_left first_type].
  - destruct (lookupType x name); reflexivity.
  - rewrite IH. destruct r as [[] f|n u]; [reflexivity ..|].
    unfold lookupType. cbn [register x_types]. rewrite find_type_add.
    destruct (find_type name (x_types x)); [reflexivity|]. destruct (n =s name); reflexivity.
Qed.
Definition isType (name : str) (r : reg) : Prop := exists u, r = RType name u.
Lemma first_type_spec name l : match first_type name l with
  | Some (n, u) => n = name /\ exists pre post, l = pre ++ RType name u :: post /\ Forall (fun r => ~ isType name r) pre
  | None => Forall (fun r => ~ isType name r) l
  end.
Proof.
  induction l as [|[c f|n u] l IH]; cbn [first_type]; [constructor| |].
  - assert (N : ~ isType name (RFunction c f)) by (intros [? [=]]).
    destruct (first_type name l) as [[n u]|]; [|now constructor].
    destruct IH as (E & pre & post & -> & F). split; [exact E|]. exists (RFunction c f :: pre), post. auto.
  - destruct (seq_eqb_spec n name) as [->|N].
    + split; [reflexivity|]. exists [], l. auto.
    + assert (N' : ~ isType name (RType n u)) by (intros [? [=]]; contradiction).
      destruct (first_type name l) as [[n' u']|]; [|now constructor].
      destruct IH as (E & pre & post & -> & F). split; [exact E|]. exists (RType n u :: pre), post. auto.
Qed.
Lemma lookupType_spec name l : match lookupType (registers l) name with
  | Some (n, u) => n = name /\ exists pre post, l = pre ++ RType name u :: post /\ Forall (fun r => ~ isType name r) pre
  | None => Forall (fun r => ~ isType name r) l
  end.
Proof.
  replace (lookupType (registers l) name) with (first_type name l); [exact (first_type_spec name l)|].
  symmetry. exact (lookupType_fold name l empty_extension).
Qed.
Lemma lookupType_stable l l' name t : lookupType (registers l) name = Some t -> lookupType (registers (l ++ l')) name = Some t.
Proof. unfold registers. intros H. rewrite fold_left_app, lookupType_fold, H. reflexivity. Qed.
Lemma lookupType_other l l' name : Forall (fun r => ~ isType name r) l' -> lookupType (registers (l ++ l')) name = lookupType (registers l) name.
Proof.
  intros F. unfold registers. rewrite fold_left_app, lookupType_fold.
  destruct (lookupType _ name) as [t|]; [reflexivity|].
  pose proof (first_type_spec name l') as S. destruct (first_type name l') as [[n u]|]; [|reflexivity].
  destruct S as (_ & pre & post & -> & _). apply Forall_app in F as [_ F]. inversion F as [|? ? X]. exfalso. apply X. now exists u.
Qed.

(** * Signatures *)
Lemma arg_signature_iff a s : arg_signature a = Ok s <-> ArgText a s.
Proof.
  split.
  - destruct a as [[|]| |t]; intros H; try (injection H as <-); constructor. exact H.
  - intros []; auto.
Qed.
Lemma join_args_spec l s : join_args l = Ok s <-> exists ts, Forall2 ArgText l ts /\ Joined $"_" ts s.
Proof.
  revert s. induction l as [|a [|b l] IH]; intros s.
  - split; [intros [= <-]; exists []; split; constructor|].
    intros (ts & F & J). inversion F; subst. inversion J. reflexivity.
  - cbn [join_args]. rewrite arg_signature_iff. split; [intros H; exists [s]; split; repeat constructor; auto|].
    intros (ts & F & J). inversion F as [|? x ? ? A F']; subst. inversion F'; subst. inversion J; subst. exact A.
  - change (join_args (a :: b :: l)) with (x <- arg_signature a ;; y <- join_args (b :: l) ;; Ok (x ++ $"_" ++ y)).
    split.
    + destruct (arg_signature a) as [x| |] eqn:Ea; try discriminate. destruct (join_args (b :: l)) as [y| |] eqn:E; try discriminate.
      cbn [obind]. intros H. apply Ok_inj in H. subst s. apply arg_signature_iff in Ea.
      destruct (proj1 (IH y) eq_refl) as (ts & F & J). exists (x :: ts). split; [now constructor|].
      inversion F; subst. now constructor.
    + intros (ts & F & J). inversion F as [|? x ? ts' A F']; subst. apply arg_signature_iff in A. rewrite A. cbn [obind].
      inversion F' as [|? z ? ts'' A' F'']; subst. inversion J as [| |? ? ? y J']; subst.
      rewrite (proj2 (IH y)) by eauto. reflexivity.
Qed.
Lemma f_signature_spec f s : f_signature f = Ok s <->
  (f_args f = [] /\ s = f_name f) \/
  (f_args f <> [] /\ exists ts j, Forall2 ArgText (f_args f) ts /\ Joined $"_" ts j /\ s = f_name f ++ $":" ++ j).
Proof.
  unfold f_signature. destruct (f_args f) as [|a l] eqn:E.
  - split; [intros [= <-]; auto|]. intros [(_ & ->)|(N & _)]; [reflexivity|contradiction].
  - split.
    + destruct (join_args (a :: l)) as [j| |] eqn:J; try discriminate. cbn [obind]. intros H. apply Ok_inj in H. subst s.
      right. split; [discriminate|]. apply join_args_spec in J as (ts & F & J). exists ts, j. auto.
    + intros [(N & _)|(_ & ts & j & F & J & ->)]; [discriminate|].
      rewrite (proj2 (join_args_spec (a :: l) j)) by eauto. reflexivity.
Qed.
Lemma f_signature_total f : (forall t, In (AValue t) (f_args f) -> exists s, signature t = Ok s) -> exists s, f_signature f = Ok s.
Proof.
  intros H. unfold f_signature. destruct (f_args f) as [|a l] eqn:E; [eauto|].
  assert (J : exists s, join_args (a :: l) = Ok s).
  { clear E. revert a H. induction l as [|b l IH]; intros a H.
    - cbn [join_args]. destruct a as [[|]| |t]; cbn [arg_signature]; eauto. apply H. now left.
    - change (join_args (a :: b :: l)) with (x <- arg_signature a ;; y <- join_args (b :: l) ;; Ok (x ++ $"_" ++ y)).
      destruct (IH b) as [y ->]; [intros t I; apply H; now right|].
      destruct a as [[|]| |t]; cbn [arg_signature obind]; eauto. destruct (H t) as [x ->]; [now left|]. cbn [obind]. eauto. }
  destruct J as [j ->]. cbn [obind]. eauto.
Qed.

(** * Loading *)
(** No map declaration lacks its value type. *)
Fixpoint whole (t : ty) : bool :=
  match t with
  | TNull => false
  | PList e _ => whole e
  | PMap k v _ => whole k && whole v
  | PStruct l _ => forallb whole l
  | _ => true
  end.
Lemma build_declared n raw base nested t : build true n raw base nested = Ok t ->
  Forall (fun x => whole x = true -> Declared x) nested -> whole t = true -> Declared t.
Proof.
  intros B F W. unfold build, decodeLength in B.
  repeat match type of B with
  | (if ?b then _ else _) = _ => destruct b
  | match ?x with _ => _ end = _ => destruct x
  end; try discriminate B; injection B as <-; cbn [whole] in W; rewrite ?andb_false_r in W; try discriminate W.
  all: first [apply Q_dec | apply Q_fbin | apply Q_fchar | apply Q_vchar | apply Q_list | apply Q_map | apply Q_struct].
  all: repeat match goal with
       | H : Forall _ (_ :: _) |- _ => inversion H; clear H; subst
       | H : (_ && _) = true |- _ => apply andb_true_iff in H as [? ?]
       end; auto; try discriminate.
  all: match goal with H : forallb _ ?l = true |- _ => rewrite forallb_forall in H; apply Forall_forall; intros x I end.
  rewrite Forall_forall in F. auto.
Qed.
Lemma decode_declared v : forall t, decode true v = Ok t -> whole t = true -> Declared t.
Proof.
  induction v as [v IH] using length_ind. intros t. rewrite decode_eq. cbv zeta.
  destruct (find_first "<"%char (to_lower (trim v))) as [l|] eqn:F.
  - destruct (split_tokens 0 (substr_from (l + 1) (trim v))) as [x xs] eqn:S.
    pose proof (token_bound _ _ _ _ F S) as B. pose proof (trim_length v) as TL.
    pose proof (omap_spec (decode true) (tokens_of x xs)) as O.
    destruct (omap (decode true) (tokens_of x xs)) as [ys|e|]; cbn [obind]; try discriminate.
    intros E. apply (build_declared _ _ _ _ _ E).
    clear - O B IH TL. rewrite Forall_forall in B.
    assert (G : forall z, In z (tokens_of x xs) -> length z < length v) by (intros z I; specialize (B z I); lia).
    clear B TL. revert G. induction O as [|a b l l' H O IHO]; intros G; constructor.
    + intros W. apply (IH a); auto. apply G. now left.
    + apply IHO. intros z I. apply G. now right.
  - destruct (scalar_of _); intros [= <-] _; [apply Q_concrete, K_scalar|apply Q_lit].
Qed.

Lemma cut_line_spec s : (~ In "010"%char s /\ cut_line s = (s, None)) \/
  (exists a b, s = a ++ "010"%char :: b /\ ~ In "010"%char a /\ cut_line s = (a, Some b)).
Proof.
  induction s as [|c s IH]; cbn [cut_line]; [left; auto|].
  destruct (ceq c "010") eqn:E.
  - apply ceq_true in E. subst c. right. exists [], s. auto.
  - assert (N : c <> "010"%char) by (intros ->; discriminate E).
    destruct IH as [(I & ->)|(a & b & -> & I & ->)].
    + left. split; [|reflexivity]. intros [X|X]; auto.
    + right. exists (c :: a), b. repeat split. intros [X|X]; auto.
Qed.
(** The text after the last line break. *)
Lemma getlines_spec (pre x : str) : forall fuel, length (pre ++ x) < fuel -> ~ In "010"%char x -> (pre = [] \/ exists p, pre = p ++ ["010"%char]) ->
  getlines fuel (pre ++ x) = Ok x.
Proof.
  induction pre as [pre IH] using length_ind. intros [|fuel] L N P; [lia|]. cbn [getlines].
  destruct P as [->|[p ->]].
  - cbn [app]. destruct x as [|c x]; [reflexivity|].
    destruct (cut_line_spec (c :: x)) as [(_ & ->)|(a & b & E & _ & _)]; [reflexivity|].
    exfalso. apply N. rewrite E. apply in_or_app. right. now left.
  - rewrite <- app_assoc in *. cbn [app] in *.
    assert (Q : exists c r, p ++ "010"%char :: x = c :: r) by (destruct p; cbn [app]; eauto). destruct Q as (c & r & Q).
    rewrite Q. rewrite <- Q. clear c r Q.
    destruct (cut_line_spec (p ++ "010"%char :: x)) as [(I & _)|(a & b & E & I & ->)].
    { exfalso. apply I. apply in_or_app. right. now left. }
    assert (Q : b = x \/ exists q, b = (q ++ ["010"%char]) ++ x /\ length q < length p).
    { clear - E I N. revert a E I. induction p as [|c p IH]; intros [|c' a] E I; cbn [app] in E; injection E; intros; subst.
      - left. reflexivity.
      - exfalso. apply I. now left.
      - right. exists p. rewrite <- app_assoc. split; [reflexivity|simpl; lia].
      - destruct (IH a) as [->|(q & -> & Lq)]; auto.
        + intros X. apply I. now right.
        + right. exists q. split; [reflexivity|simpl; lia]. }
    assert (Lb : length b < fuel).
    { apply (f_equal (@length ascii)) in E. rewrite E in L. rewrite app_length in L. simpl in L. lia. }
    destruct Q as [->|(q & -> & Lq)].
    + apply (IH [] ltac:(rewrite app_length; simpl; lia) fuel Lb N). now left.
    + apply (IH (q ++ ["010"%char]) ltac:(rewrite !app_length; simpl; lia) fuel Lb N). right. now exists q.
Qed.
Lemma last_line_spec (pre x : str) : ~ In "010"%char x -> (pre = [] \/ exists p, pre = p ++ ["010"%char]) -> last_line (pre ++ x) = Ok x.
Proof. intros N P. apply getlines_spec; auto. Qed.
Lemma split_last s : exists pre x, s = pre ++ x /\ ~ In "010"%char x /\ (pre = [] \/ exists p, pre = p ++ ["010"%char]).
Proof.
  induction s as [|c s (pre & x & -> & N & P)].
  - exists [], []. auto.
  - destruct P as [->|[p ->]].
    + destruct (ascii_dec c "010"%char) as [->|D].
      * exists ["010"%char], x. repeat split; auto. right. now exists [].
      * exists [], (c :: x). repeat split; auto. intros [X|X]; auto.
    + exists (c :: p ++ ["010"%char]), x. repeat split; auto. right. now exists (c :: p).
Qed.

(** * Packaged *)
Lemma decides_pack o P : decides o P -> (exists b, o = Ok b) /\ (o = Ok true <-> P).
Proof. intros D. split; [destruct D as (b & E & _); eauto|now apply decides_true]. Qed.
Lemma fixed_exact f s : ValidDecl f -> ValidQuery s -> f_variadic f = None -> f_aggregate f = false ->
  (exists b, tryMatch f s = Ok b) /\ (tryMatch f s = Ok true <-> FixedOk f s).
Proof.
  intros D Q V A. apply decides_pack. eapply decides_iff; [|now apply tryMatch_decides].
  unfold Accepts, CallOk, IntermediateOk. rewrite V. split; [intros [X|(X & _)]; [exact X|congruence]|auto].
Qed.
Lemma variadic_exact f v s : ValidDecl f -> ValidQuery s -> f_variadic f = Some v -> f_aggregate f = false ->
  (exists b, tryMatch f s = Ok b) /\ (tryMatch f s = Ok true <-> VariadicOk f v s).
Proof.
  intros D Q V A. apply decides_pack. eapply decides_iff; [|now apply tryMatch_decides].
  unfold Accepts, CallOk, IntermediateOk. rewrite V. split; [intros [X|(X & _)]; [exact X|congruence]|auto].
Qed.
Lemma variadic_single f v t s : ValidDecl f -> ValidQuery s -> f_variadic f = Some v -> f_aggregate f = false -> f_args f = [AValue t] ->
  (tryMatch f s = Ok true <->
   let n := Z.of_nat (length (q_args s)) in
   (v_min v <= n)%Z /\ (forall m, v_max v = Some m -> (n <= m)%Z) /\ Forall (Inst false t) (q_args s) /\ ReturnOk f s).
Proof.
  intros D Q V A E. rewrite (proj2 (variadic_exact f v s D Q V A)). unfold VariadicOk. cbv zeta. rewrite E. split.
  - intros (X & Y & Z & W). repeat split; auto. exact (Z t [] eq_refl).
  - intros (X & Y & Z & W). repeat split; auto. intros t' rest [= <- <-]. exact Z.
Qed.
Lemma variadic_empty_ub s : 0 < length (q_args s) ->
  tryMatch {| f_name := $"f"; f_uri := $"/f.yaml"; f_args := []; f_return := TNull; f_variadic := Some {| v_min := 1; v_max := None |};
    f_aggregate := false; f_intermediate := TNull |} s = UB.
Proof.
  intros H. unfold tryMatch, tryMatch_base. cbn [f_variadic f_args v_min v_max]. cbv zeta.
  replace (Z.of_nat (length (q_args s)) <? to_size 1)%Z with false; [reflexivity|]. symmetry. rewrite to_size_id by lia. lia.
Qed.
Lemma aggregate_exact f s : ValidDecl f -> ValidQuery s -> f_aggregate f = true ->
  (exists b, tryMatch f s = Ok b) /\
  (tryMatch f s = Ok true <-> CallOk f s \/ (f_intermediate f <> TNull /\ exists a, q_args s = [a] /\ Inst false (f_intermediate f) a)).
Proof.
  intros D Q A. apply decides_pack. eapply decides_iff; [|now apply tryMatch_decides].
  unfold Accepts, IntermediateOk. tauto.
Qed.
