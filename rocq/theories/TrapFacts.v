(** Which texts lead to undefined behaviour when they are read. *)
From Verif Require Import Base BaseFacts StringsModel StringsFacts TypeModel LexModel EscapeModel EscapeFacts TimeModel ExprModel RelModel SectionModel FirstFacts WrittenFacts WholeModel SoundFacts.
From Verif Require FloatModel DecimalModel CalendarModel MatchFacts FieldModel DeclModel PipeModel PipeFacts TreeModel TreeFacts DefineFacts EnumModel.
From Coq Require Import Lia ZifyBool ZifyNat ZifyN.

(** * What is meant *)
(** A type whose text cannot be read without undefined behaviour (C15) *)
Definition TypeTrap (inside : bool) (w : str) : Prop := textToTypeProto inside w = UB.
(** A constant, with its own type ([None]) or one that is given *)
Definition braces (c : cnode) : bool := match c with CStruct _ _ => true | _ => false end.
Inductive Trap : bool -> cnode -> option ptype -> Prop :=
(* its type *)
| T_type i c w : type_of c = Some w -> TypeTrap (i || braces c) w -> Trap i c None
| T_own i c w t e : type_of c = Some w -> textToTypeProto (i || braces c) w = Ok (t, e) -> Trap i c (Some t) -> Trap i c None
(* a timestamp that is too far away for nanoseconds in 64 bits *)
| T_time i q ty n s e z : evalString q = Some (s, e) -> parse_timestamp s = PValue z -> (z * 1000000000 < - 2 ^ 63 \/ 2 ^ 63 <= z * 1000000000)%Z -> Trap i (CString q ty) (Some (PtScalar STimestamp n))
(* an interval with too few parts *)
| T_pairs i l ty k n : k = SIntervalYear \/ k = SIntervalDay -> Trap i (CMap l ty) (Some (PtScalar k n))
| T_year i l ty n : length l < 2 -> Trap i (CStruct l ty) (Some (PtScalar SIntervalYear n))
| T_day i l ty n : length l < 3 -> Trap i (CStruct l ty) (Some (PtScalar SIntervalDay n))
(* something of these inside *)
| T_member i l ty ts n j c t : nth_error l j = Some c -> nth_error ts j = Some t -> Trap true c (Some t) -> Trap i (CStruct l ty) (Some (PtStruct ts n))
| T_element i l ty e n c : In c l -> Trap true c (Some e) -> Trap i (CStruct l ty) (Some (PtList e n))
| T_listed i l ty e n a b : In (a, b) l -> Trap i a None \/ Trap i b None -> Trap i (CMap l ty) (Some (PtList e n))
| T_entry i l ty k v n a b : In (a, b) l -> Trap i a (Some k) \/ Trap i b (Some v) -> Trap i (CMap l ty) (Some (PtMap k v n)).
(** The constants and the types of an expression *)
Fixpoint constants (e : enode) : list cnode :=
  match e with
  | NConst c => [c] | NFun _ args _ => flat_map (fun a => let '(_, x) := a in constants x) args | NCast e _ => constants e | NIn l _ => flat_map constants l | NCompare e _ _ _ => constants e
  | NCol _ | NScalar _ | NSet _ _ => []
  end.
Fixpoint type_texts (e : enode) : list str :=
  match e with
  | NFun _ args ty => flat_map (fun a => let '(_, x) := a in type_texts x) args ++ match ty with Some w => [w] | None => [] end
  | NCast e w => type_texts e ++ [w] | NIn l _ => flat_map type_texts l | NCompare e _ _ _ => type_texts e
  | NConst _ | NCol _ | NScalar _ | NSet _ _ => []
  end.
Definition expr_trap (e : enode) : Prop := (exists c, In c (constants e) /\ Trap false c None) \/ exists w, In w (type_texts e) /\ TypeTrap false w.
Definition mdetail_exprs (d : mdetail) : list enode := match d with MMeasure e _ _ | MFilter e | MSort e _ => [e] | MInvocation _ => [] end.
Definition detail_exprs (d : RelModel.detail) : list enode :=
  match d with OnFilter _ e | OnExpression e _ | OnGrouping e | OnSort e _ => [e] | OnMeasure l => flat_map mdetail_exprs l | _ => [] end.
(** A measure that is no call, without a phase and a name *)
Definition a_call (e : enode) : Prop := exists n args ty, e = NFun n args ty /\ to_lower n <> $"ifthen".
Definition measure_trap (d : mdetail) : Prop := match d with MMeasure e ty ids => (exists w, ty = Some w /\ TypeTrap false w) \/ ids = [] /\ ~ a_call e | _ => False end.
(** Words of the text that are compared with those of enumerations *)
Definition mdetail_words (d : mdetail) : list str := match d with MMeasure _ _ (n :: _) => [n] | MInvocation n => [n] | MSort _ (Some n) => [n] | _ => [] end.
Definition detail_words (d : RelModel.detail) : list str :=
  match d with OnFilter (Some n) _ => [n] | OnSort _ (Some n) => [n] | OnType n => [n] | OnMeasure l => flat_map mdetail_words l | _ => [] end.
Definition foreign (w : str) : Prop := forallb EnumModel.ascii7 w = false.
(** A column that is grouped by though a column before it has its name: one that is grouped by, or a measure *)
Definition names_column (d : RelModel.detail) (x : str) : Prop :=
  match d with OnGrouping (NCol y) => y = x \/ exists q, y = q ++ $"." ++ x | OnMeasure l => In x (measure_given l) | _ => False end.
Definition grouped_again (ds : list RelModel.detail) : Prop := exists before x after, ds = before ++ OnGrouping (NCol x) :: after /\ exists d, In d before /\ names_column d x.
Definition detail_trap (d : RelModel.detail) : Prop := (exists e, In e (detail_exprs d) /\ expr_trap e) \/ exists l m, d = OnMeasure l /\ In m l /\ measure_trap m.
(** The same with words outside of ASCII, which texts do not have (WordFacts.v) *)
Definition detail_case (d : RelModel.detail) : Prop :=
  (exists e, In e (detail_exprs d) /\ expr_trap e) \/ (exists l m, d = OnMeasure l /\ In m l /\ measure_trap m) \/ exists w, In w (detail_words d) /\ foreign w.

(** * Constants *)
Lemma evalString_total q : exists s e, evalString q = Some (s, e).
Proof. unfold evalString. destruct (startsWith q _); [eauto|]. apply escapeText_total. Qed.
Definition sound {A} (x : evaluated A) (P : Prop) : Prop := match x with Ok _ => ~ P | Throw _ => False | UB => P end.
Lemma sound_ok {A} (x : A * list eerr) P : ~ P -> sound (Ok x) P. Proof. exact (fun H => H). Qed.
Lemma sound_bind {A B} (x : evaluated A) (f : A -> evaluated B) P Q : sound x P -> (forall a e, x = Ok (a, e) -> sound (f a) Q) -> sound (bindE x f) (P \/ ~ P /\ Q).
Proof.
  intros Hx Hf. unfold bindE. destruct x as [[a e]|y|]; cbn [obind sound] in *; [|destruct Hx|left; exact Hx]. specialize (Hf a e eq_refl). cbn [fst snd]. destruct (f a) as [[b e2]|y|]; cbn [obind sound] in *; [|exact Hf|right; auto].
  intros [H|[_ H]]; auto.
Qed.
Lemma sound_iff {A} (x : evaluated A) P Q : (P <-> Q) -> sound x P -> sound x Q.
Proof. intros [H1 H2]. destruct x; cbn; auto. Qed.
Lemma sound_or {A B} (x : evaluated A) (f : A -> evaluated B) P Q : sound x P -> (forall a e, x = Ok (a, e) -> sound (f a) Q) -> (P \/ ~ P) -> sound (bindE x f) (P \/ Q).
Proof. intros Hx Hf D. apply (sound_iff _ (P \/ ~ P /\ Q)); [tauto|]. apply sound_bind; assumption. Qed.
Lemma sound_dec {A} (x : evaluated A) P : sound x P -> P \/ ~ P.
Proof. destruct x; cbn; [right; assumption|intros []|left; assumption]. Qed.
Lemma sound_good {A B} (x : evaluated A) (f : A -> evaluated B) P : sound x P -> (forall a, exists b, f a = Ok b) -> sound (bindE x f) P.
Proof. intros Hx Hf. apply (sound_iff _ (P \/ ~ P /\ False)); [tauto|]. apply sound_bind; [exact Hx|]. intros a e _. destruct (Hf a) as [b ->]. cbn. auto. Qed.
Lemma number_sound s t : sound (visitNumber s t) False.
Proof.
  assert (C : forall (A : Type) (o : outcome A) f, o <> UB -> (forall a, sound (f a) False) -> sound (caught o f) False) by (intros A o f Ho Hf; destruct o; cbn; auto; contradiction).
  assert (S1 : forall x, stoi x <> UB) by (intros x; unfold stoi; repeat match goal with |- context [match ?x with _ => _ end] => destruct x end; discriminate).
  assert (S2 : forall x, stol x <> UB) by (intros x; unfold stol; cbv zeta; repeat match goal with |- context [match ?x with _ => _ end] => destruct x end; discriminate).
  assert (S3 : forall p x, FloatModel.stod p x <> UB) by (intros p x; unfold FloatModel.stod; cbv zeta; repeat match goal with |- context [match ?x with _ => _ end] => destruct x end; discriminate).
  destruct t as [|[] n|l n|l n|l n|p sc n|l n|e n|k v n|u]; cbn [visitNumber]; try (cbn; tauto); try (apply C; [apply S1 || apply S2 || apply S3|intros a; cbn; tauto]). destruct (DecimalModel.isValid _); cbn; tauto.
Qed.

Lemma string_sound s t : sound (visitString s t) False.
Proof.
  unfold visitString. destruct (evalString_total s) as (x & e & ->). destruct t as [|[] n|l n|l n|l n|p sc n|l n|y n|k v n|u]; cbn; try tauto.
  destruct (negb _); [cbn; tauto|]. destruct (negb _); cbn; tauto.
Qed.
Lemma date_sound s : sound (visitDate s) False.
Proof. unfold visitDate. destruct (evalString_total s) as (x & e & ->). destruct (CalendarModel.parse_date x); cbn; tauto. Qed.
Lemma time_sound s : sound (visitTime s) False.
Proof. unfold visitTime. destruct (evalString_total s) as (x & e & ->). destruct (parse_time x); cbn; tauto. Qed.
Definition too_far (q : str) : Prop := exists s e z, evalString q = Some (s, e) /\ parse_timestamp s = PValue z /\ (z * 1000000000 < - 2 ^ 63 \/ 2 ^ 63 <= z * 1000000000)%Z.
Lemma timestamp_sound q : sound (visitTimestamp q) (too_far q).
Proof.
  unfold visitTimestamp. destruct (evalString_total q) as (x & e & Eq). rewrite Eq.
  assert (U : too_far q <-> exists z, parse_timestamp x = PValue z /\ (z * 1000000000 < - 2 ^ 63 \/ 2 ^ 63 <= z * 1000000000)%Z).
  { split; [intros (s & e' & z & E1 & E2 & E3); rewrite Eq in E1; injection E1 as <- <-; eauto|]. intros (z & E2 & E3). exists x, e, z. auto. }
  apply (sound_iff _ _ _ (iff_sym U)). destruct (parse_timestamp x) as [|z|]; [cbn; intros (z & E & _); discriminate E| |cbn; intros (z & E & _); discriminate E].
  unfold to_time_t, clock_ticks. destruct ((- 2 ^ 63 <=? z * 1000000000) && (z * 1000000000 <? 2 ^ 63))%Z eqn:R; cbn [obind sound].
  - intros (z' & E & O). injection E as <-. lia.
  - exists z. split; [reflexivity|]. lia.
Qed.
Lemma type_no_throw i t : forall e, typeToProto i t <> Throw e.
Proof.
  induction t using MatchFacts.ty_ind'; intros x; cbn [typeToProto]; try discriminate.
  - match goal with |- match ?y with _ => _ end <> _ => destruct y end; try discriminate. destruct (stoi _); [|discriminate..]. match goal with |- match ?y with _ => _ end <> _ => destruct y end; try discriminate. destruct (stoi _); discriminate.
  - match goal with |- match ?y with _ => _ end <> _ => destruct y end; try discriminate. destruct (stoi _); discriminate.
  - match goal with |- match ?y with _ => _ end <> _ => destruct y end; try discriminate. destruct (negb _); [discriminate|]. destruct (stoi _); discriminate.
  - specialize (IHt x). destruct (typeToProto i t); cbn; congruence.
  - intros E. match type of E with (r <- ?o ;; _) = _ => assert (X : o <> Throw x) end; [|match type of E with (r <- ?o ;; _) = _ => destruct o; cbn in E; congruence end]. clear E.
    match goal with H : Forall _ _ |- _ => induction H as [|y l Hy _ IHl] end; [discriminate|]. specialize (Hy x). destruct (typeToProto i y); cbn [obind]; [|congruence|discriminate].
    match goal with |- context [obind ?o _] => destruct o end; cbn; congruence.
  - specialize (IHt1 x). specialize (IHt2 x). set (y1 := typeToProto i t1) in *. set (y2 := typeToProto i t2) in *. clearbody y1 y2.
    destruct t1; try discriminate; (destruct t2; [discriminate|..]); (destruct y1; cbn [obind]; [destruct y2; cbn; congruence|congruence|discriminate]).
Qed.
Lemma text_no_throw i w : forall e, textToTypeProto i w <> Throw e.
Proof. intros e. unfold textToTypeProto. destruct (decode true w); try discriminate. apply type_no_throw. Qed.
Lemma read_sound i w : sound (read_type i w) (TypeTrap i w).
Proof. unfold read_type, TypeTrap. destruct (textToTypeProto i w) as [x|x|] eqn:E; cbn; [discriminate|exact (text_no_throw _ _ _ E)|reflexivity]. Qed.
Section Parts.
  Variable b : bool.
  Definition each2 := fix each2 (l : list cnode) (ts : list ptype) : evaluated (list literal) :=
    match l, ts with
    | c :: l, t :: ts => bindE (visitConst b c (Some t)) (fun v => bindE (each2 l ts) (fun vs => good (v :: vs)))
    | _, _ => good []
    end.
  Definition each_of (e : ptype) := fix each (l : list cnode) : evaluated (list literal) :=
    match l with [] => good [] | c :: l => bindE (visitConst b c (Some e)) (fun x => bindE (each l) (fun r => good (x :: r))) end.
  Definition pairs_in (k v : option ptype) := fix each (l : list (cnode * cnode)) : evaluated (list (literal * literal)) :=
    match l with
    | [] => good []
    | (x, y) :: l => bindE (visitConst b x k) (fun x => bindE (visitConst b y v) (fun y => bindE (each l) (fun r => good ((x, y) :: r))))
    end.
  Let P (c : cnode) : Prop := forall i g, sound (visitConst i c g) (Trap i c g).
  Lemma each2_sound l : Forall P l -> forall ts, sound (each2 l ts) (exists j c t, nth_error l j = Some c /\ nth_error ts j = Some t /\ Trap b c (Some t)).
  Proof.
    induction 1 as [|c l Hc _ IH]; intros ts; [intros (j & c & t & E & _); destruct j; discriminate E|]. destruct ts as [|t ts]; [intros (j & c' & t & _ & E & _); destruct j; discriminate E|].
    cbn [each2]. apply (sound_iff _ (Trap b c (Some t) \/ exists j c t, nth_error l j = Some c /\ nth_error ts j = Some t /\ Trap b c (Some t))).
    - split; [intros [T|(j & T)]; [exists 0; eexists _, _; cbn; eauto|exists (S j); exact T]|]. intros (j & c' & t' & E1 & E2 & T); destruct j as [|j]; cbn [nth_error] in *; [left; injection E1 as ->; injection E2 as ->; exact T|right; exists j, c', t'; auto].
    - apply sound_or; [apply Hc|intros v e _; apply sound_good; [apply IH|intros vs; eexists; reflexivity]|apply (sound_dec _ _ (Hc b (Some t)))].
  Qed.
  Lemma each2_length l : forall ts vs e, each2 l ts = Ok (vs, e) -> length vs = Nat.min (length l) (length ts).
  Proof.
    induction l as [|c l IH]; intros ts vs e E; [injection E as <- _; reflexivity|]. destruct ts as [|t ts]; [injection E as <- _; reflexivity|]. cbn [each2] in E. unfold bindE in E. destruct (visitConst b c (Some t)) as [x| |]; cbn [obind] in E; try discriminate.
    destruct (each2 l ts) as [[ws e2]| |] eqn:E2; cbn [obind good fst snd] in E; try discriminate. injection E as <- _. cbn [length]. rewrite (IH _ _ _ E2). reflexivity.
  Qed.
  Lemma each_sound e l : Forall P l -> sound (each_of e l) (exists c, In c l /\ Trap b c (Some e)).
  Proof.
    induction 1 as [|c l Hc _ IH]; [intros (c & [] & _)|]. cbn [each_of]. apply (sound_iff _ (Trap b c (Some e) \/ exists c, In c l /\ Trap b c (Some e))).
    - split; [intros [T|(j & T1 & T2)]; [exists c; cbn; auto|exists j; cbn; auto]|]. intros (c' & [<-|E] & T); [left; exact T|right; eauto].
    - apply sound_or; [apply Hc|intros v x _; apply sound_good; [apply IH|intros vs; eexists; reflexivity]|apply (sound_dec _ _ (Hc b (Some e)))].
  Qed.
  Lemma pairs_sound k v l : Forall (fun p => P (fst p) /\ P (snd p)) l -> sound (pairs_in k v l) (exists x y, In (x, y) l /\ (Trap b x k \/ Trap b y v)).
  Proof.
    induction 1 as [|[x y] l [Hx Hy] _ IH]; [intros (x & y & [] & _)|]. cbn [pairs_in fst snd] in *. apply (sound_iff _ (Trap b x k \/ (Trap b y v \/ exists x y, In (x, y) l /\ (Trap b x k \/ Trap b y v)))).
    - split; [intros [T|[T|(x' & y' & T1 & T2)]]; [exists x, y; cbn; auto|exists x, y; cbn; auto|exists x', y'; cbn; auto]|]. intros (x' & y' & [E|E] & T); [injection E as <- <-; tauto|right; right; eauto].
    - apply sound_or; [apply Hx| |apply (sound_dec _ _ (Hx b k))]. intros a e _. apply sound_or; [apply Hy| |apply (sound_dec _ _ (Hy b v))]. intros a2 e2 _. apply sound_good; [apply IH|intros vs; eexists; reflexivity].
  Qed.
End Parts.
Definition structure_of (l : list cnode) (ts : list ptype) : evaluated literal :=
  bindE (each2 true l ts) (fun vs => Ok (match vs with [] => Lit LUnset false | _ => Lit (LStruct vs) false end, if length l =? length ts then [] else [XFieldCount])).
Lemma structure_sound l ts : Forall (fun c => forall i g, sound (visitConst i c g) (Trap i c g)) l ->
  sound (structure_of l ts) (exists j c t, nth_error l j = Some c /\ nth_error ts j = Some t /\ Trap true c (Some t)).
Proof. intros H. apply sound_good; [apply each2_sound, H|intros vs; eexists; reflexivity]. Qed.
Lemma structure_fields l ts s e : structure_of l ts = Ok (s, e) -> length (ExprModel.fields_of s) = Nat.min (length l) (length ts).
Proof.
  unfold structure_of, bindE. destruct (each2 true l ts) as [[vs e2]| |] eqn:E; cbn [obind fst snd]; try discriminate. intros H. injection H as <- _. rewrite <- (each2_length _ _ _ _ _ E). destruct vs; reflexivity.
Qed.
Definition i32 : ptype := PtScalar SI32 NUnspecified.
Lemma no_trap_i32 i c : ~ Trap i c (Some i32).
Proof. intros H. inversion H; subst; try discriminate; match goal with Q : _ \/ _ |- _ => destruct Q; discriminate end. Qed.
Lemma interval_sound {B} l ts k (f : literal -> evaluated B) (P : Prop) : (forall t, In t ts -> t = i32) -> Forall (fun c => forall i g, sound (visitConst i c g) (Trap i c g)) l -> length ts = k ->
  (forall s, k <= length (ExprModel.fields_of s) -> exists x, f s = Ok x) -> (forall s, length (ExprModel.fields_of s) < k -> f s = UB) -> (P <-> length l < k) ->
  sound (bindE (structure_of l ts) f) P.
Proof.
  intros Ht Hl Hk Hf Hu HP. assert (S0 : sound (structure_of l ts) False).
  { apply (sound_iff _ (exists j c t, nth_error l j = Some c /\ nth_error ts j = Some t /\ Trap true c (Some t))); [|apply structure_sound, Hl]. split; [|tauto]. intros (j & c & t & _ & E & T). apply nth_error_In in E. rewrite (Ht t E) in T. exact (no_trap_i32 _ _ T). }
  apply (sound_iff _ (False \/ ~ False /\ P)); [tauto|]. apply sound_bind; [exact S0|]. intros s e E. pose proof (structure_fields _ _ _ _ E) as L. destruct (Nat.lt_ge_cases (length l) k) as [Q|Q].
  - rewrite Hu by lia. apply HP, Q.
  - destruct (Hf s ltac:(lia)) as [x ->]. cbn. rewrite HP. lia.
Qed.
Lemma own_type i c w : type_of c = Some w -> visitConst i c None = bindE (read_type (i || braces c) w) (fun t => visitConst i c (Some t)).
Proof. intros H. destruct c; cbn [type_of] in H; subst; reflexivity. Qed.
Lemma no_type i c : type_of c = None -> sound (visitConst i c None) False.
Proof. intros H. destruct c; cbn [type_of] in H; subst; cbn [visitConst type_of]; try (cbn; tauto). apply string_sound. Qed.
Lemma given_type c : (forall i t, sound (visitConst i c (Some t)) (Trap i c (Some t))) -> forall i g, sound (visitConst i c g) (Trap i c g).
Proof.
  intros H i [t|]; [apply H|]. destruct (type_of c) as [w|] eqn:Ew.
    - rewrite (own_type i c w Ew). pose proof (read_sound (i || braces c) w) as R. unfold read_type, TypeTrap in *. destruct (textToTypeProto (i || braces c) w) as [[t e]|x|] eqn:Et; cbn [obind fst snd] in *; [|destruct R|].
      + unfold bindE. cbn [obind fst snd]. specialize (H i t). apply (sound_iff _ (Trap i c (Some t))).
        * split; [intros T; eapply T_own; eassumption|]. intros T. inversion T; subst; [unfold TypeTrap in *|]; congruence.
        * destruct (visitConst i c (Some t)) as [[v e2]| |]; cbn in *; exact H.
      + cbn. eapply T_type; [exact Ew|exact Et].
    - apply (sound_iff _ False); [|apply no_type, Ew]. split; [tauto|]. intros T. inversion T; subst; congruence. 
Qed.
Lemma const_sound c : forall i g, sound (visitConst i c g) (Trap i c g).
Proof.
  induction c as [q ty|q ty|ty|ty|ty|l ty IH|l ty IH] using cnode_ind2; apply given_type; intros i t; cbn [visitConst type_of].
  - apply (sound_iff _ False); [|apply number_sound]. split; [tauto|]. intros T. inversion T.
  - destruct t as [|[] n|m n|m n|m n|p sc n|m n|y n|k v n|u]; try (apply (sound_iff _ False); [split; [tauto|intros T; inversion T]|]; first [apply string_sound | apply date_sound | apply time_sound | cbn; tauto]).
    apply (sound_iff _ (too_far q)); [|apply timestamp_sound]. split; [intros (s & e & z & E1 & E2 & E3); econstructor; eassumption|]. intros T. inversion T; subst. exists s, e, z. auto.
  - destruct t as [|[] n|m n|m n|m n|p sc n|m n|y n|k v n|u]; cbn; intros T; inversion T.
  - destruct t as [|[] n|m n|m n|m n|p sc n|m n|y n|k v n|u]; cbn; intros T; inversion T.
  - cbn. intros T. inversion T.
  - rewrite orb_false_r. destruct t as [|[] n|m n|m n|m n|p sc n|m n|y n|k v n|u]; try (cbn; intros T; inversion T; subst; match goal with H : _ \/ _ |- _ => destruct H; discriminate end); try (cbn; intros T; inversion T; fail); try (cbn; constructor; auto; fail).
    + apply sound_good; [|intros x; eexists; reflexivity]. change (sound (pairs_in i None None l) (Trap i (CMap l ty) (Some (PtList y n)))). eapply sound_iff; [|apply pairs_sound, IH]. split.
      * intros (a & b & I & T). econstructor; eassumption.
      * intros T. inversion T; subst. eauto.
    + destruct l as [|p l]; [cbn; intros T; inversion T; subst; match goal with H : In _ [] |- _ => destruct H end|].
      apply sound_good; [|intros x; eexists; reflexivity]. change (sound (pairs_in i (Some k) (Some v) (p :: l)) (Trap i (CMap (p :: l) ty) (Some (PtMap k v n)))). eapply sound_iff; [|apply pairs_sound, IH]. split.
      * intros (a & b & I & T). econstructor; eassumption.
      * intros T. inversion T; subst. eauto.
  - rewrite orb_true_r. destruct t as [|[] n|m n|m n|m n|p sc n|ts n|y n|k v n|u]; try (cbn; intros T; inversion T; fail).
    + match goal with |- sound ?x _ => change x with (bindE (structure_of l [i32; i32]) (fun s => match ExprModel.fields_of s with a :: b :: _ => good (Lit (LIntervalYear (i32_of a) (i32_of b)) false) | _ => UB end)) end.
      apply (interval_sound l _ 2); [cbn; intuition congruence|exact IH|reflexivity| | |].
      * intros s H. destruct (ExprModel.fields_of s) as [|a [|b r]]; cbn in H; try lia. eexists; reflexivity.
      * intros s H. destruct (ExprModel.fields_of s) as [|a [|b r]]; cbn in H; try lia; reflexivity.
      * split; [intros T; inversion T; assumption|intros H; constructor; exact H].
    + match goal with |- sound ?x _ => change x with (bindE (structure_of l [i32; i32; i32]) (fun s => match ExprModel.fields_of s with a :: b :: c :: _ => good (Lit (LIntervalDay (i32_of a) (i32_of b) (i32_of c)) false) | _ => UB end)) end.
      apply (interval_sound l _ 3); [cbn; intuition congruence|exact IH|reflexivity| | |].
      * intros s H. destruct (ExprModel.fields_of s) as [|a [|b [|d r]]]; cbn in H; try lia. eexists; reflexivity.
      * intros s H. destruct (ExprModel.fields_of s) as [|a [|b [|d r]]]; cbn in H; try lia; reflexivity.
      * split; [intros T; inversion T; assumption|intros H; constructor; exact H].
    + change (sound (structure_of l ts) (Trap i (CStruct l ty) (Some (PtStruct ts n)))). eapply sound_iff; [|apply structure_sound, IH]. split.
      * intros (j & c & t & E1 & E2 & T). econstructor; eassumption.
      * intros T. inversion T; subst. eauto 6.
    + apply sound_good; [|intros x; eexists; reflexivity]. change (sound (each_of true y l) (Trap i (CStruct l ty) (Some (PtList y n)))). eapply sound_iff; [|apply each_sound, IH]. split.
      * intros (c & I & T). econstructor; eassumption.
      * intros T. inversion T; subst. eauto.
Qed.
Lemma constant_trap c : visitConstant c = UB <-> Trap false c None.
Proof. pose proof (const_sound c false None) as H. unfold visitConstant. destruct (visitConst false c None); cbn in H; split; intros; try discriminate; tauto. Qed.
Lemma constant_no_throw c e : visitConstant c <> Throw e.
Proof. pose proof (const_sound c false None) as H. unfold visitConstant. destruct (visitConst false c None); cbn in H; congruence || destruct H. Qed.

(** * Expressions *)
Lemma bind_ub {A B} (x : evaluated A) (f : A -> evaluated B) : bindE x f = UB -> x = UB \/ exists a, f a = UB.
Proof. unfold bindE. destruct x as [[a e]| |]; cbn [obind]; [|discriminate|auto]. destruct (f (fst (a, e))) eqn:E; cbn; try discriminate. intros _. right. exists a. exact E. Qed.
Lemma each_ub {A B} (f : A -> evaluated B) l : eachE f l = UB -> exists x, In x l /\ f x = UB.
Proof.
  induction l as [|x l IH]; [discriminate|]. cbn [eachE]. intros H. apply bind_ub in H as [H|[a H]]; [exists x; cbn; auto|]. apply bind_ub in H as [H|[b H]]; [|discriminate]. destruct (IH H) as (y & I & E). exists y. cbn. auto.
Qed.
Lemma read_ub i w : read_type i w = UB -> TypeTrap i w.
Proof. pose proof (read_sound i w) as R. intros H. rewrite H in R. exact R. Qed.
Lemma trap_weaken e e' : incl (constants e) (constants e') -> incl (type_texts e) (type_texts e') -> expr_trap e -> expr_trap e'.
Proof. intros C T [(c & I & H)|(w & I & H)]; [left; exists c; auto|right; exists w; auto]. Qed.
Lemma arg_trap n args ty s x : In (s, x) args -> expr_trap x -> expr_trap (NFun n args ty).
Proof. intros I. apply trap_weaken; intros y J; cbn [constants type_texts]; [|apply in_or_app; left]; apply in_flat_map; exists (s, x); auto. Qed.
Lemma own_trap n args w : TypeTrap false w -> expr_trap (NFun n args (Some w)).
Proof. intros T. right. exists w. split; [|exact T]. cbn [type_texts]. apply in_or_app. right. left. reflexivity. Qed.
Lemma cast_trap e w : expr_trap e -> expr_trap (NCast e w).
Proof. apply trap_weaken; intros y J; cbn [constants type_texts]; [|apply in_or_app; left]; exact J. Qed.
Lemma in_trap l n x : In x l -> expr_trap x -> expr_trap (NIn l n).
Proof. intros I. apply trap_weaken; intros y J; cbn [constants type_texts]; apply in_flat_map; exists x; auto. Qed.
Section Expressions.
  Variables (ff : str -> option N) (fr : str -> option bool) (fc : str -> option (N * Z)).
  Lemma subquery_no_ub {A} n (m : A) f : ExprModel.subquery fr n m f <> UB.
  Proof. unfold ExprModel.subquery. destruct (fr n) as [[]|]; discriminate. Qed.
  Lemma expr_ub e : visitExpr ff fr fc e = UB -> expr_trap e.
  Proof.
    induction e as [n args ty IH|c|t|e ty IH|n|l n IH|b n|e op b n IH] using enode_ind2; cbn [visitExpr]; intros H.
    - destruct (to_lower n =s _).
      + apply bind_ub in H as [H|[a H]]; [|destruct a; [discriminate|]; destruct (pairs_of (e :: a)); discriminate]. apply each_ub in H as ([s x] & I & E). rewrite Forall_forall in IH. exact (arg_trap _ _ _ s x I (IH _ I E)).
      + apply bind_ub in H as [H|[a H]]; [destruct (ff n); discriminate|]. apply bind_ub in H as [H|[a2 H]].
        * apply each_ub in H as ([s x] & I & E). rewrite Forall_forall in IH. destruct (endsWith s enum_suffix); [discriminate|]. apply bind_ub in E as [E|[a3 E]]; [|discriminate]. exact (arg_trap _ _ _ s x I (IH _ I E)).
        * apply bind_ub in H as [H|[a3 H]]; [|discriminate]. destruct ty as [w|]; [|discriminate]. exact (own_trap _ _ _ (read_ub _ _ H)).
    - apply bind_ub in H as [H|[a H]]; [|discriminate]. apply constant_trap in H. left. exists c. cbn. auto.
    - destruct (fc t) as [[steps f]|]; discriminate.
    - apply bind_ub in H as [H|[a H]]; [exact (cast_trap _ _ (IH H))|]. apply bind_ub in H as [H|[a2 H]]; [|discriminate]. right. exists ty. split; [cbn [type_texts]; apply in_or_app; right; left; reflexivity|exact (read_ub _ _ H)].
    - destruct (subquery_no_ub _ _ _ H).
    - destruct (fr n); [|discriminate]. apply bind_ub in H as [H|[a H]]; [|destruct (subquery_no_ub _ _ _ H)]. apply each_ub in H as (x & I & E). rewrite Forall_forall in IH. exact (in_trap _ _ x I (IH _ I E)).
    - destruct (subquery_no_ub _ _ _ H).
    - apply bind_ub in H as [H|[a H]]; [exact (IH H)|destruct (subquery_no_ub _ _ _ H)].
  Qed.
  Lemma as_expr_ub x : as_expr x = UB -> x = UB.
  Proof. intros H. apply bind_ub in H as [H|[[| |] H]]; [exact H|discriminate..]. Qed.
  Lemma first_ub inner e : visitFirst ff fc inner e = UB -> expr_trap e.
  Proof.
    induction e as [n args ty IH|c|t|e ty IH|n|l n IH|b n|e op b n IH] using enode_ind2; cbn [visitFirst]; intros H; try discriminate.
    - destruct (to_lower n =s _).
      + apply bind_ub in H as [H|[a H]]; [|discriminate]. apply each_ub in H as ([s x] & I & E). rewrite Forall_forall in IH. exact (arg_trap _ _ _ s x I (IH _ I (as_expr_ub _ E))).
      + apply bind_ub in H as [H|[a H]]; [destruct (ff n); discriminate|]. apply bind_ub in H as [H|[a2 H]].
        * apply each_ub in H as ([s x] & I & E). rewrite Forall_forall in IH. destruct (endsWith s enum_suffix); [discriminate|]. destruct (has_subquery x); [discriminate|]. apply bind_ub in E as [E|[[| |] E]]; try discriminate. exact (arg_trap _ _ _ s x I (IH _ I E)).
        * apply bind_ub in H as [H|[a3 H]]; [|discriminate]. destruct ty as [w|]; [|discriminate]. exact (own_trap _ _ _ (read_ub _ _ H)).
    - apply bind_ub in H as [H|[a H]]; [|discriminate]. apply constant_trap in H. left. exists c. cbn. auto.
    - destruct inner; [discriminate|]. destruct (fc t) as [[steps f]|]; discriminate.
    - apply bind_ub in H as [H|[a H]]; [exact (cast_trap _ _ (IH (as_expr_ub _ H)))|]. apply bind_ub in H as [H|[a2 H]]; [|discriminate]. right. exists ty. split; [cbn [type_texts]; apply in_or_app; right; left; reflexivity|exact (read_ub _ _ H)].
    - apply bind_ub in H as [H|[a H]]; [|discriminate]. apply each_ub in H as (x & I & E). rewrite Forall_forall in IH. exact (in_trap _ _ x I (IH _ I (as_expr_ub _ E))).
    - exact (IH H).
  Qed.
End Expressions.

(** * Details *)
Lemma bindR_ub {A B} (x : RelModel.visited A) (f : A -> RelModel.visited B) : bindR x f = UB -> x = UB \/ exists a e, x = Ok (a, e) /\ f a = UB.
Proof. unfold bindR. destruct x as [[a e]| |]; cbn [obind]; [|discriminate|auto]. cbn [fst]. destruct (f a) eqn:E; cbn; try discriminate. intros _. right. exists a, e. auto. Qed.
Lemma lift_ub {A} (x : evaluated A) : lift x = UB -> x = UB.
Proof. unfold lift. destruct x; cbn; try discriminate. reflexivity. Qed.
Lemma said_ub {A} e (x : outcome (EnumModel.parsed A)) : said e x = UB -> x = UB.
Proof. unfold said. destruct x; cbn; try discriminate. reflexivity. Qed.
Lemma word_ub w prefix : EnumModel.normalizeProtoEnum w prefix = UB -> foreign w.
Proof. unfold EnumModel.normalizeProtoEnum, foreign. destruct (forallb EnumModel.ascii7 w); [discriminate|reflexivity]. Qed.
Section Details.
  Variables (ff : str -> option N) (fr : str -> option bool) (fc : nat -> nat -> str -> option (N * Z)) (columns : nat) (kn : str -> bool).
  Let visitE := RelModel.visitE ff fr fc.
  Lemma e_ub i j e : visitE i j e = UB -> expr_trap e.
  Proof.
    unfold visitE, RelModel.visitE, known. destruct (visitFirst ff (fc i j) true e) as [[a x]| |] eqn:E; cbn [obind]; [|discriminate|intros _; exact (first_ub _ _ _ _ E)].
    destruct (match fst (a, x) with FExpr _ => true | _ => false end); [|discriminate]. intros H. exact (expr_ub _ _ _ _ (lift_ub _ H)).
  Qed.
  Lemma direction_ub by_ : EnumModel.visitSort_field by_ = UB -> exists w, by_ = Some w /\ foreign w.
  Proof.
    destruct by_ as [w|]; [|discriminate]. cbn. unfold EnumModel.visitSortDirection. destruct (EnumModel.normalizeProtoEnum w _) eqn:E; cbn; try discriminate.
    intros _. exists w. split; [reflexivity|exact (word_ub _ _ E)].
  Qed.
  Lemma sort_ub i j e by_ : visitSort ff fr fc i j e by_ = UB -> expr_trap e \/ exists w, by_ = Some w /\ foreign w.
  Proof.
    intros H. apply bindR_ub in H as [H|(a & x & _ & H)]; [left; exact (e_ub _ _ _ H)|]. apply bindR_ub in H as [H|(a2 & x2 & _ & H)]; [|discriminate]. right. exact (direction_ub _ (said_ub _ _ H)).
  Qed.
  Lemma behavior_ub w : visitBehavior w = UB -> foreign w.
  Proof. unfold visitBehavior, foreign. destruct (forallb EnumModel.ascii7 w); [|reflexivity]. repeat destruct (_ =s _); discriminate. Qed.
  Lemma call_read i j e x m : a_call e -> visitE i j e = Ok (x, m) -> exists f args d o t, x = EFun f args d o t.
  Proof.
    intros (n & args & ty & -> & N). unfold visitE, RelModel.visitE. destruct (known ff fc i j _) as [[]| |]; cbn [obind]; try discriminate. unfold lift. cbn [visitExpr].
    destruct (seq_eqb_spec (to_lower n) $"ifthen"); [contradiction|]. unfold bindE. destruct (match ff n with Some f => good f | None => _ end) as [[f x1]| |]; cbn [obind]; try discriminate.
    destruct (eachE _ args) as [[l x2]| |]; cbn [obind]; try discriminate. destruct (match ty with Some t => _ | None => _ end) as [[t x3]| |]; cbn [obind]; try discriminate. intros H. injection H as <- _. eauto 6.
  Qed.
  Lemma call_dec e : a_call e \/ ~ a_call e.
  Proof.
    destruct e as [n args ty| | | | | | |]; try (right; intros (m & a & t & E & _); discriminate E). destruct (seq_eqb_spec (to_lower n) $"ifthen") as [E|E]; [right|left; exists n, args, ty; auto].
    intros (m & a & t & Q & N). injection Q as <- _ _. contradiction.
  Qed.
  Definition mtrap (d : mdetail) : Prop := (exists e, In e (mdetail_exprs d) /\ expr_trap e) \/ measure_trap d \/ exists w, In w (mdetail_words d) /\ foreign w.
  Lemma measure_ub i j e ty ids : visitMeasure ff fr fc i j e ty ids = UB -> mtrap (MMeasure e ty ids).
  Proof.
    intros H. apply bindR_ub in H as [H|(x & m & E & H)]; [left; exists e; cbn; split; [auto|exact (e_ub _ _ _ H)]|]. destruct (call_dec e) as [C|C].
    - destruct (call_read _ _ _ _ _ C E) as (f & args & d & o & t & ->). apply bindR_ub in H as [H|(a2 & x2 & _ & H)].
      + destruct ty as [w|]; [|discriminate]. right. left. cbn. left. exists w. split; [reflexivity|exact (read_ub _ _ (lift_ub _ H))].
      + apply bindR_ub in H as [H|(a3 & x3 & _ & H)]; [|discriminate]. destruct ids as [|n ids]; [discriminate|]. right. right. exists n. cbn. split; [auto|]. apply said_ub in H. unfold EnumModel.visitAggregationPhase in H.
        destruct (EnumModel.normalizeProtoEnum n _) eqn:En; cbn in H; try discriminate. exact (word_ub _ _ En).
    - destruct x; try (destruct ids; [right; left; cbn; right; auto|discriminate]).
      apply bindR_ub in H as [H|(a2 & x2 & _ & H)].
      + destruct ty as [w|]; [|discriminate]. right. left. cbn. left. exists w. split; [reflexivity|exact (read_ub _ _ (lift_ub _ H))].
      + apply bindR_ub in H as [H|(a3 & x3 & _ & H)]; [|discriminate]. destruct ids as [|n ids]; [discriminate|]. right. right. exists n. cbn. split; [auto|]. apply said_ub in H. unfold EnumModel.visitAggregationPhase in H.
        destruct (EnumModel.normalizeProtoEnum n _) eqn:En; cbn in H; try discriminate. exact (word_ub _ _ En).
  Qed.
  Lemma measures_ub i l : forall j s, visitMeasureDetails ff fr fc i j s l = UB -> exists d, In d l /\ mtrap d.
  Proof.
    induction l as [|d l IH]; intros j s; [discriminate|]. assert (N : forall j s, visitMeasureDetails ff fr fc i j s l = UB -> exists d0, In d0 (d :: l) /\ mtrap d0) by (intros j' s' H; destruct (IH _ _ H) as (y & I & T); exists y; cbn; auto).
    cbn [visitMeasureDetails]. destruct d as [e ty ids|e|n|e by_]; intros H; apply bindR_ub in H as [H|(x & m & E & H)].
    - eexists. split; [left; reflexivity|]. exact (measure_ub _ _ _ _ _ H).
    - destruct (b_function s); [discriminate|]. exact (N _ _ H).
    - eexists. split; [left; reflexivity|]. left. exists e. split; [left; reflexivity|exact (e_ub _ _ _ H)].
    - destruct (b_filter s); [discriminate|]. exact (N _ _ H).
    - eexists. split; [left; reflexivity|]. right. right. exists n. split; [left; reflexivity|]. apply said_ub in H. unfold EnumModel.visitAggregationInvocation in H. destruct (EnumModel.normalizeProtoEnum n _) eqn:En; cbn in H; try discriminate. exact (word_ub _ _ En).
    - exact (N _ _ H).
    - eexists. split; [left; reflexivity|]. destruct (sort_ub _ _ _ _ H) as [T|(w & -> & T)]; [left; exists e; cbn; auto|right; right; exists w; cbn; auto].
    - exact (N _ _ H).
  Qed.
  Lemma column_read i j e s r m : visitE i j e = Ok (ESel s r, m) -> exists x steps z, e = NCol x /\ s = SegField z None /\ fc i j x = Some (steps, z).
  Proof.
    unfold visitE, RelModel.visitE. destruct (known ff fc i j _) as [[]| |]; cbn [obind]; try discriminate. unfold lift. destruct (visitExpr ff fr (fc i j) e) as [[x o]| |] eqn:E; cbn [obind fst snd]; try discriminate. intros H. injection H as -> _.
    destruct e as [n args ty|c|t|e ty|n|l n|b n|e op b n]; cbn [visitExpr] in E.
    - unfold bindE in E. destruct (to_lower n =s _).
      + destruct (eachE _ args) as [[[|e0 l] x2]| |]; cbn [obind fst snd good] in E; try discriminate. destruct (pairs_of (e0 :: l)); discriminate.
      + destruct (match ff n with Some f => good f | None => _ end) as [[f x1]| |]; cbn [obind] in E; try discriminate. destruct (eachE _ args) as [[l x2]| |]; cbn [obind] in E; try discriminate. destruct (match ty with Some t => _ | None => _ end) as [[t x3]| |]; discriminate.
    - unfold bindE in E. destruct (visitConstant c) as [[y x2]| |]; discriminate.
    - destruct (fc i j t) as [[steps z]|] eqn:Et; [|discriminate]. injection E as <- _ _. exists t, steps, z. auto.
    - unfold bindE in E. destruct (visitExpr ff fr (fc i j) e) as [[y x2]| |]; cbn [obind] in E; try discriminate. destruct (read_type false ty) as [[t x3]| |]; discriminate.
    - unfold ExprModel.subquery in E. destruct (fr n) as [[]|]; discriminate.
    - destruct (fr n); [|discriminate]. unfold bindE in E. destruct (eachE _ l) as [[y x2]| |]; cbn [obind] in E; try discriminate. unfold ExprModel.subquery in E. destruct (fr n) as [[]|]; discriminate.
    - unfold ExprModel.subquery in E. destruct (fr n) as [[]|]; discriminate.
    - unfold bindE in E. destruct (visitExpr ff fr (fc i j) e) as [[y x2]| |]; cbn [obind] in E; try discriminate. unfold ExprModel.subquery in E. destruct (fr n) as [[]|]; discriminate.
  Qed.
  (** Reading a detail leads to undefined behaviour only for these reasons, or if it groups by a column that is none of the input's. *)
  Lemma detail_ub i b d : visitDetail ff fr fc columns kn kn i b d = UB -> detail_case d \/
    exists x steps z gs ms, d = OnGrouping (NCol x) /\ b = BAggregate gs ms /\ fc i 0 x = Some (steps, z) /\ ~ (0 <= z < Z.of_nat columns)%Z.
  Proof.
    destruct d as [|n|k e|e n| |n|e|l|e by_|t|n|c]; cbn [visitDetail]; try discriminate.
    - destruct b; discriminate.
    - intros H. left. assert (K : forall o, known ff fc i 0 e = o -> o = UB -> expr_trap e).
      { intros o Ho ->. unfold known in Ho. destruct (visitFirst ff (fc i 0) true e) as [x| |] eqn:E; cbn in Ho; try discriminate. exact (first_ub _ _ _ _ E). }
      destruct (known ff fc i 0 e) as [ok| |] eqn:Ek; cbn [obind] in H; [|discriminate|left; exists e; cbn; split; [auto|exact (K _ eq_refl eq_refl)]].
      assert (V : visitFilter b k (visitE i 0 e) = UB -> detail_case (OnFilter k e)).
      { clear H. intros H. assert (W : match k with Some s => visitBehavior s | None => fine KDefault end = UB -> detail_case (OnFilter k e)).
        { destruct k as [w|]; [|discriminate]. intros Q. right. right. exists w. cbn. split; [auto|exact (behavior_ub _ Q)]. }
        unfold visitFilter in H. apply bindR_ub in H as [H|(k1 & m1 & _ & H)]; [exact (W H)|]. apply bindR_ub in H as [H|(k2 & m2 & _ & H)]; [exact (W H)|].
        apply bindR_ub in H as [H|(x & m3 & _ & H)]; [left; exists e; cbn; split; [auto|exact (e_ub _ _ _ H)]|]. destruct b as [s sc f g p| | | | | |t je pj| |]; try discriminate; destruct k1; try discriminate; repeat match type of H with context [match ?y with _ => _ end] => destruct y end; discriminate. }
      destruct ok; [exact (V H)|]. destruct b; try exact (V H). discriminate.
    - intros H. left. apply bindR_ub in H as [H|(x & m & _ & H)]; [left; exists e; cbn; split; [auto|exact (e_ub _ _ _ H)]|]. destruct b as [| | | | | |t [je|] pj| |]; discriminate.
    - destruct b; discriminate.
    - intros H. apply bindR_ub in H as [H|(x & m & E & H)]; [left; left; exists e; cbn; split; [auto|exact (e_ub _ _ _ H)]|]. destruct b as [| | |gs ms| | | | |]; try discriminate.
      unfold grouped in H. destruct x as [|li|s r| | | | | | | | | |]; cbn [obind fine] in H; try discriminate. destruct (column_read _ _ _ _ _ _ E) as (x & steps & z & -> & -> & Ex).
      destruct ((0 <=? z)%Z && (z <? Z.of_nat columns)%Z) eqn:R; cbn [obind] in H; [discriminate|]. right. exists x, steps, z, gs, ms. repeat split; auto. lia.
    - intros H. left. apply bindR_ub in H as [H|(x & m & E & H)].
      + destruct (measures_ub _ _ _ _ H) as (d & I & [(e & J & T)|[T|(w & J & T)]]).
        * left. exists e. cbn [detail_exprs]. split; [apply in_flat_map; eauto|exact T].
        * right. left. exists l, d. auto.
        * right. right. exists w. cbn [detail_words]. split; [apply in_flat_map; eauto|exact T].
      + destruct b; discriminate.
    - intros H. left. destruct b; try discriminate. apply bindR_ub in H as [H|(x & m & E & H)]; [|discriminate]. destruct (sort_ub _ _ _ _ H) as [T|(w & -> & T)]; [left; exists e; cbn; auto|right; right; exists w; cbn; auto].
    - intros H. destruct b; try discriminate. apply bindR_ub in H as [H|(x & m & E & H)]; [|discriminate]. apply lift_ub in H. pose proof (number_sound t (PtScalar SI64 NRequired)) as S0. rewrite H in S0. destruct S0.
    - intros H. left. destruct b; try discriminate. apply bindR_ub in H as [H|(x & m & E & H)]; [|discriminate]. right. right. exists n. cbn. split; [auto|]. apply said_ub in H. unfold EnumModel.visitRelationJoinType in H.
      destruct (EnumModel.normalizeProtoEnum n _) eqn:En; cbn in H; try discriminate. exact (word_ub _ _ En).
  Qed.
End Details.

(** * Relations *)
Definition plain_columns (l : list FieldModel.column) : Prop := Forall (fun c => FieldModel.c_alias c = []) l.
Lemma find_pos_some P l p : FieldModel.find_pos P l = Some p -> exists c, nth_error l p = Some c /\ P c = true.
Proof.
  revert p. induction l as [|c l IH]; intros p H; [discriminate|]. cbn [FieldModel.find_pos] in H. destruct (P c) eqn:E; [injection H as <-; exists c; auto|]. destruct (FieldModel.find_pos P l) as [q|]; [|discriminate]. injection H as <-. exact (IH q eq_refl).
Qed.
Lemma rfind_some P l p : FieldModel.rfind P l = Some p -> p < length l /\ exists c, nth_error l (length l - p - 1) = Some c /\ P c = true.
Proof.
  unfold FieldModel.rfind. intros H. assert (L : p < length l) by (apply find_pos_lt in H; rewrite rev_length in H; exact H). apply find_pos_some in H as (c & E & Hc). split; [exact L|]. exists c. split; [|exact Hc].
  rewrite nth_error_nth' with (d := c) in E by (rewrite rev_length; exact L). injection E as E. rewrite rev_nth in E by exact L. rewrite nth_error_nth' with (d := c) by lia. replace (length l - p - 1) with (length l - S p) by lia. rewrite E. reflexivity.
Qed.
Lemma index32_small z : (0 <= z < 2 ^ 31)%Z -> FieldModel.index32 z = z.
Proof. intros H. unfold FieldModel.index32. rewrite Z.mod_small by lia. change 2147483647%Z with (Z.ones 31). rewrite Z.land_ones by lia. apply Z.mod_small. lia. Qed.
Section Track.
  Variables (ff : str -> option N) (fr : str -> option bool) (kn : str -> bool) (ss : FieldModel.schemas) (ag : bool) (fields : list FieldModel.column).
  Hypothesis Hp : plain_columns fields.
  Hypothesis Hw : (Z.of_nat (length fields) < 2 ^ 31)%Z.
  Lemma named_by x c q : FieldModel.c_alias c = [] -> FieldModel.match_input ss x c = true -> FieldModel.match_generated q c = true -> x = q \/ exists p, x = p ++ $"." ++ q.
  Proof.
    unfold FieldModel.match_input, FieldModel.match_generated. intros -> H G. cbn [FieldModel.nonempty andb orb] in *. apply seq_eqb_eq in G. subst q. apply orb_true_iff in H as [H|H]; apply seq_eqb_eq in H; [left; auto|].
    unfold FieldModel.fullyQualifiedReference in H. destruct (find _ ss) as [s|]; [right; exists (fst s); auto|left; auto].
  Qed.
  Lemma found g x z : FieldModel.find_in ss false (scope_with ag fields g) x = Some z ->
    (exists c, In c g /\ FieldModel.match_generated x c = true) \/ (0 <= z < Z.of_nat (length fields))%Z /\ exists c, nth_error fields (Z.to_nat z) = Some c /\ FieldModel.match_input ss x c = true.
  Proof.
    unfold FieldModel.find_in. cbn [scope_with FieldModel.q_fields FieldModel.q_generated FieldModel.q_aggregate]. rewrite andb_false_r. destruct (FieldModel.rfind (FieldModel.match_generated x) g) as [p|] eqn:E.
    - intros _. left. apply rfind_some in E as (_ & c & I & M). exists c. split; [eapply nth_error_In, I|exact M].
    - destruct (FieldModel.rfind (FieldModel.match_input ss x) fields) as [p|] eqn:F; [|discriminate]. intros H. injection H as <-. right. apply rfind_some in F as (L & c & I & M). unfold FieldModel.size in *. rewrite index32_small by lia. split; [lia|].
      exists c. split; [|exact M]. rewrite <- I. f_equal. lia.
  Qed.
  Lemma add_group_last gs y : exists g r, add_group gs y = g :: r /\ exists h, rev g = y :: h.
  Proof. destruct gs as [|g gs]; cbn; [exists [y], []; split; [reflexivity|exists []; reflexivity]|]. exists (g ++ [y]), gs. split; [reflexivity|]. rewrite rev_app_distr. cbn. eauto. Qed.
  Lemma added g i b d b' m : visitDetail ff fr (fun _ j => find_field ss ag fields (g ++ own_columns j d)) (length fields) kn kn i b d = Ok (b', m) ->
    (exists x, d = OnGrouping (NCol x) /\ exists c, In c g /\ FieldModel.match_generated x c = true) \/ forall c q, In c (added_columns fields d b') -> FieldModel.match_generated q c = true -> names_column d q.
  Proof.
    destruct d as [|n|k e|e n| |n|e|l|e by_|t|n|c]; try (intros _; right; intros ? ? []; fail).
    - cbn [visitDetail own_columns]. intros H. unfold bindR in H.
      match type of H with context [visitE ?A ?B ?C ?D ?E ?F] => destruct (visitE A B C D E F) as [[x m1]| |] eqn:E1; cbn [obind fst snd] in H; try discriminate end.
      destruct b as [| | |gs ms| | | | |]; try (injection H as <- _; right; intros ? ? []; fail).
      unfold grouped in H. destruct x as [| |s r| | | | | | | | | |]; cbn [obind fine fst snd] in H;
        try (injection H as <- _; right; cbn [added_columns]; match goal with |- context [add_group ?a ?y] => destruct (add_group_last a y) as (? & ? & -> & ? & ->) end; intros ? ? []; fail).
      destruct s as [z o| | |]; cbn [obind fine fst snd] in H;
        try (injection H as <- _; right; cbn [added_columns]; match goal with |- context [add_group ?a ?y] => destruct (add_group_last a y) as (? & ? & -> & ? & ->) end; intros ? ? []; fail).
      destruct (column_read _ _ _ _ _ _ _ _ _ E1) as (x & steps & z' & -> & Q & F). injection Q as <- ->.
      destruct ((0 <=? z)%Z && _); cbn [obind fine fst snd] in H; [|discriminate]. injection H as <- _. unfold find_field in F. rewrite app_nil_r in F.
      destruct (FieldModel.find_in ss false (scope_with ag fields g) x) as [z'|] eqn:F'; [|discriminate]. cbn in F. injection F as _ <-. apply found in F' as [G|[Hz (c & N & M)]]; [left; exists x; auto|]. right.
      cbn [added_columns]. match goal with |- context [add_group ?a ?y] => destruct (add_group_last a y) as (? & ? & -> & ? & ->) end. rewrite N. intros c' q [<-|[]] G. cbn. apply (named_by x c q); [|exact M|exact G].
      unfold plain_columns in Hp. rewrite Forall_forall in Hp. apply Hp. exact (nth_error_In _ _ N).
    - intros _. right. cbn [added_columns names_column]. intros c q I G. apply in_map_iff in I as (n & <- & I). unfold FieldModel.match_generated in G. cbn in G. apply seq_eqb_eq in G. subst q. exact I.
  Qed.
  Lemma track_ub ds : forall before i g b, (forall c x, In c g -> FieldModel.match_generated x c = true -> exists d, In d before /\ names_column d x) ->
    track ff fr kn ss ag fields i g b ds = UB -> (exists d, In d ds /\ detail_case d) \/ grouped_again (before ++ ds).
  Proof.
    induction ds as [|d ds IH]; intros before i g b Hg H; [discriminate|]. cbn [track] in H. apply bindR_ub in H as [H|(b' & m & E & H)].
    - apply detail_ub in H as [T|(x & steps & z & gs & ms & -> & -> & F & R)]; [left; exists d; cbn; auto|]. unfold find_field in F. cbn [own_columns] in F. rewrite app_nil_r in F.
      destruct (FieldModel.find_in ss false (scope_with ag fields g) x) as [z'|] eqn:F'; [|discriminate]. cbn in F. injection F as _ <-. apply found in F' as [(c & I & M)|[Q _]]; [|lia]. right. exists before, x, ds. split; [reflexivity|exact (Hg c x I M)].
    - destruct (added _ _ _ _ _ _ E) as [(x & -> & c & I & M)|A]; [right; exists before, x, ds; split; [reflexivity|exact (Hg c x I M)]|].
      destruct (fun P => IH (before ++ [d]) (S i) (g ++ added_columns fields d b') b' P H) as [(y & Iy & T)|G]; [|left; exists y; cbn; auto|right; rewrite <- app_assoc in G; exact G].
      intros c x I M. apply in_app_or in I as [I|I]; [destruct (Hg c x I M) as (y & Iy & N); exists y; split; [apply in_or_app; auto|exact N]|].
      exists d. split; [apply in_or_app; cbn; auto|exact (A c x I M)].
  Qed.
End Track.
