(** How far outwards the columns are that the relations of a plan read. *)
From Verif Require Import Base BaseFacts StringsModel StringsFacts TypeModel LexModel NameModel ExprModel ResolveFacts RelModel RelFacts RelReadFacts SectionModel WholeModel SoundFacts SubFacts.
From Verif Require FieldModel PrintFacts SubModel.
From Coq Require Import Lia ZifyBool ZifyNat ZifyN.

(** * Specification *)
(** For every column that an expression reads, the number of steps outwards: 0 for a column of the relation itself *)
Definition steps (r : root) : N := match r with RootOuter k => k | _ => 0%N end.
Fixpoint e_steps (e : expr) : list N :=
  match e with
  | ESel (SegField _ _) r => [steps r]
  | EFun _ args deprecated _ _ => flat_map (fun a => match a with AValue x => e_steps x | _ => [] end) args ++ flat_map e_steps deprecated
  | EIfThen ifs els => flat_map (fun c => let '(i, t) := c in given e_steps i ++ given e_steps t) ifs ++ given e_steps els
  | ECast x _ _ => e_steps x
  | EIn l _ => flat_map e_steps l
  | ECompare _ _ x _ => given e_steps x
  | _ => []
  end.

(** * Expressions *)
Section Steps.
  Variable C : N -> Prop.
  Hypothesis C0 : C 0%N.
  Definition near (e : expr) : Prop := Forall C (e_steps e).
  Lemma near_each {A} (g : A -> list N) l : Forall (fun a => Forall C (g a)) l -> Forall C (flat_map g l).
  Proof. intros H. rewrite Forall_flat_map. exact H. Qed.
  Lemma near_resolved ff fr fc : (forall n k z, fc n = Some (k, z) -> C k) -> forall e, Resolved ff fr fc e -> near e.
  Proof.
    intros HC. induction e as [|l|s r|r|r|f args deprecated options ty Ha Hd|ifs els Hi He|e ty f IH|n|l n Hl|q n|op red e n He|u] using PrintFacts.expr_ind2; intros R; unfold near; cbn [e_steps]; try constructor.
    - inversion R as [|? ? (n & k & z & E & -> & ->)| | | | | | | |]; subst. constructor; [|constructor]. specialize (HC _ _ _ E). destruct (N.ltb_spec 0 k); [exact HC|exact C0].
    - inversion R as [| |? ? ? (n & E) A| | | | | | |]; subst. cbn [flat_map]. rewrite !app_nil_r. apply near_each. clear R. induction Ha as [|a args Ha1 _ IHa]; [constructor|]. inversion A as [|? ? A1 A2]; subst. constructor; [|exact (IHa A2)]. inversion A1; subst; [apply Ha1; assumption|constructor].
    - inversion R as [| | | |? ? A1 A2| | | | |]; subst. apply Forall_app. split.
      + apply near_each. clear R He A2. induction Hi as [|[i t] ifs [Hi1 Hi2] _ IHi]; [constructor|]. inversion A1 as [|? ? (i' & t' & Ec & R1 & R2) A3]; subst. injection Ec as -> ->. constructor; [|exact (IHi A3)]. cbn [given]. apply Forall_app. split; [exact (Hi1 _ eq_refl R1)|exact (Hi2 _ eq_refl R2)].
      + destruct els as [x|]; [apply He; [reflexivity|apply A2; reflexivity]|constructor].
    - inversion R; subst. apply IH; assumption.
    - inversion R as [| | | | | | |? ? A _| |]; subst. apply near_each. clear R. induction Hl as [|x l Hx _ IHl]; [constructor|]. inversion A; subst. constructor; [apply Hx; assumption|apply IHl; assumption].
    - inversion R; subst. cbn [given]. apply He; [reflexivity|assumption].
  Qed.
  (** what a relation's expressions read *)
  Definition all_near (b : body) : Prop := Forall near (body_exprs b).
  Lemma values_near f args deprecated options ty : near (EFun f args deprecated options ty) -> Forall near (values args).
  Proof.
    unfold near. cbn [e_steps]. intros H2. apply Forall_app in H2 as [H2 _]. unfold values. rewrite Forall_flat_map in *. rewrite Forall_forall in *. intros a I. specialize (H2 a I). destruct a; constructor; [|constructor]. assumption.
  Qed.
  Section Detail.
    Variables (ff : str -> option N) (fr : str -> option bool) (fc : nat -> nat -> str -> option (N * Z)) (columns : nat) (ks ksch : str -> bool).
    Lemma reads_near i j e x : (forall n k z, fc i j n = Some (k, z) -> C k) -> reads ff fr fc i j e x -> near x.
    Proof.
      intros HC. unfold reads, visitE. destruct (known ff fc i j e) as [[|]| |]; cbn [obind]; try discriminate. rewrite lift_clean. intros R. apply read_resolved in R. exact (near_resolved _ _ _ HC _ R).
    Qed.
    Lemma group_near x y : GroupSays columns x y -> near x -> near y.
    Proof. intros G U. inversion G; subst; try exact U; unfold near; cbn [e_steps]; try match goal with |- context [match ?s with _ => _ end] => destruct s end; try apply Forall_nil; (apply Forall_cons; [exact C0|apply Forall_nil]). Qed.
    Lemma sort_near i j e b s : (forall n k z, fc i j n = Some (k, z) -> C k) -> SortSays ff fr fc i j e b s -> near (fst s).
    Proof. intros HC H. inversion H; subst; cbn [fst]; eapply reads_near; eassumption. Qed.
    Definition mitem_near (x : mitem) : Prop :=
      match x with IsFunction f => Forall near (function_exprs f) | IsCondition x => near x | IsInvocation _ => True | IsOrder s => near (fst s) end.
    Lemma mitems_near i : (forall j n k z, fc i j n = Some (k, z) -> C k) -> forall j l items, ForallAt (fun j => MeasureItem ff fr fc i j) j l items -> Forall mitem_near items.
    Proof.
      intros HC j l items H. induction H as [|j d l x items M _ IH]; constructor; [|exact IH]. inversion M; subst; cbn [mitem_near].
      - pose proof (reads_near i j _ _ (HC j) H) as U. apply values_near in U. unfold function_exprs. cbn [af_args af_deprecated af_sorts map]. rewrite !app_nil_r. exact U.
      - eapply reads_near; [apply HC|eassumption].
      - exact I.
      - eapply sort_near; [apply HC|eassumption].
    Qed.
    Lemma measure_near i l m : (forall j n k z, fc i j n = Some (k, z) -> C k) -> MeasureSays ff fr fc i l m -> Forall near (measure_exprs m).
    Proof.
      intros HC H. inversion H as [? items f Hi _ _ Hf]; subst. pose proof (mitems_near i HC 0 l items Hi) as U. unfold measure_exprs. cbn [m_function m_filter].
      assert (O : Forall near (map fst (orders items))). { clear -U. induction U as [|x items Hx _ IH]; [constructor|]. destruct x; cbn [orders flat_map app map]; try exact IH. constructor; [exact Hx|exact IH]. }
      assert (K : Forall near (some (hd_error (conditions items)))). { clear -U. induction U as [|x items Hx _ IH]; [constructor|]. destruct x; cbn [conditions flat_map app hd_error]; try exact IH. constructor; [exact Hx|constructor]. }
      assert (G : forall g, hd_error (functions items) = Some g -> mitem_near (IsFunction g)). { clear -U. induction U as [|x items Hx _ IH]; [discriminate|]. intros g. destruct x; cbn [functions flat_map app hd_error]; try exact (IH g). intros E. injection E as <-. exact Hx. }
      inversion Hf as [E1 E2 E3 E4|v s Hs E1 E2 E3 E4|g args options t ph v s E1 E2 E3 E4]; subst f.
      - cbn [given app some]. exact K.
      - cbn [given function_exprs values af_args af_deprecated af_sorts flat_map app some]. apply Forall_app; split; [unfold function_exprs; cbn; subst; exact O|exact K].
      - symmetry in E1. pose proof (G _ E1) as G1. cbn [given some mitem_near] in *. apply Forall_app. split; [|exact K]. unfold function_exprs in *. cbn [af_args af_deprecated af_sorts map app] in *.
        rewrite !app_nil_r in G1. apply Forall_app. split; [exact G1|subst; exact O].
    Qed.
    Lemma detail_near i b d b' : (forall j n k z, fc i j n = Some (k, z) -> C k) -> all_near b -> visitDetail ff fr fc columns ks ksch i b d = Ok (b', []) -> all_near b'.
    Proof.
      intros HC U1 H. apply detail_iff in H as (x & I & A). unfold all_near in *. inversion I; subst; cbn [add] in A; destruct b as [so sc f g p|cd|o ct|gs ms|l0|l0|t0 e0 p0| |nm]; try discriminate A;
        try (injection A as <-; cbn [body_exprs] in *; assumption).
      all: try match goal with H : reads ff fr fc ?q 0 ?e ?y |- _ => pose proof (reads_near q 0 e y (HC 0) H) as Uy end.
      all: repeat match goal with A : match ?o with _ => _ end = Some _ |- _ => destruct o; try discriminate A end; injection A as <-; cbn [body_exprs some app] in *.
      all: try (rewrite ?Forall_app in *; repeat (match goal with |- _ /\ _ => split | |- Forall _ (_ :: _) => constructor | |- Forall _ [] => constructor end); tauto).
      - (* grouping *)
        apply Forall_app in U1 as [U1 U3]. apply Forall_app. split; [|exact U3]. pose proof (group_near _ _ H0 Uy) as Ug. destruct gs as [|g1 gs]; cbn [add_group concat] in *.
        + constructor; [exact Ug|constructor].
        + apply Forall_app in U1 as [U1 U4]. apply Forall_app. split; [|exact U4]. apply Forall_app. split; [exact U1|constructor; [exact Ug|constructor]].
      - pose proof (measure_near i l m HC H) as M1. rewrite !flat_map_app. cbn [flat_map]. rewrite !app_nil_r. apply Forall_app in U1 as [U1 U3]. rewrite !Forall_app. auto.
      - rewrite map_app. apply Forall_app. split; [exact U1|]. constructor; [eapply sort_near; [apply HC|eassumption]|constructor].
    Qed.
  End Detail.
End Steps.

(** * Relations *)
Lemma looked_near ss emit name : forall outs q k z, SubModel.look ss emit q outs name = Some (k, z) -> N.to_nat k <= length outs.
Proof.
  induction outs as [|p outs IH]; intros q k z H; cbn [SubModel.look] in H.
  - destruct (FieldModel.find_in ss emit q name); [|discriminate]. injection H as <- _. cbn. lia.
  - destruct (FieldModel.find_in ss emit q name); [injection H as <- _; cbn; lia|]. destruct (SubModel.look ss emit p outs name) as [[k' z']|] eqn:E; [|discriminate]. injection H as <- _. specialize (IH _ _ _ E). cbn [length]. lia.
Qed.
Section Node.
  Variables (ff : str -> option N) (fr : str -> option bool) (kn : str -> bool) (ss : FieldModel.schemas) (ag : bool) (fields : list FieldModel.column) (outs : list FieldModel.scope) (inner : bool).
  Notation close := (fun k => N.to_nat k <= length outs).
  Lemma strack_near ds : forall i g b b' g', all_near close b -> SubModel.track ff fr kn ss ag fields outs inner i g b ds = Ok ((b', g'), []) -> all_near close b'.
  Proof.
    induction ds as [|d ds IH]; intros i g b b' g' U H; cbn [SubModel.track] in H; [apply fine_inj in H; injection H as <- <-; exact U|]. apply bindR_clean in H as (b1 & H1 & H).
    refine (IH _ _ _ _ _ (detail_near close _ ff fr _ _ _ _ i b d b1 _ U H1) H); [cbn; lia|].
    intros j n k z. unfold SubModel.find_field. destruct inner; [discriminate|]. apply looked_near.
  Qed.
End Node.

(** * Relabeling *)
