(** Conversions of whole plans, one after the other. *)
From Verif Require Import Base BaseFacts StringsModel TypeModel LexModel NameModel NameFacts ExprModel LiteralFacts ExprFacts RelModel RelFacts SectionModel SectionFacts WholeModel WholeFacts WholeNameFacts WholeReadFacts WholeTripFacts.
From Verif Require SymbolModel SymbolMoreFacts FieldModel DeclModel DeclFacts PrintFacts.
From Coq Require Import Lia ZifyBool ZifyNat ZifyN Permutation.

(** * What comes back can be converted again *)
Section Again.
  Variables (known known' : N -> Prop) (R : N -> N -> Prop).
  Hypothesis HR : forall f f', R f f' -> known' f'.
  Section Expressions.
    Variables (C : Z -> Z -> Prop) (usable usable' : Z -> Prop).
    Hypothesis HC : forall z z', usable z -> C z z' -> usable' z'.
    Lemma same_args_nonempty args args' : Forall2 (SameArg R C) args args' -> args <> [] -> args' <> [].
    Proof. intros F H. destruct F; [contradiction|discriminate]. Qed.
    Lemma plain_again e : forall e', plain known usable e -> SameE R C e e' -> plain known' usable' e'.
    Proof.
      induction e as [|l|s r|r|r|f args deprecated options ty Ha Hd|ifs els Hi He|e ty f IH|n|l n Hl|q n|op red e n He|u] using PrintFacts.expr_ind2; intros e' P S; inversion S as [l0|z z' Hz|f0 f' args0 args' ty0 Hf Hargs|ifs0 ifs' els0 els' Hifs Hels|e0 e0' ty0 He0]; subst.
      - exact P.
      - apply (HC z); assumption.
      - destruct P as (Pf & Pn & Pt & Pa). cbn [plain]. split; [apply (HR f), Hf|]. split; [apply (same_args_nonempty args); assumption|]. split; [exact Pt|]. clear -Ha Hargs Pa.
        revert Ha Pa. induction Hargs as [|a a' l l' Sa _ IHl]; intros Ha Pa; [exact I|]. inversion Ha as [|? ? Ha1 Ha2]; subst. inversion Sa; subst; destruct Pa as (P1 & P2); (split; [|apply (IHl Ha2 P2)]); [|exact P1]. apply Ha1; assumption.
      - destruct P as (P0 & Pi & Pe). cbn [plain]. split; [|split].
        + destruct P0 as [P0|P0]; [left|right]; [destruct Hifs; [contradiction|discriminate]|]. inversion Hels; subst; [contradiction|discriminate].
        + clear -Hi Hifs Pi. revert Hi Pi. induction Hifs as [|c c' l l' Sc _ IHl]; intros Hi Pi; [exact I|]. inversion Hi as [|? ? Hi1 Hi2]; subst. inversion Sc; subst. destruct Pi as (P1 & P2 & P3). destruct Hi1 as (H1 & H2). split; [eapply H1; [reflexivity|exact P1|assumption]|]. split; [eapply H2; [reflexivity|exact P2|assumption]|]. apply IHl; assumption.
        + inversion Hels; subst; [exact I|]. eapply He; [reflexivity|exact Pe|assumption].
      - destruct P as (P1 & P2 & P3). split; [reflexivity|]. split; [exact P2|]. apply IH; assumption.
    Qed.
    Lemma plain_option_again o o' : plain_option known usable o -> SameO R C o o' -> plain_option known' usable' o'.
    Proof. intros P S. inversion S; subst; [exact I|]. eapply plain_again; eassumption. Qed.
    Lemma plain_arg_again a a' : plain_arg known usable a -> SameArg R C a a' -> plain_arg known' usable' a'.
    Proof. intros P S. inversion S; subst; [|exact P]. eapply plain_again; eassumption. Qed.
    Lemma plain_measure_again m m' : plain_measure known usable m -> SameMeasure R C m m' -> plain_measure known' usable' m'.
    Proof.
      intros P S. inversion S as [f f' args args' ty ph v filter filter' Hf Ha Hfi]; subst. destruct P as (P1 & P2 & P3 & P4). cbn [plain_measure]. split; [apply (HR f), Hf|]. split; [|split; [exact P3|eapply plain_option_again; eassumption]].
      clear -HR HC P2 Ha. induction Ha as [|a a' l l' Sa _ IH]; [constructor|]. inversion P2; subst. constructor; [eapply plain_arg_again; eassumption|apply IH; assumption].
    Qed.
    Lemma plain_sort_again s s' : plain_sort known usable s -> SameSort R C s s' -> plain_sort known' usable' s'.
    Proof. intros P S. inversion S; subst. destruct P as (P1 & P2). split; [eapply plain_again; eassumption|exact P2]. Qed.
    Lemma forall_again {A} (P P' : A -> Prop) (S : A -> A -> Prop) l l' : (forall x x', P x -> S x x' -> P' x') -> Forall P l -> Forall2 S l l' -> Forall P' l'.
    Proof. intros H F G. revert F. induction G; intros F; [constructor|]. inversion F; subst. constructor; eauto. Qed.
  End Expressions.
  Lemma in_range_again F z z' : in_range F z -> same_column F z z' -> in_range F z'.
  Proof. intros H (_ & E). unfold in_range in *. congruence. Qed.
  Lemma projected_again F l l' : Forall (plain known (in_range F)) l -> Forall2 (SameE R (same_column F)) l l' -> forall n, projected n F l' = projected n F l.
  Proof.
    intros P S. revert P. induction S as [|e e' l l' Se _ IH]; intros P n; [reflexivity|]. inversion P as [|? ? P1 P2]; subst. inversion Se as [l0|z z' (Hz & Ez)|f0 f' args0 args' ty0 Hf Hargs|ifs0 ifs' els0 els' Hifs Hels|e0 e0' ty0 He0]; subst; cbn [projected]; rewrite IH by exact P2; try reflexivity. rewrite Ez. reflexivity.
  Qed.
  Lemma created_again l l' C : Forall2 (SameE R C) l l' -> length (filter (fun e => negb (is_column e)) l') = length (filter (fun e => negb (is_column e)) l).
  Proof. induction 1 as [|e e' l l' Se _ IH]; [reflexivity|]. inversion Se; subst; cbn [filter is_column negb]; cbn [length]; rewrite IH; reflexivity. Qed.
  Lemma grouped_again F l l' : Forall2 (SameE R (same_column F)) l l' -> grouped_by F l' = grouped_by F l.
  Proof. unfold grouped_by. induction 1 as [|e e' l l' Se _ IH]; [reflexivity|]. cbn [flat_map]. rewrite IH. f_equal. inversion Se as [l0|z z' (Hz & Ez)|f0 f' args0 args' ty0 Hf Hargs|ifs0 ifs' els0 els' Hifs Hels|e0 e0' ty0 He0]; subst; try reflexivity. rewrite Ez. reflexivity. Qed.
  Lemma chosen_again A zs zs' : Forall2 (same_column A) zs zs' -> chosen A zs' = chosen A zs.
  Proof.
    intros F. assert (E : flat_map (fun z => some_list (pick A z)) zs' = flat_map (fun z => some_list (pick A z)) zs) by (induction F as [|z z' l l' (_ & E) _ IH]; [reflexivity|]; cbn [flat_map]; rewrite E, IH; reflexivity).
    unfold chosen. destruct F; [reflexivity|]. exact E.
  Qed.
  Lemma forall2_length {A B} (P : A -> B -> Prop) l l' : Forall2 P l l' -> length l' = length l.
  Proof. induction 1; cbn; congruence. Qed.
  (** The columns that a relation adds *)
  Lemma added_again k F G n r src sch r' : relation_ok known k F G r src sch -> SameBody R (same_column F) (r_body r) (r_body r') ->
    added n F (r_body r') sch = added n F (r_body r) sch /\ created (r_body r') sch = created (r_body r) sch /\ (forall X, available F X (r_body r') = available F X (r_body r)).
  Proof.
    intros (_ & K) S. inversion S as [f f' Sf E1 E2|c c' Sc E1 E2|o c E1 E2|gs gs' ms ms' Sg Sm E1 E2|l l' Sl E1 E2|l l' Sl E1 E2|t e e' Se E1 E2|E1 E2]; rewrite <- E1 in K; cbn [added created available]; try (split; [reflexivity|split; [reflexivity|reflexivity]]).
    - split; [|split; [apply (forall2_length _ _ _ Sm)|reflexivity]]. cbn [concat]. rewrite !app_nil_r, (grouped_again F _ _ Sg), (forall2_length _ _ _ Sm). reflexivity.
    - destruct K as (_ & _ & _ & K & _). split; [apply projected_again; assumption|]. split; [apply (created_again _ _ _ Sl)|reflexivity].
  Qed.
  Lemma columns_zs F C zs gs : Forall2 (SameE R C) (map (fun z => ESel (SegField z None) RootRef) zs) gs -> (forall z z', In z zs -> C z z' -> in_range F z') -> exists zs', gs = map (fun z => ESel (SegField z None) RootRef) zs' /\ Forall (in_range F) zs'.
  Proof.
    revert gs. induction zs as [|z zs IH]; intros gs S H; inversion S as [|? e' ? gs' S1 S2]; subst; [exists []; split; [reflexivity|constructor]|].
    destruct (IH gs' S2) as (zs' & -> & F'); [intros; eapply H; [right|]; eassumption|]. inversion S1; subst. exists (z' :: zs'). split; [reflexivity|]. constructor; [|exact F']. apply (H z); [left; reflexivity|assumption].
  Qed.
  Lemma relation_again k F G r src sch r' : relation_ok known k F G r src sch -> SameBody R (same_column F) (r_body r) (r_body r') -> Forall2 (same_column (available F G (r_body r))) (r_emit r) (r_emit r') ->
    relation_ok known' k F G r' src sch.
  Proof.
    intros (L & K) S Se. split; [exact L|]. assert (Ee : r_emit r = [] -> r_emit r' = []) by (intros E; rewrite E in Se; inversion Se; reflexivity).
    inversion S as [f f' Sf E1 E2|c c' Sc E1 E2|o c E1 E2|gs gs' ms ms' Sg Sm E1 E2|l l' Sl E1 E2|l l' Sl E1 E2|t e e' Sx E1 E2|E1 E2]; rewrite <- E1 in K, Se.
    - destruct K as (K1 & K2 & K3 & K4 & K5 & K6 & K7 & K8). split; [exact K1|]. split; [reflexivity|]. split; [reflexivity|]. split; [reflexivity|]. split; [reflexivity|]. split; [auto|]. split; [|exact K8]. eapply plain_option_again; [|exact K7|exact Sf]. intros z z' [].
    - destruct K as (K1 & K2 & K3 & K4 & K5). split; [exact K1|]. split; [exact K2|]. split; [exact K3|]. split; [auto|]. eapply plain_option_again; [|exact K5|exact Sc]. apply in_range_again.
    - destruct K as (K1 & K2 & K3 & K4 & K5). repeat (split; [first [exact K1|exact K2|exact K3|apply (Ee K4)]|]). exact K5.
    - destruct K as (K1 & K2 & K3 & K4 & (zs & Kz & Kr) & K6 & K7 & K8). injection Kz as ->. cbn [concat] in *. rewrite app_nil_r in *. pose proof (grouped_again F _ _ Sg) as Eg. split; [exact K1|]. split; [exact K2|]. split; [exact K3|]. split; [exact K4|]. split; [|split; [|split]].
      + destruct (columns_zs F _ zs gs' Sg) as (zs' & -> & Hz); [|exists zs'; split; [reflexivity|exact Hz]]. intros z z' Iz. apply in_range_again. rewrite Forall_forall in Kr. apply Kr, Iz.
      + rewrite Eg. exact K6.
      + rewrite Eg. eapply forall_again; [|exact K7|exact Sm]. intros m m'. apply plain_measure_again. intros z z' (c & E & H) (_ & Ez). exists c. split; [congruence|exact H].
      + cbn [available] in Se. eapply forall_again; [|exact K8|exact Se]. intros z z' (x & E) (_ & Ez). exists x. congruence.
    - destruct K as (K1 & K2 & K3 & K4 & K5). split; [exact K1|]. split; [exact K2|]. split; [exact K3|]. split; [auto|]. eapply forall_again; [|exact K5|exact Sl]. intros s s'. apply plain_sort_again, in_range_again.
    - destruct K as (K1 & K2 & K3 & K4 & K5). split; [exact K1|]. split; [exact K2|]. split; [exact K3|]. split; [eapply forall_again; [|exact K4|exact Sl]; intros s s'; apply plain_again, in_range_again|]. eapply forall_again; [|exact K5|exact Se]. apply in_range_again.
    - destruct K as (K1 & K2 & K3 & K4 & K5 & K6 & K7). split; [exact K1|]. split; [exact K2|]. split; [exact K3|]. split; [auto|]. split; [exact K5|]. split; [eapply plain_option_again; [|exact K6|exact Sx]; apply in_range_again|reflexivity].
    - destruct K as (K1 & K2 & K3 & K4). split; [exact K1|]. split; [exact K2|]. split; [exact K3|]. auto.
  Qed.
  Lemma tree_again t : forall n t', tree_ok known n t -> same_tree R n t t' -> tree_ok known' n t' /\ columns n t' = columns n t /\ schemas_in t' = schemas_in t /\ sources_in t' = sources_in t.
  Proof.
    induction t as [r src sch ins IH] using tree_ind2. intros n [r' src' sch' ins'] (Oi & Ob) (-> & -> & Si & Sb).
    assert (X : all_ok (tree_ok known') n ins' /\ all_columns columns n ins' = all_columns columns n ins /\ flat_map schemas_in ins' = flat_map schemas_in ins /\ flat_map sources_in ins' = flat_map sources_in ins /\ length ins' = length ins).
    { clear Ob Sb. revert n ins' Oi Si. induction IH as [|i ins Hi _ IHl]; intros n [|i' ins'] Oi Si; try contradiction; [repeat split|]. destruct Oi as (O1 & O2). destruct Si as (S1 & S2). destruct (Hi n i' O1 S1) as (A1 & A2 & A3 & A4). destruct (IHl _ ins' O2 S2) as (B1 & B2 & B3 & B4 & B5).
      cbn [all_ok all_columns flat_map length]. rewrite A2, A3, A4. split; [split; [exact A1|]; exact B1|]. split; [|split; [|split]]; try congruence. destruct (columns n i) as [m a]. cbn [fst] in *. fold (all_columns columns). rewrite B2. reflexivity. }
    destruct X as (X1 & X2 & X3 & X4 & X5). cbn [tree_ok columns schemas_in sources_in]. rewrite X2, X3, X4, X5. destruct (all_columns columns n ins) as [m F]. destruct Sb as (Sb & Se). destruct (added_again _ _ _ m _ _ _ _ Ob Sb) as (Ea & Ec & Ev). rewrite Ea, Ec, Ev.
    split; [split; [exact X1|]|split; [|split; reflexivity]].
    - eapply relation_again; eassumption.
    - f_equal. apply chosen_again, Se.
  Qed.
End Again.
(** ** Declarations *)
Lemma declarations_again b spaces : Convertible b -> DeclModel.outputFunctionsSection (declarations b) = Ok spaces ->
  DeclFacts.declared (DeclModel.outputExtensionSpaces (fs' b spaces)) (DeclModel.outputFunctions (fs' b spaces)) /\
  (forall u, In u (map fst (DeclModel.outputExtensionSpaces (fs' b spaces))) -> In u (map fst (b_uris b))) /\
  (forall d', In d' (DeclModel.outputFunctions (fs' b spaces)) -> exists d, In d (b_decls b) /\ DeclModel.d_name d' = DeclModel.d_name d).
Proof.
  intros Hb Hs. assert (Ef : DeclModel.functions (declarations b) = declared_functions b) by (unfold declarations, declared_functions; apply DeclFacts.import_parts).
  assert (An : DeclFacts.all_named spaces). { apply Forall_forall. intros x Ix. destruct (blocks_parts b Hb spaces x Hs Ix) as ((u & E & _) & _). rewrite E. discriminate. }
  unfold fs'. rewrite entries_definitions. set (before := before b spaces). split; [|split].
  - destruct (DeclFacts.round_trip (b_uris b) (b_decls b) before spaces (cv_declared _ Hb) Hs) as (_ & H & _); [| |exact H].
    + fold (declarations b). rewrite Ef. apply (shorts_nodup b Hb).
    + fold (declarations b). rewrite Ef. intros g Ig. destruct (function_short b Hb spaces g Ig) as (_ & _ & A & B). auto.
  - intros u Iu. unfold DeclModel.outputExtensionSpaces, DeclModel.read_text in Iu. rewrite DeclFacts.spaces_app, DeclFacts.spaces_other in Iu. cbn [app] in Iu. rewrite (proj1 (DeclFacts.read_blocks_spaces spaces An 0 0)) in Iu. apply in_flat_map in Iu as (x & Ix & Iu).
    destruct (blocks_parts b Hb spaces x Hs Ix) as ((u' & E & I') & _). rewrite E in Iu. destruct Iu as [<-|[]]. exact I'.
  - intros d' Id. destruct (DeclFacts.output_functions (DeclModel.read_text before spaces)) as (w & wo & Eo & Po & _). rewrite Eo in Id. apply in_map_iff in Id as (f & <- & If). apply (Permutation_in _ Po) in If. cbn [DeclModel.binary_decl DeclModel.d_name].
    unfold DeclModel.read_text in If. rewrite DeclFacts.functions_app, DeclFacts.functions_other in If. cbn [app] in If. destruct (DeclFacts.read_blocks_functions spaces An 0 0) as (fs & E & F2). rewrite E in If.
    destruct (DeclFacts.Forall2_in_l _ _ _ _ F2 If) as (x & Ix & _ & En & _). apply in_flat_map in Ix as (bl & Ib & Ix). destruct (blocks_parts b Hb spaces bl Hs Ib) as (_ & K). unfold DeclFacts.listed in Ix. apply in_map_iff in Ix as (q & <- & Iq). destruct (K q Iq) as (g & Ig & ->). cbn [fst snd] in En.
    unfold declared_functions in Ig. destruct (DeclFacts.Forall2_in_r _ _ _ _ (DeclFacts.import_functions_decls (b_decls b) SymbolModel.empty_table) Ig) as (d & Idd & E1 & _). exists d. split; [exact Idd|]. congruence.
Qed.
(** ** Plans *)
Lemma numbered_fewer bases bases' n : incl bases bases' -> numbered_from bases n -> numbered_from bases' n.
Proof. intros I (b & d & Ib & H). exists b, d. split; [apply I, Ib|exact H]. Qed.
Lemma plan_again b b' spaces : Convertible b -> same_plan b b' -> DeclModel.outputFunctionsSection (declarations b) = Ok spaces ->
  b_uris b' = DeclModel.outputExtensionSpaces (fs' b spaces) -> b_decls b' = DeclModel.outputFunctions (fs' b spaces) -> Convertible b'.
Proof.
  intros Hb S Hs Eu Ed. destruct (declarations_again b spaces Hb Hs) as (D1 & D2 & D3). rewrite <- Eu, <- Ed in *.
  assert (HR : forall f f', same_function b b' f f' -> declared_function b' f') by (intros f f' (uri & name & _ & H & _); exists uri, name; exact H).
  assert (Sh : incl (short_names b') (short_names b)). { intros s I. apply in_map_iff in I as (d' & <- & I). destruct (D3 d' I) as (d & Id & E). rewrite E. apply (in_map (fun d => DeclModel.shortName (DeclModel.d_name d))), Id. }
  assert (Nu : forall n, ~ numbered_from (made_up ++ short_names b) n -> ~ numbered_from (made_up ++ short_names b') n). { intros n H X. apply H. eapply numbered_fewer; [|exact X]. intros y Iy. apply in_app_or in Iy as [Iy|Iy]; apply in_or_app; auto. }
  assert (T : Forall2 (fun x x' => tree_ok (declared_function b') 0 (fst x') /\ schemas_in (fst x') = schemas_in (fst x) /\ sources_in (fst x') = sources_in (fst x) /\ snd x' = Some (match snd x with Some l => l | None => [] end)) (b_rels b) (b_rels b')).
  { pose proof (cv_trees _ Hb) as Ok. unfold same_plan in S. clear -S Ok HR. revert Ok. induction S as [|x x' l l' (S1 & S2) _ IH]; intros Ok; [constructor|]. inversion Ok as [|? ? O1 O2]; subst. constructor; [|apply IH, O2].
    destruct (tree_again (declared_function b) (declared_function b') (same_function b b') HR (fst x) 0 (fst x') O1 S1) as (A & _ & B & C). auto. }
  constructor.
  - exact D1.
  - apply Forall_forall. intros u Iu. pose proof (cv_uris _ Hb) as H. rewrite Forall_forall in H. apply (in_map fst) in Iu. apply D2 in Iu. apply in_map_iff in Iu as (v & <- & Iv). apply H, Iv.
  - apply Forall_forall. intros d' I. destruct (D3 d' I) as (d & Id & ->). pose proof (cv_functions _ Hb) as H. rewrite Forall_forall in H. apply H, Id.
  - apply Forall_forall. intros s I. pose proof (cv_shorts _ Hb) as H. rewrite Forall_forall in H. apply H, Sh, I.
  - intros x y d Ix Iy. apply (cv_independent _ Hb); apply Sh; assumption.
  - clear -T. induction T as [|x x' l l' (A & _) _ IH]; constructor; assumption.
  - intros x' s n Ix Is In1. destruct (DeclFacts.Forall2_in_r _ _ _ _ T Ix) as (x & Ix0 & _ & E & _). rewrite E in Is. destruct (cv_columns _ Hb x s n Ix0 Is In1) as (A & B). auto.
  - intros x' s n Ix Is In1. destruct (DeclFacts.Forall2_in_r _ _ _ _ T Ix) as (x & Ix0 & _ & _ & E & _). rewrite E in Is. apply Nu, (cv_tables _ Hb x s n Ix0 Is In1).
  - intros u Iu. apply Nu, (cv_spaces _ Hb), D2, Iu.
  - assert (E : flat_map (fun x => sources_in (fst x)) (b_rels b') = flat_map (fun x => sources_in (fst x)) (b_rels b)) by (clear -T; induction T as [|x x' l l' (_ & _ & E & _) _ IH]; [reflexivity|]; cbn [flat_map]; rewrite E, IH; reflexivity). rewrite E. apply (cv_files _ Hb).
  - pose proof (cv_names _ Hb) as H. assert (L : length (b_rels b') = length (b_rels b)) by (clear -T; induction T; cbn; congruence). rewrite L. revert H. generalize (length (b_rels b)) as k. clear -T. induction T as [|x x' l l' (_ & _ & _ & E) _ IH]; intros k H; constructor; inversion H as [|? ? H1 H2]; subst; [|apply IH, H2].
    rewrite E. destruct (snd x) as [ns|]; [exact H1|]. split; [constructor|]. intros X. contradiction.
Qed.
Lemma trip_again b : Convertible b -> exists t b', to_text b = Ok (t, 0) /\ from_text t = Ok (Some b', []) /\ same_plan b b' /\ Convertible b'.
Proof.
  intros Hb. destruct (whole_trip_more b Hb) as (t & b' & sp & A & B & C & D & E & F & _). exists t, b'. split; [exact A|]. split; [exact B|]. split; [exact C|]. eapply plan_again; eassumption.
Qed.
(** * One conversion after the other *)
Section Trans.
  Variables (R R' R'' : N -> N -> Prop).
  Hypothesis HR : forall f f' f'', R f f' -> R' f' f'' -> R'' f f''.
  Section Expressions.
    Variables (C C' C'' : Z -> Z -> Prop).
    Hypothesis HC : forall z z' z'', C z z' -> C' z' z'' -> C'' z z''.
    Lemma same_trans e : forall e' e'', SameE R C e e' -> SameE R' C' e' e'' -> SameE R'' C'' e e''.
    Proof.
      induction e as [|l|s r|r|r|f args deprecated options ty Ha Hd|ifs els Hi He|e ty f IH|n|l n Hl|q n|op red e n He|u] using PrintFacts.expr_ind2; intros e' e'' S S'; inversion S as [l0|z z' Hz|f0 f' args0 args' ty0 Hf Hargs|ifs0 ifs' els0 els' Hifs Hels|e0 e0' ty0 He0]; subst;
        inversion S' as [l1|z1 z1' Hz1|f1 f1' args1 args1' ty1 Hf1 Hargs1|ifs1 ifs1' els1 els1' Hifs1 Hels1|e1 e1' ty1 He1]; subst.
      - constructor.
      - constructor. eapply HC; eassumption.
      - constructor; [eapply HR; eassumption|]. clear -Ha Hargs Hargs1. revert Ha args1' Hargs1. induction Hargs as [|a a' l l' Sa _ IHl]; intros Ha args1' S1; inversion S1 as [|? a'' ? l'' Sa1 S2]; subst; [constructor|]. inversion Ha as [|? ? Ha1 Ha2]; subst. constructor; [|apply IHl; assumption].
        inversion Sa; subst; inversion Sa1; subst; constructor. eapply Ha1; eassumption.
      - constructor.
        + clear -Hi Hifs Hifs1. revert Hi ifs1' Hifs1. induction Hifs as [|c c' l l' Sc _ IHl]; intros Hi ifs1' S1; inversion S1 as [|? c'' ? l'' Sc1 S2]; subst; [constructor|]. inversion Hi as [|? ? Hi1 Hi2]; subst. constructor; [|apply IHl; assumption].
          inversion Sc; subst; inversion Sc1; subst; destruct Hi1 as (H1 & H2). constructor; [eapply H1; [reflexivity|eassumption..]|eapply H2; [reflexivity|eassumption..]].
        + inversion Hels; subst; inversion Hels1; subst; constructor. eapply He; [reflexivity|eassumption..].
      - constructor. eapply IH; eassumption.
    Qed.
    Lemma forall2_trans {A} (P P' P'' : A -> A -> Prop) l l' l'' : (forall x x' x'', P x x' -> P' x' x'' -> P'' x x'') -> Forall2 P l l' -> Forall2 P' l' l'' -> Forall2 P'' l l''.
    Proof. intros H F. revert l''. induction F; intros l0 G; inversion G; subst; constructor; eauto. Qed.
    Lemma same_arg_trans a a' a'' : SameArg R C a a' -> SameArg R' C' a' a'' -> SameArg R'' C'' a a''.
    Proof. intros S S'. inversion S; subst; inversion S'; subst; constructor. eapply same_trans; eassumption. Qed.
    Lemma same_option_trans o o' o'' : SameO R C o o' -> SameO R' C' o' o'' -> SameO R'' C'' o o''.
    Proof. intros S S'. inversion S; subst; inversion S'; subst; constructor. eapply same_trans; eassumption. Qed.
    Lemma same_measure_trans m m' m'' : SameMeasure R C m m' -> SameMeasure R' C' m' m'' -> SameMeasure R'' C'' m m''.
    Proof. intros S S'. inversion S; subst; inversion S'; subst. constructor; [eapply HR; eassumption|eapply forall2_trans; [apply same_arg_trans|eassumption..]|eapply same_option_trans; eassumption]. Qed.
    Lemma same_sort_trans s s' s'' : SameSort R C s s' -> SameSort R' C' s' s'' -> SameSort R'' C'' s s''.
    Proof. intros S S'. inversion S; subst; inversion S'; subst. constructor. eapply same_trans; eassumption. Qed.
    Lemma same_body_trans b b' b'' : SameBody R C b b' -> SameBody R' C' b' b'' -> SameBody R'' C'' b b''.
    Proof.
      intros S S'. inversion S; subst; inversion S'; subst; constructor; try (eapply same_option_trans; eassumption).
      - eapply forall2_trans; [apply same_trans|eassumption..].
      - eapply forall2_trans; [apply same_measure_trans|eassumption..].
      - eapply forall2_trans; [apply same_sort_trans|eassumption..].
      - eapply forall2_trans; [apply same_trans|eassumption..].
    Qed.
  End Expressions.
  Variables known known' : N -> Prop.
  Hypothesis HK : forall f f', R f f' -> known' f'.
  Lemma same_column_trans F z z' z'' : same_column F z z' -> same_column F z' z'' -> same_column F z z''.
  Proof. intros (A & B) (_ & D). split; [exact A|congruence]. Qed.
  Lemma same_tree_trans t : forall n t' t'', tree_ok known n t -> same_tree R n t t' -> same_tree R' n t' t'' -> same_tree R'' n t t''.
  Proof.
    induction t as [r src sch ins IH] using tree_ind2. intros n [r' src' sch' ins'] [r'' src'' sch'' ins''] Ok0 S S'. pose proof Ok0 as (Oi & Ob). destruct S as (-> & -> & Si & Sb). destruct S' as (-> & -> & Si' & Sb').
    assert (X : all_same (same_tree R'') n ins ins'' /\ all_columns columns n ins' = all_columns columns n ins).
    { clear Ob Sb Sb' Ok0. revert n ins' ins'' Oi Si Si'. induction IH as [|i ins Hi _ IHl]; intros n [|i' ins'] [|i'' ins''] Oi Si Si'; try contradiction; [split; [exact I|reflexivity]|]. destruct Oi as (O1 & O2). destruct Si as (S1 & S2). destruct Si' as (T1 & T2).
      destruct (tree_again known known' R HK i n i' O1 S1) as (_ & Ec & _). rewrite Ec in T2. destruct (IHl _ ins' ins'' O2 S2 T2) as (A & B). split; [split; [eapply Hi; eassumption|exact A]|]. cbn [all_columns]. rewrite Ec. destruct (columns n i) as [m a]. cbn [fst] in B. fold (all_columns columns). rewrite B. reflexivity. }
    destruct X as (X1 & X2). cbn [same_tree]. split; [reflexivity|]. split; [reflexivity|]. split; [exact X1|]. rewrite X2 in Sb'. cbn [tree_ok] in Ob. destruct (all_columns columns n ins) as [m F]. destruct Sb as (Sb & Se). destruct Sb' as (Sb' & Se').
    destruct (added_again known R _ _ _ m _ _ _ _ Ob Sb) as (Ea & _ & Ev). rewrite Ea, Ev in Se'. split.
    - eapply same_body_trans; [|exact Sb|exact Sb']. apply same_column_trans.
    - eapply forall2_trans; [|exact Se|exact Se']. apply same_column_trans.
  Qed.
End Trans.
Lemma same_plan_trans b b' b'' : Convertible b -> same_plan b b' -> same_plan b' b'' -> same_plan b b''.
Proof.
  intros Hb S S'. pose proof (cv_trees _ Hb) as Ok0. unfold same_plan in *. revert S' Ok0. generalize (b_rels b'') as l''. induction S as [|x x' l l' (S1 & S2) _ IH]; intros l'' S' Ok0; inversion S' as [|? x'' ? m'' (T1 & T2) T3]; subst; [constructor|]. inversion Ok0 as [|? ? O1 O2]; subst. constructor; [|apply IH; assumption]. split.
  - eapply (same_tree_trans (same_function b b') (same_function b' b'') _ _ (declared_function b) (declared_function b')); [|exact O1|exact S1|exact T1]. intros f f' (uri & name & _ & H & _). exists uri, name. exact H.
    Unshelve. intros f f' f'' (uri & name & D1 & D2 & U) (uri' & name' & D1' & D2'). destruct (U _ _ D1') as (-> & ->). exists uri, name. auto.
  - rewrite T2, S2. reflexivity.
Qed.
