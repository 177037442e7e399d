(** Proofs of the normaliser properties. *)
From Verif Require Import Base BaseFacts ProtoModel NormalizerModel NormalizerFacts NormalizerTreeFacts NormalizerRenFacts NormalizerPlanFacts.
From Coq Require Import Permutation Sorted Lia ZifyBool ZifyNat ZifyN.

Lemma Forall2_imp {A B} (R R' : A -> B -> Prop) l l' : (forall a b, R a b -> R' a b) -> Forall2 R l l' -> Forall2 R' l l'.
Proof. induction 2; constructor; auto. Qed.
(** ** The two numberings of one run *)
Definition smap (srt : sorter) (p : plan) : mapping := fst (number_spaces 0 [] (sort_spaces srt (p_spaces p))).
Definition sresult (srt : sorter) (p : plan) : list space := snd (number_spaces 0 [] (sort_spaces srt (p_spaces p))).
Definition moved (srt : sorter) (p : plan) : list decl := map (move_decl (smap srt p)) (p_decls p).
Definition fmap (srt : sorter) (p : plan) : mapping := fst (number_decls 0 [] (sort_decls srt (moved srt p))).
Definition fresult (srt : sorter) (p : plan) : list decl := snd (number_decls 0 [] (sort_decls srt (moved srt p))).
Lemma normalize_eq srt p : normalize srt p =
  rels <- mapM (nprel (mat (fmap srt p))) (p_rels p) ;;
  Ok {| p_spaces := sresult srt p; p_decls := fresult srt p; p_rels := rels; p_rest := p_rest p |}.
Proof.
  unfold normalize, normalizeSpaces, fmap, fresult, moved, smap, sresult.
  destruct (number_spaces 0 [] (sort_spaces srt (p_spaces p))) as [m sp]. unfold normalizeFunctions. cbn [fst snd p_decls p_spaces p_rels p_rest].
  destruct (number_decls 0 [] (sort_decls srt (map (move_decl m) (p_decls p)))). reflexivity.
Qed.
Lemma normalize_ok srt p p' : normalize srt p = Ok p' ->
  mapM (nprel (mat (fmap srt p))) (p_rels p) = Ok (p_rels p') /\ p_spaces p' = sresult srt p /\ p_decls p' = fresult srt p /\ p_rest p' = p_rest p.
Proof.
  rewrite normalize_eq. destruct (mapM _ (p_rels p)) as [r| |]; cbn [obind]; try discriminate. intros H.
  apply (f_equal (fun o => match o with Ok a => a | _ => p end)) in H. subst p'. auto.
Qed.
Lemma moved_anchor m d : anchor (move_decl m d) = anchor d.
Proof. destruct d as [s a n|]; cbn; auto. destruct (mfind s m); auto. Qed.
Lemma moved_anchors srt p : map anchor (moved srt p) = map anchor (p_decls p).
Proof. unfold moved. rewrite map_map. apply map_ext. intros d. apply moved_anchor. Qed.
Lemma moved_functions srt p : all_functions p -> Forall is_function (moved srt p).
Proof. unfold moved. intros H. apply Forall_map. eapply Forall_impl; [|exact H]. intros [s a n|]; cbn; auto. destruct (mfind s _); auto. Qed.
Section Sorted.
  Variables (srt : sorter).
  Hypothesis V : valid srt.
  Lemma ss_perm p : Permutation (p_spaces p) (sort_spaces srt (p_spaces p)).
  Proof. apply V. Qed.
  Lemma sd_perm l : Permutation l (sort_decls srt l).
  Proof. apply V. Qed.
  Lemma sd_anchors p : Permutation (map anchor (p_decls p)) (map anchor (sort_decls srt (moved srt p))).
  Proof. rewrite <- (moved_anchors srt). apply Permutation_map, sd_perm. Qed.

  (** *** Failure *)
  Lemma fmap_iff p f : (exists v, mat (fmap srt p) f = Ok v) <-> In f (map anchor (p_decls p)).
  Proof.
    assert (Q : In f (map anchor (p_decls p)) <-> In f (map anchor (sort_decls srt (moved srt p)))).
    { split; apply Permutation_in; [|apply Permutation_sym]; apply sd_anchors. }
    rewrite Q. unfold mat, fmap. split.
    - destruct (in_dec N.eq_dec f (map anchor (sort_decls srt (moved srt p)))) as [I|I]; auto. rewrite nd_none by auto. intros [v E]. discriminate.
    - intros I. destruct (nd_some _ 0%N [] f I) as (i & E & _). rewrite E. eauto.
  Qed.
  Lemma fmap_cases p f : (exists v, mat (fmap srt p) f = Ok v) \/ mat (fmap srt p) f = Throw EStdOutOfRange.
  Proof. unfold mat. destruct (mfind f (fmap srt p)); eauto. Qed.
  Definition dangles (p : plan) (c : call) : Prop := fst c <> Missed /\ ~ declared p (snd c).
  Lemma declared_iff p f : all_functions p -> (declared p f <-> In f (map anchor (p_decls p))).
  Proof.
    intros A. rewrite in_map_iff. split.
    - intros (s & n & I). exists (DFun s f n). auto.
    - intros ([s a n|] & E & I); cbn in E; [subst; exists s, n; auto|]. unfold all_functions in A. rewrite Forall_forall in A. destruct (A _ I).
  Qed.
  Lemma pfail m x r : (forall f, (exists v, m f = Ok v) \/ m f = Throw x) -> fails m x (nprel m r) (pcalls r).
  Proof.
    intros M. destruct (failures m x M) as (_ & _ & _ & _ & _ & _ & FR). destruct r as [|r|[i|] p]; cbn [nprel pcalls ocalls optM].
    - left; eauto.
    - destruct (FR r) as [[r' ->]|[-> E]]; [left; cbn; eauto|right; auto].
    - destruct (FR i) as [[r' ->]|[-> E]]; [left; cbn; eauto|right; auto].
    - left; cbn; eauto.
  Qed.
  Lemma plan_fails p : (exists p', normalize srt p = Ok p') \/
    (normalize srt p = Throw EStdOutOfRange /\ Exists (dangling (mat (fmap srt p)) EStdOutOfRange) (calls p)).
  Proof.
    rewrite normalize_eq. destruct (mapM_fail (nprel (mat (fmap srt p))) (fun r => Exists (dangling (mat (fmap srt p)) EStdOutOfRange) (pcalls r)) EStdOutOfRange (p_rels p)) as [[l ->]|[-> E]].
    - apply Forall_forall. intros r _. apply pfail. apply fmap_cases.
    - left. cbn. eauto.
    - right. split; auto. unfold calls. clear -E. induction E; cbn; apply Exists_app; auto.
  Qed.
  Lemma pupd m r r' : nprel m r = Ok r' -> Forall2 (updated m) (pcalls r) (pcalls r').
  Proof.
    destruct (updates m) as (_ & _ & _ & _ & _ & _ & UR). destruct r as [|r|[i|] p]; cbn [nprel optM]; intros H; pbind H; cbn [pcalls ocalls].
    - constructor.
    - apply UR. auto.
    - pbind E. cbn. apply UR. auto.
    - pbind E. constructor.
  Qed.
  Lemma plan_updates p p' : normalize srt p = Ok p' -> Forall2 (updated (mat (fmap srt p))) (calls p) (calls p').
  Proof.
    intros H. apply normalize_ok in H as [H _]. unfold calls. apply Forall2_flat. eapply mapM_rel; [|exact H].
    apply Forall_forall. intros r _ r' E. apply pupd. auto.
  Qed.
  Theorem throws_iff p : all_functions p -> (normalize srt p = Throw EStdOutOfRange <-> Exists (dangles p) (calls p)).
  Proof.
    intros A. split.
    - intros T. destruct (plan_fails p) as [[p' E]|[_ E]]; [congruence|]. eapply Exists_impl; [|exact E].
      intros [k f] [K F]. split; auto. cbn in *. rewrite declared_iff by auto. rewrite <- fmap_iff. intros [v E']. congruence.
    - intros X. destruct (plan_fails p) as [[p' E]|[-> _]]; auto. exfalso. apply plan_updates in E.
      apply Exists_exists in X as ([k f] & I & K & D). cbn in *. rewrite declared_iff in D by auto. rewrite <- fmap_iff in D. apply D.
      assert (G : forall l l', Forall2 (updated (mat (fmap srt p))) l l' -> In (k, f) l -> exists v, mat (fmap srt p) f = Ok v).
      { induction 1 as [|c c' l l' U _ IH]; [intros []|]. intros [->|J]; auto. unfold updated in U. cbn in U. destruct k; try tauto; destruct U; eauto. }
      eapply G; eauto.
  Qed.
  Theorem never_ub p : normalize srt p <> UB.
  Proof. destruct (plan_fails p) as [[p' E]|[E _]]; congruence. Qed.
  Theorem only_references p p' : normalize srt p = Ok p' -> map blank (p_rels p') = map blank (p_rels p) /\ p_rest p' = p_rest p.
  Proof.
    intros H. apply normalize_ok in H as (H & _ & _ & R). split; auto. revert H. generalize (p_rels p'). induction (p_rels p) as [|r l IH]; cbn; intros l' H.
    - injection H as <-. auto.
    - destruct (nprel (mat (fmap srt p)) r) as [r'| |] eqn:E; try discriminate. cbn in H. destruct (mapM _ l) as [l2| |]; try discriminate. injection H as <-. cbn. f_equal; auto.
      destruct (shapes (mat (fmap srt p))) as (_ & _ & _ & _ & _ & _ & SR). unfold blank. destruct r as [|r|[i|] q]; cbn [nprel optM] in E; pbind E; cbn [pren okeep option_map]; auto; f_equal; auto; pbind E0; cbn; auto.
      f_equal. auto.
  Qed.

  (** *** Order and numbering *)
  Theorem spaces_numbered p p' : normalize srt p = Ok p' ->
    map sp_anchor (p_spaces p') = upto 1 (length (p_spaces p)) /\ Permutation (map sp_uri (p_spaces p)) (map sp_uri (p_spaces p')) /\
    sorted_by before (map sp_uri (p_spaces p')).
  Proof.
    intros H. apply normalize_ok in H as (_ & -> & _). unfold sresult. destruct (ns_shape (sort_spaces srt (p_spaces p)) 0 []) as [-> ->].
    repeat split.
    - rewrite (Permutation_length (ss_perm p)). reflexivity.
    - apply Permutation_map, ss_perm.
    - destruct (proj1 V (p_spaces p)) as [_ S]. clear -S. unfold sorted_by in *. induction S as [|x l S IH F]; cbn; constructor; auto. apply Forall_map. exact F.
  Qed.
  Lemma sorted_renum l : forall n m, Forall is_function l -> sorted_by decl_before l -> sorted_by decl_before (snd (number_decls n m l)).
  Proof.
    induction l as [|d l IH]; intros n m F S; cbn [number_decls]; [constructor|]. inversion_clear F as [|? ? Fd F']. inversion_clear S as [|? ? S' X].
    match goal with |- context [number_decls (n + 1) ?m l] => pose proof (nd_bare l (n + 1) m) as B; pose proof (nd_shape l (n + 1) m) as [_ B'];
      specialize (IH (n + 1)%N m F' S'); destruct (number_decls (n + 1) m l) as [m' r] end.
    cbn [fst snd] in *. constructor; auto. rewrite Forall_forall in *. intros d' I.
    assert (J : In (bare d') (map bare l)) by (rewrite <- B; apply in_map; auto). apply in_map_iff in J as (e & E & Ie).
    specialize (X e Ie). specialize (F' e Ie). specialize (B' d' I). destruct d, d', e; try contradiction. cbn in *. injection E as -> ->. auto.
  Qed.
  Theorem functions_numbered p p' : all_functions p -> normalize srt p = Ok p' ->
    map anchor (p_decls p') = upto 0 (length (p_decls p)) /\ all_functions p' /\ sorted_by decl_before (p_decls p').
  Proof.
    intros A H. apply normalize_ok in H as (_ & _ & E & _). unfold all_functions. rewrite E. unfold fresult. destruct (nd_shape (sort_decls srt (moved srt p)) 0 []) as [-> B].
    pose proof (sd_perm (moved srt p)) as P. repeat split; auto.
    - rewrite <- (Permutation_length P). unfold moved. rewrite map_length. reflexivity.
    - apply sorted_renum; [|apply V]. eapply Permutation_Forall; [exact P|]. apply moved_functions. auto.
  Qed.

  (** *** Meaning *)
  Lemma find_unique {A} (k : A -> N) (l : list A) x v : NoDup (map k l) -> In x l -> k x = v -> find (fun y => (k y =? v)%N) l = Some x.
  Proof.
    intros D I <-. induction l as [|y l IH]; [destruct I|]. cbn in *. inversion_clear D as [|? ? N0 D']. destruct (k y =? k x)%N eqn:E.
    - apply N.eqb_eq in E. destruct I as [->|I]; auto. exfalso. apply N0. rewrite E. apply in_map. auto.
    - destruct I as [->|I]; auto. rewrite N.eqb_refl in E. discriminate.
  Qed.
  Lemma find_missing {A} (k : A -> N) (l : list A) v : ~ In v (map k l) -> find (fun y => (k y =? v)%N) l = None.
  Proof. induction l as [|y l IH]; cbn; auto. intros H. destruct (k y =? v)%N eqn:E; auto. apply N.eqb_eq in E. tauto. Qed.
  Lemma find_function l v : Forall is_function l -> find (fun d => match d with DFun _ a _ => (a =? v)%N | DOther _ => false end) l = find (fun d => (anchor d =? v)%N) l.
  Proof. induction 1 as [|d l F _ IH]; cbn; auto. destruct d; [|destruct F]. cbn. rewrite IH. auto. Qed.
  Lemma uri_same p s a n : well_numbered p -> In (DFun s a n) (p_decls p) ->
    forall p', p_spaces p' = sresult srt p -> forall s' a' n', move_decl (smap srt p) (DFun s a n) = DFun s' a' n' -> uri_of p' s' = uri_of p s.
  Proof.
    intros [WF WS WA WD] I p' E s' a' n' M. unfold uri_of. rewrite E. cbn [move_decl] in M.
    assert (NS : NoDup (map sp_anchor (sort_spaces srt (p_spaces p)))) by (eapply Permutation_NoDup; [apply Permutation_map, ss_perm|auto]).
    destruct (ns_shape (sort_spaces srt (p_spaces p)) 0 []) as [SA _].
    destruct (in_dec N.eq_dec s (map sp_anchor (p_spaces p))) as [J|J].
    - apply in_map_iff in J as (x & Ex & Ix). assert (Ix' : In x (sort_spaces srt (p_spaces p))) by (eapply Permutation_in; [apply ss_perm|auto]).
      destruct (ns_in _ 0%N [] x NS Ix') as (i & F1 & F2). fold (smap srt p) in F1. fold (sresult srt p) in F2. rewrite Ex in F1. rewrite F1 in M. injection M as <- _ _.
      rewrite (fun D => find_unique sp_anchor _ _ i D F2 eq_refl) by (unfold sresult; rewrite SA; apply upto_NoDup). rewrite (find_unique sp_anchor _ x s WS Ix Ex). reflexivity.
    - assert (F1 : mfind s (smap srt p) = None).
      { unfold smap. rewrite ns_none; auto. intros K. apply J. eapply Permutation_in; [apply Permutation_sym, Permutation_map, ss_perm|exact K]. }
      rewrite F1 in M. injection M as <- _ _. rewrite (find_missing sp_anchor (p_spaces p)) by auto.
      destruct (WD _ _ _ I) as [->|K]; [|tauto]. rewrite find_missing; auto. unfold sresult. rewrite SA, upto_In. lia.
  Qed.
  Lemma meaning_of p d : well_numbered p -> In d (p_decls p) -> meaning p (anchor d) = decl_meaning p d.
  Proof. intros [WF WS WA WD] I. unfold meaning. rewrite find_function by auto. rewrite (find_unique anchor _ d _ WA I eq_refl). auto. Qed.
  Lemma meaning_step p p' f f' : well_numbered p -> normalize srt p = Ok p' -> mat (fmap srt p) f = Ok f' -> meaning p' f' = meaning p f /\ meaning p f <> None.
  Proof.
    intros W H M. pose proof W as [WF WS WA WD]. destruct (functions_numbered p p' WF H) as (NA & FA & _). apply normalize_ok in H as (_ & ES & ED & _).
    assert (I : In f (map anchor (p_decls p))) by (apply fmap_iff; eauto).
    apply in_map_iff in I as (d & E & I). assert (Fd : is_function d) by (unfold all_functions in WF; rewrite Forall_forall in WF; auto).
    destruct d as [s a n|]; [|destruct Fd]. cbn in E. subst a.
    rewrite (meaning_of p (DFun s f n) W I : meaning p f = _). split; [|discriminate].
    destruct (move_decl (smap srt p) (DFun s f n)) as [s' a' n'|] eqn:Mv; [|cbn in Mv; destruct (mfind s _); discriminate].
    assert (a' = f /\ n' = n) as [-> ->] by (cbn in Mv; destruct (mfind s _); injection Mv as _ <- <-; auto).
    assert (I2 : In (DFun s' f n) (sort_decls srt (moved srt p))).
    { eapply Permutation_in; [apply sd_perm|]. unfold moved. rewrite <- Mv. apply in_map. auto. }
    assert (ND : NoDup (map anchor (sort_decls srt (moved srt p)))) by (eapply Permutation_NoDup; [apply sd_anchors|auto]).
    destruct (nd_in _ 0%N [] _ _ _ ND I2) as (i & F1 & F2). fold (fmap srt p) in F1. fold (fresult srt p) in F2. unfold mat in M. rewrite F1 in M. injection M as <-.
    unfold meaning. rewrite find_function by auto. rewrite ED in *. rewrite (find_unique anchor _ (DFun s' i n) i); auto; [|rewrite NA; apply upto_NoDup].
    cbn. rewrite (uri_same p s f n W I p' ES _ _ _ Mv). auto.
  Qed.
  Theorem meaning_preserved p p' : well_numbered p -> normalize srt p = Ok p' ->
    Forall2 (fun c c' => fst c <> Missed -> meaning p' (snd c') = meaning p (snd c) /\ meaning p (snd c) <> None) (calls p) (calls p').
  Proof.
    intros W H. pose proof (plan_updates p p' H) as U. eapply Forall2_imp; [|exact U]. clear U. intros [k f] [k' f'] U K. unfold updated in U. cbn in *.
    destruct k; try tauto; eapply meaning_step; eauto; tauto.
  Qed.
  Theorem declarations_kept p p' : well_numbered p -> normalize srt p = Ok p' ->
    Permutation (map (decl_meaning p) (p_decls p)) (map (decl_meaning p') (p_decls p')).
  Proof.
    intros W H. pose proof W as [WF WS WA WD]. destruct (functions_numbered p p' WF H) as (NA & FA & _). apply normalize_ok in H as (_ & ES & ED & _).
    assert (L : map (decl_meaning p') (p_decls p') = map (decl_meaning p') (sort_decls srt (moved srt p))).
    { rewrite ED. unfold all_functions in FA. rewrite ED in FA. pose proof (nd_bare (sort_decls srt (moved srt p)) 0 []) as B. fold (fresult srt p) in B.
      assert (F2 : Forall is_function (sort_decls srt (moved srt p))) by (eapply Permutation_Forall; [apply sd_perm|apply moved_functions; auto]).
      revert B FA F2. generalize (fresult srt p) (sort_decls srt (moved srt p)). induction l as [|d l IH]; intros [|e l']; cbn; try discriminate; auto.
      intros B FA F2. injection B as B1 B2. inversion_clear FA. inversion_clear F2. f_equal; auto. destruct d, e; try contradiction. cbn in *. injection B1 as -> ->. auto. }
    rewrite L. eapply perm_trans; [|apply Permutation_map, sd_perm]. unfold moved. rewrite map_map. apply Permutation_refl'. apply map_ext_in. intros [s a n|] I.
    - destruct (move_decl (smap srt p) (DFun s a n)) as [s' a' n'|] eqn:Mv; [|cbn in Mv; destruct (mfind s _); discriminate].
      cbn. rewrite (uri_same p s a n W I p' ES _ _ _ Mv). cbn in Mv. destruct (mfind s _); injection Mv as _ _ <-; auto.
    - unfold all_functions in WF. rewrite Forall_forall in WF. destruct (WF _ I).
  Qed.
End Sorted.

(** *** Once more *)
Lemma space_total (a b : space) : ~ space_before a b -> ~ space_before b a -> sp_uri a = sp_uri b.
Proof. unfold space_before. rewrite <- !str_lt_before. intros H K. apply str_lt_total; [destruct (str_lt (sp_uri a) _)|destruct (str_lt (sp_uri b) _)]; tauto. Qed.
Lemma NoDup_map_inj {A B} (f : A -> B) l a b : NoDup (map f l) -> In a l -> In b l -> f a = f b -> a = b.
Proof.
  induction l as [|x l IH]; [intros _ []|]. cbn. intros D. inversion_clear D as [|? ? N0 D']. intros [->|I] [->|J] E; auto.
  - exfalso. apply N0. rewrite E. apply in_map. auto.
  - exfalso. apply N0. rewrite <- E. apply in_map. auto.
Qed.
Lemma decl_total (a b : decl) : is_function a -> is_function b -> ~ decl_before a b -> ~ decl_before b a -> bare a = bare b.
Proof.
  destruct a as [s x n|], b as [s' x' n'|]; cbn; try tauto. intros _ _ H K. assert (s = s') by lia. subst s'. f_equal.
  rewrite <- !str_lt_before in *. apply str_lt_total; [destruct (str_lt n n')|destruct (str_lt n' n)]; tauto.
Qed.
Lemma pcompose m m' m'' r r' : (forall f f', m f = Ok f' -> m' f' = m'' f) -> nprel m r = Ok r' -> nprel m' r' = nprel m'' r.
Proof.
  intros M. destruct (composes m m' m'' M) as (_ & _ & _ & _ & _ & _ & CR). destruct r as [|r|[i|] p]; cbn [nprel optM]; intros H; pbind H; cbn [nprel optM]; auto.
  - rewrite (CR _ _ E). auto.
  - pbind E. cbn [optM]. rewrite (CR _ _ E0). auto.
  - pbind E. auto.
Qed.
Theorem idempotent srt srt' p p' : valid srt -> valid srt' -> all_functions p -> normalize srt p = Ok p' ->
  distinct_uris p -> NoDup (map bare (p_decls p')) -> normalize srt' p' = Ok p'.
Proof.
  intros V V' A H DU DM.
  destruct (spaces_numbered srt V p p' H) as (SA & SU & SS). destruct (functions_numbered srt V p p' A H) as (FA & FF & FS).
  assert (LS : length (p_spaces p') = length (p_spaces p)) by (rewrite <- (map_length sp_uri (p_spaces p')), <- (Permutation_length SU); apply map_length).
  assert (LD : length (p_decls p') = length (p_decls p)) by (rewrite <- (map_length anchor (p_decls p')), FA; clear; generalize 0%N; induction (length (p_decls p)); cbn; auto).
  assert (E1 : sort_spaces srt' (p_spaces p') = p_spaces p').
  { symmetry. destruct (proj1 V' (p_spaces p')) as [P S]. apply (sorted_unique space_before); auto.
    - clear -SS. unfold sorted_by in *. induction (p_spaces p') as [|x l IH]; [constructor|]. cbn in SS. inversion_clear SS. constructor; auto. rewrite Forall_forall in *. intros y I. apply (H0 (sp_uri y)), in_map. auto.
    - intros a b Ia Ib Na Nb. eapply NoDup_map_inj; [eapply Permutation_NoDup; [exact SU|exact DU]|auto|auto|]. apply space_total; auto. }
  assert (N1 : sresult srt' p' = p_spaces p' /\ forall a, In a (map sp_anchor (p_spaces p')) -> mfind a (smap srt' p') = Some a).
  { unfold sresult, smap. rewrite E1. apply ns_again. rewrite SA, LS. auto. }
  assert (E2 : moved srt' p' = p_decls p').
  { unfold moved. rewrite <- map_id. apply map_ext. intros [s a n|]; auto. cbn. destruct (in_dec N.eq_dec s (map sp_anchor (p_spaces p'))) as [I|I].
    - rewrite (proj2 N1 s I). auto.
    - unfold smap. rewrite E1, ns_none; auto. }
  assert (E3 : sort_decls srt' (p_decls p') = p_decls p').
  { symmetry. destruct (proj2 V' (p_decls p')) as [P S]. apply (sorted_unique decl_before); auto.
    intros a b Ia Ib Na Nb. unfold all_functions in FF. rewrite Forall_forall in FF. eapply NoDup_map_inj; [exact DM|auto|auto|]. apply decl_total; auto. }
  assert (N2 : fresult srt' p' = p_decls p' /\ forall a, In a (map anchor (p_decls p')) -> mfind a (fmap srt' p') = Some a).
  { unfold fresult, fmap. rewrite E2, E3. apply nd_again; auto. rewrite FA, LD. auto. }
  rewrite normalize_eq. apply normalize_ok in H as (R & ES & ED & ER). rewrite (proj1 N1), (proj1 N2).
  assert (G : mapM (nprel (mat (fmap srt' p'))) (p_rels p') = mapM (nprel (mat (fmap srt p))) (p_rels p)).
  { revert R. generalize (p_rels p'). induction (p_rels p) as [|r l IH]; cbn; intros l' R; [injection R as <-; auto|].
    destruct (nprel (mat (fmap srt p)) r) as [r'| |] eqn:E; try discriminate. cbn [obind] in R. destruct (mapM _ l) as [l2| |] eqn:E'; try discriminate. injection R as <-. cbn [mapM].
    rewrite (fun M => pcompose _ (mat (fmap srt' p')) (mat (fmap srt p)) _ _ M E), E.
    - cbn [obind]. rewrite (IH _ eq_refl). auto.
    - intros f f' M. rewrite M. unfold mat. rewrite (proj2 N2); auto. rewrite FA, <- LD, LD.
      assert (I : In f (map anchor (sort_decls srt (moved srt p)))).
      { eapply Permutation_in; [apply sd_anchors; auto|]. apply (fmap_iff srt V). eauto. }
      destruct (nd_some _ 0%N [] f I) as (i & F1 & F2). fold (fmap srt p) in F1. unfold mat in M. rewrite F1 in M. injection M as <-.
      rewrite <- (Permutation_length (sd_perm srt V (moved srt p))) in F2. unfold moved in F2. rewrite map_length in F2. auto. }
  rewrite G, R. cbn [obind]. destruct p'; auto.
Qed.
(** The same with a condition on the plan itself. *)
Lemma distinct_bare srt p p' : valid srt -> well_numbered p -> normalize srt p = Ok p' -> distinct_meanings p -> NoDup (map bare (p_decls p')).
Proof.
  intros V W H D. pose proof (declarations_kept srt V p p' W H) as P. destruct (functions_numbered srt V p p' (wn_functions p W) H) as (_ & FF & _).
  apply (Permutation_NoDup P) in D. assert (M : map (decl_meaning p') (p_decls p') = map (fun b => Some (uri_of p' (fst b), snd b)) (map bare (p_decls p'))).
  { rewrite map_map. apply map_ext_in. intros d I. unfold all_functions in FF. rewrite Forall_forall in FF. specialize (FF d I). destruct d; [|destruct FF]. reflexivity. }
  rewrite M in D. eapply NoDup_map_inv; eauto.
Qed.
Theorem idempotent_wn srt srt' p p' : valid srt -> valid srt' -> well_numbered p -> distinct_uris p -> distinct_meanings p ->
  normalize srt p = Ok p' -> normalize srt' p' = Ok p'.
Proof. intros V V' W DU DM H. apply (idempotent srt srt' p p'); auto; [apply W|]. apply (distinct_bare srt p p'); auto. Qed.

(** *** Renumbered plans *)
Lemma prename m s r : Forall reached (pcalls r) -> nprel m (pren false s r) = nprel (fun f => m (s f)) r.
Proof.
  intros H. destruct (renames s m) as (_ & _ & _ & _ & _ & _ & RR). destruct r as [|r|[i|] p]; cbn [nprel pren okeep option_map optM pcalls ocalls] in *; auto; rewrite RR; auto.
Qed.
Lemma pext m m' r : (forall f, m f = m' f) -> nprel m r = nprel m' r.
Proof.
  intros H. destruct (extensional m m') as (_ & _ & _ & _ & _ & _ & XR). assert (G : forall r, nr m r = nr m' r) by (intros; apply XR; intros ? ? ? ?; auto).
  destruct r as [|r|[i|] p]; cbn [nprel optM]; rewrite ?G; auto.
Qed.
Lemma sorted_map {A B} (f : A -> B) (lt : A -> A -> Prop) (lt' : B -> B -> Prop) l : (forall a b, In a l -> In b l -> lt' (f a) (f b) -> lt a b) -> sorted_by lt l -> sorted_by lt' (map f l).
Proof.
  unfold sorted_by. intros H S. induction S as [|x l S IH F]; cbn; constructor.
  - apply IH. intros. apply H; cbn; auto.
  - apply Forall_map. rewrite Forall_forall in *. intros y I K. apply (F y I). apply H; cbn; auto.
Qed.
Lemma move_total m d : is_function d -> is_function (move_decl m d).
Proof. destruct d as [s a n|]; cbn; auto. destruct (mfind s m); cbn; auto. Qed.
Lemma uri_inj srt p s s' : valid srt -> well_numbered p -> distinct_uris p -> forall a n b k, In (DFun s a n) (p_decls p) -> In (DFun s' b k) (p_decls p) ->
  forall t x y, move_decl (smap srt p) (DFun s a n) = DFun t a x -> move_decl (smap srt p) (DFun s' b k) = DFun t b y -> uri_of p s = uri_of p s'.
Proof.
  intros V W DU a n b k I J t x y M M'.
  rewrite <- (uri_same srt V p s a n W I {| p_spaces := sresult srt p; p_decls := []; p_rels := []; p_rest := 0%N |} eq_refl _ _ _ M).
  rewrite <- (uri_same srt V p s' b k W J {| p_spaces := sresult srt p; p_decls := []; p_rels := []; p_rest := 0%N |} eq_refl _ _ _ M'). auto.
Qed.
Lemma bare_ren s d : bare (decl_ren (fun x => x) s d) = bare d.
Proof. destruct d; auto. Qed.
Theorem canonical srt srt' t s p q : valid srt -> valid srt' -> well_numbered p -> distinct_uris p -> distinct_meanings p ->
  injective t -> injective s -> t 0%N = 0%N -> renumbered t s p q -> Forall reached (calls p) -> normalize srt' q = normalize srt p.
Proof.
  intros V V' W DU DM Jt Js T0 [RS RD RR RE] C. rewrite !normalize_eq. pose proof W as [WF WS WA WD].
  assert (E1 : sort_spaces srt' (p_spaces q) = map (space_ren t) (sort_spaces srt (p_spaces p))).
  { symmetry. destruct (proj1 V (p_spaces p)) as [P1 S1]. destruct (proj1 V' (p_spaces q)) as [P2 S2]. apply (sorted_unique space_before); auto.
    - eapply perm_trans; [|exact P2]. eapply perm_trans; [|exact RS]. apply Permutation_map, Permutation_sym, P1.
    - eapply sorted_map; [|exact S1]. auto.
    - intros a b Ia Ib Na Nb. apply space_total in Nb; auto. apply in_map_iff in Ia as (a0 & <- & Ia), Ib as (b0 & <- & Ib). f_equal.
      eapply NoDup_map_inj; [exact DU| | |exact Nb]; eapply Permutation_in; try (apply Permutation_sym; exact P1); auto. }
  destruct (ns_ren t (sort_spaces srt (p_spaces p)) Jt 0%N [] [] ltac:(auto)) as [N1 N2]. rewrite <- E1 in N1, N2. fold (smap srt p) (smap srt' q) in N2. fold (sresult srt p) (sresult srt' q) in N1.
  assert (MV : forall d, In d (p_decls p) -> move_decl (smap srt' q) (decl_ren t s d) = decl_ren (fun x => x) s (move_decl (smap srt p) d)).
  { intros [sp a n|] I; auto. cbn. rewrite N2. destruct (mfind sp (smap srt p)) eqn:E; auto. cbn. destruct (WD _ _ _ I) as [->|K]; [rewrite T0; auto|].
    exfalso. destruct (ns_some (sort_spaces srt (p_spaces p)) 0%N [] sp) as (i & F & _); [eapply Permutation_in; [apply Permutation_map, ss_perm; auto|exact K]|].
    unfold smap in E. congruence. }
  assert (P3 : Permutation (map (decl_ren (fun x => x) s) (moved srt p)) (moved srt' q)).
  { unfold moved. eapply perm_trans; [|apply Permutation_map; exact RD]. rewrite !map_map. apply Permutation_refl', map_ext_in. intros d I. symmetry. apply MV. auto. }
  assert (FM : Forall is_function (moved srt p)) by (apply moved_functions; auto).
  assert (DB : forall d e, In d (p_decls p) -> In e (p_decls p) -> bare (move_decl (smap srt p) d) = bare (move_decl (smap srt p) e) -> d = e).
  { intros d e Id Ie B. eapply NoDup_map_inj; [exact DM|auto|auto|]. unfold all_functions in WF. rewrite Forall_forall in WF. pose proof (WF d Id) as Fd. pose proof (WF e Ie) as Fe.
    destruct d as [s1 a1 n1|]; [|destruct Fd]. destruct e as [s2 a2 n2|]; [|destruct Fe].
    destruct (move_decl (smap srt p) (DFun s1 a1 n1)) as [u1 b1 k1|] eqn:M1; [|cbn in M1; destruct (mfind s1 _); discriminate].
    destruct (move_decl (smap srt p) (DFun s2 a2 n2)) as [u2 b2 k2|] eqn:M2; [|cbn in M2; destruct (mfind s2 _); discriminate].
    cbn [bare] in B. injection B as -> ->.
    assert (b1 = a1 /\ k2 = n1) as [-> ->] by (cbn in M1; destruct (mfind s1 _); injection M1; auto). assert (b2 = a2 /\ n1 = n2) as [-> ->] by (cbn in M2; destruct (mfind s2 _); injection M2; auto).
    cbn [decl_meaning]. rewrite (uri_inj srt p s1 s2 V W DU a1 n2 a2 n2 Id Ie u2 n2 n2 M1 M2). reflexivity. }
  assert (E2 : sort_decls srt' (moved srt' q) = map (decl_ren (fun x => x) s) (sort_decls srt (moved srt p))).
  { symmetry. destruct (proj2 V (moved srt p)) as [P1 S1]. destruct (proj2 V' (moved srt' q)) as [P2 S2]. apply (sorted_unique decl_before); auto.
    - eapply perm_trans; [|exact P2]. eapply perm_trans; [|exact P3]. apply Permutation_map, Permutation_sym, P1.
    - eapply sorted_map; [|exact S1]. intros [] [] _ _; auto.
    - intros a b Ia Ib Na Nb. apply in_map_iff in Ia as (a0 & <- & Ia), Ib as (b0 & <- & Ib).
      apply (Permutation_in _ (Permutation_sym P1)) in Ia, Ib. rewrite Forall_forall in FM. pose proof (FM _ Ia) as Fa. pose proof (FM _ Ib) as Fb.
      assert (B : bare (decl_ren (fun x => x) s a0) = bare (decl_ren (fun x => x) s b0)).
      { apply decl_total; auto; [destruct a0; auto|destruct b0; auto]. }
      unfold moved in Ia, Ib. apply in_map_iff in Ia as (d & <- & Id), Ib as (e & <- & Ie). rewrite (DB d e); auto. rewrite !bare_ren in B. exact B. }
  assert (FS : Forall is_function (sort_decls srt (moved srt p))) by (eapply Permutation_Forall; [apply sd_perm; auto|auto]).
  destruct (nd_ren s _ Js FS 0%N [] [] ltac:(auto)) as [N3 N4]. rewrite <- E2 in N3, N4. fold (fmap srt p) (fmap srt' q) in N4. fold (fresult srt p) (fresult srt' q) in N3.
  rewrite N1, N3, RR, RE.
  assert (G : mapM (nprel (mat (fmap srt' q))) (map (pren false s) (p_rels p)) = mapM (nprel (mat (fmap srt p))) (p_rels p)).
  { clear RR. unfold calls in C. revert C. induction (p_rels p) as [|r l IH]; cbn; auto. intros C. apply Forall_app in C as [C1 C2]. rewrite prename, (IH C2) by auto.
    rewrite (pext _ (mat (fmap srt p))); auto. intros f. unfold mat. rewrite N4. auto. }
  rewrite G. reflexivity.
Qed.
