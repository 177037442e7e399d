(** The order of the relation sections of a text with subqueries; as RelOrderFacts. *)
From Verif Require Import Base BaseFacts StringsModel TypeModel LexModel ExprModel RelModel SectionModel WholeModel SoundFacts TrapPlanFacts SubPlanFacts ExtFacts KindOrderFacts RelOrderFacts DefineOrderFacts SubOrderFacts SubDefineFacts.
From Verif Require FieldModel DeclModel SymbolModel TreeModel TreeFacts PipeModel PipeFacts SubModel.
From Coq Require Import Lia Permutation.

(** * What is meant *)
(** A relation that is inside another one, in one of its subqueries, comes after it. *)
Definition outer_first (l : list pnode) : Prop := forall before n after p, relations_of l = before ++ n :: after -> inside l (n_name n) p -> In p (map n_name before).
(** No two relations have the same relation as subquery. *)
Definition one_place (l : list pnode) : Prop := forall r r' q, In r (relations_of l) -> In r' (relations_of l) -> In q (named_in r) -> In q (named_in r') -> r = r'.

(** * Symbols of relations *)
Section Read.
  Import TreeModel.
  Definition ssections (l : list rnode) : list section := map (fun n => {| x_name := n_name n; x_kind := kind_read (n_kind n); x_body := n_name n; x_exprs := SubModel.node_subs n |}) l.
  Definition stext (pipes : list (list str)) (rels : list rnode) (roots : list (list str)) (others : list str) : text := {| x_pipes := pipes; x_rels := ssections rels; x_roots := roots; x_others := others |}.
  Record same_splan (rp rp' : read_plan) (rels rels' : list rnode) : Prop := {
    ss_tab : same_tab (r_tab rp) (r_tab rp'); ss_rels : r_rels rp = ssections rels; ss_rels' : r_rels rp' = ssections rels'; ss_roots : r_roots rp = r_roots rp' }.
  Lemma flat_nil {A B} (f : A -> list B) l : flat_map f l = [] <-> forall a, In a l -> f a = [].
  Proof.
    induction l as [|a l IH]; [split; [intros _ a []|reflexivity]|]. cbn [flat_map]. split.
    - intros H. apply app_eq_nil in H as [H1 H2]. intros x [<-|I]; [exact H1|]. apply (proj1 IH H2 x I).
    - intros H. rewrite (H a (or_introl eq_refl)). apply IH. intros x I. apply H. right. exact I.
  Qed.
  Lemma same_sread pipes rels rels' roots others rp : NoDup others -> Permutation rels rels' -> readText (stext pipes rels roots others) = Ok (rp, []) ->
    exists rp', readText (stext pipes rels' roots others) = Ok (rp', []) /\ same_splan rp rp' rels rels'.
  Proof.
    intros No P H. unfold readText in *. cbn [stext x_others x_rels x_roots x_pipes] in *. cbv zeta in *. set (t0 := map (fun n => (n, PipeModel.POther)) others) in *.
    destruct (define_rels t0 (ssections rels)) as [t1 e1] eqn:E1. destruct (define_roots t1 false roots) as [t2 e2] eqn:E2.
    destruct (PipeModel.visitPipelines t2 _) as [[t3 e3]| |] eqn:E3; cbn [obind fst snd] in H; try discriminate H.
    injection H as <- He. apply app_eq_nil in He as [-> He]. apply app_eq_nil in He as [-> He]. apply app_eq_nil in He as [He He4]. apply map_eq_nil in He. subst e3. apply define_clean in E1 as (-> & ND & Nw).
    assert (Ps : Permutation (ssections rels) (ssections rels')) by (apply Permutation_map, P).
    rewrite (define_all_clean (ssections rels') t0); [|exact (Permutation_NoDup (Permutation_map x_name Ps) ND)|intros r I; apply Nw; exact (Permutation_in _ (Permutation_sym Ps) I)].
    set (f := fun r : section => (x_name r, PipeModel.PRel PipeModel.no_data)) in *.
    assert (S1 : same_tab (t0 ++ map f (ssections rels)) (t0 ++ map f (ssections rels'))).
    { split; [apply Permutation_app_head, Permutation_map, Ps|]. rewrite map_app, map_map. cbn [f fst]. unfold t0. rewrite map_map. cbn [fst]. rewrite map_id.
      assert (X : forall a c, NoDup a -> NoDup c -> (forall n : str, In n c -> ~ In n a) -> NoDup (a ++ c)).
      { clear. induction a as [|x a IH]; intros c A C D; [exact C|]. inversion A; subst. cbn [app]. constructor; [|apply IH; auto; intros n N; specialize (D n N); cbn in D; tauto]. intros J. apply in_app_or in J as [J|J]; [contradiction|]. apply (D x J). left. reflexivity. }
      apply X; [exact No|exact ND|]. intros n In_ J. apply in_map_iff in In_ as (y & <- & Iy). specialize (Nw y Iy). apply TreeFacts.unknown_name in Nw. apply Nw. unfold t0. rewrite map_map, map_id. exact J. }
    set (u1 := t0 ++ map f (ssections rels')) in *. set (w1 := t0 ++ map f (ssections rels)) in *. clearbody u1 w1.
    assert (S2 : exists u2, define_roots u1 false roots = (u2, []) /\ same_tab t2 u2).
    { destruct roots as [|y [|z l]]; cbn [define_roots] in *.
      - injection E2 as <-. eauto.
      - rewrite <- (same_lookup _ _ root_name S1). destruct (PipeModel.plookup w1 root_name) eqn:Q; [discriminate E2|]. injection E2 as <-. eexists. split; [reflexivity|]. apply same_add; assumption.
      - exfalso. destruct (PipeModel.plookup w1 root_name); destruct (define_roots _ _ l) in E2; discriminate E2. }
    destruct S2 as (u2 & -> & S2). pose proof (same_pipelines (map (map (fun n => (n, n))) pipes) t2 u2 S2) as S3. change (PipeModel.ptab) with (list (str * PipeModel.psym)) in *. rewrite E3 in S3.
    destruct (PipeModel.visitPipelines u2 _) as [[u3 f3]| |]; cbn [same_result obind fst snd] in *; try contradiction. destruct S3 as [S3 <-]. 
    assert (E4 : flat_map (fun s => match PipeModel.plookup u3 s with Some _ => [] | None => [EMissing s] end) (flat_map (fun s => flat_map tsubs (x_exprs s)) (ssections rels')) = []).
    { apply flat_nil. intros x I. rewrite <- (same_lookup _ _ x S3). apply (proj1 (flat_nil _ _) He4 x). apply in_flat_map in I as (s & Is & I). apply in_flat_map. exists s. split; [exact (Permutation_in _ (Permutation_sym Ps) Is)|exact I]. }
    eexists. split; [cbn [map app]; rewrite E4; reflexivity|]. constructor; cbn [r_tab r_rels r_roots]; auto.
  Qed.
End Read.

(** * Relations around and trees *)
Section Trees.
  Import TreeModel.
  Variables (rp rp' : read_plan) (rels rels' : list rnode) (Hp : Permutation rels rels') (ND : NoDup (map n_name rels)) (H : same_splan rp rp' rels rels').
  Variable One : forall r r' q, In r rels -> In r' rels -> In q (named_in r) -> In q (named_in r') -> r = r'.
  Lemma ssame_section n : find_section rp n = find_section rp' n.
  Proof.
    unfold find_section. rewrite (ss_rels _ _ _ _ H), (ss_rels' _ _ _ _ H). apply find_perm; [apply Permutation_map, Hp|]. intros x y I J Ex Ey. apply seq_eqb_eq in Ex, Ey.
    apply (unique_name x_name (ssections rels)); [|exact I|exact J|congruence]. unfold ssections. rewrite map_map. exact ND.
  Qed.
  Lemma ssame_data n : rel_data rp n = rel_data rp' n.
  Proof. unfold rel_data. rewrite (same_lookup _ _ n (ss_tab _ _ _ _ H)). reflexivity. Qed.
  Lemma last_parent n p l : forall acc, (forall s, In s l -> In n (SubModel.section_subs s) -> x_name s = p) -> acc = Some p \/ (exists s, In s l /\ In n (SubModel.section_subs s)) ->
    fold_left (fun acc s => if existsb (fun q => q =s n) (SubModel.section_subs s) then Some (x_name s) else acc) l acc = Some p.
  Proof.
    induction l as [|s l IH]; intros acc U Q; cbn [fold_left]; [destruct Q as [Q|(s & [] & _)]; exact Q|]. apply IH; [intros y I; apply U; right; exact I|].
    destruct (existsb (fun q => q =s n) (SubModel.section_subs s)) eqn:X.
    - left. f_equal. apply U; [left; reflexivity|]. apply existsb_exists in X as (q & I & E). apply seq_eqb_eq in E. subst. exact I.
    - destruct Q as [Q|(y & [<-|I] & J)]; [left; exact Q| |right; eauto]. exfalso. assert (X' : existsb (fun q => q =s n) (SubModel.section_subs s) = true) by (apply existsb_exists; exists n; split; [exact J|apply seq_eqb_refl]). congruence.
  Qed.
  Lemma no_parent n l : forall acc, (forall s, In s l -> ~ In n (SubModel.section_subs s)) -> fold_left (fun acc s => if existsb (fun q => q =s n) (SubModel.section_subs s) then Some (x_name s) else acc) l acc = acc.
  Proof.
    induction l as [|s l IH]; intros acc U; cbn [fold_left]; [reflexivity|]. rewrite IH by (intros y I; apply U; right; exact I). destruct (existsb (fun q => q =s n) (SubModel.section_subs s)) eqn:X; [|reflexivity].
    exfalso. apply existsb_exists in X as (q & I & E). apply seq_eqb_eq in E. subst. exact (U s (or_introl eq_refl) I).
  Qed.
  Lemma ssame_parent n : SubModel.parent_of rp n = SubModel.parent_of rp' n.
  Proof.
    unfold SubModel.parent_of. rewrite (ss_rels _ _ _ _ H), (ss_rels' _ _ _ _ H). assert (Ps : Permutation (ssections rels) (ssections rels')) by (apply Permutation_map, Hp).
    destruct (existsb (fun s => existsb (fun q => q =s n) (SubModel.section_subs s)) (ssections rels)) eqn:X.
    - apply existsb_exists in X as (s & Is & X). apply existsb_exists in X as (q & I & E). apply seq_eqb_eq in E. subst q.
      assert (U : forall y, In y (ssections rels) -> In n (SubModel.section_subs y) -> x_name y = x_name s).
      { intros y Iy J. apply in_map_iff in Is as (r & <- & Ir). apply in_map_iff in Iy as (r' & <- & Ir'). unfold SubModel.section_subs in I, J. cbn [x_exprs x_name] in *. rewrite SubPlanFacts.named_node in I, J. f_equal. exact (One r' r n Ir' Ir J I). }
      rewrite !(last_parent n (x_name s)); [reflexivity| |right; exists s; split; [exact (Permutation_in _ Ps Is)|exact I]|exact U|right; eauto]. intros y Iy. apply U. exact (Permutation_in _ (Permutation_sym Ps) Iy).
    - assert (U : forall y, In y (ssections rels) -> ~ In n (SubModel.section_subs y)).
      { intros y Iy J. assert (X' : existsb (fun s => existsb (fun q => q =s n) (SubModel.section_subs s)) (ssections rels) = true) by (apply existsb_exists; exists y; split; [exact Iy|apply existsb_exists; exists n; split; [exact J|apply seq_eqb_refl]]). congruence. }
      rewrite !no_parent; [reflexivity| |exact U]. intros y Iy. apply U. exact (Permutation_in _ (Permutation_sym Ps) Iy).
  Qed.
  Lemma ssame_enclosing fuel : forall n, SubModel.enclosing rp fuel n = SubModel.enclosing rp' fuel n.
  Proof. induction fuel as [|fuel IH]; intros n; cbn [SubModel.enclosing]; rewrite ssame_parent, ssame_data; [reflexivity|]. destruct (SubModel.parent_of rp' n); [reflexivity|]. destruct (PipeModel.start _); [apply IH|reflexivity]. Qed.
  Lemma ssame_outward bound fuel : forall n, SubModel.outward rp bound fuel n = SubModel.outward rp' bound fuel n.
  Proof. induction fuel as [|fuel IH]; intros n; cbn [SubModel.outward]; rewrite ssame_enclosing; [reflexivity|]. destruct (SubModel.enclosing rp' bound n); [rewrite IH|..]; reflexivity. Qed.
  Lemma ssame_around n : SubModel.around rp n = SubModel.around rp' n.
  Proof. unfold SubModel.around. rewrite (Permutation_length (proj1 (ss_tab _ _ _ _ H))). apply ssame_outward. Qed.
  Lemma ssame_alone n : SubModel.alone rp n = SubModel.alone rp' n. Proof. unfold SubModel.alone. rewrite ssame_section. reflexivity. Qed.
  Lemma ssame_recorded n : SubModel.recorded_subs rp n = SubModel.recorded_subs rp' n. Proof. unfold SubModel.recorded_subs. rewrite ssame_section. reflexivity. Qed.
  Lemma same_seen n : SubModel.seen_subs rels n = SubModel.seen_subs rels' n.
  Proof.
    unfold SubModel.seen_subs. rewrite (find_perm _ _ _ Hp); [reflexivity|]. intros x y I J Ex Ey. apply seq_eqb_eq in Ex, Ey. apply (unique_name n_name rels); [exact ND|exact I|exact J|congruence].
  Qed.
  Lemma ssame_build fuel : forall n, SubModel.sbuild rp (SubModel.seen_subs rels) fuel n = SubModel.sbuild rp' (SubModel.seen_subs rels') fuel n.
  Proof.
    induction fuel as [|fuel IH]; intros n; [reflexivity|]. cbn [SubModel.sbuild]. rewrite <- ssame_section, <- ssame_data, <- ssame_alone, <- same_seen. destruct (find_section rp n) as [s|]; [|reflexivity]. cbv zeta.
    assert (Eo : forall l, omap_list (fun q => r <- SubModel.sbuild rp (SubModel.seen_subs rels) fuel q ;; Ok (q, r)) l = omap_list (fun q => r <- SubModel.sbuild rp' (SubModel.seen_subs rels') fuel q ;; Ok (q, r)) l) by (intros l; apply omap_ext; intros q; rewrite IH; reflexivity).
    rewrite Eo, (omap_ext _ _ _ IH). destruct (x_kind s); try reflexivity.
    all: try (destruct (getNextSinglePipeline (rel_data rp n)); [|reflexivity]; rewrite IH; reflexivity).
    all: destruct (PipeModel.news (rel_data rp n)) as [|x [|y [|z l]]]; try reflexivity; rewrite !IH; reflexivity.
  Qed.
  Lemma ssame_starts : Permutation (starts rp) (starts rp').
  Proof.
    unfold starts, parents. rewrite (ss_rels _ _ _ _ H), (ss_rels' _ _ _ _ H).
    assert (E : forall n, existsb (fun q => q =s n) (flat_map (fun s => flat_map tsubs (x_exprs s)) (ssections rels)) = existsb (fun q => q =s n) (flat_map (fun s => flat_map tsubs (x_exprs s)) (ssections rels'))).
    { intros n. assert (P : Permutation (flat_map (fun s => flat_map tsubs (x_exprs s)) (ssections rels)) (flat_map (fun s => flat_map tsubs (x_exprs s)) (ssections rels'))) by (apply Permutation_flat_map, Permutation_map, Hp).
      apply Bool.eq_iff_eq_true. rewrite !existsb_exists. split; intros (q & I & Q); exists q; (split; [|exact Q]); [exact (Permutation_in _ P I)|exact (Permutation_in _ (Permutation_sym P) I)]. }
    etransitivity; [|apply Permutation_flat_map, (proj1 (ss_tab _ _ _ _ H))]. apply Permutation_refl'. apply flat_map_ext. intros [n [d|]]; [rewrite E|]; reflexivity.
  Qed.
  Lemma ssame_output l : SubModel.soutput rp (SubModel.seen_subs rels) (Datatypes.S (length rels)) = Ok l -> exists l', SubModel.soutput rp' (SubModel.seen_subs rels') (Datatypes.S (length rels')) = Ok l' /\ Permutation l l'.
  Proof.
    unfold SubModel.soutput. rewrite <- (Permutation_length Hp), <- (ss_roots _ _ _ _ H). intros E. destruct (omap_perm _ _ _ ssame_starts l E) as (l' & E' & P). exists l'. split; [|exact P]. rewrite <- E'. apply omap_ext.
    intros [n d]. cbn [fst snd]. destruct (PipeModel.news d); [rewrite ssame_alone; reflexivity|]. rewrite ssame_build. reflexivity.
  Qed.
End Trees.

(** * Visits *)
Section Nodes.
  Variables (ff : str -> option N) (tab : table) (S : TreeModel.read_plan) (first : bool).
  Definition keep (e : werr) : bool := if first then reported_first e else true.
  Definition scopes (known : list known_rel) (n : str) : list FieldModel.scope := if first then [] else map (SubModel.scope_at known n) (fst (SubModel.around S n)).
  Definition needs (n : str) : list str := inputs_of S n ++ if first then [] else fst (SubModel.around S n).
  Definition sholds (known : list known_rel) (n : rnode) : Prop := exists x e b0, find_rel (n_name n) known = Some x /\ empty_body (n_kind n) = Some b0 /\
    filter keep (map WRelation e ++ map WColumnMissing (FieldModel.d_missing (snd x))) = [] /\ existsb SubModel.lost e && negb (SubModel.gives_up S first (n_name n)) = false /\
    SubModel.visitColumns ff (find_relation S) (known_symbol tab) (schema_list tab) (WholeModel.is_aggregate b0) (fields_of S known (n_name n)) (scopes known (n_name n)) (SubModel.is_inner S first (n_name n)) (given_of b0 n) (schema_of tab n) b0 (n_details n) = Ok (x, e).
  Definition sin_order (names : list str) (l : list rnode) : Prop := forall before n after, l = before ++ n :: after -> incl (needs (n_name n)) (names ++ map n_name before).
  Lemma scope_more k more n p : In p (map fst k) -> SubModel.scope_at (k ++ more) n p = SubModel.scope_at k n p.
  Proof. intros I. unfold SubModel.scope_at. apply find_rel_some in I as (x & E). rewrite find_rel_app, E. reflexivity. Qed.
  Lemma scopes_more n k more : incl (needs n) (map fst k) -> scopes (k ++ more) n = scopes k n.
  Proof.
    unfold needs, scopes. destruct first; [reflexivity|]. intros I. apply map_ext_in. intros p J. apply scope_more, I, in_or_app. right. exact J.
  Qed.
  Lemma fields_need n k more : incl (needs n) (map fst k) -> fields_of S (k ++ more) n = fields_of S k n.
  Proof. intros I. apply fields_more. intros x J. apply I, in_or_app. left. exact J. Qed.
  Lemma scopes_same earlier known n : SubModel.scopes_around S earlier first known n = scopes (known ++ earlier) n. Proof. reflexivity. Qed.
  Lemma svisit_holds earlier l : (forall n, In n l -> named_node n /\ find_relation S (n_name n) = Some true) ->
    forall t (known known' : list known_rel) es, NoDup (map fst known ++ map n_name l) -> sin_order (map fst known) l -> SubModel.visit_nodes ff tab S earlier first t known l = Ok (known', es) -> filter keep es = [] ->
    (exists more, known' = known ++ more) /\ map fst known' = map fst known ++ map n_name l /\ forall n, In n l -> sholds known' n.
  Proof.
    induction l as [|n l IH]; intros Hn t known known' es ND O H He; cbn [SubModel.visit_nodes] in H.
    - injection H as <- _. split; [exists []; rewrite app_nil_r; reflexivity|]. rewrite app_nil_r. split; [reflexivity|intros n []].
    - destruct (Hn n (or_introl eq_refl)) as [Nm Fr]. assert (Nn : find_rel (n_name n) known = None).
      { destruct (find_rel (n_name n) known) as [y|] eqn:E; [|reflexivity]. exfalso. cbn [map] in ND. apply NoDup_remove_2 in ND. apply ND, in_or_app. left. apply find_rel_some. eauto. }
      unfold SubModel.visit_node in H. unfold taken in H. rewrite Nn, Fr in H. destruct (empty_body (n_kind n)) as [b0|] eqn:B.
      2: { cbn [obind] in H. destruct (SubModel.visit_nodes ff tab S earlier first t known l) as [[k e]| |]; cbn [obind fst snd app] in H; try discriminate H. injection H as _ <-. unfold keep in He. destruct first; discriminate He. }
      assert (G : match b0 with BProject _ => given_names t (n_details n) | _ => (t, []) end = (t, given_of b0 n)) by (destruct b0; try reflexivity; apply given_named; exact (Nm (project_kind _ _ B))). rewrite G in H. clear G.
      destruct (SubModel.visitColumns _ _ _ _ _ _ _ _ _ _) as [[x e]| |] eqn:V; cbn [obind fst snd] in H; try discriminate H.
      destruct (existsb SubModel.lost e && negb (SubModel.gives_up S first (n_name n))) eqn:L; [discriminate H|]. cbn [obind] in H.
      destruct (SubModel.visit_nodes ff tab S earlier first t (known ++ [(n_name n, x)]) l) as [[k e']| |] eqn:E; cbn [obind fst snd] in H; try discriminate H. injection H as <- <-. rewrite filter_app in He. apply app_eq_nil in He as [He He'].
      destruct (IH (fun m I => Hn m (or_intror I)) t (known ++ [(n_name n, x)]) k e') as ((more & Em) & I1 & I2); [| |exact E|exact He'|].
      { rewrite map_app. cbn [map fst]. rewrite <- app_assoc. exact ND. }
      { intros before m after Q. rewrite map_app. cbn [map fst]. rewrite <- app_assoc. cbn [app]. apply (O (n :: before) m after). rewrite Q. reflexivity. }
      split; [exists ((n_name n, x) :: more); rewrite Em, <- app_assoc; reflexivity|]. split; [rewrite I1, map_app, <- app_assoc; reflexivity|]. intros m [<-|I]; [|exact (I2 m I)].
      exists x, e, b0. split; [rewrite Em, !find_rel_app, Nn; cbn; rewrite seq_eqb_refl; reflexivity|]. split; [exact B|]. split; [exact He|]. split; [exact L|]. specialize (O [] n l eq_refl). cbn [map] in O. rewrite app_nil_r in O.
      rewrite scopes_same, scopes_more, fields_need in V by exact O. rewrite Em, <- app_assoc, scopes_more, fields_need by exact O. exact V.
  Qed.
  Variable known : list known_rel.
  Notation entry := (entry known).
  Lemma sentries_names l : (forall n, In n l -> sholds known n) -> map fst (flat_map entry l) = map n_name l.
  Proof. induction l as [|n l IH]; intros H; [reflexivity|]. destruct (H n (or_introl eq_refl)) as (x & e & b0 & F & _). cbn [flat_map map]. unfold RelOrderFacts.entry at 1. rewrite F. cbn [app map fst]. rewrite IH by (intros m I; exact (H m (or_intror I))). reflexivity. Qed.
  Lemma sentry_find l i : (forall n, In n l -> sholds known n) -> In i (map n_name l) -> find_rel i (flat_map entry l) = find_rel i known.
  Proof.
    induction l as [|n l IH]; intros H I; [destruct I|]. destruct (H n (or_introl eq_refl)) as (x & e & b0 & F & _). cbn [flat_map]. unfold RelOrderFacts.entry at 1. rewrite F. cbn [app find_rel]. destruct (seq_eqb_spec (n_name n) i) as [<-|N]; [symmetry; exact F|].
    apply IH; [intros m J; exact (H m (or_intror J))|]. destruct I; [contradiction|assumption].
  Qed.
  Lemma svisit_again earlier l : forall before t, (forall n, In n (before ++ l) -> named_node n /\ find_relation S (n_name n) = Some true /\ sholds known n) -> NoDup (map n_name (before ++ l)) -> sin_order [] (before ++ l) ->
    exists es, SubModel.visit_nodes ff tab S earlier first t (flat_map entry before) l = Ok (flat_map entry (before ++ l), es) /\ filter keep es = [].
  Proof.
    induction l as [|n l IH]; intros before t Hn ND O; cbn [SubModel.visit_nodes]; [rewrite app_nil_r; eexists; split; reflexivity|]. assert (Hb : forall m, In m before -> sholds known m) by (intros m I; apply Hn, in_or_app; left; exact I).
    destruct (Hn n) as (Nm & Fr & (x & e & b0 & F & B & M & L & V)); [apply in_elt|]. assert (Nn : find_rel (n_name n) (flat_map entry before) = None).
    { destruct (find_rel (n_name n) (flat_map entry before)) as [y|] eqn:E; [|reflexivity]. exfalso. assert (I : In (n_name n) (map fst (flat_map entry before))) by (apply find_rel_some; eauto). rewrite sentries_names in I by exact Hb.
      rewrite map_app in ND. cbn [map] in ND. apply NoDup_remove_2 in ND. apply ND, in_or_app. left. exact I. }
    unfold SubModel.visit_node, taken. rewrite Nn, Fr, B.
    assert (G : match b0 with BProject _ => given_names t (n_details n) | _ => (t, []) end = (t, given_of b0 n)) by (destruct b0; try reflexivity; apply given_named; exact (Nm (project_kind _ _ B))). rewrite G. clear G.
    specialize (O before n l eq_refl) as On. cbn [app] in On. assert (On' : incl (needs (n_name n)) (map fst (flat_map entry before))) by (rewrite sentries_names by exact Hb; exact On).
    assert (Fd : fields_of S (flat_map entry before ++ earlier) (n_name n) = fields_of S known (n_name n)).
    { rewrite fields_need by exact On'. assert (Oi : incl (inputs_of S (n_name n)) (map n_name before)) by (intros y J; apply On, in_or_app; left; exact J). unfold fields_of. clear V. induction (inputs_of S (n_name n)) as [|i q IHq]; [reflexivity|]. cbn [flat_map].
      rewrite IHq by (intros j J; apply Oi; right; exact J). rewrite (sentry_find before i Hb (Oi i (or_introl eq_refl))). reflexivity. }
    assert (Sc : scopes (flat_map entry before ++ earlier) (n_name n) = scopes known (n_name n)).
    { rewrite scopes_more by exact On'. unfold scopes, needs in *. destruct first; [reflexivity|]. apply map_ext_in. intros p J. unfold SubModel.scope_at. rewrite (sentry_find before p Hb); [reflexivity|]. apply On, in_or_app. right. exact J. }
    rewrite scopes_same, Fd, Sc. change (flat_map (schema_columns tab) (used_schemas (n_details n))) with (schema_of tab n). rewrite V. cbn [obind fst snd]. rewrite L. cbn [obind].
    specialize (IH (before ++ [n]) t). rewrite <- app_assoc in IH. cbn [app] in IH. specialize (IH Hn ND O). rewrite flat_map_app in IH. cbn [flat_map] in IH. unfold RelOrderFacts.entry at 2 in IH. rewrite F in IH. cbn [app] in IH.
    destruct IH as (es & IH & Hes). match goal with |- exists _, obind ?a _ = _ /\ _ => match type of IH with _ = ?r => change (a = r) in IH; rewrite IH end end. cbn [obind fst snd]. eexists. split; [reflexivity|]. rewrite filter_app, M. exact Hes.
  Qed.
End Nodes.
Lemma keep_all es : filter (keep false) es = [] -> es = [].
Proof. destruct es; [reflexivity|]. discriminate. Qed.
Section Fill.
  Variables (tab : table) (known known' : list known_rel) (Hk : forall n, find_rel n known = find_rel n known') (rec rec' : str -> list str) (Hr : forall n, rec n = rec' n).
  Lemma sfill_same t : SubModel.sfill tab known rec t = SubModel.sfill tab known' rec' t.
  Proof.
    revert t. fix IH 1. intros [n ins sub]. cbn [SubModel.sfill].
    match goal with |- (x <- ?a ins ;; _) = (y <- ?b ins ;; _) => assert (E : a ins = b ins) by (induction ins as [|i ins IHl]; [reflexivity|]; cbn; rewrite IH, IHl; reflexivity); rewrite E end. clear E.
    match goal with |- (x <- ?a ;; _) = _ => destruct a; cbn [obind]; try reflexivity end.
    match goal with |- (x <- ?a sub ;; _) = (y <- ?b sub ;; _) => assert (E : a sub = b sub) by (induction sub as [|[k i] sub IHl]; [reflexivity|]; cbn; rewrite IH, IHl; reflexivity); rewrite E end. clear E.
    match goal with |- (x <- ?a ;; _) = _ => destruct a; cbn [obind]; try reflexivity end. rewrite Hk, Hr. reflexivity.
  Qed.
  Definition sfill_one (p : SubModel.srel * list str) : outcome (SubModel.qtree * option (list str)) := x <- SubModel.sfill tab known rec (fst p) ;; Ok (x, Some (snd p)).
  Lemma sfill_omap l : SubModel.sfill_all tab known rec l = TreeModel.omap_list sfill_one l.
  Proof. induction l as [|[t ns] l IH]; [reflexivity|]. cbn [SubModel.sfill_all TreeModel.omap_list]. unfold sfill_one at 1. cbn [fst snd]. rewrite IH. destruct (SubModel.sfill tab known rec t); reflexivity. Qed.
  Lemma sfill_all_same l : SubModel.sfill_all tab known rec l = SubModel.sfill_all tab known' rec' l.
  Proof. induction l as [|[t ns] l IH]; [reflexivity|]. cbn [SubModel.sfill_all]. rewrite sfill_same, IH. reflexivity. Qed.
End Fill.
(** what pipelines leave: the inputs of each relation, as the arrows say *)
Lemma sread_inputs pipes rels roots others rp : TreeModel.readText (stext pipes rels roots others) = Ok (rp, []) ->
  (forall x, In x (concat pipes) -> In x (map n_name rels) \/ x = $"root" /\ roots <> []) ->
  NoDup (map n_name rels) /\ (forall n, inputs_of rp n = some_list (hd_error (PipeFacts.into false n pipes)) ++ PipeFacts.into true n pipes) /\ (forall n, In n rels -> find_relation rp (n_name n) = Some true).
Proof.
  intros Er O3. unfold TreeModel.readText in Er. cbn [stext TreeModel.x_others TreeModel.x_rels TreeModel.x_roots TreeModel.x_pipes] in Er. cbv zeta in Er.
  match type of Er with context [TreeModel.define_rels ?x (ssections rels)] => set (t0 := x) in Er end.
  destruct (TreeModel.define_rels t0 (ssections rels)) as [t1 e1] eqn:E1. destruct (TreeModel.define_roots t1 false roots) as [t2 e2] eqn:E2. change (map (map (fun n => (n, n))) pipes) with (map PipeFacts.plain pipes) in Er.
  destruct (PipeModel.visitPipelines t2 (map PipeFacts.plain pipes)) as [[t3 e3]| |] eqn:E3; cbn [obind fst snd] in Er; try discriminate Er. injection Er as Erp Ee. apply app_eq_nil in Ee as [-> Ee]. apply app_eq_nil in Ee as [-> Ee]. apply app_eq_nil in Ee as [Ee _]. apply map_eq_nil in Ee. subst e3.
  apply define_clean in E1 as (T1 & ND & Nw). assert (Sn : map TreeModel.x_name (ssections rels) = map n_name rels) by (unfold ssections; rewrite map_map; reflexivity). rewrite Sn in ND.
  assert (T1' : t1 = t0 ++ map (fun n => (n, PipeModel.PRel PipeModel.no_data)) (map n_name rels)) by (rewrite T1, <- Sn, map_map; reflexivity). clear T1.
  assert (Nt0 : forall n, In n (map n_name rels) -> PipeModel.plookup t0 n = None) by (intros n In_; rewrite <- Sn in In_; apply in_map_iff in In_ as (y & <- & Iy); exact (Nw y Iy)).
  assert (L1 : forall n, In n (map n_name rels) -> PipeModel.plookup t1 n = Some (PipeModel.PRel PipeModel.no_data)) by (intros n In_; rewrite T1', PipeFacts.plookup_app, (Nt0 n In_); apply lookup_rels, In_).
  assert (F1 : PipeFacts.fresh t1) by (rewrite T1'; apply fresh_app; [apply fresh_other|apply fresh_rels]).
  pose proof (roots_clean _ _ _ E2) as R. assert (F2 : PipeFacts.fresh t2) by (destruct R as [[_ ->]|[-> _]]; [exact F1|apply fresh_app; [exact F1|exact (fresh_rels [TreeModel.root_name])]]).
  assert (L2 : forall n, In n (map n_name rels) -> PipeModel.plookup t2 n = Some (PipeModel.PRel PipeModel.no_data)) by (intros n In_; destruct R as [[_ ->]|[-> _]]; [exact (L1 n In_)|rewrite PipeFacts.plookup_app, (L1 n In_); reflexivity]).
  assert (On : PipeFacts.only_relations t2 pipes).
  { intros n In_. destruct (O3 n In_) as [Q|[-> Q]]; [rewrite (L2 n Q); discriminate|]. destruct R as [[X _]|[-> X]]; [contradiction|]. rewrite PipeFacts.plookup_app. change $"root" with TreeModel.root_name. rewrite X. cbn. discriminate. }
  destruct (PipeFacts.read_pipelines t2 pipes F2 On) as (t3' & errs & E3' & _ & Rec & Rel & _). assert (Q3 : Ok (t3, []) = Ok (t3', errs)) by (transitivity (PipeModel.visitPipelines t2 (map PipeFacts.plain pipes)); [symmetry; exact E3|exact E3']). injection Q3 as <- <-. specialize (Rec eq_refl).
  split; [exact ND|]. split.
  - intros n. unfold inputs_of. assert (Dt : TreeModel.rel_data rp n = PipeFacts.data t3 n) by (rewrite <- Erp; reflexivity). rewrite Dt. destruct (Rec n) as (A1 & A2 & _). rewrite A1, A2. reflexivity.
  - intros n In_. unfold find_relation. rewrite <- Erp. cbn [TreeModel.r_tab]. assert (X : PipeModel.is_rel t3 (n_name n) = true) by (apply Rel; left; unfold PipeModel.is_rel; rewrite (L2 (n_name n) (in_map _ _ _ In_)); reflexivity).
    unfold PipeModel.is_rel in X. destruct (PipeModel.plookup t3 (n_name n)) as [[]|]; try discriminate X. reflexivity.
Qed.

Lemma order_around nodes tab rp : TreeModel.readText (SubModel.text_of nodes tab) = Ok (rp, []) -> outer_first nodes ->
  forall bound fuel before n after, relations_of nodes = before ++ n :: after -> incl (fst (SubModel.outward rp bound fuel (n_name n))) (map n_name before).
Proof.
  intros Er O bound. induction fuel as [|fuel IH]; intros before n after E o I; cbn [SubModel.outward] in I; destruct (SubModel.enclosing rp bound (n_name n)) as [p| |] eqn:Q; try (destruct I; fail).
  pose proof (O before n after p E (enclosing_around _ _ _ Er _ _ _ Q)) as J. apply in_map_iff in J as (m & <- & J). destruct (SubModel.outward rp bound fuel (n_name m)) as [l g] eqn:W. cbn [fst] in I. destruct I as [<-|I]; [apply in_map, J|].
  apply in_split in J as (b1 & b2 & ->). rewrite <- app_assoc in E. cbn [app] in E. specialize (IH b1 m _ E o). rewrite W in IH. rewrite map_app. apply in_or_app. left. apply IH. exact I.
Qed.
Lemma order_needs nodes tab rp first : TreeModel.readText (SubModel.text_of nodes tab) = Ok (rp, []) -> outer_first nodes -> inputs_first nodes ->
  (forall n, inputs_of rp n = some_list (hd_error (PipeFacts.into false n (arrows nodes))) ++ PipeFacts.into true n (arrows nodes)) -> sin_order rp first [] (relations_of nodes).
Proof.
  intros Er O Fi Inp before n after E x Ix. unfold needs in Ix. apply in_app_or in Ix as [Ix|Ix].
  - exact (order_inputs rp (arrows nodes) (relations_of nodes) Inp Fi before n after E x Ix).
  - destruct first; [destruct Ix|]. cbn [app]. exact (order_around nodes tab rp Er O _ _ before n after E x Ix).
Qed.
Lemma sfrom_parts_ok defs pipes rels roots b : from_parts defs pipes rels roots = Ok (Some b, []) -> exists tab rp first e3 known l,
  symbols defs = Ok (tab, []) /\ TreeModel.readText (stext (map (map fst) pipes) rels roots (nodup (list_eq_dec Ascii.ascii_dec) (map s_name tab))) = Ok (rp, []) /\
  SubModel.visit_nodes (DeclModel.resolve_function (entries 0 0 defs)) tab rp [] true SymbolModel.empty_table [] rels = Ok (first, e3) /\ filter reported_first e3 = [] /\
  SubModel.visit_nodes (DeclModel.resolve_function (entries 0 0 defs)) tab rp first false SymbolModel.empty_table [] rels = Ok (known, []) /\
  SubModel.soutput rp (SubModel.seen_subs rels) (Datatypes.S (length rels)) = Ok l /\ SubModel.sfill_all tab known (SubModel.recorded_subs rp) l = Ok (SubModel.q_rels b) /\
  b = SubModel.QPlan (DeclModel.outputExtensionSpaces (entries 0 0 defs)) (DeclModel.outputFunctions (entries 0 0 defs)) (SubModel.q_rels b).
Proof.
  unfold from_parts. destruct (symbols defs) as [[tab e1]| |] eqn:E1; cbn [obind]; try discriminate. fold (ssections rels).
  change {| TreeModel.x_pipes := map (map fst) pipes; TreeModel.x_rels := ssections rels; TreeModel.x_roots := roots; TreeModel.x_others := nodup (list_eq_dec Ascii.ascii_dec) (map s_name tab) |}
    with (stext (map (map fst) pipes) rels roots (nodup (list_eq_dec Ascii.ascii_dec) (map s_name tab))).
  destruct (TreeModel.readText _) as [[rp e2]| |] eqn:E2; cbn [obind]; try discriminate. cbv zeta.
  destruct (SubModel.visit_nodes _ _ _ [] _ _ _) as [[first e3]| |] eqn:E3; cbn [obind]; try discriminate. destruct (map WPass e1 ++ map WTree e2 ++ filter reported_first e3) eqn:E; [|discriminate].
  apply app_eq_nil in E as [Ea E]. apply app_eq_nil in E as [Eb Ec]. apply map_eq_nil in Ea, Eb. subst e1 e2.
  destruct (SubModel.visit_nodes _ _ _ first _ _ _) as [[known e4]| |] eqn:E4; cbn [obind]; try discriminate. destruct (SubModel.soutput _ _ _) as [l| |] eqn:El; cbn [obind]; try discriminate.
  destruct (SubModel.sfill_all tab known _ l) as [r| |] eqn:Ef; cbn [obind]; try discriminate. intros H. injection H as <- ->. exists tab, rp, first, e3, known, l. repeat split; assumption || reflexivity.
Qed.
Lemma srelations_nodes a c b : relations_moved a c -> inputs_first a -> inputs_first c -> outer_first a -> outer_first c -> one_place a -> known_names a -> named_expressions a ->
  from_nodes a = Ok (Some b, []) -> exists b', from_nodes c = Ok (Some b', []) /\ SubModel.q_uris b' = SubModel.q_uris b /\ SubModel.q_decls b' = SubModel.q_decls b /\ Permutation (SubModel.q_rels b) (SubModel.q_rels b').
Proof.
  intros (M1 & M2 & M3 & M4) Ia Ic Oa Oc One Kn Nm H. rewrite from_nodes_parts in H. rewrite from_nodes_parts, <- M1, <- M2, <- M4.
  destruct (sfrom_parts_ok _ _ _ _ _ H) as (tab & rp & first & e3 & known & l & E1 & E2 & E3 & E3k & E4 & E5 & E6 & Eb). set (defs := definitions a) in *. set (ff := DeclModel.resolve_function (entries 0 0 defs)) in *.
  destruct (sread_inputs _ _ _ _ _ E2 Kn) as (ND & Inp & Fr). destruct (same_sread _ _ (relations_of c) _ _ _ (NoDup_nodup _ _) M3 E2) as (rp' & E2' & SP).
  assert (Inp' : forall n, inputs_of rp' n = inputs_of rp n) by (intros n; unfold inputs_of; rewrite (ssame_data _ _ _ _ SP); reflexivity).
  assert (Fr' : forall n, find_relation rp n = find_relation rp' n) by (intros n; unfold find_relation; rewrite (same_lookup _ _ n (ss_tab _ _ _ _ SP)); reflexivity).
  assert (Er : TreeModel.readText (SubModel.text_of a tab) = Ok (rp, [])) by exact E2.
  assert (Er' : TreeModel.readText (SubModel.text_of c tab) = Ok (rp', [])) by (unfold SubModel.text_of; rewrite <- M2, <- M4; exact E2').
  assert (Na : forall n, In n (relations_of a) -> named_node n /\ find_relation rp (n_name n) = Some true) by (intros n I; exact (conj (fun K e => Nm n e I K) (Fr n I))).
  assert (ND' : NoDup (map n_name (relations_of c))) by exact (Permutation_NoDup (Permutation_map n_name M3) ND).
  assert (Ua : forall n, SubModel.around rp n = SubModel.around rp' n) by exact (ssame_around rp rp' _ _ M3 SP One).
  assert (Up : forall n, SubModel.parent_of rp n = SubModel.parent_of rp' n) by exact (ssame_parent rp rp' _ _ M3 SP One).
  assert (T : forall fst_ k, (forall n, In n (relations_of a) -> sholds ff tab rp fst_ k n) -> forall n, In n (relations_of c) -> named_node n /\ find_relation rp' (n_name n) = Some true /\ sholds ff tab rp' fst_ k n).
  { intros fst_ k Hh n I. pose proof (Permutation_in _ (Permutation_sym M3) I) as I'. split; [exact (proj1 (Na n I'))|]. split; [rewrite <- Fr'; exact (Fr n I')|]. destruct (Hh n I') as (x & e & b0 & F & B & M & L & V). exists x, e, b0. split; [exact F|]. split; [exact B|]. split; [exact M|].
    split; [unfold SubModel.gives_up in *; rewrite <- ?Up, <- ?Ua; exact L|].
    rewrite <- (scolumns_same ff ff (fun _ => eq_refl) (find_relation rp) (find_relation rp') Fr' (known_symbol tab) (known_symbol tab) (fun _ => eq_refl) (schema_list tab) (schema_list tab) (fun _ => eq_refl)).
    assert (Fd : fields_of rp' k (n_name n) = fields_of rp k (n_name n)) by (unfold fields_of; rewrite Inp'; reflexivity). rewrite Fd.
    assert (Sc : scopes rp' fst_ k (n_name n) = scopes rp fst_ k (n_name n)) by (unfold scopes; rewrite Ua; reflexivity). rewrite Sc. unfold SubModel.is_inner in *. rewrite <- Up. exact V. }
  assert (Oa' : forall fst_, sin_order rp fst_ [] (relations_of a)) by (intros f; exact (order_needs a tab rp f Er Oa Ia Inp)).
  assert (Oc' : forall fst_, sin_order rp' fst_ [] (relations_of c)).
  { intros f. apply (order_needs c tab rp' f Er' Oc Ic). intros n. rewrite Inp'. unfold arrows. rewrite <- M2. apply Inp. }
  destruct (svisit_holds ff tab rp true [] (relations_of a) Na SymbolModel.empty_table [] first e3 ND (Oa' true) E3 E3k) as (_ & _ & H1).
  destruct (svisit_holds ff tab rp false first (relations_of a) Na SymbolModel.empty_table [] known [] ND (Oa' false) E4 eq_refl) as (_ & Kf & H2). cbn [map app] in Kf.
  destruct (svisit_again ff tab rp' true first [] (relations_of c) [] SymbolModel.empty_table (T true first H1) ND' (Oc' true)) as (e3' & V1 & K1). cbn [flat_map app] in V1. set (first' := flat_map (entry first) (relations_of c)) in *.
  destruct (svisit_again ff tab rp' false known first' (relations_of c) [] SymbolModel.empty_table (T false known H2) ND' (Oc' false)) as (e4' & V2 & K2). cbn [flat_map app] in V2. apply keep_all in K2. subst e4'. set (known' := flat_map (entry known) (relations_of c)) in *.
  assert (Fk : forall n, find_rel n known = find_rel n known').
  { intros n. destruct (in_dec (list_eq_dec Ascii.ascii_dec) n (map n_name (relations_of c))) as [I|I]; [symmetry; apply (sentry_find ff tab rp' false); [exact (fun m J => proj2 (proj2 (T false known H2 m J)))|exact I]|].
    assert (X : forall k : list known_rel, ~ In n (map fst k) -> find_rel n k = None) by (intros k Nk; destruct (find_rel n k) as [y|] eqn:Q; [exfalso; apply Nk, find_rel_some; eauto|reflexivity]).
    rewrite !X; [reflexivity| |].
    - unfold known'. rewrite (sentries_names ff tab rp' false known (relations_of c) (fun m J => proj2 (proj2 (T false known H2 m J)))). exact I.
    - rewrite Kf. intros J. apply I. exact (Permutation_in _ (Permutation_map n_name M3) J). }
  destruct (ssame_output rp rp' _ _ M3 ND SP l E5) as (l' & E5' & Pl). rewrite (sfill_all_same tab known known' Fk _ (SubModel.recorded_subs rp') (ssame_recorded rp rp' _ _ M3 ND SP)), sfill_omap in E6. destruct (omap_perm _ _ _ Pl _ E6) as (r' & E6' & Pr). rewrite <- sfill_omap in E6'.
  unfold from_parts. rewrite E1. cbn [obind]. fold (ssections (relations_of c)).
  match goal with |- context [TreeModel.readText ?x] => change (TreeModel.readText x = Ok (rp', [])) in E2'; rewrite E2' end. cbn [obind]. cbv zeta. fold ff. rewrite V1. cbn [obind]. change (filter reported_first e3') with (filter (keep true) e3'). rewrite K1. cbn [map app]. rewrite V2. cbn [obind]. rewrite E5'. cbn [obind]. rewrite E6'. cbn [obind].
  eexists. split; [reflexivity|]. rewrite Eb. cbn [SubModel.q_uris SubModel.q_decls SubModel.q_rels]. split; [reflexivity|]. split; [reflexivity|exact Pr].
Qed.
Theorem subquery_relations s s' a c b : parse s = Some a -> parse s' = Some c -> relations_moved a c -> inputs_first a -> inputs_first c -> outer_first a -> outer_first c -> one_place a -> known_names a -> named_expressions a ->
  SubModel.from_text s = Ok (Some b, []) -> exists b', SubModel.from_text s' = Ok (Some b', []) /\ SubModel.q_uris b' = SubModel.q_uris b /\ SubModel.q_decls b' = SubModel.q_decls b /\ Permutation (SubModel.q_rels b) (SubModel.q_rels b').
Proof. intros Ha Hc M Ia Ic Oa Oc One Kn Nm H. rewrite from_text_nodes, Ha in H. rewrite from_text_nodes, Hc. exact (srelations_nodes a c b M Ia Ic Oa Oc One Kn Nm H). Qed.
Theorem subquery_any s s' a c b : parse s = Some a -> parse s' = Some c -> Permutation (definitions a) (definitions c) -> spaces_of a = spaces_of c -> pipelines_of a = pipelines_of c -> Permutation (relations_of a) (relations_of c) -> roots_of a = roots_of c ->
  distinct_names a -> inputs_first a -> inputs_first c -> outer_first a -> outer_first c -> one_place a -> known_names a -> named_expressions a -> SubModel.from_text s = Ok (Some b, []) ->
  exists b', SubModel.from_text s' = Ok (Some b', []) /\ SubModel.q_uris b' = SubModel.q_uris b /\ SubModel.q_decls b' = SubModel.q_decls b /\ Permutation (SubModel.q_rels b) (SubModel.q_rels b').
Proof.
  intros Ha Hc Pd Es Ep Pr Eo D Ia Ic Oa Oc One Kn Nm H. rewrite from_text_nodes, Ha in H. rewrite from_text_nodes, Hc. set (m := definitions c ++ others a).
  assert (F : Forall (fun n => is_definition n = true) (definitions c)) by (apply Forall_forall; intros n I; apply filter_In in I; apply I). destruct (moved_parts (definitions c) a F) as (M1 & M2 & M3 & M4). fold m in M1, M2, M3, M4.
  assert (Hm : from_nodes m = Ok (Some b, [])). { refine (sdefinitions_nodes a m b [] _ D H). split; [rewrite M1; exact Pd|]. split; [unfold m; rewrite spaces_others, spaces_definitions; exact Es|]. split; [symmetry; exact M2|]. split; symmetry; assumption. }
  refine (srelations_nodes m c b _ _ Ic _ Oc _ _ _ Hm).
  - split; [exact M1|]. split; [rewrite M2; exact Ep|]. split; [rewrite M3; exact Pr|rewrite M4; exact Eo].
  - unfold inputs_first, arrows. rewrite M2, M3. exact Ia.
  - unfold outer_first, inside, feeds, arrows. rewrite M2, M3. exact Oa.
  - unfold one_place. rewrite M3. exact One.
  - unfold known_names, arrows. rewrite M2, M3, M4. exact Kn.
  - unfold named_expressions. rewrite M3. exact Nm.
Qed.
