(** The order of the relation sections of a text. *)
From Verif Require Import Base BaseFacts StringsModel TypeModel LexModel ExprModel RelModel SectionModel WholeModel SoundFacts ExtFacts KindOrderFacts.
From Verif Require FieldModel DeclModel SymbolModel TreeModel TreeFacts PipeModel PipeFacts.
From Coq Require Import Lia Permutation.

(** * What is meant *)
(** Every relation comes after its inputs: the relations that the arrows of the pipelines lead from. *)
Definition inputs_first (l : list pnode) : Prop := forall before n after x, relations_of l = before ++ n :: after ->
  In x (PipeFacts.into true (n_name n) (arrows l)) \/ In x (PipeFacts.into false (n_name n) (arrows l)) -> In x (map n_name before).
(** Pipelines lead from relation to relation, or to the root. *)
Definition known_names (l : list pnode) : Prop := forall x, In x (concat (arrows l)) -> In x (map n_name (relations_of l)) \/ x = $"root" /\ roots_of l <> [].
(** The expressions of project relations have names. *)
Definition named_expressions (l : list pnode) : Prop := forall n e, In n (relations_of l) -> to_lower (n_kind n) = $"project" -> ~ In (OnExpression e None) (n_details n).
(** The same sections, with the relations in another order *)
Definition relations_moved (a b : list pnode) : Prop := definitions a = definitions b /\ pipelines_of a = pipelines_of b /\ Permutation (relations_of a) (relations_of b) /\ roots_of a = roots_of b.

(** * Pipelines *)
Lemma differ (a b : str) : a <> b -> (a =s b) = false. Proof. apply seq_eqb_neq. Qed.
Section Tables.
  Import PipeModel.
  Definition same_tab (t u : ptab) : Prop := Permutation t u /\ NoDup (map fst t).
  Lemma lookup_none (t : ptab) n : ~ In n (map fst t) -> plookup t n = None.
  Proof. induction t as [|[m s] t IH]; [reflexivity|]. cbn. intros H. rewrite differ by tauto. apply IH. tauto. Qed.
  Lemma lookup_in t n s : NoDup (map fst t) -> In (n, s) t -> plookup t n = Some s.
  Proof.
    induction t as [|[m x] t IH]; intros N I; [destruct I|]. cbn in *. inversion N; subst. destruct I as [I|I]; [injection I as -> ->; rewrite seq_eqb_refl; reflexivity|].
    rewrite differ; [apply IH; assumption|]. intros ->. apply H1. exact (in_map fst _ _ I).
  Qed.
  Lemma in_lookup t n s : plookup t n = Some s -> In (n, s) t.
  Proof. induction t as [|[m x] t IH]; [discriminate|]. cbn. destruct (seq_eqb_spec m n) as [->|N]; [intros H; injection H as ->; left; reflexivity|]. intros H. right. exact (IH H). Qed.
  Lemma same_lookup t u n : same_tab t u -> plookup t n = plookup u n.
  Proof.
    intros [P N]. destruct (plookup t n) as [s|] eqn:E.
    - symmetry. apply lookup_in; [exact (Permutation_NoDup (Permutation_map fst P) N)|]. exact (Permutation_in _ P (in_lookup _ _ _ E)).
    - destruct (plookup u n) as [s|] eqn:F; [|reflexivity]. rewrite (lookup_in t n s N) in E; [discriminate E|]. exact (Permutation_in _ (Permutation_sym P) (in_lookup _ _ _ F)).
  Qed.
  Definition put (n : str) (d : rdata) (e : str * psym) : str * psym := if fst e =s n then (fst e, PRel d) else e.
  Lemma update_map t n d : NoDup (map fst t) -> pupdate t n d = map (put n d) t.
  Proof.
    induction t as [|[m s] t IH]; intros N; [reflexivity|]. cbn in *. inversion N; subst. unfold put at 1. cbn [fst]. destruct (seq_eqb_spec m n) as [->|Q]; [|rewrite IH by assumption; reflexivity]. f_equal.
    clear IH N H2. induction t as [|[m x] t IH]; [reflexivity|]. cbn in *. unfold put at 1. cbn [fst]. rewrite differ by (intros ->; tauto). f_equal. apply IH. tauto.
  Qed.
  Lemma put_fst n d t : map fst (map (put n d) t) = map fst t.
  Proof. rewrite map_map. apply map_ext. intros e. unfold put. destruct (fst e =s n); reflexivity. Qed.
  Lemma same_update t u n d : same_tab t u -> same_tab (pupdate t n d) (pupdate u n d).
  Proof.
    intros [P N]. rewrite !update_map by (assumption || exact (Permutation_NoDup (Permutation_map fst P) N)). split; [apply Permutation_map, P|]. rewrite put_fst. exact N.
  Qed.
  Lemma same_add t u n s : same_tab t u -> plookup t n = None -> same_tab (t ++ [(n, s)]) (u ++ [(n, s)]).
  Proof.
    intros [P N] E. split; [apply Permutation_app_tail, P|]. rewrite map_app. cbn [map fst]. apply (Permutation_NoDup (Permutation_cons_append _ _)). constructor; [|exact N].
    intros I. apply in_map_iff in I as ([m x] & Q & I). cbn in Q. subst m. rewrite (lookup_in _ _ _ N I) in E. discriminate E.
  Qed.
  Lemma same_symbol t u n : same_tab t u -> same_tab (updateRelationSymbol t n) (updateRelationSymbol u n).
  Proof. intros H. unfold updateRelationSymbol. rewrite <- (same_lookup t u n H). destruct (plookup t n) eqn:E; [exact H|]. apply same_add; assumption. Qed.
  Lemma same_rel t u n : same_tab t u -> is_rel t n = is_rel u n.
  Proof. intros H. unfold is_rel. rewrite (same_lookup t u n H). reflexivity. Qed.
  Definition same_result (x y : outcome (ptab * list perr)) : Prop :=
    match x, y with Ok (t, e), Ok (u, f) => same_tab t u /\ e = f | Throw a, Throw b => a = b | UB, UB => True | _, _ => False end.
  Lemma same_connect t u rights n d left : same_tab t u -> same_result (connect t rights n d left) (connect u rights n d left).
  Proof.
    intros H. unfold connect. destruct (cont d); [split; auto|]. destruct rights as [|r rights]; cbv zeta.
    - destruct left as [l|]; [|split; auto]. rewrite <- (same_rel t u l H). destruct (is_rel t l); cbn [negb]; [|exact I]. split; [apply same_update, H|reflexivity].
    - rewrite <- (same_rel t u (fst r) H). destruct (is_rel t (fst r)); cbn [negb]; [|exact I]. destruct (continuingPipelineContains _ _); [split; auto|]. rewrite <- (same_lookup t u (fst r) H).
      destruct left as [l|]; [rewrite <- (same_rel t u l H); destruct (is_rel t l); cbn [negb]; [|exact I]|]; (split; [apply same_update, H|reflexivity]).
  Qed.
  Lemma same_pipeline p : forall t u rights, same_tab t u -> same_result (visitPipeline t rights p) (visitPipeline u rights p).
  Proof.
    induction p as [|e p IH]; intros t u rights H; [split; auto|]. cbn [visitPipeline]. specialize (IH _ _ (e :: rights) (same_symbol t u (fst e) H)).
    destruct (visitPipeline (updateRelationSymbol t (fst e)) (e :: rights) p) as [[t2 e2]| |], (visitPipeline (updateRelationSymbol u (fst e)) (e :: rights) p) as [[u2 f2]| |]; cbn [same_result obind] in *; try contradiction; try assumption.
    destruct IH as [H2 <-]. rewrite <- (same_lookup _ _ (fst e) H2). destruct (plookup t2 (fst e)) as [[d|]|]; [|split; auto..].
    pose proof (same_connect t2 u2 rights (fst e) d (match p with [] => None | l :: _ => Some (fst l) end) H2) as C.
    destruct (connect t2 rights (fst e) d _) as [[t3 e3]| |], (connect u2 rights (fst e) d _) as [[u3 f3]| |]; cbn [same_result obind fst snd] in *; try contradiction; try assumption. destruct C as [C <-]. split; [exact C|reflexivity].
  Qed.
  Lemma same_pipelines ps : forall t u, same_tab t u -> same_result (visitPipelines t ps) (visitPipelines u ps).
  Proof.
    induction ps as [|p ps IH]; intros t u H; [split; auto|]. cbn [visitPipelines]. pose proof (same_pipeline (rev p) t u [] H) as C.
    destruct (visitPipeline t [] (rev p)) as [[t2 e2]| |], (visitPipeline u [] (rev p)) as [[u2 f2]| |]; cbn [same_result obind fst snd] in *; try contradiction; try assumption. destruct C as [C <-].
    specialize (IH t2 u2 C). destruct (visitPipelines t2 ps) as [[t3 e3]| |], (visitPipelines u2 ps) as [[u3 f3]| |]; cbn [same_result obind fst snd] in *; try contradiction; try assumption. destruct IH as [C' <-]. split; [exact C'|reflexivity].
  Qed.
End Tables.

(** * Symbols of relations *)
Section Read.
  Import TreeModel.
  Definition sections (l : list rnode) : list section := map (fun n => {| x_name := n_name n; x_kind := kind_read (n_kind n); x_body := n_name n; x_exprs := [] |}) l.
  Definition the_text (pipes : list (list str)) (rels : list rnode) (roots : list (list str)) (others : list str) : text := {| x_pipes := pipes; x_rels := sections rels; x_roots := roots; x_others := others |}.
  Lemma define_all_clean rs : forall t, NoDup (map x_name rs) -> (forall r, In r rs -> PipeModel.plookup t (x_name r) = None) ->
    define_rels t rs = (t ++ map (fun r => (x_name r, PipeModel.PRel PipeModel.no_data)) rs, []).
  Proof.
    induction rs as [|r rs IH]; intros t N H; cbn [define_rels map]; [rewrite app_nil_r; reflexivity|]. rewrite (H r (or_introl eq_refl)). inversion N; subst. rewrite IH; [rewrite <- app_assoc; reflexivity|assumption|].
    intros y I. rewrite PipeFacts.plookup_app, (H y (or_intror I)). cbn. rewrite differ; [reflexivity|]. intros E. apply H2. rewrite E. exact (in_map x_name _ _ I).
  Qed.
  Record same_plan (rp rp' : read_plan) (rels rels' : list rnode) : Prop := {
    sp_tab : same_tab (r_tab rp) (r_tab rp'); sp_rels : r_rels rp = sections rels; sp_rels' : r_rels rp' = sections rels'; sp_roots : r_roots rp = r_roots rp' }.
  Lemma no_subs rels : flat_map (fun s : section => flat_map tsubs (x_exprs s)) (sections rels) = []. Proof. induction rels; [reflexivity|]. exact IHrels. Qed.
  Lemma same_read pipes rels rels' roots others rp : NoDup others -> Permutation rels rels' -> readText (the_text pipes rels roots others) = Ok (rp, []) ->
    exists rp', readText (the_text pipes rels' roots others) = Ok (rp', []) /\ same_plan rp rp' rels rels'.
  Proof.
    intros No P H. unfold readText in *. cbn [the_text x_others x_rels x_roots x_pipes] in *. cbv zeta in *. set (t0 := map (fun n => (n, PipeModel.POther)) others) in *.
    destruct (define_rels t0 (sections rels)) as [t1 e1] eqn:E1. destruct (define_roots t1 false roots) as [t2 e2] eqn:E2.
    destruct (PipeModel.visitPipelines t2 _) as [[t3 e3]| |] eqn:E3; cbn [obind fst snd] in H; try discriminate H. rewrite no_subs in H. cbn [flat_map] in H. rewrite app_nil_r in H.
    injection H as <- He. apply app_eq_nil in He as [-> He]. apply app_eq_nil in He as [-> He]. apply map_eq_nil in He. subst e3. apply define_clean in E1 as (-> & ND & Nw).
    assert (Ps : Permutation (sections rels) (sections rels')) by (apply Permutation_map, P).
    rewrite (define_all_clean (sections rels') t0); [|exact (Permutation_NoDup (Permutation_map x_name Ps) ND)|intros r I; apply Nw; exact (Permutation_in _ (Permutation_sym Ps) I)].
    set (f := fun r : section => (x_name r, PipeModel.PRel PipeModel.no_data)) in *.
    assert (S1 : same_tab (t0 ++ map f (sections rels)) (t0 ++ map f (sections rels'))).
    { split; [apply Permutation_app_head, Permutation_map, Ps|]. rewrite map_app, map_map. cbn [f fst]. unfold t0. rewrite map_map. cbn [fst]. rewrite map_id.
      assert (X : forall a c, NoDup a -> NoDup c -> (forall n : str, In n c -> ~ In n a) -> NoDup (a ++ c)).
      { clear. induction a as [|x a IH]; intros c A C D; [exact C|]. inversion A; subst. cbn [app]. constructor; [|apply IH; auto; intros n N; specialize (D n N); cbn in D; tauto]. intros J. apply in_app_or in J as [J|J]; [contradiction|]. apply (D x J). left. reflexivity. }
      apply X; [exact No|exact ND|]. intros n In_ J. apply in_map_iff in In_ as (y & <- & Iy). specialize (Nw y Iy). apply TreeFacts.unknown_name in Nw. apply Nw. unfold t0. rewrite map_map, map_id. exact J. }
    set (u1 := t0 ++ map f (sections rels')) in *. set (w1 := t0 ++ map f (sections rels)) in *. clearbody u1 w1.
    assert (S2 : exists u2, define_roots u1 false roots = (u2, []) /\ same_tab t2 u2).
    { destruct roots as [|y [|z l]]; cbn [define_roots] in *.
      - injection E2 as <-. eauto.
      - rewrite <- (same_lookup _ _ root_name S1). destruct (PipeModel.plookup w1 root_name) eqn:Q; [discriminate E2|]. injection E2 as <-. eexists. split; [reflexivity|]. apply same_add; assumption.
      - exfalso. destruct (PipeModel.plookup w1 root_name); destruct (define_roots _ _ l) in E2; discriminate E2. }
    destruct S2 as (u2 & -> & S2). pose proof (same_pipelines (map (map (fun n => (n, n))) pipes) t2 u2 S2) as S3. change (PipeModel.ptab) with (list (str * PipeModel.psym)) in *. rewrite E3 in S3.
    destruct (PipeModel.visitPipelines u2 _) as [[u3 f3]| |]; cbn [same_result obind fst snd] in *; try contradiction. destruct S3 as [S3 <-]. rewrite no_subs. eexists. split; [reflexivity|]. constructor; cbn [r_tab r_rels r_roots]; auto.
  Qed.
End Read.

(** * Relations *)
Section Ext.
  Variables (ff : str -> option N) (fr fr' : str -> option bool) (Hr : forall n, fr n = fr' n) (kn : str -> bool) (ss : FieldModel.schemas) (ag : bool) (fields : list FieldModel.column).
  Lemma track_ext ds : forall i g b, track ff fr kn ss ag fields i g b ds = track ff fr' kn ss ag fields i g b ds.
  Proof.
    induction ds as [|d ds IH]; intros i g b; [reflexivity|]. cbn [track]. rewrite (visitDetail_ext ff fr fr' Hr _ _ (fun _ _ _ => eq_refl) (length fields) kn kn kn kn (fun _ => eq_refl) (fun _ => eq_refl)). apply bindR_ext. intros b1. apply IH.
  Qed.
  Lemma columns_ext given schema b0 ds : visitColumns ff fr kn ss ag fields given schema b0 ds = visitColumns ff fr' kn ss ag fields given schema b0 ds.
  Proof. unfold visitColumns. rewrite track_ext. reflexivity. Qed.
End Ext.
Definition names_given (n : rnode) : list str := flat_map (fun d => match d with OnExpression _ (Some x) => [x] | _ => [] end) (n_details n).
Definition named_node (n : rnode) : Prop := to_lower (n_kind n) = $"project" -> forall e, ~ In (OnExpression e None) (n_details n).
Lemma given_named t n : (forall e, ~ In (OnExpression e None) (n_details n)) -> given_names t (n_details n) = (t, names_given n).
Proof.
  unfold names_given. induction (n_details n) as [|d l IH]; intros H; [reflexivity|]. assert (H' : forall e, ~ In (OnExpression e None) l) by (intros e I; exact (H e (or_intror I))). specialize (IH H').
  destruct d as [| | |e [x|]| | | | | | | |]; cbn [given_names flat_map app]; rewrite ?IH; try reflexivity. exfalso. exact (H e (or_introl eq_refl)).
Qed.
Definition given_of (b0 : body) (n : rnode) : list str := match b0 with BProject _ => names_given n | _ => [] end.
Lemma project_kind k es : empty_body k = Some (BProject es) -> to_lower k = $"project".
Proof. intros H. exact (eq_sym (proj1 (empty_kind k _ H))). Qed.
Section Nodes.
  Variables (ff : str -> option N) (tab : table) (S : TreeModel.read_plan).
  Definition holds (known : list known_rel) (n : rnode) : Prop := exists x b0, find_rel (n_name n) known = Some x /\ empty_body (n_kind n) = Some b0 /\ FieldModel.d_missing (snd x) = [] /\
    visitColumns ff (find_relation S) (known_symbol tab) (schema_list tab) (WholeModel.is_aggregate b0) (fields_of S known (n_name n)) (given_of b0 n) (schema_of tab n) b0 (n_details n) = Ok (x, []).
  Definition in_order (names : list str) (l : list rnode) : Prop := forall before n after, l = before ++ n :: after -> incl (inputs_of S (n_name n)) (names ++ map n_name before).
  Lemma fields_more n k more : incl (inputs_of S n) (map fst k) -> fields_of S (k ++ more) n = fields_of S k n.
  Proof.
    intros H. unfold fields_of. induction (inputs_of S n) as [|i l IH]; [reflexivity|]. cbn [flat_map]. rewrite IH by (intros j J; apply H; right; exact J). f_equal.
    assert (I : In i (map fst k)) by (apply H; left; reflexivity). apply find_rel_some in I as (x & E). rewrite !find_rel_app, E. reflexivity.
  Qed.
  (** what the visit of all relations leaves *)
  Lemma visit_holds earlier l : (forall n, In n l -> named_node n /\ find_relation S (n_name n) = Some true) ->
    forall t (known known' : list known_rel), NoDup (map fst known ++ map n_name l) -> in_order (map fst known) l -> visit_nodes ff tab S earlier t known l = Ok (known', []) ->
    (exists more, known' = known ++ more) /\ map fst known' = map fst known ++ map n_name l /\ forall n, In n l -> holds known' n.
  Proof.
    induction l as [|n l IH]; intros Hn t known known' ND O H; cbn [visit_nodes] in H.
    - injection H as <-. split; [exists []; rewrite app_nil_r; reflexivity|]. rewrite app_nil_r. split; [reflexivity|intros n []].
    - destruct (Hn n (or_introl eq_refl)) as [Nm Fr]. assert (Nn : find_rel (n_name n) known = None).
      { destruct (find_rel (n_name n) known) as [y|] eqn:E; [|reflexivity]. exfalso. cbn [map] in ND. apply NoDup_remove_2 in ND. apply ND, in_or_app. left. apply find_rel_some. eauto. }
      unfold visit_node in H. unfold taken in H. rewrite Nn, Fr in H. destruct (empty_body (n_kind n)) as [b0|] eqn:B.
      2: { cbn [obind] in H. destruct (visit_nodes ff tab S earlier t known l) as [[k e]| |]; cbn [obind fst snd app] in H; discriminate H. }
      assert (G : match b0 with BProject _ => given_names t (n_details n) | _ => (t, []) end = (t, given_of b0 n)) by (destruct b0; try reflexivity; apply given_named; exact (Nm (project_kind _ _ B))). rewrite G in H. clear G.
      destruct (visitColumns _ _ _ _ _ _ _ _ _ _) as [[x e]| |] eqn:V; cbn [obind fst snd] in H; try discriminate H.
      destruct (visit_nodes ff tab S earlier t (known ++ [(n_name n, x)]) l) as [[k e']| |] eqn:E; cbn [obind fst snd] in H; try discriminate H. injection H as <- He. apply app_eq_nil in He as [He ->]. apply app_eq_nil in He as [H1 H2].
      apply map_eq_nil in H1, H2. subst e. destruct (IH (fun m I => Hn m (or_intror I)) t (known ++ [(n_name n, x)]) k) as ((more & Em) & I1 & I2); [| |exact E|].
      { rewrite map_app. cbn [map fst]. rewrite <- app_assoc. exact ND. }
      { intros before m after Q. rewrite map_app. cbn [map fst]. rewrite <- app_assoc. cbn [app]. apply (O (n :: before) m after). rewrite Q. reflexivity. }
      split; [exists ((n_name n, x) :: more); rewrite Em, <- app_assoc; reflexivity|]. split; [rewrite I1, map_app, <- app_assoc; reflexivity|]. intros m [<-|I]; [|exact (I2 m I)].
      exists x, b0. split; [rewrite Em, !find_rel_app, Nn; cbn; rewrite seq_eqb_refl; reflexivity|]. split; [exact B|]. split; [exact H2|]. specialize (O [] n l eq_refl). cbn [map] in O. rewrite app_nil_r in O.
      rewrite fields_more in V by exact O. rewrite Em, <- app_assoc, fields_more by exact O. exact V.
  Qed.
  (** the visit again, in another order *)
  Variable known : list known_rel.
  Definition entry (n : rnode) : list known_rel := match find_rel (n_name n) known with Some x => [(n_name n, x)] | None => [] end.
  Lemma entries_names l : (forall n, In n l -> holds known n) -> map fst (flat_map entry l) = map n_name l.
  Proof. induction l as [|n l IH]; intros H; [reflexivity|]. destruct (H n (or_introl eq_refl)) as (x & b0 & F & _). cbn [flat_map map]. unfold entry at 1. rewrite F. cbn [app map fst]. rewrite IH by (intros m I; exact (H m (or_intror I))). reflexivity. Qed.
  Lemma entry_find l i : (forall n, In n l -> holds known n) -> In i (map n_name l) -> find_rel i (flat_map entry l) = find_rel i known.
  Proof.
    induction l as [|n l IH]; intros H I; [destruct I|]. destruct (H n (or_introl eq_refl)) as (x & b0 & F & _). cbn [flat_map]. unfold entry at 1. rewrite F. cbn [app find_rel]. destruct (seq_eqb_spec (n_name n) i) as [<-|N]; [symmetry; exact F|].
    apply IH; [intros m J; exact (H m (or_intror J))|]. destruct I; [contradiction|assumption].
  Qed.
  Lemma visit_again earlier l : forall before t, (forall n, In n (before ++ l) -> named_node n /\ find_relation S (n_name n) = Some true /\ holds known n) -> NoDup (map n_name (before ++ l)) -> in_order [] (before ++ l) ->
    visit_nodes ff tab S earlier t (flat_map entry before) l = Ok (flat_map entry (before ++ l), []).
  Proof.
    induction l as [|n l IH]; intros before t Hn ND O; cbn [visit_nodes]; [rewrite app_nil_r; reflexivity|]. assert (Hb : forall m, In m before -> holds known m) by (intros m I; apply Hn, in_or_app; left; exact I).
    destruct (Hn n) as (Nm & Fr & (x & b0 & F & B & M & V)); [apply in_elt|]. assert (Nn : find_rel (n_name n) (flat_map entry before) = None).
    { destruct (find_rel (n_name n) (flat_map entry before)) as [y|] eqn:E; [|reflexivity]. exfalso. assert (I : In (n_name n) (map fst (flat_map entry before))) by (apply find_rel_some; eauto). rewrite entries_names in I by exact Hb.
      rewrite map_app in ND. cbn [map] in ND. apply NoDup_remove_2 in ND. apply ND, in_or_app. left. exact I. }
    unfold visit_node, taken. rewrite Nn, Fr, B.
    assert (G : match b0 with BProject _ => given_names t (n_details n) | _ => (t, []) end = (t, given_of b0 n)) by (destruct b0; try reflexivity; apply given_named; exact (Nm (project_kind _ _ B))). rewrite G. clear G.
    assert (Fd : fields_of S (flat_map entry before ++ earlier) (n_name n) = fields_of S known (n_name n)).
    { specialize (O before n l eq_refl). cbn [app] in O. rewrite fields_more by (rewrite entries_names by exact Hb; exact O). unfold fields_of. clear V. induction (inputs_of S (n_name n)) as [|i q IHq]; [reflexivity|]. cbn [flat_map].
      rewrite IHq by (intros j J; apply O; right; exact J). rewrite (entry_find before i Hb (O i (or_introl eq_refl))). reflexivity. }
    rewrite Fd. change (flat_map (schema_columns tab) (used_schemas (n_details n))) with (schema_of tab n). rewrite V. cbn [obind fst snd]. rewrite M. cbn [map app].
    specialize (IH (before ++ [n]) t). rewrite <- app_assoc in IH. cbn [app] in IH. specialize (IH Hn ND O). rewrite flat_map_app in IH. cbn [flat_map] in IH. unfold entry at 2 in IH. rewrite F in IH. cbn [app] in IH.
    match goal with |- obind ?a _ = _ => match type of IH with _ = ?r => change (a = r) in IH; rewrite IH end end. reflexivity.
  Qed.
End Nodes.

(** * Trees *)
Section Trees.
  Import TreeModel.
  Variables (rp rp' : read_plan) (rels rels' : list rnode) (Hp : Permutation rels rels') (ND : NoDup (map n_name rels)) (H : same_plan rp rp' rels rels').
  Lemma find_perm {A} (P : A -> bool) l l' : Permutation l l' -> (forall x y, In x l -> In y l -> P x = true -> P y = true -> x = y) -> find P l = find P l'.
  Proof.
    intros Q U. destruct (find P l) as [x|] eqn:E.
    - apply find_some in E as [I E]. destruct (find P l') as [y|] eqn:F; [apply find_some in F as [J F]; f_equal; apply U; auto; exact (Permutation_in _ (Permutation_sym Q) J)|].
      exfalso. pose proof (find_none _ _ F x (Permutation_in _ Q I)). congruence.
    - destruct (find P l') as [y|] eqn:F; [|reflexivity]. apply find_some in F as [J F]. pose proof (find_none _ _ E y (Permutation_in _ (Permutation_sym Q) J)). congruence.
  Qed.
  Lemma unique_name {A} (f : A -> str) l x y : NoDup (map f l) -> In x l -> In y l -> f x = f y -> x = y.
  Proof.
    induction l as [|a l IH]; intros N I J E; [destruct I|]. inversion N; subst. destruct I as [->|I], J as [->|J]; [reflexivity| | |apply IH; auto]; exfalso; apply H2.
    - rewrite E. apply in_map, J.
    - rewrite <- E. apply in_map, I.
  Qed.
  Lemma same_section n : find_section rp n = find_section rp' n.
  Proof.
    unfold find_section. rewrite (sp_rels _ _ _ _ H), (sp_rels' _ _ _ _ H). apply find_perm; [apply Permutation_map, Hp|]. intros x y I J Ex Ey. apply seq_eqb_eq in Ex, Ey.
    apply (unique_name x_name (sections rels)); [|exact I|exact J|congruence]. unfold sections. rewrite map_map. exact ND.
  Qed.
  Lemma same_data n : rel_data rp n = rel_data rp' n.
  Proof. unfold rel_data. rewrite (same_lookup _ _ n (sp_tab _ _ _ _ H)). reflexivity. Qed.
  Lemma same_bare n : bare rp n = bare rp' n. Proof. unfold bare. rewrite same_section. reflexivity. Qed.
  Lemma attach_ext (b b' : str -> outcome (rel unit)) subs : (forall n, b n = b' n) -> forall e c, attach b subs c e = attach b' subs c e.
  Proof.
    intros Hb. fix IH 1.
    assert (L : forall l c, (fix list c l := match l with [] => Ok ([], c) | e :: l => x <- attach b subs c e ;; y <- list (snd x) l ;; Ok (fst x :: fst y, snd y) end) c l =
      (fix list c l := match l with [] => Ok ([], c) | e :: l => x <- attach b' subs c e ;; y <- list (snd x) l ;; Ok (fst x :: fst y, snd y) end) c l).
    { fix IHl 1. intros [|e l] c; [reflexivity|]. cbn. rewrite IH. destruct (attach b' subs c e) as [[x k]| |]; cbn [obind fst snd]; try reflexivity. rewrite IHl. reflexivity. }
    intros [bd args|s bd ops q] c; cbn [attach]; rewrite L; [reflexivity|]. match goal with |- obind ?a _ = _ => destruct a as [[x k]| |]; cbn [obind fst snd]; try reflexivity end. destruct (nth_error subs k); [rewrite Hb; reflexivity|reflexivity].
  Qed.
  Lemma attaches_ext (b b' : str -> outcome (rel unit)) subs : (forall n, b n = b' n) -> forall l c, attaches b subs c l = attaches b' subs c l.
  Proof. intros Hb. induction l as [|e l IH]; intros c; [reflexivity|]. cbn [attaches]. rewrite (attach_ext b b' subs Hb). destruct (attach b' subs c e) as [[x k]| |]; cbn [obind fst snd]; try reflexivity. rewrite IH. reflexivity. Qed.
  Lemma omap_ext {A B} (f g : A -> outcome B) l : (forall a, f a = g a) -> omap_list f l = omap_list g l.
  Proof. intros E. induction l as [|a l IH]; [reflexivity|]. cbn [omap_list]. rewrite E, IH. reflexivity. Qed.
  Lemma same_build fuel : forall n, build rp fuel n = build rp' fuel n.
  Proof.
    induction fuel as [|fuel IH]; intros n; [reflexivity|]. cbn [build]. rewrite <- same_section. destruct (find_section rp n) as [s|]; [|rewrite same_bare; reflexivity]. cbv zeta. rewrite same_data, same_bare, (omap_ext _ _ _ IH).
    assert (F : forall ins, (x <- attaches (build rp fuel) (flat_map tsubs (x_exprs s)) 0 (x_exprs s) ;; Ok (Rel tt (x_kind s) (x_body s) ins (fst x))) = (x <- attaches (build rp' fuel) (flat_map tsubs (x_exprs s)) 0 (x_exprs s) ;; Ok (Rel tt (x_kind s) (x_body s) ins (fst x))))
      by (intros ins; rewrite (attaches_ext _ _ _ IH); reflexivity).
    destruct (x_kind s); try reflexivity; try (destruct (getNextSinglePipeline _) as [i|]; [|reflexivity]; rewrite IH; destruct (build rp' fuel i); cbn [obind]; try reflexivity; apply F);
      destruct (PipeModel.news _) as [|l [|r [|? ?]]]; try reflexivity; rewrite !IH; destruct (build rp' fuel l); cbn [obind]; try reflexivity; destruct (build rp' fuel r); cbn [obind]; try reflexivity; apply F.
  Qed.
  Lemma same_starts : Permutation (starts rp) (starts rp').
  Proof.
    unfold starts, parents. rewrite (sp_rels _ _ _ _ H), (sp_rels' _ _ _ _ H), !no_subs. apply Permutation_flat_map, (proj1 (sp_tab _ _ _ _ H)).
  Qed.
  Lemma omap_perm {A B} (f : A -> outcome B) l l' : Permutation l l' -> forall r, omap_list f l = Ok r -> exists r', omap_list f l' = Ok r' /\ Permutation r r'.
  Proof.
    induction 1 as [|a l l' P IH|a b l|l m k P1 IH1 P2 IH2]; intros r E; cbn [omap_list] in *.
    - injection E as <-. exists []. auto.
    - destruct (f a) as [y| |]; cbn [obind] in *; try discriminate E. destruct (omap_list f l) as [ys| |]; cbn [obind] in *; try discriminate E. injection E as <-. destruct (IH ys eq_refl) as (r' & -> & P'). exists (y :: r'). auto.
    - destruct (f b) as [y| |]; cbn [obind] in *; try discriminate E. destruct (f a) as [z| |]; cbn [obind] in *; try discriminate E. destruct (omap_list f l) as [ys| |]; cbn [obind] in *; try discriminate E. injection E as <-.
      exists (z :: y :: ys). split; [reflexivity|]. constructor.
    - destruct (IH1 r E) as (r1 & E1 & P1'). destruct (IH2 r1 E1) as (r2 & E2 & P2'). exists r2. split; [exact E2|]. exact (Permutation_trans P1' P2').
  Qed.
  Lemma same_output l : outputToBinaryPlan rp (Datatypes.S (length rels)) = Ok l -> exists l', outputToBinaryPlan rp' (Datatypes.S (length rels')) = Ok l' /\ Permutation l l'.
  Proof.
    unfold outputToBinaryPlan. rewrite <- (Permutation_length Hp), <- (sp_roots _ _ _ _ H). intros E. destruct (omap_perm _ _ _ same_starts l E) as (l' & E' & P). exists l'. split; [|exact P]. rewrite <- E'. apply omap_ext.
    intros [n d]. cbn [fst snd]. destruct (PipeModel.news d); [rewrite same_bare; reflexivity|]. rewrite same_build. reflexivity.
  Qed.
End Trees.
Section Fill.
  Variables (tab : table) (known known' : list known_rel) (Hk : forall n, find_rel n known = find_rel n known').
  Lemma fill_same t : fill tab known t = fill tab known' t.
  Proof.
    revert t. fix IH 1. intros [|u k n ins es]; [reflexivity|]. cbn [fill].
    match goal with |- (x <- ?a ins ;; _) = (y <- ?b ins ;; _) => assert (E : a ins = b ins) by (induction ins as [|i ins IHl]; [reflexivity|]; cbn; rewrite IH, IHl; reflexivity); rewrite E end.
    match goal with |- (x <- ?a ;; _) = _ => destruct a; cbn [obind]; try reflexivity end. rewrite Hk. reflexivity.
  Qed.
  Definition fill_one (p : TreeModel.rel unit * list str) : outcome (tree * option (list str)) := x <- fill tab known (fst p) ;; Ok (x, Some (snd p)).
  Lemma fill_omap l : fill_all tab known l = TreeModel.omap_list fill_one l.
  Proof. induction l as [|[t ns] l IH]; [reflexivity|]. cbn [fill_all TreeModel.omap_list]. unfold fill_one at 1. cbn [fst snd]. rewrite IH. destruct (fill tab known t); reflexivity. Qed.
  Lemma fill_all_same l : fill_all tab known l = fill_all tab known' l.
  Proof. induction l as [|[t ns] l IH]; [reflexivity|]. cbn [fill_all]. rewrite fill_same, IH. reflexivity. Qed.
End Fill.
(** * Texts *)
Lemma from_parts_ok defs pipes rels roots b : from_parts defs pipes rels roots = Ok (Some b, []) -> exists tab rp first e3 known l,
  symbols defs = Ok (tab, []) /\ TreeModel.readText (the_text (map (map fst) pipes) rels roots (nodup (list_eq_dec Ascii.ascii_dec) (map s_name tab))) = Ok (rp, []) /\
  visit_nodes (DeclModel.resolve_function (entries 0 0 defs)) tab rp [] SymbolModel.empty_table [] rels = Ok (first, e3) /\ filter reported_first e3 = [] /\
  visit_nodes (DeclModel.resolve_function (entries 0 0 defs)) tab rp first SymbolModel.empty_table [] rels = Ok (known, []) /\
  TreeModel.outputToBinaryPlan rp (Datatypes.S (length rels)) = Ok l /\ fill_all tab known l = Ok (b_rels b) /\
  b = BPlan (DeclModel.outputExtensionSpaces (entries 0 0 defs)) (DeclModel.outputFunctions (entries 0 0 defs)) (b_rels b).
Proof.
  unfold from_parts. destruct (symbols defs) as [[tab e1]| |] eqn:E1; cbn [obind]; try discriminate. fold (sections rels).
  change {| TreeModel.x_pipes := map (map fst) pipes; TreeModel.x_rels := sections rels; TreeModel.x_roots := roots; TreeModel.x_others := nodup (list_eq_dec Ascii.ascii_dec) (map s_name tab) |}
    with (the_text (map (map fst) pipes) rels roots (nodup (list_eq_dec Ascii.ascii_dec) (map s_name tab))).
  destruct (TreeModel.readText _) as [[rp e2]| |] eqn:E2; cbn [obind]; try discriminate. cbv zeta.
  destruct (visit_nodes _ _ _ [] _ _ _) as [[first e3]| |] eqn:E3; cbn [obind]; try discriminate. destruct (map WPass e1 ++ map WTree e2 ++ filter reported_first e3) eqn:E; [|discriminate].
  apply app_eq_nil in E as [Ea E]. apply app_eq_nil in E as [Eb Ec]. apply map_eq_nil in Ea, Eb. subst e1 e2.
  destruct (visit_nodes _ _ _ first _ _ _) as [[known e4]| |] eqn:E4; cbn [obind]; try discriminate. destruct (TreeModel.outputToBinaryPlan _ _) as [l| |] eqn:El; cbn [obind]; try discriminate.
  destruct (fill_all tab known l) as [r| |] eqn:Ef; cbn [obind]; try discriminate. intros H. injection H as <- ->. exists tab, rp, first, e3, known, l. repeat split; assumption || reflexivity.
Qed.
(** what pipelines leave: the inputs of each relation, as the arrows say *)
Lemma read_inputs pipes rels roots others rp : TreeModel.readText (the_text pipes rels roots others) = Ok (rp, []) ->
  (forall x, In x (concat pipes) -> In x (map n_name rels) \/ x = $"root" /\ roots <> []) ->
  NoDup (map n_name rels) /\ (forall n, inputs_of rp n = some_list (hd_error (PipeFacts.into false n pipes)) ++ PipeFacts.into true n pipes) /\ (forall n, In n rels -> find_relation rp (n_name n) = Some true).
Proof.
  intros Er O3. unfold TreeModel.readText in Er. cbn [the_text TreeModel.x_others TreeModel.x_rels TreeModel.x_roots TreeModel.x_pipes] in Er. cbv zeta in Er.
  match type of Er with context [TreeModel.define_rels ?x (sections rels)] => set (t0 := x) in Er end.
  destruct (TreeModel.define_rels t0 (sections rels)) as [t1 e1] eqn:E1. destruct (TreeModel.define_roots t1 false roots) as [t2 e2] eqn:E2. change (map (map (fun n => (n, n))) pipes) with (map PipeFacts.plain pipes) in Er.
  destruct (PipeModel.visitPipelines t2 (map PipeFacts.plain pipes)) as [[t3 e3]| |] eqn:E3; cbn [obind fst snd] in Er; try discriminate Er. injection Er as Erp Ee. apply app_eq_nil in Ee as [-> Ee]. apply app_eq_nil in Ee as [-> Ee]. apply app_eq_nil in Ee as [Ee _]. apply map_eq_nil in Ee. subst e3.
  apply define_clean in E1 as (T1 & ND & Nw). assert (Sn : map TreeModel.x_name (sections rels) = map n_name rels) by (unfold sections; rewrite map_map; reflexivity). rewrite Sn in ND.
  assert (T1' : t1 = t0 ++ map (fun n => (n, PipeModel.PRel PipeModel.no_data)) (map n_name rels)) by (rewrite T1, <- Sn, map_map; reflexivity). clear T1.
  assert (Nt0 : forall n, In n (map n_name rels) -> PipeModel.plookup t0 n = None) by (intros n In_; rewrite <- Sn in In_; apply in_map_iff in In_ as (y & <- & Iy); exact (Nw y Iy)).
  assert (L1 : forall n, In n (map n_name rels) -> PipeModel.plookup t1 n = Some (PipeModel.PRel PipeModel.no_data)) by (intros n In_; rewrite T1', PipeFacts.plookup_app, (Nt0 n In_); apply lookup_rels, In_).
  assert (F1 : PipeFacts.fresh t1) by (rewrite T1'; apply fresh_app; [apply fresh_other|apply fresh_rels]).
  pose proof (roots_clean _ _ _ E2) as R. assert (F2 : PipeFacts.fresh t2) by (destruct R as [[_ ->]|[-> _]]; [exact F1|apply fresh_app; [exact F1|exact (fresh_rels [TreeModel.root_name])]]).
  assert (L2 : forall n, In n (map n_name rels) -> PipeModel.plookup t2 n = Some (PipeModel.PRel PipeModel.no_data)) by (intros n In_; destruct R as [[_ ->]|[-> _]]; [exact (L1 n In_)|rewrite PipeFacts.plookup_app, (L1 n In_); reflexivity]).
  assert (On : PipeFacts.only_relations t2 pipes).
  { intros n In_. destruct (O3 n In_) as [Q|[-> Q]]; [rewrite (L2 n Q); discriminate|]. destruct R as [[X _]|[-> X]]; [contradiction|]. rewrite PipeFacts.plookup_app. change $"root" with TreeModel.root_name. rewrite X. cbn. discriminate. }
  destruct (PipeFacts.read_pipelines t2 pipes F2 On) as (t3' & errs & E3' & _ & Rec & Rel & _). assert (Q3 : Ok (t3, []) = Ok (t3', errs)) by (transitivity (PipeModel.visitPipelines t2 (map PipeFacts.plain pipes)); [symmetry; exact E3|exact E3']). injection Q3 as <- <-. specialize (Rec eq_refl).
  split; [exact ND|]. split.
  - intros n. unfold inputs_of. assert (Dt : TreeModel.rel_data rp n = PipeFacts.data t3 n) by (rewrite <- Erp; reflexivity). rewrite Dt. destruct (Rec n) as (A1 & A2 & _). rewrite A1, A2. reflexivity.
  - intros n In_. unfold find_relation. rewrite <- Erp. cbn [TreeModel.r_tab]. assert (X : PipeModel.is_rel t3 (n_name n) = true) by (apply Rel; left; unfold PipeModel.is_rel; rewrite (L2 (n_name n) (in_map _ _ _ In_)); reflexivity).
    unfold PipeModel.is_rel in X. destruct (PipeModel.plookup t3 (n_name n)) as [[]|]; try discriminate X. reflexivity.
Qed.
Lemma order_inputs rp pipes rels : (forall n, inputs_of rp n = some_list (hd_error (PipeFacts.into false n pipes)) ++ PipeFacts.into true n pipes) ->
  (forall before n after x, rels = before ++ n :: after -> In x (PipeFacts.into true (n_name n) pipes) \/ In x (PipeFacts.into false (n_name n) pipes) -> In x (map n_name before)) -> in_order rp [] rels.
Proof.
  intros Inp O before n after E x Ix. cbn [app]. apply (O before n after x E). rewrite Inp in Ix. apply in_app_or in Ix as [Ix|Ix]; [right|left; exact Ix].
  destruct (PipeFacts.into false (n_name n) pipes) as [|y q]; cbn in Ix; [destruct Ix|]. left. destruct Ix as [Ix|[]]. exact Ix.
Qed.
Lemma relations_order_nodes a c b : relations_moved a c -> inputs_first a -> inputs_first c -> known_names a -> named_expressions a ->
  from_nodes a = Ok (Some b, []) -> exists b', from_nodes c = Ok (Some b', []) /\ b_uris b' = b_uris b /\ b_decls b' = b_decls b /\ Permutation (b_rels b) (b_rels b').
Proof.
  intros (M1 & M2 & M3 & M4) Oa Oc Kn Nm H. rewrite from_nodes_parts in H. rewrite from_nodes_parts, <- M1, <- M2, <- M4.
  destruct (from_parts_ok _ _ _ _ _ H) as (tab & rp & first & e3 & known & l & E1 & E2 & _ & _ & E4 & E5 & E6 & Eb). set (defs := definitions a) in *. set (ff := DeclModel.resolve_function (entries 0 0 defs)) in *.
  unfold inputs_first, known_names, named_expressions, arrows in *. rewrite <- M2 in Oc. set (pipes := map (map fst) (pipelines_of a)) in *. set (rels := relations_of a) in *. set (rels' := relations_of c) in *. set (roots := roots_of a) in *.
  destruct (read_inputs _ _ _ _ _ E2 Kn) as (ND & Inp & Fr). destruct (same_read _ _ rels' _ _ _ (NoDup_nodup _ _) M3 E2) as (rp' & E2' & SP).
  assert (Inp' : forall n, inputs_of rp' n = inputs_of rp n) by (intros n; unfold inputs_of; rewrite (same_data _ _ _ _ SP); reflexivity).
  assert (Fr' : forall n, find_relation rp n = find_relation rp' n) by (intros n; unfold find_relation; rewrite (same_lookup _ _ n (sp_tab _ _ _ _ SP)); reflexivity).
  destruct (visit_holds ff tab rp first rels (fun n I => conj (fun K e => Nm n e I K) (Fr n I)) SymbolModel.empty_table [] known ND (order_inputs rp pipes rels Inp Oa) E4) as (_ & Kf & Hh). cbn [map app] in Kf.
  assert (Hh' : forall n, In n rels' -> named_node n /\ find_relation rp' (n_name n) = Some true /\ holds ff tab rp' known n).
  { intros n I. pose proof (Permutation_in _ (Permutation_sym M3) I) as I'. split; [exact (fun K e => Nm n e I' K)|]. split; [rewrite <- Fr'; exact (Fr n I')|]. destruct (Hh n I') as (x & b0 & F & B & M & V). exists x, b0. split; [exact F|]. split; [exact B|]. split; [exact M|].
    rewrite <- (columns_ext _ _ _ Fr'). assert (Fd : fields_of rp' known (n_name n) = fields_of rp known (n_name n)) by (unfold fields_of; rewrite Inp'; reflexivity). rewrite Fd. exact V. }
  assert (ND' : NoDup (map n_name rels')) by exact (Permutation_NoDup (Permutation_map n_name M3) ND).
  assert (Or' : in_order rp' [] rels') by (apply (order_inputs rp' pipes); [intros n; rewrite Inp'; apply Inp|exact Oc]).
  pose proof (fun earlier => visit_again ff tab rp' known earlier rels' [] SymbolModel.empty_table Hh' ND' Or') as V. cbn [flat_map app] in V. set (known' := flat_map (entry known) rels') in *.
  assert (Fk : forall n, find_rel n known = find_rel n known').
  { intros n. destruct (in_dec (list_eq_dec Ascii.ascii_dec) n (map n_name rels')) as [I|I]; [symmetry; apply (entry_find ff tab rp'); [exact (fun m J => proj2 (proj2 (Hh' m J)))|exact I]|].
    assert (X : forall k : list known_rel, ~ In n (map fst k) -> find_rel n k = None) by (intros k Nk; destruct (find_rel n k) as [y|] eqn:Q; [exfalso; apply Nk, find_rel_some; eauto|reflexivity]).
    rewrite !X; [reflexivity| |].
    - unfold known'. rewrite (entries_names ff tab rp' known rels' (fun m J => proj2 (proj2 (Hh' m J)))). exact I.
    - rewrite Kf. intros J. apply I. exact (Permutation_in _ (Permutation_map n_name M3) J). }
  destruct (same_output rp rp' rels rels' M3 ND SP l E5) as (l' & E5' & Pl). rewrite (fill_all_same tab known known' Fk), fill_omap in E6. destruct (omap_perm _ _ _ Pl _ E6) as (r' & E6' & Pr). rewrite <- fill_omap in E6'.
  unfold from_parts. rewrite E1. cbn [obind]. fold (sections rels'). change (map (map fst) (pipelines_of a)) with pipes.
  match goal with |- context [TreeModel.readText ?x] => change (TreeModel.readText x = Ok (rp', [])) in E2'; rewrite E2' end. cbn [obind]. cbv zeta. fold ff. rewrite V. cbn [obind map filter app]. rewrite V. cbn [obind]. rewrite E5'. cbn [obind]. rewrite E6'. cbn [obind].
  eexists. split; [reflexivity|]. rewrite Eb. cbn [b_uris b_decls b_rels]. split; [reflexivity|]. split; [reflexivity|exact Pr].
Qed.
Theorem relations_order s s' a c b : parse s = Some a -> parse s' = Some c -> relations_moved a c -> inputs_first a -> inputs_first c -> known_names a -> named_expressions a ->
  from_text s = Ok (Some b, []) -> exists b', from_text s' = Ok (Some b', []) /\ b_uris b' = b_uris b /\ b_decls b' = b_decls b /\ Permutation (b_rels b) (b_rels b').
Proof. intros Ha Hc M Oa Oc Kn Nm H. rewrite from_text_nodes, Ha in H. rewrite from_text_nodes, Hc. exact (relations_order_nodes a c b M Oa Oc Kn Nm H). Qed.
