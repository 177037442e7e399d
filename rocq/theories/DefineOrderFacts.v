(** The order of the definitions of a text: its schemas, sources and extension spaces. *)
From Verif Require Import Base BaseFacts StringsModel TypeModel LexModel ExprModel RelModel SectionModel FirstFacts WholeModel SoundFacts ExtFacts RenumberFacts KindOrderFacts RelOrderFacts.
From Verif Require FieldModel DeclModel SymbolModel TreeModel PipeModel EnumModel.
From Coq Require Import Lia Permutation.

(** * What is meant *)
(** The names that a definition defines: of the schema and its columns, of the source and its tables or files, of the space and its functions *)
Definition names_of_definition (d : pnode) : list str :=
  match d with
  | PSchema n items => n :: map fst items
  | PSource n s => n :: file_names s
  | PSpace u fs => some_list u ++ map referenceName fs
  | _ => []
  end.
(** No two definitions have the name. *)
Definition one_definition (l : list pnode) (x : str) : Prop := forall before d between e after, l = before ++ d :: between ++ e :: after -> In x (names_of_definition d) -> In x (names_of_definition e) -> False.
(** The names that relations ask for, and those of files *)
Definition asked (n : rnode) : list str := flat_map (fun d => match d with OnSchema x | OnSource x => [x] | _ => [] end) (n_details n).
Definition files_in (d : pnode) : list str := match d with PSource _ (SLocal fs) => map fn_text fs | _ => [] end.
(** No schema, column, source, table or file has the name of a function, and the names that relations use and those of files are not defined twice. *)
Definition distinct_names (l : list pnode) : Prop :=
  (forall u fs d x, In (PSpace u fs) l -> In x (map referenceName fs) -> In d l -> In x (names_of_definition d) -> exists u' fs', d = PSpace u' fs') /\
  (forall n x, In n (relations_of l) -> In x (asked n) -> one_definition (definitions l) x) /\
  (forall d x, In d l -> In x (files_in d) -> one_definition (definitions l) x).
(** The same sections with the definitions in another order; the extension spaces, whose functions are numbered, stay in theirs. *)
Definition definitions_moved (a b : list pnode) : Prop :=
  Permutation (definitions a) (definitions b) /\ spaces_of a = spaces_of b /\ pipelines_of a = pipelines_of b /\ relations_of a = relations_of b /\ roots_of a = roots_of b.

(** * Visiting with the same answers *)
Section Ext.
  Variables (ff ff' : str -> option N) (Hf : forall n, ff n = ff' n) (fr : str -> option bool).
  Section Expressions.
    Variables (fi fi' : str -> option (N * Z)) (Hi : forall n, fi n = fi' n).
    Lemma visitExpr_same e : visitExpr ff fr fi e = visitExpr ff' fr fi' e.
    Proof.
      induction e as [n args ty IH|c|t|e ty IH|n|l n IH|b n|e op b n IH] using enode_ind2; cbn [visitExpr].
      - destruct (to_lower n =s $"ifthen").
        + f_equal. apply each_ext. rewrite Forall_forall in *. intros [s x] I. exact (IH _ I).
        + rewrite ?Hf. apply bindE_ext. intros f. f_equal. apply each_ext. rewrite Forall_forall in *. intros [s x] I. destruct (endsWith s enum_suffix); [reflexivity|]. specialize (IH _ I). cbn [snd] in IH. rewrite IH. reflexivity.
      - reflexivity.
      - rewrite Hi. reflexivity.
      - rewrite IH. reflexivity.
      - reflexivity.
      - destruct (fr n); [|reflexivity]. rewrite (each_ext _ _ l IH). reflexivity.
      - reflexivity.
      - rewrite IH. reflexivity.
    Qed.
    Lemma visitFirst_same i e : visitFirst ff fi i e = visitFirst ff' fi' i e.
    Proof.
      induction e as [n args ty IH|c|t|e ty IH|n|l n IH|b n|e op b n IH] using enode_ind2; cbn [visitFirst]; try reflexivity.
      - destruct (to_lower n =s $"ifthen").
        + f_equal. apply each_ext. rewrite Forall_forall in *. intros [s x] I. specialize (IH _ I). cbn [snd] in IH. rewrite IH. reflexivity.
        + rewrite ?Hf. apply bindE_ext. intros f. f_equal. apply each_ext. rewrite Forall_forall in *. intros [s x] I. destruct (endsWith s enum_suffix); [reflexivity|]. specialize (IH _ I). cbn [snd] in IH. rewrite IH. reflexivity.
      - destruct i; [reflexivity|]. rewrite Hi. reflexivity.
      - rewrite IH. reflexivity.
      - f_equal. apply each_ext. rewrite Forall_forall in *. intros x I. rewrite (IH _ I). reflexivity.
      - exact IH.
    Qed.
  End Expressions.
  Section Details.
    Variables (fi fi' : nat -> nat -> str -> option (N * Z)) (Hi : forall i j n, fi i j n = fi' i j n) (w : nat).
    Lemma known_same i j e : known ff fi i j e = known ff' fi' i j e.
    Proof. unfold known. rewrite (visitFirst_same (fi i j) (fi' i j) (Hi i j)). reflexivity. Qed.
    Lemma visitE_same i j e : visitE ff fr fi i j e = visitE ff' fr fi' i j e.
    Proof. unfold visitE. rewrite known_same. destruct (known _ _ _ _ _) as [[]| |]; cbn [obind]; try reflexivity. rewrite (visitExpr_same (fi i j) (fi' i j) (Hi i j)). reflexivity. Qed.
    Lemma visitSort_same i j e b : visitSort ff fr fi i j e b = visitSort ff' fr fi' i j e b.
    Proof. unfold visitSort. rewrite visitE_same. reflexivity. Qed.
    Lemma visitMeasure_same i j e t ids : visitMeasure ff fr fi i j e t ids = visitMeasure ff' fr fi' i j e t ids.
    Proof. unfold visitMeasure. rewrite visitE_same. reflexivity. Qed.
    Lemma visitMeasureDetails_same i l : forall j s, visitMeasureDetails ff fr fi i j s l = visitMeasureDetails ff' fr fi' i j s l.
    Proof.
      induction l as [|d l IH]; intros j s; [reflexivity|]. destruct d; cbn [visitMeasureDetails].
      - rewrite visitMeasure_same. apply bindR_ext. intros f. destruct (b_function s); [reflexivity|]. apply IH.
      - rewrite visitE_same. apply bindR_ext. intros x. destruct (b_filter s); [reflexivity|]. apply IH.
      - apply bindR_ext. intros v. apply IH.
      - rewrite visitSort_same. apply bindR_ext. intros x. apply IH.
    Qed.
    Lemma visitDetail_same ks ks' (Hs : forall n, ks n = ks' n) i b d : visitDetail ff fr fi w ks ks i b d = visitDetail ff' fr fi' w ks' ks' i b d.
    Proof.
      destruct d; cbn [visitDetail]; try reflexivity; rewrite ?Hs, ?known_same, ?visitE_same, ?visitMeasureDetails_same, ?visitSort_same; try reflexivity.
    Qed.
  End Details.
  Variables (kn kn' : str -> bool) (Hk : forall n, kn n = kn' n) (ss ss' : FieldModel.schemas) (Hs : forall c, FieldModel.fullyQualifiedReference ss c = FieldModel.fullyQualifiedReference ss' c) (ag : bool) (fields : list FieldModel.column).
  Lemma find_in_same em q n : FieldModel.find_in ss em q n = FieldModel.find_in ss' em q n.
  Proof.
    unfold FieldModel.find_in. destruct (FieldModel.rfind _ (FieldModel.q_generated q)); [reflexivity|]. assert (E : FieldModel.rfind (FieldModel.match_input ss n) (FieldModel.q_fields q) = FieldModel.rfind (FieldModel.match_input ss' n) (FieldModel.q_fields q)); [|rewrite E; reflexivity].
    unfold FieldModel.rfind. induction (rev (FieldModel.q_fields q)) as [|c l IH]; [reflexivity|]. cbn [FieldModel.find_pos]. rewrite IH. unfold FieldModel.match_input. rewrite Hs. reflexivity.
  Qed.
  Lemma track_same ds : forall i g b, track ff fr kn ss ag fields i g b ds = track ff' fr kn' ss' ag fields i g b ds.
  Proof.
    induction ds as [|d ds IH]; intros i g b; [reflexivity|]. cbn [track].
    rewrite (visitDetail_same _ (fun _ j => find_field ss' ag fields (g ++ own_columns j d))) with (ks' := kn'); [|intros x j n; unfold find_field; rewrite find_in_same; reflexivity|exact Hk]. apply bindR_ext. intros b1. apply IH.
  Qed.
  Lemma columns_same given schema b0 ds : visitColumns ff fr kn ss ag fields given schema b0 ds = visitColumns ff' fr kn' ss' ag fields given schema b0 ds.
  Proof.
    unfold visitColumns. rewrite track_same. apply bindR_ext. intros [b g]. cbv zeta. rewrite (visitEmits_ext _ (find_emit ss' ag fields (match b with BProject es => add_expressions fields given es g | _ => g end))); [reflexivity|].
    intros n. unfold find_emit. rewrite find_in_same. reflexivity.
  Qed.
End Ext.

(** * Names of others among the relations *)
Section Others.
  Import PipeModel.
  Variables (o o' : list str) (Ho : forall n, In n o <-> In n o').
  Definition others_and (l : list str) (r : ptab) : ptab := map (fun n => (n, POther)) l ++ r.
  Definition has (l : list str) (n : str) : bool := existsb (fun m => m =s n) l.
  Lemma has_in l n : has l n = true <-> In n l.
  Proof. unfold has. rewrite existsb_exists. split; [intros (m & I & E); destruct (seq_eqb_spec m n); [subst; exact I|discriminate E]|intros I; exists n; split; [exact I|apply seq_eqb_refl]]. Qed.
  Lemma has_same n : has o n = has o' n.
  Proof. apply Bool.eq_iff_eq_true. rewrite !has_in. apply Ho. Qed.
  Lemma others_lookup l r n : plookup (others_and l r) n = if has l n then Some POther else plookup r n.
  Proof. induction l as [|m l IH]; [reflexivity|]. cbn. destruct (m =s n); [reflexivity|]. exact IH. Qed.
  Lemma others_update l r n d : has l n = false -> pupdate (others_and l r) n d = others_and l (pupdate r n d).
  Proof. induction l as [|m l IH]; [reflexivity|]. cbn. destruct (m =s n); [discriminate|]. intros H. f_equal. exact (IH H). Qed.
  Definition alike (t u : ptab) : Prop := exists r, t = others_and o r /\ u = others_and o' r.
  Lemma alike_lookup t u n : alike t u -> plookup t n = plookup u n.
  Proof. intros (r & -> & ->). rewrite !others_lookup, has_same. reflexivity. Qed.
  Lemma alike_rel t u n : alike t u -> is_rel t n = is_rel u n.
  Proof. intros H. unfold is_rel. rewrite (alike_lookup t u n H). reflexivity. Qed.
  Lemma alike_update t u n d : alike t u -> is_rel t n = true -> alike (pupdate t n d) (pupdate u n d).
  Proof.
    intros (r & -> & ->) E. unfold is_rel in E. rewrite others_lookup in E. destruct (has o n) eqn:Q; [discriminate E|]. exists (pupdate r n d). rewrite !others_update; [split; reflexivity| |exact Q]. rewrite <- has_same. exact Q.
  Qed.
  Lemma alike_add t u n s : alike t u -> alike (t ++ [(n, s)]) (u ++ [(n, s)]).
  Proof. intros (r & -> & ->). exists (r ++ [(n, s)]). unfold others_and. rewrite !app_assoc. split; reflexivity. Qed.
  Lemma alike_symbol t u n : alike t u -> alike (updateRelationSymbol t n) (updateRelationSymbol u n).
  Proof. intros H. unfold updateRelationSymbol. rewrite <- (alike_lookup t u n H). destruct (plookup t n) eqn:E; [exact H|]. apply alike_add; assumption. Qed.
  Definition alike_result {E} (x y : outcome (ptab * list E)) : Prop := match x, y with Ok (t, e), Ok (u, f) => alike t u /\ e = f | Throw a, Throw b => a = b | UB, UB => True | _, _ => False end.
  Lemma alike_connect t u rights n d left : alike t u -> is_rel t n = true -> alike_result (connect t rights n d left) (connect u rights n d left).
  Proof.
    intros H R. unfold connect. destruct (cont d); [split; auto|]. destruct rights as [|r rights]; cbv zeta.
    - destruct left as [l|]; [|split; auto]. rewrite <- (alike_rel t u l H). destruct (is_rel t l); cbn [negb]; [|exact Logic.I]. split; [apply alike_update; assumption|reflexivity].
    - rewrite <- (alike_rel t u (fst r) H). destruct (is_rel t (fst r)); cbn [negb]; [|exact Logic.I]. destruct (continuingPipelineContains _ _); [split; auto|]. rewrite <- (alike_lookup t u (fst r) H).
      destruct left as [l|]; [rewrite <- (alike_rel t u l H); destruct (is_rel t l); cbn [negb]; [|exact Logic.I]|]; (split; [apply alike_update; assumption|reflexivity]).
  Qed.
  Lemma alike_pipeline p : forall t u rights, alike t u -> alike_result (visitPipeline t rights p) (visitPipeline u rights p).
  Proof.
    induction p as [|e p IH]; intros t u rights H; [split; auto|]. cbn [visitPipeline]. specialize (IH _ _ (e :: rights) (alike_symbol t u (fst e) H)).
    destruct (visitPipeline (updateRelationSymbol t (fst e)) (e :: rights) p) as [[t2 e2]| |], (visitPipeline (updateRelationSymbol u (fst e)) (e :: rights) p) as [[u2 f2]| |]; cbn [alike_result obind] in *; try contradiction; try assumption.
    destruct IH as [H2 <-]. rewrite <- (alike_lookup _ _ (fst e) H2). destruct (plookup t2 (fst e)) as [[d|]|] eqn:Q; [|split; auto..].
    assert (R : is_rel t2 (fst e) = true) by (unfold is_rel; rewrite Q; reflexivity).
    pose proof (alike_connect t2 u2 rights (fst e) d (match p with [] => None | l :: _ => Some (fst l) end) H2 R) as C.
    destruct (connect t2 rights (fst e) d _) as [[t3 e3]| |], (connect u2 rights (fst e) d _) as [[u3 f3]| |]; cbn [alike_result obind fst snd] in *; try contradiction; try assumption. destruct C as [C <-]. split; [exact C|reflexivity].
  Qed.
  Lemma alike_pipelines ps : forall t u, alike t u -> alike_result (visitPipelines t ps) (visitPipelines u ps).
  Proof.
    induction ps as [|p ps IH]; intros t u H; [split; auto|]. cbn [visitPipelines]. pose proof (alike_pipeline (rev p) t u [] H) as C.
    destruct (visitPipeline t [] (rev p)) as [[t2 e2]| |], (visitPipeline u [] (rev p)) as [[u2 f2]| |]; cbn [alike_result obind fst snd] in *; try contradiction; try assumption. destruct C as [C <-].
    specialize (IH t2 u2 C). destruct (visitPipelines t2 ps) as [[t3 e3]| |], (visitPipelines u2 ps) as [[u3 f3]| |]; cbn [alike_result obind fst snd] in *; try contradiction; try assumption. destruct IH as [C' <-]. split; [exact C'|reflexivity].
  Qed.
  Import TreeModel.
  Lemma alike_rels rs : forall t u, alike t u -> alike (fst (define_rels t rs)) (fst (define_rels u rs)) /\ snd (define_rels t rs) = snd (define_rels u rs).
  Proof.
    induction rs as [|r rs IH]; intros t u H; [split; auto|]. cbn [define_rels]. rewrite <- (alike_lookup t u _ H). destruct (plookup t (x_name r)).
    - specialize (IH t u H). destruct (define_rels t rs), (define_rels u rs). cbn [fst snd] in *. destruct IH as [A ->]. split; auto.
    - apply IH, alike_add, H.
  Qed.
  Lemma alike_roots rs : forall t u b, alike t u -> alike (fst (define_roots t b rs)) (fst (define_roots u b rs)) /\ snd (define_roots t b rs) = snd (define_roots u b rs).
  Proof.
    induction rs as [|r rs IH]; intros t u b H; [split; auto|]. cbn [define_roots]. destruct b.
    - specialize (IH t u true H). destruct (define_roots t true rs), (define_roots u true rs). cbn [fst snd] in *. destruct IH as [A ->]. split; auto.
    - rewrite <- (alike_lookup t u _ H). destruct (plookup t root_name).
      + specialize (IH t u false H). destruct (define_roots t false rs), (define_roots u false rs). cbn [fst snd] in *. destruct IH as [A ->]. split; auto.
      + apply IH, alike_add, H.
  Qed.
  Record alike_plans (rp rp' : read_plan) : Prop := { al_tab : alike (r_tab rp) (r_tab rp'); al_rels : r_rels rp = r_rels rp'; al_roots : r_roots rp = r_roots rp' }.
  Lemma alike_read pipes rels roots : match readText {| x_pipes := pipes; x_rels := rels; x_roots := roots; x_others := o |}, readText {| x_pipes := pipes; x_rels := rels; x_roots := roots; x_others := o' |} with
    | Ok (rp, e), Ok (rp', f) => alike_plans rp rp' /\ e = f | Throw a, Throw b => a = b | UB, UB => True | _, _ => False end.
  Proof.
    unfold readText. cbn [x_pipes x_rels x_roots x_others]. cbv zeta. set (t := map _ o). set (u := map _ o'). assert (A : alike t u) by (exists []; unfold others_and; rewrite !app_nil_r; split; reflexivity). clearbody t u.
    pose proof (alike_rels rels t u A) as [A1 E1]. destruct (define_rels t rels) as [t1 e1], (define_rels u rels) as [u1 f1]. cbn [fst snd] in *. subst f1.
    pose proof (alike_roots roots t1 u1 false A1) as [A2 E2]. destruct (define_roots t1 false roots) as [t2 e2], (define_roots u1 false roots) as [u2 f2]. cbn [fst snd] in *. subst f2.
    pose proof (alike_pipelines (map (map (fun n => (n, n))) pipes) t2 u2 A2) as A3. destruct (visitPipelines t2 _) as [[t3 e3]| |], (visitPipelines u2 _) as [[u3 f3]| |]; cbn [alike_result obind fst snd] in *; try contradiction; try assumption.
    destruct A3 as [A3 <-]. split; [constructor; [exact A3|reflexivity..]|]. do 3 f_equal. generalize (flat_map (fun s : section => flat_map tsubs (x_exprs s)) rels). intros l. induction l as [|x l IH]; [reflexivity|]. cbn [flat_map]. rewrite IH, (alike_lookup _ _ x A3). reflexivity.
  Qed.
  Section Build.
    Variables (rp rp' : read_plan) (A : alike_plans rp rp').
    Lemma alike_data n : rel_data rp n = rel_data rp' n. Proof. unfold rel_data. rewrite (alike_lookup _ _ n (al_tab _ _ A)). reflexivity. Qed.
    Lemma alike_section n : find_section rp n = find_section rp' n. Proof. unfold find_section. rewrite (al_rels _ _ A). reflexivity. Qed.
    Lemma alike_bare n : bare rp n = bare rp' n. Proof. unfold bare. rewrite alike_section. reflexivity. Qed.
    Lemma alike_build fuel : forall n, build rp fuel n = build rp' fuel n.
    Proof.
      induction fuel as [|fuel IH]; intros n; [reflexivity|]. cbn [build]. rewrite <- alike_section. destruct (find_section rp n) as [s|]; [|rewrite alike_bare; reflexivity]. rewrite <- alike_data, <- alike_bare. cbv zeta.
      assert (At : forall c l, attaches (build rp fuel) (flat_map tsubs (x_exprs s)) c l = attaches (build rp' fuel) (flat_map tsubs (x_exprs s)) c l) by (intros c l; apply attaches_ext; exact IH).
      destruct (x_kind s); try reflexivity; rewrite ?(omap_ext _ _ _ IH); try reflexivity.
      all: try (destruct (getNextSinglePipeline (rel_data rp n)); [|reflexivity]; rewrite IH, At; reflexivity).
      all: destruct (news (rel_data rp n)) as [|x [|y [|z l]]]; try reflexivity; rewrite !IH, At; reflexivity.
    Qed.
    Lemma alike_starts : starts rp = starts rp'.
    Proof.
      unfold starts, parents. rewrite (al_rels _ _ A). destruct (al_tab _ _ A) as (r & -> & ->). unfold others_and. rewrite !flat_map_app. f_equal.
      assert (X : forall l (q : list str), flat_map (fun s : str * psym => match s with (n, PRel d) => if existsb (fun p => p =s n) q then [] else match start d with Some _ => [] | None => [(n, d)] end | _ => [] end) (map (fun n : str => (n, POther)) l) = []) by (clear; induction l; intros q; [reflexivity|]; cbn; apply IHl). rewrite !X. reflexivity.
    Qed.
    Lemma alike_output fuel : outputToBinaryPlan rp fuel = outputToBinaryPlan rp' fuel.
    Proof.
      unfold outputToBinaryPlan. rewrite alike_starts. apply omap_ext. intros [n d]. cbn [fst snd]. destruct (news d); [rewrite alike_bare; reflexivity|]. rewrite alike_build, (al_roots _ _ A). reflexivity.
    Qed.
    Lemma alike_relation n : find_relation rp n = find_relation rp' n. Proof. unfold find_relation. rewrite (alike_lookup _ _ n (al_tab _ _ A)). reflexivity. Qed.
  End Build.
End Others.
Section Visit.
  Variables (ff ff' : str -> option N) (Hf : forall n, ff n = ff' n) (t1 t2 : table) (Hk : forall n, known_symbol t1 n = known_symbol t2 n)
    (Hs : forall c, FieldModel.fullyQualifiedReference (schema_list t1) c = FieldModel.fullyQualifiedReference (schema_list t2) c) (o o' : list str) (Ho : forall n, In n o <-> In n o') (rp rp' : TreeModel.read_plan) (A : alike_plans o o' rp rp') (earlier : list known_rel).
  Lemma visit_same l : (forall n x, In n l -> In x (asked n) -> schema_columns t1 x = schema_columns t2 x) ->
    forall t known, visit_nodes ff t1 rp earlier t known l = visit_nodes ff' t2 rp' earlier t known l.
  Proof.
    induction l as [|n l IH]; intros H t known; [reflexivity|]. cbn [visit_nodes].
    assert (E : visit_node ff t1 rp earlier t known n = visit_node ff' t2 rp' earlier t known n).
    { unfold visit_node. replace (taken rp' known (n_name n)) with (taken rp known (n_name n)) by (unfold taken; rewrite (alike_relation o o' Ho rp rp' A); reflexivity). destruct (taken rp known (n_name n)); [reflexivity|].
      destruct (empty_body (n_kind n)) as [b0|]; [|reflexivity]. destruct (match b0 with BProject _ => _ | _ => _ end) as [t' given].
      assert (E : flat_map (schema_columns t1) (used_schemas (n_details n)) = flat_map (schema_columns t2) (used_schemas (n_details n))).
      { specialize (H n). unfold asked, used_schemas in *. assert (H' := fun x => H x (or_introl eq_refl)). clear H. induction (n_details n) as [|d ds IHd]; [reflexivity|]. cbn [flat_map] in *. rewrite !flat_map_app, IHd by (intros x I; apply H', in_or_app; right; exact I).
        f_equal. destruct d; try reflexivity. cbn [flat_map]. rewrite H'; [reflexivity|left; reflexivity]. }
      rewrite E, (columns_same ff ff' Hf (find_relation rp) _ _ Hk _ _ Hs), (columns_ext ff' (find_relation rp) (find_relation rp') (alike_relation o o' Ho rp rp' A)).
      unfold fields_of, inputs_of. rewrite (alike_data o o' Ho rp rp' A). reflexivity. }
    rewrite E. destruct (visit_node ff' t2 rp' earlier t known n) as [[[t' k'] e']| |]; cbn [obind]; try reflexivity. rewrite IH; [reflexivity|]. intros m x I. apply H. right. exact I.
  Qed.
End Visit.

(** * The functions *)
Section Entries.
  Import DeclModel.
  Definition is_other (e : entry) : bool := match e with EOther _ => true | _ => false end.
  Definition strip (l : list entry) : list entry := filter (fun e => negb (is_other e)) l.
  Lemma strip_app a b : strip (a ++ b) = strip a ++ strip b. Proof. apply filter_app. Qed.
  Lemma strip_others l : strip (map EOther l) = []. Proof. induction l; [reflexivity|exact IHl]. Qed.
  Lemma strip_functions sp l : forall nf, strip (read_functions sp nf l) = read_functions sp nf l.
  Proof. induction l as [|[a b] l IH]; intros nf; [reflexivity|]. cbn. f_equal. apply IH. Qed.
  Lemma strip_entries l : forall ns nf, strip (entries ns nf l) = read_blocks ns nf (spaces_of l).
  Proof.
    induction l as [|n l IH]; intros ns nf; [reflexivity|]. destruct n as [p|r|r|n items|n s|u fs]; cbn [entries spaces_of flat_map app]; try apply IH.
    - rewrite strip_app, strip_others. apply IH.
    - rewrite strip_app, strip_others. apply IH.
    - rewrite strip_app, IH. destruct u; cbn [read_blocks]; rewrite app_nil_r, ?map_length; f_equal; cbn [app]; rewrite ?strip_functions; try reflexivity. unfold strip at 1. cbn [filter is_other negb]. f_equal. apply strip_functions.
  Qed.
  Lemma functions_strip l : functions l = functions (strip l).
  Proof. induction l as [|e l IH]; [reflexivity|]. destruct e; [exact IH|exact (f_equal (cons _) IH)|exact IH]. Qed.
  Lemma spaces_strip l : spaces l = spaces (strip l).
  Proof. induction l as [|e l IH]; [reflexivity|]. destruct e; [exact (f_equal (cons _) IH)|exact IH|exact IH]. Qed.
  Lemma output_strip l : outputFunctions l = outputFunctions (strip l).
  Proof.
    unfold outputFunctions. rewrite <- functions_strip. assert (E : forall f, binary_decl l f = binary_decl (strip l) f) by (intros f; unfold binary_decl, spaceName; rewrite <- spaces_strip; reflexivity).
    rewrite !(map_ext _ (binary_decl (strip l)) E). reflexivity.
  Qed.
  Lemma resolve_strip l x : (forall f, In (EFunction f) l -> In (EOther (f_short f)) l -> False) -> resolve_function l x = resolve_function (strip l) x.
  Proof.
    intros H. unfold resolve_function. destruct (find (fun e => entry_name e =s x) (strip l)) as [e|] eqn:F.
    - pose proof (find_some _ _ F) as [I E]. apply filter_In in I as [I O]. destruct (seq_eqb_spec (entry_name e) x) as [N|]; [|discriminate E]. clear E.
      destruct (find (fun e => entry_name e =s x) l) as [e'|] eqn:G; [|exfalso; apply (find_none _ _ G) in I; rewrite N, seq_eqb_refl in I; discriminate I].
      pose proof (find_some _ _ G) as [I' E']. destruct (seq_eqb_spec (entry_name e') x) as [N'|]; [|discriminate E']. clear E'. destruct e' as [u a|f|n].
      + assert (e = ESpace u a); [|subst; reflexivity]. clear H I I' O. induction l as [|h l IH]; [discriminate G|]. cbn [find] in G. unfold strip in F. cbn [filter] in F. fold (strip l) in F. destruct (entry_name h =s x) eqn:Q.
        * injection G as ->. cbn in F. cbn in Q. rewrite Q in F. injection F as <-. reflexivity.
        * destruct (is_other h); cbn [negb] in F; [|cbn [find] in F; rewrite Q in F]; exact (IH F G).
      + assert (e = EFunction f); [|subst; reflexivity]. clear H I I' O. induction l as [|h l IH]; [discriminate G|]. cbn [find] in G. unfold strip in F. cbn [filter] in F. fold (strip l) in F. destruct (entry_name h =s x) eqn:Q.
        * injection G as ->. cbn in F. cbn in Q. rewrite Q in F. injection F as <-. reflexivity.
        * destruct (is_other h); cbn [negb] in F; [|cbn [find] in F; rewrite Q in F]; exact (IH F G).
      + destruct e as [u a|f|m]; [reflexivity| |reflexivity]. exfalso. apply (H f I). cbn in N, N'. subst. exact I'.
    - destruct (find (fun e => entry_name e =s x) l) as [e'|] eqn:G; [|reflexivity]. pose proof (find_some _ _ G) as [I' E']. destruct e' as [u a|f|n]; [reflexivity| |reflexivity].
      exfalso. assert (I : In (EFunction f) (strip l)) by (apply filter_In; split; [exact I'|reflexivity]). apply (find_none _ _ F) in I. cbn in I, E'. rewrite E' in I. discriminate I.
  Qed.
  Lemma entry_other l x : forall ns nf, In (EOther x) (entries ns nf l) -> exists d, In d l /\ In x (names_of_definition d) /\ ~ exists u fs, d = PSpace u fs.
  Proof.
    induction l as [|n l IH]; intros ns nf H; [destruct H|]. assert (K : forall ns nf, In (EOther x) (entries ns nf l) -> exists d, In d (n :: l) /\ In x (names_of_definition d) /\ ~ exists u fs, d = PSpace u fs) by (intros a b I; destruct (IH _ _ I) as (d & Hd & R); exists d; split; [right; exact Hd|exact R]).
    destruct n as [p|r|r|n items|n s|u fs]; cbn [entries] in H; try exact (K _ _ H); apply in_app_or in H as [H|H]; try exact (K _ _ H).
    - apply in_map_iff in H as (y & E & I). injection E as ->. eexists. split; [left; reflexivity|]. split; [exact I|]. intros (u & fs & E). discriminate E.
    - apply in_map_iff in H as (y & E & I). injection E as ->. eexists. split; [left; reflexivity|]. split; [exact I|]. intros (u & fs & E). discriminate E.
    - exfalso. assert (X : forall sp q nf, ~ In (EOther x) (read_functions sp nf q)) by (clear; intros sp q; induction q as [|[a b] q IH]; intros nf; [intros []|]; cbn; intros [E|E]; [discriminate E|exact (IH _ E)]).
      destruct u; cbn [read_blocks] in H; rewrite app_nil_r in H; [destruct H as [H|H]; [discriminate H|]|]; exact (X _ _ _ H).
  Qed.
  Lemma entry_function l f : forall ns nf, In (EFunction f) (entries ns nf l) -> exists u fs, In (PSpace u fs) l /\ In (f_short f) (map referenceName fs).
  Proof.
    induction l as [|n l IH]; intros ns nf H; [destruct H|]. assert (K : forall ns nf, In (EFunction f) (entries ns nf l) -> exists u fs, In (PSpace u fs) (n :: l) /\ In (f_short f) (map referenceName fs)) by (intros a b I; destruct (IH _ _ I) as (u & fs & Hd & R); exists u, fs; split; [right; exact Hd|exact R]).
    destruct n as [p|r|r|n items|n s|u fs]; cbn [entries] in H; try exact (K _ _ H); apply in_app_or in H as [H|H]; try exact (K _ _ H).
    - apply in_map_iff in H as (y & E & _). discriminate E.
    - apply in_map_iff in H as (y & E & _). discriminate E.
    - exists u, fs. split; [left; reflexivity|]. assert (X : forall sp q nf, In (EFunction f) (read_functions sp nf (map (fun f => (referenceName f, fst f)) q)) -> In (f_short f) (map referenceName q)) by (clear; intros sp q; induction q as [|a q IH]; intros nf; [intros []|]; cbn; intros [E|E]; [injection E as <-; left; reflexivity|right; exact (IH _ E)]).
      destruct u; cbn [read_blocks] in H; rewrite app_nil_r in H; [destruct H as [H|H]; [discriminate H|]|]; exact (X _ _ _ H).
  Qed.
End Entries.

(** * What relations ask for *)
Section Asked.
  Variables (ff : str -> option N) (fr : str -> option bool) (kn : str -> bool).
  Definition body_asks (b : body) : list str := sources_of b ++ schemas_of b.
  Lemma bindR_ok {A B} (x : RelModel.visited A) (f : A -> RelModel.visited B) r e : bindR x f = Ok (r, e) -> exists a e1 e2, x = Ok (a, e1) /\ f a = Ok (r, e2).
  Proof. unfold bindR. destruct x as [[a l]| |]; cbn [obind]; try discriminate. destruct (f (fst (a, l))) as [[b m]| |] eqn:E; cbn [obind]; try discriminate. intros H. injection H as <- _. exists a, l, m. split; [reflexivity|exact E]. Qed.
  Lemma detail_asks fi w i b d b' e : visitDetail ff fr fi w kn kn i b d = Ok (b', e) -> forall x, In x (body_asks b') -> In x (body_asks b) \/ In x (match d with OnSchema x | OnSource x => [x] | _ => [] end).
  Proof.
    intros H x I. destruct d; cbn [visitDetail] in H; try unfold visitFilter in H.
    all: repeat match type of H with
    | bindR _ _ = _ => apply bindR_ok in H as (? & ? & ? & _ & H)
    | obind ?a _ = _ => destruct a; cbn [obind] in H; try discriminate H
    | fine _ = _ => injection H as <- _
    | Ok _ = _ => injection H as <- _
    | match ?a with _ => _ end = _ => destruct a; try discriminate H
    | (if ?a then _ else _) = _ => destruct a; try discriminate H
    end; try (left; exact I).
    all: try match type of I with context [if ?a then _ else _] => destruct a end; try (left; exact I).
    all: unfold body_asks in *; cbn [sources_of schemas_of] in *; repeat (apply in_app_or in I as [I|I]); try (left; apply in_or_app; tauto); try (right; exact I).
  Qed.
  Lemma track_asks ss ag fields ds : forall i g b b' g' e, track ff fr kn ss ag fields i g b ds = Ok ((b', g'), e) -> forall x, In x (body_asks b') -> In x (body_asks b) \/ In x (flat_map (fun d => match d with OnSchema x | OnSource x => [x] | _ => [] end) ds).
  Proof.
    induction ds as [|d ds IH]; intros i g b b' g' e H x I; cbn [track] in H; [injection H as <- <- _; left; exact I|]. apply bindR_ok in H as (b1 & e1 & e2 & H1 & H2). cbn [flat_map].
    destruct (IH _ _ _ _ _ _ H2 x I) as [J|J]; [|right; apply in_or_app; right; exact J]. destruct (detail_asks _ _ _ _ _ _ _ H1 x J) as [K|K]; [left; exact K|right; apply in_or_app; left; exact K].
  Qed.
  Lemma columns_ask ss ag fields given schema b0 ds r d e : body_asks b0 = [] -> visitColumns ff fr kn ss ag fields given schema b0 ds = Ok ((r, d), e) -> forall x, In x (body_asks (r_body r)) -> In x (flat_map (fun d => match d with OnSchema x | OnSource x => [x] | _ => [] end) ds).
  Proof.
    intros B H x I. unfold visitColumns in H. apply bindR_ok in H as ([b g] & e1 & e2 & H1 & H). cbv zeta in H. apply bindR_ok in H as (emit & e3 & e4 & _ & H).
    destruct (FieldModel.applyOutputMapping _ _ _ _ _) as [out missing]. injection H as <- _ _. cbn [r_body] in I. assert (J : In x (body_asks b)) by (unfold finish in I; destruct b; try exact I; match type of I with context [match ?q with _ => _ end] => destruct q end; exact I).
    destruct (track_asks _ _ _ _ _ _ _ _ _ _ H1 x J) as [K|K]; [rewrite B in K; destruct K|exact K].
  Qed.
End Asked.
Lemma empty_asks k b : empty_body k = Some b -> body_asks b = [].
Proof. unfold empty_body. intros H. repeat match type of H with (if ?c then _ else _) = _ => destruct c; [injection H as <-; reflexivity|] end; try discriminate H. Qed.
Lemma nodes_ask ff tab rp earlier (U : str -> Prop) l : (forall n x, In n l -> In x (asked n) -> U x) ->
  forall t known known' e, visit_nodes ff tab rp earlier t known l = Ok (known', e) -> (forall n r d x, In (n, (r, d)) known -> In x (body_asks (r_body r)) -> U x) -> forall n r d x, In (n, (r, d)) known' -> In x (body_asks (r_body r)) -> U x.
Proof.
  induction l as [|m l IH]; intros Hu t known known' e H K; cbn [visit_nodes] in H; [injection H as <- _; exact K|].
  destruct (visit_node ff tab rp earlier t known m) as [[[t1 k1] e1]| |] eqn:V; cbn [obind] in H; try discriminate H. destruct (visit_nodes ff tab rp earlier t1 k1 l) as [[k2 e2]| |] eqn:V2; cbn [obind fst snd] in H; try discriminate H. injection H as <- _.
  refine (IH (fun n x I => Hu n x (or_intror I)) _ _ _ _ V2 _). unfold visit_node in V. destruct (taken rp known (n_name m)); [injection V as _ <- _; exact K|]. destruct (empty_body (n_kind m)) as [b0|] eqn:B; [|injection V as _ <- _; exact K].
  destruct (match b0 with BProject _ => _ | _ => _ end) as [t' given]. destruct (visitColumns _ _ _ _ _ _ _ _ _ _) as [[[r d] ee]| |] eqn:C; cbn [obind fst snd] in V; try discriminate V. injection V as _ <- _.
  intros n r' d' x I J. apply in_app_or in I as [I|[I|[]]]; [exact (K n r' d' x I J)|]. injection I as <- <- <-. apply (Hu m x (or_introl eq_refl)). exact (columns_ask _ _ _ _ _ _ _ _ _ _ _ _ _ (empty_asks _ _ B) C x J).
Qed.
Lemma find_rel_in n l x : find_rel n l = Some x -> In (n, x) l.
Proof. induction l as [|[m y] l IH]; [discriminate|]. cbn. destruct (seq_eqb_spec m n) as [->|N]; [intros H; injection H as ->; left; reflexivity|]. intros H. right. exact (IH H). Qed.
Section Fill.
  Variables (t1 t2 : table) (known : list known_rel) (U : str -> Prop) (Hu : forall n r d x, In (n, (r, d)) known -> In x (body_asks (r_body r)) -> U x)
    (Hc : forall x, U x -> use_schema t1 x = use_schema t2 x) (Hs : forall x, U x -> use_source t1 x = use_source t2 x).
  Lemma source_tables l : (forall x, In x l -> U x) -> forall acc, message_source t1 acc l = message_source t2 acc l.
  Proof. induction l as [|n l IH]; intros H acc; [reflexivity|]. cbn [message_source]. rewrite Hs by (apply H; left; reflexivity). destruct (use_source t2 n); cbn [obind]; try reflexivity. apply IH. intros x I. apply H. right. exact I. Qed.
  Lemma schema_tables l : (forall x, In x l -> U x) -> message_schema t1 l = message_schema t2 l.
  Proof. unfold message_schema. generalize (@None named_struct). induction l as [|n l IH]; intros acc H; [reflexivity|]. cbn [fold_left]. rewrite Hc by (apply H; left; reflexivity). apply IH. intros x I. apply H. right. exact I. Qed.
  Lemma fill_tables t : fill t1 known t = fill t2 known t.
  Proof.
    revert t. fix IH 1. intros [|u k n ins es]; [reflexivity|]. cbn [fill].
    match goal with |- (x <- ?a ins ;; _) = (y <- ?b ins ;; _) => assert (E : a ins = b ins) by (induction ins as [|i ins IHl]; [reflexivity|]; cbn; rewrite IH, IHl; reflexivity); rewrite E end.
    match goal with |- (x <- ?a ;; _) = _ => destruct a; cbn [obind]; try reflexivity end. destruct (find_rel n known) as [[r d]|] eqn:F; [|reflexivity]. apply find_rel_in in F.
    rewrite source_tables, schema_tables; [reflexivity|intros x I; apply (Hu n r d x F), in_or_app; right; exact I|intros x I; apply (Hu n r d x F), in_or_app; left; exact I].
  Qed.
  Lemma fill_all_tables l : fill_all t1 known l = fill_all t2 known l.
  Proof. induction l as [|[t ns] l IH]; [reflexivity|]. cbn [fill_all]. rewrite fill_tables, IH. reflexivity. Qed.
End Fill.

(** * All passes with a table *)
Definition from_table (tab : table) (fs : list DeclModel.entry) (pipes : list (list (str * str))) (rels : list rnode) (roots : list (list str)) (e1 : list pass_error) : outcome (option bplan * list werr) :=
    q <- TreeModel.readText {| TreeModel.x_pipes := map (map fst) pipes;
     TreeModel.x_rels := map (fun n => {| TreeModel.x_name := n_name n; TreeModel.x_kind := kind_read (n_kind n); TreeModel.x_body := n_name n; TreeModel.x_exprs := [] |}) rels;
     TreeModel.x_roots := roots; TreeModel.x_others := nodup (list_eq_dec Ascii.ascii_dec) (map s_name tab) |} ;;
    let '(rp, e2) := q in
    v <- visit_nodes (DeclModel.resolve_function fs) tab rp [] SymbolModel.empty_table [] rels ;;
    let '(first, e3) := v in
    match map WPass e1 ++ map WTree e2 ++ filter reported_first e3 with
    | [] =>
      v <- visit_nodes (DeclModel.resolve_function fs) tab rp first SymbolModel.empty_table [] rels ;;
      let '(known, e4) := v in
      l <- TreeModel.outputToBinaryPlan rp (Datatypes.S (length rels)) ;;
      r <- fill_all tab known l ;;
      Ok (Some (BPlan (DeclModel.outputExtensionSpaces fs) (DeclModel.outputFunctions fs) r), e4)
    | e => Ok (None, e)
    end.
Lemma parts_table defs pipes rels roots : from_parts defs pipes rels roots = (p <- symbols defs ;; from_table (fst p) (entries 0 0 defs) pipes rels roots (snd p)).
Proof. unfold from_parts, from_table. destruct (symbols defs) as [[tab e1]| |]; reflexivity. Qed.
Lemma table_ren g (Hg : forall a b, g a = g b -> a = b) tab fs pipes rels roots e1 : from_table (map (ren_sym g) tab) fs pipes rels roots e1 = from_table tab fs pipes rels roots e1.
Proof.
  unfold from_table. rewrite names_kept. destruct (TreeModel.readText _) as [[rp e2]| |]; cbn [obind]; try reflexivity.
  pose proof (visit_nodes_ren g Hg (DeclModel.resolve_function fs) tab rp [] rels SymbolModel.empty_table []) as V. match type of V with _ = ?r => match goal with |- obind ?a _ = _ => change (a = r) in V; rewrite V; clear V end end.
  destruct (visit_nodes _ tab rp [] _ _ _) as [[first e3]| |]; cbn [obind fst snd]; try reflexivity. destruct (map WPass e1 ++ map WTree e2 ++ filter reported_first e3); [|reflexivity].
  pose proof (visit_nodes_ren g Hg (DeclModel.resolve_function fs) tab rp first rels SymbolModel.empty_table []) as V. match type of V with _ = ?r => match goal with |- obind ?a _ = _ => change (a = r) in V; rewrite V; clear V end end.
  destruct (visit_nodes _ tab rp first _ _ _) as [[known e4]| |]; cbn [obind fst snd]; try reflexivity. destruct (TreeModel.outputToBinaryPlan _ _) as [o| |]; cbn [obind]; try reflexivity. rewrite (fill_all_ren g Hg). reflexivity.
Qed.
Lemma known_in tab n : known_symbol tab n = true <-> In n (map s_name tab).
Proof.
  unfold known_symbol, find_symbol. destruct (find (fun s => s_name s =s n) tab) as [s|] eqn:F.
  - apply find_some in F as [I E]. destruct (seq_eqb_spec (s_name s) n) as [<-|]; [|discriminate E]. split; [intros _; apply in_map, I|reflexivity].
  - split; [discriminate|]. intros I. apply in_map_iff in I as (s & <- & I). apply (find_none _ _ F) in I. rewrite seq_eqb_refl in I. discriminate I.
Qed.
Section Tables.
  Variables (t1 t2 : table) (f1 f2 : list DeclModel.entry) (rels : list rnode).
  Hypothesis Hn : forall n, In n (map s_name t1) <-> In n (map s_name t2).
  Hypothesis Hf : forall n, DeclModel.resolve_function f1 n = DeclModel.resolve_function f2 n.
  Hypothesis Hx : DeclModel.outputExtensionSpaces f1 = DeclModel.outputExtensionSpaces f2.
  Hypothesis Hd : DeclModel.outputFunctions f1 = DeclModel.outputFunctions f2.
  Hypothesis Hs : forall c, FieldModel.fullyQualifiedReference (schema_list t1) c = FieldModel.fullyQualifiedReference (schema_list t2) c.
  Hypothesis Ha : forall n x, In n rels -> In x (asked n) -> schema_columns t1 x = schema_columns t2 x /\ use_schema t1 x = use_schema t2 x /\ use_source t1 x = use_source t2 x.
  Lemma same_tables pipes roots e1 : from_table t1 f1 pipes rels roots e1 = from_table t2 f2 pipes rels roots e1.
  Proof.
    unfold from_table. set (o := nodup (list_eq_dec Ascii.ascii_dec) (map s_name t1)). set (o' := nodup (list_eq_dec Ascii.ascii_dec) (map s_name t2)). assert (Ho : forall n, In n o <-> In n o') by (intros n; unfold o, o'; rewrite !nodup_In; apply Hn). clearbody o o'.
    set (rs := map _ rels). set (ps := map (map fst) pipes). pose proof (alike_read o o' Ho ps rs roots) as A. destruct (TreeModel.readText _) as [[rp e2]| |], (TreeModel.readText _) as [[rp' e2']| |]; try contradiction; cbn [obind]; [|subst; reflexivity|reflexivity].
    destruct A as [A <-]. assert (Hk : forall n, known_symbol t1 n = known_symbol t2 n) by (intros n; apply Bool.eq_iff_eq_true; rewrite !known_in; apply Hn).
    assert (V : forall earlier t known, visit_nodes (DeclModel.resolve_function f1) t1 rp earlier t known rels = visit_nodes (DeclModel.resolve_function f2) t2 rp' earlier t known rels).
    { intros earlier. apply (visit_same _ _ Hf t1 t2 Hk Hs o o' Ho rp rp' A earlier). intros n x I J. apply (Ha n x I J). }
    rewrite V. destruct (visit_nodes _ t2 rp' [] _ _ _) as [[first e3]| |]; cbn [obind]; try reflexivity. destruct (map WPass e1 ++ map WTree e2 ++ filter reported_first e3); [|reflexivity].
    rewrite V. destruct (visit_nodes _ t2 rp' first _ _ _) as [[known e4]| |] eqn:V2; cbn [obind]; try reflexivity. rewrite (alike_output o o' Ho rp rp' A). destruct (TreeModel.outputToBinaryPlan _ _) as [l| |]; cbn [obind]; try reflexivity.
    rewrite (fill_all_tables t1 t2 known (fun x => exists n, In n rels /\ In x (asked n))), Hx, Hd; [reflexivity| | |].
    - refine (nodes_ask _ _ _ _ (fun x => exists n, In n rels /\ In x (asked n)) rels _ _ _ _ _ V2 _); [intros n x I J; eauto|intros n r d x []].
    - intros x (n & I & J). apply (Ha n x I J).
    - intros x (n & I & J). apply (Ha n x I J).
  Qed.
End Tables.

(** * The table of the definitions *)
Definition part (d : pnode) : table := match define 0 [] d with Ok (p, _) => p | _ => [] end.
Definition block_at (q : nat * pnode) : table := map (ren_sym (fun _ => fst q)) (part (snd q)).
Definition fine_part (d : pnode) : Prop := exists p, define 0 [] d = Ok (p, []).
Lemma update_apart t u n f : (forall s, In s t -> s_name s <> n) -> update_file (t ++ u) n f = (x <- update_file u n f ;; Ok (t ++ x)).
Proof.
  induction t as [|s t IH]; intros H; cbn [app update_file]; [destruct (update_file u n f); reflexivity|]. rewrite differ by (apply H; left; reflexivity). rewrite IH by (intros y I; apply H; right; exact I). destruct (update_file u n f); reflexivity.
Qed.
Lemma details_apart l n t : (forall s, In s t -> s_name s <> n) -> forall u, visitFileDetails (t ++ u) n l = (x <- visitFileDetails u n l ;; Ok (t ++ x)).
Proof. intros H. induction l as [|d l IH]; intros u; [reflexivity|]. cbn [visitFileDetails]. rewrite update_apart by exact H. destruct (update_file u n _); cbn [obind]; try reflexivity. apply IH. Qed.
Lemma files_apart i fs t : (forall s x, In s t -> In x (map fn_text fs) -> s_name s <> x) -> forall u, visitFiles (t ++ u) i fs = (x <- visitFiles u i fs ;; Ok (t ++ x)).
Proof.
  induction fs as [|f fs IH]; intros H u; [reflexivity|]. cbn [visitFiles]. rewrite <- app_assoc, details_apart by (intros s I; apply H; [exact I|left; reflexivity]). destruct (visitFileDetails _ _ _); cbn [obind]; try reflexivity.
  apply IH. intros s x I J. apply H; [exact I|right; exact J].
Qed.
Lemma define_apart i t d : (forall s x, In s t -> In x (files_in d) -> s_name s <> x) -> define i t d = (x <- define i [] d ;; Ok (t ++ fst x, snd x)).
Proof.
  intros H. destruct d as [p|r|r|name items|name [fs| |ns|]|uri fs]; cbn [define app]; cbv zeta; try (cbn [obind fst snd]; rewrite ?app_nil_r; reflexivity).
  - destruct (visitItems (i, 0) items) as [[r m]| |]; cbn [obind fst snd]; reflexivity.
  - rewrite files_apart by exact H. destruct (visitFiles _ _ _); reflexivity.
Qed.
Lemma define_at i d : define i [] d = (x <- define 0 [] d ;; Ok (map (ren_sym (fun _ => i)) (fst x), snd x)).
Proof. exact (define_ren (fun _ => i) 0 [] d). Qed.
Lemma update_names t n f t' : update_file t n f = Ok t' -> map s_name t' = map s_name t /\ map (fun s => match s_what s with WDetail _ => None | w => Some w end) t' = map (fun s => match s_what s with WDetail _ => None | w => Some w end) t.
Proof.
  revert t'. induction t as [|s t IH]; intros t' H; [discriminate H|]. cbn [update_file] in H. destruct (s_name s =s n).
  - destruct (s_what s) as [| | | | | |[x|]| |] eqn:W; try discriminate H. destruct (f x); cbn [obind] in H; try discriminate H. injection H as <-. cbn [map s_name s_what]. rewrite W. split; reflexivity.
  - destruct (update_file t n f) as [r| |]; cbn [obind] in H; try discriminate H. injection H as <-. destruct (IH r eq_refl) as [A B]. cbn [map]. rewrite A, B. split; reflexivity.
Qed.
Lemma details_names l n : forall t t', visitFileDetails t n l = Ok t' -> map s_name t' = map s_name t /\ map (fun s => match s_what s with WDetail _ => None | w => Some w end) t' = map (fun s => match s_what s with WDetail _ => None | w => Some w end) t.
Proof.
  induction l as [|d l IH]; intros t t' H; cbn [visitFileDetails] in H; [injection H as <-; split; reflexivity|]. destruct (update_file t n (set_detail d)) as [u| |] eqn:E; cbn [obind] in H; try discriminate H. apply update_names in E as [A B]. apply IH in H as [C D]. rewrite C, D. split; assumption.
Qed.
Lemma files_names i fs : forall t t', visitFiles t i fs = Ok t' -> map s_name t' = map s_name t ++ map fn_text fs /\ map (fun s => match s_what s with WDetail _ => None | w => Some w end) t' = map (fun s => match s_what s with WDetail _ => None | w => Some w end) t ++ map (fun _ => None) fs.
Proof.
  induction fs as [|f fs IH]; intros t t' H; cbn [visitFiles] in H; [injection H as <-; cbn [map]; rewrite !app_nil_r; split; reflexivity|]. destruct (visitFileDetails _ _ _) as [u| |] eqn:E; cbn [obind] in H; try discriminate H. apply details_names in E as [A B]. apply IH in H as [C D].
  rewrite C, D, A, B, !map_app, <- !app_assoc. split; reflexivity.
Qed.
Lemma items_names l items : forall r e, visitItems l items = Ok (r, e) -> map s_name r = map fst items /\ forall s, In s r -> s_what s <> WSchema.
Proof.
  induction items as [|[n w] items IH]; intros r e H; cbn [visitItems] in H; [injection H as <- _; split; [reflexivity|intros s []]|]. unfold bindE in H. destruct (read_type false w) as [[t e1]| |]; cbn [obind fst snd] in H; try discriminate H.
  destruct (visitItems l items) as [[r2 e2]| |]; cbn [obind fst snd good] in H; try discriminate H. injection H as <- _. destruct (IH _ _ eq_refl) as [A B]. split; [cbn; rewrite A; reflexivity|]. intros s [<-|I]; [discriminate|exact (B s I)].
Qed.
Lemma functions_names i fs : forall j, map s_name (function_symbols i j fs) = map referenceName fs /\ forall s, In s (function_symbols i j fs) -> s_what s <> WSchema.
Proof. induction fs as [|f fs IH]; intros j; [split; [reflexivity|intros s []]|]. cbn. destruct (IH (S j)) as [A B]. rewrite A. split; [reflexivity|]. intros s [<-|I]; [discriminate|exact (B s I)]. Qed.
Lemma part_names d : map s_name (part d) = names_of_definition d \/ part d = [].
Proof.
  unfold part. destruct d as [p|r|r|name items|name [fs| |ns|]|uri fs]; cbn [define app]; cbv zeta; try (left; reflexivity).
  - destruct (visitItems _ _) as [[r m]| |] eqn:E; cbn [obind fst snd]; [|right; reflexivity..]. left. cbn. rewrite (proj1 (items_names _ _ _ _ E)). reflexivity.
  - destruct (visitFiles _ _ _) as [t| |] eqn:E; cbn [obind fst snd]; [|right; reflexivity..]. left. exact (proj1 (files_names _ _ _ _ E)).
  - left. cbn. rewrite map_map. reflexivity.
  - left. cbn. rewrite map_app, (proj1 (functions_names 0 fs 0)). destruct uri; reflexivity.
Qed.
Lemma part_schema d s : In s (part d) -> s_what s = WSchema -> exists items, d = PSchema (s_name s) items.
Proof.
  unfold part. destruct d as [p|r|r|name items|name [fs| |ns|]|uri fs]; cbn [define app]; cbv zeta; try (intros []; fail).
  - destruct (visitItems _ _) as [[r m]| |] eqn:E; cbn [obind fst snd]; [|intros []..]. intros [<-|I] W; [eexists; reflexivity|]. destruct (proj2 (items_names _ _ _ _ E) s I W).
  - destruct (visitFiles _ _ _) as [t| |] eqn:E; cbn [obind fst snd]; [|intros []..]. apply files_names in E as [_ E]. cbn [map s_what app] in E. intros I W. exfalso.
    assert (J : In (Some WSchema) (map (fun s => match s_what s with WDetail _ => None | w => Some w end) t)) by (apply in_map_iff; exists s; rewrite W; split; [reflexivity|exact I]). rewrite E in J. destruct J as [J|J]; [discriminate J|]. apply in_map_iff in J as (? & J & _). discriminate J.
  - intros [<-|[]] W; discriminate W.
  - intros [<-|I] W; [discriminate W|]. apply in_map_iff in I as (y & <- & _). discriminate W.
  - intros [<-|[]] W; discriminate W.
  - intros I W. exfalso. cbn [obind fst snd] in I. apply in_app_or in I as [I|I]; [|exact (proj2 (functions_names 0 fs 0) s I W)]. destruct uri; [|destruct I]. destruct I as [<-|[]]. discriminate W.
Qed.
Lemma block_names q s : In s (block_at q) -> In (s_name s) (names_of_definition (snd q)) /\ fst (s_loc s) = fst q.
Proof. unfold block_at. intros I. apply in_map_iff in I as (y & <- & I). split; [|reflexivity]. destruct (part_names (snd q)) as [E|E]; [rewrite <- E; exact (in_map s_name _ _ I)|rewrite E in I; destruct I]. Qed.
(** ** Definitions one after the other *)
Definition numbered (i : nat) (l : list pnode) : list (nat * pnode) := combine (seq i (length l)) l.
Definition files_free (t : table) (l : list pnode) : Prop := forall before d after x, l = before ++ d :: after -> In x (files_in d) -> (forall s, In s t -> s_name s <> x) /\ forall e, In e before -> ~ In x (names_of_definition e).
Lemma files_next t d l i : files_free t (d :: l) -> files_free (t ++ block_at (i, d)) l.
Proof.
  intros H before e after x -> I. destruct (H (d :: before) e after x eq_refl I) as [A B]. split; [|intros y J; apply B; right; exact J]. intros s J. apply in_app_or in J as [J|J]; [exact (A s J)|]. apply block_names in J as [J _]. intros <-. exact (B d (or_introl eq_refl) J).
Qed.
Lemma define_numbered l : forall i t, files_free t l -> (forall d, In d l -> fine_part d) -> define_all i t l = Ok (t ++ flat_map block_at (numbered i l), []).
Proof.
  induction l as [|d l IH]; intros i t F P; cbn [define_all]; [cbn; rewrite app_nil_r; reflexivity|]. rewrite define_apart by (intros s x I J; apply (F [] d l x eq_refl J), I). destruct (P d (or_introl eq_refl)) as (p & E).
  rewrite define_at, E. cbn [obind fst snd]. assert (B : map (ren_sym (fun _ => i)) p = block_at (i, d)) by (unfold block_at, part; cbn [fst snd]; rewrite E; reflexivity). rewrite B, IH; [|apply files_next, F|intros y I; apply P; right; exact I].
  cbn [obind fst snd app]. unfold numbered. cbn [length seq combine flat_map]. rewrite <- app_assoc. reflexivity.
Qed.
Lemma defined_fine l : forall i t tab, files_free t l -> define_all i t l = Ok (tab, []) -> forall d, In d l -> fine_part d.
Proof.
  induction l as [|d l IH]; intros i t tab F H; [intros d []|]. cbn [define_all] in H. rewrite define_apart in H by (intros s x I J; apply (F [] d l x eq_refl J), I). rewrite define_at in H. destruct (define 0 [] d) as [[p e]| |] eqn:E; cbn [obind fst snd] in H; try discriminate H.
  assert (B : map (ren_sym (fun _ => i)) p = block_at (i, d)) by (unfold block_at, part; cbn [fst snd]; rewrite E; reflexivity). rewrite B in H. destruct (define_all (S i) _ l) as [[tab2 e2]| |] eqn:D; cbn [obind fst snd] in H; try discriminate H.
  injection H as _ He. apply app_eq_nil in He as [-> ->]. intros y [<-|I]; [exists p; exact E|]. exact (IH _ _ _ (files_next t d l i F) D y I).
Qed.
(** ** In another order *)
Lemma renumbered l l' : Permutation l l' -> forall js, length js = length l -> exists js', Permutation (combine js l : list (nat * pnode)) (combine js' l') /\ Permutation js js' /\ length js' = length l'.
Proof.
  induction 1 as [|x l l' P IH|x y l|l l' l'' P IH P' IH']; intros js E.
  - exists js. split; [reflexivity|]. split; [reflexivity|exact E].
  - destruct js as [|j js]; [discriminate E|]. destruct (IH js) as (js' & A & B & C); [injection E as E; exact E|]. exists (j :: js'). cbn [combine length]. split; [constructor; exact A|]. split; [constructor; exact B|rewrite C; reflexivity].
  - destruct js as [|j [|k js]]; try discriminate E. exists (k :: j :: js). cbn [combine length] in *. split; [constructor|]. split; [constructor|exact E].
  - destruct (IH js E) as (js1 & A & B & C). destruct (IH' js1 C) as (js2 & A' & B' & C'). exists js2. split; [etransitivity; eassumption|]. split; [etransitivity; eassumption|exact C'].
Qed.
Section Blocks.
  Variables (Q Q' : list (nat * pnode)) (P : Permutation Q Q') (ND : NoDup (map fst Q)).
  Let same_q q r : In q Q -> In r Q -> fst q = fst r -> q = r.
  Proof.
    revert ND. clear. induction Q as [|x l IH]; intros N I J E; [destruct I|]. cbn [map] in N. inversion N as [|a b Nx Nl]; subst. destruct I as [->|I], J as [->|J]; [reflexivity| | |exact (IH Nl I J E)]; exfalso; apply Nx; [rewrite E|rewrite <- E]; apply in_map; assumption.
  Qed.
  Let T := flat_map block_at Q. Let T' := flat_map block_at Q'.
  Lemma blocks_perm : Permutation T T'. Proof. apply Permutation_flat_map, P. Qed.
  Lemma schema_list_app a b : schema_list (a ++ b) = schema_list a ++ schema_list b. Proof. apply flat_map_app. Qed.
  Lemma blocks_schema n k : In (n, k) (schema_list T) -> exists q items, In q Q /\ k = S (fst q) /\ snd q = PSchema n items.
  Proof.
    unfold schema_list. intros I. apply in_flat_map in I as (s & I & J). destruct (s_what s) eqn:W; try (destruct J; fail). destruct J as [J|[]]. injection J as <- <-.
    apply in_flat_map in I as (q & Iq & I). exists q. destruct (block_names q s I) as [_ <-]. unfold block_at in I. apply in_map_iff in I as (y & <- & I). cbn in W. destruct (part_schema _ _ I W) as (items & E). exists items. split; [exact Iq|]. split; [reflexivity|exact E].
  Qed.
  Lemma blocks_full c : FieldModel.fullyQualifiedReference (schema_list T) c = FieldModel.fullyQualifiedReference (schema_list T') c.
  Proof.
    unfold FieldModel.fullyQualifiedReference. rewrite (find_perm (fun s => snd s =? FieldModel.c_loc c) (schema_list T) (schema_list T')); [reflexivity|unfold schema_list; apply Permutation_flat_map, blocks_perm|].
    intros [n k] [m j] I J E F. cbn [snd] in E, F. apply Nat.eqb_eq in E, F. destruct (blocks_schema n k I) as (q & i1 & Iq & Ek & Eq). destruct (blocks_schema m j J) as (r & i2 & Ir & Ej & Er).
    assert (q = r) by (apply same_q; [exact Iq|exact Ir|lia]). subst r. rewrite Eq in Er. injection Er as <- _. f_equal. lia.
  Qed.
  Definition alone (x : str) : Prop := forall q r, In q Q -> In r Q -> In x (names_of_definition (snd q)) -> In x (names_of_definition (snd r)) -> q = r.
  Lemma find_flat {A B} (f : A -> list B) (p : B -> bool) l : find p (flat_map f l) = fold_right (fun a r => match find p (f a) with Some s => Some s | None => r end) None l.
  Proof. induction l as [|a l IH]; [reflexivity|]. cbn [flat_map fold_right]. rewrite <- IH. induction (f a) as [|b m IHm]; [reflexivity|]. cbn [app find]. destruct (p b); [reflexivity|exact IHm]. Qed.
  Lemma find_only {A B} (f : A -> list B) (p : B -> bool) l q s : In q l -> find p (f q) = Some s -> (forall r y, In r l -> find p (f r) = Some y -> r = q) -> find p (flat_map f l) = Some s.
  Proof.
    rewrite find_flat. induction l as [|a l IH]; intros I E H; [destruct I|]. cbn [fold_right]. destruct (find p (f a)) as [y|] eqn:F; [rewrite (H a y (or_introl eq_refl) F), E in F; symmetry; exact F|].
    destruct I as [->|I]; [rewrite E in F; discriminate F|]. apply IH; [exact I|exact E|]. intros r y J. apply H. right. exact J.
  Qed.
  Lemma find_no {A B} (f : A -> list B) (p : B -> bool) l : (forall r, In r l -> find p (f r) = None) -> find p (flat_map f l) = None.
  Proof. rewrite find_flat. induction l as [|a l IH]; intros H; [reflexivity|]. cbn [fold_right]. rewrite H by (left; reflexivity). apply IH. intros r I. apply H. right. exact I. Qed.
  Lemma blocks_find x : alone x -> find_symbol T x = find_symbol T' x.
  Proof.
    intros Al. unfold find_symbol. destruct (find (fun s => s_name s =s x) T) as [s|] eqn:F.
    - pose proof (find_some _ _ F) as [I E]. apply in_flat_map in I as (q & Iq & I). destruct (seq_eqb_spec (s_name s) x) as [Nx|]; [|discriminate E]. clear E.
      assert (O : forall r y, In r Q -> find (fun s => s_name s =s x) (block_at r) = Some y -> r = q).
      { intros r y J G. apply find_some in G as [G E]. destruct (seq_eqb_spec (s_name y) x) as [Ny|]; [|discriminate E]. apply Al; [exact J|exact Iq| |]; [rewrite <- Ny; apply (block_names r y G)|rewrite <- Nx; apply (block_names q s I)]. }
      destruct (find (fun s => s_name s =s x) (block_at q)) as [s'|] eqn:G; [|exfalso; apply (find_none _ _ G) in I; rewrite Nx, seq_eqb_refl in I; discriminate I].
      assert (E1 := find_only block_at _ Q q s' Iq G O). unfold T in F. rewrite E1 in F. injection F as ->.
      symmetry. unfold T'. apply (find_only block_at _ Q' q s (Permutation_in _ P Iq) G). intros r y J. apply O. exact (Permutation_in _ (Permutation_sym P) J).
    - symmetry. destruct (find (fun s => s_name s =s x) T') as [s|] eqn:G; [|reflexivity]. exfalso. apply find_some in G as [I E]. apply (Permutation_in _ (Permutation_sym blocks_perm)) in I. pose proof (find_none _ _ F s I) as N. cbv beta in N. rewrite N in E. discriminate E.
  Qed.
  Lemma filter_flat {A B} (f : A -> list B) (p : B -> bool) l : filter p (flat_map f l) = flat_map (fun a => filter p (f a)) l.
  Proof. induction l as [|a l IH]; [reflexivity|]. cbn [flat_map]. rewrite filter_app, IH. reflexivity. Qed.
  Lemma flat_only {A B} (f : A -> list B) (k : A -> nat) l q : NoDup (map k l) -> In q l -> (forall r, In r l -> k r <> k q -> f r = []) -> flat_map f l = f q.
  Proof.
    intros N I H. apply in_split in I as (a & b & ->). rewrite map_app in N. cbn [map] in N. apply NoDup_remove_2 in N. rewrite flat_map_app. cbn [flat_map].
    assert (X : forall m, (forall r, In r m -> f r = []) -> flat_map f m = []) by (clear; induction m as [|r m IH]; intros H; [reflexivity|]; cbn [flat_map]; rewrite H by (left; reflexivity); apply IH; intros y I; apply H; right; exact I).
    rewrite !X; [rewrite app_nil_r; reflexivity| |]; intros r I; apply H; try (apply in_or_app; cbn [In]; tauto); intros E; apply N, in_or_app; [right|left]; rewrite <- E; apply in_map, I.
  Qed.
  Lemma at_block (w : sym -> bool) q s : In q Q -> fst (s_loc s) = fst q -> filter (fun y => at_loc (s_loc s) y && w y) T = filter (fun y => at_loc (s_loc s) y && w y) T'.
  Proof.
    intros I E. unfold T, T'. rewrite !filter_flat. assert (H : forall r, fst r <> fst q -> filter (fun y => at_loc (s_loc s) y && w y) (block_at r) = []).
    { intros r D. assert (X : forall y, In y (block_at r) -> at_loc (s_loc s) y && w y = false).
      { intros y J. apply block_names in J as [_ J]. unfold at_loc. rewrite J, E. destruct (Nat.eqb_spec (fst r) (fst q)); [contradiction|reflexivity]. }
      induction (block_at r) as [|y l IH]; [reflexivity|]. cbn [filter]. rewrite X by (left; reflexivity). apply IH. intros z J. apply X. right. exact J. }
    set (f := fun r => filter (fun y => at_loc (s_loc s) y && w y) (block_at r)) in *.
    rewrite (flat_only f fst Q q ND I (fun r _ => H r)), (flat_only f fst Q' q (Permutation_NoDup (Permutation_map fst P) ND) (Permutation_in _ P I) (fun r _ => H r)). reflexivity.
  Qed.
  Lemma blocks_asked x : alone x -> schema_columns T x = schema_columns T' x /\ use_schema T x = use_schema T' x /\ use_source T x = use_source T' x.
  Proof.
    intros Al. unfold schema_columns, use_schema, use_source. rewrite <- (blocks_find x Al). destruct (find_symbol T x) as [s|] eqn:F; [|repeat split]. apply find_some in F as [I _]. apply in_flat_map in I as (q & Iq & I). apply block_names in I as [_ E].
    unfold columns_at, details_at. rewrite !(fun w => at_block w q s Iq E). repeat split.
  Qed.
End Blocks.

(** * Texts *)
Lemma numbered_names l : map fst (numbered 0 l) = seq 0 (length l) /\ map snd (numbered 0 l) = l.
Proof.
  unfold numbered. assert (X : forall i, map fst (combine (seq i (length l)) l) = seq i (length l) /\ map snd (combine (seq i (length l)) l) = l) by (induction l as [|d l IH]; intros i; [split; reflexivity|]; cbn [length seq combine map fst snd]; destruct (IH (S i)) as [-> ->]; split; reflexivity). apply X.
Qed.
Lemma one_alone l x : one_definition l x -> alone (numbered 0 l) x.
Proof.
  intros H q r I J Nq Nr. destruct (Nat.eq_dec (fst q) (fst r)) as [E|E].
  - pose proof (numbered_names l) as [N _]. assert (ND : NoDup (map fst (numbered 0 l))) by (rewrite N; apply seq_NoDup). clear H Nq Nr N. induction (numbered 0 l) as [|y m IH]; [destruct I|]. cbn [map] in ND. inversion ND as [|a b Nx Nl]; subst.
    destruct I as [->|I], J as [->|J]; [reflexivity| | |exact (IH I J Nl)]; exfalso; apply Nx; [rewrite E|rewrite <- E]; apply in_map; assumption.
  - exfalso. pose proof (numbered_names l) as [_ N]. apply in_split in I as (a & b & Eq). rewrite Eq in J. apply in_app_or in J as [J|[J|J]].
    + apply in_split in J as (c & d & ->). apply (H (map snd c) (snd r) (map snd d) (snd q) (map snd b)); [|exact Nr|exact Nq]. rewrite <- N, Eq, !map_app. cbn [map]. rewrite <- app_assoc. reflexivity.
    + subst r. apply E. reflexivity.
    + apply in_split in J as (c & d & ->). apply (H (map snd a) (snd q) (map snd c) (snd r) (map snd d)); [|exact Nq|exact Nr]. rewrite <- N, Eq, !map_app. cbn [map]. rewrite map_app. reflexivity.
Qed.
Lemma alone_one Q x : alone Q x -> NoDup (map fst Q) -> one_definition (map snd Q) x.
Proof.
  intros H ND before d between e after E I J. symmetry in E. apply eq_sym, map_eq_app in E as (a & b & -> & Ea & Eb). apply map_eq_cons in Eb as (q & b' & -> & <- & Eb). apply map_eq_app in Eb as (c & f & -> & Ec & Ef). apply map_eq_cons in Ef as (r & f' & -> & <- & Ef).
  assert (X : q = r) by (apply H; [apply in_elt|apply in_or_app; right; right; apply in_elt|exact I|exact J]). subst r. rewrite map_app in ND. cbn [map] in ND. apply NoDup_remove_2 in ND. apply ND. rewrite map_app. cbn [map]. apply in_or_app. right. apply in_elt.
Qed.
Lemma alone_perm Q Q' x : Permutation Q Q' -> alone Q x -> alone Q' x.
Proof. intros P H q r I J. exact (H q r (Permutation_in _ (Permutation_sym P) I) (Permutation_in _ (Permutation_sym P) J)). Qed.
Lemma free_files l : (forall d x, In d l -> In x (files_in d) -> one_definition l x) -> files_free [] l.
Proof.
  intros H before d after x -> I. split; [intros s []|]. intros e J K. apply in_split in J as (a & b & ->). refine (H d x (in_elt _ _ _) I a e b d after _ K _); [rewrite <- app_assoc; reflexivity|].
  destruct d as [p|r|r|name items|name [fs| |ns|]|uri fs]; try (destruct I; fail). right. exact I.
Qed.
Lemma definition_space l u fs : In (PSpace u fs) l <-> In (PSpace u fs) (definitions l).
Proof. unfold definitions. rewrite filter_In. cbn. tauto. Qed.
Lemma spaces_definitions l : spaces_of (definitions l) = spaces_of l.
Proof. induction l as [|n l IH]; [reflexivity|]. destruct n; cbn [definitions filter is_definition]; unfold spaces_of in *; cbn [flat_map]; fold (definitions l); rewrite ?IH; reflexivity. Qed.
(** The tables of two texts whose definitions are moved are the same for all that is asked, up to the places of the definitions. *)
Definition same_answers (t1 t2 : table) (f1 f2 : list DeclModel.entry) (rels : list rnode) : Prop :=
  (forall n, In n (map s_name t1) <-> In n (map s_name t2)) /\
  (forall n, DeclModel.resolve_function f1 n = DeclModel.resolve_function f2 n) /\
  DeclModel.outputExtensionSpaces f1 = DeclModel.outputExtensionSpaces f2 /\
  DeclModel.outputFunctions f1 = DeclModel.outputFunctions f2 /\
  (forall c, FieldModel.fullyQualifiedReference (schema_list t1) c = FieldModel.fullyQualifiedReference (schema_list t2) c) /\
  (forall n x, In n rels -> In x (asked n) -> schema_columns t1 x = schema_columns t2 x /\ use_schema t1 x = use_schema t2 x /\ use_source t1 x = use_source t2 x).
Lemma moved_tables a c tab : definitions_moved a c -> distinct_names a -> symbols (definitions a) = Ok (tab, []) -> exists tab' g, symbols (definitions c) = Ok (tab', []) /\ (forall x y : nat, g x = g y -> x = y) /\
  same_answers tab (map (ren_sym g) tab') (entries 0 0 (definitions a)) (entries 0 0 (definitions c)) (relations_of a).
Proof.
  intros (Pd & Es & Ep & Er & Eo) (D1 & D2 & D3) Sy. set (l := definitions a) in *. set (l' := definitions c) in *.
  set (Q := numbered 0 l). destruct (numbered_names l) as [Q1 Q2]. fold Q in Q1, Q2. assert (ND : NoDup (map fst Q)) by (rewrite Q1; apply seq_NoDup).
  assert (F : forall d x, In d l -> In x (files_in d) -> one_definition l x) by (intros d x I; apply D3; unfold l, definitions in I; apply filter_In in I; apply I).
  pose proof (free_files l F) as FF.
  pose proof (defined_fine l 0 [] tab FF Sy) as Fp. pose proof (define_numbered l 0 [] FF Fp) as Sy2. unfold symbols in Sy. rewrite Sy in Sy2. injection Sy2 as ->. cbn [app] in *. fold Q.
  destruct (renumbered l l' Pd (seq 0 (length l)) (seq_length _ _)) as (js & Pq & Pj & Lj). fold (numbered 0 l) in Pq. fold Q in Pq. set (Q' := combine js l') in *.
  assert (Q2' : map snd Q' = l'). { unfold Q'. clear - Lj. revert js Lj. induction l' as [|d m IH]; intros [|j js] E; try discriminate E; [reflexivity|]. cbn. rewrite IH by (injection E as E; exact E). reflexivity. }
  assert (ND' : NoDup (map fst Q')) by exact (Permutation_NoDup (Permutation_map fst Pq) ND).
  assert (F' : forall d x, In d l' -> In x (files_in d) -> one_definition l' x).
  { intros d x I J. rewrite <- Q2'. apply alone_one; [|exact ND']. apply (alone_perm Q Q' x Pq), one_alone, (F d x); [exact (Permutation_in _ (Permutation_sym Pd) I)|exact J]. }
  assert (Fp' : forall d, In d l' -> fine_part d) by (intros d I; apply Fp; exact (Permutation_in _ (Permutation_sym Pd) I)).
  assert (Ll : length l' = length l) by (symmetry; apply Permutation_length, Pd).
  set (g := fun k => nth k js k). assert (Hg : forall x y, g x = g y -> x = y).
  { assert (Bd : forall x, x < length js -> g x < length js) by (intros x B; assert (I : In (nth x js x) js) by (apply nth_In, B); apply (Permutation_in _ (Permutation_sym Pj)), in_seq in I; unfold g; lia).
    assert (Bo : forall x, length js <= x -> g x = x) by (intros x B; unfold g; apply nth_overflow, B). intros x y E. destruct (Nat.lt_ge_cases x (length js)) as [A|A], (Nat.lt_ge_cases y (length js)) as [B|B].
    - assert (Nj : NoDup js) by (apply (Permutation_NoDup Pj), seq_NoDup). unfold g in E. rewrite (nth_indep js x y A) in E. exact (proj1 (NoDup_nth js y) Nj x y A B E).
    - apply Bd in A. rewrite (Bo y B) in E. lia.
    - apply Bd in B. rewrite (Bo x A) in E. lia.
    - rewrite (Bo x A), (Bo y B) in E. exact E. }
  assert (Eg : map (ren_sym g) (flat_map block_at (numbered 0 l')) = flat_map block_at Q').
  { unfold numbered, Q'. assert (Gs : map g (seq 0 (length l')) = js).
    { rewrite <- Lj. apply (nth_ext _ _ 0 0); [rewrite map_length, seq_length; reflexivity|]. intros k B. rewrite map_length, seq_length in B. rewrite (nth_indep _ 0 (g 0)) by (rewrite map_length, seq_length; exact B). rewrite map_nth, seq_nth by exact B. unfold g. cbn [Nat.add]. apply nth_indep, B. }
    rewrite <- Gs. clear. generalize (seq 0 (length l')). induction l' as [|d m IH]; intros [|k ks]; try reflexivity. cbn [combine map flat_map]. rewrite map_app, IH. f_equal. unfold block_at. cbn [fst snd]. rewrite map_map. reflexivity. }
  exists (flat_map block_at (numbered 0 l')), g. split; [exact (define_numbered l' 0 [] (free_files l' F') Fp')|]. split; [exact Hg|]. rewrite Eg.
  assert (Nf : forall x l0, (forall u fs d y, In (PSpace u fs) l0 -> In y (map referenceName fs) -> In d l0 -> In y (names_of_definition d) -> exists u' fs', d = PSpace u' fs') -> DeclModel.resolve_function (entries 0 0 l0) x = DeclModel.resolve_function (DeclModel.read_blocks 0 0 (spaces_of l0)) x).
  { intros x l0 D. rewrite <- strip_entries. apply resolve_strip. intros f I J. apply entry_function in I as (u & fs & I & K). apply entry_other in J as (d & J & K' & N). apply N. exact (D u fs d _ I K J K'). }
  assert (D : forall u fs d y, In (PSpace u fs) l -> In y (map referenceName fs) -> In d l -> In y (names_of_definition d) -> exists u' fs', d = PSpace u' fs').
  { intros u fs d y I K J. apply (D1 u fs d y); [apply definition_space, I|exact K|]. unfold l, definitions in J. apply filter_In in J. apply J. }
  assert (Sp : spaces_of l' = spaces_of l) by (unfold l, l'; rewrite !spaces_definitions; symmetry; exact Es).
  assert (St : strip (entries 0 0 l) = strip (entries 0 0 l')) by (rewrite !strip_entries, Sp; reflexivity).
  split; [|split; [|split; [|split; [|split]]]].
  - intros n. pose proof (Permutation_map s_name (blocks_perm Q Q' Pq)) as X. split; apply Permutation_in; [exact X|exact (Permutation_sym X)].
  - intros n. rewrite (Nf n l D), (Nf n l'), Sp; [reflexivity|]. intros u fs d y I K J. apply (D u fs d y); [exact (Permutation_in _ (Permutation_sym Pd) I)|exact K|exact (Permutation_in _ (Permutation_sym Pd) J)].
  - unfold DeclModel.outputExtensionSpaces. rewrite spaces_strip, St, <- spaces_strip. reflexivity.
  - rewrite output_strip, St, <- output_strip. reflexivity.
  - apply (blocks_full Q Q' Pq ND).
  - intros n x I J. apply (blocks_asked Q Q' Pq ND). apply one_alone, (D2 n x I J).
Qed.
Lemma definitions_order_nodes a c b e : definitions_moved a c -> distinct_names a -> from_nodes a = Ok (Some b, e) -> from_nodes c = Ok (Some b, e).
Proof.
  intros M D H. pose proof M as (_ & _ & Ep & Er & Eo). rewrite from_nodes_parts in H. rewrite from_nodes_parts, <- Ep, <- Er, <- Eo. rewrite parts_table in H |- *. destruct (symbols (definitions a)) as [[tab e1]| |] eqn:Sy; cbn [obind fst snd] in H; try discriminate H.
  assert (E1 : e1 = []). { unfold from_table in H. destruct (TreeModel.readText _) as [[rp e2]| |]; cbn [obind] in H; try discriminate H. destruct (visit_nodes _ _ _ _ _ _ _) as [[first e3]| |]; cbn [obind] in H; try discriminate H. destruct e1; [reflexivity|]. cbn [map app] in H. discriminate H. }
  subst e1. destruct (moved_tables a c tab M D Sy) as (tab' & g & -> & Hg & A1 & A2 & A3 & A4 & A5 & A6). cbn [obind fst snd]. rewrite <- (table_ren g Hg), <- H. symmetry. apply same_tables; assumption.
Qed.
Theorem definitions_order s s' a c b e : parse s = Some a -> parse s' = Some c -> definitions_moved a c -> distinct_names a -> from_text s = Ok (Some b, e) -> from_text s' = Ok (Some b, e).
Proof. intros Ha Hc M D H. rewrite from_text_nodes, Ha in H. rewrite from_text_nodes, Hc. exact (definitions_order_nodes a c b e M D H). Qed.
(** Everything moved: first the definitions, then the relations *)
Definition others (l : list pnode) : list pnode := filter (fun n => negb (is_definition n)) l.
Lemma moved_parts d a : Forall (fun n => is_definition n = true) d -> definitions (d ++ others a) = d /\ pipelines_of (d ++ others a) = pipelines_of a /\ relations_of (d ++ others a) = relations_of a /\ roots_of (d ++ others a) = roots_of a.
Proof.
  intros F. assert (X : definitions d = d /\ pipelines_of d = [] /\ relations_of d = [] /\ roots_of d = []).
  { induction F as [|n d E F (A & B & C & D)]; [repeat split|]. destruct n; try discriminate E; unfold definitions, pipelines_of, relations_of, roots_of in *; cbn [filter is_definition flat_map app]; rewrite A; auto. }
  assert (Y : definitions (others a) = [] /\ pipelines_of (others a) = pipelines_of a /\ relations_of (others a) = relations_of a /\ roots_of (others a) = roots_of a).
  { clear. induction a as [|n a (A & B & C & D)]; [repeat split|]. destruct n; unfold others, definitions, pipelines_of, relations_of, roots_of in *; cbn [filter is_definition negb flat_map app]; rewrite ?A, ?B, ?C, ?D; auto. }
  destruct X as (X1 & X2 & X3 & X4), Y as (Y1 & Y2 & Y3 & Y4). unfold definitions, pipelines_of, relations_of, roots_of in *. rewrite filter_app, !flat_map_app, X1, X2, X3, X4, Y1, Y2, Y3, Y4, app_nil_r. repeat split.
Qed.
Lemma spaces_others d a : spaces_of (d ++ others a) = spaces_of d.
Proof. unfold spaces_of. rewrite flat_map_app. assert (X : flat_map (fun n => match n with PSpace u fs => [(u, map (fun f => (referenceName f, fst f)) fs)] | _ => [] end) (others a) = []) by (induction a as [|n a IH]; [reflexivity|]; destruct n; exact IH). rewrite X. apply app_nil_r. Qed.
Theorem any_order s s' a c b : parse s = Some a -> parse s' = Some c -> Permutation (definitions a) (definitions c) -> spaces_of a = spaces_of c -> pipelines_of a = pipelines_of c -> Permutation (relations_of a) (relations_of c) -> roots_of a = roots_of c ->
  distinct_names a -> inputs_first a -> inputs_first c -> known_names a -> named_expressions a -> from_text s = Ok (Some b, []) ->
  exists b', from_text s' = Ok (Some b', []) /\ b_uris b' = b_uris b /\ b_decls b' = b_decls b /\ Permutation (b_rels b) (b_rels b').
Proof.
  intros Ha Hc Pd Es Ep Pr Eo D Ia Ic Kn Nm H. rewrite from_text_nodes, Ha in H. rewrite from_text_nodes, Hc. set (m := definitions c ++ others a).
  assert (F : Forall (fun n => is_definition n = true) (definitions c)) by (apply Forall_forall; intros n I; apply filter_In in I; apply I). destruct (moved_parts (definitions c) a F) as (M1 & M2 & M3 & M4). fold m in M1, M2, M3, M4.
  assert (Hm : from_nodes m = Ok (Some b, [])). { refine (definitions_order_nodes a m b [] _ D H). split; [rewrite M1; exact Pd|]. split; [unfold m; rewrite spaces_others, spaces_definitions; exact Es|]. split; [symmetry; exact M2|]. split; symmetry; assumption. }
  refine (relations_order_nodes m c b _ _ Ic _ _ Hm).
  - split; [exact M1|]. split; [rewrite M2; exact Ep|]. split; [rewrite M3; exact Pr|rewrite M4; exact Eo].
  - unfold inputs_first, arrows. rewrite M2, M3. exact Ia.
  - unfold known_names, arrows. rewrite M2, M3, M4. exact Kn.
  - unfold named_expressions. rewrite M3. exact Nm.
Qed.
(** A way to see that no two definitions have a name *)
Lemma count_one l x : length (filter (fun d => has (names_of_definition d) x) l) <= 1 -> one_definition l x.
Proof.
  intros H before d between e after -> I J. apply has_in in I, J. rewrite filter_app, app_length in H. cbn [filter] in H. rewrite I in H. cbn [length] in H. rewrite filter_app, app_length in H. cbn [filter] in H. rewrite J in H. cbn [length] in H. lia.
Qed.
