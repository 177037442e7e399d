(** Whole plans: from the binary plan to text and back (WholeModel).  Everything that the symbols of a plan, its relations, expressions and names contribute comes together
    here: the names given on import keep the sections apart, the text has the same symbols, each relation is read with the columns it was written with, and the trees
    are built again from the pipelines. *)
From Verif Require Import Base BaseFacts StringsModel StringsFacts EnumModel TypeModel TypeProtoFacts LexModel LexFacts NameModel NameFacts ExprModel TypeTokenFacts LiteralFacts ExprFacts FirstFacts RelModel RelFacts SectionModel
  SectionFacts WholeModel WholeFacts WholeNameFacts WholeReadFacts.
From Verif Require SymbolModel SymbolMoreFacts FieldModel FieldFacts DeclModel DeclFacts PipeModel PipeFacts TreeModel TreeFacts PrintFacts.
From Coq Require Import Lia ZifyBool ZifyNat ZifyN Permutation.
(** * The trees of names *)
Section RTreeInd.
  Variable P : rtree -> Prop.
  Hypothesis H : forall x ins, Forall P ins -> P (RTree x ins).
  Fixpoint rtree_ind2 (t : rtree) : P t :=
    match t with RTree x ins => H x ins ((fix go (l : list rtree) : Forall P l := match l with [] => Forall_nil _ | i :: l => Forall_cons _ (rtree_ind2 i) (go l) end) ins) end.
End RTreeInd.
Fixpoint subs (t : rtree) : list rtree := match t with RTree x ins => flat_map subs ins ++ [t] end.
Lemma symbols_named rt : TreeModel.symbols (named_tree rt) = map named_tree (subs rt).
Proof.
  induction rt as [x ins IH] using rtree_ind2. cbn [named_tree subs TreeModel.symbols flat_map]. rewrite map_app. cbn [map named_tree].
  assert (X : flat_map TreeModel.symbols (map named_tree ins) = map named_tree (flat_map subs ins)). { induction IH as [|i ins Hi _ IHl]; [reflexivity|]. cbn [map flat_map]. rewrite map_app, Hi, IHl. reflexivity. }
  rewrite X. rewrite app_nil_r. cbn [app]. destruct (TreeModel.expressions_first _); reflexivity.
Qed.
Lemma subs_inorder rt : map top (subs rt) = inorder rt.
Proof.
  induction rt as [x ins IH] using rtree_ind2. cbn [subs inorder]. rewrite map_app. cbn [map top]. f_equal. induction IH as [|i ins Hi _ IHl]; [reflexivity|]. cbn [flat_map]. rewrite map_app, Hi, IHl. reflexivity.
Qed.
Lemma ctxs_subs x : forall t t' rt n L, record t x = (t', rt) -> map (fun c => RTree (cx c) (cx_ins c)) (ctxs n L x rt) = subs rt.
Proof.
  induction x as [r src sch ins IH] using tree_ind2. intros t t' rt n L E. rewrite record_node_eq in E. destruct (record_list t ins) as [t1 rins] eqn:E1.
  destruct (record_node t1 r src sch (flat_map (fun i => FieldModel.exposed (rn_data (top i))) rins)) as [t2 x]. injection E as <- <-. cbn [ctxs subs]. rewrite map_app. cbn [map cx cx_ins]. f_equal.
  clear -IH E1. revert t t1 rins n L E1. induction IH as [|i ins Hi _ IHl]; intros t t1 rins n L E1; cbn [record_list] in E1.
  - injection E1 as <- <-. reflexivity.
  - destruct (record t i) as [t2 ri] eqn:Ei. destruct (record_list t2 ins) as [t3 rl] eqn:El. injection E1 as <- <-. fold (all_ctxs ctxs). rewrite ctxs_cons, map_app, (Hi _ _ _ n L Ei). cbn [flat_map]. f_equal.
    exact (IHl _ _ _ (fst (columns n i)) (L ++ made ri) El).
Qed.
Lemma named_present rt : TreeModel.absent (named_tree rt) = false.
Proof. destruct rt. reflexivity. Qed.
Lemma named_name rt : TreeModel.node_name (named_tree rt) = rn_name (top rt).
Proof. destruct rt. reflexivity. Qed.
Lemma ctx_node known c : CtxOk known c -> TreeFacts.node_ok (named_tree (RTree (cx c) (cx_ins c))).
Proof.
  intros Hc. pose proof (ck_ok _ _ Hc) as (_ & K). pose proof (rc_relation _ _ _ _ _ _ _ _ _ (ck_recorded _ _ Hc)) as R. cbn [named_tree TreeFacts.node_ok]. rewrite R, map_length. cbn [r_body].
  assert (A : Forall (fun i => TreeModel.absent i = false) (map named_tree (cx_ins c))) by (apply Forall_forall; intros i I; apply in_map_iff in I as (j & <- & _); apply named_present).
  destruct (r_body (cx_r c)); cbn [with_names kind_of TreeModel.printable TreeFacts.inputs_of TreeFacts.exprs_ok forallb]; [destruct K as (-> & _); auto 6| ..]; destruct K as (_ & _ & K); try contradiction; destruct K as (-> & _); auto 6.
Qed.
Lemma numbered_snoc H b n : SymbolMoreFacts.Numbered (H ++ [(b, n)]) -> n = SymbolMoreFacts.unique_text b (SymbolMoreFacts.requests b H).
Proof. intros N. inversion N as [E | H0 b0 N0 E]; [destruct H; discriminate|]. apply app_inj_tail in E as (-> & [= -> ->]). reflexivity. Qed.
Lemma requests_none b H : ~ In b (map fst H) -> SymbolMoreFacts.requests b H = 0.
Proof. intros N. unfold SymbolMoreFacts.requests. apply count_occ_not_In, N. Qed.
Section Trip.
  Variable b : bplan.
  Hypothesis Hb : Convertible b.
  Notation es := (entries_of b).
  Notation known := (declared_function b).
  Notation given := (given b).
  Notation plan_ctxs := (plan_ctxs b).
  Definition plan := map plan_rel_of es.
  Lemma plan_symbols : TreeFacts.all_symbols plan = map (fun c => named_tree (RTree (cx c) (cx_ins c))) plan_ctxs.
  Proof.
    unfold TreeFacts.all_symbols, plan, plan_ctxs. rewrite flat_map_map, map_flat. pose proof (given_entries b Hb) as (_ & F). induction F as [|x e xs l (_ & _ & t & t' & E) _ IH]; [reflexivity|].
    cbn [combine flat_map fst snd]. f_equal; [|exact IH]. change (TreeModel.p_rel (plan_rel_of e)) with (named_tree (e_tree e)). rewrite symbols_named, <- (ctxs_subs _ _ _ _ 0 [] E), map_map. reflexivity.
  Qed.
  Lemma plan_complete : Forall (fun p => TreeFacts.complete (TreeModel.p_rel p)) plan.
  Proof.
    apply Forall_forall. intros p Ip. unfold plan in Ip. apply in_map_iff in Ip as (e & <- & Ie). cbn [plan_rel_of TreeModel.p_rel]. split; [apply named_present|].
    apply Forall_forall. intros s Is. assert (X : In s (TreeFacts.all_symbols plan)) by (apply in_flat_map; exists (plan_rel_of e); split; [apply in_map, Ie|exact Is]).
    rewrite plan_symbols in X. apply in_map_iff in X as (c & <- & Ic). eapply ctx_node. apply (plan_ok b Hb c Ic).
  Qed.
  Lemma label_given e : In e es -> In (match e_names e with Some _ => $"root" | None => $"rel" end, e_label e) given.
  Proof. intros Ie. apply in_or_app. right. apply in_flat_map. exists e. split; [exact Ie|]. unfold asked_entry. apply in_or_app. right. apply in_or_app. right. left. reflexivity. Qed.
  Lemma plan_names_ok : TreeFacts.names_ok plan.
  Proof.
    pose proof (given_entries b Hb) as (N & F). pose proof (cv_names _ Hb) as Hn. destruct (b_rels b) as [|x [|x2 xs]] eqn:Er.
    - inversion F as [E0 E|]; subst. left. unfold plan. intros p Ip. rewrite <- E in Ip. destruct Ip.
    - inversion F as [|? e ? l (H1 & TR & _) F2 E1 E2]; subst. inversion F2; subst. destruct (snd x) as [ns|] eqn:Ex.
      + right. exists (plan_rel_of e). unfold plan. rewrite <- E2. split; [reflexivity|]. cbn. unfold WholeNameFacts.given in N. rewrite <- E2 in N. cbn [flat_map] in N. unfold asked_entry in N. rewrite H1 in N. rewrite app_nil_r in N. rewrite !app_assoc in N.
        apply numbered_snoc in N. rewrite N, requests_none; [reflexivity|]. intros I. apply in_map_iff in I as ([q m] & E & I). cbn in E. subst q. rewrite !in_app_iff in I. destruct I as [[I | I] | I].
        * apply function_bases in I. pose proof (cv_shorts _ Hb) as S1. rewrite Forall_forall in S1. destruct (S1 _ I) as (S2 & _). apply S2. exists $"root", []. split; [cbn; tauto|]. split; reflexivity.
        * destruct I as [I | []]. discriminate.
        * unfold asked in I. apply in_flat_map in I as (y & Iy & I). assert (J : In y (all_recorded es)) by (unfold all_recorded; rewrite <- E2; cbn [flat_map]; rewrite app_nil_r; exact Iy).
          destruct (asked_given b Hb y _ _ J I) as (_ & W). cbn in W. repeat (destruct W as [W | W]; [discriminate|]). destruct W.
      + left. unfold plan. rewrite <- E2. intros p [<- | []]. cbn. rewrite H1. reflexivity.
    - left. intros p Ip. unfold plan in Ip. apply in_map_iff in Ip as (e & <- & Ie). cbn. destruct (entry_in b Hb e Ie) as (y & _ & Iy & -> & _). rewrite Er in Iy. rewrite Forall_forall in Hn. specialize (Hn y Iy). destruct (snd y) as [[|n ns]|]; try reflexivity.
      destruct Hn as (_ & Hn). discriminate (Hn ltac:(discriminate)).
  Qed.
  (** The declared functions as they are printed *)
  Lemma functions_known f : In f (DeclModel.functions (declarations b)) <-> In f (declared_functions b).
  Proof. unfold declarations, declared_functions. rewrite (proj2 (DeclFacts.import_parts _ _)). reflexivity. Qed.
  Lemma function_given f : In f (declared_functions b) -> In (DeclModel.shortName (DeclModel.f_name f), DeclModel.f_short f) given /\ In (DeclModel.shortName (DeclModel.f_name f)) (short_names b) /\ FunctionName (DeclModel.f_name f).
  Proof.
    intros I. assert (P : In (DeclModel.shortName (DeclModel.f_name f), DeclModel.f_short f) (function_pairs b)) by (apply (in_map (fun f => (DeclModel.shortName (DeclModel.f_name f), DeclModel.f_short f))), I).
    split; [apply in_or_app; left; exact P|]. split; [exact (function_bases b _ _ P)|].
    destruct (DeclFacts.Forall2_in_r _ _ _ _ (DeclFacts.import_functions_decls (b_decls b) SymbolModel.empty_table) I) as (d & Id & -> & _). pose proof (cv_functions _ Hb) as F. rewrite Forall_forall in F. exact (F d Id).
  Qed.
  Lemma blocks_exist : exists l, DeclModel.outputFunctionsSection (declarations b) = Ok l.
  Proof. destruct (DeclFacts.import_distinct _ _ (cv_declared _ Hb)) as (H & _). destruct (DeclFacts.section_shown _ H) as (l & E & _). exists l. exact E. Qed.
  Lemma blocks_parts l x : DeclModel.outputFunctionsSection (declarations b) = Ok l -> In x l ->
    (exists u, fst x = Some u /\ In u (map fst (b_uris b))) /\ forall q, In q (snd x) -> exists f, In f (declared_functions b) /\ q = (DeclModel.f_short f, DeclModel.f_name f).
  Proof.
    intros E Ix. destruct (DeclFacts.import_distinct _ _ (cv_declared _ Hb)) as (Hs & Dn & K). fold (declarations b) in Hs, Dn, K. split.
    - destruct (DeclFacts.section_shown _ Hs) as (l' & E' & ss & _ & Sub & _ & El). rewrite E in E'. injection E' as <-. rewrite El in Ix. apply in_map_iff in Ix as (s & <- & Is). cbn [fst].
      destruct (proj1 (DeclFacts.used_in _ _) (Sub s Is)) as (f & If & Ef). destruct (K f If) as (u & s' & E1 & I1 & E2). assert (s' = s) by congruence. subst s'. exists u. split; [exact E2|]. apply (in_map fst) in I1. exact I1.
    - intros q Iq. pose proof (DeclFacts.all_listed _ _ Hs Dn E) as P. assert (J : In (fst x, q) (flat_map DeclFacts.listed l)) by (apply in_flat_map; exists x; split; [exact Ix|]; unfold DeclFacts.listed; apply in_map_iff; exists q; auto).
      apply (Permutation_in _ P) in J. apply in_map_iff in J as (f & Ef & If). unfold DeclFacts.as_listed in Ef. injection Ef as _ <-. exists f. split; [apply functions_known, If|reflexivity].
  Qed.
  Variable spaces : list DeclModel.block.
  Hypothesis Hspaces : DeclModel.outputFunctionsSection (declarations b) = Ok spaces.
  Definition p : SectionModel.plan :=
    Plan (flat_map TreeModel.plan_pipes plan) (map (fun x => (naming_of (declarations b) x, rn_name x, rn_relation x)) (all_recorded es)) (flat_map (fun e => some_list (e_names e)) es)
        (flat_map (fun x => some_list (rn_schema x)) (all_recorded es)) (flat_map (fun x => some_list (rn_source x)) (all_recorded es)) spaces.
  Lemma plan_is : plan_of b = Ok p.
  Proof. unfold plan_of. rewrite Hspaces. reflexivity. Qed.
  Lemma some_in {A} (o : option A) (x : A) : In x (some_list o) <-> o = Some x.
  Proof. destruct o; cbn; split; [intros [-> | []]; reflexivity|intros [= ->]; auto|intros []|discriminate]. Qed.
  Lemma schema_in n s : In (n, s) (pl_schemas p) <-> exists x, In x (all_recorded es) /\ rn_schema x = Some (n, s).
  Proof. cbn [p pl_schemas]. rewrite in_flat_map. split; intros (x & Ix & H); exists x; (split; [exact Ix|]); apply some_in, H. Qed.
  Lemma source_in n s : In (n, s) (pl_sources p) <-> exists x, In x (all_recorded es) /\ rn_source x = Some (n, s).
  Proof. cbn [p pl_sources]. rewrite in_flat_map. split; intros (x & Ix & H); exists x; (split; [exact Ix|]); apply some_in, H. Qed.
  Lemma source_asked x n s : rn_source x = Some (n, s) -> In (source_base s, n) (asked_node x).
  Proof. intros E. unfold asked_node. rewrite E. apply in_or_app. right. left. reflexivity. Qed.
  Lemma schema_good n s : In (n, s) (pl_schemas p) -> In ($"schema", n) given /\ Name n /\ SchemaReads s s /\ NoDup (ns_names s) /\
    forall m, In m (ns_names s) -> Name m /\ ~ numbered_from (made_up ++ short_names b) m.
  Proof.
    intros I. apply schema_in in I as (x & Ix & E). pose proof (schema_asked x n s E) as A. destruct (asked_given b Hb x _ _ Ix A) as (G & _). destruct (schema_of b Hb x n s Ix E) as (y & Iy & Is & R & D).
    split; [exact G|]. split; [exact (asked_name b Hb x _ _ Ix A)|]. split; [exact R|]. split; [exact D|]. intros m Im. split; [|exact (proj1 (cv_columns _ Hb y s m Iy Is Im))].
    inversion R as [names types types' w Hl Hns Ht E1 E2]; subst. cbn [ns_names] in Im. rewrite Forall_forall in Hns. exact (Hns m Im).
  Qed.
  Lemma source_good n s : In (n, s) (pl_sources p) -> In (source_base s, n) given /\ Name n /\ SourceReads s s /\ forall m, In m (table_names s) -> ~ numbered_from (made_up ++ short_names b) m.
  Proof.
    intros I. apply source_in in I as (x & Ix & E). pose proof (source_asked x n s E) as A. destruct (asked_given b Hb x _ _ Ix A) as (G & _). destruct (source_of b Hb x n s Ix E) as (y & Iy & Is & R).
    split; [exact G|]. split; [exact (asked_name b Hb x _ _ Ix A)|]. split; [exact R|]. intros m Im. exact (cv_tables _ Hb y s m Iy Is Im).
  Qed.
  Lemma schemas_ok : Forall (fun x => Name (fst x) /\ exists s', SchemaReads (snd x) s') (pl_schemas p).
  Proof. apply Forall_forall. intros [n s] I. destruct (schema_good n s I) as (_ & Hn & R & _). split; [exact Hn|]. exists s. exact R. Qed.
  Lemma schemas_ok' : Forall (fun x => exists s', SchemaReads (snd x) s') (pl_schemas p).
  Proof. eapply Forall_impl; [|exact schemas_ok]. intros x (_ & H). exact H. Qed.
  Lemma sources_ok : Forall (fun x => Name (fst x) /\ exists s', SourceReads (snd x) s') (pl_sources p).
  Proof. apply Forall_forall. intros [n s] I. destruct (source_good n s I) as (_ & Hn & R & _). split; [exact Hn|]. exists s. exact R. Qed.
  Lemma short_root f : In f (short_names b) -> f <> $"root.names".
  Proof. intros I ->. pose proof (cv_shorts _ Hb) as S1. rewrite Forall_forall in S1. destruct (S1 _ I) as (S2 & _). apply S2. exists $"root.names", []. split; [cbn; tauto|]. split; reflexivity. Qed.
  Lemma spaces_ok : Forall SpaceReads (pl_spaces p).
  Proof.
    apply Forall_forall. intros x Ix. cbn [p pl_spaces] in Ix. destruct (blocks_parts spaces x Hspaces Ix) as ((u & Eu & Iu) & Hf). unfold SpaceReads. rewrite Eu. split.
    - apply in_map_iff in Iu as (y & <- & Iy). pose proof (cv_uris _ Hb) as U. rewrite Forall_forall in U. exact (U y Iy).
    - apply Forall_forall. intros q Iq. destruct (Hf q Iq) as (f & If & ->). destruct (function_given f If) as (G & S1 & Fn). cbn [fst snd]. split; [|exact Fn]. eapply given_name; [exact Hb|exact G|apply short_root, S1].
  Qed.
  (** What the names of the other definitions are *)
  Definition apart_word (w : str) : Prop := In w made_up /\ w <> $"schema" /\ w <> $"named" /\ w <> $"local" /\ w <> $"virtual" /\ w <> $"extensiontable" /\ w <> $"root.names".
  Lemma source_word s : source_base s <> $"schema" /\ ~ apart_word (source_base s).
  Proof. destruct s; (split; [discriminate|]); intros (_ & A & B1 & B2 & B3 & B4 & _); first [apply B1; reflexivity|apply B2; reflexivity|apply B3; reflexivity|apply B4; reflexivity]. Qed.
  Lemma in_names {A} (f : A -> list str) n (l : list A) : In n (concat (map f l)) <-> exists x, In x l /\ In n (f x).
  Proof. rewrite in_concat. split; [intros (y & Iy & I); apply in_map_iff in Iy as (x & <- & Ix); exists x; auto|intros (x & Ix & I); exists (f x); split; [apply in_map, Ix|exact I]]. Qed.
  Lemma given_made_up w n : In (w, n) given -> In w made_up -> ~ In w (short_names b).
  Proof. intros _ M I. pose proof (cv_shorts _ Hb) as S1. rewrite Forall_forall in S1. destruct (S1 _ I) as (S2 & _). apply S2. exists w, []. split; [exact M|]. rewrite app_nil_r. split; reflexivity. Qed.
  Lemma not_defined w n : In (w, n) given -> apart_word w -> ~ In n (defined_names p).
  Proof.
    intros G W I. pose proof (given_from b Hb _ _ G) as Nf. unfold defined_names in I. rewrite !in_app_iff in I. unfold schema_names, source_names in I. rewrite !in_names in I. destruct I as [((m & s) & I1 & I2) | [((m & s) & I1 & I2) | (x & I1 & I2)]]; cbn [fst snd] in *.
    - destruct (schema_good m s I1) as (G1 & _ & _ & _ & H). destruct I2 as [<- | I2]; [|exact (proj2 (H n I2) Nf)]. destruct W as (_ & W & _). apply W. exact (given_apart b Hb _ _ _ G G1).
    - destruct (source_good m s I1) as (G1 & _ & _ & H). destruct I2 as [<- | I2]; [|exact (H n I2 Nf)]. apply (proj2 (source_word s)). rewrite <- (given_apart b Hb _ _ _ G G1). exact W.
    - cbn [p pl_spaces] in I1. destruct (blocks_parts spaces x Hspaces I1) as ((u & Eu & Iu) & Hf). unfold space_names in I2. rewrite Eu in I2. destruct I2 as [<- | I2]; [exact (cv_spaces _ Hb u Iu Nf)|].
      apply in_map_iff in I2 as (q & <- & Iq). destruct (Hf q Iq) as (f & If & ->). destruct (function_given f If) as (G1 & S1 & _). cbn [fst] in G. rewrite (given_apart b Hb _ _ _ G1 G) in S1. exact (given_made_up _ _ G (proj1 W) S1).
  Qed.
  Lemma table_defined n : Name n -> In n (map s_name (table_of p)) -> In n (defined_names p).
  Proof.
    intros Hn I. unfold table_of in I. rewrite !map_app, !in_app_iff in I. unfold defined_names. rewrite !in_app_iff. destruct I as [I | [I | I]].
    - left. rewrite schemas_names in I by exact schemas_ok'. exact I.
    - right. left. destruct (in_dec (list_eq_dec Ascii.ascii_dec) n (source_names (pl_sources p))) as [Y | Y]; [exact Y|]. exfalso. revert I. apply source_names_not; [exact sources_ok|exact Hn|exact Y].
    - right. right. rewrite (names_numbered _ space_names) in I by exact space_sym_names. exact I.
  Qed.
  Lemma defined_table n : In n (defined_names p) -> In n (map s_name (table_of p)).
  Proof.
    intros I. unfold table_of. rewrite !map_app, !in_app_iff. unfold defined_names in I. rewrite !in_app_iff in I. destruct I as [I | [I | I]].
    - left. rewrite schemas_names by exact schemas_ok'. exact I.
    - right. left. apply source_names_in; [exact sources_ok|exact I].
    - right. right. rewrite (names_numbered _ space_names) by exact space_sym_names. exact I.
  Qed.
  (** The names of the relations *)
  Lemma kind_word c : CtxOk known c -> apart_word (kind_name (r_body (rn_relation (cx c)))).
  Proof.
    intros Hc. pose proof (ck_ok _ _ Hc) as (_ & K). rewrite (rc_relation _ _ _ _ _ _ _ _ _ (ck_recorded _ _ Hc)). cbn [r_body].
    destruct (r_body (cx_r c)); cbn [with_names kind_name]; try (split; [cbn; tauto|]; repeat split; discriminate). destruct K as (_ & _ & []).
  Qed.
  Lemma name_given x : In x (all_recorded es) -> exists w, In (w, rn_name x) given /\ apart_word w.
  Proof.
    intros Ix. destruct (recorded_ctx b Hb x Ix) as (c & Ic & <-). destruct (plan_ok b Hb c Ic) as (Hc & _). exists (kind_name (r_body (rn_relation (cx c)))). split; [|exact (kind_word c Hc)].
    apply (asked_given b Hb (cx c) _ _ Ix). unfold asked_node. rewrite !in_app_iff. right. right. right. left. reflexivity.
  Qed.
  Lemma own_given n : In n (flat_map TreeFacts.own plan) -> exists w, In (w, n) given /\ apart_word w.
  Proof.
    intros I. apply in_flat_map in I as (q & Iq & I). unfold plan in Iq. apply in_map_iff in Iq as (e & <- & Ie). unfold TreeFacts.own in I. apply in_app_or in I as [I | [<- | []]].
    - cbn [plan_rel_of TreeModel.p_rel] in I. unfold TreeFacts.names in I. rewrite symbols_named, map_map in I. apply in_map_iff in I as (s & <- & Is). rewrite named_name. apply name_given. unfold all_recorded. apply in_flat_map. exists e. split; [exact Ie|].
      rewrite <- subs_inorder. apply in_map, Is.
    - eexists. split; [exact (label_given e Ie)|]. destruct (e_names e); (split; [cbn; tauto|]); repeat split; discriminate.
  Qed.
  Lemma own_part : Part (flat_map TreeFacts.own plan) (map snd given).
  Proof.
    unfold WholeNameFacts.given. rewrite map_app. apply part_right. unfold plan. rewrite flat_map_map, map_flat. apply part_flat. intros e _. unfold TreeFacts.own, asked_entry. rewrite !map_app. apply part_right. apply part_app; [|apply part_refl].
    cbn [plan_rel_of TreeModel.p_rel]. unfold TreeFacts.names. rewrite symbols_named, map_map. rewrite (map_ext _ (fun s => rn_name (top s))) by exact named_name. rewrite <- (map_map top rn_name), subs_inorder. unfold asked. rewrite map_flat.
    induction (inorder (e_tree e)) as [|x l IH]; [constructor|]. cbn [map flat_map]. change (rn_name x :: map rn_name l) with ([rn_name x] ++ map rn_name l). apply part_app; [|exact IH].
    unfold asked_node. rewrite !map_app. apply part_right, part_right, part_right. apply part_refl.
  Qed.
  Definition others : list str := nodup (list_eq_dec Ascii.ascii_dec) (map s_name (table_of p)).
  Lemma trees_apart : TreeFacts.names_apart plan others.
  Proof.
    unfold TreeFacts.names_apart. apply DeclFacts.nodup_app; [apply NoDup_nodup|eapply part_nodup; [exact own_part|apply given_nodup, Hb]|].
    intros n I1 I2. unfold others in I1. apply nodup_In in I1. destruct (own_given n I2) as (w & G & W). apply (not_defined w n G W). apply table_defined; [|exact I1]. eapply given_name; [exact Hb|exact G|]. apply W.
  Qed.
  (** ** Inputs *)
  Lemma good_inputs ps top s : TreeFacts.complete s -> TreeFacts.Good ps top s ->
    some_list (hd_error (PipeFacts.into false (TreeModel.node_name s) ps)) ++ PipeFacts.into true (TreeModel.node_name s) ps = map TreeModel.node_name (TreeFacts.ins_of s).
  Proof.
    intros C G. inversion G as [? ? Na Gt Gf _ _]; subst. pose proof (TreeFacts.complete_node _ C) as N. destruct s as [|n k bd ins ex]; [discriminate|]. destruct N as (Pk & L & _).
    unfold TreeFacts.top_inputs, TreeFacts.next_input, TreeFacts.below, TreeModel.new_pipelines in Gt, Gf. cbn [TreeFacts.ins_of]. rewrite Gt, Gf.
    destruct k; try discriminate Pk; cbn [TreeModel.shape_of]; cbn [TreeFacts.inputs_of] in L; destruct ins as [|i ins]; try discriminate L; destruct top; cbn [hd_error some_list app map]; rewrite ?app_nil_r; try reflexivity; destruct ins; try discriminate L; reflexivity.
  Qed.
  Lemma node_inputs S c : PipeFacts.recorded (TreeModel.r_tab S) (flat_map TreeModel.plan_pipes plan) -> In c plan_ctxs -> inputs_of S (rn_name (cx c)) = map (fun i => rn_name (top i)) (cx_ins c).
  Proof.
    intros HS Ic. assert (Is : In (named_tree (RTree (cx c) (cx_ins c))) (TreeFacts.all_symbols plan)) by (rewrite plan_symbols; apply (in_map (fun c => named_tree (RTree (cx c) (cx_ins c)))), Ic).
    pose proof (TreeFacts.all_complete plan _ plan_complete Is) as Co. apply in_flat_map in Is as (q & Iq & Is). pose proof plan_complete as PC. rewrite Forall_forall in PC.
    assert (ND : NoDup (flat_map TreeFacts.own plan)) by (eapply part_nodup; [exact own_part|apply given_nodup, Hb]).
    destruct (TreeFacts.plan_good plan q plan_complete ND Iq) as (G & _). destruct (TreeFacts.good_sub _ _ _ (PC q Iq) G _ Is) as (top' & G').
    pose proof (good_inputs _ _ _ Co G') as E. cbn [named_tree TreeModel.node_name TreeFacts.ins_of] in E. rewrite map_map in E. rewrite (map_ext _ (fun i => rn_name (top i))) in E by exact named_name.
    unfold inputs_of, TreeModel.rel_data. destruct (HS (rn_name (cx c))) as (N1 & N2 & _). unfold PipeFacts.data in N1, N2. rewrite N1, N2. exact E.
  Qed.
  (** ** Functions *)
  Definition definitions : list pnode := map schema_node (pl_schemas p) ++ map source_node (pl_sources p) ++ map space_node (pl_spaces p).
  Definition before : list str := flat_map (fun x => fst x :: map fst (items_of (snd x))) (pl_schemas p) ++ flat_map (fun x => match source_node x with PSource n s => n :: file_names s | _ => [] end) (pl_sources p).
  Lemma entries_skip l rest ns nf : Forall (fun n => match n with PPipelines _ | PRelation _ | PRoot _ => True | _ => False end) l -> entries ns nf (l ++ rest) = entries ns nf rest.
  Proof. induction 1 as [|x l Hx _ IH]; [reflexivity|]. cbn [app entries]. destruct x; try contradiction; exact IH. Qed.
  Lemma entries_schemas l rest ns nf : entries ns nf (map schema_node l ++ rest) = map DeclModel.EOther (flat_map (fun x => fst x :: map fst (items_of (snd x))) l) ++ entries ns nf rest.
  Proof. induction l as [|x l IH]; [reflexivity|]. cbn [map app entries schema_node flat_map]. rewrite IH, !map_app, <- app_assoc. reflexivity. Qed.
  Lemma entries_sources l rest ns nf : entries ns nf (map source_node l ++ rest) = map DeclModel.EOther (flat_map (fun x => match source_node x with PSource n s => n :: file_names s | _ => [] end) l) ++ entries ns nf rest.
  Proof. induction l as [|x l IH]; [reflexivity|]. cbn [map app entries source_node flat_map]. rewrite IH, !map_app, <- app_assoc. reflexivity. Qed.
  Lemma entries_spaces l : forall ns nf, entries ns nf (map space_node l) = DeclModel.read_blocks ns nf l.
  Proof.
    induction l as [|[u fs] l IH]; intros ns nf; [reflexivity|]. cbn [map entries space_node fst snd]. rewrite map_map, map_length, IH. rewrite (map_ext _ (fun x => x)) by (intros []; reflexivity). rewrite List.map_id.
    destruct u; cbn [DeclModel.read_blocks]; rewrite app_nil_r; reflexivity.
  Qed.
  Lemma entries_definitions : entries 0 0 definitions = DeclModel.read_text before spaces.
  Proof. unfold definitions, DeclModel.read_text, before. rewrite entries_schemas, entries_sources, entries_spaces, map_app, <- app_assoc. reflexivity. Qed.
  Lemma before_names n : Name n -> In n before -> In n (schema_names (pl_schemas p)) \/ In n (source_names (pl_sources p)).
  Proof.
    intros Hn I. unfold before in I. unfold schema_names, source_names. rewrite !in_names. apply in_app_or in I as [I | I]; [left|right]; apply in_flat_map in I as (x & Ix & I); exists x; (split; [exact Ix|]).
    - destruct x as [m s]. cbn [fst snd] in *. destruct (schema_good m s Ix) as (_ & _ & R & _). inversion R as [names types types' w Hl Hns Ht E1 E2]; subst. unfold items_of in I. cbn [ns_names ns_types] in *. rewrite map_map in I. cbn [fst] in I. rewrite combine_fst in I by exact Hl. exact I.
    - destruct x as [m s]. cbn [fst snd source_node] in *. destruct (source_good m s Ix) as (_ & _ & R & _). remember s as s2 eqn:Es in R at 2. destruct R as [l ? ? | f f' Hf].
      + cbn [file_names] in I. rewrite map_map in I. rewrite (map_ext _ (fun x => x)) in I by exact extract_quoted. rewrite List.map_id in I. exact I.
      + pose proof Hf as Hf'. inversion Hf' as [? ? ? ? ? ? A0]; subst; cbn [f_location] in *. all: try (rewrite A0 in I). all: destruct I as [I | I]; [left; exact I|exfalso]. all: cbn [file_names map fn_text] in I; destruct I as [I | []]; apply (fname_not_name _ n (ex_intro _ _ Hf) Hn); symmetry; exact I.
  Qed.
  Definition fs' : list DeclModel.entry := entries 0 0 definitions.
  Definition R (f f' : N) : Prop := same_function b (BPlan (DeclModel.outputExtensionSpaces fs') (DeclModel.outputFunctions fs') []) f f' /\
    exists n, DeclModel.lookupFunctionReference (declarations b) f = Some n /\ DeclModel.resolve_function fs' n = Some f'.
  Lemma ends_digit (s d : str) : d <> [] -> forallb is_digit d = true -> to_lower (s ++ d) <> $"ifthen".
  Proof.
    intros Hd Ha E. destruct (exists_last Hd) as (d' & x & ->). rewrite forallb_app in Ha. apply andb_true_iff in Ha as (_ & Ha). cbn in Ha. rewrite andb_true_r in Ha. unfold to_lower in E. rewrite map_app, map_app, app_assoc in E. cbn [map] in E.
    change $"ifthen" with ($"ifthe" ++ [Ascii.ascii_of_N 110]) in E. apply app_inj_tail in E as (_ & E). revert Ha E. clear. destruct x as [[] [] [] [] [] [] [] []]; vm_compute; discriminate.
  Qed.
  Lemma function_lookup f n : DeclModel.lookupFunctionReference (declarations b) f = Some n -> exists g, In g (declared_functions b) /\ n = DeclModel.f_short g.
  Proof. unfold DeclModel.lookupFunctionReference. destruct (find _ _) as [g|] eqn:E; [|discriminate]. intros [= <-]. exists g. split; [apply functions_known; eapply find_some, E|reflexivity]. Qed.
  Lemma function_short g : In g (declared_functions b) -> Name (DeclModel.f_short g) /\ to_lower (DeclModel.f_short g) <> $"ifthen" /\ ~ In (DeclModel.f_short g) before /\ ~ In (DeclModel.f_short g) (map fst (b_uris b)).
  Proof.
    intros Ig. destruct (function_given g Ig) as (G & S1 & _). assert (Nm : Name (DeclModel.f_short g)) by (eapply given_name; [exact Hb|exact G|apply short_root, S1]). pose proof (given_from b Hb _ _ G) as Nf. split; [exact Nm|]. split; [|split].
    - destruct (given_tail b Hb _ _ G) as (d & Hd & E). rewrite E. destruct d as [|x d]; [|apply ends_digit; [discriminate|exact Hd]]. rewrite app_nil_r. pose proof (cv_shorts _ Hb) as S2. rewrite Forall_forall in S2. apply (S2 _ S1).
    - intros I. apply before_names in I; [|exact Nm]. unfold schema_names, source_names in I. rewrite !in_names in I. destruct I as [((m & s) & I1 & I2) | ((m & s) & I1 & I2)]; cbn [fst snd] in *.
      + destruct (schema_good m s I1) as (G1 & _ & _ & _ & H). destruct I2 as [E | I2]; [|exact (proj2 (H _ I2) Nf)]. rewrite E in G1. rewrite (given_apart b Hb _ _ _ G G1) in S1. revert S1. apply (given_made_up _ _ G1). cbn. tauto.
      + destruct (source_good m s I1) as (G1 & _ & _ & H). destruct I2 as [E | I2]; [|exact (H _ I2 Nf)]. rewrite E in G1. rewrite (given_apart b Hb _ _ _ G G1) in S1. revert S1. apply (given_made_up _ _ G1). destruct s; cbn; tauto.
    - intros I. exact (cv_spaces _ Hb _ I Nf).
  Qed.
  Lemma shorts_nodup : NoDup (map DeclModel.f_short (declared_functions b)).
  Proof. pose proof (given_nodup b Hb) as N. unfold WholeNameFacts.given in N. rewrite map_app in N. apply app_nodup_l in N. unfold function_pairs in N. rewrite map_map in N. exact N. Qed.
  Lemma functions_found f : known f -> exists n f', DeclModel.lookupFunctionReference (declarations b) f = Some n /\ Name n /\ to_lower n <> $"ifthen" /\ DeclModel.resolve_function fs' n = Some f' /\ R f f'.
  Proof.
    intros (uri & name & D). assert (Ef : DeclModel.functions (declarations b) = declared_functions b) by (unfold declarations, declared_functions; apply DeclFacts.import_parts).
    destruct (DeclFacts.round_trip (b_uris b) (b_decls b) before spaces (cv_declared _ Hb) Hspaces) as (H & _ & _).
    - fold (declarations b). rewrite Ef. exact shorts_nodup.
    - fold (declarations b). rewrite Ef. intros g Ig. destruct (function_short g Ig) as (_ & _ & A & B). auto.
    - destruct (H f uri name D) as (n & f' & L & Rs & Dn). fold (declarations b) in L. exists n, f'. destruct (function_lookup f n L) as (g & Ig & ->). destruct (function_short g Ig) as (A1 & A2 & _).
      split; [exact L|]. split; [exact A1|]. split; [exact A2|]. unfold R, same_function, fs'. cbn [b_uris b_decls]. rewrite entries_definitions. split; [exact Rs|]. split; [exists uri, name; auto|exists (DeclModel.f_short g); auto].
  Qed.
  (** ** Schemas *)
  Notation tab := (table_of p).
  Definition loc (s : str) : nat := match find_symbol tab s with Some y => S (fst (s_loc y)) | None => 0 end.
  Lemma schema_part : Part (map fst (pl_schemas p)) (map snd given).
  Proof.
    eapply part_trans; [|apply part_map, (asked_part b)]. cbn [p pl_schemas]. rewrite !map_flat. apply part_flat. intros x _. unfold asked_node. rewrite map_app. apply part_left. destruct (rn_schema x) as [[n s]|]; apply part_refl.
  Qed.
  Lemma source_part : Part (map fst (pl_sources p)) (map snd given).
  Proof.
    eapply part_trans; [|apply part_map, (asked_part b)]. cbn [p pl_sources]. rewrite !map_flat. apply part_flat. intros x _. unfold asked_node. rewrite map_app. apply part_right. rewrite map_app. apply part_left. destruct (rn_source x) as [[n s]|]; apply part_refl.
  Qed.
  Lemma schema_before n s : In (n, s) (pl_schemas p) -> exists a r, pl_schemas p = a ++ (n, s) :: r /\ ~ In n (schema_names a).
  Proof.
    intros I. destruct (in_split _ _ I) as (a & r & E). exists a, r. split; [exact E|]. unfold schema_names. rewrite in_names. intros ((m & st) & I1 & I2). cbn [fst snd] in I2.
    pose proof (part_nodup _ _ schema_part (given_nodup b Hb)) as N. rewrite E, map_app in N. cbn [map fst] in N. apply NoDup_remove_2 in N. destruct I2 as [-> | I2].
    - apply N. apply in_or_app. left. apply (in_map fst) in I1. exact I1.
    - assert (I3 : In (m, st) (pl_schemas p)) by (rewrite E; apply in_or_app; auto). destruct (schema_good m st I3) as (_ & _ & _ & _ & H). destruct (schema_good n s I) as (G & _). exact (proj2 (H n I2) (given_from b Hb _ _ G)).
  Qed.
  Lemma within_rest : within (first_schema p + length (pl_schemas p)) (first_schema p + length (pl_schemas p) + length (pl_sources p) + length (pl_spaces p))
    (source_table [] (first_schema p + length (pl_schemas p)) (pl_sources p) ++ numbered space_syms (first_schema p + length (pl_schemas p) + length (pl_sources p)) (pl_spaces p)).
  Proof. apply (within_app _ (first_schema p + length (pl_schemas p) + length (pl_sources p))); [apply sources_within|apply numbered_within, space_within|lia|lia]. Qed.
  Lemma schema_table n s : In (n, s) (pl_schemas p) -> use_schema tab n = Some s /\ exists a r, pl_schemas p = a ++ (n, s) :: r /\ loc n = Datatypes.S (first_schema p + length a).
  Proof.
    intros I. destruct (schema_before n s I) as (a & r & E & Hn). destruct (schema_good n s I) as (_ & _ & Rs & _).
    assert (Ha : Forall (fun x => exists s', SchemaReads (snd x) s') a) by (pose proof schemas_ok' as H; rewrite E in H; apply Forall_app in H; apply H). split.
    - unfold table_of. rewrite E at 1. apply (schema_used [] (first_schema p) a n s s r _ (first_schema p + length (pl_schemas p) + length (pl_sources p) + length (pl_spaces p))); try assumption; [constructor|intros []|left; reflexivity|]. rewrite <- E. exact within_rest.
    - exists a, r. split; [exact E|]. unfold loc, table_of. rewrite E at 1. rewrite numbered_app. cbn [numbered]. rewrite !find_app, (not_named (numbered schema_syms (first_schema p) a) n) by (rewrite schemas_names by exact Ha; exact Hn).
      destruct (schema_find (first_schema p + length a) n s s n Rs (or_introl eq_refl)) as (y & F & L & _). rewrite F, L. reflexivity.
  Qed.
  Lemma schema_cols n s : In (n, s) (pl_schemas p) -> schema_columns tab n = map (read_column (loc n)) (ns_names s).
  Proof.
    intros I. destruct (schema_table n s I) as (U & _). unfold use_schema in U. unfold WholeModel.schema_columns, loc. destruct (find_symbol tab n) as [y|]; [|discriminate]. injection U as U. rewrite <- U. cbn [ns_names]. rewrite map_map. reflexivity.
  Qed.
  Lemma schema_list_app t u : schema_list (t ++ u) = schema_list t ++ schema_list u.
  Proof. apply flat_map_app. Qed.
  Lemma schema_list_none t : Forall (fun s => s_what s <> WSchema) t -> schema_list t = [].
  Proof. induction 1 as [|s t Hs _ IH]; [reflexivity|]. cbn [schema_list flat_map]. unfold schema_list in IH. rewrite IH. destruct (s_what s); try reflexivity. congruence. Qed.
  Lemma schema_list_one i x : schema_list (schema_syms i x) = [(fst x, Datatypes.S i)].
  Proof. unfold schema_syms. change (?a :: ?l) with ([a] ++ l). rewrite schema_list_app. rewrite (schema_list_none (map _ _)); [reflexivity|]. apply Forall_forall. intros y I. apply in_map_iff in I as (q & <- & _). discriminate. Qed.
  Lemma schema_list_in l : forall i x, In x (schema_list (numbered schema_syms i l)) -> i < snd x <= i + length l.
  Proof. induction l as [|y l IH]; intros i x; [intros []|]. cbn [numbered length]. rewrite schema_list_app, schema_list_one. intros [<- | I]; [cbn; lia|]. specialize (IH _ _ I). lia. Qed.
  Lemma schemas_listed : schema_list tab = schema_list (numbered schema_syms (first_schema p) (pl_schemas p)).
  Proof.
    unfold table_of. rewrite !schema_list_app. rewrite (schema_list_none (source_table _ _ _)), (schema_list_none (numbered space_syms _ _)); [rewrite !app_nil_r; reflexivity| |].
    - generalize (first_schema p + length (pl_schemas p) + length (pl_sources p)). induction (pl_spaces p) as [|x l IH]; intros i; cbn [numbered]; [constructor|]. apply Forall_app. split; [|apply IH]. unfold space_syms. apply Forall_app. split; [destruct (fst x); repeat constructor; discriminate|].
      generalize 0. induction (map node_of (snd x)) as [|f fs IHf]; intros j; [constructor|]. cbn [function_symbols]. constructor; [discriminate|apply IHf].
    - generalize (first_schema p + length (pl_schemas p)). generalize (@nil file). induction (pl_sources p) as [|[m s] l IH]; intros seen i; cbn [source_table]; [constructor|]. apply Forall_app. split; [|apply IH].
      unfold source_syms. cbn [fst snd]. destruct s as [l0|[|f [|f2 fl]]| |]; repeat constructor; try discriminate. apply Forall_forall. intros y I. apply in_map_iff in I as (q & <- & _). discriminate.
  Qed.
  Lemma schema_found n s : In (n, s) (pl_schemas p) -> find (fun x => snd x =? loc n) (schema_list tab) = Some (n, loc n).
  Proof.
    intros I. destruct (schema_table n s I) as (_ & a & r & E & ->). rewrite schemas_listed, E, numbered_app. cbn [numbered]. rewrite !schema_list_app, schema_list_one. cbn [fst].
    assert (X : forall l : FieldModel.schemas, (forall x, In x l -> snd x <> Datatypes.S (first_schema p + length a)) -> forall m, find (fun x => snd x =? Datatypes.S (first_schema p + length a)) (l ++ m) = find (fun x => snd x =? Datatypes.S (first_schema p + length a)) m).
    { intros l H m. induction l as [|y l IH]; [reflexivity|]. cbn [app find]. destruct (Nat.eqb_spec (snd y) (Datatypes.S (first_schema p + length a))) as [Ey | _]; [exfalso; exact (H y (or_introl eq_refl) Ey)|]. apply IH. intros x Hx. apply H. right. exact Hx. }
    rewrite X; [cbn [app find snd]; rewrite Nat.eqb_refl; reflexivity|]. intros x Hx. apply schema_list_in in Hx. lia.
  Qed.
  Lemma schema_zero : find (fun x => snd x =? 0) (schema_list tab) = None.
  Proof.
    rewrite schemas_listed. assert (H : forall x, In x (schema_list (numbered schema_syms (first_schema p) (pl_schemas p))) -> 0 < snd x) by (intros x Hx; apply schema_list_in in Hx; lia).
    induction (schema_list _) as [|y l IH]; [reflexivity|]. cbn [find]. destruct (Nat.eqb_spec (snd y) 0) as [Ey | _]; [specialize (H y (or_introl eq_refl)); lia|]. apply IH. intros x Hx. apply H. right. exact Hx.
  Qed.
  (** ** The relations *)
  Variable S : TreeModel.read_plan.
  Definition reading_of (c : ctx) : reading :=
    {| rd_function := DeclModel.resolve_function fs'; rd_relation := find_relation S;
       rd_field := fun i j => WholeModel.find_field (schema_list tab) (is_aggregate (r_body (cx_r c))) (map (as_read loc) (cx_C c)) (map (as_read loc) (columns_at_detail c i j));
       rd_emit := WholeModel.find_emit (schema_list tab) (is_aggregate (r_body (cx_r c))) (map (as_read loc) (cx_C c)) (map (as_read loc) (generated_read c));
       rd_columns := length (cx_C c) |}.
  Lemma is_defined n : In n (defined_names p) -> known_in p n = true.
  Proof. intros I. unfold known_in. apply existsb_exists. exists n. split; [exact I|apply seq_eqb_refl]. Qed.
  Lemma plan_ctx_in c : In c plan_ctxs -> In (cx c) (all_recorded es).
  Proof. intros I. rewrite <- (plan_order b Hb). apply in_map, I. Qed.
  Lemma stored_good s n : is_stored b s n -> Name s /\ Name n /\ find (fun x => snd x =? loc s) (schema_list tab) = Some (s, loc s).
  Proof.
    intros H. destruct (stored_names b Hb s n H) as (A & B & _). split; [exact A|]. split; [exact B|]. destruct H as (x & st & Ix & E & _). apply (schema_found s st). apply schema_in. exists x. auto.
  Qed.
  Lemma plan_reading c : In c plan_ctxs -> exists r', RelationReads (known_in p) (naming_of (declarations b) (cx c), rn_name (cx c), rn_relation (cx c)) (reading_of c, r') /\ outcome_of R c r'.
  Proof.
    intros Ic. destruct (plan_ok b Hb c Ic) as (Hc & _). destruct (ctx_columns b Hb c Ic) as (Hp & Hd). pose proof (plan_ctx_in c Ic) as Ix.
    destruct (ctx_reads known R (schema_list tab) loc (is_stored b) (is_new b) stored_good) with (fs := declarations b) (find_function := DeclModel.resolve_function fs') (find_relation := find_relation S) (known_name := known_in p) (c := c) as (r' & A & B).
    - intros n Hn. apply (new_names b Hb n Hn).
    - intros s n m Hs Hm ->. destruct (stored_names b Hb _ _ Hs) as (_ & _ & N & _). apply N. apply (new_names b Hb m Hm).
    - exact schema_zero.
    - intros s n Hs. destruct (stored_names b Hb _ _ Hs) as (_ & _ & _ & A & B). auto.
    - intros n Hn. destruct (new_names b Hb n Hn) as (_ & A & B & _). auto.
    - exact functions_found.
    - exact Hc.
    - exact Hp.
    - exact Hd.
    - apply Forall_app. split; apply Forall_forall; intros n I.
      + unfold listed_name in I. destruct (rn_source (cx c)) as [[m s]|] eqn:E; [|destruct I]. destruct I as [<- | []]. assert (J : In (m, s) (pl_sources p)) by (apply source_in; exists (cx c); auto). destruct (source_good m s J) as (_ & Nm & _). split; [exact Nm|].
        apply is_defined. unfold defined_names. rewrite !in_app_iff. right. left. unfold source_names. rewrite in_names. exists (m, s). split; [exact J|left; reflexivity].
      + unfold listed_name in I. destruct (rn_schema (cx c)) as [[m s]|] eqn:E; [|destruct I]. destruct I as [<- | []]. assert (J : In (m, s) (pl_schemas p)) by (apply schema_in; exists (cx c); auto). destruct (schema_good m s J) as (_ & Nm & _). split; [exact Nm|].
        apply is_defined. unfold defined_names. rewrite !in_app_iff. left. unfold schema_names. rewrite in_names. exists (m, s). split; [exact J|left; reflexivity].
    - exists r'. split; [|exact B]. split; [|exact A]. destruct (name_given (cx c) Ix) as (w & G & W). eapply given_name; [exact Hb|exact G|apply W].
  Qed.
  Lemma plan_readings : exists rs, Forall2 (fun c y => fst y = reading_of c /\ RelationReads (known_in p) (naming_of (declarations b) (cx c), rn_name (cx c), rn_relation (cx c)) y /\ outcome_of R c (snd y)) plan_ctxs rs.
  Proof.
    assert (H : forall c, In c plan_ctxs -> exists r', RelationReads (known_in p) (naming_of (declarations b) (cx c), rn_name (cx c), rn_relation (cx c)) (reading_of c, r') /\ outcome_of R c r') by exact plan_reading.
    induction plan_ctxs as [|c l IH]; [exists []; constructor|]. destruct (H c (or_introl eq_refl)) as (r' & A & B). destruct IH as (rs & F); [intros d Id; apply H; right; exact Id|]. exists ((reading_of c, r') :: rs). constructor; [|exact F]. split; [reflexivity|]. split; [exact A|exact B].
  Qed.
  Variable rs : list (reading * relation).
  Hypothesis Hrs : Forall2 (fun c y => fst y = reading_of c /\ RelationReads (known_in p) (naming_of (declarations b) (cx c), rn_name (cx c), rn_relation (cx c)) y /\ outcome_of R c (snd y)) plan_ctxs rs.
  Lemma relations_are : pl_relations p = map (fun c => (naming_of (declarations b) (cx c), rn_name (cx c), rn_relation (cx c))) plan_ctxs.
  Proof. cbn [p pl_relations]. rewrite <- (plan_order b Hb), map_map. reflexivity. Qed.
  Lemma plan_reads_all : PlanReads p rs.
  Proof.
    constructor.
    - apply Forall_forall. intros l I. cbn [p pl_pipelines] in I. apply in_flat_map in I as (q & Iq & I). split.
      + destruct (TreeFacts.pipe_start plan q l (conj plan_complete plan_names_ok) Iq I) as (s & _ & _ & E). intros ->. discriminate.
      + apply Forall_forall. intros n In_. pose proof (TreeFacts.plan_pipes_names q l n I In_) as O. destruct (own_given n) as (w & G & W); [apply in_flat_map; exists q; auto|]. eapply given_name; [exact Hb|exact G|apply W].
    - rewrite relations_are. pose proof Hrs as F. clear -F. induction F as [|c y l rs0 (_ & H & _) _ IH]; cbn [map]; constructor; assumption.
    - apply Forall_forall. intros l I. cbn [p pl_roots] in I. apply in_flat_map in I as (e & Ie & I). apply some_in in I. destruct (entry_in b Hb e Ie) as (x & _ & Ix & En & _). pose proof (cv_names _ Hb) as H. rewrite Forall_forall in H. specialize (H x Ix). rewrite <- En, I in H. apply H.
    - exact schemas_ok.
    - exact sources_ok.
    - exact spaces_ok.
  Qed.
  Variables (t : str) (nodes : list pnode).
  Hypothesis Hsays : Says t p rs nodes tab.
  Hypothesis Hlayout : Layout p rs nodes tab.
  Notation rnodes := (relations_of nodes).
  (** The sections of the relations *)
  Lemma nodes_shapes : Forall2 (fun c n => exists r', shape_as (naming_of (declarations b) (cx c), rn_name (cx c), rn_relation (cx c)) (reading_of c, r') n /\ visit_relation (SectionFacts.known tab) (reading_of c) n = Ok (Some r', []) /\ outcome_of R c r' /\
      RelationReads (known_in p) (naming_of (declarations b) (cx c), rn_name (cx c), rn_relation (cx c)) (reading_of c, r')) plan_ctxs rnodes.
  Proof.
    pose proof (ly_shape _ _ _ _ Hlayout) as Sh. pose proof (sy_relations _ _ _ _ _ Hsays) as V. rewrite relations_are in Sh. pose proof Hrs as F. clear -F Sh V. revert Sh V. generalize rnodes.
    induction F as [|c [d r'] l rs0 (E & A & B) _ IH]; intros ns Sh V; cbn [map combine] in Sh; inversion Sh as [|n z ns0 zs S1 S2]; subst; [constructor|]. inversion V as [|? ? ? ? V1 V2]; subst. cbn [fst snd] in *. subst d. constructor; [exists r'; auto|]. exact (IH _ S2 V2).
  Qed.
  Lemma kind_same c : CtxOk known c -> kind_read (kind_name (r_body (rn_relation (cx c)))) = kind_of (r_body (rn_relation (cx c))).
  Proof.
    intros Hc. pose proof (ck_ok _ _ Hc) as (_ & K). rewrite (rc_relation _ _ _ _ _ _ _ _ _ (ck_recorded _ _ Hc)). cbn [r_body]. destruct (r_body (cx_r c)); try reflexivity. destruct K as (_ & _ & []).
  Qed.
  Lemma text_same : WholeModel.text_of nodes tab = TreeFacts.text_of plan others.
  Proof.
    unfold WholeModel.text_of, TreeFacts.text_of. f_equal.
    - rewrite (sy_pipelines _ _ _ _ _ Hsays). cbn [p pl_pipelines]. rewrite map_map. rewrite (map_ext _ (fun x => x)); [apply List.map_id|]. intros l. rewrite map_map. unfold twice. cbn [fst]. apply List.map_id.
    - rewrite plan_symbols, map_map. assert (X : forall c, In c plan_ctxs -> CtxOk known c) by (intros c Ic; apply (plan_ok b Hb c Ic)). pose proof nodes_shapes as F. clear -F X. induction F as [|c n l ns (r' & (S1 & S2 & _) & _) _ IH]; [reflexivity|]. cbn [map]. rewrite IH by (intros d Id; apply X; right; exact Id). f_equal.
      cbn [named_tree TreeFacts.section_of map]. rewrite S1, S2, kind_same by (apply X; left; reflexivity). reflexivity.
    - rewrite (sy_roots _ _ _ _ _ Hsays). cbn [p pl_roots]. unfold plan. rewrite map_map. clear. induction es as [|e l IH]; [reflexivity|]. cbn [flat_map map filter plan_rel_of TreeModel.p_names]. rewrite filter_app, IH. destruct (e_names e) as [[|n ns]|]; reflexivity.
  Qed.
  (** ** Visiting them *)
  Hypothesis HS : PipeFacts.recorded (TreeModel.r_tab S) (flat_map TreeModel.plan_pipes plan).
  Hypothesis HS2 : forall s, In s (TreeFacts.all_symbols plan) -> PipeModel.is_rel (TreeModel.r_tab S) (TreeModel.node_name s) = true.
  Definition VisitedAs (c : ctx) (k : known_rel) : Prop :=
    fst k = rn_name (cx c) /\ outcome_of R c (fst (snd k)) /\ RelationReads (known_in p) (naming_of (declarations b) (cx c), rn_name (cx c), rn_relation (cx c)) (reading_of c, fst (snd k)) /\
    FieldModel.exposed (snd (snd k)) = map (as_read loc) (FieldModel.exposed (rn_data (cx c))).
  Notation name_of := (fun c => rn_name (cx c)).
  Lemma visited_found l ks c : Forall2 VisitedAs l ks -> NoDup (map name_of l) -> In c l -> exists x, find_rel (rn_name (cx c)) ks = Some x /\ VisitedAs c (rn_name (cx c), x).
  Proof.
    induction 1 as [|a [m x] l ks V _ IH]; intros N I; [destruct I|]. cbn [map] in N. inversion N as [|? ? N1 N2]; subst. cbn [find_rel]. pose proof V as (E & _). cbn [fst] in E. subst m. destruct I as [-> | I].
    - rewrite seq_eqb_refl. exists x. auto.
    - rewrite (proj2 (seq_eqb_neq _ _)); [exact (IH N2 I)|]. intros E. apply N1. rewrite E. apply (in_map name_of), I.
  Qed.
  Lemma visited_none l ks n : Forall2 VisitedAs l ks -> ~ In n (map name_of l) -> find_rel n ks = None.
  Proof.
    induction 1 as [|a [m x] l ks V _ IH]; intros N; [reflexivity|]. cbn [find_rel]. pose proof V as (E & _). cbn [fst] in E. subst m. rewrite (proj2 (seq_eqb_neq _ _)); [apply IH; intros I; apply N; right; exact I|]. intros E. apply N. left. exact E.
  Qed.
  Lemma names_nodup : NoDup (map name_of plan_ctxs).
  Proof.
    eapply part_nodup; [|exact (given_nodup b Hb)]. eapply part_trans; [|apply part_map, (asked_part b)]. rewrite <- (plan_order b Hb), map_flat. rewrite flat_map_map. generalize plan_ctxs as l0. clear. intros l0. induction l0 as [|c l IH]; [constructor|]. cbn [map flat_map]. change (?a :: ?m) with ([a] ++ m) at 1. apply part_app; [|exact IH].
    unfold asked_node. rewrite !map_app. apply part_right, part_right, part_right, part_refl.
  Qed.
  Lemma plan_inputs : InputsBefore [] plan_ctxs.
  Proof.
    assert (H : forall l done, (forall z, In z l -> InputsBefore [] (ctxs 0 [] (fst (fst z)) (e_tree (snd z)))) -> InputsBefore done (flat_map (fun z : (tree * option (list str)) * entry_of => ctxs 0 [] (fst (fst z)) (e_tree (snd z))) l)).
    { induction l as [|z l IH]; intros done Hz; [exact I|]. cbn [flat_map]. apply inputs_app. split; [apply (inputs_more _ []); [intros x []|apply Hz; left; reflexivity]|]. apply IH. intros y Iy. apply Hz. right. exact Iy. }
    apply H. intros z Iz. destruct (combine_in b Hb z Iz) as (_ & _ & _ & TR & _). exact (tr_inputs _ _ _ _ _ TR).
  Qed.
  Lemma map_flat_map {A B C} (f : B -> C) (g : A -> list B) l : map f (flat_map g l) = flat_map (fun x => map f (g x)) l.
  Proof. apply map_flat. Qed.
  Lemma find_rel_app n (a e : list known_rel) x : find_rel n a = Some x -> find_rel n (a ++ e) = Some x.
  Proof. induction a as [|[m y] a IH]; [discriminate|]. cbn [app find_rel]. destruct (m =s n); auto. Qed.
  Lemma fields_same done c l ks first : plan_ctxs = done ++ c :: l -> Forall2 VisitedAs done ks -> fields_of S (ks ++ first) (rn_name (cx c)) = map (as_read loc) (cx_C c).
  Proof.
    intros E V. assert (Ic : In c plan_ctxs) by (rewrite E; apply in_elt). unfold fields_of, cx_C. rewrite (node_inputs S c HS Ic), flat_map_map, map_flat_map.
    pose proof plan_inputs as PI. rewrite E in PI. apply inputs_app in PI as (_ & PI & _). cbn [app] in PI.
    assert (ND : NoDup (map name_of done)). { pose proof names_nodup as N. rewrite E, map_app in N. apply app_nodup_l in N. exact N. }
    assert (X : forall i, In i (cx_ins c) -> match find_rel (rn_name (top i)) (ks ++ first) with Some (_, d) => FieldModel.exposed d | None => [] end = map (as_read loc) (FieldModel.exposed (rn_data (top i)))).
    { intros i Ii. specialize (PI i Ii). apply in_map_iff in PI as (c' & Ec & Ic'). destruct (visited_found done ks c' V ND Ic') as ([r d] & F & _ & _ & _ & Ex). rewrite Ec in F, Ex. rewrite (find_rel_app _ _ first _ F). exact Ex. }
    clear -X. induction (cx_ins c) as [|i l IH]; [reflexivity|]. cbn [flat_map]. rewrite X by (left; reflexivity). rewrite IH by (intros j Ij; apply X; right; exact Ij). reflexivity.
  Qed.
  Lemma empty_found c : CtxOk known c -> exists b0, empty_body (kind_name (r_body (rn_relation (cx c)))) = Some b0.
  Proof.
    intros Hc. pose proof (ck_ok _ _ Hc) as (_ & K). rewrite (rc_relation _ _ _ _ _ _ _ _ _ (ck_recorded _ _ Hc)). cbn [r_body]. destruct (r_body (cx_r c)); try (eexists; reflexivity). destruct K as (_ & _ & []).
  Qed.
  Lemma nodes_visited l ns : Forall2 (fun c n => exists r', shape_as (naming_of (declarations b) (cx c), rn_name (cx c), rn_relation (cx c)) (reading_of c, r') n /\ visit_relation (SectionFacts.known tab) (reading_of c) n = Ok (Some r', []) /\ outcome_of R c r' /\
      RelationReads (known_in p) (naming_of (declarations b) (cx c), rn_name (cx c), rn_relation (cx c)) (reading_of c, r')) l ns ->
    forall first done ks t0, plan_ctxs = done ++ l -> Forall2 VisitedAs done ks -> exists ks', visit_nodes (DeclModel.resolve_function fs') tab S first t0 ks ns = Ok (ks', []) /\ Forall2 VisitedAs (done ++ l) ks'.
  Proof.
    induction 1 as [|c n l ns (r' & Sh & Vi & Ou & Re) _ IH]; intros first done ks t0 E V.
    - exists ks. split; [reflexivity|]. rewrite app_nil_r. exact V.
    - assert (Ic : In c plan_ctxs) by (rewrite E; apply in_elt). destruct (plan_ok b Hb c Ic) as (Hc & _). pose proof Sh as (S1 & S2 & _). destruct (empty_found c Hc) as (b0 & Eb). rewrite <- S1 in Eb.
      assert (Tk : taken S ks (n_name n) = false).
      { unfold taken. rewrite S2, (visited_none done ks); [|exact V|].
        - unfold find_relation. assert (X : PipeModel.is_rel (TreeModel.r_tab S) (rn_name (cx c)) = true). { specialize (HS2 (named_tree (RTree (cx c) (cx_ins c)))). cbn [named_tree TreeModel.node_name] in HS2. apply HS2. rewrite plan_symbols. apply (in_map (fun c => named_tree (RTree (cx c) (cx_ins c)))), Ic. }
          unfold PipeModel.is_rel in X. destruct (PipeModel.plookup _ _) as [[]|]; [reflexivity|discriminate|discriminate].
        - pose proof names_nodup as N. rewrite E, map_app in N. cbn [map] in N. apply NoDup_remove_2 in N. intros I. apply N. apply in_or_app. auto. }
      cbn [visit_nodes]. unfold visit_node at 1. rewrite Tk, Eb. set (gv := match b0 with BProject _ => given_names t0 (n_details n) | _ => (t0, []) end). rewrite S2, (fields_same done c l ks first E V).
      destruct (ctx_visited known R (schema_list tab) loc (is_stored b) (is_new b)) with (fs := declarations b) (find_function := DeclModel.resolve_function fs') (find_relation := find_relation S) (known_name := SectionFacts.known tab) (c := c) (r' := r') (node := n) (sc := WholeModel.schema_columns tab) (t := t0) (b0 := b0) as (d & Vc & Ex & Mi).
      + intros m Hm. apply (new_names b Hb m Hm).
      + exact Hc.
      + apply (ctx_columns b Hb c Ic).
      + exact Ou.
      + exact Sh.
      + exact Vi.
      + intros m s Em. apply (schema_cols m s). apply schema_in. exists (cx c). split; [apply plan_ctx_in, Ic|exact Em].
      + exact Eb.
      + fold gv in Vc. destruct gv as [t1 g1]. cbn [snd] in Vc. change (known_symbol tab) with (SectionFacts.known tab). rewrite Vc. unfold fine. cbn [obind]. cbn [fst snd map app]. rewrite Mi. cbn [map app obind].
        destruct (IH first (done ++ [c]) (ks ++ [(rn_name (cx c), (r', d))]) t1) as (ks' & A & B).
        * rewrite <- app_assoc. exact E.
        * apply Forall2_app; [exact V|]. constructor; [|constructor]. split; [reflexivity|]. cbn [fst snd]. auto.
        * exists ks'. rewrite A. split; [reflexivity|]. rewrite <- app_assoc in B. exact B.
  Qed.
  (** ** The sources and schemas of the reads *)
  Lemma flat_ext {A B} (f g : A -> list B) l : (forall x, In x l -> f x = g x) -> flat_map f l = flat_map g l.
  Proof. induction l as [|x l IH]; intros H; [reflexivity|]. cbn [flat_map]. rewrite H by (left; reflexivity). rewrite IH; [reflexivity|]. intros y Iy. apply H. right. exact Iy. Qed.
  Lemma sources_order : map snd (pl_sources p) = flat_map (fun x => sources_in (fst x)) (b_rels b).
  Proof.
    cbn [p pl_sources]. rewrite <- (plan_order b Hb), flat_map_map, map_flat.
    assert (X : flat_map (fun c => map snd (some_list (rn_source (cx c)))) plan_ctxs = flat_map (fun c => some_list (cx_src c)) plan_ctxs).
    { apply flat_ext. intros c Ic. destruct (plan_ok b Hb c Ic) as (Hc & _). rewrite <- (rc_source _ _ _ _ _ _ _ _ _ (ck_recorded _ _ Hc)). destruct (rn_source (cx c)) as [[]|]; reflexivity. }
    rewrite X. unfold WholeNameFacts.plan_ctxs. destruct (given_entries b Hb) as (_ & F). clear -F. induction F as [|x e xs l (_ & _ & t & t' & E) _ IH]; [reflexivity|]. cbn [combine flat_map fst snd]. rewrite flat_map_app. f_equal; [|exact IH].
    exact (proj2 (reads_recorded (fst x) t t' (e_tree e) 0 [] E)).
  Qed.
  Lemma source_table n s : In (n, s) (pl_sources p) -> use_source tab n = Ok (Some s).
  Proof.
    intros I. destruct (in_split _ _ I) as (a & r & E). destruct (source_good n s I) as (G & Hn & SR & _). pose proof (given_from b Hb _ _ G) as Nf. pose proof (part_nodup _ _ source_part (given_nodup b Hb)) as N. rewrite E, map_app in N. cbn [map fst] in N. apply NoDup_remove_2 in N.
    refine (sy_sources _ _ _ _ _ Hsays a n s r s E _ _ _ SR).
    - unfold schema_names. rewrite in_names. intros ((m & st) & I1 & I2). cbn [fst snd] in I2. destruct (schema_good m st I1) as (G1 & _ & _ & _ & H). destruct I2 as [-> | I2]; [|exact (proj2 (H n I2) Nf)]. apply (proj1 (source_word s)). exact (given_apart b Hb _ _ _ G G1).
    - unfold source_names. rewrite in_names. intros ((m & st) & I1 & I2). cbn [fst snd] in I2. destruct I2 as [-> | I2].
      + apply N. apply in_or_app. left. apply (in_map fst) in I1. exact I1.
      + assert (I3 : In (m, st) (pl_sources p)) by (rewrite E; apply in_or_app; auto). destruct (source_good m st I3) as (_ & _ & _ & H). exact (H n I2 Nf).
    - intros f If I1. pose proof (cv_files _ Hb) as D. rewrite <- sources_order, E, flat_map_map, flat_map_app in D. cbn [flat_map] in D. apply in_flat_map in I1 as (x & Ix & I1).
      clear -D If I1 Ix. rewrite app_assoc in D. apply app_nodup_l in D. revert D. induction a as [|y a IH]; [destruct Ix|]. cbn [flat_map snd]. rewrite <- app_assoc. destruct Ix as [-> | Ix].
      + intros D. destruct (in_split _ _ I1) as (u & v & Eu). rewrite Eu, <- !app_assoc in D. cbn [app] in D. apply NoDup_remove_2 in D. apply D. rewrite !in_app_iff. cbn [snd]. tauto.
      + intros D. apply (IH Ix). induction (files_of (snd y)) as [|g l IHl]; [exact D|]. apply IHl. inversion D. assumption.
  Qed.
  Lemma read_parts c r' : In c plan_ctxs -> RelationReads (known_in p) (naming_of (declarations b) (cx c), rn_name (cx c), rn_relation (cx c)) (reading_of c, r') ->
    message_source tab None (sources_of (r_body r')) = Ok (cx_src c) /\ message_schema tab (schemas_of (r_body r')) = cx_sch c.
  Proof.
    intros Ic (_ & Re). destruct (reads_names _ _ _ _ _ _ _ _ _ _ _ _ _ _ _ Re) as (-> & ->). destruct (plan_ok b Hb c Ic) as (Hc & _). pose proof (ck_ok _ _ Hc) as (_ & K). pose proof (ck_recorded _ _ Hc) as Rc. rewrite (rc_relation _ _ _ _ _ _ _ _ _ Rc). cbn [r_body].
    pose proof (rc_source _ _ _ _ _ _ _ _ _ Rc) as R1. pose proof (rc_schema _ _ _ _ _ _ _ _ _ Rc) as R2. pose proof (plan_ctx_in c Ic) as Ix.
    assert (X1 : message_source tab None (listed_name (rn_source (cx c))) = Ok (cx_src c)).
    { rewrite <- R1. destruct (rn_source (cx c)) as [[n s]|] eqn:E; [|reflexivity]. cbn [listed_name message_source option_map snd fst]. rewrite (source_table n s) by (apply source_in; exists (cx c); auto). reflexivity. }
    assert (X2 : message_schema tab (listed_name (rn_schema (cx c))) = cx_sch c).
    { rewrite <- R2. destruct (rn_schema (cx c)) as [[n s]|] eqn:E; [|reflexivity]. cbn [listed_name option_map snd fst]. unfold message_schema. cbn [fold_left]. rewrite (proj1 (schema_table n s ltac:(apply schema_in; exists (cx c); auto))). reflexivity. }
    destruct (r_body (cx_r c)); cbn [with_names sources_of schemas_of]; [auto| ..]; destruct K as (-> & -> & _); split; reflexivity.
  Qed.
  Definition fill_list (ks : list known_rel) := fix go (l : list (TreeModel.rel unit)) : outcome (list tree) := match l with [] => Ok [] | i :: l => x <- fill tab ks i ;; r <- go l ;; Ok (x :: r) end.
  Lemma fill_node ks u k n ins ex : fill tab ks (TreeModel.Rel u k n ins ex) =
    (l <- fill_list ks ins ;;
    match find_rel n ks with
    | None => Ok (Node (Relation (BOther $"unknown") []) None None l)
    | Some (r, _) => s <- message_source tab None (sources_of (r_body r)) ;; Ok (Node (message r) s (message_schema tab (schemas_of (r_body r))) l)
    end).
  Proof. reflexivity. Qed.
  Lemma filled ks x : Forall2 VisitedAs plan_ctxs ks -> forall t1 t2 rt n L, record t1 x = (t2, rt) -> incl (ctxs n L x rt) plan_ctxs ->
    exists x', fill tab ks (TreeModel.strip (named_tree rt)) = Ok x' /\ same_tree R n x x'.
  Proof.
    intros V. induction x as [r src sch ins IH] using tree_ind2. intros t1 t2 rt n L E I. rewrite record_node_eq in E. destruct (record_list t1 ins) as [t3 rins] eqn:E1.
    destruct (record_node t3 r src sch (flat_map (fun i => FieldModel.exposed (rn_data (top i))) rins)) as [t4 x]. injection E as <- <-. cbn [ctxs] in I. fold (all_ctxs ctxs) in I.
    assert (X : exists l', fill_list ks (map (fun i => TreeModel.strip (named_tree i)) rins) = Ok l' /\ all_same (same_tree R) n ins l').
    { assert (I' : incl (all_ctxs ctxs n L ins rins) plan_ctxs) by (intros y Iy; apply I, in_or_app; auto). clear -IH E1 I'. revert t1 t3 rins n L E1 I'. induction IH as [|i ins Hi _ IHl]; intros t1 t3 rins n L E1 I'; cbn [record_list] in E1.
      - injection E1 as <- <-. exists []. split; [reflexivity|exact Logic.I].
      - destruct (record t1 i) as [t5 ri] eqn:Ei. destruct (record_list t5 ins) as [t6 rl] eqn:El. injection E1 as <- <-. rewrite ctxs_cons in I'.
        destruct (Hi _ _ _ n L Ei) as (i' & F1 & S1); [intros y Iy; apply I', in_or_app; auto|]. destruct (IHl _ _ _ (fst (columns n i)) (L ++ made ri) El) as (l' & F2 & S2); [intros y Iy; apply I', in_or_app; right; exact Iy|].
        exists (i' :: l'). cbn [map fill_list]. rewrite F1. cbn [obind]. fold (fill_list ks). rewrite F2. split; [reflexivity|]. split; assumption. }
    destruct X as (l' & F & Sl). set (c := Ctx x rins r src sch (fst (all_columns columns n ins)) (snd (all_columns columns n ins)) (L ++ flat_map made rins)) in *.
    assert (Ic : In c plan_ctxs) by (apply I, in_elt). destruct (visited_found _ _ c V names_nodup Ic) as ([r' d] & Fr & _ & (O1 & O2) & Re & _). cbn [fst snd] in *. destruct (read_parts c r' Ic Re) as (P1 & P2).
    cbn [named_tree TreeModel.strip]. rewrite fill_node, map_map, F. cbn [obind]. change (rn_name x) with (rn_name (cx c)). rewrite Fr, P1. cbn [obind]. rewrite P2. eexists. split; [reflexivity|]. cbn [same_tree].
    split; [reflexivity|]. split; [reflexivity|]. split; [exact Sl|]. unfold cx_G in O2. cbn [c cx_F cx_r cx_n cx_sch] in O1, O2. destruct (all_columns columns n ins) as [n1 F1]. cbn [fst snd] in O1, O2. split; [|exact O2].
    unfold message. cbn [r_body]. destruct (r_body r'); exact O1.
  Qed.
  Lemma all_filled ks : Forall2 VisitedAs plan_ctxs ks -> exists l', fill_all tab ks (map (fun q => (TreeModel.strip (TreeModel.p_rel q), TreeModel.p_names q)) plan) = Ok l' /\
    Forall2 (fun x x' => same_tree R 0 (fst x) (fst x') /\ snd x' = Some (match snd x with Some l => l | None => [] end)) (b_rels b) l'.
  Proof.
    intros V. assert (I : incl plan_ctxs plan_ctxs) by (intros y Iy; exact Iy). unfold WholeNameFacts.plan_ctxs at 1 in I. unfold plan. destruct (given_entries b Hb) as (_ & F). revert I. induction F as [|x e xs l (En & _ & t1 & t2 & E) _ IH]; intros I.
    - exists []. split; [reflexivity|constructor].
    - cbn [combine flat_map fst snd] in I. destruct (filled ks (fst x) V t1 t2 (e_tree e) 0 [] E) as (x' & F1 & S1); [intros y Iy; apply I, in_or_app; auto|]. destruct IH as (l' & F2 & S2); [intros y Iy; apply I, in_or_app; right; exact Iy|].
      exists ((x', Some (match snd x with Some l => l | None => [] end)) :: l'). cbn [map fill_all plan_rel_of TreeModel.p_rel TreeModel.p_names]. rewrite F1. cbn [obind]. rewrite F2. cbn [obind]. rewrite En. split; [reflexivity|]. constructor; [|exact S2]. split; [exact S1|reflexivity].
  Qed.
  Lemma entries_same : entries 0 0 nodes = fs'.
  Proof.
    destruct (ly_nodes _ _ _ _ Hlayout) as (l & -> & H). unfold fs', definitions. rewrite entries_skip; [reflexivity|exact H].
  Qed.
  Lemma fuel_enough q : In q plan -> TreeFacts.size (TreeModel.p_rel q) <= Datatypes.S (length rnodes).
  Proof.
    intros I. assert (E : length rnodes = length plan_ctxs). { pose proof nodes_shapes as F. apply forall2_len in F. auto. }
    rewrite E. unfold TreeFacts.size. destruct (in_split _ _ I) as (a & r & Ep). pose proof plan_symbols as X. unfold TreeFacts.all_symbols in X. rewrite Ep, flat_map_app in X. cbn [flat_map] in X. apply (f_equal (@length _)) in X. rewrite !app_length, map_length in X. lia.
  Qed.
  Lemma nothing_missing : flat_map (fun x => FieldModel.d_missing (rn_data x)) (all_recorded es) = [].
  Proof.
    rewrite <- (plan_order b Hb), flat_map_map. assert (X : forall c, In c plan_ctxs -> FieldModel.d_missing (rn_data (cx c)) = []) by (intros c Ic; destruct (plan_ok b Hb c Ic) as (Hc & _); exact (rc_missing _ _ _ _ _ _ _ _ _ (ck_recorded _ _ Hc))).
    rewrite (flat_ext _ (fun _ => []) _ X). clear. induction plan_ctxs as [|c l IH]; [reflexivity|exact IH].
  Qed.
End Trip.
(** ** More functions that are the same *)
Section Mono.
  Variables R0 R1 : N -> N -> Prop.
  Hypothesis HR : forall f f', R0 f f' -> R1 f f'.
  Lemma same_mono C e : forall e', SameE R0 C e e' -> SameE R1 C e e'.
  Proof.
    induction e as [|l|s r|r|r|f args deprecated options ty Ha Hd|ifs els Hi He|e ty f IH|n|l n Hl|q n|op red e n He|u] using PrintFacts.expr_ind2; intros e' S; inversion S as [l0|z z' Hz|f0 f' args0 args' ty0 Hf Hargs|ifs0 ifs' els0 els' Hifs Hels|e0 e0' ty0 He0]; subst.
    - constructor.
    - constructor. exact Hz.
    - constructor; [apply HR, Hf|]. clear -Ha Hargs. revert Ha. induction Hargs as [|a a' l l' Sa _ IHl]; intros Ha; [constructor|]. inversion Ha as [|? ? Ha1 Ha2]; subst. constructor; [|apply IHl; assumption]. inversion Sa; subst; constructor. apply Ha1; assumption.
    - constructor.
      + clear -Hi Hifs. revert Hi. induction Hifs as [|c c' l l' Sc _ IHl]; intros Hi; [constructor|]. inversion Hi as [|? ? Hi1 Hi2]; subst. constructor; [|apply IHl; assumption]. inversion Sc; subst; destruct Hi1 as (H1 & H2). constructor; [eapply H1; [reflexivity|eassumption]|eapply H2; [reflexivity|eassumption]].
      + inversion Hels; subst; constructor. eapply He; [reflexivity|eassumption].
    - constructor. apply IH. assumption.
  Qed.
  Lemma same_option_mono C o o' : SameO R0 C o o' -> SameO R1 C o o'.
  Proof. intros S. inversion S; subst; constructor. apply same_mono. assumption. Qed.
  Lemma same_arg_mono C a a' : SameArg R0 C a a' -> SameArg R1 C a a'.
  Proof. intros S. inversion S; subst; constructor. apply same_mono. assumption. Qed.
  Lemma same_measure_mono C m m' : SameMeasure R0 C m m' -> SameMeasure R1 C m m'.
  Proof. intros S. inversion S; subst. constructor; [apply HR; assumption|eapply DeclFacts.F2_imp; [apply same_arg_mono|eassumption]|apply same_option_mono; assumption]. Qed.
  Lemma same_sort_mono C s s' : SameSort R0 C s s' -> SameSort R1 C s s'.
  Proof. intros S. inversion S; subst. constructor. apply same_mono. assumption. Qed.
  Lemma same_body_mono C b b' : SameBody R0 C b b' -> SameBody R1 C b b'.
  Proof.
    intros S. inversion S; subst; constructor; try (apply same_option_mono; assumption); eapply DeclFacts.F2_imp; try eassumption; [apply same_mono|apply same_measure_mono|apply same_sort_mono|apply same_mono].
  Qed.
  Lemma same_tree_mono t : forall n t', same_tree R0 n t t' -> same_tree R1 n t t'.
  Proof.
    induction t as [r src sch ins IH] using tree_ind2. intros n [r' src' sch' ins'] (A & B & Si & Sb). cbn [same_tree]. split; [exact A|]. split; [exact B|]. split.
    - clear -IH Si. revert n ins' Si. induction IH as [|i ins Hi _ IHl]; intros n [|i' ins'] Si; try contradiction; [exact I|]. destruct Si as (S1 & S2). split; [apply Hi, S1|]. apply IHl, S2.
    - destruct (all_columns columns n ins) as [m F]. destruct Sb as (Sb & Se). split; [apply same_body_mono, Sb|exact Se].
  Qed.
End Mono.
Lemma whole_trip_more b : Convertible b -> exists t b' spaces, to_text b = Ok (t, 0) /\ from_text t = Ok (Some b', []) /\ same_plan b b' /\ DeclModel.outputFunctionsSection (declarations b) = Ok spaces /\
  b_uris b' = DeclModel.outputExtensionSpaces (fs' b spaces) /\ b_decls b' = DeclModel.outputFunctions (fs' b spaces) /\
  Forall2 (fun x x' => same_tree (R b spaces) 0 (fst x) (fst x') /\ snd x' = Some (match snd x with Some l => l | None => [] end)) (b_rels b) (b_rels b').
Proof.
  intros Hb. destruct (blocks_exist b Hb) as (spaces & Hspaces).
  destruct (TreeFacts.round_trip_more (plan b) (others b spaces)) as (S & Rt & (HS & HS2) & Out); [split; [apply plan_complete, Hb|apply plan_names_ok, Hb]|apply (trees_apart b Hb spaces Hspaces)|].
  destruct (plan_readings b Hb spaces Hspaces S) as (rs & Hrs). pose proof (plan_reads_all b Hb spaces Hspaces S rs Hrs) as PR. destruct (plan_layout _ _ PR) as (t & nodes & tab & Ht & Hsays & Hly).
  pose proof (ly_tab _ _ _ _ Hly) as Et. subst tab.
  assert (N : forall first, exists ks, visit_nodes (DeclModel.resolve_function (fs' b spaces)) (table_of (p b spaces)) S first SymbolModel.empty_table [] (relations_of nodes) = Ok (ks, []) /\ Forall2 (VisitedAs b spaces S) (plan_ctxs b) ks).
  { intros first. eapply nodes_visited with (done := []); try eassumption; [eapply nodes_shapes; eassumption|reflexivity|constructor]. }
  destruct (N []) as (ks1 & Vn1 & _). destruct (N ks1) as (ks & Vn & V).
  assert (F : exists l', fill_all (table_of (p b spaces)) ks (map (fun q => (TreeModel.strip (TreeModel.p_rel q), TreeModel.p_names q)) (plan b)) = Ok l' /\
    Forall2 (fun x x' => same_tree (R b spaces) 0 (fst x) (fst x') /\ snd x' = Some (match snd x with Some l => l | None => [] end)) (b_rels b) l') by (eapply all_filled; eassumption).
  destruct F as (l' & Fl & Sl).
  exists t. exists (BPlan (DeclModel.outputExtensionSpaces (fs' b spaces)) (DeclModel.outputFunctions (fs' b spaces)) l'). exists spaces. split; [|split; [|split; [|split; [exact Hspaces|split; [reflexivity|split; [reflexivity|exact Sl]]]]]].
  - unfold to_text. rewrite (plan_is b spaces Hspaces). cbn [obind]. rewrite Ht. cbn [obind fst snd]. rewrite (nothing_missing b Hb). reflexivity.
  - unfold from_text. rewrite (sy_parse _ _ _ _ _ Hsays), (sy_symbols _ _ _ _ _ Hsays). cbn [obind]. assert (T : text_of nodes (table_of (p b spaces)) = TreeFacts.text_of (plan b) (others b spaces)) by (eapply text_same; eassumption). rewrite T, Rt. cbn [obind].
    assert (E : entries 0 0 nodes = fs' b spaces) by (eapply entries_same; eassumption). rewrite E, Vn1. cbn [obind map app filter]. rewrite Vn. cbn [obind]. rewrite Out by (intros q; eapply fuel_enough; eassumption). cbn [obind]. rewrite Fl. reflexivity.
  - unfold same_plan. cbn [b_rels]. eapply DeclFacts.F2_imp; [|exact Sl]. intros x x' (A & B). split; [|exact B]. eapply same_tree_mono; [|exact A]. intros f f' (H & _). exact H.
Qed.
Lemma whole_trip b : Convertible b -> exists t b', to_text b = Ok (t, 0) /\ from_text t = Ok (Some b', []) /\ same_plan b b'.
Proof. intros Hb. destruct (whole_trip_more b Hb) as (t & b' & sp & A & B & C & _). exists t, b'. auto. Qed.
