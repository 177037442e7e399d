(** C97 and C100: the names of the columns of a plan are those that the text gives its root. *)
From Verif Require Import Base BaseFacts StringsModel LexModel ExprModel RelModel SectionModel WholeModel SoundFacts SubPlanFacts RelOrderFacts PropSound PropSub.
From Verif Require SubModel DeclFacts PipeModel PipeFacts TreeModel TreeFacts.

Section Roots.
  Import TreeModel.
  (** a text with two roots is reported *)
  Lemma one_root l : forall t t', define_roots t false l = (t', []) -> l = [] \/ exists names, l = [names].
  Proof.
    destruct l as [|x [|y l]]; intros t t' H; [auto|eauto|]. exfalso. cbn [define_roots] in H. destruct (PipeModel.plookup t root_name); destruct (define_roots _ _ l) in H; discriminate H.
  Qed.
  Lemma read_roots x rp : readText x = Ok (rp, []) -> r_roots rp = x_roots x /\ (x_roots x = [] \/ exists names, x_roots x = [names]).
  Proof.
    unfold readText. destruct (define_rels _ _) as [t1 e1]. destruct (define_roots t1 false (x_roots x)) as [t2 e2] eqn:E. destruct (PipeModel.visitPipelines _ _) as [[t3 e3]| |]; cbn [obind fst snd]; try discriminate.
    intros H. injection H as <- He. split; [reflexivity|]. apply app_eq_nil in He as [_ He]. apply app_eq_nil in He as [-> _]. exact (one_root _ _ _ E).
  Qed.
End Roots.
Lemma fill_names tab known l : forall rels, fill_all tab known l = Ok rels -> forall x names, In (x, names) rels -> exists t ns, In (t, ns) l /\ names = Some ns.
Proof.
  induction l as [|[t ns] l IH]; intros rels E x names I; cbn [fill_all] in E; [injection E as <-; destruct I|]. destruct (fill tab known t) as [y| |]; cbn [obind] in E; try discriminate E.
  destruct (fill_all tab known l) as [r| |]; cbn [obind] in E; try discriminate E. injection E as <-. destruct I as [Q|I]; [injection Q as _ <-; exists t, ns; split; [left; reflexivity|reflexivity]|].
  destruct (IH r eq_refl x names I) as (t' & ns' & I' & E'). exists t', ns'. split; [right; exact I'|exact E'].
Qed.
(** A tree of the plan has no names, or the text has one root and the tree has all of its names in their order. *)
Theorem C97_names s b pn : from_text s = Ok (Some b, []) -> parse s = Some pn -> forall t names, In (t, names) (b_rels b) -> names = Some [] \/ exists l, roots_of pn = [l] /\ names = Some l.
Proof.
  intros H Hp t names I. destruct (from_text_parts s b H) as (nodes & tab & rp & first & known & l & Ep & _ & Er & _ & El & Ef & _). rewrite Hp in Ep. injection Ep as <-. destruct (read_roots _ _ Er) as [Rr R]. cbn [text_of TreeModel.x_roots] in Rr, R.
  destruct (fill_names _ _ _ _ Ef _ _ I) as (t' & ns & It & ->). unfold TreeModel.outputToBinaryPlan in El. apply (omap_in _ _ _ _ El) in It as ([n d] & _ & Eb). cbn [fst snd] in Eb. destruct (PipeModel.news d); [injection Eb as _ <-; auto|].
  destruct (TreeModel.build _ _ _); cbn [obind] in Eb; try discriminate Eb. injection Eb as _ <-. rewrite Rr. destruct R as [->|(ns & ->)]; [auto|]. right. exists ns. auto.
Qed.
Print Assumptions C97_names.
(** The same with subqueries *)
Theorem C100_names s p pn : SubModel.from_text s = Ok (Some p, []) -> parse s = Some pn -> forall t names, In (t, names) (SubModel.q_rels p) -> names = Some [] \/ exists l, roots_of pn = [l] /\ names = Some l.
Proof.
  intros H Hp t names I. destruct (sfrom_text_parts s p H) as (nodes & tab & rp & first & known & l & Ep & _ & Er & _ & El & Ef & _). rewrite Hp in Ep. injection Ep as <-. destruct (read_roots _ _ Er) as [Rr R]. cbn [SubModel.text_of TreeModel.x_roots] in Rr, R.
  apply sfill_all_each in Ef. destruct (DeclFacts.Forall2_in_r _ _ _ _ Ef I) as ([t' ns] & It & _ & En). cbn [fst snd] in En. subst names. unfold SubModel.soutput in El. apply (omap_in _ _ _ _ El) in It as ([n d] & _ & Eb). cbn [fst snd] in Eb. destruct (PipeModel.news d); [injection Eb as _ <-; auto|].
  destruct (SubModel.sbuild _ _ _ _); cbn [obind] in Eb; try discriminate Eb. injection Eb as _ <-. rewrite Rr. destruct R as [->|(q & ->)]; [auto|]. right. exists q. auto.
Qed.
Print Assumptions C100_names.
(** Two names and a subquery *)
Definition text_names : str := $"pipelines { r -> f -> root; q -> g; } read relation r { source t; base_schema s; } read relation q { source t; base_schema s2; } filter relation g { filter equal(c, b); } filter relation f { filter and(EXISTS IN SUBQUERY g); } source named_table t { names = [""t""] } schema s { a i32; b i32; } schema s2 { c i32; d i32; } extension_space /f.yaml { function and:bool as and; function equal:any as equal; } root { names = [x, y] }".
Example C97_names_case : exists b pn t, from_text text_rpgf = Ok (Some b, []) /\ parse text_rpgf = Some pn /\ roots_of pn = [[$"x"]] /\ b_rels b = [(t, Some [$"x"])].
Proof.
  destruct (from_text text_rpgf) as [[[b|] e]| |] eqn:E; [|vm_compute in E; discriminate E..]. destruct (parse text_rpgf) as [pn|] eqn:Ep; [|vm_compute in Ep; discriminate Ep]. vm_compute in E, Ep. injection E as <- <-. injection Ep as <-.
  eexists _, _, _. split; [reflexivity|]. split; [reflexivity|]. split; reflexivity.
Qed.
Example C100_names_case : exists p pn t names, SubModel.from_text text_names = Ok (Some p, []) /\ parse text_names = Some pn /\ roots_of pn = [[$"x"; $"y"]] /\ In (t, names) (SubModel.q_rels p) /\ names = Some [$"x"; $"y"].
Proof.
  destruct (SubModel.from_text text_names) as [[[p|] e]| |] eqn:E; [|vm_compute in E; discriminate E..]. destruct (parse text_names) as [pn|] eqn:Ep; [|vm_compute in Ep; discriminate Ep]. vm_compute in E, Ep. injection E as <- <-. injection Ep as <-.
  eexists _, _, _, _. split; [reflexivity|]. split; [reflexivity|]. split; [reflexivity|]. split; [|reflexivity]. cbn [SubModel.q_rels In]. tauto.
Qed.

(** * The root gets a tree *)
Section Recorded.
  Import TreeModel.
  Lemma read_recorded x rp : readText x = Ok (rp, []) -> (forall n, In n (concat (x_pipes x)) -> In n (map x_name (x_rels x)) \/ n = $"root" /\ x_roots x <> []) ->
    PipeFacts.recorded (r_tab rp) (x_pipes x) /\ (x_roots x <> [] -> PipeModel.is_rel (r_tab rp) root_name = true) /\ r_rels rp = x_rels x.
  Proof.
    intros Er O3. unfold readText in Er. cbv zeta in Er. match type of Er with context [define_rels ?x (x_rels _)] => set (t0 := x) in Er end.
    destruct (define_rels t0 (x_rels x)) as [t1 e1] eqn:E1. destruct (define_roots t1 false (x_roots x)) as [t2 e2] eqn:E2. change (map (map (fun n => (n, n))) (x_pipes x)) with (map PipeFacts.plain (x_pipes x)) in Er.
    destruct (PipeModel.visitPipelines t2 (map PipeFacts.plain (x_pipes x))) as [[t3 e3]| |] eqn:E3; cbn [obind fst snd] in Er; try discriminate Er. injection Er as Erp Ee. apply app_eq_nil in Ee as [-> Ee]. apply app_eq_nil in Ee as [-> Ee]. apply app_eq_nil in Ee as [Ee _]. apply map_eq_nil in Ee. subst e3.
    apply define_clean in E1 as (T1 & ND & Nw). assert (T1' : t1 = t0 ++ map (fun n => (n, PipeModel.PRel PipeModel.no_data)) (map x_name (x_rels x))) by (rewrite T1, map_map; reflexivity). clear T1.
    assert (Nt0 : forall n, In n (map x_name (x_rels x)) -> PipeModel.plookup t0 n = None) by (intros n In_; apply in_map_iff in In_ as (y & <- & Iy); exact (Nw y Iy)).
    assert (L1 : forall n, In n (map x_name (x_rels x)) -> PipeModel.plookup t1 n = Some (PipeModel.PRel PipeModel.no_data)) by (intros n In_; rewrite T1', PipeFacts.plookup_app, (Nt0 n In_); apply lookup_rels, In_).
    assert (F1 : PipeFacts.fresh t1) by (rewrite T1'; apply fresh_app; [apply fresh_other|apply fresh_rels]).
    pose proof (roots_clean _ _ _ E2) as R. assert (F2 : PipeFacts.fresh t2) by (destruct R as [[_ ->]|[-> _]]; [exact F1|apply fresh_app; [exact F1|exact (fresh_rels [root_name])]]).
    assert (L2 : forall n, In n (map x_name (x_rels x)) -> PipeModel.plookup t2 n = Some (PipeModel.PRel PipeModel.no_data)) by (intros n In_; destruct R as [[_ ->]|[-> _]]; [exact (L1 n In_)|rewrite PipeFacts.plookup_app, (L1 n In_); reflexivity]).
    assert (L3 : x_roots x <> [] -> PipeModel.plookup t2 root_name = Some (PipeModel.PRel PipeModel.no_data)) by (intros Q; destruct R as [[X _]|[-> X]]; [contradiction|]; rewrite PipeFacts.plookup_app, X; reflexivity).
    assert (On : PipeFacts.only_relations t2 (x_pipes x)) by (intros n In_; destruct (O3 n In_) as [Q|[-> Q]]; [rewrite (L2 n Q); discriminate|change $"root" with root_name; rewrite (L3 Q); discriminate]).
    destruct (PipeFacts.read_pipelines t2 (x_pipes x) F2 On) as (t3' & errs & E3' & _ & Rec & Rel & _). assert (Q3 : Ok (t3, []) = Ok (t3', errs)) by (transitivity (PipeModel.visitPipelines t2 (map PipeFacts.plain (x_pipes x))); [symmetry; exact E3|exact E3']). injection Q3 as <- <-.
    rewrite <- Erp. cbn [r_tab r_rels]. split; [exact (Rec eq_refl)|]. split; [|reflexivity]. intros Q. apply Rel. left. unfold PipeModel.is_rel. rewrite (L3 Q). reflexivity.
  Qed.
  Lemma lookup_in (t : PipeModel.ptab) n d : PipeModel.plookup t n = Some d -> In (n, d) t.
  Proof. induction t as [|[m e] t IH]; cbn [PipeModel.plookup]; [discriminate|]. destruct (seq_eqb_spec m n) as [->|N]; [intros H; injection H as ->; left; reflexivity|]. intros H. right. exact (IH H). Qed.
  Lemma root_starts x rp : readText x = Ok (rp, []) -> (forall n, In n (concat (x_pipes x)) -> In n (map x_name (x_rels x)) \/ n = $"root" /\ x_roots x <> []) -> x_roots x <> [] ->
    PipeFacts.into true $"root" (x_pipes x) <> [] -> (forall p, In p (x_pipes x) -> ~ In $"root" (removelast p)) -> ~ In $"root" (parents rp) -> exists d, In ($"root", d) (starts rp) /\ PipeModel.news d <> [].
  Proof.
    intros Er Kn Rt Fd Md Np. destruct (read_recorded x rp Er Kn) as (Rec & Rl & _). specialize (Rl Rt). destruct (Rec $"root") as (A1 & _ & A3). unfold PipeModel.is_rel in Rl. unfold PipeFacts.data in *. change $"root" with root_name in *. destruct (PipeModel.plookup (r_tab rp) root_name) as [[d|]|] eqn:L; try discriminate Rl.
    exists d. split; [|rewrite A1; exact Fd]. unfold starts. apply in_flat_map. exists (root_name, PipeModel.PRel d). split; [exact (lookup_in _ _ _ L)|]. destruct (existsb (fun q => q =s root_name) (parents rp)) eqn:X.
    - exfalso. apply existsb_exists in X as (q & I & E). apply seq_eqb_eq in E. subst q. exact (Np I).
    - destruct (PipeModel.start d) as [m|] eqn:St; [|left; reflexivity]. exfalso. destruct (proj1 A3) as (p & Ip & J); [discriminate|]. exact (Md p Ip J).
  Qed.
  Lemma omap_image {A B} (f : A -> outcome B) l : forall l' a, omap_list f l = Ok l' -> In a l -> exists b, In b l' /\ f a = Ok b.
  Proof.
    induction l as [|x l IH]; intros l' a H I; cbn [omap_list] in H; [destruct I|]. destruct (f x) as [z| |] eqn:Ez; cbn [obind] in H; try discriminate H. destruct (omap_list f l) as [zs| |]; cbn [obind] in H; try discriminate H. injection H as <-.
    destruct I as [->|I]; [exists z; split; [left; reflexivity|exact Ez]|]. destruct (IH zs a eq_refl I) as (b & Ib & E). exists b. split; [right; exact Ib|exact E].
  Qed.
End Recorded.
Lemma filled tab known l : forall rels, fill_all tab known l = Ok rels -> forall t ns, In (t, ns) l -> exists x, In (x, Some ns) rels.
Proof.
  induction l as [|[u m] l IH]; intros rels E t ns I; cbn [fill_all] in E; [destruct I|]. destruct (fill tab known u) as [y| |]; cbn [obind] in E; try discriminate E. destruct (fill_all tab known l) as [r| |]; cbn [obind] in E; try discriminate E. injection E as <-.
  destruct I as [Q|I]; [injection Q as _ <-; exists y; left; reflexivity|]. destruct (IH r eq_refl t ns I) as (x & J). exists x. right. exact J.
Qed.
Lemma sfilled tab known rec l : forall rels, SubModel.sfill_all tab known rec l = Ok rels -> forall t ns, In (t, ns) l -> exists x, In (x, Some ns) rels.
Proof.
  induction l as [|[u m] l IH]; intros rels E t ns I; cbn [SubModel.sfill_all] in E; [destruct I|]. destruct (SubModel.sfill tab known rec u) as [y| |]; cbn [obind] in E; try discriminate E. destruct (SubModel.sfill_all tab known rec l) as [r| |]; cbn [obind] in E; try discriminate E. injection E as <-.
  destruct I as [Q|I]; [injection Q as _ <-; exists y; left; reflexivity|]. destruct (IH r eq_refl t ns I) as (x & J). exists x. right. exact J.
Qed.
(** If the text has a root and a pipeline ends there, none goes on from it, and pipelines name relations, then the plan has a tree with the names of the root. *)
Theorem C97_root s b pn l : from_text s = Ok (Some b, []) -> parse s = Some pn -> roots_of pn = [l] -> known_names pn -> PipeFacts.into true $"root" (arrows pn) <> [] -> (forall p, In p (arrows pn) -> ~ In $"root" (removelast p)) ->
  exists t, In (t, Some l) (b_rels b).
Proof.
  intros H Hp Rt Kn Fd Md. destruct (from_text_parts s b H) as (nodes & tab & rp & first & known & o & Ep & _ & Er & _ & El & Ef & _). rewrite Hp in Ep. injection Ep as <-. destruct (read_roots _ _ Er) as [Rr _]. cbn [text_of TreeModel.x_roots] in Rr. rewrite Rt in Rr.
  destruct (root_starts _ _ Er) as (d & Is & Nd); cbn [text_of TreeModel.x_pipes TreeModel.x_rels TreeModel.x_roots]; [rewrite map_map; exact Kn|rewrite Rt; discriminate|exact Fd|exact Md| |].
  { unfold TreeModel.parents. destruct (read_recorded _ _ Er) as (_ & _ & Rs); [cbn [text_of TreeModel.x_pipes TreeModel.x_rels TreeModel.x_roots]; rewrite map_map; exact Kn|]. rewrite Rs. cbn [text_of TreeModel.x_rels]. intros J. apply in_flat_map in J as (y & Iy & J). apply in_map_iff in Iy as (r & <- & _). destruct J. }
  unfold TreeModel.outputToBinaryPlan in El. destruct (omap_image _ _ _ _ El Is) as ([t ns] & It & Et). cbn [fst snd] in Et. destruct (PipeModel.news d) as [|i q]; [contradiction|]. destruct (TreeModel.build _ _ _); cbn [obind] in Et; try discriminate Et. injection Et as _ <-. rewrite Rr in It. exact (filled _ _ _ _ Ef _ _ It).
Qed.
Print Assumptions C97_root.
(** The same with subqueries, none of which is the root *)
Theorem C100_root s p pn l : SubModel.from_text s = Ok (Some p, []) -> parse s = Some pn -> roots_of pn = [l] -> known_names pn -> PipeFacts.into true $"root" (arrows pn) <> [] -> (forall q, In q (arrows pn) -> ~ In $"root" (removelast q)) ->
  (forall r, In r (relations_of pn) -> ~ In $"root" (named_in r)) -> exists t, In (t, Some l) (SubModel.q_rels p).
Proof.
  intros H Hp Rt Kn Fd Md Ns. destruct (sfrom_text_parts s p H) as (nodes & tab & rp & first & known & o & Ep & _ & Er & _ & El & Ef & _). rewrite Hp in Ep. injection Ep as <-. destruct (read_roots _ _ Er) as [Rr _]. cbn [SubModel.text_of TreeModel.x_roots] in Rr. rewrite Rt in Rr.
  destruct (root_starts _ _ Er) as (d & Is & Nd); cbn [SubModel.text_of TreeModel.x_pipes TreeModel.x_rels TreeModel.x_roots]; [rewrite map_map; exact Kn|rewrite Rt; discriminate|exact Fd|exact Md| |].
  { destruct (text_parts _ _ _ Er) as (Sc & _). unfold TreeModel.parents. rewrite Sc. intros J. apply in_flat_map in J as (y & Iy & J). apply in_map_iff in Iy as (r & <- & Ir). cbn [section_of TreeModel.x_exprs] in J. rewrite SubPlanFacts.named_node in J. exact (Ns r Ir J). }
  unfold SubModel.soutput in El. destruct (omap_image _ _ _ _ El Is) as ([t ns] & It & Et). cbn [fst snd] in Et. destruct (PipeModel.news d) as [|i q]; [contradiction|]. destruct (SubModel.sbuild _ _ _ _); cbn [obind] in Et; try discriminate Et. injection Et as _ <-. rewrite Rr in It. exact (sfilled _ _ _ _ _ Ef _ _ It).
Qed.
Print Assumptions C100_root.
Example C100_root_case : exists p pn, SubModel.from_text text_names = Ok (Some p, []) /\ parse text_names = Some pn /\ roots_of pn = [[$"x"; $"y"]] /\ known_names pn /\ PipeFacts.into true $"root" (arrows pn) <> [] /\ (forall q, In q (arrows pn) -> ~ In $"root" (removelast q)) /\
  (forall r, In r (relations_of pn) -> ~ In $"root" (named_in r)).
Proof.
  destruct (SubModel.from_text text_names) as [[[p|] e]| |] eqn:E; [|vm_compute in E; discriminate E..]. destruct (parse text_names) as [pn|] eqn:Ep; [|vm_compute in Ep; discriminate Ep]. vm_compute in E, Ep. injection E as <- <-. injection Ep as <-.
  eexists _, _. split; [reflexivity|]. split; [reflexivity|]. split; [reflexivity|]. split; [|split; [|split]].
  - intros x. vm_compute. intros J. repeat destruct J as [<-|J]; [..|destruct J]; auto 10. right. split; [reflexivity|discriminate].
  - vm_compute. discriminate.
  - intros q I J. vm_compute in I. repeat destruct I as [<-|I]; [..|destruct I]; vm_compute in J; repeat destruct J as [J|J]; try discriminate J; exact J.
  - intros r I J. vm_compute in I. repeat destruct I as [<-|I]; [..|destruct I]; vm_compute in J; repeat destruct J as [J|J]; try discriminate J; exact J.
Qed.
Example C97_root_case : exists b pn, from_text text_rpgf = Ok (Some b, []) /\ parse text_rpgf = Some pn /\ roots_of pn = [[$"x"]] /\ known_names pn /\ PipeFacts.into true $"root" (arrows pn) <> [] /\ (forall q, In q (arrows pn) -> ~ In $"root" (removelast q)).
Proof.
  destruct (from_text text_rpgf) as [[[p|] e]| |] eqn:E; [|vm_compute in E; discriminate E..]. destruct (parse text_rpgf) as [pn|] eqn:Ep; [|vm_compute in Ep; discriminate Ep]. vm_compute in E, Ep. injection E as <- <-. injection Ep as <-.
  eexists _, _. split; [reflexivity|]. split; [reflexivity|]. split; [reflexivity|]. split; [|split].
  - intros x. vm_compute. intros J. repeat destruct J as [<-|J]; [..|destruct J]; auto 10. right. split; [reflexivity|discriminate].
  - vm_compute. discriminate.
  - intros q I J. vm_compute in I. repeat destruct I as [<-|I]; [..|destruct I]; vm_compute in J; repeat destruct J as [J|J]; try discriminate J; exact J.
Qed.
