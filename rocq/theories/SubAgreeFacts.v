(** Texts without subqueries are read the same way by SubModel and WholeModel. *)
From Verif Require Import Base BaseFacts StringsModel TypeModel LexModel NameModel ExprModel RelModel FirstFacts SectionModel WholeModel.
From Verif Require FieldModel DeclModel PipeModel TreeModel SubModel SoundFacts.
From Coq Require Import Lia.

(** * Specification *)
(** A text without subqueries *)
Definition no_subqueries (nodes : list pnode) : Prop :=
  forall r d e, In r (relations_of nodes) -> In d (n_details r) -> In e (SubModel.detail_exprs d) -> has_subquery e = false.
(** A plan without subqueries as one that could have some *)
Fixpoint embed (t : tree) : SubModel.qtree := match t with Node r s sch ins => SubModel.QNode r s sch (map embed ins) [] end.
Definition embed_plan (b : bplan) : SubModel.qplan := SubModel.QPlan (b_uris b) (b_decls b) (map (fun x => (embed (fst x), snd x)) (b_rels b)).
(** A report that a column was not found *)
Definition not_found (e : werr) : bool := match e with WRelation (RExpr (XNoField _)) | WRelation REmitMissing => true | _ => false end.

(** * Proofs *)
Definition mapo {A B} (f : A -> B) (o : outcome A) : outcome B := match o with Ok a => Ok (f a) | Throw e => Throw e | UB => UB end.
Lemma plain_subs e : has_subquery e = false -> SubModel.subs e = [] /\ SubModel.seen_in e = 0.
Proof.
  induction e as [n args ty IH|c|t|e ty IH|n|l n IH|b n|e op b n IH] using enode_ind2; cbn [has_subquery SubModel.subs SubModel.seen_in]; intros H; try discriminate H; auto.
  induction args as [|[t x] args IHa]; [split; reflexivity|]. cbn [existsb flat_map map] in *. apply Bool.orb_false_iff in H as [H1 H2]. inversion IH as [|? ? I1 I2]; subst. cbn [snd] in I1. destruct (I1 H1) as [J1 J2]. destruct (IHa I2 H2) as [K1 K2].
  rewrite J1, J2, K1. split; [reflexivity|]. unfold list_sum in *. cbn [fold_right]. rewrite K2. destruct (_ && _); reflexivity.
Qed.
Lemma flat_map_nil {A B} (f : A -> list B) l : (forall x, In x l -> f x = []) -> flat_map f l = [].
Proof. induction l as [|a l IH]; intros H; [reflexivity|]. cbn [flat_map]. rewrite (H a (or_introl eq_refl)), IH; [reflexivity|]. intros x I. apply H. right. exact I. Qed.
Lemma plain_node nodes r : no_subqueries nodes -> In r (relations_of nodes) -> SubModel.node_subs r = [].
Proof. intros H I. unfold SubModel.node_subs. apply flat_map_nil. intros d Id. apply flat_map_nil. intros e Ie. apply plain_subs. exact (H r d e I Id Ie). Qed.
Lemma sum_zero l : (forall x, In x l -> x = 0) -> list_sum l = 0.
Proof. induction l as [|a l IH]; intros H; [reflexivity|]. change (list_sum (a :: l)) with (a + list_sum l). rewrite (H a (or_introl eq_refl)), IH; [reflexivity|]. intros x I. apply H. right. exact I. Qed.
Lemma attached_sub d e : In e (SubModel.attached_exprs d) -> In e (SubModel.detail_exprs d).
Proof. destruct d; cbn [SubModel.attached_exprs SubModel.detail_exprs]; auto. intros I. apply in_flat_map in I as (m & Im & I). apply in_flat_map. exists m. split; [exact Im|]. destruct m; [exact I|exact I|exact I|destruct I]. Qed.
Lemma plain_seen nodes n : no_subqueries nodes -> SubModel.seen_subs (relations_of nodes) n = 0.
Proof.
  intros H. unfold SubModel.seen_subs. destruct (find _ _) as [r|] eqn:E; [|reflexivity]. apply find_some in E as [I _]. apply sum_zero. intros x Ix. apply in_map_iff in Ix as (d & <- & Id).
  apply sum_zero. intros y Iy. apply in_map_iff in Iy as (e & <- & Ie). apply plain_subs. exact (H r d e I Id (attached_sub _ _ Ie)).
Qed.
Lemma plain_text nodes tab : no_subqueries nodes -> SubModel.text_of nodes tab = text_of nodes tab.
Proof.
  intros H. unfold SubModel.text_of, text_of. f_equal. apply map_ext_in. intros r I. rewrite (plain_node nodes r H I). reflexivity.
Qed.
Lemma text_rels x rp e : TreeModel.readText x = Ok (rp, e) -> TreeModel.r_rels rp = TreeModel.x_rels x.
Proof.
  unfold TreeModel.readText. destruct (TreeModel.define_rels _ _) as [t1 e1]. destruct (TreeModel.define_roots _ _ _) as [t2 e2]. destruct (PipeModel.visitPipelines _ _) as [y| |]; cbn [obind]; try discriminate. intros H. injection H as <- _. reflexivity.
Qed.
Section Plain.
  Variable rp : TreeModel.read_plan.
  Hypothesis none : forall s, In s (TreeModel.r_rels rp) -> TreeModel.x_exprs s = [].
  Lemma no_parent n : SubModel.parent_of rp n = None.
  Proof.
    unfold SubModel.parent_of. revert none. generalize (TreeModel.r_rels rp). intros l H. induction l as [|s l IH]; [reflexivity|]. cbn [fold_left]. unfold SubModel.section_subs at 2. rewrite (H s (or_introl eq_refl)). cbn [flat_map existsb].
    apply IH. intros x I. apply H. right. exact I.
  Qed.
  Lemma no_around n : fst (SubModel.around rp n) = [].
  Proof.
    unfold SubModel.around. generalize (length (TreeModel.r_tab rp)) at 1. intros k. set (f := length (TreeModel.r_tab rp)). assert (E : forall k n p, SubModel.enclosing rp k n <> SubModel.Inside p).
    { clear n k. induction k as [|k IH]; intros n p; cbn [SubModel.enclosing]; rewrite no_parent; destruct (PipeModel.start _); try discriminate. apply IH. }
    destruct f; cbn [SubModel.outward]; specialize (E k n); destruct (SubModel.enclosing rp k n) as [p| |]; try reflexivity; exfalso; exact (E p eq_refl).
  Qed.
  Variables (ff : str -> option N) (tab : table) (earlier : list known_rel) (first : bool).
  Lemma node_same t known node :
    SubModel.visit_node ff tab rp earlier first t known node = visit_node ff tab rp earlier t known node \/
    first = false /\ SubModel.visit_node ff tab rp earlier first t known node = Throw EFuel /\ forall x, visit_node ff tab rp earlier t known node = Ok x -> existsb not_found (snd x) = true.
  Proof.
    unfold SubModel.visit_node, visit_node. destruct (taken rp known (n_name node)); [left; reflexivity|]. destruct (empty_body (n_kind node)) as [b0|]; [|left; reflexivity].
    destruct (match b0 with BProject _ => given_names t (n_details node) | _ => (t, []) end) as [t' given].
    assert (Ei : SubModel.is_inner rp first (n_name node) = false) by (unfold SubModel.is_inner; rewrite no_parent; destruct first; reflexivity).
    assert (Es : SubModel.scopes_around rp earlier first known (n_name node) = []) by (unfold SubModel.scopes_around; rewrite no_around; destruct first; reflexivity).
    rewrite Ei, Es. set (v := visitColumns _ _ _ _ _ _ _ _ _ _). change (SubModel.visitColumns _ _ _ _ _ _ [] false _ _ _ _) with v.
    destruct v as [[[r d] e]| |]; cbn [obind fst snd]; [|left; reflexivity|left; reflexivity].
    destruct (existsb SubModel.lost e && negb (SubModel.gives_up rp first (n_name node))) eqn:L; [|left; reflexivity]. right. apply Bool.andb_true_iff in L as [L1 L2].
    split; [unfold SubModel.gives_up in L2; destruct first; [discriminate L2|reflexivity]|]. split; [reflexivity|]. intros x Ex. injection Ex as <-. cbn [snd]. rewrite existsb_app.
    apply Bool.orb_true_iff. left. apply existsb_exists in L1 as (y & Iy & Ly). apply existsb_exists. exists (WRelation y). split; [apply in_map; exact Iy|]. destruct y as [[]| | | | | | | | | | | | | | | | | | | | | | | | | | | | | |]; try discriminate Ly; reflexivity.
  Qed.
  Lemma nodes_same l : forall t known,
    SubModel.visit_nodes ff tab rp earlier first t known l = visit_nodes ff tab rp earlier t known l \/
    first = false /\ SubModel.visit_nodes ff tab rp earlier first t known l = Throw EFuel /\ forall x, visit_nodes ff tab rp earlier t known l = Ok x -> existsb not_found (snd x) = true.
  Proof.
    induction l as [|n l IH]; intros t known; [left; reflexivity|]. cbn [SubModel.visit_nodes visit_nodes]. destruct (node_same t known n) as [E|(F & E & K)].
    - rewrite E. destruct (visit_node ff tab rp earlier t known n) as [[[t1 k1] e1]| |]; cbn [obind]; [|left; reflexivity..]. destruct (IH t1 k1) as [E2|(F & E2 & K)]; rewrite E2; [left; reflexivity|].
      right. split; [exact F|]. split; [reflexivity|]. intros x Ex. destruct (visit_nodes ff tab rp earlier t1 k1 l) as [[k2 e2]| |]; cbn [obind] in Ex; try discriminate Ex. injection Ex as <-. cbn [fst snd]. rewrite existsb_app. specialize (K _ eq_refl). cbn [snd] in K. rewrite K. apply Bool.orb_true_r.
    - right. split; [exact F|]. rewrite E. split; [reflexivity|]. intros x Ex. destruct (visit_node ff tab rp earlier t known n) as [[[t1 k1] e1]| |]; cbn [obind] in Ex; try discriminate Ex.
      destruct (visit_nodes ff tab rp earlier t1 k1 l) as [[k2 e2]| |]; cbn [obind] in Ex; try discriminate Ex. injection Ex as <-. cbn [fst snd]. rewrite existsb_app. specialize (K _ eq_refl). cbn [snd] in K. rewrite K. reflexivity.
  Qed.

  (** the trees *)
  Fixpoint to_s (t : TreeModel.rel unit) : SubModel.srel := match t with TreeModel.Absent => SubModel.SRel [] [] [] | TreeModel.Rel _ _ n ins _ => SubModel.SRel n (map to_s ins) [] end.
  Fixpoint present (t : TreeModel.rel unit) : Prop := match t with TreeModel.Absent => False | TreeModel.Rel _ _ _ ins _ => (fix all l := match l with [] => True | i :: l => present i /\ all l end) ins end.
  Variable seen : str -> nat.
  Hypothesis unseen : forall n, seen n = 0.
  Definition matches (o : outcome (TreeModel.rel unit)) (o' : outcome SubModel.srel) : Prop :=
    match o, o' with Ok t, Ok t' => t' = to_s t /\ present t | Throw e, Throw e' => e = e' | UB, UB => True | _, _ => False end.
  Lemma bare_matches n : matches (Ok (TreeModel.bare rp n)) (Ok (SubModel.alone rp n)).
  Proof. unfold TreeModel.bare, SubModel.alone. destruct (TreeModel.find_section rp n) as [s|]; cbn; auto. Qed.
  Lemma build_matches fuel : forall n, matches (TreeModel.build rp fuel n) (SubModel.sbuild rp seen fuel n).
  Proof.
    induction fuel as [|fuel IH]; intros n; [reflexivity|]. cbn [TreeModel.build SubModel.sbuild]. destruct (TreeModel.find_section rp n) as [s|] eqn:Es; [|apply bare_matches].
    assert (Ex : TreeModel.x_exprs s = []) by (apply none; unfold TreeModel.find_section in Es; apply find_some in Es as [I _]; exact I).
    rewrite unseen, Ex. unfold SubModel.section_subs. rewrite Ex. cbn [TreeModel.attaches obind fst firstn TreeModel.omap_list flat_map length map].
    set (d := TreeModel.rel_data rp n).
    assert (One : matches match TreeModel.getNextSinglePipeline d with None => Throw EInvalidState | Some i => r <- TreeModel.build rp fuel i ;; Ok (TreeModel.Rel tt (TreeModel.x_kind s) (TreeModel.x_body s) [r] []) end
                          match TreeModel.getNextSinglePipeline d with None => Throw EInvalidState | Some i => r <- SubModel.sbuild rp seen fuel i ;; Ok (SubModel.SRel (TreeModel.x_body s) [r] []) end).
    { destruct (TreeModel.getNextSinglePipeline d) as [i|]; [|reflexivity]. specialize (IH i). unfold matches in IH. destruct (TreeModel.build rp fuel i), (SubModel.sbuild rp seen fuel i); cbn [obind matches]; try contradiction; auto.
      destruct IH as [-> IH]. cbn. auto. }
    assert (Two : matches match PipeModel.news d with [l; r] => x <- TreeModel.build rp fuel l ;; y <- TreeModel.build rp fuel r ;; Ok (TreeModel.Rel tt (TreeModel.x_kind s) (TreeModel.x_body s) [x; y] []) | _ => Ok (TreeModel.bare rp n) end
                          match PipeModel.news d with [l; r] => x <- SubModel.sbuild rp seen fuel l ;; y <- SubModel.sbuild rp seen fuel r ;; Ok (SubModel.SRel (TreeModel.x_body s) [x; y] []) | _ => Ok (SubModel.alone rp n) end).
    { destruct (PipeModel.news d) as [|l [|r [|]]]; try apply bare_matches. pose proof (IH l) as Hl. pose proof (IH r) as Hr. unfold matches in Hl, Hr.
      destruct (TreeModel.build rp fuel l), (SubModel.sbuild rp seen fuel l); cbn [obind]; try contradiction; auto.
      destruct (TreeModel.build rp fuel r), (SubModel.sbuild rp seen fuel r); cbn [obind]; try contradiction; auto. destruct Hl as [-> Hl], Hr as [-> Hr]. cbn. auto. }
    assert (Many : matches (xs <- TreeModel.omap_list (TreeModel.build rp fuel) (PipeModel.news d) ;; Ok (TreeModel.Rel tt (TreeModel.x_kind s) (TreeModel.x_body s) xs []))
                           (xs <- TreeModel.omap_list (SubModel.sbuild rp seen fuel) (PipeModel.news d) ;; Ok (SubModel.SRel (TreeModel.x_body s) xs []))).
    { assert (G : forall l, match TreeModel.omap_list (TreeModel.build rp fuel) l, TreeModel.omap_list (SubModel.sbuild rp seen fuel) l with
                            | Ok ts, Ok ts' => ts' = map to_s ts /\ (fix all l := match l with [] => True | i :: l => present i /\ all l end) ts | Throw e, Throw e' => e = e' | UB, UB => True | _, _ => False end).
      { induction l as [|i l IHl]; [cbn; auto|]. cbn [TreeModel.omap_list]. specialize (IH i). unfold matches in IH. destruct (TreeModel.build rp fuel i), (SubModel.sbuild rp seen fuel i); cbn [obind]; try contradiction; auto.
        destruct (TreeModel.omap_list (TreeModel.build rp fuel) l), (TreeModel.omap_list (SubModel.sbuild rp seen fuel) l); cbn [obind]; try contradiction; auto. destruct IH as [-> IH], IHl as [-> IHl]. cbn. auto. }
      specialize (G (PipeModel.news d)). destruct (TreeModel.omap_list (TreeModel.build rp fuel) _), (TreeModel.omap_list (SubModel.sbuild rp seen fuel) _); cbn [obind]; try contradiction; auto. destruct G as [-> G]. cbn. auto. }
    cbn [Nat.ltb Nat.leb]. destruct (TreeModel.x_kind s); first [exact One|exact Two|exact Many|apply bare_matches].
  Qed.
  Lemma output_matches fuel : match TreeModel.outputToBinaryPlan rp fuel, SubModel.soutput rp seen fuel with
    | Ok l, Ok l' => l' = map (fun x => (to_s (fst x), snd x)) l /\ Forall (fun x => present (fst x)) l | Throw e, Throw e' => e = e' | UB, UB => True | _, _ => False end.
  Proof.
    unfold TreeModel.outputToBinaryPlan, SubModel.soutput. induction (TreeModel.starts rp) as [|[n d] l IH]; [cbn; auto|]. cbn [TreeModel.omap_list fst snd].
    destruct (PipeModel.news d) as [|i r].
    - cbn [obind]. revert IH. destruct (TreeModel.omap_list _ l) as [a| |]; destruct (TreeModel.omap_list _ l) as [a'| |]; cbn [obind]; intros IH; try contradiction; auto. destruct IH as [-> IH].
      pose proof (bare_matches n) as B. destruct B as [B1 B2]. cbn [map fst snd]. rewrite B1. split; [reflexivity|]. constructor; [exact B2|exact IH].
    - pose proof (build_matches fuel i) as B. unfold matches in B. destruct (TreeModel.build rp fuel i), (SubModel.sbuild rp seen fuel i); cbn [obind]; try contradiction; auto.
      revert IH. destruct (TreeModel.omap_list _ l) as [b| |]; destruct (TreeModel.omap_list _ l) as [b'| |]; cbn [obind]; intros IH; try contradiction; auto. destruct IH as [-> IH], B as [-> B]. cbn [map fst snd]. split; [reflexivity|]. constructor; [exact B|exact IH].
  Qed.
  Variable known : list known_rel.
  Variable recorded : str -> list str.
  Hypothesis unrecorded : forall n, recorded n = [].
  Fixpoint fill_same (t : TreeModel.rel unit) : present t -> SubModel.sfill tab known recorded (to_s t) = mapo embed (fill tab known t).
  Proof.
    destruct t as [|u k n ins es]; [intros []|]. intros P. cbn [to_s]. rewrite SoundFacts.fill_eq. cbn [SubModel.sfill].
    assert (E : (fix go (l : list SubModel.srel) : outcome (list SubModel.qtree) := match l with [] => Ok [] | i :: l => x <- SubModel.sfill tab known recorded i ;; r <- go l ;; Ok (x :: r) end) (map to_s ins) =
                mapo (map embed) (TreeModel.omap_list (fill tab known) ins)).
    { cbn [present] in P. clear n k es. induction ins as [|i ins IH]; [reflexivity|]. cbn [map TreeModel.omap_list]. destruct P as [P1 P2]. rewrite (fill_same i P1), (IH P2). destruct (fill tab known i); cbn [mapo obind]; try reflexivity. destruct (TreeModel.omap_list _ ins); reflexivity. }
    rewrite E. destruct (TreeModel.omap_list (fill tab known) ins) as [l| |]; cbn [mapo obind]; try reflexivity. destruct (find_rel n known) as [[r d]|]; [|reflexivity].
    destruct (message_source tab None (sources_of (r_body r))); cbn [obind mapo embed]; try reflexivity. unfold SubModel.relabeled. rewrite unrecorded. reflexivity.
  Qed.
  Lemma fill_all_same l : Forall (fun x => present (fst x)) l -> SubModel.sfill_all tab known recorded (map (fun x => (to_s (fst x), snd x)) l) = mapo (map (fun x => (embed (fst x), snd x))) (fill_all tab known l).
  Proof.
    induction 1 as [|[t ns] l P _ IH]; [reflexivity|]. cbn [map fst snd SubModel.sfill_all fill_all] in *. rewrite (fill_same t P), IH. destruct (fill tab known t); cbn [mapo obind]; try reflexivity. destruct (fill_all tab known l); reflexivity.
  Qed.
End Plain.

Definition embed_result (x : option bplan * list werr) : option SubModel.qplan * list werr := (option_map embed_plan (fst x), snd x).
Theorem same_text s nodes : parse s = Some nodes -> no_subqueries nodes ->
  SubModel.from_text s = mapo embed_result (from_text s) \/
  SubModel.from_text s = Throw EFuel /\ forall x, from_text s = Ok x -> existsb not_found (snd x) = true.
Proof.
  intros Hp H. unfold SubModel.from_text, from_text. rewrite Hp. destruct (symbols nodes) as [[tab e1]| |]; cbn [obind]; [|left; reflexivity..]. rewrite (plain_text nodes tab H).
  destruct (TreeModel.readText (text_of nodes tab)) as [[rp e2]| |] eqn:Er; cbn [obind]; [|left; reflexivity..].
  assert (none : forall s, In s (TreeModel.r_rels rp) -> TreeModel.x_exprs s = []).
  { intros x I. rewrite (text_rels _ _ _ Er) in I. cbn [text_of TreeModel.x_rels] in I. apply in_map_iff in I as (r & <- & _). reflexivity. }
  set (ff := DeclModel.resolve_function (entries 0 0 nodes)).
  destruct (nodes_same rp none ff tab [] true (relations_of nodes) SymbolModel.empty_table []) as [E|(F & _)]; [|discriminate F]. rewrite E.
  destruct (visit_nodes ff tab rp [] SymbolModel.empty_table [] (relations_of nodes)) as [[before e3]| |]; cbn [obind]; [|left; reflexivity..].
  destruct (map WPass e1 ++ map WTree e2 ++ filter reported_first e3); [|left; reflexivity].
  destruct (nodes_same rp none ff tab before false (relations_of nodes) SymbolModel.empty_table []) as [E2|(_ & E2 & K)]; rewrite E2.
  - destruct (visit_nodes ff tab rp before SymbolModel.empty_table [] (relations_of nodes)) as [[known e4]| |]; cbn [obind]; [|left; reflexivity..]. left.
    pose proof (output_matches rp none (SubModel.seen_subs (relations_of nodes)) (fun n => plain_seen nodes n H) (S (length (relations_of nodes)))) as O.
    destruct (TreeModel.outputToBinaryPlan rp _) as [l| |], (SubModel.soutput rp _ _) as [l'| |]; cbn [obind mapo] in *; try contradiction; [|subst; reflexivity|reflexivity]. destruct O as [-> O].
    assert (R : forall n, SubModel.recorded_subs rp n = []).
    { intros n. unfold SubModel.recorded_subs. destruct (TreeModel.find_section rp n) as [x|] eqn:Ex; [|reflexivity]. unfold SubModel.section_subs. rewrite none; [reflexivity|]. unfold TreeModel.find_section in Ex. apply find_some in Ex as [I _]. exact I. }
    rewrite (fill_all_same tab known (SubModel.recorded_subs rp) R l O). destruct (fill_all tab known l); reflexivity.
  - right. split; [reflexivity|]. intros x Ex. destruct (visit_nodes ff tab rp before SymbolModel.empty_table [] (relations_of nodes)) as [[known e4]| |]; cbn [obind] in Ex; try discriminate Ex.
    destruct (TreeModel.outputToBinaryPlan rp _) as [l| |]; cbn [obind] in Ex; try discriminate Ex. destruct (fill_all tab known l); cbn [obind] in Ex; try discriminate Ex. injection Ex as <-. exact (K _ eq_refl).
Qed.
Lemma embed_inj : forall t u, embed t = embed u -> t = u.
Proof.
  fix IH 1. intros [r s sch ins] [r' s' sch' ins'] E. cbn [embed] in E. injection E as -> -> -> E. f_equal. revert ins' E. induction ins as [|i ins IHi]; intros [|j ins'] E; cbn [map] in E; try discriminate E; [reflexivity|]. injection E as E1 E2. f_equal; [exact (IH i j E1)|exact (IHi ins' E2)].
Qed.
