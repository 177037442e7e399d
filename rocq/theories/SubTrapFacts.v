(** Which texts with subqueries lead to endless recursion or undefined behaviour when they are read. *)
From Coq Require Import Permutation Lia ZifyBool ZifyNat ZifyN.
From Verif Require Import Base BaseFacts StringsModel StringsFacts TypeModel LexModel NameModel ExprModel ExprFacts FirstFacts ResolveFacts RelModel RelFacts RelReadFacts SectionModel WholeModel SoundFacts TrapFacts TrapPlanFacts SubFacts SubPlanFacts SubAgreeFacts.
From Verif Require FieldModel DeclModel DefineFacts PipeModel PipeFacts TreeModel SymbolModel SubModel.

(** * What is meant *)
(** One relation supplies another if it feeds it or if it is the relation of one of its subqueries. *)
Definition supplies (nodes : list pnode) (y x : str) : Prop := feeds nodes y x \/ exists n, In n (relations_of nodes) /\ n_name n = x /\ In y (named_in n).
Definition entangled (nodes : list pnode) : Prop := exists x, reaches (supplies nodes) x x.

(** * Chains *)
(** Each of the relations supplies the next, over others *)
Inductive chain (R : str -> str -> Prop) : str -> list str -> Prop :=
| CH_end n : chain R n []
| CH_step n m l : R n m -> chain R m l -> chain R n (n :: l).
Lemma chain_start R n x l : chain R n (x :: l) -> n = x.
Proof. inversion 1. reflexivity. Qed.
Lemma chain_suffix R a : forall n x l, chain R n (a ++ x :: l) -> chain R x (x :: l).
Proof. induction a as [|y a IH]; intros n x l T; [cbn in T; pose proof (chain_start _ _ _ _ T) as ->; exact T|]. cbn [app] in T. inversion T; subst. eapply IH. eassumption. Qed.
Lemma chain_on R b : forall x y c, chain R x (x :: b ++ y :: c) -> reaches R x y.
Proof.
  induction b as [|z b IH]; intros x y c T; cbn [app] in T; inversion T as [|? m ? K T']; subst; pose proof (chain_start _ _ _ _ T') as ->.
  - constructor. exact K.
  - econstructor 2; [exact K|]. exact (IH z y c T').
Qed.
Lemma reaches_flat R x y : reaches (reaches R) x y -> reaches R x y.
Proof. induction 1 as [x y H|x y z H _ IH]; [exact H|exact (reaches_trans _ _ _ _ H IH)]. Qed.
Lemma chain_circle R n l names : chain (reaches R) n l -> incl l names -> length names < length l -> exists x, reaches R x x.
Proof.
  intros T I L. destruct (twice_or_nodup l) as [N|(a & x & b & c & ->)]; [pose proof (NoDup_incl_length N I); lia|]. apply chain_suffix in T. apply chain_on in T. exists x. apply reaches_flat. exact T.
Qed.

Section Ends.
  Variables (nodes : list pnode) (tab : table) (rp : TreeModel.read_plan).
  Hypothesis Er : TreeModel.readText (SubModel.text_of nodes tab) = Ok (rp, []).
  Notation R := (supplies nodes).
  Lemma fed x y : In y (inputs_of rp x) -> R y x.
  Proof. destruct (text_parts _ _ _ Er) as (_ & _ & _ & Lk & _). intros H. left. exact (Lk x y H). Qed.
  Lemma asked s y : In s (TreeModel.r_rels rp) -> In y (SubModel.section_subs s) -> R y (TreeModel.x_name s).
  Proof.
    destruct (text_parts _ _ _ Er) as (Sr & _). rewrite Sr. intros I J. apply in_map_iff in I as (n & <- & I). right. exists n. split; [exact I|]. split; [reflexivity|]. unfold SubModel.section_subs in J. cbn [section_of TreeModel.x_exprs] in J. rewrite named_node in J. exact J.
  Qed.
  Lemma parent_supplied n p : SubModel.parent_of rp n = Some p -> R n p /\ In p (map n_name (relations_of nodes)).
  Proof.
    destruct (text_parts _ _ _ Er) as (Sr & _). unfold SubModel.parent_of. intros H.
    assert (G : forall l acc, fold_left (fun acc s => if existsb (fun q => q =s n) (SubModel.section_subs s) then Some (TreeModel.x_name s) else acc) l acc = Some p -> acc = Some p \/ exists s, In s l /\ TreeModel.x_name s = p /\ In n (SubModel.section_subs s)).
    { induction l as [|s l IH]; intros acc E; [left; exact E|]. cbn [fold_left] in E. destruct (IH _ E) as [A|(s' & I & K)]; [|right; exists s'; cbn; auto].
      destruct (existsb _ (SubModel.section_subs s)) eqn:X; [|left; exact A]. injection A as <-. apply existsb_exists in X as (q & Iq & Q). apply seq_eqb_eq in Q. subst q. right. exists s. cbn. auto. }
    destruct (G _ _ H) as [Q|(s & I & <- & J)]; [discriminate|]. split; [exact (asked s n I J)|]. rewrite Sr in I. apply in_map_iff in I as (m & <- & I). change (TreeModel.x_name (section_of m)) with (n_name m). apply in_map. exact I.
  Qed.
  Lemma start_reached n m : PipeModel.start (TreeModel.rel_data rp n) = Some m -> reaches R n m /\ In n (map fst (TreeModel.r_tab rp)).
  Proof.
    unfold TreeModel.rel_data. destruct (PipeModel.plookup (TreeModel.r_tab rp) n) as [[d|]|] eqn:L; try discriminate. intros S. split.
    - apply (reaches_sub (feeds nodes)); [intros u v; left; assumption|]. exact (read_ahead _ _ _ _ Er n d m L S).
    - clear -L. induction (TreeModel.r_tab rp) as [|[k s] t IH]; [discriminate|]. cbn in *. destruct (seq_eqb_spec k n); auto.
  Qed.
  Lemma enclosing_circle fuel : forall n, SubModel.enclosing rp fuel n = SubModel.Endless -> exists l, length l = S fuel /\ chain (reaches R) n l /\ incl l (map fst (TreeModel.r_tab rp)).
  Proof.
    induction fuel as [|fuel IH]; intros n E; cbn [SubModel.enclosing] in E; (destruct (SubModel.parent_of rp n); [discriminate|]); destruct (PipeModel.start (TreeModel.rel_data rp n)) as [m|] eqn:S; try discriminate; destruct (start_reached n m S) as [Q I].
    - exists [n]. split; [reflexivity|]. split; [econstructor; [exact Q|constructor]|]. intros x [<-|[]]. exact I.
    - destruct (IH m E) as (l & L & C & J). exists (n :: l). split; [cbn; rewrite L; reflexivity|]. split; [econstructor; eassumption|]. intros x [<-|K]; [exact I|exact (J x K)].
  Qed.
  Lemma enclosing_inside fuel : forall n p, SubModel.enclosing rp fuel n = SubModel.Inside p -> reaches R n p /\ In p (map n_name (relations_of nodes)).
  Proof.
    induction fuel as [|fuel IH]; intros n p E; cbn [SubModel.enclosing] in E; (destruct (SubModel.parent_of rp n) as [q|] eqn:P; [injection E as ->; destruct (parent_supplied n p P); split; [constructor; assumption|assumption]|]);
      destruct (PipeModel.start (TreeModel.rel_data rp n)) as [m|] eqn:S; try discriminate. destruct (start_reached n m S) as [Q _]. destruct (IH m p E) as [Q' I]. split; [exact (reaches_trans _ _ _ _ Q Q')|exact I].
  Qed.
  Lemma named_tab n : In n (map n_name (relations_of nodes)) -> In n (map fst (TreeModel.r_tab rp)).
  Proof.
    destruct (text_parts _ _ _ Er) as (_ & _ & Fr & _). intros I. apply in_map_iff in I as (m & <- & I). specialize (Fr m I). unfold find_relation in Fr. clear -Fr. induction (TreeModel.r_tab rp) as [|[k s] t IH]; [discriminate|]. cbn in *. destruct (seq_eqb_spec k (n_name m)); auto.
  Qed.
  Lemma outward_circle bound fuel : forall n, In n (map n_name (relations_of nodes)) -> snd (SubModel.outward rp bound fuel n) = false -> (exists m, SubModel.enclosing rp bound m = SubModel.Endless) \/
    exists l, length l = S fuel /\ chain (reaches R) n l /\ incl l (map fst (TreeModel.r_tab rp)).
  Proof.
    induction fuel as [|fuel IH]; intros n In_ E; cbn [SubModel.outward] in E; (destruct (SubModel.enclosing rp bound n) as [p| |] eqn:P; [|discriminate|left; eauto]); destruct (enclosing_inside _ _ _ P) as [Q I].
    - right. exists [n]. split; [reflexivity|]. split; [econstructor; [exact Q|constructor]|]. intros x [<-|[]]. exact (named_tab n In_).
    - destruct (SubModel.outward rp bound fuel p) as [l e] eqn:O. cbn [snd] in E. subst e. destruct (IH p I) as [H|(q & L & C & J)]; [rewrite O; reflexivity|left; exact H|]. right. exists (n :: q). split; [cbn; rewrite L; reflexivity|].
      split; [econstructor; eassumption|]. intros x [<-|K]; [exact (named_tab n In_)|exact (J x K)].
  Qed.
  Lemma around_circle n : In n (map n_name (relations_of nodes)) -> snd (SubModel.around rp n) = false -> entangled nodes.
  Proof.
    intros I E. unfold SubModel.around in E. destruct (outward_circle _ _ n I E) as [(m & H)|(l & L & C & J)].
    - destruct (enclosing_circle _ _ H) as (l & L & C & J). refine (chain_circle R m l _ C J _). rewrite map_length, L. constructor.
    - refine (chain_circle R n l _ C J _). rewrite map_length, L. constructor.
  Qed.
  (** ** Trees *)
  Lemma omap_fuel {A B} (f : A -> outcome B) l : TreeModel.omap_list f l = Throw EFuel -> exists x, In x l /\ f x = Throw EFuel.
  Proof.
    induction l as [|a l IH]; [discriminate|]. cbn [TreeModel.omap_list]. destruct (f a) as [y|y|] eqn:Ea; cbn [obind]; [|intros O; injection O as ->; exists a; cbn; auto|discriminate].
    destruct (TreeModel.omap_list f l) as [ys|y2|]; cbn [obind]; try discriminate. intros O. injection O as ->. destruct (IH eq_refl) as (m & I & Bm). exists m. cbn. auto.
  Qed.
  Lemma in_first {A} k (x : A) l : In x (firstn k l) -> In x l.
  Proof. intros I. rewrite <- (firstn_skipn k l). apply in_or_app. auto. Qed.
  (** the relation supplies backwards here *)
  Notation R' := (fun x y => R y x).
  Lemma sbuild_chain seen fuel : forall n, SubModel.sbuild rp seen fuel n = Throw EFuel -> exists l, length l = fuel /\ chain R' n l /\ incl l (map TreeModel.x_name (TreeModel.r_rels rp)).
  Proof.
    induction fuel as [|fuel IH]; intros n E; [exists []; split; [reflexivity|]; split; [constructor|intros x []]|]. cbn [SubModel.sbuild] in E. destruct (TreeModel.find_section rp n) as [s|] eqn:Fs; [|discriminate].
    pose proof (find_some _ _ Fs) as [Is Ns]. apply seq_eqb_eq in Ns.
    assert (K : forall m, R m n -> SubModel.sbuild rp seen fuel m = Throw EFuel -> exists l, length l = S fuel /\ chain R' n l /\ incl l (map TreeModel.x_name (TreeModel.r_rels rp))).
    { intros m Q B. destruct (IH m B) as (l & L & T & J). exists (n :: l). split; [cbn; rewrite L; reflexivity|]. split; [econstructor; [exact Q|exact T]|]. intros x [<-|X]; [rewrite <- Ns; apply in_map; exact Is|exact (J x X)]. }
    assert (Kf : forall m, In m (inputs_of rp n) -> SubModel.sbuild rp seen fuel m = Throw EFuel -> exists l, length l = S fuel /\ chain R' n l /\ incl l (map TreeModel.x_name (TreeModel.r_rels rp))) by (intros m I; apply K, fed; exact I).
    unfold inputs_of in Kf. set (d := TreeModel.rel_data rp n) in *. set (subs := TreeModel.omap_list (fun q => r <- SubModel.sbuild rp seen fuel q ;; Ok (q, r)) (firstn (seen n) (SubModel.section_subs s))) in *.
    assert (F : forall ins, (x <- subs ;; if length (SubModel.section_subs s) <? seen n then Throw EInvalidState else Ok (SubModel.SRel (TreeModel.x_body s) ins x)) = Throw EFuel -> exists l, length l = S fuel /\ chain R' n l /\ incl l (map TreeModel.x_name (TreeModel.r_rels rp))).
    { intros ins O. destruct subs as [x|x|] eqn:Ss; cbn [obind] in O; [destruct (_ <? _); discriminate O| |discriminate]. injection O as ->. destruct (omap_fuel _ _ Ss) as (q & Iq & B). destruct (SubModel.sbuild rp seen fuel q) as [y|y|] eqn:Bq; cbn [obind] in B; try discriminate. injection B as ->.
      refine (K q _ Bq). rewrite <- Ns. apply asked; [exact Is|exact (in_first _ _ _ Iq)]. }
    assert (Q1 : match TreeModel.getNextSinglePipeline d with Some i => r <- SubModel.sbuild rp seen fuel i ;; x <- subs ;; if length (SubModel.section_subs s) <? seen n then Throw EInvalidState else Ok (SubModel.SRel (TreeModel.x_body s) [r] x) | None => Throw EInvalidState end = Throw EFuel ->
      exists l, length l = S fuel /\ chain R' n l /\ incl l (map TreeModel.x_name (TreeModel.r_rels rp))).
    { intros B. destruct (TreeModel.getNextSinglePipeline d) as [i|] eqn:G; [|discriminate]. destruct (SubModel.sbuild rp seen fuel i) as [x|x|] eqn:Bi; cbn [obind] in B; [exact (F _ B)| |discriminate]. injection B as ->. refine (Kf i _ Bi).
      unfold TreeModel.getNextSinglePipeline in G. destruct (PipeModel.cont d) as [c|]; [injection G as ->; left; reflexivity|]. destruct (PipeModel.news d) as [|a [|b r]]; try discriminate. injection G as ->. left. reflexivity. }
    assert (Q2 : match PipeModel.news d with [l; r] => x <- SubModel.sbuild rp seen fuel l ;; y <- SubModel.sbuild rp seen fuel r ;; z <- subs ;; if length (SubModel.section_subs s) <? seen n then Throw EInvalidState else Ok (SubModel.SRel (TreeModel.x_body s) [x; y] z) | _ => Ok (SubModel.alone rp n) end = Throw EFuel ->
      exists l, length l = S fuel /\ chain R' n l /\ incl l (map TreeModel.x_name (TreeModel.r_rels rp))).
    { intros B. destruct (PipeModel.news d) as [|l [|r [|]]] eqn:N; try discriminate. destruct (SubModel.sbuild rp seen fuel l) as [x|x|] eqn:Bl; cbn [obind] in B; [|injection B as ->; apply (Kf l); [apply in_or_app; cbn; auto|exact Bl]|discriminate].
      destruct (SubModel.sbuild rp seen fuel r) as [y|y|] eqn:Br; cbn [obind] in B; [exact (F _ B)|injection B as ->; apply (Kf r); [apply in_or_app; cbn; auto|exact Br]|discriminate]. }
    assert (Q3 : (xs <- TreeModel.omap_list (SubModel.sbuild rp seen fuel) (PipeModel.news d) ;; Ok (SubModel.SRel (TreeModel.x_body s) xs [])) = Throw EFuel -> exists l, length l = S fuel /\ chain R' n l /\ incl l (map TreeModel.x_name (TreeModel.r_rels rp))).
    { intros B. destruct (TreeModel.omap_list _ (PipeModel.news d)) as [xs|x|] eqn:O; cbn [obind] in B; try discriminate. injection B as ->. destruct (omap_fuel _ _ O) as (m & I & Bm). apply (Kf m); [apply in_or_app; auto|exact Bm]. }
    destruct (TreeModel.x_kind s); try discriminate E; first [exact (Q1 E)|exact (Q2 E)|exact (Q3 E)].
  Qed.
  Lemma reaches_flip (P : str -> str -> Prop) x y : reaches (fun a b => P b a) x y -> reaches P y x.
  Proof. induction 1 as [x y H|x y z H _ IH]; [constructor; exact H|]. apply (reaches_trans _ _ y); [exact IH|constructor; exact H]. Qed.
  Lemma sbuild_circle seen n : SubModel.sbuild rp seen (S (length (relations_of nodes))) n = Throw EFuel -> entangled nodes.
  Proof.
    intros E. destruct (sbuild_chain _ _ _ E) as (l & L & C & J). destruct (text_parts _ _ _ Er) as (Sr & _).
    assert (C' : chain (reaches R') n l) by (clear -C; induction C; econstructor; eauto using R_one).
    destruct (chain_circle R' n l _ C' J) as (x & X); [rewrite map_length, Sr, map_length, L; lia|]. exists x. apply reaches_flip. exact X.
  Qed.
End Ends.

(** * Visiting *)
Lemma strack_ends ff fr kn ss ag fields outs inner ds : forall i g b, ends (SubModel.track ff fr kn ss ag fields outs inner i g b ds).
Proof. induction ds as [|d ds IH]; intros i g b; [exact I|]. cbn [SubModel.track]. apply ends_bindR; [apply detail_ends|]. intros b'. apply IH. Qed.
Lemma scolumns_ends ff fr kn ss ag fields outs inner gv sch b0 ds : ends (SubModel.visitColumns ff fr kn ss ag fields outs inner gv sch b0 ds).
Proof.
  apply ends_bindR; [apply strack_ends|]. intros [b g]. cbv zeta. destruct inner; [exact I|]. apply ends_bindR; [apply emits_ends|]. intros emit. match goal with |- context [FieldModel.applyOutputMapping ?a ?b ?c ?d ?e] => destruct (FieldModel.applyOutputMapping a b c d e) end. exact I.
Qed.
Lemma snodes_fuel ff tab rp earlier first l : forall t known, SubModel.visit_nodes ff tab rp earlier first t known l = Throw EFuel -> exists n, In n l /\ SubModel.gives_up rp first (n_name n) = false.
Proof.
  induction l as [|n l IH]; intros t known H; [discriminate|]. cbn [SubModel.visit_nodes] in H. destruct (SubModel.visit_node ff tab rp earlier first t known n) as [[[t1 k1] e1]|x|] eqn:E; cbn [obind] in H; [| |discriminate].
  - destruct (SubModel.visit_nodes _ _ _ _ _ t1 k1 l) as [[k2 e2]|x|] eqn:E2; cbn [obind fst snd] in H; try discriminate. injection H as ->. destruct (IH _ _ E2) as (m & I & G). exists m. cbn. auto.
  - injection H as ->. exists n. split; [left; reflexivity|]. unfold SubModel.visit_node in E. destruct (taken rp known (n_name n)); [discriminate|]. destruct (empty_body (n_kind n)) as [b0|]; [|discriminate]. destruct (match b0 with BProject _ => _ | _ => _ end) as [t' given].
    match type of E with (x <- ?o ;; _) = _ => assert (C : ends o) by apply scolumns_ends; destruct o as [y|y|]; cbn [obind] in E; [|injection E as ->; destruct C|discriminate] end.
    destruct (SubModel.gives_up rp first (n_name n)); [|reflexivity]. rewrite andb_false_r in E. discriminate.
Qed.
Fixpoint sfill_calm tab known recorded (t : SubModel.srel) : calm (SubModel.sfill tab known recorded t).
Proof.
  destruct t as [n ins sub]. cbn [SubModel.sfill]. apply calm_bind; [|intros l; apply calm_bind].
  - induction ins as [|i ins IH]; [exact I|]. apply calm_bind; [apply sfill_calm|]. intros x. apply calm_bind; [exact IH|intros r; exact I].
  - induction sub as [|[k i] sub IH]; [exact I|]. apply calm_bind; [apply sfill_calm|]. intros x. apply calm_bind; [exact IH|intros r; exact I].
  - intros m. destruct (find_rel n known) as [[r d]|]; [|exact I]. apply calm_bind; [apply source_calm|intros s; exact I].
Qed.
Lemma sfill_all_calm tab known recorded l : calm (SubModel.sfill_all tab known recorded l).
Proof. induction l as [|[t ns] l IH]; [exact I|]. cbn [SubModel.sfill_all]. apply calm_bind; [apply sfill_calm|]. intros x. apply calm_bind; [exact IH|intros r; exact I]. Qed.
Theorem sends_unless_entangled s : SubModel.from_text s = Throw EFuel -> exists nodes, parse s = Some nodes /\ entangled nodes.
Proof.
  unfold SubModel.from_text. destruct (parse s) as [nodes|] eqn:E0; [|discriminate]. intros H. exists nodes. split; [reflexivity|].
  pose proof (define_ends nodes 0 []) as D. change (define_all 0 [] nodes) with (symbols nodes) in D. destruct (symbols nodes) as [[tab e1]|x|] eqn:E1; cbn [obind] in H; [|injection H as ->; destruct D|discriminate].
  pose proof (read_text_ends (SubModel.text_of nodes tab)) as R. destruct (TreeModel.readText (SubModel.text_of nodes tab)) as [[rp e2]|x|] eqn:E2; cbn [obind] in H; [|injection H as ->; destruct R|discriminate].
  destruct (SubModel.visit_nodes _ tab rp [] true _ [] _) as [[before e3]|x|] eqn:V1; cbn [obind] in H; [|injection H as ->|discriminate].
  2: { destruct (snodes_fuel _ _ _ _ _ _ _ _ V1) as (n & _ & G). discriminate G. }
  destruct (map WPass e1 ++ map WTree e2 ++ filter reported_first e3) eqn:Es; [|discriminate]. apply app_eq_nil in Es as [_ Es]. apply app_eq_nil in Es as [Es _]. apply map_eq_nil in Es. subst e2.
  destruct (SubModel.visit_nodes _ tab rp before false _ [] _) as [[known e4]|x|] eqn:V2; cbn [obind] in H; [|injection H as ->|discriminate].
  2: { destruct (snodes_fuel _ _ _ _ _ _ _ _ V2) as (n & I & G). exact (around_circle nodes tab rp E2 (n_name n) (in_map _ _ _ I) G). }
  destruct (SubModel.soutput rp _ _) as [l|x|] eqn:O; cbn [obind] in H; [|injection H as ->|discriminate].
  - pose proof (sfill_all_calm tab known (SubModel.recorded_subs rp) l) as F. destruct (SubModel.sfill_all _ _ _ l); cbn [obind] in H; try discriminate. injection H as ->. destruct F.
  - unfold SubModel.soutput in O. apply omap_fuel in O as ([n d] & _ & B). cbn [fst snd] in B. destruct (PipeModel.news d) as [|i r]; [discriminate|]. destruct (SubModel.sbuild rp _ _ i) as [t|t|] eqn:Bi; cbn [obind] in B; try discriminate. injection B as ->. exact (sbuild_circle nodes tab rp E2 _ i Bi).
Qed.

(** * Undefined behaviour *)
(** What holds when a relation is visited, by either pass: its name, the schemas and the columns of its inputs *)
Definition visited_at (nodes : list pnode) (P : TreeModel.read_plan -> rnode -> FieldModel.schemas -> list FieldModel.column -> Prop) : Prop := exists tab e1 rp e2 earlier first before n after known e3,
  symbols nodes = Ok (tab, e1) /\ TreeModel.readText (SubModel.text_of nodes tab) = Ok (rp, e2) /\
  let visit := fun earlier first => SubModel.visit_nodes (DeclModel.resolve_function (entries 0 0 nodes)) tab rp earlier first SymbolModel.empty_table [] in
  (earlier = [] /\ first = true \/ first = false /\ exists e, visit [] true (relations_of nodes) = Ok (earlier, e)) /\
  relations_of nodes = before ++ n :: after /\ visit earlier first before = Ok (known, e3) /\ P rp n (schema_list tab) (fields_of rp (known ++ earlier) (n_name n)).
(** Too many columns for 32 bits *)
Definition swide (nodes : list pnode) : Prop := visited_at nodes (fun _ _ _ fields => (2 ^ 31 <= Z.of_nat (length fields))%Z).
(** Grouping, within a subquery, by a name that no column of the inputs has *)
Definition foreign_group (ss : FieldModel.schemas) (fields : list FieldModel.column) (ds : list RelModel.detail) : Prop :=
  exists x, In (OnGrouping (NCol x)) ds /\ forall c, In c fields -> FieldModel.match_input ss x c = false.
Definition grouped_outside (nodes : list pnode) : Prop := visited_at nodes (fun rp n ss fields => fst (SubModel.around rp (n_name n)) <> [] /\ foreign_group ss fields (n_details n)).
Definition sub_trap (nodes : list pnode) : Prop :=
  (exists n items c w, In (PSchema n items) nodes /\ In (c, w) items /\ TypeTrap false w) \/
  (exists x, In x (concat (arrows nodes)) /\ In x (defined nodes)) \/
  (exists n, In n (relations_of nodes) /\ relation_trap n) \/ swide nodes \/ grouped_outside nodes.

Section Track.
  Variables (ff : str -> option N) (fr : str -> option bool) (kn : str -> bool) (ss : FieldModel.schemas) (ag : bool) (fields : list FieldModel.column) (outs : list FieldModel.scope) (inner : bool).
  Hypothesis Hp : plain_columns fields.
  Hypothesis Hw : (Z.of_nat (length fields) < 2 ^ 31)%Z.
  Notation find := (SubModel.find_field ss ag fields outs inner).
  Lemma rfind_none P l : FieldModel.rfind P l = None -> forall c, In c l -> P c = false.
  Proof.
    unfold FieldModel.rfind. intros H c I. apply in_rev in I. revert I. generalize (rev l) H. clear H l. intros l. induction l as [|x l IH]; intros H I; [destruct I|]. cbn [FieldModel.find_pos] in H. destruct (P x) eqn:E; [discriminate|]. destruct (FieldModel.find_pos P l); [discriminate|]. destruct I as [<-|I]; auto.
  Qed.
  (** an own column, one among the generated ones, or one from outside *)
  Lemma looked g x k z : find g x = Some (k, z) ->
    (exists c, In c g /\ FieldModel.match_generated x c = true) \/ ((0 <= z < Z.of_nat (length fields))%Z /\ exists c, nth_error fields (Z.to_nat z) = Some c /\ FieldModel.match_input ss x c = true) \/
    (outs <> [] /\ forall c, In c fields -> FieldModel.match_input ss x c = false).
  Proof.
    unfold SubModel.find_field. destruct inner; [discriminate|]. intros H. assert (F : (exists z', FieldModel.find_in ss false (scope_with ag fields g) x = Some z' /\ z' = z) \/ FieldModel.find_in ss false (scope_with ag fields g) x = None /\ outs <> []).
    { destruct outs as [|p o]; cbn [SubModel.look] in H; destruct (FieldModel.find_in ss false (scope_with ag fields g) x) as [z'|]; cbn in H; try discriminate; [injection H as _ <-; left; eauto..|]. right. split; [reflexivity|discriminate]. }
    destruct F as [(z' & F & ->)|[F O]]; [apply found in F as [F|F]; auto|]. right. right. split; [exact O|]. unfold FieldModel.find_in in F. cbn [scope_with FieldModel.q_fields FieldModel.q_generated] in F.
    destruct (FieldModel.rfind (FieldModel.match_generated x) g); [discriminate|]. destruct (FieldModel.rfind (FieldModel.match_input ss x) fields) eqn:E; [discriminate|]. exact (rfind_none _ _ E).
  Qed.
  Lemma sadded g i b d b' m : visitDetail ff fr (fun _ j => find (g ++ own_columns j d)) (length fields) kn kn i b d = Ok (b', m) ->
    (exists x, d = OnGrouping (NCol x) /\ ((exists c, In c g /\ FieldModel.match_generated x c = true) \/ outs <> [] /\ forall c, In c fields -> FieldModel.match_input ss x c = false)) \/
    forall c q, In c (added_columns fields d b') -> FieldModel.match_generated q c = true -> names_column d q.
  Proof.
    destruct d as [|n|k e|e n| |n|e|l|e by_|t|n|c]; try (intros _; right; intros ? ? []; fail).
    - cbn [visitDetail own_columns]. intros H. unfold bindR in H.
      match type of H with context [visitE ?A ?B ?C ?D ?E ?F] => destruct (visitE A B C D E F) as [[x m1]| |] eqn:E1; cbn [obind fst snd] in H; try discriminate end.
      destruct b as [| | |gs ms| | | | |]; try (injection H as <- _; right; intros ? ? []; fail).
      unfold grouped in H. destruct x as [| |s r| | | | | | | | | |]; cbn [obind fine fst snd] in H;
        try (injection H as <- _; right; cbn [added_columns]; match goal with |- context [add_group ?a ?y] => destruct (add_group_last a y) as (? & ? & -> & ? & ->) end; intros ? ? []; fail).
      destruct s as [z o| | |]; cbn [obind fine fst snd] in H;
        try (injection H as <- _; right; cbn [added_columns]; match goal with |- context [add_group ?a ?y] => destruct (add_group_last a y) as (? & ? & -> & ? & ->) end; intros ? ? []; fail).
      destruct (column_read _ _ _ _ _ _ _ _ _ E1) as (x & steps & z' & -> & Q & F). injection Q as <- ->.
      destruct ((0 <=? z)%Z && _); cbn [obind fine fst snd] in H; [|discriminate]. injection H as <- _. rewrite app_nil_r in F.
      apply looked in F as [G|[[Hz (c & N & M)]|G]]; [left; exists x; auto| |left; exists x; auto]. right.
      cbn [added_columns]. match goal with |- context [add_group ?a ?y] => destruct (add_group_last a y) as (? & ? & -> & ? & ->) end. rewrite N. intros c' q [<-|[]] G. cbn. apply (TrapFacts.named_by ss x c q); [|exact M|exact G].
      unfold plain_columns in Hp. rewrite Forall_forall in Hp. apply Hp. exact (nth_error_In _ _ N).
    - intros _. right. cbn [added_columns names_column]. intros c q I G. apply in_map_iff in I as (n & <- & I). unfold FieldModel.match_generated in G. cbn in G. apply seq_eqb_eq in G. subst q. exact I.
  Qed.
  Lemma strack_ub ds : forall before i g b, (forall c x, In c g -> FieldModel.match_generated x c = true -> exists d, In d before /\ names_column d x) ->
    SubModel.track ff fr kn ss ag fields outs inner i g b ds = UB -> (exists d, In d ds /\ detail_case d) \/ grouped_again (before ++ ds) \/ outs <> [] /\ foreign_group ss fields ds.
  Proof.
    induction ds as [|d ds IH]; intros before i g b Hg H; [discriminate|]. cbn [SubModel.track] in H. apply bindR_ub in H as [H|(b' & m & E & H)].
    - apply detail_ub in H as [T|(x & steps & z & gs & ms & -> & -> & F & R)]; [left; exists d; cbn; auto|]. cbn [own_columns] in F. rewrite app_nil_r in F. right.
      apply looked in F as [(c & I & M)|[[Q _]|[O N]]]; [|lia|]; [left; exists before, x, ds; split; [reflexivity|exact (Hg c x I M)]|right; split; [exact O|]; exists x; cbn; auto].
    - destruct (sadded _ _ _ _ _ _ E) as [(x & -> & [(c & I & M)|[O N]])|A]; [right; left; exists before, x, ds; split; [reflexivity|exact (Hg c x I M)]|right; right; split; [exact O|]; exists x; cbn; auto|].
      destruct (fun P => IH (before ++ [d]) (S i) (g ++ added_columns fields d b') b' P H) as [(y & Iy & T)|[G|[O (x & I & N)]]]; [|left; exists y; cbn; auto|right; left; rewrite <- app_assoc in G; exact G|right; right; split; [exact O|]; exists x; cbn; auto].
      intros c x I M. apply in_app_or in I as [I|I]; [destruct (Hg c x I M) as (y & Iy & N); exists y; split; [apply in_or_app; auto|exact N]|].
      exists d. split; [apply in_or_app; cbn; auto|exact (A c x I M)].
  Qed.
  Lemma strack_plain ds : forall i g b b' g' m, plain_columns g -> SubModel.track ff fr kn ss ag fields outs inner i g b ds = Ok (b', g', m) -> plain_columns g'.
  Proof.
    induction ds as [|d ds IH]; intros i g b b' g' m Hg H; cbn [SubModel.track] in H; [injection H as _ <- _; exact Hg|]. unfold bindR in H.
    match type of H with (x <- ?o ;; _) = _ => destruct o as [[b1 m1]| |]; cbn [obind fst snd] in H; try discriminate end.
    match type of H with (x <- ?o ;; _) = _ => destruct o as [[[b2 g2] m2]| |] eqn:E; cbn [obind fst snd] in H; try discriminate end. injection H as <- <- _. refine (IH _ _ _ _ _ _ _ E). apply plain_app. split; [exact Hg|].
    destruct d; cbn [added_columns]; try (constructor; fail); [|apply plain_named]. destruct b1 as [| | |[|y r] ms| | | | |]; try (constructor; fail). destruct (rev y) as [|[| |[z o| | |] q| | | | | | | | | |] t]; try (constructor; fail).
    apply (plain_some fields); [exact Hp|]. intros c Hc. exact (nth_error_In _ _ Hc).
  Qed.
  Lemma svisited_plain given schema b0 ds r d m : plain_columns schema -> SubModel.visitColumns ff fr kn ss ag fields outs inner given schema b0 ds = Ok (r, d, m) -> plain_columns (FieldModel.exposed d).
  Proof.
    intros Hs H. unfold SubModel.visitColumns, bindR in H. destruct (SubModel.track _ _ _ _ _ _ _ _ _ _ _ _) as [[[b g] m1]| |] eqn:E; cbn [obind fst snd] in H; try discriminate.
    pose proof (strack_plain _ _ _ _ _ _ _ (Forall_nil _) E) as Hg0.
    set (g1 := match b with BProject es => add_expressions fields given es g | _ => g end) in *. assert (Hg : plain_columns g1) by (subst g1; destruct b; auto using added_plain). clearbody g1.
    destruct inner.
    { cbn [fine obind fst snd] in H. injection H as _ <- _. unfold FieldModel.exposed. cbn [FieldModel.d_output FieldModel.d_fields FieldModel.d_generated]. destruct schema; [apply plain_app; auto|exact Hs]. }
    match type of H with (y <- (x <- ?o ;; _) ;; _) = _ => destruct o as [[emit m2]| |]; cbn [obind fst snd] in H; try discriminate end.
    set (out := if ag then schema ++ g1 else schema) in *. assert (Ho : plain_columns out) by (subst out; destruct ag; [apply plain_app; auto|exact Hs]).
    assert (Hm : plain_columns (fst (FieldModel.applyOutputMapping ag fields g1 out emit))).
    { destruct emit as [|z emit]; [exact Ho|]. cbn [FieldModel.applyOutputMapping]. destruct ag; apply plain_mapped; auto; [constructor|apply plain_app; auto]. }
    destruct (FieldModel.applyOutputMapping ag fields g1 out emit) as [out' missing]. cbn [obind fine fst snd] in *. injection H as _ <- _. unfold FieldModel.exposed. cbn [FieldModel.d_output FieldModel.d_fields FieldModel.d_generated].
    destruct out'; [apply plain_app; auto|exact Hm].
  Qed.
  Lemma scolumns_ub given schema b0 ds : SubModel.visitColumns ff fr kn ss ag fields outs inner given schema b0 ds = UB -> (exists d, In d ds /\ detail_case d) \/ grouped_again ds \/ outs <> [] /\ foreign_group ss fields ds.
  Proof.
    intros H. unfold SubModel.visitColumns in H. apply bindR_ub in H as [H|([b g] & m & _ & H)].
    - refine (strack_ub ds [] 0 [] b0 _ H). intros c x [].
    - cbv zeta in H. destruct inner; [discriminate H|]. apply bindR_ub in H as [H|(emit & m2 & _ & H)]; [destruct (emits_ub _ _ H)|]. destruct (FieldModel.applyOutputMapping _ _ _ _ _); discriminate H.
  Qed.
End Track.

Section Nodes.
  Variables (ff : str -> option N) (tab : table) (S : TreeModel.read_plan) (earlier : list known_rel) (first : bool).
  Hypothesis He : plain_known earlier.
  Definition bad (known : list known_rel) (n : rnode) : Prop := relation_case n \/ (2 ^ 31 <= Z.of_nat (length (fields_of S (known ++ earlier) (n_name n))))%Z \/
    fst (SubModel.around S (n_name n)) <> [] /\ foreign_group (schema_list tab) (fields_of S (known ++ earlier) (n_name n)) (n_details n).
  Lemma snode_ub t known n : plain_known known -> SubModel.visit_node ff tab S earlier first t known n = UB -> bad known n.
  Proof.
    intros Hk H. unfold SubModel.visit_node in H. destruct (taken S known (n_name n)); [discriminate|]. destruct (empty_body (n_kind n)) as [b0|]; [|discriminate].
    destruct (match b0 with BProject _ => _ | _ => _ end) as [t' given]. destruct (SubModel.visitColumns _ _ _ _ _ _ _ _ _ _ _ _) as [x| |] eqn:E; cbn [obind] in H; [destruct (_ && _); discriminate|discriminate|]. clear H.
    destruct (Z_lt_le_dec (Z.of_nat (length (fields_of S (known ++ earlier) (n_name n)))) (2 ^ 31)) as [L|L]; [|right; left; exact L].
    apply scolumns_ub in E as [E|[E|[O E]]]; [left; left; exact E|left; right; exact E| |apply fields_plain, Forall_app; auto|exact L]. right. right. split; [|exact E]. unfold SubModel.scopes_around in O. destruct first; [contradiction|]. intros N. apply O. rewrite N. reflexivity.
  Qed.
  Lemma snode_plain t known n t' known' e : plain_known known -> SubModel.visit_node ff tab S earlier first t known n = Ok (t', known', e) -> plain_known known'.
  Proof.
    intros Hk H. unfold SubModel.visit_node in H. destruct (taken S known (n_name n)); [injection H as _ <- _; exact Hk|]. destruct (empty_body (n_kind n)) as [b0|]; [|injection H as _ <- _; exact Hk].
    destruct (match b0 with BProject _ => _ | _ => _ end) as [t2 given]. destruct (SubModel.visitColumns _ _ _ _ _ _ _ _ _ _ _ _) as [[[r d] m]| |] eqn:E; cbn [obind fst snd] in H; try discriminate. destruct (_ && _); [discriminate|]. injection H as _ <- _. apply Forall_app. split; [exact Hk|]. constructor; [|constructor].
    refine (svisited_plain _ _ _ _ _ _ _ _ _ _ _ _ _ _ _ _ _ E); [apply fields_plain, Forall_app; auto|]. unfold plain_columns. apply Forall_flat_map. rewrite Forall_forall. intros s _. apply schema_plain.
  Qed.
  Lemma snodes_plain l : forall t known known' e, plain_known known -> SubModel.visit_nodes ff tab S earlier first t known l = Ok (known', e) -> plain_known known'.
  Proof.
    induction l as [|n l IH]; intros t known known' e Hk H; cbn [SubModel.visit_nodes] in H; [injection H as <- _; exact Hk|]. destruct (SubModel.visit_node _ _ _ _ _ t known n) as [[[t1 k1] e1]| |] eqn:E; cbn [obind] in H; try discriminate.
    destruct (SubModel.visit_nodes _ _ _ _ _ t1 k1 l) as [[k2 e2]| |] eqn:E2; cbn [obind fst snd] in H; try discriminate. injection H as <- _. exact (IH _ _ _ _ (snode_plain _ _ _ _ _ _ Hk E) E2).
  Qed.
  Lemma snodes_ub l : forall t known, plain_known known -> SubModel.visit_nodes ff tab S earlier first t known l = UB ->
    exists before n after known' e, l = before ++ n :: after /\ SubModel.visit_nodes ff tab S earlier first t known before = Ok (known', e) /\ bad known' n.
  Proof.
    induction l as [|n l IH]; intros t known Hk H; [discriminate|]. cbn [SubModel.visit_nodes] in H. destruct (SubModel.visit_node _ _ _ _ _ t known n) as [[[t1 k1] e1]| |] eqn:E; cbn [obind] in H; [|discriminate|].
    - destruct (SubModel.visit_nodes _ _ _ _ _ t1 k1 l) as [[k2 e2]| |] eqn:E2; cbn [obind fst snd] in H; try discriminate. destruct (IH _ _ (snode_plain _ _ _ _ _ _ Hk E) E2) as (before & x & after & k' & e & -> & V & W).
      exists (n :: before), x, after, k', (e1 ++ e). split; [reflexivity|]. split; [|exact W]. cbn [SubModel.visit_nodes]. rewrite E. cbn [obind]. rewrite V. reflexivity.
    - exists [], n, l, known, []. split; [reflexivity|]. split; [reflexivity|exact (snode_ub _ _ _ Hk E)].
  Qed.
End Nodes.
Lemma sbuild_no_ub rp seen fuel : forall n, SubModel.sbuild rp seen fuel n <> UB.
Proof.
  assert (M : forall A B (f : A -> outcome B) l, (forall a, f a <> UB) -> TreeModel.omap_list f l <> UB).
  { intros A B f l Hf. induction l as [|y l IHl]; [discriminate|]. cbn. specialize (Hf y). destruct (f y); cbn; [|congruence..]. destruct (TreeModel.omap_list _ l); cbn; congruence. }
  induction fuel as [|fuel IH]; intros n; [discriminate|]. cbn [SubModel.sbuild]. destruct (TreeModel.find_section rp n) as [s|]; [|discriminate].
  assert (F : forall ins, (x <- TreeModel.omap_list (fun q => r <- SubModel.sbuild rp seen fuel q ;; Ok (q, r)) (firstn (seen n) (SubModel.section_subs s)) ;; if length (SubModel.section_subs s) <? seen n then Throw EInvalidState else Ok (SubModel.SRel (TreeModel.x_body s) ins x)) <> UB).
  { intros ins. match goal with |- (x <- ?o ;; _) <> _ => assert (O : o <> UB) by (apply M; intros q; pose proof (IH q); destruct (SubModel.sbuild rp seen fuel q); cbn; congruence); destruct o; cbn [obind]; try congruence end. destruct (_ <? _); discriminate. }
  pose proof (M _ _ (SubModel.sbuild rp seen fuel) (PipeModel.news (TreeModel.rel_data rp n)) IH) as M'.
  destruct (TreeModel.x_kind s); try discriminate; try (destruct (TreeModel.getNextSinglePipeline _) as [i|]; [|discriminate]; pose proof (IH i); destruct (SubModel.sbuild rp seen fuel i); cbn [obind]; [apply F|congruence..]);
    try (destruct (TreeModel.omap_list (SubModel.sbuild rp seen fuel) _); cbn; congruence);
    (destruct (PipeModel.news _) as [|a [|b [|]]]; try discriminate; pose proof (IH a); destruct (SubModel.sbuild rp seen fuel a); cbn [obind]; try congruence; pose proof (IH b); destruct (SubModel.sbuild rp seen fuel b); cbn [obind]; [apply F|congruence..]).
Qed.
Theorem sdefined_unless_trap s : SubModel.from_text s = UB -> exists nodes, parse s = Some nodes /\ sub_trap nodes.
Proof.
  unfold SubModel.from_text. destruct (parse s) as [nodes|] eqn:E0; [|discriminate]. intros H. exists nodes. split; [reflexivity|]. destruct (symbols nodes) as [[tab e1]| |] eqn:E1; cbn [obind] in H; [|discriminate|left; exact (define_ub _ _ _ E1)]. right.
  destruct (TreeModel.readText (SubModel.text_of nodes tab)) as [[rp e2]| |] eqn:E2; cbn [obind] in H; [|discriminate|].
  - right. assert (T : forall earlier first, (earlier = [] /\ first = true \/ first = false /\ exists e, SubModel.visit_nodes (DeclModel.resolve_function (entries 0 0 nodes)) tab rp [] true SymbolModel.empty_table [] (relations_of nodes) = Ok (earlier, e)) ->
      SubModel.visit_nodes (DeclModel.resolve_function (entries 0 0 nodes)) tab rp earlier first SymbolModel.empty_table [] (relations_of nodes) = UB -> (exists n, In n (relations_of nodes) /\ relation_trap n) \/ swide nodes \/ grouped_outside nodes).
    { intros earlier first He V. assert (P : plain_known earlier) by (destruct He as [[-> _]|[_ (e & E)]]; [constructor|refine (snodes_plain _ _ _ _ _ _ _ _ _ _ _ _ E); constructor]).
      destruct (snodes_ub _ _ _ _ _ P _ _ _ (Forall_nil _) V) as (before & n & after & known & e & Q & V' & [C|[W|G]]).
      - left. exists n. assert (I : In n (relations_of nodes)) by (rewrite Q; apply in_or_app; cbn; auto). split; [exact I|exact (no_word _ _ _ E0 I C)].
      - right. left. exists tab, e1, rp, e2, earlier, first, before, n, after, known, e. cbv zeta. auto 9.
      - right. right. exists tab, e1, rp, e2, earlier, first, before, n, after, known, e. cbv zeta. auto 9. }
    destruct (SubModel.visit_nodes _ tab rp [] true _ _ _) as [[before e3]| |] eqn:E3; cbn [obind] in H; [|discriminate|exact (T [] true (or_introl (conj eq_refl eq_refl)) E3)]. destruct (map WPass e1 ++ map WTree e2 ++ filter reported_first e3); [|discriminate].
    destruct (SubModel.visit_nodes _ tab rp before false _ _ _) as [[known e4]| |] eqn:E4; cbn [obind] in H; [|discriminate|exact (T before false (or_intror (conj eq_refl (ex_intro _ e3 eq_refl))) E4)]. exfalso.
    destruct (SubModel.soutput rp _ _) as [l| |] eqn:O; cbn [obind] in H; [|discriminate|].
    + pose proof (sfill_all_calm tab known (SubModel.recorded_subs rp) l) as F. destruct (SubModel.sfill_all _ _ _ l); cbn [obind] in H; [discriminate|discriminate|exact F].
    + unfold SubModel.soutput in O. revert O. induction (TreeModel.starts rp) as [|[n d] q IH]; [discriminate|]. cbn [TreeModel.omap_list fst snd]. destruct (PipeModel.news d) as [|i r]; cbn [obind].
      * destruct (TreeModel.omap_list _ q); cbn; try congruence; intros _; exact (IH eq_refl).
      * pose proof (sbuild_no_ub rp (SubModel.seen_subs (relations_of nodes)) (S (length (relations_of nodes))) i) as B. destruct (SubModel.sbuild rp _ _ i); cbn [obind]; try congruence. destruct (TreeModel.omap_list _ q); cbn; try congruence; intros _; exact (IH eq_refl).
  - left. destruct (pipelines_ub _ E2) as (n & I & J). cbn [SubModel.text_of TreeModel.x_pipes TreeModel.x_others] in I, J. exists n. split; [exact I|]. apply nodup_In in J. unfold defined. destruct (DefineFacts.define_all_view _ _ _ _ _ E1) as [V _]. cbn [map app] in V. rewrite <- V, map_map. exact J.
Qed.
