(** What the plan of a text with subqueries is made of. *)
From Coq Require Import Permutation Lia.
From Verif Require Import Base BaseFacts StringsModel StringsFacts TypeModel LexModel NameModel ExprModel ExprFacts FirstFacts ResolveFacts RelModel RelFacts RelReadFacts SectionModel WholeModel SoundFacts TrapPlanFacts SubFacts StepFacts.
From Verif Require FieldModel DeclModel DeclFacts PipeModel PipeFacts TreeModel TreeFacts SubModel.

(** * Specification *)
(** The names of the subqueries in the order of the text: a subquery before those of its operands *)
Fixpoint named_by (e : enode) : list str :=
  match e with
  | NConst _ | NCol _ => []
  | NFun _ args _ => flat_map (fun a => let '(_, x) := a in named_by x) args
  | NCast e _ => named_by e
  | NScalar n | NSet _ n => [SubModel.id_of n]
  | NIn l n => SubModel.id_of n :: flat_map named_by l
  | NCompare e _ _ n => SubModel.id_of n :: named_by e
  end.
Definition named_in (n : rnode) : list str := flat_map (fun d => flat_map named_by (SubModel.detail_exprs d)) (n_details n).
Definition q_rel (t : SubModel.qtree) : relation := let 'SubModel.QNode r _ _ _ _ := t in r.
Definition q_ins (t : SubModel.qtree) : list SubModel.qtree := let 'SubModel.QNode _ _ _ ins _ := t in ins.
Definition q_subs (t : SubModel.qtree) : list (str * SubModel.qtree) := let 'SubModel.QNode _ _ _ _ subs := t in subs.
(** All relations of a tree, with those of the subqueries *)
Fixpoint qnodes (t : SubModel.qtree) : list SubModel.qtree :=
  match t with SubModel.QNode _ _ _ ins subs => t :: flat_map qnodes ins ++ flat_map (fun s => let '(_, q) := s in qnodes q) subs end.
(** A relation is inside another one if it is the relation of one of its subqueries, or feeds this relation over others. *)
Definition inside (pn : list pnode) (n p : str) : Prop := exists r q, In r (relations_of pn) /\ n_name r = p /\ In q (named_in r) /\ (n = q \/ reaches (feeds pn) n q).
(** Relation o is k relations around relation n. *)
Inductive within (pn : list pnode) : N -> str -> str -> Prop :=
| WI_itself n : within pn 0 n n
| WI_around k n p o : inside pn n p -> within pn k p o -> within pn (k + 1) n o.
(** The columns that a relation reads are its own ones or of relations around it. *)
Definition reads_around (pn : list pnode) (n : str) (b : body) : Prop := forall e k, In e (body_exprs b) -> In k (e_steps e) -> exists o, within pn k n o.
(** A tree for a relation of the text: of its kind, with columns of its own or of relations around it, with inputs that feed it, with relations for subqueries that are the ones of their names, and, if it has inputs, with these in its expressions *)
Inductive Stands (pn : list pnode) : str -> SubModel.qtree -> Prop :=
| ST_other n r src sch : ~ In n (map n_name (relations_of pn)) -> Stands pn n (SubModel.QNode r src sch [] [])
| ST_relation node r src sch ks ins subs : In node (relations_of pn) -> kind_name (r_body r) = to_lower (n_kind node) -> reads_around pn (n_name node) (r_body r) ->
    Forall2 (Stands pn) ks ins -> Forall (fun k => feeds pn k (n_name node)) ks -> Forall (fun s => Stands pn (fst s) (snd s)) subs ->
    (ins <> [] -> message_subs (r_body r) = map Some (map fst subs) /\ map fst subs = firstn (length (written_subs node)) (named_in node)) ->
    Stands pn (n_name node) (SubModel.QNode r src sch ins subs).

(** * Recording *)
Lemma flat_flat {A B C} (f : B -> list C) (g : A -> list B) l : flat_map f (flat_map g l) = flat_map (fun a => flat_map f (g a)) l.
Proof. induction l as [|a l IH]; [reflexivity|]. cbn [flat_map]. rewrite flat_map_app, IH. reflexivity. Qed.
Lemma flat_ext {A B} (f g : A -> list B) l : Forall (fun a => f a = g a) l -> flat_map f l = flat_map g l.
Proof. induction 1 as [|a l H _ IH]; [reflexivity|]. cbn [flat_map]. rewrite H, IH. reflexivity. Qed.
Lemma named_subs e : flat_map TreeModel.tsubs (SubModel.subs e) = named_by e.
Proof.
  induction e as [n args ty IH|c|t|e ty IH|n|l n IH|b n|e op b n IH] using enode_ind2; cbn [SubModel.subs named_by flat_map TreeModel.tsubs app]; rewrite ?app_nil_r; try reflexivity; try assumption.
  - rewrite flat_flat. apply flat_ext. eapply Forall_impl; [|exact IH]. intros [s x] H. exact H.
  - f_equal. rewrite flat_flat. apply flat_ext. exact IH.
  - f_equal. exact IH.
Qed.
Lemma named_node n : flat_map TreeModel.tsubs (SubModel.node_subs n) = named_in n.
Proof.
  unfold SubModel.node_subs, named_in. rewrite flat_flat. apply flat_ext, Forall_forall. intros d _. rewrite flat_flat. apply flat_ext, Forall_forall. intros e _. apply named_subs.
Qed.
(** More may be recorded than is written *)
Definition covers {A} (a b : list A) : Prop := exists rest, Permutation a (b ++ rest).
Lemma covers_app {A} (a b c d : list A) : covers a b -> covers c d -> covers (a ++ c) (b ++ d).
Proof.
  intros (r1 & P1) (r2 & P2). exists (r1 ++ r2). rewrite P1, P2, <- !app_assoc. apply Permutation_app_head. rewrite !app_assoc. apply Permutation_app_tail, Permutation_app_comm.
Qed.
Lemma covers_flat {A B} (f g : A -> list B) l : Forall (fun a => covers (f a) (g a)) l -> covers (flat_map f l) (flat_map g l).
Proof. induction 1 as [|a l H _ IH]; [exists []; constructor|]. cbn [flat_map]. apply covers_app; assumption. Qed.
Lemma covers_refl {A} (a : list A) : covers a a.
Proof. exists []. rewrite app_nil_r. reflexivity. Qed.
Lemma covers_perm {A} (a a' b b' : list A) : Permutation a a' -> Permutation b b' -> covers a b -> covers a' b'.
Proof. intros P Q (r & H). exists r. rewrite <- P, <- Q. exact H. Qed.
Lemma map_flat {A B C} (f : B -> C) (g : A -> list B) l : map f (flat_map g l) = flat_map (fun a => map f (g a)) l.
Proof. induction l as [|a l IH]; [reflexivity|]. cbn [flat_map]. rewrite map_app, IH. reflexivity. Qed.
Lemma named_written e : covers (named_by e) (map SubModel.id_of (written e)).
Proof.
  induction e as [n args ty IH|c|t|e ty IH|n|l n IH|b n|e op b n IH] using enode_ind2; cbn [written named_by map]; try apply covers_refl; try assumption.
  - rewrite map_flat. apply covers_flat. eapply Forall_impl; [|exact IH]. intros [s x] H. cbn [snd] in H. destruct (_ && _); [exists (named_by x); reflexivity|exact H].
  - rewrite map_app. cbn [map]. apply (covers_perm (flat_map named_by l ++ [SubModel.id_of n]) _ (map SubModel.id_of (flat_map written l) ++ [SubModel.id_of n]) _); [symmetry; apply Permutation_cons_append|reflexivity|].
    apply covers_app; [|apply covers_refl]. rewrite map_flat. apply covers_flat. exact IH.
  - rewrite map_app. cbn [map]. apply (covers_perm (named_by e ++ [SubModel.id_of n]) _ (map SubModel.id_of (written e) ++ [SubModel.id_of n]) _); [symmetry; apply Permutation_cons_append|reflexivity|]. apply covers_app; [exact IH|apply covers_refl].
Qed.
Lemma node_covers n : covers (named_in n) (map SubModel.id_of (written_subs n)).
Proof.
  unfold named_in, written_subs. rewrite map_flat. apply covers_flat, Forall_forall. intros d _.
  assert (K : forall l, covers (flat_map named_by l) (map SubModel.id_of (flat_map written l))) by (intros l; rewrite map_flat; apply covers_flat, Forall_forall; intros e _; apply named_written).
  destruct d; try apply K. cbn [SubModel.attached_exprs SubModel.detail_exprs]. rewrite !flat_flat, map_flat. apply covers_flat, Forall_forall. intros m _. destruct m as [e ty ids|e|i|e b]; try apply K. exists (flat_map named_by [e]). reflexivity.
Qed.
Lemma named_all n : length (named_in n) = length (written_subs n) -> Permutation (named_in n) (map SubModel.id_of (written_subs n)).
Proof.
  intros L. destruct (node_covers n) as (rest & P). pose proof (Permutation_length P) as K. rewrite app_length, map_length in K. destruct rest; [rewrite app_nil_r in P; exact P|]. cbn [length] in K. lia.
Qed.
Lemma named_fewer n : length (written_subs n) <= length (named_in n).
Proof. destruct (node_covers n) as (rest & P). pose proof (Permutation_length P) as K. rewrite app_length, map_length in K. lia. Qed.

(** * The tables *)
Lemma rel_kept_pipeline p n : forall t rights t' e, PipeModel.is_rel t n = true -> PipeModel.visitPipeline t rights p = Ok (t', e) -> PipeModel.is_rel t' n = true.
Proof.
  induction p as [|x p IH]; intros t rights t' e H E; cbn [PipeModel.visitPipeline] in E; [injection E as <- _; exact H|].
  destruct (PipeModel.visitPipeline _ _ p) as [[t2 errs]| |] eqn:E2; cbn [obind] in E; try discriminate. assert (H2 : PipeModel.is_rel t2 n = true) by (apply (IH _ _ _ _) in E2; [exact E2|]; rewrite PipeFacts.rel_symbol, H; reflexivity).
  destruct (PipeModel.plookup t2 (fst x)) as [[d|]|] eqn:L; [|injection E as <- _; exact H2..]. assert (R : PipeModel.is_rel t2 (fst x) = true) by (unfold PipeModel.is_rel; rewrite L; reflexivity).
  destruct (PipeModel.connect _ _ _ _ _) as [[t3 e3]| |] eqn:C; cbn [obind fst snd] in E; try discriminate. injection E as <- _. unfold PipeModel.connect in C.
  destruct (PipeModel.cont d); [injection C as <- _; exact H2|]. destruct rights as [|r rights]; cbn in C.
  - destruct p as [|l p]; [injection C as <- _; exact H2|]. destruct (negb _); [discriminate|]. injection C as <- _. rewrite PipeFacts.rel_update; assumption.
  - destruct (negb _); [discriminate|]. destruct (_ || _); [injection C as <- _; exact H2|]. destruct p as [|l p]; [|destruct (negb _); [discriminate|]]; injection C as <- _; rewrite PipeFacts.rel_update; assumption.
Qed.
Lemma rel_kept ps n : forall t t' e, PipeModel.is_rel t n = true -> PipeModel.visitPipelines t ps = Ok (t', e) -> PipeModel.is_rel t' n = true.
Proof.
  induction ps as [|p ps IH]; intros t t' e H E; cbn [PipeModel.visitPipelines] in E; [injection E as <- _; exact H|].
  destruct (PipeModel.visitPipeline t [] (rev p)) as [[t1 e1]| |] eqn:E1; cbn [obind fst snd] in E; try discriminate. destruct (PipeModel.visitPipelines t1 ps) as [[t2 e2]| |] eqn:E2; cbn [obind fst snd] in E; try discriminate. injection E as <- _.
  exact (IH t1 t2 e2 (rel_kept_pipeline _ _ _ _ _ _ H E1) E2).
Qed.
(** relations have one entry each *)
Fixpoint ordered (t : PipeModel.ptab) : Prop :=
  match t with [] => True | (n, s) :: r => match s with PipeModel.PRel _ => PipeModel.plookup r n = None | PipeModel.POther => PipeModel.is_rel r n = false end /\ ordered r end.
Lemma ordered_in t : ordered t -> forall n d, In (n, PipeModel.PRel d) t -> PipeModel.plookup t n = Some (PipeModel.PRel d).
Proof.
  induction t as [|[m s] t IH]; [intros _ n d []|]. intros [H O] n d [E|I]; cbn [PipeModel.plookup]; [injection E as -> ->; rewrite seq_eqb_refl; reflexivity|]. specialize (IH O n d I). destruct (seq_eqb_spec m n) as [->|]; [|exact IH]. destruct s; [congruence|]. unfold PipeModel.is_rel in H. rewrite IH in H. discriminate H.
Qed.
Lemma ordered_snoc t n d : ordered t -> PipeModel.plookup t n = None -> ordered (t ++ [(n, PipeModel.PRel d)]).
Proof.
  induction t as [|[m s] t IH]; intros O L; [split; [reflexivity|exact Logic.I]|]. destruct O as [H O]. cbn [PipeModel.plookup] in L. destruct (seq_eqb_spec m n) as [->|N]; [discriminate L|]. cbn [app ordered]. split; [|exact (IH O L)].
  assert (Q : PipeModel.plookup (t ++ [(n, PipeModel.PRel d)]) m = PipeModel.plookup t m) by (rewrite PipeFacts.plookup_app; destruct (PipeModel.plookup t m); [reflexivity|]; cbn; destruct (seq_eqb_spec n m); [congruence|reflexivity]).
  destruct s; [rewrite Q; exact H|]. unfold PipeModel.is_rel in *. rewrite Q. exact H.
Qed.
Lemma ordered_rels names : forall t, ordered t -> NoDup names -> (forall n, In n names -> PipeModel.plookup t n = None) -> ordered (t ++ map (fun m => (m, PipeModel.PRel PipeModel.no_data)) names).
Proof.
  induction names as [|n names IH]; intros t O ND L; [rewrite app_nil_r; exact O|]. cbn [map]. change ((n, PipeModel.PRel PipeModel.no_data) :: ?l) with ([(n, PipeModel.PRel PipeModel.no_data)] ++ l). rewrite app_assoc. inversion ND as [|? ? Nn ND']; subst. apply IH; [apply ordered_snoc; [exact O|apply L; left; reflexivity]|exact ND'|].
  intros m Im. rewrite PipeFacts.plookup_app, (L m (or_intror Im)). cbn. destruct (seq_eqb_spec n m) as [->|]; [contradiction|reflexivity].
Qed.
Lemma ordered_others l : ordered (map (fun n => (n, PipeModel.POther)) l).
Proof.
  induction l as [|n l IH]; [exact Logic.I|]. split; [|exact IH]. unfold PipeModel.is_rel. clear IH. induction l as [|m l IH]; [reflexivity|]. cbn. destruct (m =s n); [reflexivity|exact IH].
Qed.
Lemma ordered_update t n d : ordered t -> PipeModel.is_rel t n = true -> ordered (PipeModel.pupdate t n d).
Proof.
  induction t as [|[m s] t IH]; intros O R; [exact Logic.I|]. destruct O as [H O]. unfold PipeModel.is_rel in R. cbn [PipeModel.plookup] in R. cbn [PipeModel.pupdate]. destruct (seq_eqb_spec m n) as [->|N]; [destruct s; [|discriminate R]; split; assumption|].
  split; [|apply IH; assumption]. destruct s; [rewrite PipeFacts.plookup_update by exact R; destruct (seq_eqb_spec n m); [congruence|exact H]|rewrite PipeFacts.rel_update by exact R; exact H].
Qed.
Lemma ordered_symbol t n : ordered t -> ordered (PipeModel.updateRelationSymbol t n).
Proof. intros O. unfold PipeModel.updateRelationSymbol. destruct (PipeModel.plookup t n) eqn:E; [exact O|apply ordered_snoc; assumption]. Qed.
Lemma ordered_pipeline p : forall t rights t' e, ordered t -> PipeModel.visitPipeline t rights p = Ok (t', e) -> ordered t'.
Proof.
  induction p as [|x p IH]; intros t rights t' e H E; cbn [PipeModel.visitPipeline] in E; [injection E as <- _; exact H|].
  destruct (PipeModel.visitPipeline _ _ p) as [[t2 errs]| |] eqn:E2; cbn [obind] in E; try discriminate. assert (H2 : ordered t2) by (apply (IH _ _ _ _) in E2; [exact E2|apply ordered_symbol; exact H]).
  destruct (PipeModel.plookup t2 (fst x)) as [[d|]|] eqn:L; [|injection E as <- _; exact H2..]. assert (R : PipeModel.is_rel t2 (fst x) = true) by (unfold PipeModel.is_rel; rewrite L; reflexivity).
  destruct (PipeModel.connect _ _ _ _ _) as [[t3 e3]| |] eqn:C; cbn [obind fst snd] in E; try discriminate. injection E as <- _. unfold PipeModel.connect in C.
  destruct (PipeModel.cont d); [injection C as <- _; exact H2|]. destruct rights as [|r rights]; cbn in C.
  - destruct p as [|l p]; [injection C as <- _; exact H2|]. destruct (negb _); [discriminate|]. injection C as <- _. apply ordered_update; assumption.
  - destruct (negb _); [discriminate|]. destruct (_ || _); [injection C as <- _; exact H2|]. destruct p as [|l p]; [|destruct (negb _); [discriminate|]]; injection C as <- _; apply ordered_update; assumption.
Qed.
Lemma ordered_pipelines ps : forall t t' e, ordered t -> PipeModel.visitPipelines t ps = Ok (t', e) -> ordered t'.
Proof.
  induction ps as [|p ps IH]; intros t t' e H E; cbn [PipeModel.visitPipelines] in E; [injection E as <- _; exact H|].
  destruct (PipeModel.visitPipeline t [] (rev p)) as [[t1 e1]| |] eqn:E1; cbn [obind fst snd] in E; try discriminate. destruct (PipeModel.visitPipelines t1 ps) as [[t2 e2]| |] eqn:E2; cbn [obind fst snd] in E; try discriminate. injection E as <- _.
  exact (IH t1 t2 e2 (ordered_pipeline _ _ _ _ _ H E1) E2).
Qed.
Definition section_of (n : rnode) : TreeModel.section := {| TreeModel.x_name := n_name n; TreeModel.x_kind := kind_read (n_kind n); TreeModel.x_body := n_name n; TreeModel.x_exprs := SubModel.node_subs n |}.
Lemma text_parts pn tab rp : TreeModel.readText (SubModel.text_of pn tab) = Ok (rp, []) ->
  TreeModel.r_rels rp = map section_of (relations_of pn) /\ NoDup (map n_name (relations_of pn)) /\ (forall n, In n (relations_of pn) -> find_relation rp (n_name n) = Some true) /\ (forall x y, In y (inputs_of rp x) -> feeds pn y x) /\
  (forall n q, In n (relations_of pn) -> In q (named_in n) -> find_relation rp q <> None) /\ (forall n d, In (n, PipeModel.PRel d) (TreeModel.r_tab rp) -> PipeModel.plookup (TreeModel.r_tab rp) n = Some (PipeModel.PRel d)).
Proof.
  intros Er. assert (Lk : forall x y, In y (inputs_of rp x) -> feeds pn y x).
  { revert Er. unfold TreeModel.readText. destruct (only_others (SubModel.text_of pn tab)) as (t & E & F & _). destruct (TreeModel.define_rels _ _) as [t1 e1]. cbn [fst] in E. destruct (TreeModel.define_roots t1 false _) as [t2 e2]. cbn [fst] in E. subst t2.
    change (map (map (fun n : str => (n, n))) (TreeModel.x_pipes (SubModel.text_of pn tab))) with (map PipeFacts.plain (arrows pn)).
    destruct (PipeModel.visitPipelines t _) as [[t3 e3]| |] eqn:V; cbn [obind fst snd]; try discriminate. intros H. injection H as <- _.
    assert (L : linked (feeds pn) t3).
    { refine (linked_pipelines (feeds pn) (arrows pn) t t3 e3 _ _ V).
      - intros n d y L. rewrite (F n d L). intros [Q|[]]. discriminate Q.
      - intros p y x I A. exists p. auto. }
    intros x y. unfold inputs_of, TreeModel.rel_data. cbn [TreeModel.r_tab]. destruct (PipeModel.plookup t3 x) as [[d|]|] eqn:P; [|intros []..]. intros I. apply (L x d y P). apply in_app_or in I as [I|I]; [left|right; exact I]. destruct (PipeModel.cont d) as [c|]; [destruct I as [->|[]]; reflexivity|destruct I]. }
  unfold TreeModel.readText in Er. cbn [SubModel.text_of TreeModel.x_others TreeModel.x_rels TreeModel.x_roots TreeModel.x_pipes] in Er. change (map _ (relations_of pn)) with (map section_of (relations_of pn)) in Er. set (rels := relations_of pn) in *.
  cbv zeta in Er. match type of Er with context [TreeModel.define_rels ?x ?secs] => destruct (TreeModel.define_rels x secs) as [t1 e1] eqn:E1 end. destruct (TreeModel.define_roots t1 false (roots_of pn)) as [t2 e2] eqn:E2.
  destruct (PipeModel.visitPipelines t2 _) as [[t3 e3]| |] eqn:E3; cbn [obind fst snd] in Er; try discriminate Er. injection Er as Erp Ee. apply app_eq_nil in Ee as [-> Ee]. apply app_eq_nil in Ee as [-> Ee]. apply app_eq_nil in Ee as [_ Ee].
  apply define_clean in E1 as (T1 & ND & Nw). assert (Sn : map TreeModel.x_name (map section_of rels) = map n_name rels) by (rewrite map_map; reflexivity). rewrite Sn in ND.
  split; [rewrite <- Erp; reflexivity|]. split; [exact ND|]. split; [|split; [exact Lk|split]].
  - intros n In_. unfold find_relation. rewrite <- Erp. cbn [TreeModel.r_tab]. assert (X : PipeModel.is_rel t3 (n_name n) = true).
    { refine (rel_kept _ _ _ _ _ _ E3). assert (X1 : PipeModel.plookup t1 (n_name n) = Some (PipeModel.PRel PipeModel.no_data)).
      { rewrite T1, PipeFacts.plookup_app. specialize (Nw (section_of n) (in_map _ _ _ In_)). cbn [section_of TreeModel.x_name] in Nw. rewrite Nw.
        change (map (fun r => (TreeModel.x_name r, PipeModel.PRel PipeModel.no_data)) (map section_of rels)) with (map (fun r => (TreeModel.x_name r, PipeModel.PRel PipeModel.no_data)) (map section_of rels)). rewrite map_map. cbn [section_of TreeModel.x_name].
        rewrite <- (map_map n_name (fun m => (m, PipeModel.PRel PipeModel.no_data))). apply lookup_rels, in_map, In_. }
      unfold PipeModel.is_rel. destruct (roots_clean _ _ _ E2) as [[_ ->]|[-> _]]; [rewrite X1; reflexivity|rewrite PipeFacts.plookup_app, X1; reflexivity]. }
    unfold PipeModel.is_rel in X. destruct (PipeModel.plookup t3 (n_name n)) as [[]|]; try discriminate X. reflexivity.
  - intros n q In_ Iq. unfold find_relation. rewrite <- Erp. cbn [TreeModel.r_tab]. intros N. assert (X : PipeModel.plookup t3 q = None) by (destruct (PipeModel.plookup t3 q) as [[]|]; [discriminate N..|reflexivity]).
    assert (J : In (TreeModel.EMissing q) (flat_map (fun s => match PipeModel.plookup t3 s with None => [TreeModel.EMissing s] | Some _ => [] end) (flat_map (fun s => flat_map TreeModel.tsubs (TreeModel.x_exprs s)) (map section_of rels)))).
    { apply in_flat_map. exists q. split; [|rewrite X; left; reflexivity]. apply in_flat_map. exists (section_of n). split; [apply in_map, In_|]. cbn [section_of TreeModel.x_exprs]. rewrite named_node. exact Iq. }
    rewrite Ee in J. destruct J.
  - rewrite <- Erp. cbn [TreeModel.r_tab]. apply ordered_in. apply (ordered_pipelines _ _ _ _) with (2 := E3). assert (O1 : ordered t1).
    { rewrite T1, <- map_map with (f := TreeModel.x_name) (g := fun m => (m, PipeModel.PRel PipeModel.no_data)), Sn. apply ordered_rels; [apply ordered_others|exact ND|]. intros n In_. rewrite <- Sn in In_. apply in_map_iff in In_ as (y & <- & Iy). exact (Nw y Iy). }
    destruct (roots_clean _ _ _ E2) as [[_ ->]|[-> L]]; [exact O1|]. apply ordered_snoc; assumption.
Qed.

(** * The starts of pipelines *)
Definition ahead (Q : str -> str -> Prop) (t : PipeModel.ptab) : Prop := forall n d y, PipeModel.plookup t n = Some (PipeModel.PRel d) -> PipeModel.start d = Some y -> reaches Q n y.
Lemma ahead_update Q t n d : ahead Q t -> PipeModel.is_rel t n = true -> (forall y, PipeModel.start d = Some y -> reaches Q n y) -> ahead Q (PipeModel.pupdate t n d).
Proof. intros H R K m d' y E. rewrite PipeFacts.plookup_update in E by exact R. destruct (seq_eqb_spec n m) as [<-|M]; [injection E as <-; exact (K y)|exact (H m d' y E)]. Qed.
Lemma ahead_symbol Q t n : ahead Q t -> ahead Q (PipeModel.updateRelationSymbol t n).
Proof.
  intros H m d y E. rewrite PipeFacts.plookup_symbol in E. destruct (PipeModel.plookup t m) as [s|] eqn:L; [injection E as ->; exact (H m d y L)|]. destruct (n =s m); [|discriminate]. injection E as <-. discriminate.
Qed.
Lemma adjacent_mid a y x b : adjacent y x (a ++ y :: x :: b).
Proof. induction a as [|z a IH]; [left; auto|]. cbn [app]. destruct a; cbn [app] in *; right; exact IH. Qed.
Lemma ahead_pipeline Q p : forall t rights t' e, ahead Q t -> (forall y x, adjacent y x (rev (map fst p) ++ map fst rights) -> Q y x) -> PipeModel.visitPipeline t rights p = Ok (t', e) -> ahead Q t'.
Proof.
  induction p as [|x p IH]; intros t rights t' e H A E; cbn [PipeModel.visitPipeline] in E; [injection E as <- _; exact H|]. cbn [map rev] in A. rewrite <- app_assoc in A. cbn [app] in A.
  destruct (PipeModel.visitPipeline _ _ p) as [[t2 errs]| |] eqn:E2; cbn [obind] in E; try discriminate. assert (H2 : ahead Q t2) by (apply (IH _ _ _ _ (ahead_symbol Q t (fst x) H)) in E2; [exact E2|exact A]).
  destruct (PipeModel.plookup t2 (fst x)) as [[d|]|] eqn:L; [|injection E as <- _; exact H2..]. destruct (PipeModel.connect _ _ _ _ _) as [[t3 e3]| |] eqn:C; cbn [obind fst snd] in E; try discriminate. injection E as <- _.
  assert (R : PipeModel.is_rel t2 (fst x) = true) by (unfold PipeModel.is_rel; rewrite L; reflexivity).
  assert (D : forall y, PipeModel.start d = Some y -> reaches Q (fst x) y) by (intros y; exact (H2 _ _ y L)).
  unfold PipeModel.connect in C. destruct (PipeModel.cont d) eqn:Cd; [injection C as <- _; exact H2|]. destruct rights as [|r rights].
  - destruct p as [|l p]; [injection C as <- _; exact H2|]. destruct (negb _); [discriminate|]. injection C as <- _. apply ahead_update; [exact H2|exact R|]. exact D.
  - assert (K : Q (fst x) (fst r)) by (apply A; cbn [map]; apply adjacent_mid).
    assert (K2 : forall y, Some (match PipeModel.plookup t2 (fst r) with Some (PipeModel.PRel rd) => match PipeModel.start rd with Some s => s | None => fst r end | _ => fst r end) = Some y -> reaches Q (fst x) y).
    { intros y Y. injection Y as <-. destruct (PipeModel.plookup t2 (fst r)) as [[rd|]|] eqn:Lr; try (constructor; exact K). destruct (PipeModel.start rd) as [s|] eqn:S; [|constructor; exact K]. econstructor 2; [exact K|exact (H2 _ _ _ Lr S)]. }
    destruct (negb _); [discriminate|]. destruct (PipeModel.continuingPipelineContains _ _); [injection C as <- _; exact H2|]. destruct p as [|l p]; [|destruct (negb _); [discriminate|]]; injection C as <- _; (apply ahead_update; [exact H2|exact R|exact K2]).
Qed.
Lemma ahead_pipelines Q ps : forall t t' e, ahead Q t -> (forall p y x, In p ps -> adjacent y x p -> Q y x) -> PipeModel.visitPipelines t (map PipeFacts.plain ps) = Ok (t', e) -> ahead Q t'.
Proof.
  induction ps as [|p ps IH]; intros t t' e H A E; cbn [map PipeModel.visitPipelines] in E; [injection E as <- _; exact H|].
  destruct (PipeModel.visitPipeline t [] (rev (PipeFacts.plain p))) as [[t1 e1]| |] eqn:E1; cbn [obind fst snd] in E; try discriminate. destruct (PipeModel.visitPipelines t1 _) as [[t2 e2]| |] eqn:E2; cbn [obind fst snd] in E; try discriminate. injection E as <- _.
  apply (IH t1 t2 e2); [|intros q y x J; apply A; right; exact J|exact E2]. refine (ahead_pipeline Q _ _ _ _ _ H _ E1). intros y x. rewrite map_rev, rev_involutive. unfold PipeFacts.plain. rewrite map_map. cbn [fst map]. rewrite map_id, app_nil_r. apply A. left. reflexivity.
Qed.
Lemma read_ahead nodes tab rp e : TreeModel.readText (SubModel.text_of nodes tab) = Ok (rp, e) -> ahead (feeds nodes) (TreeModel.r_tab rp).
Proof.
  unfold TreeModel.readText. destruct (only_others (SubModel.text_of nodes tab)) as (t & E & F & _). destruct (TreeModel.define_rels _ _) as [t1 e1]. cbn [fst] in E. destruct (TreeModel.define_roots t1 false _) as [t2 e2]. cbn [fst] in E. subst t2.
  change (map (map (fun n : str => (n, n))) (TreeModel.x_pipes (SubModel.text_of nodes tab))) with (map PipeFacts.plain (arrows nodes)).
  destruct (PipeModel.visitPipelines t _) as [[t3 e3]| |] eqn:V; cbn [obind fst snd]; try discriminate. intros H. injection H as <- _. cbn [TreeModel.r_tab].
  refine (ahead_pipelines (feeds nodes) (arrows nodes) t t3 e3 _ _ V).
  - intros n d y L. rewrite (F n d L). discriminate.
  - intros p y x I A. exists p. auto.
Qed.

(** * Relations around a relation *)
Lemma reaches_trans R x y z : reaches R x y -> reaches R y z -> reaches R x z.
Proof. induction 1 as [x y H|x y w H _ IH]; intros K; [econstructor 2; eauto|econstructor 2; eauto]. Qed.
Section Around.
  Variables (nodes : list pnode) (tab : table) (rp : TreeModel.read_plan).
  Hypothesis Er : TreeModel.readText (SubModel.text_of nodes tab) = Ok (rp, []).
  Lemma parent_asks n p : SubModel.parent_of rp n = Some p -> exists r, In r (relations_of nodes) /\ n_name r = p /\ In n (named_in r).
  Proof.
    destruct (text_parts _ _ _ Er) as (Sr & _). unfold SubModel.parent_of. intros H.
    assert (G : forall l acc, fold_left (fun acc s => if existsb (fun q => q =s n) (SubModel.section_subs s) then Some (TreeModel.x_name s) else acc) l acc = Some p -> acc = Some p \/ exists s, In s l /\ TreeModel.x_name s = p /\ In n (SubModel.section_subs s)).
    { induction l as [|s l IH]; intros acc E; [left; exact E|]. cbn [fold_left] in E. destruct (IH _ E) as [A|(s' & I & K)]; [|right; exists s'; cbn; auto].
      destruct (existsb _ (SubModel.section_subs s)) eqn:X; [|left; exact A]. injection A as <-. apply existsb_exists in X as (q & Iq & Q). apply seq_eqb_eq in Q. subst q. right. exists s. cbn. auto. }
    destruct (G _ _ H) as [Q|(s & I & <- & J)]; [discriminate|]. rewrite Sr in I. apply in_map_iff in I as (m & <- & I). exists m. split; [exact I|]. split; [reflexivity|]. unfold SubModel.section_subs in J. cbn [section_of TreeModel.x_exprs] in J. rewrite named_node in J. exact J.
  Qed.
  Lemma start_ahead n m : PipeModel.start (TreeModel.rel_data rp n) = Some m -> reaches (feeds nodes) n m.
  Proof. unfold TreeModel.rel_data. destruct (PipeModel.plookup (TreeModel.r_tab rp) n) as [[d|]|] eqn:L; try discriminate. intros S. exact (read_ahead _ _ _ _ Er n d m L S). Qed.
  Lemma enclosing_around fuel : forall n p, SubModel.enclosing rp fuel n = SubModel.Inside p -> inside nodes n p.
  Proof.
    induction fuel as [|fuel IH]; intros n p E; cbn [SubModel.enclosing] in E; (destruct (SubModel.parent_of rp n) as [q|] eqn:P; [injection E as ->; destruct (parent_asks n p P) as (r & I & N & J); exists r, n; auto|]);
      destruct (PipeModel.start (TreeModel.rel_data rp n)) as [m|] eqn:S; try discriminate. pose proof (start_ahead n m S) as Q. destruct (IH m p E) as (r & q & I & N & J & K). exists r, q. repeat split; try assumption. right. destruct K as [<-|K]; [exact Q|exact (reaches_trans _ _ _ _ Q K)].
  Qed.
  Lemma outward_around bound fuel : forall n k, k <= length (fst (SubModel.outward rp bound fuel n)) -> exists o, within nodes (N.of_nat k) n o.
  Proof.
    induction fuel as [|fuel IH]; intros n k H; (destruct k as [|k]; [exists n; constructor|]); cbn [SubModel.outward] in H; destruct (SubModel.enclosing rp bound n) as [p| |] eqn:P; cbn [fst length] in H; try lia.
    specialize (IH p k). destruct (SubModel.outward rp bound fuel p) as [l e]. cbn [fst length] in *. destruct IH as (o & W); [lia|]. exists o. replace (N.of_nat (S k)) with (N.of_nat k + 1)%N by lia. econstructor; [exact (enclosing_around _ _ _ P)|exact W].
  Qed.
  Lemma around_within n k : N.to_nat k <= length (fst (SubModel.around rp n)) -> exists o, within nodes k n o.
  Proof. intros H. rewrite <- (N2Nat.id k). exact (outward_around _ _ n _ H). Qed.
End Around.

(** * The relations *)
Section Nodes.
  Variables (ff : str -> option N) (tab : table) (rp : TreeModel.read_plan) (earlier : list known_rel) (F : N -> Prop).
  Hypothesis HF : forall n f, ff n = Some f -> F f.
  Notation visit := (SubModel.visit_nodes ff tab rp earlier false).
  (** what is known about a relation that is read without a report *)
  Definition read_as (n : rnode) (r : relation) : Prop :=
    kind_name (r_body r) = to_lower (n_kind n) /\ all_use F (fun _ => True) (r_body r) /\ (to_lower (n_kind n) <> $"read" -> Permutation (message_subs (r_body r)) (map Some (written_subs n))) /\
    all_near (fun k => N.to_nat k <= length (fst (SubModel.around rp (n_name n)))) (r_body r).
  Lemma head_read b : head b = 0 -> kind_name b = $"read".
  Proof. destruct b; try discriminate. reflexivity. Qed.
  Lemma empty_subs k b : empty_body k = Some b -> message_subs b = [].
  Proof. unfold empty_body. repeat match goal with |- context [?a =s ?w] => destruct (a =s w); [intros H; injection H as <-; reflexivity|] end. discriminate. Qed.
  Lemma finish_subs b : message_subs (finish b) = message_subs b.
  Proof. destruct b as [| | |[|? ?] ?| | | | |]; reflexivity. Qed.
  Lemma finish_use b : all_use F (fun _ => True) b -> all_use F (fun _ => True) (finish b) /\ kind_name (finish b) = kind_name b.
  Proof. destruct b as [| | |[|? ?] ?| | | | |]; auto. Qed.
  Lemma finish_near C b : all_near C b -> all_near C (finish b).
  Proof. destruct b as [| | |[|? ?] ?| | | | |]; auto. Qed.
  Lemma visited_as n ag fs outs gv sch b0 r d : empty_body (n_kind n) = Some b0 -> length outs = length (fst (SubModel.around rp (n_name n))) ->
    SubModel.visitColumns ff (find_relation rp) (known_symbol tab) (schema_list tab) ag fs outs false gv sch b0 (n_details n) = Ok ((r, d), []) -> read_as n r.
  Proof.
    intros B Lo V. unfold SubModel.visitColumns in V. apply bindR_clean in V as ([b g] & H1 & V). apply bindR_clean in V as (emit & _ & V). destruct (FieldModel.applyOutputMapping _ _ _ _ _) as [output missing]. apply fine_inj in V. injection V as <- _. unfold read_as. cbn [r_body].
    destruct (empty_kind _ _ B) as (K1 & K2 & K3). assert (U0 : all_use F (fun _ => True) b0) by (split; [rewrite K2; constructor|rewrite K3; constructor]).
    destruct (strack_functions _ _ _ _ _ _ _ _ F HF _ _ _ _ _ _ U0 H1) as [U K]. destruct (finish_use b U) as [U' K']. split; [congruence|]. split; [exact U'|].
    assert (Nr : all_near (fun k => N.to_nat k <= length (fst (SubModel.around rp (n_name n)))) (finish b)) by (rewrite <- Lo; apply finish_near; refine (strack_near _ _ _ _ _ _ _ _ _ _ _ _ _ _ _ H1); unfold all_near; rewrite K2; constructor).
    split; [|exact Nr]. intros N.
    assert (Hb : head b0 <> 0) by (intros Q; apply head_read in Q; congruence). destruct (track_subs _ _ _ _ _ _ _ _ _ _ _ _ _ _ Hb H1) as [_ P]. rewrite (empty_subs _ _ B) in P. cbn [app] in P. rewrite finish_subs. exact P.
  Qed.
  Lemma visit_all l : forall t known known', visit t known l = Ok (known', []) -> (forall n, In n l -> find_relation rp (n_name n) = Some true) -> NoDup (map fst known ++ map n_name l) ->
    map fst known' = map fst known ++ map n_name l /\ (forall m x, find_rel m known = Some x -> find_rel m known' = Some x) /\ forall n, In n l -> (exists b, empty_body (n_kind n) = Some b) /\ exists r d, find_rel (n_name n) known' = Some (r, d) /\ read_as n r.
  Proof.
    induction l as [|n l IH]; intros t known known' H R ND; cbn [SubModel.visit_nodes] in H; [injection H as <-; cbn; rewrite app_nil_r; split; [reflexivity|]; split; [auto|intros n []]|].
    assert (Nn : find_rel (n_name n) known = None).
    { destruct (find_rel (n_name n) known) as [y|] eqn:E; [|reflexivity]. exfalso. cbn [map] in ND. apply NoDup_remove_2 in ND. apply ND, in_or_app. left. apply find_rel_some. eauto. }
    unfold SubModel.visit_node in H. unfold taken in H. rewrite Nn, (R n (or_introl eq_refl)) in H. destruct (empty_body (n_kind n)) as [b0|] eqn:B.
    - destruct (match b0 with BProject _ => given_names t (n_details n) | _ => (t, []) end) as [t1 gv].
      destruct (SubModel.visitColumns _ _ _ _ _ _ _ _ _ _ _ _) as [[[r d] e]| |] eqn:V; cbn [obind fst snd] in H; try discriminate H. destruct (_ && _); cbn [obind] in H; [discriminate H|].
      destruct (visit t1 (known ++ [(n_name n, (r, d))]) l) as [[k e']| |] eqn:E; cbn [obind fst snd] in H; try discriminate H. injection H as <- H. apply app_eq_nil in H as [H ->]. apply app_eq_nil in H as [H1 H2].
      apply map_eq_nil in H1, H2. subst e. destruct (IH _ _ _ E) as (I1 & I2 & I3); [intros m I; apply R; right; exact I|rewrite map_app; cbn [map fst]; rewrite <- app_assoc; exact ND|].
      split; [rewrite I1, map_app, <- app_assoc; reflexivity|]. split; [intros m x Fm; apply I2; rewrite find_rel_app, Fm; reflexivity|]. intros m [<-|I]; [|exact (I3 m I)]. split; [eauto|]. exists r, d. split.
      + apply I2. rewrite find_rel_app, Nn. cbn. rewrite seq_eqb_refl. reflexivity.
      + refine (visited_as n _ _ _ _ _ _ r d B _ V). unfold SubModel.scopes_around. apply map_length.
    - cbn [obind] in H. destruct (visit t known l) as [[k e]| |]; cbn [obind fst snd app] in H; discriminate H.
  Qed.
End Nodes.

(** * Labels *)
Definition keeps {A B} (R : list str -> A -> A * list str) (h : A -> list B) (x : A) : Prop := forall l, h (fst (R l x)) = h x.
Lemma keeps_through {A B} (R : list str -> A -> A * list str) (h : A -> list B) xs : Forall (keeps R h) xs -> keeps (SubModel.through R) (flat_map h) xs.
Proof.
  induction 1 as [|x xs H _ IH]; intros l; [reflexivity|]. cbn [SubModel.through]. specialize (H l). destruct (R l x) as [x' l']. specialize (IH l'). destruct (SubModel.through R l' xs). cbn [fst flat_map] in *. rewrite H, IH. reflexivity.
Qed.
Lemma keeps_option (o : option expr) : (forall e, o = Some e -> keeps SubModel.relabel e_functions e) -> keeps SubModel.relabel_option (given e_functions) o.
Proof. intros H l. destruct o as [e|]; [|reflexivity]. cbn [SubModel.relabel_option]. specialize (H e eq_refl l). destruct (SubModel.relabel l e). exact H. Qed.
Definition arg_functions (a : arg expr) : list N := match a with AValue x => e_functions x | _ => [] end.
Lemma keeps_arg a : match a with AValue x => keeps SubModel.relabel e_functions x | _ => True end -> keeps SubModel.relabel_arg arg_functions a.
Proof. destruct a as [x|s|t|]; intros H l; try reflexivity. cbn [SubModel.relabel_arg]. specialize (H l). destruct (SubModel.relabel l x). exact H. Qed.
Lemma relabel_functions e : keeps SubModel.relabel e_functions e.
Proof.
  induction e as [|v|s r|r|r|f args deprecated options ty Ha Hd|ifs els Hi He|e ty f IH|n|xs n Hl|q n|op red e n He|u] using PrintFacts.expr_ind2; intros l; try reflexivity.
  - rewrite relabel_fun. assert (K : keeps (SubModel.through SubModel.relabel_arg) (flat_map arg_functions) args) by (apply keeps_through; eapply Forall_impl; [|exact Ha]; intros a; apply keeps_arg). specialize (K l). destruct (SubModel.through SubModel.relabel_arg l args). cbn [fst e_functions] in *. f_equal. f_equal. exact K.
  - rewrite relabel_if. assert (K : keeps (SubModel.through relabel_branch) (flat_map (fun c : option expr * option expr => let '(i, t) := c in given e_functions i ++ given e_functions t)) ifs).
    { apply keeps_through. eapply Forall_impl; [|exact Hi]. intros [i t] [H1 H2] l1. cbn [fst snd] in *. pose proof (keeps_option i H1 l1) as K1. unfold relabel_branch. cbn [fst snd]. destruct (SubModel.relabel_option l1 i) as [i' l2]. pose proof (keeps_option t H2 l2) as K2. destruct (SubModel.relabel_option l2 t). cbn [fst] in *. rewrite K1, K2. reflexivity. }
    specialize (K l). destruct (SubModel.through relabel_branch l ifs) as [ifs' l']. pose proof (keeps_option els He l') as K2. destruct (SubModel.relabel_option l' els). cbn [fst e_functions] in *. rewrite K2. f_equal. exact K.
  - cbn [SubModel.relabel]. specialize (IH l). destruct (SubModel.relabel l e). exact IH.
  - cbn [SubModel.relabel]. destruct (SubModel.take l n n). reflexivity.
  - rewrite relabel_in. pose proof (keeps_through _ _ xs Hl l) as K. destruct (SubModel.through SubModel.relabel l xs) as [xs' l']. destruct (SubModel.take l' n None). exact K.
  - cbn [SubModel.relabel]. destruct (SubModel.take l n None). reflexivity.
  - cbn [SubModel.relabel]. pose proof (keeps_option e He l) as K. unfold SubModel.relabel_option in K. destruct e as [e|]; [destruct (SubModel.relabel l e) as [e' l']; destruct (SubModel.take l' n None)|destruct (SubModel.take l n None)]; exact K.
Qed.
Lemma flat_given (o : option expr) : flat_map e_functions (some o) = given e_functions o.
Proof. destruct o; [apply app_nil_r|reflexivity]. Qed.
Lemma flat_values (l : list (arg expr)) : flat_map e_functions (values l) = flat_map arg_functions l.
Proof. induction l as [|[x|s|t|] l IH]; cbn [values flat_map arg_functions app]; try exact IH; [reflexivity|]. fold (values l). rewrite IH. reflexivity. Qed.
Lemma measure_functions m : keeps SubModel.relabel_measure (fun m => flat_map e_functions (measure_exprs m)) m.
Proof.
  intros l. destruct m as [[f|] c]; unfold SubModel.relabel_measure; cbn [m_function m_filter].
  - assert (K : keeps (SubModel.through SubModel.relabel_arg) (flat_map arg_functions) (af_args f)) by (apply keeps_through, Forall_forall; intros a _; apply keeps_arg; destruct a; auto using relabel_functions). specialize (K l).
    destruct (SubModel.through SubModel.relabel_arg l (af_args f)) as [a l']. pose proof (keeps_option c (fun e _ => relabel_functions e) l') as K2. destruct (SubModel.relabel_option l' c) as [c' l2]. cbn [fst] in *. unfold measure_exprs. cbn [m_function m_filter given].
    unfold function_exprs. cbn [af_args af_deprecated af_sorts]. rewrite !flat_map_app, !flat_given, !flat_values, K, K2. do 3 f_equal. induction (af_sorts f) as [|[e d] ss IH]; [reflexivity|]. cbn [map fst snd flat_map]. rewrite IH, (relabel_functions e []). reflexivity.
  - pose proof (keeps_option c (fun e _ => relabel_functions e) l) as K2. destruct (SubModel.relabel_option l c) as [c' l2]. cbn [fst] in *. unfold measure_exprs. cbn [m_function m_filter given]. rewrite !flat_map_app, !flat_given, K2. reflexivity.
Qed.
Lemma flat_concat {A B} (f : A -> list B) l : flat_map f (concat l) = flat_map (flat_map f) l.
Proof. induction l as [|a l IH]; [reflexivity|]. cbn [concat flat_map]. rewrite flat_map_app, IH. reflexivity. Qed.
Lemma body_functions b l : flat_map e_functions (body_exprs (SubModel.relabel_body l b)) = flat_map e_functions (body_exprs b).
Proof.
  assert (O : forall o l, given e_functions (fst (SubModel.relabel_option l o)) = given e_functions o) by (intros o l0; apply (keeps_option o (fun e _ => relabel_functions e) l0)).
  destruct b as [so sc f g p|cd|o ct|gs ms|l0|l0|t0 e0 p0| |nm]; cbn [SubModel.relabel_body body_exprs]; try reflexivity.
  - rewrite !flat_map_app, !flat_given, !O. reflexivity.
  - rewrite !flat_given, O. reflexivity.
  - assert (K : keeps (SubModel.through (SubModel.through SubModel.relabel)) (flat_map (flat_map e_functions)) gs) by (apply keeps_through, Forall_forall; intros g _; apply keeps_through, Forall_forall; intros e _; apply relabel_functions).
    specialize (K l). destruct (SubModel.through (SubModel.through SubModel.relabel) l gs) as [gs' l']. cbn [fst] in K. cbn [body_exprs]. rewrite !flat_map_app, !flat_concat, K. f_equal.
    rewrite !flat_flat. apply (keeps_through SubModel.relabel_measure (fun m => flat_map e_functions (measure_exprs m)) ms). apply Forall_forall. intros m _. apply measure_functions.
  - assert (K : keeps (SubModel.through (fun l s => let '(x, l) := SubModel.relabel l (fst s) in ((x, snd s), l))) (flat_map (fun s : sort => e_functions (fst s))) l0).
    { apply keeps_through, Forall_forall. intros [e d] _ l1. cbn [fst snd]. pose proof (relabel_functions e l1) as K. destruct (SubModel.relabel l1 e). exact K. }
    specialize (K l). rewrite !flat_map_concat_map, !map_map, <- !flat_map_concat_map. exact K.
  - apply (keeps_through SubModel.relabel e_functions l0). apply Forall_forall. intros e _. apply relabel_functions.
  - pose proof (O e0 l) as K1. destruct (SubModel.relabel_option l e0) as [e' l']. cbn [fst body_exprs] in *. rewrite !flat_map_app, !flat_given, K1, O. reflexivity.
Qed.
(** the same for the columns *)
Lemma keeps_option_steps (o : option expr) : (forall e, o = Some e -> keeps SubModel.relabel e_steps e) -> keeps SubModel.relabel_option (given e_steps) o.
Proof. intros H l. destruct o as [e|]; [|reflexivity]. cbn [SubModel.relabel_option]. specialize (H e eq_refl l). destruct (SubModel.relabel l e). exact H. Qed.
Definition arg_steps (a : arg expr) : list N := match a with AValue x => e_steps x | _ => [] end.
Lemma keeps_arg_steps a : match a with AValue x => keeps SubModel.relabel e_steps x | _ => True end -> keeps SubModel.relabel_arg arg_steps a.
Proof. destruct a as [x|s|t|]; intros H l; try reflexivity. cbn [SubModel.relabel_arg]. specialize (H l). destruct (SubModel.relabel l x). exact H. Qed.
Lemma relabel_steps e : keeps SubModel.relabel e_steps e.
Proof.
  induction e as [|v|s r|r|r|f args deprecated options ty Ha Hd|ifs els Hi He|e ty f IH|n|xs n Hl|q n|op red e n He|u] using PrintFacts.expr_ind2; intros l; try reflexivity.
  - rewrite relabel_fun. assert (K : keeps (SubModel.through SubModel.relabel_arg) (flat_map arg_steps) args) by (apply keeps_through; eapply Forall_impl; [|exact Ha]; intros a; apply keeps_arg_steps). specialize (K l). destruct (SubModel.through SubModel.relabel_arg l args). cbn [fst e_steps] in *. f_equal. exact K.
  - rewrite relabel_if. assert (K : keeps (SubModel.through relabel_branch) (flat_map (fun c : option expr * option expr => let '(i, t) := c in given e_steps i ++ given e_steps t)) ifs).
    { apply keeps_through. eapply Forall_impl; [|exact Hi]. intros [i t] [H1 H2] l1. cbn [fst snd] in *. pose proof (keeps_option_steps i H1 l1) as K1. unfold relabel_branch. cbn [fst snd]. destruct (SubModel.relabel_option l1 i) as [i' l2]. pose proof (keeps_option_steps t H2 l2) as K2. destruct (SubModel.relabel_option l2 t). cbn [fst] in *. rewrite K1, K2. reflexivity. }
    specialize (K l). destruct (SubModel.through relabel_branch l ifs) as [ifs' l']. pose proof (keeps_option_steps els He l') as K2. destruct (SubModel.relabel_option l' els). cbn [fst e_steps] in *. rewrite K2. f_equal. exact K.
  - cbn [SubModel.relabel]. specialize (IH l). destruct (SubModel.relabel l e). exact IH.
  - cbn [SubModel.relabel]. destruct (SubModel.take l n n). reflexivity.
  - rewrite relabel_in. pose proof (keeps_through _ _ xs Hl l) as K. destruct (SubModel.through SubModel.relabel l xs) as [xs' l']. destruct (SubModel.take l' n None). exact K.
  - cbn [SubModel.relabel]. destruct (SubModel.take l n None). reflexivity.
  - cbn [SubModel.relabel]. pose proof (keeps_option_steps e He l) as K. unfold SubModel.relabel_option in K. destruct e as [e|]; [destruct (SubModel.relabel l e) as [e' l']; destruct (SubModel.take l' n None)|destruct (SubModel.take l n None)]; exact K.
Qed.
Lemma flat_given_steps (o : option expr) : flat_map e_steps (some o) = given e_steps o.
Proof. destruct o; [apply app_nil_r|reflexivity]. Qed.
Lemma flat_values_steps (l : list (arg expr)) : flat_map e_steps (values l) = flat_map arg_steps l.
Proof. induction l as [|[x|s|t|] l IH]; cbn [values flat_map arg_steps app]; try exact IH; [reflexivity|]. fold (values l). rewrite IH. reflexivity. Qed.
Lemma measure_steps m : keeps SubModel.relabel_measure (fun m => flat_map e_steps (measure_exprs m)) m.
Proof.
  intros l. destruct m as [[f|] c]; unfold SubModel.relabel_measure; cbn [m_function m_filter].
  - assert (K : keeps (SubModel.through SubModel.relabel_arg) (flat_map arg_steps) (af_args f)) by (apply keeps_through, Forall_forall; intros a _; apply keeps_arg_steps; destruct a; auto using relabel_steps). specialize (K l).
    destruct (SubModel.through SubModel.relabel_arg l (af_args f)) as [a l']. pose proof (keeps_option_steps c (fun e _ => relabel_steps e) l') as K2. destruct (SubModel.relabel_option l' c) as [c' l2]. cbn [fst] in *. unfold measure_exprs. cbn [m_function m_filter given].
    unfold function_exprs. cbn [af_args af_deprecated af_sorts]. rewrite !flat_map_app, !flat_given_steps, !flat_values_steps, K, K2. do 3 f_equal. induction (af_sorts f) as [|[e d] ss IH]; [reflexivity|]. cbn [map fst snd flat_map]. rewrite IH, (relabel_steps e []). reflexivity.
  - pose proof (keeps_option_steps c (fun e _ => relabel_steps e) l) as K2. destruct (SubModel.relabel_option l c) as [c' l2]. cbn [fst] in *. unfold measure_exprs. cbn [m_function m_filter given]. rewrite !flat_map_app, !flat_given_steps, K2. reflexivity.
Qed.
Lemma body_steps b l : flat_map e_steps (body_exprs (SubModel.relabel_body l b)) = flat_map e_steps (body_exprs b).
Proof.
  assert (O : forall o l, given e_steps (fst (SubModel.relabel_option l o)) = given e_steps o) by (intros o l0; apply (keeps_option_steps o (fun e _ => relabel_steps e) l0)).
  destruct b as [so sc f g p|cd|o ct|gs ms|l0|l0|t0 e0 p0| |nm]; cbn [SubModel.relabel_body body_exprs]; try reflexivity.
  - rewrite !flat_map_app, !flat_given_steps, !O. reflexivity.
  - rewrite !flat_given_steps, O. reflexivity.
  - assert (K : keeps (SubModel.through (SubModel.through SubModel.relabel)) (flat_map (flat_map e_steps)) gs) by (apply keeps_through, Forall_forall; intros g _; apply keeps_through, Forall_forall; intros e _; apply relabel_steps).
    specialize (K l). destruct (SubModel.through (SubModel.through SubModel.relabel) l gs) as [gs' l']. cbn [fst] in K. cbn [body_exprs]. rewrite !flat_map_app, !flat_concat, K. f_equal.
    rewrite !flat_flat. apply (keeps_through SubModel.relabel_measure (fun m => flat_map e_steps (measure_exprs m)) ms). apply Forall_forall. intros m _. apply measure_steps.
  - assert (K : keeps (SubModel.through (fun l s => let '(x, l) := SubModel.relabel l (fst s) in ((x, snd s), l))) (flat_map (fun s : sort => e_steps (fst s))) l0).
    { apply keeps_through, Forall_forall. intros [e d] _ l1. cbn [fst snd]. pose proof (relabel_steps e l1) as K. destruct (SubModel.relabel l1 e). exact K. }
    specialize (K l). rewrite !flat_map_concat_map, !map_map, <- !flat_map_concat_map. exact K.
  - apply (keeps_through SubModel.relabel e_steps l0). apply Forall_forall. intros e _. apply relabel_steps.
  - pose proof (O e0 l) as K1. destruct (SubModel.relabel_option l e0) as [e' l']. cbn [fst body_exprs] in *. rewrite !flat_map_app, !flat_given_steps, K1, O. reflexivity.
Qed.

(** * The trees *)
Lemma sfill_eq tab known recorded n ins sub : SubModel.sfill tab known recorded (SubModel.SRel n ins sub) =
  (l <- TreeModel.omap_list (SubModel.sfill tab known recorded) ins ;;
   m <- TreeModel.omap_list (fun p => x <- SubModel.sfill tab known recorded (snd p) ;; Ok (fst p, x)) sub ;;
   match find_rel n known with
   | None => Ok (SubModel.QNode (Relation (BOther $"unknown") []) None None l m)
   | Some (r, _) => s <- message_source tab None (sources_of (r_body r)) ;;
                    Ok (SubModel.QNode (message (SubModel.relabeled (recorded n) (map fst sub) r)) s (message_schema tab (schemas_of (r_body r))) l m)
   end).
Proof.
  cbn [SubModel.sfill]. assert (E : (fix go (l : list SubModel.srel) : outcome (list SubModel.qtree) := match l with [] => Ok [] | i :: l => x <- SubModel.sfill tab known recorded i ;; r <- go l ;; Ok (x :: r) end) ins = TreeModel.omap_list (SubModel.sfill tab known recorded) ins).
  { induction ins as [|i ins IH]; [reflexivity|]. cbn [TreeModel.omap_list]. rewrite IH. reflexivity. }
  assert (E' : (fix go (l : list (str * SubModel.srel)) : outcome (list (str * SubModel.qtree)) := match l with [] => Ok [] | (k, i) :: l => x <- SubModel.sfill tab known recorded i ;; r <- go l ;; Ok ((k, x) :: r) end) sub =
               TreeModel.omap_list (fun p => x <- SubModel.sfill tab known recorded (snd p) ;; Ok (fst p, x)) sub).
  { clear E. induction sub as [|[k i] sub IH]; [reflexivity|]. cbn [TreeModel.omap_list fst snd]. rewrite IH. destruct (SubModel.sfill tab known recorded i); reflexivity. }
  rewrite E, E'. reflexivity.
Qed.
Section Trees.
  Variables (pn : list pnode) (tab : table) (rp : TreeModel.read_plan) (known : list known_rel) (F : N -> Prop).
  Notation rels := (relations_of pn).
  Hypothesis sections : TreeModel.r_rels rp = map section_of rels.
  Hypothesis unique : NoDup (map n_name rels).
  Hypothesis inputs : forall x y, In y (inputs_of rp x) -> feeds pn y x.
  Hypothesis info : forall n, In n rels -> exists r d, find_rel (n_name n) known = Some (r, d) /\ read_as rp F n r.
  Hypothesis circles : forall n k, In n rels -> N.to_nat k <= length (fst (SubModel.around rp (n_name n))) -> exists o, within pn k (n_name n) o.
  Notation seen := (SubModel.seen_subs rels).
  Notation recorded := (SubModel.recorded_subs rp).
  Notation build := (SubModel.sbuild rp seen).
  Notation fill := (SubModel.sfill tab known recorded).
  Lemma first_named (l : list rnode) n : NoDup (map n_name l) -> In n l -> find (fun r => n_name r =s n_name n) l = Some n.
  Proof.
    induction l as [|m l IH]; [intros _ []|]. cbn [map find]. intros ND I. inversion ND as [|? ? N ND']; subst. destruct (seq_eqb_spec (n_name m) (n_name n)) as [E|E].
    - destruct I as [->|I]; [reflexivity|]. exfalso. apply N. rewrite E. apply in_map. exact I.
    - destruct I as [->|I]; [congruence|exact (IH ND' I)].
  Qed.
  Lemma find_sections (l : list rnode) x : find (fun s => TreeModel.x_name s =s x) (map section_of l) = option_map section_of (find (fun r => n_name r =s x) l).
  Proof. induction l as [|m l IH]; [reflexivity|]. cbn [map find section_of TreeModel.x_name]. destruct (n_name m =s x); [reflexivity|exact IH]. Qed.
  Lemma find_section_of n : In n rels -> TreeModel.find_section rp (n_name n) = Some (section_of n).
  Proof. intros I. unfold TreeModel.find_section. rewrite sections, find_sections, (first_named _ _ unique I). reflexivity. Qed.
  Lemma section_cases x : (exists n, In n rels /\ n_name n = x) \/ ~ In x (map n_name rels) /\ TreeModel.find_section rp x = None.
  Proof.
    destruct (in_dec (list_eq_dec Ascii.ascii_dec) x (map n_name rels)) as [I|N]; [left; apply in_map_iff in I as (n & E & I); eauto|right]. split; [exact N|]. unfold TreeModel.find_section. rewrite sections, find_sections.
    destruct (find _ rels) as [m|] eqn:E; [|reflexivity]. apply find_some in E as [I E]. apply seq_eqb_eq in E. subst x. exfalso. apply N, in_map, I.
  Qed.
  Lemma message_kind r : kind_name (r_body (message r)) = kind_name (r_body r) /\ message_subs (r_body (message r)) = message_subs (r_body r).
  Proof. destruct r as [b e]. unfold message. cbn [r_body]. destruct b; split; reflexivity. Qed.
  Lemma relabeled_kind rec l r : kind_name (r_body (SubModel.relabeled rec l r)) = kind_name (r_body r).
  Proof.
    unfold SubModel.relabeled. destruct rec; [reflexivity|]. cbn [r_body]. destruct (r_body r) as [| | |gs ms| | |t e p| |]; try reflexivity; cbn [SubModel.relabel_body].
    - destruct (SubModel.through _ l gs). reflexivity.
    - destruct (SubModel.relabel_option l e). reflexivity.
  Qed.
  Lemma relabeled_around node r l l2 : In node rels -> all_near (fun k => N.to_nat k <= length (fst (SubModel.around rp (n_name node)))) (r_body r) -> reads_around pn (n_name node) (r_body (message (SubModel.relabeled l l2 r))).
  Proof.
    intros I H e k Ie Ik. apply circles; [exact I|]. assert (J : In k (flat_map e_steps (body_exprs (r_body r)))).
    { assert (J : In k (flat_map e_steps (body_exprs (r_body (message (SubModel.relabeled l l2 r)))))) by (apply in_flat_map; eauto). rewrite (proj1 (message_body _)) in J. unfold SubModel.relabeled in J. destruct l; [exact J|]. cbn [r_body] in J. rewrite body_steps in J. exact J. }
    apply in_flat_map in J as (e' & I' & J). unfold all_near, near in H. rewrite Forall_forall in H. specialize (H e' I'). rewrite Forall_forall in H. exact (H k J).
  Qed.
  Lemma omap_each {A B} (f : A -> outcome B) l l' : TreeModel.omap_list f l = Ok l' -> Forall2 (fun a b => f a = Ok b) l l'.
  Proof.
    revert l'. induction l as [|a l IH]; intros l' H; cbn [TreeModel.omap_list] in H; [injection H as <-; constructor|]. destruct (f a) as [b| |] eqn:E; cbn [obind] in H; try discriminate. destruct (TreeModel.omap_list f l) as [bs| |]; cbn [obind] in H; try discriminate. injection H as <-. constructor; auto.
  Qed.
  Lemma labels (sub : list (str * SubModel.srel)) (m : list (str * SubModel.qtree)) : TreeModel.omap_list (fun p => x <- fill (snd p) ;; Ok (fst p, x)) sub = Ok m -> map fst m = map fst sub.
  Proof.
    intros H. apply omap_each in H. induction H as [|[k i] y sub m E _ IH]; [reflexivity|]. cbn [map]. rewrite IH. f_equal. cbn [fst snd] in E. destruct (fill i); cbn [obind] in E; try discriminate. injection E as <-. reflexivity.
  Qed.
  Lemma alone_stands n x : fill (SubModel.alone rp n) = Ok x -> Stands pn n x.
  Proof.
    unfold SubModel.alone. destruct (section_cases n) as [(node & I & <-)|[N E]].
    - rewrite (find_section_of node I). cbn [section_of TreeModel.x_body]. rewrite sfill_eq. cbn [TreeModel.omap_list obind map]. destruct (info node I) as (r & d & -> & R1 & _ & _ & R4). destruct (message_source tab None _) as [src| |]; cbn [obind]; try discriminate. intros H. injection H as <-.
      apply (ST_relation pn node _ _ _ []); [exact I| |exact (relabeled_around node r _ _ I R4)|constructor..|intros Q; contradiction]. rewrite (proj1 (message_kind _)), relabeled_kind. exact R1.
    - rewrite E, sfill_eq. cbn [TreeModel.omap_list obind map]. destruct (find_rel [] known) as [[r d]|]; [destruct (message_source tab None _) as [src| |]; cbn [obind]; try discriminate|]; intros H; injection H as <-; constructor; exact N.
  Qed.
  (** a relation with its inputs and with subqueries as many as are attached *)
  Lemma full_stands node ks ins sub x : In node rels -> Forall (fun k => In k (inputs_of rp (n_name node))) ks -> Forall2 (fun k t => forall y, fill t = Ok y -> Stands pn k y) ks ins -> Forall (fun s => forall y, fill (snd s) = Ok y -> Stands pn (fst s) y) sub ->
    to_lower (n_kind node) <> $"read" -> map fst sub = firstn (length (written_subs node)) (named_in node) -> fill (SubModel.SRel (n_name node) ins sub) = Ok x -> Stands pn (n_name node) x.
  Proof.
    intros I Hk Hi Hs Hr Hl E. rewrite sfill_eq in E. destruct (TreeModel.omap_list fill ins) as [l| |] eqn:El; cbn [obind] in E; try discriminate E. destruct (TreeModel.omap_list _ sub) as [m| |] eqn:Em; cbn [obind] in E; try discriminate E.
    destruct (info node I) as (r & d & Fn & R1 & _ & R3 & R4). rewrite Fn in E. destruct (message_source tab None _) as [src| |]; cbn [obind] in E; try discriminate E. injection E as <-. pose proof (labels _ _ Em) as Lm.
    apply (ST_relation pn node _ _ _ ks); [exact I| |exact (relabeled_around node r _ _ I R4)| | | |].
    - rewrite (proj1 (message_kind _)), relabeled_kind. exact R1.
    - apply omap_each in El. clear -Hi El. revert l El. induction Hi as [|k t ks ins H _ IH]; intros l El; inversion El; subst; constructor; auto.
    - eapply Forall_impl; [|exact Hk]. intros k. apply inputs.
    - apply omap_each in Em. clear -Hs Em. revert m Em. induction Hs as [|[k t] sub H _ IH]; intros m Em; inversion Em as [|? y ? m' E1 E2]; subst; constructor; auto. cbn [fst snd] in *. destruct (fill t) as [z| |]; cbn [obind] in E1; try discriminate E1. injection E1 as <-. exact (H z eq_refl).
    - intros _. rewrite Lm. split; [|exact Hl]. rewrite (proj2 (message_kind _)). specialize (R3 Hr).
      assert (Ln : length (map fst sub) = length (message_subs (r_body r))) by (rewrite Hl, firstn_length, (Permutation_length R3), map_length; pose proof (named_fewer node); lia).
      assert (Nm : Forall named (message_subs (r_body r))). { apply Forall_forall. intros y J. apply (Permutation_in _ R3) in J. apply in_map_iff in J as (z & <- & _). discriminate. }
      unfold SubModel.relabeled, SubModel.recorded_subs. rewrite (find_section_of node I). unfold SubModel.section_subs. cbn [section_of TreeModel.x_exprs]. rewrite named_node. destruct (named_in node) as [|a q] eqn:Q; [|cbn [r_body]; exact (proj1 (body_fits _ _ Ln Nm))].
      rewrite firstn_nil in Hl. rewrite Hl in *. cbn [length map] in *. destruct (message_subs (r_body r)); [reflexivity|discriminate Ln].
  Qed.
  Lemma set_written node : In node rels -> to_lower (n_kind node) = $"set" -> written_subs node = [].
  Proof.
    intros I K. destruct (info node I) as (r & d & _ & R1 & _ & R3 & _). rewrite K in *. specialize (R3 ltac:(discriminate)). destruct (r_body r); try discriminate R1; cbn [message_subs] in R3; apply Permutation_nil, map_eq_nil in R3; exact R3.
  Qed.
  Hypothesis kinds_known : forall n, In n rels -> exists b, empty_body (n_kind n) = Some b.
  Lemma node_seen_subs node : In node rels -> seen (n_name node) = length (written_subs node).
  Proof. intros I. unfold SubModel.seen_subs. rewrite (first_named _ _ unique I). apply node_seen. Qed.
  Lemma built_stands fuel : forall n t x, build fuel n = Ok t -> fill t = Ok x -> Stands pn n x.
  Proof.
    induction fuel as [|fuel IH]; intros n t x B Fx; [discriminate B|]. cbn [SubModel.sbuild] in B. destruct (section_cases n) as [(node & I & <-)|[N E]]; [|rewrite E in B; injection B as <-; exact (alone_stands n x Fx)].
    rewrite (find_section_of node I) in B. cbn [section_of TreeModel.x_kind TreeModel.x_body] in B. unfold SubModel.section_subs in B. cbn [section_of TreeModel.x_exprs] in B. rewrite named_node, (node_seen_subs node I) in B.
    set (d := TreeModel.rel_data rp (n_name node)) in *.
    assert (Alone : Ok (SubModel.alone rp (n_name node)) = Ok t -> Stands pn (n_name node) x) by (intros Q; injection Q as <-; exact (alone_stands _ _ Fx)).
    assert (Fin : forall ks ins, Forall (fun k => In k (inputs_of rp (n_name node))) ks -> Forall2 (fun k t => build fuel k = Ok t) ks ins -> to_lower (n_kind node) <> $"read" ->
      (y <- TreeModel.omap_list (fun q => r <- build fuel q ;; Ok (q, r)) (firstn (length (written_subs node)) (named_in node)) ;; if length (named_in node) <? length (written_subs node) then Throw EInvalidState else Ok (SubModel.SRel (n_name node) ins y)) = Ok t -> Stands pn (n_name node) x).
    { intros ks ins Hk Hi Hr Q. destruct (TreeModel.omap_list _ _) as [sub| |] eqn:Es; cbn [obind] in Q; try discriminate Q. destruct (_ <? _); [discriminate Q|]. injection Q as <-. apply omap_each in Es.
      apply (full_stands node ks ins sub x I Hk); [| |exact Hr| |exact Fx].
      - clear -Hi IH. induction Hi; constructor; eauto.
      - clear -Es IH. induction Es as [|q [k i] l sub E _ IHl]; constructor; auto. cbn [fst snd]. destruct (build fuel q) as [z| |] eqn:Bq; cbn [obind] in E; try discriminate E. injection E as <- <-. intros y. exact (IH q z y Bq).
      - clear -Es. induction Es as [|q [k i] l sub E _ IHl]; [reflexivity|]. cbn [map fst]. rewrite IHl. f_equal. destruct (build fuel q) as [z| |]; cbn [obind] in E; try discriminate E. injection E as -> _. reflexivity. }
    assert (One : to_lower (n_kind node) <> $"read" -> match TreeModel.getNextSinglePipeline d with None => Throw EInvalidState | Some i => r <- build fuel i ;;
      y <- TreeModel.omap_list (fun q => r <- build fuel q ;; Ok (q, r)) (firstn (length (written_subs node)) (named_in node)) ;; if length (named_in node) <? length (written_subs node) then Throw EInvalidState else Ok (SubModel.SRel (n_name node) [r] y) end = Ok t -> Stands pn (n_name node) x).
    { intros Hr Q. destruct (TreeModel.getNextSinglePipeline d) as [i|] eqn:G; [|discriminate Q]. destruct (build fuel i) as [r| |] eqn:Bi; cbn [obind] in Q; try discriminate Q. apply (Fin [i] [r]); [|constructor; [exact Bi|constructor]|exact Hr|exact Q].
      constructor; [|constructor]. unfold inputs_of. fold d. unfold TreeModel.getNextSinglePipeline in G. destruct (PipeModel.cont d) as [c|]; [injection G as ->; left; reflexivity|]. destruct (PipeModel.news d) as [|a [|b r0]]; try discriminate. injection G as ->. left. reflexivity. }
    assert (Two : to_lower (n_kind node) <> $"read" -> match PipeModel.news d with [l; r] => a <- build fuel l ;; b <- build fuel r ;;
      y <- TreeModel.omap_list (fun q => r <- build fuel q ;; Ok (q, r)) (firstn (length (written_subs node)) (named_in node)) ;; (if length (named_in node) <? length (written_subs node) then Throw EInvalidState else Ok (SubModel.SRel (n_name node) [a; b] y)) | _ => Ok (SubModel.alone rp (n_name node)) end = Ok t -> Stands pn (n_name node) x).
    { intros Hr Q. destruct (PipeModel.news d) as [|l [|r [|z q]]] eqn:G; try exact (Alone Q). destruct (build fuel l) as [a| |] eqn:Bl; cbn [obind] in Q; try discriminate Q. destruct (build fuel r) as [b| |] eqn:Br; cbn [obind] in Q; try discriminate Q.
      apply (Fin [l; r] [a; b]); [|constructor; [exact Bl|constructor; [exact Br|constructor]]|exact Hr|exact Q]. unfold inputs_of. fold d. rewrite G. repeat constructor; apply in_or_app; right; cbn; auto. }
    assert (Many : to_lower (n_kind node) = $"set" -> (xs <- TreeModel.omap_list (build fuel) (PipeModel.news d) ;; Ok (SubModel.SRel (n_name node) xs [])) = Ok t -> Stands pn (n_name node) x).
    { intros K Q. destruct (TreeModel.omap_list (build fuel) (PipeModel.news d)) as [xs| |] eqn:Ex; cbn [obind] in Q; try discriminate Q. injection Q as <-. apply omap_each in Ex.
      apply (full_stands node (PipeModel.news d) xs [] x I); [apply Forall_forall; intros k J; unfold inputs_of; fold d; apply in_or_app; right; exact J| |constructor|rewrite K; discriminate|rewrite (set_written node I K); reflexivity|exact Fx].
      clear -Ex IH. induction Ex; constructor; eauto. }
    destruct (kinds_known node I) as (b0 & B0). destruct (kinds _ _ B0) as [[K1 K2]|[[[K1 K2]|[K1 K2]]|[K1|[K1 K2]]]].
    - rewrite K2 in B. exact (Alone B).
    - rewrite K2 in B. apply Two; [rewrite K1; discriminate|exact B].
    - rewrite K2 in B. apply Two; [rewrite K1; discriminate|exact B].
    - assert (Ks : kind_read (n_kind node) = TreeModel.KSet). { unfold kind_read. rewrite B0. unfold empty_body in B0. rewrite K1 in B0. cbn in B0. injection B0 as <-. reflexivity. }
      rewrite Ks in B. exact (Many K1 B).
    - assert (Hr : to_lower (n_kind node) <> $"read") by (intros Q; rewrite Q in K1; cbn in K1; repeat destruct K1 as [K1|K1]; discriminate || exact K1).
      cbn [In] in K2. repeat destruct K2 as [K2|K2]; [rewrite <- K2 in B; exact (One Hr B)..|destruct K2].
  Qed.
End Trees.

(** * Functions *)
Section Measures.
  Variable F : N -> Prop.
  Definition calls (f : aggregate_function) : Prop := F (af_ref f) \/ no_call f /\ af_ref f = 0%N.
  Lemma measure_calls ms : forall l, Forall (fun f => F (af_ref f) \/ af_args f = [] /\ af_ref f = 0%N) (flat_map (fun m => some (m_function m)) ms) ->
    Forall (fun f => F (af_ref f) \/ af_args f = [] /\ af_ref f = 0%N) (flat_map (fun m => some (m_function m)) (fst (SubModel.through SubModel.relabel_measure l ms))).
  Proof.
    induction ms as [|m ms IH]; intros l H; [constructor|]. cbn [flat_map] in H. apply Forall_app in H as [H1 H2]. cbn [SubModel.through].
    assert (K : Forall (fun f => F (af_ref f) \/ af_args f = [] /\ af_ref f = 0%N) (some (m_function (fst (SubModel.relabel_measure l m))))).
    { destruct m as [[f|] c]; unfold SubModel.relabel_measure; cbn [m_function m_filter] in *.
      - destruct (SubModel.through SubModel.relabel_arg l (af_args f)) as [a l'] eqn:E. destruct (SubModel.relabel_option l' c). cbn [fst m_function some] in *. inversion H1 as [|? ? G _]; subst. constructor; [|constructor]. cbn [af_ref af_args]. destruct G as [G|[G1 G2]]; [left; exact G|right]. rewrite G1 in E. cbn in E. injection E as <- _. auto.
      - destruct (SubModel.relabel_option l c). constructor. }
    destruct (SubModel.relabel_measure l m) as [m' l']. specialize (IH l' H2). destruct (SubModel.through _ l' ms). cbn [fst flat_map] in *. apply Forall_app. auto.
  Qed.
  Definition fine_body (b : body) : Prop := Forall F (flat_map e_functions (body_exprs b)) /\ Forall (fun f => F (af_ref f) \/ af_args f = [] /\ af_ref f = 0%N) (body_measures b).
  Lemma fine_relabel b l : fine_body b -> fine_body (SubModel.relabel_body l b).
  Proof.
    intros [H1 H2]. split; [rewrite body_functions; exact H1|]. destruct b as [| | |gs ms| | |t e p| |]; cbn [SubModel.relabel_body]; try exact H2.
    - destruct (SubModel.through _ l gs) as [gs' l']. cbn [body_measures] in *. apply measure_calls. exact H2.
    - destruct (SubModel.relabel_option l e). constructor.
  Qed.
  Lemma all_fine b : all_use F (fun _ => True) b -> fine_body b.
  Proof.
    intros [H1 H2]. split.
    - rewrite Forall_flat_map. eapply Forall_impl; [|exact H1]. intros e [U _]. exact U.
    - eapply Forall_impl; [|exact H2]. intros f [U|N]; [left; exact U|right; rewrite N; auto].
  Qed.
  Lemma message_fine r : fine_body (r_body r) -> fine_body (r_body (message r)).
  Proof. destruct (message_body r) as (M1 & M2 & _). unfold fine_body. rewrite M1, M2. auto. Qed.
End Measures.
(** Induction over trees of symbols *)
Fixpoint srel_ind2 (P : SubModel.srel -> Prop) (H : forall n ins sub, Forall P ins -> Forall (fun s => P (snd s)) sub -> P (SubModel.SRel n ins sub)) (t : SubModel.srel) : P t.
Proof.
  destruct t as [n ins sub]. apply H.
  - induction ins as [|i ins IH]; constructor; [apply srel_ind2, H|exact IH].
  - induction sub as [|[k i] sub IH]; constructor; [cbn [snd]; apply srel_ind2, H|exact IH].
Qed.
Lemma fill_fine F tab known recorded : (forall n r d, find_rel n known = Some (r, d) -> all_use F (fun _ => True) (r_body r)) -> forall t x, SubModel.sfill tab known recorded t = Ok x -> Forall (fun y => fine_body F (r_body (q_rel y))) (qnodes x).
Proof.
  intros K t. induction t as [n ins sub Hi Hs] using srel_ind2. intros x E. rewrite sfill_eq in E. destruct (TreeModel.omap_list (SubModel.sfill tab known recorded) ins) as [l| |] eqn:El; cbn [obind] in E; try discriminate E. destruct (TreeModel.omap_list _ sub) as [m| |] eqn:Em; cbn [obind] in E; try discriminate E.
  assert (A : Forall (fun y => fine_body F (r_body (q_rel y))) (flat_map qnodes l ++ flat_map (fun s => let '(_, q) := s in qnodes q) m)).
  { apply Forall_app. split.
    - apply omap_each in El. rewrite Forall_forall in Hi. apply Forall_flat_map. clear E Em. revert Hi. induction El as [|a b ins l E1 _ IH]; intros Hi; [constructor|]. constructor; [exact (Hi a (or_introl eq_refl) b E1)|]. apply IH. intros y J. apply Hi. right. exact J.
    - apply omap_each in Em. rewrite Forall_forall in Hs. apply Forall_flat_map. clear E El. revert Hs. induction Em as [|[k i] b sub m E1 _ IH]; intros Hs; [constructor|]. constructor; [|apply IH; intros y J; apply Hs; right; exact J]. cbn [fst snd] in E1. destruct (SubModel.sfill tab known recorded i) as [z| |] eqn:Ez; cbn [obind] in E1; try discriminate E1. injection E1 as <-. exact (Hs (k, i) (or_introl eq_refl) z Ez). }
  destruct (find_rel n known) as [[r d]|] eqn:Fn.
  - destruct (message_source tab None _) as [s| |]; cbn [obind] in E; try discriminate E. injection E as <-. cbn [qnodes]. constructor; [|exact A]. cbn [q_rel]. apply message_fine. unfold SubModel.relabeled. destruct (recorded n); [|apply fine_relabel]; apply all_fine; eauto.
  - injection E as <-. cbn [qnodes]. constructor; [|exact A]. split; constructor.
Qed.
(** * Whole texts *)
Lemma sfrom_text_parts s p : SubModel.from_text s = Ok (Some p, []) -> exists nodes tab rp first known l,
  parse s = Some nodes /\ symbols nodes = Ok (tab, []) /\ TreeModel.readText (SubModel.text_of nodes tab) = Ok (rp, []) /\
  SubModel.visit_nodes (DeclModel.resolve_function (entries 0 0 nodes)) tab rp first false SymbolModel.empty_table [] (relations_of nodes) = Ok (known, []) /\
  SubModel.soutput rp (SubModel.seen_subs (relations_of nodes)) (Datatypes.S (length (relations_of nodes))) = Ok l /\ SubModel.sfill_all tab known (SubModel.recorded_subs rp) l = Ok (SubModel.q_rels p) /\
  SubModel.q_decls p = DeclModel.outputFunctions (entries 0 0 nodes).
Proof.
  unfold SubModel.from_text. destruct (parse s) as [nodes|]; [|discriminate]. destruct (symbols nodes) as [[tab e1]| |] eqn:E1; cbn [obind]; try discriminate.
  destruct (TreeModel.readText (SubModel.text_of nodes tab)) as [[rp e2]| |] eqn:E2; cbn [obind]; try discriminate.
  destruct (SubModel.visit_nodes _ _ _ [] true _ _ _) as [[first e3]| |]; cbn [obind]; try discriminate. destruct (map WPass e1 ++ map WTree e2 ++ filter reported_first e3) eqn:E; [|discriminate].
  apply app_eq_nil in E as [Ea E]. apply app_eq_nil in E as [Eb _]. apply map_eq_nil in Ea, Eb. subst e1 e2.
  destruct (SubModel.visit_nodes _ _ _ first false _ _ _) as [[known e4]| |] eqn:E4; cbn [obind]; try discriminate. destruct (SubModel.soutput _ _ _) as [l| |] eqn:El; cbn [obind]; try discriminate.
  destruct (SubModel.sfill_all tab known _ l) as [rels| |] eqn:Ef; cbn [obind]; try discriminate. intros H. injection H as <- ->. exists nodes, tab, rp, first, known, l. repeat split; assumption || reflexivity.
Qed.
Lemma sfill_all_each tab known recorded l rels : SubModel.sfill_all tab known recorded l = Ok rels -> Forall2 (fun a b => SubModel.sfill tab known recorded (fst a) = Ok (fst b) /\ snd b = Some (snd a)) l rels.
Proof.
  revert rels. induction l as [|[t ns] l IH]; intros rels H; cbn [SubModel.sfill_all] in H; [injection H as <-; constructor|]. destruct (SubModel.sfill tab known recorded t) as [x| |] eqn:E; cbn [obind] in H; try discriminate. destruct (SubModel.sfill_all tab known recorded l) as [r| |]; cbn [obind] in H; try discriminate. injection H as <-. constructor; auto.
Qed.
Lemma find_rel_names n (l : list known_rel) r d : find_rel n l = Some (r, d) -> In n (map fst l).
Proof. intros H. apply find_rel_in in H. apply in_map_iff. exists (n, (r, d)). auto. Qed.
Theorem functions_declared_everywhere s p : SubModel.from_text s = Ok (Some p, []) -> forall t names, In (t, names) (SubModel.q_rels p) ->
  Forall (fun y => fine_body (fun f => exists d, In d (SubModel.q_decls p) /\ DeclModel.d_anchor d = f) (r_body (q_rel y))) (qnodes t).
Proof.
  intros H t names I. destruct (sfrom_text_parts s p H) as (nodes & tab & rp & first & known & l & Ep & Es & Er & Ev & El & Ef & Ed). set (F := fun f => exists d, In d (SubModel.q_decls p) /\ DeclModel.d_anchor d = f).
  assert (HF : forall n f, DeclModel.resolve_function (entries 0 0 nodes) n = Some f -> F f).
  { intros n f E. apply found_function in E as (g & Ig & <-). unfold F. rewrite Ed. destruct (DeclFacts.output_functions (entries 0 0 nodes)) as (w & wo & -> & Pm & _).
    exists (DeclModel.binary_decl (entries 0 0 nodes) g). split; [|reflexivity]. apply in_map. apply (Permutation_in _ (Permutation_sym Pm)). exact Ig. }
  destruct (text_parts _ _ _ Er) as (_ & ND & R & _). destruct (visit_all _ _ _ _ F HF _ _ _ _ Ev R ND) as (Kn & _ & K3).
  apply sfill_all_each in Ef. destruct (DeclFacts.Forall2_in_r _ _ _ _ Ef I) as (a & _ & Ea & _). cbn [fst] in Ea. refine (fill_fine F tab known _ _ _ _ Ea).
  intros n r d Fn. pose proof (find_rel_names _ _ _ _ Fn) as J. rewrite Kn in J. cbn [map app] in J. apply in_map_iff in J as (node & <- & J). destruct (K3 node J) as (_ & r' & d' & Fn' & (_ & U & _)). rewrite Fn in Fn'. injection Fn' as <- _. exact U.
Qed.
(** a root of the plan is what the first pipeline into a relation comes from that is in no subquery, or a relation by itself *)
Theorem subqueries_stand s p nodes : SubModel.from_text s = Ok (Some p, []) -> parse s = Some nodes -> forall t names, In (t, names) (SubModel.q_rels p) ->
  exists n m, Stands nodes n t /\ (forall r, In r (relations_of nodes) -> ~ In m (named_in r)) /\ (n = m /\ names = Some [] \/ feeds nodes n m).
Proof.
  intros H Hp t names I. destruct (sfrom_text_parts s p H) as (nodes' & tab & rp & first & known & l & Ep & Es & Er & Ev & El & Ef & Ed). rewrite Hp in Ep. injection Ep as <-.
  destruct (text_parts _ _ _ Er) as (Sc & ND & R & Lk & _ & Un). destruct (visit_all _ _ _ _ (fun _ => True) (fun _ _ _ => Logic.I) _ _ _ _ Ev R ND) as (Kn & _ & K3).
  apply sfill_all_each in Ef. destruct (DeclFacts.Forall2_in_r _ _ _ _ Ef I) as (a & Ia & Ea & En). cbn [fst snd] in Ea, En. unfold SubModel.soutput in El. apply omap_each in El. destruct (DeclFacts.Forall2_in_r _ _ _ _ El Ia) as ([m d] & Im & Em). cbn [fst snd] in Em.
  unfold TreeModel.starts in Im. apply in_flat_map in Im as ([m' y] & Iy & Im). destruct y as [d'|]; [|destruct Im]. destruct (existsb _ (TreeModel.parents rp)) eqn:Ex; [destruct Im|]. destruct (PipeModel.start d'); [destruct Im|]. destruct Im as [Im|[]]. injection Im as -> ->.
  assert (Nq : forall r, In r (relations_of nodes) -> ~ In m (named_in r)).
  { intros r Ir Q. assert (X : existsb (fun q => q =s m) (TreeModel.parents rp) = true); [|congruence]. apply existsb_exists. exists m. split; [|apply seq_eqb_refl]. unfold TreeModel.parents. rewrite Sc. apply in_flat_map. exists (section_of r). split; [apply in_map, Ir|]. cbn [section_of TreeModel.x_exprs]. rewrite named_node. exact Q. }
  assert (Info : forall n, In n (relations_of nodes) -> exists r d, find_rel (n_name n) known = Some (r, d) /\ read_as rp (fun _ => True) n r) by (intros n In_; destruct (K3 n In_) as [_ K]; exact K).
  assert (Ci : forall n k, In n (relations_of nodes) -> N.to_nat k <= length (fst (SubModel.around rp (n_name n))) -> exists o, within nodes k (n_name n) o) by (intros n k _; exact (around_within nodes tab rp Er (n_name n) k)).
  destruct (PipeModel.news d) as [|i q] eqn:G.
  - injection Em as <-. cbn [fst snd] in *. exists m, m. split; [exact (alone_stands nodes tab rp known _ Sc ND Info Ci m t Ea)|]. split; [exact Nq|]. left. auto.
  - destruct (SubModel.sbuild rp _ _ i) as [z| |] eqn:B; cbn [obind] in Em; try discriminate Em. injection Em as <-. cbn [fst snd] in *. exists i, m. split; [|split; [exact Nq|right]].
    + refine (built_stands nodes tab rp known _ Sc ND Lk Info Ci _ _ i z t B Ea). intros n In_. exact (proj1 (K3 n In_)).
    + apply Lk. unfold inputs_of, TreeModel.rel_data. rewrite (Un m d Iy), G. apply in_or_app. right. left. reflexivity.
Qed.
Lemma stands_everywhere pn : forall n t, Stands pn n t -> forall x, In x (qnodes t) -> exists k, Stands pn k x.
Proof.
  fix IH 3. intros n t S. destruct S as [n r src sch N|node r src sch ks ins subs I K A F1 F2 F3 G]; intros x J.
  - destruct J as [<-|[]]. exists n. constructor. exact N.
  - destruct J as [<-|J]; [exists (n_name node); apply (ST_relation pn node r src sch ks); assumption|]. apply in_app_or in J as [J|J].
    + clear F2 F3 G. revert J. induction F1 as [|k i ks ins Si F1 IHf]; [intros []|]. cbn [flat_map]. intros J. apply in_app_or in J as [J|J]; [exact (IH _ _ Si x J)|exact (IHf J)].
    + clear F2 F1 G. revert J. induction F3 as [|[k i] subs Si F3 IHf]; [intros []|]. cbn [flat_map]. intros J. apply in_app_or in J as [J|J]; [exact (IH _ _ Si x J)|exact (IHf J)].
Qed.
