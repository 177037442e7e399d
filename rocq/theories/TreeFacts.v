(** Specification and proofs for recording, printing, reading and reassembling relation trees. *)
From Verif Require Import Base BaseFacts PipeModel PipeFacts TreeModel.
From Coq Require Import Permutation Lia ZifyBool ZifyNat.

(** * Specification *)
(** All names of a tree, a relation after everything it is made of. *)
Definition names (t : rel str) : list str := map node_name (symbols t).
(** Expressions without subqueries, and expressions none of whose subqueries has a subquery in its operands. *)
Fixpoint no_sub {A} (e : expr A) : bool := match e with EOp _ args => forallb no_sub args | ESub _ _ _ _ => false end.
Fixpoint flat {A} (e : expr A) : bool := match e with EOp _ args => forallb flat args | ESub _ _ ops q => forallb no_sub ops && negb (absent q) end.
(** How many inputs and which expressions a printable relation has. *)
Definition inputs_of (k : kind) : nat := match k with KRead => 0 | KJoin | KCross => 2 | _ => 1 end.
Definition exprs_ok {A} (k : kind) (es : list (expr A)) : bool := match k with KRead => forallb no_sub es | KFetch | KCross => match es with [] => true | _ => false end | _ => forallb flat es end.
Definition node_ok {A} (t : rel A) : Prop :=
  match t with Absent => False | Rel _ k _ ins es => printable k = true /\ length ins = inputs_of k /\ exprs_ok k es = true /\ Forall (fun i => absent i = false) ins end.
(** A tree that can be printed: every relation and every subquery in it is complete. *)
Definition complete {A} (t : rel A) : Prop := absent t = false /\ Forall node_ok (symbols t).

(** * Trees *)
Definition children {A} (t : rel A) : list (rel A) :=
  match t with
  | Absent => []
  | Rel _ k _ ins es => if expressions_first k then flat_map pushes es ++ ins else ins ++ flat_map pushes es
  end.
Lemma flat_map_flat {A B C} (f : A -> list B) (g : B -> list C) (l : list A) : flat_map g (flat_map f l) = flat_map (fun a => flat_map g (f a)) l.
Proof. induction l as [|x l IH]; cbn; auto. rewrite flat_map_app. f_equal. exact IH. Qed.
Lemma flat_map_Fext {A B} (f g : A -> list B) l : Forall (fun a => f a = g a) l -> flat_map f l = flat_map g l.
Proof. induction 1 as [|x l E _ IH]; cbn; auto. rewrite E. f_equal. exact IH. Qed.
Section ExprInd.
  Variable A : Type.
  Variable P : expr A -> Prop.
  Hypothesis HOp : forall b args, Forall P args -> P (EOp b args).
  Hypothesis HSub : forall s b ops q, Forall P ops -> P (ESub s b ops q).
  Fixpoint expr_ind' (e : expr A) : P e :=
    let list := fix list (l : list (expr A)) : Forall P l := match l with [] => Forall_nil _ | e :: l => Forall_cons _ (expr_ind' e) (list l) end in
    match e with EOp b args => HOp b args (list args) | ESub s b ops q => HSub s b ops q (list ops) end.
End ExprInd.
Lemma symbols_pushes {A} (e : expr A) : symbols_e e = flat_map symbols (pushes e).
Proof.
  induction e as [b args IH|s b ops q IH] using expr_ind'; cbn.
  - rewrite flat_map_flat. apply flat_map_Fext. exact IH.
  - destruct s; cbn; rewrite ?flat_map_app, ?flat_map_flat, ?app_nil_r; auto. f_equal; [|cbn; rewrite app_nil_r; auto]. apply flat_map_Fext. exact IH.
Qed.
Lemma symbols_children {A} (t : rel A) : absent t = false -> symbols t = flat_map symbols (children t) ++ [t].
Proof.
  destruct t as [|n k b ins es]; [discriminate|]. intros _. cbn [symbols children]. f_equal.
  assert (E : flat_map symbols_e es = flat_map symbols (flat_map pushes es)) by (rewrite flat_map_flat; apply flat_map_Fext, Forall_forall; intros; apply symbols_pushes).
  destruct (expressions_first k); rewrite flat_map_app; f_equal; auto.
Qed.
Lemma symbols_absent {A} (t s : rel A) : In s (symbols t) -> absent s = false.
Proof.
  assert (E : forall e : expr A, Forall (fun q => forall s, In s (symbols q) -> absent s = false) (pushes e) -> forall s, In s (symbols_e e) -> absent s = false).
  { intros e F s' I. rewrite symbols_pushes in I. apply in_flat_map in I as (q & Iq & I). rewrite Forall_forall in F. eapply F; eauto. }
  clear E. revert t s. fix IH 1. intros [|n k b ins es] s; cbn [symbols]; [intros []|]. intros I. apply in_app_iff in I as [I|[<-|[]]]; [|reflexivity].
  assert (J : In s (flat_map symbols ins) \/ In s (flat_map symbols_e es)) by (destruct (expressions_first k); apply in_app_iff in I; tauto). clear I. destruct J as [J|J].
  - induction ins as [|i ins IHi]; [destruct J|]. cbn in J. apply in_app_iff in J as [J|J]; [exact (IH _ _ J)|auto].
  - assert (G : forall e, In s (symbols_e e) -> absent s = false).
    { fix G 1. intros [b' args|s' b' ops q]; cbn [symbols_e].
      - intros I. induction args as [|a args IHa]; [destruct I|]. cbn in I. apply in_app_iff in I as [I|I]; [exact (G _ I)|auto].
      - intros I. apply in_app_iff in I as [I|I]; [|exact (IH _ _ I)]. assert (I' : In s (flat_map symbols_e ops)) by (destruct s'; [destruct I|destruct I|destruct I|exact I]). clear I.
        induction ops as [|a ops IHa]; [destruct I'|]. cbn in I'. apply in_app_iff in I' as [I|I]; [exact (G _ I)|auto]. }
    induction es as [|e es IHe]; [destruct J|]. cbn in J. apply in_app_iff in J as [J|J]; [exact (G _ J)|auto].
Qed.
Section TreeInd.
  Variable A : Type.
  Variable P : rel A -> Prop.
  Hypothesis HA : P Absent.
  Hypothesis HR : forall t, absent t = false -> Forall P (children t) -> P t.
  Fixpoint tree_ind (t : rel A) : P t :=
    let rels := fix rels (l : list (rel A)) : Forall P l := match l with [] => Forall_nil _ | t :: l => Forall_cons _ (tree_ind t) (rels l) end in
    let fix pe (e : expr A) : Forall P (pushes e) :=
      match e return Forall P (pushes e) with
      | EOp _ args => (fix all (l : list (expr A)) : Forall P (flat_map pushes l) :=
          match l return Forall P (flat_map pushes l) with [] => Forall_nil _ | e :: l => proj2 (Forall_app _ _ _) (conj (pe e) (all l)) end) args
      | ESub s _ ops q => proj2 (Forall_app _ _ _) (conj (match s return Forall P (match s with SComparison => flat_map pushes ops | _ => [] end) with
          | SComparison => (fix all (l : list (expr A)) : Forall P (flat_map pushes l) :=
              match l return Forall P (flat_map pushes l) with [] => Forall_nil _ | e :: l => proj2 (Forall_app _ _ _) (conj (pe e) (all l)) end) ops
          | _ => Forall_nil _ end) (Forall_cons _ (tree_ind q) (Forall_nil _)))
      end in
    match t with
    | Absent => HA
    | Rel n k b ins es => HR (Rel n k b ins es) eq_refl
        (let Fi := rels ins in
         let Fe := (fix all (l : list (expr A)) : Forall P (flat_map pushes l) :=
              match l return Forall P (flat_map pushes l) with [] => Forall_nil _ | e :: l => proj2 (Forall_app _ _ _) (conj (pe e) (all l)) end) es in
         match expressions_first k as b return Forall P (if b then flat_map pushes es ++ ins else ins ++ flat_map pushes es) with
         | true => proj2 (Forall_app _ _ _) (conj Fe Fi) | false => proj2 (Forall_app _ _ _) (conj Fi Fe) end)
    end.
End TreeInd.
Lemma children_symbols {A} (t c : rel A) : absent t = false -> In c (children t) -> incl (symbols c) (symbols t).
Proof. intros Na I s Is. rewrite symbols_children by auto. apply in_or_app. left. apply in_flat_map. eauto. Qed.
Lemma complete_children {A} (t c : rel A) : complete t -> In c (children t) -> complete c.
Proof.
  intros [Na F] I. assert (N : node_ok t) by (rewrite symbols_children in F by auto; apply Forall_app in F as [_ F]; inversion F; auto).
  split.
  - destruct t as [|n k b ins es]; [destruct I|]. destruct N as (Pk & L & X & Fi). rewrite Forall_forall in Fi.
    assert (J : In c ins \/ In c (flat_map pushes es)) by (cbn in I; destruct (expressions_first k); apply in_app_iff in I; tauto). destruct J as [J|J]; auto.
    assert (G : Forall (fun e => forall c, In c (pushes e) -> flat e = true -> absent c = false) es).
    { apply Forall_forall. intros e _. clear. induction e as [b args IH|s b ops q IH] using expr_ind'; intros c; cbn.
      - intros I Fl. apply in_flat_map in I as (e & Ie & I). rewrite Forall_forall in IH. rewrite forallb_forall in Fl. apply (IH e Ie c I). auto.
      - intros I Fl. apply andb_true_iff in Fl as [Fo Fq]. apply in_app_iff in I as [I|[<-|[]]]; [|destruct (absent q); [discriminate|auto]].
        exfalso. assert (Z : flat_map pushes ops = []).
        { clear - Fo. assert (G : forall e : expr A, no_sub e = true -> pushes e = []).
          { induction e as [b args IH|] using expr_ind'; cbn; [|discriminate]. intros Fl. induction IH as [|e l E _ IHl]; cbn in *; auto. apply andb_true_iff in Fl as [F1 F2]. rewrite E, IHl; auto. }
          induction ops as [|e ops IH]; cbn in *; auto. apply andb_true_iff in Fo as [F1 F2]. rewrite G, IH; auto. }
        destruct s; try destruct I. rewrite Z in I. destruct I. }
    apply in_flat_map in J as (e & Ie & J). rewrite Forall_forall in G. apply (G e Ie c J).
    assert (NF : forall e : expr A, no_sub e = true -> flat e = true).
    { clear. induction e as [b args IH|] using expr_ind'; cbn; [|discriminate]. intros Fl. rewrite forallb_forall in *. rewrite Forall_forall in IH. intros; auto. }
    destruct k; cbn in X; try discriminate; try (rewrite forallb_forall in X; auto); destruct es; [destruct Ie|discriminate|destruct Ie|discriminate].
  - rewrite Forall_forall in *. intros s Is. apply F. eapply children_symbols; eauto.
Qed.

(** * Names *)
Lemma NoDup_app_remove_r {A} (l m : list A) : NoDup (l ++ m) -> NoDup l.
Proof. induction l as [|x l IH]; cbn; [constructor|]. intros ND. inversion ND; subst. constructor; auto. intros I. apply H1, in_or_app. auto. Qed.
Lemma NoDup_app_remove_l {A} (l m : list A) : NoDup (l ++ m) -> NoDup m.
Proof. induction l as [|x l IH]; cbn; auto. intros ND. inversion ND; auto. Qed.
Lemma names_children t : absent t = false -> names t = flat_map names (children t) ++ [node_name t].
Proof. intros Na. unfold names. rewrite symbols_children by auto. rewrite map_app. cbn. f_equal. induction (children t) as [|c l IH]; cbn; auto. rewrite map_app. f_equal. exact IH. Qed.
Lemma name_in t : absent t = false -> In (node_name t) (names t).
Proof. intros Na. rewrite names_children by auto. apply in_or_app. right. left. auto. Qed.
Lemma child_names t c : absent t = false -> In c (children t) -> incl (names c) (names t).
Proof. intros Na I x Ix. rewrite names_children by auto. apply in_or_app. left. apply in_flat_map. eauto. Qed.
Lemma nodup_split t : absent t = false -> NoDup (names t) -> NoDup (flat_map names (children t)) /\ forall c, In c (children t) -> ~ In (node_name t) (names c).
Proof.
  intros Na ND. rewrite names_children in ND by auto. split; [eapply NoDup_app_remove_r; eauto|]. intros c I J. apply NoDup_remove_2 in ND. apply ND. rewrite app_nil_r. apply in_flat_map. eauto.
Qed.
Lemma nodup_one {A} (f : A -> list str) l a : NoDup (flat_map f l) -> In a l -> NoDup (f a).
Proof. induction l as [|b l IH]; cbn; [intros _ []|]. intros ND [->|I]; [eapply NoDup_app_remove_r; eauto|]. apply IH; auto. eapply NoDup_app_remove_l; eauto. Qed.
Lemma nodup_disjoint {A} (l m : list A) x : NoDup (l ++ m) -> In x l -> ~ In x m.
Proof. induction l as [|y l IH]; cbn; [intros _ []|]. intros ND [->|I]; inversion ND; subst; [intros J; apply H1, in_or_app; auto|auto]. Qed.
Lemma nodup_same {A} (f : A -> list str) l a b x : NoDup (flat_map f l) -> In a l -> In b l -> In x (f a) -> In x (f b) -> a = b.
Proof.
  induction l as [|c l IH]; [intros _ []|]. cbn. intros ND Ia Ib Xa Xb. pose proof (NoDup_app_remove_l _ _ ND) as ND'.
  destruct Ia as [->|Ia], Ib as [->|Ib]; auto.
  - exfalso. apply (nodup_disjoint _ _ _ ND Xa). apply in_flat_map. eauto.
  - exfalso. apply (nodup_disjoint _ _ _ ND Xb). apply in_flat_map. eauto.
Qed.
Definition ins_of (t : rel str) : list (rel str) := match t with Absent => [] | Rel _ _ _ ins _ => ins end.
Lemma children_perm t : Permutation (children t) (ins_of t ++ node_pushes t).
Proof. destruct t as [|n k b ins es]; cbn; auto. destruct (expressions_first k); auto. apply Permutation_app_comm. Qed.
Lemma children_in t c : In c (children t) <-> In c (ins_of t) \/ In c (node_pushes t).
Proof. rewrite <- in_app_iff. split; apply Permutation_in; [|apply Permutation_sym]; apply children_perm. Qed.
Lemma flat_map_perm {A B} (f : A -> list B) l m : Permutation l m -> Permutation (flat_map f l) (flat_map f m).
Proof.
  induction 1; cbn; auto.
  - apply Permutation_app; auto.
  - rewrite !app_assoc. apply Permutation_app; auto. apply Permutation_app_comm.
  - eapply Permutation_trans; eauto.
Qed.
Lemma nodup_ins t : NoDup (flat_map names (children t)) -> NoDup (flat_map names (ins_of t)) /\ NoDup (flat_map names (node_pushes t)) /\
  forall i q x, In i (ins_of t) -> In q (node_pushes t) -> In x (names i) -> ~ In x (names q).
Proof.
  intros ND. apply (Permutation_NoDup (flat_map_perm names _ _ (children_perm t))) in ND. rewrite flat_map_app in ND. split; [eapply NoDup_app_remove_r; eauto|]. split; [eapply NoDup_app_remove_l; eauto|].
  intros i q x Ii Iq Xi Xq. apply (nodup_disjoint _ _ x ND); apply in_flat_map; eauto.
Qed.
Lemma complete_node {A} (t : rel A) : complete t -> node_ok t.
Proof. intros [Na F]. rewrite symbols_children in F by auto. apply Forall_app in F as [_ F]. inversion F; auto. Qed.

(** * Paths and pipelines *)
Definition below (t : rel str) : option (rel str) := match t with Rel _ k _ (i :: _) _ => match shape_of k with Single => Some i | _ => None end | _ => None end.
Lemma path_eq t : absent t = false -> path t = node_name t :: match below t with Some i => path i | None => [] end.
Proof. destruct t as [|n k b ins es]; [discriminate|]. intros _. cbn. destruct ins, (shape_of k); auto. Qed.
Lemma below_in t i : below t = Some i -> In i (ins_of t) /\ new_pipelines t = [].
Proof. destruct t as [|n k b [|j ins] es]; try discriminate. cbn. destruct (shape_of k); try discriminate. intros [= ->]. auto. Qed.
Lemma below_branch t i : In i (new_pipelines t) -> below t = None /\ In i (ins_of t).
Proof. destruct t as [|n k b ins es]; cbn; [intros []|]. destruct (shape_of k); [intros []|intros []|]. intros I. split; auto. destruct ins; auto. Qed.
(** An input of a complete relation is either the continuation of its path or starts a new pipeline. *)
Lemma ins_cases t i : complete t -> In i (ins_of t) -> (below t = Some i /\ ins_of t = [i]) \/ new_pipelines t = ins_of t.
Proof.
  intros C I. apply complete_node in C. destruct t as [|n k b ins es]; [destruct I|]. destruct C as (Pk & L & _). cbn in *.
  destruct k; cbn in *; try discriminate; auto; destruct ins as [|j [|j' ins]]; cbn in L; try lia; try contradiction; destruct I as [->|[]]; auto.
Qed.
Definition lines (t : rel str) : list (list str) := flat_map pipes (symbols t).
Lemma lines_children t : absent t = false -> lines t = flat_map lines (children t) ++ pipes t.
Proof. intros Na. unfold lines. rewrite symbols_children by auto. rewrite flat_map_app. cbn. rewrite app_nil_r. f_equal. apply flat_map_flat. Qed.
Lemma path_names t : incl (path t) (names t).
Proof.
  induction t as [|t Na IH] using tree_ind; [intros x []|]. rewrite path_eq by auto. intros x [<-|I]; [apply name_in; auto|]. destruct (below t) as [i|] eqn:E; [|destruct I].
  apply below_in in E as [E _]. assert (Ic : In i (children t)) by (apply children_in; auto). eapply child_names; eauto. rewrite Forall_forall in IH. apply (IH i Ic). auto.
Qed.
Lemma path_nodup t : NoDup (names t) -> NoDup (path t).
Proof.
  induction t as [|t Na IH] using tree_ind; [constructor|]. intros ND. rewrite path_eq by auto. destruct (nodup_split t Na ND) as [NDc N]. destruct (below t) as [i|] eqn:E; [|repeat constructor; auto].
  apply below_in in E as [E _]. assert (Ic : In i (children t)) by (apply children_in; auto). rewrite Forall_forall in IH. constructor; [|apply IH; auto; eapply nodup_one; eauto].
  intros I. apply path_names in I. eapply N; eauto.
Qed.
Lemma pipes_in t p : In p (pipes t) -> exists c, (In c (new_pipelines t) /\ p = rev (node_name t :: path c)) \/ (In c (node_pushes t) /\ p = rev (path c)).
Proof. unfold pipes. intros I. apply in_app_iff in I as [I|I]; apply in_map_iff in I as (c & <- & I); eauto. Qed.
Lemma new_in t c : In c (new_pipelines t) -> In c (@children str t).
Proof. intros I. apply below_branch in I as [_ I]. apply children_in. auto. Qed.
Lemma lines_names t p x : In p (lines t) -> In x p -> In x (names t).
Proof.
  revert p x. induction t as [|t Na IH] using tree_ind; [intros p x []|]. intros p x Ip Ix. rewrite lines_children in Ip by auto. rewrite Forall_forall in IH. apply in_app_iff in Ip as [Ip|Ip].
  - apply in_flat_map in Ip as (c & Ic & Ip). eapply child_names; eauto.
  - apply pipes_in in Ip as (c & [[Ic ->]|[Ic ->]]); apply in_rev in Ix.
    + destruct Ix as [<-|Ix]; [apply name_in; auto|]. eapply child_names; eauto using new_in. apply path_names. auto.
    + eapply child_names; [auto|apply children_in; right; eauto|]. apply path_names. auto.
Qed.
Lemma lines_nodup t : NoDup (names t) -> Forall (@NoDup str) (lines t).
Proof.
  induction t as [|t Na IH] using tree_ind; [constructor|]. intros ND. destruct (nodup_split t Na ND) as [NDc N]. rewrite Forall_forall in *. intros p I. rewrite lines_children in I by auto. apply in_app_iff in I as [I|I].
  - apply in_flat_map in I as (c & Ic & I). specialize (IH c Ic (nodup_one _ _ _ NDc Ic)). rewrite Forall_forall in IH. auto.
  - apply pipes_in in I as (c & [[Ic ->]|[Ic ->]]); apply NoDup_rev.
    + apply new_in in Ic. constructor; [|apply path_nodup; eapply nodup_one; eauto]. intros J. apply path_names in J. eapply N; eauto.
    + assert (Ic' : In c (children t)) by (apply children_in; auto). apply path_nodup. eapply nodup_one; eauto.
Qed.
(** What is on the path of a tree is only ever last in a pipeline below. *)
Lemma path_last t : complete t -> NoDup (names t) -> forall p x, In x (path t) -> In p (lines t) -> ~ In x (removelast p).
Proof.
  induction t as [|t Na IH] using tree_ind; [intros [Hq _]; discriminate|]. intros C ND p x Ix Ip. destruct (nodup_split t Na ND) as [NDc N]. destruct (nodup_ins t NDc) as (NDi & NDp & Dip). rewrite Forall_forall in IH.
  assert (Rm : forall q : list str, In x (removelast q) -> In x q).
  { induction q as [|a q IHq]; [intros []|]. cbn. destruct q; [intros []|]. intros [->|I]; auto. }
  intros Il. assert (Xp := Rm _ Il). rewrite lines_children in Ip by auto. rewrite path_eq in Ix by auto. destruct Ix as [<-|Ix].
  - apply in_app_iff in Ip as [Ip|Ip].
    + apply in_flat_map in Ip as (c & Ic & Ip). apply (N c Ic). eapply lines_names; eauto.
    + apply pipes_in in Ip as (c & [[Ic ->]|[Ic ->]]).
      * cbn [rev] in Il. rewrite removelast_app in Il by discriminate. cbn in Il. rewrite app_nil_r in Il. apply in_rev, path_names in Il. apply (N c); auto. apply new_in; auto.
      * apply in_rev, path_names in Xp. apply (N c); auto. apply children_in; auto.
  - destruct (below t) as [i|] eqn:E; [|destruct Ix]. apply below_in in E as [E En]. assert (Ic : In i (children t)) by (apply children_in; auto). pose proof (path_names _ _ Ix) as Xi.
    apply in_app_iff in Ip as [Ip|Ip].
    + apply in_flat_map in Ip as (c & Ic' & Ip). pose proof (lines_names _ _ _ Ip Xp) as Xc. rewrite (nodup_same _ _ _ _ _ NDc Ic' Ic Xc Xi) in *.
      apply (IH i Ic (complete_children _ _ C Ic) (nodup_one _ _ _ NDc Ic) p x); auto.
    + apply pipes_in in Ip as (c & [[Ic' ->]|[Ic' ->]]); [rewrite En in Ic'; destruct Ic'|]. apply in_rev, path_names in Xp. apply (Dip i c x); auto.
Qed.
Lemma middle_removelast x p : middle x p -> In x (removelast p).
Proof. intros (l & r & _ & N & ->). rewrite removelast_app by discriminate. apply in_or_app. right. destruct r; [congruence|]. cbn. auto. Qed.
(** * Acceptance *)
Definition apart (p q : list str) : Prop := forall x, middle x p -> ~ In x q.
Lemma fop_app {A} (R : A -> A -> Prop) l m : ForallOrdPairs R l -> ForallOrdPairs R m -> (forall a b, In a l -> In b m -> R a b) -> ForallOrdPairs R (l ++ m).
Proof.
  induction 1 as [|a l Fa _ IH]; intros Hm H; cbn; auto. constructor; [|apply IH; auto; intros; apply H; auto; right; auto].
  apply Forall_app. split; auto. apply Forall_forall. intros b Ib. apply H; auto. left. auto.
Qed.
Lemma fop_flat {A B} (R : B -> B -> Prop) (f : A -> list B) l : (forall a, In a l -> ForallOrdPairs R (f a)) ->
  ForallOrdPairs (fun a a' => forall b b', In b (f a) -> In b' (f a') -> R b b') l -> ForallOrdPairs R (flat_map f l).
Proof.
  intros H O. induction O as [|a l Fa O IH]; cbn; [constructor|]. apply fop_app; [apply H; left; auto|apply IH; intros; apply H; right; auto|].
  intros b b' Ib Ib'. apply in_flat_map in Ib' as (a' & Ia' & Ib'). rewrite Forall_forall in Fa. eapply Fa; eauto.
Qed.
Lemma fop_names {A} (f : A -> list str) (R : A -> A -> Prop) l : NoDup (flat_map f l) -> (forall a b, In a l -> In b l -> (forall x, In x (f a) -> ~ In x (f b)) -> R a b) -> ForallOrdPairs R l.
Proof.
  induction l as [|a l IH]; cbn; intros ND H; constructor.
  - apply Forall_forall. intros b Ib. apply H; auto. intros x Xa Xb. apply (nodup_disjoint _ _ _ ND Xa). apply in_flat_map. eauto.
  - apply IH; [eapply NoDup_app_remove_l; eauto|]. intros; apply H; auto.
Qed.
Lemma middle_pipe t c p x : NoDup (names c) -> ~ In (node_name t) (names c) -> p = rev (node_name t :: path c) \/ p = rev (path c) -> middle x p -> In x (path c).
Proof.
  intros ND N [-> | ->] M; apply middle_removelast in M.
  - cbn [rev] in M. rewrite removelast_app in M by discriminate. cbn in M. rewrite app_nil_r in M. apply in_rev. auto.
  - apply in_rev. assert (R : forall q : list str, In x (removelast q) -> In x q).
    { induction q as [|a q IHq]; [intros []|]. cbn. destruct q; [intros []|]. intros [->|I]; auto. } auto.
Qed.
Lemma pipe_names t c p x : p = rev (node_name t :: path c) \/ p = rev (path c) -> In x p -> x = node_name t \/ In x (path c).
Proof. intros [-> | ->] I; apply in_rev in I; auto. destruct I; auto. Qed.
Lemma lines_apart t : complete t -> NoDup (names t) -> ForallOrdPairs apart (lines t).
Proof.
  induction t as [|t Na IH] using tree_ind; [intros [Hq _]; discriminate|]. intros C ND. destruct (nodup_split t Na ND) as [NDc N]. destruct (nodup_ins t NDc) as (NDi & NDp & Dip). rewrite Forall_forall in IH.
  assert (Pipe : forall c, (In c (new_pipelines t) \/ In c (node_pushes t)) -> In c (children t)) by (intros c [I|I]; [apply new_in; auto|apply children_in; auto]).
  assert (NDn : NoDup (flat_map names (new_pipelines t))).
  { destruct (new_pipelines t) as [|i l] eqn:E; [constructor|]. assert (J : In i (new_pipelines t)) by (rewrite E; left; auto). destruct t as [|n k b ins es]; [destruct J|]. cbn in *. destruct (shape_of k); try destruct J; subst; auto. }
  assert (Two : forall c c' p q, In c (children t) -> In c' (children t) -> (forall x, In x (names c) -> ~ In x (names c')) ->
     p = rev (node_name t :: path c) \/ p = rev (path c) -> q = rev (node_name t :: path c') \/ q = rev (path c') -> apart p q).
  { intros c c' p q Ic Ic' D Ep Eq x M Xq. apply (middle_pipe t c p x (nodup_one _ _ _ NDc Ic) (N c Ic) Ep) in M. pose proof (path_names _ _ M) as Xc.
    destruct (pipe_names t c' q x Eq Xq) as [->|X']; [apply (N c Ic Xc)|]. apply (D x Xc). apply path_names. auto. }
  rewrite lines_children by auto. apply fop_app; [|unfold pipes; apply fop_app|].
  - apply fop_flat; [intros c Ic; exact (IH c Ic (complete_children _ _ C Ic) (nodup_one _ _ _ NDc Ic))|]. apply (fop_names names); auto.
    intros a b Ia Ib D p q Ip Iq x M Xq. apply middle_removelast in M. assert (Xp : In x p) by (clear - M; induction p as [|y p IHp]; [destruct M|]; cbn in M; destruct p; [destruct M|]; destruct M as [->|M]; [left; auto|right; auto]).
    apply (D x); eapply lines_names; eauto.
  - rewrite <- (app_nil_r (map _ (new_pipelines t))). rewrite app_nil_r. assert (G : ForallOrdPairs (fun c c' => apart (rev (node_name t :: path c)) (rev (node_name t :: path c'))) (new_pipelines t)).
    { apply (fop_names names); auto. intros a b Ia Ib D. apply (Two a b); auto. }
    clear - G. induction G; cbn; constructor; auto. clear - H. induction H; cbn; constructor; auto.
  - assert (G : ForallOrdPairs (fun c c' => apart (rev (path c)) (rev (path c'))) (node_pushes t)).
    { apply (fop_names names); auto. intros a b Ia Ib D. apply (Two a b); auto. }
    clear - G. induction G; cbn; constructor; auto. clear - H. induction H; cbn; constructor; auto.
  - intros p q Ip Iq. apply in_map_iff in Ip as (c & <- & Ic). apply in_map_iff in Iq as (c' & <- & Ic'). apply (Two c c'); auto. intros x Xc. apply (Dip c c' x); auto. apply below_branch in Ic. tauto.
  - intros p q Ip Iq x M Xq. apply in_flat_map in Ip as (c & Ic & Ip). apply middle_removelast in M. assert (Xp : In x p).
    { clear - M. induction p as [|y p IHp]; [destruct M|]. cbn in M. destruct p; [destruct M|]. destruct M as [->|M]; [left; auto|right; auto]. }
    pose proof (lines_names _ _ _ Ip Xp) as Xc. apply pipes_in in Iq as (c' & Hc).
    assert (Ic' : In c' (children t)) by (destruct Hc as [[? _]|[? _]]; auto).
    destruct (pipe_names t c' q x) as [->|X']; [tauto|auto|apply (N c Ic Xc)|]. pose proof (path_names _ _ X') as Xc'. rewrite (nodup_same _ _ _ _ _ NDc Ic Ic' Xc Xc') in *.
    apply (path_last c' (complete_children _ _ C Ic') (nodup_one _ _ _ NDc Ic') p x); auto.
Qed.
Lemma plan_connected t m : complete t -> NoDup (names t) -> ~ In m (names t) -> well_connected (lines t ++ [rev (m :: path t)]).
Proof.
  intros C ND Nm. split.
  - apply Forall_app. split; [apply lines_nodup; auto|]. constructor; [|constructor]. apply NoDup_rev. constructor; [|apply path_nodup; auto]. intros I. apply Nm, path_names. auto.
  - apply fop_app; [apply lines_apart; auto|constructor; constructor|]. intros p q Ip [<-|[]] x M Xq. apply middle_removelast in M. apply in_rev in Xq. destruct Xq as [<-|Xq].
    + apply Nm. eapply lines_names; eauto. clear - M. induction p as [|y p IHp]; [destruct M|]. cbn in M. destruct p; [destruct M|]. destruct M as [->|M]; [left; auto|right; auto].
    + eapply path_last; eauto.
Qed.

(** * What is recorded for each relation *)
Definition top_inputs (top : bool) (t : rel str) : list str := (if top then match below t with Some i => [node_name i] | None => [] end else []) ++ map node_name (new_pipelines t).
Definition next_input (top : bool) (t : rel str) : list str := if top then [] else match below t with Some i => [node_name i] | None => [] end.
Inductive Good (ps : list (list str)) : bool -> rel str -> Prop :=
  good top t : absent t = false -> into true (node_name t) ps = top_inputs top t -> into false (node_name t) ps = next_input top t ->
    (forall i, In i (ins_of t) -> Good ps false i) -> (forall q, In q (node_pushes t) -> Good ps true q) -> Good ps top t.
Lemma good_ext ps ps' : forall t top, (forall x b, In x (names t) -> into b x ps = into b x ps') -> Good ps top t -> Good ps' top t.
Proof.
  induction t as [|t Na IH] using tree_ind; intros top H G; inversion G as [? ? Na' Gt Gf Gi Gq]; subst; [discriminate|]. rewrite Forall_forall in IH.
  constructor; auto.
  - rewrite <- H by (apply name_in; auto). auto.
  - rewrite <- H by (apply name_in; auto). auto.
  - intros i I. apply IH; [apply children_in; auto| |auto]. intros x b Ix. apply H. eapply child_names; eauto. apply children_in; auto.
  - intros i I. apply IH; [apply children_in; auto| |auto]. intros x b Ix. apply H. eapply child_names; eauto. apply children_in; auto.
Qed.
Lemma into_flat {A} b x (f : A -> list (list str)) l : into b x (flat_map f l) = flat_map (fun a => into b x (f a)) l.
Proof. induction l as [|a l IH]; cbn [flat_map]; auto. rewrite into_app. f_equal. exact IH. Qed.
Lemma into_map {A} b x (f : A -> list str) l : into b x (map f l) = flat_map (fun a => into b x [f a]) l.
Proof. induction l as [|a l IH]; cbn [flat_map map]; auto. change (f a :: map f l) with ([f a] ++ map f l). rewrite into_app. f_equal. exact IH. Qed.
Lemma flat_one {A B} (g : A -> list B) l a : In a l -> (forall c, In c l -> c <> a -> g c = []) -> (forall l1 l2, l = l1 ++ a :: l2 -> ~ In a l1 /\ ~ In a l2) -> flat_map g l = g a.
Proof.
  intros I H U. apply in_split in I as (l1 & l2 & ->). destruct (U l1 l2 eq_refl) as [N1 N2]. rewrite flat_map_app. cbn.
  assert (Z : forall m, (forall c, In c m -> In c (l1 ++ a :: l2) /\ c <> a) -> flat_map g m = []).
  { induction m as [|c m IH]; cbn; auto. intros Hm. rewrite IH by (intros; apply Hm; right; auto). destruct (Hm c (or_introl eq_refl)) as [I Nc]. rewrite H; auto. }
  rewrite (Z l1), (Z l2), app_nil_r; auto; intros c Ic; (split; [apply in_or_app; cbn; auto|intros ->; auto]).
Qed.
Lemma flat_none {A B} (g : A -> list B) l : (forall c, In c l -> g c = []) -> flat_map g l = [].
Proof. induction l as [|c l IH]; cbn; auto. intros H. rewrite (H c), IH; auto. Qed.
Lemma nodup_once {A} (f : A -> list str) l a x : NoDup (flat_map f l) -> In x (f a) -> forall l1 l2, l = l1 ++ a :: l2 -> ~ In a l1 /\ ~ In a l2.
Proof.
  intros ND X l1 l2 ->. rewrite flat_map_app in ND. cbn in ND. split; intros I.
  - apply (nodup_disjoint _ _ x ND); [apply in_flat_map; eauto|apply in_or_app; auto].
  - apply NoDup_app_remove_l in ND. apply (nodup_disjoint _ _ x ND); auto. apply in_flat_map; eauto.
Qed.
(** Pipelines of other subtrees do not matter. *)
Lemma into_own {A} (names : A -> list str) (f : A -> list (list str)) l a b x : NoDup (flat_map names l) -> In a l -> In x (names a) ->
  (forall c p, In c l -> In p (f c) -> In x p -> In x (names c)) -> flat_map (fun c => into b x (f c)) l = into b x (f a).
Proof.
  intros ND I X H. apply (flat_one (fun c => into b x (f c))); auto; [|eapply nodup_once; eauto]. intros c Ic Nc.
  assert (Z : forall p, In p (f c) -> ~ In x p) by (intros p Ip Xp; apply Nc; eapply nodup_same; eauto).
  induction (f c) as [|p q IH]; auto. change (p :: q) with ([p] ++ q). rewrite into_app, into_none, IH; auto. intros p' Ip. apply Z. right. auto. apply Z. left. auto.
Qed.
Lemma into_nowhere b x ps : (forall p, In p ps -> ~ In x p) -> into b x ps = [].
Proof. induction ps as [|p ps IH]; intros H; auto. change (p :: ps) with ([p] ++ ps). rewrite into_app, into_none, IH; auto; [intros q I; apply H; right; auto|apply H; left; auto]. Qed.
Lemma into_snoc b x p n m : x <> n -> x <> m -> into b x [p ++ [n; m]] = into b x [p ++ [n]].
Proof.
  intros N M. apply seq_eqb_neq in N, M. assert (N' : (n =s x) = false) by (apply seq_eqb_neq; intros ->; rewrite seq_eqb_refl in N; discriminate). assert (M' : (m =s x) = false) by (apply seq_eqb_neq; intros ->; rewrite seq_eqb_refl in M; discriminate).
  induction p as [|a p IH].
  - unfold into. cbn. rewrite M'. reflexivity.
  - destruct p as [|c p].
    + unfold into. cbn. rewrite N', M'. reflexivity.
    + unfold into in *. cbn [flat_map app links] in *. rewrite app_nil_r in *. cbn [filter fst snd map] in *.
      replace (match p ++ [n; m] with [] => true | _ => false end) with false by (destruct p; auto). replace (match p ++ [n] with [] => true | _ => false end) with false by (destruct p; auto).
      destruct ((c =s x) && Bool.eqb false b); cbn [map]; [f_equal|]; exact IH.
Qed.
Lemma into_first b x p : ~ In x p -> into b x [x :: p] = [].
Proof. intros N. apply (into_split b x [] p); auto. Qed.
Lemma good_tree t : complete t -> NoDup (names t) ->
  (forall m, ~ In m (names t) -> Good (lines t ++ [rev (m :: path t)]) false t) /\ Good (lines t ++ [rev (path t)]) true t.
Proof.
  induction t as [|t Na IH] using tree_ind; [intros [Hq _]; discriminate|]. intros C ND. destruct (nodup_split t Na ND) as [NDc N]. destruct (nodup_ins t NDc) as (NDi & NDp & Dip). rewrite Forall_forall in IH.
  set (n := node_name t) in *.
  assert (Key : forall top P, (exists m, ~ In m (names t) /\ P = rev (m :: path t) /\ top = false) \/ (P = rev (path t) /\ top = true) -> Good (lines t ++ [P]) top t).
  2: { split; [intros m Nm; apply Key; left; eauto|apply Key; right; auto]. }
  intros top P HP.
  assert (Cc : forall c, In c (children t) -> complete c /\ NoDup (names c) /\ ~ In n (names c)) by (intros c I; exact (conj (complete_children _ _ C I) (conj (nodup_one _ _ _ NDc I) (N c I)))).
  (* what comes from the children's own pipelines *)
  assert (Fl : forall c b x, In c (children t) -> In x (names c) -> into b x (flat_map lines (children t)) = into b x (lines c)).
  { intros c b x Ic X. rewrite into_flat. apply (into_own names lines); auto. intros d p Id Ip Xp. eapply lines_names; eauto. }
  assert (Fn : forall b, into b n (flat_map lines (children t)) = []).
  { intros b. apply into_nowhere. intros p Ip Xp. apply in_flat_map in Ip as (c & Ic & Ip). apply (N c Ic). eapply lines_names; eauto. }
  (* from the pipelines of the subqueries *)
  assert (Fq : forall q b x, In q (node_pushes t) -> In x (names q) -> into b x (map (fun q => rev (path q)) (node_pushes t)) = into b x [rev (path q)]).
  { intros q b x Iq X. rewrite into_map. apply (into_own names (fun q => [rev (path q)])); auto. intros d p Id [<-|[]] Xp. apply path_names. apply in_rev. auto. }
  assert (Fq0 : forall b x, (forall q, In q (node_pushes t) -> ~ In x (names q)) -> into b x (map (fun q => rev (path q)) (node_pushes t)) = []).
  { intros b x H. apply into_nowhere. intros p Ip Xp. apply in_map_iff in Ip as (q & <- & Iq). apply (H q Iq), path_names, in_rev. auto. }
  assert (Nq : forall q, In q (node_pushes t) -> ~ In n (names q)) by (intros q I; apply N, children_in; auto).
  (* from the pipelines of the inputs *)
  assert (Fi0 : forall b x, (forall i, In i (ins_of t) -> ~ In x (names i)) -> x <> n -> into b x (map (fun i => rev (n :: path i)) (new_pipelines t)) = []).
  { intros b x H Nx. apply into_nowhere. intros p Ip Xp. apply in_map_iff in Ip as (i & <- & Ii). apply in_rev in Xp. destruct Xp as [<-|Xp]; [congruence|]. apply below_branch in Ii as [_ Ii]. apply (H i Ii), path_names. auto. }
  assert (Px : forall x, In x P -> In x (path t) \/ ~ In x (names t)).
  { intros x X. destruct HP as [(m & Nm & -> & _)|[-> _]]; apply in_rev in X; auto. destruct X as [<-|X]; auto. }
  assert (Pt : path t = n :: match below t with Some i => path i | None => [] end) by (apply path_eq; auto).
  constructor; auto; fold n.
  - (* into the relation, pipelines that end in it *)
    rewrite lines_children by auto. unfold pipes. fold n. rewrite !into_app, Fn, (Fq0 true n Nq), app_nil_r. cbn [app]. rewrite into_map. unfold top_inputs.
    assert (E1 : flat_map (fun i => into true n [rev (n :: path i)]) (new_pipelines t) = map node_name (new_pipelines t)).
    { assert (H : forall i, In i (new_pipelines t) -> into true n [rev (n :: path i)] = [node_name i]).
      { intros i I. destruct (Cc i (new_in _ _ I)) as ((Nai & _) & NDpi & Nni). cbn [rev]. rewrite (into_split true n (rev (path i)) []); [|intros J; apply in_rev, path_names in J; auto|intros []].
        rewrite rev_involutive, path_eq by auto. reflexivity. }
      clear - H. induction (new_pipelines t) as [|i l IHl]; cbn [flat_map map]; auto. rewrite H by (left; auto). cbn. f_equal. apply IHl. intros; apply H; right; auto. }
    rewrite E1. destruct HP as [(m & Nm & -> & ->)|[-> ->]].
    + cbn [app]. rewrite <- (app_nil_r (map node_name (new_pipelines t))) at 2. f_equal. rewrite Pt. destruct (below t) as [i|] eqn:Eb.
      * pose proof (below_in _ _ Eb) as [Ii _]. assert (Ic : In i (children t)) by (apply children_in; auto). destruct (Cc i Ic) as ((Nai & _) & NDpi & Nni). cbn [rev]. rewrite <- app_assoc. cbn [app].
        assert (Nmn : m <> n) by (intros ->; apply Nm, name_in; auto). rewrite (into_split true n (rev (path i)) [m]).
        { rewrite rev_involutive, path_eq by auto. reflexivity. }
        { intros J. apply in_rev, path_names in J. auto. } { intros [J|[]]. congruence. }
      * cbn [rev app]. apply into_first. intros [J|[]]. apply Nm. rewrite J. apply name_in; auto.
    + rewrite Pt. destruct (below t) as [i|] eqn:Eb.
      * pose proof (below_in _ _ Eb) as [Ii En]. rewrite En. assert (Ic : In i (children t)) by (apply children_in; auto). destruct (Cc i Ic) as ((Nai & _) & NDpi & Nni). cbn [rev map app].
        rewrite (into_split true n (rev (path i)) []); [|intros J; apply in_rev, path_names in J; auto|intros []]. rewrite rev_involutive, path_eq by auto. reflexivity.
      * cbn [rev app]. rewrite (into_first true n []) by auto. rewrite app_nil_r. auto.
  - rewrite lines_children by auto. unfold pipes. fold n. rewrite !into_app, Fn, (Fq0 false n Nq), app_nil_r. cbn [app]. rewrite into_map. unfold next_input.
    assert (E1 : flat_map (fun i => into false n [rev (n :: path i)]) (new_pipelines t) = []).
    { apply flat_none. intros i I. destruct (Cc i (new_in _ _ I)) as ((Nai & _) & NDpi & Nni). cbn [rev]. rewrite (into_split false n (rev (path i)) []); [|intros J; apply in_rev, path_names in J; auto|intros []].
      destruct (rev (rev (path i))); auto. }
    rewrite E1. cbn [app]. destruct HP as [(m & Nm & -> & ->)|[-> ->]].
    + rewrite Pt. destruct (below t) as [i|] eqn:Eb.
      * pose proof (below_in _ _ Eb) as [Ii _]. assert (Ic : In i (children t)) by (apply children_in; auto). destruct (Cc i Ic) as ((Nai & _) & NDpi & Nni). cbn [rev]. rewrite <- app_assoc. cbn [app].
        assert (Nmn : m <> n) by (intros ->; apply Nm, name_in; auto). rewrite (into_split false n (rev (path i)) [m]).
        { rewrite rev_involutive, path_eq by auto. reflexivity. }
        { intros J. apply in_rev, path_names in J. auto. } { intros [J|[]]. congruence. }
      * cbn [rev app]. apply into_first. intros [J|[]]. apply Nm. rewrite J. apply name_in; auto.
    + rewrite Pt. destruct (below t) as [i|] eqn:Eb.
      * pose proof (below_in _ _ Eb) as [Ii En]. assert (Ic : In i (children t)) by (apply children_in; auto). destruct (Cc i Ic) as ((Nai & _) & NDpi & Nni). cbn [rev].
        rewrite (into_split false n (rev (path i)) []); [|intros J; apply in_rev, path_names in J; auto|intros []]. destruct (rev (rev (path i))); auto.
      * apply (into_first false n []). auto.
  - (* the inputs *)
    intros i Ii. assert (Ic : In i (children t)) by (apply children_in; auto). destruct (Cc i Ic) as (Ci & NDpi & Nni). destruct (IH i Ic Ci NDpi) as [G _]. specialize (G n Nni). revert G. apply good_ext.
    intros x b X. assert (Xt : In x (names t)) by (eapply child_names; eauto). assert (Xn : x <> n) by (intros ->; auto).
    rewrite (lines_children t) by auto. unfold pipes. fold n. rewrite !into_app, (Fl i b x Ic X). rewrite <- !app_assoc. f_equal. rewrite (Fq0 b x) by (intros q Iq; apply (Dip i q x Ii Iq X)). cbn [app].
    destruct (ins_cases t i C Ii) as [[Eb Ei]|En].
    + pose proof (below_in _ _ Eb) as [_ En]. rewrite En. cbn [map]. change (into b x []) with (@nil str). cbn [app]. rewrite Eb in Pt.
      destruct HP as [(m & Nm & -> & _)|[-> _]]; rewrite Pt; auto. cbn [rev]. rewrite <- app_assoc. cbn [app]. symmetry. apply into_snoc; auto. intros ->. auto.
    + assert (Eb : below t = None) by (apply (below_branch t i); rewrite En; auto). rewrite Eb in Pt.
      assert (EP : into b x [P] = []). { apply into_none. intros J. destruct (Px x J) as [K|K]; [|auto]. rewrite Pt in K. destruct K as [K|[]]. congruence. }
      rewrite EP, app_nil_r, En, into_map. symmetry. apply (into_own names (fun i => [rev (n :: path i)])); auto. intros d p Id [<-|[]] Xp. apply in_rev in Xp. destruct Xp as [<-|Xp]; [congruence|]. apply path_names. auto.
  - (* the subqueries *)
    intros q Iq. assert (Ic : In q (children t)) by (apply children_in; auto). destruct (Cc q Ic) as (Ci & NDpi & Nni). destruct (IH q Ic Ci NDpi) as [_ G]. revert G. apply good_ext.
    intros x b X. assert (Xt : In x (names t)) by (eapply child_names; eauto). assert (Xn : x <> n) by (intros ->; auto).
    rewrite (lines_children t) by auto. unfold pipes. fold n. rewrite !into_app, (Fl q b x Ic X). rewrite <- !app_assoc. f_equal. rewrite (Fq q b x Iq X).
    rewrite (Fi0 b x); [|intros i Ii J; apply (Dip i q x Ii Iq J X)|auto]. cbn [app].
    assert (EP : into b x [P] = []).
    { apply into_none. intros J. destruct (Px x J) as [K|K]; [|auto]. rewrite Pt in K. destruct K as [K|K]; [congruence|]. destruct (below t) as [i|] eqn:Eb; [|destruct K].
      apply below_in in Eb as [Ii _]. apply path_names in K. apply (Dip i q x Ii Iq K X). }
    rewrite EP, app_nil_r. auto.
Qed.

(** * Expressions *)
(** The text of an expression, each subquery under the name of its relation. *)
Fixpoint texp (e : expr str) : texpr := match e with EOp b args => TOp b (map texp args) | ESub s b ops q => TSub s b (map texp ops) (node_name q) end.
Definition section_of (t : rel str) : section :=
  match t with Absent => {| x_name := []; x_kind := KUnset; x_body := []; x_exprs := [] |} | Rel n k b _ es => {| x_name := n; x_kind := k; x_body := b; x_exprs := map texp es |} end.
Lemma nosub_pushes {A} (e : expr A) : no_sub e = true -> pushes e = [].
Proof. induction e as [b args IH|] using expr_ind'; cbn; [|discriminate]. intros Fl. induction IH as [|e l E _ IHl]; cbn in *; auto. apply andb_true_iff in Fl as [F1 F2]. rewrite E, IHl; auto. Qed.
Lemma nosub_pushes_all {A} (l : list (expr A)) : forallb no_sub l = true -> flat_map pushes l = [].
Proof. induction l as [|e l IH]; cbn; auto. intros H. apply andb_true_iff in H as [H1 H2]. rewrite nosub_pushes, IH; auto. Qed.
Lemma nosub_flat {A} (e : expr A) : no_sub e = true -> flat e = true.
Proof. induction e as [b args IH|] using expr_ind'; cbn; [|discriminate]. intros Fl. rewrite forallb_forall in *. rewrite Forall_forall in IH. auto. Qed.
Lemma nosub_flat_all {A} (l : list (expr A)) : forallb no_sub l = true -> forallb flat l = true.
Proof. rewrite !forallb_forall. auto using nosub_flat. Qed.
Lemma flat_pushes {A} (e : expr A) : flat e = true -> match e with EOp _ args => pushes e = flat_map pushes args | ESub _ _ ops q => pushes e = [q] /\ absent q = false end.
Proof. destruct e as [b args|s b ops q]; cbn; auto. intros H. apply andb_true_iff in H as [H Q]. rewrite (nosub_pushes_all _ H). destruct s, (absent q); auto; discriminate. Qed.
(** Printing. *)
Lemma printExprs_eq subs i l : (fix list i l := match l with [] => ([], i, []) | e :: l => let '(x, i, er) := printExpr subs i e in let '(xs, i, ers) := list i l in (x :: xs, i, er ++ ers) end) i l = printExprs subs i l.
Proof. revert i. induction l as [|e l IH]; intros i; cbn [printExprs]; auto. destruct (printExpr subs i e) as [[x j] er]. rewrite IH. reflexivity. Qed.
Lemma printExpr_eq subs i e : printExpr subs i e = match e with
  | EOp b args => let '(xs, i, er) := printExprs subs i args in (TOp b xs, i, er)
  | ESub s b ops q =>
    let '(xs, i, er) := printExprs subs i ops in
    match q with
    | Absent => (TSub s b xs [], i, er ++ [ENoInput])
    | _ => match nth_error subs i with Some r => (TSub s b xs (node_name r), S i, er) | None => (TSub s b xs [], S i, er ++ [ENoSymbol]) end
    end
  end.
Proof. destruct e as [b args|s b ops q]; cbn [printExpr]; rewrite printExprs_eq; reflexivity. Qed.
Definition prints (subs : list (rel str)) (e : expr str) : Prop :=
  forall pre post, subs = pre ++ pushes e ++ post -> printExpr subs (length pre) e = (texp e, length (pre ++ pushes e), []).
Lemma prints_all subs l : Forall (fun e => flat e = true -> prints subs e) l -> forallb flat l = true ->
  forall pre post, subs = pre ++ flat_map pushes l ++ post -> printExprs subs (length pre) l = (map texp l, length (pre ++ flat_map pushes l), []).
Proof.
  induction 1 as [|e l He _ IH]; intros Fl pre post E; cbn [printExprs flat_map map]; [rewrite app_nil_r; auto|]. cbn in Fl. apply andb_true_iff in Fl as [F1 F2]. cbn [flat_map] in E. rewrite <- app_assoc in E.
  rewrite (He F1 pre (flat_map pushes l ++ post) E). rewrite (IH F2 (pre ++ pushes e) post) by (rewrite <- app_assoc; auto). rewrite <- app_assoc. reflexivity.
Qed.
Lemma print_flat subs e : flat e = true -> prints subs e.
Proof.
  induction e as [b args IH|s b ops q IH] using expr_ind'; intros Fl pre post E; rewrite printExpr_eq.
  - cbn [pushes texp] in *. rewrite (prints_all subs args IH Fl pre post E). reflexivity.
  - destruct (flat_pushes _ Fl) as [Ep Na]. rewrite Ep in *. cbn in Fl. apply andb_true_iff in Fl as [Fo _].
    assert (IH' : Forall (fun e => flat e = true -> prints subs e) ops) by exact IH.
    rewrite (prints_all subs ops IH' (nosub_flat_all _ Fo) pre ([q] ++ post)); [|rewrite (nosub_pushes_all _ Fo); exact E]. rewrite (nosub_pushes_all _ Fo), app_nil_r.
    destruct q as [|n k b' ins es]; [discriminate|]. assert (Nth : nth_error subs (length pre) = Some (Rel n k b' ins es)) by (rewrite E, nth_error_app2, Nat.sub_diag by lia; reflexivity).
    rewrite Nth. cbn [texp node_name]. rewrite app_length. cbn. rewrite Nat.add_1_r. reflexivity.
Qed.
Lemma print_all l : forallb flat l = true -> printExprs (flat_map pushes l) 0 l = (map texp l, length (flat_map pushes l), []).
Proof. intros Fl. apply (prints_all (flat_map pushes l) l) with (pre := []) (post := []); auto; [apply Forall_forall; intros e _ F; apply print_flat; auto|rewrite app_nil_r; auto]. Qed.
Lemma exprs_flat {A} k (es : list (expr A)) : exprs_ok k es = true -> forallb flat es = true.
Proof. destruct k; cbn; auto using nosub_flat_all; destruct es; auto; discriminate. Qed.
Lemma print_relation t : complete t -> printRelation t = ([section_of t], []).
Proof.
  intros C. apply complete_node in C. destruct t as [|n k b ins es]; [destruct C|]. destruct C as (Pk & _ & X & _). cbn [printRelation]. rewrite Pk. cbn [node_pushes]. rewrite print_all by (eapply exprs_flat; eauto). reflexivity.
Qed.
(** Reading. *)
Lemma tsubs_flat e : flat e = true -> tsubs (texp e) = map node_name (pushes e).
Proof.
  induction e as [b args IH|s b ops q IH] using expr_ind'; intros Fl.
  - cbn in *. induction IH as [|e l He _ IHl]; cbn in *; auto. apply andb_true_iff in Fl as [F1 F2]. rewrite map_app, He, IHl; auto.
  - destruct (flat_pushes _ Fl) as [Ep _]. rewrite Ep. cbn [tsubs texp map]. f_equal. cbn in Fl. apply andb_true_iff in Fl as [Fo _]. clear - IH Fo.
    induction IH as [|e l He _ IHl]; cbn in *; auto. apply andb_true_iff in Fo as [F1 F2]. rewrite He, nosub_pushes, IHl; auto using nosub_flat.
Qed.
Lemma tsubs_all l : forallb flat l = true -> flat_map tsubs (map texp l) = map node_name (flat_map pushes l).
Proof. induction l as [|e l IH]; cbn; auto. intros H. apply andb_true_iff in H as [H1 H2]. rewrite map_app, tsubs_flat, IH; auto. Qed.
Lemma nosub_unattached e : no_sub e = true -> unattached (texp e) = strip_e e.
Proof. induction e as [b args IH|] using expr_ind'; cbn; [|discriminate]. intros Fl. f_equal. rewrite map_map. induction IH as [|e l He _ IHl]; cbn in *; auto. apply andb_true_iff in Fl as [F1 F2]. rewrite He, IHl; auto. Qed.
Lemma nosub_unattached_all l : forallb no_sub l = true -> map unattached (map texp l) = map strip_e l.
Proof. induction l as [|e l IH]; cbn; auto. intros H. apply andb_true_iff in H as [H1 H2]. rewrite nosub_unattached, IH; auto. Qed.
Lemma attaches_eq bd subs c l : (fix list c l := match l with [] => Ok ([], c) | e :: l => x <- attach bd subs c e ;; y <- list (snd x) l ;; Ok (fst x :: fst y, snd y) end) c l = attaches bd subs c l.
Proof. revert c. induction l as [|e l IH]; intros c; cbn [attaches]; auto. destruct (attach bd subs c e) as [[x d]| |]; cbn [obind]; auto. cbn [fst snd]. rewrite IH. reflexivity. Qed.
Lemma attach_eq bd subs c e : attach bd subs c e = match e with
  | TOp b args => x <- attaches bd subs c args ;; Ok (EOp b (fst x), snd x)
  | TSub s b ops _ =>
    x <- attaches bd subs c ops ;;
    match nth_error subs (snd x) with
    | None => Throw EInvalidState
    | Some q => r <- bd q ;; Ok (ESub s b (fst x) r, S (snd x))
    end
  end.
Proof. destruct e as [b args|s b ops q]; cbn [attach]; rewrite attaches_eq; reflexivity. Qed.
Section Attach.
  Variable bd : str -> outcome (rel unit).
  Variable subs : list str.
  Definition attached (e : expr str) : Prop := forall pre post, subs = pre ++ map node_name (pushes e) ++ post ->
    (forall q, In q (pushes e) -> bd (node_name q) = Ok (strip q)) -> attach bd subs (length pre) (texp e) = Ok (strip_e e, length pre + length (pushes e)).
  Lemma attached_all l : Forall (fun e => flat e = true -> attached e) l -> forallb flat l = true ->
    forall pre post, subs = pre ++ map node_name (flat_map pushes l) ++ post -> (forall q, In q (flat_map pushes l) -> bd (node_name q) = Ok (strip q)) ->
    attaches bd subs (length pre) (map texp l) = Ok (map strip_e l, length pre + length (flat_map pushes l)).
  Proof.
    induction 1 as [|e l He _ IH]; intros Fl pre post E H; cbn [attaches flat_map map]; [rewrite Nat.add_0_r; auto|]. cbn in Fl. apply andb_true_iff in Fl as [F1 F2]. cbn [flat_map] in E. rewrite map_app, <- app_assoc in E.
    rewrite (He F1 pre (map node_name (flat_map pushes l) ++ post) E) by (intros q I; apply H; cbn; apply in_or_app; auto). cbn [obind fst snd].
    specialize (IH F2 (pre ++ map node_name (pushes e)) post). rewrite app_length, map_length in IH. rewrite IH; [|rewrite <- app_assoc; auto|intros q I; apply H; cbn; apply in_or_app; auto].
    cbn [obind fst snd]. rewrite app_length, Nat.add_assoc. reflexivity.
  Qed.
  Lemma attach_flat e : flat e = true -> attached e.
  Proof.
    induction e as [b args IH|s b ops q IH] using expr_ind'; intros Fl pre post E H; rewrite attach_eq; cbn [texp].
    - cbn [pushes] in *. rewrite (attached_all args IH Fl pre post E H). reflexivity.
    - destruct (flat_pushes _ Fl) as [Ep Na]. rewrite Ep in *. cbn in Fl. apply andb_true_iff in Fl as [Fo _].
      rewrite (attached_all ops IH (nosub_flat_all _ Fo) pre (map node_name [q] ++ post)); rewrite ?(nosub_pushes_all _ Fo); [|exact E|intros x []]. cbn [obind fst snd length]. rewrite Nat.add_0_r.
      assert (Nth : nth_error subs (length pre) = Some (node_name q)) by (rewrite E, nth_error_app2, Nat.sub_diag by lia; reflexivity). rewrite Nth, H by (left; auto). cbn. rewrite Nat.add_1_r. reflexivity.
  Qed.
End Attach.
Lemma attach_all bd l : forallb flat l = true -> (forall q, In q (flat_map pushes l) -> bd (node_name q) = Ok (strip q)) ->
  attaches bd (flat_map tsubs (map texp l)) 0 (map texp l) = Ok (map strip_e l, length (flat_map pushes l)).
Proof.
  intros Fl H. rewrite tsubs_all by auto. apply (attached_all bd (map node_name (flat_map pushes l)) l) with (pre := []) (post := []); auto; [|rewrite app_nil_r; auto].
  apply Forall_forall. intros e _ F. apply attach_flat. auto.
Qed.
(** * Reassembling *)
Definition size (t : rel str) : nat := length (symbols t).
Lemma size_child t c : absent t = false -> In c (children t) -> size c < size t.
Proof.
  intros Na I. unfold size. rewrite (symbols_children t) by auto. rewrite app_length. cbn. apply in_split in I as (l & r & ->). rewrite flat_map_app. cbn. rewrite !app_length. lia.
Qed.
Lemma build_tree S ps : recorded (r_tab S) ps -> forall t top, complete t -> Good ps top t ->
  (forall s, In s (symbols t) -> find_section S (node_name s) = Some (section_of s)) -> forall fuel, size t <= fuel -> build S fuel (node_name t) = Ok (strip t).
Proof.
  intros R. induction t as [|t Na IH] using tree_ind; [intros top [Hq _]; discriminate|]. intros top C G Fs fuel Hf. rewrite Forall_forall in IH.
  inversion G as [? ? Na' Gt Gf Gi Gq]; subst. pose proof (complete_node _ C) as NO.
  assert (Is : In t (symbols t)) by (rewrite symbols_children by auto; apply in_or_app; right; left; auto).
  destruct fuel as [|fuel]; [unfold size in Hf; destruct (symbols t); [destruct Is|cbn in Hf; lia]|].
  assert (Rc : forall c top', In c (children t) -> Good ps top' c -> build S fuel (node_name c) = Ok (strip c)).
  { intros c top' Ic Gc. apply (IH c Ic top' (complete_children _ _ C Ic) Gc); [intros s I; apply Fs; eapply children_symbols; eauto|]. pose proof (size_child t c Na Ic). lia. }
  assert (Ri : forall i, In i (ins_of t) -> build S fuel (node_name i) = Ok (strip i)) by (intros i I; apply (Rc i false); auto; apply children_in; auto).
  assert (Rq : forall q, In q (node_pushes t) -> build S fuel (node_name q) = Ok (strip q)) by (intros q I; apply (Rc q true); auto; apply children_in; auto).
  pose proof (Fs t Is) as Ft. cbn [build]. rewrite Ft. destruct (R (node_name t)) as (Rn & Rt & _).
  destruct t as [|n k b ins es]; [discriminate|]. destruct NO as (Pk & L & X & Fi). cbn [section_of x_kind x_exprs x_body node_name] in *.
  pose proof (exprs_flat _ _ X) as Fl.
  assert (Rd : rel_data S n = data (r_tab S) n) by reflexivity. rewrite Rd. rewrite Gt in Rn. rewrite Gf in Rt.
  assert (Fin : attaches (build S fuel) (flat_map tsubs (map texp es)) 0 (map texp es) = Ok (map strip_e es, length (flat_map pushes es))) by (apply attach_all; auto).
  assert (One : shape_of k = Single -> length ins = 1 -> exists i, ins = [i] /\ getNextSinglePipeline (data (r_tab S) n) = Some (node_name i)).
  { intros Sk L1. destruct ins as [|i [|j ins]]; try discriminate. exists i. split; auto. unfold getNextSinglePipeline. rewrite Rt, Rn. unfold next_input, top_inputs. cbn [below new_pipelines]. rewrite Sk. destruct top; reflexivity. }
  assert (Two : shape_of k = Branch -> length ins = 2 -> exists i j, ins = [i; j] /\ news (data (r_tab S) n) = [node_name i; node_name j]).
  { intros Sk L2. destruct ins as [|i [|j [|j' ins]]]; try discriminate. exists i, j. split; auto. rewrite Rn. unfold top_inputs. cbn [below new_pipelines]. rewrite Sk. destruct top; reflexivity. }
  destruct k; try discriminate Pk; cbn [inputs_of] in L.
  1: { unfold bare. rewrite Ft. destruct ins; [|discriminate]. cbn [section_of x_kind x_exprs x_body strip map]. rewrite nosub_unattached_all by exact X. reflexivity. }
  1-5: (destruct (One eq_refl L) as (i & -> & ->); rewrite (Ri i) by (left; auto); cbn [obind]; rewrite Fin; reflexivity).
  1-2: (destruct (Two eq_refl L) as (i & j & -> & ->); rewrite (Ri i), (Ri j) by (cbn; auto); cbn [obind]; rewrite Fin; reflexivity).
Qed.

(** * Whole plans *)
Definition own (p : plan_rel) : list str := names (p_rel p) ++ [p_label p].
(** Output names are only kept when the plan has one relation, a root: a text has one list of names. *)
Definition names_ok (plan : list plan_rel) : Prop := (forall p, In p plan -> p_names p = []) \/ (exists p, plan = [p] /\ p_label p = root_name).
Definition complete_plan (plan : list plan_rel) : Prop := Forall (fun p => complete (p_rel p)) plan /\ names_ok plan.
(** Every relation has its own name, which nothing else in the text has. *)
Definition names_apart (plan : list plan_rel) (others : list str) : Prop := NoDup (others ++ flat_map own plan).

Lemma symbols_trans {A} (t s : rel A) : In s (symbols t) -> incl (symbols s) (symbols t).
Proof.
  revert s. induction t as [|t Na IH] using tree_ind; [intros s []|]. intros s I. rewrite symbols_children in I by auto. apply in_app_iff in I as [I|[<-|[]]]; [|intros x; auto].
  apply in_flat_map in I as (c & Ic & I). rewrite Forall_forall in IH. intros x X. apply (children_symbols t c Na Ic). apply (IH c Ic s I). auto.
Qed.
Lemma symbol_complete {A} (t s : rel A) : complete t -> In s (symbols t) -> complete s.
Proof. intros [_ F] I. split; [eapply symbols_absent; eauto|]. rewrite Forall_forall in *. intros x X. apply F. eapply symbols_trans; eauto. Qed.
Lemma pushes_flat_absent {A} (es : list (expr A)) q : forallb flat es = true -> In q (flat_map pushes es) -> absent q = false.
Proof.
  intros Fl I. apply in_flat_map in I as (e & Ie & I). rewrite forallb_forall in Fl. specialize (Fl e Ie). clear Ie. induction e as [b args IH|s b ops q' IH] using expr_ind'.
  - cbn in *. apply in_flat_map in I as (e & Ie & I). rewrite Forall_forall in IH. rewrite forallb_forall in Fl. eauto.
  - destruct (flat_pushes _ Fl) as [E Na]. rewrite E in I. destruct I as [<-|[]]. auto.
Qed.
(** Printing a complete plan. *)
Definition all_symbols (plan : list plan_rel) : list (rel str) := flat_map (fun p => symbols (p_rel p)) plan.
Definition text_of (plan : list plan_rel) (others : list str) : text :=
  {| x_pipes := flat_map plan_pipes plan; x_rels := map section_of (all_symbols plan); x_roots := filter (fun l => match l with [] => false | _ => true end) (map p_names plan); x_others := others |}.
Lemma all_complete plan s : Forall (fun p => complete (p_rel p)) plan -> In s (all_symbols plan) -> complete s.
Proof. intros F I. apply in_flat_map in I as (p & Ip & I). rewrite Forall_forall in F. eapply symbol_complete; eauto. Qed.
Lemma print_plan plan others : Forall (fun p => complete (p_rel p)) plan -> print plan others = Ok (text_of plan others, []).
Proof.
  intros F. unfold print. fold (all_symbols plan).
  assert (H : forall s, In s (all_symbols plan) -> node_ok s /\ complete s) by (intros s I; pose proof (all_complete _ _ F I); split; auto using complete_node).
  assert (E1 : forallb typed (all_symbols plan) = true) by (apply forallb_forall; intros s I; destruct (H s I) as [N _]; destruct s as [|n k b ins es]; auto; destruct N as [Pk _]; destruct k; auto).
  assert (E2 : forallb (fun p => recorded_ok (p_rel p)) plan = true).
  { apply forallb_forall. intros p Ip. apply forallb_forall. intros s I. apply forallb_forall. intros q Iq. destruct (H s) as [N _]; [apply in_flat_map; eauto|].
    destruct s as [|n k b ins es]; [destruct Iq|]. destruct N as (_ & _ & X & _). cbn in Iq. rewrite (pushes_flat_absent es q); auto. eapply exprs_flat; eauto. }
  assert (E3 : forallb pipes_ok (all_symbols plan) = true).
  { apply forallb_forall. intros s I. apply forallb_forall. intros i Ii. destruct (H s I) as [N _]. destruct s as [|n k b ins es]; [destruct Ii|]. destruct N as (_ & _ & _ & Fi). rewrite Forall_forall in Fi. cbn in Ii.
    destruct (shape_of k); try destruct Ii. rewrite Fi; auto. }
  assert (E4 : forallb (fun p => negb (absent (p_rel p))) plan = true) by (apply forallb_forall; intros p Ip; rewrite Forall_forall in F; destruct (F p Ip) as [-> _]; auto).
  rewrite E1, E2, E3, E4. cbn [negb andb]. assert (E5 : map printRelation (all_symbols plan) = map (fun s => ([section_of s], [])) (all_symbols plan)) by (apply map_ext_in; intros s I; apply print_relation, H; auto).
  rewrite E5. unfold text_of. f_equal. f_equal.
  - f_equal. clear. induction (all_symbols plan) as [|s l IH]; cbn; auto. f_equal. exact IH.
  - clear. induction (all_symbols plan) as [|s l IH]; cbn; auto.
Qed.
(** Names of sections. *)
Lemma section_name s : x_name (section_of s) = node_name s.
Proof. destruct s; auto. Qed.
Lemma plookup_none t n : ~ In n (map fst t) -> plookup t n = None.
Proof. induction t as [|[m s] t IH]; cbn; auto. intros H. destruct (m =s n) eqn:E; [apply seq_eqb_eq in E; tauto|auto]. Qed.
Lemma plookup_some t n s : NoDup (map fst t) -> In (n, s) t -> plookup t n = Some s.
Proof.
  induction t as [|[m r] t IH]; cbn; [intros _ []|]. intros ND [E|I]; [injection E as -> ->; rewrite seq_eqb_refl; auto|]. inversion ND; subst. destruct (m =s n) eqn:E; [|auto].
  apply seq_eqb_eq in E. subst. exfalso. apply H1. apply in_map_iff. exists (n, s). auto.
Qed.
Lemma define_all rs : forall t, NoDup (map fst t ++ map x_name rs) -> define_rels t rs = (t ++ map (fun r => (x_name r, PRel no_data)) rs, []).
Proof.
  induction rs as [|r rs IH]; intros t ND; cbn [define_rels map]; [rewrite app_nil_r; auto|]. rewrite plookup_none.
  - rewrite IH; [rewrite <- app_assoc; auto|]. rewrite map_app, <- app_assoc. exact ND.
  - intros I. cbn in ND. apply NoDup_remove_2 in ND. apply ND. apply in_or_app. auto.
Qed.
(** The names of the table after the pipelines: those before, then the ones it did not know. *)
Definition addkey (K : list str) (n : str) : list str := if existsb (fun m => m =s n) K then K else K ++ [n].
Lemma keys_update t n d : map fst (pupdate t n d) = map fst t.
Proof. induction t as [|[m s] t IH]; cbn; auto. destruct (m =s n); cbn; [auto|]. f_equal. auto. Qed.
Lemma lookup_exists t n : plookup t n = None <-> existsb (fun m => m =s n) (map fst t) = false.
Proof. induction t as [|[m s] t IH]; cbn; [tauto|]. destruct (m =s n); cbn; [split; discriminate|auto]. Qed.
Lemma keys_symbol t n : map fst (updateRelationSymbol t n) = addkey (map fst t) n.
Proof.
  unfold updateRelationSymbol, addkey. destruct (plookup t n) eqn:E.
  - destruct (existsb _ (map fst t)) eqn:F; auto. apply lookup_exists in F. congruence.
  - apply lookup_exists in E. rewrite E, map_app. auto.
Qed.
Lemma keys_connect t rights n d left r : connect t rights n d left = Ok r -> map fst (fst r) = map fst t.
Proof.
  unfold connect. destruct (cont d); [intros [= <-]; auto|]. destruct rights as [|[r0 r1] rights].
  - destruct left as [l|]; [|intros [= <-]; auto]. destruct (negb (is_rel t l)); [discriminate|]. intros [= <-]. apply keys_update.
  - destruct (negb (is_rel t (fst (r0, r1)))); [discriminate|]. destruct (continuingPipelineContains _ n); [intros [= <-]; auto|]. destruct left as [l|]; [destruct (negb (is_rel t l)); [discriminate|]|]; intros [= <-]; apply keys_update.
Qed.
Lemma keys_pipeline p : forall t rights r, visitPipeline t rights p = Ok r -> map fst (fst r) = fold_left addkey (map fst p) (map fst t).
Proof.
  induction p as [|e p IH]; intros t rights r; cbn [visitPipeline map fold_left]; [intros [= <-]; auto|]. destruct (visitPipeline _ _ p) as [[t2 errs]| |] eqn:E; cbn [obind]; try discriminate.
  pose proof (IH _ _ _ E) as K. rewrite keys_symbol in K. cbn [fst] in K. destruct (plookup t2 (fst e)) as [[d|]|] eqn:L.
  - destruct (connect _ _ _ _ _) as [x| |] eqn:Cn; cbn [obind]; try discriminate. intros [= <-]. cbn [fst]. rewrite (keys_connect _ _ _ _ _ _ Cn). auto.
  - intros [= <-]. auto.
  - intros [= <-]. auto.
Qed.
Lemma keys_pipelines ps : forall t r, visitPipelines t ps = Ok r -> map fst (fst r) = fold_left addkey (flat_map (fun p => map fst (rev p)) ps) (map fst t).
Proof.
  induction ps as [|p ps IH]; intros t r; cbn [visitPipelines flat_map]; [intros [= <-]; auto|]. destruct (visitPipeline t [] (rev p)) as [x| |] eqn:E; cbn [obind]; try discriminate.
  destruct (visitPipelines (fst x) ps) as [y| |] eqn:F; cbn [obind]; try discriminate. intros [= <-]. cbn [fst]. etransitivity; [apply (IH _ _ F)|]. rewrite fold_left_app. f_equal. apply (keys_pipeline _ _ _ _ E).
Qed.
Lemma addkey_in K n : In n K -> addkey K n = K.
Proof. intros I. unfold addkey. assert (E : existsb (fun m => m =s n) K = true) by (apply existsb_exists; exists n; split; auto; apply seq_eqb_refl). rewrite E. auto. Qed.
Lemma addkey_new K n : ~ In n K -> addkey K n = K ++ [n].
Proof. intros I. unfold addkey. destruct (existsb _ K) eqn:E; auto. apply existsb_exists in E as (m & Im & E). apply seq_eqb_eq in E. congruence. Qed.
Lemma addkeys_in l : forall K, incl l K -> fold_left addkey l K = K.
Proof. induction l as [|n l IH]; intros K H; cbn; auto. rewrite addkey_in by (apply H; left; auto). apply IH. intros x I. apply H. right. auto. Qed.

(** Pipelines of a plan. *)
Lemma removelast_in (x : str) q : In x (removelast q) -> In x q.
Proof. induction q as [|a q IHq]; [intros []|]. cbn. destruct q; [intros []|]. intros [->|I]; auto. Qed.
Lemma plan_pipes_names p l x : In l (plan_pipes p) -> In x l -> In x (own p).
Proof.
  unfold plan_pipes, own. intros I X. apply in_or_app. apply in_app_iff in I as [I|[<-|[]]]; [left; eapply lines_names; eauto|]. apply in_rev in X. destruct X as [<-|X]; [right; left; auto|left; apply path_names; auto].
Qed.
Lemma own_split p : NoDup (own p) -> NoDup (names (p_rel p)) /\ ~ In (p_label p) (names (p_rel p)).
Proof. unfold own. intros ND. split; [eapply NoDup_app_remove_r; eauto|]. apply NoDup_remove_2 in ND. rewrite app_nil_r in ND. auto. Qed.
Lemma plan_apart plan : Forall (fun p => complete (p_rel p)) plan -> NoDup (flat_map own plan) -> well_connected (flat_map plan_pipes plan).
Proof.
  intros F ND. rewrite Forall_forall in F. assert (One : forall p, In p plan -> well_connected (plan_pipes p)).
  { intros p I. destruct (own_split p (nodup_one _ _ _ ND I)). apply plan_connected; auto. }
  split.
  - apply Forall_forall. intros l I. apply in_flat_map in I as (p & Ip & I). destruct (One p Ip) as [H _]. rewrite Forall_forall in H. auto.
  - apply fop_flat; [intros p I; apply (One p I)|]. apply (fop_names own); auto. intros a b Ia Ib D l l' Il Il' x M X. apply (D x); [|eapply plan_pipes_names; eauto].
    eapply plan_pipes_names; eauto. apply removelast_in, middle_removelast. auto.
Qed.
Lemma plan_good plan p : Forall (fun p => complete (p_rel p)) plan -> NoDup (flat_map own plan) -> In p plan -> Good (flat_map plan_pipes plan) false (p_rel p) /\
  into true (p_label p) (flat_map plan_pipes plan) = [node_name (p_rel p)].
Proof.
  intros F ND I. rewrite Forall_forall in F. destruct (own_split p (nodup_one _ _ _ ND I)) as [NDp Nl]. destruct (good_tree (p_rel p) (F p I) NDp) as [G _]. specialize (G _ Nl).
  assert (Ow : forall x b, In x (own p) -> into b x (flat_map plan_pipes plan) = into b x (plan_pipes p)).
  { intros x b X. rewrite into_flat. apply (into_own own plan_pipes); auto. intros c l Ic Il Xl. eapply plan_pipes_names; eauto. }
  split.
  - revert G. apply good_ext. intros x b X. rewrite Ow; auto. unfold own. apply in_or_app. auto.
  - rewrite Ow by (unfold own; apply in_or_app; right; left; auto). unfold plan_pipes. rewrite into_app. fold (lines (p_rel p)).
    rewrite into_nowhere by (intros l Il X; apply Nl; eapply lines_names; eauto). cbn [app rev]. destruct (F p I) as [Na _].
    rewrite (into_split true (p_label p) (rev (path (p_rel p))) []); [|intros J; apply in_rev, path_names in J; auto|intros []]. rewrite rev_involutive, path_eq by auto. reflexivity.
Qed.
(** A relation is the relation of a subquery or some pipeline goes on from it. *)
Lemma goes_on t x : complete t -> In x (names t) -> In x (path t) \/ (exists p, In p (lines t) /\ In x (removelast p)) \/ (exists s, In s (symbols t) /\ In x (map node_name (node_pushes s))).
Proof.
  induction t as [|t Na IH] using tree_ind; [intros _ []|]. intros C X. rewrite Forall_forall in IH. rewrite names_children in X by auto.
  apply in_app_iff in X as [X|[<-|[]]]; [|left; rewrite path_eq by auto; left; auto]. apply in_flat_map in X as (c & Ic & X).
  assert (Up : forall p, In p (lines c) -> In p (lines t)) by (intros p I; rewrite lines_children by auto; apply in_or_app; left; apply in_flat_map; eauto).
  assert (Self : In t (symbols t)) by (rewrite symbols_children by auto; apply in_or_app; right; left; auto).
  destruct (IH c Ic (complete_children _ _ C Ic) X) as [P|[(p & Ip & P)|(s & Is & P)]]; [|right; left; eauto|right; right; exists s; split; auto; eapply children_symbols; eauto].
  pose proof (complete_children _ _ C Ic) as [Nac _]. apply children_in in Ic as [Ii|Iq].
  - destruct (ins_cases t c C Ii) as [[Eb _]|En].
    + left. rewrite path_eq, Eb by auto. right. auto.
    + right. left. exists (rev (node_name t :: path c)). split.
      * rewrite lines_children by auto. apply in_or_app. right. unfold pipes. apply in_or_app. left. apply in_map_iff. exists c. rewrite En. auto.
      * cbn [rev]. rewrite removelast_app by discriminate. cbn. rewrite app_nil_r. apply in_rev in P. auto.
  - rewrite path_eq in P by auto. destruct P as [<-|P].
    + right. right. exists t. split; auto. apply in_map. auto.
    + right. left. exists (rev (path c)). split.
      * rewrite lines_children by auto. apply in_or_app. right. unfold pipes. apply in_or_app. right. apply in_map_iff. exists c. auto.
      * rewrite path_eq by auto. cbn [rev]. rewrite removelast_app by discriminate. cbn. rewrite app_nil_r. apply in_rev in P. auto.
Qed.
Lemma flat_map_nil {A B} (f : A -> list B) l : (forall a, In a l -> f a = []) -> flat_map f l = [].
Proof. induction l as [|a l IH]; cbn; auto. intros H. rewrite (H a), IH; auto. Qed.
Lemma names_all plan : flat_map (fun p => names (p_rel p)) plan = map node_name (all_symbols plan).
Proof. unfold all_symbols. induction plan as [|p l IH]; cbn; auto. rewrite map_app, <- IH. reflexivity. Qed.
Lemma own_perm plan : Permutation (flat_map own plan) (map node_name (all_symbols plan) ++ map p_label plan).
Proof.
  rewrite <- names_all. induction plan as [|p l IH]; cbn; auto. unfold own at 1. rewrite <- app_assoc. cbn. rewrite <- app_assoc. apply Permutation_app_head. rewrite IH. apply Permutation_middle.
Qed.
Lemma parents_all plan others S : Forall (fun p => complete (p_rel p)) plan -> r_rels S = x_rels (text_of plan others) -> parents S = flat_map (fun s => map node_name (node_pushes s)) (all_symbols plan).
Proof.
  intros F E. unfold parents. rewrite E. cbn [x_rels text_of]. assert (H : forall s, In s (all_symbols plan) -> node_ok s) by (intros s I; apply complete_node; eapply all_complete; eauto).
  induction (all_symbols plan) as [|s l IH]; cbn; auto. rewrite IH by (intros; apply H; right; auto). f_equal. specialize (H s (or_introl eq_refl)). destruct s as [|n k b ins es]; [destruct H|]. destruct H as (_ & _ & X & _).
  cbn. apply tsubs_all. eapply exprs_flat; eauto.
Qed.
Lemma flat_keys {B} (g : str * psym -> list B) t : NoDup (map fst t) -> flat_map g t = flat_map (fun n => match plookup t n with Some s => g (n, s) | None => [] end) (map fst t).
Proof.
  intros ND. assert (H : forall l, incl l t -> flat_map g l = flat_map (fun n => match plookup t n with Some s => g (n, s) | None => [] end) (map fst l)).
  { induction l as [|[n s] l IH]; cbn; auto. intros I. rewrite (plookup_some t n s) by (auto; apply I; left; auto). f_equal. apply IH. intros x X. apply I. right. auto. }
  apply H. intros x. auto.
Qed.
Lemma find_sections l s : NoDup (map node_name l) -> In s l -> find (fun r => x_name r =s node_name s) (map section_of l) = Some (section_of s).
Proof.
  induction l as [|a l IH]; [intros _ []|]. cbn. intros ND I. inversion ND; subst. rewrite section_name. destruct I as [->|I]; [rewrite seq_eqb_refl; auto|]. destruct (node_name a =s node_name s) eqn:E; auto.
  apply seq_eqb_eq in E. exfalso. apply H1. rewrite E. apply in_map. auto.
Qed.
Lemma keys_plan plan : forall K, (forall p, In p plan -> incl (names (p_rel p)) K) -> NoDup (K ++ map p_label plan) ->
  fold_left addkey (flat_map (fun l => rev l) (flat_map plan_pipes plan)) K = K ++ map p_label plan.
Proof.
  induction plan as [|p plan IH]; intros K Hn ND; cbn [flat_map map]; [cbn; rewrite app_nil_r; auto|]. rewrite flat_map_app, fold_left_app. change (plan_pipes p) with (flat_map pipes (symbols (p_rel p)) ++ [rev (p_label p :: path (p_rel p))]). rewrite flat_map_app, fold_left_app.
  assert (E1 : fold_left addkey (flat_map (fun l => rev l) (flat_map pipes (symbols (p_rel p)))) K = K).
  { apply addkeys_in. intros x X. apply in_flat_map in X as (l & Il & X). apply (Hn p (or_introl eq_refl)). eapply lines_names; eauto. apply in_rev. auto. }
  rewrite E1. cbn [flat_map]. rewrite app_nil_r. rewrite rev_involutive. cbn [fold_left].
  assert (Nl : ~ In (p_label p) K) by (intros I; cbn in ND; apply NoDup_remove_2 in ND; apply ND, in_or_app; auto). rewrite addkey_new by auto.
  rewrite (addkeys_in (path (p_rel p))) by (intros x X; apply in_or_app; left; apply (Hn p (or_introl eq_refl)), path_names; auto).
  rewrite IH; [rewrite <- app_assoc; auto|intros q Iq x X; apply in_or_app; left; apply (Hn q (or_intror Iq)); auto|rewrite <- app_assoc; auto].
Qed.
Lemma plookup_in t n s : plookup t n = Some s -> In (n, s) t.
Proof. induction t as [|[m r] t IH]; cbn; [discriminate|]. destruct (m =s n) eqn:E; [|auto]. intros [= ->]. apply seq_eqb_eq in E. subst. auto. Qed.
Lemma plain_keys ps : flat_map (fun p => map fst (rev p)) (map plain ps) = flat_map (fun l => rev l) ps.
Proof. induction ps as [|p l IH]; cbn; auto. rewrite IH. f_equal. unfold plain. rewrite <- map_rev, map_map. apply map_id. Qed.
Theorem round_trip_more plan others : complete_plan plan -> names_apart plan others -> exists S, readText (text_of plan others) = Ok (S, []) /\
  (recorded (r_tab S) (flat_map plan_pipes plan) /\ forall s, In s (all_symbols plan) -> is_rel (r_tab S) (node_name s) = true) /\
  forall fuel, (forall p, In p plan -> size (p_rel p) <= fuel) -> outputToBinaryPlan S fuel = Ok (map (fun p => (strip (p_rel p), p_names p)) plan).
Proof.
  intros [F NO] NA. unfold names_apart in NA.
  set (AN := map node_name (all_symbols plan)). set (LB := map p_label plan).
  assert (ND : NoDup (others ++ AN ++ LB)) by (eapply Permutation_NoDup; [apply Permutation_app_head, own_perm|exact NA]).
  assert (NDo : NoDup (flat_map own plan)) by (eapply NoDup_app_remove_l; eauto).
  set (t0 := map (fun n => (n, POther)) others). set (R1 := map (fun r => (x_name r, PRel no_data)) (map section_of (all_symbols plan))).
  assert (K0 : map fst t0 = others) by (unfold t0; rewrite map_map; apply map_id).
  assert (K1 : map fst R1 = AN) by (unfold R1, AN; rewrite !map_map; apply map_ext; intros s; cbn; apply section_name).
  assert (D1 : define_rels t0 (map section_of (all_symbols plan)) = (t0 ++ R1, [])).
  { apply define_all. rewrite K0, map_map. rewrite (map_ext _ node_name) by (intros s; apply section_name). fold AN. rewrite app_assoc in ND. eapply NoDup_app_remove_r; eauto. }
  set (ps := flat_map plan_pipes plan) in *. set (rt := x_roots (text_of plan others)).
  assert (Rt : (rt = [] /\ forall p, In p plan -> p_names p = []) \/ (exists p, plan = [p] /\ p_label p = root_name /\ p_names p <> [] /\ rt = [p_names p])).
  { unfold rt. cbn [x_roots text_of]. destruct NO as [NO|(p & -> & NO)].
    - left. split; auto. clear - NO. induction plan as [|p l IH]; cbn; auto. rewrite (NO p) by (left; auto). apply IH. intros; apply NO; right; auto.
    - cbn. destruct (p_names p) eqn:E; [left; split; auto; intros q [<-|[]]; auto|right; exists p; rewrite E; repeat split; auto; discriminate]. }
  assert (D2 : exists R2, define_roots (t0 ++ R1) false rt = (t0 ++ R1 ++ R2, []) /\ Forall (fun e => snd e = PRel no_data) R2 /\
     fold_left addkey (flat_map (fun l => rev l) ps) (map fst (t0 ++ R1 ++ R2)) = others ++ AN ++ LB /\ incl (map fst R2) LB).
  { destruct Rt as [[-> _]|(p & Ep & El & _ & ->)].
    - exists []. rewrite app_nil_r. split; [reflexivity|]. split; [constructor|]. split; [|intros x []]. rewrite map_app, K0, K1. rewrite app_assoc in ND |- *. apply keys_plan; auto.
      intros p I x X. apply in_or_app. right. unfold AN. rewrite <- names_all. apply in_flat_map. eauto.
    - exists [(root_name, PRel no_data)]. assert (ELB : LB = [root_name]) by (unfold LB; rewrite Ep; cbn; rewrite El; auto). split.
      + cbn [define_roots]. rewrite plookup_none; [rewrite <- app_assoc; reflexivity|]. rewrite map_app, K0, K1. rewrite ELB, app_assoc in ND. intros I. apply NoDup_remove_2 in ND. rewrite app_nil_r in ND. auto.
      + split; [repeat constructor|]. rewrite !map_app, K0, K1. cbn [map fst]. rewrite ELB. split; [|intros x; auto]. apply addkeys_in. intros x X. apply in_flat_map in X as (l & Il & X). unfold ps in Il. rewrite Ep in Il. cbn in Il. rewrite app_nil_r in Il.
        apply in_rev in X. pose proof (plan_pipes_names p l x Il X) as W. unfold own in W. apply in_app_iff in W as [W|[<-|[]]].
        * apply in_or_app. right. apply in_or_app. left. unfold AN. rewrite <- names_all, Ep. cbn. rewrite app_nil_r. auto.
        * rewrite El. apply in_or_app. right. apply in_or_app. right. left. auto. }
  destruct D2 as (R2 & D2 & F2 & KF & K2). set (t2 := t0 ++ R1 ++ R2) in *.
  assert (L0 : forall n s, plookup t2 n = Some s -> (s = POther /\ In n others) \/ (s = PRel no_data /\ (In n AN \/ In n LB))).
  { intros n s L. apply plookup_in in L. unfold t2 in L. apply in_app_iff in L as [L|L].
    - left. unfold t0 in L. apply in_map_iff in L as (m & [= <- <-] & L). auto.
    - right. apply in_app_iff in L as [L|L].
      + assert (Q : In n AN) by (rewrite <- K1; apply in_map_iff; exists (n, s); auto). unfold R1 in L. apply in_map_iff in L as (r & [= _ <-] & _). auto.
      + rewrite Forall_forall in F2. pose proof (F2 _ L) as Q. cbn in Q. subst s. split; auto. right. apply K2. apply in_map_iff. exists (n, PRel no_data). auto. }
  assert (Fr : fresh t2) by (intros n d L; apply L0 in L as [[L _]|[L _]]; congruence).
  assert (InW : forall n, In n (concat ps) -> In n AN \/ In n LB).
  { intros n I. apply in_concat in I as (l & Il & X). apply in_flat_map in Il as (p & Ip & Il). pose proof (plan_pipes_names p l n Il X) as W. unfold own in W. apply in_app_iff in W as [W|[<-|[]]].
    - left. unfold AN. rewrite <- names_all. apply in_flat_map. eauto.
    - right. apply in_map. auto. }
  assert (Dis : forall n, In n others -> ~ (In n AN \/ In n LB)) by (intros n I J; apply (nodup_disjoint _ _ n ND I), in_or_app; auto).
  assert (Or : only_relations t2 ps) by (intros n I L; apply L0 in L as [[_ L]|[L _]]; [apply (Dis n L); auto|discriminate]).
  destruct (read_pipelines t2 ps Fr Or) as (t' & errs & E & A & Rec & Rel & Oth). pose proof (plan_apart plan F NDo) as W. fold ps in W. rewrite (proj2 A W) in *. specialize (Rec eq_refl).
  assert (K' : map fst t' = others ++ AN ++ LB).
  { pose proof (keys_pipelines _ _ _ E) as K. cbn [fst] in K. rewrite K, <- KF. f_equal. apply plain_keys. }
  assert (NDk : NoDup (map fst t')) by (rewrite K'; auto).
  set (S := {| r_tab := t'; r_rels := x_rels (text_of plan others); r_roots := rt |}). exists S.
  assert (Pa : parents S = flat_map (fun s => map node_name (node_pushes s)) (all_symbols plan)) by (exact (parents_all plan others S F eq_refl)).
  assert (PaN : incl (parents S) AN).
  { rewrite Pa. intros x X. apply in_flat_map in X as (s & Is & X). apply in_map_iff in X as (q & <- & Iq). unfold AN. apply in_map. apply in_flat_map in Is as (p & Ip & Is). apply in_flat_map. exists p. split; auto.
    rewrite Forall_forall in F. pose proof (symbol_complete _ _ (F p Ip) Is) as Cs. assert (Ic : In q (children s)) by (apply children_in; auto). pose proof (complete_children _ _ Cs Ic) as [Nq _].
    eapply symbols_trans; eauto. eapply children_symbols; [apply Cs|exact Ic|]. rewrite symbols_children by auto. apply in_or_app. right. left. auto. }
  split.
  { unfold readText. cbn [x_others x_rels text_of]. fold t0. rewrite D1. fold rt. rewrite D2. change (map (map (fun n => (n, n))) (x_pipes (text_of plan others))) with (map plain ps). rewrite E. cbn [obind fst snd map app].
    assert (E4 : flat_map (fun s => match plookup t' s with None => [EMissing s] | Some _ => [] end) (flat_map (fun s => flat_map tsubs (x_exprs s)) (map section_of (all_symbols plan))) = []).
    { apply flat_map_nil. intros x X. destruct (plookup t' x) eqn:L; auto. exfalso. assert (Ix : In x AN) by (apply PaN; exact X).
      apply lookup_exists in L. assert (T : existsb (fun m => m =s x) (map fst t') = true) by (apply existsb_exists; exists x; split; [rewrite K'; apply in_or_app; right; apply in_or_app; auto|apply seq_eqb_refl]). congruence. }
    rewrite E4. reflexivity. }
  split.
  { split; [exact Rec|]. intros s I. apply Rel. left. assert (I' : In (node_name s) AN) by (apply in_map; exact I). cbn [r_tab S]. unfold is_rel. destruct (plookup t2 (node_name s)) as [[d|]|] eqn:L; auto.
    - apply L0 in L as [[_ L]|[L _]]; [exfalso; apply (Dis _ L); auto|discriminate].
    - exfalso. apply lookup_exists in L. assert (T : existsb (fun m => m =s node_name s) (map fst t2) = true).
      { apply existsb_exists. exists (node_name s). split; [|apply seq_eqb_refl]. unfold t2. rewrite !map_app, K1. apply in_or_app. right. apply in_or_app. auto. } congruence. }
  intros fuel Hf.
  assert (Fs : forall s, In s (all_symbols plan) -> find_section S (node_name s) = Some (section_of s)).
  { intros s I. unfold find_section. cbn [r_rels S x_rels text_of]. apply find_sections; auto. apply NoDup_app_remove_l in ND. eapply NoDup_app_remove_r; eauto. }
  assert (Dl : forall n, In n AN \/ In n LB -> exists d, plookup t' n = Some (PRel d) /\ d = data t' n).
  { intros n I. assert (Is : is_rel t' n = true).
    { apply Rel. destruct I as [I|I].
      - left. unfold is_rel. destruct (plookup t2 n) as [[d|]|] eqn:L; auto.
        + apply L0 in L as [[_ L]|[L _]]; [exfalso; apply (Dis n L); auto|discriminate].
        + exfalso. apply lookup_exists in L. assert (T : existsb (fun m => m =s n) (map fst t2) = true).
          { apply existsb_exists. exists n. split; [|apply seq_eqb_refl]. unfold t2. rewrite !map_app, K1. apply in_or_app. right. apply in_or_app. auto. } congruence.
      - right. unfold LB in I. apply in_map_iff in I as (p & <- & Ip). apply in_concat. exists (rev (p_label p :: path (p_rel p))). split; [apply in_flat_map; exists p; split; auto; unfold plan_pipes; apply in_or_app; right; left; auto|].
        apply in_rev. rewrite rev_involutive. left. auto. }
    unfold is_rel in Is. unfold data. destruct (plookup t' n) as [[d|]|]; try discriminate. eauto. }
  assert (St : starts S = map (fun p => (p_label p, data t' (p_label p))) plan).
  { unfold starts. cbn [r_tab S]. rewrite flat_keys by auto. rewrite K', !flat_map_app.
    assert (Z1 : forall (l : list str) f, (forall n, In n l -> f n = @nil (str * rdata)) -> flat_map f l = []) by (intros; apply flat_map_nil; auto).
    rewrite (Z1 others), (Z1 AN).
    - cbn [app]. unfold LB. assert (HL : forall p, In p plan -> exists d, plookup t' (p_label p) = Some (PRel d) /\ d = data t' (p_label p) /\ start d = None /\ existsb (fun q => q =s p_label p) (parents S) = false).
      { intros p Ip. assert (Il : In (p_label p) LB) by (apply in_map; auto). destruct (Dl (p_label p) (or_intror Il)) as (d & L & Ed). exists d. split; auto. split; auto. split.
        - destruct (Rec (p_label p)) as (_ & _ & Rs). rewrite <- Ed in Rs. destruct (start d) eqn:Es; auto. exfalso. destruct (proj1 Rs) as (l & Ill & X); [congruence|].
          apply in_flat_map in Ill as (p' & Ip' & Ill). pose proof (plan_pipes_names p' l _ Ill (removelast_in _ _ X)) as Wn.
          assert (Eq : p = p') by (eapply (nodup_same own); eauto; unfold own; apply in_or_app; right; left; auto). subst p'. destruct (own_split p (nodup_one _ _ _ NDo Ip)) as [_ Nl].
          unfold plan_pipes in Ill. apply in_app_iff in Ill as [Ill|[<-|[]]]; [apply Nl; eapply lines_names; eauto; apply removelast_in; auto|].
          cbn [rev] in X. rewrite removelast_app in X by discriminate. cbn in X. rewrite app_nil_r in X. apply in_rev, path_names in X. auto.
        - destruct (existsb _ (parents S)) eqn:Ex; auto. exfalso. apply existsb_exists in Ex as (q & Iq & Eq). apply seq_eqb_eq in Eq. subst q. apply PaN in Iq. apply NoDup_app_remove_l in ND. apply (nodup_disjoint _ _ _ ND Iq Il). }
      clearbody S. clear - HL. induction plan as [|p l IH]; cbn [map flat_map]; auto. destruct (HL p (or_introl eq_refl)) as (d & L & -> & Sd & X). rewrite L. rewrite X, Sd. cbn [app]. f_equal. apply IH. intros; apply HL; right; auto.
    - intros n In'. destruct (Dl n (or_introl In')) as (d & L & Ed). rewrite L. destruct (existsb _ (parents S)) eqn:X; auto. destruct (start d) eqn:Sd; auto. exfalso.
      unfold AN in In'. rewrite <- names_all in In'. apply in_flat_map in In' as (p & Ip & In'). rewrite Forall_forall in F. destruct (Rec n) as (_ & _ & Rs). rewrite <- Ed in Rs.
      assert (Go : (exists l, In l ps /\ In n (removelast l)) -> False) by (intros H; apply Rs in H; congruence).
      destruct (goes_on (p_rel p) n (F p Ip) In') as [P|[(l & Il & P)|(s & Is & P)]].
      + apply Go. exists (rev (p_label p :: path (p_rel p))). split; [apply in_flat_map; exists p; split; auto; unfold plan_pipes; apply in_or_app; right; left; auto|].
        cbn [rev]. rewrite removelast_app by discriminate. cbn. rewrite app_nil_r. apply in_rev in P. auto.
      + apply Go. exists l. split; auto. apply in_flat_map. exists p. split; auto. unfold plan_pipes. apply in_or_app. auto.
      + assert (T : existsb (fun q => q =s n) (parents S) = true); [|congruence]. apply existsb_exists. exists n. split; [|apply seq_eqb_refl]. rewrite Pa. apply in_flat_map. exists s. split; auto. apply in_flat_map. eauto.
    - intros n I. assert (O : other t' n = true).
      { rewrite Oth. unfold other. destruct (plookup t2 n) as [[d|]|] eqn:L; auto.
        - apply L0 in L as [[L _]|[_ L]]; [discriminate|]. exfalso. apply (Dis n I). auto.
        - exfalso. apply lookup_exists in L. assert (T : existsb (fun m => m =s n) (map fst t2) = true).
          { apply existsb_exists. exists n. split; [|apply seq_eqb_refl]. unfold t2. rewrite map_app, K0. apply in_or_app. auto. } congruence. }
      unfold other in O. destruct (plookup t' n) as [[d|]|]; auto; discriminate. }
  unfold outputToBinaryPlan. rewrite St. cbn [r_roots S].
  assert (Each : forall p, In p plan -> news (data t' (p_label p)) = [node_name (p_rel p)] /\ build S fuel (node_name (p_rel p)) = Ok (strip (p_rel p)) /\ match rt with names :: _ => names | [] => [] end = p_names p).
  { intros p Ip. destruct (plan_good plan p F NDo Ip) as [G In1]. fold ps in G, In1. destruct (Rec (p_label p)) as (Rn & _). rewrite In1 in Rn. split; auto. split.
    - eapply (build_tree S ps); eauto; [rewrite Forall_forall in F; auto|]. intros s Is. apply Fs. apply in_flat_map. eauto.
    - destruct Rt as [[-> H]|(p' & Ep & _ & _ & ->)]; [rewrite H; auto|]. rewrite Ep in Ip. destruct Ip as [<-|[]]. auto. }
  clearbody S rt. clear - Each. induction plan as [|p l IH]; cbn [map omap_list]; auto. destruct (Each p (or_introl eq_refl)) as (En & Eb & Er). rewrite IH by (intros; apply Each; right; auto). cbn [fst snd]. rewrite En, Eb, Er. reflexivity.
Qed.
Theorem round_trip plan others : complete_plan plan -> names_apart plan others -> exists x S, print plan others = Ok (x, []) /\ readText x = Ok (S, []) /\
  forall fuel, (forall p, In p plan -> size (p_rel p) <= fuel) -> outputToBinaryPlan S fuel = Ok (map (fun p => (strip (p_rel p), p_names p)) plan).
Proof.
  intros C A. destruct (round_trip_more plan others C A) as (S & R & _ & H). exists (text_of plan others), S. split; [apply print_plan, C|]. auto.
Qed.

(** * What the printed pipelines say *)
(** What stands directly before [x] in the pipelines, in the order of the text. *)
Fixpoint before (x : str) (p : list str) : list str := match p with a :: ((b :: _) as q) => (if b =s x then [a] else []) ++ before x q | _ => [] end.
Definition sources (x : str) (ps : list (list str)) : list str := flat_map (before x) ps.
Lemma before_links x p : before x p = map (fun l => snd (snd l)) (filter (fun l => fst l =s x) (links p)).
Proof. 
  induction p as [|a [|b q] IH]; auto. change (before x (a :: b :: q)) with ((if b =s x then [a] else []) ++ before x (b :: q)).
  change (links (a :: b :: q)) with ((b, (match q with [] => true | _ => false end, a)) :: links (b :: q)). rewrite IH. cbn [filter fst]. destruct (b =s x); auto.
Qed.
Lemma sources_links x ps : sources x ps = map (fun l => snd (snd l)) (filter (fun l => fst l =s x) (flat_map links ps)).
Proof. unfold sources. induction ps as [|p ps IH]; cbn [flat_map]; auto. rewrite filter_app, map_app, <- IH, before_links. auto. Qed.
Lemma sources_into b x ps : into (negb b) x ps = [] -> sources x ps = into b x ps.
Proof.
  rewrite sources_links. unfold into. induction (flat_map links ps) as [|[y [f a]] l IH]; cbn [filter map fst snd]; auto. destruct (y =s x); cbn [andb]; auto.
  destruct f, b; cbn [Bool.eqb negb map snd]; intros H; try discriminate H; f_equal; apply IH; auto.
Qed.
Lemma sources_true x ps : into false x ps = [] -> sources x ps = into true x ps. Proof. apply (sources_into true). Qed.
Lemma sources_false x ps : into true x ps = [] -> sources x ps = into false x ps. Proof. apply (sources_into false). Qed.
Lemma good_sub ps t : forall top, complete t -> Good ps top t -> forall s, In s (symbols t) -> exists top', Good ps top' s.
Proof.
  induction t as [|t Na IH] using tree_ind; intros top C G s I; [destruct I|]. rewrite symbols_children in I by auto. apply in_app_iff in I as [I|[<-|[]]]; [|eauto].
  apply in_flat_map in I as (c & Ic & I). rewrite Forall_forall in IH. inversion G as [? ? _ _ _ Gi Gq]; subst. destruct (proj1 (children_in t c) Ic) as [J|J];
    eapply (IH c Ic); eauto using complete_children.
Qed.
Lemma good_sources ps top s : complete s -> Good ps top s -> sources (node_name s) ps = map node_name (ins_of s).
Proof.
  intros C G. inversion G as [? ? Na Gt Gf _ _]; subst. pose proof (complete_node _ C) as N. destruct s as [|n k b ins es]; [discriminate|]. destruct N as (Pk & L & _).
  unfold top_inputs, next_input, below, new_pipelines in Gt, Gf. cbn [ins_of].
  destruct k; try discriminate Pk; cbn [shape_of] in Gt, Gf; cbn [inputs_of] in L; destruct ins as [|i ins]; try discriminate L.
  1: rewrite sources_true by (rewrite Gf; destruct top; auto); rewrite Gt; destruct top; auto.
  1-5: destruct ins; [|discriminate L]; destruct top; [rewrite sources_true by (rewrite Gf; auto); rewrite Gt; auto|rewrite sources_false by (rewrite Gt; auto); rewrite Gf; auto].
  all: rewrite sources_true by (rewrite Gf; destruct top; auto); rewrite Gt; destruct top; auto.
Qed.
Lemma path_start t : complete t -> exists s, In s (symbols t) /\ below s = None /\ hd_error (rev (path t)) = Some (node_name s).
Proof.
  induction t as [|t Na IH] using tree_ind; [intros [Hq _]; discriminate|]. intros C. rewrite path_eq by auto. rewrite Forall_forall in IH.
  assert (St : In t (symbols t)) by (rewrite symbols_children by auto; apply in_or_app; right; left; auto).
  destruct (below t) as [i|] eqn:B; [|exists t; auto]. destruct (below_in _ _ B) as [Ii _]. assert (Ic : In i (children t)) by (apply children_in; auto).
  destruct (IH i Ic (complete_children _ _ C Ic)) as (s & Is & Bs & H). exists s. split; [eapply children_symbols; eauto|]. split; auto. cbn [rev]. destruct (rev (path i)); [discriminate|]. exact H.
Qed.
Lemma pipe_start plan p l : complete_plan plan -> In p plan -> In l (plan_pipes p) -> exists s, In s (symbols (p_rel p)) /\ below s = None /\ hd_error l = Some (node_name s).
Proof.
  intros [F _] Ip Il. rewrite Forall_forall in F. specialize (F p Ip). unfold plan_pipes in Il. apply in_app_iff in Il as [Il|[<-|[]]].
  - apply in_flat_map in Il as (t & It & Il). pose proof (symbol_complete _ _ F It) as Ct. apply pipes_in in Il as (c & Il).
    assert (Q : In c (children t)) by (destruct Il as [[I _]|[I _]]; [apply new_in; auto|apply children_in; auto]).
    destruct (path_start c (complete_children _ _ Ct Q)) as (s & Is & Bs & H). exists s. split; [eapply symbols_trans; [exact It|]; eapply children_symbols; eauto; apply Ct|]. split; auto.
    destruct Il as [[_ ->]|[_ ->]]; auto. cbn [rev]. destruct (rev (path c)); [discriminate|]. exact H.
  - destruct (path_start _ F) as (s & Is & Bs & H). exists s. split; auto. split; auto. cbn [rev]. destruct (rev (path (p_rel p))); [discriminate|]. exact H.
Qed.
Lemma all_occur plan p s : complete_plan plan -> In p plan -> In s (symbols (p_rel p)) -> exists l, In l (plan_pipes p) /\ In (node_name s) l.
Proof.
  intros [F _] Ip Is. rewrite Forall_forall in F. specialize (F p Ip). unfold plan_pipes.
  destruct (goes_on (p_rel p) (node_name s) F) as [P|[(l & Il & P)|(r & Ir & P)]]; [unfold names; apply in_map; auto|..].
  - exists (rev (p_label p :: path (p_rel p))). split; [apply in_or_app; right; left; auto|]. apply in_rev. rewrite rev_involutive. right. auto.
  - exists l. split; [apply in_or_app; left; auto|]. apply removelast_in. auto.
  - apply in_map_iff in P as (q & E & Iq). exists (rev (path q)). split.
    + apply in_or_app. left. apply in_flat_map. exists r. split; auto. unfold pipes. apply in_or_app. right. apply in_map_iff. eauto.
    + rewrite <- E. apply in_rev. rewrite rev_involutive. pose proof (symbol_complete _ _ F Ir) as Cr. assert (Ic : In q (children r)) by (apply children_in; auto). destruct (complete_children _ _ Cr Ic) as [Nq _].
      rewrite path_eq by auto. left. auto.
Qed.
Theorem print_sources plan others : complete_plan plan -> names_apart plan others -> exists x, print plan others = Ok (x, []) /\
  forall p, In p plan -> sources (p_label p) (x_pipes x) = [node_name (p_rel p)] /\ (forall s, In s (symbols (p_rel p)) -> sources (node_name s) (x_pipes x) = map node_name (ins_of s)).
Proof.
  intros C NA. exists (text_of plan others). split; [apply print_plan; apply C|]. intros p Ip. unfold names_apart in NA. apply NoDup_app_remove_l in NA. destruct C as [F NO].
  destruct (plan_good plan p F NA Ip) as [G In1]. rewrite Forall_forall in F. cbn [x_pipes text_of]. split.
  - rewrite sources_true; auto. 
    rewrite into_flat. apply flat_map_nil. intros q Iq. assert (Hl : forall l', In l' (plan_pipes q) -> into false (p_label p) [l'] = []).
    { intros l' Il. assert (W : forall x, In x l' -> In x (own q)) by (intros; eapply plan_pipes_names; eauto). destruct (str_eq_dec (p_label p) (p_label q)) as [El|Nl].
      - assert (Eq : p = q) by (eapply (nodup_same own) with (x := p_label p); eauto; unfold own; apply in_or_app; right; left; auto). subst q. unfold plan_pipes in Il. apply in_app_iff in Il as [Il|[<-|[]]].
        + apply into_none. intros X. destruct (own_split p (nodup_one _ _ _ NA Ip)) as [_ Nl]. apply Nl. eapply lines_names; eauto.
        + cbn [rev]. rewrite (into_split false (p_label p) (rev (path (p_rel p))) []); [destruct (rev (rev (path (p_rel p)))); auto| |intros []].
          intros X. apply in_rev, path_names in X. destruct (own_split p (nodup_one _ _ _ NA Ip)) as [_ Nl]. auto.
      - apply into_none. intros X. apply W in X. assert (Eq : p = q) by (eapply (nodup_same own); eauto; unfold own; apply in_or_app; right; left; auto). congruence. }
    clear - Hl. induction (plan_pipes q) as [|l' ls IH]; [reflexivity|]. change (l' :: ls) with ([l'] ++ ls). rewrite into_app, Hl by (left; auto). apply IH. intros; apply Hl; right; auto.
  - intros s Is. destruct (good_sub _ _ _ (F p Ip) G s Is) as [top Gs]. eapply good_sources; eauto. eapply symbol_complete; eauto.
Qed.

(** * Names defined twice *)
Lemma unknown_name t n : plookup t n = None <-> ~ In n (map fst t).
Proof.
  induction t as [|[m s] t IH]; cbn; [tauto|]. destruct (seq_eqb_spec m n) as [-> | N]; [split; [discriminate|intros H; destruct H; auto]|]. rewrite IH. intuition congruence.
Qed.
Lemma define_errors rs : forall t n, In (EDefined n) (snd (define_rels t rs)) <->
  exists before r after, rs = before ++ r :: after /\ x_name r = n /\ (In n (map fst t) \/ exists r', In r' before /\ x_name r' = n).
Proof.
  induction rs as [|r rs IH]; intros t n; cbn [define_rels].
  - split; [intros []|]. intros (b & r & a & E & _). destruct b; discriminate.
  - assert (Step : (exists before q after, r :: rs = before ++ q :: after /\ x_name q = n /\ (In n (map fst t) \/ exists r', In r' before /\ x_name r' = n)) <->
      (x_name r = n /\ In n (map fst t)) \/ exists before q after, rs = before ++ q :: after /\ x_name q = n /\ (In n (map fst t) \/ x_name r = n \/ exists r', In r' before /\ x_name r' = n)).
    { split.
      - intros ([|b before] & q & after & E & N & H); injection E as -> ->.
        + left. split; auto. destruct H as [H|(r' & [] & _)]. auto.
        + right. exists before, q, after. split; auto. split; auto. destruct H as [H|(r' & [-> | I] & H)]; eauto.
      - intros [[N I]|(before & q & after & -> & N & H)].
        + exists [], r, rs. auto.
        + exists (r :: before), q, after. split; auto. split; auto. destruct H as [H|[H|(r' & I & H)]]; [auto| |]; right; [exists r|exists r']; cbn; auto. }
    rewrite Step. clear Step. destruct (plookup t (x_name r)) as [s|] eqn:P.
    + assert (I : In (x_name r) (map fst t)) by (destruct (in_dec (list_eq_dec ascii_dec) (x_name r) (map fst t)) as [|N]; auto; apply unknown_name in N; congruence).
      specialize (IH t n). destruct (define_rels t rs) as [t' er]. cbn [snd In] in *. rewrite IH. split.
      * intros [E|(b & q & a & -> & N & H)]; [injection E as E; left; subst; auto|right; exists b, q, a; intuition].
      * intros [[N _]|(b & q & a & -> & N & H)]; [left; congruence|right; exists b, q, a; split; auto; split; auto]. destruct H as [H|[H|H]]; auto. left. congruence.
    + rewrite IH, map_app. cbn [map fst]. apply unknown_name in P. split.
      * intros (b & q & a & -> & N & H). right. exists b, q, a. split; auto. split; auto. rewrite in_app_iff in H. cbn in H. intuition.
      * intros [[N I]|(b & q & a & -> & N & H)]; [congruence|]. exists b, q, a. split; auto. split; auto. rewrite in_app_iff. cbn. intuition.
Qed.
Lemma defined_twice x S errs : readText x = Ok (S, errs) -> forall n, In (EDefined n) errs <->
  exists before r after, x_rels x = before ++ r :: after /\ x_name r = n /\ (In n (x_others x) \/ exists r', In r' before /\ x_name r' = n).
Proof.
  unfold readText. intros E n. pose proof (define_errors (x_rels x) (map (fun n => (n, POther)) (x_others x)) n) as D. rewrite map_map, map_id in D. rewrite <- D. clear D.
  destruct (define_rels _ _) as [t1 e1]. assert (R : forall l t b, ~ In (EDefined n) (snd (define_roots t b l))).
  { induction l as [|y l IH]; intros t b; cbn [define_roots]; [intros []|].
    assert (Q : ~ In (EDefined n) (snd (let '(t0, er) := define_roots t b l in (t0, ERoot :: er)))) by (specialize (IH t b); destruct (define_roots t b l); cbn in *; intuition discriminate).
    destruct b; auto. destruct (plookup t root_name); auto. }
  specialize (R (x_roots x) t1 false). destruct (define_roots t1 false (x_roots x)) as [t2 e2]. cbn [snd] in *.
  destruct (visitPipelines _ _) as [[t3 e3]| |]; try discriminate. cbn [obind snd fst] in E. injection E as _ <-. rewrite !in_app_iff. split; [|auto].
  intros [H|[H|[H|H]]]; auto; [tauto| |].
  - apply in_map_iff in H as (y & H & _). discriminate.
  - apply in_flat_map in H as (y & _ & H). destruct (plookup t3 y); cbn in H; intuition discriminate.
Qed.
