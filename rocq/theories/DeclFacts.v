(** Specification and proofs for declarations of extension spaces and functions. *)
From Verif Require Import Base BaseFacts SymbolModel SymbolFacts NormalizerModel NormalizerPlanFacts DeclModel.
From Coq Require Import NArith Permutation Sorted Lia ZifyBool ZifyNat ZifyN.

(** * Sets *)
Section Sets.
  Variable less : N -> N -> bool.
  Hypothesis irrefl : forall a, less a a = false.
  Hypothesis trans : forall a b c, less a b = true -> less b c = true -> less a c = true.
  Definition equiv (a b : N) : Prop := less a b = false /\ less b a = false.
  Definition increasing (l : list N) : Prop := StronglySorted (fun a b => less a b = true) l.
  Lemma insert_in x l : forall y, In y (set_insert less x l) -> y = x \/ In y l.
  Proof.
    induction l as [|z l IH]; cbn [set_insert]; intros y; [intros [->|[]]; auto|]. destruct (less z x); [|destruct (less x z)].
    - intros [->|H]; [right; left; auto|]. destruct (IH _ H) as [->|H']; [auto|right; right; auto].
    - intros [->|H]; auto.
    - auto.
  Qed.
  Lemma insert_keeps x l : forall y, In y l -> In y (set_insert less x l).
  Proof.
    induction l as [|z l IH]; cbn [set_insert]; intros y; [intros []|]. destruct (less z x); [|destruct (less x z)].
    - intros [->|H]; [left; auto|right; auto].
    - intros H. right. auto.
    - auto.
  Qed.
  Lemma insert_has x l : exists y, In y (set_insert less x l) /\ equiv x y.
  Proof.
    induction l as [|z l IH]; cbn [set_insert]; [exists x; split; [left; auto|split; apply irrefl]|]. destruct (less z x) eqn:E; [|destruct (less x z) eqn:E'].
    - destruct IH as (y & I & Q). exists y. split; [right|]; auto.
    - exists x. split; [left; auto|split; apply irrefl].
    - exists z. split; [left; auto|split; auto].
  Qed.
  Lemma insert_sorted x l : increasing l -> increasing (set_insert less x l).
  Proof.
    unfold increasing. induction 1 as [|z l St IH F]; cbn [set_insert]; [constructor; constructor|]. destruct (less z x) eqn:E; [|destruct (less x z) eqn:E'].
    - constructor; auto. rewrite Forall_forall in *. intros y I. destruct (insert_in _ _ _ I) as [->|I']; auto.
    - constructor; [constructor; auto|]. rewrite Forall_forall in *. intros y [->|I]; auto. eapply trans; eauto.
    - constructor; auto.
  Qed.
  Lemma set_sorted_from l : forall s, increasing s -> increasing (fold_left (fun s x => set_insert less x s) l s).
  Proof. induction l as [|x l IH]; cbn; auto. intros s H. apply IH, insert_sorted, H. Qed.
  Lemma set_sorted l : increasing (set_of less l).
  Proof. apply set_sorted_from. constructor. Qed.
  Lemma set_in_from l : forall s y, In y (fold_left (fun s x => set_insert less x s) l s) -> In y s \/ In y l.
  Proof. induction l as [|x l IH]; cbn; auto. intros s y H. destruct (IH _ _ H) as [H'|H']; auto. destruct (insert_in _ _ _ H') as [->|?]; auto. Qed.
  Lemma set_in l y : In y (set_of less l) -> In y l.
  Proof. intros H. destruct (set_in_from _ _ _ H) as [[]|]; auto. Qed.
  Lemma set_keeps_from l : forall s y, In y s -> In y (fold_left (fun s x => set_insert less x s) l s).
  Proof. induction l as [|x l IH]; cbn; auto. intros s y H. apply IH, insert_keeps, H. Qed.
  Lemma set_has_from l : forall s x, In x l -> exists y, In y (fold_left (fun s x => set_insert less x s) l s) /\ equiv x y.
  Proof.
    induction l as [|z l IH]; cbn; [intros ? ? []|]. intros s x [->|H]; auto. destruct (insert_has x s) as (y & I & Q). exists y. split; auto. apply set_keeps_from, I.
  Qed.
  Lemma set_has l x : In x l -> exists y, In y (set_of less l) /\ equiv x y.
  Proof. apply set_has_from. Qed.
  Lemma increasing_distinct l : increasing l -> forall a b, In a l -> In b l -> equiv a b -> a = b.
  Proof.
    induction 1 as [|z l St IH F]; intros a b; [intros []|]. rewrite Forall_forall in F. intros [->|A] [->|B] [Q1 Q2]; auto.
    - specialize (F b B). congruence.
    - specialize (F a A). congruence.
    - apply IH; auto. split; auto.
  Qed.
  Lemma increasing_nodup l : increasing l -> NoDup l.
  Proof. induction 1 as [|z l St IH F]; constructor; auto. intros I. rewrite Forall_forall in F. specialize (F z I). rewrite irrefl in F. discriminate. Qed.
End Sets.
Lemma ltb_irrefl a : N.ltb a a = false. Proof. lia. Qed.
Lemma ltb_trans a b c : N.ltb a b = true -> N.ltb b c = true -> N.ltb a c = true. Proof. lia. Qed.
Lemma set_N_in l x : In x (set_of N.ltb l) <-> In x l.
Proof.
  split; [apply set_in|]. intros H. destruct (set_has N.ltb ltb_irrefl l x H) as (y & I & [A B]). replace x with y by lia. auto.
Qed.

(** * Lists of functions *)
Definition among (ss : list N) (f : func) : bool := match f_space f with Some s => existsb (N.eqb s) ss | None => false end.
Lemma filter_split {A} (P Q R : A -> bool) l : (forall x, P x = Q x || R x) -> (forall x, Q x = true -> R x = false) -> Permutation (filter Q l ++ filter R l) (filter P l).
Proof.
  intros E D. induction l as [|x l IH]; cbn; auto. rewrite E. destruct (Q x) eqn:q.
  - rewrite (D x q). cbn. constructor. auto.
  - cbn. destruct (R x); auto. symmetry. apply Permutation_cons_app. symmetry. auto.
Qed.
Lemma spaces_perm ss fs : NoDup ss -> Permutation (flat_map (fun s => filter (space_is s) fs) ss) (filter (among ss) fs).
Proof.
  induction 1 as [|s ss N0 ND IH]; cbn [flat_map].
  - replace (filter (among []) fs) with (@nil func); auto. induction fs as [|f fs IH]; cbn; auto. unfold among at 1. destruct (f_space f); cbn; auto.
  - eapply Permutation_trans; [apply Permutation_app_head, IH|]. apply filter_split.
    + intros f. unfold among, space_is. destruct (f_space f) as [x|]; cbn; auto.
    + intros f. unfold among, space_is. destruct (f_space f) as [x|]; auto. intros H. destruct (existsb (N.eqb x) ss) eqn:E; auto. apply existsb_exists in E as (y & I & Q).
      exfalso. apply N0. replace s with y by lia. auto.
Qed.
Lemma filter_none {A} (P : A -> bool) l : (forall x, In x l -> P x = false) -> filter P l = [].
Proof. induction l as [|x l IH]; cbn; auto. intros H. rewrite (H x) by auto. apply IH. auto. Qed.
Lemma filter_all {A} (P : A -> bool) l : (forall x, In x l -> P x = true) -> filter P l = l.
Proof. induction l as [|x l IH]; cbn; auto. intros H. rewrite (H x) by auto. f_equal. apply IH. auto. Qed.
Lemma filter_same {A} (P : A -> bool) l : filter P (filter P l) = filter P l.
Proof. apply filter_all. intros x I. apply filter_In in I. tauto. Qed.
Definition space_le (f g : func) : Prop := match f_space f, f_space g with Some a, Some b => (a <= b)%N | _, _ => False end.
Lemma sorted_app {A} (R : A -> A -> Prop) l l' : StronglySorted R l -> StronglySorted R l' -> (forall x y, In x l -> In y l' -> R x y) -> StronglySorted R (l ++ l').
Proof.
  induction 1 as [|x l St IH F]; cbn; auto. intros S' H. constructor; [apply IH; auto|]. apply Forall_app. split; auto. apply Forall_forall. auto.
Qed.
Lemma spaces_sorted ss fs : increasing N.ltb ss -> StronglySorted space_le (flat_map (fun s => filter (space_is s) fs) ss).
Proof.
  induction 1 as [|s ss St IH F]; cbn [flat_map]; [constructor|]. apply sorted_app; auto.
  - clear. assert (H : forall f, In f (filter (space_is s) fs) -> f_space f = Some s).
    { intros f I. apply filter_In in I as [_ E]. unfold space_is in E. destruct (f_space f) as [x|]; [f_equal; lia|discriminate]. }
    induction (filter (space_is s) fs) as [|f l IH]; constructor; [apply IH; intros; apply H; right; auto|]. apply Forall_forall. intros g I. unfold space_le. rewrite (H f), (H g) by (cbn; auto). lia.
  - intros f g If Ig. apply filter_In in If as [_ Ef]. apply in_flat_map in Ig as (s' & Is' & Ig). apply filter_In in Ig as [_ Eg]. rewrite Forall_forall in F. specialize (F s' Is').
    unfold space_is, space_le in *. destruct (f_space f), (f_space g); try discriminate. lia.
Qed.
Lemma spaces_group ss fs s : NoDup ss -> In s ss -> filter (space_is s) (flat_map (fun s => filter (space_is s) fs) ss) = filter (space_is s) fs.
Proof.
  induction 1 as [|x ss N0 ND IH]; cbn [flat_map]; [intros []|]. rewrite filter_app. intros [->|I].
  - rewrite filter_same. rewrite (filter_none _ (flat_map _ _)); [apply app_nil_r|]. intros f If. apply in_flat_map in If as (s' & Is' & Ig). apply filter_In in Ig as [_ Eg].
    unfold space_is in *. destruct (f_space f) as [y|]; auto. destruct (N.eqb_spec y s); auto. exfalso. apply N0. replace s with s' by lia. auto.
  - rewrite IH by auto. rewrite (filter_none _ (filter _ _)); auto. intros f If. apply filter_In in If as [_ Ef]. unfold space_is in *. destruct (f_space f) as [y|]; auto.
    destruct (N.eqb_spec y s); auto. exfalso. apply N0. replace x with s by lia. auto.
Qed.

(** * The binary plan *)
Definition has_space (f : func) : Prop := f_space f <> None.
Lemma used_in fs s : In s (used_spaces fs) <-> exists f, In f fs /\ f_space f = Some s.
Proof.
  unfold used_spaces. rewrite in_flat_map. split; intros (f & I & H); exists f; split; auto.
  - destruct (f_space f); [destruct H as [->|[]]; auto|destruct H].
  - rewrite H. left. auto.
Qed.
Lemma output_functions t : exists with_space without, outputFunctions t = map (binary_decl t) (with_space ++ without) /\ Permutation (with_space ++ without) (functions t) /\
  StronglySorted space_le with_space /\ Forall has_space with_space /\ (forall s, filter (space_is s) with_space = filter (space_is s) (functions t)) /\ without = filter no_space (functions t).
Proof.
  set (ss := set_of N.ltb (used_spaces (functions t))). assert (Inc : increasing N.ltb ss) by (apply set_sorted; [apply ltb_trans]).
  assert (ND : NoDup ss) by (eapply increasing_nodup; eauto; apply ltb_irrefl).
  exists (flat_map (fun s => filter (space_is s) (functions t)) ss), (filter no_space (functions t)). unfold outputFunctions. fold ss. rewrite map_app. split; auto. split; [|split; [|split; [|split; auto]]].
  - eapply Permutation_trans; [apply Permutation_app_tail, spaces_perm, ND|]. rewrite <- (filter_all (fun _ => true) (functions t)) at 3 by auto.
    assert (E : filter (among ss) (functions t) = filter (fun f => negb (no_space f)) (functions t)).
    { apply filter_ext_in. intros f I. unfold among, no_space. destruct (f_space f) as [s|] eqn:E; auto. cbn. apply existsb_exists. exists s. split; [|lia]. apply set_N_in, used_in. eauto. }
    rewrite E. apply filter_split; intros f; destruct (no_space f); auto.
  - apply spaces_sorted, Inc.
  - apply Forall_forall. intros f I. apply in_flat_map in I as (s & _ & I). apply filter_In in I as [_ E]. unfold space_is, has_space in *. destruct (f_space f); discriminate.
  - intros s. destruct (in_dec N.eq_dec s ss) as [I|N0]; [apply spaces_group; auto|]. rewrite !filter_none; auto.
    + intros f I. unfold space_is. destruct (f_space f) as [x|] eqn:E; auto. destruct (N.eqb_spec x s); auto. exfalso. apply N0. apply set_N_in, used_in. exists f. split; auto. congruence.
    + intros f I. apply in_flat_map in I as (s' & Is' & I). apply filter_In in I as [_ E]. unfold space_is in *. destruct (f_space f) as [x|]; auto. destruct (N.eqb_spec x s); auto.
      exfalso. apply N0. replace s with s' by lia. auto.
Qed.

(** * The text *)
Lemma name_less_irrefl t a : name_less t a a = false.
Proof. unfold name_less. destruct (spaceName t a); auto. apply str_lt_irrefl. Qed.
Lemma name_less_trans t a b c : name_less t a b = true -> name_less t b c = true -> name_less t a c = true.
Proof. unfold name_less. destruct (spaceName t a), (spaceName t b), (spaceName t c); try discriminate; auto. apply str_lt_trans. Qed.
Lemma name_equiv t a b : equiv (name_less t) a b <-> spaceName t a = spaceName t b.
Proof.
  unfold equiv, name_less. destruct (spaceName t a) as [x|], (spaceName t b) as [y|]; split; try (intros []; discriminate); try discriminate; auto.
  - intros [A B]. f_equal. apply str_lt_total; auto.
  - intros H. injection H as ->. split; apply str_lt_irrefl.
Qed.
Lemma sort_insert_perm x l : Permutation (sort_insert x l) (x :: l).
Proof. induction l as [|y l IH]; cbn; auto. destruct (pair_less y x); auto. eapply Permutation_trans; [apply perm_skip, IH|apply perm_swap]. Qed.
Lemma sort_pairs_perm l : Permutation (sort_pairs l) l.
Proof. induction l as [|x l IH]; cbn; auto. eapply Permutation_trans; [apply sort_insert_perm|]. constructor. auto. Qed.
Definition pair_le (a b : str * str) : Prop := pair_less b a = false.
Lemma pair_less_irrefl a : pair_less a a = false.
Proof. unfold pair_less. rewrite !str_lt_irrefl. destruct (fst a =s fst a); auto. Qed.
Lemma pair_less_trans a b c : pair_less a b = true -> pair_less b c = true -> pair_less a c = true.
Proof.
  unfold pair_less. rewrite !orb_true_iff, !andb_true_iff, !seq_eqb_eq. destruct a as [a1 a2], b as [b1 b2], c as [c1 c2]; cbn. intros [A|[-> A]] [B|[-> B]]; auto.
  - left. eapply str_lt_trans; eauto.
  - right. split; auto. eapply str_lt_trans; eauto.
Qed.
Lemma pair_less_asym a b : pair_less a b = true -> pair_less b a = false.
Proof. intros H. destruct (pair_less b a) eqn:E; auto. pose proof (pair_less_trans _ _ _ H E). rewrite pair_less_irrefl in *. discriminate. Qed.
Lemma pair_le_trans a b c : pair_le a b -> pair_le b c -> pair_le a c.
Proof.
  unfold pair_le, pair_less. destruct a as [a1 a2], b as [b1 b2], c as [c1 c2]; cbn. rewrite !orb_false_iff, !andb_false_iff. intros [A A'] [B B']. split; [eapply str_lt_ntrans; eauto|].
  destruct (c1 =s a1) eqn:E; auto. right. apply seq_eqb_eq in E. subst. assert (a1 = b1) by (apply str_lt_total; auto). subst. rewrite seq_eqb_refl in *.
  destruct A' as [|A'], B' as [|B']; try discriminate. eapply str_lt_ntrans; eauto.
Qed.
Lemma sort_insert_sorted x l : StronglySorted pair_le l -> StronglySorted pair_le (sort_insert x l).
Proof.
  induction 1 as [|y l St IH F]; cbn; [constructor; constructor|]. destruct (pair_less y x) eqn:E.
  - constructor; auto. apply Forall_forall. intros z I. apply (Permutation_in _ (sort_insert_perm x l)) in I as [->|I]; [apply pair_less_asym; auto|]. rewrite Forall_forall in F. auto.
  - constructor; [constructor; auto|]. constructor; auto. rewrite Forall_forall in *. intros z I. eapply pair_le_trans; eauto.
Qed.
Lemma sort_pairs_sorted l : StronglySorted pair_le (sort_pairs l).
Proof. induction l; cbn; [constructor|]. apply sort_insert_sorted; auto. Qed.

Definition listed (b : block) : list (option str * (str * str)) := map (fun p => (fst b, p)) (snd b).
Definition as_listed (t : list entry) (f : func) : option str * (str * str) := (match f_space f with Some s => spaceName t s | None => None end, (f_short f, f_name f)).
Definition shown (t : list entry) (l : list block) : Prop := exists ss, increasing (name_less t) ss /\ (forall s, In s ss -> In s (used_spaces (functions t))) /\
  (forall f s, In f (functions t) -> f_space f = Some s -> exists s', In s' ss /\ spaceName t s = spaceName t s') /\
  l = map (fun s => (spaceName t s, sort_pairs (map (fun f => (f_short f, f_name f)) (filter (space_is s) (functions t))))) ss.
Lemma collect_used fs : Forall has_space fs -> (fix go (l : list func) : outcome (list N) :=
             match l with
             | [] => Ok []
             | f :: r => match f_space f with None => Throw EBadOptional | Some s => x <- go r ;; Ok (s :: x) end
             end) fs = Ok (used_spaces fs).
Proof. induction 1 as [|f fs H _ IH]; auto. unfold has_space in H. cbn [used_spaces flat_map]. destruct (f_space f); [|congruence]. rewrite IH. auto. Qed.
Lemma collect_none fs : ~ Forall has_space fs -> (fix go (l : list func) : outcome (list N) :=
             match l with
             | [] => Ok []
             | f :: r => match f_space f with None => Throw EBadOptional | Some s => x <- go r ;; Ok (s :: x) end
             end) fs = Throw EBadOptional.
Proof.
  induction fs as [|f fs IH]; intros H; [destruct H; constructor|]. destruct (f_space f) as [s|] eqn:E; auto. rewrite IH; auto. intros F. apply H. constructor; auto. unfold has_space. congruence.
Qed.
Lemma in_space_is t s : Forall has_space (functions t) -> filter (in_space s) (functions t) = filter (space_is s) (functions t).
Proof. intros H. apply filter_ext_in. intros f I. rewrite Forall_forall in H. specialize (H f I). unfold has_space, in_space, space_is in *. destruct (f_space f); congruence. Qed.
Lemma section_shown t : Forall has_space (functions t) -> exists l, outputFunctionsSection t = Ok l /\ shown t l.
Proof.
  intros H. unfold outputFunctionsSection. rewrite collect_used by auto. cbn [obind]. eexists. split; [reflexivity|]. exists (set_of (name_less t) (used_spaces (functions t))).
  split; [apply set_sorted; apply name_less_trans|]. split; [apply set_in|]. split.
  - intros f s I E. destruct (set_has (name_less t) (name_less_irrefl t) (used_spaces (functions t)) s) as (y & Iy & Q); [apply used_in; eauto|]. exists y. split; auto. apply name_equiv. auto.
  - apply map_ext. intros s. rewrite in_space_is; auto.
Qed.
Lemma section_throws t : ~ Forall has_space (functions t) -> outputFunctionsSection t = Throw EBadOptional.
Proof. intros H. unfold outputFunctionsSection. rewrite collect_none; auto. Qed.
Lemma listed_perm t ss : NoDup ss -> Permutation (flat_map listed (map (fun s => (spaceName t s, sort_pairs (map (fun f => (f_short f, f_name f)) (filter (space_is s) (functions t))))) ss))
  (map (as_listed t) (filter (among ss) (functions t))).
Proof.
  intros ND. eapply Permutation_trans; [|apply Permutation_map, spaces_perm, ND]. clear ND. induction ss as [|s ss IH]; cbn [flat_map map]; auto. rewrite map_app. apply Permutation_app; auto.
  unfold listed. cbn [fst snd]. eapply Permutation_trans; [apply Permutation_map, sort_pairs_perm|]. rewrite map_map. erewrite map_ext_in; [apply Permutation_refl|].
  intros f I. cbn. apply filter_In in I as [_ E]. unfold as_listed, space_is in *. destruct (f_space f) as [x|]; [|discriminate]. replace x with s by lia. auto.
Qed.
(** Spaces that are used and have the same name, or both none, are the same. *)
Definition distinct_names (t : list entry) : Prop := forall f g a b, In f (functions t) -> In g (functions t) -> f_space f = Some a -> f_space g = Some b -> spaceName t a = spaceName t b -> a = b.
Lemma all_listed t l : Forall has_space (functions t) -> distinct_names t -> outputFunctionsSection t = Ok l -> Permutation (flat_map listed l) (map (as_listed t) (functions t)).
Proof.
  intros H D E. destruct (section_shown t H) as (l' & E' & ss & Inc & Sub & Cov & ->). rewrite E in E'. injection E' as ->.
  eapply Permutation_trans; [apply listed_perm; eapply increasing_nodup; eauto; apply name_less_irrefl|]. apply Permutation_map. rewrite filter_all; auto.
  intros f I. rewrite Forall_forall in H. pose proof (H f I) as Hf. unfold has_space, among in *. destruct (f_space f) as [s|] eqn:Ef; [|congruence]. apply existsb_exists. destruct (Cov f s I Ef) as (s' & Is' & En).
  exists s'. split; auto. destruct (proj1 (used_in _ _) (Sub s' Is')) as (g & Ig & Eg). rewrite (D f g s s' I Ig Ef Eg En). lia.
Qed.
Lemma some_lost t l f g a b : Forall has_space (functions t) -> In f (functions t) -> In g (functions t) -> f_space f = Some a -> f_space g = Some b -> a <> b -> spaceName t a = spaceName t b ->
  outputFunctionsSection t = Ok l -> length (flat_map listed l) < length (functions t).
Proof.
  intros H If Ig Ef Eg NE En E. destruct (section_shown t H) as (l' & E' & ss & Inc & Sub & Cov & ->). rewrite E in E'. injection E' as ->.
  assert (P := listed_perm t ss (increasing_nodup _ (name_less_irrefl t) _ Inc)). rewrite (Permutation_length P), map_length.
  assert (X : exists h, In h (functions t) /\ among ss h = false).
  { destruct (in_dec N.eq_dec a ss) as [Ia|Na].
    - exists g. split; auto. unfold among. rewrite Eg. destruct (existsb (N.eqb b) ss) eqn:Q; auto. apply existsb_exists in Q as (y & Iy & Ey). exfalso. apply NE.
      apply (increasing_distinct (name_less t) ss Inc); auto; [replace b with y by lia; auto|]. apply name_equiv. auto.
    - exists f. split; auto. unfold among. rewrite Ef. destruct (existsb (N.eqb a) ss) eqn:Q; auto. apply existsb_exists in Q as (y & Iy & Ey). exfalso. apply Na. replace a with y by lia. auto. }
  destruct X as (h & Ih & Ah). clear - Ih Ah. induction (functions t) as [|x fs IH]; [destruct Ih|]. assert (L : length (filter (among ss) fs) <= length fs) by (clear; induction fs as [|y fs IH]; cbn; auto; destruct (among ss y); cbn; lia).
  cbn. destruct Ih as [->|I]; [rewrite Ah; lia|]. specialize (IH I). destruct (among ss x); cbn; lia.
Qed.

(** * Reading the text back *)
Lemma functions_app a b : functions (a ++ b) = functions a ++ functions b.
Proof. apply flat_map_app. Qed.
Lemma spaces_app a b : spaces (a ++ b) = spaces a ++ spaces b.
Proof. apply flat_map_app. Qed.
Lemma functions_other l : functions (map EOther l) = [].
Proof. induction l; auto. Qed.
Lemma spaces_other l : spaces (map EOther l) = [].
Proof. induction l; auto. Qed.
Lemma functions_spaces l : functions (map (fun s => ESpace (fst s) (snd s)) l) = [].
Proof. induction l; auto. Qed.
Lemma spaces_spaces l : spaces (map (fun s => ESpace (fst s) (snd s)) l) = l.
Proof. induction l as [|[u a] l IH]; cbn; auto. unfold spaces in IH. rewrite IH. auto. Qed.
Lemma read_functions_spaces sp nf l : spaces (read_functions sp nf l) = [].
Proof. revert nf. induction l as [|[a b] l IH]; intros nf; cbn; auto; apply IH. Qed.
Lemma read_functions_pairs sp nf l : map (fun f => (f_short f, f_name f)) (functions (read_functions sp nf l)) = l.
Proof. revert nf. induction l as [|[a b] l IH]; intros nf; cbn; auto. f_equal. apply IH. Qed.
Lemma read_functions_anchors sp nf l f : In f (functions (read_functions sp nf l)) -> (nf <= f_anchor f < nf + N.of_nat (length l))%N /\ f_space f = sp.
Proof.
  revert nf. induction l as [|[a b] l IH]; intros nf; cbn; [intros []|]. intros [<-|I]; [cbn; split; auto; lia|]. destruct (IH _ I) as [X ->]. split; auto. lia.
Qed.
Lemma read_functions_nodup sp nf l : NoDup (map f_anchor (functions (read_functions sp nf l))).
Proof.
  revert nf. induction l as [|[a b] l IH]; intros nf; cbn; [constructor|]. constructor; [|apply IH]. intros I. apply in_map_iff in I as (f & E & I). apply read_functions_anchors in I as [X _]. lia.
Qed.
Lemma nodup_app {A} (l l' : list A) : NoDup l -> NoDup l' -> (forall x, In x l -> In x l' -> False) -> NoDup (l ++ l').
Proof. induction 1 as [|x l N0 ND IH]; cbn; auto. intros H D. constructor; [|apply IH; eauto]. rewrite in_app_iff. intros [I|I]; auto. eapply D; eauto. Qed.
Lemma F2_imp {A B} (P Q : A -> B -> Prop) l l' : (forall x y, P x y -> Q x y) -> Forall2 P l l' -> Forall2 Q l l'.
Proof. intros H. induction 1; constructor; auto. Qed.
Definition all_named (l : list block) : Prop := Forall (fun b => fst b <> None) l.
Lemma read_blocks_spaces l : all_named l -> forall ns nf, map fst (spaces (read_blocks ns nf l)) = flat_map (fun b => match fst b with Some u => [u] | None => [] end) l /\
  NoDup (map snd (spaces (read_blocks ns nf l))) /\ (forall u a, In (u, a) (spaces (read_blocks ns nf l)) -> (ns < a)%N).
Proof.
  induction 1 as [|[[u|] fs] l H _ IH]; intros ns nf; cbn [read_blocks flat_map]; [repeat split; [constructor|intros ? ? []]| |cbn in H; congruence].
  destruct (IH (ns + 1)%N (nf + N.of_nat (length fs))%N) as (A & B & C). cbn [fst app]. cbn [spaces flat_map]. fold (spaces (read_functions (Some (ns + 1)%N) nf fs ++ read_blocks (ns + 1) (nf + N.of_nat (length fs)) l)).
  rewrite spaces_app, read_functions_spaces. cbn [app map fst snd]. rewrite A. split; auto. split.
  - constructor; auto. intros I. apply in_map_iff in I as ([u' a] & E & I). cbn in E. specialize (C _ _ I). lia.
  - intros u' a [E|I]; [injection E as <- <-; lia|]. specialize (C _ _ I). lia.
Qed.
Lemma read_blocks_anchors l : forall ns nf f, In f (functions (read_blocks ns nf l)) -> (nf <= f_anchor f)%N.
Proof.
  induction l as [|[[u|] fs] l IH]; intros ns nf f; cbn [read_blocks]; [intros []| |].
  - cbn [functions flat_map app]. fold (functions (read_functions (Some (ns + 1)%N) nf fs ++ read_blocks (ns + 1) (nf + N.of_nat (length fs)) l)). rewrite functions_app, in_app_iff.
    intros [I|I]; [apply read_functions_anchors in I; lia|]. specialize (IH _ _ _ I). lia.
  - rewrite functions_app, in_app_iff. intros [I|I]; [apply read_functions_anchors in I; lia|]. specialize (IH _ _ _ I). lia.
Qed.
Lemma read_blocks_nodup l : forall ns nf, NoDup (map f_anchor (functions (read_blocks ns nf l))).
Proof.
  assert (X : forall sp fs rest nf, NoDup (map f_anchor (functions rest)) -> (forall f, In f (functions rest) -> (nf + N.of_nat (length fs) <= f_anchor f)%N) ->
    NoDup (map f_anchor (functions (read_functions sp nf fs ++ rest)))).
  { intros sp fs rest nf ND G. rewrite functions_app, map_app. apply nodup_app; auto; [apply read_functions_nodup|]. intros x I J. apply in_map_iff in I as (f & <- & I). apply in_map_iff in J as (g & E & J).
    apply read_functions_anchors in I as [I _]. specialize (G g J). lia. }
  induction l as [|[[u|] fs] l IH]; intros ns nf; cbn [read_blocks]; [constructor| |].
  - cbn [functions flat_map app]. fold (functions (read_functions (Some (ns + 1)%N) nf fs ++ read_blocks (ns + 1) (nf + N.of_nat (length fs)) l)). apply X; auto. apply read_blocks_anchors.
  - apply X; auto. apply read_blocks_anchors.
Qed.
(** Each function of the text with the space it is listed in. *)
Lemma read_blocks_functions l : all_named l -> forall ns nf, exists fs, functions (read_blocks ns nf l) = fs /\
  Forall2 (fun f x => f_short f = fst (snd x) /\ f_name f = snd (snd x) /\ exists u a, fst x = Some u /\ f_space f = Some a /\ In (u, a) (spaces (read_blocks ns nf l))) fs (flat_map listed l).
Proof.
  induction 1 as [|[[u|] ps] l H _ IH]; intros ns nf; cbn [read_blocks flat_map]; [exists []; split; auto| |cbn in H; congruence].
  destruct (IH (ns + 1)%N (nf + N.of_nat (length ps))%N) as (fs & E & F). eexists. split; [reflexivity|]. cbn [functions spaces flat_map app].
  fold (functions (read_functions (Some (ns + 1)%N) nf ps ++ read_blocks (ns + 1) (nf + N.of_nat (length ps)) l)). fold (spaces (read_functions (Some (ns + 1)%N) nf ps ++ read_blocks (ns + 1) (nf + N.of_nat (length ps)) l)).
  rewrite functions_app, spaces_app, E. apply Forall2_app.
  - unfold listed. cbn [fst snd]. clear E F IH H. generalize (spaces (read_blocks (ns + 1) (nf + N.of_nat (length ps)) l)) as rest. intros rest. rewrite read_functions_spaces. cbn [app].
    revert nf. induction ps as [|[a b] ps IH]; intros nf; cbn [read_functions map functions flat_map app]; [constructor|]. constructor; [|apply IH]. cbn. split; [auto|split; [auto|]]. exists u, (ns + 1)%N. auto.
  - rewrite read_functions_spaces. cbn [app]. eapply F2_imp; [|exact F]. cbn. intros f x (A & B & u' & a & C & D & I). repeat split; auto. exists u', a. auto.
Qed.

(** * There and back *)
(** The unique names of the converter. *)
Lemma import_run ds : forall t, exists t' T, run t (map (fun d => OUnique (shortName (d_name d))) ds) = Ok (t', T) /\
  map fst (handed T) = map (fun d => shortName (d_name d)) ds /\ map snd (handed T) = map f_short (functions (import_functions t ds)).
Proof.
  induction ds as [|d ds IH]; intros t; cbn [map run import_functions]; [exists t, []; auto|]. cbn [step]. destruct (getUniqueName t (shortName (d_name d))) as [t1 u] eqn:E.
  cbn [obind fst snd]. destruct (IH t1) as (t' & T & -> & A & B). cbn [obind fst snd]. exists t', ((OUnique (shortName (d_name d)), RName u) :: T). split; auto.
  cbn [handed flat_map handed_by app map fst snd functions]. fold (handed T). fold (functions (import_functions t1 ds)). rewrite A, B. auto.
Qed.
Lemma import_functions_spaces ds : forall t, spaces (import_functions t ds) = [].
Proof. induction ds as [|d ds IH]; intros t; cbn; auto. destruct (getUniqueName t _). cbn. apply IH. Qed.
Lemma import_functions_decls ds : forall t, Forall2 (fun d f => f_name f = d_name d /\ f_space f = Some (d_space d) /\ f_anchor f = d_anchor d) ds (functions (import_functions t ds)).
Proof. induction ds as [|d ds IH]; intros t; cbn; [constructor|]. destruct (getUniqueName t _). cbn. constructor; auto. Qed.
Lemma import_parts uris ds : spaces (import_decls uris ds) = uris /\ functions (import_decls uris ds) = functions (import_functions empty_table ds).
Proof. unfold import_decls. rewrite spaces_app, functions_app, spaces_spaces, functions_spaces, import_functions_spaces, app_nil_r. auto. Qed.
Lemma find_unique {A} (P : A -> bool) l x : In x l -> P x = true -> (forall y, In y l -> P y = true -> y = x) -> find P l = Some x.
Proof.
  induction l as [|y l IH]; [intros []|]. cbn. intros I Px U. destruct (P y) eqn:E; [f_equal; auto|]. destruct I as [->|I]; [congruence|]. auto.
Qed.
Lemma nodup_map_eq {A B} (g : A -> B) l x y : NoDup (map g l) -> In x l -> In y l -> g x = g y -> x = y.
Proof.
  induction l as [|z l IH]; cbn; [intros _ []|]. intros ND I J E. inversion ND; subst. destruct I as [->|I], J as [->|J]; auto.
  - exfalso. match goal with H : ~ In _ _ |- _ => apply H end. rewrite E. apply in_map, J.
  - exfalso. match goal with H : ~ In _ _ |- _ => apply H end. rewrite <- E. apply in_map, I.
Qed.
Lemma spaceName_unique t u a : NoDup (map snd (spaces t)) -> In (u, a) (spaces t) -> spaceName t a = Some u.
Proof.
  intros ND I. unfold spaceName. rewrite (find_unique _ _ (u, a)); auto; [cbn; lia|]. intros [u' a'] J E. cbn in E. apply (nodup_map_eq snd (spaces t)); auto. cbn. lia.
Qed.
Lemma Forall2_in_l {A B} (R : A -> B -> Prop) l l' x : Forall2 R l l' -> In x l -> exists y, In y l' /\ R x y.
Proof. induction 1 as [|a b l l' r _ IH]; [intros []|]. intros [->|I]; [exists b; split; [left|]; auto|]. destruct (IH I) as (y & J & Q). exists y. split; [right|]; auto. Qed.
Lemma Forall2_in_r {A B} (R : A -> B -> Prop) l l' y : Forall2 R l l' -> In y l' -> exists x, In x l /\ R x y.
Proof. induction 1 as [|a b l l' r _ IH]; [intros []|]. intros [->|I]; [exists a; split; [left|]; auto|]. destruct (IH I) as (x & J & Q). exists x. split; [right|]; auto. Qed.

(** A plan whose spaces and functions can be told apart: distinct anchors, distinct URIs, every function in a declared space. *)
Record declared (uris : list (str * N)) (ds : list fdecl) : Prop := {
  de_uris : NoDup (map fst uris); de_spaces : NoDup (map snd uris); de_anchors : NoDup (map d_anchor ds);
  de_known : forall d, In d ds -> In (d_space d) (map snd uris)
}.
(** Same function: name and URI. *)
Definition denotes (uris : list (str * N)) (ds : list fdecl) (a : N) (uri name : str) : Prop :=
  exists d, In d ds /\ d_anchor d = a /\ d_name d = name /\ In (uri, d_space d) uris.
Definition denotes_only (uris : list (str * N)) (ds : list fdecl) (a : N) (uri name : str) : Prop :=
  denotes uris ds a uri name /\ forall uri' name', denotes uris ds a uri' name' -> uri' = uri /\ name' = name.
Lemma declared_only uris ds a uri name : declared uris ds -> denotes uris ds a uri name -> denotes_only uris ds a uri name.
Proof.
  intros D H. split; auto. destruct H as (d & I & A & N0 & U). intros uri' name' (d' & I' & A' & N' & U'). assert (d' = d) by (apply (nodup_map_eq d_anchor ds); auto; [apply D|congruence]). subst d'.
  split; [|congruence]. assert (E : (uri', d_space d) = (uri, d_space d)) by (apply (nodup_map_eq snd uris); auto; apply D). congruence.
Qed.
Lemma import_distinct uris ds : declared uris ds -> let t := import_decls uris ds in
  Forall has_space (functions t) /\ distinct_names t /\ (forall f, In f (functions t) -> exists u s, f_space f = Some s /\ In (u, s) uris /\ spaceName t s = Some u).
Proof.
  intros D t. destruct (import_parts uris ds) as [Es Ef]. fold t in Es, Ef.
  assert (K : forall f, In f (functions t) -> exists u s, f_space f = Some s /\ In (u, s) uris /\ spaceName t s = Some u).
  { intros f I. rewrite Ef in I. destruct (Forall2_in_r _ _ _ _ (import_functions_decls ds empty_table) I) as (d & Id & _ & Sd & _). destruct D as [_ D2 _ D4].
    pose proof (D4 d Id) as J. apply in_map_iff in J as ([u s] & E & J). cbn in E. subst s. exists u, (d_space d). repeat split; auto. apply spaceName_unique; rewrite Es; auto. }
  split; [|split; auto].
  - apply Forall_forall. intros f I. destruct (K f I) as (u & s & E & _). unfold has_space. congruence.
  - intros f g a b If Ig Ea Eb En. destruct (K f If) as (u & s & E1 & I1 & N1), (K g Ig) as (u' & s' & E2 & I2 & N2). assert (s = a) by congruence. assert (s' = b) by congruence. subst s s'.
    assert (u = u') by congruence. subst u'. assert (E : (u, a) = (u, b)) by (apply (nodup_map_eq fst uris); auto; apply D). congruence.
Qed.
Lemma round_trip uris ds before blocks : declared uris ds -> let t := import_decls uris ds in outputFunctionsSection t = Ok blocks ->
  NoDup (map f_short (functions t)) -> (forall f, In f (functions t) -> ~ In (f_short f) before /\ ~ In (f_short f) (map fst uris)) ->
  let t' := read_text before blocks in
  (forall a uri name, denotes uris ds a uri name -> exists short a', lookupFunctionReference t a = Some short /\ resolve_function t' short = Some a' /\
     denotes_only (outputExtensionSpaces t') (outputFunctions t') a' uri name) /\
  declared (outputExtensionSpaces t') (outputFunctions t') /\ length (outputFunctions t') = length ds.
Proof.
  intros D t E ND Dis t'. destruct (import_distinct uris ds D) as (Hs & Dn & K). fold t in Hs, Dn, K. pose proof (all_listed t blocks Hs Dn E) as P.
  destruct (section_shown t Hs) as (l' & E' & ss & Inc & Sub & Cov & El). rewrite E in E'. injection E' as <-.
  assert (An : all_named blocks).
  { apply Forall_forall. intros b I. rewrite El in I. apply in_map_iff in I as (s & <- & Is). cbn. destruct (proj1 (used_in _ _) (Sub s Is)) as (f & If & Ef). destruct (K f If) as (u & s' & E1 & _ & E2). congruence. }
  destruct (read_blocks_spaces blocks An 0 0) as (Su & Sn & _). destruct (read_blocks_functions blocks An 0 0) as (fs & Ef & F2).
  assert (Ef' : functions t' = fs) by (unfold t', read_text; rewrite functions_app, functions_other; exact Ef).
  assert (Es' : spaces t' = spaces (read_blocks 0 0 blocks)) by (unfold t', read_text; rewrite spaces_app, spaces_other; auto).
  assert (NDa : NoDup (map f_anchor (functions t'))) by (rewrite Ef', <- Ef; apply read_blocks_nodup).
  rewrite <- Es' in *. rewrite <- Ef' in *. clear Ef Ef' Es'.
  destruct (output_functions t') as (w & wo & Eo & Po & _).
  destruct (import_parts uris ds) as [EsI EfI]. fold t in EsI, EfI.
  (* names of the spaces of the text *)
  assert (SuIn : forall u a, In (u, a) (spaces t') -> In u (map fst uris)).
  { intros u a I. assert (J : In u (map fst (spaces t'))) by (apply (in_map fst) in I; auto). rewrite Su in J. apply in_flat_map in J as (b & Ib & Ju). rewrite El in Ib. apply in_map_iff in Ib as (s & <- & Is). cbn in Ju.
    destruct (proj1 (used_in _ _) (Sub s Is)) as (f & If & Ef). destruct (K f If) as (u' & s' & E1 & I1 & E2). assert (s' = s) by congruence. subst s'. rewrite E2 in Ju. destruct Ju as [<-|[]]. apply (in_map fst) in I1. auto. }
  assert (SuND : NoDup (map fst (spaces t'))).
  { rewrite Su, El. clear - Inc Sub K. induction Inc as [|s ss St IH F]; cbn [map flat_map]; [constructor|].
    assert (X : exists u, spaceName t s = Some u). { destruct (proj1 (used_in _ _) (Sub s (or_introl eq_refl))) as (f & If & Ef). destruct (K f If) as (u & s' & E1 & _ & E2). exists u. congruence. }
    destruct X as [u Eu]. cbn [fst]. rewrite Eu. cbn [app]. constructor; [|apply IH; intros; apply Sub; right; auto]. intros J. apply in_flat_map in J as (b & Ib & Ju). apply in_map_iff in Ib as (s' & <- & Is'). cbn in Ju.
    rewrite Forall_forall in F. specialize (F s' Is'). unfold name_less in F. rewrite Eu in F. destruct (spaceName t s') as [u'|]; [|destruct Ju]. destruct Ju as [->|[]]. rewrite str_lt_irrefl in F. discriminate. }
  (* the functions of the text *)
  assert (FT : forall f, In f (functions t) -> exists f' u a, In f' (functions t') /\ f_short f' = f_short f /\ f_name f' = f_name f /\ f_space f' = Some a /\ In (u, a) (spaces t') /\
     (exists s, f_space f = Some s /\ spaceName t s = Some u)).
  { intros f I. assert (J : In (as_listed t f) (flat_map listed blocks)) by (apply (Permutation_in _ (Permutation_sym P)), in_map, I).
    destruct (Forall2_in_r _ _ _ _ F2 J) as (f' & If' & A & B & u & a & C & G & H). exists f', u, a. cbn in *. destruct (K f I) as (u' & s & E1 & _ & E2). rewrite E1 in C. repeat split; auto. exists s. split; auto. }
  assert (Bound : forall f', In f' (functions t') -> exists u a, f_space f' = Some a /\ In (u, a) (spaces t') /\ spaceName t' a = Some u).
  { intros f' I. destruct (Forall2_in_l _ _ _ _ F2 I) as (x & _ & _ & _ & u & a & _ & G & H). exists u, a. repeat split; auto. apply spaceName_unique; auto. }
  assert (ND' : NoDup (map f_short (functions t'))).
  { assert (Q : map f_short (functions t') = map (fun x => fst (snd x)) (flat_map listed blocks)) by (clear - F2; induction F2 as [|f x l l' (A & _) _ IH]; cbn; congruence).
    rewrite Q. apply (Permutation_NoDup (l := map (fun x => fst (snd x)) (map (as_listed t) (functions t)))); [apply Permutation_map, Permutation_sym, P|]. rewrite map_map. exact ND. }
  assert (Dec : forall f', In f' (functions t') -> In (binary_decl t' f') (outputFunctions t')).
  { intros f' I. rewrite Eo. apply in_map. apply (Permutation_in _ (Permutation_sym Po)). auto. }
  assert (Dc : declared (outputExtensionSpaces t') (outputFunctions t')).
  { constructor; unfold outputExtensionSpaces; auto.
    - rewrite Eo, map_map. cbn. apply (Permutation_NoDup (l := map f_anchor (functions t'))); auto. apply Permutation_map, Permutation_sym, Po.
    - intros d I. rewrite Eo in I. apply in_map_iff in I as (f' & <- & I). apply (Permutation_in _ Po) in I. destruct (Bound f' I) as (u & a & E1 & I1 & E2). cbn. rewrite E1, E2. apply (in_map snd) in I1. auto. }
  split; [|split; auto].
  - intros a uri name (d & Id & Ad & Nd & Ud). destruct (Forall2_in_l _ _ _ _ (import_functions_decls ds empty_table) Id) as (f & If & Nf & Sf & Af). rewrite <- EfI in If.
    destruct (FT f If) as (f' & u & a' & If' & Sh & Nm & Sp & Iu & (s & Es & En)). exists (f_short f), (f_anchor f'). split; [|split].
    + unfold lookupFunctionReference. rewrite (find_unique _ _ f); auto; [lia|]. intros g Ig Eg.
      assert (NDA : NoDup (map f_anchor (functions t))).
      { rewrite EfI. assert (X : map f_anchor (functions (import_functions empty_table ds)) = map d_anchor ds). { pose proof (import_functions_decls ds empty_table) as X. clear - X. induction X as [|x y l l' (_ & _ & E) _ IH]; cbn; congruence. } rewrite X. apply D. }
      apply (nodup_map_eq f_anchor (functions t)); auto. lia.
    + unfold resolve_function. assert (X : In (EFunction f') t').
      { clear - If'. unfold functions in If'. apply in_flat_map in If' as (e & I & J). destruct e; try destruct J as [|[]]; try destruct J. subst. auto. }
      rewrite (find_unique _ _ (EFunction f')); auto; [cbn; apply seq_eqb_eq; auto|]. intros e Ie Ee. apply seq_eqb_eq in Ee. destruct e as [u' a''|g|n]; cbn in Ee.
      * exfalso. apply (proj2 (Dis f If)). rewrite <- Ee. apply (SuIn u' a''). unfold spaces. apply in_flat_map. eexists. split; [exact Ie|]. left. auto.
      * f_equal. apply (nodup_map_eq f_short (functions t')); auto; [|congruence]. unfold functions. apply in_flat_map. eexists. split; [exact Ie|]. left. auto.
      * exfalso. apply (proj1 (Dis f If)). rewrite <- Ee. unfold t', read_text in Ie. apply in_app_or in Ie as [Ie|Ie]; [apply in_map_iff in Ie as (m & Em & Im); congruence|].
        exfalso. clear - Ie. revert Ie. generalize 0%N at 1 as ns. generalize 0%N as nf. induction blocks as [|[[v|] ps] bl IH]; intros nf ns; cbn [read_blocks]; [intros []| |].
        { rewrite in_app_iff. intros [[H|H]|H]; [discriminate| |apply IH in H; auto]. clear - H. revert nf H. induction ps as [|[? ?] ps IH]; intros nf; cbn; [intros []|]. intros [H|H]; [discriminate|eauto]. }
        { rewrite in_app_iff. intros [H|H]; [|apply IH in H; auto]. clear - H. revert nf H. induction ps as [|[? ?] ps IH]; intros nf; cbn; [intros []|]. intros [H|H]; [discriminate|eauto]. }
    + apply declared_only; auto. exists (binary_decl t' f'). split; auto. cbn. split; auto. split; [congruence|]. rewrite Sp. rewrite (spaceName_unique t' u a') by auto. unfold outputExtensionSpaces.
      replace uri with u; auto.
      assert (s = d_space d) by congruence. subst s. pose proof (spaceName_unique t uri (d_space d)) as W. rewrite EsI in W. specialize (W (de_spaces _ _ D) Ud). congruence.
  - rewrite Eo, map_length. rewrite (Permutation_length Po). transitivity (length (flat_map listed blocks)); [clear - F2; induction F2; cbn; auto|].
    rewrite (Permutation_length P), map_length, EfI. pose proof (import_functions_decls ds empty_table) as X. clear - X. induction X; cbn; auto.
Qed.
