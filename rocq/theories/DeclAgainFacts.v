(** Declarations of functions that are written as text and read again and again. *)
From Verif Require Import Base BaseFacts SymbolModel SymbolFacts SymbolMoreFacts NormalizerModel NormalizerPlanFacts DeclModel DeclFacts.
From Coq Require Import NArith Permutation Sorted Lia ZifyBool ZifyNat ZifyN.

(** * Names that are handed out in order *)
Definition base (p : str * str) : str := shortName (snd p).
Definition of_base (b : str) (p : str * str) : bool := base p =s b.
Definition uses (b : str) (l : list (str * str)) : nat := length (filter (of_base b) l).
Definition numbered (k : str -> nat) (l : list (str * str)) : Prop := forall b, map fst (filter (of_base b) l) = map (unique_text b) (seq (k b) (uses b l)).
Lemma app_eq_len {A} (a b c d : list A) : a ++ b = c ++ d -> length a = length c -> a = c /\ b = d.
Proof. revert c. induction a as [|x a IH]; intros [|y c] E L; try discriminate; [auto|]. cbn in E, L. injection E as <- E. destruct (IH c E) as (-> & ->); [lia|auto]. Qed.
Lemma uses_app b l l' : uses b (l ++ l') = uses b l + uses b l'.
Proof. unfold uses. rewrite filter_app, app_length. reflexivity. Qed.
Lemma numbered_app k l l' : numbered k (l ++ l') <-> numbered k l /\ numbered (fun b => k b + uses b l) l'.
Proof.
  assert (X : forall b, map fst (filter (of_base b) (l ++ l')) = map (unique_text b) (seq (k b) (uses b (l ++ l'))) <->
    map fst (filter (of_base b) l) = map (unique_text b) (seq (k b) (uses b l)) /\ map fst (filter (of_base b) l') = map (unique_text b) (seq (k b + uses b l) (uses b l'))).
  { intros b. rewrite filter_app, uses_app, map_app, seq_app, map_app. split; [|intros (-> & ->); reflexivity]. intros E. apply app_eq_len in E; [exact E|]. rewrite !map_length, seq_length. reflexivity. }
  unfold numbered. split; [intros H; split; intros b; apply (X b), H|intros (A & B) b; apply X; auto].
Qed.
Lemma numbered_ext k k' l : (forall b, k b = k' b) -> numbered k l -> numbered k' l.
Proof. intros E H b. rewrite <- E. apply H. Qed.
Lemma numbered_one k p : numbered k [p] <-> fst p = unique_text (base p) (k (base p)).
Proof.
  unfold numbered, uses. cbn [filter]. unfold of_base. split.
  - intros H. specialize (H (base p)). rewrite seq_eqb_refl in H. cbn in H. congruence.
  - intros E b. destruct (seq_eqb_spec (base p) b) as [<-|]; cbn; congruence.
Qed.
Lemma numbered_unique l : forall k l', numbered k l -> numbered k l' -> map snd l = map snd l' -> l = l'.
Proof.
  induction l as [|p l IH]; intros k [|p' l'] H H' E; try discriminate; [reflexivity|]. cbn in E. injection E as E1 E2.
  apply (numbered_app k [p] l) in H as (A & B). apply (numbered_app k [p'] l') in H' as (A' & B'). apply numbered_one in A, A'. assert (Eb : base p' = base p) by (unfold base; congruence).
  assert (p = p') by (destruct p as [x1 x2], p' as [y1 y2]; cbn [fst snd] in *; unfold base in *; cbn [snd] in *; congruence). subst p'. f_equal. eapply IH; eassumption.
Qed.
(** ** Sorting keeps them in order, as long as there are not too many *)
Lemma str_lt_prefix a x y : str_lt (a ++ x) (a ++ y) = str_lt x y.
Proof. induction a as [|c a IH]; [reflexivity|]. cbn [app str_lt]. rewrite IH. replace (code c <? code c)%N with false by lia. replace (ceq c c) with true by (symmetry; apply Ascii.eqb_refl). reflexivity. Qed.
Lemma tails_increase i j : i < j -> j < 9 -> str_lt (tail_of i) (tail_of j) = true.
Proof. intros H L. do 9 (destruct j as [|j]; [first [lia | do 9 (destruct i as [|i]; [first [lia | vm_compute; reflexivity]|]); lia]|]). lia. Qed.
Lemma unique_increase b i j : i < j -> j < 9 -> str_lt (unique_text b i) (unique_text b j) = true.
Proof. intros H L. rewrite !unique_tail, str_lt_prefix. apply tails_increase; assumption. Qed.
Lemma pair_le_antisym a b : pair_le a b -> pair_le b a -> a = b.
Proof.
  unfold pair_le, pair_less. intros H H'. apply orb_false_iff in H as (H1 & H2). apply orb_false_iff in H' as (H1' & H2').
  destruct a as [a1 a2], b as [b1 b2]. cbn [fst snd] in *. pose proof (str_lt_total a1 b1 H1' H1) as ->. rewrite seq_eqb_refl in H2, H2'. cbn in H2, H2'. rewrite (str_lt_total a2 b2 H2' H2). reflexivity.
Qed.
Lemma sorted_perm {A} (R : A -> A -> Prop) : (forall a b, R a b -> R b a -> a = b) -> (forall a, R a a) -> forall l l', StronglySorted R l -> StronglySorted R l' -> Permutation l l' -> l = l'.
Proof.
  intros An Rf. induction l as [|a l IH]; intros l' S S' P; [apply Permutation_nil in P; congruence|]. destruct l' as [|a' l']; [apply Permutation_sym, Permutation_nil in P; discriminate|].
  inversion S as [|? ? S1 F1]; subst. inversion S' as [|? ? S2 F2]; subst. rewrite Forall_forall in F1, F2. assert (E : a = a').
  { assert (I : In a' (a :: l)) by (apply (Permutation_in _ (Permutation_sym P)); left; reflexivity). assert (I' : In a (a' :: l')) by (apply (Permutation_in _ P); left; reflexivity). destruct I as [I|I]; [exact I|]. destruct I' as [I'|I']; [congruence|]. apply An; auto. }
  subst a'. f_equal. apply IH; auto. apply (Permutation_cons_inv P).
Qed.
Lemma sorted_filter {A} (R : A -> A -> Prop) f l : StronglySorted R l -> StronglySorted R (filter f l).
Proof. induction 1 as [|a l S IH F]; [constructor|]. cbn. destruct (f a); [|exact IH]. constructor; [exact IH|]. rewrite Forall_forall in *. intros x I. apply filter_In in I as (I & _). auto. Qed.
Lemma perm_filter {A} (f : A -> bool) l l' : Permutation l l' -> Permutation (filter f l) (filter f l').
Proof. induction 1 as [|x l l' _ IH|x y l|l l' l'' _ IH1 _ IH2]; cbn; [constructor|destruct (f x); auto|destruct (f x), (f y); auto; constructor|eapply Permutation_trans; eassumption]. Qed.
Lemma seq_sorted b n : forall k l, k + n <= 9 -> map fst l = map (unique_text b) (seq k n) -> StronglySorted pair_le l.
Proof.
  induction n as [|n IH]; intros k [|p l] L E; try discriminate; [constructor|]. cbn [seq map] in E. injection E as E1 E2. constructor; [apply (IH (S k)); [lia|exact E2]|]. apply Forall_forall. intros q I. apply (in_map fst) in I. rewrite E2 in I. apply in_map_iff in I as (j & Ej & I). apply in_seq in I.
  unfold pair_le. apply pair_less_asym. unfold pair_less. rewrite E1, <- Ej, unique_increase by lia. reflexivity.
Qed.
Lemma uses_sort b l : uses b (sort_pairs l) = uses b l.
Proof. unfold uses. apply Permutation_length, perm_filter, sort_pairs_perm. Qed.
Lemma numbered_sort k l : numbered k l -> (forall b, k b + uses b l <= 9) -> numbered k (sort_pairs l).
Proof.
  intros H L b. rewrite uses_sort. replace (filter (of_base b) (sort_pairs l)) with (filter (of_base b) l); [apply H|].
  apply (sorted_perm pair_le); [apply pair_le_antisym|intros a; apply pair_less_irrefl| |apply sorted_filter, sort_pairs_sorted|apply perm_filter, Permutation_sym, sort_pairs_perm].
  eapply seq_sorted; [apply (L b)|]. apply (H b).
Qed.
Lemma numbered_sorts {A} (f : A -> list (str * str)) ss : forall k, numbered k (flat_map f ss) -> (forall b, k b + uses b (flat_map f ss) <= 9) -> numbered k (flat_map (fun s => sort_pairs (f s)) ss).
Proof.
  induction ss as [|s ss IH]; intros k H L; [exact H|]. cbn [flat_map] in *. apply numbered_app in H as (Ha & Hb). apply numbered_app. assert (L' : forall b, k b + (uses b (f s) + uses b (flat_map f ss)) <= 9) by (intros b; specialize (L b); rewrite uses_app in L; exact L). split.
  - apply numbered_sort; [exact Ha|]. intros b. specialize (L' b). lia.
  - eapply numbered_ext; [|apply IH; [exact Hb|]].
    + intros b. cbn beta. rewrite uses_sort. reflexivity.
    + intros b. specialize (L' b). cbn beta. lia.
Qed.
(** ** The converter hands out names in order *)
Definition pair_of (f : func) : str * str := (f_short f, f_name f).
Lemma import_numbered ds : forall t H, NInv t H -> numbered (fun b => requests b H) (map pair_of (functions (import_functions t ds))).
Proof.
  induction ds as [|d ds IH]; intros t H I; cbn [import_functions]; [intros b; reflexivity|]. destruct (getUniqueName t (shortName (d_name d))) as [t' u] eqn:E. destruct (unique_step _ _ _ _ _ I E) as (-> & I').
  cbn [functions flat_map app map]. fold (functions (import_functions t' ds)). match goal with |- numbered _ (?a :: ?l) => apply (numbered_app _ [a] l) end. split; [apply numbered_one; reflexivity|].
  eapply numbered_ext; [|apply (IH _ _ I')]. intros b. cbn beta. rewrite requests_app, requests_one. unfold uses, of_base, base. cbn [filter pair_of snd f_name]. destruct (shortName (d_name d) =s b); reflexivity.
Qed.
Lemma imported_numbered ds : numbered (fun _ => 0) (map pair_of (functions (import_functions empty_table ds))).
Proof. apply (import_numbered ds empty_table []). intros b. reflexivity. Qed.
(** * Spaces in order *)
Lemma group_head f s l : f_space f = Some s -> filter (space_is s) (f :: l) = f :: filter (space_is s) l.
Proof. intros E. cbn [filter]. unfold space_is at 1. rewrite E, N.eqb_refl. reflexivity. Qed.
Lemma sorted_groups : forall l l', StronglySorted space_le l -> StronglySorted space_le l' -> Forall has_space l -> Forall has_space l' -> (forall s, filter (space_is s) l = filter (space_is s) l') -> l = l'.
Proof.
  assert (Hd : forall f g l l', StronglySorted space_le (g :: l') -> Forall has_space (f :: l) -> (forall s, filter (space_is s) (f :: l) = filter (space_is s) (g :: l')) -> space_le g f).
  { intros f g l l' S H E. inversion H as [|? ? Hf _]; subst. unfold has_space in Hf. destruct (f_space f) as [s|] eqn:Ef; [|congruence]. specialize (E s). rewrite (group_head _ _ _ Ef) in E.
    assert (I : In f (g :: l')) by (apply (proj1 (proj1 (filter_In (space_is s) f (g :: l')) ltac:(rewrite <- E; left; reflexivity)))). unfold space_le. destruct I as [->|I]; [rewrite Ef; lia|]. inversion S as [|? ? _ F]; subst. rewrite Forall_forall in F. specialize (F f I). unfold space_le in F. exact F. }
  induction l as [|f l IH]; intros [|g l'] S S' H H' E.
  - reflexivity.
  - exfalso. inversion H' as [|? ? Hg _]; subst. unfold has_space in Hg. destruct (f_space g) as [s|] eqn:Eg; [|congruence]. specialize (E s). rewrite (group_head _ _ _ Eg) in E. discriminate.
  - exfalso. inversion H as [|? ? Hg _]; subst. unfold has_space in Hg. destruct (f_space f) as [s|] eqn:Eg; [|congruence]. specialize (E s). rewrite (group_head _ _ _ Eg) in E. discriminate.
  - pose proof (Hd f g l l' S' H E) as A. pose proof (Hd g f l' l S H' (fun s => eq_sym (E s))) as B. unfold space_le in A, B. destruct (f_space g) as [sg|] eqn:Eg; [|contradiction]. destruct (f_space f) as [sf|] eqn:Ef; [|contradiction]. assert (sg = sf) by lia. subst sg.
    assert (X : f = g). { specialize (E sf). rewrite (group_head _ _ _ Ef), (group_head _ _ _ Eg) in E. congruence. }
    subst g. f_equal. inversion S; inversion S'; inversion H; inversion H'; subst. apply IH; auto. intros s. specialize (E s). cbn [filter] in E. destruct (space_is s f); congruence.
Qed.
Lemma increasing_same less : (forall a, less a a = false) -> (forall a b, less a b = true -> less b a = false) -> forall l l', increasing less l -> increasing less l' -> (forall x, In x l <-> In x l') -> l = l'.
Proof.
  intros Ir As. induction l as [|a l IH]; intros [|a' l'] S S' E.
  - reflexivity.
  - exfalso. apply (E a'). left. reflexivity.
  - exfalso. apply (E a). left. reflexivity.
  - inversion S as [|? ? S1 F1]; subst. inversion S' as [|? ? S2 F2]; subst. rewrite Forall_forall in F1, F2. assert (X : a = a').
    { destruct (proj1 (E a) (or_introl eq_refl)) as [->|I]; [reflexivity|]. destruct (proj2 (E a') (or_introl eq_refl)) as [->|I']; [reflexivity|]. specialize (F2 a I). specialize (F1 a' I'). apply As in F1. congruence. }
    subst a'. f_equal. apply IH; auto. intros x. specialize (E x). cbn in E. split; intros I.
    + destruct (proj1 E (or_intror I)) as [->|J]; [|exact J]. specialize (F1 _ I). rewrite Ir in F1. discriminate.
    + destruct (proj2 E (or_intror I)) as [->|J]; [|exact J]. specialize (F2 _ I). rewrite Ir in F2. discriminate.
Qed.
Lemma name_less_asym t a b : name_less t a b = true -> name_less t b a = false.
Proof. intros H. destruct (name_less t b a) eqn:E; [|reflexivity]. pose proof (name_less_trans t a b a H E) as X. rewrite name_less_irrefl in X. discriminate. Qed.

Definition uri_less (b b' : block) : Prop := match fst b, fst b' with Some u, Some u' => str_lt u u' = true | _, _ => False end.
Record good (B : list block) : Prop := { go_named : all_named B; go_filled : Forall (fun b => snd b <> []) B; go_order : StronglySorted uri_less B }.
(** ** What is read *)
Lemma read_cons u ps B ns nf : functions (read_blocks ns nf ((Some u, ps) :: B)) = functions (read_functions (Some (ns + 1)%N) nf ps) ++ functions (read_blocks (ns + 1) (nf + N.of_nat (length ps)) B) /\
  spaces (read_blocks ns nf ((Some u, ps) :: B)) = (u, (ns + 1)%N) :: spaces (read_blocks (ns + 1) (nf + N.of_nat (length ps)) B).
Proof. cbn [read_blocks app]. change (functions (?a :: ?l)) with (functions l). split; [apply functions_app|]. cbn [spaces flat_map app]. f_equal. fold (spaces (read_functions (Some (ns + 1)%N) nf ps ++ read_blocks (ns + 1) (nf + N.of_nat (length ps)) B)). rewrite spaces_app, read_functions_spaces. reflexivity. Qed.
Lemma read_sorted B : all_named B -> forall ns nf, StronglySorted space_le (functions (read_blocks ns nf B)) /\ Forall has_space (functions (read_blocks ns nf B)) /\
  (forall f s, In f (functions (read_blocks ns nf B)) -> f_space f = Some s -> (ns < s)%N /\ exists u, In (u, s) (spaces (read_blocks ns nf B))).
Proof.
  induction 1 as [|[[u|] ps] B H _ IH]; intros ns nf; [repeat split; try constructor; contradiction| |cbn in H; congruence]. destruct (read_cons u ps B ns nf) as (-> & ->). destruct (IH (ns + 1)%N (nf + N.of_nat (length ps))%N) as (A1 & A2 & A3).
  set (F := functions (read_functions (Some (ns + 1)%N) nf ps)). assert (HF : forall f, In f F -> f_space f = Some (ns + 1)%N) by (intros f I; apply read_functions_anchors in I; apply I).
  split; [|split].
  - apply sorted_app; [|exact A1|].
    + clear -HF. induction F as [|f F IH]; constructor; [apply IH; intros; apply HF; right; assumption|]. apply Forall_forall. intros g I. unfold space_le. rewrite (HF f (or_introl eq_refl)), (HF g (or_intror I)). lia.
    + intros x y Ix Iy. rewrite Forall_forall in A2. specialize (A2 y Iy). unfold has_space in A2. destruct (f_space y) as [s|] eqn:Ey; [|congruence]. destruct (A3 y s Iy Ey) as (A & _). unfold space_le. rewrite (HF x Ix), Ey. lia.
  - apply Forall_app. split; [|exact A2]. apply Forall_forall. intros f I. unfold has_space. rewrite (HF f I). discriminate.
  - intros f s I E. apply in_app_or in I as [I|I].
    + rewrite (HF f I) in E. injection E as <-. split; [lia|]. exists u. left. reflexivity.
    + destruct (A3 f s I E) as (A & v & B0). split; [lia|]. exists v. right. exact B0.
Qed.
Definition plain_decl (f : func) : fdecl := {| d_space := match f_space f with Some s => s | None => 0%N end; d_anchor := f_anchor f; d_name := f_name f |}.
Lemma read_spaces before B : spaces (read_text before B) = spaces (read_blocks 0 0 B).
Proof. unfold read_text. rewrite spaces_app, spaces_other. reflexivity. Qed.
Lemma read_funcs before B : functions (read_text before B) = functions (read_blocks 0 0 B).
Proof. unfold read_text. rewrite functions_app, functions_other. reflexivity. Qed.
Lemma output_read before B : all_named B -> outputFunctions (read_text before B) = map plain_decl (functions (read_blocks 0 0 B)).
Proof.
  intros An. set (t := read_text before B). destruct (read_sorted B An 0 0) as (A1 & A2 & A3). destruct (output_functions t) as (w & wo & E & P & S & H & G & W). unfold t in G, W, P. rewrite read_funcs in G, W, P. fold t in G, W, P.
  assert (W0 : wo = []). { rewrite W. apply filter_none. intros f I. rewrite Forall_forall in A2. specialize (A2 f I). unfold has_space, no_space in *. destruct (f_space f); congruence. }
  rewrite W0, app_nil_r in *. rewrite E, (sorted_groups w _ S A1 H A2 G). apply map_ext_in. intros f I. unfold binary_decl, plain_decl. f_equal. destruct (f_space f) as [s|] eqn:Ef; [|reflexivity]. destruct (A3 f s I Ef) as (_ & u & Iu).
  destruct (read_blocks_spaces B An 0 0) as (_ & ND & _). rewrite (spaceName_unique t u s); [reflexivity|unfold t; rewrite read_spaces; exact ND|unfold t; rewrite read_spaces; exact Iu].
Qed.
(** ** What is printed *)
Lemma section_eq t t' : spaces t = spaces t' -> functions t = functions t' -> outputFunctionsSection t = outputFunctionsSection t'.
Proof.
  intros Es Ef. assert (En : forall s, spaceName t s = spaceName t' s) by (intros s; unfold spaceName; rewrite Es; reflexivity). unfold outputFunctionsSection. rewrite <- Ef.
  assert (El : forall a b, name_less t a b = name_less t' a b) by (intros a b; unfold name_less; rewrite !En; reflexivity).
  assert (Ei : forall x l, set_insert (name_less t) x l = set_insert (name_less t') x l) by (intros x l; induction l as [|y l IH]; [reflexivity|]; cbn; rewrite !El, IH; reflexivity).
  destruct ((fix go (l : list func) : outcome (list N) := match l with [] => Ok [] | f :: r => match f_space f with None => Throw EBadOptional | Some s => x <- go r ;; Ok (s :: x) end end) (functions t)) as [used| |]; [|reflexivity..]. cbn [obind]. f_equal.
  assert (Eo : set_of (name_less t) used = set_of (name_less t') used) by (unfold set_of; generalize (@nil N) as s; induction used as [|x used IH]; intros s; [reflexivity|]; cbn [fold_left]; rewrite Ei; apply IH).
  rewrite Eo. apply map_ext. intros s. rewrite En. reflexivity.
Qed.
Definition sorted_block (b : block) : Prop := StronglySorted pair_le (snd b).
Lemma section_good t B : Forall has_space (functions t) -> (forall f s, In f (functions t) -> f_space f = Some s -> exists u, spaceName t s = Some u) -> outputFunctionsSection t = Ok B -> good B /\ Forall sorted_block B.
Proof.
  intros Hs K E. destruct (section_shown t Hs) as (l & E' & ss & Inc & Sub & _ & ->). rewrite E in E'. injection E' as ->.
  assert (Nm : forall s, In s ss -> exists u, spaceName t s = Some u) by (intros s I; destruct (proj1 (used_in _ _) (Sub s I)) as (f & If & Ef); eauto).
  split; [constructor|].
  - apply Forall_forall. intros b I. apply in_map_iff in I as (s & <- & I). destruct (Nm s I) as (u & Eu). cbn. congruence.
  - apply Forall_forall. intros b I. apply in_map_iff in I as (s & <- & I). cbn [snd]. destruct (proj1 (used_in _ _) (Sub s I)) as (f & If & Ef). intros X. assert (J : In (f_short f, f_name f) []); [|destruct J]. rewrite <- X.
    apply (Permutation_in _ (Permutation_sym (sort_pairs_perm _))). apply (in_map (fun f => (f_short f, f_name f))). apply filter_In. split; [exact If|]. unfold space_is. rewrite Ef. apply N.eqb_refl.
  - clear -Inc Nm. induction Inc as [|s ss S IH F]; cbn [map]; constructor; [apply IH; intros; apply Nm; right; assumption|]. apply Forall_forall. intros b I. apply in_map_iff in I as (s' & <- & I). rewrite Forall_forall in F. specialize (F s' I).
    unfold uri_less. cbn [fst]. destruct (Nm s (or_introl eq_refl)) as (u & Eu). destruct (Nm s' (or_intror I)) as (u' & Eu'). unfold name_less in F. rewrite Eu, Eu' in *. exact F.
  - apply Forall_forall. intros b I. apply in_map_iff in I as (s & <- & I). apply sort_pairs_sorted.
Qed.
Lemma sort_sorted l : StronglySorted pair_le l -> sort_pairs l = l.
Proof. intros S. apply (sorted_perm pair_le); [apply pair_le_antisym|intros a; apply pair_less_irrefl|apply sort_pairs_sorted|exact S|apply sort_pairs_perm]. Qed.
(** The spaces of a text are numbered in the order of their names. *)
Definition in_order (uris : list (str * N)) : Prop := StronglySorted (fun x y => str_lt (fst x) (fst y) = true /\ (snd x < snd y)%N) uris.
Lemma read_order B : good B -> forall ns nf, in_order (spaces (read_blocks ns nf B)).
Proof.
  intros [An _ O]. induction O as [|[[u|] ps] B O IH F]; intros ns nf; [constructor| |inversion An as [|? ? X _]; subst; cbn in X; congruence]. pose proof (Forall_inv_tail An) as An'. refine (eq_ind_r in_order _ (proj2 (read_cons u ps B ns nf))). constructor; [apply IH, An'|].
  apply Forall_forall. intros [v a] I. cbn [fst snd]. destruct (read_blocks_spaces B An' (ns + 1)%N (nf + N.of_nat (length ps))%N) as (Eu & _ & La). specialize (La v a I). split; [|lia].
  apply (in_map fst) in I. rewrite Eu in I. apply in_flat_map in I as (b & Ib & I). rewrite Forall_forall in F. specialize (F b Ib). unfold uri_less in F. cbn [fst] in F, I. destruct (fst b) as [w|]; [|contradiction]. destruct I as [<-|[]]. exact F.
Qed.
Lemma order_names uris : in_order uris -> NoDup (map snd uris).
Proof. induction 1 as [|x l _ IH F]; cbn [map]; constructor; [|exact IH]. intros I. apply in_map_iff in I as (y & E & I). rewrite Forall_forall in F. destruct (F y I). lia. Qed.
Lemma order_less t uris a b u v : spaces t = uris -> in_order uris -> In (u, a) uris -> In (v, b) uris -> name_less t a b = (a <? b)%N.
Proof.
  intros E O Ia Ib. pose proof (order_names _ O) as ND. rewrite <- E in ND, Ia, Ib. unfold name_less. rewrite (spaceName_unique t u a ND Ia), (spaceName_unique t v b ND Ib). rewrite E in Ia, Ib. clear E ND.
  induction O as [|x l _ IH F]; [contradiction|]. rewrite Forall_forall in F. destruct Ia as [->|Ia], Ib as [Eb|Ib].
  - injection Eb as <- <-. rewrite str_lt_irrefl. lia.
  - destruct (F _ Ib) as (A & B). cbn [fst snd] in *. rewrite A. lia.
  - subst x. destruct (F _ Ia) as (A & B). cbn [fst snd] in *. destruct (str_lt u v) eqn:X; [|lia]. pose proof (str_lt_trans _ _ _ A X) as Y. rewrite str_lt_irrefl in Y. discriminate.
  - auto.
Qed.
(** Sections of tables whose spaces and functions are in order *)
Lemma section_in_order t B : in_order (spaces t) -> StronglySorted space_le (functions t) -> Forall has_space (functions t) -> (forall f s, In f (functions t) -> f_space f = Some s -> In s (map snd (spaces t))) ->
  outputFunctionsSection t = Ok B -> exists ss, increasing N.ltb ss /\ (forall s, In s ss <-> In s (used_spaces (functions t))) /\ functions t = flat_map (fun s => filter (space_is s) (functions t)) ss /\
    B = map (fun s => (spaceName t s, sort_pairs (map pair_of (filter (space_is s) (functions t))))) ss.
Proof.
  intros O S Hs K E. destruct (section_shown t Hs) as (l & E' & ss & Inc & Sub & Cov & El). rewrite E in E'. injection E' as <-. exists ss.
  assert (Ku : forall s, In s (used_spaces (functions t)) -> exists u, In (u, s) (spaces t)). { intros s I. apply used_in in I as (f & If & Ef). specialize (K f s If Ef). apply in_map_iff in K as ([u s'] & <- & I). eauto. }
  assert (Il : increasing N.ltb ss).
  { clear -Inc Sub Ku O. unfold increasing in *. induction Inc as [|s ss S IH F]; constructor; [apply IH; intros; apply Sub; right; assumption|]. rewrite Forall_forall in *. intros s' I. specialize (F s' I).
    destruct (Ku s (Sub s (or_introl eq_refl))) as (u & Iu). destruct (Ku s' (Sub s' (or_intror I))) as (v & Iv). rewrite (order_less t _ s s' u v eq_refl O Iu Iv) in F. exact F. }
  assert (Im : forall s, In s ss <-> In s (used_spaces (functions t))).
  { intros s. split; [apply Sub|]. intros I. destruct (Ku s I) as (u & Iu). apply used_in in I as (f & If & Ef). destruct (Cov f s If Ef) as (s' & Is' & En). destruct (Ku s' (Sub s' Is')) as (v & Iv). pose proof (order_names _ O) as ND.
    rewrite (spaceName_unique t u s ND Iu), (spaceName_unique t v s' ND Iv) in En. injection En as <-. assert (X : (u, s) = (u, s')); [|congruence].
    clear -O Iu Iv. induction O as [|x l _ IH F]; [contradiction|]. rewrite Forall_forall in F. destruct Iu as [->|Iu], Iv as [Ev|Iv]; auto; [|subst x]; exfalso.
    - destruct (F _ Iv) as (A & _). cbn in A. rewrite str_lt_irrefl in A. discriminate.
    - destruct (F _ Iu) as (A & _). cbn in A. rewrite str_lt_irrefl in A. discriminate. }
  split; [exact Il|]. split; [exact Im|]. split; [|exact El].
  assert (ND : NoDup ss) by (eapply increasing_nodup; eauto; apply ltb_irrefl).
  apply sorted_groups; [exact S|apply spaces_sorted, Il|exact Hs| |].
  - apply Forall_forall. intros f I. apply in_flat_map in I as (s & _ & I). apply filter_In in I as (I & _). rewrite Forall_forall in Hs. auto.
  - intros s. destruct (in_dec N.eq_dec s ss) as [I|N0]; [symmetry; apply spaces_group; assumption|]. rewrite !filter_none; auto.
    + intros f I. apply in_flat_map in I as (s' & Is' & I). apply filter_In in I as [_ X]. unfold space_is in *. destruct (f_space f) as [x|]; [|reflexivity]. destruct (N.eqb_spec x s); [|reflexivity]. exfalso. apply N0. replace s with s' by lia. exact Is'.
    + intros f I. unfold space_is. destruct (f_space f) as [x|] eqn:X; [|reflexivity]. destruct (N.eqb_spec x s); [|reflexivity]. exfalso. apply N0, Im, used_in. exists f. split; [exact I|congruence].
Qed.
Lemma flat_blocks (g : N -> option str) (h : N -> list (str * str)) ss : flat_map snd (map (fun s => (g s, h s)) ss) = flat_map h ss.
Proof. induction ss as [|s ss IH]; [reflexivity|]. cbn [map flat_map snd]. rewrite IH. reflexivity. Qed.
Lemma map_flat {A B C} (f : B -> C) (g : A -> list B) l : map f (flat_map g l) = flat_map (fun x => map f (g x)) l.
Proof. induction l as [|x l IH]; [reflexivity|]. cbn [flat_map]. rewrite map_app, IH. reflexivity. Qed.
(** In the text of declarations in order, the names are numbered in order. *)
Lemma section_numbered t B : in_order (spaces t) -> StronglySorted space_le (functions t) -> Forall has_space (functions t) -> (forall f s, In f (functions t) -> f_space f = Some s -> In s (map snd (spaces t))) ->
  outputFunctionsSection t = Ok B -> numbered (fun _ => 0) (map pair_of (functions t)) -> (forall b, uses b (map pair_of (functions t)) <= 9) -> numbered (fun _ => 0) (flat_map snd B).
Proof.
  intros O S Hs K E N0 L. destruct (section_in_order t B O S Hs K E) as (ss & _ & _ & Ef & ->). rewrite flat_blocks. rewrite Ef, map_flat in N0. apply numbered_sorts; [exact N0|].
  intros b. specialize (L b). rewrite Ef, map_flat in L. exact L.
Qed.
(** A text in order is printed as it was read. *)
Lemma read_pairs B : all_named B -> forall ns nf, map pair_of (functions (read_blocks ns nf B)) = flat_map snd B.
Proof.
  induction 1 as [|[[u|] ps] B H _ IH]; intros ns nf; [reflexivity| |cbn in H; congruence]. rewrite (proj1 (read_cons u ps B ns nf)), map_app, IH. cbn [flat_map snd]. f_equal. apply read_functions_pairs.
Qed.
Lemma read_numbers B : all_named B -> forall ns nf, map snd (spaces (read_blocks ns nf B)) = map (fun i => (ns + 1 + N.of_nat i)%N) (seq 0 (length B)).
Proof.
  induction 1 as [|[[u|] ps] B H _ IH]; intros ns nf; [reflexivity| |cbn in H; congruence]. rewrite (proj2 (read_cons u ps B ns nf)). cbn [map snd length seq]. rewrite IH, <- seq_shift, map_map. f_equal; [lia|]. apply map_ext. intros i. lia.
Qed.
Lemma read_groups t B : all_named B -> forall ns nf, (forall u s, In (u, s) (spaces (read_blocks ns nf B)) -> spaceName t s = Some u) ->
  B = map (fun s => (spaceName t s, map pair_of (filter (space_is s) (functions (read_blocks ns nf B))))) (map snd (spaces (read_blocks ns nf B))).
Proof.
  induction 1 as [|[[u|] ps] B H An IH]; intros ns nf K; [reflexivity| |cbn in H; congruence]. rewrite (proj1 (read_cons u ps B ns nf)), (proj2 (read_cons u ps B ns nf)). rewrite (proj2 (read_cons u ps B ns nf)) in K.
  destruct (read_sorted B An (ns + 1)%N (nf + N.of_nat (length ps))%N) as (_ & _ & A3). cbn [map snd]. f_equal.
  - f_equal; [symmetry; apply K; left; reflexivity|]. rewrite filter_app, (filter_all (space_is (ns + 1)%N) (functions (read_functions _ _ _))), filter_none, app_nil_r.
    + symmetry. apply read_functions_pairs.
    + intros f I. unfold space_is. destruct (f_space f) as [s|] eqn:E; [|reflexivity]. destruct (A3 f s I E). lia.
    + intros f I. apply read_functions_anchors in I as (_ & I). unfold space_is. rewrite I. apply N.eqb_refl.
  - rewrite (IH (ns + 1)%N (nf + N.of_nat (length ps))%N) at 1 by (intros v s I; apply K; right; exact I). apply map_ext_in. intros s I. f_equal. f_equal. rewrite filter_app, (filter_none (space_is s) (functions (read_functions _ _ _))); [reflexivity|].
    intros f If. apply read_functions_anchors in If as (_ & Ef). unfold space_is. rewrite Ef. apply in_map_iff in I as ([v s'] & <- & I). destruct (read_blocks_spaces B An (ns + 1)%N (nf + N.of_nat (length ps))%N) as (_ & _ & La). specialize (La v s' I). cbn [snd]. lia.
Qed.
Lemma read_used B : all_named B -> Forall (fun b => snd b <> []) B -> forall ns nf s, In s (map snd (spaces (read_blocks ns nf B))) -> In s (used_spaces (functions (read_blocks ns nf B))).
Proof.
  induction 1 as [|[[u|] ps] B H An IH]; intros Fi ns nf s; [intros []| |cbn in H; congruence]. inversion Fi as [|? ? F1 F2]; subst. rewrite (proj1 (read_cons u ps B ns nf)), (proj2 (read_cons u ps B ns nf)). unfold used_spaces. rewrite flat_map_app. cbn [map snd]. intros [<-|I]; apply in_or_app; [left|right; apply (IH F2); exact I].
  cbn [snd] in F1. destruct ps as [|[a b] ps]; [congruence|]. cbn. left. reflexivity.
Qed.
Lemma section_read before B : good B -> Forall sorted_block B -> outputFunctionsSection (read_text before B) = Ok B.
Proof.
  intros G Sb. pose proof G as [An Fi O]. set (t := read_text before B). pose proof (read_order B G 0 0) as Ord. destruct (read_sorted B An 0 0) as (A1 & A2 & A3). unfold t in *.
  assert (Es : spaces t = spaces (read_blocks 0 0 B)) by apply read_spaces. assert (Ef : functions t = functions (read_blocks 0 0 B)) by apply read_funcs. fold t in Es, Ef. fold t. rewrite <- Es in Ord. rewrite <- Ef in A1, A2.
  assert (K : forall f s, In f (functions t) -> f_space f = Some s -> In s (map snd (spaces t))). { intros f s I E. rewrite Ef in I. rewrite Es. destruct (A3 f s I E) as (_ & u & Iu). apply (in_map snd) in Iu. exact Iu. }
  destruct (section_shown t A2) as (B' & E & _). rewrite E. f_equal. destruct (section_in_order t B' Ord A1 A2 K E) as (ss & Inc & Im & _ & ->).
  assert (X : ss = map snd (spaces t)).
  { apply (increasing_same N.ltb); [apply ltb_irrefl|intros a b; lia|exact Inc| |].
    - clear -Ord. induction Ord as [|x l _ IH F]; cbn [map]; constructor; [exact IH|]. apply Forall_forall. intros s I. apply in_map_iff in I as (y & <- & I). rewrite Forall_forall in F. destruct (F y I). lia.
    - intros s. rewrite Im, Es, Ef. split; [|apply read_used; assumption]. intros I. apply used_in in I as (f & If & E0). rewrite <- Ef in If. rewrite <- Es. exact (K f s If E0). }
  rewrite X, Es, Ef. assert (R : B = map (fun s => (spaceName t s, map pair_of (filter (space_is s) (functions (read_blocks 0 0 B))))) (map snd (spaces (read_blocks 0 0 B)))).
  { apply read_groups; [exact An|]. intros u s I. apply spaceName_unique; [apply order_names, Ord|rewrite Es; exact I]. }
  etransitivity; [|symmetry; exact R]. apply map_ext_in. intros s I. f_equal. apply sort_sorted. rewrite Forall_forall in Sb.
  pose proof (in_map (fun s => (spaceName t s, map pair_of (filter (space_is s) (functions (read_blocks 0 0 B))))) _ _ I) as J. rewrite <- R in J. exact (Sb _ J).
Qed.
(** ** Twice *)
Lemma import_same fs : forall t H, NInv t H -> numbered (fun b => requests b H) (map pair_of fs) -> Forall has_space fs -> functions (import_functions t (map plain_decl fs)) = fs.
Proof.
  intros t H I N0 Hs. pose proof (import_numbered (map plain_decl fs) t H I) as N1. pose proof (import_functions_decls (map plain_decl fs) t) as F2.
  assert (E : map snd (map pair_of (functions (import_functions t (map plain_decl fs)))) = map snd (map pair_of fs)).
  { rewrite !map_map. cbn. clear -F2. remember (map plain_decl fs) as ds eqn:E. revert fs E. induction F2 as [|d f ds l (A & _) _ IH]; intros [|g fs] E; try discriminate; [reflexivity|]. cbn in E |- *. injection E as -> E. rewrite (IH fs E). f_equal. exact A. }
  pose proof (numbered_unique _ _ _ N1 N0 E) as X. clear -F2 X Hs. remember (map plain_decl fs) as ds eqn:E. revert fs E X Hs. induction F2 as [|d f ds l (A & B & C) _ IH]; intros [|g fs] E X Hs; try discriminate; [reflexivity|]. cbn [map] in E, X. injection E as -> E. injection X as X1 X2 X3.
  inversion Hs as [|? ? Hg Hs']; subst. f_equal; [|apply IH; auto]. unfold has_space in Hg. destruct f as [f1 f2 f3 f4], g as [g1 g2 g3 g4]. cbn in *. destruct g3; [|congruence]. congruence.
Qed.
Lemma section_again before B : good B -> Forall sorted_block B -> numbered (fun _ => 0) (flat_map snd B) ->
  let t := read_text before B in outputFunctionsSection (import_decls (outputExtensionSpaces t) (outputFunctions t)) = Ok B /\ functions (import_decls (outputExtensionSpaces t) (outputFunctions t)) = functions t.
Proof.
  intros G Sb N0 t. pose proof (go_named _ G) as An. destruct (import_parts (outputExtensionSpaces t) (outputFunctions t)) as (Es & Ef). unfold outputExtensionSpaces in Es at 2. destruct (read_sorted B An 0 0) as (_ & A2 & _).
  assert (X : functions (import_decls (outputExtensionSpaces t) (outputFunctions t)) = functions t).
  { rewrite Ef. unfold t. rewrite output_read, read_funcs by exact An. apply (import_same _ _ []); [intros b; reflexivity| |exact A2]. rewrite read_pairs by exact An. exact N0. }
  split; [|exact X]. rewrite (section_eq _ t Es X). apply section_read; assumption.
Qed.
Lemma first_again before B B1 : good B -> let t := read_text before B in (forall b, uses b (flat_map snd B) <= 9) ->
  outputFunctionsSection (import_decls (outputExtensionSpaces t) (outputFunctions t)) = Ok B1 -> good B1 /\ Forall sorted_block B1 /\ numbered (fun _ => 0) (flat_map snd B1).
Proof.
  intros G t L E. pose proof (go_named _ G) as An. set (t1 := import_decls (outputExtensionSpaces t) (outputFunctions t)) in *. destruct (import_parts (outputExtensionSpaces t) (outputFunctions t)) as (Es & Ef). fold t1 in Es, Ef. unfold outputExtensionSpaces in Es. unfold t in Es. rewrite read_spaces in Es.
  destruct (read_sorted B An 0 0) as (A1 & A2 & A3). pose proof (import_functions_decls (outputFunctions t) empty_table) as F2. rewrite <- Ef in F2. unfold t in F2. rewrite output_read in F2 by exact An.
  assert (Fs : Forall2 (fun f f1 => f_name f1 = f_name f /\ f_space f1 = f_space f) (functions (read_blocks 0 0 B)) (functions t1)).
  { clear -F2 A2. remember (map plain_decl (functions (read_blocks 0 0 B))) as ds eqn:E. revert E A2. generalize (functions (read_blocks 0 0 B)) as fs. induction F2 as [|d f ds l (X & Y & _) _ IH]; intros [|g fs] E A2; try discriminate; constructor; inversion A2; cbn in E; injection E as -> E; subst.
    - split; [exact X|]. rewrite Y. cbn. unfold has_space in *. destruct (f_space g); congruence.
    - apply IH; auto. }
  assert (H1 : Forall has_space (functions t1)) by (clear -Fs A2; induction Fs as [|f g l l' (_ & E) _ IH]; constructor; inversion A2; subst; [unfold has_space in *; congruence|auto]).
  assert (H2 : StronglySorted space_le (functions t1)).
  { clear -Fs A1. induction Fs as [|f g l l' (_ & E) Fs IH]; constructor; inversion A1 as [|? ? S F]; subst; [auto|]. apply Forall_forall. intros h I. destruct (Forall2_in_r _ _ _ _ Fs I) as (x & Ix & _ & Ex). rewrite Forall_forall in F. specialize (F x Ix). unfold space_le in *. rewrite E, Ex. exact F. }
  assert (H3 : forall f s, In f (functions t1) -> f_space f = Some s -> exists u, In (u, s) (spaces t1)). { intros f s I X. destruct (Forall2_in_r _ _ _ _ Fs I) as (x & Ix & _ & Ex). rewrite Es. apply (A3 x); [exact Ix|congruence]. }
  assert (O : in_order (spaces t1)) by (rewrite Es; apply read_order, G).
  destruct (section_good t1 B1 H1) as (X & Y); [|exact E|].
  { intros f s I Ex. destruct (H3 f s I Ex) as (u & Iu). exists u. apply spaceName_unique; [apply order_names, O|exact Iu]. }
  split; [exact X|]. split; [exact Y|]. apply (section_numbered t1 B1 O H2 H1); [|exact E| |].
  - intros f s I Ex. destruct (H3 f s I Ex) as (u & Iu). apply (in_map snd) in Iu. exact Iu.
  - rewrite Ef. apply imported_numbered.
  - intros b. specialize (L b). rewrite <- (read_pairs B An 0 0) in L. unfold uses in *. replace (length (filter (of_base b) (map pair_of (functions t1)))) with (length (filter (of_base b) (map pair_of (functions (read_blocks 0 0 B))))); [exact L|].
    clear -Fs. induction Fs as [|f g l l' (E & _) _ IH]; [reflexivity|]. cbn [map filter]. assert (Eb : of_base b (pair_of g) = of_base b (pair_of f)) by (unfold of_base, base; cbn; rewrite E; reflexivity). rewrite Eb. destruct (of_base b (pair_of f)); cbn [length]; congruence.
Qed.
