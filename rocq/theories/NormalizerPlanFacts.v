(** Specification vocabulary and proofs for the reference normaliser: whole plans. *)
From Verif Require Import Base BaseFacts ProtoModel NormalizerModel NormalizerFacts NormalizerTreeFacts NormalizerRenFacts.
From Coq Require Import Permutation Sorted Lia ZifyBool ZifyNat ZifyN.

(** * Specification *)
(** Strings in byte order: [a] comes before [b]. *)
Definition before (a b : str) : Prop :=
  exists c, (exists y b', a = c /\ b = c ++ y :: b') \/
            (exists x a' y b', a = c ++ x :: a' /\ b = c ++ y :: b' /\ (code x < code y)%N).
Definition sorted_by {A} (lt : A -> A -> Prop) (l : list A) : Prop := StronglySorted (fun a b => ~ lt b a) l.
(** Functions come by space number and then by name; anything else comes last. *)
Definition decl_before (d d' : decl) : Prop :=
  match d, d' with
  | DFun s _ n, DFun s' _ n' => (s < s')%N \/ (s = s' /\ before n n')
  | DFun _ _ _, DOther _ => True
  | DOther _, _ => False
  end.
Definition space_before (a b : space) : Prop := before (sp_uri a) (sp_uri b).
(** What the standard promises of [std::sort]: a rearrangement in which no element comes before an earlier one. *)
Definition sorts {A} (lt : A -> A -> Prop) (f : list A -> list A) : Prop := forall l, Permutation l (f l) /\ sorted_by lt (f l).
Definition valid (srt : sorter) : Prop := sorts space_before (sort_spaces srt) /\ sorts decl_before (sort_decls srt).

Definition anchor (d : decl) : N := match d with DFun _ a _ => a | DOther _ => 0%N end.
Definition is_function (d : decl) : Prop := match d with DFun _ _ _ => True | DOther _ => False end.
Definition all_functions (p : plan) : Prop := Forall is_function (p_decls p).
Definition declared (p : plan) (f : N) : Prop := exists s n, In (DFun s f n) (p_decls p).
Definition uri_of (p : plan) (s : N) : option str := option_map sp_uri (find (fun x => (sp_anchor x =? s)%N) (p_spaces p)).
Definition decl_meaning (p : plan) (d : decl) : option (option str * str) :=
  match d with DFun s _ n => Some (uri_of p s, n) | DOther _ => None end.
(** What a call of function [f] means: the URI of its space (if it is in one) and its name. *)
Definition meaning (p : plan) (f : N) : option (option str * str) :=
  match find (fun d => match d with DFun _ a _ => (a =? f)%N | DOther _ => false end) (p_decls p) with
  | Some d => decl_meaning p d
  | None => None
  end.
(** No number is declared twice and every function is in a declared space or in none (zero). *)
Record well_numbered (p : plan) : Prop := {
  wn_functions : all_functions p;
  wn_spaces : NoDup (map sp_anchor (p_spaces p));
  wn_anchors : NoDup (map anchor (p_decls p));
  wn_declared : forall s a n, In (DFun s a n) (p_decls p) -> s = 0%N \/ In s (map sp_anchor (p_spaces p)) }.
Fixpoint upto (n : N) (k : nat) : list N := match k with 0 => [] | S k' => n :: upto (n + 1) k' end.
Definition distinct_uris (p : plan) : Prop := NoDup (map sp_uri (p_spaces p)).
Definition distinct_meanings (p : plan) : Prop := NoDup (map (decl_meaning p) (p_decls p)).
Definition blank (r : prel) : prel := pren true (fun _ => 0%N) r.
(** The same plan with other numbers and with its declarations in another order. *)
Definition decl_ren (t s : N -> N) (d : decl) : decl := match d with DFun a b n => DFun (t a) (s b) n | DOther p => DOther p end.
Definition space_ren (t : N -> N) (x : space) : space := {| sp_anchor := t (sp_anchor x); sp_uri := sp_uri x |}.
Definition injective (s : N -> N) : Prop := forall a b, s a = s b -> a = b.
Record renumbered (t s : N -> N) (p q : plan) : Prop := {
  rn_spaces : Permutation (map (space_ren t) (p_spaces p)) (p_spaces q);
  rn_decls : Permutation (map (decl_ren t s) (p_decls p)) (p_decls q);
  rn_rels : p_rels q = map (pren false s) (p_rels p);
  rn_rest : p_rest q = p_rest p }.

(** * Order *)
Lemma str_lt_before a : forall b, str_lt a b = true <-> before a b.
Proof.
  induction a as [|x a IH]; intros [|y b]; cbn [str_lt].
  - split; [discriminate|]. intros [[|z c] [(y & b' & E & E')|(x & a' & y & b' & E & E' & L)]]; discriminate.
  - split; [|auto]. intros _. exists []. left. exists y, b. auto.
  - split; [discriminate|]. intros [[|z c] [(y & b' & E & E')|(x' & a' & y & b' & E & E' & L)]]; discriminate.
  - rewrite orb_true_iff, andb_true_iff, N.ltb_lt, (IH b), ceq_true. split.
    + intros [L|[-> [c H]]].
      * exists []. right. exists x, a, y, b. auto.
      * exists (y :: c). destruct H as [(z & b' & -> & ->)|(x & a' & z & b' & -> & -> & L)]; [left; exists z, b'; auto|right; exists x, a', z, b'; auto].
    + intros [[|z c] [(w & b' & E & E')|(w & a' & v & b' & E & E' & L)]]; cbn in *; try discriminate.
      * injection E as <- <-. injection E' as <- <-. auto.
      * injection E as <- <-. injection E' as <- ->. right. split; auto. exists a. left. eauto.
      * injection E as <- ->. injection E' as <- ->. right. split; auto. exists c. right. exists w, a', v, b'. auto.
Qed.
Lemma str_lt_trans a : forall b c, str_lt a b = true -> str_lt b c = true -> str_lt a c = true.
Proof.
  induction a as [|x a IH]; intros [|y b] [|z c]; cbn [str_lt]; try discriminate; auto.
  rewrite !orb_true_iff, !andb_true_iff, !N.ltb_lt, !ceq_true. intros [L|[-> L]] [L'|[-> L']]; eauto; left; lia.
Qed.
Lemma str_lt_irrefl a : str_lt a a = false.
Proof. induction a; cbn; auto. rewrite IHa, N.ltb_irrefl, andb_false_r. reflexivity. Qed.
Lemma str_lt_total a : forall b, str_lt a b = false -> str_lt b a = false -> a = b.
Proof.
  induction a as [|x a IH]; intros [|y b]; cbn [str_lt]; try discriminate; auto.
  rewrite !orb_false_iff, !andb_false_iff, !N.ltb_ge. intros [L H] [L' H'].
  assert (E : x = y) by (apply code_inj; lia). subst y. f_equal. assert (R : ceq x x = true) by (apply ceq_true; auto). rewrite R in H, H'.
  apply IH; [destruct H|destruct H']; congruence.
Qed.
Lemma decl_lt_before d d' : decl_lt d d' = true <-> decl_before d d'.
Proof.
  unfold decl_lt, key_lt. destruct d, d'; cbn; rewrite ?orb_true_iff, ?andb_true_iff, ?N.ltb_lt, ?N.eqb_eq, ?str_lt_before; intuition; try discriminate.
Qed.
Lemma not_true b P : (b = true <-> P) -> (b = false <-> ~ P).
Proof. destruct b; intuition; discriminate. Qed.

(** Insertion sort is such a procedure. *)
Section Insertion.
  Context {A : Type} (lt : A -> A -> bool).
  Fixpoint insert (x : A) (l : list A) : list A := match l with [] => [x] | y :: r => if lt y x then y :: insert x r else x :: l end.
  Fixpoint isort (l : list A) : list A := match l with [] => [] | x :: r => insert x (isort r) end.
  Lemma insert_perm x l : Permutation (x :: l) (insert x l).
  Proof. induction l as [|y l IH]; cbn; auto. destruct (lt y x); auto. eapply perm_trans; [apply perm_swap|]. auto. Qed.
  Lemma isort_perm l : Permutation l (isort l).
  Proof. induction l; cbn; auto. eapply perm_trans; [apply perm_skip; eassumption|apply insert_perm]. Qed.
  Hypothesis asym : forall a b, lt a b = true -> lt b a = false.
  Hypothesis trans : forall a b c, lt a b = false -> lt b c = false -> lt a c = false.
  Lemma insert_sorted x l : StronglySorted (fun a b => lt b a = false) l -> StronglySorted (fun a b => lt b a = false) (insert x l).
  Proof.
    induction 1 as [|y l S IH F]; cbn; [repeat constructor|]. destruct (lt y x) eqn:E.
    - constructor; auto. eapply Permutation_Forall; [apply insert_perm|]. constructor; auto.
    - constructor; [constructor; auto|]. constructor; auto. eapply Forall_impl; [|exact F]. cbn. intros z Z. eapply trans; eauto.
  Qed.
  Lemma isort_sorted l : StronglySorted (fun a b => lt b a = false) (isort l).
  Proof. induction l; cbn; [constructor|apply insert_sorted; auto]. Qed.
End Insertion.
Lemma sorted_imp {A} (R R' : A -> A -> Prop) l : (forall a b, R a b -> R' a b) -> StronglySorted R l -> StronglySorted R' l.
Proof. intros H. induction 1; constructor; auto. eapply Forall_impl; [|eassumption]. auto. Qed.
Definition stable : sorter := {| sort_spaces := isort space_lt; sort_decls := isort decl_lt |}.
(** Another one, which leaves equivalent elements in the opposite order. *)
Definition unstable : sorter := {| sort_spaces := fun l => isort space_lt (rev l); sort_decls := fun l => isort decl_lt (rev l) |}.
Lemma space_asym a b : space_lt a b = true -> space_lt b a = false.
Proof. unfold space_lt. intros H. destruct (str_lt (sp_uri b) (sp_uri a)) eqn:E; auto. pose proof (str_lt_irrefl (sp_uri a)). pose proof (str_lt_trans _ _ _ H E). congruence. Qed.
Lemma str_lt_ntrans a b c : str_lt a b = false -> str_lt b c = false -> str_lt a c = false.
Proof.
  intros H K. destruct (str_lt a c) eqn:E; auto. destruct (str_lt b a) eqn:D.
  - rewrite (str_lt_trans _ _ _ D E) in K. discriminate.
  - apply str_lt_total in D; auto. subst. congruence.
Qed.
Lemma space_ntrans a b c : space_lt a b = false -> space_lt b c = false -> space_lt a c = false.
Proof. apply str_lt_ntrans. Qed.
Lemma decl_ntrans a b c : decl_lt a b = false -> decl_lt b c = false -> decl_lt a c = false.
Proof.
  unfold decl_lt, key_lt. destruct a as [s ? n|], b as [s' ? n'|], c as [s'' ? n''|]; cbn; auto; try discriminate.
  intros H K. apply orb_false_iff in H as [H1 H2], K as [K1 K2]. apply orb_false_iff. split; [lia|].
  destruct (s =? s'')%N eqn:E; auto. cbn. assert (s = s' /\ s' = s'') as [-> ->] by lia. rewrite N.eqb_refl in *. cbn in *. eapply str_lt_ntrans; eauto.
Qed.
Lemma decl_asym a b : decl_lt a b = true -> decl_lt b a = false.
Proof.
  intros H. destruct (decl_lt b a) eqn:E; auto. exfalso. revert H E. rewrite !decl_lt_before. destruct a, b; cbn; auto.
  intros [L|[-> L]] [L'|[E L']]; try lia. rewrite <- str_lt_before in L, L'. pose proof (str_lt_trans _ _ _ L L'). pose proof (str_lt_irrefl name). congruence.
Qed.
Lemma isort_sorts {A} lt (R : A -> A -> Prop) : (forall a b, lt a b = true <-> R a b) -> (forall a b, lt a b = true -> lt b a = false) ->
  (forall a b c, lt a b = false -> lt b c = false -> lt a c = false) -> sorts R (isort lt) /\ sorts R (fun l => isort lt (rev l)).
Proof.
  intros S As T. assert (G : sorts R (isort lt)).
  { intros l. split; [apply isort_perm|]. eapply sorted_imp; [|apply isort_sorted; eauto]. cbn. intros a b H. apply (proj1 (not_true _ _ (S b a))). auto. }
  split; auto. intros l. destruct (G (rev l)) as [P Q]. split; auto. eapply perm_trans; [apply Permutation_rev|auto].
Qed.
Lemma stable_valid : valid stable.
Proof. split; [eapply (isort_sorts space_lt); [intros; apply str_lt_before|apply space_asym|apply space_ntrans] | eapply (isort_sorts decl_lt); [apply decl_lt_before|apply decl_asym|apply decl_ntrans]]. Qed.
Lemma unstable_valid : valid unstable.
Proof. split; [eapply (isort_sorts space_lt); [intros; apply str_lt_before|apply space_asym|apply space_ntrans] | eapply (isort_sorts decl_lt); [apply decl_lt_before|apply decl_asym|apply decl_ntrans]]. Qed.

(** Sorted arrangements are unique when distinct elements are comparable. *)
Lemma sorted_unique {A} (lt : A -> A -> Prop) l : forall l', Permutation l l' -> sorted_by lt l -> sorted_by lt l' ->
  (forall a b, In a l -> In b l -> ~ lt a b -> ~ lt b a -> a = b) -> l = l'.
Proof.
  induction l as [|x l IH]; intros l' P S S' C.
  - apply Permutation_nil in P. auto.
  - destruct l' as [|y l']; [apply Permutation_sym, Permutation_nil in P; discriminate|].
    inversion_clear S as [|? ? Sl F]. inversion_clear S' as [|? ? Sl' F']. rewrite Forall_forall in F, F'.
    assert (x = y).
    { assert (I1 : In y (x :: l)) by (eapply Permutation_in; [apply Permutation_sym; eauto|left; auto]).
      assert (I2 : In x (y :: l')) by (eapply Permutation_in; [eauto|left; auto]).
      destruct I1 as [?|I1]; auto. destruct I2 as [?|I2]; auto. apply C; cbn; auto. }
    subst y. f_equal. apply IH; auto; [eapply Permutation_cons_inv; eauto|]. intros a b Ia Ib. apply C; cbn; auto.
Qed.

(** * Numbering *)
Lemma upto_In n k x : In x (upto n k) <-> (n <= x < n + N.of_nat k)%N.
Proof. revert n. induction k; intros n; cbn [upto In]; [lia|]. rewrite IHk. lia. Qed.
Lemma upto_NoDup k : forall n, NoDup (upto n k).
Proof. induction k; intros n; cbn; constructor; auto. rewrite upto_In. lia. Qed.
Lemma mset_same k v m : mfind k (mset k v m) = Some v.
Proof. cbn. rewrite N.eqb_refl. auto. Qed.
Lemma mset_other k k' v m : k <> k' -> mfind k (mset k' v m) = mfind k m.
Proof. intros H. cbn. destruct (k' =? k)%N eqn:E; auto. lia. Qed.

Lemma ns_shape l : forall n m, map sp_anchor (snd (number_spaces n m l)) = upto (n + 1) (length l) /\ map sp_uri (snd (number_spaces n m l)) = map sp_uri l.
Proof.
  induction l as [|s l IH]; intros n m; cbn [number_spaces]; auto.
  destruct (number_spaces (n + 1) (mset (sp_anchor s) (n + 1)%N m) l) as [m' r] eqn:E. specialize (IH (n + 1)%N (mset (sp_anchor s) (n + 1)%N m)).
  rewrite E in IH. cbn in *. destruct IH as [-> ->]. auto.
Qed.
Lemma ns_none l : forall n m a, ~ In a (map sp_anchor l) -> mfind a (fst (number_spaces n m l)) = mfind a m.
Proof.
  induction l as [|s l IH]; intros n m a H; cbn [number_spaces]; auto. cbn [map In] in H.
  specialize (IH (n + 1)%N (mset (sp_anchor s) (n + 1)%N m) a). destruct (number_spaces _ _ l) as [m' r]. cbn [fst] in *. rewrite IH by tauto. apply mset_other. firstorder.
Qed.
Lemma ns_in l : forall n m s, NoDup (map sp_anchor l) -> In s l -> exists i, mfind (sp_anchor s) (fst (number_spaces n m l)) = Some i /\
  In {| sp_anchor := i; sp_uri := sp_uri s |} (snd (number_spaces n m l)).
Proof.
  induction l as [|x l IH]; intros n m s D I; [destruct I|]. cbn [number_spaces map] in *. inversion_clear D as [|? ? N0 D'].
  specialize (IH (n + 1)%N (mset (sp_anchor x) (n + 1)%N m) s D'). pose proof (ns_none l (n + 1) (mset (sp_anchor x) (n + 1)%N m) (sp_anchor x) N0) as Z.
  destruct (number_spaces _ _ l) as [m' r]. cbn [fst snd] in *. destruct I as [->|I].
  - exists (n + 1)%N. rewrite Z, mset_same. cbn. auto.
  - destruct (IH I) as (i & H1 & H2). exists i. cbn. auto.
Qed.
(** Every declared number is mapped to one of the new numbers, whatever the plan. *)
Lemma ns_some l : forall n m a, In a (map sp_anchor l) -> exists i, mfind a (fst (number_spaces n m l)) = Some i /\ In i (upto (n + 1) (length l)).
Proof.
  induction l as [|x l IH]; intros n m a I; [destruct I|]. cbn [number_spaces map length upto] in *.
  pose proof (ns_none l (n + 1) (mset (sp_anchor x) (n + 1)%N m) a) as Z. specialize (IH (n + 1)%N (mset (sp_anchor x) (n + 1)%N m) a).
  destruct (number_spaces _ _ l) as [m' r]. cbn [fst snd] in *. destruct (in_dec N.eq_dec a (map sp_anchor l)) as [J|J].
  - destruct (IH J) as (i & H1 & H2). exists i. cbn. auto.
  - destruct I as [I|I]; [|tauto]. exists (n + 1)%N. rewrite (Z J), I, mset_same. cbn. auto.
Qed.
(** Numbering what is already numbered changes nothing. *)
Lemma ns_again l : forall n m, map sp_anchor l = upto (n + 1) (length l) -> snd (number_spaces n m l) = l /\
  (forall a, In a (map sp_anchor l) -> mfind a (fst (number_spaces n m l)) = Some a).
Proof.
  induction l as [|x l IH]; intros n m E; cbn [number_spaces]; [split; [auto|intros a []]|]. cbn [map length upto] in E. injection E as E1 E2.
  specialize (IH (n + 1)%N (mset (sp_anchor x) (n + 1)%N m) E2). pose proof (ns_none l (n + 1) (mset (sp_anchor x) (n + 1)%N m) (sp_anchor x)) as Z.
  destruct (number_spaces _ _ l) as [m' r]. cbn [fst snd] in *. destruct IH as [-> IH]. split.
  - f_equal. destruct x as [a u]. cbn in *. subst. auto.
  - cbn. intros a [I|I]; auto. rewrite <- I, Z, mset_same; [congruence|]. rewrite E2, upto_In. lia.
Qed.
Lemma ns_ren t l : injective t -> forall n m m', (forall a, mfind (t a) m' = mfind a m) ->
  snd (number_spaces n m' (map (space_ren t) l)) = snd (number_spaces n m l) /\
  (forall a, mfind (t a) (fst (number_spaces n m' (map (space_ren t) l))) = mfind a (fst (number_spaces n m l))).
Proof.
  intros J. induction l as [|x l IH]; intros n m m' H; cbn [number_spaces map]; auto. cbn [space_ren sp_anchor sp_uri].
  specialize (IH (n + 1)%N (mset (sp_anchor x) (n + 1)%N m) (mset (t (sp_anchor x)) (n + 1)%N m')).
  destruct (number_spaces _ _ l) as [m1 r1]. destruct (number_spaces _ _ (map _ l)) as [m2 r2]. cbn [fst snd] in *.
  destruct IH as [-> IH]; auto. intros a. cbn. rewrite H. destruct (sp_anchor x =? a)%N eqn:E.
  - apply N.eqb_eq in E. subst. rewrite N.eqb_refl. auto.
  - destruct (t (sp_anchor x) =? t a)%N eqn:E'; auto. apply N.eqb_eq, J in E'. lia.
Qed.

(** The same for functions. *)
Definition renum (n : N) (d : decl) : decl := match d with DFun s _ k => DFun s n k | DOther _ => DFun 0 n [] end.
Lemma nd_shape l : forall n m, map anchor (snd (number_decls n m l)) = upto n (length l) /\ Forall is_function (snd (number_decls n m l)).
Proof.
  induction l as [|s l IH]; intros n m; cbn [number_decls]; [split; constructor|].
  match goal with |- context [number_decls (n + 1) ?m l] => specialize (IH (n + 1)%N m); destruct (number_decls (n + 1) m l) as [m' r] end.
  cbn [fst snd map length upto] in *. destruct IH as [-> IH]. split; [destruct s; auto|constructor; auto; destruct s; cbn; auto].
Qed.
Definition bare (d : decl) : N * str := match d with DFun s _ k => (s, k) | DOther _ => (0%N, []) end.
Lemma nd_bare l : forall n m, map bare (snd (number_decls n m l)) = map bare l.
Proof.
  induction l as [|s l IH]; intros n m; cbn [number_decls]; auto.
  match goal with |- context [number_decls (n + 1) ?m l] => specialize (IH (n + 1)%N m); destruct (number_decls (n + 1) m l) as [m' r] end.
  cbn in *. rewrite IH. destruct s; auto.
Qed.
Lemma nd_none l : forall n m a, ~ In a (map anchor l) -> mfind a (fst (number_decls n m l)) = mfind a m.
Proof.
  induction l as [|s l IH]; intros n m a H; cbn [number_decls]; auto. cbn [map In] in H.
  match goal with |- context [number_decls (n + 1) ?m l] => specialize (IH (n + 1)%N m a); destruct (number_decls (n + 1) m l) as [m' r] end.
  cbn [fst] in *. rewrite IH by tauto. apply mset_other. destruct s; cbn in *; firstorder.
Qed.
Lemma nd_some l : forall n m a, In a (map anchor l) -> exists i, mfind a (fst (number_decls n m l)) = Some i /\ In i (upto n (length l)).
Proof.
  induction l as [|x l IH]; intros n m a I; [destruct I|]. cbn [number_decls map length upto] in *.
  match goal with |- context [number_decls (n + 1) ?m l] => pose proof (nd_none l (n + 1) m a) as Z; specialize (IH (n + 1)%N m a); destruct (number_decls (n + 1) m l) as [m' r] end.
  cbn [fst snd] in *. destruct (in_dec N.eq_dec a (map anchor l)) as [J|J].
  - destruct (IH J) as (i & H1 & H2). exists i. cbn. auto.
  - destruct I as [I|I]; [|tauto]. exists n. rewrite (Z J). split; [|left; auto]. subst a. destruct x; apply mset_same.
Qed.
Lemma nd_in l : forall n m s a k, NoDup (map anchor l) -> In (DFun s a k) l -> exists i, mfind a (fst (number_decls n m l)) = Some i /\
  In (DFun s i k) (snd (number_decls n m l)).
Proof.
  induction l as [|x l IH]; intros n m s a k D I; [destruct I|]. cbn [number_decls map] in *. inversion_clear D as [|? ? N0 D'].
  match goal with |- context [number_decls (n + 1) ?m l] => pose proof (nd_none l (n + 1) m (anchor x) N0) as Z; specialize (IH (n + 1)%N m s a k D'); destruct (number_decls (n + 1) m l) as [m' r] end.
  cbn [fst snd] in *. destruct I as [->|I].
  - exists n. cbn [anchor] in Z. rewrite Z, mset_same. cbn. auto.
  - destruct (IH I) as (i & H1 & H2). exists i. cbn. auto.
Qed.
Lemma nd_again l : forall n m, Forall is_function l -> map anchor l = upto n (length l) -> snd (number_decls n m l) = l /\
  (forall a, In a (map anchor l) -> mfind a (fst (number_decls n m l)) = Some a).
Proof.
  induction l as [|x l IH]; intros n m F E; cbn [number_decls]; [split; [auto|intros a []]|]. cbn [map length upto] in E. injection E as E1 E2.
  inversion_clear F as [|? ? Fx F'].
  match goal with |- context [number_decls (n + 1) ?m l] => pose proof (nd_none l (n + 1) m (anchor x)) as Z; specialize (IH (n + 1)%N m F' E2); destruct (number_decls (n + 1) m l) as [m' r] end.
  cbn [fst snd] in *. destruct IH as [-> IH]. destruct x as [s b k|]; [|destruct Fx]. cbn [anchor] in *. subst b. split; auto.
  cbn. intros a [I|I]; auto. rewrite <- I, Z, mset_same; [congruence|]. rewrite E2, upto_In. lia.
Qed.
Lemma nd_ren s l : injective s -> Forall is_function l -> forall n m m', (forall a, mfind (s a) m' = mfind a m) ->
  snd (number_decls n m' (map (decl_ren (fun x => x) s) l)) = snd (number_decls n m l) /\
  (forall a, mfind (s a) (fst (number_decls n m' (map (decl_ren (fun x => x) s) l))) = mfind a (fst (number_decls n m l))).
Proof.
  intros J. induction 1 as [|x l Fx F IH]; intros n m m' H; cbn [number_decls map]; auto. destruct x as [sp b k|]; [|destruct Fx]. cbn [decl_ren].
  specialize (IH (n + 1)%N (mset b n m) (mset (s b) n m')).
  destruct (number_decls _ _ l) as [m1 r1]. destruct (number_decls _ _ (map _ l)) as [m2 r2]. cbn [fst snd] in *.
  destruct IH as [-> IH]; auto. intros a. cbn. rewrite H. destruct (b =? a)%N eqn:E.
  - apply N.eqb_eq in E. subst. rewrite N.eqb_refl. auto.
  - destruct (s b =? s a)%N eqn:E'; auto. apply N.eqb_eq, J in E'. lia.
Qed.
