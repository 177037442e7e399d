From Verif Require Import Base BaseFacts SymbolModel SymbolFacts.
From Coq Require Import Lia ZifyBool ZifyNat ZifyN.

(** * Unique names *)
(** The name handed out for the (n+1)-st request of [b]: the name itself, then the name followed by 2, 3, ... *)
Definition unique_text (b : str) (n : nat) : str := match n with O => b | S _ => b ++ print_N (N.of_nat (S n)) end.
Definition requests (b : str) (H : list (str * str)) : nat := count_occ str_eq_dec (map fst H) b.
Inductive Numbered : list (str * str) -> Prop :=
| Nu_nil : Numbered []
| Nu_snoc H b : Numbered H -> Numbered (H ++ [(b, unique_text b (requests b H))]).
(** No requested name is another requested name followed by digits. *)
Definition Independent (B : list str) : Prop := forall b b' d, In b B -> In b' B -> b' = b ++ d -> forallb is_digit d = true -> d = [].

Lemma requests_app b H H' : requests b (H ++ H') = requests b H + requests b H'.
Proof. unfold requests. rewrite map_app. apply count_occ_app. Qed.
Lemma requests_one b b' n : requests b [(b', n)] = if b' =s b then 1 else 0.
Proof. unfold requests. cbn. destruct (str_eq_dec b' b) as [->|N]; [now rewrite seq_eqb_refl|]. apply seq_eqb_neq in N. now rewrite N. Qed.
Definition NInv (t : table) (H : list (str * str)) : Prop :=
  forall b, lookup b (t_names t) = match requests b H with O => None | S n => Some (Z.of_nat (S n)) end.
Lemma unique_step t H b t' n : NInv t H -> getUniqueName t b = (t', n) -> n = unique_text b (requests b H) /\ NInv t' (H ++ [(b, n)]).
Proof.
  intros I. unfold getUniqueName. rewrite (I b). destruct (requests b H) as [|c] eqn:R; intros [= <- <-].
  - split; [reflexivity|]. intros x. cbn [t_names]. rewrite lookup_insert, requests_app, requests_one, (I x).
    destruct (seq_eqb_spec b x) as [<-|N]; [rewrite R; reflexivity|]. rewrite Nat.add_0_r. destruct (requests x H); reflexivity.
  - split.
    + unfold unique_text. f_equal. replace (Z.of_nat (S c) + 1)%Z with (Z.pos (Pos.of_nat (S (S c)))) by lia. cbn [print_Z].
      f_equal. lia.
    + intros x. cbn [t_names]. rewrite lookup_assign, requests_app, requests_one, (I x). destruct (seq_eqb_spec b x) as [<-|N].
      * rewrite R. rewrite Nat.add_1_r. cbn [option_map]. f_equal. lia.
      * rewrite Nat.add_0_r. reflexivity.
Qed.
Lemma step_unique t H o t' r : NInv t H -> Numbered H -> step t o = Ok (t', r) -> NInv t' (H ++ handed_by (o, r)) /\ Numbered (H ++ handed_by (o, r)).
Proof.
  intros I N. destruct o as [b|n l ty b|n l ty b|k l|k l|a k]; cbn [step handed_by]; intros S.
  - destruct (getUniqueName t b) as [t1 n] eqn:U. injection S as <- <-. destruct (unique_step _ _ _ _ _ I U) as [-> I'].
    split; [exact I'|]. now constructor.
  - injection S as <- <-. rewrite app_nil_r. auto.
  - destruct (getUniqueName t n) as [t1 u] eqn:U. injection S as <- <-. destruct (unique_step _ _ _ _ _ I U) as [-> I'].
    split; [exact I'|]. now constructor.
  - inrange S k t. injection S as <- <-. rewrite app_nil_r. auto.
  - inrange S k t. injection S as <- <-. rewrite app_nil_r. auto.
  - inrange S k t. injection S as <- <-. rewrite app_nil_r. auto.
Qed.
Lemma run_unique l : forall t H t' T, NInv t H -> Numbered H -> run t l = Ok (t', T) -> Numbered (H ++ handed T).
Proof.
  induction l as [|o l IH]; intros t H t' T I N R.
  - injection R as <- <-. cbn. now rewrite app_nil_r.
  - apply run_cons in R as (t1 & r & T' & S & R & ->). cbn [handed flat_map]. rewrite app_assoc.
    destruct (step_unique _ _ _ _ _ I N S) as [I' N']. exact (IH _ _ _ _ I' N' R).
Qed.
Lemma handed_numbered l t T : run empty_table l = Ok (t, T) -> Numbered (handed T).
Proof. intros R. apply (run_unique l empty_table [] t T); [intros b; reflexivity|constructor|exact R]. Qed.

Definition tail_of (n : nat) : str := match n with O => [] | S _ => print_N (N.of_nat (S n)) end.
Lemma unique_tail b n : unique_text b n = b ++ tail_of n.
Proof. destruct n; cbn; [now rewrite app_nil_r|reflexivity]. Qed.
Lemma tail_digits n : forallb is_digit (tail_of n) = true.
Proof. destruct n; [reflexivity|apply print_N_digits]. Qed.
Lemma tail_inj n m : tail_of n = tail_of m -> n = m.
Proof.
  destruct n, m; cbn [tail_of]; intros H; auto.
  - symmetry in H. now apply print_N_nonempty in H.
  - now apply print_N_nonempty in H.
  - apply print_N_inj in H. lia.
Qed.
Lemma app_compare (a b x y : str) : a ++ x = b ++ y -> (exists d, b = a ++ d /\ x = d ++ y) \/ (exists d, a = b ++ d /\ y = d ++ x).
Proof.
  revert b. induction a as [|c a IH]; intros [|c' b] E; cbn in E.
  - left. now exists [].
  - left. now exists (c' :: b).
  - right. exists (c :: a). auto.
  - injection E as <- E. destruct (IH b E) as [(d & -> & ->)|(d & -> & ->)]; [left|right]; now exists d.
Qed.
Lemma numbered_member H : Numbered H -> forall b n, In (b, n) H -> exists c, c < requests b H /\ n = unique_text b c.
Proof.
  induction 1 as [|H b N IH]; intros b' n I; [contradiction|]. apply in_app_or in I as [I|[I|[]]].
  - destruct (IH _ _ I) as (c & L & E). exists c. split; [rewrite requests_app; lia|exact E].
  - injection I as <- <-. exists (requests b H). split; [|reflexivity]. rewrite requests_app, requests_one, seq_eqb_refl. lia.
Qed.
Lemma NoDup_snoc {A} (l : list A) x : NoDup l -> ~ In x l -> NoDup (l ++ [x]).
Proof.
  induction 1 as [|y l N D IH]; intros H; cbn; [constructor; [easy|constructor]|].
  constructor.
  - intros I. apply in_app_or in I as [I|[<-|[]]]; [contradiction|]. apply H. now left.
  - apply IH. intros I. apply H. now right.
Qed.
Lemma numbered_nodup H : Numbered H -> Independent (map fst H) -> NoDup (map snd H).
Proof.
  induction 1 as [|H b N IH]; intros D; [constructor|]. rewrite map_app in *. cbn [map fst snd] in *.
  apply NoDup_snoc.
  - apply IH. intros x y d X Y. apply D; apply in_or_app; now left.
  - intros I. apply in_map_iff in I as ([b' n] & E & I). cbn in E. subst n.
    destruct (numbered_member H N _ _ I) as (c & L & E). rewrite !unique_tail in E.
    assert (B' : In b' (map fst H ++ [b])) by (apply in_or_app; left; now apply (in_map fst) in I).
    assert (B : In b (map fst H ++ [b])) by (apply in_or_app; right; now left).
    destruct (app_compare _ _ _ _ E) as [(d & E1 & E2)|(d & E1 & E2)].
    + assert (Dd : forallb is_digit d = true).
      { pose proof (tail_digits (requests b H)) as Q. rewrite E2, forallb_app in Q. now apply andb_true_iff in Q as [Q _]. }
      pose proof (D b b' d B B' E1 Dd) as D0. subst d. rewrite app_nil_r in E1. subst b'. cbn in E2. apply tail_inj in E2. lia.
    + assert (Dd : forallb is_digit d = true).
      { pose proof (tail_digits c) as Q. rewrite E2, forallb_app in Q. now apply andb_true_iff in Q as [Q _]. }
      pose proof (D b' b d B' B E1 Dd) as D0. subst d. rewrite app_nil_r in E1. subst b'. cbn in E2. apply tail_inj in E2. lia.
Qed.
(** Names that do not end in a digit are independent. *)
Definition no_final_digit (b : str) : Prop := b = [] \/ exists p c, b = p ++ [c] /\ is_digit c = false.
Lemma no_digit_independent B : Forall no_final_digit B -> Independent B.
Proof.
  intros F b b' d Ib Ib' -> Dd. destruct d as [|x d] using rev_ind; [reflexivity|]. exfalso.
  rewrite Forall_forall in F. destruct (F _ Ib') as [E|(p & c & E & N)].
  - destruct b, d; discriminate E.
  - rewrite app_assoc in E. apply app_inj_tail in E as [_ ->]. rewrite forallb_app in Dd. cbn in Dd. rewrite N in Dd.
    rewrite andb_false_r in Dd. discriminate.
Qed.
Lemma unique_nodup l t T : run empty_table l = Ok (t, T) -> Independent (map fst (handed T)) -> NoDup (map snd (handed T)).
Proof. intros R. apply numbered_nodup. now apply (handed_numbered l t). Qed.

(** With unique definitions only, every symbol is found by the name it was given. *)
Definition unique_only (o : op) : Prop := match o with ODefine _ _ _ _ | OAlias _ _ => False | _ => True end.
Lemma unique_events T : forall d, Forall (fun e => unique_only (fst e)) T -> incl (map fst (name_events d T)) (map snd (handed T)) /\
  (NoDup (map snd (handed T)) -> NoDup (map fst (name_events d T))).
Proof.
  induction T as [|[o r] T IH]; intros d F; [split; [easy|constructor]|].
  inversion F as [|? ? U F']; subst. cbn [fst] in U. destruct (IH (d ++ defined_by (o, r)) F') as [I N].
  rewrite name_events_cons. cbn [handed flat_map]. fold (handed T). rewrite !map_app.
  destruct o as [b|n l ty b|n l ty b|k l|k l|a k]; try contradiction; try (cbn [name_events app map handed_by]; auto).
  - destruct r; cbn [app map] in *; auto. split; [now apply incl_tl|]. intros Q. inversion Q. auto.
  - destruct r as [| |i u]; cbn [app map fst snd] in *; auto. split.
    + intros x [->|X]; [now left|]. right. auto.
    + intros Q. inversion Q; subst. constructor; auto.
Qed.
Lemma first_named_nodup n i m : NoDup (map fst m) -> In (n, i) m -> first_named n m = Some i.
Proof.
  unfold first_named. induction m as [|[n' j] m IH]; intros D I; [contradiction|]. cbn [map fst] in D. inversion D as [|? ? NI D']; subst.
  cbn [find fst]. destruct (seq_eqb_spec n' n) as [->|N].
  - destruct I as [[= <-]|I]; [reflexivity|]. exfalso. apply NI. now apply (in_map fst) in I.
  - destruct I as [[= -> _]|I]; [contradiction|]. auto.
Qed.
Lemma run_events l : forall t d t' T i u, Inv t d -> run t l = Ok (t', T) ->
  forall o, In (o, RSymbol i u) T -> In (u, i) (name_events d T).
Proof.
  induction l as [|o l IH]; intros t d t' T i u I R o' J.
  - injection R as <- <-. contradiction.
  - apply run_cons in R as (t1 & r & T' & S & R & ->). rewrite name_events_cons. apply in_or_app. destruct J as [[= -> ->]|J].
    + left. destruct o' as [b|n y ty b|n y ty b|k y|k y|a k]; cbn [step] in S.
      * destruct (getUniqueName t b). discriminate.
      * injection S as _ <- <-. cbn. left. now rewrite (inv_length t d I).
      * pose proof (unique_parts t n) as U. destruct (getUniqueName t n). cbn [defineSymbol] in S. injection S as _ <- <-. cbn. left.
        destruct U as (-> & _). now rewrite (inv_length t d I).
      * inrange S k t. discriminate.
      * inrange S k t. discriminate.
      * inrange S k t. discriminate.
    + right. eapply IH; [|exact R|exact J]. now apply (step_inv t).
Qed.
Lemma unique_found l t T o i u : run empty_table l = Ok (t, T) -> Forall unique_only l -> Independent (map fst (handed T)) ->
  In (o, RSymbol i u) T -> lookupSymbolByName t u = Some i.
Proof.
  intros R U D I. rewrite (names_spec l t T u R). apply first_named_nodup.
  - apply unique_events; [|now apply (unique_nodup l t)]. rewrite <- (run_ops _ _ _ _ R) in U. exact (proj1 (Forall_map fst unique_only T) U).
  - exact (run_events _ _ _ _ _ i u inv_empty R o I).
Qed.

(** * Subqueries *)
Definition attached_to (l : loc) (A : list (nat * loc)) : list nat :=
  map fst (filter (fun e => if loc_eq_dec (snd e) l then true else false) A).
Lemma attached_app l A B : attached_to l (A ++ B) = attached_to l A ++ attached_to l B.
Proof. unfold attached_to. now rewrite filter_app, map_app. Qed.
Lemma attached_one l i l' : attached_to l [(i, l')] = if loc_eq_dec l' l then [i] else [].
Proof. unfold attached_to. cbn. destruct (loc_eq_dec l' l); reflexivity. Qed.
Lemma attached_in l A i : In i (attached_to l A) <-> In (i, l) A.
Proof.
  unfold attached_to. rewrite in_map_iff. split.
  - intros ([j k] & <- & I). apply filter_In in I as [I E]. cbn in *. destruct (loc_eq_dec k l); [now subst|discriminate].
  - intros I. exists (i, l). split; [reflexivity|]. apply filter_In. split; [exact I|]. cbn. destruct (loc_eq_dec l l); [reflexivity|contradiction].
Qed.
(** The state agrees with the attachments [A]. *)
Definition AInv (syms : list symbol) (A : list (nat * loc)) : Prop :=
  (forall l k i, nth_error (attached_to l A) k = Some i -> exists s, nth_error syms i = Some s /\ s_parent s = l /\ s_index s = Z.of_nat k) /\
  (forall i s, nth_error syms i = Some s -> ~ In i (map fst A) -> s_parent s = unknown_loc /\ s_index s = (-1)%Z).
Lemma nth_update i f l : forall j, nth_error (update i f l) j = if i =? j then option_map f (nth_error l j) else nth_error l j.
Proof.
  revert i. induction l as [|s l IH]; intros [|i] [|j]; cbn; try reflexivity.
  - destruct (i =? j); reflexivity.
  - apply IH.
Qed.
Lemma highest_spec l syms : let h := highest l syms in
  (forall s, In s syms -> s_parent s = l -> (s_index s <= h)%Z) /\ (h = -1 \/ exists s, In s syms /\ s_parent s = l /\ s_index s = h)%Z /\ (-1 <= h)%Z.
Proof.
  unfold highest. cbv zeta.
  assert (G : forall h0, let h := fold_left (fun h s => if loc_eqb (s_parent s) l then if (h <? s_index s)%Z then s_index s else h else h) syms h0 in
    (h0 <= h)%Z /\ (forall s, In s syms -> s_parent s = l -> (s_index s <= h)%Z) /\ (h = h0 \/ exists s, In s syms /\ s_parent s = l /\ s_index s = h)%Z).
  { induction syms as [|s syms IH]; intros h0; cbn [fold_left]; [split; [lia|split; [easy|now left]]|].
    set (h1 := if loc_eqb (s_parent s) l then _ else _).
    assert (H1 : (h0 <= h1)%Z /\ (s_parent s = l -> (s_index s <= h1)%Z) /\ (h1 = h0 \/ (s_parent s = l /\ s_index s = h1))).
    { unfold h1. destruct (loc_eqb (s_parent s) l) eqn:E.
      - apply loc_eqb_eq in E. destruct (Z.ltb_spec h0 (s_index s)).
        + split; [lia|]. split; [lia|]. right. auto.
        + split; [lia|]. split; [lia|]. now left.
      - split; [lia|]. split; [|now left]. intros X. apply loc_eqb_eq in X. congruence. }
    clearbody h1. destruct (IH h1) as (L & B & W). split; [lia|]. split.
    - intros s' [->|I] P; [|auto]. destruct H1 as (_ & X & _). specialize (X P). lia.
    - destruct W as [->|(s' & I & P & Q)]; [|right; exists s'; cbn; auto].
      destruct H1 as (_ & _ & [->|[P Q]]); [now left|]. right. exists s. cbn. auto. }
  destruct (G (-1)%Z) as (L & B & W). auto.
Qed.
Lemma ainv_parent syms A i l : AInv syms A -> i < length syms -> ~ In i (map fst A) -> l <> unknown_loc ->
  let syms1 := update i (set_parent l) syms in
  AInv (update i (set_index (highest l syms1 + 1)) syms1) (A ++ [(i, l)]).
Proof.
  intros [I1 I2] Li NI NU. cbv zeta.
  destruct (nth_error syms i) as [s|] eqn:E; [|apply nth_error_None in E; lia].
  destruct (I2 i s E NI) as [Ps Is].
  assert (N1 : forall j, nth_error (update i (set_parent l) syms) j = if i =? j then Some (set_parent l s) else nth_error syms j).
  { intros j. rewrite nth_update. destruct (Nat.eqb_spec i j) as [<-|]; [now rewrite E|reflexivity]. }
  assert (H : highest l (update i (set_parent l) syms) = (Z.of_nat (length (attached_to l A)) - 1)%Z).
  { destruct (highest_spec l (update i (set_parent l) syms)) as (B & W & L).
    set (h := highest _ _) in *. clearbody h.
    assert (LE : (h <= Z.of_nat (length (attached_to l A)) - 1)%Z).
    { destruct W as [->|(s' & I & P & <-)]; [lia|]. apply In_nth_error in I as [j J]. rewrite N1 in J.
      destruct (Nat.eqb_spec i j) as [Eij|Nij].
      - injection J as <-. cbn. lia.
      - destruct (in_dec Nat.eq_dec j (map fst A)) as [IA|NA].
        + apply in_map_iff in IA as ([j' l'] & Ej & IA). cbn in Ej. subst j'.
          destruct (In_nth_error _ _ (proj2 (attached_in l' A j) IA)) as [k K]. destruct (I1 l' k j K) as (s2 & S2 & P2 & X2).
          rewrite J in S2. injection S2 as <-. rewrite X2. rewrite P in P2. subst l'.
          assert (k < length (attached_to l A)) by (apply nth_error_Some; congruence). lia.
        + destruct (I2 j s' J NA) as [P' _]. congruence. }
    destruct (attached_to l A) as [|a0 r] eqn:EA; [cbn in *; lia|].
    set (n := length (a0 :: r)) in *. assert (Hn : n - 1 < length (attached_to l A)) by (rewrite EA; unfold n; cbn; lia).
    destruct (nth_error (attached_to l A) (n - 1)) as [j|] eqn:K; [|apply nth_error_None in K; lia].
    destruct (I1 l _ j K) as (s2 & S2 & P2 & X2).
    assert (IJ : i <> j). { intros <-. apply NI. apply nth_error_In in K. apply attached_in in K. now apply (in_map fst) in K. }
    assert (In s2 (update i (set_parent l) syms)).
    { apply (nth_error_In _ j). rewrite N1. destruct (Nat.eqb_spec i j); [contradiction|exact S2]. }
    specialize (B s2 H P2). unfold n in *. cbn [length] in *. lia. }
  rewrite H. replace (Z.of_nat (length (attached_to l A)) - 1 + 1)%Z with (Z.of_nat (length (attached_to l A))) by lia. clear H.
  assert (N2 : forall j, nth_error (update i (set_index (Z.of_nat (length (attached_to l A)))) (update i (set_parent l) syms)) j =
     if i =? j then Some (set_index (Z.of_nat (length (attached_to l A))) (set_parent l s)) else nth_error syms j).
  { intros j. rewrite nth_update, N1. destruct (i =? j); reflexivity. }
  split.
  - intros l' k j K. rewrite attached_app, attached_one in K. destruct (loc_eq_dec l l') as [<-|Nl].
    + destruct (Nat.lt_ge_cases k (length (attached_to l A))) as [Lk|Gk].
      * rewrite nth_error_app1 in K by exact Lk. destruct (I1 l k j K) as (s2 & S2 & P2 & X2). exists s2. rewrite N2.
        destruct (Nat.eqb_spec i j) as [<-|]; [|auto]. exfalso. apply NI. apply nth_error_In in K. apply attached_in in K. now apply (in_map fst) in K.
      * rewrite nth_error_app2 in K by exact Gk. destruct (k - length (attached_to l A)) as [|q] eqn:Q; [|destruct q; discriminate].
        cbn in K. injection K as <-. exists (set_index (Z.of_nat (length (attached_to l A))) (set_parent l s)). rewrite N2, Nat.eqb_refl.
        split; [reflexivity|]. split; [reflexivity|]. cbn. lia.
    + rewrite app_nil_r in K. destruct (I1 l' k j K) as (s2 & S2 & P2 & X2). exists s2. rewrite N2.
      destruct (Nat.eqb_spec i j) as [<-|]; [|auto]. exfalso. apply NI. apply nth_error_In in K. apply attached_in in K. now apply (in_map fst) in K.
  - intros j s2 S2 NA. rewrite map_app in NA. rewrite N2 in S2. destruct (Nat.eqb_spec i j) as [<-|Nij].
    + exfalso. apply NA. apply in_or_app. right. now left.
    + apply (I2 j s2 S2). intros X. apply NA. apply in_or_app. now left.
Qed.
Lemma ainv_update syms A f i : (forall s, s_parent (f s) = s_parent s) -> (forall s, s_index (f s) = s_index s) ->
  AInv syms A -> AInv (update i f syms) A.
Proof.
  intros F1 F2 [I1 I2]. split.
  - intros l k j K. destruct (I1 l k j K) as (s & S & P & X). rewrite nth_update, S. destruct (i =? j); [|eauto].
    exists (f s). rewrite F1, F2. auto.
  - intros j s S NA. rewrite nth_update in S. destruct (i =? j); [|eauto]. destruct (nth_error syms j) as [s0|] eqn:E; [|discriminate].
    injection S as <-. rewrite F1, F2. eauto.
Qed.
Lemma ainv_define syms A n l ty b : Forall (fun e => fst e < length syms) A -> AInv syms A -> AInv (syms ++ [new_symbol n l ty b]) A.
Proof.
  intros V [I1 I2]. split.
  - intros l' k j K. destruct (I1 l' k j K) as (s & S & P & X). exists s. split; [|auto].
    rewrite nth_error_app1; [exact S|]. apply nth_error_Some. congruence.
  - intros j s S NA. destruct (Nat.lt_ge_cases j (length syms)) as [L|G].
    + rewrite nth_error_app1 in S by exact L. eauto.
    + rewrite nth_error_app2 in S by exact G. destruct (j - length syms) as [|q]; [|destruct q; discriminate]. injection S as <-. auto.
Qed.
Lemma attachments_cons d e T : attachments d (e :: T) = attachments d [e] ++ attachments (d ++ defined_by e) T.
Proof. cbn [attachments]. rewrite app_nil_r. reflexivity. Qed.
Lemma NoDup_app_l {A} (l l' : list A) : NoDup (l ++ l') -> NoDup l.
Proof. induction l as [|x l IH]; cbn; intros H; [constructor|]. inversion H; subst. constructor; [|auto]. intros I. apply H2. apply in_or_app. now left. Qed.
Lemma NoDup_app_disj {A} (l l' : list A) x : NoDup (l ++ l') -> In x l' -> ~ In x l.
Proof.
  induction l as [|y l IH]; cbn; intros H I; [easy|]. inversion H; subst. intros [->|X]; [|now apply (IH H3 I)].
  apply H2. apply in_or_app. now right.
Qed.
Lemma run_attached l : forall t d A t' T, Inv t d -> AInv (t_symbols t) A -> Forall (fun e => fst e < length (t_symbols t)) A ->
  run t l = Ok (t', T) -> NoDup (map fst (A ++ attachments d T)) -> Forall (fun e => snd e <> unknown_loc) (attachments d T) ->
  AInv (t_symbols t') (A ++ attachments d T).
Proof.
  induction l as [|o l IH]; intros t d A t' T I AI V R ND NU.
  - injection R as <- <-. cbn. now rewrite app_nil_r.
  - apply run_cons in R as (t1 & r & T' & S & R & ->). rewrite attachments_cons in *. rewrite app_assoc in *.
    apply Forall_app in NU as [NU1 NU2].
    assert (ND1 : NoDup (map fst (A ++ attachments d [(o, r)]))) by (rewrite map_app in ND; now apply NoDup_app_l in ND).
    pose proof (step_inv _ _ _ _ _ I S) as I'.
    assert (LE : length (t_symbols t) <= length (t_symbols t1)) by (rewrite (inv_length _ _ I), (inv_length _ _ I'), app_length; lia).
    assert (V' : Forall (fun e => fst e < length (t_symbols t1)) A) by (eapply Forall_impl; [|exact V]; cbn; intros; lia).
    apply (IH t1 (d ++ defined_by (o, r)) (A ++ attachments d [(o, r)]) t' T' I'); auto.
    + revert S. destruct o as [b|n y ty b|n y ty b|k y|k y|a k]; cbn [step]; intros S.
      * pose proof (unique_parts t b) as U. destruct (getUniqueName t b) as [t2 n]. injection S as <- <-. destruct U as (-> & _).
        cbn. now rewrite app_nil_r.
      * injection S as <- <-. cbn [attachments app]. rewrite app_nil_r. now apply ainv_define.
      * pose proof (unique_parts t n) as U. destruct (getUniqueName t n) as [t2 u]. cbn [defineSymbol] in S. injection S as <- <-. destruct U as (U & _).
        cbn [attachments app t_symbols]. rewrite app_nil_r, U. now apply ainv_define.
      * inrange S k t. injection S as <- <-. cbn [attachments app t_symbols]. rewrite app_nil_r. now apply ainv_update.
      * inrange S k t. injection S as <- <-. cbn [attachments app t_symbols]. rewrite <- (inv_index t d k I).
        cbn [attachments app] in NU1, ND1. inversion NU1; subst. apply ainv_parent; auto; [lia|].
        rewrite map_app in ND1. cbn [map fst] in ND1. rewrite (inv_index t d k I). eapply NoDup_app_disj; [exact ND1|now left].
      * inrange S k t. injection S as <- <-. cbn [attachments app t_symbols]. rewrite app_nil_r. now apply ainv_update.
    + apply Forall_app. split; [exact V'|]. destruct o as [b|n y ty b|n y ty b|k y|k y|a k]; try constructor; try constructor.
      cbn [step] in S. inrange S k t. cbn [fst]. rewrite <- (inv_index t d k I). lia.
Qed.
Lemma attach_spec l t T : run empty_table l = Ok (t, T) -> NoDup (map fst (attachments [] T)) ->
  Forall (fun e => snd e <> unknown_loc) (attachments [] T) -> AInv (t_symbols t) (attachments [] T).
Proof.
  intros R. apply (run_attached l empty_table [] [] t T); auto; [exact inv_empty|].
  split; [intros l' [|k] i; discriminate|intros [|i] s; discriminate].
Qed.
Lemma find_parent_spec l n ty syms : forall i0, match find_parent i0 l n ty syms with
  | Some j => exists k s, j = i0 + k /\ nth_error syms k = Some s /\ s_parent s = l /\ s_index s = n /\ s_type s = ty
  | None => forall k s, nth_error syms k = Some s -> s_parent s = l -> s_index s = n -> s_type s = ty -> False
  end.
Proof.
  induction syms as [|s syms IH]; intros i0; cbn [find_parent]; [intros [|k] s; discriminate|].
  destruct (_ && _) eqn:B.
  - apply andb_true_iff in B as [B B3]. apply andb_true_iff in B as [B1 B2]. apply loc_eqb_eq in B1. apply Z.eqb_eq in B2. apply stype_eqb_eq in B3.
    exists 0, s. rewrite Nat.add_0_r. auto.
  - specialize (IH (S i0)). destruct (find_parent (S i0) l n ty syms) as [j|].
    + destruct IH as (k & s' & -> & X). exists (S k), s'. split; [lia|exact X].
    + intros [|k] s' E P X Y; [|exact (IH k s' E P X Y)]. injection E as <-. subst.
      rewrite loc_eqb_refl, Z.eqb_refl in B. rewrite (proj2 (stype_eqb_eq _ _) eq_refl) in B. discriminate.
Qed.
(** Found again by parent, number and kind; nothing else is found. *)
Lemma attach_lookup l t T q n ty : run empty_table l = Ok (t, T) -> NoDup (map fst (attachments [] T)) ->
  Forall (fun e => snd e <> unknown_loc) (attachments [] T) -> q <> unknown_loc ->
  lookupSymbolByParentQueryAndType t q n ty =
  match nth_error (attached_to q (attachments [] T)) (Z.to_nat n) with
  | Some i => if (0 <=? n)%Z && match type_at (definitions T) i with Some ty' => stype_eqb ty' ty | None => false end then Some i else None
  | None => None
  end.
Proof.
  intros R ND NU NQ. destruct (attach_spec l t T R ND NU) as [A1 A2].
  destruct (run_inv _ _ _ _ _ inv_empty R) as [E _]. cbn [app] in E.
  assert (U : forall k s, nth_error (t_symbols t) k = Some s -> s_parent s = q -> exists m, nth_error (attached_to q (attachments [] T)) m = Some k /\ s_index s = Z.of_nat m).
  { intros k s S P. destruct (in_dec Nat.eq_dec k (map fst (attachments [] T))) as [IA|NA].
    - apply in_map_iff in IA as ([j l'] & Ej & IA). cbn in Ej. subst j.
      destruct (In_nth_error _ _ (proj2 (attached_in l' _ k) IA)) as [m M]. destruct (A1 l' m k M) as (s2 & S2 & P2 & X2).
      rewrite S in S2. injection S2 as <-. rewrite P in P2. subst l'. eauto.
    - destruct (A2 k s S NA). congruence. }
  unfold lookupSymbolByParentQueryAndType. pose proof (find_parent_spec q n ty (t_symbols t) 0) as F.
  destruct (find_parent 0 q n ty (t_symbols t)) as [j|].
  - destruct F as (k & s & -> & S & P & X & Y). cbn [plus]. destruct (U k s S P) as (m & M & Xm). subst n. rewrite Xm, Nat2Z.id, M.
    replace (0 <=? Z.of_nat m)%Z with true by (symmetry; apply Z.leb_le; lia). unfold type_at. rewrite <- E, nth_error_map, S. cbn. rewrite Y, (proj2 (stype_eqb_eq _ _) eq_refl). reflexivity.
  - destruct (nth_error (attached_to q _) (Z.to_nat n)) as [i|] eqn:M; [|reflexivity].
    destruct (0 <=? n)%Z eqn:Z0; [|reflexivity]. destruct (A1 q _ i M) as (s & S & P & X).
    unfold type_at. rewrite <- E, nth_error_map, S. cbn. destruct (stype_eqb (s_type s) ty) eqn:Y; [|reflexivity].
    exfalso. apply (F i s S P); [lia|now apply stype_eqb_eq].
Qed.

(** * Errors *)
Definition recorded (o : error_op) : list error :=
  match o with
  | EAdd l c m => [{| e_line := l; e_column := c; e_message := m |}]
  | EAddBare m => [{| e_line := no_coordinate; e_column := no_coordinate; e_message := m |}]
  | EAddAll l => l
  end.
Lemma listener_spec l : listener l = flat_map recorded l.
Proof.
  unfold listener. assert (G : forall acc, fold_left error_step l acc = acc ++ flat_map recorded l).
  { induction l as [|o l IH]; intros acc; cbn [fold_left flat_map]; [now rewrite app_nil_r|]. rewrite IH, app_assoc.
    destruct o; reflexivity. }
  apply (G []).
Qed.

(** * Which operations are defined *)
Definition designated (o : op) : option key := match o with OPermanent k _ | OParent k _ | OAlias _ k => Some k | _ => None end.
Lemma step_defined l t T o : run empty_table l = Ok (t, T) ->
  match designated o with
  | Some k => (exists b, In (k, b) (definitions T)) <-> step t o <> UB
  | None => step t o <> UB
  end /\ forall e, step t o <> Throw e.
Proof.
  intros R. pose proof (run_inv _ _ _ _ _ inv_empty R) as I. cbn [app] in I.
  assert (X : forall k, (exists b, In (k, b) (definitions T)) <-> (findSymbolIndex t k <? length (t_symbols t)) = true).
  { intros k. rewrite (inv_index _ _ k I), (inv_length _ _ I), Nat.ltb_lt. apply index_lt. }
  destruct o as [b|n y ty b|n y ty b|k y|k y|a k]; cbn [step designated].
  - destruct (getUniqueName t b). split; discriminate.
  - split; discriminate.
  - destruct (getUniqueName t n). split; discriminate.
  - rewrite X. unfold addPermanentLocation. cbv zeta. destruct (_ <? _); cbn [obind]; (split; [split; congruence|discriminate]).
  - rewrite X. unfold setParentQueryLocation. cbv zeta. destruct (_ <? _); cbn [obind]; (split; [split; congruence|discriminate]).
  - rewrite X. unfold addAlias. cbv zeta. destruct (_ <? _); cbn [obind]; (split; [split; congruence|discriminate]).
Qed.
Lemma stype_name_defined t : t <> KRoot -> t <> KTable -> t <> KMeasure -> exists s, symbolTypeName t = Ok s.
Proof. destruct t; try contradiction; eexists; reflexivity. Qed.
Lemma stype_name_inj a b s : symbolTypeName a = Ok s -> symbolTypeName b = Ok s -> a = b.
Proof. destruct a, b; intros A B; try reflexivity; vm_compute in A, B; congruence. Qed.
Lemma successful_spec r : successful r = true <-> getAllErrors r = [].
Proof. unfold successful, getAllErrors. destruct (r_syntax r), (r_semantic r); cbn; split; auto; discriminate. Qed.
Lemma success_iff r : successful r = true <-> r_syntax r = [] /\ r_semantic r = [].
Proof. unfold successful. destruct (r_syntax r), (r_semantic r); split; try tauto; try discriminate; intros []; discriminate. Qed.
Lemma messages_spec ops : Forall2 (fun e m =>
  (e_line e <> no_coordinate /\ e_column e <> no_coordinate /\ m = print_N (e_line e) ++ $":" ++ print_N (e_column e) ++ arrow ++ e_message e) \/
  ((e_line e = no_coordinate \/ e_column e = no_coordinate) /\ m = e_message e)) (flat_map recorded ops) (getErrorMessages (listener ops)).
Proof.
  rewrite listener_spec. unfold getErrorMessages. induction (flat_map recorded ops) as [|e l IH]; cbn [map]; constructor; [|exact IH].
  unfold message_of. destruct (N.eqb_spec (e_line e) no_coordinate) as [E|E]; cbn [orb]; [right; auto|].
  destruct (N.eqb_spec (e_column e) no_coordinate) as [E'|E']; [right; auto|left; auto].
Qed.
Lemma has_errors_spec ops : hasErrors (listener ops) = true <-> flat_map recorded ops <> [].
Proof. rewrite listener_spec. destruct (flat_map recorded ops); cbn; split; try easy; congruence. Qed.
