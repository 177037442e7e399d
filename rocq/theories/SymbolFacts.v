From Verif Require Import Base BaseFacts SymbolModel.
From Coq Require Import Lia ZifyBool ZifyNat ZifyN.

(** * Specifications: what a history (operations with their results) says *)

(** The keys of the symbols defined by one step. *)
Definition defined_by (e : op * out) : list (key * N) :=
  match e with
  | (ODefine n l t b, _) => [({| k_name := n; k_loc := l; k_type := t |}, b)]
  | (ODefineUnique _ l t b, RSymbol _ u) => [({| k_name := u; k_loc := l; k_type := t |}, b)]
  | _ => []
  end.
Definition definitions (T : list (op * out)) : list (key * N) := flat_map defined_by T.
Lemma loc_eq_dec (a b : loc) : {a = b} + {a <> b}.
Proof. decide equality; apply N.eq_dec. Defined.
Lemma key_eq_dec (a b : key) : {a = b} + {a <> b}.
Proof. decide equality; [decide equality|apply loc_eq_dec|apply str_eq_dec]. Defined.
(** The position of the first symbol with a key. *)
Fixpoint index_of (k : key) (d : list (key * N)) : nat :=
  match d with [] => 0 | (k', _) :: r => if key_eq_dec k' k then 0 else S (index_of k r) end.
(** Which names a history binds to which symbols, in order; [d] are the definitions so far. *)
Fixpoint name_events (d : list (key * N)) (T : list (op * out)) : list (str * nat) :=
  match T with
  | [] => []
  | e :: T' =>
      match e with
      | (ODefine n _ _ _, _) => [(n, length d)]
      | (ODefineUnique _ _ _ _, RSymbol _ u) => [(u, length d)]
      | (OAlias a k, _) => [(a, index_of k d)]
      | _ => []
      end ++ name_events (d ++ defined_by e) T'
  end.
(** Which locations it records for which symbols. *)
Fixpoint loc_events (d : list (key * N)) (T : list (op * out)) : list (loc * nat) :=
  match T with
  | [] => []
  | e :: T' =>
      match e with
      | (ODefine _ l _ _, _) | (ODefineUnique _ l _ _, _) => [(l, length d)]
      | (OPermanent k l, _) => [(l, index_of k d)]
      | _ => []
      end ++ loc_events (d ++ defined_by e) T'
  end.
(** Which symbols it attaches to which parent queries. *)
Fixpoint attachments (d : list (key * N)) (T : list (op * out)) : list (nat * loc) :=
  match T with
  | [] => []
  | e :: T' => match e with (OParent k l, _) => [(index_of k d, l)] | _ => [] end ++ attachments (d ++ defined_by e) T'
  end.
(** Which unique names it hands out, with the requested name. *)
Definition handed_by (e : op * out) : list (str * str) :=
  match e with
  | (OUnique b, RName n) => [(b, n)]
  | (ODefineUnique b _ _ _, RSymbol _ n) => [(b, n)]
  | _ => []
  end.
Definition handed (T : list (op * out)) : list (str * str) := flat_map handed_by T.
Definition here {A} (l : loc) (m : list (loc * A)) : list A := map snd (filter (fun e => if loc_eq_dec (fst e) l then true else false) m).
Definition first_named (n : str) (m : list (str * nat)) : option nat := option_map snd (find (fun e => fst e =s n) m).
Definition count_of {A B} (dec : forall x y : B, {x = y} + {x <> y}) (f : A -> B) (b : B) (l : list A) : nat := count_occ dec (map f l) b.

(** * Locations *)
Lemma loc_eqb_eq a b : loc_eqb a b = true <-> a = b.
Proof.
  destruct a as [p|p], b as [q|q]; cbn; split; intros H; try discriminate; try (apply N.eqb_eq in H; congruence);
  injection H as ->; apply N.eqb_refl.
Qed.
Lemma loc_eqb_refl a : loc_eqb a a = true.
Proof. now apply loc_eqb_eq. Qed.
Lemma less_irrefl a : loc_less a a = false.
Proof. destruct a; cbn; apply N.ltb_irrefl. Qed.
Lemma less_trans a b c : loc_less a b = true -> loc_less b c = true -> loc_less a c = true.
Proof. destruct a, b, c; cbn; try discriminate; auto; rewrite !N.ltb_lt; lia. Qed.
Lemma less_total a b : loc_less a b = false -> loc_less b a = false -> a = b.
Proof. destruct a, b; cbn; try discriminate; rewrite !N.ltb_ge; intros; f_equal; lia. Qed.
Lemma less_eq a b : (loc_less a b = false /\ loc_less b a = false) <-> loc_eqb a b = true.
Proof.
  rewrite loc_eqb_eq. split; [intros []; now apply less_total|]. intros ->. split; apply less_irrefl.
Qed.
Lemma stype_eqb_eq a b : stype_eqb a b = true <-> a = b.
Proof. unfold stype_eqb. split; [|intros ->; apply Z.eqb_refl]. destruct a, b; intros H; try reflexivity; discriminate H. Qed.
Lemma key_eqb_eq a b : key_eqb a b = true <-> a = b.
Proof.
  unfold key_eqb. rewrite !andb_true_iff, seq_eqb_eq, loc_eqb_eq, stype_eqb_eq. destruct a, b; cbn. split.
  - intros [[-> ->] ->]. reflexivity.
  - intros [= -> -> ->]. auto.
Qed.

(** * The multimap *)
Inductive Sorted' : list (loc * nat) -> Prop :=
| So_nil : Sorted' []
| So_cons k v m : Forall (fun e => loc_less (fst e) k = false) m -> Sorted' m -> Sorted' ((k, v) :: m).
Lemma minsert_in k v m e : In e (minsert k v m) <-> e = (k, v) \/ In e m.
Proof.
  induction m as [|[k' w] m IH]; cbn [minsert]; [cbn; intuition|].
  destruct (loc_less k k'); cbn [In]; [intuition|]. rewrite IH. intuition.
Qed.
Lemma minsert_sorted k v m : Sorted' m -> Sorted' (minsert k v m).
Proof.
  induction 1 as [|k' w m F S IH]; cbn [minsert]; [repeat constructor|].
  destruct (loc_less k k') eqn:L.
  - constructor; [|now constructor]. constructor.
    + cbn. destruct (loc_less k' k) eqn:L'; [|reflexivity]. pose proof (less_trans _ _ _ L L') as X. rewrite less_irrefl in X. discriminate.
    + eapply Forall_impl; [|exact F]. cbn. intros e H. destruct (loc_less (fst e) k) eqn:L'; [|reflexivity].
      rewrite (less_trans _ _ _ L' L) in H. discriminate.
  - constructor; [|exact IH]. apply Forall_forall. intros e I. apply minsert_in in I as [->|I]; [exact L|].
    rewrite Forall_forall in F. auto.
Qed.
Lemma here_cons {A} k l (v : A) m : here k ((l, v) :: m) = if loc_eq_dec l k then v :: here k m else here k m.
Proof. unfold here. cbn. destruct (loc_eq_dec l k); reflexivity. Qed.
Lemma here_app {A} k (m m' : list (loc * A)) : here k (m ++ m') = here k m ++ here k m'.
Proof. induction m as [|[l v] m IH]; [reflexivity|]. cbn [app]. rewrite !here_cons, IH. destruct (loc_eq_dec l k); reflexivity. Qed.
Lemma here_none {A} k (m : list (loc * A)) : Forall (fun e => fst e <> k) m -> here k m = [].
Proof. induction 1 as [|[l v] m H F IH]; [reflexivity|]. rewrite here_cons. destruct (loc_eq_dec l k); [contradiction|exact IH]. Qed.
Lemma here_insert k k' v m : Sorted' m -> here k (minsert k' v m) = here k m ++ here k [(k', v)].
Proof.
  induction 1 as [|l w m F S IH]; cbn [minsert]; [reflexivity|].
  destruct (loc_less k' l) eqn:L.
  - rewrite (here_cons k k' v). destruct (loc_eq_dec k' k) as [->|N].
    + assert (X : here k ((l, w) :: m) = []).
      { apply here_none. constructor; cbn.
        - intros ->. rewrite less_irrefl in L. discriminate.
        - eapply Forall_impl; [|exact F]. cbn. intros e H E. rewrite E, L in H. discriminate. }
      rewrite X. rewrite here_cons. destruct (loc_eq_dec k k); [reflexivity|contradiction].
    + rewrite (here_cons k k' v []). destruct (loc_eq_dec k' k); [contradiction|]. cbn. now rewrite app_nil_r.
  - rewrite !(here_cons k l w), IH. destruct (loc_eq_dec l k); reflexivity.
Qed.
Lemma upto_here k m : Sorted' m -> Forall (fun e => loc_less (fst e) k = false) m -> upto k m = here k m.
Proof.
  induction 1 as [|l w m F S IH]; intros G; [reflexivity|]. inversion G as [|? ? G1 G2]; subst. cbn [fst] in G1.
  cbn [upto]. rewrite here_cons. destruct (loc_less k l) eqn:L.
  - destruct (loc_eq_dec l k) as [->|N]; [rewrite less_irrefl in L; discriminate|]. symmetry. apply here_none.
    eapply Forall_impl; [|exact F]. cbn. intros e H E. rewrite E, L in H. discriminate.
  - rewrite (less_total l k G1 L). destruct (loc_eq_dec k k); [|contradiction]. f_equal. auto.
Qed.
Lemma equal_range_here k m : Sorted' m -> equal_range k m = here k m.
Proof.
  induction 1 as [|l w m F S IH]; [reflexivity|]. cbn [equal_range]. destruct (loc_less l k) eqn:L.
  - rewrite here_cons. destruct (loc_eq_dec l k) as [->|N]; [rewrite less_irrefl in L; discriminate|exact IH].
  - apply upto_here; [now constructor|]. constructor; [exact L|]. eapply Forall_impl; [|exact F]. cbn. intros e H.
    destruct (loc_less (fst e) k) eqn:L'; [|reflexivity].
    assert (N : l <> k) by (intros ->; congruence).
    destruct (loc_less k l) eqn:L2; [rewrite (less_trans _ _ _ L' L2) in H; discriminate|].
    destruct N. now apply less_total.
Qed.

(** * Maps by name *)
Lemma lookup_app {A} k (m m' : list (str * A)) : lookup k (m ++ m') = match lookup k m with Some v => Some v | None => lookup k m' end.
Proof. induction m as [|[k' v] m IH]; cbn; [reflexivity|]. destruct (k' =s k); auto. Qed.
Lemma lookup_insert {A} k k' (v : A) m : lookup k (insert k' v m) =
  match lookup k m with Some w => Some w | None => if k' =s k then Some v else None end.
Proof.
  unfold insert. destruct (lookup k' m) eqn:E.
  - destruct (lookup k m) eqn:E'; [reflexivity|]. destruct (seq_eqb_spec k' k); [congruence|reflexivity].
  - rewrite lookup_app. reflexivity.
Qed.
Lemma lookup_assign {A} k k' (v : A) m : lookup k (assign k' v m) = if k' =s k then option_map (fun _ => v) (lookup k m) else lookup k m.
Proof.
  induction m as [|[l w] m IH]; cbn [assign lookup]; [now destruct (k' =s k)|].
  destruct (seq_eqb_spec l k') as [->|N]; cbn [lookup].
  - destruct (k' =s k); reflexivity.
  - destruct (seq_eqb_spec l k) as [->|N']; [|exact IH].
    destruct (seq_eqb_spec k' k); [congruence|reflexivity].
Qed.

(** * The invariant of a run *)
Definition sym_def (s : symbol) : key * N := (key_of s, s_blob s).
Definition Inv (t : table) (d : list (key * N)) : Prop := map sym_def (t_symbols t) = d /\ Sorted' (t_byloc t).
Lemma inv_empty : Inv empty_table [].
Proof. split; [reflexivity|constructor]. Qed.
Lemma find_key_index k l : find_key k l = index_of k (map sym_def l).
Proof.
  induction l as [|s l IH]; cbn [find_key map index_of sym_def]; [reflexivity|].
  destruct (key_eq_dec (key_of s) k) as [E|E].
  - apply key_eqb_eq in E. rewrite E. reflexivity.
  - destruct (key_eqb (key_of s) k) eqn:Q; [apply key_eqb_eq in Q; contradiction|]. now rewrite IH.
Qed.
Lemma update_map {B} (g : symbol -> B) f l : (forall s, g (f s) = g s) -> forall i, map g (update i f l) = map g l.
Proof. intros H. induction l as [|s l IH]; intros [|i]; cbn; auto; [now rewrite H|now rewrite IH]. Qed.
Lemma update_length f l : forall i, length (update i f l) = length l.
Proof. induction l as [|s l IH]; intros [|i]; cbn; auto. Qed.
Lemma inv_index t d k : Inv t d -> findSymbolIndex t k = index_of k d.
Proof. intros [E _]. unfold findSymbolIndex. rewrite find_key_index, E. reflexivity. Qed.
Lemma inv_length t d : Inv t d -> length (t_symbols t) = length d.
Proof. intros [<- _]. now rewrite map_length. Qed.
Ltac inrange H k t := unfold addPermanentLocation, setParentQueryLocation, addAlias in H; cbv zeta in H;
  destruct (findSymbolIndex t k <? length (t_symbols t)) eqn:?G; cbn [obind] in H; [|discriminate H].
Lemma unique_parts t b : let '(t', n) := getUniqueName t b in
  t_symbols t' = t_symbols t /\ t_byname t' = t_byname t /\ t_byloc t' = t_byloc t.
Proof. unfold getUniqueName. destruct (lookup b (t_names t)); cbn; auto. Qed.
Lemma step_inv t d o t' r : Inv t d -> step t o = Ok (t', r) -> Inv t' (d ++ defined_by (o, r)).
Proof.
  intros I. destruct o as [b|n l ty b|n l ty b|k l|k l|a k]; cbn [step defined_by]; intros H.
  - pose proof (unique_parts t b) as U. destruct (getUniqueName t b) as [t1 n]. injection H as <- <-.
    destruct U as (U1 & _ & U3). rewrite app_nil_r. unfold Inv. rewrite U1, U3. exact I.
  - injection H as <- <-. destruct I as [E S]. split; cbn [t_symbols t_byloc].
    + rewrite map_app, E. reflexivity.
    + now apply minsert_sorted.
  - pose proof (unique_parts t n) as U. destruct (getUniqueName t n) as [t1 u]. cbn [defineSymbol] in H. injection H as <- <-.
    destruct U as (U1 & _ & U3). destruct I as [E S]. split; cbn [t_symbols t_byloc].
    + rewrite U1, map_app, E. reflexivity.
    + rewrite U3. now apply minsert_sorted.
  - inrange H k t. injection H as <- <-. rewrite app_nil_r. destruct I as [E S]. split; cbn [t_symbols t_byloc].
    + rewrite update_map; auto.
    + now apply minsert_sorted.
  - inrange H k t. injection H as <- <-. rewrite app_nil_r. destruct I as [E S]. split; cbn [t_symbols t_byloc]; [|exact S].
    rewrite !update_map; auto.
  - inrange H k t. injection H as <- <-. rewrite app_nil_r. destruct I as [E S]. split; cbn [t_symbols t_byloc]; [|exact S].
    rewrite update_map; auto.
Qed.
Lemma run_cons t o l t' T : run t (o :: l) = Ok (t', T) -> exists t1 r T', step t o = Ok (t1, r) /\ run t1 l = Ok (t', T') /\ T = (o, r) :: T'.
Proof.
  cbn [run]. destruct (step t o) as [[t1 r]| |] eqn:E; try discriminate. cbn [obind fst snd].
  destruct (run t1 l) as [[t2 T']| |] eqn:R; try discriminate. cbn [obind fst snd]. intros [= <- <-]. eauto 8.
Qed.
Lemma run_inv l : forall t d t' T, Inv t d -> run t l = Ok (t', T) -> Inv t' (d ++ definitions T).
Proof.
  induction l as [|o l IH]; intros t d t' T I H.
  - injection H as <- <-. cbn. now rewrite app_nil_r.
  - apply run_cons in H as (t1 & r & T' & S & R & ->). cbn [definitions flat_map]. rewrite app_assoc.
    apply (IH t1); [|exact R]. now apply (step_inv t).
Qed.
Lemma run_app l : forall t l' t' T', run t (l ++ l') = Ok (t', T') ->
  exists t1 T1 T2, run t l = Ok (t1, T1) /\ run t1 l' = Ok (t', T2) /\ T' = T1 ++ T2.
Proof.
  induction l as [|o l IH]; intros t l' t' T' H.
  - exists t, [], T'. auto.
  - apply run_cons in H as (t1 & r & T1 & S & R & ->). destruct (IH _ _ _ _ R) as (t2 & T2 & T3 & R1 & R2 & ->).
    exists t2, ((o, r) :: T2), T3. split; [|auto]. cbn [run]. rewrite S. cbn [obind fst snd]. rewrite R1. reflexivity.
Qed.
Lemma run_ops l : forall t t' T, run t l = Ok (t', T) -> map fst T = l.
Proof.
  induction l as [|o l IH]; intros t t' T H; [injection H as <- <-; reflexivity|].
  apply run_cons in H as (t1 & r & T1 & S & R & ->). cbn. f_equal. eauto.
Qed.

(** * Names *)
Lemma step_names t d o t' r n : Inv t d -> step t o = Ok (t', r) ->
  lookupSymbolByName t' n = match lookupSymbolByName t n with Some i => Some i | None => first_named n (name_events d [(o, r)]) end.
Proof.
  unfold lookupSymbolByName, first_named. intros I. destruct o as [b|m l ty b|m l ty b|k l|k l|a k]; cbn [step]; intros H.
  - pose proof (unique_parts t b) as U. destruct (getUniqueName t b) as [t1 u]. injection H as <- <-. destruct U as (_ & -> & _).
    cbn. destruct (lookup n (t_byname t)); reflexivity.
  - injection H as <- <-. cbn [t_byname name_events app find fst]. rewrite lookup_insert, (inv_length t d I).
    destruct (lookup n (t_byname t)); [reflexivity|]. destruct (m =s n); reflexivity.
  - pose proof (unique_parts t m) as U. destruct (getUniqueName t m) as [t1 u]. cbn [defineSymbol] in H. injection H as <- <-.
    destruct U as (U1 & U2 & _). cbn [t_byname name_events app find fst]. rewrite U1, U2, lookup_insert, (inv_length t d I).
    destruct (lookup n (t_byname t)); [reflexivity|]. destruct (u =s n); reflexivity.
  - inrange H k t. injection H as <- <-. cbn. destruct (lookup n (t_byname t)); reflexivity.
  - inrange H k t. injection H as <- <-. cbn. destruct (lookup n (t_byname t)); reflexivity.
  - inrange H k t. injection H as <- <-. cbn [t_byname name_events app find fst]. rewrite lookup_insert, (inv_index t d k I).
    destruct (lookup n (t_byname t)); [reflexivity|]. destruct (a =s n); reflexivity.
Qed.
Lemma first_named_app n a b : first_named n (a ++ b) = match first_named n a with Some i => Some i | None => first_named n b end.
Proof. unfold first_named. induction a as [|[m i] a IH]; cbn; [reflexivity|]. destruct (m =s n); auto. Qed.
Lemma name_events_cons d e T : name_events d (e :: T) = name_events d [e] ++ name_events (d ++ defined_by e) T.
Proof. cbn [name_events]. rewrite app_nil_r. reflexivity. Qed.
Lemma run_names l : forall t d t' T n, Inv t d -> run t l = Ok (t', T) ->
  lookupSymbolByName t' n = match lookupSymbolByName t n with Some i => Some i | None => first_named n (name_events d T) end.
Proof.
  induction l as [|o l IH]; intros t d t' T n I H.
  - injection H as <- <-. cbn. destruct (lookupSymbolByName t n); reflexivity.
  - apply run_cons in H as (t1 & r & T' & S & R & ->). rewrite name_events_cons, first_named_app.
    rewrite (IH _ _ _ _ n (step_inv _ _ _ _ _ I S) R), (step_names _ _ _ _ _ n I S).
    destruct (lookupSymbolByName t n); reflexivity.
Qed.
Lemma names_spec l t T n : run empty_table l = Ok (t, T) -> lookupSymbolByName t n = first_named n (name_events [] T).
Proof. intros H. rewrite (run_names l _ [] _ _ n inv_empty H). reflexivity. Qed.
Lemma names_stable l l' t T t' T' n i : run empty_table l = Ok (t, T) -> run empty_table (l ++ l') = Ok (t', T') ->
  lookupSymbolByName t n = Some i ->
  lookupSymbolByName t' n = Some i /\ exists s s', nth_error (t_symbols t) i = Some s /\ nth_error (t_symbols t') i = Some s' /\
    s_name s' = s_name s /\ s_source s' = s_source s /\ s_type s' = s_type s /\ s_blob s' = s_blob s.
Proof.
  intros H H' L. apply run_app in H' as (t1 & T1 & T2 & R1 & R2 & ->). rewrite H in R1. injection R1 as <- <-.
  pose proof (run_inv _ _ _ _ _ inv_empty H) as I. cbn [app] in I.
  split; [now rewrite (run_names _ _ _ _ _ n I R2), L|].
  pose proof (run_inv _ _ _ _ _ I R2) as I'. destruct I as [E _], I' as [E' _].
  assert (V : forall k tt dd TT l0, Inv tt dd -> run tt l0 = Ok (t, TT) ->
    (forall n j, lookupSymbolByName tt n = Some j -> j < length (t_symbols tt)) -> lookupSymbolByName t k = Some i -> i < length (t_symbols t)).
  { clear. intros k tt dd TT l0. revert tt dd TT. induction l0 as [|o l0 IH]; intros tt dd TT I R B L.
    - injection R as <- <-. eauto.
    - apply run_cons in R as (t1 & r & T' & S & R & ->). apply (IH t1 (dd ++ defined_by (o, r)) T'); auto; [now apply (step_inv tt)|].
      intros m j Q. rewrite (step_names _ _ _ _ _ m I S) in Q.
      assert (LE : length (t_symbols tt) <= length (t_symbols t1)).
      { rewrite (inv_length _ _ I), (inv_length _ _ (step_inv _ _ _ _ _ I S)), app_length. lia. }
      destruct (lookupSymbolByName tt m) eqn:Q'; [injection Q as <-; apply B in Q'; lia|].
      rewrite (inv_length _ _ (step_inv _ _ _ _ _ I S)), app_length.
      destruct o as [b|x y z b|x y z b|k0 y|k0 y|a k0]; cbn [step] in S.
      + destruct (getUniqueName tt b). injection S as <- <-. discriminate.
      + injection S as <- <-. unfold first_named in Q. cbn in Q. destruct (x =s m); [injection Q as <-; cbn; lia|discriminate].
      + destruct (getUniqueName tt x). injection S as <- <-. unfold first_named in Q. cbn in Q. destruct (_ =s m); [injection Q as <-; cbn; lia|discriminate].
      + inrange S k0 tt. injection S as <- <-. discriminate.
      + inrange S k0 tt. injection S as <- <-. discriminate.
      + inrange S k0 tt. injection S as <- <-. unfold first_named in Q. cbn in Q. destruct (a =s m); [|discriminate]. injection Q as <-.
        rewrite <- (inv_index tt dd k0 I), <- (inv_length tt dd I). lia. }
  assert (LI : i < length (t_symbols t)).
  { apply (V n empty_table [] T l inv_empty H); [discriminate|exact L]. }
  destruct (nth_error (t_symbols t) i) as [s|] eqn:Q; [|apply nth_error_None in Q; lia].
  assert (N : nth_error (map sym_def (t_symbols t')) i = Some (sym_def s)).
  { rewrite E', <- E. rewrite nth_error_app1 by (rewrite map_length; exact LI). now apply map_nth_error. }
  rewrite nth_error_map in N. destruct (nth_error (t_symbols t') i) as [s'|]; [|discriminate]. exists s, s'.
  cbn in N. unfold sym_def, key_of in N. injection N as A B C D. repeat split; auto.
Qed.

(** * Locations *)
Lemma loc_events_cons d e T : loc_events d (e :: T) = loc_events d [e] ++ loc_events (d ++ defined_by e) T.
Proof. cbn [loc_events]. rewrite app_nil_r. reflexivity. Qed.
Lemma step_locs t d o t' r l : Inv t d -> step t o = Ok (t', r) ->
  lookupSymbolsByLocation t' l = lookupSymbolsByLocation t l ++ here l (loc_events d [(o, r)]).
Proof.
  intros I H. pose proof (step_inv _ _ _ _ _ I H) as [_ S']. unfold lookupSymbolsByLocation.
  rewrite equal_range_here by exact S'. rewrite equal_range_here by apply I. clear S'. revert H.
  destruct o as [b|m y ty b|m y ty b|k y|k y|a k]; cbn [step]; intros H.
  - pose proof (unique_parts t b) as U. destruct (getUniqueName t b) as [t1 u]. injection H as <- <-. destruct U as (_ & _ & ->).
    cbn. now rewrite app_nil_r.
  - injection H as <- <-. cbn [t_byloc]. rewrite here_insert by apply I. rewrite (inv_length t d I). reflexivity.
  - pose proof (unique_parts t m) as U. destruct (getUniqueName t m) as [t1 u]. cbn [defineSymbol] in H. injection H as <- <-.
    destruct U as (U1 & _ & U3). cbn [t_byloc]. rewrite U1, U3, here_insert by apply I. rewrite (inv_length t d I). reflexivity.
  - inrange H k t. injection H as <- <-. cbn [t_byloc]. rewrite here_insert by apply I. rewrite (inv_index t d k I). reflexivity.
  - inrange H k t. injection H as <- <-. cbn. now rewrite app_nil_r.
  - inrange H k t. injection H as <- <-. cbn. now rewrite app_nil_r.
Qed.
Lemma run_locs l : forall t d t' T k, Inv t d -> run t l = Ok (t', T) ->
  lookupSymbolsByLocation t' k = lookupSymbolsByLocation t k ++ here k (loc_events d T).
Proof.
  induction l as [|o l IH]; intros t d t' T k I H.
  - injection H as <- <-. cbn. now rewrite app_nil_r.
  - apply run_cons in H as (t1 & r & T' & S & R & ->). rewrite loc_events_cons, here_app, app_assoc.
    rewrite <- (step_locs _ _ _ _ _ k I S). exact (IH _ _ _ _ k (step_inv _ _ _ _ _ I S) R).
Qed.
Lemma locs_spec l t T k : run empty_table l = Ok (t, T) -> lookupSymbolsByLocation t k = here k (loc_events [] T).
Proof. intros H. now rewrite (run_locs l _ [] _ _ k inv_empty H). Qed.
(** Every recorded symbol exists. *)
Lemma index_lt k d : (exists b, In (k, b) d) <-> index_of k d < length d.
Proof.
  induction d as [|[k' b] d IH]; cbn [index_of length In].
  - split; [intros [? []]|lia].
  - destruct (key_eq_dec k' k) as [->|N].
    + split; [intros _; lia|]. intros _. exists b. auto.
    + rewrite <- Nat.succ_lt_mono, <- IH. split; [intros [c [E|E]]; [congruence|eauto]|intros [c E]; eauto].
Qed.
Lemma run_locs_valid l : forall t d t' T, Inv t d -> run t l = Ok (t', T) ->
  Forall (fun e => snd e < length (t_symbols t')) (loc_events d T).
Proof.
  induction l as [|o l IH]; intros t d t' T I H.
  - injection H as <- <-. constructor.
  - apply run_cons in H as (t1 & r & T' & S & R & ->). rewrite loc_events_cons. apply Forall_app. split.
    + assert (LE : length d + length (defined_by (o, r)) <= length (t_symbols t')).
      { rewrite (inv_length _ _ (run_inv _ _ _ _ _ (step_inv _ _ _ _ _ I S) R)), !app_length. lia. }
      destruct o as [b|x y z b|x y z b|k0 y|k0 y|a k0]; cbn [step] in S.
      * constructor.
      * injection S as <- <-. constructor; [|constructor]. cbn in *. lia.
      * destruct (getUniqueName t x). injection S as <- <-. constructor; [|constructor]. cbn in *. lia.
      * inrange S k0 t. constructor; [|constructor]. cbn [snd]. rewrite <- (inv_index t d k0 I). rewrite (inv_length t d I) in G. lia.
      * constructor.
      * constructor.
    + exact (IH _ _ _ _ (step_inv _ _ _ _ _ I S) R).
Qed.
Definition type_at (d : list (key * N)) (i : nat) : option stype := option_map (fun e => k_type (fst e)) (nth_error d i).
Lemma first_of_spec syms types l : Forall (fun i => i < length syms) l ->
  first_of syms types l = find (fun i => match type_at (map sym_def syms) i with Some ty => existsb (stype_eqb ty) types | None => false end) l.
Proof.
  induction 1 as [|i l H F IH]; [reflexivity|]. cbn [first_of find]. unfold type_at at 1. rewrite nth_error_map.
  destruct (nth_error syms i) as [s|] eqn:E; [|apply nth_error_None in E; lia]. cbn [option_map sym_def fst key_of k_type].
  destruct (existsb _ types); [reflexivity|exact IH].
Qed.
Lemma here_valid {A} (P : A -> Prop) k (m : list (loc * A)) : Forall (fun e => P (snd e)) m -> Forall P (here k m).
Proof. induction 1 as [|[l v] m H F IH]; [constructor|]. rewrite here_cons. destruct (loc_eq_dec l k); auto. Qed.
Lemma locs_types_spec l t T k types : run empty_table l = Ok (t, T) ->
  lookupSymbolByLocationAndTypes t k types =
  find (fun i => match type_at (definitions T) i with Some ty => existsb (stype_eqb ty) types | None => false end) (here k (loc_events [] T)).
Proof.
  intros H. unfold lookupSymbolByLocationAndTypes. rewrite (locs_spec _ _ _ k H), first_of_spec.
  - destruct (run_inv _ _ _ _ _ inv_empty H) as [-> _]. reflexivity.
  - apply here_valid. exact (run_locs_valid _ _ _ _ _ inv_empty H).
Qed.

(** * Iteration and the n-th symbol of a kind *)
Lemma iterate_skip t : forall fuel i, length (t_symbols t) - i < fuel -> i <= length (t_symbols t) -> iterate fuel i t = skipn i (t_symbols t).
Proof.
  induction fuel as [|fuel IH]; intros i L LE; [lia|]. cbn [iterate]. destruct (Nat.eqb_spec i (length (t_symbols t))) as [->|N].
  - now rewrite skipn_all.
  - destruct (nth_error (t_symbols t) i) as [s|] eqn:E; [|apply nth_error_None in E; lia].
    rewrite IH by lia. clear - E. revert i E. induction (t_symbols t) as [|x l IH]; intros [|i] E; cbn in *; try discriminate; [congruence|auto].
Qed.
Lemma iterate_all t : all_symbols t = t_symbols t.
Proof. unfold all_symbols. rewrite iterate_skip by lia. reflexivity. Qed.
Lemma iteration_spec l t T : run empty_table l = Ok (t, T) -> map sym_def (all_symbols t) = definitions T.
Proof. intros H. rewrite iterate_all. apply (run_inv _ _ _ _ _ inv_empty H). Qed.
(** Positions of the symbols of a kind. *)
Definition of_kind (ty : stype) (d : list (key * N)) : list nat :=
  filter (fun i => match type_at d i with Some ty' => stype_eqb ty' ty | None => false end) (seq 0 (length d)).
Lemma nth_of_spec ty syms : forall i c n, c <= n ->
  nth_of i c n ty syms = nth_error (map (fun j => i + j) (of_kind ty (map sym_def syms))) (n - c).
Proof.
  induction syms as [|s syms IH]; intros i c n L.
  - cbn. destruct (n - c); reflexivity.
  - unfold of_kind. cbn [map length seq filter]. change (type_at (sym_def s :: map sym_def syms) 0) with (Some (s_type s)). cbv iota beta.
    assert (X : filter (fun i0 => match type_at (sym_def s :: map sym_def syms) i0 with Some ty' => stype_eqb ty' ty | None => false end)
        (seq 1 (length (map sym_def syms))) = map S (of_kind ty (map sym_def syms))).
    { rewrite <- seq_shift. unfold of_kind. generalize (seq 0 (length (map sym_def syms))). intros q. clear. induction q as [|x q IHq]; [reflexivity|].
      cbn [map filter]. unfold type_at. cbn [nth_error]. unfold type_at in IHq. cbn [nth_error] in IHq.
      destruct (option_map _ (nth_error (map sym_def syms) x)) as [ty'|]; [|exact IHq]. destruct (stype_eqb ty' ty); cbn [map]; rewrite IHq; reflexivity. }
    cbn [nth_of]. rewrite X. clear X.
    assert (Y : forall q, map (fun j => i + j) (map S q) = map (fun j => S i + j) q).
    { intros q. rewrite map_map. apply map_ext. intros. lia. }
    destruct (stype_eqb (s_type s) ty).
    + destruct (Nat.eqb_spec n c) as [->|N].
      * rewrite Nat.sub_diag. cbn. now rewrite Nat.add_0_r.
      * rewrite IH by lia. replace (n - c) with (S (n - S c)) by lia. cbn [map nth_error]. now rewrite Y.
    + rewrite IH by lia. now rewrite Y.
Qed.
Lemma nth_spec l t T n ty : run empty_table l = Ok (t, T) -> nthSymbolByType t n ty = nth_error (of_kind ty (definitions T)) n.
Proof.
  intros H. unfold nthSymbolByType. rewrite nth_of_spec by lia. destruct (run_inv _ _ _ _ _ inv_empty H) as [-> _].
  cbn [app]. rewrite Nat.sub_0_r, map_id. reflexivity.
Qed.
