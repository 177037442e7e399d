(** Specification and proofs for reading pipelines. *)
From Verif Require Import Base BaseFacts PipeModel.
From Coq Require Import Permutation Sorted Lia ZifyBool ZifyNat ZifyN.

(** * Specification *)
(** The links of a pipeline [a -> b -> c]: each reference with the one to its left, and whether it is the last of the pipeline. *)
Fixpoint links (p : list str) : list (str * (bool * str)) :=
  match p with
  | a :: ((b :: rest) as q) => (b, (match rest with [] => true | _ => false end, a)) :: links q
  | _ => []
  end.
(** What flows into [x] in pipelines that end in [x] / that go on. *)
Definition into (last : bool) (x : str) (ps : list (list str)) : list str :=
  map (fun l => snd (snd l)) (filter (fun l => (fst l =s x) && Bool.eqb (fst (snd l)) last) (flat_map links ps)).
Definition middle (x : str) (p : list str) : Prop := exists l r, l <> [] /\ r <> [] /\ p = l ++ x :: r.
(** No reference twice in a pipeline, and what is in the middle of a pipeline is in no later one. *)
Definition well_connected (ps : list (list str)) : Prop := Forall (@NoDup str) ps /\ ForallOrdPairs (fun p q => forall x, middle x p -> ~ In x q) ps.
(** A table before the pipelines are read. *)
Definition fresh (t : ptab) : Prop := forall n d, plookup t n = Some (PRel d) -> d = no_data.
Definition only_relations (t : ptab) (ps : list (list str)) : Prop := forall n, In n (concat ps) -> plookup t n <> Some POther.
Definition data (t : ptab) (n : str) : rdata := match plookup t n with Some (PRel d) => d | _ => no_data end.
Definition recorded (t : ptab) (ps : list (list str)) : Prop := forall x,
  news (data t x) = into true x ps /\ cont (data t x) = hd_error (into false x ps) /\ (start (data t x) <> None <-> exists p, In p ps /\ In x (removelast p)).
(** References without a schema. *)
Definition plain (p : list str) : list elem := map (fun n => (n, n)) p.

(** * Tables *)
Lemma plookup_app t u n : plookup (t ++ u) n = match plookup t n with Some s => Some s | None => plookup u n end.
Proof. induction t as [|[m s] t IH]; cbn; auto. destruct (m =s n); auto. Qed.
Lemma plookup_update t n d m : is_rel t n = true -> plookup (pupdate t n d) m = if n =s m then Some (PRel d) else plookup t m.
Proof.
  unfold is_rel. induction t as [|[k s] t IH]; cbn; [discriminate|]. destruct (k =s n) eqn:E.
  - intros _. apply seq_eqb_eq in E. subst. cbn. destruct (n =s m); auto.
  - intros H. specialize (IH H). cbn. destruct (k =s m) eqn:F.
    + apply seq_eqb_eq in F. subst. destruct (n =s m) eqn:G; auto. apply seq_eqb_eq in G. subst. rewrite seq_eqb_refl in E. discriminate.
    + exact IH.
Qed.
Lemma plookup_symbol t n m : plookup (updateRelationSymbol t n) m = match plookup t m with Some s => Some s | None => if n =s m then Some (PRel no_data) else None end.
Proof.
  unfold updateRelationSymbol. destruct (plookup t n) eqn:E.
  - destruct (plookup t m) eqn:F; auto. destruct (n =s m) eqn:G; auto. apply seq_eqb_eq in G. congruence.
  - rewrite plookup_app. destruct (plookup t m); auto.
Qed.
Lemma data_symbol t n m : data (updateRelationSymbol t n) m = data t m.
Proof. unfold data. rewrite plookup_symbol. destruct (plookup t m); auto. destruct (n =s m); auto. Qed.
Lemma rel_symbol t n m : is_rel (updateRelationSymbol t n) m = is_rel t m || (match plookup t m with None => true | _ => false end && (n =s m)).
Proof. unfold is_rel. rewrite plookup_symbol. destruct (plookup t m) as [[]|]; auto. destruct (n =s m); auto. Qed.
Definition other (t : ptab) (n : str) : bool := match plookup t n with Some POther => true | _ => false end.
Lemma other_symbol t n m : other (updateRelationSymbol t n) m = other t m.
Proof. unfold other. rewrite plookup_symbol. destruct (plookup t m) as [[]|]; auto. destruct (n =s m); auto. Qed.
Lemma data_update t n d m : is_rel t n = true -> data (pupdate t n d) m = if n =s m then d else data t m.
Proof. intros H. unfold data. rewrite plookup_update by auto. destruct (n =s m); auto. Qed.
Lemma rel_update t n d m : is_rel t n = true -> is_rel (pupdate t n d) m = is_rel t m.
Proof. intros H. unfold is_rel at 1. rewrite plookup_update by auto. destruct (n =s m) eqn:E; auto. apply seq_eqb_eq in E. subst. auto. Qed.
Lemma other_update t n d m : is_rel t n = true -> other (pupdate t n d) m = other t m.
Proof.
  intros H. unfold other. rewrite plookup_update by auto. destruct (n =s m) eqn:E; auto. apply seq_eqb_eq in E. subst. unfold is_rel in H. destruct (plookup t m) as [[]|]; auto; discriminate.
Qed.

(** * One pipeline *)
Lemma contains_plain rights n : continuingPipelineContains (plain rights) n = existsb (fun m => m =s n) rights.
Proof. unfold continuingPipelineContains, plain. induction rights as [|r l IH]; cbn; auto. f_equal; auto. Qed.
Lemma exists_in rights n : existsb (fun m => m =s n) rights = true <-> In n rights.
Proof.
  rewrite existsb_exists. split; [intros (m & I & E); apply seq_eqb_eq in E; subst; auto|]. intros I. exists n. split; auto. apply seq_eqb_refl.
Qed.
Lemma connect_plain t rights n d left : is_rel t n = true -> data t n = d -> (forall r, In r rights -> is_rel t r = true) -> match left with Some l => is_rel t l = true | None => True end ->
  exists t' errs, connect t (plain rights) n d left = Ok (t', errs) /\
    (forall m, is_rel t' m = is_rel t m) /\ (forall m, other t' m = other t m) /\ (forall m, m <> n -> data t' m = data t m) /\
    (errs = [] <-> cont d = None /\ ~ In n rights) /\
    (errs = [] -> match rights with
      | [] => data t' n = {| start := start d; cont := None; news := news d ++ match left with Some l => [l] | None => [] end |}
      | _ => start (data t' n) <> None /\ cont (data t' n) = left /\ news (data t' n) = news d
      end).
Proof.
  intros Rn Dn Rr Rl. unfold connect. destruct (cont d) as [c|] eqn:C.
  - eexists _, _. split; [reflexivity|]. repeat split; auto; try discriminate. intros [H _]. discriminate.
  - destruct rights as [|r rights].
    + cbn [plain map]. destruct left as [l|].
      * rewrite Rl. cbn [negb]. eexists _, _. split; [reflexivity|]. split; [intros; apply rel_update; auto|]. split; [intros; apply other_update; auto|].
        split; [intros m N; rewrite data_update by auto; destruct (n =s m) eqn:E; auto; apply seq_eqb_eq in E; congruence|]. split; [tauto|]. intros _. rewrite data_update, seq_eqb_refl by auto. auto.
      * eexists _, _. split; [reflexivity|]. repeat split; auto. intros _. rewrite app_nil_r, Dn. destruct d; cbn in *; subst; auto.
    + cbn [plain map fst snd]. rewrite (Rr r) by (left; auto). cbn [negb]. fold (plain rights). change ((r, r) :: plain rights) with (plain (r :: rights)). rewrite contains_plain.
      destruct (existsb (fun m => m =s n) (r :: rights)) eqn:X.
      * apply exists_in in X. eexists _, _. split; [reflexivity|]. repeat split; auto; try discriminate. intros [_ H]. tauto.
      * assert (NI : ~ In n (r :: rights)) by (intros I; apply exists_in in I; congruence).
        set (rm := match plookup t r with Some (PRel rd) => match start rd with Some s => s | None => r end | _ => r end).
        destruct left as [l|]; [rewrite Rl; cbn [negb]|]; (eexists _, _; split; [reflexivity|]; split; [intros; apply rel_update; auto|]; split; [intros; apply other_update; auto|];
          split; [intros m N; rewrite data_update by auto; destruct (n =s m) eqn:E; auto; apply seq_eqb_eq in E; congruence|]; split; [tauto|]; intros _; rewrite data_update, seq_eqb_refl by auto; cbn; repeat split; congruence).
Qed.
(** The reference to the left of [x]; [p] from right to left. *)
Fixpoint left_of (p : list str) (x : str) : option str := match p with [] => None | e :: r => if e =s x then hd_error r else left_of r x end.
Lemma left_cons e r x : e <> x -> left_of (e :: r) x = left_of r x.
Proof. intros N. cbn. destruct (e =s x) eqn:E; auto. apply seq_eqb_eq in E. congruence. Qed.
Lemma visit_one p : forall t rights, (forall n, In n p -> other t n = false) -> (forall r, In r rights -> is_rel t r = true) ->
  exists t' errs, visitPipeline t (plain rights) (plain p) = Ok (t', errs) /\
    (forall m, is_rel t' m = true <-> is_rel t m = true \/ In m p) /\ (forall m, other t' m = other t m) /\ (forall m, ~ In m p -> data t' m = data t m) /\
    (errs = [] <-> NoDup p /\ (forall x, In x p -> cont (data t x) = None /\ ~ In x rights)) /\
    (errs = [] -> forall x, In x p -> if match rights with [] => match p with e :: _ => e =s x | [] => false end | _ => false end
       then data t' x = {| start := start (data t x); cont := None; news := news (data t x) ++ match left_of p x with Some l => [l] | None => [] end |}
       else start (data t' x) <> None /\ cont (data t' x) = left_of p x /\ news (data t' x) = news (data t x)).
Proof.
  induction p as [|e p IH]; intros t rights Ot Rr.
  - eexists _, _. split; [reflexivity|]. split; [intros m; cbn; tauto|]. split; auto. split; auto. split; [split; auto; intros _; split; [constructor|intros x []]|]. intros _ x [].
  - cbn [plain map visitPipeline fst]. fold (plain p). change ((e, e) :: plain rights) with (plain (e :: rights)).
    assert (Re : is_rel (updateRelationSymbol t e) e = true).
    { rewrite rel_symbol, seq_eqb_refl. specialize (Ot e (or_introl eq_refl)). unfold other, is_rel in *. destruct (plookup t e) as [[]|]; auto; discriminate. }
    destruct (IH (updateRelationSymbol t e) (e :: rights)) as (t2 & er2 & E & R2 & O2 & D2 & A2 & C2); clear IH.
    { intros n I. rewrite other_symbol. apply Ot. right. auto. }
    { intros r [<-|I]; auto. rewrite rel_symbol, (Rr r I). auto. }
    rewrite E. cbn [obind].
    assert (R2e : is_rel t2 e = true) by (apply R2; auto).
    assert (L : exists d, plookup t2 e = Some (PRel d) /\ data t2 e = d). { unfold is_rel, data in *. destruct (plookup t2 e) as [[d|]|]; try discriminate. eauto. }
    destruct L as (d & L & Dd). rewrite L.
    assert (LF : match plain p with [] => None | l :: _ => Some (fst l) end = hd_error p) by (destruct p; auto). rewrite LF. clear LF.
    destruct (connect_plain t2 rights e d (hd_error p) R2e Dd) as (t3 & er3 & E3 & R3 & O3 & D3 & A3 & C3).
    { intros r I. apply R2. left. rewrite rel_symbol, (Rr r I). auto. }
    { destruct p as [|l p]; cbn; auto. apply R2. right. left. auto. }
    rewrite E3. cbn [obind fst snd]. eexists _, _. split; [reflexivity|].
    split. { intros m. rewrite R3, R2, rel_symbol. cbn [In]. destruct (is_rel t m) eqn:F; cbn; [tauto|]. destruct (seq_eqb_spec e m) as [->|N].
      - specialize (Ot m (or_introl eq_refl)). unfold other, is_rel in *. destruct (plookup t m) as [[]|]; cbn; try discriminate; tauto.
      - rewrite andb_false_r. intuition congruence. }
    split. { intros m. rewrite O3, O2, other_symbol. auto. }
    split. { intros m N. cbn in N. rewrite D3 by intuition congruence. rewrite D2 by tauto. apply data_symbol. }
    assert (Acc : er2 ++ er3 = [] <-> er2 = [] /\ er3 = []) by (split; [apply app_eq_nil|intros [-> ->]; auto]).
    assert (Frame : ~ In e p -> data t2 e = data t e) by (intros N; rewrite D2 by auto; apply data_symbol).
    split.
    { rewrite Acc, A2, A3. split.
      - intros [[ND H] [Cd NI]]. assert (Ne : ~ In e p) by (intros I; destruct (H e I) as [_ Q]; apply Q; left; auto). split; [constructor; auto|].
        intros x [<-|I]; [rewrite <- Frame, Dd by auto; auto|]. destruct (H x I) as [Q1 Q2]. rewrite data_symbol in Q1. split; auto. intros J. apply Q2. right. auto.
      - intros [ND H]. inversion ND as [|? ? Ne ND']; subst. split; [split; auto|].
        + intros x I. rewrite data_symbol. destruct (H x (or_intror I)) as [Q1 Q2]. split; auto. intros [->|J]; auto.
        + rewrite Frame by auto. apply H. left. auto. }
    intros En x I. apply Acc in En as [En2 En3]. pose proof (proj1 A2 En2) as [ND H]. assert (Ne : ~ In e p) by (intros J; destruct (H e J) as [_ Q]; apply Q; left; auto).
    specialize (C2 En2). specialize (C3 En3). destruct (seq_eqb_spec e x) as [->|N].
    + cbn [left_of]. rewrite seq_eqb_refl. rewrite <- Frame, Dd by auto. destruct rights; auto.
    + destruct I as [->|I]; [congruence|]. rewrite left_cons by auto. specialize (C2 x I). cbn in C2. rewrite D3 by auto. rewrite data_symbol in C2.
      destruct rights; cbn; auto.
Qed.

(** * Links *)
Lemma into_app b x ps qs : into b x (ps ++ qs) = into b x ps ++ into b x qs.
Proof. unfold into. rewrite flat_map_app, filter_app, map_app. auto. Qed.
Lemma links_in p x b a : In (x, (b, a)) (links p) -> In x p /\ In a p.
Proof.
  induction p as [|c p IH]; [intros []|]. destruct p as [|d p]; [intros []|]. cbn [links]. intros [E|I]; [injection E as <- _ <-; cbn; auto|]. destruct (IH I). cbn in *. tauto.
Qed.
Lemma into_none b x p : ~ In x p -> into b x [p] = [].
Proof.
  intros N. unfold into. cbn [flat_map]. rewrite app_nil_r. destruct (filter _ (links p)) as [|[y [c a]] l] eqn:E; auto. exfalso.
  assert (I : In (y, (c, a)) (filter (fun l => (fst l =s x) && Bool.eqb (fst (snd l)) b) (links p))) by (rewrite E; left; auto).
  apply filter_In in I as [I F]. cbn in F. apply andb_true_iff in F as [F _]. apply seq_eqb_eq in F. subst. apply links_in in I as [I _]. auto.
Qed.
Lemma into_split b x l r : ~ In x l -> ~ In x r -> into b x [l ++ x :: r] = match rev l with [] => [] | a :: _ => if Bool.eqb (match r with [] => true | _ => false end) b then [a] else [] end.
Proof.
  intros Nl Nr. induction l as [|c l IH].
  - cbn [app rev]. unfold into. cbn [flat_map]. rewrite app_nil_r. destruct (filter _ (links (x :: r))) as [|[y [d a]] k] eqn:E; auto. exfalso.
    assert (I : In (y, (d, a)) (filter (fun l => (fst l =s x) && Bool.eqb (fst (snd l)) b) (links (x :: r)))) by (rewrite E; left; auto).
    apply filter_In in I as [I F]. cbn in F. apply andb_true_iff in F as [F _]. apply seq_eqb_eq in F. subst. destruct r as [|z r]; [destruct I|].
    change (In (x, (d, a)) ((z, (match r with [] => true | _ => false end, x)) :: links (z :: r))) in I.
    destruct I as [Q|I]; [injection Q as -> _ _; apply Nr; left; auto|]. apply links_in in I as [I _]. auto.
  - assert (IH' := IH (fun I => Nl (or_intror I))). clear IH. destruct l as [|d l].
    + cbn [app rev] in *. unfold into in *. cbn [links flat_map app] in *. rewrite app_nil_r in *. cbn [filter fst snd]. rewrite seq_eqb_refl. cbn [andb]. destruct (Bool.eqb _ b); cbn [map fst snd]; [f_equal|]; exact IH'.
    + change ((c :: d :: l) ++ x :: r) with (c :: d :: (l ++ x :: r)). unfold into in *. cbn [links flat_map app] in *. rewrite app_nil_r in *. cbn [filter fst snd].
      assert (N : (d =s x) = false) by (apply seq_eqb_neq; intros ->; apply Nl; right; left; auto). rewrite N. cbn [andb]. change (rev (c :: d :: l)) with (rev (d :: l) ++ [c]).
      rewrite IH'. destruct (rev (d :: l)) eqn:E; [|auto]. apply (f_equal (@rev _)) in E. rewrite rev_involutive in E. discriminate.
Qed.
Lemma into_middle x p : into false x [p] <> [] <-> middle x p.
Proof.
  unfold middle. induction p as [|a p IH].
  - split; [cbn; congruence|]. intros (l & r & _ & _ & E). destruct l; discriminate.
  - destruct p as [|b p].
    + split; [cbn; congruence|]. intros (l & r & N & M & E). destruct l as [|c l]; [congruence|]. destruct l; discriminate.
    + unfold into in *. cbn [links flat_map app] in *. rewrite app_nil_r in *. cbn [filter fst snd]. split.
      * destruct (b =s x) eqn:E; cbn [andb].
        { apply seq_eqb_eq in E. subst. destruct p as [|c p]; cbn [Bool.eqb].
          - intros H. apply IH in H as (l & r & N & M & E). exfalso. destruct l as [|y [|z l]]; cbn in E; try discriminate; congruence.
          - intros _. exists [a], (c :: p). repeat split; congruence. }
        { intros H. apply IH in H as (l & r & N & M & E'). exists (a :: l), r. repeat split; try congruence. cbn. congruence. }
      * intros (l & r & N & M & E). destruct l as [|y l]; [congruence|]. injection E as <- E. destruct l as [|z l].
        { injection E as -> ->. rewrite seq_eqb_refl. cbn [andb]. destruct r as [|c r]; [congruence|]. cbn. discriminate.  }
        { assert (H : exists l r, l <> [] /\ r <> [] /\ b :: p = l ++ x :: r) by (exists (z :: l), r; repeat split; try congruence). apply IH in H.
          destruct ((b =s x) && _); cbn [map]; [discriminate|auto]. }
Qed.
Lemma left_rev l x r : ~ In x r -> left_of (rev (l ++ x :: r)) x = hd_error (rev l).
Proof.
  intros N. rewrite rev_app_distr. cbn [rev]. rewrite <- app_assoc. cbn [app]. assert (N' : ~ In x (rev r)) by (intros I; apply in_rev in I; auto). induction (rev r) as [|y q IH]; cbn [app left_of].
  - rewrite seq_eqb_refl. auto.
  - assert (E : (y =s x) = false) by (apply seq_eqb_neq; intros ->; apply N'; left; auto). rewrite E. apply IH. intros I. apply N'. right. auto.
Qed.
Lemma plain_rev p : rev (plain p) = plain (rev p).
Proof. symmetry. apply map_rev. Qed.
Lemma removelast_split (p : list str) x : NoDup p -> In x p -> (In x (removelast p) <-> exists l r, p = l ++ x :: r /\ r <> []).
Proof.
  intros ND I. split.
  - intros J. apply in_split in J as (l & r & E). assert (P : p <> []) by (intros ->; destruct I). exists l, (r ++ [last p x]). split; [|destruct r; discriminate].
    rewrite (app_removelast_last x P), E at 1. rewrite <- app_assoc. auto.
  - intros (l & r & -> & N). rewrite removelast_app by discriminate. apply in_or_app. right. destruct r; [congruence|]. cbn. auto.
Qed.
(** Reading one more pipeline. *)
Lemma visit_step t ps p : recorded t ps -> (forall n, In n p -> other t n = false) ->
  exists t' errs, visitPipeline t [] (rev (plain p)) = Ok (t', errs) /\
    (forall m, is_rel t' m = true <-> is_rel t m = true \/ In m p) /\ (forall m, other t' m = other t m) /\
    (errs = [] <-> NoDup p /\ (forall q x, In q ps -> middle x q -> ~ In x p)) /\ (errs = [] -> recorded t' (ps ++ [p])).
Proof.
  intros Rec Ot. rewrite plain_rev. destruct (visit_one (rev p) t []) as (t' & errs & E & R & O & D & A & C); [intros n I; apply Ot, in_rev; auto|intros r []|].
  exists t', errs. split; [exact E|]. split; [intros m; rewrite R, <- in_rev; tauto|]. split; auto.
  assert (Cn : forall x, cont (data t x) = None <-> forall q, In q ps -> ~ middle x q).
  { intros x. destruct (Rec x) as (_ & -> & _). split.
    - intros H q I M. apply in_split in I as (a & b & ->). apply into_middle in M. change (a ++ q :: b) with (a ++ [q] ++ b) in H. rewrite !into_app in H.
      destruct (into false x a); [|discriminate]. destruct (into false x [q]); [congruence|discriminate].
    - intros H. clear - H. induction ps as [|q ps IH]; auto. change (q :: ps) with ([q] ++ ps). rewrite into_app. destruct (into false x [q]) eqn:E; [apply IH; intros; apply H; right; auto|].
      exfalso. apply (H q); [left; auto|]. apply into_middle. congruence. }
  split.
  { rewrite A. split.
    - intros [ND H]. split; [rewrite <- (rev_involutive p); apply NoDup_rev; auto|]. intros q x Iq M Ix. apply in_rev in Ix. destruct (H x Ix) as [Q _]. apply (proj1 (Cn x) Q q Iq M).
    - intros [ND H]. split; [apply NoDup_rev; auto|]. intros x I. split; [|auto]. apply Cn. intros q Iq M. apply (H q x Iq M). apply in_rev; auto. }
  intros En. specialize (C En). pose proof (proj1 A En) as [ND Cx].
  assert (NDp : NoDup p) by (rewrite <- (rev_involutive p); apply NoDup_rev; auto).
  intros x. rewrite !into_app. destruct (Rec x) as (N0 & C0 & S0). destruct (in_dec str_eq_dec x p) as [I|NI].
  - pose proof (in_split x p I) as (l & r & Ep). assert (Nl : ~ In x l /\ ~ In x r).
    { rewrite Ep in NDp. apply NoDup_remove_2 in NDp. rewrite in_app_iff in NDp. tauto. } destruct Nl as [Nl Nr].
    pose proof (C x (proj1 (in_rev p x) I)) as Q. destruct (Cx x (proj1 (in_rev p x) I)) as [Cn0 _]. rewrite Cn0 in C0.
    assert (In0 : into false x ps = []) by (destruct (into false x ps); [auto|discriminate]).
    assert (LO : left_of (rev p) x = hd_error (rev l)) by (rewrite Ep; apply left_rev; auto).
    assert (HD : match rev p with e :: _ => e =s x | [] => false end = match r with [] => true | _ => false end).
    { rewrite Ep, rev_app_distr. cbn [rev]. destruct r as [|y r] using rev_ind; [cbn; apply seq_eqb_refl|]. rewrite rev_app_distr. cbn.
      assert (F : (y =s x) = false) by (apply seq_eqb_neq; intros ->; apply Nr, in_or_app; right; left; auto). destruct r; cbn; auto. }
    rewrite HD, LO in Q. rewrite Ep at 1 2. rewrite !into_split by auto. rewrite In0. cbn [app].
    assert (Sp : (exists q, In q (ps ++ [p]) /\ In x (removelast q)) <-> start (data t x) <> None \/ r <> []).
    { rewrite S0. split.
      - intros (q & Iq & Ir). apply in_app_iff in Iq as [Iq|[<-|[]]]; [left; eauto|]. right. destruct (proj1 (removelast_split p x NDp I) Ir) as (l' & r' & E' & N').
        intros ->. rewrite Ep in E'. destruct r' as [|z r'] using rev_ind; [congruence|]. rewrite app_comm_cons, app_assoc in E'. apply app_inj_tail in E' as [E' <-]. apply Nl. rewrite E'. apply in_or_app. right. left. auto.
      - intros [(q & Iq & Ir)|N].
        + exists q. split; auto. apply in_or_app; auto.
        + exists p. split; [apply in_or_app; right; left; auto|]. apply removelast_split; auto. exists l, r. auto. }
    rewrite Sp. destruct r as [|y r]; cbn [Bool.eqb].
    + rewrite Q. cbn [start cont news]. rewrite N0. split; [destruct (rev l); auto|]. split; [destruct (rev l); auto|]. intuition congruence.
    + destruct Q as (Q1 & Q2 & Q3). rewrite Q2, Q3, N0. split; [destruct (rev l); auto using app_nil_r|]. split; [destruct (rev l); auto|]. split; auto. intros _. right. discriminate.
  - rewrite !into_none, !app_nil_r by auto. rewrite D by (intros J; apply in_rev in J; auto). split; auto. split; auto. rewrite S0. split.
    + intros (q & Iq & Ir). exists q. split; auto. apply in_or_app; auto.
    + intros (q & Iq & Ir). apply in_app_iff in Iq as [Iq|[<-|[]]]; [eauto|]. exfalso. apply NI. clear - Ir. induction p as [|a p IH]; [destruct Ir|]. cbn in Ir. destruct p as [|b p]; [destruct Ir|].
      destruct Ir as [->|Ir]; [left; auto|right; auto].
Qed.
Lemma visit_all ps : forall t done, recorded t done -> (forall n, In n (concat ps) -> other t n = false) ->
  exists t' errs, visitPipelines t (map plain ps) = Ok (t', errs) /\
    (forall m, is_rel t' m = true <-> is_rel t m = true \/ In m (concat ps)) /\ (forall m, other t' m = other t m) /\
    (errs = [] <-> well_connected ps /\ (forall q p x, In q done -> In p ps -> middle x q -> ~ In x p)) /\ (errs = [] -> recorded t' (done ++ ps)).
Proof.
  induction ps as [|p ps IH]; intros t done Rec Ot.
  - exists t, []. split; [reflexivity|]. split; [cbn; tauto|]. split; auto. split; [|rewrite app_nil_r; auto]. split; auto. intros _. split; [split; constructor|]. intros q p x _ [].
  - cbn [map visitPipelines]. destruct (visit_step t done p Rec) as (t1 & e1 & E1 & R1 & O1 & A1 & C1); [intros n I; apply Ot; cbn; apply in_or_app; auto|].
    rewrite E1. cbn [obind fst snd].
    assert (Dec : e1 = [] \/ e1 <> []) by (destruct e1; [left; auto|right; discriminate]). destruct Dec as [->|N1].
    + destruct (IH t1 (done ++ [p])) as (t2 & e2 & E2 & R2 & O2 & A2 & C2); [apply C1; auto|intros n I; rewrite O1; apply Ot; cbn; apply in_or_app; auto|].
      rewrite E2. cbn [obind fst snd app]. exists t2, e2. split; [reflexivity|]. split; [intros m; rewrite R2, R1; cbn; rewrite in_app_iff; tauto|]. split; [intros m; rewrite O2; apply O1|].
      pose proof (proj1 A1 eq_refl) as [ND1 H1]. split.
      * rewrite A2. unfold well_connected. split.
        { intros [[ND W] H]. split; [split; [constructor; auto|]|].
          - constructor; auto. apply Forall_forall. intros q Iq x M. apply (H p q x); auto. apply in_or_app. right. left. auto.
          - intros q r x Iq [<-|Ir] M; [eapply H1; eauto|]. apply (H q r x); auto. apply in_or_app. auto. }
        { intros [[ND W] H]. inversion ND; subst. inversion W; subst. split; [split; auto|]. intros q r x Iq Ir M. apply in_app_iff in Iq as [Iq|[<-|[]]].
          - apply (H q r x); auto. right. auto.
          - match goal with F : Forall _ ps |- _ => rewrite Forall_forall in F; apply (F r Ir x M) end. }
      * intros E. rewrite <- app_assoc in C2. apply C2. auto.
    + (* already rejected *)
      assert (Any : forall qs t, (forall n, In n (concat qs) -> other t n = false) -> exists t' errs, visitPipelines t (map plain qs) = Ok (t', errs) /\
         (forall m, is_rel t' m = true <-> is_rel t m = true \/ In m (concat qs)) /\ (forall m, other t' m = other t m)).
      { clear. induction qs as [|q qs IH]; intros t Ot; [exists t, []; cbn; split; auto; split; auto; tauto|]. cbn [map visitPipelines]. rewrite plain_rev.
        destruct (visit_one (rev q) t []) as (t' & e & E & R & O & _); [intros n I; apply Ot; cbn; apply in_or_app; left; apply in_rev; auto|intros r []|]. change (plain []) with (@nil elem) in E. rewrite E. cbn [obind fst snd].
        destruct (IH t') as (t2 & e2 & E2 & R2 & O2); [intros n I; rewrite O; apply Ot; cbn; apply in_or_app; auto|]. rewrite E2. cbn [obind fst snd]. eexists _, _. split; [reflexivity|].
        split; [intros m; rewrite R2, R, <- in_rev; cbn; rewrite in_app_iff; tauto|]. intros m. rewrite O2. auto. }
      destruct (Any ps t1) as (t2 & e2 & E2 & R2 & O2); [intros n I; rewrite O1; apply Ot; cbn; apply in_or_app; auto|]. rewrite E2. cbn [obind fst snd]. eexists _, _. split; [reflexivity|].
      split; [intros m; rewrite R2, R1; cbn; rewrite in_app_iff; tauto|]. split; [intros m; rewrite O2; apply O1|].
      assert (X : e1 ++ e2 <> []) by (destruct e1; [congruence|discriminate]). split; [|tauto]. split; [tauto|]. intros [[ND W] H]. exfalso. apply N1, A1. inversion ND; subst. split; auto.
      intros q x Iq M. apply (H q p x); auto. left. auto.
Qed.
Lemma fresh_recorded t : fresh t -> recorded t [].
Proof.
  intros F x. assert (D : data t x = no_data) by (unfold data; destruct (plookup t x) as [[d|]|] eqn:E; auto; eapply F; eauto). rewrite D. cbn. repeat split; auto; [congruence|]. intros (p & [] & _).
Qed.
Lemma read_pipelines t ps : fresh t -> only_relations t ps -> exists t' errs, visitPipelines t (map plain ps) = Ok (t', errs) /\
  (errs = [] <-> well_connected ps) /\ (errs = [] -> recorded t' ps) /\ (forall m, is_rel t' m = true <-> is_rel t m = true \/ In m (concat ps)) /\ (forall m, other t' m = other t m).
Proof.
  intros F O. destruct (visit_all ps t [] (fresh_recorded t F)) as (t' & errs & E & R & O' & A & C).
  { intros n I. specialize (O n I). unfold other. destruct (plookup t n) as [[]|]; auto. congruence. }
  exists t', errs. split; auto. split; [rewrite A; split; [tauto|]; intros W; split; auto; intros q p x []|]. split; auto.
Qed.
