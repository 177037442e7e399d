(** Proofs about the normaliser on expressions and relations. *)
From Verif Require Import Base BaseFacts ProtoModel NormalizerModel NormalizerFacts.

Lemma Forall2_flat {A B} (R : B -> B -> Prop) (g h : A -> list B) l l' :
  Forall2 (fun x y => Forall2 R (g x) (h y)) l l' -> Forall2 R (flat_map g l) (flat_map h l').
Proof. induction 1; cbn [flat_map]; [constructor|apply Forall2_app; auto]. Qed.
Lemma Forall2_self {A} (R : A -> A -> Prop) l : Forall (fun x => R x x) l -> Forall2 R l l.
Proof. induction 1; constructor; auto. Qed.
Lemma Forall_flat {A B} (P : B -> Prop) (g : A -> list B) l : Forall (fun x => Forall P (g x)) l -> Forall P (flat_map g l).
Proof. induction 1; cbn [flat_map]; [constructor|apply Forall_app; auto]. Qed.

Ltac pbind H := repeat match type of H with obind ?o _ = Ok _ => let E := fresh "E" in destruct o eqn:E; cbn [obind] in H; try discriminate end;
  try (apply (f_equal (fun o => match o with Ok a => Some a | _ => None end)) in H; injection H as <-).

(** ** Calls in places that are not looked at *)
Definition missed (c : call) : Prop := fst c = Missed.
Lemma missed_o {A} (f : A -> list call) o : OAll (fun x => Forall missed (f x)) o -> Forall missed (ocalls f o).
Proof. destruct o; cbn; auto. Qed.
Lemma all_missed :
  (forall e, Forall missed (xcalls false e)) /\ (forall a, Forall missed (acalls false a)) /\ (forall c, Forall missed (ccalls false c)) /\
  (forall o, Forall missed (scalls false o)) /\ (forall g, Forall missed (gcalls false g)) /\ (forall m, Forall missed (mcalls false m)) /\
  (forall r, Forall missed (rcalls false r)).
Proof.
  apply plan_ind; intros;
    cbn [xcalls acalls ccalls scalls gcalls mcalls rcalls if_reached]; auto;
    repeat match goal with
    | |- Forall missed (_ ++ _) => apply Forall_app; split
    | |- Forall missed (_ :: _) => constructor; [reflexivity|]
    | |- Forall missed (ocalls _ _) => apply missed_o; assumption
    | |- Forall missed (flat_map (flat_map _) _) => apply Forall_flat; eapply Forall_impl; [|eassumption]; intros ? ?; apply Forall_flat; assumption
    | |- Forall missed (flat_map (ocalls _) _) => apply Forall_flat; eapply Forall_impl; [|eassumption]; intros ? ?; apply missed_o; assumption
    | |- Forall missed (flat_map _ _) => apply Forall_flat; assumption
    | H : OAll _ ?g |- context [match ?g with _ => _ end] => destruct g; cbn [OAll app] in *
    end; auto.
Qed.

Section Norm.
  Variable m : N -> outcome N.
  (** ** What a normalised call is *)
  Definition updated (c c' : call) : Prop :=
    match fst c with
    | Missed => c' = c
    | _ => fst c' = Reached /\ m (snd c) = Ok (snd c')
    end.
  Lemma missed_same l : Forall missed l -> Forall2 updated l l.
  Proof. intros H. apply Forall2_self. eapply Forall_impl; [|exact H]. intros [k f] K. unfold missed in K. cbn in K. subst k. reflexivity. Qed.
  Definition Ux e := forall e', nx m e = Ok e' -> Forall2 updated (xcalls true e) (xcalls true e').
  Definition Ua a := forall a', na m a = Ok a' -> Forall2 updated (acalls true a) (acalls true a').
  Definition Uc c := forall c', nc m c = Ok c' -> Forall2 updated (ccalls true c) (ccalls true c').
  Definition Uo o := forall o', no m o = Ok o' -> Forall2 updated (scalls true o) (scalls true o').
  Definition Um o := forall o', nm m o = Ok o' -> Forall2 updated (mcalls true o) (mcalls true o').
  Definition Ur r := forall r', nr m r = Ok r' -> Forall2 updated (rcalls true r) (rcalls true r').
  Lemma upd_mut {A} (f : A -> outcome A) (g : A -> list call) empty o o' : g empty = [] ->
    OAll (fun x => forall x', f x = Ok x' -> Forall2 updated (g x) (g x')) o -> mutM f empty o = Ok o' -> Forall2 updated (ocalls g o) (ocalls g o').
  Proof.
    intros E. destruct o as [x|]; cbn [OAll mutM ocalls]; intros H K.
    - destruct (f x) eqn:D; try discriminate. injection K as <-. cbn. auto.
    - injection K as <-. cbn. rewrite E. constructor.
  Qed.
  Lemma upd_opt {A} (f : A -> outcome A) (g : A -> list call) o o' :
    OAll (fun x => forall x', f x = Ok x' -> Forall2 updated (g x) (g x')) o -> optM f o = Ok o' -> Forall2 updated (ocalls g o) (ocalls g o').
  Proof.
    destruct o as [x|]; cbn [OAll optM ocalls]; intros H K.
    - destruct (f x) eqn:D; try discriminate. injection K as <-. cbn. auto.
    - injection K as <-. constructor.
  Qed.
  Lemma upd_list {A} (f : A -> outcome A) (g : A -> list call) l l' :
    Forall (fun x => forall x', f x = Ok x' -> Forall2 updated (g x) (g x')) l -> mapM f l = Ok l' -> Forall2 updated (flat_map g l) (flat_map g l').
  Proof. intros H K. apply Forall2_flat. exact (mapM_rel _ _ _ H _ K). Qed.
  Lemma ms_o {A} (g : A -> list call) o : (forall x, Forall missed (g x)) -> Forall2 updated (ocalls g o) (ocalls g o).
  Proof. intros H. apply missed_same, missed_o. destruct o; cbn; auto. Qed.
  Lemma ms_l {A} (g : A -> list call) l : (forall x, Forall missed (g x)) -> Forall2 updated (flat_map g l) (flat_map g l).
  Proof. intros H. apply missed_same, Forall_flat, Forall_forall. auto. Qed.
  Lemma ms_ll {A} (g : A -> list call) l : (forall x, Forall missed (g x)) -> Forall2 updated (flat_map (flat_map g) l) (flat_map (flat_map g) l).
  Proof. intros H. apply ms_l. intros x. apply Forall_flat, Forall_forall. auto. Qed.
  Lemma ms_lo {A} (g : A -> list call) l : (forall x, Forall missed (g x)) -> Forall2 updated (flat_map (ocalls g) l) (flat_map (ocalls g) l).
  Proof. intros H. apply ms_l. intros x. apply missed_o. destruct x; cbn; auto. Qed.
  Lemma updates : (forall e, Ux e) /\ (forall a, Ua a) /\ (forall c, Uc c) /\ (forall o, Uo o) /\ (forall g : afun, True) /\ (forall o, Um o) /\ (forall r, Ur r).
  Proof.
    destruct all_missed as (MX & MA & MC & MO & MG & MM & MR).
    apply plan_ind; unfold Ux, Ua, Uc, Uo, Um, Ur; intros; try exact I;
      match goal with
      | H : nx m _ = Ok _ |- _ => cbn [nx] in H; pbind H
      | H : na m _ = Ok _ |- _ => cbn [na] in H; pbind H
      | H : nc m _ = Ok _ |- _ => cbn [nc] in H; pbind H
      | H : no m _ = Ok _ |- _ => cbn [no] in H; pbind H
      | H : nr m _ = Ok _ |- _ => cbn [nr] in H; pbind H
      | H : nm m (Measure ?g _) = Ok _ |- _ => destruct g as [[]|]; cbn [nm] in H; pbind H
      end;
      cbn [xcalls acalls ccalls scalls gcalls mcalls rcalls if_reached app];
      repeat match goal with
      | |- Forall2 _ (_ ++ _) (_ ++ _) => apply Forall2_app
      | |- Forall2 _ ((Missed, _) :: _) (_ :: _) => constructor; [reflexivity|]
      | |- Forall2 _ (_ :: _) (_ :: _) => constructor; [split; [reflexivity|assumption]|]
      | |- Forall2 _ (ocalls ?g ?o) (ocalls ?g ?o) => apply ms_o; assumption
      | |- Forall2 _ (flat_map (flat_map ?g) ?o) (flat_map _ ?o) => apply ms_ll; assumption
      | |- Forall2 _ (flat_map (ocalls ?g) ?o) (flat_map _ ?o) => apply ms_lo; assumption
      | |- Forall2 _ (flat_map ?g ?o) (flat_map ?g ?o) => apply ms_l; assumption
      | E : mutM _ _ ?o = Ok ?o' |- Forall2 _ (ocalls _ ?o) (ocalls _ ?o') => eapply upd_mut; [|eassumption|exact E]; reflexivity
      | E : optM _ ?o = Ok ?o' |- Forall2 _ (ocalls _ ?o) (ocalls _ ?o') => eapply upd_opt; [eassumption|exact E]
      | E : mapM _ ?o = Ok ?o' |- Forall2 _ (flat_map _ ?o) (flat_map _ ?o') => eapply upd_list; [eassumption|exact E]
      end; eauto; try constructor.
    cbn [flat_map app]. apply ms_o. assumption.
  Qed.
End Norm.

(** ** Failure *)
Section Fail.
  Variables (m : N -> outcome N) (x : exn).
  Hypothesis M : forall f, (exists v, m f = Ok v) \/ m f = Throw x.
  Definition dangling (c : call) : Prop := fst c <> Missed /\ m (snd c) = Throw x.
  Definition fails {A} (o : outcome A) (c : list call) : Prop := (exists a, o = Ok a) \/ (o = Throw x /\ Exists dangling c).
  Lemma f_bind {A B} (o : outcome A) (k : A -> outcome B) c c' : fails o c -> (forall a, fails (k a) c') -> fails (obind o k) (c ++ c').
  Proof.
    intros [[a ->]|[-> E]] K; cbn [obind].
    - destruct (K a) as [?|[? E]]; [left; auto|right; split; auto]. apply Exists_app. auto.
    - right. split; auto. apply Exists_app. auto.
  Qed.
  Lemma f_ok {A} (a : A) c : fails (Ok a) c.
  Proof. left. eauto. Qed.
  Lemma f_nil {A} (a : A) : fails (Ok a) [].
  Proof. left. eauto. Qed.
  Lemma f_at f : fails (m f) [(Reached, f)].
  Proof. destruct (M f) as [H|H]; [left; auto|right; split; auto]. constructor. split; auto. discriminate. Qed.
  Lemma f_at0 f : fails (m f) [(Implicit, f)].
  Proof. destruct (M f) as [H|H]; [left; auto|right; split; auto]. constructor. split; auto. discriminate. Qed.
  Lemma f_list {A} (f : A -> outcome A) (g : A -> list call) l : Forall (fun a => fails (f a) (g a)) l -> fails (mapM f l) (flat_map g l).
  Proof.
    intros H. destruct (mapM_fail f (fun a => Exists dangling (g a)) x l) as [E|[E K]]; [eapply Forall_impl; [|exact H]; intros a [?|[? ?]]; auto|left; auto|].
    right. split; auto. apply Exists_exists in K as (a & I & K). apply Exists_exists in K as (c & J & K). apply Exists_exists. exists c. split; auto.
    apply in_flat_map. eauto.
  Qed.
  Lemma f_mut {A} (f : A -> outcome A) (g : A -> list call) e o : OAll (fun a => fails (f a) (g a)) o -> fails (mutM f e o) (ocalls g o).
  Proof. destruct o; cbn; intros H; [|apply f_ok]. rewrite <- (app_nil_r (g a)). apply f_bind; auto. intros. apply f_ok. Qed.
  Lemma f_opt {A} (f : A -> outcome A) (g : A -> list call) o : OAll (fun a => fails (f a) (g a)) o -> fails (optM f o) (ocalls g o).
  Proof. destruct o; cbn; intros H; [|apply f_ok]. rewrite <- (app_nil_r (g a)). apply f_bind; auto. intros. apply f_ok. Qed.
  Lemma f_incl {A} (o : outcome A) c c' : fails o c -> incl c c' -> fails o c'.
  Proof. intros [H|[H K]] I; [left; auto|right; split; auto]. apply Exists_exists in K as (a & J & K). apply Exists_exists. eauto. Qed.
  Lemma failures : (forall e, fails (nx m e) (xcalls true e)) /\ (forall a, fails (na m a) (acalls true a)) /\ (forall c, fails (nc m c) (ccalls true c)) /\
    (forall o, fails (no m o) (scalls true o)) /\ (forall g : afun, True) /\ (forall o, fails (nm m o) (mcalls true o)) /\ (forall r, fails (nr m r) (rcalls true r)).
  Proof.
    apply plan_ind; intros; try exact I;
      try match goal with |- fails _ (mcalls _ (Measure ?g _)) => destruct g as [[]|] end;
      cbn [nx na nc no nm nr xcalls acalls ccalls scalls gcalls mcalls rcalls if_reached app]; try apply f_ok;
      try (lazymatch goal with |- fails _ ((Implicit, _) :: _) => eapply f_incl; [eapply f_bind; [apply f_at0|intros; apply f_nil]|] end);
      try (eapply f_incl; [repeat first [apply f_nil | eapply f_bind; [first [apply f_at|apply f_at0|eapply f_mut; eassumption|eapply f_opt; eassumption|eapply f_list; eassumption|eassumption]|intros]]|]);
      intros ?; rewrite ?in_app_iff; cbn [In]; rewrite ?in_app_iff; tauto.
  Qed.
End Fail.

(** ** What stays *)
Section Shape.
  Variable m : N -> outcome N.
  Let z := fun _ : N => 0%N.
  Lemma sh_mut {A} (f : A -> outcome A) (g : A -> A) e o o' : g e = e -> OAll (fun a => forall a', f a = Ok a' -> g a' = g a) o ->
    mutM f e o = Ok o' -> ormap true g e o' = ormap true g e o.
  Proof. intros E. destruct o as [a|]; cbn; intros H K; [destruct (f a) eqn:D; try discriminate; injection K as <-; cbn; f_equal; auto|injection K as <-; cbn; f_equal; auto]. Qed.
  Lemma sh_opt {A} (f : A -> outcome A) (g : A -> A) o o' : OAll (fun a => forall a', f a = Ok a' -> g a' = g a) o ->
    optM f o = Ok o' -> okeep g o' = okeep g o.
  Proof. destruct o as [a|]; cbn; intros H K; [destruct (f a) eqn:D; try discriminate; injection K as <-; cbn; f_equal; auto|injection K as <-; auto]. Qed.
  Lemma sh_list {A} (f : A -> outcome A) (g : A -> A) l l' : Forall (fun a => forall a', f a = Ok a' -> g a' = g a) l ->
    mapM f l = Ok l' -> map g l' = map g l.
  Proof. intros H K. pose proof (mapM_rel _ _ _ H _ K) as F. induction F; cbn; f_equal; auto. apply IHF; inversion H; subst; auto.
    cbn in K. destruct (f x); try discriminate. cbn in K. destruct (mapM f l); try discriminate. injection K as <- <-. reflexivity. Qed.
  Lemma shapes : (forall e e', nx m e = Ok e' -> xren true z e' = xren true z e) /\ (forall a a', na m a = Ok a' -> aren true z a' = aren true z a) /\
    (forall c c', nc m c = Ok c' -> cren true z c' = cren true z c) /\ (forall o o', no m o = Ok o' -> sren true z o' = sren true z o) /\
    (forall g : afun, True) /\ (forall o o', nm m o = Ok o' -> mren true z o' = mren true z o) /\ (forall r r', nr m r = Ok r' -> rren true z r' = rren true z r).
  Proof.
    apply plan_ind; intros; try exact I;
      match goal with
      | H : nx m _ = Ok _ |- _ => cbn [nx] in H; pbind H
      | H : na m _ = Ok _ |- _ => cbn [na] in H; pbind H
      | H : nc m _ = Ok _ |- _ => cbn [nc] in H; pbind H
      | H : no m _ = Ok _ |- _ => cbn [no] in H; pbind H
      | H : nr m _ = Ok _ |- _ => cbn [nr] in H; pbind H
      | H : nm m (Measure ?g _) = Ok _ |- _ => destruct g as [[]|]; cbn [nm] in H; pbind H
      end; try reflexivity;
      cbn [xren aren cren sren gren mren rren]; unfold z; f_equal;
      first [ eapply sh_mut; [|eassumption|eassumption]; reflexivity | eapply sh_opt; eassumption | eapply sh_list; eassumption | eauto ].
  Qed.
End Shape.

(** ** Composition, extensionality, renaming *)
Section Compose.
  Variables m m' m'' : N -> outcome N.
  Hypothesis M : forall f f', m f = Ok f' -> m' f' = m'' f.
  Lemma co_mut {A} (f g h : A -> outcome A) e o o' : g e = Ok e -> OAll (fun a => forall a', f a = Ok a' -> g a' = h a) o ->
    mutM f e o = Ok o' -> mutM g e o' = mutM h e o.
  Proof. intros E. destruct o as [a|]; cbn; intros H K; [destruct (f a) eqn:D; try discriminate; injection K as <-; cbn; rewrite (H _ eq_refl); auto|injection K as <-; cbn; rewrite E; auto]. Qed.
  Lemma co_opt {A} (f g h : A -> outcome A) o o' : OAll (fun a => forall a', f a = Ok a' -> g a' = h a) o ->
    optM f o = Ok o' -> optM g o' = optM h o.
  Proof. destruct o as [a|]; cbn; intros H K; [destruct (f a) eqn:D; try discriminate; injection K as <-; cbn; rewrite (H _ eq_refl); auto|injection K as <-; auto]. Qed.
  Lemma co_list {A} (f g h : A -> outcome A) l : Forall (fun a => forall a', f a = Ok a' -> g a' = h a) l ->
    forall l', mapM f l = Ok l' -> mapM g l' = mapM h l.
  Proof.
    induction 1 as [|a l Ha _ IH]; cbn; intros l' K; [injection K as <-; auto|].
    destruct (f a) as [b| |] eqn:D; try discriminate. cbn in K. destruct (mapM f l) as [r| |] eqn:D'; try discriminate. injection K as <-. cbn.
    rewrite (Ha _ eq_refl), (IH _ eq_refl). reflexivity.
  Qed.
  Lemma composes : (forall e e', nx m e = Ok e' -> nx m' e' = nx m'' e) /\ (forall a a', na m a = Ok a' -> na m' a' = na m'' a) /\
    (forall c c', nc m c = Ok c' -> nc m' c' = nc m'' c) /\ (forall o o', no m o = Ok o' -> no m' o' = no m'' o) /\
    (forall g : afun, True) /\ (forall o o', nm m o = Ok o' -> nm m' o' = nm m'' o) /\ (forall r r', nr m r = Ok r' -> nr m' r' = nr m'' r).
  Proof.
    apply plan_ind; intros; try exact I;
      match goal with
      | H : nx m _ = Ok _ |- _ => cbn [nx] in H; pbind H
      | H : na m _ = Ok _ |- _ => cbn [na] in H; pbind H
      | H : nc m _ = Ok _ |- _ => cbn [nc] in H; pbind H
      | H : no m _ = Ok _ |- _ => cbn [no] in H; pbind H
      | H : nr m _ = Ok _ |- _ => cbn [nr] in H; pbind H
      | H : nm m (Measure ?g _) = Ok _ |- _ => destruct g as [[]|]; cbn [nm] in H; pbind H
      end; try reflexivity;
      cbn [nx na nc no nm nr];
      repeat match goal with
      | E : mutM ?f ?e ?o = Ok ?o' |- context [mutM ?g ?e ?o'] => erewrite (co_mut f g _ e o o' eq_refl ltac:(eassumption) E)
      | E : optM ?f ?o = Ok ?o' |- context [optM ?g ?o'] => erewrite (co_opt f g _ o o' ltac:(eassumption) E)
      | E : mapM ?f ?o = Ok ?o' |- context [mapM ?g ?o'] => erewrite (co_list f g _ o ltac:(eassumption) o' E)
      | E : m ?f = Ok ?f' |- context [m' ?f'] => rewrite (M _ _ E)
      end; try reflexivity.
    erewrite H by eassumption. reflexivity.
  Qed.
End Compose.
