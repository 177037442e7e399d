(** Proofs about the normaliser on renumbered expressions and relations. *)
From Verif Require Import Base BaseFacts ProtoModel NormalizerModel NormalizerFacts NormalizerTreeFacts.

(** ** The mapping matters only for calls that are looked at *)
Section Ext.
  Variables m m' : N -> outcome N.
  Definition agree (l : list call) : Prop := forall k f, In (k, f) l -> k <> Missed -> m f = m' f.
  Lemma ag_app l l' : agree (l ++ l') -> agree l /\ agree l'.
  Proof. intros H. split; intros k f I; apply (H k f), in_app_iff; auto. Qed.
  Lemma ag_cons c l : agree (c :: l) -> agree [c] /\ agree l.
  Proof. apply (ag_app [c]). Qed.
  Lemma ag_mut {A} (f f' : A -> outcome A) g e o : OAll (fun a => agree (g a) -> f a = f' a) o -> agree (ocalls g o) -> mutM f e o = mutM f' e o.
  Proof. destruct o; cbn; intros H K; [rewrite H; auto|auto]. Qed.
  Lemma ag_opt {A} (f f' : A -> outcome A) g o : OAll (fun a => agree (g a) -> f a = f' a) o -> agree (ocalls g o) -> optM f o = optM f' o.
  Proof. destruct o; cbn; intros H K; [rewrite H; auto|auto]. Qed.
  Lemma ag_list {A} (f f' : A -> outcome A) g l : Forall (fun a => agree (g a) -> f a = f' a) l -> agree (flat_map g l) -> mapM f l = mapM f' l.
  Proof. induction 1 as [|a l H _ IH]; cbn; intros K; auto. apply ag_app in K as [K1 K2]. rewrite (H K1), (IH K2). reflexivity. Qed.
  Ltac agree_split := repeat match goal with
    | H : agree (_ ++ _) |- _ => apply ag_app in H as [? ?]
    | H : agree (?c :: (_ :: _)) |- _ => apply ag_cons in H as [? ?]
    | H : agree (?c :: (_ ++ _)) |- _ => apply ag_cons in H as [? ?]
    | H : agree (?c :: (flat_map _ _)) |- _ => apply ag_cons in H as [? ?]
    | H : agree (?c :: (ocalls _ _)) |- _ => apply ag_cons in H as [? ?]
    end.
  Lemma extensional : (forall e, agree (xcalls true e) -> nx m e = nx m' e) /\ (forall a, agree (acalls true a) -> na m a = na m' a) /\
    (forall c, agree (ccalls true c) -> nc m c = nc m' c) /\ (forall o, agree (scalls true o) -> no m o = no m' o) /\
    (forall g : afun, True) /\ (forall o, agree (mcalls true o) -> nm m o = nm m' o) /\ (forall r, agree (rcalls true r) -> nr m r = nr m' r).
  Proof.
    apply plan_ind; intros; try exact I;
      match goal with |- nm _ (Measure ?g _) = _ => destruct g as [[]|] | _ => idtac end;
      cbn [nx na nc no nm nr]; cbn [xcalls acalls ccalls scalls gcalls mcalls rcalls if_reached app] in *; try reflexivity;
      agree_split;
      repeat match goal with
      | H : agree [(?k, ?f)] |- context [m ?f] => rewrite (H k f (or_introl eq_refl)) by discriminate
      | H : agree (ocalls ?g ?o) |- context [mutM ?f ?e ?o] => erewrite (ag_mut f _ g e o ltac:(eassumption) H)
      | H : agree (ocalls ?g ?o) |- context [optM ?f ?o] => erewrite (ag_opt f _ g o ltac:(eassumption) H)
      | H : agree (flat_map ?g ?o) |- context [mapM ?f ?o] => erewrite (ag_list f _ g o ltac:(eassumption) H)
      end; try reflexivity.
    change (obind (nx m e) (fun e1 => Ok (AValue e1)) = obind (nx m' e) (fun e1 => Ok (AValue e1))).
    rewrite H by assumption. reflexivity.
  Qed.
End Ext.

(** ** Renumbering *)
Section Ren.
  Variable s : N -> N.
  Lemma nr_opt {A} (f : A -> A) (g : A -> list call) o : OAll (fun a => g a = [] -> f a = a) o -> ocalls g o = [] -> okeep f o = o.
  Proof. destruct o; cbn; intros H K; [rewrite H; auto|auto]. Qed.
  Lemma nr_mut {A} (f : A -> A) (g : A -> list call) e o : OAll (fun a => g a = [] -> f a = a) o -> ocalls g o = [] -> ormap false f e o = o.
  Proof. destruct o; cbn; intros H K; [rewrite H; auto|auto]. Qed.
  Lemma nr_list {A} (f : A -> A) (g : A -> list call) l : Forall (fun a => g a = [] -> f a = a) l -> flat_map g l = [] -> map f l = l.
  Proof. induction 1 as [|a l H _ IH]; cbn; intros K; auto. apply app_eq_nil in K as [K1 K2]. rewrite (H K1), (IH K2). reflexivity. Qed.
  Lemma nr_list2 {A} (f : A -> A) (g : A -> list call) l : Forall (Forall (fun a => g a = [] -> f a = a)) l -> flat_map (flat_map g) l = [] -> map (map f) l = l.
  Proof. intros H. apply nr_list. eapply Forall_impl; [|exact H]. intros. eapply nr_list; eauto. Qed.
  Lemma nr_listo {A} (f : A -> A) (g : A -> list call) l : Forall (OAll (fun a => g a = [] -> f a = a)) l -> flat_map (ocalls g) l = [] -> map (okeep f) l = l.
  Proof. intros H. apply nr_list. eapply Forall_impl; [|exact H]. intros. eapply nr_opt; eauto. Qed.
  Lemma not_renamed : (forall e, xcalls false e = [] -> xren false s e = e) /\ (forall a, acalls false a = [] -> aren false s a = a) /\
    (forall c, ccalls false c = [] -> cren false s c = c) /\ (forall o, scalls false o = [] -> sren false s o = o) /\
    (forall g, gcalls false g = [] -> gren false s g = g) /\ (forall o, mcalls false o = [] -> mren false s o = o) /\ (forall r, rcalls false r = [] -> rren false s r = r).
  Proof.
    apply plan_ind; intros;
      match goal with |- mren _ _ (Measure ?g _) = _ => destruct g | _ => idtac end;
      cbn [xren aren cren sren gren mren rren ormap OAll] in *; cbn [xcalls acalls ccalls scalls mcalls rcalls if_reached app] in *; try reflexivity; try discriminate;
      repeat match goal with H : _ ++ _ = [] |- _ => apply app_eq_nil in H as [? ?] end; f_equal;
      first [ eapply nr_opt; eassumption | eapply nr_mut; eassumption | eapply nr_list; eassumption | eapply nr_list2; eassumption | eapply nr_listo; eassumption | idtac ]; auto.
    f_equal; auto.
  Qed.
  Definition reached (c : call) : Prop := fst c = Reached.
  Lemma none_missed l : Forall missed l -> Forall reached l -> l = [].
  Proof. destruct 1 as [|c l E]; auto. intros K. inversion K as [|? ? E']. unfold reached, missed in *. congruence. Qed.
  Variable m : N -> outcome N.
  Let ms := fun f => m (s f).
  Lemma rn_mut {A} (f f' : A -> outcome A) r g e o : OAll (fun a => Forall reached (g a) -> f (r a) = f' a) o -> Forall reached (ocalls g o) ->
    mutM f e (ormap false r e o) = mutM f' e o.
  Proof. destruct o; cbn; intros H K; [rewrite H; auto|auto]. Qed.
  Lemma rn_opt {A} (f f' : A -> outcome A) r g o : OAll (fun a => Forall reached (g a) -> f (r a) = f' a) o -> Forall reached (ocalls g o) ->
    optM f (okeep r o) = optM f' o.
  Proof. destruct o; cbn; intros H K; [rewrite H; auto|auto]. Qed.
  Lemma rn_list {A} (f f' : A -> outcome A) r g l : Forall (fun a => Forall reached (g a) -> f (r a) = f' a) l -> Forall reached (flat_map g l) ->
    mapM f (map r l) = mapM f' l.
  Proof. induction 1 as [|a l H _ IH]; cbn; intros K; auto. apply Forall_app in K as [K1 K2]. rewrite (H K1), (IH K2). reflexivity. Qed.
  Lemma un_o {A} (f : A -> A) (g : A -> list call) o : (forall a, g a = [] -> f a = a) -> (forall a, Forall missed (g a)) -> Forall reached (ocalls g o) -> okeep f o = o.
  Proof. intros H M K. apply (nr_opt f g); [destruct o; cbn; auto|]. apply none_missed; auto. apply missed_o. destruct o; cbn; auto. Qed.
  Lemma un_l {A} (f : A -> A) (g : A -> list call) o : (forall a, g a = [] -> f a = a) -> (forall a, Forall missed (g a)) -> Forall reached (flat_map g o) -> map f o = o.
  Proof. intros H M K. apply (nr_list f g); [apply Forall_forall; auto|]. apply none_missed; eauto. apply Forall_flat, Forall_forall. auto. Qed.
  Lemma renames : (forall e, Forall reached (xcalls true e) -> nx m (xren false s e) = nx ms e) /\
    (forall a, Forall reached (acalls true a) -> na m (aren false s a) = na ms a) /\
    (forall c, Forall reached (ccalls true c) -> nc m (cren false s c) = nc ms c) /\
    (forall o, Forall reached (scalls true o) -> no m (sren false s o) = no ms o) /\
    (forall g : afun, True) /\ (forall o, Forall reached (mcalls true o) -> nm m (mren false s o) = nm ms o) /\
    (forall r, Forall reached (rcalls true r) -> nr m (rren false s r) = nr ms r).
  Proof.
    destruct all_missed as (MX & MA & MC & MO & MG & MM & MR). destruct not_renamed as (NX & NA & NC & NO & NG & NM & NR).
    assert (MXX : forall l, Forall missed (flat_map (xcalls false) l)) by (intros; apply Forall_flat, Forall_forall; auto).
    assert (MXO : forall l, Forall missed (ocalls (xcalls false) l)) by (intros; apply missed_o; destruct l; cbn; auto).
    assert (NXX : forall l, flat_map (xcalls false) l = [] -> map (xren false s) l = l) by (intros l K; eapply nr_list; [|exact K]; apply Forall_forall; auto).
    assert (NXO : forall l, ocalls (xcalls false) l = [] -> okeep (xren false s) l = l) by (intros l K; eapply nr_opt; [|exact K]; destruct l; cbn; auto).
    apply plan_ind; intros; try exact I;
      match goal with |- nm _ (mren _ _ (Measure ?g _)) = _ => destruct g as [[]|] | _ => idtac end;
      cbn [xren aren cren sren gren mren rren ormap OAll] in *; cbn [nx na nc no nm nr]; cbn [xcalls acalls ccalls scalls gcalls mcalls rcalls if_reached app] in *; try reflexivity;
      try match goal with H : Forall reached ((Missed, _) :: _) |- _ => inversion H as [|? ? E]; discriminate E end;
      try match goal with H : Forall reached ((Implicit, _) :: _) |- _ => inversion H as [|? ? E]; discriminate E end;
      try match goal with H : Forall reached ((Reached, _) :: _) |- _ => apply Forall_inv_tail in H end;
      repeat match goal with H : Forall reached (_ ++ _) |- _ => apply Forall_app in H as [? ?] end;
      repeat match goal with
      | H : Forall reached (ocalls ?g ?o) |- context [mutM ?f ?e (ormap _ ?r ?e ?o)] => erewrite (rn_mut f _ r g e o ltac:(eassumption) H)
      | H : Forall reached (ocalls ?g ?o) |- context [optM ?f (okeep ?r ?o)] => erewrite (rn_opt f _ r g o ltac:(eassumption) H)
      | H : Forall reached (flat_map ?g ?o) |- context [mapM ?f (map ?r ?o)] => erewrite (rn_list f _ r g o ltac:(eassumption) H)
      | H : Forall reached (ocalls (?g false) ?o) |- context [okeep ?r ?o] => rewrite (un_o r (g false) o ltac:(assumption) ltac:(assumption) H)
      | H : Forall reached (flat_map (?g false) ?o) |- context [map ?r ?o] => rewrite (un_l r (g false) o ltac:(assumption) ltac:(assumption) H)
      | H : Forall reached (flat_map (flat_map (?g false)) ?o) |- context [map (map ?r) ?o] => rewrite (un_l (map r) (flat_map (g false)) o ltac:(assumption) ltac:(assumption) H)
      | H : Forall reached (flat_map (ocalls (?g false)) ?o) |- context [map (okeep ?r) ?o] => rewrite (un_l (okeep r) (ocalls (g false)) o ltac:(assumption) ltac:(assumption) H)
      end; try reflexivity.
    change (obind (nx m (xren false s e)) (fun e1 => Ok (AValue e1)) = obind (nx ms e) (fun e1 => Ok (AValue e1))). rewrite H by assumption. reflexivity.
  Qed.
End Ren.
