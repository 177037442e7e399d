From Verif Require Import Base BaseFacts StringsModel StringsFacts TypeModel TypeFacts TypeCaseFacts.
From Coq Require Import Lia ZifyBool ZifyNat ZifyN.

(** * Specifications *)

(** Types without a parameterised part, a literal or a missing part. *)
Inductive Concrete : ty -> Prop :=
| K_scalar k n : Concrete (TScalar k n)
| K_decimal p s n : Concrete (TDecimal p s n)
| K_fbin l n : Concrete (TFixedBinary l n)
| K_fchar l n : Concrete (TFixedChar l n)
| K_vchar l n : Concrete (TVarchar l n)
| K_list e n : Concrete e -> Concrete (TList e n)
| K_map k v n : Concrete k -> Concrete v -> Concrete (TMap k v n)
| K_struct l n : Forall Concrete l -> Concrete (TStruct l n).

(** The declared type is nullable or the actual one is not. *)
Definition nul (declared actual : bool) : Prop := declared = true \/ actual = false.

(** Structural agreement; [strict] tells whether the nullability of structs counts. *)
Inductive Agree (strict : bool) : ty -> ty -> Prop :=
| A_scalar k n n' : nul n n' -> Agree strict (TScalar k n) (TScalar k n')
| A_decimal p s n n' : nul n n' -> Agree strict (TDecimal p s n) (TDecimal p s n')
| A_fbin l n n' : nul n n' -> Agree strict (TFixedBinary l n) (TFixedBinary l n')
| A_fchar l n n' : nul n n' -> Agree strict (TFixedChar l n) (TFixedChar l n')
| A_vchar l n n' : nul n n' -> Agree strict (TVarchar l n) (TVarchar l n')
| A_list e e' n n' : nul n n' -> Agree strict e e' -> Agree strict (TList e n) (TList e' n')
| A_map k v k' v' n n' : nul n n' -> Agree strict k k' -> Agree strict v v' -> Agree strict (TMap k v n) (TMap k' v' n')
| A_struct l l' n n' : (strict = true -> nul n n') -> Forall2 (Agree strict) l l' -> Agree strict (TStruct l n) (TStruct l' n').

(** No struct below (or at) the type has the given nullability. *)
Inductive NoStruct (bad : bool) : ty -> Prop :=
| NS_scalar k n : NoStruct bad (TScalar k n)
| NS_decimal p s n : NoStruct bad (TDecimal p s n)
| NS_fbin l n : NoStruct bad (TFixedBinary l n)
| NS_fchar l n : NoStruct bad (TFixedChar l n)
| NS_vchar l n : NoStruct bad (TVarchar l n)
| NS_list e n : NoStruct bad e -> NoStruct bad (TList e n)
| NS_map k v n : NoStruct bad k -> NoStruct bad v -> NoStruct bad (TMap k v n)
| NS_struct l n : n <> bad -> Forall (NoStruct bad) l -> NoStruct bad (TStruct l n).

(** A declaration as a function argument or return type may have it: parameterised or concrete, all parts present. *)
Inductive Declared : ty -> Prop :=
| Q_concrete t : Concrete t -> Declared t
| Q_lit v w p : Declared (TStrLit v w p)
| Q_dec p s n : Declared (PDecimal p s n)
| Q_fbin l n : Declared (PFixedBinary l n)
| Q_fchar l n : Declared (PFixedChar l n)
| Q_vchar l n : Declared (PVarchar l n)
| Q_list e n : Declared e -> Declared (PList e n)
| Q_map k v n : Declared k -> Declared v -> Declared (PMap k v n)
| Q_struct l n : Forall Declared l -> Declared (PStruct l n).

(** The concrete types a declaration stands for, with [fixedbinary<L>] standing for none (finding) when
    [fbin] is false. *)
Inductive Inst (fbin : bool) : ty -> ty -> Prop :=
| I_concrete t a : Concrete t -> Agree false t a -> Inst fbin t a
| I_wild v p a : Inst fbin (TStrLit v true p) a
| I_dec p s n p' s' n' : nul n n' -> Inst fbin (PDecimal p s n) (TDecimal p' s' n')
| I_fbin l n l' n' : fbin = true -> nul n n' -> Inst fbin (PFixedBinary l n) (TFixedBinary l' n')
| I_fchar l n l' n' : nul n n' -> Inst fbin (PFixedChar l n) (TFixedChar l' n')
| I_vchar l n l' n' : nul n n' -> Inst fbin (PVarchar l n) (TVarchar l' n')
| I_list e n e' n' : nul n n' -> Inst fbin e e' -> Inst fbin (PList e n) (TList e' n')
| I_map k v n k' v' n' : nul n n' -> Inst fbin k k' -> Inst fbin v v' -> Inst fbin (PMap k v n) (TMap k' v' n')
| I_struct l n l' n' : nul n n' -> Forall2 (Inst fbin) l l' -> Inst fbin (PStruct l n) (TStruct l' n').

(** * Induction over types *)
Fixpoint ty_ind' (P : ty -> Prop)
  (H0 : P TNull) (HS : forall k n, P (TScalar k n)) (HD : forall p s n, P (TDecimal p s n))
  (HB : forall l n, P (TFixedBinary l n)) (HC : forall l n, P (TFixedChar l n)) (HV : forall l n, P (TVarchar l n))
  (HL : forall e n, P e -> P (TList e n)) (HT : forall l n, Forall P l -> P (TStruct l n))
  (HM : forall k v n, P k -> P v -> P (TMap k v n)) (HX : forall v w p, P (TStrLit v w p))
  (PD : forall p s n, P p -> P s -> P (PDecimal p s n)) (PB : forall l n, P l -> P (PFixedBinary l n))
  (PC : forall l n, P l -> P (PFixedChar l n)) (PV : forall l n, P l -> P (PVarchar l n))
  (PL : forall e n, P e -> P (PList e n)) (PT : forall l n, Forall P l -> P (PStruct l n))
  (PM : forall k v n, P k -> P v -> P (PMap k v n)) (t : ty) : P t :=
  let rec := ty_ind' P H0 HS HD HB HC HV HL HT HM HX PD PB PC PV PL PT PM in
  let all := (fix all (l : list ty) : Forall P l := match l with [] => Forall_nil P | x :: r => Forall_cons x (rec x) (all r) end) in
  match t with
  | TNull => H0 | TScalar k n => HS k n | TDecimal p s n => HD p s n | TFixedBinary l n => HB l n
  | TFixedChar l n => HC l n | TVarchar l n => HV l n | TList e n => HL e n (rec e)
  | TStruct l n => HT l n (all l) | TMap k v n => HM k v n (rec k) (rec v) | TStrLit v w p => HX v w p
  | PDecimal p s n => PD p s n (rec p) (rec s) | PFixedBinary l n => PB l n (rec l) | PFixedChar l n => PC l n (rec l)
  | PVarchar l n => PV l n (rec l) | PList e n => PL e n (rec e) | PStruct l n => PT l n (all l)
  | PMap k v n => PM k v n (rec k) (rec v)
  end.

Lemma Forall2_len {A B} (R : A -> B -> Prop) l l' : Forall2 R l l' -> length l = length l'.
Proof. induction 1; simpl; congruence. Qed.
Lemma nullMatch_nul n n' : nullMatch n n' = true <-> nul n n'.
Proof. unfold nullMatch, nul. destruct n, n'; simpl; intuition discriminate. Qed.
Lemma skind_eqb_eq a b : skind_eqb a b = true <-> a = b.
Proof. unfold skind_eqb. destruct (skind_eq_dec a b); split; congruence. Qed.

(** [decides o P]: the call returns, with true exactly when [P]. *)
Definition decides (o : outcome bool) (P : Prop) : Prop := exists b, o = Ok b /\ (b = true <-> P).
Lemma decides_ok b (P : Prop) : (b = true <-> P) -> decides (Ok b) P.
Proof. intros H. exists b. auto. Qed.
Lemma decides_no (P : Prop) : ~ P -> decides (Ok false) P.
Proof. intros H. exists false. split; [reflexivity|]. split; [discriminate|contradiction]. Qed.
Lemma decides_iff o P Q : (P <-> Q) -> decides o P -> decides o Q.
Proof. intros H (b & E & I). exists b. split; [exact E|]. now rewrite I. Qed.
Lemma decides_and o (f : outcome bool) P Q : decides o P -> decides f Q ->
  decides (b <- o ;; if b then f else Ok false) (P /\ Q).
Proof.
  intros (b & -> & I) (c & -> & J). cbn [obind]. destruct b.
  - exists c. split; [reflexivity|]. rewrite J. intuition.
  - exists false. split; [reflexivity|]. split; [discriminate|]. intros [p _]. apply I in p. discriminate.
Qed.
Lemma decides_true o P : decides o P -> (o = Ok true <-> P).
Proof. intros (b & -> & I). rewrite <- I. split; [intros [= ->]; reflexivity|intros ->; reflexivity]. Qed.

(** The loop over struct children. *)
Fixpoint all2 (l l' : list ty) : outcome bool :=
  match l, l' with
  | x :: r, y :: r' => b <- isMatch x y ;; if b then all2 r r' else Ok false
  | _, _ => Ok true
  end.
Lemma isMatch_struct l n a : isMatch (TStruct l n) a =
  match a with TStruct l' _ => if length l' =? length l then all2 l l' else Ok false | _ => Ok false end.
Proof. reflexivity. Qed.
Lemma isMatch_pstruct l n a : isMatch (PStruct l n) a =
  match a with
  | TStruct l' n' => if length l' =? length l then b <- all2 l l' ;; if b then Ok (nullMatch n n') else Ok false else Ok false
  | _ => Ok false
  end.
Proof. reflexivity. Qed.
Lemma all2_decides R l : forall l', Forall (fun x => forall y, Concrete y -> decides (isMatch x y) (R x y)) l ->
  Forall Concrete l' -> length l' = length l -> decides (all2 l l') (Forall2 R l l').
Proof.
  induction l as [|x l IH]; intros [|y l'] H C E; try discriminate E.
  - apply decides_ok. split; auto.
  - inversion H; subst. inversion C; subst. cbn [all2].
    eapply decides_iff; [|apply decides_and; [auto|apply IH; auto]].
    split; [intros [? ?]; constructor; auto|intros F; inversion F; subst; auto].
Qed.

Lemma isMatch_concrete d : Concrete d -> forall a, Concrete a -> decides (isMatch d a) (Agree false d a).
Proof.
  induction d using ty_ind'; intros Cd a Ca; inversion Cd; subst;
    try (inversion Ca; subst; try (apply decides_no; intros A; inversion A; fail);
         cbn [isMatch]; apply decides_ok; rewrite ?andb_true_iff, nullMatch_nul, ?Z.eqb_eq;
         split; [intros; intuition (subst; constructor; auto)|intros A; inversion A; auto]; fail).
  - (* scalar *) inversion Ca; subst; cbn [isMatch kind_of kind_eqb andb nullable_of]; try (apply decides_no; intros A; inversion A; fail).
    apply decides_ok. rewrite andb_true_iff, nullMatch_nul, skind_eqb_eq.
    split; [intros [-> N]; now constructor|intros A; inversion A; subst; auto].
  - (* list *) inversion Ca; subst; cbn [isMatch]; try (apply decides_no; intros A; inversion A; fail).
    destruct (nullMatch n n0) eqn:N.
    + apply nullMatch_nul in N. eapply decides_iff; [|apply IHd; eauto].
      split; [intros; now constructor|intros A; inversion A; auto].
    + apply decides_no. intros A. inversion A; subst. match goal with H : nul _ _ |- _ => apply nullMatch_nul in H end. congruence.
  - (* struct *) rewrite isMatch_struct. inversion Ca; subst; try (apply decides_no; intros A; inversion A; fail).
    destruct (length l0 =? length l) eqn:L.
    + apply Nat.eqb_eq in L. eapply decides_iff; [|apply (all2_decides (Agree false)); eauto].
      * split; [intros F; constructor; [discriminate|exact F]|intros A; inversion A; auto].
      * rewrite Forall_forall in *. intros x I y Cy. apply H; auto.
    + apply decides_no. intros A. inversion A; subst. match goal with H : Forall2 _ _ _ |- _ => apply Forall2_len in H end. apply Nat.eqb_neq in L. congruence.
  - (* map *) inversion Ca; subst; cbn [isMatch]; try (apply decides_no; intros A; inversion A; fail).
    destruct (nullMatch n n0) eqn:N.
    + apply nullMatch_nul in N. eapply decides_iff; [|apply decides_and; [apply IHd1|apply IHd2]; eauto].
      split; [intros [? ?]; now constructor|intros A; inversion A; auto].
    + apply decides_no. intros A. inversion A; subst. match goal with H : nul _ _ |- _ => apply nullMatch_nul in H end. congruence.
Qed.

Lemma Agree_strict_lenient d : forall a, Agree true d a -> Agree false d a.
Proof.
  induction d using ty_ind'; intros a A; inversion A; subst; constructor; auto; try discriminate.
  match goal with F : Forall2 _ _ l' |- _ => clear A; revert l' F end. induction H as [|x l Hx F IH]; intros l' F2; inversion F2; subst; constructor; auto.
Qed.
Lemma Agree_lenient_strict d : forall a, Agree false d a -> (NoStruct false d \/ NoStruct true a) -> Agree true d a.
Proof.
  induction d using ty_ind'; intros a A N; inversion A; subst; constructor; auto.
  - apply IHd; auto. destruct N as [N|N]; inversion N; auto.
  - intros _. destruct N as [N|N]; inversion N; subst; unfold nul; [left; now destruct n|right; now destruct n'].
  - assert (N' : Forall (NoStruct false) l \/ Forall (NoStruct true) l') by (destruct N as [N|N]; inversion N; auto).
    match goal with F : Forall2 _ _ l' |- _ => clear N A; revert l' F N' end. induction H as [|x l Hx F IH]; intros l' F2 N'; inversion F2; subst; constructor.
    + apply Hx; auto. destruct N' as [N'|N']; inversion N'; auto.
    + apply IH; auto. destruct N' as [N'|N']; inversion N'; auto.
  - apply IHd1; auto. destruct N as [N|N]; inversion N; auto.
  - apply IHd2; auto. destruct N as [N|N]; inversion N; auto.
Qed.

(** * Parameterised declarations *)
Lemma isMatch_declared d : Declared d -> forall a, Concrete a -> decides (isMatch d a) (Inst false d a).
Proof.
  assert (C : forall d, Concrete d -> forall a, Concrete a -> decides (isMatch d a) (Inst false d a)).
  { intros t Ct a Ca. eapply decides_iff; [|apply isMatch_concrete; eauto].
    split; [intros; now constructor|]. intros I. inversion I; subst; auto; inversion Ct. }
  induction d using ty_ind'; intros Dd a Ca; inversion Dd; subst; try (apply C; assumption).
  - (* literal *) cbn [isMatch]. destruct w; [apply decides_ok; split; [intros _; apply I_wild|reflexivity]|].
    destruct Ca; apply decides_no; intros I; inversion I; match goal with H : Concrete (TStrLit _ _ _) |- _ => inversion H end.
  - cbn [isMatch]. inversion Ca; subst; try (apply decides_no; intros A; inversion A; subst; match goal with H : Concrete _ |- _ => inversion H end; fail);
      try (apply decides_no; intros A; inversion A; subst; match goal with H : Agree _ _ _ |- _ => inversion H end; fail).
    apply decides_ok. rewrite nullMatch_nul. split; [intros; now constructor|intros I; inversion I; subst; auto]. inversion H.
  - cbn [isMatch]. inversion Ca; subst; apply decides_no; intros A; inversion A; subst; try discriminate;
      match goal with H : Concrete (PFixedBinary _ _) |- _ => inversion H end.
  - cbn [isMatch]. inversion Ca; subst; try (apply decides_no; intros A; inversion A; subst; match goal with H : Agree _ _ _ |- _ => inversion H end; fail).
    apply decides_ok. rewrite nullMatch_nul. split; [intros; now constructor|intros I; inversion I; subst; auto]. inversion H.
  - cbn [isMatch]. inversion Ca; subst; try (apply decides_no; intros A; inversion A; subst; match goal with H : Agree _ _ _ |- _ => inversion H end; fail).
    apply decides_ok. rewrite nullMatch_nul. split; [intros; now constructor|intros I; inversion I; subst; auto]. inversion H.
  - cbn [isMatch]. inversion Ca; subst; try (apply decides_no; intros A; inversion A; subst; match goal with H : Agree _ _ _ |- _ => inversion H end; fail).
    eapply decides_iff; [|apply decides_and; [apply IHd; eauto|apply decides_ok; apply nullMatch_nul]].
    split; [intros [? ?]; now constructor|intros I; inversion I; subst; auto].
    match goal with H : Agree _ _ _ |- _ => inversion H end.
  - rewrite isMatch_pstruct. inversion Ca; subst; try (apply decides_no; intros A; inversion A; subst; match goal with H : Agree _ _ _ |- _ => inversion H end; fail).
    destruct (length l0 =? length l) eqn:L.
    + apply Nat.eqb_eq in L. eapply decides_iff; [|apply decides_and; [apply (all2_decides (Inst false)); eauto|apply decides_ok; apply nullMatch_nul]].
      * split; [intros [? ?]; now constructor|intros I; inversion I; subst; auto].
        match goal with H : Agree _ _ _ |- _ => inversion H end.
      * rewrite Forall_forall in *. intros x I y Cy. apply H; auto.
    + apply decides_no. intros A. apply Nat.eqb_neq in L. inversion A; subst.
      * match goal with H : Agree _ _ _ |- _ => inversion H end.
      * match goal with H : Forall2 _ _ _ |- _ => apply Forall2_len in H end. congruence.
  - cbn [isMatch]. inversion Ca; subst; try (apply decides_no; intros A; inversion A; subst; match goal with H : Agree _ _ _ |- _ => inversion H end; fail).
    assert (D2 : decides (c <- isMatch d2 v ;; (if c then Ok (nullMatch n n0) else Ok false)) (Inst false d2 v /\ nul n n0)).
    { apply decides_and; [apply IHd2; eauto|apply decides_ok; apply nullMatch_nul]. }
    eapply decides_iff; [|apply decides_and; [apply IHd1; eauto|exact D2]].
    split; [intros (? & ? & ?); now constructor|intros I; inversion I; subst; auto].
    match goal with H : Agree _ _ _ |- _ => inversion H end.
Qed.

(** * Wildcard texts *)
Lemma scalar_not_any s : firstn 3 s = $"any" -> scalar_of s = None.
Proof.
  intros H. unfold scalar_of.
  repeat match goal with |- context[?x =s ?y] => let E := fresh in
    destruct (x =s y) eqn:E; [apply seq_eqb_eq in E; rewrite E in H; cbn in H; discriminate H|] end. reflexivity.
Qed.
(** Any name starting with [any] (in any case, with or without a question mark) is a wildcard. *)
Lemma decode_any m a s b : Forall ws a -> Forall ws b -> firstn 3 (to_lower s) = $"any" -> ~ In "<"%char s -> trim s = s ->
  decode m (a ++ s ++ b) = Ok (TStrLit s true false).
Proof.
  intros Ha Hb H NL T. rewrite decode_margins by assumption. rewrite decode_eq. cbv zeta. rewrite T.
  replace (find_first "<"%char (to_lower s)) with (@None nat).
  2:{ symmetry. apply find_first_none. intros I. apply NL. unfold to_lower in I. apply in_map_iff in I as (c & E & I).
      apply (proj1 (lower_fixed c "<"%char eq_refl)) in E. now subst c. }
  set (mt := to_lower s) in *. clearbody mt.
  destruct (match mt with [] => false | _ :: _ => ceq (last mt zero) "?"%char end) eqn:Q.
  - destruct (rfind_char "?"%char mt) as [i|] eqn:R.
    + assert (B : firstn 3 (substr 0 i mt) = $"any").
      { unfold substr. cbn [skipn]. rewrite firstn_firstn. apply rfind_split in R as (x & y & -> & L & Ny).
        destruct (Nat.le_gt_cases 3 i) as [G|G]; [now rewrite Nat.min_l by exact G|]. exfalso.
        assert (In "?"%char (firstn 3 (x ++ "?"%char :: y))).
        { subst i. destruct x as [|c1 [|c2 [|c3 x]]]; cbn in G |- *; auto. lia. }
        rewrite H in H0. cbn in H0. intuition discriminate. }
      rewrite (scalar_not_any _ B). unfold substr in *. cbn [skipn] in *. rewrite B, seq_eqb_refl. reflexivity.
    + rewrite (scalar_not_any _ H). unfold substr. cbn [skipn]. rewrite H, seq_eqb_refl. reflexivity.
  - rewrite (scalar_not_any _ H). unfold substr. cbn [skipn]. rewrite H, seq_eqb_refl. reflexivity.
Qed.
