From Verif Require Import Base BaseFacts StringsModel StringsFacts TypeModel TypeFacts.
From Coq Require Import Lia ZifyBool ZifyNat ZifyN.

(** * Specification: a type object with the text of its string literals in lower case. *)
Fixpoint fold_case (t : ty) : ty :=
  match t with
  | TStrLit v w p => TStrLit (to_lower v) w p
  | TList e n => TList (fold_case e) n
  | TStruct l n => TStruct (map fold_case l) n
  | TMap k v n => TMap (fold_case k) (fold_case v) n
  | PDecimal p s n => PDecimal (fold_case p) (fold_case s) n
  | PFixedBinary l n => PFixedBinary (fold_case l) n
  | PFixedChar l n => PFixedChar (fold_case l) n
  | PVarchar l n => PVarchar (fold_case l) n
  | PList e n => PList (fold_case e) n
  | PStruct l n => PStruct (map fold_case l) n
  | PMap k v n => PMap (fold_case k) (fold_case v) n
  | _ => t
  end.
Definition fold_out (o : outcome ty) : outcome ty :=
  match o with Ok t => Ok (fold_case t) | Throw e => Throw e | UB => UB end.

(** * Lower-casing commutes with the text operations *)
Lemma lower_code c : code (lower c) = if is_upper c then (code c + 32)%N else code c.
Proof. unfold lower, is_upper. destruct (_ && _)%bool eqn:E; [apply code_of_N; lia|reflexivity]. Qed.
Lemma lower_fixed c d : is_alpha d = false -> lower c = d <-> c = d.
Proof.
  intros H. unfold is_alpha, is_upper, is_lower in H. split.
  - intros E. apply code_inj. apply (f_equal code) in E. rewrite lower_code in E.
    unfold is_upper in E. destruct ((65 <=? code c) && (code c <=? 90))%N eqn:U; lia.
  - intros ->. unfold lower, is_upper. replace ((65 <=? code d) && (code d <=? 90))%N with false by lia. reflexivity.
Qed.
Lemma ceq_lower c d : is_alpha d = false -> ceq (lower c) d = ceq c d.
Proof.
  intros H. destruct (ceq c d) eqn:E.
  - apply ceq_true in E. subst c. apply ceq_true. now apply lower_fixed.
  - destruct (ceq (lower c) d) eqn:E'; [|reflexivity]. apply ceq_true in E'. apply (proj1 (lower_fixed c d H)) in E'.
    subst c. now rewrite ceq_refl in E.
Qed.
Lemma ceq_lower_r c d : is_alpha c = false -> ceq c (lower d) = ceq c d.
Proof.
  intros H. transitivity (ceq (lower d) c); [|transitivity (ceq d c)].
  - destruct (ceq c (lower d)) eqn:E, (ceq (lower d) c) eqn:E'; auto.
    + apply ceq_true in E. rewrite <- E, ceq_refl in E'. discriminate.
    + apply ceq_true in E'. rewrite E', ceq_refl in E. discriminate.
  - now apply ceq_lower.
  - destruct (ceq c d) eqn:E, (ceq d c) eqn:E'; auto.
    + apply ceq_true in E. subst d. rewrite ceq_refl in E'. discriminate.
    + apply ceq_true in E'. subst d. rewrite ceq_refl in E. discriminate.
Qed.
Lemma ws_lower c : ws (lower c) <-> ws c.
Proof.
  unfold ws. rewrite lower_code. unfold is_upper. destruct ((65 <=? code c) && (code c <=? 90))%N eqn:U; [|reflexivity].
  simpl. lia.
Qed.
Lemma Forall_ws_lower a : Forall ws a -> Forall ws (to_lower a).
Proof. induction 1; simpl; constructor; auto. now apply ws_lower. Qed.
Lemma to_lower_cons c s : to_lower (c :: s) = lower c :: to_lower s.
Proof. reflexivity. Qed.
Lemma to_lower_inv_cons s d r : to_lower s = d :: r -> exists c s', s = c :: s' /\ lower c = d /\ to_lower s' = r.
Proof. destruct s as [|c s']; [discriminate|]. intros [= <- <-]. eauto. Qed.
Lemma to_lower_inv_app s a b : to_lower s = a ++ b -> exists x y, s = x ++ y /\ to_lower x = a /\ to_lower y = b.
Proof.
  revert s. induction a as [|d a IH]; intros s E; cbn [app] in E.
  - exists [], s. auto.
  - apply to_lower_inv_cons in E as (c & s' & -> & <- & E). destruct (IH s' E) as (x & y & -> & <- & <-).
    exists (c :: x), y. auto.
Qed.
Lemma trim_lower s : trim (to_lower s) = to_lower (trim s).
Proof.
  apply trimmed_unique. destruct (trim_trimmed s) as (a & b & E & Ha & Hb & H1 & H2).
  exists (to_lower a), (to_lower b). repeat split.
  - rewrite E at 1. rewrite !to_lower_app. reflexivity.
  - now apply Forall_ws_lower.
  - now apply Forall_ws_lower.
  - intros c r Ec. apply to_lower_inv_cons in Ec as (c' & r' & Et & <- & _). rewrite ws_lower. eapply H1; eauto.
  - intros c r Ec. apply to_lower_inv_app in Ec as (x & y & Et & _ & Ey).
    destruct y as [|c' [|]]; try discriminate Ey. injection Ey as <-. rewrite ws_lower. eapply H2; eauto.
Qed.
Lemma split_tokens_lower s : forall cnt, split_tokens cnt (to_lower s) =
  (to_lower (fst (split_tokens cnt s)), map to_lower (snd (split_tokens cnt s))).
Proof.
  induction s as [|c s IH]; intros cnt; [reflexivity|]. rewrite to_lower_cons. cbn [split_tokens].
  rewrite !ceq_lower by reflexivity.
  destruct (ceq c "<"%char); [|destruct (ceq c ">"%char); [|destruct ((cnt =? 0)%Z && ceq c ","%char)]];
    rewrite IH; destruct (split_tokens _ s); reflexivity.
Qed.
Lemma rfind_lower c s : is_alpha c = false -> rfind_char c (to_lower s) = rfind_char c s.
Proof.
  intros H. induction s as [|d s IH]; [reflexivity|]. rewrite to_lower_cons. cbn [rfind_char].
  rewrite IH, ceq_lower_r by exact H. reflexivity.
Qed.
Lemma to_lower_firstn n s : firstn n (to_lower s) = to_lower (firstn n s).
Proof. apply firstn_map. Qed.
Lemma to_lower_skipn n s : skipn n (to_lower s) = to_lower (skipn n s).
Proof. apply skipn_map. Qed.
Lemma cut_last_lower s : cut_last (to_lower s) = to_lower (cut_last s).
Proof.
  unfold cut_last. rewrite rfind_lower by reflexivity. destruct (rfind_char _ s); [apply to_lower_firstn|reflexivity].
Qed.
Lemma tokens_lower ts : forall t, tokens_of (to_lower t) (map to_lower ts) = map to_lower (tokens_of t ts).
Proof. induction ts as [|u us IH]; intros t; cbn [tokens_of map]; [now rewrite cut_last_lower|]. now rewrite IH. Qed.
Lemma is_digit_lower c : is_digit (lower c) = is_digit c.
Proof. unfold is_digit. rewrite lower_code. unfold is_upper. destruct ((65 <=? code c) && (code c <=? 90))%N eqn:U; lia. Qed.
Lemma digits_lower s : forallb is_digit (to_lower s) = forallb is_digit s.
Proof. induction s as [|c s IH]; [reflexivity|]. rewrite to_lower_cons. simpl. now rewrite is_digit_lower, IH. Qed.
Lemma digits_lower_id s : forallb is_digit s = true -> to_lower s = s.
Proof.
  induction s as [|c s IH]; [reflexivity|]. simpl. rewrite andb_true_iff. intros [H1 H2]. rewrite IH by exact H2. f_equal.
  unfold lower, is_upper, is_digit in *. destruct ((65 <=? code c) && (code c <=? 90))%N eqn:U; [exfalso; lia|reflexivity].
Qed.
Lemma nonneg_lower s : isNonNegativeInteger (to_lower s) = isNonNegativeInteger s.
Proof. unfold isNonNegativeInteger. destruct s; [reflexivity|]. apply digits_lower. Qed.
Lemma isInteger_lower s : isInteger (to_lower s) = isInteger s.
Proof.
  unfold isInteger. rewrite nonneg_lower. f_equal. unfold isNegativeInteger. rewrite to_lower_length.
  destruct s as [|c s]; [reflexivity|]. rewrite to_lower_cons, ceq_lower, nonneg_lower by reflexivity. reflexivity.
Qed.
Lemma nonneg_same v v' : to_lower v = to_lower v' -> isNonNegativeInteger v = true -> v = v'.
Proof.
  intros E H. assert (H' : isNonNegativeInteger v' = true) by (rewrite <- nonneg_lower, <- E, nonneg_lower; exact H).
  assert (D : forall x, isNonNegativeInteger x = true -> to_lower x = x).
  { intros [|c x]; [reflexivity|]. intros Hx. now apply digits_lower_id. }
  rewrite (D v H), (D v' H') in E. exact E.
Qed.
Lemma fmt_ok_lower s : fmt_ok (to_lower s) = fmt_ok s.
Proof.
  enough (H : forall n s, length s <= n -> fmt_ok (to_lower s) = fmt_ok s) by (apply (H (length s)); lia).
  induction n as [|n IH]; intros x L.
  - destruct x; [reflexivity|simpl in L; lia].
  - destruct x as [|c [|d x]]; [reflexivity| |].
    + cbn. rewrite !ceq_lower by reflexivity. reflexivity.
    + assert (Q : forall c r, fmt_ok (c :: r) =
        if ceq c "{"%char then match r with d :: r' => ceq d "{"%char && fmt_ok r' | [] => false end
        else if ceq c "}"%char then match r with d :: r' => ceq d "}"%char && fmt_ok r' | [] => false end
        else fmt_ok r) by reflexivity.
      rewrite to_lower_cons, (Q (lower c)), (Q c), (IH (d :: x)) by (simpl in *; lia).
      rewrite to_lower_cons, !ceq_lower, (IH x) by (reflexivity || (simpl in *; lia)). reflexivity.
Qed.

(** * Construction depends on nested types only up to case *)
Lemma fold_cast_strlit t t' : fold_case t = fold_case t' -> fold_case (cast_strlit t) = fold_case (cast_strlit t').
Proof. destruct t, t'; cbn [fold_case cast_strlit]; intros E; try discriminate E; auto. Qed.
Lemma fold_cast_type t t' : fold_case t = fold_case t' -> fold_case (cast_type t) = fold_case (cast_type t').
Proof. destruct t, t'; cbn [fold_case cast_type]; intros E; try discriminate E; auto. Qed.
Lemma fold_strlit_inv v w p t : fold_case (TStrLit v w p) = fold_case t ->
  exists v', t = TStrLit v' w p /\ to_lower v = to_lower v'.
Proof. destruct t; cbn [fold_case]; intros E; try discriminate E. injection E as E -> ->. eauto. Qed.

Lemma decodeLength_fold P T m n l l' :
  (forall a a', fold_case a = fold_case a' -> fold_case (P a n) = fold_case (P a' n)) ->
  map fold_case l = map fold_case l' -> fold_out (decodeLength P T m n l) = fold_out (decodeLength P T m n l').
Proof.
  intros HP E. destruct l as [|x l], l' as [|x' l']; try discriminate E; [reflexivity|].
  injection E as Ex _. unfold decodeLength. cbv zeta.
  pose proof (fold_cast_strlit _ _ Ex) as C. destruct m; [cbn [fold_out]; f_equal; auto|].
  destruct x, x'; try discriminate Ex; try reflexivity.
  cbn [cast_strlit fold_case] in *. injection Ex as Ev -> ->.
  assert (I : isNonNegativeInteger value = isNonNegativeInteger value0) by (rewrite <- nonneg_lower, Ev; apply nonneg_lower).
  rewrite <- I. destruct (isNonNegativeInteger value) eqn:N; [|reflexivity].
  now rewrite (nonneg_same _ _ Ev N).
Qed.

Lemma build_fold m n raw raw' base l l' :
  fmt_ok raw = fmt_ok raw' -> map fold_case l = map fold_case l' ->
  fold_out (build m n raw base l) = fold_out (build m n raw' base l').
Proof.
  intros Hf E. unfold build.
  assert (C : forall x x', fold_case x = fold_case x' -> fold_case (cast_type x) = fold_case (cast_type x'))
    by (intros; now apply fold_cast_type).
  destruct (base =s $"list").
  { destruct l as [|x l], l' as [|x' l']; try discriminate E; [reflexivity|]. injection E as Ex _.
    destruct m; cbn [fold_out fold_case]; do 2 f_equal; auto. }
  destruct (base =s $"map").
  { destruct m.
    - destruct l as [|x [|y l]], l' as [|x' [|y' l']]; try discriminate E; cbn [fold_out fold_case]; try reflexivity.
      + injection E as Ex. now rewrite Ex.
      + injection E as Ex Ey _. now rewrite Ex, Ey.
    - destruct l as [|x [|y l]], l' as [|x' [|y' l']]; try discriminate E; cbn [fold_out fold_case]; try reflexivity.
      injection E as Ex Ey _. now rewrite (C _ _ Ex), (C _ _ Ey). }
  destruct (base =s $"struct").
  { destruct m; cbn [fold_out fold_case].
    - now rewrite E.
    - do 2 f_equal. rewrite !map_map. clear Hf. revert l' E. induction l as [|x l IH]; intros [|x' l'] E; try discriminate E; [reflexivity|].
      injection E as Ex El. cbn [map]. f_equal; auto. }
  destruct (base =s $"decimal").
  { destruct l as [|x [|y [|z l]]], l' as [|x' [|y' [|z' l']]]; try discriminate E; try reflexivity.
    injection E as Ex Ey. cbv zeta.
    pose proof (fold_cast_strlit _ _ Ex) as Cx. pose proof (fold_cast_strlit _ _ Ey) as Cy.
    destruct m; [cbn [fold_out fold_case]; congruence|].
    destruct x, x'; try discriminate Ex; try reflexivity.
    cbn [cast_strlit fold_case] in *. injection Ex as Ev -> ->.
    assert (I : isNonNegativeInteger value = isNonNegativeInteger value0) by (rewrite <- nonneg_lower, Ev; apply nonneg_lower).
    rewrite <- I. destruct (isNonNegativeInteger value) eqn:N; [|reflexivity].
    destruct y, y'; try discriminate Ey; try reflexivity.
    cbn [cast_strlit fold_case] in *. injection Ey as Ew -> ->.
    assert (I' : isNonNegativeInteger value1 = isNonNegativeInteger value2) by (rewrite <- nonneg_lower, Ew; apply nonneg_lower).
    rewrite <- I'. destruct (isNonNegativeInteger value1) eqn:N'; [|reflexivity].
    now rewrite (nonneg_same _ _ Ev N), (nonneg_same _ _ Ew N'). }
  destruct (base =s $"varchar"); [apply decodeLength_fold; [cbn [fold_case]; congruence|exact E]|].
  destruct (base =s $"fixedchar"); [apply decodeLength_fold; [cbn [fold_case]; congruence|exact E]|].
  destruct (base =s $"fixedbinary"); [apply decodeLength_fold; [cbn [fold_case]; congruence|exact E]|].
  now rewrite Hf.
Qed.

Lemma omap_fold m l : Forall (fun x => fold_out (decode m (to_lower x)) = fold_out (decode m x)) l ->
  match omap (decode m) (map to_lower l), omap (decode m) l with
  | Ok a, Ok b => map fold_case a = map fold_case b
  | Throw e, Throw e' => e = e'
  | UB, UB => True
  | _, _ => False
  end.
Proof.
  induction 1 as [|x l H F IH]; cbn [omap map]; [reflexivity|].
  destruct (decode m (to_lower x)), (decode m x); cbn [fold_out obind] in *; try discriminate H; auto.
  - destruct (omap (decode m) (map to_lower l)), (omap (decode m) l); cbn [obind]; auto.
    cbn [map]. congruence.
  - congruence.
Qed.

Lemma decode_lower m v : fold_out (decode m (to_lower v)) = fold_out (decode m v).
Proof.
  induction v as [v IH] using length_ind. rewrite !decode_eq. cbv zeta.
  rewrite trim_lower, to_lower_idem.
  destruct (find_first "<"%char (to_lower (trim v))) as [l|] eqn:F.
  - unfold substr_from. rewrite to_lower_skipn, split_tokens_lower.
    destruct (split_tokens 0 (skipn (l + 1) (trim v))) as [t ts] eqn:S. cbn [fst snd].
    rewrite tokens_lower.
    pose proof (token_bound _ _ _ _ F S) as B. pose proof (trim_length v) as TL.
    pose proof (omap_fold m (tokens_of t ts)) as O.
    assert (Fa : Forall (fun x => fold_out (decode m (to_lower x)) = fold_out (decode m x)) (tokens_of t ts)).
    { eapply Forall_impl; [|exact B]. simpl. intros x Hx. apply IH. lia. }
    specialize (O Fa).
    destruct (omap (decode m) (map to_lower (tokens_of t ts))), (omap (decode m) (tokens_of t ts));
      cbn [obind fold_out]; try contradiction; try congruence.
    apply build_fold; [apply fmt_ok_lower|exact O].
  - destruct (scalar_of _); [reflexivity|]. cbn [fold_out fold_case].
    rewrite isInteger_lower, to_lower_idem. reflexivity.
Qed.
Lemma decode_case m s s' : to_lower s = to_lower s' -> fold_out (decode m s) = fold_out (decode m s').
Proof. intros E. rewrite <- (decode_lower m s), E. apply decode_lower. Qed.

(** Concrete results contain no literal text. *)
Definition has_text (t : ty) : bool := match t with TStrLit _ _ _ => true | _ => false end.

Lemma decode_false_fixed v : forall t, decode false v = Ok t -> has_text t = false -> fold_case t = t.
Proof.
  induction v as [v IH] using length_ind. intros t. rewrite decode_eq. cbv zeta.
  destruct (find_first "<"%char (to_lower (trim v))) as [l|] eqn:F.
  - destruct (split_tokens 0 (substr_from (l + 1) (trim v))) as [t0 ts] eqn:S.
    pose proof (token_bound _ _ _ _ F S) as B. pose proof (trim_length v) as TL.
    pose proof (omap_spec (decode false) (tokens_of t0 ts)) as O.
    destruct (omap (decode false) (tokens_of t0 ts)) as [ys|e|]; cbn [obind]; try discriminate.
    assert (Fx : Forall (fun y => fold_case (cast_type y) = cast_type y) ys).
    { clear F S. revert B. induction O as [|x y xs ys E O IHO]; intros B; [constructor|].
      inversion B; subst. constructor; [|auto].
      destruct (has_text y) eqn:T; [destruct y; try discriminate T; reflexivity|].
      assert (fold_case y = y) by (apply (IH x); [lia|exact E|exact T]).
      destruct y; try reflexivity; exact H. }
    unfold build, decodeLength. intros H Ht.
    repeat match type of H with
    | (if ?b then _ else _) = _ => destruct b
    | match ?x with _ => _ end = _ => destruct x
    | obind ?o _ = _ => destruct o; cbn [obind] in H
    end; try discriminate H; injection H as <-; try reflexivity; cbn [fold_case].
    + inversion Fx; subst. congruence.
    + inversion Fx as [|? ? ? Fx']; subst. inversion Fx'; subst. congruence.
    + f_equal. clear O. rewrite map_map. apply map_ext_in. rewrite Forall_forall in Fx. auto.
  - destruct (scalar_of _); intros [= <-]; [reflexivity|discriminate].
Qed.

Lemma decode_case_concrete s s' t : to_lower s = to_lower s' -> decode false s = Ok t -> has_text t = false ->
  decode false s' = Ok t.
Proof.
  intros E D T. pose proof (decode_case false s s' E) as C. rewrite D in C. cbn [fold_out] in C.
  destruct (decode false s') as [t'|e|] eqn:D'; cbn [fold_out] in C; try discriminate C.
  injection C as C. assert (T' : has_text t' = false).
  { destruct t', t; try reflexivity; try discriminate. }
  rewrite (decode_false_fixed s t D T) in C. rewrite (decode_false_fixed s' t' D' T') in C. congruence.
Qed.

(** In parameterised decoding: when all literal text is without letters. *)
Fixpoint lettered (t : ty) : bool :=
  match t with
  | TStrLit v _ _ => existsb is_alpha v
  | TList e _ | PList e _ => lettered e
  | TStruct l _ | PStruct l _ => existsb lettered l
  | TMap k v _ | PMap k v _ => lettered k || lettered v
  | PDecimal p s _ => lettered p || lettered s
  | PFixedBinary l _ | PFixedChar l _ | PVarchar l _ => lettered l
  | _ => false
  end.
Lemma to_lower_letterless s : forall s', existsb is_alpha s = false -> to_lower s = to_lower s' -> s = s'.
Proof.
  induction s as [|c s IH]; intros [|c' s'] H E; try discriminate E; [reflexivity|].
  cbn [existsb] in H. apply orb_false_iff in H as [H1 H2]. injection E as E1 E2. f_equal; [|auto].
  assert (Hl : lower c = c) by (now apply lower_fixed). rewrite Hl in E1. symmetry in E1.
  apply (proj1 (lower_fixed _ _ H1)) in E1. congruence.
Qed.
Fixpoint fold_letterless (t t' : ty) {struct t} : lettered t = false -> fold_case t = fold_case t' -> t = t'.
Proof.
  destruct t, t'; cbn [lettered fold_case]; intros H E; try discriminate E; try reflexivity; try (injection E; intros; subst; reflexivity);
    try (apply orb_false_iff in H as [H1 H2]).
  - injection E as E ->. now rewrite (fold_letterless t t' H E).
  - injection E as E ->. f_equal. revert l0 E. revert H. induction l as [|x l IH]; intros H [|x' l0] E; try discriminate E; [reflexivity|].
    cbn [existsb] in H. apply orb_false_iff in H as [H1 H2]. injection E as E1 E2. f_equal; [exact (fold_letterless x x' H1 E1)|].
    apply IH; auto.
  - injection E as E1 E2 ->. now rewrite (fold_letterless t1 t'1 H1 E1), (fold_letterless t2 t'2 H2 E2).
  - injection E as E -> ->. now rewrite (to_lower_letterless value value0 H E).
  - injection E as E1 E2 ->. now rewrite (fold_letterless t1 t'1 H1 E1), (fold_letterless t2 t'2 H2 E2).
  - injection E as E ->. now rewrite (fold_letterless t t' H E).
  - injection E as E ->. now rewrite (fold_letterless t t' H E).
  - injection E as E ->. now rewrite (fold_letterless t t' H E).
  - injection E as E ->. now rewrite (fold_letterless t t' H E).
  - injection E as E ->. f_equal. revert l0 E. revert H. induction l as [|x l IH]; intros H [|x' l0] E; try discriminate E; [reflexivity|].
    cbn [existsb] in H. apply orb_false_iff in H as [H1 H2]. injection E as E1 E2. f_equal; [exact (fold_letterless x x' H1 E1)|].
    apply IH; auto.
  - injection E as E1 E2 ->. now rewrite (fold_letterless t1 t'1 H1 E1), (fold_letterless t2 t'2 H2 E2).
Qed.
Lemma decode_case_param m s s' t : to_lower s = to_lower s' -> decode m s = Ok t -> lettered t = false ->
  decode m s' = Ok t.
Proof.
  intros E D T. pose proof (decode_case m s s' E) as C. rewrite D in C. cbn [fold_out] in C.
  destruct (decode m s') as [t'|e|]; cbn [fold_out] in C; try discriminate C. injection C as C.
  now rewrite (fold_letterless t t' T C).
Qed.
