(** Facts about floating point numbers in texts: the printed number is the nearest one with six digits, the number read is the nearest one of its format. *)
From Verif Require Import Base BaseFacts LexModel LexFacts FloatModel.
From Coq Require Import ZArith QArith Qabs Qpower Lqa Lia.
Local Open Scope Q_scope.

(** * Specification *)
Definition Qn (n : N) : Q := inject_Z (Z.of_N n).
(** The number written with the significand [m] and the exponent [k] to the base [b] *)
Definition scaled (b : Q) (m : N) (k : Z) : Q := Qn m * b ^ k.
(** [m] units of [b^k] are the nearest to [q]; of two that are as near the even one. *)
Definition Near (b q : Q) (m : N) (k : Z) : Prop :=
  Qabs (scaled b m k - q) <= (1 # 2) * b ^ k /\ (Qabs (scaled b m k - q) == (1 # 2) * b ^ k -> N.even m = true).
(** The unit of the last of six digits of [q] *)
Definition Decade (q : Q) (y : Z) : Prop := scaled 10 100000 y <= q /\ q < scaled 10 1000000 y.
Definition SixRound (q p : Q) : Prop := exists r y, Decade q y /\ p == scaled 10 r y /\ Near 10 q r y.
Definition SixDigits (q : Q) : Prop := exists r y, (r < 1000000)%N /\ q == scaled 10 r y.
(** The numbers of a format, and the unit of the last bit of [q] *)
Definition Representable (f : format) (q : Q) : Prop :=
  exists m k, (m < 2 ^ Z.to_N (bits f))%N /\ (e_min f <= k <= e_max f)%Z /\ q == scaled 2 m k.
Definition Unit (f : format) (q : Q) (k : Z) : Prop :=
  q < 2 ^ (bits f + k) /\ (k = e_min f \/ (e_min f <= k)%Z /\ 2 ^ (bits f - 1 + k) <= q).
Definition Rounded (f : format) (q p : Q) : Prop := exists m k, Unit f q k /\ p == scaled 2 m k /\ Near 2 q m k.
(** From here on numbers are too large. *)
Definition limit (f : format) : Q := (Qn (2 ^ Z.to_N (bits f)) - (1 # 2)) * 2 ^ e_max f.
Definition proper (f : format) : Prop := (1 <= bits f)%Z /\ (e_min f <= e_max f)%Z.
(** The value of the text of a number *)
Definition fraction_text (f : str) : str := match f with [] => [] | _ => "."%char :: f end.
Inductive Power : str -> Z -> Prop :=
| PW_none : Power [] 0
| PW_plus c ds : lower c = "e"%char -> some_ is_digit ds -> Power (c :: "+"%char :: ds) (Z.of_N (digits_val 0 ds))
| PW_minus c ds : lower c = "e"%char -> some_ is_digit ds -> Power (c :: "-"%char :: ds) (- Z.of_N (digits_val 0 ds)).
Inductive Denotes : str -> bool -> Q -> Prop :=
| DN neg i f p x q : some_ is_digit i -> all_ is_digit f -> Power p x -> q == scaled 10 (digits_val 0 (i ++ f)) (x - Z.of_nat (length f)) ->
    Denotes (sign neg ++ i ++ fraction_text f ++ p) neg q.
(** Numbers as the model has them: without trailing zeros *)
Definition Normal (d : N) (e : Z) : Prop := d = 0%N /\ e = 0%Z \/ (d mod 10 <> 0)%N.

(** * Powers *)
Lemma two0 : ~ 2 == 0. Proof. discriminate. Qed.
Lemma ten0 : ~ 10 == 0. Proof. discriminate. Qed.
Lemma pow2 k : 0 < 2 ^ k. Proof. apply Qpower_0_lt. reflexivity. Qed.
Lemma pow10 k : 0 < 10 ^ k. Proof. apply Qpower_0_lt. reflexivity. Qed.
Lemma pow_N b n : Qn (b ^ n) == Qn b ^ Z.of_N n.
Proof. unfold Qn. rewrite N2Z.inj_pow. apply Zpower_Qpower. lia. Qed.
Lemma Qn_mult a b : Qn (a * b) == Qn a * Qn b.
Proof. unfold Qn. rewrite N2Z.inj_mul. rewrite inject_Z_mult. reflexivity. Qed.
Lemma Qn_plus a b : Qn (a + b) == Qn a + Qn b.
Proof. unfold Qn. rewrite N2Z.inj_add. rewrite inject_Z_plus. reflexivity. Qed.
Lemma Qn_le a b : Qn a <= Qn b <-> (a <= b)%N.
Proof. unfold Qn. rewrite <- Zle_Qle. lia. Qed.
Lemma Qn_lt a b : Qn a < Qn b <-> (a < b)%N.
Proof. unfold Qn. rewrite <- Zlt_Qlt. lia. Qed.
Lemma Qn_eq a b : Qn a == Qn b <-> a = b.
Proof. unfold Qn. rewrite inject_Z_injective. lia. Qed.
Lemma Qn_pos a : 0 <= Qn a.
Proof. change 0 with (Qn 0). apply Qn_le. lia. Qed.
Lemma pow2_le j k : (j <= k)%Z -> 2 ^ j <= 2 ^ k.
Proof. intros H. apply Qpower_le_compat_l; [exact H|discriminate]. Qed.
Lemma pow10_le j k : (j <= k)%Z -> 10 ^ j <= 10 ^ k.
Proof. intros H. apply Qpower_le_compat_l; [exact H|discriminate]. Qed.
Lemma pow2_add j k : 2 ^ (j + k) == 2 ^ j * 2 ^ k. Proof. apply Qpower_plus, two0. Qed.
Lemma pow10_add j k : 10 ^ (j + k) == 10 ^ j * 10 ^ k. Proof. apply Qpower_plus, ten0. Qed.
Lemma pow2_N k : (0 <= k)%Z -> Qn (2 ^ Z.to_N k) == 2 ^ k.
Proof. intros H. rewrite pow_N. rewrite Z2N.id by exact H. reflexivity. Qed.
Lemma pow10_N k : (0 <= k)%Z -> Qn (10 ^ Z.to_N k) == 10 ^ k.
Proof. intros H. rewrite pow_N. rewrite Z2N.id by exact H. reflexivity. Qed.
Lemma pow2_opp k : 2 ^ (- k) * 2 ^ k == 1.
Proof. rewrite <- pow2_add. replace (- k + k)%Z with 0%Z by lia. reflexivity. Qed.
Lemma pow10_opp k : 10 ^ (- k) * 10 ^ k == 1.
Proof. rewrite <- pow10_add. replace (- k + k)%Z with 0%Z by lia. reflexivity. Qed.
Lemma scaled_pos b m k : 0 < b -> 0 <= scaled b m k.
Proof. intros Hb. unfold scaled. apply Qmult_le_0_compat; [apply Qn_pos|]. apply Qpower_0_le. apply Qlt_le_weak, Hb. Qed.

(** * Nearest integers *)
Lemma round_div_spec n d : (0 < d)%N -> (2 * Z.abs (Z.of_N (round_div n d) * Z.of_N d - Z.of_N n) <= Z.of_N d)%Z /\
  ((2 * Z.abs (Z.of_N (round_div n d) * Z.of_N d - Z.of_N n) = Z.of_N d)%Z -> N.even (round_div n d) = true).
Proof.
  intros Hd. unfold round_div. pose proof (N.div_mod n d ltac:(lia)) as E. pose proof (N.mod_lt n d ltac:(lia)) as L.
  set (q := (n / d)%N) in *. set (r := (n mod d)%N) in *. clearbody q r. subst n. rewrite N2Z.inj_add, N2Z.inj_mul.
  destruct (N.compare_spec (2 * r) d) as [H | H | H]; cycle 1.
  - split; [nia|]. intros X. nia.
  - rewrite N2Z.inj_add. split; [nia|]. intros X. nia.
  - destruct (N.even q) eqn:Eq.
    + split; [nia|]. intros _. exact Eq.
    + rewrite N2Z.inj_add. split; [nia|]. intros _. rewrite N.add_1_r, N.even_succ, <- N.negb_even, Eq. reflexivity.
Qed.
Lemma near_of b q n d k c : 0 < b -> (0 < d)%N -> 0 < c -> c * Qn d == b ^ k -> c * Qn n == q -> Near b q (round_div n d) k.
Proof.
  intros Hb Hd Hc Ed En. destruct (round_div_spec n d Hd) as [H1 H2]. set (r := round_div n d) in *. clearbody r.
  assert (E : Qabs (scaled b r k - q) == c * inject_Z (Z.abs (Z.of_N r * Z.of_N d - Z.of_N n))).
  { transitivity (Qabs (c * inject_Z (Z.of_N r * Z.of_N d - Z.of_N n))); [|rewrite Qabs_Qmult, (Qabs_pos c) by (apply Qlt_le_weak, Hc); reflexivity]. apply Qabs_wd.
    unfold scaled. rewrite <- Ed, <- En. unfold Zminus. rewrite inject_Z_plus, inject_Z_opp, inject_Z_mult. fold (Qn r) (Qn d) (Qn n). ring. }
  set (a := Z.abs _) in *. clearbody a. assert (E2 : (1 # 2) * b ^ k == c * ((1 # 2) * Qn d)) by (rewrite <- Ed; ring). split.
  - rewrite E, E2. apply Qmult_le_l; [exact Hc|]. assert (X : inject_Z (2 * a) <= Qn d) by (unfold Qn; rewrite <- Zle_Qle; exact H1). rewrite inject_Z_mult in X. change (inject_Z 2) with 2 in X. lra.
  - rewrite E, E2. intros X. apply Qmult_inj_l in X; [|intros Y; rewrite Y in Hc; discriminate]. apply H2. apply inject_Z_injective. rewrite inject_Z_mult. change (inject_Z 2) with 2. fold (Qn d). lra.
Qed.
Lemma near_exact b q m k : 0 < b -> q == scaled b m k -> Near b q m k.
Proof.
  intros Hb E. assert (Z0 : Qabs (scaled b m k - q) == 0) by (rewrite E; transitivity (Qabs 0); [apply Qabs_wd; ring|reflexivity]).
  pose proof (Qpower_0_lt b k Hb) as P. split; [rewrite Z0; lra|]. rewrite Z0. intros X. lra.
Qed.
Lemma near_bounds b q m k : Near b q m k -> q - (1 # 2) * b ^ k <= scaled b m k /\ scaled b m k <= q + (1 # 2) * b ^ k.
Proof. intros [H _]. apply Qabs_Qle_condition in H. lra. Qed.
(** Any other multiple of the unit is at least as far away. *)
Lemma near_multiple b q m k j : 0 < b -> Near b q m k -> Qabs (scaled b m k - q) <= Qabs (inject_Z j * b ^ k - q).
Proof.
  intros Hb H. pose proof (Qpower_0_lt b k Hb) as P. destruct (Z.eq_dec j (Z.of_N m)) as [-> | Hj]; [apply Qle_refl|].
  destruct H as [H _]. apply Qle_trans with ((1 # 2) * b ^ k); [exact H|]. apply Qabs_Qle_condition in H. unfold scaled, Qn in *.
  assert (X : inject_Z j + 1 <= inject_Z (Z.of_N m) \/ inject_Z (Z.of_N m) + 1 <= inject_Z j).
  { change 1 with (inject_Z 1). rewrite <- !inject_Z_plus, <- !Zle_Qle. lia. }
  set (J := inject_Z j) in *. set (M := inject_Z (Z.of_N m)) in *. set (B := b ^ k) in *. clearbody J M B.
  destruct X as [X | X]; apply (Qmult_le_compat_r _ _ B) in X; try lra; apply Qabs_case; intros Y; lra.
Qed.
Lemma near_unique b q m m' k : 0 < b -> Near b q m k -> Near b q m' k -> m = m'.
Proof.
  intros Hb [H1 H2] [H1' H2']. pose proof (Qpower_0_lt b k Hb) as P. unfold scaled in *.
  assert (X : Qabs (Qn m - Qn m') <= 1).
  { apply Qabs_Qle_condition in H1. apply Qabs_Qle_condition in H1'. apply Qabs_Qle_condition. split; apply (Qmult_le_r _ _ (b ^ k) P); lra. }
  destruct (N.eq_dec m m') as [E | Hne]; [exact E|exfalso].
  assert (Y : Qn m == Qn m' + 1 \/ Qn m' == Qn m + 1).
  { assert (Z : (m = m' + 1 \/ m' = m + 1)%N).
    { apply Qabs_Qle_condition in X as [X1 X2]. assert (X1' : Qn m' <= Qn (m + 1)) by (rewrite Qn_plus; change (Qn 1) with 1; lra). assert (X2' : Qn m <= Qn (m' + 1)) by (rewrite Qn_plus; change (Qn 1) with 1; lra).
      apply Qn_le in X1', X2'. lia. }
    destruct Z as [-> | ->]; rewrite Qn_plus; change (Qn 1) with 1; [left|right]; reflexivity. }
  assert (Ev : N.even m = true /\ N.even m' = true).
  { apply Qabs_Qle_condition in H1. apply Qabs_Qle_condition in H1'. split; [apply H2|apply H2']; destruct Y as [Y | Y]; rewrite Y in *; apply Qabs_case; intros Z; lra. }
  destruct Ev as [Ev Ev']. assert (Z : (m = m' + 1 \/ m' = m + 1)%N).
  { destruct Y as [Y | Y]; [left|right]; apply Qn_eq; rewrite Qn_plus; change (Qn 1) with 1; exact Y. }
  destruct Z as [-> | ->]; rewrite N.add_1_r, N.even_succ, <- N.negb_even in *; [rewrite Ev' in Ev|rewrite Ev in Ev']; discriminate.
Qed.
(** Nearest among the numbers with significands below [b^p]: finer ones are below the range of [q]. *)
Lemma grid b p q m k m' k' : 1 < b -> (exists c, b == inject_Z c) -> Near b q m k -> (k <= k')%Z \/ b ^ (p - 1 + k) <= q -> (1 <= p)%Z -> Qn m' < b ^ p ->
  Qabs (scaled b m k - q) <= Qabs (scaled b m' k' - q).
Proof.
  intros Hb (c & Hc) H Hk Hp Hm. assert (Hb0 : 0 < b) by lra. assert (Hbn : ~ b == 0) by (intros X; rewrite X in Hb0; discriminate).
  assert (Hmul : (k <= k')%Z -> Qabs (scaled b m k - q) <= Qabs (scaled b m' k' - q)).
  { intros Hle. assert (E : scaled b m' k' == inject_Z (Z.of_N m' * c ^ (k' - k)) * b ^ k).
    { unfold scaled. replace k' with ((k' - k) + k)%Z at 1 by lia. rewrite (Qpower_plus b (k' - k) k Hbn), inject_Z_mult, Zpower_Qpower by lia. rewrite <- Hc. unfold Qn. ring. }
    rewrite E. apply near_multiple; assumption. }
  destruct (Z_le_gt_dec k k') as [Hle | Hgt]; [auto|]. destruct Hk as [Hk | Hk]; [lia|].
  assert (E : b ^ (p - 1 + k) == inject_Z (c ^ (p - 1)) * b ^ k) by (rewrite (Qpower_plus b (p - 1) k Hbn), Zpower_Qpower by lia; rewrite <- Hc; reflexivity).
  pose proof (near_multiple b q m k (c ^ (p - 1)) Hb0 H) as X. rewrite <- E in X. apply (Qle_trans _ _ _ X).
  assert (Y : scaled b m' k' <= b ^ (p - 1 + k)).
  { apply Qle_trans with (b ^ p * b ^ k'); [unfold scaled; apply Qmult_le_compat_r; [apply Qlt_le_weak, Hm|apply Qpower_0_le, Qlt_le_weak, Hb0]|].
    rewrite <- (Qpower_plus b p k' Hbn). apply Qpower_le_compat_l; [lia|apply Qlt_le_weak, Hb]. }
  apply Qabs_case; intros Z; apply Qabs_case; intros W; lra.
Qed.

(** * Normal forms *)
Lemma normal_value fuel : forall d e d' e', normal fuel d e = (d', e') -> scaled 10 d' e' == scaled 10 d e.
Proof.
  induction fuel as [|fuel IH]; intros d e d' e' H; cbn [normal] in H; [injection H as <- <-; reflexivity|].
  destruct (d =? 0)%N eqn:E0; [injection H as <- <-; apply N.eqb_eq in E0; subst d; unfold scaled; change (Qn 0) with 0; ring|].
  destruct (d mod 10 =? 0)%N eqn:E1; [|injection H as <- <-; reflexivity]. rewrite (IH _ _ _ _ H). apply N.eqb_eq in E1.
  pose proof (N.div_mod d 10 ltac:(lia)) as E. rewrite E1, N.add_0_r in E. rewrite E at 2. unfold scaled. rewrite Qn_mult, pow10_add. change (10 ^ 1) with 10. change (Qn 10) with 10. ring.
Qed.
Lemma normal_normal fuel : forall d e d' e', (d < 10 ^ N.of_nat fuel)%N -> (d = 0%N -> fuel <> O) -> normal fuel d e = (d', e') -> Normal d' e'.
Proof.
  induction fuel as [|fuel IH]; intros d e d' e' Hd H0 H; cbn [normal] in H.
  - exfalso. apply H0; [|reflexivity]. change (10 ^ N.of_nat 0)%N with 1%N in Hd. lia.
  - destruct (N.eqb_spec d 0) as [E0 | E0]; [injection H as <- <-; left; auto|].
    destruct (N.eqb_spec (d mod 10) 0) as [E1 | E1]; [|injection H as <- <-; right; exact E1].
    rewrite Nat2N.inj_succ, N.pow_succ_r' in Hd. pose proof (N.div_mod d 10 ltac:(lia)) as E. apply (IH _ _ _ _) in H; [exact H|lia|]. intros Hz. lia.
Qed.
Lemma Qn_zero d : Qn d == 0 <-> d = 0%N.
Proof. change 0 with (Qn 0). apply Qn_eq. Qed.
Lemma scaled_zero b d e : 0 < b -> (scaled b d e == 0 <-> d = 0%N).
Proof.
  intros Hb. unfold scaled. pose proof (Qpower_0_lt b e Hb) as P. split.
  - intros H. apply Qmult_integral in H as [H | H]; [apply Qn_zero, H|rewrite H in P; discriminate].
  - intros ->. change (Qn 0) with 0. ring.
Qed.
Lemma normal_unique d e d' e' : Normal d e -> Normal d' e' -> scaled 10 d e == scaled 10 d' e' -> d = d' /\ e = e'.
Proof.
  assert (X : forall d e d' e', Normal d e -> Normal d' e' -> scaled 10 d e == scaled 10 d' e' -> (e <= e')%Z -> d = d' /\ e = e').
  { clear. intros d e d' e' H H' E Hle. assert (E' : d = (d' * 10 ^ Z.to_N (e' - e))%N).
    { apply Qn_eq. rewrite Qn_mult, pow10_N by lia. unfold scaled in E. replace e' with ((e' - e) + e)%Z in E by lia. rewrite pow10_add in E.
      apply Qmult_inj_r with (10 ^ e); [pose proof (pow10 e) as P; intros Y; rewrite Y in P; discriminate|]. rewrite E. ring. }
    destruct (Z.eq_dec e e') as [-> | Hne]; [rewrite Z.sub_diag in E'; change (10 ^ Z.to_N 0)%N with 1%N in E'; lia|exfalso].
    replace (Z.to_N (e' - e)) with (N.succ (Z.to_N (e' - e - 1))) in E' by lia. rewrite N.pow_succ_r' in E'.
    destruct H as [[-> ->] | H].
    - assert (Hd : d' = 0%N) by (pose proof (N.pow_nonzero 10 (Z.to_N (e' - 0 - 1)) ltac:(lia)); nia). subst d'. destruct H' as [[_ ->] | H']; [lia|apply H'; reflexivity].
    - apply H. rewrite E'. replace (d' * (10 * 10 ^ Z.to_N (e' - e - 1)))%N with ((d' * 10 ^ Z.to_N (e' - e - 1)) * 10)%N by ring. apply N.mod_mul. lia. }
  intros H H' E. destruct (Z_le_gt_dec e e') as [Hle | Hgt]; [exact (X _ _ _ _ H H' E Hle)|]. destruct (X d' e' d e H' H (Qeq_sym _ _ E) ltac:(lia)) as [-> ->]. auto.
Qed.
Lemma fin_spec neg d e : exists d' e', fin neg d e = FFin neg d' e' /\ Normal d' e' /\ scaled 10 d' e' == scaled 10 d e.
Proof.
  unfold fin. destruct (normal (S (N.size_nat d)) d e) as [d' e'] eqn:E. exists d', e'. split; [reflexivity|]. split; [|exact (normal_value _ _ _ _ _ E)].
  apply (normal_normal _ _ _ _ _ ) in E; [exact E| |discriminate]. apply N.lt_le_trans with (2 ^ N.of_nat (N.size_nat d))%N; [apply size_nat_lt|].
  rewrite Nat2N.inj_succ. apply N.le_trans with (10 ^ N.of_nat (N.size_nat d))%N; [apply N.pow_le_mono_l; lia|apply N.pow_le_mono_r; lia].
Qed.

(** * Six digits *)
Lemma digits_range d : (0 < d)%N -> (10 ^ N.of_nat (length (print_N d) - 1) <= d < 10 ^ N.of_nat (length (print_N d)))%N.
Proof.
  intros Hd. pose proof (print_N_val d) as V. destruct (print_N_canonical d) as (Hne & D & Z). pose proof (digits_val_lower _ 0 D) as B. rewrite V in B. split; [|lia].
  destruct (print_N d) as [|c x]; [congruence|]. cbn [length] in *. replace (S (length x) - 1)%nat with (length x) by lia. cbn [digits_val] in V. cbn [forallb] in D. apply andb_true_iff in D as [Dc Dx].
  pose proof (digits_val_lower x (0 * 10 + (code c - 48)) Dx) as B'. rewrite V in B'. apply is_digit_code in Dc. destruct (N.eq_dec (code c) 48) as [E | Hc].
  - assert (c = "0"%char) by (apply code_inj; exact E). subst c. rewrite (Z x eq_refl) in V. cbn in V. lia.
  - set (P := (10 ^ N.of_nat (length x))%N) in *. clearbody P. assert (1 <= code c - 48)%N by lia. set (k := (code c - 48)%N) in *. clearbody k. nia.
Qed.
Lemma six_spec d e : (0 < d)%N -> exists r y d' e', Decade (scaled 10 d e) y /\ Near 10 (scaled 10 d e) r y /\ (100000 <= r <= 1000000)%N /\
  Normal d' e' /\ scaled 10 d' e' == scaled 10 r y /\ (0 < d')%N /\ six d e = (print_N d', (e' + Z.of_nat (length (print_N d')) - 1)%Z) /\ ((d < 1000000)%N -> scaled 10 r y == scaled 10 d e).
Proof.
  intros Hd. unfold six. destruct (digits_range d Hd) as [Hlo Hhi]. set (n := length (print_N d)) in *.
  assert (Hn : (1 <= n)%nat) by (unfold n; pose proof (print_N_nonempty d); destruct (print_N d); [congruence|simpl; lia]).
  set (y := (e + Z.of_nat n - 6)%Z).
  assert (Hdec : Decade (scaled 10 d e) y).
  { assert (A : forall k, (k < 7)%nat -> scaled 10 (10 ^ N.of_nat k) y == 10 ^ (Z.of_nat n - 6 + Z.of_nat k) * 10 ^ e).
    { intros k _. unfold scaled. rewrite pow_N. change (Qn 10) with 10. rewrite nat_N_Z, <- !pow10_add. unfold y. replace (Z.of_nat k + (e + Z.of_nat n - 6))%Z with (Z.of_nat n - 6 + Z.of_nat k + e)%Z by lia. reflexivity. }
    split.
    - change 100000%N with (10 ^ N.of_nat 5)%N. rewrite A by lia. unfold scaled. apply Qmult_le_compat_r; [|apply Qlt_le_weak, pow10].
      apply Qn_le in Hlo. rewrite pow_N in Hlo. change (Qn 10) with 10 in Hlo. rewrite nat_N_Z in Hlo. replace (Z.of_nat n - 6 + Z.of_nat 5)%Z with (Z.of_nat (n - 1)) by lia. exact Hlo.
    - change 1000000%N with (10 ^ N.of_nat 6)%N. rewrite A by lia. unfold scaled. apply Qmult_lt_compat_r; [apply pow10|].
      apply Qn_lt in Hhi. rewrite pow_N in Hhi. change (Qn 10) with 10 in Hhi. rewrite nat_N_Z in Hhi. replace (Z.of_nat n - 6 + Z.of_nat 6)%Z with (Z.of_nat n) by lia. exact Hhi. }
  set (r := if (6 <? n)%nat then _ else _).
  assert (Hr : Near 10 (scaled 10 d e) r y /\ (100000 <= r <= 1000000)%N /\ ((d < 1000000)%N -> scaled 10 r y == scaled 10 d e)).
  { subst r. destruct (Nat.ltb_spec 6 n) as [H6 | H6].
    - assert (Hp : (0 < 10 ^ N.of_nat (n - 6))%N) by (apply N.neq_0_lt_0, N.pow_nonzero; lia).
      assert (E1 : (10 ^ N.of_nat (n - 1) = 100000 * 10 ^ N.of_nat (n - 6))%N) by (change 100000%N with (10 ^ 5)%N; rewrite <- N.pow_add_r; f_equal; lia).
      assert (E2 : (10 ^ N.of_nat n = 1000000 * 10 ^ N.of_nat (n - 6))%N) by (change 1000000%N with (10 ^ 6)%N; rewrite <- N.pow_add_r; f_equal; lia).
      split; [|split].
      + apply near_of with (c := 10 ^ e); [reflexivity|exact Hp|apply pow10| |unfold scaled; ring]. rewrite pow_N. change (Qn 10) with 10. rewrite nat_N_Z, <- pow10_add. unfold y. replace (e + Z.of_nat (n - 6))%Z with (e + Z.of_nat n - 6)%Z by lia. reflexivity.
      + rewrite E1 in Hlo. rewrite E2 in Hhi. set (P := (10 ^ N.of_nat (n - 6))%N) in *. clearbody P. unfold round_div.
        assert (A : (100000 <= d / P)%N) by (apply N.div_le_lower_bound; lia). assert (B : (d / P < 1000000)%N) by (apply N.div_lt_upper_bound; lia).
        set (q := (d / P)%N) in *. clearbody q. destruct (_ ?= _)%N; [destruct (N.even q)| |]; lia.
      + intros Hlt. exfalso. rewrite E1 in Hlo. assert (10 <= 10 ^ N.of_nat (n - 6))%N by (change 10%N with (10 ^ 1)%N at 1; apply N.pow_le_mono_r; lia). lia.
    - assert (E : scaled 10 (d * 10 ^ N.of_nat (6 - n)) y == scaled 10 d e).
      { unfold scaled. rewrite Qn_mult, pow_N. change (Qn 10) with 10. rewrite nat_N_Z, <- Qmult_assoc, <- pow10_add. unfold y. replace (Z.of_nat (6 - n) + (e + Z.of_nat n - 6))%Z with e by lia. reflexivity. }
      split; [apply near_exact; [reflexivity|symmetry; exact E]|]. split; [|intros _; exact E].
      assert (E1 : (100000 = 10 ^ N.of_nat (n - 1) * 10 ^ N.of_nat (6 - n))%N) by (change 100000%N with (10 ^ 5)%N; rewrite <- N.pow_add_r; f_equal; lia).
      assert (E2 : (1000000 = 10 ^ N.of_nat n * 10 ^ N.of_nat (6 - n))%N) by (change 1000000%N with (10 ^ 6)%N; rewrite <- N.pow_add_r; f_equal; lia).
      rewrite E1, E2. split; [apply N.mul_le_mono_r; lia|apply N.mul_le_mono_r; lia]. }
  clearbody r. destruct Hr as (Hnear & Hrange & Hexact). set (x := (e + Z.of_nat n - 1)%Z).
  assert (S6 : forall r0 z, (100000 <= r0 < 1000000)%N -> exists d' e', normal 6 r0 z = (d', e') /\ Normal d' e' /\ (0 < d')%N /\ (e' + Z.of_nat (length (print_N d')) - 1 = z + 5)%Z).
  { intros r0 z Hr0. destruct (normal 6 r0 z) as [d' e'] eqn:E. exists d', e'. split; [reflexivity|].
    assert (HN : Normal d' e') by (apply (normal_normal _ _ _ _ _) in E; [exact E|change (10 ^ N.of_nat 6)%N with 1000000%N; lia|lia]). split; [exact HN|].
    pose proof (normal_value _ _ _ _ _ E) as V. assert (Hd' : (0 < d')%N).
    { apply N.neq_0_lt_0. intros ->. assert (X : scaled 10 r0 z == 0) by (rewrite <- V; unfold scaled; change (Qn 0) with 0; ring). apply scaled_zero in X; [lia|reflexivity]. }
    split; [exact Hd'|]. destruct (digits_range d' Hd') as [L U]. set (m := length (print_N d')) in *. assert (Hm : (1 <= m)%nat) by (unfold m; pose proof (print_N_nonempty d'); destruct (print_N d'); [congruence|simpl; lia]). clearbody m.
    apply Qn_le in L. apply Qn_lt in U. rewrite pow_N in L, U. change (Qn 10) with 10 in L, U. rewrite nat_N_Z in L, U.
    assert (A1 : 10 ^ (Z.of_nat (m - 1) + e') <= scaled 10 r0 z) by (rewrite <- V, pow10_add; unfold scaled; apply Qmult_le_compat_r; [exact L|apply Qlt_le_weak, pow10]).
    assert (A2 : scaled 10 r0 z < 10 ^ (Z.of_nat m + e')) by (rewrite <- V, pow10_add; unfold scaled; apply Qmult_lt_compat_r; [apply pow10|exact U]).
    destruct Hr0 as [R1 R2]. apply Qn_le in R1. apply Qn_lt in R2.
    assert (B1 : 10 ^ (5 + z) <= scaled 10 r0 z) by (rewrite pow10_add; unfold scaled; apply Qmult_le_compat_r; [exact R1|apply Qlt_le_weak, pow10]).
    assert (B2 : scaled 10 r0 z < 10 ^ (6 + z)) by (rewrite pow10_add; unfold scaled; apply Qmult_lt_compat_r; [apply pow10|exact R2]).
    assert (C1 : 10 ^ (Z.of_nat (m - 1) + e') < 10 ^ (6 + z)) by (eapply Qle_lt_trans; eassumption). assert (C2 : 10 ^ (5 + z) < 10 ^ (Z.of_nat m + e')) by (eapply Qle_lt_trans; eassumption).
    apply Qpower_lt_compat_l_inv in C1; [|reflexivity]. apply Qpower_lt_compat_l_inv in C2; [|reflexivity]. lia. }
  assert (N0 : forall fuel d0 z w, (0 < d0)%N -> (d0 < 10 ^ N.of_nat fuel)%N -> fst (normal fuel d0 z) = fst (normal fuel d0 w)).
  { clear. induction fuel as [|fuel IH]; intros d0 z w H0 Hl; [reflexivity|]. cbn [normal]. destruct (d0 =? 0)%N eqn:E; [reflexivity|]. destruct (d0 mod 10 =? 0)%N eqn:E1; [|reflexivity].
    apply N.eqb_eq in E1. pose proof (N.div_mod d0 10 ltac:(lia)). rewrite Nat2N.inj_succ, N.pow_succ_r' in Hl. apply IH; lia. }
  destruct (N.eqb_spec r 1000000) as [Er | Er].
  - destruct (S6 100000%N (y + 1)%Z) as (d' & e' & E & HN & Hd' & Hx); [lia|]. exists r, y, d', e'. split; [exact Hdec|]. split; [exact Hnear|]. split; [exact Hrange|]. split; [exact HN|].
    split; [rewrite (normal_value _ _ _ _ _ E), Er; unfold scaled; rewrite pow10_add; change (10 ^ 1) with 10; change (Qn 100000) with (100000 # 1); change (Qn 1000000) with (1000000 # 1); ring|].
    split; [exact Hd'|]. split; [|exact Hexact]. rewrite (N0 6%nat 100000%N 0%Z (y + 1)%Z) by (try reflexivity; lia). rewrite E. cbn [fst]. f_equal. unfold x. lia.
  - destruct (S6 r y) as (d' & e' & E & HN & Hd' & Hx); [lia|]. exists r, y, d', e'. split; [exact Hdec|]. split; [exact Hnear|]. split; [exact Hrange|]. split; [exact HN|].
    split; [exact (normal_value _ _ _ _ _ E)|]. split; [exact Hd'|]. split; [|exact Hexact]. rewrite (N0 6%nat r 0%Z y) by (try lia; change (10 ^ N.of_nat 6)%N with 1000000%N; lia). rewrite E. cbn [fst]. f_equal. unfold x. lia.
Qed.
Lemma decade_unique q y y' : Decade q y -> Decade q y' -> y = y'.
Proof.
  assert (X : forall a b, Decade q a -> Decade q b -> (a <= b)%Z).
  { intros a b [A1 A2] [B1 B2]. assert (C : scaled 10 100000 a < scaled 10 1000000 b) by (eapply Qle_lt_trans; eassumption). unfold scaled in C.
    change (Qn 100000) with (10 ^ 5) in C. change (Qn 1000000) with (10 ^ 6) in C. rewrite <- !pow10_add in C. apply Qpower_lt_compat_l_inv in C; [lia|reflexivity]. }
  intros H H'. apply Z.le_antisymm; auto.
Qed.
Lemma six_unique q p p' : SixRound q p -> SixRound q p' -> p == p'.
Proof.
  intros (r & y & D & -> & H) (r' & y' & D' & -> & H'). rewrite (decade_unique _ _ _ D' D) in *. rewrite (near_unique 10 q r r' y ltac:(reflexivity) H H'). reflexivity.
Qed.
(** The printed digits depend on the rounded value only. *)
Lemma six_same d e d' e' p : (0 < d)%N -> (0 < d')%N -> SixRound (scaled 10 d e) p -> SixRound (scaled 10 d' e') p -> six d e = six d' e'.
Proof.
  intros Hd Hd' H H'. destruct (six_spec d e Hd) as (r & y & x & z & D & N1 & _ & HN & V & _ & E & _). destruct (six_spec d' e' Hd') as (r' & y' & x' & z' & D' & N1' & _ & HN' & V' & _ & E' & _).
  assert (A : scaled 10 r y == p) by (apply (six_unique (scaled 10 d e)); [exists r, y; repeat split; (reflexivity || apply D || apply N1)|exact H]).
  assert (A' : scaled 10 r' y' == p) by (apply (six_unique (scaled 10 d' e')); [exists r', y'; repeat split; (reflexivity || apply D' || apply N1')|exact H']).
  destruct (normal_unique x z x' z' HN HN') as [-> ->]; [rewrite V, V', A, A'; reflexivity|]. rewrite E, E'. reflexivity.
Qed.

(** * The printed text *)
Lemma digits_zeros k ds : forall a, digits_val a (repeat "0"%char k ++ ds) = digits_val (a * 10 ^ N.of_nat k) ds.
Proof.
  induction k as [|k IH]; intros a; [cbn [repeat app]; change (10 ^ N.of_nat 0)%N with 1%N; rewrite N.mul_1_r; reflexivity|].
  cbn [repeat app digits_val]. rewrite IH. f_equal. change (code "0") with 48%N. rewrite Nat2N.inj_succ, N.pow_succ_r'. change (48 - 48)%N with 0%N. lia.
Qed.
Lemma zeros_value k a : digits_val a (repeat "0"%char k) = (a * 10 ^ N.of_nat k)%N.
Proof. rewrite <- (app_nil_r (repeat _ _)), digits_zeros. reflexivity. Qed.
Lemma zeros_digits k : forallb is_digit (repeat "0"%char k) = true.
Proof. induction k; [reflexivity|exact IHk]. Qed.
Lemma two_digits_text n : some_ is_digit (two_digits n) /\ digits_val 0 (two_digits n) = n.
Proof.
  unfold two_digits, some_, all_. destruct (n <? 10)%N.
  - split; [split; [discriminate|cbn [forallb]; rewrite print_N_digits; reflexivity]|]. cbn [digits_val]. change (0 * 10 + (code "0" - 48))%N with 0%N. apply print_N_val.
  - split; [split; [apply print_N_nonempty|apply print_N_digits]|apply print_N_val].
Qed.
Lemma g_denotes neg ds x : ds <> [] -> forallb is_digit ds = true -> Denotes (sign neg ++ g_text ds x) neg (scaled 10 (digits_val 0 ds) (x - Z.of_nat (length ds) + 1)).
Proof.
  intros Hne Hd. unfold g_text. destruct ((x <? -4) || (6 <=? x))%Z eqn:Ex.
  - destruct ds as [|c r]; [congruence|]. cbn [forallb] in Hd. apply andb_true_iff in Hd as [Hc Hr]. destruct (two_digits_text (Z.to_N (Z.abs x))) as [T1 T2].
    replace (c :: match r with [] => [] | _ => "."%char :: r end ++ $"e" ++ (if (x <? 0)%Z then $"-" else $"+") ++ two_digits (Z.to_N (Z.abs x)))
      with ([c] ++ fraction_text r ++ ("e"%char :: (if (x <? 0)%Z then $"-" else $"+") ++ two_digits (Z.to_N (Z.abs x)))) by (destruct r; reflexivity).
    apply DN with (x := x); [split; [discriminate|unfold all_; cbn [forallb]; rewrite Hc; reflexivity]|exact Hr| |].
    + destruct (Z.ltb_spec x 0) as [H | H].
      * replace x with (- Z.of_N (digits_val 0 (two_digits (Z.to_N (Z.abs x)))))%Z at 2 by (rewrite T2; lia). apply PW_minus; [reflexivity|exact T1].
      * replace x with (Z.of_N (digits_val 0 (two_digits (Z.to_N (Z.abs x)))))%Z at 2 by (rewrite T2; lia). apply PW_plus; [reflexivity|exact T1].
    + cbn [app length]. replace (x - Z.of_nat (S (length r)) + 1)%Z with (x - Z.of_nat (length r))%Z by lia. reflexivity.
  - apply orb_false_iff in Ex as [E1 E2]. apply Z.ltb_ge in E1. apply Z.leb_gt in E2. destruct (Z.ltb_spec x 0) as [H | H].
    + replace ($"0." ++ repeat "0"%char (Z.to_nat (- x - 1)) ++ ds) with ($"0" ++ fraction_text (repeat "0"%char (Z.to_nat (- x - 1)) ++ ds) ++ []).
      2:{ rewrite app_nil_r. destruct (repeat "0"%char (Z.to_nat (- x - 1)) ++ ds) eqn:E; [apply app_eq_nil in E as [_ E]; congruence|reflexivity]. }
      apply DN with (x := 0%Z); [split; [discriminate|reflexivity]|unfold all_; rewrite forallb_app, zeros_digits; exact Hd|constructor|].
      cbn [app]. change (digits_val 0 ($"0" ++ repeat "0"%char (Z.to_nat (- x - 1)) ++ ds)) with (digits_val 0 (repeat "0"%char (Z.to_nat (- x - 1)) ++ ds)).
      rewrite digits_zeros, app_length, repeat_length, N.mul_0_l. replace (x - Z.of_nat (length ds) + 1)%Z with (0 - Z.of_nat (Z.to_nat (- x - 1) + length ds))%Z by lia. reflexivity.
    + destruct (Nat.leb_spec (length ds) (S (Z.to_nat x))) as [L | L].
      * replace (ds ++ repeat "0"%char (S (Z.to_nat x) - length ds)) with ((ds ++ repeat "0"%char (S (Z.to_nat x) - length ds)) ++ fraction_text [] ++ []) by (cbn [fraction_text app]; apply app_nil_r).
        apply DN with (x := 0%Z); [split; [destruct ds; [congruence|discriminate]|unfold all_; rewrite forallb_app, Hd; apply zeros_digits]|reflexivity|constructor|].
        rewrite app_nil_r, digits_val_app, zeros_value. unfold scaled. rewrite Qn_mult, pow_N. change (Qn 10) with 10. rewrite nat_N_Z, <- Qmult_assoc, <- pow10_add. cbn [length].
        replace (Z.of_nat (S (Z.to_nat x) - length ds) + (0 - Z.of_nat 0))%Z with (x - Z.of_nat (length ds) + 1)%Z by lia. reflexivity.
      * replace (firstn (S (Z.to_nat x)) ds ++ $"." ++ skipn (S (Z.to_nat x)) ds) with (firstn (S (Z.to_nat x)) ds ++ fraction_text (skipn (S (Z.to_nat x)) ds) ++ []).
        2:{ rewrite app_nil_r. f_equal. destruct (skipn (S (Z.to_nat x)) ds) eqn:E; [|reflexivity]. apply (f_equal (@length _)) in E. rewrite skipn_length in E. cbn [length] in E. lia. }
        apply DN with (x := 0%Z).
        { split; [destruct ds; [congruence|discriminate]|]. unfold all_. rewrite <- (firstn_skipn (S (Z.to_nat x)) ds), forallb_app in Hd. apply andb_true_iff in Hd. tauto. }
        { unfold all_. rewrite <- (firstn_skipn (S (Z.to_nat x)) ds), forallb_app in Hd. apply andb_true_iff in Hd. tauto. }
        { constructor. }
        rewrite firstn_skipn, skipn_length. replace (x - Z.of_nat (length ds) + 1)%Z with (0 - Z.of_nat (length ds - S (Z.to_nat x)))%Z by lia. reflexivity.
Qed.
Lemma denotes_eq t neg q q' : Denotes t neg q -> q == q' -> Denotes t neg q'.
Proof. intros [n i f p x q0 Hi Hf Hp Hq] E. apply DN with (x := x); try assumption. rewrite <- E. exact Hq. Qed.
Lemma fp_denotes neg d e : (0 < d)%N -> exists p, SixRound (scaled 10 d e) p /\ Denotes (fp_text (FFin neg d e)) neg p /\ SixDigits p /\ ((d < 1000000)%N -> p == scaled 10 d e).
Proof.
  intros Hd. destruct (six_spec d e Hd) as (r & y & d' & e' & D & HN & Hr & Hno & V & Hd' & E & Hex). exists (scaled 10 r y).
  split; [exists r, y; split; [exact D|]; split; [reflexivity|exact HN]|]. split; [|split; [|exact Hex]].
  - cbn [fp_text]. destruct (N.eqb_spec d 0); [lia|]. rewrite E. pose proof (g_denotes neg (print_N d') (e' + Z.of_nat (length (print_N d')) - 1) (print_N_nonempty d') (print_N_digits d')) as G.
    replace (e' + Z.of_nat (length (print_N d')) - 1 - Z.of_nat (length (print_N d')) + 1)%Z with e' in G by lia. rewrite print_N_val in G.
    apply (denotes_eq _ _ _ _ G V).
  - destruct (N.eq_dec r 1000000) as [-> | Hne]; [|exists r, y; split; [lia|reflexivity]]. exists 100000%N, (y + 1)%Z. split; [lia|]. unfold scaled. rewrite pow10_add. change (10 ^ 1) with 10.
    change (Qn 100000) with (100000 # 1). change (Qn 1000000) with (1000000 # 1). ring.
Qed.
Lemma fp_zero neg e : Denotes (fp_text (FFin neg 0 e)) neg 0.
Proof.
  cbn [fp_text N.eqb]. replace (sign neg ++ $"0") with (sign neg ++ $"0" ++ fraction_text [] ++ []) by reflexivity. apply DN with (x := 0%Z); [split; [discriminate|reflexivity]|reflexivity|constructor|reflexivity].
Qed.
Lemma six_nearest q p : SixRound q p -> forall p', SixDigits p' -> Qabs (p - q) <= Qabs (p' - q).
Proof.
  intros (r & y & [D _] & E & HN) p' (r' & y' & Hr & E'). rewrite E, E'. apply (grid 10 6); [reflexivity|exists 10%Z; reflexivity|exact HN| |lia|].
  - right. unfold scaled in D. change (Qn 100000) with (10 ^ 5) in D. rewrite <- pow10_add in D. exact D.
  - apply Qn_lt in Hr. exact Hr.
Qed.

(** * Reading *)
Lemma split_digits_app a r : all_ is_digit a -> match r with c :: _ => is_digit c = false | [] => True end -> split_digits (a ++ r) = (a, r).
Proof.
  unfold all_. induction a as [|c a IH]; intros Ha Hr; cbn [app].
  - destruct r as [|c r]; [reflexivity|]. cbn [split_digits]. rewrite Hr. reflexivity.
  - cbn [forallb] in Ha. apply andb_true_iff in Ha as [Hc Ha]. cbn [split_digits]. rewrite Hc, (IH Ha Hr). reflexivity.
Qed.
Lemma letter_e c : lower c = "e"%char -> is_digit c = false /\ ceq c "." = false.
Proof. destruct c as [[] [] [] [] [] [] [] []]; intros H; try discriminate H; split; reflexivity. Qed.
Lemma denotes_value t neg q : Denotes t neg q -> exists d e, decimal_value t = Some (neg, d, e) /\ scaled 10 d e == q.
Proof.
  intros [n i f p x q' [Hi1 Hi2] Hf Hp Hq]. exists (digits_val 0 (i ++ f)), (x - Z.of_nat (length f))%Z. split; [|symmetry; exact Hq].
  assert (Hs : forall s, match i ++ s with c :: r => if ceq c "-" then (true, r) else (false, i ++ s) | [] => (false, []) end = (false, i ++ s)).
  { intros s. destruct i as [|c i]; [congruence|]. cbn [app]. unfold all_ in Hi2. cbn [forallb] in Hi2. apply andb_true_iff in Hi2 as [Hc _].
    assert (E : ceq c "-" = false) by (destruct c as [[] [] [] [] [] [] [] []]; try reflexivity; discriminate Hc). rewrite E. reflexivity. }
  assert (Hpe : match p with c :: _ => is_digit c = false /\ ceq c "." = false | [] => True end) by (destruct Hp as [|c ds Hc _|c ds Hc _]; [exact I|apply letter_e, Hc..]).
  assert (Hfp : match fraction_text f ++ p with c :: _ => is_digit c = false | [] => True end).
  { destruct f as [|c f]; [cbn [fraction_text app]; destruct p; [exact I|apply Hpe]|reflexivity]. }
  unfold decimal_value.
  transitivity (let '(i0, s) := split_digits (i ++ fraction_text f ++ p) in
    match i0 with [] => None | _ =>
      let '(f0, s) := match s with c :: r => if ceq c "." then split_digits r else ([], s) | [] => ([], []) end in
      let e := match s with
        | c :: d :: r => if ceq (lower c) "e" then let '(ds, _) := split_digits r in
            if ceq d "+" then Z.of_N (digits_val 0 ds) else if ceq d "-" then (- Z.of_N (digits_val 0 ds))%Z else 0%Z else 0%Z
        | _ => 0%Z end in
      Some (n, digits_val 0 (i0 ++ f0), (e - Z.of_nat (length f0))%Z) end).
  { destruct n; cbn [sign app]; [reflexivity|]. rewrite Hs. reflexivity. }
  rewrite (split_digits_app i _ Hi2 Hfp). destruct i as [|ci i]; [congruence|]. cbv beta iota.
  match goal with |- (let '(_, _) := ?x in _) = _ => assert (E : x = (f, p)) end.
  { destruct f as [|c f]; cbn [fraction_text app].
    - destruct p as [|c p]; [reflexivity|]. rewrite (proj2 Hpe). reflexivity.
    - change (ceq "." ".") with true. cbn [app]. change (c :: f ++ p) with ((c :: f) ++ p). apply split_digits_app; [exact Hf|]. destruct p; [exact I|apply Hpe]. }
  rewrite E. cbv zeta. f_equal. f_equal. f_equal. destruct Hp as [|c ds Hc [_ Hd]|c ds Hc [_ Hd]]; [reflexivity| |]; rewrite Hc; change (ceq "e" "e") with true; cbv iota;
    rewrite <- (app_nil_r ds) at 1; rewrite (split_digits_app ds [] Hd I); reflexivity.
Qed.
Lemma log2_bounds n : (0 < n)%N -> 2 ^ Z.log2 (Z.of_N n) <= Qn n /\ Qn n < 2 ^ (Z.log2 (Z.of_N n) + 1).
Proof.
  intros H. destruct (Z.log2_spec (Z.of_N n) ltac:(lia)) as [A B]. pose proof (Z.log2_nonneg (Z.of_N n)) as P.
  change 2 with (inject_Z 2). rewrite <- !Zpower_Qpower by lia. unfold Qn. rewrite <- Zle_Qle, <- Zlt_Qlt. split; [exact A|]. rewrite Z.add_1_r. exact B.
Qed.
Lemma exponent_spec f n d q : proper f -> (0 < n)%N -> (0 < d)%N -> q * Qn d == Qn n -> Unit f q (exponent_of f n d).
Proof.
  intros [Hb Hm] Hn Hd Hq. unfold exponent_of. destruct (log2_bounds n Hn) as [N1 N2], (log2_bounds d Hd) as [D1 D2].
  set (ln := Z.log2 (Z.of_N n)) in *. set (ld := Z.log2 (Z.of_N d)) in *. clearbody ln ld. set (k := (ln - ld - bits f + 1)%Z).
  assert (Dp : 0 < Qn d) by (change 0 with (Qn 0); apply Qn_lt, Hd).
  assert (Up : q < 2 ^ (bits f + k)).
  { apply (Qmult_lt_r _ _ (Qn d) Dp). rewrite Hq. apply Qlt_le_trans with (2 ^ (ln + 1)); [exact N2|]. replace (ln + 1)%Z with ((bits f + k) + ld)%Z by (unfold k; lia). rewrite pow2_add.
    rewrite !(Qmult_comm (2 ^ (bits f + k))). apply Qmult_le_compat_r; [exact D1|apply Qlt_le_weak, pow2]. }
  assert (Lo : 2 ^ (bits f - 1 + (k - 1)) <= q).
  { apply (Qmult_le_r _ _ (Qn d) Dp). rewrite Hq. apply Qle_trans with (2 ^ ln); [|exact N1]. replace ln with ((bits f - 1 + (k - 1)) + (ld + 1))%Z by (unfold k; lia). rewrite (pow2_add _ (ld + 1)).
    rewrite !(Qmult_comm (2 ^ (bits f - 1 + (k - 1)))). apply Qmult_le_compat_r; [apply Qlt_le_weak, D2|apply Qlt_le_weak, pow2]. }
  set (ok := if (k <=? 0)%Z then _ else _).
  assert (Hok : ok = true <-> 2 ^ (bits f - 1 + k) <= q).
  { assert (G : 2 ^ (bits f - 1 + k) <= q <-> 2 ^ (bits f - 1 + k) * Qn d <= Qn n) by (rewrite <- Hq; symmetry; apply Qmult_le_r, Dp). rewrite G. clear G.
    subst ok. destruct (Z.leb_spec k 0) as [Hk | Hk]; rewrite N.leb_le, <- Qn_le, !Qn_mult, !pow2_N by lia.
    - rewrite pow2_add. pose proof (pow2_opp k) as O. pose proof (pow2 (- k)) as P. pose proof (pow2 k) as P'. split; intros H.
      + apply (Qmult_le_compat_r _ _ (2 ^ k)) in H; [|apply Qlt_le_weak, P']. setoid_replace (Qn n * 2 ^ (- k) * 2 ^ k) with (Qn n * (2 ^ (- k) * 2 ^ k)) in H by ring. rewrite O in H. lra.
      + apply (Qmult_le_compat_r _ _ (2 ^ (- k))) in H; [|apply Qlt_le_weak, P]. setoid_replace (2 ^ (bits f - 1) * 2 ^ k * Qn d * 2 ^ (- k)) with (2 ^ (bits f - 1) * Qn d * (2 ^ (- k) * 2 ^ k)) in H by ring. rewrite O in H. lra.
    - rewrite pow2_add. split; intros H; lra. }
  clearbody ok. set (k' := if ok then k else (k - 1)%Z).
  assert (U : q < 2 ^ (bits f + k') /\ 2 ^ (bits f - 1 + k') <= q).
  { subst k'. destruct ok; [split; [exact Up|apply Hok; reflexivity]|]. split; [|exact Lo]. replace (bits f + (k - 1))%Z with (bits f - 1 + k)%Z by lia. apply Qnot_le_lt. intros X. apply Hok in X. discriminate. }
  clearbody k'. destruct U as [U1 U2]. destruct (Z.max_spec (e_min f) k') as [[Hlt ->] | [Hge ->]].
  - split; [exact U1|right; split; [lia|exact U2]].
  - split; [|left; reflexivity]. apply Qlt_le_trans with (2 ^ (bits f + k')); [exact U1|]. apply pow2_le. lia.
Qed.
Lemma round_to_spec f n d q : proper f -> (0 < n)%N -> (0 < d)%N -> q * Qn d == Qn n -> Unit f q (snd (round_to f n d)) /\ Near 2 q (fst (round_to f n d)) (snd (round_to f n d)).
Proof.
  intros Hf Hn Hd Hq. pose proof (exponent_spec f n d q Hf Hn Hd Hq) as U. unfold round_to. set (k := exponent_of f n d) in *. clearbody k. cbn [fst snd]. split; [exact U|].
  assert (Dp : 0 < Qn d) by (change 0 with (Qn 0); apply Qn_lt, Hd). assert (D0 : ~ Qn d == 0) by (intros X; rewrite X in Dp; discriminate). pose proof (pow2 k) as P.
  destruct (Z.leb_spec k 0) as [Hk | Hk].
  - apply near_of with (c := 2 ^ k / Qn d); [reflexivity|exact Hd|apply Qlt_shift_div_l; [exact Dp|rewrite Qmult_0_l; exact P]|field; exact D0|].
    rewrite Qn_mult, pow2_N by lia. rewrite <- Hq. setoid_replace (2 ^ k / Qn d * (q * Qn d * 2 ^ (- k))) with (q * (2 ^ (- k) * 2 ^ k)) by (field; exact D0). rewrite pow2_opp. ring.
  - apply near_of with (c := / Qn d); [reflexivity|pose proof (N.pow_nonzero 2 (Z.to_N k) ltac:(lia)); nia|apply Qinv_lt_0_compat, Dp| |].
    + rewrite Qn_mult, pow2_N by lia. field. exact D0.
    + rewrite <- Hq. field. exact D0.
Qed.
Lemma binary_spec neg m k : exists d e, binary neg m k = FFin neg d e /\ Normal d e /\ scaled 10 d e == scaled 2 m k.
Proof.
  unfold binary. destruct (Z.leb_spec k 0) as [Hk | Hk].
  - destruct (fin_spec neg (m * 5 ^ Z.to_N (- k)) k) as (d & e & E & HN & V). exists d, e. split; [exact E|]. split; [exact HN|]. rewrite V. unfold scaled. rewrite Qn_mult, pow_N, Z2N.id by lia. change (Qn 5) with 5.
    change 10 with (2 * 5) at 1. rewrite Qmult_power. assert (O : 5 ^ (- k) * 5 ^ k == 1) by (rewrite <- Qpower_plus by discriminate; replace (- k + k)%Z with 0%Z by lia; reflexivity).
    setoid_replace (Qn m * 5 ^ (- k) * (2 ^ k * 5 ^ k)) with (Qn m * 2 ^ k * (5 ^ (- k) * 5 ^ k)) by ring. rewrite O. ring.
  - destruct (fin_spec neg (m * 2 ^ Z.to_N k) 0) as (d & e & E & HN & V). exists d, e. split; [exact E|]. split; [exact HN|]. rewrite V. unfold scaled. rewrite Qn_mult, pow2_N by lia. change (10 ^ 0) with 1. ring.
Qed.
Definition too_large (f : format) (m : N) (k : Z) : Prop := (e_max f < (if (m =? 2 ^ Z.to_N (bits f))%N then k + 1 else k))%Z.
Lemma too_large_iff f q m k : proper f -> Unit f q k -> Near 2 q m k -> (too_large f m k <-> limit f <= q).
Proof.
  intros [Hb Hm] [U1 U2] HN. unfold too_large, limit. set (B := Qn (2 ^ Z.to_N (bits f))). assert (EB : B == 2 ^ bits f) by (apply pow2_N; lia).
  pose proof (pow2 (e_max f)) as Pm. pose proof (pow2 k) as Pk. destruct (near_bounds _ _ _ _ HN) as [L H].
  assert (B2 : 2 <= B) by (rewrite EB; change 2 with (2 ^ 1) at 1; apply pow2_le; lia).
  split.
  - intros T. assert (Case : (e_max f < k)%Z \/ k = e_max f /\ m = (2 ^ Z.to_N (bits f))%N) by (destruct (N.eqb_spec m (2 ^ Z.to_N (bits f))); lia). destruct Case as [Hk | [-> ->]].
    + destruct U2 as [-> | [_ U2]]; [lia|]. apply Qle_trans with (2 ^ (bits f - 1 + k)); [|exact U2]. apply Qle_trans with (2 ^ (bits f + e_max f)); [rewrite pow2_add, <- EB; lra|apply pow2_le; lia].
    + unfold scaled in H. fold B in H. lra.
  - intros Hl. destruct (Z_lt_le_dec (e_max f) (if (m =? 2 ^ Z.to_N (bits f))%N then k + 1 else k)) as [T | T]; [exact T|exfalso].
    assert (Hk : (k <= e_max f)%Z) by (destruct (m =? _)%N; lia). rewrite pow2_add, <- EB in U1. destruct (Z.eq_dec k (e_max f)) as [-> | Hne].
    + assert (Hmk : m <> (2 ^ Z.to_N (bits f))%N) by (destruct (N.eqb_spec m (2 ^ Z.to_N (bits f))); [lia|assumption]). unfold scaled in L, H.
      assert (A : B - 1 <= Qn m) by (apply (Qmult_le_r _ _ (2 ^ e_max f) Pm); lra). assert (A' : Qn m < B + 1) by (apply (Qmult_lt_r _ _ (2 ^ e_max f) Pm); lra).
      assert (X : (m + 1 = 2 ^ Z.to_N (bits f))%N).
      { assert (X1 : (2 ^ Z.to_N (bits f) <= m + 1)%N) by (apply Qn_le; rewrite Qn_plus; change (Qn 1) with 1; fold B; lra). assert (X2 : (m < 2 ^ Z.to_N (bits f) + 1)%N) by (apply Qn_lt; rewrite Qn_plus; change (Qn 1) with 1; fold B; lra). lia. }
      destruct HN as [_ HT]. assert (Ev : N.even m = true).
      { apply HT. assert (EM : Qn m == B - 1) by (unfold B; rewrite <- X, Qn_plus; change (Qn 1) with 1; ring). unfold scaled. rewrite EM in *. apply Qabs_case; intros Y; lra. }
      assert (Od : N.even (m + 1) = true) by (rewrite X; replace (Z.to_N (bits f)) with (N.succ (Z.to_N (bits f - 1))) by lia; rewrite N.pow_succ_r', N.even_mul; reflexivity).
      rewrite N.add_1_r, N.even_succ, <- N.negb_even, Ev in Od. discriminate.
    + assert (Y : 2 * 2 ^ k <= 2 ^ e_max f) by (change 2 with (2 ^ 1) at 1; rewrite <- pow2_add; apply pow2_le; lia). assert (Z : B * 2 ^ k * 2 <= B * 2 ^ e_max f) by (rewrite <- Qmult_assoc, (Qmult_comm (2 ^ k)); rewrite !(Qmult_comm B); apply Qmult_le_compat_r; [exact Y|lra]).
      assert (W : 2 * 2 ^ e_max f <= B * 2 ^ e_max f) by (apply Qmult_le_compat_r; [exact B2|apply Qlt_le_weak, Pm]). lra.
Qed.
Lemma unit_of_rounded f q m k : proper f -> Unit f q k -> Near 2 q m k -> (m <= 2 ^ Z.to_N (bits f))%N.
Proof.
  intros [Hb _] [U _] HN. destruct (near_bounds _ _ _ _ HN) as [_ H]. pose proof (pow2 k) as P. apply N.lt_succ_r. apply Qn_lt. rewrite <- N.add_1_r, Qn_plus, pow2_N by lia. change (Qn 1) with 1.
  apply (Qmult_lt_r _ _ (2 ^ k) P). unfold scaled in H. rewrite pow2_add in U. lra.
Qed.
Lemma nearest_spec f neg d e : proper f -> (0 < d)%N ->
  match nearest f neg d e with
  | Some v => exists d' e', v = FFin neg d' e' /\ Normal d' e' /\ Rounded f (scaled 10 d e) (scaled 10 d' e') /\ Representable f (scaled 10 d' e') /\ scaled 10 d e < limit f
  | None => limit f <= scaled 10 d e
  end.
Proof.
  intros Hf Hd. unfold nearest. destruct (N.eqb_spec d 0) as [H0 | _]; [lia|].
  set (mk := if (e <=? 0)%Z then _ else _).
  assert (X : Unit f (scaled 10 d e) (snd mk) /\ Near 2 (scaled 10 d e) (fst mk) (snd mk)).
  { subst mk. destruct (Z.leb_spec e 0) as [He | He].
    - apply round_to_spec; [exact Hf|exact Hd|apply N.neq_0_lt_0, N.pow_nonzero; lia|]. unfold scaled. rewrite pow10_N by lia. rewrite <- Qmult_assoc, (Qmult_comm (10 ^ e)), pow10_opp. ring.
    - apply round_to_spec; [exact Hf|pose proof (N.pow_nonzero 10 (Z.to_N e) ltac:(lia)); nia|lia|]. unfold scaled. rewrite Qn_mult, pow10_N by lia. change (Qn 1) with 1. ring. }
  clearbody mk. destruct mk as [m k]. cbn [fst snd] in X. destruct X as [U HN]. pose proof (too_large_iff f _ m k Hf U HN) as T. unfold too_large in T.
  destruct (Z.ltb_spec (e_max f) (if (m =? 2 ^ Z.to_N (bits f))%N then k + 1 else k)) as [L | L]; [apply T, L|].
  destruct (binary_spec neg m k) as (d' & e' & E & HNo & V). exists d', e'. split; [exact E|]. split; [exact HNo|]. split; [exists m, k; auto|]. split.
  - pose proof (unit_of_rounded f _ m k Hf U HN) as Hle. destruct Hf as [Hb Hm]. assert (Hk : (e_min f <= k)%Z) by (destruct U as [_ [-> | [U _]]]; lia). destruct (N.eqb_spec m (2 ^ Z.to_N (bits f))) as [-> | Hne].
    + exists (2 ^ Z.to_N (bits f - 1))%N, (k + 1)%Z. split; [apply N.pow_lt_mono_r; lia|]. split; [lia|]. rewrite V. unfold scaled. rewrite !pow2_N by lia. rewrite <- !pow2_add. replace (bits f - 1 + (k + 1))%Z with (bits f + k)%Z by lia. reflexivity.
    + exists m, k. split; [lia|]. split; [lia|exact V].
  - apply Qnot_le_lt. intros X. apply T in X. lia.
Qed.
(** The nearest number of the format *)
Lemma rounded_nearest f q p : proper f -> Rounded f q p -> forall p', Representable f p' -> Qabs (p - q) <= Qabs (p' - q).
Proof.
  intros [Hb Hm] (m & k & [U1 U2] & E & HN) p' (m' & k' & Hm' & Hk' & E'). rewrite E, E'. apply (grid 2 (bits f)); [reflexivity|exists 2%Z; reflexivity|exact HN| |exact Hb|].
  - destruct U2 as [-> | [_ U2]]; [left; lia|right; exact U2].
  - apply Qn_lt in Hm'. rewrite pow2_N in Hm' by lia. exact Hm'.
Qed.

(** * Both ways *)
Lemma single_proper : proper single. Proof. split; cbn; lia. Qed.
Lemma double_proper : proper double. Proof. split; cbn; lia. Qed.
Lemma six_positive q p : SixRound q p -> 0 < p.
Proof.
  intros (r & y & [D1 D2] & -> & HN). pose proof (pow10 y) as P. destruct (near_bounds _ _ _ _ HN) as [L _]. unfold scaled in *. change (Qn 100000) with (100000 # 1) in D1. nra.
Qed.
Lemma read_spec f t neg q : proper f -> Denotes t neg q -> 0 < q ->
  match stod f t with
  | Ok v => exists d e, v = FFin neg d e /\ Normal d e /\ Rounded f q (scaled 10 d e) /\ Representable f (scaled 10 d e) /\ q < limit f
  | Throw x => x = EStdOutOfRange /\ limit f <= q
  | UB => False
  end.
Proof.
  intros Hf Ht Hq. destruct (denotes_value t neg q Ht) as (d & e & E & V). unfold stod. rewrite E.
  assert (Hd : (0 < d)%N) by (apply N.neq_0_lt_0; intros ->; rewrite <- V in Hq; unfold scaled in Hq; change (Qn 0) with 0 in Hq; rewrite Qmult_0_l in Hq; discriminate).
  pose proof (nearest_spec f neg d e Hf Hd) as X. destruct (nearest f neg d e) as [v|].
  - destruct X as (d' & e' & -> & HN & (m & k & [U1 U2] & R2 & R3a & R3b) & HR & HL). exists d', e'. split; [reflexivity|]. split; [exact HN|]. split.
    + exists m, k. unfold Unit, Near. rewrite <- V. repeat split; assumption.
    + split; [exact HR|]. rewrite <- V. exact HL.
  - split; [reflexivity|]. rewrite <- V. exact X.
Qed.
Lemma read_zero f t neg q : Denotes t neg q -> q == 0 -> stod f t = Ok (FFin neg 0 0).
Proof.
  intros Ht Hq. destruct (denotes_value t neg q Ht) as (d & e & E & V). unfold stod. rewrite E. rewrite Hq in V. apply scaled_zero in V; [|reflexivity]. subst d. reflexivity.
Qed.
Lemma representable_max f q : proper f -> Representable f q -> q <= (Qn (2 ^ Z.to_N (bits f)) - 1) * 2 ^ e_max f.
Proof.
  intros _ (m & k & Hm & [_ Hk] & ->). unfold scaled. pose proof (Qn_pos m) as P0.
  assert (Hm' : Qn m <= Qn (2 ^ Z.to_N (bits f)) - 1) by (assert (X : Qn (m + 1) <= Qn (2 ^ Z.to_N (bits f))) by (apply Qn_le; lia); rewrite Qn_plus in X; change (Qn 1) with 1 in X; lra).
  apply Qle_trans with (Qn m * 2 ^ e_max f).
  - rewrite !(Qmult_comm (Qn m)). apply Qmult_le_compat_r; [apply pow2_le, Hk|exact P0].
  - apply Qmult_le_compat_r; [exact Hm'|apply Qlt_le_weak, pow2].
Qed.
Lemma below_limit f q : proper f -> Representable f q -> q < limit f.
Proof. intros Hf H. apply representable_max in H; [|exact Hf]. unfold limit. pose proof (pow2 (e_max f)). nra. Qed.
(** The largest numbers are rounded down to six digits. *)
Definition roomy (f : format) (r0 : N) (y0 : Z) : Prop :=
  (Qn (2 ^ Z.to_N (bits f)) - 1) * 2 ^ e_max f < (Qn r0 + (1 # 2)) * 10 ^ y0 /\ scaled 10 r0 y0 < limit f /\ scaled 10 100000 y0 < limit f.
Lemma single_roomy : roomy single 340282 33. Proof. repeat split. Qed.
Lemma double_roomy : roomy double 179769 303. Proof. repeat split. Qed.
Lemma six_below f r0 y0 q p : proper f -> roomy f r0 y0 -> Representable f q -> SixRound q p -> (r0 < 1000000)%N -> p < limit f.
Proof.
  intros Hf (R1 & R2 & R3) HR (r & y & [D1 D2] & -> & HN) Hr0. apply representable_max in HR; [|exact Hf]. destruct (near_bounds _ _ _ _ HN) as [L H]. pose proof (pow10 y) as P. pose proof (pow10 y0) as P0.
  assert (Hq : q < (Qn r0 + (1 # 2)) * 10 ^ y0) by (eapply Qle_lt_trans; eassumption). apply Qn_lt in Hr0 as Hr0'. change (Qn 1000000) with (1000000 # 1) in *.
  assert (Hy : (y <= y0)%Z).
  { assert (X : scaled 10 100000 y < 10 ^ (6 + y0)).
    { eapply Qle_lt_trans; [exact D1|]. apply Qlt_le_trans with ((Qn r0 + (1 # 2)) * 10 ^ y0); [exact Hq|]. rewrite pow10_add. apply Qmult_le_compat_r; [|lra]. change (10 ^ 6) with (1000000 # 1).
      assert (Qn (r0 + 1) <= (1000000 # 1)) by (change (1000000 # 1) with (Qn 1000000); apply Qn_le; lia). rewrite Qn_plus in H0. change (Qn 1) with 1 in H0. lra. }
    unfold scaled in X. change (Qn 100000) with (10 ^ 5) in X. rewrite <- pow10_add in X. apply Qpower_lt_compat_l_inv in X; [lia|reflexivity]. }
  destruct (Z.eq_dec y y0) as [-> | Hne].
  - assert (Hr : (r <= r0)%N).
    { apply N.lt_succ_r. rewrite <- N.add_1_r. apply Qn_lt. rewrite Qn_plus. change (Qn 1) with 1. apply (Qmult_lt_r _ _ (10 ^ y0) P0). unfold scaled in H. lra. }
    eapply Qle_lt_trans; [|exact R2]. unfold scaled. apply Qmult_le_compat_r; [apply Qn_le, Hr|lra].
  - eapply Qle_lt_trans; [|exact R3]. assert (Hr : Qn r <= (1000000 # 1)).
    { change (1000000 # 1) with (Qn 1000000). apply Qn_le. apply N.lt_succ_r. rewrite <- N.add_1_r. apply Qn_lt. rewrite Qn_plus. change (Qn 1) with 1. change (Qn 1000000) with (1000000 # 1).
      apply (Qmult_lt_r _ _ (10 ^ y) P). unfold scaled in *. change (Qn 1000000) with (1000000 # 1) in D2. lra. }
    unfold scaled. apply Qle_trans with ((1000000 # 1) * 10 ^ y); [apply Qmult_le_compat_r; [exact Hr|lra]|]. change (Qn 100000) with (10 ^ 5). change (1000000 # 1) with (10 ^ 6).
    rewrite <- !pow10_add. apply pow10_le. lia.
Qed.
(** Rounding a number with six digits to the format and back gives the six digits again. *)
Lemma six_again f q p p' : (24 <= bits f)%Z -> proper f -> 2 ^ (bits f - 1 + e_min f) <= q -> SixRound q p -> Rounded f p p' -> SixRound p' p.
Proof.
  intros Hb24 Hf Hlow (r & y & [D1 D2] & E & HN) (m & k & [U1 U2] & E' & HN').
  pose proof (pow10 y) as P. pose proof (pow2 k) as Pk. destruct (near_bounds _ _ _ _ HN) as [L H]. destruct (near_bounds _ _ _ _ HN') as [L' H']. rewrite <- E in L, H. rewrite <- E' in L', H'.
  assert (K : (8388608 # 1) * 2 ^ k <= p + (1 # 2) * 10 ^ y).
  { assert (X : (8388608 # 1) * 2 ^ k <= 2 ^ (bits f - 1 + k)) by (rewrite pow2_add; apply Qmult_le_compat_r; [change (8388608 # 1) with (2 ^ 23); apply pow2_le; lia|lra]).
    destruct U2 as [-> | [_ U2]]; lra. }
  unfold scaled in D1, D2, E. change (Qn 100000) with (100000 # 1) in D1. change (Qn 1000000) with (1000000 # 1) in D2. set (h := 10 ^ y) in *. set (u := 2 ^ k) in *.
  assert (Rlo : (100000 <= r)%N).
  { apply N.lt_succ_r. apply Qn_lt. rewrite <- N.add_1_r, Qn_plus. change (Qn 1) with 1. change (Qn 100000) with (100000 # 1). apply (Qmult_lt_r _ _ h P). rewrite E in L. lra. }
  assert (Rhi : (r <= 1000000)%N).
  { apply N.lt_succ_r. apply Qn_lt. rewrite <- N.add_1_r, Qn_plus. change (Qn 1) with 1. change (Qn 1000000) with (1000000 # 1). apply (Qmult_lt_r _ _ h P). rewrite E in H. lra. }
  assert (strict : forall r1 y1, p == scaled 10 r1 y1 -> p - p' < (1 # 2) * 10 ^ y1 -> p' - p < (1 # 2) * 10 ^ y1 -> Decade p' y1 -> SixRound p' p).
  { intros r1 y1 E1 A B D. exists r1, y1. split; [exact D|]. split; [exact E1|]. unfold Near. rewrite <- E1. split; [apply Qabs_Qle_condition; lra|]. intros X. exfalso. revert X. apply Qabs_case; intros Z X; lra. }
  assert (mul : forall a b, (a <= b)%N -> Qn a * h <= Qn b * h) by (intros a b Hab; apply Qmult_le_compat_r; [apply Qn_le, Hab|lra]).
  destruct (N.eq_dec r 1000000) as [Er | Er].
  - subst r. change (Qn 1000000) with (1000000 # 1) in E. destruct (Qlt_le_dec p' p) as [Lt | Ge].
    + apply (strict 1000000%N y); [exact E|fold h; lra|fold h; lra|]. unfold Decade, scaled. fold h. change (Qn 100000) with (100000 # 1). change (Qn 1000000) with (1000000 # 1). split; lra.
    + assert (E10 : 10 ^ (y + 1) == 10 * h) by (rewrite pow10_add; change (10 ^ 1) with 10; unfold h; ring).
      apply (strict 100000%N (y + 1)%Z); [unfold scaled; rewrite E10; change (Qn 100000) with (100000 # 1); lra|rewrite E10; lra|rewrite E10; lra|].
      unfold Decade, scaled. rewrite E10. change (Qn 100000) with (100000 # 1). change (Qn 1000000) with (1000000 # 1). split; lra.
  - pose proof (mul r 999999%N ltac:(lia)) as Hr. change (Qn 999999) with (999999 # 1) in Hr. destruct (N.eq_dec r 100000) as [Er' | Er'].
    + subst r. change (Qn 100000) with (100000 # 1) in E. destruct (Qlt_le_dec p' p) as [Lt | Ge].
      * assert (E10 : 10 ^ (y - 1) == (1 # 10) * h) by (replace (y - 1)%Z with (-1 + y)%Z by lia; rewrite pow10_add; fold h; apply Qmult_comp; reflexivity).
        apply (strict 1000000%N (y - 1)%Z); [unfold scaled; rewrite E10; change (Qn 1000000) with (1000000 # 1); lra|rewrite E10; lra|rewrite E10; lra|].
        unfold Decade, scaled. rewrite E10. change (Qn 100000) with (100000 # 1). change (Qn 1000000) with (1000000 # 1). split; lra.
      * apply (strict 100000%N y); [exact E|fold h; lra|fold h; lra|]. unfold Decade, scaled. fold h. change (Qn 100000) with (100000 # 1). change (Qn 1000000) with (1000000 # 1). split; lra.
    + pose proof (mul 100001%N r ltac:(lia)) as Hr'. change (Qn 100001) with (100001 # 1) in Hr'.
      apply (strict r y); [exact E|fold h; lra|fold h; lra|]. unfold Decade, scaled. fold h. change (Qn 100000) with (100000 # 1). change (Qn 1000000) with (1000000 # 1). split; lra.
Qed.
