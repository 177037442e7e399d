(** Facts about numerals, lists and characters used by several proofs. *)
From Verif Require Import Base.
From Coq Require Import Lia ZifyBool ZifyNat ZifyN.
Ltac Zify.zify_post_hook ::= Z.div_mod_to_equations.

Lemma digits_val_app x : forall y acc, digits_val acc (x ++ y) = digits_val (digits_val acc x) y.
Proof. induction x as [|c x IH]; intros y acc; simpl; auto. Qed.

Lemma is_digit_code c : is_digit c = true <-> (48 <= code c <= 57)%N.
Proof. unfold is_digit. lia. Qed.

Lemma digit_char n : (n < 10)%N -> code (ascii_of_N (48 + n)) = (48 + n)%N.
Proof. intros H. apply code_of_N. lia. Qed.

Lemma size_nat_lt n : (n < 2 ^ N.of_nat (N.size_nat n))%N.
Proof.
  destruct n as [|p]; [reflexivity|].
  unfold N.size_nat.
  induction p as [p IH|p IH|]; cbn [Pos.size_nat]; rewrite ?Nat2N.inj_succ, ?N.pow_succ_r'; try lia.
Qed.

Lemma digits_fuel_ok fuel : forall n, (n < 2 ^ N.of_nat fuel)%N -> fuel <> O ->
  digits_val 0 (digits_fuel fuel n) = n /\
  forallb is_digit (digits_fuel fuel n) = true /\
  (exists c r, digits_fuel fuel n = c :: r /\ (code c = 48%N -> r = [] /\ n = 0%N)).
Proof.
  induction fuel as [|f IH]; intros n Hn Hf; [congruence|].
  cbn [digits_fuel]. destruct (N.ltb_spec n 10) as [Hlt|Hge].
  - split; [|split].
    + simpl. rewrite digit_char by lia. lia.
    + simpl. rewrite andb_true_r. apply is_digit_code. rewrite digit_char; lia.
    + exists (ascii_of_N (48 + n)), []. split; [reflexivity|]. rewrite digit_char by lia. intros; split; [reflexivity|lia].
  - rewrite Nat2N.inj_succ, N.pow_succ_r' in Hn.
    destruct f as [|f']; [simpl in Hn; lia|].
    destruct (IH (n / 10)%N) as (Hv & Hd & c & r & Hr & Hz); [lia|congruence|].
    set (d := digits_fuel (S f') (n / 10)) in *. clearbody d.
    assert (Hm : (n mod 10 < 10)%N) by (apply N.mod_lt; lia).
    split; [|split].
    + rewrite digits_val_app, Hv. simpl. rewrite digit_char by exact Hm. lia.
    + rewrite forallb_app, Hd. simpl. rewrite andb_true_r. apply is_digit_code. rewrite digit_char by exact Hm. lia.
    + exists c, (r ++ [ascii_of_N (48 + n mod 10)]). subst d. split; [reflexivity|].
      intros Hc. destruct (Hz Hc) as [_ H0]. lia.
Qed.

Lemma print_N_ok n :
  digits_val 0 (print_N n) = n /\ forallb is_digit (print_N n) = true /\
  (exists c r, print_N n = c :: r /\ (code c = 48%N -> r = [] /\ n = 0%N)).
Proof.
  unfold print_N. apply digits_fuel_ok; [|congruence].
  rewrite Nat2N.inj_succ, N.pow_succ_r'. pose proof (size_nat_lt n). lia.
Qed.

Lemma print_N_val n : digits_val 0 (print_N n) = n.
Proof. apply print_N_ok. Qed.
Lemma print_N_digits n : forallb is_digit (print_N n) = true.
Proof. apply print_N_ok. Qed.
Lemma print_N_nonempty n : print_N n <> [].
Proof. destruct (print_N_ok n) as (_ & _ & c & r & -> & _). discriminate. Qed.
Lemma print_N_inj n m : print_N n = print_N m -> n = m.
Proof. intros H. rewrite <- (print_N_val n), <- (print_N_val m), H. reflexivity. Qed.

(** A digit string without a leading zero is determined by its value. *)
Lemma digits_val_lower x : forall acc, forallb is_digit x = true ->
  (acc * 10 ^ N.of_nat (length x) <= digits_val acc x < (acc + 1) * 10 ^ N.of_nat (length x))%N.
Proof.
  induction x as [|c x IH]; intros acc H; cbn [digits_val length forallb] in *.
  - simpl. lia.
  - apply andb_true_iff in H as [Hc Hx]. apply is_digit_code in Hc.
    specialize (IH (acc * 10 + (code c - 48))%N Hx).
    rewrite Nat2N.inj_succ, N.pow_succ_r'.
    set (P := (10 ^ N.of_nat (length x))%N) in *. nia.
Qed.

Definition canonical (x : str) : Prop :=
  x <> [] /\ forallb is_digit x = true /\ (forall r, x = "0"%char :: r -> r = []).

Lemma canonical_len x y : canonical x -> canonical y -> digits_val 0 x = digits_val 0 y ->
  length x <= length y.
Proof.
  intros (Hx & Dx & Zx) (Hy & Dy & Zy) E.
  destruct (le_lt_dec (length x) (length y)) as [H|H]; [exact H|exfalso].
  destruct x as [|c x]; [congruence|].
  cbn [forallb] in Dx. apply andb_true_iff in Dx as [Dc Dx]. apply is_digit_code in Dc.
  pose proof (digits_val_lower y 0 Dy) as By.
  cbn [digits_val] in E.
  pose proof (digits_val_lower x (0 * 10 + (code c - 48)) Dx) as Bx.
  destruct (N.eq_dec (code c) 48) as [E48|N48].
  - assert (c = "0"%char) by (apply code_inj; exact E48). subst c.
    specialize (Zx x eq_refl). subst x. simpl in H. destruct y; [congruence|simpl in H; lia].
  - assert (10 ^ N.of_nat (length y) <= 10 ^ N.of_nat (length x))%N
      by (apply N.pow_le_mono_r; simpl in H; lia).
    nia.
Qed.

Lemma digits_val_inj x : forall y a b, length x = length y ->
  forallb is_digit x = true -> forallb is_digit y = true ->
  digits_val a x = digits_val b y -> x = y /\ a = b.
Proof.
  induction x as [|c x IH]; intros [|d y] a b L Dx Dy E; simpl in *; try discriminate; auto.
  apply andb_true_iff in Dx as [Dc Dx]. apply andb_true_iff in Dy as [Dd Dy].
  injection L as L. apply is_digit_code in Dc, Dd.
  destruct (IH _ _ _ L Dx Dy E) as [-> E'].
  assert (code c = code d) by lia. apply code_inj in H. subst d. split; [reflexivity|lia].
Qed.

Lemma canonical_unique x y : canonical x -> canonical y ->
  digits_val 0 x = digits_val 0 y -> x = y.
Proof.
  intros Hx Hy E.
  assert (length x = length y).
  { apply Nat.le_antisymm; apply canonical_len; auto. }
  destruct (digits_val_inj x y 0 0 H) as [E' _]; auto; [apply Hx|apply Hy].
Qed.

Lemma print_N_canonical n : canonical (print_N n).
Proof.
  destruct (print_N_ok n) as (Hv & Hd & c & r & E & Hz). split; [|split].
  - apply print_N_nonempty.
  - exact Hd.
  - intros r' Hr. rewrite Hr in E. injection E as <- <-. apply Hz. reflexivity.
Qed.

(** Splitting after a prefix of digits. *)
Lemma app_digits_split a b c d (stop : ascii) :
  forallb is_digit a = true -> forallb is_digit b = true ->
  is_digit stop = false ->
  a ++ stop :: c = b ++ stop :: d -> a = b /\ c = d.
Proof.
  revert b. induction a as [|x a IH]; intros [|y b] Da Db Hs E; simpl in *.
  - injection E as ->. auto.
  - injection E as <- _. rewrite Hs in Db. discriminate.
  - injection E as -> _. rewrite Hs in Da. discriminate.
  - apply andb_true_iff in Da as [_ Da]. apply andb_true_iff in Db as [_ Db].
    injection E as -> E. destruct (IH b Da Db Hs E) as [-> ->]. auto.
Qed.

(** Lower-casing. *)
Lemma lower_idem c : lower (lower c) = lower c.
Proof.
  destruct c as [[] [] [] [] [] [] [] []]; reflexivity.
Qed.
Lemma to_lower_idem x : to_lower (to_lower x) = to_lower x.
Proof. unfold to_lower. rewrite map_map. apply map_ext. apply lower_idem. Qed.
Lemma to_lower_app x y : to_lower (x ++ y) = to_lower x ++ to_lower y.
Proof. apply map_app. Qed.
Lemma to_lower_length x : length (to_lower x) = length x.
Proof. apply map_length. Qed.
