(** Shared vocabulary of the model: byte strings, outcomes, byte predicates.

    A [std::string] / [std::string_view] is a list of 8-bit characters.  The
    model does not interpret UTF-8: every C++ routine modelled here works on
    individual [char]s as well. *)
From Coq Require Export List Ascii NArith ZArith Bool Arith.
From Coq Require String.
Export String.StringSyntax.
From Coq Require Import Lia ZifyBool ZifyNat ZifyN.
Export ListNotations.

Definition str := list ascii.

(** String literals: [$"abc"]. *)
Delimit Scope string_scope with string.
Bind Scope string_scope with String.string.
Definition lit (x : String.string) : str := String.list_ascii_of_string x.
Notation "$ x" := (lit x) (at level 1, x at level 0, format "$ x").

(** What a C++ call can do: return, throw, or be undefined.
    The payload of [Throw] is the kind of exception
    (include/substrait/common/Exceptions.h 12-31 and the std:: exceptions). *)
Inductive exn :=
| EUnsupported        (* SUBSTRAIT_UNSUPPORTED, Exceptions.h 113-117 *)
| EInvalidState       (* SUBSTRAIT_FAIL, Exceptions.h 125-129 *)
| EInvalidArgument    (* SUBSTRAIT_IVALID_ARGUMENT, Exceptions.h 143-147 *)
| EStdOutOfRange      (* std::out_of_range, e.g. vector::at, std::stoi *)
| EStdInvalid         (* std::invalid_argument, e.g. std::stoi *)
| EBadAnyCast         (* std::bad_any_cast *)
| EBadOptional        (* std::bad_optional_access *)
| EFmt                (* fmt::format_error: the message itself is a malformed format string, Exceptions.h 101-104 *)
| EYaml               (* YAML::Exception: a missing or ill-formed node *)
| EFuel.              (* model only: recursion bound exhausted; proved never to occur *)

Inductive outcome (A : Type) :=
| Ok (a : A)
| Throw (e : exn)
| UB.
Arguments Ok {A} a.
Arguments Throw {A} e.
Arguments UB {A}.

Definition obind {A B} (o : outcome A) (f : A -> outcome B) : outcome B :=
  match o with Ok a => f a | Throw e => Throw e | UB => UB end.
Notation "x <- o ;; f" := (obind o (fun x => f))
  (at level 61, o at next level, right associativity).

(** Monadic map: evaluates left to right, stops at the first failure. *)
Fixpoint omap {A B} (f : A -> outcome B) (l : list A) : outcome (list B) :=
  match l with
  | [] => Ok []
  | x :: r => y <- f x ;; ys <- omap f r ;; Ok (y :: ys)
  end.

(** C locale character classes ([std::isdigit], [std::isalpha], [std::isxdigit], [std::tolower]). *)
Definition code (c : ascii) : N := N_of_ascii c.
Definition is_digit (c : ascii) : bool := ((48 <=? code c) && (code c <=? 57))%N.
Definition is_upper (c : ascii) : bool := ((65 <=? code c) && (code c <=? 90))%N.
Definition is_lower (c : ascii) : bool := ((97 <=? code c) && (code c <=? 122))%N.
Definition is_alpha (c : ascii) : bool := is_upper c || is_lower c.
Definition lower (c : ascii) : ascii :=
  if is_upper c then ascii_of_N (code c + 32) else c.
Definition to_lower (x : str) : str := map lower x.

(** Decidable equality of characters and strings. *)
Definition ceq (a b : ascii) : bool := Ascii.eqb a b.
Fixpoint seq_eqb (a b : str) : bool :=
  match a, b with
  | [], [] => true
  | x :: a', y :: b' => ceq x y && seq_eqb a' b'
  | _, _ => false
  end.
Notation "a =s b" := (seq_eqb a b) (at level 70).

Lemma ceq_true a b : ceq a b = true <-> a = b.
Proof. apply Ascii.eqb_eq. Qed.
Lemma ceq_refl a : ceq a a = true.
Proof. apply Ascii.eqb_refl. Qed.
Lemma seq_eqb_eq a : forall b, (a =s b) = true <-> a = b.
Proof.
  induction a as [|x a IH]; intros [|y b]; simpl; split; intros H; try congruence; auto.
  - apply andb_true_iff in H as [H1 H2]. apply ceq_true in H1. apply IH in H2. congruence.
  - injection H as -> ->. rewrite ceq_refl. simpl. apply IH. reflexivity.
Qed.
Lemma seq_eqb_refl a : (a =s a) = true.
Proof. apply seq_eqb_eq. reflexivity. Qed.
Lemma seq_eqb_neq a b : (a =s b) = false <-> a <> b.
Proof.
  split; intros H.
  - intros ->. rewrite seq_eqb_refl in H. discriminate.
  - destruct (a =s b) eqn:E; [apply seq_eqb_eq in E; contradiction | reflexivity].
Qed.
Lemma seq_eqb_spec a b : reflect (a = b) (a =s b).
Proof. destruct (a =s b) eqn:E; constructor; [now apply seq_eqb_eq | now apply seq_eqb_neq]. Defined.
Lemma str_eq_dec (a b : str) : {a = b} + {a <> b}.
Proof. destruct (seq_eqb_spec a b); auto. Defined.

Lemma code_inj a b : code a = code b -> a = b.
Proof.
  unfold code. intros H. rewrite <- (ascii_N_embedding a), <- (ascii_N_embedding b), H. reflexivity.
Qed.
Lemma code_lt a : (code a < 256)%N.
Proof. apply N_ascii_bounded. Qed.
Lemma code_of_N n : (n < 256)%N -> code (ascii_of_N n) = n.
Proof. apply N_ascii_embedding. Qed.

(** Decimal numerals: the text that stream insertion [<<] of an integer produces. *)
Fixpoint digits_fuel (fuel : nat) (n : N) : str :=
  match fuel with
  | O => []
  | S f => if (n <? 10)%N then [ascii_of_N (48 + n)]
           else digits_fuel f (n / 10) ++ [ascii_of_N (48 + n mod 10)]
  end.
Definition print_N (n : N) : str := digits_fuel (S (N.size_nat n)) n.
Definition print_Z (z : Z) : str :=
  match z with
  | Zneg p => "-"%char :: print_N (Npos p)
  | _ => print_N (Z.to_N z)
  end.

(** The value of a digit string, independent of how it is printed. *)
Fixpoint digits_val (acc : N) (x : str) : N :=
  match x with
  | [] => acc
  | c :: r => digits_val (acc * 10 + (code c - 48)) r
  end.

#[global] Arguments code : simpl never.
#[global] Arguments ascii_of_N : simpl never.
#[global] Arguments is_digit : simpl never.
#[global] Arguments is_upper : simpl never.
#[global] Arguments is_alpha : simpl never.
#[global] Arguments lower : simpl never.
#[global] Arguments ceq : simpl never.
#[global] Arguments N.add : simpl never.
#[global] Arguments N.mul : simpl never.
#[global] Arguments N.sub : simpl never.
#[global] Arguments N.div : simpl never.
#[global] Arguments N.modulo : simpl never.
#[global] Arguments N.pow : simpl never.
#[global] Arguments Z.add : simpl never.
#[global] Arguments Z.mul : simpl never.
#[global] Arguments Z.sub : simpl never.
#[global] Arguments Z.pow : simpl never.
