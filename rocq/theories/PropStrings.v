(** Properties C05, C06 and C52. *)
From Verif Require Import Base BaseFacts StringsModel StringsFacts.

(** C05: trimming returns the unique substring without margins ([trimmed], StringsFacts.v). *)
Theorem C05_trim_exact s t : trim s = t <-> trimmed s t.
Proof. exact (trim_iff s t). Qed.
Print Assumptions C05_trim_exact.

Theorem C05_trim_idempotent s : trim (trim s) = trim s.
Proof. exact (trim_idem s). Qed.
Print Assumptions C05_trim_idempotent.

Theorem C05_trim_margins a s b : Forall ws a -> Forall ws b -> trim (a ++ s ++ b) = trim s.
Proof. exact (trim_margins a s b). Qed.
Print Assumptions C05_trim_margins.

Example C05_ex : trim (ascii_of_N 9 :: $" a b " ++ [ascii_of_N 10]) = $"a b".
Proof. reflexivity. Qed.

(** C06: the recognisers accept exactly the numerals ([Numeral], StringsFacts.v). *)
Theorem C06_nonnegative s : isNonNegativeInteger s = true <-> Numeral s.
Proof. exact (isNonNegativeInteger_iff s). Qed.
Print Assumptions C06_nonnegative.

Theorem C06_negative s : isNegativeInteger s = true <-> exists r, s = "-"%char :: r /\ Numeral r.
Proof. exact (isNegativeInteger_iff s). Qed.
Print Assumptions C06_negative.

Theorem C06_integer s : isInteger s = true <-> Numeral s \/ exists r, s = "-"%char :: r /\ Numeral r.
Proof. exact (isInteger_iff s). Qed.
Print Assumptions C06_integer.

Theorem C06_disjoint s : ~ (isNonNegativeInteger s = true /\ isNegativeInteger s = true).
Proof. exact (integer_disjoint s). Qed.
Print Assumptions C06_disjoint.

Example C06_ex : isInteger $"-120" = true /\ isInteger $"007" = true /\ isInteger $"-" = false /\ isInteger $"1e" = false.
Proof. repeat split. Qed.

(** C52: removing the quotes of a name or string token returns exactly the quoted text, for each kind of quotes. *)
Theorem C52_double_quotes s : unquote (dquote :: s ++ [dquote]) = s /\ parseString (dquote :: s ++ [dquote]) = s /\
  extractFromString (dquote :: s ++ [dquote]) = s.
Proof. exact (conj (unquote_dquote s) (conj (unquote_dquote s) (extract_quoted s))). Qed.
Print Assumptions C52_double_quotes.

Theorem C52_single_backticks s : ~ In backtick s -> s <> [] -> unquote (backtick :: s ++ [backtick]) = s.
Proof.
  intros H. apply unquote_bt1. intros c r -> ->. apply H. left. reflexivity.
Qed.
Print Assumptions C52_single_backticks.

Theorem C52_double_backticks s : (forall c r, s = c :: r -> c <> backtick) -> s <> [] ->
  unquote ([backtick; backtick] ++ s ++ [backtick; backtick]) = s.
Proof. exact (unquote_bt2 s). Qed.
Print Assumptions C52_double_backticks.

Theorem C52_triple_backticks s :
  unquote ([backtick; backtick; backtick] ++ s ++ [backtick; backtick; backtick]) = s.
Proof. exact (unquote_bt3 s). Qed.
Print Assumptions C52_triple_backticks.

(** Text without quotes at either end is left alone. *)
Theorem C52_unquoted s :
  (forall c r, s = c :: r -> c <> dquote) -> (forall c r, s = r ++ [c] -> c <> dquote) -> extractFromString s = s.
Proof. exact (extract_unquoted s). Qed.
Print Assumptions C52_unquoted.

Example C52_ex : unquote (backtick :: $"a\n" ++ [backtick]) = $"a\n" /\ extractFromString $"abc" = $"abc".
Proof. split; reflexivity. Qed.

(** Finding: a double-backtick string whose text starts with a backtick is cut differently from what the lexer delimits:
    the token made of two backticks, the text backtick-a, two backticks loses its last characters. *)
Theorem C52_double_backticks_refuted :
  exists s, s <> [] /\ unquote ([backtick; backtick] ++ s ++ [backtick; backtick]) <> s.
Proof. exists [backtick; "a"%char]. split; [discriminate|]. vm_compute. discriminate. Qed.
Print Assumptions C52_double_backticks_refuted.
