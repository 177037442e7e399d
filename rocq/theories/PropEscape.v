(** Properties C07 and C08. *)
From Verif Require Import Base BaseFacts StringsModel StringsFacts EscapeModel EscapeFacts.

(** The lexer model is the grammar's longest match. *)
Theorem C07_lexer_is_longest_match s n : lex_string s = Some n <-> longest_token s n.
Proof. exact (conj (lex_string_longest s n) (longest_lex s n)). Qed.
Print Assumptions C07_lexer_is_longest_match.
Theorem C07_lexer_complete s : lex_string s = None -> forall m, m <= length s -> ~ StrToken (firstn m s).
Proof. exact (lex_string_none s). Qed.
Print Assumptions C07_lexer_complete.

(** C07, for values without a backslash, whatever text follows the literal.
    Missing: values containing a backslash, for which the statement is false (below). *)
Theorem C07_string_roundtrip_partial v k : ~ In backslash v ->
  lex_string (printQuoted v ++ k) = Some (length (printQuoted v)) /\
  evalString (printQuoted v) = Some (v, []).
Proof. exact (fun H => conj (lex_printed v k H) (evalString_printed v H)). Qed.
Print Assumptions C07_string_roundtrip_partial.

Example C07_ex : printQuoted (dquote :: $"a'b") = dquote :: backslash :: dquote :: $"a'b" ++ [dquote] /\
  lex_string (printQuoted (dquote :: $"a'b") ++ $"_string") = Some 7.
Proof. split; reflexivity. Qed.

(** Finding: a value containing a backslash is printed unescaped; it reads back as another value or, when it
    ends in a backslash, the closing quote is swallowed and the token extends into the following text. *)
Theorem C07_value_refuted : exists v, evalString (printQuoted v) = Some ([ascii_of_N 10], []) /\ v = $"\n".
Proof. exists $"\n". split; reflexivity. Qed.
Print Assumptions C07_value_refuted.
Theorem C07_token_refuted : exists v k, lex_string (printQuoted v ++ k) <> Some (length (printQuoted v)).
Proof. exists $"\", ($"_string, " ++ [dquote]). vm_compute. discriminate. Qed.
Print Assumptions C07_token_refuted.

(** C08: processing always ends, with a value and a list of errors. *)
Theorem C08_total s : exists v errs, escapeText s = Some (v, errs).
Proof. exact (escapeText_total s). Qed.
Print Assumptions C08_total.

Theorem C08_identity s : ~ In backslash s -> escapeText s = Some (s, []).
Proof. exact (escapeText_plain s). Qed.
Print Assumptions C08_identity.

(** Every body made of the documented elements evaluates to the bytes they denote, reporting exactly the unknown
    escapes ([Elem], [EscE] in EscapeFacts.v). *)
Theorem C08_elements b v errs : EscE 0 b v errs -> escapeText b = Some (v, errs).
Proof. exact (escapeText_EscE b v errs). Qed.
Print Assumptions C08_elements.

Example C08_ex : EscE 0 $"a\x4f\q\u{20AC}" ($"aO\q" ++ [ascii_of_N 32; ascii_of_N 172]) [6].
Proof.
  apply (EE_elem 0 $"a" $"a" false); [constructor; discriminate|].
  apply (EE_elem 1 $"\x4f" $"O" false).
  { apply (L_x _ _ 79). apply (HN_snoc $"4" 4 "f"%char 15).
    - apply (HN_one _ 4). apply (IH_dec "4"%char). split; discriminate.
    - apply (IH_low "f"%char). split; discriminate. }
  apply (EE_elem 5 $"\q" $"\q" true).
  { constructor; [|discriminate|discriminate]. cbv. intuition discriminate. }
  apply (EE_elem 7 $"\u{20AC}" [ascii_of_N 32; ascii_of_N 172] false [] [] []); [|constructor].
  apply (L_u $"20AC" 8364); [|cbv; repeat constructor].
  apply (HN_snoc $"20A" 522 "C"%char 12); [|apply (IH_upp "C"%char); split; discriminate].
  apply (HN_snoc $"20" 32 "A"%char 10); [|apply (IH_upp "A"%char); split; discriminate].
  apply (HN_snoc $"2" 2 "0"%char 0); [|apply (IH_dec "0"%char); split; discriminate].
  apply (HN_one _ 2). apply (IH_dec "2"%char). split; discriminate.
Qed.

(** Findings: a \u not followed by an opening brace disappears without an error; an unterminated \u{..
    loses its introduction without an error; seven hexadecimal digits (the documented form) yield nothing. *)
Theorem C08_preserved_refuted : escapeText ($"a" ++ [backslash] ++ $"u0041") = Some ($"a0041", []) /\
  escapeText $"\u{41" = Some ($"41", []) /\ escapeText $"\u{0000041}" = Some ([], []).
Proof. repeat split; vm_compute; reflexivity. Qed.
Print Assumptions C08_preserved_refuted.
