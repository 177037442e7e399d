(** Model of names in text plans: the parser rules id and simple_id of
    src/substrait/textplan/parser/grammar/SubstraitPlanParser.g4 214-238 over the tokens of the lexer (LexModel). *)
From Verif Require Import Base LexModel.

(** simple_id, 219-238 *)
Definition simple_id (k : kind) : bool :=
  match k with
  | IDENTIFIER | FILTER | ROOT | SOURCE | SCHEMA | NULLVAL | SORT | MEASURE | GROUPING | COUNT | TYPE | EMIT | NAMED | ALL | ANY | COMPARISON => true
  | _ => false
  end.
(** id: [simple_id (UNDERSCORE+ simple_id)*], 214-216; the text of the rule is the text of its tokens ([getText]).  [acc] is the text so
    far, [need] whether it ends in an underscore.  The loop goes on while there are underscores (nothing that may follow an id starts
    with an underscore). *)
Fixpoint id_from (need : bool) (acc : str) (ts : list token) : option (str * list token) :=
  match ts with
  | [] => if need then None else Some (acc, [])
  | (k, t) :: r =>
    match k with
    | UNDERSCORE => id_from true (acc ++ t) r
    | _ => if need then if simple_id k then id_from false (acc ++ t) r else None else Some (acc, ts)
    end
  end.
Definition p_id (ts : list token) : option (str * list token) :=
  match ts with [] => None | (k, t) :: r => if simple_id k then id_from false t r else None end.
(** Reading a text that is just a name. *)
Definition read_name (s : str) : option str :=
  match tokens s with
  | Some ts => match p_id ts with Some (n, []) => Some n | _ => None end
  | None => None
  end.
