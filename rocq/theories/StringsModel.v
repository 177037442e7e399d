(** Model of the string helpers of the code base. *)
From Verif Require Import Base.

(** [std::string_view::find_first_not_of(set)]: position of the first character outside the set. *)
Fixpoint find_first_not_of (set s : str) : option nat :=
  match s with
  | [] => None
  | c :: r => if existsb (ceq c) set
              then option_map S (find_first_not_of set r)
              else Some 0
  end.

(** [std::string_view::find_last_not_of(set)]: position of the last character outside the set. *)
Fixpoint find_last_not_of (set s : str) : option nat :=
  match s with
  | [] => None
  | c :: r => match find_last_not_of set r with
              | Some i => Some (S i)
              | None => if existsb (ceq c) set then None else Some 0
              end
  end.

(** [substr(pos)] and [substr(pos, n)] for [pos <= size]; callers below never exceed it. *)
Definition substr_from (pos : nat) (s : str) : str := skipn pos s.
Definition substr (pos n : nat) (s : str) : str := firstn n (skipn pos s).

(** StringUtils.h 26: kWhitespace = " \n\r\t\f\v". *)
Definition kWhitespace : str :=
  [ascii_of_N 32; ascii_of_N 10; ascii_of_N 13; ascii_of_N 9; ascii_of_N 12; ascii_of_N 11].

(** StringUtils.h 12-15. *)
Definition ltrim (s : str) : str :=
  match find_first_not_of kWhitespace s with
  | None => []
  | Some start => substr_from start s
  end.

(** StringUtils.h 17-20. *)
Definition rtrim (s : str) : str :=
  match find_last_not_of kWhitespace s with
  | None => []
  | Some e => substr 0 (e + 1) s
  end.

(** StringUtils.h 22-24. *)
Definition trim (s : str) : str := rtrim (ltrim s).

(** NumberUtils.h 16-20. *)
Definition isNonNegativeInteger (s : str) : bool :=
  match s with [] => false | _ => forallb is_digit s end.

(** NumberUtils.h 22-24. *)
Definition isNegativeInteger (s : str) : bool :=
  (2 <=? length s) &&
  match s with
  | c :: r => ceq c "-"%char && isNonNegativeInteger r
  | [] => false
  end.

(** NumberUtils.h 12-14. *)
Definition isInteger (s : str) : bool :=
  isNonNegativeInteger s || isNegativeInteger s.

(** StringManipulation.cpp 12-15 (note the strict size comparison). *)
Definition startsWith (haystack needle : str) : bool :=
  (length needle <? length haystack) &&
  (substr 0 (length needle) haystack =s needle).

(** StringManipulation.cpp 17-20. *)
Definition endsWith (haystack needle : str) : bool :=
  (length needle <? length haystack) &&
  (substr (length haystack - length needle) (length needle) haystack =s needle).

Definition dquote : ascii := ascii_of_N 34.
Definition backtick : ascii := ascii_of_N 96.

(** SubstraitPlanVisitor.cpp 23-34 extractFromString: removes one trailing and one leading quotation
    mark, independently of each other. *)
Definition extractFromString (s : str) : str :=
  if length s <? 2 then s else
  let s1 := if ceq (last s dquote) dquote then removelast s else s in
  match s1 with
  | c :: r => if ceq c dquote then r else s1
  | [] => s1
  end.

(** [text.substr(k, text.length() - n)]; the subtraction is on size_t and wraps,
    in which case substr returns everything up to the end. *)
Definition substr_wrap (k n : nat) (s : str) : str :=
  if n <=? length s then substr k (length s - n) s else substr_from k s.

(** SubstraitPlanVisitor.cpp 40-50 (parseString) and SubstraitPlanRelationVisitor.cpp 1470-1482
    (visitString): removal of the quotation marks around a STRING token.
    [text[0]] of an empty std::string is the terminating NUL, hence no match. *)
Definition unquote (text : str) : str :=
  if startsWith text [backtick; backtick; backtick] then substr_wrap 3 6 text
  else if startsWith text [backtick; backtick] then substr_wrap 2 4 text
  else match text with
       | c :: _ => if ceq c dquote || ceq c backtick then substr_wrap 1 2 text else text
       | [] => text
       end.

(** SubstraitPlanVisitor.cpp 40-64: both branches of the escape step copy the text. *)
Definition parseString (text : str) : str := unquote text.
