(** Model of the lexer of text plans: src/substrait/textplan/parser/grammar/SubstraitPlanLexer.g4 as ANTLR 4 runs it.
    Simplification: the input is bytes, not code points (characters that are not ASCII occur only in strings and comments, where any character
    is allowed; elsewhere each of their bytes counts as an unknown character). *)
From Verif Require Import Base StringsModel EscapeModel.

(** The token types, SubstraitPlanLexer.g4 26-140; RAW_LITERAL_ rules have the type STRING. *)
Inductive kind :=
| EXTENSION_SPACE | FUNCTION | AS | NAMED | SCHEMA | RELATION | PIPELINES
| COMMON | BASE_SCHEMA | FILTER | PROJECTION | EXPRESSION | ADVANCED_EXTENSION | GROUPING | MEASURE | INVOCATION | SORT | BY | COUNT | TYPE | EMIT
| SUBQUERY | EXISTS | UNIQUE | IN | ALL | ANY | COMPARISON
| VIRTUAL_TABLE | LOCAL_FILES | NAMED_TABLE | EXTENSION_TABLE
| SOURCE | ROOT | ITEMS | NAMES | URI_FILE | URI_PATH | URI_PATH_GLOB | URI_FOLDER | PARTITION_INDEX | START | LENGTH | ORC | PARQUET
| NULLVAL | TRUEVAL | FALSEVAL | LIST | MAP | STRUCT
| ARROW | COLON | SEMICOLON | LEFTBRACE | RIGHTBRACE | LEFTPAREN | RIGHTPAREN | COMMA | PERIOD | EQUAL | LEFTBRACKET | RIGHTBRACKET
| UNDERSCORE | MINUS | LEFTANGLEBRACKET | RIGHTANGLEBRACKET | QUESTIONMARK | ATSIGN
| IDENTIFIER | NUMBER | STRING | SINGLE_LINE_COMMENT | SPACES | URI.

(** * Rules *)
(** Every rule as the length of what it matches at the start of the input; case does not matter (caseInsensitive, 10-12). *)
Definition rule := str -> option nat.
(** A word.  The words are written in lower case here. *)
Definition word (w : str) : rule := fun s => if to_lower (firstn (length w) s) =s w then Some (length w) else None.
Fixpoint span (P : ascii -> bool) (s : str) : nat := match s with [] => 0 | c :: r => if P c then S (span P r) else 0 end.
(** 101-103 *)
Definition is_word (c : ascii) : bool := is_alpha c || is_digit c || ceq c "$".
Definition identifier : rule := fun s => match s with [] => None | c :: r => if is_alpha c then Some (S (span is_word r)) else None end.
(** 105-108 *)
Definition fraction (s : str) : nat :=
  match s with c :: r => if ceq c "." then match span is_digit r with 0 => 0 | n => S n end else 0 | [] => 0 end.
Definition exponent (s : str) : nat :=
  match s with
  | c :: d :: r => if ceq (lower c) "e" && (ceq d "+" || ceq d "-") then match span is_digit r with 0 => 0 | n => S (S n) end else 0
  | _ => 0
  end.
Definition minus (s : str) : nat := match s with c :: _ => if ceq c "-" then 1 else 0 | [] => 0 end.
Definition number : rule := fun s =>
  let m := minus s in
  match span is_digit (skipn m s) with
  | 0 => None
  | d => let f := fraction (skipn (m + d) s) in Some (m + d + f + exponent (skipn (m + d + f) s))
  end.
(** 115-117: the shortest text up to the closing backticks ([+?]). *)
Fixpoint starts (p s : str) : bool := match p, s with [], _ => true | c :: p, d :: s => ceq c d && starts p s | _ :: _, [] => false end.
(** Position after the first [close] in [s]. *)
Fixpoint upto (close s : str) : option nat :=
  if starts close s then Some (length close) else match s with [] => None | _ :: r => option_map S (upto close r) end.
Definition backtick : ascii := ascii_of_N 96.
Definition raw (n : nat) : rule := fun s =>
  let q := repeat backtick n in
  if starts q s then match skipn n s with [] => None | _ :: r => option_map (fun k => n + 1 + k) (upto q r) end else None.
(** The single backtick form excludes backticks from the text. *)
Definition raw1 : rule := fun s =>
  match s with
  | c :: r => if ceq c backtick then
      match span (fun d => negb (ceq d backtick)) r with
      | 0 => None
      | n => match skipn n r with [] => None | _ => Some (n + 2) end
      end else None
  | [] => None
  end.
(** 119 *)
Definition cr : ascii := ascii_of_N 13.
Definition lf : ascii := ascii_of_N 10.
Definition comment : rule := fun s =>
  if starts $"//" s then
    let n := span (fun c => negb (ceq c cr || ceq c lf)) (skipn 2 s) in
    match skipn (2 + n) s with
    | [] => Some (2 + n)
    | c :: r => if ceq c lf then Some (3 + n) else match r with d :: _ => if ceq d lf then Some (4 + n) else None | [] => None end
    end
  else None.
(** 121 *)
Definition is_space (c : ascii) : bool := existsb (ceq c) [ascii_of_N 32; ascii_of_N 11; ascii_of_N 9; cr; lf].
Definition spaces : rule := fun s => match s with c :: _ => if is_space c then Some 1 else None | [] => None end.
(** 43-104 in order; [word] for the keywords and the punctuation. *)
Definition keywords : list (kind * str) :=
  [(EXTENSION_SPACE, $"extension_space"); (FUNCTION, $"function"); (AS, $"as"); (NAMED, $"named"); (SCHEMA, $"schema"); (RELATION, $"relation");
   (PIPELINES, $"pipelines"); (COMMON, $"common"); (BASE_SCHEMA, $"base_schema"); (FILTER, $"filter"); (PROJECTION, $"projection");
   (EXPRESSION, $"expression"); (ADVANCED_EXTENSION, $"advanced_extension"); (GROUPING, $"grouping"); (MEASURE, $"measure");
   (INVOCATION, $"invocation"); (SORT, $"sort"); (BY, $"by"); (COUNT, $"count"); (TYPE, $"type"); (EMIT, $"emit");
   (SUBQUERY, $"subquery"); (EXISTS, $"exists"); (UNIQUE, $"unique"); (IN, $"in"); (ALL, $"all"); (ANY, $"any");
   (COMPARISON, $"eq"); (COMPARISON, $"ne"); (COMPARISON, $"lt"); (COMPARISON, $"gt"); (COMPARISON, $"le"); (COMPARISON, $"ge");
   (VIRTUAL_TABLE, $"virtual_table"); (LOCAL_FILES, $"local_files"); (NAMED_TABLE, $"named_table"); (EXTENSION_TABLE, $"extension_table");
   (SOURCE, $"source"); (ROOT, $"root"); (ITEMS, $"items"); (NAMES, $"names"); (URI_FILE, $"uri_file"); (URI_PATH, $"uri_path");
   (URI_PATH_GLOB, $"uri_path_glob"); (URI_FOLDER, $"uri_folder"); (PARTITION_INDEX, $"partition_index"); (START, $"start"); (LENGTH, $"length");
   (ORC, $"orc"); (PARQUET, $"parquet"); (NULLVAL, $"null"); (TRUEVAL, $"true"); (FALSEVAL, $"false"); (LIST, $"list"); (MAP, $"map");
   (STRUCT, $"struct")].
Definition punctuation : list (kind * str) :=
  [(ARROW, $"->"); (COLON, $":"); (SEMICOLON, $";"); (LEFTBRACE, $"{"); (RIGHTBRACE, $"}"); (LEFTPAREN, $"("); (RIGHTPAREN, $")"); (COMMA, $",");
   (PERIOD, $"."); (EQUAL, $"="); (LEFTBRACKET, $"["); (RIGHTBRACKET, $"]"); (UNDERSCORE, $"_"); (MINUS, $"-"); (LEFTANGLEBRACKET, $"<");
   (RIGHTANGLEBRACKET, $">"); (QUESTIONMARK, $"?"); (ATSIGN, $"@")].
Definition words (l : list (kind * str)) : list (kind * rule) := map (fun e => (fst e, word (snd e))) l.
Definition default_rules : list (kind * rule) :=
  words keywords ++ words punctuation ++
  [(IDENTIFIER, identifier); (NUMBER, number); (STRING, lex_string); (STRING, raw1); (STRING, raw 2); (STRING, raw 3);
   (SINGLE_LINE_COMMENT, comment); (SPACES, spaces)].
(** 123-134, the mode after EXTENSION_SPACE *)
Definition is_host (c : ascii) : bool := is_alpha c || is_digit c || ceq c "-" || ceq c ".".
Definition is_file (c : ascii) : bool := is_host c || ceq c "_".
(** More of FILENAME ( '/' FILENAME )* *)
Fixpoint path_more (s : str) : nat :=
  match s with
  | [] => 0
  | c :: r => if is_file c then S (path_more r)
              else if ceq c "/" then match r with d :: _ => if is_file d then S (path_more r) else 0 | [] => 0 end else 0
  end.
Definition path_len : rule := fun s => match s with c :: _ => if is_file c then Some (path_more s) else None | [] => None end.
Definition slash (s : str) : nat := match s with c :: _ => if ceq c "/" then 1 else 0 | [] => 0 end.
Definition plus (n : nat) (o : option nat) : option nat := option_map (fun k => n + k) o.
Definition authority (s : str) : option nat :=
  if starts $"//" s then
    match span is_host (skipn 2 s) with
    | 0 => None
    | h => match skipn (2 + h) s with c :: _ => if ceq c "/" then Some (3 + h) else None | [] => None end
    end
  else Some 0.
Definition uri : rule := fun s =>
  let plain := plus (slash s) (path_len (skipn (slash s) s)) in
  match span is_alpha s with
  | 0 => plain
  | n => match skipn n s with
         | c :: r => if ceq c ":" then
             match authority r with
             | Some a => match path_len (skipn a r) with Some k => Some (n + 1 + a + k) | None => plain end
             | None => plain
             end else plain
         | [] => plain
         end
  end.
Definition extension_rules : list (kind * rule) := [(URI, uri); (LEFTBRACE, word $"{"); (SPACES, spaces)].

(** * Tokens *)
(** The longest match wins, then the first rule. *)
Fixpoint choose (rules : list (kind * rule)) (s : str) (best : option (kind * nat)) : option (kind * nat) :=
  match rules with
  | [] => best
  | (k, f) :: rules =>
    let best := match f s with
                | Some n => match best with Some (_, m) => if m <? n then Some (k, n) else best | None => Some (k, n) end
                | None => best
                end in choose rules s best
  end.
Inductive mode := Default | Extensions.
Definition rules_of (m : mode) : list (kind * rule) := match m with Default => default_rules | Extensions => extension_rules end.
Definition next_token (m : mode) (s : str) : option (kind * nat) := choose (rules_of m) s None.
(** EXTENSION_SPACE switches to the mode EXTENSIONS and the opening brace there back. *)
Definition next_mode (m : mode) (k : kind) : mode :=
  match m, k with Default, EXTENSION_SPACE => Extensions | Extensions, LEFTBRACE => Default | _, _ => m end.
Definition hidden (k : kind) : bool := match k with SINGLE_LINE_COMMENT | SPACES => true | _ => false end.
(** What the text is cut into: tokens (also hidden ones) and characters that fit no rule, which are reported and left out. *)
Inductive piece := Token (k : kind) (text : str) | Bad (c : ascii).
Fixpoint cut (fuel : nat) (m : mode) (s : str) : list piece :=
  match fuel, s with
  | _, [] => []
  | 0, _ => []
  | S fuel, c :: r =>
    match next_token m s with
    | Some (k, n) => Token k (firstn n s) :: cut fuel (next_mode m k) (skipn n s)
    | None => Bad c :: cut fuel m r
    end
  end.
Definition pieces (m : mode) (s : str) : list piece := cut (length s) m s.
(** What the parser gets (ParseText.cpp 44-55), and whether the lexer reported an error. *)
Definition token := (kind * str)%type.
Definition visible (l : list piece) : list token := flat_map (fun p => match p with Token k t => if hidden k then [] else [(k, t)] | Bad _ => [] end) l.
Definition lex_ok (l : list piece) : bool := forallb (fun p => match p with Bad _ => false | _ => true end) l.
Definition tokens (s : str) : option (list token) := let l := pieces Default s in if lex_ok l then Some (visible l) else None.
