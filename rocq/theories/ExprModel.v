(** Model of expressions in text plans: how PlanPrinterVisitor.cpp prints them, how the parser rules of
    src/substrait/textplan/parser/grammar/SubstraitPlanParser.g4 read them, and what SubstraitPlanSubqueryRelationVisitor.cpp (the last pass; the
    same functions of SubstraitPlanRelationVisitor.cpp are the same text) makes of them.
    In a message a subquery holds its relation; here it holds the name of that relation (how the printer comes to the name is in TreeModel, and
    that the relation comes back is there, too).
    Not modelled: reading of timestamps with time zones ([LNotModelled]; TimeModel has the function itself). *)
From Verif Require Import Base StringsModel EscapeModel DecimalModel TypeModel LexModel NameModel FloatModel CalendarModel TimeModel EnumModel.

(** * The protobuf messages, as far as the functions below use them *)
Inductive lvalue :=
| LUnset | LBool (b : bool) | LI8 (z : Z) | LI16 (z : Z) | LI32 (z : Z) | LI64 (z : Z) | LFp32 (v : fl) | LFp64 (v : fl) | LString (s : str) | LBinary (s : str)
| LTimestamp (z : Z) | LDate (z : Z) | LTime (z : Z) | LIntervalYear (years months : Z) | LIntervalDay (days seconds micros : Z) | LFixedChar (s : str)
| LVarChar (s : str) (len : Z) | LFixedBinary (s : str) | LDecimal (v : decimal_proto) | LStruct (l : list lvalue_null) | LMap (l : list (lvalue_null * lvalue_null))
| LTimestampTz (z : Z) | LUuid (s : str) | LNull (t : ptype) | LList (l : list lvalue_null) | LEmptyList (t : ptype) (n : pnull) | LEmptyMap (t : ptype) | LUserDefined
(* a literal whose value is not modelled *)
| LNotModelled (text : str)
with lvalue_null := Lit (v : lvalue) (nullable : bool).
Definition literal := lvalue_null.

(** ReferenceSegment: a field of a struct, an element of a list or a value of a map, each with a child of its own. *)
Inductive segment := SegField (field : Z) (child : option segment) | SegList (offset : Z) (child : option segment) | SegMap (key : str) (child : option segment) | SegNone.
Inductive root := RootNone | RootRef | RootOuter (steps : N) | RootExpression.
Inductive arg (E : Type) := AValue (e : E) | AEnum (s : str) | AType (t : ptype) | AUnset.
Arguments AValue {E}. Arguments AEnum {E}. Arguments AType {E}. Arguments AUnset {E}.
Inductive predicate := QUnspecified | QExists | QUnique.
Inductive unsupported := UWindow | USwitch | USingularOrList | UMultiOrList | UNested | UEnum.
Inductive expr :=
| EUnset
| ELit (l : literal)
| ESel (s : segment) (r : root)
| EMasked (r : root)
| ESelNone (r : root)
| EFun (ref : N) (args : list (arg expr)) (deprecated : list expr) (options : list (str * list str)) (ty : ptype)
| EIfThen (ifs : list (option expr * option expr)) (els : option expr)
| ECast (input : expr) (ty : ptype) (failure : N)
(* subqueries; None: there is no relation, no left side, or the reduction is unspecified *)
| EScalar (rel : option str)
| EIn (needles : list expr) (rel : option str)
| ESet (op : predicate) (rel : option str)
| ECompare (op : comparison) (red : option reduction) (lhs : option expr) (rel : option str)
| EOther (u : unsupported).

(** * Printing *)
(** What is printed and the number of errors reported. *)
Definition printed := (str * nat)%type.
(** PlanPrinterVisitor.cpp 572-665 visitLiteral *)
Definition unsupported_literal : printed := ($"UNSUPPORTED_LITERAL_TYPE", 1).
Definition with_null (n : bool) (s : str) : printed := (s ++ (if n then $"?" else []), 0).
Definition printLiteral (l : literal) : printed :=
  let 'Lit v n := l in
  match v with
  | LUnset => ($"UNSPECIFIED_LITERAL_TYPE", 1)
  | LBool b => with_null n (if b then $"1" else $"0")
  | LI8 z => with_null n (print_Z z ++ $"_i8")
  | LI16 z => with_null n (print_Z z ++ $"_i16")
  | LI32 z => with_null n (print_Z z ++ $"_i32")
  | LI64 z => with_null n (print_Z z ++ $"_i64")
  | LFp32 v => with_null n (fp_text v ++ $"_fp32")
  | LFp64 v => with_null n (fp_text v ++ $"_fp64")
  | LDate z => with_null n ([dquote] ++ date_text z ++ [dquote] ++ $"_date")
  | LString s => with_null n (printQuoted s ++ $"_string")
  | LIntervalYear y m => with_null n ($"{" ++ print_Z y ++ $"_years, " ++ print_Z m ++ $"_months}_interval_year")
  | LIntervalDay d s u => with_null n ($"{" ++ print_Z d ++ $"_days, " ++ print_Z s ++ $"_seconds, " ++ print_Z u ++ $"_microseconds}_interval_day")
  | LFixedChar s => with_null n (printQuoted s ++ $"_fixedchar<" ++ print_N (N.of_nat (length s)) ++ $">")
  | LVarChar s len => with_null n (printQuoted s ++ $"_varchar<" ++ print_Z len ++ $">")
  | LDecimal v => let d := fromProto v in
      with_null n (match toBaseString d with Some b => b | None => [] end ++ $"_decimal<" ++ print_Z (d_precision d) ++ $"," ++ print_Z (d_scale d) ++ $">")
  | LBinary _ | LTimestamp _ | LTime _ | LFixedBinary _ | LStruct _ | LMap _ | LTimestampTz _ | LUuid _ | LNull _ | LList _ | LEmptyList _ _ | LEmptyMap _
  | LUserDefined | LNotModelled _ => unsupported_literal
  end.

Definition commas (l : list (outcome printed)) : outcome printed :=
  (fix go (first : bool) (l : list (outcome printed)) : outcome printed :=
     match l with
     | [] => Ok ([], 0)
     | x :: r => a <- x ;; b <- go false r ;; Ok ((if first then [] else $", ") ++ fst a ++ fst b, snd a + snd b)
     end) true l.
(** 2 spaces for each [i <= functionDepth_] on a new line, unless the function is outermost *)
Definition indent (depth : nat) : str := match depth with O => [] | _ => lf :: concat (repeat $"  " (S depth)) end.
Definition other_text (u : unsupported) : str :=
  match u with
  | UWindow => $"WINDOWFUNC_NOT_YET_IMPLEMENTED" | USwitch => $"SWITCH_NOT_YET_IMPLEMENTED" | USingularOrList => $"SINGORLIST_NOT_YET_IMPLEMENTED"
  | UMultiOrList => $"MULTIORLIST_NOT_YET_IMPLEMENTED" | UNested => $"NESTED_NOT_YET_IMPLEMENTED" | UEnum => $"ENUM_EXPRESSION_DEPRECATED"
  end.

(** 274-444: the relation of a subquery *)
Definition print_rel (rel : option str) : printed := match rel with Some n => (n, 0) | None => ([], 1) end.
Definition unsupported_subquery : str := $"UNSUPPORTED SUBQUERY".
Definition print_predicate (q : predicate) : option str := match q with QExists => Some $"EXISTS IN " | QUnique => Some $"UNIQUE IN " | QUnspecified => None end.
Definition print_reduction (r : option reduction) : option str := match r with Some RedAny => Some $"ANY " | Some RedAll => Some $"ALL " | None => None end.

Section Print.
  (** 255-270 lookupFunctionReference and 137-189 lookupFieldReference in the current scope (FieldModel has them): the name, if there is one *)
  Variable function_name : N -> option str.
  Variable field_name : N -> Z -> option str.
  Definition lookupFunctionReference (f : N) : printed :=
    match function_name f with Some n => (n, 0) | None => ($"functionref#" ++ print_N f, 1) end.
  Definition lookupFieldReference (steps : N) (field : Z) : printed :=
    match field_name steps field with Some n => (n, 0) | None => ($"field#" ++ print_Z (field mod 2 ^ 32), 1) end.
  (** 667-690: struct_field() of another kind of segment is an empty message, whose field is 0. *)
  Definition field_of (s : segment) : Z := match s with SegField f _ => f | _ => 0%Z end.
  Definition steps_of (r : root) : N := match r with RootOuter n => n | _ => 0%N end.
  (** 696-755 visitScalarFunction, 764-790 visitIfThen, 815-822 visitCast; BasePlanProtoVisitor.cpp 637-670 visitExpression.
      typeToText is visitType. *)
  Fixpoint printExpr (depth : nat) (e : expr) : outcome printed :=
    match e with
    | EUnset => Throw EUnsupported
    | ELit l => Ok (printLiteral l)
    | ESel s r => Ok (lookupFieldReference (steps_of r) (field_of s))
    | EMasked _ | ESelNone _ => Throw EBadAnyCast       (* a char pointer is cast to a string *)
    | EFun f args deprecated _ ty =>
        let name := lookupFunctionReference f in
        a <- commas (map (fun a => match a with
               | AValue e => printExpr (S depth) e
               | AEnum s => Ok (s ++ $"_enum", 0)
               | AType t => Ok (printType t)
               | AUnset => Ok ($"SCALAR_FUNCTION_ARGUMENT_TYPE_MISSING", 1)
               end) args ++ map (printExpr (S depth)) deprecated) ;;
        let t := printType ty in
        Ok (indent depth ++ fst name ++ $"(" ++ fst a ++ $")->" ++ fst t,
            snd name + snd a + (match args, deprecated with [], [] => 1 | _, _ => 0 end) + snd t)
    | EIfThen ifs els =>
        let clauses := map (fun c => match c with
          | (Some i, Some t) => Some [printExpr depth i; printExpr depth t]
          | _ => None
          end) ifs in
        let parts := concat (map (fun c => match c with Some l => l | None => [] end) clauses) ++ match els with Some e => [printExpr depth e] | None => [] end in
        a <- commas parts ;;
        Ok ($"IFTHEN(" ++ fst a ++ $")", snd a + length (filter (fun c => match c with None => true | _ => false end) clauses))
    | ECast input ty _ =>
        a <- printExpr depth input ;; let t := printType ty in Ok (fst a ++ $" AS " ++ fst t, snd a + snd t)
    (* 274-297, 299-327, 329-369 and 371-444 visitSubqueryScalar, visitSubqueryInPredicate, visitSubquerySetPredicate, visitSubquerySetComparison *)
    | EScalar rel => let r := print_rel rel in Ok ($"SUBQUERY " ++ fst r, snd r)
    | EIn needles rel =>
        a <- commas (map (printExpr depth) needles) ;; let r := print_rel rel in Ok ($"(" ++ fst a ++ $") IN SUBQUERY " ++ fst r, snd a + snd r)
    | ESet op rel =>
        match print_predicate op with
        | Some t => let r := print_rel rel in Ok (t ++ $"SUBQUERY " ++ fst r, snd r)
        | None => Ok (unsupported_subquery, 1)
        end
    | ECompare op red lhs rel =>
        a <- match lhs with Some e => a <- printExpr depth e ;; Ok (fst a ++ $" ", snd a) | None => Ok ([], 1) end ;;
        match print_comparison op, print_reduction red with
        | Some o, Some d => let r := print_rel rel in Ok (fst a ++ o ++ $" " ++ d ++ $"SUBQUERY " ++ fst r, snd a + snd r)
        | _, _ => Ok (unsupported_subquery, snd a + 1)
        end
    | EOther u => Ok (other_text u, 1)
    end.
End Print.

(** * Parsing *)
(** The text of a rule is the text of its tokens ([getText]). *)
Definition consumed (ts rest : list token) : str := concat (map snd (firstn (length ts - length rest) ts)).
(** The rest after a token of a given kind, with its text *)
Definition t_comma (ts : list token) := match ts with (COMMA, t) :: r => Some (t, r) | _ => None end.
Definition t_number (ts : list token) := match ts with (NUMBER, t) :: r => Some (t, r) | _ => None end.
Definition t_question (ts : list token) := match ts with (QUESTIONMARK, t) :: r => Some (t, r) | _ => None end.
Definition t_langle (ts : list token) := match ts with (LEFTANGLEBRACKET, t) :: r => Some (t, r) | _ => None end.
Definition t_rangle (ts : list token) := match ts with (RIGHTANGLEBRACKET, t) :: r => Some (t, r) | _ => None end.
Definition t_under (ts : list token) := match ts with (UNDERSCORE, t) :: r => Some (t, r) | _ => None end.
Definition t_period (ts : list token) := match ts with (PERIOD, t) :: r => Some (t, r) | _ => None end.
Definition t_colon (ts : list token) := match ts with (COLON, t) :: r => Some (t, r) | _ => None end.
Definition t_rbrace (ts : list token) := match ts with (RIGHTBRACE, t) :: r => Some (t, r) | _ => None end.
Definition t_lparen (ts : list token) := match ts with (LEFTPAREN, t) :: r => Some (t, r) | _ => None end.
Definition t_rparen (ts : list token) := match ts with (RIGHTPAREN, t) :: r => Some (t, r) | _ => None end.
Definition t_arrow (ts : list token) := match ts with (ARROW, t) :: r => Some (t, r) | _ => None end.
Definition t_as (ts : list token) := match ts with (AS, t) :: r => Some (t, r) | _ => None end.
(** a token that need not be there *)
Definition maybe (o : option (str * list token)) (ts : list token) : str * list token := match o with Some x => x | None => ([], ts) end.

(** literal_specifier after its first number *)
Fixpoint p_spec (fuel : nat) (acc : str) (ts : list token) : option (str * list token) :=
  match t_rangle ts with
  | Some (t, r) => Some (acc ++ t, r)
  | None => match fuel, t_comma ts with
            | S fuel, Some (c, r) => match t_number r with Some (n, r) => p_spec fuel (acc ++ c ++ n) r | None => None end
            | _, _ => None
            end
  end.
(** literal_basic_type; the text *)
Definition p_basic (ts : list token) : option (str * list token) :=
  match p_id ts with
  | None => None
  | Some (n, r) =>
    let '(q, r) := maybe (t_question r) r in
    match t_langle r with
    | Some (t, r) => match t_number r with Some (x, r) => p_spec (length r) (n ++ q ++ t ++ x) r | None => None end
    | None => Some (n ++ q, r)
    end
  end.
(** literal_complex_type; the text.  Optional parts are there when they can start. *)
Inductive tstart := TBasic | TList (t : str) (r : list token) | TMap (t : str) (r : list token) | TStruct (t : str) (r : list token) | TNo.
Definition t_start (ts : list token) : tstart :=
  match ts with
  | [] => TNo
  | (k, t) :: r => match k with LIST => TList t r | MAP => TMap t r | STRUCT => TStruct t r | _ => if simple_id k then TBasic else TNo end
  end.
Fixpoint p_complex (fuel : nat) (ts : list token) : option (str * list token) :=
  match fuel with
  | O => None
  | S fuel =>
    let optional (ts : list token) := match t_start ts with TNo => Some ([], ts) | _ => p_complex fuel ts end in
    let close (acc : str) (ts : list token) := match t_rangle ts with Some (t, r) => Some (acc ++ t, r) | _ => None end in
    let opened (t : str) (r : list token) :=
      let '(q, r) := maybe (t_question r) r in match t_langle r with Some (l, r) => Some (t ++ q ++ l, r) | None => None end in
    match t_start ts with
    | TList t r =>
        match opened t r with
        | Some (t, r) => match optional r with Some (e, r) => close (t ++ e) r | None => None end
        | None => None
        end
    | TMap t r =>
        match opened t r with
        | Some (t, r) =>
            match (match t_start r with TBasic => p_basic r | _ => Some ([], r) end) with
            | Some (a, r) =>
                let '(c, r) := maybe (t_comma r) r in
                match optional r with Some (b, r) => close (t ++ a ++ c ++ b) r | None => None end
            | None => None
            end
        | None => None
        end
    | TStruct t r =>
        match opened t r with
        | Some (t, r) =>
            match optional r with
            | Some (a, r) =>
                (fix more (n : nat) (acc : str) (ts : list token) : option (str * list token) :=
                   match n, t_comma ts with
                   | S n, Some (c, r) => match p_complex fuel r with Some (b, r) => more n (acc ++ c ++ b) r | None => None end
                   | _, _ => close acc ts
                   end) (length r) (t ++ a) r
            | None => None
            end
        | None => None
        end
    | TBasic => p_basic ts
    | TNo => None
    end
  end.
(** constant, with the text of its type *)
Inductive cnode :=
| CNumber (t : str) (ty : option str) | CString (t : str) (ty : option str) | CTrue (ty : option str) | CFalse (ty : option str) | CNull (ty : option str)
| CMap (l : list (cnode * cnode)) (ty : option str) | CStruct (l : list cnode) (ty : option str).
Definition p_suffix {A} (p : list token -> option (str * list token)) (f : option str -> A) (ts : list token) : option (A * list token) :=
  match t_under ts with
  | Some (_, r) => match p r with Some (t, r) => Some (f (Some t), r) | None => None end
  | None => Some (f None, ts)
  end.
Inductive cstart := SNumber (t : str) (r : list token) | SStr (t : str) (r : list token) | STrue (r : list token) | SFalse (r : list token) | SNull (r : list token)
| SBrace (r : list token) | SNo.
Definition c_start (ts : list token) : cstart :=
  match ts with
  | [] => SNo
  | (k, t) :: r => match k with NUMBER => SNumber t r | STRING => SStr t r | TRUEVAL => STrue r | FALSEVAL => SFalse r | NULLVAL => SNull r | LEFTBRACE => SBrace r | _ => SNo end
  end.
Fixpoint p_constant (fuel : nat) (ts : list token) : option (cnode * list token) :=
  match fuel with
  | O => None
  | S fuel =>
    let p_pair (ts : list token) : option ((cnode * cnode) * list token) :=
      match p_constant fuel ts with
      | Some (k, r) =>
        match t_colon r with
        | Some (_, r) => match p_constant fuel r with Some (v, r) => Some ((k, v), r) | None => None end
        | None => None
        end
      | None => None
      end in
    let more {A : Type} (p : list token -> option (A * list token)) :=
      fix more (n : nat) (ts : list token) : option (list A * list token) :=
        match t_rbrace ts with
        | Some (_, r) => Some ([], r)
        | None => match n, t_comma ts with
                  | S n, Some (_, r) =>
                      match p r with
                      | Some (x, r) => match more n r with Some (l, r) => Some (x :: l, r) | None => None end
                      | None => None
                      end
                  | _, _ => None
                  end
        end in
    let listed {A : Type} (p : list token -> option (A * list token)) (f : list A -> option str -> cnode) (ts : list token) : option (cnode * list token) :=
      match p ts with
      | Some (x, r) => match more p (length r) r with Some (l, r) => p_suffix (p_complex fuel) (f (x :: l)) r | None => None end
      | None => None
      end in
    match c_start ts with
    | SNumber t r => p_suffix p_basic (CNumber t) r
    | SStr t r => p_suffix p_basic (CString t) r
    | STrue r => p_suffix p_basic CTrue r
    | SFalse r => p_suffix p_basic CFalse r
    | SNull r => p_suffix (p_complex fuel) CNull r
    | SBrace r =>
        match t_rbrace r with
        | Some (_, r) => p_suffix (p_complex fuel) (CMap []) r       (* map_literal is the first alternative *)
        | None =>
            match p_constant fuel r with
            | Some (_, r') => match t_colon r' with Some _ => listed p_pair CMap r | None => listed (p_constant fuel) CStruct r end
            | None => None
            end
        end
    | SNo => None
    end
  end.
(** expression; arguments with their texts *)
Inductive enode :=
| NFun (name : str) (args : list (str * enode)) (ty : option str)
| NConst (c : cnode)
| NCol (text : str)
| NCast (e : enode) (ty : str)
(* subqueries, with the text of the reference to the relation *)
| NScalar (rel : str)
| NIn (l : list enode) (rel : str)
| NSet (exists_ : bool) (rel : str)
| NCompare (e : enode) (op : str) (any_ : bool) (rel : str).
(** relation_ref; the name *)
Definition t_schema (ts : list token) := match ts with (SCHEMA, t) :: r => Some (t, r) | _ => None end.
Definition p_ref (ts : list token) : option (str * list token) :=
  match p_id ts with
  | Some (n, r) =>
    match t_lparen r with
    | None => Some (n, r)
    | Some (_, r) =>
      match t_schema r with
      | Some (_, r) => match p_id r with Some (_, r) => match t_rparen r with Some (_, r) => Some (n, r) | None => None end | None => None end
      | None => None
      end
    end
  | None => None
  end.
(** [SUBQUERY relation_ref]; the text of the reference *)
Definition t_subquery (ts : list token) := match ts with (SUBQUERY, t) :: r => Some (t, r) | _ => None end.
Definition p_text (ts : list token) : option (str * list token) := match p_ref ts with Some (_, r) => Some (consumed ts r, r) | None => None end.
Definition p_subquery (ts : list token) : option (str * list token) := match t_subquery ts with Some (_, r) => p_text r | None => None end.
Definition p_in_subquery (ts : list token) : option (str * list token) := match ts with (IN, _) :: r => p_subquery r | _ => None end.
(** [COMPARISON (ALL | ANY) SUBQUERY]: a comparison is also a name, so all three tokens must be there. *)
Definition t_compare (ts : list token) : option (str * bool * list token) :=
  match ts with
  | (COMPARISON, t) :: (ALL, _) :: (SUBQUERY, _) :: r => Some (t, false, r)
  | (COMPARISON, t) :: (ANY, _) :: (SUBQUERY, _) :: r => Some (t, true, r)
  | _ => None
  end.
Inductive qstart := QSub | QSet (exists_ : bool) (r : list token) | QList (r : list token) | QNo.
Definition q_start (ts : list token) : qstart :=
  match ts with
  | [] => QNo
  | (k, _) :: r => match k with SUBQUERY => QSub | EXISTS => QSet true r | UNIQUE => QSet false r | LEFTPAREN => QList r | _ => QNo end
  end.
Definition p_column (ts : list token) : option (enode * list token) :=
  match p_id ts with
  | Some (n, r) => match t_period r with
                   | Some (p, r) => match p_id r with Some (m, r) => Some (NCol (n ++ p ++ m), r) | None => None end
                   | None => Some (NCol n, r)
                   end
  | None => None
  end.
Definition p_constant_expr (fuel : nat) (ts : list token) : option (enode * list token) :=
  match p_constant fuel ts with Some (c, r) => Some (NConst c, r) | None => None end.
(** null is a constant unless what follows makes it a longer name. *)
Definition p_null_expr (fuel : nat) (ts : list token) : option (enode * list token) :=
  match p_constant_expr fuel ts with
  | Some (c, r) => match t_period r, t_under r with None, None => Some (c, r) | _, _ => p_column ts end
  | None => p_column ts
  end.
(** [expression AS literal_complex_type] and [expression COMPARISON (ALL | ANY) SUBQUERY relation_ref]: the rule is left recursive. *)
Fixpoint p_casts (fuel : nat) (e : enode) (ts : list token) : option (enode * list token) :=
  match fuel with
  | O => None
  | S fuel => match t_as ts with
              | Some (_, r) => match p_complex fuel r with Some (t, r) => p_casts fuel (NCast e t) r | None => None end
              | None => match t_compare ts with
                        | Some (c, any_, r) => match p_text r with Some (n, r) => p_casts fuel (NCompare e c any_ n) r | None => None end
                        | None => Some (e, ts)
                        end
              end
  end.
(** a name before a parenthesis *)
Definition t_call (ts : list token) : option (str * list token) :=
  match p_id ts with
  | Some (n, r) => match t_lparen r with Some (_, r) => Some (n, r) | None => None end
  | None => None
  end.
(** ANTLR takes the first alternative that the following tokens allow. *)
Fixpoint p_expr (fuel : nat) (ts : list token) : option (enode * list token) :=
  match fuel with
  | O => None
  | S fuel =>
    match (match t_call ts with
      | Some (n, r) =>
          match p_args fuel r with
          | Some (l, r) =>
              match t_arrow r with
              | Some (_, r) => match p_complex fuel r with Some (t, r) => Some (NFun n l (Some t), r) | None => None end
              | None => Some (NFun n l None, r)
              end
          | None => None
          end
      | None =>
          match c_start ts with
          | SNo =>
              match q_start ts with
              | QNo => p_column ts
              | QSub => match p_subquery ts with Some (n, r) => Some (NScalar n, r) | None => None end
              | QSet b r => match p_in_subquery r with Some (n, r) => Some (NSet b n, r) | None => None end
              | QList r =>
                  match p_list fuel r with
                  | Some (l, r) => match p_in_subquery r with Some (n, r) => Some (NIn l n, r) | None => None end
                  | None => None
                  end
              end
          | SNull _ => p_null_expr fuel ts
          | _ => p_constant_expr fuel ts
          end
      end) with
    | Some (e, r) => p_casts fuel e r
    | None => None
    end
  end
with p_args (fuel : nat) (ts : list token) : option (list (str * enode) * list token) :=
  match fuel with
  | O => None
  | S fuel =>
    match t_rparen ts with
    | Some (_, r) => Some ([], r)
    | None =>
      match p_expr fuel ts with
      | Some (e, r) =>
          let '(_, r') := maybe (t_comma r) r in
          match p_args fuel r' with
          | Some (l, r') => Some ((consumed ts r, e) :: l, r')
          | None => None
          end
      | None => None
      end
    end
  end
(** expression_list after its parenthesis *)
with p_list (fuel : nat) (ts : list token) : option (list enode * list token) :=
  match fuel with
  | O => None
  | S fuel =>
    match p_expr fuel ts with
    | Some (e, r) =>
        match t_comma r with
        | Some (_, r) => match p_list fuel r with Some (l, r) => Some (e :: l, r) | None => None end
        | None => match t_rparen r with Some (_, r) => Some ([e], r) | None => None end
        end
    | None => None
    end
  end.

(** * Evaluation *)
Inductive eerr :=
| XType (t : terr) | XNullType | XNoType | XMismatch | XUnsupported | XEscape (at_ : nat) | XNumber | XDecimal | XStringType | XUuidDigits | XUuidLength | XDate | XTimestamp | XTime
| XListPairs | XMapPairs | XFieldCount | XNotFunction (n : str) | XNoField (n : str) | XNoRelation (n : str) | XNotExpression.
Definition evaluated (A : Type) := outcome (A * list eerr).
Definition good {A} (a : A) : evaluated A := Ok (a, []).
Definition none (e : list eerr) : evaluated literal := Ok (Lit LUnset false, e).
Definition bindE {A B} (x : evaluated A) (f : A -> evaluated B) : evaluated B := a <- x ;; b <- f (fst a) ;; Ok (fst b, snd a ++ snd b).
Section Each.
  Context {A B : Type}.
  Variable f : A -> evaluated B.
  Fixpoint eachE (l : list A) : evaluated (list B) :=
    match l with [] => good [] | x :: r => bindE (f x) (fun y => bindE (eachE r) (fun ys => good (y :: ys))) end.
End Each.
Definition read_type (inside : bool) (t : str) : evaluated ptype := x <- textToTypeProto inside t ;; Ok (fst x, map XType (snd x)).

(** SubstraitPlanRelationVisitor.cpp 52-155 setNullable *)
Definition setNullable (t : ptype) : ptype :=
  match t with
  | PtNone => PtNone | PtScalar k _ => PtScalar k NNullable | PtFixedChar l _ => PtFixedChar l NNullable | PtVarchar l _ => PtVarchar l NNullable
  | PtFixedBinary l _ => PtFixedBinary l NNullable | PtDecimal p s _ => PtDecimal p s NNullable | PtStruct l _ => PtStruct l NNullable
  | PtList e _ => PtList e NNullable | PtMap k v _ => PtMap k v NNullable | PtUserDefined r => PtUserDefined r
  end.
Definition is_null (n : pnull) : bool := match n with NNullable => true | _ => false end.
(** [std::stol] on a 64 bit long *)
Definition stol (s : str) : outcome Z :=
  let t := ltrim s in
  let '(neg, r) := match t with
    | c :: r => if ceq c "-"%char then (true, r) else if ceq c "+"%char then (false, r) else (false, t)
    | [] => (false, []) end in
  match take_digits r with
  | [] => Throw EStdInvalid
  | ds => let z := Z.of_N (digits_val 0 ds) in let z := if neg then (- z)%Z else z in
          if (-9223372036854775808 <=? z)%Z && (z <=? 9223372036854775807)%Z then Ok z else Throw EStdOutOfRange
  end.
(** 1796-1883 visitNumber; every exception is reported as an error. *)
Definition caught {A} (o : outcome A) (f : A -> evaluated literal) : evaluated literal :=
  match o with Ok a => f a | Throw _ => none [XNumber] | UB => UB end.
Definition visitNumber (s : str) (t : ptype) : evaluated literal :=
  match t with
  | PtScalar SI8 n => caught (stoi s) (fun z => good (Lit (LI8 z) (is_null n)))
  | PtScalar SI16 n => caught (stoi s) (fun z => good (Lit (LI16 z) (is_null n)))
  | PtScalar SI32 n => caught (stoi s) (fun z => good (Lit (LI32 z) (is_null n)))
  | PtScalar SI64 n => caught (stol s) (fun z => good (Lit (LI64 z) (is_null n)))
  | PtScalar SFp32 n => caught (stod single s) (fun v => good (Lit (LFp32 v) (is_null n)))
  | PtScalar SFp64 n => caught (stod double s) (fun v => good (Lit (LFp64 v) (is_null n)))
  | PtDecimal p sc n =>
      let d := fromString s p sc in
      if isValid d then good (Lit (LDecimal (toProto d)) (is_null n)) else none [XDecimal]
  | _ => none []
  end.
(** 1611-1705 visitString *)
Definition is_hex (c : ascii) : bool := match hex_digit c with Some _ => true | None => false end.
Definition visitString (input : str) (t : ptype) : evaluated literal :=
  match evalString input with
  | None => Throw EFuel
  | Some (s, errs) =>
    let errs := map XEscape errs in
    let give (v : lvalue) : evaluated literal := Ok (Lit v false, errs) in
    match t with
    | PtScalar SString _ => give (LString s)
    | PtFixedChar _ _ => give (LFixedChar s)
    | PtVarchar len _ => give (LVarChar s len)
    | PtScalar SBinary _ => give (LBinary s)
    | PtFixedBinary _ _ => give (LFixedBinary s)
    | PtScalar SUuid _ =>
        let m := filter (fun c => negb (ceq c "-"%char)) s in
        if negb (forallb is_hex m) then Ok (Lit (LUuid $"0") false, errs ++ [XUuidDigits])
        else if negb (length m =? 32) then Ok (Lit (LUuid (firstn 32 m)) false, errs ++ [XUuidLength])
        else give (LUuid m)
    | PtNone => none errs
    | _ => none (errs ++ [XStringType])
    end
  end.
(** 2042-2062 visitDate *)
Definition visitDate (input : str) : evaluated literal :=
  match evalString input with
  | None => Throw EFuel
  | Some (s, errs) => match parse_date s with
                      | Some z => Ok (Lit (LDate z) false, map XEscape errs)
                      | None => none (map XEscape errs ++ [XDate])
                      end
  end.
(** 1990-2009 visitTimestamp; 2064-2089 visitTime *)
Definition visitTimestamp (input : str) : evaluated literal :=
  match evalString input with
  | None => Throw EFuel
  | Some (s, errs) => match parse_timestamp s with
                      | PValue z => v <- to_time_t z ;; Ok (Lit (LTimestamp v) false, map XEscape errs)
                      | PFail => none (map XEscape errs ++ [XTimestamp])
                      | PUnknown => Ok (Lit (LNotModelled input) false, map XEscape errs)
                      end
  end.
Definition visitTime (input : str) : evaluated literal :=
  match evalString input with
  | None => Throw EFuel
  | Some (s, errs) => match parse_time s with
                      | PValue z => Ok (Lit (LTime z) false, map XEscape errs)
                      | PFail => none (map XEscape errs ++ [XTime])
                      | PUnknown => Ok (Lit (LNotModelled input) false, map XEscape errs)
                      end
  end.
Definition i32_of (l : literal) : Z := match l with Lit (LI32 z) _ => z | _ => 0%Z end.
Definition fields_of (l : literal) : list literal := match l with Lit (LStruct l) _ => l | _ => [] end.
Definition type_of (c : cnode) : option str :=
  match c with CNumber _ t | CString _ t | CTrue t | CFalse t | CNull t | CMap _ t | CStruct _ t => t end.
(** 1406-1438 visitConstant ([given] is None: the constant has its own type or none), 1440-1463, 1485-1609 visitConstantWithType and 1885-1989 (the type is given:
    then the types written inside are not looked at).  [inside]: a type next to a literal in braces is inside a struct literal
    (SubstraitPlanTypeVisitor.cpp 189-202), where unknown types are not reported. *)
Fixpoint visitConst (inside : bool) (c : cnode) (given : option ptype) {struct c} : evaluated literal :=
  let inside := inside || match c with CStruct _ _ => true | _ => false end in
  let structure (l : list cnode) (ts : list ptype) : evaluated literal :=
    bindE ((fix each2 (l : list cnode) (ts : list ptype) : evaluated (list literal) :=
      match l, ts with
      | c :: l, t :: ts => bindE (visitConst inside c (Some t)) (fun v => bindE (each2 l ts) (fun vs => good (v :: vs)))
      | _, _ => good []
      end) l ts) (fun vs =>
      Ok (match vs with [] => Lit LUnset false | _ => Lit (LStruct vs) false end, if length l =? length ts then [] else [XFieldCount])) in
  let pairs (l : list (cnode * cnode)) (k v : option ptype) : evaluated (list (literal * literal)) :=
    (fix each (l : list (cnode * cnode)) : evaluated (list (literal * literal)) :=
      match l with
      | [] => good []
      | (a, b) :: l => bindE (visitConst inside a k) (fun x => bindE (visitConst inside b v) (fun y => bindE (each l) (fun r => good ((x, y) :: r))))
      end) l in
  let i32 := PtScalar SI32 NUnspecified in
  let typed (t : ptype) : evaluated literal :=
    match c with
    | CNumber s _ => visitNumber s t
    | CString s _ =>
        match t with
        | PtScalar SDate _ => visitDate s
        | PtScalar STimestamp _ => visitTimestamp s
        | PtScalar STime _ => visitTime s
        | PtScalar STimestampTz _ => good (Lit (LNotModelled s) false)
        | _ => visitString s t
        end
    | CTrue _ => match t with PtScalar SBool _ => good (Lit (LBool true) false) | _ => none [XMismatch] end
    | CFalse _ => match t with PtScalar SBool _ => good (Lit (LBool false) false) | _ => none [XMismatch] end
    | CNull _ => good (Lit (LNull (setNullable t)) false)
    | CMap l _ =>
        match t with
        | PtStruct _ _ => good (Lit (LStruct []) false)      (* whatever the pairs are *)
        | PtList e n => bindE (pairs l None None) (fun _ => Ok (Lit (LEmptyList e n) false, match l with [] => [] | _ => [XListPairs] end))
        | PtMap k v n => match l with
                         | [] => good (Lit (LEmptyMap t) false)
                         | _ => bindE (pairs l (Some k) (Some v)) (fun l => good (Lit (LMap l) false))
                         end
        | PtScalar SIntervalYear _ | PtScalar SIntervalDay _ => UB          (* fields(0) of a message without fields *)
        | _ => none [XUnsupported]
        end
    | CStruct l _ =>
        match t with
        | PtStruct ts _ => structure l ts
        | PtList e _ =>
            bindE ((fix each (l : list cnode) : evaluated (list literal) :=
               match l with [] => good [] | c :: l => bindE (visitConst inside c (Some e)) (fun x => bindE (each l) (fun r => good (x :: r))) end) l)
              (fun l => good (Lit (LList l) false))
        | PtMap _ _ _ => Ok (Lit (LEmptyMap t) false, [XMapPairs])
        | PtScalar SIntervalYear _ =>
            bindE (structure l [i32; i32]) (fun s => match fields_of s with
              | a :: b :: _ => good (Lit (LIntervalYear (i32_of a) (i32_of b)) false) | _ => UB end)
        | PtScalar SIntervalDay _ =>
            bindE (structure l [i32; i32; i32]) (fun s => match fields_of s with
              | a :: b :: c :: _ => good (Lit (LIntervalDay (i32_of a) (i32_of b) (i32_of c)) false) | _ => UB end)
        | _ => none [XUnsupported]
        end
    end in
  match given, type_of c with
  | Some t, _ => typed t
  | None, Some text => bindE (read_type inside text) typed
  | None, None =>
      match c with
      | CNull _ => none [XNullType]
      | CTrue _ => good (Lit (LBool true) false)
      | CFalse _ => good (Lit (LBool false) false)
      | CString s _ => visitString s (PtScalar SString NUnspecified)
      | _ => none [XNoType]
      end
  end.
Definition visitConstant (c : cnode) : evaluated literal := visitConst false c None.
Definition enum_suffix : str := $"_enum".
Fixpoint pairs_of {A} (l : list A) : list (A * A) * option A :=
  match l with a :: b :: r => let '(p, o) := pairs_of r in ((a, b) :: p, o) | [a] => ([], Some a) | [] => ([], None) end.

Section Visit.
  (** The function symbols of the table by name, and findFieldReferenceByName in the current scope: steps out and field number *)
  Variable find_function : str -> option N.
  (** whether there is a symbol of this name, and whether it is a relation *)
  Variable find_relation : str -> option bool.
  Variable find_field : str -> option (N * Z).
  Definition subquery {A} (n : str) (missing : A) (f : option str -> A) : evaluated A :=
    match find_relation n with Some true => good (f (Some n)) | Some false => Throw EBadAnyCast | None => Ok (missing, [XNoRelation n]) end.
  (** 1128-1393 visitExpression.  Only the relations of scalar subqueries are put into the message here; those of the others follow when the plan is
      written. *)
  Fixpoint visitExpr (e : enode) : evaluated expr :=
    match e with
    | NConst c => bindE (visitConstant c) (fun l => good (ELit l))
    | NCol t =>
        match find_field t with
        | Some (steps, f) => good (ESel (SegField f None) (if (0 <? steps)%N then RootOuter steps else RootRef))
        | None => Ok (EUnset, [XNoField t])
        end
    | NCast e t => bindE (visitExpr e) (fun x => bindE (read_type false t) (fun ty => good (ECast x ty 0)))
    | NFun n args ty =>
        if to_lower n =s $"ifthen" then
          bindE (eachE (fun a => let '(_, x) := a in visitExpr x) args) (fun l =>
            match l with [] => good EUnset | _ => let '(p, o) := pairs_of l in good (EIfThen (map (fun q => (Some (fst q), Some (snd q))) p) o) end)
        else
          bindE (match find_function n with Some f => good f | None => Ok (0%N, [XNotFunction n]) end) (fun f =>
          bindE (eachE (fun a => let '(text, x) := a in
                   if endsWith text enum_suffix then good (AEnum (firstn (length text - length enum_suffix) text))
                   else bindE (visitExpr x) (fun x => good (AValue x))) args) (fun l =>
          bindE (match ty with Some t => read_type false t | None => good PtNone end) (fun ty => good (EFun f l [] [] ty))))
    | NScalar n => subquery n EUnset EScalar
    | NIn l n =>                                          (* the needles are visited only if the relation is there *)
        match find_relation n with
        | None => Ok (EUnset, [XNoRelation n])
        | Some _ => bindE (eachE visitExpr l) (fun l => subquery n EUnset (EIn l))
        end
    | NSet b n => subquery n EUnset (ESet (if b then QExists else QUnique))
    | NCompare e op any_ n =>
        bindE (visitExpr e) (fun x =>
          let y := ECompare (comparisonToProto op) (Some (if any_ then RedAny else RedAll)) (Some x) in subquery n (y None) y)
    end.
  (** SubstraitPlanRelationVisitor.cpp 2143-2190 hasSubquery *)
  Fixpoint has_subquery (e : enode) : bool :=
    match e with
    | NConst _ | NCol _ => false
    | NFun _ args _ => existsb (fun a => let '(_, x) := a in has_subquery x) args
    | NCast e _ => has_subquery e
    | NScalar _ | NIn _ _ | NSet _ _ | NCompare _ _ _ _ => true
    end.
  (** The pass before, SubstraitPlanRelationVisitor.cpp 1078-1261.  It has no functions for subqueries, so the result of their parts is taken: nothing for
      [SUBQUERY r] and [EXISTS IN SUBQUERY r], a list for [(a, b) IN SUBQUERY r] and the left side for [a EQ ANY SUBQUERY r].  Arguments that hold
      subqueries are left out.  Columns are not looked up in the relations of subqueries ([inner]). *)
  Inductive first := FNone | FList (l : list expr) | FExpr (e : expr).
  Definition as_expr (x : evaluated first) : evaluated expr := bindE x (fun a => match a with FExpr e => good e | _ => Throw EBadAnyCast end).
  Fixpoint visitFirst (inner : bool) (e : enode) : evaluated first :=
    match e with
    | NConst c => bindE (visitConstant c) (fun l => good (FExpr (ELit l)))
    | NCol t =>
        if inner then good (FExpr EUnset)
        else match find_field t with
             | Some (steps, f) => good (FExpr (ESel (SegField f None) (if (0 <? steps)%N then RootOuter steps else RootRef)))
             | None => good (FExpr EUnset)                 (* 2075-2077: left to the next pass to report *)
             end
    | NCast e t => bindE (as_expr (visitFirst inner e)) (fun x => bindE (read_type false t) (fun ty => good (FExpr (ECast x ty 0))))
    | NFun n args ty =>
        if to_lower n =s $"ifthen" then
          bindE (eachE (fun a => let '(_, x) := a in as_expr (visitFirst inner x)) args) (fun l =>
            good (FExpr (match l with [] => EUnset | _ => let '(p, o) := pairs_of l in EIfThen (map (fun q => (Some (fst q), Some (snd q))) p) o end)))
        else
          bindE (match find_function n with Some f => good f | None => Ok (0%N, [XNotFunction n]) end) (fun f =>
          bindE (eachE (fun a => let '(text, x) := a in
                   if endsWith text enum_suffix then good (AEnum (firstn (length text - length enum_suffix) text))
                   else if has_subquery x then good (AValue EUnset)
                   else bindE (visitFirst inner x) (fun a => match a with FExpr x => good (AValue x) | _ => Ok (AUnset, [XNotExpression]) end)) args) (fun l =>
          bindE (match ty with Some t => read_type false t | None => good PtNone end) (fun ty => good (FExpr (EFun f l [] [] ty)))))
    | NScalar _ | NSet _ _ => good FNone
    | NIn l _ => bindE (eachE (fun x => as_expr (visitFirst inner x)) l) (fun l => good (FList l))
    | NCompare e _ _ _ => visitFirst inner e
    end.
  (** A whole text that is one expression *)
  Definition readExpr (s : str) : option (evaluated expr) :=
    match tokens s with
    | Some ts => match p_expr (S (2 * length ts)) ts with Some (e, []) => Some (visitExpr e) | _ => None end
    | None => None
    end.
End Visit.
