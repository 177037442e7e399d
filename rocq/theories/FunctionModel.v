(** Model of include/substrait/function/*.h and src/substrait/function/*.cpp. *)
From Verif Require Import Base StringsModel TypeModel.

(** Function.h 12-83: enum, type and value arguments. *)
Inductive farg := AEnum (required : bool) | AType | AValue (t : ty).
(** Function.h 85-88. *)
Record variadic := { v_min : Z; v_max : option Z }.
(** Function.h 92-118 FunctionImplementation and AggregateFunctionImplementation ([f_intermediate] is TNull for none;
    [f_aggregate] tells which class, hence which tryMatch, the object has; [deterministic] is never read). *)
Record fimpl := {
  f_name : str; f_uri : str; f_args : list farg; f_return : ty; f_variadic : option variadic;
  f_aggregate : bool; f_intermediate : ty
}.
(** FunctionSignature.h 9-13. *)
Record query := { q_name : str; q_args : list ty; q_return : ty }.

(** An int compared with a size_t is converted to size_t (64 bit). *)
Definition to_size (z : Z) : Z := (z mod 2 ^ 64)%Z.

(** The two argument loops, Function.cpp 22-26 and 43-48. *)
Fixpoint match_all (d : ty) (l : list ty) : outcome bool :=
  match l with
  | [] => Ok true
  | a :: r => b <- isMatch d a ;; if b then match_all d r else Ok false
  end.
Fixpoint match_each (ds l : list ty) : outcome bool :=
  match ds, l with
  | d :: ds', a :: r => b <- isMatch d a ;; if b then match_each ds' r else Ok false
  | _, _ => Ok true
  end.
(** Function.cpp 30-36. *)
Fixpoint value_types (l : list farg) : list ty :=
  match l with
  | [] => []
  | AValue t :: r => t :: value_types r
  | _ :: r => value_types r
  end.

(** Function.cpp 8-55 FunctionImplementation::tryMatch. *)
Definition match_return (f : fimpl) (s : query) : outcome bool :=
  match f_return f, q_return s with
  | TNull, _ | _, TNull => Ok true
  | r, r' => isMatch r r'
  end.
Definition tryMatch_base (f : fimpl) (s : query) : outcome bool :=
  let n := Z.of_nat (length (q_args s)) in
  match f_variadic f with
  | Some v =>
      if (n <? to_size (v_min v))%Z || (match v_max v with Some m => (to_size m <? n)%Z | None => false end) then Ok false
      else match f_args f with
           | [] => UB
           | AValue t :: _ => b <- match_all t (q_args s) ;; if b then match_return f s else Ok false
           | _ :: _ => match_return f s
           end
  | None =>
      let vs := value_types (f_args f) in
      if negb (length vs =? length (q_args s)) then Ok false
      else b <- match_each vs (q_args s) ;; if b then match_return f s else Ok false
  end.
(** Function.cpp 75-85 AggregateFunctionImplementation::tryMatch (virtual dispatch on the class). *)
Definition tryMatch (f : fimpl) (s : query) : outcome bool :=
  b <- tryMatch_base f s ;;
  if f_aggregate f then
    if b then Ok true
    else match f_intermediate f, q_args s with
         | TNull, _ => Ok false
         | i, [a] => isMatch i a
         | _, _ => Ok false
         end
  else Ok b.

(** Function.h toTypeString and Function.cpp 57-73 signature. *)
Definition arg_signature (a : farg) : outcome str :=
  match a with
  | AEnum true => Ok $"req"
  | AEnum false => Ok $"opt"
  | AType => Ok $"type"
  | AValue t => signature t
  end.
Fixpoint join_args (l : list farg) : outcome str :=
  match l with
  | [] => Ok []
  | [a] => arg_signature a
  | a :: r => x <- arg_signature a ;; y <- join_args r ;; Ok (x ++ $"_" ++ y)
  end.
Definition f_signature (f : fimpl) : outcome str :=
  match f_args f with
  | [] => Ok (f_name f)
  | l => x <- join_args l ;; Ok (f_name f ++ $":" ++ x)
  end.

(** Extension.h 16-90: the three function maps and the type map.  An unordered_map is an association list;
    only find and insert are used. *)
Definition fmap := list (str * list fimpl).
Record extension := { x_scalar : fmap; x_aggregate : fmap; x_window : fmap; x_types : list (str * str) }.
Definition empty_extension := {| x_scalar := []; x_aggregate := []; x_window := []; x_types := [] |}.
Fixpoint find_impls (name : str) (m : fmap) : option (list fimpl) :=
  match m with
  | [] => None
  | (k, l) :: r => if k =s name then Some l else find_impls name r
  end.
Fixpoint find_type (name : str) (m : list (str * str)) : option (str * str) :=
  match m with
  | [] => None
  | (k, u) :: r => if k =s name then Some (k, u) else find_type name r
  end.
(** Extension.cpp 222-233, 247-258, 260-272: append to the found vector, else insert a new one. *)
Fixpoint add_impl (f : fimpl) (m : fmap) : fmap :=
  match m with
  | [] => [(f_name f, [f])]
  | (k, l) :: r => if k =s f_name f then (k, l ++ [f]) :: r else (k, l) :: add_impl f r
  end.
(** Extension.cpp 235-237: unordered_map::insert keeps an existing entry. *)
Definition add_type (name uri : str) (m : list (str * str)) : list (str * str) :=
  match find_type name m with Some _ => m | None => m ++ [(name, uri)] end.

Inductive fclass := Scalar | Aggregate | Window.
Inductive reg := RFunction (c : fclass) (f : fimpl) | RType (name uri : str).
Definition impls_of (c : fclass) (x : extension) : fmap :=
  match c with Scalar => x_scalar x | Aggregate => x_aggregate x | Window => x_window x end.
Definition register (x : extension) (r : reg) : extension :=
  match r with
  | RFunction Scalar f => {| x_scalar := add_impl f (x_scalar x); x_aggregate := x_aggregate x; x_window := x_window x; x_types := x_types x |}
  | RFunction Aggregate f => {| x_scalar := x_scalar x; x_aggregate := add_impl f (x_aggregate x); x_window := x_window x; x_types := x_types x |}
  | RFunction Window f => {| x_scalar := x_scalar x; x_aggregate := x_aggregate x; x_window := add_impl f (x_window x); x_types := x_types x |}
  | RType n u => {| x_scalar := x_scalar x; x_aggregate := x_aggregate x; x_window := x_window x; x_types := add_type n u (x_types x) |}
  end.
Definition registers (l : list reg) : extension := fold_left register l empty_extension.

(** FunctionLookup.cpp 7-19. *)
Fixpoint first_match (s : query) (l : list fimpl) : outcome (option fimpl) :=
  match l with
  | [] => Ok None
  | f :: r => b <- tryMatch f s ;; if b then Ok (Some f) else first_match s r
  end.
Definition lookupFunction (c : fclass) (x : extension) (s : query) : outcome (option fimpl) :=
  match find_impls (q_name s) (impls_of c x) with
  | Some l => first_match s l
  | None => Ok None
  end.
(** Extension.cpp 239-245. *)
Definition lookupType (x : extension) (name : str) : option (str * str) := find_type name (x_types x).

(** * Loading from YAML (Extension.cpp 7-220)
    A parsed document; [YUndef] is an invalid (missing) node.  Modelled from the yaml-cpp contract: subscripting a map
    gives the value or a missing node, a missing node and a scalar cannot be subscripted, null and sequences give a missing node. *)
Inductive yaml := YUndef | YNull | YScalar (s : str) | YSeq (l : list yaml) | YMap (l : list (str * yaml)).
Fixpoint assoc (k : str) (l : list (str * yaml)) : yaml :=
  match l with [] => YUndef | (k', v) :: r => if k' =s k then v else assoc k r end.
Definition sub (n : yaml) (k : str) : outcome yaml :=
  match n with
  | YMap l => Ok (assoc k l)
  | YNull | YSeq _ => Ok YUndef
  | YScalar _ | YUndef => Throw EYaml
  end.
Definition defined (n : yaml) : bool := match n with YUndef => false | _ => true end.
(** as<std::string>(); conversions of other nodes throw. *)
Definition as_string (n : yaml) : outcome str := match n with YScalar s => Ok s | _ => Throw EYaml end.
(** as<int>(): decimal integers (yaml-cpp also reads octal and hexadecimal ones, which are not modelled). *)
Definition as_int (n : yaml) : outcome Z :=
  match n with
  | YScalar s => if isInteger s then match stoi s with Ok z => Ok z | _ => Throw EYaml end else Throw EYaml
  | _ => Throw EYaml
  end.
(** as<bool>(): the YAML words in lower case (capitalised ones are not modelled). *)
Definition as_bool (n : yaml) : outcome bool :=
  match n with
  | YScalar s => if (s =s $"true") || (s =s $"yes") || (s =s $"on") || (s =s $"y") then Ok true
                 else if (s =s $"false") || (s =s $"no") || (s =s $"off") || (s =s $"n") then Ok false else Throw EYaml
  | _ => Throw EYaml
  end.
(** Range-for over a node: the elements of a sequence; iterating a map yields pairs, every conversion of which throws. *)
Definition elements (n : yaml) : list yaml :=
  match n with YSeq l => l | YMap l => map (fun _ => YUndef) l | _ => [] end.

(** Extension.cpp 18-20: [while (std::getline(ss, line, '\n')) {}].  The first getline that fails at the end of the input
    clears the string if the previous line was terminated by a newline, and leaves it alone otherwise;
    [cur] is the current content of the string (initially empty). *)
Fixpoint cut_line (s : str) : str * option str :=
  match s with
  | [] => ([], None)
  | c :: r => if ceq c "010"%char then ([], Some r) else let '(a, b) := cut_line r in (c :: a, b)
  end.
Fixpoint getlines (fuel : nat) (s : str) : outcome str :=
  match fuel with
  | O => Throw EFuel
  | S f => match s with
           | [] => Ok []
           | _ => let '(line, rest) := cut_line s in
                  match rest with None => Ok line | Some r => getlines f r end
           end
  end.
Definition last_line (s : str) : outcome str := getlines (S (length s)) s.

(** Extension.cpp 61-98: the three argument converters, chosen at 24-40. *)
Definition load_arg (n : yaml) : outcome farg :=
  o <- sub n $"options" ;;
  if defined o then
    match o with
    | YSeq _ => r <- sub n $"required" ;; if defined r then b <- as_bool r ;; Ok (AEnum b) else Ok (AEnum false)
    | _ => Throw EYaml
    end
  else
    v <- sub n $"value" ;;
    if defined v then
      match v with YScalar s => t <- decode true s ;; Ok (AValue t) | _ => Throw EYaml end
    else
      t <- sub n $"type" ;; if defined t then Ok AType else Throw EYaml.

(** Extension.cpp 7-59 decodeFunctionImpl, with 168-171 / 186-189 setting name and uri, and 107-122 for aggregates. *)
Definition load_impl (agg : bool) (name uri : str) (n : yaml) : outcome fimpl :=
  r <- sub n $"return" ;;
  ret <- match r with YScalar s => line <- last_line s ;; decode true line | _ => Ok TNull end ;;
  a <- sub n $"args" ;;
  args <- match a with YSeq l => omap load_arg l | _ => Ok [] end ;;
  v <- sub n $"variadic" ;;
  var <- (if defined v then
            mi <- sub v $"min" ;; ma <- sub v $"max" ;;
            if defined mi then
              zmi <- as_int mi ;;
              zma <- (if defined ma then z <- as_int ma ;; Ok (Some z) else Ok None) ;;
              Ok (Some {| v_min := zmi; v_max := zma |})
            else Ok None
          else Ok None) ;;
  inter <- (if agg then
              i <- sub n $"intermediate" ;;
              if defined i then s <- as_string i ;; decode true s else Ok TNull
            else Ok TNull) ;;
  Ok {| f_name := name; f_uri := uri; f_args := args; f_return := ret; f_variadic := var; f_aggregate := agg; f_intermediate := inter |}.

(** Extension.cpp 174-205: one entry of scalar_functions / aggregate_functions. *)
Definition load_function (agg : bool) (uri : str) (n : yaml) : outcome (list fimpl) :=
  nm <- sub n $"name" ;; name <- as_string nm ;;
  is <- sub n $"impls" ;;
  omap (load_impl agg name uri) (elements is).
Definition load_functions (agg : bool) (uri : str) (n : yaml) : outcome (list fimpl) :=
  match n with
  | YSeq l => ls <- omap (load_function agg uri) l ;; Ok (concat ls)
  | _ => Ok []
  end.
(** Extension.cpp 124-136, 207-215. *)
Definition load_type (uri : str) (n : yaml) : outcome (str * str) :=
  nm <- sub n $"name" ;; match nm with YScalar s => Ok (s, uri) | _ => Throw EYaml end.
(** Extension.cpp 166-220: one file; the registrations it makes, in order. *)
Definition load_file (uri : str) (doc : yaml) : outcome (list reg) :=
  sf <- sub doc $"scalar_functions" ;; ss <- load_functions false uri sf ;;
  af <- sub doc $"aggregate_functions" ;; aa <- load_functions true uri af ;;
  tf <- sub doc $"types" ;;
  ts <- match tf with YSeq l => omap (load_type uri) l | _ => Ok [] end ;;
  Ok (map (RFunction Scalar) ss ++ map (RFunction Aggregate) aa ++ map (fun p => RType (fst p) (snd p)) ts).
(** Extension.cpp 163-219; [YAML::LoadFile] is represented by the parsed documents. *)
Definition load_files (l : list (str * yaml)) : outcome extension :=
  rs <- omap (fun p => load_file (fst p) (snd p)) l ;; Ok (registers (concat rs)).
(** Extension.cpp 150-161: the path of an extension file ([find_last_of] = npos keeps the whole base path). *)
Definition extension_path (base file : str) : str :=
  (match rfind_char "/"%char base with Some i => firstn i base | None => base end) ++ $"/" ++ file.
