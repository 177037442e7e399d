(** Model of the declarations of extension spaces and functions: SymbolTablePrinter.cpp (writing them as text and as a binary plan),
    SubstraitPlanVisitor.cpp (reading the text) and InitialPlanProtoVisitor.cpp (reading the binary plan). *)
From Verif Require Import Base SymbolModel NormalizerModel.
From Coq Require Import NArith.

(** StructuredSymbolData.h: FunctionData, together with the name of the symbol. *)
Record func := { f_short : str; f_name : str; f_space : option N; f_anchor : N }.
(** The symbols of a table in order; [EOther] is a symbol of any other type. *)
Inductive entry := ESpace (uri : str) (anchor : N) | EFunction (f : func) | EOther (name : str).
Definition functions (t : list entry) : list func := flat_map (fun e => match e with EFunction f => [f] | _ => [] end) t.
Definition spaces (t : list entry) : list (str * N) := flat_map (fun e => match e with ESpace u a => [(u, a)] | _ => [] end) t.

(** * Reading a binary plan *)
(** [shortName], InitialPlanProtoVisitor.cpp 25-31 *)
Fixpoint shortName (s : str) : str := match s with [] => [] | c :: r => if ceq c ":" then [] else c :: shortName r end.
(** A binary plan declares spaces ([uri], anchor) and functions (space, anchor, name). *)
Record fdecl := { d_space : N; d_anchor : N; d_name : str }.
(** [visitExtension], 202-225, and [visitExtensionUri], 227-236 *)
Fixpoint import_functions (t : table) (l : list fdecl) : list entry :=
  match l with
  | [] => []
  | d :: r => let '(t', u) := getUniqueName t (shortName (d_name d)) in
              EFunction {| f_short := u; f_name := d_name d; f_space := Some (d_space d); f_anchor := d_anchor d |} :: import_functions t' r
  end.
Definition import_decls (uris : list (str * N)) (decls : list fdecl) : list entry :=
  map (fun s => ESpace (fst s) (snd s)) uris ++ import_functions empty_table decls.
(** [lookupFunctionReference], PlanPrinterVisitor.cpp 257-272; [None]: an error is reported. *)
Definition lookupFunctionReference (t : list entry) (a : N) : option str := option_map f_short (find (fun f => (f_anchor f =? a)%N) (functions t)).

(** * Printing *)
(** [spaceNames.insert], SymbolTablePrinter.cpp 348-357, 430-439: the first name given to an anchor stays *)
Definition spaceName (t : list entry) (a : N) : option str := option_map fst (find (fun s => (snd s =? a)%N) (spaces t)).
(** [std::set]: insertion into a sorted list without equivalents *)
Section Set_.
  Variable less : N -> N -> bool.
  Fixpoint set_insert (x : N) (l : list N) : list N :=
    match l with
    | [] => [x]
    | y :: r => if less y x then y :: set_insert x r else if less x y then x :: l else l
    end.
  Definition set_of (l : list N) : list N := fold_left (fun s x => set_insert x s) l [].
End Set_.
(** 336-343: spaces without a name first, then by name *)
Definition name_less (t : list entry) (a b : N) : bool :=
  match spaceName t a, spaceName t b with
  | None, Some _ => true
  | None, None | Some _, None => false
  | Some x, Some y => str_lt x y
  end.
(** [std::sort] of pairs of strings, 396.  Equal pairs cannot be told apart, so the order is determined. *)
Definition pair_less (a b : str * str) : bool := str_lt (fst a) (fst b) || ((fst a =s fst b) && str_lt (snd a) (snd b)).
Fixpoint sort_insert (x : str * str) (l : list (str * str)) : list (str * str) :=
  match l with [] => [x] | y :: r => if pair_less y x then y :: sort_insert x r else x :: l end.
Definition sort_pairs (l : list (str * str)) : list (str * str) := fold_right sort_insert [] l.
(** One printed extension space: its URI and the functions (short name, full name). *)
Definition block := (option str * list (str * str))%type.
(** [outputFunctionsSection], 332-405.  383-395: a function without a space is listed in every space (but 366 throws first). *)
Definition in_space (s : N) (f : func) : bool := match f_space f with Some x => (x =? s)%N | None => true end.
Definition outputFunctionsSection (t : list entry) : outcome (list block) :=
  used <- (fix go (l : list func) : outcome (list N) :=
             match l with
             | [] => Ok []
             | f :: r => match f_space f with None => Throw EBadOptional | Some s => x <- go r ;; Ok (s :: x) end
             end) (functions t) ;;
  Ok (map (fun s => (spaceName t s, sort_pairs (map (fun f => (f_short f, f_name f)) (filter (in_space s) (functions t))))) (set_of (name_less t) used)).
(** The text of the section *)
Definition line : str := [ascii_of_N 10].
Definition function_text (p : str * str) : str := $"  function " ++ snd p ++ $" as " ++ fst p ++ $";" ++ line.
Definition block_text (b : block) : str :=
  $"extension_space " ++ match fst b with Some u => u ++ $" " | None => [] end ++ $"{" ++ line ++ flat_map function_text (snd b) ++ $"}" ++ line.
Fixpoint section_text (l : list block) : str := match l with [] => [] | [b] => block_text b | b :: r => block_text b ++ line ++ section_text r end.

(** * Writing a binary plan *)
(** [outputExtensionSpacesToBinaryPlan], 407-421 *)
Definition outputExtensionSpaces (t : list entry) : list (str * N) := spaces t.
(** [outputFunctionsToBinaryPlan], 423-487; an unset reference is 0 *)
Definition binary_decl (t : list entry) (f : func) : fdecl :=
  {| d_space := match f_space f with Some s => match spaceName t s with Some _ => s | None => 0%N end | None => 0%N end; d_anchor := f_anchor f; d_name := f_name f |}.
Definition space_is (s : N) (f : func) : bool := match f_space f with Some x => (x =? s)%N | None => false end.
Definition no_space (f : func) : bool := match f_space f with Some _ => false | None => true end.
Definition used_spaces (l : list func) : list N := flat_map (fun f => match f_space f with Some s => [s] | None => [] end) l.
Definition outputFunctions (t : list entry) : list fdecl :=
  map (binary_decl t) (flat_map (fun s => filter (space_is s) (functions t)) (set_of N.ltb (used_spaces (functions t)))) ++
  map (binary_decl t) (filter no_space (functions t)).

(** * Reading the text *)
(** [visitFunction], SubstraitPlanVisitor.cpp 147-182, and [visitExtensionspace], 117-145; [ns] and [nf] are the spaces and functions
    seen so far.  The symbol of a space precedes those of its functions. *)
Fixpoint read_functions (space : option N) (nf : N) (l : list (str * str)) : list entry :=
  match l with
  | [] => []
  | (short, name) :: r => EFunction {| f_short := short; f_name := name; f_space := space; f_anchor := nf |} :: read_functions space (nf + 1) r
  end.
Fixpoint read_blocks (ns nf : N) (l : list block) : list entry :=
  match l with
  | [] => []
  | (Some uri, fs) :: r => (ESpace uri (ns + 1) :: read_functions (Some (ns + 1)%N) nf fs) ++ read_blocks (ns + 1) (nf + N.of_nat (length fs)) r
  | (None, fs) :: r => read_functions None nf fs ++ read_blocks ns (nf + N.of_nat (length fs)) r
  end.
(** [before]: the names of the schemas, columns, sources and tables, whose sections are printed before *)
Definition read_text (before : list str) (l : list block) : list entry := map EOther before ++ read_blocks 0 0 l.
(** A function name in an expression, SubstraitPlanRelationVisitor.cpp 1148-1163: [lookupSymbolByName] finds the first symbol with the
    name; [None]: an error is reported. *)
Definition entry_name (e : entry) : str := match e with ESpace u _ => u | EFunction f => f_short f | EOther n => n end.
Definition resolve_function (t : list entry) (name : str) : option N :=
  match find (fun e => entry_name e =s name) t with Some (EFunction f) => Some (f_anchor f) | _ => None end.
