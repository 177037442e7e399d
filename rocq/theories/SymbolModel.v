(** Model of src/substrait/textplan/{Location,SymbolTable,SubstraitErrorListener}.{h,cpp} and ParseResult.h. *)
From Verif Require Import Base.

(** Location.h 22-47: a pointer to a parse tree node or to a protobuf message; addresses are natural numbers, 0 is null. *)
Inductive loc := LNode (p : N) | LMsg (p : N).
(** Location.cpp 9-10. *)
Definition unknown_loc := LMsg 0.
(** Location.cpp 12-32. *)
Definition loc_eqb (a b : loc) : bool :=
  match a, b with
  | LNode p, LNode q => (p =? q)%N
  | LMsg p, LMsg q => (p =? q)%N
  | _, _ => false
  end.
(** Location.cpp 36-48; [std::hash] of a pointer is some function [h] of the address. *)
Definition loc_hash (h : N -> N) (a : loc) : N := match a with LNode p | LMsg p => h p end.
(** Location.cpp 50-71. *)
Definition loc_less (a b : loc) : bool :=
  match a, b with
  | LNode p, LNode q => (p <? q)%N
  | LNode _, LMsg _ => true
  | LMsg _, LNode _ => false
  | LMsg p, LMsg q => (p <? q)%N
  end.

(** SymbolTable.h 18-33. *)
Inductive stype := KExtensionSpace | KFunction | KPlanRelation | KRelation | KSchema | KSchemaColumn | KSource
  | KSourceDetail | KField | KRoot | KTable | KMeasure | KUnknown.
Definition stype_code (t : stype) : Z :=
  match t with
  | KExtensionSpace => 0 | KFunction => 1 | KPlanRelation => 2 | KRelation => 3 | KSchema => 5 | KSchemaColumn => 6
  | KSource => 7 | KSourceDetail => 8 | KField => 9 | KRoot => 10 | KTable => 11 | KMeasure => 12 | KUnknown => -1
  end%Z.
Definition stype_eqb (a b : stype) : bool := (stype_code a =? stype_code b)%Z.
(** SymbolTable.cpp 17-41.  The index is compared with [>], so the size of the table itself is read out of bounds. *)
Definition type_names : list str :=
  [$"kExtensionSpace"; $"kFunction"; $"kPlanRelation"; $"kRelation"; $"kRelationDetail"; $"kSchema"; $"kSchemaColumn";
   $"kSource"; $"kSourceDetail"; $"kField"].
Definition symbolTypeName (t : stype) : outcome str :=
  let n := stype_code t in
  if (n =? -1)%Z then Ok $"kUnknown"
  else if (Z.of_nat (length type_names) <? n)%Z then Throw EInvalidState
  else match nth_error type_names (Z.to_nat n) with Some s => Ok s | None => UB end.

(** SymbolTable.h 77-104.  The schema pointer, subtype and blob are opaque to the table; [s_blob] stands for them. *)
Record symbol := {
  s_name : str; s_alias : str; s_source : loc; s_permanent : loc; s_parent : loc; s_index : Z; s_type : stype; s_blob : N
}.
Definition new_symbol (name : str) (l : loc) (t : stype) (b : N) : symbol :=
  {| s_name := name; s_alias := []; s_source := l; s_permanent := unknown_loc; s_parent := unknown_loc; s_index := -1; s_type := t; s_blob := b |}.
(** What operator== compares, SymbolTable.cpp 63-67; operations designate an existing symbol through it. *)
Record key := { k_name : str; k_loc : loc; k_type : stype }.
Definition key_of (s : symbol) : key := {| k_name := s_name s; k_loc := s_source s; k_type := s_type s |}.
Definition key_eqb (a b : key) : bool := (k_name a =s k_name b) && loc_eqb (k_loc a) (k_loc b) && stype_eqb (k_type a) (k_type b).

(** SymbolTable.h 215-222.  A symbol pointer is its index in [t_symbols] (symbols are held by shared_ptr and never removed).
    Counters ([int32_t], [int]) are unbounded integers here. *)
Record table := { t_names : list (str * Z); t_symbols : list symbol; t_byname : list (str * nat); t_byloc : list (loc * nat) }.
Definition empty_table := {| t_names := []; t_symbols := []; t_byname := []; t_byloc := [] |}.

(** unordered_map: find, insert (keeps an existing entry), assignment to the found value. *)
Fixpoint lookup {A} (k : str) (m : list (str * A)) : option A :=
  match m with [] => None | (k', v) :: r => if k' =s k then Some v else lookup k r end.
Definition insert {A} (k : str) (v : A) (m : list (str * A)) : list (str * A) :=
  match lookup k m with Some _ => m | None => m ++ [(k, v)] end.
Fixpoint assign {A} (k : str) (v : A) (m : list (str * A)) : list (str * A) :=
  match m with [] => [] | (k', w) :: r => if k' =s k then (k', v) :: r else (k', w) :: assign k v r end.
(** multimap: sorted by [loc_less]; insert goes to the upper bound of the equal range; equal_range. *)
Fixpoint minsert (k : loc) (v : nat) (m : list (loc * nat)) : list (loc * nat) :=
  match m with
  | [] => [(k, v)]
  | (k', w) :: r => if loc_less k k' then (k, v) :: (k', w) :: r else (k', w) :: minsert k v r
  end.
(** First position whose key is not less than [k], then the positions until one is greater. *)
Fixpoint upto (k : loc) (m : list (loc * nat)) : list nat :=
  match m with [] => [] | (k', w) :: r => if loc_less k k' then [] else w :: upto k r end.
Fixpoint equal_range (k : loc) (m : list (loc * nat)) : list nat :=
  match m with [] => [] | (k', w) :: r => if loc_less k' k then equal_range k r else upto k m end.

(** SymbolTable.cpp 73-82. *)
Definition getUniqueName (t : table) (base : str) : table * str :=
  match lookup base (t_names t) with
  | None => ({| t_names := insert base 1%Z (t_names t); t_symbols := t_symbols t; t_byname := t_byname t; t_byloc := t_byloc t |}, base)
  | Some c => let c := (c + 1)%Z in
      ({| t_names := assign base c (t_names t); t_symbols := t_symbols t; t_byname := t_byname t; t_byloc := t_byloc t |}, base ++ print_Z c)
  end.
(** SymbolTable.cpp 84-98. *)
Definition defineSymbol (t : table) (name : str) (l : loc) (ty : stype) (b : N) : table * nat :=
  let i := length (t_symbols t) in
  ({| t_names := t_names t; t_symbols := t_symbols t ++ [new_symbol name l ty b];
      t_byname := insert name i (t_byname t); t_byloc := minsert l i (t_byloc t) |}, i).
(** SymbolTable.cpp 110-120; the table size if not found. *)
Fixpoint find_key (k : key) (l : list symbol) : nat :=
  match l with [] => 0 | s :: r => if key_eqb (key_of s) k then 0 else S (find_key k r) end.
Definition findSymbolIndex (t : table) (k : key) : nat := find_key k (t_symbols t).
Fixpoint update (i : nat) (f : symbol -> symbol) (l : list symbol) : list symbol :=
  match l, i with [], _ => [] | s :: r, O => f s :: r | s :: r, S j => s :: update j f r end.
Definition set_permanent (l : loc) (s : symbol) := {| s_name := s_name s; s_alias := s_alias s; s_source := s_source s; s_permanent := l;
  s_parent := s_parent s; s_index := s_index s; s_type := s_type s; s_blob := s_blob s |}.
Definition set_parent (l : loc) (s : symbol) := {| s_name := s_name s; s_alias := s_alias s; s_source := s_source s; s_permanent := s_permanent s;
  s_parent := l; s_index := s_index s; s_type := s_type s; s_blob := s_blob s |}.
Definition set_index (i : Z) (s : symbol) := {| s_name := s_name s; s_alias := s_alias s; s_source := s_source s; s_permanent := s_permanent s;
  s_parent := s_parent s; s_index := i; s_type := s_type s; s_blob := s_blob s |}.
Definition set_alias (a : str) (s : symbol) := {| s_name := s_name s; s_alias := a; s_source := s_source s; s_permanent := s_permanent s;
  s_parent := s_parent s; s_index := s_index s; s_type := s_type s; s_blob := s_blob s |}.
(** SymbolTable.cpp 122-128; an unknown symbol indexes past the end. *)
Definition addPermanentLocation (t : table) (k : key) (l : loc) : outcome table :=
  let i := findSymbolIndex t k in
  if i <? length (t_symbols t) then
    Ok {| t_names := t_names t; t_symbols := update i (set_permanent l) (t_symbols t); t_byname := t_byname t; t_byloc := minsert l i (t_byloc t) |}
  else UB.
(** SymbolTable.cpp 130-145. *)
Definition highest (l : loc) (syms : list symbol) : Z :=
  fold_left (fun h s => if loc_eqb (s_parent s) l then if (h <? s_index s)%Z then s_index s else h else h) syms (-1)%Z.
Definition setParentQueryLocation (t : table) (k : key) (l : loc) : outcome table :=
  let i := findSymbolIndex t k in
  if i <? length (t_symbols t) then
    let syms := update i (set_parent l) (t_symbols t) in
    Ok {| t_names := t_names t; t_symbols := update i (set_index (highest l syms + 1)) syms; t_byname := t_byname t; t_byloc := t_byloc t |}
  else UB.
(** SymbolTable.cpp 147-151. *)
Definition addAlias (t : table) (a : str) (k : key) : outcome table :=
  let i := findSymbolIndex t k in
  if i <? length (t_symbols t) then
    Ok {| t_names := t_names t; t_symbols := update i (set_alias a) (t_symbols t); t_byname := insert a i (t_byname t); t_byloc := t_byloc t |}
  else UB.

(** Lookups return symbol pointers (indices). SymbolTable.cpp 153-160. *)
Definition lookupSymbolByName (t : table) (n : str) : option nat := lookup n (t_byname t).
(** SymbolTable.cpp 162-170. *)
Definition lookupSymbolsByLocation (t : table) (l : loc) : list nat := equal_range l (t_byloc t).
(** SymbolTable.cpp 172-189. *)
Fixpoint first_of (syms : list symbol) (types : list stype) (l : list nat) : option nat :=
  match l with
  | [] => None
  | i :: r => match nth_error syms i with
              | Some s => if existsb (stype_eqb (s_type s)) types then Some i else first_of syms types r
              | None => None
              end
  end.
Definition lookupSymbolByLocationAndTypes (t : table) (l : loc) (types : list stype) : option nat :=
  first_of (t_symbols t) types (lookupSymbolsByLocation t l).
Definition lookupSymbolByLocationAndType t l ty := lookupSymbolByLocationAndTypes t l [ty].
(** SymbolTable.cpp 191-202. *)
Fixpoint find_parent (i : nat) (l : loc) (n : Z) (ty : stype) (syms : list symbol) : option nat :=
  match syms with
  | [] => None
  | s :: r => if loc_eqb (s_parent s) l && (s_index s =? n)%Z && stype_eqb (s_type s) ty then Some i else find_parent (S i) l n ty r
  end.
Definition lookupSymbolByParentQueryAndType (t : table) (l : loc) (n : Z) (ty : stype) : option nat := find_parent 0 l n ty (t_symbols t).
(** SymbolTable.cpp 204-215; None stands for SymbolInfo::kUnknown. *)
Fixpoint nth_of (i count n : nat) (ty : stype) (syms : list symbol) : option nat :=
  match syms with
  | [] => None
  | s :: r => if stype_eqb (s_type s) ty then if n =? count then Some i else nth_of (S i) (S count) n ty r else nth_of (S i) count n ty r
  end.
Definition nthSymbolByType (t : table) (n : nat) (ty : stype) : option nat := nth_of 0 0 n ty (t_symbols t).
(** Iteration, SymbolTable.cpp 43-54, 217-223. *)
Fixpoint iterate (fuel index : nat) (t : table) : list symbol :=
  match fuel with
  | O => []
  | S f => if index =? length (t_symbols t) then []
           else match nth_error (t_symbols t) index with Some s => s :: iterate f (S index) t | None => [] end
  end.
Definition all_symbols (t : table) : list symbol := iterate (S (length (t_symbols t))) 0 t.

(** Operations and runs. *)
Inductive op :=
| OUnique (base : str)
| ODefine (name : str) (l : loc) (t : stype) (b : N)
| ODefineUnique (name : str) (l : loc) (t : stype) (b : N)
| OPermanent (k : key) (l : loc)
| OParent (k : key) (l : loc)
| OAlias (a : str) (k : key).
(** What the caller gets: a name, a symbol (with the name it was defined under), nothing. *)
Inductive out := RNone | RName (n : str) | RSymbol (i : nat) (n : str).
Definition step (t : table) (o : op) : outcome (table * out) :=
  match o with
  | OUnique b => let '(t', n) := getUniqueName t b in Ok (t', RName n)
  | ODefine n l ty b => let '(t', i) := defineSymbol t n l ty b in Ok (t', RSymbol i n)
  (* SymbolTable.cpp 100-108 *)
  | ODefineUnique n l ty b => let '(t1, u) := getUniqueName t n in let '(t', i) := defineSymbol t1 u l ty b in Ok (t', RSymbol i u)
  | OPermanent k l => t' <- addPermanentLocation t k l ;; Ok (t', RNone)
  | OParent k l => t' <- setParentQueryLocation t k l ;; Ok (t', RNone)
  | OAlias a k => t' <- addAlias t a k ;; Ok (t', RNone)
  end.
Fixpoint run (t : table) (l : list op) : outcome (table * list (op * out)) :=
  match l with
  | [] => Ok (t, [])
  | o :: r => p <- step t o ;; q <- run (fst p) r ;; Ok (fst q, (o, snd p) :: snd q)
  end.

(** * Errors *)
(** SubstraitErrorListener.h 12-20; coordinates are size_t, -1 is 2^64-1. *)
Record error := { e_line : N; e_column : N; e_message : str }.
Definition no_coordinate : N := (2 ^ 64 - 1)%N.
Inductive error_op :=
| EAdd (line column : N) (msg : str)     (* SubstraitErrorListener.cpp 10-15 *)
| EAddBare (msg : str)                   (* SubstraitErrorListener.h 31-33 *)
| EAddAll (l : list error).              (* 35-37 *)
Definition error_step (errors : list error) (o : error_op) : list error :=
  match o with
  | EAdd l c m => errors ++ [{| e_line := l; e_column := c; e_message := m |}]
  | EAddBare m => errors ++ [{| e_line := no_coordinate; e_column := no_coordinate; e_message := m |}]
  | EAddAll l => errors ++ l
  end.
Definition listener (l : list error_op) : list error := fold_left error_step l [].
Definition hasErrors (l : list error) : bool := match l with [] => false | _ => true end.
(** SubstraitErrorListener.cpp 17-31; the arrow is three bytes of UTF-8. *)
Definition arrow : str := [ascii_of_N 32; ascii_of_N 226; ascii_of_N 134; ascii_of_N 146; ascii_of_N 32].
Definition message_of (e : error) : str :=
  if (e_line e =? no_coordinate)%N || (e_column e =? no_coordinate)%N then e_message e
  else print_N (e_line e) ++ $":" ++ print_N (e_column e) ++ arrow ++ e_message e.
Definition getErrorMessages (l : list error) : list str := map message_of l.
(** ParseResult.h 15-51. *)
Record result := { r_syntax : list str; r_semantic : list str }.
Definition successful (r : result) : bool := match r_syntax r, r_semantic r with [], [] => true | _, _ => false end.
Definition getAllErrors (r : result) : list str := [] ++ r_syntax r ++ r_semantic r.
Definition addErrors (r : result) (l : list str) : result := {| r_syntax := r_syntax r ++ l; r_semantic := r_semantic r |}.
