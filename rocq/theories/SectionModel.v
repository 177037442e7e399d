(** Model of whole text plans: the sections that SymbolTablePrinter.cpp prints (pipelines, relations, root, schemas, sources, extension spaces), the
    parser rule plan of src/substrait/textplan/parser/grammar/SubstraitPlanParser.g4 for all of them, and the first pass over the tree in
    SubstraitPlanVisitor.cpp, which defines the symbols that read relations then look up (SubstraitPlanSubqueryRelationVisitor.cpp).
    Relations are those of RelModel; what happens to pipelines and to the functions of extension spaces is PipeModel and DeclModel.
    Not modelled: advanced extensions (they are parsed and left out), and symbols that later passes define. *)
From Verif Require Import Base StringsModel EscapeModel TypeModel LexModel NameModel ExprModel RelModel.
From Verif Require DeclModel.

(** * The messages *)
(** NamedStruct: the names, and the types and the nullability of the struct *)
Record named_struct := NamedStruct { ns_names : list str; ns_types : list ptype; ns_null : pnull }.
(** ReadRel.LocalFiles.FileOrFiles *)
Inductive location := UriPath (s : str) | UriPathGlob (s : str) | UriFile (s : str) | UriFolder (s : str) | NoLocation.
Inductive format := Parquet | Arrow | Orc | Dwrf | ExtensionFormat | NoFormat.
Record file := File { f_location : location; f_partition : N; f_start : N; f_length : N; f_format : format }.
Definition no_file : file := File NoLocation 0 0 0 NoFormat.
(** The read types of ReadRel *)
Inductive source := NamedTable (names : list str) | LocalFiles (files : list file) | VirtualTable | ExtensionTable.

(** * Printing *)
Definition nl : str := [lf].
(** Texts with an empty line between them *)
Fixpoint separated (l : list str) : str := match l with [] => [] | [t] => t | t :: r => t ++ nl ++ separated r end.
(** SymbolTablePrinter.cpp 229-259 outputSchemaSection.  75-79 typeToText: errors of the type are dropped. *)
Definition column_line (c : str * ptype) : str := $"  " ++ fst c ++ $" " ++ fst (printType (snd c)) ++ semicolon_line.
Definition printSchema (name : str) (s : named_struct) : str :=
  $"schema " ++ name ++ $" {" ++ nl ++ concat (map column_line (combine (ns_names s) (ns_types s))) ++ $"}" ++ nl.
(** 22-73 localFileToText *)
Definition quoted (s : str) : str := dquote :: s ++ [dquote].
Definition location_text (l : location) : outcome str :=
  match l with
  | UriPath s => Ok ($"uri_path: " ++ quoted s) | UriPathGlob s => Ok ($"uri_path_glob: " ++ quoted s) | UriFile s => Ok ($"uri_file: " ++ quoted s)
  | UriFolder s => Ok ($"uri_folder: " ++ quoted s) | NoLocation => Throw EUnsupported
  end.
Definition format_text (f : format) : outcome str :=
  match f with
  | Parquet => Ok $" parquet: {}" | Arrow => Ok $" arrow: {}" | Orc => Ok $" orc: {}" | Dwrf => Ok $" dwrf: {}" | ExtensionFormat | NoFormat => Throw EUnsupported
  end.
Definition localFileToText (f : file) : outcome str :=
  l <- location_text (f_location f) ;;
  x <- format_text (f_format f) ;;
  Ok (l ++ (if (f_partition f =? 0)%N then [] else $" partition_index: " ++ print_N (f_partition f)) ++
      (if (f_start f =? 0)%N && (f_length f =? 0)%N then [] else $" start: " ++ print_N (f_start f) ++ $" length: " ++ print_N (f_length f)) ++ x).
(** 261-330 outputSourcesSection *)
Fixpoint each {A B} (f : A -> outcome B) (l : list A) : outcome (list B) := match l with [] => Ok [] | a :: l => b <- f a ;; r <- each f l ;; Ok (b :: r) end.
Definition name_item (n : str) : str := $"    " ++ quoted n ++ $"," ++ nl.
Definition printSource (name : str) (s : source) : outcome str :=
  match s with
  | NamedTable names => Ok ($"source named_table " ++ name ++ $" {" ++ nl ++ $"  names = [" ++ nl ++ concat (map name_item names) ++ $"  ]" ++ nl ++ $"}" ++ nl)
  | LocalFiles files =>
      l <- each localFileToText files ;;
      Ok ($"source local_files " ++ name ++ $" {" ++ nl ++ $"  items = [" ++ nl ++ concat (map (fun t => $"    {" ++ t ++ $"}" ++ nl) l) ++ $"  ]" ++ nl ++ $"}" ++ nl)
  | VirtualTable | ExtensionTable => Throw EInvalidState
  end.
(** 125-170 outputPipelinesSection; a pipeline is given from left to right *)
Definition pipeline_text (p : list str) : str :=
  match p with [] => [] | a :: r => $"  " ++ a ++ concat (map (fun b => $" -> " ++ b) r) end ++ semicolon_line.
Definition printPipelines (l : list (list str)) : str := match l with [] => [] | _ => $"pipelines {" ++ nl ++ concat (map pipeline_text l) ++ $"}" ++ nl end.
(** 191-227 outputRootSection: a root without names is left out *)
Definition root_text (names : list str) : str :=
  match names with
  | [] => []
  | n :: r => $"root {" ++ nl ++ $"  names = [" ++ nl ++ $"    " ++ n ++ concat (map (fun m => $"," ++ nl ++ $"    " ++ m) r) ++ nl ++ $"  ]" ++ nl ++ $"}" ++ nl
  end.
Definition has_names (names : list str) : bool := match names with [] => false | _ => true end.
Definition printRoots (l : list (list str)) : str := separated (map root_text (filter has_names l)).
(** A relation with the names that its printing uses (the parameters of RelModel) *)
Record naming := Naming {
  nm_function : N -> option str; nm_field : N -> Z -> option str; nm_emit : Z -> option str; nm_measure : nat -> option str; nm_alternative : nat -> option str; nm_alias : nat -> option str }.
Definition print_relation (n : naming) : str -> relation -> outcome printed :=
  printRelation (nm_function n) (nm_field n) (nm_emit n) (nm_measure n) (nm_alternative n) (nm_alias n).
(** 172-189 outputRelationsSection *)
Definition printRelations (l : list (naming * str * relation)) : outcome printed :=
  ps <- each (fun x => let '(n, name, r) := x in print_relation n name r) l ;; Ok (separated (map fst ps), list_sum (map snd ps)).
(** What the symbol table has to print *)
Record plan := Plan {
  pl_pipelines : list (list str); pl_relations : list (naming * str * relation); pl_roots : list (list str); pl_schemas : list (str * named_struct);
  pl_sources : list (str * source); pl_spaces : list DeclModel.block }.
(** 492-548 outputToText.  The texts of the extension spaces are those of DeclModel (outputFunctionsSection, 332-405). *)
Definition printSchemas (l : list (str * named_struct)) : str := separated (map (fun s => printSchema (fst s) (snd s)) l).
Definition printSources (l : list (str * source)) : outcome str := ts <- each (fun s => printSource (fst s) (snd s)) l ;; Ok (separated ts).
Definition nonempty (t : str) : bool := match t with [] => false | _ => true end.
Definition outputToText (p : plan) : outcome printed :=
  r <- printRelations (pl_relations p) ;;
  s <- printSources (pl_sources p) ;;
  Ok (separated (filter nonempty [printPipelines (pl_pipelines p); fst r; printRoots (pl_roots p); printSchemas (pl_schemas p); s; DeclModel.section_text (pl_spaces p)]), snd r).

(** * Parsing *)
Definition t_equal (ts : list token) := match ts with (EQUAL, t) :: r => Some (t, r) | _ => None end.
Definition t_lbracket (ts : list token) := match ts with (LEFTBRACKET, t) :: r => Some (t, r) | _ => None end.
Definition t_rbracket (ts : list token) := match ts with (RIGHTBRACKET, t) :: r => Some (t, r) | _ => None end.
Definition t_names (ts : list token) := match ts with (NAMES, t) :: r => Some (t, r) | _ => None end.
Definition t_items (ts : list token) := match ts with (ITEMS, t) :: r => Some (t, r) | _ => None end.
Definition t_advanced (ts : list token) := match ts with (ADVANCED_EXTENSION, t) :: r => Some (t, r) | _ => None end.
Definition t_string (ts : list token) := match ts with (STRING, t) :: r => Some (t, r) | _ => None end.
Definition t_function (ts : list token) := match ts with (FUNCTION, t) :: r => Some (t, r) | _ => None end.
Definition t_uri (ts : list token) := match ts with (URI, t) :: r => Some (t, r) | _ => None end.
(** [x (COMMA x)* COMMA? RIGHTBRACKET] *)
Section Listed.
  Context {A : Type}.
  Variable p : list token -> option (A * list token).
  Fixpoint p_listed (fuel : nat) (ts : list token) : option (list A * list token) :=
    match fuel with
    | O => None
    | S fuel =>
      match p ts with
      | None => None
      | Some (a, r) =>
        match t_comma r with
        | None => match t_rbracket r with Some (_, r) => Some ([a], r) | None => None end
        | Some (_, r) =>
          match t_rbracket r with
          | Some (_, r) => Some ([a], r)
          | None => match p_listed fuel r with Some (l, r) => Some (a :: l, r) | None => None end
          end
        end
      end
    end.
End Listed.
(** [WORD = [ ... ]] after the word *)
Definition p_brackets {A} (p : list token -> option (A * list token)) (ts : list token) : option (list A * list token) :=
  match t_equal ts with
  | Some (_, r) => match t_lbracket r with Some (_, r) => p_listed p (length r) r | None => None end
  | None => None
  end.
(** relation_ref in a pipeline: its id and its whole text *)
Definition p_elem (ts : list token) : option (str * str * list token) := match p_ref ts with Some (n, r) => Some (n, consumed ts r, r) | None => None end.
(** pipeline *)
Fixpoint p_arrows (fuel : nat) (ts : list token) : option (list (str * str) * list token) :=
  match t_arrow ts with
  | None => Some ([], ts)
  | Some (_, r) =>
    match fuel with
    | O => None
    | S fuel => match p_elem r with Some (e, r) => match p_arrows fuel r with Some (l, r) => Some (e :: l, r) | None => None end | None => None end
    end
  end.
Definition p_pipeline (ts : list token) : option (list (str * str) * list token) :=
  match p_elem ts with
  | Some (e, r) => match p_arrows (length r) r with Some (l, r) => p_semi (e :: l) r | None => None end
  | None => None
  end.
(** schema_item: the name and the text of the type; a second name after NAMED is not used *)
Definition p_item (ts : list token) : option (str * str * list token) :=
  match p_id ts with
  | Some (n, r) => match p_complex (S (length r)) r with Some (t, r) => match p_after t_named r with Some (_, r) => p_semi (n, t) r | None => None end | None => None end
  | None => None
  end.
(** file_detail; of a location only whether it is URI_FILE is used *)
Inductive fdetail := DPartition (n : str) | DStart (n : str) | DLength (n : str) | DOrc | DParquet | DLocation (uri_file : bool) (s : str).
Inductive fstart := HPartition (r : list token) | HStart (r : list token) | HLength (r : list token) | HOrc (r : list token) | HParquet (r : list token) | HLocation (uri_file : bool) (r : list token) | HNone.
Definition f_head (ts : list token) : fstart :=
  match ts with
  | [] => HNone
  | (k, _) :: r =>
    match k with
    | PARTITION_INDEX => HPartition r | START => HStart r | LENGTH => HLength r | ORC => HOrc r | PARQUET => HParquet r | URI_FILE => HLocation true r
    | URI_PATH | URI_PATH_GLOB | URI_FOLDER => HLocation false r | _ => HNone
    end
  end.
Definition p_colon {A B} (t : list token -> option (A * list token)) (f : A -> B) (ts : list token) : option (B * list token) :=
  match t_colon ts with Some (_, r) => match t r with Some (a, r) => Some (f a, r) | None => None end | None => None end.
Definition t_braces (ts : list token) : option (unit * list token) := match t_lbrace ts with Some (_, r) => match t_rbrace r with Some (_, r) => Some (tt, r) | None => None end | None => None end.
Definition p_fdetail (ts : list token) : option (fdetail * list token) :=
  match f_head ts with
  | HPartition r => p_colon t_number DPartition r | HStart r => p_colon t_number DStart r | HLength r => p_colon t_number DLength r
  | HOrc r => p_colon t_braces (fun _ => DOrc) r | HParquet r => p_colon t_braces (fun _ => DParquet) r | HLocation b r => p_colon t_string (DLocation b) r
  | HNone => None
  end.
(** file: its whole text, which is the name of its symbol, and its details *)
Record fnode := FNode { fn_text : str; fn_details : list fdetail }.
Definition p_file (ts : list token) : option (fnode * list token) :=
  match t_lbrace ts with
  | Some (_, r) => match p_many p_fdetail (length r) r with Some (l, r) => Some (FNode (consumed ts r) l, r) | None => None end
  | None => None
  end.
(** local_files_detail and named_table_detail *)
Definition p_unit_id (ts : list token) : option (list token) := match p_id ts with Some (_, r) => Some r | None => None end.
Definition p_local (ts : list token) : option (list fnode * list token) :=
  match t_items ts with
  | Some (_, r) => p_brackets p_file r
  | None => match t_advanced ts with Some (_, r) => match p_unit_id r with Some r => Some ([], r) | None => None end | None => None end
  end.
Definition p_named (ts : list token) : option (list str * list token) :=
  match t_names ts with
  | Some (_, r) => p_brackets t_string r
  | None => match t_advanced ts with Some (_, r) => match p_unit_id r with Some r => Some ([], r) | None => None end | None => None end
  end.
Inductive snode := SLocal (l : list fnode) | SVirtual | SNamed (l : list str) | SExtension.
Definition p_in_braces {A B} (p : list token -> option (A * list token)) (f : list A -> B) (ts : list token) : option (B * list token) :=
  match t_lbrace ts with
  | Some (_, r) => match p_many p (length r) r with Some (l, r) => Some (f l, r) | None => None end
  | None => None
  end.
(** function: the name with its signature and the id after AS.  signature: id, if there is one *)
Definition p_signature (ts : list token) : option (str * list token) :=
  match ts with (k, _) :: _ => if simple_id k then p_id ts else Some ([], ts) | [] => Some ([], ts) end.
Definition p_function (ts : list token) : option (str * option str * list token) :=
  match t_function ts with
  | Some (_, r) =>
    match p_id r with
    | Some (n, r) =>
      match t_colon r with
      | Some (c, r) => match p_signature r with Some (s, r) => match p_after t_as r with Some (a, r) => p_semi (n ++ c ++ s, a) r | None => None end | None => None end
      | None => None
      end
    | None => None
    end
  | None => None
  end.
(** plan_detail *)
Inductive pnode :=
| PPipelines (l : list (list (str * str))) | PRelation (n : rnode) | PRoot (names : list str) | PSchema (name : str) (items : list (str * str)) | PSource (name : str) (s : snode)
| PSpace (uri : option str) (functions : list (str * option str)).
(** Which rule: ids may start with the words root, schema and source, too, so the next token decides. *)
Inductive pstart := HPipelines (r : list token) | HRoot (r : list token) | HPSchema (r : list token) | HLocal (r : list token) | HVirtual (r : list token) | HNamed (r : list token) | HExtensionTable (r : list token)
| HSpace (r : list token) | HRelation.
Definition source_start (ts : list token) : pstart :=
  match ts with
  | [] => HRelation
  | (k, _) :: r => match k with LOCAL_FILES => HLocal r | VIRTUAL_TABLE => HVirtual r | NAMED_TABLE => HNamed r | EXTENSION_TABLE => HExtensionTable r | _ => HRelation end
  end.
Definition goes_on (ts : list token) : bool := match ts with (k, _) :: _ => match k with RELATION | UNDERSCORE => true | _ => false end | [] => false end.
Definition p_start (ts : list token) : pstart :=
  match ts with
  | [] => HRelation
  | (k, _) :: r =>
    match k with
    | PIPELINES => HPipelines r | EXTENSION_SPACE => HSpace r | SOURCE => source_start r
    | ROOT => match t_lbrace r with Some (_, r) => HRoot r | None => HRelation end
    | SCHEMA => if goes_on r then HRelation else HPSchema r
    | _ => HRelation
    end
  end.
Definition p_titled {A} (p : list token -> option (A * list token)) (f : str -> A -> pnode) (ts : list token) : option (pnode * list token) :=
  match p_id ts with Some (n, r) => match p r with Some (a, r) => Some (f n a, r) | None => None end | None => None end.
Definition p_plan_detail (ts : list token) : option (pnode * list token) :=
  match p_start ts with
  | HPipelines r => p_in_braces p_pipeline PPipelines r
  | HRoot r => match t_names r with
               | Some (_, r) => match p_brackets p_id r with Some (l, r) => match t_rbrace r with Some (_, r) => Some (PRoot l, r) | None => None end | None => None end
               | None => None
               end
  | HPSchema r => p_titled (p_in_braces p_item (fun l => l)) PSchema r
  | HLocal r => p_titled (p_in_braces p_local (@concat _)) (fun n l => PSource n (SLocal l)) r
  | HNamed r => p_titled (p_in_braces p_named (@concat _)) (fun n l => PSource n (SNamed l)) r
  | HVirtual r => p_titled t_braces (fun n _ => PSource n SVirtual) r
  | HExtensionTable r => p_titled t_braces (fun n _ => PSource n SExtension) r
  | HSpace r => match t_uri r with
                | Some (u, r) => p_in_braces p_function (PSpace (Some u)) r
                | None => p_in_braces p_function (PSpace None) r
                end
  | HRelation => match p_relation ts with Some (n, r) => Some (PRelation n, r) | None => None end
  end.
(** plan *)
Fixpoint p_plan (fuel : nat) (ts : list token) : option (list pnode) :=
  match ts with
  | [] => Some []
  | _ => match fuel with
         | O => None
         | S fuel => match p_plan_detail ts with Some (n, r) => option_map (cons n) (p_plan fuel r) | None => None end
         end
  end.
Definition parse (s : str) : option (list pnode) := match tokens s with Some ts => p_plan (length ts) ts | None => None end.

(** * The symbols *)
(** [std::stoul] on a 64 bit unsigned long: a minus sign wraps around (parseUnsignedInteger, SubstraitPlanVisitor.cpp 36-38) *)
Definition stoul (s : str) : outcome N :=
  let t := ltrim s in
  let '(neg, r) := match t with
    | c :: r => if ceq c "-"%char then (true, r) else if ceq c "+"%char then (false, r) else (false, t)
    | [] => (false, []) end in
  match take_digits r with
  | [] => Throw EStdInvalid
  | ds => let n := digits_val 0 ds in if (n <? 2 ^ 64)%N then Ok (if neg then (2 ^ 64 - n) mod 2 ^ 64 else n)%N else Throw EStdOutOfRange
  end.
(** 22-34 extractFromString *)
Definition drop_last (s : str) : str := match rev s with c :: r => if ceq c dquote then rev r else s | [] => [] end.
Definition drop_first (s : str) : str := match s with c :: r => if ceq c dquote then r else s | [] => [] end.
Definition extractFromString (s : str) : str := if length s <? 2 then s else drop_first (drop_last s).
(** 40-63 parseString *)
Definition middle (n : nat) (s : str) : str := firstn (length s - 2 * n) (skipn n s).
Definition parseString (s : str) : str :=
  if starts (repeat backtick 3) s then middle 3 s else if starts (repeat backtick 2) s then middle 2 s
  else match s with c :: _ => if ceq c dquote || ceq c backtick then middle 1 s else s | [] => [] end.
(** The symbols of the first pass in order of definition, with their location (the number of the definition in the plan, and zero or, for functions,
    the number of the function).  Columns get the location of their schema (196-226). *)
Definition loc := (nat * nat)%type.
Inductive what := WSchema | WColumn (t : ptype) | WLocal | WNamed | WVirtual | WExtension | WDetail (f : option file) | WSpace | WFunction.
Record sym := Sym { s_name : str; s_loc : loc; s_what : what }.
Definition table := list sym.
Definition find_symbol (t : table) (n : str) : option sym := find (fun s => s_name s =s n) t.
(** 491-511 visitFile_detail, 477-489 visitFile_location: the symbol is looked up by the text of the file *)
Definition set_detail (d : fdetail) (f : file) : outcome file :=
  match d with
  | DPartition n => x <- stoul n ;; Ok (File (f_location f) x (f_start f) (f_length f) (f_format f))
  | DStart n => x <- stoul n ;; Ok (File (f_location f) (f_partition f) x (f_length f) (f_format f))
  | DLength n => x <- stoul n ;; Ok (File (f_location f) (f_partition f) (f_start f) x (f_format f))
  | DOrc => Ok (File (f_location f) (f_partition f) (f_start f) (f_length f) Orc)
  | DParquet => Ok (File (f_location f) (f_partition f) (f_start f) (f_length f) Parquet)
  | DLocation true s => Ok (File (UriFile (parseString s)) (f_partition f) (f_start f) (f_length f) (f_format f))
  | DLocation false _ => Ok f
  end.
Fixpoint update_file (t : table) (n : str) (f : file -> outcome file) : outcome table :=
  match t with
  | [] => UB                                                                                 (* the null pointer; the symbol was just defined *)
  | s :: t =>
    if s_name s =s n then match s_what s with
                          | WDetail (Some x) => y <- f x ;; Ok (Sym (s_name s) (s_loc s) (WDetail (Some y)) :: t)
                          | _ => Throw EBadAnyCast
                          end
    else r <- update_file t n f ;; Ok (s :: r)
  end.
Fixpoint visitFileDetails (t : table) (n : str) (l : list fdetail) : outcome table :=
  match l with [] => Ok t | d :: l => t <- update_file t n (set_detail d) ;; visitFileDetails t n l end.
(** 518-532 visitLocal_files_detail *)
Fixpoint visitFiles (t : table) (l : loc) (fs : list fnode) : outcome table :=
  match fs with
  | [] => Ok t
  | f :: fs => t <- visitFileDetails (t ++ [Sym (fn_text f) l (WDetail (Some no_file))]) (fn_text f) (fn_details f) ;; visitFiles t l fs
  end.
(** 214-226 visitSchema_item *)
Fixpoint visitItems (l : loc) (items : list (str * str)) : evaluated (list sym) :=
  match items with
  | [] => good []
  | (n, text) :: r => bindE (read_type false text) (fun t => bindE (visitItems l r) (fun r => good (Sym n l (WColumn t) :: r)))
  end.
(** 147-182 visitFunction: the name of the symbol *)
Definition referenceName (f : str * option str) : str := match snd f with Some a => a | None => DeclModel.shortName (fst f) end.
Fixpoint function_symbols (i j : nat) (fs : list (str * option str)) : list sym :=
  match fs with [] => [] | f :: fs => Sym (referenceName f) (i, S j) WFunction :: function_symbols i (S j) fs end.
Inductive pass_error := PType (e : eerr) | PNoSignature (f : str).
(** an error is reported for a function whose name ends with the colon, 163-171 *)
Definition no_signature (f : str * option str) : list pass_error :=
  match rev (fst f) with c :: _ => if ceq c ":" then [PNoSignature (fst f)] else [] | [] => [] end.
(** 68-98 visitPlan, the first loop; 196-226, 344-353, 554-567, 117-145 *)
Definition define (i : nat) (t : table) (n : pnode) : outcome (table * list pass_error) :=
  let l := (i, 0) in
  match n with
  | PSchema name items => c <- visitItems l items ;; Ok (t ++ Sym name l WSchema :: fst c, map PType (snd c))
  | PSource name (SLocal fs) => t <- visitFiles (t ++ [Sym name l WLocal]) l fs ;; Ok (t, [])
  | PSource name (SNamed ns) => Ok (t ++ Sym name l WNamed :: map (fun s => Sym (extractFromString s) l (WDetail None)) ns, [])
  | PSource name SVirtual => Ok (t ++ [Sym name l WVirtual], [])
  | PSource name SExtension => Ok (t ++ [Sym name l WExtension], [])
  | PSpace uri fs => Ok (t ++ match uri with Some u => [Sym u l WSpace] | None => [] end ++ function_symbols i 0 fs, concat (map no_signature fs))
  | PPipelines _ | PRelation _ | PRoot _ => Ok (t, [])
  end.
Fixpoint define_all (i : nat) (t : table) (l : list pnode) : outcome (table * list pass_error) :=
  match l with
  | [] => Ok (t, [])
  | n :: l => x <- define i t n ;; y <- define_all (S i) (fst x) l ;; Ok (fst y, snd x ++ snd y)
  end.
Definition symbols (l : list pnode) : outcome (table * list pass_error) := define_all 0 [] l.

(** * What read relations use *)
Definition at_loc (l : loc) (s : sym) : bool := (fst (s_loc s) =? fst l) && (snd (s_loc s) =? snd l).
Definition is_set (t : ptype) : bool := match t with PtNone => false | _ => true end.
Definition column_types (l : table) : list ptype := flat_map (fun s => match s_what s with WColumn t => if is_set t then [t] else [] | _ => [] end) l.
Definition columns_at (t : table) (l : loc) : table := filter (fun s => at_loc l s && match s_what s with WColumn _ => true | _ => false end) t.
(** SubstraitPlanSubqueryRelationVisitor.cpp 645-684 visitRelationUsesSchema; [None]: nothing is set *)
Definition use_schema (t : table) (name : str) : option named_struct :=
  match find_symbol t name with
  | None => None
  | Some s => let c := columns_at t (s_loc s) in let types := column_types c in
              Some (NamedStruct (map s_name c) types (match types with [] => NUnspecified | _ => NRequired end))
  end.
(** 1018-1077 visitRelationSourceReference; the subtype of a symbol that is no source is empty *)
Definition details_at (t : table) (l : loc) : table := filter (fun s => at_loc l s && match s_what s with WDetail _ => true | _ => false end) t.
Definition use_source (t : table) (name : str) : outcome (option source) :=
  match find_symbol t name with
  | None => Ok None
  | Some s =>
    match s_what s with
    | WLocal => l <- each (fun d => match s_what d with WDetail (Some f) => Ok f | _ => Throw EBadAnyCast end) (details_at t (s_loc s)) ;; Ok (Some (LocalFiles l))
    | WNamed => Ok (Some (NamedTable (map s_name (details_at t (s_loc s)))))
    | WVirtual | WExtension => Ok None
    | _ => Throw EBadAnyCast
    end
  end.

(** * The other passes get from the tree: *)
Definition pipelines_of (l : list pnode) : list (list (str * str)) := flat_map (fun n => match n with PPipelines p => p | _ => [] end) l.
Definition relations_of (l : list pnode) : list rnode := flat_map (fun n => match n with PRelation r => [r] | _ => [] end) l.
Definition roots_of (l : list pnode) : list (list str) := flat_map (fun n => match n with PRoot r => [r] | _ => [] end) l.
(** the extension spaces as DeclModel has them: the short name and the name of every function *)
Definition spaces_of (l : list pnode) : list DeclModel.block :=
  flat_map (fun n => match n with PSpace u fs => [(u, map (fun f => (referenceName f, fst f)) fs)] | _ => [] end) l.
