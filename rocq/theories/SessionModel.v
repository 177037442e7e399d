(** Model of the outermost layer: which passes run over a text plan and what becomes of their errors and exceptions (ParseText.cpp, LoadText.cpp),
    which passes run over a binary plan (ParseBinary.cpp), what happens to files when plans are saved and loaded (SaveBinary.cpp, LoadBinary.cpp,
    Io.cpp), and the command line tools (Tool.cpp).  The passes themselves are parameters here; they are modelled elsewhere. *)
From Verif Require Import Base SymbolModel IoModel.

(** absl::StrJoin *)
Fixpoint join (sep : str) (l : list str) : str := match l with [] => [] | [x] => x | x :: r => x ++ sep ++ join sep r end.

(** * Reading text *)
Section Parse.
  Variable tab : Type.                                              (* SymbolTable *)
  (** What a visitor can throw: a std::invalid_argument with its message, or anything else. *)
  Inductive thrown := TInvalid (what : str) | TOther.
  (** A visitor run over the tree: from the errors reported so far and a symbol table to the new table, the errors it adds, and how it ended. *)
  Definition pass := list error -> tab -> tab * list error * option thrown.
  (** ParseText.cpp 56-74, 78-96, 100-118, 132-150: an exception becomes a syntax error at line 1, column 1. *)
  Definition caught (other : str) (x : option thrown) : list error :=
    match x with
    | None => []
    | Some (TInvalid w) => [{| e_line := 1; e_column := 1; e_message := w |}]
    | Some TOther => [{| e_line := 1; e_column := 1; e_message := other |}]
    end.
  (** the symbol table, the errors of the visitors (one listener is handed on), the errors of the lexer and parser *)
  Record state := { st_table : tab; st_semantic : list error; st_syntax : list error }.
  Definition run_pass (other : str) (p : pass) (s : state) : state :=
    let '(t, e, x) := p (st_semantic s) (st_table s) in
    {| st_table := t; st_semantic := st_semantic s ++ e; st_syntax := st_syntax s ++ caught other x |}.
  Definition parser_exception : str := $"uncaught parser exception encountered".
  Definition relation_exception : str := $"uncaught parser relation exception encountered".
  Variables (empty : tab) (plan_visitor pipeline_visitor relation_visitor subquery_visitor : pass).
  (** ParseText.cpp 39-157 parseStream; [syntax]: what the lexer and the parser reported.  The symbol table and the errors. *)
  Definition parseStream (syntax : list error) : tab * result :=
    let s := {| st_table := empty; st_semantic := []; st_syntax := syntax |} in
    let s := run_pass parser_exception plan_visitor s in
    let s := run_pass parser_exception pipeline_visitor s in
    let s := run_pass relation_exception relation_visitor s in
    let s := if hasErrors (st_semantic s) then s else run_pass relation_exception subquery_visitor s in
    (st_table s, {| r_syntax := getErrorMessages (st_syntax s); r_semantic := getErrorMessages (st_semantic s) |}).
  (** LoadText.cpp 13-23; SymbolTablePrinter::outputToBinaryPlan can throw, which nothing catches *)
  Variable plan : Type.
  Variable outputToBinaryPlan : tab -> outcome plan.
  Definition loadFromText (syntax : list error) : outcome (status plan) :=
    let '(t, r) := parseStream syntax in
    if successful r then p <- outputToBinaryPlan t ;; Ok (inl p) else Ok (inr (join [] (getAllErrors r))).
End Parse.

(** * Converting binary plans *)
Section Save.
  Variables (plan tab : Type).
  (** ParseBinary.cpp 12-30: the errors of the first pass and of the printing pass; the middle one has no way to report any.  None of them is
      guarded against exceptions. *)
  Variables (initial_visitor : plan -> outcome (tab * list str)) (pipeline_visitor : plan -> tab -> outcome tab) (printer_visitor : plan -> tab -> outcome (tab * list str)).
  Definition parseBinaryPlan (p : plan) : outcome (tab * result) :=
    x <- initial_visitor p ;; t <- pipeline_visitor p (fst x) ;; y <- printer_visitor p t ;;
    Ok (fst y, {| r_syntax := snd x; r_semantic := snd y |}).
  Variable outputToText : tab -> outcome (str * list str).

  (** * Files *)
  (** Contents by name, and how many descriptors the process holds open *)
  Record files := { content : str -> option str; descriptors : nat }.
  Definition put (name : str) (c : str) (f : files) : files :=
    {| content := fun n => if name =s n then Some c else content f n; descriptors := descriptors f |}.
  Definition leak (f : files) : files := {| content := content f; descriptors := S (descriptors f) |}.
  (** What the operating system answers: whether the file can be opened for writing (which empties it), and what is in the file, and whether
      that is a success, when these bytes are written to it and it is closed. *)
  Record system := { opens : str -> bool; writes : str -> str * bool }.
  Variable sys : system.
  (** The error message, if any. *)
  Definition saved := option str.
  Definition cannot_open (name : str) : str := $"Failed to open file " ++ name ++ $" for writing".
  (** SaveBinary.cpp 30-53 savePlanToBinary and 110-132 savePlanToProtoText: [bytes] is the serialized plan, or nothing if it could not be
      serialized completely (then some of it may have been written, [None] leaves the file empty here); on both failures the stream is not deleted. *)
  Definition save_stream (bytes : option str) (failed closing : str) (name : str) (f : files) : saved * files :=
    if opens sys name then
      match bytes with
      | None => (Some failed, leak (put name [] f))
      | Some b => let '(c, ok) := writes sys b in if ok then (None, put name c f) else (Some closing, put name c f)
      end
    else (Some (cannot_open name), f).
  Variables (serialize_binary serialize_prototext serialize_json : plan -> option str).
  Definition savePlanToBinary (p : plan) (name : str) (f : files) : outcome (saved * files) :=
    Ok (save_stream (serialize_binary p) $"Failed to write plan to stream." $"Failed to close file descriptor." name f).
  Definition savePlanToProtoText (p : plan) (name : str) (f : files) : outcome (saved * files) :=
    Ok (save_stream (serialize_prototext p) $"Failed to save plan as a text protobuf." $"Failed to close file descriptor." name f).
  (** 55-76 *)
  Definition savePlanToJson (p : plan) (name : str) (f : files) : outcome (saved * files) :=
    Ok (if opens sys name then
          match serialize_json p with
          | None => (Some $"Failed to save plan as a JSON protobuf.", put name [] f)
          | Some b => let '(c, ok) := writes sys b in (if ok then None else Some $"Failed to write the plan as a JSON protobuf.", put name c f)
          end
        else (Some (cannot_open name), f)).
  (** 78-108.  An exception leaves the file as it is at that moment: the files are part of the result also then. *)
  Inductive ended := Returned (r : saved) | Raised (e : exn) | Undefined.
  Definition run {A} (x : outcome A) (f : files) (k : A -> ended * files) : ended * files :=
    match x with Ok a => k a | Throw e => (Raised e, f) | UB => (Undefined, f) end.
  Definition savePlanToText (p : plan) (name : str) (f : files) : ended * files :=
    if opens sys name then
      let f := put name [] f in
      run (parseBinaryPlan p) f (fun r =>
        match getAllErrors (snd r) with
        | [] => run (outputToText (fst r)) f (fun t =>
                  let '(c, ok) := writes sys (fst t) in
                  let f := put name c f in
                  (Returned (if ok then match snd t with
                                        | [] => None
                                        | e => Some ($"Errors while writing to text: " ++ join [newline] e)
                                        end
                             else Some $"Failed to write the plan as text."), f))
        | e => (Returned (Some (join [] e)), f)
        end)
    else (Returned (Some (cannot_open name)), f).
  (** Io.cpp 62-79 *)
  Definition returned (x : outcome (saved * files)) (f : files) : ended * files := run x f (fun r => (Returned (fst r), snd r)).
  Definition savePlan (p : plan) (name : str) (fmt : format) (f : files) : ended * files :=
    match fmt with
    | FBinary => returned (savePlanToBinary p name f) f
    | FJson => returned (savePlanToJson p name f) f
    | FProtoText => returned (savePlanToProtoText p name f) f
    | FText => savePlanToText p name f
    end.

  (** A std::string_view: the bytes from its start to the end of the memory it points into, and its length *)
  Record view := { v_memory : str; v_length : nat }.
  Definition view_text (v : view) : str := firstn (v_length v) (v_memory v).
  (** [data()] as a C string: up to the first zero, wherever that is; without one, undefined. *)
  Fixpoint c_string (s : str) : option str := match s with [] => None | c :: r => if ceq c zero then Some [] else option_map (cons c) (c_string r) end.
  (** Io.cpp 39-45, LoadBinary.cpp 42-55 *)
  Variable cannot_read : str -> str.
  Definition readFromFile (name : str) (f : files) : status str := match content f name with Some c => inl c | None => inr (cannot_read name) end.
  Variables (parse_json parse_prototext parse_binary parse_text : str -> status plan).
  Definition loadFile (v : view) (f : files) : outcome (status plan) :=
    match c_string (v_memory v) with
    | Some name => Ok (loadPlan plan parse_json parse_prototext parse_binary parse_text (readFromFile name f))
    | None => UB
    end.
  (** Saving makes a string of the view (SaveBinary.cpp 34, 58, 81, 114) *)
  Definition saveFile (p : plan) (v : view) (fmt : format) (f : files) : ended * files := savePlan p (view_text v) fmt f.

  (** * Tools *)
  (** What is printed for a file: on the standard output and on the standard error *)
  Record printed := { p_out : str; p_err : str }.
  Definition said (l : list str) : str := concat (map (fun m => m ++ [newline]) l).
  (** converter/Tool.cpp 17-36 *)
  Definition convertPlanToText (loaded : status plan) : outcome printed :=
    match loaded with
    | inr e => Ok {| p_out := []; p_err := e ++ [newline] |}
    | inl p =>
        r <- parseBinaryPlan p ;; t <- outputToText (fst r) ;;
        Ok {| p_out := fst t; p_err := said (getAllErrors (addErrors (snd r) (snd t))) |}
    end.
  (** parser/Tool.cpp 12-39; what was parsed, or nothing if the file could not be read *)
  Definition readText (name : str) (parsed : option (tab * result)) : outcome printed :=
    match parsed with
    | None => Ok {| p_out := []; p_err := $"An error occurred while reading: " ++ name ++ [newline] |}
    | Some (t, r) =>
        if successful r then
          x <- outputToText t ;;
          Ok {| p_out := match snd x with [] => fst x | e => said e end; p_err := [] |}
        else Ok {| p_out := said (getAllErrors r); p_err := [] |}
    end.
  (** converter/Tool.cpp 41-66, parser/Tool.cpp 44-70: a heading for each file, and the exit status *)
  Definition heading (name : str) : str := $"===== " ++ name ++ $" =====" ++ [newline].
  Fixpoint tool_files (one : str -> outcome printed) (names : list str) : outcome printed :=
    match names with
    | [] => Ok {| p_out := []; p_err := [] |}
    | n :: r => x <- one n ;; y <- tool_files one r ;; Ok {| p_out := heading n ++ p_out x ++ p_out y; p_err := p_err x ++ p_err y |}
    end.
  (** [usage] is printed without arguments *)
  Definition tool (usage : str) (one : str -> outcome printed) (names : list str) : outcome (printed * nat) :=
    match names with
    | [] => Ok ({| p_out := usage; p_err := [] |}, 1)
    | _ => x <- tool_files one names ;; Ok (x, 0)
    end.
End Save.
