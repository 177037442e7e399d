(** Model of src/substrait/common/Io.cpp, src/substrait/common/PlanTransformerTool.cpp, export/planloader/planloader.cpp and of the
    loaders in src/substrait/textplan/converter/LoadBinary.cpp. *)
From Verif Require Import Base.
From Coq Require Import ZArith.

Definition newline : ascii := ascii_of_N 10.
(** * Regular expressions *)
(** The part of the ECMAScript grammar used in Io.cpp 17-22.  [RBol] is ^, which without the multiline flag matches only at the
    start of the searched range. *)
Inductive re :=
| RChar (c : ascii)
| RRange (lo hi : ascii)
| RBol
| RSeq (a b : re)
| RAlt (a b : re)
| RStar (a : re)
| REps.
Definition RPlus (a : re) : re := RSeq a (RStar a).
Fixpoint RWord (w : str) : re := match w with [] => REps | c :: r => RSeq (RChar c) (RWord r) end.
Fixpoint RAny (l : list re) : re := match l with [] => RRange "1" "0" | [x] => x | x :: r => RAlt x (RAny r) end.

(** All the positions at which a match of [r] starting in front of [s] may end; a position is whether it is the start of the
    searched range and the text after it.  A round of a repetition that matches nothing is not repeated. *)
Definition pos := (bool * str)%type.
Fixpoint ends (r : re) (p : pos) : list pos :=
  match r with
  | REps => [p]
  | RChar c => match snd p with x :: s => if ceq x c then [(false, s)] else [] | [] => [] end
  | RRange lo hi => match snd p with x :: s => if ((code lo <=? code x) && (code x <=? code hi))%N then [(false, s)] else [] | [] => [] end
  | RBol => if fst p then [p] else []
  | RSeq a b => flat_map (ends b) (ends a p)
  | RAlt a b => ends a p ++ ends b p
  | RStar a =>
      (fix go (n : nat) (p : pos) : list pos :=
         p :: match n with
              | 0 => []
              | S n' => flat_map (go n') (filter (fun q => length (snd q) <? length (snd p)) (ends a p))
              end) (length (snd p)) p
  end.
(** [std::regex_search]: there is a match starting somewhere. *)
Fixpoint search_from (start : bool) (r : re) (s : str) : bool :=
  match ends r (start, s) with
  | _ :: _ => true
  | [] => match s with [] => false | _ :: s' => search_from false r s' end
  end.
Definition regex_search (r : re) (s : str) : bool := search_from true r s.

(** * Io.cpp *)
(** 17-18 *)
Definition kIsJson : re := RAny (map RWord [$"""extensionUris"""; $"""extension_uris"""; $"""extensions"""; $"""relations"""]).
(** 19-20 *)
Definition bol : re := RAlt RBol (RChar newline).
Definition kIsProtoText : re :=
  RSeq bol (RSeq (RAny (map RWord [$"relations"; $"extensions"; $"extension_uris"; $"expected_type_urls"])) (RWord $" {")).
(** 21-22 *)
Definition spaces : re := RStar (RChar " ").
Definition kIsText : re :=
  RSeq bol (RSeq spaces (RSeq (RAny [RWord $"pipelines"; RSeq (RPlus (RRange "a" "z")) (RSeq spaces (RWord $"relation"));
                                     RWord $"schema"; RWord $"source"; RWord $"extension_space"]) spaces)).
Inductive format := FBinary | FJson | FProtoText | FText.
(** 24-35 *)
Definition detectFormat (content : str) : format :=
  if regex_search kIsJson content then FJson
  else if regex_search kIsProtoText content then FProtoText
  else if regex_search kIsText content then FText
  else FBinary.

(** * PlanTransformerTool.cpp 10-27 *)
Definition planFileFormatFromText (x : str) : format :=
  let foo := to_lower x in
  if foo =s $"binary" then FBinary else if foo =s $"json" then FJson else if foo =s $"prototext" then FProtoText
  else if foo =s $"text" then FText else FText.

(** * LoadBinary.cpp 59-70: the part of the content given to the JSON parser. *)
Fixpoint drop_line (s : str) : str := match s with [] => [] | c :: r => if ceq c newline then s else drop_line r end.
Definition usableJson (json : str) : option str :=
  match json with
  | [] => None                                       (* 60-62: an error *)
  | c :: _ => Some (if ceq c "#" then drop_line json else json)
  end.

(** * Loading and saving: the parsers and printers of protobuf and of text plans are parameters. *)
Section Load.
  Variable plan : Type.
  Definition status (A : Type) : Type := (A + str)%type.           (* absl::StatusOr: a value or a message *)
  Variables (parse_json parse_prototext parse_binary parse_text : str -> status plan).
  (** LoadBinary.cpp 59-80 *)
  Definition loadFromJson (json : str) : status plan :=
    match usableJson json with
    | None => inr $"Provided JSON string was empty."
    | Some j => match parse_json j with inl p => inl p | inr e => inr ($"Failed to parse Substrait JSON: " ++ e) end
    end.
  (** Io.cpp 39-60; the content of the file or the error of reading it *)
  Definition loadPlan (content : status str) : status plan :=
    match content with
    | inr e => inr e
    | inl c => match detectFormat c with
               | FBinary => parse_binary c
               | FJson => loadFromJson c
               | FProtoText => parse_prototext c
               | FText => parse_text c
               end
    end.

  (** * planloader.cpp: memory is a list of live blocks *)
  Definition block := (nat * str)%type.
  Record memory := { next : nat; live : list block }.
  Definition alloc (bytes : str) (m : memory) : nat * memory :=
    (next m, {| next := S (next m); live := (next m, bytes) :: live m |}).
  (** [delete]: of nothing is allowed, of anything but a live block is undefined. *)
  Definition release (p : option nat) (m : memory) : outcome memory :=
    match p with
    | None => Ok m
    | Some a => if existsb (fun b => fst b =? a) (live m) then Ok {| next := next m; live := filter (fun b => negb (fst b =? a)) (live m) |} else UB
    end.
  Definition contents (p : option nat) (m : memory) : option str :=
    match p with None => None | Some a => option_map snd (find (fun b => fst b =? a) (live m)) end.
  Record serialized := { sp_self : nat; sp_buffer : option nat; sp_size : Z; sp_error : option nat }.
  Definition int32_max : Z := 2147483647.
  Variable serialize : plan -> str.                                (* Plan::SerializeAsString *)
  (** [strncpy(dst, src, n)]: up to the first zero, then zeros. *)
  Fixpoint cstr (s : str) : str := match s with [] => [] | c :: r => if ceq c zero then [] else c :: cstr r end.
  Definition strncpy (src : str) (n : nat) : str := let t := firstn n (cstr src) in t ++ repeat zero (n - length t).
  (** 14-35; the structure itself is a block too *)
  Definition load_substrait_plan (content : status str) (m : memory) : serialized * memory :=
    let '(self, m1) := alloc [] m in
    match loadPlan content with
    | inr e => let '(a, m2) := alloc (strncpy e (length e + 1)) m1 in
               ({| sp_self := self; sp_buffer := None; sp_size := 0; sp_error := Some a |}, m2)
    | inl p => let text := serialize p in
               let '(a, m2) := alloc (text ++ [zero]) m1 in
               ({| sp_self := self; sp_buffer := Some a; sp_size := Z.land (Z.of_nat (length text)) int32_max; sp_error := None |}, m2)
    end.
  (** 37-41 *)
  Definition free_substrait_plan (s : serialized) (m : memory) : outcome memory :=
    m1 <- release (sp_buffer s) m ;; m2 <- release (sp_error s) m1 ;; release (Some (sp_self s)) m2.
  (** 46-59: the parser fills in what it can and says whether it succeeded, which is ignored; saving gives an error message or none.
      The message belongs to a local variable, so the returned pointer dangles. *)
  Inductive cpointer := Null | Dangling.
  Variable parse_partial : str -> plan * bool.
  Variable savePlan : plan -> format -> option str.
  Definition save_substrait_plan (data : str) (length_ : Z) (f : format) : outcome (cpointer * option str) :=
    if (length_ <? 0)%Z then Throw EStdInvalid                     (* std::length_error *)
    else if (Z.of_nat (length data) <? length_)%Z then UB           (* reads past the given bytes *)
    else let r := savePlan (fst (parse_partial (firstn (Z.to_nat length_) data))) f in
         Ok (match r with Some _ => Dangling | None => Null end, r).
End Load.
