(** Model of how relations are connected: PipelineVisitor.cpp (recording a binary plan), SymbolTablePrinter.cpp (printing pipelines and
    reassembling a binary plan) and SubstraitPlanPipelineVisitor.cpp (reading pipelines). *)
From Verif Require Import Base.

(** * Reading pipelines *)
(** A relation reference is an identifier with an optional schema (relation_ref, SubstraitPlanParser.g4 54-56): its identifier and its whole
    text.  A pipeline [a -> b -> c] is the list of its references from left to right. *)
Definition elem := (str * str)%type.
(** The part of RelationData (StructuredSymbolData.h 14-28) that pipelines set; symbols are identified by name. *)
Record rdata := { start : option str; cont : option str; news : list str }.
Definition no_data := {| start := None; cont := None; news := [] |}.
(** The symbols by name: relations (with the text plan's own [root]) and symbols of other types. *)
Inductive psym := PRel (d : rdata) | POther.
Definition ptab := list (str * psym).
Fixpoint plookup (t : ptab) (n : str) : option psym := match t with [] => None | (m, s) :: r => if m =s n then Some s else plookup r n end.
Fixpoint pupdate (t : ptab) (n : str) (d : rdata) : ptab :=
  match t with [] => [] | (m, s) :: r => if m =s n then (m, PRel d) :: r else (m, s) :: pupdate r n d end.
Inductive perr := EUsed (n : str) | ELoop (n : str).

(** [updateRelationSymbol], SubstraitPlanPipelineVisitor.cpp 35-53: a stub for an unknown name *)
Definition updateRelationSymbol (t : ptab) (n : str) : ptab := match plookup t n with None => t ++ [(n, PRel no_data)] | Some _ => t end.
(** [continuingPipelineContains], 18-31: compares the text of the references to the right with the identifier *)
Definition continuingPipelineContains (rights : list elem) (n : str) : bool := existsb (fun e => snd e =s n) rights.
(** [visitPipeline], 66-148.  [p] is the pipeline from right to left, as the parse tree is nested; [rights]: the references to the right,
    nearest first.  The symbol of a neighbour is looked up by the location of its reference and by type, so it is null when the name is that of
    a symbol of another type; dereferencing it is undefined. *)
Definition is_rel (t : ptab) (n : str) : bool := match plookup t n with Some (PRel _) => true | _ => false end.
Definition connect (t : ptab) (rights : list elem) (n : str) (d : rdata) (left : option str) : outcome (ptab * list perr) :=
  match d.(cont) with
  | Some _ => Ok (t, [EUsed n])                                                             (* 88-94 *)
  | None =>
    let right := match rights with [] => None | r :: _ => Some (fst r) end in
    match right with
    | Some r => if negb (is_rel t r) then UB else                                            (* 113 *)
        if continuingPipelineContains rights n then Ok (t, [ELoop n]) else                   (* 124-134 *)
        let rightmost := match plookup t r with Some (PRel rd) => match rd.(start) with Some s => s | None => r end | _ => r end in
        match left with
        | None => Ok (pupdate t n {| start := Some rightmost; cont := None; news := d.(news) |}, [])
        | Some l => if negb (is_rel t l) then UB else Ok (pupdate t n {| start := Some rightmost; cont := Some l; news := d.(news) |}, [])
        end
    | None =>
        match left with
        | None => Ok (t, [])
        | Some l => if negb (is_rel t l) then UB else Ok (pupdate t n {| start := d.(start); cont := None; news := d.(news) ++ [l] |}, [])
        end
    end
  end.
Fixpoint visitPipeline (t : ptab) (rights : list elem) (p : list elem) : outcome (ptab * list perr) :=
  match p with
  | [] => Ok (t, [])
  | e :: lefts =>
    let t1 := updateRelationSymbol t (fst e) in
    r <- visitPipeline t1 (e :: rights) lefts ;;
    let '(t2, errs) := r in
    match plookup t2 (fst e) with
    | Some (PRel d) => x <- connect t2 rights (fst e) d (match lefts with [] => None | l :: _ => Some (fst l) end) ;; Ok (fst x, errs ++ snd x)
    | _ => Ok (t2, errs)                                                                     (* 82-84 *)
    end
  end.
(** [visitPipelines], 55-58 *)
Fixpoint visitPipelines (t : ptab) (ps : list (list elem)) : outcome (ptab * list perr) :=
  match ps with
  | [] => Ok (t, [])
  | p :: r => x <- visitPipeline t [] (rev p) ;; y <- visitPipelines (fst x) r ;; Ok (fst y, snd x ++ snd y)
  end.
