(** Model of how columns are tracked, named and looked up: SubstraitPlanRelationVisitor.cpp (the first reading of the relations of a
    text plan), SubstraitPlanSubqueryRelationVisitor.cpp (the second) and PlanPrinterVisitor.cpp (printing). *)
From Verif Require Import Base.
From Coq Require Import ZArith.

(** A column symbol: [c_id] is its identity (the pointer), [c_loc] its source location, [c_schema] the name of the schema it points to
    (set by the converter only). *)
Record column := { c_id : nat; c_name : str; c_alias : str; c_loc : nat; c_schema : option str }.
(** The schema symbols of the table, in order: name and source location. *)
Definition schemas := list (str * nat).

(** [fullyQualifiedReference], SubstraitPlanRelationVisitor.cpp 2017-2028 (same in SubstraitPlanSubqueryRelationVisitor.cpp 2154-2165) *)
Definition fullyQualifiedReference (ss : schemas) (c : column) : str :=
  match find (fun s => snd s =? c_loc c) ss with Some s => fst s ++ $"." ++ c_name c | None => c_name c end.

(** [std::find_if] on reverse iterators: how far from the end the found element is. *)
Fixpoint find_pos (P : column -> bool) (l : list column) : option nat :=
  match l with [] => None | c :: r => if P c then Some 0 else option_map S (find_pos P r) end.
Definition rfind (P : column -> bool) (l : list column) : option nat := find_pos P (rev l).
(** [static_cast<int32_t>(n & INT32_MAX)] of a [size_t] computation. *)
Definition index32 (z : Z) : Z := Z.land (z mod 2 ^ 64) 2147483647.
Definition size (l : list column) : Z := Z.of_nat (length l).
Definition nonempty (s : str) : bool := match s with [] => false | _ => true end.
Definition match_generated (name : str) (c : column) : bool := (nonempty (c_alias c) && (c_alias c =s name)) || (c_name c =s name).
Definition match_input (ss : schemas) (name : str) (c : column) : bool := match_generated name c || (fullyQualifiedReference ss c =s name).

(** One relation: its input columns, the columns it adds, whether it is an aggregation, the query it is a subquery of and the first
    relation of its pipeline (both as positions in the list of relations). *)
Record scope := { q_fields : list column; q_generated : list column; q_aggregate : bool; q_parent : option nat; q_start : option nat }.

(** The part common to both visitors: 2030-2074 and 2167-2212; [None] is not found. *)
Definition find_in (ss : schemas) (emit : bool) (q : scope) (name : str) : option Z :=
  let size0 := if q_aggregate q && emit then 0%Z else size (q_fields q) in
  match rfind (match_generated name) (q_generated q) with
  | Some placement => Some (index32 (size0 + size (q_generated q) - Z.of_nat placement - 1))
  | None => match rfind (match_input ss name) (q_fields q) with
            | Some placement => Some (index32 (size0 - Z.of_nat placement - 1))
            | None => None
            end
  end.
(** [findFieldReferenceByName] of the first visitor, 2030-2078: steps out and field number *)
Definition findFieldReferenceByName (ss : schemas) (emit : bool) (q : scope) (name : str) : Z * Z :=
  match find_in ss emit q name with Some i => (0, i)%Z | None => (0, -1)%Z end.

(** [getParentQueryLocation], SubstraitPlanSubqueryRelationVisitor.cpp 323-340; [fuel] bounds the rounds of the loop.
    The location of a parent query is represented by the position of the relation found there. *)
Section Parents.
  Variable t : list scope.
  Fixpoint start_parent (fuel : nat) (q : scope) : outcome (option nat) :=
    match q_start q with
    | None => Ok None
    | Some s => match nth_error t s with
                | None => UB
                | Some q' => match q_parent q' with
                             | Some p => Ok (Some p)
                             | None => match fuel with 0 => Throw EFuel | S f => start_parent f q' end
                             end
                end
    end.
  Definition getParentQueryLocation (fuel : nat) (q : scope) : outcome (option nat) :=
    match q_parent q with Some p => Ok (Some p) | None => start_parent fuel q end.
  (** [findFieldReferenceByName] of the second visitor, 2167-2235: steps out, field number and whether an error was reported.
      [fuel] also bounds the depth of the recursion. *)
  Fixpoint findOuter (ss : schemas) (emit : bool) (fuel : nat) (q : scope) (name : str) : outcome (Z * Z * bool) :=
    match find_in ss emit q name with
    | Some i => Ok (0%Z, i, false)
    | None =>
        p <- getParentQueryLocation fuel q ;;
        match p with
        | None => Ok (0%Z, (-1)%Z, true)
        | Some p => match nth_error t p with
                    | None => Ok (0%Z, (-1)%Z, true)
                    | Some q' => match fuel with
                                 | 0 => Throw EFuel
                                 | S f => r <- findOuter ss emit f q' name ;; let '(steps, i, e) := r in Ok ((steps + 1)%Z, i, e)
                                 end
                    end
        end
    end.
End Parents.

(** [applyOutputMappingToSchema], 2080-2128 (same in SubstraitPlanSubqueryRelationVisitor.cpp 2237-2285).  [output] is what has been
    collected so far; returns the new output columns and the entries reported as missing.  A negative number is compared as a [size_t]. *)
Definition at_index (l : list column) (m : Z) : option column := nth_error l (Z.to_nat (m mod 2 ^ 64)).
Fixpoint map_columns (cols : list column) (mapping : list Z) (output : list column) : list column * list Z :=
  match mapping with
  | [] => (output, [])
  | m :: r => if (m mod 2 ^ 64 <? size cols)%Z then
                match at_index cols m with Some c => map_columns cols r (output ++ [c]) | None => map_columns cols r output end
              else let '(o, e) := map_columns cols r output in (o, m :: e)
  end.
Definition applyOutputMapping (aggregate : bool) (fields generated output : list column) (mapping : list Z) : list column * list Z :=
  match mapping with
  | [] => (output, [])
  | _ => if aggregate then map_columns output mapping [] else map_columns (fields ++ generated) mapping output
  end.

(** * Reading the relations of a text plan *)
(** What a relation mentions; [names] are the columns mentioned by a condition, a sort or the arguments of a function. *)
Inductive detail :=
| DSchema (cols : list column)                       (* base_schema *)
| DColumn (name : str) (new : column)                (* expression of a project: just a column; [new] is its NAMED or unique name *)
| DExpression (names : list str) (new : column)      (* any other expression of a project *)
| DGroupColumn (name : str)                          (* grouping by a column *)
| DGroupExpression (names : list str)                (* grouping by anything else *)
| DMeasure (names : list str) (new : option column)  (* [Some]: with a phase and NAMED *)
| DUse (names : list str).                           (* filter, sort, join condition *)
Record node := { n_aggregate : bool; n_inputs : list nat; n_details : list detail; n_emit : list str }.
(** What is recorded about a relation. *)
Record data := { d_fields : list column; d_generated : list column; d_output : list column; d_refs : list Z; d_mapping : list Z; d_missing : list Z }.
Definition no_data := {| d_fields := []; d_generated := []; d_output := []; d_refs := []; d_mapping := []; d_missing := [] |}.
(** [addInputFieldsToSchema], 274-312 *)
Definition exposed (d : data) : list column := match d_output d with [] => d_fields d ++ d_generated d | o => o end.
Definition input_fields (known : list data) (n : node) : list column := flat_map (fun i => exposed (nth i known no_data)) (n_inputs n).

Section Visit.
  Variables (ss : schemas) (n : node) (fields : list column).
  Definition scope_of (generated : list column) : scope :=
    {| q_fields := fields; q_generated := generated; q_aggregate := n_aggregate n; q_parent := None; q_start := None |}.
  Definition ref (generated : list column) (name : str) : Z := snd (findFieldReferenceByName ss false (scope_of generated) name).
  (** Visiting the details but emits: the generated columns, output columns, expressions of a project still to be added and references. *)
  Inductive todo := TColumn (i : Z) | TNew (c : column).
  Fixpoint visit_details (l : list detail) (generated output : list column) (exprs : list todo) (refs : list Z)
    : outcome (list column * list column * list todo * list Z) :=
    match l with
    | [] => Ok (generated, output, exprs, refs)
    | d :: r =>
        match d with
        | DSchema cols => visit_details r generated (output ++ cols) exprs refs                                  (* 584-629 *)
        | DColumn name new =>                                                                                     (* 646-660 *)
            let i := ref generated name in
            visit_details r generated output (exprs ++ [if (i =? -1)%Z then TNew new else TColumn i]) (refs ++ [i])
        | DExpression names new => visit_details r generated output (exprs ++ [TNew new]) (refs ++ map (ref generated) names)
        | DGroupColumn name =>                                                                                    (* 670-707 *)
            let i := ref generated name in
            if (i =? -1)%Z then visit_details r generated output exprs (refs ++ [i])
            else match nth_error fields (Z.to_nat i) with
                 | Some c => visit_details r (generated ++ [c]) output exprs (refs ++ [i])
                 | None => UB                                                                                     (* 693-697: unchecked *)
                 end
        | DGroupExpression names => visit_details r generated output exprs (refs ++ map (ref generated) names)
        | DMeasure names new =>                                                                                   (* 892-947 *)
            visit_details r (match new with Some c => generated ++ [c] | None => generated end) output exprs (refs ++ map (ref generated) names)
        | DUse names => visit_details r generated output exprs (refs ++ map (ref generated) names)
        end
    end.
  (** [addExpressionsToSchema], 1973-2015 *)
  Fixpoint add_expressions (l : list todo) (generated : list column) : list column :=
    match l with
    | [] => generated
    | TColumn i :: r => match nth_error fields (Z.to_nat i) with Some c => add_expressions r (generated ++ [c]) | None => add_expressions r generated end
    | TNew c :: r => add_expressions r (generated ++ [c])
    end.
End Visit.
(** [visitRelation], 339-403, for a relation outside of subqueries *)
Definition visitRelation (ss : schemas) (known : list data) (n : node) : outcome data :=
  let fields := input_fields known n in
  r <- visit_details ss n fields (n_details n) [] [] [] [] ;;
  let '(generated, output, exprs, refs) := r in
  let generated := add_expressions fields exprs generated in
  let mapping := map (fun name => snd (findFieldReferenceByName ss true (scope_of n fields generated) name)) (n_emit n) in
  let output := if n_aggregate n then output ++ generated else output in
  let '(output', missing) := applyOutputMapping (n_aggregate n) fields generated output mapping in
  Ok {| d_fields := fields; d_generated := generated; d_output := output'; d_refs := refs; d_mapping := mapping; d_missing := missing |}.
(** The relations in the order of the text; the data of a relation not visited yet is empty. *)
Fixpoint set_nth (i : nat) (d : data) (l : list data) : list data :=
  match l, i with [], _ => [] | _ :: r, 0 => d :: r | x :: r, S i => x :: set_nth i d r end.
Fixpoint visit_all (ss : schemas) (nodes : list node) (i : nat) (known : list data) : outcome (list data) :=
  match nodes with
  | [] => Ok known
  | n :: r => d <- visitRelation ss known n ;; visit_all ss r (S i) (set_nth i d known)
  end.
Definition visitPlan (ss : schemas) (nodes : list node) : outcome (list data) := visit_all ss nodes 0 (repeat no_data (length nodes)).

(** * Printing *)
(** [lookupFieldReference], PlanPrinterVisitor.cpp 136-190, and [lookupFieldReferenceForEmit], 192-256, without steps out; [None] is an
    error.  References and emits are always printed with the name of the schema (672-681, 890-894). *)
Definition column_text (c : column) : str :=
  if nonempty (c_alias c) then c_alias c else match c_schema c with Some s => s ++ $"." ++ c_name c | None => c_name c end.
Definition lookupFieldReference (fields generated : list column) (i : Z) : option str :=
  option_map column_text (nth_error (fields ++ generated) (Z.to_nat (i mod 2 ^ 32))).
Definition lookupFieldReferenceForEmit (aggregate : bool) (fields generated : list column) (i : Z) : option str :=
  option_map column_text (nth_error (if aggregate then generated else fields ++ generated) (Z.to_nat (i mod 2 ^ 32))).

(** * Columns in the converter *)
(** A relation of a binary plan as far as its columns go.  [new] columns stand for the symbols created for it. *)
Inductive gexpr := GColumn (i : Z) | GOther (new : column).   (* grouping or project expression: a column or anything else *)
Inductive crel :=
| CRead (cols : list column) (emit : option (list Z))
| CSame (input : crel) (emit : option (list Z))                                                          (* filter, fetch, sort *)
| CAggregate (input : crel) (groupings : list (list gexpr)) (measures : list column) (emit : option (list Z))
| CJoin (left_only : bool) (left right : crel) (emit : option (list Z))                                  (* all joins and cross products; [left_only]: semi and anti joins *)
| CProject (input : crel) (exprs : list gexpr) (emit : option (list Z))
| CSet (first : crel) (others : list crel) (emit : option (list Z))
| CWindow (input : crel) (functions : list column) (emit : option (list Z)).
(** InitialPlanProtoVisitor.cpp 628-666 with 101-153: an emit without numbers is no emit. *)
Definition convert_emit (aggregate : bool) (fields generated output : list column) (emit : option (list Z)) : data :=
  let '(o, e) := match emit with
                 | None | Some [] => (output, [])
                 | Some ms => if aggregate then map_columns generated ms [] else map_columns (fields ++ generated) ms output
                 end in
  {| d_fields := fields; d_generated := generated; d_output := o; d_refs := []; d_mapping := []; d_missing := e |}.
(** [addGroupingToRelation], 669-690: other expressions are left out; missing columns are reported. *)
Fixpoint convert_groupings (fields : list column) (l : list gexpr) : list column * list Z :=
  match l with
  | [] => ([], [])
  | GColumn i :: r => let '(cs, e) := convert_groupings fields r in
                      if (i mod 2 ^ 64 <? size fields)%Z then (match at_index fields i with Some c => c :: cs | None => cs end, e) else (cs, i :: e)
  | GOther _ :: r => convert_groupings fields r
  end.
(** 518-575 *)
Fixpoint convert_exprs (fields : list column) (l : list gexpr) : list column * list Z :=
  match l with
  | [] => ([], [])
  | GColumn i :: r => let '(cs, e) := convert_exprs fields r in
                      if (i mod 2 ^ 64 <? size fields)%Z then (match at_index fields i with Some c => c :: cs | None => cs end, e) else (cs, i :: e)
  | GOther c :: r => let '(cs, e) := convert_exprs fields r in (c :: cs, e)
  end.
Definition also (e : list Z) (d : data) : data :=
  {| d_fields := d_fields d; d_generated := d_generated d; d_output := d_output d; d_refs := d_refs d; d_mapping := d_mapping d; d_missing := e ++ d_missing d |}.
(** [updateLocalSchema], 461-667, after the inputs (visitRelation, 254-297); [d_missing] are the numbers reported for the relation. *)
Fixpoint convert (r : crel) : data :=
  match r with
  | CRead cols emit => convert_emit false cols [] [] emit                                                                  (* 466-480 *)
  | CSame input emit => convert_emit false (exposed (convert input)) [] [] emit                                            (* 481-486, 509-511 *)
  | CAggregate input groupings measures emit =>                                                                            (* 487-508 *)
      let fields := exposed (convert input) in
      let '(gs, e) := convert_groupings fields (concat groupings) in
      also e (convert_emit true fields (gs ++ measures) (gs ++ measures) emit)
  | CJoin _ l r emit => convert_emit false (exposed (convert l) ++ exposed (convert r)) [] [] emit                         (* 512-515, 588-591, 600-617 *)
  | CProject input exprs emit =>
      let fields := exposed (convert input) in
      let '(cs, e) := convert_exprs fields exprs in also e (convert_emit false fields cs [] emit)
  | CSet first others emit => convert_emit false (exposed (convert first) ++ flat_map (fun r => exposed (convert r)) others) [] [] emit   (* 577-579 *)
  | CWindow input _ emit => convert_emit false (exposed (convert input)) [] [] emit                                        (* 618-620 *)
  end.
