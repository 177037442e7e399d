(** Model of the names of relation kinds in both directions (ProtoUtils.cpp, SubstraitPlanVisitor.cpp) and of how the columns of a schema are
    recorded (InitialPlanProtoVisitor.cpp). *)
From Verif Require Import Base SymbolModel TreeModel RelModel.

(** * Kinds *)
(** The numbers of the cases of the message Rel, which come with the generated code of Substrait (algebra.proto, not in /repo). *)
Definition rel_type_case (k : kind) : N :=
  match k with
  | KUnset => 0 | KRead => 1 | KFilter => 2 | KFetch => 3 | KAggregate => 4 | KSort => 5 | KJoin => 6 | KProject => 7 | KSet => 8 | KExtensionSingle => 9
  | KExtensionMulti => 10 | KExtensionLeaf => 11 | KCross => 12 | KHashJoin => 13 | KMergeJoin => 14 | KExchange => 15 | KExpand => 16 | KWindow => 17
  | KNestedLoopJoin => 18 | KWrite => 19 | KDdl => 20 | KReference => 21
  end%N.
(** ProtoUtils.cpp 21-45; a number beyond the table is named like no kind at all. *)
Definition case_names : list str :=
  [$"unknown"; $"read"; $"filter"; $"fetch"; $"aggregate"; $"sort"; $"join"; $"project"; $"set"; $"extensionsingle"; $"extensionmulti"; $"extensionleaf";
   $"cross"; $"hashjoin"; $"mergejoin"].
Definition relTypeCaseName (num : N) : str := nth (N.to_nat num) case_names $"unknown".
(** ProtoUtils.cpp 7-19 *)
Definition planRelTypeCaseName (num : N) : str := nth (N.to_nat num) [$"unknown"; $"rel"; $"root"] $"unknown".
(** SubstraitPlanVisitor.cpp 302-327 visitRelation_type: [None] is RelationType::kUnknown with the error "Unrecognized relation type". *)
Definition relationTypeMap : list (str * kind) :=
  [($"read", KRead); ($"project", KProject); ($"join", KJoin); ($"cross", KCross); ($"fetch", KFetch); ($"aggregate", KAggregate); ($"sort", KSort);
   ($"filter", KFilter); ($"set", KSet)].
Definition visitRelation_type (text : str) : option kind := lookup (to_lower text) relationTypeMap.
(** The kind of a relation in RelModel: the case of its message. *)
Definition kind_of (b : body) : option kind :=
  match b with
  | BRead _ _ _ _ _ => Some KRead | BFilter _ => Some KFilter | BFetch _ _ => Some KFetch | BAggregate _ _ => Some KAggregate | BSort _ => Some KSort
  | BProject _ => Some KProject | BJoin _ _ _ => Some KJoin | BCross => Some KCross | BOther _ => None
  end.

(** * Columns *)
(** InitialPlanProtoVisitor.cpp 389-414 visitNamedStruct.  A type is opaque here ([s_blob] of the symbol); the result has the number in the
    error message if there was one ("Type number … requested but there are not that many types in the proto."). *)
Fixpoint visitNames (t : table) (l : loc) (nameNum : nat) (types : list N) (names : list str) : table * option nat :=
  match names with
  | [] => (t, None)
  | name :: r =>
    match lookupSymbolByName t name with
    | Some _ => visitNames t l nameNum types r
    | None =>
      match nth_error types nameNum with
      | Some ty => visitNames (fst (defineSymbol t name l KField ty)) l (S nameNum) types r
      | None => (t, Some nameNum)
      end
    end
  end.
Definition visitNamedStruct (t : table) (l : loc) (names : list str) (types : list N) : table * option nat := visitNames t l 0 types names.
(** The schemas of a plan in the order in which they are visited *)
Definition visitSchemas (t : table) (schemas : list (loc * list str * list N)) : table :=
  fold_left (fun t s => let '(l, names, types) := s in fst (visitNamedStruct t l names types)) schemas t.
