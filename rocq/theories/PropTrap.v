(** C98: which texts of plans lead to undefined behaviour, or to endless recursion, when they are read. *)
From Verif Require Import Base BaseFacts StringsModel TypeModel LexModel ExprModel RelModel SectionModel WholeModel SoundFacts WrittenTypeFacts TypeWordFacts TrapTextFacts.
From Verif Require TrapPlanFacts.
From Coq Require Import Lia.

(** If the behaviour is undefined then the text has one of the traps of [plan_trap] (TrapTextFacts.v): a pipeline through the name of a schema, a source,
    an extension space or something listed in them (a column, a table, a file, a function); a constant with a timestamp that is too far away or an interval with too few parts; a measure that is no call and has neither phase nor name;
    a column that is grouped by though a column before it has its name; or a relation with 2^31 columns. *)
Theorem C98_defined s : from_text s = UB -> exists nodes, parse s = Some nodes /\ plan_trap nodes.
Proof. exact (defined_unless_trap s). Qed.
Print Assumptions C98_defined.

(** For constants this is exact. *)
Theorem C98_constants c : Forall written (constant_types c) -> visitConstant c = UB <-> Trap false c None.
Proof. exact (constants_trap c). Qed.
Print Assumptions C98_constants.

(** The types of a text that the parser accepts are read without undefined behaviour (unlike those of C15, which come from elsewhere). *)
Theorem C98_types s nodes n items c w : parse s = Some nodes -> In (PSchema n items) nodes -> In (c, w) items -> forall inside, textToTypeProto inside w <> UB.
Proof. exact (types_read s nodes n items c w). Qed.
Print Assumptions C98_types.

(** The recursion ends unless pipelines go round in a circle. *)
Theorem C98_ends s : from_text s = Throw EFuel -> exists nodes, parse s = Some nodes /\ TrapPlanFacts.circular nodes.
Proof. exact (TrapPlanFacts.ends_unless_circular s). Qed.
Print Assumptions C98_ends.

(** * Each of the traps is met *)
Definition sections_after : str := $"source named_table t { names = [""t""] } schema s { a i32; b decimal<9,2>; } extension_space /f.yaml { function sum:i32 as sum; } root { names = [x] }".
Definition section_r : str := $"read relation r { source t; base_schema s; } ".
Definition text_with (section : str) : str := $"pipelines { r -> x -> root; } " ++ section_r ++ section ++ sections_after.

(** Grouping twice by one column: the second one is looked up among the columns of the input though it is found behind them
    (SubstraitPlanSubqueryRelationVisitor.cpp 720-757). *)
Theorem C98_grouped_twice_refuted : from_text (text_with $"aggregate relation x { grouping s.a; grouping a; } ") = UB.
Proof. vm_compute. reflexivity. Qed.
Theorem C98_grouped_same_refuted : from_text (text_with $"aggregate relation x { grouping a; grouping a; } ") = UB.
Proof. vm_compute. reflexivity. Qed.
(** A measure that is a column: a null pointer is read. *)
Theorem C98_measure_refuted : from_text (text_with $"aggregate relation x { measure { measure a; } } ") = UB.
Proof. vm_compute. reflexivity. Qed.
(** An interval with one part, and a timestamp of the year 2500 *)
Theorem C98_interval_refuted : from_text (text_with $"project relation x { expression {1}_interval_year NAMED c; } ") = UB.
Proof. vm_compute. reflexivity. Qed.
Theorem C98_timestamp_refuted : from_text (text_with $"project relation x { expression ""2500-01-01 00:00:00""_timestamp NAMED c; } ") = UB.
Proof. vm_compute. reflexivity. Qed.
(** A pipeline through a schema *)
Theorem C98_pipeline_refuted : from_text ($"pipelines { s -> root; } " ++ sections_after) = UB.
Proof. vm_compute. reflexivity. Qed.
(** Relations that feed each other: the recursion does not end (for any bound: C35_endless_refuted). *)
Theorem C98_endless_refuted : from_text ($"pipelines { u -> root; v -> u; u -> v; } filter relation u { filter true_boolean; } filter relation v { filter true_boolean; } " ++ sections_after) = Throw EFuel.
Proof. vm_compute. reflexivity. Qed.
Print Assumptions C98_endless_refuted.

(** A text with constants, types and groupings but no trap *)
Example C98_case : exists b, from_text (text_with $"aggregate relation x { grouping a; grouping b; measure { measure sum(a)->i32@AGGREGATION_PHASE_INITIAL_TO_RESULT NAMED m; } } ") = Ok (Some b, []).
Proof. match goal with |- exists b, ?f = _ => destruct f as [[[b|] e]| |] eqn:E; [|vm_compute in E; discriminate E..] end. vm_compute in E. injection E as <- <-. eexists. reflexivity. Qed.
Example C98_constant_case : Trap false (CStruct [CNumber $"1" None] (Some $"interval_year")) None /\ ~ Trap false (CStruct [CNumber $"1" None; CNumber $"2" None] (Some $"interval_year")) None.
Proof.
  assert (W : written $"interval_year").
  { intros u v E. exfalso. assert (H : In "<"%char $"interval_year") by (rewrite E; apply in_or_app; right; left; reflexivity). vm_compute in H. intuition discriminate. }
  assert (W1 : forall l, (forall c, In c l -> constant_types c = []) -> Forall written (constant_types (CStruct l (Some $"interval_year")))).
  { intros l H. cbn [constant_types given]. apply Forall_app. split; [|exact (Forall_cons _ W (Forall_nil _))]. apply Forall_flat_map, Forall_forall. intros c I. rewrite (H c I). constructor. }
  split.
  - apply constants_trap; [apply W1; intros c [<-|[]]; reflexivity|vm_compute; reflexivity].
  - intros T. apply constants_trap in T; [vm_compute in T; discriminate T|]. apply W1. intros c [<-|[<-|[]]]; reflexivity.
Qed.
