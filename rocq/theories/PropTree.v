(** Theorems about relation trees: recording, printing as text, reading back and reassembling. *)
From Verif Require Import Base BaseFacts SymbolModel SymbolFacts SymbolMoreFacts PipeModel PipeFacts TreeModel TreeFacts.
From Coq Require Import Permutation Lia.

(** * Examples of plans *)
Definition read1 (n b : str) : rel str := Rel n KRead b [] [].
Definition example_tree : rel str :=
  Rel ($"project") KProject ($"p") [Rel ($"join") KJoin ($"j") [
      Rel ($"filter") KFilter ($"f") [read1 ($"read2") ($"orders")] [EOp ($"and") [EOp ($"x") []; ESub SIn ($"in") [EOp ($"c") []] (read1 ($"read") ($"parts"))]];
      read1 ($"read3") ($"lines")] [EOp ($"on") []]]
    [ESub SScalar ($"scalar") [] (Rel ($"aggregate") KAggregate ($"max") [read1 ($"read4") ($"lines")] []); ESub SComparison ($"any") [EOp ($"y") []] (read1 ($"read5") ($"prices"))].
Definition example_plan : list plan_rel := [{| p_label := $"root"; p_names := [$"a"; $"b"]; p_rel := example_tree |}].
Ltac nodup := repeat (constructor; [cbn; intuition discriminate|]); constructor.
Lemma example_complete : complete_plan example_plan /\ names_apart example_plan [$"schema"; $"add"].
Proof.
  split; [|unfold names_apart; vm_compute; nodup]. split.
  - repeat constructor.
  - right. eexists. split; reflexivity.
Qed.

(** * C35: splitting a plan into pipelines and reassembling it gives the same relation tree *)
(** A plan of relations that have a text, with all their inputs, comes back unchanged from its text: the same relations with the same inputs in
    the same order, the same expressions and the same output names.  Missing: see the findings below. *)
Theorem C35_round_trip_partial plan others : complete_plan plan -> names_apart plan others -> exists x S, print plan others = Ok (x, []) /\ readText x = Ok (S, []) /\
  forall fuel, (forall p, In p plan -> size (p_rel p) <= fuel) -> outputToBinaryPlan S fuel = Ok (map (fun p => (strip (p_rel p), p_names p)) plan).
Proof. exact (round_trip plan others). Qed.
(** The names need not be assumed to be apart when the symbol table handed them all out and no base name is another one followed by digits. *)
Theorem C35_unique_names_partial plan others l t T : complete_plan plan -> run empty_table l = Ok (t, T) -> Independent (map fst (handed T)) ->
  Permutation (others ++ flat_map own plan) (map snd (handed T)) -> exists x S, print plan others = Ok (x, []) /\ readText x = Ok (S, []) /\
  forall fuel, (forall p, In p plan -> size (p_rel p) <= fuel) -> outputToBinaryPlan S fuel = Ok (map (fun p => (strip (p_rel p), p_names p)) plan).
Proof. intros C R I P. apply round_trip; auto. unfold names_apart. eapply Permutation_NoDup; [apply Permutation_sym; exact P|]. eapply unique_nodup; eauto. Qed.
Print Assumptions C35_round_trip_partial. Print Assumptions C35_unique_names_partial.
Example C35_case : exists x S, print example_plan [$"schema"; $"add"] = Ok (x, []) /\ readText x = Ok (S, []) /\ outputToBinaryPlan S 100 = Ok [(strip example_tree, [$"a"; $"b"])].
Proof.
  destruct (C35_round_trip_partial example_plan [$"schema"; $"add"]) as (x & S & P & R & O); try apply example_complete. exists x, S. split; auto. split; auto. apply O. intros p [<-|[]]. vm_compute. repeat constructor.
Qed.
Example C35_unique_case : exists t T, run empty_table (map OUnique [$"read"; $"filter"; $"read"; $"root"]) = Ok (t, T) /\ Independent (map fst (handed T)) /\ map snd (handed T) = [$"read"; $"filter"; $"read2"; $"root"].
Proof.
  eexists. eexists. split; [vm_compute; reflexivity|]. split; [|vm_compute; reflexivity].
  intros b b' d I I' E D. assert (Q : forall x, In x (map fst (handed [(OUnique ($"read"), RName ($"read")); (OUnique ($"filter"), RName ($"filter")); (OUnique ($"read"), RName ($"read2")); (OUnique ($"root"), RName ($"root"))])) -> forallb (fun c => negb (is_digit c)) x = true).
  { intros x X. repeat (destruct X as [<-|X]; [vm_compute; reflexivity|]). destruct X. }
  destruct d as [|c d]; auto. exfalso. pose proof (Q b' I') as Z. subst b'. rewrite forallb_app in Z. apply andb_prop in Z as [_ Z]. cbn in D, Z. apply andb_prop in D as [D _], Z as [Z _]. rewrite D in Z. discriminate.
Qed.
(** A relation is reported as defined already exactly when its name is another one's or a relation's before it in the text; nothing else is. *)
Theorem C35_defined_twice x S errs : readText x = Ok (S, errs) -> forall n, In (EDefined n) errs <->
  exists before r after, x_rels x = before ++ r :: after /\ x_name r = n /\ (In n (x_others x) \/ exists r', In r' before /\ x_name r' = n).
Proof. exact (defined_twice x S errs). Qed.
Print Assumptions C35_defined_twice.
Example C35_defined_twice_case : exists S, readText {| x_pipes := [[$"a"; $"root"]]; x_rels := map (fun n => {| x_name := n; x_kind := KRead; x_body := []; x_exprs := [] |}) [$"a"; $"s"; $"a"]; x_roots := []; x_others := [$"s"] |} = Ok (S, [EDefined ($"s"); EDefined ($"a")]).
Proof. eexists. vm_compute. reflexivity. Qed.
(** Finding: with two roots that name their outputs the text that is printed is refused. *)
Theorem C35_two_roots_refuted a b : let plan := [{| p_label := $"root"; p_names := [a]; p_rel := read1 ($"read") ($"x") |}; {| p_label := $"root2"; p_names := [b]; p_rel := read1 ($"read2") ($"y") |}] in
  exists x S, print plan [] = Ok (x, []) /\ readText x = Ok (S, [ERoot]).
Proof. cbv zeta. eexists. eexists. split; [vm_compute; reflexivity|vm_compute; reflexivity]. Qed.
(** Finding: when only one of them names its outputs, the other gets those names too. *)
Theorem C35_one_named_refuted a : let plan := [{| p_label := $"root"; p_names := [a]; p_rel := read1 ($"read") ($"x") |}; {| p_label := $"rel"; p_names := []; p_rel := read1 ($"read2") ($"y") |}] in
  exists x S, print plan [] = Ok (x, []) /\ readText x = Ok (S, []) /\ outputToBinaryPlan S 9 = Ok [(strip (read1 ($"read") ($"x")), [a]); (strip (read1 ($"read2") ($"y")), [a])].
Proof. cbv zeta. eexists. eexists. split; [vm_compute; reflexivity|]. split; [vm_compute; reflexivity|]. vm_compute. reflexivity. Qed.
(** Finding: when something else is called root, so that the plan's relation is root2, a relation without a type is added to the plan. *)
Theorem C35_root_column_refuted a : let plan := [{| p_label := $"root2"; p_names := [a]; p_rel := read1 ($"read") ($"x") |}] in
  exists x S, print plan [] = Ok (x, []) /\ readText x = Ok (S, []) /\ outputToBinaryPlan S 9 = Ok [(Rel tt KUnset [] [] [], []); (strip (read1 ($"read") ($"x")), [a])].
Proof. cbv zeta. eexists. eexists. split; [vm_compute; reflexivity|]. split; [vm_compute; reflexivity|]. vm_compute. reflexivity. Qed.
(** Finding: when something else in the text has the name of a relation, reading the text is undefined behaviour. *)
Theorem C35_name_taken_refuted body : let plan := [{| p_label := $"root"; p_names := []; p_rel := read1 ($"read") body |}] in exists x, print plan [$"read"] = Ok (x, []) /\ readText x = UB.
Proof. cbv zeta. eexists. split; [vm_compute; reflexivity|]. vm_compute. reflexivity. Qed.
(** Finding: relations of all other kinds have no text, whatever they are made of. *)
Theorem C35_other_kinds_refuted n k b ins es : printable k = false -> printRelation (Rel n k b ins es) = ([], [EKind k]).
Proof. intros H. cbn. rewrite H. reflexivity. Qed.
(** Finding: an input of a join that is not set is dereferenced. *)
Theorem C35_missing_input_refuted : print [{| p_label := $"root"; p_names := []; p_rel := Rel ($"join") KJoin [] [Absent; read1 ($"read") []] [] |}] [] = UB.
Proof. vm_compute. reflexivity. Qed.
(** Finding: reassembling the table that the converter makes, without the text, attaches no inputs: a filter over a read becomes two roots. *)
Theorem C35_direct_refuted bf br es a : outputDirect [{| p_label := $"root"; p_names := a; p_rel := Rel ($"filter") KFilter bf [read1 ($"read") br] [EOp es []] |}] =
  [(Rel tt KRead br [] [], []); (Rel tt KFilter bf [] [EOp es []], [])].
Proof. vm_compute. reflexivity. Qed.
(** Finding: texts whose relations feed each other are accepted, and reassembling them does not end; without a root nothing comes out. *)
Definition cycle_text (roots : list (list str)) : text :=
  {| x_pipes := [[$"a"; $"b"]; [$"b"; $"a"]] ++ roots; x_rels := [{| x_name := $"a"; x_kind := KProject; x_body := []; x_exprs := [] |}; {| x_name := $"b"; x_kind := KProject; x_body := []; x_exprs := [] |}]; x_roots := []; x_others := [] |}.
Theorem C35_endless_refuted : exists S, readText (cycle_text [[$"a"; $"root"]]) = Ok (S, []) /\ forall fuel, outputToBinaryPlan S fuel = Throw EFuel.
Proof.
  eexists. split; [vm_compute; reflexivity|]. set (S := {| r_tab := _; r_rels := _; r_roots := _ |}). assert (H : forall fuel, build S fuel ($"a") = Throw EFuel /\ build S fuel ($"b") = Throw EFuel).
  { induction fuel as [|fuel [Ha Hb]]; [split; reflexivity|].
    assert (Ea : build S (Datatypes.S fuel) ($"a") = (r <- build S fuel ($"b") ;; Ok (Rel tt KProject [] [r] []))) by reflexivity.
    assert (Eb : build S (Datatypes.S fuel) ($"b") = (r <- build S fuel ($"a") ;; Ok (Rel tt KProject [] [r] []))) by reflexivity. rewrite Ea, Eb, Ha, Hb. auto. }
  intros fuel. unfold outputToBinaryPlan. assert (E : starts S = [($"root", {| cont := None; news := [$"a"]; start := None |})]) by (vm_compute; reflexivity). rewrite E. cbn [omap_list snd news]. destruct (H fuel) as [-> _]. reflexivity.
Qed.
Theorem C35_nothing_refuted : exists S, readText (cycle_text []) = Ok (S, []) /\ forall fuel, outputToBinaryPlan S fuel = Ok [].
Proof. eexists. split; [vm_compute; reflexivity|]. intros fuel. reflexivity. Qed.
(** Finding: a text that gives a relation of one input a second one, or a join a third one, is accepted; the inputs are dropped. *)
Definition one_rel (k : kind) (pipes : list (list str)) : text := {| x_pipes := pipes;
  x_rels := {| x_name := $"r"; x_kind := k; x_body := []; x_exprs := [] |} :: map (fun n => {| x_name := n; x_kind := KRead; x_body := n; x_exprs := [] |}) [$"x"; $"y"; $"z"]; x_roots := []; x_others := [] |}.
Theorem C35_dropped_refuted : (exists S, readText (one_rel KProject [[$"x"; $"r"]; [$"y"; $"r"; $"root"]]) = Ok (S, []) /\ In (Rel tt KProject [] [Rel tt KRead ($"y") [] []] [], []) (match outputToBinaryPlan S 9 with Ok l => l | _ => [] end)) /\
  (exists S, readText (one_rel KJoin [[$"x"; $"r"]; [$"y"; $"r"]; [$"z"; $"r"]; [$"r"; $"root"]]) = Ok (S, []) /\ outputToBinaryPlan S 9 = Ok [(Rel tt KJoin [] [] [], [])]).
Proof. split; (eexists; split; [vm_compute; reflexivity|vm_compute; auto]). Qed.

(** * C36: each subquery is reattached to the expression it came from *)
(** The relations of the subqueries of a tree, in the order they stand in the plan. *)
Fixpoint subqueries {A} (t : rel A) : list (rel A) := match t with Absent => [] | Rel _ _ _ ins es => flat_map subqueries ins ++ flat_map subqueries_e es end
with subqueries_e {A} (e : expr A) : list (rel A) := match e with EOp _ args => flat_map subqueries_e args | ESub _ _ ops q => flat_map subqueries_e ops ++ q :: subqueries q end.
Lemma strip_subqueries {A} (t : rel A) : subqueries (strip t) = map strip (subqueries t).
Proof.
  assert (L : forall (B C : Type) (f : B -> list (rel A)) (g : C -> list (rel unit)) (h : B -> C), (forall l, Forall (fun b => g (h b) = map strip (f b)) l -> flat_map g (map h l) = map strip (flat_map f l))).
  { intros B C f g h l F. induction F as [|b l E _ IH]; cbn; auto. rewrite E, map_app. f_equal. exact IH. }
  revert t. fix IH 1. intros [|n k b ins es]; [reflexivity|]. cbn [strip subqueries]. rewrite map_app. f_equal.
  - apply L. induction ins as [|i ins IHi]; constructor; auto.
  - apply L. assert (E : forall e : expr A, subqueries_e (strip_e e) = map strip (subqueries_e e)).
    { fix E 1. intros [c args|s c ops q]; cbn [strip_e subqueries_e].
      - apply L. induction args as [|a args IHa]; constructor; auto.
      - rewrite map_app. cbn [map]. f_equal; [|f_equal; apply IH]. apply L. induction ops as [|a ops IHa]; constructor; auto. }
    induction es as [|e es IHe]; constructor; auto.
Qed.
(** In a plan none of whose subqueries has a subquery among its operands, and none in what a read filters, every subquery gets its own relation
    back.  Missing: those subqueries, see below. *)
Theorem C36_attached_partial plan others : complete_plan plan -> names_apart plan others -> exists x S, print plan others = Ok (x, []) /\ readText x = Ok (S, []) /\
  exists out, outputToBinaryPlan S (list_max (map (fun p => size (p_rel p)) plan)) = Ok out /\ map (fun r => subqueries (fst r)) out = map (fun p => map strip (subqueries (p_rel p))) plan.
Proof.
  intros C NA. destruct (round_trip plan others C NA) as (x & S & P & R & O). exists x, S. split; auto. split; auto. eexists. split.
  - apply O. intros p Ip. pose proof (proj1 (list_max_le (map (fun p => size (p_rel p)) plan) _) (le_n _)) as F. rewrite Forall_forall in F. apply F. apply in_map_iff. eauto.
  - rewrite map_map. apply map_ext. intros p. cbn [fst]. apply strip_subqueries.
Qed.
Print Assumptions C36_attached_partial.
Example C36_case : complete_plan example_plan /\ length (subqueries example_tree) = 3.
Proof. split; [apply example_complete|reflexivity]. Qed.
(** Finding: when the left side of a comparison with a subquery is a subquery, the two relations change places. *)
Theorem C36_swapped_refuted left right : let t (l r : rel str) : rel str := Rel ($"project") KProject ($"p") [read1 ($"read") ($"x")] [ESub SComparison ($"any") [ESub SScalar ($"s") [] l] r] in
  exists x S, print [{| p_label := $"root"; p_names := []; p_rel := t (read1 ($"read2") left) (read1 ($"read3") right) |}] [] = Ok (x, []) /\ readText x = Ok (S, []) /\
  outputToBinaryPlan S 9 = Ok [(strip (t (read1 ($"read3") right) (read1 ($"read2") left)), [])].
Proof. cbv zeta. eexists. eexists. split; [vm_compute; reflexivity|]. split; [vm_compute; reflexivity|]. vm_compute. reflexivity. Qed.
(** Finding: a subquery that an IN looks for is never recorded, so printing the plan fails. *)
Theorem C36_needle_refuted needle haystack : exists x er, print [{| p_label := $"root"; p_names := []; p_rel :=
    Rel ($"filter") KFilter ($"f") [read1 ($"read") ($"x")] [ESub SIn ($"in") [ESub SScalar ($"s") [] (read1 ($"read2") needle)] (read1 ($"read3") haystack)] |}] [] = Ok (x, er) /\ er = [ENoSymbol].
Proof. eexists. eexists. split; [vm_compute; reflexivity|reflexivity]. Qed.
(** Finding: a subquery in the filter of a read is accepted and left without its relation. *)
Theorem C36_read_refuted body : exists x S, print [{| p_label := $"root"; p_names := []; p_rel := Rel ($"read") KRead ($"x") [] [ESub SPredicate ($"exists") [] (read1 ($"read2") body)] |}] [] = Ok (x, []) /\
  readText x = Ok (S, []) /\ outputToBinaryPlan S 9 = Ok [(Rel tt KRead ($"x") [] [ESub SPredicate ($"exists") [] Absent], [])].
Proof. eexists. eexists. split; [vm_compute; reflexivity|]. split; [vm_compute; reflexivity|]. vm_compute. reflexivity. Qed.

(** * C38: the printed pipelines cover every relation *)
(** In the text every relation is preceded by exactly its inputs, in order, and the plan's own relations by theirs; every relation occurs; and
    every pipeline starts at a relation that has no input or several.  Missing: relations below ones that have no text. *)
Theorem C38_pipelines_partial plan others : complete_plan plan -> names_apart plan others -> exists x, print plan others = Ok (x, []) /\
  (forall p, In p plan -> sources (p_label p) (x_pipes x) = [node_name (p_rel p)]) /\
  (forall p s, In p plan -> In s (symbols (p_rel p)) -> sources (node_name s) (x_pipes x) = map node_name (ins_of s) /\ exists l, In l (x_pipes x) /\ In (node_name s) l) /\
  (forall l, In l (x_pipes x) -> exists p s, In p plan /\ In s (symbols (p_rel p)) /\ hd_error l = Some (node_name s) /\ length (ins_of s) <> 1).
Proof.
  intros C NA. destruct (print_sources plan others C NA) as (x & P & H). exists x. split; auto. assert (E : x_pipes x = flat_map plan_pipes plan) by (rewrite print_plan in P by apply C; injection P as <-; reflexivity).
  split; [intros p Ip; apply H; auto|]. split.
  - intros p s Ip Is. split; [apply (proj2 (H p Ip)); auto|]. destruct (all_occur plan p s C Ip Is) as (l & Il & X). exists l. split; auto. rewrite E. apply in_flat_map. eauto.
  - intros l Il. rewrite E in Il. apply in_flat_map in Il as (p & Ip & Il). destruct (pipe_start plan p l C Ip Il) as (s & Is & B & Hd). exists p, s. split; auto. split; auto. split; auto.
    destruct C as [F _]. rewrite Forall_forall in F. pose proof (complete_node _ (symbol_complete _ _ (F p Ip) Is)) as N. destruct s as [|n k b ins es]; [destruct N|]. destruct N as (Pk & L & _).
    cbn [ins_of]. rewrite L. destruct k; try discriminate Pk; cbn [inputs_of]; try discriminate; cbn in B; destruct ins; discriminate.
Qed.
Print Assumptions C38_pipelines_partial.
Example C38_case : exists x, print example_plan [] = Ok (x, []) /\
  x_pipes x = [[$"read"]; [$"read2"; $"filter"; $"join"]; [$"read3"; $"join"]; [$"read4"; $"aggregate"]; [$"read5"]; [$"join"; $"project"; $"root"]].
Proof. eexists. split; vm_compute; reflexivity. Qed.
(** Relations of every kind, whether or not they have a text: how many inputs they take. *)
Definition takes (k : kind) (n : nat) : Prop :=
  match k with
  | KRead | KExtensionLeaf | KReference | KDdl => n = 0
  | KFilter | KFetch | KAggregate | KSort | KProject | KExtensionSingle | KWindow | KExchange | KExpand | KWrite => n = 1
  | KJoin | KCross | KHashJoin | KMergeJoin | KNestedLoopJoin => n = 2
  | KSet | KExtensionMulti => True
  | KUnset => False
  end.
Definition whole (t : rel str) : Prop := Forall (fun s => match s with Absent => False | Rel _ k _ ins _ => takes k (length ins) /\ Forall (fun i => absent i = false) ins end) (symbols t).
(** [a] directly before [b] *)
Definition next (a b : str) (l : list str) : Prop := exists x y, l = x ++ a :: b :: y.
Lemma next_rev a b l : next a b l -> next b a (rev l).
Proof. intros (x & y & ->). exists (rev y), (rev x). rewrite rev_app_distr. cbn. rewrite <- !app_assoc. reflexivity. Qed.
Lemma next_cons a b c l : next a b l -> next a b (c :: l).
Proof. intros (x & y & ->). exists (c :: x), y. reflexivity. Qed.
Lemma path_head t : absent t = false -> exists r, path t = node_name t :: r.
Proof. destruct t; [discriminate|]. cbn. eauto. Qed.
Lemma every_input t : whole t -> forall s, In s (symbols t) ->
  (In (node_name s) (path t) \/ exists l, In l (flat_map pipes (symbols t)) /\ In (node_name s) l) /\
  (forall i, In i (ins_of s) -> next (node_name s) (node_name i) (path t) \/ exists l, In l (flat_map pipes (symbols t)) /\ next (node_name i) (node_name s) l).
Proof.
  induction t as [|t Na IH] using tree_ind; [intros _ s []|]. intros W s I.
  assert (Self : In t (symbols t)) by (rewrite symbols_children by auto; apply in_or_app; right; left; auto).
  pose proof W as W0. unfold whole in W0. rewrite Forall_forall in W0. pose proof (W0 t Self) as Wt.
  assert (Here : forall l, In l (pipes t) -> In l (flat_map pipes (symbols t))) by (intros l Il; apply in_flat_map; eauto).
  assert (B : forall i, In i (ins_of t) -> (exists r, path t = node_name t :: path i ++ r /\ r = []) \/ In (rev (node_name t :: path i)) (pipes t)).
  { destruct t as [|n k b ins es]; [discriminate|]. destruct Wt as [T A]. cbn [ins_of]. intros i Ii.
    destruct k; cbn [takes] in T; try contradiction;
      first [ apply length_zero_iff_nil in T; subst ins; destruct Ii
            | (right; unfold pipes; apply in_or_app; left; cbn [new_pipelines shape_of]; apply (in_map (fun i => rev (node_name _ :: path i))); exact Ii)
            | (destruct ins as [|j [|]]; try discriminate T; destruct Ii as [<-|[]]; left; exists []; split; auto; cbn [path shape_of node_name]; rewrite app_nil_r; reflexivity) ]. }
  assert (C : forall q, In q (node_pushes t) -> In (rev (path q)) (pipes t)).
  { intros q Iq. unfold pipes. apply in_or_app. right. apply (in_map (fun q => rev (path q))). exact Iq. }
  rewrite symbols_children in I by auto. apply in_app_iff in I as [I|[<-|[]]].
  - apply in_flat_map in I as (c & Ic & I). rewrite Forall_forall in IH.
    assert (Wc : whole c). { unfold whole. rewrite Forall_forall. intros x X. apply W0. exact (children_symbols t c Na Ic x X). }
    destruct (IH c Ic Wc s I) as [H1 H2].
    assert (Up : forall l, In l (flat_map pipes (symbols c)) -> In l (flat_map pipes (symbols t))).
    { intros l Il. apply in_flat_map in Il as (x & X & Il). apply in_flat_map. exists x. split; auto. exact (children_symbols t c Na Ic x X). }
    apply children_in in Ic as [Ic|Ic].
    + destruct (B c Ic) as [(r & E & ->)|P]; rewrite ?app_nil_r in *.
      * rewrite E. split; [destruct H1 as [H1|(l & L & H1)]; [left; right; exact H1|right; eauto]|].
        intros i Ii. destruct (H2 i Ii) as [K|(l & L & K)]; [left; apply next_cons; exact K|right; eauto].
      * split; [destruct H1 as [H1|(l & L & H1)]; right; [eexists; split; [apply Here, P|]; apply in_rev; rewrite rev_involutive; right; exact H1|eauto]|].
        intros i Ii. destruct (H2 i Ii) as [K|(l & L & K)]; right; [eexists; split; [apply Here, P|]; apply next_rev, next_cons; exact K|eauto].
    + pose proof (C c Ic) as P. split; [destruct H1 as [H1|(l & L & H1)]; right; [eexists; split; [apply Here, P|]; apply in_rev; rewrite rev_involutive; exact H1|eauto]|].
      intros i Ii. destruct (H2 i Ii) as [K|(l & L & K)]; right; [eexists; split; [apply Here, P|]; apply next_rev; exact K|eauto].
  - destruct (path_head t Na) as (r0 & E0). split; [left; rewrite E0; left; auto|]. intros i Ii.
    assert (Ni : absent i = false). { destruct t as [|n k b ins es]; [discriminate|]. destruct Wt as [_ A]. rewrite Forall_forall in A. apply A. exact Ii. }
    destruct (path_head i Ni) as (r & Er). destruct (B i Ii) as [(r' & E & ->)|P].
    + left. rewrite E, Er. exists [], (r ++ []). reflexivity.
    + right. eexists. split; [apply Here, P|]. apply next_rev. rewrite Er. exists [], r. reflexivity.
Qed.
(** Relations of every kind with their inputs: whenever anything is printed, every relation and every relation of a subquery occurs in the
    pipelines, each of its inputs directly before it, and each relation of the plan directly before the name of its root. *)
Theorem C38_every_kind plan others x er : print plan others = Ok (x, er) -> Forall (fun p => absent (p_rel p) = false /\ whole (p_rel p)) plan ->
  forall p, In p plan ->
  (exists l, In l (x_pipes x) /\ next (node_name (p_rel p)) (p_label p) l) /\
  forall s, In s (symbols (p_rel p)) -> (exists l, In l (x_pipes x) /\ In (node_name s) l) /\
    forall i, In i (ins_of s) -> exists l, In l (x_pipes x) /\ next (node_name i) (node_name s) l.
Proof.
  intros P W p Ip. rewrite Forall_forall in W. destruct (W p Ip) as [Na Wp].
  assert (E : x_pipes x = flat_map plan_pipes plan).
  { unfold print in P. cbn zeta in P. repeat match type of P with (if ?b then _ else _) = _ => destruct b; try discriminate P end. injection P as <- _. reflexivity. }
  assert (L : forall l, In l (plan_pipes p) -> In l (x_pipes x)) by (intros l Il; rewrite E; apply in_flat_map; eauto).
  assert (Last : In (rev (p_label p :: path (p_rel p))) (x_pipes x)) by (apply L; unfold plan_pipes; apply in_or_app; right; left; auto).
  assert (Sub : forall l, In l (flat_map pipes (symbols (p_rel p))) -> In l (x_pipes x)) by (intros l Il; apply L; unfold plan_pipes; apply in_or_app; left; auto).
  split.
  - eexists. split; [exact Last|]. apply next_rev. destruct (path_head _ Na) as (r & ->). exists [], r. reflexivity.
  - intros s Is. destruct (every_input _ Wp s Is) as [H1 H2]. split.
    + destruct H1 as [H1|(l & Il & H1)]; [|eauto]. eexists. split; [exact Last|]. apply in_rev. rewrite rev_involutive. right. exact H1.
    + intros i Ii. destruct (H2 i Ii) as [K|(l & Il & K)]; [|eauto]. eexists. split; [exact Last|]. apply next_rev, next_cons. exact K.
Qed.
Print Assumptions C38_every_kind.
Definition kinds_tree : rel str := Rel ($"set") KSet [] [Rel ($"window") KWindow [] [read1 ($"read") []] []; Rel ($"hash") KHashJoin [] [read1 ($"read2") []; Rel ($"write") KWrite [] [read1 ($"read3") []] []] []; read1 ($"read4") []] [].
Example C38_kinds_case : let plan := [{| p_label := $"root"; p_names := []; p_rel := kinds_tree |}] in whole kinds_tree /\
  exists x er, print plan [] = Ok (x, er) /\ x_pipes x = [[$"read2"; $"hash"]; [$"read3"; $"write"; $"hash"]; [$"read"; $"window"; $"set"]; [$"hash"; $"set"]; [$"read4"; $"set"]; [$"set"; $"root"]].
Proof. split; [unfold whole; cbn; repeat (constructor; [cbn; repeat split; repeat constructor|]); constructor|]. eexists. eexists. split; vm_compute; reflexivity. Qed.
(** Finding: what an IN looks for does not appear in the pipelines; what a subquery's needle reads is nowhere in the text. *)
Theorem C38_needle_refuted needle haystack : exists x er, print [{| p_label := $"root"; p_names := []; p_rel :=
    Rel ($"filter") KFilter ($"f") [read1 ($"read") ($"x")] [ESub SIn ($"in") [ESub SScalar ($"s") [] (read1 ($"needle") needle)] (read1 ($"read2") haystack)] |}] [] = Ok (x, er) /\
  ~ In ($"needle") (concat (x_pipes x)) /\ ~ In ($"needle") (map x_name (x_rels x)).
Proof. eexists. eexists. split; [vm_compute; reflexivity|]. split; vm_compute; intuition discriminate. Qed.
(** Finding: what a DDL relation defines its view by gets no pipeline at all. *)
Theorem C38_below_refuted body : exists x er, print [{| p_label := $"root"; p_names := []; p_rel := Rel ($"ddl") KDdl body [read1 ($"read") ($"x")] [] |}] [] = Ok (x, er) /\
  sources ($"ddl") (x_pipes x) = [] /\ ~ In ($"read") (concat (x_pipes x)) /\ In ($"read") (map x_name (x_rels x)).
Proof. eexists. eexists. split; [vm_compute; reflexivity|]. split; [reflexivity|]. split; vm_compute; intuition discriminate. Qed.
