(** C99 for texts with subqueries: the order of their sections. *)
From Verif Require Import Base BaseFacts StringsModel LexModel ExprModel RelModel SectionModel WholeModel KindOrderFacts RelOrderFacts DefineOrderFacts TrapPlanFacts SubPlanFacts SubOrderFacts SubDefineFacts SubRelOrderFacts PropSub.
From Verif Require SubModel FieldModel DeclModel TreeModel.
From Coq Require Import Lia Permutation.

(** Definitions, pipelines, relations and roots may come in any order among each other: whatever the text, with or without subqueries, valid or not, the outcome, the plan and all reports are the same as long as
    the order within each of the four kinds is. *)
Theorem C99_subqueries s s' a b : parse s = Some a -> parse s' = Some b ->
  filter is_definition a = filter is_definition b -> pipelines_of a = pipelines_of b -> relations_of a = relations_of b -> roots_of a = roots_of b -> SubModel.from_text s = SubModel.from_text s'.
Proof. intros Ha Hb E1 E2 E3 E4. exact (subqueries_kinds s s' a b Ha Hb (conj E1 (conj E2 (conj E3 E4)))). Qed.
Print Assumptions C99_subqueries.
(** Definitions may come in any order, the extension spaces in theirs: an accepted text makes the same plan with the same reports, if no schema, column, source, table or file has the name of a function and no other
    definition has a name that a relation uses or that a file has.  Names of columns may be defined in several schemas, also where a subquery looks for them outwards. *)
Theorem C99_subquery_definitions s s' a c b e : parse s = Some a -> parse s' = Some c -> Permutation (definitions a) (definitions c) -> spaces_of a = spaces_of c -> pipelines_of a = pipelines_of c -> relations_of a = relations_of c -> roots_of a = roots_of c ->
  distinct_names a -> SubModel.from_text s = Ok (Some b, e) -> SubModel.from_text s' = Ok (Some b, e).
Proof. intros Ha Hc E1 E2 E3 E4 E5. exact (subqueries_definitions s s' a c b e Ha Hc (conj E1 (conj E2 (conj E3 (conj E4 E5))))). Qed.
Print Assumptions C99_subquery_definitions.

(** [text_outer] with the order changed between kinds, and with its definitions in another order *)
Definition order_defs : str := $"source named_table t { names = [""t""] } schema s { a i32; b i32; } schema s2 { c i32; d i32; } extension_space /f.yaml { function and:bool as and; function equal:any as equal; } ".
Definition order_defs_moved : str := $"schema s2 { c i32; d i32; } extension_space /f.yaml { function and:bool as and; function equal:any as equal; } schema s { a i32; b i32; } source named_table t { names = [""t""] } ".
Definition order_rels : str := $"filter relation g { filter equal(c, b); } filter relation f { filter and(EXISTS IN SUBQUERY g); } ".
Definition outer_mixed : str := $"root { names = [x] } " ++ order_defs ++ reads ++ order_rels ++ $"pipelines { r -> f -> root; q -> g; }".
Definition outer_moved : str := reads ++ order_defs_moved ++ order_rels ++ $"root { names = [x] } pipelines { r -> f -> root; q -> g; }".
Example C99_subqueries_case : exists a b, parse text_outer = Some a /\ parse outer_mixed = Some b /\ a <> b /\
  filter is_definition a = filter is_definition b /\ pipelines_of a = pipelines_of b /\ relations_of a = relations_of b /\ roots_of a = roots_of b /\
  exists p, SubModel.from_text text_outer = Ok (Some p, []) /\ length (SubModel.q_rels p) = 2.
Proof.
  destruct (parse text_outer) as [a|] eqn:Ea; [|vm_compute in Ea; discriminate Ea]. destruct (parse outer_mixed) as [b|] eqn:Eb; [|vm_compute in Eb; discriminate Eb]. destruct (SubModel.from_text text_outer) as [[[p|] e]| |] eqn:E; [|vm_compute in E; discriminate E..].
  vm_compute in Ea, Eb, E. injection Ea as <-. injection Eb as <-. injection E as <- <-. eexists _, _. split; [reflexivity|]. split; [reflexivity|]. split; [discriminate|]. repeat (split; [reflexivity|]). eexists. split; reflexivity.
Qed.
Example C99_subquery_definitions_case : exists a c b, parse text_outer = Some a /\ parse outer_moved = Some c /\ Permutation (definitions a) (definitions c) /\ definitions a <> definitions c /\ spaces_of a = spaces_of c /\
  pipelines_of a = pipelines_of c /\ relations_of a = relations_of c /\ roots_of a = roots_of c /\ distinct_names a /\ SubModel.from_text text_outer = Ok (Some b, []) /\ length (SubModel.q_rels b) = 2.
Proof.
  destruct (parse text_outer) as [a|] eqn:Ea; [|vm_compute in Ea; discriminate Ea]. destruct (parse outer_moved) as [c|] eqn:Ec; [|vm_compute in Ec; discriminate Ec]. destruct (SubModel.from_text text_outer) as [[[b|] e]| |] eqn:E; [|vm_compute in E; discriminate E..].
  vm_compute in Ea, Ec, E. injection Ea as <-. injection Ec as <-. injection E as <- <-. eexists _, _, _. split; [reflexivity|]. split; [reflexivity|].
  split. { cbn [definitions filter is_definition]. match goal with |- Permutation [?x; ?y; ?z; ?w] _ => apply (Permutation_trans (Permutation_app_comm [x; y] [z; w])); cbn [app]; apply perm_skip, perm_skip, perm_swap end. }
  split; [discriminate|]. repeat (split; [reflexivity|]). split; [|split; reflexivity]. split; [|split].
  - intros u fs d x Hs Hx Hd Hn. vm_compute in Hs. repeat destruct Hs as [Hs|Hs]; try discriminate Hs; [|destruct Hs]. injection Hs as <- <-. vm_compute in Hd.
    repeat (destruct Hd as [<-|Hd]; [try (eexists _, _; reflexivity); exfalso; vm_compute in Hx, Hn; repeat destruct Hx as [<-|Hx]; try destruct Hx; repeat destruct Hn as [Hn|Hn]; try discriminate Hn; destruct Hn|]). destruct Hd.
  - intros n x Hn Hx. vm_compute in Hn. repeat destruct Hn as [<-|Hn]; [..|destruct Hn]; vm_compute in Hx; repeat destruct Hx as [<-|Hx]; try destruct Hx; apply count_one; vm_compute; repeat constructor.
  - intros d x Hd Hx. vm_compute in Hd. repeat destruct Hd as [<-|Hd]; [..|destruct Hd]; vm_compute in Hx; repeat destruct Hx as [<-|Hx]; try destruct Hx; apply count_one; vm_compute; repeat constructor.
Qed.

(** Relations may not: of two relations that do not feed each other, one in a subquery of the other within another subquery, the order counts even if both come after their inputs.  Which columns a subquery has is only known after the second pass
    has come to it: a relation that comes before it finds the columns of the first pass, and another one after it.  Nothing is reported. *)
Definition nest_start : str := $"pipelines { r -> f -> root; q -> g; p -> h; } read relation r { source t; base_schema s; } read relation q { source t; base_schema s2; } read relation p { source t; base_schema s; } ".
Definition nest_f : str := $"filter relation f { filter and(EXISTS IN SUBQUERY g); } ".
Definition nest_g : str := $"project relation g { expression c NAMED z; expression and(EXISTS IN SUBQUERY h) NAMED y; } ".
Definition nest_h : str := $"filter relation h { filter equal(a, c); } ".
Definition text_nested : str := nest_start ++ nest_f ++ nest_g ++ nest_h ++ sections_after.
Definition nested_swapped : str := nest_start ++ nest_f ++ nest_h ++ nest_g ++ sections_after.
Theorem C99_subquery_relations_refuted : exists a c b b', parse text_nested = Some a /\ parse nested_swapped = Some c /\ definitions a = definitions c /\ pipelines_of a = pipelines_of c /\ roots_of a = roots_of c /\ Permutation (relations_of a) (relations_of c) /\
  inputs_first a /\ inputs_first c /\ known_names a /\ named_expressions a /\ SubModel.from_text text_nested = Ok (Some b, []) /\ SubModel.from_text nested_swapped = Ok (Some b', []) /\ ~ Permutation (SubModel.q_rels b) (SubModel.q_rels b').
Proof.
  destruct (parse text_nested) as [a|] eqn:Ea; [|vm_compute in Ea; discriminate Ea]. destruct (parse nested_swapped) as [c|] eqn:Ec; [|vm_compute in Ec; discriminate Ec].
  destruct (SubModel.from_text text_nested) as [[[b|] e]| |] eqn:E; [|vm_compute in E; discriminate E..]. destruct (SubModel.from_text nested_swapped) as [[[b'|] e']| |] eqn:E'; [|vm_compute in E'; discriminate E'..].
  vm_compute in Ea, Ec, E, E'. injection Ea as <-. injection Ec as <-. injection E as <- <-. injection E' as <- <-. eexists _, _, _, _. split; [reflexivity|]. split; [reflexivity|]. repeat (split; [reflexivity|]).
  split. { cbn [relations_of flat_map app]. do 4 apply perm_skip. apply perm_swap. }
  split; [|split; [|split; [|split; [|split; [reflexivity|split; [reflexivity|]]]]]].
  - intros before n after x Eq Ix; vm_compute in Eq. do 6 (destruct before as [|? before]; [injection Eq as <- <-; vm_compute in Ix |- *; tauto|]; injection Eq as <- Eq). destruct before; discriminate Eq.
  - intros before n after x Eq Ix; vm_compute in Eq. do 6 (destruct before as [|? before]; [injection Eq as <- <-; vm_compute in Ix |- *; tauto|]; injection Eq as <- Eq). destruct before; discriminate Eq.
  - intros x. vm_compute. intros J. repeat destruct J as [<-|J]; [..|destruct J]; auto 10. right. split; [reflexivity|discriminate].
  - intros n e In_ Kp J. vm_compute in In_. repeat destruct In_ as [<-|In_]; [..|destruct In_]; vm_compute in Kp; try discriminate Kp; vm_compute in J; repeat destruct J as [J|J]; try discriminate J; exact J.
  - intros P. apply Permutation_length_1 in P. discriminate P.
Qed.
Print Assumptions C99_subquery_relations_refuted.

(** They may, if each relation comes after its inputs and after the relations it is inside of, in both texts, and no two relations have the same subquery: the plan has the same extensions and the same trees, with their subqueries, perhaps in another order. *)
Theorem C99_subquery_relations s s' a c b : parse s = Some a -> parse s' = Some c -> definitions a = definitions c -> pipelines_of a = pipelines_of c -> roots_of a = roots_of c -> Permutation (relations_of a) (relations_of c) ->
  inputs_first a -> inputs_first c -> outer_first a -> outer_first c -> one_place a -> known_names a -> named_expressions a -> SubModel.from_text s = Ok (Some b, []) ->
  exists b', SubModel.from_text s' = Ok (Some b', []) /\ SubModel.q_uris b' = SubModel.q_uris b /\ SubModel.q_decls b' = SubModel.q_decls b /\ Permutation (SubModel.q_rels b) (SubModel.q_rels b').
Proof. intros Ha Hc E1 E2 E3 E4. exact (subquery_relations s s' a c b Ha Hc (conj E1 (conj E2 (conj E4 E3)))). Qed.
Print Assumptions C99_subquery_relations.
(** Two subqueries of one filter, each with a column of the relation around it; the second text has them the other way round. *)
Definition two_start : str := $"pipelines { r -> f -> root; q -> g; p -> h; } read relation r { source t; base_schema s; } filter relation f { filter and(EXISTS IN SUBQUERY g, EXISTS IN SUBQUERY h); } ".
Definition two_g : str := $"read relation q { source t; base_schema s2; } filter relation g { filter equal(c, b); } ".
Definition two_h : str := $"read relation p { source t; base_schema s2; } filter relation h { filter equal(a, d); } ".
Definition text_two : str := two_start ++ two_g ++ two_h ++ sections_after.
Definition two_swapped : str := two_start ++ two_h ++ two_g ++ sections_after.
Lemma reaches_closed (R : str -> str -> Prop) (C : str -> Prop) x y : (forall u v, C u -> R u v -> C v) -> C x -> reaches R x y -> C y.
Proof. intros H Cx Q. induction Q as [x y Q|x y z Q _ IH]; [exact (H x y Cx Q)|]. apply IH. exact (H x y Cx Q). Qed.
(** All of it at once *)
Theorem C99_subquery_any s s' a c b : parse s = Some a -> parse s' = Some c -> Permutation (definitions a) (definitions c) -> spaces_of a = spaces_of c -> pipelines_of a = pipelines_of c -> Permutation (relations_of a) (relations_of c) -> roots_of a = roots_of c ->
  distinct_names a -> inputs_first a -> inputs_first c -> outer_first a -> outer_first c -> one_place a -> known_names a -> named_expressions a -> SubModel.from_text s = Ok (Some b, []) ->
  exists b', SubModel.from_text s' = Ok (Some b', []) /\ SubModel.q_uris b' = SubModel.q_uris b /\ SubModel.q_decls b' = SubModel.q_decls b /\ Permutation (SubModel.q_rels b) (SubModel.q_rels b').
Proof. exact (subquery_any s s' a c b). Qed.
Print Assumptions C99_subquery_any.
Example C99_subquery_relations_case : exists a c b, parse text_two = Some a /\ parse two_swapped = Some c /\ definitions a = definitions c /\ pipelines_of a = pipelines_of c /\ roots_of a = roots_of c /\ Permutation (relations_of a) (relations_of c) /\
  relations_of a <> relations_of c /\ inputs_first a /\ inputs_first c /\ outer_first a /\ outer_first c /\ one_place a /\ known_names a /\ named_expressions a /\ SubModel.from_text text_two = Ok (Some b, []) /\ length (SubModel.q_rels b) = 1.
Proof.
  destruct (parse text_two) as [a|] eqn:Ea; [|vm_compute in Ea; discriminate Ea]. destruct (parse two_swapped) as [c|] eqn:Ec; [|vm_compute in Ec; discriminate Ec].
  destruct (SubModel.from_text text_two) as [[[b|] e]| |] eqn:E; [|vm_compute in E; discriminate E..].
  vm_compute in Ea, Ec, E. injection Ea as <-. injection Ec as <-. injection E as <- <-. eexists _, _, _. split; [reflexivity|]. split; [reflexivity|]. repeat (split; [reflexivity|]).
  split. { cbn [relations_of flat_map app]. do 2 apply perm_skip. match goal with |- Permutation [?x; ?y; ?z; ?w] _ => exact (Permutation_app_comm [x; y] [z; w]) end. }
  split; [discriminate|]. split; [|split; [|split; [|split; [|split; [|split; [|split; [|split; reflexivity]]]]]]].
  1, 2: intros before n after x Eq Ix; vm_compute in Eq; do 6 (destruct before as [|? before]; [injection Eq as <- <-; vm_compute in Ix |- *; tauto|]; injection Eq as <- Eq); destruct before; discriminate Eq.
  1, 2: intros before n after p Eq (r & q & Ir & <- & Iq & Q);
    (assert (K : n_name r = $"f" /\ In q [$"g"; $"h"]) by (vm_compute in Ir; repeat destruct Ir as [<-|Ir]; try (destruct Ir; fail); vm_compute in Iq |- *; tauto)); clear Ir Iq; destruct K as [-> Iq];
    (assert (N : ~ In (n_name n) [$"r"; $"f"; $"root"]));
    [ intros I; (assert (J : In q [$"r"; $"f"; $"root"]));
      [ destruct Q as [<-|Q]; [exact I|]; refine (reaches_closed _ (fun x => In x [$"r"; $"f"; $"root"]) _ _ _ I Q); intros u v Iu (w & Iw & A); vm_compute in Iw; repeat destruct Iw as [<-|Iw]; try (destruct Iw; fail); vm_compute in A;
        repeat match type of A with _ \/ _ => destruct A as [A|A] end; try (destruct A; fail); destruct A as [<- <-]; vm_compute in Iu |- *; repeat destruct Iu as [Iu|Iu]; try discriminate Iu; tauto
      | vm_compute in J, Iq; repeat destruct Iq as [<-|Iq]; try (destruct Iq; fail); repeat destruct J as [J|J]; try discriminate J; destruct J ]
    | vm_compute in Eq; destruct before as [|b0 [|b1 before]]; [injection Eq as <- _; exfalso; apply N; vm_compute; tauto|injection Eq as <- <- _; exfalso; apply N; vm_compute; tauto|injection Eq as <- <- _; vm_compute; tauto] ].
  - intros r r' q Ir Ir' Iq Iq'. vm_compute in Ir, Ir'. repeat destruct Ir as [<-|Ir]; try (destruct Ir; fail); vm_compute in Iq; try tauto; repeat destruct Ir' as [<-|Ir']; try (destruct Ir'; fail); vm_compute in Iq'; try tauto; reflexivity.
  - intros x. vm_compute. intros J. repeat destruct J as [<-|J]; [..|destruct J]; auto 10. right. split; [reflexivity|discriminate].
  - intros n e In_ Kp J. vm_compute in In_. repeat destruct In_ as [<-|In_]; [..|destruct In_]; vm_compute in Kp; discriminate Kp.
Qed.
Definition two_moved : str := two_start ++ order_defs_moved ++ two_h ++ $"root { names = [x] } " ++ two_g.
Example C99_subquery_any_case : exists a c b, parse text_two = Some a /\ parse two_moved = Some c /\ Permutation (definitions a) (definitions c) /\ definitions a <> definitions c /\ spaces_of a = spaces_of c /\ pipelines_of a = pipelines_of c /\ roots_of a = roots_of c /\ Permutation (relations_of a) (relations_of c) /\
  relations_of a <> relations_of c /\ distinct_names a /\ inputs_first a /\ inputs_first c /\ outer_first a /\ outer_first c /\ one_place a /\ known_names a /\ named_expressions a /\ SubModel.from_text text_two = Ok (Some b, []) /\ length (SubModel.q_rels b) = 1.
Proof.
  destruct (parse text_two) as [a|] eqn:Ea; [|vm_compute in Ea; discriminate Ea]. destruct (parse two_moved) as [c|] eqn:Ec; [|vm_compute in Ec; discriminate Ec].
  destruct (SubModel.from_text text_two) as [[[b|] e]| |] eqn:E; [|vm_compute in E; discriminate E..].
  vm_compute in Ea, Ec, E. injection Ea as <-. injection Ec as <-. injection E as <- <-. eexists _, _, _. split; [reflexivity|]. split; [reflexivity|].
  split. { cbn [definitions filter is_definition]. match goal with |- Permutation [?x; ?y; ?z; ?w] _ => apply (Permutation_trans (Permutation_app_comm [x; y] [z; w])); cbn [app]; apply perm_skip, perm_skip, perm_swap end. }
  split; [discriminate|]. repeat (split; [reflexivity|]).
  split. { cbn [relations_of flat_map app]. do 2 apply perm_skip. match goal with |- Permutation [?x; ?y; ?z; ?w] _ => exact (Permutation_app_comm [x; y] [z; w]) end. }
  split; [discriminate|]. split.
  { split; [|split].
  - intros u fs d x Hs Hx Hd Hn. vm_compute in Hs. repeat destruct Hs as [Hs|Hs]; try discriminate Hs; [|destruct Hs]. injection Hs as <- <-. vm_compute in Hd.
    repeat (destruct Hd as [<-|Hd]; [try (eexists _, _; reflexivity); exfalso; vm_compute in Hx, Hn; repeat destruct Hx as [<-|Hx]; try destruct Hx; repeat destruct Hn as [Hn|Hn]; try discriminate Hn; destruct Hn|]). destruct Hd.
  - intros n x Hn Hx. vm_compute in Hn. repeat destruct Hn as [<-|Hn]; [..|destruct Hn]; vm_compute in Hx; repeat destruct Hx as [<-|Hx]; try destruct Hx; apply count_one; vm_compute; repeat constructor.
  - intros d x Hd Hx. vm_compute in Hd. repeat destruct Hd as [<-|Hd]; [..|destruct Hd]; vm_compute in Hx; repeat destruct Hx as [<-|Hx]; try destruct Hx; apply count_one; vm_compute; repeat constructor. }
  split; [|split; [|split; [|split; [|split; [|split; [|split; [|split; reflexivity]]]]]]].
  1, 2: intros before n after x Eq Ix; vm_compute in Eq; do 6 (destruct before as [|? before]; [injection Eq as <- <-; vm_compute in Ix |- *; tauto|]; injection Eq as <- Eq); destruct before; discriminate Eq.
  1, 2: intros before n after p Eq (r & q & Ir & <- & Iq & Q);
    (assert (K : n_name r = $"f" /\ In q [$"g"; $"h"]) by (vm_compute in Ir; repeat destruct Ir as [<-|Ir]; try (destruct Ir; fail); vm_compute in Iq |- *; tauto)); clear Ir Iq; destruct K as [-> Iq];
    (assert (N : ~ In (n_name n) [$"r"; $"f"; $"root"]));
    [ intros I; (assert (J : In q [$"r"; $"f"; $"root"]));
      [ destruct Q as [<-|Q]; [exact I|]; refine (reaches_closed _ (fun x => In x [$"r"; $"f"; $"root"]) _ _ _ I Q); intros u v Iu (w & Iw & A); vm_compute in Iw; repeat destruct Iw as [<-|Iw]; try (destruct Iw; fail); vm_compute in A;
        repeat match type of A with _ \/ _ => destruct A as [A|A] end; try (destruct A; fail); destruct A as [<- <-]; vm_compute in Iu |- *; repeat destruct Iu as [Iu|Iu]; try discriminate Iu; tauto
      | vm_compute in J, Iq; repeat destruct Iq as [<-|Iq]; try (destruct Iq; fail); repeat destruct J as [J|J]; try discriminate J; destruct J ]
    | vm_compute in Eq; destruct before as [|b0 [|b1 before]]; [injection Eq as <- _; exfalso; apply N; vm_compute; tauto|injection Eq as <- <- _; exfalso; apply N; vm_compute; tauto|injection Eq as <- <- _; vm_compute; tauto] ].
  - intros r r' q Ir Ir' Iq Iq'. vm_compute in Ir, Ir'. repeat destruct Ir as [<-|Ir]; try (destruct Ir; fail); vm_compute in Iq; try tauto; repeat destruct Ir' as [<-|Ir']; try (destruct Ir'; fail); vm_compute in Iq'; try tauto; reflexivity.
  - intros x. vm_compute. intros J. repeat destruct J as [<-|J]; [..|destruct J]; auto 10. right. split; [reflexivity|discriminate].
  - intros n e In_ Kp J. vm_compute in In_. repeat destruct In_ as [<-|In_]; [..|destruct In_]; vm_compute in Kp; discriminate Kp.
Qed.
