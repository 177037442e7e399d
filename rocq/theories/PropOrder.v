(** C99: the order of the sections of a text. *)
From Verif Require Import Base BaseFacts StringsModel LexModel ExprModel RelModel SectionModel WholeModel SoundFacts KindOrderFacts RelOrderFacts DefineOrderFacts PropSound.
From Verif Require FieldModel DeclModel PipeFacts TreeModel.
From Coq Require Import Lia Permutation.

(** Definitions (schemas, sources, extension spaces), pipelines, relations and roots may come in any order among each other: whatever the text, valid or not, the outcome, the plan and all reports are the
    same as long as the order within each of the four kinds is. *)
Theorem C99_kinds s s' a b : parse s = Some a -> parse s' = Some b ->
  filter is_definition a = filter is_definition b -> pipelines_of a = pipelines_of b -> relations_of a = relations_of b -> roots_of a = roots_of b -> from_text s = from_text s'.
Proof. intros Ha Hb E1 E2 E3 E4. exact (kinds_order s s' a b Ha Hb (conj E1 (conj E2 (conj E3 E4)))). Qed.
Print Assumptions C99_kinds.
Definition order_first : str := $"pipelines { r -> f -> root; } " ++ section_r ++ $"schema s { a i32; b i32; } root { names = [x] } filter relation f { filter add(s.a, s.b)->i32; } source named_table t { names = [""t""] } extension_space /f.yaml { function add:i32_i32 as add; }".
Definition order_second : str := $"root { names = [x] } schema s { a i32; b i32; } source named_table t { names = [""t""] } " ++ section_r ++ $"extension_space /f.yaml { function add:i32_i32 as add; } filter relation f { filter add(s.a, s.b)->i32; } pipelines { r -> f -> root; }".
Example C99_kinds_case : exists a b, parse order_first = Some a /\ parse order_second = Some b /\ a <> b /\
  filter is_definition a = filter is_definition b /\ pipelines_of a = pipelines_of b /\ relations_of a = relations_of b /\ roots_of a = roots_of b /\ length (filter is_definition a) = 3 /\ length (relations_of a) = 2 /\
  exists p, from_text order_first = Ok (Some p, []) /\ length (b_rels p) = 1 /\ length (b_decls p) = 1.
Proof.
  destruct (parse order_first) as [a|] eqn:Ea; [|vm_compute in Ea; discriminate Ea]. destruct (parse order_second) as [b|] eqn:Eb; [|vm_compute in Eb; discriminate Eb]. destruct (from_text order_first) as [[[p|] e]| |] eqn:E; [|vm_compute in E; discriminate E..].
  vm_compute in Ea, Eb, E. injection Ea as <-. injection Eb as <-. injection E as <- <-. eexists _, _. split; [reflexivity|]. split; [reflexivity|]. split; [discriminate|]. repeat (split; [reflexivity|]). eexists. split; [reflexivity|]. split; reflexivity.
Qed.

(** Relations may come in any order in which each comes after its inputs: an accepted text is accepted, without a report, in all of these orders, and makes the same plan up to the order of its roots. *)
Theorem C99_relations s s' a c b : parse s = Some a -> parse s' = Some c -> definitions a = definitions c -> pipelines_of a = pipelines_of c -> roots_of a = roots_of c -> Permutation (relations_of a) (relations_of c) ->
  inputs_first a -> inputs_first c -> known_names a -> named_expressions a -> from_text s = Ok (Some b, []) ->
  exists b', from_text s' = Ok (Some b', []) /\ b_uris b' = b_uris b /\ b_decls b' = b_decls b /\ Permutation (b_rels b) (b_rels b').
Proof. intros Ha Hc E1 E2 E4 E3. exact (relations_order s s' a c b Ha Hc (conj E1 (conj E2 (conj E3 E4)))). Qed.
Print Assumptions C99_relations.
(** With one root it is the same plan, whatever is moved. *)
Theorem C99_same s s' a c b : parse s = Some a -> parse s' = Some c -> definitions a = definitions c -> pipelines_of a = pipelines_of c -> roots_of a = roots_of c -> Permutation (relations_of a) (relations_of c) ->
  inputs_first a -> inputs_first c -> known_names a -> named_expressions a -> from_text s = Ok (Some b, []) -> length (b_rels b) = 1 -> from_text s' = from_text s.
Proof.
  intros Ha Hc E1 E2 E4 E3 I1 I2 K N H L. destruct (C99_relations s s' a c b Ha Hc E1 E2 E4 E3 I1 I2 K N H) as ([u d r'] & -> & Eu & Ed & P). rewrite H. destruct b as [u0 d0 r]. cbn [b_uris b_decls b_rels] in *. subst.
  destruct r as [|x [|y r]]; try discriminate L. apply Permutation_length_1_inv in P. rewrite P. reflexivity.
Qed.
Print Assumptions C99_same.
Definition order_sections : str := $"pipelines { r -> j; q -> p -> j; j -> root; } ".
Definition section_q : str := $"read relation q { source t; base_schema s; } project relation p { expression add(s.a, s.b)->i32 NAMED c; } ".
Definition section_j : str := $"join relation j { type inner; expression add(s.a, c)->i32; } ".
Definition order_rqpj : str := order_sections ++ section_r ++ section_q ++ section_j ++ sections_after.
Definition order_qprj : str := section_q ++ order_sections ++ section_r ++ section_j ++ sections_after.
Example C99_relations_case : exists a c b, parse order_rqpj = Some a /\ parse order_qprj = Some c /\ definitions a = definitions c /\ pipelines_of a = pipelines_of c /\ roots_of a = roots_of c /\ Permutation (relations_of a) (relations_of c) /\ relations_of a <> relations_of c /\
  inputs_first a /\ inputs_first c /\ known_names a /\ named_expressions a /\ from_text order_rqpj = Ok (Some b, []) /\ length (b_rels b) = 1 /\ length (flat_map (fun t => nodes (fst t)) (b_rels b)) = 4.
Proof.
  destruct (parse order_rqpj) as [a|] eqn:Ea; [|vm_compute in Ea; discriminate Ea]. destruct (parse order_qprj) as [c|] eqn:Ec; [|vm_compute in Ec; discriminate Ec]. destruct (from_text order_rqpj) as [[[b|] e]| |] eqn:E; [|vm_compute in E; discriminate E..].
  vm_compute in Ea, Ec, E. injection Ea as <-. injection Ec as <-. injection E as <- <-. eexists _, _, _. split; [reflexivity|]. split; [reflexivity|]. split; [reflexivity|]. split; [reflexivity|]. split; [reflexivity|]. split; [|split; [discriminate|]].
  { cbn [relations_of flat_map app]. match goal with |- Permutation [?x; ?y; ?z; ?w] _ => exact (Permutation_trans (perm_swap y x [z; w]) (perm_skip y (perm_swap z x [w]))) end. }
  split; [|split; [|split; [|split; [|split; [reflexivity|split; reflexivity]]]]].
  1-2: intros before n after x Eq Ix; vm_compute in Eq; destruct before as [|n1 before]; [injection Eq as <- <-; vm_compute in Ix |- *; tauto|]; injection Eq as <- Eq; destruct before as [|n2 before]; [injection Eq as <- <-; vm_compute in Ix |- *; tauto|]; injection Eq as <- Eq;
      (destruct before as [|n3 before]; [injection Eq as <- <-; vm_compute in Ix |- *; tauto|]); injection Eq as <- Eq; (destruct before as [|n4 before]; [injection Eq as <- <-; vm_compute in Ix |- *; tauto|]); injection Eq as <- Eq; destruct before; discriminate Eq.
  - intros x. vm_compute. intros Q. repeat destruct Q as [<-|Q]; [..|destruct Q]; auto 10. right. split; [reflexivity|discriminate].
  - intros n e In_ Kp J. vm_compute in In_. repeat destruct In_ as [<-|In_]; [..|destruct In_]; vm_compute in Kp; try discriminate Kp; vm_compute in J; repeat destruct J as [J|J]; try discriminate J; exact J.
Qed.

(** Definitions may come in any order, the extension spaces in theirs: an accepted text makes the same plan with the same reports, if no schema, column, source, table or file has the name of a function and no other definition has a name that a relation uses or that a file has. *)
Theorem C99_definitions s s' a c b e : parse s = Some a -> parse s' = Some c -> Permutation (definitions a) (definitions c) -> spaces_of a = spaces_of c -> pipelines_of a = pipelines_of c -> relations_of a = relations_of c -> roots_of a = roots_of c ->
  distinct_names a -> from_text s = Ok (Some b, e) -> from_text s' = Ok (Some b, e).
Proof. intros Ha Hc E1 E2 E3 E4 E5. exact (definitions_order s s' a c b e Ha Hc (conj E1 (conj E2 (conj E3 (conj E4 E5))))). Qed.
Print Assumptions C99_definitions.
(** All of it at once: an accepted text whose sections are moved makes the same plan up to the order of its roots. *)
Theorem C99_any s s' a c b : parse s = Some a -> parse s' = Some c -> Permutation (definitions a) (definitions c) -> spaces_of a = spaces_of c -> pipelines_of a = pipelines_of c -> Permutation (relations_of a) (relations_of c) -> roots_of a = roots_of c ->
  distinct_names a -> inputs_first a -> inputs_first c -> known_names a -> named_expressions a -> from_text s = Ok (Some b, []) ->
  exists b', from_text s' = Ok (Some b', []) /\ b_uris b' = b_uris b /\ b_decls b' = b_decls b /\ Permutation (b_rels b) (b_rels b').
Proof. exact (any_order s s' a c b). Qed.
Print Assumptions C99_any.
Definition moved_s : str := $"schema s { a i32; b i32; } ".
Definition moved_u : str := $"schema u { c i64; a i32; } ".
Definition moved_t : str := $"source named_table t { names = [""t""] } ".
Definition moved_w : str := $"source local_files w { items = [ { uri_file: ""f"" parquet: {} } ] } ".
Definition moved_add : str := $"extension_space /f.yaml { function add:i32_i32 as add; } ".
Definition moved_r : str := $"read relation r { source t; base_schema s; } ".
Definition moved_q : str := $"read relation q { source w; base_schema u; } ".
Definition moved_j : str := $"join relation j { type inner; expression add(s.a, u.a)->i32; } pipelines { r -> j; q -> j; j -> root; } root { names = [x] } ".
Definition text_moved : str := moved_s ++ moved_u ++ moved_t ++ moved_w ++ moved_add ++ moved_r ++ moved_q ++ moved_j.
Definition text_moved_back : str := moved_w ++ moved_q ++ moved_add ++ moved_r ++ moved_u ++ moved_j ++ moved_t ++ moved_s.
Example C99_definitions_case : exists a c b, parse text_moved = Some a /\ parse text_moved_back = Some c /\ Permutation (definitions a) (definitions c) /\ definitions a <> definitions c /\ spaces_of a = spaces_of c /\ pipelines_of a = pipelines_of c /\ Permutation (relations_of a) (relations_of c) /\ relations_of a <> relations_of c /\ roots_of a = roots_of c /\
  distinct_names a /\ inputs_first a /\ inputs_first c /\ known_names a /\ named_expressions a /\ from_text text_moved = Ok (Some b, []) /\ length (b_rels b) = 1 /\ length (flat_map (fun t => nodes (fst t)) (b_rels b)) = 3.
Proof.
  destruct (parse text_moved) as [a|] eqn:Ea; [|vm_compute in Ea; discriminate Ea]. destruct (parse text_moved_back) as [c|] eqn:Ec; [|vm_compute in Ec; discriminate Ec]. destruct (from_text text_moved) as [[[b|] e]| |] eqn:E; [|vm_compute in E; discriminate E..].
  vm_compute in Ea, Ec, E. injection Ea as <-. injection Ec as <-. injection E as <- <-. eexists _, _, _. split; [reflexivity|]. split; [reflexivity|].
  split. { cbn [definitions filter is_definition]. match goal with |- Permutation [?x; ?y; ?z; ?w; ?v] _ => apply (Permutation_trans (Permutation_cons_append [y; z; w; v] x)); cbn [app]; apply (Permutation_trans (Permutation_app_comm [y; z] [w; v; x])); cbn [app]; apply perm_skip, perm_skip; apply (Permutation_app_comm [x] [y; z]) end. }
  split; [discriminate|]. split; [reflexivity|]. split; [reflexivity|]. split. { cbn [relations_of flat_map app]. apply perm_swap. } split; [discriminate|]. split; [reflexivity|].
  split; [|split; [|split; [|split; [|split; [|split; [reflexivity|split; reflexivity]]]]]].
  - split; [|split].
    + intros u fs d x Hs Hx Hd Hn. vm_compute in Hs. repeat destruct Hs as [Hs|Hs]; try discriminate Hs; [|destruct Hs]. injection Hs as <- <-. vm_compute in Hx. destruct Hx as [<-|[]]. vm_compute in Hd. repeat destruct Hd as [<-|Hd]; [..|destruct Hd]; try (eexists _, _; reflexivity);
        exfalso; vm_compute in Hn; repeat destruct Hn as [Hn|Hn]; try discriminate Hn; destruct Hn.
    + intros n x Hn Hx. vm_compute in Hn. repeat destruct Hn as [<-|Hn]; [..|destruct Hn]; vm_compute in Hx; repeat destruct Hx as [<-|Hx]; try destruct Hx; apply count_one; vm_compute; repeat constructor.
    + intros d x Hd Hx. vm_compute in Hd. repeat destruct Hd as [<-|Hd]; [..|destruct Hd]; vm_compute in Hx; repeat destruct Hx as [<-|Hx]; try destruct Hx; apply count_one; vm_compute; repeat constructor.
  - intros before n after x Eq Ix; vm_compute in Eq; destruct before as [|n1 before]; [injection Eq as <- <-; vm_compute in Ix |- *; tauto|]; injection Eq as <- Eq; destruct before as [|n2 before]; [injection Eq as <- <-; vm_compute in Ix |- *; tauto|]; injection Eq as <- Eq;
      (destruct before as [|n3 before]; [injection Eq as <- <-; vm_compute in Ix |- *; tauto|]); injection Eq as <- Eq; destruct before; discriminate Eq.
  - intros before n after x Eq Ix; vm_compute in Eq; destruct before as [|n1 before]; [injection Eq as <- <-; vm_compute in Ix |- *; tauto|]; injection Eq as <- Eq; destruct before as [|n2 before]; [injection Eq as <- <-; vm_compute in Ix |- *; tauto|]; injection Eq as <- Eq;
      (destruct before as [|n3 before]; [injection Eq as <- <-; vm_compute in Ix |- *; tauto|]); injection Eq as <- Eq; destruct before; discriminate Eq.
  - intros x. vm_compute. intros J. repeat destruct J as [<-|J]; [..|destruct J]; auto 10. right. split; [reflexivity|discriminate].
  - intros n e In_ Kp J. vm_compute in In_. repeat destruct In_ as [<-|In_]; [..|destruct In_]; vm_compute in Kp; discriminate Kp.
Qed.
(** Without different names the order counts: of two schemas with one name the first is taken, and neither text is reported. *)
Definition hidden_first : str := $"schema s { a i32; } ".
Definition hidden_second : str := $"schema s { b i64; } ".
Definition hidden_rest : str := moved_t ++ moved_r ++ $"pipelines { r -> root; } root { names = [x] }".
Theorem C99_hidden_refuted : exists a c b b', parse (hidden_first ++ hidden_second ++ hidden_rest) = Some a /\ parse (hidden_second ++ hidden_first ++ hidden_rest) = Some c /\ Permutation (definitions a) (definitions c) /\ spaces_of a = spaces_of c /\ pipelines_of a = pipelines_of c /\ relations_of a = relations_of c /\ roots_of a = roots_of c /\
  from_text (hidden_first ++ hidden_second ++ hidden_rest) = Ok (Some b, []) /\ from_text (hidden_second ++ hidden_first ++ hidden_rest) = Ok (Some b', []) /\ b <> b'.
Proof.
  destruct (parse (hidden_first ++ hidden_second ++ hidden_rest)) as [a|] eqn:Ea; [|vm_compute in Ea; discriminate Ea]. destruct (parse (hidden_second ++ hidden_first ++ hidden_rest)) as [c|] eqn:Ec; [|vm_compute in Ec; discriminate Ec].
  destruct (from_text (hidden_first ++ hidden_second ++ hidden_rest)) as [[[b|] e]| |] eqn:E; [|vm_compute in E; discriminate E..]. destruct (from_text (hidden_second ++ hidden_first ++ hidden_rest)) as [[[b'|] e']| |] eqn:E'; [|vm_compute in E'; discriminate E'..].
  vm_compute in Ea, Ec, E, E'. injection Ea as <-. injection Ec as <-. injection E as <- <-. injection E' as <- <-. eexists _, _, _, _. split; [reflexivity|]. split; [reflexivity|]. split; [cbn [definitions filter is_definition]; apply perm_swap|]. repeat (split; [reflexivity|]). discriminate.
Qed.
Print Assumptions C99_hidden_refuted.

