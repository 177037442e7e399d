(** Subqueries where the first pass of the parser needs an expression. *)
From Verif Require Import Base BaseFacts StringsModel StringsFacts EnumModel TypeModel LexModel LexFacts NameModel NameFacts CutFacts FloatModel ExprModel TypeTokenFacts LiteralFacts ExprFacts FirstFacts
  RelModel RelFacts.
From Coq Require Import Lia.

Section Refused.
  Variables (function_name : N -> option str) (field_name : N -> Z -> option str) (emit_name : Z -> option str) (measure_name alternative alias : nat -> option str).
  Variables (find_function : str -> option N) (find_relation : str -> option bool) (find_field : nat -> nat -> str -> option (N * Z)) (find_emit : str -> N * Z * bool) (columns : nat) (known_source known_schema : str -> bool).
  Notation print_e := (printE function_name field_name).
  Notation within := (Inside function_name field_name find_function find_relation find_field).
  Notation print := (printRelation function_name field_name emit_name measure_name alternative alias).
  Notation read := (readRelation find_function find_relation find_field find_emit columns known_source known_schema).
  (** What becomes of a node that gives no expression *)
  Definition no_expression (i j : nat) (node : enode) : Prop := known find_function find_field i j node = Ok false \/ known find_function find_field i j node = Throw EBadAnyCast.
  Lemma refused_node i j node e' : visitExpr find_function find_relation (find_field i j) node = Ok (e', []) -> direct e' = false -> no_expression i j node.
  Proof.
    intros H D. pose proof (first_verdict find_function find_relation (find_field i j) true node e' H) as V. rewrite D in V. unfold no_expression, known. destruct V as [-> | [(l & ->) | ->]]; cbn; auto.
  Qed.
  Lemma refused_visit i j node : no_expression i j node -> visitE find_function find_relation find_field i j node = Throw EBadAnyCast.
  Proof. intros [H | H]; unfold visitE; rewrite H; reflexivity. Qed.
  Lemma refused_text i j e e' : within i j e e' -> direct e = false -> exists t ts node, print_e e = Ok (t, 0) /\ Cuts ends t ts /\ Parses ts node /\ no_expression i j node.
  Proof.
    intros H D. rewrite (readable_direct _ _ _ _ _ _ _ H) in D. destruct (readable_reads _ _ _ _ _ _ _ H 0) as [(t & ts & node & E & Hc & Hp & Hs & Hv & _)]. exists t, ts, node. split; [exact E|]. split; [exact Hc|]. split; [exact Hp|].
    exact (refused_node i j node e' Hv D).
  Qed.
  Lemma refused_line {A} (p : list token -> option (A * list token)) f b key kt i j e e' : within i j e e' -> direct e = false -> Cuts any (b ++ key ++ $" ") [(kt, key)] -> kt <> RIGHTBRACE ->
    (forall r, p ((kt, key) :: r) = p_line p_e f r) -> exists node, Line p (together [text (b ++ key ++ $" "); print_e e; text semicolon_line]) (f node) /\ no_expression i j node.
  Proof.
    intros H D Hk Hr Hp. destruct (refused_text i j e e' H D) as (t & ts & node & E & Hc & Hpa & Hv). exists node. split; [|exact Hv].
    exists ((b ++ key ++ $" ") ++ t ++ semicolon_line), ((kt, key) :: ts ++ [sc]). split; [rewrite E; apply three|]. split; [apply line_cuts; assumption|]. split; [exact Hr|].
    intros k. cbn [app]. rewrite <- app_assoc, Hp. unfold p_line. cbn [app]. rewrite (p_e_read ts node (sc :: k) Hpa); [reflexivity|reflexivity|split; reflexivity].
  Qed.
  Lemma refused_expression i e e' : within i 0 e e' -> direct e = false -> optional_name (alias i) ->
    exists node n, Line p_detail (line $"expression" (both (print_e e) (named (alias i)))) (OnExpression node n) /\ no_expression i 0 node.
  Proof.
    intros H D Hn. destruct (refused_text i 0 e e' H D) as (t & ts & node & E & Hc & Hp & Hv). exists node, (alias i). split; [|exact Hv].
    exists (($"  " ++ $"expression" ++ $" ") ++ (t ++ named_text (alias i)) ++ semicolon_line), ((EXPRESSION, $"expression") :: (ts ++ named_tokens (alias i)) ++ [sc]). rewrite E, named_printed.
    split; [apply three|]. split; [apply line_cuts; [exact key_expression|]|split; [discriminate|]].
    - eapply cuts_app; [exact Hc|apply named_cuts, Hn|apply named_ends].
    - intros k. cbn [app]. rewrite <- (app_assoc (ts ++ _)). apply named_expression; assumption.
  Qed.
  (** ** Relations with one such expression *)
  Let text_of := relation_text function_name field_name emit_name measure_name alternative alias find_function find_relation find_field find_emit columns known_source known_schema.
  Lemma filter_refused name e e' emit : Name name -> within 0 0 e e' -> direct e = false ->
    exists t o, print name (Relation (BFilter (Some e)) emit) = Ok (t, 0) /\ read t = Some (name, o) /\ (o = Ok (Some (Relation (BFilter None) []), [RNotExpression]) \/ o = Throw EBadAnyCast).
  Proof.
    intros Hn He D. set (r := Relation (BFilter (Some e)) emit).
    destruct (refused_line p_detail (OnFilter None) $"  " $"filter" FILTER 0 0 e _ He D (key_filter $"  " eq_refl) ltac:(discriminate) ltac:(reflexivity)) as (node & Hl & Hv).
    destruct (text_of name r (line $"filter" (print_e e)) [line $"filter" (print_e e)]
      [OnFilter None node] ltac:(apply read_name_iff; vm_compute; reflexivity) Hn eq_refl) as (t & ts & Ht & Hcu & Hp).
    - cbn [r r_body sources_of schemas_of map]. unfold together at 1 2. rewrite !both_nil. rewrite together_eq. symmetry. apply both_end.
    - constructor; [exact Hl|constructor].
    - exists t. eexists. split; [exact Ht|]. unfold readRelation. rewrite (cuts_tokens any t ts Hcu I). specialize (Hp []). rewrite app_nil_r in Hp. rewrite Hp. cbn [n_name]. split; [reflexivity|].
      unfold visitRelation. cbn [n_kind n_details r r_body kind_name]. change (empty_body $"filter") with (Some (BFilter None)). cbv iota. cbn [visitDetails]. unfold visitDetail. destruct Hv as [-> | ->]; [left|right]; reflexivity.
  Qed.
  Lemma project_refused name e e' rest rest' emit emit' : Name name -> alternative 0 = None -> optional_name (alias 0) -> within 0 0 e e' -> direct e = false ->
    ForallAt (ExpressionReads function_name field_name alternative alias find_function find_relation find_field) 1 rest rest' -> Forall2 (EmitReads emit_name find_emit) emit emit' ->
    exists t, print name (Relation (BProject (e :: rest)) emit) = Ok (t, 0) /\ read t = Some (name, Throw EBadAnyCast).
  Proof.
    intros Hn Ha Hal He D Hb Hem. set (r := Relation (BProject (e :: rest)) emit).
    destruct (refused_expression 0 e e' He D Hal) as (node & n & Hl & Hv).
    destruct (expressions_read function_name field_name alternative alias find_function find_relation find_field columns known_source known_schema 1 rest rest' Hb) as (os & ds & H1 & H2 & H3 & _ & H4).
    destruct (emits_read emit_name find_function find_relation find_field find_emit columns known_source known_schema emit emit' Hem) as (os3 & ds3 & C1 & C2 & C3 & C4).
    destruct (text_of name r (both (printExpressions function_name field_name alternative alias 0 (e :: rest)) (printEmit emit_name emit)) (line $"expression" (both (print_e e) (named (alias 0))) :: os ++ os3)
      (OnExpression node n :: ds ++ map OnEmit ds3) ltac:(apply read_name_iff; vm_compute; reflexivity) Hn eq_refl) as (t & ts & Ht & Hcu & Hp).
    - cbn [r r_body sources_of schemas_of map]. unfold together at 1 2. rewrite !both_nil. cbn [printExpressions]. rewrite Ha, H1, C1, together_eq, together_both, both_assoc. reflexivity.
    - constructor; [exact Hl|exact (Forall2_app H2 C2)].
    - exists t. split; [exact Ht|]. unfold readRelation. rewrite (cuts_tokens any t ts Hcu I). specialize (Hp []). rewrite app_nil_r in Hp. rewrite Hp. cbn [n_name]. f_equal. f_equal.
      unfold visitRelation. cbn [n_kind n_details r r_body kind_name]. change (empty_body $"project") with (Some (BProject [])). cbv iota. cbn [visitDetails visitDetail]. rewrite (refused_visit _ _ _ Hv). reflexivity.
  Qed.
  Lemma grouping_refused name e e' : Name name -> within 0 0 e e' -> direct e = false ->
    exists t, print name (Relation (BAggregate [[e]] []) []) = Ok (t, 0) /\ read t = Some (name, Throw EBadAnyCast).
  Proof.
    intros Hn He D. set (r := Relation (BAggregate [[e]] []) []).
    destruct (refused_line p_detail OnGrouping $"  " $"grouping" GROUPING 0 0 e _ He D key_grouping ltac:(discriminate) ltac:(reflexivity)) as (node & Hl & Hv).
    destruct (text_of name r (together [together [line $"grouping" (print_e e)]; text []; text []]) [line $"grouping" (print_e e)]
      [OnGrouping node] ltac:(apply read_name_iff; vm_compute; reflexivity) Hn eq_refl) as (t & ts & Ht & Hcu & Hp).
    - cbn [r r_body sources_of schemas_of map]. unfold together at 1 2. rewrite !both_nil. rewrite together_eq. apply both_end.
    - constructor; [exact Hl|constructor].
    - exists t. split; [exact Ht|]. unfold readRelation. rewrite (cuts_tokens any t ts Hcu I). specialize (Hp []). rewrite app_nil_r in Hp. rewrite Hp. cbn [n_name]. f_equal. f_equal.
      unfold visitRelation. cbn [n_kind n_details r r_body kind_name]. change (empty_body $"aggregate") with (Some (BAggregate [] [])). cbv iota. cbn [visitDetails visitDetail]. rewrite (refused_visit _ _ _ Hv). reflexivity.
  Qed.
  Lemma join_refused name t e e' : Name name -> t <> JUnspecified -> within 1 0 e e' -> direct e = false ->
    exists s, print name (Relation (BJoin t (Some e) None) []) = Ok (s, 0) /\ read s = Some (name, Throw EBadAnyCast).
  Proof.
    intros Hn Ht0 He D. set (r := Relation (BJoin t (Some e) None) []).
    destruct (refused_text 1 0 e e' He D) as (u & us & node & E & Hc & Hpa & Hv).
    assert (Hl : Line p_detail (line $"expression" (print_e e)) (OnExpression node None)).
    { exists (($"  " ++ $"expression" ++ $" ") ++ (u ++ named_text None) ++ semicolon_line), ((EXPRESSION, $"expression") :: (us ++ named_tokens None) ++ [sc]). rewrite E.
      split; [cbn [named_text]; rewrite app_nil_r; apply three|]. split; [apply line_cuts; [exact key_expression|cbn [named_text named_tokens]; rewrite !app_nil_r; exact Hc]|split; [discriminate|]].
      intros k. cbn [app]. rewrite <- (app_assoc (us ++ _)). apply named_expression; [exact Hpa|exact I]. }
    assert (L : Line p_detail (line $"type" (text (join_name t))) (OnType (join_name t))) by exact (name_line p_detail OnType $"  " $"type" TYPE _ (join_Name t) key_type ltac:(discriminate) (fun r => eq_refl)).
    destruct (text_of name r (together [line $"type" (text (join_name t)); line $"expression" (print_e e); text []]) [line $"type" (text (join_name t)); line $"expression" (print_e e)]
      [OnType (join_name t); OnExpression node None] ltac:(apply read_name_iff; vm_compute; reflexivity) Hn eq_refl) as (s & ts & Hs & Hcu & Hp).
    - cbn [r r_body sources_of schemas_of map]. unfold together at 1 2. rewrite !both_nil. rewrite !together_eq. reflexivity.
    - constructor; [exact L|constructor; [exact Hl|constructor]].
    - exists s. split; [exact Hs|]. unfold readRelation. rewrite (cuts_tokens any s ts Hcu I). specialize (Hp []). rewrite app_nil_r in Hp. rewrite Hp. cbn [n_name]. f_equal. f_equal.
      unfold visitRelation. cbn [n_kind n_details r r_body kind_name]. change (empty_body $"join") with (Some (BJoin JUnspecified None None)). cbv iota. cbn [visitDetails visitDetail].
      assert (J : said RJoinType (visitRelationJoinType (join_name t)) = fine t) by (destruct t; try (destruct (Ht0 eq_refl)); vm_compute; reflexivity). rewrite J, !bindR_fine. rewrite (refused_visit _ _ _ Hv). reflexivity.
  Qed.
End Refused.
