(** Relations: printed, cut into tokens, parsed and evaluated. *)
From Verif Require Import Base BaseFacts StringsModel StringsFacts EnumModel EnumFacts DecimalModel DecimalFacts TypeModel TypeFacts TypeCaseFacts TypeTextFacts TypeProtoFacts LexModel LexFacts NameModel NameFacts CutFacts FloatModel
  CalendarModel ExprModel TypeTokenFacts LiteralFacts ExprFacts FirstFacts RelModel.
From Coq Require Import Lia ZifyBool ZifyNat ZifyN.

(** * Specification *)
(** The name of a column that is emitted *)
Inductive EmitColumn : str -> Prop :=
| Emit_plain n : Name n -> EmitColumn n
| Emit_schema n m : Name n -> Name m -> EmitColumn (n ++ $"." ++ m).
(** What an expression becomes when it is grouped by: the column of the input with the same number *)
Inductive Grouped (columns : nat) : expr -> expr -> Prop :=
| GR_column f c r : (0 <= f < Z.of_nat columns)%Z -> Grouped columns (ESel (SegField f c) r) (ESel (SegField f c) RootRef)
| GR_literal l : Grouped columns (ELit l) (ELit l)
| GR_function f a d o t : Grouped columns (EFun f a d o t) (EFun f a d o t)
| GR_if i e : Grouped columns (EIfThen i e) (EIfThen i e)
| GR_cast e t f : Grouped columns (ECast e t f) (ECast e t f).
(** Lists item by item, with the position of the item *)
Section At.
  Context {A B : Type}.
  Variable R : nat -> A -> B -> Prop.
  Inductive ForallAt : nat -> list A -> list B -> Prop :=
  | FA_nil i : ForallAt i [] []
  | FA_cons i a b l l' : R i a b -> ForallAt (S i) l l' -> ForallAt i (a :: l) (b :: l').
End At.
Definition optional_name (n : option str) : Prop := match n with Some n => Name n | None => True end.
Definition read_direction (d : direction) : sort_kind := match d with DUnspecified => SortUnset | _ => SortDirection d end.

Section Spec.
  Variables (function_name : N -> option str) (field_name : N -> Z -> option str) (emit_name : Z -> option str) (measure_name alternative alias : nat -> option str).
  Variables (find_function : str -> option N) (find_relation : str -> option bool) (find_field : nat -> nat -> str -> option (N * Z)) (find_emit : str -> N * Z * bool) (columns : nat) (known_source known_schema : str -> bool).
  (** An expression that survives at a position: as an argument, or by itself *)
  Definition Inside (i j : nat) (e e' : expr) : Prop := Readable function_name field_name find_function find_relation (find_field i j) e e'.
  Definition At (i j : nat) (e e' : expr) : Prop := Inside i j e e' /\ direct e = true.
  Inductive OptionAt (i j : nat) : option expr -> option expr -> Prop :=
  | OA_none : OptionAt i j None None
  | OA_some e e' : At i j e e' -> OptionAt i j (Some e) (Some e').
  Inductive EmitReads : Z -> Z -> Prop :=
  | ER n z z' : emit_name z = Some n -> EmitColumn n -> find_emit n = (0%N, z', false) -> EmitReads z z'.
  (** A measure: of the function everything but options and sorts, deprecated arguments become arguments.  The filter is the second detail. *)
  Inductive MeasureReads (i : nat) : measure -> measure -> nat -> Prop :=
  | MR f f' n args args' deprecated deprecated' ty ty' ph v sorts filter filter' k :
      function_name f = Some n -> Name n -> to_lower n <> $"ifthen" -> find_function n = Some f' ->
      Forall2 (ArgReads field_name (Inside i 0)) args args' -> Forall2 (DeprecatedReads field_name (Inside i 0)) deprecated deprecated' -> Printable ty ty' -> optional_name (measure_name k) ->
      OptionAt i 1 filter filter' ->
      MeasureReads i (Measure (Some (AF f args deprecated [] ty ph v sorts)) filter) (Measure (Some (AF f' (args' ++ deprecated') [] [] ty' ph v [])) filter') k.
  Inductive SortReads (i : nat) : sort -> sort -> Prop :=
  | SR e e' d : At i 0 e e' -> SortReads i (e, SortDirection d) (e', read_direction d).
  Inductive ExpressionReads (i : nat) : expr -> expr -> Prop :=
  | XR_plain e e' : alternative i = None -> optional_name (alias i) -> At i 0 e e' -> ExpressionReads i e e'
  | XR_alternative e t steps f : alternative i = Some t -> Column t -> find_field i 0 t = Some (steps, f) ->
      ExpressionReads i e (ESel (SegField f None) (if (0 <? steps)%N then RootOuter steps else RootRef)).
  Inductive GroupReads (i : nat) : expr -> expr -> Prop :=
  | GD e x y : At i 0 e x -> Grouped columns x y -> GroupReads i e y.
  (** The relations that are printed as a text that can be read, and what they are read as. *)
  Inductive RelReads : relation -> relation -> Prop :=
  | RR_read sources schemas filter filter' emit :
      sources <> [] -> Forall (fun n => Name n /\ known_source n = true) sources -> Forall (fun n => Name n /\ known_schema n = true) schemas ->
      OptionAt (length sources + length schemas) 0 filter filter' ->
      RelReads (Relation (BRead sources schemas filter None false) emit) (Relation (BRead sources schemas filter' None false) [])
  | RR_filter c c' emit : OptionAt 0 0 c c' -> RelReads (Relation (BFilter c) emit) (Relation (BFilter c') [])
  | RR_fetch count emit : int64 count -> RelReads (Relation (BFetch 0 count) emit) (Relation (BFetch 0 count) [])
  | RR_aggregate groupings groups measures measures' emit emit' :
      ForallAt GroupReads 0 (concat groupings) groups ->
      ForallAt (fun i m m' => MeasureReads i m m' (i - length groups)) (length groups) measures measures' ->
      Forall2 EmitReads emit emit' ->
      RelReads (Relation (BAggregate groupings measures) emit) (Relation (BAggregate [groups] measures') emit')
  | RR_sort l l' emit : ForallAt SortReads 0 l l' -> RelReads (Relation (BSort l) emit) (Relation (BSort l') [])
  | RR_project l l' emit emit' : ForallAt ExpressionReads 0 l l' -> Forall2 EmitReads emit emit' -> RelReads (Relation (BProject l) emit) (Relation (BProject l') emit')
  | RR_join t e e' emit : t <> JUnspecified -> OptionAt 1 0 e e' -> RelReads (Relation (BJoin t e None) emit) (Relation (BJoin t e' None) [])
  | RR_cross emit : RelReads (Relation BCross emit) (Relation BCross []).

End Spec.

(** * Lines *)
Definition head_ok (ts : list token) : Prop := match ts with [] => False | (k, _) :: _ => k <> RIGHTBRACE end.
(** A printed text that is one item of a list in braces *)
Definition Line {A} (p : list token -> option (A * list token)) (o : outcome printed) (a : A) : Prop :=
  exists t ts, o = Ok (t, 0) /\ Cuts any t ts /\ head_ok ts /\ forall k, p (ts ++ k) = Some (a, k).
Definition rb : token := (RIGHTBRACE, $"}").
Lemma together_cons o os t ts : o = Ok (t, 0) -> together os = Ok (ts, 0) -> together (o :: os) = Ok (t ++ ts, 0).
Proof. intros -> H. change (together (Ok (t, 0) :: os)) with (both (Ok (t, 0)) (together os)). rewrite H. reflexivity. Qed.
Lemma both_assoc a b c : both a (both b c) = both (both a b) c.
Proof. destruct a as [[x n]|x|]; try reflexivity. destruct b as [[y m]|y|]; try reflexivity. destruct c as [[z l]|z|]; try reflexivity. unfold both. cbn [obind fst snd]. rewrite app_assoc, Nat.add_assoc. reflexivity. Qed.
Lemma both_nil a : both (Ok ([], 0)) a = a.
Proof. destruct a as [[x n]|x|]; reflexivity. Qed.
Lemma both_end a : both a (Ok ([], 0)) = a.
Proof. destruct a as [[x n]|x|]; try reflexivity. unfold both. cbn [obind fst snd]. rewrite app_nil_r, Nat.add_0_r. reflexivity. Qed.
Lemma together_eq o os : together (o :: os) = both o (together os).
Proof. reflexivity. Qed.
Lemma together_both a b : together (a ++ b) = both (together a) (together b).
Proof. induction a as [|o a IH]; [symmetry; apply both_nil|]. cbn [app]. rewrite !together_eq, IH. apply both_assoc. Qed.
Lemma together_app a b x y : together a = Ok (x, 0) -> together b = Ok (y, 0) -> together (a ++ b) = Ok (x ++ y, 0).
Proof.
  revert x. induction a as [|o a IH]; intros x Ha Hb.
  - unfold together in Ha. cbn in Ha. injection Ha as <-. exact Hb.
  - change (together (o :: a)) with (both o (together a)) in Ha. unfold both in Ha. destruct o as [[t e]|z|]; try discriminate Ha. cbn [obind fst snd] in Ha.
    destruct (together a) as [[u e']|z|] eqn:E; try discriminate Ha. cbn [obind fst snd] in Ha. injection Ha as <- He. assert (e = 0) by lia. assert (e' = 0) by lia. subst.
    rewrite <- app_assoc. apply together_cons; [reflexivity|]. apply IH; [reflexivity|exact Hb].
Qed.
Lemma lines_read {A} (p : list token -> option (A * list token)) os l : Forall2 (Line p) os l ->
  exists t ts, together os = Ok (t, 0) /\ Cuts any t ts /\ forall k fuel, length ts <= fuel -> exists f', p_many p fuel (ts ++ k) = match p_many p f' k with Some (l', r) => Some (l ++ l', r) | None => None end /\ fuel <= f' + length ts.
Proof.
  induction 1 as [|o a os l Ho _ IH].
  - exists [], []. split; [reflexivity|]. split; [apply cuts_nil|]. intros k fuel _. exists fuel. split; [change ([] ++ k) with k; destruct (p_many p fuel k) as [[? ?]|]; reflexivity|cbn; lia].
  - destruct Ho as (t & ts & Ho & Hc & Hh & Hp). destruct IH as (t2 & ts2 & H2 & Hc2 & Hm). exists (t ++ t2), (ts ++ ts2). split; [apply together_cons; assumption|]. split; [eapply cuts_any; eassumption|].
    intros k fuel Hf. rewrite app_length in Hf. destruct ts as [|[x y] ts]; [destruct Hh|]. cbn [length] in Hf. destruct fuel as [|fuel]; [lia|].
    destruct (Hm k fuel ltac:(lia)) as (f' & E & Hf'). exists f'. split; [|rewrite app_length; cbn [length]; lia]. specialize (Hp (ts2 ++ k)). rewrite <- app_assoc. cbn [app] in *. cbn [p_many].
    assert (T : t_rbrace ((x, y) :: ts ++ ts2 ++ k) = None) by (cbn in Hh; destruct x; (reflexivity || congruence)).
    etransitivity; [exact (f_equal (fun z => match z with Some (_, r) => Some ([], r) | None => _ end) T)|]. cbv beta iota.
    rewrite Hp, E. destruct (p_many p f' k) as [[? ?]|]; reflexivity.
Qed.
Lemma lines_end {A} (p : list token -> option (A * list token)) os l : Forall2 (Line p) os l ->
  exists t ts, together os = Ok (t, 0) /\ Cuts any t ts /\ forall k fuel, length ts <= fuel -> p_many p fuel (ts ++ rb :: k) = Some (l, k).
Proof.
  intros H. destruct (lines_read p os l H) as (t & ts & Ht & Hc & Hm). exists t, ts. split; [exact Ht|]. split; [exact Hc|]. intros k fuel Hf. destruct (Hm (rb :: k) fuel Hf) as (f' & -> & _).
  destruct f'; cbn [p_many rb t_rbrace]; rewrite app_nil_r; reflexivity.
Qed.
Lemma semicolon_follow k : follow ((SEMICOLON, $";") :: k) /\ stop ((SEMICOLON, $";") :: k) /\ no_bar ((SEMICOLON, $";") :: k).
Proof. repeat split. cbn. discriminate. Qed.
Definition sc : token := (SEMICOLON, $";").
Lemma cuts_end : Cuts any semicolon_line [sc].
Proof. apply (cuts_any any $";" [lf] [sc] []); [exact cuts_semicolon|]. apply cuts_blank. reflexivity. Qed.
Lemma ends_end r : ends (semicolon_line ++ r).
Proof. split; [reflexivity|discriminate]. Qed.
Lemma key_filter b : all_ is_space b -> Cuts any (b ++ $"filter" ++ $" ") [(FILTER, $"filter")]. Proof. intros Hb. apply cuts_key; [exact Hb|discriminate|reflexivity|reflexivity|intros r; reflexivity]. Qed.
Lemma key_schema : Cuts any ($"  " ++ $"base_schema" ++ $" ") [(BASE_SCHEMA, $"base_schema")]. Proof. key. Qed.
Lemma key_source : Cuts any ($"  " ++ $"source" ++ $" ") [(SOURCE, $"source")]. Proof. key. Qed.
Lemma key_expression : Cuts any ($"  " ++ $"expression" ++ $" ") [(EXPRESSION, $"expression")]. Proof. key. Qed.
Lemma key_grouping : Cuts any ($"  " ++ $"grouping" ++ $" ") [(GROUPING, $"grouping")]. Proof. key. Qed.
Lemma key_sort : Cuts any ($"  " ++ $"sort" ++ $" ") [(SORT, $"sort")]. Proof. key. Qed.
Lemma key_count : Cuts any ($"  " ++ $"count" ++ $" ") [(COUNT, $"count")]. Proof. key. Qed.
Lemma key_type : Cuts any ($"  " ++ $"type" ++ $" ") [(TYPE, $"type")]. Proof. key. Qed.
Lemma key_emit : Cuts any ($"  " ++ $"emit" ++ $" ") [(EMIT, $"emit")]. Proof. key. Qed.
Lemma key_measure : Cuts any ($"    " ++ $"measure" ++ $" ") [(MEASURE, $"measure")]. Proof. key. Qed.
Lemma key_invocation : Cuts any ($"    " ++ $"invocation" ++ $" ") [(INVOCATION, $"invocation")]. Proof. key. Qed.
Lemma key_measures : Cuts any ($"  " ++ $"measure" ++ $" ") [(MEASURE, $"measure")]. Proof. key. Qed.
Lemma key_by : Cuts any ($" " ++ $"by" ++ $" ") [(BY, $"by")]. Proof. key. Qed.
Lemma key_named : Cuts any ($" " ++ $"NAMED" ++ $" ") [(NAMED, $"NAMED")]. Proof. key. Qed.
Lemma key_relation : Cuts any ($" " ++ $"relation" ++ $" ") [(RELATION, $"relation")]. Proof. key. Qed.
Lemma three a t c : together [text a; Ok (t, 0); text c] = Ok (a ++ t ++ c, 0).
Proof. unfold together, both, text. cbn. rewrite app_nil_r. reflexivity. Qed.
Lemma line_cuts a kt t ts : Cuts any a [kt] -> Cuts ends t ts -> Cuts any (a ++ t ++ semicolon_line) (kt :: ts ++ [sc]).
Proof. intros Ha Ht. apply (cuts_any any a _ [kt] (ts ++ [sc])); [exact Ha|]. eapply cuts_app; [exact Ht|exact cuts_end|]. intros r _. apply ends_end. Qed.
Lemma p_e_read ts node k : Parses ts node -> follow k -> stop k -> p_e (ts ++ k) = Some (node, k).
Proof. intros H Hk Ha. unfold p_e. apply parses_whole; [exact H|rewrite app_length; lia|exact Hk|exact Ha]. Qed.
Lemma bindR_fine {A B} (a : A) (f : A -> visited B) : bindR (fine a) f = f a.
Proof. unfold bindR, fine. cbn. destruct (f a) as [[b l]|x|]; reflexivity. Qed.

Lemma name_line {A} (p : list token -> option (A * list token)) f b key kt n : Name n -> Cuts any (b ++ key ++ $" ") [(kt, key)] -> kt <> RIGHTBRACE ->
  (forall r, p ((kt, key) :: r) = p_line p_id f r) -> Line p (together [text (b ++ key ++ $" "); text n; text semicolon_line]) (f n).
Proof.
  intros Hn Hk Hr Hp. exists ((b ++ key ++ $" ") ++ n ++ semicolon_line), ((kt, key) :: name_tokens n ++ [sc]). split; [apply three|]. split; [apply line_cuts; [exact Hk|apply cuts_name, Hn]|]. split; [exact Hr|].
  intros k. cbn [app]. rewrite <- app_assoc, Hp. unfold p_line, name_tokens. cbn [app]. rewrite (name_read n (sc :: k) Hn); [reflexivity|discriminate].
Qed.
Lemma emit_line n : EmitColumn n -> Line p_detail (line $"emit" (text n)) (OnEmit n).
Proof.
  intros H. assert (X : exists ts, Cuts ends n ts /\ forall k, follow k -> p_column (ts ++ k) = Some (NCol n, k)).
  { destruct H as [n Hn | n m Hn Hm].
    - exists (name_tokens n). split; [apply cuts_name, Hn|]. intros k Hk. unfold p_column, name_tokens. rewrite (name_read n k Hn (follow_bar k Hk)), (follow_period k Hk). reflexivity.
    - exists (name_tokens n ++ [(PERIOD, $".")] ++ name_tokens m). split.
      + eapply cuts_app; [apply cuts_name, Hn|eapply cuts_any; [exact cuts_period|apply cuts_name, Hm]|]. intros r _. split; [reflexivity|discriminate].
      + intros k Hk. rewrite <- !app_assoc. cbn [app]. unfold p_column, name_tokens. rewrite (name_read n _ Hn); [|cbn; discriminate]. cbn [t_period].
        pose proof (name_read m k Hm (follow_bar k Hk)) as X. unfold token in *. rewrite X. reflexivity. }
  destruct X as (ts & Hc & Hp). exists (($"  " ++ $"emit" ++ $" ") ++ n ++ semicolon_line), ((EMIT, $"emit") :: ts ++ [sc]). split; [apply three|]. split; [apply line_cuts; [exact key_emit|exact Hc]|]. split; [discriminate|].
  intros k. cbn [app]. rewrite <- app_assoc. unfold p_detail, d_start, p_line. cbn [app]. rewrite Hp by reflexivity. reflexivity.
Qed.
Lemma number_ends r : ends r -> match r with c :: _ => c <> "."%char | [] => True end -> no_number r.
Proof.
  destruct r as [|c r]; [auto|]. intros [H1 H2] H3. unfold is_word in H1. apply orb_false_iff in H1 as [H1 _]. apply orb_false_iff in H1 as [H1 Hd]. split; [exact Hd|]. split; [exact H3|].
  intros E. assert (is_alpha (lower c) = true) by (rewrite E; reflexivity). rewrite lower_alpha in H. congruence.
Qed.
Lemma count_line z : Line p_detail (line $"count" (text (print_Z z))) (OnCount (print_Z z)).
Proof.
  exists (($"  " ++ $"count" ++ $" ") ++ print_Z z ++ semicolon_line), ((COUNT, $"count") :: [(NUMBER, print_Z z)] ++ [sc]). split; [apply three|]. split.
  { apply (cuts_any any _ _ [(COUNT, $"count")] ([(NUMBER, print_Z z)] ++ [sc])); [exact key_count|]. eapply cuts_app; [apply cuts_number, print_Z_number|exact cuts_end|].
    intros r _. cbn. repeat split; discriminate. }
  split; [discriminate|]. intros k. reflexivity.
Qed.
(** The names of the enumerations are names. *)
Lemma named_enum s : read_name s = Some s -> Name s.
Proof. apply read_name_iff. Qed.
Lemma phase_Name p : Name (phase_name p).
Proof. apply named_enum. destruct p; vm_compute; reflexivity. Qed.
Lemma join_Name p : Name (join_name p).
Proof. apply named_enum. destruct p; vm_compute; reflexivity. Qed.
Lemma invocation_Name v n : print_invocation v = Some n -> Name n.
Proof. intros H. apply named_enum. destruct v; cbn in H; [discriminate| |]; injection H as <-; vm_compute; reflexivity. Qed.
Lemma direction_Name d n : print_direction (Some d) = Some n -> Name n.
Proof. intros H. apply named_enum. destruct d; cbn in H; try discriminate; injection H as <-; vm_compute; reflexivity. Qed.
(** A word and a name that need not be there *)
Lemma after_read t key kt n ts k : (forall r, t ((kt, key) :: r) = Some (key, r)) -> Name n -> no_bar k -> ts = (kt, key) :: name_tokens n -> p_after t (ts ++ k) = Some (Some n, k).
Proof. intros Ht Hn Hk ->. unfold p_after. cbn [app]. rewrite Ht. unfold name_tokens. rw (name_read n k Hn Hk). reflexivity. Qed.
Definition named_text (n : option str) : str := match n with Some n => $" NAMED " ++ n | None => [] end.
Definition named_tokens (n : option str) : list token := match n with Some n => (NAMED, $"NAMED") :: name_tokens n | None => [] end.
Lemma named_printed n : named n = Ok (named_text n, 0).
Proof. destruct n; reflexivity. Qed.
Lemma named_cuts n : optional_name n -> Cuts ends (named_text n) (named_tokens n).
Proof.
  destruct n as [n|]; cbn [named_text named_tokens optional_name]; intros Hn; [|apply cuts_nil]. change ($" NAMED " ++ n) with (($" " ++ $"NAMED" ++ $" ") ++ n). apply (cuts_any ends _ _ [(NAMED, $"NAMED")]); [exact key_named|apply cuts_name, Hn].
Qed.
Lemma named_ends n r : ends r -> ends (named_text n ++ r).
Proof. destruct n; [|auto]. intros _. split; [reflexivity|discriminate]. Qed.
Lemma named_follow n k : follow (named_tokens n ++ sc :: k) /\ stop (named_tokens n ++ sc :: k) /\ t_at (named_tokens n ++ sc :: k) = None /\ t_arrow (named_tokens n ++ sc :: k) = None /\ no_bar (named_tokens n ++ sc :: k).
Proof. destruct n; cbn; repeat split; discriminate. Qed.
Lemma named_read n k : optional_name n -> p_after t_named (named_tokens n ++ sc :: k) = Some (n, sc :: k).
Proof. destruct n as [n|]; cbn [optional_name named_tokens]; intros Hn; [|reflexivity]. eapply after_read; [|exact Hn|discriminate|reflexivity]. reflexivity. Qed.

Section Proofs.
  Variables (function_name : N -> option str) (field_name : N -> Z -> option str) (emit_name : Z -> option str) (measure_name alternative alias : nat -> option str).
  Variables (find_function : str -> option N) (find_relation : str -> option bool) (find_field : nat -> nat -> str -> option (N * Z)) (find_emit : str -> N * Z * bool) (columns : nat) (known_source known_schema : str -> bool).
  Notation print_e := (printE function_name field_name).
  Notation atpos := (At function_name field_name find_function find_relation find_field).
  Notation within := (Inside function_name field_name find_function find_relation find_field).
  Notation visit_e := (visitE find_function find_relation find_field).
  Lemma known_node i j node e' : visitExpr find_function find_relation (find_field i j) node = Ok (e', []) -> direct e' = true -> known find_function find_field i j node = Ok true.
  Proof.
    intros H D. pose proof (first_verdict find_function find_relation (find_field i j) true node e' H) as V. rewrite D in V. destruct V as (x & V). unfold known. rewrite V. reflexivity.
  Qed.
  Lemma visitE_node i j node e' : visitExpr find_function find_relation (find_field i j) node = Ok (e', []) -> direct e' = true -> visit_e i j node = fine e'.
  Proof. intros H D. unfold visitE. rewrite (known_node i j node e' H D). cbn [obind]. rewrite H. reflexivity. Qed.
  Lemma visitE_known i j node x : visit_e i j node = fine x -> known find_function find_field i j node = Ok true.
  Proof. unfold visitE. destruct (known find_function find_field i j node) as [[]|y|]; cbn [obind]; (discriminate || reflexivity). Qed.
  Lemma filter_known i b k node x : visit_e i 0 node = fine x -> visitDetail find_function find_relation find_field columns known_source known_schema i b (OnFilter k node) = visitFilter b k (fine x).
  Proof. intros H. unfold visitDetail. rewrite (visitE_known i 0 node x H), H. reflexivity. Qed.
  Lemma expr_text i j e e' : atpos i j e e' -> exists t ts node, print_e e = Ok (t, 0) /\ Cuts ends t ts /\ Parses ts node /\ visit_e i j node = fine e'.
  Proof.
    intros [H D]. rewrite (readable_direct _ _ _ _ _ _ _ H) in D. destruct (readable_reads _ _ _ _ _ _ _ H 0) as [(t & ts & node & E & Hc & Hp & Hs & Hv & _)]. exists t, ts, node. split; [exact E|]. split; [exact Hc|]. split; [exact Hp|].
    exact (visitE_node i j node e' Hv D).
  Qed.
  Lemma expr_line {A} (p : list token -> option (A * list token)) f b key kt i j e e' : atpos i j e e' -> Cuts any (b ++ key ++ $" ") [(kt, key)] -> kt <> RIGHTBRACE ->
    (forall r, p ((kt, key) :: r) = p_line p_e f r) -> exists node, Line p (together [text (b ++ key ++ $" "); print_e e; text semicolon_line]) (f node) /\ visit_e i j node = fine e'.
  Proof.
    intros H Hk Hr Hp. destruct (expr_text i j e e' H) as (t & ts & node & E & Hc & Hpa & Hv). exists node. split; [|exact Hv].
    exists ((b ++ key ++ $" ") ++ t ++ semicolon_line), ((kt, key) :: ts ++ [sc]). split; [rewrite E; apply three|]. split; [apply line_cuts; assumption|]. split; [exact Hr|].
    intros k. cbn [app]. rewrite <- app_assoc, Hp. unfold p_line. cbn [app]. rewrite (p_e_read ts node (sc :: k) Hpa); [reflexivity|reflexivity|split; reflexivity].
  Qed.
  (** Expressions of a project relation *)
  Notation visit_detail := (visitDetail find_function find_relation find_field columns known_source known_schema).
  Notation visit_details := (visitDetails find_function find_relation find_field columns known_source known_schema).
  Lemma named_expression ts node n : Parses ts node -> optional_name n -> forall k, p_detail ((EXPRESSION, $"expression") :: (ts ++ named_tokens n) ++ sc :: k) = Some (OnExpression node n, k).
  Proof.
    intros Hp Hn k. destruct (named_follow n k) as (F1 & F2 & _). unfold p_detail, d_start. rewrite <- app_assoc, (p_e_read ts node _ Hp F1 F2), (named_read n k Hn). reflexivity.
  Qed.
  Lemma expression_line i e e' : ExpressionReads function_name field_name alternative alias find_function find_relation find_field i e e' ->
    exists node n, Line p_detail (line $"expression" (match alternative i with Some t => text t | None => both (print_e e) (named (alias i)) end)) (OnExpression node n) /\
      n = match alternative i with Some _ => None | None => alias i end /\ visit_e i 0 node = fine e'.
  Proof.
    intros [e0 e1 Ha Hn H | e0 t steps f Ha Hc Hf]; rewrite Ha.
    - destruct (expr_text i 0 e0 e1 H) as (t & ts & node & E & Hc & Hp & Hv). exists node, (alias i). split; [|split; [reflexivity|exact Hv]].
      exists (($"  " ++ $"expression" ++ $" ") ++ (t ++ named_text (alias i)) ++ semicolon_line), ((EXPRESSION, $"expression") :: (ts ++ named_tokens (alias i)) ++ [sc]). rewrite E, named_printed.
      split; [apply three|]. split; [apply line_cuts; [exact key_expression|]|split; [discriminate|]].
      + eapply cuts_app; [exact Hc|apply named_cuts, Hn|apply named_ends].
      + intros k. cbn [app]. rewrite <- (app_assoc (ts ++ _)). apply named_expression; assumption.
    - destruct (column_text find_function find_relation (find_field i 0) t Hc) as (ts & Hcu & Hp & Hs & Ht). exists (NCol t), None. split; [|split; [reflexivity|]].
      + exists (($"  " ++ $"expression" ++ $" ") ++ t ++ semicolon_line), ((EXPRESSION, $"expression") :: (ts ++ named_tokens None) ++ [sc]). split; [apply three|].
        split; [apply line_cuts; [exact key_expression|cbn [named_tokens]; rewrite app_nil_r; exact Hcu]|split; [discriminate|]].
        intros k. cbn [app]. rewrite <- (app_assoc (ts ++ _)). apply named_expression; [exact Hp|exact I].
      + apply visitE_node; [cbn [visitExpr]; rewrite Hf; reflexivity|reflexivity].
  Qed.
  (** Sorts *)
  Lemma sort_line i e e' d : atpos i 0 e e' ->
    exists node b, Line p_detail (Ok ((($"  " ++ $"sort" ++ $" ") ++ match print_e e with Ok x => fst x | _ => [] end) ++ match print_direction (Some d) with Some w => $" by " ++ w | None => [] end ++ semicolon_line, 0)) (OnSort node b) /\
      (exists t, print_e e = Ok (t, 0)) /\ visitSort find_function find_relation find_field i 0 node b = fine (e', read_direction d).
  Proof.
    intros H. destruct (expr_text i 0 e e' H) as (t & ts & node & E & Hc & Hp & Hv). rewrite E. cbn [fst]. exists node, (print_direction (Some d)). split; [|split; [eexists; reflexivity|]].
    - set (bt := match print_direction (Some d) with Some w => (BY, $"by") :: name_tokens w | None => [] end).
      exists ((($"  " ++ $"sort" ++ $" ") ++ t) ++ match print_direction (Some d) with Some w => $" by " ++ w | None => [] end ++ semicolon_line), ((SORT, $"sort") :: (ts ++ bt) ++ [sc]).
      split; [reflexivity|]. split; [|split; [discriminate|]].
      + rewrite <- (app_assoc ($"  " ++ $"sort" ++ $" ") t). rewrite (app_assoc t). apply line_cuts; [exact key_sort|]. eapply cuts_app; [exact Hc| |].
        * subst bt. destruct (print_direction (Some d)) as [w|] eqn:Ed; [|apply cuts_nil]. change ($" by " ++ w) with (($" " ++ $"by" ++ $" ") ++ w).
          apply (cuts_any ends _ _ [(BY, $"by")]); [exact key_by|apply cuts_name; eapply direction_Name; exact Ed].
        * intros r Hr. destruct (print_direction (Some d)); [split; [reflexivity|discriminate]|exact Hr].
      + intros k. assert (F : follow (bt ++ sc :: k) /\ stop (bt ++ sc :: k)) by (subst bt; destruct (print_direction (Some d)); repeat split; reflexivity).
        assert (X : p_after t_by (bt ++ sc :: k) = Some (print_direction (Some d), sc :: k)).
        { subst bt. destruct (print_direction (Some d)) as [w|] eqn:Ed; [|reflexivity]. eapply after_read; [|eapply direction_Name; exact Ed|discriminate|reflexivity]. reflexivity. }
        destruct F as [F1 F2]. pose proof (p_e_read ts node (bt ++ sc :: k) Hp F1 F2) as P. clearbody bt. cbn [app]. rewrite <- !app_assoc. cbn [app]. unfold p_detail, d_start, p_sort. unfold token in *. rewrite P, X. reflexivity.
    - unfold visitSort. rewrite Hv, bindR_fine. destruct d; reflexivity.
  Qed.
  (** Measures *)
  Notation print_af := (printAggregateFunction function_name field_name).
  Lemma both_ok a b x y : a = Ok (x, 0) -> b = Ok (y, 0) -> both a b = Ok (x ++ y, 0).
  Proof. intros -> ->. reflexivity. Qed.
  Lemma function_text i f f' n args args' deprecated deprecated' ty ty' ph v sorts :
      function_name f = Some n -> Name n -> to_lower n <> $"ifthen" -> find_function n = Some f' ->
      Forall2 (ArgReads field_name (within i 0)) args args' -> Forall2 (DeprecatedReads field_name (within i 0)) deprecated deprecated' -> Printable ty ty' ->
      exists t ts node, print_af (AF f args deprecated [] ty ph v sorts) = Ok (t ++ $"@" ++ phase_name ph, 0) /\ Cuts ends t ts /\ Parses ts node /\
        visit_e i 0 node = fine (EFun f' (args' ++ deprecated') [] [] ty').
  Proof.
    intros H1 H2 H3 H4 H5 H6 H8. destruct (print_roundtrip false ty ty' H8) as [Pt Rt]. destruct (printable_text ty ty' H8) as (tts & Htt).
    destruct (items_read find_function find_relation (find_field i 0) (argument find_function find_relation (find_field i 0)) (map (fun a => match a with
        | AValue e => printExpr function_name field_name 1 e | AEnum s => Ok (s ++ $"_enum", 0) | AType t => Ok (printType t)
        | AUnset => text $"UNKNOWN_AGGREGATE_FUNCTION_ARGUMENT_TYPE" end) args ++ map (printExpr function_name field_name 1) deprecated) (args' ++ deprecated')) as (t & ts & nodes & E & Hc & Hv & Hp).
    { apply Forall2_app.
      - clear - H5. induction H5 as [|a a' l l' Ha _ IH]; constructor; [|exact IH]. destruct Ha as [e e' He Hl|s Hs Hn]; [apply value_item; [apply readable_reads, He|exact Hl]|apply (enum_item field_name); assumption].
      - clear - H6. induction H6 as [|a a' l l' Ha _ IH]; constructor; [|exact IH]. destruct Ha as [e e' He Hl]. apply value_item; [apply readable_reads, He|exact Hl]. }
    destruct (call_text find_function find_relation (find_field i 0) n ts nodes (Some (fst (printType ty))) tts H2 Hp Htt) as [Hpa Hst].
    exists (n ++ $"(" ++ t ++ $")" ++ $"->" ++ fst (printType ty)), (name_tokens n ++ (LEFTPAREN, $"(") :: ts ++ rp :: (ARROW, $"->") :: tts), (NFun n nodes (Some (fst (printType ty)))). split; [|split; [|split; [exact Hpa|]]].
    - unfold printAggregateFunction. cbn [af_ref af_args af_deprecated af_options af_type af_phase map concat]. unfold lookupFunctionReference. rewrite H1, E.
      destruct (printType ty) as [tt te] eqn:Et. assert (te = 0) by (pose proof (f_equal snd Pt) as Q; cbn in Q; congruence). subst te. unfold together, both, text. cbn [fold_right obind fst snd]. f_equal. f_equal. rewrite app_nil_r, <- !app_assoc. reflexivity.
    - eapply cuts_app; [apply cuts_name, H2| |].
      + apply (cuts_any ends $"(" _ [(LEFTPAREN, $"(")]); [exact cuts_lparen|]. eapply cuts_app; [exact Hc| |].
        * apply (cuts_any ends $")" ($"->" ++ fst (printType ty)) [rp]); [exact cuts_rparen|]. apply (cuts_any ends $"->" _ [(ARROW, $"->")]); [exact cuts_arrow|]. apply (tt_cuts _ _ Htt).
        * intros r _. apply ends_char; [reflexivity|discriminate].
      + intros r _. apply ends_char; [reflexivity|discriminate].
    - apply visitE_node; [|reflexivity]. cbn [visitExpr]. apply seq_eqb_neq in H3. rewrite H3, H4. unfold good at 1. rewrite bindE_good. fold (argument find_function find_relation (find_field i 0)). rewrite Hv, bindE_good. unfold read_type. rewrite Rt. cbn [obind fst snd map]. rewrite bindE_good. reflexivity.
  Qed.
  Lemma phase_read ph : visitAggregationPhase (phase_name ph) = Ok (ph, false).
  Proof. destruct ph; vm_compute; reflexivity. Qed.
  Lemma measure_line i f f' n args args' deprecated deprecated' ty ty' ph v sorts name :
      function_name f = Some n -> Name n -> to_lower n <> $"ifthen" -> find_function n = Some f' ->
      Forall2 (ArgReads field_name (within i 0)) args args' -> Forall2 (DeprecatedReads field_name (within i 0)) deprecated deprecated' -> Printable ty ty' -> optional_name name ->
      exists node, Line p_mdetail (inner_line $"measure" (both (print_af (AF f args deprecated [] ty ph v sorts)) (named name))) (MMeasure node None (phase_name ph :: listed name)) /\
        visitMeasure find_function find_relation find_field i 0 node None (phase_name ph :: listed name) = fine (AF f' (args' ++ deprecated') [] [] ty' ph IUnspecified []).
  Proof.
    intros H1 H2 H3 H4 H5 H6 H7 H8. destruct (function_text i f f' n args args' deprecated deprecated' ty ty' ph v sorts H1 H2 H3 H4 H5 H6 H7) as (t & ts & node & E & Hc & Hp & Hv).
    exists node. split.
    - set (more := (ATSIGN, $"@") :: name_tokens (phase_name ph)).
      exists (($"    " ++ $"measure" ++ $" ") ++ ((t ++ $"@" ++ phase_name ph) ++ named_text name) ++ semicolon_line), ((MEASURE, $"measure") :: ((ts ++ more) ++ named_tokens name) ++ [sc]).
      split; [unfold inner_line; rewrite (both_ok _ _ _ _ E (named_printed name)); apply three|]. split; [apply line_cuts; [exact key_measure|]|split; [discriminate|]].
      + eapply cuts_app; [|apply named_cuts, H8|apply named_ends]. eapply cuts_app; [exact Hc| |intros r _; split; [reflexivity|discriminate]].
        apply (cuts_any ends $"@" _ [(ATSIGN, $"@")]); [exact cuts_at|apply cuts_name, phase_Name].
      + intros k. destruct (named_follow name k) as (F1 & F2 & F3 & F4 & F5). assert (A : p_after t_at (more ++ named_tokens name ++ sc :: k) = Some (Some (phase_name ph), named_tokens name ++ sc :: k)).
        { eapply after_read; [|apply phase_Name|exact F5|reflexivity]. reflexivity. }
        pose proof (p_e_read ts node (more ++ named_tokens name ++ sc :: k) Hp eq_refl (conj eq_refl eq_refl)) as P. assert (Y : t_arrow (more ++ named_tokens name ++ sc :: k) = None) by reflexivity. pose proof (named_read name k H8) as M.
        clearbody more. unfold p_mdetail, m_start. cbn [app]. rewrite <- !app_assoc. cbn [app]. unfold token in *. rewrite P, Y, A, M. reflexivity.
    - unfold visitMeasure. rewrite Hv, bindR_fine. rewrite bindR_fine. cbn [listed]. rewrite phase_read. change (said RPhase (Ok (ph, false))) with (fine ph). rewrite bindR_fine. reflexivity.
  Qed.
  Lemma open_cuts : Cuts any ($"  measure {" ++ [lf]) [(MEASURE, $"measure"); (LEFTBRACE, $"{")].
  Proof.
    change ($"  measure {" ++ [lf]) with (($"  " ++ $"measure" ++ $" ") ++ $"{" ++ [lf]). apply (cuts_any any _ _ [(MEASURE, $"measure")] [(LEFTBRACE, $"{")]); [exact key_measures|].
    apply (cuts_any any $"{" [lf] [(LEFTBRACE, $"{")] []); [exact cuts_lbrace|apply cuts_blank; reflexivity].
  Qed.
  Lemma close_cuts b : all_ is_space b -> Cuts any (b ++ $"}" ++ [lf]) [rb].
  Proof. intros Hb. apply (cuts_any any b _ []); [apply cuts_blanks, Hb|]. apply (cuts_any any $"}" [lf] [rb] []); [exact cuts_rbrace|apply cuts_blank; reflexivity]. Qed.
  Lemma invocation_read v n : print_invocation v = Some n -> visitAggregationInvocation n = Ok (v, false).
  Proof. intros H. destruct v; cbn in H; [discriminate| |]; injection H as <-; vm_compute; reflexivity. Qed.
  Lemma measure_read i m m' k : MeasureReads function_name field_name measure_name find_function find_relation find_field i m m' k ->
    exists l, Line p_detail (printMeasure function_name field_name measure_name k m) (OnMeasure l) /\ (forall j, 0 < j -> measure_given (firstn j l) = listed (measure_name k)) /\
      bindR (visitMeasureDetails find_function find_relation find_field i 0 start_building l) (fun s => fine (built s)) = fine m'.
  Proof.
    intros [f f' n args args' deprecated deprecated' ty ty' ph v sorts filter filter' k' H1 H2 H3 H4 H5 H6 H7 H8 H9]. clear k. rename k' into k.
    destruct (measure_line i f f' n args args' deprecated deprecated' ty ty' ph v sorts (measure_name k) H1 H2 H3 H4 H5 H6 H7 H8) as (node & Hl & Hv).
    assert (F : exists l, Forall2 (Line p_mdetail) (match filter with Some e => [inner_line $"filter" (print_e e)] | None => [] end) l /\ measure_given l = [] /\
      optional (fun e => inner_line $"filter" (print_e e)) filter = together (match filter with Some e => [inner_line $"filter" (print_e e)] | None => [] end) /\
      forall j s r, b_filter s = None -> j = 1 -> visitMeasureDetails find_function find_relation find_field i j s (l ++ r) = visitMeasureDetails find_function find_relation find_field i (j + length l) (Building (b_function s) filter' (b_invocation s) (b_sorts s)) r).
    { destruct H9 as [|e e' He].
      - exists []. split; [constructor|]. split; [reflexivity|]. split; [reflexivity|]. intros j [a b c d] r Hb _. cbn in Hb. subst b. cbn. rewrite Nat.add_0_r. reflexivity.
      - destruct (expr_line p_mdetail MFilter $"    " $"filter" FILTER i 1 e e' He (key_filter $"    " eq_refl) ltac:(discriminate)) as (nd & Hn & Hnv); [reflexivity|].
        exists [MFilter nd]. split; [constructor; [exact Hn|constructor]|]. split; [reflexivity|]. split.
        + symmetry. apply both_end.
        + intros j [a b c d] r Hb ->. cbn in Hb. subst b. cbn [app visitMeasureDetails]. rewrite Hnv, bindR_fine. cbn. reflexivity. }
    destruct F as (lf' & Hf & Nf & Ef & Vf).
    assert (G : exists l, Forall2 (Line p_mdetail) (match print_invocation v with Some n => [inner_line $"invocation" (text n)] | None => [] end) l /\ measure_given l = [] /\
      optional (fun n => inner_line $"invocation" (text n)) (print_invocation v) = together (match print_invocation v with Some n => [inner_line $"invocation" (text n)] | None => [] end) /\
      forall j s, b_invocation s = IUnspecified -> visitMeasureDetails find_function find_relation find_field i j s l = fine (Building (b_function s) (b_filter s) v (b_sorts s))).
    { destruct (print_invocation v) as [w|] eqn:Ev.
      - exists [MInvocation w]. split; [constructor; [apply (name_line p_mdetail MInvocation $"    " $"invocation" INVOCATION w); [eapply invocation_Name, Ev|exact key_invocation|discriminate|reflexivity]|constructor]|]. split; [reflexivity|]. split.
        + symmetry. apply both_end.
        + intros j [a b c d] Hc. cbn in Hc. subst c. cbn [visitMeasureDetails]. rewrite (invocation_read v w Ev). change (said RInvocation (Ok (v, false))) with (fine v). rewrite bindR_fine. reflexivity.
      - exists []. split; [constructor|]. split; [reflexivity|]. split; [reflexivity|]. intros j [a b c d] Hc. cbn in Hc. subst c. destruct v; try discriminate Ev. reflexivity. }
    destruct G as (lg & Hg & Ng & Eg & Vg).
    exists (MMeasure node None (phase_name ph :: listed (measure_name k)) :: lf' ++ lg). split; [|split].
    - destruct (lines_end p_mdetail _ _ (Forall2_cons _ _ Hl (Forall2_app Hf Hg))) as (t & ts & Et & Hc & Hp).
      exists (($"  measure {" ++ [lf]) ++ t ++ $"  }" ++ [lf]), ([(MEASURE, $"measure"); (LEFTBRACE, $"{")] ++ ts ++ [rb]). split; [|split; [|split; [discriminate|]]].
      + cbn [printMeasure m_function m_filter af_invocation]. rewrite !together_eq, Ef, Eg. change (together []) with (@Ok printed ([], 0)). rewrite both_end.
        rewrite together_eq, together_both in Et. rewrite !both_assoc, <- !both_assoc. rewrite (both_assoc (together _) (together _) (text _)), (both_assoc (inner_line _ _)). rewrite Et. reflexivity.
      + apply cuts_any; [exact open_cuts|]. apply cuts_any; [exact Hc|exact (close_cuts $"  " eq_refl)].
      + intros k0. cbn [app]. rewrite <- app_assoc. cbn [app]. unfold p_detail, d_start, t_lbrace. rewrite Hp; [reflexivity|]. rewrite app_length. lia.
    - intros [|j] Hj; [lia|]. cbn [firstn]. unfold measure_given in *. cbn [flat_map]. rewrite firstn_app, flat_map_app.
      assert (X : forall (l : list mdetail) (g : mdetail -> list str) q, flat_map g l = [] -> flat_map g (firstn q l) = []).
      { intros l0 g q. revert l0. induction q as [|q IH]; intros l0 E; [reflexivity|]. destruct l0 as [|d l0]; [reflexivity|]. cbn [firstn flat_map] in *. apply app_eq_nil in E as [-> E]. apply IH, E. }
      rewrite (X lf' _ j Nf), (X lg _ _ Ng). destruct (measure_name k); reflexivity.
    - cbn [visitMeasureDetails]. rewrite Hv, bindR_fine. cbn [b_function start_building]. rewrite Vf by reflexivity. rewrite Vg by reflexivity. rewrite bindR_fine. unfold built. cbn [b_sorts b_invocation b_function b_filter with_sorts]. destruct v; reflexivity.
  Qed.
  (** * Lists of details *)
  Definition no_emit (d : detail) : Prop := match d with OnEmit _ => False | _ => True end.
  Lemma no_emits l r : Forall no_emit l -> visitEmits find_emit (l ++ r) = visitEmits find_emit r.
  Proof. induction 1 as [|d l Hd _ IH]; [reflexivity|]. cbn [app]. destruct d; try exact IH. destruct Hd. Qed.
  Lemma details_app l r i b b' : visit_details i b l = fine b' -> visit_details i b (l ++ r) = visit_details (i + length l) b' r.
  Proof.
    revert i b. induction l as [|d l IH]; intros i b H.
    - cbn in H. injection H as <-. cbn. rewrite Nat.add_0_r. reflexivity.
    - cbn [visitDetails app length] in *. unfold bindR in *. destruct (visit_detail i b d) as [[x e]|x|]; try discriminate H. cbn [obind fst snd] in *.
      destruct (visit_details (S i) x l) as [[y e']|y|] eqn:E; try discriminate H. cbn [obind fst snd] in H. injection H as <- He. apply app_eq_nil in He as [-> ->].
      rewrite (IH _ _ E). replace (i + S (length l)) with (S i + length l) by lia. destruct (visit_details (S i + length l) y r) as [[z e]|z|]; reflexivity.
  Qed.
  Lemma blank_line {A} (q : list token -> option (A * list token)) o a : Line q o a -> Line q (both (text [lf]) o) a.
  Proof.
    intros (t & ts & -> & Hc & Hh & Hp). exists ([lf] ++ t), ts. split; [reflexivity|]. split; [|split; assumption]. apply (cuts_any any [lf] t [] ts); [apply cuts_blank; reflexivity|exact Hc].
  Qed.
  Notation emits := (visitEmits find_emit).
  Lemma emits_read l l' : Forall2 (EmitReads emit_name find_emit) l l' ->
    exists os names, printEmit emit_name l = together os /\ Forall2 (Line p_detail) os (map OnEmit names) /\ emits (map OnEmit names) = fine l' /\ forall i b, visit_details i b (map OnEmit names) = fine b.
  Proof.
    intros H.
    assert (X : exists names, Forall2 (Line p_detail) (map (fun z => line $"emit" (Ok (lookupEmit emit_name z))) l) (map OnEmit names) /\ emits (map OnEmit names) = fine l' /\ forall i b, visit_details i b (map OnEmit names) = fine b).
    { induction H as [|z z' l l' Hz Hl IH]; [exists []; repeat split; constructor|]. destruct IH as (ds & H1 & H2 & H3). destruct Hz as [n z z' En Hn Hf].
      exists (n :: ds). split; [|split].
      - cbn [map]. constructor; [|exact H1]. unfold lookupEmit. rewrite En. apply emit_line, Hn.
      - cbn [map visitEmits]. rewrite Hf. cbn [N.ltb N.compare]. change (@Ok (unit * list rerr) (tt, [])) with (fine tt). rewrite bindR_fine, H2, bindR_fine. reflexivity.
      - intros i b. cbn [map visitDetails visitDetail]. rewrite bindR_fine. apply H3. }
    destruct X as (ds & H1 & H2 & H3). destruct l as [|z l].
    - exists [], ds. split; [reflexivity|]. cbn [map] in H1. inversion H1 as [E|]. destruct ds; [|discriminate]. split; [constructor|]. split; assumption.
    - cbn [map] in H1. destruct ds as [|d ds]; [inversion H1|]. inversion H1 as [|? ? ? ? Hd Hds]; subst. eexists (_ :: _), (d :: ds). split; [|split; [constructor; [apply blank_line, Hd|exact Hds]|split; assumption]].
      unfold printEmit. cbn [map]. rewrite !together_eq, both_assoc. reflexivity.
  Qed.
  Definition wrap (g : list expr) : list (list expr) := match g with [] => [] | _ => [g] end.
  Lemma wrap_add g x : add_group (wrap g) x = wrap (g ++ [x]).
  Proof. destruct g; reflexivity. Qed.
  Lemma grouped_ok x y : Grouped columns x y -> grouped columns x = Ok y.
  Proof. intros [f c r H| | | |]; try reflexivity. cbn. replace ((0 <=? f)%Z && (f <? Z.of_nat columns)%Z) with true by lia. reflexivity. Qed.
  Lemma groups_read i l gs : ForallAt (GroupReads function_name field_name find_function find_relation find_field columns) i l gs ->
    exists ds, Forall2 (Line p_detail) (map (fun e => line $"grouping" (print_e e)) l) ds /\ Forall no_emit ds /\ length ds = length gs /\
      (exists nodes, ds = map OnGrouping nodes /\ ForallAt (fun i node y => exists x, visit_e i 0 node = fine x /\ Grouped columns x y) i nodes gs) /\
      forall g ms, visit_details i (BAggregate (wrap g) ms) ds = fine (BAggregate (wrap (g ++ gs)) ms).
  Proof.
    induction 1 as [i|i e y l gs He _ (ds & H1 & H2 & H3 & (nodes & -> & H5) & H4)].
    - exists []. repeat split; try constructor; [exists []; split; [reflexivity|constructor]|]. intros g ms. rewrite app_nil_r. reflexivity.
    - destruct He as [e x y He Hg]. destruct (expr_line p_detail OnGrouping $"  " $"grouping" GROUPING i 0 e x He key_grouping ltac:(discriminate) ltac:(reflexivity)) as (node & Hl & Hv).
      exists (OnGrouping node :: map OnGrouping nodes). split; [cbn [map]; constructor; [exact Hl|exact H1]|]. split; [constructor; [exact I|exact H2]|]. split; [cbn [length]; congruence|].
      split; [exists (node :: nodes); split; [reflexivity|constructor; [exists x; split; assumption|exact H5]]|].
      intros g ms. cbn [visitDetails visitDetail]. rewrite Hv, bindR_fine, (grouped_ok x y Hg). cbn [obind]. rewrite bindR_fine, wrap_add, H4, <- app_assoc. reflexivity.
  Qed.
  Lemma measures_read n i l ms' : n <= i -> ForallAt (fun i m m' => MeasureReads function_name field_name measure_name find_function find_relation find_field i m m' (i - n)) i l ms' ->
    exists os ds, printMeasures function_name field_name measure_name (i - n) l = together os /\ Forall2 (Line p_detail) os ds /\ Forall no_emit ds /\
      (exists mls, ds = map OnMeasure mls /\ ForallAt (fun i ml m' => (forall j, 0 < j -> measure_given (firstn j ml) = listed (measure_name (i - n))) /\
         exists s, visitMeasureDetails find_function find_relation find_field i 0 start_building ml = fine s /\ built s = m') i mls ms') /\
      forall gs ms, visit_details i (BAggregate gs ms) ds = fine (BAggregate gs (ms ++ ms')).
  Proof.
    intros Hi H. induction H as [i|i m m' l ms' Hm _ IH].
    - exists [], []. repeat split; try constructor; [exists []; split; [reflexivity|constructor]|]. intros gs ms. rewrite app_nil_r. reflexivity.
    - destruct (IH ltac:(lia)) as (os & ds & H1 & H2 & H3 & (mls & -> & H5) & H4). destruct (measure_read i m m' (i - n) Hm) as (ml & Hl & Hg & Hv).
      exists (printMeasure function_name field_name measure_name (i - n) m :: os), (OnMeasure ml :: map OnMeasure mls). split; [cbn [printMeasures]; rewrite together_eq; replace (S (i - n)) with (S i - n) by lia; rewrite H1; reflexivity|].
      split; [constructor; [exact Hl|exact H2]|]. split; [constructor; [exact I|exact H3]|].
      unfold bindR in Hv. destruct (visitMeasureDetails find_function find_relation find_field i 0 start_building ml) as [[s e]|x|] eqn:EV; try discriminate Hv. cbn [obind fst snd] in Hv. unfold fine in Hv. cbn [obind fst snd] in Hv. rewrite app_nil_r in Hv.
      injection Hv as <- ->. change (@Ok (building * list rerr) (s, [])) with (fine s) in *.
      split; [exists (ml :: mls); split; [reflexivity|constructor; [split; [exact Hg|exists s; split; [assumption|reflexivity]]|exact H5]]|].
      intros gs ms. cbn [visitDetails visitDetail]. rewrite EV, bindR_fine, bindR_fine, H4, <- app_assoc. reflexivity.
  Qed.
  Lemma sorts_read i l l' : ForallAt (SortReads function_name field_name find_function find_relation find_field) i l l' ->
    exists os ds, (forall before, printSorts function_name field_name before l = both (text before) (together os)) /\ Forall2 (Line p_detail) os ds /\ Forall no_emit ds /\
      forall l0, visit_details i (BSort l0) ds = fine (BSort (l0 ++ l')).
  Proof.
    induction 1 as [i|i x x' l l' Hx _ (os & ds & H1 & H2 & H3 & H4)].
    - exists [], []. repeat split; try constructor; intros; [cbn; rewrite app_nil_r; reflexivity|rewrite app_nil_r; reflexivity].
    - destruct Hx as [e e' d He]. destruct (sort_line i e e' d He) as (node & b & Hl & (t & E) & Hv). rewrite E in Hl. cbn [fst] in Hl.
      eexists (_ :: os), (OnSort node b :: ds). split; [|split; [constructor; [exact Hl|exact H2]|split; [constructor; [exact I|exact H3]|]]].
      + intros before. cbn [printSorts]. rewrite E. cbn [obind fst snd]. rewrite H1. rewrite together_eq, both_assoc. unfold both at 3, text. cbn [obind fst snd]. destruct (together os) as [[u n]|u|]; try reflexivity.
        unfold both. cbn [obind fst snd]. rewrite <- !app_assoc. reflexivity.
      + intros l0. cbn [visitDetails visitDetail]. rewrite Hv, bindR_fine, bindR_fine, H4, <- app_assoc. reflexivity.
  Qed.
  Lemma expressions_read i l l' : ForallAt (ExpressionReads function_name field_name alternative alias find_function find_relation find_field) i l l' ->
    exists os ds, printExpressions function_name field_name alternative alias i l = together os /\ Forall2 (Line p_detail) os ds /\ Forall no_emit ds /\
      (exists nodes, ds = map (fun x => OnExpression (fst x) (snd x)) nodes /\
         ForallAt (fun i node y => snd node = match alternative i with Some _ => None | None => alias i end /\ visit_e i 0 (fst node) = fine y) i nodes l') /\
      forall l0, visit_details i (BProject l0) ds = fine (BProject (l0 ++ l')).
  Proof.
    induction 1 as [i|i x x' l l' Hx _ (os & ds & H1 & H2 & H3 & (nodes & -> & H5) & H4)].
    - exists [], []. repeat split; try constructor; [exists []; split; [reflexivity|constructor]|]. intros. rewrite app_nil_r. reflexivity.
    - destruct (expression_line i x x' Hx) as (node & n & Hl & Hn & Hv). eexists (_ :: os), (OnExpression node n :: _). split; [cbn [printExpressions]; rewrite H1, together_eq; reflexivity|].
      split; [constructor; [exact Hl|exact H2]|]. split; [constructor; [exact I|exact H3]|]. split; [exists ((node, n) :: nodes); split; [reflexivity|constructor; [split; assumption|exact H5]]|]. intros l0. cbn [visitDetails visitDetail]. rewrite Hv, bindR_fine, bindR_fine, H4, <- app_assoc. reflexivity.
  Qed.
  (** * A whole relation *)
  Notation rel_reads := (RelReads function_name field_name emit_name measure_name alternative alias find_function find_relation find_field find_emit columns known_source known_schema).
  Lemma sources_read l : Forall (fun n => Name n /\ known_source n = true) l ->
    exists ds, Forall2 (Line p_detail) (map (fun s => line $"source" (text s)) l) ds /\ Forall no_emit ds /\ length ds = length l /\ ds = map OnSource l /\
      forall i s sc f g p, visit_details i (BRead s sc f g p) ds = fine (BRead (s ++ l) sc f g p).
  Proof.
    induction 1 as [|n l [Hn Hk] _ (ds & H1 & H2 & H3 & H5 & H4)].
    - exists []. repeat split; try constructor. intros. rewrite app_nil_r. reflexivity.
    - exists (OnSource n :: ds). split; [constructor; [|exact H1]|split; [constructor; [exact I|exact H2]|split; [cbn; congruence|split; [cbn [map]; congruence|]]]].
      + exact (name_line p_detail OnSource $"  " $"source" SOURCE n Hn key_source ltac:(discriminate) (fun r => eq_refl)).
      + intros. cbn [visitDetails visitDetail]. rewrite Hk, bindR_fine, H4, <- app_assoc. reflexivity.
  Qed.
  Lemma schemas_read l : Forall (fun n => Name n /\ known_schema n = true) l ->
    exists ds, Forall2 (Line p_detail) (map (fun s => line $"base_schema" (text s)) l) ds /\ Forall no_emit ds /\ length ds = length l /\ ds = map OnSchema l /\
      forall i s sc f g p, visit_details i (BRead s sc f g p) ds = fine (BRead s (sc ++ l) f g p).
  Proof.
    induction 1 as [|n l [Hn Hk] _ (ds & H1 & H2 & H3 & H5 & H4)].
    - exists []. repeat split; try constructor. intros. rewrite app_nil_r. reflexivity.
    - exists (OnSchema n :: ds). split; [constructor; [|exact H1]|split; [constructor; [exact I|exact H2]|split; [cbn; congruence|split; [cbn [map]; congruence|]]]].
      + exact (name_line p_detail OnSchema $"  " $"base_schema" BASE_SCHEMA n Hn key_schema ltac:(discriminate) (fun r => eq_refl)).
      + intros. cbn [visitDetails visitDetail]. rewrite Hk, bindR_fine, H4, <- app_assoc. reflexivity.
  Qed.
  Lemma option_line f key kt i e e' : OptionAt function_name field_name find_function find_relation find_field i 0 e e' -> Cuts any ($"  " ++ key ++ $" ") [(kt, key)] -> kt <> RIGHTBRACE ->
    (forall r, p_detail ((kt, key) :: r) = p_line p_e f r) -> (forall x, no_emit (f x)) ->
    exists os ds, optional (fun e => line key (print_e e)) e = together os /\ Forall2 (Line p_detail) os ds /\ Forall no_emit ds /\
      match e' with Some x => exists node, ds = [f node] /\ visit_e i 0 node = fine x | None => ds = [] end.
  Proof.
    intros H Hk Hr Hp Hn. destruct H as [|e e' He].
    - exists [], []. repeat split; constructor.
    - destruct (expr_line p_detail f $"  " key kt i 0 e e' He Hk Hr Hp) as (node & Hl & Hv). exists [line key (print_e e)], [f node].
      split; [symmetry; apply both_end|]. split; [constructor; [exact Hl|constructor]|]. split; [constructor; [apply Hn|constructor]|]. exists node. split; [reflexivity|exact Hv].
  Qed.
  Lemma join_line i e e' : atpos i 0 e e' -> exists node, Line p_detail (line $"expression" (print_e e)) (OnExpression node None) /\ visit_e i 0 node = fine e'.
  Proof.
    intros H. destruct (expr_text i 0 e e' H) as (t & ts & node & Ht & Hc & Hp & Hv). exists node. split; [|exact Hv].
    exists (($"  " ++ $"expression" ++ $" ") ++ t ++ semicolon_line), ((EXPRESSION, $"expression") :: ts ++ [sc]). split; [unfold line; rewrite Ht; apply three|].
    split; [apply line_cuts; [exact key_expression|exact Hc]|]. split; [discriminate|]. intros k. pose proof (named_expression ts node None Hp I k) as X. cbn [named_tokens] in X. rewrite app_nil_r in X. cbn [app]. rewrite <- app_assoc. exact X.
  Qed.
  Lemma join_type_read t : t <> JUnspecified -> visitRelationJoinType (join_name t) = Ok (t, false).
  Proof. intros H. destruct t; try reflexivity. destruct (H eq_refl). Qed.
  (** The details of a text in which a relation is read, as far as they decide about its columns: schemas, groupings, measures, expressions, emits
      and the names given to columns *)
  Definition Shape (r r' : relation) (ds : list detail) : Prop :=
    match r_body r, r_body r' with
    | BRead sources schemas _ _ _, _ => exists filter, ds = map OnSource sources ++ map OnSchema schemas ++ filter /\ Forall (fun d => match d with OnFilter _ _ => True | _ => False end) filter
    | BAggregate _ _, BAggregate gs ms => exists nodes mls names, ds = map OnGrouping nodes ++ map OnMeasure mls ++ map OnEmit names /\
        ForallAt (fun i node y => exists x, visit_e i 0 node = fine x /\ Grouped columns x y) 0 nodes (concat gs) /\
        ForallAt (fun i ml m => (forall j, 0 < j -> measure_given (firstn j ml) = listed (measure_name (i - length nodes))) /\
          exists s, visitMeasureDetails find_function find_relation find_field i 0 start_building ml = fine s /\ built s = m) (length nodes) mls ms /\
        emits (map OnEmit names) = fine (r_emit r')
    | BProject _, BProject l => exists nodes names, ds = map (fun x => OnExpression (fst x) (snd x)) nodes ++ map OnEmit names /\
        ForallAt (fun i node y => snd node = match alternative i with Some _ => None | None => alias i end /\ visit_e i 0 (fst node) = fine y) 0 nodes l /\
        emits (map OnEmit names) = fine (r_emit r')
    | _, _ => True
    end.
  Lemma printed_body r r' : rel_reads r r' ->
    exists b os ds b0, printBody function_name field_name emit_name measure_name alternative alias r = Some b /\
      both (together (map (fun s => line $"source" (text s)) (sources_of (r_body r)))) (both (together (map (fun s => line $"base_schema" (text s)) (schemas_of (r_body r)))) b) = together os /\
      Forall2 (Line p_detail) os ds /\ empty_body (kind_name (r_body r)) = Some b0 /\
      Shape r r' ds /\
      bindR (visit_details 0 b0 ds) (fun b => bindR (emits ds) (fun e => fine (Some (Relation (finish b) e)))) = fine (Some r').
  Proof.
    intros [sources schemas filter filter' emit Hne Hs Hc Hf|c c' emit Hc|count emit Hz|groupings groups measures measures' emit emit' Hg Hm He|l l' emit Hl|l l' emit emit' Hl He|t e e' emit Ht He|emit]; cbn [r_body sources_of schemas_of r_emit map].
    - destruct (sources_read sources Hs) as (ds1 & A1 & A2 & A3 & A5 & A4). destruct (schemas_read schemas Hc) as (ds2 & B1 & B2 & B3 & B5 & B4).
      destruct (option_line (OnFilter None) $"filter" FILTER _ filter filter' Hf (key_filter $"  " eq_refl) ltac:(discriminate) (fun r => eq_refl) (fun _ => I)) as (os & ds3 & C1 & C2 & C3 & C4).
      eexists _, _, (ds1 ++ ds2 ++ ds3), _. split; [destruct sources; [destruct (Hne eq_refl)|reflexivity]|]. split; [|split; [exact (Forall2_app A1 (Forall2_app B1 C2))|split; [reflexivity|split; [|]]]].
      + rewrite !together_both. f_equal. f_equal. rewrite !together_eq, C1. apply both_end.
      + exists ds3. split; [rewrite A5, B5; reflexivity|]. destruct filter' as [x|]; [destruct C4 as (node & -> & _); repeat constructor|subst ds3; constructor].
      + rewrite (details_app ds1 _ 0 _ _ (A4 0 [] [] None None false)). rewrite (details_app ds2 _ _ _ _ (B4 _ _ [] None None false)). rewrite A3, B3. cbn [app Nat.add].
        assert (X : visit_details (length sources + length schemas) (BRead sources schemas None None false) ds3 = fine (BRead sources schemas filter' None false)).
        { destruct filter' as [x|]; [destruct C4 as (node & -> & Hv)|subst ds3; reflexivity]. cbn [visitDetails]. rewrite (filter_known _ _ _ _ _ Hv). unfold visitFilter. rewrite !bindR_fine. reflexivity. }
        rewrite X, bindR_fine. rewrite !no_emits by assumption. rewrite <- (app_nil_r ds3), no_emits by assumption. cbn [visitEmits]. rewrite bindR_fine. reflexivity.
    - destruct (option_line (OnFilter None) $"filter" FILTER _ c c' Hc (key_filter $"  " eq_refl) ltac:(discriminate) (fun r => eq_refl) (fun _ => I)) as (os & ds3 & C1 & C2 & C3 & C4).
      eexists _, os, ds3, _. split; [reflexivity|]. split; [rewrite C1; unfold together at 1 2; rewrite !both_nil; reflexivity|]. split; [exact C2|]. split; [reflexivity|]. split; [exact I|].
      assert (X : visit_details 0 (BFilter None) ds3 = fine (BFilter c')).
      { destruct c' as [x|]; [destruct C4 as (node & -> & Hv)|subst ds3; reflexivity]. cbn [visitDetails]. rewrite (filter_known _ _ _ _ _ Hv). unfold visitFilter. rewrite !bindR_fine. reflexivity. }
      rewrite X, bindR_fine. rewrite <- (app_nil_r ds3), no_emits by assumption. cbn [visitEmits]. rewrite bindR_fine. reflexivity.
    - eexists _, [_], [OnCount (print_Z count)], _. split; [reflexivity|]. split; [cbn [Z.eqb]; unfold together at 1 2, text at 1; rewrite !both_nil; symmetry; apply both_end|]. split; [constructor; [apply count_line|constructor]|]. split; [reflexivity|]. split; [exact I|].
      cbn [visitDetails visitDetail visitNumber]. rewrite (stol_print count Hz). reflexivity.
    - destruct (groups_read 0 _ _ Hg) as (ds1 & A1 & A2 & A3 & (nodes & A5 & A6) & A4). destruct (measures_read (length groups) (length groups) _ _ (le_n _) Hm) as (os2 & ds2 & B1 & B2 & B3 & (mls & B5 & B6) & B4). rewrite Nat.sub_diag in B1.
      destruct (emits_read emit emit' He) as (os3 & names & C1 & C2 & C3 & C4).
      eexists _, _, (ds1 ++ ds2 ++ map OnEmit names), _. split; [reflexivity|]. split; [|split; [exact (Forall2_app A1 (Forall2_app B2 C2))|split; [reflexivity|split; [|]]]].
      + unfold together at 1 2. rewrite !both_nil. rewrite !together_both, !together_eq, B1. cbn [r_emit]. rewrite C1. change (together []) with (@Ok printed ([], 0)). rewrite both_end. reflexivity.
      + cbn [Shape r_body r_emit concat]. rewrite app_nil_r. exists nodes, mls, names. assert (L : length nodes = length groups) by (rewrite <- A3, A5, map_length; reflexivity). rewrite L. rewrite A5, B5. split; [reflexivity|]. split; [exact A6|]. split; [exact B6|exact C3].
      + rewrite (details_app ds1 _ 0 _ _ (A4 [] [])). rewrite A3. cbn [app Nat.add]. rewrite (details_app ds2 _ _ _ _ (B4 _ [])), C4, bindR_fine, !no_emits, C3, bindR_fine by assumption. destruct groups; reflexivity.
    - destruct (sorts_read 0 _ _ Hl) as (os & ds & H1 & H2 & H3 & H4). eexists _, os, ds, _. split; [reflexivity|]. split; [rewrite H1; unfold together at 1 2, text; rewrite !both_nil; reflexivity|]. split; [exact H2|]. split; [reflexivity|]. split; [exact I|].
      rewrite (H4 []), bindR_fine. rewrite <- (app_nil_r ds), no_emits by assumption. cbn [visitEmits]. rewrite bindR_fine. reflexivity.
    - destruct (expressions_read 0 _ _ Hl) as (os & ds & H1 & H2 & H3 & (nodes & H5 & H6) & H4). destruct (emits_read emit emit' He) as (os3 & names & C1 & C2 & C3 & C4).
      eexists _, _, (ds ++ map OnEmit names), _. split; [reflexivity|]. split; [|split; [exact (Forall2_app H2 C2)|split; [reflexivity|split; [|]]]].
      + unfold together at 1 2. rewrite !both_nil. rewrite together_both, H1. cbn [r_emit]. rewrite C1. reflexivity.
      + exists nodes, names. rewrite H5. split; [reflexivity|]. split; [exact H6|exact C3].
      + rewrite (details_app ds _ 0 _ _ (H4 [])), C4, bindR_fine, no_emits, C3, bindR_fine by assumption. reflexivity.
    - assert (L : Line p_detail (line $"type" (text (join_name t))) (OnType (join_name t))) by exact (name_line p_detail OnType $"  " $"type" TYPE _ (join_Name t) key_type ltac:(discriminate) (fun r => eq_refl)).
      destruct He as [|e e' He].
      + eexists _, [_], [_], _. split; [reflexivity|]. split; [|split; [constructor; [exact L|constructor]|split; [reflexivity|split; [exact I|]]]].
        * unfold together at 1 2. rewrite !both_nil. rewrite !together_eq. cbn [optional]. unfold text at 2 3. rewrite !both_nil. reflexivity.
        * cbn [visitDetails visitDetail empty_body kind_name]. cbn. rewrite (join_type_read t Ht). reflexivity.
      + destruct (join_line 1 e e' He) as (node & Hl & Hv). eexists _, [_; _], [_; _], _. split; [reflexivity|]. split; [|split; [constructor; [exact L|constructor; [exact Hl|constructor]]|split; [reflexivity|split; [exact I|]]]].
        * unfold together at 1 2. rewrite !both_nil. rewrite !together_eq. cbn [optional]. unfold text at 2. rewrite !both_nil. reflexivity.
        * cbn [visitDetails visitDetail]. rewrite (join_type_read t Ht). change (said RJoinType (Ok (t, false))) with (fine t). rewrite !bindR_fine, Hv, !bindR_fine. reflexivity.
    - eexists _, [], [], _. split; [reflexivity|]. split; [reflexivity|]. split; [constructor|]. split; [reflexivity|]. split; [exact I|reflexivity].
  Qed.
  Lemma kind_Name r r' : rel_reads r r' -> Name (kind_name (r_body r)).
  Proof. intros H. apply read_name_iff. destruct H; vm_compute; reflexivity. Qed.
  Lemma relation_header k n : Name k -> Name n -> Cuts any (k ++ $" relation " ++ n ++ $" {" ++ [lf]) (name_tokens k ++ (RELATION, $"relation") :: name_tokens n ++ [(LEFTBRACE, $"{")]).
  Proof.
    intros Hk Hn. eapply cuts_app; [apply cuts_name, Hk| |]; [|intros r _; split; [reflexivity|discriminate]].
    change ($" relation " ++ n ++ $" {" ++ [lf]) with (($" " ++ $"relation" ++ $" ") ++ n ++ $" {" ++ [lf]). apply (cuts_any any _ _ [(RELATION, $"relation")]); [exact key_relation|].
    eapply cuts_app; [apply cuts_name, Hn| |]; [|intros r _; split; [reflexivity|discriminate]].
    change ($" {" ++ [lf]) with ($" " ++ $"{" ++ [lf]). apply (cuts_any any $" " _ [] [(LEFTBRACE, $"{")]); [exact cuts_space|]. apply (cuts_any any $"{" [lf] [(LEFTBRACE, $"{")] []); [exact cuts_lbrace|apply cuts_blank; reflexivity].
  Qed.
  Lemma header_parse K name rest : Name K -> Name name -> p_relation ((name_tokens K ++ (RELATION, $"relation") :: name_tokens name ++ [(LEFTBRACE, $"{")]) ++ rest) =
    match p_many p_detail (length rest) rest with Some (l, r) => Some (RNode K name l, r) | None => None end.
  Proof.
    intros Hk Hn. unfold p_relation. set (inner := (LEFTBRACE, $"{") :: rest).
    assert (E : (name_tokens K ++ (RELATION, $"relation") :: name_tokens name ++ [(LEFTBRACE, $"{")]) ++ rest = visible (pieces Default K) ++ (RELATION, $"relation") :: visible (pieces Default name) ++ inner).
    { unfold inner, name_tokens. rewrite <- !app_assoc. cbn [app]. rewrite <- !app_assoc. reflexivity. }
    pose proof (name_read K ((RELATION, $"relation") :: visible (pieces Default name) ++ inner) Hk ltac:(discriminate)) as N1. pose proof (name_read name inner Hn ltac:(discriminate)) as N2.
    unfold token in *. rewrite E, N1. cbn [t_relation]. unfold p_ref. unfold token in *. rewrite N2. reflexivity.
  Qed.
  (** A text with these lines is a relation with these details *)
  Lemma relation_text name r b os ds : Name (kind_name (r_body r)) -> Name name -> printBody function_name field_name emit_name measure_name alternative alias r = Some b ->
    both (together (map (fun s => line $"source" (text s)) (sources_of (r_body r)))) (both (together (map (fun s => line $"base_schema" (text s)) (schemas_of (r_body r)))) b) = together os ->
    Forall2 (Line p_detail) os ds ->
    exists t ts, printRelation function_name field_name emit_name measure_name alternative alias name r = Ok (t, 0) /\ Cuts any t ts /\ forall k, p_relation (ts ++ k) = Some (RNode (kind_name (r_body r)) name ds, k).
  Proof.
    intros Hk Hn H1 H2 H3. destruct (lines_end p_detail os ds H3) as (t & ts & Et & Hc & Hp).
    exists ((kind_name (r_body r) ++ $" relation " ++ name ++ $" {" ++ [lf]) ++ t ++ $"}" ++ [lf]), ((name_tokens (kind_name (r_body r)) ++ (RELATION, $"relation") :: name_tokens name ++ [(LEFTBRACE, $"{")]) ++ ts ++ [rb]).
    split; [|split].
    - unfold printRelation. rewrite H1, !together_eq. change (together []) with (@Ok printed ([], 0)). rewrite both_end. rewrite Et in H2.
      assert (X : forall x y z w, both x (both y (both z w)) = both (both x (both y z)) w) by (intros; rewrite !both_assoc; reflexivity). rewrite (X (together (map _ (sources_of _)))), H2. reflexivity.
    - apply cuts_any; [apply relation_header; assumption|]. apply cuts_any; [exact Hc|exact (close_cuts [] eq_refl)].
    - intros k. pose proof (header_parse (kind_name (r_body r)) name (ts ++ rb :: k) Hk Hn) as X. unfold token in *. rewrite <- app_assoc, <- (app_assoc ts). cbn [app]. rewrite X, Hp; [reflexivity|]. rewrite app_length. lia.
  Qed.
  (** A relation in a text that goes on: what is printed can be cut anywhere after it, is read, and means [r'] *)
  Lemma relation_shape name r r' : Name name -> rel_reads r r' ->
    exists t ts node, printRelation function_name field_name emit_name measure_name alternative alias name r = Ok (t, 0) /\ Cuts any t ts /\ (forall k, p_relation (ts ++ k) = Some (node, k)) /\
      n_kind node = kind_name (r_body r) /\ n_name node = name /\ Shape r r' (n_details node) /\ visitRelation find_function find_relation find_field find_emit columns known_source known_schema node = Ok (Some r', []).
  Proof.
    intros Hn H. destruct (printed_body r r' H) as (b & os & ds & b0 & H1 & H2 & H3 & H4 & HS & H5). destruct (relation_text name r b os ds (kind_Name r r' H) Hn H1 H2 H3) as (t & ts & Ht & Hc & Hp).
    exists t, ts, (RNode (kind_name (r_body r)) name ds). repeat (split; [first [assumption|reflexivity]|]). unfold visitRelation. cbn [n_kind n_details]. rewrite H4. exact H5.
  Qed.
  Lemma relation_reads name r r' : Name name -> rel_reads r r' ->
    exists t ts node, printRelation function_name field_name emit_name measure_name alternative alias name r = Ok (t, 0) /\ Cuts any t ts /\ (forall k, p_relation (ts ++ k) = Some (node, k)) /\
      n_kind node = kind_name (r_body r) /\ n_name node = name /\ visitRelation find_function find_relation find_field find_emit columns known_source known_schema node = Ok (Some r', []).
  Proof. intros Hn H. destruct (relation_shape name r r' Hn H) as (t & ts & node & Ht & Hc & Hp & Hk & Hm & _ & Hv). exists t, ts, node. repeat (split; [assumption|]). exact Hv. Qed.
  Lemma relation_roundtrip name r r' : Name name -> rel_reads r r' ->
    exists t, printRelation function_name field_name emit_name measure_name alternative alias name r = Ok (t, 0) /\
      readRelation find_function find_relation find_field find_emit columns known_source known_schema t = Some (name, Ok (Some r', [])).
  Proof.
    intros Hn H. destruct (relation_reads name r r' Hn H) as (t & ts & node & Ht & Hc & Hp & Hk & Hm & Hv). exists t. split; [exact Ht|].
    unfold readRelation. rewrite (cuts_tokens any t ts Hc I). specialize (Hp []). rewrite app_nil_r in Hp. rewrite Hp, Hm, Hv. reflexivity.
  Qed.
  (** * What goes wrong *)
  Lemma two_filters name sources schemas e1 e1' e2 e2' emit : Name name -> sources <> [] -> Forall (fun n => Name n /\ known_source n = true) sources -> Forall (fun n => Name n /\ known_schema n = true) schemas ->
    atpos (length sources + length schemas) 0 e1 e1' -> atpos (S (length sources + length schemas)) 0 e2 e2' ->
    exists t, printRelation function_name field_name emit_name measure_name alternative alias name (Relation (BRead sources schemas (Some e1) (Some e2) false) emit) = Ok (t, 0) /\
      readRelation find_function find_relation find_field find_emit columns known_source known_schema t = Some (name, Ok (Some (Relation (BRead sources schemas (Some e1') None false) []), [RFilterTwice])).
  Proof.
    intros Hn Hne Hs Hc H1 H2. destruct (sources_read sources Hs) as (ds1 & A1 & A2 & A3 & A5 & A4). destruct (schemas_read schemas Hc) as (ds2 & B1 & B2 & B3 & B5 & B4).
    destruct (expr_line p_detail (OnFilter None) $"  " $"filter" FILTER _ 0 e1 e1' H1 (key_filter $"  " eq_refl) ltac:(discriminate) (fun r => eq_refl)) as (n1 & L1 & V1).
    destruct (expr_line p_detail (OnFilter None) $"  " $"filter" FILTER _ 0 e2 e2' H2 (key_filter $"  " eq_refl) ltac:(discriminate) (fun r => eq_refl)) as (n2 & L2 & V2).
    set (r := Relation (BRead sources schemas (Some e1) (Some e2) false) emit).
    destruct (relation_text name r (together [line $"filter" (print_e e1); line $"filter" (print_e e2); text []])
      (map (fun s => line $"source" (text s)) sources ++ map (fun s => line $"base_schema" (text s)) schemas ++ [line $"filter" (print_e e1); line $"filter" (print_e e2)])
      (ds1 ++ ds2 ++ [OnFilter None n1; OnFilter None n2]) ltac:(apply read_name_iff; vm_compute; reflexivity) Hn) as (t & ts & Ht & Hcu & Hp).
    - unfold printBody, r. cbn [r_body]. destruct sources; [destruct (Hne eq_refl)|reflexivity].
    - cbn [r r_body sources_of schemas_of]. rewrite !together_both. reflexivity.
    - apply Forall2_app; [exact A1|]. apply Forall2_app; [exact B1|]. constructor; [exact L1|]. constructor; [exact L2|constructor].
    - exists t. split; [exact Ht|]. unfold readRelation. rewrite (cuts_tokens any t ts Hcu I). specialize (Hp []). rewrite app_nil_r in Hp. rewrite Hp. cbn [n_name]. f_equal. f_equal.
      unfold visitRelation. cbn [n_kind n_details r r_body kind_name]. change (empty_body $"read") with (Some (BRead [] [] None None false)). cbv iota.
      rewrite (details_app ds1 _ 0 _ _ (A4 0 [] [] None None false)). rewrite (details_app ds2 _ _ _ _ (B4 _ _ [] None None false)). rewrite A3, B3. cbn [app Nat.add].
      cbn [visitDetails]. rewrite (filter_known _ _ _ _ _ V1). unfold visitFilter at 1. rewrite !bindR_fine, (filter_known _ _ _ _ _ V2). unfold visitFilter. rewrite !bindR_fine. rewrite !no_emits by assumption. reflexivity.
  Qed.
  Lemma key_offset : Cuts any ($"  " ++ $"offset" ++ $" ") [(IDENTIFIER, $"offset")]. Proof. key. Qed.
  Lemma offset_unread name offset count emit : Name name -> offset <> 0%Z ->
    exists t, printRelation function_name field_name emit_name measure_name alternative alias name (Relation (BFetch offset count) emit) = Ok (t, 0) /\
      readRelation find_function find_relation find_field find_emit columns known_source known_schema t = None.
  Proof.
    intros Hn Ho. destruct (count_line count) as (t & ts & Ht & Hc & _ & _).
    assert (Hf : Name $"fetch") by (apply read_name_iff; vm_compute; reflexivity).
    set (o := ($"  " ++ $"offset" ++ $" ") ++ print_Z offset ++ semicolon_line).
    exists (($"fetch" ++ $" relation " ++ name ++ $" {" ++ [lf]) ++ o ++ t ++ $"}" ++ [lf]). split.
    - unfold printRelation, printBody. cbn [r_body kind_name sources_of schemas_of map]. replace (offset =? 0)%Z with false by lia. rewrite Ht. unfold line. rewrite !together_eq. change (together []) with (@Ok printed ([], 0)). rewrite !both_end, !both_nil.
      unfold both, text, o. cbn [obind fst snd]. rewrite <- !app_assoc. reflexivity.
    - assert (X : Cuts any o ((IDENTIFIER, $"offset") :: [(NUMBER, print_Z offset)] ++ [sc])).
      { apply (cuts_any any _ _ [(IDENTIFIER, $"offset")] ([(NUMBER, print_Z offset)] ++ [sc])); [exact key_offset|]. eapply cuts_app; [apply cuts_number, print_Z_number|exact cuts_end|]. intros r _. cbn. repeat split; discriminate. }
      clearbody o. pose proof (cuts_any any _ _ _ _ (relation_header _ name Hf Hn) (cuts_any any _ _ _ _ X (cuts_any any _ _ _ _ Hc (close_cuts [] eq_refl)))) as Y. cbn [app] in Y. unfold readRelation. rewrite (cuts_tokens any _ _ Y I).
      match goal with |- context [p_relation ?x] => assert (Z : p_relation x = None) end; [|rewrite Z; reflexivity]. rewrite header_parse by assumption. reflexivity.
  Qed.
  (** Sources and schemas that are not known *)
  Lemma unknown_read name sources schemas emit : Name name -> sources <> [] -> Forall Name sources -> Forall Name schemas ->
    exists t, printRelation function_name field_name emit_name measure_name alternative alias name (Relation (BRead sources schemas None None false) emit) = Ok (t, 0) /\
      readRelation find_function find_relation find_field find_emit columns known_source known_schema t =
        Some (name, Ok (Some (Relation (BRead (filter known_source sources) (filter known_schema schemas) None None false) []), [])).
  Proof.
    intros Hn Hne Hs Hc. set (r := Relation (BRead sources schemas None None false) emit).
    destruct (relation_text name r (together [text []; text []; text []]) (map (fun s => line $"source" (text s)) sources ++ map (fun s => line $"base_schema" (text s)) schemas)
      (map OnSource sources ++ map OnSchema schemas) ltac:(apply read_name_iff; vm_compute; reflexivity) Hn) as (t & ts & Ht & Hcu & Hp).
    - unfold printBody, r. cbn [r_body]. destruct sources; [destruct (Hne eq_refl)|reflexivity].
    - cbn [r r_body sources_of schemas_of]. rewrite !together_both. f_equal. apply both_end.
    - apply Forall2_app; [clear - Hs; induction Hs|clear - Hc; induction Hc]; constructor; try assumption.
      + exact (name_line p_detail OnSource $"  " $"source" SOURCE x H key_source ltac:(discriminate) (fun r => eq_refl)).
      + exact (name_line p_detail OnSchema $"  " $"base_schema" BASE_SCHEMA x H key_schema ltac:(discriminate) (fun r => eq_refl)).
    - exists t. split; [exact Ht|]. unfold readRelation. rewrite (cuts_tokens any t ts Hcu I). specialize (Hp []). rewrite app_nil_r in Hp. rewrite Hp. cbn [n_name]. f_equal. f_equal.
      unfold visitRelation. cbn [n_kind n_details r r_body kind_name]. change (empty_body $"read") with (Some (BRead [] [] None None false)). cbv iota.
      assert (A : forall i s, visit_details i (BRead s [] None None false) (map OnSource sources) = fine (BRead (s ++ filter known_source sources) [] None None false)).
      { clear. induction sources as [|x l IH]; intros i s; [cbn; rewrite app_nil_r; reflexivity|]. cbn [map visitDetails visitDetail filter]. rewrite bindR_fine. destruct (known_source x); rewrite IH; [rewrite <- app_assoc|]; reflexivity. }
      assert (B : forall i s c, visit_details i (BRead s c None None false) (map OnSchema schemas) = fine (BRead s (c ++ filter known_schema schemas) None None false)).
      { clear. induction schemas as [|x l IH]; intros i s c; [cbn; rewrite app_nil_r; reflexivity|]. cbn [map visitDetails visitDetail filter]. rewrite bindR_fine. destruct (known_schema x); rewrite IH; [rewrite <- app_assoc|]; reflexivity. }
      rewrite (details_app _ _ 0 _ _ (A 0 [])), B, bindR_fine. rewrite no_emits by (clear; induction sources; constructor; [exact I|assumption]). rewrite <- (app_nil_r (map OnSchema schemas)), no_emits by (clear; induction schemas; constructor; [exact I|assumption]). reflexivity.
  Qed.
  (** Grouping by a column whose number is too large *)
  Lemma group_out_of_bounds name e f c root emit : Name name -> atpos 0 0 e (ESel (SegField f c) root) -> (f < 0 \/ Z.of_nat columns <= f)%Z -> emit = [] ->
    exists t, printRelation function_name field_name emit_name measure_name alternative alias name (Relation (BAggregate [[e]] []) emit) = Ok (t, 0) /\
      readRelation find_function find_relation find_field find_emit columns known_source known_schema t = Some (name, UB).
  Proof.
    intros Hn He Hf ->. set (r := Relation (BAggregate [[e]] []) []).
    destruct (expr_line p_detail OnGrouping $"  " $"grouping" GROUPING 0 0 e _ He key_grouping ltac:(discriminate) ltac:(reflexivity)) as (node & Hl & Hv).
    destruct (relation_text name r (together [together [line $"grouping" (print_e e)]; text []; text []]) [line $"grouping" (print_e e)]
      [OnGrouping node] ltac:(apply read_name_iff; vm_compute; reflexivity) Hn eq_refl) as (t & ts & Ht & Hcu & Hp).
    - cbn [r r_body sources_of schemas_of map]. unfold together at 1 2. rewrite !both_nil. rewrite together_eq. apply both_end.
    - constructor; [exact Hl|constructor].
    - exists t. split; [exact Ht|]. unfold readRelation. rewrite (cuts_tokens any t ts Hcu I). specialize (Hp []). rewrite app_nil_r in Hp. rewrite Hp. cbn [n_name]. f_equal. f_equal.
      unfold visitRelation. cbn [n_kind n_details r r_body kind_name]. change (empty_body $"aggregate") with (Some (BAggregate [] [])). cbv iota. cbn [visitDetails visitDetail]. rewrite Hv, bindR_fine. cbn [grouped].
      replace ((0 <=? f)%Z && (f <? Z.of_nat columns)%Z) with false by lia. reflexivity.
  Qed.
End Proofs.
