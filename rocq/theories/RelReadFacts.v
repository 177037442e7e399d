(** What a relation in a text says, and when nothing is reported about it. *)
From Verif Require Import Base BaseFacts StringsModel StringsFacts EnumModel TypeModel ExprModel RelModel RelFacts.
From Coq Require Import Lia ZifyBool ZifyNat.

(** * Specification *)
(** What a single detail says *)
Inductive item :=
| IsNothing | IsSource (n : str) | IsSchema (n : str) | IsFilter (x : expr) | IsBestEffort (x : expr) | IsPostJoin (x : expr) | IsExpression (x : expr)
| IsGrouping (x : expr) | IsMeasure (m : measure) | IsSort (s : sort) | IsCount (z : Z) | IsType (t : join_type).
(** only the letters and digits of the text before FILTER count *)
Definition behaves (s word : str) : Prop := forallb ascii7 s = true /\ filter (fun c => is_alpha c || is_digit c) (to_lower s) = word.
Definition at_most_one {A} (l : list A) : Prop := length l <= 1.
Section Says.
  Variables (find_function : str -> option N) (find_relation : str -> option bool) (find_field : nat -> nat -> str -> option (N * Z)) (find_emit : str -> N * Z * bool) (columns : nat) (known_source known_schema : str -> bool).
  (** An expression that is read without a report *)
  Definition reads (i j : nat) (e : enode) (x : expr) : Prop := visitE find_function find_relation find_field i j e = Ok (x, []).
  Inductive SortSays (i j : nat) : enode -> option str -> sort -> Prop :=
  | SS_no e x : reads i j e x -> SortSays i j e None (x, SortUnset)
  | SS_by e t x d : reads i j e x -> visitSortDirection t = Ok (d, false) -> SortSays i j e (Some t) (x, SortDirection d).
  (** What a measure is, detail by detail *)
  Inductive mitem := IsFunction (f : aggregate_function) | IsCondition (x : expr) | IsInvocation (v : invocation) | IsOrder (s : sort).
  Inductive MeasureItem (i j : nat) : mdetail -> mitem -> Prop :=
  | MI_function e ty ids f args deprecated options t t' ph :
      reads i j e (EFun f args deprecated options t) ->                             (* it is a call of a function *)
      match ty with Some s => read_type false s = Ok (t', []) | None => t' = t end ->  (* the type after the arrow wins *)
      match ids with n :: _ => visitAggregationPhase n = Ok (ph, false) | [] => ph = PUnspecified end ->
      MeasureItem i j (MMeasure e ty ids) (IsFunction (AF f args [] options t' ph IUnspecified []))
  | MI_condition e x : reads i j e x -> MeasureItem i j (MFilter e) (IsCondition x)
  | MI_invocation n v : visitAggregationInvocation n = Ok (v, false) -> MeasureItem i j (MInvocation n) (IsInvocation v)
  | MI_order e b s : SortSays i j e b s -> MeasureItem i j (MSort e b) (IsOrder s).
  Definition functions (l : list mitem) := flat_map (fun x => match x with IsFunction f => [f] | _ => [] end) l.
  Definition conditions (l : list mitem) := flat_map (fun x => match x with IsCondition f => [f] | _ => [] end) l.
  Definition invocations (l : list mitem) := flat_map (fun x => match x with IsInvocation f => [f] | _ => [] end) l.
  Definition orders (l : list mitem) := flat_map (fun x => match x with IsOrder f => [f] | _ => [] end) l.
  (** the function with how it is invoked and sorted; there is one if something is said about it *)
  Inductive Function : option aggregate_function -> invocation -> list sort -> option aggregate_function -> Prop :=
  | FN_none : Function None IUnspecified [] None
  | FN_nothing v l : v <> IUnspecified \/ l <> [] -> Function None v l (Some (AF 0 [] [] [] PtNone PUnspecified v l))
  | FN_function f args options t ph v l : Function (Some (AF f args [] options t ph IUnspecified [])) v l (Some (AF f args [] options t ph v l)).
  Inductive MeasureSays (i : nat) : list mdetail -> measure -> Prop :=
  | MS l items f : ForallAt (fun j => MeasureItem i j) 0 l items -> at_most_one (functions items) -> at_most_one (conditions items) ->
      Function (hd_error (functions items)) (last (invocations items) IUnspecified) (orders items) f -> MeasureSays i l (Measure f (hd_error (conditions items))).
  (** A column that is grouped by is a column of the input *)
  Inductive GroupSays : expr -> expr -> Prop :=
  | GS_column f c r : (0 <= f < Z.of_nat columns)%Z -> GroupSays (ESel (SegField f c) r) (ESel (SegField f c) RootRef)
  | GS_segment s r : (forall f c, s <> SegField f c) -> GroupSays (ESel s r) (ESel s RootRef)
  | GS_masked r : GroupSays (EMasked r) (EMasked RootRef)
  | GS_none r : GroupSays (ESelNone r) (ESelNone RootRef)
  | GS_other x : (forall s r, x <> ESel s r) -> (forall r, x <> EMasked r) -> (forall r, x <> ESelNone r) -> GroupSays x x.
  Inductive ItemSays (i : nat) : detail -> item -> Prop :=
  | IS_common : ItemSays i OnCommon IsNothing
  | IS_advanced : ItemSays i OnAdvanced IsNothing
  | IS_emit c : ItemSays i (OnEmit c) IsNothing                   (* see below *)
  | IS_source n : ItemSays i (OnSource n) (IsSource n)
  | IS_schema n : ItemSays i (OnSchema n) (IsSchema n)
  | IS_filter e x : reads i 0 e x -> ItemSays i (OnFilter None e) (IsFilter x)
  | IS_best s e x : behaves s $"besteffort" -> reads i 0 e x -> ItemSays i (OnFilter (Some s) e) (IsBestEffort x)
  | IS_post s e x : behaves s $"postjoin" -> reads i 0 e x -> ItemSays i (OnFilter (Some s) e) (IsPostJoin x)
  | IS_expression e n x : reads i 0 e x -> ItemSays i (OnExpression e n) (IsExpression x)
  | IS_grouping e x y : reads i 0 e x -> GroupSays x y -> ItemSays i (OnGrouping e) (IsGrouping y)
  | IS_measure l m : MeasureSays i l m -> ItemSays i (OnMeasure l) (IsMeasure m)
  | IS_sort e b s : SortSays i 0 e b s -> ItemSays i (OnSort e b) (IsSort s)
  | IS_count t z : stol t = Ok z -> ItemSays i (OnCount t) (IsCount z)
  | IS_type n t : visitRelationJoinType n = Ok (t, false) -> ItemSays i (OnType n) (IsType t).
  Definition sources (l : list item) := flat_map (fun x => match x with IsSource n => [n] | _ => [] end) l.
  Definition schemas (l : list item) := flat_map (fun x => match x with IsSchema n => [n] | _ => [] end) l.
  Definition filters (l : list item) := flat_map (fun x => match x with IsFilter e => [e] | _ => [] end) l.
  Definition best_efforts (l : list item) := flat_map (fun x => match x with IsBestEffort e => [e] | _ => [] end) l.
  Definition post_joins (l : list item) := flat_map (fun x => match x with IsPostJoin e => [e] | _ => [] end) l.
  Definition expressions (l : list item) := flat_map (fun x => match x with IsExpression e => [e] | _ => [] end) l.
  Definition groupings (l : list item) := flat_map (fun x => match x with IsGrouping e => [e] | _ => [] end) l.
  Definition measures (l : list item) := flat_map (fun x => match x with IsMeasure e => [e] | _ => [] end) l.
  Definition sorts (l : list item) := flat_map (fun x => match x with IsSort e => [e] | _ => [] end) l.
  Definition counts (l : list item) := flat_map (fun x => match x with IsCount e => [e] | _ => [] end) l.
  Definition types (l : list item) := flat_map (fun x => match x with IsType e => [e] | _ => [] end) l.
  (** What belongs to relations of a kind *)
  Definition belongs (kind : str) (x : item) : Prop :=
    match x with
    | IsNothing => True
    | IsSource _ | IsSchema _ | IsBestEffort _ => kind = $"read"
    | IsFilter _ => kind = $"read" \/ kind = $"filter"
    | IsPostJoin _ | IsType _ => kind = $"join"
    | IsExpression _ => kind = $"join" \/ kind = $"project"
    | IsGrouping _ | IsMeasure _ => kind = $"aggregate"
    | IsSort _ => kind = $"sort"
    | IsCount _ => kind = $"fetch"
    end.
  (** What a relation of a kind is made of *)
  Inductive Assembled : str -> list item -> body -> Prop :=
  | AS_read l : at_most_one (filters l) -> at_most_one (best_efforts l) ->
      Assembled $"read" l (BRead (filter known_source (sources l)) (filter known_schema (schemas l)) (hd_error (filters l)) (hd_error (best_efforts l)) false)
  | AS_filter l : at_most_one (filters l) -> Assembled $"filter" l (BFilter (hd_error (filters l)))
  | AS_fetch l : Assembled $"fetch" l (BFetch 0 (last (counts l) 0%Z))
  | AS_aggregate l : Assembled $"aggregate" l (BAggregate [groupings l] (measures l))
  | AS_sort l : Assembled $"sort" l (BSort (sorts l))
  | AS_project l : Assembled $"project" l (BProject (expressions l))
  | AS_join l : at_most_one (expressions l) -> at_most_one (post_joins l) -> Assembled $"join" l (BJoin (last (types l) JUnspecified) (hd_error (expressions l)) (hd_error (post_joins l)))
  | AS_cross l : Assembled $"cross" l BCross
  | AS_set l : Assembled $"set" l (BOther $"set").
  Definition emit_columns (l : list detail) := flat_map (fun d => match d with OnEmit c => [c] | _ => [] end) l.
  (** The relation that a text says, if there is nothing to report *)
  Inductive RelationSays (n : rnode) : relation -> Prop :=
  | RS items b e : ForallAt ItemSays 0 (n_details n) items -> Forall (belongs (to_lower (n_kind n))) items -> Assembled (to_lower (n_kind n)) items b ->
      Forall2 (fun c z => find_emit c = (0%N, z, false)) (emit_columns (n_details n)) e -> RelationSays n (Relation b e).
End Says.

(** * Proofs *)
Lemma bindR_clean {A B} (x : visited A) (f : A -> visited B) b : bindR x f = Ok (b, []) <-> exists a, x = Ok (a, []) /\ f a = Ok (b, []).
Proof.
  unfold bindR. split.
  - destruct x as [[a e]| |]; cbn [obind fst snd]; try discriminate. destruct (f a) as [[b' e']| |] eqn:E; cbn [obind fst snd]; try discriminate. intros H. injection H as <- H. apply app_eq_nil in H as [-> ->]. eauto.
  - intros (a & -> & E). cbn [obind fst snd]. rewrite E. reflexivity.
Qed.
Lemma said_clean {A} e (x : outcome (parsed A)) a : said e x = Ok (a, []) <-> x = Ok (a, false).
Proof. unfold said. destruct x as [[y [|]]| |]; cbn [obind fst snd]; split; intros H; try discriminate; injection H as <-; reflexivity. Qed.
Lemma lift_clean {A} (x : evaluated A) a : lift x = Ok (a, []) <-> x = Ok (a, []).
Proof. unfold lift. destruct x as [[y [|e l]]| |]; cbn [obind fst snd map]; split; intros H; try discriminate; injection H as <-; reflexivity. Qed.
Lemma fine_clean {A} (a b : A) : fine a = Ok (b, []) <-> a = b.
Proof. unfold fine. split; [intros H; injection H as ->; reflexivity|intros ->; reflexivity]. Qed.
Lemma fine_inj {A} (a b : A) : fine a = Ok (b, []) -> a = b.
Proof. apply fine_clean. Qed.
Section Proofs.
  Variables (find_function : str -> option N) (find_relation : str -> option bool) (find_field : nat -> nat -> str -> option (N * Z)) (find_emit : str -> N * Z * bool) (columns : nat) (known_source known_schema : str -> bool).
  Notation reads := (reads find_function find_relation find_field).
  Notation SortSays := (SortSays find_function find_relation find_field).
  Notation MeasureItem := (MeasureItem find_function find_relation find_field).
  Notation MeasureSays := (MeasureSays find_function find_relation find_field).
  Notation GroupSays := (GroupSays columns).
  Notation ItemSays := (ItemSays find_function find_relation find_field columns).
  Notation Assembled := (Assembled known_source known_schema).
  Notation RelationSays := (RelationSays find_function find_relation find_field find_emit columns known_source known_schema).
  Lemma sort_iff i j e b s : visitSort find_function find_relation find_field i j e b = Ok (s, []) <-> SortSays i j e b s.
  Proof.
    unfold visitSort. rewrite bindR_clean. split.
    - intros (x & H1 & H). rewrite bindR_clean in H. destruct H as (d & H2 & H). rewrite said_clean in H2. rewrite fine_clean in H. subst s. destruct b as [t|].
      + cbn [visitSort_field] in H2. destruct (visitSortDirection t) as [[d' f]| |] eqn:E; cbn in H2; try discriminate. injection H2 as <- ->. constructor; assumption.
      + cbn in H2. injection H2 as <-. constructor. exact H1.
    - intros H. destruct H as [e x H|e t x d H E]; exists x; (split; [exact H|]); apply bindR_clean.
      + exists None. split; [reflexivity|reflexivity].
      + exists (Some d). split; [|reflexivity]. apply said_clean. cbn [visitSort_field]. rewrite E. reflexivity.
  Qed.
  Lemma measure_function_iff i j e ty ids f : visitMeasure find_function find_relation find_field i j e ty ids = Ok (f, []) <-> MeasureItem i j (MMeasure e ty ids) (IsFunction f).
  Proof.
    unfold visitMeasure. rewrite bindR_clean. split.
    - intros (x & H1 & H). destruct x; try (destruct ids; discriminate). rewrite bindR_clean in H. destruct H as (t' & H2 & H). rewrite bindR_clean in H. destruct H as (ph & H3 & H). rewrite fine_clean in H. subst f.
      apply (MI_function _ _ _ i j e ty ids ref args deprecated options ty0 t' ph H1).
      + destruct ty as [s|]; [apply lift_clean; exact H2|]. apply fine_inj in H2. congruence.
      + destruct ids as [|n ids]; [apply fine_inj in H3; congruence|]. apply said_clean in H3. exact H3.
    - intros H. inversion H as [? ? ? g args dep opts t t' ph H1 H2 H3| | |]. subst. exists (EFun g args dep opts t). split; [exact H1|]. apply bindR_clean. exists t'. split; [destruct ty; [apply lift_clean; exact H2|subst t'; reflexivity]|].
      apply bindR_clean. exists ph. split; [|reflexivity]. destruct ids; [subst ph; reflexivity|apply said_clean; exact H3].
  Qed.
  (** the building so far, and what comes *)
  Definition upto {A} (o : option A) (l : list A) : Prop := match o with Some _ => l = [] | None => length l <= 1 end.
  Definition and_then {A} (o : option A) (l : list A) : option A := match o with Some a => Some a | None => hd_error l end.
  Lemma last_cons {A} (l : list A) a d : last (a :: l) d = last l a.
  Proof. revert a d. induction l as [|b l IH]; intros a d; [reflexivity|]. change (last (a :: b :: l) d) with (last (b :: l) d). rewrite IH, (IH b a). reflexivity. Qed.
  Lemma details_iff i l : forall j s s', visitMeasureDetails find_function find_relation find_field i j s l = Ok (s', []) <->
    exists items, ForallAt (fun j => MeasureItem i j) j l items /\ upto (b_function s) (functions items) /\ upto (b_filter s) (conditions items) /\
      s' = Building (and_then (b_function s) (functions items)) (and_then (b_filter s) (conditions items)) (last (invocations items) (b_invocation s)) (b_sorts s ++ orders items).
  Proof.
    induction l as [|d l IH]; intros j s s'.
    - cbn [visitMeasureDetails]. rewrite fine_clean. split.
      + intros <-. exists []. split; [constructor|]. destruct s as [[f|] [c|] v o]; cbn; rewrite app_nil_r; auto.
      + intros (items & H & _ & _ & ->). inversion H. destruct s as [[f|] [c|] v o]; cbn; rewrite app_nil_r; reflexivity.
    - destruct d as [e ty ids|e|n|e b]; cbn [visitMeasureDetails]; rewrite bindR_clean; split.
      + intros (f & H1 & H). destruct (b_function s) as [g|] eqn:Eg; [discriminate|]. apply IH in H as (items & F & U1 & U2 & ->). cbn [b_function b_filter b_invocation b_sorts upto] in *.
        exists (IsFunction f :: items). split; [constructor; [apply measure_function_iff, H1|exact F]|]. cbn [functions flat_map conditions invocations orders app upto]. fold (functions items). rewrite U1. cbn. auto.
      + intros (items & F & U1 & U2 & ->). inversion F as [|? ? x ? items' M F']. subst. inversion M. subst. eexists. split; [apply measure_function_iff, M|].
        cbn [functions flat_map app upto] in *. fold (functions items') in *. destruct (b_function s) as [g|] eqn:Eg; [discriminate U1|]. apply IH. exists items'. cbn [b_function b_filter b_invocation b_sorts].
        assert (functions items' = []) as E0 by (destruct (functions items'); [reflexivity|cbn in U1; lia]). split; [exact F'|]. split; [exact E0|]. split; [exact U2|]. reflexivity.
      + intros (x & H1 & H). destruct (b_filter s) as [g|] eqn:Eg; [discriminate|]. apply IH in H as (items & F & U1 & U2 & ->). cbn [b_function b_filter b_invocation b_sorts upto] in *.
        exists (IsCondition x :: items). split; [constructor; [constructor; exact H1|exact F]|]. cbn [functions flat_map conditions invocations orders app upto]. fold (conditions items). rewrite U2. cbn. auto.
      + intros (items & F & U1 & U2 & ->). inversion F as [|? ? x ? items' M F']. subst. inversion M as [|? x' M'| |]. subst. eexists. split; [exact M'|].
        cbn [conditions flat_map app upto] in *. fold (conditions items') in *. destruct (b_filter s) as [g|] eqn:Eg; [discriminate U2|]. apply IH. exists items'. cbn [b_function b_filter b_invocation b_sorts].
        assert (conditions items' = []) as E0 by (destruct (conditions items'); [reflexivity|cbn in U2; lia]). split; [exact F'|]. split; [exact U1|]. split; [exact E0|]. reflexivity.
      + intros (v & H1 & H). apply said_clean in H1. apply IH in H as (items & F & U1 & U2 & ->). cbn [b_function b_filter b_invocation b_sorts upto] in *.
        exists (IsInvocation v :: items). split; [constructor; [constructor; exact H1|exact F]|]. split; [exact U1|]. split; [exact U2|]. f_equal. cbn [invocations flat_map app]. fold (invocations items). rewrite last_cons. reflexivity.
      + intros (items & F & U1 & U2 & ->). inversion F as [|? ? x ? items' M F']. subst. inversion M as [| |n' v M'|]. subst. exists v. split; [apply said_clean; exact M'|]. apply IH. exists items'. split; [exact F'|].
        split; [exact U1|]. split; [exact U2|]. f_equal. cbn [invocations flat_map app b_invocation]. fold (invocations items'). rewrite last_cons. reflexivity.
      + intros (x & H1 & H). apply sort_iff in H1. apply IH in H as (items & F & U1 & U2 & ->). cbn [b_function b_filter b_invocation b_sorts upto] in *.
        exists (IsOrder x :: items). split; [constructor; [constructor; exact H1|exact F]|]. split; [exact U1|]. split; [exact U2|]. f_equal. cbn [orders flat_map app]. rewrite <- app_assoc. reflexivity.
      + intros (items & F & U1 & U2 & ->). inversion F as [|? ? x ? items' M F']. subst. inversion M as [| | |? ? x' M']. subst. exists x'. split; [apply sort_iff, M'|]. apply IH. exists items'. split; [exact F'|].
        split; [exact U1|]. split; [exact U2|]. f_equal. cbn [orders flat_map app b_sorts]. rewrite <- app_assoc. reflexivity.
  Qed.
  Lemma functions_of i j l items f : ForallAt (fun j => MeasureItem i j) j l items -> In f (functions items) -> exists g args options t ph, f = AF g args [] options t ph IUnspecified [].
  Proof.
    induction 1 as [|j d x l items H _ IH]; [intros []|]. unfold functions. cbn [flat_map]. rewrite in_app_iff. intros [I|I]; [|exact (IH I)]. destruct H; try contradiction. destruct I as [<-|[]]. eauto 6.
  Qed.
  Lemma built_iff (o : option aggregate_function) c v l : (forall f, o = Some f -> exists g args options t ph, f = AF g args [] options t ph IUnspecified []) ->
    forall m, built (Building o c v l) = m <-> exists f, Function o v l f /\ m = Measure f c.
  Proof.
    intros Ho m. unfold built. cbn [b_function b_filter b_invocation b_sorts]. split.
    - intros <-. destruct o as [f|].
      + destruct (Ho f eq_refl) as (g & args & options & t & ph & ->). exists (Some (AF g args [] options t ph v l)). split; [constructor|]. destruct v, l; reflexivity.
      + destruct v; [destruct l as [|x l]|..]; [exists None; split; [constructor|reflexivity]|eexists; split; [apply FN_nothing; right; discriminate|reflexivity]| |]; eexists; (split; [apply FN_nothing; left; discriminate|]); destruct l; reflexivity.
    - intros (f & F & ->). destruct F as [|v l H|]; [reflexivity| |destruct v, l; reflexivity]. destruct v, l; cbn; try reflexivity. destruct H; congruence.
  Qed.
  Lemma measure_iff i l m : (exists s, visitMeasureDetails find_function find_relation find_field i 0 start_building l = Ok (s, []) /\ built s = m) <-> MeasureSays i l m.
  Proof.
    split.
    - intros (s & H & B). apply details_iff in H as (items & F & U1 & U2 & ->). cbn [start_building b_function b_filter b_invocation b_sorts and_then upto] in *. cbn [app] in B.
      apply built_iff in B as (f & Hf & ->); [apply MS; assumption|]. intros f E. apply (functions_of i 0 l items f F). destruct (functions items); [discriminate|]. injection E as ->. left. reflexivity.
    - intros [l0 items f F U1 U2 Hf]. eexists. split; [apply details_iff; exists items; repeat split; [exact F|exact U1|exact U2]|]. cbn [start_building b_function b_filter b_invocation b_sorts and_then app].
      apply built_iff; [|exists f; auto]. intros g E. apply (functions_of i 0 l0 items g F). destruct (functions items); [discriminate|]. injection E as ->. left. reflexivity.
  Qed.
  Lemma grouped_iff x y : grouped columns x = Ok y <-> GroupSays x y.
  Proof.
    split.
    - intros H. destruct x; cbn [grouped] in H; try (injection H as <-; first [apply GS_other; discriminate|constructor]).
      destruct s; try (injection H as <-; apply GS_segment; discriminate). destruct ((0 <=? _)%Z && _)%bool eqn:E in H; [|discriminate]. injection H as <-. constructor. lia.
    - intros H. destruct H as [f c r H|s r H| | |x H1 H2 H3]; cbn [grouped]; try reflexivity.
      + replace ((0 <=? f)%Z && (f <? Z.of_nat columns)%Z)%bool with true by lia. reflexivity.
      + destruct s; try reflexivity. exfalso. eapply H. reflexivity.
      + destruct x; try reflexivity; exfalso; [eapply H1|eapply H2|eapply H3]; reflexivity.
  Qed.
  Lemma behavior_iff s k : visitBehavior s = Ok (k, []) <-> (k = KBestEffort /\ behaves s $"besteffort") \/ (k = KPostJoin /\ behaves s $"postjoin").
  Proof.
    unfold visitBehavior, behaves. destruct (forallb ascii7 s); [|split; [discriminate|intros [(_ & H & _)|(_ & H & _)]; discriminate]]. set (t := filter _ _). split.
    - destruct (seq_eqb_spec t $"besteffort") as [E|E]; [intros H; injection H as <-; auto|]. destruct (seq_eqb_spec t $"postjoin") as [E'|E']; [intros H; injection H as <-; auto|discriminate].
    - intros [(-> & _ & ->)|(-> & _ & ->)]; reflexivity.
  Qed.
  (** what a relation is after one more item *)
  Definition add (b : body) (x : item) : option body :=
    match x, b with
    | IsNothing, _ => Some b
    | IsSource n, BRead s sc f g p => Some (BRead (s ++ filter known_source [n]) sc f g p)
    | IsSchema n, BRead s sc f g p => Some (BRead s (sc ++ filter known_schema [n]) f g p)
    | IsFilter e, BRead s sc None g p => Some (BRead s sc (Some e) g p)
    | IsFilter e, BFilter None => Some (BFilter (Some e))
    | IsBestEffort e, BRead s sc f None p => Some (BRead s sc f (Some e) p)
    | IsPostJoin e, BJoin t x None => Some (BJoin t x (Some e))
    | IsExpression e, BJoin t None p => Some (BJoin t (Some e) p)
    | IsExpression e, BProject l => Some (BProject (l ++ [e]))
    | IsGrouping e, BAggregate gs ms => Some (BAggregate (add_group gs e) ms)
    | IsMeasure m, BAggregate gs ms => Some (BAggregate gs (ms ++ [m]))
    | IsSort s, BSort l => Some (BSort (l ++ [s]))
    | IsCount z, BFetch o _ => Some (BFetch o z)
    | IsType t, BJoin _ e p => Some (BJoin t e p)
    | _, _ => None
    end.
  Lemma known_reads i e x : reads i 0 e x -> known find_function find_field i 0 e = Ok true.
  Proof. unfold RelReadFacts.reads, visitE. destruct (known find_function find_field i 0 e) as [[|]| |]; cbn [obind]; try discriminate. reflexivity. Qed.
  Lemma filter_iff i b k e b' : visitDetail find_function find_relation find_field columns known_source known_schema i b (OnFilter k e) = Ok (b', []) <->
    exists x, ItemSays i (OnFilter k e) x /\ add b x = Some b'.
  Proof.
    cbn [visitDetail]. split.
    - destruct (known find_function find_field i 0 e) as [ok| |] eqn:Ek; cbn [obind]; try discriminate. intros H.
      assert (V : visitFilter b k (visitE find_function find_relation find_field i 0 e) = Ok (b', [])) by (destruct ok; [exact H|destruct b; try exact H; discriminate]). clear H. unfold visitFilter in V.
      apply bindR_clean in V as (k' & V1 & V). apply bindR_clean in V as (k'' & V2 & V). apply bindR_clean in V as (x & V3 & V). destruct k as [s|].
      + apply behavior_iff in V1 as [(-> & Hs)|(-> & Hs)]; [exists (IsBestEffort x)|exists (IsPostJoin x)]; (split; [constructor; assumption|]).
        * destruct b as [s0 sc f g p|c| | | | |t ee pp| |]; try discriminate. destruct g; [discriminate|]. apply fine_inj in V. subst. reflexivity.
        * destruct b as [s0 sc f g p|c| | | | |t ee pp| |]; try discriminate. destruct pp; [discriminate|]. apply fine_inj in V. subst. reflexivity.
      + apply fine_inj in V1. subst k'. exists (IsFilter x). split; [constructor; exact V3|]. destruct b as [s0 sc f g p|c| | | | |t ee pp| |]; try discriminate.
        * destruct f; [discriminate|]. apply fine_inj in V. subst. reflexivity.
        * destruct c; [discriminate|]. apply fine_inj in V. subst. reflexivity.
    - intros (x & I & A). assert (R : exists y, reads i 0 e y) by (inversion I; eauto). destruct R as (y0 & R). rewrite (known_reads i e y0 R). cbn [obind].
      assert (V : visitFilter b k (visitE find_function find_relation find_field i 0 e) = Ok (b', [])); [|destruct b; exact V]. unfold visitFilter. inversion I as [| | | | |e1 y R1|s e1 y B R1|s e1 y B R1| | | | | |]; subst.
      + apply bindR_clean. exists KDefault. split; [reflexivity|]. apply bindR_clean. exists KDefault. split; [reflexivity|]. apply bindR_clean. exists y. split; [exact R1|].
        destruct b as [s0 sc f g p|c| | | | |t ee pp| |]; try discriminate A; [destruct f|destruct c]; try discriminate A; injection A as <-; reflexivity.
      + apply bindR_clean. exists KBestEffort. split; [apply behavior_iff; auto|]. apply bindR_clean. exists KBestEffort. split; [apply behavior_iff; auto|]. apply bindR_clean. exists y. split; [exact R1|].
        destruct b as [s0 sc f g p|c| | | | |t ee pp| |]; try discriminate A. destruct g; try discriminate A; injection A as <-; reflexivity.
      + apply bindR_clean. exists KPostJoin. split; [apply behavior_iff; auto|]. apply bindR_clean. exists KPostJoin. split; [apply behavior_iff; auto|]. apply bindR_clean. exists y. split; [exact R1|].
        destruct b as [s0 sc f g p|c| | | | |t ee pp| |]; try discriminate A. destruct pp; try discriminate A; injection A as <-; reflexivity.
  Qed.
  Lemma known_list (k : str -> bool) n : filter k [n] = if k n then [n] else [].
  Proof. reflexivity. Qed.
  Lemma detail_iff i b d b' : visitDetail find_function find_relation find_field columns known_source known_schema i b d = Ok (b', []) <-> exists x, ItemSays i d x /\ add b x = Some b'.
  Proof.
    destruct d as [|n|k e|e n| |n|e|l|e by_|t|n|c]; [| |apply filter_iff|..]; cbn [visitDetail].
    - rewrite fine_clean. split; [intros ->; exists IsNothing; split; [constructor|reflexivity]|]. intros (x & I & A). inversion I. subst. injection A as ->. reflexivity.
    - split.
      + intros H. exists (IsSchema n). split; [constructor|]. destruct b; try discriminate. apply fine_inj in H. subst b'. cbn [add]. rewrite known_list. destruct (known_schema n); [reflexivity|]. rewrite app_nil_r. reflexivity.
      + intros (x & I & A). inversion I. subst. destruct b; try discriminate A. cbn [add] in A. rewrite known_list in A. injection A as <-. destruct (known_schema n); [reflexivity|]. rewrite app_nil_r. reflexivity.
    - rewrite bindR_clean. split.
      + intros (x & H1 & H). exists (IsExpression x). split; [constructor; exact H1|]. destruct b as [| | | | |l|t [y|] p| |]; try discriminate; apply fine_inj in H; subst b'; reflexivity.
      + intros (x & I & A). inversion I as [| | | | | | | |e1 n1 y R| | | | |]. subst. exists y. split; [exact R|]. destruct b as [| | | | |l|t [z|] p| |]; try discriminate; injection A as <-; reflexivity.
    - rewrite fine_clean. split; [intros ->; exists IsNothing; split; [constructor|reflexivity]|]. intros (x & I & A). inversion I. subst. injection A as ->. reflexivity.
    - split.
      + intros H. exists (IsSource n). split; [constructor|]. destruct b; try discriminate. apply fine_inj in H. subst b'. cbn [add]. rewrite known_list. destruct (known_source n); [reflexivity|]. rewrite app_nil_r. reflexivity.
      + intros (x & I & A). inversion I. subst. destruct b; try discriminate A. cbn [add] in A. rewrite known_list in A. injection A as <-. destruct (known_source n); [reflexivity|]. rewrite app_nil_r. reflexivity.
    - rewrite bindR_clean. split.
      + intros (x & H1 & H). destruct b; try discriminate. destruct (grouped columns x) as [y| |] eqn:G; try discriminate. cbn [obind] in H. apply fine_inj in H. subst b'. exists (IsGrouping y). split; [|reflexivity].
        apply (IS_grouping _ _ _ _ i e x y H1). apply grouped_iff, G.
      + intros (x & I & A). inversion I as [| | | | | | | | |e1 y z R G| | | |]. subst. exists y. split; [exact R|]. destruct b; try discriminate. apply grouped_iff in G. rewrite G. cbn [obind]. injection A as <-. reflexivity.
    - rewrite bindR_clean. split.
      + intros (s & H1 & H). destruct b; try discriminate. apply fine_inj in H. subst b'. exists (IsMeasure (built s)). split; [|reflexivity]. constructor. apply measure_iff. eauto.
      + intros (x & I & A). inversion I as [| | | | | | | | | |l1 m M| | |]. subst. apply measure_iff in M as (s & H & <-). exists s. split; [exact H|]. destruct b; try discriminate. injection A as <-. reflexivity.
    - split.
      + intros H. destruct b; try discriminate. apply bindR_clean in H as (x & H1 & H). apply fine_inj in H. subst b'. exists (IsSort x). split; [constructor; apply sort_iff, H1|reflexivity].
      + intros (x & I & A). inversion I as [| | | | | | | | | | |e1 b1 s S| |]. subst. destruct b; try discriminate. apply bindR_clean. exists s. split; [apply sort_iff, S|]. injection A as <-. reflexivity.
    - split.
      + intros H. destruct b; try discriminate. apply bindR_clean in H as (x & H1 & H). apply lift_clean in H1. cbn [visitNumber] in H1. destruct (stol t) as [z| |] eqn:Z; try discriminate. injection H1 as <-. apply fine_inj in H. subst b'.
        exists (IsCount z). split; [constructor; exact Z|reflexivity].
      + intros (x & I & A). inversion I as [| | | | | | | | | | | |t1 z Z|]. subst. destruct b; try discriminate. apply bindR_clean. exists (Lit (LI64 z) false). split; [apply lift_clean; cbn [visitNumber]; rewrite Z; reflexivity|]. injection A as <-. reflexivity.
    - split.
      + intros H. destruct b; try discriminate. apply bindR_clean in H as (x & H1 & H). apply said_clean in H1. apply fine_inj in H. subst b'. exists (IsType x). split; [constructor; exact H1|reflexivity].
      + intros (x & I & A). inversion I as [| | | | | | | | | | | | |n1 t1 T]. subst. destruct b; try discriminate. apply bindR_clean. exists t1. split; [apply said_clean, T|]. injection A as <-. reflexivity.
    - rewrite fine_clean. split; [intros ->; exists IsNothing; split; [constructor|reflexivity]|]. intros (x & I & A). inversion I. subst. injection A as ->. reflexivity.
  Qed.
  Fixpoint adds (b : body) (l : list item) : option body := match l with [] => Some b | x :: l => match add b x with Some b => adds b l | None => None end end.
  Lemma relation_details_iff l : forall i b b', visitDetails find_function find_relation find_field columns known_source known_schema i b l = Ok (b', []) <-> exists items, ForallAt ItemSays i l items /\ adds b items = Some b'.
  Proof.
    induction l as [|d l IH]; intros i b b'; cbn [visitDetails].
    - rewrite fine_clean. split; [intros ->; exists []; split; [constructor|reflexivity]|]. intros (items & F & A). inversion F. subst. injection A as ->. reflexivity.
    - rewrite bindR_clean. split.
      + intros (b1 & H1 & H). apply detail_iff in H1 as (x & I & A). apply IH in H as (items & F & A'). exists (x :: items). split; [constructor; assumption|]. cbn [adds]. rewrite A. exact A'.
      + intros (items & F & A). inversion F as [|? ? x ? items' I F']. subst. cbn [adds] in A. destruct (add b x) as [b1|] eqn:A1; [|discriminate]. exists b1. split; [apply detail_iff; eauto|]. apply IH. eauto.
  Qed.
  Lemma emits_iff l e : visitEmits find_emit l = Ok (e, []) <-> Forall2 (fun c z => find_emit c = (0%N, z, false)) (emit_columns l) e.
  Proof.
    revert e. induction l as [|d l IH]; intros e; cbn [visitEmits emit_columns flat_map].
    - rewrite fine_clean. split; [intros <-; constructor|intros H; inversion H; reflexivity].
    - destruct d as [|n|k e0|e0 n| |n|e0|l0|e0 by_|t|n|c]; try exact (IH e). destruct (find_emit c) as [[steps z] missing] eqn:Ec. cbn [app]. fold (emit_columns l). split.
      + destruct (N.ltb_spec 0 steps).
        * intros H1. apply bindR_clean in H1 as (u & H1 & _). destruct missing; discriminate H1.
        * intros H1. apply bindR_clean in H1 as (u & H1 & H2). destruct missing; [discriminate|]. apply bindR_clean in H2 as (r & H2 & H3). apply fine_inj in H3. subst e. constructor; [replace steps with 0%N in * by lia; exact Ec|]. apply IH, H2.
      + intros H1. inversion H1 as [|? z' ? r E F]. subst. rewrite Ec in E. injection E as -> -> ->. cbn [N.ltb N.compare]. apply bindR_clean. exists tt. split; [reflexivity|]. apply bindR_clean. exists r. split; [apply IH, F|reflexivity].
  Qed.
  (** ** All items *)
  Lemma forall_cons {A} (P : A -> Prop) a l : Forall P (a :: l) <-> P a /\ Forall P l.
  Proof. split; [intros H; inversion H; auto|intros [H1 H2]; constructor; assumption]. Qed.
  Lemma upto_cons {A} (o : option A) a l : upto o (a :: l) <-> o = None /\ l = [].
  Proof. destruct o; cbn; split; try (intros [H1 H2]); try discriminate; [|subst; cbn; lia]. destruct l; [auto|cbn; lia]. Qed.
  Lemma upto_some {A} (a : A) l : upto (Some a) l <-> l = []. Proof. reflexivity. Qed.
  Lemma read_iff l : forall s sc f g b, adds (BRead s sc f g false) l = Some b <-> Forall (belongs $"read") l /\ upto f (filters l) /\ upto g (best_efforts l) /\
    b = BRead (s ++ filter known_source (sources l)) (sc ++ filter known_schema (schemas l)) (and_then f (filters l)) (and_then g (best_efforts l)) false.
  Proof.
    induction l as [|x l IH]; intros s sc f g b.
    - cbn. rewrite !app_nil_r. split; [intros H; injection H as <-|intros (_ & _ & _ & ->)]; [repeat split; [constructor| | |]|]; destruct f, g; cbn; auto.
    - rewrite forall_cons. destruct x; cbn [adds add belongs]; try (split; [discriminate|intros ((H & _) & _); discriminate]).
      + rewrite IH. split; [intros (H1 & H)|intros ((_ & H1) & H)]; auto.
      + rewrite IH. unfold filters, best_efforts, sources, schemas. cbn [flat_map app]. rewrite <- app_assoc, <- filter_app. split; [intros (H1 & H)|intros ((_ & H1) & H)]; auto.
      + rewrite IH. unfold filters, best_efforts, sources, schemas. cbn [flat_map app]. rewrite <- app_assoc, <- filter_app. split; [intros (H1 & H)|intros ((_ & H1) & H)]; auto.
      + unfold filters. cbn [flat_map app]. fold (filters l). rewrite upto_cons. destruct f as [f|]; [split; [discriminate|intros (_ & (H & _) & _); discriminate]|]. rewrite IH. cbn [upto and_then hd_error].
        split; [intros (H1 & H2 & H3 & H4)|intros ((_ & H1) & (_ & H2) & H3 & H4)]; auto 6.
      + unfold best_efforts. cbn [flat_map app]. fold (best_efforts l). rewrite upto_cons. destruct g as [g|]; [split; [discriminate|intros (_ & _ & (H & _) & _); discriminate]|]. rewrite IH. cbn [upto and_then hd_error].
        split; [intros (H1 & H2 & H3 & H4)|intros ((_ & H1) & H2 & (_ & H3) & H4)]; auto 6.
      + split; [discriminate|intros (([H|H] & _) & _); discriminate].
  Qed.
  Lemma filter_body_iff l : forall c b, adds (BFilter c) l = Some b <-> Forall (belongs $"filter") l /\ upto c (filters l) /\ b = BFilter (and_then c (filters l)).
  Proof.
    induction l as [|x l IH]; intros c b.
    - cbn. split; [intros H; injection H as <-|intros (_ & _ & ->)]; [repeat split; [constructor| |]|]; destruct c; cbn; auto.
    - rewrite forall_cons. destruct x; cbn [adds add belongs]; try (split; [discriminate|intros ((H & _) & _); discriminate]).
      + rewrite IH. split; [intros (H1 & H)|intros ((_ & H1) & H)]; auto.
      + unfold filters. cbn [flat_map app]. fold (filters l). rewrite upto_cons. destruct c as [f|]; [split; [discriminate|intros (_ & (H & _) & _); discriminate]|]. rewrite IH. cbn [upto and_then hd_error].
        split; [intros (H1 & H2 & H3)|intros ((_ & H1) & (_ & H2) & H3)]; auto 6.
      + split; [discriminate|intros (([H|H] & _) & _); discriminate].
  Qed.
  Lemma fetch_iff l : forall o z b, adds (BFetch o z) l = Some b <-> Forall (belongs $"fetch") l /\ b = BFetch o (last (counts l) z).
  Proof.
    induction l as [|x l IH]; intros o z b.
    - cbn. split; [intros H; injection H as <-; split; [constructor|reflexivity]|intros (_ & ->); reflexivity].
    - rewrite forall_cons. destruct x; cbn [adds add belongs]; try (split; [discriminate|intros ((H & _) & _); first [discriminate|destruct H; discriminate]]).
      + rewrite IH. split; [intros (H1 & H)|intros ((_ & H1) & H)]; auto.
      + rewrite IH. unfold counts. cbn [flat_map app]. rewrite last_cons. split; [intros (H1 & H)|intros ((_ & H1) & H)]; auto.
  Qed.
  Lemma sort_body_iff l : forall r b, adds (BSort r) l = Some b <-> Forall (belongs $"sort") l /\ b = BSort (r ++ sorts l).
  Proof.
    induction l as [|x l IH]; intros r b.
    - cbn. rewrite app_nil_r. split; [intros H; injection H as <-; split; [constructor|reflexivity]|intros (_ & ->); reflexivity].
    - rewrite forall_cons. destruct x; cbn [adds add belongs]; try (split; [discriminate|intros ((H & _) & _); first [discriminate|destruct H; discriminate]]).
      + rewrite IH. split; [intros (H1 & H)|intros ((_ & H1) & H)]; auto.
      + rewrite IH. unfold sorts. cbn [flat_map]. rewrite <- app_assoc. split; [intros (H1 & H)|intros ((_ & H1) & H)]; auto.
  Qed.
  Lemma project_iff l : forall r b, adds (BProject r) l = Some b <-> Forall (belongs $"project") l /\ b = BProject (r ++ expressions l).
  Proof.
    induction l as [|x l IH]; intros r b.
    - cbn. rewrite app_nil_r. split; [intros H; injection H as <-; split; [constructor|reflexivity]|intros (_ & ->); reflexivity].
    - rewrite forall_cons. destruct x; cbn [adds add belongs]; try (split; [discriminate|intros ((H & _) & _); first [discriminate|destruct H; discriminate]]).
      + rewrite IH. split; [intros (H1 & H)|intros ((_ & H1) & H)]; auto.
      + rewrite IH. unfold expressions. cbn [flat_map]. rewrite <- app_assoc. split; [intros (H1 & H)|intros ((_ & H1) & H)]; auto.
  Qed.
  Lemma join_iff l : forall t e p b, adds (BJoin t e p) l = Some b <-> Forall (belongs $"join") l /\ upto e (expressions l) /\ upto p (post_joins l) /\ b = BJoin (last (types l) t) (and_then e (expressions l)) (and_then p (post_joins l)).
  Proof.
    induction l as [|x l IH]; intros t e p b.
    - cbn. split; [intros H; injection H as <-|intros (_ & _ & _ & ->)]; [repeat split; [constructor| | |]|]; destruct e, p; cbn; auto.
    - rewrite forall_cons. destruct x; cbn [adds add belongs]; try (split; [discriminate|intros ((H & _) & _); first [discriminate|destruct H; discriminate]]).
      + rewrite IH. split; [intros (H1 & H)|intros ((_ & H1) & H)]; auto.
      + unfold post_joins. cbn [flat_map app]. fold (post_joins l). rewrite upto_cons. destruct p as [f|]; [split; [discriminate|intros (_ & _ & (H & _) & _); discriminate]|]. rewrite IH. cbn [upto and_then hd_error].
        split; [intros (H1 & H2 & H3 & H4)|intros ((_ & H1) & H2 & (_ & H3) & H4)]; auto 6.
      + unfold expressions. cbn [flat_map app]. fold (expressions l). rewrite upto_cons. destruct e as [f|]; [split; [discriminate|intros (_ & (H & _) & _); discriminate]|]. rewrite IH. cbn [upto and_then hd_error].
        split; [intros (H1 & H2 & H3 & H4)|intros ((_ & H1) & (_ & H2) & H3 & H4)]; auto 6.
      + rewrite IH. unfold types. cbn [flat_map app]. rewrite last_cons. split; [intros (H1 & H)|intros ((_ & H1) & H)]; auto.
  Qed.
  Lemma nothing_iff k c l : match c with BCross | BOther _ => True | _ => False end -> ~ In k [$"read"; $"filter"; $"join"; $"project"; $"aggregate"; $"sort"; $"fetch"] ->
    forall b, adds c l = Some b <-> Forall (belongs k) l /\ b = c.
  Proof.
    intros Hc Hk. induction l as [|x l IH]; intros b.
    - cbn. split; [intros H; injection H as <-; split; [constructor|reflexivity]|intros (_ & ->); reflexivity].
    - rewrite forall_cons. destruct x; cbn [adds add belongs]; [rewrite IH; split; [intros (H1 & H)|intros ((_ & H1) & H)]; auto|..];
        (split; [destruct c; try destruct Hc; discriminate|intros ((H & _) & _); exfalso; apply Hk; cbn [In]; repeat match type of H with _ \/ _ => destruct H as [H|H] end; rewrite H; auto 10]).
  Qed.
  Definition grouped_by (gs : list (list expr)) (l : list expr) : list (list expr) := fold_left add_group l gs.
  Lemma aggregate_iff l : forall gs ms b, adds (BAggregate gs ms) l = Some b <-> Forall (belongs $"aggregate") l /\ b = BAggregate (grouped_by gs (groupings l)) (ms ++ measures l).
  Proof.
    induction l as [|x l IH]; intros gs ms b.
    - cbn. rewrite app_nil_r. split; [intros H; injection H as <-; split; [constructor|reflexivity]|intros (_ & ->); reflexivity].
    - rewrite forall_cons. destruct x; cbn [adds add belongs]; try (split; [discriminate|intros ((H & _) & _); first [discriminate|destruct H; discriminate]]).
      + rewrite IH. split; [intros (H1 & H)|intros ((_ & H1) & H)]; auto.
      + rewrite IH. unfold groupings. cbn [flat_map]. split; [intros (H1 & H)|intros ((_ & H1) & H)]; auto.
      + rewrite IH. unfold measures. cbn [flat_map]. rewrite <- app_assoc. split; [intros (H1 & H)|intros ((_ & H1) & H)]; auto.
  Qed.
  Lemma grouped_by_one l : forall g, grouped_by [g] l = [g ++ l].
  Proof. induction l as [|x l IH]; intros g; [cbn; rewrite app_nil_r; reflexivity|]. cbn [grouped_by fold_left add_group]. fold (grouped_by [g ++ [x]] l). rewrite IH, <- app_assoc. reflexivity. Qed.
  Lemma finish_groups l ms : finish (BAggregate (grouped_by [] l) ms) = BAggregate [l] ms.
  Proof. destruct l as [|x l]; [reflexivity|]. cbn [grouped_by fold_left add_group]. fold (grouped_by [[x]] l). rewrite grouped_by_one. reflexivity. Qed.
  Lemma kind_iff k items b : (exists b0 b1, empty_body k = Some b0 /\ adds b0 items = Some b1 /\ b = finish b1) <-> Forall (belongs (to_lower k)) items /\ Assembled (to_lower k) items b.
  Proof.
    unfold empty_body. generalize (to_lower k). clear k. intros k. split.
    - intros (b0 & b1 & E & A & ->).
      destruct (seq_eqb_spec k $"read") as [->|_]; [injection E as <-; apply read_iff in A as (H1 & H2 & H3 & ->); split; [exact H1|constructor; assumption]|].
      destruct (seq_eqb_spec k $"project") as [->|N2]; [injection E as <-; apply project_iff in A as (H1 & ->); split; [exact H1|constructor]|].
      destruct (seq_eqb_spec k $"join") as [->|N3]; [injection E as <-; apply join_iff in A as (H1 & H2 & H3 & ->); split; [exact H1|constructor; assumption]|].
      destruct (seq_eqb_spec k $"cross") as [->|N4]; [injection E as <-; apply (nothing_iff $"cross") in A as (H1 & ->); [split; [exact H1|constructor]|exact I|cbn; intuition discriminate]|].
      destruct (seq_eqb_spec k $"fetch") as [->|N5]; [injection E as <-; apply fetch_iff in A as (H1 & ->); split; [exact H1|constructor]|].
      destruct (seq_eqb_spec k $"aggregate") as [->|N6]; [injection E as <-; apply aggregate_iff in A as (H1 & ->); split; [exact H1|rewrite finish_groups; constructor]|].
      destruct (seq_eqb_spec k $"sort") as [->|N7]; [injection E as <-; apply sort_body_iff in A as (H1 & ->); split; [exact H1|constructor]|].
      destruct (seq_eqb_spec k $"filter") as [->|N8]; [injection E as <-; apply filter_body_iff in A as (H1 & H2 & ->); split; [exact H1|constructor; assumption]|].
      destruct (seq_eqb_spec k $"set") as [->|N9]; [injection E as <-; apply (nothing_iff $"set") in A as (H1 & ->); [split; [exact H1|constructor]|exact I|cbn; intuition discriminate]|]. discriminate.
    - intros (B & S). destruct S; eexists; eexists; (split; [reflexivity|]).
      + split; [apply read_iff; repeat split; assumption|reflexivity].
      + split; [apply filter_body_iff; repeat split; assumption|reflexivity].
      + split; [apply fetch_iff; repeat split; assumption|reflexivity].
      + split; [apply aggregate_iff; repeat split; assumption|rewrite finish_groups; reflexivity].
      + split; [apply sort_body_iff; repeat split; assumption|reflexivity].
      + split; [apply project_iff; repeat split; assumption|reflexivity].
      + split; [apply join_iff; repeat split; assumption|reflexivity].
      + split; [apply (nothing_iff $"cross"); [exact I|cbn; intuition discriminate|auto]|reflexivity].
      + split; [apply (nothing_iff $"set"); [exact I|cbn; intuition discriminate|auto]|reflexivity].
  Qed.
  Theorem relation_iff n r : visitRelation find_function find_relation find_field find_emit columns known_source known_schema n = Ok (r, []) <-> exists s, r = Some s /\ RelationSays n s.
  Proof.
    unfold visitRelation. split.
    - destruct (empty_body (n_kind n)) as [b0|] eqn:E0; [|discriminate]. intros H. apply bindR_clean in H as (b1 & H1 & H). apply bindR_clean in H as (e & H2 & H). apply fine_inj in H. subst r.
      apply relation_details_iff in H1 as (items & F & A). apply emits_iff in H2. eexists. split; [reflexivity|]. destruct (proj1 (kind_iff (n_kind n) items (finish b1))) as (K1 & K2); [eauto|]. econstructor; eassumption.
    - intros (s & -> & S). destruct S as [items b e F B K E]. destruct (proj2 (kind_iff (n_kind n) items b) (conj B K)) as (b0 & b1 & E0 & A & ->). rewrite E0. apply bindR_clean. exists b1. split; [apply relation_details_iff; eauto|].
      apply bindR_clean. exists e. split; [apply emits_iff, E|reflexivity].
  Qed.
End Proofs.
