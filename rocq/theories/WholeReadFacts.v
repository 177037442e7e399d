(** Reading the relations of the text of a whole plan, with their columns. *)
From Verif Require Import Base BaseFacts StringsModel StringsFacts EnumModel TypeModel TypeProtoFacts LexModel LexFacts NameModel NameFacts ExprModel TypeTokenFacts LiteralFacts ExprFacts FirstFacts RelModel RelFacts SectionModel
  SectionFacts WholeModel WholeFacts WholeNameFacts.
From Verif Require SymbolModel SymbolMoreFacts FieldModel FieldFacts DeclModel DeclFacts PipeModel PipeFacts TreeModel TreeFacts PrintFacts.
From Coq Require Import Lia ZifyBool ZifyNat ZifyN Permutation.

(** * What is read without errors *)
Lemma bindR_inv {A B} (x : visited A) (f : A -> visited B) y : bindR x f = fine y -> exists a, x = fine a /\ f a = fine y.
Proof.
  unfold bindR. destruct x as [[a e]|x|]; cbn [obind fst snd]; try discriminate. destruct (f a) as [[b e']|z|] eqn:E; cbn [obind fst snd]; try discriminate. intros H. injection H as <- H. apply app_eq_nil in H as (-> & ->). exists a. split; [reflexivity|exact E].
Qed.
Ltac inv_bind H := let a := fresh "a" in let E := fresh "E" in apply bindR_inv in H as (a & E & H).
Lemma filter_kind b k e b1 : visitFilter b k e = fine b1 -> is_aggregate b1 = is_aggregate b /\ is_read b1 = is_read b.
Proof.
  unfold visitFilter. intros H. inv_bind H. inv_bind H. inv_bind H. destruct b; try discriminate; destruct a; try discriminate;
  match type of H with context [match ?x with Some _ => _ | None => _ end] => destruct x; try discriminate; injection H as <-; split; reflexivity end.
Qed.
Lemma detail_kind ff fr fd w ks kc i b d b1 : visitDetail ff fr fd w ks kc i b d = fine b1 -> is_aggregate b1 = is_aggregate b /\ is_read b1 = is_read b.
Proof.
  intros H. destruct d; cbn [visitDetail] in H; try (injection H as <-; split; reflexivity);
  first
  [ destruct b; try discriminate; match type of H with context [if ?x then _ else _] => destruct x; injection H as <-; split; reflexivity end
  | destruct (RelModel.known ff fd i 0 _) as [ok|x|]; cbn [obind] in H; try discriminate; destruct ok; [exact (filter_kind _ _ _ _ H)|]; destruct b; try discriminate; exact (filter_kind _ _ _ _ H)
  | inv_bind H; destruct b as [| | | | | |t [y|] p| |]; try discriminate; injection H as <-; split; reflexivity
  | inv_bind H; destruct b; try discriminate; destruct (grouped w a) as [y|x|]; cbn in H; try discriminate; injection H as <-; split; reflexivity
  | destruct b; try discriminate; inv_bind H; injection H as <-; split; reflexivity ].
Qed.
Lemma details_kind ff fr fd w ks kc ds : forall i b b1, visitDetails ff fr fd w ks kc i b ds = fine b1 -> is_aggregate b1 = is_aggregate b /\ is_read b1 = is_read b.
Proof. induction ds as [|d ds IH]; intros i b b1 H; cbn [visitDetails] in H; [injection H as <-; auto|]. inv_bind H. apply detail_kind in E as (E1 & E2). apply IH in H as (H1 & H2). split; congruence. Qed.
(** Without groupings and measures no columns are added while the details are visited. *)
Lemma track_plain ff fr kn ss C ds : forall i b b1, is_aggregate b = false ->
  visitDetails ff fr (fun _ _ => WholeModel.find_field ss false C []) (length C) kn kn i b ds = fine b1 ->
  track ff fr kn ss false C i [] b ds = fine (b1, []) /\ (is_read b = false -> used_schemas ds = []).
Proof.
  induction ds as [|d ds IH]; intros i b b1 Ha H; cbn [visitDetails] in H; [injection H as <-; split; reflexivity|]. inv_bind H. pose proof (detail_kind _ _ _ _ _ _ _ _ _ _ E) as (E1 & E2).
  assert (Hm : forall l, d <> OnMeasure l). { intros l ->. cbn [visitDetail] in E. inv_bind E. destruct b; discriminate. }
  assert (X : own_columns = own_columns) by reflexivity. cbn [track].
  assert (E' : visitDetail ff fr (fun _ j => WholeModel.find_field ss false C ([] ++ own_columns j d)) (length C) kn kn i b d = fine a). { destruct d; try exact E. destruct (Hm l eq_refl). }
  rewrite E', bindR_fine. assert (Ad : added_columns C d a = []). { destruct d; try reflexivity; [|destruct (Hm l eq_refl)]. cbn. destruct a; try reflexivity. cbn in E1. congruence. }
  rewrite Ad. cbn [app]. destruct (IH (S i) a b1 ltac:(congruence) H) as (T & U). rewrite T. split; [reflexivity|]. intros Hr. cbn [used_schemas flat_map]. fold (used_schemas ds). rewrite U by congruence.
  destruct d; try reflexivity. cbn [visitDetail] in E. destruct b; discriminate.
Qed.
Lemma measure_details_ext ff fr fd fd' i l : (forall j, fd i j = fd' i j) -> forall j s, visitMeasureDetails ff fr fd i j s l = visitMeasureDetails ff fr fd' i j s l.
Proof.
  intros H. assert (V : forall j e, visitE ff fr fd i j e = visitE ff fr fd' i j e) by (intros j e; unfold visitE, RelModel.known; rewrite H; reflexivity).
  assert (Bn : forall {A B} (x : visited A) (f g : A -> visited B), (forall a, f a = g a) -> bindR x f = bindR x g) by (intros A B x f g Hf; unfold bindR; destruct x as [[a e]|z|]; cbn [obind fst snd]; [rewrite Hf|..]; reflexivity).
  induction l as [|d l IH]; intros j s; [reflexivity|]. destruct d; cbn [visitMeasureDetails].
  - unfold visitMeasure. rewrite V. apply Bn. intros f. destruct (b_function s); [reflexivity|apply IH].
  - rewrite V. apply Bn. intros x. destruct (b_filter s); [reflexivity|apply IH].
  - apply Bn. intros v. apply IH.
  - unfold visitSort. rewrite V. apply Bn. intros x. apply IH.
Qed.
Lemma grouped_ok w x y : Grouped w x y -> grouped w x = Ok y.
Proof. intros [f c r H|l|f a d o t|i e|e t f]; cbn; try reflexivity. destruct (Z.leb_spec 0 f), (Z.ltb_spec f (Z.of_nat w)); cbn; try reflexivity; lia. Qed.
Lemma forall_at_nth {A B} (Q : nat -> A -> B -> Prop) i l l' : ForallAt Q i l l' -> length l' = length l /\ forall k a, nth_error l k = Some a -> exists b, nth_error l' k = Some b /\ Q (i + k) a b.
Proof.
  induction 1 as [i|i a b l l' H _ (L & IH)]; [split; [reflexivity|]; intros [|k] a E; discriminate|]. split; [cbn; congruence|]. intros [|k] x E; cbn in E.
  - injection E as <-. exists b. rewrite Nat.add_0_r. auto.
  - destruct (IH k x E) as (y & Y1 & Y2). exists y. rewrite Nat.add_succ_r. auto.
Qed.
Lemma map_columns_map (f : FieldModel.column -> FieldModel.column) cols emit : forall out, FieldModel.map_columns (map f cols) emit (map f out) = let '(o, e) := FieldModel.map_columns cols emit out in (map f o, e).
Proof.
  induction emit as [|z emit IH]; intros out; cbn [FieldModel.map_columns]; [reflexivity|]. unfold FieldModel.size, FieldModel.at_index in *. rewrite map_length, nth_error_map. destruct (z mod 2 ^ 64 <? Z.of_nat (length cols))%Z.
  - destruct (nth_error cols (Z.to_nat (z mod 2 ^ 64))) as [c|]; cbn [option_map]; [|apply IH]. specialize (IH (out ++ [c])). rewrite map_app in IH. exact IH.
  - rewrite IH. destruct (FieldModel.map_columns cols emit out). reflexivity.
Qed.
Lemma reps_same L l a b : Forall2 (Rep L) l a -> Forall2 (Rep L) l b -> a = b.
Proof. intros H. revert b. induction H as [|i c l a (R & _) _ IH]; intros b H'; inversion H' as [|? c' ? b' (R' & _) Hb]; subst; [reflexivity|]. f_equal; [congruence|auto]. Qed.

(** * The relations *)
Lemma reader_output f (agg : bool) C g emit : let d := FieldModel.convert_emit agg C g (if agg then g else []) (Some emit) in
  FieldModel.applyOutputMapping agg (map f C) (map f g) (if agg then map f g else []) emit = (map f (FieldModel.d_output d), FieldModel.d_missing d) /\ FieldModel.d_fields d = C /\ FieldModel.d_generated d = g.
Proof.
  unfold FieldModel.convert_emit, FieldModel.applyOutputMapping. destruct emit as [|z emit]; [destruct agg; auto|]. destruct agg.
  - pose proof (map_columns_map f g (z :: emit) []) as E. cbn [map] in E. rewrite E. destruct (FieldModel.map_columns g (z :: emit) []). auto.
  - rewrite <- map_app. pose proof (map_columns_map f (C ++ g) (z :: emit) []) as E. cbn [map] in E. rewrite E. destruct (FieldModel.map_columns (C ++ g) (z :: emit) []). auto.
Qed.
Lemma firstn_next {A} (l : list A) k x : nth_error l k = Some x -> firstn (S k) l = firstn k l ++ [x].
Proof. revert k. induction l as [|y l IH]; intros [|k] E; try discriminate; cbn in *; [congruence|]. f_equal. apply IH, E. Qed.
Lemma given_nth names : forall nodes t k e n, nth_error nodes k = Some (e, Some n) -> nth k (snd (given_names t (map (fun x => OnExpression (fst x) (snd x)) nodes ++ map OnEmit names))) [] = n.
Proof.
  induction nodes as [|[e0 o] nodes IH]; intros t k e n E; [destruct k; discriminate|]. cbn [map app given_names fst snd]. destruct k as [|k]; cbn in E.
  - injection E as -> ->. destruct (given_names t _). reflexivity.
  - destruct o as [m|].
    + specialize (IH t k e n E). destruct (given_names t _). exact IH.
    + destruct (unique t $"intermediate") as [t1 u]. specialize (IH t1 k e n E). destruct (given_names t1 _). exact IH.
Qed.
Lemma columns_of_track ff fr kn ss agg C given schema b0 ds b1 g emit :
  track ff fr kn ss agg C 0 [] b0 ds = fine (b1, g) ->
  let g' := match b1 with BProject es => add_expressions C given es g | _ => g end in
  visitEmits (WholeModel.find_emit ss agg C g') ds = fine emit ->
  visitColumns ff fr kn ss agg C given schema b0 ds =
    fine (Relation (finish b1) emit, let '(o, m) := FieldModel.applyOutputMapping agg C g' (if agg then schema ++ g' else schema) emit in
      {| FieldModel.d_fields := C; FieldModel.d_generated := g'; FieldModel.d_output := o; FieldModel.d_refs := []; FieldModel.d_mapping := emit; FieldModel.d_missing := m |}).
Proof. intros T g' E. unfold visitColumns. rewrite T, bindR_fine. cbv beta iota. fold g'. rewrite E, bindR_fine. destruct (FieldModel.applyOutputMapping agg C g' (if agg then schema ++ g' else schema) emit). reflexivity. Qed.
Lemma add_expressions_spec (f : FieldModel.column -> FieldModel.column) C given es : forall g1 g2, ForallAt (fun k e c => match e with ESel (SegField z _) _ => FieldModel.at_index C z = Some (f c) | _ => column_named (nth k given []) = f c end) (length g1) es g2 ->
  add_expressions C given es (map f g1) = map f (g1 ++ g2).
Proof.
  induction es as [|e es IH]; intros g1 g2 H; inversion H as [|? ? c ? g2' He Hes]; subst; [rewrite app_nil_r; reflexivity|]. 
  assert (X : add_expressions C given (e :: es) (map f g1) = add_expressions C given es (map f (g1 ++ [c]))).
  { rewrite map_app. cbn [map]. destruct e as [|?|[z ch| | |] r| | | | | | | | | | ]; cbn [add_expressions]; rewrite ?map_length; try (rewrite <- He; reflexivity). 
    rewrite He. reflexivity. }
  rewrite X, (IH (g1 ++ [c]) g2'); [rewrite <- app_assoc; reflexivity|]. rewrite app_length, Nat.add_1_r. exact Hes.
Qed.
Lemma chosen_same l emit emit' : Forall2 (same_column l) emit emit' -> chosen l emit' = chosen l emit /\ Forall (in_range l) emit'.
Proof.
  intros H. assert (X : flat_map (fun z => some_list (pick l z)) emit' = flat_map (fun z => some_list (pick l z)) emit /\ Forall (in_range l) emit').
  { induction H as [|z z' emit emit' (H1 & H2) _ (E & F)]; [split; [reflexivity|constructor]|]. cbn. rewrite H2, E. split; [reflexivity|]. constructor; [unfold in_range; congruence|exact F]. }
  split; [|apply X]. unfold chosen. destruct H; [reflexivity|apply X].
Qed.
Section Track.
  Variables (ff : str -> option N) (fr : str -> option bool) (kn : str -> bool) (ss : FieldModel.schemas) (C : list FieldModel.column) (f : FieldModel.column -> FieldModel.column) (gen : list FieldModel.column) (K : nat).
  Hypothesis Hf : forall n, f (new_column n []) = column_named n.
  Notation found := (fun i j => WholeModel.find_field ss true C (map f (firstn (if (0 <? j) && (K <=? i) then S i else i) gen))).
  Notation tr := (track ff fr kn ss true C).
  Lemma track_groups rest nodes : forall ys k G ms,
    ForallAt (fun i node y => exists x, visitE ff fr found i 0 node = fine x /\ Grouped (length C) x y) k nodes ys ->
    (forall m y, nth_error ys m = Some y -> exists z c0, y = ESel (SegField z None) RootRef /\ nth_error C (Z.to_nat z) = Some (f c0) /\ nth_error gen (k + m) = Some c0) ->
    tr k (map f (firstn k gen)) (BAggregate G ms) (map OnGrouping nodes ++ rest) =
    tr (k + length nodes) (map f (firstn (k + length nodes) gen)) (BAggregate (fold_left add_group ys G) ms) rest.
  Proof.
    induction nodes as [|node nodes IH]; intros ys k G ms H Hy; inversion H as [|? ? y ? ys' (x & Hx & Hg) Hr]; subst; [cbn; rewrite Nat.add_0_r; reflexivity|].
    destruct (Hy 0 y eq_refl) as (z & c0 & -> & Hz & Hc0). rewrite Nat.add_0_r in Hc0. cbn [map app track]. 
    assert (V : visitDetail ff fr (fun _ j => WholeModel.find_field ss true C (map f (firstn k gen) ++ own_columns j (OnGrouping node))) (length C) kn kn k (BAggregate G ms) (OnGrouping node) = fine (BAggregate (add_group G (ESel (SegField z None) RootRef)) ms)).
    { cbn [visitDetail own_columns]. rewrite app_nil_r. change (visitE ff fr (fun _ _ => WholeModel.find_field ss true C (map f (firstn k gen))) k 0 node) with (visitE ff fr found k 0 node). rewrite Hx, bindR_fine, (grouped_ok _ _ _ Hg). reflexivity. }
    rewrite V, bindR_fine. assert (Ad : added_columns C (OnGrouping node) (BAggregate (add_group G (ESel (SegField z None) RootRef)) ms) = [f c0]).
    { destruct G as [|g G]; cbn [add_group added_columns rev app]; [rewrite Hz; reflexivity|]. rewrite rev_app_distr. cbn [rev app]. rewrite Hz. reflexivity. }
    rewrite Ad. replace (map f (firstn k gen) ++ [f c0]) with (map f (firstn (S k) gen)) by (rewrite (firstn_next _ _ _ Hc0), map_app; reflexivity). rewrite (IH ys' (S k) _ ms Hr).
    - cbn [length fold_left]. rewrite Nat.add_succ_r. reflexivity.
    - intros m y E. destruct (Hy (S m) y E) as (z1 & c1 & D1 & D2 & D3). exists z1, c1. rewrite Nat.add_succ_r in D3. auto.
  Qed.
  Lemma track_measures names rest mls : forall ms' k G ms, K <= k ->
    ForallAt (fun i ml m => (forall j, 0 < j -> measure_given (firstn j ml) = listed (nth_error names (i - K))) /\ exists s, visitMeasureDetails ff fr found i 0 start_building ml = fine s /\ built s = m) k mls ms' ->
    (forall m, m < length mls -> exists n, nth_error names (k + m - K) = Some n /\ nth_error gen (k + m) = Some (new_column n [])) ->
    tr k (map f (firstn k gen)) (BAggregate G ms) (map OnMeasure mls ++ rest) =
    tr (k + length mls) (map f (firstn (k + length mls) gen)) (BAggregate G (ms ++ ms')) rest.
  Proof.
    induction mls as [|ml mls IH]; intros ms' k G ms Hk H Hn; inversion H as [|? ? m ? ms2 (Hj & s & Hs & Hb) Hr]; subst; [cbn; rewrite Nat.add_0_r, app_nil_r; reflexivity|].
    destruct (Hn 0 ltac:(cbn; lia)) as (n & En & Eg). rewrite Nat.add_0_r in En, Eg. rewrite En in Hj. cbn [listed] in Hj. cbn [map app track].
    assert (Next : map f (firstn (S k) gen) = map f (firstn k gen) ++ [column_named n]) by (rewrite (firstn_next _ _ _ Eg), map_app; cbn; rewrite Hf; reflexivity).
    assert (V : visitDetail ff fr (fun _ j => WholeModel.find_field ss true C (map f (firstn k gen) ++ own_columns j (OnMeasure ml))) (length C) kn kn k (BAggregate G ms) (OnMeasure ml) = fine (BAggregate G (ms ++ [built s]))).
    { cbn [visitDetail]. rewrite (measure_details_ext ff fr _ found k ml); [rewrite Hs, bindR_fine; reflexivity|]. intros j. cbn [own_columns]. destruct j as [|j].
      - cbn. rewrite app_nil_r. reflexivity.
      - rewrite Hj by lia. destruct (Nat.leb_spec K k); [|lia]. cbn [Nat.ltb Nat.leb andb]. rewrite Next. reflexivity. }
    rewrite V, bindR_fine. assert (Ad : forall b, added_columns C (OnMeasure ml) b = [column_named n]).
    { intros b. cbn [added_columns]. rewrite <- (firstn_all2 (n := S (length ml)) ml) by lia. rewrite Hj by lia. reflexivity. }
    rewrite Ad, <- Next, (IH ms2 (S k) _ _ ltac:(lia) Hr).
    - cbn [length]. rewrite Nat.add_succ_r, <- app_assoc. reflexivity.
    - intros m Hm. destruct (Hn (S m) ltac:(cbn; lia)) as (n1 & D1 & D2). exists n1. rewrite Nat.add_succ_r in D1, D2. auto.
  Qed.
  Lemma track_emits names : forall k g b, tr k g b (map OnEmit names) = fine (b, g).
  Proof. induction names as [|n names IH]; intros k g b; [reflexivity|]. cbn [map track visitDetail]. rewrite bindR_fine. cbn [added_columns]. rewrite app_nil_r. apply IH. Qed.
End Track.
Lemma add_groups ys : forall g gs, fold_left add_group ys (g :: gs) = (g ++ ys) :: gs.
Proof. induction ys as [|y ys IH]; intros g gs; cbn; [rewrite app_nil_r; reflexivity|]. rewrite IH, <- app_assoc. reflexivity. Qed.
Lemma used_aggregate nodes mls names : used_schemas (map OnGrouping nodes ++ map OnMeasure mls ++ map OnEmit names) = [].
Proof.
  unfold used_schemas. rewrite !flat_map_app. assert (A : forall l, flat_map (fun d => match d with OnSchema n => [n] | _ => [] end) (map OnGrouping l) = []) by (induction l; auto).
  assert (B : forall l, flat_map (fun d => match d with OnSchema n => [n] | _ => [] end) (map OnMeasure l) = []) by (induction l; auto). assert (D : forall l, flat_map (fun d => match d with OnSchema n => [n] | _ => [] end) (map OnEmit l) = []) by (induction l; auto).
  rewrite A, B, D. reflexivity.
Qed.

Lemma forall_at_intro {A B} (Q : nat -> A -> B -> Prop) l : forall i l', length l' = length l -> (forall k a b, nth_error l k = Some a -> nth_error l' k = Some b -> Q (i + k) a b) -> ForallAt Q i l l'.
Proof.
  induction l as [|a l IH]; intros i [|b l'] E H; try discriminate; constructor.
  - rewrite <- (Nat.add_0_r i). apply (H 0); reflexivity.
  - apply IH; [cbn in E; congruence|]. intros k x y Ex Ey. cbn. rewrite <- Nat.add_succ_r. apply (H (S k)); assumption.
Qed.
Lemma same_is_column R0 C0 e e' : SameE R0 C0 e e' -> is_column e' = is_column e.
Proof. destruct 1; reflexivity. Qed.
Section Visiting.
  Variables (known : N -> Prop) (R : N -> N -> Prop).
  Variables (ss : FieldModel.schemas) (loc : str -> nat) (is_stored : str -> str -> Prop) (is_new : str -> Prop).
  Hypothesis Hnew : forall n, is_new n -> Name n.
  Variables (fs : list DeclModel.entry) (find_function : str -> option N) (find_relation : str -> option bool) (known_name : str -> bool).
  Variable c : ctx.
  Hypothesis Hc : CtxOk known c.
  Notation L := (cx_L c ++ made_cols (cx c)).
  Hypothesis Hproper : Forall (Proper is_stored is_new) L.
  Notation rc := (as_read loc).
  Notation C := (cx_C c).
  Notation agg := (is_aggregate (r_body (cx_r c))).
  Notation gen := (FieldModel.d_generated (rn_data (cx c))).
  Notation found := (fun i j => WholeModel.find_field ss agg (map rc C) (map rc (columns_at_detail c i j))).
  Notation emitted := (WholeModel.find_emit ss agg (map rc C) (map rc (generated_read c))).
  Notation nm := (naming_of fs (cx c)).
  Lemma exposed_map (d d' : FieldModel.data) : FieldModel.d_fields d = map rc (FieldModel.d_fields d') -> FieldModel.d_generated d = map rc (FieldModel.d_generated d') -> FieldModel.d_output d = map rc (FieldModel.d_output d') ->
    FieldModel.exposed d = map rc (FieldModel.exposed d').
  Proof. intros A B D. unfold FieldModel.exposed. rewrite D, A, B. destruct (FieldModel.d_output d'); cbn [map]; [rewrite map_app|]; reflexivity. Qed.
  Lemma close_relation given b0 ds a g0 e : is_read (r_body (cx_r c)) = false ->
    track find_function find_relation known_name ss agg (map rc C) 0 [] b0 ds = fine (a, g0) ->
    match a with BProject es => add_expressions (map rc C) given es g0 | _ => g0 end = map rc gen ->
    visitEmits emitted ds = fine e -> Forall2 (same_column (available (cx_F c) (cx_G c) (r_body (cx_r c)))) (r_emit (cx_r c)) e ->
    exists d, visitColumns find_function find_relation known_name ss agg (map rc C) given [] b0 ds = fine (Relation (finish a) e, d) /\ FieldModel.exposed d = map rc (FieldModel.exposed (rn_data (cx c))) /\ FieldModel.d_missing d = [].
  Proof.
    intros Hr T Hg He Hs. pose proof (fields_reps known c Hc) as HF. pose proof (generated_reps known c Hc Hr) as HG. pose proof (ck_ok _ _ Hc) as (Hl & K). destruct (chosen_same _ _ _ Hs) as (Ch & In).
    pose proof (columns_of_track find_function find_relation known_name ss agg (map rc C) given [] b0 ds a g0 e T) as V. cbv zeta in V. rewrite Hg in V. unfold generated_read in He. rewrite Hr in He. specialize (V He). rewrite V. clear V.
    destruct (reader_output rc agg C gen e) as (Ro & Rf & Rg). set (D := FieldModel.convert_emit agg C gen (if agg then gen else []) (Some e)) in *. 
    assert (Ro' : FieldModel.applyOutputMapping agg (map rc C) (map rc gen) (if agg then [] ++ map rc gen else []) e = (map rc (FieldModel.d_output D), FieldModel.d_missing D)) by exact Ro. rewrite Ro'.
    assert (X : FieldModel.d_missing D = [] /\ Forall2 (Rep L) (chosen (available (cx_F c) (cx_G c) (r_body (cx_r c))) e) (FieldModel.exposed D)).
    { subst D. destruct agg eqn:Ea.
      - assert (Av : available (cx_F c) (cx_G c) (r_body (cx_r c)) = cx_G c) by (destruct (r_body (cx_r c)); try discriminate Ea; reflexivity). rewrite Av in *. assert (Ne : cx_G c <> []) by (destruct (r_body (cx_r c)); try discriminate Ea; apply K).
        destruct (emit_aggregate L C gen (cx_G c) e HG Ne) as (M & _ & _ & M'); [rewrite app_length in Hl; lia|exact In|auto].
      - assert (Av : available (cx_F c) (cx_G c) (r_body (cx_r c)) = cx_F c ++ cx_G c) by (destruct (r_body (cx_r c)); try discriminate Ea; reflexivity). rewrite Av in *. destruct (emit_plain L (cx_F c) C gen (cx_G c) e HF HG Hl In) as (M & _ & _ & M'). auto. }
    destruct X as (Ms & Re). rewrite Ch in Re. pose proof (reps_same _ _ _ _ Re (rc_exposed _ _ _ _ _ _ _ _ _ (ck_recorded _ _ Hc))) as E. eexists. split; [reflexivity|]. split; [|exact Ms].
    rewrite <- E. apply exposed_map; cbn; congruence.
  Qed.
  Variables (r' : relation) (node : rnode).
  Hypothesis Hout : outcome_of R c r'.
  Notation rd := {| rd_function := find_function; rd_relation := find_relation; rd_field := found; rd_emit := emitted; rd_columns := length C |}.
  Hypothesis Hshape : shape_as (nm, rn_name (cx c), rn_relation (cx c)) (rd, r') node.
  Hypothesis Hvisit : visit_relation known_name rd node = Ok (Some r', []).
  Variable sc : str -> list FieldModel.column.
  Hypothesis Hschema : forall n s, rn_schema (cx c) = Some (n, s) -> sc n = map (read_column (loc n)) (ns_names s).
  Lemma visit_inv b0 : empty_body (n_kind node) = Some b0 ->
    exists a e, visitDetails find_function find_relation found (length C) known_name known_name 0 b0 (n_details node) = fine a /\ visitEmits emitted (n_details node) = fine e /\ r' = Relation (finish a) e.
  Proof.
    intros E0. pose proof Hvisit as V. unfold visit_relation, visitRelation in V. cbn [rd_function rd_relation rd_field rd_emit rd_columns] in V. rewrite E0 in V. change (Ok (Some r', [])) with (fine (Some r')) in V. inv_bind V. inv_bind V. injection V as <-. exists a, a0. auto.
  Qed.
  Lemma same_at z z' x : same_column (cx_F c) z z' -> nth_error C (Z.to_nat z) = Some x -> nth_error C (Z.to_nat z') = Some x /\ FieldModel.at_index C z' = Some x.
  Proof.
    intros (A & B) E. destruct (pick (cx_F c) z) as [i|] eqn:Ez; [|congruence]. destruct (rep_pick _ _ _ _ _ (fields_reps known c Hc) Ez (short_range known c Hc)) as (y & _ & E1 & (R1 & _) & _).
    destruct (rep_pick _ _ _ _ _ (fields_reps known c Hc) B (short_range known c Hc)) as (y' & _ & E1' & (R1' & _) & At & _). assert (y = x) by congruence. assert (y' = y) by congruence. subst. auto.
  Qed.
  Lemma ctx_visited t b0 : empty_body (n_kind node) = Some b0 ->
    exists d, visitColumns find_function find_relation known_name ss (is_aggregate b0) (map rc C) (snd (match b0 with BProject _ => given_names t (n_details node) | _ => (t, []) end)) (flat_map sc (used_schemas (n_details node))) b0 (n_details node) = fine (r', d) /\
      FieldModel.exposed d = map rc (FieldModel.exposed (rn_data (cx c))) /\ FieldModel.d_missing d = [].
  Proof.
    intros E0. destruct (visit_inv b0 E0) as (a & e & V & Ve & Er). destruct Hout as (SB & SE). destruct Hshape as (Hk & _ & Sh). rewrite (relation_eq known c Hc) in Hk, Sh. unfold Shape in Sh. cbn [r_body r_emit rd_function rd_relation rd_field rd_emit rd_columns] in Hk, Sh.
    pose proof (rc_body _ _ _ _ _ _ _ _ _ (ck_recorded _ _ Hc)) as RB. pose proof (ck_ok _ _ Hc) as (Hl & K).
    assert (Plain : is_read (r_body (cx_r c)) = false -> agg = false -> gen = [] -> (forall es, a <> BProject es) -> is_aggregate b0 = false -> is_read b0 = false -> (forall es, b0 <> BProject es) -> 
      exists d, visitColumns find_function find_relation known_name ss (is_aggregate b0) (map rc C) (snd (match b0 with BProject _ => given_names t (n_details node) | _ => (t, []) end)) (flat_map sc (used_schemas (n_details node))) b0 (n_details node) = fine (r', d) /\
        FieldModel.exposed d = map rc (FieldModel.exposed (rn_data (cx c))) /\ FieldModel.d_missing d = []).
    { intros Hr Ha Hg Na Ab Rb Nb. rewrite Ab. unfold columns_at_detail in V. rewrite Ha in V. rewrite <- (map_length rc) in V. destruct (track_plain find_function find_relation known_name ss (map rc C) (n_details node) 0 b0 a Ab V) as (T & U). rewrite (U Rb). cbn [flat_map].
      rewrite <- Ha in T. pose proof (close_relation (snd (match b0 with BProject _ => given_names t (n_details node) | _ => (t, []) end)) b0 (n_details node) a [] e Hr T) as X. rewrite Ha in X. rewrite Er in *. apply X; [rewrite Hg; destruct a; try reflexivity; exfalso; eapply Na; reflexivity|rewrite <- Ha; exact Ve|exact SE]. }
    destruct (r_body (cx_r c)) as [s sch f g p|cc|o cc|gs ms|l|l|jt je post| |n] eqn:Eb; cbn [with_names kind_name] in Hk; rewrite Hk in E0; cbn in E0; try (injection E0 as <-).
    - destruct K as (Kz & -> & -> & -> & -> & Ke & _ & (so & Eso & _) & _). assert (EC : C = []) by (unfold cx_C; destruct (cx_ins c); [reflexivity|discriminate Kz]).
      cbn [with_names] in Sh. destruct Sh as (filter & Ds & Hf). unfold columns_at_detail in V. rewrite Eb in V. cbn [is_aggregate] in V. rewrite <- (map_length rc) in V.
      destruct (track_plain find_function find_relation known_name ss (map rc C) (n_details node) 0 (BRead [] [] None None false) a eq_refl V) as (T & _). destruct (details_kind _ _ _ _ _ _ _ _ _ _ V) as (_ & Ra). cbn [is_read] in Ra.
      assert (Us : used_schemas (n_details node) = listed_name (rn_schema (cx c))).
      { rewrite Ds. unfold used_schemas. rewrite !flat_map_app. assert (A1 : forall l, flat_map (fun d => match d with OnSchema n => [n] | _ => [] end) (map OnSource l) = []) by (induction l; auto). assert (A2 : forall l, flat_map (fun d => match d with OnSchema n => [n] | _ => [] end) (map OnSchema l) = l) by (induction l as [|n l IH]; [reflexivity|]; cbn; f_equal; exact IH).
        assert (A3 : flat_map (fun d => match d with OnSchema n => [n] | _ => [] end) filter = []) by (clear -Hf; induction Hf as [|d l Hd _ IH]; [reflexivity|]; cbn; destruct d; try contradiction; exact IH). rewrite A1, A2, A3, app_nil_r. reflexivity. }
      rewrite Ke in SE. rewrite Er in SE. cbn [r_emit] in SE. inversion SE as [E1|]; subst e. cbn [is_aggregate snd].
      assert (G0 : match a with BProject es => add_expressions (map rc C) [] es [] | _ => [] end = []) by (destruct a; try reflexivity; discriminate Ra).
      pose proof (columns_of_track find_function find_relation known_name ss false (map rc C) [] (flat_map sc (used_schemas (n_details node))) (BRead [] [] None None false) (n_details node) a [] [] T) as X. cbv zeta in X. rewrite G0 in X. unfold generated_read in Ve. rewrite Eb in Ve. cbn [is_read is_aggregate map] in Ve. specialize (X Ve).
      cbn [FieldModel.applyOutputMapping] in X. eexists. split; [rewrite Er; exact X|]. split; [|reflexivity]. rewrite RB. unfold FieldModel.exposed. cbn [FieldModel.d_output FieldModel.d_fields FieldModel.d_generated]. rewrite EC, Us. cbn [map app].
      unfold made_cols. rewrite (relation_eq known c Hc), Eb. cbn [r_body with_names]. destruct (rn_schema (cx c)) as [[n st]|] eqn:Es; cbn [listed_name flat_map]; [|reflexivity]. rewrite (Hschema n st eq_refl), app_nil_r, map_map. destruct (ns_names st); reflexivity.
    - inversion SB as [|x x' Hx E1 E2| | | | | |]; subst. apply Plain; try reflexivity; try discriminate; [exact RB|]. cbn [r_body] in E2. destruct a; discriminate.
    - inversion SB as [| |x x' E1 E2| | | | |]; subst. apply Plain; try reflexivity; try discriminate; [exact RB|]. cbn [r_body] in E2. destruct a; discriminate.
    - destruct K as (_ & _ & _ & Ng & _). destruct RB as (Lm & zs & cs & Egs & Hcs & Eg). rewrite Egs in SB. assert (Y : exists gs' ms', r_body r' = BAggregate [gs'] ms' /\ Forall2 (SameE R (same_column (cx_F c))) (map (fun z => ESel (SegField z None) RootRef) zs) gs' /\ length ms' = length ms).
      { inversion SB as [| | |xs xs' ms0 ms' Hgs Hms E1 E2| | | |]. exists xs', ms'. split; [destruct (r_body r'); try discriminate; cbn in E2; congruence|]. split; [exact Hgs|exact (forall2_len _ _ _ Hms)]. }
      destruct Y as (gs' & ms' & Eb' & Hgs & Lms'). rewrite Eb' in Sh. cbn [with_names] in Sh. destruct Sh as (nodes & mls & names & Ds & S1 & S2 & _). cbn [concat] in S1. rewrite app_nil_r in S1.
      destruct (forall_at_nth _ _ _ _ S1) as (Ln & _). destruct (forall_at_nth _ _ _ _ S2) as (Lms & _). pose proof (forall2_len _ _ _ Hgs) as Lg. rewrite map_length in Lg. pose proof (forall2_len _ _ _ Hcs) as Lc.
      assert (Lz : length zs = length nodes) by lia. assert (Lml : length mls = length (rn_measures (cx c))) by lia. assert (Lgen : length gen = length nodes + length mls) by (rewrite Eg, app_length, map_length; lia).
      assert (Gof : groups_of (r_body (cx_r c)) = length nodes) by (rewrite Eb, Egs; cbn; rewrite app_nil_r, map_length; exact Lz).
      unfold columns_at_detail in S1, S2. rewrite Eb in S1, S2. cbn [is_aggregate] in S1, S2. rewrite Eb, Egs in Gof. rewrite Egs, Gof in S1, S2. rewrite <- (map_length rc) in S1.
      pose proof (track_groups find_function find_relation known_name ss (map rc C) rc gen (length nodes) (map OnMeasure mls ++ map OnEmit names) nodes gs' 0 [] [] S1) as T1. cbn [firstn map Nat.add] in T1.
      pose proof (track_measures find_function find_relation known_name ss (map rc C) rc gen (length nodes) (fun n => eq_refl) (rn_measures (cx c)) (map OnEmit names) mls ms' (length nodes) (fold_left add_group gs' []) [] (le_n _) S2) as T2.
      assert (T : track find_function find_relation known_name ss true (map rc C) 0 [] (BAggregate [] []) (n_details node) = fine (BAggregate (fold_left add_group gs' []) ms', map rc gen)).
      { rewrite Ds, T1, T2.
        - rewrite track_emits. cbn [app]. rewrite <- Lgen, firstn_all. reflexivity.
        - intros m Hm. destruct (nth_error (rn_measures (cx c)) m) as [n|] eqn:En; [|apply nth_error_None in En; lia]. exists n. replace (length nodes + m - length nodes) with m by lia. split; [exact En|]. rewrite Eg, nth_error_app2 by lia. replace (length nodes + m - length cs) with m by lia.
          rewrite nth_error_map, En. reflexivity.
        - intros m y Ey. destruct (forall2_nth_r _ _ _ Hgs _ _ Ey) as (e1 & Ee & Se). rewrite nth_error_map in Ee. destruct (nth_error zs m) as [z|] eqn:Ez; [|discriminate]. injection Ee as <-. inversion Se as [|z0 z' Sz| | |]; subst. destruct (forall2_nth _ _ _ Hcs _ _ Ez) as (col & Ecol & Ecz). 
          destruct (same_at z z' col Sz Ecz) as (A1 & _). exists z', col. split; [reflexivity|]. split; [rewrite nth_error_map, A1; reflexivity|]. cbn [Nat.add]. rewrite Eg, nth_error_app1 by (apply nth_error_Some; congruence). exact Ecol. }
      assert (Fin : finish (BAggregate (fold_left add_group gs' []) ms') = BAggregate [gs'] ms') by (destruct gs' as [|y ys]; [reflexivity|]; cbn [fold_left add_group]; rewrite add_groups; reflexivity).
      assert (Us : used_schemas (n_details node) = []) by (rewrite Ds; apply used_aggregate). rewrite Us. cbn [flat_map is_aggregate]. assert (Hr : is_read (r_body (cx_r c)) = false) by (rewrite Eb; reflexivity).
      destruct (close_relation (snd (t, [])) (BAggregate [] []) (n_details node) (BAggregate (fold_left add_group gs' []) ms') (map rc gen) e Hr) as (d & D1 & D2).
      + rewrite Eb. exact T.
      + reflexivity.
      + rewrite Eb. exact Ve.
      + rewrite Eb. rewrite Er in SE. exact SE.
      + rewrite Eb, Fin in D1. cbn [is_aggregate] in D1. exists d. split; [|exact D2]. rewrite D1. rewrite Er in Eb' |- *. cbn [r_body] in Eb'. rewrite Eb'. reflexivity.
    - inversion SB as [| | | |x x' Hx E1 E2| | |]; subst. apply Plain; try reflexivity; try discriminate; [exact RB|]. cbn [r_body] in E2. destruct a; discriminate.
    - destruct K as (_ & _ & _ & Hp & _). destruct RB as (gx & M1 & Ealt & Hg). assert (Y : exists l', r_body r' = BProject l' /\ Forall2 (SameE R (same_column (cx_F c))) l l').
      { inversion SB as [| | | | |xs xs' Hx E1 E2| |]. exists xs'. split; [destruct (r_body r'); try discriminate; cbn in E2; congruence|exact Hx]. }
      destruct Y as (l' & Eb' & Hx). rewrite Eb' in Sh. cbn [with_names] in Sh. destruct Sh as (nodes & names & Ds & S1 & _). unfold columns_at_detail in V. rewrite Eb in V. cbn [is_aggregate] in V. rewrite <- (map_length rc) in V.
      destruct (track_plain find_function find_relation known_name ss (map rc C) (n_details node) 0 (BProject []) a eq_refl V) as (T & U). rewrite (U eq_refl). cbn [is_aggregate flat_map]. assert (Hr : is_read (r_body (cx_r c)) = false) by (rewrite Eb; reflexivity).
      assert (Ea : a = BProject l') by (rewrite Er in Eb'; cbn [r_body] in Eb'; destruct a as [?|?|?|[|? ?] ?|?|?|?| |?]; cbn [finish] in Eb'; try discriminate; exact Eb'). subst a.
      pose proof (forall2_len _ _ _ Hx) as Ll. pose proof (forall2_len _ _ _ Hg) as Lgen. destruct (forall_at_nth _ _ _ _ S1) as (Ln & Sn). pose proof (generated_reps known c Hc Hr) as Gr. pose proof (reps_proper is_stored is_new c Hproper _ _ Gr) as Pg.
      assert (Range : Forall (fun x => match x with FieldModel.GColumn z => FieldModel.at_index C z <> None | _ => True end) gx).
      { clear -M1 Hp Hc. induction M1 as [|e x es gx M _ IH]; [constructor|]. inversion Hp as [|? ? Pe Hp']; subst. constructor; [|exact (IH Hp')]. destruct x as [z|]; [|exact I]. destruct e as [|?|[z0 ch| | |] r| | | | | | | | | | ]; cbn in M; try (destruct M as (? & M)); try discriminate. injection M as ->. cbn in Pe. destruct ch; [contradiction|]. destruct r; try contradiction.
        unfold in_range in Pe. destruct (pick (cx_F c) z0) as [q|] eqn:Eq; [|congruence]. destruct (rep_pick _ _ _ _ _ (ck_fields _ _ Hc) Eq (short_range known c Hc)) as (y & _ & _ & _ & Y & _). congruence. }
      set (given := snd (given_names t (n_details node))).
      assert (Add : add_expressions (map rc C) given l' (map rc []) = map rc ([] ++ gen)).
      { apply add_expressions_spec. apply forall_at_intro; [cbn; lia|]. intros k e' col Ek Ecol. cbn [length Nat.add]. destruct (forall2_nth_r _ _ _ Hx _ _ Ek) as (e0 & Ee & Se). destruct (forall2_nth_r _ _ _ Hg _ _ Ecol) as (e1 & Ee1 & He1). assert (e1 = e0) by congruence. subst e1.
        destruct (is_column e0) eqn:Ce.
        - destruct e0 as [|?|[z ch| | |] r| | | | | | | | | | ]; try discriminate Ce. inversion Se as [|z0 z' Sz| | |]; subst. destruct He1 as (_ & He1). destruct (same_at z z' col Sz He1) as (_ & A2). unfold FieldModel.at_index in *. rewrite nth_error_map, A2. reflexivity.
        - assert (N1 : exists n, col = new_column n n) by (destruct e0 as [|?|[] ?| | | | | | | | | | ]; try exact He1; discriminate Ce). destruct N1 as (n & ->).
          assert (Nn : n <> []). { rewrite Forall_forall in Pg. pose proof (Pg _ (nth_error_In _ _ Ecol)) as P. inversion P; subst. apply name_nonempty, Hnew. assumption. }
          assert (Given : nth k given [] = n).
          { destruct (nth_error nodes k) as [[nd o]|] eqn:Ek2; [|apply nth_error_None in Ek2; assert (k < length l') by (apply nth_error_Some; congruence); lia]. destruct (Sn k _ Ek2) as (y & _ & Ho & _). cbn [Nat.add fst snd] in Ho.
            assert (Ho' : o = Some n). { rewrite Ho. unfold naming_of. cbn [nm_alternative nm_alias]. destruct (at_position k (rn_alternatives (cx c))) as [s|] eqn:Ap.
              - exfalso. apply at_position_in in Ap. rewrite Ealt in Ap. destruct (alternatives_spec C gx [] [] [] (Forall2_nil _) Range ltac:(discriminate) k s Ap) as (z & x & G1 & _). cbn [app] in G1. destruct (forall2_nth _ _ _ M1 _ _ Ee) as (g1 & G3 & G4). rewrite G1 in G3. injection G3 as <-.
                destruct e0 as [|?|[] ?| | | | | | | | | | ]; cbn in G4; try discriminate Ce; destruct G4 as (? & G4); discriminate.
              - rewrite Ecol. cbn [FieldModel.c_alias new_column]. destruct n; [congruence|reflexivity]. }
            rewrite Ho' in Ek2. subst given. rewrite Ds. eapply given_nth. exact Ek2. }
          destruct e' as [|?|[z ch| | |] r| | | | | | | | | | ]; try exact (f_equal column_named Given). pose proof (same_is_column _ _ _ _ Se) as Q. rewrite Ce in Q. discriminate Q. }
      cbn [map app] in Add. destruct (close_relation given (BProject []) (n_details node) (BProject l') [] e Hr) as (d & D1 & D2).
      + rewrite Eb. exact T.
      + exact Add.
      + rewrite Eb. exact Ve.
      + rewrite Eb. rewrite Er in SE. exact SE.
      + rewrite Eb in D1. cbn [is_aggregate] in D1. exists d. split; [|exact D2]. rewrite D1, Er. reflexivity.
    - inversion SB as [| | | | | |x x' x'' Hx E1 E2|]; subst. apply Plain; try reflexivity; try discriminate; [exact RB|]. cbn [r_body] in E2. destruct a; discriminate.
    - inversion SB as [| | | | | | |E1 E2]; subst. apply Plain; try reflexivity; try discriminate; [exact RB|]. cbn [r_body] in E2. destruct a; discriminate.
    - destruct K as (_ & _ & []).
  Qed.
End Visiting.
