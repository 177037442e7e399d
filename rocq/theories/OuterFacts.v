(** Which columns the names in a relation stand for that may be within subqueries. *)
From Verif Require Import Base BaseFacts StringsModel StringsFacts EnumModel TypeModel LexModel NameModel ExprModel RelModel RelFacts RelReadFacts ResolveFacts SectionModel WholeModel SoundFacts FirstFacts TrapPlanFacts ColumnFacts StepFacts SubFacts SubPlanFacts.
From Verif Require TrapFacts FieldModel PrintFacts TreeModel SubModel.
From Coq Require Import Lia ZifyBool ZifyNat ZifyN Permutation.

(** * Specification *)
(** The columns that an expression reads: how many relations further out, and which number *)
Fixpoint e_refs (e : expr) : list (N * Z) :=
  match e with
  | ESel (SegField z _) r => [(steps r, z)]
  | EFun _ args deprecated _ _ => flat_map (fun a => match a with AValue x => e_refs x | _ => [] end) args ++ flat_map e_refs deprecated
  | EIfThen ifs els => flat_map (fun c => let '(i, t) := c in given e_refs i ++ given e_refs t) ifs ++ given e_refs els
  | ECast x _ _ => e_refs x
  | EIn l _ => flat_map e_refs l
  | ECompare _ _ x _ => given e_refs x
  | _ => []
  end.
(** The columns of a relation: those of its inputs and its own.  A name is looked for in the relation itself and then outwards; in each relation among its own columns first. *)
Definition columns_seen := (list label * list label)%type.
Definition unknown_to (c : columns_seen) (x : str) : Prop := (forall l, In l (snd c) -> ~ called x l) /\ forall l, In l (fst c) -> ~ refers x l.
Inductive found : list columns_seen -> str -> N * Z -> Prop :=
| FD_here c l x z : picks (fst c) (snd c) x z -> found (c :: l) x (0%N, z)
| FD_around c l x k z : unknown_to c x -> found l x (k, z) -> found (c :: l) x ((k + 1)%N, z).
(** The columns of a scope, and scopes that are not too large and have no columns with a second name *)
Definition seen_by (ss : FieldModel.schemas) (q : FieldModel.scope) : columns_seen := (map (lab ss) (FieldModel.q_fields q), map (lab ss) (FieldModel.q_generated q)).
Definition simple_scope (q : FieldModel.scope) : Prop := Forall plain (FieldModel.q_fields q) /\ Forall plain (FieldModel.q_generated q) /\ (Z.of_nat (length (FieldModel.q_fields q) + length (FieldModel.q_generated q)) < 2 ^ 31)%Z.
(** Relations around a relation, from the inside out *)
Inductive surround (pn : list pnode) : str -> list str -> Prop :=
| SR_none n : surround pn n []
| SR_more n p l : inside pn n p -> surround pn p l -> surround pn n (p :: l).
(** The columns that relation p is known to have when relation n is read *)
Definition known_columns (ss : FieldModel.schemas) (known : list known_rel) (n p : str) : columns_seen :=
  if p =s n then ([], []) else match find_rel p known with Some (_, d) => (map (lab ss) (FieldModel.d_fields d), map (lab ss) (FieldModel.d_generated d)) | None => ([], []) end.
Definition simple_known (known : list known_rel) : Prop := forall n r d, find_rel n known = Some (r, d) ->
  Forall plain (FieldModel.d_fields d) /\ Forall plain (FieldModel.d_generated d) /\ (Z.of_nat (length (FieldModel.d_fields d) + length (FieldModel.d_generated d)) < 2 ^ 31)%Z.

(** * Expressions *)
Lemma each_refs {A B} (R : str -> N * Z -> Prop) (f : A -> evaluated B) (g : B -> list (N * Z)) (w : A -> list str) l : Forall (fun a => forall b, f a = Ok (b, []) -> Forall2 R (w a) (g b)) l -> forall bs,
  eachE f l = Ok (bs, []) -> Forall2 R (flat_map w l) (flat_map g bs).
Proof.
  induction 1 as [|a l Ha _ IH]; intros bs E; [injection E as <-; constructor|]. apply FirstFacts.each_cons in E as (b & bs' & -> & Eb & Ebs). cbn [flat_map]. apply Forall2_app; [exact (Ha b Eb)|exact (IH bs' Ebs)].
Qed.
Lemma pairs_refs l p o : pairs_of l = (p, o) -> flat_map (fun c : option expr * option expr => let '(i, t) := c in given e_refs i ++ given e_refs t) (map (fun q => (Some (fst q), Some (snd q))) p) ++ given e_refs o = flat_map e_refs l.
Proof.
  revert l p o. fix IH 1. intros [|a [|b l]] p o E; cbn [pairs_of] in E.
  - injection E as <- <-. reflexivity.
  - injection E as <- <-. cbn. rewrite app_nil_r. reflexivity.
  - destruct (pairs_of l) as [p' o'] eqn:F. injection E as <- <-. cbn [map flat_map fst snd given]. rewrite <- (IH l p' o' F), <- !app_assoc. reflexivity.
Qed.
Definition finds_ref (fc : str -> option (N * Z)) (x : str) (z : N * Z) : Prop := fc x = Some z.
Lemma read_refs ff fr fc node : forall e, visitExpr ff fr fc node = Ok (e, []) -> Forall2 (finds_ref fc) (columns_in node) (e_refs e).
Proof.
  induction node as [n args ty IH|c|t|e ty IH|n|l n IH|b n|e op b n IH] using FirstFacts.enode_ind2; intros e' E; cbn [visitExpr columns_in] in *.
  - destruct (to_lower n =s $"ifthen") eqn:Ei; cbn [negb andb].
    + apply bindE_ok in E as (l & El & E).
      assert (X : Forall2 (finds_ref fc) (flat_map (fun a : str * enode => let '(_, x) := a in columns_in x) args) (flat_map e_refs l)).
      { revert El. apply each_refs. rewrite Forall_forall in *. intros [s x] Hin. exact (IH _ Hin). }
      destruct l as [|a l]; [injection E as <-; cbn [e_refs]; exact X|]. destruct (pairs_of (a :: l)) as [p o] eqn:Fp. injection E as <-. cbn [e_refs]. rewrite (pairs_refs _ _ _ Fp). exact X.
    + apply bindE_ok in E as (f & Ef & E). apply bindE_ok in E as (l & El & E). apply bindE_ok in E as (ty' & _ & E). injection E as <-. cbn [e_refs flat_map]. rewrite app_nil_r.
      revert El. apply each_refs. rewrite Forall_forall in *. intros [s x] Hin b. destruct (endsWith s enum_suffix); [intros X; injection X as <-; constructor|]. intros X. apply bindE_ok in X as (y & Hy & X). injection X as <-. exact (IH _ Hin _ Hy).
  - apply bindE_ok in E as (l & _ & E). injection E as <-. constructor.
  - destruct (fc t) as [[s f]|] eqn:F; [|discriminate]. injection E as <-. constructor; [|constructor]. unfold finds_ref. rewrite F. destruct (N.ltb_spec 0 s); [reflexivity|]. replace s with 0%N by lia. reflexivity.
  - apply bindE_ok in E as (x & Ex & E). apply bindE_ok in E as (ty' & _ & E). injection E as <-. exact (IH x Ex).
  - apply subquery_found in E as [-> E]. constructor.
  - destruct (fr n) eqn:F; [|discriminate]. apply bindE_ok in E as (es & Ees & E). apply subquery_found in E as [-> E]. cbn [e_refs]. revert Ees. apply each_refs. exact IH.
  - apply subquery_found in E as [-> E]. constructor.
  - apply bindE_ok in E as (x & Ex & E). apply subquery_found in E as [-> E]. cbn [e_refs given]. exact (IH x Ex).
Qed.

Definition refs (b : body) : list (N * Z) := flat_map e_refs (body_exprs b).
Section Detail.
  Variables (ff : str -> option N) (fr : str -> option bool) (fc : str -> option (N * Z)) (columns : nat) (ks ksch : str -> bool).
  Notation fc' := (fun _ _ => fc).
  Lemma reads_refs i j e x : reads ff fr fc' i j e x -> Forall2 (finds_ref fc) (columns_in e) (e_refs x).
  Proof. intros H. apply (read_refs ff fr fc e). exact (reads_visit ff fr fc' i j e x H). Qed.
  Lemma sort_refs i j e b s : SortSays ff fr fc' i j e b s -> Forall2 (finds_ref fc) (columns_in e) (e_refs (fst s)).
  Proof. intros H. inversion H; subst; cbn [fst]; eapply reads_refs; eassumption. Qed.
  Lemma detail_refs i b d b' : WholeModel.is_aggregate b = false -> visitDetail ff fr fc' columns ks ksch i b d = Ok (b', []) ->
    exists zs, Forall2 (finds_ref fc) (detail_names d) zs /\ Permutation (refs b') (refs b ++ zs) /\ (head b <> 0 -> head b <> 6 -> refs b' = refs b ++ zs).
  Proof.
    intros Hb H. apply detail_iff in H as (x & I & A). unfold refs.
    assert (N : forall b, body_exprs b' = body_exprs b -> exists zs, Forall2 (finds_ref fc) [] zs /\ Permutation (flat_map e_refs (body_exprs b')) (flat_map e_refs (body_exprs b) ++ zs) /\ (head b <> 0 -> head b <> 6 -> flat_map e_refs (body_exprs b') = flat_map e_refs (body_exprs b) ++ zs)).
    { intros b1 ->. exists []. split; [constructor|]. rewrite app_nil_r. auto. }
    inversion I; subst; cbn [add] in A; destruct b as [so sc f g p|cd|o ct|gs ms|l0|l0|t0 e0 p0| |nm]; try discriminate A; try discriminate Hb;
      repeat match goal with A : match ?o with _ => _ end = Some _ |- _ => destruct o; try discriminate A end; injection A as <-; cbn [detail_names]; try (apply N; reflexivity); clear N.
    all: try match goal with H : reads ff fr _ _ _ _ _ |- _ => apply reads_refs in H as R; eexists; split; [exact R|] end.
    all: try match goal with H : SortSays _ _ _ _ _ _ _ _ |- _ => apply sort_refs in H as R; eexists; split; [exact R|] end.
    all: cbn [body_exprs some flat_map app head]; rewrite ?map_app, ?flat_map_app; cbn [map flat_map]; rewrite ?app_nil_r.
    all: try (split; [reflexivity|]; reflexivity).
    all: try (split; [reflexivity|]; intros _ N6; exfalso; apply N6; reflexivity).
    all: try (split; [apply Permutation_app_comm|]; intros ? N6; exfalso; apply N6; reflexivity).
    all: try (split; [|intros N0; exfalso; apply N0; reflexivity]; rewrite ?flat_map_app; cbn [flat_map]; rewrite ?app_nil_r; (reflexivity || apply Permutation_app_comm)).
    all: try (split; [|intros _ N0; exfalso; apply N0; reflexivity]; rewrite ?flat_map_app; cbn [flat_map]; rewrite ?app_nil_r; (reflexivity || apply Permutation_app_comm)).
  Qed.
End Detail.

(** * Relations *)
Section Track.
  Variables (ff : str -> option N) (fr : str -> option bool) (kn : str -> bool) (ss : FieldModel.schemas) (ag : bool) (fields : list FieldModel.column) (outs : list FieldModel.scope).
  Notation track := (SubModel.track ff fr kn ss ag fields outs false).
  Notation fc := (SubModel.find_field ss ag fields outs false []).
  Lemma track_refs ds : forall i b b' g', WholeModel.is_aggregate b = false -> track i [] b ds = Ok ((b', g'), []) ->
    g' = [] /\ exists zs, Forall2 (finds_ref fc) (flat_map detail_names ds) zs /\ Permutation (refs b') (refs b ++ zs) /\ (head b <> 0 -> head b <> 6 -> refs b' = refs b ++ zs).
  Proof.
    induction ds as [|d ds IH]; intros i b b' g' Hb H; cbn [SubModel.track] in H.
    - apply fine_inj in H. injection H as <- <-. split; [reflexivity|]. exists []. split; [constructor|]. rewrite app_nil_r. auto.
    - apply bindR_clean in H as (b1 & H1 & H). destruct (adds_nothing ff fr kn _ _ i b d b1 Hb H1) as [G Hb1]. assert (A : added_columns fields d b1 = []) by (destruct d; try reflexivity; discriminate G). rewrite A in H. cbn [app] in H.
      assert (H1' : visitDetail ff fr (fun _ _ => fc) (length fields) kn kn i b d = Ok (b1, [])) by (destruct d; try discriminate G; exact H1). assert (Hh : head b1 = head b) by (apply detail_iff in H1 as (x & _ & Ad); exact (add_head _ _ _ _ _ Ad)).
      apply detail_refs in H1' as (z1 & R1 & P1 & Q1); [|exact Hb]. apply IH in H as (-> & z2 & R2 & P2 & Q2); [|exact Hb1]. rewrite Hh in Q2. split; [reflexivity|]. exists (z1 ++ z2). split; [cbn [flat_map]; apply Forall2_app; assumption|]. rewrite app_assoc. split.
      + rewrite P2. apply Permutation_app_tail. exact P1.
      + intros N0 N6. rewrite (Q2 N0 N6), (Q1 N0 N6). reflexivity.
  Qed.
End Track.
Lemma found_here ss q x : simple_scope q -> match FieldModel.find_in ss false q x with Some z => picks (fst (seen_by ss q)) (snd (seen_by ss q)) x z | None => unknown_to (seen_by ss q) x end.
Proof.
  intros (Pf & Pg & L). unfold FieldModel.find_in, FieldModel.size, seen_by, picks, unknown_to. cbn [fst snd]. rewrite andb_false_r, map_length.
  pose proof (last_columns ss (FieldModel.match_generated x) (called x) _ Pg (called_iff ss x)) as G. destruct (FieldModel.rfind _ (FieldModel.q_generated q)) as [p|].
  - destruct G as [G1 G2]. left. eexists. split; [exact G2|]. rewrite TrapFacts.index32_small by lia. lia.
  - pose proof (last_columns ss (FieldModel.match_input ss x) (refers x) _ Pf (refers_iff ss x)) as I. destruct (FieldModel.rfind _ (FieldModel.q_fields q)) as [p|]; [|auto]. destruct I as [I1 I2]. right. split; [exact G|]. rewrite TrapFacts.index32_small by lia. exact I2.
Qed.
Lemma found_outwards ss x : forall outs q r, Forall simple_scope (q :: outs) -> SubModel.look ss false q outs x = Some r -> found (map (seen_by ss) (q :: outs)) x r.
Proof.
  induction outs as [|p outs IH]; intros q r H E; inversion H as [|? ? Hq Ho]; subst; cbn [SubModel.look] in E; pose proof (found_here ss q x Hq) as F; destruct (FieldModel.find_in ss false q x) as [z|]; cbn [option_map] in E; try discriminate E.
  - injection E as <-. constructor. exact F.
  - injection E as <-. constructor. exact F.
  - destruct (SubModel.look ss false p outs x) as [[k z]|] eqn:E'; [|discriminate E]. injection E as <-. cbn [map]. constructor 2; [exact F|]. exact (IH p (k, z) Ho E').
Qed.
(** What a section of a relation that is no aggregation says, if its inputs' columns and those of the relations around it are known *)
Theorem columns_outwards ff fr kn ss fields outs given schema b0 ds r d : WholeModel.is_aggregate b0 = false -> body_exprs b0 = [] -> Forall plain fields -> (Z.of_nat (length fields) < 2 ^ 31)%Z -> Forall simple_scope outs ->
  SubModel.visitColumns ff fr kn ss false fields outs false given schema b0 ds = Ok ((r, d), []) ->
  exists names, Permutation (flat_map e_refs (body_exprs (r_body r))) names /\ Forall2 (found ((map (lab ss) fields, []) :: map (seen_by ss) outs)) (flat_map detail_names ds) names.
Proof.
  intros A B Pf L Ho V. unfold SubModel.visitColumns in V. apply bindR_clean in V as ([b g] & H1 & V). apply bindR_clean in V as (emit & _ & V). destruct (FieldModel.applyOutputMapping _ _ _ _ _) as [output missing]. apply fine_inj in V. injection V as <- _. cbn [r_body].
  apply (track_refs ff fr kn ss false fields outs ds 0 b0 b g A) in H1 as (_ & zs & F & P & _). unfold refs in P. rewrite B in P. cbn [flat_map app] in P. exists zs. split.
  - rewrite <- P. destruct b as [| | |[|? ?] ?| | | | |]; reflexivity.
  - clear P. induction F as [|x k xs ks H _ IH]; constructor; [|exact IH]. unfold finds_ref, SubModel.find_field in H. change (map (lab ss) fields, []) with (seen_by ss (scope_with false fields [])). apply (found_outwards ss x outs (scope_with false fields []) k); [|exact H].
    constructor; [|exact Ho]. split; [exact Pf|]. split; [constructor|]. cbn. lia.
Qed.
Lemma outward_surround nodes tab rp bound : TreeModel.readText (SubModel.text_of nodes tab) = Ok (rp, []) -> forall fuel n, surround nodes n (fst (SubModel.outward rp bound fuel n)).
Proof.
  intros Er. induction fuel as [|fuel IH]; intros n; cbn [SubModel.outward]; destruct (SubModel.enclosing rp bound n) as [p| |] eqn:P; try constructor. specialize (IH p). destruct (SubModel.outward rp bound fuel p) as [l e]. cbn [fst] in *. constructor; [exact (enclosing_around nodes tab rp Er _ _ _ P)|exact IH].
Qed.
Lemma scope_known ss known n p : simple_known known -> simple_scope (SubModel.scope_at known n p) /\ seen_by ss (SubModel.scope_at known n p) = known_columns ss known n p.
Proof.
  intros K. unfold SubModel.scope_at, known_columns. destruct (p =s n); [split; [|reflexivity]; repeat split; constructor|]. destruct (find_rel p known) as [[r d]|] eqn:E; [|split; [|reflexivity]; repeat split; constructor]. split; [exact (K _ _ _ E)|reflexivity].
Qed.
(** A section of a text, when the columns of some relations are known *)
Theorem section_outwards nodes tab rp ff earlier t known node t' r d : TreeModel.readText (SubModel.text_of nodes tab) = Ok (rp, []) -> simple_known (known ++ earlier) ->
  let inputs := fields_of rp (known ++ earlier) (n_name node) in Forall plain inputs -> (Z.of_nat (length inputs) < 2 ^ 31)%Z -> ~ is_kind node $"aggregate" ->
  SubModel.visit_node ff tab rp earlier false t known node = Ok (t', known ++ [(n_name node, (r, d))], []) ->
  exists l, surround nodes (n_name node) l /\ exists columns, Permutation (flat_map e_refs (body_exprs (r_body r))) columns /\
    Forall2 (found ((map (lab (schema_list tab)) inputs, []) :: map (known_columns (schema_list tab) (known ++ earlier) (n_name node)) l)) (flat_map columns_in (expressions_of node)) columns.
Proof.
  intros Er K inputs Pf L Ka V. unfold SubModel.visit_node in V.
  assert (Ne : forall a b, Ok (t, known, a) <> Ok (t', known ++ [(n_name node, (r, d))], b) :> outcome (names * list known_rel * list werr)).
  { intros a b E. injection E as _ E _. rewrite <- (app_nil_r known) in E at 1. apply app_inv_head in E. discriminate E. }
  destruct (taken rp known (n_name node)); [exfalso; exact (Ne _ _ V)|]. destruct (empty_body (n_kind node)) as [b0|] eqn:B; [|discriminate V].
  destruct (match b0 with BProject _ => given_names t (n_details node) | _ => (t, []) end) as [t1 gv]. destruct (SubModel.visitColumns _ _ _ _ _ _ _ _ _ _ _ _) as [[[r' d'] e]| |] eqn:V'; cbn [obind fst snd] in V; try discriminate V.
  destruct (_ && _); [discriminate V|]. injection V as <- E Ee. apply app_inv_head in E. injection E as -> ->. apply app_eq_nil in Ee as [Ee _]. apply map_eq_nil in Ee. subst e.
  assert (A : WholeModel.is_aggregate b0 = false). { destruct (WholeModel.is_aggregate b0) eqn:A; [|reflexivity]. exfalso. apply Ka. unfold is_kind. rewrite <- (proj1 (empty_kind _ _ B)). apply aggregate_kind. exact A. }
  rewrite A in V'. exists (fst (SubModel.around rp (n_name node))). split; [exact (outward_surround nodes tab rp _ Er _ _)|].
  assert (O : Forall simple_scope (SubModel.scopes_around rp earlier false known (n_name node))) by (unfold SubModel.scopes_around; apply Forall_map, Forall_forall; intros p _; apply (scope_known (schema_list tab)); exact K).
  destruct (columns_outwards _ _ _ _ _ _ _ _ _ _ _ _ A (proj1 (proj2 (empty_kind _ _ B))) Pf L O V') as (cs & P & F). exists cs. split; [exact P|].
  replace (flat_map columns_in (expressions_of node)) with (flat_map detail_names (n_details node)).
  - unfold SubModel.scopes_around in F. rewrite map_map in F. rewrite (map_ext _ (known_columns (schema_list tab) (known ++ earlier) (n_name node))) in F; [exact F|]. intros p. apply scope_known. exact K.
  - clear. unfold expressions_of. induction (n_details node) as [|x ds IH]; [reflexivity|]. cbn [flat_map]. rewrite flat_map_app, IH. f_equal. destruct x; cbn [detail_names flat_map]; rewrite ?app_nil_r; reflexivity.
Qed.
