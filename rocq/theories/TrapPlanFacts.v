(** Which texts lead to undefined behaviour when they are read: whole texts. *)
From Verif Require Import Base BaseFacts StringsModel StringsFacts TypeModel LexModel ExprModel RelModel SectionModel FirstFacts WrittenFacts WholeModel SoundFacts TrapFacts.
From Verif Require FieldModel DeclModel PipeModel PipeFacts TreeModel TreeFacts DefineFacts EnumModel SymbolModel WordFacts.
From Coq Require Import Lia ZifyBool ZifyNat ZifyN.

(** * What is meant *)
(** The names that schemas, sources and extension spaces define *)
Definition defined (nodes : list pnode) : list str := map (fun d => fst (fst d)) (DefineFacts.defines_all 0 nodes).
Definition relation_trap (n : rnode) : Prop := (exists d, In d (n_details n) /\ detail_trap d) \/ grouped_again (n_details n).
(** A relation whose inputs have too many columns for 32 bits when it is visited, by either pass *)
Definition too_wide (nodes : list pnode) : Prop := exists tab e1 rp e2 earlier before n after known e3,
  symbols nodes = Ok (tab, e1) /\ TreeModel.readText (text_of nodes tab) = Ok (rp, e2) /\
  let visit := fun earlier => visit_nodes (DeclModel.resolve_function (entries 0 0 nodes)) tab rp earlier SymbolModel.empty_table [] in
  (earlier = [] \/ exists e, visit [] (relations_of nodes) = Ok (earlier, e)) /\
  relations_of nodes = before ++ n :: after /\ visit earlier before = Ok (known, e3) /\ (2 ^ 31 <= Z.of_nat (length (fields_of rp (known ++ earlier) (n_name n))))%Z.
Definition plan_trap (nodes : list pnode) : Prop :=
  (* the type of a column *)
  (exists n items c w, In (PSchema n items) nodes /\ In (c, w) items /\ TypeTrap false w) \/
  (* a pipeline that goes through something that is no relation *)
  (exists x, In x (concat (arrows nodes)) /\ In x (defined nodes)) \/
  (* a relation *)
  (exists n, In n (relations_of nodes) /\ relation_trap n) \/ too_wide nodes.

(** The same with words outside of ASCII *)
Definition relation_case (n : rnode) : Prop := (exists d, In d (n_details n) /\ detail_case d) \/ grouped_again (n_details n).

(** * Relations *)
Lemma plain_app a b : plain_columns (a ++ b) <-> plain_columns a /\ plain_columns b.
Proof. unfold plain_columns. apply Forall_app. Qed.
Lemma plain_some l x : plain_columns l -> (forall c, x = Some c -> In c l) -> plain_columns (some_list x).
Proof. unfold plain_columns. rewrite Forall_forall. intros H I. destruct x as [c|]; cbn; constructor; auto. Qed.
Lemma plain_named l : plain_columns (map column_named l).
Proof. unfold plain_columns. rewrite Forall_forall. intros c I. apply in_map_iff in I as (n & <- & _). reflexivity. Qed.
Lemma plain_mapped cols m : plain_columns cols -> forall o, plain_columns o -> plain_columns (fst (FieldModel.map_columns cols m o)).
Proof.
  intros H. induction m as [|z m IH]; intros o Ho; [exact Ho|]. cbn [FieldModel.map_columns]. destruct (_ <? _)%Z.
  - destruct (FieldModel.at_index cols z) as [c|] eqn:E; [|exact (IH _ Ho)]. apply IH, plain_app. split; [exact Ho|]. constructor; [|constructor]. unfold plain_columns in H. rewrite Forall_forall in H. apply H. exact (nth_error_In _ _ E).
  - specialize (IH _ Ho). destruct (FieldModel.map_columns cols m o). exact IH.
Qed.
Section Nodes.
  Variables (ff : str -> option N) (tab : table) (S : TreeModel.read_plan) (earlier : list known_rel).
  Definition plain_known (l : list known_rel) : Prop := Forall (fun e => plain_columns (FieldModel.exposed (snd (snd e)))) l.
  Lemma emits_ub f l : visitEmits f l <> UB.
  Proof.
    induction l as [|d l IH]; [discriminate|]. cbn [visitEmits]. destruct d as [|n|k e|e n| |n|e|x|e by_|t|n|c]; try exact IH. destruct (f c) as [[steps z] missing]. destruct (0 <? steps)%N; unfold bindR; cbn [obind fst snd]; destruct (visitEmits f l) as [[]| |]; cbn; congruence.
  Qed.
  Section One.
    Variables (fr : str -> option bool) (kn : str -> bool) (ss : FieldModel.schemas) (ag : bool) (fields : list FieldModel.column).
    Hypothesis Hp : plain_columns fields.
    Lemma track_plain ds : forall i g b b' g' m, plain_columns g -> track ff fr kn ss ag fields i g b ds = Ok (b', g', m) -> plain_columns g'.
    Proof.
      induction ds as [|d ds IH]; intros i g b b' g' m Hg H; cbn [track] in H; [injection H as _ <- _; exact Hg|]. unfold bindR in H.
      match type of H with (x <- ?o ;; _) = _ => destruct o as [[b1 m1]| |]; cbn [obind fst snd] in H; try discriminate end.
      match type of H with (x <- ?o ;; _) = _ => destruct o as [[[b2 g2] m2]| |] eqn:E; cbn [obind fst snd] in H; try discriminate end. injection H as <- <- _. refine (IH _ _ _ _ _ _ _ E). apply plain_app. split; [exact Hg|].
      destruct d; cbn [added_columns]; try (constructor; fail); [|apply plain_named]. destruct b1 as [| | |[|y r] ms| | | | |]; try (constructor; fail). destruct (rev y) as [|[| |[z o| | |] q| | | | | | | | | |] t]; try (constructor; fail).
      apply (plain_some fields); [exact Hp|]. intros c Hc. exact (nth_error_In _ _ Hc).
    Qed.
    Lemma added_plain given es : forall g, plain_columns g -> plain_columns (add_expressions fields given es g).
    Proof.
      induction es as [|x es IH]; intros g Hg; [exact Hg|]. cbn [add_expressions]. destruct x as [| |[z o| | |] q| | | | | | | | | |]; apply IH, plain_app; (split; [exact Hg|]); try (constructor; [reflexivity|constructor]).
      apply (plain_some fields); [exact Hp|]. intros c Hc. exact (nth_error_In _ _ Hc).
    Qed.
    Lemma visited_plain given schema b0 ds r d m : plain_columns schema -> visitColumns ff fr kn ss ag fields given schema b0 ds = Ok (r, d, m) -> plain_columns (FieldModel.exposed d).
    Proof.
      intros Hs H. unfold visitColumns, bindR in H. destruct (track _ _ _ _ _ _ _ _ _ _) as [[[b g] m1]| |] eqn:E; cbn [obind fst snd] in H; try discriminate.
      pose proof (track_plain _ _ _ _ _ _ _ (Forall_nil _) E) as Hg0.
      set (g1 := match b with BProject es => add_expressions fields given es g | _ => g end) in *. assert (Hg : plain_columns g1) by (subst g1; destruct b; auto using added_plain). clearbody g1.
      match type of H with (y <- (x <- ?o ;; _) ;; _) = _ => destruct o as [[emit m2]| |]; cbn [obind fst snd] in H; try discriminate end.
      set (out := if ag then schema ++ g1 else schema) in *. assert (Ho : plain_columns out) by (subst out; destruct ag; [apply plain_app; auto|exact Hs]).
      assert (Hm : plain_columns (fst (FieldModel.applyOutputMapping ag fields g1 out emit))).
      { destruct emit as [|z emit]; [exact Ho|]. cbn [FieldModel.applyOutputMapping]. destruct ag; apply plain_mapped; auto; [constructor|apply plain_app; auto]. }
      destruct (FieldModel.applyOutputMapping ag fields g1 out emit) as [out' missing]. cbn [obind fine fst snd] in *. injection H as _ <- _. unfold FieldModel.exposed. cbn [FieldModel.d_output FieldModel.d_fields FieldModel.d_generated].
      destruct out'; [apply plain_app; auto|exact Hm].
    Qed.
    Lemma columns_ub given schema b0 ds : (Z.of_nat (length fields) < 2 ^ 31)%Z -> visitColumns ff fr kn ss ag fields given schema b0 ds = UB -> (exists d, In d ds /\ detail_case d) \/ grouped_again ds.
    Proof.
      intros Hw H. unfold visitColumns in H. apply bindR_ub in H as [H|([b g] & m & _ & H)].
      - refine (track_ub ff fr kn ss ag fields Hp Hw ds [] 0 [] b0 _ H). intros c x [].
      - apply bindR_ub in H as [H|(emit & m2 & _ & H)]; [destruct (emits_ub _ _ H)|]. destruct (FieldModel.applyOutputMapping _ _ _ _ _); discriminate H.
    Qed.
  End One.
  Lemma known_plain l : plain_known l -> forall n r d, find_rel n l = Some (r, d) -> plain_columns (FieldModel.exposed d).
  Proof.
    induction 1 as [|[m [r0 d0]] l Hx _ IH]; intros n r d E; [discriminate|]. cbn [find_rel] in E. destruct (m =s n); [injection E as <- <-; exact Hx|exact (IH _ _ _ E)].
  Qed.
  Lemma fields_plain l n : plain_known l -> plain_columns (fields_of S l n).
  Proof.
    intros H. unfold fields_of, plain_columns. apply Forall_flat_map. rewrite Forall_forall. intros i _. destruct (find_rel i l) as [[r d]|] eqn:E; [exact (known_plain l H _ _ _ E)|constructor].
  Qed.
  Lemma schema_plain n : plain_columns (schema_columns tab n).
  Proof. unfold schema_columns. destruct (find_symbol tab n); [|constructor]. unfold plain_columns. rewrite Forall_forall. intros c I. apply in_map_iff in I as (x & <- & _). reflexivity. Qed.
  Hypothesis He : plain_known earlier.
  Lemma node_ub t known n : plain_known known -> visit_node ff tab S earlier t known n = UB -> relation_case n \/ (2 ^ 31 <= Z.of_nat (length (fields_of S (known ++ earlier) (n_name n))))%Z.
  Proof.
    intros Hk H. unfold visit_node in H. destruct (taken S known (n_name n)); [discriminate|]. destruct (empty_body (n_kind n)) as [b0|]; [|discriminate].
    destruct (match b0 with BProject _ => _ | _ => _ end) as [t' given]. destruct (visitColumns _ _ _ _ _ _ _ _ _ _) as [x| |] eqn:E; cbn [obind] in H; try discriminate. clear H.
    destruct (Z_lt_le_dec (Z.of_nat (length (fields_of S (known ++ earlier) (n_name n)))) (2 ^ 31)) as [L|L]; [left|right; exact L]. refine (columns_ub _ _ _ _ _ _ _ _ _ _ L E). apply fields_plain, Forall_app. auto.
  Qed.
  Lemma node_plain t known n t' known' e : plain_known known -> visit_node ff tab S earlier t known n = Ok (t', known', e) -> plain_known known'.
  Proof.
    intros Hk H. unfold visit_node in H. destruct (taken S known (n_name n)); [injection H as _ <- _; exact Hk|]. destruct (empty_body (n_kind n)) as [b0|]; [|injection H as _ <- _; exact Hk].
    destruct (match b0 with BProject _ => _ | _ => _ end) as [t2 given]. destruct (visitColumns _ _ _ _ _ _ _ _ _ _) as [[[r d] m]| |] eqn:E; cbn [obind fst snd] in H; try discriminate. injection H as _ <- _. apply Forall_app. split; [exact Hk|]. constructor; [|constructor].
    refine (visited_plain _ _ _ _ _ _ _ _ _ _ _ _ _ _ E); [apply fields_plain, Forall_app; auto|]. unfold plain_columns. apply Forall_flat_map. rewrite Forall_forall. intros s _. apply schema_plain.
  Qed.
  Lemma nodes_plain l : forall t known known' e, plain_known known -> visit_nodes ff tab S earlier t known l = Ok (known', e) -> plain_known known'.
  Proof.
    induction l as [|n l IH]; intros t known known' e Hk H; cbn [visit_nodes] in H; [injection H as <- _; exact Hk|]. destruct (visit_node _ _ _ _ t known n) as [[[t1 k1] e1]| |] eqn:E; cbn [obind] in H; try discriminate.
    destruct (visit_nodes _ _ _ _ t1 k1 l) as [[k2 e2]| |] eqn:E2; cbn [obind fst snd] in H; try discriminate. injection H as <- _. exact (IH _ _ _ _ (node_plain _ _ _ _ _ _ Hk E) E2).
  Qed.
  Lemma nodes_ub l : forall t known, plain_known known -> visit_nodes ff tab S earlier t known l = UB -> (exists n, In n l /\ relation_case n) \/
    exists before n after known' e, l = before ++ n :: after /\ visit_nodes ff tab S earlier t known before = Ok (known', e) /\ (2 ^ 31 <= Z.of_nat (length (fields_of S (known' ++ earlier) (n_name n))))%Z.
  Proof.
    induction l as [|n l IH]; intros t known Hk H; [discriminate|]. cbn [visit_nodes] in H. destruct (visit_node _ _ _ _ t known n) as [[[t1 k1] e1]| |] eqn:E; cbn [obind] in H; [|discriminate|].
    - destruct (visit_nodes _ _ _ _ t1 k1 l) as [[k2 e2]| |] eqn:E2; cbn [obind fst snd] in H; try discriminate. destruct (IH _ _ (node_plain _ _ _ _ _ _ Hk E) E2) as [(x & I & T)|(before & x & after & k' & e & -> & V & W)].
      + left. exists x. cbn. auto.
      + right. exists (n :: before), x, after, k', (e1 ++ e). split; [reflexivity|]. split; [|exact W]. cbn [visit_nodes]. rewrite E. cbn [obind]. rewrite V. reflexivity.
    - destruct (node_ub _ _ _ Hk E) as [T|W]; [left; exists n; cbn; auto|]. right. exists [], n, l, known, []. auto.
  Qed.
End Nodes.

(** * Sections *)
Lemma items_ub l items : visitItems l items = UB -> exists c w, In (c, w) items /\ TypeTrap false w.
Proof.
  induction items as [|[c w] items IH]; [discriminate|]. cbn [visitItems]. intros H. apply bind_ub in H as [H|(t & H)].
  - exists c, w. split; [left; reflexivity|exact (read_ub _ _ H)].
  - apply bind_ub in H as [H|(r & H)]; [|discriminate]. destruct (IH H) as (c' & w' & I & T). exists c', w'. cbn. auto.
Qed.
Lemma detail_no_ub d x : set_detail d x <> UB.
Proof. destruct d; cbn [set_detail]; try discriminate; unfold stoul; repeat match goal with |- context [match ?y with _ => _ end] => destruct y end; discriminate. Qed.
Lemma update_no_ub n f t : (forall x, f x <> UB) -> In n (map s_name t) -> update_file t n f <> UB.
Proof.
  intros Hf. induction t as [|s t IH]; [intros []|]. cbn [map update_file]. intros I. destruct (seq_eqb_spec (s_name s) n) as [E|E].
  - destruct (s_what s) as [| | | | | |[x|]| |]; try discriminate. specialize (Hf x). destruct (f x); cbn; congruence.
  - destruct I as [I|I]; [contradiction|]. specialize (IH I). destruct (update_file t n f); cbn; congruence.
Qed.
Lemma update_names n f t t' : update_file t n f = Ok t' -> map s_name t' = map s_name t.
Proof.
  revert t'. induction t as [|s t IH]; intros t'; [discriminate|]. cbn [update_file]. destruct (s_name s =s n).
  - destruct (s_what s) as [| | | | | |[x|]| |]; try discriminate. destruct (f x); cbn; try discriminate. intros H. injection H as <-. reflexivity.
  - destruct (update_file t n f) as [r| |]; cbn; try discriminate. intros H. injection H as <-. cbn. rewrite (IH r eq_refl). reflexivity.
Qed.
Lemma details_no_ub n l : forall t, In n (map s_name t) -> visitFileDetails t n l <> UB.
Proof.
  induction l as [|d l IH]; intros t I; [discriminate|]. cbn [visitFileDetails]. pose proof (update_no_ub n (set_detail d) t (detail_no_ub d) I) as U. destruct (update_file t n _) as [t'| |] eqn:E; cbn [obind]; [|discriminate|contradiction].
  apply IH. rewrite (update_names _ _ _ _ E). exact I.
Qed.
Lemma files_no_ub l fs : forall t, visitFiles t l fs <> UB.
Proof.
  induction fs as [|f fs IH]; intros t; [discriminate|]. cbn [visitFiles]. pose proof (details_no_ub (fn_text f) (fn_details f) (t ++ [Sym (fn_text f) l (WDetail (Some no_file))])) as D.
  destruct (visitFileDetails _ _ _) as [t'| |]; cbn [obind]; [apply IH|discriminate|]. exfalso. apply D; [|reflexivity]. rewrite map_app, in_app_iff. cbn. auto.
Qed.
Lemma define_ub nodes : forall i t, define_all i t nodes = UB -> exists n items c w, In (PSchema n items) nodes /\ In (c, w) items /\ TypeTrap false w.
Proof.
  induction nodes as [|n nodes IH]; intros i t; [discriminate|]. cbn [define_all]. destruct (define i t n) as [x| |] eqn:E; cbn [obind]; [|discriminate|].
  - destruct (define_all (S i) (fst x) nodes) eqn:E2; cbn [obind]; try discriminate. intros _. destruct (IH _ _ E2) as (m & items & c & w & I & J). exists m, items, c, w. cbn. auto.
  - intros _. destruct n as [| | |name items|name [fs| |ns|]|uri fs]; cbn [define] in E; try discriminate.
    + destruct (visitItems (i, 0) items) eqn:E2; cbn [obind] in E; try discriminate. destruct (items_ub _ _ E2) as (c & w & J). exists name, items, c, w. cbn. auto.
    + destruct (visitFiles _ _ fs) eqn:E2; cbn [obind] in E; try discriminate. destruct (files_no_ub _ _ _ E2).
Qed.

(** * Pipelines *)
Lemma define_rels_table rs : forall t, exists l, fst (TreeModel.define_rels t rs) = t ++ map (fun n => (n, PipeModel.PRel PipeModel.no_data)) l.
Proof.
  induction rs as [|r rs IH]; intros t; cbn [TreeModel.define_rels]; [exists []; cbn; rewrite app_nil_r; reflexivity|]. destruct (PipeModel.plookup t (TreeModel.x_name r)).
  - destruct (IH t) as (l & E). exists l. destruct (TreeModel.define_rels t rs). exact E.
  - destruct (IH (t ++ [(TreeModel.x_name r, PipeModel.PRel PipeModel.no_data)])) as (l & E). exists (TreeModel.x_name r :: l). rewrite E, <- app_assoc. reflexivity.
Qed.
Lemma define_roots_table l : forall b t, exists l', fst (TreeModel.define_roots t b l) = t ++ map (fun n => (n, PipeModel.PRel PipeModel.no_data)) l'.
Proof.
  induction l as [|x l IH]; intros b t; cbn [TreeModel.define_roots]; [exists []; cbn; rewrite app_nil_r; reflexivity|]. destruct b.
  - destruct (IH true t) as (l' & E). exists l'. destruct (TreeModel.define_roots t true l). exact E.
  - destruct (PipeModel.plookup t TreeModel.root_name).
    + destruct (IH false t) as (l' & E). exists l'. destruct (TreeModel.define_roots t false l). exact E.
    + destruct (IH true (t ++ [(TreeModel.root_name, PipeModel.PRel PipeModel.no_data)])) as (l' & E). exists (TreeModel.root_name :: l'). rewrite E, <- app_assoc. reflexivity.
Qed.
Lemma lookup_others l n : PipeModel.plookup (map (fun n => (n, PipeModel.POther)) l) n = Some PipeModel.POther -> In n l.
Proof. induction l as [|m l IH]; cbn; [discriminate|]. destruct (seq_eqb_spec m n); auto. Qed.
Lemma rels_never_other l n : PipeModel.plookup (map (fun n => (n, PipeModel.PRel PipeModel.no_data)) l) n <> Some PipeModel.POther.
Proof. induction l as [|m l IH]; cbn; [discriminate|]. destruct (m =s n); [discriminate|exact IH]. Qed.
Lemma only_others x : exists t, (fst (TreeModel.define_roots (fst (TreeModel.define_rels (map (fun n => (n, PipeModel.POther)) (TreeModel.x_others x)) (TreeModel.x_rels x))) false (TreeModel.x_roots x)) = t) /\
  PipeFacts.fresh t /\ forall n, PipeModel.plookup t n = Some PipeModel.POther -> In n (TreeModel.x_others x).
Proof.
  destruct (define_rels_table (TreeModel.x_rels x) (map (fun n => (n, PipeModel.POther)) (TreeModel.x_others x))) as (l & ->). destruct (define_roots_table (TreeModel.x_roots x) false (map (fun n => (n, PipeModel.POther)) (TreeModel.x_others x) ++ map (fun n => (n, PipeModel.PRel PipeModel.no_data)) l)) as (l' & ->).
  eexists. split; [reflexivity|]. split; [apply fresh_app; [apply fresh_app; [apply fresh_other|apply fresh_rels]|apply fresh_rels]|].
  intros n. rewrite !PipeFacts.plookup_app. destruct (PipeModel.plookup (map _ (TreeModel.x_others x)) n) as [s|] eqn:E; [intros H; injection H as ->; exact (lookup_others _ _ E)|].
  destruct (PipeModel.plookup (map _ l) n) as [s|] eqn:E2; [intros H; injection H as ->; destruct (rels_never_other _ _ E2)|]. intros H. destruct (rels_never_other _ _ H).
Qed.
Lemma pipelines_ub x : TreeModel.readText x = UB -> exists n, In n (concat (TreeModel.x_pipes x)) /\ In n (TreeModel.x_others x).
Proof.
  unfold TreeModel.readText. destruct (only_others x) as (t & E & F & O). destruct (TreeModel.define_rels _ _) as [t1 e1]. cbn [fst] in E. destruct (TreeModel.define_roots t1 false _) as [t2 e2]. cbn [fst] in E. subst t2.
  intros H. destruct (existsb (fun n => existsb (fun m => m =s n) (TreeModel.x_others x)) (concat (TreeModel.x_pipes x))) eqn:D.
  - apply existsb_exists in D as (n & I & J). apply existsb_exists in J as (m & J & Q). apply seq_eqb_eq in Q. subst m. eauto.
  - exfalso. destruct (PipeFacts.read_pipelines t (TreeModel.x_pipes x) F) as (t' & errs & V & _).
    + intros n I Q. apply O in Q. assert (T : existsb (fun n => existsb (fun m => m =s n) (TreeModel.x_others x)) (concat (TreeModel.x_pipes x)) = true); [|congruence].
      apply existsb_exists. exists n. split; [exact I|]. apply existsb_exists. exists n. split; [exact Q|apply seq_eqb_refl].
    + change (map (map (fun n : str => (n, n))) (TreeModel.x_pipes x)) with (map PipeFacts.plain (TreeModel.x_pipes x)) in H. rewrite V in H. discriminate H.
Qed.

(** * Trees *)
Lemma build_no_ub rp : (forall s, In s (TreeModel.r_rels rp) -> TreeModel.x_exprs s = []) -> forall fuel n, TreeModel.build rp fuel n <> UB.
Proof.
  intros H fuel. induction fuel as [|fuel IH]; intros n; [discriminate|]. cbn [TreeModel.build]. destruct (TreeModel.find_section rp n) as [s|] eqn:E; [|discriminate]. apply find_some in E as [E _]. rewrite (H s E). cbn [TreeModel.attaches obind].
  assert (M : forall l, TreeModel.omap_list (TreeModel.build rp fuel) l <> UB).
  { induction l as [|y l IHl]; [discriminate|]. cbn. specialize (IH y). destruct (TreeModel.build rp fuel y); cbn; [|congruence..]. destruct (TreeModel.omap_list _ l); cbn; congruence. }
  assert (B2 : match PipeModel.news (TreeModel.rel_data rp n) with [l; r] => x <- TreeModel.build rp fuel l ;; y <- TreeModel.build rp fuel r ;; Ok (TreeModel.Rel tt (TreeModel.x_kind s) (TreeModel.x_body s) [x; y] []) | _ => Ok (TreeModel.bare rp n) end <> UB).
  { destruct (PipeModel.news _) as [|a [|b [|]]]; try discriminate. pose proof (IH a). destruct (TreeModel.build rp fuel a); cbn; try congruence. pose proof (IH b). destruct (TreeModel.build rp fuel b); cbn; congruence. }
  destruct (TreeModel.x_kind s) eqn:K; try discriminate; try exact B2; try (destruct (TreeModel.getNextSinglePipeline _) as [i|]; [|discriminate]; pose proof (IH i); destruct (TreeModel.build rp fuel i); cbn; congruence);
    (pose proof (M (PipeModel.news (TreeModel.rel_data rp n))); destruct (TreeModel.omap_list _ _); cbn; congruence).
Qed.
Lemma output_no_ub rp fuel : (forall s, In s (TreeModel.r_rels rp) -> TreeModel.x_exprs s = []) -> TreeModel.outputToBinaryPlan rp fuel <> UB.
Proof.
  intros H. unfold TreeModel.outputToBinaryPlan. induction (TreeModel.starts rp) as [|[n d] l IH]; [discriminate|]. cbn [TreeModel.omap_list fst snd].
  assert (B : match PipeModel.news d with [] => Ok (TreeModel.bare rp n, []) | i :: _ => r <- TreeModel.build rp fuel i ;; Ok (r, match TreeModel.r_roots rp with names :: _ => names | [] => [] end) end <> UB).
  { destruct (PipeModel.news d) as [|i r]; [discriminate|]. pose proof (build_no_ub rp H fuel i). destruct (TreeModel.build rp fuel i); cbn; congruence. }
  destruct (match PipeModel.news d with [] => _ | _ => _ end); cbn [obind]; [|congruence..]. destruct (TreeModel.omap_list _ l); cbn; congruence.
Qed.
(** Neither undefined behaviour nor endless recursion *)
Definition calm {A} (o : outcome A) : Prop := match o with Ok _ => True | Throw EFuel => False | Throw _ => True | UB => False end.
Lemma calm_bind {A B} (o : outcome A) (f : A -> outcome B) : calm o -> (forall a, calm (f a)) -> calm (obind o f).
Proof. destruct o; cbn; auto. Qed.
Lemma source_calm tab l : forall acc, calm (message_source tab acc l).
Proof.
  induction l as [|n l IH]; intros acc; [exact I|]. cbn [message_source]. apply calm_bind; [|auto]. unfold use_source. destruct (find_symbol tab n) as [s|]; [|exact I]. destruct (s_what s); try exact I.
  apply calm_bind; [|intros q; exact I]. induction (details_at tab (s_loc s)) as [|d q IHq]; [exact I|]. cbn [each]. destruct (s_what d) as [| | | | | |[x|]| |]; cbn [obind]; try exact I. apply calm_bind; [exact IHq|intros r; exact I].
Qed.
Fixpoint fill_calm tab known (t : TreeModel.rel unit) : calm (fill tab known t).
Proof.
  destruct t as [|a k n ins es]; [exact I|]. rewrite fill_eq. apply calm_bind.
  - induction ins as [|i ins IH]; [exact I|]. cbn [TreeModel.omap_list]. apply calm_bind; [apply fill_calm|]. intros x. apply calm_bind; [exact IH|intros r; exact I].
  - intros l. destruct (find_rel n known) as [[r d]|]; [|exact I]. apply calm_bind; [apply source_calm|intros s; exact I].
Qed.
Lemma fill_all_calm tab known l : calm (fill_all tab known l).
Proof. induction l as [|[t ns] l IH]; [exact I|]. cbn [fill_all]. apply calm_bind; [apply fill_calm|]. intros x. apply calm_bind; [exact IH|intros r; exact I]. Qed.
Lemma rels_text nodes tab rp e s : TreeModel.readText (text_of nodes tab) = Ok (rp, e) -> In s (TreeModel.r_rels rp) -> TreeModel.x_exprs s = [].
Proof.
  unfold TreeModel.readText. destruct (TreeModel.define_rels _ _) as [t1 e1]. destruct (TreeModel.define_roots t1 false _) as [t2 e2]. destruct (PipeModel.visitPipelines t2 _) as [r| |]; cbn [obind]; try discriminate. intros H. injection H as <- _.
  cbn [TreeModel.r_rels text_of TreeModel.x_rels]. intros I. apply in_map_iff in I as (n & <- & _). reflexivity.
Qed.
Lemma no_word s nodes n : parse s = Some nodes -> In n (relations_of nodes) -> relation_case n -> relation_trap n.
Proof.
  intros E I [(d & D & [X|[X|(w & W & F)]])|G]; [left; exists d; split; [exact D|left; exact X]|left; exists d; split; [exact D|right; exact X]| |right; exact G]. exfalso.
  unfold relations_of in I. apply in_flat_map in I as (p & Ip & J). destruct p; try destruct J. - subst. unfold foreign in F. rewrite (WordFacts.parsed_words _ _ _ _ _ E Ip D W) in F. discriminate. - contradiction.
Qed.
Theorem defined_unless_trap s : from_text s = UB -> exists nodes, parse s = Some nodes /\ plan_trap nodes.
Proof.
  unfold from_text. destruct (parse s) as [nodes|] eqn:E0; [|discriminate]. intros H. exists nodes. split; [reflexivity|]. destruct (symbols nodes) as [[tab e1]| |] eqn:E1; cbn [obind] in H; [|discriminate|left; exact (define_ub _ _ _ E1)]. right.
  destruct (TreeModel.readText (text_of nodes tab)) as [[rp e2]| |] eqn:E2; cbn [obind] in H; [|discriminate|].
  - right. assert (T : forall earlier, (earlier = [] \/ exists e, visit_nodes (DeclModel.resolve_function (entries 0 0 nodes)) tab rp [] SymbolModel.empty_table [] (relations_of nodes) = Ok (earlier, e)) ->
      visit_nodes (DeclModel.resolve_function (entries 0 0 nodes)) tab rp earlier SymbolModel.empty_table [] (relations_of nodes) = UB -> (exists n, In n (relations_of nodes) /\ relation_trap n) \/ too_wide nodes).
    { intros earlier He V. assert (P : plain_known earlier) by (destruct He as [->|(e & E)]; [constructor|refine (nodes_plain _ _ _ _ _ _ _ _ _ _ _ E); constructor]).
      destruct (nodes_ub _ _ _ _ P _ _ _ (Forall_nil _) V) as [(n & I & C)|(before & n & after & known & e & Q & V' & W)]; [left; exists n; split; [exact I|exact (no_word _ _ _ E0 I C)]|]. right. exists tab, e1, rp, e2, earlier, before, n, after, known, e. cbv zeta. auto 8. }
    destruct (visit_nodes _ tab rp [] _ _ _) as [[first e3]| |] eqn:E3; cbn [obind] in H; [|discriminate|exact (T [] (or_introl eq_refl) E3)]. destruct (map WPass e1 ++ map WTree e2 ++ filter reported_first e3); [|discriminate].
    destruct (visit_nodes _ tab rp first _ _ _) as [[known e4]| |] eqn:E4; cbn [obind] in H; [|discriminate|exact (T first (or_intror (ex_intro _ e3 eq_refl)) E4)]. exfalso.
    pose proof (output_no_ub rp (S (length (relations_of nodes))) (fun y => rels_text _ _ _ _ y E2)) as O. destruct (TreeModel.outputToBinaryPlan rp _) as [l| |]; cbn [obind] in H; [|discriminate|contradiction].
    pose proof (fill_all_calm tab known l) as F. destruct (fill_all tab known l); cbn [obind] in H; [discriminate|discriminate|exact F].
  - left. destruct (pipelines_ub _ E2) as (n & I & J). cbn [text_of TreeModel.x_pipes TreeModel.x_others] in I, J. exists n. split; [exact I|]. apply nodup_In in J. unfold defined. destruct (DefineFacts.define_all_view _ _ _ _ _ E1) as [V _]. cbn [map app] in V. rewrite <- V, map_map. exact J.
Qed.

(** * Ends *)
(** One relation feeds another if a pipeline goes from the one directly to the other. *)
Fixpoint adjacent (y x : str) (p : list str) : Prop := match p with a :: ((b :: _) as r) => (a = y /\ b = x) \/ adjacent y x r | _ => False end.
Definition feeds (nodes : list pnode) (y x : str) : Prop := exists p, In p (arrows nodes) /\ adjacent y x p.
(** A relation that its own output is fed to, over whatever other relations *)
Inductive reaches (R : str -> str -> Prop) : str -> str -> Prop := R_one x y : R x y -> reaches R x y | R_more x y z : R x y -> reaches R y z -> reaches R x z.
Definition circular (nodes : list pnode) : Prop := exists x, reaches (feeds nodes) x x.

Definition ends {A} (o : outcome A) : Prop := match o with Throw EFuel => False | _ => True end.
Lemma ends_bind {A B} (o : outcome A) (f : A -> outcome B) : ends o -> (forall a, ends (f a)) -> ends (obind o f).
Proof. destruct o; cbn; auto. Qed.
Lemma ends_bindE {A B} (o : evaluated A) (f : A -> evaluated B) : ends o -> (forall a, ends (f a)) -> ends (bindE o f).
Proof. intros H K. unfold bindE. apply ends_bind; [exact H|]. intros a. apply ends_bind; [apply K|intros b; exact I]. Qed.
Lemma ends_each {A B} (f : A -> evaluated B) l : Forall (fun x => ends (f x)) l -> ends (eachE f l).
Proof. induction 1 as [|x l H _ IH]; [exact I|]. cbn [eachE]. apply ends_bindE; [exact H|]. intros a. apply ends_bindE; [exact IH|intros b; exact I]. Qed.
Lemma ends_bindR {A B} (o : RelModel.visited A) (f : A -> RelModel.visited B) : ends o -> (forall a, ends (f a)) -> ends (bindR o f).
Proof. intros H K. unfold bindR. apply ends_bind; [exact H|]. intros a. apply ends_bind; [apply K|intros b; exact I]. Qed.
Lemma ends_lift {A} (o : evaluated A) : ends o -> ends (lift o).
Proof. unfold lift. intros H. apply ends_bind; [exact H|intros a; exact I]. Qed.
Lemma sound_ends {A} (o : evaluated A) P : sound o P -> ends o.
Proof. destruct o; cbn; auto. intros []. Qed.
Lemma read_ends i w : ends (read_type i w). Proof. exact (sound_ends _ _ (read_sound i w)). Qed.
Lemma constant_ends c : ends (visitConstant c). Proof. exact (sound_ends _ _ (const_sound c false None)). Qed.
Lemma number_ends s t : ends (visitNumber s t). Proof. exact (sound_ends _ _ (number_sound s t)). Qed.
Lemma subquery_ends {A} fr n (m : A) f : ends (ExprModel.subquery fr n m f).
Proof. unfold ExprModel.subquery. destruct (fr n) as [[]|]; exact I. Qed.
Lemma as_expr_ends x : ends x -> ends (as_expr x).
Proof. intros H. unfold as_expr. apply ends_bindE; [exact H|]. intros []; exact I. Qed.
Lemma expr_ends ff fr fc e : ends (visitExpr ff fr fc e).
Proof.
  induction e as [n args ty IH|c|t|e ty IH|n|l n IH|b n|e op b n IH] using enode_ind2; cbn [visitExpr].
  - destruct (to_lower n =s _).
    + apply ends_bindE; [|intros [|x l]; [exact I|]; destruct (pairs_of (x :: l)); exact I]. apply ends_each. eapply Forall_impl; [|exact IH]. intros [s x] H. exact H.
    + apply ends_bindE; [destruct (ff n); exact I|]. intros f. apply ends_bindE.
      * apply ends_each. eapply Forall_impl; [|exact IH]. intros [s x] H. destruct (endsWith s enum_suffix); [exact I|]. apply ends_bindE; [exact H|intros a; exact I].
      * intros l. apply ends_bindE; [destruct ty; [apply read_ends|exact I]|intros a; exact I].
  - apply ends_bindE; [apply constant_ends|intros a; exact I].
  - destruct (fc t) as [[]|]; exact I.
  - apply ends_bindE; [exact IH|]. intros a. apply ends_bindE; [apply read_ends|intros t; exact I].
  - apply subquery_ends.
  - destruct (fr n); [|exact I]. apply ends_bindE; [apply ends_each; exact IH|]. intros a. apply subquery_ends.
  - apply subquery_ends.
  - apply ends_bindE; [exact IH|]. intros a. apply subquery_ends.
Qed.
Lemma first_ends ff fc inner e : ends (visitFirst ff fc inner e).
Proof.
  induction e as [n args ty IH|c|t|e ty IH|n|l n IH|b n|e op b n IH] using enode_ind2; cbn [visitFirst]; try exact I.
  - destruct (to_lower n =s _).
    + apply ends_bindE; [|intros a; exact I]. apply ends_each. eapply Forall_impl; [|exact IH]. intros [s x] H. apply as_expr_ends. exact H.
    + apply ends_bindE; [destruct (ff n); exact I|]. intros f. apply ends_bindE.
      * apply ends_each. eapply Forall_impl; [|exact IH]. intros [s x] H. destruct (endsWith s enum_suffix); [exact I|]. destruct (has_subquery x); [exact I|]. apply ends_bindE; [exact H|intros []; exact I].
      * intros l. apply ends_bindE; [destruct ty; [apply read_ends|exact I]|intros a; exact I].
  - apply ends_bindE; [apply constant_ends|intros a; exact I].
  - destruct inner; [exact I|]. destruct (fc t) as [[]|]; exact I.
  - apply ends_bindE; [apply as_expr_ends; exact IH|]. intros a. apply ends_bindE; [apply read_ends|intros t; exact I].
  - apply ends_bindE; [|intros a; exact I]. apply ends_each. eapply Forall_impl; [|exact IH]. intros x H. apply as_expr_ends. exact H.
  - exact IH.
Qed.
Lemma said_ends {A} e (o : outcome (EnumModel.parsed A)) : ends o -> ends (said e o).
Proof. unfold said. intros H. apply ends_bind; [exact H|]. intros x. repeat match goal with |- ends (match ?y with _ => _ end) => destruct y end; exact I. Qed.
Lemma normalized_ends {A} w prefix (f : str -> outcome A) : (forall s, ends (f s)) -> ends (x <- EnumModel.normalizeProtoEnum w prefix ;; f x).
Proof. intros H. apply ends_bind; [|exact H]. unfold EnumModel.normalizeProtoEnum. destruct (forallb _ w); exact I. Qed.
Ltac calmly := repeat first [exact I | match goal with |- ends (match ?y with _ => _ end) => destruct y end].
Lemma phase_ends n : ends (EnumModel.visitAggregationPhase n). Proof. apply normalized_ends. intros s. calmly. Qed.
Lemma invocation_ends n : ends (EnumModel.visitAggregationInvocation n). Proof. apply normalized_ends. intros s. calmly. Qed.
Lemma join_ends n : ends (EnumModel.visitRelationJoinType n). Proof. apply normalized_ends. intros s. calmly. Qed.
Lemma direction_ends n : ends (EnumModel.visitSort_field n). Proof. destruct n as [w|]; [|exact I]. cbn [EnumModel.visitSort_field]. apply ends_bind; [apply normalized_ends; intros s; calmly|intros x; exact I]. Qed.
Lemma behavior_ends w : ends (visitBehavior w). Proof. unfold visitBehavior. calmly. Qed.
Section Ends.
  Variables (ff : str -> option N) (fr : str -> option bool) (fc : nat -> nat -> str -> option (N * Z)) (columns : nat) (kn : str -> bool).
  Lemma known_ends i j e : ends (known ff fc i j e).
  Proof. apply ends_bind; [apply first_ends|intros a; exact I]. Qed.
  Lemma e_ends i j e : ends (visitE ff fr fc i j e).
  Proof. apply ends_bind; [apply known_ends|]. intros []; [apply ends_lift, expr_ends|exact I]. Qed.
  Lemma sort_ends i j e by_ : ends (visitSort ff fr fc i j e by_).
  Proof. apply ends_bindR; [apply e_ends|]. intros x. apply ends_bindR; [apply said_ends, direction_ends|intros a; exact I]. Qed.
  Lemma measure_ends i j e ty ids : ends (visitMeasure ff fr fc i j e ty ids).
  Proof.
    apply ends_bindR; [apply e_ends|]. intros x. assert (U : ends (match ids with [] => UB | _ => Ok (no_function, [RNoFunction]) end : RelModel.visited aggregate_function)) by (destruct ids; exact I). destruct x; try exact U.
    apply ends_bindR; [destruct ty; [apply ends_lift, read_ends|exact I]|]. intros t. apply ends_bindR; [destruct ids; [exact I|apply said_ends, phase_ends]|]. intros p. exact I.
  Qed.
  Lemma measures_ends i l : forall j s, ends (visitMeasureDetails ff fr fc i j s l).
  Proof.
    induction l as [|d l IH]; intros j s; [exact I|]. cbn [visitMeasureDetails]. destruct d.
    - apply ends_bindR; [apply measure_ends|]. intros f. destruct (b_function s); [exact I|apply IH].
    - apply ends_bindR; [apply e_ends|]. intros f. destruct (b_filter s); [exact I|apply IH].
    - apply ends_bindR; [apply said_ends, invocation_ends|]. intros f. apply IH.
    - apply ends_bindR; [apply sort_ends|]. intros f. apply IH.
  Qed.
  Lemma filter_ends b k o : ends o -> ends (visitFilter b k o).
  Proof.
    intros H. unfold visitFilter. assert (K : ends (match k with Some s => visitBehavior s | None => fine KDefault end)) by (destruct k; [apply behavior_ends|exact I]).
    apply ends_bindR; [exact K|]. intros k1. apply ends_bindR; [exact K|]. intros k2. apply ends_bindR; [exact H|]. intros x. calmly.
  Qed.
  Lemma detail_ends i b d : ends (visitDetail ff fr fc columns kn kn i b d).
  Proof.
    destruct d as [|n|k e|e n| |n|e|l|e by_|t|n|c]; cbn [visitDetail]; try exact I; try (destruct b; exact I).
    - apply ends_bind; [apply known_ends|]. intros ok. destruct ok; [|destruct b; try exact I]; apply filter_ends, e_ends.
    - apply ends_bindR; [apply e_ends|]. intros x. calmly.
    - apply ends_bindR; [apply e_ends|]. intros x. destruct b; try exact I. apply ends_bind; [unfold grouped; calmly|intros y; exact I].
    - apply ends_bindR; [apply measures_ends|]. intros x. calmly.
    - destruct b; try exact I. apply ends_bindR; [apply sort_ends|intros x; exact I].
    - destruct b; try exact I. apply ends_bindR; [apply ends_lift, number_ends|intros x; exact I].
    - destruct b; try exact I. apply ends_bindR; [apply said_ends, join_ends|intros x; exact I].
  Qed.
End Ends.
Lemma track_ends ff fr kn ss ag fields ds : forall i g b, ends (track ff fr kn ss ag fields i g b ds).
Proof. induction ds as [|d ds IH]; intros i g b; [exact I|]. cbn [track]. apply ends_bindR; [apply detail_ends|]. intros b'. apply IH. Qed.
Lemma emits_ends f l : ends (visitEmits f l).
Proof.
  induction l as [|d l IH]; [exact I|]. cbn [visitEmits]. destruct d as [|n|k e|e n| |n|e|x|e by_|t|n|c]; try exact IH. destruct (f c) as [[steps z] missing]. destruct (0 <? steps)%N; apply ends_bindR; try exact I; intros u; [exact IH|].
  apply ends_bindR; [exact IH|intros r; exact I].
Qed.
Lemma nodes_ends ff tab rp earlier l : forall t known, ends (visit_nodes ff tab rp earlier t known l).
Proof.
  induction l as [|n l IH]; intros t known; [exact I|]. cbn [visit_nodes]. apply ends_bind.
  - unfold visit_node. destruct (taken rp known (n_name n)); [exact I|]. destruct (empty_body (n_kind n)) as [b0|]; [|exact I]. destruct (match b0 with BProject _ => _ | _ => _ end) as [t' given]. apply ends_bind; [|intros x; exact I].
    apply ends_bindR; [apply track_ends|]. intros [b g]. apply ends_bindR; [apply emits_ends|]. intros emit. cbv zeta. match goal with |- context [FieldModel.applyOutputMapping ?a ?b ?c ?d ?e] => destruct (FieldModel.applyOutputMapping a b c d e) end. exact I.
  - intros [[t1 k1] e1]. apply ends_bind; [apply IH|intros y; exact I].
Qed.
Lemma items_ends l items : ends (visitItems l items).
Proof. induction items as [|[c w] items IH]; [exact I|]. cbn [visitItems]. apply ends_bindE; [apply read_ends|]. intros t. apply ends_bindE; [exact IH|intros r; exact I]. Qed.
Lemma update_ends n f t : (forall x, ends (f x)) -> ends (update_file t n f).
Proof.
  intros Hf. induction t as [|s t IH]; [exact I|]. cbn [update_file]. destruct (s_name s =s n).
  - destruct (s_what s) as [| | | | | |[x|]| |]; try exact I. apply ends_bind; [apply Hf|intros y; exact I].
  - apply ends_bind; [exact IH|intros r; exact I].
Qed.
Lemma set_ends d x : ends (set_detail d x).
Proof. destruct d; cbn [set_detail]; try (calmly; fail); apply ends_bind; try (intros y; exact I); unfold stoul; calmly. Qed.
Lemma define_ends nodes : forall i t, ends (define_all i t nodes).
Proof.
  induction nodes as [|n nodes IH]; intros i t; [exact I|]. cbn [define_all]. apply ends_bind; [|intros x; apply ends_bind; [apply IH|intros y; exact I]]. destruct n as [| | |name items|name [fs| |ns|]|uri fs]; cbn [define]; try exact I.
  - apply ends_bind; [apply items_ends|intros c; exact I].
  - apply ends_bind; [|intros c; exact I]. generalize (t ++ [Sym name (i, 0) WLocal]). clear. induction fs as [|f fs IH]; intros t; [exact I|]. cbn [visitFiles]. apply ends_bind; [|intros t'; apply IH].
    generalize (t ++ [Sym (fn_text f) (i, 0) (WDetail (Some no_file))]). induction (fn_details f) as [|d l IHl]; intros t'; [exact I|]. cbn [visitFileDetails]. apply ends_bind; [apply update_ends, set_ends|intros u; apply IHl].
Qed.
Lemma pipeline_ends p : forall t rights, ends (PipeModel.visitPipeline t rights p).
Proof.
  induction p as [|e p IH]; intros t rights; [exact I|]. cbn [PipeModel.visitPipeline]. apply ends_bind; [apply IH|]. intros [t2 errs]. destruct (PipeModel.plookup t2 (fst e)) as [[d|]|]; try exact I. apply ends_bind; [unfold PipeModel.connect; calmly|intros x; exact I].
Qed.
Lemma pipelines_ends ps : forall t, ends (PipeModel.visitPipelines t ps).
Proof. induction ps as [|p ps IH]; intros t; [exact I|]. cbn [PipeModel.visitPipelines]. apply ends_bind; [apply pipeline_ends|]. intros x. apply ends_bind; [apply IH|]. intros y. calmly. Qed.
Lemma read_text_ends x : ends (TreeModel.readText x).
Proof. unfold TreeModel.readText. destruct (TreeModel.define_rels _ _). destruct (TreeModel.define_roots _ _ _). apply ends_bind; [apply pipelines_ends|intros r; exact I]. Qed.

(** What is recorded in the table comes from the pipelines. *)
Definition linked (Q : str -> str -> Prop) (t : PipeModel.ptab) : Prop :=
  forall n d y, PipeModel.plookup t n = Some (PipeModel.PRel d) -> PipeModel.cont d = Some y \/ In y (PipeModel.news d) -> Q y n.
Lemma linked_update Q t n d : linked Q t -> PipeModel.is_rel t n = true -> (forall y, PipeModel.cont d = Some y \/ In y (PipeModel.news d) -> Q y n) -> linked Q (PipeModel.pupdate t n d).
Proof. intros H R K m d' y E. rewrite PipeFacts.plookup_update in E by exact R. destruct (seq_eqb_spec n m) as [<-|M]; [injection E as <-; exact (K y)|exact (H m d' y E)]. Qed.
Lemma linked_symbol Q t n : linked Q t -> linked Q (PipeModel.updateRelationSymbol t n).
Proof.
  intros H m d y E. rewrite PipeFacts.plookup_symbol in E. destruct (PipeModel.plookup t m) as [s|] eqn:L; [injection E as ->; exact (H m d y L)|]. destruct (n =s m); [|discriminate]. injection E as <-. intros [E|[]]. discriminate E.
Qed.
Lemma linked_pipeline Q p : forall t rights t' e, linked Q t -> (forall y x, adjacent y x (rev (map fst p)) -> Q y x) -> PipeModel.visitPipeline t rights p = Ok (t', e) -> linked Q t'.
Proof.
  induction p as [|x p IH]; intros t rights t' e H A E; cbn [PipeModel.visitPipeline] in E; [injection E as <- _; exact H|].
  destruct (PipeModel.visitPipeline _ _ p) as [[t2 errs]| |] eqn:E2; cbn [obind] in E; try discriminate. assert (H2 : linked Q t2).
  { apply (IH _ _ _ _ (linked_symbol Q t (fst x) H)) in E2; [exact E2|]. intros y z J. apply A. cbn [map rev]. revert J. generalize (rev (map fst p)). intros l. induction l as [|a [|b l] IHl]; intros J; [destruct J|destruct J|]. cbn [app]. destruct J as [J|J]; [left; exact J|right; exact (IHl J)]. }
  destruct (PipeModel.plookup t2 (fst x)) as [[d|]|] eqn:L; [|injection E as <- _; exact H2..]. destruct (PipeModel.connect _ _ _ _ _) as [[t3 e3]| |] eqn:C; cbn [obind fst snd] in E; try discriminate. injection E as <- _.
  assert (R : PipeModel.is_rel t2 (fst x) = true) by (unfold PipeModel.is_rel; rewrite L; reflexivity).
  assert (K : forall l r, p = l :: r -> Q (fst l) (fst x)).
  { intros l r ->. apply A. cbn [map rev]. rewrite <- app_assoc. generalize (rev (map fst r)). intros q. cbn [app]. induction q as [|a q IHq]; [left; auto|]. cbn [app]. destruct q; cbn [app] in *; right; exact IHq. }
  assert (D : forall y, PipeModel.cont d = Some y \/ In y (PipeModel.news d) -> Q y (fst x)) by (intros y; exact (H2 _ _ y L)).
  unfold PipeModel.connect in C. destruct (PipeModel.cont d) eqn:Cd; [injection C as <- _; exact H2|]. destruct rights as [|r rights].
  - destruct p as [|l p]; [injection C as <- _; exact H2|]. destruct (negb _); [discriminate|]. injection C as <- _. apply linked_update; [exact H2|exact R|]. cbn [PipeModel.cont PipeModel.news]. intros y [J|J]; [discriminate J|]. apply in_app_iff in J as [J|[<-|[]]]; [auto|exact (K l p eq_refl)].
  - destruct (negb _); [discriminate|]. destruct (PipeModel.continuingPipelineContains _ _); [injection C as <- _; exact H2|]. destruct p as [|l p]; [|destruct (negb _); [discriminate|]]; injection C as <- _; (apply linked_update; [exact H2|exact R|]); cbn [PipeModel.cont PipeModel.news].
    + intros y [J|J]; [discriminate J|auto].
    + intros y [J|J]; [injection J as <-; exact (K l p eq_refl)|auto].
Qed.
Lemma linked_pipelines Q ps : forall t t' e, linked Q t -> (forall p y x, In p ps -> adjacent y x p -> Q y x) -> PipeModel.visitPipelines t (map PipeFacts.plain ps) = Ok (t', e) -> linked Q t'.
Proof.
  induction ps as [|p ps IH]; intros t t' e H A E; cbn [map PipeModel.visitPipelines] in E; [injection E as <- _; exact H|].
  destruct (PipeModel.visitPipeline t [] (rev (PipeFacts.plain p))) as [[t1 e1]| |] eqn:E1; cbn [obind fst snd] in E; try discriminate. destruct (PipeModel.visitPipelines t1 _) as [[t2 e2]| |] eqn:E2; cbn [obind fst snd] in E; try discriminate. injection E as <- _.
  apply (IH t1 t2 e2); [|intros q y x J; apply A; right; exact J|exact E2]. refine (linked_pipeline Q _ _ _ _ _ H _ E1). intros y x. rewrite map_rev, rev_involutive. unfold PipeFacts.plain. rewrite map_map. cbn [fst]. rewrite map_id. apply A. left. reflexivity.
Qed.
Lemma read_linked nodes tab rp e : TreeModel.readText (text_of nodes tab) = Ok (rp, e) -> forall x y, In y (inputs_of rp x) -> feeds nodes y x.
Proof.
  unfold TreeModel.readText. destruct (only_others (text_of nodes tab)) as (t & E & F & _). destruct (TreeModel.define_rels _ _) as [t1 e1]. cbn [fst] in E. destruct (TreeModel.define_roots t1 false _) as [t2 e2]. cbn [fst] in E. subst t2.
  change (map (map (fun n : str => (n, n))) (TreeModel.x_pipes (text_of nodes tab))) with (map PipeFacts.plain (arrows nodes)).
  destruct (PipeModel.visitPipelines t _) as [[t3 e3]| |] eqn:V; cbn [obind fst snd]; try discriminate. intros H. injection H as <- _.
  assert (L : linked (feeds nodes) t3).
  { refine (linked_pipelines (feeds nodes) (arrows nodes) t t3 e3 _ _ V).
    - intros n d y L. rewrite (F n d L). intros [Q|[]]. discriminate Q.
    - intros p y x I A. exists p. auto. }
  intros x y. unfold inputs_of, TreeModel.rel_data. cbn [TreeModel.r_tab]. destruct (PipeModel.plookup t3 x) as [[d|]|] eqn:P; [|intros []..]. intros I. apply (L x d y P). apply in_app_or in I as [I|I]; [left|right; exact I]. destruct (PipeModel.cont d) as [c|]; [destruct I as [->|[]]; reflexivity|destruct I].
Qed.
(** Recursion that does not end within its bound has gone through as many relations, each of which feeds the one before. *)
Inductive trail (rp : TreeModel.read_plan) : str -> list str -> Prop :=
| L_end n : trail rp n []
| L_step n m l : (exists s, TreeModel.find_section rp n = Some s) -> In m (inputs_of rp n) -> trail rp m l -> trail rp n (n :: l).
Lemma build_trail rp : (forall s, In s (TreeModel.r_rels rp) -> TreeModel.x_exprs s = []) -> forall fuel n, TreeModel.build rp fuel n = Throw EFuel -> exists l, length l = fuel /\ trail rp n l.
Proof.
  intros H fuel. induction fuel as [|fuel IH]; intros n E; [exists []; split; [reflexivity|constructor]|]. cbn [TreeModel.build] in E. destruct (TreeModel.find_section rp n) as [s|] eqn:Fs; [|discriminate].
  assert (K : forall m, In m (inputs_of rp n) -> TreeModel.build rp fuel m = Throw EFuel -> exists l, length l = S fuel /\ trail rp n l).
  { intros m I B. destruct (IH m B) as (l & L & T). exists (n :: l). split; [cbn; rewrite L; reflexivity|]. econstructor; [eauto|exact I|exact T]. }
  pose proof (find_some _ _ Fs) as [Is _]. rewrite (H s Is) in E. cbn [TreeModel.attaches obind] in E. unfold inputs_of in K. set (d := TreeModel.rel_data rp n) in *.
  assert (Q1 : forall i, TreeModel.getNextSinglePipeline d = Some i -> In i (some_list (PipeModel.cont d) ++ PipeModel.news d)).
  { intros i. unfold TreeModel.getNextSinglePipeline. destruct (PipeModel.cont d) as [c|]; [intros Q; injection Q as ->; left; reflexivity|]. destruct (PipeModel.news d) as [|a [|b r]]; try discriminate. intros Q. injection Q as ->. left. reflexivity. }
  assert (Q2 : forall l r, (x <- TreeModel.build rp fuel l ;; y <- TreeModel.build rp fuel r ;; Ok (TreeModel.Rel tt (TreeModel.x_kind s) (TreeModel.x_body s) [x; y] [])) = Throw EFuel -> PipeModel.news d = [l; r] -> exists q, length q = S fuel /\ trail rp n q).
  { intros l r B N. destruct (TreeModel.build rp fuel l) as [x|x|] eqn:Bl; cbn [obind] in B; [|injection B as ->; apply (K l); [rewrite N; apply in_or_app; cbn; auto|exact Bl]|discriminate].
    destruct (TreeModel.build rp fuel r) as [y|y|] eqn:Br; cbn [obind] in B; [discriminate|injection B as ->; apply (K r); [rewrite N; apply in_or_app; cbn; auto|exact Br]|discriminate]. }
  assert (Q3 : (xs <- TreeModel.omap_list (TreeModel.build rp fuel) (PipeModel.news d) ;; Ok (TreeModel.Rel tt (TreeModel.x_kind s) (TreeModel.x_body s) xs (@map TreeModel.texpr (TreeModel.expr unit) TreeModel.unattached []))) = Throw EFuel -> exists q, length q = S fuel /\ trail rp n q).
  { intros B. assert (M : exists m, In m (PipeModel.news d) /\ TreeModel.build rp fuel m = Throw EFuel); [|destruct M as (m & I & Bm); apply (K m); [apply in_or_app; auto|exact Bm]].
    destruct (TreeModel.omap_list _ (PipeModel.news d)) as [xs|x|] eqn:O; cbn [obind] in B; try discriminate. injection B as ->. clear -O. induction (PipeModel.news d) as [|a l IHl]; [discriminate|]. cbn [TreeModel.omap_list] in O.
    destruct (TreeModel.build rp fuel a) as [y|y|] eqn:Ba; cbn [obind] in O; [|injection O as ->; exists a; cbn; auto|discriminate]. destruct (TreeModel.omap_list _ l) as [ys|y2|] eqn:Ol; cbn [obind] in O; try discriminate. injection O as ->. destruct (IHl eq_refl) as (m & I & Bm). exists m. cbn. auto. }
  assert (Q1' : match TreeModel.getNextSinglePipeline d with Some i => r <- TreeModel.build rp fuel i ;; Ok (TreeModel.Rel tt (TreeModel.x_kind s) (TreeModel.x_body s) [r] []) | None => Throw EInvalidState end = Throw EFuel -> exists q, length q = S fuel /\ trail rp n q).
  { intros B. destruct (TreeModel.getNextSinglePipeline d) as [i|] eqn:G; [|discriminate]. destruct (TreeModel.build rp fuel i) as [x|x|] eqn:Bi; cbn [obind] in B; try discriminate. injection B as ->. exact (K i (Q1 i eq_refl) Bi). }
  assert (Q2' : match PipeModel.news d with [l; r] => x <- TreeModel.build rp fuel l ;; y <- TreeModel.build rp fuel r ;; Ok (TreeModel.Rel tt (TreeModel.x_kind s) (TreeModel.x_body s) [x; y] []) | _ => Ok (TreeModel.bare rp n) end = Throw EFuel -> exists q, length q = S fuel /\ trail rp n q).
  { intros B. destruct (PipeModel.news d) as [|l [|r [|]]] eqn:N; try discriminate. exact (Q2 l r B eq_refl). }
  destruct (TreeModel.x_kind s) eqn:Ks; try discriminate E; first [exact (Q1' E)|exact (Q2' E)|exact (Q3 E)].
Qed.
Lemma trail_names rp n l : trail rp n l -> incl l (map TreeModel.x_name (TreeModel.r_rels rp)).
Proof.
  induction 1 as [|n m l (s & Hs) _ _ IH]; intros x []; [|exact (IH x H)]. subst x. apply find_some in Hs as [I E]. apply seq_eqb_eq in E. subst n. apply in_map. exact I.
Qed.
Lemma twice_or_nodup (l : list str) : NoDup l \/ exists a x b c, l = a ++ x :: b ++ x :: c.
Proof.
  induction l as [|x l [N|(a & y & b & c & ->)]]; [left; constructor| |right; exists (x :: a), y, b, c; reflexivity]. destruct (in_dec (list_eq_dec Ascii.ascii_dec) x l) as [I|I]; [right|left; constructor; assumption].
  apply in_split in I as (b & c & ->). exists [], x, b, c. reflexivity.
Qed.
Lemma trail_start rp n x l : trail rp n (x :: l) -> n = x.
Proof. inversion 1. reflexivity. Qed.
Lemma trail_suffix rp a : forall n x l, trail rp n (a ++ x :: l) -> trail rp x (x :: l).
Proof. induction a as [|y a IH]; intros n x l T; [cbn in T; pose proof (trail_start _ _ _ _ T) as ->; exact T|]. cbn [app] in T. inversion T; subst. eapply IH. eassumption. Qed.
Lemma trail_back rp b : forall x y c, trail rp x (x :: b ++ y :: c) -> reaches (fun u v => In u (inputs_of rp v)) y x.
Proof.
  induction b as [|z b IH] using rev_ind; intros x y c T.
  - cbn [app] in T. inversion T as [|? m ? ? I T']; subst. pose proof (trail_start _ _ _ _ T') as ->. constructor. exact I.
  - rewrite <- app_assoc in T. cbn [app] in T. pose proof (IH x z (y :: c) T) as R. econstructor 2; [|exact R]. change (x :: b ++ z :: y :: c) with ((x :: b) ++ z :: y :: c) in T. apply trail_suffix in T. inversion T as [|? m ? ? I T']; subst. pose proof (trail_start _ _ _ _ T') as ->. exact I.
Qed.
Lemma reaches_sub (P Q : str -> str -> Prop) x y : (forall u v, P u v -> Q u v) -> reaches P x y -> reaches Q x y.
Proof. intros H. induction 1 as [x y R|x y z R _ IH]; [constructor; auto|econstructor 2; eauto]. Qed.
Theorem ends_unless_circular s : from_text s = Throw EFuel -> exists nodes, parse s = Some nodes /\ circular nodes.
Proof.
  unfold from_text. destruct (parse s) as [nodes|] eqn:E0; [|discriminate]. intros H. exists nodes. split; [reflexivity|].
  pose proof (define_ends nodes 0 []) as D. change (define_all 0 [] nodes) with (symbols nodes) in D. destruct (symbols nodes) as [[tab e1]|x|] eqn:E1; cbn [obind] in H; [|injection H as ->; destruct D|discriminate].
  pose proof (read_text_ends (text_of nodes tab)) as R. destruct (TreeModel.readText (text_of nodes tab)) as [[rp e2]|x|] eqn:E2; cbn [obind] in H; [|injection H as ->; destruct R|discriminate].
  match type of H with context [visit_nodes ?a ?b ?c ?d ?e ?f ?g] => pose proof (nodes_ends a b c d g e f) as V1; destruct (visit_nodes a b c d e f g) as [[first e3]|x|]; cbn [obind] in H; [|injection H as ->; destruct V1|discriminate] end.
  destruct (map WPass e1 ++ map WTree e2 ++ filter reported_first e3); [|discriminate].
  match type of H with context [visit_nodes ?a ?b ?c ?d ?e ?f ?g] => pose proof (nodes_ends a b c d g e f) as V2; destruct (visit_nodes a b c d e f g) as [[known e4]|x|]; cbn [obind] in H; [|injection H as ->; destruct V2|discriminate] end.
  destruct (TreeModel.outputToBinaryPlan rp _) as [l|x|] eqn:O; cbn [obind] in H; [|injection H as ->|discriminate].
  - pose proof (fill_all_calm tab known l) as F. destruct (fill_all tab known l); cbn [obind] in H; try discriminate. injection H as ->. destruct F.
  - assert (B : exists i, TreeModel.build rp (S (length (relations_of nodes))) i = Throw EFuel).
    { unfold TreeModel.outputToBinaryPlan in O. revert O. generalize (S (length (relations_of nodes))). intros fuel. induction (TreeModel.starts rp) as [|[n d] q IH]; [discriminate|]. cbn [TreeModel.omap_list fst snd].
      destruct (PipeModel.news d) as [|i r].
      - cbn [obind]. destruct (TreeModel.omap_list _ q) as [|y|]; cbn [obind]; try discriminate. intros O. injection O as ->. exact (IH eq_refl).
      - destruct (TreeModel.build rp fuel i) as [t|t|] eqn:Bi; cbn [obind]; [|intros O; injection O as ->; eauto|discriminate]. destruct (TreeModel.omap_list _ q) as [|y|]; cbn [obind]; try discriminate. intros O. injection O as ->. exact (IH eq_refl). }
    destruct B as (i & B). destruct (build_trail rp (fun y => rels_text _ _ _ _ y E2) _ _ B) as (q & L & T).
    assert (Lr : length (map TreeModel.x_name (TreeModel.r_rels rp)) = length (relations_of nodes)).
    { rewrite map_length. clear -E2. unfold TreeModel.readText in E2. destruct (TreeModel.define_rels _ _) as [t1 e1]. destruct (TreeModel.define_roots t1 false _) as [t2 e3]. destruct (PipeModel.visitPipelines t2 _) as [r| |]; cbn [obind] in E2; try discriminate. injection E2 as <- _.
      cbn [TreeModel.r_rels text_of TreeModel.x_rels]. apply map_length. }
    destruct (twice_or_nodup q) as [N|(a & x & b & c & ->)].
    + pose proof (NoDup_incl_length N (trail_names _ _ _ T)). lia.
    + apply trail_suffix in T. apply trail_back in T. exists x. refine (reaches_sub _ _ _ _ _ T). intros u v. exact (read_linked nodes tab rp e2 E2 v u).
Qed.
