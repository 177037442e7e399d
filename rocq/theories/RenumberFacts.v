(** Where the definitions of a text are does not matter: only which of them are the same place is ever asked. *)
From Verif Require Import Base BaseFacts StringsModel TypeModel LexModel ExprModel RelModel SectionModel WholeModel ExtFacts.
From Verif Require FieldModel DeclModel SymbolModel TreeModel PipeModel.
From Coq Require Import Lia.

Section Renumber.
  Variable g : nat -> nat.
  Hypothesis Hg : forall a b, g a = g b -> a = b.
  (** locations of columns: zero is that of no schema *)
  Definition g1 (k : nat) : nat := match k with 0 => 0 | S k => S (g k) end.
  Lemma g1_inj a b : (g1 a =? g1 b) = (a =? b).
  Proof.
    destruct (a =? b) eqn:E; [apply Nat.eqb_eq in E as ->; apply Nat.eqb_refl|]. apply Nat.eqb_neq in E. apply Nat.eqb_neq. intros H. apply E. destruct a, b; cbn in H; try discriminate; [reflexivity|]. injection H as H. rewrite (Hg _ _ H). reflexivity.
  Qed.
  Definition ren (c : FieldModel.column) : FieldModel.column :=
    {| FieldModel.c_id := FieldModel.c_id c; FieldModel.c_name := FieldModel.c_name c; FieldModel.c_alias := FieldModel.c_alias c; FieldModel.c_loc := g1 (FieldModel.c_loc c); FieldModel.c_schema := FieldModel.c_schema c |}.
  Definition ren_ss (ss : FieldModel.schemas) : FieldModel.schemas := map (fun s => (fst s, g1 (snd s))) ss.
  Lemma full_ren ss c : FieldModel.fullyQualifiedReference (ren_ss ss) (ren c) = FieldModel.fullyQualifiedReference ss c.
  Proof.
    unfold FieldModel.fullyQualifiedReference. cbn [ren FieldModel.c_loc FieldModel.c_name]. induction ss as [|[n l] ss IH]; [reflexivity|]. cbn [ren_ss map find fst snd]. rewrite g1_inj. destruct (l =? _); [reflexivity|]. exact IH.
  Qed.
  Lemma generated_ren n c : FieldModel.match_generated n (ren c) = FieldModel.match_generated n c. Proof. reflexivity. Qed.
  Lemma input_ren ss n c : FieldModel.match_input (ren_ss ss) n (ren c) = FieldModel.match_input ss n c.
  Proof. unfold FieldModel.match_input. rewrite full_ren. reflexivity. Qed.
  Lemma find_pos_ren (P Q : FieldModel.column -> bool) l : (forall c, P (ren c) = Q c) -> FieldModel.find_pos P (map ren l) = FieldModel.find_pos Q l.
  Proof. intros H. induction l as [|c l IH]; [reflexivity|]. cbn. rewrite H, IH. reflexivity. Qed.
  Lemma rfind_ren (P Q : FieldModel.column -> bool) l : (forall c, P (ren c) = Q c) -> FieldModel.rfind P (map ren l) = FieldModel.rfind Q l.
  Proof. intros H. unfold FieldModel.rfind. rewrite <- map_rev. apply find_pos_ren, H. Qed.
  Lemma find_in_ren ss em ag fields h n : FieldModel.find_in (ren_ss ss) em (scope_with ag (map ren fields) (map ren h)) n = FieldModel.find_in ss em (scope_with ag fields h) n.
  Proof.
    unfold FieldModel.find_in. cbn [scope_with FieldModel.q_aggregate FieldModel.q_fields FieldModel.q_generated]. rewrite (rfind_ren _ _ h (generated_ren n)), (rfind_ren _ _ fields (input_ren ss n)). unfold FieldModel.size. rewrite !map_length. reflexivity.
  Qed.
  Lemma named_ren n : ren (column_named n) = column_named n. Proof. reflexivity. Qed.
  Lemma names_ren l : map ren (map column_named l) = map column_named l.
  Proof. rewrite map_map. apply map_ext. exact named_ren. Qed.
  Lemma some_ren (x : option FieldModel.column) : map ren (some_list x) = some_list (option_map ren x). Proof. destruct x; reflexivity. Qed.
  Definition ren_data (d : FieldModel.data) : FieldModel.data :=
    {| FieldModel.d_fields := map ren (FieldModel.d_fields d); FieldModel.d_generated := map ren (FieldModel.d_generated d); FieldModel.d_output := map ren (FieldModel.d_output d);
       FieldModel.d_refs := FieldModel.d_refs d; FieldModel.d_mapping := FieldModel.d_mapping d; FieldModel.d_missing := FieldModel.d_missing d |}.
  Lemma exposed_ren d : FieldModel.exposed (ren_data d) = map ren (FieldModel.exposed d).
  Proof. unfold FieldModel.exposed, ren_data. cbn. destruct (FieldModel.d_output d); cbn; [rewrite map_app; reflexivity|reflexivity]. Qed.
  Lemma map_columns_ren cols m : forall o, FieldModel.map_columns (map ren cols) m (map ren o) = (map ren (fst (FieldModel.map_columns cols m o)), snd (FieldModel.map_columns cols m o)).
  Proof.
    induction m as [|z m IH]; intros o; [reflexivity|]. cbn [FieldModel.map_columns]. unfold FieldModel.at_index, FieldModel.size. rewrite map_length, nth_error_map. destruct (_ <? _)%Z.
    - destruct (nth_error cols _) as [c|]; cbn [option_map]; [|apply IH]. rewrite <- (IH (o ++ [c])), map_app. reflexivity.
    - rewrite IH. destruct (FieldModel.map_columns cols m o). reflexivity.
  Qed.
  Lemma mapping_ren ag fields h o m : FieldModel.applyOutputMapping ag (map ren fields) (map ren h) (map ren o) m = (map ren (fst (FieldModel.applyOutputMapping ag fields h o m)), snd (FieldModel.applyOutputMapping ag fields h o m)).
  Proof. unfold FieldModel.applyOutputMapping. destruct m as [|z m]; [reflexivity|]. destruct ag; [exact (map_columns_ren o (z :: m) [])|]. rewrite <- map_app. apply map_columns_ren. Qed.
  (** ** Relations *)
  Variables (ff : str -> option N) (fr : str -> option bool) (kn kn' : str -> bool) (Hk : forall n, kn' n = kn n) (ss : FieldModel.schemas) (ag : bool) (fields : list FieldModel.column).
  Lemma track_ren ds : forall i h b, track ff fr kn' (ren_ss ss) ag (map ren fields) i (map ren h) b ds = bindR (track ff fr kn ss ag fields i h b ds) (fun x => fine (fst x, map ren (snd x))).
  Proof.
    assert (N : forall (A : Type) (x : visited A), bindR x (fun a => fine a) = x) by (intros A [[a m]| |]; cbn; rewrite ?app_nil_r; reflexivity).
    induction ds as [|d ds IH]; intros i h b; [reflexivity|]. cbn [track].
    rewrite (visitDetail_ext ff fr fr (fun n => eq_refl) _ (fun _ j => find_field ss ag fields (h ++ own_columns j d))) with (ks' := kn) (kc' := kn); [|intros _ j n; unfold find_field; f_equal|exact Hk|exact Hk].
    - rewrite map_length. unfold bindR. destruct (visitDetail _ _ _ _ _ _ _ _ _) as [[b1 m1]| |]; cbn [obind fst snd]; try reflexivity.
      specialize (IH (S i) (h ++ added_columns fields d b1) b1). assert (E : map ren (h ++ added_columns fields d b1) = map ren h ++ added_columns (map ren fields) d b1).
      { rewrite map_app. f_equal. destruct d; try reflexivity; cbn [added_columns]; [|apply names_ren]. destruct b1 as [| | |[|y r] ms| | | | |]; try reflexivity. destruct (rev y) as [|[| |[z o| | |] q| | | | | | | | | |] t]; try reflexivity. rewrite some_ren, nth_error_map. reflexivity. }
      rewrite E in IH. rewrite IH. clear IH E. unfold bindR. destruct (track ff fr kn ss ag fields (S i) (h ++ added_columns fields d b1) b1 ds) as [[[b2 g2] m2]| |]; cbn; rewrite ?app_nil_r; reflexivity.
    - rewrite <- (find_in_ren ss false ag fields (h ++ own_columns j d) n), map_app. do 3 f_equal. destruct d; cbn [own_columns]; try reflexivity. symmetry. apply names_ren.
  Qed.
  Lemma added_ren given es : forall h, map ren (add_expressions fields given es h) = add_expressions (map ren fields) given es (map ren h).
  Proof.
    induction es as [|x es IH]; intros h; [reflexivity|]. cbn [add_expressions]. destruct x as [| |[z o| | |] q| | | | | | | | | |]; rewrite IH, map_app, ?map_length; try reflexivity. unfold FieldModel.at_index. rewrite some_ren, nth_error_map. reflexivity.
  Qed.
  Definition ren_result (x : relation * FieldModel.data) : relation * FieldModel.data := (fst x, ren_data (snd x)).
  Lemma columns_ren given schema b0 ds : visitColumns ff fr kn' (ren_ss ss) ag (map ren fields) given (map ren schema) b0 ds = bindR (visitColumns ff fr kn ss ag fields given schema b0 ds) (fun x => fine (ren_result x)).
  Proof.
    unfold visitColumns. pose proof (track_ren ds 0 [] b0) as T. cbn [map] in T. rewrite T. clear T. unfold bindR. destruct (track _ _ _ _ _ _ _ _ _ _) as [[[b h] m]| |]; cbn [obind fst snd fine]; try reflexivity.
    assert (E : match b with BProject es => add_expressions (map ren fields) given es (map ren h) | _ => map ren h end = map ren (match b with BProject es => add_expressions fields given es h | _ => h end)) by (destruct b; try reflexivity; symmetry; apply added_ren).
    rewrite E. set (h1 := match b with BProject es => add_expressions fields given es h | _ => h end). clearbody h1. clear E.
    rewrite (visitEmits_ext (find_emit (ren_ss ss) ag (map ren fields) (map ren h1)) (find_emit ss ag fields h1)) by (intros n; unfold find_emit; rewrite find_in_ren; reflexivity).
    destruct (visitEmits _ ds) as [[emit m2]| |]; cbn [obind fst snd]; try reflexivity.
    assert (Eo : (if ag then map ren schema ++ map ren h1 else map ren schema) = map ren (if ag then schema ++ h1 else schema)) by (destruct ag; [rewrite map_app|]; reflexivity). rewrite Eo, mapping_ren.
    destruct (FieldModel.applyOutputMapping _ _ _ _ _) as [o e]. cbn. rewrite !app_nil_r. reflexivity.
  Qed.
End Renumber.

Section Tables.
  Variable g : nat -> nat.
  Hypothesis Hg : forall a b, g a = g b -> a = b.
  Definition ren_sym (s : sym) : sym := Sym (s_name s) (g (fst (s_loc s)), snd (s_loc s)) (s_what s).
  Lemma at_ren l s : at_loc (g (fst l), snd l) (ren_sym s) = at_loc l s.
  Proof.
    unfold at_loc. cbn. f_equal. destruct (fst (s_loc s) =? fst l) eqn:E; [apply Nat.eqb_eq in E as ->; apply Nat.eqb_refl|]. apply Nat.eqb_neq in E. apply Nat.eqb_neq. intros H. exact (E (Hg _ _ H)).
  Qed.
  Lemma find_symbol_ren t n : find_symbol (map ren_sym t) n = option_map ren_sym (find_symbol t n).
  Proof. unfold find_symbol. induction t as [|s t IH]; [reflexivity|]. cbn. destruct (s_name s =s n); [reflexivity|exact IH]. Qed.
  Lemma filter_ren (P Q : sym -> bool) t : (forall s, P (ren_sym s) = Q s) -> filter P (map ren_sym t) = map ren_sym (filter Q t).
  Proof. intros H. induction t as [|s t IH]; [reflexivity|]. cbn. rewrite H. destruct (Q s); cbn; rewrite IH; reflexivity. Qed.
  Lemma columns_at_ren t l : columns_at (map ren_sym t) (g (fst l), snd l) = map ren_sym (columns_at t l).
  Proof. unfold columns_at. apply filter_ren. intros s. rewrite at_ren. reflexivity. Qed.
  Lemma details_at_ren t l : details_at (map ren_sym t) (g (fst l), snd l) = map ren_sym (details_at t l).
  Proof. unfold details_at. apply filter_ren. intros s. rewrite at_ren. reflexivity. Qed.
  Lemma names_kept l : map s_name (map ren_sym l) = map s_name l. Proof. rewrite map_map. reflexivity. Qed.
  Lemma types_ren l : column_types (map ren_sym l) = column_types l.
  Proof. unfold column_types. induction l as [|s l IH]; [reflexivity|]. cbn. rewrite IH. reflexivity. Qed.
  Lemma use_schema_ren t n : use_schema (map ren_sym t) n = use_schema t n.
  Proof. unfold use_schema. rewrite find_symbol_ren. destruct (find_symbol t n) as [s|]; [|reflexivity]. cbn [option_map]. cbv zeta. change (s_loc (ren_sym s)) with (g (fst (s_loc s)), snd (s_loc s)). rewrite columns_at_ren, names_kept, types_ren. reflexivity. Qed.
  Lemma use_source_ren t n : use_source (map ren_sym t) n = use_source t n.
  Proof.
    unfold use_source. rewrite find_symbol_ren. destruct (find_symbol t n) as [s|]; [|reflexivity]. cbn [option_map]. change (s_loc (ren_sym s)) with (g (fst (s_loc s)), snd (s_loc s)). change (s_what (ren_sym s)) with (s_what s).
    destruct (s_what s); try reflexivity; rewrite details_at_ren, ?names_kept; [|reflexivity]. f_equal. induction (details_at t (s_loc s)) as [|d l IH]; [reflexivity|]. cbn [map each]. rewrite IH. reflexivity.
  Qed.
  Lemma schema_list_ren t : schema_list (map ren_sym t) = ren_ss g (schema_list t).
  Proof. unfold schema_list, ren_ss. induction t as [|s t IH]; [reflexivity|]. cbn [map flat_map]. rewrite map_app, IH. f_equal. change (s_what (ren_sym s)) with (s_what s). destruct (s_what s); reflexivity. Qed.
  Lemma schema_columns_ren t n : schema_columns (map ren_sym t) n = map (ren g) (schema_columns t n).
  Proof.
    unfold schema_columns. rewrite find_symbol_ren. destruct (find_symbol t n) as [s|]; [|reflexivity]. cbn [option_map]. change (s_loc (ren_sym s)) with (g (fst (s_loc s)), snd (s_loc s)). rewrite columns_at_ren, !map_map. reflexivity.
  Qed.
  Lemma known_symbol_ren t n : known_symbol (map ren_sym t) n = known_symbol t n.
  Proof. unfold known_symbol. rewrite find_symbol_ren. destruct (find_symbol t n); reflexivity. Qed.
  (** ** All relations *)
  Definition ren_known (l : list known_rel) : list known_rel := map (fun x => (fst x, ren_result g (snd x))) l.
  Lemma find_rel_ren n l : find_rel n (ren_known l) = option_map (ren_result g) (find_rel n l).
  Proof. induction l as [|[m x] l IH]; [reflexivity|]. cbn. destruct (m =s n); [reflexivity|exact IH]. Qed.
  Lemma fields_ren S l n : fields_of S (ren_known l) n = map (ren g) (fields_of S l n).
  Proof.
    unfold fields_of. induction (inputs_of S n) as [|i is IH]; [reflexivity|]. cbn [flat_map]. rewrite map_app, IH. f_equal. rewrite find_rel_ren. destruct (find_rel i l) as [[r d]|]; cbn [option_map ren_result fst snd]; [apply exposed_ren|reflexivity].
  Qed.
  Variables (ff : str -> option N) (tab : table) (S : TreeModel.read_plan).
  Lemma taken_ren known n : taken S (ren_known known) n = taken S known n.
  Proof. unfold taken. rewrite find_rel_ren. destruct (find_rel n known); reflexivity. Qed.
  Lemma visit_node_ren earlier t known n : visit_node ff (map ren_sym tab) S (ren_known earlier) t (ren_known known) n = (x <- visit_node ff tab S earlier t known n ;; let '(t, k, e) := x in Ok (t, ren_known k, e)).
  Proof.
    unfold visit_node. rewrite taken_ren. destruct (taken S known (n_name n)); [reflexivity|]. destruct (empty_body (n_kind n)) as [b0|]; [|reflexivity]. destruct (match b0 with BProject _ => _ | _ => _ end) as [t' given].
    rewrite schema_list_ren. replace (ren_known known ++ ren_known earlier) with (ren_known (known ++ earlier)) by (unfold ren_known; apply map_app). rewrite fields_ren.
    assert (E : flat_map (schema_columns (map ren_sym tab)) (used_schemas (n_details n)) = map (ren g) (flat_map (schema_columns tab) (used_schemas (n_details n)))).
    { induction (used_schemas (n_details n)) as [|x l IH]; [reflexivity|]. cbn [flat_map]. rewrite map_app, IH, schema_columns_ren. reflexivity. }
    rewrite E, (columns_ren g Hg ff (find_relation S) (known_symbol tab) (known_symbol (map ren_sym tab)) (known_symbol_ren tab)). unfold bindR. destruct (visitColumns _ _ _ _ _ _ _ _ _ _) as [[[r d] m]| |]; cbn [obind fst snd fine]; try reflexivity.
    rewrite app_nil_r. unfold ren_known. rewrite map_app. reflexivity.
  Qed.
  Lemma visit_nodes_ren earlier l : forall t known, visit_nodes ff (map ren_sym tab) S (ren_known earlier) t (ren_known known) l = (x <- visit_nodes ff tab S earlier t known l ;; Ok (ren_known (fst x), snd x)).
  Proof.
    induction l as [|n l IH]; intros t known; [reflexivity|]. cbn [visit_nodes]. rewrite visit_node_ren. destruct (visit_node _ _ _ _ _ _ _) as [[[t1 k1] e1]| |]; cbn [obind]; try reflexivity. rewrite IH. destruct (visit_nodes _ _ _ _ _ _ _) as [[k2 e2]| |]; reflexivity.
  Qed.
  Lemma message_source_ren l : forall acc, message_source (map ren_sym tab) acc l = message_source tab acc l.
  Proof. induction l as [|n l IH]; intros acc; [reflexivity|]. cbn [message_source]. rewrite use_source_ren. destruct (use_source tab n); cbn [obind]; try reflexivity. apply IH. Qed.
  Lemma message_schema_ren l : message_schema (map ren_sym tab) l = message_schema tab l.
  Proof. unfold message_schema. generalize (@None named_struct). induction l as [|n l IH]; intros acc; [reflexivity|]. cbn [fold_left]. rewrite use_schema_ren. apply IH. Qed.
End Tables.
