(** The order of sections of different kinds. *)
From Verif Require Import Base BaseFacts StringsModel TypeModel LexModel ExprModel RelModel SectionModel WholeModel SoundFacts ExtFacts RenumberFacts.
From Verif Require FieldModel DeclModel SymbolModel TreeModel PipeModel.
From Coq Require Import Lia.

(** * What is meant *)
(** The definitions of a text: its schemas, sources and extension spaces *)
Definition is_definition (n : pnode) : bool := match n with PSchema _ _ | PSource _ _ | PSpace _ _ => true | _ => false end.
Definition definitions (l : list pnode) : list pnode := filter is_definition l.
(** The same sections, with the order changed at most between definitions, pipelines, relations and roots *)
Definition same_kinds (a b : list pnode) : Prop := definitions a = definitions b /\ pipelines_of a = pipelines_of b /\ relations_of a = relations_of b /\ roots_of a = roots_of b.

(** What happens to a text that is accepted *)
Definition from_nodes (nodes : list pnode) : outcome (option bplan * list werr) :=
    p <- symbols nodes ;;
    let '(tab, e1) := p in
    q <- TreeModel.readText (text_of nodes tab) ;;
    let '(rp, e2) := q in
    let fs := entries 0 0 nodes in
    v <- visit_nodes (DeclModel.resolve_function fs) tab rp [] SymbolModel.empty_table [] (relations_of nodes) ;;
    let '(first, e3) := v in
    match map WPass e1 ++ map WTree e2 ++ filter reported_first e3 with
    | [] =>
      v <- visit_nodes (DeclModel.resolve_function fs) tab rp first SymbolModel.empty_table [] (relations_of nodes) ;;
      let '(known, e4) := v in
      l <- TreeModel.outputToBinaryPlan rp (Datatypes.S (length (relations_of nodes))) ;;
      rels <- fill_all tab known l ;;
      Ok (Some (BPlan (DeclModel.outputExtensionSpaces fs) (DeclModel.outputFunctions fs) rels), e4)
    | e => Ok (None, e)
    end.
Lemma from_text_nodes s : from_text s = match parse s with None => Ok (None, [WSyntax]) | Some nodes => from_nodes nodes end.
Proof. reflexivity. Qed.

(** * Where the definitions are *)
Fixpoint pos (i : nat) (l : list pnode) (k : nat) : nat :=
  match l with [] => i + k | n :: l => if is_definition n then match k with 0 => i | S k => pos (S i) l k end else pos (S i) l k end.
Lemma pos_ge l : forall i k, i <= pos i l k.
Proof. induction l as [|n l IH]; intros i k; cbn [pos]; [lia|]. destruct (is_definition n); [destruct k; [lia|]|]; specialize (IH (S i)); [specialize (IH k)|specialize (IH k)]; lia. Qed.
Lemma pos_lt l : forall i a b, a < b -> pos i l a < pos i l b.
Proof.
  induction l as [|n l IH]; intros i a b H; cbn [pos]; [lia|]. destruct (is_definition n); [|apply IH; exact H]. destruct a as [|a], b as [|b]; try lia; [pose proof (pos_ge l (S i) b); lia|]. apply IH. lia.
Qed.
Lemma pos_inj i l a b : pos i l a = pos i l b -> a = b.
Proof. intros H. destruct (Nat.lt_trichotomy a b) as [L|[E|L]]; [|exact E|]; apply (pos_lt l i) in L; lia. Qed.
Section Define.
  Variable g : nat -> nat.
  Notation ren_sym := (ren_sym g).
  Notation ren_tab := (map ren_sym).
  Lemma update_ren t n f : update_file (ren_tab t) n f = (x <- update_file t n f ;; Ok (ren_tab x)).
  Proof.
    induction t as [|s t IH]; [reflexivity|]. cbn [map update_file]. change (s_name (ren_sym s)) with (s_name s). change (s_what (ren_sym s)) with (s_what s). destruct (s_name s =s n).
    - destruct (s_what s) as [| | | | | |[x|]| |]; try reflexivity. destruct (f x); reflexivity.
    - rewrite IH. destruct (update_file t n f); reflexivity.
  Qed.
  Lemma details_ren l n : forall t, visitFileDetails (ren_tab t) n l = (x <- visitFileDetails t n l ;; Ok (ren_tab x)).
  Proof. induction l as [|d l IH]; intros t; [reflexivity|]. cbn [visitFileDetails]. rewrite update_ren. destruct (update_file t n _); cbn [obind]; try reflexivity. apply IH. Qed.
  Lemma files_ren i fs : forall t, visitFiles (ren_tab t) (g i, 0) fs = (x <- visitFiles t (i, 0) fs ;; Ok (ren_tab x)).
  Proof.
    induction fs as [|f fs IH]; intros t; [reflexivity|]. cbn [visitFiles]. change [Sym (fn_text f) (g i, 0) (WDetail (Some no_file))] with (ren_tab [Sym (fn_text f) (i, 0) (WDetail (Some no_file))]). rewrite <- map_app, details_ren.
    destruct (visitFileDetails _ _ _); cbn [obind]; try reflexivity. apply IH.
  Qed.
  Lemma items_ren i items : visitItems (g i, 0) items = bindE (visitItems (i, 0) items) (fun r => good (ren_tab r)).
  Proof.
    induction items as [|[n w] items IH]; [reflexivity|]. cbn [visitItems]. rewrite IH. unfold bindE. destruct (read_type false w) as [[t e]| |]; cbn [obind fst snd]; try reflexivity.
    destruct (visitItems (i, 0) items) as [[r m]| |]; cbn; rewrite ?app_nil_r; reflexivity.
  Qed.
  Lemma functions_ren i fs : forall j, function_symbols (g i) j fs = ren_tab (function_symbols i j fs).
  Proof. induction fs as [|f fs IH]; intros j; [reflexivity|]. cbn. rewrite IH. reflexivity. Qed.
  Lemma define_ren k t n : define (g k) (ren_tab t) n = (x <- define k t n ;; Ok (ren_tab (fst x), snd x)).
  Proof.
    destruct n as [p|r|r|name items|name [fs| |ns|]|uri fs]; cbn [define]; cbv zeta; try reflexivity; try (cbn [obind fst snd]; rewrite map_app; reflexivity).
    - rewrite items_ren. unfold bindE. destruct (visitItems (k, 0) items) as [[r m]| |]; cbn [obind fst snd good]; try reflexivity. rewrite app_nil_r, map_app. reflexivity.
    - change [Sym name (g k, 0) WLocal] with (ren_tab [Sym name (k, 0) WLocal]). rewrite <- map_app, files_ren. destruct (visitFiles _ _ _); reflexivity.
    - cbn [obind fst snd]. rewrite map_app. cbn [map]. rewrite map_map. reflexivity.
    - cbn [obind fst snd]. rewrite !map_app, functions_ren. destruct uri; reflexivity.
  Qed.
End Define.
Lemma define_other i t n : is_definition n = false -> define i t n = Ok (t, []).
Proof. destruct n; try discriminate; reflexivity. Qed.
Lemma define_all_ren g l : forall i k t, (forall j, g (k + j) = pos i l j) -> define_all i (map (ren_sym g) t) l = (x <- define_all k t (definitions l) ;; Ok (map (ren_sym g) (fst x), snd x)).
Proof.
  induction l as [|n l IH]; intros i k t H; [reflexivity|]. cbn [define_all definitions filter]. cbn [pos] in H. destruct (is_definition n) eqn:D.
  - pose proof (H 0) as H0. rewrite Nat.add_0_r in H0. cbn [define_all]. rewrite <- H0, define_ren. destruct (define k t n) as [[t1 e1]| |]; cbn [obind fst snd]; try reflexivity.
    rewrite H0, (IH (S i) (S k) t1).
    + unfold definitions. destruct (define_all (S k) t1 (filter is_definition l)) as [[t2 e2]| |]; cbn [obind fst snd]; reflexivity.
    + intros j. rewrite <- (H (S j)). f_equal. lia.
  - rewrite (define_other _ _ _ D). cbn [obind fst snd]. rewrite (IH (S i) k t H). unfold definitions. destruct (define_all k t (filter is_definition l)) as [[t2 e2]| |]; reflexivity.
Qed.
Lemma symbols_ren l : symbols l = (x <- symbols (definitions l) ;; Ok (map (ren_sym (pos 0 l)) (fst x), snd x)).
Proof. exact (define_all_ren (pos 0 l) l 0 0 [] (fun j => eq_refl)). Qed.
Lemma entries_definitions l : forall ns nf, entries ns nf l = entries ns nf (definitions l).
Proof. induction l as [|n l IH]; intros ns nf; [reflexivity|]. destruct n; cbn [definitions filter is_definition entries]; rewrite IH; reflexivity. Qed.

(** * Texts *)
Section Fill.
  Variables (g : nat -> nat) (Hg : forall a b, g a = g b -> a = b) (tab : table) (known : list known_rel).
  Lemma fill_ren t : fill (map (ren_sym g) tab) (ren_known g known) t = fill tab known t.
  Proof.
    revert t. fix IH 1. intros [|u k n ins es]; [reflexivity|]. cbn [fill].
    match goal with |- (x <- ?a ins ;; _) = (y <- ?b ins ;; _) => assert (E : a ins = b ins) by (induction ins as [|i ins IHl]; [reflexivity|]; cbn; rewrite IH, IHl; reflexivity); rewrite E end.
    match goal with |- (x <- ?a ;; _) = _ => destruct a; cbn [obind]; try reflexivity end. rewrite find_rel_ren. destruct (find_rel n known) as [[r d]|]; cbn [option_map ren_result fst snd]; [|reflexivity].
    rewrite (message_source_ren g Hg), (message_schema_ren g Hg). reflexivity.
  Qed.
  Lemma fill_all_ren l : fill_all (map (ren_sym g) tab) (ren_known g known) l = fill_all tab known l.
  Proof. induction l as [|[t ns] l IH]; [reflexivity|]. cbn [fill_all]. rewrite fill_ren, IH. reflexivity. Qed.
End Fill.
(** Only the definitions and the lists of the others count. *)
Definition from_parts (defs : list pnode) (pipes : list (list (str * str))) (rels : list rnode) (roots : list (list str)) : outcome (option bplan * list werr) :=
    p <- symbols defs ;;
    let '(tab, e1) := p in
    q <- TreeModel.readText {| TreeModel.x_pipes := map (map fst) pipes;
     TreeModel.x_rels := map (fun n => {| TreeModel.x_name := n_name n; TreeModel.x_kind := kind_read (n_kind n); TreeModel.x_body := n_name n; TreeModel.x_exprs := [] |}) rels;
     TreeModel.x_roots := roots; TreeModel.x_others := nodup (list_eq_dec Ascii.ascii_dec) (map s_name tab) |} ;;
    let '(rp, e2) := q in
    let fs := entries 0 0 defs in
    v <- visit_nodes (DeclModel.resolve_function fs) tab rp [] SymbolModel.empty_table [] rels ;;
    let '(first, e3) := v in
    match map WPass e1 ++ map WTree e2 ++ filter reported_first e3 with
    | [] =>
      v <- visit_nodes (DeclModel.resolve_function fs) tab rp first SymbolModel.empty_table [] rels ;;
      let '(known, e4) := v in
      l <- TreeModel.outputToBinaryPlan rp (Datatypes.S (length rels)) ;;
      r <- fill_all tab known l ;;
      Ok (Some (BPlan (DeclModel.outputExtensionSpaces fs) (DeclModel.outputFunctions fs) r), e4)
    | e => Ok (None, e)
    end.
Lemma from_nodes_parts l : from_nodes l = from_parts (definitions l) (pipelines_of l) (relations_of l) (roots_of l).
Proof.
  unfold from_nodes, from_parts. rewrite symbols_ren, entries_definitions. destruct (symbols (definitions l)) as [[tab e1]| |]; cbn [obind fst snd]; try reflexivity.
  unfold text_of. set (g := pos 0 l). pose proof (pos_inj 0 l) as Hg. fold g in Hg. clearbody g. rewrite names_kept. destruct (TreeModel.readText _) as [[rp e2]| |]; cbn [obind]; try reflexivity.
  pose proof (visit_nodes_ren g Hg (DeclModel.resolve_function (entries 0 0 (definitions l))) tab rp [] (relations_of l) SymbolModel.empty_table []) as V. match type of V with _ = ?r => match goal with |- obind ?a _ = _ => change (a = r) in V; rewrite V; clear V end end.
  destruct (visit_nodes _ tab rp [] _ _ _) as [[first e3]| |]; cbn [obind fst snd]; try reflexivity. destruct (map WPass e1 ++ map WTree e2 ++ filter reported_first e3); [|reflexivity].
  pose proof (visit_nodes_ren g Hg (DeclModel.resolve_function (entries 0 0 (definitions l))) tab rp first (relations_of l) SymbolModel.empty_table []) as V. match type of V with _ = ?r => match goal with |- obind ?a _ = _ => change (a = r) in V; rewrite V; clear V end end.
  destruct (visit_nodes _ tab rp first _ _ _) as [[known e4]| |]; cbn [obind fst snd]; try reflexivity. destruct (TreeModel.outputToBinaryPlan _ _) as [o| |]; cbn [obind]; try reflexivity. rewrite (fill_all_ren g Hg). reflexivity.
Qed.
Theorem kinds_order s s' a b : parse s = Some a -> parse s' = Some b -> same_kinds a b -> from_text s = from_text s'.
Proof. intros Ha Hb (E1 & E2 & E3 & E4). rewrite !from_text_nodes, Ha, Hb, !from_nodes_parts, E1, E2, E3, E4. reflexivity. Qed.
