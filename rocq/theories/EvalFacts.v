(** What plans compute, and that same plans compute the same.  The meaning of everything that a plan only names (tables, functions, literals, casts, the order of
    sorted rows, which rows are grouped and joined) is a parameter: rows and results are values of any type, and only the columns that a relation refers to matter. *)
From Verif Require Import Base BaseFacts EnumModel TypeModel ExprModel RelModel SectionModel SectionFacts WholeModel WholeFacts.
From Verif Require DeclModel DeclFacts PrintFacts.
From Coq Require Import Lia ZifyBool ZifyNat ZifyN.

(** * The meaning of a plan *)
Section Meaning.
  Variable V : Type.
  Notation row := (list V).
  (** A function gets the values of its arguments and the names that are not values. *)
  Definition value_or_name : Type := (V + str)%type.
  Record meaning := Meaning {
    mn_null : V;
    mn_true : V -> bool;
    mn_literal : literal -> V;
    mn_cast : ptype -> V -> V;
    mn_if : list (V * V) -> option V -> V;
    mn_function : str -> str -> ptype -> list value_or_name -> V;                                         (* by URI and name *)
    mn_measure : str -> str -> phase -> invocation -> ptype -> list (list value_or_name) -> V;            (* the arguments for each row of a group *)
    mn_table : source -> option named_struct -> list (nat -> V);                                          (* rows give a value for every column *)
    mn_order : list (list (V * sort_kind)) -> list nat;                                                   (* the keys of the rows; which rows come out, in order *)
    mn_groups : list (list V) -> list (nat * list nat);                                                   (* the keys of the rows; for each group a row with its key, and all its rows *)
    mn_pairs : join_type -> nat -> list (list bool) -> list (option nat * option nat) }.                  (* the number of rows on the right, and for each row on the left which of them match; the rows that are joined, or nulls *)
  Variable M : meaning.
  Variable fn : N -> option (str * str).       (* the functions of the plan *)
  Definition column_of (r : row) (z : Z) : V := if (z <? 0)%Z then mn_null M else nth (Z.to_nat z) r (mn_null M).
  Fixpoint eval (r : row) (e : expr) : V :=
    match e with
    | ELit l => mn_literal M l
    | ESel (SegField z None) RootRef => column_of r z
    | EFun f args _ _ ty =>
        match fn f with
        | Some (uri, name) => mn_function M uri name ty (map (fun a => match a with AValue e => inl (eval r e) | AEnum s => inr s | _ => inl (mn_null M) end) args)
        | None => mn_null M
        end
    | EIfThen ifs els =>
        mn_if M (map (fun x => (match fst x with Some i => eval r i | None => mn_null M end, match snd x with Some t => eval r t | None => mn_null M end)) ifs) (match els with Some e => Some (eval r e) | None => None end)
    | ECast e ty _ => mn_cast M ty (eval r e)
    | _ => mn_null M
    end.
  Definition eval_arg (r : row) (a : arg expr) : value_or_name := match a with AValue e => inl (eval r e) | AEnum s => inr s | _ => inl (mn_null M) end.
  Definition holds (o : option expr) (r : row) : bool := match o with Some e => mn_true M (eval r e) | None => true end.
  Definition rows_at (l : list row) (is : list nat) : list row := flat_map (fun i => some_list (nth_error l i)) is.
  Definition nulls (k : nat) : row := repeat (mn_null M) k.
  Definition eval_measure (l : list row) (m : measure) : V :=
    match m with
    | Measure (Some (AF f args _ _ ty ph v _)) c =>
        match fn f with Some (uri, name) => mn_measure M uri name ph v ty (map (fun r => map (eval_arg r) args) (filter (holds c) l)) | None => mn_null M end
    | _ => mn_null M
    end.
  Definition relation_table : Type := (nat * list row)%type.       (* the number of columns, the rows *)
  Definition emitted (emit : list Z) (t : relation_table) : relation_table :=
    match emit with [] => t | _ => (length emit, map (fun r => map (column_of r) emit) (snd t)) end.
  Definition joined (l r : relation_table) (p : option nat * option nat) : row :=
    (match fst p with Some i => nth i (snd l) (nulls (fst l)) | None => nulls (fst l) end) ++ (match snd p with Some i => nth i (snd r) (nulls (fst r)) | None => nulls (fst r) end).
  Definition eval_body (b : body) (src : option source) (sch : option named_struct) (ins : list relation_table) : relation_table :=
    match b, ins with
    | BRead _ _ f _ _, _ =>
        let k := match sch with Some s => length (ns_names s) | None => 0 end in
        (k, filter (holds f) (map (fun g => map g (seq 0 k)) (match src with Some s => mn_table M s sch | None => [] end)))
    | BFilter c, [i] => (fst i, filter (holds c) (snd i))
    | BFetch o c, [i] => (fst i, let l := skipn (Z.to_nat o) (snd i) in if (c <? 0)%Z then l else firstn (Z.to_nat c) l)
    | BAggregate gs ms, [i] =>
        let keys := map (fun r => map (eval r) (concat gs)) (snd i) in
        (length (concat gs) + length ms, map (fun g => nth (fst g) keys (nulls (length (concat gs))) ++ map (eval_measure (rows_at (snd i) (snd g))) ms) (mn_groups M keys))
    | BSort l, [i] => (fst i, rows_at (snd i) (mn_order M (map (fun r => map (fun s => (eval r (fst s), snd s)) l) (snd i))))
    | BProject es, [i] => (fst i + length es, map (fun r => r ++ map (eval r) es) (snd i))
    | BJoin t e _, [l; r] =>
        (fst l + fst r, map (joined l r) (mn_pairs M t (length (snd r)) (map (fun x => map (fun y => holds e (x ++ y)) (snd r)) (snd l))))
    | BCross, [l; r] => (fst l + fst r, flat_map (fun x => map (fun y => x ++ y) (snd r)) (snd l))
    | _, _ => (0, [])
    end.
  Fixpoint eval_tree (t : tree) : relation_table :=
    match t with Node r src sch ins => emitted (r_emit r) (eval_body (r_body r) src sch (map eval_tree ins)) end.
End Meaning.
(** The function that a reference stands for: that of the first declaration with this number in a space that is there *)
Definition function_of (b : bplan) (f : N) : option (str * str) :=
  hd_error (flat_map (fun d => if (DeclModel.d_anchor d =? f)%N then map (fun u => (fst u, DeclModel.d_name d)) (filter (fun u => (snd u =? DeclModel.d_space d)%N) (b_uris b)) else []) (b_decls b)).
(** The results of all relations of a plan with the names of their columns *)
Definition results {V} (M : meaning V) (b : bplan) : list (list (list V) * list str) :=
  map (fun x => (snd (eval_tree V M (function_of b) (fst x)), match snd x with Some l => l | None => [] end)) (b_rels b).

(** * Proofs *)
Section Facts.
  Variable V : Type.
  Variable M : meaning V.
  Notation null := (mn_null V M).
  Notation eval := (eval V M).
  Notation column_of := (column_of V M).
  Notation holds := (holds V M).
  Definition num (c : cid) : nat := match c with Stored n | Computed n => n end.
  (** Columns that are the same have the same values in every row. *)
  Definition Consistent (F : list cid) (r : list V) : Prop := exists g : cid -> V, r = map g F.
  Lemma column_pick (g : cid -> V) F z c : pick F z = Some c -> column_of (map g F) z = g c.
  Proof. unfold pick, EvalFacts.column_of. destruct (z <? 0)%Z; [discriminate|]. intros E. apply nth_error_nth. rewrite nth_error_map, E. reflexivity. Qed.
  Lemma column_same F r z z' : Consistent F r -> same_column F z z' -> column_of r z' = column_of r z.
  Proof. intros (g & ->) (H1 & H2). destruct (pick F z) as [c|] eqn:E; [|congruence]. rewrite (column_pick g F z c E), (column_pick g F z' c H2). reflexivity. Qed.
  Section Same.
    Variable fn fn' : N -> option (str * str).
    Variable R : N -> N -> Prop.
    Hypothesis HR : forall f f', R f f' -> fn' f' = fn f.
    Section Row.
      Variable C : Z -> Z -> Prop.
      Variable r : list V.
      Hypothesis HC : forall z z', C z z' -> column_of r z' = column_of r z.
      Lemma eval_same e : forall e', SameE R C e e' -> eval fn' r e' = eval fn r e.
      Proof.
        induction e as [|l|s q|q|q|f args deprecated options ty Ha Hd|ifs els Hi He|e ty f IH|n|l n Hl|q n|op red e n He|u] using PrintFacts.expr_ind2; intros e' S; inversion S; subst; try reflexivity.
        - cbn. apply HC. assumption.
        - cbn [EvalFacts.eval]. match goal with H : R _ _ |- _ => rewrite (HR _ _ H) end. destruct (fn f) as [[uri name]|]; [|reflexivity]. f_equal. match goal with H : Forall2 _ _ _ |- _ => rename H into F end. clear -F Ha.
          induction F as [|a a' l l' H _ IH]; [reflexivity|]. inversion Ha as [|? ? Ha1 Ha2]; subst. cbn [map]. f_equal; [|exact (IH Ha2)]. destruct H as [e e' H|]; [|reflexivity]. rewrite (Ha1 e' H). reflexivity.
        - cbn [EvalFacts.eval]. f_equal.
          + match goal with H : Forall2 _ _ _ |- _ => rename H into F end. clear -F Hi. induction F as [|a a' l l' H _ IH]; [reflexivity|]. inversion Hi as [|? ? (Ha1 & Ha2) Ha3]; subst. cbn [map]. f_equal; [|exact (IH Ha3)].
            destruct H as [i i' t t' H1 H2]. cbn [fst snd] in *. rewrite (Ha1 i eq_refl i' H1), (Ha2 t eq_refl t' H2). reflexivity.
          + match goal with H : SameO _ _ _ _ |- _ => rename H into HO end. destruct HO as [|x x' H]; [reflexivity|]. rewrite (He x eq_refl x' H). reflexivity.
        - cbn [EvalFacts.eval]. rewrite (IH _ ltac:(eassumption)). reflexivity.
      Qed.
      Lemma arg_same a a' : SameArg R C a a' -> eval_arg V M fn' r a' = eval_arg V M fn r a.
      Proof. destruct 1 as [e e' H|]; [|reflexivity]. cbn. rewrite (eval_same e e' H). reflexivity. Qed.
      Lemma args_same l l' : Forall2 (SameArg R C) l l' -> map (eval_arg V M fn' r) l' = map (eval_arg V M fn r) l.
      Proof. induction 1 as [|a a' l l' H _ IH]; [reflexivity|]. cbn [map]. rewrite (arg_same a a' H), IH. reflexivity. Qed.
      Lemma evals_same l l' : Forall2 (SameE R C) l l' -> map (eval fn' r) l' = map (eval fn r) l.
      Proof. induction 1 as [|a a' l l' H _ IH]; [reflexivity|]. cbn [map]. rewrite (eval_same a a' H), IH. reflexivity. Qed.
      Lemma holds_same o o' : SameO R C o o' -> holds fn' o' r = holds fn o r.
      Proof. destruct 1 as [|e e' H]; [reflexivity|]. cbn. rewrite (eval_same e e' H). reflexivity. Qed.
      Lemma keys_same l l' : Forall2 (SameSort R C) l l' -> map (fun s => (eval fn' r (fst s), snd s)) l' = map (fun s => (eval fn r (fst s), snd s)) l.
      Proof. induction 1 as [|a a' l l' H _ IH]; [reflexivity|]. cbn [map]. rewrite IH. destruct H as [e e' d H]. cbn [fst snd]. rewrite (eval_same e e' H). reflexivity. Qed.
    End Row.
    Lemma filter_same {A} (f g : A -> bool) l : (forall x, In x l -> f x = g x) -> filter f l = filter g l.
    Proof. induction l as [|x l IH]; intros H; [reflexivity|]. cbn [filter]. rewrite (H x) by (left; reflexivity). rewrite IH by (intros y Iy; apply H; right; exact Iy). reflexivity. Qed.
    Lemma filter_in {A} (f : A -> bool) (P : A -> Prop) l : Forall P l -> Forall P (filter f l).
    Proof. induction 1 as [|x l H _ IH]; [constructor|]. cbn [filter]. destruct (f x); [constructor|]; assumption. Qed.
    Lemma rows_at_in (P : list V -> Prop) (l : list (list V)) is : Forall P l -> Forall P (rows_at V l is).
    Proof. intros H. apply Forall_forall. intros x I. apply in_flat_map in I as (i & _ & I). rewrite Forall_forall in H. apply H. revert I. destruct (nth_error l i) as [y|] eqn:E; cbn; [|intros []]. intros [<- | []]. eapply nth_error_In, E. Qed.
    Lemma measure_same (C : Z -> Z -> Prop) l m m' : (forall r, In r l -> forall z z', C z z' -> column_of r z' = column_of r z) -> SameMeasure R C m m' -> eval_measure V M fn' l m' = eval_measure V M fn l m.
    Proof.
      intros HC. destruct 1 as [f f' args args' ty ph v c c' Hf Ha Hc]. cbn [eval_measure]. rewrite (HR _ _ Hf). destruct (fn f) as [[uri name]|]; [|reflexivity]. f_equal.
      rewrite (filter_same (holds fn' c') (holds fn c)) by (intros r Ir; apply (holds_same C r (HC r Ir)), Hc). apply map_ext_in. intros r Ir. apply filter_In in Ir as (Ir & _). apply (args_same C r (HC r Ir)), Ha.
    Qed.
    (** ** The columns of one relation *)
    Lemma consistent_same F rows : Forall (Consistent F) rows -> forall r, In r rows -> forall z z', same_column F z z' -> column_of r z' = column_of r z.
    Proof. intros H r Ir z z' S. rewrite Forall_forall in H. exact (column_same F r z z' (H r Ir) S). Qed.
    Lemma concat_one {A} (l : list A) : concat [l] = l.
    Proof. cbn. apply app_nil_r. Qed.
    (** One input *)
    Lemma one_same F b b' src sch i : Forall (Consistent F) (snd i) -> is_read b = false -> SameBody R (same_column F) b b' -> eval_body V M fn' b' src sch [i] = eval_body V M fn b src sch [i].
    Proof.
      intros Hi Hr S. pose proof (consistent_same F _ Hi) as HC. destruct S as [f f' H|c c' H|o c|gs gs' ms ms' Hg Hm|l l' H|l l' H|t e e' H|]; cbn [eval_body]; try reflexivity; [discriminate Hr| ..].
      - f_equal. apply filter_same. intros r Ir. apply (holds_same _ r (HC r Ir)), H.
      - rewrite !concat_one. assert (E : map (fun r => map (eval fn' r) gs') (snd i) = map (fun r => map (eval fn r) gs) (snd i)) by (apply map_ext_in; intros r Ir; apply (evals_same _ r (HC r Ir)), Hg). rewrite E, <- (forall2_len _ _ _ Hg), <- (forall2_len _ _ _ Hm). f_equal.
        apply map_ext. intros [k is]. f_equal. cbn [snd]. clear E Hr. induction Hm as [|m m' ms ms' H _ IH]; [reflexivity|]. cbn [map]. rewrite IH. f_equal. apply (measure_same (same_column F)); [|exact H]. intros r Ir. apply (consistent_same F (rows_at V (snd i) is)); [|exact Ir]. apply rows_at_in, Hi.
      - do 3 f_equal. apply map_ext_in. intros r Ir. apply (keys_same _ r (HC r Ir)), H.
      - rewrite <- (forall2_len _ _ _ H). f_equal. apply map_ext_in. intros r Ir. f_equal. apply (evals_same _ r (HC r Ir)), H.
    Qed.
    (** Two inputs *)
    Lemma two_same F b b' src sch l r : (forall x y, In x (snd l) -> In y (snd r) -> Consistent F (x ++ y)) -> is_read b = false -> SameBody R (same_column F) b b' -> eval_body V M fn' b' src sch [l; r] = eval_body V M fn b src sch [l; r].
    Proof.
      intros Hi Hr S. destruct S as [f f' H|c c' H|o c|gs gs' ms ms' Hg Hm|s s' H|s s' H|t e e' H|]; cbn [eval_body]; try reflexivity; [discriminate Hr|].
      do 3 f_equal. apply map_ext_in. intros x Ix. apply map_ext_in. intros y Iy. apply (holds_same (same_column F)); [|exact H]. intros z z' C. exact (column_same F _ z z' (Hi x y Ix Iy) C).
    Qed.
    Lemma none_same b b' src sch : is_read b = true -> SameBody R (same_column []) b b' -> eval_body V M fn' b' src sch [] = eval_body V M fn b src sch [].
    Proof.
      intros Hr S. destruct S as [f f' H|c c' H|o c|gs gs' ms ms' Hg Hm|s s' H|s s' H|t e e' H|]; try discriminate Hr. cbn [eval_body]. f_equal. apply filter_same. intros r _. apply (holds_same (same_column [])); [|exact H].
      intros z z' (C & _). exfalso. apply C. unfold pick. destruct (z <? 0)%Z; [reflexivity|]. destruct (Z.to_nat z); reflexivity.
    Qed.
    Lemma emitted_same A T emit emit' : Forall (Consistent A) (snd T) -> Forall2 (same_column A) emit emit' -> emitted V M emit' T = emitted V M emit T.
    Proof.
      intros H S. unfold emitted. pose proof (forall2_len _ _ _ S) as L. destruct S as [|z z' l l' S1 S2]; [reflexivity|]. rewrite L. f_equal. apply map_ext_in. intros r Ir. rewrite Forall_forall in H. specialize (H r Ir). clear L.
      cbn [map]. f_equal; [exact (column_same A r z z' H S1)|]. clear -H S2. induction S2 as [|y y' l l' S _ IH]; [reflexivity|]. cbn [map]. rewrite IH. f_equal. exact (column_same A r y y' H S).
    Qed.
  End Same.
  (** ** The columns that come out *)
  Section Columns.
  Variable fn : N -> option (str * str).
  Variable known : N -> Prop.
  Definition Within (lo hi : nat) (F : list cid) : Prop := Forall (fun c => lo <= num c < hi) F.
  Lemma pick_in F z c : pick F z = Some c -> In c F.
  Proof. unfold pick. destruct (z <? 0)%Z; [discriminate|]. apply nth_error_In. Qed.
  Lemma consistent_agree g g' hi F : Forall (fun c => num c < hi) F -> (forall c, num c < hi -> g' c = g c) -> map g F = map g' F :> list V.
  Proof. intros H A. apply map_ext_in. intros c Ic. rewrite Forall_forall in H. symmetry. apply A, H, Ic. Qed.
  Definition in_columns (F : list cid) (e : expr) : Prop := match e with ESel (SegField z c) q => c = None /\ q = RootRef /\ in_range F z | _ => True end.
  Lemma plain_columns F e : plain known (in_range F) e -> in_columns F e.
  Proof. destruct e as [| |s q| | | | | | | | | |]; try (intros; exact I). destruct s as [z c| | |]; [|intros; exact I..]. destruct c; [intros []|]. destruct q; cbn; intuition. Qed.
  Lemma project_row F es : forall n g r, r = map g F -> Forall (fun c => num c < n) F -> Forall (in_columns F) es ->
    exists g', (forall c, num c < n -> g' c = g c) /\ map (eval fn r) es = map g' (projected n F es).
  Proof.
    induction es as [|e es IH]; intros n g r E B H; [exists g; split; [reflexivity|reflexivity]|]. inversion H as [|? ? H1 H2]; subst.
    assert (X : (exists z c, e = ESel (SegField z None) RootRef /\ pick F z = Some c) \/ projected n F (e :: es) = Computed n :: projected (S n) F es).
    { destruct e as [| |s q| | | | | | | | | |]; try (right; reflexivity). destruct s as [z o| | |]; try (right; reflexivity). destruct H1 as (-> & -> & H1). left. unfold in_range in H1. destruct (pick F z) as [c|] eqn:Ep; [|congruence]. eauto. }
    destruct X as [(z & c & -> & Ep) | X].
    - destruct (IH n g _ eq_refl B H2) as (g' & A1 & A2). exists g'. split; [exact A1|]. cbn [map projected]. rewrite Ep. cbn [some_list app map]. rewrite A2. f_equal. cbn [EvalFacts.eval]. rewrite (column_pick g F z c Ep). symmetry. apply A1. rewrite Forall_forall in B. apply B, (pick_in F z c Ep).
    - set (v := eval fn (map g F) e). set (g1 := fun c => match c with Computed m => if m =? n then v else g c | _ => g c end).
      assert (A0 : forall c, num c < n -> g1 c = g c) by (intros [m|m] Hm; cbn in *; [reflexivity|]; destruct (Nat.eqb_spec m n); [lia|reflexivity]).
      destruct (IH (S n) g1 (map g F)) as (g' & A1 & A2); [apply (consistent_agree g g1 n F B A0)|eapply Forall_impl; [|exact B]; cbn; lia|exact H2|]. exists g'. split; [intros c Hc; rewrite A1 by lia; apply A0, Hc|].
      rewrite X. cbn [map]. rewrite A2. f_equal. rewrite A1 by (cbn; lia). cbn. rewrite Nat.eqb_refl. reflexivity.
  Qed.
  Lemma projected_length F es : forall n, Forall (in_columns F) es -> length (projected n F es) = length es.
  Proof.
    induction es as [|e es IH]; intros n H; [reflexivity|]. inversion H as [|? ? H1 H2]; subst. destruct e as [| |s q| | | | | | | | | |]; try (cbn [projected length]; rewrite IH by exact H2; reflexivity).
    destruct s as [z o| | |]; try (cbn [projected length]; rewrite IH by exact H2; reflexivity). destruct H1 as (-> & -> & H1). cbn [projected]. unfold in_range in H1. destruct (pick F z); [|congruence]. cbn. rewrite IH by exact H2. reflexivity.
  Qed.
  Lemma projected_within F es : forall lo n, lo <= n -> Within lo n F -> Forall (in_columns F) es -> Within lo (n + length (filter (fun e => negb (is_column e)) es)) (projected n F es).
  Proof.
    induction es as [|e es IH]; intros lo n L B H; [constructor|]. inversion H as [|? ? H1 H2]; subst.
    assert (X : (exists z c, e = ESel (SegField z None) RootRef /\ pick F z = Some c) \/ projected n F (e :: es) = Computed n :: projected (S n) F es /\ is_column e = false).
    { destruct e as [| |s q| | | | | | | | | |]; try (right; split; reflexivity). destruct s as [z o| | |]; try (right; split; reflexivity). destruct H1 as (-> & -> & H1). left. unfold in_range in H1. destruct (pick F z) as [c|] eqn:Ep; [|congruence]. eauto. }
    destruct X as [(z & c & -> & Ep) | (X & Xc)].
    - cbn [projected filter is_column negb]. rewrite Ep. constructor; [|apply IH; assumption]. unfold Within in B. rewrite Forall_forall in B. pose proof (B c (pick_in F z c Ep)). lia.
    - rewrite X. cbn [filter]. rewrite Xc. cbn [negb length]. constructor; [cbn; lia|]. rewrite <- Nat.add_succ_comm. apply IH; [lia| |exact H2]. eapply Forall_impl; [|exact B]. cbn. lia.
  Qed.
  (** *** Groups *)
  Lemma grouped_columns F zs : Forall (in_range F) zs -> exists cs, Forall2 (fun z c => pick F z = Some c) zs cs /\ grouped_by F (map (fun z => ESel (SegField z None) RootRef) zs) = cs.
  Proof.
    induction 1 as [|z zs H _ (cs & A1 & A2)]; [exists []; split; constructor|]. unfold in_range in H. destruct (pick F z) as [c|] eqn:E; [|congruence]. exists (c :: cs). split; [constructor; assumption|]. cbn [map grouped_by flat_map]. rewrite E. cbn. f_equal. exact A2.
  Qed.
  Lemma grouped_row F zs cs g r : r = map g F -> Forall2 (fun z c => pick F z = Some c) zs cs -> map (eval fn r) (map (fun z => ESel (SegField z None) RootRef) zs) = map g cs.
  Proof. intros -> H. induction H as [|z c zs cs H _ IH]; [reflexivity|]. cbn [map]. rewrite IH. f_equal. cbn. apply column_pick, H. Qed.
  Lemma computed_row (vs : list V) n g : exists g', (forall c, num c < n -> g' c = g c) /\ vs = map g' (map Computed (seq n (length vs))).
  Proof.
    revert n g. induction vs as [|v vs IH]; intros n g; [exists g; split; reflexivity|]. set (g1 := fun c => match c with Computed m => if m =? n then v else g c | _ => g c end).
    destruct (IH (S n) g1) as (g' & A1 & A2). exists g'. split.
    - intros c Hc. rewrite A1 by lia. destruct c as [m|m]; cbn in *; [reflexivity|]. destruct (Nat.eqb_spec m n); [lia|reflexivity].
    - cbn [length seq map]. rewrite A1 by (cbn; lia). cbn. rewrite Nat.eqb_refl. f_equal. exact A2.
  Qed.
  (** *** Tables *)
  Record TableOk (lo hi : nat) (F : list cid) (T : nat * list (list V)) : Prop := {
    tb_width : fst T = length F; tb_rows : Forall (Consistent F) (snd T); tb_within : Within lo hi F; tb_order : lo <= hi }.
  Lemma table_less lo hi hi' F T : TableOk lo hi F T -> hi <= hi' -> TableOk lo hi' F T.
  Proof. intros [A B C D] L. constructor; [exact A|exact B| |lia]. eapply Forall_impl; [|exact C]. cbn. lia. Qed.
  Lemma within_less lo hi F : Within lo hi F -> Forall (fun c => num c < hi) F.
  Proof. intros H. eapply Forall_impl; [|exact H]. cbn. lia. Qed.
  Lemma read_table n b src sch : is_read b = true -> TableOk n (n + created b sch) (available [] (added n [] b sch) b) (eval_body V M fn b src sch []).
  Proof.
    destruct b; try discriminate. intros _. cbn [available added created eval_body app]. set (k := match sch with Some s => length (ns_names s) | None => 0 end).
    assert (E : match sch with Some s => map Stored (seq n (length (ns_names s))) | None => [] end = map Stored (seq n k)) by (unfold k; destruct sch; reflexivity). rewrite E. constructor; cbn [fst snd].
    - rewrite map_length, seq_length. reflexivity.
    - apply filter_in. apply Forall_forall. intros r I. apply in_map_iff in I as (g & <- & _). exists (fun c => g (num c - n)). rewrite map_map. cbn [num]. clear E. clearbody k. revert n. assert (X : forall m n, m <= n -> map g (seq (n - m) k) = map (fun x => g (x - m)) (seq n k)).
      { induction k as [|k IH]; intros m n L; [reflexivity|]. cbn [seq map]. f_equal. rewrite <- IH by lia. f_equal. f_equal. lia. }
      intros n. specialize (X n n (le_n n)). rewrite Nat.sub_diag in X. exact X.
    - unfold Within. apply Forall_forall. intros c I. apply in_map_iff in I as (m & <- & I). apply in_seq in I. cbn. lia.
    - lia.
  Qed.
  Lemma one_table lo n F r src sch i : TableOk lo n F i -> is_read (r_body r) = false -> relation_ok known 1 F (added n F (r_body r) sch) r src sch ->
    TableOk lo (n + created (r_body r) sch) (available F (added n F (r_body r) sch) (r_body r)) (eval_body V M fn (r_body r) src sch [i]).
  Proof.
    intros [W Rw B O] Hr (_ & K). destruct (r_body r) as [so sc f g p|c|o c|gs ms|l|es|t e post| |x]; try discriminate Hr; cbn [added available created eval_body] in *; destruct K as (_ & _ & K).
    - rewrite app_nil_r, Nat.add_0_r. constructor; cbn [fst snd]; auto. apply filter_in, Rw.
    - rewrite app_nil_r, Nat.add_0_r. constructor; cbn [fst snd]; auto. rewrite Forall_forall in Rw. apply Forall_forall. intros y I. apply Rw. assert (I' : In y (skipn (Z.to_nat o) (snd i))) by (destruct (c <? 0)%Z; [exact I|]; rewrite <- (firstn_skipn (Z.to_nat c)); apply in_or_app; auto).
      rewrite <- (firstn_skipn (Z.to_nat o)). apply in_or_app. auto.
    - destruct K as (_ & _ & (zs & -> & Hz) & _). rewrite !concat_one. destruct (grouped_columns F zs Hz) as (cs & Hc & ->). pose proof (forall2_len _ _ _ Hc) as Lc. rewrite map_length.
      assert (Bc : Within lo n cs). { unfold Within in *. rewrite Forall_forall in *. clear -Hc B. induction Hc as [|z c zs cs H _ IH]; [intros x []|]. intros x [<- | I]; [apply B, (pick_in F z c H)|exact (IH x I)]. }
      constructor; cbn [fst snd].
      + rewrite app_length, map_length, seq_length. lia.
      + apply Forall_forall. intros y I. apply in_map_iff in I as ([k is] & <- & _). cbn [fst snd]. set (vs := map (eval_measure V M fn (rows_at V (snd i) is)) ms).
        assert (X : Consistent cs (nth k (map (fun r0 => map (eval fn r0) (map (fun z => ESel (SegField z None) RootRef) zs)) (snd i)) (nulls V M (length zs)))).
        { destruct (nth_in_or_default k (map (fun r0 => map (eval fn r0) (map (fun z => ESel (SegField z None) RootRef) zs)) (snd i)) (nulls V M (length zs))) as [I | ->].
          - apply in_map_iff in I as (r0 & <- & I). rewrite Forall_forall in Rw. destruct (Rw r0 I) as (g & E). exists g. apply (grouped_row F zs cs g r0 E Hc).
          - exists (fun _ => null). unfold nulls. rewrite <- Lc. clear. induction cs as [|c cs IH]; [reflexivity|]. cbn. f_equal. exact IH. }
        destruct X as (g & ->). destruct (computed_row vs n g) as (g' & A1 & A2). exists g'. rewrite map_app. f_equal; [apply (consistent_agree g g' n cs); [apply (within_less lo), Bc|exact A1]|]. rewrite A2 at 1. unfold vs at 1. rewrite map_length. reflexivity.
      + apply Forall_app. split; [eapply Forall_impl; [|exact Bc]; cbn; lia|]. apply Forall_forall. intros c I. apply in_map_iff in I as (m & <- & I). apply in_seq in I. cbn. lia.
      + lia.
    - rewrite app_nil_r, Nat.add_0_r. constructor; cbn [fst snd]; auto. apply rows_at_in, Rw.
    - destruct K as (_ & He & _). assert (Hc : Forall (in_columns F) es) by (eapply Forall_impl; [|exact He]; intros e; apply plain_columns). constructor; cbn [fst snd].
      + rewrite app_length, (projected_length F es n Hc). lia.
      + apply Forall_forall. intros y I. apply in_map_iff in I as (r0 & <- & I). rewrite Forall_forall in Rw. destruct (Rw r0 I) as (g & E). destruct (project_row F es n g r0 E (within_less lo n F B) Hc) as (g' & A1 & A2). exists g'. rewrite map_app, A2. f_equal.
        rewrite E. apply (consistent_agree g g' n F); [apply (within_less lo), B|exact A1].
      + apply Forall_app. split; [eapply Forall_impl; [|exact B]; cbn; lia|]. apply projected_within; assumption.
      + lia.
    - destruct K as (K & _). discriminate K.
    - destruct K as (K & _). discriminate K.
    - destruct K.
  Qed.
  Lemma pair_row Fl Fr lo m hi x y : Within lo m Fl -> Within m hi Fr -> Consistent Fl x -> Consistent Fr y -> Consistent (Fl ++ Fr) (x ++ y).
  Proof.
    intros B1 B2 (g1 & ->) (g2 & ->). exists (fun c => if num c <? m then g1 c else g2 c). rewrite map_app. f_equal; apply map_ext_in; intros c Ic; unfold Within in *; rewrite Forall_forall in *.
    - pose proof (B1 c Ic). destruct (Nat.ltb_spec (num c) m); [reflexivity|lia].
    - pose proof (B2 c Ic). destruct (Nat.ltb_spec (num c) m); [lia|reflexivity].
  Qed.
  Lemma nulls_consistent F k : k = length F -> Consistent F (nulls V M k).
  Proof. intros ->. exists (fun _ => null). unfold nulls. induction F as [|c F IH]; [reflexivity|]. cbn. f_equal. exact IH. Qed.
  Lemma nth_consistent F T k : fst T = length F -> Forall (Consistent F) (snd T) -> Consistent F (match k with Some i => nth i (snd T) (nulls V M (fst T)) | None => nulls V M (fst T) end).
  Proof.
    intros W H. destruct k as [i|]; [|apply nulls_consistent, W]. destruct (nth_in_or_default i (snd T) (nulls V M (fst T))) as [I | ->]; [|apply nulls_consistent, W]. rewrite Forall_forall in H. apply H, I.
  Qed.
  Lemma two_table lo m n Fl Fr r src sch l q : TableOk lo m Fl l -> TableOk m n Fr q -> is_read (r_body r) = false -> relation_ok known 2 (Fl ++ Fr) (added n (Fl ++ Fr) (r_body r) sch) r src sch ->
    TableOk lo (n + created (r_body r) sch) (available (Fl ++ Fr) (added n (Fl ++ Fr) (r_body r) sch) (r_body r)) (eval_body V M fn (r_body r) src sch [l; q]).
  Proof.
    intros [W1 R1 B1 O1] [W2 R2 B2 O2] Hr (_ & K).
    assert (B : Within lo n (Fl ++ Fr)) by (apply Forall_app; split; (eapply Forall_impl; [|eassumption]); cbn; lia).
    destruct (r_body r) as [so sc f g p|c|o c|gs ms|s|es|t e post| |x]; try discriminate Hr; cbn [added available created eval_body] in *; destruct K as (_ & _ & K); try (destruct K as (K & _); discriminate K); [| |destruct K].
    - rewrite app_nil_r, Nat.add_0_r. constructor; cbn [fst snd]; [rewrite app_length; lia| |exact B|lia]. apply Forall_forall. intros y I. apply in_map_iff in I as ([i j] & <- & _). unfold joined. cbn [fst snd]. eapply pair_row; [exact B1|exact B2|apply nth_consistent; assumption|apply nth_consistent; assumption].
    - rewrite app_nil_r, Nat.add_0_r. constructor; cbn [fst snd]; [rewrite app_length; lia| |exact B|lia]. apply Forall_forall. intros y I. apply in_flat_map in I as (a & Ia & I). apply in_map_iff in I as (c & <- & Ic). rewrite Forall_forall in *. eapply pair_row; [exact B1|exact B2|apply R1, Ia|apply R2, Ic].
  Qed.
  Lemma emitted_table lo hi A T emit : TableOk lo hi A T -> Forall (in_range A) emit -> TableOk lo hi (chosen A emit) (emitted V M emit T).
  Proof.
    intros [W Rw B O] H. destruct emit as [|z0 emit]; [constructor; assumption|]. unfold chosen, emitted. remember (z0 :: emit) as zs eqn:Ez. clear Ez.
    assert (X : exists cs, Forall2 (fun z c => pick A z = Some c) zs cs /\ flat_map (fun z => some_list (pick A z)) zs = cs).
    { clear -H. induction H as [|z zs H _ (cs & A1 & A2)]; [exists []; split; constructor|]. unfold in_range in H. destruct (pick A z) as [c|] eqn:E; [|congruence]. exists (c :: cs). split; [constructor; assumption|]. cbn [flat_map]. rewrite E. cbn. f_equal. exact A2. }
    destruct X as (cs & F & ->). constructor; cbn [fst snd]; [symmetry; apply (forall2_len _ _ _ F)| | |exact O].
    - apply Forall_forall. intros y I. apply in_map_iff in I as (r0 & <- & I). rewrite Forall_forall in Rw. destruct (Rw r0 I) as (g & ->). exists g. clear -F. induction F as [|z c zs cs H _ IH]; [reflexivity|]. cbn [map]. rewrite IH. f_equal. apply column_pick, H.
    - unfold Within in *. rewrite Forall_forall in *. clear -F B. induction F as [|z c zs cs H _ IH]; [intros x []|]. intros x [<- | I]; [apply B, (pick_in A z c H)|exact (IH x I)].
  Qed.
  End Columns.
  (** ** Trees *)
  Section Trees.
    Variable fn fn' : N -> option (str * str).
    Variable R : N -> N -> Prop.
    Variable known : N -> Prop.
    Hypothesis HR : forall f f', R f f' -> fn' f' = fn f.
    Definition Evaluates (n : nat) (t t' : tree) : Prop :=
      eval_tree V M fn' t' = eval_tree V M fn t /\ TableOk n (fst (columns n t)) (snd (columns n t)) (eval_tree V M fn t).
    Lemma emits_in k F n r src sch : relation_ok known k F (added n F (r_body r) sch) r src sch -> Forall (in_range (available F (added n F (r_body r) sch) (r_body r))) (r_emit r).
    Proof.
      intros (_ & K). destruct (r_body r) as [so sc f g p|c|o c|gs ms|s|es|t e post| |x]; cbn [available] in *.
      - destruct K as (_ & _ & _ & _ & _ & -> & _). constructor.
      - destruct K as (_ & _ & _ & -> & _). constructor.
      - destruct K as (_ & _ & _ & -> & _). constructor.
      - destruct K as (_ & _ & _ & _ & _ & _ & _ & K). eapply Forall_impl; [|exact K]. intros z (m & E). unfold in_range. rewrite E. discriminate.
      - destruct K as (_ & _ & _ & -> & _). constructor.
      - destruct K as (_ & _ & _ & _ & K). exact K.
      - destruct K as (_ & _ & _ & -> & _). constructor.
      - destruct K as (_ & _ & _ & ->). constructor.
      - destruct K as (_ & _ & []).
    Qed.
    Lemma tree_same t : forall n t', tree_ok known n t -> same_tree R n t t' -> Evaluates n t t'.
    Proof.
      induction t as [r src sch ins IH] using tree_ind2. intros n [r' src' sch' ins'] Ok S. cbn [tree_ok] in Ok. cbn [same_tree] in S. destruct S as (-> & -> & Si & Sb). destruct Ok as (Oi & Ob). unfold Evaluates. cbn [columns eval_tree].
      assert (Fin : forall n1 F, let G := added n1 F (r_body r) sch in let A := available F G (r_body r) in relation_ok known (length ins) F G r src sch -> SameBody R (same_column F) (r_body r) (r_body r') -> Forall2 (same_column A) (r_emit r) (r_emit r') ->
        TableOk n (n1 + created (r_body r) sch) A (eval_body V M fn (r_body r) src sch (map (eval_tree V M fn) ins)) ->
        eval_body V M fn' (r_body r') src sch (map (eval_tree V M fn') ins') = eval_body V M fn (r_body r) src sch (map (eval_tree V M fn) ins) ->
        emitted V M (r_emit r') (eval_body V M fn' (r_body r') src sch (map (eval_tree V M fn') ins')) = emitted V M (r_emit r) (eval_body V M fn (r_body r) src sch (map (eval_tree V M fn) ins)) /\
        TableOk n (n1 + created (r_body r) sch) (chosen A (r_emit r)) (emitted V M (r_emit r) (eval_body V M fn (r_body r) src sch (map (eval_tree V M fn) ins)))).
      { intros n1 F G A Rk Sb1 Se T E. split; [rewrite E; apply (emitted_same A); [exact (tb_rows _ _ _ _ T)|exact Se]|]. apply emitted_table; [exact T|exact (emits_in _ _ _ _ _ _ Rk)]. }
      assert (Hk : is_read (r_body r) = true /\ ins = [] \/ is_read (r_body r) = false /\ ((exists i, ins = [i]) \/ exists i j, ins = [i; j])).
      { destruct (all_columns columns n ins) as [n1 F]. destruct Ob as (_ & K). destruct (r_body r); cbn [is_read].
        1: { left. destruct K as (K & _). destruct ins; [auto|discriminate K]. }
        all: right; (split; [reflexivity|]); destruct K as (_ & _ & K); try destruct K as (K & _); try contradiction. all: destruct ins as [|i [|j [|]]]; try discriminate K; eauto. }
      destruct Hk as [(Hr & ->) | (Hr & [(i & ->) | (i & j & ->)])].
      - destruct ins'; [|destruct Si]. cbn [all_columns map] in *. destruct Sb as (Sb & Se). apply (Fin n []); auto.
        + apply read_table, Hr.
        + apply (none_same fn fn' R HR); assumption.
      - inversion IH as [|? ? Hi _]; subst. destruct Oi as (Oi & _). destruct ins' as [|i' [|]]; try solve [destruct Si as (_ & []) | destruct Si]. destruct Si as (Si & _). destruct (Hi n i' Oi Si) as (E & T). cbn [all_columns map] in *. destruct (columns n i) as [n1 F]. rewrite app_nil_r in *. cbn [fst snd] in T. destruct Sb as (Sb & Se). rewrite E in *. apply (Fin n1 F); auto.
        + eapply one_table; eassumption.
        + apply (one_same fn fn' R HR F); [exact (tb_rows _ _ _ _ T)|exact Hr|exact Sb].
      - inversion IH as [|? ? Hi Hl]; subst. inversion Hl as [|? ? Hj _]; subst. destruct Oi as (Oi & Oj & _). destruct ins' as [|i' [|j' [|]]]; try solve [destruct Si as (_ & _ & []) | destruct Si as (_ & []) | destruct Si]. destruct Si as (Si & Sj & _). destruct (Hi n i' Oi Si) as (E & T). destruct (Hj _ j' Oj Sj) as (E' & T').
        cbn [all_columns map] in *. destruct (columns n i) as [n1 F]. cbn [fst snd] in *. destruct (columns n1 j) as [n2 F']. cbn [fst snd] in *. rewrite app_nil_r in *. destruct Sb as (Sb & Se). rewrite E, E' in *. apply (Fin n2 (F ++ F')); auto.
        + eapply two_table; eassumption.
        + apply (two_same fn fn' R HR (F ++ F')); [|exact Hr|exact Sb]. intros x y Ix Iy. pose proof (tb_rows _ _ _ _ T) as R1. pose proof (tb_rows _ _ _ _ T') as R2. rewrite Forall_forall in R1, R2. eapply pair_row; [exact (tb_within _ _ _ _ T)|exact (tb_within _ _ _ _ T')|apply R1, Ix|apply R2, Iy].
    Qed.
  End Trees.
End Facts.
(** * Plans *)
Lemma function_only b f uri name : DeclFacts.denotes_only (b_uris b) (b_decls b) f uri name -> function_of b f = Some (uri, name).
Proof.
  intros ((d & Id & Ea & En & Iu) & Only). unfold function_of. set (l := flat_map _ _).
  assert (H : forall x, In x l <-> DeclFacts.denotes (b_uris b) (b_decls b) f (fst x) (snd x)).
  { intros [u n]. unfold l. rewrite in_flat_map. cbn [fst snd]. split.
    - intros (d' & I1 & I2). destruct (N.eqb_spec (DeclModel.d_anchor d') f) as [E|]; [|destruct I2]. apply in_map_iff in I2 as ([u' k] & [= <- <-] & I2). apply filter_In in I2 as (I2 & Ek). cbn [fst snd] in *. apply N.eqb_eq in Ek. subst k. exists d'. auto.
    - intros (d' & I1 & <- & <- & I2). exists d'. split; [exact I1|]. rewrite N.eqb_refl. apply in_map_iff. exists (u, DeclModel.d_space d'). split; [reflexivity|]. apply filter_In. cbn [snd]. rewrite N.eqb_refl. auto. }
  assert (I : In (uri, name) l) by (apply H; exists d; auto). destruct l as [|[u n] l]; [destruct I|]. cbn [hd_error]. destruct (Only u n) as (-> & ->); [|reflexivity]. exact (proj1 (H (u, n)) (or_introl eq_refl)).
Qed.
Lemma same_function_of b b' f f' : DeclFacts.declared (b_uris b) (b_decls b) -> same_function b b' f f' -> function_of b' f' = function_of b f.
Proof. intros D (uri & name & H1 & H2). rewrite (function_only b' f' uri name H2). symmetry. apply function_only, DeclFacts.declared_only; assumption. Qed.
Lemma same_results {V} (M : meaning V) b b' : Convertible b -> same_plan b b' -> results M b' = results M b.
Proof.
  intros Hb S. unfold results. pose proof (cv_trees _ Hb) as Ok. unfold same_plan in S. revert Ok. pose proof (same_function_of b b') as HF. pose proof (cv_declared _ Hb) as D. set (k := declared_function b). set (R := same_function b b') in *. set (fn := function_of b) in *. set (fn' := function_of b') in *. clearbody k R fn fn'. 
  induction S as [|x x' l l' (S1 & S2) _ IH]; intros Ok; [reflexivity|]. inversion Ok as [|? ? O1 O2]; subst. cbn [map]. rewrite (IH O2). f_equal. rewrite S2. destruct (tree_same V M fn fn' R k (fun f f' => HF f f' D) (fst x) 0 (fst x') O1 S1) as (E & _). rewrite E. reflexivity.
Qed.
