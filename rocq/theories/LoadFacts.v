From Verif Require Import Base BaseFacts StringsModel StringsFacts TypeModel TypeFacts TypeCaseFacts MatchFacts SignatureFacts FunctionModel FunctionFacts.
From Coq Require Import Lia ZifyBool ZifyNat ZifyN.

(** * Specification of an extension file *)
Definition field (n : yaml) (k : str) : yaml := match n with YMap l => assoc k l | _ => YUndef end.
Definition items (n : yaml) : list yaml := match n with YSeq l => l | _ => [] end.
Definition truth (n : yaml) (b : bool) : Prop :=
  exists w, n = YScalar w /\ In w (if b then [$"true"; $"yes"; $"on"; $"y"] else [$"false"; $"no"; $"off"; $"n"]).
(** [line] is the last line of [s]: the part after the last line break. *)
Definition LastLine (s line : str) : Prop :=
  ~ In "010"%char line /\ (s = line \/ exists p, s = p ++ "010"%char :: line).
Definition Number (n : yaml) (z : Z) : Prop := exists w, n = YScalar w /\ isInteger w = true /\ stoi w = Ok z.

Inductive ArgDecl (n : yaml) : farg -> Prop :=
| AD_enum l b : field n $"options" = YSeq l -> (field n $"required" = YUndef /\ b = false \/ truth (field n $"required") b) -> ArgDecl n (AEnum b)
| AD_value s t : field n $"options" = YUndef -> field n $"value" = YScalar s -> decode true s = Ok t -> ArgDecl n (AValue t)
| AD_type : field n $"options" = YUndef -> field n $"value" = YUndef -> field n $"type" <> YUndef -> ArgDecl n AType.
Definition ReturnDecl (n : yaml) (t : ty) : Prop :=
  match field n $"return" with
  | YScalar s => exists line, LastLine s line /\ decode true line = Ok t
  | _ => t = TNull
  end.
Definition VariadicDecl (n : yaml) (o : option variadic) : Prop :=
  let b := field n $"variadic" in
  match o with
  | None => field b $"min" = YUndef
  | Some v => Number (field b $"min") (v_min v) /\
      match v_max v with None => field b $"max" = YUndef | Some m => Number (field b $"max") m end
  end.
Definition IntermediateDecl (agg : bool) (n : yaml) (t : ty) : Prop :=
  if agg then field n $"intermediate" = YUndef /\ t = TNull \/ exists s, field n $"intermediate" = YScalar s /\ decode true s = Ok t
  else t = TNull.
Record ImplDecl (agg : bool) (name uri : str) (n : yaml) (f : fimpl) : Prop := {
  D_name : f_name f = name; D_uri : f_uri f = uri; D_args : Forall2 ArgDecl (items (field n $"args")) (f_args f);
  D_return : ReturnDecl n (f_return f); D_variadic : VariadicDecl n (f_variadic f);
  D_class : f_aggregate f = agg; D_intermediate : IntermediateDecl agg n (f_intermediate f)
}.

(** What the files list under a class: name, file and declaration, in order. *)
Definition section_of (c : fclass) (doc : yaml) : list yaml :=
  match c with
  | Scalar => items (field doc $"scalar_functions")
  | Aggregate => items (field doc $"aggregate_functions")
  | Window => []
  end.
Definition name_of (n : yaml) : str := match field n $"name" with YScalar s => s | _ => [] end.
Definition listed (c : fclass) (files : list (str * yaml)) : list (str * str * yaml) :=
  flat_map (fun p => flat_map (fun n => map (fun i => (name_of n, fst p, i)) (items (field n $"impls"))) (section_of c (snd p))) files.
Definition listed_types (files : list (str * yaml)) : list (str * str) :=
  flat_map (fun p => map (fun n => (name_of n, fst p)) (items (field (snd p) $"types"))) files.

(** * Proofs *)
Lemma sub_field n k v : sub n k = Ok v -> v = field n k.
Proof. destruct n; cbn; congruence. Qed.
Ltac step H := match type of H with
  | obind ?o _ = _ => let E := fresh "E" in destruct o as [?x|?|] eqn:E; cbn [obind] in H; try discriminate H
  end.
Ltac stepas H E := match type of H with
  | obind ?o _ = _ => destruct o as [?x|?|] eqn:E; cbn [obind] in H; try discriminate H
  end.
Ltac stepn H E x := match type of H with
  | obind ?o _ = _ => destruct o as [x|?|] eqn:E; cbn [obind] in H; try discriminate H
  end.
Ltac fields := repeat match goal with E : sub _ _ = Ok ?v |- _ => apply sub_field in E; subst v end.
Lemma as_bool_truth n b : as_bool n = Ok b -> truth n b.
Proof.
  destruct n; try discriminate. cbn [as_bool]. intros H. exists s. split; [reflexivity|].
  destruct (_ || _) eqn:T in H.
  - injection H as <-. repeat (apply orb_true_iff in T as [T|T]); apply seq_eqb_eq in T; subst; cbn [In]; tauto.
  - destruct (_ || _) eqn:F in H; [|discriminate]. injection H as <-.
    repeat (apply orb_true_iff in F as [F|F]); apply seq_eqb_eq in F; subst; cbn [In]; tauto.
Qed.
Lemma as_int_number n z : as_int n = Ok z -> Number n z.
Proof.
  destruct n; try discriminate. cbn [as_int]. destruct (isInteger s) eqn:I; [|discriminate].
  destruct (stoi s) eqn:E; try discriminate. intros [= <-]. exists s. auto.
Qed.
Lemma defined_false n : defined n = false -> n = YUndef.
Proof. destruct n; auto; discriminate. Qed.
Lemma load_arg_ok n a : load_arg n = Ok a -> ArgDecl n a.
Proof.
  unfold load_arg. intros H. step H. fields. destruct (defined _) eqn:D in H.
  - destruct (field n $"options") eqn:O; try discriminate H. step H. fields. destruct (defined _) eqn:D' in H.
    + step H. injection H as <-. apply (AD_enum n _ _ O). right. now apply as_bool_truth.
    + injection H as <-. apply (AD_enum n _ _ O). left. split; [now apply defined_false|reflexivity].
  - apply defined_false in D. step H. fields. destruct (defined _) eqn:D' in H.
    + destruct (field n $"value") eqn:V; try discriminate H. step H. injection H as <-. now apply (AD_value n _ _ D V).
    + apply defined_false in D'. step H. fields. destruct (defined _) eqn:D2 in H; [|discriminate H]. injection H as <-.
      apply AD_type; auto. intros X. rewrite X in D2. discriminate.
Qed.
Lemma omap_ok {A B} (f : A -> outcome B) l ys : omap f l = Ok ys -> Forall2 (fun x y => f x = Ok y) l ys.
Proof. intros H. pose proof (omap_spec f l) as O. rewrite H in O. exact O. Qed.
Lemma Forall2_impl {A B} (P Q : A -> B -> Prop) l l' : (forall x y, P x y -> Q x y) -> Forall2 P l l' -> Forall2 Q l l'.
Proof. induction 2; constructor; auto. Qed.
Lemma last_line_LastLine s line : last_line s = Ok line -> LastLine s line.
Proof.
  intros H. destruct (split_last s) as (pre & x & -> & N & P). rewrite last_line_spec in H by assumption. injection H as <-.
  split; [exact N|]. destruct P as [->|[p ->]]; [now left|]. right. exists p. now rewrite <- app_assoc.
Qed.
Lemma LastLine_last_line s line : LastLine s line -> last_line s = Ok line.
Proof.
  intros (N & [->|[p ->]]).
  - apply (last_line_spec [] line); auto.
  - change ("010"%char :: line) with (["010"%char] ++ line). rewrite app_assoc. apply last_line_spec; eauto.
Qed.
Lemma load_impl_ok agg name uri n f : load_impl agg name uri n = Ok f -> ImplDecl agg name uri n f.
Proof.
  unfold load_impl. intros H. step H. fields. stepas H ER. step H. fields. stepas H EA. step H. fields. stepas H EV. stepas H EI.
  injection H as <-. constructor; cbn [f_name f_uri f_args f_return f_variadic f_aggregate f_intermediate]; try reflexivity.
  - destruct (field n $"args"); try (injection EA as <-; constructor).
    apply omap_ok in EA. eapply Forall2_impl; [|exact EA]. apply load_arg_ok.
  - unfold ReturnDecl. destruct (field n $"return"); try congruence.
    stepas ER EL. eexists. split; [apply last_line_LastLine; exact EL|exact ER].
  - unfold VariadicDecl. cbv zeta. destruct (defined (field n $"variadic")) eqn:D.
    + step EV. step EV. fields. destruct (defined (field (field n $"variadic") $"min")) eqn:D'.
      * stepas EV E1. stepas EV E2. injection EV as <-. cbn [v_min v_max]. split; [now apply as_int_number|].
        destruct (defined (field (field n $"variadic") $"max")) eqn:D2.
        -- stepas E2 E3. injection E2 as <-. now apply as_int_number.
        -- injection E2 as <-. now apply defined_false.
      * injection EV as <-. now apply defined_false.
    + injection EV as <-. apply defined_false in D. rewrite D. reflexivity.
  - unfold IntermediateDecl. destruct agg; [|congruence]. step EI. fields. destruct (defined _) eqn:D in EI.
    + stepas EI ES. right. destruct (field n $"intermediate"); try discriminate. injection ES as ->. eauto.
    + injection EI as <-. left. split; [now apply defined_false|reflexivity].
Qed.

Lemma load_impl_map agg name uri l : forall fs, omap (load_impl agg name uri) (elements (YMap l)) = Ok fs -> fs = [] /\ l = [].
Proof. destruct l; cbn; [intros fs [= <-]; auto|discriminate]. Qed.
(** One declaration with its name and file. *)
Definition Decl (agg : bool) (e : str * str * yaml) (f : fimpl) : Prop := ImplDecl agg (fst (fst e)) (snd (fst e)) (snd e) f.
Lemma load_function_ok agg uri n fs : load_function agg uri n = Ok fs ->
  Forall2 (Decl agg) (map (fun i => (name_of n, uri, i)) (items (field n $"impls"))) fs.
Proof.
  unfold load_function. intros H. step H. fields. stepn H EN nm. step H. fields.
  assert (N : name_of n = nm).
  { unfold name_of. destruct (field n $"name"); try discriminate. now injection EN. }
  rewrite N. destruct (field n $"impls") as [| |w|l|l].
  1-3: injection H as <-; constructor.
  - cbn [elements items] in *. apply omap_ok in H. induction H; cbn [map]; constructor; auto. now apply load_impl_ok.
  - apply load_impl_map in H as [-> ->]. constructor.
Qed.
Lemma Forall2_concat {A B} (R : A -> B -> Prop) (l : list (list A)) l' : Forall2 (Forall2 R) l l' -> Forall2 R (concat l) (concat l').
Proof. induction 1; cbn; [constructor|]. now apply Forall2_app. Qed.
Lemma Forall2_map_l {A B C} (R : B -> C -> Prop) (g : A -> B) l l' : Forall2 (fun x y => R (g x) y) l l' -> Forall2 R (map g l) l'.
Proof. induction 1; cbn; constructor; auto. Qed.
Lemma load_functions_ok agg uri n fs : load_functions agg uri n = Ok fs ->
  Forall2 (Decl agg) (flat_map (fun n => map (fun i => (name_of n, uri, i)) (items (field n $"impls"))) (items n)) fs.
Proof.
  unfold load_functions. destruct n as [| |w|l|l]; try (intros [= <-]; constructor).
  intros H. stepas H E. apply Ok_inj in H. subst fs. apply omap_ok in E. rewrite flat_map_concat_map. apply Forall2_concat, Forall2_map_l.
  eapply Forall2_impl; [|exact E]. apply load_function_ok.
Qed.
Definition file_section (c : fclass) (p : str * yaml) : list (str * str * yaml) :=
  flat_map (fun n => map (fun i => (name_of n, fst p, i)) (items (field n $"impls"))) (section_of c (snd p)).
Definition is_agg (c : fclass) : bool := match c with Aggregate => true | _ => false end.
(** The registrations of a class, in order. *)
Definition class_regs (c : fclass) (rs : list reg) : list fimpl :=
  flat_map (fun r => match r with RFunction c' f => if same_class c c' then [f] else [] | _ => [] end) rs.
Definition type_regs (rs : list reg) : list (str * str) := flat_map (fun r => match r with RType n u => [(n, u)] | _ => [] end) rs.
Lemma class_regs_map c c' fs : class_regs c (map (RFunction c') fs) = if same_class c c' then fs else [].
Proof.
  unfold class_regs. induction fs as [|f fs IH]; [now destruct (same_class c c')|]. cbn [map flat_map]. rewrite IH.
  destruct (same_class c c'); reflexivity.
Qed.
Lemma class_regs_types c ts : class_regs c (map (fun p : str * str => RType (fst p) (snd p)) ts) = [].
Proof. induction ts; auto. Qed.
Lemma type_regs_map c fs : type_regs (map (RFunction c) fs) = [].
Proof. induction fs; auto. Qed.
Lemma type_regs_types ts : type_regs (map (fun p : str * str => RType (fst p) (snd p)) ts) = ts.
Proof. unfold type_regs. induction ts as [|[a b] ts IH]; cbn [map flat_map app fst snd]; congruence. Qed.
Lemma load_file_ok uri doc rs : load_file uri doc = Ok rs ->
  (forall c, Forall2 (Decl (is_agg c)) (file_section c (uri, doc)) (class_regs c rs)) /\
  type_regs rs = map (fun n => (name_of n, uri)) (items (field doc $"types")).
Proof.
  unfold load_file. intros H. step H. fields. stepn H ES ss. step H. fields. stepn H EA aa. step H. fields. stepn H ET ts.
  apply Ok_inj in H. subst rs. apply load_functions_ok in ES. apply load_functions_ok in EA. split.
  - intros c. unfold class_regs. rewrite !flat_map_app. fold (class_regs c (map (RFunction Scalar) ss)).
    fold (class_regs c (map (RFunction Aggregate) aa)). fold (class_regs c (map (fun p : str * str => RType (fst p) (snd p)) ts)).
    rewrite !class_regs_map, class_regs_types, app_nil_r. destruct c; cbn [same_class]; rewrite ?app_nil_r.
    + exact ES.
    + exact EA.
    + constructor.
  - unfold type_regs. rewrite !flat_map_app. fold (type_regs (map (RFunction Scalar) ss)). fold (type_regs (map (RFunction Aggregate) aa)).
    fold (type_regs (map (fun p : str * str => RType (fst p) (snd p)) ts)). rewrite !type_regs_map, type_regs_types. cbn [app].
    destruct (field doc $"types") as [| |w|l|l]; try (injection ET as <-; reflexivity).
    apply omap_ok in ET. cbn [items]. induction ET as [|n [a b] l l' E F IH]; [reflexivity|]. cbn [map]. rewrite IH. f_equal.
    unfold load_type in E. stepas E E'. fields. unfold name_of. destruct (field n $"name"); try discriminate. congruence.
Qed.
Lemma load_files_regs l x : load_files l = Ok x -> exists rs, x = registers rs /\
  (forall c, Forall2 (Decl (is_agg c)) (listed c l) (class_regs c rs)) /\ type_regs rs = listed_types l.
Proof.
  unfold load_files. intros H. stepn H E rs. apply Ok_inj in H. subst x. exists (concat rs). split; [reflexivity|].
  apply omap_ok in E. induction E as [|[uri doc] r l l' E F [IH1 IH2]].
  - split; [intros; constructor|reflexivity].
  - cbn [fst snd] in E. apply load_file_ok in E as [E1 E2]. unfold class_regs, type_regs, listed, listed_types in *. cbn [flat_map concat fst snd].
    split.
    + intros c. rewrite flat_map_app. apply Forall2_app; [apply E1|apply IH1].
    + rewrite flat_map_app, E2, IH2. reflexivity.
Qed.
(** The implementations under a name are those of the class with that name. *)
Lemma regs_class c name rs : flat_map (regs_of c name) rs = filter (fun f => f_name f =s name) (class_regs c rs).
Proof.
  unfold class_regs. induction rs as [|[c' f|n u] rs IH]; cbn [flat_map regs_of]; [reflexivity| |exact IH].
  rewrite IH. destruct (same_class c c'); cbn [andb app filter]; [|reflexivity]. destruct (f_name f =s name); reflexivity.
Qed.
Lemma Forall2_filter {A B} (R : A -> B -> Prop) p q l l' : (forall x y, R x y -> p x = q y) -> Forall2 R l l' ->
  Forall2 R (filter p l) (filter q l').
Proof. intros H. induction 1 as [|x y l l' r F IH]; cbn; [constructor|]. rewrite (H x y r). destruct (q y); auto. Qed.
Lemma load_lookup l x c name : load_files l = Ok x -> exists out,
  Forall2 (Decl (is_agg c)) (filter (fun e => fst (fst e) =s name) (listed c l)) out /\
  forall s, q_name s = name -> ValidQuery s -> Forall ValidDecl out ->
    exists o, lookupFunction c x s = Ok o /\ First (fun f => Accepts f s) out o.
Proof.
  intros H. destruct (load_files_regs l x H) as (rs & -> & F & _). exists (flat_map (regs_of c name) rs). split.
  - rewrite regs_class. apply Forall2_filter; [|apply F]. intros e f D. now rewrite (D_name _ _ _ _ _ D).
  - intros s <- Q D. apply (lookup_spec c rs s); auto. now apply registered_iff.
Qed.
Lemma load_window l x s : load_files l = Ok x -> lookupFunction Window x s = Ok None.
Proof.
  intros H. destruct (load_files_regs l x H) as (rs & -> & F & _). rewrite lookup_first, impls_registers, regs_class.
  specialize (F Window). replace (listed Window l) with (@nil (str * str * yaml)) in F.
  - inversion F. reflexivity.
  - unfold listed. clear. induction l; auto.
Qed.
Lemma first_type_regs name rs : first_type name rs = find (fun p => fst p =s name) (type_regs rs).
Proof. unfold type_regs. induction rs as [|[c f|n u] rs IH]; cbn; auto. destruct (n =s name); auto. Qed.
Lemma load_types l x name : load_files l = Ok x -> lookupType x name = find (fun p => fst p =s name) (listed_types l).
Proof.
  intros H. destruct (load_files_regs l x H) as (rs & -> & _ & T). rewrite <- T, <- first_type_regs.
  unfold registers. exact (lookupType_fold name rs empty_extension).
Qed.

(** Which declarations are valid in the sense of the matching rules. *)
Lemma ImplDecl_valid agg name uri n f : ImplDecl agg name uri n f ->
  (forall t, In (AValue t) (f_args f) -> whole t = true) -> (f_return f <> TNull -> whole (f_return f) = true) ->
  (f_intermediate f <> TNull -> whole (f_intermediate f) = true) ->
  (forall v, f_variadic f = Some v -> f_args f <> [] /\ (0 <= v_min v < 2 ^ 31)%Z /\ (forall m, v_max v = Some m -> (0 <= m < 2 ^ 31)%Z)) ->
  ValidDecl f.
Proof.
  intros D HA HR HI HV. split; [|split; [|split; [|exact HV]]].
  - pose proof (D_args _ _ _ _ _ D) as F. intros t I. specialize (HA t I). clear - F I HA.
    induction F as [|n0 a l l' X F IH]; [contradiction|]. destruct I as [->|I]; [|auto].
    inversion X; subst. eapply decode_declared; eauto.
  - pose proof (D_return _ _ _ _ _ D) as R. unfold ReturnDecl in R. destruct (field n $"return"); try (left; exact R).
    destruct R as (line & _ & E). destruct (f_return f) eqn:Q; [now left| ..];
    (right; eapply decode_declared; [exact E|]; apply HR; discriminate).
  - pose proof (D_intermediate _ _ _ _ _ D) as R. unfold IntermediateDecl in R. destruct agg; [|left; exact R].
    destruct R as [[_ R]|(s & _ & E)]; [left; exact R|].
    destruct (f_intermediate f) eqn:Q; [now left| ..]; (right; eapply decode_declared; [exact E|]; apply HI; discriminate).
Qed.
Lemma LastLine_unique s a b : LastLine s a -> LastLine s b -> a = b.
Proof. intros A B. apply LastLine_last_line in A. apply LastLine_last_line in B. congruence. Qed.
Lemma return_last_line agg name uri n f s line : load_impl agg name uri n = Ok f -> field n $"return" = YScalar s -> LastLine s line ->
  decode true line = Ok (f_return f).
Proof.
  intros L E H. apply load_impl_ok in L. pose proof (D_return _ _ _ _ _ L) as R. unfold ReturnDecl in R. rewrite E in R.
  destruct R as (line' & H' & D). rewrite (LastLine_unique _ _ _ H H'). exact D.
Qed.
Lemma return_trailing_newline s agg name uri n f : field n $"return" = YScalar (s ++ ["010"%char]) -> load_impl agg name uri n = Ok f ->
  f_return f = TStrLit [] false true /\ forall a, Concrete a -> isMatch (f_return f) a = Ok false.
Proof.
  intros E L. assert (D : decode true [] = Ok (f_return f)).
  { apply (return_last_line agg name uri n f _ [] L E). split; [intros []|]. right. now exists s. }
  change (decode true []) with (Ok (TStrLit [] false true)) in D. apply Ok_inj in D. rewrite <- D.
  split; [reflexivity|]. intros a C. inversion C; reflexivity.
Qed.
