(** When expressions are printed without errors. *)
From Verif Require Import Base BaseFacts StringsModel TypeModel LexModel EnumModel ExprModel RelModel.
From Coq Require Import Lia.

(** * Specification *)
(** Types and literals that have a text *)
Inductive TypeHas : ptype -> Prop :=
| TH_scalar k n : In k [SBool; SI8; SI16; SI32; SI64; SFp32; SFp64; SString; SDate] -> TypeHas (PtScalar k n)
| TH_decimal p s n : TypeHas (PtDecimal p s n)
| TH_varchar l n : TypeHas (PtVarchar l n)
| TH_fixedchar l n : TypeHas (PtFixedChar l n).
Inductive LiteralHas : literal -> Prop :=
| LH_bool b n : LiteralHas (Lit (LBool b) n)
| LH_i8 z n : LiteralHas (Lit (LI8 z) n)
| LH_i16 z n : LiteralHas (Lit (LI16 z) n)
| LH_i32 z n : LiteralHas (Lit (LI32 z) n)
| LH_i64 z n : LiteralHas (Lit (LI64 z) n)
| LH_fp32 v n : LiteralHas (Lit (LFp32 v) n)
| LH_fp64 v n : LiteralHas (Lit (LFp64 v) n)
| LH_date z n : LiteralHas (Lit (LDate z) n)
| LH_string s n : LiteralHas (Lit (LString s) n)
| LH_year y m n : LiteralHas (Lit (LIntervalYear y m) n)
| LH_day d s u n : LiteralHas (Lit (LIntervalDay d s u) n)
| LH_fixedchar s n : LiteralHas (Lit (LFixedChar s) n)
| LH_varchar s len n : LiteralHas (Lit (LVarChar s len) n)
| LH_decimal v n : LiteralHas (Lit (LDecimal v) n).
Section Spec.
  Variable function_name : N -> option str.
  Variable field_name : N -> Z -> option str.
  Definition known {A} (o : option A) : Prop := exists a, o = Some a.
  (** The column and how many relations further out it is *)
  Definition column (s : segment) : Z := match s with SegField f _ => f | _ => 0%Z end.
  Definition outwards (r : root) : N := match r with RootOuter n => n | _ => 0%N end.
  (** All that an expression refers to is there and everything in it has a text. *)
  Inductive Clean : expr -> Prop :=
  | CL_literal l : LiteralHas l -> Clean (ELit l)
  | CL_column s r : known (field_name (outwards r) (column s)) -> Clean (ESel s r)
  | CL_call f args deprecated options ty : known (function_name f) -> args <> [] \/ deprecated <> [] -> Forall CleanArg args -> Forall Clean deprecated -> TypeHas ty -> Clean (EFun f args deprecated options ty)
  | CL_ifthen ifs els : Forall (fun c => exists i t, c = (Some i, Some t) /\ Clean i /\ Clean t) ifs -> (forall e, els = Some e -> Clean e) -> Clean (EIfThen ifs els)
  | CL_cast e ty failure : Clean e -> TypeHas ty -> Clean (ECast e ty failure)
  | CL_scalar n : Clean (EScalar (Some n))
  | CL_in l n : Forall Clean l -> Clean (EIn l (Some n))
  | CL_set q n : q <> QUnspecified -> Clean (ESet q (Some n))
  | CL_compare op red e n : op <> CUnspecified -> Clean e -> Clean (ECompare op (Some red) (Some e) (Some n))
  with CleanArg : arg expr -> Prop :=
  | CA_value e : Clean e -> CleanArg (AValue e)
  | CA_enum s : CleanArg (AEnum s)
  | CA_type t : TypeHas t -> CleanArg (AType t).
  (** What the printer cannot pass: an expression without a kind, or a selection that is none of a field *)
  Inductive Stuck : expr -> Prop :=
  | SK_unset : Stuck EUnset
  | SK_masked r : Stuck (EMasked r)
  | SK_none r : Stuck (ESelNone r)
  | SK_arg f args deprecated options ty e : In (AValue e) args -> Stuck e -> Stuck (EFun f args deprecated options ty)
  | SK_deprecated f args deprecated options ty e : In e deprecated -> Stuck e -> Stuck (EFun f args deprecated options ty)
  | SK_if ifs els i t : In (Some i, Some t) ifs -> Stuck i -> Stuck (EIfThen ifs els)
  | SK_then ifs els i t : In (Some i, Some t) ifs -> Stuck t -> Stuck (EIfThen ifs els)
  | SK_else ifs e : Stuck e -> Stuck (EIfThen ifs (Some e))
  | SK_cast e ty failure : Stuck e -> Stuck (ECast e ty failure)
  | SK_in l n e : In e l -> Stuck e -> Stuck (EIn l n)
  | SK_compare op red e n : Stuck e -> Stuck (ECompare op red (Some e) n).
End Spec.

(** * Proofs *)
Section Induction.
  Variable P : expr -> Prop.
  Definition opt (o : option expr) : Prop := forall e, o = Some e -> P e.
  Definition in_arg (a : arg expr) : Prop := match a with AValue e => P e | _ => True end.
  Hypothesis (H0 : P EUnset) (H1 : forall l, P (ELit l)) (H2 : forall s r, P (ESel s r)) (H3 : forall r, P (EMasked r)) (H4 : forall r, P (ESelNone r)).
  Hypothesis H5 : forall f args deprecated options ty, Forall in_arg args -> Forall P deprecated -> P (EFun f args deprecated options ty).
  Hypothesis H6 : forall ifs els, Forall (fun c => opt (fst c) /\ opt (snd c)) ifs -> opt els -> P (EIfThen ifs els).
  Hypothesis H7 : forall e ty f, P e -> P (ECast e ty f).
  Hypothesis (H8 : forall n, P (EScalar n)) (H9 : forall l n, Forall P l -> P (EIn l n)) (H10 : forall q n, P (ESet q n)) (H11 : forall op red e n, opt e -> P (ECompare op red e n)) (H12 : forall u, P (EOther u)).
  Fixpoint expr_ind2 (e : expr) : P e.
  Proof.
    assert (O : forall o : option expr, (forall e, o = Some e -> P e) -> opt o) by (intros o H; exact H).
    destruct e as [|l|s r|r|r|f args deprecated options ty|ifs els|e ty f|n|l n|q n|op red e n|u]; [apply H0|apply H1|apply H2|apply H3|apply H4|apply H5|apply H6|apply H7, expr_ind2|apply H8|apply H9|apply H10|apply H11|apply H12].
    - induction args as [|a args IH]; constructor; [|exact IH]. destruct a; [apply expr_ind2|exact I..].
    - induction deprecated as [|e l IH]; constructor; [apply expr_ind2|exact IH].
    - induction ifs as [|[i t] l IH]; constructor; [|exact IH]. split; cbn [fst snd].
      + destruct i as [e|]; intros x E; [injection E as <-; apply expr_ind2|discriminate].
      + destruct t as [e|]; intros x E; [injection E as <-; apply expr_ind2|discriminate].
    - destruct els as [e|]; intros x E; [injection E as <-; apply expr_ind2|discriminate].
    - induction l as [|e l IH]; constructor; [apply expr_ind2|exact IH].
    - destruct e as [e|]; intros x E; [injection E as <-; apply expr_ind2|discriminate].
  Qed.
End Induction.
Lemma type_has t : snd (printType t) = 0 <-> TypeHas t.
Proof.
  split.
  - destruct t as [|k n| | | | | | | |]; cbn; try discriminate; intros H; try constructor. destruct k; cbn in H; try discriminate; cbn; auto 20.
  - intros [k n H|p s n|l n|l n]; try reflexivity. cbn in H. intuition (subst; reflexivity).
Qed.
Lemma literal_has l : snd (printLiteral l) = 0 <-> LiteralHas l.
Proof. split; [|intros []; reflexivity]. destruct l as [v n]. destruct v; cbn; try discriminate; intros _; constructor. Qed.
(** What can happen to a part: it cannot be printed, or it can, and without errors exactly if it is clean. *)
Definition fate (o : outcome printed) (clean stuck : Prop) : Prop :=
  (exists x, o = Throw x /\ stuck) \/ (exists t n, o = Ok (t, n) /\ (n = 0 <-> clean) /\ ~ stuck).
Definition go : bool -> list (outcome printed) -> outcome printed := fix go (first : bool) (l : list (outcome printed)) : outcome printed :=
     match l with
     | [] => Ok ([], 0)
     | x :: r => a <- x ;; b <- go false r ;; Ok ((if first then [] else $", ") ++ fst a ++ fst b, snd a + snd b)
     end.
Lemma list_fate {A} (f : A -> outcome printed) (clean stuck : A -> Prop) l : Forall (fun a => fate (f a) (clean a) (stuck a)) l -> forall first,
  fate (go first (map f l)) (Forall clean l) (Exists stuck l).
Proof.
  intros H. induction H as [|a l Ha H IH]; intros first; cbn [map go].
  - right. exists [], 0. repeat split; auto. intros X. inversion X.
  - fold go. destruct Ha as [(x & E & S)|(t & n & E & C & S)]; rewrite E; cbn [obind]; [left; exists x; split; [reflexivity|constructor; exact S]|].
    destruct (IH false) as [(x & E' & S')|(t' & n' & E' & C' & S')]; rewrite E'; cbn [obind fst snd]; [left; exists x; split; [reflexivity|constructor 2; exact S']|].
    right. eexists _, _. split; [reflexivity|]. split.
    + split; intros X.
      * constructor; [apply C; lia|apply C'; lia].
      * inversion X; subst. rewrite (proj2 C), (proj2 C') by assumption. reflexivity.
    + intros X. inversion X; subst; auto.
Qed.
Lemma fate_iff o c s c' s' : fate o c s -> (c <-> c') -> (s <-> s') -> fate o c' s'.
Proof. intros [(x & E & S)|(t & n & E & C & S)] Hc Hs; [left; exists x; tauto|right; exists t, n; tauto]. Qed.
Lemma fate_bind o c s f c' s' : fate o c s -> (forall t n, o = Ok (t, n) -> exists t' n', f (t, n) = Ok (t', n') /\ (n' = 0 <-> n = 0 /\ c')) -> (s' <-> s) -> fate (obind o f) (c /\ c') s'.
Proof.
  intros [(x & E & S)|(t & n & E & C & S)] F Hs.
  - left. exists x. rewrite E. tauto.
  - destruct (F t n E) as (t' & n' & E' & C'). right. exists t', n'. rewrite E. cbn [obind]. tauto.
Qed.
Section Fates.
  Variable function_name : N -> option str.
  Variable field_name : N -> Z -> option str.
  Notation Clean := (Clean function_name field_name). Notation CleanArg := (CleanArg function_name field_name). Notation print := (printExpr function_name field_name).
  (** The parts of a call and of a condition, with what they are *)
  Record part := Part { po : outcome printed; pc : Prop; ps : Prop }.
  Lemma parts_fate l : Forall (fun a => fate (po a) (pc a) (ps a)) l -> fate (commas (map po l)) (Forall pc l) (Exists ps l).
  Proof. intros H. exact (list_fate po pc ps l H true). Qed.
  Definition arg_out (depth : nat) (a : arg expr) : outcome printed :=
    match a with AValue e => print (S depth) e | AEnum s => Ok (s ++ $"_enum", 0) | AType t => Ok (printType t) | AUnset => Ok ($"SCALAR_FUNCTION_ARGUMENT_TYPE_MISSING", 1) end.
  Definition stuck_arg (a : arg expr) : Prop := match a with AValue e => Stuck e | _ => False end.
  Definition of_arg depth (a : arg expr) : part := Part (arg_out depth a) (CleanArg a) (stuck_arg a).
  Definition of_expr depth (e : expr) : part := Part (print depth e) (Clean e) (Stuck e).
  Lemma ok_fate t n (c s : Prop) : (n = 0 <-> c) -> ~ s -> fate (Ok (t, n)) c s.
  Proof. intros. right. exists t, n. auto. Qed.
  Lemma exists_map {A} (f : A -> part) l : Exists ps (map f l) <-> exists a, In a l /\ ps (f a).
  Proof.
    rewrite Exists_exists. split.
    - intros (x & H & S). apply in_map_iff in H as (a & <- & H). eauto.
    - intros (a & H & S). exists (f a). split; [apply in_map, H|exact S].
  Qed.
  Definition of_clause depth (c : option expr * option expr) : list part := match c with (Some i, Some t) => [of_expr depth i; of_expr depth t] | _ => [] end.
  Definition of_else depth (o : option expr) : list part := match o with Some e => [of_expr depth e] | None => [] end.
  Definition whole (c : option expr * option expr) : bool := match c with (Some _, Some _) => true | _ => false end.
  Lemma clauses_out depth ifs els :
    concat (map (fun c => match c with Some l => l | None => [] end) (map (fun c => match c with (Some i, Some t) => Some [print depth i; print depth t] | _ => None end) ifs)) ++
      match els with Some e => [print depth e] | None => [] end = map po (concat (map (of_clause depth) ifs) ++ of_else depth els).
  Proof. rewrite map_app. f_equal; [|destruct els; reflexivity]. induction ifs as [|[[i|] [t|]] l IH]; cbn [map concat app of_clause]; rewrite ?IH; reflexivity. Qed.
  Lemma clauses_errors depth ifs : length (filter (fun c => match c with None => true | _ => false end) (map (fun c => match c with (Some i, Some t) => Some [print depth i; print depth t] | _ => None end) ifs)) = 0 <-> Forall (fun c => whole c = true) ifs.
  Proof.
    induction ifs as [|[[i|] [t|]] l IH]; cbn [map filter length whole]; [split; [constructor|reflexivity]| | | |];
      (rewrite IH || idtac); split; intros H; try lia; try (constructor; [reflexivity|assumption]); inversion H; subst; try discriminate; try assumption; try (apply IH; assumption).
  Qed.
  Lemma clauses_clean depth ifs : Forall pc (concat (map (of_clause depth) ifs)) /\ Forall (fun c => whole c = true) ifs <-> Forall (fun c => exists i t, c = (Some i, Some t) /\ Clean i /\ Clean t) ifs.
  Proof.
    induction ifs as [|c l IH]; [cbn; split; [constructor|split; constructor]|]. cbn [map concat]. rewrite Forall_app. split.
    - intros [[A B] C]. inversion C as [|? ? W C']; subst. constructor; [|apply IH; auto]. destruct c as [[i|] [t|]]; try discriminate. cbn [of_clause] in A. inversion A as [|? ? A1 A']; subst. inversion A'; subst. eauto.
    - intros H. inversion H as [|? ? (i & t & -> & Ci & Ct) H']; subst. apply IH in H' as [X Y]. split; [split; [repeat constructor; assumption|exact X]|constructor; [reflexivity|exact Y]].
  Qed.
  Lemma clauses_stuck depth ifs els : Exists ps (concat (map (of_clause depth) ifs) ++ of_else depth els) <-> Stuck (EIfThen ifs els).
  Proof.
    rewrite Exists_app, !Exists_exists. split.
    - intros [(x & H & S)|(x & H & S)].
      + apply in_concat in H as (y & Hy & Hx). apply in_map_iff in Hy as ([[i|] [t|]] & <- & Hc); cbn [of_clause] in Hx; try destruct Hx as [<-|[<-|[]]]; try destruct Hx; [eapply SK_if|eapply SK_then]; eauto.
      + destruct els as [e|]; [|destruct H]. destruct H as [<-|[]]. apply SK_else, S.
    - intros H. inversion H as [| | | | |? ? i t Hi Hs|? ? i t Hi Hs|? e Hs| | |]; subst; [left|left|right].
      + exists (of_expr depth i). split; [|exact Hs]. apply in_concat. exists [of_expr depth i; of_expr depth t]. split; [|left; reflexivity]. apply in_map_iff. exists (Some i, Some t). auto.
      + exists (of_expr depth t). split; [|exact Hs]. apply in_concat. exists [of_expr depth i; of_expr depth t]. split; [|right; left; reflexivity]. apply in_map_iff. exists (Some i, Some t). auto.
      + exists (of_expr depth e). split; [left; reflexivity|exact Hs].
  Qed.
  Lemma rel_has n : snd (print_rel n) = 0 <-> exists r, n = Some r.
  Proof. destruct n; cbn; split; intros H; eauto; try discriminate. destruct H; discriminate. Qed.
  Theorem print_fate e : forall depth, fate (print depth e) (Clean e) (Stuck e).
  Proof.
    induction e as [|l|s r|r|r|f args deprecated options ty Ha Hd|ifs els Hi He|e ty f IH|n|l n Hl|q n|op red e n He|u] using expr_ind2; intros depth; cbn [printExpr].
    - left. exists EUnsupported. split; [reflexivity|constructor].
    - destruct (printLiteral l) as [t n] eqn:E. apply ok_fate; [|intros X; inversion X]. change n with (snd (t, n)). rewrite <- E, literal_has. split; [constructor; assumption|intros X; inversion X; assumption].
    - unfold lookupFieldReference. change (steps_of r) with (outwards r). change (field_of s) with (column s). destruct (field_name (outwards r) (column s)) as [n|] eqn:E; (apply ok_fate; [|intros X; inversion X]).
      + split; [intros _; constructor; exists n; exact E|reflexivity].
      + split; [discriminate|intros X; inversion X as [|? ? [a K]| | | | | | |]; subst; congruence].
    - left. exists EBadAnyCast. split; [reflexivity|constructor].
    - left. exists EBadAnyCast. split; [reflexivity|constructor].
    - assert (F : fate (commas (map po (map (of_arg depth) args ++ map (of_expr (S depth)) deprecated))) (Forall pc (map (of_arg depth) args ++ map (of_expr (S depth)) deprecated)) (Exists ps (map (of_arg depth) args ++ map (of_expr (S depth)) deprecated))).
      { apply parts_fate. apply Forall_app. split; apply Forall_map.
        - eapply Forall_impl; [|exact Ha]. intros [e|s|t|] X; cbn [of_arg po pc ps arg_out stuck_arg].
          + eapply fate_iff; [apply X| |reflexivity]. split; [constructor; assumption|intros Y; inversion Y; assumption].
          + apply ok_fate; [|auto]. split; [constructor|reflexivity].
          + destruct (printType t) as [w n] eqn:E. apply ok_fate; [|auto]. change n with (snd (w, n)). rewrite <- E, type_has. split; [constructor; assumption|intros Y; inversion Y; assumption].
          + apply ok_fate; [|auto]. split; [discriminate|intros Y; inversion Y].
        - eapply Forall_impl; [|exact Hd]. intros e X. apply X. }
      rewrite map_app, !map_map in F. cbn [of_arg of_expr po] in F. unfold arg_out in F.
      destruct (lookupFunctionReference function_name f) as [nm ne] eqn:En. cbn [fst snd].
      eapply fate_iff.
      + apply (fate_bind _ _ _ _ (known (function_name f) /\ (args <> [] \/ deprecated <> []) /\ TypeHas ty) (Stuck (EFun f args deprecated options ty)) F).
        * intros t n _. eexists _, _. split; [reflexivity|]. cbn [snd]. rewrite <- type_has. unfold lookupFunctionReference in En.
          assert (K : ne = 0 <-> known (function_name f)) by (unfold known; destruct (function_name f); injection En as _ <-; split; intros X; eauto; try discriminate; destruct X; discriminate).
          assert (Z : match args, deprecated with [], [] => 1 | _, _ => 0 end = 0 <-> args <> [] \/ deprecated <> []).
          { destruct args; [destruct deprecated|]; split; intros X; try reflexivity; try discriminate; try (left; discriminate); try (right; discriminate). destruct X; congruence. }
          rewrite <- K, <- Z. split; [intros X; repeat split; lia|intros (X & Y & V & W); rewrite X, Y, V, W; reflexivity].
        * rewrite Exists_app, !exists_map. split.
          -- intros X. inversion X as [| | |? ? ? ? ? e Hin Hs|? ? ? ? ? e Hin Hs| | | | | |]; subst; [left; exists (AValue e); auto|right; exists e; auto].
          -- intros [([e|w|w|] & Hin & Hs)|(e & Hin & Hs)]; [apply (SK_arg _ _ _ _ _ e); assumption|destruct Hs..|apply (SK_deprecated _ _ _ _ _ e); assumption].
      + rewrite Forall_app, !Forall_map. cbn [of_arg of_expr pc]. split.
        * intros ((A & B) & C & D & E). constructor; assumption.
        * intros X. inversion X; subst. repeat split; assumption.
      + reflexivity.
    - rewrite clauses_out. eapply fate_iff.
      + apply (fate_bind _ (Forall pc (concat (map (of_clause depth) ifs) ++ of_else depth els)) (Exists ps (concat (map (of_clause depth) ifs) ++ of_else depth els)) _ (Forall (fun c => whole c = true) ifs) (Stuck (EIfThen ifs els))).
        * apply parts_fate. apply Forall_app. split.
          -- apply Forall_concat, Forall_map. eapply Forall_impl; [|exact Hi]. intros [[i|] [t|]] [X Y]; cbn [of_clause]; [constructor; [apply X; reflexivity|constructor; [apply Y; reflexivity|constructor]]|constructor..].
          -- destruct els as [e|]; [constructor; [apply He; reflexivity|constructor]|constructor].
        * intros t n _. eexists _, _. split; [reflexivity|]. cbn [snd]. rewrite <- (clauses_errors depth). lia.
        * symmetry. apply clauses_stuck.
      + rewrite Forall_app. split.
        * intros ((A & B) & C). constructor; [apply (clauses_clean depth); split; assumption|]. intros e ->. inversion B; assumption.
        * intros X. inversion X as [| | |? ? A B| | | | |]; subst. apply (clauses_clean depth) in A as [A C]. repeat split; [exact A| |exact C]. destruct els as [e|]; [constructor; [apply B; reflexivity|constructor]|constructor].
      + reflexivity.
    - eapply fate_iff; [apply (fate_bind _ _ _ _ (TypeHas ty) (Stuck (ECast e ty f)) (IH depth))| |reflexivity].
      + intros t n _. eexists _, _. split; [reflexivity|]. cbn [snd]. rewrite <- type_has. lia.
      + split; [intros X; inversion X; assumption|apply SK_cast].
      + split; [intros [A B]; constructor; assumption|intros X; inversion X; auto].
    - destruct (print_rel n) as [t k] eqn:E. apply ok_fate; [|intros X; inversion X]. change k with (snd (t, k)). cbn [snd]. change k with (snd (t, k)). rewrite <- E, rel_has. split; [intros (r & ->); constructor|intros X; inversion X; eauto].
    - eapply fate_iff; [apply (fate_bind _ (Forall pc (map (of_expr depth) l)) (Exists ps (map (of_expr depth) l)) _ (exists r, n = Some r) (Stuck (EIn l n)))| |reflexivity].
      + rewrite <- (map_map (of_expr depth) po). apply parts_fate. apply Forall_map. eapply Forall_impl; [|exact Hl]. intros e X. apply X.
      + intros t k _. eexists _, _. split; [reflexivity|]. cbn [snd]. rewrite <- rel_has. lia.
      + rewrite exists_map. split; [intros X; inversion X; subst; eauto|intros (e & A & B); eapply SK_in; eauto].
      + rewrite Forall_map. split; [intros (A & r & ->); constructor; exact A|intros X; inversion X; subst; eauto].
    - destruct (print_predicate q) as [t|] eqn:Q.
      + destruct (print_rel n) as [w k] eqn:E. apply ok_fate; [|intros X; inversion X]. cbn [snd]. change k with (snd (w, k)). rewrite <- E, rel_has. split.
        * intros (r & ->). constructor. intros ->. discriminate.
        * intros X. inversion X; eauto.
      + apply ok_fate; [|intros X; inversion X]. split; [discriminate|]. intros X. inversion X; subst. destruct q; try discriminate. congruence.
    - assert (F : fate (match e with Some e => a <- print depth e ;; Ok (fst a ++ $" ", snd a) | None => Ok ([], 1) end) (exists x, e = Some x /\ Clean x) (Stuck (ECompare op red e n))).
      { destruct e as [e|].
        - eapply fate_iff; [apply (fate_bind _ _ _ _ True (Stuck (ECompare op red (Some e) n)) (He e eq_refl depth))| |reflexivity].
          + intros t k _. eexists _, _. split; [reflexivity|]. cbn [snd]. tauto.
          + split; [intros X; inversion X; subst; assumption|apply SK_compare].
          + split; [intros [A _]; eauto|intros (x & E & A); injection E as <-; auto].
        - apply ok_fate; [|intros X; inversion X]. split; [discriminate|intros (x & E & _); discriminate]. }
      eapply fate_iff; [apply (fate_bind _ _ _ _ (op <> CUnspecified /\ (exists d, red = Some d) /\ exists r, n = Some r) _ F)| |reflexivity].
      + intros t k _. assert (B : forall c, print_comparison c = None <-> c = CUnspecified) by (intros []; cbn; split; congruence).
        destruct (print_comparison op) as [o|] eqn:O.
        * assert (N : op <> CUnspecified) by (intros X; apply B in X; congruence). destruct red as [d|].
          -- cbn [print_reduction]. destruct d; cbn [print_reduction]; (eexists _, _; split; [reflexivity|]; cbn [snd]; rewrite <- rel_has; split; [intros X; repeat split; [lia|exact N|eauto|lia]|intros (X & _ & _ & Y); lia]).
          -- cbn [print_reduction]. eexists _, _; split; [reflexivity|]. cbn [snd]. split; [lia|intros (_ & _ & (d & X) & _); discriminate].
        * assert (N : op = CUnspecified) by (apply B, O). eexists _, _; split; [reflexivity|]. cbn [snd]. split; [lia|intros (_ & X & _); congruence].
      + reflexivity.
      + split.
        * intros ((x & -> & A) & B & (d & ->) & r & ->). constructor; assumption.
        * intros X. inversion X; subst. repeat split; eauto.
    - apply ok_fate; [|intros X; inversion X]. split; [discriminate|intros X; inversion X].
  Qed.
End Fates.

(** * Relations *)
Ltac parts := repeat match goal with |- _ /\ _ => split end; auto.
Lemma some_eq {A} (a b : A) : Some a = Some b -> a = b.
Proof. congruence. Qed.
Definition quiet (o : outcome printed) : Prop := exists t, o = Ok (t, 0).
Section Relations.
  Variable function_name : N -> option str.
  Variable field_name : N -> Z -> option str.
  Variable emit_name : Z -> option str.
  Variable measure_name : nat -> option str.
  Variable alternative : nat -> option str.
  Variable alias : nat -> option str.
  Notation Clean := (Clean function_name field_name). Notation CleanArg := (CleanArg function_name field_name). Notation print := (printExpr function_name field_name).
  Definition each (o : option expr) : Prop := forall e, o = Some e -> Clean e.
  (** The same for relations.  An argument of an aggregate function that is not set is not noticed. *)
  Inductive CleanFunction : aggregate_function -> Prop :=
  | CF f : known (function_name (af_ref f)) -> Forall (fun a => CleanArg a \/ a = AUnset) (af_args f) -> Forall Clean (af_deprecated f) -> TypeHas (af_type f) -> CleanFunction f.
  Inductive CleanMeasure : measure -> Prop :=
  | CM f filter : CleanFunction f -> each filter -> CleanMeasure (Measure (Some f) filter).
  (** A comparison function ends the list. *)
  Inductive CleanSorts : list sort -> Prop :=
  | CS_nil : CleanSorts []
  | CS_direction e d l : Clean e -> CleanSorts l -> CleanSorts ((e, SortDirection d) :: l)
  | CS_function e f l : Clean e -> known (function_name f) -> CleanSorts ((e, SortFunction f) :: l).
  (** An expression with an alternative text is not looked at. *)
  Inductive CleanColumns : nat -> list expr -> Prop :=
  | CC_nil i : CleanColumns i []
  | CC_alternative i t e l : alternative i = Some t -> CleanColumns (S i) l -> CleanColumns i (e :: l)
  | CC_expression i e l : alternative i = None -> Clean e -> CleanColumns (S i) l -> CleanColumns i (e :: l).
  Definition emitted (l : list Z) : Prop := forall z, In z l -> known (emit_name z).
  Inductive CleanBody : list Z -> body -> Prop :=
  | CB_read emit s sources schemas filter best : each filter -> each best -> CleanBody emit (BRead (s :: sources) schemas filter best false)
  | CB_filter emit c : each c -> CleanBody emit (BFilter c)
  | CB_fetch emit offset count : CleanBody emit (BFetch offset count)
  | CB_aggregate emit groupings measures : Forall (Forall Clean) groupings -> Forall CleanMeasure measures -> emitted emit -> CleanBody emit (BAggregate groupings measures)
  | CB_sort emit l : CleanSorts l -> CleanBody emit (BSort l)
  | CB_project emit l : CleanColumns 0 l -> emitted emit -> CleanBody emit (BProject l)
  | CB_join emit t e p : each e -> each p -> CleanBody emit (BJoin t e p)
  | CB_cross emit : CleanBody emit BCross.

  Lemma quiet_text s : quiet (text s).
  Proof. exists s. reflexivity. Qed.
  Lemma quiet_ok p : quiet (Ok p) <-> snd p = 0.
  Proof. destruct p as [t n]. split; [intros (w & E); injection E as _ ->; reflexivity|cbn; intros ->; exists t; reflexivity]. Qed.
  Lemma quiet_both a b : quiet (both a b) <-> quiet a /\ quiet b.
  Proof.
    unfold both, quiet. split.
    - intros (t & E). destruct a as [[x n]| |]; try discriminate. destruct b as [[y m]| |]; try discriminate. cbn in E. injection E as _ E. split; eexists; f_equal; f_equal; lia.
    - intros [(x & ->) (y & ->)]. exists (x ++ y). reflexivity.
  Qed.
  Lemma quiet_together l : quiet (together l) <-> Forall quiet l.
  Proof.
    induction l as [|a l IH]; cbn [together fold_right]; [split; [constructor|intros _; exists []; reflexivity]|]. fold (together l). rewrite quiet_both, IH. split; [intros []; constructor; assumption|intros X; inversion X; auto].
  Qed.
  Lemma quiet_commas l : quiet (commas l) <-> Forall quiet l.
  Proof.
    change (commas l) with (go true l). generalize true. induction l as [|a l IH]; intros first; cbn [go]; [split; [constructor|intros _; exists []; reflexivity]|]. fold go. rewrite Forall_cons_iff, <- (IH false). unfold quiet. split.
    - intros (t & E). destruct a as [[x n]| |]; try discriminate. destruct (go false l) as [[y m]| |]; try discriminate. cbn in E. injection E as _ E. split; eexists; f_equal; f_equal; lia.
    - intros [(x & ->) (y & ->)]. eexists. reflexivity.
  Qed.
  Lemma stuck_unclean e : Stuck e -> ~ Clean e.
  Proof.
    intros S. induction S as [|r|r|f args deprecated options ty e Hin Hs IH|f args deprecated options ty e Hin Hs IH|ifs els i t Hin Hs IH|ifs els i t Hin Hs IH|ifs e Hs IH|e ty failure Hs IH|l n e Hin Hs IH|op red e n Hs IH]; intros C; inversion C; subst; try apply IH.
    - match goal with F : Forall CleanArg args |- _ => pose proof (proj1 (Forall_forall _ _) F _ Hin) as X end. inversion X; subst. assumption.
    - match goal with F : Forall Clean deprecated |- _ => exact (proj1 (Forall_forall _ _) F _ Hin) end.
    - match goal with F : Forall _ ifs |- _ => destruct (proj1 (Forall_forall _ _) F _ Hin) as (i' & t' & X & Y & Z) end. injection X as <- <-. assumption.
    - match goal with F : Forall _ ifs |- _ => destruct (proj1 (Forall_forall _ _) F _ Hin) as (i' & t' & X & Y & Z) end. injection X as <- <-. assumption.
    - auto.
    - assumption.
    - match goal with F : Forall Clean l |- _ => exact (proj1 (Forall_forall _ _) F _ Hin) end.
    - assumption.
  Qed.
  Lemma quiet_expr depth e : quiet (print depth e) <-> Clean e.
  Proof.
    unfold quiet. destruct (print_fate function_name field_name e depth) as [(x & E & S)|(t & n & E & C & S)]; rewrite E.
    - split; [intros (t & X); discriminate|]. intros C. destruct (stuck_unclean e S C).
    - split; [intros (w & X); injection X as _ ->; apply C; reflexivity|]. intros X. apply C in X. subst n. eauto.
  Qed.
  Lemma quiet_line key o : quiet (line key o) <-> quiet o.
  Proof. unfold line. rewrite quiet_together. split; [intros X; inversion X as [|? ? _ Y]; inversion Y; assumption|intros X; repeat constructor; try apply quiet_text; exact X]. Qed.
  Lemma quiet_inner key o : quiet (inner_line key o) <-> quiet o.
  Proof. unfold inner_line. rewrite quiet_together. split; [intros X; inversion X as [|? ? _ Y]; inversion Y; assumption|intros X; repeat constructor; try apply quiet_text; exact X]. Qed.
  Lemma quiet_optional (f : expr -> outcome printed) o : (forall e, quiet (f e) <-> Clean e) -> quiet (optional f o) <-> each o.
  Proof. intros H. unfold each. destruct o as [e|]; cbn [optional]; [rewrite H; split; [intros C x E; injection E as <-; exact C|auto]|split; [discriminate|intros _; apply quiet_text]]. Qed.
  Lemma quiet_filter key o : quiet (optional (fun e => line key (printE function_name field_name e)) o) <-> each o.
  Proof. apply quiet_optional. intros e. rewrite quiet_line. apply quiet_expr. Qed.
  Lemma quiet_named n : quiet (named n).
  Proof. destruct n; apply quiet_text. Qed.
  Lemma quiet_lookup f : quiet (Ok (lookupFunctionReference function_name f)) <-> known (function_name f).
  Proof. rewrite quiet_ok. unfold lookupFunctionReference, known. destruct (function_name f); cbn; split; intros X; eauto; try discriminate. destruct X; discriminate. Qed.
  Lemma forall_map_iff {A B} (f : A -> B) (P : B -> Prop) (Q : A -> Prop) l : (forall a, P (f a) <-> Q a) -> Forall P (map f l) <-> Forall Q l.
  Proof. intros H. rewrite Forall_map. split; apply Forall_impl; intros a; apply H. Qed.
  Lemma quiet_emit l : quiet (printEmit emit_name l) <-> emitted l.
  Proof.
    unfold printEmit, emitted. assert (X : Forall quiet (map (fun z => line $"emit" (Ok (lookupEmit emit_name z))) l) <-> (forall z, In z l -> known (emit_name z))).
    { rewrite (forall_map_iff _ _ (fun z => known (emit_name z))); [apply Forall_forall|]. intros z. rewrite quiet_line, quiet_ok. unfold lookupEmit, known. destruct (emit_name z); cbn; split; intros X; eauto; try discriminate. destruct X; discriminate. }
    destruct l as [|z l]; [split; [intros _ z []|intros _; apply quiet_text]|]. rewrite quiet_both, quiet_together, X. split; [tauto|split; [apply quiet_text|assumption]].
  Qed.
  Lemma quiet_function f : quiet (printAggregateFunction function_name field_name f) <-> CleanFunction f.
  Proof.
    unfold printAggregateFunction. rewrite quiet_together. rewrite !Forall_cons_iff, quiet_lookup, quiet_commas, Forall_app, quiet_ok, type_has.
    rewrite (forall_map_iff _ _ (fun a => CleanArg a \/ a = AUnset)).
    2:{ intros [e|s|t|].
        - rewrite quiet_expr. split; [left; constructor; assumption|]. intros [X|X]; [inversion X; assumption|discriminate].
        - split; [left; constructor|intros _; eexists; reflexivity].
        - rewrite quiet_ok, type_has. split; [left; constructor; assumption|]. intros [X|X]; [inversion X; assumption|discriminate].
        - split; [right; reflexivity|intros _; apply quiet_text]. }
    rewrite (forall_map_iff _ _ Clean) by (intros e; apply quiet_expr). pose proof quiet_text as T. split.
    - intros X. constructor; tauto.
    - intros X. inversion X; subst. parts.
  Qed.
  Lemma quiet_measure i m : quiet (printMeasure function_name field_name measure_name i m) <-> CleanMeasure m.
  Proof.
    unfold printMeasure. destruct m as [[f|] filter]; cbn [m_function m_filter].
    - rewrite quiet_together, !Forall_cons_iff, quiet_inner, quiet_both, quiet_function. rewrite (quiet_optional _ filter) by (intros e; rewrite quiet_inner; apply quiet_expr).
      assert (V : quiet (optional (fun n => inner_line $"invocation" (text n)) (print_invocation (af_invocation f)))) by (destruct (print_invocation (af_invocation f)); cbn [optional]; [apply quiet_inner|]; apply quiet_text).
      pose proof quiet_text as T. pose proof quiet_named as N. split; [intros X; constructor; tauto|]. intros X. inversion X; subst. parts.
    - rewrite quiet_ok. cbn. split; [discriminate|intros X; inversion X].
  Qed.
  Lemma quiet_measures l : forall i, quiet (printMeasures function_name field_name measure_name i l) <-> Forall CleanMeasure l.
  Proof. induction l as [|m l IH]; intros i; cbn [printMeasures]; [split; [constructor|intros _; apply quiet_text]|]. rewrite quiet_both, IH, quiet_measure, Forall_cons_iff. reflexivity. Qed.
  Lemma quiet_sorts l : forall before, quiet (printSorts function_name field_name before l) <-> CleanSorts l.
  Proof.
    induction l as [|[e k] l IH]; intros before; cbn [printSorts]; [split; [constructor|intros _; apply quiet_text]|]. unfold printE. split.
    - intros (t & E). pose proof (quiet_expr 0 e) as Q. unfold quiet in Q. destruct (print 0 e) as [[x n]| |]; try discriminate. cbn [obind fst snd] in E.
      destruct k as [d|f|].
      + set (s := before ++ _) in E. match type of E with obind (printSorts _ _ ?b l) _ = _ => specialize (IH b); destruct (printSorts function_name field_name b l) as [[y m]| |] eqn:P; try discriminate end. cbn in E. injection E as _ E.
        constructor; [apply Q; exists x; f_equal; f_equal; lia|]. apply IH. exists y. f_equal. f_equal. lia.
      + injection E as _ E. constructor; [apply Q; exists x; f_equal; f_equal; lia|]. apply quiet_lookup, quiet_ok. cbn in E. lia.
      + exfalso. match type of E with obind (printSorts _ _ ?b l) _ = _ => destruct (printSorts function_name field_name b l) as [[y m]| |]; try discriminate end. cbn in E. injection E as _ E. lia.
    - intros X. inversion X as [|? d ? C S|? f ? C K]; subst; apply (quiet_expr 0) in C as (x & E); rewrite E; cbn [obind fst snd].
      + set (s := before ++ _). match goal with |- quiet (obind (printSorts _ _ ?b l) _) => destruct (proj2 (IH b) S) as (y & ->) end. eexists. reflexivity.
      + apply quiet_lookup, quiet_ok in K. exists (fst (lookupFunctionReference function_name f)). f_equal. f_equal. exact K.
  Qed.
  Lemma quiet_expressions l : forall i, quiet (printExpressions function_name field_name alternative alias i l) <-> CleanColumns i l.
  Proof.
    induction l as [|e l IH]; intros i; cbn [printExpressions]; [split; [constructor|intros _; apply quiet_text]|]. rewrite quiet_both, quiet_line, IH. destruct (alternative i) as [t|] eqn:E.
    - pose proof (quiet_text t). split; [intros [_ X]; eapply CC_alternative; eassumption|]. intros X. inversion X; subst; [tauto|congruence].
    - rewrite quiet_both. unfold printE. rewrite quiet_expr. pose proof (quiet_named (alias i)). split; [intros [[X _] Y]; apply CC_expression; assumption|]. intros X. inversion X; subst; [congruence|tauto].
  Qed.
  Theorem quiet_relation name r : quiet (printRelation function_name field_name emit_name measure_name alternative alias name r) <-> CleanBody (r_emit r) (r_body r).
  Proof.
    unfold printRelation. assert (L : forall key l, quiet (together (map (fun s => line key (text s)) l))) by (intros key l; apply quiet_together, Forall_map, Forall_forall; intros s _; apply quiet_line, quiet_text).
    assert (H : forall b, printBody function_name field_name emit_name measure_name alternative alias r = Some b -> quiet b <-> CleanBody (r_emit r) (r_body r)).
    { intros b. unfold printBody. destruct r as [bd emit]. cbn [r_body r_emit]. destruct bd as [sources schemas filter best projection|c|offset count|groupings measures|l|l|t e p| |n]; [destruct sources as [|s sources]; [discriminate|]|..|discriminate];
        intros E; apply some_eq in E; subst b.
      - rewrite quiet_together, !Forall_cons_iff, !quiet_filter. destruct projection.
        + rewrite quiet_line, quiet_ok. cbn [snd]. split; [intros (_ & _ & X & _); discriminate|intros X; inversion X].
        + pose proof (quiet_text []). split; [intros X; constructor; tauto|intros X; inversion X; subst; parts].
      - rewrite quiet_filter. split; [apply CB_filter|intros X; inversion X; assumption].
      - split; [constructor|]. intros _. apply quiet_both. split; [destruct (offset =? 0)%Z; [apply quiet_text|apply quiet_line, quiet_text]|apply quiet_line, quiet_text].
      - rewrite quiet_together, !Forall_cons_iff, quiet_together, quiet_measures, quiet_emit. rewrite (forall_map_iff _ _ Clean) by (intros e; rewrite quiet_line; apply quiet_expr).
        assert (X : Forall Clean (concat groupings) <-> Forall (Forall Clean) groupings) by (induction groupings as [|g gs IH]; cbn [concat]; [split; constructor|rewrite Forall_app, IH, Forall_cons_iff; reflexivity]).
        rewrite X. split; [intros Y; constructor; tauto|intros Y; inversion Y; subst; parts].
      - rewrite quiet_sorts. split; [apply CB_sort|intros X; inversion X; assumption].
      - rewrite quiet_both, quiet_expressions, quiet_emit. split; [intros []; constructor; assumption|intros X; inversion X; auto].
      - rewrite quiet_together, !Forall_cons_iff, !quiet_filter, quiet_line. pose proof (quiet_text (join_name t)). split; [intros X; constructor; tauto|intros X; inversion X; subst; parts].
      - split; [constructor|intros _; apply quiet_text]. }
    destruct (printBody function_name field_name emit_name measure_name alternative alias r) as [b|] eqn:B.
    - rewrite quiet_together, !Forall_cons_iff, (H b eq_refl). pose proof quiet_text. split; [tauto|]. intros X. parts.
    - rewrite quiet_ok. cbn [snd]. split; [discriminate|]. intros X. unfold printBody in B. destruct r as [bd emit]. cbn [r_body r_emit] in *. inversion X; subst; discriminate.
  Qed.
End Relations.
