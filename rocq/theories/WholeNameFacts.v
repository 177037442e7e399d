(** The names in the text of a whole plan: which ones are handed out, and that they differ. *)
From Verif Require Import Base BaseFacts StringsModel StringsFacts EnumModel TypeModel TypeProtoFacts LexModel LexFacts NameModel NameFacts ExprModel TypeTokenFacts LiteralFacts ExprFacts FirstFacts RelModel RelFacts SectionModel
  SectionFacts WholeModel WholeFacts.
From Verif Require SymbolModel SymbolMoreFacts FieldModel FieldFacts DeclModel DeclFacts PipeModel PipeFacts TreeModel TreeFacts PrintFacts.
From Coq Require Import Lia ZifyBool ZifyNat ZifyN Permutation.

(** * Parts of a list *)
Inductive Part {A} : list A -> list A -> Prop :=
| Pt_nil : Part [] []
| Pt_skip x l l' : Part l l' -> Part l (x :: l')
| Pt_take x l l' : Part l l' -> Part (x :: l) (x :: l').
Lemma part_refl {A} (l : list A) : Part l l.
Proof. induction l; [constructor|apply Pt_take; assumption]. Qed.
Lemma part_nil {A} (l : list A) : Part [] l.
Proof. induction l; constructor; assumption. Qed.
Lemma part_app {A} (a b c d : list A) : Part a b -> Part c d -> Part (a ++ c) (b ++ d).
Proof. induction 1; intros; cbn; [assumption|apply Pt_skip; auto|apply Pt_take; auto]. Qed.
Lemma part_left {A} (a b c : list A) : Part a b -> Part a (b ++ c).
Proof. intros H. rewrite <- (app_nil_r a). apply part_app; [exact H|apply part_nil]. Qed.
Lemma part_right {A} (a b c : list A) : Part a c -> Part a (b ++ c).
Proof. intros H. apply (part_app [] b a c); [apply part_nil|exact H]. Qed.
Lemma part_incl {A} (a b : list A) : Part a b -> incl a b.
Proof. induction 1; intros y I; [exact I|right; auto|destruct I as [<- | I]; [left; reflexivity|right; auto]]. Qed.
Lemma part_nodup {A} (a b : list A) : Part a b -> NoDup b -> NoDup a.
Proof. induction 1 as [|x a b P IH|x a b P IH]; intros H; [exact H|inversion H; auto|]. inversion H as [|? ? N1 N2]; subst. constructor; [|auto]. intros I. apply N1. eapply part_incl; eassumption. Qed.
Lemma part_map {A B} (f : A -> B) a b : Part a b -> Part (map f a) (map f b).
Proof. induction 1; cbn; [constructor|apply Pt_skip; assumption|apply Pt_take; assumption]. Qed.
Lemma part_flat {A B} (f g : A -> list B) l : (forall x, In x l -> Part (f x) (g x)) -> Part (flat_map f l) (flat_map g l).
Proof. induction l as [|x l IH]; intros H; cbn; [constructor|]. apply part_app; [apply H; left; reflexivity|]. apply IH. intros y I. apply H. right. exact I. Qed.
Lemma part_trans {A} (a b c : list A) : Part a b -> Part b c -> Part a c.
Proof. intros H K. revert a H. induction K as [|x b c K IH|x b c K IH]; intros a H; [exact H|apply Pt_skip; auto|]. inversion H; subst; [apply Pt_skip|apply Pt_take]; auto. Qed.
Lemma flat_flat {A B C} (f : A -> list B) (g : B -> list C) l : flat_map g (flat_map f l) = flat_map (fun x => flat_map g (f x)) l.
Proof. induction l as [|x l IH]; cbn; [reflexivity|]. rewrite flat_map_app, IH. reflexivity. Qed.
Lemma map_flat {A B C} (f : A -> list B) (g : B -> C) l : map g (flat_map f l) = flat_map (fun x => map g (f x)) l.
Proof. induction l as [|x l IH]; cbn; [reflexivity|]. rewrite map_app, IH. reflexivity. Qed.

(** * The names handed out *)
Definition asked_entry (e : entry_of) : list (str * str) :=
  match e_names e with Some _ => [($"root.names", e_symbol e)] | None => [] end ++ asked (e_tree e) ++ [(match e_names e with Some _ => $"root" | None => $"rel" end, e_label e)].
Lemma entries_recorded known xs : forall t H t' es, Forall (fun x => tree_ok known 0 (fst x)) xs -> Handed t H -> record_all t xs = (t', es) ->
  Handed t' (H ++ flat_map asked_entry es) /\ Forall2 (fun x e => e_names e = snd x /\ TreeRecorded known 0 [] (fst x) (e_tree e) /\ exists t t', record t (fst x) = (t', e_tree e)) xs es.
Proof.
  induction xs as [|x xs IH]; intros t H t' es Hx Hd E; cbn [record_all] in E.
  - injection E as <- <-. cbn. rewrite app_nil_r. split; [exact Hd|constructor].
  - inversion Hx as [|? ? Hx1 Hx2]; subst. unfold record_entry in E. set (u0 := match snd x with Some _ => unique t $"root.names" | None => (t, []) end) in E. destruct u0 as [t1 u] eqn:E0. unfold u0 in E0.
    destruct (record t1 (fst x)) as [t2 r] eqn:E2. destruct (unique t2 match snd x with Some _ => $"root" | None => $"rel" end) as [t3 n] eqn:E3. destruct (record_all t3 xs) as [t4 es'] eqn:E4. injection E as <- <-.
    assert (H1 : Handed t1 (H ++ match snd x with Some _ => [($"root.names", u)] | None => [] end)). { destruct (snd x); [exact (handed_step _ _ _ _ _ Hd E0)|]. injection E0 as <- <-. rewrite app_nil_r. exact Hd. }
    destruct (tree_recorded known (fst x) 0 [] _ t1 t2 r Hx1 eq_refl H1 E2) as (H2 & TR). pose proof (handed_step _ _ _ _ _ H2 E3) as H3. destruct (IH _ _ _ _ Hx2 H3 E4) as (H4 & F).
    split; [|constructor; [split; [reflexivity|split; [exact TR|exists t1, t2; exact E2]]|exact F]]. cbn [flat_map]. unfold asked_entry at 1. cbn [e_names e_symbol e_tree e_label]. rewrite <- !app_assoc in *. exact H4.
Qed.
Lemma functions_handed ds : forall t H, Handed t H ->
  Handed (fold_left (fun t d => fst (unique t (DeclModel.shortName (DeclModel.d_name d)))) ds t) (H ++ map (fun f => (DeclModel.shortName (DeclModel.f_name f), DeclModel.f_short f)) (DeclModel.functions (DeclModel.import_functions t ds))).
Proof.
  induction ds as [|d ds IH]; intros t H Hd; cbn [fold_left DeclModel.import_functions]; [cbn; rewrite app_nil_r; exact Hd|]. unfold unique at 2. destruct (SymbolModel.getUniqueName t (DeclModel.shortName (DeclModel.d_name d))) as [t1 u] eqn:E.
  pose proof (handed_step _ _ _ _ _ Hd E) as H1. cbn [fst]. specialize (IH _ _ H1). rewrite <- app_assoc in IH. exact IH.
Qed.
(** Words that are not followed by digits *)
Lemma no_digit_end b b' d : SymbolMoreFacts.no_final_digit b' -> b' = b ++ d -> forallb is_digit d = true -> d = [].
Proof.
  intros [-> | (p & c & -> & Hc)] E Hd; [destruct b; [cbn in E; auto|discriminate]|]. destruct (rev d) as [|x r] eqn:Er; [apply (f_equal (@rev _)) in Er; rewrite rev_involutive in Er; exact Er|].
  assert (Ed : d = rev r ++ [x]) by (rewrite <- (rev_involutive d), Er; reflexivity). subst d. rewrite app_assoc in E. apply app_inj_tail in E as [_ ->]. rewrite forallb_app in Hd. cbn in Hd. rewrite Hc in Hd. rewrite andb_false_r in Hd. discriminate.
Qed.
Lemma made_up_digits : Forall SymbolMoreFacts.no_final_digit made_up.
Proof.
  assert (X : forall w, match rev w with c :: _ => negb (is_digit c) | [] => true end = true -> SymbolMoreFacts.no_final_digit w).
  { intros w H. destruct (rev w) as [|c r] eqn:E; [left; apply (f_equal (@rev _)) in E; rewrite rev_involutive in E; exact E|]. right. exists (rev r), c. split; [rewrite <- (rev_involutive w), E; reflexivity|]. destruct (is_digit c); [discriminate|reflexivity]. }
  unfold made_up. repeat (constructor; [apply X; reflexivity|]). constructor.
Qed.
Lemma short_name n sig : Name n -> DeclModel.shortName (n ++ $":" ++ sig) = n.
Proof.
  intros H. assert (Hc : ~ In ":"%char n).
  { assert (W : forall w, LIdentifier w -> ~ In ":"%char w).
    { intros w [c r Hc Hr] [E | I]; [subst c; discriminate Hc|]. unfold all_ in Hr. rewrite forallb_forall in Hr. specialize (Hr _ I). discriminate Hr. }
    induction H as [w Hw _ | w k n Hw _ _ _ IH]; [apply W, Hw|]. intros I. apply in_app_or in I as [I | I]; [exact (W w Hw I)|]. apply in_app_or in I as [I | I]; [|exact (IH I)]. apply repeat_spec in I. discriminate I. }
  clear H. induction n as [|c n IH]; [reflexivity|]. cbn [DeclModel.shortName app]. destruct (ceq c ":") eqn:E; [apply ceq_true in E; subst; exfalso; apply Hc; left; reflexivity|]. f_equal. apply IH. intros I. apply Hc. right. exact I.
Qed.
(** The reads of a tree *)
Lemma reads_recorded x : forall t t' rt n L, record t x = (t', rt) -> flat_map (fun c => some_list (cx_sch c)) (ctxs n L x rt) = schemas_in x /\ flat_map (fun c => some_list (cx_src c)) (ctxs n L x rt) = sources_in x.
Proof.
  induction x as [r src sch ins IH] using tree_ind2. intros t t' rt n L E. rewrite record_node_eq in E. destruct (record_list t ins) as [t1 rins] eqn:E1.
  destruct (record_node t1 r src sch (flat_map (fun i => FieldModel.exposed (rn_data (top i))) rins)) as [t2 x]. injection E as <- <-. cbn [ctxs schemas_in sources_in]. 
  assert (X : flat_map (fun c => some_list (cx_sch c)) (all_ctxs ctxs n L ins rins) = flat_map schemas_in ins /\ flat_map (fun c => some_list (cx_src c)) (all_ctxs ctxs n L ins rins) = flat_map sources_in ins).
  { clear -IH E1. revert t t1 rins n L E1. induction IH as [|i ins Hi _ IHl]; intros t t1 rins n L E1; cbn [record_list] in E1.
    - injection E1 as <- <-. split; reflexivity.
    - destruct (record t i) as [t2 ri] eqn:Ei. destruct (record_list t2 ins) as [t3 rl] eqn:El. injection E1 as <- <-. rewrite ctxs_cons, !flat_map_app. destruct (Hi _ _ _ n L Ei) as (-> & ->). destruct (IHl _ _ _ (fst (columns n i)) (L ++ made ri) El) as (-> & ->). split; reflexivity. }
  destruct (all_columns columns n ins) as [n1 F]. rewrite !flat_map_app. destruct X as (X1 & X2). fold (all_ctxs ctxs). rewrite X1, X2. cbn. rewrite !app_nil_r. split; reflexivity.
Qed.
Lemma app_nodup_l {A} (a b : list A) : NoDup (a ++ b) -> NoDup a.
Proof. intros H. eapply part_nodup; [|exact H]. apply part_left, part_refl. Qed.
Lemma flat_nodup {A B} (f : A -> list B) l x y z : NoDup (flat_map f l) -> In x l -> In y l -> In z (f x) -> In z (f y) -> x = y.
Proof.
  intros H Ix Iy Zx Zy. induction l as [|a l IH]; [destruct Ix|]. cbn in H. assert (D : forall q, In q l -> In z (f a) -> In z (f q) -> False).
  { intros q Iq Za Zq. apply (SymbolMoreFacts.NoDup_app_disj _ _ z H); [apply in_flat_map; exists q; auto|exact Za]. }
  destruct Ix as [-> | Ix], Iy as [<- | Iy]; [reflexivity|exfalso; eauto|exfalso; eauto|]. apply IH; try assumption. eapply part_nodup; [|exact H]. apply part_right, part_refl.
Qed.
(** What is asked for in a relation *)
Definition node_words : list str := [$"schema"; $"named"; $"local"; $"virtual"; $"extensiontable"; $"measurename"; $"intermediate"; $"read"; $"filter"; $"fetch"; $"aggregate"; $"sort"; $"project"; $"join"; $"cross"].
Lemma node_bases known c base n : CtxOk known c -> In (base, n) (asked_node (cx c)) -> In base node_words.
Proof.
  intros Hc I. pose proof (ck_ok _ _ Hc) as Ok0. pose proof (rc_relation _ _ _ _ _ _ _ _ _ (ck_recorded _ _ Hc)) as Er. unfold asked_node in I. rewrite Er in I. cbn [r_body] in I.
  apply in_app_or in I as [I | I]; [apply in_map_iff in I as (? & [= <- _] & _); left; reflexivity|]. apply in_app_or in I as [I | I].
  - destruct (rn_source (cx c)) as [[m s]|]; [|destruct I]. destruct I as [[= <- _] | []]. destruct s; cbn; tauto.
  - apply in_app_or in I as [I | I].
    + destruct (r_body (cx_r c)); cbn [with_names] in I; try contradiction; apply in_map_iff in I as (? & [= <- _] & _); cbn; tauto.
    + destruct I as [[= <- _] | []]. destruct Ok0 as (_ & K). destruct (r_body (cx_r c)); cbn; try tauto; destruct K as (_ & _ & []).
Qed.
Lemma made_up_words : made_up = node_words ++ [$"root.names"; $"root"; $"rel"].
Proof. reflexivity. Qed.
Lemma made_up_names w : In w made_up -> w <> $"root.names" -> Name w.
Proof.
  intros I N0. unfold made_up in I. cbn in I. repeat (destruct I as [<- | I]; [first [exfalso; apply N0; reflexivity|apply word_name; [discriminate|reflexivity|reflexivity]]|]). destruct I.
Qed.
Lemma name_tail n d : Name n -> forallb is_digit d = true -> Name (n ++ d).
Proof. intros Hn Hd. destruct d as [|c d]; [rewrite app_nil_r; exact Hn|]. apply name_digits; [exact Hn|]. split; [discriminate|exact Hd]. Qed.

Section Names.
  Variable b : bplan.
  Hypothesis Hb : Convertible b.
  Notation es := (entries_of b).
  Notation known := (declared_function b).
  Definition declared_functions : list DeclModel.func := DeclModel.functions (DeclModel.import_functions SymbolModel.empty_table (b_decls b)).
  Definition function_pairs : list (str * str) := map (fun f => (DeclModel.shortName (DeclModel.f_name f), DeclModel.f_short f)) declared_functions.
  Definition given : list (str * str) := function_pairs ++ flat_map asked_entry es.
  Definition plan_ctxs : list ctx := flat_map (fun z => ctxs 0 [] (fst (fst z)) (e_tree (snd z))) (combine (b_rels b) es).
  Lemma given_entries : SymbolMoreFacts.Numbered given /\ Forall2 (fun x e => e_names e = snd x /\ TreeRecorded known 0 [] (fst x) (e_tree e) /\ exists t t', record t (fst x) = (t', e_tree e)) (b_rels b) es.
  Proof.
    assert (H0 : Handed SymbolModel.empty_table []) by (split; [intros q; reflexivity|constructor]). pose proof (functions_handed (b_decls b) _ _ H0) as H1. cbn [app] in H1.
    unfold given, function_pairs, declared_functions, entries_of, function_names. destruct (record_all (fold_left (fun t d => fst (unique t (DeclModel.shortName (DeclModel.d_name d)))) (b_decls b) SymbolModel.empty_table) (b_rels b)) as [t' l] eqn:E.
    destruct (entries_recorded known (b_rels b) _ _ _ _ (cv_trees _ Hb) H1 E) as ((_ & H2) & F). split; [exact H2|exact F].
  Qed.
  Lemma entry_in e : In e es -> exists x, In (x, e) (combine (b_rels b) es) /\ In x (b_rels b) /\ e_names e = snd x /\ TreeRecorded known 0 [] (fst x) (e_tree e).
  Proof.
    destruct given_entries as (_ & F). induction F as [|x e0 xs l (H1 & H2 & _) _ IH]; [intros []|]. intros [<- | I]; [exists x; cbn; auto|]. destruct (IH I) as (y & A1 & A2 & A3 & A4). exists y. cbn. auto.
  Qed.
  Lemma combine_in z : In z (combine (b_rels b) es) -> In (fst z) (b_rels b) /\ In (snd z) es /\ e_names (snd z) = snd (fst z) /\ TreeRecorded known 0 [] (fst (fst z)) (e_tree (snd z)) /\ exists t t', record t (fst (fst z)) = (t', e_tree (snd z)).
  Proof.
    destruct given_entries as (_ & F). induction F as [|x e0 xs l H _ IH]; [intros []|]. cbn [combine]. intros [<- | I]; [cbn; auto|]. destruct (IH I) as (A1 & A2 & A3). cbn. auto.
  Qed.
  Lemma plan_order : map cx plan_ctxs = all_recorded es.
  Proof.
    unfold plan_ctxs, all_recorded. rewrite map_flat. destruct given_entries as (_ & F). induction F as [|x e xs l (_ & H & _) _ IH]; [reflexivity|]. cbn [combine flat_map fst snd]. rewrite (tr_order _ _ _ _ _ H), IH. reflexivity.
  Qed.
  Lemma plan_ok c : In c plan_ctxs -> CtxOk known c /\ exists z, In z (combine (b_rels b) es) /\ In c (ctxs 0 [] (fst (fst z)) (e_tree (snd z))).
  Proof. intros I. apply in_flat_map in I as (z & Iz & I). destruct (combine_in z Iz) as (_ & _ & _ & TR & _). split; [|exists z; auto]. pose proof (tr_ctxs _ _ _ _ _ TR) as H. rewrite Forall_forall in H. apply H, I. Qed.
  Lemma recorded_ctx x : In x (all_recorded es) -> exists c, In c plan_ctxs /\ cx c = x.
  Proof. rewrite <- plan_order. intros I. apply in_map_iff in I as (c & <- & I). exists c. auto. Qed.
  Lemma asked_all : flat_map asked_node (all_recorded es) = flat_map (fun e => asked (e_tree e)) es.
  Proof. unfold all_recorded. rewrite flat_flat. reflexivity. Qed.
  Lemma asked_part : Part (flat_map asked_node (all_recorded es)) given.
  Proof. rewrite asked_all. unfold given. apply part_right. apply part_flat. intros e _. unfold asked_entry. apply part_right, part_left, part_refl. Qed.
  Lemma asked_given x base n : In x (all_recorded es) -> In (base, n) (asked_node x) -> In (base, n) given /\ In base node_words.
  Proof.
    intros Ix I. split; [eapply part_incl; [exact asked_part|]; apply in_flat_map; exists x; auto|]. destruct (recorded_ctx x Ix) as (c & Ic & <-). destruct (plan_ok c Ic) as (Hc & _). eapply node_bases; eassumption.
  Qed.
  Lemma function_bases base n : In (base, n) function_pairs -> In base (short_names b).
  Proof.
    unfold function_pairs, declared_functions, short_names. pose proof (DeclFacts.import_functions_decls (b_decls b) SymbolModel.empty_table) as F. intros I. apply in_map_iff in I as (f & [= <- _] & I).
    destruct (DeclFacts.Forall2_in_r _ _ _ _ F I) as (d & Id & (-> & _)). apply in_map_iff. exists d. auto.
  Qed.
  Lemma given_base base n : In (base, n) given -> In base (made_up ++ short_names b).
  Proof.
    intros I. apply in_app_or in I as [I | I]; [apply in_or_app; right; exact (function_bases _ _ I)|]. apply in_or_app. left. rewrite made_up_words. apply in_flat_map in I as (e & Ie & I). apply in_app_or in I as [I | I].
    - destruct (e_names e); [|destruct I]. destruct I as [[= <- _] | []]. apply in_or_app. right. cbn. tauto.
    - apply in_app_or in I as [I | I].
      + apply in_or_app. left. apply in_flat_map in I as (x & Ix & I). eapply (asked_given x); [|exact I]. apply in_flat_map. exists e. auto.
      + destruct I as [[= <- _] | []]. apply in_or_app. right. destruct (e_names e); cbn; tauto.
  Qed.
  Lemma words_independent : SymbolMoreFacts.Independent (made_up ++ short_names b).
  Proof.
    intros x y d Ix Iy E Hd. apply in_app_or in Iy as [Iy | Iy].
    - pose proof made_up_digits as M. rewrite Forall_forall in M. exact (no_digit_end x y d (M y Iy) E Hd).
    - apply in_app_or in Ix as [Ix | Ix]; [|exact (cv_independent _ Hb x y d Ix Iy E Hd)]. exfalso. pose proof (cv_shorts _ Hb) as S1. rewrite Forall_forall in S1. destruct (S1 y Iy) as (S2 & _). apply S2. exists x, d. auto.
  Qed.
  Lemma given_nodup : NoDup (map snd given).
  Proof.
    apply SymbolMoreFacts.numbered_nodup; [apply given_entries|]. intros x y d Ix Iy. apply words_independent; [apply in_map_iff in Ix as ([p q] & <- & I)|apply in_map_iff in Iy as ([p q] & <- & I)]; exact (given_base _ _ I).
  Qed.
  Lemma given_tail base n : In (base, n) given -> exists d, forallb is_digit d = true /\ n = base ++ d.
  Proof. intros I. destruct (SymbolMoreFacts.numbered_member given (proj1 given_entries) _ _ I) as (k & _ & ->). rewrite SymbolMoreFacts.unique_tail. eexists. split; [apply SymbolMoreFacts.tail_digits|reflexivity]. Qed.
  Lemma given_from base n : In (base, n) given -> numbered_from (made_up ++ short_names b) n.
  Proof. intros I. destruct (given_tail _ _ I) as (d & Hd & ->). exists base, d. split; [exact (given_base _ _ I)|]. auto. Qed.
  Lemma given_apart base base' n : In (base, n) given -> In (base', n) given -> base = base'.
  Proof.
    intros I I'. destruct (given_tail _ _ I) as (d & Hd & E). destruct (given_tail _ _ I') as (d' & Hd' & E'). rewrite E in E'. pose proof (given_base _ _ I) as B. pose proof (given_base _ _ I') as B'.
    destruct (SymbolMoreFacts.app_compare _ _ _ _ E') as [(q & Q1 & Q2) | (q & Q1 & Q2)].
    - assert (Hq : forallb is_digit q = true) by (rewrite Q2, forallb_app in Hd; apply andb_true_iff in Hd; apply Hd). pose proof (words_independent base base' q B B' Q1 Hq). subst q. rewrite app_nil_r in Q1. auto.
    - assert (Hq : forallb is_digit q = true) by (rewrite Q2, forallb_app in Hd'; apply andb_true_iff in Hd'; apply Hd'). pose proof (words_independent base' base q B' B Q1 Hq). subst q. rewrite app_nil_r in Q1. auto.
  Qed.
  Lemma given_name base n : In (base, n) given -> base <> $"root.names" -> Name n.
  Proof.
    intros I Hn. destruct (given_tail _ _ I) as (d & Hd & ->). apply name_tail; [|exact Hd]. pose proof (given_base _ _ I) as B. apply in_app_or in B as [B | B]; [apply made_up_names; assumption|].
    unfold short_names in B. apply in_map_iff in B as (f & <- & If). pose proof (cv_functions _ Hb) as F. rewrite Forall_forall in F. destruct (F f If) as (m & sig & Hm & _ & E). rewrite E, short_name; assumption.
  Qed.
  Lemma node_word base : In base node_words -> base <> $"root.names".
  Proof. intros I ->. cbn in I. repeat (destruct I as [I | I]; [discriminate|]). destruct I. Qed.
  Lemma asked_name x base n : In x (all_recorded es) -> In (base, n) (asked_node x) -> Name n.
  Proof. intros Ix I. destruct (asked_given x base n Ix I) as (G & W). eapply given_name; [exact G|]. apply node_word, W. Qed.

  (** ** Columns *)
  Definition is_stored (s n : str) : Prop := exists x st, In x (all_recorded es) /\ rn_schema x = Some (s, st) /\ In n (ns_names st).
  Definition is_new (n : str) : Prop := exists x base, In x (all_recorded es) /\ (base = $"measurename" \/ base = $"intermediate") /\ In (base, n) (asked_node x).
  Lemma own_proper x c : In x (all_recorded es) -> Own x c -> Proper is_stored is_new c.
  Proof. intros Ix [(s & st & n & E & I & ->) | (base & n & a & B & I & Ha & ->)]; [apply Pr_stored; exists x, st; auto|]. apply Pr_new; [exists x, base; auto|exact Ha]. Qed.
  Lemma schema_asked x s st : rn_schema x = Some (s, st) -> In ($"schema", s) (asked_node x).
  Proof. intros E. unfold asked_node. rewrite E. left. reflexivity. Qed.
  Lemma schema_read c s : CtxOk known c -> cx_sch c = Some s -> is_read (r_body (cx_r c)) = true /\ SchemaReads s s /\ NoDup (ns_names s).
  Proof.
    intros Hc E. pose proof (ck_ok _ _ Hc) as (_ & K). rewrite E in K. destruct (r_body (cx_r c)); try (destruct K as (_ & K & _); discriminate K). destruct K as (_ & _ & _ & _ & _ & _ & _ & _ & K). split; [reflexivity|exact K].
  Qed.
  Lemma schema_stored c s st : CtxOk known c -> rn_schema (cx c) = Some (s, st) -> cx_sch c = Some st.
  Proof. intros Hc E. pose proof (rc_schema _ _ _ _ _ _ _ _ _ (ck_recorded _ _ Hc)) as R. rewrite E in R. symmetry. exact R. Qed.
  Lemma own_texts c : In c plan_ctxs -> NoDup (map text_of_column (made_cols (cx c))).
  Proof.
    intros Ic. destruct (plan_ok c Ic) as (Hc & _). assert (Ix : In (cx c) (all_recorded es)) by (rewrite <- plan_order; apply in_map, Ic). pose proof (rc_own _ _ _ _ _ _ _ _ _ (ck_recorded _ _ Hc)) as Ho. pose proof (rc_relation _ _ _ _ _ _ _ _ _ (ck_recorded _ _ Hc)) as Er.
    assert (New : rn_schema (cx c) = None -> map text_of_column (made_cols (cx c)) = map FieldModel.c_name (made_cols (cx c))).
    { intros Es. apply map_ext_in. intros q Iq. rewrite Forall_forall in Ho. destruct (Ho q Iq) as [(s & st & n & E & _) | (base & n & a & _ & _ & Ha & ->)]; [congruence|]. apply new_text, Ha. }
    assert (NoS : is_read (r_body (cx_r c)) = false -> rn_schema (cx c) = None). { intros Hr. destruct (rn_schema (cx c)) as [[s st]|] eqn:E; [|reflexivity]. destruct (schema_read c st Hc (schema_stored c s st Hc E)) as (H & _). congruence. }
    assert (ND : NoDup (map snd (asked_node (cx c)))). { assert (P : Part (map snd (asked_node (cx c))) (map snd given)); [|eapply part_nodup; [exact P|exact given_nodup]]. apply part_map. apply in_split in Ix as (l1 & l2 & E). eapply part_trans; [|exact asked_part]. rewrite E, flat_map_app. apply part_right. cbn. apply part_left, part_refl. }
    destruct (r_body (cx_r c)) eqn:Eb; unfold made_cols in *; rewrite Er in *; cbn [r_body with_names] in *; try (cbn; constructor).
    - destruct (rn_schema (cx c)) as [[s st]|] eqn:E; [|constructor]. destruct (schema_read c st Hc (schema_stored c s st Hc E)) as (_ & _ & Nd). rewrite map_map. clear -Nd. induction Nd as [|n l Hn Nd IH]; [constructor|]. cbn [map]. constructor; [|exact IH].
      intros I. apply in_map_iff in I as (m & E & I). rewrite !stored_text in E. apply app_inv_head in E. apply app_inv_head in E. subst. contradiction.
    - rewrite (New (NoS eq_refl)), map_map. cbn. rewrite List.map_id. eapply part_nodup; [|exact ND]. unfold asked_node. rewrite Er. cbn [r_body with_names]. rewrite !map_app. apply part_right, part_right, part_left. rewrite map_map. cbn. rewrite List.map_id. apply part_refl.
    - rewrite (New (NoS eq_refl)). eapply part_nodup; [|exact ND]. unfold asked_node, made_cols. rewrite Er. cbn [r_body with_names]. rewrite !map_app. apply part_right, part_right, part_left. rewrite map_map. cbn. rewrite List.map_id. apply part_refl.
  Qed.
  Lemma tree_texts l : incl l plan_ctxs -> NoDup (map snd (flat_map asked_node (map cx l))) -> NoDup (map text_of_column (flat_map made_cols (map cx l))).
  Proof.
    induction l as [|c l IH]; intros Hi ND; [constructor|]. cbn [map flat_map] in *. rewrite map_app in ND. rewrite map_app. apply DeclFacts.nodup_app.
    - apply own_texts, Hi. left. reflexivity.
    - apply IH; [intros q I; apply Hi; right; exact I|]. eapply part_nodup; [|exact ND]. apply part_right, part_refl.
    - assert (Rec : forall q, In q (c :: l) -> In (cx q) (all_recorded es)) by (intros q I; rewrite <- plan_order; apply in_map, Hi, I).
      assert (Dot : forall q k t, In q (c :: l) -> In k (made_cols (cx q)) -> text_of_column k = t -> (exists s n, In ($"schema", s) (asked_node (cx q)) /\ Name s /\ t = s ++ $"." ++ n) \/ (exists base, In (base, t) (asked_node (cx q)) /\ Name t)).
      { intros q k t Iq Ik <-. destruct (plan_ok q (Hi q Iq)) as (Hq & _). pose proof (rc_own _ _ _ _ _ _ _ _ _ (ck_recorded _ _ Hq)) as Ho. rewrite Forall_forall in Ho. destruct (Ho k Ik) as [(s & st & n & E & _ & ->) | (base & n & a & _ & I & Ha & ->)].
        - left. exists s, n. pose proof (schema_asked _ _ _ E) as A. split; [exact A|]. split; [eapply asked_name; [apply Rec, Iq|exact A]|apply stored_text].
        - right. exists base. rewrite new_text by exact Ha. split; [exact I|]. eapply asked_name; [apply Rec, Iq|exact I]. }
      assert (Apart : forall p p' n q, In (p, n) (asked_node (cx c)) -> In q l -> In (p', n) (asked_node (cx q)) -> False).
      { intros p p' n q I Iq I'. apply (SymbolMoreFacts.NoDup_app_disj _ _ n ND); [|apply in_map_iff; exists (p, n); auto]. apply in_map_iff. exists (p', n). split; [reflexivity|]. apply in_flat_map. exists (cx q). split; [apply in_map, Iq|exact I']. }
      intros t I1 I2. apply in_map_iff in I1 as (k1 & E1 & I1). apply in_map_iff in I2 as (k2 & E2 & I2). apply in_flat_map in I2 as (x2 & Ix2 & I2). apply in_map_iff in Ix2 as (q & <- & Iq).
      destruct (Dot c k1 t (or_introl eq_refl) I1 E1) as [(s & n & A1 & A2 & A3) | (base & A1 & A2)]; destruct (Dot q k2 t (or_intror Iq) I2 E2) as [(s' & n' & B1 & B2 & B3) | (base' & B1 & B2)].
      + rewrite A3 in B3. destruct (dot_split _ _ _ _ (name_no_dot _ A2) (name_no_dot _ B2) B3) as (-> & _). eapply Apart; eassumption.
      + apply (name_no_dot _ B2). rewrite A3. apply in_or_app. right. left. reflexivity.
      + apply (name_no_dot _ A2). rewrite B3. apply in_or_app. right. left. reflexivity.
      + eapply Apart; eassumption.
  Qed.
  Lemma ctx_columns c : In c plan_ctxs -> Forall (Proper is_stored is_new) (cx_L c ++ made_cols (cx c)) /\ NoDup (map text_of_column (cx_L c ++ made_cols (cx c))).
  Proof.
    intros Ic. destruct (plan_ok c Ic) as (_ & z & Iz & Icz). destruct (combine_in z Iz) as (_ & Ie & _ & TR & _). pose proof (tr_within _ _ _ _ _ TR) as W. rewrite Forall_forall in W. destruct (W c Icz) as (L' & E). cbn [app] in E.
    assert (Sub : incl (ctxs 0 [] (fst (fst z)) (e_tree (snd z))) plan_ctxs) by (intros q I; apply in_flat_map; exists z; auto).
    assert (M : made (e_tree (snd z)) = flat_map made_cols (map cx (ctxs 0 [] (fst (fst z)) (e_tree (snd z))))) by (rewrite (tr_order _ _ _ _ _ TR); reflexivity).
    split.
    - assert (P : Forall (Proper is_stored is_new) (made (e_tree (snd z)))); [|rewrite E in P; apply Forall_app in P; apply P]. rewrite M. apply Forall_forall. intros k Ik. apply in_flat_map in Ik as (x & Ix & Ik). apply in_map_iff in Ix as (q & <- & Iq).
      destruct (plan_ok q (Sub q Iq)) as (Hq & _). pose proof (rc_own _ _ _ _ _ _ _ _ _ (ck_recorded _ _ Hq)) as Ho. rewrite Forall_forall in Ho. apply (own_proper (cx q)); [rewrite <- plan_order; apply in_map, Sub, Iq|apply Ho, Ik].
    - assert (P : NoDup (map text_of_column (made (e_tree (snd z))))); [|rewrite E, map_app in P; exact (app_nodup_l _ _ P)]. rewrite M. apply tree_texts; [exact Sub|]. rewrite (tr_order _ _ _ _ _ TR). eapply part_nodup; [|exact given_nodup]. apply part_map. eapply part_trans; [|exact asked_part].
      apply in_split in Ie as (l1 & l2 & El). rewrite asked_all, El, flat_map_app. apply part_right. cbn. apply part_left, part_refl.
  Qed.
  (** The schemas are those of the plan. *)
  Lemma schema_of x s st : In x (all_recorded es) -> rn_schema x = Some (s, st) -> exists y, In y (b_rels b) /\ In st (schemas_in (fst y)) /\ SchemaReads st st /\ NoDup (ns_names st).
  Proof.
    intros Ix E. destruct (recorded_ctx x Ix) as (c & Ic & <-). destruct (plan_ok c Ic) as (Hc & z & Iz & Icz). destruct (combine_in z Iz) as (A1 & _ & _ & _ & t & t' & R). pose proof (schema_stored c s st Hc E) as Es. exists (fst z). split; [exact A1|].
    destruct (reads_recorded (fst (fst z)) _ _ _ 0 [] R) as (<- & _). split; [apply in_flat_map; exists c; rewrite Es; cbn; auto|]. apply (schema_read c st Hc Es).
  Qed.
  Lemma source_of x s so : In x (all_recorded es) -> rn_source x = Some (s, so) -> exists y, In y (b_rels b) /\ In so (sources_in (fst y)) /\ SourceReads so so.
  Proof.
    intros Ix E. destruct (recorded_ctx x Ix) as (c & Ic & <-). destruct (plan_ok c Ic) as (Hc & z & Iz & Icz). destruct (combine_in z Iz) as (A1 & _ & _ & _ & t & t' & R).
    pose proof (rc_source _ _ _ _ _ _ _ _ _ (ck_recorded _ _ Hc)) as Rs. rewrite E in Rs. cbn in Rs. symmetry in Rs. exists (fst z). split; [exact A1|].
    destruct (reads_recorded (fst (fst z)) _ _ _ 0 [] R) as (_ & <-). split; [apply in_flat_map; exists c; rewrite Rs; cbn; auto|]. pose proof (ck_ok _ _ Hc) as (_ & K). rewrite Rs in K. destruct (r_body (cx_r c)); try (destruct K as (K & _); discriminate K). destruct K as (_ & _ & _ & _ & _ & _ & _ & (s' & [= <-] & K) & _). exact K.
  Qed.
  Lemma stored_names s n : is_stored s n -> Name s /\ Name n /\ ~ numbered_from (made_up ++ short_names b) n /\ endsWith n enum_suffix = false /\ not_null s.
  Proof.
    intros (x & st & Ix & E & I). destruct (schema_of x s st Ix E) as (y & Iy & Is & SR & _). pose proof (schema_asked _ _ _ E) as A. split; [eapply asked_name; eassumption|]. split; [inversion SR; subst; cbn in I; rewrite Forall_forall in *; auto|].
    destruct (cv_columns _ Hb y st n Iy Is I) as (C1 & C2). split; [exact C1|]. split; [exact C2|]. destruct (given_tail _ _ (proj1 (asked_given x _ _ Ix A))) as (d & _ & ->). split; [|intros r]; cbn; discriminate.
  Qed.
  Lemma new_names n : is_new n -> Name n /\ not_null n /\ endsWith n enum_suffix = false /\ numbered_from (made_up ++ short_names b) n.
  Proof.
    intros (x & base & Ix & B & I). split; [eapply asked_name; eassumption|]. destruct (asked_given x _ _ Ix I) as (G & _). split; [|split; [|exact (given_from _ _ G)]]; destruct (given_tail _ _ G) as (d & Hd & ->).
    - destruct B as [-> | ->]; (split; [|intros r]; cbn; discriminate).
    - destruct (endsWith (base ++ d) enum_suffix) eqn:E; [|reflexivity]. exfalso. apply endsWith_iff in E as (c & r & E). assert (X : In "_"%char (base ++ d)) by (rewrite E; right; apply in_or_app; right; left; reflexivity).
      apply in_app_or in X as [X | X]; [destruct B as [-> | ->]; cbn in X; repeat (destruct X as [X | X]; [discriminate|]); destruct X|]. rewrite forallb_forall in Hd. specialize (Hd _ X). discriminate Hd.
  Qed.
End Names.
