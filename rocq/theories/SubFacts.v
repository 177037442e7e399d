(** Which relations the subqueries of a text stand for. *)
From Coq Require Import Permutation Lia.
From Verif Require Import Base BaseFacts StringsModel StringsFacts TypeModel LexModel NameModel ExprModel ExprFacts FirstFacts ResolveFacts RelModel RelFacts RelReadFacts SectionModel WholeModel SoundFacts.
From Verif Require FieldModel DeclModel PipeModel TreeModel SubModel.

(** * Specification *)
Definition of_option {A B} (f : A -> list B) (x : option A) : list B := match x with Some a => f a | None => [] end.
(** The relations of the subqueries of an expression, those of the operands first *)
Fixpoint e_subs (e : expr) : list (option str) :=
  match e with
  | EFun _ args _ _ _ => flat_map (fun a => match a with AValue x => e_subs x | _ => [] end) args
  | EIfThen ifs els => flat_map (fun c : option expr * option expr => let '(i, t) := c in of_option e_subs i ++ of_option e_subs t) ifs ++ of_option e_subs els
  | ECast x _ _ => e_subs x
  | EScalar r | ESet _ r => [r]
  | EIn l r => flat_map e_subs l ++ [r]
  | ECompare _ _ x r => of_option e_subs x ++ [r]
  | _ => []
  end.
(** The same in the text; a name that ends in _enum is no expression if it is an argument *)
Fixpoint written (e : enode) : list str :=
  match e with
  | NConst _ | NCol _ => []
  | NFun n args _ => flat_map (fun a => let '(text, x) := a in if negb (to_lower n =s $"ifthen") && endsWith text enum_suffix then [] else written x) args
  | NCast e _ => written e
  | NScalar n | NSet _ n => [n]
  | NIn l n => flat_map written l ++ [n]
  | NCompare e _ _ n => written e ++ [n]
  end.
(** The expressions of a relation that can have subqueries, in the order of the message *)
Definition measure_subs (m : measure) : list (option str) :=
  of_option (fun f => flat_map (fun a => match a with AValue x => e_subs x | _ => [] end) (af_args f)) (m_function m) ++ of_option e_subs (m_filter m).
Definition message_subs (b : body) : list (option str) :=
  match b with
  | BProject es => flat_map e_subs es
  | BJoin _ e p => of_option e_subs e ++ of_option e_subs p
  | BAggregate gs ms => flat_map (flat_map e_subs) gs ++ flat_map measure_subs ms
  | BSort l => flat_map (fun s => e_subs (fst s)) l
  | BFilter c => of_option e_subs c
  | _ => []
  end.
(** Expressions that nothing is put into *)
Definition hidden_subs (b : body) : list (option str) :=
  match b with
  | BRead _ _ f g _ => of_option e_subs f ++ of_option e_subs g
  | BAggregate _ ms => flat_map (fun m => of_option (fun f => flat_map (fun s => e_subs (fst s)) (af_sorts f)) (m_function m)) ms
  | _ => []
  end.
(** The subqueries of a relation in the order of the text *)
Definition written_subs (n : rnode) : list str := flat_map (fun d => flat_map written (SubModel.attached_exprs d)) (n_details n).

(** * Expressions *)
Lemma each_subs {A B} (f : A -> evaluated B) (g : B -> list (option str)) (w : A -> list str) l bs : Forall (fun a => forall b, f a = Ok (b, []) -> g b = map Some (w a)) l ->
  eachE f l = Ok (bs, []) -> flat_map g bs = map Some (flat_map w l).
Proof.
  intros H. revert bs. induction H as [|a l Ha _ IH]; intros bs E; [injection E as <-; reflexivity|]. apply each_cons in E as (b & bs' & -> & Eb & Ebs). cbn [flat_map]. rewrite map_app, (Ha b Eb), (IH bs' Ebs). reflexivity.
Qed.
Lemma pairs_subs l p o : pairs_of l = (p, o) -> flat_map (fun c : option expr * option expr => let '(i, t) := c in of_option e_subs i ++ of_option e_subs t) (map (fun q => (Some (fst q), Some (snd q))) p) ++ of_option e_subs o = flat_map e_subs l.
Proof.
  revert l p o. fix IH 1. intros [|a [|b l]] p o E; cbn [pairs_of] in E.
  - injection E as <- <-. reflexivity.
  - injection E as <- <-. cbn. rewrite app_nil_r. reflexivity.
  - destruct (pairs_of l) as [p' o'] eqn:F. injection E as <- <-. cbn [map flat_map fst snd of_option]. rewrite <- (IH l p' o' F), <- !app_assoc. reflexivity.
Qed.
Lemma read_subs ff fr fc node : forall e, visitExpr ff fr fc node = Ok (e, []) -> e_subs e = map Some (written node).
Proof.
  induction node as [n args ty IH|c|t|e ty IH|n|l n IH|b n|e op b n IH] using enode_ind2; intros e' E; cbn [visitExpr written] in *.
  - destruct (to_lower n =s $"ifthen") eqn:Ei; cbn [negb andb].
    + apply bindE_ok in E as (l & El & E).
      assert (X : flat_map e_subs l = map Some (flat_map (fun a : str * enode => let '(_, x) := a in written x) args)).
      { revert El. apply each_subs. rewrite Forall_forall in *. intros [s x] Hin. exact (IH _ Hin). }
      destruct l as [|a l]; [injection E as <-; cbn [e_subs]; exact X|]. destruct (pairs_of (a :: l)) as [p o] eqn:Fp. injection E as <-. cbn [e_subs]. rewrite (pairs_subs _ _ _ Fp). exact X.
    + apply bindE_ok in E as (f & Ef & E). apply bindE_ok in E as (l & El & E). apply bindE_ok in E as (ty' & _ & E). injection E as <-. cbn [e_subs].
      revert El. apply each_subs. rewrite Forall_forall in *. intros [s x] Hin b. destruct (endsWith s enum_suffix); [intros X; injection X as <-; reflexivity|]. intros X. apply bindE_ok in X as (y & Hy & X). injection X as <-. exact (IH _ Hin _ Hy).
  - apply bindE_ok in E as (l & _ & E). injection E as <-. reflexivity.
  - destruct (fc t) as [[s f]|]; [|discriminate]. injection E as <-. reflexivity.
  - apply bindE_ok in E as (x & Ex & E). apply bindE_ok in E as (ty' & _ & E). injection E as <-. exact (IH x Ex).
  - apply subquery_found in E as [-> E]. reflexivity.
  - destruct (fr n) eqn:F; [|discriminate]. apply bindE_ok in E as (es & Ees & E). apply subquery_found in E as [-> E]. cbn [e_subs]. rewrite map_app. f_equal. revert Ees. apply each_subs. exact IH.
  - apply subquery_found in E as [-> E]. reflexivity.
  - apply bindE_ok in E as (x & Ex & E). apply subquery_found in E as [-> E]. cbn [e_subs of_option]. rewrite map_app, (IH x Ex). reflexivity.
Qed.
Lemma length_flat {A B} (f : A -> list B) l : length (flat_map f l) = list_sum (map (fun a => length (f a)) l).
Proof. induction l as [|a l IH]; [reflexivity|]. cbn [flat_map map list_sum fold_right]. rewrite app_length, IH. reflexivity. Qed.
Lemma sum_ext {A} (f g : A -> nat) l : Forall (fun a => f a = g a) l -> list_sum (map f l) = list_sum (map g l).
Proof. induction 1 as [|a l H _ IH]; [reflexivity|]. cbn. unfold list_sum in IH. rewrite H, IH. reflexivity. Qed.
Lemma seen_written e : SubModel.seen_in e = length (written e).
Proof.
  induction e as [n args ty IH|c|t|e ty IH|n|l n IH|b n|e op b n IH] using enode_ind2; cbn [SubModel.seen_in written]; try reflexivity; try assumption.
  - rewrite length_flat. apply sum_ext. eapply Forall_impl; [|exact IH]. intros [s x] Hx. cbn [snd] in Hx. destruct (_ && _); [reflexivity|exact Hx].
  - rewrite app_length, length_flat. cbn [length]. rewrite Nat.add_comm. cbn [Nat.add]. f_equal. apply sum_ext. exact IH.
  - rewrite app_length. cbn [length]. lia.
Qed.
Lemma node_seen n : list_sum (map (fun d => list_sum (map SubModel.seen_in (SubModel.attached_exprs d))) (n_details n)) = length (written_subs n).
Proof.
  unfold written_subs. rewrite length_flat. apply sum_ext. apply Forall_forall. intros d _. rewrite length_flat. apply sum_ext. apply Forall_forall. intros e _. apply seen_written.
Qed.

(** * Putting relations in *)
Definition named (x : option str) : Prop := x <> None.
Definition fits {A} (f : list str -> A -> A * list str) (g : A -> list (option str)) (a : A) : Prop :=
  forall l' l, length l' = length (g a) -> Forall named (g a) -> exists a', f (l' ++ l) a = (a', l) /\ g a' = map Some l' /\ (g a = map Some l' -> a' = a).
Lemma split_at {A} (l : list A) n m : length l = n + m -> exists a b, l = a ++ b /\ length a = n /\ length b = m.
Proof.
  intros H. exists (firstn n l), (skipn n l). rewrite firstn_skipn. split; [reflexivity|]. rewrite firstn_length, skipn_length. lia.
Qed.
Lemma app_split {A} (a b c d : list A) : length a = length c -> a ++ b = c ++ d -> a = c /\ b = d.
Proof. revert c. induction a as [|x a IH]; intros [|y c] L E; try discriminate L; [auto|]. cbn [app] in E. injection E as -> E. injection L as L. destruct (IH c L E) as [-> ->]. auto. Qed.
Lemma fits_two {A B C} (f : list str -> A -> A * list str) (f' : list str -> B -> B * list str) g g' (k : A -> B -> C) (F : list str -> C -> C * list str) G a b :
  fits f g a -> fits f' g' b -> (forall a b, G (k a b) = g a ++ g' b) -> (forall l, F l (k a b) = let '(x, l) := f l a in let '(y, l) := f' l b in (k x y, l)) -> fits F G (k a b).
Proof.
  intros Ha Hb HG HF l' l L N. rewrite HG in *. rewrite app_length in L. apply split_at in L as (l1 & l2 & -> & L1 & L2). apply Forall_app in N as [N1 N2].
  destruct (Ha l1 (l2 ++ l) L1 N1) as (a' & E1 & G1 & I1). destruct (Hb l2 l L2 N2) as (b' & E2 & G2 & I2). exists (k a' b'). rewrite HF, <- app_assoc, E1, E2. split; [reflexivity|]. rewrite HG, G1, G2, map_app. split; [reflexivity|].
  intros E. apply app_split in E as [E3 E4]; [|rewrite map_length; congruence]. rewrite (I1 E3), (I2 E4). reflexivity.
Qed.
Lemma fits_one {A C} (f : list str -> A -> A * list str) g (k : A -> C) (F : list str -> C -> C * list str) G a :
  fits f g a -> (forall a, G (k a) = g a) -> (forall l, F l (k a) = let '(x, l) := f l a in (k x, l)) -> fits F G (k a).
Proof.
  intros Ha HG HF l' l L N. rewrite HG in *. destruct (Ha l' l L N) as (a' & E1 & G1 & I1). exists (k a'). rewrite HF, E1, HG. repeat split; auto. intros E. rewrite (I1 E). reflexivity.
Qed.
Lemma fits_nothing {A} (F : list str -> A -> A * list str) G a : G a = [] -> (forall l, F l a = (a, l)) -> fits F G a.
Proof. intros HG HF l' l L N. rewrite HG in L. destruct l'; [|discriminate]. exists a. rewrite HF, HG. auto. Qed.
Lemma fits_through {A} (f : list str -> A -> A * list str) g l : Forall (fits f g) l -> fits (SubModel.through f) (flat_map g) l.
Proof.
  induction 1 as [|a l Ha _ IH]; [apply fits_nothing; reflexivity|]. apply (fits_two f (SubModel.through f) g (flat_map g) (fun a l => a :: l)); auto.
Qed.
Lemma fits_take kept : forall r, fits (fun l r => SubModel.take l r (kept r)) (fun r => [r]) r.
Proof.
  intros r [|n [|n' l']] l L N; try discriminate L. inversion N as [|? ? Nr _]; subst. destruct r as [r|]; [|contradiction]. exists (Some n). repeat split. intros E. injection E as ->. reflexivity.
Qed.
Definition arg_subs (a : arg expr) : list (option str) := match a with AValue x => e_subs x | _ => [] end.
Lemma fits_option o : (forall e, o = Some e -> fits SubModel.relabel e_subs e) -> fits SubModel.relabel_option (of_option e_subs) o.
Proof.
  intros H. destruct o as [e|]; [|apply fits_nothing; reflexivity]. apply (fits_one SubModel.relabel e_subs (fun e => Some e)); auto.
Qed.
Lemma relabel_fun l f args dep opts ty : SubModel.relabel l (EFun f args dep opts ty) = let '(args, l) := SubModel.through SubModel.relabel_arg l args in (EFun f args dep opts ty, l).
Proof.
  cbn [SubModel.relabel]. match goal with |- (let '(_, _) := ?x in _) = (let '(_, _) := ?y in _) => assert (E : x = y); [|rewrite E; reflexivity] end.
  revert l. induction args as [|a args IH]; intros l; [reflexivity|]. cbn [SubModel.through]. destruct a as [e| | |]; cbn [SubModel.relabel_arg]; [destruct (SubModel.relabel l e) as [e' l1]|..]; rewrite <- IH; reflexivity.
Qed.
Lemma relabel_in l xs r : SubModel.relabel l (EIn xs r) = let '(xs, l) := SubModel.through SubModel.relabel l xs in let '(r, l) := SubModel.take l r None in (EIn xs r, l).
Proof.
  cbn [SubModel.relabel]. match goal with |- (let '(_, _) := ?x in _) = (let '(_, _) := ?y in _) => assert (E : x = y); [|rewrite E; reflexivity] end.
  revert l. induction xs as [|x xs IH]; intros l; [reflexivity|]. cbn [SubModel.through]. destruct (SubModel.relabel l x) as [x' l1]. rewrite <- IH. reflexivity.
Qed.
Definition relabel_branch (l : list str) (c : option expr * option expr) : (option expr * option expr) * list str :=
  let '(a, l) := SubModel.relabel_option l (fst c) in let '(b, l) := SubModel.relabel_option l (snd c) in ((a, b), l).
Lemma relabel_if l ifs els : SubModel.relabel l (EIfThen ifs els) = let '(ifs, l) := SubModel.through relabel_branch l ifs in let '(els, l) := SubModel.relabel_option l els in (EIfThen ifs els, l).
Proof.
  cbn [SubModel.relabel]. match goal with |- (let '(_, _) := ?x in _) = (let '(_, _) := ?y in _) => assert (E : x = y); [|rewrite E; reflexivity] end.
  revert l. induction ifs as [|[a b] ifs IH]; intros l; [reflexivity|]. cbn [SubModel.through]. unfold relabel_branch at 1. cbn [fst snd]. unfold SubModel.relabel_option.
  destruct a as [a|]; [destruct (SubModel.relabel l a) as [a' l1]|]; (destruct b as [b|]; [destruct (SubModel.relabel _ b) as [b' l2]|]); rewrite <- IH; reflexivity.
Qed.
Lemma relabel_compare l op red x r : SubModel.relabel l (ECompare op red x r) = let '(x, l) := SubModel.relabel_option l x in let '(r, l) := SubModel.take l r None in (ECompare op red x r, l).
Proof. reflexivity. Qed.
Lemma relabel_fits e : fits SubModel.relabel e_subs e.
Proof.
  induction e as [|l|s r|r|r|f args deprecated options ty Ha Hd|ifs els Hi He|e ty f IH|n|l n Hl|q n|op red e n He|u] using PrintFacts.expr_ind2; try (apply fits_nothing; reflexivity).
  - apply (fits_one (SubModel.through SubModel.relabel_arg) (flat_map arg_subs) (fun a => EFun f a deprecated options ty)); [|reflexivity|intros l; apply relabel_fun]. apply fits_through. eapply Forall_impl; [|exact Ha].
    intros [x|s|t|] Hx; try (apply fits_nothing; reflexivity). apply (fits_one SubModel.relabel e_subs (fun x => AValue x)); auto.
  - apply (fits_two (SubModel.through relabel_branch) SubModel.relabel_option (flat_map (fun c : option expr * option expr => let '(i, t) := c in of_option e_subs i ++ of_option e_subs t)) (of_option e_subs) (fun a b => EIfThen a b)); [|apply fits_option; exact He|reflexivity|intros l; apply relabel_if].
    apply fits_through. eapply Forall_impl; [|exact Hi]. intros [i t] [H1 H2]. cbn [fst snd] in *. apply (fits_two SubModel.relabel_option SubModel.relabel_option (of_option e_subs) (of_option e_subs) (fun a b => (a, b))); [apply fits_option; exact H1|apply fits_option; exact H2|reflexivity|reflexivity].
  - apply (fits_one SubModel.relabel e_subs (fun x => ECast x ty f)); auto.
  - apply (fits_one (fun l r => SubModel.take l r r) (fun r => [r]) (fun x => EScalar x)); [apply (fits_take (fun r => r))|reflexivity|reflexivity].
  - apply (fits_two (SubModel.through SubModel.relabel) (fun l r => SubModel.take l r None) (flat_map e_subs) (fun r => [r]) (fun a b => EIn a b)); [apply fits_through; exact Hl|apply (fits_take (fun _ => None))|reflexivity|intros x; apply relabel_in].
  - apply (fits_one (fun l r => SubModel.take l r None) (fun r => [r]) (fun x => ESet q x)); [apply (fits_take (fun _ => None))|reflexivity|reflexivity].
  - apply (fits_two SubModel.relabel_option (fun l r => SubModel.take l r None) (of_option e_subs) (fun r => [r]) (fun a b => ECompare op red a b)); [apply fits_option; exact He|apply (fits_take (fun _ => None))|reflexivity|reflexivity].
Qed.
Lemma relabel_none e : e_subs e = [] -> forall l, SubModel.relabel l e = (e, l).
Proof. intros H l. destruct (relabel_fits e [] l) as (e' & E & _ & I); [rewrite H; reflexivity|rewrite H; constructor|]. cbn [app] in E. rewrite E, (I H). reflexivity. Qed.
Lemma sorts_none ss : flat_map (fun s : sort => e_subs (fst s)) ss = [] -> map (fun s : sort => (fst (SubModel.relabel [] (fst s)), snd s)) ss = ss.
Proof.
  induction ss as [|[e d] ss IH]; [reflexivity|]. cbn [flat_map fst map snd]. intros H. apply app_eq_nil in H as [H1 H2]. rewrite (relabel_none e H1), (IH H2). reflexivity.
Qed.
Definition sorted_plain (m : measure) : Prop := of_option (fun f => flat_map (fun s => e_subs (fst s)) (af_sorts f)) (m_function m) = [].
(** For measures, without their sorts *)
Definition mfits (m : measure) : Prop :=
  forall l' l, length l' = length (measure_subs m) -> Forall named (measure_subs m) -> exists m', SubModel.relabel_measure (l' ++ l) m = (m', l) /\ measure_subs m' = map Some l' /\
    (measure_subs m = map Some l' -> sorted_plain m -> m' = m).
Lemma args_fit args : fits (SubModel.through SubModel.relabel_arg) (flat_map arg_subs) args.
Proof. apply fits_through. apply Forall_forall. intros [x|s|t|] _; try (apply fits_nothing; reflexivity). apply (fits_one SubModel.relabel e_subs (fun x => AValue x)); auto using relabel_fits. Qed.
Lemma option_fits o : fits SubModel.relabel_option (of_option e_subs) o.
Proof. apply fits_option. intros e _. apply relabel_fits. Qed.
Lemma measure_fits m : mfits m.
Proof.
  destruct m as [f c]. intros l' l L N. unfold measure_subs in *. cbn [m_function m_filter] in *. rewrite app_length in L. apply split_at in L as (l1 & l2 & -> & L1 & L2). apply Forall_app in N as [N1 N2].
  destruct (option_fits c l2 l L2 N2) as (c' & E2 & G2 & I2). unfold SubModel.relabel_measure. cbn [m_function m_filter]. rewrite <- app_assoc. destruct f as [f|]; cbn [of_option] in *.
  - destruct (args_fit (af_args f) l1 (l2 ++ l) L1 N1) as (a' & E1 & G1 & I1). rewrite E1, E2. eexists. split; [reflexivity|]. cbn [m_function m_filter of_option af_args]. change (flat_map (fun a => match a with AValue x => e_subs x | _ => [] end) a') with (flat_map arg_subs a').
    rewrite G1, G2, map_app. split; [reflexivity|]. intros E P. apply app_split in E as [E3 E4]; [|rewrite map_length; congruence]. rewrite (I1 E3), (I2 E4). unfold sorted_plain in P. cbn [m_function of_option] in P. f_equal. f_equal. destruct f as [r a dp op t ph v ss]. cbn [af_ref af_args af_deprecated af_options af_type af_phase af_invocation af_sorts] in *. f_equal. exact (sorts_none ss P).
  - destruct l1; [|discriminate]. cbn [app]. rewrite E2. eexists. split; [reflexivity|]. cbn [m_function m_filter of_option app map]. split; [exact G2|]. intros E _. rewrite (I2 E). reflexivity.
Qed.
Lemma measures_fit ms : forall l' l, length l' = length (flat_map measure_subs ms) -> Forall named (flat_map measure_subs ms) -> exists ms', SubModel.through SubModel.relabel_measure (l' ++ l) ms = (ms', l) /\ flat_map measure_subs ms' = map Some l' /\
    (flat_map measure_subs ms = map Some l' -> Forall sorted_plain ms -> ms' = ms).
Proof.
  induction ms as [|m ms IH]; intros l' l L N; cbn [flat_map] in *.
  - destruct l'; [|discriminate]. exists []. auto.
  - rewrite app_length in L. apply split_at in L as (l1 & l2 & -> & L1 & L2). apply Forall_app in N as [N1 N2]. destruct (measure_fits m l1 (l2 ++ l) L1 N1) as (m' & E1 & G1 & I1). destruct (IH l2 l L2 N2) as (ms' & E2 & G2 & I2).
    cbn [SubModel.through]. rewrite <- app_assoc, E1, E2. eexists. split; [reflexivity|]. cbn [flat_map]. rewrite G1, G2, map_app. split; [reflexivity|]. intros E P. apply app_split in E as [E3 E4]; [|rewrite map_length; congruence]. inversion P; subst. rewrite I1, I2; auto.
Qed.
Lemma body_fits b l : length l = length (message_subs b) -> Forall named (message_subs b) ->
  message_subs (SubModel.relabel_body l b) = map Some l /\ (message_subs b = map Some l -> hidden_subs b = [] -> SubModel.relabel_body l b = b).
Proof.
  intros L N. rewrite <- (app_nil_r l). destruct b as [so sc f g p|cd|o ct|gs ms|l0|l0|t0 e0 p0| |nm]; cbn [SubModel.relabel_body message_subs hidden_subs] in *.
  - destruct l; [|discriminate]. split; [reflexivity|]. intros _ H. apply app_eq_nil in H as [H1 H2]. destruct f as [f|]; cbn [SubModel.relabel_option of_option] in *; [rewrite (relabel_none _ H1)|]; (destruct g as [g|]; cbn [SubModel.relabel_option of_option] in *; [rewrite (relabel_none _ H2)|]); reflexivity.
  - destruct (option_fits cd l [] L N) as (c' & E & G & I). rewrite E. cbn [fst]. rewrite app_nil_r. split; [exact G|]. intros X _. rewrite (I X). reflexivity.
  - destruct l; [|discriminate]. auto.
  - rewrite app_length in L. apply split_at in L as (l1 & l2 & -> & L1 & L2). apply Forall_app in N as [N1 N2].
    assert (Fg : fits (SubModel.through (SubModel.through SubModel.relabel)) (flat_map (flat_map e_subs)) gs) by (apply fits_through, Forall_forall; intros g _; apply fits_through, Forall_forall; intros e _; apply relabel_fits).
    destruct (Fg l1 (l2 ++ []) L1 N1) as (g' & E1 & G1 & I1). destruct (measures_fit ms l2 [] L2 N2) as (ms' & E2 & G2 & I2). rewrite <- !app_assoc, E1, E2. cbn [fst message_subs]. rewrite G1, G2, !map_app, app_nil_r. split; [reflexivity|].
    intros E P. apply app_split in E as [E3 E4]; [|rewrite map_length; congruence]. rewrite (I1 E3), I2; [reflexivity|exact E4|]. clear -P. induction ms as [|m ms IH]; [constructor|]. cbn [flat_map] in P. apply app_eq_nil in P as [P1 P2]. constructor; [exact P1|exact (IH P2)].
  - assert (Fs : fits (SubModel.through (fun l s => let '(x, l) := SubModel.relabel l (fst s) in ((x, snd s), l))) (flat_map (fun s : sort => e_subs (fst s))) l0).
    { apply fits_through, Forall_forall. intros [e d] _. apply (fits_one SubModel.relabel e_subs (fun x => (x, d))); [apply relabel_fits|reflexivity|reflexivity]. }
    destruct (Fs l [] L N) as (s' & E & G & I). rewrite E. cbn [fst message_subs]. rewrite app_nil_r. split; [exact G|]. intros X _. rewrite (I X). reflexivity.
  - assert (Fs : fits (SubModel.through SubModel.relabel) (flat_map e_subs) l0) by (apply fits_through, Forall_forall; intros e _; apply relabel_fits).
    destruct (Fs l [] L N) as (s' & E & G & I). rewrite E. cbn [fst message_subs]. rewrite app_nil_r. split; [exact G|]. intros X _. rewrite (I X). reflexivity.
  - rewrite app_length in L. apply split_at in L as (l1 & l2 & -> & L1 & L2). apply Forall_app in N as [N1 N2].
    destruct (option_fits e0 l1 (l2 ++ []) L1 N1) as (e' & E1 & G1 & I1). destruct (option_fits p0 l2 [] L2 N2) as (p' & E2 & G2 & I2). rewrite <- !app_assoc, E1, E2. cbn [fst message_subs]. rewrite G1, G2, !map_app, app_nil_r. split; [reflexivity|].
    intros E P. apply app_split in E as [E3 E4]; [|rewrite map_length; congruence]. rewrite (I1 E3), (I2 E4). reflexivity.
  - destruct l; [|discriminate]. auto.
  - destruct l; [|discriminate]. auto.
Qed.

(** * Details *)
Section Detail.
  Variables (ff : str -> option N) (fr : str -> option bool) (fc : nat -> nat -> str -> option (N * Z)) (columns : nat) (ks ksch : str -> bool).
  Lemma reads_subs i j e x : reads ff fr fc i j e x -> e_subs x = map Some (written e).
  Proof. unfold reads, visitE. destruct (known ff fc i j e) as [[|]| |]; cbn [obind]; try discriminate. rewrite lift_clean. apply read_subs. Qed.
  Lemma group_subs x y : GroupSays columns x y -> e_subs y = e_subs x.
  Proof. intros G. inversion G; subst; reflexivity. Qed.
  Lemma sort_subs i j e b s : SortSays ff fr fc i j e b s -> e_subs (fst s) = map Some (written e).
  Proof. intros H. inversion H; subst; cbn [fst]; eapply reads_subs; eassumption. Qed.
  Definition function_subs (f : aggregate_function) : list (option str) := flat_map arg_subs (af_args f).
  Definition shown (m : mdetail) : list enode := match m with MSort _ _ => [] | m => SubModel.mdetail_exprs m end.
  Lemma items_subs i j l items : ForallAt (fun j => MeasureItem ff fr fc i j) j l items ->
    Permutation (flat_map function_subs (functions items) ++ flat_map e_subs (conditions items)) (map Some (flat_map written (flat_map shown l))).
  Proof.
    intros H. induction H as [|j d l x items M _ IH]; [constructor|]. unfold functions, conditions in *. cbn [flat_map] in *. rewrite !flat_map_app, map_app. inversion M; subst; cbn [shown SubModel.mdetail_exprs flat_map app map]; rewrite ?app_nil_r; try exact IH.
    - apply reads_subs in H. cbn [e_subs] in H. unfold function_subs at 1. cbn [af_args]. change (flat_map arg_subs args = map Some (written e)) in H. rewrite H, <- app_assoc. apply Permutation_app_head. exact IH.
    - apply reads_subs in H. rewrite H. rewrite app_assoc. rewrite (Permutation_app_comm _ (map Some (written e))), <- app_assoc. apply Permutation_app_head. exact IH.
  Qed.
  Lemma one_hd {A B} (f : A -> list B) l : at_most_one l -> of_option f (hd_error l) = flat_map f l.
  Proof. intros H. destruct l as [|a [|b l]]; cbn; [reflexivity|rewrite app_nil_r; reflexivity|]. unfold at_most_one in H. cbn in H. lia. Qed.
  Lemma says_subs i l m : MeasureSays ff fr fc i l m -> Permutation (measure_subs m) (map Some (flat_map written (flat_map shown l))).
  Proof.
    intros H. inversion H as [? items f Hi H1 H2 Hf]; subst. rewrite <- (items_subs i 0 l items Hi). unfold measure_subs. cbn [m_function m_filter]. rewrite (one_hd e_subs _ H2), <- (one_hd function_subs _ H1).
    apply Permutation_app_tail. inversion Hf as [E1 E2 E3 E4|v s Hs E1 E2 E3 E4|g args options t ph v s E1 E2 E3 E4]; cbn [of_option af_args flat_map]; auto.
  Qed.
  Lemma move_last {A} (a b c : list A) : Permutation (a ++ c ++ b) ((a ++ b) ++ c).
  Proof. rewrite <- app_assoc. apply Permutation_app_head, Permutation_app_comm. Qed.
  Lemma detail_subs i b d b' : head b <> 0 -> visitDetail ff fr fc columns ks ksch i b d = Ok (b', []) ->
    Permutation (message_subs b') (message_subs b ++ map Some (flat_map written (SubModel.attached_exprs d))).
  Proof.
    intros Hb H. apply detail_iff in H as (x & I & A). inversion I; subst; cbn [add] in A; destruct b as [so sc f g p|cd|o ct|gs ms|l0|l0|t0 e0 p0| |nm]; try discriminate A; try (exfalso; apply Hb; reflexivity);
      repeat match goal with A : match ?o with _ => _ end = Some _ |- _ => destruct o; try discriminate A end; injection A as <-; cbn [SubModel.attached_exprs SubModel.detail_exprs flat_map map app message_subs of_option]; rewrite ?app_nil_r; auto.
    all: try match goal with H : reads ff fr fc _ _ _ _ |- _ => apply reads_subs in H as R; rewrite <- R end.
    all: try (cbn [app]; reflexivity).
    - rewrite flat_map_app. cbn [flat_map]. rewrite app_nil_r. reflexivity.
    - apply Permutation_app_comm.
    - rewrite <- (group_subs _ _ H0). destruct gs as [|g gs]; cbn [add_group flat_map]; rewrite ?app_nil_r; [apply Permutation_app_comm|]. rewrite flat_map_app. cbn [flat_map]. rewrite app_nil_r, <- !app_assoc. apply Permutation_app_head.
      rewrite (Permutation_app_comm (e_subs y)), <- app_assoc. reflexivity.
    - rewrite flat_map_app. cbn [flat_map]. rewrite app_nil_r, <- app_assoc. apply Permutation_app_head, Permutation_app_head. exact (says_subs _ _ _ H).
    - rewrite flat_map_app. cbn [flat_map]. rewrite app_nil_r, <- (sort_subs _ _ _ _ _ H). reflexivity.
  Qed.
End Detail.
Section Node.
  Variables (ff : str -> option N) (fr : str -> option bool) (kn : str -> bool) (ss : FieldModel.schemas) (ag : bool) (fields : list FieldModel.column) (outs : list FieldModel.scope) (inner : bool).
  Lemma track_subs ds : forall i g b b' g', head b <> 0 -> SubModel.track ff fr kn ss ag fields outs inner i g b ds = Ok ((b', g'), []) ->
    head b' = head b /\ Permutation (message_subs b') (message_subs b ++ map Some (flat_map (fun d => flat_map written (SubModel.attached_exprs d)) ds)).
  Proof.
    induction ds as [|d ds IH]; intros i g b b' g' Hb H; cbn [SubModel.track] in H; [apply fine_inj in H; injection H as <- <-; cbn; rewrite app_nil_r; auto|]. apply bindR_clean in H as (b1 & H1 & H).
    assert (Hh : head b1 = head b) by (apply detail_iff in H1 as (x & _ & A); exact (add_head _ _ _ _ _ A)). rewrite <- Hh in Hb. apply IH in H as [K P]; [|exact Hb]. split; [congruence|]. rewrite Hh in Hb. pose proof (detail_subs _ _ _ _ _ _ _ _ _ _ Hb H1) as Q. rewrite P. cbn [flat_map]. rewrite map_app, app_assoc. apply Permutation_app_tail. exact Q.
  Qed.
  Variable F : N -> Prop.
  Hypothesis HF : forall n f, ff n = Some f -> F f.
  Lemma strack_functions ds : forall i g b b' g', all_use F (fun _ => True) b -> SubModel.track ff fr kn ss ag fields outs inner i g b ds = Ok ((b', g'), []) -> all_use F (fun _ => True) b' /\ kind_name b' = kind_name b.
  Proof.
    induction ds as [|d ds IH]; intros i g b b' g' U H; cbn [SubModel.track] in H; [apply fine_inj in H; injection H as <- <-; split; [exact U|reflexivity]|]. apply bindR_clean in H as (b1 & H1 & H).
    assert (K : kind_name b1 = kind_name b) by (apply detail_iff in H1 as (x & _ & A); exact (add_kind _ _ _ _ _ A)). rewrite <- K. apply (IH _ _ _ _ _ (detail_use F (fun _ => True) ff fr _ _ _ _ HF i b d b1 (fun _ _ _ _ _ => I) U H1) H).
  Qed.
End Node.
