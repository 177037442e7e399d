(** Expressions with subqueries in the two passes of the parser. *)
From Verif Require Import Base BaseFacts EscapeModel StringsModel StringsFacts TypeModel LexModel NameModel NameFacts FloatModel EnumModel DecimalModel CalendarModel TimeModel ExprModel TypeTokenFacts LiteralFacts ExprFacts.
From Coq Require Import Lia.

(** * Specification *)
(** Whether something is known of the expression as long as the relations of subqueries are not: it is no scalar subquery, no membership and no predicate, and neither is what is
    cast or compared, nor a part of a condition.  Arguments of functions do not matter. *)
Fixpoint direct (e : expr) : bool :=
  match e with
  | EScalar _ | EIn _ _ | ESet _ _ => false
  | ECast e _ _ => direct e
  | ECompare _ _ (Some e) _ => direct e
  | EIfThen ifs els =>
      forallb (fun c => match c with (Some i, Some t) => direct i && direct t | _ => true end) ifs && match els with Some e => direct e | None => true end
  | _ => true
  end.

(** * Induction *)
Section Induction.
  Variable P : enode -> Prop.
  Hypothesis HF : forall n args ty, Forall (fun a => P (snd a)) args -> P (NFun n args ty).
  Hypothesis HC : forall c, P (NConst c).
  Hypothesis HL : forall t, P (NCol t).
  Hypothesis HK : forall e ty, P e -> P (NCast e ty).
  Hypothesis HQ : forall n, P (NScalar n).
  Hypothesis HN : forall l n, Forall P l -> P (NIn l n).
  Hypothesis HS : forall b n, P (NSet b n).
  Hypothesis HM : forall e op b n, P e -> P (NCompare e op b n).
  Fixpoint enode_ind2 (e : enode) : P e.
  Proof.
    destruct e as [n args ty|c|t|e ty|n|l n|b n|e op b n]; [apply HF|apply HC|apply HL|apply HK, enode_ind2|apply HQ|apply HN|apply HS|apply HM, enode_ind2].
    - induction args as [|[s x] args IH]; constructor; [apply enode_ind2|exact IH].
    - induction l as [|x l IH]; constructor; [apply enode_ind2|exact IH].
  Qed.
End Induction.

(** Columns that are not there are reported by the last pass only. *)
Definition column_error (e : eerr) : bool := match e with XNoField _ => true | _ => false end.
Definition but_columns {A} (x : evaluated A) : evaluated A := a <- x ;; Ok (fst a, filter (fun e => negb (column_error e)) (snd a)).
(** No constant and no type has such an error. *)
Definition columnless {A} (x : evaluated A) : Prop := forall a l, x = Ok (a, l) -> forallb (fun e => negb (column_error e)) l = true.
Lemma cl_ok {A} (a : A) l : forallb (fun e => negb (column_error e)) l = true -> columnless (Ok (a, l)).
Proof. intros H b m E. injection E as _ <-. exact H. Qed.
Lemma cl_good {A} (a : A) : columnless (good a).
Proof. apply cl_ok. reflexivity. Qed.
Lemma cl_throw {A} x : columnless (A := A) (Throw x).
Proof. intros a l E. discriminate E. Qed.
Lemma cl_ub {A} : columnless (A := A) UB.
Proof. intros a l E. discriminate E. Qed.
Lemma cl_bind {A B} (x : evaluated A) (f : A -> evaluated B) : columnless x -> (forall a, columnless (f a)) -> columnless (bindE x f).
Proof.
  intros Hx Hf b l. unfold bindE. destruct x as [[a m]|y|]; cbn; try discriminate. specialize (Hx a m eq_refl). specialize (Hf a). destruct (f a) as [[c o]|y|] eqn:F; cbn; try discriminate. specialize (Hf c o eq_refl).
  intros E. injection E as _ <-. rewrite forallb_app, Hx, Hf. reflexivity.
Qed.
Lemma cl_caught {A} (o : outcome A) f : (forall a, columnless (f a)) -> columnless (caught o f).
Proof. intros H. destruct o; cbn [caught]; [apply H|apply cl_ok; reflexivity|apply cl_ub]. Qed.
Lemma map_columnless {A} (f : A -> eerr) l : (forall a, column_error (f a) = false) -> forallb (fun e => negb (column_error e)) (map f l) = true.
Proof. intros H. induction l as [|a l IH]; [reflexivity|]. cbn. rewrite H, IH. reflexivity. Qed.
Ltac columnless := repeat first
  [ solve [apply map_columnless; intros; reflexivity] | reflexivity | apply cl_good | apply cl_throw | apply cl_ub | apply cl_ok | apply cl_caught; intros ? | (rewrite forallb_app; apply andb_true_iff; split)
  | apply cl_bind; [|intros ?] ].
Lemma cl_type inside t : columnless (read_type inside t).
Proof. unfold read_type. destruct (textToTypeProto inside t) as [x|y|]; cbn [obind]; columnless. Qed.
Lemma cl_number s t : columnless (visitNumber s t).
Proof. destruct t as [|[] n|l n|l n|l n|p sc n|l n|e n|k v n|u]; cbn [visitNumber]; unfold none; columnless. destruct (isValid _); columnless. Qed.
Lemma cl_string s t : columnless (visitString s t).
Proof.
  unfold visitString, none. destruct (evalString s) as [[x errs]|]; [|columnless]. destruct t as [|[] n|l n|l n|l n|p sc n|l n|e n|k v n|u]; columnless. destruct (negb _); [columnless|]. destruct (negb _); columnless.
Qed.
Lemma cl_date s : columnless (visitDate s).
Proof. unfold visitDate, none. destruct (evalString s) as [[x errs]|]; [|columnless]. destruct (parse_date x); columnless. Qed.
Lemma cl_timestamp s : columnless (visitTimestamp s).
Proof. unfold visitTimestamp, none. destruct (evalString s) as [[x errs]|]; [|columnless]. destruct (parse_timestamp x); try (columnless; fail). match goal with |- columnless (x <- ?o ;; _) => destruct o; cbn [obind]; columnless end. Qed.
Lemma cl_time s : columnless (visitTime s).
Proof. unfold visitTime, none. destruct (evalString s) as [[x errs]|]; [|columnless]. destruct (parse_time x); columnless. Qed.
Lemma cl_const : forall c inside given, columnless (visitConst inside c given).
Proof.
  fix IH 1. intros c inside given.
  assert (X : forall t, columnless (visitConst inside c (Some t))).
  { intros t. destruct c as [s ty|s ty|ty|ty|ty|l ty|l ty].
    - exact (cl_number s t).
    - cbn [visitConst]. destruct t as [|[] n|z n|z n|z n|p sc n|z n|e n|k v n|u]; first [apply cl_date | apply cl_timestamp | apply cl_time | columnless; fail | apply cl_string].
    - cbn [visitConst]. destruct t as [|[] n|z n|z n|z n|p sc n|z n|e n|k v n|u]; unfold none; columnless.
    - cbn [visitConst]. destruct t as [|[] n|z n|z n|z n|p sc n|z n|e n|k v n|u]; unfold none; columnless.
    - cbn [visitConst]. columnless.
    - cbn [visitConst].
      assert (Q : forall k v, columnless ((fix each (l : list (cnode * cnode)) : evaluated (list (literal * literal)) := match l with [] => good [] | (a, b) :: l => bindE (visitConst (inside || false) a k) (fun x => bindE (visitConst (inside || false) b v) (fun y => bindE (each l) (fun r => good ((x, y) :: r)))) end) l)).
      { intros k v. induction l as [|[a b] l IHl]; [columnless|]. columnless; [apply IH|apply IH|apply IHl]. }
      destruct t as [|[] n|z n|z n|z n|p sc n|z n|e n|k v n|u]; unfold none; columnless; try apply Q; try (destruct l; columnless). apply Q.
    - cbn [visitConst].
      assert (Q : forall ts, columnless ((fix each2 (l : list cnode) (ts : list ptype) : evaluated (list literal) := match l, ts with | c :: l, t :: ts => bindE (visitConst (inside || true) c (Some t)) (fun v => bindE (each2 l ts) (fun vs => good (v :: vs))) | _, _ => good [] end) l ts)).
      { induction l as [|a l IHl]; intros [|u ts]; try (columnless; fail). columnless; [apply IH|apply IHl]. }
      assert (E : forall e, columnless ((fix each (l : list cnode) : evaluated (list literal) := match l with [] => good [] | c :: l => bindE (visitConst (inside || true) c (Some e)) (fun x => bindE (each l) (fun r => good (x :: r))) end) l)).
      { intros e. clear Q. induction l as [|a l IHl]; [columnless|]. columnless; [apply IH|apply IHl]. }
      destruct t as [|[] n|z n|z n|z n|p sc n|z n|e n|k v n|u]; unfold none; columnless; try apply Q; try apply E;
      try (match goal with |- forallb _ (if ?x then _ else _) = true => destruct x; reflexivity end).
      + destruct (fields_of a) as [|? [|? ?]]; columnless.
      + destruct (fields_of a) as [|? [|? [|? ?]]]; columnless. }
  destruct given as [t|]; [apply X|]. 
  destruct c as [s [ty|]|s [ty|]|[ty|]|[ty|]|[ty|]|l [ty|]|l [ty|]]; cbn [visitConst type_of]; try (apply cl_bind; [apply cl_type|intros t; exact (X t)]); unfold none; columnless. apply cl_string.
Qed.

Section First.
  Variables (find_function : str -> option N) (find_relation : str -> option bool) (find_field : str -> option (N * Z)).
  Notation visit := (visitExpr find_function find_relation find_field).
  Notation visit1 := (visitFirst find_function find_field).
  Lemma bindE_ok {A B} (x : evaluated A) (f : A -> evaluated B) b : bindE x f = Ok (b, []) -> exists a, x = Ok (a, []) /\ f a = Ok (b, []).
  Proof.
    unfold bindE. destruct x as [[a l]|y|]; cbn; try discriminate. destruct (f a) as [[c m]|y|] eqn:F; cbn; try discriminate. intros E. injection E as -> E. apply app_eq_nil in E as [-> ->]. exists a. auto.
  Qed.
  Lemma each_cons {A B} (f : A -> evaluated B) x l ys : eachE f (x :: l) = Ok (ys, []) -> exists b bs, ys = b :: bs /\ f x = Ok (b, []) /\ eachE f l = Ok (bs, []).
  Proof.
    cbn [eachE]. intros H. apply bindE_ok in H as (b & Hb & H). apply bindE_ok in H as (bs & Hbs & H). injection H as <-. exists b, bs. auto.
  Qed.
  (** ** Without subqueries the passes agree *)
  Lemma as_expr_agree x : as_expr (bindE x (fun e => good (FExpr e))) = x.
  Proof. unfold as_expr, bindE. destruct x as [[e l]|y|]; cbn; rewrite ?app_nil_r; reflexivity. Qed.
  Lemma bindE_assoc {A B C} (x : evaluated A) (f : A -> evaluated B) (g : B -> evaluated C) : bindE (bindE x f) g = bindE x (fun a => bindE (f a) g).
  Proof.
    unfold bindE. destruct x as [[a l]|y|]; cbn; try reflexivity. destruct (f a) as [[b m]|y|]; cbn; try reflexivity. destruct (g b) as [[c o]|y|]; cbn; try reflexivity. rewrite app_assoc. reflexivity.
  Qed.
  Lemma bindE_ext {A B} (x : evaluated A) (f g : A -> evaluated B) : (forall a, f a = g a) -> bindE x f = bindE x g.
  Proof. intros H. unfold bindE. destruct x as [[a l]|y|]; cbn; try reflexivity. rewrite H. reflexivity. Qed.
  Lemma each_ext {A B} (f g : A -> evaluated B) l : Forall (fun a => f a = g a) l -> eachE f l = eachE g l.
  Proof. induction 1 as [|a l H _ IH]; [reflexivity|]. cbn [eachE]. rewrite H, IH. reflexivity. Qed.
  Lemma existsb_false {A} (f : A -> bool) l : existsb f l = false -> Forall (fun a => f a = false) l.
  Proof. induction l as [|a l IH]; cbn; intros H; constructor; apply orb_false_iff in H as [H1 H2]; auto. Qed.
  Lemma but_bind {A B} (x : evaluated A) (f : A -> evaluated B) : but_columns (bindE x f) = bindE (but_columns x) (fun a => but_columns (f a)).
  Proof.
    unfold but_columns, bindE. destruct x as [[a l]|y|]; cbn; try reflexivity. destruct (f a) as [[b m]|y|]; cbn; try reflexivity. rewrite filter_app. reflexivity.
  Qed.
  Lemma but_each {A B} (f : A -> evaluated B) l : but_columns (eachE f l) = eachE (fun a => but_columns (f a)) l.
  Proof. induction l as [|a l IH]; [reflexivity|]. cbn [eachE]. rewrite but_bind. apply bindE_ext. intros b. rewrite but_bind, IH. reflexivity. Qed.
  Lemma but_none {A} (x : evaluated A) : (forall a l, x = Ok (a, l) -> forallb (fun e => negb (column_error e)) l = true) -> but_columns x = x.
  Proof.
    intros H. unfold but_columns. destruct x as [[a l]|y|]; cbn; try reflexivity. specialize (H a l eq_refl). f_equal. f_equal. induction l as [|e l IH]; [reflexivity|]. cbn in *. apply andb_true_iff in H as [-> H]. rewrite (IH H). reflexivity.
  Qed.
  Theorem passes_agree e : has_subquery e = false -> visit1 false e = but_columns (bindE (visit e) (fun x => good (FExpr x))).
  Proof.
    induction e as [n args ty IH|c|t|e ty IH|n|l n IH|b n|e op b n IH] using enode_ind2; cbn [has_subquery]; intros H; try discriminate; cbn [visitFirst visitExpr].
    - apply existsb_false in H. destruct (to_lower n =s $"ifthen").
      + rewrite bindE_assoc, but_bind, but_each. rewrite (each_ext (fun a => let '(_, x) := a in as_expr (visit1 false x)) (fun a => but_columns (let '(_, x) := a in visit x))).
        * apply bindE_ext. intros l. destruct l; [reflexivity|]. destruct (pairs_of (e :: l)). reflexivity.
        * rewrite Forall_forall in *. intros [s x] Hin. specialize (IH _ Hin). specialize (H _ Hin). cbn in *. rewrite (IH H). rewrite but_bind. apply as_expr_agree.
      + rewrite bindE_assoc, but_bind. rewrite (but_none (match find_function n with Some f => good f | None => Ok (0%N, [XNotFunction n]) end)) by (destruct (find_function n); intros ? ? E; injection E as <- <-; reflexivity).
        apply bindE_ext. intros f. rewrite bindE_assoc, but_bind, but_each. match goal with |- bindE (eachE ?f _) _ = bindE (eachE ?g _) _ => rewrite (each_ext f g) end.
        * apply bindE_ext. intros l. rewrite bindE_assoc, but_bind. rewrite but_none; [reflexivity|]. destruct ty as [ty|]; [|intros ? ? E; injection E as <- <-; reflexivity]. apply cl_type.
        * rewrite Forall_forall in *. intros [s x] Hin. specialize (IH _ Hin). specialize (H _ Hin). cbn [snd] in *. cbv beta iota in H. rewrite H. destruct (endsWith s enum_suffix); [reflexivity|]. rewrite (IH H), !but_bind, bindE_assoc. apply bindE_ext. reflexivity.
    - rewrite bindE_assoc, but_bind, but_none; [reflexivity|]. apply cl_const.
    - destruct (find_field t) as [[s f]|]; reflexivity.
    - rewrite (IH H), but_bind, as_expr_agree, bindE_assoc, but_bind. apply bindE_ext. intros x. rewrite bindE_assoc, but_bind, but_none; [reflexivity|]. apply cl_type.
  Qed.
  (** ** With subqueries *)
  Definition gave (x : evaluated first) : Prop := exists e, x = Ok (FExpr e, []).
  Definition refused (x : evaluated first) : Prop := x = Ok (FNone, []) \/ (exists l, x = Ok (FList l, [])) \/ x = Throw EBadAnyCast.
  Definition verdict (inner : bool) (node : enode) (b : bool) : Prop := if b then gave (visit1 inner node) else refused (visit1 inner node).
  Lemma as_gave x e : gave x -> exists e', as_expr x = Ok (e', []) /\ (x = Ok (FExpr e, []) -> e' = e).
  Proof. intros (e' & ->). exists e'. split; [reflexivity|]. congruence. Qed.
  Lemma as_refused x : refused x -> as_expr x = Throw EBadAnyCast.
  Proof. intros [-> | [(l & ->) | ->]]; reflexivity. Qed.
  Lemma pairs_direct l p o : pairs_of l = (p, o) -> forallb direct l = forallb (fun c => match c with (Some i, Some t) => direct i && direct t | _ => true end) (map (fun q => (Some (fst q), Some (snd q))) p) && match o with Some e => direct e | None => true end.
  Proof.
    revert l p o. fix IH 1. intros [|a [|b l]] p o E; cbn [pairs_of] in E; [injection E as <- <-; reflexivity|injection E as <- <-; cbn; apply andb_true_r|].
    destruct (pairs_of l) as [p' o'] eqn:F. injection E as <- <-. cbn [forallb map fst snd]. rewrite (IH l p' o' F), !andb_assoc. reflexivity.
  Qed.
  (** the parts of a condition, each with its verdict *)
  Lemma ifthen_parts inner args es : Forall (fun a => forall e', visit (snd a) = Ok (e', []) -> verdict inner (snd a) (direct e')) args ->
    eachE (fun a : str * enode => let '(_, x) := a in visit x) args = Ok (es, []) ->
    if forallb direct es then exists l, eachE (fun a : str * enode => let '(_, x) := a in as_expr (visit1 inner x)) args = Ok (l, [])
    else eachE (fun a : str * enode => let '(_, x) := a in as_expr (visit1 inner x)) args = Throw EBadAnyCast.
  Proof.
    intros H. revert es. induction H as [|[s x] args Hx _ IH]; intros es E; [injection E as <-; exists []; reflexivity|].
    apply each_cons in E as (b & bs & -> & Eb & Ebs). specialize (Hx b Eb). specialize (IH bs Ebs). cbn [forallb snd] in *. unfold verdict in Hx. destruct (direct b); cbn [andb].
    - destruct (as_gave _ b Hx) as (y & Ey & _). cbn [eachE]. rewrite Ey, bindE_good. destruct (forallb direct bs); [destruct IH as (l & ->); exists (y :: l); rewrite bindE_good; reflexivity|]. rewrite IH. reflexivity.
    - cbn [eachE]. rewrite (as_refused _ Hx). reflexivity.
  Qed.
  Lemma plain_args inner args l : Forall (fun a => forall e', visit (snd a) = Ok (e', []) -> verdict inner (snd a) (direct e')) args -> 
    eachE (fun a => let '(text, x) := a in
                   if endsWith text enum_suffix then good (AEnum (firstn (length text - length enum_suffix) text))
                   else bindE (visit x) (fun x => good (AValue x))) args = Ok (l, []) ->
    (forall x e', has_subquery x = false -> visit x = Ok (e', []) -> direct e' = true) ->
    exists l', eachE (fun a => let '(text, x) := a in
                   if endsWith text enum_suffix then good (AEnum (firstn (length text - length enum_suffix) text))
                   else if has_subquery x then good (AValue EUnset)
                   else bindE (visit1 inner x) (fun a => match a with FExpr x => good (AValue x) | _ => Ok (AUnset, [XNotExpression]) end)) args = Ok (l', []).
  Proof.
    intros H E D. revert l E. induction H as [|[s x] args Hx _ IH]; intros l E; [exists []; reflexivity|]. apply each_cons in E as (b & bs & -> & Eb & Ebs). destruct (IH bs Ebs) as (l' & El). cbn [eachE snd] in *.
    destruct (endsWith s enum_suffix).
    - exists (AEnum (firstn (length s - length enum_suffix) s) :: l'). unfold good at 1. rewrite bindE_good, El, bindE_good. reflexivity.
    - destruct (has_subquery x) eqn:Hs; [exists (AValue EUnset :: l'); unfold good at 1; rewrite bindE_good, El, bindE_good; reflexivity|].
      apply bindE_ok in Eb as (e' & Ee & _). specialize (Hx e' Ee). rewrite (D x e' Hs Ee) in Hx. destruct Hx as (y & ->). exists (AValue y :: l'). rewrite bindE_good. unfold good at 1. rewrite bindE_good, El, bindE_good. reflexivity.
  Qed.
  Lemma no_subquery_direct x e' : has_subquery x = false -> visit x = Ok (e', []) -> direct e' = true.
  Proof.
    revert e'. induction x as [n args ty IH|c|t|e ty IH|n|l n IH|b n|e op b n IH] using enode_ind2; cbn [has_subquery]; intros e' H E; try discriminate; cbn [visitExpr] in E.
    - apply existsb_false in H. destruct (to_lower n =s $"ifthen").
      + apply bindE_ok in E as (l & El & E). assert (X : forallb direct l = true).
        { clear E. revert l El. rewrite Forall_forall in IH. assert (X : Forall (fun a : str * enode => forall e', visit (snd a) = Ok (e', []) -> direct e' = true) args).
          { rewrite Forall_forall in *. intros [s x] Hin e1 E1. apply (IH _ Hin); [exact (H _ Hin)|exact E1]. }
          clear - X. induction X as [|[s x] args Hx _ IH]; intros l El; [injection El as <-; reflexivity|]. apply each_cons in El as (b & bs & -> & Eb & Ebs). cbn [forallb]. rewrite (Hx b Eb), (IH bs Ebs). reflexivity. }
        destruct l as [|a l]; [injection E as <-; reflexivity|]. destruct (pairs_of (a :: l)) as [p o] eqn:F. injection E as <-. cbn [direct]. rewrite <- (pairs_direct _ _ _ F). exact X.
      + apply bindE_ok in E as (f & _ & E). apply bindE_ok in E as (l & _ & E). apply bindE_ok in E as (ty' & _ & E). injection E as <-. reflexivity.
    - apply bindE_ok in E as (l & _ & E). injection E as <-. reflexivity.
    - destruct (find_field t) as [[s f]|]; [|discriminate]. injection E as <-. reflexivity.
    - apply bindE_ok in E as (x & Ex & E). apply bindE_ok in E as (ty' & _ & E). injection E as <-. cbn [direct]. exact (IH x H Ex).
  Qed.
  Lemma subquery_ok {A} n (a : A) f b : subquery find_relation n a f = Ok (b, []) -> b = f (Some n).
  Proof. unfold subquery. destruct (find_relation n) as [[]|]; try discriminate. intros E. injection E as <-. reflexivity. Qed.
  Theorem first_verdict inner node : forall e', visit node = Ok (e', []) -> verdict inner node (direct e').
  Proof.
    induction node as [n args ty IH|c|t|e ty IH|n|l n IH|b n|e op b n IH] using enode_ind2; intros e' E; cbn [visitExpr] in E; unfold verdict; cbn [visitFirst].
    - destruct (to_lower n =s $"ifthen").
      + apply bindE_ok in E as (l & El & E). pose proof (ifthen_parts inner args l IH El) as X. assert (D : direct e' = forallb direct l).
        { destruct l as [|a l]; [injection E as <-; reflexivity|]. destruct (pairs_of (a :: l)) as [p o] eqn:F. injection E as <-. cbn [direct]. symmetry. apply pairs_direct, F. }
        rewrite D. destruct (forallb direct l); [destruct X as (l' & ->); rewrite bindE_good; eexists; reflexivity|]. rewrite X. right. right. reflexivity.
      + apply bindE_ok in E as (f & Ef & E). apply bindE_ok in E as (l & El & E). apply bindE_ok in E as (ty' & Et & E). injection E as <-. cbn [direct]. rewrite Ef, bindE_good.
        destruct (plain_args inner args l IH El no_subquery_direct) as (l' & ->). rewrite bindE_good, Et, bindE_good. eexists. reflexivity.
    - apply bindE_ok in E as (l & El & E). injection E as <-. rewrite El, bindE_good. eexists. reflexivity.
    - destruct (find_field t) as [[s f]|]; [|discriminate]. injection E as <-. cbn [direct]. destruct inner; eexists; reflexivity.
    - apply bindE_ok in E as (x & Ex & E). apply bindE_ok in E as (ty' & Et & E). injection E as <-. specialize (IH x Ex). unfold verdict in IH. cbn [direct]. destruct (direct x).
      + destruct (as_gave _ x IH) as (y & -> & _). rewrite bindE_good, Et, bindE_good. eexists. reflexivity.
      + rewrite (as_refused _ IH). right. right. reflexivity.
    - apply subquery_ok in E. subst e'. left. reflexivity.
    - destruct (find_relation n) eqn:F; [|discriminate]. apply bindE_ok in E as (es & Ees & E). apply subquery_ok in E. subst e'. cbn [direct].
      assert (X : (exists l', eachE (fun x => as_expr (visit1 inner x)) l = Ok (l', [])) \/ eachE (fun x => as_expr (visit1 inner x)) l = Throw EBadAnyCast).
      { clear F. revert es Ees. induction IH as [|x l Hx _ IHl]; intros es Ees; [left; exists []; reflexivity|]. apply each_cons in Ees as (b1 & bs & -> & Eb & Ebs). specialize (Hx b1 Eb). unfold verdict in Hx. cbn [eachE]. destruct (direct b1).
        - destruct (as_gave _ b1 Hx) as (y & -> & _). rewrite bindE_good. destruct (IHl bs Ebs) as [(l' & ->)| ->]; [left; eexists; rewrite bindE_good; reflexivity|right; reflexivity].
        - rewrite (as_refused _ Hx). right. reflexivity. }
      destruct X as [(l' & ->)| ->]; [rewrite bindE_good; right; left; eexists; reflexivity|right; right; reflexivity].
    - apply subquery_ok in E. subst e'. left. reflexivity.
    - apply bindE_ok in E as (x & Ex & E). apply subquery_ok in E. subst e'. cbn [direct]. exact (IH x Ex).
  Qed.
End First.
(** What is printed and what is read are alike in this respect. *)
Lemma readable_direct function_name field_name find_function find_relation find_field e e' : Readable function_name field_name find_function find_relation find_field e e' -> direct e = direct e'.
Proof.
  intros H. induction H as [l l' H|s r n H1 H2 H3|f n args args' dep dep' opts ty ty' H1 H2 H3 H4 H5 H6 H7 H8|ifs ifs' els els' H1 H2 H3|e e' ty ty' failure H1 H2|n H1|l l' n H1 H2 H3|op n H1 H2|op red e e' n H1 H2 H3] using readable_ind; try reflexivity.
  - cbn [direct]. f_equal.
    + clear H3. induction H1 as [|c c' l l' Hc _ IH]; [reflexivity|]. cbn [forallb]. rewrite IH. f_equal. destruct Hc as [i i' t t' Hi Ht]. rewrite Hi, Ht. reflexivity.
    + destruct H2 as [|e e' He]; [reflexivity|exact He].
  - exact H1.
  - exact H2.
Qed.
