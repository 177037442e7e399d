(** What an expression that is read refers to. *)
From Verif Require Import Base BaseFacts StringsModel StringsFacts EnumModel TypeModel LexModel NameModel FloatModel ExprModel ExprFacts FirstFacts.

(** * Specification *)
Section Spec.
  Variables (find_function : str -> option N) (find_relation : str -> option bool) (find_field : str -> option (N * Z)).
  Definition known_function (f : N) : Prop := exists n, find_function n = Some f.
  Definition known_relation (rel : option str) : Prop := exists n, rel = Some n /\ find_relation n = Some true.
  Definition known_column (s : segment) (r : root) : Prop := exists n steps f, find_field n = Some (steps, f) /\ s = SegField f None /\ r = if (0 <? steps)%N then RootOuter steps else RootRef.
  (** Everything that is referred to was found under some name. *)
  Inductive Resolved : expr -> Prop :=
  | RS_literal l : Resolved (ELit l)
  | RS_column s r : known_column s r -> Resolved (ESel s r)
  | RS_function f args ty : known_function f -> Forall ResolvedArg args -> Resolved (EFun f args [] [] ty)
  | RS_cast e ty : Resolved e -> Resolved (ECast e ty 0)
  | RS_if ifs els : Forall (fun c => exists i t, c = (Some i, Some t) /\ Resolved i /\ Resolved t) ifs -> (forall e, els = Some e -> Resolved e) -> Resolved (EIfThen ifs els)
  | RS_nothing : Resolved EUnset                     (* a condition without parts *)
  | RS_scalar rel : known_relation rel -> Resolved (EScalar rel)
  | RS_in l rel : Forall Resolved l -> known_relation rel -> Resolved (EIn l rel)
  | RS_set op rel : known_relation rel -> op <> QUnspecified -> Resolved (ESet op rel)
  | RS_compare op red e rel : Resolved e -> known_relation rel -> Resolved (ECompare op (Some red) (Some e) rel)
  with ResolvedArg : arg expr -> Prop :=
  | RA_value e : Resolved e -> ResolvedArg (AValue e)
  | RA_enum s : ResolvedArg (AEnum s).
End Spec.

Section Proofs.
  Variables (find_function : str -> option N) (find_relation : str -> option bool) (find_field : str -> option (N * Z)).
  Notation visit := (visitExpr find_function find_relation find_field).
  Notation resolved := (Resolved find_function find_relation find_field).
  Lemma each_all {A B} (f : A -> evaluated B) (P : B -> Prop) l bs : Forall (fun a => forall b, f a = Ok (b, []) -> P b) l -> eachE f l = Ok (bs, []) -> Forall P bs.
  Proof.
    intros H. revert bs. induction H as [|a l Ha _ IH]; intros bs E; [injection E as <-; constructor|]. apply each_cons in E as (b & bs' & -> & Eb & Ebs). constructor; auto.
  Qed.
  Lemma pairs_all {A} (P : A -> Prop) l p o : pairs_of l = (p, o) -> Forall P l -> Forall (fun q => P (fst q) /\ P (snd q)) p /\ (forall e, o = Some e -> P e).
  Proof.
    revert l p o. fix IH 1. intros [|a [|b l]] p o E H; cbn [pairs_of] in E.
    - injection E as <- <-. split; [constructor|discriminate].
    - injection E as <- <-. split; [constructor|]. intros e X. injection X as <-. inversion H; assumption.
    - destruct (pairs_of l) as [p' o'] eqn:F. injection E as <- <-. inversion H as [|? ? Ha H']; subst. inversion H' as [|? ? Hb H'']; subst. destruct (IH l p' o' F H'') as [H1 H2]. split; [constructor; [split; assumption|exact H1]|exact H2].
  Qed.
  Lemma subquery_found {A} n (a : A) f b : subquery find_relation n a f = Ok (b, []) -> b = f (Some n) /\ find_relation n = Some true.
  Proof. unfold subquery. destruct (find_relation n) as [[]|]; try discriminate. intros E. injection E as <-. auto. Qed.
  Theorem read_resolved node : forall e, visit node = Ok (e, []) -> resolved e.
  Proof.
    induction node as [n args ty IH|c|t|e ty IH|n|l n IH|b n|e op b n IH] using enode_ind2; intros e' E; cbn [visitExpr] in E.
    - destruct (to_lower n =s $"ifthen").
      + apply bindE_ok in E as (l & El & E). assert (X : Forall resolved l) by (revert El; apply each_all; rewrite Forall_forall in *; intros [s x] Hin; exact (IH _ Hin)).
        destruct l as [|a l]; [injection E as <-; constructor|]. destruct (pairs_of (a :: l)) as [p o] eqn:F. injection E as <-. destruct (pairs_all resolved _ _ _ F X) as [H1 H2]. constructor; [|exact H2].
        rewrite Forall_map. eapply Forall_impl; [|exact H1]. intros [i t] [Hi Ht]. exists i, t. auto.
      + apply bindE_ok in E as (f & Ef & E). apply bindE_ok in E as (l & El & E). apply bindE_ok in E as (ty' & _ & E). injection E as <-. constructor.
        * destruct (find_function n) eqn:F; [|discriminate]. injection Ef as <-. exists n. exact F.
        * revert El. apply each_all. rewrite Forall_forall in *. intros [s x] Hin b. destruct (endsWith s enum_suffix); [intros X; injection X as <-; constructor|]. intros X. apply bindE_ok in X as (y & Hy & X). injection X as <-. constructor. exact (IH _ Hin _ Hy).
    - apply bindE_ok in E as (l & _ & E). injection E as <-. constructor.
    - destruct (find_field t) as [[s f]|] eqn:F; [|discriminate]. injection E as <-. constructor. exists t, s, f. auto.
    - apply bindE_ok in E as (x & Ex & E). apply bindE_ok in E as (ty' & _ & E). injection E as <-. constructor. exact (IH x Ex).
    - apply subquery_found in E as [-> E]. constructor. exists n. auto.
    - destruct (find_relation n) eqn:F; [|discriminate]. apply bindE_ok in E as (es & Ees & E). apply subquery_found in E as [-> E]. constructor; [|exists n; auto]. revert Ees. apply each_all. exact IH.
    - apply subquery_found in E as [-> E]. constructor; [exists n; auto|destruct b; discriminate].
    - apply bindE_ok in E as (x & Ex & E). apply subquery_found in E as [-> E]. constructor; [exact (IH x Ex)|exists n; auto].
  Qed.
End Proofs.
