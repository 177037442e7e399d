(** Visiting a relation only asks its parameters: the same answers lead to the same result. *)
From Verif Require Import Base BaseFacts StringsModel TypeModel LexModel ExprModel RelModel SectionModel FirstFacts WholeModel.
From Verif Require FieldModel EnumModel.

Section Ext.
  Variables (ff : str -> option N) (fr fr' : str -> option bool) (Hr : forall n, fr n = fr' n).
  Section Expressions.
    Variables (fi fi' : str -> option (N * Z)) (Hi : forall n, fi n = fi' n).
    Lemma subquery_ext {A} n (m : A) f : subquery fr n m f = subquery fr' n m f.
    Proof. unfold subquery. rewrite Hr. reflexivity. Qed.
    Lemma visitExpr_ext e : visitExpr ff fr fi e = visitExpr ff fr' fi' e.
    Proof.
      induction e as [n args ty IH|c|t|e ty IH|n|l n IH|b n|e op b n IH] using enode_ind2; cbn [visitExpr].
      - destruct (to_lower n =s $"ifthen").
        + f_equal. apply each_ext. rewrite Forall_forall in *. intros [s x] I. exact (IH _ I).
        + apply bindE_ext. intros f. f_equal. apply each_ext. rewrite Forall_forall in *. intros [s x] I. destruct (endsWith s enum_suffix); [reflexivity|]. specialize (IH _ I). cbn [snd] in IH. rewrite IH. reflexivity.
      - reflexivity.
      - rewrite Hi. reflexivity.
      - rewrite IH. reflexivity.
      - apply subquery_ext.
      - rewrite Hr. destruct (fr' n); [|reflexivity]. rewrite (each_ext _ _ l IH). apply bindE_ext. intros x. apply subquery_ext.
      - apply subquery_ext.
      - rewrite IH. apply bindE_ext. intros x. apply subquery_ext.
    Qed.
    Lemma visitFirst_ext i e : visitFirst ff fi i e = visitFirst ff fi' i e.
    Proof.
      induction e as [n args ty IH|c|t|e ty IH|n|l n IH|b n|e op b n IH] using enode_ind2; cbn [visitFirst]; try reflexivity.
      - destruct (to_lower n =s $"ifthen").
        + f_equal. apply each_ext. rewrite Forall_forall in *. intros [s x] I. specialize (IH _ I). cbn [snd] in IH. rewrite IH. reflexivity.
        + apply bindE_ext. intros f. f_equal. apply each_ext. rewrite Forall_forall in *. intros [s x] I. destruct (endsWith s enum_suffix); [reflexivity|]. specialize (IH _ I). cbn [snd] in IH. rewrite IH. reflexivity.
      - destruct i; [reflexivity|]. rewrite Hi. reflexivity.
      - rewrite IH. reflexivity.
      - f_equal. apply each_ext. rewrite Forall_forall in *. intros x I. rewrite (IH _ I). reflexivity.
      - exact IH.
    Qed.
  End Expressions.
  Lemma bindR_ext {A B} (x : visited A) (f g : A -> visited B) : (forall a, f a = g a) -> bindR x f = bindR x g.
  Proof. intros H. unfold bindR. destruct x as [[a l]|y|]; cbn; try reflexivity. rewrite H. reflexivity. Qed.
  Section Details.
    Variables (fi fi' : nat -> nat -> str -> option (N * Z)) (Hi : forall i j n, fi i j n = fi' i j n) (w : nat).
    Lemma known_ext i j e : known ff fi i j e = known ff fi' i j e.
    Proof. unfold known. rewrite (visitFirst_ext (fi i j) (fi' i j) (Hi i j)). reflexivity. Qed.
    Lemma visitE_ext i j e : visitE ff fr fi i j e = visitE ff fr' fi' i j e.
    Proof. unfold visitE. rewrite known_ext. destruct (known _ _ _ _ _) as [[]| |]; cbn [obind]; try reflexivity. rewrite (visitExpr_ext (fi i j) (fi' i j) (Hi i j)). reflexivity. Qed.
    Lemma visitSort_ext i j e b : visitSort ff fr fi i j e b = visitSort ff fr' fi' i j e b.
    Proof. unfold visitSort. rewrite visitE_ext. reflexivity. Qed.
    Lemma visitMeasure_ext i j e t ids : visitMeasure ff fr fi i j e t ids = visitMeasure ff fr' fi' i j e t ids.
    Proof. unfold visitMeasure. rewrite visitE_ext. reflexivity. Qed.
    Lemma visitMeasureDetails_ext i l : forall j s, visitMeasureDetails ff fr fi i j s l = visitMeasureDetails ff fr' fi' i j s l.
    Proof.
      induction l as [|d l IH]; intros j s; [reflexivity|]. destruct d; cbn [visitMeasureDetails].
      - rewrite visitMeasure_ext. apply bindR_ext. intros f. destruct (b_function s); [reflexivity|]. apply IH.
      - rewrite visitE_ext. apply bindR_ext. intros x. destruct (b_filter s); [reflexivity|]. apply IH.
      - apply bindR_ext. intros v. apply IH.
      - rewrite visitSort_ext. apply bindR_ext. intros x. apply IH.
    Qed.
    Lemma visitDetail_ext ks ks' kc kc' (Hs : forall n, ks n = ks' n) (Hc : forall n, kc n = kc' n) i b d : visitDetail ff fr fi w ks kc i b d = visitDetail ff fr' fi' w ks' kc' i b d.
    Proof.
      destruct d; cbn [visitDetail]; try reflexivity; rewrite ?Hs, ?Hc, ?known_ext, ?visitE_ext, ?visitMeasureDetails_ext, ?visitSort_ext; try reflexivity.
    Qed.
  End Details.
  Lemma visitEmits_ext fe fe' (He : forall n, fe n = fe' n) l : visitEmits fe l = visitEmits fe' l.
  Proof. induction l as [|d l IH]; [reflexivity|]. destruct d; cbn [visitEmits]; try exact IH. rewrite He, IH. reflexivity. Qed.
End Ext.
