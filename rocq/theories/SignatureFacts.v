From Verif Require Import Base BaseFacts StringsModel StringsFacts DecimalFacts TypeModel TypeFacts TypeCaseFacts TypeTextFacts MatchFacts.
From Coq Require Import Lia ZifyBool ZifyNat ZifyN.

(** * Specification: types up to nullability *)
Fixpoint strip (t : ty) : ty :=
  match t with
  | TScalar k _ => TScalar k false
  | TDecimal p s _ => TDecimal p s false
  | TFixedBinary l _ => TFixedBinary l false
  | TFixedChar l _ => TFixedChar l false
  | TVarchar l _ => TVarchar l false
  | TList e _ => TList (strip e) false
  | TStruct l _ => TStruct (map strip l) false
  | TMap k v _ => TMap (strip k) (strip v) false
  | _ => t
  end.

(** * Proofs *)
Fixpoint joined (l : list ty) : outcome str :=
  match l with
  | [] => Ok []
  | [x] => signature x
  | x :: r => a <- signature x ;; b <- joined r ;; Ok (a ++ $"," ++ b)
  end.
Lemma joined_cons x r : joined (x :: r) =
  match r with [] => signature x | _ => a <- signature x ;; b <- joined r ;; Ok (a ++ $"," ++ b) end.
Proof. reflexivity. Qed.
Lemma signature_struct l n : signature (TStruct l n) = (a <- joined l ;; Ok ($"struct<" ++ a ++ $">")).
Proof. reflexivity. Qed.

Lemma joined_ok l : Forall (fun t => exists s, signature t = Ok s) l -> exists s, joined l = Ok s.
Proof.
  induction 1 as [|x l [s E] F [u IH]]; [eexists; reflexivity|]. rewrite joined_cons. destruct l; [eauto|].
  rewrite E, IH. cbn [obind]. eauto.
Qed.
Lemma signature_total t : Concrete t -> exists s, signature t = Ok s.
Proof.
  induction t using ty_ind'; intros C; inversion C; subst; try (eexists; reflexivity).
  - destruct (IHt H0) as [s E]. cbn [signature]. rewrite E. eexists; reflexivity.
  - rewrite signature_struct. destruct (joined_ok l) as [s E].
    + rewrite Forall_forall in *. intros x I. auto.
    + rewrite E. eexists; reflexivity.
  - destruct (IHt1 H1) as [s E]. destruct (IHt2 H3) as [u F]. cbn [signature]. rewrite E, F. eexists; reflexivity.
Qed.

Lemma strip_signature d : forall a, Concrete d -> Concrete a -> strip d = strip a -> signature d = signature a.
Proof.
  induction d using ty_ind'; intros a C C' E; inversion C; subst; destruct C'; cbn [strip] in E; try discriminate E.
  - injection E as ->. reflexivity.
  - injection E as -> ->. reflexivity.
  - injection E as ->. reflexivity.
  - injection E as ->. reflexivity.
  - injection E as ->. reflexivity.
  - injection E as E. cbn [signature]. now rewrite (IHd e).
  - injection E as E. rewrite !signature_struct. f_equal. clear C. revert l0 H0 E.
    induction H as [|x l Hx F IH]; intros [|y l'] F' E; try discriminate E; [reflexivity|].
    injection E as E1 E2. inversion F'; subst. inversion H1; subst. rewrite !joined_cons. rewrite (Hx y) by auto.
    rewrite (IH ltac:(auto) l') by auto. destruct l, l'; try discriminate E2; reflexivity.
  - injection E as E1 E2. cbn [signature]. now rewrite (IHd1 k), (IHd2 v).
Qed.
Lemma Agree_strip d : forall a, Agree false d a -> strip d = strip a.
Proof.
  induction d using ty_ind'; intros a A; inversion A; subst; cbn [strip]; f_equal; auto.
  match goal with F : Forall2 _ _ l' |- _ => clear A; revert l' F end.
  induction H as [|x l Hx F IH]; intros l' F2; inversion F2; subst; cbn [map]; f_equal; auto.
Qed.
Lemma Agree_concrete d : forall a, Agree false d a -> Concrete d -> Concrete a.
Proof.
  induction d using ty_ind'; intros a A C; inversion A; subst; inversion C; subst; constructor; auto.
  match goal with F : Forall2 _ _ l' |- _ => clear A C; revert l' F end.
  match goal with F : Forall Concrete l |- _ => revert F end.
  induction H as [|x l Hx F IH]; intros Fc l' F2; inversion F2; subst; inversion Fc; subst; constructor; auto.
Qed.

(** Splitting at the end of the leading characters of a class. *)
Definition stops (P : ascii -> bool) (x : str) : Prop := match x with [] => True | c :: _ => P c = false end.
Lemma class_split P a : forall b x y, forallb P a = true -> forallb P b = true -> stops P x -> stops P y ->
  a ++ x = b ++ y -> a = b /\ x = y.
Proof.
  induction a as [|c a IH]; intros [|d b] x y Ha Hb Hx Hy E; cbn [app] in E.
  - auto.
  - subst x. cbn [forallb stops] in *. apply andb_true_iff in Hb as [Hb _]. congruence.
  - subst y. cbn [forallb stops] in *. apply andb_true_iff in Ha as [Ha _]. congruence.
  - injection E as <- E. cbn [forallb] in *. apply andb_true_iff in Ha as [_ Ha]. apply andb_true_iff in Hb as [_ Hb].
    destruct (IH b x y Ha Hb Hx Hy E) as [-> ->]. auto.
Qed.

(** What may follow a signature inside another one. *)
Definition follow (x : str) : Prop := match x with [] => True | c :: _ => In c $",>" end.
Definition sig_name (k : kind) : str :=
  match k with
  | KNotSet => [] | KScalar k => scalar_signature k | KFixedChar => $"fchar" | KVarchar => $"vchar" | KFixedBinary => $"fbin"
  | KDecimal => $"dec" | KStruct => $"struct" | KList => $"list" | KMap => $"map"
  end.
Lemma sig_name_word k : forallb wordc (sig_name k) = true.
Proof. destruct k as [|[]| | | | | | |]; reflexivity. Qed.
Lemma sig_name_inj j k : sig_name j = sig_name k -> j = k.
Proof. destruct j as [|[]| | | | | | |], k as [|[]| | | | | | |]; try reflexivity; discriminate. Qed.
Lemma sig_shape t s : Concrete t -> signature t = Ok s ->
  exists r, s = sig_name (kind_of t) ++ r /\ stops wordc r /\ (r = [] \/ exists u, r = $"<" ++ u) /\ (s <> []).
Proof.
  intros C E. destruct C; try rewrite signature_struct in E; cbn [signature] in E.
  - injection E as <-. exists []. rewrite app_nil_r. split; [reflexivity|]. split; [exact I|]. split; [auto|]. destruct k; discriminate.
  - injection E as <-. eexists. split; [reflexivity|]. split; [reflexivity|]. split; [right; eexists; reflexivity|discriminate].
  - injection E as <-. eexists. split; [reflexivity|]. split; [reflexivity|]. split; [right; eexists; reflexivity|discriminate].
  - injection E as <-. eexists. split; [reflexivity|]. split; [reflexivity|]. split; [right; eexists; reflexivity|discriminate].
  - injection E as <-. eexists. split; [reflexivity|]. split; [reflexivity|]. split; [right; eexists; reflexivity|discriminate].
  - destruct (signature e); try discriminate E. injection E as <-. eexists. split; [reflexivity|]. split; [reflexivity|]. split; [right; eexists; reflexivity|discriminate].
  - destruct (signature k); try discriminate E. destruct (signature v); try discriminate E. injection E as <-.
    eexists. split; [reflexivity|]. split; [reflexivity|]. split; [right; eexists; reflexivity|discriminate].
  - destruct (joined l); try discriminate E. injection E as <-. eexists. split; [reflexivity|]. split; [reflexivity|]. split; [right; eexists; reflexivity|discriminate].
Qed.
Lemma follow_stops x : follow x -> stops wordc x.
Proof. destruct x as [|c x]; [auto|]. cbn. intros [<-|[<-|[]]]; reflexivity. Qed.
Lemma num_split y z a b : (match a with [] => True | c :: _ => In c $",>" end) -> (match b with [] => True | c :: _ => In c $",>" end) ->
  print_Z y ++ a = print_Z z ++ b -> y = z /\ a = b.
Proof.
  intros Ha Hb E. apply (class_split num_char) in E; try apply print_Z_num.
  - destruct E as [E ->]. apply print_Z_inj in E. auto.
  - destruct a as [|c a]; [exact I|]. cbn in *. destruct Ha as [<-|[<-|[]]]; reflexivity.
  - destruct b as [|c b]; [exact I|]. cbn in *. destruct Hb as [<-|[<-|[]]]; reflexivity.
Qed.

Lemma sig_kind d a s u x y : Concrete d -> Concrete a -> signature d = Ok s -> signature a = Ok u ->
  follow x -> follow y -> s ++ x = u ++ y -> kind_of d = kind_of a.
Proof.
  intros C C' Es Eu Fx Fy E.
  destruct (sig_shape _ _ C Es) as (r1 & E1 & S1 & O1 & _); destruct (sig_shape _ _ C' Eu) as (r2 & E2 & S2 & O2 & _).
  rewrite E1, E2, <- !app_assoc in E. apply (class_split wordc) in E; try apply sig_name_word.
  - destruct E as [E _]; apply sig_name_inj in E; exact E.
  - destruct O1 as [->|[w ->]]; [now apply follow_stops|reflexivity].
  - destruct O2 as [->|[w ->]]; [now apply follow_stops|reflexivity].
Qed.
Lemma Ok_inj {A} (a b : A) : Ok a = Ok b -> a = b.
Proof. congruence. Qed.
Lemma sig_inj d : forall a s u x y, Concrete d -> Concrete a -> signature d = Ok s -> signature a = Ok u ->
  follow x -> follow y -> s ++ x = u ++ y -> strip d = strip a /\ x = y.
Proof.
  induction d using ty_ind'; intros a sg ug x y C C' Es Eu Fx Fy E;
    pose proof (sig_kind _ _ _ _ _ _ C C' Es Eu Fx Fy E) as Kd; inversion C; subst; destruct C'; cbn [kind_of] in Kd; try discriminate Kd;
     try rewrite signature_struct in Es; try rewrite signature_struct in Eu; cbn [signature] in Es, Eu;
     try (apply Ok_inj in Es; apply Ok_inj in Eu; subst sg ug).
  - injection Kd as ->. apply app_inv_head in E. auto.
  - rewrite <- !app_assoc in E. apply app_inv_head in E. apply num_split in E; try (left; reflexivity).
    destruct E as [-> E]. apply app_inv_head in E. apply num_split in E; try (right; left; reflexivity).
    destruct E as [-> E]. apply app_inv_head in E. auto.
  - rewrite <- !app_assoc in E. apply app_inv_head in E. apply num_split in E; try (right; left; reflexivity).
    destruct E as [-> E]. apply app_inv_head in E. auto.
  - rewrite <- !app_assoc in E. apply app_inv_head in E. apply num_split in E; try (right; left; reflexivity).
    destruct E as [-> E]. apply app_inv_head in E. auto.
  - rewrite <- !app_assoc in E. apply app_inv_head in E. apply num_split in E; try (right; left; reflexivity).
    destruct E as [-> E]. apply app_inv_head in E. auto.
  - destruct (signature d) as [s1| |] eqn:S1; try discriminate Es.
    destruct (signature e) as [s2| |] eqn:S2; try discriminate Eu. cbn [obind] in Es, Eu; apply Ok_inj in Es; apply Ok_inj in Eu; subst sg ug.
    rewrite <- !app_assoc in E. apply app_inv_head in E.
    destruct (IHd e s1 s2 ($">" ++ x) ($">" ++ y)) as [E1 E2]; auto; try (right; left; reflexivity).
    apply app_inv_head in E2. cbn [strip]. rewrite E1. auto.
  - destruct (joined l) as [s1| |] eqn:S1; try discriminate Es.
    destruct (joined l0) as [s2| |] eqn:S2; try discriminate Eu. cbn [obind] in Es, Eu; apply Ok_inj in Es; apply Ok_inj in Eu; subst sg ug.
    rewrite <- !app_assoc in E. apply app_inv_head in E. cbn [strip].
    enough (G : map strip l = map strip l0 /\ x = y) by (destruct G as [-> ->]; auto).
    clear C Kd. revert l0 H0 s1 s2 S1 S2 E. induction H as [|d l Hd F IH]; intros [|e l'] C' s1 s2 S1 S2 E.
    + apply Ok_inj in S1; subst. apply Ok_inj in S2; subst. apply (app_inv_head $">") in E. auto.
    + exfalso. apply Ok_inj in S1; subst. inversion C'; subst.
      assert (exists c r, s2 = c :: r /\ wordc c = true) as (c & r & -> & Wc).
      { destruct (signature_total e) as [se Ee]; [assumption|]. destruct (sig_shape e se) as (r & -> & _ & _ & N); auto.
        rewrite joined_cons, Ee in S2.
        assert (exists q, s2 = (sig_name (kind_of e) ++ r) ++ q) as [q ->].
        { destruct l'; [apply Ok_inj in S2; subst; exists []; now rewrite app_nil_r|]. cbn [obind] in S2.
          destruct (joined (t :: l')); try discriminate S2. apply Ok_inj in S2; subst. eauto. }
        pose proof (sig_name_word (kind_of e)) as W. destruct (sig_name (kind_of e)) as [|c w] eqn:N'.
        - exfalso. inversion H2; subst; cbn in N'; try discriminate N'. destruct k; discriminate.
        - exists c, ((w ++ r) ++ q). split; [reflexivity|]. cbn [forallb] in W. apply andb_true_iff in W. tauto. }
      injection E as E _. subst c. discriminate Wc.
    + exfalso. apply Ok_inj in S2; subst. inversion H1; subst.
      assert (exists c r, s1 = c :: r /\ wordc c = true) as (c & r & -> & Wc).
      { destruct (signature_total d) as [se Ee]; [assumption|]. destruct (sig_shape d se) as (r & -> & _ & _ & N); auto.
        rewrite joined_cons, Ee in S1.
        assert (exists q, s1 = (sig_name (kind_of d) ++ r) ++ q) as [q ->].
        { destruct l; [apply Ok_inj in S1; subst; exists []; now rewrite app_nil_r|]. cbn [obind] in S1.
          destruct (joined (t :: l)); try discriminate S1. apply Ok_inj in S1; subst. eauto. }
        pose proof (sig_name_word (kind_of d)) as W. destruct (sig_name (kind_of d)) as [|c w] eqn:N'.
        - exfalso. inversion H2; subst; cbn in N'; try discriminate N'. destruct k; discriminate.
        - exists c, ((w ++ r) ++ q). split; [reflexivity|]. cbn [forallb] in W. apply andb_true_iff in W. tauto. }
      injection E as E _. subst c. discriminate Wc.
    + inversion H1; subst. inversion C'; subst. rewrite joined_cons in S1, S2.
      destruct (signature_total d) as [sd Ed]; [assumption|]. destruct (signature_total e) as [se Ee]; [assumption|].
      rewrite Ed in S1. rewrite Ee in S2. cbn [obind] in S1, S2.
      assert (Q1 : exists q, s1 = sd ++ q /\ ((l = [] /\ q = []) \/ (l <> [] /\ exists t, joined l = Ok t /\ q = $"," ++ t))).
      { destruct l; [apply Ok_inj in S1; subst; exists []; rewrite app_nil_r; auto|]. destruct (joined (t :: l)); try discriminate S1.
        apply Ok_inj in S1; subst. eexists. split; [reflexivity|]. right. split; [discriminate|]. eauto. }
      assert (Q2 : exists q, s2 = se ++ q /\ ((l' = [] /\ q = []) \/ (l' <> [] /\ exists t, joined l' = Ok t /\ q = $"," ++ t))).
      { destruct l'; [apply Ok_inj in S2; subst; exists []; rewrite app_nil_r; auto|]. destruct (joined (t :: l')); try discriminate S2.
        apply Ok_inj in S2; subst. eexists. split; [reflexivity|]. right. split; [discriminate|]. eauto. }
      destruct Q1 as (q1 & -> & Q1). destruct Q2 as (q2 & -> & Q2). rewrite <- !app_assoc in E.
      assert (F1 : follow (q1 ++ $">" ++ x)) by (destruct Q1 as [[_ ->]|(_ & t & _ & ->)]; simpl; auto).
      assert (F2 : follow (q2 ++ $">" ++ y)) by (destruct Q2 as [[_ ->]|(_ & t & _ & ->)]; simpl; auto).
      destruct (Hd e sd se _ _ ltac:(assumption) ltac:(assumption) Ed Ee F1 F2 E) as [E1 E2].
      destruct Q1 as [[-> ->]|(N1 & t1 & J1 & ->)], Q2 as [[-> ->]|(N2 & t2 & J2 & ->)]; try discriminate E2.
      * apply (app_inv_head $">") in E2. cbn [map]. rewrite E1. auto.
      * rewrite <- !app_assoc in E2. apply app_inv_head in E2.
        destruct (IH ltac:(assumption) l' ltac:(assumption) t1 t2 J1 J2 E2) as [E3 ->]. cbn [map]. rewrite E1, E3. auto.
  - destruct (signature d1) as [s1| |] eqn:S1; try discriminate Es.
    destruct (signature d2) as [s2| |] eqn:S2; try discriminate Es.
    destruct (signature k) as [u1| |] eqn:U1; try discriminate Eu. destruct (signature v) as [u2| |] eqn:U2; try discriminate Eu.
    cbn [obind] in Es, Eu; apply Ok_inj in Es; apply Ok_inj in Eu; subst sg ug. rewrite <- !app_assoc in E. apply app_inv_head in E.
    destruct (IHd1 k s1 u1 ($"," ++ s2 ++ $">" ++ x) ($"," ++ u2 ++ $">" ++ y)) as [E1 E2]; auto; try (left; reflexivity).
    apply app_inv_head in E2.
    destruct (IHd2 v s2 u2 ($">" ++ x) ($">" ++ y)) as [E3 E4]; auto; try (right; left; reflexivity).
    apply app_inv_head in E4. cbn [strip]. rewrite E1, E3. auto.
Qed.
Lemma signature_iff d a : Concrete d -> Concrete a -> (signature d = signature a <-> strip d = strip a).
Proof.
  intros C C'. split; [|now apply strip_signature]. intros E.
  destruct (signature_total d C) as [s Es]. rewrite Es in E. symmetry in E.
  now apply (sig_inj d a s s [] []).
Qed.
Lemma match_signature d a : Concrete d -> Concrete a -> isMatch d a = Ok true -> signature d = signature a.
Proof.
  intros C C' M. apply (decides_true _ _ (isMatch_concrete d C a C')) in M. apply strip_signature; auto. now apply Agree_strip.
Qed.
