From Verif Require Import Base BaseFacts StringsModel StringsFacts DecimalFacts TypeModel TypeFacts TypeCaseFacts TypeTextFacts MatchFacts.
From Coq Require Import Lia ZifyBool ZifyNat ZifyN.

(** * Specifications *)
Definition int32 (z : Z) : Prop := (-2147483648 <= z <= 2147483647)%Z.
(** An unspecified nullability reads back as required. *)
Definition read_null (n : pnull) : pnull := match n with NUnspecified => NRequired | _ => n end.
(** The types the printer knows, and what they read back as. *)
Inductive Printable : ptype -> ptype -> Prop :=
| PR_scalar k n : In k [SBool; SI8; SI16; SI32; SI64; SFp32; SFp64; SString; SDate] ->
    Printable (PtScalar k n) (PtScalar k (read_null n))
| PR_decimal p s n : int32 p -> int32 s -> Printable (PtDecimal p s n) (PtDecimal p s (read_null n))
| PR_varchar l n : int32 l -> Printable (PtVarchar l n) (PtVarchar l (read_null n))
| PR_fixedchar l n : int32 l -> Printable (PtFixedChar l n) (PtFixedChar l (read_null n)).
(** The protobuf type a type text denotes. *)
Definition pn (n : bool) : pnull := if n then NNullable else NRequired.
Fixpoint proto_of (t : cty) : ptype :=
  match t with
  | CScalar k n => PtScalar k (pn n)
  | CDecimal p s n => PtDecimal (Z.of_N p) (Z.of_N s) (pn n)
  | CFixedBinary l n => PtFixedBinary (Z.of_N l) (pn n)
  | CFixedChar l n => PtFixedChar (Z.of_N l) (pn n)
  | CVarchar l n => PtVarchar (Z.of_N l) (pn n)
  | CList e n => PtList (proto_of e) (pn n)
  | CMap k v n => PtMap (proto_of k) (proto_of v) (pn n)
  | CStruct l n => PtStruct (map proto_of l) (pn n)
  end.
Fixpoint has_fixedbinary (t : cty) : bool :=
  match t with
  | CFixedBinary _ _ => true
  | CList e _ => has_fixedbinary e
  | CMap k v _ => has_fixedbinary k || has_fixedbinary v
  | CStruct l _ => existsb has_fixedbinary l
  | _ => false
  end.

(** * Numbers with a sign *)
Lemma last_in (c : ascii) s : In (last (c :: s) zero) (c :: s).
Proof. destruct (exists_last (l:=c :: s) ltac:(discriminate)) as (x & y & E). rewrite E, last_last. apply in_or_app. right. left. reflexivity. Qed.
Lemma num_char_cases c : num_char c = true -> is_digit c = true \/ c = "-"%char.
Proof. unfold num_char. rewrite orb_true_iff, ceq_true. auto. Qed.
Lemma num_char_not_ws c : num_char c = true -> ~ ws c.
Proof.
  intros H. apply num_char_cases in H as [H| ->]; [apply wordc_not_ws; unfold wordc; rewrite H; now rewrite orb_true_r|].
  intros I. cbv in I. intuition discriminate.
Qed.
Lemma num_char_notin s d : forallb num_char s = true -> num_char d = false -> ~ In d s.
Proof. rewrite forallb_forall. intros H N I. apply H in I. congruence. Qed.
Lemma num_lower s : forallb num_char s = true -> to_lower s = s.
Proof.
  induction s as [|c s IH]; [reflexivity|]. cbn [forallb]. rewrite andb_true_iff. intros [H1 H2]. rewrite to_lower_cons, IH by exact H2. f_equal.
  apply num_char_cases in H1 as [H| ->]; [|reflexivity]. pose proof (digits_lower_id [c]) as D. cbn [forallb] in D. rewrite H in D.
  specialize (D eq_refl). now injection D.
Qed.
Lemma decode_signed m s : forallb num_char s = true -> isInteger s = true -> decode m s = Ok (TStrLit s false false).
Proof.
  intros N I. destruct s as [|c s]; [discriminate I|].
  rewrite decode_eq. cbv zeta.
  assert (T : trim (c :: s) = c :: s).
  { apply trimmed_unique. exists [], []. rewrite app_nil_r. rewrite forallb_forall in N. repeat split; auto.
    - intros x r E. apply num_char_not_ws, N. rewrite E. left; reflexivity.
    - intros x r E. apply num_char_not_ws, N. rewrite E. apply in_or_app. right. left. reflexivity. }
  rewrite T, num_lower by exact N.
  replace (find_first "<"%char (c :: s)) with (@None nat).
  2:{ symmetry. apply find_first_none. apply num_char_notin; [exact N|reflexivity]. }
  assert (Q : ceq (last (c :: s) zero) "?"%char = false).
  { destruct (ceq (last (c :: s) zero) "?"%char) eqn:E; [|reflexivity]. apply ceq_true in E. exfalso.
    apply (num_char_notin _ "?"%char N); [reflexivity|]. rewrite <- E. apply last_in. }
  rewrite Q. cbn [forallb] in N. apply andb_true_iff in N as [Nc _].
  assert (Al : is_alpha c = false).
  { apply num_char_cases in Nc as [D| ->]; [|reflexivity]. unfold is_alpha, is_upper, is_lower, is_digit in *. lia. }
  destruct (scalar_of (c :: s)) eqn:Sc.
  { apply scalar_of_some in Sc as (c' & r & [= <- <-] & A). congruence. }
  assert (Wc : (substr 0 3 (c :: s) =s $"any") = false).
  { destruct (substr 0 3 (c :: s) =s $"any") eqn:E; [|reflexivity]. apply seq_eqb_eq in E. unfold substr in E. cbn [skipn firstn] in E.
    injection E as -> _. discriminate. }
  rewrite Wc. cbn [negb andb]. rewrite I. reflexivity.
Qed.
Lemma print_Z_integer z : isInteger (print_Z z) = true.
Proof.
  apply isInteger_iff. destruct z; cbn [print_Z].
  - left. apply numeral_iff. split; [apply print_N_nonempty|apply print_N_digits].
  - left. apply numeral_iff. split; [apply print_N_nonempty|apply print_N_digits].
  - right. eexists. split; [reflexivity|]. apply numeral_iff. split; [apply print_N_nonempty|apply print_N_digits].
Qed.
Lemma decode_print m z : decode m (print_Z z) = Ok (TStrLit (print_Z z) false false).
Proof. apply decode_signed; [apply print_Z_num|apply print_Z_integer]. Qed.
Lemma print_N_text v : num_text v (print_N v).
Proof. split; [apply numeral_iff; split; [apply print_N_nonempty|apply print_N_digits]|apply print_N_val]. Qed.
Lemma stoi_print z : int32 z -> stoi (print_Z z) = Ok z.
Proof.
  intros R. unfold int32 in R. destruct z as [|p|p]; cbn [print_Z].
  - apply (stoi_num 0 (print_N 0) (print_N_text 0)). reflexivity.
  - change (Z.to_N (Z.pos p)) with (N.pos p). rewrite (stoi_num (Npos p) _ (print_N_text _)); [reflexivity|]. unfold small. lia.
  - unfold stoi. rewrite ltrim_head by (intros I; cbv in I; intuition discriminate).
    change (ceq "-"%char "-"%char) with true. cbv zeta beta iota.
    rewrite take_digits_all by apply print_N_digits. pose proof (print_N_nonempty (Npos p)) as Ne. pose proof (print_N_val (Npos p)) as V.
    destruct (print_N (N.pos p)) as [|c r]; [congruence|]. rewrite V.
    replace ((-2147483648 <=? - Z.of_N (N.pos p)) && (- Z.of_N (N.pos p) <=? 2147483647))%Z with true by lia. reflexivity.
Qed.
Lemma pass_num k z : pass k (print_Z z).
Proof.
  apply pass_Forall. apply Forall_forall. intros c I. pose proof (print_Z_num z) as N. rewrite forallb_forall in N. apply N in I.
  intros J. cbn in J. repeat (destruct J as [<-|J]; [discriminate I|]). contradiction.
Qed.

(** * Round trip *)
Lemma qmark_q n : qmark n = q (match n with NNullable => true | _ => false end).
Proof. destruct n; reflexivity. Qed.
Lemma rfind_num z : rfind_char "?"%char (print_Z z) = None.
Proof. apply rfind_none. apply num_char_notin; [apply print_Z_num|reflexivity]. Qed.
Lemma nullness n : (if (match n with NNullable => true | _ => false end) then NNullable else NRequired) = read_null n.
Proof. destruct n; reflexivity. Qed.

Lemma decode_length_print name P T n l :
  word name -> to_lower name = name -> 2 <= length name -> (forall m n raw nested, build m n raw name nested = decodeLength P T m n nested) ->
  decode true (name ++ q n ++ $"<" ++ print_Z l ++ $">") = Ok (P (TStrLit (print_Z l) false false) n).
Proof.
  intros W E L B. rewrite (decode_compound true name name n (print_Z l) _ _ E W L (split_end _ (pass_num 0 l))).
  cbn [tokens_of]. rewrite cut_end. cbn [omap]. rewrite decode_print. cbn [obind]. rewrite rfind_num, andb_false_r, B. reflexivity.
Qed.

Lemma print_roundtrip inside t t' : Printable t t' -> printType t = (fst (printType t), 0) /\
  textToTypeProto inside (fst (printType t)) = Ok (t', []).
Proof.
  intros H. destruct H as [k n I|p s n Rp Rs|l n R|l n R].
  - assert (S : forall name, scalar_name k name -> textToTypeProto inside (name ++ qmark n) = Ok (PtScalar k (read_null n), [])).
    { intros name Hn. unfold textToTypeProto. rewrite qmark_q, (decode_scalar true k _ name Hn). cbn [typeToProto nullable_of].
      now rewrite nullness. }
    cbn [In] in I. repeat (destruct I as [<-|I]; [split; [reflexivity|]; cbn [printType fst]; apply S; unfold scalar_name; auto|]).
    contradiction.
  - split; [reflexivity|]. cbn [printType fst]. unfold textToTypeProto. rewrite qmark_q. set (b := match n with NNullable => true | _ => false end).
    replace ($"decimal" ++ q b ++ $"<" ++ print_Z p ++ $"," ++ print_Z s ++ $">")
      with ($"decimal" ++ q b ++ $"<" ++ (print_Z p ++ $"," ++ print_Z s) ++ $">") by (now rewrite <- !app_assoc).
    assert (Sp : split_tokens 0 ((print_Z p ++ $"," ++ print_Z s) ++ $">") = (print_Z p, [print_Z s ++ $">"])).
    { rewrite <- !app_assoc. rewrite split_comma by apply pass_num. now rewrite split_end by apply pass_num. }
    rewrite (decode_compound true $"decimal" $"decimal" b _ _ _ eq_refl ltac:(now apply wordb_word) ltac:(simpl; lia) Sp).
    cbn [tokens_of]. rewrite cut_end. cbn [omap]. rewrite !decode_print. cbn [obind].
    replace (rfind_char "?"%char (print_Z p ++ $"," ++ print_Z s)) with (@None nat).
    2:{ symmetry. apply rfind_none. rewrite !in_app_iff. pose proof (rfind_num p) as A. pose proof (rfind_num s) as B. apply rfind_none in A, B.
        simpl. intuition discriminate. }
    rewrite andb_false_r. unfold build. change ($"decimal" =s $"list") with false. change ($"decimal" =s $"map") with false.
    change ($"decimal" =s $"struct") with false. change ($"decimal" =s $"decimal") with true. cbv iota zeta. cbn [cast_strlit typeToProto nullable_of].
    rewrite !stoi_print by assumption. subst b. now rewrite nullness.
  - split; [reflexivity|]. cbn [printType fst]. unfold textToTypeProto. rewrite qmark_q.
    rewrite (decode_length_print $"varchar" PVarchar TVarchar) by (try (now apply wordb_word); try reflexivity; simpl; lia).
    cbn [typeToProto nullable_of]. rewrite print_Z_integer. cbn [negb]. rewrite stoi_print by assumption. now rewrite nullness.
  - split; [reflexivity|]. cbn [printType fst]. unfold textToTypeProto. rewrite qmark_q.
    rewrite (decode_length_print $"fixedchar" PFixedChar TFixedChar) by (try (now apply wordb_word); try reflexivity; simpl; lia).
    cbn [typeToProto nullable_of]. rewrite stoi_print by assumption. now rewrite nullness.
Qed.
(** Every other type (parameters being 32-bit integers) is reported. *)
Definition params_ok (t : ptype) : Prop :=
  match t with PtDecimal p s _ => int32 p /\ int32 s | PtVarchar l _ | PtFixedChar l _ => int32 l | _ => True end.
Lemma print_other t : params_ok t -> (forall t', ~ Printable t t') -> snd (printType t) = 1.
Proof.
  intros P H. destruct t as [|k n|l n|l n|l n|p s n|l n|e n|k v n|r]; cbn [params_ok] in P; try reflexivity.
  - destruct k; try reflexivity; exfalso; eapply H; constructor; simpl; tauto.
  - exfalso; eapply H; constructor; exact P.
  - exfalso; eapply H; constructor; exact P.
  - exfalso; eapply H; constructor; tauto.
Qed.

(** * Reading any type text *)
Definition each (inside : bool) : list ty -> outcome (list ptype * list terr) :=
  fix each (l : list ty) := match l with
  | [] => Ok ([], [])
  | x :: r => a <- typeToProto inside x ;; b <- each r ;; Ok (fst a :: fst b, snd a ++ snd b)
  end.
Lemma each_cons inside x r : each inside (x :: r) =
  (a <- typeToProto inside x ;; b <- each inside r ;; Ok (fst a :: fst b, snd a ++ snd b)).
Proof. reflexivity. Qed.
Lemma typeToProto_struct inside l n : typeToProto inside (PStruct l n) =
  (r <- each inside l ;; Ok (PtStruct (fst r) (if n then NNullable else NRequired), snd r)).
Proof. reflexivity. Qed.

Lemma stoi_big v s : num_text v s -> small v = false -> exists e, stoi s = Throw e.
Proof.
  intros [H V] L. unfold small in L. apply numeral_iff in H as [Ne D]. destruct s as [|c s]; [congruence|].
  assert (Dc : is_digit c = true) by (simpl in D; apply andb_true_iff in D; tauto).
  unfold stoi. rewrite ltrim_head by (apply wordc_not_ws; unfold wordc; rewrite Dc; now rewrite orb_true_r).
  replace (ceq c "-"%char) with false.
  2:{ symmetry. destruct (ceq c "-"%char) eqn:E; [|reflexivity]. apply ceq_true in E. subst c. discriminate. }
  replace (ceq c "+"%char) with false.
  2:{ symmetry. destruct (ceq c "+"%char) eqn:E; [|reflexivity]. apply ceq_true in E. subst c. discriminate. }
  cbv zeta beta iota. rewrite take_digits_all by exact D. rewrite V.
  replace ((-2147483648 <=? Z.of_N v) && (Z.of_N v <=? 2147483647))%Z with false by lia. eauto.
Qed.
(** The result: exact without errors, or at least one error; a fixedbinary loses its length. *)
Definition reads (t : cty) (o : outcome (ptype * list terr)) : Prop :=
  exists y errs, o = Ok (y, errs) /\ (fits t = true -> has_fixedbinary t = false -> y = proto_of t) /\
    (fits t = true -> errs = []) /\ (fits t = false -> has_fixedbinary t = false -> errs <> []).
Lemma Den_not_null m t y : Den m t y -> y <> TNull.
Proof. intros H. destruct H; discriminate. Qed.
Lemma num_integer v x : num_text v x -> isInteger x = true.
Proof. intros [N _]. apply isInteger_iff. now left. Qed.
Ltac reads_now := eexists; eexists; split; [reflexivity|]; cbn [fits has_fixedbinary proto_of]; repeat split; intros; try reflexivity; try congruence; try discriminate.
Lemma Den_reads inside t : forall y, Den true t y -> reads t (typeToProto inside y).
Proof.
  induction t as [k n|p s n|l n|l n|l n|e n IH|k v n IHk IHv|l n IH] using cty_ind'; intros y H; inversion H; subst.
  - cbn [typeToProto nullable_of]. reads_now.
  - cbn [typeToProto nullable_of]. unfold reads. cbn [fits has_fixedbinary proto_of].
    destruct (small p) eqn:Sp.
    + rewrite (stoi_num p x) by assumption. destruct (small s) eqn:Ss.
      * rewrite (stoi_num s y0) by assumption. reads_now.
      * destruct (stoi_big s y0) as [e' ->]; [assumption..|]. reads_now.
    + destruct (stoi_big p x) as [e' ->]; [assumption..|]. reads_now.
  - cbn [typeToProto nullable_of]. reads_now.
  - cbn [typeToProto nullable_of]. unfold reads. cbn [fits has_fixedbinary proto_of].
    destruct (small l) eqn:Sl.
    + rewrite (stoi_num l x) by assumption. reads_now.
    + destruct (stoi_big l x) as [e' ->]; [assumption..|]. reads_now.
  - cbn [typeToProto nullable_of]. rewrite (num_integer l x) by assumption. cbn [negb]. unfold reads. cbn [fits has_fixedbinary proto_of].
    destruct (small l) eqn:Sl.
    + rewrite (stoi_num l x) by assumption. reads_now.
    + destruct (stoi_big l x) as [e' ->]; [assumption..|]. reads_now.
  - cbn [typeToProto nullable_of]. destruct (IH y0) as (z & errs & -> & A & B & C); [assumption|]. cbn [obind fst snd].
    eexists; eexists; split; [reflexivity|]. cbn [fits has_fixedbinary proto_of]. repeat split; auto. intros F1 F2. unfold pn. now rewrite A.
  - destruct (IHk y0) as (a & ea & Ea & A1 & A2 & A3); [assumption|]. destruct (IHv z) as (b & eb & Eb & B1 & B2 & B3); [assumption|].
    assert (E : typeToProto inside (PMap y0 z n) =
      (a <- typeToProto inside y0 ;; b <- typeToProto inside z ;; Ok (PtMap (fst a) (fst b) (if n then NNullable else NRequired), snd a ++ snd b))).
    { assert (y0 <> TNull) by (eapply Den_not_null; eassumption). assert (z <> TNull) by (eapply Den_not_null; eassumption). destruct y0; try congruence; destruct z; try congruence; reflexivity. }
    rewrite E, Ea, Eb. cbn [obind fst snd]. eexists; eexists; split; [reflexivity|]. cbn [fits has_fixedbinary proto_of].
    rewrite andb_true_iff, andb_false_iff, orb_false_iff. repeat split.
    + intros [F1 F2] [G1 G2]. unfold pn. now rewrite A1, B1.
    + intros [F1 F2]. now rewrite A2, B2.
    + intros [F|F] [G1 G2] Z; apply app_eq_nil in Z as [Z1 Z2]; [now apply A3|now apply B3].
  - rewrite typeToProto_struct.
    enough (G : exists zs errs, each inside ys = Ok (zs, errs) /\
        (forallb fits l = true -> existsb has_fixedbinary l = false -> zs = map proto_of l) /\
        (forallb fits l = true -> errs = []) /\ (forallb fits l = false -> existsb has_fixedbinary l = false -> errs <> [])).
    { destruct G as (zs & errs & -> & A & B & C). cbn [obind fst snd]. eexists; eexists; split; [reflexivity|].
      cbn [fits has_fixedbinary proto_of]. repeat split; auto. intros F1 F2. unfold pn. now rewrite A. }
    match goal with F : Forall2 _ _ _ |- _ => clear H; revert ys F end.
    induction IH as [|x l Hx F IHl]; intros ys F2; inversion F2; subst; [|rewrite each_cons].
    + exists [], []. repeat split; auto. discriminate.
    + destruct (Hx y) as (a & ea & -> & A1 & A2 & A3); [assumption|]. destruct (IHl l') as (zs & eb & -> & B1 & B2 & B3); [assumption|].
      cbn [obind fst snd forallb existsb map]. eexists; eexists; split; [reflexivity|].
      rewrite andb_true_iff, andb_false_iff, orb_false_iff. repeat split.
      * intros [F1 F3] [G1 G2]. now rewrite A1, B1.
      * intros [F1 F3]. now rewrite A2, B2.
      * intros [F1|F1] [G1 G2] Z; apply app_eq_nil in Z as [Z1 Z2]; [now apply A3|now apply B3].
Qed.
Lemma text_reads inside t s : Txt t s -> null_ok t = true -> reads t (textToTypeProto inside s).
Proof.
  intros H N. destruct (decode_text true t s H) as (y & E & D); [discriminate|exact N|]. unfold textToTypeProto. rewrite E. now apply Den_reads.
Qed.
Lemma text_rejected inside t s : Txt t s -> null_ok t = false -> textToTypeProto inside s = Ok (PtNone, [FailedDecode]).
Proof. intros H N. unfold textToTypeProto. rewrite (decode_text_reject true t s H); [reflexivity|discriminate|exact N]. Qed.
