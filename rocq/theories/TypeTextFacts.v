From Verif Require Import Base BaseFacts StringsModel StringsFacts TypeModel TypeFacts TypeCaseFacts.
From Coq Require Import Lia ZifyBool ZifyNat ZifyN.

(** * Specification: the object a type text denotes.
    [Den false]: concrete decoding; [Den true]: parameterised decoding, which keeps the text of numbers. *)
Inductive Den : bool -> cty -> ty -> Prop :=
| D_scalar m k n : Den m (CScalar k n) (TScalar k n)
| D_dec p s n : Den false (CDecimal p s n) (TDecimal (Z.of_N p) (Z.of_N s) n)
| D_fbin l n : Den false (CFixedBinary l n) (TFixedBinary (Z.of_N l) n)
| D_fchar l n : Den false (CFixedChar l n) (TFixedChar (Z.of_N l) n)
| D_vchar l n : Den false (CVarchar l n) (TVarchar (Z.of_N l) n)
| D_list e y n : Den false e y -> Den false (CList e n) (TList y n)
| D_map k v y z n : Den false k y -> Den false v z -> Den false (CMap k v n) (TMap y z n)
| D_struct l ys n : Forall2 (Den false) l ys -> Den false (CStruct l n) (TStruct ys n)
| D_pdec p s n x y : num_text p x -> num_text s y ->
    Den true (CDecimal p s n) (PDecimal (TStrLit x false false) (TStrLit y false false) n)
| D_pfbin l n x : num_text l x -> Den true (CFixedBinary l n) (PFixedBinary (TStrLit x false false) n)
| D_pfchar l n x : num_text l x -> Den true (CFixedChar l n) (PFixedChar (TStrLit x false false) n)
| D_pvchar l n x : num_text l x -> Den true (CVarchar l n) (PVarchar (TStrLit x false false) n)
| D_plist e y n : Den true e y -> Den true (CList e n) (PList y n)
| D_pmap k v y z n : Den true k y -> Den true v z -> Den true (CMap k v n) (PMap y z n)
| D_pstruct l ys n : Forall2 (Den true) l ys -> Den true (CStruct l n) (PStruct ys n).

Lemma Den_conc t : forall y, Den false t y -> y = conc t.
Proof.
  induction t as [k n|p s n|l n|l n|l n|e n IH|k v n IHk IHv|l n IH] using cty_ind'; intros y H; inversion H; subst;
    cbn [conc]; try reflexivity.
  - f_equal. auto.
  - f_equal; auto.
  - f_equal. match goal with F : Forall2 _ _ _ |- _ => clear H; revert F end. revert ys.
    induction IH as [|x l Hx F IHl]; intros ys F2; inversion F2; subst; cbn [map]; [reflexivity|]. f_equal; auto.
Qed.

(** * Characters *)
Definition wordc (c : ascii) : bool := is_alpha c || is_digit c || ceq c "_"%char.
Definition word (s : str) : Prop := Forall (fun c => wordc c = true) s.
Lemma wordc_lower c : wordc (lower c) = wordc c.
Proof.
  unfold wordc. rewrite is_digit_lower, ceq_lower by reflexivity. f_equal. f_equal.
  unfold is_alpha, is_upper, is_lower. rewrite lower_code. unfold is_upper.
  destruct ((65 <=? code c) && (code c <=? 90))%N eqn:U; lia.
Qed.
Lemma word_lower s : word (to_lower s) <-> word s.
Proof.
  unfold word, to_lower. rewrite Forall_map. split; intros H; (eapply Forall_impl; [|exact H]); simpl; intros c;
    now rewrite wordc_lower.
Qed.
Lemma wordb_word s : forallb wordc s = true -> word s.
Proof. unfold word. rewrite forallb_forall, Forall_forall. auto. Qed.
Lemma wordc_not c d : wordc c = true -> wordc d = false -> c <> d.
Proof. intros H1 H2 ->. congruence. Qed.
Lemma word_notin s d : word s -> wordc d = false -> ~ In d s.
Proof. unfold word. rewrite Forall_forall. intros H Hd I. specialize (H d I). congruence. Qed.
Lemma wordc_not_ws c : wordc c = true -> ~ ws c.
Proof.
  intros H W. unfold ws in W. unfold wordc, is_alpha, is_upper, is_lower, is_digit in H.
  destruct (ceq c "_"%char) eqn:E.
  - apply ceq_true in E. subst c. cbv in W. intuition discriminate.
  - simpl in W. lia.
Qed.
Lemma ws_wordc c : ws c -> wordc c = false.
Proof. destruct (wordc c) eqn:E; auto. intros W. exfalso. eapply wordc_not_ws; eauto. Qed.
(** Characters that can occur in type text. *)
Definition okc (c : ascii) : Prop := wordc c = true \/ ws c \/ In c $"?<>,".

(** * Splitting *)
Definition pre (s : str) (p : str * list str) : str * list str := (s ++ fst p, snd p).
Lemma pre_app a b p : pre (a ++ b) p = pre a (pre b p).
Proof. unfold pre. simpl. now rewrite app_assoc. Qed.
(** [pass k s]: no comma of [s] separates at depth [k] or more, and its brackets are balanced. *)
Definition pass (k : Z) (s : str) : Prop :=
  forall cnt rest, (k <= cnt)%Z -> split_tokens cnt (s ++ rest) = pre s (split_tokens cnt rest).
Lemma pass_nil k : pass k [].
Proof. intros cnt rest _. unfold pre. simpl. now destruct (split_tokens cnt rest). Qed.
Lemma pass_app k a b : pass k a -> pass k b -> pass k (a ++ b).
Proof. intros Ha Hb cnt rest L. rewrite <- app_assoc, Ha, Hb, pre_app by exact L. reflexivity. Qed.
Lemma pass_weaken j k s : (j <= k)%Z -> pass j s -> pass k s.
Proof. intros L H cnt rest L'. apply H. lia. Qed.
Lemma pass_plain k c : ~ In c $"<>," -> pass k [c].
Proof.
  intros H cnt rest _. cbn [app split_tokens].
  assert (N : forall d, In d $"<>," -> ceq c d = false).
  { intros d I. destruct (ceq c d) eqn:E; [|reflexivity]. apply ceq_true in E. subst d. contradiction. }
  rewrite !N by (simpl; tauto). rewrite andb_false_r. destruct (split_tokens cnt rest). reflexivity.
Qed.
Lemma pass_Forall k s : Forall (fun c => ~ In c $"<>,") s -> pass k s.
Proof.
  induction 1 as [|c s Hc Hs IH]; [apply pass_nil|]. change (c :: s) with ([c] ++ s). apply pass_app; [now apply pass_plain|exact IH].
Qed.
Lemma pass_word k s : word s -> pass k s.
Proof.
  intros H. apply pass_Forall. eapply Forall_impl; [|exact H]. simpl. intros c Hc I.
  repeat (destruct I as [<-|I]; [discriminate Hc|]). contradiction.
Qed.
Lemma pass_ws k s : Forall ws s -> pass k s.
Proof.
  intros H. apply pass_Forall. eapply Forall_impl; [|exact H]. simpl. intros c Hc I.
  repeat (destruct I as [<-|I]; [cbv in Hc; intuition discriminate|]). contradiction.
Qed.
Lemma pass_comma k : (1 <= k)%Z -> pass k $",".
Proof.
  intros L cnt rest L'. change ($"," ++ rest) with (","%char :: rest). cbn [split_tokens].
  change (ceq ","%char "<"%char) with false. change (ceq ","%char ">"%char) with false. change (ceq ","%char ","%char) with true.
  replace (cnt =? 0)%Z with false by lia. cbn [andb]. destruct (split_tokens cnt rest). reflexivity.
Qed.
Lemma pass_angles k s : pass (k + 1) s -> pass k ($"<" ++ s ++ $">").
Proof.
  intros H cnt rest L. change ($"<" ++ s ++ $">") with ("<"%char :: s ++ [">"%char]).
  cbn [app split_tokens]. change (ceq "<"%char "<"%char) with true. cbv iota.
  rewrite <- app_assoc, H by lia. cbn [app split_tokens].
  change (ceq ">"%char "<"%char) with false. change (ceq ">"%char ">"%char) with true. cbv iota.
  replace (cnt + 1 - 1)%Z with cnt by lia. destruct (split_tokens cnt rest). unfold pre. cbn [fst snd app]. now rewrite <- app_assoc.
Qed.
Lemma pass_q k n : pass k (q n).
Proof. destruct n; [|apply pass_nil]. apply pass_plain. cbv. intuition discriminate. Qed.
Lemma split_comma x r : pass 0 x -> split_tokens 0 (x ++ $"," ++ r) = (x, let '(t, ts) := split_tokens 0 r in t :: ts).
Proof.
  intros H. rewrite H by lia. change ($"," ++ r) with (","%char :: r). cbn [split_tokens].
  change (ceq ","%char "<"%char) with false. change (ceq ","%char ">"%char) with false.
  change ((0 =? 0)%Z && ceq ","%char ","%char) with true. cbv iota.
  destruct (split_tokens 0 r). unfold pre. cbn [fst snd]. now rewrite app_nil_r.
Qed.
Lemma split_end x : pass 0 x -> split_tokens 0 (x ++ $">") = (x ++ $">", []).
Proof. intros H. rewrite H by lia. reflexivity. Qed.
Lemma cut_end x : cut_last (x ++ $">") = x.
Proof.
  unfold cut_last. change (x ++ $">") with (x ++ ">"%char :: []). rewrite rfind_app by (simpl; tauto).
  rewrite firstn_app, firstn_all, Nat.sub_diag. simpl. apply app_nil_r.
Qed.

(** * Numbers *)
Lemma numeral_digits s : Numeral s -> s <> [] /\ Forall (fun c => is_digit c = true) s.
Proof. rewrite numeral_iff. intros [H1 H2]. split; [exact H1|]. now rewrite Forall_forall, <- forallb_forall. Qed.
Lemma numeral_word s : Numeral s -> word s.
Proof. intros H. apply numeral_digits in H as [_ H]. eapply Forall_impl; [|exact H]. simpl. intros c E. unfold wordc. rewrite E. now rewrite orb_true_r. Qed.
Lemma trim_ends c s d : ~ ws c -> ~ ws d -> trim (c :: s ++ [d]) = c :: s ++ [d].
Proof.
  intros Hc Hd. apply trimmed_unique. exists [], []. rewrite app_nil_r. repeat split; auto.
  - intros x r [= <- _]. exact Hc.
  - intros x r E. change (c :: s ++ [d]) with ((c :: s) ++ [d]) in E. apply app_inj_tail in E as [_ <-]. exact Hd.
Qed.
Lemma trim_word s : word s -> trim s = s.
Proof.
  intros H. apply trimmed_unique. exists [], []. rewrite app_nil_r. unfold word in H. rewrite Forall_forall in H.
  repeat split; auto.
  - intros x r E. apply wordc_not_ws, H. rewrite E. left; reflexivity.
  - intros x r E. apply wordc_not_ws, H. rewrite E. apply in_or_app. right. left. reflexivity.
Qed.
Lemma scalar_of_some s k : scalar_of s = Some k -> exists c r, s = c :: r /\ is_alpha c = true.
Proof.
  unfold scalar_of. intros H.
  repeat match type of H with
  | (if (?x =s ?y) || (?x =s ?z) then _ else _) = _ =>
      let E := fresh in let E' := fresh in
      destruct (x =s y) eqn:E; [apply seq_eqb_eq in E; subst s; eexists; eexists; split; reflexivity|];
      destruct (x =s z) eqn:E'; [apply seq_eqb_eq in E'; subst s; eexists; eexists; split; reflexivity|]; cbn [orb] in H
  | (if ?x =s ?y then _ else _) = _ =>
      let E := fresh in destruct (x =s y) eqn:E; [apply seq_eqb_eq in E; subst s; eexists; eexists; split; reflexivity|]
  end. discriminate H.
Qed.
Lemma decode_num m s : Numeral s -> decode m s = Ok (TStrLit s false false).
Proof.
  intros H. pose proof (numeral_word s H) as W. pose proof H as H0. apply numeral_digits in H as [Ne D].
  rewrite decode_eq. cbv zeta. rewrite (trim_word s W).
  rewrite (digits_lower_id s) by (rewrite forallb_forall; now rewrite Forall_forall in D).
  destruct (find_first "<"%char s) eqn:F.
  { apply find_first_some in F as (_ & a & b & -> & _). exfalso. eapply (word_notin _ "<"%char W); [reflexivity|].
    apply in_or_app. right. left. reflexivity. }
  assert (NQ : (match s with [] => false | _ :: _ => ceq (last s zero) "?"%char end) = false).
  { destruct s as [|c s]; [congruence|]. destruct (ceq (last (c :: s) zero) "?"%char) eqn:E; [|reflexivity].
    apply ceq_true in E. exfalso. apply (word_notin _ "?"%char W); [reflexivity|]. rewrite <- E.
    destruct (exists_last (l:=c :: s) ltac:(discriminate)) as (x & y & Exy). rewrite Exy, last_last.
    apply in_or_app. right. left. reflexivity. }
  assert (NQ' : (match s with [] => false | _ => ceq (last s zero) "?"%char end) = false) by exact NQ.
  rewrite NQ'. clear NQ NQ'.
  destruct s as [|c s]; [congruence|]. inversion D as [|? ? Dc Ds]; subst.
  assert (Al : is_alpha c = false) by (unfold is_alpha, is_upper, is_lower, is_digit in *; lia).
  destruct (scalar_of (c :: s)) eqn:Sc.
  { apply scalar_of_some in Sc as (c' & r & [= <- <-] & A). congruence. }
  assert (Wc : (substr 0 3 (c :: s) =s $"any") = false).
  { destruct (substr 0 3 (c :: s) =s $"any") eqn:E; [|reflexivity]. apply seq_eqb_eq in E. unfold substr in E. cbn [skipn firstn] in E.
    injection E as -> _. discriminate. }
  rewrite Wc. cbn [negb andb].
  assert (I : isInteger (c :: s) = true) by (apply isInteger_iff; left; exact H0).
  rewrite I. reflexivity.
Qed.
Lemma take_digits_all s : forallb is_digit s = true -> take_digits s = s.
Proof. induction s as [|c s IH]; [reflexivity|]. simpl. rewrite andb_true_iff. intros [-> H]. now rewrite IH. Qed.
Lemma ltrim_head c s : ~ ws c -> ltrim (c :: s) = c :: s.
Proof. intros H. rewrite ltrim_cons. apply wsb_false in H. now rewrite H. Qed.
Lemma stoi_num v s : num_text v s -> small v = true -> stoi s = Ok (Z.of_N v).
Proof.
  intros [H V] L. unfold small in L. apply numeral_iff in H as [Ne D]. destruct s as [|c s]; [congruence|].
  assert (Dc : is_digit c = true) by (simpl in D; apply andb_true_iff in D; tauto).
  unfold stoi. rewrite ltrim_head by (apply wordc_not_ws; unfold wordc; rewrite Dc; now rewrite orb_true_r).
  replace (ceq c "-"%char) with false.
  2:{ symmetry. destruct (ceq c "-"%char) eqn:E; [|reflexivity]. apply ceq_true in E. subst c. discriminate. }
  replace (ceq c "+"%char) with false.
  2:{ symmetry. destruct (ceq c "+"%char) eqn:E; [|reflexivity]. apply ceq_true in E. subst c. discriminate. }
  cbv zeta beta iota. rewrite take_digits_all by exact D. rewrite V.
  replace ((-2147483648 <=? Z.of_N v) && (Z.of_N v <=? 2147483647))%Z with true by lia. reflexivity.
Qed.

(** * Scalars *)
Lemma scalar_name_of k b : scalar_name k b -> scalar_of (to_lower b) = Some k /\ word b.
Proof.
  intros [E|[[-> E]|[-> E]]].
  - split; [rewrite E; destruct k; reflexivity|]. apply word_lower. rewrite E. apply wordb_word. destruct k; reflexivity.
  - split; [rewrite E; reflexivity|]. apply word_lower. rewrite E. now apply wordb_word.
  - split; [rewrite E; reflexivity|]. apply word_lower. rewrite E. now apply wordb_word.
Qed.
Lemma q_okc n : Forall okc (q n).
Proof. destruct n; [|constructor]. constructor; [|constructor]. right. right. simpl. tauto. Qed.
Lemma to_lower_q n : to_lower (q n) = q n.
Proof. destruct n; reflexivity. Qed.
Lemma decode_scalar m k n b : scalar_name k b -> decode m (b ++ q n) = Ok (TScalar k n).
Proof.
  intros H. apply scalar_name_of in H as [Sc W].
  assert (Ne : b <> []) by (intros ->; discriminate Sc).
  assert (NL : ~ In "<"%char (to_lower b)) by (apply word_notin; [now apply word_lower|reflexivity]).
  assert (NQ : ~ In "?"%char (to_lower b)) by (apply word_notin; [now apply word_lower|reflexivity]).
  assert (T : trim (b ++ q n) = b ++ q n).
  { destruct n; cbn [q]; [|rewrite app_nil_r; now apply trim_word].
    destruct b as [|c b]; [congruence|]. inversion W; subst. apply (trim_ends c b "?"%char); [now apply wordc_not_ws|].
    intros I. cbv in I. intuition discriminate. }
  rewrite decode_eq. cbv zeta. rewrite T, to_lower_app, to_lower_q.
  replace (find_first "<"%char (to_lower b ++ q n)) with (@None nat).
  2:{ symmetry. apply find_first_none. intros I. apply in_app_or in I as [I|I]; [contradiction|]. destruct n; simpl in I; intuition discriminate. }
  destruct n; cbn [q].
  - change (to_lower b ++ $"?") with (to_lower b ++ ["?"%char]). rewrite last_last.
    replace (match to_lower b ++ ["?"%char] with [] => false | _ :: _ => ceq "?"%char "?"%char end) with true
      by (destruct (to_lower b); reflexivity).
    rewrite (rfind_app "?"%char (to_lower b) []) by (simpl; tauto).
    unfold substr. cbn [skipn]. rewrite firstn_app, firstn_all, Nat.sub_diag. cbn [firstn]. rewrite app_nil_r, Sc. reflexivity.
  - rewrite app_nil_r.
    replace (match to_lower b with [] => false | _ :: _ => ceq (last (to_lower b) zero) "?"%char end) with false.
    2:{ symmetry. destruct (to_lower b) as [|c r] eqn:E; [reflexivity|].
        destruct (ceq (last (c :: r) zero) "?"%char) eqn:Q; [|reflexivity]. apply ceq_true in Q. exfalso. apply NQ. rewrite <- Q.
        destruct (exists_last (l:=c :: r) ltac:(discriminate)) as (x & y & Exy). rewrite Exy, last_last.
        apply in_or_app. right. left. reflexivity. }
    rewrite Sc. reflexivity.
Qed.

(** * Compound texts *)
Lemma in_lower d s : is_alpha d = false -> In d (to_lower s) <-> In d s.
Proof.
  intros H. unfold to_lower. rewrite in_map_iff. split.
  - intros (c & E & I). apply (proj1 (lower_fixed c d H)) in E. now subst c.
  - intros I. exists d. split; [now apply lower_fixed|exact I].
Qed.
Lemma substr0_app (a b : str) : substr 0 (length a) (a ++ b) = a.
Proof. unfold substr. cbn [skipn]. rewrite firstn_app, firstn_all, Nat.sub_diag. cbn [firstn]. apply app_nil_r. Qed.

Lemma decode_compound m b name n body t ts :
  to_lower b = name -> word name -> 2 <= length name ->
  split_tokens 0 (body ++ $">") = (t, ts) ->
  let W := b ++ q n ++ $"<" ++ body ++ $">" in
  decode m W = (nested <- omap (decode m) (tokens_of t ts) ;;
    build m n W (if n && (match rfind_char "?"%char body with Some _ => true | None => false end)
                 then name ++ $"?" else name) nested).
Proof.
  intros Eb Wn Ln Sp W.
  assert (Wb : word b) by (apply word_lower; now rewrite Eb).
  assert (T : trim W = W).
  { subst W. destruct b as [|c b]; [rewrite <- Eb in Ln; simpl in Ln; lia|].
    replace ((c :: b) ++ q n ++ $"<" ++ body ++ $">") with (c :: (b ++ q n ++ $"<" ++ body) ++ [">"%char])
      by (cbn [app]; rewrite <- !app_assoc; reflexivity).
    inversion Wb; subst. apply trim_ends; [now apply wordc_not_ws|]. intros I. cbv in I. intuition discriminate. }
  rewrite decode_eq. cbv zeta. rewrite T.
  assert (EW : to_lower W = name ++ q n ++ "<"%char :: to_lower body ++ $">").
  { subst W. rewrite !to_lower_app, to_lower_q, Eb. reflexivity. }
  set (L := length (name ++ q n)).
  assert (NL : ~ In "<"%char (name ++ q n)).
  { intros I. apply in_app_or in I as [I|I]; [revert I; now apply word_notin|]. destruct n; simpl in I; intuition discriminate. }
  assert (F : find_first "<"%char (to_lower W) = Some L).
  { rewrite EW, app_assoc. now apply find_first_app. }
  rewrite F.
  assert (SF : substr_from (L + 1) W = body ++ $">").
  { unfold substr_from. subst W L. rewrite app_length, <- Eb, to_lower_length.
    replace (b ++ q n ++ $"<" ++ body ++ $">") with ((b ++ q n ++ $"<") ++ body ++ $">") by (now rewrite <- !app_assoc).
    replace (length b + length (q n) + 1) with (length (b ++ q n ++ $"<")) by (rewrite !app_length; cbn [length]; simpl; lia).
    rewrite skipn_app, skipn_all, Nat.sub_diag. reflexivity. }
  rewrite SF, Sp.
  assert (Lq : length (q n) = if n then 1 else 0) by (destruct n; reflexivity).
  assert (NU : (1 <? L) && ceq (nth (L - 1) (to_lower W) zero) "?"%char = n).
  { replace (1 <? L) with true by (subst L; rewrite app_length; lia). cbn [andb]. rewrite EW. destruct n; cbn [q].
    - subst L. rewrite app_nth2 by (rewrite app_length; cbn [length q]; simpl; lia).
      replace (length (name ++ q true) - 1 - length name) with 0 by (rewrite app_length; simpl; lia). reflexivity.
    - subst L. cbn [q] in *. rewrite app_nil_r. cbn [app]. rewrite app_nth1 by lia.
      destruct (ceq (nth (length name - 1) name zero) "?"%char) eqn:E; [|reflexivity]. apply ceq_true in E. exfalso.
      apply (word_notin name "?"%char Wn); [reflexivity|]. rewrite <- E. apply nth_In. lia. }
  rewrite NU.
  match goal with |- context[build m n W ?base _] => replace base with
    (if n && (match rfind_char "?"%char body with Some _ => true | None => false end) then name ++ $"?" else name) end.
  { reflexivity. }
  symmetry. rewrite EW. destruct n; cbn [andb].
  - destruct (rfind_char "?"%char body) as [i|] eqn:R.
    + apply rfind_split in R as (x & y & Exy & _ & Ny).
      replace (rfind_char "?"%char (name ++ q true ++ "<"%char :: to_lower body ++ $">"))
        with (Some (length (name ++ q true ++ "<"%char :: to_lower x))).
      2:{ symmetry. rewrite Exy, to_lower_app, to_lower_cons.
          replace (name ++ q true ++ "<"%char :: (to_lower x ++ lower "?"%char :: to_lower y) ++ $">")
            with ((name ++ q true ++ "<"%char :: to_lower x) ++ "?"%char :: to_lower y ++ $">").
          2:{ rewrite <- ?app_assoc. cbn [app]. rewrite <- ?app_assoc. reflexivity. }
          apply rfind_app. intros I. apply in_app_or in I as [I|I]; [apply (proj1 (in_lower "?"%char _ eq_refl)) in I; contradiction|].
          simpl in I. intuition discriminate. }
      rewrite Nat.min_l by (subst L; rewrite !app_length; cbn [length]; lia).
      subst L. rewrite app_assoc. rewrite (substr0_app (name ++ q true)). reflexivity.
    + apply rfind_none in R.
      replace (rfind_char "?"%char (name ++ q true ++ "<"%char :: to_lower body ++ $">")) with (Some (length name)).
      2:{ symmetry. change (q true ++ "<"%char :: to_lower body ++ $">") with ("?"%char :: "<"%char :: to_lower body ++ $">").
          apply rfind_app. intros [I|I]; [discriminate|]. apply in_app_or in I as [I|I]; [apply (proj1 (in_lower "?"%char _ eq_refl)) in I; contradiction|].
          simpl in I. intuition discriminate. }
      rewrite Nat.min_r by (subst L; rewrite app_length; lia). apply substr0_app.
  - subst L. cbn [q app]. rewrite app_nil_r. apply substr0_app.
Qed.

(** * The main induction *)
Definition Res (m : bool) (t : cty) (o : outcome ty) : Prop :=
  if null_ok t then exists y, o = Ok y /\ Den m t y else o = Throw EUnsupported.
Definition ResL (m : bool) (l : list cty) (o : outcome (list ty)) : Prop :=
  if forallb null_ok l then exists ys, o = Ok ys /\ Forall2 (Den m) l ys else o = Throw EUnsupported.

Record TxtOk (t : cty) (s : str) : Prop := {
  to_pass : pass 0 s;
  to_q : In "?"%char s <-> any_nullable t = true;
  to_okc : Forall okc s;
  to_dec : forall m, (m = false -> fits t = true) -> Res m t (decode m s)
}.
Record TxtListOk (l : list cty) (s : str) : Prop := {
  tl_pass : pass 1 s;
  tl_q : In "?"%char s <-> existsb any_nullable l = true;
  tl_okc : Forall okc s;
  tl_dec : exists t ts, split_tokens 0 (s ++ $">") = (t, ts) /\
     forall m, (m = false -> forallb fits l = true) -> ResL m l (omap (decode m) (tokens_of t ts))
}.

Lemma ws_okc a : Forall ws a -> Forall okc a.
Proof. intros H. eapply Forall_impl; [|exact H]. unfold okc. tauto. Qed.
Lemma word_okc a : word a -> Forall okc a.
Proof. intros H. eapply Forall_impl; [|exact H]. unfold okc. tauto. Qed.
Lemma okc_in s : Forall (fun c => In c $"?<>,") s -> Forall okc s.
Proof. intros H. eapply Forall_impl; [|exact H]. unfold okc. tauto. Qed.
Lemma ws_noq a : Forall ws a -> ~ In "?"%char a.
Proof. rewrite Forall_forall. intros H I. apply H in I. cbv in I. intuition discriminate. Qed.
Lemma fmt_ok_okc s : Forall okc s -> fmt_ok s = true.
Proof.
  intros H. induction H as [|c s Hc Hs IH]; [reflexivity|].
  assert (N : ceq c "{"%char = false /\ ceq c "}"%char = false).
  { split; match goal with |- ceq c ?d = false => destruct (ceq c d) eqn:E; [|reflexivity] end; apply ceq_true in E; subst c;
      (destruct Hc as [Hc|[Hc|Hc]]; [discriminate Hc|cbv in Hc; intuition discriminate|cbv in Hc; intuition discriminate]). }
  destruct N as [N1 N2]. cbn [fmt_ok]. now rewrite N1, N2.
Qed.
Lemma padded_num v x : padded (num_text v) x ->
  pass 0 x /\ ~ In "?"%char x /\ Forall okc x /\ exists s, num_text v s /\ forall m, decode m x = Ok (TStrLit s false false).
Proof.
  intros (a & t & b & -> & Ha & Hb & Hn). pose proof Hn as [N _]. pose proof (numeral_word _ N) as W.
  split; [|split; [|split]].
  - repeat apply pass_app; auto using pass_ws, pass_word.
  - intros I. apply in_app_or in I as [I|I]; [revert I; now apply ws_noq|]. apply in_app_or in I as [I|I]; [|revert I; now apply ws_noq].
    revert I. now apply word_notin.
  - repeat (apply Forall_app; split); auto using ws_okc, word_okc.
  - exists t. split; [exact Hn|]. intros m. rewrite decode_margins by assumption. now apply decode_num.
Qed.
Lemma padded_txt t a x b : Forall ws a -> Forall ws b -> TxtOk t x -> TxtOk t (a ++ x ++ b).
Proof.
  intros Ha Hb [P Q O D]. constructor.
  - repeat apply pass_app; auto using pass_ws.
  - rewrite <- Q. rewrite !in_app_iff. pose proof (ws_noq a Ha). pose proof (ws_noq b Hb). tauto.
  - repeat (apply Forall_app; split); auto using ws_okc.
  - intros m F. rewrite decode_margins by assumption. auto.
Qed.

Lemma in_wrap (b : str) n body : word b -> In "?"%char (b ++ q n ++ $"<" ++ body ++ $">") <-> (n = true \/ In "?"%char body).
Proof.
  intros W. assert (~ In "?"%char b) by (apply word_notin; [exact W|reflexivity]). rewrite !in_app_iff.
  destruct n; simpl; intuition discriminate.
Qed.
Lemma wrap_okc b n body : word b -> Forall okc body -> Forall okc (b ++ q n ++ $"<" ++ body ++ $">").
Proof.
  intros W O. repeat (apply Forall_app; split); auto using word_okc, q_okc.
  - apply okc_in. constructor; [simpl; tauto|constructor].
  - apply okc_in. constructor; [simpl; tauto|constructor].
Qed.
Lemma wrap_pass b n body : word b -> pass 1 body -> pass 0 (b ++ q n ++ $"<" ++ body ++ $">").
Proof. intros W P. apply pass_app; [now apply pass_word|]. apply pass_app; [apply pass_q|]. now apply pass_angles. Qed.
Lemma rfind_in body : (match rfind_char "?"%char body with Some _ => true | None => false end) = true <-> In "?"%char body.
Proof.
  destruct (rfind_char "?"%char body) eqn:R.
  - apply rfind_split in R as (a & b & -> & _). split; [|reflexivity]. intros _. apply in_or_app. right. left. reflexivity.
  - apply rfind_none in R. split; [discriminate|contradiction].
Qed.

Lemma no_q body b : In "?"%char body <-> b = true -> b = false ->
  (match rfind_char "?"%char body with Some _ => true | None => false end) = false.
Proof. intros Q ->. destruct (match rfind_char "?"%char body with Some _ => true | None => false end) eqn:R; [|reflexivity]. apply rfind_in, Q in R. discriminate. Qed.

(** [build] on a base name that carries a question mark fails. *)
Lemma build_qmark m n raw name nested : In name [$"list"; $"map"; $"struct"; $"decimal"; $"varchar"; $"fixedchar"; $"fixedbinary"] ->
  fmt_ok raw = true -> build m n raw (name ++ $"?") nested = Throw EUnsupported.
Proof. intros I F. cbn [In] in I. unfold build. rewrite F. repeat (destruct I as [<-|I]; [reflexivity|]). contradiction. Qed.

Ltac nm E W := (assert (W : word _) by (apply word_lower; rewrite E; now apply wordb_word)).

Lemma length_type_ok (C : N -> bool -> cty) name (P : ty -> bool -> ty) (T : Z -> bool -> ty) l n b x :
  to_lower b = name -> word name -> 2 <= length name ->
  (forall m n raw nested, build m n raw name nested = decodeLength P T m n nested) ->
  (forall l n, null_ok (C l n) = true /\ any_nullable (C l n) = n /\ fits (C l n) = small l) ->
  (forall l n, Den false (C l n) (T (Z.of_N l) n)) ->
  (forall l n s, num_text l s -> Den true (C l n) (P (TStrLit s false false) n)) ->
  padded (num_text l) x -> TxtOk (C l n) (b ++ q n ++ $"<" ++ x ++ $">").
Proof.
  intros Eb Wn Ln Hb HC HF HT Hp. apply padded_num in Hp as (Px & Qx & Ox & s & Hs & Dx).
  assert (W : word b) by (apply word_lower; now rewrite Eb). destruct (HC l n) as (C1 & C2 & C3).
  constructor.
  - apply wrap_pass; [exact W|]. eapply pass_weaken; [|exact Px]. lia.
  - rewrite in_wrap by exact W. rewrite C2. tauto.
  - now apply wrap_okc.
  - intros m F. rewrite (decode_compound m b name n x _ _ Eb Wn Ln (split_end x Px)).
    cbn [tokens_of]. rewrite cut_end. cbn [omap]. rewrite Dx. cbn [obind].
    assert (R : rfind_char "?"%char x = None) by (now apply rfind_none). rewrite R, andb_false_r, Hb.
    unfold Res. rewrite C1. unfold decodeLength. cbn [cast_strlit]. destruct m.
    + eexists. split; [reflexivity|]. now apply HT.
    + pose proof Hs as [N _]. apply isNonNegativeInteger_iff in N. rewrite N.
      rewrite (stoi_num l s Hs) by (rewrite <- C3; auto). cbn [obind]. eexists. split; [reflexivity|]. apply HF.
Qed.

Lemma Den_cast m t y : Den m t y -> m = false -> cast_type y = y.
Proof. intros H E. destruct H; try discriminate E; reflexivity. Qed.
Lemma Res_bool m t o : Res m t o -> (null_ok t = true /\ exists y, o = Ok y /\ Den m t y) \/ (null_ok t = false /\ o = Throw EUnsupported).
Proof. unfold Res. destruct (null_ok t); auto. Qed.

Lemma Txt_ok : (forall t s, Txt t s -> TxtOk t s) /\ (forall l s, TxtList l s -> TxtListOk l s).
Proof.
  apply Txt_mutind.
  - (* scalar *) intros k n b Hk. pose proof (scalar_name_of _ _ Hk) as [_ W]. constructor.
    + apply pass_app; [now apply pass_word|apply pass_q].
    + rewrite in_app_iff. assert (~ In "?"%char b) by (apply word_notin; [exact W|reflexivity]). destruct n; simpl; intuition discriminate.
    + apply Forall_app. split; [now apply word_okc|apply q_okc].
    + intros m _. unfold Res. cbn [null_ok]. exists (TScalar k n). split; [now apply decode_scalar|constructor].
  - (* decimal *) intros p s n b x y Eb Hx Hy.
    apply padded_num in Hx as (Px & Qx & Ox & xs & Hxs & Dx). apply padded_num in Hy as (Py & Qy & Oy & ys & Hys & Dy).
    assert (Wn : word $"decimal") by (now apply wordb_word).
    assert (W : word b) by (apply word_lower; now rewrite Eb).
    replace (b ++ q n ++ $"<" ++ x ++ $"," ++ y ++ $">") with (b ++ q n ++ $"<" ++ (x ++ $"," ++ y) ++ $">")
      by (now rewrite <- !app_assoc).
    assert (NQ : ~ In "?"%char (x ++ $"," ++ y)).
    { rewrite !in_app_iff. simpl. intuition discriminate. }
    constructor.
    + apply wrap_pass; [exact W|]. apply pass_app; [eapply pass_weaken; [|exact Px]; lia|].
      apply pass_app; [apply pass_comma; lia|eapply pass_weaken; [|exact Py]; lia].
    + rewrite in_wrap by exact W. cbn [any_nullable]. tauto.
    + apply wrap_okc; [exact W|]. repeat (apply Forall_app; split); auto. apply okc_in. constructor; [simpl; tauto|constructor].
    + intros m F. cbn [fits] in F.
      assert (Sp : split_tokens 0 ((x ++ $"," ++ y) ++ $">") = (x, [y ++ $">"])).
      { rewrite <- !app_assoc. rewrite split_comma by exact Px. now rewrite split_end. }
      rewrite (decode_compound m b $"decimal" n _ _ _ Eb Wn ltac:(simpl; lia) Sp).
      cbn [tokens_of]. rewrite cut_end. cbn [omap]. rewrite Dx, Dy. cbn [obind].
      assert (R : rfind_char "?"%char (x ++ $"," ++ y) = None) by (now apply rfind_none). rewrite R, andb_false_r.
      unfold Res. cbn [null_ok]. unfold build.
      change ($"decimal" =s $"list") with false. change ($"decimal" =s $"map") with false. change ($"decimal" =s $"struct") with false.
      change ($"decimal" =s $"decimal") with true. cbv iota zeta. cbn [cast_strlit]. destruct m.
      * eexists. split; [reflexivity|]. now constructor.
      * specialize (F eq_refl). apply andb_true_iff in F as [F1 F2].
        pose proof Hxs as [N1 _]. pose proof Hys as [N2 _]. apply isNonNegativeInteger_iff in N1, N2. rewrite N1, N2.
        rewrite (stoi_num _ _ Hxs F1), (stoi_num _ _ Hys F2). cbn [obind]. eexists. split; [reflexivity|]. constructor.
  - intros l n b x Eb Hx. apply (length_type_ok CFixedBinary $"fixedbinary" PFixedBinary TFixedBinary); auto; try (now apply wordb_word); try (simpl; lia); try (intros; constructor; auto). 
  - intros l n b x Eb Hx. apply (length_type_ok CFixedChar $"fixedchar" PFixedChar TFixedChar); auto; try (now apply wordb_word); try (simpl; lia); try (intros; constructor; auto). 
  - intros l n b x Eb Hx. apply (length_type_ok CVarchar $"varchar" PVarchar TVarchar); auto; try (now apply wordb_word); try (simpl; lia); try (intros; constructor; auto). 
  - (* list *) intros e n b x1 x x2 Eb H1 H2 _ IH. apply (padded_txt e x1 x x2 H1 H2) in IH. set (body := x1 ++ x ++ x2) in *. clearbody body.
    destruct IH as [P Q O D].
    assert (Wn : word $"list") by (now apply wordb_word).
    assert (W : word b) by (apply word_lower; now rewrite Eb).
    constructor.
    + apply wrap_pass; [exact W|]. eapply pass_weaken; [|exact P]. lia.
    + rewrite in_wrap, Q by exact W. cbn [any_nullable]. now rewrite orb_true_iff.
    + now apply wrap_okc.
    + intros m F. cbn [fits] in F. specialize (D m F).
      rewrite (decode_compound m b $"list" n _ _ _ Eb Wn ltac:(simpl; lia) (split_end body P)).
      cbn [tokens_of]. rewrite cut_end. cbn [omap]. unfold Res. cbn [null_ok].
      apply Res_bool in D as [[N (y & -> & Dy)]|[N ->]]; rewrite N.
      2:{ rewrite andb_false_r. reflexivity. }
      cbn [obind]. rewrite andb_true_r.
      destruct (n && any_nullable e) eqn:NA; cbn [negb].
      * apply andb_true_iff in NA as [-> A]. apply Q, rfind_in in A. rewrite A. cbn [andb].
        apply build_qmark; [simpl; tauto|]. apply fmt_ok_okc. now apply wrap_okc.
      * replace (n && _) with false.
        2:{ symmetry. destruct n; [|reflexivity]. cbn [andb] in *. exact (no_q _ _ Q NA). }
        unfold build. change ($"list" =s $"list") with true. cbv iota. destruct m; eexists; (split; [reflexivity|]).
        -- now constructor.
        -- rewrite (Den_cast _ _ _ Dy eq_refl). now constructor.
  - (* map *) intros k v n b x1 x x2 y1 y y2 Eb H1 H2 H3 H4 _ IHx _ IHy.
    apply (padded_txt k x1 x x2 H1 H2) in IHx. apply (padded_txt v y1 y y2 H3 H4) in IHy.
    set (X := x1 ++ x ++ x2) in *. set (Y := y1 ++ y ++ y2) in *. clearbody X Y.
    destruct IHx as [Px Qx Ox Dx], IHy as [Py Qy Oy Dy].
    assert (Wn : word $"map") by (now apply wordb_word).
    assert (W : word b) by (apply word_lower; now rewrite Eb).
    replace (b ++ q n ++ $"<" ++ X ++ $"," ++ Y ++ $">") with (b ++ q n ++ $"<" ++ (X ++ $"," ++ Y) ++ $">")
      by (now rewrite <- !app_assoc).
    assert (Qb : In "?"%char (X ++ $"," ++ Y) <-> any_nullable k || any_nullable v = true).
    { rewrite !in_app_iff, orb_true_iff, Qx, Qy. simpl. intuition discriminate. }
    assert (Ob : Forall okc (X ++ $"," ++ Y)).
    { repeat (apply Forall_app; split); auto. apply okc_in. constructor; [simpl; tauto|constructor]. }
    constructor.
    + apply wrap_pass; [exact W|]. apply pass_app; [eapply pass_weaken; [|exact Px]; lia|].
      apply pass_app; [apply pass_comma; lia|eapply pass_weaken; [|exact Py]; lia].
    + rewrite in_wrap, Qb by exact W. cbn [any_nullable]. rewrite !orb_true_iff. tauto.
    + now apply wrap_okc.
    + intros m F. cbn [fits] in F.
      assert (Fk : m = false -> fits k = true) by (intros E; specialize (F E); apply andb_true_iff in F; tauto).
      assert (Fv : m = false -> fits v = true) by (intros E; specialize (F E); apply andb_true_iff in F; tauto).
      specialize (Dx m Fk). specialize (Dy m Fv).
      assert (Sp : split_tokens 0 ((X ++ $"," ++ Y) ++ $">") = (X, [Y ++ $">"])).
      { rewrite <- !app_assoc. rewrite split_comma by exact Px. now rewrite split_end. }
      rewrite (decode_compound m b $"map" n _ _ _ Eb Wn ltac:(simpl; lia) Sp).
      cbn [tokens_of]. rewrite cut_end. cbn [omap]. unfold Res. cbn [null_ok].
      apply Res_bool in Dx as [[N1 (a & -> & Da)]|[N1 ->]]; rewrite N1; cbn [obind].
      2:{ rewrite andb_false_r. reflexivity. }
      apply Res_bool in Dy as [[N2 (c & -> & Dc)]|[N2 ->]]; rewrite N2; cbn [obind].
      2:{ rewrite andb_false_r. reflexivity. }
      rewrite !andb_true_r.
      destruct (n && (any_nullable k || any_nullable v)) eqn:NA; cbn [negb].
      * apply andb_true_iff in NA as [-> A]. apply Qb, rfind_in in A. rewrite A. cbn [andb].
        apply build_qmark; [simpl; tauto|]. apply fmt_ok_okc. now apply wrap_okc.
      * replace (n && match rfind_char "?"%char (X ++ $"," ++ Y) with Some _ => true | None => false end) with false.
        2:{ symmetry. destruct n; [|reflexivity]. cbn [andb] in *. exact (no_q _ _ Qb NA). }
        unfold build. change ($"map" =s $"list") with false. change ($"map" =s $"map") with true. cbv iota.
        destruct m; eexists; (split; [reflexivity|]).
        -- now constructor.
        -- rewrite (Den_cast _ _ _ Da eq_refl), (Den_cast _ _ _ Dc eq_refl). now constructor.
  - (* struct *) intros l n b s Eb _ [P Q O (t & ts & Sp & D)].
    assert (Wn : word $"struct") by (now apply wordb_word).
    assert (W : word b) by (apply word_lower; now rewrite Eb).
    constructor.
    + now apply wrap_pass.
    + rewrite in_wrap, Q by exact W. cbn [any_nullable]. now rewrite orb_true_iff.
    + now apply wrap_okc.
    + intros m F. cbn [fits] in F. specialize (D m F).
      rewrite (decode_compound m b $"struct" n _ _ _ Eb Wn ltac:(simpl; lia) Sp).
      unfold Res. cbn [null_ok]. unfold ResL in D. destruct (forallb null_ok l) eqn:N.
      2:{ rewrite D, andb_false_r. reflexivity. }
      destruct D as (ys & -> & F2). cbn [obind]. rewrite andb_true_r.
      destruct (n && existsb any_nullable l) eqn:NA; cbn [negb].
      * apply andb_true_iff in NA as [-> A]. apply Q, rfind_in in A. rewrite A. cbn [andb].
        apply build_qmark; [simpl; tauto|]. apply fmt_ok_okc. now apply wrap_okc.
      * replace (n && match rfind_char "?"%char s with Some _ => true | None => false end) with false.
        2:{ symmetry. destruct n; [|reflexivity]. cbn [andb] in *. exact (no_q _ _ Q NA). }
        unfold build. change ($"struct" =s $"list") with false. change ($"struct" =s $"map") with false.
        change ($"struct" =s $"struct") with true. cbv iota.
        destruct m; eexists; (split; [reflexivity|]).
        -- now constructor.
        -- replace (map cast_type ys) with ys; [now constructor|]. clear - F2. induction F2 as [|x y l ys H F2 IH]; [reflexivity|].
           cbn [map]. rewrite <- IH, (Den_cast _ _ _ H eq_refl). reflexivity.
  - (* one child *) intros t x1 x x2 H1 H2 _ IH. apply (padded_txt t x1 x x2 H1 H2) in IH. set (X := x1 ++ x ++ x2) in *. clearbody X.
    destruct IH as [P Q O D]. constructor.
    + eapply pass_weaken; [|exact P]. lia.
    + rewrite Q. cbn [existsb]. now rewrite orb_false_r.
    + exact O.
    + exists (X ++ $">"), []. split; [now apply split_end|]. intros m F. cbn [tokens_of omap forallb] in *. rewrite cut_end.
      assert (F' : m = false -> fits t = true) by (intros E; specialize (F E); apply andb_true_iff in F; tauto).
      specialize (D m F'). unfold ResL. cbn [forallb]. rewrite andb_true_r.
      apply Res_bool in D as [[N (y & -> & Dy)]|[N ->]]; rewrite N; cbn [obind]; [|reflexivity].
      eexists. split; [reflexivity|]. repeat constructor. exact Dy.
  - (* more children *) intros t l x1 x x2 s H1 H2 _ IH _ [P' Q' O' (t' & ts' & Sp & D')].
    apply (padded_txt t x1 x x2 H1 H2) in IH. set (X := x1 ++ x ++ x2) in *. clearbody X. destruct IH as [P Q O D].
    constructor.
    + apply pass_app; [eapply pass_weaken; [|exact P]; lia|]. apply pass_app; [apply pass_comma; lia|exact P'].
    + rewrite !in_app_iff, Q, Q'. cbn [existsb]. rewrite orb_true_iff. simpl. intuition discriminate.
    + repeat (apply Forall_app; split); auto. apply okc_in. constructor; [simpl; tauto|constructor].
    + exists X, (t' :: ts'). split.
      * rewrite <- !app_assoc, split_comma by exact P. now rewrite Sp.
      * intros m F. cbn [tokens_of omap]. cbn [forallb] in F.
        assert (F1 : m = false -> fits t = true) by (intros E; specialize (F E); apply andb_true_iff in F; tauto).
        assert (F2 : m = false -> forallb fits l = true) by (intros E; specialize (F E); apply andb_true_iff in F; tauto).
        specialize (D m F1). specialize (D' m F2). unfold ResL in *. cbn [forallb].
        apply Res_bool in D as [[N (y & -> & Dy)]|[N ->]]; rewrite N; cbn [obind andb]; [|reflexivity].
        destruct (forallb null_ok l).
        -- destruct D' as (ys & -> & F2'). cbn [obind]. eexists. split; [reflexivity|]. now constructor.
        -- rewrite D'. reflexivity.
Qed.

Lemma decode_text m t s : Txt t s -> (m = false -> fits t = true) -> null_ok t = true ->
  exists y, decode m s = Ok y /\ Den m t y.
Proof.
  intros H F N. destruct (proj1 Txt_ok t s H) as [_ _ _ D]. specialize (D m F). unfold Res in D. now rewrite N in D.
Qed.
Lemma decode_text_reject m t s : Txt t s -> (m = false -> fits t = true) -> null_ok t = false ->
  decode m s = Throw EUnsupported.
Proof.
  intros H F N. destruct (proj1 Txt_ok t s H) as [_ _ _ D]. specialize (D m F). unfold Res in D. now rewrite N in D.
Qed.
Lemma decode_text_concrete t s : Txt t s -> fits t = true -> null_ok t = true -> decode false s = Ok (conc t).
Proof.
  intros H F N. destruct (decode_text false t s H (fun _ => F) N) as (y & E & D). rewrite E. f_equal. now apply Den_conc.
Qed.
