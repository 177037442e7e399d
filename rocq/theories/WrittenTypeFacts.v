(** Types that are written as the grammar of plans wants them are read without undefined behaviour. *)
From Verif Require Import Base BaseFacts StringsModel StringsFacts TypeModel TypeFacts.
From Coq Require Import Lia.

(** * What is meant *)
(** a number: it starts with a digit or a minus sign *)
Definition figure (c : ascii) : bool := is_digit c || ceq c "-"%char.
Definition marks : list ascii := ["<"%char; ">"%char; ","%char].
Definition numeral (n : str) : Prop := (exists c r, n = c :: r /\ figure c = true) /\ forall c, In c marks -> ~ In c n.
Fixpoint listing (l : list str) : str := match l with [] => [] | [x] => x | x :: r => x ++ ","%char :: listing r end.
(** Each bracket comes after one of the words list, map and struct, or contains nothing but numbers. *)
Definition ends_in (names : list str) (u : str) : Prop := exists x n q, to_lower u = x ++ n ++ q /\ In n names /\ (q = [] \/ q = $"?").
Definition written (w : str) : Prop := forall u v, w = u ++ "<"%char :: v -> (exists l r, l <> [] /\ Forall numeral l /\ v = listing l ++ ">"%char :: r) \/ ends_in [$"list"; $"map"; $"struct"] u.

(** * Texts and their parts *)
Definition starts_num (v : str) : Prop := match v with [] => True | c :: _ => figure c = true end.
Definition sized : list str := [$"decimal"; $"varchar"; $"fixedchar"].
Definition tame (w : str) : Prop := forall u v, w = u ++ "<"%char :: v -> ends_in sized u -> starts_num v /\ forall n x, (forall c, In c marks -> ~ In c n) -> v = n ++ ","%char :: x -> starts_num x.
Lemma not_both u : ends_in [$"list"; $"map"; $"struct"] u -> ends_in sized u -> False.
Proof.
  intros (x & n & q & E & I & Q) (x' & n' & q' & E' & I' & Q'). rewrite E in E'. clear E u.
  assert (H : exists f c, n = f ++ [c] /\ (c = "t"%char \/ c = "p"%char)) by (repeat destruct I as [<-|I]; [exists $"lis", "t"%char|exists $"ma", "p"%char|exists $"struc", "t"%char|destruct I]; auto).
  assert (H' : exists f c, n' = f ++ [c] /\ (c = "l"%char \/ c = "r"%char)) by (repeat destruct I' as [<-|I']; [exists $"decima", "l"%char|exists $"varcha", "r"%char|exists $"fixedcha", "r"%char|destruct I']; auto).
  destruct H as (f & c & -> & C), H' as (f' & c' & -> & C'). rewrite !app_assoc in E'.
  destruct Q as [->| ->], Q' as [->| ->]; rewrite ?app_nil_r in E'.
  - apply app_inj_tail in E' as [_ E']. destruct C as [->| ->], C' as [->| ->]; discriminate.
  - apply app_inj_tail in E' as [_ E']. destruct C as [->| ->]; discriminate.
  - apply app_inj_tail in E' as [_ E']. destruct C' as [->| ->]; discriminate.
  - apply app_inj_tail in E' as [E' _]. apply app_inj_tail in E' as [_ E']. destruct C as [->| ->], C' as [->| ->]; discriminate.
Qed.
Lemma ends_in_more names x u : ends_in names u -> ends_in names (x ++ u).
Proof. intros (y & n & q & E & H). exists (to_lower x ++ y), n, q. split; [|exact H]. unfold to_lower in *. rewrite map_app, E, !app_assoc. reflexivity. Qed.
Lemma first_comma n m x y : ~ In ","%char n -> ~ In ","%char m -> n ++ ","%char :: x = m ++ ","%char :: y -> n = m /\ x = y.
Proof.
  revert m. induction n as [|c n IH]; intros m Hn Hm E; destruct m as [|d m]; cbn in E; inversion E; subst; auto.
  - destruct Hm. left. reflexivity.
  - destruct Hn. left. reflexivity.
  - destruct (IH m) as [-> ->]; auto; intros I; [apply Hn|apply Hm]; right; exact I.
Qed.
Lemma first_close n m x y : ~ In ","%char n -> ~ In ">"%char n -> n ++ ","%char :: x = m ++ ">"%char :: y -> (forall c, In c marks -> ~ In c m) -> False.
Proof.
  revert m. induction n as [|c n IH]; intros m Hc Hg E Hm; destruct m as [|d m]; cbn in E; inversion E; subst.
  - apply (Hm ","%char); [cbn; auto|left; reflexivity].
  - apply Hg. left. reflexivity.
  - apply (IH m); auto; [intros I; apply Hc; right; exact I|intros I; apply Hg; right; exact I|]. intros c Ic I. apply (Hm c Ic). right. exact I.
Qed.
Lemma written_tame w : written w -> tame w.
Proof.
  intros W u v E S. destruct (W u v E) as [(l & r & N & F & Q)|L]; [|destruct (not_both u L S)]. destruct l as [|n1 l]; [contradiction|]. inversion F as [|? ? [(c & r1 & -> & C) M] F']; subst. split.
  - destruct l; exact C.
  - intros n x Hn Q. assert (Nc : ~ In ","%char n) by (apply Hn; cbn; auto). assert (Ng : ~ In ">"%char n) by (apply Hn; cbn; auto).
    destruct l as [|n2 l]; [cbn [listing] in Q; symmetry in Q; destruct (first_close n (c :: r1) x r Nc Ng Q M)|].
    assert (L : listing ((c :: r1) :: n2 :: l) = (c :: r1) ++ ","%char :: listing (n2 :: l)) by reflexivity. change (listing ((c :: r1) :: n2 :: l) ++ ">"%char :: r = n ++ ","%char :: x) in Q. rewrite L, <- app_assoc in Q. change ((c :: r1) ++ ","%char :: (listing (n2 :: l) ++ ">"%char :: r) = n ++ ","%char :: x) in Q. apply first_comma in Q as [_ <-]; [|apply M; cbn; auto|exact Nc].
    inversion F' as [|? ? [(d & r2 & -> & D) _] _]; subst. destruct l; exact D.
Qed.
Definition part (t s : str) : Prop := exists a b, s = a ++ t ++ b.
Lemma part_refl s : part s s. Proof. exists [], []. rewrite app_nil_r. reflexivity. Qed.
Lemma part_trans r s t : part r s -> part s t -> part r t.
Proof. intros (a & b & ->) (c & d & ->). exists (c ++ a), (b ++ d). rewrite !app_assoc. reflexivity. Qed.
Lemma part_tame t s : part t s -> tame s -> tame t.
Proof.
  intros (a & b & ->) T u v E S. assert (E' : a ++ t ++ b = (a ++ u) ++ "<"%char :: (v ++ b)) by (rewrite E, <- !app_assoc; reflexivity). destruct (T _ _ E' (ends_in_more _ a u S)) as [T1 T2]. split.
  - destruct v; [exact I|exact T1].
  - intros n x Hn Q. specialize (T2 n (x ++ b) Hn). rewrite Q, <- app_assoc in T2. specialize (T2 eq_refl). destruct x; [exact I|exact T2].
Qed.
Lemma split_parts s : forall cnt t ts, split_tokens cnt s = (t, ts) -> (exists b, s = t ++ b) /\ Forall (fun x => part x s) (t :: ts).
Proof.
  induction s as [|c s IH]; intros cnt t ts; cbn [split_tokens]; [intros Q; injection Q as <- <-; split; [exists []; reflexivity|repeat constructor; apply part_refl]|].
  assert (K : forall k t' ts', split_tokens k s = (t', ts') -> (exists b, c :: s = (c :: t') ++ b) /\ Forall (fun x => part x (c :: s)) ((c :: t') :: ts')).
  { intros k t' ts' E. destruct (IH _ _ _ E) as [(b & ->) F]. split; [exists b; reflexivity|]. constructor; [exists [], b; reflexivity|]. inversion F as [|? ? _ F']; subst. eapply Forall_impl; [|exact F']. intros x (a & d & Q). exists (c :: a), d. rewrite Q. reflexivity. }
  destruct (ceq c "<"%char); [destruct (split_tokens (cnt + 1) s) eqn:E; intros Q; injection Q as <- <-; exact (K _ _ _ E)|].
  destruct (ceq c ">"%char); [destruct (split_tokens (cnt - 1) s) eqn:E; intros Q; injection Q as <- <-; exact (K _ _ _ E)|].
  destruct ((cnt =? 0)%Z && ceq c ","%char); [|destruct (split_tokens cnt s) eqn:E; intros Q; injection Q as <- <-; exact (K _ _ _ E)].
  destruct (split_tokens 0 s) as [u us] eqn:E. intros Q. injection Q as <- <-. split; [exists (c :: s); reflexivity|]. constructor; [exists [], (c :: s); reflexivity|]. destruct (IH _ _ _ E) as [_ F]. eapply Forall_impl; [|exact F]. intros x (a & d & Q). exists (c :: a), d. rewrite Q. reflexivity.
Qed.
Lemma cut_part t : exists b, t = cut_last t ++ b.
Proof. unfold cut_last. destruct (rfind_char _ t) as [j|]; [exists (skipn j t); symmetry; apply firstn_skipn|exists []; symmetry; apply app_nil_r]. Qed.
Lemma tokens_parts ts : forall t s, Forall (fun x => part x s) (t :: ts) -> Forall (fun x => part x s) (tokens_of t ts).
Proof.
  induction ts as [|u us IH]; intros t s F; inversion F as [|? ? P F']; subst; cbn [tokens_of].
  - constructor; [|constructor]. destruct (cut_part t) as [b B]. refine (part_trans _ _ _ _ P). exists [], b. exact B.
  - constructor; [exact P|exact (IH _ _ F')].
Qed.
Lemma trim_part s : part (trim s) s.
Proof. destruct (trim_trimmed s) as (a & b & E & _). exists a, b. exact E. Qed.

(** * Reading *)
Definition literal_text (t : ty) : Prop := exists v a b, t = TStrLit v a b.
Definition no_trap (o : outcome ty) : Prop := forall t, o = Ok t -> forall i, typeToProto i t <> UB.
Lemma no_word c r w : figure c = true -> (match w with d :: _ => figure d | [] => false end) = false -> ((c :: r) =s w) = false.
Proof. intros C D. apply seq_eqb_neq. intros <-. congruence. Qed.
Lemma build_unknown b n raw base nested c r : base = c :: r -> figure c = true -> exists e, build b n raw base nested = Throw e.
Proof. intros -> C. unfold build. rewrite !(no_word c r) by (exact C || reflexivity). eauto. Qed.
Lemma scalar_unknown c r : figure c = true -> scalar_of (c :: r) = None.
Proof. intros C. unfold scalar_of. rewrite !(no_word c r) by (exact C || reflexivity). reflexivity. Qed.
Lemma figure_lower c : figure c = true -> lower c = c.
Proof. destruct c as [[] [] [] [] [] [] [] []]; reflexivity || discriminate. Qed.
Lemma figure_not c d : figure c = true -> figure d = false -> ceq c d = false /\ ceq d c = false.
Proof. intros C D. split; destruct (ceq _ _) eqn:E; try reflexivity; apply ceq_true in E; subst; congruence. Qed.
Lemma figure_trim c r : figure c = true -> exists r', trim (c :: r) = c :: r'.
Proof.
  intros C. unfold trim. rewrite ltrim_cons. assert (W : wsb c = false) by (destruct c as [[] [] [] [] [] [] [] []]; reflexivity || discriminate). rewrite W. rewrite rtrim_cons. destruct (rtrim r); [rewrite W; eauto|eauto].
Qed.
Lemma base_cut m l : find_first "<"%char m = Some l -> let nullable := (1 <? l) && ceq (nth (l - 1) m zero) "?"%char in
  (if nullable then match rfind_char "?"%char m with Some q => Nat.min l q | None => l end else l) = l \/
  nullable = true /\ (if nullable then match rfind_char "?"%char m with Some q => Nat.min l q | None => l end else l) = l - 1 /\ 1 < l.
Proof.
  intros F. cbv zeta. destruct (1 <? l) eqn:L; cbn [andb]; [|auto]. apply Nat.ltb_lt in L. destruct (ceq (nth (l - 1) m zero) "?"%char) eqn:C; [|auto]. apply ceq_true in C.
  apply find_first_some in F as (Hl & a & b & E & La). subst l.
  assert (A : exists a', a = a' ++ ["?"%char]).
  { destruct (exists_last (l := a)) as (a' & x & Ea); [destruct a; [cbn in L; lia|discriminate]|]. exists a'. rewrite Ea in *. rewrite E, app_length in C. cbn [length] in C. replace (length a' + 1 - 1) with (length a') in C by lia. rewrite <- app_assoc, app_nth2, Nat.sub_diag in C by lia. cbn in C. rewrite C. reflexivity. }
  destruct A as (a' & ->). rewrite app_length in *. cbn [length] in *.
  assert (Q : exists q, rfind_char "?"%char m = Some q /\ length a' <= q).
  { rewrite E, <- app_assoc. cbn [app]. clear. destruct (rfind_char "?"%char b) as [i|] eqn:R.
    - exists (length a' + 2 + i). split; [|lia]. apply rfind_split in R as (x & y & -> & <- & N). replace (a' ++ "?"%char :: "<"%char :: x ++ "?"%char :: y) with ((a' ++ "?"%char :: "<"%char :: x) ++ "?"%char :: y) by (rewrite <- app_assoc; reflexivity). rewrite rfind_app by exact N. f_equal. rewrite app_length. cbn [length]. lia.
    - exists (length a'). split; [|lia]. apply rfind_none in R. rewrite rfind_app; [reflexivity|]. intros [I|I]; [discriminate|exact (R I)]. }
  destruct Q as (q & -> & Hq). assert (M : q = length a' \/ length a' + 1 <= q) by lia. destruct M as [->|M]; [right; repeat split; lia|left; lia].
Qed.
Lemma figures_read c r t : figure c = true -> decode true (c :: r) = Ok t -> literal_text t /\ ~ In "<"%char (c :: r).
Proof.
  intros C D. rewrite decode_eq in D. destruct (figure_trim c r C) as [r' T]. destruct (trim_trimmed (c :: r)) as (a0 & b0 & E0 & Wa & Wb & _). rewrite T in D, E0. cbv zeta in D. cbn [to_lower map] in D. rewrite (figure_lower c C) in D. change (map lower r') with (to_lower r') in D.
  destruct (find_first "<"%char (c :: to_lower r')) as [l|] eqn:F.
  - destruct (split_tokens 0 _) as [t1 ts1]. destruct (omap (decode true) (tokens_of t1 ts1)) as [nested| |]; cbn [obind] in D; try discriminate. pose proof (base_cut _ _ F) as B. cbv zeta in B.
    assert (L : 1 <= l). { destruct l; [|lia]. cbn [find_first] in F. rewrite (proj2 (figure_not c "<"%char C eq_refl)) in F. destruct (find_first _ (to_lower r')); discriminate F. }
    match type of D with build _ ?n ?raw (substr 0 ?p ?m) _ = _ => assert (P : exists z, p = S z) by (destruct B as [->|(_ & -> & ?)]; [exists (l - 1)|exists (l - 2)]; lia); destruct P as [z P]; rewrite P in D; destruct (build_unknown true n raw (substr 0 (S z) m) nested c (firstn z (to_lower r'))) as [e E]; [reflexivity|exact C|]; rewrite E in D; discriminate end.
  - split.
    + match type of D with match scalar_of ?b with _ => _ end = _ => assert (B : exists y, b = c :: y) end.
      { match goal with |- exists y, (if ?n then _ else _) = _ => destruct n eqn:N end; [|eauto]. destruct (rfind_char "?"%char (c :: to_lower r')) as [q|] eqn:R; [|eauto]. apply rfind_split in R as (a & b & E & <- & _). destruct a as [|x a]; [injection E as -> _; discriminate C|]. injection E as <- _. eexists. reflexivity. }
      destruct B as [y B]. rewrite B, (scalar_unknown c y C) in D. injection D as <-. eexists _, _, _. reflexivity.
    + apply find_first_none in F. rewrite E0, !in_app_iff. assert (N : forall l, Forall ws l -> ~ In "<"%char l) by (intros l H I; rewrite Forall_forall in H; specialize (H _ I); vm_compute in H; repeat (destruct H as [H|H]; [discriminate H|]); exact H).
      intros [I|[I|I]]; [exact (N _ Wa I)| |exact (N _ Wb I)]. apply F. destruct I as [I|I]; [left; exact I|right]. unfold to_lower. apply in_map_iff. exists "<"%char. split; [reflexivity|exact I].
Qed.
Lemma starts_read v t : starts_num v -> decode true v = Ok t -> literal_text t /\ ~ In "<"%char v.
Proof. destruct v as [|c r]; [intros _ E; vm_compute in E; injection E as <-; split; [eexists _, _, _; reflexivity|intros []]|apply figures_read]. Qed.
Lemma to_lower_app a b : to_lower (a ++ b) = to_lower a ++ to_lower b.
Proof. apply map_app. Qed.
Lemma lower_lt c : lower c = "<"%char -> c = "<"%char.
Proof. destruct c as [[] [] [] [] [] [] [] []]; reflexivity || discriminate. Qed.
Lemma lower_split s : forall a b, to_lower s = a ++ "<"%char :: b -> exists u v, s = u ++ "<"%char :: v /\ to_lower u = a /\ to_lower v = b.
Proof.
  induction s as [|c s IH]; intros a b E; [destruct a; discriminate|]. destruct a as [|x a]; cbn [to_lower map app] in E; injection E as E1 E2.
  - apply lower_lt in E1 as ->. exists [], s. auto.
  - destruct (IH _ _ E2) as (u & v & -> & <- & <-). exists (c :: u), v. subst. auto.
Qed.
(** the first piece of what is in brackets, and the second *)
Lemma split_second s : forall cnt t x ts, split_tokens cnt s = (t, x :: ts) -> (exists y, s = t ++ ","%char :: y /\ exists b, y = x ++ b) /\ ((cnt <= 0)%Z -> ~ In "<"%char t -> cnt = 0%Z /\ ~ In ">"%char t).
Proof.
  induction s as [|c s IH]; intros cnt t x ts; cbn [split_tokens]; [discriminate|].
  destruct (ceq c "<"%char) eqn:C1; [|destruct (ceq c ">"%char) eqn:C2; [|destruct ((cnt =? 0)%Z && ceq c ","%char) eqn:C3]].
  - destruct (split_tokens (cnt + 1) s) as [u us] eqn:E. intros Q. injection Q as <- ->. destruct (IH _ _ _ _ E) as [(y & -> & b & ->) _]. split; [exists (x ++ b); split; [reflexivity|eauto]|]. intros _ N. destruct N. left. apply ceq_true in C1. auto.
  - destruct (split_tokens (cnt - 1) s) as [u us] eqn:E. intros Q. injection Q as <- ->. destruct (IH _ _ _ _ E) as [(y & -> & b & ->) K]. split; [exists (x ++ b); split; [reflexivity|eauto]|]. intros L N. destruct K as [K _]; [lia|intros I; apply N; right; exact I|]. lia.
  - destruct (split_tokens 0 s) as [u us] eqn:E. intros Q. injection Q as <- <- ->. apply andb_true_iff in C3 as [Z C3]. apply ceq_true in C3 as ->. split; [|intros _ _; split; [lia|intros []]]. exists s. split; [reflexivity|]. exact (proj1 (split_parts _ _ _ _ E)).
  - destruct (split_tokens cnt s) as [u us] eqn:E. intros Q. injection Q as <- ->. destruct (IH _ _ _ _ E) as [(y & -> & b & ->) K]. split; [exists (x ++ b); split; [reflexivity|eauto]|]. intros L N. destruct K as [K1 K2]; [exact L|intros I; apply N; right; exact I|]. split; [exact K1|]. intros [I|I]; [|exact (K2 I)]. subst c. rewrite (proj2 (ceq_true _ _) eq_refl) in C2. discriminate.
Qed.
Lemma split_comma s : forall t ts, split_tokens 0 s = (t, ts) -> ~ In "<"%char t -> ~ In ">"%char t -> ~ In ","%char t.
Proof.
  induction s as [|c s IH]; intros t ts; cbn [split_tokens]; [intros Q; injection Q as <- _; auto|].
  destruct (ceq c "<"%char) eqn:C1; [apply ceq_true in C1; destruct (split_tokens (0 + 1) s); intros Q; injection Q as <- _; intros N; destruct N; left; auto|].
  destruct (ceq c ">"%char) eqn:C2; [apply ceq_true in C2; destruct (split_tokens (0 - 1) s); intros Q; injection Q as <- _; intros _ N; destruct N; left; auto|].
  cbn [Z.eqb andb]. destruct (ceq c ","%char) eqn:C3; [destruct (split_tokens 0 s); intros Q; injection Q as <- _; auto|].
  destruct (split_tokens 0 s) as [u us] eqn:E. intros Q. injection Q as <- <-. intros N1 N2 [I|I]; [subst c; rewrite (proj2 (ceq_true _ _) eq_refl) in C3; discriminate|]. apply (IH _ _ eq_refl); [intros J; apply N1; right; exact J|intros J; apply N2; right; exact J|exact I].
Qed.
Lemma starts_cut t : starts_num t -> starts_num (cut_last t).
Proof. destruct (cut_part t) as [b E]. destruct (cut_last t) as [|c r]; [intros _; exact I|]. rewrite E. exact (fun H => H). Qed.
Lemma starts_pre t b : starts_num (t ++ b) -> starts_num t.
Proof. destruct t; [intros _; exact I|exact (fun H => H)]. Qed.
(** what is read of the pieces in the brackets of a type with a length *)
Lemma pieces_read v t ts nested : starts_num v -> (forall n x, (forall c, In c marks -> ~ In c n) -> v = n ++ ","%char :: x -> starts_num x) -> split_tokens 0 v = (t, ts) -> omap (decode true) (tokens_of t ts) = Ok nested ->
  match nested with p0 :: p1 :: _ => literal_text p0 /\ literal_text p1 | [p0] => literal_text p0 | [] => False end.
Proof.
  intros V1 V2 E O. pose proof (omap_spec (decode true) (tokens_of t ts)) as H. rewrite O in H. destruct (split_parts _ _ _ _ E) as [(b & B) _]. assert (V3 : starts_num t) by (rewrite B in V1; exact (starts_pre _ _ V1)).
  destruct ts as [|u us]; cbn [tokens_of] in H.
  - inversion H as [|? y ? ? D H']; subst. inversion H'; subst. exact (proj1 (starts_read _ _ (starts_cut _ V3) D)).
  - inversion H as [|? y ? ys D H']; subst. destruct (starts_read _ _ V3 D) as [L N]. destruct (split_second _ _ _ _ _ E) as [(y2 & Q & b2 & ->) K]. destruct K as [_ K]; [lia|exact N|].
    assert (Vu : starts_num (u ++ b2)) by (refine (V2 t (u ++ b2) _ Q); intros c [<-|[<-|[<-|[]]]]; [exact N|exact K|exact (split_comma _ _ _ E N K)]). apply starts_pre in Vu.
    destruct us as [|w us]; cbn [tokens_of] in H'; inversion H' as [|? z ? ? D2 H2]; subst; (split; [exact L|]); [exact (proj1 (starts_read _ _ (starts_cut _ Vu) D2))|exact (proj1 (starts_read _ _ Vu D2))].
Qed.
Lemma find_lower s l : find_first "<"%char (to_lower s) = Some l -> exists u v, s = u ++ "<"%char :: v /\ length u = l /\ to_lower u = firstn l (to_lower s).
Proof.
  intros F. apply find_first_some in F as (_ & a & b & E & <-). pose proof E as E'. apply lower_split in E as (u & v & -> & <- & <-). exists u, v. split; [reflexivity|]. split; [symmetry; apply to_lower_length|rewrite E', firstn_app, Nat.sub_diag, firstn_O, app_nil_r, firstn_all; reflexivity].
Qed.
Lemma before_question u m l : to_lower u = firstn l m -> length u = l -> 1 < l -> ceq (nth (l - 1) m zero) "?"%char = true -> to_lower u = firstn (l - 1) m ++ $"?".
Proof.
  intros E L H C. apply ceq_true in C. rewrite E. destruct l as [|l]; [lia|]. replace (S l - 1) with l in * by lia. assert (Hm : l < length m). { rewrite <- (to_lower_length u), E in L. rewrite firstn_length in L. lia. }
  clear -C Hm. revert m C Hm. induction l as [|l IH]; intros m C Hm; (destruct m as [|c m]; [cbn in Hm; lia|]); cbn in C; [rewrite C; reflexivity|]. change (firstn (S (S l)) (c :: m)) with (c :: firstn (S l) m). rewrite IH by (auto; cbn in Hm; lia). reflexivity.
Qed.
Definition each_proto (i : bool) := fix each (l : list ty) : outcome (list ptype * list terr) :=
  match l with [] => Ok ([], []) | x :: r => a <- typeToProto i x ;; b <- each r ;; Ok (fst a :: fst b, snd a ++ snd b) end.
Lemma struct_read i l n : Forall (fun x => forall i, typeToProto i x <> UB) l -> typeToProto i (PStruct l n) <> UB.
Proof.
  intros N. change (typeToProto i (PStruct l n)) with (r <- each_proto i l ;; Ok (PtStruct (fst r) (if n then NNullable else NRequired), snd r)). assert (M : each_proto i l <> UB).
  { induction N as [|x l H _ IH]; [discriminate|]. change (each_proto i (x :: l)) with (a <- typeToProto i x ;; b <- each_proto i l ;; Ok (fst a :: fst b, snd a ++ snd b)). specialize (H i). destruct (typeToProto i x) as [[]| |]; cbn [obind]; try congruence. destruct (each_proto i l) as [[]| |]; cbn; congruence. }
  destruct (each_proto i l) as [[]| |]; cbn; congruence.
Qed.
Theorem tame_read w : tame w -> no_trap (decode true w).
Proof.
  induction w as [w IH] using length_ind. intros T t D i. rewrite decode_eq in D. cbv zeta in D. pose proof (part_tame _ _ (trim_part w) T) as Tr. pose proof (trim_length w) as Lw.
  destruct (find_first "<"%char (to_lower (trim w))) as [l|] eqn:F; [|destruct (scalar_of _); injection D as <-; cbn; discriminate].
  destruct (split_tokens 0 (substr_from (l + 1) (trim w))) as [t1 ts1] eqn:S. destruct (omap (decode true) (tokens_of t1 ts1)) as [nested| |] eqn:O; cbn [obind] in D; try discriminate.
  pose proof (token_bound _ _ _ _ F S) as Bd. destruct (find_lower _ _ F) as (u & v & E & Lu & Eu).
  assert (Sv : substr_from (l + 1) (trim w) = v) by (unfold substr_from; rewrite E, <- Lu, skipn_app; replace (length u + 1 - length u) with 1 by lia; rewrite (skipn_all2 u) by lia; reflexivity). rewrite Sv in S.
  assert (Ns : Forall (fun x => forall i, typeToProto i x <> UB) nested /\ nested <> [] /\ Forall (fun x => x <> TNull) nested).
  { pose proof (omap_spec (decode true) (tokens_of t1 ts1)) as H. rewrite O in H. destruct (split_parts _ _ _ _ S) as [_ P]. apply tokens_parts in P.
    split; [|split].
    - assert (Q : forall x, In x (tokens_of t1 ts1) -> no_trap (decode true x)). { intros x I. rewrite Forall_forall in P, Bd. apply IH; [specialize (Bd _ I); cbn in Bd; lia|]. refine (part_tame _ _ _ Tr). refine (part_trans _ _ _ (P _ I) _). exists (u ++ $"<"), []. rewrite E, app_nil_r, <- app_assoc. reflexivity. }
      clear -H Q. revert Q. induction H as [|x y l1 l2 D _ IH2]; intros Q; constructor; [intros i; apply (Q x); [left; reflexivity|exact D]|]. apply IH2. intros z J. apply Q. right. exact J.
    - pose proof (tokens_of_nonempty t1 ts1). intros ->. inversion H. congruence.
    - clear -H. induction H as [|x y l1 l2 D _ IH2]; constructor; [|exact IH2]. intros ->. exact (decode_param_not_null _ D). }
  destruct Ns as (N1 & N2 & N3). pose proof (base_cut _ _ F) as B. cbv zeta in B. set (mm := to_lower (trim w)) in *. set (nl := (1 <? l) && ceq (nth (l - 1) mm zero) "?"%char) in *.
  match type of D with build true _ _ (substr 0 ?p _) _ = _ => set (pos := p) in *; clearbody pos end.
  assert (Lit : In (substr 0 pos mm) sized -> match nested with p0 :: p1 :: _ => literal_text p0 /\ literal_text p1 | [p0] => literal_text p0 | [] => False end).
  { intros Ib. assert (En : ends_in sized u).
    { exists [], (substr 0 pos mm). destruct B as [B|(Nl & B & L1)]; rewrite B in *.
      - exists []. split; [cbn [app]; rewrite app_nil_r; exact Eu|split; [exact Ib|auto]].
      - exists $"?". split; [|split; [exact Ib|auto]]. apply andb_true_iff in Nl as [_ Nl]. exact (before_question _ _ _ Eu Lu L1 Nl). }
    destruct (Tr u v E En) as [V1 V2]. exact (pieces_read v t1 ts1 nested V1 V2 S O). }
  assert (Ls : forall P T, substr 0 pos mm = $"varchar" /\ P = PVarchar \/ substr 0 pos mm = $"fixedchar" /\ P = PFixedChar -> decodeLength P T true nl nested = Ok t -> typeToProto i t <> UB).
  { intros P T0 HP. unfold decodeLength. destruct nested as [|p0 ns]; [discriminate|]. intros Q. injection Q as <-.
    assert (L0 : literal_text p0). { assert (Ib : In (substr 0 pos mm) sized) by (destruct HP as [[-> _]|[-> _]]; cbn; auto). specialize (Lit Ib). destruct ns; [exact Lit|exact (proj1 Lit)]. }
    destruct L0 as (x & a & b & ->). destruct HP as [[_ ->]|[_ ->]]; cbn [cast_strlit typeToProto]; [destruct (negb (isInteger x)); [discriminate|]|]; destruct (stoi x); discriminate. }
  unfold build in D. destruct nested as [|p0 ns]; [contradiction|]. inversion N1 as [|? ? H0 H1]; subst. inversion N3 as [|? ? K0 K1]; subst.
  destruct (substr 0 pos mm =s $"list"); [injection D as <-; cbn [typeToProto]; specialize (H0 i); destruct (typeToProto i p0) as [[]| |]; cbn; congruence|].
  destruct (substr 0 pos mm =s $"map").
  { destruct ns as [|p1 ns]; injection D as <-; [destruct p0; discriminate|]. inversion H1 as [|? ? H2 _]; subst. inversion K1 as [|? ? K2 _]; subst. specialize (H0 i). specialize (H2 i).
    assert (M : typeToProto i (PMap p0 p1 nl) = (a <- typeToProto i p0 ;; b <- typeToProto i p1 ;; Ok (PtMap (fst a) (fst b) (if nl then NNullable else NRequired), snd a ++ snd b))) by (destruct p0; [contradiction|..]; destruct p1; try contradiction; reflexivity). rewrite M. clear M.
    destruct (typeToProto i p0) as [[]| |], (typeToProto i p1) as [[]| |]; cbn; congruence. }
  destruct (substr 0 pos mm =s $"struct").
  { injection D as <-. apply struct_read. exact N1. }
  destruct (substr 0 pos mm =s $"decimal") eqn:Bd0.
  { apply seq_eqb_eq in Bd0. destruct ns as [|p1 [|p2 ns]]; try discriminate. injection D as <-. assert (Ib : In (substr 0 pos mm) sized) by (rewrite Bd0; cbn; auto). destruct (Lit Ib) as [(x & a & b & ->) (x' & a' & b' & ->)]. cbn [cast_strlit typeToProto]. destruct (stoi x); [destruct (stoi x')|..]; discriminate. }
  destruct (substr 0 pos mm =s $"varchar") eqn:Bv; [apply seq_eqb_eq in Bv; exact (Ls PVarchar TVarchar (or_introl (conj Bv eq_refl)) D)|].
  destruct (substr 0 pos mm =s $"fixedchar") eqn:Bf; [apply seq_eqb_eq in Bf; exact (Ls PFixedChar TFixedChar (or_intror (conj Bf eq_refl)) D)|].
  destruct (substr 0 pos mm =s $"fixedbinary"); [|discriminate]. injection D as <-. discriminate.
Qed.
Theorem written_read i w : written w -> textToTypeProto i w <> UB.
Proof. intros W. unfold textToTypeProto. pose proof (tame_read w (written_tame w W)) as H. pose proof (decode_param_no_ub w). destruct (decode true w) as [t| |]; [exact (H t eq_refl i)|discriminate|contradiction]. Qed.
