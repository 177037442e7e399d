From Verif Require Import Base BaseFacts StringsModel StringsFacts TypeModel.
From Coq Require Import Lia ZifyBool ZifyNat ZifyN.

(** * Specifications *)

(** Concrete types, without null pointers or placeholders. *)
Inductive cty :=
| CScalar (k : skind) (n : bool)
| CDecimal (p s : N) (n : bool)
| CFixedBinary (len : N) (n : bool)
| CFixedChar (len : N) (n : bool)
| CVarchar (len : N) (n : bool)
| CList (e : cty) (n : bool)
| CMap (k v : cty) (n : bool)
| CStruct (l : list cty) (n : bool).

Fixpoint cty_ind' (P : cty -> Prop)
  (HS : forall k n, P (CScalar k n)) (HD : forall p s n, P (CDecimal p s n))
  (HB : forall l n, P (CFixedBinary l n)) (HC : forall l n, P (CFixedChar l n)) (HV : forall l n, P (CVarchar l n))
  (HL : forall e n, P e -> P (CList e n)) (HM : forall k v n, P k -> P v -> P (CMap k v n))
  (HT : forall l n, Forall P l -> P (CStruct l n)) (t : cty) : P t :=
  let rec := cty_ind' P HS HD HB HC HV HL HM HT in
  match t with
  | CScalar k n => HS k n | CDecimal p s n => HD p s n | CFixedBinary l n => HB l n
  | CFixedChar l n => HC l n | CVarchar l n => HV l n
  | CList e n => HL e n (rec e) | CMap k v n => HM k v n (rec k) (rec v)
  | CStruct l n => HT l n ((fix all (l : list cty) : Forall P l :=
      match l with [] => Forall_nil P | x :: r => Forall_cons x (rec x) (all r) end) l)
  end.

(** The object a concrete type is decoded to when decoding concrete types. *)
Fixpoint conc (t : cty) : ty :=
  match t with
  | CScalar k n => TScalar k n
  | CDecimal p s n => TDecimal (Z.of_N p) (Z.of_N s) n
  | CFixedBinary l n => TFixedBinary (Z.of_N l) n
  | CFixedChar l n => TFixedChar (Z.of_N l) n
  | CVarchar l n => TVarchar (Z.of_N l) n
  | CList e n => TList (conc e) n
  | CMap k v n => TMap (conc k) (conc v) n
  | CStruct l n => TStruct (map conc l) n
  end.

(** How a type may be written: names in any case, '?' right after the name, parameters with any white space around
    them, numbers as any digit sequence. *)
Definition scalar_name (k : skind) (s : str) : Prop :=
  to_lower s = scalar_typestring k \/ (k = SBool /\ to_lower s = $"bool") \/ (k = SString /\ to_lower s = $"str").
Definition q (n : bool) : str := if n then $"?" else [].
Definition padded (P : str -> Prop) (s : str) : Prop :=
  exists a t b, s = a ++ t ++ b /\ Forall ws a /\ Forall ws b /\ P t.
Definition num_text (v : N) (s : str) : Prop := Numeral s /\ digits_val 0 s = v.
Inductive Txt : cty -> str -> Prop :=
| X_scalar k n b : scalar_name k b -> Txt (CScalar k n) (b ++ q n)
| X_decimal p s n b x y : to_lower b = $"decimal" -> padded (num_text p) x -> padded (num_text s) y ->
    Txt (CDecimal p s n) (b ++ q n ++ $"<" ++ x ++ $"," ++ y ++ $">")
| X_fixedbinary l n b x : to_lower b = $"fixedbinary" -> padded (num_text l) x ->
    Txt (CFixedBinary l n) (b ++ q n ++ $"<" ++ x ++ $">")
| X_fixedchar l n b x : to_lower b = $"fixedchar" -> padded (num_text l) x ->
    Txt (CFixedChar l n) (b ++ q n ++ $"<" ++ x ++ $">")
| X_varchar l n b x : to_lower b = $"varchar" -> padded (num_text l) x ->
    Txt (CVarchar l n) (b ++ q n ++ $"<" ++ x ++ $">")
| X_list e n b x1 x x2 : to_lower b = $"list" -> Forall ws x1 -> Forall ws x2 -> Txt e x ->
    Txt (CList e n) (b ++ q n ++ $"<" ++ (x1 ++ x ++ x2) ++ $">")
| X_map k v n b x1 x x2 y1 y y2 : to_lower b = $"map" -> Forall ws x1 -> Forall ws x2 -> Forall ws y1 -> Forall ws y2 ->
    Txt k x -> Txt v y ->
    Txt (CMap k v n) (b ++ q n ++ $"<" ++ (x1 ++ x ++ x2) ++ $"," ++ (y1 ++ y ++ y2) ++ $">")
| X_struct l n b s : to_lower b = $"struct" -> TxtList l s -> Txt (CStruct l n) (b ++ q n ++ $"<" ++ s ++ $">")
with TxtList : list cty -> str -> Prop :=
| XL_one t x1 x x2 : Forall ws x1 -> Forall ws x2 -> Txt t x -> TxtList [t] (x1 ++ x ++ x2)
| XL_cons t l x1 x x2 s : Forall ws x1 -> Forall ws x2 -> Txt t x -> TxtList l s ->
    TxtList (t :: l) ((x1 ++ x ++ x2) ++ $"," ++ s).
Scheme Txt_mind := Induction for Txt Sort Prop
with TxtList_mind := Induction for TxtList Sort Prop.
Combined Scheme Txt_mutind from Txt_mind, TxtList_mind.

(** A nullable type nested below (or at) [t]. *)
Fixpoint any_nullable (t : cty) : bool :=
  match t with
  | CScalar _ n | CDecimal _ _ n | CFixedBinary _ n | CFixedChar _ n | CVarchar _ n => n
  | CList e n => n || any_nullable e
  | CMap k v n => n || any_nullable k || any_nullable v
  | CStruct l n => n || existsb any_nullable l
  end.
(** No nullable compound type contains a nullable type. *)
Fixpoint null_ok (t : cty) : bool :=
  match t with
  | CScalar _ _ | CDecimal _ _ _ | CFixedBinary _ _ | CFixedChar _ _ | CVarchar _ _ => true
  | CList e n => negb (n && any_nullable e) && null_ok e
  | CMap k v n => negb (n && (any_nullable k || any_nullable v)) && null_ok k && null_ok v
  | CStruct l n => negb (n && existsb any_nullable l) && forallb null_ok l
  end.
(** All parameters fit an int. *)
Definition small (v : N) : bool := (v <? 2147483648)%N.
Fixpoint fits (t : cty) : bool :=
  match t with
  | CScalar _ _ => true
  | CDecimal p s _ => small p && small s
  | CFixedBinary l _ | CFixedChar l _ | CVarchar l _ => small l
  | CList e _ => fits e
  | CMap k v _ => fits k && fits v
  | CStruct l _ => forallb fits l
  end.

(** * Helper functions *)
Lemma find_first_app c a b : ~ In c a -> find_first c (a ++ c :: b) = Some (length a).
Proof.
  induction a as [|d a IH]; intros H; cbn [find_first app length].
  - rewrite ceq_refl. reflexivity.
  - destruct (ceq c d) eqn:E; [apply ceq_true in E; subst d; exfalso; apply H; left; reflexivity|].
    rewrite IH by (intros I; apply H; right; exact I). reflexivity.
Qed.
Lemma find_first_none c s : find_first c s = None <-> ~ In c s.
Proof.
  induction s as [|d s IH]; cbn [find_first]; [split; auto|].
  destruct (ceq c d) eqn:E.
  - apply ceq_true in E. subst d. split; [discriminate|]. intros H. exfalso. apply H. left. reflexivity.
  - destruct (find_first c s) eqn:F; cbn [option_map].
    + split; [discriminate|]. intros H. exfalso. apply H. right.
      destruct (in_dec ascii_dec c s) as [I|I]; [exact I|]. apply IH in I. discriminate.
    + split; [|reflexivity]. intros _ [I|I]; [subst d; rewrite ceq_refl in E; discriminate|]. apply IH in I; auto.
Qed.
Lemma find_first_some c s i : find_first c s = Some i -> i < length s /\ exists a b, s = a ++ c :: b /\ length a = i.
Proof.
  revert i. induction s as [|d s IH]; intros i; cbn [find_first]; [discriminate|].
  destruct (ceq c d) eqn:E.
  - apply ceq_true in E. subst d. intros [= <-]. split; [simpl; lia|]. exists [], s. auto.
  - destruct (find_first c s) as [j|]; [|discriminate]. cbn [option_map]. intros [= <-].
    destruct (IH j eq_refl) as (L & a & b & -> & La). split; [simpl in *; lia|]. exists (d :: a), b. simpl. auto.
Qed.
Lemma rfind_none c s : rfind_char c s = None <-> ~ In c s.
Proof.
  induction s as [|d s IH]; cbn [rfind_char]; [split; auto|].
  destruct (rfind_char c s) as [i|].
  - split; [discriminate|]. intros H. exfalso. assert (~ In c s) by (intros I; apply H; right; exact I).
    apply IH in H0. discriminate.
  - destruct (ceq c d) eqn:E.
    + apply ceq_true in E. subst d. split; [discriminate|]. intros H. exfalso. apply H. left. reflexivity.
    + split; [|reflexivity]. intros _ [I|I]; [subst d; rewrite ceq_refl in E; discriminate|]. revert I. now apply IH.
Qed.
Lemma rfind_app c a b : ~ In c b -> rfind_char c (a ++ c :: b) = Some (length a).
Proof.
  intros H. induction a as [|d a IH]; cbn [rfind_char app length].
  - apply rfind_none in H. rewrite H, ceq_refl. reflexivity.
  - rewrite IH. reflexivity.
Qed.
Lemma rfind_split c s i : rfind_char c s = Some i -> exists a b, s = a ++ c :: b /\ length a = i /\ ~ In c b.
Proof.
  revert i. induction s as [|d s IH]; intros i; cbn [rfind_char]; [discriminate|].
  destruct (rfind_char c s) as [j|] eqn:R.
  - intros [= <-]. destruct (IH j eq_refl) as (a & b & -> & L & N). exists (d :: a), b. simpl. auto.
  - destruct (ceq c d) eqn:E; [|discriminate]. apply ceq_true in E. subst d. intros [= <-].
    exists [], s. repeat split; auto. now apply rfind_none.
Qed.

(** split_tokens is the loop around findNextComma (Type.cpp 263-271). *)
Lemma split_tokens_loop s : forall cnt, split_tokens cnt s =
  match findNextComma cnt s with
  | None => (s, [])
  | Some i => let '(t, ts) := split_tokens 0 (skipn (S i) s) in (firstn i s, t :: ts)
  end.
Proof.
  induction s as [|c s IH]; intros cnt; [reflexivity|]. cbn [split_tokens findNextComma].
  destruct (ceq c "<"%char).
  { rewrite IH. destruct (findNextComma (cnt + 1) s) as [i|]; cbn [option_map]; [|reflexivity].
    cbn [skipn firstn]. destruct (split_tokens 0 _). reflexivity. }
  destruct (ceq c ">"%char).
  { rewrite IH. destruct (findNextComma (cnt - 1) s) as [i|]; cbn [option_map]; [|reflexivity].
    cbn [skipn firstn]. destruct (split_tokens 0 _). reflexivity. }
  destruct ((cnt =? 0)%Z && ceq c ","%char); [reflexivity|].
  rewrite IH. destruct (findNextComma cnt s) as [i|]; cbn [option_map]; [|reflexivity].
  cbn [skipn firstn]. destruct (split_tokens 0 _). reflexivity.
Qed.

Lemma split_tokens_length s : forall cnt t ts, split_tokens cnt s = (t, ts) ->
  Forall (fun x => length x <= length s) (t :: ts).
Proof.
  induction s as [|c s IH]; intros cnt t ts; cbn [split_tokens].
  - intros [= <- <-]. repeat constructor.
  - assert (K : forall k t' ts', split_tokens k s = (t', ts') -> Forall (fun x => length x <= S (length s)) ((c :: t') :: ts')).
    { intros k t' ts' E. specialize (IH k t' ts' E). inversion IH; subst. constructor; [simpl; lia|].
      eapply Forall_impl; [|eassumption]. simpl. intros; lia. }
    destruct (ceq c "<"%char); [|destruct (ceq c ">"%char); [|destruct ((cnt =? 0)%Z && ceq c ","%char)]].
    + destruct (split_tokens (cnt + 1) s) eqn:E. intros [= <- <-]. eapply K; eauto.
    + destruct (split_tokens (cnt - 1) s) eqn:E. intros [= <- <-]. eapply K; eauto.
    + destruct (split_tokens 0 s) eqn:E. intros [= <- <-]. specialize (IH 0%Z _ _ E).
      constructor; [simpl; lia|]. eapply Forall_impl; [|eassumption]. simpl. intros; lia.
    + destruct (split_tokens cnt s) eqn:E. intros [= <- <-]. eapply K; eauto.
Qed.
Lemma cut_last_length s : length (cut_last s) <= length s.
Proof. unfold cut_last. destruct (rfind_char ">"%char s); [rewrite firstn_length; lia|lia]. Qed.
Lemma tokens_of_length ts : forall t n, Forall (fun x => length x <= n) (t :: ts) ->
  Forall (fun x => length x <= n) (tokens_of t ts).
Proof.
  induction ts as [|u us IH]; intros t n H; cbn [tokens_of]; inversion H; subst.
  - constructor; [|constructor]. pose proof (cut_last_length t). lia.
  - constructor; [assumption|]. now apply IH.
Qed.
Lemma tokens_of_nonempty t ts : tokens_of t ts <> [].
Proof. destruct ts; discriminate. Qed.
Lemma trim_length s : length (trim s) <= length s.
Proof. destruct (trim_trimmed s) as (a & b & E & _). rewrite E at 2. rewrite !app_length. lia. Qed.
Lemma to_lower_length s : length (to_lower s) = length s.
Proof. apply map_length. Qed.

(** The recursion bound is never met. *)
Lemma omap_ext {A B} (f g : A -> outcome B) l : Forall (fun x => f x = g x) l -> omap f l = omap g l.
Proof. induction 1 as [|x l E F IH]; cbn [omap]; [reflexivity|]. rewrite E, IH. reflexivity. Qed.

Lemma token_bound raw l t ts : find_first "<"%char (to_lower raw) = Some l ->
  split_tokens 0 (substr_from (l + 1) raw) = (t, ts) ->
  Forall (fun x => length x < length raw) (tokens_of t ts).
Proof.
  intros F E. apply find_first_some in F as [L _]. rewrite to_lower_length in L.
  pose proof (split_tokens_length _ _ _ _ E) as S. apply tokens_of_length in S.
  unfold substr_from in S. rewrite skipn_length in S.
  eapply Forall_impl; [|exact S]. simpl. intros; lia.
Qed.

Lemma decode_fuel_irrel f1 : forall f2 m v, length v < f1 -> length v < f2 ->
  decode_fuel f1 m v = decode_fuel f2 m v.
Proof.
  induction f1 as [|f1 IH]; intros [|f2] m v H1 H2; try lia.
  cbn [decode_fuel]. cbv zeta.
  destruct (find_first "<"%char (to_lower (trim v))) as [l|] eqn:F; [|reflexivity].
  destruct (split_tokens 0 (substr_from (l + 1) (trim v))) as [t ts] eqn:S.
  assert (E : omap (decode_fuel f1 m) (tokens_of t ts) = omap (decode_fuel f2 m) (tokens_of t ts)).
  { apply omap_ext. pose proof (token_bound _ _ _ _ F S) as B. pose proof (trim_length v).
    eapply Forall_impl; [|exact B]. simpl. intros x Hx. apply IH; lia. }
  rewrite E. reflexivity.
Qed.

Lemma decode_eq m v : decode m v =
  let raw := trim v in
  let matching := to_lower raw in
  let qpos := rfind_char "?"%char matching in
  match find_first "<"%char matching with
  | None =>
      let nullable := match matching with [] => false | _ => ceq (last matching zero) "?"%char end in
      let base := if nullable then match qpos with Some q => substr 0 q matching | None => matching end else matching in
      match scalar_of base with
      | Some k => Ok (TScalar k nullable)
      | None => let wildcard := (substr 0 3 base =s $"any") in
                Ok (TStrLit raw wildcard (negb wildcard && negb (isInteger raw)))
      end
  | Some l =>
      let nullable := (1 <? l) && ceq (nth (l - 1) matching zero) "?"%char in
      let basePos := if nullable then match qpos with Some q => Nat.min l q | None => l end else l in
      let base := substr 0 basePos matching in
      let '(t, ts) := split_tokens 0 (substr_from (l + 1) raw) in
      nested <- omap (decode m) (tokens_of t ts) ;;
      build m nullable raw base nested
  end.
Proof.
  unfold decode at 1. cbn [decode_fuel]. cbv zeta.
  destruct (find_first "<"%char (to_lower (trim v))) as [l|] eqn:F; [|reflexivity].
  destruct (split_tokens 0 (substr_from (l + 1) (trim v))) as [t ts] eqn:S.
  assert (E : omap (decode_fuel (length v) m) (tokens_of t ts) = omap (decode m) (tokens_of t ts)).
  { apply omap_ext. pose proof (token_bound _ _ _ _ F S) as B. pose proof (trim_length v).
    eapply Forall_impl; [|exact B]. simpl. intros x Hx. apply decode_fuel_irrel; lia. }
  rewrite E. reflexivity.
Qed.

(** Induction over decoding. *)
Lemma length_ind (P : str -> Prop) : (forall s, (forall t, length t < length s -> P t) -> P s) -> forall s, P s.
Proof.
  intros H s. remember (length s) as n eqn:E. revert s E.
  induction n as [n IH] using lt_wf_ind. intros s ->. apply H. intros t L. eapply IH; eauto.
Qed.
Lemma omap_spec {A B} (f : A -> outcome B) l :
  match omap f l with
  | Ok ys => Forall2 (fun x y => f x = Ok y) l ys
  | Throw e => exists x, In x l /\ f x = Throw e
  | UB => exists x, In x l /\ f x = UB
  end.
Proof.
  induction l as [|x l IH]; cbn [omap]; [constructor|].
  destruct (f x) as [y|e|] eqn:E; cbn [obind].
  - destruct (omap f l) as [ys|e|]; cbn [obind].
    + constructor; auto.
    + destruct IH as (z & I & Z). exists z. split; [right; exact I|exact Z].
    + destruct IH as (z & I & Z). exists z. split; [right; exact I|exact Z].
  - exists x. split; [left; reflexivity|exact E].
  - exists x. split; [left; reflexivity|exact E].
Qed.

Lemma build_not_fuel m n raw base nested : build m n raw base nested <> Throw EFuel.
Proof.
  unfold build, decodeLength. intros H.
  repeat match type of H with
  | (if ?b then _ else _) = _ => destruct b
  | match ?x with _ => _ end = _ => destruct x
  | obind ?o _ = _ => let E := fresh in destruct o eqn:E; cbn [obind] in H
  | Throw (if ?b then _ else _) = _ => destruct b
  end; try discriminate H;
  match goal with E : stoi ?s = Throw ?e |- _ => injection H as ->; unfold stoi in E; cbv zeta in E end;
  repeat match goal with
  | E : (let '(_, _) := ?x in _) = _ |- _ => destruct x
  | E : (if ?b then _ else _) = _ |- _ => destruct b
  | E : match ?x with _ => _ end = Throw EFuel |- _ => destruct x
  end; discriminate.
Qed.

Lemma decode_not_fuel m v : decode m v <> Throw EFuel.
Proof.
  induction v as [v IH] using length_ind. rewrite decode_eq. cbv zeta.
  destruct (find_first "<"%char (to_lower (trim v))) as [l|] eqn:F.
  - destruct (split_tokens 0 (substr_from (l + 1) (trim v))) as [t ts] eqn:S.
    pose proof (token_bound _ _ _ _ F S) as B. pose proof (trim_length v) as TL.
    pose proof (omap_spec (decode m) (tokens_of t ts)) as O.
    destruct (omap (decode m) (tokens_of t ts)) as [ys|e|]; cbn [obind].
    + apply build_not_fuel.
    + destruct O as (x & I & E). rewrite Forall_forall in B. specialize (B x I). intros [= ->].
      apply (IH x); [lia|exact E].
    + discriminate.
  - destruct (scalar_of _); discriminate.
Qed.

(** Parameterised decoding has no undefined behaviour and never returns a null pointer. *)
Lemma build_param_no_ub n raw base nested : nested <> [] -> build true n raw base nested <> UB.
Proof.
  intros Hn. unfold build, decodeLength. destruct nested as [|p0 nested]; [congruence|].
  repeat match goal with
  | |- (if ?b then _ else _) <> _ => destruct b
  | |- match ?x with _ => _ end <> _ => destruct x
  end; discriminate.
Qed.
Lemma build_param_not_null n raw base nested : build true n raw base nested <> Ok TNull.
Proof.
  unfold build, decodeLength.
  repeat match goal with
  | |- (if ?b then _ else _) <> _ => destruct b
  | |- match ?x with _ => _ end <> _ => destruct x
  end; discriminate.
Qed.
Lemma decode_param_no_ub v : decode true v <> UB.
Proof.
  induction v as [v IH] using length_ind. rewrite decode_eq. cbv zeta.
  destruct (find_first "<"%char (to_lower (trim v))) as [l|] eqn:F.
  - destruct (split_tokens 0 (substr_from (l + 1) (trim v))) as [t ts] eqn:S.
    pose proof (token_bound _ _ _ _ F S) as B. pose proof (trim_length v) as TL.
    pose proof (omap_spec (decode true) (tokens_of t ts)) as O.
    destruct (omap (decode true) (tokens_of t ts)) as [ys|e|]; cbn [obind].
    + apply build_param_no_ub. intros ->. inversion O as [E|]. symmetry in E. exact (tokens_of_nonempty t ts E).
    + discriminate.
    + destruct O as (x & I & E). rewrite Forall_forall in B. specialize (B x I). exfalso.
      apply (IH x); [lia|exact E].
  - destruct (scalar_of _); discriminate.
Qed.
Lemma decode_param_not_null v : decode true v <> Ok TNull.
Proof.
  rewrite decode_eq. cbv zeta. destruct (find_first _ _).
  - destruct (split_tokens _ _) as [t ts]. destruct (omap _ _); cbn [obind]; try discriminate. apply build_param_not_null.
  - destruct (scalar_of _); discriminate.
Qed.

(** Margins. *)
Lemma decode_trim m v : decode m (trim v) = decode m v.
Proof. rewrite !decode_eq, trim_idem. reflexivity. Qed.
Lemma decode_margins m a v b : Forall ws a -> Forall ws b -> decode m (a ++ v ++ b) = decode m v.
Proof. intros Ha Hb. rewrite <- decode_trim, trim_margins by assumption. apply decode_trim. Qed.

(** * Which exceptions *)
Lemma build_param_throws n raw base nested e : build true n raw base nested = Throw e ->
  e = EUnsupported \/ e = EInvalidState \/ (e = EFmt /\ fmt_ok raw = false).
Proof.
  unfold build, decodeLength. intros H.
  repeat match type of H with
  | (if ?b then _ else _) = _ => destruct b
  | match ?x with _ => _ end = _ => destruct x
  | Throw (if ?b then _ else _) = _ => destruct b eqn:?
  end; try discriminate H; injection H as <-; auto.
Qed.
Lemma split_tokens_incl s : forall cnt t ts, split_tokens cnt s = (t, ts) -> Forall (fun x => incl x s) (t :: ts).
Proof.
  induction s as [|c s IH]; intros cnt t ts H; cbn [split_tokens] in H.
  - injection H as <- <-. constructor; [apply incl_refl|constructor].
  - assert (St : forall t ts, Forall (fun x => incl x s) (t :: ts) -> Forall (fun x => incl x (c :: s)) ((c :: t) :: ts) /\ Forall (fun x => incl x (c :: s)) ([] :: t :: ts)).
    { intros u us F. assert (G : Forall (fun x => incl x (c :: s)) (u :: us)) by (eapply Forall_impl; [|exact F]; intros x I; now apply incl_tl).
      inversion G; subst. split; constructor; auto; [|apply incl_nil_l].
      intros y [<-|I]; [left; reflexivity|]. inversion F; subst. right. auto. }
    destruct (ceq c "<"%char).
    { destruct (split_tokens (cnt + 1) s) as [u us] eqn:E. injection H as <- <-. apply (proj1 (St u us (IH _ _ _ E))). }
    destruct (ceq c ">"%char).
    { destruct (split_tokens (cnt - 1) s) as [u us] eqn:E. injection H as <- <-. apply (proj1 (St u us (IH _ _ _ E))). }
    destruct ((cnt =? 0)%Z && ceq c ","%char).
    { destruct (split_tokens 0 s) as [u us] eqn:E. injection H as <- <-. apply (proj2 (St u us (IH _ _ _ E))). }
    destruct (split_tokens cnt s) as [u us] eqn:E. injection H as <- <-. apply (proj1 (St u us (IH _ _ _ E))).
Qed.
Lemma firstn_incl {A} n (s : list A) : incl (firstn n s) s.
Proof. intros x I. rewrite <- (firstn_skipn n s). apply in_or_app. now left. Qed.
Lemma skipn_incl {A} n (s : list A) : incl (skipn n s) s.
Proof. intros x I. rewrite <- (firstn_skipn n s). apply in_or_app. now right. Qed.
Lemma tokens_of_incl ts : forall t s, Forall (fun x => incl x s) (t :: ts) -> Forall (fun x => incl x s) (tokens_of t ts).
Proof.
  induction ts as [|u us IH]; intros t s F; cbn [tokens_of]; inversion F; subst.
  - constructor; [|constructor]. unfold cut_last. destruct (rfind_char _ t); [|assumption].
    eapply incl_tran; [apply firstn_incl|assumption].
  - constructor; auto.
Qed.
Lemma trim_incl s : incl (trim s) s.
Proof. destruct (trim_trimmed s) as (a & b & E & _). rewrite E at 2. intros x I. apply in_or_app. right. apply in_or_app. now left. Qed.
Lemma fmt_ok_nobrace s : ~ In "{"%char s -> ~ In "}"%char s -> fmt_ok s = true.
Proof.
  induction s as [|c s IH]; intros H1 H2; [reflexivity|]. cbn [fmt_ok].
  destruct (ceq c "{"%char) eqn:E1; [apply ceq_true in E1; subst c; exfalso; apply H1; left; reflexivity|].
  destruct (ceq c "}"%char) eqn:E2; [apply ceq_true in E2; subst c; exfalso; apply H2; left; reflexivity|].
  apply IH; intros I; [apply H1|apply H2]; right; exact I.
Qed.
Lemma decode_param_throws v : forall e, decode true v = Throw e ->
  e = EUnsupported \/ e = EInvalidState \/ (e = EFmt /\ (In "{"%char v \/ In "}"%char v)).
Proof.
  induction v as [v IH] using length_ind. intros e. rewrite decode_eq. cbv zeta.
  destruct (find_first "<"%char (to_lower (trim v))) as [l|] eqn:F.
  - destruct (split_tokens 0 (substr_from (l + 1) (trim v))) as [t ts] eqn:S.
    pose proof (token_bound _ _ _ _ F S) as B. pose proof (trim_length v) as TL.
    pose proof (omap_spec (decode true) (tokens_of t ts)) as O.
    destruct (omap (decode true) (tokens_of t ts)) as [ys|e'|]; cbn [obind].
    + intros H. apply build_param_throws in H as [H|[H|[H Fm]]]; auto. right. right. split; [exact H|].
      pose proof (trim_incl v) as TI.
      destruct (in_dec ascii_dec "{"%char v) as [I|I]; [auto|]. destruct (in_dec ascii_dec "}"%char v) as [J|J]; [auto|].
      exfalso. rewrite fmt_ok_nobrace in Fm; [discriminate|intros K; apply I, TI, K|intros K; apply J, TI, K].
    + intros [= <-]. destruct O as (x & I & E). rewrite Forall_forall in B.
      destruct (IH x ltac:(specialize (B x I); lia) e' E) as [H|[H|[H Br]]]; auto. right. right. split; [exact H|].
      apply split_tokens_incl, tokens_of_incl in S. rewrite Forall_forall in S. specialize (S x I).
      assert (incl x v). { eapply incl_tran; [exact S|]. eapply incl_tran; [apply skipn_incl|apply trim_incl]. }
      destruct Br as [Br|Br]; [left|right]; auto.
    + discriminate.
  - destruct (scalar_of _); discriminate.
Qed.
