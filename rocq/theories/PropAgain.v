(** Theorems about plans that are converted again and again. *)
From Verif Require Import Base BaseFacts StringsModel NameModel NameFacts LexModel LexFacts TypeModel ExprModel RelModel RelFacts SectionModel SectionFacts WholeModel WholeFacts WholeTripFacts WholeAgainFacts WholeStableFacts EvalFacts PropExpr PropWhole.
From Verif Require DeclModel DeclFacts DeclAgainFacts SymbolMoreFacts.
From Coq Require Import Lia ZifyBool ZifyNat ZifyN.

(** * C96: conversions to text and back, one after the other *)
(** Conversion to a text and back without errors *)
Definition converted (b : bplan) (t : str) (b' : bplan) : Prop := to_text b = Ok (t, 0) /\ from_text t = Ok (Some b', []).
Fixpoint conversions (n : nat) (b b' : bplan) : Prop := match n with 0 => b' = b | S n => exists t b1, converted b t b1 /\ conversions n b1 b' end.
(** The same number of conversions has one result only. *)
Lemma converted_one b t b' t2 b2 : converted b t b' -> converted b t2 b2 -> t2 = t /\ b2 = b'.
Proof. intros (A & B) (A2 & B2). rewrite A in A2. injection A2 as <-. rewrite B in B2. injection B2 as <-. auto. Qed.
Lemma conversions_one n : forall b b' b2, conversions n b b' -> conversions n b b2 -> b2 = b'.
Proof. induction n as [|n IH]; intros b b' b2; cbn; [congruence|]. intros (t & b1 & A & B) (t2 & c1 & A2 & B2). destruct (converted_one _ _ _ _ _ A A2) as (-> & ->). eapply IH; eassumption. Qed.
Lemma conversions_last n : forall b b', conversions (S n) b b' -> exists c t, conversions n b c /\ converted c t b'.
Proof.
  induction n as [|n IH]; intros b b' (t & b1 & A & B).
  - cbn in B. subst b1. exists b, t. split; [reflexivity|exact A].
  - destruct (IH _ _ B) as (c & t2 & C & D). exists c, t2. split; [|exact D]. exists t, b1. auto.
Qed.
(** Every plan of the class can be converted any number of times; no errors are reported, and what comes back is always the same plan as the first, with the same results. *)
Theorem C96_again b : Convertible b -> forall n, exists b', conversions (S n) b b' /\ same_plan b b' /\ forall V (M : meaning V), results M b' = results M b.
Proof.
  intros Hb n. assert (X : exists b', conversions (S n) b b' /\ same_plan b b').
  { revert b Hb. induction n as [|n IH]; intros b Hb; destruct (trip_again b Hb) as (t & b1 & A & B & S1 & H1).
    - exists b1. split; [|exact S1]. exists t, b1. split; [split; assumption|reflexivity].
    - destruct (IH b1 H1) as (b' & C & S2). exists b'. split; [exists t, b1; split; [split; assumption|exact C]|]. eapply same_plan_trans; eassumption. }
  destruct X as (b' & C & S1). exists b'. split; [exact C|]. split; [exact S1|]. intros V M. exact (same_results M b b' Hb S1).
Qed.
(** If no more than nine functions have the same name (before the colon), all texts after the first are the same, and so are all plans after the second. *)
Theorem C96_stable b : Convertible b -> (forall s, count_occ (list_eq_dec Ascii.ascii_dec) (short_names b) s < 10) ->
  exists t c, (forall n b', conversions (S n) b b' -> to_text b' = Ok (t, 0)) /\ (forall n b', conversions (S (S n)) b b' -> b' = c).
Proof.
  intros Hb Few. destruct (text_stable b Hb Few) as (t & b1 & t1 & b2 & A & B & A1 & B1 & A2). exists t1, b2.
  assert (X : forall n b', conversions n b2 b' -> b' = b2).
  { induction n as [|n IH]; intros b' H; [exact H|]. destruct H as (u & b3 & C & H). destruct (converted_one b2 t1 b2 u b3) as (-> & ->); [split; assumption|exact C|]. apply IH, H. }
  assert (Y : forall n b', conversions (S (S n)) b b' -> b' = b2).
  { intros n b' (u & c & C & u' & c' & C' & H). destruct (converted_one b t b1 u c) as (-> & ->); [split; assumption|exact C|]. destruct (converted_one b1 t1 b2 u' c') as (-> & ->); [split; assumption|exact C'|]. eapply X, H. }
  split; [|exact Y]. intros [|n] b' H; [|rewrite (Y n b' H); exact A2]. destruct H as (u & c & C & H). destruct (converted_one b t b1 u c) as (-> & ->); [split; assumption|exact C|]. cbn in H. subst b'. exact A1.
Qed.
Print Assumptions C96_again. Print Assumptions C96_stable.
(** ** Cases *)
(** The plan of C91_case, and what comes of it *)
Example C96_case : Convertible exw /\ (forall s, count_occ (list_eq_dec Ascii.ascii_dec) (short_names exw) s < 10) /\ exists b', conversions 3 exw b' /\ results exm b' = [([[12]; [12]]%Z, [$"x"])].
Proof.
  split; [exact exw_convertible|]. split.
  - intros s. rewrite exw_shorts. cbn [count_occ]. repeat match goal with |- context [if ?c then _ else _] => destruct c end; lia.
  - destruct (C96_again exw exw_convertible 2) as (b' & A & _ & R). exists b'. split; [exact A|]. rewrite R. vm_compute. reflexivity.
Qed.
(** The first text can be another one: the functions get their names in the order of the plan, but are written in the order of the names of their spaces. *)
Definition exg_decl (s a : N) (n : str) := {| DeclModel.d_space := s; DeclModel.d_anchor := a; DeclModel.d_name := n |}.
Definition exg : bplan := BPlan [($"/g.yaml", 1%N); ($"/f.yaml", 2%N)] [exg_decl 1 0 $"f:a"; exg_decl 2 1 $"f:b"] [].
Definition exg' : bplan := BPlan [($"/f.yaml", 1%N); ($"/g.yaml", 2%N)] [exg_decl 1 0 $"f:b"; exg_decl 2 1 $"f:a"] [].
Example C96_first_text : converted exg $"extension_space /f.yaml {
  function f:b as f2;
}

extension_space /g.yaml {
  function f:a as f;
}
" exg' /\ to_text exg' = Ok ($"extension_space /f.yaml {
  function f:b as f;
}

extension_space /g.yaml {
  function f:a as f2;
}
", 0).
Proof. repeat split; vm_compute; reflexivity. Qed.
(** Finding: with ten functions of one name the text never stays the same, since f10 comes before f2 in the text, and so gets the name f2 the next time. *)
Definition ext_names : list str := [$"f:a"; $"f:b"; $"f:c"; $"f:d"; $"f:e"; $"f:f"; $"f:g"; $"f:h"; $"f:i"; $"f:j"].
Definition ext_plan (l : list str) : bplan := BPlan [($"/f.yaml", 1%N)] (map (fun x => exg_decl 1 (fst x) (snd x)) (combine (map N.of_nat (seq 0 10)) l)) [].
(** the next order: the last function comes second *)
Definition ext_next (l : list str) : list str := match l with a :: r => a :: last r [] :: removelast r | [] => [] end.
Fixpoint ext_state (n : nat) : list str := match n with 0 => ext_names | S n => ext_next (ext_state n) end.
Definition ext_states : list (list str) := map ext_state (seq 0 9).
Lemma ext_convertible : Convertible (ext_plan ext_names).
Proof.
  assert (Sh : short_names (ext_plan ext_names) = repeat $"f" 10) by reflexivity.
  constructor; rewrite ?Sh.
  - constructor; cbn; try (repeat constructor; cbn; intuition discriminate). intros d I. left. destruct I as [<-|[<-|[<-|[<-|[<-|[<-|[<-|[<-|[<-|[<-|[]]]]]]]]]]]; reflexivity.
  - constructor; [|constructor]. apply (LU_abs $"f.yaml"), LP_one. split; [discriminate|reflexivity].
  - repeat constructor; match goal with |- FunctionName ?n => let s := eval vm_compute in (skipn 2 n) in exists $"f", s end; (split; [name|]); (split; [name|reflexivity]).
  - repeat constructor; try (apply numberedb_not; vm_compute; reflexivity); vm_compute; discriminate.
  - apply independentb_ok. vm_compute. reflexivity.
  - constructor.
  - intros x s n [].
  - intros x s n [].
  - intros u [<- | []]. apply numberedb_not. vm_compute. reflexivity.
  - constructor.
  - constructor.
Qed.
Lemma ext_section l : In l ext_states -> exists B, DeclModel.outputFunctionsSection (declarations (ext_plan l)) = Ok B /\ DeclFacts.all_named B /\
  BPlan (DeclModel.spaces (DeclModel.read_blocks 0 0 B)) (map DeclAgainFacts.plain_decl (DeclModel.functions (DeclModel.read_blocks 0 0 B))) [] = ext_plan (ext_next l) /\ In (ext_next l) ext_states /\ ext_next l <> l.
Proof.
  intros I. assert (X : forall l, In l ext_states -> match DeclModel.outputFunctionsSection (declarations (ext_plan l)) with Ok B => forallb (fun x => match fst x with Some _ => true | None => false end) B = true /\
    BPlan (DeclModel.spaces (DeclModel.read_blocks 0 0 B)) (map DeclAgainFacts.plain_decl (DeclModel.functions (DeclModel.read_blocks 0 0 B))) [] = ext_plan (ext_next l) | _ => False end /\ In (ext_next l) ext_states /\ ext_next l <> l).
  { clear l I. unfold ext_states. cbn [map seq]. intros l I. repeat match goal with I : In _ (_ :: _) |- _ => destruct I as [<- | I] end; [..|contradiction].
    all: split; [vm_compute; split; reflexivity|split; [vm_compute; tauto|vm_compute; discriminate]]. }
  destruct (X l I) as (Y & Z1 & Z2). destruct (DeclModel.outputFunctionsSection (declarations (ext_plan l))) as [B|e|]; [|contradiction..]. destruct Y as (Y1 & Y2). exists B. split; [reflexivity|]. split; [|auto].
  apply Forall_forall. intros x Ix. rewrite forallb_forall in Y1. specialize (Y1 x Ix). destruct (fst x); congruence.
Qed.
Lemma ext_step l : In l ext_states -> Convertible (ext_plan l) -> exists t, converted (ext_plan l) t (ext_plan (ext_next l)) /\ Convertible (ext_plan (ext_next l)).
Proof.
  intros I C. destruct (ext_section l I) as (B & E & An & Nx & _). destruct (whole_trip_more _ C) as (t & b' & B' & T & F & S1 & E' & Eu & Ed & _). rewrite E in E'. injection E' as <-. pose proof (plan_again _ _ _ C S1 E Eu Ed) as C'.
  assert (Eb : b' = ext_plan (ext_next l)).
  { rewrite <- Nx. unfold fs' in Eu, Ed. rewrite entries_definitions in Eu, Ed. unfold DeclModel.outputExtensionSpaces in Eu. rewrite DeclAgainFacts.read_spaces in Eu. rewrite DeclAgainFacts.output_read in Ed by exact An. destruct b' as [u d r]. cbn in Eu, Ed. subst u d.
    unfold same_plan in S1. cbn in S1. inversion S1. reflexivity. }
  subst b'. exists t. split; [split; assumption|exact C'].
Qed.
Lemma ext_reached n : forall l b', In l ext_states -> Convertible (ext_plan l) -> conversions n (ext_plan l) b' -> exists l', In l' ext_states /\ b' = ext_plan l' /\ Convertible b'.
Proof.
  induction n as [|n IH]; intros l b' I C H; cbn in H; [subst b'; eauto|]. destruct H as (t & b1 & H1 & H). destruct (ext_step l I C) as (t' & H1' & C'). destruct (converted_one _ _ _ _ _ H1 H1') as (-> & <-).
  destruct (ext_section l I) as (_ & _ & _ & _ & I' & _). eapply IH; eassumption.
Qed.
Theorem C96_text_refuted : exists b, Convertible b /\ forall n b' b'', conversions n b b' -> conversions (S n) b b'' -> to_text b'' <> to_text b'.
Proof.
  exists (ext_plan ext_names). split; [exact ext_convertible|]. intros n b' b'' H H' E. assert (I0 : In ext_names ext_states) by (left; reflexivity). destruct (ext_reached n _ _ I0 ext_convertible H) as (l & I & -> & C).
  destruct (conversions_last _ _ _ H') as (c & t & Hc & Hl). rewrite (conversions_one _ _ _ _ H Hc) in Hl. destruct (ext_step l I C) as (t1 & H1 & C1). destruct (converted_one _ _ _ _ _ H1 Hl) as (-> & ->).
  destruct (ext_section l I) as (_ & _ & _ & _ & I1 & _). destruct (ext_step _ I1 C1) as (t2 & H2 & _). destruct (ext_section _ I1) as (_ & _ & _ & _ & _ & N1).
  assert (X : ext_plan (ext_next (ext_next l)) = ext_plan (ext_next l)). { destruct H1 as (A & B), H2 as (A2 & B2). rewrite A, A2 in E. injection E as ->. rewrite B in B2. congruence. }
  apply N1. clear -X I1. revert X. generalize (ext_next l) I1. clear. intros l I. unfold ext_states in I. cbn [map seq] in I. repeat match goal with I : In _ (_ :: _) |- _ => destruct I as [<- | I] end; [..|contradiction]; vm_compute; discriminate.
Qed.
(** The second and third names of the ten functions *)
Example C96_text_case : map (fun l => firstn 3 l) (firstn 3 ext_states) = [[$"f:a"; $"f:b"; $"f:c"]; [$"f:a"; $"f:j"; $"f:b"]; [$"f:a"; $"f:i"; $"f:j"]].
Proof. reflexivity. Qed.
Print Assumptions C96_text_refuted.
