(** Which binary plans are read to their end. *)
From Verif Require Import Base BaseFacts VisitMessages VisitModel.
From Coq Require Import Lia.

(** * Specification *)
(** ** The messages of a plan *)
Inductive part :=
| PType (t : ty) | PParameter (p : tparam) | PLiteral (l : lit) | PSegment (s : seg) | PSelect (s : sel) | PExpression (e : expr) | PArgument (a : farg)
| PSubquery (r : option rel)         (* the relation of a subquery *)
| PSource (d : datasource)           (* the source of a read relation *)
| PRelation (r : rel) | PSchema (s : schema) (read : bool) | PDeclaration (d : decl) | PPlanRelation (p : prel).
Definition listed {A} (f : A -> list part) (l : list A) : list part := flat_map f l.
Definition if_there {A} (f : A -> list part) (o : option A) : list part := match o with Some x => f x | None => [] end.
Fixpoint in_type (t : ty) : list part :=
  PType t :: match t with
  | TNone | TOld _ | TPlain _ => []
  | TStruct ts => listed in_type ts
  | TList e => if_there in_type e
  | TMap k v => if_there in_type k ++ if_there in_type v
  | TUser ps => listed in_parameter ps
  end
with in_parameter (p : tparam) : list part := PParameter p :: match p with TPType t => in_type t | _ => [] end.
Fixpoint in_literal (l : lit) : list part :=
  PLiteral l :: match l with
  | LNone | LPlain _ => []
  | LStruct fs => listed in_literal fs
  | LMap kvs => listed in_entry kvs
  | LNull t => in_type t
  | LList vs => listed in_literal vs
  | LEmptyList e => if_there in_type e
  | LEmptyMap k v => if_there in_type k ++ if_there in_type v
  | LUser ps => listed in_parameter ps
  end
with in_entry (kv : litkv) : list part := match kv with LKV k v => if_there in_literal k ++ if_there in_literal v end.
Fixpoint in_segment (s : seg) : list part :=
  PSegment s :: match s with GNone => [] | GKey k c => if_there in_literal k ++ if_there in_segment c | GField _ c | GElement _ c => if_there in_segment c end.
Fixpoint in_select (s : sel) : list part :=
  match s with
  | SNone => [PSelect s]
  | SStruct items => PSelect s :: listed (if_there in_select) items
  | SList c => PSelect s :: if_there in_select c
  | SMap c _ => if_there in_select c ++ [PSelect s]
  end.
Definition in_mask (items : list (option sel)) : list part := listed (if_there in_select) items.
Definition in_source (d : datasource) : list part := PSource d :: match d with DVirtual rows => listed (listed in_literal) rows | _ => [] end.
(** A schema; its types are put in below. *)
Definition in_schema (read : bool) (s : schema) : list part := [PSchema s read].
Fixpoint in_expression (e : expr) : list part :=
  PExpression e :: match e with
  | XNone | XNestedNone | XSubNone | XEnum _ => []
  | XLiteral l => in_literal l
  | XSelection v => in_reference v
  | XScalar args out old => listed in_argument args ++ if_there in_type out ++ listed in_expression old
  | XWindow args out sorts ps => listed in_argument args ++ if_there in_type out ++ listed in_sort sorts ++ listed in_expression ps
  | XIf ifs els => listed in_clause ifs ++ if_there in_expression els
  | XSwitch m ifs els => if_there in_expression m ++ listed in_value ifs ++ if_there in_expression els
  | XOr v opts => if_there in_expression v ++ listed in_expression opts
  | XMulti vs opts => listed in_expression vs ++ listed (listed in_expression) opts
  | XCast i t => if_there in_expression i ++ if_there in_type t
  | XNested es => listed in_expression es
  | XNestedMap kvs => listed in_clause kvs
  | XSubScalar i => if_there in_relation i ++ [PSubquery i]
  | XSubIn _ h => if_there in_relation h ++ [PSubquery h]
  | XSubSet t => if_there in_relation t ++ [PSubquery t]
  | XSubComp l r => if_there in_expression l ++ if_there in_relation r ++ [PSubquery r]
  end
with in_argument (a : farg) : list part := PArgument a :: match a with ANone | AEnum _ => [] | AType t => in_type t | AValue e => in_expression e end
with in_clause (c : clause) : list part := match c with Clause i t => if_there in_expression i ++ if_there in_expression t end
with in_value (c : ifvalue) : list part := match c with IfValue i t => if_there in_literal i ++ if_there in_expression t end
with in_reference (v : fieldref) : list part := match v with Ref d m root => if_there in_segment d ++ if_there in_mask m ++ if_there in_expression root end
with in_sort (s : sortf) : list part := match s with Sort e => if_there in_expression e end
with in_aggregate (g : afun) : list part := match g with AFun args out sorts old => listed in_argument args ++ if_there in_type out ++ listed in_sort sorts ++ listed in_expression old end
with in_window (f : wfun) : list part := match f with WFun args out => listed in_argument args ++ if_there in_type out end
with in_measure (m : measure) : list part := match m with Measure g filter => if_there in_aggregate g ++ if_there in_expression filter end
with in_expand (f : expand) : list part := match f with ENone => [] | ESwitching es => listed in_expression es | EConsistent e => in_expression e end
with in_relation (r : rel) : list part :=
  PRelation r :: match r with
  | RNone | RExtLeaf | RReference => []
  | RRead schema filter best proj src => if_there (in_schema true) schema ++ if_there in_expression filter ++ if_there in_expression best ++ if_there in_mask proj ++ in_source src
  | RFilter i c => if_there in_expression c ++ if_there in_relation i
  | RFetch i => if_there in_relation i
  | RAggregate i groups ms => listed (listed in_expression) groups ++ listed in_measure ms ++ if_there in_relation i
  | RSort i sorts => listed in_sort sorts ++ if_there in_relation i
  | RJoin l r c post => if_there in_relation l ++ if_there in_relation r ++ if_there in_expression c ++ if_there in_expression post
  | RProject i es => if_there in_relation i ++ listed in_expression es
  | RSet ins | RExtMulti ins => listed in_relation ins
  | RExtSingle i | RExchange i => if_there in_relation i
  | RCross l r => if_there in_relation l ++ if_there in_relation r
  | RWrite schema i => if_there (in_schema false) schema ++ if_there in_relation i
  | RDdl schema defaults v => if_there (in_schema false) schema ++ if_there (listed in_literal) defaults ++ if_there in_relation v
  | RHashJoin l r lk rk post | RMergeJoin l r lk rk post =>
      if_there in_relation l ++ if_there in_relation r ++ listed in_reference lk ++ listed in_reference rk ++ if_there in_expression post
  | RNestedLoop l r c => if_there in_relation l ++ if_there in_relation r ++ if_there in_expression c
  | RWindowRel i fs ps sorts => if_there in_relation i ++ listed in_window fs ++ listed in_expression ps ++ listed in_sort sorts
  | RExpand i fs => if_there in_relation i ++ listed in_expand fs
  end.
Definition in_plan_relation (p : prel) : list part :=
  PPlanRelation p :: match p with PNone => [] | PRel r => in_relation r | PRoot _ i => in_relation (match i with Some r => r | None => RNone end) end.
(** All messages of a plan that have something to choose, except the needles of an IN *)
Definition with_types (m : part) : list part := match m with PSchema s _ => m :: listed in_type (h_types s) | _ => [m] end.
Definition parts (p : plan) : list part := map PDeclaration (p_decls p) ++ flat_map with_types (listed in_plan_relation (p_rels p)).

(** ** What is wrong with a message *)
(** Nothing is chosen where something must be, or it is a kind of type that is not supported any more. *)
Definition unset (m : part) : Prop :=
  match m with
  | PType TNone | PType (TOld _) | PParameter TPNone | PLiteral LNone | PSegment GNone | PSelect SNone | PSelect (SMap _ false) | PExpression XNone | PExpression XNestedNone
  | PExpression XSubNone | PArgument ANone | PSource DNone | PRelation RNone | PPlanRelation PNone => True
  | _ => False
  end.
(** A declaration of something that is not a function *)
Definition no_function (m : part) : Prop := match m with PDeclaration (DOther _) => True | _ => False end.
(** A subquery without a relation *)
Definition without_relation (m : part) : Prop := match m with PSubquery None => True | _ => False end.

(** * Proofs *)
Section Check.
Variables (written read : schema -> walk).
Definition own (m : part) : walk :=
  match m with
  | PType TNone | PType (TOld _) | PParameter TPNone | PLiteral LNone | PSegment GNone | PSelect SNone | PSelect (SMap _ false) | PExpression XNone | PExpression XNestedNone
  | PExpression XSubNone | PArgument ANone | PSource DNone | PRelation RNone | PPlanRelation PNone => unsupported
  | PDeclaration (DOther _) => Throw EInvalidState
  | PSubquery None => UB
  | PSchema s true => read s
  | PSchema s false => written s
  | _ => fine
  end.
Definition check (l : list part) : walk := each own l.
Lemma bind_fine (a : walk) : (a ;;; fine) = a.
Proof. destruct a as [[]| |]; reflexivity. Qed.
Lemma bind_assoc (a b c : walk) : ((a ;;; b) ;;; c) = (a ;;; b ;;; c).
Proof. destruct a; reflexivity. Qed.
Lemma check_app a b : check (a ++ b) = (check a ;;; check b).
Proof. induction a as [|x a IH]; [reflexivity|]. cbn. fold (check (a ++ b)). fold (check a). rewrite IH, bind_assoc. reflexivity. Qed.
Lemma check_cons x l : check (x :: l) = (own x ;;; check l).
Proof. reflexivity. Qed.
Lemma check_nil : check [] = fine. Proof. reflexivity. Qed.
Lemma fine_bind (a : walk) : (fine ;;; a) = a. Proof. reflexivity. Qed.
Lemma unsupported_bind (a : walk) : (unsupported ;;; a) = unsupported. Proof. reflexivity. Qed.
Lemma each_check {A} (f : A -> walk) g l : Forall (fun x => f x = check (g x)) l -> each f l = check (listed g l).
Proof. induction 1 as [|x l H _ IH]; [reflexivity|]. cbn [each listed flat_map]. fold (each f l). rewrite check_app, H. fold (listed g l). rewrite <- IH. reflexivity. Qed.
Lemma if_check {A} (f : A -> walk) g o : OAll (fun x => f x = check (g x)) o -> if_set f o = check (if_there g o).
Proof. destruct o; cbn; auto. Qed.
Lemma Forall_any {A} (P : A -> Prop) l : (forall x, P x) -> Forall P l.
Proof. intros H. apply Forall_forall. auto. Qed.
Lemma OAll_any {A} (P : A -> Prop) o : (forall x, P x) -> OAll P o.
Proof. destruct o; cbn; auto. Qed.
Lemma Forall_map2 {A} (P Q : A -> Prop) l : (forall x, P x -> Q x) -> Forall P l -> Forall Q l.
Proof. intros H. apply Forall_impl. exact H. Qed.
Lemma OAll_map2 {A} (P Q : A -> Prop) o : (forall x, P x -> Q x) -> OAll P o -> OAll Q o.
Proof. destruct o; cbn; auto. Qed.
Lemma bind_ext (a a' b b' : walk) : a = a' -> b = b' -> (a ;;; b) = (a' ;;; b').
Proof. intros -> ->. reflexivity. Qed.
Lemma check_subquery o : check [PSubquery o] = relation_of_subquery o.
Proof. destruct o; reflexivity. Qed.
Ltac known := match goal with
  | H : Forall _ ?l |- each _ ?l = _ => apply each_check; first [exact H | eapply Forall_map2; [|exact H]; intros ? ?; known]
  | H : OAll _ ?o |- if_set _ ?o = _ => apply if_check; first [exact H | eapply OAll_map2; [|exact H]; intros ? ?; known]
  | |- each _ _ = _ => apply each_check, Forall_any; intros ?; known
  | |- if_set _ _ = _ => apply if_check, OAll_any; intros ?; known
  | H : ?f ?x = _ |- ?f ?x = _ => exact H
  | H : forall x, ?f x = _ |- ?f ?y = _ => exact (H y)
  | |- _ => reflexivity
  end.
Ltac step := rewrite ?check_cons, ?check_app, ?check_subquery, ?check_nil; cbn [own]; rewrite ?fine_bind, ?unsupported_bind, ?bind_fine, ?bind_assoc;
  repeat (apply bind_ext; [known|]); known.
Lemma types_check : (forall t, visitType t = check (in_type t)) /\ (forall p, visitTypeParameter p = check (in_parameter p)).
Proof. apply type_all; intros; cbn [visitType visitTypeParameter in_type in_parameter]; step. Qed.
Lemma literals_check : (forall l, visitLiteral l = check (in_literal l)) /\ (forall k, visitMapKeyValue k = check (in_entry k)).
Proof. destruct types_check as [Ht Hp]. apply literal_all; intros; cbn [visitLiteral visitMapKeyValue in_literal in_entry]; step. Qed.
Lemma segments_check s : visitReferenceSegment s = check (in_segment s).
Proof. revert s. destruct literals_check as [Hl _]. apply segment_all; intros; cbn [visitReferenceSegment in_segment]; step. Qed.
Lemma selects_check s : visitSelect s = check (in_select s).
Proof. revert s. apply select_all; intros; cbn [visitSelect in_select]; try (destruct set); step. Qed.
Lemma mask_check m : visitMaskExpression m = check (in_mask m).
Proof. pose proof selects_check. unfold visitMaskExpression, in_mask. known. Qed.
Lemma source_check d : visitReadType d = check (in_source d).
Proof. destruct literals_check as [Hl _]. destruct d; cbn [visitReadType in_source]; step. Qed.
Lemma subquery_check o : relation_of_subquery o = own (PSubquery o).
Proof. destruct o; reflexivity. Qed.
Lemma written_check s : written s = check (in_schema false s).
Proof. symmetry. apply bind_fine. Qed.
Lemma read_check s : read s = check (in_schema true s).
Proof. symmetry. apply bind_fine. Qed.
Lemma plans_check :
  (forall x, visitExpression written read x = check (in_expression x)) /\ (forall x, visitFunctionArgument written read x = check (in_argument x)) /\
  (forall x, visitIfClause written read x = check (in_clause x)) /\ (forall x, visitIfValue written read x = check (in_value x)) /\
  (forall x, visitFieldReference written read x = check (in_reference x)) /\ (forall x, visitSortField written read x = check (in_sort x)) /\
  (forall x, visitAggregateFunction written read x = check (in_aggregate x)) /\ (forall x, visitWindowRelFunction written read x = check (in_window x)) /\
  (forall x, visitMeasure written read x = check (in_measure x)) /\ (forall x, visitExpandField written read x = check (in_expand x)) /\
  (forall x, visitRelation written read x = check (in_relation x)).
Proof.
  destruct types_check as [Ht _]. destruct literals_check as [Hl _]. pose proof segments_check as Hg. pose proof mask_check as Hm. pose proof source_check as Hd. pose proof subquery_check as Hq.
  pose proof written_check as Hw. pose proof read_check as Hr.
  apply plan_all; intros;
    cbn [visitExpression visitFunctionArgument visitIfClause visitIfValue visitFieldReference visitSortField visitAggregateFunction visitWindowRelFunction visitMeasure visitExpandField visitRelation
         in_expression in_argument in_clause in_value in_reference in_sort in_aggregate in_window in_measure in_expand in_relation].
  all: step.
Qed.
End Check.
