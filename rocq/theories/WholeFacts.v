(** Whole binary plans: converted to text and back. *)
From Verif Require Import Base BaseFacts StringsModel StringsFacts EnumModel TypeModel TypeProtoFacts LexModel LexFacts NameModel NameFacts ExprModel TypeTokenFacts LiteralFacts ExprFacts FirstFacts RelModel RelFacts SectionModel
  SectionFacts WholeModel.
From Verif Require SymbolModel SymbolMoreFacts FieldModel FieldFacts DeclModel DeclFacts PipeModel PipeFacts TreeModel TreeFacts PrintFacts.
From Coq Require Import Lia ZifyBool ZifyNat ZifyN Permutation.

(** * Specification *)
(** ** Columns *)
(** A column of a plan, whatever its number in some relation: it is a column of a table that is read, or it was computed by a relation.  All of these are numbered,
    the inputs of a relation first. *)
Inductive cid := Stored (n : nat) | Computed (n : nat).
Definition is_computed (c : cid) : bool := match c with Computed _ => true | Stored _ => false end.
Definition pick (l : list cid) (z : Z) : option cid := if (z <? 0)%Z then None else nth_error l (Z.to_nat z).
(** What is computed by a project relation: a column that is only selected stays the same. *)
Fixpoint projected (n : nat) (F : list cid) (es : list expr) : list cid :=
  match es with
  | [] => []
  | ESel (SegField z _) _ :: es => some_list (pick F z) ++ projected n F es
  | _ :: es => Computed n :: projected (S n) F es
  end.
Definition grouped_by (F : list cid) (es : list expr) : list cid := flat_map (fun e => match e with ESel (SegField z _) _ => some_list (pick F z) | _ => [] end) es.
Definition is_column (e : expr) : bool := match e with ESel (SegField _ _) _ => true | _ => false end.
(** The columns that a relation adds, and how many of them are new *)
Definition added (n : nat) (F : list cid) (b : body) (sch : option named_struct) : list cid :=
  match b with
  | BRead _ _ _ _ _ => match sch with Some s => map Stored (seq n (length (ns_names s))) | None => [] end
  | BAggregate gs ms => grouped_by F (concat gs) ++ map Computed (seq n (length ms))
  | BProject es => projected n F es
  | _ => []
  end.
Definition created (b : body) (sch : option named_struct) : nat :=
  match b with
  | BRead _ _ _ _ _ => match sch with Some s => length (ns_names s) | None => 0 end
  | BAggregate _ ms => length ms
  | BProject es => length (filter (fun e => negb (is_column e)) es)
  | _ => 0
  end.
(** The columns that the emits choose from, and those that come out *)
Definition available (F G : list cid) (b : body) : list cid := match b with BAggregate _ _ => G | _ => F ++ G end.
Definition chosen (l : list cid) (emit : list Z) : list cid := match emit with [] => l | _ => flat_map (fun z => some_list (pick l z)) emit end.
Definition all_columns (columns : nat -> tree -> nat * list cid) := fix go (n : nat) (l : list tree) : nat * list cid :=
  match l with [] => (n, []) | i :: l => let '(n, a) := columns n i in let '(n, b) := go n l in (n, a ++ b) end.
Fixpoint columns (n : nat) (t : tree) : nat * list cid :=
  match t with
  | Node r src sch ins =>
    let '(n, F) := all_columns columns n ins in
    (n + created (r_body r) sch, chosen (available F (added n F (r_body r) sch) (r_body r)) (r_emit r))
  end.

(** ** The same plan *)
Section Same.
  Variable R : N -> N -> Prop.                 (* the same function *)
  Section Expressions.
    Variable C : Z -> Z -> Prop.               (* the same column *)
    Inductive SameE : expr -> expr -> Prop :=
    | SE_literal l : SameE (ELit l) (ELit l)
    | SE_column z z' : C z z' -> SameE (ESel (SegField z None) RootRef) (ESel (SegField z' None) RootRef)
    | SE_function f f' args args' ty : R f f' -> Forall2 SameArg args args' -> SameE (EFun f args [] [] ty) (EFun f' args' [] [] ty)
    | SE_if ifs ifs' els els' : Forall2 SameClause ifs ifs' -> SameO els els' -> SameE (EIfThen ifs els) (EIfThen ifs' els')
    | SE_cast e e' ty : SameE e e' -> SameE (ECast e ty 0) (ECast e' ty 0)
    with SameArg : arg expr -> arg expr -> Prop :=
    | SA_value e e' : SameE e e' -> SameArg (AValue e) (AValue e')
    | SA_enum s : SameArg (AEnum s) (AEnum s)
    with SameClause : option expr * option expr -> option expr * option expr -> Prop :=
    | SC_both i i' t t' : SameE i i' -> SameE t t' -> SameClause (Some i, Some t) (Some i', Some t')
    with SameO : option expr -> option expr -> Prop :=
    | SO_none : SameO None None
    | SO_some e e' : SameE e e' -> SameO (Some e) (Some e').
    Inductive SameMeasure : measure -> measure -> Prop :=
    | SM f f' args args' ty ph v filter filter' : R f f' -> Forall2 SameArg args args' -> SameO filter filter' ->
        SameMeasure (Measure (Some (AF f args [] [] ty ph v [])) filter) (Measure (Some (AF f' args' [] [] ty ph v [])) filter').
    Inductive SameSort : sort -> sort -> Prop :=
    | SS e e' d : SameE e e' -> SameSort (e, SortDirection d) (e', SortDirection d).
    (** Everything but the emits *)
    Inductive SameBody : body -> body -> Prop :=
    | SB_read f f' : SameO f f' -> SameBody (BRead [] [] f None false) (BRead [] [] f' None false)
    | SB_filter c c' : SameO c c' -> SameBody (BFilter c) (BFilter c')
    | SB_fetch o c : SameBody (BFetch o c) (BFetch o c)
    | SB_aggregate gs gs' ms ms' : Forall2 SameE gs gs' -> Forall2 SameMeasure ms ms' -> SameBody (BAggregate [gs] ms) (BAggregate [gs'] ms')
    | SB_sort l l' : Forall2 SameSort l l' -> SameBody (BSort l) (BSort l')
    | SB_project l l' : Forall2 SameE l l' -> SameBody (BProject l) (BProject l')
    | SB_join t e e' : SameO e e' -> SameBody (BJoin t e None) (BJoin t e' None)
    | SB_cross : SameBody BCross BCross.
  End Expressions.
  Definition same_column (l : list cid) (z z' : Z) : Prop := pick l z <> None /\ pick l z' = pick l z.
  Definition all_same (same_tree : nat -> tree -> tree -> Prop) := fix go (n : nat) (l l' : list tree) : Prop :=
    match l, l' with
    | [], [] => True
    | i :: l, i' :: l' => same_tree n i i' /\ go (fst (columns n i)) l l'
    | _, _ => False
    end.
  Fixpoint same_tree (n : nat) (t t' : tree) : Prop :=
    match t, t' with
    | Node r src sch ins, Node r' src' sch' ins' =>
      src' = src /\ sch' = sch /\ all_same same_tree n ins ins' /\
      let '(n, F) := all_columns columns n ins in
      SameBody (same_column F) (r_body r) (r_body r') /\
      Forall2 (same_column (available F (added n F (r_body r) sch) (r_body r))) (r_emit r) (r_emit r')
    end.
End Same.
(** Functions are the same if they have the same name in the same extension space. *)
Definition same_function (b b' : bplan) (f f' : N) : Prop :=
  exists uri name, DeclFacts.denotes (b_uris b) (b_decls b) f uri name /\ DeclFacts.denotes_only (b_uris b') (b_decls b') f' uri name.
(** Every relation of the plan comes back as a root, without names if there were none. *)
Definition same_plan (b b' : bplan) : Prop :=
  Forall2 (fun x x' => same_tree (same_function b b') 0 (fst x) (fst x') /\ snd x' = Some (match snd x with Some l => l | None => [] end)) (b_rels b) (b_rels b').

(** ** The plans this is about *)
Section Class.
  Variable known : N -> Prop.                  (* the functions that are declared *)
  (** Expressions: literals and types that can be written and read, columns of the input that may be used, functions with arguments and without options, conditions and casts *)
  Fixpoint plain (usable : Z -> Prop) (e : expr) : Prop :=
    match e with
    | ELit l => ReadsAs l l
    | ESel (SegField z None) RootRef => usable z
    | EFun f args [] [] ty =>
        known f /\ args <> [] /\ Printable ty ty /\
        (fix all (l : list (arg expr)) : Prop := match l with
           | [] => True
           | AValue e :: l => plain usable e /\ all l
           | AEnum s :: l => (Name (s ++ enum_suffix) /\ not_null (s ++ enum_suffix)) /\ all l
           | _ :: _ => False end) args
    | EIfThen ifs els =>
        (ifs <> [] \/ els <> None) /\
        (fix all (l : list (option expr * option expr)) : Prop := match l with [] => True | (Some i, Some t) :: l => plain usable i /\ plain usable t /\ all l | _ :: _ => False end) ifs /\
        match els with Some e => plain usable e | None => True end
    | ECast e ty failure => failure = 0%N /\ Printable ty ty /\ plain usable e
    | _ => False
    end.
  Definition plain_arg (usable : Z -> Prop) (a : arg expr) : Prop :=
    match a with AValue e => plain usable e | AEnum s => Name (s ++ enum_suffix) /\ not_null (s ++ enum_suffix) | _ => False end.
  Definition plain_option (usable : Z -> Prop) (o : option expr) : Prop := match o with Some e => plain usable e | None => True end.
  Definition plain_measure (usable : Z -> Prop) (m : measure) : Prop :=
    match m with
    | Measure (Some (AF f args [] [] ty _ _ [])) filter => known f /\ Forall (plain_arg usable) args /\ Printable ty ty /\ plain_option usable filter
    | _ => False
    end.
  Definition plain_sort (usable : Z -> Prop) (s : sort) : Prop := match s with (e, SortDirection d) => plain usable e /\ d <> DUnspecified | _ => False end.
  Definition in_range (F : list cid) (z : Z) : Prop := pick F z <> None.
  (** Not a computed column that is also grouped by: see C91_grouped_refuted *)
  Definition not_grouped (F g : list cid) (z : Z) : Prop := exists c, pick F z = Some c /\ ~ (is_computed c = true /\ In c g).
  Definition proper_join (t : join_type) : Prop := match t with JUnspecified | JSemi | JAnti => False | _ => True end.
  (** A relation with [k] inputs, their columns [F] and the columns [G] that it adds *)
  Definition relation_ok (k : nat) (F G : list cid) (r : relation) (src : option source) (sch : option named_struct) : Prop :=
    (Z.of_nat (length (F ++ G)) < 2 ^ 31)%Z /\
    match r_body r with
    | BRead sources schemas filter best projection =>
        k = 0 /\ sources = [] /\ schemas = [] /\ best = None /\ projection = false /\ r_emit r = [] /\ plain_option (fun _ => False) filter /\
        (exists s, src = Some s /\ SourceReads s s) /\ match sch with Some s => SchemaReads s s /\ NoDup (ns_names s) | None => True end
    | _ =>
        src = None /\ sch = None /\
        match r_body r with
        | BFilter c => k = 1 /\ r_emit r = [] /\ plain_option (in_range F) c
        | BFetch o c => k = 1 /\ r_emit r = [] /\ o = 0%Z /\ int64 c
        | BAggregate gs ms =>
            k = 1 /\ G <> [] /\ (exists zs, gs = [map (fun z => ESel (SegField z None) RootRef) zs] /\ Forall (in_range F) zs) /\
            NoDup (filter is_computed (grouped_by F (concat gs))) /\ Forall (plain_measure (not_grouped F (grouped_by F (concat gs)))) ms /\
            Forall (fun z => exists n, pick G z = Some (Computed n)) (r_emit r)
        | BSort l => k = 1 /\ r_emit r = [] /\ Forall (plain_sort (in_range F)) l
        | BProject l => k = 1 /\ Forall (plain (in_range F)) l /\ Forall (in_range (F ++ G)) (r_emit r)
        | BJoin t e post => k = 2 /\ r_emit r = [] /\ proper_join t /\ plain_option (in_range F) e /\ post = None
        | BCross => k = 2 /\ r_emit r = []
        | _ => False
        end
    end.
  Definition all_ok (tree_ok : nat -> tree -> Prop) := fix go (n : nat) (l : list tree) : Prop :=
    match l with [] => True | i :: l => tree_ok n i /\ go (fst (columns n i)) l end.
  Fixpoint tree_ok (n : nat) (t : tree) : Prop :=
    match t with
    | Node r src sch ins =>
      all_ok tree_ok n ins /\
      let '(n, F) := all_columns columns n ins in relation_ok (length ins) F (added n F (r_body r) sch) r src sch
    end.
End Class.
(** The reads of a tree: sources and schemas *)
Fixpoint sources_in (t : tree) : list source := match t with Node _ src _ ins => flat_map sources_in ins ++ some_list src end.
Fixpoint schemas_in (t : tree) : list named_struct := match t with Node _ _ sch ins => flat_map schemas_in ins ++ some_list sch end.
(** The names that the conversion makes up are one of these, followed by a number or not. *)
Definition made_up : list str :=
  [$"schema"; $"named"; $"local"; $"virtual"; $"extensiontable"; $"measurename"; $"intermediate"; $"read"; $"filter"; $"fetch"; $"aggregate"; $"sort"; $"project"; $"join"; $"cross"; $"root.names"; $"root"; $"rel"].
Definition numbered_from (bases : list str) (n : str) : Prop := exists b d, In b bases /\ forallb is_digit d = true /\ n = b ++ d.
Definition short_names (b : bplan) : list str := map (fun d => DeclModel.shortName (DeclModel.d_name d)) (b_decls b).
Definition declared_function (b : bplan) (f : N) : Prop := exists uri name, DeclFacts.denotes (b_uris b) (b_decls b) f uri name.
Record Convertible (b : bplan) : Prop := {
  cv_declared : DeclFacts.declared (b_uris b) (b_decls b);
  cv_uris : Forall (fun u => LUri (fst u)) (b_uris b);
  cv_functions : Forall (fun d => FunctionName (DeclModel.d_name d)) (b_decls b);
  cv_shorts : Forall (fun s => ~ numbered_from made_up s /\ to_lower s <> $"ifthen") (short_names b);
  cv_independent : SymbolMoreFacts.Independent (short_names b);
  cv_trees : Forall (fun x => tree_ok (declared_function b) 0 (fst x)) (b_rels b);
  (* no column, table or extension space has a name that is made up, or that of a function *)
  cv_columns : forall x s n, In x (b_rels b) -> In s (schemas_in (fst x)) -> In n (ns_names s) -> ~ numbered_from (made_up ++ short_names b) n /\ endsWith n enum_suffix = false;
  cv_tables : forall x s n, In x (b_rels b) -> In s (sources_in (fst x)) -> In n (table_names s) -> ~ numbered_from (made_up ++ short_names b) n;
  cv_spaces : forall u, In u (map fst (b_uris b)) -> ~ numbered_from (made_up ++ short_names b) u;
  cv_files : NoDup (flat_map files_of (flat_map (fun x => sources_in (fst x)) (b_rels b)));
  (* output names are those of the only relation, see C35 *)
  cv_names : Forall (fun x => match snd x with Some l => Forall Name l /\ (l <> [] -> length (b_rels b) = 1) | None => True end) (b_rels b) }.

(** * Expressions *)
Lemma plain_direct known usable e : plain known usable e -> direct e = true.
Proof.
  induction e as [|l|s r|r|r|f args deprecated options ty Ha Hd|ifs els Hi He|e ty f IH|n|l n Hl|q n|op red e n He|u] using PrintFacts.expr_ind2; cbn; try reflexivity; try contradiction.
  - intros (_ & H & E). apply andb_true_iff. split.
    + induction Hi as [|[[i|] [t|]] ifs [Hi Ht] _ IH]; cbn; try reflexivity; [|contradiction..]. destruct H as (Pi & Pt & H). rewrite (Hi _ eq_refl Pi), (Ht _ eq_refl Pt), (IH H). reflexivity.
    + destruct els as [e|]; [|reflexivity]. apply (He _ eq_refl E).
  - intros (_ & _ & H). auto.
Qed.
Section Read.
  Variables (known : N -> Prop) (usable : Z -> Prop) (R : N -> N -> Prop) (C : Z -> Z -> Prop).
  Variables (function_name : N -> option str) (field_name : N -> Z -> option str) (find_function : str -> option N) (find_relation : str -> option bool) (find_field : str -> option (N * Z)).
  Hypothesis HR : forall f, known f -> exists n f', function_name f = Some n /\ Name n /\ to_lower n <> $"ifthen" /\ find_function n = Some f' /\ R f f'.
  Hypothesis HC : forall z, usable z -> exists n z', field_name 0 z = Some n /\ Column n /\ endsWith n enum_suffix = false /\ find_field n = Some (0%N, z') /\ C z z'.
  Lemma plain_looks e : plain known usable e -> looks_enum field_name e = false.
  Proof.
    destruct e as [|l|s r|r|r|f args deprecated options ty|ifs els|e ty f|n|l n|q n|op red e n|u]; try reflexivity; try contradiction.
    destruct s as [z [|]| | |]; try contradiction. destruct r; try contradiction. cbn [plain looks_enum steps_of field_of]. intros H. destruct (HC z H) as (n & z' & -> & _ & E & _). exact E.
  Qed.
  Notation Rd := (Readable function_name field_name find_function find_relation find_field).
  Lemma plain_reads e : plain known usable e -> exists e', Rd e e' /\ SameE R C e e'.
  Proof.
    induction e as [|l|s r|r|r|f args deprecated options ty Ha Hd|ifs els Hi He|e ty f IH|n|l n Hl|q n|op red e n He|u] using PrintFacts.expr_ind2; try contradiction.
    - intros H. exists (ELit l). split; constructor; exact H.
    - destruct s as [z [|]| | |]; try contradiction. destruct r; try contradiction. intros H. destruct (HC z H) as (n & z' & F & Cn & _ & G & S1). exists (ESel (SegField z' None) RootRef). split; [|constructor; exact S1].
      exact (RD_column _ _ _ _ _ (SegField z None) RootRef n 0%N z' F Cn G).
    - destruct deprecated; try contradiction. destruct options; try contradiction. intros (Hf & Ne & Ty & Hall). destruct (HR f Hf) as (n & f' & E1 & E2 & E3 & E4 & E5).
      assert (X : exists args', Forall2 (ArgReads field_name Rd) args args' /\ Forall2 (SameArg R C) args args' /\ length args' = length args).
      { clear Ne Hd. induction Ha as [|a args Pa _ IH]; [exists []; repeat split; constructor|]. destruct a as [e|s|t|]; try contradiction; destruct Hall as (H1 & H2); destruct (IH H2) as (args' & A1 & A2 & A3).
        - destruct (Pa H1) as (e' & B1 & B2). exists (AValue e' :: args'). split; [constructor; [constructor; [exact B1|apply plain_looks, H1]|exact A1]|]. split; [constructor; [constructor; exact B2|exact A2]|cbn; congruence].
        - exists (AEnum s :: args'). split; [constructor; [constructor; apply H1|exact A1]|]. split; [constructor; [constructor|exact A2]|cbn; congruence]. }
      destruct X as (args' & A1 & A2 & A3). exists (EFun f' args' [] [] ty). split; [|constructor; assumption]. rewrite <- (app_nil_r args') at 1. eapply RD_function; try eassumption; [constructor|]. rewrite app_nil_r. intros ->. destruct args; [congruence|discriminate].
    - intros (Hn & H & E). 
      assert (X : exists ifs', Forall2 (ClauseReads Rd) ifs ifs' /\ Forall2 (SameClause R C) ifs ifs').
      { clear Hn. induction Hi as [|[[i|] [t|]] ifs [Hi Ht] _ IH]; [exists []; split; constructor| |contradiction..]. destruct H as (Pi & Pt & H). destruct (IH H) as (ifs' & A1 & A2). destruct (Hi _ eq_refl Pi) as (i' & B1 & B2). destruct (Ht _ eq_refl Pt) as (t' & D1 & D2).
        exists ((Some i', Some t') :: ifs'). split; constructor; try assumption; constructor; assumption. }
      destruct X as (ifs' & A1 & A2). assert (Y : exists els', ElseReads Rd els els' /\ SameO R C els els').
      { destruct els as [e|]; [|exists None; split; constructor]. destruct (He _ eq_refl E) as (e' & B1 & B2). exists (Some e'). split; constructor; assumption. }
      destruct Y as (els' & B1 & B2). exists (EIfThen ifs' els'). split; constructor; assumption.
    - intros (-> & Ty & H). destruct (IH H) as (e' & A & B). exists (ECast e' ty 0). split; constructor; assumption.
  Qed.
  Lemma plain_args l : Forall (plain_arg known usable) l -> exists l', Forall2 (ArgReads field_name Rd) l l' /\ Forall2 (SameArg R C) l l'.
  Proof.
    induction 1 as [|a l Ha _ (l' & A1 & A2)]; [exists []; split; constructor|]. destruct a as [e|s|t|]; try contradiction; cbn [plain_arg] in Ha.
    - destruct (plain_reads e Ha) as (e' & B1 & B2). exists (AValue e' :: l'). split; constructor; try assumption; constructor; [exact B1|apply plain_looks, Ha|exact B2].
    - exists (AEnum s :: l'). split; constructor; try assumption; constructor; apply Ha.
  Qed.
End Read.

(** * Relations *)
Section Relations.
  Variables (known : N -> Prop) (R : N -> N -> Prop) (C : Z -> Z -> Prop).
  Variables (function_name : N -> option str) (field_name : N -> Z -> option str) (emit_name : Z -> option str) (measure_name alternative alias : nat -> option str).
  Variables (find_function : str -> option N) (find_relation : str -> option bool) (find_field : nat -> nat -> str -> option (N * Z)) (find_emit : str -> N * Z * bool) (width : nat) (known_name : str -> bool).
  Hypothesis HR : forall f, known f -> exists n f', function_name f = Some n /\ Name n /\ to_lower n <> $"ifthen" /\ find_function n = Some f' /\ R f f'.
  Definition Found (i j : nat) (z : Z) : Prop := exists n z', field_name 0 z = Some n /\ Column n /\ endsWith n enum_suffix = false /\ find_field i j n = Some (0%N, z') /\ C z z'.
  Definition FoundEmit (z z' : Z) : Prop := exists n, emit_name z = Some n /\ EmitColumn n /\ find_emit n = (0%N, z', false).
  Notation at_ := (At function_name field_name find_function find_relation find_field).
  Notation RR := (RelReads function_name field_name emit_name measure_name alternative alias find_function find_relation find_field find_emit width known_name known_name).
  Lemma plain_at (usable : Z -> Prop) i j e : (forall z, usable z -> Found i j z) -> plain known usable e -> exists e', at_ i j e e' /\ SameE R C e e'.
  Proof. intros H P. destruct (plain_reads known usable R C function_name field_name find_function find_relation (find_field i j) HR H e P) as (e' & A & B). exists e'. split; [|exact B]. split; [exact A|]. eapply plain_direct, P. Qed.
  Lemma option_at (usable : Z -> Prop) i j o : (forall z, usable z -> Found i j z) -> plain_option known usable o -> exists o', OptionAt function_name field_name find_function find_relation find_field i j o o' /\ SameO R C o o'.
  Proof. intros H P. destruct o as [e|]; [|exists None; split; constructor]. destruct (plain_at usable i j e H P) as (e' & A & B). exists (Some e'). split; constructor; assumption. Qed.
  Lemma emits_read l : Forall (fun z => exists z', FoundEmit z z') l -> exists l', Forall2 (EmitReads emit_name find_emit) l l' /\ Forall2 FoundEmit l l'.
  Proof. induction 1 as [|z l (z' & n & A & B & D) _ (l' & E & F)]; [exists []; split; constructor|]. exists (z' :: l'). split; constructor; try assumption; [econstructor; eassumption|]. exists n. auto. Qed.
  Section Each.
    Context {A B : Type}.
    Variables (Q : nat -> A -> B -> Prop) (S0 : A -> B -> Prop).
    Lemma each_at l : forall i, (forall k a, nth_error l k = Some a -> exists b, Q (i + k) a b /\ S0 a b) -> exists l', ForallAt Q i l l' /\ Forall2 S0 l l'.
    Proof.
      induction l as [|a l IH]; intros i H; [exists []; split; constructor|]. destruct (H 0 a eq_refl) as (b & Hb & Sb). rewrite Nat.add_0_r in Hb.
      destruct (IH (S i)) as (l' & A1 & A2); [intros k x E; destruct (H (S k) x E) as (y & Y1 & Y2); exists y; rewrite Nat.add_succ_r in Y1; split; assumption|]. exists (b :: l'). split; constructor; assumption.
    Qed.
  End Each.
  Lemma forall_at_length {A B} (Q : nat -> A -> B -> Prop) i l l' : ForallAt Q i l l' -> length l' = length l.
  Proof. induction 1; cbn; congruence. Qed.
  Lemma forall_nth {A} (P : A -> Prop) l k a : Forall P l -> nth_error l k = Some a -> P a.
  Proof. intros H E. rewrite Forall_forall in H. apply H. eapply nth_error_In, E. Qed.
  Definition with_names (b : body) (sources schemas : list str) : body := match b with BRead _ _ f g p => BRead sources schemas f g p | _ => b end.
  Definition mark : expr -> Prop := fun e => exists z, e = ESel (SegField z None) RootRef.
  Lemma relation_reads k F G r src sch sources schemas :
    relation_ok known k F G r src sch ->
    match r_body r with
    | BRead _ _ _ _ _ => sources <> [] /\ Forall (fun n => Name n /\ known_name n = true) sources /\ Forall (fun n => Name n /\ known_name n = true) schemas
    | BAggregate gs _ =>
        (forall i z, nth_error (concat gs) i = Some (ESel (SegField z None) RootRef) -> exists n z', field_name 0 z = Some n /\ Column n /\ find_field i 0 n = Some (0%N, z') /\ C z z' /\ (0 <= z' < Z.of_nat width)%Z) /\
        (forall i j z, length (concat gs) <= i -> not_grouped F (grouped_by F (concat gs)) z -> Found i j z) /\ (forall k, optional_name (measure_name k))
    | BProject es =>
        (forall i j z, in_range F z -> Found i j z) /\
        forall i e, nth_error es i = Some e -> (alternative i = None /\ optional_name (alias i)) \/
          exists t z z', e = ESel (SegField z None) RootRef /\ alternative i = Some t /\ Column t /\ find_field i 0 t = Some (0%N, z') /\ C z z'
    | _ => forall i j z, in_range F z -> Found i j z
    end ->
    Forall (fun z => exists z', FoundEmit z z') (r_emit r) ->
    exists b' emit', RR (Relation (with_names (r_body r) sources schemas) (r_emit r)) (Relation b' emit') /\ SameBody R C (r_body r) (with_names b' [] []) /\ Forall2 FoundEmit (r_emit r) emit'.
  Proof.
    intros (_ & K) H E. destruct r as [b emit]. cbn [r_body r_emit] in *. destruct b as [s sc f g p|c|o c|gs ms|l|l|t e post| |n]; cbn [with_names].
    - destruct K as (-> & -> & -> & -> & -> & -> & Hf & _). destruct H as (H1 & H2 & H3).
      destruct (option_at (fun _ => False) (length sources + length schemas) 0 f (fun z B => match B with end) Hf) as (f' & A & B). exists (BRead sources schemas f' None false), []. split; [constructor; assumption|]. split; [constructor; exact B|constructor].
    - destruct K as (-> & -> & -> & -> & Hc). destruct (option_at _ 0 0 c (H 0 0) Hc) as (c' & A & B). exists (BFilter c'), []. split; [constructor; exact A|]. split; [constructor; exact B|constructor].
    - destruct K as (-> & -> & -> & -> & -> & Hc). exists (BFetch 0 c), []. split; [constructor; exact Hc|]. split; constructor.
    - destruct K as (-> & -> & -> & _ & (zs & -> & Hz) & _ & Hm & _). destruct H as (H1 & H2 & H3). cbn [concat] in *. rewrite app_nil_r in *. set (es := map _ zs) in *.
      destruct (each_at (GroupReads function_name field_name find_function find_relation find_field width) (SameE R C) es 0) as (gs' & A1 & A2).
      { intros i e Ei. assert (X : exists z, e = ESel (SegField z None) RootRef) by (unfold es in Ei; apply nth_error_In, in_map_iff in Ei as (z & <- & _); eexists; reflexivity). destruct X as (z & ->).
        destruct (H1 i z Ei) as (n & z' & B1 & B2 & B3 & B4 & B5). exists (ESel (SegField z' None) RootRef). split; [|constructor; exact B4]. cbn [Nat.add]. apply (GD _ _ _ _ _ _ i _ (ESel (SegField z' None) RootRef)).
        - split; [|reflexivity]. exact (RD_column _ _ _ _ _ (SegField z None) RootRef n 0%N z' B1 B2 B3).
        - constructor. exact B5. }
      pose proof (forall_at_length _ _ _ _ A1) as Lg.
      destruct (each_at (fun i m m' => MeasureReads function_name field_name measure_name find_function find_relation find_field i m m' (i - length gs')) (SameMeasure R C) ms (length gs')) as (ms' & B1 & B2).
      { intros i m Ei. pose proof (forall_nth _ _ _ _ Hm Ei) as Pm. destruct m as [[[f args dep opts ty ph v sorts]|] filter]; [|contradiction]. destruct dep; [|contradiction]. destruct opts; [|contradiction]. destruct sorts; [|contradiction].
        destruct Pm as (Kf & Pa & Ty & Pf). destruct (HR f Kf) as (n & f' & E1 & E2 & E3 & E4 & E5). assert (Hi : length es <= length gs' + i) by lia.
        destruct (plain_args known _ R C function_name field_name find_function find_relation (find_field (length gs' + i) 0) HR (fun z => H2 _ 0 z Hi) args Pa) as (args' & D1 & D2).
        destruct (option_at _ (length gs' + i) 1 filter (fun z => H2 _ 1 z Hi) Pf) as (filter' & D3 & D4).
        exists (Measure (Some (AF f' args' [] [] ty ph v [])) filter'). split; [|constructor; assumption]. rewrite <- (app_nil_r args'). eapply MR; try eassumption; [constructor|apply H3]. }
      destruct (emits_read emit E) as (emit' & D1 & D2). exists (BAggregate [gs'] ms'), emit'. split; [constructor; cbn [concat]; rewrite ?app_nil_r; assumption|]. split; [constructor; assumption|exact D2].
    - destruct K as (-> & -> & -> & -> & Hl). destruct (each_at (SortReads function_name field_name find_function find_relation find_field) (SameSort R C) l 0) as (l' & A & B).
      { intros i [e d] Ei. pose proof (forall_nth _ _ _ _ Hl Ei) as P. destruct d as [d|f|]; cbn [plain_sort] in P; try contradiction. destruct P as (P & Nd). destruct (plain_at _ (0 + i) 0 e (H _ 0) P) as (e' & X & Y). exists (e', SortDirection d). split; [|constructor; exact Y].
        replace (SortDirection d) with (read_direction d) at 2 by (destruct d; try reflexivity; congruence). constructor. exact X. }
      exists (BSort l'), []. split; [constructor; exact A|]. split; [constructor; exact B|constructor].
    - destruct K as (-> & -> & -> & Hl & _). destruct H as (H & Ha). destruct (each_at (ExpressionReads function_name field_name alternative alias find_function find_relation find_field) (SameE R C) l 0) as (l' & A & B).
      { intros i e Ei. pose proof (forall_nth _ _ _ _ Hl Ei) as P. destruct (Ha i e Ei) as [(A1 & A2) | (t & z & z' & -> & A1 & A2 & A3 & A4)]; cbn [Nat.add].
        - destruct (plain_at _ i 0 e (H i 0) P) as (e' & X & Y). exists e'. split; [constructor 1; assumption|exact Y].
        - exists (ESel (SegField z' None) RootRef). split; [|constructor; exact A4]. exact (XR_alternative _ _ _ _ _ _ _ i _ t 0%N z' A1 A2 A3). }
      destruct (emits_read emit E) as (emit' & D1 & D2). exists (BProject l'), emit'. split; [constructor; assumption|]. split; [constructor; exact B|exact D2].
    - destruct K as (-> & -> & -> & -> & Ht & He & ->). destruct (option_at _ 1 0 e (H 1 0) He) as (e' & A & B). exists (BJoin t e' None), []. split; [constructor; [intros ->; exact Ht|exact A]|]. split; [constructor; exact B|constructor].
    - destruct K as (-> & -> & -> & ->). exists BCross, []. split; [constructor|]. split; constructor.
    - destruct K as (_ & _ & []).
  Qed.
End Relations.

(** * Columns in the two conversions *)
Lemma name_no_dot n : Name n -> ~ In "."%char n.
Proof.
  assert (W : forall w, LIdentifier w -> ~ In "."%char w).
  { intros w [c r Hc Hr] [E | I]; [subst c; discriminate Hc|]. unfold all_ in Hr. rewrite forallb_forall in Hr. specialize (Hr _ I). discriminate Hr. }
  induction 1 as [w Hw _ | w k n Hw _ _ _ IH]; [apply W, Hw|]. intros I. apply in_app_or in I as [I | I]; [exact (W w Hw I)|]. apply in_app_or in I as [I | I]; [|exact (IH I)]. apply repeat_spec in I. discriminate I.
Qed.
Lemma dot_split (a b c d : str) : ~ In "."%char a -> ~ In "."%char c -> a ++ $"." ++ b = c ++ $"." ++ d -> a = c /\ b = d.
Proof.
  revert c. induction a as [|x a IH]; intros [|y c] Ha Hc E; cbn in E.
  - injection E as ->. auto.
  - injection E as <- _. exfalso. apply Hc. left. reflexivity.
  - injection E as -> _. exfalso. apply Ha. left. reflexivity.
  - injection E as -> E. destruct (IH c) as [-> ->]; auto; [intros I; apply Ha; right; exact I|intros I; apply Hc; right; exact I].
Qed.
Lemma name_nonempty n : Name n -> n <> [].
Proof. intros H. destruct (name_head n H) as (c & r & -> & _). discriminate. Qed.
Notation text_of_column := FieldModel.column_text.
Section Lookup.
  Variables (ss : FieldModel.schemas) (loc : str -> nat).
  (** What the reader has for a column of the converter *)
  Definition as_read (c : FieldModel.column) : FieldModel.column :=
    match FieldModel.c_schema c with Some s => read_column (loc s) (FieldModel.c_name c) | None => column_named (FieldModel.c_name c) end.
  (** The columns of a plan: those of schemas, and those with names of their own *)
  Variables (is_stored : str -> str -> Prop) (is_new : str -> Prop).
  Hypothesis Hstored : forall s n, is_stored s n -> Name s /\ Name n /\ find (fun x => snd x =? loc s) ss = Some (s, loc s).
  Hypothesis Hnew : forall n, is_new n -> Name n.
  Hypothesis Hapart : forall s n m, is_stored s n -> is_new m -> n <> m.
  Hypothesis Hnone : find (fun x => snd x =? 0) ss = None.
  Inductive Proper : FieldModel.column -> Prop :=
  | Pr_stored s n : is_stored s n -> Proper (stored_column s n)
  | Pr_new n a : is_new n -> a = [] \/ a = n -> Proper (new_column n a).
  Lemma new_text n a : a = [] \/ a = n -> text_of_column (new_column n a) = n.
  Proof. intros [-> | ->]; [reflexivity|]. unfold text_of_column. cbn. destruct n; reflexivity. Qed.
  Lemma stored_text s n : text_of_column (stored_column s n) = s ++ $"." ++ n.
  Proof. reflexivity. Qed.
  Lemma stored_in s n : is_stored s n -> FieldFacts.in_schema ss (read_column (loc s) n) s.
  Proof. intros H. destruct (Hstored s n H) as (_ & _ & E). apply FieldFacts.find_some in E as (_ & a & b & E & F). exists a, b. split; [exact E|exact F]. Qed.
  Lemma named_iff c t : FieldFacts.named t (as_read c) <-> FieldModel.c_name c = t.
  Proof. unfold FieldFacts.named, as_read. destruct (FieldModel.c_schema c); cbn; intuition. Qed.
  Lemma stored_not_named s n c : is_stored s n -> Proper c -> ~ FieldFacts.named (text_of_column (stored_column s n)) (as_read c).
  Proof.
    intros H P E. apply named_iff in E. rewrite stored_text in E. assert (Nm : Name (FieldModel.c_name c)) by (destruct P as [s' m Hs | m a Hm _]; cbn; [apply (Hstored s' m Hs)|apply (Hnew m Hm)]).
    apply (name_no_dot _ Nm). rewrite E. apply in_or_app. right. left. reflexivity.
  Qed.
  Lemma new_named m a c : is_new m -> a = [] \/ a = m -> Proper c -> FieldFacts.named (text_of_column (new_column m a)) (as_read c) <-> text_of_column c = text_of_column (new_column m a).
  Proof.
    intros Hm Ha P. rewrite named_iff, (new_text m a Ha). destruct P as [s n Hs | n a' Hn Ha']; cbn [FieldModel.c_name stored_column new_column].
    - rewrite stored_text. split; intros E; exfalso; [apply (Hapart s n m Hs Hm), E|]. apply (name_no_dot m (Hnew m Hm)). rewrite <- E. apply in_or_app. right. left. reflexivity.
    - rewrite (new_text n a' Ha'). reflexivity.
  Qed.
  (** Columns are found by their texts. *)
  Lemma called_iff c c' : Proper c -> Proper c' -> FieldFacts.called ss (text_of_column c) (as_read c') <-> text_of_column c' = text_of_column c.
  Proof.
    intros P P'. unfold FieldFacts.called. destruct P as [s n Hs | n a Hn Ha].
    - destruct (Hstored s n Hs) as (N1 & N2 & _). split.
      + intros [H | (s' & I & E)]; [destruct (stored_not_named s n c' Hs P' H)|]. destruct P' as [s2 n2 Hs2 | n2 a2 Hn2 _]; unfold as_read in *; cbn [FieldModel.c_schema FieldModel.c_name stored_column new_column read_column column_named] in *.
        * rewrite (FieldFacts.in_schema_fun _ _ _ _ I (stored_in s2 n2 Hs2)) in E. rewrite stored_text, E. reflexivity.
        * exfalso. destruct I as (x & y & Ess & F). apply FieldFacts.find_first in Hnone. rewrite Ess in Hnone. apply Forall_app in Hnone as [_ Hz]. inversion Hz as [|? ? Hz1 _]; subst. apply Hz1. reflexivity.
      + intros E. right. destruct P' as [s2 n2 Hs2 | n2 a2 Hn2 Ha2].
        * exists s2. split; [exact (stored_in s2 n2 Hs2)|]. rewrite <- E. reflexivity.
        * exfalso. rewrite (new_text n2 a2 Ha2), stored_text in E. apply (name_no_dot n2 (Hnew n2 Hn2)). rewrite E. apply in_or_app. right. left. reflexivity.
    - rewrite <- (new_named n a c' Hn Ha P'). split; [|left; assumption]. intros [H | (s' & I & E)]; [exact H|]. exfalso. rewrite (new_text n a Ha) in E. apply (name_no_dot n (Hnew n Hn)). rewrite E. apply in_or_app. right. left. reflexivity.
  Qed.
  Lemma last_read (P : FieldModel.column -> Prop) l i : FieldFacts.last_with P (map as_read l) i -> exists c, nth_error l i = Some c /\ P (as_read c).
  Proof. intros (c & E & Pc & _). rewrite nth_error_map in E. destruct (nth_error l i) as [x|]; [|discriminate]. injection E as <-. exists x. auto. Qed.
  Lemma nth_in {A} (l : list A) i x : nth_error l i = Some x -> In x l.
  Proof. apply nth_error_In. Qed.
  (** A column of the input *)
  Lemma lookup_field agg C g i c : Forall Proper C -> Forall Proper g -> (Z.of_nat (length (C ++ g)) < 2 ^ 31)%Z -> nth_error C i = Some c ->
    (FieldModel.c_schema c = None -> forall c', In c' g -> text_of_column c' <> text_of_column c) ->
    exists z c', WholeModel.find_field ss agg (map as_read C) (map as_read g) (text_of_column c) = Some (0%N, z) /\ (0 <= z)%Z /\ nth_error C (Z.to_nat z) = Some c' /\ text_of_column c' = text_of_column c.
  Proof.
    intros HC Hg Hl Hi Hn. unfold WholeModel.find_field. pose proof (FieldFacts.find_in_resolves ss false (scope_with agg (map as_read C) (map as_read g)) (text_of_column c)) as X. cbn [FieldModel.q_aggregate FieldModel.q_fields FieldModel.q_generated scope_with] in X.
    rewrite andb_false_r in X. unfold FieldFacts.fits in X. rewrite <- map_app, map_length in X. specialize (X eq_refl Hl). rewrite Forall_forall in HC, Hg. assert (Pc : Proper c) by (apply HC; eapply nth_in, Hi).
    destruct X as [(k & L & _) | [(_ & k & L & ->) | (_ & N0 & _)]].
    - exfalso. destruct (last_read _ _ _ L) as (c' & E & H). apply nth_in in E. pose proof (Hg _ E) as P'. destruct Pc as [s n Hs | n a Hm Ha]; [exact (stored_not_named s n c' Hs P' H)|].
      apply (new_named n a c' Hm Ha P') in H. exact (Hn eq_refl c' E H).
    - destruct (last_read _ _ _ L) as (c' & E & H). exists (Z.of_nat k), c'. rewrite Nat2Z.id. cbn [option_map]. split; [reflexivity|]. split; [lia|]. split; [exact E|]. apply called_iff; [exact Pc|apply HC; eapply nth_in, E|exact H].
    - exfalso. unfold FieldFacts.none_with in N0. rewrite Forall_forall in N0. apply (N0 (as_read c)); [apply in_map; eapply nth_in, Hi|]. apply called_iff; auto.
  Qed.
  (** A column that is emitted *)
  Lemma lookup_emit C g i c : Forall Proper C -> Forall Proper g -> (Z.of_nat (length (C ++ g)) < 2 ^ 31)%Z -> nth_error (C ++ g) i = Some c ->
    (FieldModel.c_schema c <> None -> In c C) ->
    exists z c', WholeModel.find_emit ss false (map as_read C) (map as_read g) (text_of_column c) = (0%N, z, false) /\ (0 <= z)%Z /\ nth_error (C ++ g) (Z.to_nat z) = Some c' /\ text_of_column c' = text_of_column c.
  Proof.
    intros HC Hg Hl Hi Hin. unfold WholeModel.find_emit. pose proof (FieldFacts.find_in_resolves ss true (scope_with false (map as_read C) (map as_read g)) (text_of_column c)) as X. cbn [FieldModel.q_aggregate FieldModel.q_fields FieldModel.q_generated scope_with andb] in X.
    unfold FieldFacts.fits in X. rewrite <- map_app, !map_length in X. specialize (X eq_refl Hl). rewrite Forall_forall in HC, Hg. assert (Pc : Proper c) by (apply nth_in, in_app_or in Hi as [Hi | Hi]; auto).
    destruct X as [(k & L & ->) | [(_ & k & L & ->) | (N1 & N0 & _)]].
    - destruct (last_read _ _ _ L) as (c' & E & H). exists (Z.of_nat (length C + k)), c'. split; [rewrite map_length; reflexivity|]. split; [lia|]. rewrite Nat2Z.id, nth_error_app2 by lia. replace (length C + k - length C) with k by lia. split; [exact E|].
      apply nth_in in E. pose proof (Hg _ E) as P'. destruct Pc as [s n Hs | n a Hm Ha]; [destruct (stored_not_named s n c' Hs P' H)|]. apply (new_named n a c' Hm Ha P') in H. exact H.
    - destruct (last_read _ _ _ L) as (c' & E & H). exists (Z.of_nat k), c'. split; [reflexivity|]. split; [lia|]. rewrite Nat2Z.id, nth_error_app1 by (apply nth_error_Some; congruence). split; [exact E|]. apply called_iff; [exact Pc|apply HC; eapply nth_in, E|exact H].
    - exfalso. unfold FieldFacts.none_with in N0, N1. rewrite Forall_forall in N0, N1. assert (D : In c C \/ In c g /\ FieldModel.c_schema c = None).
      { destruct (FieldModel.c_schema c) eqn:Ec; [left; apply Hin; discriminate|]. apply nth_in, in_app_or in Hi as [Hi | Hi]; auto. }
      destruct D as [D | (D & Ec)]; [apply (N0 (as_read c)); [apply in_map, D|]; apply called_iff; auto|]. destruct Pc as [s n Hs | n a Hm Ha]; [discriminate|].
      apply (N1 (as_read (new_column n a))); [apply in_map, D|]. apply new_named; auto.
  Qed.
  (** A measure that an aggregate relation emits *)
  Lemma lookup_measure C g i c : Forall Proper C -> Forall Proper g -> (Z.of_nat (length (C ++ g)) < 2 ^ 31)%Z -> nth_error g i = Some c -> FieldModel.c_schema c = None ->
    exists z c', WholeModel.find_emit ss true (map as_read C) (map as_read g) (text_of_column c) = (0%N, z, false) /\ (0 <= z)%Z /\ nth_error g (Z.to_nat z) = Some c' /\ text_of_column c' = text_of_column c.
  Proof.
    intros HC Hg Hl Hi Hs. unfold WholeModel.find_emit. pose proof (FieldFacts.find_in_aggregate ss (scope_with true (map as_read C) (map as_read g)) (text_of_column c)) as X. cbn [FieldModel.q_aggregate FieldModel.q_fields FieldModel.q_generated scope_with andb] in X.
    unfold FieldFacts.fits in X. rewrite <- map_app, !map_length in X. specialize (X eq_refl Hl). rewrite Forall_forall in HC, Hg. assert (Pc : Proper c) by (apply Hg; eapply nth_in, Hi).
    destruct Pc as [s n Hst | n a Hm Ha]; [discriminate|]. destruct X as (X & _). set (t := text_of_column (new_column n a)) in *.
    destruct (FieldModel.rfind (FieldModel.match_generated t) (map as_read g)) as [p|] eqn:Ef.
    2:{ exfalso. apply (FieldFacts.rfind_none _ _ _ (FieldFacts.match_generated_iff t)) in Ef. unfold FieldFacts.none_with in Ef. rewrite Forall_forall in Ef. apply (Ef (as_read (new_column n a))); [apply in_map; eapply nth_in, Hi|]. apply new_named; auto. constructor; assumption. }
    apply (FieldFacts.rfind_some _ _ _ (FieldFacts.match_generated_iff t)) in Ef as (_ & L). rewrite (X _ L). destruct (last_read _ _ _ L) as (c' & E & H). eexists _, c'. split; [reflexivity|]. split; [lia|]. rewrite Nat2Z.id. split; [exact E|].
    apply (new_named n a c' Hm Ha) in H; [exact H|]. apply Hg. eapply nth_in, E.
  Qed.
End Lookup.

(** * Recorded relations *)
Definition Handed (t : names) (H : list (str * str)) : Prop := SymbolMoreFacts.NInv t H /\ SymbolMoreFacts.Numbered H.
Lemma handed_step t H b t' n : Handed t H -> unique t b = (t', n) -> Handed t' (H ++ [(b, n)]).
Proof. intros (I & N0) E. destruct (SymbolMoreFacts.unique_step _ _ _ _ _ I E) as (-> & I'). split; [exact I'|]. constructor. exact N0. Qed.
Lemma handed_uniques b n : forall t H t' l, Handed t H -> uniques t b n = (t', l) -> Handed t' (H ++ map (pair b) l) /\ length l = n.
Proof.
  induction n as [|n IH]; intros t H t' l Hd E; cbn [uniques] in E.
  - injection E as <- <-. rewrite app_nil_r. auto.
  - destruct (unique t b) as [t1 u] eqn:E1. destruct (uniques t1 b n) as [t2 r] eqn:E2. injection E as <- <-. pose proof (handed_step _ _ _ _ _ Hd E1) as H1. destruct (IH _ _ _ _ H1 E2) as (H2 & L). rewrite <- app_assoc in H2. cbn. auto.
Qed.
(** The columns that are new in a relation *)
Fixpoint fresh (es : list expr) (g : list FieldModel.column) : list FieldModel.column :=
  match es, g with e :: es, c :: g => if is_column e then fresh es g else c :: fresh es g | _, _ => [] end.
Definition made_cols (x : recorded) : list FieldModel.column :=
  match r_body (rn_relation x) with
  | BRead _ _ _ _ _ => match rn_schema x with Some (n, s) => map (stored_column n) (ns_names s) | None => [] end
  | BAggregate _ _ => map (fun n => new_column n []) (rn_measures x)
  | BProject es => fresh es (FieldModel.d_generated (rn_data x))
  | _ => []
  end.
(** The names handed out for a relation *)
Definition asked_node (x : recorded) : list (str * str) :=
  map (pair $"schema") (listed_name (rn_schema x)) ++ match rn_source x with Some (n, s) => [(source_base s, n)] | None => [] end ++
  match r_body (rn_relation x) with
  | BAggregate _ _ => map (pair $"measurename") (rn_measures x)
  | BProject _ => map (pair $"intermediate") (map FieldModel.c_name (made_cols x))
  | _ => []
  end ++ [(kind_name (r_body (rn_relation x)), rn_name x)].
Definition added_cols (x : recorded) : list FieldModel.column := if is_read (r_body (rn_relation x)) then FieldModel.d_fields (rn_data x) else FieldModel.d_generated (rn_data x).
(** The new columns have names of their own relation. *)
Definition Own (x : recorded) (c : FieldModel.column) : Prop :=
  (exists s st n, rn_schema x = Some (s, st) /\ In n (ns_names st) /\ c = stored_column s n) \/
  (exists b n a, (b = $"measurename" \/ b = $"intermediate") /\ In (b, n) (asked_node x) /\ (a = [] \/ a = n) /\ c = new_column n a).
Definition num (i : cid) : nat := match i with Stored n | Computed n => n end.
Definition Rep (L : list FieldModel.column) (i : cid) (c : FieldModel.column) : Prop :=
  nth_error L (num i) = Some c /\ match i with Stored _ => FieldModel.c_schema c <> None | Computed _ => FieldModel.c_schema c = None end.
Lemma rep_extend L L' i c : Rep L i c -> Rep (L ++ L') i c.
Proof. intros (E & K). split; [|exact K]. rewrite nth_error_app1; [exact E|]. apply nth_error_Some. congruence. Qed.
Lemma reps_extend L L' l cs : Forall2 (Rep L) l cs -> Forall2 (Rep (L ++ L')) l cs.
Proof. induction 1; constructor; [apply rep_extend|]; assumption. Qed.
Lemma forall2_nth {A B} (P : A -> B -> Prop) l l' : Forall2 P l l' -> forall k a, nth_error l k = Some a -> exists b, nth_error l' k = Some b /\ P a b.
Proof. induction 1 as [|x y l l' Hxy _ IH]; intros [|k] a E; try discriminate; cbn in E; [injection E as <-; exists y; auto|apply IH, E]. Qed.
Lemma forall2_len {A B} (P : A -> B -> Prop) l l' : Forall2 P l l' -> length l' = length l.
Proof. induction 1; cbn; congruence. Qed.
Lemma rep_pick L l cs z i : Forall2 (Rep L) l cs -> pick l z = Some i -> (Z.of_nat (length l) < 2 ^ 31)%Z ->
  exists c, (0 <= z < Z.of_nat (length cs))%Z /\ nth_error cs (Z.to_nat z) = Some c /\ Rep L i c /\ FieldModel.at_index cs z = Some c /\ (z mod 2 ^ 64 <? FieldModel.size cs)%Z = true /\ (z mod 2 ^ 32 = z)%Z.
Proof.
  intros H E Hl. unfold pick in E. destruct (Z.ltb_spec z 0) as [|Hz]; [discriminate|]. destruct (forall2_nth _ _ _ H _ _ E) as (c & Ec & R). pose proof (forall2_len _ _ _ H) as Ln.
  assert (B : Z.to_nat z < length cs) by (apply nth_error_Some; congruence). assert (M64 : (z mod 2 ^ 64 = z)%Z) by (apply Z.mod_small; lia). assert (M32 : (z mod 2 ^ 32 = z)%Z) by (apply Z.mod_small; lia).
  exists c. unfold FieldModel.at_index, FieldModel.size. rewrite M64. split; [lia|]. split; [exact Ec|]. split; [exact R|]. split; [exact Ec|]. split; [lia|exact M32].
Qed.
Lemma rep_unique L i i' c c' : NoDup (map text_of_column L) -> Rep L i c -> Rep L i' c' -> text_of_column c' = text_of_column c -> i' = i.
Proof.
  intros N0 (E & K) (E' & K') T. assert (X : num i' = num i).
  { apply (proj1 (NoDup_nth_error _) N0); [rewrite map_length; apply nth_error_Some; congruence|]. rewrite !nth_error_map, E, E'. cbn. congruence. }
  rewrite X, E in E'. injection E' as <-. destruct i, i'; cbn in *; congruence.
Qed.
Lemma reps_app L l l' cs cs' : Forall2 (Rep L) l cs -> Forall2 (Rep L) l' cs' -> Forall2 (Rep L) (l ++ l') (cs ++ cs').
Proof. apply Forall2_app. Qed.
Lemma map_columns_reps L l cs : Forall2 (Rep L) l cs -> (Z.of_nat (length l) < 2 ^ 31)%Z -> forall emit out, Forall (fun z => pick l z <> None) emit ->
  exists cs', FieldModel.map_columns cs emit out = (out ++ cs', []) /\ Forall2 (Rep L) (flat_map (fun z => some_list (pick l z)) emit) cs' /\ length cs' = length emit.
Proof.
  intros H Hl. induction emit as [|z emit IH]; intros out He; [exists []; rewrite app_nil_r; split; [reflexivity|]; split; [constructor|reflexivity]|]. inversion He as [|? ? Hz He']; subst.
  destruct (pick l z) as [i|] eqn:Ez; [|congruence]. destruct (rep_pick _ _ _ _ _ H Ez Hl) as (c & _ & _ & R & A & B & _). cbn [FieldModel.map_columns flat_map]. rewrite B, A, Ez. destruct (IH (out ++ [c]) He') as (cs' & E1 & E2 & E3).
  exists (c :: cs'). rewrite E1, <- app_assoc. split; [reflexivity|]. split; [constructor; assumption|cbn; congruence].
Qed.
(** Emits *)
Lemma emit_plain L F C g G emit : Forall2 (Rep L) F C -> Forall2 (Rep L) G g -> (Z.of_nat (length (F ++ G)) < 2 ^ 31)%Z -> Forall (in_range (F ++ G)) emit ->
  let d := FieldModel.convert_emit false C g [] (Some emit) in
  FieldModel.d_missing d = [] /\ FieldModel.d_fields d = C /\ FieldModel.d_generated d = g /\ Forall2 (Rep L) (chosen (F ++ G) emit) (FieldModel.exposed d).
Proof.
  intros HF HG Hl He. unfold FieldModel.convert_emit. destruct emit as [|z emit]; [cbn; auto using reps_app|].
  destruct (map_columns_reps L (F ++ G) (C ++ g) (reps_app _ _ _ _ _ HF HG) Hl (z :: emit) [] He) as (cs' & E1 & E2 & E3). rewrite E1. cbn [app FieldModel.d_missing FieldModel.d_fields FieldModel.d_generated].
  unfold FieldModel.exposed. cbn [FieldModel.d_output]. destruct cs'; [discriminate|]. auto.
Qed.
Lemma emit_aggregate L C g G emit : Forall2 (Rep L) G g -> G <> [] -> (Z.of_nat (length G) < 2 ^ 31)%Z -> Forall (in_range G) emit ->
  let d := FieldModel.convert_emit true C g g (Some emit) in
  FieldModel.d_missing d = [] /\ FieldModel.d_fields d = C /\ FieldModel.d_generated d = g /\ Forall2 (Rep L) (chosen G emit) (FieldModel.exposed d).
Proof.
  intros HG Ne Hl He. unfold FieldModel.convert_emit. destruct emit as [|z emit].
  - cbn. unfold FieldModel.exposed. cbn. destruct g; [inversion HG; congruence|]. auto.
  - destruct (map_columns_reps L G g HG Hl (z :: emit) [] He) as (cs' & E1 & E2 & E3). rewrite E1. cbn [app FieldModel.d_missing FieldModel.d_fields FieldModel.d_generated].
    unfold FieldModel.exposed. cbn [FieldModel.d_output]. destruct cs'; [discriminate|]. auto.
Qed.
(** Groupings *)
Lemma groupings_reps L F C zs : Forall2 (Rep L) F C -> (Z.of_nat (length F) < 2 ^ 31)%Z -> Forall (in_range F) zs ->
  exists cs, FieldModel.convert_groupings C (map grouping_expr (map (fun z => ESel (SegField z None) RootRef) zs)) = (cs, []) /\ Forall2 (Rep L) (grouped_by F (map (fun z => ESel (SegField z None) RootRef) zs)) cs /\
    Forall2 (fun z c => nth_error C (Z.to_nat z) = Some c) zs cs.
Proof.
  intros H Hl. induction 1 as [|z zs Hz _ (cs & E & R & S1)]; [exists []; repeat split; constructor|]. unfold in_range in Hz. destruct (pick F z) as [i|] eqn:Ez; [|congruence]. destruct (rep_pick _ _ _ _ _ H Ez Hl) as (c & _ & D & Rc & A & B & _).
  exists (c :: cs). cbn [map grouping_expr FieldModel.convert_groupings]. rewrite E, B, A. split; [reflexivity|]. cbn [grouped_by flat_map]. rewrite Ez. split; constructor; assumption.
Qed.
(** Expressions of project relations *)
Definition made_for (e : expr) (g : FieldModel.gexpr) : Prop := match e with ESel (SegField z _) _ => g = FieldModel.GColumn z | _ => exists n, g = FieldModel.GOther (new_column n n) end.
Definition others (gx : list FieldModel.gexpr) : list FieldModel.column := flat_map (fun g => match g with FieldModel.GOther c => [c] | _ => [] end) gx.
Lemma exprs_recorded es : forall t H t' gx, Handed t H -> project_exprs t es = (t', gx) -> Handed t' (H ++ map (pair $"intermediate") (map FieldModel.c_name (others gx))) /\ Forall2 made_for es gx.
Proof.
  induction es as [|e es IH]; intros t H t' gx Hd E.
  - cbn in E. injection E as <- <-. cbn. rewrite app_nil_r. split; [exact Hd|constructor].
  - assert (X : (exists z c r, e = ESel (SegField z c) r) \/ (is_column e = false /\ project_exprs t (e :: es) = let '(t, n) := unique t $"intermediate" in let '(t, r) := project_exprs t es in (t, FieldModel.GOther (new_column n n) :: r))).
    { destruct e as [|?|[] ?| | | | | | | | | | ]; try (right; split; reflexivity). left. eauto. }
    destruct X as [(z & c & r & ->) | (X & Y)].
    + cbn [project_exprs] in E. destruct (project_exprs t es) as [t1 gx1] eqn:E1. injection E as <- <-. destruct (IH _ _ _ _ Hd E1) as (A & B). cbn [others flat_map app]. split; [exact A|]. constructor; [reflexivity|exact B].
    + rewrite Y in E. destruct (unique t $"intermediate") as [t1 n] eqn:E1. destruct (project_exprs t1 es) as [t2 gx1] eqn:E2. injection E as <- <-. pose proof (handed_step _ _ _ _ _ Hd E1) as H1. destruct (IH _ _ _ _ H1 E2) as (A & B).
      cbn [others flat_map app map FieldModel.c_name new_column]. rewrite <- app_assoc in A. split; [exact A|]. constructor; [|exact B]. unfold made_for. destruct e as [|?|[] ?| | | | | | | | | | ]; try (eexists; reflexivity). discriminate X.
Qed.
Lemma nth_snoc {A} (l l' : list A) x : nth_error (l ++ x :: l') (length l) = Some x.
Proof. rewrite nth_error_app2, Nat.sub_diag by lia. reflexivity. Qed.
Lemma exprs_reps known F C es gx : (Z.of_nat (length F) < 2 ^ 31)%Z -> Forall2 made_for es gx -> Forall (plain known (in_range F)) es -> forall L, Forall2 (Rep L) F C ->
  exists cs, FieldModel.convert_exprs C gx = (cs, []) /\ Forall2 (Rep (L ++ others gx)) (projected (length L) F es) cs /\ fresh es cs = others gx /\ length (others gx) = length (filter (fun e => negb (is_column e)) es) /\ length cs = length es /\
    Forall2 (fun e c => match e with ESel (SegField z _) _ => (0 <= z)%Z /\ nth_error C (Z.to_nat z) = Some c | _ => exists n, c = new_column n n end) es cs.
Proof.
  intros Hl. induction 1 as [|e g es gx He _ IH]; intros HP L HF; [exists []; repeat split; constructor|]. inversion HP as [|? ? Pe HP']; subst.
  destruct (is_column e) eqn:Ce.
  - destruct e as [|?|[z c| | |] r| | | | | | | | | | ]; try discriminate Ce. cbn [made_for] in He. subst g. assert (Hz : in_range F z) by (cbn in Pe; destruct c; [contradiction|]; destruct r; try contradiction; exact Pe).
    unfold in_range in Hz. destruct (pick F z) as [i|] eqn:Ez; [|congruence]. destruct (rep_pick _ _ _ _ _ HF Ez Hl) as (col & Rz & D & Rc & A & B & _). destruct (IH HP' L HF) as (cs & E1 & E2 & E3 & E4 & E5 & E6).
    exists (col :: cs). cbn [FieldModel.convert_exprs projected fresh is_column others flat_map app filter negb length]. rewrite E1, B, A, Ez. split; [reflexivity|]. cbn [some_list app]. split; [constructor; [apply rep_extend, Rc|exact E2]|].
    split; [exact E3|]. split; [exact E4|]. split; [congruence|]. constructor; [split; [lia|exact D]|exact E6].
  - assert (X : exists n, g = FieldModel.GOther (new_column n n)) by (destruct e as [|?|[] ?| | | | | | | | | | ]; try exact He; discriminate Ce). destruct X as (n & ->).
    destruct (IH HP' (L ++ [new_column n n]) (reps_extend _ _ _ _ HF)) as (cs & E1 & E2 & E3 & E4 & E5 & E6). rewrite <- app_assoc in E2. cbn [app] in E2. rewrite app_length, Nat.add_1_r in E2.
    exists (new_column n n :: cs). cbn [FieldModel.convert_exprs fresh others flat_map app filter length]. rewrite Ce, E1. cbn [negb length]. split; [reflexivity|].
    assert (Y : projected (length L) F (e :: es) = Computed (length L) :: projected (S (length L)) F es) by (destruct e as [|?|[] ?| | | | | | | | | | ]; try reflexivity; discriminate Ce). rewrite Y.
    split; [constructor; [split; [apply nth_snoc|reflexivity]|exact E2]|]. split; [fold (others gx); congruence|]. split; [fold (others gx); congruence|]. split; [congruence|]. constructor; [|exact E6].
    destruct e as [|?|[] ?| | | | | | | | | | ]; try (eexists; reflexivity); discriminate Ce.
Qed.
Record RecordedAs (known : N -> Prop) (n : nat) (F : list cid) (C L0 : list FieldModel.column) (r : relation) (src : option source) (sch : option named_struct) (x : recorded) : Prop := {
  rc_relation : rn_relation x = Relation (with_names (r_body r) (listed_name (rn_source x)) (listed_name (rn_schema x))) (r_emit r);
  rc_source : option_map snd (rn_source x) = src;
  rc_schema : option_map snd (rn_schema x) = sch;
  rc_missing : FieldModel.d_missing (rn_data x) = [];
  rc_made : length (made_cols x) = created (r_body r) sch;
  rc_added : Forall2 (Rep (L0 ++ made_cols x)) (added n F (r_body r) sch) (added_cols x);
  rc_fields : is_read (r_body r) = false -> FieldModel.d_fields (rn_data x) = C;
  rc_exposed : Forall2 (Rep (L0 ++ made_cols x)) (chosen (available F (added n F (r_body r) sch) (r_body r)) (r_emit r)) (FieldModel.exposed (rn_data x));
  rc_own : Forall (Own x) (made_cols x);
  rc_body : match r_body r with
            | BRead _ _ _ _ _ => FieldModel.exposed (rn_data x) = made_cols x
            | BAggregate gs ms => length (rn_measures x) = length ms /\ exists zs cs, gs = [map (fun z => ESel (SegField z None) RootRef) zs] /\ Forall2 (fun z c => nth_error C (Z.to_nat z) = Some c) zs cs /\
                FieldModel.d_generated (rn_data x) = cs ++ map (fun n => new_column n []) (rn_measures x)
            | BProject es => exists gx, Forall2 made_for es gx /\ rn_alternatives x = alternatives C gx [] [] /\
                Forall2 (fun e c => match e with ESel (SegField z _) _ => (0 <= z)%Z /\ nth_error C (Z.to_nat z) = Some c | _ => exists n, c = new_column n n end) es (FieldModel.d_generated (rn_data x))
            | _ => FieldModel.d_generated (rn_data x) = []
            end }.
Lemma seq_reps (L0 L : list FieldModel.column) (K : nat -> cid) : (forall i, num (K i) = i) -> (forall c i, In c L -> match K i with Stored _ => FieldModel.c_schema c <> None | Computed _ => FieldModel.c_schema c = None end) ->
  Forall2 (Rep (L0 ++ L)) (map K (seq (length L0) (length L))) L.
Proof.
  intros HK. revert L0. induction L as [|c L IH]; intros L0 H; [constructor|]. cbn [length seq map]. constructor.
  - split; [rewrite HK; apply nth_snoc|apply H; left; reflexivity].
  - specialize (IH (L0 ++ [c])). rewrite <- app_assoc, app_length, Nat.add_1_r in IH. apply IH. intros d i I. apply H. right. exact I.
Qed.
Lemma node_recorded known k n F C L0 H t r src sch t' x :
  relation_ok known k F (added n F (r_body r) sch) r src sch -> length L0 = n -> Forall2 (Rep L0) F C -> (k = 0 -> F = []) -> Handed t H -> record_node t r src sch C = (t', x) ->
  Handed t' (H ++ asked_node x) /\ RecordedAs known n F C L0 r src sch x.
Proof.
  intros (Hl & K) Hn HF Hk Hd E. subst n. destruct r as [b emit]. cbn [r_body r_emit] in *. unfold record_node in E. cbn [r_body r_emit] in E.
  assert (HlF : (Z.of_nat (length F) < 2 ^ 31)%Z) by (rewrite app_length in Hl; lia).
  destruct b as [s sc f g p|c|o c|gs ms|l|l|ty e post| |nm].
  - destruct K as (-> & -> & -> & -> & -> & -> & Hf & (so & -> & Hs) & Hsc). rewrite (Hk eq_refl) in *. inversion HF; subst C. cbn [is_read] in E.
    assert (X : exists t1 schema, match sch with Some s => let '(t, n) := unique t $"schema" in (t, Some (n, s)) | None => (t, None) end = (t1, schema) /\ Handed t1 (H ++ map (pair $"schema") (listed_name schema)) /\ option_map snd schema = sch).
    { destruct sch as [sch|]; [|exists t, None; cbn; rewrite app_nil_r; auto]. destruct (unique t $"schema") as [t1 u] eqn:E1. exists t1, (Some (u, sch)). split; [reflexivity|]. split; [exact (handed_step _ _ _ _ _ Hd E1)|reflexivity]. }
    destruct X as (t1 & schema & E1 & Hd1 & Esch). replace (match sch with Some s => let '(t, n) := unique t $"schema" in (t, Some (n, s)) | None => (t, None) end) with (t1, schema) in E. cbv beta iota in E.
    destruct (unique t1 (source_base so)) as [t2 u] eqn:E2. cbv beta iota zeta in E. cbn [kind_name listed_name] in E. destruct (unique t2 $"read") as [t3 m] eqn:E3. injection E as <- <-.
    pose proof (handed_step _ _ _ _ _ (handed_step _ _ _ _ _ Hd1 E2) E3) as Hd3. set (cols := match schema with Some (n, s) => map (stored_column n) (ns_names s) | None => [] end).
    split; [unfold asked_node; cbn [rn_relation rn_schema rn_source rn_name r_body kind_name app]; rewrite <- !app_assoc in Hd3; exact Hd3|].
    assert (Mc : Forall2 (Rep (L0 ++ cols)) (match sch with Some s => map Stored (seq (length L0) (length (ns_names s))) | None => [] end) cols).
    { unfold cols. destruct schema as [[sn st]|]; cbn in Esch; subst sch; [|constructor]. rewrite <- (map_length (stored_column sn) (ns_names st)). apply seq_reps; [reflexivity|]. intros c i I. apply in_map_iff in I as (y & <- & _). discriminate. }
    assert (Lc : length cols = match sch with Some s => length (ns_names s) | None => 0 end) by (unfold cols; destruct schema as [[sn st]|]; cbn in Esch; subst sch; [apply map_length|reflexivity]).
    assert (Oc : Forall (Own (Recorded m (Relation (BRead [u] (listed_name schema) f None false) []) (Some (u, so)) schema (FieldModel.convert_emit false cols [] [] (Some [])) [] [])) cols).
    { apply Forall_forall. intros c I. left. unfold cols in I. destruct schema as [[sn st]|]; [|contradiction]. apply in_map_iff in I as (y & <- & Iy). exists sn, st, y. auto. }
    constructor; cbn [rn_relation rn_source rn_schema rn_data rn_measures rn_alternatives r_body r_emit with_names option_map listed_name is_read]; try reflexivity; try assumption; try discriminate; unfold made_cols, added_cols; cbn [rn_relation r_body rn_schema rn_data is_read]; fold cols.
    + replace (FieldModel.exposed (FieldModel.convert_emit false cols [] [] (Some []))) with cols by (symmetry; apply app_nil_r). exact Mc.
    + apply app_nil_r.
  - destruct K as (-> & -> & -> & -> & Hc). cbv beta iota zeta in E. destruct (unique t (kind_name (BFilter c))) as [t3 m] eqn:E3. injection E as <- <-. pose proof (handed_step _ _ _ _ _ Hd E3) as Hd3. split; [exact Hd3|].
    destruct (emit_plain L0 F C [] [] [] HF (Forall2_nil _)) as (A1 & A2 & A3 & A4); [exact Hl|constructor|]. constructor; cbn [rn_relation rn_source rn_schema rn_data rn_measures rn_alternatives r_body r_emit with_names]; unfold made_cols; cbn [rn_relation r_body]; rewrite ?app_nil_r; auto; constructor.
  - destruct K as (-> & -> & -> & -> & _ & Hc). cbv beta iota zeta in E. destruct (unique t (kind_name (BFetch o c))) as [t3 m] eqn:E3. injection E as <- <-. pose proof (handed_step _ _ _ _ _ Hd E3) as Hd3. split; [exact Hd3|].
    destruct (emit_plain L0 F C [] [] [] HF (Forall2_nil _)) as (A1 & A2 & A3 & A4); [exact Hl|constructor|]. constructor; cbn [rn_relation rn_source rn_schema rn_data rn_measures rn_alternatives r_body r_emit with_names]; unfold made_cols; cbn [rn_relation r_body]; rewrite ?app_nil_r; auto; constructor.
  - destruct K as (-> & -> & -> & Ne & (zs & -> & Hz) & _ & Hm & He). cbv beta iota zeta in E. destruct (uniques t $"measurename" (length ms)) as [t1 ns] eqn:E1. destruct (handed_uniques _ _ _ _ _ _ Hd E1) as (Hd1 & L1). cbn [concat] in *. rewrite app_nil_r in *.
    destruct (groupings_reps L0 F C zs HF HlF Hz) as (cs & E2 & R2 & S2). rewrite E2 in E. destruct (unique t1 (kind_name (BAggregate [map (fun z => ESel (SegField z None) RootRef) zs] ms))) as [t3 m] eqn:E3. injection E as <- <-. pose proof (handed_step _ _ _ _ _ Hd1 E3) as Hd3.
    split; [unfold asked_node; cbn [rn_relation rn_schema rn_source rn_name rn_measures r_body kind_name app listed_name map]; rewrite <- !app_assoc in Hd3; exact Hd3|].
    set (nc := map (fun n => new_column n []) ns). assert (Ra : Forall2 (Rep (L0 ++ nc)) (added (length L0) F (BAggregate [map (fun z => ESel (SegField z None) RootRef) zs] ms) None) (cs ++ nc)).
    { cbn [added concat]. rewrite app_nil_r. apply reps_app; [apply reps_extend, R2|]. rewrite <- L1, <- (map_length (fun n => new_column n []) ns). fold nc. apply seq_reps; [reflexivity|]. intros c i I. apply in_map_iff in I as (y & <- & _). reflexivity. }
    assert (HG : (Z.of_nat (length (added (length L0) F (BAggregate [map (fun z => ESel (SegField z None) RootRef) zs] ms) None)) < 2 ^ 31)%Z) by (rewrite app_length in Hl; lia).
    destruct (emit_aggregate (L0 ++ nc) C (cs ++ nc) _ emit Ra Ne HG) as (A1 & A2 & A3 & A4).
    { eapply Forall_impl; [|exact He]. intros z (q & Eq). unfold in_range. congruence. }
    constructor; cbn [rn_relation rn_source rn_schema rn_data rn_measures rn_alternatives r_body r_emit with_names]; unfold made_cols, added_cols; cbn [rn_relation r_body rn_measures rn_data is_read FieldModel.also FieldModel.d_missing FieldModel.d_generated FieldModel.d_fields app]; fold nc; auto.
    + unfold nc. rewrite map_length. exact L1.
    + rewrite A3. exact Ra.
    + apply Forall_forall. intros c I. right. apply in_map_iff in I as (y & <- & Iy). exists $"measurename", y, []. split; [auto|]. split; [|auto]. unfold asked_node. cbn [rn_relation r_body rn_measures rn_schema rn_source listed_name map app]. apply in_or_app. left. apply in_map, Iy.
    + split; [exact L1|]. exists zs, cs. split; [reflexivity|]. split; [exact S2|exact A3].
  - destruct K as (-> & -> & -> & -> & Hc). cbv beta iota zeta in E. destruct (unique t (kind_name (BSort l))) as [t3 m] eqn:E3. injection E as <- <-. pose proof (handed_step _ _ _ _ _ Hd E3) as Hd3. split; [exact Hd3|].
    destruct (emit_plain L0 F C [] [] [] HF (Forall2_nil _)) as (A1 & A2 & A3 & A4); [exact Hl|constructor|]. constructor; cbn [rn_relation rn_source rn_schema rn_data rn_measures rn_alternatives r_body r_emit with_names]; unfold made_cols; cbn [rn_relation r_body]; rewrite ?app_nil_r; auto; constructor.
  - destruct K as (-> & -> & -> & Hx & He). cbv beta iota zeta in E. destruct (project_exprs t l) as [t1 gx] eqn:E1. destruct (exprs_recorded _ _ _ _ _ Hd E1) as (Hd1 & M1).
    destruct (exprs_reps known F C l gx HlF M1 Hx L0 HF) as (cs & E2 & R2 & Fr & Ln & Lc & S2). rewrite E2 in E. cbn [kind_name] in E. destruct (unique t1 $"project") as [t3 m] eqn:E3. injection E as <- <-. pose proof (handed_step _ _ _ _ _ Hd1 E3) as Hd3.
    destruct (emit_plain (L0 ++ others gx) F C cs _ emit (reps_extend _ _ _ _ HF) R2 Hl He) as (A1 & A2 & A3 & A4).
    assert (Mc : made_cols (Recorded m (Relation (BProject l) emit) None None (FieldModel.also [] (FieldModel.convert_emit false C cs [] (Some emit))) [] (alternatives C gx [] [])) = others gx).
    { unfold made_cols. cbn [rn_relation r_body rn_data FieldModel.also FieldModel.d_generated]. rewrite A3. exact Fr. }
    split; [unfold asked_node; rewrite Mc; cbn [rn_relation rn_schema rn_source rn_name r_body kind_name app listed_name map]; rewrite <- !app_assoc in Hd3; exact Hd3|].
    constructor; rewrite ?Mc; cbn [rn_relation rn_source rn_schema rn_data rn_measures rn_alternatives r_body r_emit with_names]; unfold added_cols; cbn [rn_relation r_body rn_measures rn_data is_read FieldModel.also FieldModel.d_missing FieldModel.d_generated FieldModel.d_fields app]; auto.
    + rewrite A3. exact R2.
    + apply Forall_forall. intros c I. right. assert (Y : exists q, c = new_column q q).
      { unfold others in I. apply in_flat_map in I as (gg & Ig & Ic). clear -M1 Ig Ic. induction M1 as [|e1 g1 es gs M _ IH]; [contradiction|]. destruct Ig as [-> | Ig]; [|exact (IH Ig)]. destruct gg as [|c1]; [contradiction|]. destruct Ic as [<- | []].
        destruct e1 as [|?|[] ?| | | | | | | | | | ]; cbn in M; try discriminate; destruct M as (q & [= ->]); exists q; reflexivity. }
      destruct Y as (q & ->). exists $"intermediate", q, q. split; [auto|]. split; [|auto]. unfold asked_node. rewrite Mc. cbn [rn_relation r_body rn_schema rn_source listed_name map app]. apply in_or_app. left. apply in_map. apply (in_map FieldModel.c_name) in I. exact I.
    + exists gx. split; [exact M1|]. split; [reflexivity|]. rewrite A3. exact S2.
  - destruct K as (-> & -> & -> & -> & Hc). cbv beta iota zeta in E. destruct (unique t (kind_name (BJoin ty e post))) as [t3 m] eqn:E3. injection E as <- <-. pose proof (handed_step _ _ _ _ _ Hd E3) as Hd3. split; [exact Hd3|].
    destruct (emit_plain L0 F C [] [] [] HF (Forall2_nil _)) as (A1 & A2 & A3 & A4); [exact Hl|constructor|]. constructor; cbn [rn_relation rn_source rn_schema rn_data rn_measures rn_alternatives r_body r_emit with_names]; unfold made_cols; cbn [rn_relation r_body]; rewrite ?app_nil_r; auto; constructor.
  - destruct K as (-> & -> & -> & ->). cbv beta iota zeta in E. destruct (unique t (kind_name BCross)) as [t3 m] eqn:E3. injection E as <- <-. pose proof (handed_step _ _ _ _ _ Hd E3) as Hd3. split; [exact Hd3|].
    destruct (emit_plain L0 F C [] [] [] HF (Forall2_nil _)) as (A1 & A2 & A3 & A4); [exact Hl|constructor|]. constructor; cbn [rn_relation rn_source rn_schema rn_data rn_measures rn_alternatives r_body r_emit with_names]; unfold made_cols; cbn [rn_relation r_body]; rewrite ?app_nil_r; auto; constructor.
  - destruct K as (_ & _ & []).
Qed.

(** * Recorded trees *)
Section TreeInd.
  Variable P : tree -> Prop.
  Hypothesis H : forall r src sch ins, Forall P ins -> P (Node r src sch ins).
  Fixpoint tree_ind2 (t : tree) : P t :=
    match t with Node r src sch ins => H r src sch ins ((fix go (l : list tree) : Forall P l := match l with [] => Forall_nil _ | i :: l => Forall_cons _ (tree_ind2 i) (go l) end) ins) end.
End TreeInd.
Definition made (t : rtree) : list FieldModel.column := flat_map made_cols (inorder t).
Definition asked (t : rtree) : list (str * str) := flat_map asked_node (inorder t).
(** Every relation of a tree with what is known about it *)
Record ctx := Ctx { cx : recorded; cx_ins : list rtree; cx_r : relation; cx_src : option source; cx_sch : option named_struct; cx_n : nat; cx_F : list cid; cx_L : list FieldModel.column }.
Definition all_ctxs (ctxs : nat -> list FieldModel.column -> tree -> rtree -> list ctx) := fix go (n : nat) (L : list FieldModel.column) (l : list tree) (rl : list rtree) : list ctx :=
  match l, rl with i :: l, ri :: rl => ctxs n L i ri ++ go (fst (columns n i)) (L ++ made ri) l rl | _, _ => [] end.
Fixpoint ctxs (n : nat) (L : list FieldModel.column) (t : tree) (rt : rtree) : list ctx :=
  match t, rt with
  | Node r src sch ins, RTree x rins =>
    all_ctxs ctxs n L ins rins ++ [Ctx x rins r src sch (fst (all_columns columns n ins)) (snd (all_columns columns n ins)) (L ++ flat_map made rins)]
  end.
Definition cx_C (c : ctx) : list FieldModel.column := flat_map (fun i => FieldModel.exposed (rn_data (top i))) (cx_ins c).
Definition cx_G (c : ctx) : list cid := added (cx_n c) (cx_F c) (r_body (cx_r c)) (cx_sch c).
Record CtxOk (known : N -> Prop) (c : ctx) : Prop := {
  ck_ok : relation_ok known (length (cx_ins c)) (cx_F c) (cx_G c) (cx_r c) (cx_src c) (cx_sch c);
  ck_length : length (cx_L c) = cx_n c;
  ck_fields : Forall2 (Rep (cx_L c)) (cx_F c) (cx_C c);
  ck_none : length (cx_ins c) = 0 -> cx_F c = [];
  ck_recorded : RecordedAs known (cx_n c) (cx_F c) (cx_C c) (cx_L c) (cx_r c) (cx_src c) (cx_sch c) (cx c) }.
Definition Within (L : list FieldModel.column) (c : ctx) : Prop := exists L', L = (cx_L c ++ made_cols (cx c)) ++ L'.
Fixpoint InputsBefore (before : list recorded) (l : list ctx) : Prop :=
  match l with [] => True | c :: l => (forall i, In i (cx_ins c) -> In (top i) before) /\ InputsBefore (before ++ [cx c]) l end.
Lemma inputs_app l l' : forall b, InputsBefore b (l ++ l') <-> InputsBefore b l /\ InputsBefore (b ++ map cx l) l'.
Proof. induction l as [|c l IH]; intros b; cbn; [rewrite app_nil_r; tauto|]. rewrite IH, <- app_assoc. cbn. tauto. Qed.
Lemma inputs_more l : forall b b', incl b b' -> InputsBefore b l -> InputsBefore b' l.
Proof. induction l as [|c l IH]; intros b b' I; cbn; [auto|]. intros (A & B). split; [intros i Hi; apply I, A, Hi|]. apply (IH (b ++ [cx c])); [|exact B]. intros x Hx. apply in_app_or in Hx as [Hx|Hx]; apply in_or_app; auto. Qed.
Record TreeRecorded (known : N -> Prop) (n : nat) (L : list FieldModel.column) (x : tree) (rt : rtree) : Prop := {
  tr_ctxs : Forall (CtxOk known) (ctxs n L x rt);
  tr_order : map cx (ctxs n L x rt) = inorder rt;
  tr_length : length (L ++ made rt) = fst (columns n x);
  tr_exposed : Forall2 (Rep (L ++ made rt)) (snd (columns n x)) (FieldModel.exposed (rn_data (top rt)));
  tr_within : Forall (Within (L ++ made rt)) (ctxs n L x rt);
  tr_inputs : InputsBefore [] (ctxs n L x rt) }.
Definition record_list := fix go (t : names) (l : list tree) : names * list rtree :=
  match l with [] => (t, []) | i :: l => let '(t, i) := record t i in let '(t, l) := go t l in (t, i :: l) end.
Lemma record_node_eq t r src sch ins : record t (Node r src sch ins) =
  let '(t, ins) := record_list t ins in let '(t, x) := record_node t r src sch (flat_map (fun i => FieldModel.exposed (rn_data (top i))) ins) in (t, RTree x ins).
Proof. reflexivity. Qed.
Lemma columns_node n r src sch ins : columns n (Node r src sch ins) =
  let '(n, F) := all_columns columns n ins in (n + created (r_body r) sch, chosen (available F (added n F (r_body r) sch) (r_body r)) (r_emit r)).
Proof. reflexivity. Qed.
Lemma columns_cons n i l : all_columns columns n (i :: l) = let '(n, a) := columns n i in let '(n, b) := all_columns columns n l in (n, a ++ b).
Proof. reflexivity. Qed.
Lemma ctxs_cons n L i l ri rl : all_ctxs ctxs n L (i :: l) (ri :: rl) = ctxs n L i ri ++ all_ctxs ctxs (fst (columns n i)) (L ++ made ri) l rl.
Proof. reflexivity. Qed.
Lemma inorder_last rt : exists l, inorder rt = l ++ [top rt].
Proof. destruct rt as [x ins]. cbn. eexists. reflexivity. Qed.
Lemma made_node x ins : made (RTree x ins) = flat_map made ins ++ made_cols x.
Proof. unfold made. cbn [inorder]. rewrite flat_map_app. cbn. rewrite app_nil_r. f_equal. induction ins as [|i ins IH]; [reflexivity|]. cbn. rewrite flat_map_app, IH. reflexivity. Qed.
Lemma asked_tree x ins : asked (RTree x ins) = flat_map asked ins ++ asked_node x.
Proof. unfold asked. cbn [inorder]. rewrite flat_map_app. cbn. rewrite app_nil_r. f_equal. induction ins as [|i ins IH]; [reflexivity|]. cbn. rewrite flat_map_app, IH. reflexivity. Qed.
Lemma within_more L L' c : Within L c -> Within (L ++ L') c.
Proof. intros (M & ->). exists (M ++ L'). rewrite <- !app_assoc. reflexivity. Qed.
Lemma tree_recorded known x : forall n L H t t' rt, tree_ok known n x -> length L = n -> Handed t H -> record t x = (t', rt) -> Handed t' (H ++ asked rt) /\ TreeRecorded known n L x rt.
Proof.
  induction x as [r src sch ins IH] using tree_ind2. intros n L H t t' rt (Hall & Hr) Hn Hd E. rewrite record_node_eq in E. destruct (record_list t ins) as [t1 rins] eqn:E1.
  assert (X : Handed t1 (H ++ flat_map asked rins) /\ Forall (CtxOk known) (all_ctxs ctxs n L ins rins) /\ map cx (all_ctxs ctxs n L ins rins) = flat_map inorder rins /\ length (L ++ flat_map made rins) = fst (all_columns columns n ins) /\
    Forall2 (Rep (L ++ flat_map made rins)) (snd (all_columns columns n ins)) (flat_map (fun i => FieldModel.exposed (rn_data (top i))) rins) /\ Forall (Within (L ++ flat_map made rins)) (all_ctxs ctxs n L ins rins) /\ InputsBefore [] (all_ctxs ctxs n L ins rins) /\ length rins = length ins).
  { clear Hr E. revert n L H t t1 rins Hall Hn Hd E1. induction IH as [|i ins Hi _ IHl]; intros n L H t t1 rins Hall Hn Hd E1; cbn in E1.
    - injection E1 as <- <-. cbn. rewrite !app_nil_r. repeat match goal with |- _ /\ _ => split end; try assumption; try constructor.
    - destruct (record t i) as [t2 ri] eqn:Ei. fold (record_list t2 ins) in E1. destruct (record_list t2 ins) as [t3 rl] eqn:El. injection E1 as <- <-. destruct Hall as (Ti & Hall). destruct (Hi n L H t t2 ri Ti Hn Hd Ei) as (Hd2 & [A1 A2 A3 A4 A5 A6]).
      destruct (IHl _ (L ++ made ri) _ _ _ _ Hall A3 Hd2 El) as (Hd3 & B1 & B2 & B3 & B4 & B5 & B6 & B7). rewrite columns_cons, ctxs_cons. cbn [flat_map]. rewrite <- !app_assoc in *.
      destruct (columns n i) as [n1 ids] eqn:Ec. cbn [fst snd] in *. destruct (all_columns columns n1 ins) as [n2 F2] eqn:Ec2. cbn [fst snd] in *.
      split; [exact Hd3|]. split; [apply Forall_app; auto|]. split; [rewrite map_app, A2, B2; reflexivity|]. split; [exact B3|]. split; [apply reps_app; [rewrite app_assoc; apply reps_extend, A4|exact B4]|].
      split; [apply Forall_app; split; [rewrite app_assoc; eapply Forall_impl; [|exact A5]; intros c; apply within_more|exact B5]|]. split; [|cbn; congruence]. apply inputs_app. split; [exact A6|]. apply (inputs_more _ []); [intros z []|exact B6]. }
  destruct X as (Hd1 & B1 & B2 & B3 & B4 & B5 & B6 & B7). cbn [tree_ok] in Hr. destruct (all_columns columns n ins) as [n1 F] eqn:Ec. cbn [fst snd] in *. rewrite <- B7 in Hr.
  set (C := flat_map (fun i => FieldModel.exposed (rn_data (top i))) rins) in *. destruct (record_node t1 r src sch C) as [t2 x] eqn:E2. injection E as <- <-.
  assert (Hk : length rins = 0 -> F = []). { intros Z0. destruct rins; [|discriminate]. cbn in C. subst C. inversion B4. reflexivity. }
  destruct (node_recorded known (length rins) n1 F C (L ++ flat_map made rins) _ t1 r src sch t2 x Hr B3 B4 Hk Hd1 E2) as (Hd2 & RA).
  rewrite asked_tree, app_assoc. split; [exact Hd2|].
  assert (Ec' : all_columns columns n ins = (n1, F)) by exact Ec. constructor; cbn [ctxs]; rewrite ?Ec'; cbn [fst snd].
  - apply Forall_app. split; [exact B1|]. constructor; [|constructor]. constructor; unfold cx_C, cx_G; cbn [cx cx_ins cx_r cx_src cx_sch cx_n cx_F cx_L]; auto.
  - rewrite map_app, B2. reflexivity.
  - rewrite columns_node, Ec'. cbn [fst]. rewrite made_node, app_assoc, app_length, B3, (rc_made _ _ _ _ _ _ _ _ _ RA). reflexivity.
  - rewrite columns_node, Ec'. cbn [snd top]. rewrite made_node, app_assoc. exact (rc_exposed _ _ _ _ _ _ _ _ _ RA).
  - rewrite made_node, app_assoc. apply Forall_app. split; [eapply Forall_impl; [|exact B5]; intros c; apply within_more|]. constructor; [|constructor]. exists []. cbn. rewrite app_nil_r. reflexivity.
  - apply inputs_app. split; [exact B6|]. cbn. split; [|exact I]. rewrite B2. intros i Hi. apply in_flat_map. exists i. split; [exact Hi|]. destruct (inorder_last i) as (l & ->). apply in_or_app. right. left. reflexivity.
Qed.

(** * Relations of a recorded tree *)
Lemma ends_dot s n : Name n -> endsWith n enum_suffix = false -> endsWith (s ++ $"." ++ n) enum_suffix = false.
Proof.
  intros Nn H. destruct (endsWith (s ++ $"." ++ n) enum_suffix) eqn:E; [|reflexivity]. exfalso. apply endsWith_iff in E as (c & r & E).
  assert (Ne : n <> enum_suffix). { intros ->. destruct (name_head _ Nn) as (d & q & [= <- _] & A). discriminate A. }
  assert (E' : (s ++ $".") ++ n = (c :: r) ++ enum_suffix) by (rewrite <- app_assoc; exact E). destruct (SymbolMoreFacts.app_compare _ _ _ _ E') as [(d & D1 & D2) | (d & D1 & D2)].
  - destruct d as [|x d]; [apply Ne; exact D2|]. assert (X : endsWith n enum_suffix = true) by (apply endsWith_iff; exists x, d; exact D2). congruence.
  - destruct d as [|x d] using rev_ind; [apply Ne; symmetry; exact D2|]. rewrite app_assoc in D1. apply app_inj_tail in D1 as (_ & <-). assert (X : In "."%char enum_suffix) by (rewrite D2; apply in_or_app; left; apply in_or_app; right; left; reflexivity).
    cbn in X. intuition discriminate.
Qed.
Lemma forall2_nth_r {A B} (P : A -> B -> Prop) l l' : Forall2 P l l' -> forall k b, nth_error l' k = Some b -> exists a, nth_error l k = Some a /\ P a b.
Proof. induction 1 as [|x y l l' Hxy _ IH]; intros [|k] b E; try discriminate; cbn in E; [injection E as <-; exists x; auto|apply IH, E]. Qed.
Lemma reads_names a b c d e f g h h2 i j s k r r' : RelReads a b c d e f g h h2 i j s k r r' -> sources_of (r_body r') = sources_of (r_body r) /\ schemas_of (r_body r') = schemas_of (r_body r).
Proof. destruct 1; split; reflexivity. Qed.
(** What a text for an expression stands for *)
Lemma alternatives_spec C l : forall gx0 g seen, Forall2 (fun x c => match x with FieldModel.GColumn z => FieldModel.at_index C z = Some c | FieldModel.GOther c' => c = c' end) gx0 g ->
  Forall (fun x => match x with FieldModel.GColumn z => FieldModel.at_index C z <> None | _ => True end) l ->
  (forall n p, seen_at n seen = Some p -> exists z c, nth_error gx0 p = Some (FieldModel.GColumn z) /\ nth_error g p = Some c /\ FieldModel.c_name c = n /\ FieldModel.nonempty (FieldModel.c_alias c) = false) ->
  forall k s, In (k, s) (alternatives C l g seen) -> exists z c, nth_error (gx0 ++ l) k = Some (FieldModel.GColumn z) /\ FieldModel.at_index C z = Some c /\ s = text_of_column c.
Proof.
  assert (W : forall k c n p s, FieldModel.c_name c = n -> FieldModel.nonempty (FieldModel.c_alias c) = false -> In (p, s) (with_schema k c n) -> p = k /\ s = text_of_column c).
  { intros k c n p s <- Ha I. unfold with_schema, text_of_column in *. rewrite Ha. destruct (FieldModel.c_schema c) as [sc|]; [|contradiction]. destruct (FieldModel.nonempty sc); [|contradiction]. destruct I as [[= <- <-] | []]. auto. }
  induction l as [|x l IH]; intros gx0 g seen HG HR HS k s I; [contradiction|]. inversion HR as [|? ? Hx HR']; subst. cbn [alternatives] in I. pose proof (forall2_len _ _ _ HG) as Lg.
  assert (Cons : gx0 ++ x :: l = (gx0 ++ [x]) ++ l) by (rewrite <- app_assoc; reflexivity).
  assert (Next : forall c seen', match x with FieldModel.GColumn z => FieldModel.at_index C z = Some c | FieldModel.GOther c' => c = c' end ->
    (forall n p, seen_at n seen' = Some p -> exists z c', nth_error (gx0 ++ [x]) p = Some (FieldModel.GColumn z) /\ nth_error (g ++ [c]) p = Some c' /\ FieldModel.c_name c' = n /\ FieldModel.nonempty (FieldModel.c_alias c') = false) ->
    In (k, s) (alternatives C l (g ++ [c]) seen') -> exists z c, nth_error (gx0 ++ x :: l) k = Some (FieldModel.GColumn z) /\ FieldModel.at_index C z = Some c /\ s = text_of_column c).
  { intros c seen' Hc HS' I'. rewrite Cons. eapply (IH (gx0 ++ [x]) (g ++ [c]) seen'); try assumption. apply Forall2_app; [exact HG|]. constructor; [exact Hc|constructor]. }
  assert (Keep : forall c n p, seen_at n seen = Some p -> exists z c', nth_error (gx0 ++ [x]) p = Some (FieldModel.GColumn z) /\ nth_error (g ++ [c]) p = Some c' /\ FieldModel.c_name c' = n /\ FieldModel.nonempty (FieldModel.c_alias c') = false).
  { intros c n p E. destruct (HS n p E) as (z & c' & A1 & A2 & A3 & A4). exists z, c'. rewrite !nth_error_app1 by (apply nth_error_Some; congruence). auto. }
  destruct x as [z|c].
  - destruct (FieldModel.at_index C z) as [c|] eqn:Ez; [|congruence]. destruct (FieldModel.nonempty (FieldModel.c_alias c)) eqn:Ea; [exact (Next c seen eq_refl (Keep c) I)|].
    destruct (seen_at (FieldModel.c_name c) seen) as [p|] eqn:Es.
    + apply in_app_or in I as [I | I].
      * destruct (W _ _ _ _ _ eq_refl Ea I) as (-> & ->). exists z, c. rewrite Lg, nth_snoc. auto.
      * apply in_app_or in I as [I | I]; [|exact (Next c seen eq_refl (Keep c) I)]. destruct (HS _ _ Es) as (z0 & c0 & A1 & A2 & A3 & A4). rewrite nth_error_app1 in I by (apply nth_error_Some; congruence). rewrite A2 in I.
        destruct (W _ _ _ _ _ A3 A4 I) as (-> & ->). exists z0, c0. rewrite nth_error_app1 by (apply nth_error_Some; congruence). split; [exact A1|]. split; [|reflexivity]. destruct (forall2_nth _ _ _ HG _ _ A1) as (c1 & B1 & B2). rewrite A2 in B1. injection B1 as <-. exact B2.
    + apply (Next c ((FieldModel.c_name c, length g) :: seen) eq_refl); [|exact I]. intros n p. cbn [seen_at]. destruct (FieldModel.c_name c =s n) eqn:En; [|apply Keep]. apply seq_eqb_eq in En. intros [= <-]. exists z, c. rewrite Lg, nth_snoc, <- Lg, nth_snoc. auto.
  - exact (Next c seen eq_refl (Keep c) I).
Qed.
Lemma at_position_in k l s : at_position k l = Some s -> In (k, s) l.
Proof. induction l as [|[j t] l IH]; [discriminate|]. cbn. destruct (Nat.eqb_spec j k) as [-> | _]; [intros [= ->]; left; reflexivity|right; auto]. Qed.
(** The columns that are there when the reader looks up names *)
Definition generated_read (c : ctx) : list FieldModel.column := if is_read (r_body (cx_r c)) then [] else FieldModel.d_generated (rn_data (cx c)).
Definition groups_of (b : body) : nat := match b with BAggregate gs _ => length (concat gs) | _ => 0 end.
Definition columns_at_detail (c : ctx) (i j : nat) : list FieldModel.column :=
  if is_aggregate (r_body (cx_r c)) then firstn (if (0 <? j) && (groups_of (r_body (cx_r c)) <=? i) then S i else i) (FieldModel.d_generated (rn_data (cx c))) else [].
Lemma forall2_in {A B} (P Q : A -> B -> Prop) l l' : Forall2 P l l' -> (forall a b, In a l -> P a b -> Q a b) -> Forall2 Q l l'.
Proof. induction 1; intros H'; constructor; [apply H'; [left; reflexivity|assumption]|]. apply IHForall2. intros. apply H'; [right|]; assumption. Qed.
Section Reading.
  Variables (known : N -> Prop) (R : N -> N -> Prop).
  Variables (ss : FieldModel.schemas) (loc : str -> nat) (is_stored : str -> str -> Prop) (is_new : str -> Prop).
  Hypothesis Hstored : forall s n, is_stored s n -> Name s /\ Name n /\ find (fun x => snd x =? loc s) ss = Some (s, loc s).
  Hypothesis Hnew : forall n, is_new n -> Name n.
  Hypothesis Hapart : forall s n m, is_stored s n -> is_new m -> n <> m.
  Hypothesis Hnone : find (fun x => snd x =? 0) ss = None.
  Hypothesis Hstored2 : forall s n, is_stored s n -> not_null s /\ endsWith n enum_suffix = false.
  Hypothesis Hnew2 : forall n, is_new n -> not_null n /\ endsWith n enum_suffix = false.
  Variables (fs : list DeclModel.entry) (find_function : str -> option N) (find_relation : str -> option bool) (known_name : str -> bool).
  Hypothesis HR : forall f, known f -> exists n f', DeclModel.lookupFunctionReference fs f = Some n /\ Name n /\ to_lower n <> $"ifthen" /\ find_function n = Some f' /\ R f f'.
  Variable c : ctx.
  Hypothesis Hc : CtxOk known c.
  Notation L := (cx_L c ++ made_cols (cx c)).
  Hypothesis Hproper : Forall (Proper is_stored is_new) L.
  Hypothesis Hnodup : NoDup (map text_of_column L).
  Hypothesis Hnames : Forall (fun n => Name n /\ known_name n = true) (listed_name (rn_source (cx c)) ++ listed_name (rn_schema (cx c))).
  Notation rc := (as_read loc).
  Notation agg := (is_aggregate (r_body (cx_r c))).
  Notation found := (fun i j => WholeModel.find_field ss agg (map rc (cx_C c)) (map rc (columns_at_detail c i j))).
  Notation emitted := (WholeModel.find_emit ss agg (map rc (cx_C c)) (map rc (generated_read c))).
  Notation nm := (naming_of fs (cx c)).
  Lemma reps_proper l cs : Forall2 (Rep L) l cs -> Forall (Proper is_stored is_new) cs.
  Proof. induction 1 as [|i x l cs (E & _) _ IH]; constructor; [|exact IH]. rewrite Forall_forall in Hproper. apply Hproper. eapply nth_error_In, E. Qed.
  Lemma fields_reps : Forall2 (Rep L) (cx_F c) (cx_C c).
  Proof. apply reps_extend, (ck_fields _ _ Hc). Qed.
  Lemma proper_column x : Proper is_stored is_new x -> Column (text_of_column x) /\ EmitColumn (text_of_column x) /\ endsWith (text_of_column x) enum_suffix = false.
  Proof.
    intros [s n Hs | n a Hn Ha].
    - rewrite stored_text. destruct (Hstored s n Hs) as (N1 & N2 & _). destruct (Hstored2 s n Hs) as (A & B). split; [constructor; assumption|]. split; [constructor; assumption|]. apply ends_dot; assumption.
    - rewrite (new_text n a Ha). destruct (Hnew2 n Hn) as (A & B). pose proof (Hnew n Hn) as N1. split; [constructor; assumption|]. split; [constructor; assumption|exact B].
  Qed.
  Lemma short_range : (Z.of_nat (length (cx_F c)) < 2 ^ 31)%Z.
  Proof. destruct (ck_ok _ _ Hc) as (H & _). rewrite app_length in H. lia. Qed.
  (** A column of the input is looked up. *)
  Lemma column_found z g : in_range (cx_F c) z -> is_read (r_body (cx_r c)) = false -> Forall (Proper is_stored is_new) g -> (Z.of_nat (length (cx_C c ++ g)) < 2 ^ 31)%Z ->
    (forall i x x', pick (cx_F c) z = Some i -> is_computed i = true -> Rep L i x -> In x' g -> text_of_column x' <> text_of_column x) ->
    exists n z', nm_field nm 0 z = Some n /\ Column n /\ endsWith n enum_suffix = false /\ WholeModel.find_field ss agg (map rc (cx_C c)) (map rc g) n = Some (0%N, z') /\ same_column (cx_F c) z z' /\ (0 <= z' < Z.of_nat (length (cx_C c)))%Z.
  Proof.
    intros Hz Hr Hg Hl Hd. unfold in_range in Hz. destruct (pick (cx_F c) z) as [i|] eqn:Ez; [|congruence]. destruct (rep_pick _ _ _ _ _ fields_reps Ez short_range) as (x & Rz & Ex & Rx & _ & _ & M).
    pose proof (reps_proper _ _ fields_reps) as PC. assert (Px : Proper is_stored is_new x) by (rewrite Forall_forall in PC; apply PC; eapply nth_error_In, Ex).
    destruct (lookup_field ss loc is_stored is_new Hstored Hnew Hapart Hnone agg (cx_C c) g (Z.to_nat z) x PC Hg Hl Ex) as (z' & x' & F1 & F2 & F3 & F4).
    { intros Hs x' Ix'. apply (Hd i x x' eq_refl); [|exact Rx|exact Ix']. destruct Rx as (_ & K). destruct i; [congruence|reflexivity]. }
    exists (text_of_column x), z'. destruct (proper_column x Px) as (C1 & _ & C2). split.
    { unfold naming_of, nm_field. cbn [N.eqb]. unfold FieldModel.lookupFieldReference. rewrite M, (rc_fields _ _ _ _ _ _ _ _ _ (ck_recorded _ _ Hc) Hr), nth_error_app1 by (apply nth_error_Some; congruence). rewrite Ex. reflexivity. }
    split; [exact C1|]. split; [exact C2|]. split; [exact F1|]. split.
    - destruct (forall2_nth_r _ _ _ fields_reps _ _ F3) as (i' & E' & R'). split; [congruence|]. unfold pick at 1. destruct (Z.ltb_spec z' 0); [lia|]. rewrite E', Ez. f_equal. exact (rep_unique _ _ _ _ _ Hnodup Rx R' F4).
    - split; [exact F2|]. assert (Z.to_nat z' < length (cx_C c)) by (apply nth_error_Some; congruence). lia.
  Qed.
  Lemma firstn_incl {A} (l : list A) k x : In x (firstn k l) -> In x l.
  Proof. intros I. rewrite <- (firstn_skipn k l). apply in_or_app. left. exact I. Qed.
  Definition outcome_of (r' : relation) : Prop :=
    SameBody R (same_column (cx_F c)) (r_body (cx_r c)) (with_names (r_body r') [] []) /\ Forall2 (same_column (available (cx_F c) (cx_G c) (r_body (cx_r c)))) (r_emit (cx_r c)) (r_emit r').
  Notation FE := (FoundEmit (nm_emit nm) emitted).
  Lemma relation_eq : rn_relation (cx c) = Relation (with_names (r_body (cx_r c)) (listed_name (rn_source (cx c))) (listed_name (rn_schema (cx c)))) (r_emit (cx_r c)).
  Proof. apply (rc_relation _ _ _ _ _ _ _ _ _ (ck_recorded _ _ Hc)). Qed.
  Lemma added_generated : is_read (r_body (cx_r c)) = false -> added_cols (cx c) = FieldModel.d_generated (rn_data (cx c)).
  Proof. intros H. unfold added_cols. rewrite relation_eq. cbn [r_body]. destruct (r_body (cx_r c)); try discriminate H; reflexivity. Qed.
  Lemma generated_reps : is_read (r_body (cx_r c)) = false -> Forall2 (Rep L) (cx_G c) (FieldModel.d_generated (rn_data (cx c))).
  Proof. intros H. rewrite <- (added_generated H). exact (rc_added _ _ _ _ _ _ _ _ _ (ck_recorded _ _ Hc)). Qed.
  Lemma emit_found z : In z (r_emit (cx_r c)) -> exists z', FE z z' /\ same_column (available (cx_F c) (cx_G c) (r_body (cx_r c))) z z'.
  Proof.
    intros Iz. pose proof (ck_ok _ _ Hc) as (Hl & K). pose proof (rc_body _ _ _ _ _ _ _ _ _ (ck_recorded _ _ Hc)) as RB. pose proof (reps_proper _ _ fields_reps) as PC.
    destruct (r_body (cx_r c)) as [s sc f g p|cc|o cc|gs ms|l|l|t e post| |n] eqn:Eb.
    - destruct K as (_ & _ & _ & _ & _ & K & _). rewrite K in Iz. destruct Iz.
    - destruct K as (_ & _ & _ & K & _). rewrite K in Iz. destruct Iz.
    - destruct K as (_ & _ & _ & K & _). rewrite K in Iz. destruct Iz.
    - destruct K as (_ & _ & _ & _ & _ & _ & _ & He). rewrite Forall_forall in He. destruct (He z Iz) as (n & Ep). assert (Gr : Forall2 (Rep L) (cx_G c) (FieldModel.d_generated (rn_data (cx c)))) by (apply generated_reps; rewrite Eb; reflexivity).
      assert (HlG : (Z.of_nat (length (cx_G c)) < 2 ^ 31)%Z) by (rewrite app_length in Hl; lia). destruct (rep_pick _ _ _ _ _ Gr Ep HlG) as (x & Rz & Ex & Rx & _ & _ & M). set (g := FieldModel.d_generated (rn_data (cx c))) in *.
      pose proof (reps_proper _ _ Gr) as Pg. assert (Px : Proper is_stored is_new x) by (rewrite Forall_forall in Pg; apply Pg; eapply nth_error_In, Ex).
      destruct (lookup_measure ss loc is_stored is_new Hstored Hnew Hapart (cx_C c) g (Z.to_nat z) x PC Pg) as (z' & x' & F1 & F2 & F3 & F4); [|exact Ex|apply Rx|].
      { pose proof (forall2_len _ _ _ fields_reps) as L1. pose proof (forall2_len _ _ _ Gr) as L2. rewrite app_length in *. lia. }
      exists z'. split.
      + exists (text_of_column x). split; [unfold naming_of; cbn [nm_emit]; unfold FieldModel.lookupFieldReferenceForEmit; rewrite relation_eq, Eb; cbn [r_body with_names is_aggregate]; fold g; rewrite M, Ex; reflexivity|]. split; [apply (proper_column x Px)|].
        unfold generated_read. rewrite Eb. cbn [is_read]. fold g. exact F1.
      + cbn [available]. split; [congruence|]. destruct (forall2_nth_r _ _ _ Gr _ _ F3) as (i' & E' & R'). unfold pick at 1. destruct (Z.ltb_spec z' 0); [lia|]. rewrite E', Ep. f_equal. exact (rep_unique _ _ _ _ _ Hnodup Rx R' F4).
    - destruct K as (_ & _ & _ & K & _). rewrite K in Iz. destruct Iz.
    - destruct K as (_ & _ & _ & _ & He). rewrite Forall_forall in He. pose proof (He z Iz) as Hz. unfold in_range in Hz. destruct (pick (cx_F c ++ cx_G c) z) as [i|] eqn:Ep; [|congruence].
      assert (Gr : Forall2 (Rep L) (cx_G c) (FieldModel.d_generated (rn_data (cx c)))) by (apply generated_reps; rewrite Eb; reflexivity). set (g := FieldModel.d_generated (rn_data (cx c))) in *.
      pose proof (reps_app _ _ _ _ _ fields_reps Gr) as FG. destruct (rep_pick _ _ _ _ _ FG Ep Hl) as (x & Rz & Ex & Rx & _ & _ & M). pose proof (reps_proper _ _ Gr) as Pg. pose proof (reps_proper _ _ FG) as Pfg.
      assert (Px : Proper is_stored is_new x) by (rewrite Forall_forall in Pfg; apply Pfg; eapply nth_error_In, Ex).
      destruct (lookup_emit ss loc is_stored is_new Hstored Hnew Hapart Hnone (cx_C c) g (Z.to_nat z) x PC Pg) as (z' & x' & F1 & F2 & F3 & F4); [|exact Ex| |].
      { rewrite (forall2_len _ _ _ FG). exact Hl. }
      { intros Hs. apply nth_error_In, in_app_or in Ex as [Ex | Ex]; [exact Ex|]. destruct RB as (gx & _ & _ & RB). clear -RB Ex Hs. fold g in RB. induction RB as [|e y es g He _ IH]; [contradiction|]. destruct Ex as [-> | Ex]; [|exact (IH Ex)].
        assert (Y : (exists z, nth_error (cx_C c) z = Some x) \/ exists n, x = new_column n n) by (destruct e as [|?|[] ?| | | | | | | | | | ]; try (right; exact He); left; destruct He as (_ & He); eexists; exact He).
        destruct Y as [(z & Y) | (n & ->)]; [eapply nth_error_In, Y|]. cbn in Hs. congruence. }
      exists z'. split.
      + exists (text_of_column x). split; [unfold naming_of; cbn [nm_emit]; unfold FieldModel.lookupFieldReferenceForEmit; rewrite relation_eq, Eb; cbn [r_body with_names is_aggregate]|].
        { rewrite (rc_fields _ _ _ _ _ _ _ _ _ (ck_recorded _ _ Hc)) by (rewrite Eb; reflexivity). fold g. rewrite M, Ex. reflexivity. }
        split; [apply (proper_column x Px)|]. unfold generated_read. rewrite Eb. cbn [is_read]. fold g. exact F1.
      + cbn [available]. split; [congruence|]. destruct (forall2_nth_r _ _ _ FG _ _ F3) as (i' & E' & R'). unfold pick at 1. destruct (Z.ltb_spec z' 0); [lia|]. rewrite E', Ep. f_equal. exact (rep_unique _ _ _ _ _ Hnodup Rx R' F4).
    - destruct K as (_ & _ & _ & K & _). rewrite K in Iz. destruct Iz.
    - destruct K as (_ & _ & _ & K). rewrite K in Iz. destruct Iz.
    - destruct K as (_ & _ & []).
  Qed.
  Lemma plain_found : is_read (r_body (cx_r c)) = false -> agg = false -> forall i j z, in_range (cx_F c) z -> Found (same_column (cx_F c)) (nm_field nm) found i j z.
  Proof.
    intros Hr Ha i j z Hz. unfold columns_at_detail. rewrite Ha. destruct (column_found z [] Hz Hr (Forall_nil _)) as (n & z' & A1 & A2 & A3 & A4 & A5 & _).
    - rewrite app_nil_r, (forall2_len _ _ _ fields_reps). exact short_range.
    - intros ? ? ? _ _ _ [].
    - rewrite Ha in A4. exists n, z'. auto.
  Qed.
  Lemma ctx_reads : exists r', RelReads (nm_function nm) (nm_field nm) (nm_emit nm) (nm_measure nm) (nm_alternative nm) (nm_alias nm) find_function find_relation found emitted (length (cx_C c)) known_name known_name (rn_relation (cx c)) r' /\ outcome_of r'.
  Proof.
    pose proof (ck_ok _ _ Hc) as Ok0. pose proof Ok0 as (Hl & K). pose proof (rc_body _ _ _ _ _ _ _ _ _ (ck_recorded _ _ Hc)) as RB. apply Forall_app in Hnames as [Hn1 Hn2].
    assert (He : Forall (fun z => exists z', FE z z') (r_emit (cx_r c))). { apply Forall_forall. intros z Iz. destruct (emit_found z Iz) as (z' & A & _). exists z'. exact A. }
    destruct (relation_reads known R (same_column (cx_F c)) (nm_function nm) (nm_field nm) (nm_emit nm) (nm_measure nm) (nm_alternative nm) (nm_alias nm) find_function find_relation found emitted (length (cx_C c)) known_name HR
      (length (cx_ins c)) (cx_F c) (cx_G c) (cx_r c) (cx_src c) (cx_sch c) (listed_name (rn_source (cx c))) (listed_name (rn_schema (cx c))) Ok0) as (b' & emit' & A1 & A2 & A3); [|exact He|].
    2:{ exists (Relation b' emit'). rewrite relation_eq. split; [exact A1|]. split; [exact A2|]. cbn [r_emit]. refine (forall2_in _ _ _ _ A3 _). intros z z' Iz (n & N1 & _ & N2). destruct (emit_found z Iz) as (z2 & (n' & M1 & _ & M2) & M3). rewrite N1 in M1. injection M1 as <-. rewrite N2 in M2. injection M2 as <-. exact M3. }
    assert (Hr : is_read (r_body (cx_r c)) = false -> agg = false -> forall i j z, in_range (cx_F c) z -> Found (same_column (cx_F c)) (nm_field nm) found i j z) by exact plain_found.
    pose proof (rc_source _ _ _ _ _ _ _ _ _ (ck_recorded _ _ Hc)) as Rs.
    destruct (r_body (cx_r c)) as [s sc f g p|cc|o cc|gs ms|l|l|t e post| |n] eqn:Eb.
    - destruct K as (_ & _ & _ & _ & _ & _ & _ & (so & Es & _) & _). split; [|split; [exact Hn1|exact Hn2]]. rewrite Es in Rs. destruct (rn_source (cx c)) as [[? ?]|]; [discriminate|discriminate Rs].
    - exact (Hr eq_refl eq_refl).
    - exact (Hr eq_refl eq_refl).
    - destruct K as (_ & _ & _ & _ & (zs & Egs & Hz) & Nd & _). destruct RB as (Lm & zs' & cs & Egs' & Hcs & Eg). assert (Ezs : zs' = zs). { rewrite Egs in Egs'. injection Egs' as Egs'. clear -Egs'. revert zs' Egs'. induction zs as [|z zs IH]; intros [|z' zs'] E; try discriminate; [reflexivity|]. cbn in E. injection E as -> E. rewrite (IH _ E). reflexivity. }
      subst zs'. assert (Ec : concat gs = map (fun z => ESel (SegField z None) RootRef) zs) by (rewrite Egs; cbn; apply app_nil_r). rewrite Ec in *. set (g := FieldModel.d_generated (rn_data (cx c))) in *.
      assert (Rr : is_read (r_body (cx_r c)) = false) by (rewrite Eb; reflexivity). assert (Gr : Forall2 (Rep L) (cx_G c) g) by exact (generated_reps Rr). pose proof (reps_proper _ _ Gr) as Pg.
      assert (EG : cx_G c = grouped_by (cx_F c) (map (fun z => ESel (SegField z None) RootRef) zs) ++ map Computed (seq (cx_n c) (length ms))) by (unfold cx_G, added; rewrite Eb, Ec; reflexivity).
      assert (Lg : length (grouped_by (cx_F c) (map (fun z => ESel (SegField z None) RootRef) zs)) = length zs).
      { clear -Hz. induction Hz as [|z zs H _ IH]; [reflexivity|]. cbn. unfold in_range in H. destruct (pick (cx_F c) z); [|congruence]. cbn. f_equal. exact IH. }
      pose proof (forall2_len _ _ _ Hcs) as Lc. pose proof (forall2_len _ _ _ Gr) as LG. pose proof (forall2_len _ _ _ fields_reps) as LF.
      assert (Fit : forall k, (Z.of_nat (length (cx_C c ++ firstn k g)) < 2 ^ 31)%Z). { intros k. clear -Hl LG LF. rewrite app_length in Hl. rewrite app_length, firstn_length. lia. }
      assert (Pf : forall k, Forall (Proper is_stored is_new) (firstn k g)). { intros k. rewrite Forall_forall in *. intros x I. apply Pg. eapply firstn_incl, I. }
      (* a computed column of the input that has the text of one of those that are there *)
      assert (Hit : forall z i x x' k, pick (cx_F c) z = Some i -> is_computed i = true -> Rep L i x -> In x' (firstn k g) -> text_of_column x' = text_of_column x -> exists m, m < k /\ nth_error (cx_G c) m = Some i).
      { intros z i x x' k _ Ci Rx I E. apply In_nth_error in I as (m & Em). assert (Hm : m < k) by (assert (m < length (firstn k g)) by (apply nth_error_Some; congruence); rewrite firstn_length in *; lia).
        assert (Em' : nth_error g m = Some x'). { rewrite <- (firstn_skipn k g). rewrite nth_error_app1; [exact Em|]. apply nth_error_Some. congruence. }
        destruct (forall2_nth_r _ _ _ Gr _ _ Em') as (i' & Ei & Ri). exists m. split; [exact Hm|]. rewrite Ei. f_equal. exact (rep_unique _ _ _ _ _ Hnodup Rx Ri E). }
      assert (Old : forall z i, pick (cx_F c) z = Some i -> is_computed i = true -> forall m, nth_error (cx_G c) m = Some i -> m < length zs /\ In i (grouped_by (cx_F c) (map (fun z => ESel (SegField z None) RootRef) zs))).
      { intros z i Ep Ci m Em. rewrite EG in Em. destruct (le_lt_dec (length zs) m) as [Hle | Hlt].
        - exfalso. rewrite nth_error_app2 in Em by lia. apply nth_error_In, in_map_iff in Em as (q & <- & Iq). apply in_seq in Iq. destruct (rep_pick _ _ _ _ _ (ck_fields _ _ Hc) Ep short_range) as (y & _ & _ & (Ry & _) & _). cbn [num] in Ry. assert (q < length (cx_L c)) by (apply nth_error_Some; congruence). pose proof (ck_length _ _ Hc). lia.
        - split; [exact Hlt|]. rewrite nth_error_app1 in Em by lia. eapply nth_error_In, Em. }
      split; [|split].
      + intros i z Ei. rewrite nth_error_map in Ei. destruct (nth_error zs i) as [z0|] eqn:Ezi; [|discriminate]. injection Ei as ->. assert (Hzi : in_range (cx_F c) z) by (rewrite Forall_forall in Hz; apply Hz; eapply nth_error_In, Ezi).
        unfold columns_at_detail. rewrite Eb. cbn [is_aggregate Nat.ltb Nat.leb andb]. fold g. destruct (column_found z (firstn i g) Hzi Rr (Pf i) (Fit i)) as (n & z' & B1 & B2 & B3 & B4 & B5 & B6).
        { intros id x x' Ep Ci Rx Ix E. destruct (Hit z id x x' i Ep Ci Rx Ix E) as (m & Hm & Em). destruct (Old z id Ep Ci m Em) as (Hm' & _). rewrite EG, nth_error_app1 in Em by lia.
          assert (Ni : nth_error (grouped_by (cx_F c) (map (fun z => ESel (SegField z None) RootRef) zs)) i = Some id). { clear -Hz Ezi Ep. revert i Ezi. induction Hz as [|w zs Hw _ IH]; intros [|i] E; try discriminate; cbn; unfold in_range in Hw; destruct (pick (cx_F c) w) as [q|] eqn:Eq; try congruence; cbn. - injection E as ->. congruence. - apply IH, E. }
          clear -Nd Em Ni Hm Ci. revert m i Em Ni Hm. induction (grouped_by (cx_F c) (map (fun z => ESel (SegField z None) RootRef) zs)) as [|q l IH]; intros m i Em Ni Hm; [destruct m; discriminate|]. destruct i as [|i]; [lia|]. destruct m as [|m]; cbn in Em, Ni.
          - injection Em as ->. cbn in Nd. rewrite Ci in Nd. inversion Nd as [|? ? Hn _]; subst. apply Hn. apply filter_In. split; [eapply nth_error_In, Ni|exact Ci].
          - apply (IH ltac:(cbn in Nd; destruct (is_computed q); [inversion Nd; assumption|exact Nd]) m i Em Ni). lia. }
        rewrite Eb in B4. exists n, z'. auto.
      + intros i j z Hi (id & Ep & Hng). unfold Found, columns_at_detail. cbv beta. rewrite Eb. cbn [is_aggregate]. fold g. match goal with |- context [firstn (if ?q then S i else i) g] => set (k := if q then S i else i) end. assert (Hzi : in_range (cx_F c) z) by (unfold in_range; congruence).
        destruct (column_found z (firstn k g) Hzi Rr (Pf k) (Fit k)) as (n & z' & B1 & B2 & B3 & B4 & B5 & B6).
        { intros id' x x' Ep' Ci Rx Ix E. rewrite Ep in Ep'. injection Ep' as <-. destruct (Hit z id x x' k Ep Ci Rx Ix E) as (m & Hm & Em). destruct (Old z id Ep Ci m Em) as (_ & I). apply Hng. auto. }
        rewrite Eb in B4. exists n, z'. auto.
      + intros k. unfold naming_of. cbn [nm_measure]. destruct (nth_error (rn_measures (cx c)) k) as [m|] eqn:Em; [|exact I]. cbn. apply nth_error_In in Em. assert (Im : In (new_column m []) g) by (rewrite Eg; apply in_or_app; right; apply (in_map (fun n => new_column n []) _ _ Em)).
        rewrite Forall_forall in Pg. pose proof (Pg _ Im) as P. inversion P; subst. apply Hnew. assumption.
    - exact (Hr eq_refl eq_refl).
    - split; [exact (Hr eq_refl eq_refl)|]. destruct RB as (gx & M1 & Ealt & Hg). set (g := FieldModel.d_generated (rn_data (cx c))) in *. destruct K as (_ & _ & _ & Hp & _).
      assert (Rr : is_read (r_body (cx_r c)) = false) by (rewrite Eb; reflexivity). assert (Gr : Forall2 (Rep L) (cx_G c) g) by exact (generated_reps Rr). pose proof (reps_proper _ _ Gr) as Pg.
      intros i e Ei. unfold naming_of. cbn [nm_alternative nm_alias]. fold g. destruct (at_position i (rn_alternatives (cx c))) as [t|] eqn:Ea.
      + right. apply at_position_in in Ea. rewrite Ealt in Ea. pose proof (forall_nth _ _ _ _ Hp Ei) as Pe.
        assert (Range : Forall (fun x => match x with FieldModel.GColumn z => FieldModel.at_index (cx_C c) z <> None | _ => True end) gx).
        { clear -M1 Hp Hc. induction M1 as [|e x es gx M _ IH]; [constructor|]. inversion Hp as [|? ? Pe Hp']; subst. constructor; [|exact (IH Hp')]. destruct x as [z|]; [|exact I]. destruct e as [|?|[z0 ch| | |] r| | | | | | | | | | ]; cbn in M; try (destruct M as (? & M)); try discriminate. injection M as ->. cbn in Pe. destruct ch; [contradiction|]. destruct r; try contradiction.
          unfold in_range in Pe. destruct (pick (cx_F c) z0) as [q|] eqn:Eq; [|congruence]. destruct (rep_pick _ _ _ _ _ (ck_fields _ _ Hc) Eq short_range) as (y & _ & _ & _ & Y & _). congruence. }
        destruct (alternatives_spec (cx_C c) gx [] [] [] (Forall2_nil _) Range ltac:(discriminate) i t Ea) as (z & x & G1 & G2 & ->). cbn [app] in G1. destruct (forall2_nth _ _ _ M1 _ _ Ei) as (gi & G3 & G4). rewrite G1 in G3. injection G3 as <-.
        assert (Ee : e = ESel (SegField z None) RootRef). { destruct e as [|?|[z0 ch| | |] r| | | | | | | | | | ]; cbn in G4; try (destruct G4 as (? & G4)); try discriminate. injection G4 as ->. cbn in Pe. destruct ch; [contradiction|]. destruct r; try contradiction. reflexivity. }
        subst e. cbn in Pe. destruct (Hr eq_refl eq_refl i 0 z Pe) as (n & z' & B1 & B2 & _ & B4 & B5).
        unfold in_range in Pe. destruct (pick (cx_F c) z) as [q|] eqn:Eq; [|congruence]. destruct (rep_pick _ _ _ _ _ (ck_fields _ _ Hc) Eq short_range) as (y & _ & Ey & _ & Y & _ & M). rewrite Y in G2. injection G2 as ->.
        assert (En : n = text_of_column x). { unfold naming_of, nm_field in B1. cbn [N.eqb] in B1. unfold FieldModel.lookupFieldReference in B1. rewrite M, (rc_fields _ _ _ _ _ _ _ _ _ (ck_recorded _ _ Hc) Rr), nth_error_app1 in B1 by (apply nth_error_Some; congruence). rewrite Ey in B1. injection B1 as <-. reflexivity. }
        subst n. exists (text_of_column x), z, z'. split; [reflexivity|]. split; [reflexivity|]. split; [exact B2|]. split; [exact B4|exact B5].
      + left. split; [reflexivity|]. destruct (nth_error g i) as [x|] eqn:Ex; [|exact I]. destruct (FieldModel.nonempty (FieldModel.c_alias x)) eqn:En; [|exact I]. cbn. rewrite Forall_forall in Pg. apply nth_error_In in Ex. destruct (Pg x Ex) as [? ? ?|m a Hm [-> | ->]]; [discriminate En|discriminate En|]. apply Hnew, Hm.
    - exact (Hr eq_refl eq_refl).
    - exact (Hr eq_refl eq_refl).
    - destruct K as (_ & _ & []).
  Qed.
End Reading.
