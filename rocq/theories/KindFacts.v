(** Specification and proofs for the names of relation kinds and the columns of schemas. *)
From Verif Require Import Base BaseFacts SymbolModel TreeModel RelModel KindModel.
From Coq Require Import Lia.

(** * Specification *)
(** How the text format spells the kinds of relations (the grammar's documentation lists them). *)
Inductive Spelled : kind -> str -> Prop :=
| sp_read : Spelled KRead $"read" | sp_filter : Spelled KFilter $"filter" | sp_fetch : Spelled KFetch $"fetch" | sp_aggregate : Spelled KAggregate $"aggregate"
| sp_sort : Spelled KSort $"sort" | sp_project : Spelled KProject $"project" | sp_join : Spelled KJoin $"join" | sp_cross : Spelled KCross $"cross"
| sp_set : Spelled KSet $"set".
(** The names a schema adds: those no symbol has yet, each at its first place. *)
Fixpoint added (known : str -> bool) (names : list str) : list str :=
  match names with
  | [] => []
  | n :: r => if known n then added known r else n :: added (fun x => known x || (n =s x)) r
  end.
Definition known (t : table) (n : str) : bool := match lookupSymbolByName t n with Some _ => true | None => false end.
Definition column (l : loc) (c : str * N) : symbol := new_symbol (fst c) l KField (snd c).
(** The symbol found by a name *)
Definition found (t : table) (n : str) : option symbol := match lookupSymbolByName t n with Some i => nth_error (t_symbols t) i | None => None end.

(** * Kinds *)
Lemma lookup_spelled s k : lookup s relationTypeMap = Some k <-> Spelled k s.
Proof.
  split.
  - cbn -[seq_eqb]. repeat match goal with |- context [?a =s s] => destruct (seq_eqb_spec a s) as [<-|] end; intros E; injection E as <- || discriminate E; constructor.
  - destruct 1; reflexivity.
Qed.
Lemma read_kind s k : visitRelation_type s = Some k <-> Spelled k (to_lower s).
Proof. apply lookup_spelled. Qed.
Lemma printed_kind k : printable k = true -> Spelled k (relTypeCaseName (rel_type_case k)).
Proof. destruct k; try discriminate; intros _; constructor. Qed.
Lemma spelled_lower k s : Spelled k s -> to_lower s = s.
Proof. destruct 1; reflexivity. Qed.
Lemma spelled_one k k' s : Spelled k s -> Spelled k' s -> k = k'.
Proof. destruct 1; intros K; inversion K; auto. Qed.

(** * Columns *)
Lemma added_ext names : forall f g, (forall n, f n = g n) -> added f names = added g names.
Proof.
  induction names as [|n r IH]; intros f g H; cbn; auto. rewrite (H n). destruct (g n); [auto|]. f_equal. apply IH. intros x. rewrite H. reflexivity.
Qed.
Lemma added_all names : forall f, NoDup names -> (forall n, In n names -> f n = false) -> added f names = names.
Proof.
  induction names as [|n r IH]; intros f D H; cbn; auto. inversion D as [|? ? N D']; subst. rewrite (H n) by (left; auto). f_equal. apply IH; auto.
  intros x I. rewrite (H x) by (right; auto). cbn. apply seq_eqb_neq. intros ->. contradiction.
Qed.
Lemma added_In names : forall f n, In n (added f names) <-> In n names /\ f n = false.
Proof.
  induction names as [|m r IH]; intros f n; cbn; [tauto|]. destruct (f m) eqn:E.
  - rewrite IH. split; [intros [I F]; auto|]. intros [[->|I] F]; [congruence|auto].
  - cbn. rewrite IH. destruct (seq_eqb_spec m n) as [->|N].
    + rewrite orb_true_r. split; [intros [_|[_ K]]; [auto|discriminate]|auto].
    + rewrite orb_false_r. split; [intros [->|[I F]]; auto|]. intros [[->|I] F]; auto.
Qed.
Lemma added_NoDup names : forall f, NoDup (added f names).
Proof.
  induction names as [|m r IH]; intros f; cbn; [constructor|]. destruct (f m); auto. constructor; auto. rewrite added_In, seq_eqb_refl, orb_true_r. intros [_ K]. discriminate.
Qed.
Lemma lookup_app {A} k (m m' : list (str * A)) : lookup k (m ++ m') = match lookup k m with Some v => Some v | None => lookup k m' end.
Proof. induction m as [|[k' v] m IH]; cbn; auto. destruct (k' =s k); auto. Qed.
Lemma lookup_insert {A} k (v : A) m n : lookup n (insert k v m) = match lookup n m with Some w => Some w | None => if k =s n then Some v else None end.
Proof.
  unfold insert. destruct (lookup k m) eqn:E.
  - destruct (lookup n m) eqn:F; auto. destruct (seq_eqb_spec k n) as [->|]; [congruence|auto].
  - rewrite lookup_app. destruct (lookup n m); auto.
Qed.
Lemma known_define t name l ty b n : known (fst (defineSymbol t name l ty b)) n = known t n || (name =s n).
Proof. unfold known, lookupSymbolByName. cbn [defineSymbol fst t_byname]. rewrite lookup_insert. destruct (lookup n (t_byname t)); auto. destruct (name =s n); auto. Qed.

Lemma visit_names l types names : forall t k, k <= length types ->
  let new := added (known t) names in let r := visitNames t l k types names in
  t_symbols (fst r) = t_symbols t ++ map (column l) (combine new (skipn k types)) /\
  snd r = (if length types - k <? length new then Some (length types) else None) /\
  (forall n i, lookupSymbolByName t n = Some i -> lookupSymbolByName (fst r) n = Some i) /\
  (forall n i, nth_error (combine new (skipn k types)) i = Some n -> lookupSymbolByName (fst r) (fst n) = Some (length (t_symbols t) + i)) /\
  (forall n, lookupSymbolByName t n = None -> ~ In n (map fst (combine new (skipn k types))) -> lookupSymbolByName (fst r) n = None).
Proof.
  induction names as [|name r IH]; intros t k L; cbn zeta.
  - cbn. rewrite app_nil_r. repeat split; auto. intros n [|i] H; discriminate.
  - unfold known at 1 2 3 4. cbn [visitNames added]. destruct (lookupSymbolByName t name) as [j|] eqn:E; [exact (IH t k L)|].
    destruct (nth_error types k) as [ty|] eqn:F.
    + assert (L' : S k <= length types) by (assert (k < length types) by (apply nth_error_Some; congruence); lia).
      assert (Sk : skipn k types = ty :: skipn (S k) types).
      { clear -F. revert k F. induction types as [|a types IHt]; intros [|k] F; try discriminate; cbn in *; [congruence|]. rewrite (IHt _ F). destruct types; auto. }
      specialize (IH (fst (defineSymbol t name l KField ty)) (S k) L'). cbn zeta in IH.
      rewrite (added_ext _ _ (fun x => known t x || (name =s x))) in IH by apply known_define.
      set (t1 := fst (defineSymbol t name l KField ty)) in *. unfold known in IH. fold (known t) in *.
      destruct IH as (H1 & H2 & H3 & H4 & H5). rewrite Sk. cbn [combine map length]. repeat split.
      * rewrite H1. unfold t1. cbn. rewrite <- app_assoc. reflexivity.
      * rewrite H2. destruct (length types - S k <? _) eqn:A; destruct (length types - k <? S _) eqn:B; auto; apply Nat.ltb_lt in A || apply Nat.ltb_ge in A; apply Nat.ltb_lt in B || apply Nat.ltb_ge in B; exfalso; unfold known in *; lia.
      * intros n i K. apply H3. unfold t1, lookupSymbolByName. cbn. rewrite lookup_insert. unfold lookupSymbolByName in K. rewrite K. auto.
      * intros n [|i] K.
        -- injection K as <-. rewrite Nat.add_0_r. cbn [fst]. apply H3. unfold t1, lookupSymbolByName. cbn. rewrite lookup_insert. unfold lookupSymbolByName in E. rewrite E, seq_eqb_refl. auto.
        -- cbn in K. rewrite (H4 _ _ K). unfold t1. cbn. rewrite app_length. cbn. f_equal. lia.
      * intros n K I. apply H5; [|intros J; apply I; right; exact J]. unfold t1, lookupSymbolByName. cbn. rewrite lookup_insert. unfold lookupSymbolByName in K. rewrite K.
        destruct (seq_eqb_spec name n) as [->|]; auto. destruct I. left. auto.
    + assert (k = length types) by (apply nth_error_None in F; lia). subst k. rewrite Nat.sub_diag, skipn_all. cbn. rewrite app_nil_r.
      repeat split; auto. intros n [|i] K; discriminate.
Qed.
