(** Specification vocabulary and proofs for the reference normaliser: expressions and relations. *)
From Verif Require Import Base BaseFacts ProtoModel NormalizerModel.

(** * Specification: all function calls of a plan *)
(** [Reached]: a call the normaliser claims to update.  [Missed]: a call in a place it does not look at
    (window functions, field references with an expression, deprecated arguments, switch, or-lists, nested values,
    arguments and sorts of measures, measure filters, groupings, and the relations nested loop join, window, exchange,
    expand, write and ddl).  [Implicit]: a measure without a function, which counts as a call of function zero. *)
Inductive mark := Reached | Missed | Implicit.
Definition call := (mark * N)%type.
Definition ocalls {A} (f : A -> list call) (o : option A) : list call := match o with Some x => f x | None => [] end.
Definition if_reached (b : bool) : mark := if b then Reached else Missed.
Fixpoint xcalls (b : bool) (e : expr) : list call :=
  match e with
  | XNone | XLeaf _ | XSubNone => []
  | XField root _ => ocalls (xcalls false) root
  | XScalar f args old _ => (if_reached b, f) :: flat_map (acalls b) args ++ flat_map (xcalls false) old
  | XWindow f args sorts parts _ => (Missed, f) :: flat_map (acalls false) args ++ flat_map (scalls false) sorts ++ flat_map (xcalls false) parts
  | XIf ifs els => flat_map (ccalls b) ifs ++ ocalls (xcalls b) els
  | XSwitch m ifs els _ => ocalls (xcalls false) m ++ flat_map (ocalls (xcalls false)) ifs ++ ocalls (xcalls false) els
  | XOr v opts => ocalls (xcalls false) v ++ flat_map (xcalls false) opts
  | XMulti v opts => flat_map (xcalls false) v ++ flat_map (flat_map (xcalls false)) opts
  | XCast i _ => ocalls (xcalls b) i
  | XNested es _ => flat_map (xcalls false) es
  | XSubScalar i => ocalls (rcalls b) i
  | XSubIn ns h => flat_map (xcalls b) ns ++ ocalls (rcalls b) h
  | XSubSet t _ => ocalls (rcalls b) t
  | XSubComp l r _ => ocalls (xcalls b) l ++ ocalls (rcalls b) r
  end
with acalls (b : bool) (a : farg) : list call := match a with AValue e => xcalls b e | _ => [] end
with ccalls (b : bool) (c : clause) : list call := match c with Clause i t => ocalls (xcalls b) i ++ ocalls (xcalls b) t end
with scalls (b : bool) (o : sortf) : list call := match o with Sort e _ => ocalls (xcalls b) e end
with gcalls (b : bool) (g : afun) : list call :=
  match g with AFun f args sorts old _ =>
    (if_reached b, f) :: flat_map (acalls false) args ++ flat_map (scalls false) sorts ++ flat_map (xcalls false) old end
with mcalls (b : bool) (m : measure) : list call :=
  match m with
  | Measure (Some g) filter => gcalls b g ++ ocalls (xcalls false) filter
  | Measure None filter => (if b then [(Implicit, 0%N)] else []) ++ ocalls (xcalls false) filter
  end
with rcalls (b : bool) (r : rel) : list call :=
  match r with
  | RNone | RExtLeaf _ | RReference _ => []
  | RRead filter best _ => ocalls (xcalls b) filter ++ ocalls (xcalls b) best
  | RFilter i c _ => ocalls (rcalls b) i ++ ocalls (xcalls b) c
  | RFetch i _ | RExtSingle i _ => ocalls (rcalls b) i
  | RAggregate i gs ms _ => ocalls (rcalls b) i ++ flat_map (flat_map (xcalls false)) gs ++ flat_map (mcalls b) ms
  | RSort i sorts _ => ocalls (rcalls b) i ++ flat_map (scalls b) sorts
  | RJoin l r c post _ => ocalls (rcalls b) l ++ ocalls (rcalls b) r ++ ocalls (xcalls b) c ++ ocalls (xcalls b) post
  | RProject i es _ => ocalls (rcalls b) i ++ flat_map (xcalls b) es
  | RSet ins _ | RExtMulti ins _ => flat_map (rcalls b) ins
  | RCross l r _ => ocalls (rcalls b) l ++ ocalls (rcalls b) r
  | RHashJoin l r post _ | RMergeJoin l r post _ => ocalls (rcalls b) l ++ ocalls (rcalls b) r ++ ocalls (xcalls b) post
  | RNestedLoop l r c _ => ocalls (rcalls false) l ++ ocalls (rcalls false) r ++ ocalls (xcalls false) c
  | RWindowRel i fs parts sorts _ =>
      ocalls (rcalls false) i ++ flat_map (gcalls false) fs ++ flat_map (xcalls false) parts ++ flat_map (scalls false) sorts
  | RExchange i _ | RWrite i _ | RDdl i _ => ocalls (rcalls false) i
  | RExpand i es _ => ocalls (rcalls false) i ++ flat_map (xcalls false) es
  end.
Definition pcalls (r : prel) : list call :=
  match r with PNone => [] | PRel r => rcalls true r | PRoot i _ => ocalls (rcalls true) i end.
Definition calls (p : plan) : list call := flat_map pcalls (p_rels p).

(** * Specification: replacing all function references *)
(** With [fill], absent messages that other code may create are made present (and empty). *)
Section Rename.
  Variables (fill : bool) (s : N -> N).
  Definition ormap {A} (f : A -> A) (empty : A) (o : option A) : option A :=
    match o with Some x => Some (f x) | None => if fill then Some empty else None end.
  Definition okeep {A} (f : A -> A) (o : option A) : option A := option_map f o.
  Fixpoint xren (e : expr) : expr :=
    match e with
    | XNone | XLeaf _ | XSubNone => e
    | XField root p => XField (okeep xren root) p
    | XScalar f args old p => XScalar (s f) (map aren args) (map xren old) p
    | XWindow f args sorts parts p => XWindow (s f) (map aren args) (map sren sorts) (map xren parts) p
    | XIf ifs els => XIf (map cren ifs) (okeep xren els)
    | XSwitch m ifs els p => XSwitch (okeep xren m) (map (okeep xren) ifs) (okeep xren els) p
    | XOr v opts => XOr (okeep xren v) (map xren opts)
    | XMulti v opts => XMulti (map xren v) (map (map xren) opts)
    | XCast i p => XCast (ormap xren XNone i) p
    | XNested es p => XNested (map xren es) p
    | XSubScalar i => XSubScalar (ormap rren RNone i)
    | XSubIn ns h => XSubIn (map xren ns) (ormap rren RNone h)
    | XSubSet t p => XSubSet (ormap rren RNone t) p
    | XSubComp l r p => XSubComp (ormap xren XNone l) (ormap rren RNone r) p
    end
  with aren (a : farg) : farg := match a with AValue e => AValue (xren e) | _ => a end
  with cren (c : clause) : clause := match c with Clause i t => Clause (ormap xren XNone i) (ormap xren XNone t) end
  with sren (o : sortf) : sortf := match o with Sort e p => Sort (ormap xren XNone e) p end
  with gren (g : afun) : afun := match g with AFun f args sorts old p => AFun (s f) (map aren args) (map sren sorts) (map xren old) p end
  with mren (m : measure) : measure :=
    match m with Measure g filter => Measure (ormap gren (AFun (s 0%N) [] [] [] 0%N) g) (okeep xren filter) end
  with rren (r : rel) : rel :=
    match r with
    | RNone | RExtLeaf _ | RReference _ => r
    | RRead filter best p => RRead (okeep xren filter) (okeep xren best) p
    | RFilter i c p => RFilter (ormap rren RNone i) (okeep xren c) p
    | RFetch i p => RFetch (ormap rren RNone i) p
    | RExtSingle i p => RExtSingle (okeep rren i) p
    | RAggregate i gs ms p => RAggregate (ormap rren RNone i) (map (map xren) gs) (map mren ms) p
    | RSort i sorts p => RSort (ormap rren RNone i) (map sren sorts) p
    | RJoin l r c post p => RJoin (ormap rren RNone l) (ormap rren RNone r) (okeep xren c) (okeep xren post) p
    | RProject i es p => RProject (ormap rren RNone i) (map xren es) p
    | RSet ins p => RSet (map rren ins) p
    | RExtMulti ins p => RExtMulti (map rren ins) p
    | RCross l r p => RCross (okeep rren l) (okeep rren r) p
    | RHashJoin l r post p => RHashJoin (okeep rren l) (okeep rren r) (okeep xren post) p
    | RMergeJoin l r post p => RMergeJoin (okeep rren l) (okeep rren r) (okeep xren post) p
    | RNestedLoop l r c p => RNestedLoop (okeep rren l) (okeep rren r) (okeep xren c) p
    | RWindowRel i fs parts sorts p => RWindowRel (okeep rren i) (map gren fs) (map xren parts) (map sren sorts) p
    | RExchange i p => RExchange (okeep rren i) p
    | RExpand i es p => RExpand (okeep rren i) (map xren es) p
    | RWrite i p => RWrite (okeep rren i) p
    | RDdl i p => RDdl (okeep rren i) p
    end.
  Definition pren (r : prel) : prel :=
    match r with PNone => PNone | PRel r => PRel (rren r) | PRoot i p => PRoot (okeep rren i) p end.
End Rename.

(** * Loops *)
Lemma mapM_fail {A B} (f : A -> outcome B) (Q : A -> Prop) x l :
  Forall (fun a => (exists b, f a = Ok b) \/ (f a = Throw x /\ Q a)) l ->
  (exists l', mapM f l = Ok l') \/ (mapM f l = Throw x /\ Exists Q l).
Proof.
  induction 1 as [|a l [[b H]|[H q]] _ IH]; cbn [mapM]; [left; eauto| |].
  - rewrite H. cbn [obind]. destruct IH as [[l' ->]|[-> E]]; cbn [obind]; [left; eauto|right; auto].
  - rewrite H. right. auto.
Qed.
Lemma mapM_rel {A B} (f : A -> outcome B) (Q : A -> B -> Prop) l : Forall (fun a => forall b, f a = Ok b -> Q a b) l ->
  forall l', mapM f l = Ok l' -> Forall2 Q l l'.
Proof.
  induction 1 as [|a l Ha _ IH]; cbn [mapM]; intros l' H.
  - injection H as <-. constructor.
  - destruct (f a) as [b| |] eqn:E; try discriminate. cbn [obind] in H. destruct (mapM f l); try discriminate. injection H as <-. constructor; auto.
Qed.
