(** Model of src/substrait/textplan/converter/ReferenceNormalizer.cpp. *)
From Verif Require Import Base ProtoModel.

(** Loops over a repeated field; left to right, the first exception ends the loop. *)
Section MapM.
  Context {A B : Type} (f : A -> outcome B).
  Fixpoint mapM (l : list A) : outcome (list B) :=
    match l with [] => Ok [] | x :: r => y <- f x ;; ys <- mapM r ;; Ok (y :: ys) end.
  (** [if (has_field()) f(mutable_field())]: an absent field stays absent. *)
  Definition optM (o : option A) : outcome (option B) :=
    match o with None => Ok None | Some x => y <- f x ;; Ok (Some y) end.
  (** [f(mutable_field())]: an absent field is created first; [empty] is the result for the empty message. *)
  Definition mutM (empty : B) (o : option A) : outcome (option B) :=
    match o with None => Ok (Some empty) | Some x => y <- f x ;; Ok (Some y) end.
End MapM.

Section Normalize.
  (** The result of [functionReferenceMapping.at(key)]. *)
  Variable at_ : N -> outcome N.

  (** 50-55: only the function itself; an absent measure is created. *)
  Definition nm (m : measure) : outcome measure :=
    match m with
    | Measure (Some (AFun f args sorts old p)) filter => f' <- at_ f ;; Ok (Measure (Some (AFun f' args sorts old p)) filter)
    | Measure None filter => f' <- at_ 0%N ;; Ok (Measure (Some (AFun f' [] [] [] 0%N)) filter)
    end.
  (** ReferenceNormalizer.cpp 57-117 (expressions), 41-48 (arguments), 119-236 (relations).
      A plan changed halfway before an exception is not modelled: only the exception is. *)
  Fixpoint nx (e : expr) : outcome expr :=
    match e with
    | XScalar f args old p => f' <- at_ f ;; args' <- mapM na args ;; Ok (XScalar f' args' old p)       (* 60-66 *)
    | XCast i p => i' <- mutM nx XNone i ;; Ok (XCast i' p)                                              (* 67-69 *)
    | XIf ifs els => ifs' <- mapM nc ifs ;; els' <- optM nx els ;; Ok (XIf ifs' els')                    (* 70-80 *)
    | XSubScalar i => i' <- mutM nr RNone i ;; Ok (XSubScalar i')                                        (* 83-87 *)
    | XSubIn ns h => ns' <- mapM nx ns ;; h' <- mutM nr RNone h ;; Ok (XSubIn ns' h')                    (* 88-99 *)
    | XSubSet t p => t' <- mutM nr RNone t ;; Ok (XSubSet t' p)                                          (* 100-104 *)
    | XSubComp l r p => l' <- mutM nx XNone l ;; r' <- mutM nr RNone r ;; Ok (XSubComp l' r' p)          (* 105-112 *)
    | XNone | XLeaf _ | XField _ _ | XWindow _ _ _ _ _ | XSwitch _ _ _ _ | XOr _ _ | XMulti _ _ | XNested _ _ | XSubNone => Ok e
    end
  with na (a : farg) : outcome farg :=
    match a with AValue e => e' <- nx e ;; Ok (AValue e') | _ => Ok a end
  with nc (c : clause) : outcome clause :=
    match c with Clause i t => i' <- mutM nx XNone i ;; t' <- mutM nx XNone t ;; Ok (Clause i' t') end
  with no (o : sortf) : outcome sortf :=                                                                 (* 151-154 *)
    match o with Sort e p => e' <- mutM nx XNone e ;; Ok (Sort e' p) end
  with nr (r : rel) : outcome rel :=
    match r with
    | RRead filter best p => f' <- optM nx filter ;; b' <- optM nx best ;; Ok (RRead f' b' p)            (* 122-131 *)
    | RFilter i c p => i' <- mutM nr RNone i ;; c' <- optM nx c ;; Ok (RFilter i' c' p)                  (* 132-139 *)
    | RFetch i p => i' <- mutM nr RNone i ;; Ok (RFetch i' p)                                            (* 140-142 *)
    | RAggregate i gs ms p => i' <- mutM nr RNone i ;; ms' <- mapM nm ms ;; Ok (RAggregate i' gs ms' p)  (* 143-149 *)
    | RSort i sorts p => i' <- mutM nr RNone i ;; s' <- mapM no sorts ;; Ok (RSort i' s' p)              (* 150-156 *)
    | RJoin l r c post p => c' <- optM nx c ;; q' <- optM nx post ;; l' <- mutM nr RNone l ;; r' <- mutM nr RNone r ;;
                            Ok (RJoin l' r' c' q' p)                                                     (* 157-171 *)
    | RProject i es p => i' <- mutM nr RNone i ;; es' <- mapM nx es ;; Ok (RProject i' es' p)            (* 172-177 *)
    | RSet ins p => ins' <- mapM nr ins ;; Ok (RSet ins' p)                                              (* 178-181 *)
    | RExtSingle i p => i' <- optM nr i ;; Ok (RExtSingle i' p)                                          (* 182-187 *)
    | RExtMulti ins p => ins' <- mapM nr ins ;; Ok (RExtMulti ins' p)                                    (* 188-191 *)
    | RExtLeaf _ => Ok r                                                                                 (* 192-193 *)
    | RCross l r p => l' <- optM nr l ;; r' <- optM nr r ;; Ok (RCross l' r' p)                          (* 194-202 *)
    | RHashJoin l r post p => l' <- optM nr l ;; r' <- optM nr r ;; q' <- optM nx post ;; Ok (RHashJoin l' r' q' p)    (* 203-218 *)
    | RMergeJoin l r post p => l' <- optM nr l ;; r' <- optM nr r ;; q' <- optM nx post ;; Ok (RMergeJoin l' r' q' p)  (* 219-234 *)
    | RNone | RNestedLoop _ _ _ _ | RWindowRel _ _ _ _ _ | RExchange _ _ | RExpand _ _ _ | RWrite _ _ | RDdl _ _ | RReference _ => Ok r
    end.

  (** 238-258: a root only if it has an input. *)
  Definition nprel (r : prel) : outcome prel :=
    match r with
    | PNone => Ok PNone
    | PRel r => r' <- nr r ;; Ok (PRel r')
    | PRoot i p => i' <- optM nr i ;; Ok (PRoot i' p)
    end.
End Normalize.

(** [std::map<uint32_t, uint32_t>]: [m[k] = v] and lookup. *)
Definition mapping := list (N * N).
Definition mset (k v : N) (m : mapping) : mapping := (k, v) :: m.
Fixpoint mfind (k : N) (m : mapping) : option N :=
  match m with [] => None | (k', v) :: r => if (k' =? k)%N then Some v else mfind k r end.
Definition mat (m : mapping) (k : N) : outcome N :=
  match mfind k m with Some v => Ok v | None => Throw EStdOutOfRange end.

(** [std::string] comparison: bytes as unsigned numbers, shorter first. *)
Fixpoint str_lt (a b : str) : bool :=
  match a, b with
  | _, [] => false
  | [], _ :: _ => true
  | x :: a', y :: b' => (code x <? code y)%N || (ceq x y && str_lt a' b')
  end.
(** 269-274 *)
Definition space_lt (a b : space) : bool := str_lt (sp_uri a) (sp_uri b).
(** 14-30; a declaration that is not a function has the default (empty) extension_function. *)
Definition decl_key (d : decl) : bool * N * str :=
  match d with DFun s _ n => (false, s, n) | DOther _ => (true, 0%N, []) end.
Definition key_lt (a b : bool * N * str) : bool :=
  let '(p, s, n) := a in let '(q, t, k) := b in
  (negb p && q) || (Bool.eqb p q && ((s <? t)%N || ((s =? t)%N && str_lt n k))).
Definition decl_lt (a b : decl) : bool := key_lt (decl_key a) (decl_key b).

(** [std::sort] is not stable and may arrange equivalent elements in any order:
    a pair of sorting procedures is a parameter of the model. *)
Record sorter := { sort_spaces : list space -> list space; sort_decls : list decl -> list decl }.

(** 276-282: numbered from one; returns the mapping and the renumbered spaces. *)
Fixpoint number_spaces (n : N) (m : mapping) (l : list space) : mapping * list space :=
  match l with
  | [] => (m, [])
  | s :: r => let n' := (n + 1)%N in
              let '(m', r') := number_spaces n' (mset (sp_anchor s) n' m) r in
              (m', {| sp_anchor := n'; sp_uri := sp_uri s |} :: r')
  end.
(** 285-292 *)
Definition move_decl (m : mapping) (d : decl) : decl :=
  match d with
  | DFun s a n => match mfind s m with Some s' => DFun s' a n | None => d end
  | DOther _ => d
  end.
(** 262-293 *)
Definition normalizeSpaces (srt : sorter) (p : plan) : plan :=
  let '(m, spaces) := number_spaces 0 [] (sort_spaces srt (p_spaces p)) in
  {| p_spaces := spaces; p_decls := map (move_decl m) (p_decls p); p_rels := p_rels p; p_rest := p_rest p |}.
(** 304-310: numbered from zero.  [mutable_extension_function()] turns any other declaration into an (empty) function. *)
Fixpoint number_decls (n : N) (m : mapping) (l : list decl) : mapping * list decl :=
  match l with
  | [] => (m, [])
  | d :: r => let a := match d with DFun _ a _ => a | DOther _ => 0%N end in
              let d' := match d with DFun s _ k => DFun s n k | DOther _ => DFun 0 n [] end in
              let '(m', r') := number_decls (n + 1) (mset a n m) r in (m', d' :: r')
  end.
(** 295-317 *)
Definition normalizeFunctions (srt : sorter) (p : plan) : outcome plan :=
  let '(m, decls) := number_decls 0 [] (sort_decls srt (p_decls p)) in
  rels <- mapM (nprel (mat m)) (p_rels p) ;;
  Ok {| p_spaces := p_spaces p; p_decls := decls; p_rels := rels; p_rest := p_rest p |}.
(** 319-322 *)
Definition normalize (srt : sorter) (p : plan) : outcome plan := normalizeFunctions srt (normalizeSpaces srt p).
