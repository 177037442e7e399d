(** Specification and proofs for format detection, loading and the C interface. *)
From Verif Require Import Base BaseFacts IoModel.
From Coq Require Import ZArith Lia ZifyBool ZifyNat ZifyN.

(** * Specification *)
Definition contains (s w : str) : Prop := exists a b, s = a ++ w ++ b.
Definition line_start (a : str) : Prop := a = [] \/ exists a', a = a' ++ [newline].
(** Some line of [s] starts with a text of which [P] holds. *)
Definition line_begins (s : str) (P : str -> Prop) : Prop := exists a k b, s = a ++ k ++ b /\ line_start a /\ P k.
Definition looks_json (s : str) : Prop := exists w, In w [$"extensionUris"; $"extension_uris"; $"extensions"; $"relations"] /\ contains s ([ascii_of_N 34] ++ w ++ [ascii_of_N 34]).
Definition looks_prototext (s : str) : Prop :=
  line_begins s (fun k => exists w, In w [$"relations"; $"extensions"; $"extension_uris"; $"expected_type_urls"] /\ k = w ++ $" {").
Definition small_letters (w : str) : Prop := w <> [] /\ Forall (fun c => (97 <= code c <= 122)%N) w.
Definition looks_text (s : str) : Prop :=
  line_begins s (fun k => exists n kw, k = repeat " "%char n ++ kw /\
    (In kw [$"pipelines"; $"schema"; $"source"; $"extension_space"] \/ (exists w m, kw = w ++ repeat " "%char m ++ $"relation" /\ small_letters w))).
(** Equal up to the case of ASCII letters. *)
Definition same_ci (a b : ascii) : Prop :=
  a = b \/ ((65 <= code a <= 90)%N /\ code b = (code a + 32)%N) \/ ((65 <= code b <= 90)%N /\ code a = (code b + 32)%N).

(** * The meaning of regular expressions *)
Inductive M : re -> pos -> pos -> Prop :=
| M_eps p : M REps p p
| M_char f c s : M (RChar c) (f, c :: s) (false, s)
| M_range f lo hi c s : (code lo <= code c <= code hi)%N -> M (RRange lo hi) (f, c :: s) (false, s)
| M_bol s : M RBol (true, s) (true, s)
| M_seq a b p q r : M a p q -> M b q r -> M (RSeq a b) p r
| M_altl a b p q : M a p q -> M (RAlt a b) p q
| M_altr a b p q : M b p q -> M (RAlt a b) p q
| M_star0 a p : M (RStar a) p p
| M_star1 a p q r : M a p q -> M (RStar a) q r -> M (RStar a) p r.
Lemma M_len r p q : M r p q -> q = p \/ length (snd q) < length (snd p).
Proof.
  induction 1; cbn; auto; try lia.
  - destruct IHM1 as [->|H1]; auto. destruct IHM2 as [->|H2]; auto. right. lia.
  - destruct IHM1 as [->|H1]; auto. destruct IHM2 as [->|H2]; auto. right. lia.
Qed.
Lemma ends_M r : forall p q, In q (ends r p) <-> M r p q.
Proof.
  induction r as [c|lo hi| |a IHa b IHb|a IHa b IHb|a IHa|]; intros [f s] q; cbn [ends fst snd].
  - split.
    + destruct s as [|x s]; [intros []|]. destruct (ceq x c) eqn:E; [|intros []]. apply ceq_true in E. subst. intros [<-|[]]. constructor.
    + inversion 1; subst. rewrite ceq_refl. left. auto.
  - split.
    + destruct s as [|x s]; [intros []|]. destruct ((code lo <=? code x) && (code x <=? code hi))%N eqn:E; [|intros []]. apply andb_true_iff in E. rewrite !N.leb_le in E. intros [<-|[]]. constructor. exact E.
    + inversion 1 as [| |? ? ? c ? R| | | | | |]; subst. replace ((code lo <=? code c) && (code c <=? code hi))%N with true; [left; auto|]. symmetry. apply andb_true_iff. rewrite !N.leb_le. exact R.
  - split; [destruct f; [intros [<-|[]]; constructor|intros []]|]. inversion 1; subst. left. auto.
  - rewrite in_flat_map. split.
    + intros (k & I & J). apply IHa in I. apply IHb in J. econstructor; eauto.
    + inversion 1; subst. match goal with K : M a _ ?k |- _ => exists k end. split; [apply IHa|apply IHb]; auto.
  - rewrite in_app_iff, IHa, IHb. split; [intros [?|?]; [apply M_altl|apply M_altr]; auto|inversion 1; subst; auto].
  - assert (G : forall n p, length (snd p) <= n -> forall q, In q ((fix go (n : nat) (p : pos) : list pos :=
         p :: match n with 0 => [] | S n' => flat_map (go n') (filter (fun q => length (snd q) <? length (snd p)) (ends a p)) end) n p) <-> M (RStar a) p q).
    { induction n as [|n IHn]; intros p L q0.
      - cbn. split; [intros [<-|[]]; constructor|]. intros K. destruct (M_len _ _ _ K) as [->|?]; auto. exfalso. eapply Nat.nlt_0_r, Nat.lt_le_trans; eassumption.
      - split.
        + intros [<-|I]; [constructor|]. apply in_flat_map in I as (k & I & J). apply filter_In in I as [I Lk]. apply Nat.ltb_lt in Lk.
          apply IHa in I. apply IHn in J; [|eapply Nat.lt_succ_r, Nat.lt_le_trans; eassumption]. econstructor; eauto.
        + intros K. remember (RStar a) as ra eqn:Er. revert L. induction K; try discriminate; injection Er as ->; intros L; [left; auto|].
          destruct (M_len _ _ _ K1) as [->|Lt]; [auto|]. right. apply in_flat_map. match goal with K : M a _ ?k |- _ => exists k end. split; [apply filter_In; split; [apply IHa; auto|apply Nat.ltb_lt; auto]|].
          apply IHn; [eapply Nat.lt_succ_r, Nat.lt_le_trans; eassumption|]. auto. }
    apply (G (length s) (f, s)). auto.
  - split; [intros [<-|[]]; constructor|]. inversion 1; subst. left. auto.
Qed.
Lemma no_ends r p q : ends r p = [] -> M r p q -> False.
Proof. intros E H. apply ends_M in H. rewrite E in H. destruct H. Qed.
Lemma some_end r p q l : ends r p = q :: l -> M r p q.
Proof. intros E. apply ends_M. rewrite E. left. auto. Qed.
Lemma search_M r s : forall start, search_from start r s = true <-> exists a b q, s = a ++ b /\ M r ((match a with [] => start | _ => false end), b) q.
Proof.
  induction s as [|c s IH]; intros start; cbn [search_from].
  - match goal with |- context [match ends r ?p with _ => _ end] => destruct (ends r p) as [|q l] eqn:E end.
    + split; [intros D; discriminate D|]. intros (a & b & q & E' & H). symmetry in E'. apply app_eq_nil in E' as [-> ->]. destruct (no_ends _ _ _ E H).
    + split; auto. intros _. exists [], [], q. split; auto. exact (some_end _ _ _ _ E).
  - match goal with |- context [match ends r ?p with _ => _ end] => destruct (ends r p) as [|q l] eqn:E end.
    + rewrite IH. split.
      * intros (a & b & q & -> & H). exists (c :: a), b, q. split; auto. destruct a; auto.
      * intros (a & b & q & E' & H). destruct a as [|x a]; cbn in *; [subst b; destruct (no_ends _ _ _ E H)|].
        injection E' as <- ->. exists a, b, q. split; auto. destruct a; auto.
    + split; auto. intros _. exists [], (c :: s), q. split; auto. exact (some_end _ _ _ _ E).
Qed.
Lemma M_word w : forall f s q, M (RWord w) (f, s) q <-> exists b, s = w ++ b /\ q = ((match w with [] => f | _ => false end), b).
Proof.
  induction w as [|c w IH]; intros f s q; cbn [RWord].
  - split; [inversion 1; subst; exists s; auto|]. intros (b & -> & ->). constructor.
  - split.
    + inversion 1 as [| | | |? ? ? ? ? K1 K2| | | |]; subst. inversion K1; subst. apply IH in K2 as (b & -> & ->). exists b. cbn. split; auto. destruct w; auto.
    + intros (b & -> & ->). cbn. econstructor; [constructor|]. apply IH. exists b. split; auto. destruct w; auto.
Qed.
Lemma M_any l : forall p q, M (RAny l) p q <-> exists r, In r l /\ M r p q.
Proof.
  induction l as [|x [|y l] IH]; intros p q.
  - cbn. split; [|intros (r & [] & _)]. inversion 1 as [| |? ? ? c ? R| | | | | |]; subst. exfalso. change (code "1") with 49%N in R. change (code "0") with 48%N in R. lia.
  - cbn. split; [exists x; auto|]. intros (r & [->|[]] & H). auto.
  - change (RAny (x :: y :: l)) with (RAlt x (RAny (y :: l))). split.
    + inversion 1 as [| | | | |? ? ? ? K|? ? ? ? K| |]; subst; [exists x; split; [left|]; auto|]. apply (proj1 (IH _ _)) in K as (r & I & K). exists r. split; [right|]; auto.
    + intros (r & [->|I] & H); [apply M_altl; auto|]. apply M_altr, IH. eauto.
Qed.

(** * The three expressions *)
Lemma M_bol_iff f s q : M bol (f, s) q <-> (f = true /\ q = (true, s)) \/ (exists b, s = newline :: b /\ q = (false, b)).
Proof.
  unfold bol. split.
  - inversion 1 as [| | | | |? ? ? ? K|? ? ? ? K| |]; subst; inversion K; subst; [left; auto|right; eauto].
  - intros [[-> ->]|(b & -> & ->)]; [apply M_altl; constructor|apply M_altr; constructor].
Qed.
Lemma M_seq_iff a b p r : M (RSeq a b) p r <-> exists q, M a p q /\ M b q r.
Proof. split; [inversion 1; subst; eauto|intros (q & H & K); econstructor; eauto]. Qed.
Lemma M_start r p q : M r p q -> fst p = false -> (q = p /\ M r (true, snd p) (true, snd p)) \/ (fst q = false /\ M r (true, snd p) q).
Proof.
  induction 1 as [p|f c s|f lo hi c s R|s|a b p q r H IH K IK|a b p q H IH|a b p q H IH|a p|a p q r H IH K IK]; cbn; intros F; try discriminate.
  - left. split; auto. constructor.
  - right. split; auto. constructor.
  - right. split; auto. constructor. auto.
  - destruct (IH F) as [[-> S]|[F' S]].
    + destruct (IK F) as [[-> S']|[F' S']]; [left|right]; split; auto; econstructor; eauto.
    + destruct (IK F') as [[-> S']|[F'' S']]; right; split; auto; econstructor; eauto.
  - destruct (IH F) as [[-> S]|[F' S]]; [left|right]; split; auto; apply M_altl; auto.
  - destruct (IH F) as [[-> S]|[F' S]]; [left|right]; split; auto; apply M_altr; auto.
  - left. split; auto. constructor.
  - destruct (IH F) as [[-> S]|[F' S]].
    + destruct (IK F) as [[-> S']|[F' S']]; [left|right]; split; auto.
    + destruct (IK F') as [[-> S']|[F'' S']]; right; split; auto; econstructor; eauto.
Qed.
(** A search for something at the start of a line. *)
Lemma search_line r s : regex_search (RSeq bol r) s = true <-> exists a b f q, s = a ++ b /\ line_start a /\ (f = true -> a = []) /\ M r (f, b) q.
Proof.
  unfold regex_search. rewrite search_M. split.
  - intros (a & b & q & -> & H). apply M_seq_iff in H as (k & H & K). apply M_bol_iff in H as [[F ->]|(b' & -> & ->)].
    + destruct a; [|discriminate]. exists [], b, true, q. repeat split; auto. left. auto.
    + exists (a ++ [newline]), b', false, q. rewrite <- app_assoc. repeat split; auto; [right; eauto|discriminate].
  - intros (a & b & f & q & -> & [->|[a' ->]] & F & K).
    + destruct f.
      * exists [], b, q. split; auto. apply M_seq_iff. exists (true, b). split; auto. apply M_bol_iff. auto.
      * exists [], b. assert (exists q', M r (true, b) q') as [q' K'] by (destruct (M_start _ _ _ K eq_refl) as [[_ S]|[_ S]]; eauto). exists q'. split; auto. apply M_seq_iff. exists (true, b). split; auto. apply M_bol_iff. auto.
    + destruct f; [exfalso; specialize (F eq_refl); destruct a'; discriminate|].
      exists a', (newline :: b), q. rewrite <- app_assoc. split; auto. apply M_seq_iff. exists (false, b). split; auto. apply M_bol_iff. right. eauto.
Qed.
(** The language of an expression without ^. *)
Definition Lang (r : re) (P : str -> Prop) : Prop := forall f s t, (exists g, M r (f, s) (g, t)) <-> exists k, s = k ++ t /\ P k.
Lemma Lang_iff r P Q : (forall k, P k <-> Q k) -> Lang r P -> Lang r Q.
Proof. intros E H f s t. rewrite (H f s t). split; intros (k & -> & K); exists k; (split; [auto|apply E; auto]). Qed.
Lemma Lang_eps : Lang REps (fun k => k = []).
Proof. intros f s t. split; [intros [g H]; inversion H; subst; exists []; auto|]. intros (k & -> & ->). exists f. constructor. Qed.
Lemma Lang_char c : Lang (RChar c) (fun k => k = [c]).
Proof. intros f s t. split; [intros [g H]; inversion H; subst; exists [c]; auto|]. intros (k & -> & ->). exists false. constructor. Qed.
Lemma Lang_range lo hi : Lang (RRange lo hi) (fun k => exists c, k = [c] /\ (code lo <= code c <= code hi)%N).
Proof.
  intros f s t. split.
  - intros [g H]. inversion H as [| |? ? ? c ? R| | | | | |]; subst. exists [c]. eauto.
  - intros (k & -> & c & -> & R). exists false. constructor. auto.
Qed.
Lemma Lang_seq a b P Q : Lang a P -> Lang b Q -> Lang (RSeq a b) (fun k => exists x y, k = x ++ y /\ P x /\ Q y).
Proof.
  intros A B f s t. split.
  - intros [g H]. apply M_seq_iff in H as ([f' s'] & H & K). destruct (proj1 (A f s s')) as (x & -> & Px); [eauto|]. destruct (proj1 (B f' s' t)) as (y & -> & Qy); [eauto|].
    exists (x ++ y). rewrite <- app_assoc. split; eauto.
  - intros (k & -> & x & y & -> & Px & Qy). rewrite <- app_assoc. destruct (proj2 (A f (x ++ y ++ t) (y ++ t))) as [f' H]; [eauto|].
    destruct (proj2 (B f' (y ++ t) t)) as [g K]; [eauto|]. exists g. apply M_seq_iff. eauto.
Qed.
Lemma Lang_alt a b P Q : Lang a P -> Lang b Q -> Lang (RAlt a b) (fun k => P k \/ Q k).
Proof.
  intros A B f s t. split.
  - intros [g H]. inversion H as [| | | | |? ? ? ? K|? ? ? ? K| |]; subst; [destruct (proj1 (A f s t)) as (k & -> & W)|destruct (proj1 (B f s t)) as (k & -> & W)]; eauto.
  - intros (k & -> & [W|W]); [destruct (proj2 (A f (k ++ t) t)) as [g K]|destruct (proj2 (B f (k ++ t) t)) as [g K]]; eauto; exists g; [apply M_altl|apply M_altr]; auto.
Qed.
Lemma Lang_word w : Lang (RWord w) (fun k => k = w).
Proof.
  induction w as [|c w IH]; [apply Lang_eps|]. cbn [RWord]. eapply Lang_iff; [|apply Lang_seq; [apply Lang_char|exact IH]].
  intros k. split; [intros (x & y & -> & -> & ->); auto|]. intros ->. exists [c], w. auto.
Qed.
Lemma Lang_any l : forall Ps, Forall2 Lang l Ps -> Lang (RAny l) (fun k => exists P, In P Ps /\ P k).
Proof.
  induction l as [|x l IH]; intros Ps H; inversion H as [|? P ? Ps' Hx Hl]; subst.
  - eapply Lang_iff; [|apply (Lang_range "1" "0")]. intros k. change (code "1") with 49%N. change (code "0") with 48%N. split; [intros (c & _ & R); exfalso; lia|intros (P & [] & _)].
  - destruct l as [|y l].
    + inversion Hl; subst. eapply Lang_iff; [|exact Hx]. intros k. split; [intros K; exists P; cbn; auto|]. intros (Q & [->|[]] & K). auto.
    + change (RAny (x :: y :: l)) with (RAlt x (RAny (y :: l))). eapply Lang_iff; [|apply Lang_alt; [exact Hx|apply IH; exact Hl]].
      intros k. split; [intros [K|(Q & I & K)]; [exists P|exists Q]; cbn; auto|]. intros (Q & [->|I] & K); eauto.
Qed.
Lemma Lang_words l : Lang (RAny (map RWord l)) (fun k => In k l).
Proof.
  eapply Lang_iff; [|apply (Lang_any _ (map (fun w k => k = w) l))].
  - intros k. split.
    + intros (P & I & K). apply in_map_iff in I as (w & <- & I). subst. auto.
    + intros I. exists (fun k' => k' = k). split; auto. apply in_map_iff. eauto.
  - induction l; cbn; constructor; auto. apply Lang_word.
Qed.
Lemma Lang_star a (C : ascii -> Prop) : Lang a (fun k => exists c, k = [c] /\ C c) -> Lang (RStar a) (Forall C).
Proof.
  intros A f s t. split.
  - intros [g H]. remember (RStar a) as ra eqn:Er. remember (f, s) as p eqn:Ep. remember (g, t) as q eqn:Eq. revert f s Ep.
    induction H; try discriminate; injection Er as ->; intros f0 s0 ->.
    + injection Eq as -> ->. exists []. auto.
    + destruct q as [f1 s1]. destruct (proj1 (A f0 s0 s1)) as (k & -> & c & -> & Cc); [eauto|]. destruct (IHM2 eq_refl Eq _ _ eq_refl) as (k & -> & Fk). exists (c :: k). auto.
  - intros (k & -> & F). revert f. induction F as [|c k Cc F IH]; intros f; [exists f; constructor|].
    destruct (proj2 (A f ((c :: k) ++ t) (k ++ t))) as [f' H]; [exists [c]; eauto|]. destruct (IH f') as [g K]. exists g. econstructor; eauto.
Qed.
Lemma Forall_repeat (c : ascii) k : Forall (fun x => x = c) k <-> exists n, k = repeat c n.
Proof.
  split; [|intros [n ->]; induction n; cbn; auto]. induction 1 as [|x k -> _ [n ->]]; [exists 0; auto|exists (S n); auto].
Qed.
Lemma Lang_spaces : Lang spaces (fun k => exists n, k = repeat " "%char n).
Proof.
  eapply Lang_iff; [|apply (Lang_star _ (fun c => c = " "%char))]; [intros k; apply Forall_repeat|].
  eapply Lang_iff; [|apply Lang_char]. intros k. split; [intros ->; eauto|intros (c & -> & ->); auto].
Qed.

Lemma json_iff s : regex_search kIsJson s = true <-> looks_json s.
Proof.
  unfold regex_search. rewrite search_M. unfold kIsJson. pose proof (Lang_words [$"""extensionUris"""; $"""extension_uris"""; $"""extensions"""; $"""relations"""]) as L. split.
  - intros (a & b & [g t] & -> & H). destruct (proj1 (L (match a with [] => true | _ => false end) b t)) as (k & -> & I); [eauto|].
    assert (exists w, In w [$"extensionUris"; $"extension_uris"; $"extensions"; $"relations"] /\ k = [ascii_of_N 34] ++ w ++ [ascii_of_N 34]) as (w & Iw & ->).
    { destruct I as [<-|[<-|[<-|[<-|[]]]]]; [exists $"extensionUris"|exists $"extension_uris"|exists $"extensions"|exists $"relations"]; (split; [cbn; auto|reflexivity]). }
    exists w. split; auto. exists a, t. auto.
  - intros (w & I & a & b & ->). exists a, (([ascii_of_N 34] ++ w ++ [ascii_of_N 34]) ++ b).
    destruct (proj2 (L (match a with [] => true | _ => false end) (([ascii_of_N 34] ++ w ++ [ascii_of_N 34]) ++ b) b)) as [g K]; [|eauto].
    eexists. split; [reflexivity|]. destruct I as [<-|[<-|[<-|[<-|[]]]]]; cbn; auto.
Qed.
Lemma line_iff r P s : Lang r P -> (regex_search (RSeq bol r) s = true <-> line_begins s P).
Proof.
  intros L. rewrite search_line. split.
  - intros (a & b & f & [g t] & -> & S & F & K). destruct (proj1 (L f b t)) as (k & -> & Pk); [eauto|]. exists a, k, t. auto.
  - intros (a & k & b & -> & S & Pk). destruct (proj2 (L false (k ++ b) b)) as [g K]; [eauto|]. exists a, (k ++ b), false, (g, b). repeat split; auto. discriminate.
Qed.
Lemma prototext_iff s : regex_search kIsProtoText s = true <-> looks_prototext s.
Proof.
  unfold kIsProtoText. apply line_iff. eapply Lang_iff; [|apply Lang_seq; [apply Lang_words|apply Lang_word]].
  intros k. split; [intros (x & y & -> & I & ->); eauto|intros (w & I & ->); eauto].
Qed.
Lemma line_begins_iff s (P Q : str -> Prop) : (forall k, P k -> exists x y, k = x ++ y /\ Q x) -> (forall k, Q k -> P k) -> (line_begins s P <-> line_begins s Q).
Proof.
  intros A B. split; intros (a & k & b & -> & S & K); [|exists a, k, b; auto].
  destruct (A k K) as (x & y & -> & Qx). exists a, x, (y ++ b). rewrite <- app_assoc. auto.
Qed.
Lemma text_iff s : regex_search kIsText s = true <-> looks_text s.
Proof.
  unfold kIsText. etransitivity.
  - apply line_iff. apply Lang_seq; [apply Lang_spaces|]. apply Lang_seq; [|apply Lang_spaces]. apply Lang_any. constructor; [apply Lang_word|]. constructor.
    { apply Lang_seq; [|apply Lang_seq; [apply Lang_spaces|apply Lang_word]]. apply Lang_seq; [apply Lang_range|apply Lang_star; apply Lang_range]. }
    constructor; [apply Lang_word|]. constructor; [apply Lang_word|]. constructor; [apply Lang_word|]. constructor.
  - apply line_begins_iff.
    + intros k (x & y & -> & [n ->] & kw & z & -> & (P & I & K) & [m ->]). exists (repeat " "%char n ++ kw), (repeat " "%char m). rewrite app_assoc. split; auto.
      exists n, kw. split; auto. destruct I as [<-|[<-|[<-|[<-|[<-|[]]]]]].
      * subst. left. cbn; auto.
      * right. destruct K as (w & y & -> & (u & v & -> & (c & -> & R) & F) & i & j & -> & [l ->] & ->). exists ([c] ++ v), l. split; auto. split; [discriminate|]. constructor; auto.
      * subst. left. cbn; auto.
      * subst. left. cbn; auto.
      * subst. left. cbn; auto.
    + intros k (n & kw & -> & H). exists (repeat " "%char n), kw. split; auto. split; [eauto|]. exists kw, []. rewrite app_nil_r. split; auto. split; [|exists 0; auto].
      destruct H as [I|(w & m & -> & NE & F)].
      * destruct I as [<-|[<-|[<-|[<-|[]]]]]; eexists; (split; [|cbv beta]).
        1: left; reflexivity. 1: reflexivity. 1: do 2 right; left; reflexivity. 1: reflexivity. 1: do 3 right; left; reflexivity. 1: reflexivity. 1: do 4 right; left; reflexivity. reflexivity.
      * eexists. split; [right; left; reflexivity|]. cbn beta. destruct w as [|c w]; [congruence|]. inversion F as [|? ? Hc Hw]; subst. exists (c :: w), (repeat " "%char m ++ $"relation"). split; auto. split.
        { exists [c], w. repeat split; auto. exists c. auto. }
        { exists (repeat " "%char m), $"relation". split; auto. split; eauto. }
Qed.

(** * Detection *)
Definition looks (f : format) (s : str) : Prop :=
  match f with
  | FJson => looks_json s
  | FProtoText => ~ looks_json s /\ looks_prototext s
  | FText => ~ looks_json s /\ ~ looks_prototext s /\ looks_text s
  | FBinary => ~ looks_json s /\ ~ looks_prototext s /\ ~ looks_text s
  end.
Lemma detect_iff s f : detectFormat s = f <-> looks f s.
Proof.
  unfold detectFormat, looks. pose proof (json_iff s) as J. pose proof (prototext_iff s) as P. pose proof (text_iff s) as T.
  destruct (regex_search kIsJson s), (regex_search kIsProtoText s), (regex_search kIsText s), f; intuition congruence.
Qed.
(** Every protobuf message with a length-delimited first field that starts with a text plan keyword is mistaken for a text plan:
    the tag of that field is a newline. *)
Lemma newline_marker a k b : In k [$"pipelines"; $"schema"; $"source"; $"extension_space"] -> detectFormat (a ++ [newline] ++ repeat " "%char 1 ++ k ++ b) <> FBinary.
Proof.
  intros I H. apply detect_iff in H as (_ & _ & T). apply T. exists (a ++ [newline]), (repeat " "%char 1 ++ k), b. rewrite <- !app_assoc. split; auto. split; [right; eauto|].
  exists 1, k. auto.
Qed.
Lemma no_quote s : ~ In (ascii_of_N 34) s -> ~ looks_json s.
Proof. intros N0 (w & _ & a & b & ->). apply N0. apply in_or_app. right. left. auto. Qed.

(** * Format names *)
Definition same_text (a b : str) : Prop := Forall2 same_ci a b.
Definition format_name (f : format) : str := match f with FBinary => $"binary" | FJson => $"json" | FProtoText => $"prototext" | FText => $"text" end.
Lemma lower_ci c x : (97 <= code x <= 122)%N -> (lower c = x <-> same_ci c x).
Proof.
  intros R. unfold lower, is_upper, same_ci. destruct ((65 <=? code c) && (code c <=? 90))%N eqn:E.
  - assert (C : code (ascii_of_N (code c + 32)) = (code c + 32)%N) by (apply code_of_N; lia). split.
    + intros <-. right. left. lia.
    + intros [->|[H|H]]; [lia| |lia]. apply code_inj. lia.
  - split; [auto|]. intros [->|[H|H]]; auto; lia.
Qed.
Lemma to_lower_ci w : Forall (fun x => (97 <= code x <= 122)%N) w -> forall t, to_lower t = w <-> same_text t w.
Proof.
  induction 1 as [|x w R _ IH]; intros t.
  - destruct t; cbn; split; intros H; [constructor|auto|discriminate|inversion H].
  - destruct t as [|c t]; cbn.
    + split; [discriminate|inversion 1].
    + split.
      * intros H. injection H as H1 H2. constructor; [apply lower_ci; auto|apply IH; exact H2].
      * intros H. inversion H; subst. f_equal; [apply lower_ci; auto|apply IH; auto].
Qed.
Lemma name_small f : Forall (fun x => (97 <= code x <= 122)%N) (format_name f).
Proof. apply Forall_forall. intros x I. assert (K : forallb (fun x => (97 <=? code x) && (code x <=? 122))%N (format_name f) = true) by (destruct f; reflexivity). rewrite forallb_forall in K. specialize (K x I). lia. Qed.
Lemma format_named f t : same_text t (format_name f) -> planFileFormatFromText t = f.
Proof. intros H. apply to_lower_ci in H; [|apply name_small]. unfold planFileFormatFromText. rewrite H. destruct f; reflexivity. Qed.
Lemma format_other t : (forall f, ~ same_text t (format_name f)) -> planFileFormatFromText t = FText.
Proof.
  intros H. unfold planFileFormatFromText.
  assert (G : forall f, (to_lower t =s format_name f) = false). { intros f. apply seq_eqb_neq. intros E. apply to_lower_ci in E; [|apply name_small]. eapply H; eauto. }
  pose proof (G FBinary) as G1. pose proof (G FJson) as G2. pose proof (G FProtoText) as G3. pose proof (G FText) as G4. cbn [format_name] in *. rewrite G1, G2, G3, G4. auto.
Qed.

(** * JSON comments *)
(** The text before and from the first newline. *)
Definition split_line (s line rest : str) : Prop := s = line ++ rest /\ ~ In newline line /\ (rest = [] \/ exists r, rest = newline :: r).
Lemma drop_line_iff s : forall r, drop_line s = r <-> exists line, split_line s line r.
Proof.
  induction s as [|c s IH]; intros r; cbn [drop_line].
  - split; [intros <-; exists []; repeat split; auto|]. intros (l & E & _). symmetry in E. apply app_eq_nil in E. destruct E as [_ ->]. auto.
  - destruct (ceq c newline) eqn:E.
    + apply ceq_true in E. subst. split; [intros <-; exists []; repeat split; eauto|]. intros ([|x l] & E & N0 & _); [auto|]. injection E as <- _. destruct N0. left. auto.
    + rewrite IH. split.
      * intros (l & -> & N0 & R). exists (c :: l). repeat split; auto. intros [->|I]; auto. rewrite ceq_refl in E. discriminate.
      * intros ([|x l] & E' & N0 & R).
        { destruct R as [->|[r' ->]]; [discriminate|]. injection E' as -> _. rewrite ceq_refl in E. discriminate. }
        injection E' as <- ->. exists l. repeat split; auto. intros I. apply N0. right. auto.
Qed.

(** * The C interface *)
Section C.
  Context {plan : Type} (parse_json parse_prototext parse_binary parse_text : str -> status plan) (serialize : plan -> str).
  Let load := load_substrait_plan plan parse_json parse_prototext parse_binary parse_text serialize.
  Let lp := loadPlan plan parse_json parse_prototext parse_binary parse_text.
  Definition wf (m : memory) : Prop := Forall (fun b => fst b < next m) (live m).
  (** The bytes of a C string. *)
  Definition is_cstring (bytes s : str) : Prop := exists rest, bytes = s ++ zero :: rest /\ ~ In zero s.
  Lemma land_small n : (0 <= n < 2147483648)%Z -> Z.land n int32_max = n.
  Proof. intros H. change int32_max with (Z.ones 31). rewrite Z.land_ones by lia. apply Z.mod_small. change (2 ^ 31)%Z with 2147483648%Z. auto. Qed.
  Lemma load_ok c m p : lp c = inl p -> (Z.of_nat (length (serialize p)) < 2147483648)%Z ->
    let '(s, m') := load c m in
    sp_error s = None /\ sp_size s = Z.of_nat (length (serialize p)) /\ exists b, contents (sp_buffer s) m' = Some b /\ firstn (Z.to_nat (sp_size s)) b = serialize p.
  Proof.
    intros H L. unfold load, load_substrait_plan. fold lp. cbn [alloc]. change (loadPlan plan parse_json parse_prototext parse_binary parse_text c) with (lp c). rewrite H.
    cbn [sp_error sp_size sp_buffer]. rewrite land_small by lia. split; auto. split; auto. exists (serialize p ++ [zero]). cbn. rewrite Nat.eqb_refl. cbn. split; auto.
    rewrite Nat2Z.id, firstn_app, firstn_all, Nat.sub_diag. apply app_nil_r.
  Qed.
  Lemma cstr_prefix e : exists r, e = cstr e ++ r /\ (r = [] \/ exists r', r = zero :: r') /\ ~ In zero (cstr e).
  Proof.
    induction e as [|c e (r & E & R & N0)]; cbn; [exists []; auto|]. destruct (ceq c zero) eqn:Z.
    - apply ceq_true in Z. subst. exists (zero :: e). repeat split; eauto.
    - exists r. cbn. rewrite <- E. repeat split; auto. intros [->|I]; auto. rewrite ceq_refl in Z. discriminate.
  Qed.
  Lemma cstr_plain e : ~ In zero e -> cstr e = e.
  Proof. induction e as [|c e IH]; cbn; intros N0; auto. destruct (ceq c zero) eqn:Z; [apply ceq_true in Z; tauto|]. rewrite IH; tauto. Qed.
  Lemma load_error c m e : lp c = inr e ->
    let '(s, m') := load c m in
    sp_buffer s = None /\ sp_size s = 0%Z /\ exists b, contents (sp_error s) m' = Some b /\ is_cstring b (cstr e) /\ (~ In zero e -> cstr e = e).
  Proof.
    intros H. unfold load, load_substrait_plan. fold lp. cbn [alloc]. change (loadPlan plan parse_json parse_prototext parse_binary parse_text c) with (lp c). rewrite H.
    cbn [sp_error sp_size sp_buffer]. split; auto. split; auto. eexists. cbn [contents find live fst snd next]. rewrite Nat.eqb_refl. cbn. split; [reflexivity|]. split; [|apply cstr_plain].
    destruct (cstr_prefix e) as (r & E & _ & N0). unfold strncpy. rewrite firstn_all2 by (rewrite E at 2; rewrite app_length; lia).
    assert (exists k, length e + 1 - length (cstr e) = S k) as [k ->]. { exists (length e - length (cstr e)). assert (length (cstr e) <= length e) by (rewrite E at 2; rewrite app_length; lia). lia. }
    exists (repeat zero k). auto.
  Qed.
  Lemma filter_wf (l : list (nat * str)) a : Forall (fun x => fst x < a) l -> filter (fun b => negb (fst b =? a)) l = l.
  Proof. induction 1 as [|x l Hx _ IH]; cbn; auto. destruct (Nat.eqb_spec (fst x) a); [lia|]. cbn. f_equal. auto. Qed.
  Lemma release_head a b k (l : list block) : release (Some a) {| next := k; live := (a, b) :: l |} = Ok {| next := k; live := filter (fun b => negb (fst b =? a)) l |}.
  Proof. cbn. rewrite Nat.eqb_refl. auto. Qed.
  Lemma release_dead a m : Forall (fun x => fst x < a) (live m) -> release (Some a) m = UB.
  Proof.
    intros W. cbn. replace (existsb (fun b => fst b =? a) (live m)) with false; auto. symmetry. apply not_true_iff_false. intros K.
    apply existsb_exists in K as (x & I & K). apply Nat.eqb_eq in K. rewrite Forall_forall in W. specialize (W x I). lia.
  Qed.
  Lemma free_two self a b m : Forall (fun x => fst x < self) (live m) -> self < a ->
    exists m2, (m1 <- release (Some a) {| next := S a; live := (a, b) :: (self, []) :: live m |} ;; release (Some self) m1) = Ok m2 /\ live m2 = live m /\ release (Some a) m2 = UB.
  Proof.
    intros W L. assert (Wa : Forall (fun x => fst x < a) (live m)) by (eapply Forall_impl; [|exact W]; cbn; lia). rewrite release_head. cbn [obind filter fst].
    destruct (Nat.eqb_spec self a); [lia|]. cbn [negb]. rewrite release_head. eexists. split; [reflexivity|]. cbn [live].
    rewrite (filter_wf _ a Wa), (filter_wf _ self W). split; auto. apply release_dead. auto.
  Qed.
  (** Freeing a loaded plan releases exactly what loading allocated; freeing it again is undefined. *)
  Lemma load_free c m : wf m -> let '(s, m') := load c m in
    exists m2, free_substrait_plan s m' = Ok m2 /\ live m2 = live m /\ free_substrait_plan s m2 = UB.
  Proof.
    intros W. unfold load, load_substrait_plan, free_substrait_plan. cbn [alloc next live]. destruct (loadPlan _ _ _ _ _ c) as [p|e]; cbn [sp_buffer sp_error sp_self].
    - destruct (free_two (next m) (S (next m)) (serialize p ++ [zero]) m W ltac:(lia)) as (m2 & E & L & U). exists m2. rewrite U. split; [exact E|auto].
    - destruct (free_two (next m) (S (next m)) (strncpy e (length e + 1)) m W ltac:(lia)) as (m2 & E & L & U). exists m2. cbn [release obind] in *. rewrite U. split; [exact E|auto].
  Qed.
End C.
