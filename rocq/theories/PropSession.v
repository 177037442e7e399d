(** C82-C85: what becomes of errors and exceptions when plans are read, of files when plans are saved, and what the tools print. *)
From Verif Require Import Base BaseFacts SymbolModel IoModel SessionModel.
From Coq Require Import Lia.

(** ** C82 *)
Section Passes.
  Context (tab plan : Type) (empty : tab) (p1 p2 p3 p4 : pass tab) (out : tab -> outcome plan).
  Let load := loadFromText tab empty p1 p2 p3 p4 plan out.
  (** The four passes one after the other, none of which reports or throws anything *)
  Definition Quiet (t : tab) : Prop :=
    exists t1 t2 t3, p1 [] empty = (t1, [], None) /\ p2 [] t1 = (t2, [], None) /\ p3 [] t2 = (t3, [], None) /\ p4 [] t3 = (t, [], None).
  (** What the first three passes do; they always run. *)
  Definition Three (t : tab) (errors : list error) (exceptions : list error) : Prop :=
    exists t1 e1 x1 t2 e2 x2 e3 x3, p1 [] empty = (t1, e1, x1) /\ p2 e1 t1 = (t2, e2, x2) /\ p3 (e1 ++ e2) t2 = (t, e3, x3) /\
      errors = e1 ++ e2 ++ e3 /\ exceptions = caught parser_exception x1 ++ caught parser_exception x2 ++ caught relation_exception x3.
  (** The message of the whole: first the lexer, parser and exceptions, then the errors of the passes *)
  Definition all_messages (syntax errors : list error) : str := join [] (getErrorMessages syntax ++ getErrorMessages errors).

  Lemma three_exists : exists t e x, Three t e x.
  Proof.
    unfold Three. destruct (p1 [] empty) as [[t1 e1] x1] eqn:E1. destruct (p2 e1 t1) as [[t2 e2] x2] eqn:E2. destruct (p3 (e1 ++ e2) t2) as [[t3 e3] x3] eqn:E3.
    exists t3, (e1 ++ e2 ++ e3), (caught parser_exception x1 ++ caught parser_exception x2 ++ caught relation_exception x3), t1, e1, x1, t2, e2, x2, e3, x3. auto.
  Qed.
  Lemma caught_nil m x : caught m x = [] <-> x = None.
  Proof. destruct x as [[|]|]; cbn; split; congruence. Qed.
  Lemma messages_nil l : getErrorMessages l = [] <-> l = [].
  Proof. destruct l; cbn; split; congruence. Qed.
  Lemma quiet_three t x : Three t [] x -> x = [] -> exists t1 t2, p1 [] empty = (t1, [], None) /\ p2 [] t1 = (t2, [], None) /\ p3 [] t2 = (t, [], None).
  Proof.
    intros (t1 & e1 & x1 & t2 & e2 & x2 & e3 & x3 & E1 & E2 & E3 & Ee & ->) Ex. symmetry in Ee. apply app_eq_nil in Ee as [-> Ee]. apply app_eq_nil in Ee as [-> ->].
    apply app_eq_nil in Ex as [A Ex]. apply app_eq_nil in Ex as [B C]. apply caught_nil in A, B, C. subst. eauto.
  Qed.
  Lemma run_pass_eq p o s t e x : p (st_semantic tab s) (st_table tab s) = (t, e, x) ->
    run_pass tab o p s = {| st_table := t; st_semantic := st_semantic tab s ++ e; st_syntax := st_syntax tab s ++ caught o x |}.
  Proof. intros E. unfold run_pass. rewrite E. reflexivity. Qed.
  Lemma load_three syntax t e x : Three t e x ->
    (e <> [] -> load syntax = Ok (inr (all_messages (syntax ++ x) e))) /\
    (e = [] -> forall t4 e4 x4, p4 [] t = (t4, e4, x4) ->
       load syntax = if match syntax ++ x ++ caught relation_exception x4, e4 with [], [] => true | _, _ => false end
                     then p <- out t4 ;; Ok (inl p) else Ok (inr (all_messages (syntax ++ x ++ caught relation_exception x4) e4))).
  Proof.
    intros (t1 & e1 & x1 & t2 & e2 & x2 & e3 & x3 & E1 & E2 & E3 & -> & ->). unfold load, loadFromText, parseStream. cbn zeta.
    set (s0 := {| st_table := empty; st_semantic := []; st_syntax := syntax |}).
    rewrite (run_pass_eq p1 parser_exception _ t1 e1 x1) by exact E1.
    rewrite (run_pass_eq p2 parser_exception _ t2 e2 x2) by exact E2.
    rewrite (run_pass_eq p3 relation_exception _ t e3 x3) by exact E3. subst s0. cbn [st_table st_semantic st_syntax app].
    rewrite <- !app_assoc. set (e := e1 ++ e2 ++ e3). set (x := caught _ x1 ++ caught _ x2 ++ caught _ x3). split.
    - intros N. destruct e as [|a e']; [congruence|]. cbn [hasErrors st_table st_semantic st_syntax]. unfold successful, all_messages, getAllErrors. cbn [st_table st_semantic st_syntax r_syntax r_semantic getErrorMessages map app].
      destruct (getErrorMessages (syntax ++ x)); reflexivity.
    - intros Ee t4 e4 x4 E4. rewrite Ee. cbn [hasErrors st_table st_semantic st_syntax]. rewrite (run_pass_eq p4 relation_exception _ t4 e4 x4) by exact E4. cbn [st_table st_semantic st_syntax app].
      unfold successful, all_messages, getAllErrors. cbn [r_syntax r_semantic app]. rewrite <- app_assoc.
      destruct (syntax ++ x ++ caught relation_exception x4); cbn [getErrorMessages map]; [destruct e4; reflexivity|reflexivity].
  Qed.
  (** A text gives a plan exactly if lexer, parser and all four passes reported nothing and threw nothing; then it is the plan of the table that
      the passes built one after the other. *)
Theorem C82_success : forall syntax p, load syntax = Ok (inl p) <-> syntax = [] /\ exists t, Quiet t /\ out t = Ok p.
  Proof.
    intros syntax p. split.
    - intros L. destruct three_exists as (t & e & x & T). destruct (load_three syntax t e x T) as [N Z]. destruct e as [|a e]; [|rewrite (N ltac:(discriminate)) in L; discriminate].
      specialize (Z eq_refl). destruct (p4 [] t) as [[t4 e4] x4] eqn:E4. specialize (Z _ _ _ eq_refl).
      rewrite Z in L. destruct (syntax ++ x ++ caught relation_exception x4) eqn:S0; [|discriminate L]. destruct e4; [|discriminate L].
      apply app_eq_nil in S0 as [-> S0]. apply app_eq_nil in S0 as [X C]. apply caught_nil in C. subst. split; auto.
      destruct (quiet_three t _ T eq_refl) as (t1 & t2 & A1 & A2 & A3). exists t4. split; [exists t1, t2, t; auto|]. destruct (out t4); cbn in L; congruence.
    - intros (-> & t4 & (t1 & t2 & t3 & A1 & A2 & A3 & A4) & O).
      assert (T : Three t3 [] []) by (exists t1, [], None, t2, [], None, [], None; auto).
      destruct (load_three [] t3 [] [] T) as [_ Z]. rewrite (Z eq_refl _ _ _ A4). cbn. rewrite O. reflexivity.
  Qed.
  (** Whatever is reported or thrown is in the message: everything from the lexer, the parser and the exceptions, then everything the passes
      reported; the first three passes run in any case, the last one if they reported nothing. *)
Theorem C82_reports : forall syntax t e x, Three t e x ->
    (e <> [] -> load syntax = Ok (inr (all_messages (syntax ++ x) e))) /\
    (e = [] -> forall t4 e4 x4, p4 [] t = (t4, e4, x4) -> syntax ++ x ++ caught relation_exception x4 ++ e4 <> [] ->
       load syntax = Ok (inr (all_messages (syntax ++ x ++ caught relation_exception x4) e4))).
  Proof.
    intros syntax t e x T. destruct (load_three syntax t e x T) as [N Z]. split; auto. intros E t4 e4 x4 E4 NE. rewrite (Z E _ _ _ E4).
    destruct (syntax ++ x ++ caught relation_exception x4) as [|a r] eqn:A; [|reflexivity]. destruct e4; [|reflexivity]. destruct NE. rewrite !app_assoc, app_nil_r, <- !app_assoc. exact A.
  Qed.
  (** No exception of a pass escapes: if reading throws, all was well and making the plan of the table threw. *)
Theorem C82_contained : forall syntax, 
    (forall ex, load syntax = Throw ex -> syntax = [] /\ exists t, Quiet t /\ out t = Throw ex) /\ (load syntax = UB -> syntax = [] /\ exists t, Quiet t /\ out t = UB).
  Proof.
    intros syntax. destruct three_exists as (t & e & x & T). destruct (load_three syntax t e x T) as [N Z].
    destruct e as [|a e]; [|rewrite (N ltac:(discriminate)); split; discriminate].
    specialize (Z eq_refl). destruct (p4 [] t) as [[t4 e4] x4] eqn:E4. specialize (Z _ _ _ eq_refl). rewrite Z.
    destruct (syntax ++ x ++ caught relation_exception x4) eqn:S0; [|split; discriminate]. destruct e4; [|split; discriminate].
    apply app_eq_nil in S0 as [-> S0]. apply app_eq_nil in S0 as [X C]. apply caught_nil in C. subst.
    destruct (quiet_three t _ T eq_refl) as (t1 & t2 & A1 & A2 & A3).
    assert (Q : Quiet t4) by (exists t1, t2, t; auto). split; [intros ex L|intros L]; destruct (out t4) eqn:O; cbn in L; try discriminate L; split; auto; exists t4; split; auto; congruence.
  Qed.
End Passes.
Print Assumptions C82_success.
Print Assumptions C82_reports.
Print Assumptions C82_contained.
Definition exn_ok (n : nat) : pass nat := fun _ t => (t + n, [], None).
Definition exn_error (m : str) : pass nat := fun _ t => (t, [{| e_line := 3; e_column := 4; e_message := m |}], None).
Definition exn_throw : pass nat := fun _ t => (t, [], Some (TInvalid $"bad cast")).
Example C82_case :
  loadFromText nat 0 (exn_ok 1) (exn_ok 2) (exn_ok 3) (exn_ok 4) str (fun t => Ok (print_N (N.of_nat t))) [] = Ok (inl $"10") /\
  Quiet nat 0 (exn_ok 1) (exn_ok 2) (exn_ok 3) (exn_ok 4) 10 /\
  (exists m, loadFromText nat 0 (exn_ok 1) exn_throw (exn_error $"no such column") (exn_ok 4) str (fun t => Ok []) [] = Ok (inr m) /\
     m = $"1:1" ++ arrow ++ $"bad cast3:4" ++ arrow ++ $"no such column").
Proof. split; [reflexivity|]. split; [exists 1, 3, 6; auto|]. eexists. split; reflexivity. Qed.

(** ** C83 *)
Section Files.
  Context (plan tab : Type) (initial : plan -> outcome (tab * list str)) (pipes : plan -> tab -> outcome tab) (printer : plan -> tab -> outcome (tab * list str)).
  Context (to_text : tab -> outcome (str * list str)) (sys : system) (to_binary to_prototext to_json : plan -> option str).
  Let convert := parseBinaryPlan plan tab initial pipes printer.
  Let save := savePlan plan tab initial pipes printer to_text sys to_binary to_prototext to_json.
  (** What a file of a plan should contain *)
  Definition Serialized (p : plan) (fmt : format) (bytes : str) : Prop :=
    match fmt with
    | FBinary => to_binary p = Some bytes
    | FProtoText => to_prototext p = Some bytes
    | FJson => to_json p = Some bytes
    | FText => exists t, convert p = Ok (t, {| r_syntax := []; r_semantic := [] |}) /\ to_text t = Ok (bytes, [])
    end.
  (** A write that is said to have succeeded has written everything. *)
  Definition honest : Prop := forall s c, writes sys s = (c, true) -> c = s.

  (** Success is reported only if the plan has a text in that format; then the file has exactly that text, no other file has changed and no
      descriptor is left open. *)
Theorem C83_saved : forall p name fmt f f', honest -> save p name fmt f = (Returned None, f') ->
    (exists bytes, Serialized p fmt bytes /\ content f' name = Some bytes) /\ (forall n, n <> name -> content f' n = content f n) /\ descriptors f' = descriptors f.
  Proof.
    intros p name fmt f f' H. unfold save, savePlan, returned, savePlanToBinary, savePlanToProtoText, savePlanToJson, savePlanToText, save_stream, run, Serialized. fold convert.
    assert (P : forall b g, content (put name b g) name = Some b) by (intros; cbn; rewrite seq_eqb_refl; auto).
    assert (Q : forall b g n, n <> name -> content (put name b g) n = content g n) by (intros b g n N; cbn; replace (name =s n) with false; auto; symmetry; apply seq_eqb_neq; congruence).
    destruct (opens sys name) eqn:O; [|destruct fmt; discriminate].
    destruct fmt; cbn [fst snd].
    - destruct (to_binary p) as [b|]; cbn [fst snd]; [|discriminate]. destruct (writes sys b) as [c ok] eqn:W. destruct ok; cbn [fst snd]; [|discriminate].
      intros E. injection E as <-. pose proof (H _ _ W). subst c. split; [eauto|split; auto].
    - destruct (to_json p) as [b|]; cbn [fst snd]; [|discriminate]. destruct (writes sys b) as [c ok] eqn:W. destruct ok; cbn [fst snd]; [|discriminate].
      intros E. injection E as <-. pose proof (H _ _ W). subst c. split; [eauto|split; auto].
    - destruct (to_prototext p) as [b|]; cbn [fst snd]; [|discriminate]. destruct (writes sys b) as [c ok] eqn:W. destruct ok; cbn [fst snd]; [|discriminate].
      intros E. injection E as <-. pose proof (H _ _ W). subst c. split; [eauto|split; auto].
    - destruct (convert p) as [[t [sy se]]| |] eqn:C; [|discriminate..]. cbn [fst snd]. unfold getAllErrors. cbn [r_syntax r_semantic app].
      destruct (sy ++ se) as [|e r] eqn:A; [|discriminate]. apply app_eq_nil in A as [-> ->]. destruct (to_text t) as [[b er]| |] eqn:X; [|discriminate..].
      cbn [fst snd]. destruct (writes sys b) as [c ok] eqn:W. destruct ok; [|discriminate]. destruct er; [|discriminate]. intros E. injection E as <-. pose proof (H _ _ W). subst c.
      split; [exists b; split; [exists t; auto|auto]|split; [intros n N; rewrite !Q; auto|auto]].
  Qed.
  (** And it is reported if the file can be opened, the plan has such a text and writing it succeeds. *)
Theorem C83_succeeds : forall p name fmt f bytes c, opens sys name = true -> Serialized p fmt bytes -> writes sys bytes = (c, true) ->
    exists f', save p name fmt f = (Returned None, f').
  Proof.
    intros p name fmt f b c O S0 W. unfold save, savePlan, returned, savePlanToBinary, savePlanToProtoText, savePlanToJson, savePlanToText, save_stream, run. fold convert. rewrite O.
    destruct fmt; cbn in S0; try (rewrite S0, W; cbn; eauto; fail). destruct S0 as (t & C & X). rewrite C. cbn. rewrite X. cbn. rewrite W. eauto.
  Qed.
  (** Whatever happens, no other file is touched, and a file that cannot be opened keeps its content. *)
Theorem C83_others : forall p name fmt f r f', save p name fmt f = (r, f') ->
    (forall n, n <> name -> content f' n = content f n) /\ (opens sys name = false -> f' = f /\ exists a b, r = Returned (Some (a ++ name ++ b))).
  Proof.
    intros p name fmt f r f'. unfold save, savePlan, returned, savePlanToBinary, savePlanToProtoText, savePlanToJson, savePlanToText, save_stream, run. fold convert.
    assert (Q : forall b g n, n <> name -> content (put name b g) n = content g n) by (intros b g n N; cbn; replace (name =s n) with false; auto; symmetry; apply seq_eqb_neq; congruence).
    destruct (opens sys name) eqn:O; [|destruct fmt; intros E; injection E as <- <-; split; auto; intros _; split; auto; exists $"Failed to open file ", $" for writing"; reflexivity].
    intros E. split; [|discriminate]. revert E. destruct fmt; cbn [fst snd].
    - destruct (to_binary p) as [b|]; [destruct (writes sys b) as [c [|]]|]; intros E; injection E as <- <-; intros n N; (exact (Q _ f n N)) || (exact (Q [] f n N)).
    - destruct (to_json p) as [b|]; [destruct (writes sys b) as [c [|]]|]; intros E; injection E as <- <-; intros n N; (exact (Q _ f n N)) || (exact (Q [] f n N)).
    - destruct (to_prototext p) as [b|]; [destruct (writes sys b) as [c [|]]|]; intros E; injection E as <- <-; intros n N; (exact (Q _ f n N)) || (exact (Q [] f n N)).
    - destruct (convert p) as [[t re]| |]; [|intros E; injection E as <- <-; auto..]. cbn [fst snd].
      destruct (getAllErrors re); [|intros E; injection E as <- <-; auto]. destruct (to_text t) as [[b er]| |]; [|intros E; injection E as <- <-; auto..].
      cbn [fst snd]. destruct (writes sys b) as [c ok]. intros E; injection E as _ <-. intros n N. rewrite !Q; auto.
  Qed.
  (** Refuted: a plan that cannot be converted to text.  The error is returned (or the exception thrown), but what the file held is gone. *)
Theorem C83_lost_refuted : forall p name f, opens sys name = true ->
    match convert p with Ok (_, r) => getAllErrors r <> [] | _ => True end ->
    content (snd (save p name FText f)) name = Some [] /\
    match convert p with
    | Ok (_, r) => fst (save p name FText f) = Returned (Some (join [] (getAllErrors r)))
    | Throw e => fst (save p name FText f) = Raised e
    | UB => True
    end.
  Proof.
    intros p name f O. unfold save, savePlan, savePlanToText, run. fold convert. rewrite O.
    destruct (convert p) as [[t r]|e|]; cbn [fst snd]; [|intros _; split; auto; cbn; rewrite seq_eqb_refl; auto..].
    destruct (getAllErrors r) eqn:A; [congruence|]. intros _. cbn. rewrite seq_eqb_refl. auto.
  Qed.
  (** Refuted: a plan some part of which cannot be printed.  An error is returned, but the file has been replaced by the incomplete text. *)
Theorem C83_incomplete_refuted : forall p name f t text errors c, opens sys name = true -> honest ->
    convert p = Ok (t, {| r_syntax := []; r_semantic := [] |}) -> to_text t = Ok (text, errors) -> errors <> [] -> writes sys text = (c, true) ->
    content (snd (save p name FText f)) name = Some text /\
    fst (save p name FText f) = Returned (Some ($"Errors while writing to text: " ++ join [newline] errors)).
  Proof.
    intros p name f t text errors c O H C X N W. unfold save, savePlan, savePlanToText, run. fold convert. rewrite O, C. cbn [fst snd getAllErrors app r_syntax r_semantic].
    rewrite X. cbn [fst snd]. rewrite W. destruct errors as [|e r]; [congruence|]. cbn [fst snd content put]. rewrite seq_eqb_refl, (H _ _ W). auto.
  Qed.
  (** Refuted: every plan that cannot be serialized leaves a file descriptor open. *)
Theorem C83_leak_refuted : forall p name f, opens sys name = true ->
    (to_binary p = None -> descriptors (snd (save p name FBinary f)) = S (descriptors f)) /\
    (to_prototext p = None -> descriptors (snd (save p name FProtoText f)) = S (descriptors f)).
  Proof.
    intros p name f O. unfold save, savePlan, returned, savePlanToBinary, savePlanToProtoText, save_stream, run. rewrite O. split; intros ->; reflexivity.
  Qed.

  (** ** C85 *)
  Context (cannot_read : str -> str) (read_json read_prototext read_binary read_text : str -> status plan).
  Let loading := loadFile plan cannot_read read_json read_prototext read_binary read_text.
  Let saving := saveFile plan tab initial pipes printer to_text sys to_binary to_prototext to_json.
  Lemma c_string_at s r : ~ In zero s -> c_string (s ++ zero :: r) = Some s.
  Proof.
    induction s as [|c s IH]; intros N; cbn -[zero ceq].
    - rewrite ceq_refl. reflexivity.
    - destruct (ceq c zero) eqn:E; [apply ceq_true in E; subst; destruct N; left; auto|]. rewrite IH; auto. intros I. apply N. right. auto.
  Qed.
  (** A name given as a view that ends where a zero follows it: the file with that name is loaded, and saving then loading gives the plan if the
      format is recognised and its reader undoes its writer. *)
Theorem C85_named_partial : forall v name r f, v_memory v = name ++ zero :: r -> v_length v = length name -> ~ In zero name ->
    loading v f = Ok (loadPlan plan read_json read_prototext read_binary read_text (readFromFile cannot_read name f)) /\
    (forall p fmt f' bytes, honest -> saving p v fmt f = (Returned None, f') -> Serialized p fmt bytes -> detectFormat bytes = fmt ->
       match fmt with FBinary => read_binary bytes | FJson => loadFromJson plan read_json bytes | FProtoText => read_prototext bytes | FText => read_text bytes end = inl p ->
       loading v f' = Ok (inl p)).
  Proof.
    intros v name r f M L N. assert (A : forall g, loading v g = Ok (loadPlan plan read_json read_prototext read_binary read_text (readFromFile cannot_read name g))).
    { intros g. unfold loading, loadFile. rewrite M, c_string_at; auto. }
    split; auto. intros p fmt f' bytes H S0 B D R. rewrite A. unfold saving, saveFile in S0.
    replace (view_text v) with name in S0.
    2: { unfold view_text. rewrite M, L, firstn_app, Nat.sub_diag, firstn_all, app_nil_r. reflexivity. }
    destruct (C83_saved p name fmt f f' H S0) as ((bytes' & B' & C) & _ & _).
    assert (bytes' = bytes).
    { destruct fmt; cbn in B, B'; try congruence. destruct B as (t & B1 & B2), B' as (t' & B1' & B2'). rewrite B1 in B1'. injection B1' as <-. congruence. }
    subst bytes'. unfold readFromFile. rewrite C. unfold loadPlan. rewrite D. destruct fmt; rewrite R; reflexivity.
  Qed.
  (** A file that is not there is reported with the message for its name, and a file with other content than any format is read as the format its content looks like. *)
Theorem C85_missing : forall v name r f, v_memory v = name ++ zero :: r -> ~ In zero name ->
    (content f name = None -> loading v f = Ok (inr (cannot_read name))) /\
    (forall c, content f name = Some c -> loading v f = Ok (loadPlan plan read_json read_prototext read_binary read_text (inl c))).
  Proof.
    intros v name r f M N. unfold loading, loadFile. rewrite M, c_string_at; auto. unfold readFromFile. split; [intros ->|intros c ->]; reflexivity.
  Qed.
  (** Refuted: a view that is only the beginning of a longer text, such as a directory entry cut out of a list.  Saving uses the name of the view,
      loading the longer one; and where no zero follows at all, loading reads past the end. *)
Theorem C85_longer_refuted : forall v name more r f, v_memory v = name ++ more ++ zero :: r -> v_length v = length name -> ~ In zero (name ++ more) -> more <> [] ->
    view_text v = name /\ loading v f = Ok (loadPlan plan read_json read_prototext read_binary read_text (readFromFile cannot_read (name ++ more) f)) /\
    (forall p fmt f', saving p v fmt f = (Returned None, f') -> loading v f' = loading v f).
  Proof.
    intros v name more r f M L N Mo.
    assert (T : view_text v = name) by (unfold view_text; rewrite M, L, firstn_app, Nat.sub_diag, firstn_all; apply app_nil_r).
    assert (A : forall g, loading v g = Ok (loadPlan plan read_json read_prototext read_binary read_text (readFromFile cannot_read (name ++ more) g))).
    { intros g. unfold loading, loadFile. rewrite M, app_assoc, c_string_at; auto. }
    split; auto. split; auto. intros p fmt f' S0. rewrite !A. do 2 f_equal. unfold saving, saveFile in S0. rewrite T in S0. unfold readFromFile.
    rewrite (proj1 (C83_others p name fmt f _ f' S0)); auto. intros K. apply Mo. apply (app_inv_head name). rewrite app_nil_r. exact K.
  Qed.
Theorem C85_unterminated_refuted : forall v f, ~ In zero (v_memory v) -> loading v f = UB.
  Proof.
    intros v f N. unfold loading, loadFile. replace (c_string (v_memory v)) with (@None str); auto. symmetry. revert N. generalize (v_memory v) as s. clear.
    induction s as [|c s IH]; intros N; cbn -[zero ceq]; auto. destruct (ceq c zero) eqn:E; [apply ceq_true in E; subst; destruct N; left; auto|]. rewrite IH; auto. intros I. apply N. right. auto.
  Qed.

  (** ** C84 *)
  Let converter := convertPlanToText plan tab initial pipes printer to_text.
  Let parser := readText tab to_text.
  (** The parser prints the text of a plan only if reading and printing reported nothing, and otherwise exactly the errors, a line each. *)
Theorem C84_parser : forall name t r, 
    (getAllErrors r <> [] -> parser name (Some (t, r)) = Ok {| p_out := said (getAllErrors r); p_err := [] |}) /\
    (getAllErrors r = [] -> forall text errors, to_text t = Ok (text, errors) ->
       parser name (Some (t, r)) = Ok {| p_out := match errors with [] => text | _ => said errors end; p_err := [] |}).
  Proof.
    intros name t [sy se]. unfold parser, readText, successful, getAllErrors. cbn [r_syntax r_semantic app]. split.
    - intros N. destruct sy; [destruct se; [cbn in N; congruence|reflexivity]|reflexivity].
    - intros E text errors X. apply app_eq_nil in E as [-> ->]. rewrite X. destruct errors; reflexivity.
  Qed.
  (** A file that cannot be read is named on the standard error, with nothing else on the output; the heading of a file names it. *)
Theorem C84_unread : forall name, exists a b c d, parser name None = Ok {| p_out := []; p_err := a ++ name ++ b |} /\ heading name = c ++ name ++ d.
  Proof. intros name. exists $"An error occurred while reading: ", [newline], $"===== ", ($" =====" ++ [newline]). split; reflexivity. Qed.
  (** Each file is reported under its own heading, in the order given, as if it were alone. *)
Theorem C84_each_file : forall usage one names outs, names <> [] -> Forall2 (fun n o => one n = Ok o) names outs ->
    tool usage one names = Ok ({| p_out := concat (map (fun x => heading (fst x) ++ p_out (snd x)) (combine names outs)); p_err := concat (map p_err outs) |}, 0).
  Proof.
    intros usage one names outs N F.
    assert (A : tool_files one names = Ok {| p_out := concat (map (fun x => heading (fst x) ++ p_out (snd x)) (combine names outs)); p_err := concat (map p_err outs) |}).
    { clear N. induction F as [|n o ns os E F IH]; cbn; auto. rewrite E. cbn. rewrite IH. cbn. rewrite <- !app_assoc. reflexivity. }
    unfold tool. destruct names; [congruence|]. rewrite A. reflexivity.
  Qed.
  (** Refuted: the exit status says success whatever became of the files. *)
Theorem C84_status_refuted : forall usage one names o, names <> [] -> forall status, tool usage one names = Ok (o, status) -> status = 0.
  Proof. intros usage one names o N st. unfold tool. destruct names; [congruence|]. destruct (tool_files one _); cbn; try discriminate. intros E. injection E as _ <-. auto. Qed.
  (** Refuted: the converter prints a text for a plan whose conversion reported errors. *)
Theorem C84_converter_refuted : forall p t r text errors, convert p = Ok (t, r) -> to_text t = Ok (text, errors) ->
    exists err, converter (inl p) = Ok {| p_out := text; p_err := err |} /\ err = said (r_syntax r ++ errors ++ r_semantic r).
  Proof.
    intros p t r text errors C X. unfold converter, convertPlanToText. fold convert. rewrite C. cbn [obind fst snd]. rewrite X. cbn [obind fst snd]. eexists. split; [reflexivity|].
    unfold getAllErrors, addErrors. cbn [r_syntax r_semantic app]. rewrite <- app_assoc. reflexivity.
  Qed.
  (** Refuted: a plan that makes the converter throw ends it before the files after it. *)
Theorem C84_stops_refuted : forall usage one before n after e, Forall (fun n => exists o, one n = Ok o) before -> one n = Throw e -> tool usage one (before ++ n :: after) = Throw e.
  Proof.
    intros usage one before n after e F E.
    assert (A : tool_files one (before ++ n :: after) = Throw e).
    { induction F as [|m ms (o & Em) F IH]; cbn; [rewrite E; reflexivity|]. rewrite Em. cbn. rewrite IH. reflexivity. }
    unfold tool. destruct (before ++ n :: after) eqn:K; [destruct before; discriminate|]. rewrite A. reflexivity.
  Qed.
End Files.
Print Assumptions C83_saved.
Print Assumptions C83_succeeds.
Print Assumptions C83_others.
Print Assumptions C83_lost_refuted.
Print Assumptions C83_incomplete_refuted.
Print Assumptions C83_leak_refuted.
Print Assumptions C85_named_partial. Print Assumptions C85_missing.
Print Assumptions C85_longer_refuted.
Print Assumptions C85_unterminated_refuted.
Print Assumptions C84_parser. Print Assumptions C84_unread.
Print Assumptions C84_each_file.
Print Assumptions C84_status_refuted.
Print Assumptions C84_converter_refuted.
Print Assumptions C84_stops_refuted.

(** A converter for numbers: 7 cannot be converted, 8 throws, 9 is printed incompletely; a disk that takes everything. *)
Definition exf_initial (p : nat) : outcome (nat * list str) := if p =? 8 then Throw EInvalidState else Ok (p, if p =? 7 then [$"bad plan"] else []).
Definition exf_text (t : nat) : outcome (str * list str) := Ok ($"schema " ++ print_N (N.of_nat t), if t =? 9 then [$"cannot print"] else []).
Definition exf_sys : system := {| opens := fun n => negb (n =s $"ro"); writes := fun s => (s, true) |}.
Definition exf_save := savePlan nat nat exf_initial (fun _ t => Ok t) (fun _ t => Ok (t, [])) exf_text exf_sys (fun p => if p =? 7 then None else Some $"0") (fun p => None) (fun p => Some $"{}").
Definition exf_files : files := {| content := fun n => if n =s $"f" then Some $"old" else None; descriptors := 3 |}.
Example C83_case : honest exf_sys /\
  (fst (exf_save 5 $"f" FText exf_files) = Returned None /\ content (snd (exf_save 5 $"f" FText exf_files)) $"f" = Some $"schema 5") /\
  (fst (exf_save 7 $"f" FText exf_files) = Returned (Some $"bad plan") /\ content (snd (exf_save 7 $"f" FText exf_files)) $"f" = Some []) /\
  (fst (exf_save 8 $"f" FText exf_files) = Raised EInvalidState /\ content (snd (exf_save 8 $"f" FText exf_files)) $"f" = Some []) /\
  (content (snd (exf_save 9 $"f" FText exf_files)) $"f" = Some $"schema 9" /\ fst (exf_save 9 $"f" FText exf_files) <> Returned None) /\
  descriptors (snd (exf_save 7 $"f" FBinary exf_files)) = 4 /\ fst (exf_save 5 $"ro" FJson exf_files) <> Returned None.
Proof. split; [intros s c E; cbn in E; congruence|]. repeat split; discriminate. Qed.
Example C85_case : let v := {| v_memory := $"f.bak" ++ [zero]; v_length := 1 |} in view_text v = $"f" /\ ~ In zero ($"f" ++ $".bak") /\ c_string (v_memory v) = Some $"f.bak".
Proof. cbn. repeat split. intros [K|[K|[K|[K|[K|[]]]]]]; discriminate K. Qed.
Definition exf_convert := convertPlanToText nat nat exf_initial (fun _ t => Ok t) (fun _ t => Ok (t, [])) exf_text.
Example C84_case : tool $"usage" (fun n => exf_convert (inl (length n))) [$"12345"; $"1234567"] =
  Ok ({| p_out := $"===== 12345 =====" ++ [newline] ++ $"schema 5===== 1234567 =====" ++ [newline] ++ $"schema 7"; p_err := $"bad plan" ++ [newline] |}, 0) /\
  tool $"usage" (fun n => exf_convert (inl (length n))) [$"12345678"; $"12345"] = Throw EInvalidState /\
  readText nat exf_text $"x" (Some (9, {| r_syntax := []; r_semantic := [] |})) = Ok {| p_out := $"cannot print" ++ [newline]; p_err := [] |}.
Proof. repeat split. Qed.
