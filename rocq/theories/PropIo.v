(** C45 - C48, C56, C57: file formats, loading and the C interface. *)
From Verif Require Import Base IoModel IoFacts.
From Coq Require Import ZArith Lia.

Definition nl : str := [newline].
Definition quoted (w : str) : str := [ascii_of_N 34] ++ w ++ [ascii_of_N 34].

(** ** C45 *)
Theorem C45_detected_format : forall s f, detectFormat s = f <-> looks f s.
Proof. exact detect_iff. Qed.
Print Assumptions C45_detected_format.
Example C45_ex : detectFormat ($"# plan" ++ nl ++ $"  read   relation r {") = FText /\ detectFormat ($"x" ++ nl ++ $"relations {") = FProtoText /\
  detectFormat ($"relations {" ++ quoted $"extensions") = FJson /\ detectFormat ($" relations {") = FBinary.
Proof. vm_compute. auto. Qed.

(** ** C46 *)
Theorem C46_named_format : forall f t, same_text t (format_name f) -> planFileFormatFromText t = f.
Proof. exact format_named. Qed.
Print Assumptions C46_named_format.
Theorem C46_other_argument : forall t, (forall f, ~ same_text t (format_name f)) -> planFileFormatFromText t = FText.
Proof. exact format_other. Qed.
Print Assumptions C46_other_argument.
Example C46_ex : planFileFormatFromText $"JSoN" = FJson /\ planFileFormatFromText $"json " = FText /\ same_text $"JSoN" $"json".
Proof. split; [reflexivity|]. split; [reflexivity|]. apply to_lower_ci; [apply (name_small FJson)|reflexivity]. Qed.

(** ** C47 *)
(** Empty content is rejected; content with a leading # is cut before its first newline; all other content is kept. *)
Theorem C47_usable_json : forall s r, usableJson s = Some r <->
  (exists c s', s = c :: s' /\ ((c <> "#"%char /\ r = s) \/ (c = "#"%char /\ exists line, split_line s line r))).
Proof.
  intros s r. destruct s as [|c s]; cbn [usableJson].
  - split; [discriminate|]. intros (c & s' & H & _). discriminate.
  - destruct (ceq c "#") eqn:E.
    + apply ceq_true in E. subst. split.
      * intros H. injection H as H. exists "#"%char, s. split; auto. right. split; auto. apply drop_line_iff. exact H.
      * intros (c & s' & H & [[N0 _]|[_ K]]); injection H as <- <-; [congruence|]. f_equal. apply drop_line_iff. exact K.
    + assert (N0 : c <> "#"%char) by (intros ->; rewrite ceq_refl in E; discriminate). split.
      * intros H. injection H as <-. exists c, s. auto.
      * intros (c' & s' & H & [[_ K]|[K _]]); injection H as <- <-; congruence.
Qed.
Print Assumptions C47_usable_json.
Theorem C47_parsed_text : forall plan (parse : str -> status plan) s,
  match usableJson s with
  | None => s = [] /\ exists e, loadFromJson plan parse s = inr e
  | Some r => match parse r with
              | inl p => loadFromJson plan parse s = inl p
              | inr e => exists prefix, loadFromJson plan parse s = inr (prefix ++ e)
              end
  end.
Proof.
  intros plan parse s. unfold loadFromJson. destruct (usableJson s) eqn:E.
  - destruct (parse s0); eauto.
  - split; [destruct s; [auto|discriminate]|eauto].
Qed.
Print Assumptions C47_parsed_text.
Example C47_ex : usableJson ($"# a comment" ++ nl ++ $"# not one" ++ nl ++ $"{}") = Some (nl ++ $"# not one" ++ nl ++ $"{}") /\ usableJson $"# only" = Some [].
Proof. vm_compute. auto. Qed.

(** ** C48 *)
(** For every reader and writer of plans; [loaded] is what loading the file gives. *)
Theorem C48_whole_plan : forall plan json prototext binary text (serialize : plan -> str) content m p,
  loadPlan plan json prototext binary text content = inl p -> (Z.of_nat (length (serialize p)) < 2147483648)%Z ->
  let '(s, m') := load_substrait_plan plan json prototext binary text serialize content m in
  sp_error s = None /\ sp_size s = Z.of_nat (length (serialize p)) /\
  exists bytes, contents (sp_buffer s) m' = Some bytes /\ firstn (Z.to_nat (sp_size s)) bytes = serialize p.
Proof. intros. apply load_ok; auto. Qed.
Print Assumptions C48_whole_plan.
(** The message ends at its first zero byte, if it has one. *)
Theorem C48_error_message : forall plan json prototext binary text (serialize : plan -> str) content m e,
  loadPlan plan json prototext binary text content = inr e ->
  let '(s, m') := load_substrait_plan plan json prototext binary text serialize content m in
  sp_buffer s = None /\ sp_size s = 0%Z /\ exists bytes, contents (sp_error s) m' = Some bytes /\ is_cstring bytes (cstr e) /\ (~ In zero e -> cstr e = e).
Proof. intros. apply load_error; auto. Qed.
Print Assumptions C48_error_message.
(** In particular the message of a file that cannot be read is the one reading it gave, whatever the parsers do. *)
Theorem C48_unreadable : forall plan json prototext binary text (serialize : plan -> str) m e, ~ In zero e ->
  let '(s, m') := load_substrait_plan plan json prototext binary text serialize (inr e) m in
  sp_buffer s = None /\ sp_size s = 0%Z /\ exists bytes, contents (sp_error s) m' = Some bytes /\ is_cstring bytes e.
Proof.
  intros plan json prototext binary text serialize m e Z. assert (L := fun H => load_error (plan := plan) json prototext binary text serialize (inr e) m e H); specialize (L eq_refl).
  destruct (load_substrait_plan _ _ _ _ _ _ _ _) as [s m']. destruct L as (A & B & bytes & C & D & F). rewrite (F Z) in D. eauto.
Qed.
Print Assumptions C48_unreadable.
Example C48_unreadable_case : ~ In zero ($"Failed to open file missing.plan") /\
  contents (sp_error (fst (load_substrait_plan nat (fun _ => inl 1) (fun _ => inl 2) (fun _ => inl 3) (fun _ => inl 4) (fun _ => []) (inr $"Failed to open file missing.plan") {| next := 0; live := [] |})))
    (snd (load_substrait_plan nat (fun _ => inl 1) (fun _ => inl 2) (fun _ => inl 3) (fun _ => inl 4) (fun _ => []) (inr $"Failed to open file missing.plan") {| next := 0; live := [] |})) = Some ($"Failed to open file missing.plan" ++ [zero]).
Proof. split; [cbn; intuition discriminate|vm_compute; reflexivity]. Qed.
(** Nothing leaks and nothing else is freed; a second call is undefined. *)
Theorem C48_freed : forall plan json prototext binary text (serialize : plan -> str) content m, wf m ->
  let '(s, m') := load_substrait_plan plan json prototext binary text serialize content m in
  exists m2, free_substrait_plan s m' = Ok m2 /\ live m2 = live m /\ free_substrait_plan s m2 = UB.
Proof. intros. apply load_free; auto. Qed.
Print Assumptions C48_freed.
(** Serialized plans of two gigabytes or more would be reported with a wrong size (protobuf itself refuses to write them). *)
Theorem C48_size_bound : forall plan json prototext binary text (serialize : plan -> str) content m p,
  loadPlan plan json prototext binary text content = inl p ->
  let n := Z.of_nat (length (serialize p)) in
  sp_size (fst (load_substrait_plan plan json prototext binary text serialize content m)) = (n mod 2147483648)%Z /\
  (sp_size (fst (load_substrait_plan plan json prototext binary text serialize content m)) = n <-> (n < 2147483648)%Z).
Proof.
  intros plan json prototext binary text serialize content m p H n.
  assert (E : sp_size (fst (load_substrait_plan plan json prototext binary text serialize content m)) = (n mod 2147483648)%Z).
  { unfold load_substrait_plan. cbn [alloc]. rewrite H. cbn [fst sp_size]. change int32_max with (Z.ones 31). rewrite Z.land_ones by lia. reflexivity. }
  rewrite E. split; auto. assert (0 <= n)%Z by (unfold n; lia). split.
  - intros K. pose proof (Z.mod_pos_bound n 2147483648). lia.
  - intros L. apply Z.mod_small. lia.
Qed.
Print Assumptions C48_size_bound.
Example C48_ex : let ld := load_substrait_plan nat (fun _ => inl 1) (fun _ => inl 2) (fun s => inl (length s)) (fun _ => inr $"bad text") (fun n => repeat "x"%char n) in
  let m := {| next := 5; live := [(3, $"other")] |} in
  (wf m /\ sp_size (fst (ld (inl $"abc") m)) = 3%Z /\ contents (sp_buffer (fst (ld (inl $"abc") m))) (snd (ld (inl $"abc") m)) = Some ($"xxx" ++ [zero])) /\
  contents (sp_error (fst (ld (inl $"schema x") m))) (snd (ld (inl $"schema x") m)) = Some ($"bad text" ++ [zero]).
Proof. vm_compute. repeat split; auto. Qed.

(** ** C56 *)
(** The file receives the plan made of the given bytes, and a null pointer is returned exactly if saving succeeded. *)
Theorem C56_saves_partial : forall plan parse save data f,
  exists r, save_substrait_plan plan parse save data (Z.of_nat (length data)) f = Ok r /\
  snd r = save (fst (parse data)) f /\ (fst r = Null <-> save (fst (parse data)) f = None).
Proof.
  intros plan parse save data f. unfold save_substrait_plan. replace (Z.of_nat (length data) <? 0)%Z with false by (symmetry; apply Z.ltb_ge; lia).
  rewrite Z.ltb_irrefl, Nat2Z.id, firstn_all. eexists. split; [reflexivity|]. cbn. split; auto. destruct (save (fst (parse data)) f); split; auto; discriminate.
Qed.
Print Assumptions C56_saves_partial.
(** Bytes that are no plan are saved as whatever was read of them, without an error. *)
Theorem C56_bad_bytes_refuted : forall plan parse (save : plan -> format -> option str) data f p, parse data = (p, false) -> save p f = None ->
  save_substrait_plan plan parse save data (Z.of_nat (length data)) f = Ok (Null, None).
Proof.
  intros plan parse save data f p E S. unfold save_substrait_plan. replace (Z.of_nat (length data) <? 0)%Z with false by (symmetry; apply Z.ltb_ge; lia).
  rewrite Z.ltb_irrefl, Nat2Z.id, firstn_all, E. cbn. rewrite S. auto.
Qed.
Print Assumptions C56_bad_bytes_refuted.
(** Every failure to save returns a pointer to memory that is gone. *)
Theorem C56_dangling_message_refuted : forall plan parse (save : plan -> format -> option str) data f e, save (fst (parse data)) f = Some e ->
  exists r, save_substrait_plan plan parse save data (Z.of_nat (length data)) f = Ok r /\ fst r = Dangling.
Proof.
  intros plan parse save data f e S. unfold save_substrait_plan. replace (Z.of_nat (length data) <? 0)%Z with false by (symmetry; apply Z.ltb_ge; lia).
  rewrite Z.ltb_irrefl, Nat2Z.id, firstn_all, S. cbn. eauto.
Qed.
Print Assumptions C56_dangling_message_refuted.
Example C56_ex : save_substrait_plan nat (fun s => (length s, false)) (fun n _ => if n =? 2 then Some $"disk full" else None) $"abc" 3 FJson = Ok (Null, None) /\
  save_substrait_plan nat (fun s => (length s, true)) (fun n _ => if n =? 2 then Some $"disk full" else None) $"abc" 2 FJson = Ok (Dangling, Some $"disk full") /\
  save_substrait_plan nat (fun s => (length s, true)) (fun n _ => None) $"abc" (-1) FJson = Throw EStdInvalid.
Proof. vm_compute. auto. Qed.

(** ** C57 *)
(** Content with a marker of its own format and no marker of a format of higher priority is loaded as that format. *)
Theorem C57_loaded_as_partial : forall plan json prototext binary text s,
  loadPlan plan json prototext binary text (inl s) =
  match detectFormat s with FJson => loadFromJson plan json s | FProtoText => prototext s | FText => text s | FBinary => binary s end /\
  (looks_json s -> detectFormat s = FJson) /\
  (~ In (ascii_of_N 34) s -> looks_prototext s -> detectFormat s = FProtoText) /\
  (~ In (ascii_of_N 34) s -> ~ looks_prototext s -> looks_text s -> detectFormat s = FText).
Proof.
  intros plan json prototext binary text s. split; [cbn; destruct (detectFormat s); auto|]. repeat split; intros; apply detect_iff; cbn; auto using no_quote.
Qed.
Print Assumptions C57_loaded_as_partial.
(** A protobuf text or text plan mentioning one of four names in quotes, for example as the name of a table, is read as JSON. *)
Theorem C57_quoted_name_refuted : forall w a b, In w [$"extensionUris"; $"extension_uris"; $"extensions"; $"relations"] -> detectFormat (a ++ quoted w ++ b) = FJson.
Proof. intros w a b I. apply detect_iff. exists w. split; auto. exists a, b. auto. Qed.
Print Assumptions C57_quoted_name_refuted.
(** In a binary plan a newline is the tag of a first field; a 32 byte string in it that starts with a keyword makes it a text plan. *)
Theorem C57_binary_refuted : forall a k b, In k [$"pipelines"; $"schema"; $"source"; $"extension_space"] -> detectFormat (a ++ nl ++ $" " ++ k ++ b) <> FBinary.
Proof. intros a k b I. apply (newline_marker a k b I). Qed.
Print Assumptions C57_binary_refuted.
(** A JSON or protobuf text plan with only a version is read as a binary plan. *)
Theorem C57_version_only_refuted :
  detectFormat ($"{""version"":{""majorNumber"":1}}") = FBinary /\ detectFormat ($"version {" ++ nl ++ $"  major_number: 1" ++ nl ++ $"}") = FBinary /\ detectFormat $"{}" = FBinary.
Proof. vm_compute. auto. Qed.
Print Assumptions C57_version_only_refuted.
Example C57_ex : detectFormat ($"relations {" ++ nl ++ $"  names: ""relations""" ++ nl ++ $"}") = FJson /\ looks_prototext ($"relations {" ++ nl).
Proof. split; [vm_compute; reflexivity|]. apply prototext_iff. vm_compute. reflexivity. Qed.
