(** Whole text plans: the sections printed, cut into tokens, parsed, and the symbols they define. *)
From Verif Require Import Base BaseFacts StringsModel StringsFacts EscapeModel EscapeFacts DecimalModel DecimalFacts TypeModel TypeFacts TypeTextFacts TypeProtoFacts LexModel LexFacts NameModel NameFacts CutFacts
  ExprModel TypeTokenFacts LiteralFacts ExprFacts RelModel RelFacts SectionModel.
From Verif Require DeclModel.
From Coq Require Import Lia ZifyBool ZifyNat ZifyN.

(** * Specification *)
(** A text that is written between quotes as it is and read back: every quote in it comes right after a backslash, and no backslash is last. *)
Fixpoint quotable (after_backslash : bool) (s : str) : bool :=
  match s with
  | [] => negb after_backslash
  | c :: r => if ceq c dquote then after_backslash && quotable false r else quotable (ceq c backslash) r
  end.
Definition Quotable (s : str) : Prop := quotable false s = true.
(** Schemas, and what they are read as: the types up to what printing changes, and the struct itself is required if there are columns *)
Inductive SchemaReads : named_struct -> named_struct -> Prop :=
| SchemaR names types types' n : length names = length types -> Forall Name names -> Forall2 Printable types types' ->
    SchemaReads (NamedStruct names types n) (NamedStruct names types' (match types' with [] => NUnspecified | _ => NRequired end)).
(** Files, and what they are read as: only the address of a single file stays *)
Definition address (l : location) : option str := match l with UriPath s | UriPathGlob s | UriFile s | UriFolder s => Some s | NoLocation => None end.
Definition kept (l : location) : location := match l with UriFile s => UriFile s | _ => NoLocation end.
Inductive FileReads : file -> file -> Prop :=
| FileR l s p b n f : address l = Some s -> Quotable s -> (p < 2 ^ 64)%N -> (b < 2 ^ 64)%N -> (n < 2 ^ 64)%N -> f = Parquet \/ f = Orc -> FileReads (File l p b n f) (File (kept l) p b n f).
Inductive SourceReads : source -> source -> Prop :=
| SourceR_named l : l <> [] -> Forall Quotable l -> SourceReads (NamedTable l) (NamedTable l)
| SourceR_file f f' : FileReads f f' -> SourceReads (LocalFiles [f]) (LocalFiles [f']).
(** The name of a function with its signature *)
Definition FunctionName (s : str) : Prop := exists n sig, Name n /\ Name sig /\ s = n ++ $":" ++ sig.
Definition SpaceReads (b : DeclModel.block) : Prop :=
  match fst b with Some u => LUri u | None => True end /\ Forall (fun f => Name (fst f) /\ FunctionName (snd f)) (snd b).
(** The names that are defined by schemas and by sources, in order *)
Definition schema_names (l : list (str * named_struct)) : list str := concat (map (fun s => fst s :: ns_names (snd s)) l).
Definition table_names (s : source) : list str := match s with NamedTable l => l | _ => [] end.
Definition source_names (l : list (str * source)) : list str := concat (map (fun s => fst s :: table_names (snd s)) l).
Definition files_of (s : source) : list file := match s with LocalFiles l => l | _ => [] end.

(** * Fixed texts *)
Lemma cuts_then w k c y : w <> [] -> next_mode Default k = Default -> hidden k = false -> (forall r, next_token Default (w ++ c ++ r) = Some (k, length w)) -> Cuts any c y -> Cuts any (w ++ c) ((k, w) :: y).
Proof.
  intros Hw Hm Hh H Hc. apply (cuts_app (fun r => exists r', r = c ++ r') any w c [(k, w)] y); [|exact Hc|intros r _; exists r; reflexivity].
  apply cuts_token; [exact Hw|exact Hm|exact Hh|]. intros r (r' & ->). apply H.
Qed.
Ltac before := apply cuts_then; [discriminate|reflexivity|reflexivity|intros r; reflexivity|].
Lemma cuts_nl : Cuts any nl [].
Proof. apply cuts_blank. reflexivity. Qed.
Definition lb : token := (LEFTBRACE, $"{").
Definition lk : token := (LEFTBRACKET, $"[").
Definition rk : token := (RIGHTBRACKET, $"]").
Definition eq_ : token := (EQUAL, $"=").
Definition comma : token := (COMMA, $",").
Definition colon : token := (COLON, $":").
Lemma cuts_lbracket : Cuts any $"[" [lk]. Proof. punct. Qed.
Lemma cuts_rbracket : Cuts any $"]" [rk]. Proof. punct. Qed.
Lemma cuts_equal : Cuts any $"=" [eq_]. Proof. punct. Qed.
Lemma cuts_spaced k w : w <> [] -> next_mode Default k = Default -> hidden k = false -> (forall r, next_token Default (w ++ $" " ++ r) = Some (k, length w)) -> Cuts any (w ++ $" ") [(k, w)].
Proof. intros. apply cuts_then; try assumption. exact cuts_space. Qed.
Ltac spaced := apply cuts_spaced; [discriminate|reflexivity|reflexivity|intros r; reflexivity].
Lemma key_schema_ : Cuts any ($"schema" ++ $" ") [(SCHEMA, $"schema")]. Proof. spaced. Qed.
Lemma key_source_ : Cuts any ($"source" ++ $" ") [(SOURCE, $"source")]. Proof. spaced. Qed.
Lemma key_named_table : Cuts any ($"named_table" ++ $" ") [(NAMED_TABLE, $"named_table")]. Proof. spaced. Qed.
Lemma key_local_files : Cuts any ($"local_files" ++ $" ") [(LOCAL_FILES, $"local_files")]. Proof. spaced. Qed.
Lemma key_pipelines : Cuts any ($"pipelines" ++ $" ") [(PIPELINES, $"pipelines")]. Proof. spaced. Qed.
Lemma key_root : Cuts any ($"root" ++ $" ") [(ROOT, $"root")]. Proof. spaced. Qed.
Lemma key_function : Cuts any ($"  " ++ $"function" ++ $" ") [(FUNCTION, $"function")]. Proof. key. Qed.
Lemma key_as : Cuts any ($" " ++ $"as" ++ $" ") [(AS, $"as")]. Proof. key. Qed.
Lemma open_brace : Cuts any ($" {" ++ nl) [lb].
Proof. exact (cuts_any any $" " _ [] [lb] cuts_space (cuts_any any $"{" _ [lb] [] cuts_lbrace cuts_nl)). Qed.
Lemma close_brace : Cuts any ($"}" ++ nl) [rb].
Proof. exact (cuts_any any $"}" _ [rb] [] cuts_rbrace cuts_nl). Qed.
Lemma open_list k w : Cuts any ($"  " ++ w ++ $" ") [(k, w)] -> Cuts any ($"  " ++ w ++ $" = [" ++ nl) [(k, w); eq_; lk].
Proof.
  intros H. replace ($"  " ++ w ++ $" = [" ++ nl) with (($"  " ++ w ++ $" ") ++ $"=" ++ $" " ++ $"[" ++ nl) by (rewrite <- !app_assoc; reflexivity).
  apply (cuts_any any _ _ [(k, w)] [eq_; lk] H). exact (cuts_any any $"=" _ [eq_] [lk] cuts_equal (cuts_any any $" " _ [] [lk] cuts_space (cuts_any any $"[" _ [lk] [] cuts_lbracket cuts_nl))).
Qed.
Lemma key_names : Cuts any ($"  " ++ $"names" ++ $" ") [(NAMES, $"names")]. Proof. key. Qed.
Lemma key_items : Cuts any ($"  " ++ $"items" ++ $" ") [(ITEMS, $"items")]. Proof. key. Qed.
Lemma close_list : Cuts any ($"  ]" ++ nl) [rk].
Proof. exact (cuts_any any $"  " _ [] [rk] (cuts_blanks $"  " eq_refl) (cuts_any any $"]" _ [rk] [] cuts_rbracket cuts_nl)). Qed.
Lemma ends_space r : ends ($" " ++ r). Proof. split; [reflexivity|discriminate]. Qed.
Lemma ends_nl r : ends (nl ++ r). Proof. split; [reflexivity|discriminate]. Qed.
(** a name and an opening brace *)
Lemma titled n : Name n -> Cuts any (n ++ $" {" ++ nl) (name_tokens n ++ [lb]).
Proof. intros Hn. eapply cuts_app; [apply cuts_name, Hn|exact open_brace|]. intros r _. split; [reflexivity|discriminate]. Qed.

(** * Quoted texts *)
Lemma lex_quoted s : forall e pos best r, quotable e s = true -> lex_body e pos best (s ++ dquote :: r) = Some (S (pos + length s)).
Proof.
  induction s as [|c s IH]; intros e pos best r H; cbn [quotable] in H; cbn [app lex_body].
  - rewrite ceq_refl. destruct e; [discriminate|]. cbn [length]. f_equal. lia.
  - destruct (ceq c dquote) eqn:Q.
    + apply andb_true_iff in H as [-> H]. rewrite IH by exact H. cbn [length]. f_equal. lia.
    + rewrite IH by exact H. cbn [length]. f_equal. lia.
Qed.
Lemma next_string t r n : lex_string (dquote :: t ++ r) = Some n -> next_token Default (dquote :: t ++ r) = Some (STRING, n).
Proof.
  intros E. unfold next_token, rules_of. rewrite rules_split, !choose_app.
  rewrite (choose_none _ _ _ (keywords_none dquote _ eq_refl)).
  change (choose (words punctuation) (dquote :: t ++ r) None) with (@None (kind * nat)).
  cbn [choose]. rewrite E.
  change (identifier (dquote :: t ++ r)) with (@None nat). change (number (dquote :: t ++ r)) with (@None nat).
  change (raw1 (dquote :: t ++ r)) with (@None nat). change (raw 2 (dquote :: t ++ r)) with (@None nat).
  change (raw 3 (dquote :: t ++ r)) with (@None nat). change (comment (dquote :: t ++ r)) with (@None nat).
  change (spaces (dquote :: t ++ r)) with (@None nat). reflexivity.
Qed.
Lemma cuts_quoted s : Quotable s -> Cuts any (quoted s) [(STRING, quoted s)].
Proof.
  intros H. apply cuts_token; [discriminate|reflexivity|reflexivity|]. intros r _. unfold quoted. cbn [app].
  apply (next_string (s ++ [dquote]) r). unfold lex_string. rewrite ceq_refl, <- app_assoc. cbn [app]. rewrite (lex_quoted s _ _ _ _ H). cbn [length]. rewrite app_length. cbn [length]. f_equal. lia.
Qed.
Lemma extract_quoted s : extractFromString (quoted s) = s.
Proof.
  unfold extractFromString, quoted. replace (length (dquote :: s ++ [dquote]) <? 2) with false by (cbn [length]; rewrite app_length; cbn [length]; lia).
  unfold drop_last. cbn [rev]. rewrite rev_app_distr. cbn [rev app]. rewrite ceq_refl, rev_app_distr, rev_involutive. cbn [rev app drop_first]. rewrite ceq_refl. reflexivity.
Qed.
Lemma parse_quoted s : parseString (quoted s) = s.
Proof.
  unfold parseString, quoted. cbn [repeat starts]. change (ceq backtick dquote) with false. cbn [andb]. rewrite ceq_refl. cbn [orb]. unfold middle. cbn [skipn length]. rewrite app_length. cbn [length].
  replace (S (length s + 1) - 2 * 1) with (length s + 0) by lia. rewrite firstn_app_2. cbn [firstn]. apply app_nil_r.
Qed.

(** * Texts that are definitions *)
Definition Detail (t : str) (n : pnode) : Prop := exists ts, Cuts any t ts /\ ts <> [] /\ forall k, p_plan_detail (ts ++ k) = Some (n, k).
Definition Texts (t : str) (ns : list pnode) : Prop :=
  exists ts, Cuts any t ts /\ forall k fuel, length ts <= fuel -> exists f', fuel <= f' + length ts /\ p_plan fuel (ts ++ k) = option_map (app ns) (p_plan f' k).
Lemma map_id {A} (o : option (list A)) : option_map (app []) o = o.
Proof. destruct o; reflexivity. Qed.
Lemma texts_blank t : Cuts any t [] -> Texts t [].
Proof. intros H. exists []. split; [exact H|]. intros k fuel _. exists fuel. split; [cbn; lia|]. rewrite map_id. reflexivity. Qed.
Lemma texts_detail t n : Detail t n -> Texts t [n].
Proof.
  intros (ts & Hc & Hne & Hp). exists ts. split; [exact Hc|]. intros k fuel Hf. destruct ts as [|x ts]; [congruence|]. cbn [length] in Hf. destruct fuel as [|fuel]; [lia|]. exists fuel. split; [cbn [length]; lia|].
  specialize (Hp k). cbn [app] in *. cbn [p_plan]. rewrite Hp. reflexivity.
Qed.
Lemma texts_app t u a b : Texts t a -> Texts u b -> Texts (t ++ u) (a ++ b).
Proof.
  intros (x & Hx & Px) (y & Hy & Py). exists (x ++ y). split; [apply cuts_any; assumption|]. intros k fuel Hf. rewrite app_length in *. destruct (Px (y ++ k) fuel ltac:(lia)) as (f1 & H1 & E1). destruct (Py k f1 ltac:(lia)) as (f2 & H2 & E2).
  exists f2. split; [lia|]. rewrite <- app_assoc. unfold token in *. rewrite E1, E2. destruct (p_plan f2 k); [|reflexivity]. cbn. rewrite app_assoc. reflexivity.
Qed.
Lemma texts_separated ts ns : Forall2 Texts ts ns -> Texts (separated ts) (concat ns).
Proof.
  induction 1 as [|t n ts ns Ht Hts IH]; [apply texts_blank, cuts_nil|]. destruct ts as [|u ts].
  - inversion Hts; subst. cbn [separated concat]. rewrite app_nil_r. exact Ht.
  - cbn [separated concat] in *. apply texts_app; [exact Ht|]. apply (texts_app nl _ []); [apply texts_blank, cuts_nl|exact IH].
Qed.
Lemma texts_parse t ns : Texts t ns -> parse t = Some ns.
Proof.
  intros (ts & Hc & Hp). unfold parse. rewrite (cuts_tokens any t ts Hc I). destruct (Hp [] (length ts) (le_n _)) as (f' & _ & E). rewrite app_nil_r in E. rewrite E. destruct f'; cbn; rewrite app_nil_r; reflexivity.
Qed.

(** * Lists in braces *)
Definition Item {A} (p : list token -> option (A * list token)) (t : str) (a : A) : Prop := exists ts, Cuts any t ts /\ head_ok ts /\ forall k, p (ts ++ k) = Some (a, k).
Lemma together_texts l : together (map (fun t => @Ok printed (t, 0)) l) = Ok (concat l, 0).
Proof. induction l as [|t l IH]; [reflexivity|]. cbn [map concat]. apply together_cons; [reflexivity|exact IH]. Qed.
Lemma items_end {A} (p : list token -> option (A * list token)) texts l : Forall2 (Item p) texts l ->
  exists ts, Cuts any (concat texts) ts /\ forall k fuel, length ts <= fuel -> p_many p fuel (ts ++ rb :: k) = Some (l, k).
Proof.
  intros H. assert (L : Forall2 (Line p) (map (fun t => @Ok printed (t, 0)) texts) l).
  { induction H as [|t a texts l (ts & H1 & H2 & H3) _ IH]; constructor; [|exact IH]. exists t, ts. auto. }
  destruct (lines_end p _ _ L) as (t & ts & E & Hc & Hp). rewrite together_texts in E. injection E as <-. exists ts. auto.
Qed.
Lemma in_braces {A B} (p : list token -> option (A * list token)) (f : list A -> B) texts l : Forall2 (Item p) texts l ->
  exists ts, Cuts any (concat texts ++ $"}" ++ nl) ts /\ forall k, p_in_braces p f (lb :: ts ++ k) = Some (f l, k).
Proof.
  intros H. destruct (items_end p texts l H) as (ts & Hc & Hp). exists (ts ++ [rb]). split; [apply cuts_any; [exact Hc|exact close_brace]|]. intros k. unfold p_in_braces. cbn [t_lbrace lb].
  rewrite <- app_assoc. cbn [app]. rewrite Hp; [reflexivity|]. rewrite app_length. lia.
Qed.
Lemma titled_read {A} (p : list token -> option (A * list token)) f n ts a k : Name n -> p (lb :: ts ++ k) = Some (a, k) -> p_titled p f ((name_tokens n ++ [lb]) ++ ts ++ k) = Some (f n a, k).
Proof. intros Hn H. unfold p_titled. rewrite <- app_assoc. unfold name_tokens. rw (name_read n ([lb] ++ ts ++ k) Hn ltac:(discriminate)). cbn [app]. rw H. reflexivity. Qed.

(** * Schemas *)
Lemma type_no_bar s ts k : TypeText s ts -> no_bar (ts ++ k).
Proof.
  intros T. pose proof (tt_long _ _ T) as L. pose proof (tt_parse _ _ T [] I) as P. destruct ts as [|[x y] ts]; [cbn in L; lia|]. cbn [app no_bar]. intros ->. discriminate P.
Qed.
Lemma item_read n t t' : Name n -> Printable t t' -> Item p_item (column_line (n, t)) (n, fst (printType t)).
Proof.
  intros Hn Ht. destruct (printable_text t t' Ht) as (ts & T). exists (name_tokens n ++ ts ++ [sc]). split; [|split].
  - unfold column_line. cbn [fst snd]. apply (cuts_any any $"  " _ []); [apply cuts_blanks; reflexivity|]. eapply cuts_app; [apply cuts_name, Hn| |].
    + apply (cuts_any any $" " _ [] (ts ++ [sc]) cuts_space). eapply cuts_app; [apply T|exact cuts_end|]. intros r _. apply ends_end.
    + intros r _. split; [reflexivity|discriminate].
  - destruct (name_start n Hn) as (k & x & r & -> & Hk). cbn [app head_ok]. intros ->. discriminate.
  - intros k. unfold p_item. rewrite <- !app_assoc. unfold name_tokens. rw (name_read n (ts ++ [sc] ++ k) Hn (type_no_bar _ _ _ T)). rewrite (tt_complex _ _ _ _ T) by reflexivity. reflexivity.
Qed.
Definition items_of (s : named_struct) : list (str * str) := map (fun c => (fst c, fst (printType (snd c)))) (combine (ns_names s) (ns_types s)).
Lemma schema_detail n s s' : Name n -> SchemaReads s s' -> Detail (printSchema n s) (PSchema n (items_of s)).
Proof.
  intros Hn H. destruct H as [names types types' u Hl Hns Hts]. unfold printSchema, items_of. cbn [ns_names ns_types].
  assert (F : Forall2 (Item p_item) (map column_line (combine names types)) (map (fun c => (fst c, fst (printType (snd c)))) (combine names types))).
  { clear u. revert types types' Hl Hts. induction Hns as [|m names Hm _ IH]; intros [|t types] types' Hl Hts; try discriminate; inversion Hts; subst; cbn [combine map]; constructor.
    - eapply item_read; [exact Hm|eassumption].
    - eapply IH; [|eassumption]. cbn in Hl. lia. }
  destruct (in_braces p_item (fun l => l) _ _ F) as (ts & Hc & Hp). exists ((SCHEMA, $"schema") :: (name_tokens n ++ [lb]) ++ ts). split; [|split].
  - replace ($"schema " ++ n ++ $" {" ++ nl ++ concat (map column_line (combine names types)) ++ $"}" ++ nl) with (($"schema" ++ $" ") ++ (n ++ $" {" ++ nl) ++ concat (map column_line (combine names types)) ++ $"}" ++ nl) by (rewrite <- !app_assoc; reflexivity).
    apply (cuts_any any _ _ [(SCHEMA, $"schema")] _ key_schema_). apply cuts_any; [apply titled, Hn|exact Hc].
  - discriminate.
  - intros k. cbn [app]. rewrite <- app_assoc. unfold p_plan_detail.
    assert (G : goes_on ((name_tokens n ++ [lb]) ++ ts ++ k) = false). { destruct (name_start n Hn) as (x & y & r & -> & Hx). cbn. destruct x; try reflexivity; discriminate Hx. }
    unfold p_start. rw G. apply titled_read; [exact Hn|apply Hp].
Qed.

(** * Sources *)
Lemma listed_strings l : forall fuel k, l <> [] -> length l <= fuel ->
  p_listed t_string fuel (concat (map (fun s => [(STRING, quoted s); comma]) l) ++ rk :: k) = Some (map quoted l, k).
Proof.
  induction l as [|s l IH]; intros fuel k Hl Hf; [congruence|]. cbn [length] in Hf. destruct fuel as [|fuel]; [lia|]. cbn [map concat app p_listed t_string comma t_comma].
  destruct l as [|u l]; [reflexivity|]. specialize (IH fuel k ltac:(discriminate) ltac:(lia)). cbn [map concat app t_rbracket] in *. unfold token in *. rewrite IH. reflexivity.
Qed.
Lemma strings_cut l : Forall Quotable l -> Cuts any (concat (map name_item l)) (concat (map (fun s => [(STRING, quoted s); comma]) l)).
Proof.
  induction 1 as [|s l Hs _ IH]; [apply cuts_nil|]. cbn [map concat]. apply cuts_any; [|exact IH]. unfold name_item. apply (cuts_any any $"    " _ []); [apply cuts_blanks; reflexivity|].
  apply (cuts_any any _ _ [(STRING, quoted s)] [comma]); [apply cuts_quoted, Hs|]. exact (cuts_any any $"," _ [comma] [] cuts_comma cuts_nl).
Qed.
Lemma strings_long l k : length l <= length (concat (map (fun s => [(STRING, quoted s); comma]) l) ++ k).
Proof. induction l; cbn [map concat app length] in *; lia. Qed.
Lemma named_item l : l <> [] -> Forall Quotable l -> Item p_named ($"  names = [" ++ nl ++ concat (map name_item l) ++ $"  ]" ++ nl) (map quoted l).
Proof.
  intros Hl H. exists ([(NAMES, $"names"); eq_; lk] ++ concat (map (fun s => [(STRING, quoted s); comma]) l) ++ [rk]). split; [|split].
  - replace ($"  names = [" ++ nl ++ concat (map name_item l) ++ $"  ]" ++ nl) with (($"  " ++ $"names" ++ $" = [" ++ nl) ++ concat (map name_item l) ++ $"  ]" ++ nl) by (rewrite <- !app_assoc; reflexivity).
    apply cuts_any; [apply open_list, key_names|]. apply cuts_any; [apply strings_cut, H|exact close_list].
  - discriminate.
  - intros k. cbn [app]. unfold p_named. cbn [t_names]. unfold p_brackets. cbn [t_equal eq_ t_lbracket lk]. rewrite <- app_assoc. cbn [app]. rewrite listed_strings; [reflexivity|exact Hl|apply strings_long].
Qed.
(** a source with one list *)
Lemma source_detail {A} (p : list token -> option (list A * list token)) f key kt n t l : Name n -> Cuts any (key ++ $" ") [(kt, key)] ->
  (forall r, p_plan_detail ((SOURCE, $"source") :: (kt, key) :: r) = p_titled (p_in_braces p (@concat _)) f r) -> Item p t l ->
  Detail (($"source" ++ $" ") ++ (key ++ $" ") ++ (n ++ $" {" ++ nl) ++ t ++ $"}" ++ nl) (f n l).
Proof.
  intros Hn Hk Hs H. destruct (in_braces p (@concat _) [t] [l] (Forall2_cons t l H (Forall2_nil _))) as (ts & Hc & Hp). cbn [concat] in Hc, Hp. rewrite app_nil_r in Hc. rewrite app_nil_r in Hp.
  exists ((SOURCE, $"source") :: (kt, key) :: (name_tokens n ++ [lb]) ++ ts). split; [|split].
  - apply (cuts_any any _ _ [(SOURCE, $"source")] _ key_source_). apply (cuts_any any _ _ [(kt, key)] _ Hk). apply cuts_any; [apply titled, Hn|exact Hc].
  - discriminate.
  - intros k. cbn [app]. rewrite <- app_assoc, Hs. apply titled_read; [exact Hn|apply Hp].
Qed.
Lemma named_detail n l : Name n -> l <> [] -> Forall Quotable l -> exists t, printSource n (NamedTable l) = Ok t /\ Detail t (PSource n (SNamed (map quoted l))).
Proof.
  intros Hn Hl H. eexists. split; [reflexivity|]. pose proof (source_detail p_named (fun n l => PSource n (SNamed l)) $"named_table" NAMED_TABLE n _ _ Hn key_named_table ltac:(reflexivity) (named_item l Hl H)) as X.
  match type of X with Detail ?a _ => match goal with |- Detail ?b _ => replace b with a; [exact X|] end end. rewrite <- !app_assoc. reflexivity.
Qed.
(** ** Files *)
Definition uri_key (l : location) : str := match l with UriPath _ => $"uri_path" | UriPathGlob _ => $"uri_path_glob" | UriFile _ => $"uri_file" | UriFolder _ => $"uri_folder" | NoLocation => [] end.
Definition uri_kind (l : location) : kind := match l with UriPath _ => URI_PATH | UriPathGlob _ => URI_PATH_GLOB | UriFile _ => URI_FILE | _ => URI_FOLDER end.
Definition is_file (l : location) : bool := match l with UriFile _ => true | _ => false end.
Definition format_key (f : format) : str := match f with Orc => $"orc" | Arrow => $"arrow" | Dwrf => $"dwrf" | _ => $"parquet" end.
Definition format_kind (f : format) : kind := match f with Orc => ORC | Arrow | Dwrf => IDENTIFIER | _ => PARQUET end.
Definition printable_format (f : format) : bool := match f with ExtensionFormat | NoFormat => false | _ => true end.
Definition format_detail (f : format) : fdetail := match f with Orc => DOrc | _ => DParquet end.
Definition some_position (f : file) : bool := negb ((f_start f =? 0)%N && (f_length f =? 0)%N).
Definition details_of (f : file) (s : str) : list fdetail :=
  DLocation (is_file (f_location f)) (quoted s) :: (if (f_partition f =? 0)%N then [] else [DPartition (print_N (f_partition f))]) ++
  (if some_position f then [DStart (print_N (f_start f)); DLength (print_N (f_length f))] else []) ++ [format_detail (f_format f)].
Definition number_text (w : str) (n : N) : str := $" " ++ w ++ $": " ++ print_N n.
Definition number_tokens (k : kind) (w : str) (n : N) : list token := [(k, w); colon; (NUMBER, print_N n)].
Definition last_tokens (f : file) : list token := [(format_kind (f_format f), format_key (f_format f)); colon; lb; rb].
Definition file_tokens (f : file) (s : str) : list token :=
  [(uri_kind (f_location f), uri_key (f_location f)); colon; (STRING, quoted s)] ++
  (if (f_partition f =? 0)%N then [] else number_tokens PARTITION_INDEX $"partition_index" (f_partition f)) ++
  (if some_position f then number_tokens START $"start" (f_start f) ++ number_tokens LENGTH $"length" (f_length f) else []) ++ last_tokens f.
Lemma colon_space : Cuts any $": " [colon].
Proof. exact (cuts_any any $":" _ [colon] [] cuts_colon cuts_space). Qed.
Lemma number_cuts w k n : w <> [] -> next_mode Default k = Default -> hidden k = false -> (forall r, next_token Default (w ++ $": " ++ r) = Some (k, length w)) ->
  Cuts no_number (number_text w n) (number_tokens k w n).
Proof.
  intros Hw Hm Hh H. unfold number_text. apply (cuts_any no_number $" " _ [] _ cuts_space). rewrite app_assoc. apply (cuts_any no_number _ _ [(k, w); colon] [(NUMBER, print_N n)]); [|apply cuts_number, print_N_number].
  apply cuts_then; try assumption. exact colon_space.
Qed.
Lemma space_no_number r : no_number ($" " ++ r).
Proof. cbn. repeat split; discriminate. Qed.
Definition file_text (f : file) (s : str) : str :=
  (uri_key (f_location f) ++ $": ") ++ quoted s ++ (if (f_partition f =? 0)%N then [] else number_text $"partition_index" (f_partition f)) ++
  (if some_position f then number_text $"start" (f_start f) ++ number_text $"length" (f_length f) else []) ++ $" " ++ format_key (f_format f) ++ $": {}".
Lemma format_printable f : f = Parquet \/ f = Orc -> printable_format f = true.
Proof. intros [-> | ->]; reflexivity. Qed.
Lemma file_printed f s : address (f_location f) = Some s -> printable_format (f_format f) = true -> localFileToText f = Ok (file_text f s).
Proof.
  intros Ha Hf. unfold localFileToText, file_text, number_text, some_position. destruct f as [l p b n f]. cbn [f_location f_partition f_start f_length f_format] in *.
  destruct l; try discriminate Ha; injection Ha as ->; destruct f; try discriminate Hf; cbn [location_text format_text obind uri_key]; f_equal; rewrite <- !app_assoc; destruct (p =? 0)%N, ((b =? 0)%N && (n =? 0)%N); reflexivity.
Qed.
Lemma file_cuts f s : address (f_location f) = Some s -> printable_format (f_format f) = true -> Quotable s -> Cuts any (file_text f s) (file_tokens f s).
Proof.
  intros Ha Hf Hs. unfold file_text, file_tokens.
  assert (A : Cuts any (uri_key (f_location f) ++ $": ") [(uri_kind (f_location f), uri_key (f_location f)); colon]).
  { destruct (f_location f); try discriminate Ha; cbn [uri_key uri_kind]; (apply cuts_then; [discriminate|reflexivity|reflexivity|intros r; reflexivity|exact colon_space]). }
  assert (E : Cuts any ($" " ++ format_key (f_format f) ++ $": {}") (last_tokens f)).
  { apply (cuts_any any $" " _ [] _ cuts_space). assert (B : Cuts any $": {}" [colon; lb; rb]) by exact (cuts_any any $": " _ [colon] _ colon_space (cuts_any any $"{" _ [lb] _ cuts_lbrace cuts_rbrace)).
    unfold last_tokens. destruct (f_format f); try discriminate Hf; cbn [format_key format_kind]; (apply cuts_then; [discriminate|reflexivity|reflexivity|intros r; reflexivity|exact B]). }
  set (e := $" " ++ format_key (f_format f) ++ $": {}") in *. assert (N1 : forall r, no_number (e ++ r)) by (intros r; apply space_no_number).
  assert (D : Cuts any ((if some_position f then number_text $"start" (f_start f) ++ number_text $"length" (f_length f) else []) ++ e)
    ((if some_position f then number_tokens START $"start" (f_start f) ++ number_tokens LENGTH $"length" (f_length f) else []) ++ (last_tokens f))).
  { destruct (some_position f); [|exact E]. rewrite <- !app_assoc. eapply cuts_app; [apply number_cuts; [discriminate|reflexivity|reflexivity|intros r; reflexivity]| |].
    - eapply cuts_app; [apply number_cuts; [discriminate|reflexivity|reflexivity|intros r; reflexivity]|exact E|intros r _; apply N1].
    - intros r _. apply space_no_number. }
  set (d := (if some_position f then _ else _) ++ e) in D |- *. assert (N2 : forall r, no_number (d ++ r)) by (intros r; unfold d; destruct (some_position f); [apply space_no_number|rewrite <- app_assoc; apply N1]).
  apply (cuts_any any _ _ [(uri_kind (f_location f), uri_key (f_location f)); colon] _ A). apply (cuts_any any _ _ [(STRING, quoted s)] _ (cuts_quoted s Hs)).
  destruct (f_partition f =? 0)%N; [exact D|]. eapply cuts_app; [apply number_cuts; [discriminate|reflexivity|reflexivity|intros r; reflexivity]|exact D|intros r _; apply N2].
Qed.
Lemma file_parse f s k fuel : address (f_location f) = Some s -> f_format f = Parquet \/ f_format f = Orc -> length (file_tokens f s) <= fuel -> p_many p_fdetail fuel (file_tokens f s ++ rb :: k) = Some (details_of f s, k).
Proof.
  intros Ha Hf Hl. assert (E : forall fuel, 2 <= fuel -> p_many p_fdetail fuel ((last_tokens f) ++ rb :: k) = Some ([format_detail (f_format f)], k)).
  { intros [|[|g]] Hg; try lia. unfold last_tokens. destruct Hf as [-> | ->]; reflexivity. }
  assert (U : forall fuel ts l, p_many p_fdetail fuel ts = Some (l, k) -> p_many p_fdetail (S fuel) ([(uri_kind (f_location f), uri_key (f_location f)); colon; (STRING, quoted s)] ++ ts) = Some (DLocation (is_file (f_location f)) (quoted s) :: l, k)).
  { intros g ts l H. destruct (f_location f); try discriminate Ha; cbn [uri_kind uri_key is_file app p_many t_rbrace p_fdetail f_head p_colon t_colon colon t_string]; rewrite H; reflexivity. }
  unfold file_tokens, details_of in *. rewrite !app_length in Hl. change (length (last_tokens f)) with 4 in Hl. cbn [length] in Hl. destruct fuel as [|fuel]; [lia|]. rewrite <- app_assoc. apply U. rewrite <- !app_assoc. clear U.
  destruct (f_partition f =? 0)%N.
  - cbn [app]. destruct (some_position f).
    + rewrite app_length in Hl. cbn [length number_tokens] in Hl. destruct fuel as [|[|fuel]]; try lia. unfold number_tokens. rewrite <- app_assoc.
      cbn [app p_many t_rbrace p_fdetail f_head p_colon t_colon colon t_number]. rw (E fuel ltac:(lia)). reflexivity.
    + cbn [app]. apply E. cbn [length] in Hl. lia.
  - cbn [length number_tokens] in Hl. destruct fuel as [|fuel]; try lia. unfold number_tokens at 1. cbn [app p_many t_rbrace p_fdetail f_head p_colon t_colon colon t_number]. destruct (some_position f).
    + rewrite app_length in Hl. cbn [length number_tokens] in Hl. destruct fuel as [|[|fuel]]; try lia. unfold number_tokens. rewrite <- app_assoc.
      cbn [app p_many t_rbrace p_fdetail f_head p_colon t_colon colon t_number]. rw (E fuel ltac:(lia)). reflexivity.
    + cbn [app length] in *. rw (E fuel ltac:(lia)). reflexivity.
Qed.
(** the text of the symbol *)
Definition file_name (f : file) (s : str) : str := text_of (lb :: file_tokens f s ++ [rb]).
Lemma local_item f s : address (f_location f) = Some s -> f_format f = Parquet \/ f_format f = Orc -> Quotable s ->
  Item p_local ($"  items = [" ++ nl ++ ($"    {" ++ file_text f s ++ $"}" ++ nl) ++ $"  ]" ++ nl) [FNode (file_name f s) (details_of f s)].
Proof.
  intros Ha Hf Hs. exists ([(ITEMS, $"items"); eq_; lk] ++ (lb :: file_tokens f s ++ [rb]) ++ [rk]). split; [|split].
  - replace ($"  items = [" ++ nl ++ ($"    {" ++ file_text f s ++ $"}" ++ nl) ++ $"  ]" ++ nl) with (($"  " ++ $"items" ++ $" = [" ++ nl) ++ ($"    {" ++ file_text f s ++ $"}" ++ nl) ++ $"  ]" ++ nl) by (rewrite <- !app_assoc; reflexivity).
    apply cuts_any; [apply open_list, key_items|]. apply cuts_any; [|exact close_list].
    apply (cuts_any any $"    {" _ [lb] _ (cuts_any any $"    " _ [] [lb] (cuts_blanks $"    " eq_refl) cuts_lbrace)). apply cuts_any; [apply file_cuts; [|apply format_printable|]; assumption|exact close_brace].
  - discriminate.
  - intros k. cbn [app]. unfold p_local. cbn [t_items]. unfold p_brackets. cbn [t_equal eq_ t_lbracket lk length p_listed]. rewrite <- !app_assoc. cbn [app].
    assert (P : p_file (lb :: file_tokens f s ++ rb :: rk :: k) = Some (FNode (file_name f s) (details_of f s), rk :: k)).
    { unfold p_file. cbn [t_lbrace lb]. rewrite file_parse; try assumption; [|rewrite app_length; lia]. f_equal. f_equal. f_equal. unfold file_name.
      replace (lb :: file_tokens f s ++ rb :: rk :: k) with ((lb :: file_tokens f s ++ [rb]) ++ rk :: k) by (cbn [app]; rewrite <- app_assoc; reflexivity). apply consumed_text. }
    rw P. reflexivity.
Qed.
Lemma local_detail n f s : Name n -> address (f_location f) = Some s -> f_format f = Parquet \/ f_format f = Orc -> Quotable s ->
  exists t, printSource n (LocalFiles [f]) = Ok t /\ Detail t (PSource n (SLocal [FNode (file_name f s) (details_of f s)])).
Proof.
  intros Hn Ha Hf Hs. eexists. split; [cbn [printSource each]; rewrite (file_printed f s Ha (format_printable _ Hf)); reflexivity|].
  pose proof (source_detail p_local (fun n l => PSource n (SLocal l)) $"local_files" LOCAL_FILES n _ _ Hn key_local_files ltac:(reflexivity) (local_item f s Ha Hf Hs)) as X.
  match type of X with Detail ?a _ => match goal with |- Detail ?b _ => replace b with a; [exact X|] end end. cbn [map concat]. rewrite <- !app_assoc. reflexivity.
Qed.

(** * Pipelines *)
Definition twice (n : str) : str * str := (n, n).
Definition arrow_tokens (r : list str) : list token := concat (map (fun b => (ARROW, $"->") :: name_tokens b) r).
Lemma arrow_spaces : Cuts any $" -> " [(ARROW, $"->")].
Proof. exact (cuts_any any $" " _ [] _ cuts_space (cuts_any any $"->" _ [(ARROW, $"->")] [] cuts_arrow cuts_space)). Qed.
Lemma arrows_cut r : Forall Name r -> Cuts ends (concat (map (fun b => $" -> " ++ b) r)) (arrow_tokens r).
Proof.
  induction 1 as [|b r Hb _ IH]; [apply cuts_nil|]. unfold arrow_tokens. cbn [map concat]. rewrite <- app_assoc. apply (cuts_any ends $" -> " _ [(ARROW, $"->")] (name_tokens b ++ arrow_tokens r) arrow_spaces).
  eapply cuts_app; [apply cuts_name, Hb|exact IH|]. intros s Hs. destruct r; [exact Hs|]. split; [reflexivity|discriminate].
Qed.
Lemma elem_read n k : Name n -> no_bar k -> t_lparen k = None -> p_elem (name_tokens n ++ k) = Some (twice n, k).
Proof.
  intros Hn Hk Hl. unfold p_elem, p_ref. unfold name_tokens at 1. rw (name_read n k Hn Hk). rewrite Hl. f_equal. f_equal. unfold twice. f_equal. unfold name_tokens. fold (name_tokens n).
  etransitivity; [exact (consumed_text (name_tokens n) k)|]. apply name_text, Hn.
Qed.
Lemma arrows_head r k : no_bar (arrow_tokens r ++ sc :: k) /\ t_lparen (arrow_tokens r ++ sc :: k) = None.
Proof. destruct r; cbn; split; try reflexivity; discriminate. Qed.
Lemma arrows_read r : forall fuel k, Forall Name r -> length r <= fuel -> p_arrows fuel (arrow_tokens r ++ sc :: k) = Some (map twice r, sc :: k).
Proof.
  induction r as [|b r IH]; intros fuel k H Hf; [destruct fuel; reflexivity|]. inversion H as [|x y Hb Hr]; subst. cbn [length] in Hf. destruct fuel as [|fuel]; [lia|].
  destruct (arrows_head r k) as (A & B). unfold arrow_tokens. cbn [map concat]. fold (arrow_tokens r). rewrite <- app_assoc. cbn [app p_arrows t_arrow]. rw (elem_read b (arrow_tokens r ++ sc :: k) Hb A B). rw (IH fuel k Hr ltac:(lia)). reflexivity.
Qed.
Lemma arrows_long r k : length r <= length (arrow_tokens r ++ k).
Proof.
  rewrite app_length. enough (length r <= length (arrow_tokens r)) by lia. induction r as [|b r IH]; [apply le_n|].
  change (arrow_tokens (b :: r)) with ((ARROW, $"->") :: name_tokens b ++ arrow_tokens r). cbn [length]. rewrite app_length. lia.
Qed.
Lemma name_head_ok n k : Name n -> head_ok (name_tokens n ++ k).
Proof. intros Hn. destruct (name_start n Hn) as (x & y & r & -> & Hx). cbn [app head_ok]. intros ->. discriminate. Qed.
Lemma pipeline_item p : p <> [] -> Forall Name p -> Item p_pipeline (pipeline_text p) (map twice p).
Proof.
  intros Hp H. destruct p as [|a r]; [congruence|]. inversion H as [|x y Ha Hr]; subst. exists (name_tokens a ++ arrow_tokens r ++ [sc]). split; [|split].
  - unfold pipeline_text. rewrite <- !app_assoc. apply (cuts_any any $"  " _ []); [apply cuts_blanks; reflexivity|]. eapply cuts_app; [apply cuts_name, Ha| |].
    + eapply cuts_app; [apply arrows_cut, Hr|exact cuts_end|]. intros s _. apply ends_end.
    + intros s _. destruct r; (split; [reflexivity|discriminate]).
  - apply name_head_ok, Ha.
  - intros k. destruct (arrows_head r k) as (A & B). unfold p_pipeline. rewrite <- !app_assoc. cbn [app]. rw (elem_read a (arrow_tokens r ++ sc :: k) Ha A B). rw (arrows_read r (length (arrow_tokens r ++ sc :: k)) k Hr (arrows_long r _)). reflexivity.
Qed.
Lemma items_map {A B} (p : list token -> option (A * list token)) (f : B -> str) (g : B -> A) (P : B -> Prop) l : (forall b, P b -> Item p (f b) (g b)) -> Forall P l -> Forall2 (Item p) (map f l) (map g l).
Proof. intros H. induction 1; constructor; auto. Qed.
Lemma pipelines_detail l : l <> [] -> Forall (fun p => p <> [] /\ Forall Name p) l -> Detail (printPipelines l) (PPipelines (map (map twice) l)).
Proof.
  intros Hl H. unfold printPipelines. destruct l as [|p l]; [congruence|]. set (q := p :: l) in *. clearbody q. clear p l.
  destruct (in_braces p_pipeline PPipelines _ _ (items_map p_pipeline pipeline_text (map twice) _ q (fun p H => pipeline_item p (proj1 H) (proj2 H)) H)) as (ts & Hc & Hp).
  exists ((PIPELINES, $"pipelines") :: lb :: ts). split; [|split; [discriminate|intros k; apply Hp]].
  replace ($"pipelines {" ++ nl ++ concat (map pipeline_text q) ++ $"}" ++ nl) with (($"pipelines" ++ $" ") ++ ($"{" ++ nl) ++ concat (map pipeline_text q) ++ $"}" ++ nl) by (rewrite <- !app_assoc; reflexivity).
  apply (cuts_any any _ _ [(PIPELINES, $"pipelines")] _ key_pipelines). apply (cuts_any any _ _ [lb] _); [|exact Hc]. exact (cuts_any any $"{" _ [lb] [] cuts_lbrace cuts_nl).
Qed.

(** * Roots *)
Definition comma_tokens (r : list str) : list token := concat (map (fun m => comma :: name_tokens m) r).
Lemma listed_names r : forall n fuel k, Name n -> Forall Name r -> length r < fuel -> p_listed p_id fuel (name_tokens n ++ comma_tokens r ++ rk :: k) = Some (n :: r, k).
Proof.
  induction r as [|m r IH]; intros n fuel k Hn H Hf; (destruct fuel as [|fuel]; [lia|]); unfold comma_tokens; cbn [map concat app p_listed]; unfold name_tokens at 1.
  - rw (name_read n (rk :: k) Hn ltac:(discriminate)). reflexivity.
  - inversion H as [|x y Hm Hr]; subst. cbn [length] in Hf. fold (comma_tokens r). rewrite <- app_assoc. cbn [app]. unfold comma at 1. rw (name_read n ((COMMA, $",") :: name_tokens m ++ comma_tokens r ++ rk :: k) Hn ltac:(discriminate)). cbn [t_comma].
    assert (T : t_rbracket (name_tokens m ++ comma_tokens r ++ rk :: k) = None). { destruct (name_start m Hm) as (x & y & z & -> & Hx). cbn. destruct x; try reflexivity; discriminate Hx. }
    rw T. rw (IH m fuel k Hm Hr ltac:(lia)). reflexivity.
Qed.
Lemma names_cut r : Forall Name r -> Cuts ends (concat (map (fun m => $"," ++ nl ++ $"    " ++ m) r)) (comma_tokens r).
Proof.
  induction 1 as [|b r Hb _ IH]; [apply cuts_nil|]. unfold comma_tokens. cbn [map concat]. rewrite <- !app_assoc.
  change (($"," ++ nl ++ $"    " ++ b ++ concat (map (fun m => $"," ++ nl ++ $"    " ++ m) r))) with ($"," ++ (nl ++ $"    ") ++ b ++ concat (map (fun m => $"," ++ nl ++ $"    " ++ m) r)).
  apply (cuts_any ends $"," _ [comma] (name_tokens b ++ comma_tokens r) cuts_comma). apply (cuts_any ends _ _ []); [apply cuts_blanks; reflexivity|].
  eapply cuts_app; [apply cuts_name, Hb|exact IH|]. intros s Hs. destruct r; [exact Hs|]. split; [reflexivity|discriminate].
Qed.
Lemma comma_long r k : length r < length (comma_tokens r ++ rk :: k).
Proof.
  rewrite app_length. cbn [length]. enough (length r <= length (comma_tokens r)) by lia. induction r as [|b r IH]; [apply le_n|].
  change (comma_tokens (b :: r)) with (comma :: name_tokens b ++ comma_tokens r). cbn [length]. rewrite app_length. lia.
Qed.
Lemma root_detail l : l <> [] -> Forall Name l -> Detail (root_text l) (PRoot l).
Proof.
  intros Hl H. destruct l as [|n r]; [congruence|]. inversion H as [|x y Hn Hr]; subst. exists ([(ROOT, $"root"); lb; (NAMES, $"names"); eq_; lk] ++ name_tokens n ++ comma_tokens r ++ [rk; rb]). split; [|split; [discriminate|]].
  - unfold root_text. replace ($"root {" ++ nl ++ $"  names = [" ++ nl ++ $"    " ++ n ++ concat (map (fun m => $"," ++ nl ++ $"    " ++ m) r) ++ nl ++ $"  ]" ++ nl ++ $"}" ++ nl)
      with (($"root" ++ $" ") ++ ($"{" ++ nl) ++ ($"  " ++ $"names" ++ $" = [" ++ nl) ++ $"    " ++ n ++ concat (map (fun m => $"," ++ nl ++ $"    " ++ m) r) ++ nl ++ ($"  ]" ++ nl) ++ $"}" ++ nl) by (rewrite <- !app_assoc; reflexivity).
    apply (cuts_any any _ _ [(ROOT, $"root")] _ key_root). apply (cuts_any any _ _ [lb] _); [exact (cuts_any any $"{" _ [lb] [] cuts_lbrace cuts_nl)|]. apply (cuts_any any _ _ _ _ (open_list _ _ key_names)). apply (cuts_any any $"    " _ []); [apply cuts_blanks; reflexivity|].
    eapply cuts_app; [apply cuts_name, Hn| |intros s _; destruct r; (split; [reflexivity|discriminate])]. eapply cuts_app; [apply names_cut, Hr| |intros s _; split; [reflexivity|discriminate]].
    apply (cuts_any any nl _ [] _ cuts_nl). exact (cuts_any any _ _ [rk] [rb] close_list close_brace).
  - intros k. cbn [app]. rewrite <- !app_assoc. cbn [app]. unfold p_plan_detail. cbn [p_start t_lbrace lb t_names]. unfold p_brackets. cbn [t_equal eq_ t_lbracket lk].
    rw (listed_names r n (length (name_tokens n ++ comma_tokens r ++ rk :: rb :: k)) (rb :: k) Hn Hr ltac:(rewrite app_length; pose proof (comma_long r (rb :: k)); lia)). reflexivity.
Qed.

(** * Extension spaces *)
Lemma named_space u : LUri u -> Cuts any ($"extension_space " ++ (u ++ $" ") ++ $"{" ++ nl) [(EXTENSION_SPACE, $"extension_space"); (URI, u); lb].
Proof.
  intros Hu. exists [Token EXTENSION_SPACE $"extension_space"; Token SPACES $" "; Token URI u; Token SPACES $" "; Token LEFTBRACE $"{"; Token SPACES nl]. split; [reflexivity|]. split; [reflexivity|]. intros r _.
  replace (($"extension_space " ++ (u ++ $" ") ++ $"{" ++ nl) ++ r) with ($"extension_space" ++ $" " ++ u ++ $" " ++ $"{" ++ nl ++ r) by (rewrite <- !app_assoc; reflexivity).
  rewrite (pieces_token Default $"extension_space" _ EXTENSION_SPACE); [|discriminate|reflexivity]. change (next_mode Default EXTENSION_SPACE) with Extensions.
  rewrite (pieces_token Extensions $" " _ SPACES); [|discriminate|apply next_space; reflexivity]. change (next_mode Extensions SPACES) with Extensions.
  rewrite (pieces_token Extensions u _ URI); [|apply uri_nonempty, Hu|apply next_uri; [exact Hu|reflexivity]]. change (next_mode Extensions URI) with Extensions.
  rewrite (pieces_token Extensions $" " _ SPACES); [|discriminate|apply next_space; reflexivity]. change (next_mode Extensions SPACES) with Extensions.
  rewrite (pieces_token Extensions $"{" _ LEFTBRACE); [|discriminate|reflexivity]. change (next_mode Extensions LEFTBRACE) with Default.
  rewrite (pieces_token Default nl r SPACES); [reflexivity|discriminate|apply next_space; reflexivity].
Qed.
Lemma bare_space : Cuts any ($"extension_space " ++ [] ++ $"{" ++ nl) [(EXTENSION_SPACE, $"extension_space"); lb].
Proof.
  exists [Token EXTENSION_SPACE $"extension_space"; Token SPACES $" "; Token LEFTBRACE $"{"; Token SPACES nl]. split; [reflexivity|]. split; [reflexivity|]. intros r _.
  change (($"extension_space " ++ [] ++ $"{" ++ nl) ++ r) with ($"extension_space" ++ $" " ++ $"{" ++ nl ++ r).
  rewrite (pieces_token Default $"extension_space" _ EXTENSION_SPACE); [|discriminate|reflexivity]. change (next_mode Default EXTENSION_SPACE) with Extensions.
  rewrite (pieces_token Extensions $" " _ SPACES); [|discriminate|apply next_space; reflexivity]. change (next_mode Extensions SPACES) with Extensions.
  rewrite (pieces_token Extensions $"{" _ LEFTBRACE); [|discriminate|reflexivity]. change (next_mode Extensions LEFTBRACE) with Default.
  rewrite (pieces_token Default nl r SPACES); [reflexivity|discriminate|apply next_space; reflexivity].
Qed.
Lemma function_item f : Name (fst f) -> FunctionName (snd f) -> Item p_function (DeclModel.function_text f) (snd f, Some (fst f)).
Proof.
  destruct f as [short full]. cbn [fst snd]. intros Hs (n & sig & Hn & Hg & ->). unfold DeclModel.function_text. cbn [fst snd].
  exists ((FUNCTION, $"function") :: name_tokens n ++ colon :: name_tokens sig ++ (AS, $"as") :: name_tokens short ++ [sc]). split; [|split; [discriminate|]].
  - replace ($"  function " ++ (n ++ $":" ++ sig) ++ $" as " ++ short ++ $";" ++ DeclModel.line) with (($"  " ++ $"function" ++ $" ") ++ n ++ $":" ++ sig ++ ($" " ++ $"as" ++ $" ") ++ short ++ semicolon_line) by (rewrite <- !app_assoc; reflexivity).
    apply (cuts_any any _ _ [(FUNCTION, $"function")] _ key_function). eapply cuts_app; [apply cuts_name, Hn| |intros r _; split; [reflexivity|discriminate]].
    apply (cuts_any any $":" _ [colon] _ cuts_colon). eapply cuts_app; [apply cuts_name, Hg| |intros r _; split; [reflexivity|discriminate]].
    apply (cuts_any any _ _ [(AS, $"as")] _ key_as). eapply cuts_app; [apply cuts_name, Hs|exact cuts_end|intros r _; apply ends_end].
  - intros k. cbn [app]. rewrite <- app_assoc. cbn [app]. rewrite <- app_assoc. cbn [app]. rewrite <- app_assoc. cbn [app]. unfold p_function. cbn [t_function].
    unfold name_tokens at 1. rw (name_read n (colon :: name_tokens sig ++ (AS, $"as") :: name_tokens short ++ sc :: k) Hn ltac:(discriminate)). cbn [t_colon colon].
    assert (S1 : p_signature (name_tokens sig ++ (AS, $"as") :: name_tokens short ++ sc :: k) = Some (sig, (AS, $"as") :: name_tokens short ++ sc :: k)).
    { transitivity (p_id (name_tokens sig ++ (AS, $"as") :: name_tokens short ++ sc :: k)); [|apply (name_read sig _ Hg); discriminate]. destruct (name_start sig Hg) as (x & y & z & -> & Hx). cbn [app p_signature]. rewrite Hx. reflexivity. }
    rw S1. unfold p_after. cbn [t_as]. unfold name_tokens. rw (name_read short (sc :: k) Hs ltac:(discriminate)). reflexivity.
Qed.
Lemma flat_concat {A B} (f : A -> list B) l : flat_map f l = concat (map f l).
Proof. induction l; cbn; congruence. Qed.
Definition node_of (f : str * str) : str * option str := (snd f, Some (fst f)).
Lemma space_detail b : SpaceReads b -> Detail (DeclModel.block_text b) (PSpace (fst b) (map node_of (snd b))).
Proof.
  destruct b as [u fs]. intros (Hu & Hfs). cbn [fst snd] in *. unfold DeclModel.block_text. cbn [fst snd]. rewrite flat_concat.
  destruct (in_braces p_function (PSpace u) _ _ (items_map p_function DeclModel.function_text node_of _ fs (fun f H => function_item f (proj1 H) (proj2 H)) Hfs)) as (ts & Hc & Hp).
  set (h := match u with Some u => u ++ $" " | None => [] end). set (body := concat _ ++ $"}" ++ DeclModel.line).
  replace ($"extension_space " ++ h ++ $"{" ++ DeclModel.line ++ body) with (($"extension_space " ++ h ++ $"{" ++ nl) ++ body) by (rewrite <- !app_assoc; reflexivity).
  destruct u as [u|].
  - exists ([(EXTENSION_SPACE, $"extension_space"); (URI, u); lb] ++ ts). split; [apply cuts_any; [apply named_space, Hu|exact Hc]|]. split; [discriminate|]. intros k. apply Hp.
  - exists ([(EXTENSION_SPACE, $"extension_space"); lb] ++ ts). split; [apply cuts_any; [apply bare_space|exact Hc]|]. split; [discriminate|]. intros k. apply Hp.
Qed.
Lemma section_separated l : DeclModel.section_text l = separated (map DeclModel.block_text l).
Proof. induction l as [|b l IH]; [reflexivity|]. destruct l as [|c l]; [reflexivity|]. cbn [DeclModel.section_text map separated] in *. rewrite IH. reflexivity. Qed.

(** * Relations *)
Lemma relation_start ts x : p_relation ts = Some x -> p_start ts = HRelation.
Proof.
  intros H. unfold p_relation in H. destruct ts as [|[k t] r]; [reflexivity|]. unfold p_id in H.
  assert (G : match r with [] => False | (j, _) :: _ => j = UNDERSCORE \/ j = RELATION end).
  { destruct (simple_id k); [|discriminate H]. destruct r as [|[j u] r]; [discriminate H|]. cbn [id_from] in H. destruct j; auto; discriminate H. }
  destruct r as [|[j u] r]; [destruct G|]. destruct k; try reflexivity; try discriminate H; destruct G as [-> | ->]; reflexivity.
Qed.
Lemma relation_detail t ts node : Cuts any t ts -> (forall k, p_relation (ts ++ k) = Some (node, k)) -> Detail t (PRelation node).
Proof.
  intros Hc Hp. exists ts. split; [exact Hc|]. split; [intros ->; specialize (Hp []); discriminate Hp|]. intros k. unfold p_plan_detail. rewrite (relation_start _ _ (Hp k)), Hp. reflexivity.
Qed.
(** What the reading of a relation looks names up with *)
Record reading := Reading { rd_function : str -> option N; rd_relation : str -> option bool; rd_field : nat -> nat -> str -> option (N * Z); rd_emit : str -> N * Z * bool; rd_columns : nat }.
Definition RelationReads (known : str -> bool) (x : naming * str * relation) (y : reading * relation) : Prop :=
  let '(n, name, r) := x in let '(d, r') := y in
  Name name /\ RelReads (nm_function n) (nm_field n) (nm_emit n) (nm_measure n) (nm_alternative n) (nm_alias n) (rd_function d) (rd_relation d) (rd_field d) (rd_emit d) (rd_columns d) known known r r'.
Definition visit_relation (known : str -> bool) (d : reading) (node : rnode) : visited (option relation) := visitRelation (rd_function d) (rd_relation d) (rd_field d) (rd_emit d) (rd_columns d) known known node.
Lemma rel_reads_more a b c d e f g h h2 i j s s' k k' r r' : (forall n, s n = true -> s' n = true) -> (forall n, k n = true -> k' n = true) -> RelReads a b c d e f g h h2 i j s k r r' -> RelReads a b c d e f g h h2 i j s' k' r r'.
Proof.
  intros Hs Hk H. destruct H; try (constructor; assumption).
  - constructor; try assumption; (eapply Forall_impl; [|eassumption]); intros n [? ?]; auto.
Qed.
(** A relation in the text, with its kind, its name and the details that decide about its columns *)
Definition shape_as (x : naming * str * relation) (y : reading * relation) (n : rnode) : Prop :=
  let '(m, name, r) := x in let '(d, r') := y in
  n_kind n = kind_name (r_body r) /\ n_name n = name /\
  Shape (nm_measure m) (nm_alternative m) (nm_alias m) (rd_function d) (rd_relation d) (rd_field d) (rd_emit d) (rd_columns d) r r' (n_details n).
Lemma relations_shape known l rs : Forall2 (RelationReads known) l rs ->
  exists ps nodes, each (fun x => let '(n, name, r) := x in print_relation n name r) l = Ok ps /\ Forall (fun p => snd p = 0) ps /\ Forall2 (fun p n => Detail (fst p) (PRelation n)) ps nodes /\
    map n_name nodes = map (fun x => snd (fst x)) l /\ Forall2 (fun n y => visit_relation known (fst y) n = Ok (Some (snd y), [])) nodes rs /\
    Forall2 (fun n z => shape_as (fst z) (snd z) n) nodes (combine l rs).
Proof.
  induction 1 as [|[[n name] r] [d r'] l rs (Hn & H) _ IH].
  - exists [], []. repeat split; constructor.
  - destruct (relation_shape _ _ _ _ _ _ _ _ _ _ _ _ _ name r r' Hn H) as (t & ts & node & Ht & Hc & Hp & Hk & Hname & Hs & Hv). destruct IH as (ps & nodes & E & Z & D & N1 & V & W).
    exists ((t, 0) :: ps), (node :: nodes). split; [cbn [each]; unfold print_relation at 1; rewrite Ht; cbn [obind]; rewrite E; reflexivity|]. split; [constructor; [reflexivity|exact Z]|]. split; [constructor; [eapply relation_detail; eassumption|exact D]|].
    split; [cbn [map fst snd]; rewrite Hname, N1; reflexivity|]. split; [constructor; [exact Hv|exact V]|]. cbn [combine]. constructor; [|exact W]. cbn [fst snd shape_as]. auto.
Qed.

(** * Symbols of schemas *)
Definition read_t (t : ptype) : ptype := match textToTypeProto false (fst (printType t)) with Ok x => fst x | _ => PtNone end.
Definition schema_syms (i : nat) (x : str * named_struct) : table :=
  Sym (fst x) (i, 0) WSchema :: map (fun c => Sym (fst c) (i, 0) (WColumn (read_t (snd c)))) (combine (ns_names (snd x)) (ns_types (snd x))).
Fixpoint numbered {A} (f : nat -> A -> table) (i : nat) (l : list A) : table := match l with [] => [] | a :: l => f i a ++ numbered f (S i) l end.
Lemma read_printable t t' : Printable t t' -> read_t t = t' /\ read_type false (fst (printType t)) = Ok (read_t t, []) /\ is_set (read_t t) = true.
Proof.
  intros H. pose proof (proj2 (print_roundtrip false t t' H)) as E. unfold read_t, read_type. rewrite E. cbn. repeat split. destruct H; reflexivity.
Qed.
Lemma items_visit l cs : Forall (fun c => exists t', Printable (snd c) t') cs ->
  visitItems l (map (fun c => (fst c, fst (printType (snd c)))) cs) = good (map (fun c => Sym (fst c) l (WColumn (read_t (snd c)))) cs).
Proof.
  induction 1 as [|[n t] cs (t' & Ht) _ IH]; [reflexivity|]. cbn [map visitItems fst snd] in *. destruct (read_printable t t' Ht) as (_ & E & _). rewrite E, bindE_good, IH. unfold good at 1. rewrite bindE_good. reflexivity.
Qed.
Lemma combine_types {A} (P : ptype -> Prop) (names : list A) types : Forall P types -> Forall (fun c => P (snd c)) (combine names types).
Proof. intros H. revert names. induction H; intros [|n names]; cbn; constructor; auto. Qed.
Lemma forall2_left {A B} (R : A -> B -> Prop) l l' : Forall2 R l l' -> Forall (fun a => exists b, R a b) l.
Proof. induction 1; constructor; eauto. Qed.
Lemma schema_defined i t n s s' : SchemaReads s s' -> define i t (PSchema n (items_of s)) = Ok (t ++ schema_syms i (n, s), []).
Proof.
  intros H. destruct H as [names types types' u Hl Hns Hts]. unfold define, items_of, schema_syms. cbn [ns_names ns_types fst snd].
  rewrite items_visit; [reflexivity|]. apply (combine_types (fun t => exists t', Printable t t')). eapply forall2_left. exact Hts.
Qed.
Lemma define_next i t n t' l : define i t n = Ok (t', []) -> define_all i t (n :: l) = define_all (S i) t' l.
Proof. intros H. cbn [define_all]. rewrite H. cbn [obind fst snd]. destruct (define_all (S i) t' l) as [[x y]|e|]; reflexivity. Qed.
Definition schema_node (x : str * named_struct) : pnode := PSchema (fst x) (items_of (snd x)).
Lemma schemas_defined l : forall i t rest, Forall (fun x => exists s', SchemaReads (snd x) s') l ->
  define_all i t (map schema_node l ++ rest) = define_all (i + length l) (t ++ numbered schema_syms i l) rest.
Proof.
  induction l as [|[n s] l IH]; intros i t rest H; cbn [map app numbered length].
  - rewrite Nat.add_0_r, app_nil_r. reflexivity.
  - inversion H as [|x y (s' & Hs) Hl]; subst. rewrite (define_next i t _ _ _ (schema_defined i t n s s' Hs)), IH by exact Hl. rewrite <- app_assoc. f_equal. lia.
Qed.

(** * Symbols of sources *)
Definition fname (f : file) : str := match address (f_location f) with Some s => file_name f s | None => [] end.
Definition read_file (f : file) : file := File (kept (f_location f)) (f_partition f) (f_start f) (f_length f) (f_format f).
Definition same_name (f g : file) : bool := fname f =s fname g.
Definition seen_in (seen : list file) (f : file) : bool := existsb (same_name f) seen.
Definition source_syms (seen : list file) (i : nat) (x : str * source) : table :=
  match snd x with
  | NamedTable l => Sym (fst x) (i, 0) WNamed :: map (fun n => Sym n (i, 0) (WDetail None)) l
  | LocalFiles [f] => [Sym (fst x) (i, 0) WLocal; Sym (fname f) (i, 0) (WDetail (Some (if seen_in seen f then no_file else read_file f)))]
  | _ => []
  end.
Fixpoint source_table (seen : list file) (i : nat) (l : list (str * source)) : table :=
  match l with [] => [] | x :: l => source_syms seen i x ++ source_table (seen ++ files_of (snd x)) (S i) l end.
Lemma stoul_print n : (n < 2 ^ 64)%N -> stoul (print_N n) = Ok n.
Proof.
  intros Hn. unfold stoul. pose proof (print_N_nonempty n) as Ne. pose proof (print_N_digits n) as D. pose proof (print_N_val n) as V. destruct (print_N n) as [|c r]; [congruence|].
  cbn [forallb] in D. apply andb_true_iff in D as [Dc D]. assert (Dc' := Dc). apply digit_cases in Dc'.
  assert (W : ~ ws c) by (cbn in Dc'; repeat (destruct Dc' as [<- | Dc']; [intros I; cbv in I; intuition discriminate|]); destruct Dc').
  assert (S1 : ceq c "-" = false) by (cbn in Dc'; repeat (destruct Dc' as [<- | Dc']; [reflexivity|]); destruct Dc').
  assert (S2 : ceq c "+" = false) by (cbn in Dc'; repeat (destruct Dc' as [<- | Dc']; [reflexivity|]); destruct Dc').
  rewrite ltrim_head by exact W. rewrite S1, S2. rewrite take_digits_all by (cbn [forallb]; rewrite Dc, D; reflexivity). rewrite V. apply N.ltb_lt in Hn. rewrite Hn. reflexivity.
Qed.
Fixpoint set_all (l : list fdetail) (f : file) : outcome file := match l with [] => Ok f | d :: l => x <- set_detail d f ;; set_all l x end.
Definition Readable_file (f : file) : Prop := exists f', FileReads f f'.
Lemma file_set f s : address (f_location f) = Some s -> Readable_file f -> set_all (details_of f s) no_file = Ok (read_file f) /\ Forall (fun d => set_detail d (read_file f) = Ok (read_file f)) (details_of f s).
Proof.
  intros Ha (f' & H). destruct H as [l u p b n f Hu Hq Hp Hb Hn Hf]. cbn [f_location] in Ha. rewrite Hu in Ha. injection Ha as <-. unfold details_of, read_file. cbn [f_location f_partition f_start f_length f_format]. unfold some_position. cbn [f_start f_length].
  assert (L : forall y, f_location y = kept l -> set_detail (DLocation (is_file l) (quoted u)) y = Ok y). { intros [] E. cbn in E. subst. destruct l; try discriminate Hu; try reflexivity. injection Hu as ->. cbn [is_file set_detail kept]. rewrite parse_quoted. reflexivity. }
  assert (L0 : set_detail (DLocation (is_file l) (quoted u)) no_file = Ok (File (kept l) 0 0 0 NoFormat)). { destruct l; try discriminate Hu; try reflexivity. injection Hu as ->. cbn [is_file set_detail kept]. rewrite parse_quoted. reflexivity. }
  assert (P : forall y, set_detail (DPartition (print_N p)) y = Ok (File (f_location y) p (f_start y) (f_length y) (f_format y))) by (intros y; cbn [set_detail]; rewrite (stoul_print p Hp); reflexivity).
  assert (B : forall y, set_detail (DStart (print_N b)) y = Ok (File (f_location y) (f_partition y) b (f_length y) (f_format y))) by (intros y; cbn [set_detail]; rewrite (stoul_print b Hb); reflexivity).
  assert (N1 : forall y, set_detail (DLength (print_N n)) y = Ok (File (f_location y) (f_partition y) (f_start y) n (f_format y))) by (intros y; cbn [set_detail]; rewrite (stoul_print n Hn); reflexivity).
  assert (F : forall y, set_detail (format_detail f) y = Ok (File (f_location y) (f_partition y) (f_start y) (f_length y) f)) by (intros y; destruct Hf as [-> | ->]; reflexivity).
  split.
  - cbn [set_all]. rewrite L0. cbn [obind]. destruct (p =? 0)%N eqn:Ep; [apply N.eqb_eq in Ep; subst p|]; (destruct ((b =? 0)%N && (n =? 0)%N) eqn:Ebn; [apply andb_true_iff in Ebn as [Eb En]; apply N.eqb_eq in Eb, En; subst b n|]);
      cbn [negb app set_all]; rewrite ?P, ?B, ?N1, ?F; cbn [obind f_location f_partition f_start f_length f_format]; rewrite ?P, ?B, ?N1, ?F; cbn [obind f_location f_partition f_start f_length f_format]; rewrite ?P, ?B, ?N1, ?F; cbn [obind f_location f_partition f_start f_length f_format];
      rewrite ?P, ?B, ?N1, ?F; reflexivity.
  - constructor; [apply L; reflexivity|]. apply Forall_app. split; [destruct (p =? 0)%N; constructor; [apply P|constructor]|]. apply Forall_app. split; [destruct (negb _); repeat constructor; [apply B|apply N1]|]. constructor; [apply F|constructor].
Qed.
(** ** Different files have different texts *)
Lemma file_recut f s : address (f_location f) = Some s -> f_format f = Parquet \/ f_format f = Orc -> Quotable s -> tokens (file_name f s) = Some (lb :: file_tokens f s ++ [rb]).
Proof.
  intros Ha Hf Hs. apply (cuts_tokens any); [|exact I]. unfold file_name. change (text_of (lb :: file_tokens f s ++ [rb])) with ($"{" ++ text_of (file_tokens f s ++ [rb])). rewrite text_of_app. apply (cuts_any any $"{" _ [lb] _ cuts_lbrace). apply cuts_any; [|exact cuts_rbrace].
  unfold file_tokens. rewrite !text_of_app.
  assert (A : Cuts any (text_of [(uri_kind (f_location f), uri_key (f_location f)); colon; (STRING, quoted s)]) [(uri_kind (f_location f), uri_key (f_location f)); colon; (STRING, quoted s)]).
  { unfold text_of. cbn [map concat snd colon]. rewrite app_nil_r. assert (X : Cuts any ($":" ++ quoted s) [colon; (STRING, quoted s)]) by exact (cuts_any any $":" _ [colon] _ cuts_colon (cuts_quoted s Hs)).
    destruct (f_location f); try discriminate Ha; cbn [uri_key uri_kind]; (apply cuts_then; [discriminate|reflexivity|reflexivity|intros r; reflexivity|exact X]). }
  assert (E : Cuts any (text_of (last_tokens f)) (last_tokens f)).
  { assert (B : Cuts any $":{}" [colon; lb; rb]) by exact (cuts_any any $":" _ [colon] _ cuts_colon (cuts_any any $"{" _ [lb] _ cuts_lbrace cuts_rbrace)).
    unfold last_tokens, text_of. destruct Hf as [-> | ->]; cbn [format_key format_kind map snd concat app colon lb rb]; [apply (cuts_then $"parquet" PARQUET $":{}")|apply (cuts_then $"orc" ORC $":{}")]; try discriminate; try reflexivity; exact B. }
  assert (Nu : forall w k n, w <> [] -> next_mode Default k = Default -> hidden k = false -> (forall r, next_token Default (w ++ $":" ++ r) = Some (k, length w)) -> Cuts no_number (text_of (number_tokens k w n)) (number_tokens k w n)).
  { intros w k n Hw Hm Hh H. unfold number_tokens, text_of. cbn [map snd concat colon]. rewrite app_nil_r, app_assoc. apply (cuts_any no_number _ _ [(k, w); colon] [(NUMBER, print_N n)]); [|apply cuts_number, print_N_number]. apply cuts_then; try assumption. exact cuts_colon. }
  assert (N1 : forall r, no_number (text_of (last_tokens f) ++ r)) by (intros r; unfold last_tokens; destruct Hf as [-> | ->]; cbn; repeat split; discriminate).
  assert (D : Cuts any (text_of (if some_position f then number_tokens START $"start" (f_start f) ++ number_tokens LENGTH $"length" (f_length f) else []) ++ text_of (last_tokens f))
    ((if some_position f then number_tokens START $"start" (f_start f) ++ number_tokens LENGTH $"length" (f_length f) else []) ++ last_tokens f)).
  { destruct (some_position f); [|exact E]. rewrite text_of_app, <- !app_assoc. eapply cuts_app; [apply Nu; [discriminate|reflexivity|reflexivity|intros r; reflexivity]| |].
    - eapply cuts_app; [apply Nu; [discriminate|reflexivity|reflexivity|intros r; reflexivity]|exact E|intros r _; apply N1].
    - intros r _. cbn. repeat split; discriminate. }
  apply cuts_any; [exact A|]. destruct (f_partition f =? 0)%N; [exact D|]. eapply cuts_app; [apply Nu; [discriminate|reflexivity|reflexivity|intros r; reflexivity]|exact D|].
  intros r _. destruct (some_position f); [cbn; repeat split; discriminate|]. rewrite <- app_assoc. apply N1.
Qed.
Lemma quoted_inj s t : quoted s = quoted t -> s = t.
Proof. intros H. rewrite <- (extract_quoted s), H. apply extract_quoted. Qed.
Lemma file_tokens_inj f g s u : Readable_file f -> Readable_file g -> address (f_location f) = Some s -> address (f_location g) = Some u -> file_tokens f s = file_tokens g u -> f = g.
Proof.
  intros Rf Rg Hf Hg E. pose proof (file_set f s Hf Rf) as (Sf & _). pose proof (file_set g u Hg Rg) as (Sg & _).
  assert (F1 : f_format f = Parquet \/ f_format f = Orc) by (destruct Rf as (f' & []); assumption). assert (G1 : f_format g = Parquet \/ f_format g = Orc) by (destruct Rg as (g' & []); assumption).
  pose proof (file_parse f s [] (length (file_tokens f s)) Hf F1 (le_n _)) as P. rewrite E in P. rewrite (file_parse g u [] _ Hg G1 (le_n _)) in P. assert (P' : details_of g u = details_of f s) by congruence.
  rewrite <- P', Sg in Sf. injection Sf as K1 K2 K3 K4 K5. unfold file_tokens in E. cbn [app] in E. injection E as E1 _ E2 _. apply app_inj_tail in E2 as [E2 _]. subst u.
  destruct f as [l p b n f], g as [l' p' b' n' f']. clear P P' Sg Rf Rg F1 G1. cbn [f_location f_partition f_start f_length f_format] in *. subst. f_equal. clear K1. destruct l, l'; try discriminate; cbn in Hf, Hg; congruence.
Qed.
Lemma fname_inj f g : Readable_file f -> Readable_file g -> fname f = fname g -> f = g.
Proof.
  intros Rf Rg E. destruct (Rf) as (f' & Hf). destruct (Rg) as (g' & Hg). unfold fname in E. destruct Hf as [l s p b n f Ha Hs ? ? ? Hf]. destruct Hg as [l' s' p' b' n' f0 Ha' Hs' ? ? ? Hg]. cbn [f_location] in E. rewrite Ha, Ha' in E.
  eapply file_tokens_inj; [exact Rf|exact Rg|exact Ha|exact Ha'|]. pose proof (file_recut (File l p b n f) s Ha Hf Hs) as X. rewrite E, (file_recut (File l' p' b' n' f0) s' Ha' Hg Hs') in X. apply (f_equal (fun o => match o with Some (_ :: l) => l | _ => [] end)) in X. cbv beta iota in X. apply app_inj_tail in X as [X _]. symmetry. exact X.
Qed.
Lemma fname_not_name f n : Readable_file f -> Name n -> n <> fname f.
Proof. intros (f' & []) Hn E. unfold fname in E. cbn [f_location] in E. rewrite H in E. destruct (name_head n Hn) as (c & r & -> & Hc). injection E as -> _. discriminate Hc. Qed.
Lemma fname_not_quotable f n : Readable_file f -> Quotable n -> n <> fname f.
Proof.
  intros (f' & []) Hn E. unfold fname in E. cbn [f_location] in E. rewrite H in E. subst n. unfold Quotable in Hn. destruct l; discriminate.
Qed.
(** ** Looking up and updating *)
Lemma find_app t u n : find_symbol (t ++ u) n = match find_symbol t n with Some s => Some s | None => find_symbol u n end.
Proof. unfold find_symbol. induction t as [|s t IH]; [reflexivity|]. cbn [app find]. destruct (s_name s =s n); [reflexivity|exact IH]. Qed.
Lemma update_same t n y x f u : find_symbol t n = Some y -> s_what y = WDetail (Some x) -> f x = Ok x -> update_file (t ++ u) n f = Ok (t ++ u).
Proof.
  intros H Hy Hx. induction t as [|s t IH]; [discriminate H|]. unfold find_symbol in *. cbn [app find update_file] in *. destruct (s_name s =s n) eqn:E.
  - injection H as ->. rewrite Hy, Hx. cbn [obind]. destruct y as [a b c]. cbn in *. subst c. reflexivity.
  - rewrite (IH H). reflexivity.
Qed.
Lemma update_new t n l x y f : find_symbol t n = None -> f x = Ok y -> update_file (t ++ [Sym n l (WDetail (Some x))]) n f = Ok (t ++ [Sym n l (WDetail (Some y))]).
Proof.
  intros H Hf. induction t as [|s t IH]; unfold find_symbol in *; cbn [app find update_file] in *.
  - cbn [s_name]. rewrite seq_eqb_refl. cbn [s_what s_loc]. rewrite Hf. reflexivity.
  - destruct (s_name s =s n); [discriminate|]. rewrite (IH H). reflexivity.
Qed.
Lemma details_same l t n y x u : find_symbol t n = Some y -> s_what y = WDetail (Some x) -> Forall (fun d => set_detail d x = Ok x) l -> visitFileDetails (t ++ u) n l = Ok (t ++ u).
Proof. intros H Hy. induction 1 as [|d l Hd _ IH]; [reflexivity|]. cbn [visitFileDetails]. rewrite (update_same t n y x _ u H Hy Hd). exact IH. Qed.
Lemma details_new l : forall t n a x y, find_symbol t n = None -> set_all l x = Ok y -> visitFileDetails (t ++ [Sym n a (WDetail (Some x))]) n l = Ok (t ++ [Sym n a (WDetail (Some y))]).
Proof.
  induction l as [|d l IH]; intros t n a x y H Hs; cbn [set_all visitFileDetails] in *; [injection Hs as ->; reflexivity|]. destruct (set_detail d x) as [z| |] eqn:E; try discriminate Hs. cbn [obind] in Hs.
  rewrite (update_new t n a x z (set_detail d) H E). apply IH; assumption.
Qed.
Definition FilesOk (t : table) (seen : list file) : Prop := Forall Readable_file seen /\ forall f, Readable_file f ->
  match find_symbol t (fname f) with None => seen_in seen f = false | Some y => seen_in seen f = true /\ s_what y = WDetail (Some (read_file f)) end.
Lemma source_reads_files s s' : SourceReads s s' -> Forall Readable_file (files_of s).
Proof. intros []; constructor; [eexists; eassumption|constructor]. Qed.
Lemma seen_app a b f : seen_in (a ++ b) f = seen_in a f || seen_in b f.
Proof. apply existsb_app. Qed.
Definition source_node (x : str * source) : pnode :=
  PSource (fst x) (match snd x with
                   | NamedTable l => SNamed (map quoted l)
                   | LocalFiles [f] => match address (f_location f) with Some s => SLocal [FNode (fname f) (details_of f s)] | None => SLocal [] end
                   | _ => SVirtual
                   end).
Lemma files_other t seen u : FilesOk t seen -> (forall f, Readable_file f -> find_symbol u (fname f) = None) -> FilesOk (t ++ u) seen.
Proof. intros (Hs & H) Hu. split; [exact Hs|]. intros f Hf. specialize (H f Hf). rewrite find_app. destruct (find_symbol t (fname f)); [exact H|]. rewrite (Hu f Hf). exact H. Qed.
Lemma find_none t n : (forall s, In s t -> s_name s <> n) -> find_symbol t n = None.
Proof. intros H. induction t as [|s t IH]; [reflexivity|]. unfold find_symbol in *. cbn [find]. rewrite (proj2 (seq_eqb_neq _ _)) by (apply H; left; reflexivity). apply IH. intros x Hx. apply H. right. exact Hx. Qed.
Lemma source_defined i t seen n s s' : Name n -> SourceReads s s' -> FilesOk t seen ->
  define i t (source_node (n, s)) = Ok (t ++ source_syms seen i (n, s), []) /\ FilesOk (t ++ source_syms seen i (n, s)) (seen ++ files_of s).
Proof.
  intros Hn H Hok. destruct H as [l Hl Hq | f f' Hf].
  - cbn [source_node snd fst define source_syms files_of]. rewrite app_nil_r, map_map. split.
    + f_equal. f_equal. f_equal. f_equal. apply map_ext. intros x. rewrite extract_quoted. reflexivity.
    + apply files_other; [exact Hok|]. intros f Hf. apply find_none. intros x [<- | Hx]; [apply fname_not_name; assumption|]. apply in_map_iff in Hx as (y & <- & Hy). cbn [s_name]. apply fname_not_quotable; [exact Hf|]. rewrite Forall_forall in Hq. apply Hq, Hy.
  - assert (Rf : Readable_file f) by (eexists; exact Hf). assert (Ha : exists s, address (f_location f) = Some s) by (destruct Hf; eauto). destruct Ha as (s & Ha).
    destruct (file_set f s Ha Rf) as (S1 & S2). assert (Hn' : forall g, Readable_file g -> find_symbol [Sym n (i, 0) WLocal] (fname g) = None) by (intros g Hg; apply find_none; intros x [<- | []]; apply fname_not_name; assumption).
    pose proof (files_other t seen _ Hok Hn') as (Hseen & Hok'). pose proof (Hok' f Rf) as X. unfold source_node. cbn [snd fst source_syms files_of]. rewrite Ha. cbn [define visitFiles fn_text fn_details].
    destruct (find_symbol (t ++ [Sym n (i, 0) WLocal]) (fname f)) as [y|] eqn:F.
    + destruct X as (X & Hy). rewrite X. rewrite (details_same _ _ _ y (read_file f) _ F Hy S2). cbn [obind]. split; [rewrite <- app_assoc; reflexivity|].
      split; [apply Forall_app; split; [exact Hseen|constructor; [exact Rf|constructor]]|]. intros g Hg. replace (t ++ _) with ((t ++ [Sym n (i, 0) WLocal]) ++ [Sym (fname f) (i, 0) (WDetail (Some no_file))]) by (rewrite <- app_assoc; reflexivity).
      rewrite find_app, seen_app. specialize (Hok' g Hg). destruct (find_symbol (t ++ [Sym n (i, 0) WLocal]) (fname g)) eqn:G; [destruct Hok' as [-> ?]; auto|]. rewrite Hok'. unfold find_symbol. cbn [find s_name orb]. unfold seen_in. cbn [existsb]. rewrite orb_false_r.
      unfold same_name. destruct (fname f =s fname g) eqn:E; [apply seq_eqb_eq in E; rewrite <- E in G; congruence|]. apply seq_eqb_neq in E. apply seq_eqb_neq. congruence.
    + rewrite X. rewrite (details_new _ _ _ (i, 0) _ _ F S1). cbn [obind]. split; [rewrite <- app_assoc; reflexivity|].
      split; [apply Forall_app; split; [exact Hseen|constructor; [exact Rf|constructor]]|]. intros g Hg. replace (t ++ _) with ((t ++ [Sym n (i, 0) WLocal]) ++ [Sym (fname f) (i, 0) (WDetail (Some (read_file f)))]) by (rewrite <- app_assoc; reflexivity).
      rewrite find_app, seen_app. specialize (Hok' g Hg). destruct (find_symbol (t ++ [Sym n (i, 0) WLocal]) (fname g)) eqn:G; [destruct Hok' as [-> ?]; auto|]. rewrite Hok'. unfold find_symbol. cbn [find s_name orb]. unfold seen_in. cbn [existsb]. rewrite orb_false_r.
      unfold same_name. destruct (fname f =s fname g) eqn:E.
      * apply seq_eqb_eq in E. pose proof (fname_inj f g Rf Hg E). subst g. rewrite seq_eqb_refl. auto.
      * apply seq_eqb_neq in E. apply seq_eqb_neq. congruence.
Qed.
Lemma sources_defined l : forall seen i t rest, Forall (fun x => Name (fst x) /\ exists s', SourceReads (snd x) s') l -> FilesOk t seen ->
  define_all i t (map source_node l ++ rest) = define_all (i + length l) (t ++ source_table seen i l) rest.
Proof.
  induction l as [|[n s] l IH]; intros seen i t rest H Hok; cbn [map app source_table length].
  - rewrite Nat.add_0_r, app_nil_r. reflexivity.
  - inversion H as [|x y (Hn & s' & Hs) Hl]; subst. destruct (source_defined i t seen n s s' Hn Hs Hok) as (D & Ok'). rewrite (define_next i t _ _ _ D), (IH _ _ _ _ Hl Ok'). rewrite <- app_assoc. f_equal. lia.
Qed.

(** * Symbols of extension spaces *)
Lemma name_chars n : Name n -> Forall (fun c => is_word c = true \/ c = under) n.
Proof.
  assert (W : forall w, LIdentifier w -> Forall (fun c => is_word c = true \/ c = under) w).
  { intros w [c r Hc Hr]. constructor; [left; apply alpha_word, Hc|]. unfold all_ in Hr. rewrite forallb_forall in Hr. apply Forall_forall. intros x Hx. left. apply Hr, Hx. }
  induction 1 as [w Hw _ | w k n Hw _ _ _ IH]; [apply W, Hw|]. apply Forall_app. split; [apply W, Hw|]. apply Forall_app. split; [|exact IH]. apply Forall_forall. intros x Hx. right. eapply repeat_spec. exact Hx.
Qed.
Lemma function_signed f a : FunctionName f -> no_signature (f, a) = [].
Proof.
  intros (n & sig & Hn & Hs & ->). unfold no_signature. cbn [fst]. rewrite !rev_app_distr. pose proof (name_chars sig Hs) as C. destruct (name_head sig Hs) as (c & r & E & _).
  assert (R : rev sig <> []) by (rewrite E; cbn; destruct (rev r); discriminate). apply Forall_rev in C. destruct (rev sig) as [|x y]; [congruence|]. cbn [app]. inversion C as [|? ? Hx _]; subst.
  destruct (ceq x ":") eqn:Q; [|reflexivity]. apply ceq_true in Q. subst x. destruct Hx; discriminate.
Qed.
Definition space_syms (i : nat) (b : DeclModel.block) : table := match fst b with Some u => [Sym u (i, 0) WSpace] | None => [] end ++ function_symbols i 0 (map node_of (snd b)).
Definition space_node (b : DeclModel.block) : pnode := PSpace (fst b) (map node_of (snd b)).
Lemma space_defined i t b : SpaceReads b -> define i t (space_node b) = Ok (t ++ space_syms i b, []).
Proof.
  intros (_ & H). unfold space_node. cbn [define]. f_equal. f_equal. induction H as [|f fs [_ Hf] _ IH]; [reflexivity|]. cbn [map concat]. rewrite IH, app_nil_r. apply function_signed, Hf.
Qed.
Lemma spaces_defined l : forall i t, Forall SpaceReads l -> define_all i t (map space_node l) = Ok (t ++ numbered space_syms i l, []).
Proof.
  induction l as [|b l IH]; intros i t H; cbn [map numbered]; [rewrite app_nil_r; reflexivity|]. inversion H as [|x y Hb Hl]; subst. rewrite (define_next i t _ _ _ (space_defined i t b Hb)), IH by exact Hl. rewrite <- app_assoc. reflexivity.
Qed.
Lemma plain_defined l : forall i t rest, Forall (fun n => match n with PPipelines _ | PRelation _ | PRoot _ => True | _ => False end) l -> define_all i t (l ++ rest) = define_all (i + length l) t rest.
Proof.
  induction l as [|n l IH]; intros i t rest H; cbn [app length]; [rewrite Nat.add_0_r; reflexivity|]. inversion H as [|x y Hn Hl]; subst. rewrite (define_next i t n t); [rewrite IH by exact Hl; f_equal; lia|]. destruct n; try destruct Hn; reflexivity.
Qed.

(** * Looking up by place *)
Definition within (a b : nat) (t : table) : Prop := Forall (fun s => a <= fst (s_loc s) < b) t.
Lemma within_app a b c t u : within a b t -> within b c u -> a <= b -> b <= c -> within a c (t ++ u).
Proof. intros H1 H2 L1 L2. apply Forall_app. split; (eapply Forall_impl; [|eassumption]); intros s; cbn; lia. Qed.
Lemma numbered_within {A} (f : nat -> A -> table) l : (forall i x, within i (S i) (f i x)) -> forall i, within i (i + length l) (numbered f i l).
Proof. intros Hf. induction l as [|x l IH]; intros i; [constructor|]. cbn [numbered length]. apply (within_app i (S i)); [apply Hf| |lia|lia]. replace (i + S (length l)) with (S i + length l) by lia. apply IH. Qed.
Lemma schema_within i x : within i (S i) (schema_syms i x).
Proof. constructor; [cbn; lia|]. apply Forall_forall. intros s Hs. apply in_map_iff in Hs as (c & <- & _). cbn. lia. Qed.
Lemma source_within seen i x : within i (S i) (source_syms seen i x).
Proof.
  unfold source_syms. destruct (snd x) as [l|[|f [|g l]]| |]; try constructor; try (cbn; lia); try (constructor; [cbn; lia|constructor]). apply Forall_forall. intros s Hs. apply in_map_iff in Hs as (c & <- & _). cbn. lia.
Qed.
Lemma sources_within l : forall seen i, within i (i + length l) (source_table seen i l).
Proof. induction l as [|x l IH]; intros seen i; [constructor|]. cbn [source_table length]. apply (within_app i (S i)); [apply source_within| |lia|lia]. replace (i + S (length l)) with (S i + length l) by lia. apply IH. Qed.
Lemma functions_within i j fs : within i (S i) (function_symbols i j fs).
Proof. revert j. induction fs as [|f fs IH]; intros j; constructor; [cbn; lia|apply IH]. Qed.
Lemma space_within i b : within i (S i) (space_syms i b).
Proof. unfold space_syms. destruct (fst b); [constructor; [cbn; lia|]|]; apply functions_within. Qed.
Lemma filter_none {A} (p : A -> bool) l : Forall (fun x => p x = false) l -> filter p l = [].
Proof. induction 1 as [|x l H _ IH]; [reflexivity|]. cbn. rewrite H. exact IH. Qed.
Lemma filter_all {A} (p : A -> bool) l : Forall (fun x => p x = true) l -> filter p l = l.
Proof. induction 1 as [|x l H _ IH]; [reflexivity|]. cbn. rewrite H, IH. reflexivity. Qed.
Lemma elsewhere a b i t (p : sym -> bool) : within a b t -> i < a \/ b <= i -> filter (fun s => at_loc (i, 0) s && p s) t = [].
Proof. intros H Hi. apply filter_none. eapply Forall_impl; [|exact H]. intros s Hs. unfold at_loc. cbn [fst snd] in *. replace (fst (s_loc s) =? i) with false by lia. reflexivity. Qed.
Definition place (i : nat) (p : sym -> bool) (t : table) : table := filter (fun s => at_loc (i, 0) s && p s) t.
Lemma place_middle a b i t m u (p : sym -> bool) : within 0 a t -> a <= i -> within b (b + length u) u \/ (exists c, within b c u) -> i < b -> place i p (t ++ m ++ u) = place i p m.
Proof.
  intros Ht Ha Hu Hb. unfold place. rewrite !filter_app, (elsewhere 0 a i t p Ht) by lia. cbn [app]. assert (X : exists c, within b c u) by (destruct Hu as [Hu | Hu]; [eauto|exact Hu]). destruct X as (c & X). rewrite (elsewhere b c i u p X) by lia. apply app_nil_r.
Qed.
Lemma names_numbered {A} (f : nat -> A -> table) (g : A -> list str) l : (forall i x, map s_name (f i x) = g x) -> forall i, map s_name (numbered f i l) = concat (map g l).
Proof. intros Hf. induction l as [|x l IH]; intros i; [reflexivity|]. cbn [numbered map concat]. rewrite map_app, Hf, IH. reflexivity. Qed.
Lemma numbered_app {A} (f : nat -> A -> table) a b : forall i, numbered f i (a ++ b) = numbered f i a ++ numbered f (i + length a) b.
Proof. induction a as [|x a IH]; intros i; cbn [app numbered length]; [rewrite Nat.add_0_r; reflexivity|]. rewrite IH, app_assoc. replace (S i + length a) with (i + S (length a)) by lia. reflexivity. Qed.
Lemma not_named t n : ~ In n (map s_name t) -> find_symbol t n = None.
Proof. intros H. apply find_none. intros s Hs E. apply H. rewrite <- E. apply in_map, Hs. Qed.

(** ** Schemas *)
Lemma combine_fst {A B} (l : list A) : forall (l' : list B), length l = length l' -> map fst (combine l l') = l.
Proof. induction l as [|a l IH]; intros [|b l'] H; try discriminate; [reflexivity|]. cbn in *. rewrite IH by lia. reflexivity. Qed.
Lemma combine_snd {A B} (l : list A) : forall (l' : list B), length l = length l' -> map snd (combine l l') = l'.
Proof. induction l as [|a l IH]; intros [|b l'] H; try discriminate; [reflexivity|]. cbn in *. rewrite IH by lia. reflexivity. Qed.
Lemma schema_sym_names i n s s' : SchemaReads s s' -> map s_name (schema_syms i (n, s)) = n :: ns_names s.
Proof. intros []. unfold schema_syms. cbn [fst snd ns_names ns_types map s_name]. f_equal. rewrite map_map. cbn [s_name]. apply combine_fst. assumption. Qed.
Lemma schemas_names l : forall i, Forall (fun x => exists s', SchemaReads (snd x) s') l -> map s_name (numbered schema_syms i l) = schema_names l.
Proof.
  induction l as [|[n s] l IH]; intros i H; [reflexivity|]. inversion H as [|x y (s' & Hs) Hl]; subst. cbn [numbered]. rewrite map_app, (schema_sym_names i n s s' Hs), IH by exact Hl. reflexivity.
Qed.
Lemma read_types types types' : Forall2 Printable types types' -> map read_t types = types' /\ Forall (fun t => is_set (read_t t) = true) types.
Proof. induction 1 as [|t t' l l' H _ (IH1 & IH2)]; [split; constructor|]. destruct (read_printable t t' H) as (A & _ & B). cbn [map]. rewrite IH1, A. split; [reflexivity|]. constructor; assumption. Qed.
Lemma columns_read (cs : list (str * ptype)) i : Forall (fun c => is_set (read_t (snd c)) = true) cs -> column_types (map (fun c => Sym (fst c) (i, 0) (WColumn (read_t (snd c)))) cs) = map (fun c => read_t (snd c)) cs.
Proof. induction 1 as [|c l H _ IH]; [reflexivity|]. unfold column_types in *. cbn [map flat_map s_what]. rewrite H, IH. reflexivity. Qed.
Lemma at_self i n w : at_loc (i, 0) (Sym n (i, 0) w) = true.
Proof. unfold at_loc. cbn [s_loc fst snd]. rewrite !Nat.eqb_refl. reflexivity. Qed.
Definition is_column (s : sym) : bool := match s_what s with WColumn _ => true | _ => false end.
Definition is_detail (s : sym) : bool := match s_what s with WDetail _ => true | _ => false end.
Lemma schema_columns i n s : place i is_column (schema_syms i (n, s)) = map (fun c => Sym (fst c) (i, 0) (WColumn (read_t (snd c)))) (combine (ns_names s) (ns_types s)).
Proof.
  unfold place, schema_syms. cbn [filter fst snd]. rewrite at_self. cbn [is_column s_what andb]. apply filter_all. apply Forall_forall. intros x Hx. apply in_map_iff in Hx as (c & <- & _). rewrite at_self. reflexivity.
Qed.
Definition is_schema (s : sym) : bool := match s_what s with WSchema | WColumn _ => true | _ => false end.
Lemma schema_find j n s s' x : SchemaReads s s' -> In x (n :: ns_names s) -> exists y, find_symbol (schema_syms j (n, s)) x = Some y /\ s_loc y = (j, 0) /\ is_schema y = true.
Proof.
  intros Hs Hx. rewrite <- (schema_sym_names j n s s' Hs) in Hx. destruct (find_symbol (schema_syms j (n, s)) x) as [y|] eqn:E.
  - exists y. split; [reflexivity|]. apply find_some in E as [E _]. destruct E as [<- | E]; [split; reflexivity|]. apply in_map_iff in E as (c & <- & _). split; reflexivity.
  - exfalso. apply in_map_iff in Hx as (y & <- & Hy). apply (List.find_none _ _) with (x := y) in E; [|exact Hy]. cbv beta in E. rewrite seq_eqb_refl in E. discriminate.
Qed.
Lemma schema_used base i a m s s' b u c n : within 0 i base -> ~ In n (map s_name base) -> Forall (fun x => exists s', SchemaReads (snd x) s') a -> ~ In n (schema_names a) -> SchemaReads s s' -> In n (m :: ns_names s) ->
  within (i + length (a ++ (m, s) :: b)) c u -> use_schema (base ++ numbered schema_syms i (a ++ (m, s) :: b) ++ u) n = Some s'.
Proof.
  intros Hb0 Hn0 Ha Hn Hs Hin Hu. rewrite numbered_app. cbn [numbered]. unfold use_schema. rewrite !find_app, (not_named base n Hn0), (not_named (numbered schema_syms i a) n) by (rewrite schemas_names by exact Ha; exact Hn).
  set (j := i + length a). destruct (schema_find j m s s' n Hs Hin) as (y & F & L & _). rewrite F, L.
  change (columns_at ?t (j, 0)) with (place j is_column t). rewrite <- !app_assoc, app_assoc. rewrite (place_middle j (S j)); [|apply (within_app 0 i); [exact Hb0|unfold j; apply numbered_within, schema_within|lia|unfold j; lia]|lia| |lia].
  2:{ right. exists (Nat.max c (S j + length b)). apply Forall_app. split; [eapply Forall_impl; [|exact (numbered_within schema_syms b schema_within (S j))]; intros x; cbn; lia|].
      eapply Forall_impl; [|exact Hu]. intros x. cbn. rewrite app_length. cbn [length]. unfold j. lia. }
  rewrite schema_columns. destruct Hs as [names types types' w Hl Hns Hts]. cbn [ns_names ns_types]. destruct (read_types types types' Hts) as (R & S1).
  rewrite columns_read by (apply (combine_types (fun t => is_set (read_t t) = true)); exact S1). rewrite map_map. cbn [s_name]. change (map (fun c : str * ptype => fst c) (combine names types)) with (map fst (combine names types)). rewrite (combine_fst names types Hl). rewrite <- (map_map snd read_t), (combine_snd names types Hl), R. reflexivity.
Qed.
(** the first symbol with the name of a schema or column is one *)
Lemma schema_first i l u n : Forall (fun x => exists s', SchemaReads (snd x) s') l -> In n (schema_names l) -> exists y, find_symbol (numbered schema_syms i l ++ u) n = Some y /\ is_schema y = true.
Proof.
  intros H Hn. revert i. induction H as [|[m s] l (s' & Hs) Hl IH]; intros i; [destruct Hn|]. cbn [numbered snd] in *. rewrite <- app_assoc, find_app. destruct (find_symbol (schema_syms i (m, s)) n) as [y|] eqn:E.
  - exists y. split; [reflexivity|]. apply find_some in E as [E _]. destruct E as [<- | E]; [reflexivity|]. apply in_map_iff in E as (c & <- & _). reflexivity.
  - apply IH. unfold schema_names in Hn. cbn [map concat] in Hn. apply in_app_or in Hn as [Hn | Hn]; [|exact Hn]. destruct (schema_find i m s s' n Hs Hn) as (y & F & _). congruence.
Qed.
(** ** Sources *)
Definition file_names (l : list (str * source)) : list str := map fname (flat_map (fun x => files_of (snd x)) l).
Lemma source_table_app a b : forall seen i, source_table seen i (a ++ b) = source_table seen i a ++ source_table (seen ++ flat_map (fun x => files_of (snd x)) a) (i + length a) b.
Proof. induction a as [|x a IH]; intros seen i; cbn [app source_table length flat_map]; [rewrite Nat.add_0_r, app_nil_r; reflexivity|]. rewrite IH, !app_assoc. replace (S i + length a) with (i + S (length a)) by lia. reflexivity. Qed.
Lemma source_names_not l : forall seen i n, Forall (fun x => Name (fst x) /\ exists s', SourceReads (snd x) s') l -> Name n -> ~ In n (source_names l) -> ~ In n (map s_name (source_table seen i l)).
Proof.
  induction l as [|[m s] l IH]; intros seen i n H Hn Hnot; [intros []|]. inversion H as [|x y (Hm & s' & Hs) Hl]; subst. cbn [source_table]. rewrite map_app, in_app_iff. intros [I1 | I1].
  - apply Hnot. unfold source_names. cbn [map concat]. apply in_or_app. left. cbn [snd fst] in *. destruct Hs as [l0 ? ? | f f' Hf]; cbn [table_names].
    + assert (E : map s_name (source_syms seen i (m, NamedTable l0)) = m :: l0) by (unfold source_syms; cbn [snd fst]; transitivity (m :: map s_name (map (fun n => Sym n (i, 0) (WDetail None)) l0)); [reflexivity|]; rewrite map_map; f_equal; apply List.map_id).
      rewrite E in I1. exact I1.
    + destruct I1 as [I1 | [I1 | []]]; [left; exact I1|]. exfalso. apply (fname_not_name f n); [eexists; exact Hf|exact Hn|symmetry; exact I1].
  - revert I1. apply IH; [exact Hl|exact Hn|]. intros I2. apply Hnot. unfold source_names. cbn [map concat]. apply in_or_app. right. exact I2.
Qed.

Lemma existsb_false {A} (p : A -> bool) l : (forall x, In x l -> p x = false) -> existsb p l = false.
Proof. intros H. induction l as [|x l IH]; [reflexivity|]. cbn [existsb]. rewrite H by (left; reflexivity). apply IH. intros y Hy. apply H. right. exact Hy. Qed.
(** what a source is read as, when some files were listed before *)
Definition read_again (seen : list file) (s s' : source) : source := match s with LocalFiles [f] => if seen_in seen f then LocalFiles [no_file] else s' | _ => s' end.
Lemma source_used base i a n s s' b u c : within 0 i base -> ~ In n (map s_name base) -> Forall (fun x => Name (fst x) /\ exists s', SourceReads (snd x) s') a -> Name n -> ~ In n (source_names a) -> SourceReads s s' ->
  within (i + length (a ++ (n, s) :: b)) c u ->
  use_source (base ++ source_table [] i (a ++ (n, s) :: b) ++ u) n = Ok (Some (read_again (flat_map (fun x => files_of (snd x)) a) s s')).
Proof.
  intros Hb0 Hn0 Ha Hname Hn Hs Hu. rewrite source_table_app. cbn [source_table app]. set (seen := flat_map (fun x => files_of (snd x)) a) in *. set (j := i + length a).
  unfold use_source. rewrite !find_app, (not_named base n Hn0), (not_named (source_table [] i a) n) by (apply source_names_not; assumption).
  assert (P : forall p, place j p (base ++ (source_table [] i a ++ source_syms seen j (n, s) ++ source_table (seen ++ files_of s) (S j) b) ++ u) = place j p (source_syms seen j (n, s))).
  { intros p. rewrite <- !app_assoc, app_assoc. apply (place_middle j (S j)); [apply (within_app 0 i); [exact Hb0|apply sources_within|lia|unfold j; lia]|lia| |lia].
    right. exists (Nat.max c (S j + length b)). apply Forall_app. split; [eapply Forall_impl; [|exact (sources_within b (seen ++ files_of s) (S j))]; intros x; cbn; lia|].
    eapply Forall_impl; [|exact Hu]. intros x. cbn. rewrite app_length. cbn [length]. unfold j. lia. }
  destruct Hs as [l Hl Hq | f f' Hf].
  - assert (F : find_symbol (source_syms seen j (n, NamedTable l)) n = Some (Sym n (j, 0) WNamed)) by (unfold find_symbol, source_syms; cbn [find snd fst s_name]; rewrite seq_eqb_refl; reflexivity). rewrite F. cbn [s_what s_loc].
    change (details_at ?t (j, 0)) with (place j is_detail t). cbn [snd] in P. rewrite P. do 3 f_equal. unfold place, source_syms. cbn [snd fst filter]. rewrite at_self. cbn [is_detail s_what andb]. rewrite filter_all.
    + cbn [read_again]. f_equal. rewrite map_map. apply List.map_id.
    + apply Forall_forall. intros x Hx. apply in_map_iff in Hx as (y & <- & _). rewrite at_self. reflexivity.
  - assert (F : find_symbol (source_syms seen j (n, LocalFiles [f])) n = Some (Sym n (j, 0) WLocal)) by (unfold find_symbol, source_syms; cbn [find snd fst s_name]; rewrite seq_eqb_refl; reflexivity). rewrite F. cbn [s_what s_loc].
    change (details_at ?t (j, 0)) with (place j is_detail t). cbn [snd] in P. rewrite P.
    unfold place, source_syms. cbn [snd fst filter]. rewrite !at_self. cbn [is_detail s_what andb each obind read_again]. destruct (seen_in seen f); [reflexivity|]. destruct Hf. reflexivity.
Qed.
Lemma seen_iff seen f : Forall Readable_file seen -> Readable_file f -> seen_in seen f = true <-> In f seen.
Proof.
  intros Rs Rf. unfold seen_in. rewrite existsb_exists. split.
  - intros (g & Hg & E). unfold same_name in E. apply seq_eqb_eq in E. rewrite Forall_forall in Rs. pose proof (fname_inj f g Rf (Rs g Hg) E). subst g. exact Hg.
  - intros H. exists f. split; [exact H|]. apply seq_eqb_refl.
Qed.
Lemma files_readable a : Forall (fun x : str * source => Name (fst x) /\ exists s', SourceReads (snd x) s') a -> Forall Readable_file (flat_map (fun x => files_of (snd x)) a).
Proof. induction 1 as [|x a (_ & s' & Hs) _ IH]; [constructor|]. cbn [flat_map]. apply Forall_app. split; [eapply source_reads_files; exact Hs|exact IH]. Qed.
(** the name of a table *)
Lemma table_used base i a m l b u n : ~ In n (map s_name base) -> Forall (fun x => Name (fst x) /\ exists s', SourceReads (snd x) s') a -> Name n -> ~ In n (source_names a) -> n <> m -> In n l ->
  use_source (base ++ source_table [] i (a ++ (m, NamedTable l) :: b) ++ u) n = Throw EBadAnyCast.
Proof.
  intros Hn0 Ha Hname Hn Hm Hin. rewrite source_table_app. cbn [source_table app]. unfold use_source. rewrite !find_app, (not_named base n Hn0), (not_named (source_table [] i a) n) by (apply source_names_not; assumption).
  set (seen := flat_map _ a). set (j := i + length a). destruct (find_symbol (source_syms seen j (m, NamedTable l)) n) as [y|] eqn:E.
  - pose proof (find_some _ _ E) as [I1 E1]. apply seq_eqb_eq in E1. destruct I1 as [<- | I1]; [cbn in E1; congruence|]. apply in_map_iff in I1 as (x & <- & _). reflexivity.
  - exfalso. apply (List.find_none _ _) with (x := Sym n (j, 0) (WDetail None)) in E; [cbn [s_name] in E; rewrite seq_eqb_refl in E; discriminate|]. right. apply in_map_iff. exists n. split; [reflexivity|exact Hin].
Qed.

(** * Whole plans *)
(** The names that are defined by the sections of a plan *)
Definition space_names (b : DeclModel.block) : list str := match fst b with Some u => [u] | None => [] end ++ map fst (snd b).
Definition defined_names (p : plan) : list str := schema_names (pl_schemas p) ++ source_names (pl_sources p) ++ concat (map space_names (pl_spaces p)).
Definition known_in (p : plan) (n : str) : bool := existsb (fun m => n =s m) (defined_names p).
Definition known (t : table) (n : str) : bool := match find_symbol t n with Some _ => true | None => false end.
(** Plans that are printed as a text that can be read, with what the relations are read as *)
Record PlanReads (p : plan) (rs : list (reading * relation)) : Prop := {
  pr_pipelines : Forall (fun l => l <> [] /\ Forall Name l) (pl_pipelines p);
  pr_relations : Forall2 (RelationReads (known_in p)) (pl_relations p) rs;
  pr_roots : Forall (Forall Name) (pl_roots p);
  pr_schemas : Forall (fun x => Name (fst x) /\ exists s', SchemaReads (snd x) s') (pl_schemas p);
  pr_sources : Forall (fun x => Name (fst x) /\ exists s', SourceReads (snd x) s') (pl_sources p);
  pr_spaces : Forall SpaceReads (pl_spaces p) }.
(** What a text says: the definitions it is parsed into, their symbols, and what the parts of the plan become.  A schema or a source means what it did
    if nothing before it has its name, and a file if it is not listed twice. *)
Record Says (t : str) (p : plan) (rs : list (reading * relation)) (nodes : list pnode) (tab : table) : Prop := {
  sy_parse : parse t = Some nodes;
  sy_symbols : symbols nodes = Ok (tab, []);
  sy_pipelines : pipelines_of nodes = map (map twice) (pl_pipelines p);
  sy_names : map n_name (relations_of nodes) = map (fun x => snd (fst x)) (pl_relations p);
  sy_relations : Forall2 (fun n y => visit_relation (known tab) (fst y) n = Ok (Some (snd y), [])) (relations_of nodes) rs;
  sy_roots : roots_of nodes = filter has_names (pl_roots p);
  sy_spaces : spaces_of nodes = pl_spaces p;
  sy_schemas : forall a m s b s' n, pl_schemas p = a ++ (m, s) :: b -> In n (m :: ns_names s) -> ~ In n (schema_names a) -> SchemaReads s s' -> use_schema tab n = Some s';
  sy_sources : forall a n s b s', pl_sources p = a ++ (n, s) :: b -> ~ In n (schema_names (pl_schemas p)) -> ~ In n (source_names a) ->
    (forall f, In f (files_of s) -> ~ In f (flat_map (fun x => files_of (snd x)) a)) -> SourceReads s s' -> use_source tab n = Ok (Some s');
  sy_file_again : forall a n f b, pl_sources p = a ++ (n, LocalFiles [f]) :: b -> ~ In n (schema_names (pl_schemas p)) -> ~ In n (source_names a) ->
    In f (flat_map (fun x => files_of (snd x)) a) -> use_source tab n = Ok (Some (LocalFiles [no_file]));
  sy_hidden : forall n, In n (schema_names (pl_schemas p)) -> use_source tab n = Throw EBadAnyCast;
  sy_table : forall a m l b n, pl_sources p = a ++ (m, NamedTable l) :: b -> In n l -> n <> m -> Name n -> ~ In n (schema_names (pl_schemas p)) -> ~ In n (source_names a) -> use_source tab n = Throw EBadAnyCast;
  sy_order : exists before, map s_name tab = map DeclModel.entry_name (DeclModel.read_text before (pl_spaces p)) /\ forall n, Name n -> In n before -> In n (schema_names (pl_schemas p) ++ source_names (pl_sources p)) }.
Lemma texts_details ts ns : Forall2 Detail ts ns -> Texts (separated ts) ns.
Proof.
  intros H. replace ns with (concat (map (fun n => [n]) ns)) by (clear; induction ns; cbn; congruence). apply texts_separated. induction H; constructor; [apply texts_detail; assumption|assumption].
Qed.
Lemma texts_empty ns : Texts [] ns -> ns = [].
Proof. intros H. apply texts_parse in H. cbn in H. injection H as <-. reflexivity. Qed.
Lemma texts_filter l ns : Forall2 Texts l ns -> exists ms, Forall2 Texts (filter nonempty l) ms /\ concat ms = concat ns.
Proof.
  induction 1 as [|t n l ns Ht _ (ms & H & E)]; [exists []; split; [constructor|reflexivity]|]. destruct t as [|c t]; cbn [filter nonempty].
  - apply texts_empty in Ht. subst n. exists ms. split; [exact H|exact E].
  - exists (n :: ms). split; [constructor; assumption|]. cbn [concat]. rewrite E. reflexivity.
Qed.
Lemma details_map {A} (f : A -> str) (g : A -> pnode) (P : A -> Prop) l : (forall x, P x -> Detail (f x) (g x)) -> Forall P l -> Forall2 Detail (map f l) (map g l).
Proof. intros H. induction 1; constructor; auto. Qed.
Lemma source_print n s s' : Name n -> SourceReads s s' -> exists t, printSource n s = Ok t /\ Detail t (source_node (n, s)).
Proof.
  intros Hn [l Hl Hq | f f' Hf]; [apply named_detail; assumption|]. assert (Ha : exists s, address (f_location f) = Some s /\ (f_format f = Parquet \/ f_format f = Orc) /\ Quotable s) by (destruct Hf; eauto). destruct Ha as (ad & Ha & Hfm & Hq).
  destruct (local_detail n f ad Hn Ha Hfm Hq) as (t & E & D). exists t. split; [exact E|]. unfold source_node, fname. cbn [fst snd]. rewrite Ha. exact D.
Qed.
Lemma sources_print l : Forall (fun x => Name (fst x) /\ exists s', SourceReads (snd x) s') l -> exists ts, each (fun s => printSource (fst s) (snd s)) l = Ok ts /\ Forall2 Detail ts (map source_node l).
Proof.
  induction 1 as [|[n s] l (Hn & s' & Hs) _ (ts & E & D)]; [exists []; split; [reflexivity|constructor]|]. destruct (source_print n s s' Hn Hs) as (t & Et & Dt). exists (t :: ts). split; [cbn [each fst snd]; rewrite Et; cbn [obind]; rewrite E; reflexivity|].
  constructor; assumption.
Qed.
Lemma source_names_in l : forall seen i n, Forall (fun x => Name (fst x) /\ exists s', SourceReads (snd x) s') l -> In n (source_names l) -> In n (map s_name (source_table seen i l)).
Proof.
  induction l as [|[m s] l IH]; intros seen i n H Hin; [destruct Hin|]. inversion H as [|x y (Hm & s' & Hs) Hl]; subst. cbn [fst snd] in *. cbn [source_table]. rewrite map_app, in_app_iff. unfold source_names in Hin. cbn [map concat] in Hin. apply in_app_or in Hin as [I1 | I1].
  - left. destruct Hs as [l0 ? ? | f f' Hf]; cbn [table_names fst snd] in I1.
    + assert (E : map s_name (source_syms seen i (m, NamedTable l0)) = m :: l0) by (unfold source_syms; cbn [snd fst]; transitivity (m :: map s_name (map (fun n => Sym n (i, 0) (WDetail None)) l0)); [reflexivity|]; rewrite map_map; f_equal; apply List.map_id).
      rewrite E. exact I1.
    + destruct I1 as [<- | []]. left. reflexivity.
  - right. apply IH; assumption.
Qed.
Lemma space_sym_names i b : map s_name (space_syms i b) = space_names b.
Proof.
  unfold space_syms, space_names. rewrite map_app. f_equal; [destruct (fst b); reflexivity|]. generalize 0. induction (snd b) as [|f fs IH]; intros j; [reflexivity|]. cbn [map function_symbols]. cbn [map s_name referenceName node_of snd fst]. rewrite IH. reflexivity.
Qed.
Lemma known_all t n : In n (map s_name t) -> known t n = true.
Proof.
  intros H. unfold known, find_symbol. destruct (find _ t) as [s|] eqn:E; [reflexivity|]. apply in_map_iff in H as (s & <- & Hs). apply (List.find_none _ _) with (x := s) in E; [|exact Hs]. cbv beta in E. rewrite seq_eqb_refl in E. discriminate.
Qed.
Lemma flat_nil {A B} (f : A -> list B) l : (forall a, In a l -> f a = []) -> flat_map f l = [].
Proof. intros H. induction l as [|a l IH]; [reflexivity|]. cbn. rewrite H by (left; reflexivity). apply IH. intros x Hx. apply H. right. exact Hx. Qed.
Lemma flat_map_map {A B C} (f : B -> list C) (g : A -> B) l : flat_map f (map g l) = flat_map (fun x => f (g x)) l.
Proof. induction l; cbn; congruence. Qed.
Lemma flat_single {A} (l : list A) : flat_map (fun x => [x]) l = l.
Proof. induction l; cbn; congruence. Qed.
Lemma flat_none {A B} (l : list A) : flat_map (fun _ => @nil B) l = [].
Proof. induction l; cbn; auto. Qed.
Lemma forall2_more {A B} (P Q : A -> B -> Prop) l l' : (forall a b, P a b -> Q a b) -> Forall2 P l l' -> Forall2 Q l l'.
Proof. intros H. induction 1; constructor; auto. Qed.
Lemma read_blocks_names l : forall ns nf, map DeclModel.entry_name (DeclModel.read_blocks ns nf l) = concat (map space_names l).
Proof.
  assert (F : forall fs sp nf, map DeclModel.entry_name (DeclModel.read_functions sp nf fs) = map fst fs) by (induction fs as [|[a b] fs IH]; intros sp nf; [reflexivity|]; cbn; rewrite IH; reflexivity).
  induction l as [|[[u|] fs] l IH]; intros ns nf; [reflexivity| |]; cbn [DeclModel.read_blocks map concat]; rewrite map_app, IH; unfold space_names; cbn [fst snd map app]; rewrite F; reflexivity.
Qed.
(** More about the definitions and the symbols: their order, and the details of the relations *)
Definition first_schema (p : plan) : nat := match pl_pipelines p with [] => 0 | _ => 1 end + (length (pl_relations p) + length (filter has_names (pl_roots p))).
Definition table_of (p : plan) : table :=
  numbered schema_syms (first_schema p) (pl_schemas p) ++ source_table [] (first_schema p + length (pl_schemas p)) (pl_sources p) ++ numbered space_syms (first_schema p + length (pl_schemas p) + length (pl_sources p)) (pl_spaces p).
Record Layout (p : plan) (rs : list (reading * relation)) (nodes : list pnode) (tab : table) : Prop := {
  ly_nodes : exists others, nodes = others ++ map schema_node (pl_schemas p) ++ map source_node (pl_sources p) ++ map space_node (pl_spaces p) /\
    Forall (fun n => match n with PPipelines _ | PRelation _ | PRoot _ => True | _ => False end) others;
  ly_tab : tab = table_of p;
  ly_shape : Forall2 (fun n z => shape_as (fst z) (snd z) n) (relations_of nodes) (combine (pl_relations p) rs) }.
Lemma plan_layout p rs : PlanReads p rs -> exists t nodes tab, outputToText p = Ok (t, 0) /\ Says t p rs nodes tab /\ Layout p rs nodes tab.
Proof.
  intros [Hpi Hre Hro Hsc Hso Hsp].
  set (n1 := match pl_pipelines p with [] => [] | l => [PPipelines (map (map twice) l)] end).
  set (n3 := map PRoot (filter has_names (pl_roots p))). set (n4 := map schema_node (pl_schemas p)). set (n5 := map source_node (pl_sources p)). set (n6 := map space_node (pl_spaces p)).
  assert (Hsc' : Forall (fun x => exists s', SchemaReads (snd x) s') (pl_schemas p)) by (eapply Forall_impl; [|exact Hsc]; intros x [_ ?]; assumption).
  (* the symbols *)
  assert (Tab : forall rnodes, exists i, i = length (n1 ++ map PRelation rnodes ++ n3) /\
    symbols (n1 ++ map PRelation rnodes ++ n3 ++ n4 ++ n5 ++ n6) = Ok (numbered schema_syms i (pl_schemas p) ++ source_table [] (i + length (pl_schemas p)) (pl_sources p) ++ numbered space_syms (i + length (pl_schemas p) + length (pl_sources p)) (pl_spaces p), [])).
  { intros rnodes. eexists. split; [reflexivity|]. set (i := length _). unfold symbols. replace (n1 ++ map PRelation rnodes ++ n3 ++ n4 ++ n5 ++ n6) with ((n1 ++ map PRelation rnodes ++ n3) ++ n4 ++ n5 ++ n6) by (rewrite <- !app_assoc; reflexivity).
    rewrite plain_defined. 2:{ apply Forall_app. split; [unfold n1; destruct (pl_pipelines p); repeat constructor|]. apply Forall_app. split; apply Forall_forall; intros x Hx; apply in_map_iff in Hx as (y & <- & _); exact I. }
    cbn [Nat.add]. fold i. unfold n4. rewrite schemas_defined by exact Hsc'. cbn [app]. unfold n5. rewrite (sources_defined _ []); [|exact Hso|].
    2:{ split; [constructor|]. intros f Hf. rewrite find_none; [reflexivity|]. intros s Hs E. apply (in_map s_name) in Hs. rewrite schemas_names in Hs by exact Hsc'. rewrite E in Hs. unfold schema_names in Hs. apply in_concat in Hs as (l & Hl & Hin). apply in_map_iff in Hl as ([n sc] & <- & Hx). cbn [fst snd] in Hin.
        rewrite Forall_forall in Hsc. destruct (Hsc _ Hx) as (Hn & s' & Hs'). cbn [fst snd] in *. destruct Hin as [Hin | Hin]; [apply (fname_not_name f n Hf Hn); exact Hin|]. destruct Hs' as [names types types' w Hl Hns _]. cbn [ns_names] in Hin. rewrite Forall_forall in Hns. exact (fname_not_name f _ Hf (Hns _ Hin) eq_refl). }
    unfold n6. rewrite spaces_defined by exact Hsp. rewrite <- app_assoc. reflexivity. }
  assert (Kn : forall i n, known_in p n = true -> known (numbered schema_syms i (pl_schemas p) ++ source_table [] (i + length (pl_schemas p)) (pl_sources p) ++ numbered space_syms (i + length (pl_schemas p) + length (pl_sources p)) (pl_spaces p)) n = true).
  { intros i n H. apply known_all. unfold known_in in H. apply existsb_exists in H as (m & Hm & E). apply seq_eqb_eq in E. subst m. rewrite !map_app, !in_app_iff. unfold defined_names in Hm. rewrite !in_app_iff in Hm. destruct Hm as [Hm | [Hm | Hm]].
    - left. rewrite schemas_names by exact Hsc'. exact Hm.
    - right. left. apply source_names_in; assumption.
    - right. right. rewrite (names_numbered space_syms space_names); [exact Hm|]. apply space_sym_names. }
  (* the texts *)
  destruct (Tab []) as (i0 & _ & _).
  set (len := length (n1 ++ map (fun x => PRoot []) (pl_relations p) ++ n3)).
  assert (Elen : len = first_schema p) by (unfold len, n1, n3, first_schema; rewrite !app_length, !map_length; destruct (pl_pipelines p); reflexivity).
  assert (Hre' : Forall2 (RelationReads (known (numbered schema_syms len (pl_schemas p) ++ source_table [] (len + length (pl_schemas p)) (pl_sources p) ++ numbered space_syms (len + length (pl_schemas p) + length (pl_sources p)) (pl_spaces p)))) (pl_relations p) rs).
  { eapply forall2_more; [|exact Hre]. intros [[n name] r] [d r'] (Hn & H). split; [exact Hn|]. eapply rel_reads_more; [| |exact H]; intros m; apply Kn. }
  destruct (relations_shape _ _ _ Hre') as (ps & rnodes & E2 & Z2 & D2 & Nm & V & Sh). clear Hre'.
  destruct (Tab rnodes) as (i & Hi & Sy). assert (Ei : i = len). { subst i. unfold len. rewrite !app_length, !map_length. do 2 f_equal. rewrite <- (map_length n_name rnodes), Nm, map_length. reflexivity. }
  rewrite Ei in Sy. clear Hi Ei i Tab i0.
  set (tab := numbered schema_syms len (pl_schemas p) ++ source_table [] (len + length (pl_schemas p)) (pl_sources p) ++ numbered space_syms (len + length (pl_schemas p) + length (pl_sources p)) (pl_spaces p)) in *.
  destruct (sources_print _ Hso) as (ts5 & E5 & D5).
  set (nodes := n1 ++ map PRelation rnodes ++ n3 ++ n4 ++ n5 ++ n6) in *.
  assert (T1 : Texts (printPipelines (pl_pipelines p)) n1). { unfold n1. destruct (pl_pipelines p) as [|x l]; [apply texts_blank, cuts_nil|]. apply texts_detail, pipelines_detail; [discriminate|exact Hpi]. }
  assert (T2 : Texts (separated (map fst ps)) (map PRelation rnodes)). { apply texts_details. clear - D2. induction D2; constructor; assumption. }
  assert (T3 : Texts (printRoots (pl_roots p)) n3).
  { apply texts_details. unfold n3. apply (details_map root_text PRoot (fun l => l <> [] /\ Forall Name l)); [intros l [? ?]; apply root_detail; assumption|]. apply Forall_forall. intros l Hl. apply filter_In in Hl as [Hl Hne]. rewrite Forall_forall in Hro. split; [destruct l; [discriminate|discriminate]|apply Hro, Hl]. }
  assert (T4 : Texts (printSchemas (pl_schemas p)) n4).
  { apply texts_details. unfold n4. eapply details_map; [|exact Hsc]. intros [n s] (Hn & s' & Hs). eapply schema_detail; eassumption. }
  assert (T5 : Texts (separated ts5) n5) by (apply texts_details; exact D5).
  assert (T6 : Texts (DeclModel.section_text (pl_spaces p)) n6).
  { rewrite section_separated. apply texts_details. unfold n6. eapply details_map; [|exact Hsp]. intros b Hb. apply space_detail, Hb. }
  destruct (texts_filter _ _ (Forall2_cons _ _ T1 (Forall2_cons _ _ T2 (Forall2_cons _ _ T3 (Forall2_cons _ _ T4 (Forall2_cons _ _ T5 (Forall2_cons _ _ T6 (Forall2_nil _)))))))) as (ms & F & Ems).
  eexists. exists nodes, tab. split.
  { unfold outputToText, printRelations, printSources. rewrite E2. cbn [obind]. rewrite E5. cbn [obind fst snd]. f_equal. f_equal. clear - Z2. induction Z2 as [|x l H _ IH]; [reflexivity|]. cbn. rewrite H. exact IH. }
  assert (Q : forall A (f : pnode -> list A) r1 r2 r3 r4 r5 r6, flat_map f n1 = r1 -> flat_map f (map PRelation rnodes) = r2 -> flat_map f n3 = r3 -> flat_map f n4 = r4 -> flat_map f n5 = r5 -> flat_map f n6 = r6 ->
    flat_map f nodes = r1 ++ r2 ++ r3 ++ r4 ++ r5 ++ r6). { intros. unfold nodes. rewrite !flat_map_app. congruence. }
  assert (R : relations_of nodes = rnodes).
  { unfold relations_of. rewrite (Q _ _ [] rnodes [] [] [] []); [rewrite !app_nil_r; reflexivity| | | | | |]; try (unfold n3, n4, n5, n6; rewrite flat_map_map; apply flat_none); [unfold n1; destruct (pl_pipelines p); reflexivity|]. rewrite flat_map_map. apply flat_single. }
  assert (before : forall a x b, pl_sources p = a ++ x :: b -> Forall (fun x => Name (fst x) /\ (exists s', SourceReads (snd x) s')) a) by (intros a x b E; rewrite E in Hso; apply Forall_app in Hso as [X _]; exact X).
  assert (U : forall a n s b s', pl_sources p = a ++ (n, s) :: b -> ~ In n (schema_names (pl_schemas p)) -> ~ In n (source_names a) -> SourceReads s s' -> use_source tab n = Ok (Some (read_again (flat_map (fun x => files_of (snd x)) a) s s'))).
  { intros a n s b s' E Hn1 Hn2 Hs. unfold tab. assert (Hn : Name n) by (rewrite E in Hso; apply Forall_app in Hso as [_ Y]; inversion Y as [|? ? [Z _]]; exact Z).
    rewrite E at 1. apply (source_used _ (len + length (pl_schemas p)) a n s s' b _ (len + length (pl_schemas p) + length (pl_sources p) + length (pl_spaces p))); try assumption.
    + eapply Forall_impl; [|exact (numbered_within schema_syms (pl_schemas p) schema_within len)]. intros x. cbn. lia.
    + rewrite schemas_names by exact Hsc'. exact Hn1.
    + eapply before. exact E.
    + rewrite <- E. apply numbered_within, space_within. }
  split.
  2:{ constructor; [exists (n1 ++ map PRelation rnodes ++ n3); split; [unfold nodes; rewrite <- !app_assoc; reflexivity|]|unfold table_of; rewrite <- Elen; reflexivity|rewrite R; exact Sh].
      apply Forall_app. split; [unfold n1; destruct (pl_pipelines p); repeat constructor|]. apply Forall_app. split; apply Forall_forall; intros x Hx; apply in_map_iff in Hx as (y & <- & _); exact I. }
  constructor.
  - etransitivity; [exact (texts_parse _ _ (texts_separated _ _ F))|]. f_equal. rewrite Ems. unfold nodes. cbn [concat]. rewrite app_nil_r. reflexivity.
  - exact Sy.
  - unfold pipelines_of. rewrite (Q _ _ (map (map twice) (pl_pipelines p)) [] [] [] [] []); [rewrite !app_nil_r; reflexivity| | | | | |]; try (unfold n3, n4, n5, n6; rewrite flat_map_map; apply flat_none). unfold n1. destruct (pl_pipelines p); [reflexivity|]. cbn [flat_map]. apply app_nil_r.
  - rewrite R. exact Nm.
  - rewrite R. exact V.
  - unfold roots_of. rewrite (Q _ _ [] [] (filter has_names (pl_roots p)) [] [] []); [cbn [app]; rewrite !app_nil_r; reflexivity| | | | | |]; try (unfold n3, n4, n5, n6; rewrite flat_map_map; first [apply flat_none|apply flat_single]). unfold n1. destruct (pl_pipelines p); reflexivity.
  - unfold spaces_of. rewrite (Q _ _ [] [] [] [] [] (pl_spaces p)); [reflexivity| | | | | |]; try (unfold n3, n4, n5; rewrite flat_map_map; apply flat_none); [unfold n1; destruct (pl_pipelines p); reflexivity|]. unfold n6. rewrite flat_map_map. unfold space_node. clear. induction (pl_spaces p) as [|[u fs] l IH]; [reflexivity|]. cbn [flat_map fst snd app]. rewrite IH. f_equal. f_equal. rewrite map_map. unfold node_of, referenceName. cbn [fst snd]. clear. induction fs as [|[a b] fs IH]; [reflexivity|]. cbn [map fst snd]. rewrite IH. reflexivity.
  - intros a m s b s' n E Hin Hn Hs. unfold tab. rewrite E at 1. apply (schema_used [] len a m s s' b _ (len + length (pl_schemas p) + length (pl_sources p) + length (pl_spaces p))); try assumption; [constructor|intros []|rewrite E in Hsc'; apply Forall_app in Hsc' as [X _]; exact X|].
    rewrite <- E. apply (within_app _ (len + length (pl_schemas p) + length (pl_sources p))); [apply sources_within|apply numbered_within, space_within|lia|lia].
  - intros a n s b s' E Hn1 Hn2 Hf Hs. rewrite (U a n s b s' E Hn1 Hn2 Hs). do 2 f_equal. destruct Hs as [? ? ?|f f' Hfr]; [reflexivity|]. cbn [read_again]. destruct (seen_in _ f) eqn:QQ; [|reflexivity]. exfalso. apply seen_iff in QQ; [|eapply files_readable, before; exact E|eexists; exact Hfr]. exact (Hf f (or_introl eq_refl) QQ).
  - intros a n f b E Hn1 Hn2 Hin. assert (X : exists s', SourceReads (LocalFiles [f]) s') by (rewrite E in Hso; apply Forall_app in Hso as [_ Y]; inversion Y as [|? ? [_ Z]]; exact Z). destruct X as (s' & Hs). rewrite (U a n _ b s' E Hn1 Hn2 Hs). cbn [read_again]. do 2 f_equal.
    assert (Rf : Readable_file f) by (pose proof (source_reads_files _ _ Hs) as X; exact (Forall_inv X)). rewrite (proj2 (seen_iff _ _ (files_readable _ (before _ _ _ E)) Rf) Hin). reflexivity.
  - intros n Hn. unfold use_source, tab. destruct (schema_first len (pl_schemas p) (source_table [] (len + length (pl_schemas p)) (pl_sources p) ++ numbered space_syms (len + length (pl_schemas p) + length (pl_sources p)) (pl_spaces p)) n Hsc' Hn) as (y & Fy & Hy). rewrite Fy. destruct y as [x l w]. destruct w; try discriminate Hy; reflexivity.
  - intros a m l b n E Hin Hm Hn Hn1 Hn2. unfold tab. rewrite E at 1. apply table_used; try assumption; [rewrite schemas_names by exact Hsc'; exact Hn1|eapply before; exact E].
  - exists (map s_name (numbered schema_syms len (pl_schemas p) ++ source_table [] (len + length (pl_schemas p)) (pl_sources p))). split.
    + unfold tab, DeclModel.read_text. rewrite !map_app, !map_map, app_assoc. cbn [DeclModel.entry_name]. f_equal. rewrite read_blocks_names. apply names_numbered, space_sym_names.
    + intros n Hn Hin. rewrite map_app, in_app_iff in Hin. apply in_or_app. destruct Hin as [Hin | Hin]; [left; rewrite schemas_names in Hin by exact Hsc'; exact Hin|right].
      destruct (in_dec (list_eq_dec ascii_dec) n (source_names (pl_sources p))) as [Y | Y]; [exact Y|]. exfalso. revert Hin. apply source_names_not; assumption.
Qed.
Lemma plan_reads p rs : PlanReads p rs -> exists t nodes tab, outputToText p = Ok (t, 0) /\ Says t p rs nodes tab.
Proof. intros H. destruct (plan_layout p rs H) as (t & nodes & tab & P & S1 & _). exists t, nodes, tab. split; assumption. Qed.
