(** Theorems about the words of text plans: tokens, letter case, white space, names and URIs. *)
From Verif Require Import Base BaseFacts StringsModel EscapeModel EscapeFacts SymbolModel SymbolFacts SymbolMoreFacts LexModel LexFacts NameModel NameFacts.
From Coq Require Import Lia.

(** * C65: a text is cut into the longest tokens, the first rule deciding among equals, and nothing is lost *)
Theorem C65_longest_match m s l : pieces m s = l <-> Lexes m s l.
Proof. symmetry. apply lexes_iff. Qed.
Theorem C65_nothing_lost m s : concat (map piece_text (pieces m s)) = s.
Proof. exact (pieces_text m s). Qed.
(** Between extension_space and the next brace other rules hold. *)
Theorem C65_modes k : (next_mode Default k = Extensions <-> k = EXTENSION_SPACE) /\ (next_mode Extensions k = Default <-> k = LEFTBRACE).
Proof. destruct k; split; split; (reflexivity || discriminate). Qed.
(** The words and signs of the language. *)
Definition vocabulary : list (kind * str) :=
  [(EXTENSION_SPACE, $"extension_space"); (FUNCTION, $"function"); (AS, $"as"); (NAMED, $"named"); (SCHEMA, $"schema"); (RELATION, $"relation"); (PIPELINES, $"pipelines");
   (COMMON, $"common"); (BASE_SCHEMA, $"base_schema"); (FILTER, $"filter"); (PROJECTION, $"projection"); (EXPRESSION, $"expression"); (ADVANCED_EXTENSION, $"advanced_extension");
   (GROUPING, $"grouping"); (MEASURE, $"measure"); (INVOCATION, $"invocation"); (SORT, $"sort"); (BY, $"by"); (COUNT, $"count"); (TYPE, $"type"); (EMIT, $"emit");
   (SUBQUERY, $"subquery"); (EXISTS, $"exists"); (UNIQUE, $"unique"); (IN, $"in"); (ALL, $"all"); (ANY, $"any");
   (COMPARISON, $"eq"); (COMPARISON, $"ne"); (COMPARISON, $"lt"); (COMPARISON, $"gt"); (COMPARISON, $"le"); (COMPARISON, $"ge");
   (VIRTUAL_TABLE, $"virtual_table"); (LOCAL_FILES, $"local_files"); (NAMED_TABLE, $"named_table"); (EXTENSION_TABLE, $"extension_table"); (SOURCE, $"source"); (ROOT, $"root");
   (ITEMS, $"items"); (NAMES, $"names"); (URI_FILE, $"uri_file"); (URI_PATH, $"uri_path"); (URI_PATH_GLOB, $"uri_path_glob"); (URI_FOLDER, $"uri_folder");
   (PARTITION_INDEX, $"partition_index"); (START, $"start"); (LENGTH, $"length"); (ORC, $"orc"); (PARQUET, $"parquet"); (NULLVAL, $"null"); (TRUEVAL, $"true"); (FALSEVAL, $"false");
   (LIST, $"list"); (MAP, $"map"); (STRUCT, $"struct");
   (ARROW, $"->"); (COLON, $":"); (SEMICOLON, $";"); (LEFTBRACE, $"{"); (RIGHTBRACE, $"}"); (LEFTPAREN, $"("); (RIGHTPAREN, $")"); (COMMA, $","); (PERIOD, $"."); (EQUAL, $"=");
   (LEFTBRACKET, $"["); (RIGHTBRACKET, $"]"); (UNDERSCORE, $"_"); (MINUS, $"-"); (LEFTANGLEBRACKET, $"<"); (RIGHTANGLEBRACKET, $">"); (QUESTIONMARK, $"?"); (ATSIGN, $"@")].
(** Each word, in any case, is one token of its kind; ... *)
Theorem C65_words k w s : In (k, w) vocabulary -> to_lower s = w -> pieces Default s = [Token k s].
Proof.
  intros Hin E. assert (X : Forall (fun e => pieces Default (snd e) = [Token (fst e) (snd e)]) vocabulary) by (repeat (constructor; [vm_compute; reflexivity|]); constructor).
  rewrite Forall_forall in X. specialize (X _ Hin). cbn [fst snd] in X. rewrite <- E, pieces_low in X. pose proof (pieces_text Default s) as T.
  destruct (pieces Default s) as [|[k' t|c] [|? ?]]; try discriminate. injection X as -> _. cbn in T. rewrite app_nil_r in T. subst t. reflexivity.
Qed.
(** ... and a token of such a kind is always one of these words. *)
Theorem C65_only_words m s k t : In k (map fst vocabulary) -> In (Token k t) (pieces m s) -> In (k, to_lower t) vocabulary.
Proof.
  intros Hk. pose proof (pieces_lexes m s) as H. induction H as [m | m t' r k' l Ht HL HX IH | m c r l _ HX IH]; intros Hin.
  - destruct Hin.
  - destruct Hin as [E | Hin]; [|exact (IH Hin)]. injection E as -> ->. destruct HL as (i & M & Hi & HM & _). clear IH HX Ht. apply nth_error_In in Hi.
    assert (Hw : forall w, prefix_in (LWord w) (t ++ r) (length t) -> to_lower t = w).
    { intros w (x & y & E & El & Hx). unfold LWord in Hx. rewrite <- Hx. f_equal. apply (f_equal (firstn (length t))) in E. rewrite firstn_length_app in E. rewrite <- El, firstn_length_app in E. exact E. }
    assert (Hs : forall l, In (k, M) (spec_words l) -> In (k, to_lower t) l).
    { intros l' Hl. apply in_map_iff in Hl as ([k' w] & E & Hl). injection E as <- <-. rewrite (Hw w HM). exact Hl. }
    assert (Ev : vocabulary = keywords ++ punctuation) by reflexivity.
    assert (Hother : ~ In k [IDENTIFIER; NUMBER; STRING; SINGLE_LINE_COMMENT; SPACES; URI]).
    { intros Hk'. clear -Hk Hk'. cbn in Hk'. repeat (destruct Hk' as [<- | Hk']; [cbn in Hk; repeat (destruct Hk as [Hk | Hk]; [discriminate|]); exact Hk|]). exact Hk'. }
    rewrite Ev, in_app_iff. destruct m; cbn [spec_rules] in Hi.
    + rewrite !in_app_iff in Hi. destruct Hi as [Hi | [Hi | Hi]]; [left; exact (Hs _ Hi)|right; exact (Hs _ Hi)|]. exfalso. apply Hother. apply (in_map fst) in Hi. cbn in Hi. cbn. tauto.
    + cbn in Hi. destruct Hi as [Hi | [Hi | [Hi | []]]]; injection Hi as <- <-; [exfalso; apply Hother; cbn; tauto| |exfalso; apply Hother; cbn; tauto].
      rewrite (Hw _ HM). right. cbn. tauto.
  - destruct Hin as [E | Hin]; [discriminate|exact (IH Hin)].
Qed.
(** What the parser gets: every token except white space and comments, in order. *)
Inductive Seen : list piece -> list token -> Prop :=
| SN_nil : Seen [] []
| SN_space t l ts : Seen l ts -> Seen (Token SPACES t :: l) ts
| SN_comment t l ts : Seen l ts -> Seen (Token SINGLE_LINE_COMMENT t :: l) ts
| SN_token k t l ts : k <> SPACES -> k <> SINGLE_LINE_COMMENT -> Seen l ts -> Seen (Token k t :: l) ((k, t) :: ts).
Theorem C65_seen s ts : tokens s = Some ts <-> Seen (pieces Default s) ts.
Proof.
  unfold tokens. generalize (pieces Default s). intros l. revert ts. induction l as [|p l IH]; intros ts.
  - split; [intros [= <-]; constructor|intros H; inversion H; reflexivity].
  - assert (X : lex_ok (p :: l) = match p with Bad _ => false | _ => lex_ok l end) by (destruct p; reflexivity). rewrite X. clear X. split.
    + destruct p as [k t|c]; [|discriminate]. intros H. destruct (lex_ok l); [|discriminate]. injection H as <-.
      assert (Hl : Seen l (visible l)) by (apply IH; reflexivity). change (Seen (Token k t :: l) ((if hidden k then [] else [(k, t)]) ++ visible l)).
      destruct k; cbn [hidden app]; (apply SN_token; [discriminate|discriminate|exact Hl]) || (apply SN_comment; exact Hl) || (apply SN_space; exact Hl).
    + intros H. inversion H as [|t l' ts' Hl | t l' ts' Hl | k t l' ts' H1 H2 Hl]; subst; apply IH in Hl; destruct (lex_ok l); try discriminate; injection Hl as <-; try reflexivity.
      change (Some ((if hidden k then [] else [(k, t)]) ++ visible l) = Some ((k, t) :: visible l)). destruct k; try reflexivity; congruence.
Qed.
(** Every character that fits no rule is reported. *)
Theorem C65_reported s : tokens s = None <-> exists c, In (Bad c) (pieces Default s).
Proof.
  unfold tokens. generalize (pieces Default s). intros l. destruct (lex_ok l) eqn:E; unfold lex_ok in E.
  - split; [discriminate|]. intros (c & Hc). rewrite forallb_forall in E. specialize (E _ Hc). discriminate.
  - split; [|reflexivity]. intros _. induction l as [|[k t|c] l IH]; [discriminate| |exists c; left; reflexivity]. destruct (IH E) as (c & Hc). exists c. right. exact Hc.
Qed.
Print Assumptions C65_longest_match. Print Assumptions C65_nothing_lost. Print Assumptions C65_modes. Print Assumptions C65_words. Print Assumptions C65_only_words. Print Assumptions C65_seen.
Print Assumptions C65_reported.
Example C65_seen_case : Seen (pieces Default ($"Emit a;")) [(EMIT, $"Emit"); (IDENTIFIER, $"a"); (SEMICOLON, $";")] /\ tokens ($"emit %;") = None.
Proof. split; [apply C65_seen; vm_compute; reflexivity|vm_compute; reflexivity]. Qed.
(** A keyword followed by letters is an identifier, a keyword with underscores is one token, a number takes its exponent. *)
Example C65_case : pieces Default ($"filters 1.5e+3<=named_table") =
  [Token IDENTIFIER ($"filters"); Token SPACES ($" "); Token NUMBER ($"1.5e+3"); Token LEFTANGLEBRACKET ($"<"); Token EQUAL ($"="); Token NAMED_TABLE ($"named_table")] /\
  pieces Default ($"Filter%") = [Token FILTER ($"Filter"); Bad "%"] /\
  Longest Default ($"filters x") IDENTIFIER 7.
Proof. split; [vm_compute; reflexivity|]. split; [vm_compute; reflexivity|]. apply next_longest. vm_compute. reflexivity. Qed.

(** * C66: the case of letters never changes which tokens a text has *)
Theorem C66_case_insensitive m s s' : to_lower s = to_lower s' -> map piece_kind (pieces m s) = map piece_kind (pieces m s').
Proof.
  intros E. assert (H : forall x, map piece_kind (pieces m x) = map piece_kind (pieces m (to_lower x))); [|rewrite (H s), (H s'), E; reflexivity].
  intros x. rewrite pieces_low, map_map. apply map_ext. intros [k t|c]; reflexivity.
Qed.
(** ... nor where they start and end. *)
Theorem C66_same_cuts m s : pieces m (to_lower s) = map low_piece (pieces m s).
Proof. exact (pieces_low m s). Qed.
Print Assumptions C66_case_insensitive. Print Assumptions C66_same_cuts.
Example C66_case : to_lower ($"READ Relation r { Base_Schema s; }") = to_lower ($"read relation R { BASE_SCHEMA S; }") /\
  map piece_kind (pieces Default ($"Relation R {")) = map Some [RELATION; SPACES; IDENTIFIER; SPACES; LEFTBRACE].
Proof. split; vm_compute; reflexivity. Qed.

(** * C67: any gap of white space and comments between tokens may become any other gap *)
Theorem C67_white_space s l' : Respaced Default (pieces Default s) l' -> tokens s <> None -> tokens (text l') = tokens s.
Proof. exact (tokens_respaced s l'). Qed.
(** A comment may start wherever a token may start. *)
Theorem C67_comment n r : all_ plain n -> tokens ($"//" ++ n ++ [lf] ++ r) = tokens r.
Proof.
  intros Hn. assert (H : pieces Default ($"//" ++ n ++ [lf] ++ r) = Token SINGLE_LINE_COMMENT ($"//" ++ n ++ [lf]) :: pieces Default r).
  { apply lexes_iff. replace ($"//" ++ n ++ [lf] ++ r) with (($"//" ++ n ++ [lf]) ++ r) by (rewrite <- !app_assoc; reflexivity).
    apply (lexes_white Default (Token SINGLE_LINE_COMMENT ($"//" ++ n ++ [lf]))); [apply W_comment; [reflexivity|exact Hn]|apply pieces_lexes]. }
  unfold tokens. rewrite H. reflexivity.
Qed.
Print Assumptions C67_white_space. Print Assumptions C67_comment.
Example C67_case : exists l', Respaced Default (pieces Default ($"emit  a;")) l' /\ text l' = $"emit" ++ ["009"%char] ++ $"// the column" ++ [lf; " "%char] ++ $"a;".
Proof.
  exists (Token EMIT ($"emit") :: ([blank "009"%char; Token SINGLE_LINE_COMMENT ($"//" ++ $" the column" ++ [lf]); blank " "%char]) ++ [Token IDENTIFIER ($"a"); Token SEMICOLON ($";")]). split; [|reflexivity].
  change (pieces Default ($"emit  a;")) with (Token EMIT ($"emit") :: [blank " "%char; blank " "%char] ++ [Token IDENTIFIER ($"a"); Token SEMICOLON ($";")]).
  apply RS_same, RS_gap.
  - apply GAP; [reflexivity|]. repeat constructor.
  - apply GAP; [reflexivity|]. constructor; [apply W_comment; reflexivity|]. repeat constructor.
  - repeat apply RS_same. constructor.
Qed.
(** Finding: a quote in a comment can make a string before it longer, when the string ends with a backslash. *)
Theorem C67_quoted_comment_refuted : exists s n r, tokens (s ++ r) <> None /\ all_ not_eol n /\ tokens (s ++ $"//" ++ n ++ [lf] ++ r) <> tokens (s ++ r).
Proof.
  exists ([dquote] ++ $"a\" ++ [dquote] ++ $" "), ($" the " ++ [dquote] ++ $"last" ++ [dquote]), ($";"). split; [vm_compute; discriminate|]. split; [reflexivity|]. vm_compute. discriminate.
Qed.
Print Assumptions C67_quoted_comment_refuted.
(** Without any white space between them two tokens can become one, or another two. *)
Theorem C67_removal_refuted : exists s s', tokens s <> None /\ (exists a b, s = a ++ $" " ++ b /\ s' = a ++ b) /\ tokens s' <> tokens s.
Proof.
  exists ($"emit a"), ($"emita"). split; [vm_compute; discriminate|]. split; [exists ($"emit"), ($"a"); split; reflexivity|]. vm_compute. discriminate.
Qed.

(** * C63: names printed into a text are read back as the same names exactly when they are of the form [Name] *)
Definition lowercase : str := $"abcdefghijklmnopqrstuvwxyz".
Definition uppercase : str := $"ABCDEFGHIJKLMNOPQRSTUVWXYZ".
Definition digits : str := $"0123456789".
(** The characters meant by the classes in [Name]. *)
Theorem C63_characters c : (is_alpha c = true <-> In c (lowercase ++ uppercase)) /\ (is_word c = true <-> In c (lowercase ++ uppercase ++ digits ++ $"$")) /\ (is_digit c = true <-> In c digits).
Proof.
  assert (X : forall P l, (forall c, P c = existsb (ceq c) l) -> (P c = true <-> In c l)).
  { intros P l H. rewrite H. rewrite existsb_exists. split; [intros (d & Hd & E); apply ceq_true in E; subst d; exact Hd|intros Hc; exists c; split; [exact Hc|apply ceq_refl]]. }
  repeat split; apply X; intros d; destruct d as [[] [] [] [] [] [] [] []]; reflexivity.
Qed.
Theorem C63_readable_iff s : read_name s = Some s <-> Name s.
Proof. exact (read_name_iff s). Qed.
(** In the middle of a text: whatever follows that cannot continue a name. *)
Theorem C63_in_text n r : Name n -> ends r -> lex_ok (pieces Default r) = true -> no_bar (visible (pieces Default r)) ->
  exists l, tokens (n ++ r) = Some l /\ p_id l = Some (n, visible (pieces Default r)).
Proof.
  intros Hn Hr Hok Hb. destruct (name_pieces n Hn) as (Hp & Hl & _). exists (visible (pieces Default n) ++ visible (pieces Default r)). split.
  - unfold tokens. rewrite (Hp r Hr), visible_app. assert (E : lex_ok (pieces Default n ++ pieces Default r) = true); [|rewrite E; reflexivity].
    unfold lex_ok in *. rewrite forallb_app, Hl. exact Hok.
  - apply name_read; assumption.
Qed.
(** The numbers that make names unique keep them readable. *)
Theorem C63_numbered n k : Name n -> Name (n ++ print_N k).
Proof. exact (name_numbered n k). Qed.
Lemma numbered_readable H : Numbered H -> Forall Name (map fst H) -> Forall Name (map snd H).
Proof.
  induction 1 as [|H b _ IH]; intros F; [constructor|]. rewrite map_app in *. apply Forall_app in F as [F Fb]. apply Forall_app. split; [apply IH, F|]. constructor; [|constructor]. cbn.
  inversion Fb as [|? ? Hb _]; subst. unfold unique_text. destruct (requests b H); [exact Hb|]. apply name_numbered, Hb.
Qed.
Theorem C63_unique_names l t T : run empty_table l = Ok (t, T) -> Forall Name (map fst (handed T)) -> Forall Name (map snd (handed T)).
Proof. intros R. apply numbered_readable. exact (handed_numbered l t T R). Qed.
(** The names the converter gives relations, schemas and sources. *)
Definition given_names : list str :=
  map (fun s => $s) ["root"; "read"; "filter"; "fetch"; "aggregate"; "sort"; "join"; "project"; "set"; "cross"; "hashjoin"; "mergejoin"; "extensionsingle"; "extensionmulti"; "extensionleaf"; "unknown";
    "schema"; "virtual"; "local"; "named"; "extensiontable"; "measurename"; "intermediate"]%string.
Theorem C63_given_names b : In b given_names -> Name b.
Proof.
  assert (E : forallb (fun w => negb (w =s []) && forallb is_lower w && negb (existsb (fun c => c =s w) reserved)) given_names = true) by (vm_compute; reflexivity).
  rewrite forallb_forall in E. intros Hb. specialize (E b Hb). apply andb_true_iff in E as [E Hr]. apply andb_true_iff in E as [Hn Hl]. apply word_name; [|exact Hl|apply negb_true_iff, Hr].
  intros ->. discriminate.
Qed.
Print Assumptions C63_characters. Print Assumptions C63_readable_iff. Print Assumptions C63_in_text. Print Assumptions C63_numbered. Print Assumptions C63_unique_names. Print Assumptions C63_given_names.
Example C63_case : read_name ($"l_Order__Key$2") = Some ($"l_Order__Key$2") /\ read_name ($"filter_schema_null") = Some ($"filter_schema_null").
Proof. split; vm_compute; reflexivity. Qed.
Example C63_unique_case : exists t T, run empty_table (map OUnique [$"read"; $"l_key"; $"read"; $"l_key"]) = Ok (t, T) /\ map snd (handed T) = [$"read"; $"l_key"; $"read2"; $"l_key2"].
Proof. eexists. eexists. split; vm_compute; reflexivity. Qed.
(** Finding: columns and functions of any name may be in a plan; these cannot be read back, though nothing is reported when they are printed.
    A word after an underscore that is a number, a reserved word as one of the words, and any name that starts like a keyword with underscores. *)
Theorem C63_number_word_refuted w k d : some_ is_digit d -> read_name (w ++ repeat under (S k) ++ d) <> Some (w ++ repeat under (S k) ++ d).
Proof.
  intros [Hne Hd] H. apply read_name_iff in H.
  assert (X : forall n, Name n -> forall a b, n = a ++ under :: b -> match b with [] => False | c :: _ => is_digit c = false end).
  { clear. intros n Hn. induction Hn as [w Hw _ | w k n Hw _ _ Hn IH]; intros a b E.
    - exfalso. destruct Hw as [c v Hc Hv]. assert (Hu : In under (a ++ under :: b)) by (apply in_elt). rewrite <- E in Hu. destruct Hu as [-> | Hu]; [discriminate|].
      unfold all_ in Hv. rewrite forallb_forall in Hv. specialize (Hv _ Hu). discriminate.
    - assert (Hl : length w <= length a).
      { destruct (le_lt_dec (length w) (length a)) as [Hle|Hlt]; [exact Hle|]. exfalso. destruct (app_prefix a w (under :: b) _ (eq_sym E)) as (z & ->); [lia|].
        rewrite <- app_assoc in E. apply app_inv_head in E. destruct z as [|c z]; [rewrite app_nil_r in Hlt; lia|]. injection E as -> _.
        destruct a as [|x a]; [inversion Hw; discriminate|]. cbn [app] in Hw. inversion Hw as [? ? _ Hv]; subst. unfold all_ in Hv. rewrite forallb_app in Hv. cbn in Hv. rewrite andb_false_r in Hv. discriminate. }
      destruct (app_prefix w a _ _ E Hl) as (z & ->). rewrite <- app_assoc in E. apply app_inv_head in E. clear Hl.
      revert z E. generalize (S k). intros j. induction j as [|j IHj]; intros z E; [exact (IH _ _ E)|]. cbn [repeat app] in E. destruct z as [|c z].
      + injection E as <-. destruct j; [|reflexivity]. cbn. destruct Hn as [w' Hw' _ | w' ? ? Hw' _ _ _]; destruct Hw' as [c v Hc _]; cbn; clear -Hc; destruct c as [[] [] [] [] [] [] [] []]; (reflexivity || discriminate).
      + injection E as _ E. exact (IHj z E). }
  specialize (X _ H (w ++ repeat under k) d). rewrite <- app_assoc in X. specialize (X ltac:(f_equal; clear; induction k; [reflexivity|cbn; f_equal; exact IHk])).
  destruct d as [|c d]; [congruence|]. unfold all_ in Hd. cbn in Hd. rewrite X in Hd. discriminate.
Qed.
Theorem C63_keyword_refuted w : In (to_lower w) reserved -> read_name w <> Some w.
Proof.
  intros Hin H. apply read_name_iff in H. destruct H as [w Hw Hres | w k n Hw Hres _ _]; [contradiction|].
  assert (X : forallb (forallb is_alpha) reserved = true) by (vm_compute; reflexivity). rewrite forallb_forall in X. specialize (X _ Hin). rewrite forallb_forall in X.
  specialize (X under). rewrite to_lower_app, in_app_iff in X. specialize (X ltac:(right; left; reflexivity)). discriminate.
Qed.
Theorem C63_compound_refuted c r : In c compounds -> read_name (c ++ r) <> Some (c ++ r).
Proof.
  intros Hc H. apply read_name_iff in H. assert (Ec : to_lower c = c).
  { assert (X : forallb (fun c => to_lower c =s c) compounds = true) by (vm_compute; reflexivity). rewrite forallb_forall in X. apply seq_eqb_eq, X, Hc. }
  assert (Eu : In under c).
  { assert (X : forallb (existsb (ceq under)) compounds = true) by (vm_compute; reflexivity). rewrite forallb_forall in X. specialize (X c Hc). apply existsb_exists in X as (u & Hu & E). apply ceq_true in E. subst u. exact Hu. }
  remember (c ++ r) as s eqn:Es. destruct H as [w Hw _ | w k n Hw _ Hnc _].
  - destruct Hw as [x v Hx Hv]. assert (Hu : In under (x :: v)) by (rewrite Es; apply in_app_iff; left; exact Eu). destruct Hu as [-> | Hu]; [discriminate|].
    unfold all_ in Hv. rewrite forallb_forall in Hv. specialize (Hv _ Hu). discriminate.
  - apply (Hnc c (to_lower r) Hc). rewrite Es, to_lower_app, Ec. reflexivity.
Qed.
Print Assumptions C63_number_word_refuted. Print Assumptions C63_keyword_refuted. Print Assumptions C63_compound_refuted.
Example C63_refuted_case : read_name ($"col_1") = None /\ read_name ($"index_in") = None /\ read_name ($"uri_filename") = None /\ read_name ($"Length") = None.
Proof. repeat split; vm_compute; reflexivity. Qed.

(** * C69: the URI of an extension space is read back exactly when it is of the form [LUri] *)
Theorem C69_uri_iff u : tokens (declared u) = Some [(EXTENSION_SPACE, $"extension_space"); (URI, u); (LEFTBRACE, $"{")] <-> LUri u.
Proof. exact (declared_uri u). Qed.
(** The characters meant by the classes in [LUri]. *)
Theorem C69_characters c : (is_host c = true <-> In c (lowercase ++ uppercase ++ digits ++ $"-.")) /\ (is_file c = true <-> In c (lowercase ++ uppercase ++ digits ++ $"-._")).
Proof.
  assert (X : forall P l, (forall c, P c = existsb (ceq c) l) -> (P c = true <-> In c l)).
  { intros P l H. rewrite H. rewrite existsb_exists. split; [intros (d & Hd & E); apply ceq_true in E; subst d; exact Hd|intros Hc; exists c; split; [exact Hc|apply ceq_refl]]. }
  repeat split; apply X; intros d; destruct d as [[] [] [] [] [] [] [] []]; reflexivity.
Qed.
Print Assumptions C69_uri_iff. Print Assumptions C69_characters.
Example C69_case : tokens (declared ($"https://github.com/substrait-io/blob/functions_boolean.yaml")) =
  Some [(EXTENSION_SPACE, $"extension_space"); (URI, $"https://github.com/substrait-io/blob/functions_boolean.yaml"); (LEFTBRACE, $"{")].
Proof. vm_compute. reflexivity. Qed.
(** Finding: URIs with a port, with a percent sign, a query or a tilde, with an empty path or a slash at the end, and the empty URI are printed as they are and cannot be read back. *)
Theorem C69_uris_refuted u : In u [$"https://host:8080/a.yaml"; $"https://host/a%20b.yaml"; $"https://host/a.yaml?v=1"; $"/home/~me/a.yaml"; $"https://host/"; $"a//b"; []] ->
  ~ LUri u /\ tokens (declared u) <> Some [(EXTENSION_SPACE, $"extension_space"); (URI, u); (LEFTBRACE, $"{")].
Proof.
  intros Hu. enough (H : tokens (declared u) <> Some [(EXTENSION_SPACE, $"extension_space"); (URI, u); (LEFTBRACE, $"{")]).
  - split; [|exact H]. intros L. apply H. apply declared_uri, L.
  - cbn in Hu. repeat (destruct Hu as [<- | Hu]; [vm_compute; discriminate|]). destruct Hu.
Qed.
Print Assumptions C69_uris_refuted.
