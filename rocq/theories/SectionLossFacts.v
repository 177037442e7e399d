(** What is lost when whole plans are printed as text: definitions that cannot be read, and definitions that read as others. *)
From Verif Require Import Base BaseFacts StringsModel StringsFacts EscapeModel EscapeFacts DecimalModel DecimalFacts TypeModel TypeFacts TypeTextFacts TypeProtoFacts LexModel LexFacts NameModel NameFacts CutFacts
  ExprModel TypeTokenFacts LiteralFacts ExprFacts RelModel RelFacts SectionModel SectionFacts.
From Verif Require DeclModel.
From Coq Require Import Lia ZifyBool ZifyNat ZifyN.

(** * Specification *)
(** A definition that cannot be read: whatever definitions come before it and whatever text comes after it, the whole text has a syntax error. *)
Definition Unreadable (t : str) : Prop := forall before ns after ts, Texts before ns -> Cuts any after ts -> parse (before ++ t ++ after) = None.
(** Files that can be printed *)
Definition PrintableFile (f : file) : Prop := exists s, address (f_location f) = Some s /\ Quotable s /\ printable_format (f_format f) = true.
Definition unknown_format (f : format) : bool := match f with Arrow | Dwrf => true | _ => false end.

(** * Stuck *)
Lemma stuck t ts : Cuts any t ts -> ts <> [] -> (forall k, p_plan_detail (ts ++ k) = None) -> Unreadable t.
Proof.
  intros Hc Hne Hp before ns after us (bs & Hb & Pb) Ha. unfold parse. rewrite (cuts_tokens any (before ++ t ++ after) (bs ++ ts ++ us)); [|apply cuts_any; [exact Hb|apply cuts_any; assumption]|exact I].
  destruct (Pb (ts ++ us) (length (bs ++ ts ++ us)) ltac:(rewrite app_length; lia)) as (f & Hf & E). unfold token in *. rewrite E. destruct ts as [|x ts]; [congruence|]. rewrite !app_length in Hf. cbn [length] in Hf. destruct f as [|f]; [lia|].
  cbn [app p_plan]. specialize (Hp us). cbn [app] in Hp. rewrite Hp. reflexivity.
Qed.
Lemma stuck_many {A} (p : list token -> option (A * list token)) fuel x ts : t_rbrace (x :: ts) = None -> p (x :: ts) = None -> p_many p fuel (x :: ts) = None.
Proof. intros H1 H2. destruct fuel; cbn [p_many]; rewrite H1; [|rewrite H2]; reflexivity. Qed.
Lemma stuck_titled {A} (p : list token -> option (A * list token)) f n k : Name n -> p (lb :: k) = None -> p_titled p f ((name_tokens n ++ [lb]) ++ k) = None.
Proof. intros Hn H. unfold p_titled. rewrite <- app_assoc. unfold name_tokens. rw (name_read n ([lb] ++ k) Hn ltac:(discriminate)). cbn [app]. rw H. reflexivity. Qed.
(** a source whose list cannot be parsed *)
Lemma stuck_source {A} (p : list token -> option (list A * list token)) (f : str -> list A -> pnode) key kt n t ts : Name n -> Cuts any (key ++ $" ") [(kt, key)] ->
  (forall r, p_plan_detail ((SOURCE, $"source") :: (kt, key) :: r) = p_titled (p_in_braces p (@concat _)) f r) -> Cuts any t ts -> ts <> [] -> (forall k, t_rbrace (ts ++ k) = None) -> (forall k, p (ts ++ k) = None) ->
  Unreadable (($"source" ++ $" ") ++ (key ++ $" ") ++ (n ++ $" {" ++ nl) ++ t ++ $"}" ++ nl).
Proof.
  intros Hn Hk Hs Hc Hne Hb Hp. apply (stuck _ ((SOURCE, $"source") :: (kt, key) :: (name_tokens n ++ [lb]) ++ ts ++ [rb])).
  - apply (cuts_any any _ _ [(SOURCE, $"source")] _ key_source_). apply (cuts_any any _ _ [(kt, key)] _ Hk). apply cuts_any; [apply titled, Hn|]. apply cuts_any; [exact Hc|exact close_brace].
  - discriminate.
  - intros k. cbn [app]. rewrite Hs. rewrite <- app_assoc. apply stuck_titled; [exact Hn|]. unfold p_in_braces. cbn [t_lbrace lb]. rewrite <- app_assoc.
    destruct ts as [|x ts]; [congruence|]. specialize (Hb ([rb] ++ k)). specialize (Hp ([rb] ++ k)). cbn [app] in *. rewrite stuck_many by assumption. reflexivity.
Qed.
(** * Sources *)
Lemma no_names n : Name n -> exists t, printSource n (NamedTable []) = Ok t /\ Unreadable t.
Proof.
  intros Hn. eexists. split; [reflexivity|]. pose proof (stuck_source p_named (fun n l => PSource n (SNamed l)) $"named_table" NAMED_TABLE n ($"  names = [" ++ nl ++ $"  ]" ++ nl) [(NAMES, $"names"); eq_; lk; rk] Hn key_named_table ltac:(reflexivity)) as X.
  match type of X with _ -> _ -> _ -> _ -> Unreadable ?a => match goal with |- Unreadable ?b => replace b with a; [apply X|] end end; try reflexivity; try discriminate.
  - exact (cuts_any any ($"  " ++ $"names" ++ $" = [" ++ nl) _ _ [rk] (open_list NAMES $"names" key_names) close_list).
  - cbn [map concat]. rewrite <- !app_assoc. reflexivity.
Qed.
Lemma file_head f s k : exists k', file_tokens f s ++ k = (uri_kind (f_location f), uri_key (f_location f)) :: colon :: (STRING, quoted s) :: k'.
Proof. eexists. unfold file_tokens. cbn [app]. reflexivity. Qed.
Lemma file_stuck f s k fuel : address (f_location f) = Some s -> unknown_format (f_format f) = true -> p_many p_fdetail fuel (file_tokens f s ++ k) = None.
Proof.
  intros Ha Hf. assert (E : forall fuel, p_many p_fdetail fuel (last_tokens f ++ k) = None).
  { intros g. unfold last_tokens. cbn [app]. apply stuck_many; destruct (f_format f); try discriminate Hf; reflexivity. }
  assert (D : forall fuel, p_many p_fdetail fuel ((if some_position f then number_tokens START $"start" (f_start f) ++ number_tokens LENGTH $"length" (f_length f) else []) ++ last_tokens f ++ k) = None).
  { intros g. destruct (some_position f); [|apply E]. destruct g as [|[|g]]; try reflexivity. unfold number_tokens. cbn [app p_many t_rbrace p_fdetail f_head p_colon t_colon colon t_number]. rewrite E. reflexivity. }
  unfold file_tokens. rewrite <- !app_assoc. destruct fuel as [|fuel]; [destruct (f_location f); reflexivity|].
  assert (U : forall ts, p_many p_fdetail fuel ts = None -> p_many p_fdetail (S fuel) ([(uri_kind (f_location f), uri_key (f_location f)); colon; (STRING, quoted s)] ++ ts) = None).
  { intros ts H. destruct (f_location f); try discriminate Ha; cbn [uri_kind uri_key app p_many t_rbrace p_fdetail f_head p_colon t_colon colon t_string]; rewrite H; reflexivity. }
  apply U. destruct (f_partition f =? 0)%N; [apply D|]. destruct fuel as [|fuel]; [reflexivity|]. unfold number_tokens at 1. cbn [app p_many t_rbrace p_fdetail f_head p_colon t_colon colon t_number]. rewrite D. reflexivity.
Qed.
Definition address_of (f : file) : str := match address (f_location f) with Some s => s | None => [] end.
Definition item_tokens (f : file) : list token := lb :: file_tokens f (address_of f) ++ [rb].
Lemma files_printed l : Forall PrintableFile l -> each localFileToText l = Ok (map (fun f => file_text f (address_of f)) l).
Proof.
  induction 1 as [|f l (s & Ha & Hs & Hf) _ IH]; [reflexivity|]. cbn [each map]. rewrite (file_printed f s Ha Hf). cbn [obind]. rewrite IH. cbn [obind]. unfold address_of at 2. rewrite Ha. reflexivity.
Qed.
Lemma files_cut l : Forall PrintableFile l -> Cuts any (concat (map (fun t => $"    {" ++ t ++ $"}" ++ nl) (map (fun f => file_text f (address_of f)) l))) (concat (map item_tokens l)).
Proof.
  induction 1 as [|f l (s & Ha & Hs & Hf) _ IH]; [apply cuts_nil|]. cbn [map concat]. apply cuts_any; [|exact IH]. unfold item_tokens, address_of. rewrite Ha.
  apply (cuts_any any $"    {" _ [lb] _ (cuts_any any $"    " _ [] [lb] (cuts_blanks $"    " eq_refl) cuts_lbrace)). apply cuts_any; [apply file_cuts; assumption|exact close_brace].
Qed.
(** one file is parsed, and then there is no comma *)
Lemma listed_stuck fuel l k : Forall PrintableFile l -> (forall f, l = [f] -> unknown_format (f_format f) = true) -> p_listed p_file fuel (concat (map item_tokens l) ++ rk :: k) = None.
Proof.
  intros Hl Hu. destruct fuel as [|fuel]; [reflexivity|]. cbn [p_listed]. destruct l as [|f l]; [reflexivity|]. inversion Hl as [|? ? (s & Ha & Hs & Hf) Hl']; subst. cbn [map concat]. unfold item_tokens at 1, address_of. rewrite Ha.
  rewrite <- app_assoc. cbn [app]. rewrite <- app_assoc. destruct (unknown_format (f_format f)) eqn:U.
  - unfold p_file at 1. cbn [t_lbrace lb]. rewrite file_stuck by assumption. reflexivity.
  - destruct l as [|g l]; [rewrite (Hu f eq_refl) in U; discriminate|]. assert (Hf' : f_format f = Parquet \/ f_format f = Orc) by (destruct (f_format f); try discriminate; auto).
    cbn [app]. set (z := concat (map item_tokens (g :: l)) ++ rk :: k).
    assert (P : p_file (lb :: file_tokens f s ++ rb :: z) = Some (FNode (consumed (lb :: file_tokens f s ++ rb :: z) z) (details_of f s), z)).
    { unfold p_file. cbn [t_lbrace lb]. rewrite file_parse; try assumption; [reflexivity|]. rewrite app_length. lia. }
    rw P. unfold z. cbn [map concat]. unfold item_tokens at 1. cbn [app t_comma t_rbracket lb]. reflexivity.
Qed.
Lemma files_stuck n l : Name n -> Forall PrintableFile l -> (forall f, l = [f] -> unknown_format (f_format f) = true) -> exists t, printSource n (LocalFiles l) = Ok t /\ Unreadable t.
Proof.
  intros Hn Hl Hu. eexists. split; [cbn [printSource]; rewrite (files_printed l Hl); reflexivity|]. set (items := concat (map (fun t => $"    {" ++ t ++ $"}" ++ nl) _)).
  pose proof (stuck_source p_local (fun n l => PSource n (SLocal l)) $"local_files" LOCAL_FILES n ($"  items = [" ++ nl ++ items ++ $"  ]" ++ nl) ([(ITEMS, $"items"); eq_; lk] ++ concat (map item_tokens l) ++ [rk]) Hn key_local_files ltac:(reflexivity)) as X.
  match type of X with _ -> _ -> _ -> _ -> Unreadable ?a => match goal with |- Unreadable ?b => replace b with a; [apply X|] end end; try discriminate.
  - replace ($"  items = [" ++ nl ++ items ++ $"  ]" ++ nl) with (($"  " ++ $"items" ++ $" = [" ++ nl) ++ items ++ $"  ]" ++ nl) by (rewrite <- !app_assoc; reflexivity). apply cuts_any; [apply open_list, key_items|]. apply cuts_any; [apply files_cut, Hl|exact close_list].
  - intros k. reflexivity.
  - intros k. cbn [app]. unfold p_local. cbn [t_items]. unfold p_brackets. cbn [t_equal eq_ t_lbracket lk]. rewrite <- app_assoc. cbn [app]. apply listed_stuck; assumption.
  - rewrite <- !app_assoc. reflexivity.
Qed.
(** a name with a quote, a comma and a quote inside is read as two names *)
Definition glued (a b : str) : str := a ++ [dquote] ++ $"," ++ [dquote] ++ b.
Lemma glued_detail n l m a b : Name n -> Forall Quotable l -> Forall Quotable m -> Quotable a -> Quotable b ->
  exists t, printSource n (NamedTable (l ++ glued a b :: m)) = Ok t /\ Detail t (PSource n (SNamed (map quoted (l ++ a :: b :: m)))).
Proof.
  intros Hn Hl Hm Ha Hb. eexists. split; [reflexivity|].
  assert (C : Cuts any (concat (map name_item (l ++ glued a b :: m))) (concat (map (fun s => [(STRING, quoted s); comma]) (l ++ a :: b :: m)))).
  { rewrite !map_app, !concat_app. apply cuts_any; [apply strings_cut, Hl|]. cbn [map concat]. replace (name_item (glued a b)) with ($"    " ++ quoted a ++ $"," ++ quoted b ++ $"," ++ nl) by (unfold name_item, quoted, glued; cbn [app]; rewrite <- !app_assoc; cbn [app]; rewrite <- !app_assoc; reflexivity).
    rewrite <- !app_assoc. apply (cuts_any any $"    " _ []); [apply cuts_blanks; reflexivity|]. cbn [app].
    apply (cuts_any any _ _ [(STRING, quoted a)] _ (cuts_quoted a Ha)). apply (cuts_any any $"," _ [comma] _ cuts_comma). apply (cuts_any any _ _ [(STRING, quoted b)] _ (cuts_quoted b Hb)). apply (cuts_any any $"," _ [comma] _ cuts_comma).
    apply (cuts_any any nl _ [] _ cuts_nl). apply strings_cut, Hm. }
  assert (It : Item p_named ($"  names = [" ++ nl ++ concat (map name_item (l ++ glued a b :: m)) ++ $"  ]" ++ nl) (map quoted (l ++ a :: b :: m))).
  { exists ([(NAMES, $"names"); eq_; lk] ++ concat (map (fun s => [(STRING, quoted s); comma]) (l ++ a :: b :: m)) ++ [rk]). split; [|split].
    - set (c := concat (map name_item _)) in *. replace ($"  names = [" ++ nl ++ c ++ $"  ]" ++ nl) with (($"  " ++ $"names" ++ $" = [" ++ nl) ++ c ++ $"  ]" ++ nl) by (rewrite <- !app_assoc; reflexivity).
      apply cuts_any; [apply open_list, key_names|]. apply cuts_any; [exact C|exact close_list].
    - discriminate.
    - intros k. cbn [app]. unfold p_named. cbn [t_names]. unfold p_brackets. cbn [t_equal eq_ t_lbracket lk]. rewrite <- app_assoc. cbn [app]. rewrite listed_strings; [reflexivity|destruct l; discriminate|apply strings_long]. }
  pose proof (source_detail p_named (fun n l => PSource n (SNamed l)) $"named_table" NAMED_TABLE n _ _ Hn key_named_table ltac:(reflexivity) It) as X.
  match type of X with Detail ?a _ => match goal with |- Detail ?b _ => replace b with a; [exact X|] end end. rewrite <- !app_assoc. reflexivity.
Qed.
(** * Pipelines and functions *)
(** items that are fine and then one that is not *)
Lemma items_then {A} (p : list token -> option (A * list token)) texts l : Forall2 (Item p) texts l ->
  exists ts, Cuts any (concat texts) ts /\ forall k, (forall fuel, p_many p fuel k = None) -> forall fuel, p_many p fuel (ts ++ k) = None.
Proof.
  induction 1 as [|t a texts l (ts & Hc & Hh & Hp) _ (us & Hu & Pu)]; [exists []; split; [apply cuts_nil|auto]|]. exists (ts ++ us). split; [cbn [concat]; apply cuts_any; assumption|]. intros k Hk fuel. rewrite <- app_assoc. specialize (Hp (us ++ k)).
  destruct ts as [|[x y] ts]; [destruct Hh|]. cbn [app] in *. assert (B : t_rbrace ((x, y) :: ts ++ us ++ k) = None). { destruct x; try reflexivity. exfalso. apply Hh. reflexivity. }
  destruct fuel as [|fuel]; cbn [p_many]; rw B; [reflexivity|]. rw Hp. rewrite (Pu k Hk fuel). reflexivity.
Qed.
(** a section in braces with a bad item *)
Lemma stuck_section {A B} (p : list token -> option (A * list token)) (f : list A -> B) texts l t bad rest ts : Forall2 (Item p) texts l -> Cuts any t bad -> (forall k, exists x r, bad ++ k = x :: r /\ t_rbrace (x :: r) = None) -> (forall k, p (bad ++ k) = None) -> Cuts any rest ts ->
  exists us, Cuts any (concat texts ++ t ++ rest) us /\ forall k, p_in_braces p f (lb :: us ++ k) = None.
Proof.
  intros H Hc Hb Hp Hr. destruct (items_then p texts l H) as (us & Hu & Pu). exists (us ++ bad ++ ts). split; [apply cuts_any; [exact Hu|]; apply cuts_any; assumption|]. intros k. unfold p_in_braces. cbn [t_lbrace lb]. rewrite <- !app_assoc.
  rewrite Pu; [reflexivity|]. intros fuel. destruct (Hb (ts ++ k)) as (x & r & E & R). specialize (Hp (ts ++ k)). rewrite E in *. apply stuck_many; assumption.
Qed.
Lemma no_pipeline l m : Forall (fun l => l <> [] /\ Forall Name l) l -> Forall (fun l => l <> [] /\ Forall Name l) m -> Unreadable (printPipelines (l ++ [] :: m)).
Proof.
  intros Hl Hm.
  assert (F : forall l, Forall (fun l => l <> [] /\ Forall Name l) l -> Forall2 (Item p_pipeline) (map pipeline_text l) (map (map twice) l)) by (intros x Hx; apply (items_map p_pipeline pipeline_text (map twice) (fun l => l <> [] /\ Forall Name l)); [intros y [? ?]; apply pipeline_item; assumption|exact Hx]).
  destruct (items_end p_pipeline _ _ (F m Hm)) as (ms & Cm & _).
  destruct (stuck_section p_pipeline PPipelines _ _ semicolon_line [sc] (concat (map pipeline_text m) ++ $"}" ++ nl) (ms ++ [rb]) (F l Hl) cuts_end) as (us & Hu & Pu).
  { intros k. exists sc, k. split; reflexivity. } { intros k. reflexivity. } { apply cuts_any; [exact Cm|exact close_brace]. }
  assert (E : printPipelines (l ++ [] :: m) = ($"pipelines" ++ $" ") ++ ($"{" ++ nl) ++ concat (map pipeline_text l) ++ semicolon_line ++ concat (map pipeline_text m) ++ $"}" ++ nl).
  { unfold printPipelines. destruct (l ++ [] :: m) as [|x y] eqn:Q; [destruct l; discriminate|]. rewrite <- Q, map_app, concat_app. cbn [map concat]. rewrite <- !app_assoc. reflexivity. }
  rewrite E. apply (stuck _ ((PIPELINES, $"pipelines") :: lb :: us)); [|discriminate|intros k; apply Pu].
  apply (cuts_any any _ _ [(PIPELINES, $"pipelines")] _ key_pipelines). apply (cuts_any any _ _ [lb] _); [|exact Hu]. exact (cuts_any any $"{" _ [lb] [] cuts_lbrace cuts_nl).
Qed.
(** a function whose name has no signature *)
Lemma no_colon u fs short n gs : match u with Some u => LUri u | None => True end -> Forall (fun f => Name (fst f) /\ FunctionName (snd f)) fs -> Forall (fun f => Name (fst f) /\ FunctionName (snd f)) gs -> Name short -> Name n ->
  Unreadable (DeclModel.block_text (u, fs ++ (short, n) :: gs)).
Proof.
  intros Hu Hfs Hgs Hs Hn.
  assert (F : forall l, Forall (fun f => Name (fst f) /\ FunctionName (snd f)) l -> Forall2 (Item p_function) (map DeclModel.function_text l) (map node_of l)) by (intros l Hl; apply (items_map p_function DeclModel.function_text node_of _ l (fun f H => function_item f (proj1 H) (proj2 H)) Hl)).
  destruct (items_end p_function _ _ (F gs Hgs)) as (ms & Cm & _).
  destruct (stuck_section p_function (PSpace u) _ _ (DeclModel.function_text (short, n)) ((FUNCTION, $"function") :: name_tokens n ++ (AS, $"as") :: name_tokens short ++ [sc]) (concat (map DeclModel.function_text gs) ++ $"}" ++ nl) (ms ++ [rb]) (F fs Hfs)) as (us & Cu & Pu).
  { unfold DeclModel.function_text. cbn [fst snd]. replace ($"  function " ++ n ++ $" as " ++ short ++ $";" ++ DeclModel.line) with (($"  " ++ $"function" ++ $" ") ++ n ++ ($" " ++ $"as" ++ $" ") ++ short ++ semicolon_line) by (rewrite <- !app_assoc; reflexivity).
    apply (cuts_any any _ _ [(FUNCTION, $"function")] _ key_function). eapply cuts_app; [apply cuts_name, Hn| |intros r _; split; [reflexivity|discriminate]].
    apply (cuts_any any _ _ [(AS, $"as")] _ key_as). eapply cuts_app; [apply cuts_name, Hs|exact cuts_end|intros r _; apply ends_end]. }
  { intros k. eexists. eexists. split; reflexivity. }
  { intros k. cbn [app]. rewrite <- app_assoc. cbn [app]. unfold p_function. cbn [t_function]. unfold name_tokens at 1. rw (name_read n ((AS, $"as") :: (name_tokens short ++ [sc]) ++ k) Hn ltac:(discriminate)). reflexivity. }
  { apply cuts_any; [exact Cm|exact close_brace]. }
  assert (E : DeclModel.block_text (u, fs ++ (short, n) :: gs) = ($"extension_space " ++ (match u with Some u => u ++ $" " | None => [] end) ++ $"{" ++ nl) ++ concat (map DeclModel.function_text fs) ++ DeclModel.function_text (short, n) ++ concat (map DeclModel.function_text gs) ++ $"}" ++ nl).
  { unfold DeclModel.block_text. cbn [fst snd]. rewrite flat_concat, map_app, concat_app. cbn [map concat]. rewrite <- !app_assoc. reflexivity. }
  rewrite E. destruct u as [u|].
  - apply (stuck _ ([(EXTENSION_SPACE, $"extension_space"); (URI, u); lb] ++ us)); [apply cuts_any; [apply named_space, Hu|exact Cu]|discriminate|]. intros k. apply Pu.
  - apply (stuck _ ([(EXTENSION_SPACE, $"extension_space"); lb] ++ us)); [apply cuts_any; [apply bare_space|exact Cu]|discriminate|]. intros k. apply Pu.
Qed.
