(** What the first pass over a text defines and reports. *)
From Verif Require Import Base BaseFacts StringsModel StringsFacts TypeModel ExprModel RelModel SectionModel.
From Verif Require DeclModel TypeTextFacts WrittenFacts.
From Coq Require Import Lia ZifyBool ZifyNat ZifyN.

(** * Specification *)
(** What a symbol is, without the contents of files *)
Inductive sort_of := ASchema | AColumn (t : ptype) | ALocal | ANamed | AVirtual | AnExtension | AFile | ATable | ASpace | AFunction.
Definition sort_of_what (w : what) : sort_of :=
  match w with
  | WSchema => ASchema | WColumn t => AColumn t | WLocal => ALocal | WNamed => ANamed | WVirtual => AVirtual | WExtension => AnExtension | WDetail (Some _) => AFile | WDetail None => ATable
  | WSpace => ASpace | WFunction => AFunction
  end.
Definition view (s : sym) : str * loc * sort_of := (s_name s, s_loc s, sort_of_what (s_what s)).
(** What a definition defines, in order: the names, where they are, and what they are *)
Definition type_read (text : str) : ptype := match read_type false text with Ok (t, _) => t | _ => PtNone end.
Fixpoint numbered (i : nat) (l : list (str * option str)) : list (nat * (str * option str)) := match l with [] => [] | x :: l => (i, x) :: numbered (S i) l end.
Definition defines (i : nat) (n : pnode) : list (str * loc * sort_of) :=
  match n with
  | PSchema name items => (name, (i, 0), ASchema) :: map (fun x => (fst x, (i, 0), AColumn (type_read (snd x)))) items
  | PSource name (SLocal fs) => (name, (i, 0), ALocal) :: map (fun f => (fn_text f, (i, 0), AFile)) fs
  | PSource name (SNamed ns) => (name, (i, 0), ANamed) :: map (fun s => (extractFromString s, (i, 0), ATable)) ns
  | PSource name SVirtual => [(name, (i, 0), AVirtual)]
  | PSource name SExtension => [(name, (i, 0), AnExtension)]
  | PSpace uri fs => (match uri with Some u => [(u, (i, 0), ASpace)] | None => [] end) ++ map (fun x => (referenceName (snd x), (i, fst x), AFunction)) (numbered 1 fs)
  | _ => []
  end.
Fixpoint defines_all (i : nat) (l : list pnode) : list (str * loc * sort_of) := match l with [] => [] | n :: l => defines i n ++ defines_all (S i) l end.
(** What is reported: what is wrong with the types of columns, and functions whose name ends with a colon *)
Definition reports (n : pnode) : list pass_error :=
  match n with
  | PSchema _ items => flat_map (fun x => match read_type false (snd x) with Ok (_, e) => map PType e | _ => [] end) items
  | PSpace _ fs => flat_map (fun f => if last (fst f) "a"%char =? ":" then [PNoSignature (fst f)] else [])%char fs
  | _ => []
  end.
(** The numbers in a definition: all of them are in the files *)
Definition numbers (n : pnode) : list str :=
  match n with
  | PSource _ (SLocal fs) => flat_map (fun f => flat_map (fun d => match d with DPartition s | DStart s | DLength s => [s] | _ => [] end) (fn_details f)) fs
  | _ => []
  end.
(** A number that does not fit into 64 bits *)
Definition too_large (s : str) : Prop := s <> [] /\ forallb is_digit s = true /\ (2 ^ 64 <= digits_val 0 s)%N.

(** * Proofs *)
Lemma update_view n f t : forall t', update_file t n f = Ok t' -> map view t' = map view t.
Proof.
  induction t as [|s t IH]; intros t' E; [discriminate|]. cbn [update_file] in E. destruct (s_name s =s n).
  - destruct (s_what s) as [| | | | | |[x|]| |] eqn:W; try discriminate. destruct (f x) as [y| |]; cbn [obind] in E; try discriminate. injection E as <-. cbn [map]. f_equal. unfold view. cbn. rewrite W. reflexivity.
  - destruct (update_file t n f) as [r| |]; cbn [obind] in E; try discriminate. injection E as <-. cbn [map]. f_equal. apply IH. reflexivity.
Qed.
Lemma details_view n l : forall t t', visitFileDetails t n l = Ok t' -> map view t' = map view t.
Proof.
  induction l as [|d l IH]; intros t t' E; cbn [visitFileDetails] in E; [injection E as <-; reflexivity|]. destruct (update_file t n (set_detail d)) as [u| |] eqn:U; cbn [obind] in E; try discriminate.
  rewrite (IH u t' E). exact (update_view n _ t u U).
Qed.
Lemma files_view l fs : forall t t', visitFiles t l fs = Ok t' -> map view t' = map view t ++ map (fun f => (fn_text f, l, AFile)) fs.
Proof.
  induction fs as [|f fs IH]; intros t t' E; cbn [visitFiles] in E; [injection E as <-; rewrite app_nil_r; reflexivity|]. destruct (visitFileDetails _ _ _) as [u| |] eqn:U in E; cbn [obind] in E; try discriminate.
  rewrite (IH u t' E), (details_view _ _ _ _ U), map_app, <- app_assoc. reflexivity.
Qed.
Lemma items_view l items : forall c, visitItems l items = Ok c -> map view (fst c) = map (fun x => (fst x, l, AColumn (type_read (snd x)))) items /\
  map PType (snd c) = flat_map (fun x => match read_type false (snd x) with Ok (_, e) => map PType e | _ => [] end) items.
Proof.
  induction items as [|[n text] items IH]; intros c E; cbn [visitItems] in E; [injection E as <-; split; reflexivity|]. unfold bindE in E. cbn [map flat_map fst snd]. unfold type_read at 1.
  destruct (read_type false text) as [[t e]| |]; cbn [obind fst snd] in E; try discriminate. destruct (visitItems l items) as [[r e']| |]; cbn [obind fst snd] in E; try discriminate. injection E as <-.
  destruct (IH _ eq_refl) as [H1 H2]. cbn [fst snd map good] in *. split; [f_equal; exact H1|]. rewrite app_nil_r, map_app. f_equal. exact H2.
Qed.
Lemma functions_view i fs : forall j, map view (function_symbols i j fs) = map (fun x => (referenceName (snd x), (i, fst x), AFunction)) (numbered (S j) fs).
Proof. induction fs as [|f fs IH]; intros j; [reflexivity|]. cbn [function_symbols numbered map]. rewrite IH. reflexivity. Qed.
Lemma signature_report f : no_signature f = (if last (fst f) "a"%char =? ":" then [PNoSignature (fst f)] else [])%char.
Proof.
  unfold no_signature. destruct f as [s a]. cbn [fst]. destruct s as [|c s] using rev_ind; [reflexivity|]. rewrite rev_app_distr, last_last. reflexivity.
Qed.
Lemma signature_reports fs : concat (map no_signature fs) = flat_map (fun f => if last (fst f) "a"%char =? ":" then [PNoSignature (fst f)] else [])%char fs.
Proof. induction fs as [|f fs IH]; [reflexivity|]. cbn [map concat flat_map]. rewrite IH, signature_report. reflexivity. Qed.
Lemma define_view i t n t' e : define i t n = Ok (t', e) -> map view t' = map view t ++ defines i n /\ e = reports n.
Proof.
  destruct n as [| | |name items|name [fs| |ns|]|uri fs]; cbn [define defines reports]; intros E; try (injection E as <- <-; rewrite app_nil_r; auto; fail).
  - destruct (visitItems (i, 0) items) as [c| |] eqn:C; cbn [obind] in E; try discriminate. injection E as <- <-. destruct (items_view _ _ _ C) as [H1 H2]. rewrite map_app. cbn [map]. rewrite H1. auto.
  - destruct (visitFiles _ _ fs) as [u| |] eqn:U; cbn [obind] in E; try discriminate. injection E as <- <-. rewrite (files_view _ _ _ _ U), map_app, <- app_assoc. auto.
  - injection E as <- <-. rewrite map_app. auto.
  - injection E as <- <-. rewrite map_app. cbn [map]. rewrite map_map. auto.
  - injection E as <- <-. rewrite map_app. auto.
  - injection E as <- <-. rewrite !map_app, functions_view, signature_reports. split; [f_equal; f_equal; destruct uri; reflexivity|reflexivity].
Qed.
Lemma define_all_view l : forall i t t' e, define_all i t l = Ok (t', e) -> map view t' = map view t ++ defines_all i l /\ e = flat_map reports l.
Proof.
  induction l as [|n l IH]; intros i t t' e E; cbn [define_all] in E; [injection E as <- <-; rewrite app_nil_r; auto|]. destruct (define i t n) as [[t1 e1]| |] eqn:D; cbn [obind fst snd] in E; try discriminate.
  destruct (define_all (S i) t1 l) as [[t2 e2]| |] eqn:R; cbn [obind fst snd] in E; try discriminate. injection E as <- <-. destruct (IH _ _ _ _ R) as [H1 ->]. destruct (define_view _ _ _ _ _ D) as [H2 ->]. rewrite H1, H2, <- app_assoc. auto.
Qed.
Lemma too_large_throws s : too_large s -> stoul s = Throw EStdOutOfRange.
Proof.
  intros (N & D & L). unfold stoul. destruct s as [|c s]; [congruence|]. pose proof D as D'. cbn [forallb] in D'. apply andb_true_iff in D' as [Hc _]. destruct (WrittenFacts.head_sign c s Hc) as (-> & -> & ->). rewrite (TypeTextFacts.take_digits_all _ D). replace (digits_val 0 (c :: s) <? 2 ^ 64)%N with false by lia. reflexivity.
Qed.
Lemma detail_stops d x s : match d with DPartition t | DStart t | DLength t => s = t | _ => False end -> too_large s -> set_detail d x = Throw EStdOutOfRange.
Proof. intros H T. apply too_large_throws in T. destruct d; try destruct H; cbn [set_detail]; rewrite T; reflexivity. Qed.
Lemma update_stops t n f : (forall x, exists e, f x = Throw e) -> forall r, update_file t n f <> Ok r.
Proof.
  intros H. induction t as [|s t IH]; intros r; [discriminate|]. cbn [update_file]. destruct (s_name s =s n).
  - destruct (s_what s) as [| | | | | |[x|]| |]; try discriminate. destruct (H x) as (e & ->). discriminate.
  - destruct (update_file t n f); cbn [obind]; try discriminate. destruct (IH a eq_refl).
Qed.
Lemma file_details_stop n l s : In s (flat_map (fun d => match d with DPartition s | DStart s | DLength s => [s] | _ => [] end) l) -> too_large s -> forall t r, visitFileDetails t n l <> Ok r.
Proof.
  intros I T. induction l as [|d l IH]; [destruct I|]. cbn [flat_map] in I. apply in_app_iff in I as [I|I]; intros t r; cbn [visitFileDetails].
  - assert (U : forall r, update_file t n (set_detail d) <> Ok r).
    { apply update_stops. intros x. exists EStdOutOfRange. apply (detail_stops d x s); [|exact T]. destruct d; try contradiction; destruct I as [<-|[]]; reflexivity. }
    destruct (update_file t n (set_detail d)) as [u| |]; cbn [obind]; try discriminate. destruct (U u eq_refl).
  - destruct (update_file t n (set_detail d)) as [u| |]; cbn [obind]; try discriminate. apply IH, I.
Qed.
Lemma files_stop l fs s : In s (flat_map (fun f => flat_map (fun d => match d with DPartition s | DStart s | DLength s => [s] | _ => [] end) (fn_details f)) fs) -> too_large s -> forall t r, visitFiles t l fs <> Ok r.
Proof.
  intros I T. induction fs as [|f fs IH]; [destruct I|]. cbn [flat_map] in I. apply in_app_iff in I as [I|I]; intros t r; cbn [visitFiles].
  - destruct (visitFileDetails _ _ _) as [u| |] eqn:U; cbn [obind]; try discriminate. destruct (file_details_stop _ _ s I T _ _ U).
  - destruct (visitFileDetails _ _ _) as [u| |]; cbn [obind]; try discriminate. apply IH, I.
Qed.
Lemma define_all_stops l n s : In n l -> In s (numbers n) -> too_large s -> forall i t r, define_all i t l <> Ok r.
Proof.
  intros I J T. induction l as [|m l IH]; [destruct I|]. intros i t r. cbn [define_all]. destruct I as [->|I].
  - destruct (define i t n) as [[t1 e1]| |] eqn:D; cbn [obind]; try discriminate. exfalso. destruct n as [| | |name items|name [fs| |ns|]|uri fs]; try destruct J. cbn [define] in D.
    destruct (visitFiles _ _ fs) as [u| |] eqn:U; cbn [obind] in D; try discriminate. exact (files_stop _ fs s J T _ _ U).
  - destruct (define i t m) as [[t1 e1]| |]; cbn [obind fst snd]; try discriminate. destruct (define_all (S i) t1 l) as [x| |] eqn:R; cbn [obind]; try discriminate. destruct (IH I _ _ _ R).
Qed.
(** Symbols are found by the first definition of their name. *)
Lemma find_view t n : option_map view (find_symbol t n) = find (fun x => fst (fst x) =s n) (map view t).
Proof. unfold find_symbol. induction t as [|s t IH]; [reflexivity|]. cbn [find map fst view]. destruct (s_name s =s n); [reflexivity|exact IH]. Qed.
