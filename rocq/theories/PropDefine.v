(** Theorems about the definitions in a text. *)
From Verif Require Import Base BaseFacts StringsModel StringsFacts TypeModel ExprModel RelModel SectionModel DefineFacts.
From Verif Require TypeTextFacts WrittenFacts.
From Coq Require Import Lia ZifyBool ZifyNat ZifyN.

(** * C94: the definitions of a text *)
(** The symbols are those that the definitions define, in their order ([defines]: the names, where they are defined, and what they are), and exactly what is wrong with the types of columns
    and the signatures of functions is reported ([reports]). *)
Theorem C94_symbols nodes tab errors : symbols nodes = Ok (tab, errors) -> map view tab = defines_all 0 nodes /\ errors = flat_map reports nodes.
Proof. exact (define_all_view nodes 0 [] tab errors). Qed.
(** A name means what the first definition of it says. *)
Theorem C94_first nodes tab errors n : symbols nodes = Ok (tab, errors) -> option_map view (find_symbol tab n) = find (fun x => fst (fst x) =s n) (defines_all 0 nodes).
Proof. intros H. rewrite find_view. destruct (C94_symbols _ _ _ H) as [-> _]. reflexivity. Qed.
(** A number that does not fit into 64 bits is not read as some other number, wherever it is: the first pass ends with an exception, which is reported (C82). *)
Theorem C94_numbers nodes n s : In n nodes -> In s (numbers n) -> too_large s -> forall r, symbols nodes <> Ok r.
Proof. intros I J T. exact (define_all_stops nodes n s I J T 0 []). Qed.
(** Findings.  A virtual table or an extension table can be defined and used, but the relation that uses it has no source, without a report. *)
Theorem C94_virtual_refuted a n s b tab errors : s = SVirtual \/ s = SExtension -> symbols (a ++ PSource n s :: b) = Ok (tab, errors) -> ~ In n (map (fun x => fst (fst x)) (defines_all 0 a)) ->
  reports (PSource n s) = [] /\ use_source tab n = Ok None.
Proof.
  intros Hs H N. split; [destruct Hs; subst; reflexivity|]. pose proof (C94_first _ _ _ n H) as F.
  assert (E : find (fun x => fst (fst x) =s n) (defines_all 0 (a ++ PSource n s :: b)) = Some (n, (length a, 0), match s with SVirtual => AVirtual | _ => AnExtension end)).
  { clear -Hs N. replace (length a) with (0 + length a) by reflexivity. revert N. generalize 0 at 1 2 3 as i. induction a as [|m a IH]; intros i N.
    - cbn [app defines_all length]. rewrite Nat.add_0_r. destruct Hs; subst; cbn [defines app find fst]; rewrite seq_eqb_refl; reflexivity.
    - cbn [app defines_all length] in *. rewrite map_app, in_app_iff in N. assert (X : forall l r, ~ In n (map (fun x => fst (fst x)) l) -> find (fun x : str * loc * sort_of => fst (fst x) =s n) (l ++ r) = find (fun x => fst (fst x) =s n) r).
      { clear. induction l as [|x l IH]; intros r N; [reflexivity|]. cbn [app find map] in *. destruct (seq_eqb_spec (fst (fst x)) n); [destruct N; left; assumption|]. apply IH. intros I. apply N. right. exact I. }
      rewrite X by tauto. rewrite IH by tauto. rewrite <- Nat.add_succ_comm. reflexivity. }
  rewrite E in F. unfold use_source. destruct (find_symbol tab n) as [y|]; [|discriminate]. cbn [option_map] in F. injection F as _ _ F. destruct Hs; subst s; destruct (s_what y) as [| | | | | |[f|]| |]; try discriminate; reflexivity.
Qed.
(** Negative numbers become large numbers, and a fraction is cut off, without a report. *)
Theorem C94_negative_refuted n file k : (0 < k < 2 ^ 64)%N -> n <> file ->
  exists tab, symbols [PSource n (SLocal [FNode file [DStart ($"-" ++ print_N k)]])] = Ok (tab, []) /\ use_source tab n = Ok (Some (LocalFiles [File NoLocation 0 (2 ^ 64 - k) 0 NoFormat])).
Proof.
  intros K N. assert (E : stoul ($"-" ++ print_N k) = Ok (2 ^ 64 - k)%N).
  { assert (X : forall r, stoul ("-"%char :: r) = match take_digits r with [] => Throw EStdInvalid | ds => if (digits_val 0 ds <? 2 ^ 64)%N then Ok ((2 ^ 64 - digits_val 0 ds) mod 2 ^ 64)%N else Throw EStdOutOfRange end) by reflexivity.
    change ($"-" ++ print_N k) with ("-"%char :: print_N k). rewrite X, (TypeTextFacts.take_digits_all _ (print_N_digits k)).
    pose proof (print_N_val k) as V. pose proof (print_N_nonempty k) as Ne. destruct (print_N k) as [|c r] eqn:P; [congruence|]. cbv zeta. rewrite V. replace (k <? 2 ^ 64)%N with true by lia. rewrite N.mod_small by lia. reflexivity. }
  unfold symbols. cbn [define_all define app]. cbn [visitFiles visitFileDetails fn_text fn_details app update_file s_name]. replace (n =s file) with false by (symmetry; apply seq_eqb_neq; exact N).
  rewrite seq_eqb_refl. cbn [s_what set_detail]. rewrite E. cbn [obind fst snd app]. eexists. split; [reflexivity|]. unfold use_source, find_symbol. cbn [find s_name]. rewrite seq_eqb_refl. reflexivity.
Qed.
Print Assumptions C94_symbols. Print Assumptions C94_first. Print Assumptions C94_numbers. Print Assumptions C94_virtual_refuted. Print Assumptions C94_negative_refuted.
Definition exd (s : str) : option (outcome (list (str * loc * sort_of) * list pass_error)) := option_map (fun l => x <- symbols l ;; Ok (map view (fst x), snd x)) (parse s).
Example C94_case : exd $"source virtual_table v { } schema s { a i64; b unknown; } source named_table n { names = [""x"", ""y""] } extension_space f.yaml { function add:i64 as plus; function sub: as minus; }" =
  Some (Ok ([($"v", (0, 0), AVirtual); ($"s", (1, 0), ASchema); ($"a", (1, 0), AColumn (PtScalar SI64 NRequired)); ($"b", (1, 0), AColumn PtNone); ($"n", (2, 0), ANamed); ($"x", (2, 0), ATable); ($"y", (2, 0), ATable);
    ($"f.yaml", (3, 0), ASpace); ($"plus", (3, 1), AFunction); ($"minus", (3, 2), AFunction)], [PType (XType Unrecognised); PNoSignature $"sub:"])).
Proof. vm_compute. reflexivity. Qed.
