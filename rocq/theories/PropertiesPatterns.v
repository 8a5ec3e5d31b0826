(** * Theorems about Bash patterns and variables: C11, C12, C43, C66-C69. *)
From Verif Require Import Base Shell ShellProofs StrUtils When Cli CliExamples SpecShell SpecGlob BashPatterns BashPatternsProofs
  BashUtils PatternMore.
Open Scope list_scope.

Lemma inr_inj {A B} (a b : B) : @inr A B a = inr b -> a = b.
Proof. intros H. now injection H. Qed.

(** ** C11 *)

(** If none of the strings ends in a number, the pattern made for a [case] statement is chosen
    for these strings and for no other word. *)
Theorem C11_exact : forall strings,
  strings <> [] -> (forall x, In x strings -> x <> [] /\ forallb plain x = true) ->
  (forall x p u, In x strings -> x = p ++ u -> py_int u = None) ->
  forall w, case_matches (make_pattern strings) w <-> In w strings.
Proof.
  intros strings Hn Hp Hi. apply make_pattern_exact; [exact Hn | exact Hp |].
  intros p (_ & _ & Hnum & _) u Hu. exfalso. apply (Hnum u Hu). exact (Hi (p ++ u) p u Hu eq_refl).
Qed.
Print Assumptions C11_exact.

Example C11_example :
  make_pattern [s "--verbose"; s "--version"; s "--ver"; s "-v"] = s "-@(-ver@(|bose|sion)|v)" /\
  make_pattern [s "--verbose-long"; s "--version-long"; s "--ver"] = s "--ver@(|bose-long|sion-long)" /\
  forall x p u, In x [s "--verbose-long"; s "--version-long"; s "--ver"] -> x = p ++ u -> py_int u = None.
Proof.
  split; [vm_compute; reflexivity |]. split; [vm_compute; reflexivity |].
  assert (H : forall x, In x [s "--verbose-long"; s "--version-long"; s "--ver"] ->
    forallb (fun n => match py_int (skipn n x) with None => true | Some _ => false end) (seq 0 (S (List.length x))) = true).
  { intros x Hx. repeat (destruct Hx as [<- | Hx]; [vm_compute; reflexivity |]). destruct Hx. }
  intros x p u Hx E. specialize (H x Hx). rewrite forallb_forall in H. specialize (H (List.length p)).
  rewrite E in H. rewrite skipn_app, skipn_all, Nat.sub_diag in H. cbn [skipn app] in H.
  destruct (py_int u); [| reflexivity]. discriminate H. apply in_seq. rewrite app_length. lia.
Qed.

(** ** C12 *)

(** The same for strings that end in numbers, except if numbers of more than one character stand
    in a row where the strings start to differ. *)
Theorem C12_numbers_partial : forall strings,
  strings <> [] -> (forall x, In x strings -> x <> [] /\ forallb plain x = true) ->
  (forall p, consecutive py_int strings p -> forall u, follows strings p u -> List.length u = 1) ->
  forall w, case_matches (make_pattern strings) w <-> In w strings.
Proof. exact make_pattern_exact. Qed.
Print Assumptions C12_numbers_partial.

(** Without the exception the claim is false: [--opt9] and [--opt10] give [--opt[9-10]], which
    does not match [--opt10]. *)
Theorem C12_two_digits_refuted :
  let strings := [s "--opt9"; s "--opt10"] in
  (forall x, In x strings -> x <> [] /\ forallb plain x = true) /\
  make_pattern strings = s "--opt[9-10]" /\
  ~ case_matches (make_pattern strings) (s "--opt10").
Proof.
  intros strings. split; [| split].
  - intros x Hx. destruct Hx as [<- | [<- | []]]; split; (discriminate || reflexivity).
  - vm_compute. reflexivity.
  - intros (alts & E & Hm). vm_compute in E. injection E as <-.
    apply any_matches_iff in Hm as (a & [<- | []] & Hm).
    assert (L : forall gs w, seq_matches gs w ->
      (forall g, In g gs -> match g with Char _ | OneOf _ _ => True | _ => False end) ->
      List.length w = List.length gs).
    { induction gs as [| g gs IH]; intros w Hw Hall; [change (w = []) in Hw; now subst w |].
      destruct Hw as (u & v & -> & Hg & Hv). rewrite app_length.
      rewrite (IH v Hv) by (intros g' Hg'; apply Hall; now right).
      specialize (Hall g (or_introl eq_refl)). destruct g; try destruct Hall; cbn in Hg.
      - subst u. reflexivity.
      - destruct Hg as (c & -> & _). reflexivity. }
    apply L in Hm; [discriminate Hm |].
    intros g Hg. cbn in Hg. repeat (destruct Hg as [<- | Hg]; [exact I |]). destruct Hg.
Qed.
Print Assumptions C12_two_digits_refuted.

Example C12_example :
  let strings := [s "--level1"; s "--level2"; s "--level3"] in
  make_pattern strings = s "--level[1-3]" /\
  (forall w, case_matches (s "--level[1-3]") w <-> In w strings) /\
  (forall w, case_matches (s "--x@(1[0-1]|9)") w <-> In w [s "--x9"; s "--x10"; s "--x11"]).
Proof.
  intros strings. split; [vm_compute; reflexivity |]. split.
  - change (s "--level[1-3]") with (make_pattern strings).
    apply C12_numbers_partial; [discriminate | | apply numbers_check_ok; vm_compute; reflexivity].
    intros x Hx. repeat (destruct Hx as [<- | Hx]; [split; [discriminate | reflexivity] |]). destruct Hx.
  - change (s "--x@(1[0-1]|9)") with (make_pattern [s "--x9"; s "--x10"; s "--x11"]).
    apply C12_numbers_partial; [discriminate | | apply numbers_check_ok; vm_compute; reflexivity].
    intros x Hx. repeat (destruct Hx as [<- | Hx]; [split; [discriminate | reflexivity] |]). destruct Hx.
Qed.

(** ** C66 *)

(** The patterns that the generated parser compares arguments with: an option without argument,
    an option with its argument behind [=], a short option in a group, old-style options. *)
Theorem C66_case_patterns_partial : forall strings w, strings <> [] ->
  ((forall x, In x strings -> x <> [] /\ forallb plain x = true) ->
   (case_matches (for_long_without_arg strings) w <-> In w strings) /\
   (case_matches (for_long_with_arg strings) w <-> exists x v, In x strings /\ w = x ++ s "=" ++ v)) /\
  ((forall x, In x strings -> exists c, x = [DASH; c] /\ plain c = true) ->
   (case_matches (for_short strings) w <-> exists c, w = [c] /\ In [DASH; c] strings)) /\
  ((forall x, In x strings -> exists y, x = DASH :: y /\ (y <> [] /\ forallb plain y = true) /\ hd_error y <> Some DASH) ->
   (case_matches (for_old_without_arg strings) w <-> In w strings)).
Proof.
  intros strings w Hn. split; [intros H; split; [now apply long_without_arg | now apply long_with_arg] |].
  split; [now apply short_chars | now apply old_without_arg].
Qed.
Print Assumptions C66_case_patterns_partial.

(** Option strings with pattern characters are not quoted: the valid option [-?] gets a pattern
    that matches every single character, so that [-v] is taken for [-?]. *)
Theorem C66_question_mark_refuted :
  is_valid_option_string (s "-?") = true /\
  case_matches (for_short [s "-?"]) (s "v") /\ case_matches (make_pattern [s "-?"]) (s "-v").
Proof.
  split; [reflexivity |]. split.
  - exists [[AnyChar]]. split; [reflexivity |]. left. exists (s "v"), []. split; [reflexivity |].
    split; [exists 118%N; reflexivity | reflexivity].
  - exists [[Char DASH; AnyChar]]. split; [reflexivity |]. left. exists [DASH], (s "v"). split; [reflexivity |].
    split; [reflexivity |]. exists (s "v"), []. split; [reflexivity |]. split; [exists 118%N; reflexivity | reflexivity].
Qed.
Print Assumptions C66_question_mark_refuted.

Example C66_example :
  for_long_with_arg [s "--color"; s "--colour"] = s "--color=*|--colour=*" /\
  for_short [s "-a"; s "-b"] = s "a|b" /\
  for_old_without_arg [s "-one"; s "-two"; s "-three"] = s "-@(one|two|three)" /\
  forall x, In x [s "-one"; s "-two"; s "-three"] ->
    exists y, x = DASH :: y /\ (y <> [] /\ forallb plain y = true) /\ hd_error y <> Some DASH.
Proof.
  repeat (split; [reflexivity |]). intros x Hx.
  repeat (destruct Hx as [<- | Hx]; [eexists; split; [reflexivity |]; split; [split; [discriminate | reflexivity] | discriminate] |]).
  destruct Hx.
Qed.

(** ** C67 *)

(** The pattern for file extensions matches a word exactly if it is one of the extensions, or
    starts with one in the fuzzy case, in any mixture of upper and lower case. *)
Theorem C67_extensions : forall extensions fuzzy w,
  extensions <> [] -> (forall x, In x extensions -> forallb plain x = true) ->
  (case_matches (make_file_extension_pattern extensions fuzzy) w <->
   exists x v t, In x extensions /\ w = v ++ t /\ lower v = lower x /\ (fuzzy = true \/ t = [])).
Proof. exact extension_language. Qed.
Print Assumptions C67_extensions.

Example C67_example :
  make_file_extension_pattern [s "txt"; s "7z"] false = s "@([tT][xX][tT]|7[zZ])" /\
  case_matches (s "@([tT][xX][tT]|7[zZ])") (s "tXT") /\ ~ case_matches (s "@([tT][xX][tT]|7[zZ])") (s "tx") /\
  case_matches (s "@([tT][xX][tT]|7[zZ])*") (s "Txt.bak").
Proof.
  assert (H : forall x, In x [s "txt"; s "7z"] -> forallb plain x = true).
  { intros x Hx. repeat (destruct Hx as [<- | Hx]; [reflexivity |]). destruct Hx. }
  split; [vm_compute; reflexivity |].
  change (s "@([tT][xX][tT]|7[zZ])") with (make_file_extension_pattern [s "txt"; s "7z"] false).
  change (s "@([tT][xX][tT]|7[zZ])*") with (make_file_extension_pattern [s "txt"; s "7z"] true).
  split; [| split].
  - apply C67_extensions; [discriminate | exact H |]. exists (s "txt"), (s "tXT"), []. split; [now left |].
    split; [reflexivity |]. split; [reflexivity | now right].
  - rewrite C67_extensions by (exact H || discriminate). intros (x & v & t & Hx & E & El & [C | ->]); [discriminate |].
    rewrite app_nil_r in E. subst v. destruct Hx as [<- | [<- | []]]; discriminate El.
  - apply C67_extensions; [discriminate | exact H |]. exists (s "txt"), (s "Txt"), (s ".bak"). split; [now left |].
    split; [reflexivity |]. split; [reflexivity | now left].
Qed.

(** ** C68 *)

(** The pattern for the names of a sub-command, which are quoted first, matches exactly these
    names, if no name needs quotes. *)
Theorem C68_names_partial : forall names,
  names <> [] -> (forall x, In x names -> x <> [] /\ forallb is_safe x = true) ->
  (forall p, consecutive py_int names p -> forall u, follows names p u -> List.length u = 1) ->
  forall w, case_matches (make_pattern (map quote names)) w <-> In w names.
Proof.
  intros names Hn Hs Hc.
  assert (E : map quote names = names).
  { rewrite <- (map_id names) at 2. apply map_ext_in. intros x Hx. destruct (Hs x Hx) as [H1 H2].
    unfold quote, quote_gen, needs_quote. destruct x as [| c x]; [now destruct H1 |]. cbn [andb]. now rewrite H2. }
  rewrite E. apply make_pattern_exact; [exact Hn | | exact Hc].
  intros x Hx. destruct (Hs x Hx) as [H1 H2]. split; [exact H1 |].
  rewrite forallb_forall in *. intros c Hcx. specialize (H2 c Hcx).
  unfold plain, posix_special, memc. apply negb_true_iff. destruct (existsb _ _) eqn:Ex; [| reflexivity].
  apply existsb_exists in Ex as (d & Hd & Ed). apply N.eqb_eq in Ed. subst d. exfalso.
  cbn in Hd. repeat (destruct Hd as [Hd | Hd]; [subst c; discriminate H2 |]). destruct Hd.
Qed.
Print Assumptions C68_names_partial.

(** With names that need quotes, the quotes are torn apart: for the aliases [c#11a],
    [c#11b], [c#11c] and [c#11d] the result is not a pattern at all. *)
Theorem C68_quotes_refuted :
  let names := [s "c#11a"; s "c#11b"; s "c#11c"; s "c#11d"] in
  make_pattern (map quote names) = s "'c#11@(a'|b'|c'|d')" /\
  read_case (make_pattern (map quote names)) = None.
Proof. vm_compute. split; reflexivity. Qed.
Print Assumptions C68_quotes_refuted.

Example C68_example :
  make_pattern (map quote [s "checkout"; s "check"; s "co"]) = s "c@(heck@(|out)|o)" /\
  numbers_check [s "checkout"; s "check"; s "co"] = true /\
  forallb (forallb is_safe) [s "checkout"; s "check"; s "co"] = true.
Proof. vm_compute. repeat split. Qed.

(** ** C43 *)

(** The option string that the variable of an option is named after: the first long one, else the
    first old-style one, else the first short one. *)
Definition main_string (strings : list str) : option str :=
  let long := fun x => starts_with [DASH; DASH] x in
  match find long strings with
  | Some x => Some x
  | None =>
      match find (fun x => Nat.ltb 2 (List.length x)) strings with
      | Some x => Some x
      | None => find (fun x => Nat.eqb 2 (List.length x)) strings
      end
  end.

Lemma find_filter {A} (p : A -> bool) l :
  find p l = match filter p l with x :: _ => Some x | [] => None end.
Proof. induction l as [| x l IH]; [reflexivity |]. cbn. destruct (p x); [reflexivity | exact IH]. Qed.
Lemma variable_of strings x d name :
  main_string strings = Some x -> (forall y, In y strings -> is_valid_option_string y = true) ->
  x = d ++ name -> forallb (N.eqb DASH) d = true ->
  forallb letter_or_digit name = true -> name <> [] -> is_digit (hd 0%N name) = false ->
  make_option_variable_name strings (s "OPT_") = Ok (s "OPT_" ++ name).
Proof.
  intros Hm Hv Hx Hd Hname Hne Hdig.
  assert (Estrip : lstrip_dashes x = name).
  { subst x. clear -Hd Hname Hne. unfold lstrip_dashes. induction d as [| c d IH]; cbn [app forallb] in *.
    - destruct name as [| c name]; [reflexivity |]. cbn [forallb lstrip_p] in *. apply andb_prop in Hname as [Hc _].
      destruct (N.eqb_spec DASH c) as [<- |]; [discriminate Hc | reflexivity].
    - cbn [lstrip_p]. apply andb_prop in Hd as [-> Hd]. now apply IH. }
  unfold main_string in Hm. unfold make_option_variable_name.
  unfold get_long_option_strings, get_old_option_strings, get_short_option_strings.
  rewrite !find_filter in Hm.
  change (fun x0 : str => starts_with [DASH; DASH] x0) with is_long_option_string in Hm.
  destruct (filter is_long_option_string strings) as [| y ys] eqn:El.
  2:{ injection Hm as ->. now rewrite Estrip, identifier_id. }
  assert (Hnl : forall y, In y strings -> is_long_option_string y = false).
  { intros y Hy. destruct (is_long_option_string y) eqn:E; [| reflexivity].
    assert (Hi : In y (filter is_long_option_string strings)) by (apply filter_In; auto). rewrite El in Hi. destruct Hi. }
  assert (Eo : filter is_old_option_string strings = filter (fun x => Nat.ltb 2 (List.length x)) strings).
  { apply filter_ext_in. intros y Hy. unfold is_old_option_string. specialize (Hnl y Hy). unfold is_long_option_string in Hnl.
    now rewrite Hnl. }
  rewrite Eo. destruct (filter (fun x => Nat.ltb 2 (List.length x)) strings) as [| y ys] eqn:E2.
  2:{ injection Hm as ->. now rewrite Estrip, identifier_id. }
  assert (Es : filter is_short_option_string strings = filter (fun x => Nat.eqb 2 (List.length x)) strings).
  { apply filter_ext. intros y. unfold is_short_option_string. apply Nat.eqb_sym. }
  rewrite Es. destruct (filter (fun x => Nat.eqb 2 (List.length x)) strings) as [| y ys] eqn:E3; [discriminate |].
  injection Hm as ->.
  assert (Hy : In x (filter (fun x => Nat.eqb 2 (List.length x)) strings)) by (rewrite E3; now left).
  apply filter_In in Hy as [Hin Hl]. apply Nat.eqb_eq in Hl. specialize (Hv x Hin).
  destruct x as [| a [| c [| ? ?]]]; try discriminate Hl. cbn in Hv.
  destruct (N.eqb_spec a DASH) as [-> |]; [| discriminate Hv].
  unfold lstrip_dashes in Estrip. cbn [lstrip_p] in Estrip. change (N.eqb DASH DASH) with true in Estrip. cbn iota in Estrip.
  destruct (N.eqb_spec DASH c) as [<- |]; [now subst name |]. now subst name.
Qed.

(** Two options whose main names differ are recorded in different variables, if the names consist
    of letters and digits and no variable is given by the user. *)
Theorem C43_distinct_partial : forall o1 o2 x1 x2 d1 d2 name1 name2,
  (forall y, In y (o_strings o1) -> is_valid_option_string y = true) ->
  (forall y, In y (o_strings o2) -> is_valid_option_string y = true) ->
  o_capture o1 = None -> o_capture o2 = None ->
  main_string (o_strings o1) = Some x1 -> main_string (o_strings o2) = Some x2 ->
  x1 = d1 ++ name1 -> x2 = d2 ++ name2 ->
  forallb (N.eqb DASH) d1 = true -> forallb (N.eqb DASH) d2 = true ->
  (forall n, In n [name1; name2] -> forallb letter_or_digit n = true /\ n <> [] /\ is_digit (hd 0%N n) = false) ->
  name1 <> name2 ->
  exists v1 v2, opt_variable o1 = Ok v1 /\ opt_variable o2 = Ok v2 /\ v1 <> v2.
Proof.
  intros o1 o2 x1 x2 d1 d2 n1 n2 V1 V2 C1 C2 M1 M2 X1 X2 D1 D2 Hn Hne.
  unfold opt_variable, capture_variable. rewrite C1, C2.
  destruct (Hn n1 (or_introl eq_refl)) as (A1 & A2 & A3).
  destruct (Hn n2 (or_intror (or_introl eq_refl))) as (B1 & B2 & B3).
  rewrite (variable_of _ x1 d1 n1), (variable_of _ x2 d2 n2) by assumption.
  eexists. eexists. split; [reflexivity |]. split; [reflexivity |].
  intros E. apply app_inv_head in E. contradiction.
Qed.
Print Assumptions C43_distinct_partial.

Definition flag (strings : list str) : opt :=
  MkOpt strings None None None false None false XInherit false false None None SepInherit.

(** The claim itself is false: [--foo-bar] and [--foo_bar] share a variable, and so do [--a] and
    [-a], if they are different options. *)
Theorem C43_shared_refuted :
  opt_variable (flag [s "--foo-bar"]) = opt_variable (flag [s "--foo_bar"]) /\
  opt_variable (flag [s "--a"]) = opt_variable (flag [s "-a"]) /\
  opt_variable (flag [s "--foo-bar"]) = Ok (s "OPT_foo_bar").
Proof. vm_compute. repeat split. Qed.
Print Assumptions C43_shared_refuted.

Example C43_example :
  main_string [s "-o"; s "-out"; s "--output"] = Some (s "--output") /\
  opt_variable (flag [s "-o"; s "-out"; s "--output"]) = Ok (s "OPT_output") /\
  opt_variable (flag [s "-o"]) = Ok (s "OPT_o").
Proof. vm_compute. repeat split. Qed.

(** ** C69 *)

(** The variables are valid names in Bash, if short options are letters, digits or underscores. *)
Theorem C69_valid_partial : forall o v,
  (forall y, In y (o_strings o) -> is_valid_option_string y = true) ->
  (forall x, o_capture o = Some x -> is_valid_variable_name x = true) ->
  (forall c, In [DASH; c] (o_strings o) -> is_word c = true) ->
  opt_variable o = Ok v -> is_valid_variable_name v = true.
Proof.
  intros o v Hv Hc Hs H. unfold opt_variable, capture_variable in H.
  destruct (o_capture o) as [x |]; [injection H as <-; now apply Hc |].
  assert (Hpre : forall y, forallb is_word y = true -> is_valid_variable_name (s "OPT_" ++ y) = true).
  { intros y Hy. cbn. exact Hy. }
  unfold make_option_variable_name in H.
  destruct (get_long_option_strings (o_strings o)); [| apply inr_inj in H; subst v; apply Hpre, make_identifier_word].
  destruct (get_old_option_strings (o_strings o)); [| apply inr_inj in H; subst v; apply Hpre, make_identifier_word].
  destruct (get_short_option_strings (o_strings o)) as [| [| a [| c x]] l] eqn:E; try discriminate.
  apply inr_inj in H. subst v. apply Hpre. cbn [forallb].
  assert (Hi : In (a :: c :: x) (get_short_option_strings (o_strings o))) by (rewrite E; now left).
  apply filter_In in Hi as [Hi Hl]. specialize (Hv _ Hi). unfold is_short_option_string in Hl. apply Nat.eqb_eq in Hl.
  destruct x; [| discriminate Hl]. cbn in Hv. destruct (N.eqb_spec a DASH) as [-> |]; [| discriminate Hv].
  now rewrite (Hs c Hi).
Qed.
Print Assumptions C69_valid_partial.

(** Otherwise they need not be: *)
Theorem C69_invalid_refuted :
  is_valid_option_string (s "-?") = true /\ opt_variable (flag [s "-?"]) = Ok (s "OPT_?") /\
  is_valid_variable_name (s "OPT_?") = false.
Proof. vm_compute. repeat split. Qed.
Print Assumptions C69_invalid_refuted.

Example C69_example : opt_variable (flag [s "-4"; s "--4"]) = Ok (s "OPT__4") /\
  is_valid_variable_name (s "OPT__4") = true.
Proof. vm_compute. split; reflexivity. Qed.
