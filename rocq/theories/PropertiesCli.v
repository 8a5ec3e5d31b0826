(** * Properties C10, C20-C24, C50-C53, C55, C58: command trees.  Statements only. *)
From Verif Require Import Base Dict Value StrUtils Abbrev Cli SpecCli CliProofs CliMore CliExamples.
From Coq Require Import Permutation.

(** C10.  Whatever the abbreviation settings are, a text that selects two different siblings is
    an alias of one of them (full claim: no text selects two siblings) ... *)
Theorem C10_command_variations_partial : forall (p c d : cmd) (lc ld : list str) (a : str),
  NoDup (map c_prog (subs p)) -> In c (subs p) -> In d (subs p) -> c_prog c <> c_prog d ->
  get_all_command_variations c (Some p) = Ok lc -> get_all_command_variations d (Some p) = Ok ld ->
  In a lc -> In a ld -> In a (c_aliases c) \/ In a (c_aliases d).
Proof. exact variations_disjoint. Qed.
Print Assumptions C10_command_variations_partial.

Theorem C10_command_variations_total : forall (p c : cmd), In c (subs p) ->
  exists l, get_all_command_variations c (Some p) = Ok l /\
    (c_prog c <> [] -> In (c_prog c) l) /\ (forall a, In a (c_aliases c) -> In a l).
Proof. exact variations_total. Qed.
Print Assumptions C10_command_variations_total.

(** ... the full claim is false: abbreviations of a command ignore the aliases of its siblings.
    Here "re" is an alias of [delete] and also an abbreviation of [rename]. *)
Theorem C10_command_variations_refuted : exists (p c d : cmd) (lc ld : list str) (a : str),
  built p /\ In c (subs p) /\ In d (subs p) /\ c_prog c <> c_prog d /\
  get_all_command_variations c (Some p) = Ok lc /\ get_all_command_variations d (Some p) = Ok ld /\
  In a lc /\ In a ld.
Proof.
  set (c := Cmd (s "rename") None [] None XTrue XInherit XInherit [] [] None).
  set (d := Cmd (s "delete") None [s "re"] None XTrue XInherit XInherit [] [] None).
  set (p0 := Cmd (s "git") None [] None XInherit XInherit XInherit [] [] (Some [])).
  exists (set_subcommands (set_subcommands p0 (Some [c])) (Some [c; d])), c, d,
    [s "rename"; s "renam"; s "rena"; s "ren"; s "re"; s "r"],
    [s "delete"; s "delet"; s "dele"; s "del"; s "de"; s "d"; s "re"], (s "re").
  repeat split; try reflexivity; try (cbn; tauto); try discriminate.
  by_copy.
Qed.
Print Assumptions C10_command_variations_refuted.

Example C10_example : NoDup (map c_prog (subs git)) /\
  get_all_command_variations git_remote (Some git)
    = Ok [s "remote"; s "remot"; s "remo"; s "rem"; s "rem"] /\
  get_all_command_variations git_reset (Some git)
    = Ok [s "reset"; s "rese"; s "res"].
Proof.
  repeat split. repeat constructor; cbn; intuition discriminate.
Qed.

(** C20.  The options visible in a command of a tree are, up to the order, its own ones and
    those of its ancestors whose strings are not those of an option of a nearer command
    ([visible]); if no command has twin options, also in this order; own options come first. *)
Theorem C20_visible_options : forall (root : cmd) (ps : list cmd) (c : cmd),
  built root -> located root ps c ->
  Permutation (get_options ps c true false) (visible [] (c :: ps)) /\
  (no_twins (c :: ps) -> get_options ps c true false = visible [] (c :: ps)) /\
  (exists own inherited, get_options ps c true false = own ++ inherited /\
     Permutation own (c_options c)) /\
  Permutation (get_options ps c false false) (c_options c).
Proof. exact get_options_visible. Qed.
Print Assumptions C20_visible_options.

(** [same_strings], used by [visible], is equality of the sets of option strings. *)
Theorem C20_same_strings : forall a b : opt,
  same_strings a b = true <-> Permutation (o_strings a) (o_strings b).
Proof. exact same_strings_perm. Qed.
Print Assumptions C20_same_strings.

Example C20_example : built git /\ located git [git_remote; git] git_add /\
  map o_strings (get_options [git_remote; git] git_add true false)
  = [[s "-n"]; [s "--verbose"; s "-v"]; [s "-m"]; [s "--dir"]].
Proof. split; [exact git_built|]. split; [exact git_add_located|reflexivity]. Qed.

(** C21.  The index of a positional counts all positions its ancestors consume ... *)
Theorem C21_positional_index : forall (root : cmd) (ps : list cmd) (c : cmd) (number : Z),
  located root ps c ->
  positional_index ps number = (number - 1 + sum (map consumed ps))%Z.
Proof. exact positional_index_eq. Qed.
Print Assumptions C21_positional_index.

(** ... so the positionals of an ancestor, the name of its subcommand, and the positionals
    below come in this order. *)
Theorem C21_positional_order : forall (root : cmd) (ps : list cmd) (c : cmd) (pre : list cmd)
    (a : cmd) (post : list cmd) (q : pos) (n : Z),
  built root -> located root ps c ->
  ps = pre ++ a :: post -> In q (c_positionals a) -> (1 <= n)%Z ->
  (0 <= positional_index post (p_number q) < positional_index post (subcommands_number a))%Z /\
  (positional_index post (subcommands_number a) < positional_index ps n)%Z.
Proof. exact positional_order. Qed.
Print Assumptions C21_positional_order.

Example C21_example : positional_index [git_remote; git] 1 = 4%Z /\
  positional_index [] (subcommands_number git) = 2%Z /\ In (positional 2) (c_positionals git).
Proof. repeat split. right; left; reflexivity. Qed.

(** C22.  The options listed as conflicting with [o] are exactly the different options that
    share a group with it ... *)
Theorem C22_conflicts_exact : forall (options : list opt) (o : opt), In o options ->
  exists r, get_conflicting_options options o = Ok r /\
    (forall x, In x r -> In x options /\ opt_eqb x o = false /\ share_group o x) /\
    (forall x, In x options -> opt_eqb x o = false -> share_group o x ->
       exists y, In y r /\ opt_eqb y x = true).
Proof. exact conflicting_spec. Qed.
Print Assumptions C22_conflicts_exact.

(** ... and the relation is symmetric. *)
Theorem C22_conflicts_symmetric : forall (options : list opt) (a b : opt) (ra rb : list opt),
  In a options -> In b options ->
  get_conflicting_options options a = Ok ra -> get_conflicting_options options b = Ok rb ->
  (existsb (opt_eqb b) ra = true <-> existsb (opt_eqb a) rb = true).
Proof. exact conflicting_sym. Qed.
Print Assumptions C22_conflicts_symmetric.

Example C22_example :
  get_conflicting_options (c_options git_remote) (flag_g [s "-n"] [s "g"])
  = Ok [flag_g [s "-m"] [s "g"; s "h"]].
Proof. reflexivity. Qed.

(** C23.  Copying any command line that can be built succeeds and gives the same tree ... *)
Theorem C23_copy : forall c : cmd, built c -> copy c = Ok c.
Proof. exact copy_built. Qed.
Print Assumptions C23_copy.

(** ... and [==] compares the whole trees up to [long_opt_arg_sep]; it is an equivalence. *)
Theorem C23_equality : forall a b : cmd, cmd_eqb a b = true <-> forget a = forget b.
Proof. exact cmd_eqb_eq. Qed.
Print Assumptions C23_equality.

Example C23_example : built git /\ copy git = Ok git /\ cmd_eqb git git = true /\
  cmd_eqb git git_remote = false.
Proof. split; [exact git_built|]. repeat split. Qed.

(** C24.  In every command line that can be built, at every depth, subcommand names are
    unique; adding subcommands succeeds exactly as long as they are, keeps the order, and a
    subcommand is found under its name. *)
Theorem C24_names_unique : forall (root : cmd) (ps : list cmd) (c : cmd),
  built root -> located root ps c -> NoDup (map c_prog (subs c)).
Proof.
  exact (fun root ps c Hb Hl =>
    match proj1 (located_wfc root ps c (built_wfc root Hb) Hl) with
    | wfc_intro c _ _ _ Hn _ => Hn end).
Qed.
Print Assumptions C24_names_unique.

Theorem C24_adding : forall (ops : list cmd),
  ((exists l, fold_res add_commandline_object ops [] = Ok l) <-> NoDup (map c_prog ops)) /\
  (forall l, fold_res add_commandline_object ops [] = Ok l -> l = ops).
Proof.
  exact (fun ops => conj (adds_iff ops)
    (fun l E => proj1 (adds_unique ops [] l (NoDup_nil _) E))).
Qed.
Print Assumptions C24_adding.

Theorem C24_lookup : forall (l : list cmd) (c : cmd), NoDup (map c_prog l) -> In c l ->
  get_subcommand_by_name l (c_prog c) = Some c.
Proof. exact lookup_unique. Qed.
Print Assumptions C24_lookup.

Example C24_example : fold_res add_commandline_object [git_remote; git_reset] [] = Ok [git_remote; git_reset] /\
  add_commandline_object [git_remote; git_reset] (new (s "reset"))
    = Err (CrazyError (s "Duplicate subcommand")).
Proof. repeat split. Qed.

(** C50.  Asking for the own options that take arguments filters the own options; with parents,
    shadowing is decided among the options with arguments only (full claim: the result is the
    part with arguments of the visible options) ... *)
Theorem C50_options_with_arguments_partial : forall (root : cmd) (ps : list cmd) (c : cmd),
  built root -> located root ps c ->
  Permutation (get_options ps c false true)
              (filter (fun o => otruthy (o_complete o)) (c_options c)) /\
  Permutation (get_options ps c true true)
              (visible [] (map (fun p => set_options p
                 (filter (fun o => otruthy (o_complete o)) (c_options p))) (c :: ps))).
Proof. exact get_options_args. Qed.
Print Assumptions C50_options_with_arguments_partial.

(** ... so an inherited option with argument is listed although a flag of the subcommand
    shadows it. *)
Theorem C50_options_with_arguments_refuted : exists (root : cmd) (ps : list cmd) (c : cmd) (o : opt),
  built root /\ located root ps c /\
  In o (get_options ps c true true) /\ ~ In o (get_options ps c true false).
Proof.
  set (sub := set_options (new (s "sub")) [flag [s "-o"]]).
  set (root := set_subcommands (set_options (new (s "prog")) [with_arg [s "-o"]]) (Some [sub])).
  exists root, [root], sub, (with_arg [s "-o"]). repeat split.
  - by_copy.
  - apply located_sub; [apply located_root|left; reflexivity].
  - vm_compute. left; reflexivity.
  - vm_compute. intros [H|[]]. discriminate.
Qed.
Print Assumptions C50_options_with_arguments_refuted.

(** C51.  Looking up options by their strings: all known strings are found, each option once ... *)
Theorem C51_options_by_strings : forall (c : cmd) (strings : list str),
  (forall x, In x strings -> exists o, In o (c_options c) /\ In x (o_strings o)) ->
  exists r, get_options_by_option_strings c strings = Ok r /\
    (forall o, In o r -> In o (c_options c) /\ exists x, In x strings /\ In x (o_strings o)) /\
    (forall x, In x strings -> exists o, In o r /\ In x (o_strings o)) /\
    (forall p a q b t, r = p ++ a :: q ++ b :: t -> opt_eqb a b = false).
Proof. exact options_by_strings_spec. Qed.
Print Assumptions C51_options_by_strings.

(** ... and the only failure is an unknown string. *)
Theorem C51_options_by_strings_error : forall (c : cmd) (strings : list str) (e : exn),
  get_options_by_option_strings c strings = Err e ->
  e = CrazyError (s "Option not found") /\
  exists x, In x strings /\ forall o, In o (c_options c) -> ~ In x (o_strings o).
Proof. exact options_by_strings_error. Qed.
Print Assumptions C51_options_by_strings_error.

Example C51_example :
  get_options_by_option_strings git [s "-v"; s "--dir"; s "--verbose"]
  = Ok [flag [s "-v"; s "--verbose"]; with_arg [s "--dir"]] /\
  get_options_by_option_strings git [s "-v"; s "-x"] = Err (CrazyError (s "Option not found")).
Proof. repeat split. Qed.

(** C52.  The names offered for completing a subcommand are the names and aliases of the
    subcommands, each once; if they are all different, in order and each with its own help ... *)
Theorem C52_choices_partial : forall l : list cmd,
  NoDup (map fst (get_choices l true)) /\
  (forall k, In k (map fst (get_choices l true)) <-> In k (map fst (offered l))) /\
  (NoDup (map fst (offered l)) -> get_choices l true = offered l).
Proof.
  exact (fun l => conj (proj1 (choices_names l)) (conj (proj2 (choices_names l)) (choices_distinct l))).
Qed.
Print Assumptions C52_choices_partial.

(** ... but an alias that is also the name of an earlier sibling replaces its help (full claim:
    the name of every subcommand is offered with its own help). *)
Theorem C52_choices_refuted : exists (p c : cmd), built p /\ In c (subs p) /\
  dget str_eqb (c_prog c) (get_choices (subs p) true) <> Some (c_help c).
Proof.
  set (c := Cmd (s "rm") (Some (s "Remove")) [] None XInherit XInherit XInherit [] [] None).
  set (d := Cmd (s "rmdir") (Some (s "Remove directories")) [s "rm"] None XInherit XInherit XInherit [] [] None).
  set (p0 := Cmd (s "git") None [] None XInherit XInherit XInherit [] [] (Some [])).
  exists (set_subcommands (set_subcommands p0 (Some [c])) (Some [c; d])), c. repeat split.
  - by_copy.
  - left; reflexivity.
  - vm_compute. discriminate.
Qed.
Print Assumptions C52_choices_refuted.

Example C52_example :
  get_choices (subs git) true
  = [(s "remote", Some (s "Manage remotes")); (s "rem", Some (s "Manage remotes")); (s "reset", None)].
Proof. reflexivity. Qed.

(** C53.  The list of options handed to the query helpers can be read back: every option string
    with the right kind of argument, if no option string itself ends like the marks ... *)
Theorem C53_query_options_partial : forall (ps : list cmd) (c root : cmd) (with_parents : bool),
  built root -> located root ps c ->
  (forall o x, In o (get_options ps c with_parents false) -> In x (o_strings o) -> 
     (forall y, x <> y ++ s "=") /\ (forall y, x <> y ++ s "=?")) ->
  get_options ps c with_parents false <> [] ->
  map read_query_word (split_c SP (get_query_option_strings ps c with_parents))
  = flat_map (fun o => map (fun x => (x, arg_kind o)) (o_strings o))
             (get_options ps c with_parents false).
Proof. exact query_words. Qed.
Print Assumptions C53_query_options_partial.

(** ... which the code does not forbid (full claim: without that condition). *)
Theorem C53_query_options_refuted : exists c : cmd, built c /\
  map read_query_word (split_c SP (get_query_option_strings [] c true))
  <> flat_map (fun o => map (fun x => (x, arg_kind o)) (o_strings o)) (get_options [] c true false).
Proof.
  exists (set_options (new (s "dd")) [flag [s "-if="]]). split.
  - by_copy.
  - vm_compute. discriminate.
Qed.
Print Assumptions C53_query_options_refuted.

Example C53_example : get_query_option_strings [git_remote; git] git_add true
  = s "-n --verbose= -v= -m --dir=" /\
  get_options [git_remote; git] git_add true false <> [].
Proof. split; [reflexivity|discriminate]. Qed.

(** C55.  The constructors accept exactly the valid descriptions and keep them unchanged ... *)
Theorem C55_option_exact : forall o o' : opt, mk_option o = Ok o' <-> o' = o /\ valid_option o.
Proof. exact mk_option_iff. Qed.
Print Assumptions C55_option_exact.

Theorem C55_positional_exact : forall number metavar help complete nosort repeatable when capture p,
  mk_positional number metavar help complete nosort repeatable when capture = Ok p <->
  (1 <= number)%Z /\ (forall x, capture = Some x -> variable_name x) /\
  p = MkPos number metavar help
        (match complete with Some (x :: l) => x :: l | _ => [VStr (s "none")] end)
        nosort repeatable when capture.
Proof. exact mk_positional_iff. Qed.
Print Assumptions C55_positional_exact.

Theorem C55_commandline_exact : forall prog help aliases wraps abc abo inh c,
  mk_commandline prog help aliases wraps abc abo inh = Ok c <->
  (forall a, In a aliases -> one_word a) /\
  (forall w, wraps = Some w -> one_word w /\ exists d, In d w /\ is_space d = false) /\
  c = Cmd prog help aliases wraps abc abo inh [] [] None.
Proof. exact mk_commandline_iff. Qed.
Print Assumptions C55_commandline_exact.

(** ... so every command of every tree that can be built is valid. *)
Theorem C55_built_valid : forall (root : cmd) (ps : list cmd) (c : cmd),
  built root -> located root ps c -> valid_command c.
Proof. exact built_valid. Qed.
Print Assumptions C55_built_valid.

Example C55_example :
  (exists e, mk_option (MkOpt [s "-a"] None None None false None false XTrue false true None None SepInherit) = Err e) /\
  (exists e, mk_option (MkOpt [s "-a"] (Some (s "X")) None None false None false XTrue false false None None SepInherit) = Err e) /\
  mk_option (with_arg [s "-a"]) = Ok (with_arg [s "-a"]) /\
  (exists e, mk_positional 0 None None None false false None None = Err e) /\
  (exists e, mk_positional 1 None None None false false None (Some (s "1x")) = Err e) /\
  built git /\ located git [git_remote; git] git_add.
Proof.
  repeat split; try (eexists; reflexivity); [exact git_built|exact git_add_located].
Qed.

(** C58.  Visiting a tree reaches exactly its commands, each once, a command before its
    subcommands, and everything below a subcommand before everything below a later one. *)
Theorem C58_visits_exactly : forall root : cmd, built root ->
  (forall ps c, In (ps, c) (visit_commandlines [] root) <-> located root ps c) /\
  NoDup (visit_commandlines [] root).
Proof.
  exact (fun root Hb => conj
    (fun ps c => iff_trans (visit_iff root [] ps c)
       (conj (fun '(ex_intro _ rs (conj E L)) =>
                eq_ind_r (fun qs => located root qs c) L (eq_trans E (app_nil_r rs)))
             (fun L => ex_intro _ ps (conj (eq_sym (app_nil_r ps)) L))))
    (visit_nodup root (built_wfc root Hb) [])).
Qed.
Print Assumptions C58_visits_exactly.

Theorem C58_parent_first : forall (root : cmd) (ps : list cmd) (c sub : cmd),
  located root ps c -> In sub (subs c) ->
  before (visit_commandlines [] root) (ps, c) (c :: ps, sub).
Proof. exact visit_parent_first. Qed.
Print Assumptions C58_parent_first.

Theorem C58_sibling_order : forall root ps c l1 a l2 b l3 rs d rs' d',
  located root ps c -> subs c = l1 ++ a :: l2 ++ b :: l3 -> located a rs d -> located b rs' d' ->
  before (visit_commandlines [] root) (rs ++ c :: ps, d) (rs' ++ c :: ps, d').
Proof. exact visit_siblings. Qed.
Print Assumptions C58_sibling_order.

(** From every command of a tree its root, its chain of ancestors (root first) and the final
    options of the chain are found. *)
Theorem C58_navigation : forall (root : cmd) (ps : list cmd) (c : cmd), located root ps c ->
  get_root_commandline ps c = root /\
  get_parents ps c true = rev ps ++ [c] /\ get_parents ps c false = rev ps /\
  get_command_path ps c = join [SP] (map c_prog (rev ps ++ [c])) /\
  (forall o, In o (get_final_options ps c) <->
     o_final o = true /\ exists a, In a (c :: ps) /\ In o (c_options a)).
Proof.
  exact (fun root ps c L => conj (located_root_of root ps c L)
    (conj (get_parents_eq root ps c true L)
    (conj (eq_trans (get_parents_eq root ps c false L) (app_nil_r (rev ps)))
    (conj (f_equal (fun l => join [SP] (map c_prog l)) (get_parents_eq root ps c true L))
          (fun o => final_options_iff root ps c o L))))).
Qed.
Print Assumptions C58_navigation.

Example C58_example : map (fun x => c_prog (snd x)) (visit_commandlines [] git)
  = [s "git"; s "remote"; s "add"; s "reset"] /\
  get_command_path [git_remote; git] git_add = s "git remote add".
Proof. repeat split. Qed.
