(** * Properties C101 and C102: ranges and commands. *)
From Coq Require Import String Permutation.
From Verif Require Import Base Value PyStr Shell SpecShell SpecChoices SpecValid SchemeValidator SchemeKinds
  Ranges SpecRanges RangesProofs CommandPath SpecCommandPath CommandPathProofs.
Open Scope string_scope.
Open Scope list_scope.

(** ** C101 *)

(** For any range of integers that validation accepts there is one list of numbers, without
    repetitions: exactly those of the range.  Bash offers those of them that begin with the word
    typed, behind what was offered before when the code is to add to it.  The action of zsh, its
    function, the argument of fish and its code offer all of them. *)
Theorem C101_ranges (start stop step : Z) :
  check_range [VInt start; VInt stop; VInt step] = Ok tt -> fits start -> fits stop -> fits step ->
  exists l : list Z,
    NoDup l /\ (forall x, In x l <-> in_range start stop step x) /\
    (forall append cur before, bash_range_offers (bash_range append (VInt start) (VInt stop) (VInt step)) cur before =
      Some ((if append then before else []) ++ filter (begins_with cur) (map show_Z l))) /\
    (exists l', zsh_range_offers (zsh_range_action (VInt start) (VInt stop) (VInt step)) = Some (map show_Z l') /\ Permutation l l') /\
    zsh_seq_offers (zsh_range_code (VInt start) (VInt stop) (VInt step)) = Some (map show_Z l) /\
    fish_range_offers (fish_range_arg (VInt start) (VInt stop) (VInt step)) = Some (map show_Z l) /\
    fish_seq (fish_range_code (VInt start) (VInt stop) (VInt step)) = Some (map show_Z l).
Proof.
  intros H F1 F2 F3. cbn in H.
  destruct (Z.eqb_spec step 0) as [| H0]; [discriminate |].
  assert (0 < step -> start <= stop)%Z as H1.
  { intros K. destruct (Z.gtb_spec step 0); [| lia]. destruct (Z.gtb_spec start stop); [discriminate | lia]. }
  assert (step < 0 -> stop <= start)%Z as H2.
  { intros K. destruct (Z.gtb_spec step 0); [lia |]. cbn [andb] in H. destruct (Z.ltb_spec step 0); [| lia]. destruct (Z.gtb_spec stop start); [discriminate | lia]. }
  exists (the_numbers start stop step). repeat split.
  - now apply counting_NoDup.
  - now apply numbers_In.
  - now apply numbers_In.
  - intros append cur before. now apply bash_range_right.
  - eexists. split; [now apply zsh_range_right |]. destruct (Z.ltb step 0); [apply Permutation_rev | reflexivity].
  - now apply zsh_seq_right.
  - now apply fish_range_right.
  - now apply fish_seq_right.
Qed.
Print Assumptions C101_ranges.

(** Without a step it is 1. *)
Theorem C101_default_step start stop : check_range [VInt start; VInt stop] = check_range [VInt start; VInt stop; VInt 1].
Proof. reflexivity. Qed.
Print Assumptions C101_default_step.

Definition some_numbers : list String.string := ["10"; "7"; "4"; "1"; "-2"].
(** [range, 10, -3, -3] *)
Example C101_example :
  check_range [VInt 10; VInt (-3); VInt (-3)] = Ok tt /\ fits 10 /\ fits (-3) /\
  bash_range_offers (bash_range true (VInt 10) (VInt (-3)) (VInt (-3))) (s "1") [s "x"] = Some [s "x"; s "10"; s "1"] /\
  zsh_range_offers (zsh_range_action (VInt 10) (VInt (-3)) (VInt (-3))) = Some (rev (map s some_numbers)) /\
  fish_range_offers (fish_range_arg (VInt 10) (VInt (-3)) (VInt (-3))) = Some (map s some_numbers) /\
  fish_range_arg (VInt 10) (VInt (-3)) (VInt (-3)) = s "(seq 10 -3 -3)" /\
  ~ in_range 10 (-3) (-3) 9.
Proof.
  repeat split; try reflexivity; try (unfold fits; cbn; lia).
  intros (k & E & _). lia.
Qed.

(** Validation takes booleans for integers: then the shells offer something else. *)
Theorem C101_booleans_refuted :
  check_range [VBool true; VInt 5] = Ok tt /\
  bash_range_offers (bash_range false (VBool true) (VInt 5) (VInt 1)) [] [] = Some [s "{True..5}"] /\
  zsh_range_offers (zsh_range_action (VBool true) (VInt 5) (VInt 1)) = Some [s "{True..5}"] /\
  fish_range_offers (fish_range_arg (VBool true) (VInt 5) (VInt 1)) = None.
Proof. repeat split; reflexivity. Qed.
Print Assumptions C101_booleans_refuted.

(** ** C102 *)

(** For any options of the completer that validation accepts, and any value of PATH, Bash and zsh
    search commands on the PATH that is meant: the one that is given, or the usual one with the
    given directories in front of it or behind it. *)
Theorem C102_posix args append old : proper_args args -> check_command args = Ok tt ->
  bash_searches append old (bash_command append (path_options_of args)) = Some (path_for args old) /\
  zsh_searches old (zsh_command_code (path_options_of args)) = Some (path_for args old).
Proof. intros Hp H. split; [now apply bash_command_right | now apply zsh_command_right]. Qed.
Print Assumptions C102_posix.

(** fish does so, too, if no text that is given contains a backslash or a backtick. *)
Theorem C102_fish_partial args old : proper_args args -> check_command args = Ok tt -> old <> [] ->
  (forall name p, given_text args name = Some p -> ~ In BS p /\ ~ In BTICK p) ->
  exists dirs, fish_searches old (fish_command (path_options_of args)) = Some dirs /\ join [COLON] dirs = path_for args (join [COLON] old).
Proof. exact (fish_command_right args old). Qed.
Print Assumptions C102_fish_partial.

Definition two_paths : list value := [VDict [(VStr (s "path_append"), VStr (s "/opt/my tools:/sbin")); (VStr (s "path_prepend"), VStr (s "~/bin"))]].
Example C102_example :
  check_command two_paths = Ok tt /\
  (forall name p, given_text two_paths name = Some p -> ~ In BS p /\ ~ In BTICK p) /\
  path_for two_paths (s "/usr/bin:/bin") = s "~/bin:/usr/bin:/bin:/opt/my tools:/sbin" /\
  bash_command false (path_options_of two_paths) =
    s "local -x PATH='~/bin':""$PATH"":'/opt/my tools:/sbin'" ++ [LF] ++ s "COMPREPLY=($(compgen -A command -- ""$cur""))" /\
  fish_searches [s "/usr/bin"; s "/bin"] (fish_command (path_options_of two_paths)) =
    Some [s "~/bin"; s "/usr/bin"; s "/bin"; s "/opt/my tools"; s "/sbin"].
Proof.
  split; [reflexivity |]. split; [| repeat split; reflexivity].
  intros name p H. cbn [given_text two_paths] in H. unfold DictSource.vget in H. cbn [Dict.dget value_eqb fst] in H.
  destruct (str_eqb name (s "path_append")); [| destruct (str_eqb name (s "path_prepend")); [| discriminate]]; injection H as <-;
    split; intros H; cbn in H; repeat (destruct H as [H | H]; [discriminate |]); destruct H.
Qed.

(** Two backslashes in a directory are one in fish. *)
Definition backslashes : list value := [VDict [(VStr (s "path"), VStr (s "/opt/a\\b"))]].
Theorem C102_fish_backslash_refuted :
  check_command backslashes = Ok tt /\
  path_for backslashes (s "/bin") = s "/opt/a\\b" /\
  fish_searches [s "/bin"] (fish_command (path_options_of backslashes)) = Some [s "/opt/a\b"].
Proof. repeat split; reflexivity. Qed.
Print Assumptions C102_fish_backslash_refuted.
