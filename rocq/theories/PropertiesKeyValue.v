(** * Property C104: lists of key-value pairs, and single pairs. *)
From Coq Require Import String.
From Verif Require Import Base PyStr Value SchemeValidator PropertiesScheme SpecShell SpecZsh KeyValue SpecKeyValue KeyValueProofs.
Open Scope string_scope.
Open Scope list_scope.

(** A line is read in one way only. *)
Theorem C104_reading d line k ws k' ws' : d = bash \/ d = zsh \/ d = fish -> adds d line k ws -> adds d line k' ws' -> k = k' /\ ws = ws'.
Proof.
  intros [-> | [-> | ->]]; apply adds_unique; solve [exact bash_stops | exact zsh_stops | exact fish_stops | vm_compute; discriminate].
Qed.
Print Assumptions C104_reading.

(** In Bash, for any keys, completers, separators and for any condition: the helper gets the
    separators and, for each key whose condition holds, the key, the command that completes its value
    and, in lists, the keys that are not to be offered with it. *)
Theorem C104_bash_arguments test helper pair_sep value_sep func l : name_ok helper ->
  calls bash test (bash_list_code helper pair_sep value_sep func l)
    ([helper; pair_sep; value_sep]
     ++ flat_map (fun e => [own_key e; value_command e; join [SP] (excluded e)]) (filter (applies test func own_key) l)) /\
  calls bash test (bash_pair_code helper value_sep func l)
    ([helper; value_sep] ++ flat_map (fun e => [e_key e; value_command e]) (filter (applies test func e_key) l)).
Proof. intros H. split; [now apply bash_list_right | now apply bash_pair_right]. Qed.
Print Assumptions C104_bash_arguments.

(** The helper then offers the keys that no key typed before excludes, if there is only one entry
    for each key. *)
Theorem C104_bash_keys_left_partial test func l typed key : NoDup (map own_key l) ->
  (forall e x, In e l -> In x (excluded e) -> ~ In SP x) -> key <> [] ->
  (In key (remaining_keys (flat_map (fun e => [own_key e; value_command e; join [SP] (excluded e)]) (filter (applies test func own_key) l)) typed)
   <-> to_be_offered test func l typed key).
Proof. exact (bash_remaining test func l typed key). Qed.
Print Assumptions C104_bash_keys_left_partial.

(** The same for fish, with descriptions, for texts without backslashes and backquotes; for pairs if
    there is no condition. *)
Theorem C104_fish_partial test helper pair_sep value_sep func l : name_ok helper -> fish_clean [helper; pair_sep; value_sep; or_empty func] ->
  (forall e, In e l -> fish_clean (fish_texts func e)) ->
  calls fish test (fish_list_code helper pair_sep value_sep func l)
    ([helper; pair_sep; value_sep]
     ++ flat_map (fun e => [own_key e; described e; value_command e; join [SP] (excluded e)]) (filter (applies test func own_key) l)) /\
  (func = None -> calls fish test (fish_pair_code helper value_sep func l)
    ([helper; value_sep] ++ flat_map (fun e => [e_key e; described e; value_command e]) l)).
Proof.
  intros Hn Hc Hl. split; [now apply fish_list_right |]. intros ->.
  assert (fish_clean [helper; value_sep; or_empty None]) as Hc' by (intros x Hx; apply Hc; cbn in *; tauto).
  pose proof (fish_pair_right test helper value_sep None l Hn Hc' Hl) as K.
  replace (filter (applies test None (fun _ => or_empty None)) l) with l in K; [exact K |].
  clear. induction l as [| e l IH]; [reflexivity |]. cbn [filter applies]. f_equal. exact IH.
Qed.
Print Assumptions C104_fish_partial.

(** The same for zsh, for keys with harmless characters, and descriptions and actions without
    special backslashes: [_values] reads each argument as the key, its description, what completes its
    value and the keys it excludes. *)
Theorem C104_zsh_list_partial test pair_sep value_sep metavar func l : one_char pair_sep -> one_char value_sep -> hd 0%N metavar <> EQ ->
  (forall e, In e l -> harmless (own_key e) /\ (forall x, In x (e_excludes e) -> harmless x) /\ writable e) ->
  exists args, calls zsh test (zsh_list_code pair_sep value_sep metavar func l) ([s "_values"; s "-s"; pair_sep; s "-S"; value_sep; metavar] ++ args) /\
    map read_value args =
      map (fun e => Some (ValueSpec (e_excludes e) (again e) (own_key e) (shown e) (value_action e))) (filter (applies test func own_key) l).
Proof. exact (zsh_list_right test pair_sep value_sep metavar func l). Qed.
Print Assumptions C104_zsh_list_partial.
Theorem C104_zsh_pair_partial test value_sep metavar func l : one_char value_sep -> hd 0%N metavar <> EQ ->
  (forall e, In e l -> harmless (e_key e) /\ writable e) ->
  exists args, calls zsh test (zsh_pair_code value_sep metavar func l) ([s "_values"; s "-S"; value_sep; metavar] ++ args) /\
    map read_value args = map (fun e => Some (ValueSpec [] false (e_key e) (shown e) (value_action e))) (filter (applies test func e_key) l).
Proof. exact (zsh_pair_right test value_sep metavar func l). Qed.
Print Assumptions C104_zsh_pair_partial.

(** *** Example: mount options *)
Definition ro : entry := Entry (s "ro") (Some (s "read only [no writes]")) NoValue [s "rw"].
Definition rw : entry := Entry (s "rw") None NoValue [s "ro"].
Definition uid : entry := Entry (s "uid") (Some (s "owner's id")) (Completes (s "_tool_uid") (s "_users")) [].
Definition subvol : entry := Entry (s "*subvol") (Some []) AnyValue [].
Definition mount : list entry := [ro; rw; uid; subvol].
Definition no_uid (f key : str) : bool := str_eqb f (s "usable") && negb (str_eqb key (s "uid")).
Example C104_example_bash :
  bash_list_code (s "_tool_kv") (s ",") (s "=") (Some (s "usable")) mount = map s [
    "local -a a=()"; "local c=usable";
    "$c ro && a+=(ro false 'ro rw')"; "$c rw && a+=(rw false 'rw ro')"; "$c uid && a+=(uid _tool_uid uid)"; "$c subvol && a+=(subvol true '')";
    "_tool_kv , = ""${a[@]}"""] /\
  calls bash no_uid (bash_list_code (s "_tool_kv") (s ",") (s "=") (Some (s "usable")) mount)
    (map s ["_tool_kv"; ","; "="; "ro"; "false"; "ro rw"; "rw"; "false"; "rw ro"; "subvol"; "true"; ""]) /\
  remaining_keys (map s ["ro"; "false"; "ro rw"; "rw"; "false"; "rw ro"; "subvol"; "true"; ""]) [s "rw"; s "subvol"] = [s "subvol"] /\
  NoDup (map own_key mount).
Proof.
  split; [reflexivity |]. split; [apply (C104_bash_arguments no_uid (s "_tool_kv")); repeat split; discriminate |]. split; [reflexivity |].
  repeat constructor; cbn; intuition discriminate.
Qed.
Example C104_example_fish :
  fish_list_code (s "_tool_kv") (s ",") (s "=") (Some (s "usable")) mount = map s [
    "set -l a"; "set -l c usable";
    "$c ro && set -a a ro 'read only [no writes]' false 'ro rw'"; "$c rw && set -a a rw '' false 'rw ro'";
    "$c uid && set -a a uid ""owner's id"" _tool_uid uid"; "$c subvol && set -a a subvol '' true ''";
    "_tool_kv , = $a"] /\
  calls fish no_uid (fish_list_code (s "_tool_kv") (s ",") (s "=") (Some (s "usable")) mount)
    (map s ["_tool_kv"; ","; "="; "ro"; "read only [no writes]"; "false"; "ro rw"; "rw"; ""; "false"; "rw ro"; "subvol"; ""; "true"; ""]).
Proof.
  split; [reflexivity |].
  assert (forall xs, forallb (fun x => negb (memc BS x) && negb (memc BTICK x)) xs = true -> fish_clean xs) as K.
  { intros xs H x Hx. rewrite forallb_forall in H. specialize (H x Hx). apply andb_true_iff in H as [H1 H2]. apply negb_true_iff in H1, H2. split; now apply memc_false. }
  apply (C104_fish_partial no_uid (s "_tool_kv") (s ",") (s "=") (Some (s "usable")) mount).
  - repeat split; discriminate.
  - apply K. reflexivity.
  - intros e [<- | [<- | [<- | [<- | []]]]]; apply K; reflexivity.
Qed.
Example C104_example_zsh :
  zsh_list_code (s ",") (s "=") (s "OPTIONS") (Some (s "usable")) mount = map s [
    "local -a a=()"; "local c=usable";
    "$c ro && a+=('(rw)'ro'[read only \[no writes\]]')"; "$c rw && a+=('(ro)'rw)";
    "$c uid && a+=(uid""[owner's id]"":::_users)"; "$c subvol && a+=('*'subvol:::)";
    "_values -s , -S = OPTIONS ""${a[@]}"""] /\
  exists args, calls zsh no_uid (zsh_list_code (s ",") (s "=") (s "OPTIONS") (Some (s "usable")) mount)
    (map s ["_values"; "-s"; ","; "-S"; "="; "OPTIONS"] ++ args) /\
    map read_value args = [
      Some (ValueSpec [s "rw"] false (s "ro") (Some (s "read only [no writes]")) None);
      Some (ValueSpec [s "ro"] false (s "rw") None None);
      Some (ValueSpec [] true (s "subvol") None (Some (true, [], [])))].
Proof.
  split; [reflexivity |].
  apply (C104_zsh_list_partial no_uid (s ",") (s "=") (s "OPTIONS") (Some (s "usable")) mount); [eexists; reflexivity | eexists; reflexivity | vm_compute; discriminate |].
  intros e [<- | [<- | [<- | [<- | []]]]]; (split; [split; [discriminate | reflexivity] |]); (split; [| split; [reflexivity | try exact I]]);
    try (intros x [<- | []]; split; [discriminate | reflexivity]); try (intros x []).
  left. apply memc_false. reflexivity.
Qed.

(** *** Counterexamples: definitions that are accepted *)
Definition accepted (v : value) : Prop := exists t, check_complete e0 (MkCtx None VNone) [] v = Ok t.
Definition plain_key (k : String.string) : value := VList [VStr (s k); VNone; VNone].
Definition pairs (l : list value) (more : list value) : value := VList ([VStr (s "key_value_pair"); VStr (s "="); VList l] ++ more).
Definition pair_list (l : list value) (more : list value) : value := VList ([VStr (s "key_value_list"); VStr (s ","); VStr (s "="); VList l] ++ more).
Definition no_value (k : String.string) (excludes : list str) : entry := Entry (s k) None NoValue excludes.

(** In fish, the condition for a pair is asked about its own name instead of the key. *)
Theorem C104_fish_pair_condition_refuted : exists test,
  accepted (pairs [plain_key "ro"; plain_key "rw"] [VStr (s "usable")]) /\
  filter (applies test (Some (s "usable")) e_key) [no_value "ro" []; no_value "rw" []] = [no_value "ro" []] /\
  calls fish test (fish_pair_code (s "_tool_kv") (s "=") (Some (s "usable")) [no_value "ro" []; no_value "rw" []]) [s "_tool_kv"; s "="].
Proof.
  exists (fun f k => str_eqb f (s "usable") && str_eqb k (s "ro")). split; [eexists; reflexivity |]. split; [reflexivity |].
  assert (forall xs, forallb (fun x => negb (memc BS x) && negb (memc BTICK x)) xs = true -> fish_clean xs) as K.
  { intros xs H x Hx. rewrite forallb_forall in H. specialize (H x Hx). apply andb_true_iff in H as [H1 H2]. apply negb_true_iff in H1, H2. split; now apply memc_false. }
  apply (fish_pair_right (fun f k => str_eqb f (s "usable") && str_eqb k (s "ro")) (s "_tool_kv") (s "=") (Some (s "usable")) [no_value "ro" []; no_value "rw" []]).
  - repeat split; discriminate.
  - apply K. reflexivity.
  - intros e [<- | [<- | []]]; apply K; reflexivity.
Qed.
Print Assumptions C104_fish_pair_condition_refuted.

(** In zsh, the backslash in front of a colon is not quoted: it is gone when [_values] reads the key. *)
Theorem C104_zsh_colon_refuted : exists arg,
  accepted (pair_list [plain_key "dc:title"; plain_key "id"] []) /\
  adds zsh (zsh_list_line None (get_definition (no_value "dc:title" []))) None [arg] /\
  read_value arg = Some (ValueSpec [] false (s "dc") None (Some (false, s "title", []))).
Proof.
  exists (s "dc:title"). split; [eexists; reflexivity |]. split; [| reflexivity].
  change (zsh_list_line None (get_definition (no_value "dc:title" []))) with (opening zsh ++ s "dc\:title" ++ closing zsh).
  apply adds_always. reflexivity.
Qed.
Print Assumptions C104_zsh_colon_refuted.

(** In zsh, keys are not quoted: such a line adds nothing that can be told. *)
Theorem C104_zsh_key_refuted : exists key,
  accepted (pair_list [plain_key key] []) /\
  ~ exists ws, adds zsh (zsh_list_line None (get_definition (no_value key []))) None ws.
Proof.
  exists "level[0]". split; [eexists; reflexivity |]. intros (ws & H). inversion H as [body ws' Hb E |]. subst ws'.
  change (body ++ closing zsh = s "level[0]" ++ closing zsh) in E. apply app_inv_tail in E. subst body. discriminate Hb.
Qed.
Print Assumptions C104_zsh_key_refuted.

(** A key that may be given again cannot be excluded: its own name is no key for the validator, and
    the name with a star is no key for the helper. *)
Theorem C104_excluded_star_refuted :
  (forall t, check_complete e0 (MkCtx None VNone) [] (pair_list [VList [VStr (s "none"); VNone; VNone; VList [VStr (s "opt")]]; plain_key "*opt"] []) <> Ok t) /\
  accepted (pair_list [VList [VStr (s "none"); VNone; VNone; VList [VStr (s "*opt")]]; plain_key "*opt"] []) /\
  let l := [no_value "none" [s "*opt"]; no_value "*opt" []] in
  remaining_keys (flat_map (fun e => [own_key e; value_command e; join [SP] (excluded e)]) l) [s "none"] = [s "opt"].
Proof. split; [intros t H; discriminate H |]. split; [eexists; reflexivity | reflexivity]. Qed.
Print Assumptions C104_excluded_star_refuted.

(** A key with and one without a star: the second entry replaces the first one, and the key is
    offered again. *)
Theorem C104_same_key_refuted :
  accepted (pair_list [plain_key "opt"; plain_key "*opt"] []) /\
  let l := [no_value "opt" []; no_value "*opt" []] in
  ~ to_be_offered (fun _ _ => true) None l [s "opt"] (s "opt") /\
  In (s "opt") (remaining_keys (flat_map (fun e => [own_key e; value_command e; join [SP] (excluded e)]) l) [s "opt"]).
Proof.
  split; [eexists; reflexivity |]. split; [| vm_compute; tauto].
  intros (e & _ & _ & _ & H). apply (H (no_value "opt" [])); [now left | now left | reflexivity | now left].
Qed.
Print Assumptions C104_same_key_refuted.
