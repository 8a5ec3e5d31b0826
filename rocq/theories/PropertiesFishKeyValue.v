(** * Property C124: completing keys and values in Fish.  Statements only. *)
From Verif Require Import Base PyStr SpecValueList ValueList ValueListProofs KeyValue SpecKeyValue KeyValueProofs SpecKeyValueRun KeyValueRun KeyValueRunProofs FishKeyValue SpecFishKeyValue FishKeyValueProofs.
Open Scope string_scope.
Open Scope list_scope.

(** C124.  What is to be printed for a key, and for a value: Fish replaces the argument by the text in
    front of the tabulator, and shows the text behind it. *)
Definition candidate (text description : str) : str := text ++ [TAB] ++ description.

(** C124, lists.  Some keys, with or without values, and the beginning of another key were typed.  The keys
    that are left (C104) are offered, in the order of the definition, with their descriptions, behind the
    elements that were typed; the ones that take a value with the separator.  (Fish itself leaves out
    those that do not begin with what was typed.) *)
Theorem C124_keys_partial : forall call sep1 sep2 test func l pairs b,
  sep1 <> sep2 -> Forall (pair_ok sep1 sep2) pairs -> ~ In sep1 b -> ~ In sep2 b ->
  NoDup (map own_key l) -> (forall e, In e l -> own_key e <> []) -> (forall e x, In e l -> In x (excluded e) -> ~ In SP x) ->
  (forall e f a, In e l -> e_completer e = Completes f a -> f <> s "false") ->
  let args := flat_map (fun e => [own_key e; described e; value_command e; join [SP] (excluded e)]) (filter (applies test func own_key) l) in
  exists offered,
    (forall e, In e l -> (offered e = true <-> applies test func own_key e = true /\ to_be_offered test func l (map fst pairs ++ [b]) (own_key e))) /\
    fish_key_value_list call sep1 sep2 args (complete_pairs sep1 sep2 pairs ++ b) =
      map (fun e => candidate (complete_pairs sep1 sep2 pairs ++ own_key e ++ match e_completer e with NoValue => [] | _ => [sep2] end) (described e)) (filter offered l).
Proof.
  intros call sep1 sep2 test func l pairs b Hs Hp H1 H2 Hd Hn He Hf args.
  exists (fun e => applies test func own_key e && negb (blocked (map info_of (filter (applies test func own_key) l)) (map fst pairs ++ [b]) (own_key e))). split.
  - intros e I. rewrite andb_true_iff, negb_true_iff. assert (forall P Q R : Prop, (P -> (Q <-> R)) -> (P /\ Q <-> P /\ R)) as K by tauto. apply K. intros A. now apply blocked_told.
  - unfold fish_key_value_list, args. rewrite quads_told. rewrite fish_keys; try assumption.
    + rewrite filter_map'.
      assert (forall g : entry -> bool, filter g (filter (applies test func own_key) l) = filter (fun e => applies test func own_key e && g e) l) as F.
      { clear. intros g. induction l as [| a l IH]; [reflexivity |]. cbn [filter]. destruct (applies test func own_key a); cbn [filter andb]; now rewrite IH. }
      rewrite F. clear F. change (fun e => k_key (info_of e)) with own_key.
      rewrite map_map. apply map_ext_in. intros e I. apply filter_In in I as [I _]. unfold key_line, candidate, info_of. cbn [k_key k_value k_description].
      assert ((if negb (str_eqb (value_command e) (s "false")) then [sep2] else []) = match e_completer e with NoValue => [] | _ => [sep2] end) as ->; [| now rewrite <- !app_assoc].
      unfold value_command. destruct (e_completer e) as [| | f a] eqn:E; [reflexivity | reflexivity |]. destruct (str_eqb f (s "false")) eqn:Ef; [| reflexivity].
      apply str_eqb_eq in Ef. now apply (Hf e f a) in E.
    + rewrite map_map. change (fun x => k_key (info_of x)) with own_key. now apply NoDup_filter_map.
Qed.
Print Assumptions C124_keys_partial.

(** C124, lists.  Behind a key and the separator, the completer of this key is asked for the value that
    was typed, and what it prints is offered behind the key.

    What is missing: a value that contains the separator. *)
Theorem C124_value_partial : forall call sep1 sep2 test func l pairs e v,
  sep1 <> sep2 -> Forall (pair_ok sep1 sep2) pairs -> In e l -> applies test func own_key e = true -> NoDup (map own_key l) ->
  ~ In sep1 (own_key e) -> ~ In sep2 (own_key e) -> ~ In sep1 v -> ~ In sep2 v ->
  let args := flat_map (fun e => [own_key e; described e; value_command e; join [SP] (excluded e)]) (filter (applies test func own_key) l) in
  fish_key_value_list call sep1 sep2 args (complete_pairs sep1 sep2 pairs ++ own_key e ++ [sep2] ++ v) =
    map (fun line => complete_pairs sep1 sep2 pairs ++ own_key e ++ [sep2] ++ line) (call (value_command e) v).
Proof.
  intros call sep1 sep2 test func l pairs e v Hs Hp I A Hd H1 H2 H3 H4 args. unfold fish_key_value_list, args. rewrite quads_told.
  rewrite fish_value; try assumption. unfold call_for_key. rewrite function_told; [| now apply NoDup_filter_map | now apply filter_In].
  rewrite stripped_value by exact H4. apply map_ext. intros x. now rewrite <- !app_assoc.
Qed.
Print Assumptions C124_value_partial.

(** *** Examples: mount options *)
Definition mount_ro : entry := Entry (s "ro") (Some (s "read only")) NoValue [s "rw"].
Definition mount_rw : entry := Entry (s "rw") None NoValue [s "ro"].
Definition mount_uid : entry := Entry (s "uid") (Some (s "owner")) (Completes (s "users") []) [].
Definition mount_subvol : entry := Entry (s "*subvol") (Some []) AnyValue [].
Definition mount_keys : list entry := [mount_ro; mount_rw; mount_uid; mount_subvol].
Definition mount_arguments : list str := flat_map (fun e => [own_key e; described e; value_command e; join [SP] (excluded e)]) mount_keys.
Definition user_lines (func value : str) : list str := if str_eqb func (s "users") then filter (starts_with value) [candidate (s "anna") (s "Anna A."); s "bob"] else [].
Example C124_keys_example :
  Forall (pair_ok 44%N 61%N) [(s "subvol", Some (s "a")); (s "ro", None)] /\ NoDup (map own_key mount_keys) /\
  (forall e, In e mount_keys -> own_key e <> []) /\ (forall e x, In e mount_keys -> In x (excluded e) -> ~ In SP x) /\
  (forall e f a, In e mount_keys -> e_completer e = Completes f a -> f <> s "false") /\
  complete_pairs 44%N 61%N [(s "subvol", Some (s "a")); (s "ro", None)] ++ s "s" = s "subvol=a,ro,s" /\
  fish_key_value_list user_lines 44%N 61%N mount_arguments (s "subvol=a,ro,s") = [candidate (s "subvol=a,ro,uid=") (s "owner"); candidate (s "subvol=a,ro,subvol=") []].
Proof.
  split; [repeat constructor; cbn; intuition discriminate |]. split; [repeat constructor; cbn; intuition discriminate |].
  split; [intros e H; repeat (destruct H as [<- | H]; [discriminate |]); destruct H |].
  split; [intros e x H; repeat (destruct H as [<- | H]; [intros J; cbn [excluded e_excludes mount_ro mount_rw mount_uid mount_subvol] in J; apply memc_false; revert x J; apply Forall_forall; cbn; repeat constructor |]); destruct H |].
  split; [intros e f a H; repeat (destruct H as [<- | H]; [cbn; intros E; first [discriminate E | injection E as <- <-; discriminate] |]); destruct H |]. split; reflexivity.
Qed.
Example C124_value_example : fish_key_value_list user_lines 44%N 61%N mount_arguments (s "ro,uid=a") = [candidate (s "ro,uid=anna") (s "Anna A.")].
Proof. reflexivity. Qed.

(** C124, lists whose keys a command prints; here, keys may be without description. *)
Theorem C124_exec_keys_partial : forall sep1 sep2 l func_for pairs b,
  sep1 <> sep2 -> Forall (pair_ok sep1 sep2) pairs -> ~ In sep1 b -> ~ In sep2 b -> Forall fine_key l -> NoDup (map p_key l) ->
  exists offered,
    (forall p, In p l -> (offered p = true <-> left l (map fst pairs ++ [b]) (p_key p))) /\
    fish_key_value_list_exec sep1 sep2 (map text_line l) func_for (complete_pairs sep1 sep2 pairs ++ b) =
      map (fun p => candidate (complete_pairs sep1 sep2 pairs ++ p_key p ++ if str_eqb (p_takes p) (s "=") then [sep2] else []) (p_description p)) (filter offered l).
Proof.
  intros sep1 sep2 l func_for pairs b Hs Hp H1 H2 Hl Hd. exists (fun p => negb (blocked (map info_printed l) (map fst pairs ++ [b]) (p_key p))). split.
  - intros p I. rewrite negb_true_iff. now apply blocked_printed.
  - unfold fish_key_value_list_exec. rewrite infos_read by (apply Forall_map, Forall_forall; intros p _; apply text_line_tab). rewrite map_map. assert (map (fun x => printed_info (text_line x)) l = map info_printed l) as ->.
    { apply map_ext_in. intros p I. apply fish_read. now apply (proj1 (Forall_forall _ _) Hl). }
    rewrite fish_keys; try assumption.
    + rewrite filter_map', map_map. apply map_ext. intros p. unfold key_line, candidate, info_printed. cbn [k_key k_value k_description]. now rewrite <- !app_assoc.
    + rewrite map_map. exact Hd.
Qed.
Print Assumptions C124_exec_keys_partial.
Theorem C124_exec_value : forall sep1 sep2 lines func_for pairs k v,
  sep1 <> sep2 -> Forall (pair_ok sep1 sep2) pairs -> ~ In sep1 k -> ~ In sep2 k -> ~ In sep1 v ->
  fish_key_value_list_exec sep1 sep2 lines func_for (complete_pairs sep1 sep2 pairs ++ k ++ [sep2] ++ v) =
    map (fun line => complete_pairs sep1 sep2 pairs ++ k ++ [sep2] ++ line) (func_for k).
Proof.
  intros sep1 sep2 lines func_for pairs k v Hs Hp H1 H2 H3. unfold fish_key_value_list_exec. rewrite fish_value by assumption.
  apply map_ext. intros x. now rewrite <- !app_assoc.
Qed.
Print Assumptions C124_exec_value.
Definition listed : list printed :=
  [Printed (s "flag") false [] (s "option without an argument") []; Printed (s "argument") false (s "=") [] [];
   Printed (s "optional") false (s "=?") (s "optional argument") []; Printed (s "repeatable") true [] (s "again") []; Printed (s "excludes") false [] [] [s "flag"; s "argument"]].
Example C124_exec_example : Forall fine_key listed /\ NoDup (map p_key listed) /\
  fish_key_value_list_exec 44%N 61%N (map text_line listed) (fun _ => []) (s "repeatable,excludes,") =
    [candidate (s "repeatable,excludes,optional") (s "optional argument"); candidate (s "repeatable,excludes,repeatable") (s "again")] /\
  fish_key_value_list_exec 44%N 61%N (map text_line listed) (fun _ => []) [] =
    [candidate (s "flag") (s "option without an argument"); candidate (s "argument=") []; candidate (s "optional") (s "optional argument");
     candidate (s "repeatable") (s "again"); candidate (s "excludes") []] /\
  fish_key_value_list_exec 44%N 61%N (map text_line listed) (fun k => [k ++ s "1"]) (s "flag,argument=") = [s "flag,argument=argument1"].
Proof. split; [repeat constructor; cbn; intuition discriminate |]. split; [repeat constructor; cbn; intuition discriminate |]. repeat split. Qed.

(** C124, pairs. *)
Theorem C124_pair_partial : forall call sep l,
  (forall e f a, In e l -> e_completer e = Completes f a -> f <> s "false") -> NoDup (map e_key l) ->
  let args := flat_map (fun e => [e_key e; described e; value_command e]) l in
  (forall b, ~ In sep b -> fish_key_value_pair call sep args b =
     map (fun e => candidate (e_key e ++ match e_completer e with NoValue => [] | _ => [sep] end) (described e)) l) /\
  (forall e v, In e l -> ~ In sep (e_key e) -> ~ In sep v -> fish_key_value_pair call sep args (e_key e ++ [sep] ++ v) =
     map (fun line => e_key e ++ [sep] ++ line) (call (value_command e) v)).
Proof.
  intros call sep l Hf Hd args. unfold fish_key_value_pair, args. rewrite fish_triples_told. cbv zeta. unfold pair_lines. split.
  - intros b Hb. rewrite (proj2 (memc_false sep b) Hb), map_map. apply map_ext_in. intros e I. unfold key_line, candidate. cbn [k_key k_value k_description app].
    assert ((if negb (str_eqb (value_command e) (s "false")) then [sep] else []) = match e_completer e with NoValue => [] | _ => [sep] end) as ->; [| now rewrite <- !app_assoc].
    unfold value_command. destruct (e_completer e) as [| | f a] eqn:E; [reflexivity | reflexivity |]. destruct (str_eqb f (s "false")) eqn:Ef; [| reflexivity].
    apply str_eqb_eq in Ef. now apply (Hf e f a) in E.
  - intros e v I Hk Hv. rewrite memc_sep, before_first_app by exact Hk. f_equal. unfold call_for_key.
    set (g := fun e => KeyInfo _ _ _ _ _). assert (function_for (map g l) (e_key e) = Some (value_command e)) as ->.
    { clear Hf args. unfold function_for. induction l as [| a l IH]; [destruct I |]. cbn [map] in Hd. inversion Hd as [| ? ? N1 N2]; subst. cbn [map find].
      change (k_key (g a)) with (e_key a). destruct (str_eqb (e_key a) (e_key e)) eqn:E.
      - destruct I as [-> | I]; [reflexivity |]. apply str_eqb_eq in E. exfalso. apply N1. rewrite E. now apply in_map.
      - destruct I as [-> | I]; [rewrite str_eqb_refl in E; discriminate |]. now apply IH. }
    f_equal. apply after_last_app; [apply memc_In; now left |]. intros d Id. apply memc_false. intros [<- | []]. contradiction.
Qed.
Print Assumptions C124_pair_partial.
Theorem C124_pair_exec : forall sep lines func_for,
  (forall b, ~ In sep b -> fish_key_value_pair_exec sep lines func_for b = lines) /\
  (forall k v, ~ In sep k -> fish_key_value_pair_exec sep lines func_for (k ++ [sep] ++ v) = map (fun line => k ++ [sep] ++ line) (func_for k)).
Proof.
  intros sep lines func_for. unfold fish_key_value_pair_exec, pair_lines. split.
  - intros b H. now rewrite (proj2 (memc_false sep b) H).
  - intros k v H. now rewrite memc_sep, before_first_app.
Qed.
Print Assumptions C124_pair_exec.
Example C124_pair_example : let args := flat_map (fun e => [e_key e; described e; value_command e]) [mount_ro; mount_uid] in
  fish_key_value_pair user_lines 61%N args (s "u") = [candidate (s "ro") (s "read only"); candidate (s "uid=") (s "owner")] /\
  fish_key_value_pair user_lines 61%N args (s "uid=b") = [s "uid=bob"] /\
  fish_key_value_pair_exec 61%N [candidate (s "k") (s "d")] (fun k => [k ++ s "v"]) (s "k=") = [s "k=kv"].
Proof. repeat split. Qed.

(** ** Where C124 is false *)

(** The separator in the value: the completer is asked for what is behind the last one, and its answer
    replaces the whole value. *)
Theorem C124_value_separator_refuted : exists call,
  call = (fun _ value => map (app value) [s "1"; s "2"]) /\
  fish_key_value_list call 44%N 61%N (map s ["mode"; ""; "choices"; ""]) (s "mode=a=b") = [s "mode=b1"; s "mode=b2"] /\
  fish_key_value_list call 44%N 61%N (map s ["mode"; ""; "choices"; ""]) (s "mode=ab") = [s "mode=ab1"; s "mode=ab2"].
Proof. eexists. split; [reflexivity |]. split; reflexivity. Qed.
Print Assumptions C124_value_separator_refuted.
(** A key that is typed completely counts as given: it is not offered. *)
Theorem C124_complete_key_refuted : exists arg, arg = s "uid" /\ In arg (map own_key mount_keys) /\
  ~ In (candidate (s "uid=") (s "owner")) (fish_key_value_list user_lines 44%N 61%N mount_arguments arg) /\
  In (candidate (s "uid=") (s "owner")) (fish_key_value_list user_lines 44%N 61%N mount_arguments (s "ui")).
Proof.
  exists (s "uid"). split; [reflexivity |]. split; [right; right; now left |].
  split; [| right; right; now left].
  intros H. repeat (destruct H as [H | H]; [vm_compute in H; discriminate H |]). destruct H.
Qed.
Print Assumptions C124_complete_key_refuted.
(** If a command prints a line without a tabulator, the descriptions of the keys behind it move up. *)
Theorem C124_exec_tabulator_refuted : exists lines, lines = [s "flag"; s "uid=" ++ [TAB] ++ s "owner"; s "gid=" ++ [TAB] ++ s "group"] /\
  fish_key_value_list_exec 44%N 61%N lines (fun _ => []) [] = [candidate (s "flag") (s "owner"); candidate (s "uid=") (s "group"); candidate (s "gid=") []].
Proof. eexists. split; reflexivity. Qed.
Print Assumptions C124_exec_tabulator_refuted.
