(** * C141: locales, character sets and time zones *)
From Coq Require Import String.
From Verif Require Import Base StrUtils StrUtilsProofs PyStr Exec SystemLists PreprocProofs MimeFileProofs SpecMimeFile SpecChoices
  UidList PropertiesUidList NameLists SpecNameLists.
Open Scope string_scope.
Open Scope list_scope.

Lemma name_ok x c : a_name x -> name_character c = false -> ~ In c x.
Proof. intros (_ & F) E H. rewrite (F _ H) in E. discriminate. Qed.
Lemma ws_lines names : Forall a_name names -> split_ws (print_lines names) = names.
Proof.
  unfold split_ws, print_lines. induction 1 as [|x l (N & F) H IH]; [reflexivity|]. cbn [flat_map]. rewrite <- app_assoc.
  rewrite split_ws_aux_word.
  - rewrite app_nil_r. change ([LF] ++ flat_map (fun x0 => x0 ++ [LF]) l) with ([LF] ++ flat_map (fun x0 : str => x0 ++ [LF]) l).
    rewrite split_ws_aux_space; [|reflexivity|discriminate|].
    + now rewrite rev_involutive, IH.
    + intros E. apply N. rewrite <- (rev_involutive x), E. reflexivity.
  - apply forallb_forall. intros c C. specialize (F c C). unfold name_character in F. apply andb_true_iff in F. tauto.
Qed.

(** Bash offers exactly the names that begin with the typed word; Zsh offers all names. *)
Theorem C141_names : forall names cur, Forall a_name names ->
  bash_names (print_lines names) cur = filter (starts_with cur) names /\
  map zsh_describe (zsh_names (print_lines names)) = map (fun x => (x, [])) names.
Proof.
  intros names cur H. split.
  - unfold bash_names, SystemLists.compgen_words. cbn [join]. now rewrite ws_lines.
  - unfold zsh_names, print_lines. rewrite Forall_forall in H. rewrite items_words.
    + apply map_ext_in. intros x X. specialize (H x X). unfold zsh_describe.
      assert (C : ~ In COLON x) by (apply (name_ok x COLON H); reflexivity).
      assert (B : ~ In BS x) by (apply (name_ok x BS H); reflexivity).
      rewrite <- (app_nil_r x) at 1. rewrite (ZshSpecs.upto_free COLON x C []) by now left. cbn [tl]. now rewrite (no_backslash x B).
    + intros x X. specialize (H x X). split; [apply H|]. repeat split; apply (name_ok x _ H); reflexivity.
Qed.
Print Assumptions C141_names.

Lemma skipped old new a x : forall k, k = List.length a -> replace_loop old new k (a ++ x) = replace_loop old new 0 x.
Proof. induction a as [|c a IH]; intros k ->; [reflexivity|]. cbn [List.length app replace_loop]. now apply IH. Qed.
Lemma not_there old new x : contains old x = false -> replace_loop old new 0 x = x.
Proof.
  induction x as [|c x IH]; intros H; [reflexivity|]. cbn [contains] in H. apply orb_false_elim in H as [H1 H2]. cbn [replace_loop]. rewrite H1.
  now rewrite IH.
Qed.
Lemma cut old x : old <> [] -> contains old x = false -> replace_s old [] (old ++ x) = x.
Proof.
  intros N H. destruct old as [|c a]; [congruence|]. unfold replace_s. cbn [app replace_loop].
  assert (E : starts_with (c :: a) (c :: a ++ x) = true) by (apply starts_with_app; now exists x). rewrite E. cbn [app List.length].
  rewrite Nat.sub_succ, Nat.sub_0_r. rewrite skipped by reflexivity. now apply not_there.
Qed.

(** The zones are those that [timedatectl] prints; without it they are the files, as far as they are not
    there again.  Missing: other files whose name begins with [posix] or [right]; files that are no zones. *)
Theorem C141_timezones_partial : forall zones files output,
  Forall (fun x => ~ In LF x) (zones ++ files) ->
  timezone_list (true, print_lines zones) output = zones /\
  ((forall x, In x files -> contains (s "/usr/share/zoneinfo/") x = false) ->
   (forall x, In x files -> (exists y, x = s "posix" ++ y \/ x = s "right" ++ y) -> again x) ->
   forall x, In x (timezone_list (false, []) (print_lines (map zone_file files))) <-> In x files /\ ~ again x).
Proof.
  intros zones files output L. apply Forall_app in L as (Lz & Lf). split.
  - unfold timezone_list. rewrite app_nil_r. now apply read_print.
  - intros C P x. unfold timezone_list. change (read_lines []) with (@nil str). cbn [app]. rewrite read_print.
    + rewrite map_map.
      assert (E : map (fun y => replace_s (s "/usr/share/zoneinfo/") [] (zone_file y)) files = files).
      { rewrite <- (map_id files) at 2. apply map_ext_in. intros y Y. apply cut; [discriminate|]. now apply C. }
      rewrite E, filter_In, negb_true_iff. split.
      * intros (I & F). split; [exact I|]. intros (y & Y). apply orb_false_elim in F as (F1 & F2). destruct Y as [-> | ->].
        -- assert (Q : starts_with (s "posix") (s "posix/" ++ y) = true) by (apply starts_with_app; exists (s "/" ++ y); reflexivity). congruence.
        -- assert (Q : starts_with (s "right") (s "right/" ++ y) = true) by (apply starts_with_app; exists (s "/" ++ y); reflexivity). congruence.
      * intros (I & N). split; [exact I|]. apply orb_false_intro.
        -- destruct (starts_with (s "posix") x) eqn:S; [|reflexivity]. apply starts_with_app in S as (y & Y). exfalso. apply N. apply (P x I). exists y. now left.
        -- destruct (starts_with (s "right") x) eqn:S; [|reflexivity]. apply starts_with_app in S as (y & Y). exfalso. apply N. apply (P x I). exists y. now right.
    + apply Forall_map. eapply Forall_impl; [|exact Lf]. intros y Y. unfold zone_file. rewrite in_app_iff. intros [X | X]; [|exact (Y X)].
      revert X. apply memc_false. reflexivity.
Qed.
Print Assumptions C141_timezones_partial.

(** Without [timedatectl] a file that only begins like these folders is not listed. *)
Theorem C141_posixrules_refuted : exists files x, In x files /\ ~ again x /\
  ~ In x (timezone_list (false, []) (print_lines (map zone_file files))).
Proof.
  exists [s "Europe/Berlin"; s "posixrules"], (s "posixrules"). split; [right; now left|]. split.
  - intros (y & [E | E]); apply f_equal with (f := fun l => nth 5 l 0%N) in E; discriminate E.
  - intros H. apply mems_In in H. vm_compute in H. discriminate H.
Qed.
Print Assumptions C141_posixrules_refuted.

(** Cases *)
Example C141_example :
  Forall a_name [s "UTF-8"; s "ISO-8859-1"; s "UTF-16"] /\
  bash_names (print_lines [s "UTF-8"; s "ISO-8859-1"; s "UTF-16"]) (s "U") = [s "UTF-8"; s "UTF-16"] /\
  timezone_list (false, []) (print_lines (map zone_file [s "Europe/Berlin"; s "posix/Europe/Berlin"; s "UTC"; s "right/UTC"])) = [s "Europe/Berlin"; s "UTC"] /\
  again (s "right/UTC") /\ contains (s "/usr/share/zoneinfo/") (s "Europe/Berlin") = false.
Proof.
  split; [|split; [vm_compute; reflexivity|split; [vm_compute; reflexivity|split; [exists (s "UTC"); now right|reflexivity]]]].
  repeat constructor; try discriminate; apply forallb_forall; reflexivity.
Qed.
