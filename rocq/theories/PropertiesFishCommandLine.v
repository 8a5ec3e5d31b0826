(** * Property C126: a command line in one argument, in Fish.  Statements only. *)
From Verif Require Import Base PyStr KeyValueRun KeyValueRunProofs FishCommandLine SpecFishCommandLine FishCommandLineProofs.
Open Scope string_scope.
Open Scope list_scope.
Open Scope nat_scope.

(** C126.  The argument is the beginning of a command line, and its last word is to be completed.  If the
    candidates Fish has for this word begin with what was typed of it, each is offered behind the words in
    front of it, which stay as they were typed; with its description.

    What is missing: candidates that contain blanks, and candidates that do not begin with the word (Fish
    ignores case). *)
Theorem C126_commandline_partial : forall complete before word candidates,
  in_front before -> complete (before ++ word) = map line_of candidates ->
  (forall text description, In (text, description) candidates -> starts_with word text = true /\ ~ In SP text /\ ~ In TAB text) ->
  commandline_string complete (before ++ word) =
    map (fun c => before ++ fst c ++ [TAB] ++ match snd c with Some description => description | None => [] end) candidates.
Proof.
  intros complete before word candidates Hb Hc Hg. unfold commandline_string. rewrite Hc, map_map. apply map_ext_in. intros [text description] I.
  destruct (Hg text description I) as (H1 & H2 & H3).
  assert (before_first TAB (line_of (text, description)) = text /\ after_first TAB (line_of (text, description)) = match description with Some d => d | None => [] end) as [-> ->].
  { destruct description as [d |]; unfold line_of; [now rewrite before_first_app, after_first_app | now apply first_none]. }
  cbv zeta. now rewrite subtract_word.
Qed.
Print Assumptions C126_commandline_partial.
(** C126.  Whatever the candidates are: what is offered ends with the candidate, and in front of it is a
    beginning of what was typed. *)
Theorem C126_beginning : forall complete comp line, In line (commandline_string complete comp) ->
  exists kept rest text description, comp = kept ++ rest /\ starts_with rest text = true /\ line = kept ++ text ++ [TAB] ++ description.
Proof.
  intros complete comp line H. unfold commandline_string in H. apply in_map_iff in H as (l & <- & _). set (t := before_first TAB l).
  assert (forall k, k <= List.length comp -> exists rest, comp = subtract_loop k comp t ++ rest /\ starts_with rest t = true) as K.
  { induction k as [| k IH]; intros L; cbn [subtract_loop]; [exists []; now rewrite app_nil_r |].
    destruct (str_eqb _ _) eqn:E; [| apply IH; lia]. apply str_eqb_eq in E. exists (skipn (List.length comp - S k) comp).
    split; [now rewrite firstn_skipn |]. rewrite E. apply starts_with_app. exists (skipn (S k) t). now rewrite firstn_skipn. }
  destruct (K (Nat.min (List.length comp) (List.length t))) as (rest & E1 & E2); [lia |].
  exists (subtract_prefix_suffix comp t), rest, t, (after_first TAB l). repeat split; assumption.
Qed.
Print Assumptions C126_beginning.

Example C126_example : let complete := fun _ : str => map line_of [(s "checkout", Some (s "Switch branches")); (s "cherry", None)] in
  in_front (s "git -C ../git ") /\
  commandline_string complete (s "git -C ../git ch") = [s "git -C ../git checkout" ++ [TAB] ++ s "Switch branches"; s "git -C ../git cherry" ++ [TAB]] /\
  commandline_string complete [] = [s "checkout" ++ [TAB] ++ s "Switch branches"; s "cherry" ++ [TAB]].
Proof. split; [right; now exists (s "git -C ../git") |]. split; reflexivity. Qed.

(** ** Where C126 is false *)

(** A candidate with a blank: a word that was typed before is lost. *)
Theorem C126_blank_refuted : exists before word text,
  before = s "rm my " /\ word = s "my" /\ text = s "my my.txt" /\ in_front before /\ starts_with word text = true /\
  commandline_string (fun _ => [text]) (before ++ word) = [s "rm my my.txt" ++ [TAB]] /\ s "rm my my.txt" <> before ++ text.
Proof.
  exists (s "rm my "), (s "my"), (s "my my.txt"). do 3 (split; [reflexivity |]). split; [right; now exists (s "rm my") |].
  split; [reflexivity |]. split; [reflexivity |]. vm_compute. discriminate.
Qed.
Print Assumptions C126_blank_refuted.
(** A candidate in another case, which Fish has for what was typed: it is put behind it. *)
Theorem C126_case_refuted : exists before word text,
  before = s "cat " /\ word = s "read" /\ text = s "README" /\ in_front before /\
  commandline_string (fun _ => [text]) (before ++ word) = [s "cat readREADME" ++ [TAB]] /\ s "cat readREADME" <> before ++ text.
Proof.
  exists (s "cat "), (s "read"), (s "README"). do 3 (split; [reflexivity |]). split; [right; now exists (s "cat") |].
  split; [reflexivity |]. vm_compute. discriminate.
Qed.
Print Assumptions C126_case_refuted.
