(** * C139: the manual *)
From Coq Require Import String.
From Verif Require Import Base StrUtils StrUtilsProofs Manual SpecManual ManualProofs.
Open Scope string_scope.
Open Scope list_scope.

Lemma find_entry commands e : NoDup (map e_command commands) -> In e commands ->
  find (fun x => str_eqb (e_command x) (e_command e)) commands = Some e.
Proof.
  induction commands as [|x commands IH]; [intros _ []|]. cbn [map find]. intros D H. apply NoDup_cons_iff in D as (N & D).
  destruct H as [-> | H]; [now rewrite str_eqb_refl|].
  destruct (str_eqb (e_command x) (e_command e)) eqn:E; [|now apply IH].
  apply str_eqb_eq in E. exfalso. apply N. rewrite E. now apply in_map.
Qed.
Lemma topic_page commands colors e : NoDup (map e_command commands) -> In e commands ->
  help_topic commands colors (e_command e) = page_of colors e.
Proof. intros D H. unfold help_topic, help_for_command. now rewrite (find_entry commands e D H). Qed.

(** The page of a completer shows its name, its description, its example and output line by line, all
    notes, the shells that have it, and all completers to see also. *)
Theorem C139_page : forall commands colors e, NoDup (map e_command commands) -> In e commands ->
  let page := help_topic commands colors (e_command e) in
  shows page (e_command e) /\ shows page (e_short e) /\
  (forall long, e_long e = Some long -> long <> [] -> shows_lines page (if colors then e_long_colored e else long)) /\
  shows_lines page (if colors then e_definition_colored e else e_definition e) /\
  shows_lines page (e_output e) /\
  (forall note, In note (e_notes e) -> shows page note) /\
  (List.length (e_implemented e) <= 2 -> forall shell, In shell (e_implemented e) -> shows page shell) /\
  (forall name text, In (name, text) (e_also e) -> is_name name -> ends_visibly text -> shows page name /\ shows page text).
Proof. intros commands colors e D H. rewrite (topic_page commands colors e D H). apply page_shows. Qed.
Print Assumptions C139_page.

(** Outside of a terminal no control sequence is printed, whatever the topic is. *)
Theorem C139_no_colors : forall commands topic, (forall e, In e commands -> no_escapes e) ->
  no_escape (help_topic commands false topic).
Proof.
  intros commands topic H. unfold help_topic, help_for_command.
  destruct (find (fun x => str_eqb (e_command x) topic) commands) as [e|] eqn:E.
  - apply find_some in E as (I & _). apply page_plain. now apply H.
  - repeat apply esc_app; try lit. apply esc_indent.
    destruct (join_with_wrap_plain [SP] [LF] 40 (map e_command commands) []) as (ls & Q & H1 & _). rewrite Q.
    apply esc_join; [lit|]. intros x X. apply in_map_iff in X as (l & <- & L). cbn [app]. apply esc_join; [lit|].
    intros y Y. assert (I : In y (map e_command commands)) by (rewrite <- H1; apply in_concat; now exists l).
    apply in_map_iff in I as (e & <- & I). destruct (H e I) as (C & _). exact C.
Qed.
Print Assumptions C139_no_colors.

(** For any other topic the names of all completers are listed: each once, in order, and nothing else. *)
Theorem C139_other_topic : forall commands colors topic, ~ In topic (map e_command commands) ->
  (forall name, In name (map e_command commands) -> is_name name) ->
  exists heading listing, help_topic commands colors topic = heading ++ listing /\
    heading = s "Topic not found" ++ [LF; LF] ++ s "Available completers:" ++ [LF] /\
    words_in listing = map e_command commands.
Proof.
  intros commands colors topic N H. exists (s "Topic not found" ++ [LF; LF] ++ s "Available completers:" ++ [LF]).
  exists (indent (join_with_wrap [SP] [LF] 40 (map e_command commands) []) 4 ++ [LF]). split; [|split; [reflexivity|]].
  - unfold help_topic, help_for_command. destruct (find (fun x => str_eqb (e_command x) topic) commands) as [e|] eqn:E; [|reflexivity].
    apply find_some in E as (I & E). apply str_eqb_eq in E. exfalso. apply N. rewrite <- E. now apply in_map.
  - rewrite <- (listed (map e_command commands) H) at 2. generalize (indent (join_with_wrap [SP] [LF] 40 (map e_command commands) []) 4).
    intros x. unfold words_in.
    assert (E : split_c LF (x ++ [LF]) = split_c LF x ++ [[]]).
    { induction x as [|c x IH]; [reflexivity|]. cbn [app split_c]. rewrite IH. destruct (split_c LF x) as [|w ws] eqn:Q; [exfalso; exact (split_c_nonnil _ _ Q)|].
      cbn [app]. destruct (N.eqb c LF); reflexivity. }
    rewrite E, map_app, concat_app, filter_app. cbn [map concat split_c app filter]. now rewrite app_nil_r.
Qed.
Print Assumptions C139_other_topic.

(** Cases: two entries *)
Definition card : entry := Entry (s "alsa_card") (s "Complete an ALSA card") None [] (s "prog: x" ++ [LF] ++ s "options:" ++ [LF])
  (ESC :: s "[94mprog") (s "~ > example <TAB>" ++ [LF] ++ s "0  1" ++ [LF]) [s "Needs aplay"] [s "Fish"; s "Zsh"] [(s "alsa_device", s "For a device")].
Definition device : entry := Entry (s "alsa_device") (s "Complete an ALSA device") (Some (s "Long")) (s "Long") (s "prog: x") (s "prog: x") (s "out") [] [] [].
Example C139_example :
  NoDup (map e_command [card; device]) /\ no_escapes device /\ is_name (s "alsa_device") /\ ends_visibly (s "For a device") /\
  shows (help_topic [card; device] false (s "alsa_card")) (s "    - This completer is currently only implemented in Fish and Zsh" ++ [LF]) /\
  help_topic [card; device] true (s "all") = s "Topic not found" ++ [LF; LF] ++ s "Available completers:" ++ [LF] ++ s "    alsa_card alsa_device" ++ [LF].
Proof.
  split; [|split; [|split; [|split; [|split]]]].
  - repeat constructor; cbn [In map]; intros H; repeat destruct H as [H | H]; try discriminate H; exact H.
  - split; [lit|]. split; [lit|]. split; [intros l [= <-]; lit|]. split; [lit|]. split; [lit|].
    split; [intros x [] | intros a b []].
  - split; [discriminate|]. intros c C.
    assert (F : forallb (fun c => negb (is_space c)) (s "alsa_device") = true) by reflexivity.
    rewrite forallb_forall in F. specialize (F c C). now destruct (is_space c).
  - exists (s "For a devic"), 101%N. now split.
  - apply contains_iff. vm_compute. reflexivity.
  - vm_compute. reflexivity.
Qed.
