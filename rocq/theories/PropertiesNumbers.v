(** * Property C125: numbers with suffixes.  Statements only. *)
From Verif Require Import Base PyStr KeyValueRun KeyValueRunProofs SpecNumbers Numbers NumbersProofs.
Open Scope string_scope.
Open Scope list_scope.

(** C125, Bash.  Behind a number, the number and the number with each of the suffixes are offered.

    What is missing: the beginning of a suffix may have been typed (see below); suffixes with colons. *)
Theorem C125_bash_partial : forall helper o n,
  is_number n -> n_suffixes o <> [] -> (forall suffix description, In (suffix, description) (n_suffixes o) -> ~ In COLON suffix) ->
  exists args, bash_number_args helper o = Some (helper :: args) /\
    bash_number n args = n :: map (fun x => n ++ fst x) (n_suffixes o).
Proof.
  intros helper o n [Hn Hf] Ho Hc. exists (suffix_args o). split.
  - unfold bash_number_args. destruct (suffix_args o) eqn:E; [| reflexivity]. unfold suffix_args in E. now apply map_eq_nil in E.
  - unfold bash_number. rewrite <- (app_nil_r n) at 1. rewrite number_part_app; [| exact Hf | exact I].
    destruct n as [| c n]; [contradiction |]. f_equal. apply (suffix_names (fun x => (c :: n) ++ x)). intros [x y] I. now apply (Hc x y).
Qed.
Print Assumptions C125_bash_partial.
(** C125, fish.  Behind a number and whatever was typed of the suffix, the number with each of the suffixes
    is offered, with the description of the suffix.  (Fish leaves out those that do not begin with what was
    typed.) *)
Theorem C125_fish_partial : forall helper o n r,
  is_number n -> ends_number r -> n_suffixes o <> [] -> (forall suffix description, In (suffix, description) (n_suffixes o) -> ~ In COLON suffix) ->
  exists args, fish_number_args helper o = Some (helper :: args) /\
    fish_number (n ++ r) args = map (fun x => n ++ fst x ++ [TAB] ++ snd x) (n_suffixes o).
Proof.
  intros helper o n r [Hn Hf] Hr Ho Hc. exists (suffix_args o). split.
  - unfold fish_number_args. destruct (suffix_args o) eqn:E; [| reflexivity]. unfold suffix_args in E. now apply map_eq_nil in E.
  - unfold fish_number. rewrite number_part_app by assumption. destruct n as [| c n]; [contradiction |]. unfold suffix_args. rewrite map_map.
    apply map_ext_in. intros [x y] I. cbn [fst snd]. now rewrite before_first_app, after_first_app by now apply (Hc x y).
Qed.
Print Assumptions C125_fish_partial.
(** C125.  Without suffixes, and in front of a number, nothing is offered: any text may be typed. *)
Theorem C125_nothing : forall helper o cur args,
  (n_suffixes o = [] -> bash_number_args helper o = None /\ fish_number_args helper o = None) /\
  (ends_number cur -> bash_number cur args = [] /\ fish_number cur args = []).
Proof.
  intros helper o cur args. split.
  - intros H. unfold bash_number_args, fish_number_args, suffix_args. rewrite H. split; reflexivity.
  - intros H. unfold bash_number, fish_number. pose proof (number_part_app [] cur (Forall_nil _) H) as E. cbn [app] in E. rewrite E. split; reflexivity.
Qed.
Print Assumptions C125_nothing.

(** C125, zsh.  The limits, the description and the suffixes are what [_numbers] gets. *)
Theorem C125_zsh_partial : forall float help o,
  let description := match n_help o with Some x => x | None => help end in
  starts_with (s "-") description = false ->
  exists words, zsh_number_args float help o = s "_numbers" :: words /\
    read_numbers (List.length words) (NumbersCall false None None []) words =
      Some (NumbersCall float (n_min o) (n_max o) (description :: map (fun x => fst x ++ s ":" ++ snd x) (n_suffixes o))).
Proof.
  intros float help o description Hd. eexists. split; [reflexivity |]. fold description.
  assert (forall w, starts_with (s "-") w = true -> str_eqb description w = false) as K.
  { intros w Hw. destruct (str_eqb description w) eqn:E; [| reflexivity]. apply str_eqb_eq in E. congruence. }
  assert (forall n c, read_numbers (S n) c (description :: suffix_args o) = Some (NumbersCall (nc_float c) (nc_min c) (nc_max c) (description :: suffix_args o))) as R.
  { intros n c. cbn [read_numbers]. now rewrite !K, Hd by reflexivity. }
  assert (forall n c rest, read_numbers (S n) c (s "-f" :: rest) = read_numbers n (NumbersCall true (nc_min c) (nc_max c) []) rest) as F by reflexivity.
  assert (forall n c x rest, read_numbers (S n) c (s "-l" :: x :: rest) = read_numbers n (NumbersCall (nc_float c) (Some x) (nc_max c) []) rest) as L by reflexivity.
  assert (forall n c x rest, read_numbers (S n) c (s "-m" :: x :: rest) = read_numbers n (NumbersCall (nc_float c) (nc_min c) (Some x) []) rest) as M by reflexivity.
  destruct float, (n_min o) as [mi |], (n_max o) as [ma |]; cbn [app List.length];
    rewrite ?F, ?L, ?M, R; reflexivity.
Qed.
Print Assumptions C125_zsh_partial.

Definition sizes : number_options := NumberOptions (Some (s "1")) (Some (s "100")) None [(s "K", s "kilobytes: 1024"); (s "M", s "megabytes"); (s "MB", [])].
Example C125_example :
  is_number (s "1,5") /\ ends_number (s "M") /\
  (forall suffix description, In (suffix, description) (n_suffixes sizes) -> ~ In COLON suffix) /\
  bash_number (s "1,5") (suffix_args sizes) = map s ["1,5"; "1,5K"; "1,5M"; "1,5MB"] /\
  fish_number (s "1,5M") (suffix_args sizes) = [s "1,5K" ++ [TAB] ++ s "kilobytes: 1024"; s "1,5M" ++ [TAB] ++ s "megabytes"; s "1,5MB" ++ [TAB]] /\
  zsh_number_args true (s "size") sizes = map s ["_numbers"; "-f"; "-l"; "1"; "-m"; "100"; "size"; "K:kilobytes: 1024"; "M:megabytes"; "MB:"].
Proof.
  split; [split; [discriminate |]; repeat (constructor; [apply number_char_In; reflexivity |]); constructor |].
  split; [cbn [ends_number s]; intros H; apply number_char_In in H; discriminate H |].
  split; [intros x y [E | [E | [E | []]]]; injection E as <- _; apply memc_false; reflexivity |].
  repeat split; reflexivity.
Qed.

(** ** Where C125 is false *)

(** In Bash, the replies are not filtered: with a suffix behind the number, there are replies that do not
    begin with what was typed.  Readline replaces the word by what all replies have in common: the suffix
    is taken away. *)
Theorem C125_bash_suffix_refuted : exists cur replies, cur = s "10M" /\ replies = bash_number cur (suffix_args sizes) /\
  replies = map s ["10"; "10K"; "10M"; "10MB"] /\
  (forall common, (forall r, In r replies -> starts_with common r = true) -> ~ starts_with cur common = true).
Proof.
  exists (s "10M"), (map s ["10"; "10K"; "10M"; "10MB"]). split; [reflexivity |]. split; [reflexivity |]. split; [reflexivity |].
  intros common H K. specialize (H (s "10") (or_introl eq_refl)). apply starts_with_app in H as [y H], K as [z K]. subst common. vm_compute in H. discriminate H.
Qed.
Print Assumptions C125_bash_suffix_refuted.
(** A colon in a suffix: the suffix is cut, the rest is shown as description. *)
Theorem C125_colon_refuted : exists o, n_suffixes o = [(s "k:s", s "kilobytes per second")] /\
  bash_number (s "1") (suffix_args o) = [s "1"; s "1k"] /\ fish_number (s "1") (suffix_args o) = [s "1k" ++ [TAB] ++ s "s:kilobytes per second"].
Proof. exists (NumberOptions None None None [(s "k:s", s "kilobytes per second")]). repeat split; reflexivity. Qed.
Print Assumptions C125_colon_refuted.
(** A negative number is a number, but no suffix is offered behind it. *)
Theorem C125_negative_refuted : exists o, n_min o = Some (s "-10") /\ n_suffixes o <> [] /\ bash_number (s "-5") (suffix_args o) = [] /\ fish_number (s "-5") (suffix_args o) = [].
Proof. exists (NumberOptions (Some (s "-10")) None None [(s "K", [])]). repeat split; try reflexivity; discriminate. Qed.
Print Assumptions C125_negative_refuted.
