(** * Theorems about wrapped commands in zsh: C109. *)
From Verif Require Import Base PyStr Value Cli SpecCli ZshWrapper SpecZshWrapper ZshWrapperProofs.
From Coq Require Import Lia.
Open Scope string_scope. Open Scope list_scope.

(** ** Examples *)
Definition own_option (strings : list str) (complete : option (list value)) (optional : bool) : opt :=
  MkOpt strings None None complete false None optional XInherit false false None None SepInherit.
Definition user_option : opt := own_option [s "-u"; s "--user"; s "-login"] (Some [VStr (s "user")]) false.
Definition quiet_option : opt := own_option [s "-q"; s "--quiet"] None false.
Definition color_option : opt := own_option [s "-c"; s "--color"] (Some [VStr (s "none")]) true.
Definition as_options : list opt := [user_option; quiet_option; color_option].

Lemma simple_letter c : existsb (N.eqb c) (s "[]^\'-") = false -> simple_string [DASH; c].
Proof.
  intros H. left. exists c. split; [reflexivity|]. intros Hi. assert (existsb (N.eqb c) (s "[]^\'-") = true) as E; [|congruence].
  apply existsb_exists. exists c. split; [exact Hi|apply N.eqb_refl].
Qed.
Lemma simple_long_name c n : N.eqb c DASH = false -> forallb name_char (c :: n) = true -> simple_string (DASH :: DASH :: c :: n).
Proof.
  intros Hc H. right. exists c, n. split; [right; reflexivity|]. split; [apply N.eqb_neq, Hc|]. apply Forall_forall. rewrite forallb_forall in H. exact H.
Qed.
Lemma simple_old_name c d n : N.eqb c DASH = false -> forallb name_char (c :: d :: n) = true -> simple_string (DASH :: c :: d :: n).
Proof.
  intros Hc H. right. exists c, (d :: n). split; [left; split; [reflexivity|discriminate]|]. split; [apply N.eqb_neq, Hc|]. apply Forall_forall. rewrite forallb_forall in H. exact H.
Qed.
Lemma as_simple : simple_options as_options.
Proof.
  intros o x [<-|[<-|[<-|[]]]] Hx.
  - destruct Hx as [<-|[<-|[<-|[]]]]; [apply simple_letter; reflexivity|apply simple_long_name; reflexivity|apply simple_old_name; reflexivity].
  - destruct Hx as [<-|[<-|[]]]; [apply simple_letter; reflexivity|apply simple_long_name; reflexivity].
  - destruct Hx as [<-|[<-|[]]]; [apply simple_letter; reflexivity|apply simple_long_name; reflexivity].
Qed.
Lemma as_consistent : consistent as_options.
Proof.
  intros o o' x Ho Ho' Hx Hx'.
  destruct Ho as [<-|[<-|[<-|[]]]], Ho' as [<-|[<-|[<-|[]]]]; try reflexivity; exfalso; cbn in Hx, Hx';
    repeat match goal with H : _ \/ _ |- _ => destruct H as [H|H] | H : False |- _ => destruct H end; subst x; discriminate.
Qed.

(** ** C109 *)

(** Every command line can be read in exactly one way. *)
Theorem C109_reading : forall options ws, simple_options options -> consistent options -> exists! m, reading options ws m.
Proof.
  intros options ws Hs Hc. destruct (reading_exists options Hs (List.length ws) ws (le_n _)) as (m & H). exists m. split; [exact H|].
  intros m' H'. exact (reading_unique options Hs Hc ws m m' H H').
Qed.
Print Assumptions C109_reading.
(** If the word that is being completed does not belong to the program's own options, then the other
    command's completion sees its own name, the words before and after that do not belong to the program's
    own options, and the cursor at the same word.
    Missing: the words after [--], and the case that the word belongs to an option (see below). *)
Theorem C109_wrapped_partial : forall options wraps prog pre cur post m1 m2,
  simple_options options -> consistent options -> ~ (exists t, prog = DASH :: t) ->
  reading options (pre ++ cur :: post) (m1 ++ true :: m2) -> List.length m1 = List.length pre ->
  wrapped options wraps (prog :: pre ++ cur :: post) (2 + List.length pre)
  = (wraps :: passed_on m1 pre ++ cur :: passed_on m2 post, 2 + List.length (passed_on m1 pre)).
Proof. intros options wraps prog pre cur post m1 m2 Hs Hc. exact (wrapped_ok options Hs Hc wraps prog pre cur post m1 m2). Qed.
Print Assumptions C109_wrapped_partial.

(** [as -qu bob --color git --user=al -loginx -login eve sta<cursor> -qc8 -v] *)
Definition as_words : list str := map s ["-qu"; "bob"; "--color"; "git"; "--user=al"; "-loginx"; "-login"; "eve"]%string.
Definition as_post : list str := map s ["-qc8"; "-v"]%string.
Definition as_marks : list bool := [false; false; false; true; false; true; false; false].
Example C109_example : reading as_options (as_words ++ s "sta" :: as_post) (as_marks ++ true :: [false; true]) /\
  wrapped as_options (s "env") (s "as" :: as_words ++ s "sta" :: as_post) 10 = (map s ["env"; "git"; "-loginx"; "sta"; "-v"]%string, 4).
Proof.
  assert (reading as_options (as_words ++ s "sta" :: as_post) (as_marks ++ true :: [false; true])) as H.
  { assert (forall w, match classify as_options w with Keep => ~ own_alone as_options w /\ ~ own_waits as_options w | One => own_alone as_options w | Two => own_waits as_options w end) as C
      by (intros w; exact (classify_ok as_options as_simple w)).
    assert (forall w, classify as_options w = Keep -> ~ own_alone as_options w /\ ~ own_waits as_options w) as CK by (intros w E; specialize (C w); rewrite E in C; exact C).
    assert (forall w, classify as_options w = One -> own_alone as_options w) as C1 by (intros w E; specialize (C w); rewrite E in C; exact C).
    assert (forall w, classify as_options w = Two -> own_waits as_options w) as C2 by (intros w E; specialize (C w); rewrite E in C; exact C).
    unfold as_words, as_post, as_marks. cbn [map app].
    apply r_waits; [apply C2; vm_compute; reflexivity|]. apply r_alone; [apply C1; vm_compute; reflexivity|].
    apply r_keep; [apply CK; vm_compute; reflexivity|apply CK; vm_compute; reflexivity|]. apply r_alone; [apply C1; vm_compute; reflexivity|].
    apply r_keep; [apply CK; vm_compute; reflexivity|apply CK; vm_compute; reflexivity|]. apply r_waits; [apply C2; vm_compute; reflexivity|].
    apply r_keep; [apply CK; vm_compute; reflexivity|apply CK; vm_compute; reflexivity|]. apply r_alone; [apply C1; vm_compute; reflexivity|].
    apply r_keep; [apply CK; vm_compute; reflexivity|apply CK; vm_compute; reflexivity|]. apply r_end. }
  split; [exact H|].
  exact (C109_wrapped_partial as_options (s "env") (s "as") as_words (s "sta") as_post as_marks [false; true] as_simple as_consistent
           (fun H => match H with ex_intro _ _ E => ltac:(discriminate E) end) H eq_refl).
Qed.

(** The word after [--] is not an option of the program, but it is taken out like one:
    [as git -- -q<cursor>]. *)
Theorem C109_after_dashes_refuted : exists options wraps prog pre cur, simple_options options /\ consistent options /\
  In (s "--") pre /\ ~ In cur (fst (wrapped options wraps (prog :: pre ++ [cur]) (2 + List.length pre))).
Proof.
  exists as_options, (s "env"), (s "as"), [s "git"; s "--"], (s "-q"). split; [exact as_simple|]. split; [exact as_consistent|]. split; [right; left; reflexivity|].
  intros H. assert (fst (wrapped as_options (s "env") (s "as" :: [s "git"; s "--"] ++ [s "-q"]) (2 + List.length [s "git"; s "--"])) = [s "env"; s "git"; s "--"]) as E
    by (vm_compute; reflexivity).
  rewrite E in H. destruct H as [H|[H|[H|[]]]]; discriminate H.
Qed.
Print Assumptions C109_after_dashes_refuted.
(** While the argument of one of the program's own options is typed, the other command's completion is
    asked, too, with the cursor behind the last word: [as --user b<cursor>]. *)
Theorem C109_cursor_refuted : exists options wraps prog pre cur, simple_options options /\ consistent options /\
  let '(words, current) := wrapped options wraps (prog :: pre ++ [cur]) (2 + List.length pre) in List.length words < current.
Proof.
  exists as_options, (s "env"), (s "as"), [s "--user"], (s "b"). split; [exact as_simple|]. split; [exact as_consistent|]. vm_compute. lia.
Qed.
Print Assumptions C109_cursor_refuted.
(** All dashes at the beginning of a name are removed: with the option [---all], the word [--all] is taken
    out, which is no option of the program, and [---all] is not. *)
Theorem C109_three_dashes_refuted : exists options wraps prog x, (forall o, In o options -> valid_option o) /\ consistent options /\
  (exists o, In o options /\ has_name o (DASH :: x)) /\ (forall o, In o options -> ~ In x (o_strings o)) /\
  wrapped options wraps [prog; x; DASH :: x] 3 = ([wraps; DASH :: x], 2).
Proof.
  exists [own_option [s "---all"] None false], (s "env"), (s "as"), (s "--all"). split; [|split; [|split; [|split]]].
  - intros o [<-|[]]. split; [discriminate|]. split.
    + intros x [<-|[]]. exists (s "--all"). split; [reflexivity|]. split; [discriminate|]. split; [discriminate|].
      assert (forallb (fun c => negb (is_space c) && negb (N.eqb c COMMA)) (s "--all") = true) as H by reflexivity. rewrite forallb_forall in H.
      intros c Hc. apply H, andb_true_iff in Hc as (H1 & H2). apply negb_true_iff in H1, H2. split; [exact H1|apply N.eqb_neq, H2].
    + split; [intros x E; discriminate E|]. split; [intros c m E; discriminate E|]. split; [intros E; discriminate E|]. intros (E & _); discriminate E.
  - intros o o' x [<-|[]] [<-|[]] _ _. reflexivity.
  - exists (own_option [s "---all"] None false). split; [left; reflexivity|]. split; [left; reflexivity|]. cbn. lia.
  - intros o [<-|[]] [E|[]]. discriminate E.
  - vm_compute. reflexivity.
Qed.
Print Assumptions C109_three_dashes_refuted.
