(** * Property C121: completing what is behind a prefix.  Statements only. *)
From Coq Require Import Lia.
From Verif Require Import Base PyStr StrUtils StrUtilsProofs SpecShell SpecOutput BashStrings BashWords SpecBashWords BashWordsProofs SpecPrefix PrefixCompleter PrefixProofs.
Open Scope string_scope.
Open Scope list_scope.
Open Scope nat_scope.

(** C121, Bash.  If the prefix was typed, in whatever quotes, then the completer is asked for what is
    behind it, as it was typed; and if one of its answers is accepted, the prefix and this answer are
    on the command line.

    What is missing: a backslash that stays in double quotes; a word break inside of the prefix, or
    behind it. *)
Theorem C121_bash_behind_partial : forall breaks prefix func cur us1 us2 open,
  prefix <> [] -> ~ In LF cur -> units Outside cur = Some (us1 ++ us2, open) -> none_kept (us1 ++ us2) -> text us1 = prefix ->
  (forall u, In u us2 -> is_break breaks u = false) ->
  (forall u, In u us1 -> is_break breaks u = false) \/ (exists us b, us1 = us ++ [b] /\ is_break breaks b = true) ->
  exists stripped replies, units Outside stripped = Some (us2, open) /\ bash_prefix breaks prefix func cur = Some replies /\
    Forall2 (fun word reply => accepted breaks (us1 ++ us2) reply (prefix ++ word)) (func stripped) replies.
Proof.
  intros breaks prefix func cur us1 us2 open Hp Hl H K E H2 H1. destruct (stripped_rest breaks prefix func cur us1 us2 open Hp Hl H K E) as (stripped & S1 & S2).
  exists stripped, (match last_break_position breaks cur with None => map (app prefix) (func stripped) | Some _ => func stripped end).
  split; [exact S1 |]. split; [exact S2 |]. pose proof (no_break breaks cur _ open H) as B. destruct H1 as [H1 | (us & b & -> & Hb)].
  - assert (forall u, In u (us1 ++ us2) -> is_break breaks u = false) as H0 by (intros u Hu; apply in_app_or in Hu as [Hu | Hu]; auto).
    rewrite (proj2 B H0). clear S2. induction (func stripped) as [| w l IH]; cbn [map]; constructor; [| exact IH]. exists None. split; [exact H0 | reflexivity].
  - destruct (last_break_position breaks cur) as [pos |].
    + clear S2. induction (func stripped) as [| w l IH]; constructor; [| exact IH]. exists (Some (S (length us))). split.
      * exists us, b, us2. rewrite <- app_assoc. auto.
      * unfold text. rewrite map_app. rewrite firstn_app. replace (S (length us)) with (length (map fst (us ++ [b]))) by (rewrite map_length, app_length; cbn; lia).
        rewrite firstn_all, Nat.sub_diag. cbn [firstn]. rewrite app_nil_r. unfold text in E. now rewrite E.
    + exfalso. destruct B as [B _]. specialize (B eq_refl b). rewrite B in Hb; [discriminate |]. apply in_or_app. left. apply in_or_app. right. now left.
Qed.
Print Assumptions C121_bash_behind_partial.
Example C121_bash_behind_example : let breaks := s " :=" in
  units Outside (s "in'pu't:""my f") = Some (map (fun c => (c, Bare)) (s "in") ++ map (fun c => (c, InSingle)) (s "pu") ++ map (fun c => (c, Bare)) (s "t:") ++ map (fun c => (c, InDouble)) (s "my f"), true) /\
  bash_prefix breaks (s "input:") (fun cur => if str_eqb cur (s """my f") then [s "my file"] else []) (s "in'pu't:""my f") = Some [s "my file"] /\
  bash_prefix breaks (s "in") (fun cur => if str_eqb cur (s "'f") then [s "file"] else []) (s "'inf") = Some [s "infile"].
Proof. repeat split. Qed.

(** C121, Bash.  If the prefix was not typed yet, then it is offered exactly if it begins with what was
    typed. *)
Theorem C121_bash_begin_partial : forall breaks prefix func cur,
  prefix <> [] -> (forall c, In c prefix -> posix_special c = false) -> (forall c, In c cur -> posix_special c = false /\ memc c breaks = false) -> hd 0%N cur <> DASH ->
  (forall r, cur <> prefix ++ r) ->
  bash_prefix breaks prefix func cur = Some (if starts_with cur prefix then [prefix] else []) /\ accepted breaks (map (fun c => (c, Bare)) cur) prefix prefix.
Proof.
  intros breaks prefix func cur Hn Hp Hc Hd Hr. assert (Hs : forall c, In c cur -> posix_special c = false) by (intros c H; now apply Hc). split.
  - unfold bash_prefix, strip_prefix_keep_quoting. pose proof (strip_none prefix Outside cur _ false (units_plain cur Hs) (plain_none_kept cur)) as G. cbn [loop_of] in G.
    rewrite G by (rewrite text_plain; exact Hr). assert (echo cur = cur) as ->.
    { destruct cur as [| a [| b r]]; [reflexivity | reflexivity |]. cbn [hd] in Hd. unfold echo. destruct (N.eqb_spec a DASH); [congruence | reflexivity]. }
    rewrite rstrip_none by now apply plain_lf. rewrite str_eqb_refl. unfold compgen_W.
    replace (posix_words prefix) with (Some [prefix]) by (symmetry; apply (posix_plain_words [prefix]); constructor; [split; assumption | constructor]).
    cbn [option_map filter]. now destruct (starts_with cur prefix).
  - exists None. split; [| reflexivity]. intros u Hu. apply in_map_iff in Hu as (c & <- & Hi). unfold is_break. cbn [fst snd]. now apply Hc.
Qed.
Print Assumptions C121_bash_begin_partial.
Example C121_bash_begin_example : bash_prefix (s " :=") (s "input:") (fun cur => [s "?"]) (s "inp") = Some [s "input:"] /\
  bash_prefix (s " :=") (s "input:") (fun cur => [s "?"]) (s "x") = Some [].
Proof. split; reflexivity. Qed.

(** C121 is false in Bash: a word break inside of the prefix.  Behind [a:b], an accepted answer replaces the
    [b]; ... *)
Theorem C121_bash_break_refuted : exists breaks prefix func cur, breaks = s ":" /\ prefix = s "a:b" /\ cur = s "a:bf" /\ func (s "f") = [s "file"] /\
  bash_prefix breaks prefix func cur = Some [s "file"] /\ accepted breaks (map (fun c => (c, Bare)) cur) (s "file") (s "a:file").
Proof.
  exists (s ":"), (s "a:b"), (fun _ => [s "file"]), (s "a:bf"). repeat split. exists (Some 2). split; [| reflexivity].
  exists [(97%N, Bare)], (COLON, Bare), (map (fun c => (c, Bare)) (s "bf")). repeat split. intros u [<- | [<- | []]]; reflexivity.
Qed.
Print Assumptions C121_bash_break_refuted.
(** ... and when the beginning of [http://] was typed, completing it gives [http:http://]. *)
Theorem C121_bash_url_refuted : exists breaks prefix cur, breaks = s ":" /\ prefix = s "http://" /\ cur = s "http:" /\
  (forall func, bash_prefix breaks prefix func cur = Some [prefix]) /\ accepted breaks (map (fun c => (c, Bare)) cur) prefix (s "http:http://").
Proof.
  exists (s ":"), (s "http://"), (s "http:"). repeat split. exists (Some 5). split; [| reflexivity].
  exists (map (fun c => (c, Bare)) (s "http")), (COLON, Bare), []. repeat split. intros u [].
Qed.
Print Assumptions C121_bash_url_refuted.
(** In quotes the prefix is not offered. *)
Theorem C121_bash_quotes_refuted : exists breaks prefix cur, prefix = s "input:" /\ cur = s """inp" /\
  units Outside cur = Some (map (fun c => (c, InDouble)) (s "inp"), true) /\ (forall func, bash_prefix breaks prefix func cur = Some []).
Proof. exists (s ":"), (s "input:"), (s """inp"). repeat split. Qed.
Print Assumptions C121_bash_quotes_refuted.
(** [-n] is not printed by [echo]: the completer is asked, although the prefix was not typed. *)
Theorem C121_bash_echo_refuted : exists breaks prefix cur, prefix = s "input:" /\ cur = s "-n" /\
  (forall func, bash_prefix breaks prefix func cur = Some (map (app prefix) (func []))).
Proof. exists (s ":"), (s "input:"), (s "-n"). repeat split. Qed.
Print Assumptions C121_bash_echo_refuted.
(** With an empty prefix the completer is never asked. *)
Theorem C121_bash_empty_refuted : forall breaks func cur, ~ In LF cur -> bash_prefix breaks [] func cur = Some [].
Proof.
  intros breaks func cur H. unfold bash_prefix, strip_prefix_keep_quoting. cbn [strip_loop]. rewrite rstrip_none by exact H. rewrite str_eqb_refl. reflexivity.
Qed.
Print Assumptions C121_bash_empty_refuted.

(** C121, Zsh.  If the prefix was typed, the completer is asked for what is behind it, and the prefix stays
    in front of what it adds; otherwise the prefix is added. *)
Theorem C121_zsh_partial : forall prefix func i,
  (forall rest, zsh_prefix prefix func (prefix ++ rest) i = func rest (i ++ prefix)) /\
  (forall rest m, zsh_accepted (i ++ prefix) m = i ++ prefix ++ m /\ (i ++ prefix) ++ rest = i ++ (prefix ++ rest)) /\
  (forall x, (forall rest, x <> prefix ++ rest) -> zsh_prefix prefix func x i = [(i, prefix)]).
Proof.
  intros prefix func i. split; [| split].
  - intros rest. unfold zsh_prefix. rewrite starts_own. rewrite skipn_app, skipn_all, Nat.sub_diag. reflexivity.
  - intros rest m. unfold zsh_accepted. now rewrite <- !app_assoc.
  - intros x H. unfold zsh_prefix. destruct (starts_with prefix x) eqn:E; [| reflexivity]. apply starts_with_app in E as [r ->]. now destruct (H r).
Qed.
Print Assumptions C121_zsh_partial.
Example C121_zsh_example : zsh_prefix (s "input:") (fun x i => [(i, x ++ s "ile")]) (s "input:f") [] = [(s "input:", s "file")] /\
  zsh_prefix (s "input:") (fun x i => []) (s "in") [] = [([], s "input:")].
Proof. split; reflexivity. Qed.
(** C121 is false in Zsh: PREFIX is what was typed, with its quotes.  A prefix with a blank, typed with a
    backslash, is not found. *)
Theorem C121_zsh_quotes_refuted : exists prefix x us, units Outside x = Some (us, false) /\ text us = prefix ++ s "f" /\
  forall func i, zsh_prefix prefix func x i = [(i, prefix)].
Proof. exists (s "a b:"), (s "a\ b:f"). eexists. repeat split. Qed.
Print Assumptions C121_zsh_quotes_refuted.

(** C121, Fish. *)
Theorem C121_fish_partial : forall prefix func rest, func (Some prefix) <> [] ->
  fish_prefix (prefix ++ rest) prefix func None = map (app prefix) (func (Some prefix)) /\
  completing_arg (prefix ++ rest) (Some prefix) = rest /\
  (forall arg, contains prefix arg = false -> fish_prefix arg prefix func None = [prefix]).
Proof.
  intros prefix func rest Hf. split; [| split].
  - unfold fish_prefix, completing_arg. assert (contains prefix (prefix ++ rest) = true) as ->.
    { pose proof (starts_own prefix rest) as E. destruct (prefix ++ rest) as [| c r] eqn:Ec; cbn [contains]; rewrite E; reflexivity. }
    destruct (func (Some prefix)); [congruence | reflexivity].
  - unfold completing_arg. rewrite starts_own. rewrite skipn_app, skipn_all, Nat.sub_diag. reflexivity.
  - intros arg H. unfold fish_prefix, completing_arg. now rewrite H.
Qed.
Print Assumptions C121_fish_partial.
Example C121_fish_example : let func arg := fun strip => [completing_arg arg strip ++ s "ile"] in
  fish_prefix (s "input:f") (s "input:") (func (s "input:f")) None = [s "input:file"] /\ fish_prefix (s "in") (s "input:") (func (s "in")) None = [s "input:"].
Proof. split; reflexivity. Qed.
(** C121 is false in Fish: the prefix is found anywhere in the argument; then the completer is asked for the
    whole argument. *)
Theorem C121_fish_anywhere_refuted : exists prefix arg, (forall rest, arg <> prefix ++ rest) /\ arg = s "x=a:1" /\ prefix = s "a:" /\
  completing_arg arg (Some prefix) = arg /\ forall func, func (Some prefix) = [s "w"] -> fish_prefix arg prefix func None = [prefix ++ s "w"].
Proof.
  exists (s "a:"), (s "x=a:1"). split; [intros rest E; discriminate E |]. repeat split. intros func H. unfold fish_prefix.
  change (contains (s "a:") (completing_arg (s "x=a:1") None)) with true. cbn match. now rewrite H.
Qed.
Print Assumptions C121_fish_anywhere_refuted.
(** C121 is false in Fish: a prefix behind a prefix.  The variable is set to the inner one, which is not
    at the beginning of the argument: the completer is asked for all of it. *)
Theorem C121_fish_nested_refuted : exists outer inner arg rest, arg = outer ++ inner ++ rest /\ let asked := fun strip => [s "<" ++ completing_arg arg strip ++ s ">"] in
  fish_prefix arg outer (fish_prefix arg inner asked) None = [outer ++ inner ++ s "<" ++ arg ++ s ">"] /\ arg = s "a:b:f" /\ rest = s "f".
Proof. exists (s "a:"), (s "b:"), (s "a:b:f"), (s "f"). repeat split. Qed.
Print Assumptions C121_fish_nested_refuted.
(** C121 is false in Fish: if the completer has nothing to offer, an empty line is offered. *)
Theorem C121_fish_nothing_refuted : forall prefix rest, fish_prefix (prefix ++ rest) prefix (fun _ => []) None = [[]].
Proof.
  intros prefix rest. unfold fish_prefix, completing_arg. pose proof (starts_own prefix rest) as E.
  assert (contains prefix (prefix ++ rest) = true) as -> by (destruct (prefix ++ rest) as [| c r]; cbn [contains]; rewrite E; reflexivity). reflexivity.
Qed.
Print Assumptions C121_fish_nothing_refuted.
