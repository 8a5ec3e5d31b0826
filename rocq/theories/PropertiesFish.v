(** * Theorems about the generated fish scripts: C39, C80-C82. *)
From Coq Require Import Permutation.
From Verif Require Import Base Value StrUtils Shell SpecShell ShellParser When SpecWhen WhenProofs WhenTests Cli CliExamples CliProofs SpecCli SpecParser ParserProofs
  FishUtils SpecFish FishProofs FishConditions FishRuntime SpecOffered SpecFishOffers FishEval FishOffered FishCommand FishOffers FishBlock.
Open Scope list_scope.

(** ** Variables for the examples *)

Definition example_env : env := fun n => lookup n
  [(s "prog", s "tool"); (s "P", s "__complete_tool_prepare"); (s "has_option", s "__complete_tool_has_option");
   (s "num_of_positionals", s "__complete_tool_num_of_positionals"); (s "positional_contains", s "__complete_tool_positional_contains");
   (s "option_is", s "__complete_tool_option_is"); (s "option_match", s "__complete_tool_option_match")].
Lemma example_names : good_names example_env.
Proof.
  split.
  - intros n H. cbn [function_variables In] in H.
    repeat (destruct H as [<- | H]; [eexists; split; [reflexivity | split; [discriminate | split; [reflexivity | split; discriminate]]] |]). destruct H.
  - intros n n' H H'. cbn [function_variables In] in H, H'.
    repeat (destruct H as [<- | H]; [repeat (destruct H' as [<- | H']; [(intros _; reflexivity) || (intros E; vm_compute in E; discriminate E) |]); destruct H' |]). destruct H.
Qed.
Definition no_match (regex : str) (nocase : bool) (value : str) : bool := false.
Definition none_incomplete (l : list str) : bool := false.
Definition file_completer (l : list value) : list str := [s "-F"].
Definition no_ere (x : str) : bool := true.

(** ** C39 *)

(** Variables stand for exactly one value, and the lines define each of them once. *)
Theorem C39_variables : forall name values m vs, vars_adds (new_vars name) values = (m, vs) ->
  List.length vs = List.length values /\
  (forall i j x y, nth_error values i = Some x -> nth_error values j = Some y ->
     (x = y <-> nth_error vs i = nth_error vs j)) /\
  (forall i x, nth_error values i = Some x ->
     exists v, nth_error vs i = Some (s "$" ++ v) /\ In (s "set -l " ++ v ++ s " " ++ x) (get_lines m)) /\
  List.length (get_lines m) = List.length (nodup (list_eq_dec N.eq_dec) values).
Proof.
  intros name values m vs H. pose proof (vars_adds_spec values (new_vars name) (new_vars_ok name)) as K. rewrite H in K.
  destruct K as (Hm & Hn & (l & El & Hl) & Hf). cbn [v_values new_vars app] in El.
  assert (Hi : forall i x, nth_error values i = Some x -> exists u, nth_error vs i = Some (DOLLAR :: u) /\ lookup x (v_values m) = Some u).
  { clear -Hf. induction Hf as [| x v values vs (u & -> & Hu) _ IH]; intros [| i] y E; cbn in E; try discriminate; [injection E as <-; cbn; eauto | exact (IH i y E)]. }
  split; [clear -Hf; induction Hf; cbn; congruence |]. split; [| split].
  - intros i j x y Hx Hy. destruct (Hi i x Hx) as (u & Eu & Lu). destruct (Hi j y Hy) as (v & Ev & Lv). rewrite Eu, Ev. split.
    + intros ->. congruence.
    + intros E. injection E as ->. exact (vars_inj m x y v Hm Lu Lv).
  - intros i x Hx. destruct (Hi i x Hx) as (u & Eu & Lu). exists u. split; [exact Eu |]. unfold get_lines.
    apply in_map_iff. exists (x, u). split; [reflexivity | now apply lookup_in].
  - unfold get_lines. rewrite map_length. rewrite <- (map_length fst (v_values m)). destruct Hm as (_ & Hd & _).
    apply Nat.le_antisymm; apply NoDup_incl_length; try assumption; try apply NoDup_nodup.
    + intros x Hx. apply nodup_In. apply Hl. now rewrite <- El.
    + intros x Hx. apply nodup_In, In_nth_error in Hx as (i & Hx). destruct (Hi i x Hx) as (u & _ & Lu). apply lookup_in in Lu. now apply (in_map fst) in Lu.
Qed.
Print Assumptions C39_variables.

(** Replacing conditions by variables makes no difference: with variables the same [complete]
    commands are run as without.  The variables of a former block may still be set. *)
Theorem C39_cached_conditions : forall e prog st blocks definitions r e',
  good_names e -> e (s "prog") = Some prog -> (forall n, e (s "C" ++ n) = None) ->
  Forall2 (Forall2 (fun d c => get_complete_cmd st d = Ok c)) definitions blocks ->
  run e (flat_map (generator_block true) blocks) = Some (e', r) ->
  completes e (flat_map (generator_block false) blocks) = Some r.
Proof.
  intros e prog st blocks ds r e' He Hp Hc Hd H. pose proof (proj1 He (s "P")) as (p & HP & _); [cbn; tauto |].
  destruct (cached_same e prog p Hp HP Hc blocks) with (e2 := e') (r := r) (e1 := e) as (e3 & E); [| exact H | intros n v Hv; exact Hv |].
  - intros cmds c Hcm Hci. clear -He Hd Hcm Hci. induction Hd as [| l cs ds blocks Hl _ IH]; [destruct Hcm |]. destruct Hcm as [<- | Hcm]; [| auto].
    clear IH. induction Hl as [| d k l cs Hk _ IH]; [destruct Hci |]. destruct Hci as [<- | Hci]; [| auto]. eapply get_complete_cmd_ok; [now apply good_helpers | eassumption].
  - unfold completes. now rewrite E.
Qed.
Print Assumptions C39_cached_conditions.

(** tool [-v] [--level N] {run [-n] FILE} *)
Definition level : opt :=
  MkOpt [s "-l"; s "--level"] None (Some (s "Set it's level")) (Some [VStr (s "integer")]) false (Some [s "g"]) false XFalse false false None None SepInherit.
Definition quiet : opt :=
  MkOpt [s "-q"; s "-quiet"] None None None false (Some [s "g"]) false XFalse false true
    (Some (s "option_is --level -- 1 2 && ! has_option -v")) None SepInherit.
Definition run_cmd : cmd := Cmd (s "run") None [s "r"] None XTrue XTrue XFalse [flag [s "-n"]; level] [positional 1] None.
Definition fish_tool : cmd := Cmd (s "tool") None [] None XTrue XTrue XFalse [flag [s "-v"]; level; quiet] [] (Some [run_cmd]).
Lemma fish_tool_built : built fish_tool.
Proof. by_copy. Qed.
Definition commands_of (st : bool) (ps : list cmd) (c : cmd) : res (list definition * list complete_command) :=
  do ds <- definitions no_ere file_completer ps c;
  do cmds <- map_res (get_complete_cmd st) ds;
  Ok (ds, cmds).
(** the options and the truth of the conditions of each command *)
Definition shown (q : query) (lines : list str) : option (list (list str * list (option bool))) :=
  option_map (map (fun args => match complete_args args with
      | Some k => (k_options k, map (fish_eval (fish_truth no_match none_incomplete q example_env)) (k_conditions k))
      | None => ([], []) end)) (completes example_env lines).
Example C39_example : exists d1 c1 d2 c2 r e', commands_of true [] fish_tool = Ok (d1, c1) /\ commands_of true [fish_tool] run_cmd = Ok (d2, c2) /\
  Forall2 (Forall2 (fun d c => get_complete_cmd true d = Ok c)) [d1; d2] [c1; c2] /\
  run example_env (flat_map (generator_block true) [c1; c2]) = Some (e', r) /\ List.length r = 7 /\
  List.length (flat_map (generator_block true) [c1; c2]) = 7 /\ List.length (flat_map (generator_block false) [c1; c2]) = 15.
Proof.
  destruct (commands_of true [] fish_tool) as [| [d1 c1]] eqn:E1; [vm_compute in E1; discriminate E1 |].
  destruct (commands_of true [fish_tool] run_cmd) as [| [d2 c2]] eqn:E2; [vm_compute in E2; discriminate E2 |].
  assert (K : forall ps c d k, commands_of true ps c = Ok (d, k) -> Forall2 (fun d c => get_complete_cmd true d = Ok c) d k).
  { intros ps c d k H. unfold commands_of in H. apply bind_ok in H as (ds & _ & H). apply bind_ok in H as (cmds & H & H'). injection H' as <- <-. now apply map_res_ok. }
  destruct (run example_env (flat_map (generator_block true) [c1; c2])) as [[e' r] |] eqn:Er.
  - exists d1, c1, d2, c2, r, e'. do 2 (split; [reflexivity |]).
    split; [constructor; [exact (K _ _ _ _ E1) | constructor; [exact (K _ _ _ _ E2) | constructor]] |]. split; [exact Er |].
    assert (Er' : option_map (fun x => List.length (snd x)) (run example_env (flat_map (generator_block true) [c1; c2])) = Some (List.length r)) by (rewrite Er; reflexivity).
    vm_compute in E1, E2. injection E1 as _ <-. injection E2 as _ <-. vm_compute in Er'. injection Er' as Er'. split; [symmetry; exact Er' |].
    split; vm_compute; reflexivity.
  - exfalso. vm_compute in E1, E2. injection E1 as _ <-. injection E2 as _ <-. vm_compute in Er. discriminate Er.
Qed.

(** ** C80 *)

(** A [complete] command says what the definition says: the command, the option strings, the
    description, the completions, the flags and the conditions.  Missing: strings with backslashes
    or backticks (C04, C57), and option strings with three dashes (below). *)
Theorem C80_complete_command_partial : forall e prog p st d c,
  good_names e -> e (s "prog") = Some prog -> e (s "P") = Some p -> clean_definition d -> get_complete_cmd st d = Ok c ->
  exists args k, fish_line e (command_line c (map condition_text (cc_conditions c))) = Some (s "complete" :: args) /\
    complete_args args = Some k /\
    k_command k = [prog] /\
    (Forall dashes_ok (d_short d ++ d_long d ++ d_old d) ->
     (forall x, In x (d_short d) -> List.length x = 2) -> (forall x, In x (d_long d) -> starts_with (s "--") x = true) ->
     (forall x, In x (d_old d) -> starts_with (s "--") x = false /\ 2 < List.length x) ->
     Permutation (k_options k) (d_short d ++ d_long d ++ d_old d)) /\
    k_description k = match d_description d with Some x => [x] | None => [] end /\
    (exists f F a, completer_args (d_args d) f F a /\ k_completions k = match a with Some x => [x] | None => [] end /\
       no_files (k_flags k) = f /\ force_files (k_flags k) = F) /\
    requires (k_flags k) = d_requires_argument d /\
    keep_order (k_flags k) = d_keep_order d /\
    exists texts, k_conditions k = p :: texts /\
      Forall2 (fun x v => fish_line e x = Some [v]) (get_conditions (d_conditions d) (d_when d)) texts.
Proof.
  intros e prog p st d c He Hprog Hp Hcl H.
  destruct (definition_says e prog p st d c (good_helpers e He) Hprog Hp Hcl H) as (args & k & H1 & H2 & [S1 S2 S3 S4 S5 S6 S7]).
  exists args, k. do 3 (split; [assumption |]). split; [| auto 6].
  intros Hd A1 A2 A3. apply S2; [exact Hd | | |]; apply Forall_forall; intros x Hx.
  - apply Nat.eqb_eq. now apply A1.
  - now apply A2.
  - unfold is_old_option_string. destruct (A3 x Hx) as [E1 E2]. change [DASH; DASH] with (s "--"). rewrite E1. now apply Nat.ltb_lt.
Qed.
Print Assumptions C80_complete_command_partial.

Definition example_definition : definition :=
  MkDef [s "-v"; s "-w"] [s "--verbose"; s "--say-more"] [s "-loud"] None (Some (s "it's $HOME
""all""")) true true [s "-f"; s "-a"; s "(seq 10)"]
    [FNot (FHasOption [s "-q"; s "--quiet"])] None.
Example C80_example : exists c args k, clean_definition example_definition /\ get_complete_cmd true example_definition = Ok c /\
  Forall dashes_ok (d_short example_definition ++ d_long example_definition ++ d_old example_definition) /\
  fish_line example_env (command_line c (map condition_text (cc_conditions c))) = Some (s "complete" :: args) /\ complete_args args = Some k /\
  k = MkCompletion [s "tool"] [s "__complete_tool_prepare"; s "not __complete_tool_has_option -q --quiet"]
        [s "-v"; s "-w"; s "--verbose"; s "--say-more"; s "-loud"] [s "it's $HOME
""all"""] [s "(seq 10)"] (s "kx").
Proof.
  assert (Hcl : forall l, forallb (fun x => forallb (fun c => negb (N.eqb c BS) && negb (N.eqb c BTICK)) x) l = true -> clean l).
  { intros l H x Hx. rewrite forallb_forall in H. specialize (H x Hx). rewrite forallb_forall in H. split; intros K; apply H in K; vm_compute in K; discriminate K. }
  eexists. eexists. eexists. split; [split; [apply Hcl; reflexivity | split; [intros x Hx; injection Hx as <-; apply Hcl; reflexivity | apply Hcl; reflexivity]] |].
  split; [vm_compute; reflexivity |]. split.
  - change (Forall dashes_ok [s "-v"; s "-w"; s "--verbose"; s "--say-more"; s "-loud"]). apply Forall_forall. intros x Hx.
    repeat (destruct Hx as [<- | Hx]; [eexists; eexists; ((split; [| left; reflexivity]; discriminate) || (split; [| right; reflexivity]; discriminate)) |]). destruct Hx.
  - split; [vm_compute; reflexivity |]. split; vm_compute; reflexivity.
Qed.

(** Option strings with three dashes are valid, but a dash is lost: fish completes [--a]. *)
Theorem C80_dashes_refuted : exists o d c args k,
  is_valid_option_string (s "---a") = true /\ o_strings o = [s "---a"] /\
  let root := Cmd (s "tool") None [] None XTrue XTrue XFalse [o] [] None in
  built root /\ definitions no_ere file_completer [] root = Ok [d] /\ get_complete_cmd true d = Ok c /\
  fish_line example_env (command_line c (map condition_text (cc_conditions c))) = Some (s "complete" :: args) /\ complete_args args = Some k /\
  k_options k = [s "--a"].
Proof.
  exists (flag [s "---a"]). do 4 eexists. split; [reflexivity |]. split; [reflexivity |]. cbv zeta.
  split; [by_copy |]. split; [vm_compute; reflexivity |]. split; [vm_compute; reflexivity |]. split; [vm_compute; reflexivity |]. split; vm_compute; reflexivity.
Qed.
Print Assumptions C80_dashes_refuted.

(** ** C81 *)

Lemma clean_check l : forallb (forallb (fun c => negb (N.eqb c BS) && negb (N.eqb c BTICK))) l = true -> clean l.
Proof. intros H x Hx. rewrite forallb_forall in H. specialize (H x Hx). rewrite forallb_forall in H. split; intros K; apply H in K; vm_compute in K; discriminate K. Qed.

(** fish offers each option, each positional argument and the sub-commands of each command exactly
    where it is to be offered, be conditions cached or not.  Missing: the cases that [clean_scope]
    excludes; some of them are refuted below. *)
Theorem C81_offers_partial : forall matches incomplete q e prog root ere completer ps c st ds cmds inline,
  good_names e -> e (s "prog") = Some prog -> (forall n, e (s "C" ++ n) = None) ->
  built root -> located root ps c -> clean_scope completer ps c ->
  definitions ere completer ps c = Ok ds -> Forall2 (fun d k => get_complete_cmd st d = Ok k) ds cmds ->
  exists argss os k1 k2 k3,
    completes e (generator_block inline cmds) = Some argss /\
    Forall2 (fun args k => complete_args args = Some k) argss (k1 ++ k2 ++ k3) /\
    Permutation os (c_options c) /\
    Forall2 (option_says matches incomplete q e prog ere ps c) os k1 /\
    Forall2 (positional_says matches incomplete q e prog ere ps c) (c_positionals c) k2 /\
    match c_subcommands c with
    | None => k3 = []
    | Some _ => exists k, k3 = [k] /\ subcommands_says matches incomplete q e prog ps c k
    end.
Proof.
  intros matches incomplete q e prog root ere completer ps c st ds cmds inline He Hp HC Hb Hl Hs Hd Hc.
  destruct (block_offers matches incomplete q e He prog Hp root Hb ere completer ps c st ds cmds Hl Hs Hd Hc) as (argss & os & k1 & k2 & k3 & Hr & Hrest).
  exists argss, os, k1, k2, k3. split; [| exact Hrest]. destruct inline.
  - unfold completes. now rewrite Hr.
  - rewrite <- (app_nil_r (generator_block false cmds)). change (generator_block false cmds ++ []) with (flat_map (generator_block false) [cmds]).
    eapply (C39_cached_conditions e prog st [cmds] [ds] argss e He Hp HC); [repeat constructor; exact Hc |]. cbn [flat_map]. now rewrite app_nil_r.
Qed.
Print Assumptions C81_offers_partial.

Ltac in_cases H := cbn [c_options c_positionals In fish_tool run_cmd] in H; repeat (destruct H as [<- | H]); try destruct H.
Lemma run_cmd_scope : clean_scope file_completer [fish_tool] run_cmd.
Proof.
  assert (Hd : forall l, forallb (fun x => match x with a :: b :: y => N.eqb a DASH && (negb (N.eqb b DASH) || match y with d :: _ => negb (N.eqb d DASH) | [] => false end) | _ => false end) l = true -> Forall dashes_ok l).
  { intros l H. apply Forall_forall. intros x Hx. rewrite forallb_forall in H. specialize (H x Hx). destruct x as [| a [| b y]]; try discriminate.
    apply andb_true_iff in H as [Ha H]. apply N.eqb_eq in Ha as ->. destruct (N.eqb_spec b DASH) as [-> | Hn]; [| exists b, y; auto].
    destruct y as [| d y]; [discriminate |]. cbn [negb orb] in H. exists d, y. split; [| now right]. intros ->. discriminate. }
  constructor.
  - split; [discriminate |]. split; [intros H; cbn in H; destruct H as [H | []]; discriminate |]. split; [apply clean_check; reflexivity | exact I].
  - intros c' o [<- | [<- | []]] Ho; in_cases Ho; apply clean_check; reflexivity.
  - intros o Ho. in_cases Ho; apply Hd; reflexivity.
  - split; [intros o Ho x Hx; in_cases Ho | intros p Hp x Hx; in_cases Hp]; try discriminate Hx; injection Hx as <-; apply clean_check; reflexivity.
  - intros l. apply clean_check. reflexivity.
  - intros H. cbn in H. congruence.
  - intros rs d p Hd' Hp. assert (E : d = run_cmd).
    { inversion Hd' as [| rs' c' sub Hl' Hi]; [reflexivity |]. subst. exfalso. assert (Ec : forall rs c, located run_cmd rs c -> c = run_cmd).
      { intros rs c H. induction H as [| rs c sub' H IH Hi']; [reflexivity |]. subst c. destruct Hi'. }
      apply Ec in Hl'. subst c'. destruct Hi. }
    subst d. in_cases Hp. reflexivity.
Qed.
(** Behind [tool r], the level is offered, but not behind [tool r --level 3]; the hidden option of
    the tool has a condition. *)
Example C81_example : exists ds cmds, (forall n, example_env (s "C" ++ n) = None) /\ located fish_tool [fish_tool] run_cmd /\
  commands_of true [fish_tool] run_cmd = Ok (ds, cmds) /\
  option_offered [s "r"] [] [fish_tool] run_cmd level /\ ~ option_offered [s "r"] [(s "--level", s "3")] [fish_tool] run_cmd level /\
  option_map (map fst) (shown (MkQuery [s "r"] []) (generator_block false cmds)) = Some [[s "-n"]; [s "-l"; s "--level"]; []] /\
  option_map (map snd) (shown (MkQuery [s "r"] []) (generator_block false cmds))
    = Some [[Some true; Some true]; [Some true; Some true; Some true]; [Some true; Some true; Some true]] /\
  sound_when no_ere (o_when quiet) (Some (And (One (Test (OptionIs [s "--level"] [s "1"; s "2"] false false))) (Negation (Test (HasOption [s "-v"]))))).
Proof.
  eexists. eexists. split; [reflexivity |]. split; [apply located_sub; [apply located_root | now left] |]. split; [vm_compute; reflexivity |].
  split; [| split; [| split; [vm_compute; reflexivity | split; [vm_compute; reflexivity |]]]].
  - split; [| split; [| split; [| split]]].
    + intros c' f [<- | [<- | []]] Hf E; in_cases Hf; discriminate E.
    + intros p Hp E _; in_cases Hp; [| discriminate E]. intros x Hx [v []].
    + intros _ x Hx [v []].
    + intros H. elim H. reflexivity.
    + split; [exact I |]. exists (s "r"). split; [split; [vm_compute; discriminate | reflexivity] | right; left; now left].
  - intros (_ & _ & K & _). apply (K eq_refl (s "--level")); [right; now left | exists (s "3"); now left].
  - eexists. split; [reflexivity |]. split; [vm_compute; reflexivity |]. intros o Ho. cbn in Ho.
    destruct Ho as [Ho | [Ho | [Ho | [Ho | []]]]]; try discriminate Ho; injection Ho as <-; (split; [| apply clean_check; reflexivity]); intros x Hx; cbn in Hx;
      repeat (destruct Hx as [<- | Hx]; [reflexivity |]); destruct Hx.
Qed.

(** Not offered although it should be: an option in front of a positional argument, if the
    command has sub-commands and does not pass its options on. *)
Theorem C81_before_positional_refuted : exists root o ds cmds,
  built root /\ c_options root = [o] /\ commands_of true [] root = Ok (ds, cmds) /\
  option_offered [] [] [] root o /\
  option_map (map fst) (shown (MkQuery [] []) (generator_block false cmds)) = Some [o_strings o; []; []] /\
  option_map (fun l => nth 0 (map snd l) []) (shown (MkQuery [] []) (generator_block false cmds)) = Some [Some true; Some false].
Proof.
  exists (Cmd (s "tool") None [] None XTrue XTrue XFalse [flag [s "-v"]] [positional 1] (Some [new (s "run")])), (flag [s "-v"]).
  do 2 eexists. split; [by_copy |]. split; [reflexivity |]. split; [vm_compute; reflexivity |].
  split; [| split; vm_compute; reflexivity]. split; [| split; [| split; [| split]]].
  - intros c' f _ _ _ x Hx [v []].
  - intros p _ _ _ x Hx [v []].
  - intros E. discriminate E.
  - intros _ _. vm_compute. reflexivity.
  - exact I.
Qed.
Print Assumptions C81_before_positional_refuted.

(** An option that is passed on to all sub-commands is not offered behind [tool list a], only
    because another sub-command takes a command line as its second positional argument. *)
Definition command_arg_positional : pos := MkPos 2 None None [VStr (s "command_arg")] true false None None.
Theorem C81_command_arg_refuted : exists root sub o ds cmds,
  built root /\ c_options root = [o] /\ In sub (subs root) /\ no_command_arg sub /\
  selected [s "list"; s "a"] [root] sub /\
  commands_of true [] root = Ok (ds, cmds) /\
  option_offered [s "list"; s "a"] [] [] root o /\
  option_map (fun l => nth 0 l ([], [])) (shown (MkQuery [s "list"; s "a"] []) (generator_block false cmds)) = Some (o_strings o, [Some true; Some false]).
Proof.
  set (sub := Cmd (s "list") None [] None XTrue XTrue XFalse [] [positional 1; positional 2] None).
  exists (Cmd (s "tool") None [] None XTrue XTrue XTrue [flag [s "-v"]] []
    (Some [Cmd (s "exec") None [] None XTrue XTrue XFalse [] [positional 1; command_arg_positional] None; sub])), sub, (flag [s "-v"]).
  do 2 eexists. split; [by_copy |]. split; [reflexivity |]. split; [right; left; reflexivity |]. split.
  { intros rs d p Hd Hp. assert (Ec : forall rs c, located sub rs c -> c = sub).
    { intros rs' c H. induction H as [| rs' c sub' H IH Hi]; [reflexivity |]. subst c. destruct Hi. }
    apply Ec in Hd. subst d. destruct Hp as [<- | [<- | []]]; reflexivity. }
  split; [split; [exact I |]; exists (s "list"); split; [split; [vm_compute; discriminate | reflexivity] | left; reflexivity] |].
  split; [vm_compute; reflexivity |]. split; [| vm_compute; reflexivity]. split; [| split; [| split; [| split]]].
  - intros c' f _ _ _ x Hx [v []].
  - intros p _ _ _ x Hx [v []].
  - intros E. discriminate E.
  - intros _ K. exfalso. apply K. discriminate.
  - exact I.
Qed.
Print Assumptions C81_command_arg_refuted.

(** The option of a sub-command that has its own name as an alias is offered although no
    sub-command has been typed. *)
Theorem C81_alias_refuted : exists root sub o ds cmds,
  built root /\ In sub (subs root) /\ c_options sub = [o] /\ commands_of true [root] sub = Ok (ds, cmds) /\
  ~ option_offered [] [] [root] sub o /\
  option_map (fun l => nth 0 l ([], [])) (shown (MkQuery [] []) (generator_block false cmds)) = Some (o_strings o, [Some true; Some true]).
Proof.
  set (sub := Cmd (s "run") None [s "run"] None XFalse XTrue XFalse [flag [s "-v"]] [] None).
  exists (Cmd (s "tool") None [] None XTrue XTrue XTrue [] [] (Some [sub])), sub, (flag [s "-v"]).
  do 2 eexists. split; [by_copy |]. split; [left; reflexivity |]. split; [reflexivity |]. split; [vm_compute; reflexivity |].
  split; [| vm_compute; reflexivity]. intros (_ & _ & _ & _ & _ & (w & (_ & K) & _)). vm_compute in K. discriminate K.
Qed.
Print Assumptions C81_alias_refuted.

(** ** C82 *)

(** In fish, a condition holds exactly if the command line meets it.  Missing: conditions whose
    tests are not sound, and strings with backslashes or backticks. *)
Theorem C82_fish_when_partial : forall ere x ts ws e, good_names e ->
  parse x = Ok ts -> complete ts -> parse_when ere x = Ok ws ->
  exists cond, ws = map wtok_of (conds_syms cond) /\
  ((forall o, In (STest o) (conds_syms cond) -> sound_test o /\ clean (test_arguments o)) ->
   forall matches incomplete q, exists text b,
     fish_line e (in_double (fish_tokens ws)) = Some [text] /\
     fish_eval (fish_truth matches incomplete q e) text = Some b /\
     (b = true <-> cond_holds matches (q_positionals q) (q_options q) cond)).
Proof.
  intros ere x ts ws e He Hp Hc Hw. destruct (accepted_when ere x ws ts Hw Hp Hc) as [cond ->]. exists cond. split; [reflexivity |].
  intros Hs matches incomplete q. destruct (when_means (fish_truth matches incomplete q e) e He cond (fun o Ho => proj2 (Hs o Ho))) as (text & Ht & Ev).
  eexists. eexists. split; [exact Ht |]. split; [exact Ev |].
  apply (proj2 (holds_true matches (q_positionals q) (q_options q) (fun o => fish_truth matches incomplete q e (test_words e o)))).
  intros o Ho. apply (test_truth matches incomplete q e He o). apply Hs, tests_in_syms, Ho.
Qed.
Print Assumptions C82_fish_when_partial.

Definition level_high : conds wobj :=
  And (One (Group (Or (One (Test (OptionIs [s "--level"; s "-l"] [s "high"] true false))) (Test (PositionalCount (s ">=") 2)))))
      (Negation (Test (PositionalContains false 1 [s "a"; s "b c"]))).
Example C82_example :
  let x := s "(option_is nocase --level -l -- high || positional_count >= 2) && ! positional_contains 1 a ""b c""" in
  exists ts ws text, parse x = Ok ts /\ complete ts /\ parse_when no_ere x = Ok ws /\ ws = map wtok_of (conds_syms level_high) /\
  (forall o, In (STest o) (conds_syms level_high) -> sound_test o /\ clean (test_arguments o)) /\
  fish_line example_env (in_double (fish_tokens ws)) = Some [text] /\
  fish_eval (fish_truth no_match none_incomplete (MkQuery [s "x"] [(s "--level", s "HIGH")]) example_env) text = Some true /\
  fish_eval (fish_truth no_match none_incomplete (MkQuery [s "b c"; s "y"] []) example_env) text = Some false.
Proof.
  cbv zeta. do 3 eexists. split; [vm_compute; reflexivity |]. split; [split |].
  - eexists (_ :: _ :: _ :: _ :: _ :: _ :: _ :: []), _. split; [reflexivity |]. right. eexists. reflexivity.
  - intros (a & args & b & E). repeat (destruct a as [| ? a]; [discriminate |]; injection E as _ E). destruct a; discriminate.
  - split; [vm_compute; reflexivity |]. split; [vm_compute; reflexivity |]. split; [| split; [vm_compute; reflexivity | split; vm_compute; reflexivity]].
    intros o Ho. cbn in Ho. repeat (destruct Ho as [Ho | Ho]; [try discriminate Ho; injection Ho as <-; (split; [| apply clean_check; reflexivity]) |]); try destruct Ho.
    + intros x Hx. cbn in Hx. repeat (destruct Hx as [<- | Hx]; [reflexivity |]); destruct Hx.
    + right; right; right; left; reflexivity.
    + split; [vm_compute; discriminate |]. constructor; [intros [K | []]; discriminate K | constructor; [intros [] | constructor]].
Qed.

(** If the positional argument is missing, a test that names a value twice is true: the values
    are compared with each other. *)
Theorem C82_missing_positional_refuted :
  let x := s "positional_contains -i 1 all ALL" in
  exists cond ws text, parse_when no_ere x = Ok ws /\ ws = map wtok_of (conds_syms cond) /\
  fish_line example_env (in_double (fish_tokens ws)) = Some [text] /\
  fish_eval (fish_truth no_match none_incomplete (MkQuery [] []) example_env) text = Some true /\
  ~ cond_holds no_match [] [] cond.
Proof.
  cbv zeta. exists (One (Test (PositionalContains true 1 [s "all"; s "ALL"]))). do 2 eexists. split; [vm_compute; reflexivity |].
  split; [reflexivity |]. split; [vm_compute; reflexivity |]. split; [vm_compute; reflexivity |].
  intros (w & v & (_ & K) & _). vm_compute in K. discriminate K.
Qed.
Print Assumptions C82_missing_positional_refuted.

(** The word [WITH_INCOMPLETE] is accepted as an option, but it is a flag of the function: it
    changes what the test means. *)
Theorem C82_with_incomplete_refuted :
  let x := s "has_option WITH_INCOMPLETE" in
  exists cond ws text, parse_when no_ere x = Ok ws /\ ws = map wtok_of (conds_syms cond) /\
  fish_line example_env (in_double (fish_tokens ws)) = Some [text] /\
  fish_eval (fish_truth no_match (fun _ => true) (MkQuery [] []) example_env) text = Some true /\
  ~ cond_holds no_match [] [] cond.
Proof.
  cbv zeta. exists (One (Test (HasOption [s "WITH_INCOMPLETE"]))). do 2 eexists. split; [vm_compute; reflexivity |].
  split; [reflexivity |]. split; [vm_compute; reflexivity |]. split; [vm_compute; reflexivity |].
  intros (w & _ & (v & [])).
Qed.
Print Assumptions C82_with_incomplete_refuted.
