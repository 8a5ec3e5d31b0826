(** * Properties of when-conditions (C37, C38, C56, C57) *)
From Verif Require Import Base StrUtils Shell SpecShell ShellParser When SpecWhen
  WhenProofs WhenTests.

(** Names used in the examples. *)
Definition zenv0 : zenv :=
  {| z_query := s "_prog__query"; z_option_match := s "_prog__match"; z_array_contains := s "_prog__has" |}.
Definition benv0 : benv :=
  {| b_array_contains := s "_prog__has"; b_array_contains_nocase := s "_prog__hasi";
     b_array_match := s "_prog__match"; b_vars := fun os => Ok (map (fun _ => s "OPT_a") os) |}.
(** [(has_option -a || option_is -b -- 'x y') && ! has_option -c] *)
Definition cond0 : conds (list str) :=
  And (One (Group (Or (One (Test [s "has_option"; s "-a"]))
                      (Test [s "option_is"; s "-b"; s "--"; s "x y"]))))
      (Negation (Test [s "has_option"; s "-c"])).
Definition read0 (args : list str) : wobj :=
  match mk_test (fun _ => true) args with Ok o => o | Err _ => HasOption [] end.
Definition truth0 (t : str) : bool := negb (str_eqb t (s "_prog__query has_option -c")).

(** ** C37: conditions keep their meaning *)

(** zsh: for every accepted condition, the code is a command list that evaluates to the value of
    the condition: alone, in front of [&& command], and between two [&&]. *)
Theorem C37_zsh_meaning ere env x ts ws : good_zenv env ->
  parse x = Ok ts -> complete ts -> parse_when ere x = Ok ws ->
  exists cond code, ws = map wtok_of (conds_syms cond) /\ zsh_when ere env x = Ok code /\
  forall truth before after, before <> [] -> forallb is_safe before = true ->
    after <> [] -> forallb is_safe after = true ->
    let holds := conds_true (zsh_true truth env) cond in
    sh_eval truth code = Some holds /\
    sh_eval truth (code ++ s " && " ++ after) = Some (holds && truth after) /\
    sh_eval truth (before ++ s " && " ++ code ++ s " && " ++ after)
      = Some (truth before && holds && truth after).
Proof.
  intros He Hp Hc Hw. destruct (accepted_when ere x ws ts Hw Hp Hc) as [cond ->].
  destruct (zsh_meaning ere env x cond He Hw) as (code & H1 & H2). exists cond, code. auto.
Qed.
Print Assumptions C37_zsh_meaning.

(** bash: the same; the code exists if the capture variables of the options are known. *)
Theorem C37_bash_meaning ere env x ts ws : good_benv env ->
  parse x = Ok ts -> complete ts -> parse_when ere x = Ok ws ->
  exists cond, ws = map wtok_of (conds_syms cond) /\
  ((forall options, exists vars, b_vars env options = Ok vars) ->
   exists code, bash_when ere env x = Ok code) /\
  forall code, bash_when ere env x = Ok code ->
  forall truth before after, before <> [] -> forallb is_safe before = true ->
    after <> [] -> forallb is_safe after = true ->
    let holds := conds_true (bash_true truth env) cond in
    sh_eval truth code = Some holds /\
    sh_eval truth (code ++ s " && " ++ after) = Some (holds && truth after) /\
    sh_eval truth (before ++ s " && " ++ code ++ s " && " ++ after)
      = Some (truth before && holds && truth after).
Proof.
  intros He Hp Hc Hw. destruct (accepted_when ere x ws ts Hw Hp Hc) as [cond ->]. exists cond.
  split; [reflexivity|]. split; [intros Hv; exact (bash_succeeds ere env x cond He Hw Hv)|].
  intros code Hb. exact (bash_meaning ere env x cond code He Hw Hb).
Qed.
Print Assumptions C37_bash_meaning.

(** From the text a person writes to the value of the generated code. *)
Theorem C37_zsh_written ere env (read : list str -> wobj) (e : conds (list str)) : good_zenv env ->
  (forall args, In (STest args) (conds_syms e) -> mk_test ere args = Ok (read args)) ->
  exists code, zsh_when ere env (written e) = Ok code /\
  forall truth after, after <> [] -> forallb is_safe after = true ->
    let holds := conds_true (fun args => zsh_true truth env (read args)) e in
    sh_eval truth code = Some holds /\
    sh_eval truth (code ++ s " && " ++ after) = Some (holds && truth after).
Proof.
  intros He Hr. destruct (zsh_meaning ere env (written e) (conds_map read e) He) as (code & H1 & H2).
  - apply written_when, Hr.
  - exists code. split; [exact H1|]. intros truth after Ha Hs.
    destruct (H2 truth (s "x") after) as (H3 & H4 & _); try assumption; try discriminate; [reflexivity|].
    rewrite (proj2 (true_map read _)) in H3, H4. split; assumption.
Qed.
Print Assumptions C37_zsh_written.

Theorem C37_bash_written ere env (read : list str -> wobj) (e : conds (list str)) : good_benv env ->
  (forall options, exists vars, b_vars env options = Ok vars) ->
  (forall args, In (STest args) (conds_syms e) -> mk_test ere args = Ok (read args)) ->
  exists code, bash_when ere env (written e) = Ok code /\
  forall truth after, after <> [] -> forallb is_safe after = true ->
    let holds := conds_true (fun args => bash_true truth env (read args)) e in
    sh_eval truth code = Some holds /\
    sh_eval truth (code ++ s " && " ++ after) = Some (holds && truth after).
Proof.
  intros He Hv Hr. pose proof (written_when ere read e Hr) as Hp.
  destruct (bash_succeeds ere env _ _ He Hp Hv) as [code Hb]. exists code. split; [exact Hb|].
  intros truth after Ha Hs.
  destruct (bash_meaning ere env _ _ code He Hp Hb truth (s "x") after) as (H3 & H4 & _);
    try assumption; try discriminate; [reflexivity|].
  rewrite (proj2 (true_map read _)) in H3, H4. split; assumption.
Qed.
Print Assumptions C37_bash_written.

(** zsh runs the helper with exactly the options and values of the test. *)
Theorem C37_zsh_words env o :
  match o with
  | OptionIs options values ic any =>
      posix_words (zsh_test env o) =
        Some ([z_query env; s "option_is"] ++ opt_word ic (s "-i") ++ opt_word any (s "-a") ++
              [s "--"] ++ options ++ [s "--"] ++ values)
  | OptionMatch options regex ic any =>
      posix_words (zsh_test env o) =
        Some ([z_option_match env] ++ opt_word ic (s "-i") ++ opt_word any (s "-a") ++
              [s "--"] ++ options ++ [s "--"; regex])
  | HasOption options =>
      posix_words (zsh_test env o) = Some ([z_query env; s "has_option"] ++ options)
  | PositionalCount op n =>
      zsh_test env o = s "(( ${#POSITIONALS[@]} " ++ op ++ s " " ++ z_str n ++ s " ))"
  | PositionalContains ic n values =>
      exists text,
        zsh_test env o = z_array_contains env ++ s " ""${" ++ (if ic then s "(L)" else []) ++
                         s "POSITIONALS[" ++ z_str n ++ s "]}"" " ++ text /\
        posix_words text = Some (if ic then map lower values else values)
  end.
Proof.
  destruct o as [os vs ic any|os r ic any|os|op n|ic n vs]; try (apply zsh_test_reads; reflexivity).
  - reflexivity.
  - destruct ic; eexists; (split; [reflexivity|]).
    + rewrite lower_join_quoted. apply ShellProofs.posix_join_quoted.
    + apply ShellProofs.posix_join_quoted.
Qed.
Print Assumptions C37_zsh_words.

Example C37_example :
  good_zenv zenv0 /\ good_benv benv0 /\
  (forall options, exists vars, b_vars benv0 options = Ok vars) /\
  (forall args, In (STest args) (conds_syms cond0) -> mk_test (fun _ => true) args = Ok (read0 args)) /\
  (exists ts, parse (written cond0) = Ok ts /\ complete ts) /\
  (exists ws, parse_when (fun _ => true) (written cond0) = Ok ws) /\
  zsh_when (fun _ => true) zenv0 (written cond0) =
    Ok (s "{ { _prog__query has_option -a || _prog__query option_is -- -b -- 'x y' ;} && ! _prog__query has_option -c; }") /\
  sh_eval truth0 (s "{ { _prog__query has_option -a || _prog__query option_is -- -b -- 'x y' ;} && ! _prog__query has_option -c; } && cmd")
    = Some true.
Proof.
  assert (forall x, forallb is_word x = true -> x <> [] -> is_name x) as N by (intros; split; assumption).
  split. { repeat split; try discriminate. }
  split. { repeat split; try discriminate.
    - intros E. cbn in H0. injection H0 as <-. destruct options; [congruence|discriminate].
    - cbn in H0. injection H0 as <-. apply in_map_iff in H1 as (? & <- & _). discriminate.
    - cbn in H0. injection H0 as <-. apply in_map_iff in H1 as (? & <- & _). reflexivity. }
  split. { intros os. eexists. reflexivity. }
  split. { intros args. unfold cond0. cbn. intros H.
    repeat (destruct H as [H|H]; [try discriminate; injection H as <-; reflexivity|]). destruct H. }
  split. { eexists. split; [vm_compute; reflexivity|]. split.
    - eexists (_ :: _ :: _ :: _ :: _ :: _ :: _ :: []), _. split; [reflexivity|]. right. eexists. reflexivity.
    - intros (a & args & b & E).
      repeat (destruct a as [|? a]; [discriminate|]; injection E as _ E). destruct a; discriminate. }
  split. { eexists. vm_compute. reflexivity. }
  split; vm_compute; reflexivity.
Qed.

(** ** C38: accepted conditions are well-formed *)

Theorem C38_balanced x ts : parse x = Ok ts -> balanced ts.
Proof. exact (accepted_balanced x ts). Qed.
Print Assumptions C38_balanced.

(** An accepted text is a boolean expression if it ends with a test or a closing parenthesis and
    no test directly follows a closing parenthesis.  Missing: the parser does not check these. *)
Theorem C38_accepted_partial x ts : parse x = Ok ts -> complete ts ->
  exists e : conds (list str), ts = map ctok_of (conds_syms e) /\
    forall args, In (STest args) (conds_syms e) -> args <> [].
Proof.
  intros H Hc. destruct (accepted_complete x ts H Hc) as [e ->]. exists e. split; [reflexivity|].
  intros args Hi. apply (accepted_tests x _ args H). apply in_map_iff. exists (STest args). auto.
Qed.
Print Assumptions C38_accepted_partial.

(** Every boolean expression is accepted, and read back as written. *)
Theorem C38_written e : (forall args, In (STest args) (conds_syms e) -> args <> []) ->
  parse (written e) = Ok (map ctok_of (conds_syms e)).
Proof. exact (parse_written e). Qed.
Print Assumptions C38_written.

(** The full claim fails: a condition may end with an operator... *)
Theorem C38_trailing_operator_refuted : exists x ts, parse x = Ok ts /\
  ~ exists e : conds (list str), ts = map ctok_of (conds_syms e).
Proof.
  exists (s "has_option -a &&"). eexists. split; [vm_compute; reflexivity|]. intros [e E].
  assert (strict true 0 (map sym_of (map ctok_of (conds_syms e))) = true) as H.
  { rewrite map_sym_ctok. apply strict_iff. eauto. }
  rewrite <- E in H. discriminate.
Qed.
Print Assumptions C38_trailing_operator_refuted.

(** ... and two operands may stand side by side. *)
Theorem C38_juxtaposition_refuted : exists x ts, parse x = Ok ts /\
  ~ exists e : conds (list str), ts = map ctok_of (conds_syms e).
Proof.
  exists (s "(has_option -a) has_option -b"). eexists. split; [vm_compute; reflexivity|]. intros [e E].
  assert (strict true 0 (map sym_of (map ctok_of (conds_syms e))) = true) as H.
  { rewrite map_sym_ctok. apply strict_iff. eauto. }
  rewrite <- E in H. discriminate.
Qed.
Print Assumptions C38_juxtaposition_refuted.

Example C38_example :
  parse (s "(has_option -a||! has_option -b)") =
    Ok [COpen; CCmd [s "has_option"; s "-a"]; COr; CNot; CCmd [s "has_option"; s "-b"]; CClose] /\
  complete [COpen; CCmd [s "has_option"; s "-a"]; COr; CNot; CCmd [s "has_option"; s "-b"]; CClose] /\
  (exists e, parse (s "(has_option -a") = Err e) /\ (exists e, parse (s "has_option -a)") = Err e) /\
  (exists e, parse (s "&& has_option -a") = Err e) /\
  written cond0 = s "( has_option -a || option_is -b -- 'x y' ) && ! has_option -c".
Proof.
  split; [vm_compute; reflexivity|]. split.
  { split.
    - eexists (_ :: _ :: _ :: _ :: _ :: []), _. split; [reflexivity|]. left. reflexivity.
    - intros (a & args & b & E).
      repeat (destruct a as [|? a]; [discriminate|]; injection E as _ E). destruct a; discriminate. }
  split; [eexists; vm_compute; reflexivity|]. split; [eexists; vm_compute; reflexivity|].
  split; [eexists; vm_compute; reflexivity|]. vm_compute; reflexivity.
Qed.

(** ** C56: single tests are read exactly as they are written *)

Theorem C56_tests_read_exactly ere args o : mk_test ere args = Ok o <-> writes ere args o.
Proof. exact (mk_test_iff ere args o). Qed.
Print Assumptions C56_tests_read_exactly.

(** Every sensible test can be written, and is read back. *)
Theorem C56_round_trip ere o : sensible ere o -> mk_test ere (test_args o) = Ok o.
Proof. exact (test_args_ok ere o). Qed.
Print Assumptions C56_round_trip.

(** Numbers are read back. *)
Theorem C56_numbers z : py_int (z_str z) = Some z.
Proof. exact (py_int_str z). Qed.
Print Assumptions C56_numbers.

(** The result of reading is sensible: it can be written again. *)
Theorem C56_result_sensible ere args o : mk_test ere args = Ok o -> sensible ere o.
Proof.
  intros H. apply mk_test_iff in H as (rest & [[_ H]|[[_ H]|[[_ H]|[[_ H]|[_ H]]]]]).
  - destruct H as (f & os & vs & _ & _ & H1 & H2 & H3 & ->). cbn. auto.
  - destruct H as (f & os & r & _ & _ & H1 & H2 & H3 & H4 & ->). cbn. auto.
  - destruct H as [H ->]. exact H.
  - destruct H as (op & n & z & _ & H & _ & ->). exact H.
  - destruct H as (ic & n & z & vs & _ & _ & H & ->). exact H.
Qed.
Print Assumptions C56_result_sensible.

Example C56_example :
  mk_test (fun _ => true) [s "option_is"; s "NoCase"; s "-a"; s "--all"; s "--"; s "any"; s "--"] =
    Ok (OptionIs [s "-a"; s "--all"] [s "any"; s "--"] true false) /\
  mk_test (fun _ => true) [s "option_match"; s "any"; s "-a"; s "--"; s "^x$"] =
    Ok (OptionMatch [s "-a"] (s "^x$") false true) /\
  mk_test (fun _ => true) [s "positional_count"; s ">="; s "-1_0"] = Ok (PositionalCount (s ">=") (-10)) /\
  mk_test (fun _ => true) [s "positional_contains"; s "-i"; s "2"; s "a b"] =
    Ok (PositionalContains true 2 [s "a b"]) /\
  (exists e, mk_test (fun _ => true) [s "option_is"; s "-a"; s "--"] = Err e) /\
  sensible (fun _ => true) (OptionIs [s "-a"] [s "v"] true true).
Proof.
  repeat split; try (vm_compute; reflexivity); try discriminate.
  - eexists. vm_compute. reflexivity.
  - intros x [<-|[]]. reflexivity.
Qed.

(** ** C57: fish conditions are read back word by word *)

(** Condition commands are put between double quotes ([complete -n "..."]); fish first reads the
    double-quoted string and later evaluates its contents. *)
Definition fish_reads_condition (text : str) (args : list str) : Prop :=
  exists inner, fish_words ([DQ] ++ text ++ [DQ]) = Some [inner] /\ fish_words inner = Some args.

(** Missing: words with backslashes or backticks, see below. *)
Theorem C57_condition_words_partial prefix args :
  (forall x, In x args -> ~ In BS x /\ ~ In BTICK x) ->
  exists text, make_condition_command prefix args = prefix ++ s " " ++ text /\
               fish_reads_condition text args.
Proof. exact (condition_command prefix args). Qed.
Print Assumptions C57_condition_words_partial.

Theorem C57_backtick_refuted : exists args text,
  make_condition_command (s "$has_option") args = s "$has_option " ++ text /\
  ~ fish_reads_condition text args.
Proof.
  exists [s "a`b"]. eexists. split; [reflexivity|]. intros (inner & H1 & H2).
  vm_compute in H1. injection H1 as <-. vm_compute in H2. discriminate.
Qed.
Print Assumptions C57_backtick_refuted.

Theorem C57_backslash_refuted : exists args text,
  make_condition_command (s "$has_option") args = s "$has_option " ++ text /\
  ~ fish_reads_condition text args.
Proof.
  exists [s "a\\b"]. eexists. split; [reflexivity|]. intros (inner & H1 & H2).
  vm_compute in H1. injection H1 as <-. vm_compute in H2. discriminate.
Qed.
Print Assumptions C57_backslash_refuted.

Example C57_example :
  make_condition_command (s "$option_is") [s "--"; s "-a"; s "--"; s "it's $HOME"; s "say ""hi"""] =
    s "$option_is -- -a -- \""it's \\\$HOME\"" 'say \""hi\""'" /\
  (forall x, In x [s "--"; s "-a"; s "it's $HOME"] -> ~ In BS x /\ ~ In BTICK x).
Proof.
  split; [vm_compute; reflexivity|].
  intros x H. cbn in H. repeat (destruct H as [<-|H]; [split; intros E; cbn in E; intuition discriminate|]).
  destruct H.
Qed.
