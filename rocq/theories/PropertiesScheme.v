(** * The theorems about the validation of definitions. *)
From Verif Require Import Base Dict Value StrUtils Cli DictSource SchemeValidator SpecScheme
  SchemeNested SchemeProofs ArgparseSource.
Local Open Scope string_scope.
Local Open Scope list_scope.

(** For the examples: every regular expression and every glob pattern is fine. *)
Definition e0 : env := MkEnv (fun _ => true) (fun _ => Ok tt) (fun _ _ => false).
Definition entry (k : String.string) (v : value) : value * value := (VStr (s k), v).
Definition text (x : String.string) : value := VStr (s x).
Definition texts (l : list String.string) : value := VList (map text l).

(** ** C32 *)

(** Validation accepts exactly the lists of definitions with one main program, every program
    defined once and after its parent, in which the main program and its direct subcommands are
    right.  Missing: the definitions of deeper subcommands. *)
Theorem C32_accepted_exactly_partial e docs :
  validate e docs = Ok tt <->
  Forall names_program docs /\ NoDup (map words docs) /\ parents_first docs /\ one_program docs /\
  forall v, In v docs -> length (words v) <= 2 -> right e docs v.
Proof. exact (validate_iff e docs). Qed.

Definition doc (prog : String.string) (options positionals : list value) : value :=
  VDict [entry "prog" (text prog); entry "options" (VList options);
         entry "positionals" (VList positionals)].
Definition opt_doc (strings : list String.string) (more : list (value * value)) : value :=
  VDict (entry "option_strings" (texts strings) :: more).
Definition pos_doc (n : Z) (more : list (value * value)) : value :=
  VDict (entry "number" (VInt n) :: more).

Example C32_example :
  let docs := [doc "git" [opt_doc ["--version"; "-v"] []] [];
               doc "git remote" [] [];
               doc "git remote add" [opt_doc ["--track"] [entry "complete" (texts ["file"])]]
                 [pos_doc 1 []; pos_doc 2 [entry "repeatable" (VBool true)]]] in
  validate e0 docs = Ok tt /\ map words docs = [[s "git"]; [s "git"; s "remote"]; [s "git"; s "remote"; s "add"]].
Proof. vm_compute; auto. Qed.

(** A definition that breaks the rules is accepted if it is deep enough. *)
Theorem C32_deep_definition_refuted :
  exists e docs v, validate e docs = Ok tt /\ In v docs /\
    forall d, v = VDict d -> check_definition e d <> Ok tt.
Proof.
  exists e0, [doc "a" [] []; doc "a b" [] []; doc "a b c" [opt_doc ["no dash"] []] []],
    (doc "a b c" [opt_doc ["no dash"] []] []).
  split; [vm_compute; reflexivity|]. split; [right; right; left; reflexivity|].
  intros d E. injection E as <-. vm_compute. discriminate.
Qed.

(** ** C33 *)

(** If no completer with restrictions follows a completer that contains others as a sibling, a
    completer is accepted exactly if each completer in it, at any depth, is fine in the place
    given by the completers that enclose it. *)
Theorem C33_judged_by_place_partial e c v enc :
  undisturbed v ->
  (accepted e c enc v <-> forall enc' x, inside enc v enc' x -> fine e c enc' x).
Proof. exact (accepted_inside e c v enc). Qed.

Definition kvl (entries : list value) : value :=
  VList [text "key_value_list"; text ","; text "="; VList entries].
Definition field (k : String.string) (v : value) : value := VList [text k; VNone; v].

Lemma inside_children enc v enc' x : inside enc v enc' x ->
  (enc' = enc /\ x = v) \/ exists y, In y (children v) /\ inside (enc ++ [name_of v]) y enc' x.
Proof.
  induction 1 as [|enc' x y Hi IH Hy]; [left; auto|right].
  destruct IH as [[-> ->]|(z & Hz & IH)].
  - exists y. split; [exact Hy|constructor].
  - exists z. split; [exact Hz|]. constructor; assumption.
Qed.

(** [[list, [file]]] first, then a field without completion: *)
Definition tangled : value :=
  kvl [field "a" (VList [text "list"; texts ["file"]]); field "b" (texts ["none"])].
Definition untangled : value :=
  kvl [field "b" (texts ["none"]); field "a" (VList [text "list"; texts ["file"]])].

Example C33_example :
  undisturbed untangled /\ (exists t, check_complete e0 (MkCtx None VNone) [] untangled = Ok t) /\
  inside [] untangled [s "key_value_list"; s "list"] (texts ["file"]).
Proof.
  split; [|split].
  - intros enc x l1 y l2 z Hi E Hy Hz.
    apply inside_children in Hi as [[_ ->]|(v1 & Hv1 & Hi)].
    + change (children untangled) with [texts ["none"]; VList [text "list"; texts ["file"]]] in E.
      destruct l1 as [|a [|b l1]]; cbn [app] in E.
      * injection E as <- <-. exfalso. revert Hy. unfold nesting. cbn. intuition discriminate.
      * injection E as _ <- <-. destruct Hz.
      * injection E as _ _ E. destruct l1; discriminate.
    + change (children untangled) with [texts ["none"]; VList [text "list"; texts ["file"]]] in Hv1.
      destruct Hv1 as [<-|[<-|[]]].
      * apply inside_children in Hi as [[_ ->]|(v2 & Hv2 & _)]; [|destruct Hv2].
        destruct l1; discriminate.
      * apply inside_children in Hi as [[_ ->]|(v2 & Hv2 & Hi)].
        -- change (children (VList [text "list"; texts ["file"]])) with [texts ["file"]] in E.
           destruct l1 as [|a [|]]; cbn [app] in E; [injection E as _ <-; destruct Hz| |];
             injection E as _ E; destruct l1 || idtac; discriminate.
        -- change (children (VList [text "list"; texts ["file"]])) with [texts ["file"]] in Hv2.
           destruct Hv2 as [<-|[]].
           apply inside_children in Hi as [[_ ->]|(v3 & Hv3 & _)]; [|destruct Hv3].
           destruct l1; discriminate.
  - eexists. vm_compute. reflexivity.
  - change [s "key_value_list"; s "list"] with (([] ++ [name_of untangled]) ++ [s "list"]).
    apply (inside_child _ _ _ (VList [text "list"; texts ["file"]])); [|left; reflexivity].
    apply inside_child; [constructor|right; left; reflexivity].
Qed.

(** The same entries in another order are rejected. *)
Theorem C33_order_of_siblings_refuted :
  exists e c l1 l2, Permutation.Permutation l1 l2 /\
    accepted e c [] (kvl l1) /\ ~ accepted e c [] (kvl l2).
Proof.
  exists e0, (MkCtx None VNone),
    [field "b" (texts ["none"]); field "a" (VList [text "list"; texts ["file"]])],
    [field "a" (VList [text "list"; texts ["file"]]); field "b" (texts ["none"])].
  split; [apply Permutation.perm_swap|]. split.
  - eexists. vm_compute. reflexivity.
  - intros [t H]. vm_compute in H. discriminate.
Qed.

(** A completer that is not allowed in its place is accepted after a suitable sibling. *)
Theorem C33_forbidden_place_refuted :
  exists e c v enc x, accepted e c [] v /\ inside [] v enc x /\ ~ fine e c enc x.
Proof.
  exists e0, (MkCtx None VNone),
    (VList [text "combine";
       VList [VList [text "prefix"; text "x"; kvl [field "a" (texts ["file"])]]; texts ["none"]]]),
    [s "combine"], (texts ["none"]).
  split; [eexists; vm_compute; reflexivity|]. split.
  - apply (inside_child [] _ [] (VList [text "combine";
       VList [VList [text "prefix"; text "x"; kvl [field "a" (texts ["file"])]]; texts ["none"]]]));
      [constructor|right; left; reflexivity].
  - intros [t H]. vm_compute in H. discriminate.
Qed.

(** ** C34 *)

(** In an accepted list of definitions, a repeatable positional of the program or of one of its
    direct subcommands is the last thing the command accepts. *)
Theorem C34_repeatable_is_last e docs v :
  validate e docs = Ok tt -> In v docs -> length (words v) <= 2 ->
  last_repeatable (positionals_of v) /\
  (some_repeatable (positionals_of v) -> ~ has_subcommand docs v).
Proof.
  intros H Hv Hl. apply validate_iff in H as (_ & _ & _ & _ & H). exact (proj2 (H v Hv Hl)).
Qed.

(** The check of the positionals of one definition accepts exactly the lists of positionals in
    which the repeatable ones share the highest number; [f] is the tree of definitions. *)
Theorem C34_check_exact e f d p node :
  check_definition e d = Ok tt -> vget (s "prog") d = Some (VStr p) ->
  find_def (split_c SP p) f = Some node ->
  check_positionals_repeatable f d = Ok tt <->
  last_repeatable (positionals_of (VDict d)) /\
  (some_repeatable (positionals_of (VDict d)) -> nonempty (n_subs node) = false).
Proof. exact (check_repeatable_iff e f d p node). Qed.

Definition rep : value * value := entry "repeatable" (VBool true).
Example C34_example :
  validate e0 [doc "a" [] [pos_doc 2 [rep]; pos_doc 1 []; pos_doc 2 [rep]]] = Ok tt /\
  some_repeatable (positionals_of (doc "a" [] [pos_doc 2 [rep]; pos_doc 1 []; pos_doc 2 [rep]])) /\
  validate e0 [doc "a" [] [pos_doc 2 [rep]; pos_doc 1 [rep]]] <> Ok tt /\
  validate e0 [doc "a" [] [pos_doc 2 []; pos_doc 1 [rep]]] <> Ok tt /\
  validate e0 [doc "a" [] [pos_doc 1 [rep]]; doc "a b" [] []] <> Ok tt.
Proof.
  split; [vm_compute; reflexivity|]. split.
  - exists (pos_doc 2 [rep]), 2%Z. split; [left; reflexivity|].
    exists [entry "number" (VInt 2); rep]. split; [reflexivity|].
    split; [left; vm_compute; reflexivity|vm_compute; reflexivity].
  - vm_compute. repeat split; discriminate.
Qed.

(** ** C35 *)

(** A range with integer arguments is accepted exactly if its step is not zero and its first
    number belongs to it; without a third argument the step is 1. *)
Theorem C35_range_accepted e c enc start stop step :
  (accepted e c enc (VList [text "range"; VInt start; VInt stop; VInt step]) <->
   step <> 0%Z /\ in_range start stop step start) /\
  (accepted e c enc (VList [text "range"; VInt start; VInt stop]) <-> in_range start stop 1 start).
Proof.
  assert (E : forall args, accepted e c enc (VList (text "range" :: args)) <-> check_range args = Ok tt).
  { intros args. unfold accepted. split.
    - intros [t H]. apply check_other_eq in H as (_ & k & Hk & _ & H).
      + vm_compute in Hk. injection Hk as <-. exact H.
      + unfold nesting_name. cbn. intuition discriminate.
    - intros H. exists enc. apply check_other_eq.
      + unfold nesting_name. cbn. intuition discriminate.
      + split; [reflexivity|]. exists KRange. split; [vm_compute; reflexivity|]. split; [exact I|exact H]. }
  rewrite !E. split; [apply check_range_iff|].
  change (check_range [VInt start; VInt stop]) with (check_range [VInt start; VInt stop; VInt 1]).
  rewrite check_range_iff. split; [tauto|]. intros H; split; [discriminate|exact H].
Qed.

(** The completer made from a Python range offers exactly the elements of the range. *)
Theorem C35_python_range start stop step x : step <> 0%Z ->
  exists start' stop' step',
    (range_to_complete start stop step = VList [text "range"; VInt start'; VInt stop'; VInt step'] \/
     range_to_complete start stop step = VList [text "range"; VInt start'; VInt stop'] /\ step' = 1%Z) /\
    (in_range start' stop' step' x <-> in_pyrange start stop step x).
Proof.
  intros Hs. unfold range_to_complete, in_range, in_pyrange.
  exists start, (if step >? 0 then stop - 1 else stop + 1)%Z, step. split.
  - destruct (step =? 1)%Z eqn:E; [right; split; [reflexivity|apply Z.eqb_eq; exact E]|left; reflexivity].
  - rewrite Z.gtb_ltb. destruct (0 <? step)%Z eqn:E.
    + apply Z.ltb_lt in E. split; intros (k & H1 & H2 & H3 & H4); exists k; repeat split; lia.
    + apply Z.ltb_ge in E. split; intros (k & H1 & H2 & H3 & H4); exists k; repeat split; lia.
Qed.

(** ... and it is accepted if the Python range is not empty. *)
Theorem C35_python_range_accepted e c enc start stop step x : step <> 0%Z ->
  in_pyrange start stop step x -> accepted e c enc (range_to_complete start stop step).
Proof.
  intros Hs (k & Hk & -> & Hp & Hn).
  assert (H : in_range start (if step >? 0 then stop - 1 else stop + 1)%Z step start).
  { exists 0%Z. rewrite Z.gtb_ltb. destruct (0 <? step)%Z eqn:E.
    - apply Z.ltb_lt in E. repeat split; nia.
    - apply Z.ltb_ge in E. repeat split; nia. }
  unfold range_to_complete. destruct (step =? 1)%Z eqn:E.
  - apply Z.eqb_eq in E. subst step. apply (proj2 (C35_range_accepted e c enc start _ 1)). exact H.
  - apply (proj1 (C35_range_accepted e c enc start _ step)). auto.
Qed.

Example C35_example :
  range_to_complete 10 0 (-3) = VList [text "range"; VInt 10; VInt 1; VInt (-3)] /\
  in_pyrange 10 0 (-3) 4 /\ in_pyrange 10 0 (-3) 1 /\ ~ in_range 10 1 (-3) 0 /\
  accepted e0 (MkCtx None VNone) [] (range_to_complete 10 0 (-3)) /\
  ~ accepted e0 (MkCtx None VNone) [] (VList [text "range"; VInt 1; VInt 9; VInt (-2)]).
Proof.
  split; [reflexivity|]. split; [exists 2%Z; repeat split; lia|]. split; [exists 3%Z; repeat split; lia|].
  split; [intros (k & _ & H & _); lia|]. split; [eexists; vm_compute; reflexivity|].
  intros [t H]. vm_compute in H. discriminate.
Qed.

Print Assumptions C32_accepted_exactly_partial.
Print Assumptions C32_deep_definition_refuted.
Print Assumptions C33_judged_by_place_partial.
Print Assumptions C33_order_of_siblings_refuted.
Print Assumptions C33_forbidden_place_refuted.
Print Assumptions C34_repeatable_is_last.
Print Assumptions C34_check_exact.
Print Assumptions C35_range_accepted.
Print Assumptions C35_python_range.
Print Assumptions C35_python_range_accepted.
