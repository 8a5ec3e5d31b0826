(** * Validation accepts what the manual describes. *)
From Verif Require Import Base Dict Value StrUtils Cli DictSource SchemeValidator SpecScheme SpecCli SpecValid
  SchemeNested SchemeProofs SchemeForms SchemeKinds SchemeWritten SchemeDefinitions ArgparseSource PropertiesScheme.
Local Open Scope string_scope.
Local Open Scope list_scope.

(** ** C84 *)

(** The completer of an option is accepted exactly if it is written as the manual says: it has one
    of the names of the manual, the arguments and options of that name, of the right types and
    values, and stands in a place where that name is allowed; and so does each completer in it.
    Missing: completers with restrictions that follow a completer that contains others as a
    sibling (see C33). *)
Theorem C84_completer_partial e positionals v :
  proper v -> undisturbed v ->
  accepted e (MkCtx None positionals) [] v <-> completer_written e (MkCtx None positionals) v.
Proof. intros Hp Hu. apply completer_iff; [intros p H; discriminate|exact Hp|exact Hu]. Qed.

(** A list of definitions is accepted exactly if the definitions of the main program and its direct
    subcommands are written as the manual says and agree with each other.  Missing: the definitions
    of deeper subcommands (C32), and the completers left out above. *)
Theorem C84_definitions_partial e docs :
  (forall v, In v docs -> proper v) ->
  (forall v x, In v docs -> completer_of v x -> undisturbed x) ->
  validate e docs = Ok tt <->
  Forall names_program docs /\ NoDup (map words docs) /\ parents_first docs /\ one_program docs /\
  forall v, In v docs -> length (words v) <= 2 ->
    (exists d, v = VDict d /\ definition_written e d) /\
    last_repeatable (positionals_of v) /\
    (some_repeatable (positionals_of v) -> ~ has_subcommand docs v).
Proof.
  intros Hp Hu. rewrite validate_iff.
  assert (K : forall v, In v docs -> (exists d, v = VDict d /\ check_definition e d = Ok tt) <->
    (exists d, v = VDict d /\ definition_written e d)).
  { intros v Hv. split; intros (d & -> & H); exists d; (split; [reflexivity|]);
      apply (definition_written_iff e d (Hp _ Hv) (fun x => Hu _ x Hv)); exact H. }
  unfold right. split; intros (H1 & H2 & H3 & H4 & H); (split; [exact H1|]; split; [exact H2|]; split; [exact H3|];
    split; [exact H4|]); intros v Hv Hw; destruct (H v Hv Hw) as [A B]; (split; [|exact B]); apply (K v Hv), A.
Qed.

(** A way to see that the hypotheses hold. *)
Fixpoint keys_once (l : list value) : bool :=
  match l with [] => true | x :: l' => negb (existsb (value_eqb x) l') && keys_once l' end.
Lemma keys_once_ok l : keys_once l = true -> NoDup l.
Proof.
  induction l as [|x l IH]; intros H; constructor; cbn [keys_once] in H; apply andb_true_iff in H as [H1 H2]; auto.
  intros Hx. apply negb_true_iff in H1. assert (existsb (value_eqb x) l = true); [|congruence].
  apply existsb_exists. exists x. split; [exact Hx|]. now destruct (value_eqb_spec x x).
Qed.
Fixpoint properb (v : value) : bool :=
  match v with
  | VList l => (fix go l := match l with [] => true | x :: l' => properb x && go l' end) l
  | VDict d => keys_once (map fst d) &&
      (fix go (d : list (value * value)) := match d with [] => true | (_, x) :: d' => properb x && go d' end) d
  | _ => true
  end.
Lemma properb_ok v : properb v = true -> proper v.
Proof.
  intros H d Hp. remember (VDict d) as w eqn:Ew. revert H. induction Hp as [v|l x y Hx Hp IH|d' k x y Hx Hp IH]; intros H.
  - subst v. cbn [properb] in H. apply andb_true_iff in H as [H _]. now apply keys_once_ok.
  - apply (IH Ew). clear -Hx H. cbn [properb] in H. induction l as [|a l IHl]; [destruct Hx|].
    apply andb_true_iff in H as [H1 H2]. destruct Hx as [->|Hx]; auto.
  - apply (IH Ew). clear -Hx H. cbn [properb] in H. apply andb_true_iff in H as [_ H].
    induction d' as [|[a b] l IHl]; [destruct Hx|].
    apply andb_true_iff in H as [H1 H2]. destruct Hx as [E|Hx]; [injection E as _ ->; exact H1|auto].
Qed.
Lemma not_nesting_children y : ~ nesting y -> children y = [].
Proof.
  intros H. destruct y as [| | | | |l|]; try reflexivity. destruct l as [|[] l]; try reflexivity.
  apply children_other. intros K. apply H. exact K.
Qed.
Lemma flat_undisturbed v : (forall y, In y (children v) -> ~ nesting y) -> undisturbed v.
Proof.
  intros H enc x l1 y l2 z Hi E Hy Hz. exfalso.
  apply inside_children in Hi as [[_ ->]|(w & Hw & Hi)].
  - apply (H y); [rewrite E; apply in_elt|exact Hy].
  - apply inside_children in Hi as [[_ ->]|(u & Hu & _)].
    + rewrite (not_nesting_children w (H w Hw)) in E. destruct l1; discriminate.
    + rewrite (not_nesting_children w (H w Hw)) in Hu. destruct Hu.
Qed.

Definition files : value :=
  VList [text "combine"; VList [texts ["file"]; VList [text "choices"; texts ["-"; "auto"]]]].
Definition tool : list value :=
  [doc "tool" [opt_doc ["--in"; "-i"] [entry "complete" files; entry "metavar" (text "FILE")]] [];
   doc "tool run" [] [pos_doc 1 [entry "complete" (texts ["command"])];
                      pos_doc 2 [entry "complete" (texts ["command_arg"]); entry "repeatable" (VBool true)]]].
Example C84_example :
  (forall v, In v tool -> proper v) /\ (forall v x, In v tool -> completer_of v x -> undisturbed x) /\
  validate e0 tool = Ok tt /\ proper files /\ undisturbed files /\ children files <> [].
Proof.
  assert (U : undisturbed files).
  { apply flat_undisturbed. intros y [<-|[<-|[]]]; unfold nesting; cbn; intuition discriminate. }
  split; [|split; [|split; [|split; [|split]]]].
  - intros v [<-|[<-|[]]]; apply properb_ok; vm_compute; reflexivity.
  - intros v x Hv (d & k & l & w & o & -> & Hk & Hl & Hw & -> & Ho).
    assert (x = files \/ children x = []) as [->|Hx]; [|exact U|].
    + destruct Hv as [E|[E|[]]]; injection E as <-; destruct Hk as [->| ->]; vm_compute in Hl; injection Hl as <-;
        repeat (destruct Hw as [Hw|Hw]; [injection Hw as <-; vm_compute in Ho; injection Ho as <-; vm_compute; auto|]);
        destruct Hw.
    + apply flat_undisturbed. rewrite Hx. intros y [].
  - vm_compute. reflexivity.
  - apply properb_ok. vm_compute. reflexivity.
  - exact U.
  - discriminate.
Qed.

(** ** C85 *)

(** Definitions that make validation fail with something else than a schema error: the option
    strings as a text; a positional that is no dictionary; a program name that is no text; an
    argument of a command ([command_arg]) behind a positional without a number, or behind one with
    an empty completer. *)
Theorem C85_crash_refuted :
  exists e bad, length bad = 5 /\
    forall docs, In docs bad -> exists x, validate e docs = Err x /\ forall m, x <> CrazyError m.
Proof.
  exists e0,
    [[doc "tool" [VDict [entry "option_strings" (text "--foo")]] []];
     [doc "tool" [] [VNone]];
     [VDict [entry "prog" (VInt 1)]];
     [doc "tool" [] [pos_doc 2 [entry "complete" (texts ["command_arg"]); entry "repeatable" (VBool true)];
                     VDict [entry "complete" (texts ["command"])]]];
     [doc "tool" [] [pos_doc 2 [entry "complete" (texts ["command_arg"]); entry "repeatable" (VBool true)];
                     pos_doc 1 [entry "complete" (VList [])]]]].
  split; [reflexivity|]. intros docs [<-|[<-|[<-|[<-|[<-|[]]]]]]; eexists; (split; [vm_compute; reflexivity|discriminate]).
Qed.

Print Assumptions C84_completer_partial.
Print Assumptions C84_definitions_partial.
Print Assumptions C85_crash_refuted.
