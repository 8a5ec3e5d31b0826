(** * Property C135: completing date formats in Fish.  Statements only. *)
From Coq Require Import String.
From Verif Require Import Base PrefixCompleter DateFormat SpecDateFormat DateFormatProofs.
Open Scope string_scope.
Open Scope list_scope.

(** What is typed: the argument, or what follows a prefix that was taken off. *)
Definition typed (arg : str) (strip : option str) (x : str) : Prop :=
  strip = None /\ arg = x \/ exists p, strip = Some p /\ arg = p ++ x.
Lemma typed_arg arg strip x : typed arg strip x -> completing_arg arg strip = x.
Proof.
  intros [[-> ->] | (p & -> & ->)]; [reflexivity |]. unfold completing_arg.
  rewrite (proj2 (starts_with_app p (p ++ x)) (ex_intro _ x eq_refl)). now rewrite skipn_app, skipn_all, Nat.sub_diag.
Qed.

(** A conversion that was begun can be finished: the suggestions keep what was typed, add one
    character, and are formats without unfinished conversions; each conversion of POSIX is among
    them. *)
Theorem C135_unfinished : forall arg strip x, typed arg strip x -> ~ In TAB x -> unfinished x ->
  (forall line, In line (date_format arg strip) -> exists c, suggested line = x ++ [c] /\ finished (x ++ [c])) /\
  (forall c, In c posix_conversions -> In (x ++ [c]) (map suggested (date_format arg strip))).
Proof. intros arg strip x Ht Hx Hu. unfold date_format. rewrite (typed_arg _ _ _ Ht). now apply lines_unfinished. Qed.
Print Assumptions C135_unfinished.

(** If there is nothing to finish, nothing is suggested.  Missing: formats that end with the
    conversion of a percent sign. *)
Theorem C135_finished_partial : forall arg strip x, typed arg strip x -> finished x ->
  (forall y, x <> y ++ [PERCENT; PERCENT]) -> date_format arg strip = [].
Proof. intros arg strip x Ht Hf Hp. unfold date_format. rewrite (typed_arg _ _ _ Ht). now apply lines_finished. Qed.
Print Assumptions C135_finished_partial.

(** Full claim: nothing is suggested for a finished format.  But behind [%%] letters are suggested as
    if they were conversions: [100%%Y] is the text [100%Y], not a year. *)
Theorem C135_percent_refuted : exists x c, finished x /\ In (x ++ [c]) (map suggested (date_format x None)) /\
  SpecDateFormat.written [Plain 49; Plain 48; Plain 48; Conversion PERCENT; Plain c] (x ++ [c]).
Proof.
  exists (s "100%%"), 89%N. split; [| split].
  - exists [Plain 49; Plain 48; Plain 48; Conversion PERCENT]. split; [repeat constructor; discriminate | reflexivity].
  - assert (forall a l, existsb (str_eqb a) l = true -> In a l) as M.
    { intros a l H. apply existsb_exists in H as (y & Hy & E). apply str_eqb_eq in E. now subst. }
    apply M. vm_compute. reflexivity.
  - split; [repeat constructor; discriminate | reflexivity].
Qed.
Print Assumptions C135_percent_refuted.

Example C135_example :
  unfinished (s "%Y-%") /\ ~ In TAB (s "%Y-%") /\ typed (s "+%Y-%") (Some (s "+")) (s "%Y-%") /\
  finished (s "%Y-%m") /\ (forall y, s "%Y-%m" <> y ++ [PERCENT; PERCENT]) /\
  In (s "%Y-%m" ++ [TAB] ++ s "month (01-12)") (date_format (s "+%Y-%") (Some (s "+"))).
Proof.
  split; [| split; [| split; [| split; [| split]]]].
  - exists (s "%Y-"). split; [reflexivity |]. exists [Conversion 89; Plain 45]. split; [repeat constructor; discriminate | reflexivity].
  - apply memc_false. reflexivity.
  - right. exists (s "+"). split; reflexivity.
  - exists [Conversion 89; Plain 45; Conversion 109]. split; [repeat constructor; discriminate | reflexivity].
  - intros y E. apply (f_equal (@rev N)) in E. rewrite rev_app_distr in E. vm_compute in E. discriminate.
  - assert (forall a l, existsb (str_eqb a) l = true -> In a l) as M.
    { intros a l H. apply existsb_exists in H as (z & Hz & E). apply str_eqb_eq in E. now subst. }
    apply M. vm_compute. reflexivity.
Qed.
