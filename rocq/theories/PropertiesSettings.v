(** * Property C119: options of the program and the settings they make.  Statements only. *)
From Verif Require Import Base PyStr Cli Generation YamlParser SpecRanges RangesProofs HelpConverterProofs StrUtilsProofs Settings SpecSettings SettingsProofs.
Open Scope string_scope.
Open Scope list_scope.
Open Scope nat_scope.

(** C119.  Every version that is written with dots is understood, and the functions of
    bash-completion that a script calls are those of the new interface (their names start with
    [_comp_]) exactly if the version is 2.12 or later: 2.9 is before 2.12. *)
Theorem C119_version : forall (parts : list nat) (f : function), parts <> [] ->
  exists v, version (join [DOT] (map show_nat parts)) = Ok v /\ (starts_with (s "_comp_") (name_for v f) = true <-> since_2_12 parts).
Proof.
  intros parts f Hn. exists (map Z.of_nat parts). split; [now apply version_show |]. rewrite <- ge_2_12. unfold name_for.
  destruct (tuple_ge _ _); destruct f; cbn; split; intros H; (reflexivity || discriminate H).
Qed.
Print Assumptions C119_version.
Example C119_version_example : version (s "2.9") = Ok [2; 9]%Z /\ name_for [2; 9]%Z filedir = s "_filedir" /\
  name_for [2; 12; 1]%Z filedir = s "_comp_compgen_filedir" /\ since_2_12 [2; 12; 1] /\ ~ since_2_12 [2; 9] /\ ~ since_2_12 [2].
Proof.
  split; [reflexivity |]. split; [reflexivity |]. split; [reflexivity |]. split; [exists 2, 12, [1; 0; 0]; split; [reflexivity | lia] |].
  split; intros (a & b & r & E & H); injection E as <- <- <-; lia.
Qed.

(** C119.  A truth value is [true] or [false] in small or capital letters, and nothing else. *)
Theorem C119_boolean : forall (x : str) (b : bool), boolean x = Ok b <-> lower x = s (if b then "true" else "false").
Proof.
  intros x b. unfold boolean. destruct (str_eqb_spec (lower x) (s "true")) as [E | E]; [| destruct (str_eqb_spec (lower x) (s "false")) as [E2 | E2]].
  - rewrite E. split; [intros H; now injection H as <- | destruct b; [reflexivity | discriminate]].
  - rewrite E2. split; [intros H; now injection H as <- | destruct b; [discriminate | reflexivity]].
  - split; [discriminate |]. destruct b; congruence.
Qed.
Print Assumptions C119_boolean.
Example C119_boolean_example : boolean (s "TRUE") = Ok true /\ boolean (s "False") = Ok false /\ boolean (s "yes") = Err (ValueError (s "Not a bool: yes")).
Proof. repeat split. Qed.

(** C119.  A list of features is accepted exactly if all of them exist ... *)
Theorem C119_features : forall (l : list str), l <> [] -> (forall x, In x l -> ~ In COMMA x) ->
  (feature_list (join [COMMA] l) = Ok l <-> forall x, In x l -> In x [s "hidden"; s "final"; s "groups"; s "repeatable"; s "when"]) /\
  (feature_list (join [COMMA] l) <> Ok l -> exists m, feature_list (join [COMMA] l) = Err (ValueError m)).
Proof.
  intros l Hn Hc. unfold feature_list. rewrite split_join_c by assumption.
  assert (G : forall r, (check_features r = Ok tt <-> forall x, In x r -> In x FEATURES) /\ (check_features r <> Ok tt -> exists m, check_features r = Err (ValueError m))).
  { induction r as [| x r [IH1 IH2]]; [split; [split; [intros _ y [] | reflexivity] | intros H; now destruct H] |]. cbn [check_features].
    destruct (mems x FEATURES) eqn:E.
    - assert (Hx : In x FEATURES). { unfold mems in E. apply existsb_exists in E as (y & Hy & Ey). apply str_eqb_eq in Ey as <-. exact Hy. }
      split; [| exact IH2]. rewrite IH1. split; [intros H y [<- | Hy]; [exact Hx | now apply H] | intros H y Hy; apply H; now right].
    - split; [split; [discriminate |] | intros _; now eexists]. intros H. assert (Hx : In x FEATURES) by (apply H; now left). exfalso.
      assert (T : mems x FEATURES = true) by (unfold mems; apply existsb_exists; exists x; split; [exact Hx | apply str_eqb_refl]). congruence. }
  destruct (G l) as [G1 G2]. fold FEATURES. split.
  - rewrite <- G1. destruct (check_features l) as [e | []]; cbn [bind]; split; try discriminate; reflexivity.
  - intros H. destruct (check_features l) as [e | []] eqn:E; cbn [bind] in *; [| now destruct H]. destruct G2 as [m Em]; [discriminate |]. exists m. now injection Em as ->.
Qed.
Print Assumptions C119_features.
(** ... and each of them switches off exactly that feature; the other options set exactly the setting
    of their name. *)
Theorem C119_settings : forall co : cli_options, let cf := get_config_from_options co in
  (cf_disabled_hidden cf = true <-> In (s "hidden") (co_disable co)) /\ (cf_disabled_final cf = true <-> In (s "final") (co_disable co)) /\
  (cf_disabled_groups cf = true <-> In (s "groups") (co_disable co)) /\ (cf_disabled_repeatable cf = true <-> In (s "repeatable") (co_disable co)) /\
  (cf_disabled_when cf = true <-> In (s "when") (co_disable co)) /\
  cf_abbreviate_commands cf = co_abbreviate_commands co /\ cf_abbreviate_options cf = co_abbreviate_options co /\
  cf_repeatable_options cf = co_repeatable_options co /\ cf_inherit_options cf = co_inherit_options co /\ cf_long_opt_arg_sep cf = co_long_opt_arg_sep co.
Proof.
  intros co. unfold get_config_from_options. cbv zeta.
  assert (G : forall l cf, let cf' := fold_left disable l cf in
    (cf_disabled_hidden cf' = true <-> cf_disabled_hidden cf = true \/ In (s "hidden") l) /\ (cf_disabled_final cf' = true <-> cf_disabled_final cf = true \/ In (s "final") l) /\
    (cf_disabled_groups cf' = true <-> cf_disabled_groups cf = true \/ In (s "groups") l) /\ (cf_disabled_repeatable cf' = true <-> cf_disabled_repeatable cf = true \/ In (s "repeatable") l) /\
    (cf_disabled_when cf' = true <-> cf_disabled_when cf = true \/ In (s "when") l) /\
    cf_abbreviate_commands cf' = cf_abbreviate_commands cf /\ cf_abbreviate_options cf' = cf_abbreviate_options cf /\
    cf_repeatable_options cf' = cf_repeatable_options cf /\ cf_inherit_options cf' = cf_inherit_options cf /\ cf_long_opt_arg_sep cf' = cf_long_opt_arg_sep cf).
  { induction l as [| x l IH]; intros cf; [cbn; intuition |]. cbn [fold_left]. specialize (IH (disable cf x)). cbv zeta in *.
    destruct IH as (H1 & H2 & H3 & H4 & H5 & H6 & H7 & H8 & H9 & H10). rewrite H1, H2, H3, H4, H5, H6, H7, H8, H9, H10. clear H1 H2 H3 H4 H5 H6 H7 H8 H9 H10.
    destruct cf as [ac ao ro io sp dh df dg dr dw]. unfold disable.
    destruct (str_eqb_spec x (s "hidden")) as [-> | N1]; [cbn; intuition discriminate |]. destruct (str_eqb_spec x (s "final")) as [-> | N2]; [cbn; intuition discriminate |].
    destruct (str_eqb_spec x (s "groups")) as [-> | N3]; [cbn; intuition discriminate |]. destruct (str_eqb_spec x (s "repeatable")) as [-> | N4]; [cbn; intuition discriminate |].
    destruct (str_eqb_spec x (s "when")) as [-> | N5]; [cbn; intuition discriminate |]. cbn [cf_disabled_hidden cf_disabled_final cf_disabled_groups cf_disabled_repeatable cf_disabled_when In cf_abbreviate_commands cf_abbreviate_options cf_repeatable_options cf_inherit_options cf_long_opt_arg_sep].
    repeat split; intros H; intuition congruence. }
  specialize (G (co_disable co) (MkConfig (co_abbreviate_commands co) (co_abbreviate_options co) (co_repeatable_options co) (co_inherit_options co) (co_long_opt_arg_sep co) false false false false false)).
  cbv zeta in G. destruct G as (H1 & H2 & H3 & H4 & H5 & H6 & H7 & H8 & H9 & H10). rewrite H1, H2, H3, H4, H5, H6, H7, H8, H9, H10. cbn. intuition discriminate.
Qed.
Print Assumptions C119_settings.
Example C119_settings_example : let cf := get_config_from_options (MkCli true false false true Equals [s "when"; s "groups"] 0) in
  feature_list (s "when,groups") = Ok [s "when"; s "groups"] /\ cf = MkConfig true false false true Equals false false true false true /\
  line_length (MkCli true false false true Equals [] 0) = MAXSIZE.
Proof. repeat split. Qed.
(** C119.  The length at which lines are broken is never 0 or less: such a number stands for no limit. *)
Theorem C119_line_length : forall co : cli_options,
  (0 < line_length co)%Z /\ ((0 < co_max_line_length co)%Z -> line_length co = co_max_line_length co).
Proof.
  intros co. unfold line_length. destruct (Z.ltb_spec 0 (co_max_line_length co)) as [H | H]; split; intros; try lia; unfold MAXSIZE; lia.
Qed.
Print Assumptions C119_line_length.
