(** * Proofs about the application. *)
From Verif Require Import Base Cli Application SpecApplication SpecOutput OutputProofs.
Open Scope list_scope.

Lemma changes_app a b : changes (a ++ b) = changes a ++ changes b.
Proof. apply filter_app. Qed.

(** ** Writing *)

Lemma write_ok w text file l : write_string_to_file w text file = (l, Ok tt) ->
  changes l = done (match file with Some f => ToFile f | None => ToScreen end) text.
Proof.
  unfold write_string_to_file, andthen, ret, tell, encode. destruct file as [f |].
  - destruct (w_open w f) as [e | []]; [discriminate |]. destruct (encodable text); intros H; [now injection H as <- | discriminate].
  - destruct (encodable text); intros H; [now injection H as <- | discriminate].
Qed.
Lemma write_err w text file l e : encodable text = true -> write_string_to_file w text file = (l, Err e) -> changes l = [].
Proof.
  intros E. unfold write_string_to_file, andthen, ret, tell, encode. rewrite E. destruct file as [f |]; [destruct (w_open w f) as [e' | []] |]; intros H;
    try discriminate; now injection H as <- _.
Qed.
Lemma load_changes w op : changes (fst (load_definition_file w op)) = [].
Proof.
  unfold load_definition_file, load, andthen, ret, tell. destruct (op_input_type op); try reflexivity.
  repeat match goal with |- context [if ?b then _ else _] => destruct b; try reflexivity end.
Qed.

(** ** Success and failure *)

Lemma generate_script w op l : is_script (op_shell op) = true -> exclusive op -> generate w op = (l, Ok tt) ->
  exists c text, snd (load_definition_file w op) = Ok c /\ w_script w (op_shell op) c = Ok text /\
    changes l = done (asked op (completion_file w (op_shell op) (c_prog c))) text.
Proof.
  intros Hs [X1 X2]. unfold generate. assert (Ht : op_input_type op <> InHelp \/ op_input_type op = InHelp) by (destruct (op_input_type op); (now right) || (left; discriminate)).
  destruct Ht as [Ht | Ht]; [| rewrite Ht; destruct (op_shell op); (discriminate Hs || discriminate)].
  assert (E : forall A (a b : A), match op_input_type op with InHelp => a | _ => b end = b) by (intros; destruct (op_input_type op); congruence). rewrite E. clear E.
  pose proof (load_changes w op) as Hl. destruct (load_definition_file w op) as [l1 [e | c]] eqn:El; cbn [andthen]; [discriminate |]. cbn [fst] in Hl.
  intros H. exists c. revert H.
  assert (G : forall sh, op_shell op = sh -> is_script sh = true ->
    (let '(l', r) := andthen (ret (w_script w sh c)) (fun output =>
              if op_install op || op_uninstall op then
                if op_install op then write_string_to_file w output (Some (completion_file w sh (c_prog c)))
                else andthen (ret (w_remove w (completion_file w sh (c_prog c)))) (fun _ => tell (Removed (completion_file w sh (c_prog c))))
              else write_string_to_file w output (op_output_file op)) in (l1 ++ l', r)) = (l, Ok tt) ->
    exists text, snd (l1, Ok c : res cmd) = Ok c /\ w_script w sh c = Ok text /\ changes l = done (asked op (completion_file w sh (c_prog c))) text).
  { intros sh _ _. unfold ret at 1. cbn [andthen]. destruct (w_script w sh c) as [e | text]; [discriminate |].
    intros H. exists text. split; [reflexivity |]. split; [reflexivity |]. revert H. cbn match. cbn [app]. unfold asked.
    destruct (op_install op) eqn:Ei.
    - cbn [orb]. destruct (X1 eq_refl) as [-> _]. destruct (write_string_to_file w text _) as [l2 [e2 | []]] eqn:Ew; cbn match; [discriminate |]. intros H. injection H as <-.
      rewrite changes_app, Hl. exact (write_ok w _ _ _ Ew).
    - cbn [orb]. destruct (op_uninstall op).
      + unfold ret, tell. cbn [andthen]. destruct (w_remove w _) as [e | []]; [discriminate |]. intros H. injection H as <-. rewrite changes_app, Hl. reflexivity.
      + destruct (write_string_to_file w text _) as [l2 [e2 | []]] eqn:Ew; cbn match; [discriminate |]. intros H. injection H as <-.
        rewrite changes_app, Hl. exact (write_ok w _ _ _ Ew). }
  destruct (op_shell op) eqn:Es; try discriminate Hs; intros H; apply (G _ eq_refl eq_refl H).
Qed.
Lemma generate_text w op l : is_script (op_shell op) = false -> op_install op = false -> op_uninstall op = false -> generate w op = (l, Ok tt) ->
  exists text installed, definition_text w op text /\ changes l = done (asked op installed) text.
Proof.
  intros Hs Hi Hu H. unfold generate in H. assert (G : forall text l1 l2, definition_text w op text -> changes l1 = [] -> write_string_to_file w text (op_output_file op) = (l2, Ok tt) ->
    exists text installed, definition_text w op text /\ changes (l1 ++ l2) = done (asked op installed) text).
  { intros text l1 l2 Hd H1 H2. exists text, []. split; [exact Hd |]. rewrite changes_app, H1. unfold asked. rewrite Hi, Hu. exact (write_ok w _ _ _ H2). }
  unfold definition_text in G at 1. pose proof (load_changes w op) as Hl.
  assert (Ht : op_input_type op <> InHelp \/ op_input_type op = InHelp) by (destruct (op_input_type op); (now right) || (left; discriminate)).
  destruct Ht as [Ht | Ht].
  - assert (E : forall A (a b : A), match op_input_type op with InHelp => a | _ => b end = b) by (intros; destruct (op_input_type op); congruence). rewrite E in H. clear E.
    destruct (load_definition_file w op) as [l1 [e | c]] eqn:El; cbn [fst] in Hl; cbn [andthen] in H; [discriminate |].
    destruct (op_shell op) eqn:Es; try discriminate Hs.
    + destruct (write_string_to_file w (w_to_json w c) (op_output_file op)) as [l2 [e2 | []]] eqn:Ew; [discriminate |]. injection H as <-. apply (G (w_to_json w c) l1 l2); [| exact Hl | exact Ew].
      right. split; [exact Ht |]. exists c. split; [reflexivity |]. now left.
    + destruct (write_string_to_file w (w_to_yaml w c) (op_output_file op)) as [l2 [e2 | []]] eqn:Ew; [discriminate |]. injection H as <-. apply (G (w_to_yaml w c) l1 l2); [| exact Hl | exact Ew].
      right. split; [exact Ht |]. exists c. split; [reflexivity |]. now right.
  - rewrite Ht in H. destruct (op_shell op) eqn:Es; try discriminate. unfold ret, tell in H. cbn [andthen] in H.
    destruct (w_help w _) as [e2 | t] eqn:Eh; [discriminate |]. destruct (write_string_to_file w t (op_output_file op)) as [l2 [e2 | []]] eqn:Ew; [discriminate |].
    injection H as <-. apply (G t [Read (op_definition_file op)] l2); [| reflexivity | exact Ew]. left. repeat split; assumption || reflexivity.
Qed.

(** Everything that may be written can be encoded. *)
Definition all_encodable (w : world) : Prop :=
  (forall f t, w_help w f = Ok t -> encodable t = true) /\ (forall c, encodable (w_to_json w c) = true) /\ (forall c, encodable (w_to_yaml w c) = true) /\
  (forall sh c t, w_script w sh c = Ok t -> encodable t = true).
Lemma andthen_err {A B} (x : act A) (f : A -> act B) l e : andthen x f = (l, Err e) ->
  (x = (l, Err e)) \/ exists l1 a l2, x = (l1, Ok a) /\ f a = (l2, Err e) /\ l = l1 ++ l2.
Proof.
  destruct x as [l1 [e1 | a]]; cbn [andthen]; intros H; [injection H as <- <-; now left |]. right. destruct (f a) as [l2 r] eqn:E. injection H as <- ->.
  now exists l1, a, l2.
Qed.
Lemma generate_err w op l e : all_encodable w -> generate w op = (l, Err e) -> changes l = [].
Proof.
  intros (Eh & Ej & Ey & Es) H. unfold generate in H.
  assert (G : forall (k : cmd -> act unit), (forall c l2 e2, k c = (l2, Err e2) -> changes l2 = []) -> andthen (load_definition_file w op) k = (l, Err e) -> changes l = []).
  { intros k Hk X. pose proof (load_changes w op) as Hl. apply andthen_err in X as [X | (l1 & a & l2 & X1 & X2 & ->)]; [now rewrite X in Hl |].
    rewrite X1 in Hl. cbn [fst] in Hl. rewrite changes_app, Hl. exact (Hk _ _ _ X2). }
  assert (K : forall sh c l2 e2, andthen (ret (w_script w sh c)) (fun output =>
              if op_install op || op_uninstall op then
                if op_install op then write_string_to_file w output (Some (completion_file w sh (c_prog c)))
                else andthen (ret (w_remove w (completion_file w sh (c_prog c)))) (fun _ => tell (Removed (completion_file w sh (c_prog c))))
              else write_string_to_file w output (op_output_file op)) = (l2, Err e2) -> changes l2 = []).
  { intros sh c l2 e2 X. apply andthen_err in X as [X | (l1 & t & l3 & X1 & X2 & ->)]; [now injection X as <- _ |]. injection X1 as <- X1. cbn [app].
    apply Es in X1. destruct (op_install op || op_uninstall op); [destruct (op_install op) |]; [exact (write_err w _ _ _ _ X1 X2) | | exact (write_err w _ _ _ _ X1 X2)].
    apply andthen_err in X2 as [X2 | (l4 & [] & l5 & Y1 & Y2 & ->)]; [now injection X2 as <- _ | discriminate Y2]. }
  destruct (op_input_type op); try (apply (G _) in H; [exact H |]; intros c l2 e2 X; destruct (op_shell op);
    [exact (K _ _ _ _ X) | exact (K _ _ _ _ X) | exact (K _ _ _ _ X) | exact (write_err w _ _ _ _ (Ej c) X) | exact (write_err w _ _ _ _ (Ey c) X)]).
  destruct (op_shell op); try (now injection H as <- _). apply andthen_err in H as [H | (l1 & [] & l2 & X1 & X2 & ->)]; [discriminate H |]. injection X1 as <-.
  rewrite changes_app. cbn [changes filter is_change app]. apply andthen_err in X2 as [X2 | (l3 & t & l4 & Y1 & Y2 & ->)]; [now injection X2 as <- _ |]. injection Y1 as <- Y1.
  cbn [app]. exact (write_err w _ _ _ _ (Eh _ _ Y1) Y2).
Qed.

(** ** Loading *)

Lemma write_no_load w text file k f : ~ In (Loaded k f) (fst (write_string_to_file w text file)).
Proof.
  unfold write_string_to_file, andthen, ret, tell, encode. destruct file as [g |]; [destruct (w_open w g) as [e | []] |]; try destruct (encodable text); cbn; intuition discriminate.
Qed.
Lemma andthen_in {A B} (x : act A) (f : A -> act B) e : In e (fst (andthen x f)) -> In e (fst x) \/ exists a, In e (fst (f a)).
Proof.
  destruct x as [l [e1 | a]]; cbn [andthen fst]; [now left |]. destruct (f a) as [l' r] eqn:E. cbn [fst]. intros H. apply in_app_or in H as [H | H]; [now left |].
  right. exists a. now rewrite E.
Qed.
Lemma python_only w op f : In (Loaded KPython f) (fst (generate w op)) -> op_input_type op = InPython /\ f = op_definition_file op.
Proof.
  unfold generate. assert (G : In (Loaded KPython f) (fst (load_definition_file w op)) -> op_input_type op = InPython /\ f = op_definition_file op).
  { unfold load_definition_file, load, andthen, ret, tell. destruct (op_input_type op); cbn.
    - intuition discriminate. - intuition discriminate. - intros [H | []]. injection H as <-. now split. - intros [].
    - repeat match goal with |- context [if ?b then _ else _] => destruct b; cbn; try (intuition discriminate) end. }
  assert (K : forall A (x : act A) (k : A -> act unit), (In (Loaded KPython f) (fst x) -> op_input_type op = InPython /\ f = op_definition_file op) ->
    (forall a, ~ In (Loaded KPython f) (fst (k a))) -> In (Loaded KPython f) (fst (andthen x k)) -> op_input_type op = InPython /\ f = op_definition_file op).
  { intros A x k H1 H2 H. apply andthen_in in H as [H | [a H]]; [now apply H1 | now destruct (H2 a)]. }
  assert (R : forall sh c, ~ In (Loaded KPython f) (fst (andthen (ret (w_script w sh c)) (fun output =>
              if op_install op || op_uninstall op then
                if op_install op then write_string_to_file w output (Some (completion_file w sh (c_prog c)))
                else andthen (ret (w_remove w (completion_file w sh (c_prog c)))) (fun _ => tell (Removed (completion_file w sh (c_prog c))))
              else write_string_to_file w output (op_output_file op))))).
  { intros sh c H. apply andthen_in in H as [[] | [t H]]. destruct (op_install op || op_uninstall op); [destruct (op_install op) |]; try (now apply write_no_load in H).
    apply andthen_in in H as [[] | [a H]]. destruct H as [H | []]; discriminate H. }
  destruct (op_input_type op) eqn:Et; try (apply K; [exact G |]; intros c; destruct (op_shell op); try apply R; apply write_no_load).
  destruct (op_shell op); try (intros []). intros H. exfalso. apply andthen_in in H as [[H | []] | [a H]]; [discriminate H |]. apply andthen_in in H as [[] | [t H]]. now apply write_no_load in H.
Qed.

(** ** Extensions *)

Lemma last_app {A} (l : list A) x d : last (l ++ [x]) d = x.
Proof. induction l as [| y l IH]; [reflexivity |]. cbn [app]. destruct (l ++ [x]) eqn:E; [now destruct l |]. cbn [last]. exact IH. Qed.
Lemma split_app c a b : split_c c (a ++ c :: b) = split_c c a ++ split_c c b.
Proof.
  induction a as [| d a IH].
  - cbn [app split_c]. destruct (split_c c b) as [| v vs] eqn:E; [now destruct (split_c_nonnil c b) |]. now rewrite N.eqb_refl.
  - cbn [app split_c]. rewrite IH. destruct (split_c c a) as [| v vs] eqn:E; [now destruct (split_c_nonnil c a) |]. cbn [app]. now destruct (N.eqb d c).
Qed.
Lemma only_dots x : forallb (fun p => str_eqb p []) (split_c DOT x) = negb (existsb (fun c => negb (N.eqb c DOT)) x).
Proof.
  induction x as [| c x IH]; [reflexivity |]. cbn [split_c existsb]. destruct (split_c DOT x) as [| v vs] eqn:E; [now destruct (split_c_nonnil DOT x) |].
  destruct (N.eqb_spec c DOT) as [-> | Hc].
  - cbn [forallb negb orb]. exact IH.
  - reflexivity.
Qed.
Lemma file_type_ok file ext : has_extension file ext -> file_type file = strip_p (N.eqb DOT) (lower (DOT :: ext)).
Proof.
  intros (dir & stem & -> & Hd & Hs & He & Hx & Hn). unfold file_type. f_equal. f_equal. assert (B : basename (dir ++ stem ++ DOT :: ext) = stem ++ DOT :: ext).
  { unfold basename. assert (N1 : ~ In SLASH (stem ++ DOT :: ext)).
    { intros H. apply in_app_or in H as [H | [H | H]]; [exact (Hs H) | discriminate H | exact (He H)]. }
    destruct Hd as [-> | [d ->]]; [cbn [app]; now rewrite split_c_word |].
    rewrite <- app_assoc. change ([SLASH] ++ stem ++ DOT :: ext) with (SLASH :: stem ++ DOT :: ext). rewrite split_app, (split_c_word SLASH (stem ++ _)) by exact N1. apply last_app. }
  rewrite B. unfold extension. rewrite split_app, (split_c_word DOT ext) by exact Hx. rewrite rev_app_distr. cbn [rev app].
  pose proof (only_dots stem) as Ho. rewrite Hn in Ho. destruct (rev (split_c DOT stem)) as [| v vs] eqn:E.
  - apply (f_equal (@rev str)) in E. rewrite rev_involutive in E. now destruct (split_c_nonnil DOT stem).
  - rewrite <- E, forallb_rev, Ho. reflexivity.
Qed.
Lemma lower_dot x : ~ In DOT x -> ~ In DOT (lower x).
Proof.
  intros H Hi. apply in_map_iff in Hi as (c & E & Hc). unfold lower_c in E. destruct (is_upper c) eqn:U; [| now subst].
  unfold is_upper in U. apply andb_true_iff in U as [U _]. apply N.leb_le in U. lia.
Qed.
Lemma strip_dot x : ~ In DOT x -> strip_p (N.eqb DOT) (DOT :: x) = x.
Proof.
  intros H. unfold strip_p. cbn [lstrip_p]. rewrite N.eqb_refl. assert (L : forall y, ~ In DOT y -> lstrip_p (N.eqb DOT) y = y).
  { intros [| c y] Hy; [reflexivity |]. cbn [lstrip_p]. destruct (N.eqb_spec DOT c) as [<- |]; [destruct Hy; now left | reflexivity]. }
  rewrite L by exact H. unfold rstrip_p. rewrite L by (rewrite <- in_rev; exact H). apply rev_involutive.
Qed.
Lemma file_type_lower file ext : has_extension file ext -> file_type file = lower ext.
Proof.
  intros H. rewrite (file_type_ok file ext H). destruct H as (dir & stem & _ & _ & _ & _ & Hx & _).
  change (lower (DOT :: ext)) with (DOT :: lower ext). now apply strip_dot, lower_dot.
Qed.

(** ** Batch files *)

Lemma commands_ok lines cs : commands lines cs ->
  filter (fun l => match l with [] => false | _ => negb (starts_with [HASH] l) end) (map (strip_p is_space) lines) = cs.
Proof.
  induction 1 as [| l t r cs Ht Hs _ IH | l c t r cs Ht Hc _ IH]; [reflexivity | |]; cbn [map filter]; rewrite (trimmed_strip _ _ Ht), IH.
  - destruct Hs as [-> | [t' ->]]; [reflexivity |]. cbn [starts_with]. now rewrite N.eqb_refl.
  - cbn [starts_with]. destruct (N.eqb_spec HASH c) as [E |]; [congruence | reflexivity].
Qed.
Lemma run_all split app cs effs : Forall2 (fun c l => exists args, split c = Ok args /\ app args = (l, Finished)) cs effs ->
  forall rest, run_lines split app (cs ++ rest) = (concat effs ++ fst (run_lines split app rest), snd (run_lines split app rest)).
Proof.
  induction 1 as [| c l cs effs (args & E1 & E2) _ IH]; intros rest; [cbn; now destruct (run_lines split app rest) |].
  change ((c :: cs) ++ rest) with (c :: cs ++ rest). cbn [run_lines]. rewrite E1, E2, IH. cbn match. cbn [concat]. now rewrite app_assoc.
Qed.
