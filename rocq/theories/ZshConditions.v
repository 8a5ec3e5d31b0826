(** * Conditions of zsh scripts: what the commands they consist of say about the command line. *)
From Verif Require Import Base Value Shell SpecShell ShellProofs StrUtils StrUtilsProofs When SpecWhen WhenProofs WhenTests Cli SpecCli SpecParser SpecOffered FishRuntime FishOffered
  FishQuery SpecQuery ZshQuery SpecZshQuery.
Open Scope list_scope.

Lemma z_flags_eq argv : forall any nocase, z_flags any nocase argv = h_flags any nocase argv.
Proof. induction argv as [| a argv IH]; intros any nocase; [reflexivity |]. cbn [z_flags h_flags]. now rewrite !IH. Qed.
Lemma z_split_eq argv : z_split argv = h_split argv.
Proof. induction argv as [| a argv IH]; [reflexivity |]. cbn [z_split h_split]. now rewrite IH. Qed.
Lemma z_scan_eq any os ok l : z_scan any os ok l = h_scan any os ok l.
Proof. induction l as [| [x v] l IH]; [reflexivity |]. cbn [z_scan h_scan]. now rewrite IH. Qed.

Lemma z_compare_op a op b : In op [s "=="; s "!="; s "<="; s ">="; s "<"; s ">"] -> z_compare a op b = true <-> compares a op b.
Proof.
  intros H. rewrite <- (compare_op a op b) by exact H. destruct H as [<- | [<- | [<- | [<- | [<- | [<- | []]]]]]]; reflexivity.
Qed.
Lemma cut_app c x y : ~ In c x -> cut_at c (x ++ c :: y) = Some (x, y).
Proof.
  induction x as [| d x IH]; intros H; cbn [app cut_at]; [now rewrite N.eqb_refl |].
  rewrite (proj2 (N.eqb_neq d c)) by (intros ->; apply H; now left). rewrite IH; [reflexivity |]. intros K. apply H. now right.
Qed.
Lemma behind_app p x : behind p (p ++ x) = Some x.
Proof.
  unfold behind. replace (starts_with p (p ++ x)) with true.
  - f_equal. induction p as [| c p IH]; [reflexivity | exact IH].
  - symmetry. induction p as [| c p IH]; [reflexivity |]. cbn [app starts_with]. now rewrite N.eqb_refl.
Qed.
Lemma name_no_sp f : is_name f -> ~ In SP f.
Proof. intros [_ H] K. rewrite forallb_forall in H. now specialize (H _ K). Qed.
Lemma valid_no_eq os : (forall x, In x os -> is_valid_option_string x = true) -> forall y, ~ In (EQ :: y) os.
Proof. intros H y K. specialize (H _ K). destruct y; discriminate H. Qed.
Lemma valid_no_dashes os : (forall x, In x os -> is_valid_option_string x = true) -> ~ In (s "--") os.
Proof. intros H K. specialize (H _ K). discriminate H. Qed.

Section Truth.
Context (matches : str -> bool -> str -> bool) (q : query) (e : zenv) (He : good_zenv e) (Hdn : different_names e).
Notation truth := (zsh_truth matches q e).

Lemma name_eq f g : f = g -> str_eqb f g = true.
Proof. intros ->. apply str_eqb_refl. Qed.
Lemma name_not_arith f : is_name f -> str_eqb f (s "((") = false.
Proof. intros [_ H]. apply str_eqb_neq. intros ->. discriminate H. Qed.

Lemma truth_query argv : argv <> [] -> (forall y, ~ In (EQ :: y) argv) ->
  truth (join_quoted (z_query e :: argv) [SP]) =
  match argv with
  | a :: argv => if str_eqb a (s "option_is") then z_option_is q argv else if str_eqb a (s "has_option") then z_has_option q argv else false
  | [] => false
  end.
Proof.
  intros Hn Heq. destruct He as (Hq & Hm & Ha), Hdn as (D1 & D2 & D3). rewrite join_quoted_cons by assumption. unfold zsh_truth.
  rewrite cut_app by now apply name_no_sp. rewrite name_not_arith by exact Hq.
  rewrite (proj2 (str_eqb_neq _ _) D2), (proj2 (str_eqb_neq _ _) D1), str_eqb_refl, (zsh_join_quoted_noeq argv Heq). reflexivity.
Qed.
Lemma truth_match argv : argv <> [] -> (forall y, ~ In (EQ :: y) argv) ->
  truth (join_quoted (z_option_match e :: argv) [SP]) = z_option_match_run matches q argv.
Proof.
  intros Hn Heq. destruct He as (Hq & Hm & Ha), Hdn as (D1 & D2 & D3). rewrite join_quoted_cons by assumption. unfold zsh_truth.
  rewrite cut_app by now apply name_no_sp. rewrite name_not_arith by exact Hm.
  rewrite (proj2 (str_eqb_neq _ _) D3), str_eqb_refl, (zsh_join_quoted_noeq argv Heq). reflexivity.
Qed.

Lemma no_eq_app l l' : (forall y, ~ In (EQ :: y) l) -> (forall y, ~ In (EQ :: y) l') -> forall y, ~ In (EQ :: y) (l ++ l').
Proof. intros H1 H2 y K. apply in_app_or in K as [K | K]; [now apply (H1 y) | now apply (H2 y)]. Qed.
Lemma no_eq_cons c x l : c <> EQ -> (forall y, ~ In (EQ :: y) l) -> forall y, ~ In (EQ :: y) ((c :: x) :: l).
Proof. intros Hc H y [K | K]; [injection K as -> _; now apply Hc | now apply (H y)]. Qed.
Lemma no_eq_flag (b : bool) c x : c <> EQ -> forall y, ~ In (EQ :: y) (opt_word b (c :: x)).
Proof. intros Hc y. destruct b; [| intros []]. intros [K | []]. injection K as -> _. now apply Hc. Qed.

Lemma z_str_no_brk n : ~ In RBRK (z_str n).
Proof. intros K. pose proof (z_str_chars n) as H. rewrite forallb_forall in H. specialize (H _ K). discriminate H. Qed.
Lemma z_str_no_sp n : ~ In SP (z_str n).
Proof. intros K. pose proof (z_str_chars n) as H. rewrite forallb_forall in H. specialize (H _ K). discriminate H. Qed.

Lemma truth_count op n : In op [s "=="; s "!="; s "<="; s ">="; s "<"; s ">"] ->
  truth (gen_positional_count op n) = z_compare (Z.of_nat (List.length (q_positionals q))) op n.
Proof.
  intros H. unfold gen_positional_count, zsh_truth.
  change (s "(( ${#POSITIONALS[@]} " ++ op ++ [SP] ++ z_str n ++ s " ))")
    with (s "((" ++ SP :: (s "${#POSITIONALS[@]} " ++ op ++ [SP] ++ z_str n ++ s " ))")).
  rewrite cut_app by (cbn; intuition discriminate). change (str_eqb (s "((") (s "((")) with true. cbn iota. unfold z_arithmetic.
  replace (s "${#POSITIONALS[@]} " ++ op ++ [SP] ++ z_str n ++ s " ))") with (join [SP] [s "${#POSITIONALS[@]}"; op; z_str n; s "))"]) by reflexivity.
  rewrite split_join_c.
  - change (str_eqb (s "${#POSITIONALS[@]}") (s "${#POSITIONALS[@]}") && str_eqb (s "))") (s "))")) with true. cbn iota. now rewrite py_int_str.
  - discriminate.
  - intros w Hw. destruct Hw as [<- | [<- | [<- | [<- | []]]]].
    + cbn. intuition discriminate.
    + destruct H as [<- | [<- | [<- | [<- | [<- | [<- | []]]]]]]; cbn; intuition discriminate.
    + apply z_str_no_sp.
    + cbn. intuition discriminate.
Qed.
Lemma lower_no_eq values : (forall y, ~ In (EQ :: y) values) -> forall y, ~ In (EQ :: y) (map lower values).
Proof.
  intros H y K. apply in_map_iff in K as (v & E & Hv). destruct v as [| c v]; [discriminate E |]. cbn [lower map] in E. injection E as E _.
  unfold lower_c in E. destruct (is_upper c) eqn:U; [| apply (H v); now rewrite <- E].
  unfold is_upper in U. apply andb_prop in U as [U1 U2]. apply N.leb_le in U1, U2. change EQ with 61%N in E. lia.
Qed.
Lemma truth_contains (ic : bool) n values : (forall y, ~ In (EQ :: y) values) ->
  truth (zsh_positional_contains e ic n values) =
  mems ((if ic then lower (z_element (q_positionals q) n) else z_element (q_positionals q) n)) (if ic then map lower values else values).
Proof.
  intros Heq. destruct He as (Hq & Hm & Ha), Hdn as (D1 & D2 & D3).
  assert (E : zsh_positional_contains e ic n values =
    z_array_contains e ++ SP :: (s """${" ++ (if ic then s "(L)" else []) ++ s "POSITIONALS[" ++ z_str n ++ RBRK :: s "}"" " ++ join_quoted (if ic then map lower values else values) [SP])).
  { unfold zsh_positional_contains. destruct ic; [rewrite lower_join_quoted |]; reflexivity. }
  rewrite E. unfold zsh_truth. rewrite cut_app by now apply name_no_sp. rewrite name_not_arith by exact Ha. rewrite str_eqb_refl.
  unfold z_positional_contains. rewrite behind_app.
  assert (F : forall k : bool * str -> bool, (let '(nocase, rest) := match behind (s "(L)") ((if ic then s "(L)" else []) ++ s "POSITIONALS[" ++ z_str n ++ RBRK :: s "}"" " ++ join_quoted (if ic then map lower values else values) [SP]) with
      Some r => (true, r) | None => (false, (if ic then s "(L)" else []) ++ s "POSITIONALS[" ++ z_str n ++ RBRK :: s "}"" " ++ join_quoted (if ic then map lower values else values) [SP]) end in k (nocase, rest)) =
      k (ic, s "POSITIONALS[" ++ z_str n ++ RBRK :: s "}"" " ++ join_quoted (if ic then map lower values else values) [SP])).
  { intros k. destruct ic; [now rewrite behind_app | reflexivity]. }
  rewrite (F (fun x => let '(nocase, rest) := x in
      match behind (s "POSITIONALS[") rest with
      | None => false
      | Some rest =>
          match cut_at RBRK rest with
          | None => false
          | Some (n, rest) =>
              match py_int n, behind (s "}"" ") rest with
              | Some n, Some rest =>
                  match zsh_words rest with
                  | Some values => array_contains ((if nocase then lower (z_element (q_positionals q) n) else z_element (q_positionals q) n) :: values)
                  | None => false
                  end
              | _, _ => false
              end
          end
      end)).
  rewrite behind_app, cut_app, py_int_str, behind_app by apply z_str_no_brk.
  rewrite zsh_join_quoted_noeq; [reflexivity |]. destruct ic; [now apply lower_no_eq | exact Heq].
Qed.

Theorem zsh_test_truth o : zsh_test_ok o -> truth (zsh_test e o) = true <-> test_holds matches (q_positionals q) (q_options q) o.
Proof.
  destruct o as [os vs ic any | os r ic any | os | op n | ic n vs]; cbn [zsh_test zsh_test_ok test_holds].
  - intros [Hos Hv]. unfold zsh_option_is. cbn [app]. rewrite truth_query.
    + change (str_eqb (s "option_is") (s "option_is")) with true. cbn iota. unfold z_option_is.
      rewrite z_flags_eq, flags_options, z_split_eq, h_split_app by now apply valid_no_dashes. rewrite z_scan_eq, scan_spec. split.
      * intros (v & Hvo & Hm). apply mems_In in Hm. destruct ic; [| exists v, v; repeat split; auto].
        apply in_map_iff in Hm as (w & Ew & Hw). exists v, w. repeat split; auto. now symmetry.
      * intros (v & w & Hvo & Hw & Hsame). exists v. split; [exact Hvo |]. apply mems_In. destruct ic; cbn [same] in Hsame; [rewrite Hsame; now apply in_map | now subst w].
    + discriminate.
    + apply no_eq_cons; [discriminate |]. apply no_eq_app; [now apply no_eq_flag |]. apply no_eq_app; [now apply no_eq_flag |].
      apply no_eq_cons; [discriminate |]. apply no_eq_app; [now apply valid_no_eq |]. now apply no_eq_cons.
  - intros [Hos Hr]. unfold zsh_option_match. cbn [app]. rewrite truth_match.
    + unfold z_option_match_run. rewrite z_flags_eq, flags_options, z_split_eq, h_split_app by now apply valid_no_dashes. now rewrite z_scan_eq, scan_spec.
    + destruct ic, any; discriminate.
    + apply no_eq_app; [now apply no_eq_flag |]. apply no_eq_app; [now apply no_eq_flag |].
      apply no_eq_cons; [discriminate |]. apply no_eq_app; [now apply valid_no_eq |]. apply no_eq_cons; [discriminate |].
      intros y [K | []]. now apply (Hr y).
  - intros Hos. unfold zsh_has_option. cbn [app]. rewrite truth_query.
    + change (str_eqb (s "has_option") (s "option_is")) with false. change (str_eqb (s "has_option") (s "has_option")) with true. cbn iota.
      unfold z_has_option. rewrite existsb_exists. split.
      * intros ((x & v) & Hi & Hm). apply mems_In in Hm. exists x. split; [exact Hm | now exists v].
      * intros (x & Hx & v & Hi). exists (x, v). split; [exact Hi | now apply mems_In].
    + discriminate.
    + apply no_eq_cons; [discriminate |]. now apply valid_no_eq.
  - intros Hop. rewrite truth_count by exact Hop. now apply z_compare_op.
  - intros (Hn & Hne & Heq). rewrite truth_contains by exact Heq. rewrite mems_In. unfold nth_positional, z_element.
    rewrite (proj2 (Z.ltb_nlt n 0)) by lia. rewrite (proj2 (Z.ltb_nlt (n - 1) 0)) by lia.
    assert (Hl : forall v, lower v = [] -> v = []) by (intros [| ? ?]; [reflexivity | discriminate]).
    destruct (nth_error (q_positionals q) (Z.to_nat (n - 1))) as [w |] eqn:En.
    + rewrite (nth_error_nth _ _ [] En). destruct ic; cbn [same].
      * split.
        -- intros K. apply in_map_iff in K as (v & Ev & Hv). exists w, v. auto.
        -- intros (w' & v & (_ & Ew) & Hv & Hs). injection Ew as <-. rewrite Hs. now apply in_map.
      * split; [intros K; exists w, w; auto |]. intros (w' & v & (_ & Ew) & Hv & Hs). injection Ew as <-. now subst v.
    + rewrite nth_overflow by now apply nth_error_None. split; [| intros (w & v & (_ & K) & _); discriminate]. intros K. exfalso. destruct ic.
      * apply in_map_iff in K as (v & Ev & Hv). apply Hl in Ev as ->. now apply Hne.
      * now apply Hne.
Qed.
End Truth.
