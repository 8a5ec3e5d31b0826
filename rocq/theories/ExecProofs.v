(** * Proofs for C122. *)
From Coq Require Import Lia.
From Verif Require Import Base PyStr SpecShell SpecZsh SpecChoices ChoicesZsh SpecBashWords BashWordsProofs PrefixProofs SpecExec Exec.
Open Scope list_scope.

Lemma read_loop_line x : ~ In LF x -> forall line rest, read_loop line (x ++ LF :: rest) = (line ++ x) :: read_loop [] rest.
Proof.
  induction x as [| c x IH]; intros H line rest; cbn [app read_loop].
  - now rewrite N.eqb_refl, app_nil_r.
  - destruct (N.eqb_spec c LF) as [-> | _]; [destruct H; now left |]. rewrite IH by (intros K; apply H; now right). now rewrite <- app_assoc.
Qed.
Definition entry_line (e : str * option str) : str := fst e ++ match snd e with Some d => TAB :: d | None => [] end.
Lemma entry_one_line e : good_entry e -> ~ In LF (entry_line e).
Proof.
  intros [(_ & _ & H) Hd] Hi. unfold entry_line in Hi. apply in_app_or in Hi as [Hi | Hi]; [now apply H |]. destruct (snd e) as [d |]; [| exact Hi].
  destruct Hi as [E | Hi]; [discriminate E |]. destruct Hd as (_ & Hd & _). now apply Hd.
Qed.
Lemma read_printed l : Forall good_entry l -> read_lines (print_entries l) = map entry_line l.
Proof.
  unfold read_lines. induction 1 as [| e l He _ IH]; [reflexivity |]. unfold print_entries. cbn [flat_map map]. unfold print_entry at 1.
  change (fst e ++ match snd e with Some d => TAB :: d | None => [] end ++ [LF]) with (fst e ++ (match snd e with Some d => TAB :: d | None => [] end ++ [LF])).
  rewrite app_assoc. fold (entry_line e). rewrite <- app_assoc. cbn [app]. rewrite read_loop_line by now apply entry_one_line. cbn [app]. f_equal. exact IH.
Qed.
Lemma lstrip_none (p : N -> bool) x : (forall c r, x = c :: r -> p c = false) -> lstrip_p p x = x.
Proof. destruct x as [| c r]; intros H; [reflexivity |]. cbn [lstrip_p]. now rewrite (H c r eq_refl). Qed.
Lemma strip_none (p : N -> bool) x : (forall c r, x = c :: r -> p c = false) -> (forall c r, x = r ++ [c] -> p c = false) -> strip_p p x = x.
Proof.
  intros H1 H2. unfold strip_p, rstrip_p. rewrite (lstrip_none p x H1). rewrite lstrip_none; [apply rev_involutive |].
  intros c r E. apply (H2 c (rev r)). apply (f_equal (@rev N)) in E. rewrite rev_involutive in E. rewrite E. reflexivity.
Qed.
Lemma first_field_item x r : ~ In TAB x -> first_field (x ++ r) = let (a, b) := first_field r in (x ++ a, b).
Proof.
  induction x as [| c x IH]; intros H; [cbn [app]; now destruct (first_field r) |]. cbn [app first_field]. unfold is_tab at 1.
  destruct (N.eqb_spec c TAB) as [-> | _]; [destruct H; now left |]. rewrite IH by (intros K; apply H; now right). now destruct (first_field r).
Qed.
Lemma no_tab c : c <> TAB -> is_tab c = false.
Proof. intros H. unfold is_tab. now apply N.eqb_neq. Qed.
Lemma read_entry e : good_entry e -> read_two (entry_line e) = (fst e, match snd e with Some d => d | None => [] end).
Proof.
  destruct e as [x od]. intros [(Hn & Ht & _) Hd]. cbn [fst snd] in *. unfold read_two, entry_line. cbn [fst snd]. rewrite strip_none.
  - rewrite first_field_item by exact Ht. destruct od as [d |]; cbn [first_field].
    + change (is_tab TAB) with true. cbn [lstrip_p]. change (is_tab TAB) with true. cbn iota. rewrite app_nil_r. rewrite lstrip_none; [reflexivity |].
      intros c r ->. apply no_tab. now destruct Hd as (_ & _ & Hd & _).
    + now rewrite app_nil_r.
  - intros c r E. destruct x as [| a x]; [congruence |]. injection E as <- _. apply no_tab. intros ->. apply Ht. now left.
  - intros c r E. apply no_tab. intros ->. destruct od as [d |].
    + destruct Hd as (Hd & _ & _ & Hl). apply Hl. destruct (exists_last Hd) as (d' & e & ->). rewrite last_last.
      rewrite (app_assoc x [TAB]) in E || idtac. change (x ++ TAB :: d' ++ [e]) with (x ++ (TAB :: d') ++ [e]) in E. rewrite app_assoc in E. now apply app_inj_tail in E as [_ E].
    + rewrite app_nil_r in E. apply Ht. rewrite E. apply in_or_app. right. now left.
Qed.

(** ** Bash *)
Lemma bash_items l : Forall good_entry l -> map (fun x => fst (read_two x)) (read_lines (print_entries l)) = map fst l.
Proof.
  intros H. rewrite read_printed by exact H. rewrite map_map. apply map_ext_in. intros e He. rewrite Forall_forall in H. now rewrite (read_entry e (H e He)).
Qed.

(** ** Zsh *)
Definition escaped (x : str) : str := replace_c COLON [BS; COLON] (replace_c BS [BS; BS] x).
Lemma replace_app c r x y : replace_c c r (x ++ y) = replace_c c r x ++ replace_c c r y.
Proof. induction x as [| d x IH]; [reflexivity |]. cbn [app replace_c]. rewrite IH. destruct (N.eqb d c); [now rewrite <- app_assoc | reflexivity]. Qed.
Lemma escaped_step c x : escaped (c :: x) = (if N.eqb c BS then [BS; BS] else if N.eqb c COLON then [BS; COLON] else [c]) ++ escaped x.
Proof.
  unfold escaped. cbn [replace_c]. destruct (N.eqb_spec c BS) as [-> | Hb].
  - now rewrite replace_app.
  - cbn [replace_c]. destruct (N.eqb c COLON); reflexivity.
Qed.
Lemma drop_escaped_all x : drop_backslashes (escaped x) = x.
Proof.
  induction x as [| c x IH]; [reflexivity |]. rewrite escaped_step. destruct (N.eqb_spec c BS) as [-> | Hb]; [| destruct (N.eqb_spec c COLON) as [-> | Hc]].
  - cbn [app drop_backslashes]. change (N.eqb BS BS) with true. cbn iota. now rewrite IH.
  - cbn [app drop_backslashes]. change (N.eqb BS BS) with true. cbn iota. now rewrite IH.
  - cbn [app]. rewrite drop_step by now apply N.eqb_neq. now rewrite IH.
Qed.
Lemma drop_doubled x : drop_backslashes (replace_c BS [BS; BS] x) = x.
Proof.
  induction x as [| c x IH]; [reflexivity |]. cbn [replace_c]. destruct (N.eqb_spec c BS) as [-> | Hb].
  - cbn [app drop_backslashes]. change (N.eqb BS BS) with true. cbn iota. now rewrite IH.
  - cbn [app]. rewrite drop_step by now apply N.eqb_neq. now rewrite IH.
Qed.
Lemma upto_escaped_all x r : (r = [] \/ exists d, r = COLON :: d) -> upto (starts [COLON]) (escaped x ++ r) = (escaped x, r).
Proof.
  intros Hr. induction x as [| c x IH].
  - cbn [escaped replace_c app]. destruct Hr as [-> | (d & ->)]; reflexivity.
  - rewrite escaped_step. destruct (N.eqb_spec c BS) as [-> | Hb]; [| destruct (N.eqb_spec c COLON) as [-> | Hc]].
    + cbn [app upto]. change (starts [COLON] (BS :: BS :: escaped x ++ r)) with false. cbn iota. change (N.eqb BS BS) with true. cbn iota. now rewrite IH.
    + cbn [app upto]. change (starts [COLON] (BS :: COLON :: escaped x ++ r)) with false. cbn iota. change (N.eqb BS BS) with true. cbn iota. now rewrite IH.
    + cbn [app]. rewrite upto_step; [now rewrite IH | now apply N.eqb_neq |]. cbn [starts memc existsb]. destruct (N.eqb_spec c COLON); [contradiction | reflexivity].
Qed.
Lemma zsh_line e : good_entry e -> zsh_describe (zsh_exec_line (entry_line e)) = (fst e, match snd e with Some d => d | None => [] end).
Proof.
  intros H. unfold zsh_exec_line. rewrite (read_entry e H). fold (escaped (fst e)). destruct (snd e) as [d |] eqn:Ed.
  - destruct H as [_ Hd]. rewrite Ed in Hd. destruct Hd as (Hd & _).
    assert (exists a b, replace_c BS [BS; BS] d = a :: b) as (a & b & Er). { destruct d as [| a d]; [congruence |]. cbn [replace_c]. destruct (N.eqb a BS); cbn [app]; eauto. }
    rewrite Er. unfold zsh_describe. rewrite upto_escaped_all by eauto. cbn [tl]. rewrite <- Er. now rewrite drop_escaped_all, drop_doubled.
  - cbn [replace_c]. unfold zsh_describe. rewrite <- (app_nil_r (escaped (fst e))), upto_escaped_all by auto. cbn [tl drop_backslashes]. now rewrite drop_escaped_all.
Qed.
