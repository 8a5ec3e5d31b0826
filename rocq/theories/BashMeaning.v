(** * Proofs about the meaning of the commands in conditions of Bash scripts. *)
From Coq Require Import Permutation.
From Verif Require Import Base Value Dict Algo AlgoProofs Shell ShellProofs StrUtils StrUtilsProofs Cli CliProofs CliMore SpecCli PyStr When SpecShell SpecWhen WhenProofs WhenTests
  BashUtils BashParser SpecParser ParserTables ParserPaths ParserProofs ParserProofs2 SpecOffered BashOffers SpecBash BashStrings.
Open Scope list_scope.

(** ** Words before expansions *)

Definition atom (x : str) : Prop :=
  x <> [] /\ forall w rest, raw_words Unquoted w (x ++ rest) = raw_words Unquoted (w ++ x) rest.

Lemma app_more {A} (w : list A) c x : w ++ c :: x = (w ++ [c]) ++ x.
Proof. now rewrite <- app_assoc. Qed.
Lemma raw_plain x : (forall c, In c x -> c <> SP /\ c <> SQ /\ c <> DQ) -> forall w rest,
  raw_words Unquoted w (x ++ rest) = raw_words Unquoted (w ++ x) rest.
Proof.
  induction x as [| c x IH]; intros H w rest; [now rewrite app_nil_r |]. cbn [app raw_words].
  destruct (H c) as (H1 & H2 & H3); [now left |]. apply N.eqb_neq in H1, H2, H3. rewrite H1, H2, H3, IH by (intros d Hd; apply H; now right).
  now rewrite <- app_assoc.
Qed.
Lemma raw_single x : ~ In SQ x -> forall w rest, raw_words InSQ w (x ++ rest) = raw_words InSQ (w ++ x) rest.
Proof.
  induction x as [| c x IH]; intros H w rest; [now rewrite app_nil_r |]. cbn [app raw_words].
  destruct (N.eqb_spec c SQ) as [-> | Hn]; [exfalso; apply H; now left |]. rewrite IH by (intros Hd; apply H; now right). now rewrite <- app_assoc.
Qed.
Lemma raw_double x : ~ In DQ x -> ~ In BS x -> forall w rest, raw_words InDQ w (x ++ rest) = raw_words InDQ (w ++ x) rest.
Proof.
  induction x as [| c x IH]; intros H H' w rest; [now rewrite app_nil_r |]. cbn [app raw_words].
  destruct (N.eqb_spec c DQ) as [-> | Hn]; [exfalso; apply H; now left |]. destruct (N.eqb_spec c BS) as [-> | Hn']; [exfalso; apply H'; now left |].
  rewrite IH by (intros Hd; first [apply H; now right | apply H'; now right]). now rewrite <- app_assoc.
Qed.
Lemma raw_escaped x : ~ In DQ x -> forall w rest, raw_words InDQ w (concat (map dq_esc x) ++ rest) = raw_words InDQ (w ++ concat (map dq_esc x)) rest.
Proof.
  induction x as [| c x IH]; intros H w rest; [now rewrite app_nil_r |]. cbn [map concat]. rewrite <- app_assoc.
  assert (Hc : c <> DQ) by (intros ->; apply H; now left). specialize (IH ltac:(intros Hd; apply H; now right)).
  assert (E : forall w rest, raw_words InDQ w (dq_esc c ++ rest) = raw_words InDQ (w ++ dq_esc c) rest).
  { intros u r. unfold dq_esc. destruct (N.eqb_spec c BS) as [-> | Hb].
    - cbn [app raw_words]. change (N.eqb BS DQ) with false. change (N.eqb BS BS) with true. cbn iota. now rewrite <- app_assoc.
    - destruct (N.eqb c DOLLAR); [| destruct (N.eqb c BTICK)].
      1, 2: cbn [app raw_words]; change (N.eqb BS DQ) with false; change (N.eqb BS BS) with true; cbn iota; now rewrite <- app_assoc.
      apply raw_double; intros [E | []]; congruence. }
  rewrite E, IH. now rewrite <- !app_assoc.
Qed.
Lemma raw_replaced x : forall w rest,
  raw_words InSQ w (replace_c SQ [SQ; DQ; SQ; DQ; SQ] x ++ rest) = raw_words InSQ (w ++ replace_c SQ [SQ; DQ; SQ; DQ; SQ] x) rest.
Proof.
  induction x as [| c x IH]; intros w rest; [now rewrite app_nil_r |]. cbn [replace_c].
  destruct (N.eqb c SQ) eqn:E.
  - rewrite <- app_assoc. cbn [app raw_words]. change (N.eqb SQ SQ) with true. change (N.eqb DQ SP) with false. change (N.eqb DQ SQ) with false. change (N.eqb DQ DQ) with true.
    change (N.eqb SQ DQ) with false. change (N.eqb SQ BS) with false. change (N.eqb SQ SP) with false. cbn iota. rewrite IH. now rewrite <- !app_assoc.
  - cbn [app raw_words]. rewrite E, IH. now rewrite <- !app_assoc.
Qed.

Lemma atom_quote x : atom (quote x).
Proof.
  split; [pose proof (quote_length x); destruct (quote x); [cbn in *; lia | discriminate] |].
  intros w rest. destruct (quote_cases x) as [(H & _ & ->) | [(_ & H & ->) | [(_ & _ & H & ->) | (_ & _ & _ & ->)]]].
  - apply raw_plain. intros c Hc. rewrite forallb_forall in H. specialize (H c Hc). repeat split; intros ->; discriminate H.
  - cbn [app]. change (raw_words Unquoted w (SQ :: (x ++ [SQ]) ++ rest)) with (raw_words InSQ (w ++ [SQ]) ((x ++ [SQ]) ++ rest)).
    rewrite <- app_assoc, raw_single by exact H. cbn [app raw_words]. change (N.eqb SQ SQ) with true. cbn iota.
    replace (((w ++ [SQ]) ++ x) ++ [SQ]) with (w ++ SQ :: x ++ [SQ]) by (now rewrite <- !app_assoc). reflexivity.
  - cbn [app]. change (raw_words Unquoted w (DQ :: (concat (map dq_esc x) ++ [DQ]) ++ rest)) with (raw_words InDQ (w ++ [DQ]) ((concat (map dq_esc x) ++ [DQ]) ++ rest)).
    rewrite <- app_assoc, raw_escaped by exact H. cbn [app raw_words]. change (N.eqb DQ DQ) with true. cbn iota.
    replace (((w ++ [DQ]) ++ concat (map dq_esc x)) ++ [DQ]) with (w ++ DQ :: concat (map dq_esc x) ++ [DQ]) by (now rewrite <- !app_assoc). reflexivity.
  - set (y := replace_c SQ [SQ; DQ; SQ; DQ; SQ] x). cbn [app].
    change (raw_words Unquoted w (SQ :: (y ++ [SQ]) ++ rest)) with (raw_words InSQ (w ++ [SQ]) ((y ++ [SQ]) ++ rest)).
    rewrite <- app_assoc. unfold y. rewrite raw_replaced. fold y. cbn [app raw_words]. change (N.eqb SQ SQ) with true. cbn iota.
    replace (((w ++ [SQ]) ++ y) ++ [SQ]) with (w ++ SQ :: y ++ [SQ]) by (now rewrite <- !app_assoc). reflexivity.
Qed.
Lemma atom_name x : is_name x -> atom x.
Proof.
  intros [Hn H]. split; [exact Hn |]. apply raw_plain. intros c Hc. rewrite forallb_forall in H. specialize (H c Hc).
  repeat split; intros ->; discriminate H.
Qed.
Lemma atom_double x : ~ In DQ x -> ~ In BS x -> atom (DQ :: x ++ [DQ]).
Proof.
  intros H1 H2. split; [discriminate |]. intros w rest. cbn [app].
  change (raw_words Unquoted w (DQ :: (x ++ [DQ]) ++ rest)) with (raw_words InDQ (w ++ [DQ]) ((x ++ [DQ]) ++ rest)).
  rewrite <- app_assoc, raw_double by assumption. cbn [app raw_words]. change (N.eqb DQ DQ) with true. cbn iota.
  replace (((w ++ [DQ]) ++ x) ++ [DQ]) with (w ++ DQ :: x ++ [DQ]) by (now rewrite <- !app_assoc). reflexivity.
Qed.
Lemma raw_join l : Forall atom l -> raw_words Unquoted [] (sp_join l) = l.
Proof.
  unfold sp_join. induction l as [| x l IH]; intros H; [reflexivity |]. apply Forall_cons_iff in H as [[Hn Hx] Hl]. destruct l as [| y l].
  - cbn [join]. rewrite <- (app_nil_r x), Hx. cbn [app raw_words]. rewrite app_nil_r. now destruct x.
  - rewrite join_cons, Hx. cbn [app raw_words]. change (N.eqb SP SP) with true. cbn iota. rewrite (IH Hl). now destruct x.
Qed.

(** ** Expansions *)

Lemma cut_name v c idx : ~ In c v -> cut c (v ++ c :: idx) = (v, idx).
Proof.
  induction v as [| d v IH]; intros H; cbn [app cut]; [now rewrite N.eqb_refl |].
  destruct (N.eqb_spec d c) as [-> | Hn]; [exfalso; apply H; now left |]. rewrite IH by (intros Hd; apply H; now right). reflexivity.
Qed.
Definition subscripted (v idx : str) : str := s """${" ++ v ++ LBRK :: idx ++ s "}""".
Lemma subscript_text v idx : ~ In LBRK v -> subscript (subscripted v idx) = Some (v, idx).
Proof.
  intros H. unfold subscript, subscripted.
  assert (H1 : starts_with (s """${") (s """${" ++ v ++ LBRK :: idx ++ s "}""") = true) by (apply starts_with_app; eexists; reflexivity).
  assert (H2 : ends_with (s "}""") (s """${" ++ v ++ LBRK :: idx ++ s "}""") = true).
  { apply ends_with_app. exists (s """${" ++ v ++ LBRK :: idx). rewrite <- !app_assoc. reflexivity. }
  assert (H3 : memc LBRK (s """${" ++ v ++ LBRK :: idx ++ s "}""") = true).
  { apply memc_In. apply in_or_app. right. apply in_or_app. right. now left. }
  rewrite H1, H2, H3. cbn [andb]. f_equal. rewrite <- (cut_name v LBRK idx H). f_equal.
  change (skipn 3 (s """${" ++ v ++ LBRK :: idx ++ s "}""")) with (v ++ LBRK :: idx ++ s "}""").
  replace (v ++ LBRK :: idx ++ s "}""") with ((v ++ LBRK :: idx) ++ s "}""") by (now rewrite <- app_assoc).
  rewrite !app_length. cbn [List.length]. change (List.length (s """${")) with 3. change (List.length (s "}""")) with 2.
  replace (3 + (List.length v + S (List.length idx) + 2) - 5) with (List.length (v ++ LBRK :: idx)) by (rewrite app_length; cbn; lia).
  rewrite firstn_app, Nat.sub_diag, firstn_all. cbn [firstn]. now rewrite app_nil_r.
Qed.
Lemma name_no_bracket v : is_name v -> ~ In LBRK v.
Proof. intros [_ H] Hin. rewrite forallb_forall in H. specialize (H LBRK Hin). discriminate. Qed.
Lemma atom_subscripted v idx : is_name v -> ~ In DQ idx -> ~ In BS idx -> atom (subscripted v idx).
Proof.
  intros [_ H] H1 H2. rewrite forallb_forall in H.
  replace (subscripted v idx) with (DQ :: (s "${" ++ v ++ LBRK :: idx ++ s "}") ++ [DQ]).
  2: { unfold subscripted. change (s """${") with (DQ :: s "${"). change (s "}""") with (s "}" ++ [DQ]). cbn [app]. rewrite <- !app_assoc. cbn [app]. now rewrite <- !app_assoc. }
  apply atom_double; intros Hin; apply in_app_or in Hin as [Hin | Hin]; try (cbn in Hin; intuition discriminate);
    apply in_app_or in Hin as [Hin | [Hin | Hin]]; try discriminate Hin; try (specialize (H _ Hin); discriminate H);
    apply in_app_or in Hin as [Hin | Hin]; try contradiction; cbn in Hin; intuition discriminate.
Qed.

Section World.
Variable arrays : str -> list str.
Variable matches : str -> bool -> str -> bool.
Variables f1 f2 f3 : str.
Hypotheses (Hf1 : is_name f1) (Hf2 : is_name f2) (Hf3 : is_name f3).
Hypotheses (D12 : f1 <> f2) (D13 : f1 <> f3) (D23 : f2 <> f3).

Lemma not_subscript x : (forall c y, x = c :: y -> c <> DQ) -> subscript x = None.
Proof.
  intros H. unfold subscript. destruct x as [| c x]; [reflexivity |]. specialize (H c x eq_refl).
  change (s """${") with (DQ :: s "${"). cbn [starts_with]. destruct (N.eqb_spec DQ c) as [E | _]; [congruence | reflexivity].
Qed.
Lemma expansion_quote x : expansion arrays (quote x) = Some [x].
Proof.
  unfold expansion. assert (E : subscript (quote x) = None); [| rewrite E; apply posix_quote].
  destruct (quote_cases x) as [(H & _ & ->) | [(_ & H & ->) | [(_ & _ & H & ->) | (_ & _ & _ & ->)]]].
  - apply not_subscript. intros c y ->. cbn in H. apply andb_prop in H as [H _]. intros ->. discriminate H.
  - apply not_subscript. intros c y E. injection E as <- _. discriminate.
  - unfold subscript. replace (starts_with (s """${") (DQ :: concat (map dq_esc x) ++ [DQ])) with false; [reflexivity |]. symmetry.
    change (s """${") with (DQ :: DOLLAR :: s "{"). cbn [starts_with]. rewrite N.eqb_refl. cbn [andb].
    destruct x as [| c x]; [reflexivity |]. cbn [map concat]. unfold dq_esc at 1. destruct (N.eqb c BS); [reflexivity |].
    destruct (N.eqb_spec c DOLLAR) as [-> | Hd]; [reflexivity |]. destruct (N.eqb c BTICK); [reflexivity |]. cbn [app starts_with].
    destruct (N.eqb_spec DOLLAR c) as [E | _]; [congruence | reflexivity].
  - apply not_subscript. intros c y E. injection E as <- _. discriminate.
Qed.
Lemma quote_name x : is_name x -> quote x = x.
Proof.
  intros [Hn H]. apply quote_safe; [exact Hn |]. rewrite forallb_forall in *. intros c Hc. apply word_safe. now apply H.
Qed.
Lemma expansion_name x : is_name x -> expansion arrays x = Some [x].
Proof. intros H. rewrite <- (quote_name x H) at 1. apply expansion_quote. Qed.

Lemma expansions_app l l' : expansions arrays (l ++ l') =
  match expansions arrays l, expansions arrays l' with Some a, Some b => Some (a ++ b) | _, _ => None end.
Proof.
  induction l as [| x l IH]; cbn [app expansions]; [now destruct (expansions arrays l') |]. rewrite IH.
  destruct (expansion arrays x), (expansions arrays l), (expansions arrays l'); try reflexivity. now rewrite app_assoc.
Qed.
Lemma expansions_quotes l : expansions arrays (map quote l) = Some l.
Proof. induction l as [| x l IH]; [reflexivity |]. cbn [map expansions]. now rewrite expansion_quote, IH. Qed.

(** the values of a variable *)
Definition chosen (any : bool) (v : str) : list str := if any then arrays v else last_one (arrays v).
Definition var_text (any : bool) (v : str) : str := if any then s """${" ++ v ++ s "[@]}""" else s """${" ++ v ++ s "[@]: -1:1}""".
Lemma var_subscripted any v : var_text any v = subscripted v (if any then s "@]" else s "@]: -1:1").
Proof. unfold var_text, subscripted. now destruct any. Qed.
Lemma atom_var any v : is_name v -> atom (var_text any v).
Proof. intros H. rewrite var_subscripted. apply atom_subscripted; [exact H | |]; destruct any; cbn; intuition discriminate. Qed.
Lemma expansion_var any v : is_name v -> expansion arrays (var_text any v) = Some (chosen any v).
Proof.
  intros H. rewrite var_subscripted. unfold expansion. rewrite subscript_text by now apply name_no_bracket. now destruct any.
Qed.
Lemma expansions_vars any vs : Forall is_name vs -> expansions arrays (map (var_text any) vs) = Some (flat_map (chosen any) vs).
Proof.
  induction vs as [| v vs IH]; intros H; [reflexivity |]. apply Forall_cons_iff in H as [Hv Hvs]. cbn [map expansions flat_map].
  now rewrite (expansion_var any v Hv), (IH Hvs).
Qed.
Lemma expansion_index l n : arrays (s "POSITIONALS") = l ->
  expansion arrays (subscripted (s "POSITIONALS") (z_str n ++ s "]")) = Some [element l n].
Proof.
  intros <-. unfold expansion. rewrite subscript_text by (cbn; intuition discriminate). 
  destruct (str_eqb_spec (z_str n ++ s "]") (s "@]")) as [E | _].
  { exfalso. change (s "@]") with (s "@" ++ s "]") in E. apply app_inv_tail in E. pose proof (py_int_str n) as P. rewrite E in P. discriminate P. }
  destruct (str_eqb_spec (z_str n ++ s "]") (s "@]: -1:1")) as [E | _].
  { exfalso. change (s "@]: -1:1") with (s "@]: -1:" ++ s "1") in E. apply app_inj_tail in E as [_ E]. discriminate E. }
  assert (E1 : ends_with (s "],,") (z_str n ++ s "]") = false).
  { unfold ends_with. rewrite rev_app_distr. reflexivity. }
  assert (E2 : ends_with (s "]") (z_str n ++ s "]") = true) by (apply ends_with_app; now exists (z_str n)).
  rewrite E1, E2. rewrite app_length. change (List.length (s "]")) with 1. replace (List.length (z_str n) + 1 - 1) with (List.length (z_str n)) by lia.
  rewrite firstn_app, Nat.sub_diag, firstn_all. cbn [firstn]. rewrite app_nil_r, py_int_str. reflexivity.
Qed.
Lemma expansion_index_lower l n : arrays (s "POSITIONALS") = l ->
  expansion arrays (subscripted (s "POSITIONALS") (z_str n ++ s "],,")) = Some [lower (element l n)].
Proof.
  intros <-. unfold expansion. rewrite subscript_text by (cbn; intuition discriminate). 
  destruct (str_eqb_spec (z_str n ++ s "],,") (s "@]")) as [E | _].
  { exfalso. change (s "@]") with (s "@" ++ s "]") in E. change (s "],,") with (s "]," ++ s ",") in E. rewrite app_assoc in E. apply app_inj_tail in E as [_ E]. discriminate E. }
  destruct (str_eqb_spec (z_str n ++ s "],,") (s "@]: -1:1")) as [E | _].
  { exfalso. change (s "@]: -1:1") with (s "@]: -1:" ++ s "1") in E. change (s "],,") with (s "]," ++ s ",") in E. rewrite app_assoc in E. apply app_inj_tail in E as [_ E]. discriminate E. }
  assert (E2 : ends_with (s "],,") (z_str n ++ s "],,") = true) by (apply ends_with_app; now exists (z_str n)).
  rewrite E2. rewrite app_length. change (List.length (s "],,")) with 3. replace (List.length (z_str n) + 3 - 3) with (List.length (z_str n)) by lia.
  rewrite firstn_app, Nat.sub_diag, firstn_all. cbn [firstn]. rewrite app_nil_r, py_int_str. reflexivity.
Qed.

(** ** Commands *)

Let count (v : str) : nat := List.length (arrays v).
Let command := simple_command arrays matches f1 f2 f3.
Let truth := bash_truth count command.

Lemma name_no_arith f rest : is_name f -> starts_with (s "(( ") (f ++ rest) = false.
Proof.
  intros [Hn H]. destruct f as [| c f]; [congruence |]. cbn in H. apply andb_prop in H as [H _].
  change (s "(( ") with (LPAR :: s "( "). cbn [app starts_with]. destruct (N.eqb_spec LPAR c) as [<- | _]; [discriminate H | reflexivity].
Qed.
Lemma truth_call f words : is_name f -> Forall atom words ->
  truth (sp_join (f :: words)) =
  match expansions arrays words with
  | Some args =>
      if str_eqb f f1 then match args with a :: l => existsb (str_eqb a) l | [] => false end
      else if str_eqb f f2 then match args with a :: l => existsb (fun b => str_eqb (lower a) (lower b)) l | [] => false end
      else if str_eqb f f3 then
            match args with
            | a :: l =>
                let '(ic, args) := if str_eqb a (s "-i") then (true, l) else (false, args) in
                match args with
                | a :: l =>
                    match (if str_eqb a (s "--") then l else args) with
                    | regex :: l => existsb (matches regex ic) l
                    | [] => false
                    end
                | [] => false
                end
            | [] => false
            end
      else false
  | None => false
  end.
Proof.
  intros Hf Hw. unfold truth, bash_truth, command, simple_command, comparison, arithmetic.
  assert (E : starts_with (s "(( ") (sp_join (f :: words)) = false).
  { unfold sp_join. destruct words; [cbn [join]; rewrite <- (app_nil_r f); now apply name_no_arith | rewrite join_cons; now apply name_no_arith]. }
  rewrite E. cbn [andb]. rewrite raw_join by (constructor; [now apply atom_name | exact Hw]). cbn [expansions].
  rewrite expansion_name by exact Hf. now destruct (expansions arrays words).
Qed.

Section Test.
Variable c : cmd.
(** an option string stands for one option *)
Hypothesis Hone : forall o1 o2 x, In o1 (c_options c) -> In o2 (c_options c) -> In x (o_strings o1) -> In x (o_strings o2) -> o1 = o2.
Hypothesis Hvars : forall o v, In o (c_options c) -> opt_variable o = Ok v -> is_name v.

Definition values_in (o : opt) : list str := match opt_variable o with Ok v => arrays v | Err _ => [] end.

Lemma by_strings_spec strings : forall os r, options_by_strings_loop (c_options c) os strings = Ok r ->
  (forall o, In o r -> In o os \/ one_of c strings o) /\
  (forall o, In o os \/ one_of c strings o -> exists q, In q r /\ opt_variable q = opt_variable o).
Proof.
  induction strings as [| x l IH]; intros os r H; cbn [options_by_strings_loop] in H.
  - injection H as <-. split; [tauto |]. intros o [Ho | (_ & x & [] & _)]. eauto.
  - destruct (find _ (c_options c)) as [p |] eqn:E; [| discriminate]. apply find_some in E as [Hp Hx]. apply mems_In in Hx.
    destruct (IH _ _ H) as [H1 H2]. split.
    + intros o Ho. destruct (H1 o Ho) as [Ho' | (Hc & y & Hy & Hyo)]; [| right; split; [exact Hc |]; exists y; split; [now right | exact Hyo]].
      destruct (existsb (opt_eqb p) os); [now left |]. apply in_app_or in Ho' as [Ho' | [<- | []]]; [now left |].
      right. split; [exact Hp |]. exists x. split; [now left | exact Hx].
    + assert (Hpr : exists q, In q r /\ opt_variable q = opt_variable p).
      { destruct (existsb (opt_eqb p) os) eqn:Ee.
        - apply existsb_exists in Ee as (q & Hq & Eq). destruct (H2 q) as (q' & Hq' & E'); [now left |]. exists q'. split; [exact Hq' |]. rewrite E'.
          apply opt_eqb_eq in Eq. unfold forget_opt in Eq. injection Eq as E1 _ _ _ _ _ _ _ _ _ _ E2.
          unfold opt_variable, capture_variable. now rewrite E1, E2.
        - apply H2. left. apply in_or_app. right. now left. }
      intros o [Ho | (Hc & y & [<- | Hy] & Hyo)].
      * apply H2. left. destruct (existsb (opt_eqb p) os); [exact Ho |]. apply in_or_app. now left.
      * assert (o = p) as -> by exact (Hone o p x Hc Hp Hyo Hx). exact Hpr.
      * apply H2. right. split; [exact Hc |]. now exists y.
Qed.
Lemma variables_spec os vs : option_variables c os = Ok vs ->
  Forall is_name vs /\ forall v, In v vs <-> exists o, one_of c os o /\ opt_variable o = Ok v.
Proof.
  intros H. unfold option_variables in H. apply bind_ok in H as (r & Hr & H). apply map_res_ok in H.
  destruct (by_strings_spec _ _ _ Hr) as [H1 H2].
  assert (K : forall v, In v vs <-> exists o, one_of c os o /\ opt_variable o = Ok v).
  { intros v. split.
    - intros Hv. destruct (Forall2_In_r _ _ _ _ H Hv) as (o & Ho & E). destruct (H1 o Ho) as [[] | Ho']. eauto.
    - intros (o & Ho & E). destruct (H2 o) as (q & Hq & Eq); [now right |]. destruct (Forall2_In_l _ _ _ _ H Hq) as (w & Hw & Ew). congruence. }
  split; [| exact K]. apply Forall_forall. intros v Hv. apply K in Hv as (o & (Ho & _) & E). now apply (Hvars o).
Qed.
Lemma last_one_In (l : list str) v : In v (last_one l) <-> exists before, l = before ++ [v].
Proof.
  unfold last_one. destruct (rev l) as [| x y] eqn:E.
  - assert (l = []) as -> by (rewrite <- (rev_involutive l), E; reflexivity). split; [intros [] | intros ([|] & H); discriminate].
  - assert (l = rev y ++ [x]) as -> by (rewrite <- (rev_involutive l), E; reflexivity). split.
    + intros [<- | []]. eauto.
    + intros (before & H). apply app_inj_tail in H as [_ ->]. now left.
Qed.
Lemma chosen_In any o v : In v (match opt_variable o with Ok x => chosen any x | Err _ => [] end) <-> value_for values_in any o v.
Proof.
  unfold value_for, values_in, chosen. destruct (opt_variable o) as [e | x].
  - split; [intros [] | intros ([|] & after & H & _); discriminate].
  - destruct any.
    + split.
      * intros H. apply in_split in H as (a & b & ->). eauto.
      * intros (a & b & -> & _). apply in_or_app. right. now left.
    + rewrite last_one_In. split.
      * intros (a & ->). exists a, []. auto.
      * intros (a & b & -> & [E | ->]); [discriminate | eauto].
Qed.
Lemma values_chosen os vs any v : option_variables c os = Ok vs ->
  (In v (flat_map (chosen any) vs) <-> exists o, one_of c os o /\ value_for values_in any o v).
Proof.
  intros H. destruct (variables_spec os vs H) as [_ K]. rewrite in_flat_map. split.
  - intros (x & Hx & Hv). apply K in Hx as (o & Ho & E). exists o. split; [exact Ho |]. apply chosen_In. now rewrite E.
  - intros (o & Ho & Hv). apply chosen_In in Hv. destruct (opt_variable o) as [e | x] eqn:E; [destruct Hv |]. exists x. split; [apply K; eauto | exact Hv].
Qed.

Notation env := (when_env f1 f2 f3 c).
Let positionals := arrays (s "POSITIONALS").

Lemma join_two f q vars : vars <> [] -> f ++ [SP] ++ q ++ [SP] ++ sp_join vars = sp_join (f :: q :: vars).
Proof. intros H. unfold sp_join. rewrite !join_cons. destruct vars as [| v vars]; [congruence |]. now rewrite join_cons. Qed.
Lemma existsb_In {A} (f : A -> bool) l : existsb f l = true <-> exists x, In x l /\ f x = true.
Proof. apply existsb_exists. Qed.
Lemma eqb_iff a b : str_eqb a b = true <-> a = b.
Proof. destruct (str_eqb_spec a b); intuition congruence. Qed.
Lemma variables_texts os any texts : bash_variables env os any = Ok texts -> os <> [] ->
  exists vs, option_variables c os = Ok vs /\ texts = map (var_text any) vs /\ texts <> [] /\ Forall is_name vs.
Proof.
  intros H Hn. unfold bash_variables in H. cbn [b_vars when_env] in H. apply bind_ok in H as (vs & Hvs & H). apply inr_inj in H.
  exists vs. split; [exact Hvs |]. split; [symmetry; exact H |]. destruct (variables_spec os vs Hvs) as [K1 K2]. split; [| exact K1].
  rewrite <- H. unfold option_variables in Hvs. apply bind_ok in Hvs as (r & Hr & Hvs).
  destruct (by_strings_In c os [] r Hr) as [_ Hr2]; [intros o [] |].
  assert (Hrn : r <> []) by (apply Hr2; now right). apply map_res_ok in Hvs. destruct vs; [inversion Hvs; congruence | discriminate].
Qed.

Lemma has_option_total vs : Forall is_name vs -> vs <> [] ->
  truth (s "(( " ++ join (s " + ") (map (fun v => s "${#" ++ v ++ s "[@]}") vs) ++ s " ))") = true <-> exists v, In v vs /\ arrays v <> [].
Proof.
  intros Hn Hne. unfold truth, bash_truth. rewrite arithmetic_text.
  change (fun v => s "${#" ++ v ++ s "[@]}") with length_text.
  assert (K : forall vs, Forall is_name vs -> vs <> [] -> total count (split_c SP (join (s " + ") (map length_text vs))) = Some (fold_right Nat.add 0 (map count vs))).
  { clear. induction vs as [| v vs IH]; intros H Hn; [congruence |]. apply Forall_cons_iff in H as [Hv Hvs]. destruct vs as [| w vs].
    - cbn [map join]. rewrite split_c_word by now apply length_no_space. cbn [total]. rewrite length_of_text. cbn. f_equal. lia.
    - cbn [map]. rewrite join_cons. change (length_text v ++ s " + " ++ join (s " + ") (length_text w :: map length_text vs)) with
        (length_text v ++ SP :: (s "+" ++ SP :: join (s " + ") (map length_text (w :: vs)))).
      rewrite split_c_app by now apply length_no_space. rewrite (split_c_app SP (s "+")) by (cbn; intuition discriminate).
      specialize (IH Hvs ltac:(discriminate)). remember (split_c SP (join (s " + ") (map length_text (w :: vs)))) as rest. cbn [total].
      rewrite length_of_text. change (str_eqb (s "+") (s "+")) with true. cbn iota. rewrite IH. reflexivity. }
  assert (E : all_empty count (split_c SP (join (s " + ") (map length_text vs))) = None).
  { destruct vs as [| v vs]; [congruence |]. apply Forall_cons_iff in Hn as [Hv _]. destruct vs as [| w vs]; cbn [map].
    - cbn [join]. rewrite split_c_word by now apply length_no_space. reflexivity.
    - rewrite join_cons. change (length_text v ++ s " + " ++ join (s " + ") (length_text w :: map length_text vs)) with
        (length_text v ++ SP :: (s "+" ++ SP :: join (s " + ") (map length_text (w :: vs)))).
      rewrite split_c_app by now apply length_no_space. rewrite (split_c_app SP (s "+")) by (cbn; intuition discriminate).
      cbn [all_empty]. destruct (str_eqb_spec (length_text v) (s "!")) as [E | _]; [discriminate E | reflexivity]. }
  rewrite E, (K vs Hn Hne). cbn [option_map]. rewrite negb_true_iff, Nat.eqb_neq.
  assert (Z : forall l, fold_right Nat.add 0 (map count l) <> 0 <-> exists v, In v l /\ arrays v <> []).
  { clear. induction l as [| v l IH]; cbn [map fold_right]; [split; [congruence | intros (v & [] & _)] |].
    unfold count at 1. split.
    - intros H. destruct (arrays v) as [| a b] eqn:Ev; [cbn in H; apply IH in H as (u & Hu & Hn); exists u; split; [now right | exact Hn] |].
      exists v. split; [now left | now rewrite Ev].
    - intros (u & [<- | Hu] & Hn); [destruct (arrays v); [congruence | cbn; lia] |].
      assert (fold_right Nat.add 0 (map count l) <> 0) by (apply IH; eauto). lia. }
  apply Z.
Qed.


Lemma count_truth op n : In op operators -> (truth (gen_positional_count op n) = true <-> compares (Z.of_nat (List.length positionals)) op n).
Proof.
  intros Hop. unfold truth, bash_truth, gen_positional_count.
  set (body := s "${#POSITIONALS[@]} " ++ op ++ [SP] ++ z_str n).
  replace (s "(( ${#POSITIONALS[@]} " ++ op ++ [SP] ++ z_str n ++ s " ))") with (s "(( " ++ body ++ s " ))")
    by (unfold body; rewrite <- !app_assoc; reflexivity).
  assert (Es : split_c SP body = [length_text (s "POSITIONALS"); op; z_str n]).
  { unfold body. change (s "${#POSITIONALS[@]} " ++ op ++ [SP] ++ z_str n) with (length_text (s "POSITIONALS") ++ SP :: op ++ SP :: z_str n).
    rewrite split_c_app by (apply length_no_space; split; [discriminate | reflexivity]).
    rewrite split_c_app by (intros Hin; cbn in Hop; intuition (subst; cbn in Hin; intuition discriminate)).
    rewrite split_c_word; [reflexivity |]. intros Hin. pose proof (z_str_safe n) as Hz. rewrite forallb_forall in Hz. specialize (Hz SP Hin). discriminate Hz. }
  rewrite arithmetic_text, Es.
  assert (E1 : all_empty count [length_text (s "POSITIONALS"); op; z_str n] = None) by reflexivity.
  assert (E2 : total count [length_text (s "POSITIONALS"); op; z_str n] = None).
  { cbn [total]. rewrite length_of_text. destruct (str_eqb_spec op (s "+")) as [-> | _]; [| reflexivity]. cbn in Hop. intuition discriminate. }
  rewrite E1, E2. cbn [option_map]. unfold command, simple_command, comparison.
  assert (H1 : starts_with (s "(( ") (s "(( " ++ body ++ s " ))") = true) by (apply starts_with_app; now exists (body ++ s " ))")).
  assert (H2 : ends_with (s " ))") (s "(( " ++ body ++ s " ))") = true) by (apply ends_with_app; exists (s "(( " ++ body); now rewrite app_assoc).
  rewrite H1, H2. cbn [andb].
  assert (Eb : firstn (List.length (s "(( " ++ body ++ s " ))") - 6) (skipn 3 (s "(( " ++ body ++ s " ))")) = body).
  { rewrite !app_length. change (List.length (s "(( ")) with 3. change (List.length (s " ))")) with 3.
    replace (3 + (List.length body + 3) - 6) with (List.length body) by lia. change (skipn 3 (s "(( " ++ body ++ s " ))")) with (body ++ s " ))").
    rewrite firstn_app, Nat.sub_diag, firstn_all. cbn [firstn]. now rewrite app_nil_r. }
  rewrite Eb, Es, length_of_text, py_int_str. cbv zeta. fold positionals.
  unfold compares. set (a := Z.of_nat (List.length positionals)).
  assert (Hd : forall x y : str, x <> y -> str_eqb x y = false) by (intros x y Hxy; destruct (str_eqb_spec x y); [contradiction | reflexivity]).
  cbn in Hop. decompose [or] Hop; try contradiction; subst op;
    repeat match goal with
    | |- context[str_eqb ?x ?x] => change (str_eqb x x) with true
    | |- context[str_eqb ?x ?y] => let b := eval vm_compute in (str_eqb x y) in change (str_eqb x y) with b
    end; cbn iota; rewrite ?negb_true_iff, ?Z.eqb_eq, ?Z.eqb_neq, ?Z.leb_le, ?Z.ltb_lt;
    (split; [intros H; intuition | intros H; decompose [or and] H; try discriminate; lia]).
  all: lia.
Qed.

Theorem test_meaning o x : obj_ok o -> bash_test env o = Ok x ->
  (bash_true truth env o = true <-> test_true matches values_in positionals c o).
Proof.
  intros Hok Hx. destruct o as [os ws ic any | os r ic any | os | op n | ic n ws].
  - cbn [bash_test] in Hx. unfold bash_option_is in Hx. apply bind_ok in Hx as (texts & Ht & _). destruct Hok as (Hos & _ & _).
    destruct (variables_texts os any texts Ht Hos) as (vs & Hvs & Et & Hne & Hnames). cbn [bash_true test_true]. rewrite Ht. cbn iota.
    rewrite existsb_In.
    assert (K : forall w, truth ((if ic then b_array_contains_nocase env else b_array_contains env) ++ [SP] ++ quote w ++ [SP] ++ sp_join texts) = true <->
      exists v, In v (flat_map (chosen any) vs) /\ same ic v w).
    { intros w. rewrite join_two by exact Hne. rewrite truth_call.
      2: { destruct ic; [exact Hf2 | exact Hf1]. }
      2: { constructor; [apply atom_quote |]. rewrite Et. apply Forall_map. eapply Forall_impl; [| exact Hnames]. intros v. apply atom_var. }
      cbn [expansions]. rewrite expansion_quote, Et, expansions_vars by exact Hnames. cbn [app b_array_contains b_array_contains_nocase when_env].
      destruct ic; cbn [same].
      - destruct (str_eqb_spec f2 f1) as [E | _]; [congruence |]. destruct (str_eqb_spec f2 f2) as [_ | E]; [| congruence]. rewrite existsb_In.
        split; intros (v & Hv & E); exists v; rewrite eqb_iff in *; auto.
      - destruct (str_eqb_spec f1 f1) as [_ | E]; [| congruence]. rewrite existsb_In.
        split; intros (v & Hv & E); exists v; rewrite eqb_iff in *; auto. }
    split.
    + intros (w & Hw & Hk). apply K in Hk as (v & Hv & Hs). apply (values_chosen os vs any v Hvs) in Hv as (o & Ho & Hvo). exists o, v, w. auto.
    + intros (o & v & w & Ho & Hvo & Hw & Hs). exists w. split; [exact Hw |]. apply K. exists v. split; [| exact Hs]. apply (values_chosen os vs any v Hvs). eauto.
  - unfold bash_true. rewrite Hx. cbn [bash_test test_true] in *. unfold bash_option_match in Hx. apply bind_ok in Hx as (texts & Ht & Hx). destruct Hok as (Hos & _ & _).
    destruct (variables_texts os any texts Ht Hos) as (vs & Hvs & Et & Hne & Hnames). apply inr_inj in Hx. subst x.
    assert (Ej : b_array_match env ++ (if ic then s " -i -- " else s " -- ") ++ quote r ++ [SP] ++ sp_join texts =
      sp_join (f3 :: (if ic then [s "-i"] else []) ++ s "--" :: quote r :: texts)).
    { unfold sp_join. cbn [b_array_match when_env]. destruct ic; cbn [app]; rewrite !join_cons; (destruct texts as [| v texts']; [congruence |]);
        rewrite join_cons; cbn [app]; rewrite <- ?app_assoc; reflexivity. }
    rewrite Ej, truth_call; [| exact Hf3 |].
    2: { apply Forall_app. split; [destruct ic; repeat constructor; try discriminate; intros w rest; apply raw_plain; cbn; intuition (subst; discriminate) |].
      constructor; [split; [discriminate | apply raw_plain; cbn; intuition (subst; discriminate)] |]. constructor; [apply atom_quote |].
      rewrite Et. apply Forall_map. eapply Forall_impl; [| exact Hnames]. intros v. apply atom_var. }
    assert (Ee : expansions arrays ((if ic then [s "-i"] else []) ++ s "--" :: quote r :: texts) =
      Some ((if ic then [s "-i"] else []) ++ s "--" :: r :: flat_map (chosen any) vs)).
    { rewrite expansions_app. cbn [expansions]. rewrite expansion_quote, Et, expansions_vars by exact Hnames.
      change (expansion arrays (s "--")) with (Some [s "--"]).
      replace (expansions arrays (if ic then [s "-i"] else [])) with (Some (if ic then [s "-i"] else [])) by (destruct ic; reflexivity). reflexivity. }
    rewrite Ee. destruct (str_eqb_spec f3 f1) as [E | _]; [congruence |]. destruct (str_eqb_spec f3 f2) as [E | _]; [congruence |].
    destruct (str_eqb_spec f3 f3) as [_ | E]; [| congruence].
    match goal with |- ?m = true <-> _ => replace m with (existsb (matches r ic) (flat_map (chosen any) vs)) by (destruct ic; reflexivity) end.
    rewrite existsb_In. split.
    + intros (v & Hv & Hm). apply (values_chosen os vs any v Hvs) in Hv as (o & Ho & Hvo). eauto.
    + intros (o & v & Ho & Hvo & Hm). exists v. split; [| exact Hm]. apply (values_chosen os vs any v Hvs). eauto.
  - unfold bash_true. rewrite Hx. cbn [bash_test test_true] in *. unfold bash_has_option in Hx. cbn [b_vars when_env] in Hx.
    apply bind_ok in Hx as (vs & Hvs & Hx). apply inr_inj in Hx. subst x. destruct (variables_spec os vs Hvs) as [Hnames K].
    assert (Hne : vs <> []).
    { destruct (variables_texts os true (map (var_text true) vs)) as (vs' & Hvs' & _ & Hn & _); [| exact Hok |].
      - unfold bash_variables. cbn [b_vars when_env]. rewrite Hvs. reflexivity.
      - intros ->. now apply Hn. }
    rewrite has_option_total by assumption. split.
    + intros (v & Hv & Hn). apply K in Hv as (o & Ho & E). exists o. split; [exact Ho |]. unfold values_in. now rewrite E.
    + intros (o & Ho & Hn). unfold values_in in Hn. destruct (opt_variable o) as [e | v] eqn:E; [congruence |]. exists v. split; [apply K; eauto | exact Hn].
  - unfold bash_true. rewrite Hx. cbn [bash_test] in Hx. apply inr_inj in Hx. subst x. now apply count_truth.
  - unfold bash_true. rewrite Hx. cbn [bash_test test_true] in *. apply inr_inj in Hx. subst x. unfold bash_positional_contains. cbn [b_array_contains when_env].
    assert (Hws : ws <> []) by exact Hok.
    destruct ic; cbn [same].
    + rewrite lower_join_quoted. unfold join_quoted.
      replace (f1 ++ s " ""${POSITIONALS[" ++ z_str (n - 1) ++ s "],,}"" " ++ join [SP] (map quote (map lower ws))) with
        (sp_join (f1 :: subscripted (s "POSITIONALS") (z_str (n - 1) ++ s "],,") :: map quote (map lower ws))).
      2: { unfold sp_join, subscripted. destruct ws as [| w ws']; [congruence |]. cbn [map]. rewrite !join_cons. rewrite <- !app_assoc. cbn [app]. rewrite <- !app_assoc. reflexivity. }
      rewrite truth_call; [| exact Hf1 |].
      2: { constructor.
        - apply atom_subscripted; [split; [discriminate | reflexivity] | |]; intros Hin; apply in_app_or in Hin as [Hin | Hin];
            try (cbn in Hin; intuition discriminate); pose proof (z_str_safe (n - 1)) as Hz; rewrite forallb_forall in Hz; specialize (Hz _ Hin); discriminate Hz.
        - apply Forall_map, Forall_forall. intros w _. apply atom_quote. }
      cbn [expansions]. rewrite (expansion_index_lower positionals (n - 1) eq_refl), expansions_quotes. cbn [app].
      destruct (str_eqb_spec f1 f1) as [_ | E]; [| congruence]. rewrite existsb_In. split.
      * intros (v & Hv & E). apply in_map_iff in Hv as (w & <- & Hw). apply eqb_iff in E. exists w. auto.
      * intros (w & Hw & E). exists (lower w). split; [now apply in_map | now apply eqb_iff].
    + unfold join_quoted.
      replace (f1 ++ s " ""${POSITIONALS[" ++ z_str (n - 1) ++ s "]}"" " ++ join [SP] (map quote ws)) with
        (sp_join (f1 :: subscripted (s "POSITIONALS") (z_str (n - 1) ++ s "]") :: map quote ws)).
      2: { unfold sp_join, subscripted. destruct ws as [| w ws']; [congruence |]. cbn [map]. rewrite !join_cons. rewrite <- !app_assoc. cbn [app]. rewrite <- !app_assoc. reflexivity. }
      rewrite truth_call; [| exact Hf1 |].
      2: { constructor.
        - apply atom_subscripted; [split; [discriminate | reflexivity] | |]; intros Hin; apply in_app_or in Hin as [Hin | Hin];
            try (cbn in Hin; intuition discriminate); pose proof (z_str_safe (n - 1)) as Hz; rewrite forallb_forall in Hz; specialize (Hz _ Hin); discriminate Hz.
        - apply Forall_map, Forall_forall. intros w _. apply atom_quote. }
      cbn [expansions]. rewrite (expansion_index positionals (n - 1) eq_refl), expansions_quotes. cbn [app].
      destruct (str_eqb_spec f1 f1) as [_ | E]; [| congruence]. rewrite existsb_In. split.
      * intros (v & Hv & E). apply eqb_iff in E. exists v. auto.
      * intros (w & Hw & E). exists w. split; [exact Hw | now apply eqb_iff].
Qed.

(** Conditions, as they are composed of tests. *)
Lemma cond_meaning :
  (forall t, (forall o, In o (term_tests t) -> bash_true truth env o = true <-> test_true matches values_in positionals c o) ->
    (term_true (bash_true truth env) t = true <-> term_value matches values_in positionals c t)) /\
  (forall l, (forall o, In o (conds_tests l) -> bash_true truth env o = true <-> test_true matches values_in positionals c o) ->
    (conds_true (bash_true truth env) l = true <-> cond_value matches values_in positionals c l)).
Proof.
  apply term_conds_ind.
  - intros a H. cbn [term_true term_value]. apply H. now left.
  - intros t IH H. cbn [term_true term_value]. rewrite <- (IH H), negb_true_iff. destruct (term_true (bash_true truth env) t); intuition congruence.
  - intros l IH H. cbn [term_true term_value]. apply (IH H).
  - intros t IH H. cbn [conds_true cond_value]. apply (IH H).
  - intros l IHl t IHt H. cbn [conds_true cond_value]. rewrite andb_true_iff, IHl, IHt; [reflexivity | |]; intros o Ho; apply H, in_or_app; [now right | now left].
  - intros l IHl t IHt H. cbn [conds_true cond_value]. rewrite orb_true_iff, IHl, IHt; [reflexivity | |]; intros o Ho; apply H, in_or_app; [now right | now left].
Qed.
Theorem when_meaning ere e cond text : parse_when ere e = Ok (map wtok_of (conds_syms cond)) ->
  generate_when_conditions ere f1 f2 f3 c e = Ok text ->
  sh_eval truth text = Some (conds_true (bash_true truth env) cond) /\
  (conds_true (bash_true truth env) cond = true <-> cond_value matches values_in positionals c cond).
Proof.
  intros Hp Hg. assert (He : good_benv env).
  { apply (env_good f1 f2 f3 [] c Hf1 Hf2 Hf3). intros d o v [<- | []]. apply Hvars. }
  unfold generate_when_conditions in Hg. split.
  - destruct (bash_meaning ere env e cond text He Hp Hg truth (s "x") (s "x")) as (Ht & _); try discriminate; try reflexivity. exact Ht.
  - apply cond_meaning. intros o Ho. unfold bash_when in Hg. rewrite Hp in Hg. cbn [bind] in Hg. apply bind_ok in Hg as (r & Hr & _).
    destruct (bash_tokens_map _ _ _ Hr) as [_ Ht].
    assert (Hi : In (WObj o) (map wtok_of (conds_syms cond))).
    { apply in_map_iff. exists (STest o). split; [reflexivity |]. apply tests_in_syms, Ho. }
    apply (test_meaning o (bash_text env o)); [eapply parse_when_ok; [exact Hp | exact Hi] | apply Ht, Hi].
Qed.
End Test.
End World.
