(** * Proofs about conditions. *)
From Coq Require Import DecimalZ DecimalPos.
From Verif Require Import Base StrUtils Shell SpecShell ShellParser ShellProofs When SpecWhen.
Open Scope list_scope.

Scheme term_mut := Induction for term Sort Prop
  with conds_mut := Induction for conds Sort Prop.
Combined Scheme term_conds_ind from term_mut, conds_mut.

(** ** Lexing shell text *)

(** What may follow a command: nothing, an operator, the end of a group. *)
Definition follow (r : str) : Prop :=
  r = [] \/ (exists r', r = SP :: AMP :: r') \/ (exists r', r = SP :: PIPE :: r') \/
  (exists r', r = SP :: SEMI :: r') \/ (exists r', r = SEMI :: r').

Definition lexes (x : str) (ps : list piece) : Prop :=
  forall rest, follow rest ->
    sh_lex LStart (x ++ rest) = option_map (app ps) (sh_lex LStart rest).

Lemma option_map_id {B} (o : option (list B)) : option_map (app []) o = o.
Proof. destruct o; reflexivity. Qed.
Lemma option_map_map {B C D} (f : C -> D) (g : B -> C) (o : option B) :
  option_map f (option_map g o) = option_map (fun x => f (g x)) o.
Proof. destruct o; reflexivity. Qed.
Lemma option_map_app {B} (a b : list B) o :
  option_map (app a) (option_map (app b) o) = option_map (app (a ++ b)) o.
Proof. destruct o; cbn; [rewrite app_assoc|]; reflexivity. Qed.

Lemma rstrip_sp t : rstrip_p (N.eqb SP) (t ++ [SP]) = rstrip_p (N.eqb SP) t.
Proof. unfold rstrip_p. rewrite rev_app_distr. reflexivity. Qed.

Definition no_trail (t : str) : Prop := exists t' c, t = t' ++ [c] /\ c <> SP.

Lemma rstrip_no_trail t : no_trail t -> rstrip_p (N.eqb SP) t = t.
Proof.
  intros (t' & c & -> & Hc). unfold rstrip_p. rewrite rev_app_distr. cbn [rev app lstrip_p].
  destruct (N.eqb_spec SP c) as [E|_]; [congruence|]. cbn [rev]. rewrite rev_involutive. reflexivity.
Qed.

(** The end of a simple command. *)
Lemma lex_cmd_end t rest : no_trail t -> follow rest ->
  sh_lex (LCmd QNone t) rest = option_map (app [PCmd t]) (sh_lex LStart rest).
Proof.
  intros Ht Hf.
  assert (E : command_text t = PCmd t) by (unfold command_text; rewrite rstrip_no_trail by exact Ht; reflexivity).
  assert (E' : command_text (t ++ [SP]) = PCmd t)
    by (unfold command_text; rewrite rstrip_sp, rstrip_no_trail by exact Ht; reflexivity).
  destruct Hf as [->|[[r ->]|[[r ->]|[[r ->]|[r ->]]]]]; cbn [sh_lex]; cbn -[command_text];
    rewrite ?E, ?E'; cbn; try reflexivity.
  all: rewrite ?option_map_map; reflexivity.
Qed.

(** Text that a simple command reads over, back to the unquoted state. *)
Definition closed (x : str) : Prop :=
  forall t rest, sh_lex (LCmd QNone t) (x ++ rest) = sh_lex (LCmd QNone (t ++ x)) rest.

Lemma closed_nil : closed [].
Proof. intros t rest. rewrite app_nil_r. reflexivity. Qed.
Lemma closed_app x y : closed x -> closed y -> closed (x ++ y).
Proof. intros Hx Hy t rest. rewrite <- app_assoc, Hx, Hy, app_assoc. reflexivity. Qed.

Definition plain (c : N) : bool :=
  negb (memc c [AMP; PIPE; SEMI; SQ; DQ] || other_syntax c).

Lemma plain_cases c : plain c = true ->
  N.eqb c AMP = false /\ N.eqb c PIPE = false /\ N.eqb c SEMI = false /\ N.eqb c SQ = false /\
  N.eqb c DQ = false /\ other_syntax c = false.
Proof.
  unfold plain. rewrite negb_true_iff, orb_false_iff. unfold memc. cbn [existsb].
  rewrite !orb_false_iff. tauto.
Qed.

Lemma closed_plain x : forallb plain x = true -> closed x.
Proof.
  induction x as [|c x IH]; intros H; [apply closed_nil|].
  cbn in H. apply andb_true_iff in H as [Hc Hx].
  intros t rest. cbn [app sh_lex].
  destruct (plain_cases c Hc) as (-> & -> & -> & -> & -> & ->).
  rewrite (IH Hx), <- app_assoc. reflexivity.
Qed.

Lemma safe_plain c : is_safe c = true -> plain c = true.
Proof.
  intros H. unfold plain. rewrite negb_true_iff.
  destruct (memc c _ || other_syntax c) eqn:E; [|reflexivity]. exfalso.
  unfold other_syntax in E. rewrite <- orb_true_iff in E || idtac.
  apply orb_true_iff in E. rewrite !memc_In in E. cbn in E.
  destruct E as [E|E]; repeat (destruct E as [<-|E]; [vm_compute in H; discriminate|]); exact E.
Qed.

Lemma lex_single x rest t : ~ In SQ x ->
  sh_lex (LCmd QSingle t) (x ++ SQ :: rest) = sh_lex (LCmd QNone (t ++ x ++ [SQ])) rest.
Proof.
  revert t. induction x as [|c x IH]; intros t H.
  - cbn. reflexivity.
  - cbn [app sh_lex]. destruct (N.eqb_spec c SQ) as [->|Hc]; [cbn in H; tauto|].
    rewrite IH by (cbn in H; tauto). rewrite <- !app_assoc. reflexivity.
Qed.

Lemma closed_single x : ~ In SQ x -> closed (SQ :: x ++ [SQ]).
Proof.
  intros H t rest. cbn [app sh_lex]. cbn. rewrite <- app_assoc. cbn [app].
  rewrite lex_single by exact H. rewrite <- !app_assoc. reflexivity.
Qed.

Lemma lex_double_dq x rest t : ~ In DQ x ->
  sh_lex (LCmd QDouble t) (concat (map dq_esc x) ++ DQ :: rest) =
  sh_lex (LCmd QNone (t ++ concat (map dq_esc x) ++ [DQ])) rest.
Proof.
  revert t. induction x as [|c x IH]; intros t H.
  - cbn. reflexivity.
  - cbn [map concat]. unfold dq_esc at 1 3.
    assert (Hx : ~ In DQ x) by (cbn in H; tauto).
    destruct (N.eqb_spec c BS) as [->|Hb]; [|destruct (N.eqb_spec c DOLLAR) as [->|Hd];
      [|destruct (N.eqb_spec c BTICK) as [->|Ht]]].
    1-3: cbn [app]; cbn [sh_lex]; cbn -[sh_lex]; rewrite IH by exact Hx; rewrite <- !app_assoc; reflexivity.
    cbn [app sh_lex]. destruct (N.eqb_spec c DQ) as [->|Hq]; [cbn in H; tauto|].
    rewrite (proj2 (N.eqb_neq _ _) Hb), IH by exact Hx. rewrite <- !app_assoc. reflexivity.
Qed.

Lemma closed_double x : ~ In DQ x -> closed (DQ :: concat (map dq_esc x) ++ [DQ]).
Proof.
  intros H t rest. cbn [app sh_lex]. cbn -[sh_lex app]. rewrite <- app_assoc. cbn [app].
  rewrite lex_double_dq by exact H. rewrite <- !app_assoc. reflexivity.
Qed.

(** Plain double quoted text. *)
Definition dplain (c : N) : bool := negb (memc c [DQ; BS]).
Lemma lex_double_plain x rest t : forallb dplain x = true ->
  sh_lex (LCmd QDouble t) (x ++ DQ :: rest) = sh_lex (LCmd QNone (t ++ x ++ [DQ])) rest.
Proof.
  revert t. induction x as [|c x IH]; intros t H.
  - reflexivity.
  - cbn [forallb] in H. apply andb_true_iff in H as [Hc Hx].
    cbn [app sh_lex]. unfold dplain, memc in Hc. cbn [existsb] in Hc.
    rewrite negb_true_iff, !orb_false_iff in Hc. destruct Hc as (-> & -> & _).
    rewrite IH by exact Hx. rewrite <- !app_assoc. reflexivity.
Qed.
Lemma closed_double_plain x : forallb dplain x = true -> closed (DQ :: x ++ [DQ]).
Proof.
  intros H t rest. cbn [app sh_lex]. cbn -[sh_lex app]. rewrite <- app_assoc. cbn [app].
  rewrite lex_double_plain by exact H. rewrite <- !app_assoc. reflexivity.
Qed.

Lemma lex_mixed x rest t :
  sh_lex (LCmd QSingle t) (replace_c SQ [SQ; DQ; SQ; DQ; SQ] x ++ SQ :: rest) =
  sh_lex (LCmd QNone (t ++ replace_c SQ [SQ; DQ; SQ; DQ; SQ] x ++ [SQ])) rest.
Proof.
  revert t. induction x as [|c x IH]; intros t.
  - reflexivity.
  - cbn [replace_c]. destruct (N.eqb_spec c SQ) as [->|Hc].
    + cbn [app]. cbn [sh_lex]. cbn -[sh_lex app]. rewrite IH. rewrite <- !app_assoc. reflexivity.
    + cbn [app sh_lex]. rewrite (proj2 (N.eqb_neq _ _) Hc), IH. rewrite <- !app_assoc. reflexivity.
Qed.

Lemma closed_quote x : closed (quote x).
Proof.
  destruct (quote_cases x) as [(H & _ & ->)|[(_ & H & ->)|[(_ & _ & H & ->)|(_ & _ & _ & ->)]]].
  - apply closed_plain. rewrite forallb_forall in *. intros c Hc. apply safe_plain, H, Hc.
  - apply closed_single; exact H.
  - apply closed_double; exact H.
  - intros t rest. cbn [app sh_lex]. cbn -[sh_lex app replace_c]. rewrite <- app_assoc. cbn [app].
    rewrite lex_mixed. rewrite <- !app_assoc. reflexivity.
Qed.

Lemma closed_sp : closed [SP].
Proof. apply closed_plain. reflexivity. Qed.

Lemma closed_join l : Forall closed l -> closed (join [SP] l).
Proof.
  induction 1 as [|x l Hx Hl IH]; [apply closed_nil|].
  destruct l as [|y l]; [exact Hx|]. rewrite join_cons.
  apply closed_app; [exact Hx|]. apply closed_app; [apply closed_sp|exact IH].
Qed.

Lemma closed_join_quoted l : closed (join_quoted l [SP]).
Proof. apply closed_join. apply Forall_map, Forall_forall. intros x _. apply closed_quote. Qed.

(** No trailing blank *)
Lemma no_trail_app x y : no_trail y -> no_trail (x ++ y).
Proof. intros (t & c & -> & H). exists (x ++ t), c. rewrite app_assoc. auto. Qed.

Lemma no_trail_safe x : forallb is_safe x = true -> x <> [] -> no_trail x.
Proof.
  intros H Hn. destruct (exists_last Hn) as (t & c & ->). exists t, c. split; [reflexivity|].
  rewrite forallb_app in H. apply andb_true_iff in H as [_ H]. cbn in H. rewrite andb_true_r in H.
  intros ->. vm_compute in H. discriminate.
Qed.

Lemma no_trail_quote x : no_trail (quote x).
Proof.
  destruct (quote_cases x) as [(H & H' & ->)|[(_ & H & ->)|[(_ & _ & H & ->)|(_ & _ & _ & ->)]]].
  - apply no_trail_safe; assumption.
  - exists (SQ :: x), SQ. split; [reflexivity|discriminate].
  - exists (DQ :: concat (map dq_esc x)), DQ. split; [reflexivity|discriminate].
  - eexists (SQ :: _), SQ. split; [reflexivity|discriminate].
Qed.

Lemma no_trail_join l : l <> [] -> Forall no_trail l -> no_trail (join [SP] l).
Proof.
  intros Hn H. induction H as [|x l Hx Hl IH]; [congruence|].
  destruct l as [|y l]; [exact Hx|]. rewrite join_cons.
  apply no_trail_app, no_trail_app, IH. discriminate.
Qed.
Lemma no_trail_join_quoted l : l <> [] -> no_trail (join_quoted l [SP]).
Proof.
  intros H. apply no_trail_join; [destruct l; [congruence|discriminate]|].
  apply Forall_map, Forall_forall. intros x _. apply no_trail_quote.
Qed.

(** A simple command that starts with a name. *)

Lemma word_safe c : is_word c = true -> is_safe c = true.
Proof. unfold is_safe. intros ->. reflexivity. Qed.
Lemma name_safe x : forallb is_word x = true -> forallb is_safe x = true.
Proof. rewrite !forallb_forall. intros H c Hc. apply word_safe, H, Hc. Qed.
Lemma name_plain x : forallb is_word x = true -> forallb plain x = true.
Proof. rewrite !forallb_forall. intros H c Hc. apply safe_plain, word_safe, H, Hc. Qed.
Lemma word_dplain c : is_word c = true -> dplain c = true.
Proof.
  intros H. unfold dplain. rewrite negb_true_iff. apply memc_false. intros [E|[E|[]]]; subst;
    vm_compute in H; discriminate.
Qed.
Lemma name_dplain x : forallb is_word x = true -> forallb dplain x = true.
Proof. rewrite !forallb_forall. intros H c Hc. apply word_dplain, H, Hc. Qed.
Lemma name_quote x : is_name x -> quote x = x.
Proof.
  intros [Hn H]. destruct (quote_cases x) as [(_ & _ & E)|[(E & _)|[(E & _)|(E & _)]]]; [exact E|..];
    exfalso; unfold needs_quote in E; destruct x; [congruence| |congruence| |congruence|];
    rewrite (name_safe _ H) in E; discriminate.
Qed.

Lemma safe_start c : is_safe c = true -> forall x,
  sh_lex LStart (c :: x) = sh_lex (LCmd QNone [c]) x.
Proof.
  intros H x. pose proof (plain_cases c (safe_plain c H)) as (E1 & E2 & E3 & E4 & E5 & E6).
  cbn [sh_lex]. rewrite E1, E2, E3, E4, E5, E6.
  assert (forall d, is_safe d = false -> N.eqb c d = false) as Hd.
  { intros d Hd. destruct (N.eqb_spec c d) as [->|]; [congruence|reflexivity]. }
  rewrite !Hd by reflexivity. reflexivity.
Qed.

Lemma lexes_safe_cmd n y : n <> [] -> forallb is_safe n = true -> closed y -> no_trail (n ++ y) ->
  lexes (n ++ y) [PCmd (n ++ y)].
Proof.
  intros Hn Hs Hy Ht rest Hf. destruct n as [|c n]; [congruence|].
  cbn [forallb] in Hs. apply andb_true_iff in Hs as [Hc Hs].
  cbn [app]. rewrite safe_start by exact Hc.
  assert (closed (n ++ y)) as Hcl.
  { apply closed_app; [|exact Hy]. apply closed_plain. rewrite forallb_forall in *.
    intros d Hd. apply safe_plain, Hs, Hd. }
  rewrite Hcl. cbn [app]. rewrite lex_cmd_end; [reflexivity|exact Ht|exact Hf].
Qed.

Lemma lexes_cmd n y : is_name n -> closed y -> no_trail (n ++ y) -> lexes (n ++ y) [PCmd (n ++ y)].
Proof. intros [Hn Hw]. apply lexes_safe_cmd; [exact Hn|apply name_safe, Hw]. Qed.

(** Arithmetic commands *)
Definition aplain (c : N) : bool := negb (memc c [LPAR; RPAR]).
Lemma lex_arith x t rest : forallb aplain x = true ->
  sh_lex (LArith t) (x ++ s "))" ++ rest) =
  option_map (app [PCmd (s "((" ++ (t ++ x) ++ s "))")]) (sh_lex LStart rest).
Proof.
  revert t. induction x as [|c x IH]; intros t H.
  - rewrite app_nil_r. cbn [app sh_lex s]. cbn -[sh_lex]. destruct (sh_lex LStart rest); reflexivity.
  - cbn [forallb] in H. apply andb_true_iff in H as [Hc Hx]. cbn [app sh_lex].
    unfold aplain, memc in Hc. cbn [existsb] in Hc. rewrite negb_true_iff, !orb_false_iff in Hc.
    destruct Hc as (E1 & E2 & _). rewrite E1, E2, IH by exact Hx. rewrite <- !app_assoc. reflexivity.
Qed.
Lemma lexes_arith x : forallb aplain x = true ->
  lexes (s "((" ++ x ++ s "))") [PCmd (s "((" ++ x ++ s "))")].
Proof.
  intros H rest _. rewrite <- !app_assoc.
  change (sh_lex LStart (s "((" ++ x ++ s "))" ++ rest)) with (sh_lex (LArith []) (x ++ s "))" ++ rest)).
  rewrite (lex_arith x [] rest H). reflexivity.
Qed.

(** Operators and groups *)
Lemma follow_sp r : follow (SP :: AMP :: r). Proof. right; left; eauto. Qed.
Lemma follow_or r : follow (SP :: PIPE :: r). Proof. right; right; left; eauto. Qed.
Lemma follow_spsemi r : follow (SP :: SEMI :: r). Proof. right; right; right; left; eauto. Qed.
Lemma follow_semi r : follow (SEMI :: r). Proof. right; right; right; right; eauto. Qed.

Lemma lexes_and x y ps qs : lexes x ps -> lexes y qs ->
  lexes (x ++ s " && " ++ y) (ps ++ PAnd :: qs).
Proof.
  intros Hx Hy rest Hf. rewrite <- !app_assoc. rewrite Hx by apply follow_sp.
  change (sh_lex LStart (s " && " ++ y ++ rest)) with (option_map (cons PAnd) (sh_lex LStart (y ++ rest))).
  rewrite Hy by exact Hf. destruct (sh_lex LStart rest); cbn; rewrite <- ?app_assoc; reflexivity.
Qed.
Lemma lexes_or x y ps qs : lexes x ps -> lexes y qs ->
  lexes (x ++ s " || " ++ y) (ps ++ POr :: qs).
Proof.
  intros Hx Hy rest Hf. rewrite <- !app_assoc. rewrite Hx by apply follow_or.
  change (sh_lex LStart (s " || " ++ y ++ rest)) with (option_map (cons POr) (sh_lex LStart (y ++ rest))).
  rewrite Hy by exact Hf. destruct (sh_lex LStart rest); cbn; rewrite <- ?app_assoc; reflexivity.
Qed.
Lemma lexes_not x ps : lexes x ps -> lexes (s "! " ++ x) (PNot :: ps).
Proof.
  intros Hx rest Hf. rewrite <- !app_assoc.
  change (sh_lex LStart (s "! " ++ x ++ rest)) with (option_map (cons PNot) (sh_lex LStart (x ++ rest))).
  rewrite Hx by exact Hf. destruct (sh_lex LStart rest); reflexivity.
Qed.
Lemma lex_rbrace rest : follow rest ->
  sh_lex (LWord PRBrace) rest = option_map (app [PRBrace]) (sh_lex LStart rest).
Proof.
  intros [->|[[r ->]|[[r ->]|[[r ->]|[r ->]]]]]; try reflexivity.
  change (option_map (fun r => PRBrace :: PSemi :: r) (sh_lex LStart r) =
    option_map (app [PRBrace]) (option_map (cons PSemi) (sh_lex LStart r))).
  rewrite option_map_map. reflexivity.
Qed.
Lemma lexes_group x ps : lexes x ps ->
  lexes (s "{ " ++ x ++ s " ;}") (PLBrace :: ps ++ [PSemi; PRBrace]).
Proof.
  intros Hx rest Hf. rewrite <- !app_assoc.
  change (sh_lex LStart (s "{ " ++ x ++ s " ;}" ++ rest)) with
    (option_map (cons PLBrace) (sh_lex LStart (x ++ s " ;}" ++ rest))).
  rewrite Hx by apply follow_spsemi.
  change (sh_lex LStart (s " ;}" ++ rest)) with (option_map (cons PSemi) (sh_lex (LWord PRBrace) rest)).
  rewrite lex_rbrace by exact Hf.
  destruct (sh_lex LStart rest); cbn; rewrite <- ?app_assoc; reflexivity.
Qed.
Lemma lexes_group' x ps : lexes x ps ->
  lexes (s "{ " ++ x ++ s "; }") (PLBrace :: ps ++ [PSemi; PRBrace]).
Proof.
  intros Hx rest Hf. rewrite <- !app_assoc.
  change (sh_lex LStart (s "{ " ++ x ++ s "; }" ++ rest)) with
    (option_map (cons PLBrace) (sh_lex LStart (x ++ s "; }" ++ rest))).
  rewrite Hx by apply follow_semi.
  change (sh_lex LStart (s "; }" ++ rest)) with (option_map (cons PSemi) (sh_lex (LWord PRBrace) rest)).
  rewrite lex_rbrace by exact Hf.
  destruct (sh_lex LStart rest); cbn; rewrite <- ?app_assoc; reflexivity.
Qed.

(** ** Evaluating generated text *)

Lemma join_app sep a b : a <> [] -> b <> [] -> join sep (a ++ b) = join sep a ++ sep ++ join sep b.
Proof.
  intros Ha Hb. induction a as [|x a IH]; [congruence|].
  destruct a as [|y a].
  - cbn [app]. destruct b; [congruence|reflexivity].
  - cbn [app]. rewrite !join_cons. cbn [app] in IH. rewrite IH by discriminate.
    rewrite <- !app_assoc. reflexivity.
Qed.

Lemma term_syms_not {A} (t : term A) : term_syms (Negation t) = SNot :: term_syms t.
Proof. reflexivity. Qed.
Lemma term_syms_group {A} (l : conds A) : term_syms (Group l) = SOpen :: conds_syms l ++ [SClose].
Proof. reflexivity. Qed.
Lemma conds_syms_one {A} (t : term A) : conds_syms (One t) = term_syms t.
Proof. reflexivity. Qed.
Lemma conds_syms_and {A} l (t : term A) : conds_syms (And l t) = conds_syms l ++ SAnd :: term_syms t.
Proof. reflexivity. Qed.
Lemma conds_syms_or {A} l (t : term A) : conds_syms (Or l t) = conds_syms l ++ SOr :: term_syms t.
Proof. reflexivity. Qed.

Lemma term_syms_nonempty {A} (t : term A) : term_syms t <> [].
Proof. destruct t; discriminate. Qed.
Lemma conds_syms_nonempty {A} (l : conds A) : conds_syms l <> [].
Proof.
  destruct l as [t|l t|l t]; cbn.
  - apply term_syms_nonempty.
  - intros H. apply app_eq_nil in H as [_ H]. discriminate.
  - intros H. apply app_eq_nil in H as [_ H]. discriminate.
Qed.
Lemma map_nonempty {A B} (f : A -> B) l : l <> [] -> map f l <> [].
Proof. destruct l; [congruence|discriminate]. Qed.

Section Evaluation.
Context {A : Type}.
Variables (test : A -> str) (g : sym A -> str) (truth : str -> bool) (sem : A -> bool).
Hypothesis g_and : g SAnd = s "&&".
Hypothesis g_or : g SOr = s "||".
Hypothesis g_not : g SNot = s "!".
Hypothesis g_open : g SOpen = s "{".
Hypothesis g_close : g SClose = s ";}".
Hypothesis g_test : forall a, g (STest a) = test a.

Definition means (x : str) (b : bool) : Prop :=
  exists ps, lexes x ps /\ forall f st rest,
    sh_run truth (Expect f) st (ps ++ rest) = sh_run truth (Have (f b)) st rest.
Definition means_list (x : str) (b : bool) : Prop :=
  exists ps, lexes x ps /\ forall st rest,
    sh_run truth (Expect (fun v => v)) st (ps ++ rest) = sh_run truth (Have b) st rest.

Lemma means_list_of x b : means x b -> means_list x b.
Proof. intros (ps & H & Hr). exists ps. split; [exact H|]. intros st rest. apply Hr. Qed.
Lemma means_cmd x : lexes x [PCmd x] -> means x (truth x).
Proof. intros H. exists [PCmd x]. split; [exact H|]. reflexivity. Qed.
Lemma means_not x b : means x b -> means (s "! " ++ x) (negb b).
Proof.
  intros (ps & H & Hr). exists (PNot :: ps). split; [apply lexes_not, H|].
  intros f st rest. cbn [app sh_run]. rewrite Hr. reflexivity.
Qed.
Lemma means_group x b : means_list x b -> means (s "{ " ++ x ++ s " ;}") b.
Proof.
  intros (ps & H & Hr). eexists. split; [apply lexes_group, H|].
  intros f st rest. cbn [app sh_run]. rewrite <- app_assoc, Hr. reflexivity.
Qed.
Lemma means_group' x b : means_list x b -> means (s "{ " ++ x ++ s "; }") b.
Proof.
  intros (ps & H & Hr). eexists. split; [apply lexes_group', H|].
  intros f st rest. cbn [app sh_run]. rewrite <- app_assoc, Hr. reflexivity.
Qed.
Lemma means_and x y b c : means_list x b -> means y c -> means_list (x ++ s " && " ++ y) (b && c).
Proof.
  intros (ps & H & Hr) (qs & H' & Hr'). eexists. split; [apply lexes_and; eassumption|].
  intros st rest. rewrite <- app_assoc, Hr. cbn [app sh_run]. apply Hr'.
Qed.
Lemma means_or x y b c : means_list x b -> means y c -> means_list (x ++ s " || " ++ y) (b || c).
Proof.
  intros (ps & H & Hr) (qs & H' & Hr'). eexists. split; [apply lexes_or; eassumption|].
  intros st rest. rewrite <- app_assoc, Hr. cbn [app sh_run]. apply Hr'.
Qed.
(** a conjunction may be continued to the left *)
Lemma means_and_left x y b c : means_list x b -> means_list (x ++ s " && " ++ y) (b && c) ->
  forall z d, means z d -> means_list (x ++ s " && " ++ (y ++ s " && " ++ z)) (b && (c && d)).
Proof.
  intros Hx Hy z d Hz.
  replace (x ++ s " && " ++ y ++ s " && " ++ z) with ((x ++ s " && " ++ y) ++ s " && " ++ z)
    by (rewrite <- !app_assoc; reflexivity).
  rewrite andb_assoc. apply means_and; assumption.
Qed.

(** The text of a condition. *)
Definition text (l : list (sym A)) : str := join [SP] (map g l).

Lemma text_app a b : a <> [] -> b <> [] -> text (a ++ b) = text a ++ SP :: text b.
Proof.
  intros Ha Hb. unfold text. rewrite map_app, join_app; [reflexivity|apply map_nonempty; assumption..].
Qed.

Lemma text_not t : text (term_syms (Negation t)) = s "! " ++ text (term_syms t).
Proof.
  change (term_syms (Negation t)) with ([@SNot A] ++ term_syms t).
  rewrite text_app by (discriminate || apply term_syms_nonempty).
  unfold text at 1. cbn [map join]. rewrite g_not. reflexivity.
Qed.
Lemma text_group l : text (term_syms (Group l)) = s "{ " ++ text (conds_syms l) ++ s " ;}".
Proof.
  change (term_syms (Group l)) with ([@SOpen A] ++ (conds_syms l ++ [SClose])).
  rewrite text_app; [|discriminate|]. 2:{ intros H. apply app_eq_nil in H as [_ H]. discriminate. }
  rewrite text_app by (discriminate || apply conds_syms_nonempty).
  unfold text at 1 3. cbn [map join]. rewrite g_open, g_close. reflexivity.
Qed.
Lemma text_and l t : text (conds_syms (And l t)) = text (conds_syms l) ++ s " && " ++ text (term_syms t).
Proof.
  change (conds_syms (And l t)) with (conds_syms l ++ ([@SAnd A] ++ term_syms t)).
  rewrite text_app; [|apply conds_syms_nonempty|discriminate].
  rewrite text_app by (discriminate || apply term_syms_nonempty).
  unfold text at 2. cbn [map join]. rewrite g_and. reflexivity.
Qed.
Lemma text_or l t : text (conds_syms (Or l t)) = text (conds_syms l) ++ s " || " ++ text (term_syms t).
Proof.
  change (conds_syms (Or l t)) with (conds_syms l ++ ([@SOr A] ++ term_syms t)).
  rewrite text_app; [|apply conds_syms_nonempty|discriminate].
  rewrite text_app by (discriminate || apply term_syms_nonempty).
  unfold text at 2. cbn [map join]. rewrite g_or. reflexivity.
Qed.

(** every test of a condition *)
Fixpoint term_tests (t : term A) : list A :=
  match t with Test a => [a] | Negation t => term_tests t | Group l => conds_tests l end
with conds_tests (l : conds A) : list A :=
  match l with
  | One t => term_tests t
  | And l t => conds_tests l ++ term_tests t
  | Or l t => conds_tests l ++ term_tests t
  end.

Lemma means_text :
  (forall t, (forall a, In a (term_tests t) -> means (test a) (sem a)) ->
     means (text (term_syms t)) (term_true sem t)) /\
  (forall l, (forall a, In a (conds_tests l) -> means (test a) (sem a)) ->
     means_list (text (conds_syms l)) (conds_true sem l)).
Proof.
  apply term_conds_ind.
  - intros a H. unfold text. cbn. rewrite g_test. apply H. left; reflexivity.
  - intros t IH H. rewrite text_not. apply means_not, IH, H.
  - intros l IH H. rewrite text_group. apply means_group, IH, H.
  - intros t IH H. apply means_list_of, IH, H.
  - intros l IHl t IHt H. rewrite text_and. apply means_and.
    + apply IHl. intros a Ha. apply H. cbn. apply in_or_app. auto.
    + apply IHt. intros a Ha. apply H. cbn. apply in_or_app. auto.
  - intros l IHl t IHt H. rewrite text_or. apply means_or.
    + apply IHl. intros a Ha. apply H. cbn. apply in_or_app. auto.
    + apply IHt. intros a Ha. apply H. cbn. apply in_or_app. auto.
Qed.

(** Conjunctions behind another conjunction. *)
Lemma means_conj x b l : (forall a, In a (conds_tests l) -> means (test a) (sem a)) ->
  ~ In SOr (conds_syms l) -> means_list x b ->
  means_list (x ++ s " && " ++ text (conds_syms l)) (b && conds_true sem l).
Proof.
  intros H Hor Hx. induction l as [t|l IH t|l IH t].
  - apply means_and; [exact Hx|]. apply means_text. exact H.
  - rewrite text_and. cbn [conds_true].
    apply means_and_left; [exact Hx| |].
    + apply IH.
      * intros a Ha. apply H. cbn. apply in_or_app. auto.
      * intros Hi. apply Hor. cbn. apply in_or_app. auto.
    + apply means_text. intros a Ha. apply H. cbn. apply in_or_app. auto.
  - exfalso. apply Hor. cbn. apply in_or_app. right. left. reflexivity.
Qed.

Lemma means_eval x b : means_list x b -> sh_eval truth x = Some b.
Proof.
  intros (ps & H & Hr). unfold sh_eval.
  assert (E : sh_lex LStart x = Some ps).
  { specialize (H [] (or_introl eq_refl)). rewrite app_nil_r in H. rewrite H. cbn.
    rewrite app_nil_r. reflexivity. }
  rewrite E. specialize (Hr [] []). rewrite app_nil_r in Hr. exact Hr.
Qed.

(** The generated text, with the braces the code adds. *)
Definition is_sor (y : sym A) : bool := match y with SOr => true | _ => false end.
Definition braced (l : list (sym A)) : str :=
  if (2 <? length l) && existsb is_sor l then s "{ " ++ text l ++ s "; }" else text l.

Lemma or_long l : In (@SOr A) (conds_syms l) -> (2 < length (conds_syms l))%nat.
Proof.
  assert (forall t : term A, (1 <= length (term_syms t))%nat) as H1.
  { intros t. pose proof (term_syms_nonempty t). destruct (term_syms t); [congruence|cbn; lia]. }
  assert (forall l : conds A, (1 <= length (conds_syms l))%nat) as H2.
  { intros l'. pose proof (conds_syms_nonempty l'). destruct (conds_syms l'); [congruence|cbn; lia]. }
  assert ((forall t : term A, In SOr (term_syms t) -> (2 < length (term_syms t))%nat) /\
          (forall l : conds A, In SOr (conds_syms l) -> (2 < length (conds_syms l))%nat)) as [_ H].
  2: apply H.
  apply term_conds_ind.
  - intros a [H|[]]; discriminate.
  - intros t IH. rewrite term_syms_not. intros [H|H]; [discriminate|]. apply IH in H. cbn [length]. lia.
  - intros l' IH _. rewrite term_syms_group. cbn [length]. rewrite app_length. cbn [length].
    pose proof (H2 l'). lia.
  - intros t IH H. apply IH, H.
  - intros l' IH t IHt _. rewrite conds_syms_and, app_length. cbn [length].
    pose proof (H2 l'). pose proof (H1 t). lia.
  - intros l' IH t IHt _. rewrite conds_syms_or, app_length. cbn [length].
    pose proof (H2 l'). pose proof (H1 t). lia.
Qed.

Lemma braced_context l x b z d : (forall a, In a (conds_tests l) -> means (test a) (sem a)) ->
  means x b -> means z d ->
  sh_eval truth (braced (conds_syms l)) = Some (conds_true sem l) /\
  sh_eval truth (braced (conds_syms l) ++ s " && " ++ z) = Some (conds_true sem l && d) /\
  sh_eval truth (x ++ s " && " ++ braced (conds_syms l) ++ s " && " ++ z)
  = Some (b && conds_true sem l && d).
Proof.
  intros H Hx Hz. unfold braced.
  destruct ((2 <? length (conds_syms l)) && existsb is_sor (conds_syms l)) eqn:E.
  - assert (means (s "{ " ++ text (conds_syms l) ++ s "; }") (conds_true sem l)) as Hm.
    { apply means_group', means_text, H. }
    repeat split; apply means_eval.
    + apply means_list_of, Hm.
    + apply means_and; [apply means_list_of, Hm|exact Hz].
    + rewrite <- andb_assoc. apply means_and_left.
      * apply means_list_of, Hx.
      * apply means_and; [apply means_list_of, Hx|exact Hm].
      * exact Hz.
  - assert (~ In SOr (conds_syms l)) as Hor.
    { intros Hi. pose proof (or_long l Hi) as Hl. apply andb_false_iff in E as [E|E].
      - apply Nat.ltb_ge in E. lia.
      - assert (existsb is_sor (conds_syms l) = true) as E'
          by (apply existsb_exists; exists SOr; auto). congruence. }
    repeat split; apply means_eval.
    + apply means_text, H.
    + apply means_and; [apply means_text, H|exact Hz].
    + rewrite <- andb_assoc. apply means_and_left.
      * apply means_list_of, Hx.
      * apply means_conj; [exact H|exact Hor|apply means_list_of, Hx].
      * exact Hz.
Qed.
End Evaluation.

(** ** The single tests *)

Lemma uint_str_digits d : forallb is_digit (uint_str d) = true.
Proof. induction d; cbn; rewrite ?IHd; reflexivity. Qed.

Lemma z_str_chars z : forallb (fun c => is_digit c || N.eqb c DASH) (z_str z) = true.
Proof.
  unfold z_str. destruct (Z.to_int z) as [d|d]; cbn [forallb].
  - rewrite forallb_forall. intros c Hc.
    pose proof (uint_str_digits d) as H. rewrite forallb_forall in H. rewrite H by exact Hc. reflexivity.
  - rewrite N.eqb_refl, orb_true_r. cbn [andb]. rewrite forallb_forall. intros c Hc.
    pose proof (uint_str_digits d) as H. rewrite forallb_forall in H. rewrite H by exact Hc. reflexivity.
Qed.

Lemma forallb_impl {A} (p q : A -> bool) l : (forall x, p x = true -> q x = true) ->
  forallb p l = true -> forallb q l = true.
Proof. intros H. rewrite !forallb_forall. auto. Qed.

Lemma digit_cases c : is_digit c || N.eqb c DASH = true -> is_safe c = true.
Proof.
  rewrite orb_true_iff, N.eqb_eq. intros [H| ->]; [|reflexivity].
  apply word_safe. unfold is_word. rewrite H. rewrite orb_true_r. reflexivity.
Qed.
Lemma safe_aplain c : is_safe c = true -> aplain c = true.
Proof.
  intros H. unfold aplain. rewrite negb_true_iff. apply memc_false. intros [E|[E|[]]]; subst;
    vm_compute in H; discriminate.
Qed.
Lemma safe_dplain c : is_safe c = true -> dplain c = true.
Proof.
  intros H. unfold dplain. rewrite negb_true_iff. apply memc_false. intros [E|[E|[]]]; subst;
    vm_compute in H; discriminate.
Qed.
Lemma z_str_safe z : forallb is_safe (z_str z) = true.
Proof. apply (forallb_impl _ _ _ digit_cases), z_str_chars. Qed.

(** lower case letters do not change how text is quoted *)
Lemma lower_c_cases c : (is_upper c = true /\ lower_c c = (c + 32)%N) \/
  (is_upper c = false /\ lower_c c = c).
Proof. unfold lower_c. destruct (is_upper c); auto. Qed.
Lemma upper_range c : is_upper c = true -> (65 <= c /\ c <= 90)%N.
Proof. unfold is_upper. rewrite andb_true_iff, !N.leb_le. tauto. Qed.
Lemma upper_safe c : is_upper c = true -> is_safe c = true.
Proof. intros H. apply word_safe. unfold is_word. rewrite H. rewrite orb_true_r. reflexivity. Qed.
Lemma lower_safe c : is_safe (lower_c c) = is_safe c.
Proof.
  destruct (lower_c_cases c) as [[H ->]|[_ ->]]; [|reflexivity].
  rewrite (upper_safe c H). apply word_safe. unfold is_word.
  apply upper_range in H. unfold is_lower.
  replace ((97 <=? c + 32) && (c + 32 <=? 122))%N with true; [reflexivity|].
  symmetry. rewrite andb_true_iff, !N.leb_le. lia.
Qed.
Lemma lower_eqb c d : (d < 65 \/ 90 < d /\ d < 97 \/ 122 < d)%N ->
  N.eqb (lower_c c) d = N.eqb c d.
Proof.
  intros Hd. destruct (lower_c_cases c) as [[H ->]|[_ ->]]; [|reflexivity].
  apply upper_range in H.
  destruct (N.eqb_spec (c + 32) d), (N.eqb_spec c d); try reflexivity; lia.
Qed.
Lemma lower_app x y : lower (x ++ y) = lower x ++ lower y.
Proof. apply map_app. Qed.
Lemma lower_memc c x : (c < 65 \/ 90 < c /\ c < 97 \/ 122 < c)%N -> memc c (lower x) = memc c x.
Proof.
  intros Hc. induction x as [|d x IH]; [reflexivity|]. unfold lower, memc in *. cbn [map existsb].
  rewrite IH. rewrite (N.eqb_sym c (lower_c d)), (N.eqb_sym c d), lower_eqb by exact Hc. reflexivity.
Qed.
Lemma lower_replace c r x : (c < 65 \/ 90 < c /\ c < 97 \/ 122 < c)%N -> lower r = r ->
  lower (replace_c c r x) = replace_c c r (lower x).
Proof.
  intros Hc Hr. induction x as [|d x IH]; [reflexivity|]. cbn [replace_c lower map].
  rewrite lower_eqb by exact Hc. destruct (N.eqb d c).
  - rewrite lower_app, IH, Hr. reflexivity.
  - cbn [lower map]. unfold lower in IH. rewrite IH. reflexivity.
Qed.
Lemma lower_needs_quote x : needs_quote (lower x) = needs_quote x.
Proof.
  assert (H : forallb is_safe (lower x) = forallb is_safe x).
  { induction x as [|d z IH]; [reflexivity|]. cbn [lower map forallb]. unfold lower in IH.
    rewrite lower_safe, IH. reflexivity. }
  unfold needs_quote. rewrite H. destruct x; reflexivity.
Qed.
Lemma lower_quote x : lower (quote x) = quote (lower x).
Proof.
  unfold quote, quote_gen. cbn [negb]. rewrite !andb_false_r.
  rewrite lower_needs_quote. destruct (needs_quote x); cbn [negb]; [|reflexivity].
  rewrite !lower_memc by lia. destruct (memc SQ x); cbn [negb].
  - destruct (memc DQ x); cbn [negb].
    + rewrite !lower_app, lower_replace by (lia || reflexivity). reflexivity.
    + rewrite !lower_app, !lower_replace by (lia || reflexivity). reflexivity.
  - rewrite !lower_app. reflexivity.
Qed.
Lemma lower_join l : lower (join [SP] l) = join [SP] (map lower l).
Proof.
  induction l as [|x l IH]; [reflexivity|]. destruct l as [|y l]; [reflexivity|].
  cbn [map]. rewrite !join_cons. cbn [map] in IH. rewrite !lower_app, IH. reflexivity.
Qed.
Lemma lower_join_quoted l : lower (join_quoted l [SP]) = join_quoted (map lower l) [SP].
Proof.
  unfold join_quoted. rewrite lower_join, !map_map. f_equal. apply map_ext. apply lower_quote.
Qed.

(** what the constructors guarantee *)
Definition obj_ok (o : wobj) : Prop :=
  match o with
  | OptionIs os vs _ _ => os <> [] /\ vs <> [] /\ forall x, In x os -> is_valid_option_string x = true
  | OptionMatch os r _ _ => os <> [] /\ r <> [] /\ forall x, In x os -> is_valid_option_string x = true
  | HasOption os => os <> []
  | PositionalCount op _ => In op operators
  | PositionalContains _ _ vs => vs <> []
  end.

Lemma mk_test_ok ere args o : mk_test ere args = Ok o -> obj_ok o.
Proof.
  unfold mk_test. destruct args as [|cmd args]; [discriminate|].
  destruct (str_eqb cmd (s "option_is")).
  { unfold mk_option_is. destruct (strip_flags false false args) as [[ic any] args'].
    destruct (split_dashes args') as [os vs]. destruct (forallb is_valid_option_string os) eqn:E; [|discriminate].
    cbn [negb]. destruct os; [discriminate|]. destruct vs; [discriminate|].
    intros H; injection H as <-. cbn. rewrite forallb_forall in E. repeat split; try discriminate. exact E. }
  destruct (str_eqb cmd (s "option_match")).
  { unfold mk_option_match. destruct (strip_flags false false args) as [[ic any] args'].
    destruct (split_dashes args') as [os vs].
    destruct vs as [|r [|? ?]]; [| |discriminate];
      (destruct (forallb is_valid_option_string os) eqn:E; [|discriminate]; cbn [negb];
       destruct os; [discriminate|]); [discriminate|].
    destruct r; [discriminate|]. destruct (ere _); [|discriminate].
    intros H; injection H as <-. cbn. rewrite forallb_forall in E. repeat split; try discriminate. exact E. }
  destruct (str_eqb cmd (s "has_option")).
  { unfold mk_has_option. destruct args; [discriminate|]. intros H; injection H as <-. discriminate. }
  destruct (str_eqb cmd (s "positional_count")).
  { unfold mk_positional_count. destruct args as [|op [|n [|? ?]]]; try discriminate;
      (destruct (mems op operators) eqn:E; [|discriminate]); cbn [negb]; [discriminate|].
    destruct (py_int n); [|discriminate]. intros H; injection H as <-. apply mems_In, E. }
  destruct (str_eqb cmd (s "positional_contains")); [|discriminate].
  unfold mk_positional_contains.
  destruct (match args with [] => _ | _ => _ end) as [ic args'].
  destruct args' as [|n vs]; [discriminate|]. destruct (py_int n); [|discriminate].
  destruct vs; [discriminate|]. intros H; injection H as <-. discriminate.
Qed.


Lemma join_quoted_cons n l : is_name n -> l <> [] ->
  join_quoted (n :: l) [SP] = n ++ SP :: join_quoted l [SP].
Proof.
  intros Hn Hl. unfold join_quoted. cbn [map]. rewrite name_quote by exact Hn.
  destruct l; [congruence|]. reflexivity.
Qed.

Lemma lexes_quoted n l : is_name n -> l <> [] ->
  lexes (join_quoted (n :: l) [SP]) [PCmd (join_quoted (n :: l) [SP])].
Proof.
  intros Hn Hl. rewrite join_quoted_cons by assumption.
  apply lexes_cmd; [exact Hn| |].
  - apply (closed_app [SP]); [apply closed_sp|apply closed_join_quoted].
  - apply no_trail_app. apply (no_trail_app [SP]). apply no_trail_join_quoted, Hl.
Qed.

Lemma lexes_count op n : In op operators ->
  lexes (gen_positional_count op n) [PCmd (gen_positional_count op n)].
Proof.
  intros H. unfold gen_positional_count.
  assert (E : s "(( ${#POSITIONALS[@]} " ++ op ++ [SP] ++ z_str n ++ s " ))" =
    s "((" ++ (s " ${#POSITIONALS[@]} " ++ op ++ [SP] ++ z_str n ++ [SP]) ++ s "))").
  { rewrite <- !app_assoc. reflexivity. }
  rewrite E. apply lexes_arith. rewrite !forallb_app.
  rewrite (forallb_impl _ _ _ safe_aplain (z_str_safe n)).
  destruct H as [<-|[<-|[<-|[<-|[<-|[<-|[]]]]]]]; reflexivity.
Qed.

(** [func "...[n]..." values] *)
Lemma lexes_contains n d vs : is_name n -> forallb dplain d = true -> vs <> [] ->
  lexes (n ++ SP :: DQ :: d ++ DQ :: SP :: join_quoted vs [SP])
        [PCmd (n ++ SP :: DQ :: d ++ DQ :: SP :: join_quoted vs [SP])].
Proof.
  intros Hn Hd Hv. apply lexes_cmd; [exact Hn| |].
  - apply (closed_app [SP]); [apply closed_sp|].
    replace (DQ :: d ++ DQ :: SP :: join_quoted vs [SP]) with
      ((DQ :: d ++ [DQ]) ++ [SP] ++ join_quoted vs [SP])
      by (cbn; rewrite <- app_assoc; reflexivity).
    apply closed_app; [apply closed_double_plain, Hd|].
    apply closed_app; [apply closed_sp|apply closed_join_quoted].
  - apply no_trail_app.
    change (SP :: DQ :: d ++ DQ :: SP :: join_quoted vs [SP]) with
      ([SP; DQ] ++ d ++ [DQ; SP] ++ join_quoted vs [SP]).
    do 3 apply no_trail_app. apply no_trail_join_quoted, Hv.
Qed.

Lemma contains_shape f a n b vs : f ++ (SP :: DQ :: a) ++ n ++ (b ++ [DQ; SP]) ++ vs =
  f ++ SP :: DQ :: (a ++ n ++ b) ++ DQ :: SP :: vs.
Proof. cbn. rewrite <- !app_assoc. reflexivity. Qed.

Lemma lexes_zsh_test e o : good_zenv e -> obj_ok o ->
  lexes (zsh_test e o) [PCmd (zsh_test e o)].
Proof.
  intros (Hq & Hm & Ha) Ho. destruct o as [os vs ic any|os r ic any|os|op n|ic n vs]; cbn [zsh_test].
  - apply lexes_quoted; [exact Hq|discriminate].
  - apply lexes_quoted; [exact Hm|]. destruct ic, any; discriminate.
  - apply lexes_quoted; [exact Hq|discriminate].
  - apply lexes_count, Ho.
  - unfold zsh_positional_contains. destruct ic.
    + rewrite lower_join_quoted.
      change (s " ""${(L)POSITIONALS[") with (SP :: DQ :: s "${(L)POSITIONALS[").
      change (s "]}"" ") with (s "]}" ++ [DQ; SP]). rewrite contains_shape.
      apply lexes_contains; [exact Ha| |].
      * rewrite !forallb_app, (forallb_impl _ _ _ safe_dplain (z_str_safe n)). reflexivity.
      * cbn in Ho. destruct vs; [congruence|discriminate].
    + change (s " ""${POSITIONALS[") with (SP :: DQ :: s "${POSITIONALS[").
      change (s "]}"" ") with (s "]}" ++ [DQ; SP]). rewrite contains_shape.
      apply lexes_contains; [exact Ha| |exact Ho].
      rewrite !forallb_app, (forallb_impl _ _ _ safe_dplain (z_str_safe n)). reflexivity.
Qed.

Lemma needs_braces_syms l :
  needs_braces (map wtok_of l) = (2 <? length l) && existsb is_sor l.
Proof.
  unfold needs_braces. rewrite map_length. f_equal.
  induction l as [|y l IH]; [reflexivity|]. cbn. rewrite IH. destruct y; reflexivity.
Qed.

Lemma gen_tokens_syms test l :
  gen_tokens test (map wtok_of l) = braced (fun y => gen_token test (wtok_of y)) l.
Proof.
  unfold gen_tokens, braced. rewrite needs_braces_syms. unfold sp_join, text. rewrite map_map.
  reflexivity.
Qed.

Lemma tests_in_syms {A} (a : A) :
  (forall t, In a (term_tests t) -> In (STest a) (term_syms t)) /\
  (forall l, In a (conds_tests l) -> In (STest a) (conds_syms l)).
Proof.
  apply term_conds_ind.
  - intros b [->|[]]. left; reflexivity.
  - intros t IH H. rewrite term_syms_not. right. apply IH, H.
  - intros l IH H. rewrite term_syms_group. right. apply in_or_app. left. apply IH, H.
  - intros t IH H. apply IH, H.
  - intros l IHl t IHt H. rewrite conds_syms_and. apply in_or_app.
    change (conds_tests (And l t)) with (conds_tests l ++ term_tests t) in H.
    apply in_app_or in H as [H|H]; [left; apply IHl, H|right; right; apply IHt, H].
  - intros l IHl t IHt H. rewrite conds_syms_or. apply in_or_app.
    change (conds_tests (Or l t)) with (conds_tests l ++ term_tests t) in H.
    apply in_app_or in H as [H|H]; [left; apply IHl, H|right; right; apply IHt, H].
Qed.

Lemma replace_commands_ok ere ts ws o : replace_commands ere ts = Ok ws -> In (WObj o) ws ->
  obj_ok o.
Proof.
  revert ws. induction ts as [|t ts IH]; intros ws H Hi; cbn in H.
  - injection H as <-. destruct Hi.
  - destruct (match t with CAnd => _ | _ => _ end) as [?|w] eqn:E; [discriminate|]. cbn [bind] in H.
    destruct (replace_commands ere ts) as [?|r] eqn:E'; [discriminate|]. cbn [bind] in H.
    injection H as <-. destruct Hi as [->|Hi]; [|eapply IH; eauto].
    destruct t; try discriminate. destruct (mk_test ere args) as [?|o'] eqn:E''; [discriminate|].
    cbn in E. injection E as ->. eapply mk_test_ok; eauto.
Qed.

Lemma parse_when_ok ere x ws o : parse_when ere x = Ok ws -> In (WObj o) ws -> obj_ok o.
Proof.
  unfold parse_when. destruct (parse x) as [[]|ts]; try discriminate. apply replace_commands_ok.
Qed.

(** ** Zsh *)
Lemma means_safe truth x : x <> [] -> forallb is_safe x = true -> means truth x (truth x).
Proof.
  intros Hn Hs. apply means_cmd. pose proof (lexes_safe_cmd x [] Hn Hs closed_nil) as H.
  rewrite app_nil_r in H. apply H. apply no_trail_safe; assumption.
Qed.

Lemma zsh_meaning ere env x cond : good_zenv env ->
  parse_when ere x = Ok (map wtok_of (conds_syms cond)) ->
  exists code, zsh_when ere env x = Ok code /\
  forall truth before after, before <> [] -> forallb is_safe before = true ->
    after <> [] -> forallb is_safe after = true ->
    let holds := conds_true (zsh_true truth env) cond in
    sh_eval truth code = Some holds /\
    sh_eval truth (code ++ s " && " ++ after) = Some (holds && truth after) /\
    sh_eval truth (before ++ s " && " ++ code ++ s " && " ++ after)
      = Some (truth before && holds && truth after).
Proof.
  intros He Hp. unfold zsh_when. rewrite Hp. cbn [bind]. eexists. split; [reflexivity|].
  intros truth before after H1 H2 H3 H4. rewrite gen_tokens_syms.
  apply (braced_context (zsh_test env)); try reflexivity.
  - intros o Ho. apply means_cmd. apply lexes_zsh_test; [exact He|].
    eapply parse_when_ok; [exact Hp|]. apply in_map_iff. exists (STest o). split; [reflexivity|].
    apply tests_in_syms, Ho.
  - apply means_safe; assumption.
  - apply means_safe; assumption.
Qed.

(** ** Bash *)

Lemma Ok_inj {E B} (a b : B) : @inr E B a = inr b -> a = b.
Proof. congruence. Qed.

Lemma join_concat sep x l : join sep (x :: l) = x ++ concat (map (app sep) l).
Proof.
  revert x. induction l as [|y l IH]; intros x; [cbn; rewrite app_nil_r; reflexivity|].
  rewrite join_cons, IH. cbn [map concat]. rewrite <- !app_assoc. reflexivity.
Qed.

Lemma means_ors truth cs : forall x b, means_list truth x b ->
  (forall c, In c cs -> lexes c [PCmd c]) ->
  means_list truth (x ++ concat (map (app (s " || ")) cs)) (b || existsb truth cs).
Proof.
  induction cs as [|c cs IH]; intros x b Hx Hc; cbn [map concat existsb].
  - rewrite app_nil_r, orb_false_r. exact Hx.
  - rewrite <- app_assoc.
    replace (x ++ s " || " ++ c ++ concat (map (app (s " || ")) cs)) with
      ((x ++ s " || " ++ c) ++ concat (map (app (s " || ")) cs)) by (rewrite <- !app_assoc; reflexivity).
    rewrite orb_assoc. apply IH.
    + apply means_or; [exact Hx|]. apply means_cmd, Hc. left; reflexivity.
    + intros d Hd. apply Hc. right; exact Hd.
Qed.

Lemma closed_var (v : str) (any : bool) : is_name v ->
  closed (if any then s """${" ++ v ++ s "[@]}""" else s """${" ++ v ++ s "[@]: -1:1}""") /\
  no_trail (if any then s """${" ++ v ++ s "[@]}""" else s """${" ++ v ++ s "[@]: -1:1}""").
Proof.
  intros [_ Hv]. destruct any.
  - change (s """${" ++ v ++ s "[@]}""") with (DQ :: (s "${" ++ v ++ (s "[@]}" ++ [DQ]))).
    rewrite !app_assoc. split.
    + apply closed_double_plain. rewrite !forallb_app, (name_dplain v Hv). reflexivity.
    + exists (DQ :: (s "${" ++ v) ++ s "[@]}"), DQ. split; [reflexivity|discriminate].
  - change (s """${" ++ v ++ s "[@]: -1:1}""") with (DQ :: (s "${" ++ v ++ (s "[@]: -1:1}" ++ [DQ]))).
    rewrite !app_assoc. split.
    + apply closed_double_plain. rewrite !forallb_app, (name_dplain v Hv). reflexivity.
    + exists (DQ :: (s "${" ++ v) ++ s "[@]: -1:1}"), DQ. split; [reflexivity|discriminate].
Qed.

Lemma bash_variables_closed e os any vars : good_benv e -> os <> [] ->
  bash_variables e os any = Ok vars ->
  closed (sp_join vars) /\ no_trail (sp_join vars).
Proof.
  intros (_ & _ & _ & Hg) Ho H. unfold bash_variables in H.
  destruct (b_vars e os) as [?|vs] eqn:E; [discriminate|]. cbn [bind] in H. injection H as <-.
  destruct (Hg os vs Ho E) as [Hn Hv]. split.
  - apply closed_join. apply Forall_map, Forall_forall. intros v Hi. apply closed_var, Hv, Hi.
  - apply no_trail_join; [apply map_nonempty, Hn|].
    apply Forall_map, Forall_forall. intros v Hi. apply closed_var, Hv, Hi.
Qed.

Lemma lexes_lookup f q vars : is_name f -> closed q -> closed vars -> no_trail vars ->
  lexes (f ++ [SP] ++ q ++ [SP] ++ vars) [PCmd (f ++ [SP] ++ q ++ [SP] ++ vars)].
Proof.
  intros Hf Hq Hv Ht. apply lexes_cmd; [exact Hf| |].
  - apply closed_app; [apply closed_sp|]. apply closed_app; [exact Hq|].
    apply closed_app; [apply closed_sp|exact Hv].
  - do 4 apply no_trail_app. exact Ht.
Qed.

Lemma bash_test_means truth e o x : good_benv e -> obj_ok o -> bash_test e o = Ok x ->
  means truth x (bash_true truth e o).
Proof.
  intros Hg Ho H. pose proof Hg as (Ha & Hn & Hm & Hv).
  destruct o as [os vs ic any|os r ic any|os|op n|ic n vs].
  - cbn [bash_test bash_true] in *. unfold bash_option_is in H.
    destruct Ho as (Ho1 & Ho2 & _).
    destruct (bash_variables e os any) as [?|vars] eqn:E; [discriminate|]. cbn [bind] in H.
    destruct (bash_variables_closed e os any vars Hg Ho1 E) as [Hc Ht].
    set (f := if ic then b_array_contains_nocase e else b_array_contains e) in *.
    assert (is_name f) as Hf by (unfold f; destruct ic; assumption).
    set (cmd := fun v => f ++ [SP] ++ quote v ++ [SP] ++ sp_join vars).
    assert (forall v, lexes (cmd v) [PCmd (cmd v)]) as Hl
      by (intros v; apply lexes_lookup; auto using closed_quote).
    change (bash_option_is_conditions f vars vs) with (map cmd vs) in H.
    destruct vs as [|v [|v' vs]]; [congruence| |].
    + cbn in H. injection H as <-. cbn. rewrite orb_false_r. apply means_cmd, Hl.
    + cbn [map] in H. apply Ok_inj in H. subst x.
      apply means_group'. rewrite join_concat.
      change (existsb _ (v :: v' :: vs)) with
        (truth (cmd v) || existsb (fun v => truth (cmd v)) (v' :: vs)).
      assert (E' : existsb (fun v => truth (cmd v)) (v' :: vs) = existsb truth (map cmd (v' :: vs))).
      { generalize (v' :: vs). intros l. induction l as [|a l IH]; [reflexivity|].
        cbn. rewrite IH. reflexivity. }
      rewrite E'. apply means_ors.
      * apply means_list_of, means_cmd, Hl.
      * intros c Hi. change (cmd v' :: map cmd vs) with (map cmd (v' :: vs)) in Hi.
        apply in_map_iff in Hi as (w & <- & _). apply Hl.
  - unfold bash_true. rewrite H. apply means_cmd. cbn [bash_test] in H. unfold bash_option_match in H.
    destruct Ho as (Ho1 & Ho2 & _).
    destruct (bash_variables e os any) as [?|vars] eqn:E; [discriminate|]. cbn [bind] in H.
    destruct (bash_variables_closed e os any vars Hg Ho1 E) as [Hc Ht].
    apply Ok_inj in H. subst x.
    replace (b_array_match e ++ (if ic then s " -i -- " else s " -- ") ++ quote r ++ [SP] ++ sp_join vars)
      with (b_array_match e ++ [SP] ++ ((if ic then s "-i -- " else s "-- ") ++ quote r) ++ [SP] ++ sp_join vars)
      by (destruct ic; cbn [app]; rewrite <- ?app_assoc; reflexivity).
    apply lexes_lookup; [exact Hm| |exact Hc|exact Ht].
    apply closed_app; [|apply closed_quote]. apply closed_plain. destruct ic; reflexivity.
  - unfold bash_true. rewrite H. apply means_cmd. cbn [bash_test] in H. unfold bash_has_option in H.
    destruct (b_vars e os) as [?|vars] eqn:E; [discriminate|]. cbn [bind] in H.
    destruct (Hv os vars Ho E) as [_ Hvn]. apply Ok_inj in H. subst x.
    set (body := join (s " + ") (map (fun v => s "${#" ++ v ++ s "[@]}") vars)).
    assert (Eb : s "(( " ++ body ++ s " ))" = s "((" ++ ([SP] ++ body ++ [SP]) ++ s "))")
      by (rewrite <- !app_assoc; reflexivity).
    rewrite Eb. apply lexes_arith. rewrite !forallb_app.
    assert (forallb aplain body = true) as Hb.
    { unfold body. clear -Hvn. induction vars as [|v vars IH]; [reflexivity|].
      assert (forallb aplain (s "${#" ++ v ++ s "[@]}") = true) as H0.
      { rewrite !forallb_app. destruct (Hvn v (or_introl eq_refl)) as [_ Hw].
        rewrite (forallb_impl _ _ _ safe_aplain (name_safe v Hw)). reflexivity. }
      cbn [map]. rewrite join_concat, forallb_app, H0. cbn [andb].
      specialize (IH (fun w Hw => Hvn w (or_intror Hw))).
      destruct vars as [|w vars]; [reflexivity|]. cbn [map] in *. rewrite join_concat in IH.
      cbn [map concat]. rewrite !forallb_app. rewrite !forallb_app in IH. cbn [andb].
      rewrite !forallb_app in *. change (forallb aplain (s " + ")) with true. cbn [andb]. exact IH. }
    rewrite Hb. reflexivity.
  - unfold bash_true. rewrite H. apply means_cmd. cbn in H. injection H as <-. apply lexes_count, Ho.
  - unfold bash_true. rewrite H. apply means_cmd. cbn [bash_test] in H. apply Ok_inj in H. subst x.
    unfold bash_positional_contains. destruct ic.
    + rewrite lower_join_quoted.
      change (s " ""${POSITIONALS[") with (SP :: DQ :: s "${POSITIONALS[").
      change (s "],,}"" ") with (s "],,}" ++ [DQ; SP]). rewrite contains_shape.
      apply lexes_contains; [exact Ha| |].
      * rewrite !forallb_app, (forallb_impl _ _ _ safe_dplain (z_str_safe (n - 1))). reflexivity.
      * cbn in Ho. destruct vs; [congruence|discriminate].
    + change (s " ""${POSITIONALS[") with (SP :: DQ :: s "${POSITIONALS[").
      change (s "]}"" ") with (s "]}" ++ [DQ; SP]). rewrite contains_shape.
      apply lexes_contains; [exact Ha| |exact Ho].
      rewrite !forallb_app, (forallb_impl _ _ _ safe_dplain (z_str_safe (n - 1))). reflexivity.
Qed.

Definition bash_text (e : benv) (o : wobj) : str :=
  match bash_test e o with Ok t => t | Err _ => [] end.

Lemma bash_tokens_map e ts r : bash_tokens e ts = Ok r ->
  r = map (gen_token (bash_text e)) ts /\
  forall o, In (WObj o) ts -> bash_test e o = Ok (bash_text e o).
Proof.
  revert r. induction ts as [|t ts IH]; intros r H; cbn [bash_tokens] in H.
  - injection H as <-. split; [reflexivity|]. intros o [].
  - destruct (match t with WObj o => _ | _ => _ end) as [?|x] eqn:E; [discriminate|]. cbn [bind] in H.
    destruct (bash_tokens e ts) as [?|r'] eqn:E'; [discriminate|]. cbn [bind] in H. injection H as <-.
    destruct (IH r' eq_refl) as [-> IH']. split.
    + cbn [map]. f_equal. destruct t; cbn in E |- *; try (injection E as <-; reflexivity).
      unfold bash_text. rewrite E. reflexivity.
    + intros o [->|Ho]; [|apply IH', Ho]. unfold bash_text. rewrite E. reflexivity.
Qed.

Lemma bash_meaning ere env x cond code : good_benv env ->
  parse_when ere x = Ok (map wtok_of (conds_syms cond)) -> bash_when ere env x = Ok code ->
  forall truth before after, before <> [] -> forallb is_safe before = true ->
    after <> [] -> forallb is_safe after = true ->
    let holds := conds_true (bash_true truth env) cond in
    sh_eval truth code = Some holds /\
    sh_eval truth (code ++ s " && " ++ after) = Some (holds && truth after) /\
    sh_eval truth (before ++ s " && " ++ code ++ s " && " ++ after)
      = Some (truth before && holds && truth after).
Proof.
  intros He Hp Hb truth before after H1 H2 H3 H4. unfold bash_when in Hb. rewrite Hp in Hb.
  cbn [bind] in Hb. destruct (bash_tokens env _) as [?|r] eqn:E; [discriminate|]. cbn [bind] in Hb.
  destruct (bash_tokens_map _ _ _ E) as [-> Ht].
  assert (code = braced (fun y => gen_token (bash_text env) (wtok_of y)) (conds_syms cond)) as ->.
  { injection Hb as <-. rewrite <- gen_tokens_syms. reflexivity. }
  apply (braced_context (bash_text env)); try reflexivity.
  - intros o Ho.
    assert (In (WObj o) (map wtok_of (conds_syms cond))) as Hi.
    { apply in_map_iff. exists (STest o). split; [reflexivity|]. apply tests_in_syms, Ho. }
    eapply bash_test_means; [exact He| |apply Ht, Hi]. eapply parse_when_ok; [exact Hp|exact Hi].
  - apply means_safe; assumption.
  - apply means_safe; assumption.
Qed.

Lemma bash_succeeds ere env x cond : good_benv env ->
  parse_when ere x = Ok (map wtok_of (conds_syms cond)) ->
  (forall options, exists vars, b_vars env options = Ok vars) ->
  exists code, bash_when ere env x = Ok code.
Proof.
  intros He Hp Hv. unfold bash_when. rewrite Hp. cbn [bind].
  assert (forall ts, exists r, bash_tokens env ts = Ok r) as Hts.
  { induction ts as [|t ts [r IH]]; [eexists; reflexivity|]. cbn [bash_tokens].
    destruct t as [| | | | |o]; try (cbn [bind]; rewrite IH; eexists; reflexivity).
    assert (exists x', bash_test env o = Ok x') as [x' ->].
    { destruct o as [os vs ic any|os r' ic any|os|op n|ic n vs]; cbn [bash_test];
        unfold bash_option_is, bash_option_match, bash_has_option, bash_variables;
        try (destruct (Hv os) as [vars ->]); cbn [bind]; try (eexists; reflexivity).
      destruct (bash_option_is_conditions _ _ _) as [|? [|? ?]]; eexists; reflexivity. }
    cbn [bind]. rewrite IH. cbn [bind]. eexists; reflexivity. }
  destruct (Hts (map wtok_of (conds_syms cond))) as [r ->]. cbn [bind]. eexists; reflexivity.
Qed.

(** ** The grammar *)

Section Grammar.
Context {A : Type}.
(** [e]: an operand is expected; [p]: open parentheses. *)
Fixpoint strict (e : bool) (p : nat) (ts : list (sym A)) : bool :=
  match ts with
  | [] => negb e && (p =? 0)
  | SOpen :: r => e && strict true (S p) r
  | SClose :: r => negb e && match p with O => false | S p' => strict false p' r end
  | SAnd :: r | SOr :: r => negb e && strict true p r
  | SNot :: r => e && strict true p r
  | STest _ :: r => e && strict false p r
  end.

Lemma strict_complete :
  (forall t p r, strict true p (term_syms t ++ r) = strict false p r) /\
  (forall l p r, strict true p (conds_syms l ++ r) = strict false p r).
Proof.
  apply term_conds_ind.
  - reflexivity.
  - intros t IH p r. rewrite term_syms_not. cbn. apply IH.
  - intros l IH p r. rewrite term_syms_group. cbn [app strict andb].
    rewrite <- app_assoc, IH. reflexivity.
  - intros t IH p r. apply IH.
  - intros l IHl t IHt p r. rewrite conds_syms_and, <- app_assoc, IHl. cbn. apply IHt.
  - intros l IHl t IHt p r. rewrite conds_syms_or, <- app_assoc, IHl. cbn. apply IHt.
Qed.

Lemma strict_sound n : forall ts, (length ts <= n)%nat ->
  (forall p, strict true p ts = true ->
     exists t rest, ts = term_syms t ++ rest /\ strict false p rest = true) /\
  (forall p l, strict false p ts = true ->
     exists l' rest, conds_syms l ++ ts = conds_syms l' ++ rest /\ (length rest <= length ts)%nat /\
       (rest = [] /\ p = 0%nat \/
        exists r p', rest = SClose :: r /\ p = S p' /\ strict false p' r = true)).
Proof.
  induction n as [|n IH]; intros ts Hn.
  - destruct ts; [|cbn in Hn; lia]. split.
    + intros p H. discriminate.
    + intros p l H. exists l, []. rewrite !app_nil_r. cbn in H. apply Nat.eqb_eq in H.
      repeat split; auto.
  - split.
    + intros p H. destruct ts as [|y ts]; [discriminate|]. cbn [length] in Hn.
      destruct y; cbn [strict negb andb] in H; try discriminate.
      * destruct (IH ts ltac:(lia)) as [IHa _]. destruct (IHa p H) as (t & rest & -> & Hr).
        exists (Negation t), rest. split; [reflexivity|exact Hr].
      * destruct (IH ts ltac:(lia)) as [IHa _]. destruct (IHa (S p) H) as (t & rest & -> & Hr).
        assert (length rest <= n)%nat as Hl by (rewrite app_length in Hn; lia).
        destruct (IH rest Hl) as [_ IHb].
        destruct (IHb (S p) (One t) Hr) as (l' & rest' & E & _ & [[_ Hp]|(r & p' & -> & Hp & Hs)]);
          [discriminate|]. injection Hp as <-.
        exists (Group l'), r. split; [|exact Hs].
        rewrite conds_syms_one in E. rewrite E, term_syms_group. cbn. rewrite <- app_assoc. reflexivity.
      * exists (Test a), ts. split; [reflexivity|exact H].
    + intros p l H. destruct ts as [|y ts].
      { exists l, []. rewrite !app_nil_r. cbn in H. apply Nat.eqb_eq in H. repeat split; auto. }
      cbn [length] in Hn. destruct y; cbn [strict negb andb] in H; try discriminate.
      * destruct (IH ts ltac:(lia)) as [IHa _]. destruct (IHa p H) as (t & rest & -> & Hr).
        assert (length rest <= n)%nat as Hl by (rewrite app_length in Hn; lia).
        destruct (IH rest Hl) as [_ IHb].
        destruct (IHb p (And l t) Hr) as (l' & rest' & E & Hle & Hc).
        exists l', rest'. split; [|split; [|exact Hc]].
        -- rewrite <- E, conds_syms_and, <- app_assoc. reflexivity.
        -- cbn [length]. rewrite app_length. lia.
      * destruct (IH ts ltac:(lia)) as [IHa _]. destruct (IHa p H) as (t & rest & -> & Hr).
        assert (length rest <= n)%nat as Hl by (rewrite app_length in Hn; lia).
        destruct (IH rest Hl) as [_ IHb].
        destruct (IHb p (Or l t) Hr) as (l' & rest' & E & Hle & Hc).
        exists l', rest'. split; [|split; [|exact Hc]].
        -- rewrite <- E, conds_syms_or, <- app_assoc. reflexivity.
        -- cbn [length]. rewrite app_length. lia.
      * destruct p as [|p]; [discriminate|]. exists l, (SClose :: ts). split; [reflexivity|].
        split; [lia|]. right. exists ts, p. auto.
Qed.

Lemma strict_iff ts : strict true 0 ts = true <-> exists l, ts = conds_syms l.
Proof.
  split.
  - intros H. destruct (strict_sound (length ts) ts (le_n _)) as [Ha _].
    destruct (Ha _ H) as (t & rest & -> & Hr).
    destruct (strict_sound (length rest) rest (le_n _)) as [_ Hb].
    destruct (Hb _ (One t) Hr) as (l' & rest' & E & _ & [[-> _]|(r & p' & _ & Hp & _)]); [|discriminate].
    exists l'. rewrite app_nil_r in E. exact E.
  - intros [l ->]. rewrite <- (app_nil_r (conds_syms l)). rewrite (proj2 strict_complete). reflexivity.
Qed.
End Grammar.

Definition sym_of (t : ctok) : sym (list str) :=
  match t with
  | CAnd => SAnd | COr => SOr | CNot => SNot | COpen => SOpen | CClose => SClose | CCmd a => STest a
  end.
Lemma ctok_sym t : ctok_of (sym_of t) = t. Proof. destruct t; reflexivity. Qed.
Lemma sym_ctok y : sym_of (ctok_of y) = y. Proof. destruct y; reflexivity. Qed.
Lemma map_ctok_sym ts : map ctok_of (map sym_of ts) = ts.
Proof. rewrite map_map. rewrite <- (map_id ts) at 2. apply map_ext, ctok_sym. Qed.
Lemma map_sym_ctok ts : map sym_of (map ctok_of ts) = ts.
Proof. rewrite map_map. rewrite <- (map_id ts) at 2. apply map_ext, sym_ctok. Qed.

(** Well-formed conditions pass the check. *)
Lemma check_strict ts : forall last p,
  strict (expects_operand last) p (map sym_of ts) = true -> (ts <> [] \/ last <> None) ->
  check_syntax_loop last (Z.of_nat p) ts = Ok tt.
Proof.
  induction ts as [|t ts IH]; intros last p H Hn.
  - cbn in H. apply andb_true_iff in H as [_ H]. apply Nat.eqb_eq in H. subst p. cbn.
    destruct last; [reflexivity|]. destruct Hn; congruence.
  - destruct t; cbn [map sym_of strict] in H; cbn [check_syntax_loop].
    + apply andb_true_iff in H as [H1 H]. rewrite negb_true_iff in H1. rewrite H1. apply IH; [exact H|right; discriminate].
    + apply andb_true_iff in H as [H1 H]. rewrite negb_true_iff in H1. rewrite H1. apply IH; [exact H|right; discriminate].
    + apply andb_true_iff in H as [H1 H]. rewrite H1. apply IH; [exact H|right; discriminate].
    + apply andb_true_iff in H as [H1 H]. rewrite H1. cbn [negb].
      replace (Z.of_nat p + 1)%Z with (Z.of_nat (S p)) by lia. apply IH; [exact H|right; discriminate].
    + apply andb_true_iff in H as [H1 H]. rewrite negb_true_iff in H1. rewrite H1, orb_false_r.
      destruct p as [|p]; [discriminate|].
      destruct (Z.ltb_spec (Z.of_nat (S p) - 1) 0); [lia|].
      replace (Z.of_nat (S p) - 1)%Z with (Z.of_nat p) by lia. apply IH; [exact H|right; discriminate].
    + apply andb_true_iff in H as [_ H]. apply IH; [exact H|right; discriminate].
Qed.

(** No operand directly behind an operand. *)
Definition operand (t : ctok) : bool := match t with CClose | CCmd _ => true | _ => false end.
Definition no_juxt (ts : list ctok) : Prop :=
  forall a t args b, ts = a ++ t :: CCmd args :: b -> operand t = false.

Lemma check_loop_strict ts : forall last p,
  check_syntax_loop last (Z.of_nat p) ts = Ok tt ->
  no_juxt (match last with Some t => t :: ts | None => ts end) ->
  (forall x t, (match last with Some t => t :: ts | None => ts end) = x ++ [t] -> operand t = true) ->
  (ts <> [] \/ last <> None) ->
  strict (expects_operand last) p (map sym_of ts) = true.
Proof.
  induction ts as [|t ts IH]; intros last p H Hj He Hn.
  - cbn [map strict]. cbn in H. destruct (Z.ltb_spec 0 (Z.of_nat p)); [discriminate|].
    destruct last as [l|]; [|destruct Hn; congruence].
    specialize (He [] l eq_refl). destruct l; cbn in He |- *; try discriminate; apply Nat.eqb_eq; lia.
  - assert (Hj' : no_juxt (t :: ts)).
    { destruct last as [l|]; [|exact Hj]. intros a t' args b E. apply (Hj (l :: a) t' args b).
      rewrite E. reflexivity. }
    assert (He' : forall x t', t :: ts = x ++ [t'] -> operand t' = true).
    { destruct last as [l|]; [|exact He]. intros x t' E. apply (He (l :: x) t').
      rewrite E. reflexivity. }
    assert (Hs : forall p', check_syntax_loop (Some t) (Z.of_nat p') ts = Ok tt ->
      strict (expects_operand (Some t)) p' (map sym_of ts) = true)
      by (intros p' H'; apply IH; [exact H'|exact Hj'|exact He'|right; discriminate]).
    destruct t; cbn [check_syntax_loop] in H; cbn [map sym_of strict].
    + destruct (expects_operand last) eqn:E; [discriminate|]. cbn. apply Hs, H.
    + destruct (expects_operand last) eqn:E; [discriminate|]. cbn. apply Hs, H.
    + destruct (expects_operand last) eqn:E; [|discriminate]. cbn. apply Hs, H.
    + destruct (expects_operand last) eqn:E; [|discriminate]. cbn. apply Hs.
      cbn [negb] in H. replace (Z.of_nat (S p)) with (Z.of_nat p + 1)%Z by lia. exact H.
    + destruct (Z.ltb_spec (Z.of_nat p - 1) 0); [discriminate|].
      destruct (expects_operand last) eqn:E; [discriminate|]. cbn [orb] in H. cbn.
      destruct p as [|p]; [lia|]. apply Hs.
      replace (Z.of_nat p) with (Z.of_nat (S p) - 1)%Z by lia. exact H.
    + assert (expects_operand last = true) as ->.
      { destruct last as [l|]; [|reflexivity].
        specialize (Hj [] l args ts eq_refl). destruct l; cbn in Hj |- *; congruence. }
      cbn. apply Hs, H.
Qed.

Lemma check_complete_iff ts : no_juxt ts -> (forall x t, ts = x ++ [t] -> operand t = true) ->
  (check_syntax ts = Ok tt <-> exists e, ts = map ctok_of (conds_syms e)).
Proof.
  intros Hj He. unfold check_syntax. split.
  - intros H. assert (ts <> []) as Hn by (intros ->; discriminate).
    assert (strict true 0 (map sym_of ts) = true) as Hs
      by (apply (check_loop_strict ts None 0%nat H Hj He); left; exact Hn).
    apply strict_iff in Hs as [e Hs]. exists e. rewrite <- Hs, map_ctok_sym. reflexivity.
  - intros [e ->]. apply (check_strict _ None 0%nat).
    + rewrite map_sym_ctok. apply strict_iff. exists e; reflexivity.
    + left. apply map_nonempty, conds_syms_nonempty.
Qed.

Lemma check_written e : check_syntax (map ctok_of (conds_syms e)) = Ok tt.
Proof.
  apply (check_strict _ None 0%nat).
  - rewrite map_sym_ctok. apply strict_iff. exists e; reflexivity.
  - left. apply map_nonempty, conds_syms_nonempty.
Qed.

(** Grouping never leaves two commands side by side, nor an empty command. *)
Definition is_cmd (t : ctok) : bool := match t with CCmd _ => true | _ => false end.
Lemma make_commands_apart ts : forall cur,
  (forall a x y b, make_commands_loop cur ts = a ++ CCmd x :: CCmd y :: b -> False) /\
  (cur = [] \/ exists r, make_commands_loop cur ts = CCmd r :: tl (make_commands_loop cur ts)) /\
  ~ In (CCmd []) (make_commands_loop cur ts).
Proof.
  assert (Hop : forall t cur (r : list ctok), is_cmd t = false ->
    (forall a x y b, r = a ++ CCmd x :: CCmd y :: b -> False) -> ~ In (CCmd []) r ->
    (forall a x y b, flush cur (t :: r) = a ++ CCmd x :: CCmd y :: b -> False) /\
    (cur = [] \/ exists r', flush cur (t :: r) = CCmd r' :: tl (flush cur (t :: r))) /\
    ~ In (CCmd []) (flush cur (t :: r))).
  { intros t cur r Ht Hr Hi.
    assert (H1 : forall a x y b, t :: r = a ++ CCmd x :: CCmd y :: b -> False).
    { intros [|z a] x y b E; cbn in E.
      - injection E as -> _. discriminate.
      - injection E as _ E. eapply Hr, E. }
    assert (H2 : ~ In (CCmd []) (t :: r)) by (intros [->|H]; [discriminate|auto]).
    destruct cur as [|w cur]; cbn [flush].
    - split; [exact H1|]. split; [left; reflexivity|exact H2].
    - split; [|split; [right; eexists; reflexivity|intros [H|H]; [discriminate|auto]]].
      intros [|z a] x y b E; cbn in E.
      + injection E as _ -> _. discriminate.
      + injection E as _ E. eapply H1, E. }
  induction ts as [|t ts IH]; intros cur; cbn [make_commands_loop].
  - destruct cur as [|w cur]; cbn [flush].
    + split; [intros [|? a] x y b E; discriminate|]. split; [left; reflexivity|intros []].
    + split; [|split; [right; eexists; reflexivity|intros [H|[]]; discriminate]].
      intros [|? [|? a]] x y b E; discriminate.
  - destruct t as [| | | | |x].
    1-5: destruct (IH []) as (Ha & _ & Hb); apply Hop; [reflexivity|exact Ha|exact Hb].
    destruct (IH (cur ++ [x])) as (Ha & [E|Hb] & Hc); [destruct cur; discriminate|].
    split; [exact Ha|]. split; [right; exact Hb|exact Hc].
Qed.

Lemma parse_inv x ts : parse x = Ok ts -> exists ls, lex x = Ok ls /\ ts = make_commands ls /\
  check_syntax ts = Ok tt.
Proof.
  unfold parse. destruct (lex x) as [?|ls]; [discriminate|]. cbn [bind].
  destruct (check_syntax (make_commands ls)) as [?|[]] eqn:E; [discriminate|]. cbn [bind].
  intros H; injection H as <-. eauto.
Qed.

Lemma accepted_complete x ts : parse x = Ok ts -> complete ts ->
  exists e : conds (list str), ts = map ctok_of (conds_syms e).
Proof.
  intros H [(ts' & t & Ets & Ht) Hj]. destruct (parse_inv x ts H) as (ls & _ & Em & Hc).
  apply check_complete_iff; [| |exact Hc].
  - intros a u args b E. destruct u; try reflexivity; exfalso.
    + apply Hj. eauto.
    + destruct (make_commands_apart ls []) as [Ha _]. rewrite Em in E. eapply Ha, E.
  - intros y u E. rewrite Ets in E. apply app_inj_tail in E as [_ <-].
    destruct Ht as [->|[args ->]]; reflexivity.
Qed.

Lemma accepted_tests x ts args : parse x = Ok ts -> In (CCmd args) ts -> args <> [].
Proof.
  intros H Hi ->. destruct (parse_inv x ts H) as (ls & _ & -> & _).
  destruct (make_commands_apart ls []) as (_ & _ & Hc). exact (Hc Hi).
Qed.

(** Parentheses of every accepted text are balanced. *)
Lemma check_balanced ts : forall last p, check_syntax_loop last p ts = Ok tt -> (0 <= p)%Z ->
  (p + Z.of_nat (opens ts) = Z.of_nat (closes ts))%Z /\
  forall b a, ts = b ++ a -> (Z.of_nat (closes b) <= p + Z.of_nat (opens b))%Z.
Proof.
  unfold opens, closes. induction ts as [|t ts IH]; intros last p H Hp.
  - cbn in H. destruct (Z.ltb_spec 0 p); [discriminate|]. split; [cbn; lia|].
    intros b a E. symmetry in E. apply app_eq_nil in E as [-> _]. cbn. lia.
  - assert (Hs : forall p' (d : Z), (0 <= p')%Z -> check_syntax_loop (Some t) p' ts = Ok tt ->
      (p' + Z.of_nat (length (filter (fun t => match t with COpen => true | _ => false end) ts)) =
       Z.of_nat (length (filter (fun t => match t with CClose => true | _ => false end) ts)))%Z /\
      forall b a, ts = b ++ a ->
        (Z.of_nat (length (filter (fun t => match t with CClose => true | _ => false end) b)) <=
         p' + Z.of_nat (length (filter (fun t => match t with COpen => true | _ => false end) b)))%Z)
      by (intros p' _ Hp' H'; eapply IH; eauto).
    destruct t; cbn [check_syntax_loop] in H.
    + destruct (expects_operand last); [discriminate|]. destruct (Hs p 0%Z Hp H) as [E1 E2].
      split; [cbn; lia|]. intros [|z b] a E; [cbn; lia|]. injection E as <- E. apply E2 in E. cbn. lia.
    + destruct (expects_operand last); [discriminate|]. destruct (Hs p 0%Z Hp H) as [E1 E2].
      split; [cbn; lia|]. intros [|z b] a E; [cbn; lia|]. injection E as <- E. apply E2 in E. cbn. lia.
    + destruct (expects_operand last); [|discriminate]. destruct (Hs p 0%Z Hp H) as [E1 E2].
      split; [cbn; lia|]. intros [|z b] a E; [cbn; lia|]. injection E as <- E. apply E2 in E. cbn. lia.
    + destruct (expects_operand last); [|discriminate].
      destruct (Hs (p + 1)%Z 0%Z ltac:(lia) H) as [E1 E2].
      split; [cbn [filter length]; lia|]. intros [|z b] a E; [cbn; lia|]. injection E as <- E. apply E2 in E.
      cbn [filter length]. lia.
    + destruct (Z.ltb_spec (p - 1) 0); [discriminate|].
      destruct (expects_operand last); [discriminate|]. cbn [orb] in H.
      destruct (Hs (p - 1)%Z 0%Z ltac:(lia) H) as [E1 E2].
      split; [cbn [filter length]; lia|]. intros [|z b] a E; [cbn; lia|]. injection E as <- E. apply E2 in E.
      cbn [filter length]. lia.
    + destruct (Hs p 0%Z Hp H) as [E1 E2].
      split; [cbn; lia|]. intros [|z b] a E; [cbn; lia|]. injection E as <- E. apply E2 in E. cbn. lia.
Qed.

Lemma accepted_balanced x ts : parse x = Ok ts -> balanced ts.
Proof.
  intros H. destruct (parse_inv x ts H) as (ls & _ & _ & Hc).
  destruct (check_balanced ts None 0%Z Hc ltac:(lia)) as [H1 H2]. split; [lia|].
  intros b a E. specialize (H2 b a E). lia.
Qed.

(** ** Reading a written condition *)

Lemma lex_loop_more n : forall f f' x, (length x <= n)%nat -> (length x < f)%nat ->
  (length x < f')%nat -> lex_loop f x = lex_loop f' x.
Proof.
  induction n as [|n IH]; intros f f' x Hn Hf Hf'; destruct f as [|f]; try lia; destruct f' as [|f']; try lia;
    cbn [lex_loop].
  - destruct x; [reflexivity|cbn in Hn; lia].
  - destruct (parse_token x) as [e|[[t r]|]] eqn:E; cbn [bind]; try reflexivity.
    apply parse_token_len in E. rewrite (IH f f' r) by lia. reflexivity.
Qed.

Lemma lex_step x t r : parse_token x = Ok (Some (t, r)) -> lex x = do ts <- lex r; Ok (t :: ts).
Proof.
  intros H. unfold lex at 1. cbn [lex_loop]. rewrite H. cbn [bind].
  apply parse_token_len in H. unfold lex.
  rewrite (lex_loop_more (length r) (length x) (S (length r)) r) by lia. reflexivity.
Qed.

Lemma lex_loop_S f x : lex_loop (S f) x =
  do o <- parse_token x;
  match o with None => Ok [] | Some (t, r) => do ts <- lex_loop f r; Ok (t :: ts) end.
Proof. reflexivity. Qed.

Lemma lex_space x : lex (SP :: x) = lex x.
Proof.
  unfold lex. change (length (SP :: x)) with (S (length x)). rewrite !(lex_loop_S _ (SP :: x)), parse_token_space by reflexivity.
  rewrite (lex_loop_S _ x).
  destruct (parse_token x) as [e|[[t r]|]] eqn:E; cbn [bind]; try reflexivity.
  apply parse_token_len in E. rewrite (lex_loop_more (length r) (S (length x)) (length x) r) by lia.
  reflexivity.
Qed.

Definition sym_toks (y : sym (list str)) : list tok :=
  match y with
  | SAnd => [TAnd] | SOr => [TOr] | SNot => [TNot] | SOpen => [TOpen] | SClose => [TClose]
  | STest args => map TLit args
  end.

Lemma lex_words args rest : stops rest -> args <> [] ->
  lex (join_quoted args [SP] ++ rest) = do ts <- lex rest; Ok (map TLit args ++ ts).
Proof.
  intros Hr. unfold join_quoted. induction args as [|a args IH]; [congruence|]. intros _.
  destruct args as [|b args].
  - cbn [map join]. rewrite (lex_step _ _ _ (parse_token_quote a rest Hr)). reflexivity.
  - cbn [map]. rewrite join_cons, <- !app_assoc.
    rewrite (lex_step _ (TLit a) (SP :: join [SP] (map quote (b :: args)) ++ rest)).
    + rewrite lex_space, IH by discriminate. destruct (lex rest); reflexivity.
    + apply parse_token_quote. right. eexists _, _. split; reflexivity.
Qed.

Definition sym_ok (y : sym (list str)) : Prop := match y with STest [] => False | _ => True end.

Lemma lex_sym y rest : stops rest -> sym_ok y ->
  lex (sym_text y ++ rest) = do ts <- lex rest; Ok (sym_toks y ++ ts).
Proof.
  intros Hr Hy. destruct y as [| | | | |args]; try (apply lex_step; reflexivity).
  apply lex_words; [exact Hr|]. cbn in Hy. destruct args; [destruct Hy|discriminate].
Qed.

Lemma lex_syms l : Forall sym_ok l ->
  lex (join [SP] (map sym_text l)) = Ok (concat (map sym_toks l)).
Proof.
  induction 1 as [|y l Hy Hl IH]; [reflexivity|]. destruct l as [|z l].
  - cbn [map join concat]. rewrite <- (app_nil_r (sym_text y)).
    rewrite lex_sym by (try left; auto). cbn. reflexivity.
  - cbn [map]. rewrite join_cons, lex_sym; [|right; eexists _, _; split; reflexivity|exact Hy].
    change ([SP] ++ join [SP] (sym_text z :: map sym_text l)) with
      (SP :: join [SP] (map sym_text (z :: l))).
    rewrite lex_space, IH. reflexivity.
Qed.

Definition op_first (ts : list tok) : Prop :=
  match ts with TLit _ :: _ => False | _ => True end.

Lemma make_lits args : forall cur rest,
  make_commands_loop cur (map TLit args ++ rest) = make_commands_loop (cur ++ args) rest.
Proof.
  induction args as [|a args IH]; intros cur rest; cbn [map app make_commands_loop].
  - rewrite app_nil_r. reflexivity.
  - rewrite IH, <- app_assoc. reflexivity.
Qed.
Lemma make_flush cur rest : op_first rest ->
  make_commands_loop cur rest = flush cur (make_commands_loop [] rest).
Proof. destruct rest as [|[]]; cbn; intros H; try reflexivity. destruct H. Qed.

Definition toks_of (l : list (sym (list str))) : list tok := concat (map sym_toks l).
Lemma toks_of_app a b : toks_of (a ++ b) = toks_of a ++ toks_of b.
Proof. unfold toks_of. rewrite map_app, concat_app. reflexivity. Qed.
Lemma toks_of_cons y l : toks_of (y :: l) = sym_toks y ++ toks_of l.
Proof. reflexivity. Qed.

Lemma make_written :
  (forall t rest, Forall sym_ok (term_syms t) -> op_first rest ->
     make_commands_loop [] (toks_of (term_syms t) ++ rest) =
     map ctok_of (term_syms t) ++ make_commands_loop [] rest) /\
  (forall l rest, Forall sym_ok (conds_syms l) -> op_first rest ->
     make_commands_loop [] (toks_of (conds_syms l) ++ rest) =
     map ctok_of (conds_syms l) ++ make_commands_loop [] rest).
Proof.
  apply term_conds_ind.
  - intros a rest H Hr. inversion_clear H. unfold toks_of. cbn [term_syms map concat sym_toks].
    rewrite app_nil_r, make_lits. cbn [app]. rewrite make_flush by exact Hr.
    destruct a; [destruct H0|]. reflexivity.
  - intros t IH rest H Hr. rewrite term_syms_not in *. inversion_clear H.
    rewrite toks_of_cons. cbn [sym_toks app make_commands_loop flush map ctok_of].
    rewrite IH by assumption. reflexivity.
  - intros l IH rest H Hr. rewrite term_syms_group in *. inversion_clear H.
    apply Forall_app in H1 as [H1 _].
    rewrite toks_of_cons, toks_of_app, <- !app_assoc.
    cbn [sym_toks app make_commands_loop flush map ctok_of]. rewrite IH; [|exact H1|exact I].
    rewrite map_app, <- app_assoc. reflexivity.
  - intros t IH rest H Hr. apply IH; assumption.
  - intros l IHl t IHt rest H Hr. rewrite conds_syms_and in *. apply Forall_app in H as [H1 H2].
    inversion_clear H2. rewrite toks_of_app, toks_of_cons, <- !app_assoc.
    rewrite IHl; [|exact H1|exact I]. rewrite map_app, <- app_assoc. f_equal.
    cbn [sym_toks app make_commands_loop flush map ctok_of]. rewrite IHt by assumption. reflexivity.
  - intros l IHl t IHt rest H Hr. rewrite conds_syms_or in *. apply Forall_app in H as [H1 H2].
    inversion_clear H2. rewrite toks_of_app, toks_of_cons, <- !app_assoc.
    rewrite IHl; [|exact H1|exact I]. rewrite map_app, <- app_assoc. f_equal.
    cbn [sym_toks app make_commands_loop flush map ctok_of]. rewrite IHt by assumption. reflexivity.
Qed.

Lemma parse_written e : (forall args, In (STest args) (conds_syms e) -> args <> []) ->
  parse (written e) = Ok (map ctok_of (conds_syms e)).
Proof.
  intros H. assert (Forall sym_ok (conds_syms e)) as Hs.
  { apply Forall_forall. intros y Hy. destruct y as [| | | | |[|]]; cbn; auto. exact (H [] Hy eq_refl). }
  unfold parse, written. rewrite lex_syms by exact Hs. cbn [bind].
  unfold make_commands. change (concat (map sym_toks (conds_syms e))) with (toks_of (conds_syms e)).
  rewrite <- (app_nil_r (toks_of _)), (proj2 make_written) by (exact Hs || exact I).
  cbn [make_commands_loop flush]. rewrite app_nil_r, check_written. reflexivity.
Qed.

(** replacing commands keeps the structure *)
Lemma replace_commands_syms ere ts ws : replace_commands ere ts = Ok ws ->
  Forall2 (fun t w => match t, w with
                      | CAnd, WAnd | COr, WOr | CNot, WNot | COpen, WOpen | CClose, WClose => True
                      | CCmd a, WObj o => mk_test ere a = Ok o
                      | _, _ => False
                      end) ts ws.
Proof.
  revert ws. induction ts as [|t ts IH]; intros ws H; cbn [replace_commands] in H.
  - injection H as <-. constructor.
  - destruct (match t with CAnd => _ | _ => _ end) as [?|w] eqn:E; [discriminate|]. cbn [bind] in H.
    destruct (replace_commands ere ts) as [?|r]; [discriminate|]. cbn [bind] in H. injection H as <-.
    constructor; [|apply IH; reflexivity].
    destruct t; try (injection E as <-; exact I).
    destruct (mk_test ere args) eqn:Em; [discriminate|]. injection E as <-. reflexivity.
Qed.
