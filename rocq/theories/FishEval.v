(** * Proofs: what the conditions of fish scripts mean. *)
From Verif Require Import Base Value Algo StrUtils Shell SpecShell ShellProofs ShellParser When SpecWhen WhenProofs WhenTests Cli
  FishUtils SpecFish FishProofs FishConditions FishRuntime SpecOffered SpecFishOffers.
Open Scope list_scope.

Lemma name_cases e n : good_names e -> In n function_variables ->
  is_name (helper e n) /\ is_not (helper e n) = false /\ str_eqb (helper e n) (s "begin") = false /\ e n = Some (helper e n).
Proof.
  intros [H _] Hn. destruct (H n Hn) as (f & E & H1 & H2 & H3 & H4). unfold helper. rewrite E. split; [now split |].
  split; [| split; [now apply str_eqb_neq | reflexivity]].
  unfold is_not. apply orb_false_iff. split; [now apply str_eqb_neq |]. apply str_eqb_neq. intros ->. discriminate H2.
Qed.
Lemma good_helpers e : good_names e -> has_helpers e.
Proof.
  intros H. assert (K : forall n, In n function_variables -> e n <> None) by (intros n Hn; destruct (name_cases e n H Hn) as (_ & _ & _ & ->); discriminate).
  repeat split; apply K; cbn; tauto.
Qed.
Lemma lex_name f : is_name f -> fish_lex FUnquoted None f = Some [FWord f].
Proof.
  intros H. apply (lex_read f FUnquoted None [f]). rewrite <- (name_quote f H) at 1. rewrite <- (app_nil_r (quote f)).
  destruct H as [_ H]. rewrite forallb_forall in H. rewrite fish_read_quote; [reflexivity | |]; intros Hi; apply H in Hi; discriminate.
Qed.
Lemma lex_command f args : is_name f -> clean args ->
  fish_lex FUnquoted None (f ++ [SP] ++ join_quoted args [SP]) = Some (map FWord (f :: args)).
Proof.
  intros Hf Ha. cbn [app]. rewrite (lex_app _ _ f (le_n _) _ _ _ (lex_name f Hf)).
  assert (E : fish_lex FUnquoted None (join_quoted args [SP]) = Some (map FWord args)) by (apply lex_read, fish_join_quoted, Ha). rewrite E. reflexivity.
Qed.

Section Truth.
Variable truth : list str -> bool.
Definition follows (ts : list ftok) : Prop := match ts with FWord _ :: _ => False | _ => True end.
Definition term_means (ts : list ftok) (b : bool) : Prop := forall f stack rest, follows rest ->
  fish_eval_toks truth (FExpect f) stack (ts ++ rest) = fish_eval_toks truth (FHave (f b)) stack rest.
Definition conds_means (ts : list ftok) (b : bool) : Prop := forall stack rest, follows rest ->
  fish_eval_toks truth (FExpect (fun v => v)) stack (ts ++ rest) = fish_eval_toks truth (FHave b) stack rest.
Lemma eval_words f ws args stack rest : follows rest ->
  fish_eval_toks truth (FCommand f ws) stack (map FWord args ++ rest) = fish_eval_toks truth (FHave (f (truth (ws ++ args)))) stack rest.
Proof.
  intros Hr. revert ws. induction args as [| x args IH]; intros ws.
  - rewrite app_nil_r. cbn [map app]. destruct rest as [| [x | | |] rest]; [reflexivity | destruct Hr | reflexivity..].
  - cbn [map app fish_eval_toks]. rewrite IH. now rewrite <- app_assoc.
Qed.
Lemma command_means f args : is_not f = false -> str_eqb f (s "begin") = false -> term_means (map FWord (f :: args)) (truth (f :: args)).
Proof. intros H1 H2 g stack rest Hr. cbn [map app fish_eval_toks]. rewrite H1, H2. now rewrite eval_words. Qed.
Lemma not_means x ts b : is_not x = true -> term_means ts b -> term_means (FWord x :: ts) (negb b).
Proof. intros Hx H f stack rest Hr. cbn [app fish_eval_toks]. rewrite Hx. now rewrite H. Qed.
Lemma group_means ts b : conds_means ts b -> term_means (FWord (s "begin") :: ts ++ [FSemi; FWord (s "end")]) b.
Proof.
  intros H f stack rest Hr. cbn [app fish_eval_toks]. change (is_not (s "begin")) with false. change (str_eqb (s "begin") (s "begin")) with true. cbv iota.
  rewrite <- app_assoc. rewrite H by exact I. cbn [app fish_eval_toks]. change (str_eqb (s "end") (s "end")) with true. reflexivity.
Qed.
Lemma one_means ts b : term_means ts b -> conds_means ts b.
Proof. intros H stack rest Hr. now rewrite H. Qed.
Lemma and_means ts us b c : conds_means ts b -> term_means us c -> conds_means (ts ++ FAnd :: us) (b && c).
Proof. intros H1 H2 stack rest Hr. rewrite <- app_assoc. rewrite H1 by exact I. cbn [app fish_eval_toks]. now rewrite H2. Qed.
Lemma or_means ts us b c : conds_means ts b -> term_means us c -> conds_means (ts ++ FOr :: us) (b || c).
Proof. intros H1 H2 stack rest Hr. rewrite <- app_assoc. rewrite H1 by exact I. cbn [app fish_eval_toks]. now rewrite H2. Qed.
Lemma eval_means ts b : conds_means ts b -> fish_eval_toks truth (FExpect (fun v => v)) [] ts = Some b.
Proof. intros H. rewrite <- (app_nil_r ts). rewrite H by exact I. reflexivity. Qed.

(** ** Conditions of when-texts *)

Variable e : env.
Hypothesis He : good_names e.
Definition test_words (o : wobj) : list str := helper e (test_name o) :: test_arguments o.
Lemma test_name_in o : In (test_name o) function_variables.
Proof. destruct o; cbn; tauto. Qed.
Definition tok_toks (t : wtok) : list ftok :=
  match t with
  | WAnd => [FAnd]
  | WOr => [FOr]
  | WNot => [FWord (s "!")]
  | WOpen => [FWord (s "begin")]
  | WClose => [FSemi; FWord (s "end")]
  | WObj o => map FWord (test_words o)
  end.
Lemma lex_token t : (forall o, t = WObj o -> clean (test_arguments o)) -> fish_lex FUnquoted None (tok_value e t) = Some (tok_toks t).
Proof.
  intros H. destruct t as [| | | | | o]; try reflexivity. apply lex_command; [apply (name_cases e _ He (test_name_in o)) | now apply H].
Qed.
Lemma syms_means :
  (forall t, term_means (flat_map tok_toks (map wtok_of (term_syms t))) (term_true (fun o => truth (test_words o)) t)) /\
  (forall l, conds_means (flat_map tok_toks (map wtok_of (conds_syms l))) (conds_true (fun o => truth (test_words o)) l)).
Proof.
  apply term_conds_ind.
  - intros o. cbn [term_syms map flat_map wtok_of tok_toks]. rewrite app_nil_r.
    destruct (name_cases e _ He (test_name_in o)) as (_ & H1 & H2 & _). now apply command_means.
  - intros t IH. rewrite term_syms_not. cbn [map flat_map wtok_of tok_toks app]. now apply not_means.
  - intros l IH. rewrite term_syms_group. cbn [map flat_map wtok_of tok_toks app]. rewrite map_app, flat_map_app. now apply group_means.
  - intros t IH. rewrite conds_syms_one. now apply one_means.
  - intros l IHl t IHt. rewrite conds_syms_and, map_app, flat_map_app. cbn [map flat_map wtok_of tok_toks app]. now apply and_means.
  - intros l IHl t IHt. rewrite conds_syms_or, map_app, flat_map_app. cbn [map flat_map wtok_of tok_toks app]. now apply or_means.
Qed.
Lemma when_means cond : (forall o, In (STest o) (conds_syms cond) -> clean (test_arguments o)) ->
  exists text, fish_line e (in_double (fish_tokens (map wtok_of (conds_syms cond)))) = Some [text] /\
  fish_eval truth text = Some (conds_true (fun o => truth (test_words o)) cond).
Proof.
  intros H. assert (Hn : map wtok_of (conds_syms cond) <> []) by (apply map_nonempty, conds_syms_nonempty).
  assert (Hc : forall o, In (WObj o) (map wtok_of (conds_syms cond)) -> clean (test_arguments o)).
  { intros o Ho. apply in_map_iff in Ho as (y & E & Hy). destruct y; try discriminate. injection E as <-. now apply H. }
  eexists. split.
  - apply tokens_line; [| exact Hn]. intros o Ho. split; [apply has_test, good_helpers, He |]. intros x Hx. now apply (Hc o).
  - unfold fish_eval. rewrite (lex_words (map (tok_value e) (map wtok_of (conds_syms cond))) (map tok_toks (map wtok_of (conds_syms cond)))).
    + rewrite <- flat_map_concat_map. apply eval_means, syms_means.
    + now apply map_nonempty.
    + remember (map wtok_of (conds_syms cond)) as ts. clear -Hc He truth. induction ts as [| t ts IH]; [constructor |]. constructor.
      * apply lex_token. intros o ->. apply Hc. now left.
      * apply IH. intros o Ho. apply Hc. now right.
Qed.

(** ** Conditions of definitions *)

Fixpoint cond_true (c : fcond) : bool :=
  match c with
  | FNot c => negb (cond_true c)
  | FHasOption options => truth (helper e (s "has_option") :: options)
  | FHasHiddenOption options => truth (helper e (s "has_option") :: s "WITH_INCOMPLETE" :: options)
  | FPositionalNum operator number => truth [helper e (s "num_of_positionals"); test_operator operator; z_str number]
  | FPositionalContains number values => truth (helper e (s "positional_contains") :: z_str number :: values)
  end.
Lemma cond_means c : clean (cond_strings c) -> exists ts, fish_lex FUnquoted None (cond_value e c) = Some ts /\ term_means ts (cond_true c).
Proof.
  intros H.
  assert (Hcmd : forall n args, In n function_variables -> clean args -> exists ts,
     fish_lex FUnquoted None (helper e n ++ [SP] ++ join_quoted args [SP]) = Some ts /\ term_means ts (truth (helper e n :: args))).
  { intros n args Hn Ha. destruct (name_cases e n He Hn) as (H0 & H1 & H2 & _). eexists. split; [now apply lex_command |]. now apply command_means. }
  induction c as [c IH | os | os | op n | n vs]; cbn [cond_value cond_true cond_strings] in *.
  - destruct (IH H) as (ts & H1 & H2). exists (FWord (s "not") :: ts). split; [| now apply not_means].
    change (s "not " ++ cond_value e c) with (s "not" ++ SP :: cond_value e c).
    rewrite (lex_app _ _ (s "not") (le_n _) FUnquoted None [FWord (s "not")] eq_refl), H1. reflexivity.
  - apply Hcmd; [cbn; tauto | exact H].
  - apply Hcmd; [cbn; tauto |]. intros x [<- | Hx]; [| now apply H].
    split; intros Hi; cbn in Hi; repeat (destruct Hi as [Hi | Hi]; [discriminate |]); exact Hi.
  - apply Hcmd; [cbn; tauto |]. intros x [<- | [<- | []]]; [apply operator_plain | apply z_str_plain].
  - apply Hcmd; [cbn; tauto |]. intros x [<- | Hx]; [apply z_str_plain | now apply H].
Qed.
Lemma cond_eval c : clean (cond_strings c) -> exists text, fish_line e (in_double (cond_code c)) = Some [text] /\ fish_eval truth text = Some (cond_true c).
Proof.
  intros H. exists (cond_value e c). split; [apply cond_line; [apply good_helpers, He | intros x Hx; now apply H] |].
  destruct (cond_means c H) as (ts & H1 & H2). unfold fish_eval. rewrite H1. now apply eval_means, one_means.
Qed.
Lemma prepare_eval : fish_eval truth (helper e (s "P")) = Some (truth [helper e (s "P")]).
Proof.
  destruct (name_cases e (s "P") He) as (H0 & H1 & H2 & _); [cbn; tauto |]. unfold fish_eval. rewrite lex_name by exact H0.
  apply eval_means, one_means. now apply (command_means _ []).
Qed.
End Truth.
