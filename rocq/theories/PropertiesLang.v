(** * C138: the language of messages *)
From Coq Require Import String.
From Verif Require Import Base Lang SpecLang.
Open Scope string_scope.
Open Scope list_scope.

Lemma hd_split c x rest : ~ In c x -> (rest = [] \/ exists r, rest = c :: r) -> hd [] (split_c c (x ++ rest)) = x.
Proof.
  intros N R. assert (NN : forall y, split_c c y <> []).
  { induction y as [|d y IH]; [discriminate|]. cbn [split_c]. destruct (split_c c y); [congruence|]. destruct (N.eqb d c); discriminate. }
  induction x as [|d x IH].
  - destruct R as [-> | (r & ->)]; [reflexivity|]. cbn [app split_c]. specialize (NN r).
    destruct (split_c c r); [congruence|]. now rewrite N.eqb_refl.
  - cbn [app split_c]. assert (E : hd [] (split_c c (x ++ rest)) = x) by (apply IH; intros H; apply N; now right).
    specialize (NN (x ++ rest)). destruct (split_c c (x ++ rest)); [congruence|]. cbn [hd] in E. subst l.
    destruct (N.eqb d c) eqn:D; [|reflexivity]. apply N.eqb_eq in D. subst d. exfalso. apply N. now left.
Qed.
(** up to the first [c], or all *)
Lemma at_first c (x : str) : ~ In c x \/ exists a b, x = a ++ c :: b /\ ~ In c a.
Proof.
  induction x as [|d x [IH | (a & b & -> & H)]]; [now left| |].
  - destruct (N.eq_dec d c) as [-> | D]; [right; now exists [], x | left; intros [E | E]; congruence || tauto].
  - right. destruct (N.eq_dec d c) as [-> | D]; [now exists [], (a ++ c :: b)|].
    exists (d :: a), b. split; [reflexivity|]. intros [E | E]; congruence || tauto.
Qed.
Lemma normalized language rest : language ++ rest <> [] ->
  (forall c, In c language -> ~ In c (s "_.@:")) ->
  (rest = [] \/ exists c r, rest = c :: r /\ In c (s "_.")) ->
  normalize_lang (Some (language ++ rest)) = lower language.
Proof.
  intros NE L R.
  assert (U : ~ In 95%N language) by (intros H; apply (L _ H); apply memc_In; reflexivity).
  assert (D : ~ In 46%N language) by (intros H; apply (L _ H); apply memc_In; reflexivity).
  assert (E : normalize_lang (Some (language ++ rest)) = lower (hd [] (split_c 46%N (hd [] (split_c 95%N (language ++ rest)))))).
  { unfold normalize_lang. destruct (language ++ rest); [congruence|reflexivity]. }
  rewrite E. f_equal. clear E.
  destruct R as [-> | (c & r & -> & C)].
  - rewrite hd_split by (assumption || now left). rewrite <- (app_nil_r language) at 1. apply hd_split; [exact D|now left].
  - apply memc_In in C.
    assert (Q : c = 95%N \/ c = 46%N).
    { unfold memc in C. vm_compute in C.
      destruct (N.eq_dec c 95) as [->|]; [now left|]. destruct (N.eq_dec c 46) as [->|]; [now right|].
      exfalso. revert C. destruct c as [|p]; [discriminate|]. do 8 (destruct p; try discriminate; try congruence). }
    destruct Q as [-> | ->].
    + rewrite hd_split; [|exact U|right; eauto]. rewrite <- (app_nil_r language) at 1. apply hd_split; [exact D|now left].
    + destruct (at_first 95%N r) as [N | (a & b & -> & N)].
      * replace (hd [] (split_c 95%N (language ++ 46%N :: r))) with (language ++ 46%N :: r).
        -- apply hd_split; [exact D|right; eauto].
        -- symmetry. rewrite <- (app_nil_r (language ++ 46%N :: r)) at 1. apply hd_split; [|now left].
           rewrite in_app_iff. intros [H | [H | H]]; [tauto|discriminate|tauto].
      * replace (language ++ 46%N :: a ++ 95%N :: b) with ((language ++ 46%N :: a) ++ 95%N :: b) by now rewrite <- app_assoc.
        rewrite hd_split; [|rewrite in_app_iff; intros [H | [H | H]]; [tauto|discriminate|tauto]|right; eauto].
        apply hd_split; [exact D|right; eauto].
Qed.
Lemma lower_c_is c d : is_lower d = true -> (lower_c c = d <-> c = d \/ c = (d - 32)%N).
Proof.
  unfold is_lower, lower_c, is_upper. intros H. apply andb_true_iff in H as (H1 & H2). apply N.leb_le in H1, H2.
  destruct ((65 <=? c)%N && (c <=? 90)%N) eqn:E.
  - apply andb_true_iff in E as (E1 & E2). apply N.leb_le in E1, E2. lia.
  - apply andb_false_iff in E. destruct E as [E | E]; apply N.leb_gt in E; lia.
Qed.
Lemma lower_german l : str_eqb (lower l) (s "de") = true <-> is_german l.
Proof.
  rewrite str_eqb_eq. change (s "de") with [100; 101]%N. unfold is_german.
  change [s "de"; s "De"; s "dE"; s "DE"] with [[100; 101]; [68; 101]; [100; 69]; [68; 69]]%N.
  split.
  - destruct l as [|a [|b [|c l]]]; try discriminate. intros E. cbn [lower map] in E. injection E as Ea Eb.
    apply lower_c_is in Ea; [|reflexivity]. apply lower_c_is in Eb; [|reflexivity].
    destruct Ea as [-> | ->], Eb as [-> | ->]; vm_compute; tauto.
  - intros [<- | [<- | [<- | [<- | []]]]]; reflexivity.
Qed.
Lemma or_not_set a b : (a = None \/ a = Some []) -> or_ a b = b.
Proof. now intros [-> | ->]. Qed.
Lemma or_set x b : x <> [] -> or_ (Some x) b = Some x.
Proof. destruct x; [congruence|reflexivity]. Qed.
Lemma asked env system x : asks_for env x -> get_lang env system = Ok (normalize_lang (Some x)).
Proof.
  intros (NE & before & v & after & E & V & B). unfold get_lang.
  assert (G : or_ (or_ (or_ (env (s "LANGUAGE")) (env (s "LC_ALL"))) (env (s "LC_MESSAGES"))) (env (s "LANG")) = Some x).
  { unfold variables in E.
    destruct before as [|b1 [|b2 [|b3 [|b4 [|b5 before]]]]];
      repeat match goal with H : Forall _ (_ :: _) |- _ => apply Forall_cons_iff in H as (? & H) end;
      cbn [app] in E;
      try (apply f_equal with (f := @List.length str) in E; cbn [List.length] in E; rewrite ?app_length in E; cbn [List.length] in E; lia).
    - assert (V1 : s "LANGUAGE" = v) by now apply f_equal with (f := hd []) in E. rewrite V1, V, !or_set by exact NE. reflexivity.
    - assert (V1 : s "LANGUAGE" = b1) by now apply f_equal with (f := hd []) in E.
      assert (V2 : s "LC_ALL" = v) by now apply f_equal with (f := fun l => nth 1 l []) in E. subst b1.
      rewrite (or_not_set (env (s "LANGUAGE"))) by assumption. rewrite V2, V, !or_set by exact NE. reflexivity.
    - assert (V1 : s "LANGUAGE" = b1) by now apply f_equal with (f := hd []) in E.
      assert (V2 : s "LC_ALL" = b2) by now apply f_equal with (f := fun l => nth 1 l []) in E.
      assert (V3 : s "LC_MESSAGES" = v) by now apply f_equal with (f := fun l => nth 2 l []) in E. subst b1 b2.
      rewrite (or_not_set (env (s "LANGUAGE"))) by assumption. rewrite (or_not_set (env (s "LC_ALL"))) by assumption.
      rewrite V3, V, !or_set by exact NE. reflexivity.
    - assert (V1 : s "LANGUAGE" = b1) by now apply f_equal with (f := hd []) in E.
      assert (V2 : s "LC_ALL" = b2) by now apply f_equal with (f := fun l => nth 1 l []) in E.
      assert (V3 : s "LC_MESSAGES" = b3) by now apply f_equal with (f := fun l => nth 2 l []) in E.
      assert (V4 : s "LANG" = v) by now apply f_equal with (f := fun l => nth 3 l []) in E. subst b1 b2 b3.
      rewrite (or_not_set (env (s "LANGUAGE"))) by assumption. rewrite (or_not_set (env (s "LC_ALL"))) by assumption.
      rewrite (or_not_set (env (s "LC_MESSAGES"))) by assumption. now rewrite V4, V. }
  rewrite G. destruct x; [congruence|reflexivity].
Qed.
Lemma not_asked env system : silent env ->
  get_lang env system = match system with
                        | inl e => Err e
                        | inr l => Ok (normalize_lang (match l with None | Some [] => Some (s "en") | Some x => Some x end))
                        end.
Proof.
  intros S. unfold silent, variables in S.
  repeat match goal with H : Forall _ (_ :: _) |- _ => apply Forall_cons_iff in H as (? & H) end.
  unfold get_lang. rewrite (or_not_set (env (s "LANGUAGE"))) by assumption. rewrite (or_not_set (env (s "LC_ALL"))) by assumption.
  rewrite (or_not_set (env (s "LC_MESSAGES"))) by assumption.
  match goal with H : not_set env (s "LANG") |- _ => destruct H as [-> | ->] end; destruct system; reflexivity.
Qed.

Lemma not_asked_some env x : silent env -> x <> [] -> get_lang env (Ok (Some x)) = Ok (normalize_lang (Some x)).
Proof. intros S N. rewrite (not_asked env _ S). destruct x; [congruence|reflexivity]. Qed.

(** If a variable asks for a locale, then the messages are German exactly if its language is German,
    whatever the system says.  Missing: the language is followed by [@] or by a colon (see the refutation). *)
Theorem C138_language_partial : forall env system x language german english,
  asks_for env x -> language_of x language ->
  (x = language \/ exists c rest, x = language ++ c :: rest /\ In c (s "_.")) ->
  exists text, message env system german english = Ok text /\
    (is_german language -> text = german) /\ (~ is_german language -> text = english).
Proof.
  intros env system x language german english A (rest & -> & L & _) R.
  assert (R' : rest = [] \/ exists c r, rest = c :: r /\ In c (s "_.")).
  { destruct R as [E | (c & r & E & C)].
    - left. apply app_inv_head with (l := language). now rewrite app_nil_r.
    - right. apply app_inv_head in E. eauto. }
  unfold message. rewrite (asked env system _ A). cbn [bind].
  rewrite normalized; [|apply A|exact L|exact R'].
  destruct (str_eqb (lower language) (s "de")) eqn:G.
  - apply lower_german in G. eexists. split; [reflexivity|]. tauto.
  - assert (N : ~ is_german language) by (intros H; apply lower_german in H; congruence). eexists. split; [reflexivity|]. tauto.
Qed.
Print Assumptions C138_language_partial.

(** If no variable asks, then the locale of the system counts in the same way, and without one the
    messages are English.  The program fails only if that locale cannot be asked for. *)
Theorem C138_silent_partial : forall env german english, silent env ->
  message env (Ok None) german english = Ok english /\
  (forall e, message env (Err e) german english = Err e) /\
  (forall x language, language_of x language -> language <> [] ->
     (x = language \/ exists c rest, x = language ++ c :: rest /\ In c (s "_.")) ->
     exists text, message env (Ok (Some x)) german english = Ok text /\
       (is_german language -> text = german) /\ (~ is_german language -> text = english)).
Proof.
  intros env german english S. unfold message. split; [|split].
  - now rewrite (not_asked env _ S).
  - intros e. now rewrite (not_asked env _ S).
  - intros x language (rest & -> & L & _) NE R.
    assert (R' : rest = [] \/ exists c r, rest = c :: r /\ In c (s "_.")).
    { destruct R as [E | (c & r & E & C)].
      - left. apply app_inv_head with (l := language). now rewrite app_nil_r.
      - right. apply app_inv_head in E. eauto. }
    assert (X : language ++ rest <> []) by (destruct language; [congruence|discriminate]).
    rewrite (not_asked_some env _ S X), normalized; [|exact X|exact L|exact R']. cbn [bind].
    destruct (str_eqb (lower language) (s "de")) eqn:G.
    + apply lower_german in G. eexists. split; [reflexivity|]. tauto.
    + assert (N : ~ is_german language) by (intros H; apply lower_german in H; congruence). eexists. split; [reflexivity|]. tauto.
Qed.
Print Assumptions C138_silent_partial.

(** Not for all values: in the list [de:en] of [LANGUAGE], as desktops set it, and in [de@euro] the language
    is not recognized. *)
Theorem C138_list_refuted : forall german english, german <> english ->
  exists env x, asks_for env x /\ language_of x (s "de") /\ is_german (s "de") /\
    forall system, message env system german english = Ok english.
Proof.
  intros german english _. exists (fun v => if str_eqb v (s "LANGUAGE") then Some (s "de:en") else Some (s "de_DE.UTF-8")), (s "de:en").
  split; [|split; [|split]].
  - split; [discriminate|]. exists [], (s "LANGUAGE"), [s "LC_ALL"; s "LC_MESSAGES"; s "LANG"]. now repeat split.
  - exists (s ":en"). split; [reflexivity|]. split.
    + intros c [<- | [<- | []]]; apply memc_false; reflexivity.
    + right. exists 58%N, (s "en"). split; [reflexivity|]. apply memc_In. reflexivity.
  - now left.
  - intros system. reflexivity.
Qed.
Print Assumptions C138_list_refuted.
Theorem C138_variant_refuted : forall german english, german <> english ->
  exists env x, asks_for env x /\ language_of x (s "de") /\ is_german (s "de") /\
    forall system, message env system german english = Ok english.
Proof.
  intros german english _. exists (fun v => if str_eqb v (s "LANG") then Some (s "de@euro") else None), (s "de@euro").
  split; [|split; [|split]].
  - split; [discriminate|]. exists [s "LANGUAGE"; s "LC_ALL"; s "LC_MESSAGES"], (s "LANG"), [].
    split; [reflexivity|]. split; [reflexivity|]. repeat constructor.
  - exists (s "@euro"). split; [reflexivity|]. split.
    + intros c [<- | [<- | []]]; apply memc_false; reflexivity.
    + right. exists 64%N, (s "euro"). split; [reflexivity|]. apply memc_In. reflexivity.
  - now left.
  - intros system. reflexivity.
Qed.
Print Assumptions C138_variant_refuted.

(** Cases *)
Example C138_example :
  let env := fun v => if str_eqb v (s "LC_ALL") then Some (s "De_AT.UTF-8@euro") else if str_eqb v (s "LANGUAGE") then Some [] else Some (s "en") in
  asks_for env (s "De_AT.UTF-8@euro") /\ language_of (s "De_AT.UTF-8@euro") (s "De") /\
  message env (Ok None) (s "Ganzzahl") (s "Integer") = Ok (s "Ganzzahl") /\
  silent (fun _ => None) /\ message (fun _ => None) (Ok (Some (s "de_DE"))) (s "Ganzzahl") (s "Integer") = Ok (s "Ganzzahl").
Proof.
  split; [|split; [|split; [|split]]].
  - split; [discriminate|]. exists [s "LANGUAGE"], (s "LC_ALL"), [s "LC_MESSAGES"; s "LANG"].
    split; [reflexivity|]. split; [reflexivity|]. constructor; [now right|constructor].
  - exists (s "_AT.UTF-8@euro"). split; [reflexivity|]. split.
    + intros c [<- | [<- | []]]; apply memc_false; reflexivity.
    + right. exists 95%N, (s "AT.UTF-8@euro"). split; [reflexivity|]. apply memc_In. reflexivity.
  - reflexivity.
  - repeat constructor.
  - reflexivity.
Qed.
