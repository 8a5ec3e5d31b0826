(** * Lemmas about the patterns and regular expressions of SpecZshPattern.v. *)
From Verif Require Import Base PyStr SpecZshPattern.
From Coq Require Import Lia.
Open Scope list_scope.

(** ** Patterns *)
Definition chars (x : str) : list zpat := map PChar x.
Definition opaque (c : N) : Prop := ordinary c = true.

Lemma ordinary_not c : ordinary c = true -> N.eqb c LPAR = false /\ N.eqb c PIPE = false /\ N.eqb c RPAR = false /\ N.eqb c STAR = false.
Proof.
  intros H. repeat split; apply N.eqb_neq; intros ->; discriminate H.
Qed.
Lemma read_ordinary t r cur alts st : Forall opaque t -> read_pat (t ++ r) cur alts st = read_pat r (rev (chars t) ++ cur) alts st.
Proof.
  intros H. revert cur. induction H as [|c t Hc _ IH]; intros cur; [reflexivity|].
  destruct (ordinary_not c Hc) as (H1 & H2 & H3 & H4).
  cbn [app read_pat]. rewrite H1, H2, H3, H4. unfold opaque in Hc. rewrite Hc, IH. unfold chars. cbn [map rev]. rewrite <- app_assoc. reflexivity.
Qed.
(** the alternatives up to the closing parenthesis *)
Lemma read_alternatives l : l <> [] -> Forall (Forall opaque) l -> forall r alts cur0 alts0 st,
  read_pat (join [PIPE] l ++ RPAR :: r) [] alts ((cur0, alts0) :: st)
  = read_pat r (PGroup (rev alts ++ map chars l) :: cur0) alts0 st.
Proof.
  intros Hn H. induction H as [|x l Hx H IH]; [congruence|]. intros r alts cur0 alts0 st. destruct l as [|y l].
  - change (join [PIPE] [x]) with x. rewrite read_ordinary by exact Hx. rewrite app_nil_r.
    change (read_pat (RPAR :: r) (rev (chars x)) alts ((cur0, alts0) :: st))
      with (read_pat r (PGroup (rev (rev (rev (chars x)) :: alts)) :: cur0) alts0 st).
    cbn [rev map]. rewrite rev_involutive. reflexivity.
  - change (join [PIPE] (x :: y :: l)) with (x ++ [PIPE] ++ join [PIPE] (y :: l)). rewrite <- !app_assoc.
    rewrite read_ordinary by exact Hx. rewrite app_nil_r.
    change (read_pat ([PIPE] ++ join [PIPE] (y :: l) ++ RPAR :: r) (rev (chars x)) alts ((cur0, alts0) :: st))
      with (read_pat (join [PIPE] (y :: l) ++ RPAR :: r) [] (rev (rev (chars x)) :: alts) ((cur0, alts0) :: st)).
    rewrite IH by discriminate. cbn [rev map]. rewrite rev_involutive, <- app_assoc. reflexivity.
Qed.
(** the alternatives before another one *)
Lemma read_more l : l <> [] -> Forall (Forall opaque) l -> forall r alts f st,
  read_pat (join [PIPE] l ++ PIPE :: r) [] alts (f :: st) = read_pat r [] (rev (map chars l) ++ alts) (f :: st).
Proof.
  intros Hn H. induction H as [|x l Hx H IH]; [congruence|]. intros r alts f st. destruct l as [|y l].
  - change (join [PIPE] [x]) with x. rewrite read_ordinary by exact Hx. rewrite app_nil_r.
    change (read_pat (PIPE :: r) (rev (chars x)) alts (f :: st)) with (read_pat r [] (rev (rev (chars x)) :: alts) (f :: st)).
    rewrite rev_involutive. reflexivity.
  - change (join [PIPE] (x :: y :: l)) with (x ++ [PIPE] ++ join [PIPE] (y :: l)). rewrite <- !app_assoc.
    rewrite read_ordinary by exact Hx. rewrite app_nil_r.
    change (read_pat ([PIPE] ++ join [PIPE] (y :: l) ++ PIPE :: r) (rev (chars x)) alts (f :: st))
      with (read_pat (join [PIPE] (y :: l) ++ PIPE :: r) [] (rev (rev (chars x)) :: alts) (f :: st)).
    rewrite IH by discriminate. cbn [rev map]. rewrite rev_involutive, <- !app_assoc. reflexivity.
Qed.

Lemma tails_iff w r : In r (tails w) <-> exists u, w = u ++ r.
Proof.
  revert r. induction w as [|c w IH]; intros r; cbn [tails In].
  - split; [intros [<-|[]]; exists []; reflexivity|]. intros (u & E). symmetry in E. apply app_eq_nil in E as (_ & ->). auto.
  - rewrite IH. split.
    + intros [<-|(u & ->)]; [exists []; reflexivity|exists (c :: u); reflexivity].
    + intros ([|d u] & E); [left; exact E|right]. injection E as -> E. exists u. exact E.
Qed.
Lemma ends_cons n p w r : In r (ends (n :: p) w) <-> exists w', In w' (ends1 n w) /\ In r (ends p w').
Proof. cbn [ends]. apply in_flat_map. Qed.
Lemma ends_char c p w r : In r (ends (PChar c :: p) w) <-> exists w', w = c :: w' /\ In r (ends p w').
Proof.
  rewrite ends_cons. split.
  - intros (w' & H & Hr). destruct w as [|d w]; [destruct H|]. cbn [ends1] in H. destruct (N.eqb_spec c d) as [<-|]; [|destruct H].
    destruct H as [<-|[]]. exists w. auto.
  - intros (w' & -> & Hr). exists w'. split; [|exact Hr]. cbn [ends1]. rewrite N.eqb_refl. left. reflexivity.
Qed.
Lemma ends_chars x p w r : In r (ends (chars x ++ p) w) <-> exists w', w = x ++ w' /\ In r (ends p w').
Proof.
  revert w. induction x as [|c x IH]; intros w; cbn [chars map app].
  - split; [intros H; exists w; auto|intros (w' & -> & H); exact H].
  - rewrite ends_char. fold (chars x). split.
    + intros (w' & -> & H). apply IH in H as (w'' & -> & H). exists w''. auto.
    + intros (w' & -> & H). exists (x ++ w'). split; [reflexivity|]. apply IH. exists w'. auto.
Qed.
Lemma ends_group alts p w r : In r (ends (PGroup alts :: p) w) <-> exists a w', In a alts /\ In w' (ends a w) /\ In r (ends p w').
Proof.
  rewrite ends_cons. change (ends1 (PGroup alts) w) with (flat_map (fun a => ends a w) alts). split.
  - intros (w' & H & Hr). apply in_flat_map in H as (a & Ha & H). exists a, w'. auto.
  - intros (a & w' & Ha & H & Hr). exists w'. split; [|exact Hr]. apply in_flat_map. exists a. auto.
Qed.
Lemma ends_star p w r : In r (ends (PStar :: p) w) <-> exists u w', w = u ++ w' /\ In r (ends p w').
Proof.
  rewrite ends_cons. cbn [ends1]. split.
  - intros (w' & H & Hr). apply tails_iff in H as (u & ->). exists u, w'. auto.
  - intros (u & w' & -> & Hr). exists w'. split; [apply tails_iff; exists u; reflexivity|exact Hr].
Qed.
Lemma ends_nil w r : In r (ends [] w) <-> w = r.
Proof. cbn. split; [intros [H|[]]; exact H|auto]. Qed.
Lemma nil_in l : existsb is_nil l = true <-> In [] l.
Proof.
  rewrite existsb_exists. split; [intros ([|] & H & E); [exact H|discriminate E]|intros H; exists []; auto].
Qed.
(** a group of texts *)
Lemma ends_texts l p w r : In r (ends (PGroup (map chars l) :: p) w) <-> exists x w', In x l /\ w = x ++ w' /\ In r (ends p w').
Proof.
  rewrite ends_group. split.
  - intros (a & w' & Ha & H & Hr). apply in_map_iff in Ha as (x & <- & Hx). rewrite <- (app_nil_r (chars x)) in H.
    apply ends_chars in H as (w'' & -> & H). apply ends_nil in H as ->. exists x, w'. auto.
  - intros (x & w' & Hx & -> & Hr). exists (chars x), w'. split; [apply in_map, Hx|]. split; [|exact Hr].
    rewrite <- (app_nil_r (chars x)). apply ends_chars. exists w'. split; [reflexivity|]. apply ends_nil. reflexivity.
Qed.

(** ** Regular expressions *)
Lemma read_set l : Forall (fun c => in_brackets c = true) l -> forall r k acc,
  read_re (l ++ 93%N :: r) (Some k) acc = match rev l ++ k with [] => None | m => read_re r None ((ASet m, Once) :: acc) end.
Proof.
  intros H. induction H as [|c l Hc H IH]; intros r k acc.
  - cbn [app rev]. destruct k; reflexivity.
  - cbn [app read_re]. assert (N.eqb c 93 = false) as E. { apply N.eqb_neq. intros ->. discriminate Hc. }
    rewrite E, Hc, IH. cbn [rev]. rewrite <- app_assoc. reflexivity.
Qed.
Lemma read_bracket l : l <> [] -> Forall (fun c => in_brackets c = true) l -> forall r acc,
  read_re (91%N :: l ++ 93%N :: r) None acc = read_re r None ((ASet (rev l), Once) :: acc).
Proof.
  intros Hn H r acc. change (read_re (91%N :: l ++ 93%N :: r) None acc) with (read_re (l ++ 93%N :: r) (Some []) acc).
  rewrite read_set by exact H. rewrite app_nil_r. destruct (rev l) eqn:E; [|reflexivity].
  apply (f_equal (@rev N)) in E. rewrite rev_involutive in E. contradiction.
Qed.
Lemma re_cons i l w r : In r (re_ends (i :: l) w) <-> exists w', In w' (item_ends i w) /\ In r (re_ends l w').
Proof. cbn [re_ends]. apply in_flat_map. Qed.
Lemma one_of_iff a w r : In r (one_of a w) <-> exists c, w = c :: r /\ accepts a c = true.
Proof.
  destruct w as [|c w]; cbn [one_of]; [split; [intros []|intros (c & E & _); discriminate E]|].
  destruct (accepts a c) eqn:E; split.
  - intros [<-|[]]. exists c. auto.
  - intros (d & H & _). injection H as _ ->. left. reflexivity.
  - intros [].
  - intros (d & H & Hd). injection H as -> _. congruence.
Qed.
Lemma some_of_iff a w r : In r (some_of a w) <-> exists u, w = u ++ r /\ Forall (fun c => accepts a c = true) u.
Proof.
  revert r. induction w as [|c w IH]; intros r; cbn [some_of].
  - split; [intros [<-|[]]; exists []; auto|]. intros (u & E & _). symmetry in E. apply app_eq_nil in E as (_ & ->). left. reflexivity.
  - split.
    + intros [<-|H]; [exists []; auto|]. destruct (accepts a c) eqn:E; [|destruct H]. apply IH in H as (u & -> & Hu). exists (c :: u). auto.
    + intros ([|d u] & E & Hu); [left; exact E|right]. injection E as -> ->. inversion Hu; subst. rewrite H1. apply IH. exists u. auto.
Qed.
Lemma memc_iff c l : memc c l = true <-> In c l.
Proof.
  unfold memc. rewrite existsb_exists. split; [intros (d & H & E); apply N.eqb_eq in E as ->; exact H|intros H; exists c; split; [exact H|apply N.eqb_refl]].
Qed.
Lemma re_nil w r : In r (re_ends [] w) <-> w = r.
Proof. cbn. split; [intros [H|[]]; exact H|auto]. Qed.
