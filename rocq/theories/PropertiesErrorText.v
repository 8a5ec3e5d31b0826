(** * C142: errors in definitions tell the place *)
From Coq Require Import String DecimalNat.
From Verif Require Import Base PyStr ErrorText SpecErrorText.
Open Scope string_scope.
Open Scope list_scope.

Lemma number_uint d : forall n, number_of (uint_str d) (N.of_nat n) = N.of_nat (Nat.of_uint_acc d n).
Proof.
  induction d; intros n; [reflexivity|..]; cbn [uint_str number_of Nat.of_uint_acc]; rewrite <- IHd; f_equal; rewrite Nat.tail_mul_spec; lia.
Qed.
Lemma number_shown n : number_of (show_nat n) 0 = N.of_nat n.
Proof.
  unfold show_nat. change 0%N with (N.of_nat 0). rewrite number_uint. f_equal. exact (Unsigned.of_to n).
Qed.

(** The text of an error tells the place of the value, counted from one, and the message; without a place it
    is the message. *)
Theorem C142_text : forall text line column message,
  (error_text (Some (from_mark line column)) message = text -> tells text (N.of_nat line + 1) (N.of_nat column + 1) message) /\
  error_text None message = message.
Proof.
  intros text line column message. split; [|reflexivity]. intros <-. unfold from_mark.
  exists (show_nat (line + 1)), (show_nat (column + 1)).
  split; [|split; [apply show_nat_nonempty|split; [apply show_nat_nonempty|split; [|split]]]].
  - unfold error_text, position_string. change (s "line ") with (108%N :: s "ine "). cbn [app]. now rewrite <- !app_assoc.
  - intros c C. apply in_app_iff in C as [C | C].
    + pose proof (show_nat_digits (line + 1)) as D. rewrite forallb_forall in D. now apply D.
    + pose proof (show_nat_digits (column + 1)) as D. rewrite forallb_forall in D. now apply D.
  - rewrite number_shown. lia.
  - rewrite number_shown. lia.
Qed.
Print Assumptions C142_text.

(** A text of digits up to something else is unique. *)
Lemma digits_end (a a' r r' : str) : (forall c, In c a -> is_digit c = true) -> (forall c, In c a' -> is_digit c = true) ->
  (exists c t, r = c :: t /\ is_digit c = false) -> (exists c t, r' = c :: t /\ is_digit c = false) -> a ++ r = a' ++ r' -> a = a' /\ r = r'.
Proof.
  intros A A' (c & t & -> & C) (c' & t' & -> & C'). revert a' A'. induction a as [|x a IH]; intros [|y a'] A' E; cbn [app] in E.
  - now split.
  - injection E as -> _. rewrite (A' y) in C by now left. discriminate.
  - injection E as -> _. rewrite (A c') in C' by now left. discriminate.
  - injection E as -> E. destruct (IH (fun d D => A d (or_intror D)) a' (fun d D => A' d (or_intror D)) E) as (-> & Q). now split.
Qed.

(** A text tells at most one place and message: two different errors never look the same. *)
Theorem C142_unique : forall text l c m l' c' m', tells text l c m -> tells text l' c' m' -> l = l' /\ c = c' /\ m = m'.
Proof.
  intros text l c m l' c' m' (a & b & E & _ & _ & D & <- & <-) (a' & b' & E' & _ & _ & D' & <- & <-). rewrite E in E'.
  apply app_inv_head in E'. apply digits_end in E' as (-> & E').
  - apply app_inv_head in E'. apply digits_end in E' as (-> & E').
    + apply app_inv_head in E'. now repeat split.
    + intros x X. apply D. apply in_app_iff. now right.
    + intros x X. apply D'. apply in_app_iff. now right.
    + exists 58%N, (s " " ++ m). now split.
    + exists 58%N, (s " " ++ m'). now split.
  - intros x X. apply D. apply in_app_iff. now left.
  - intros x X. apply D'. apply in_app_iff. now left.
  - exists 44%N, (s " column " ++ b ++ s ": " ++ m). now split.
  - exists 44%N, (s " column " ++ b' ++ s ": " ++ m'). now split.
Qed.
Print Assumptions C142_unique.

Example C142_example : error_text (Some (from_mark 11 4)) (s "Empty list") = s "line 12, column 5: Empty list" /\
  tells (s "line 12, column 5: Empty list") 12 5 (s "Empty list").
Proof. split; [reflexivity|]. exact (proj1 (C142_text (s "line 12, column 5: Empty list") 11 4 (s "Empty list")) eq_refl). Qed.
