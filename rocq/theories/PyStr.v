(** * More of Python's [str]: replacement of substrings and decimal numbers. *)
From Coq Require Import DecimalNat.
From Verif Require Import Base.
Open Scope list_scope.

(** [x.replace(old, new)] for a non-empty [old]: non-overlapping occurrences, from the left.
    [skip] characters belong to the occurrence just replaced. *)
Fixpoint replace_loop (old new : str) (skip : nat) (x : str) : str :=
  match x with
  | [] => []
  | c :: x' =>
      match skip with
      | S k => replace_loop old new k x'
      | O =>
          if starts_with old x then new ++ replace_loop old new (List.length old - 1) x'
          else c :: replace_loop old new 0 x'
      end
  end.
Definition replace_s (old new x : str) : str := replace_loop old new 0 x.

(** [str(n)], or [%d], of a natural number *)
Fixpoint uint_str (d : Decimal.uint) : str :=
  match d with
  | Decimal.Nil => []
  | Decimal.D0 d => 48%N :: uint_str d
  | Decimal.D1 d => 49%N :: uint_str d
  | Decimal.D2 d => 50%N :: uint_str d
  | Decimal.D3 d => 51%N :: uint_str d
  | Decimal.D4 d => 52%N :: uint_str d
  | Decimal.D5 d => 53%N :: uint_str d
  | Decimal.D6 d => 54%N :: uint_str d
  | Decimal.D7 d => 55%N :: uint_str d
  | Decimal.D8 d => 56%N :: uint_str d
  | Decimal.D9 d => 57%N :: uint_str d
  end.
Definition show_nat (n : nat) : str := uint_str (Nat.to_uint n).
(** [str(n)] of an integer *)
Definition show_Z (z : Z) : str :=
  if (z <? 0)%Z then DASH :: show_nat (Z.abs_nat z) else show_nat (Z.abs_nat z).

Lemma uint_str_inj a : forall b, uint_str a = uint_str b -> a = b.
Proof.
  induction a; destruct b; cbn [uint_str]; intros H; try discriminate; try reflexivity;
    injection H as H; f_equal; apply IHa; exact H.
Qed.
Lemma show_nat_inj a b : show_nat a = show_nat b -> a = b.
Proof.
  unfold show_nat. intros H%uint_str_inj.
  rewrite <- (Unsigned.of_to a), <- (Unsigned.of_to b). now rewrite H.
Qed.
Lemma uint_str_digits d : forallb is_digit (uint_str d) = true.
Proof. induction d; cbn [uint_str forallb]; try rewrite IHd; reflexivity. Qed.
Lemma show_nat_digits n : forallb is_digit (show_nat n) = true.
Proof. apply uint_str_digits. Qed.
Lemma show_nat_nonempty n : show_nat n <> [].
Proof.
  unfold show_nat. intros H.
  assert (H0 : Nat.to_uint n = Decimal.Nil) by (apply uint_str_inj; exact H).
  pose proof (Unsigned.of_to n) as E. rewrite H0 in E. cbn in E. subst n. discriminate H0.
Qed.
Example show_nat_ex : map show_nat [0; 7; 10; 120]%nat = [s "0"; s "7"; s "10"; s "120"].
Proof. reflexivity. Qed.
Example replace_s_ex : replace_s (s "aa") (s "b") (s "aaaxaa") = s "baxb".
Proof. reflexivity. Qed.
