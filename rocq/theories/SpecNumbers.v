(** * Specification for C125: numbers, and the words of zsh's [_numbers] *)
From Verif Require Import Base.
Open Scope string_scope.
Open Scope list_scope.

(** A number: digits, commas and dots *)
Definition digits_and_marks : str := s "0123456789,.".
Definition is_number (x : str) : Prop := x <> [] /\ Forall (fun c => In c digits_and_marks) x.
(** What follows a number does not continue it. *)
Definition ends_number (x : str) : Prop := match x with [] => True | c :: _ => ~ In c digits_and_marks end.

(** The words of [_numbers [-f] [-l min] [-m max] description [suffix:description] ...].  A
    word that begins with a dash is an option, as long as there was no other word. *)
Record numbers_call := NumbersCall { nc_float : bool; nc_min : option str; nc_max : option str; nc_words : list str }.
Fixpoint read_numbers (fuel : nat) (c : numbers_call) (words : list str) : option numbers_call :=
  match fuel, words with
  | O, _ => None
  | _, [] => Some c
  | S fuel', w :: rest =>
      if str_eqb w (s "-f") then read_numbers fuel' (NumbersCall true (nc_min c) (nc_max c) []) rest
      else if str_eqb w (s "-l") then match rest with x :: rest' => read_numbers fuel' (NumbersCall (nc_float c) (Some x) (nc_max c) []) rest' | [] => None end
      else if str_eqb w (s "-m") then match rest with x :: rest' => read_numbers fuel' (NumbersCall (nc_float c) (nc_min c) (Some x) []) rest' | [] => None end
      else if starts_with (s "-") w then None
      else Some (NumbersCall (nc_float c) (nc_min c) (nc_max c) words)
  end.
