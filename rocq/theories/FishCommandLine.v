(** * Model of the completion of a command line in one argument in Fish: fish_helpers.py 940-971
    ([subtract_prefix_suffix]), 973-981 ([commandline_string]) *)
From Verif Require Import Base PyStr KeyValueRun.
Open Scope list_scope.

(** 951-968: the loop, from [k] down to 1.  Simplification: [echo $s1] prints the text as it is, also if it
    is an option of [echo]. *)
Fixpoint subtract_loop (k : nat) (s1 s2 : str) : str :=
  match k with
  | O => s1                                                                                 (* 970 *)
  | S k' =>
      if str_eqb (skipn (List.length s1 - k) s1) (firstn k s2) then firstn (List.length s1 - k) s1   (* 953-964 *)
      else subtract_loop k' s1 s2                                                           (* 967 *)
  end.
Definition subtract_prefix_suffix (s1 s2 : str) : str :=
  subtract_loop (Nat.min (List.length s1) (List.length s2)) s1 s2.                          (* 944-951 *)
(** 973-981; [complete]: the lines [complete -C "$comp"] prints.  A line without a tabulator has no second
    part. *)
Definition commandline_string (complete : str -> list str) (comp : str) : list str :=
  map (fun line =>
    let candidate := before_first TAB line in
    subtract_prefix_suffix comp candidate ++ candidate ++ [TAB] ++ after_first TAB line) (complete comp).
