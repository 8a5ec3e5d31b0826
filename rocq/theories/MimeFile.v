(** * Model of the completers [mime_file] and [history]: bash_helpers.py 588-598, 690-728; zsh_helpers.py
    453-492; fish_helpers.py 910-938.

    What [file] and [grep -o] print is given. *)
From Verif Require Import Base Exec.
Open Scope list_scope.

Definition is_blank (c : N) : bool := N.eqb c SP || N.eqb c TAB.
(** [while read -r x]: blanks at both ends are removed *)
Definition read_stripped (output : str) : list str := map (strip_p is_blank) (read_lines output).

(** ** [history]; [output]: what [grep -E -o] prints *)

(** bash_helpers.py 588-598; [q]: [printf %q]; the file of the history exists *)
Definition bash_history (q : str -> str) (cur output : str) : list str :=
  map q (filter (starts_with cur) (read_stripped output)).
(** zsh_helpers.py 453-461: what is given to [compadd] *)
Definition zsh_history (output : str) : list str := read_stripped output.
(** fish_helpers.py 910-912: the output itself *)
Definition fish_history (output : str) : str := output.

(** ** [mime_file]; [output]: what [file -L -i] prints; [fits]: [grep -q -E] with the pattern *)

(** The text in front of the last colon, and the text behind it: [${line%:*}], [${line##*:}]; without a colon
    both are the line. *)
Fixpoint until_colon (x : str) : str * option str :=
  match x with
  | [] => ([], None)
  | c :: x' => if N.eqb c COLON then ([], Some x') else let (a, r) := until_colon x' in (c :: a, r)
  end.
Definition at_last_colon (line : str) : str * str :=
  match until_colon (rev line) with (a, Some r) => (rev r, rev a) | (_, None) => (line, line) end.
(** [== *x*] *)
Fixpoint has_infix (p x : str) : bool :=
  starts_with p x || match x with [] => false | _ :: x' => has_infix p x' end.
Definition is_directory (mime : str) : bool := has_infix (s "inode/directory") mime.

Definition is_octal (c : N) : bool := ((48 <=? c) && (c <=? 55))%N.
Definition octal (a b c : N) : N := ((a - 48) * 64 + (b - 48) * 8 + (c - 48))%N.
(** [perl -pe 's/\\([0-7]{3})/chr(oct($1))/ge']; characters are bytes *)
Fixpoint decode (x : str) : str :=
  match x with
  | b :: ((c1 :: c2 :: c3 :: rest) as x') =>
      if N.eqb b BS && is_octal c1 && is_octal c2 && is_octal c3 then octal c1 c2 c3 :: decode rest else b :: decode x'
  | b :: x' => b :: decode x'
  | [] => []
  end.
(** [$(..)] removes newlines at the end. *)
Definition command_substitution (x : str) : str := rstrip_p (N.eqb LF) x.

(** The body of the loop, without the last condition: bash_helpers.py 710-721, zsh_helpers.py 477-490 *)
Definition mime_line (fits : str -> bool) (line : str) : list str :=
  let (file, mime) := at_last_colon line in
  if is_directory mime || fits mime then
    let file := if memc BS file then command_substitution (decode file) else file in
    [if is_directory mime then file ++ s "/" else file]
  else [].
(** bash_helpers.py 707-727; [typed]: the text of the word without quotes ([dequote], see C111) *)
Definition bash_mime_file (q : str -> str) (fits : str -> bool) (typed output : str) : list str :=
  map q (filter (starts_with typed) (flat_map (mime_line fits) (read_stripped output))).
(** zsh_helpers.py 475-491: what is given to [compadd] *)
Definition zsh_mime_file (fits : str -> bool) (output : str) : list str :=
  flat_map (mime_line fits) (read_stripped output).
(** fish_helpers.py 928-937: Fish's [read] keeps blanks; simplification: every line has a colon *)
Definition fish_mime_line (fits : str -> bool) (line : str) : str :=
  let (file, mime) := at_last_colon line in
  if is_directory mime then file ++ s "/" ++ [LF]
  else if fits mime then file ++ [LF]
  else [].
Definition fish_mime_file (fits : str -> bool) (output : str) : str := flat_map (fish_mime_line fits) (read_lines output).
