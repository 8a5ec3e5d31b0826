(** * Model of the helpers that complete keys and values in Bash: bash_helpers.py 317-403
    ([key_value_list]), 405-439 ([key_value_pair]), 441-472 ([key_value_pair_exec]), 474-571
    ([key_value_list_exec]).

    The function that completes a value is a parameter. *)
From Verif Require Import Base BashWords KeyValue ValueList Exec.
Open Scope list_scope.

(** [${x##*[$strip_chars]}]; nothing is removed if [strip_chars] is empty.  Simplification: each of the
    characters stands for itself in the pattern. *)
Fixpoint after_last (chars x : str) : str :=
  match x with
  | [] => []
  | c :: x' => if existsb (fun d => memc d chars) x' then after_last chars x' else if memc c chars then x' else x
  end.
(** [${x%%"$sep"*}], [${x#*"$sep"}] *)
Fixpoint before_first (sep : N) (x : str) : str :=
  match x with [] => [] | c :: x' => if N.eqb c sep then [] else c :: before_first sep x' end.
Fixpoint after_first (sep : N) (x : str) : str :=
  match x with [] => [] | c :: x' => if N.eqb c sep then x' else after_first sep x' end.
Definition behind_first (sep : N) (x : str) : str := if memc sep x then after_first sep x else x.
(** 329-333, 414-417, 446-449, 505-509 *)
Definition strip_chars (breaks : str) (seps : list N) (cur : str) : str :=
  match cur with
  | c :: _ => if N.eqb c DQ || N.eqb c SQ then [] else filter (fun d => memc d breaks) seps
  | [] => filter (fun d => memc d breaks) seps
  end.

(** 334-402, 510-570: both helpers for lists.  [arrays]: the associative arrays, by keys (the order of
    the keys is not defined in Bash); [complete key value]: what the command for the value of a key
    puts into COMPREPLY.  Simplification: separators are one character (validation). *)
Definition list_replies (breaks : str) (sep1 sep2 : N) (arrays : list (str * (str * str))) (complete : str -> str -> list str) (cur : str) : list str :=
  let strip := strip_chars breaks [sep1; sep2] cur in
  let t := dq_result (dequote breaks cur) in
  match t with
  | [] => map fst arrays                                                                   (* 337-340 *)
  | _ =>
      let having_pairs := read_fields sep1 t in                                            (* 345 *)
      let having := having_keys arrays (map (before_first sep2) having_pairs) in           (* 347-351 *)
      let remaining := filter (fun key => negb (mems key having)) (map fst arrays) in      (* 353-366 *)
      if N.eqb (last t 0%N) sep1 then map (app (after_last strip t)) remaining             (* 370-375 *)
      else
        let pair := after_last [sep1] t in                                                 (* 377 *)
        if memc sep2 pair then
          let value := behind_first sep2 pair in                                           (* 379-380 *)
          let cut := firstn (List.length t - List.length value) t in                       (* 384 *)
          map (app (after_last strip cut)) (complete (before_first sep2 pair) value)       (* 381-391 *)
        else
          let cut := without_suffix pair (after_last strip t) in                           (* 393-394 *)
          map (app cut) (filter (starts_with pair) remaining)                              (* 396-400 *)
  end.
(** 317-327, 381-382: [call func value]: the command of the key; for other keys there is none. *)
Definition key_value_list (breaks : str) (call : str -> str -> list str) (sep1 sep2 : N) (args : list str) (cur : str) : list str :=
  let arrays := triples args in
  list_replies breaks sep1 sep2 arrays (fun key value => match element arrays key with Some (func, _) => call func value | None => [] end) cur.

(** ** Lists whose keys are printed by a command *)

(** [IFS=$'\t' read -r key desc exclude]: three fields; tabulators are white space *)
Definition read_three (line : str) : str * str * str :=
  let (key, rest) := read_two line in let (desc, exclude) := first_field rest in (key, desc, exclude).
(** 482-503: one line; [takes_arg] is not used. *)
Definition printed_key (line : str) : str * (str * str) :=
  let '(key, _, exclude) := read_three line in
  let key := if ends_with (s "=") key then firstn (List.length key - 1) key
             else if ends_with (s "=?") key then firstn (List.length key - 2) key else key in
  match key with
  | c :: key' => if N.eqb c STAR then (key', ([], exclude)) else (key, ([], exclude ++ SP :: key))
  | [] => (key, ([], exclude ++ SP :: key))
  end.
(** 474-571; [output key]: what the command prints for the values of a key *)
Definition key_value_list_exec (breaks : str) (q : str -> str) (sep1 sep2 : N) (printed : str) (output : str -> str) (cur : str) : list str :=
  list_replies breaks sep1 sep2 (map printed_key (read_lines printed)) (fun key value => bash_exec breaks q (output key) value) cur.

(** ** Pairs: 418-438, 450-471.  [keys cur]: what is offered for the key; [complete key]: what completes
    its value, if the key is known *)
Definition pair_replies (breaks : str) (sep : N) (keys : str -> list str) (complete : str -> option (str -> list str)) (cur : str) : list str :=
  let strip := strip_chars breaks [sep] cur in
  let t := dq_result (dequote breaks cur) in
  if negb (memc sep t) then keys t
  else match complete (before_first sep t) with
       | Some f =>
           let value := behind_first sep t in
           map (app (after_last strip (firstn (List.length t - List.length value) t))) (f value)
       | None => []
       end.
(** 405-412, and 8-21 ([values]).  Simplification: the first key is not [-a] or [--], which are options
    there. *)
Fixpoint couples (args : list str) : list (str * str) :=
  match args with key :: func :: args' => (key, func) :: couples args' | _ => [] end.
Definition values (q : str -> str) (words : list str) (cur : str) : list str := map q (filter (starts_with cur) words).
Definition key_value_pair (breaks : str) (q : str -> str) (call : str -> str -> list str) (sep : N) (args : list str) (cur : str) : list str :=
  let funcs := couples args in
  pair_replies breaks sep (values q (map fst funcs))
    (fun key => option_map (fun x => call (snd x)) (find (fun x => str_eqb (fst x) key) (rev funcs))) cur.
(** 441-472 *)
Definition key_value_pair_exec (breaks : str) (q : str -> str) (sep : N) (printed : str) (output : str -> str) (cur : str) : list str :=
  pair_replies breaks sep (bash_exec breaks q printed) (fun key => Some (bash_exec breaks q (output key))) cur.
