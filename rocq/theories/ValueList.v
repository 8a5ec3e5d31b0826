(** * Model of lists of values: bash_complete.py 393-407, zsh_complete.py 474-494, fish_complete.py
    243-268; the helper functions [value_list] in Bash (bash_helpers.py 251-315) and [list] in fish
    (fish_helpers.py 582-646). *)
From Verif Require Import Base PyStr Shell ZshUtils Choices BashWords.
Open Scope list_scope.

(** The values: a list, or a dictionary with descriptions.  Validation makes sure that all of them are
    strings (scheme_validator.py 373-396). *)
Inductive items := Plain (l : list str) | Described (l : list (str * str)).
Record value_list := ValueList { vl_separator : str; vl_duplicates : bool; vl_items : items }.
Definition names (i : items) : list str := match i with Plain l => l | Described l => map fst l end.

(** ** Bash *)

(** bash_complete.py 393-407, 68-84; [helper]: the name of the helper function *)
Definition bash_args (helper : str) (v : value_list) : list str :=
  [helper] ++ (if vl_duplicates v then [s "-d"] else []) ++ [vl_separator v] ++ names (vl_items v).
Definition bash_text (helper : str) (v : value_list) : str := join_quoted (bash_args helper v) [SP].

(** [IFS="$separator" read -r -a]: fields of the first line.  Blanks, tabulators and newlines are
    collapsed as separators; another separator ends a field. *)
Definition first_line (x : str) : str := hd [] (split_c LF x).
Definition read_fields (sep : N) (x : str) : list str :=
  let fields := split_c sep (first_line x) in
  if memc sep [SP; TAB; LF] then filter (fun w => match w with [] => false | _ => true end) fields
  else match last fields [] with [] => removelast fields | _ => fields end.
(** [${x%"$suffix"}] *)
Definition without_suffix (suffix x : str) : str :=
  if ends_with suffix x then firstn (List.length x - List.length suffix) x else x.

(** bash_helpers.py 252-314; [typed]: what [dequote] gives for the word; [may]: whether [-d] is
    understood ([#ifdef duplicates]).  Simplification: the separator is one character (validation),
    otherwise there is no reply. *)
Definition bash_value_list (may : bool) (typed : dequoted) (args : list str) : list str :=
  let '(duplicates, args) :=
    match args with
    | a :: args' => if may && str_eqb a (s "-d") then (true, args') else (false, args)
    | [] => (false, [])
    end in                                                                                  (* 252-255 *)
  match args with
  | [separator] :: values =>                                                                (* 256 *)
      match dq_result typed with
      | [] => values                                                                        (* 263-266 *)
      | cur_unquoted =>
          let having_values := read_fields separator cur_unquoted in                        (* 270 *)
          let remaining_values :=
            if duplicates then values else filter (fun v => negb (mems v having_values)) values in   (* 272-288 *)
          let cur_stripped := match dq_break typed with Some n => skipn n cur_unquoted | None => cur_unquoted end in   (* 292-295 *)
          if N.eqb (last cur_unquoted 0%N) separator then map (fun v => cur_stripped ++ v) remaining_values   (* 297-300 *)
          else match remaining_values with
               | [] => []
               | _ =>
                   let last_value := last having_values [] in
                   if mems last_value values then [cur_stripped ++ [separator]]             (* 302-303 *)
                   else if (0 <? List.length having_values)%nat then                        (* 304-313 *)
                     let cur_stripped := without_suffix last_value cur_stripped in
                     map (fun v => cur_stripped ++ v) (filter (starts_with last_value) remaining_values)
                   else []
               end
      end
  | _ => []
  end.

(** ** fish *)

(** fish_complete.py 251-260 *)
Definition fish_values_code (i : items) : str :=
  match i with
  | Described l =>
      rstrip_continuation (s "printf '%s\t%s\n' \" ++ [LF]
        ++ concat (map (fun kv => s "  " ++ quote (fst kv) ++ [SP] ++ quote (snd kv) ++ [SP; BS; LF]) l))
  | Plain l =>
      rstrip_continuation (s "printf '%s\n' \" ++ [LF] ++ concat (map (fun v => s "  " ++ quote v ++ [SP; BS; LF]) l))
  end.
(** fish_complete.py 264-268; [func]: the function with this code *)
Definition fish_args (helper func : str) (v : value_list) : list str :=
  if vl_duplicates v then [s "__fish_complete_list"; vl_separator v; func] else [helper; vl_separator v; func].

(** fish_helpers.py 583-645; [printed]: what the function prints, as values and descriptions.
    [case "*$separator"] is a pattern: a star in it matches anything.  Simplification: a question mark
    stands for itself (as it does since fish 4.0). *)
Definition fish_list (duplicates : bool) (separator : N) (comp : str) (printed : list (str * str)) : list (str * str) :=
  match comp with
  | [] => printed                                                                           (* 594-597 *)
  | _ =>
      let having_values := split_c separator comp in                                        (* 614 *)
      let remaining :=
        if duplicates then printed else filter (fun vd => negb (mems (fst vd) having_values)) printed in   (* 617-628 *)
      if N.eqb separator STAR || N.eqb (last comp 0%N) separator                            (* 631 *)
      then map (fun vd => (comp ++ fst vd, snd vd)) remaining
      else if memc separator comp then                                                      (* 635-640 *)
        let comp := join [separator] (removelast having_values) in
        map (fun vd => (comp ++ [separator] ++ fst vd, snd vd)) remaining
      else remaining                                                                        (* 641-644 *)
  end.

(** ** zsh *)

(** zsh_complete.py 475-494; [metavar]: [ctxt.option.metavar or '']; [func]: the name of the function
    for the inner command *)
Definition zsh_values (i : items) : list str :=
  match i with
  | Described l => map (fun kv => escape_square_brackets (fst kv) ++ s "[" ++ escape_square_brackets (snd kv) ++ s "]") l
  | Plain l => map escape_square_brackets l
  end.
Definition zsh_inner (metavar : str) (v : value_list) : list str := [s "_values"; metavar] ++ zsh_values (vl_items v).
Definition zsh_args (metavar func : str) (v : value_list) : list str :=
  if negb (vl_duplicates v) then [s "_values"; s "-s"; vl_separator v; metavar] ++ zsh_values (vl_items v)
  else if str_eqb (vl_separator v) (s ",") then [s "_sequence"; s "-d"; func]
  else [s "_sequence"; s "-s"; vl_separator v; s "-d"; func].
