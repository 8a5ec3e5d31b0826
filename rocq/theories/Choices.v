(** * Model of the completion of choices: zsh_complete.py 16, 66-146 ([ZshCompleteChoices]),
    bash_complete.py 93-114 ([CompgenW]), 274-275, fish_complete.py 98-147 ([FishCompleteChoices]).

    Simplifications: [str] of a value that is not a string is a parameter ([show]); keys of a
    dictionary whose texts agree stay different entries (fish_complete.py 112 would merge them). *)
From Verif Require Import Base Value StrUtils Shell ZshUtils Helpers.
Open Scope list_scope.

(** the argument of [choices]: a list, or a dictionary with descriptions *)
Inductive choices := CList (l : list value) | CDict (d : list (value * value)).

Section Choices.
Variable show : value -> str.
(** [str(value)] *)
Definition py_str (v : value) : str := match v with VStr x => x | _ => show v end.
(** zsh_complete.py 91-92, fish_complete.py 109-110 *)
Definition str0 (v : value) : str := match v with VNone => [] | _ => py_str v end.

(** zsh_complete.py 16, and the same in fish_complete.py *)
Definition CHOICES_INLINE_THRESHOLD : nat := 80.

(** ** zsh *)

(** An action string, or the code of a function whose name is the action string. *)
Inductive zsh_output := ZAction (text : str) | ZFunction (code : str).

(** [escape_colon] (zsh_utils.py 15-18) of a value: only strings have [replace] *)
Definition escape_colon_value (v : value) : res str :=
  match v with VStr x => Ok (escape_colon x) | _ => Err AttributeError end.

(** zsh_complete.py 83-95; [metavar] is [option.metavar or ''] *)
Definition zsh_list_function (metavar : str) (line_length : Z) (l : list value) : res str :=
  do items <- map_res escape_colon_value l;
  Ok (s "local items=(" ++ [LF]
      ++ indent (join_with_wrap [SP] [LF] (line_length - 2) (map quote items) []) 2
      ++ [LF] ++ s ")" ++ [LF; LF]
      ++ s "_describe -- " ++ quote metavar ++ s " items").

(** zsh_complete.py 74-81 *)
Definition zsh_list_action (metavar : str) (line_length : Z) (l : list value) : res zsh_output :=
  let action := quote (s "(" ++ join [SP] (map (fun v => quote (py_str v)) l) ++ s ")") in
  if (List.length action <=? CHOICES_INLINE_THRESHOLD)%nat then Ok (ZAction action)
  else do code <- zsh_list_function metavar line_length l; Ok (ZFunction code).

(** zsh_complete.py 114-126 *)
Definition zsh_dict_line (kv : value * value) : str :=
  s "  " ++ quote (escape_colon (py_str (fst kv)))
  ++ (if truthy (snd kv) then s ":" ++ quote (py_str (snd kv)) else []) ++ [LF].
Definition zsh_dict_function (metavar : str) (d : list (value * value)) : str :=
  s "local items=(" ++ [LF] ++ concat (map zsh_dict_line d) ++ s ")" ++ [LF; LF]
  ++ s "_describe -- " ++ quote metavar ++ s " items".

(** zsh_complete.py 90-112 *)
Definition zsh_dict_item (kv : value * value) : str :=
  quote (str0 (fst kv)) ++ (match str0 (snd kv) with [] => [] | desc => s ":" ++ quote desc end).
Definition zsh_dict_action (metavar : str) (d : list (value * value)) : zsh_output :=
  let colon := existsb (fun kv => memc COLON (str0 (fst kv)) || memc COLON (str0 (snd kv))) d in
  let action := quote (s "((" ++ join [SP] (map zsh_dict_item d) ++ s "))") in
  if negb colon && (List.length action <=? CHOICES_INLINE_THRESHOLD)%nat then ZAction action
  else ZFunction (zsh_dict_function metavar d).

(** zsh_complete.py 128-132 *)
Definition zsh_choices (metavar : str) (line_length : Z) (ch : choices) : res zsh_output :=
  match ch with
  | CDict d => Ok (zsh_dict_action metavar d)
  | CList l => zsh_list_action metavar line_length l
  end.

(** ** fish *)

(** The argument of [complete -f -a], or the code of a function [f] whose call [(f)] is the
    argument. *)
Inductive fish_output := FArgument (text : str) | FFunction (code : str).

(** fish_complete.py 105-106, 108-115 *)
Definition fish_inline (ch : choices) : str :=
  match ch with
  | CList l => join [SP] (map (fun v => quote (py_str v)) l)
  | CDict d => join [SP] (map (fun kv => quote (py_str (fst kv)) ++ [BS; 116%N] ++ quote (str0 (snd kv))) d)
  end.

(** [code.rstrip(' \\\n')] *)
Definition rstrip_continuation (x : str) : str := rstrip_p (fun c => memc c [SP; BS; LF]) x.

(** fish_complete.py 117-122, 124-130 *)
Definition fish_code (line_length : Z) (ch : choices) : str :=
  match ch with
  | CList l =>
      rstrip_continuation (s "printf '%s\n' \" ++ [LF]
        ++ indent (join_with_wrap [SP] [SP; BS; LF] (line_length - 2) (map (fun v => quote (py_str v)) l) []) 2)
  | CDict d =>
      rstrip_continuation (s "printf '%s\t%s\n' \" ++ [LF]
        ++ concat (map (fun kv => s "  " ++ quote (py_str (fst kv)) ++ [SP] ++ quote (str0 (snd kv)) ++ [SP; BS; LF]) d))
  end.

(** fish_complete.py 132-142 *)
Definition fish_choices (line_length : Z) (ch : choices) : fish_output :=
  let arg := fish_inline ch in
  if (List.length arg <=? CHOICES_INLINE_THRESHOLD)%nat then FArgument arg
  else FFunction (fish_code line_length ch).

(** ** Bash *)

(** bash_complete.py 96-111; [values_name] is the name of the helper function [values].  Iterating
    over a dictionary yields its keys.  [any] of the values that need quotes: an empty string
    counts as false. *)
Definition bash_values (ch : choices) : list str :=
  match ch with CList l => map py_str l | CDict d => map (fun kv => py_str (fst kv)) d end.
Definition compgen_w (values_name : str) (append : bool) (values : list str) : str :=
  if negb (existsb (fun x => match x with [] => false | _ => true end) (filter needs_quote values)) then
    s "COMPREPLY" ++ (if append then s "+" else []) ++ s "=($(compgen -W " ++ quote (join [SP] values)
    ++ s " -- ""$cur""))"
  else values_name ++ s " " ++ (if append then s "-a " else []) ++ s "-- " ++ join_quoted values [SP].
Definition bash_choices (values_name : str) (append : bool) (ch : choices) : str :=
  compgen_w values_name append (bash_values ch).
End Choices.
