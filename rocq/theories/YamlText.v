(** * Model of the export as text: yaml_source.py 23-134, json_source.py 22-27, and [json.dumps] of the
    standard library, which both use. *)
From Verif Require Import Base PyStr Value Cli StrUtils DictSource.
Open Scope list_scope.

(** ** [json.dumps(value)] with its defaults: ASCII only, [", "] and [": "] as separators *)
Definition hex_digit (n : N) : N := if (n <? 10)%N then (48 + n)%N else (87 + n)%N.
Definition hex4 (n : N) : str :=
  [hex_digit (n / 4096 mod 16); hex_digit (n / 256 mod 16); hex_digit (n / 16 mod 16); hex_digit (n mod 16)]%N.
Definition escape_u (n : N) : str := BS :: 117%N :: hex4 n.
(** [ESCAPE_ASCII], [ESCAPE_DCT] of json/encoder.py *)
Definition escape_char (c : N) : str :=
  if N.eqb c DQ then [BS; DQ]
  else if N.eqb c BS then [BS; BS]
  else if N.eqb c LF then [BS; 110%N]
  else if N.eqb c CR then [BS; 114%N]
  else if N.eqb c TAB then [BS; 116%N]
  else if N.eqb c 12 then [BS; 102%N]
  else if N.eqb c 8 then [BS; 98%N]
  else if ((32 <=? c) && (c <=? 126))%N then [c]
  else if (c <? 65536)%N then escape_u c
  else escape_u (55296 + (c - 65536) / 1024 mod 1024) ++ escape_u (56320 + (c - 65536) mod 1024).
Definition dumps_str (x : str) : str := [DQ] ++ concat (map escape_char x) ++ [DQ].
(** Keys of dictionaries are written as strings.  Simplification: lists and dictionaries, which cannot be
    keys in Python, have no text. *)
Definition key_text (k : value) : str :=
  match k with
  | VStr x => x
  | VBool b => if b then s "true" else s "false"
  | VNone => s "null"
  | VInt z => show_Z z
  | VFloat x => x
  | _ => []
  end.
(** Simplification: the text that stands for a float is the one Python writes ([repr]). *)
Fixpoint dumps (v : value) : str :=
  match v with
  | VNone => s "null"
  | VBool b => if b then s "true" else s "false"
  | VInt z => show_Z z
  | VFloat x => x
  | VStr x => dumps_str x
  | VList l => [LBRK] ++ join [COMMA; SP] (map dumps l) ++ [RBRK]
  | VDict d => [LBRC] ++ join [COMMA; SP] (map (fun kv => dumps_str (key_text (fst kv)) ++ [COLON; SP] ++ dumps (snd kv)) d) ++ [RBRC]
  end.

(** ** JSON *)
(** json_source.py 22-27 *)
Definition commandline_to_json (c : cmd) : str := dumps (VList (commandline_to_dictionaries c)).

(** ** YAML *)

(** When a field is written: [v is not None], [v is True], [v != INHERIT]; its default *)
Inductive include_if := NotNone | IsTrue | NotInherit.
Definition included (i : include_if) (v : value) : bool :=
  match i with
  | NotNone => negb (value_eqb v VNone)
  | IsTrue => value_eqb v (VBool true)
  | NotInherit => negb (value_eqb v (VStr INHERIT))
  end.
Definition field : Type := (str * value * include_if)%type.
Definition none_field (name : str) : field := (name, VNone, NotNone).
Definition true_field (name : str) (default : value) : field := (name, default, IsTrue).
Definition inherit_field (name : str) : field := (name, VStr INHERIT, NotInherit).

(** yaml_source.py 44-48, 71-75 *)
Definition field_lines (fields : list field) (d : list (value * value)) : list str :=
  flat_map (fun f => let '(name, default, i) := f in
    let v := getd name default d in
    if included i v then [s "  " ++ name ++ s ": " ++ dumps v] else []) fields.

(** yaml_source.py 23-50.  Simplification: [option_strings] is there, otherwise KeyError. *)
Definition option_fields : list field :=
  [none_field (s "metavar"); none_field (s "help"); true_field (s "optional_arg") (VBool false); none_field (s "groups"); inherit_field (s "repeatable");
   true_field (s "final") (VBool false); true_field (s "hidden") (VBool false); none_field (s "complete"); true_field (s "nosort") VNone;
   none_field (s "when"); none_field (s "capture"); inherit_field (s "long_opt_arg_sep")].
Definition option_to_yaml (d : list (value * value)) : str :=
  join [LF] ((s "- option_strings: " ++ dumps (getd (s "option_strings") VNone d)) :: field_lines option_fields d).

(** yaml_source.py 53-77.  The number is written by [str], as [json.dumps] does. *)
Definition positional_fields : list field :=
  [none_field (s "metavar"); none_field (s "help"); true_field (s "repeatable") (VBool false); none_field (s "complete"); true_field (s "nosort") VNone;
   none_field (s "when"); none_field (s "capture")].
Definition positional_to_yaml (d : list (value * value)) : str :=
  join [LF] ((s "- number: " ++ dumps (getd (s "number") VNone d)) :: field_lines positional_fields d).

Definition dict_of (v : value) : list (value * value) := match v with VDict d => d | _ => [] end.
Definition list_of (v : value) : list value := match v with VList l => l | _ => [] end.

(** yaml_source.py 80-127 *)
Definition command_fields : list field :=
  [none_field (s "aliases"); none_field (s "help"); none_field (s "wraps"); inherit_field (s "abbreviate_commands"); inherit_field (s "abbreviate_options");
   inherit_field (s "inherit_options")].
Definition to_yaml (d : list (value * value)) : str :=
  let r := s "prog: " ++ dumps (getd (s "prog") VNone d) ++ [LF] in                                       (* 93 *)
  let r := r ++ concat (map (fun f => let '(name, default, i) := f in
    let v := getd name default d in
    if included i v then name ++ s ": " ++ dumps v ++ [LF] else []) command_fields) in                    (* 95-111 *)
  let options := list_of (getd (s "options") VNone d) in
  let r := match options with
           | [] => r
           | _ => r ++ s "options:" ++ [LF] ++ concat (map (fun o => indent (option_to_yaml (dict_of o)) 2 ++ [LF; LF]) options)
           end in                                                                                         (* 113-117 *)
  let positionals := list_of (getd (s "positionals") VNone d) in
  let r := match positionals with
           | [] => r
           | _ => r ++ s "positionals:" ++ [LF] ++ concat (map (fun p => indent (positional_to_yaml (dict_of p)) 2 ++ [LF; LF]) positionals)
           end in                                                                                         (* 119-123 *)
  rstrip_p is_space r.                                                                                    (* 125 *)

(** yaml_source.py 128-137 *)
Definition commandline_to_yaml (c : cmd) : str :=
  join ([LF] ++ s "---" ++ [LF]) (map (fun d => to_yaml (dict_of d)) (commandline_to_dictionaries c)).
