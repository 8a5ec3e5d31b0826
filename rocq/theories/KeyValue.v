(** * Model of the completion of key-value lists and pairs: utils.py 308-341, bash_complete.py 159-243,
    zsh_complete.py 217-313, fish_complete.py 271-365, bash_helpers.py 317-366.

    The code is modelled as the list of its lines. *)
From Verif Require Import Base PyStr Shell ZshUtils.
Open Scope list_scope.

(** The completer of a value: there is none, so that the key takes no value; it is [none]; otherwise
    the name of a function ([get_function]; Bash and fish) and an action (zsh; [get_action_string],
    zsh_complete.py 45-54, 70-121, gives it quoted, or gives the name of a function, which is the same
    when it is quoted). *)
Inductive value_completer := NoValue | AnyValue | Completes (func action : str).
(** An entry as it is written: the key may begin with a star. *)
Record entry := Entry { e_key : str; e_description : option str; e_completer : value_completer; e_excludes : list str }.
(** utils.py 308-309 *)
Record definition := Def { d_key : str; d_repeatable : bool; d_description : option str; d_completer : value_completer; d_excludes : list str }.
(** utils.py 325-339 *)
Definition get_definition (e : entry) : definition :=
  let '(key, repeatable) := if starts_with [STAR] (e_key e) then (skipn 1 (e_key e), true) else (e_key e, false) in
  Def key repeatable (e_description e) (e_completer e) (e_excludes e).

(** bash_complete.py 170-176, 217-223; fish_complete.py 284-290, 336-342 *)
Definition value_func (c : value_completer) : str :=
  match c with NoValue => s "false" | AnyValue => s "true" | Completes func _ => func end.
(** bash_complete.py 178-181, fish_complete.py 292-295 *)
Definition all_excludes (d : definition) : list str := (if d_repeatable d then [] else [d_key d]) ++ d_excludes d.
(** [condition]: bash_complete.py 183-185, 225-227; fish_complete.py 297-299 *)
Definition condition (func : option str) (word : str) : str :=
  match func with Some _ => s "$c " ++ word ++ s " && " | None => [] end.

(** ** Bash *)

(** bash_complete.py 183-191 *)
Definition bash_list_line (func : option str) (d : definition) : str :=
  condition func (quote (d_key d)) ++ s "a+=(" ++ quote (d_key d) ++ s " " ++ quote (value_func (d_completer d)) ++ s " "
  ++ quote (join [SP] (all_excludes d)) ++ s ")".
(** 225-232 *)
Definition bash_pair_line (func : option str) (e : entry) : str :=
  condition func (quote (e_key e)) ++ s "a+=(" ++ quote (e_key e) ++ s " " ++ quote (value_func (e_completer e)) ++ s ")".
(** 193-195, 234-236 and zsh_complete.py 256-258, 302-304 *)
Definition posix_head (func : option str) : list str :=
  s "local -a a=()" :: match func with Some f => [s "local c=" ++ quote f] | None => [] end.
(** 193-201 *)
Definition bash_list_code (helper pair_sep value_sep : str) (func : option str) (l : list entry) : list str :=
  posix_head func ++ map (fun e => bash_list_line func (get_definition e)) l
  ++ [helper ++ s " " ++ quote pair_sep ++ s " " ++ quote value_sep ++ s " ""${a[@]}"""].
(** 234-241 *)
Definition bash_pair_code (helper value_sep : str) (func : option str) (l : list entry) : list str :=
  posix_head func ++ map (bash_pair_line func) l ++ [helper ++ s " " ++ quote value_sep ++ s " ""${a[@]}"""].

(** ** zsh *)

(** zsh_complete.py 229-253; the condition is not quoted *)
Definition zsh_rest (desc : option str) (c : value_completer) : str :=
  (match desc with Some ((_ :: _) as x) => quote (s "[" ++ escape_square_brackets x ++ s "]") | _ => [] end)
  ++ match c with NoValue => [] | AnyValue => s ":::" | Completes _ action => s ":::" ++ quote action end.
(** 233-235 *)
Definition zsh_excludes (l : list str) : str := match l with [] => [] | _ => quote (s "(" ++ join [SP] l ++ s ")") end.
Definition zsh_list_line (func : option str) (d : definition) : str :=
  condition func (d_key d) ++ s "a+=("
  ++ zsh_excludes (d_excludes d)
  ++ (if d_repeatable d then s "'*'" else [])
  ++ escape_colon (d_key d) ++ zsh_rest (d_description d) (d_completer d) ++ s ")".
(** 283-300 *)
Definition zsh_pair_line (func : option str) (e : entry) : str :=
  condition func (quote (e_key e)) ++ s "a+=(" ++ escape_colon (e_key e) ++ zsh_rest (e_description e) (e_completer e) ++ s ")".
(** 256-264 *)
Definition zsh_list_code (pair_sep value_sep metavar : str) (func : option str) (l : list entry) : list str :=
  posix_head func ++ map (fun e => zsh_list_line func (get_definition e)) l
  ++ [s "_values -s " ++ quote pair_sep ++ s " -S " ++ quote value_sep ++ s " " ++ quote metavar ++ s " ""${a[@]}"""].
(** 302-309 *)
Definition zsh_pair_code (value_sep metavar : str) (func : option str) (l : list entry) : list str :=
  posix_head func ++ map (zsh_pair_line func) l ++ [s "_values -S " ++ quote value_sep ++ s " " ++ quote metavar ++ s " ""${a[@]}"""].

(** ** fish *)

(** [description or ''] *)
Definition or_empty (d : option str) : str := match d with Some x => x | None => [] end.
(** fish_complete.py 297-306 *)
Definition fish_list_line (func : option str) (d : definition) : str :=
  condition func (quote (d_key d)) ++ s "set -a a "
  ++ join_quoted [d_key d; or_empty (d_description d); value_func (d_completer d); join [SP] (all_excludes d)] [SP].
(** 344-352: the condition gets the name of the condition function *)
Definition fish_pair_line (func : option str) (e : entry) : str :=
  condition func (quote (or_empty func)) ++ s "set -a a "
  ++ join_quoted [e_key e; or_empty (e_description e); value_func (e_completer e)] [SP].
Definition fish_head (func : option str) : list str :=
  s "set -l a" :: match func with Some f => [s "set -l c " ++ quote f] | None => [] end.
(** 308-316 *)
Definition fish_list_code (helper pair_sep value_sep : str) (func : option str) (l : list entry) : list str :=
  fish_head func ++ map (fun e => fish_list_line func (get_definition e)) l
  ++ [helper ++ s " " ++ quote pair_sep ++ s " " ++ quote value_sep ++ s " $a"].
(** 354-361 *)
Definition fish_pair_code (helper value_sep : str) (func : option str) (l : list entry) : list str :=
  fish_head func ++ map (fish_pair_line func) l ++ [helper ++ s " " ++ quote value_sep ++ s " $a"].

(** ** The helper for lists in Bash: bash_helpers.py 320-327, 342-366 *)

(** The associative arrays: a later element replaces an earlier one. *)
Fixpoint triples (args : list str) : list (str * (str * str)) :=
  match args with key :: func :: excludes :: args' => (key, (func, excludes)) :: triples args' | _ => [] end.
Definition element (arrays : list (str * (str * str))) (key : str) : option (str * str) :=
  match find (fun x => str_eqb (fst x) key) (rev arrays) with Some x => Some (snd x) | None => None end.
(** [IFS=' ' read -r -a]: words with blanks between them *)
Definition read_names (x : str) : list str := filter (fun w => match w with [] => false | _ => true end) (split_c SP x).
(** [remaining_keys], given the keys that were typed; in Bash their order is not defined, and each is there once *)
Definition having_keys (arrays : list (str * (str * str))) (typed : list str) : list str :=
  flat_map (fun key => match element arrays key with Some (_, excludes) => read_names excludes | None => [] end) typed.
Definition remaining_keys (args typed : list str) : list str :=
  let arrays := triples args in
  filter (fun key => negb (mems key (having_keys arrays typed))) (map fst arrays).
