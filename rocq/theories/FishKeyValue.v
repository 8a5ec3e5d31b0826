(** * Model of the helpers that complete keys and values in Fish: fish_helpers.py 660-743
    ([key_value_list]), 745-788 ([key_value_pair]), 790-808 ([key_value_pair_exec]), 810-908
    ([key_value_list_exec]), with 512-518 ([get_completing_arg]).

    The functions that complete values are parameters: they get what [get_completing_arg] gives and
    print lines.  Simplifications: separators are one character (validation), and the second one is not
    a star, which would be a pattern in [case]; what was typed and what is printed are lines; there is
    no prefix that was stripped before ([__fish_stripprefix] is not set). *)
From Verif Require Import Base KeyValueRun.
Open Scope list_scope.

(** The four arrays, by index *)
Record key_info := KeyInfo { k_key : str; k_description : str; k_value : bool; k_func : str; k_excludes : str }.
(** 671-676; [k_value]: 697, 735 *)
Fixpoint quads (args : list str) : list key_info :=
  match args with
  | key :: description :: func :: excludes :: args' => KeyInfo key description (negb (str_eqb func (s "false"))) func excludes :: quads args'
  | _ => []
  end.
(** [contains -i -- $x $keys]: the first index *)
Fixpoint index (i : nat) (x : str) (keys : list str) : option nat :=
  match keys with
  | [] => None
  | k :: keys' => if str_eqb k x then Some i else index (S i) x keys'
  end.
(** 683-695, 852-864; 864 splits with [-n], which leaves out empty names: no key is empty. *)
Definition removed (infos : list key_info) (sep2 : N) (pairs : list str) : list nat :=
  let keys := map k_key infos in
  flat_map (fun pair =>
    match index 0 (before_first sep2 pair) keys with
    | Some i => flat_map (fun x => match index 0 x keys with Some j => [j] | None => [] end) (split_c SP (match nth_error infos i with Some k => k_excludes k | None => [] end))
    | None => []
    end) pairs.
Definition remaining (infos : list key_info) (sep2 : N) (pairs : list str) : list key_info :=
  map snd (filter (fun ik => negb (existsb (Nat.eqb (fst ik)) (removed infos sep2 pairs))) (combine (List.seq 0 (List.length infos)) infos)).
(** 698-702, 735-739: [printf '%s%s\t%s\n'] *)
Definition key_line (sep2 : N) (comp : str) (k : key_info) : str :=
  comp ++ k_key k ++ (if k_value k then [sep2] else []) ++ [TAB] ++ k_description k.
(** 678-743, 849-908; [complete key arg]: the lines for the value of a key *)
Definition list_lines (sep1 sep2 : N) (infos : list key_info) (complete : str -> list str) (comp : str) : list str :=
  let pairs := split_c sep1 comp in                                                          (* 680 *)
  let left := remaining infos sep2 pairs in
  if match comp with [] => true | _ => N.eqb (last comp 0%N) sep1 end                        (* 697 *)
  then map (key_line sep2 comp) left
  else
    let pair := last pairs [] in                                                             (* 720 *)
    if memc sep2 pair then                                                                   (* 724 *)
      let value := after_first sep2 pair in
      map (app (firstn (List.length comp - List.length value) comp)) (complete (before_first sep2 pair))   (* 725-733 *)
    else
      map (key_line sep2 (firstn (List.length comp - List.length pair) comp)) left.          (* 735-743 *)

(** 709-718: the function of the first key that is equal; the pattern [^.*sep2] is stripped.  In 715 it is
    the longest match. *)
Definition function_for (infos : list key_info) (key : str) : option str := option_map k_func (find (fun k => str_eqb (k_key k) key) infos).
Definition call_for_key (infos : list key_info) (call : str -> str -> list str) (sep2 : N) (arg key : str) : list str :=
  match function_for infos key with Some f => call f (after_last [sep2] arg) | None => [] end.
Definition fish_key_value_list (call : str -> str -> list str) (sep1 sep2 : N) (args : list str) (arg : str) : list str :=
  list_lines sep1 sep2 (quads args) (call_for_key (quads args) call sep2 arg) arg.

(** ** Pairs *)
Fixpoint fish_triples (args : list str) : list key_info :=
  match args with
  | key :: description :: func :: args' => KeyInfo key description (negb (str_eqb func (s "false"))) func [] :: fish_triples args'
  | _ => []
  end.
(** 769-788, 791-808: [string split -m1] *)
Definition pair_lines (sep : N) (keys : list str) (complete : str -> list str) (comp : str) : list str :=
  if memc sep comp then map (fun v => before_first sep comp ++ [sep] ++ v) (complete (before_first sep comp)) else keys.
Definition fish_key_value_pair (call : str -> str -> list str) (sep : N) (args : list str) (arg : str) : list str :=
  let infos := fish_triples args in
  pair_lines sep (map (key_line sep []) infos) (call_for_key infos call sep arg) arg.
(** [func], [func key]: the lines that the command prints *)
Definition fish_key_value_pair_exec (sep : N) (func : list str) (func_for : str -> list str) (arg : str) : list str :=
  pair_lines sep func func_for arg.

(** ** Lists whose keys are printed by a command: 823-847, one line.  [set -a descriptions $split[2]] adds
    nothing if there is no tabulator, so the descriptions of the keys behind it move up; [excludes] gets an
    element for each line. *)
Definition printed_info (line : str) : key_info :=
  let fields := split_c TAB line in
  let key := nth 0 fields [] in
  let '(key, takes) := if ends_with (s "=") key then (firstn (List.length key - 1) key, true)
                       else if ends_with (s "=?") key then (firstn (List.length key - 2) key, false) else (key, false) in
  let '(key, exclude) := match key with
                         | c :: key' => if N.eqb c STAR then (key', []) else (key, SP :: key)
                         | [] => (key, SP :: key)
                         end in
  KeyInfo key (nth 1 fields []) takes [] (nth 2 fields [] ++ exclude).
Definition printed_descriptions (lines : list str) : list str := flat_map (fun line => match split_c TAB line with _ :: d :: _ => [d] | _ => [] end) lines.
Definition printed_infos (lines : list str) : list key_info :=
  map (fun ik => let k := snd ik in KeyInfo (k_key k) (nth (fst ik) (printed_descriptions lines) []) (k_value k) (k_func k) (k_excludes k))
    (combine (List.seq 0 (List.length lines)) (map printed_info lines)).
Definition fish_key_value_list_exec (sep1 sep2 : N) (lines : list str) (func_for : str -> list str) (arg : str) : list str :=
  list_lines sep1 sep2 (printed_infos lines) func_for arg.
