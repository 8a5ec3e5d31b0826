(** * Model of the calls of completers (shell.py 85-161) made while a script is generated, with
    their effect on the definitions.

    The command lines a generator works on are copies, but the lists in [complete] are the
    lists of the caller (cli.py 388-435), so what a completer does to its arguments is done to
    the caller's definition.  A generator asks the completer of every option and positional
    (bash.py 47, fish.py 158, zsh.py 60), and the completers that contain others ask those.

    Simplifications: only the calls are modelled, not the code they return; every completer is
    asked exactly once, in the order of the definition; the completers without nested completers
    except [file_list] and [directory_list] do not change their arguments. *)
From Verif Require Import Base Dict Value StrUtils Cli DictSource SchemeValidator Generation.
Open Scope list_scope.

(** A call: the name of the completer and its arguments. *)
Definition call : Type := (str * list value)%type.

(** [dict.pop(key, default)] *)
Definition pop (k : String.string) (default : value) (d : dict) : value * dict :=
  (getd (s k) default d, filter (fun kv => negb (value_eqb (fst kv) (VStr (s k)))) d).
Arguments pop k%string_scope default d.

(** shell.py 147-161: [file_list] (inner completer 'file') and [directory_list]
    ('directory').  The call of [list], and the options afterwards; [None] and the empty
    dictionary are false. *)
Definition list_alias (inner : String.string) (opts : option dict) : call * option dict :=
  match opts with
  | None =>
      ((s "list", [VList [VStr (s inner); VNone];
                   VDict [key "separator" (VStr (s ",")); key "duplicates" (VBool false)]]), None)
  | Some [] =>
      ((s "list", [VList [VStr (s inner); VDict []];
                   VDict [key "separator" (VStr (s ",")); key "duplicates" (VBool false)]]), Some [])
  | Some d =>
      let '(separator, d1) := pop "separator" (VStr (s ",")) d in
      let '(duplicates, d2) := pop "duplicates" (VBool false) d1 in
      ((s "list", [VList [VStr (s inner); VDict d2];
                   VDict [key "separator" separator; key "duplicates" duplicates]]), Some d2)
  end.
Definition ask_list_alias (inner : String.string) (args : list value) : list call * list value :=
  match args with
  | [] => ([fst (list_alias inner None)], [])
  | VDict d :: rest =>
      let '(c, d') := list_alias inner (Some d) in
      ([c], match d' with Some x => VDict x | None => VNone end :: rest)
  | VNone :: rest => ([fst (list_alias inner None)], args)
  | _ => ([], args)   (* rejected by the validation *)
  end.

Section Nested.
Variable ask : value -> list call * value.

Fixpoint ask_all (l : list value) : list call * list value :=
  match l with
  | [] => ([], [])
  | x :: l' =>
      let '(c, x') := ask x in
      let '(cs, l'') := ask_all l' in
      (c ++ cs, x' :: l'')
  end.
(** The entries [key, description, completer, ...] of a key-value completer *)
Fixpoint ask_entries (l : list value) : list call * list value :=
  match l with
  | [] => ([], [])
  | VList (k :: description :: complete :: rest) :: l' =>
      let '(c, complete') := match complete with VNone => ([], VNone) | _ => ask complete end in
      let '(cs, l'') := ask_entries l' in
      (c ++ cs, VList (k :: description :: complete' :: rest) :: l'')
  | x :: l' => let '(cs, l'') := ask_entries l' in (cs, x :: l'')
  end.
Definition ask_inside (name : str) (args : list value) : list call * list value :=
  if str_eqb name (s "file_list") then ask_list_alias "file" args
  else if str_eqb name (s "directory_list") then ask_list_alias "directory" args
  else if str_eqb name (s "combine") then
    match args with
    | [VList l] => let '(cs, l') := ask_all l in (cs, [VList l'])
    | _ => ([], args)
    end
  else if str_eqb name (s "key_value_list") then
    match args with
    | a :: b :: VList l :: r => let '(cs, l') := ask_entries l in (cs, a :: b :: VList l' :: r)
    | _ => ([], args)
    end
  else if str_eqb name (s "key_value_pair") then
    match args with
    | a :: VList l :: r => let '(cs, l') := ask_entries l in (cs, a :: VList l' :: r)
    | _ => ([], args)
    end
  else if str_eqb name (s "list") then
    match args with
    | x :: r => let '(cs, x') := ask x in (cs, x' :: r)
    | _ => ([], args)
    end
  else if str_eqb name (s "prefix") then
    match args with
    | [a; x] => let '(cs, x') := ask x in (cs, [a; x'])
    | _ => ([], args)
    end
  else ([], args).
End Nested.

(** shell.py 92-98: the calls made for a definition, and the definition afterwards *)
Fixpoint ask (v : value) : list call * value :=
  match v with
  | VList (VStr name :: args) =>
      let '(cs, args') := ask_inside ask name args in
      ((name, args) :: cs, VList (VStr name :: args'))
  | _ => ([], v)
  end.

Definition ask_complete (o : option (list value)) : list call * option (list value) :=
  match o with
  | None => ([], None)
  | Some l => match ask (VList l) with (cs, VList l') => (cs, Some l') | (cs, _) => (cs, Some l) end
  end.

Fixpoint ask_options (l : list opt) : list call * list opt :=
  match l with
  | [] => ([], [])
  | o :: l' =>
      let '(c, complete) := ask_complete (o_complete o) in
      let '(cs, l'') := ask_options l' in
      (c ++ cs,
       MkOpt (o_strings o) (o_metavar o) (o_help o) complete (o_nosort o) (o_groups o)
         (o_optional_arg o) (o_repeatable o) (o_final o) (o_hidden o) (o_when o) (o_capture o)
         (o_sep o) :: l'')
  end.
Fixpoint ask_positionals (l : list pos) : list call * list pos :=
  match l with
  | [] => ([], [])
  | p :: l' =>
      let '(c, complete) := ask_complete (Some (p_complete p)) in
      let '(cs, l'') := ask_positionals l' in
      (c ++ cs,
       MkPos (p_number p) (p_metavar p) (p_help p)
         (match complete with Some x => x | None => p_complete p end)
         (p_nosort p) (p_repeatable p) (p_when p) (p_capture p) :: l'')
  end.

(** The calls made while a script is generated, and the caller's command line afterwards *)
Fixpoint generate (c : cmd) : list call * cmd :=
  let 'Cmd prog help aliases wraps abc abo inh options positionals subcommands := c in
  let '(c1, options') := ask_options options in
  let '(c2, positionals') := ask_positionals positionals in
  let '(c3, subcommands') :=
    match subcommands with
    | None => ([], None)
    | Some l =>
        let '(cs, l') := (fix go l := match l with
                                      | [] => ([], [])
                                      | x :: l' => let '(a, x') := generate x in
                                                   let '(b, l'') := go l' in (a ++ b, x' :: l'')
                                      end) l in
        (cs, Some l')
    end in
  (c1 ++ c2 ++ c3,
   Cmd prog help aliases wraps abc abo inh options' positionals' subcommands').
