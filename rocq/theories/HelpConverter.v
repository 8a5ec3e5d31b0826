(** * Model of crazy_complete/help_converter.py.

    Not modelled: reading the file.  The text of the YAML document is in HelpYaml.v; the result here is the list of
    dictionaries that is written to it. *)
From Verif Require Import Base PyStr Value HelpParser.
Open Scope list_scope.

(** 11-24 *)
Definition fix_description (x : str) : str :=
  let x := strip_p is_space x in
  let x := replace_s [DASH; LF] [DASH] x in
  replace_c LF [SP] x.

(** [x and x[0] == a] and [x[-1] == b] *)
Definition first_is (a : N) (x : str) : bool := match x with c :: _ => N.eqb c a | [] => false end.
Definition last_is (b : N) (x : str) : bool := match rev x with c :: _ => N.eqb c b | [] => false end.
(** [x[1:-1]] *)
Definition inner (x : str) : str := removelast (tl x).
(** 27-39 *)
Definition strip_metavar (x : str) : str :=
  let x := if first_is LBRK x && last_is RBRK x then inner x else x in
  let x := if first_is EQ x then tl x else x in
  if first_is LT x && last_is GT x then inner x else x.

(** 48-66 *)
Definition metavar_equals : list (str * str) :=
  [(s "f", s "file"); (s "n", s "integer"); (s "duration", s "integer"); (s "bits", s "integer");
   (s "cols", s "integer"); (s "column", s "integer"); (s "digits", s "integer");
   (s "size", s "integer"); (s "bytes", s "integer"); (s "pid", s "pid"); (s "user", s "user");
   (s "group", s "group"); (s "program", s "command"); (s "command", s "command");
   (s "cmd", s "cmd"); (s "signal", s "signal"); (s "sig", s "signal")].
(** 68-78 *)
Definition metavar_endswith : list (str * str) :=
  [(s "file", s "file"); (s "filename", s "file"); (s "dir", s "directory");
   (s "directory", s "directory"); (s "seconds", s "integer"); (s "length", s "integer");
   (s "width", s "integer"); (s "num", s "integer"); (s "number", s "integer")].
(** 42-93; [str.lower] on ASCII letters only *)
Definition complete_for_metavar (x : str) : value :=
  let string := strip_p (fun c => memc c [LT; GT]) x in
  let lower := lower string in
  match find (fun '(k, _) => str_eqb k lower) metavar_equals with
  | Some (_, complete) => VList [VStr complete]
  | None =>
      match find (fun '(suffix, _) => ends_with suffix lower) metavar_endswith with
      | Some (_, complete) => VList [VStr complete]
      | None =>
          let choices sep string :=
            VList [VStr (s "choices"); VList (map (fun item => VStr (strip_p is_space item)) (split_c sep string))] in
          if starts_with [LBRC] string && ends_with [RBRC] string then
            let string := strip_p (fun c => memc c [LBRC; RBRC]) string in
            if memc PIPE string then choices PIPE string
            else if memc COMMA string then choices COMMA string
            else VList [VStr (s "none")]
          else VList [VStr (s "none")]
      end
  end.

(** 121-130: [metavar] and [complete] after the loop; the last metavar that is not empty counts *)
Fixpoint last_metavar (options : list option_with_metavar) (m : option str) : option str :=
  match options with
  | [] => m
  | o :: options' =>
      last_metavar options' (match o_metavar o with Some (c :: x) => Some (strip_metavar (c :: x)) | _ => m end)
  end.
(** 112-132, with the entries that yaml_source.option_to_yaml (25-51) writes, in its order *)
Definition option_dict (options : list option_with_metavar) (description : option str) : value :=
  let m := last_metavar options None in
  VDict ([(VStr (s "option_strings"), VList (map (fun o => VStr (o_option o)) options))]
         ++ match m with Some m => [(VStr (s "metavar"), VStr m)] | None => [] end
         ++ [(VStr (s "help"), VStr (fix_description (match description with Some d => d | None => [] end)))]
         ++ (if existsb o_optional options then [(VStr (s "optional_arg"), VBool true)] else [])
         ++ match m with Some m => [(VStr (s "complete"), complete_for_metavar m)] | None => [] end).
(** 96-138: the dictionaries, in order *)
Fixpoint option_dicts (is : list item) : list value :=
  match is with
  | [] => []
  | Unparsed _ :: is' => option_dicts is'
  | OptionsWithDescription options description :: is' => option_dict options description :: option_dicts is'
  end.
Definition convert (content : str) : res (str * list value) :=
  do prog <- get_program_name_from_help content;
  do parsed <- parse content;
  Ok (prog, option_dicts parsed).
