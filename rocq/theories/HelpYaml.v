(** * Model of the YAML text that crazy_complete/help_converter.py writes.

    Not modelled: reading the file (its line ends are line feeds then). *)
From Verif Require Import Base PyStr Value StrUtils HelpParser HelpConverter YamlText.
Open Scope list_scope.

(** help_converter.py 114-130: the dictionary that is handed to yaml_source.option_to_yaml *)
Definition converted_option (options : list option_with_metavar) (description : option str) : list (value * value) :=
  let m := last_metavar options None in
  [(VStr (s "option_strings"), VList (map (fun o => VStr (o_option o)) options));
   (VStr (s "metavar"), match m with Some m => VStr m | None => VNone end);
   (VStr (s "optional_arg"), VBool (existsb o_optional options));
   (VStr (s "help"), VStr (fix_description (match description with Some d => d | None => [] end)))]
  ++ match m with Some m => [(VStr (s "complete"), complete_for_metavar m)] | None => [] end.
(** help_converter.py 110-136 *)
Definition item_output (i : item) : list str :=
  match i with
  | Unparsed text => [s "# " ++ rstrip_p is_space text]
  | OptionsWithDescription options description => [indent (option_to_yaml (converted_option options description)) 2; []]
  end.
(** help_converter.py 96-138 *)
Definition convert_to_yaml (content : str) : res str :=
  do prog <- get_program_name_from_help content;
  do parsed <- parse content;
  Ok (join [LF] ((s "prog: """ ++ prog ++ s """" ++ [LF] ++ s "help: ""<Program description here>""" ++ [LF] ++ s "options:") :: flat_map item_output parsed)).
