(** * Specification: what the command line of the program asks for.

    Written from the descriptions of the options ([crazy-complete --help]). *)
From Verif Require Import Base Application SpecOutput.
Open Scope list_scope.

(** Where the output goes *)
Inductive target := ToScreen | ToFile (file : str) | Away (file : str).
(** [-u]: uninstall, [-i]: install, [-o FILE]: write to the file; else standard output *)
Definition asked (op : options) (installed : str) : target :=
  if op_uninstall op then Away installed
  else if op_install op then ToFile installed
  else match op_output_file op with Some f => ToFile f | None => ToScreen end.
(** Where the shells look for the script of a program.  bash-completion loads the file with the name of the
    program, fish the one that ends with [.fish], zsh loads functions that begin with an underscore;
    [dir]: the directory that pkg-config names, if it does.  For zsh it is not asked. *)
Definition looked_up (dir : option str) (sh : shell) (prog file : str) : Prop :=
  match sh, dir with
  | Bash, Some d => file = d ++ s "/" ++ prog
  | Bash, None => file = s "/usr/share/bash-completion/completions/" ++ prog
  | Fish, Some d => file = d ++ s "/" ++ prog ++ s ".fish"
  | Fish, None => file = s "/usr/share/fish/vendor_completions.d/" ++ prog ++ s ".fish"
  | Zsh, _ => file = s "/usr/share/zsh/site-functions/_" ++ prog
  | _, _ => False
  end.
(** The effects that are not only reading *)
Definition is_change (e : effect) : bool :=
  match e with Loaded _ _ | Read _ => false | _ => true end.
Definition changes (l : list effect) : list effect := filter is_change l.
Definition done (t : target) (text : str) : list effect :=
  match t with
  | ToScreen => [Printed text]
  | ToFile f => [Emptied f; Wrote f text]
  | Away f => [Removed f]
  end.
(** The options [-o], [-i] and [-u] exclude each other. *)
Definition exclusive (op : options) : Prop :=
  (op_install op = true -> op_uninstall op = false /\ op_output_file op = None) /\ (op_uninstall op = true -> op_output_file op = None).
Definition is_script (sh : shell) : bool := match sh with Bash | Fish | Zsh => true | _ => false end.

(** The definition that is to be written: made from a help text, or the one that was loaded in the other
    language *)
Definition definition_text (w : world) (op : options) (text : str) : Prop :=
  (op_shell op = ToYaml /\ op_input_type op = InHelp /\ w_help w (op_definition_file op) = Ok text) \/
  (op_input_type op <> InHelp /\ exists c, snd (load_definition_file w op) = Ok c /\
    ((op_shell op = ToJson /\ text = w_to_json w c) \/ (op_shell op = ToYaml /\ text = w_to_yaml w c))).

(** A file name with an extension: [file.ext] in a directory; [.ext] alone is a name without one. *)
Definition has_extension (file ext : str) : Prop :=
  exists dir stem, file = dir ++ stem ++ DOT :: ext /\ (dir = [] \/ exists d, dir = d ++ [SLASH]) /\
    ~ In SLASH stem /\ ~ In SLASH ext /\ ~ In DOT ext /\ existsb (fun c => negb (N.eqb c DOT)) stem = true.

(** The commands of a batch file: blank lines and comments are skipped. *)
Inductive commands : list str -> list str -> Prop :=
| cm_nil : commands [] []
| cm_skip l t r cs : trimmed l t -> t = [] \/ (exists t', t = HASH :: t') -> commands r cs -> commands (l :: r) cs
| cm_command l c t r cs : trimmed l (c :: t) -> c <> HASH -> commands r cs -> commands (l :: r) ((c :: t) :: cs).
