(** * Model of crazy_complete/application.py 198-404 and crazy_complete/paths.py.

    What the program does to the world is a list of effects.  Simplifications: argparse is not
    modelled, the options are a record; loading the three kinds of definitions, generating, running
    [pkg-config], opening a file and removing a file are functions of the environment; the settings
    for the generators are an argument of theirs; standard output is written in UTF-8; messages on
    standard error are left out. *)
From Verif Require Import Base Cli.
Open Scope list_scope.

Inductive shell := Bash | Fish | Zsh | ToJson | ToYaml.        (* application.py 61-63 *)
Inductive input_type := InYaml | InJson | InPython | InHelp | InAuto.   (* application.py 82-84 *)
(** application.py 61-194: the options [generate] looks at *)
Record options := MkOptions {
  op_shell : shell;
  op_definition_file : str;
  op_input_type : input_type;
  op_output_file : option str;
  op_install : bool;
  op_uninstall : bool }.

Inductive kind := KJson | KYaml | KPython.
Inductive effect :=
| Loaded (k : kind) (file : str)       (* a definition file is read; a Python file is run *)
| Read (file : str)                    (* a help text is read *)
| Emptied (file : str)                 (* [open(file, 'w')] *)
| Wrote (file text : str)              (* the text is in the file *)
| Printed (text : str)
| Removed (file : str).

Record world := MkWorld {
  w_load : kind -> str -> res cmd;            (* json_source, yaml_source, argparse_source: load_from_file *)
  w_help : str -> res str;                    (* help_converter.from_file_to_yaml *)
  w_to_json : cmd -> str;                     (* json_source.commandline_to_json *)
  w_to_yaml : cmd -> str;                     (* yaml_source.commandline_to_yaml *)
  w_script : shell -> cmd -> res str;         (* generate_completion with the settings of the options *)
  w_completions_dir : shell -> option str;    (* what pkg-config says *)
  w_open : str -> res unit;                   (* opening a file for writing *)
  w_remove : str -> res unit }.

(** A computation: its effects, and its result or the exception *)
Definition act (A : Type) : Type := (list effect * res A)%type.
Definition ret {A} (r : res A) : act A := ([], r).
Definition tell (e : effect) : act unit := ([e], Ok tt).
Definition andthen {A B} (x : act A) (f : A -> act B) : act B :=
  match x with
  | (l, Err e) => (l, Err e)
  | (l, Ok a) => let '(l', r) := f a in (l ++ l', r)
  end.

(** Characters that UTF-8 cannot encode *)
Definition surrogate (c : N) : bool := ((55296 <=? c) && (c <=? 57343))%N.
Definition encodable (x : str) : bool := forallb (fun c => negb (surrogate c)) x.
(** [fh.write(text)]: UnicodeEncodeError is a ValueError. *)
Definition encode (x : str) : res unit := if encodable x then Ok tt else Err (ValueError (s "surrogates not allowed")).

Section World.
Context (w : world).

(** application.py 198-205 *)
Definition write_string_to_file (text : str) (file : option str) : act unit :=
  match file with
  | Some f => andthen (ret (w_open w f)) (fun _ => andthen (tell (Emptied f)) (fun _ => andthen (ret (encode text)) (fun _ => tell (Wrote f text))))
  | None => andthen (ret (encode text)) (fun _ => tell (Printed text))
  end.

(** posixpath.basename; the part behind the last slash *)
Definition basename (x : str) : str := last (split_c SLASH x) [].
(** posixpath.splitext(x)[1] for a name without slashes: from the last dot, unless there are only dots
    before it *)
Definition extension (x : str) : str :=
  match rev (split_c DOT x) with
  | [] | [_] => []
  | e :: before => if forallb (fun p => str_eqb p []) before then [] else DOT :: e
  end.
(** application.py 212-213 *)
Definition file_type (file : str) : str := strip_p (N.eqb DOT) (lower (extension (basename file))).

Definition load (k : kind) (file : str) : act cmd := andthen (tell (Loaded k file)) (fun _ => ret (w_load w k file)).
(** application.py 208-246 *)
Definition load_definition_file (op : options) : act cmd :=
  let file := op_definition_file op in
  match op_input_type op with
  | InAuto =>
      let x := file_type file in
      if str_eqb x (s "json") then load KJson file
      else if str_eqb x (s "yaml") || str_eqb x (s "yml") then load KYaml file
      else if str_eqb x (s "py") then ret (Err (CrazyError (s "Reading Python files must be enabled by --input-type=python")))
      else if str_eqb x [] then ret (Err (CrazyError (s "File has no extension. Please supply --input-type=json|yaml|help|python")))
      else ret (Err (CrazyError (s "Unknown file extension `" ++ x ++ s "`. Please supply --input-type=json|yaml|help|python")))
  | InJson => load KJson file
  | InYaml => load KYaml file
  | InPython => load KPython file
  | InHelp => ret (Err AssertionError)
  end.

(** paths.py 42-74 *)
Definition completion_file (sh : shell) (prog : str) : str :=
  match sh with
  | Bash => (match w_completions_dir w Bash with Some d => d | None => s "/usr/share/bash-completion/completions" end) ++ s "/" ++ prog
  | Fish => (match w_completions_dir w Fish with Some d => d | None => s "/usr/share/fish/vendor_completions.d" end) ++ s "/" ++ prog ++ s ".fish"
  | _ => s "/usr/share/zsh/site-functions/_" ++ prog
  end.

(** application.py 326-371 *)
Definition generate (op : options) : act unit :=
  match op_input_type op with
  | InHelp =>
      match op_shell op with
      | ToYaml => andthen (tell (Read (op_definition_file op))) (fun _ => andthen (ret (w_help w (op_definition_file op))) (fun output =>
                    write_string_to_file output (op_output_file op)))
      | _ => ret (Err (CrazyError (s "The `help` input-type currently only supports YAML generation")))
      end
  | _ =>
      andthen (load_definition_file op) (fun cmdline =>
        match op_shell op with
        | ToJson => write_string_to_file (w_to_json w cmdline) (op_output_file op)
        | ToYaml => write_string_to_file (w_to_yaml w cmdline) (op_output_file op)
        | sh =>
            andthen (ret (w_script w sh cmdline)) (fun output =>
              if op_install op || op_uninstall op then
                let file := completion_file sh (c_prog cmdline) in
                if op_install op then write_string_to_file output (Some file)
                else andthen (ret (w_remove w file)) (fun _ => tell (Removed file))
              else write_string_to_file output (op_output_file op))
        end)
  end.
End World.

(** ** Batch files *)

(** How a run ends: normally, with [sys.exit(0)] or with an exception *)
Inductive ending := Finished | Exited | Raised (e : exn).

(** application.py 309-318: the lines of the file that are commands *)
Definition batch_lines (content : str) : list str :=
  filter (fun l => match l with [] => false | _ => negb (starts_with [HASH] l) end) (map (strip_p is_space) (split_c LF content)).
Section Batch.
Context (split : str -> res (list str)).        (* shlex.split *)
Context (app : list str -> list effect * ending).   (* [parse_args] and [run] for one line *)
(** application.py 313-324 *)
Fixpoint run_lines (lines : list str) : list effect * ending :=
  match lines with
  | [] => ([], Exited)
  | l :: lines' =>
      match split l with
      | Err e => ([], Raised e)
      | Ok args =>
          match app args with
          | (l1, Finished) => let '(l2, e) := run_lines lines' in (l1 ++ l2, e)
          | r => r
          end
      end
  end.
End Batch.

Section Run.
Context (w : world) (split : str -> res (list str)).
Context (wants_manual : list str -> bool).              (* application.py 283-295 *)
Context (batch_file : list str -> option str).          (* application.py 298-308 *)
Context (content : str -> res str).                     (* what is in a batch file *)
Context (parse : list str -> ending + options).         (* argparse: [--help] and [--version] exit *)
(** application.py 380-404; [fuel] bounds how deep batch files call batch files *)
Fixpoint run_app (fuel : nat) (args : list str) : list effect * ending :=
  if wants_manual args then ([], Exited)
  else
    match batch_file args with
    | Some f =>
        match content f with
        | Err e => ([], Raised e)
        | Ok x => match fuel with O => ([], Raised OutOfFuel) | S fuel' => run_lines split (run_app fuel') (batch_lines x) end
        end
    | None =>
        match parse args with
        | inl e => ([], e)
        | inr op => match generate w op with (l, Ok _) => (l, Finished) | (l, Err e) => (l, Raised e) end
        end
    end.
End Run.
