(** * Specification: what the shells offer for the texts a script gives them as choices.

    Written from zshcompsys(1) ([_arguments], [_describe]) and the function that reads the
    arguments of [compdescribe], the fish manual ([complete], "Escaping characters", "Command
    substitution", [printf]) and bash(1) ([compgen]); independent of the code under test. *)
From Verif Require Import Base Value SpecShell SpecZsh Choices.
Open Scope list_scope.

(** A choice: what is inserted, and its description (nothing if there is none). *)
Definition choice : Type := (str * str)%type.

(** The text behind [p], if it starts with [p]. *)
Fixpoint text_behind (p x : str) : option str :=
  match p, x with
  | [], _ => Some x
  | c :: p', d :: x' => if N.eqb c d then text_behind p' x' else None
  | _, [] => None
  end.
(** The text in front of [p], if it ends with [p]. *)
Definition text_before (p x : str) : option str := option_map (@rev N) (text_behind (rev p) (rev x)).
(** The text between [a] and [b]. *)
Definition text_between (a b x : str) : option str :=
  match text_behind a x with Some r => text_before b r | None => None end.

(** ** zsh *)

(** A backslash is dropped; the character behind it stays. *)
Fixpoint drop_backslashes (x : str) : str :=
  match x with
  | c :: (d :: x') as y => if N.eqb c BS then d :: drop_backslashes x' else c :: drop_backslashes y
  | [c] => if N.eqb c BS then [] else [c]
  | [] => []
  end.
(** [_describe]: [text:description], where a colon behind a backslash belongs to the text *)
Definition zsh_describe (w : str) : choice :=
  let (text, r) := upto (starts [COLON]) w in (drop_backslashes text, drop_backslashes (tl r)).

(** The action of a specification for [_arguments] that is a list of choices: [((a:b c:d))] is given
    to [_describe], the words of [(a b)] are taken as they are. *)
Definition zsh_action (action : str) : option (list choice) :=
  match text_between (s "((") (s "))") action with
  | Some words => option_map (map zsh_describe) (zsh_array words)
  | None =>
      match text_between (s "(") (s ")") action with
      | Some words => option_map (map (fun w => (w, []))) (zsh_array words)
      | None => None
      end
  end.
(** the same for the text of a word of the script *)
Definition zsh_action_text (text : str) : option (list choice) :=
  match zsh_array text with Some [action] => zsh_action action | _ => None end.

(** The text up to the next parenthesis that is not quoted, and the text behind it. *)
Definition zquoting (m : zmode) (c : N) : zmode :=
  match m with
  | ZPlain => if N.eqb c SQ then ZSingle else if N.eqb c DQ then ZDouble else if N.eqb c BS then ZEsc else ZPlain
  | ZEsc => ZPlain
  | ZSingle => if N.eqb c SQ then ZPlain else ZSingle
  | ZDouble => if N.eqb c DQ then ZPlain else if N.eqb c BS then ZDoubleEsc else ZDouble
  | ZDoubleEsc => ZDouble
  end.
Fixpoint to_parenthesis (m : zmode) (x : str) : option (str * str) :=
  match x with
  | [] => None
  | c :: x' =>
      match m, N.eqb c RPAR with
      | ZPlain, true => Some ([], x')
      | _, _ => option_map (fun '(a, r) => (c :: a, r)) (to_parenthesis (zquoting m c) x')
      end
  end.
(** Code that does nothing but
    [local items=( ... )] and [_describe -- 'title' items].  Blanks and newlines around the two
    commands do not matter; that there is a newline between them is not checked. *)
Fixpoint skip_blanks (x : str) : str :=
  match x with c :: x' => if memc c [SP; TAB; LF] then skip_blanks x' else x | [] => [] end.
Definition zsh_code (code : str) : option (list choice) :=
  match text_behind (s "local items=(") (skip_blanks code) with
  | None => None
  | Some r =>
      match to_parenthesis ZPlain r with
      | None => None
      | Some (items, rest) =>
          match zsh_array items, zsh_array rest with
          | Some ws, Some [describe; dashes; title; array] =>
              if str_eqb describe (s "_describe") && str_eqb dashes (s "--") && str_eqb array (s "items")
              then Some (map zsh_describe ws) else None
          | _, _ => None
          end
      end
  end.
(** The definition of the function [name] in a zsh script. *)
Definition zsh_function (name text : str) : option (list choice) :=
  match text_between (name ++ s "() {" ++ [LF]) ([LF] ++ s "}") text with
  | Some body => zsh_code body
  | None => None
  end.

(** ** fish *)

(** Words with quotes, and with the escapes of unquoted text as far as they are needed here: [\t] is
    a tabulator, and a backslash at the end of a line joins it with the next one.  [None] stands for
    the state behind such a backslash. *)
Fixpoint fish_args (m : option fmode) (w : option str) (x : str) : option (list str) :=
  match x with
  | [] => match m with Some FUnquoted => emit w (Some []) | _ => None end
  | c :: x' =>
      match m with
      | None =>
          if N.eqb c 116 then fish_args (Some FUnquoted) (push w TAB) x'
          else if N.eqb c LF then fish_args (Some FUnquoted) w x'
          else None
      | Some FUnquoted =>
          if N.eqb c SQ then fish_args (Some FInSQ) (start w) x'
          else if N.eqb c DQ then fish_args (Some FInDQ) (start w) x'
          else if N.eqb c BS then fish_args None w x'
          else if N.eqb c SP || N.eqb c TAB then emit w (fish_args (Some FUnquoted) None x')
          else if fish_special c then None
          else fish_args (Some FUnquoted) (push w c) x'
      | Some FInSQ =>
          if N.eqb c SQ then fish_args (Some FUnquoted) w x'
          else if N.eqb c BS then fish_args (Some FInSQEsc) w x'
          else fish_args (Some FInSQ) (push w c) x'
      | Some FInSQEsc =>
          if memc c [SQ; BS] then fish_args (Some FInSQ) (push w c) x'
          else fish_args (Some FInSQ) (push (push w BS) c) x'
      | Some FInDQ =>
          if N.eqb c DQ then fish_args (Some FUnquoted) w x'
          else if N.eqb c BS then fish_args (Some FInDQEsc) w x'
          else if N.eqb c DOLLAR then None
          else fish_args (Some FInDQ) (push w c) x'
      | Some FInDQEsc =>
          if N.eqb c LF then fish_args (Some FInDQ) w x'
          else if memc c [DOLLAR; DQ; BS] then fish_args (Some FInDQ) (push w c) x'
          else fish_args (Some FInDQ) (push (push w BS) c) x'
      end
  end.
(** A candidate: the text up to the first tabulator, and the description behind it. *)
Fixpoint fish_candidate (x : str) : choice :=
  match x with
  | [] => ([], [])
  | c :: x' => if N.eqb c TAB then ([], x') else let (a, d) := fish_candidate x' in (c :: a, d)
  end.
(** the argument of [complete -a] *)
Definition fish_argument (text : str) : option (list choice) :=
  option_map (map fish_candidate) (fish_args (Some FUnquoted) None text).
(** [printf] with the formats [%s\n] and [%s\t%s\n], used again until there are no more
    arguments *)
Fixpoint pairs (l : list str) : list (str * str) :=
  match l with a :: b :: l' => (a, b) :: pairs l' | [a] => [(a, [])] | [] => [] end.
Definition fish_printf (format : str) (args : list str) : option str :=
  if str_eqb format (s "%s\n") then
    Some (concat (map (fun a => a ++ [LF]) (match args with [] => [[]] | _ => args end)))
  else if str_eqb format (s "%s\t%s\n") then
    Some (concat (map (fun '(a, b) => a ++ [TAB] ++ b ++ [LF]) (match args with [] => [([], [])] | _ => pairs args end)))
  else None.
(** The lines of the output of a command. *)
Definition output_lines (x : str) : list str := removelast (split_c LF x).
(** [complete -a '(f)'], where the code of [f] is a call of [printf] *)
Definition fish_function_code (code : str) : option (list choice) :=
  match fish_args (Some FUnquoted) None code with
  | Some (command :: format :: args) =>
      if str_eqb command (s "printf")
      then option_map (fun out => map fish_candidate (output_lines out)) (fish_printf format args)
      else None
  | _ => None
  end.
(** The definition of the function [name] in a fish script. *)
Definition fish_function (name text : str) : option (list choice) :=
  match text_between (s "function " ++ name ++ [LF]) ([LF] ++ s "end") text with
  | Some body => fish_function_code body
  | None => None
  end.

(** ** Bash *)

(** What [COMPREPLY] is after the code has run: [COMPREPLY=($(compgen -W 'words' -- "$cur"))],
    [COMPREPLY+=...], or a call of the helper function [values_name] with or without [-a].
    [compgen] reads words with quotes; what it prints is split at blanks and newlines.  The helper
    compares every word with the beginning in [cur] and adds it (written so that Bash reads it as
    this word, which is not part of this model). *)
Definition begins_with (cur x : str) : bool := starts_with cur x.
Definition printed_words (x : str) : list str :=
  filter (fun w => match w with [] => false | _ => true end) (concat (map (split_c SP) (concat (map (split_c TAB) (split_c LF x))))).
Definition compgen_words (text cur : str) : option (list str) :=
  match posix_words text with
  | Some [words] =>
      option_map (fun ws => concat (map printed_words (filter (begins_with cur) ws))) (posix_words words)
  | _ => None
  end.
Definition bash_code (values_name code cur : str) (before : list str) : option (list str) :=
  let end_ := s " -- ""$cur""))" in
  match text_between (s "COMPREPLY=($(compgen -W ") end_ code, text_between (s "COMPREPLY+=($(compgen -W ") end_ code with
  | Some t, _ => compgen_words t cur
  | None, Some t => option_map (app before) (compgen_words t cur)
  | None, None =>
      match posix_words code with
      | Some (f :: args) =>
          if str_eqb f values_name then
            match args with
            | a :: args' =>
                if str_eqb a (s "-a") then
                  match args' with
                  | b :: args'' => Some (before ++ filter (begins_with cur) (if str_eqb b (s "--") then args'' else args'))
                  | [] => Some before
                  end
                else Some (filter (begins_with cur) (if str_eqb a (s "--") then args' else args))
            | [] => Some []
            end
          else None
      | _ => None
      end
  end.

(** ** What a definition asks for *)
Section Meant.
Variable show : value -> str.
Definition text_of (v : value) : str := match v with VStr x => x | _ => show v end.
(** The choices of a definition: texts, and descriptions if it is a dictionary that has some. *)
Definition meant (ch : choices) : list choice :=
  match ch with
  | CList l => map (fun v => (text_of v, [])) l
  | CDict d => map (fun '(k, v) => (text_of k, match v with VNone => [] | _ => text_of v end)) d
  end.
End Meant.
(** The definitions that are accepted (strings and numbers), and the choices of sub-commands (whose
    descriptions may be missing). *)
Definition string_or_number (v : value) : Prop := match v with VStr _ | VInt _ => True | _ => False end.
Definition accepted (ch : choices) : Prop :=
  match ch with
  | CList l => Forall string_or_number l
  | CDict d => Forall (fun '(k, v) => string_or_number k /\ (string_or_number v \/ v = VNone)) d
  end.
(** only strings *)
Definition is_string (v : value) : Prop := match v with VStr _ => True | _ => False end.
Definition only_strings (ch : choices) : Prop :=
  match ch with
  | CList l => Forall is_string l
  | CDict d => Forall (fun '(k, v) => is_string k /\ (is_string v \/ v = VNone)) d
  end.
