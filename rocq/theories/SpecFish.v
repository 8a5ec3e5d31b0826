(** * Specification: what a fish script does, as far as [set -l] and [complete] are concerned, and
    what its conditions mean.

    Written from the fish manual ("Quotes", "Variable expansion", "complete"); independent of the
    code under test.  Words with any other kind of expansion and all other commands are not read
    ([None]). *)
From Verif Require Import Base SpecShell.
Open Scope list_scope.

(** ** Words with variables *)

(** Variables with one value; a variable is not split into words. *)
Definition env := str -> option str.
(** [XVar quoted name]: inside the name of a variable *)
Inductive xmode := XUnquoted | XInSQ | XInSQEsc | XInDQ | XInDQEsc | XVar (quoted : bool) (name : str).
Definition chars (w : option str) : str := match w with Some x => x | None => [] end.

(** one character outside the name of a variable; [k] reads the rest *)
Definition fish_char (k : xmode -> option str -> option (list str)) (m : xmode) (w : option str) (c : N) : option (list str) :=
  match m with
  | XUnquoted =>
      if N.eqb c SQ then k XInSQ (start w)
      else if N.eqb c DQ then k XInDQ (start w)
      else if N.eqb c SP || N.eqb c TAB then emit w (k XUnquoted None)
      else if N.eqb c DOLLAR then k (XVar false []) w
      else if fish_special c then None
      else k XUnquoted (push w c)
  | XInSQ =>
      if N.eqb c SQ then k XUnquoted w
      else if N.eqb c BS then k XInSQEsc w
      else k XInSQ (push w c)
  | XInSQEsc => if memc c [SQ; BS] then k XInSQ (push w c) else k XInSQ (push (push w BS) c)
  | XInDQ =>
      if N.eqb c DQ then k XUnquoted w
      else if N.eqb c BS then k XInDQEsc w
      else if N.eqb c DOLLAR then k (XVar true []) w
      else k XInDQ (push w c)
  | XInDQEsc =>
      if N.eqb c LF then k XInDQ w
      else if memc c [DOLLAR; DQ; BS] then k XInDQ (push w c)
      else k XInDQ (push (push w BS) c)
  | XVar _ _ => None
  end.
Fixpoint fish_expand (e : env) (m : xmode) (w : option str) (x : str) : option (list str) :=
  match x with
  | [] =>
      match m with
      | XUnquoted => emit w (Some [])
      | XVar false name => match e name with Some v => Some [chars w ++ v] | None => None end
      | _ => None
      end
  | c :: x' =>
      let k := fun m w => fish_expand e m w x' in
      match m with
      | XVar quoted name =>
          if is_word c then k (XVar quoted (name ++ [c])) w
          else if N.eqb c LBRK then None
          else match e name with
               | Some v => fish_char k (if quoted then XInDQ else XUnquoted) (Some (chars w ++ v)) c
               | None => None
               end
      | _ => fish_char k m w c
      end
  end.
Definition fish_line (e : env) (x : str) : option (list str) := fish_expand e XUnquoted None x.

(** ** Running lines: the variables and the arguments of the [complete] commands *)

Definition set_var (e : env) (name value : str) : env := fun n => if str_eqb n name then Some value else e n.
Fixpoint run (e : env) (lines : list str) : option (env * list (list str)) :=
  match lines with
  | [] => Some (e, [])
  | l :: lines' =>
      match fish_line e l with
      | Some [c; o; name; value] =>
          if str_eqb c (s "set") && str_eqb o (s "-l") then run (set_var e name value) lines'
          else if str_eqb c (s "complete") then option_map (fun '(e', r) => (e', [o; name; value] :: r)) (run e lines')
          else None
      | Some (c :: args) =>
          if str_eqb c (s "complete") then option_map (fun '(e', r) => (e', args :: r)) (run e lines')
          else None
      | _ => None
      end
  end.
(** the commands that are run *)
Definition completes (e : env) (lines : list str) : option (list (list str)) := option_map snd (run e lines).

(** ** The arguments of [complete] *)

(** What the arguments say: the option strings that are completed ([-s], [-l], [-o]), the
    conditions ([-n]), the description ([-d]), the completions ([-a]), the command ([-c]) and the
    flags. *)
Record completion := MkCompletion {
  k_command : list str;
  k_conditions : list str;
  k_options : list str;
  k_description : list str;
  k_completions : list str;
  k_flags : str }.
Definition nothing : completion := MkCompletion [] [] [] [] [] [].
Fixpoint complete_args (args : list str) : option completion :=
  match args with
  | [] => Some nothing
  | a :: args' =>
      match args' with
      | x :: args'' =>
          if str_eqb a (s "-c") then
            option_map (fun k => MkCompletion (x :: k_command k) (k_conditions k) (k_options k) (k_description k) (k_completions k) (k_flags k)) (complete_args args'')
          else if str_eqb a (s "-n") then
            option_map (fun k => MkCompletion (k_command k) (x :: k_conditions k) (k_options k) (k_description k) (k_completions k) (k_flags k)) (complete_args args'')
          else if str_eqb a (s "-s") || str_eqb a (s "-o") then
            option_map (fun k => MkCompletion (k_command k) (k_conditions k) ((s "-" ++ x) :: k_options k) (k_description k) (k_completions k) (k_flags k)) (complete_args args'')
          else if str_eqb a (s "-l") then
            option_map (fun k => MkCompletion (k_command k) (k_conditions k) ((s "--" ++ x) :: k_options k) (k_description k) (k_completions k) (k_flags k)) (complete_args args'')
          else if str_eqb a (s "-d") then
            option_map (fun k => MkCompletion (k_command k) (k_conditions k) (k_options k) (x :: k_description k) (k_completions k) (k_flags k)) (complete_args args'')
          else if str_eqb a (s "-a") then
            option_map (fun k => MkCompletion (k_command k) (k_conditions k) (k_options k) (k_description k) (x :: k_completions k) (k_flags k)) (complete_args args'')
          else match a with
               | c :: f => if N.eqb c DASH && forallb (fun d => memc d (s "rfFxk")) f
                   then option_map (fun k => MkCompletion (k_command k) (k_conditions k) (k_options k) (k_description k) (k_completions k) (f ++ k_flags k)) (complete_args args')
                   else None
               | [] => None
               end
      | [] =>
          match a with
          | c :: f => if N.eqb c DASH && forallb (fun d => memc d (s "rfFxk")) f then Some (MkCompletion [] [] [] [] [] f) else None
          | [] => None
          end
      end
  end.
(** [-x] means [-r] and [-f] *)
Definition requires (f : str) : bool := memc 114 f || memc 120 f.
Definition no_files (f : str) : bool := memc 102 f || memc 120 f.
Definition force_files (f : str) : bool := memc 70 f.
Definition keep_order (f : str) : bool := memc 107 f.

(** ** Conditions

    The conditions of [complete -n] are command lists: commands joined by [&&] and [||] (of the
    same precedence, from left to right), negated by [not] or [!], and grouped by [begin ... ;end]. *)
Inductive ftok := FWord (x : str) | FAnd | FOr | FSemi.
Definition emit_word (w : option str) (r : option (list ftok)) : option (list ftok) :=
  match w with Some x => option_map (cons (FWord x)) r | None => r end.
Fixpoint fish_lex (m : fmode) (w : option str) (x : str) : option (list ftok) :=
  match x with
  | [] => match m with FUnquoted => emit_word w (Some []) | _ => None end
  | c :: x' =>
      match m with
      | FUnquoted =>
          if N.eqb c SQ then fish_lex FInSQ (start w) x'
          else if N.eqb c DQ then fish_lex FInDQ (start w) x'
          else if N.eqb c SP || N.eqb c TAB then emit_word w (fish_lex FUnquoted None x')
          else if N.eqb c SEMI then emit_word w (option_map (cons FSemi) (fish_lex FUnquoted None x'))
          else if N.eqb c AMP then
            match x' with
            | d :: x'' => if N.eqb d AMP then emit_word w (option_map (cons FAnd) (fish_lex FUnquoted None x'')) else None
            | [] => None
            end
          else if N.eqb c PIPE then
            match x' with
            | d :: x'' => if N.eqb d PIPE then emit_word w (option_map (cons FOr) (fish_lex FUnquoted None x'')) else None
            | [] => None
            end
          else if fish_special c then None
          else fish_lex FUnquoted (push w c) x'
      | FInSQ =>
          if N.eqb c SQ then fish_lex FUnquoted w x'
          else if N.eqb c BS then fish_lex FInSQEsc w x'
          else fish_lex FInSQ (push w c) x'
      | FInSQEsc =>
          if memc c [SQ; BS] then fish_lex FInSQ (push w c) x'
          else fish_lex FInSQ (push (push w BS) c) x'
      | FInDQ =>
          if N.eqb c DQ then fish_lex FUnquoted w x'
          else if N.eqb c BS then fish_lex FInDQEsc w x'
          else if N.eqb c DOLLAR then None
          else fish_lex FInDQ (push w c) x'
      | FInDQEsc =>
          if N.eqb c LF then fish_lex FInDQ w x'
          else if memc c [DOLLAR; DQ; BS] then fish_lex FInDQ (push w c) x'
          else fish_lex FInDQ (push (push w BS) c) x'
      end
  end.

(** [f] tells what becomes of the truth of the next command; [stack] holds the same for the
    enclosing blocks. *)
Inductive femode := FExpect (f : bool -> bool) | FCommand (f : bool -> bool) (ws : list str) | FHave (v : bool) | FEnd (v : bool).
Definition is_not (x : str) : bool := str_eqb x (s "not") || str_eqb x (s "!").
Section FishEvaluate.
Variable truth : list str -> bool.   (* which commands succeed *)
Fixpoint fish_eval_toks (m : femode) (stack : list (bool -> bool)) (ts : list ftok) : option bool :=
  match ts with
  | [] => match m, stack with
          | FCommand f ws, [] => Some (f (truth ws))
          | FHave v, [] => Some v
          | _, _ => None
          end
  | t :: ts' =>
      match m, t with
      | FExpect f, FWord x =>
          if is_not x then fish_eval_toks (FExpect (fun v => f (negb v))) stack ts'
          else if str_eqb x (s "begin") then fish_eval_toks (FExpect (fun v => v)) (f :: stack) ts'
          else fish_eval_toks (FCommand f [x]) stack ts'
      | FCommand f ws, FWord x => fish_eval_toks (FCommand f (ws ++ [x])) stack ts'
      | FCommand f ws, FAnd => let v := f (truth ws) in fish_eval_toks (FExpect (fun w => v && w)) stack ts'
      | FCommand f ws, FOr => let v := f (truth ws) in fish_eval_toks (FExpect (fun w => v || w)) stack ts'
      | FCommand f ws, FSemi => fish_eval_toks (FEnd (f (truth ws))) stack ts'
      | FHave v, FAnd => fish_eval_toks (FExpect (fun w => v && w)) stack ts'
      | FHave v, FOr => fish_eval_toks (FExpect (fun w => v || w)) stack ts'
      | FHave v, FSemi => fish_eval_toks (FEnd v) stack ts'
      | FEnd v, FWord x =>
          if str_eqb x (s "end") then
            match stack with f :: stack' => fish_eval_toks (FHave (f v)) stack' ts' | [] => None end
          else None
      | _, _ => None
      end
  end.
(** the truth of a condition, or [None] if it is none *)
Definition fish_eval (x : str) : option bool :=
  match fish_lex FUnquoted None x with
  | Some ts => fish_eval_toks (FExpect (fun v => v)) [] ts
  | None => None
  end.
End FishEvaluate.

(** The variables that hold the names of functions: names that are no keywords and differ from
    each other. *)
Definition function_variables : list str :=
  [s "P"; s "has_option"; s "num_of_positionals"; s "positional_contains"; s "option_is"; s "option_match"].
Definition good_names (e : env) : Prop :=
  (forall n, In n function_variables -> exists f, e n = Some f /\ f <> [] /\ forallb is_word f = true /\ f <> s "not" /\ f <> s "begin") /\
  (forall n n', In n function_variables -> In n' function_variables -> e n = e n' -> n = n').

(** Options for [complete] that completers return: [-f], [-F] and [-a TEXT], of which the last one
    counts. *)
Inductive completer_args : list str -> bool -> bool -> option str -> Prop :=
| ca_nil : completer_args [] false false None
| ca_no_files l f F a : completer_args l f F a -> completer_args (s "-f" :: l) true F a
| ca_files l f F a : completer_args l f F a -> completer_args (s "-F" :: l) f true a
| ca_arguments l f F a x : completer_args l f F a ->
    completer_args (s "-a" :: x :: l) f F (match a with Some y => Some y | None => Some x end).
