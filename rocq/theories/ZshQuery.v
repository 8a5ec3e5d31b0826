(** * Model of how zsh scripts read the command line: the helper functions [query], [option_match] and
    [array_contains] (zsh_helpers.py 9-373), and how the function of a command calls those of
    its sub-commands.

    Simplifications:
    - the preprocessor conditions [with_incomplete] and [DEBUG] are taken as disabled, and [nocase],
      [any] as enabled;
    - [${=1}] splits at blanks only: option strings contain no other white space;
    - the words are those of the array [words] without the first one; [unquote] stands for
      [${(Q)...}];
    - [(L)] maps the letters A-Z only;
    - the regular expressions of [[[ ... =~ ... ]]] are a parameter. *)
From Verif Require Import Base Value Shell StrUtils SpecShell Cli SpecCli BashUtils BashParser When SpecWhen FishRuntime FishQuery.
Open Scope list_scope.

(** ** zsh_helpers.py 182-219: the available options *)
Inductive style := Short | Long | Old.
Definition style_eqb (a b : style) : bool :=
  match a, b with Short, Short | Long, Long | Old, Old => true | _, _ => false end.
Definition akind_eqb (a b : argkind) : bool :=
  match a, b with ArgNone, ArgNone | ArgRequired, ArgRequired | ArgOptional, ArgOptional => true | _, _ => false end.
(** the patterns [P?*S]: [P], at least [n] more characters, [S] *)
Definition at_least (p : str) (n : nat) (suffix w : str) : bool :=
  starts_with p w && ends_with suffix w && (List.length p + n + List.length suffix <=? List.length w).
Definition exactly (p : str) (n : nat) (suffix w : str) : bool :=
  starts_with p w && ends_with suffix w && (List.length p + n + List.length suffix =? List.length w).
Definition without_last (n : nat) (w : str) : str := firstn (List.length w - n) w.
(** zsh_helpers.py 197-219: the array that a word is added to, and what is added *)
Definition classify (m : macros) (w : str) : option (style * argkind * str) :=
  if m_long m && at_least (s "--") 1 (s "=") w then Some (Long, ArgRequired, without_last 1 w)
  else if m_long m && at_least (s "--") 1 (s "=?") w then Some (Long, ArgOptional, without_last 2 w)
  else if m_long m && at_least (s "--") 1 [] w then Some (Long, ArgNone, w)
  else if m_short m && exactly (s "-") 1 (s "=") w then Some (Short, ArgRequired, without_last 1 w)
  else if m_short m && exactly (s "-") 1 (s "=?") w then Some (Short, ArgOptional, without_last 2 w)
  else if m_short m && exactly (s "-") 1 [] w then Some (Short, ArgNone, w)
  else if m_old m && at_least (s "-") 2 (s "=") w then Some (Old, ArgRequired, without_last 1 w)
  else if m_old m && at_least (s "-") 2 (s "=?") w then Some (Old, ArgOptional, without_last 2 w)
  else if m_old m && at_least (s "-") 2 [] w then Some (Old, ArgNone, w)
  else None.
Definition opts_array (m : macros) (words : list str) (st : style) (k : argkind) : list str :=
  flat_map (fun w => match classify m w with
                     | Some (st', k', x) => if style_eqb st st' && akind_eqb k k' then [x] else []
                     | None => []
                     end) words.

Section Word.
Variable m : macros.
(** [known st k x]: [x] is in the array of the options of the style [st] and the kind [k] *)
Variable known : style -> argkind -> str -> bool.

(** zsh_helpers.py 240-258 *)
Definition zread_long (arg : str) : meaning :=
  match split_eq arg with
  | Some (x, v) => ([(x, v)], None)
  | None =>
      if m_long m then
        if known Long ArgRequired arg then ([], Some arg) else ([(arg, [])], None)
      else ([], None)
  end.
(** zsh_helpers.py 260-284; [None]: goes on with the short options *)
Definition zread_old (arg : str) : option meaning :=
  match split_eq arg with
  | Some (x, v) =>
      if known Old ArgRequired x || known Old ArgOptional x then Some ([(x, v)], None) else None
  | None =>
      if known Old ArgRequired arg then Some ([], Some arg)
      else if known Old ArgNone arg || known Old ArgOptional arg then Some ([(arg, [])], None)
      else None
  end.
(** zsh_helpers.py 286-315 *)
Fixpoint zread_short (chars : str) : meaning :=
  match chars with
  | [] => ([], None)
  | c :: trailing =>
      let x := [DASH; c] in
      if known Short ArgNone x then let (l, w) := zread_short trailing in ((x, []) :: l, w)
      else if known Short ArgRequired x then
        match trailing with [] => ([], Some x) | _ => ([(x, trailing)], None) end
      else if known Short ArgOptional x then ([(x, trailing)], None)
      else zread_short trailing
  end.
Definition zread_dash (arg : str) : meaning :=
  match (if m_old m then zread_old arg else None) with
  | Some r => r
  | None => if m_short m then zread_short (tl arg) else ([], None)
  end.
End Word.

Section Query.
Variable unquote : str -> str.

(** zsh_helpers.py 221-319; the words behind [--] are taken as they are *)
Fixpoint zquery_loop (m : macros) (known : style -> argkind -> str -> bool) (positionals : list str) (options : list (str * str))
    (words : list str) : query :=
  match words with
  | [] => MkQuery positionals options
  | w :: rest =>
      let arg := unquote w in
      if str_eqb arg (s "--") then MkQuery (positionals ++ rest) options
      else if starts_with (s "-") arg && (2 <=? List.length arg) then
        let (l, waiting) := if starts_with (s "--") arg then zread_long m known arg else zread_dash m known arg in
        match waiting with
        | None => zquery_loop m known positionals (options ++ l) rest
        | Some x =>
            match rest with
            | v :: rest' => zquery_loop m known positionals (options ++ l ++ [(x, unquote v)]) rest'
            | [] => MkQuery positionals (options ++ l)
            end
        end
      else zquery_loop m known (positionals ++ [arg]) options rest
  end.
(** zsh_helpers.py 170-172, 182-319: [query init "OPTIONS" "${words[@]}"] *)
Definition zquery_init (m : macros) (options : str) (words : list str) : query :=
  let opts := filter nonempty (split_c SP options) in
  zquery_loop m (fun st k x => mems x (opts_array m opts st k)) [] [] words.

(** zsh.py 110-131: the function of the command [c] with the ancestors [ps] reads the command line.
    zsh.py 255-267: the macros are those of the first command. *)
Definition zquery (root : cmd) (ps : list cmd) (c : cmd) (words : list str) : query :=
  zquery_init (get_macros root) (get_query_option_strings ps c true) words.

(** zsh_helpers.py 58-73: ["$(query get_positional N)"]; command substitution removes newlines at
    the end *)
Definition get_positional (q : query) (n : Z) : str :=
  rstrip_p (N.eqb LF) (nth (Z.to_nat (n - 1)) (q_positionals q) []).

(** zsh.py 151-168: the command whose function completes the command line, with its ancestors.  The
    names of the functions of different commands are taken to be different. *)
Fixpoint completing (root : cmd) (ps : list cmd) (c : cmd) (words : list str) : res (list cmd * cmd) :=
  let 'Cmd _ _ _ _ _ _ _ _ _ subcommands := c in
  match subcommands with
  | None => Ok (ps, c)
  | Some l =>
      let w := get_positional (zquery root ps c words) (positional_index ps (subcommands_number c) + 1) in
      (fix case l :=
         match l with
         | [] => Ok (ps, c)
         | sub :: l' =>
             do cmds <- get_all_command_variations sub (Some c);
             if mems w cmds then completing root (c :: ps) sub words else case l'
         end) l
  end.
End Query.

(** ** Tests *)

Section Helpers.
(** [matches regex nocase value] *)
Variable matches : str -> bool -> str -> bool.
Variable q : query.

(** zsh_helpers.py 322-326 *)
Definition array_contains (argv : list str) : bool := match argv with key :: l => mems key l | [] => false end.
(** zsh_helpers.py 94-119 *)
Definition z_has_option (argv : list str) : bool := existsb (fun o => mems (fst o) argv) (q_options q).
(** zsh_helpers.py 126-134, 331-339: the flags in front of [--]; any other word is tested again and
    again *)
Fixpoint z_flags (any nocase : bool) (argv : list str) : option (bool * bool * list str) :=
  match argv with
  | [] => Some (any, nocase, [])
  | a :: argv' =>
      if str_eqb a (s "-a") then z_flags true nocase argv'
      else if str_eqb a (s "-i") then z_flags any true argv'
      else if str_eqb a (s "--") then Some (any, nocase, argv')
      else None
  end.
(** the words before and behind the first [--] *)
Fixpoint z_split (argv : list str) : list str * list str :=
  match argv with
  | [] => ([], [])
  | a :: argv' => if str_eqb a (s "--") then ([], argv') else let (o, v) := z_split argv' in (a :: o, v)
  end.
(** zsh_helpers.py 155-169, 356-372: from the last option to the first *)
Fixpoint z_scan (any : bool) (options : list str) (ok : str -> bool) (l : list (str * str)) : bool :=
  match l with
  | [] => false
  | (o, v) :: l' =>
      if mems o options then if ok v then true else if any then z_scan any options ok l' else false
      else z_scan any options ok l'
  end.
(** zsh_helpers.py 121-172 *)
Definition z_option_is (argv : list str) : bool :=
  match z_flags false false argv with
  | Some (any, nocase, argv) =>
      let (options, values) := z_split argv in
      let values := if nocase then map lower values else values in
      z_scan any options (fun v => mems (if nocase then lower v else v) values) (rev (q_options q))
  | None => false
  end.
(** zsh_helpers.py 328-373; the parameters of the function are called from elsewhere *)
Definition z_option_match_run (argv : list str) : bool :=
  match z_flags false false argv with
  | Some (any, nocase, argv) =>
      let (options, rest) := z_split argv in
      match rest with
      | regex :: _ => z_scan any options (matches regex nocase) (rev (q_options q))
      | [] => z_scan any options (matches [] nocase) (rev (q_options q))
      end
  | None => false
  end.

(** [$POSITIONALS[n]]: numbers count from one, negative ones from the end *)
Definition z_element (l : list str) (n : Z) : str :=
  let i := if (n <? 0)%Z then (Z.of_nat (List.length l) + n)%Z else (n - 1)%Z in
  if (i <? 0)%Z then [] else nth (Z.to_nat i) l [].
(** [(( a op b ))] *)
Definition z_compare (a : Z) (op : str) (b : Z) : bool :=
  if str_eqb op (s "==") then (a =? b)%Z
  else if str_eqb op (s "!=") then negb (a =? b)%Z
  else if str_eqb op (s "<=") then (a <=? b)%Z
  else if str_eqb op (s ">=") then (a >=? b)%Z
  else if str_eqb op (s "<") then (a <? b)%Z
  else if str_eqb op (s ">") then (a >? b)%Z
  else false.
(** the text before and behind the first [c] *)
Fixpoint cut_at (c : N) (x : str) : option (str * str) :=
  match x with
  | [] => None
  | d :: x' => if N.eqb d c then Some ([], x') else option_map (fun '(a, b) => (d :: a, b)) (cut_at c x')
  end.
Definition behind (p x : str) : option str := if starts_with p x then Some (skipn (List.length p) x) else None.
(** [${#POSITIONALS[@]} op n ))] *)
Definition z_arithmetic (rest : str) : bool :=
  match split_c SP rest with
  | [v; op; n; close] =>
      if str_eqb v (s "${#POSITIONALS[@]}") && str_eqb close (s "))") then
        match py_int n with Some n => z_compare (Z.of_nat (List.length (q_positionals q))) op n | None => false end
      else false
  | _ => false
  end.
(** ["${(L)POSITIONALS[n]}" values] *)
Definition z_positional_contains (rest : str) : bool :=
  match behind (s """${") rest with
  | None => false
  | Some rest =>
      let '(nocase, rest) := match behind (s "(L)") rest with Some r => (true, r) | None => (false, rest) end in
      match behind (s "POSITIONALS[") rest with
      | None => false
      | Some rest =>
          match cut_at RBRK rest with
          | None => false
          | Some (n, rest) =>
              match py_int n, behind (s "}"" ") rest with
              | Some n, Some rest =>
                  match zsh_words rest with
                  | Some values =>
                      let x := z_element (q_positionals q) n in
                      array_contains ((if nocase then lower x else x) :: values)
                  | None => false
                  end
              | _, _ => false
              end
          end
      end
  end.
(** The status of the commands that conditions consist of.  Other commands are not modelled; they
    have the status [false]. *)
Definition zsh_truth (e : zenv) (text : str) : bool :=
  match cut_at SP text with
  | None => false
  | Some (f, rest) =>
      if str_eqb f (s "((") then z_arithmetic rest
      else if str_eqb f (z_array_contains e) then z_positional_contains rest
      else
        match zsh_words rest with
        | None => false
        | Some argv =>
            if str_eqb f (z_option_match e) then z_option_match_run argv
            else if str_eqb f (z_query e) then
              match argv with
              | a :: argv => if str_eqb a (s "option_is") then z_option_is argv else if str_eqb a (s "has_option") then z_has_option argv else false
              | [] => false
              end
            else false
        end
  end.
End Helpers.

(** The exit status of the text of a condition *)
Definition zsh_holds (matches : str -> bool -> str -> bool) (q : query) (e : zenv) (code : str) : bool :=
  match sh_eval (zsh_truth matches q e) code with Some b => b | None => false end.
