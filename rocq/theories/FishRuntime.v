(** * Model of the helper functions that fish scripts call in conditions (fish_helpers.py).

    Simplifications:
    - the parsed command line (the variables [__QUERY_CACHE_...]) is a record; FishQuery.v is about
      how it is computed (query_init);
    - the preprocessor conditions [nocase], [any] and [with_incomplete] are taken as enabled and
      [DEBUG] as disabled;
    - [string lower] maps the letters A-Z only;
    - the regular expressions of [string match] and what [has_option WITH_INCOMPLETE] looks for in
      the words being typed are parameters;
    - a function that does not end or stops with an error has the status [false]. *)
From Verif Require Import Base StrUtils When.
Open Scope list_scope.

(** the positional arguments; the options that are given, with their values, in order *)
Record query := MkQuery { q_positionals : list str; q_options : list (str * str) }.

(** the builtin [contains -- KEY WORDS...] *)
Definition fish_contains (args : list str) : bool := match args with key :: l => mems key l | [] => false end.
(** [$list[n]] as a list of words: numbers count from one, negative ones from the end; a missing
    element is no word, and 0 is an error *)
Definition fish_element (l : list str) (n : Z) : option (list str) :=
  if (n =? 0)%Z then None
  else
    let i := if (n <? 0)%Z then (Z.of_nat (List.length l) + n)%Z else (n - 1)%Z in
    Some (if (i <? 0)%Z then [] else match nth_error l (Z.to_nat i) with Some x => [x] | None => [] end).
(** the builtin [test COUNT OPERATOR NUMBER] *)
Definition fish_compare (a : Z) (op : str) (b : Z) : bool :=
  if str_eqb op (s "-eq") then (a =? b)%Z
  else if str_eqb op (s "-ne") then negb (a =? b)%Z
  else if str_eqb op (s "-le") then (a <=? b)%Z
  else if str_eqb op (s "-ge") then (a >=? b)%Z
  else if str_eqb op (s "-lt") then (a <? b)%Z
  else if str_eqb op (s "-gt") then (a >? b)%Z
  else false.

Section Helpers.
(** [matches regex nocase value] *)
Variable matches : str -> bool -> str -> bool.
(** the last words of the command line contain one of these options, possibly without argument *)
Variable incomplete : list str -> bool.
Variable q : query.

(** fish_helpers.py 250-279 *)
Definition h_positional_contains (argv : list str) : bool :=
  let '(nocase, argv) := match argv with a :: argv' => if str_eqb a (s "-i") then (true, argv') else (false, argv) | [] => (false, []) end in
  match argv with
  | n :: argv =>
      match py_int n with
      | Some n =>
          match fish_element (q_positionals q) n with
          | Some x => if nocase then fish_contains (map lower (x ++ argv)) else fish_contains (x ++ argv)
          | None => false
          end
      | None => false
      end
  | [] => false
  end.
(** fish_helpers.py 281-322 *)
Definition h_has_option (argv : list str) : bool :=
  match argv with
  | a :: argv' =>
      if str_eqb a (s "WITH_INCOMPLETE")
      then existsb (fun o => mems (fst o) argv') (q_options q) || incomplete argv'
      else existsb (fun o => mems (fst o) argv) (q_options q)
  | [] => false
  end.
(** fish_helpers.py 333-343, 399-408: the flags in front of [--].  Any other word is tested again
    and again. *)
Fixpoint h_flags (any nocase : bool) (argv : list str) : option (bool * bool * list str) :=
  match argv with
  | [] => Some (any, nocase, [])
  | a :: argv' =>
      if str_eqb a (s "-a") then h_flags true nocase argv'
      else if str_eqb a (s "-i") then h_flags any true argv'
      else if str_eqb a (s "--") then Some (any, nocase, argv')
      else None
  end.
(** the words before and behind the first [--] *)
Fixpoint h_split (argv : list str) : list str * list str :=
  match argv with
  | [] => ([], [])
  | a :: argv' => if str_eqb a (s "--") then ([], argv') else let (o, v) := h_split argv' in (a :: o, v)
  end.
(** fish_helpers.py 367-385, 424-443: from the last option to the first *)
Fixpoint h_scan (any : bool) (options : list str) (ok : str -> bool) (l : list (str * str)) : bool :=
  match l with
  | [] => false
  | (o, v) :: l' =>
      if mems o options then
        if ok v then true else if any then h_scan any options ok l' else false
      else h_scan any options ok l'
  end.
(** fish_helpers.py 324-386 *)
Definition h_option_is (argv : list str) : bool :=
  match h_flags false false argv with
  | Some (any, nocase, argv) =>
      let (options, values) := h_split argv in
      let values := if nocase then map lower values else values in
      h_scan any options (fun v => mems (if nocase then lower v else v) values) (rev (q_options q))
  | None => false
  end.
(** fish_helpers.py 388-445 *)
Definition h_option_match (argv : list str) : bool :=
  match h_flags false false argv with
  | Some (any, nocase, argv) =>
      let (options, rest) := h_split argv in
      match rest with
      | regex :: _ => h_scan any options (matches regex nocase) (rev (q_options q))
      | [] => false
      end
  | None => false
  end.
(** fish_helpers.py 447-478; without arguments the number is printed *)
Definition h_num_of_positionals (argv : list str) : bool :=
  match argv with
  | [] => true
  | [op; n] =>
      match py_int n with
      | Some n => fish_compare (Z.of_nat (List.length (q_positionals q))) op n
      | None => false
      end
  | _ => true
  end.

(** fish.py 311-317: the names of the functions are the values of variables; the last command of
    the function [$P] is [return 0] (fish_prepare.py 93) *)
Definition fish_truth (e : str -> option str) (words : list str) : bool :=
  match words with
  | f :: argv =>
      let is name := match e name with Some x => str_eqb f x | None => false end in
      if is (s "P") then true
      else if is (s "has_option") then h_has_option argv
      else if is (s "num_of_positionals") then h_num_of_positionals argv
      else if is (s "positional_contains") then h_positional_contains argv
      else if is (s "option_is") then h_option_is argv
      else if is (s "option_match") then h_option_match argv
      else false
  | [] => false
  end.
End Helpers.
