(** * Specification: arithmetic conditions of Bash, and what completion in Bash is to offer.

    Independent of the code under test.  Arithmetic conditions are written from the Bash manual
    ("Arithmetic Evaluation", "Arrays": [${#NAME[@]}] is the number of elements of an array). *)
From Verif Require Import Base Value StrUtils PyStr Cli SpecCli When SpecShell SpecWhen BashUtils BashParser SpecParser SpecOffered.
Open Scope list_scope.

Section Arithmetic.
Variable count : str -> nat.     (* the number of elements of an array *)

(** [${#NAME[@]}] *)
Definition length_of (word : str) : option nat :=
  if starts_with (s "${#") word && ends_with (s "[@]}") word && Nat.leb 7 (List.length word)
  then Some (count (firstn (List.length word - 7) (skipn 3 word)))
  else None.
(** [! ${#A[@]} && ! ${#B[@]} && ..] *)
Fixpoint all_empty (words : list str) : option bool :=
  match words with
  | not :: word :: rest =>
      if str_eqb not (s "!") then
        match length_of word with
        | None => None
        | Some n =>
            match rest with
            | [] => Some (Nat.eqb n 0)
            | op :: rest' => if str_eqb op (s "&&") then option_map (andb (Nat.eqb n 0)) (all_empty rest') else None
            end
        end
      else None
  | _ => None
  end.
(** [${#A[@]} + ${#B[@]} + ..] *)
Fixpoint total (words : list str) : option nat :=
  match words with
  | [] => None
  | word :: rest =>
      match length_of word with
      | None => None
      | Some n =>
          match rest with
          | [] => Some n
          | op :: rest' => if str_eqb op (s "+") then option_map (Nat.add n) (total rest') else None
          end
      end
  end.
(** The value of [(( .. ))] if it is one of these. *)
Definition arithmetic (command : str) : option bool :=
  if starts_with (s "(( ") command && ends_with (s " ))") command then
    let words := split_c SP (firstn (List.length command - 6) (skipn 3 command)) in
    match all_empty words with
    | Some b => Some b
    | None => option_map (fun n => negb (Nat.eqb n 0)) (total words)
    end
  else None.
End Arithmetic.

(** ** Commands in conditions *)

(** The commands that conditions consist of, in a shell with these arrays; written from the Bash
    manual ("Quoting", "Shell Parameter Expansion", "Arrays") and, for the three functions that
    the scripts define, from what their names say. *)
Section Shell.
Variable arrays : str -> list str.
(** the value matches the regular expression, without regard to case *)
Variable matches : str -> bool -> str -> bool.
Variables array_contains array_contains_nocase array_match : str.   (* the names of the functions *)

(** The words of a command, before expansions: they are separated by blanks outside of quotes. *)
Fixpoint raw_words (m : qmode) (word text : str) : list str :=
  match text with
  | [] => match word with [] => [] | _ => [word] end
  | c :: rest =>
      match m with
      | Unquoted =>
          if N.eqb c SP then match word with [] => raw_words Unquoted [] rest | _ => word :: raw_words Unquoted [] rest end
          else raw_words (if N.eqb c SQ then InSQ else if N.eqb c DQ then InDQ else Unquoted) (word ++ [c]) rest
      | InSQ => raw_words (if N.eqb c SQ then Unquoted else InSQ) (word ++ [c]) rest
      | InDQ => raw_words (if N.eqb c DQ then Unquoted else if N.eqb c BS then InDQEsc else InDQ) (word ++ [c]) rest
      | InDQEsc => raw_words InDQ (word ++ [c]) rest
      end
  end.
(** the parts before and behind the first [c] *)
Fixpoint cut (c : N) (x : str) : str * str :=
  match x with
  | [] => ([], [])
  | d :: x' => if N.eqb d c then ([], x') else let '(a, b) := cut c x' in (d :: a, b)
  end.
(** ["${name[index]}"]: the name, and what is behind the bracket *)
Definition subscript (word : str) : option (str * str) :=
  if starts_with (s """${") word && ends_with (s "}""") word && memc LBRK word then
    let inner := firstn (List.length word - 5) (skipn 3 word) in
    Some (cut LBRK inner)
  else None.
Definition last_one (l : list str) : list str := match rev l with [] => [] | x :: _ => [x] end.
(** negative indices count from the end; nothing is there outside of the array *)
Definition element (l : list str) (n : Z) : str :=
  let n := if (n <? 0)%Z then (n + Z.of_nat (List.length l))%Z else n in
  if (n <? 0)%Z then [] else nth (Z.to_nat n) l [].
Definition expansion (word : str) : option (list str) :=
  match subscript word with
  | Some (name, index) =>
      if str_eqb index (s "@]") then Some (arrays name)
      else if str_eqb index (s "@]: -1:1") then Some (last_one (arrays name))
      else if ends_with (s "],,") index then
        option_map (fun n => [lower (element (arrays name) n)]) (When.py_int (firstn (List.length index - 3) index))
      else if ends_with (s "]") index then
        option_map (fun n => [element (arrays name) n]) (When.py_int (firstn (List.length index - 1) index))
      else None
  | None => posix_words word
  end.
Fixpoint expansions (words : list str) : option (list str) :=
  match words with
  | [] => Some []
  | word :: words =>
      match expansion word, expansions words with Some a, Some b => Some (a ++ b) | _, _ => None end
  end.
(** [(( ${#NAME[@]} OPERATOR NUMBER ))] *)
Definition comparison (command : str) : option bool :=
  if starts_with (s "(( ") command && ends_with (s " ))") command then
    match split_c SP (firstn (List.length command - 6) (skipn 3 command)) with
    | [l; op; r] =>
        match length_of (fun v => List.length (arrays v)) l, When.py_int r with
        | Some a, Some b =>
            let a := Z.of_nat a in
            if str_eqb op (s "==") then Some (a =? b)%Z
            else if str_eqb op (s "!=") then Some (negb (a =? b)%Z)
            else if str_eqb op (s "<=") then Some (a <=? b)%Z
            else if str_eqb op (s ">=") then Some (b <=? a)%Z
            else if str_eqb op (s "<") then Some (a <? b)%Z
            else if str_eqb op (s ">") then Some (b <? a)%Z
            else None
        | _, _ => None
        end
    | _ => None
    end
  else None.
Definition simple_command (command : str) : bool :=
  match comparison command with
  | Some b => b
  | None =>
      match expansions (raw_words Unquoted [] command) with
      | Some (f :: args) =>
          if str_eqb f array_contains then match args with a :: l => existsb (str_eqb a) l | [] => false end
          else if str_eqb f array_contains_nocase then match args with a :: l => existsb (fun b => str_eqb (lower a) (lower b)) l | [] => false end
          else if str_eqb f array_match then
            match args with
            | a :: l =>
                let '(ic, args) := if str_eqb a (s "-i") then (true, l) else (false, args) in
                match args with
                | a :: l =>
                    match (if str_eqb a (s "--") then l else args) with
                    | regex :: l => existsb (matches regex ic) l
                    | [] => false
                    end
                | [] => false
                end
            | [] => false
            end
          else false
      | _ => false
      end
  end.
End Shell.

(** Which commands succeed, if the arrays have these lengths. *)
Definition bash_truth (count : str -> nat) (other : str -> bool) (command : str) : bool :=
  match arithmetic count command with Some b => b | None => other command end.

(** ** Conditions *)

(** The values of an option on the command line, in order, and the positional arguments. *)
Section Conditions.
Variable matches : str -> bool -> str -> bool.
Variable values : opt -> list str.
Variable positionals : list str.
(** The option has one of these strings. *)
Definition one_of (c : cmd) (os : list str) (o : opt) : Prop :=
  In o (c_options c) /\ exists x, In x os /\ In x (o_strings o).
(** [v] is the last value of an option, or any *)
Definition value_for (any : bool) (o : opt) (v : str) : Prop :=
  exists before after, values o = before ++ v :: after /\ (any = true \/ after = []).
Definition test_true (c : cmd) (t : wobj) : Prop :=
  match t with
  | HasOption os => exists o, one_of c os o /\ values o <> []
  | OptionIs os ws ic any => exists o v w, one_of c os o /\ value_for any o v /\ In w ws /\ same ic v w
  | OptionMatch os regex ic any => exists o v, one_of c os o /\ value_for any o v /\ matches regex ic v = true
  | PositionalCount op n => compares (Z.of_nat (List.length positionals)) op n
  | PositionalContains ic n ws => exists w, In w ws /\ same ic (element positionals (n - 1)) w
  end.
Fixpoint term_value (c : cmd) (t : term wobj) : Prop :=
  match t with
  | Test o => test_true c o
  | Negation t => ~ term_value c t
  | Group l => cond_value c l
  end
with cond_value (c : cmd) (l : conds wobj) : Prop :=
  match l with
  | One t => term_value c t
  | And l t => cond_value c l /\ term_value c t
  | Or l t => cond_value c l \/ term_value c t
  end.
End Conditions.

(** ** Options *)

Section Offers.
Variable count : str -> nat.                   (* the number of values of a variable *)
Variable variable : opt -> str -> Prop.        (* the variable of an option *)
Variable condition : cmd -> str -> bool -> Prop. (* the value of a condition of [when] *)

Definition not_given (o : opt) : Prop := forall v, variable o v -> count v = 0.
(** An option is offered unless it is hidden, or a final option of the command or of an ancestor, a
    conflicting option, or (if it may not be repeated) the option itself is given; and only if
    its condition holds. *)
Record string_offered (ps : list cmd) (c : cmd) (o : opt) : Prop := {
  so_visible : o_hidden o = false;
  so_final : forall d f, In d (c :: ps) -> In f (c_options d) -> o_final f = true -> not_given f;
  so_exclusive : forall p, In p (c_options c) -> opt_eqb p o = false -> share_group o p -> not_given p;
  so_once : o_repeatable o = XFalse -> not_given o;
  so_holds : forall e, o_when o = Some e -> condition c e true }.
End Offers.

(** The positional arguments and the values of options of a command line, from what it means. *)
Definition positionals_in (es : list event) : list str :=
  flat_map (fun e => match e with Positional w => [w] | _ => [] end) es.
Definition values_for (es : list event) (v : str) : list str :=
  flat_map (fun e => match e with Append v' x => if str_eqb v' v then [x] else [] | _ => [] end) es.
Definition given_values (es : list event) (o : opt) : list str :=
  match opt_variable o with Ok v => values_for es v | Err _ => [] end.
Definition arrays_of (es : list event) (v : str) : list str :=
  if str_eqb v (s "POSITIONALS") then positionals_in es else values_for es v.

(** An option is offered behind a command line that means [es]. *)
Section Given.
Variable ere : str -> bool.
Variable matches : str -> bool -> str -> bool.
Variable es : list event.
(** The condition [e] holds. *)
Definition condition_holds (c : cmd) (e : str) : Prop :=
  exists cond, parse_when ere e = Ok (map wtok_of (conds_syms cond)) /\
    cond_value matches (given_values es) (positionals_in es) c cond.
Record to_offer (p : place) (o : opt) : Prop := {
  of_option : In o (c_options (snd p));
  of_visible : o_hidden o = false;
  of_final : forall d f, In d (snd p :: fst p) -> In f (c_options d) -> o_final f = true -> given_values es f = [];
  of_exclusive : forall q, In q (c_options (snd p)) -> opt_eqb q o = false -> share_group o q -> given_values es q = [];
  of_once : o_repeatable o = XFalse -> given_values es o = [];
  of_when : forall e, o_when o = Some e -> condition_holds (snd p) e }.
End Given.

(** Long and old-style options are offered with [=] if their argument is optional, or may be
    written so. *)
Definition wants_equals (o : opt) : Prop :=
  arg_kind o = ArgOptional \/ arg_kind o = ArgRequired /\ (o_sep o = SepBoth \/ o_sep o = SepEquals).
Definition offered_text (o : opt) (x : str) : Prop :=
  exists y, In y (o_strings o) /\
    ((List.length y = 2 \/ ~ wants_equals o) /\ x = y \/ 3 <= List.length y /\ wants_equals o /\ x = y ++ [EQ]).

(** ** Arguments of options *)

(** The option letters in front of the last one stand for options without argument: options of the
    command itself, or of its ancestors if all of them pass on their options. *)
Definition flags_before (here : place) (flags : str) : Prop :=
  forall f, In f flags -> exists p, known here [DASH; f] p /\ arg_kind p = ArgNone /\
    (In p (c_options (snd here)) \/ passes_on (snd here) /\ forall d, In d (fst here) -> passes_on d).

(** [prev] is a word whose argument is to be completed: the option [o] is written as a word of its
    own, or stands last behind flags. *)
Inductive waiting_word (here : place) : str -> opt -> Prop :=
| ww_word o x : spelling here o x -> arg_kind o = ArgRequired -> waiting_word here x o
| ww_cluster o flags ch : spelling here o [DASH; ch] -> arg_kind o = ArgRequired -> flags <> [] ->
    flags_before here flags -> (forall p, ~ spelling here p (DASH :: flags ++ [ch])) ->
    waiting_word here (DASH :: flags ++ [ch]) o.
(** The word at the cursor contains the argument: what is to be completed, and the text before it
    that stays as it is. *)
Inductive attached_word (here : place) : str -> opt -> str -> str -> Prop :=
| aw_word o x t : spelling here o x -> 3 <= List.length x -> arg_kind o <> ArgNone ->
    attached_word here (x ++ [EQ] ++ t) o t []
| aw_cluster o flags ch t : spelling here o [DASH; ch] -> arg_kind o <> ArgNone ->
    flags_before here flags -> ~ In EQ t ->
    (forall z, considered here z -> ~ is_prefix (DASH :: flags ++ ch :: t) z) ->
    attached_word here (DASH :: flags ++ ch :: t) o t (DASH :: flags ++ [ch]).

(** [prev] cannot be understood as a word whose argument is to be completed. *)
Definition unclaimed (here : place) (prev : str) : Prop :=
  is_prefix [DASH] prev -> forall o, arg_kind o = ArgRequired ->
    ~ spelling here o prev /\
    (is_prefix [DASH; DASH] prev \/ forall y ch, prev = y ++ [ch] -> ~ spelling here o [DASH; ch]).
(** [cur] has no argument of an option in it. *)
Definition no_argument (here : place) (cur : str) : Prop :=
  is_prefix [DASH] cur -> forall o, arg_kind o <> ArgNone ->
    (forall x, spelling here o x -> ~ is_prefix (x ++ [EQ]) cur) /\
    (is_prefix [DASH; DASH] cur \/ forall ch, In ch cur -> ~ spelling here o [DASH; ch]).

(** Numbers of several characters, for the spellings of any options of a command together. *)
Definition tame_group_numbers (root : cmd) : Prop :=
  forall ps c group, located root ps c -> (forall o, In o group -> In o (c_options c)) ->
  no_long_numbers When.py_int (fun x => exists o, In o group /\ spelling (ps, c) o x)
                              (fun x => exists o, In o group /\ spelling (ps, c) o x).
(** An argument that is to be completed somehow. *)
Definition proper_arguments (root : cmd) : Prop :=
  forall ps c o, located root ps c -> In o (c_options c) -> o_complete o <> Some [].

(** ** Commands *)

(** The commands that are asked: the command itself, then the ones above that pass on their options
    (those of [in_scope], from the command upwards). *)
Definition asked (here : place) : list place :=
  here :: filter (fun p => match c_inherit (snd p) with XFalse => false | _ => true end) (ancestors (fst here)).
(** They are asked one after the other until one is done: what they add, and whether one is. *)
Inductive one_by_one {A : Type} (own : place -> list A -> bool -> Prop) : list place -> list A -> bool -> Prop :=
| obo_none : one_by_one own [] [] false
| obo_done p rest l : own p l true -> one_by_one own (p :: rest) l true
| obo_on p rest l l' b : own p l false -> one_by_one own rest l' b -> one_by_one own (p :: rest) (l ++ l') b.
