(** * Specification: code that fills an array, key by key, and gives it to a command.

    Written from bash(1), zshmisc(1), zshcompsys(1) ([_values]) and the fish manual; independent of the
    code under test. *)
From Verif Require Import Base PyStr SpecShell SpecZsh KeyValue.
Open Scope list_scope.

(** ** What the shells do *)

(** The texts around the elements that are added to the array [a], how words are read, and the lines
    that make the array and the variable [c]. *)
Record dialect := Dialect {
  words : str -> option (list str);
  opening : str; closing : str;
  new_array : str;
  assigns : str -> list str;   (* the words of the command that sets [c] *)
  command : str -> list str -> Prop;   (* the words of a command *)
  all_elements : str           (* the text for all elements of the array *) }.
Definition bash : dialect := Dialect posix_words (s "a+=(") (s ")") (s "local -a a=()") (fun f => [s "local"; s "c=" ++ f])
  (fun x ws => posix_words x = Some ws) (s " ""${a[@]}""").
(** In zsh, [=name] is the path of a command; an equals sign alone is a word. *)
Inductive zsh_command : str -> list str -> Prop :=
| zc_words x ws : zsh_array x = Some ws -> zsh_command x ws
| zc_equals x ws y vs : zsh_array x = Some ws -> zsh_command y vs -> zsh_command (x ++ s " = " ++ y) (ws ++ [s "="] ++ vs).
Definition zsh : dialect := Dialect zsh_array (s "a+=(") (s ")") (s "local -a a=()") (fun f => [s "local"; s "c=" ++ f])
  zsh_command (s " ""${a[@]}""").
Definition fish : dialect := Dialect fish_words (s "set -a a ") [] (s "set -l a") (fun f => [s "set"; s "-l"; s "c"; f])
  (fun x ws => fish_words x = Some ws) (s " $a").

(** A line that adds elements to the array: always, or if the command [$c] succeeds for an argument. *)
Inductive adds (d : dialect) : str -> option str -> list str -> Prop :=
| adds_always body ws : words d body = Some ws -> adds d (opening d ++ body ++ closing d) None ws
| adds_if w k body ws : words d w = Some [k] -> words d body = Some ws ->
    adds d (s "$c " ++ w ++ s " && " ++ opening d ++ body ++ closing d) (Some k) ws.
(** The elements of the array behind some of these lines; [holds]: for which arguments [$c] succeeds,
    if it is set. *)
Inductive fills (d : dialect) (holds : option (str -> bool)) : list str -> list str -> Prop :=
| fills_nil : fills d holds [] []
| fills_always line ws lines a : adds d line None ws -> fills d holds lines a -> fills d holds (line :: lines) (ws ++ a)
| fills_if line k ws h lines a : holds = Some h -> adds d line (Some k) ws -> fills d holds lines a ->
    fills d holds (line :: lines) ((if h k then ws else []) ++ a).
(** The code ends with a command with these arguments.  [test f k]: the command [f] succeeds for the
    argument [k]. *)
Inductive calls (d : dialect) (test : str -> str -> bool) : list str -> list str -> Prop :=
| calls_plain lines x ws a : fills d None lines a -> command d x ws ->
    calls d test ([new_array d] ++ lines ++ [x ++ all_elements d]) (ws ++ a)
| calls_with set_c f lines x ws a : words d set_c = Some (assigns d f) -> fills d (Some (test f)) lines a -> command d x ws ->
    calls d test ([new_array d; set_c] ++ lines ++ [x ++ all_elements d]) (ws ++ a).

(** ** What is meant *)

(** In lists, a star in front of a key tells that it may be given again. *)
Definition own_key (e : entry) : str := match e_key e with c :: k => if N.eqb c STAR then k else c :: k | [] => [] end.
Definition again (e : entry) : bool := match e_key e with c :: _ => N.eqb c STAR | [] => false end.
(** The keys that are not to be offered when this one was given. *)
Definition excluded (e : entry) : list str := (if again e then [] else [own_key e]) ++ e_excludes e.
(** The command for the value: it fails if there is no value, it does nothing if there is no completer. *)
Definition value_command (e : entry) : str :=
  match e_completer e with NoValue => s "false" | AnyValue => s "true" | Completes f _ => f end.
Definition described (e : entry) : str := match e_description e with Some x => x | None => [] end.
(** The entries whose condition holds. *)
Definition applies (test : str -> str -> bool) (func : option str) (key : entry -> str) (e : entry) : bool :=
  match func with Some f => test f (key e) | None => true end.

(** ** The arguments of [_values]: [(excluded)*key[description]::message:action] *)

Record value_spec := ValueSpec {
  vs_excludes : list str;
  vs_many : bool;                                (* may be given again *)
  vs_key : str;
  vs_description : option str;
  vs_argument : option (bool * str * str) }.     (* whether it may be missing, the message, the action *)
Definition read_value (x : str) : option value_spec :=
  match (if starts [LPAR] x then read_words [] (tl x) else Some ([], x)) with
  | None => None
  | Some (excludes, x1) =>
      let many := starts [STAR] x1 in
      let (name, x2) := upto (starts [COLON; LBRK]) (if many then tl x1 else x1) in
      match read_description x2 with
      | None => None
      | Some (description, x3) =>
          let key := unescape [COLON] name in
          match x3 with
          | [] => Some (ValueSpec excludes many key description None)
          | _ =>
              if starts [COLON] x3 then
                let missing := starts [COLON] (tl x3) in
                let '(m, a, _) := read_message true (if missing then skipn 2 x3 else tl x3) in
                Some (ValueSpec excludes many key description (Some (missing, m, a)))
              else None
          end
      end
  end.
Definition shown (e : entry) : option str := match described e with [] => None | x => Some x end.
Definition value_action (e : entry) : option (bool * str * str) :=
  match e_completer e with NoValue => None | AnyValue => Some (true, [], []) | Completes _ action => Some (true, [], action) end.
(** Characters of keys that mean themselves in zsh and in arguments of [_values]. *)
Definition harmless (x : str) : Prop := x <> [] /\ forallb (fun c => is_word c || memc c [PLUS; DOT; SLASH; DASH]) x = true.
(** A description and an action that can be written down. *)
Definition writable (e : entry) : Prop :=
  tame [COLON; LBRK; RBRK] (described e) = true /\ match e_completer e with Completes _ a => plain_action a | _ => True end.

(** ** Which keys are left

    A key is offered if its condition holds and no key on the line excludes it. *)
Definition to_be_offered (test : str -> str -> bool) (func : option str) (l : list entry) (typed : list str) (key : str) : Prop :=
  exists e, In e l /\ own_key e = key /\ applies test func own_key e = true /\
    forall t, In t l -> In (own_key t) typed -> applies test func own_key t = true -> ~ In key (excluded t).
