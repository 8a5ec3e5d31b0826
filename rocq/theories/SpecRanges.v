(** * Specification: what the shells make of ranges of integers.

    Written from bash(1) ("Brace Expansion", [compgen]), zshexpn(1) ("Brace Expansion"), zshcompsys(1)
    ([_arguments]), seq(1) and the fish manual ("Command substitution"); independent of the code under
    test. *)
From Verif Require Import Base Value PyStr SpecShell SpecChoices.
Open Scope list_scope.
Open Scope Z_scope.

(** The integers from [start] in steps of [step] that do not go beyond [stop]. *)
Definition in_range (start stop step x : Z) : Prop :=
  exists k : nat, x = start + Z.of_nat k * step /\ (0 < step -> x <= stop) /\ (step < 0 -> stop <= x).

(** ** Numbers *)
Fixpoint read_digits (n : Z) (x : str) : option Z :=
  match x with
  | [] => Some n
  | c :: x' => if is_digit c then read_digits (10 * n + Z.of_N (c - 48)) x' else None
  end.
Definition read_int (x : str) : option Z :=
  match x with
  | [] => None
  | c :: x' =>
      if N.eqb c DASH then match x' with [] => None | _ => option_map Z.opp (read_digits 0 x') end
      else read_digits 0 x
  end.
(** the numbers the shells can count with *)
Definition fits (z : Z) : Prop := - 2 ^ 63 <= z < 2 ^ 63.
Definition fitsb (z : Z) : bool := (- 2 ^ 63 <=? z) && (z <? 2 ^ 63).

(** ** Brace expansion *)

(** [start], [start + step], ..., [n] numbers behind the first *)
Definition counting (start step : Z) (n : nat) : list Z := map (fun k => start + Z.of_nat k * step) (seq 0 (S n)).
(** [{x..y}] and [{x..y..incr}]: every [incr]th number between [x] and [y], starting with [x].  The
    sign of [incr] does not matter for Bash.  In zsh a negative one reverses the order. *)
Definition expansion (x y incr : Z) : list Z :=
  let incr := if Z.abs incr =? 0 then 1 else Z.abs incr in
  counting x (if x <=? y then incr else - incr) (Z.to_nat (Z.abs (y - x) / incr)).
Definition brace_numbers (w : str) : option (Z * Z * Z) :=
  match text_between (s "{") (s "}") w with
  | None => None
  | Some r =>
      let numbers := match split_c DOT r with
        | [a; []; b] => Some (read_int a, read_int b, Some 1)
        | [a; []; b; []; c] => Some (read_int a, read_int b, read_int c)
        | _ => None
        end in
      match numbers with
      | Some (Some x, Some y, Some z) => if fitsb x && fitsb y && fitsb z then Some (x, y, z) else None
      | _ => None
      end
  end.
Definition bash_braces (w : str) : list str :=
  match brace_numbers w with Some (x, y, z) => map show_Z (expansion x y z) | None => [w] end.
Definition zsh_braces (w : str) : list str :=
  match brace_numbers w with
  | Some (x, y, z) => map show_Z (if z <? 0 then rev (expansion x y z) else expansion x y z)
  | None => [w]
  end.

(** Words of letters, digits, dots, dashes and braces, with blanks between them; other texts are not
    part of this model. *)
Definition brace_words (x : str) : option (list str) :=
  if forallb (fun c => is_word c || memc c [DOT; DASH; LBRC; RBRC; SP]) x
  then Some (filter (fun w => match w with [] => false | _ => true end) (split_c SP x)) else None.

(** [COMPREPLY=($(compgen -W 'words' -- "$cur"))], and with [+=] *)
Definition compgen_braces (text cur : str) : option (list str) :=
  match posix_words text with
  | Some [words] => option_map (fun ws => filter (begins_with cur) (flat_map bash_braces ws)) (brace_words words)
  | _ => None
  end.
Definition bash_range_offers (code cur : str) (before : list str) : option (list str) :=
  let end_ := s " -- ""$cur""))" in
  match text_between (s "COMPREPLY=($(compgen -W ") end_ code, text_between (s "COMPREPLY+=($(compgen -W ") end_ code with
  | Some t, _ => compgen_braces t cur
  | None, Some t => option_map (app before) (compgen_braces t cur)
  | None, None => None
  end.

(** The word of a script that is an action [(words)] *)
Definition zsh_range_offers (text : str) : option (list str) :=
  match posix_words text with
  | Some [action] =>
      match text_between (s "(") (s ")") action with
      | Some words => option_map (flat_map zsh_braces) (brace_words words)
      | None => None
      end
  | _ => None
  end.

(** ** [seq first last] and [seq first increment last] *)
Definition seq_numbers (first incr last : Z) : list Z :=
  if 0 <? incr then (if first <=? last then counting first incr (Z.to_nat ((last - first) / incr)) else [])
  else if incr <? 0 then (if last <=? first then counting first incr (Z.to_nat ((first - last) / - incr)) else [])
  else [].
Definition run_seq (args : list str) : option (list str) :=
  match map read_int args with
  | [Some first; Some last] => Some (map show_Z (seq_numbers first 1 last))
  | [Some first; Some incr; Some last] => Some (map show_Z (seq_numbers first incr last))
  | _ => None
  end.
(** The code [compadd -- $(command seq ...)] in zsh *)
Definition zsh_seq_offers (code : str) : option (list str) :=
  match text_between (s "compadd -- $(") (s ")") code with
  | Some command =>
      match posix_words command with
      | Some (c :: f :: args) => if str_eqb c (s "command") && str_eqb f (s "seq") then run_seq args else None
      | _ => None
      end
  | None => None
  end.
(** the code [seq ...] in fish, and the argument [(seq ...)] of [complete -a] *)
Definition fish_seq (code : str) : option (list str) :=
  match fish_words code with
  | Some (f :: args) => if str_eqb f (s "seq") then run_seq args else None
  | _ => None
  end.
Definition fish_range_offers (text : str) : option (list str) :=
  match text_between (s "(") (s ")") text with Some code => fish_seq code | None => None end.
