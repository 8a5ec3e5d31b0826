(** * Specification: the value of a scalar in a YAML 1.1 document as [yaml.safe_load_all] reads it.

    Written from the regular expressions of PyYAML's [resolver.py] and the constructors of its
    [SafeConstructor]; independent of the code under test. *)
From Verif Require Import Base Value.
Open Scope list_scope.

Definition all_of_chars (p : N -> bool) (x : str) : bool := forallb p x.
Definition digit_or_underscore (c : N) : bool := is_digit c || N.eqb c UND.
(** [\[-+\]?] in front *)
Definition unsigned (x : str) : str :=
  match x with c :: x' => if N.eqb c DASH || N.eqb c PLUS then x' else x | [] => x end.
Definition negative (x : str) : bool := match x with c :: _ => N.eqb c DASH | [] => false end.
Definition starts_with_digit (x : str) : bool := match x with c :: _ => is_digit c | [] => false end.
Definition nonempty_of (p : N -> bool) (x : str) : bool := match x with [] => false | _ => forallb p x end.

(** integers: [0], [\[1-9\]\[0-9_\]*], octal [0\[0-7_\]+], [0b\[01_\]+], [0x\[0-9a-fA-F_\]+], and numbers to
    the base 60 *)
Definition decimal (y : str) : bool :=
  str_eqb y (s "0") || match y with c :: y' => is_digit c && negb (N.eqb c 48) && forallb digit_or_underscore y' | [] => false end.
Definition octal (y : str) : bool :=
  match y with c :: y' => N.eqb c 48 && nonempty_of (fun d => ((48 <=? d) && (d <=? 55))%N || N.eqb d UND) y' | [] => false end.
Definition binary (y : str) : bool :=
  match y with c :: d :: y' => N.eqb c 48 && N.eqb d 98 && nonempty_of (fun e => N.eqb e 48 || N.eqb e 49 || N.eqb e UND) y' | _ => false end.
Definition is_hex (d : N) : bool := is_digit d || ((97 <=? d) && (d <=? 102))%N || ((65 <=? d) && (d <=? 70))%N.
Definition hexadecimal (y : str) : bool :=
  match y with c :: d :: y' => N.eqb c 48 && N.eqb d 120 && nonempty_of (fun e => is_hex e || N.eqb e UND) y' | _ => false end.
Definition sixtieth (x : str) : bool :=
  match x with [d] => is_digit d | [c; d] => ((48 <=? c) && (c <=? 53))%N && is_digit d | _ => false end.
Definition sexagesimal (y : str) : bool :=
  match split_c COLON y with
  | first :: (_ :: _) as more => decimal first && negb (str_eqb first (s "0")) && forallb sixtieth (tl more)
  | _ => false
  end.
Definition yaml_int (x : str) : bool :=
  let y := unsigned x in decimal y || octal y || binary y || hexadecimal y || sexagesimal y.

(** floats *)
Definition behind_dot (y : str) : option (str * str) :=
  match split_c DOT y with [a; b] => Some (a, b) | _ => None end.
(** [\[0-9_\]*] and an exponent with a sign *)
Fixpoint fraction (b : str) : bool :=
  match b with
  | [] => true
  | c :: b' =>
      if digit_or_underscore c then fraction b'
      else (N.eqb c 101 || N.eqb c 69) && match b' with e :: b'' => (N.eqb e DASH || N.eqb e PLUS) && nonempty_of is_digit b'' | [] => false end
  end.
Definition yaml_float (x : str) : bool :=
  let y := unsigned x in
  match behind_dot y with
  | Some (a, b) =>
      (starts_with_digit a && forallb digit_or_underscore a && fraction b)
      || (match a with [] => starts_with_digit b && fraction b && str_eqb x y | _ => false end)
      || (match split_c COLON a with
          | first :: (_ :: _) as more => starts_with_digit first && forallb digit_or_underscore first && forallb sixtieth (tl more) && forallb digit_or_underscore b
          | _ => false
          end)
      || mems y [s ".inf"; s ".Inf"; s ".INF"] || mems x [s ".nan"; s ".NaN"; s ".NAN"]
  | None => false
  end.
(** dates: what starts with [dddd-d] (a superset of the timestamps) *)
Definition like_a_date (x : str) : bool :=
  match x with
  | a :: b :: c :: d :: e :: f :: _ => is_digit a && is_digit b && is_digit c && is_digit d && N.eqb e DASH && is_digit f
  | _ => false
  end.

(** the values of integers *)
Definition remove_underscores (x : str) : str := filter (fun c => negb (N.eqb c UND)) x.
Definition digit_value (c : N) : Z :=
  Z.of_N (if is_digit c then c - 48 else if is_lower c then c - 87 else c - 55)%N.
Definition number (base : Z) (x : str) : Z := fold_left (fun z c => z * base + digit_value c)%Z x 0%Z.
Definition int_value (x : str) : Z :=
  let y := remove_underscores (unsigned x) in
  let z := if decimal y then number 10 y
           else if binary y then number 2 (skipn 2 y)
           else if hexadecimal y then number 16 (skipn 2 y)
           else if octal y then number 8 y
           else fold_left (fun z part => z * 60 + number 10 part)%Z (split_c COLON y) 0%Z in
  if negative x then (- z)%Z else z.

(** The value; None: dates, merge keys and [=], which are none of the values here. *)
Definition yaml_value (x : str) (plain : bool) : option value :=
  if negb plain then Some (VStr x)
  else if mems x [s "~"; s "null"; s "Null"; s "NULL"; []] then Some VNone
  else if mems x [s "yes"; s "Yes"; s "YES"; s "true"; s "True"; s "TRUE"; s "on"; s "On"; s "ON"] then Some (VBool true)
  else if mems x [s "no"; s "No"; s "NO"; s "false"; s "False"; s "FALSE"; s "off"; s "Off"; s "OFF"] then Some (VBool false)
  else if yaml_int x then Some (VInt (int_value x))
  else if yaml_float x then Some (VFloat x)
  else if like_a_date x || mems x [s "<<"; s "="] then None
  else Some (VStr x).

(** ** Scalars that everyone reads alike *)
(** the words with a meaning, and the ways in which they are usually written *)
Definition special_words : list str := map s ["null"; "true"; "on"; "yes"; "false"; "off"; "no"]%string.
Definition usual_spellings : list str :=
  map s ["null"; "Null"; "NULL"; "true"; "True"; "TRUE"; "on"; "On"; "ON"; "yes"; "Yes"; "YES";
         "false"; "False"; "FALSE"; "off"; "Off"; "OFF"; "no"; "No"; "NO"]%string.
(** no white space at the ends *)
Definition trimmed (x : str) : Prop :=
  (forall c y, x = c :: y -> is_space c = false) /\ (forall y c, x = y ++ [c] -> is_space c = false).
(** behind an optional sign there is no digit and no dot *)
Definition no_number_start (x : str) : Prop :=
  forall c y, unsigned x = c :: y -> is_digit c = false /\ c <> DOT.
Definition ordinary_word (x : str) : Prop :=
  trimmed x /\ no_number_start x /\ ~ In (lower (unsigned x)) (map s ["inf"; "infinity"; "nan"]%string)
  /\ (In (lower x) special_words -> In x usual_spellings) /\ x <> s "<<" /\ x <> s "=".
(** a decimal number in the usual notation: an optional sign, and 0 or digits that do not start with 0 *)
Definition ordinary_integer (x : str) : Prop :=
  unsigned x = s "0" \/ exists c y, unsigned x = c :: y /\ is_digit c = true /\ c <> 48%N /\ Forall (fun d => is_digit d = true) y.
Definition ordinary (x : str) (plain : bool) : Prop := plain = true -> ordinary_word x \/ ordinary_integer x.
(** the value that the converter works with *)
Definition yaml_convert (x : str) (plain : bool) : value := match yaml_value x plain with Some v => v | None => VStr x end.
