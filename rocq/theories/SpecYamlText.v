(** * Specification: reading JSON, and the part of YAML that is written in the style of JSON.

    Written from RFC 8259 and YAML 1.1 (as PyYAML reads it); independent of the code under test. *)
From Verif Require Import Base Value SpecRanges SpecYamlScalar.
Open Scope list_scope.

(** ** Strings in double quotes *)
Definition hex_value (c : N) : option N :=
  if is_digit c then Some (c - 48)%N
  else if ((97 <=? c) && (c <=? 102))%N then Some (c - 87)%N
  else if ((65 <=? c) && (c <=? 70))%N then Some (c - 55)%N
  else None.
Definition hex_number (x : str) : option N :=
  fold_left (fun n c => match n, hex_value c with Some n, Some d => Some (16 * n + d)%N | _, _ => None end) x (Some 0%N).
(** the escape sequences that both languages have, other than [\u] *)
Definition escaped (e : N) : option N :=
  if memc e [DQ; BS; SLASH] then Some e
  else if N.eqb e 98 then Some 8%N
  else if N.eqb e 102 then Some 12%N
  else if N.eqb e 110 then Some LF
  else if N.eqb e 114 then Some CR
  else if N.eqb e 116 then Some TAB
  else None.
Definition put (c : N) (r : option (str * str)) : option (str * str) := option_map (fun '(x, rest) => (c :: x, rest)) r.
(** Behind the opening quote: the text, and what follows the closing quote.  Each [\u] stands for one
    character. *)
Fixpoint read_string (x : str) : option (str * str) :=
  match x with
  | [] => None
  | c :: x1 =>
      if N.eqb c DQ then Some ([], x1)
      else if N.eqb c BS then
        match x1 with
        | [] => None
        | e :: x2 =>
            if N.eqb e 117 then
              match x2 with
              | a :: b :: c :: d :: x3 => match hex_number [a; b; c; d] with Some n => put n (read_string x3) | None => None end
              | _ => None
              end
            else match escaped e with Some d => put d (read_string x2) | None => None end
        end
      else put c (read_string x1)
  end.
(** In JSON, two of them may stand for one character outside the first 65536 (a surrogate pair). *)
Definition high (c : N) : bool := ((55296 <=? c) && (c <? 56320))%N.
Definition low (c : N) : bool := ((56320 <=? c) && (c <? 57344))%N.
Fixpoint join_surrogates (x : str) : str :=
  match x with
  | a :: ((b :: y) as x') =>
      if high a && low b then (65536 + (a - 55296) * 1024 + (b - 56320))%N :: join_surrogates y else a :: join_surrogates x'
  | _ => x
  end.

(** ** Values *)
Record dialect := Dialect { text : str -> str; scalar : str -> option value }.
Definition number_char (c : N) : bool := is_digit c || memc c [PLUS; DASH; DOT; 101%N; 69%N].
Definition json_scalar (x : str) : option value :=
  if str_eqb x (s "null") then Some VNone
  else if str_eqb x (s "true") then Some (VBool true)
  else if str_eqb x (s "false") then Some (VBool false)
  else match read_int x with
       | Some z => Some (VInt z)
       | None => match x with [] => None | _ => if forallb number_char x then Some (VFloat x) else None end
       end.
Definition json : dialect := Dialect join_surrogates json_scalar.
(** Scalars without quotes; those that begin with other characters are not read here. *)
Definition yaml_scalar (x : str) : option value :=
  match x with
  | c :: _ => if is_word c || memc c [PLUS; DASH; DOT; TILDE] then yaml_value x true else None
  | [] => None
  end.
Definition yaml : dialect := Dialect (fun x => x) yaml_scalar.

Fixpoint skip (x : str) : str := match x with c :: x' => if N.eqb c SP then skip x' else x | [] => [] end.
Definition ends_scalar (c : N) : bool := memc c [SP; COMMA; COLON; LBRK; RBRK; LBRC; RBRC].
Fixpoint take_scalar (x : str) : str * str :=
  match x with
  | c :: x' => if ends_scalar c then ([], x) else let '(a, b) := take_scalar x' in (c :: a, b)
  | [] => ([], [])
  end.

Section Read.
Variable d : dialect.
(** [fuel]: more than there are characters is enough *)
Fixpoint read_value (fuel : nat) (x : str) : option (value * str) :=
  match fuel with
  | O => None
  | S f =>
      match x with
      | c :: x' =>
          if N.eqb c DQ then option_map (fun '(t, rest) => (VStr (text d t), rest)) (read_string x')
          else if N.eqb c LBRK then
            match skip x' with
            | c' :: r => if N.eqb c' RBRK then Some (VList [], r) else option_map (fun '(l, rest) => (VList l, rest)) (read_items f (c' :: r))
            | [] => None
            end
          else if N.eqb c LBRC then
            match skip x' with
            | c' :: r => if N.eqb c' RBRC then Some (VDict [], r) else option_map (fun '(l, rest) => (VDict l, rest)) (read_entries f (c' :: r))
            | [] => None
            end
          else let '(t, rest) := take_scalar x in option_map (fun v => (v, rest)) (scalar d t)
      | [] => None
      end
  end
(** items, separated by commas, up to the bracket *)
with read_items (fuel : nat) (x : str) : option (list value * str) :=
  match fuel with
  | O => None
  | S f =>
      match read_value f x with
      | Some (v, rest) =>
          match skip rest with
          | c :: r =>
              if N.eqb c RBRK then Some ([v], r)
              else if N.eqb c COMMA then option_map (fun '(l, rest) => (v :: l, rest)) (read_items f (skip r))
              else None
          | [] => None
          end
      | None => None
      end
  end
(** entries: a string, a colon and a value *)
with read_entries (fuel : nat) (x : str) : option (list (value * value) * str) :=
  match fuel with
  | O => None
  | S f =>
      match x with
      | q :: x1 =>
          if negb (N.eqb q DQ) then None
          else match read_string x1 with
               | Some (k, x2) =>
                   match skip x2 with
                   | c :: x3 =>
                       if negb (N.eqb c COLON) then None
                       else match read_value f (skip x3) with
                            | Some (v, rest) =>
                                match skip rest with
                                | c :: r =>
                                    if N.eqb c RBRC then Some ([(VStr (text d k), v)], r)
                                    else if N.eqb c COMMA then option_map (fun '(l, rest) => ((VStr (text d k), v) :: l, rest)) (read_entries f (skip r))
                                    else None
                                | [] => None
                                end
                            | None => None
                            end
                   | [] => None
                   end
               | None => None
               end
      | [] => None
      end
  end.
Definition read_text (x : str) : option value :=
  match read_value (S (List.length x)) x with Some (v, rest) => match skip rest with [] => Some v | _ => None end | None => None end.
End Read.

(** ** YAML documents

    Each document is a mapping; the value of a key is written behind it, or it is a list of mappings in
    the lines below: their first key behind two blanks and a dash, the other ones behind four blanks.
    Empty lines and comments mean nothing.  The lines are read from the last to the first. *)
Record below := Below {
  b_fields : list (value * value);    (* of a mapping whose first key is further up *)
  b_mappings : list value;            (* of a list whose key is further up *)
  b_entries : list (value * value);   (* of the document *)
  b_documents : list value }.
Definition read_pair (x : str) : option (str * option value) :=
  match split_c COLON x with
  | key :: (_ :: _) as more =>
      match skipn (S (List.length key)) x with
      | [] => Some (key, None)
      | c :: y => if N.eqb c SP then option_map (fun v => (key, Some v)) (read_text yaml y) else None
      end
  | _ => None
  end.
Definition read_line (line : str) (b : option below) : option below :=
  match b with
  | None => None
  | Some b =>
      if match line with [] => true | c :: _ => N.eqb c HASH end then Some b
      else if str_eqb line (s "---") then
        match b_fields b, b_mappings b with [], [] => Some (Below [] [] [] (VDict (b_entries b) :: b_documents b)) | _, _ => None end
      else if starts_with (s "    ") line then
        match read_pair (skipn 4 line) with Some (k, Some v) => Some (Below ((VStr k, v) :: b_fields b) (b_mappings b) (b_entries b) (b_documents b)) | _ => None end
      else if starts_with (s "  - ") line then
        match read_pair (skipn 4 line) with Some (k, Some v) => Some (Below [] (VDict ((VStr k, v) :: b_fields b) :: b_mappings b) (b_entries b) (b_documents b)) | _ => None end
      else
        match read_pair line, b_fields b, b_mappings b with
        | Some (k, Some v), [], [] => Some (Below [] [] ((VStr k, v) :: b_entries b) (b_documents b))
        | Some (k, None), [], l => Some (Below [] [] ((VStr k, match l with [] => VNone | _ => VList l end) :: b_entries b) (b_documents b))
        | _, _, _ => None
        end
  end.
(** The characters that a YAML text may have, and those that end a line (carriage returns, next lines,
    line and paragraph separators are among them; the empty line between a carriage return and a line feed
    means nothing). *)
Definition allowed_char (c : N) : bool :=
  (memc c [TAB; LF; CR; 133%N] || (32 <=? c) && (c <=? 126) || (160 <=? c) && (c <=? 55295) || (57344 <=? c) && (c <=? 65533) || (65536 <=? c) && (c <=? 1114111))%N.
Definition ends_line (c : N) : bool := memc c [LF; CR; 133%N; 8232%N; 8233%N].
Fixpoint lines_of (x : str) : list str :=
  match x with
  | [] => [[]]
  | c :: x' => if ends_line c then [] :: lines_of x' else match lines_of x' with l :: ls => (c :: l) :: ls | [] => [] end
  end.
Definition read_yaml (x : str) : option (list value) :=
  if forallb allowed_char x then
    match fold_right read_line (Some (Below [] [] [] [])) (lines_of x) with
    | Some (Below [] [] d docs) => Some (VDict d :: docs)
    | _ => None
    end
  else None.

(** ** Values that can be written *)
Section Writable.
Variables (char : N -> bool) (float : str -> bool).
Definition writable_key (k : value) : bool := match k with VStr x => forallb char x | _ => false end.
Fixpoint writable (v : value) : bool :=
  match v with
  | VStr x => forallb char x
  | VFloat x => float x
  | VList l => forallb writable l
  | VDict d => forallb (fun kv => writable_key (fst kv) && writable (snd kv)) d
  | _ => true
  end.
End Writable.
(** in JSON: all characters but halves of surrogate pairs; in YAML: the first 65536 characters, and floats
    with a dot *)
Definition json_char (c : N) : bool := ((c <? 55296) || ((57344 <=? c) && (c <? 1114112)))%N.
Definition json_float (x : str) : bool :=
  match x with [] => false | _ => forallb number_char x && match read_int x with None => true | _ => false end end.
Definition yaml_char (c : N) : bool := (c <? 65536)%N.
Definition dotted_float (x : str) : bool :=
  forallb number_char x && match yaml_value x true with Some (VFloat _) => true | _ => false end.
Definition json_writable : value -> bool := writable json_char json_float.
Definition yaml_writable : value -> bool := writable yaml_char dotted_float.
