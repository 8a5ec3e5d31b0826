(** * Model of crazy_complete/extended_yaml_parser.py and value_with_trace.py 24-32, 43-47.

    The events come from PyYAML and are the input.  Values are objects on a heap, because the parser
    changes a mapping or sequence after it has put it into another one.  Simplifications: the source
    text that each value keeps is left out; [float] keeps the text of
    the number; [int] and [float] know ASCII digits only. *)
From Verif Require Import Base Value.
Open Scope list_scope.

(** line and column, counted from one (value_with_trace.py 28-32) *)
Definition position : Type := (Z * Z)%type.

(** the events of [yaml.events]; [Scalar] has its text and [implicit[0]] *)
Inductive event :=
| StreamStart | StreamEnd | DocumentStart | DocumentEnd
| MappingStart (p : position) | MappingEnd
| SequenceStart (p : position) | SequenceEnd
| Scalar (p : position) (text : str) (implicit : bool)
| Alias (p : position).

(** ** [int(text)] and [float(text)] *)
Fixpoint digits_value (acc : Z) (x : str) : option Z :=
  match x with
  | [] => Some acc
  | c :: x' =>
      if is_digit c then digits_value (acc * 10 + (Z.of_N c - 48))%Z x'
      else if N.eqb c UND then
        match x' with d :: _ => if is_digit d then digits_value acc x' else None | [] => None end
      else None
  end.
Definition unsigned_int (x : str) : option Z :=
  match x with c :: _ => if is_digit c then digits_value 0 x else None | [] => None end.
Definition with_sign {A} (f : bool -> str -> A) (x : str) : A :=
  match x with
  | c :: x' => if N.eqb c DASH then f true x' else if N.eqb c PLUS then f false x' else f false x
  | [] => f false x
  end.
Definition int_of (x : str) : option Z :=
  with_sign (fun negative y => option_map (fun z => if negative then (- z)%Z else z) (unsigned_int y)) (strip_p is_space x).

(** digits with underscores between them, or nothing *)
Definition digit_run (x : str) : bool :=
  match x with [] => true | _ => match unsigned_int x with Some _ => true | None => false end end.
(** the text before and behind the first character that fulfils [p] *)
Fixpoint cut_first (p : N -> bool) (x : str) : option (str * str) :=
  match x with
  | [] => None
  | c :: x' => if p c then Some ([], x') else option_map (fun '(a, b) => (c :: a, b)) (cut_first p x')
  end.
Definition is_exponent_mark (c : N) : bool := N.eqb c 101 || N.eqb c 69.
Definition mantissa (x : str) : bool :=
  match cut_first (N.eqb DOT) x with
  | Some (a, b) => digit_run a && digit_run b && negb (match a, b with [], [] => true | _, _ => false end)
  | None => digit_run x && match x with [] => false | _ => true end
  end.
Definition exponent (x : str) : bool := with_sign (fun _ y => digit_run y && match y with [] => false | _ => true end) x.
Definition unsigned_float (x : str) : bool :=
  mems (lower x) [s "inf"; s "infinity"; s "nan"]
  || match cut_first is_exponent_mark x with
     | Some (a, b) => mantissa a && exponent b
     | None => mantissa x
     end.
Definition float_of (x : str) : bool := with_sign (fun _ y => unsigned_float y) (strip_p is_space x).

(** extended_yaml_parser.py 116-141 *)
Definition convert_scalar (x : str) (implicit : bool) : value :=
  if implicit then
    if mems (lower x) [s "null"; s "~"; []] then VNone
    else if mems (lower x) [s "true"; s "on"; s "yes"] then VBool true
    else if mems (lower x) [s "false"; s "off"; s "no"] then VBool false
    else match int_of x with
         | Some z => VInt z
         | None => if float_of x then VFloat x else VStr x
         end
  else VStr x.

(** ** Objects *)
Inductive content := CScalar (v : value) | CMap (items : list (nat * nat)) | CSeq (items : list nat).
Notation object := (position * content)%type.
Notation heap := (list object).
Definition content_at (h : heap) (i : nat) : option content := option_map snd (nth_error h i).
Fixpoint set_content (h : heap) (i : nat) (c : content) : heap :=
  match h, i with
  | [], _ => []
  | o :: h', O => (fst o, c) :: h'
  | o :: h', S i' => o :: set_content h' i' c
  end.
(** [a == b] for keys (value_with_trace.py 43-47): keys are scalars.  Simplification: keys of different
    types are different (Python takes 1, 1.0 and True for the same key). *)
Definition same_key (h : heap) (a b : nat) : bool :=
  match content_at h a, content_at h b with
  | Some (CScalar x), Some (CScalar y) => value_eqb x y
  | _, _ => false
  end.
(** [d[key] = value]: an equal key stays and gets the new value *)
Fixpoint set_item (h : heap) (items : list (nat * nat)) (key v : nat) : list (nat * nat) :=
  match items with
  | [] => [(key, v)]
  | (k, w) :: items' => if same_key h k key then (k, v) :: items' else (k, w) :: set_item h items' key v
  end.

(** the attributes of the parser; the top of the stack is its first element *)
Record state := St { st_data : list nat; st_stack : list nat; st_key : option nat; st_heap : heap }.
Definition start_state : state := St [] [] None [].

(** extended_yaml_parser.py 97-114 *)
Definition add_to_current_structure (st : state) (key : option nat) (v : nat) : res state :=
  match st_stack st with
  | [] => Ok (St (st_data st) [v] (st_key st) (st_heap st))
  | current :: _ =>
      match content_at (st_heap st) current with
      | Some (CMap items) =>
          match key with
          | None => Err (CrazyError (s "Missing key for mapping in YAML"))
          | Some k => Ok (St (st_data st) (st_stack st) (st_key st) (set_content (st_heap st) current (CMap (set_item (st_heap st) items k v))))
          end
      | Some (CSeq items) => Ok (St (st_data st) (st_stack st) (st_key st) (set_content (st_heap st) current (CSeq (items ++ [v]))))
      | _ => Err (CrazyError (s "Invalid structure in YAML"))
      end
  end.

(** a new object *)
Definition alloc (st : state) (p : position) (c : content) : state :=
  St (st_data st) (st_stack st) (st_key st) (st_heap st ++ [(p, c)]).
Definition push_object (st : state) (i : nat) : state := St (st_data st) (i :: st_stack st) None (st_heap st).
Definition set_key (st : state) (k : option nat) : state := St (st_data st) (st_stack st) k (st_heap st).

(** extended_yaml_parser.py 55-95; [pop] of an empty stack raises IndexError *)
Definition handle_event (st : state) (e : event) : res state :=
  let new := List.length (st_heap st) in
  match e with
  | StreamStart | StreamEnd | DocumentStart => Ok st
  | DocumentEnd =>
      match st_stack st with
      | [] => Ok st
      | i :: stack => Ok (St (st_data st ++ [i]) stack (st_key st) (st_heap st))
      end
  | MappingStart p =>
      do st' <- add_to_current_structure (alloc st p (CMap [])) (st_key st) new; Ok (push_object st' new)
  | SequenceStart p =>
      do st' <- add_to_current_structure (alloc st p (CSeq [])) (st_key st) new; Ok (push_object st' new)
  | Scalar p text implicit =>
      let st := alloc st p (CScalar (convert_scalar text implicit)) in
      match st_stack st with
      | current :: _ =>
          match content_at (st_heap st) current with
          | Some (CSeq _) => add_to_current_structure st None new
          | _ =>
              match st_key st with
              | None => Ok (set_key st (Some new))
              | Some k => do st' <- add_to_current_structure st (Some k) new; Ok (set_key st' None)
              end
          end
      | [] =>
          match st_key st with
          | None => Ok (set_key st (Some new))
          | Some k => do st' <- add_to_current_structure st (Some k) new; Ok (set_key st' None)
          end
      end
  | MappingEnd | SequenceEnd =>
      match st_stack st with
      | [] => Err IndexError
      | _ :: stack => Ok (St (st_data st) stack (st_key st) (st_heap st))
      end
  | Alias _ => Err (CrazyError (s "Anchors not supported"))
  end.
Fixpoint handle_events (st : state) (l : list event) : res state :=
  match l with [] => Ok st | e :: l' => do st' <- handle_event st e; handle_events st' l' end.
(** extended_yaml_parser.py 28-53: the objects of the documents, and the heap they live on *)
Definition parse_events (l : list event) : res (list nat * heap) :=
  do st <- handle_events start_state l; Ok (st_data st, st_heap st).
