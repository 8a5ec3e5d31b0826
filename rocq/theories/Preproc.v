(** * Model of crazy_complete/preprocessor.py. *)
From Verif Require Import Base.
Open Scope list_scope.

(** Line boundaries of [str.splitlines]. *)
Definition is_linebreak (c : N) : bool :=
  ((10 <=? c) && (c <=? 13) || (28 <=? c) && (c <=? 30) || (c =? 133) || (c =? 8232)
   || (c =? 8233))%N.

(** [string.splitlines(keepends=True)]; CR LF counts as one boundary.  [cur] is the current
    line, reversed. *)
Fixpoint splitlines_aux (cur : str) (x : str) : list str :=
  match x with
  | [] => match cur with [] => [] | _ => [rev cur] end
  | c :: x' =>
      if is_linebreak c then
        match x' with
        | d :: x'' =>
            if N.eqb c CR && N.eqb d LF then rev (d :: c :: cur) :: splitlines_aux [] x''
            else rev (c :: cur) :: splitlines_aux [] x'
        | [] => [rev (c :: cur)]
        end
      else splitlines_aux (c :: cur) x'
  end.
Definition splitlines (x : str) : list str := splitlines_aux [] x.

(** preprocessor.py 16-38.  [stack] has its top at the front; [defines] is a set. *)
Fixpoint preprocess_loop (defines : list str) (stack : list bool) (output : list str)
    (lines : list str) : res (list str) :=
  match lines with
  | [] =>
      match stack with
      | [] => Ok output
      | _ => Err (SyntaxError (s "Unclosed #ifdef"))
      end
  | line :: lines' =>
      let stripped := lstrip_p is_space line in
      if starts_with (s "#ifdef") stripped then
        match nth_error (split_ws stripped) 1 with
        | None => Err IndexError
        | Some define => preprocess_loop defines (mems define defines :: stack) output lines'
        end
      else if starts_with (s "#else") stripped then
        match stack with
        | [] => Err (SyntaxError (s "#else without #ifdef"))
        | b :: stack' => preprocess_loop defines (negb b :: stack') output lines'
        end
      else if starts_with (s "#endif") stripped then
        match stack with
        | [] => Err (SyntaxError (s "#endif without #ifdef"))
        | _ :: stack' => preprocess_loop defines stack' output lines'
        end
      else
        preprocess_loop defines stack
          (if forallb (fun b => b) stack then output ++ [line] else output) lines'
  end.

(** preprocessor.py 7-43 *)
Definition preprocess (x : str) (defines : list str) : res str :=
  do out <- preprocess_loop defines [] [] (splitlines x);
  Ok (concat out).
