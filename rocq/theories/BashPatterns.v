(** * Model of crazy_complete/bash_patterns.py. *)
From Verif Require Import Base Dict Algo PyStr When Cli.

(** bash_patterns.py 11-18: [is_terminal] and the dictionary [children]. *)
Inductive trie := Node (is_terminal : bool) (children : list (N * trie)).
Definition new_trie : trie := Node false [].

(** bash_patterns.py 20-26; [children] is a [defaultdict]. *)
Fixpoint insert (t : trie) (string : str) {struct string} : trie :=
  match string, t with
  | [], Node _ children => Node true children
  | char :: rest, Node is_terminal children =>
      let node := match dget N.eqb char children with Some n => n | None => new_trie end in
      Node is_terminal (dset N.eqb char (insert node rest) children)
  end.

(** [map(int, parts)]: [None] stands for the [ValueError] *)
Fixpoint ints_of (parts : list str) : option (list Z) :=
  match parts with
  | [] => Some []
  | p :: ps =>
      match py_int p, ints_of ps with
      | Some z, Some zs => Some (z :: zs)
      | _, _ => None
      end
  end.

(** bash_patterns.py 29-40 *)
Definition build_pattern (parts : list str) : str :=
  match parts with
  | [p] => p
  | _ =>
      let fallback := s "@(" ++ join (s "|") (sort_strs parts) ++ s ")" in
      match ints_of parts with
      | Some zs =>
          let ints := sorted zs in
          if numbers_are_contiguous ints
          then s "[" ++ show_Z (hd 0%Z ints) ++ s "-" ++ show_Z (last ints 0%Z) ++ s "]"
          else fallback
      | None => fallback
      end
  end.

(** bash_patterns.py 43-62 *)
Fixpoint trie_to_pattern (node : trie) : str :=
  match node with
  | Node is_terminal children =>
      match children with
      | [] => []
      | _ =>
          let parts := map (fun '(token, child) => token :: trie_to_pattern child) children in
          build_pattern (if is_terminal then parts ++ [[]] else parts)
      end
  end.

(** bash_patterns.py 65-79 *)
Definition compact_glob_trie (strings : list str) : str :=
  let strings := sort_strs (uniq str_eqb strings) in
  match strings with
  | [x] => x
  | _ => trie_to_pattern (fold_left insert strings new_trie)
  end.

(** bash_patterns.py 82-88 *)
Definition make_pattern (strings : list str) : str :=
  let candidate0 := join (s "|") strings in
  let candidate1 := compact_glob_trie strings in
  if Nat.ltb (List.length candidate0) (List.length candidate1) then candidate0 else candidate1.
