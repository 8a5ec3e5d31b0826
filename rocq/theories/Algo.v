(** * Model of crazy_complete/algo.py. *)
From Verif Require Import Base Dict.

(** algo.py 9-15 *)
Fixpoint flatten_loop {A} (result : list A) (l : list (list A)) : list A :=
  match l with
  | [] => result
  | item :: l' => flatten_loop (result ++ item) l'
  end.
Definition flatten {A} (l : list (list A)) : list A := flatten_loop [] l.

(** algo.py 18-27; the set [seen] is a list. *)
Fixpoint uniq_loop {A} (eqb : A -> A -> bool) (seen result : list A) (l : list A) : list A :=
  match l with
  | [] => result
  | x :: l' =>
      if existsb (eqb x) seen then uniq_loop eqb seen result l'
      else uniq_loop eqb (x :: seen) (result ++ [x]) l'
  end.
Definition uniq {A} (eqb : A -> A -> bool) (l : list A) : list A := uniq_loop eqb [] [] l.

(** algo.py 30-51 *)
Fixpoint partition_loop {A} (p : A -> bool) (a b : list A) (l : list A) : list A * list A :=
  match l with
  | [] => (a, b)
  | x :: l' => if p x then partition_loop p (a ++ [x]) b l' else partition_loop p a (b ++ [x]) l'
  end.
Definition partition {A} (l : list A) (p : A -> bool) : list A * list A := partition_loop p [] [] l.

(** algo.py 54-78 *)
Fixpoint group_by_loop {A K} (eqb : K -> K -> bool) (key : A -> K)
    (result : list (K * list A)) (l : list A) : list (K * list A) :=
  match l with
  | [] => result
  | x :: l' =>
      let val := key x in
      match dget eqb val result with
      | Some items => group_by_loop eqb key (dset eqb val (items ++ [x]) result) l'
      | None => group_by_loop eqb key (dset eqb val [x] result) l'
      end
  end.
Definition group_by {A K} (eqb : K -> K -> bool) (l : list A) (key : A -> K) : list (K * list A) :=
  group_by_loop eqb key [] l.

(** Python [sorted] on integers (insertion sort: the result of sorting integers does not depend
    on the algorithm). *)
Fixpoint insert_sorted (x : Z) (l : list Z) : list Z :=
  match l with
  | [] => [x]
  | y :: l' => if (x <=? y)%Z then x :: l else y :: insert_sorted x l'
  end.
Fixpoint sorted (l : list Z) : list Z :=
  match l with [] => [] | x :: l' => insert_sorted x (sorted l') end.

(** algo.py 81-88: [all(b - a == 1 for a, b in zip(s, s[1:]))] *)
Fixpoint steps_are_one (l : list Z) : bool :=
  match l with
  | a :: (b :: _) as l' => (b - a =? 1)%Z && steps_are_one l'
  | _ => true
  end.
Definition numbers_are_contiguous (numbers : list Z) : bool :=
  match numbers with [] => false | _ => steps_are_one (sorted numbers) end.

(** ** SparseList (algo.py 91-118)
    The list content; [default] is passed along. *)
Section SparseList.
Context {A : Type} (default : A).

(** algo.py 102-104 *)
Definition extend_to (index : Z) (l : list A) : list A :=
  if (index >=? Z.of_nat (length l))%Z
  then l ++ repeat default (Z.to_nat (index + 1 - Z.of_nat (length l)))
  else l.

Fixpoint list_set (n : nat) (v : A) (l : list A) : list A :=
  match l, n with
  | [], _ => []
  | _ :: l', O => v :: l'
  | x :: l', S n' => x :: list_set n' v l'
  end.

(** [list.__setitem__] with an integer index. *)
Definition list_setitem (index : Z) (v : A) (l : list A) : res (list A) :=
  let i := if (index <? 0)%Z then (index + Z.of_nat (length l))%Z else index in
  if ((i <? 0) || (i >=? Z.of_nat (length l)))%Z then Err IndexError
  else Ok (list_set (Z.to_nat i) v l).

(** algo.py 106-114 (slices are not modelled; they are not used in the code) *)
Definition sparse_setitem (index : Z) (v : A) (l : list A) : res (list A) :=
  if (index <? 0)%Z then list_setitem index v l
  else list_setitem index v (extend_to index l).

(** algo.py 116-118; [list.insert] for a non-negative index. *)
Definition sparse_insert (index : nat) (v : A) (l : list A) : list A :=
  let l := extend_to (Z.of_nat index) l in firstn index l ++ v :: skipn index l.
End SparseList.
