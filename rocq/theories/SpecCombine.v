(** * Specification: what combined completers are to offer, and how Bash and fish run their code. *)
From Verif Require Import Base CommandPath SpecCommandPath Combine.
Open Scope list_scope.

Section Run.
(** What a completer offers by itself, depending on PATH and the word typed. *)
Variable offer : leaf -> str -> str -> list str.
(** What remains of the word typed behind the last separator, and what is offered for a list: the
    candidates for its last element, given the word typed. *)
Variable cut : str -> str -> str.
Variable as_list : bool -> str -> str -> list str -> list str.

(** ** What is meant *)
Definition path_of (o : path_options) (old : str) : str := path_meant (path o) (path_append o) (path_prepend o) old.
Definition alone (l : leaf) (search word : str) : list str :=
  match l with
  | LCode [] => []
  | LCommand o => offer l (path_of o search) word
  | _ => offer l search word
  end.
(** The candidates of all completers, one after the other; those of a list are for its last element. *)
Fixpoint offers (search word : str) (c : completer) : list str :=
  match c with
  | Leaf l => alone l search word
  | Combine first more => offers search word first ++ flat_map (offers search word) more
  | ListOf d sep duplicates => as_list duplicates sep word (offers search (cut sep word) d)
  end.

(** ** Bash: the variables COMPREPLY, COMPREPLY_OLD, cur, cur_old and PATH of one function *)
Record state := State { reply : list str; reply_old : list str; word : str; word_old : str; search : str }.
Definition step (st : state) (c : command) : state :=
  let '(State r ro w wo p) := st in
  match c with
  | Save => State r r w wo p
  | Restore => State (ro ++ r) ro w wo p
  | Generate append l => State ((if append then r else []) ++ offer l p w) ro w wo p
  | Run l => State (offer l p w) ro w wo p
  | SetPath o => State r ro w wo (path_of o p)
  | CutCur sep => State r ro (cut sep w) w p
  | RestoreCur => State r ro wo wo p
  | AsList duplicates sep => State (as_list duplicates sep w r) ro w wo p
  end.
Definition run (code : list command) (st : state) : state := fold_left step code st.
(** in a function of its own, nothing is offered yet *)
Definition at_start (search word : str) : state := State [] [] word [] search.
Definition bash_offers (c : completer) (search word : str) : list str := reply (run (get_commands false (object_of c)) (at_start search word)).

(** ** fish: what is printed; PATH is local to the function *)
Definition sequence (print : str -> fish_line -> str * list str) : str -> list fish_line -> list str :=
  fix go (search : str) (lines : list fish_line) : list str :=
    match lines with
    | [] => []
    | x :: lines' => let '(search', printed) := print search x in printed ++ go search' lines'
    end.
Fixpoint print_line (word search : str) (x : fish_line) {struct x} : str * list str :=
  match x with
  | FSetPath o => (path_of o search, [])
  | FPrint l => (search, offer l search word)
  | FList duplicates sep body => (search, as_list duplicates sep word (sequence (print_line (cut sep word)) search body))
  end.
Definition fish_offers (c : completer) (search word : str) : list str := sequence (print_line word) search (fish_lines c).
End Run.

(** ** The completers for which the code does what is meant *)

(** it contains a list; it begins with one that offers something; it changes PATH; its code saves
    what was offered before ([append]: the code is to add to that) *)
Fixpoint has_list (c : completer) : bool :=
  match c with Leaf _ => false | Combine f more => has_list f || existsb has_list more | ListOf _ _ _ => true end.
Fixpoint speaks (c : completer) : bool :=
  match c with Leaf (LCode []) => false | Leaf _ => true | Combine f _ => speaks f | ListOf d _ _ => speaks d end.
Fixpoint steady (c : completer) : bool :=
  match c with
  | Leaf (LCommand (PathOptions None None None)) => true
  | Leaf (LCommand _) => false
  | Leaf _ => true
  | Combine f more => steady f && forallb steady more
  | ListOf d _ _ => steady d
  end.
Fixpoint saves (append : bool) (c : completer) : bool :=
  match c with
  | Leaf (LCall _) => append
  | Leaf (LCode (_ :: _)) => append
  | Leaf _ => false
  | Combine f more => saves append f || existsb (saves true) more
  | ListOf d _ _ => append || saves false d
  end.
(** Only the last completer of a combination changes PATH. *)
Fixpoint path_last (c : completer) : bool :=
  match c with
  | Leaf _ => true
  | Combine f more =>
      match more with
      | [] => path_last f
      | _ => steady f && (fix go l := match l with [] => true | [x] => path_last x | x :: l' => steady x && go l' end) more
      end
  | ListOf d _ _ => path_last d
  end.
(** No list is in a list; a list that is to add to what was offered before offers something and
    does not save anything. *)
Fixpoint apart (append : bool) (c : completer) : bool :=
  match c with
  | Leaf _ => true
  | Combine f more => apart append f && forallb (apart true) more
  | ListOf d _ _ => apart false d && negb (has_list d) && (negb append || negb (saves false d) && speaks d)
  end.
(** as validation accepts them *)
Fixpoint accepted (c : completer) : Prop :=
  match c with
  | Leaf (LCommand o) => path_accepted (path o) (path_append o) (path_prepend o)
  | Leaf _ => True
  | Combine f more => accepted f /\ (fix all l := match l with [] => True | x :: l' => accepted x /\ all l' end) more
  | ListOf d _ _ => accepted d
  end.
