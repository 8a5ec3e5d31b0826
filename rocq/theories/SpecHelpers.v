(** * What the emitted helper functions should be. *)
From Coq Require Import Relations.
From Verif Require Import Base Dict Shell Cli Helpers.
Open Scope list_scope.

(** ** Dependencies *)

(** [a] names a registered function that lists [b] as a dependency. *)
Definition depends (functions : list (str * func)) (a b : str) : Prop :=
  exists f, dget str_eqb a functions = Some f /\ In b (f_deps f).
(** [b] is [a] itself or something [a] needs, directly or indirectly. *)
Definition needs (functions : list (str * func)) : str -> str -> Prop :=
  clos_refl_trans str (depends functions).
(** [a] needs itself: the dependencies form a cycle. *)
Definition cyclic (functions : list (str * func)) (a : str) : Prop :=
  clos_trans str (depends functions) a a.
Definition registered (functions : list (str * func)) (a : str) : Prop :=
  In a (map fst functions).

(** A history of requests: names with the macros requested for them. *)
Fixpoint request_all (fuel : nat) (h : helpers) (requests : list (str * list str)) : res helpers :=
  match requests with
  | [] => Ok h
  | (name, defines) :: r => do (h, _) <- use_function fuel h name defines; request_all fuel h r
  end.

(** ** Words *)

(** [y] is [x] with every maximal word [w] (letters, digits, underscores) replaced by [f w]. *)
Inductive in_words (f : str -> str) : str -> str -> Prop :=
| in_nil : in_words f [] []
| in_other c x y : is_word c = false -> in_words f x y -> in_words f (c :: x) (c :: y)
| in_word w x y : w <> [] -> forallb is_word w = true ->
    (forall c x', x = c :: x' -> is_word c = false) ->
    in_words f x y -> in_words f (w ++ x) (f w ++ y).

(** [w] is one of the maximal words of [x]. *)
Definition word_of (w x : str) : Prop :=
  exists a b, x = a ++ w ++ b /\ w <> [] /\ forallb is_word w = true /\
    (forall a' c, a = a' ++ [c] -> is_word c = false) /\
    (forall c b', b = c :: b' -> is_word c = false).

(** ** Histories of generated functions *)

(** Each addition asks for a base name and brings some code. *)
Fixpoint add_all (h : helpers) (adds : list (str * str)) : res (helpers * list str) :=
  match adds with
  | [] => Ok (h, [])
  | (base, code) :: r =>
      do (h, name) <- add_dynamic_func h base code;
      do (h, names) <- add_all h r;
      Ok (h, name :: names)
  end.

(** ** Emitted code *)

(** The line with which the definition of the function [name] begins. *)
Definition header (k : fclass) (name : str) : str :=
  match k with
  | ShellFunction => name ++ s "() {"
  | FishFunction => s "function " ++ name
  end.
Definition first_line (x : str) : str := hd [] (split_c LF x).

(** A text without white space, [%] and [#]. *)
Definition plain_text (x : str) : Prop :=
  forall c, In c x -> is_space c = false /\ c <> PERCENT /\ c <> HASH.

(** Names like those of the shipped helper functions: words without double underscores that
    do not begin with an underscore and do not end with a digit. *)
Definition helper_name (n : str) : Prop :=
  n <> [] /\ forallb is_word n = true /\ (~ exists a b, n = a ++ [UND; UND] ++ b) /\
  (forall n', n <> UND :: n') /\ (forall n' c, n = n' ++ [c] -> is_digit c = false).

(** The names of a command and of its ancestors without the root, outermost first. *)
Definition path_below_root (ps : list cmd) (c : cmd) : list str :=
  tl (map c_prog (rev ps ++ [c])).

(** [name] is [base], maybe with a number *)
Definition named_after (base name : str) : Prop :=
  exists digits, name = base ++ digits /\ forallb is_digit digits = true.

(** The owner of a generated function whose name cannot be mistaken for the helper [n]'s. *)
Definition owner_ok (n : str) (o : owner) : Prop :=
  match o with
  | OwnerOption o => exists t x, hd_error (o_strings o) = Some (DASH :: t) /\ x = DASH :: t /\
                     ~ exists a, x = a ++ s "__" ++ n
  | OwnerPositional p _ =>
      match p_metavar p with
      | Some ((_ :: _) as m) => make_identifier m <> n /\ forall t, make_identifier m <> UND :: t
      | _ => True
      end
  end.

(** Letters and digits only, at least one. *)
Definition alnum (x : str) : Prop := x <> [] /\ forallb (fun c => is_word c && negb (N.eqb c UND)) x = true.

(** The naming conditions under which renaming is safe: a plain prefix, plain helper names,
    and no dependency whose name is a word of the prefix. *)
Definition names_ok (h : helpers) : Prop :=
  plain_text (h_prefix h) /\
  (forall n, In n (map fst (h_used h)) -> helper_name n) /\
  (forall n f d, In n (map fst (h_used h)) -> dget str_eqb n (h_functions h) = Some f ->
     In d (f_deps f) -> helper_name d /\ ~ word_of d (h_prefix h) /\ d <> s "function").

