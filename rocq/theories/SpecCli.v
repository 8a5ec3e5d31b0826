(** * Specification vocabulary for command trees. *)
From Verif Require Import Base Value Cli.
From Coq Require Import Permutation.

(** Two options have the same set of option strings (with repetitions, if there are any). *)
Definition same_strings (a b : opt) : bool :=
  forallb (fun x => Nat.eqb (count_occ str_eq_dec (o_strings a) x)
                            (count_occ str_eq_dec (o_strings b) x))
          (o_strings a ++ o_strings b).

(** The options visible in the first command of a chain of commands (a command, its parent, its
    grandparent, ...): those whose strings are not the strings of an option of an earlier
    command. *)
Fixpoint visible (seen : list opt) (chain : list cmd) : list opt :=
  match chain with
  | [] => []
  | c :: chain' =>
      filter (fun o => negb (existsb (same_strings o) seen)) (c_options c)
      ++ visible (seen ++ c_options c) chain'
  end.

(** No command of the chain has two options with the same strings. *)
Definition no_twins (chain : list cmd) : Prop :=
  forall c p o1 q o2 r, In c chain -> c_options c = p ++ o1 :: q ++ o2 :: r ->
    same_strings o1 o2 = false.

(** The argument positions a command with subcommands uses: those of its positionals and one for
    the name of the subcommand. *)
Definition consumed (c : cmd) : Z :=
  (fold_right Z.max 0 (map p_number (c_positionals c)) + 1)%Z.
Definition sum (l : list Z) : Z := fold_right Z.add 0%Z l.

(** Two options are mutually exclusive: they share a group. *)
Definition share_group (a b : opt) : Prop :=
  exists g ga gb, o_groups a = Some ga /\ o_groups b = Some gb /\ In g ga /\ In g gb.

(** What the comparison of command lines looks at: everything but [long_opt_arg_sep]. *)
Definition forget_opt (o : opt) : opt :=
  MkOpt (o_strings o) (o_metavar o) (o_help o) (o_complete o) (o_nosort o) (o_groups o)
        (o_optional_arg o) (o_repeatable o) (o_final o) (o_hidden o) (o_when o) (o_capture o)
        SepInherit.
Fixpoint forget (c : cmd) : cmd :=
  let 'Cmd prog help aliases wraps abc abo inh options positionals subcommands := c in
  Cmd prog help aliases wraps abc abo inh (map forget_opt options) positionals
      (match subcommands with None => None | Some l => Some (map forget l) end).

(** The list of names under which the subcommands are offered, with their help. *)
Definition offered (l : list cmd) : list (str * option str) :=
  flat_map (fun c => (c_prog c, c_help c) :: map (fun a => (a, c_help c)) (c_aliases c)) l.

(** How the helper functions of the generated scripts read one word of the list of options:
    [--opt=] takes an argument, [--opt=?] an optional argument, [--opt] none. *)
Inductive argkind := ArgNone | ArgRequired | ArgOptional.
Definition read_query_word (w : str) : str * argkind :=
  match rev w with
  | 63%N :: 61%N :: r => (rev r, ArgOptional)
  | 61%N :: r => (rev r, ArgRequired)
  | _ => (w, ArgNone)
  end.
Definition arg_kind (o : opt) : argkind :=
  match o_complete o with
  | None => ArgNone
  | Some _ => if o_optional_arg o then ArgOptional else ArgRequired
  end.

(** ** What the constructors guarantee *)

(** A dash and at least one more character, not [--]; no white space and no comma. *)
Definition option_string (x : str) : Prop :=
  exists y, x = DASH :: y /\ y <> [] /\ y <> [DASH] /\
    forall c, In c y -> is_space c = false /\ c <> COMMA.
(** A letter or underscore, then letters, digits and underscores. *)
Definition variable_name (x : str) : Prop :=
  exists c y, x = c :: y /\ (is_lower c = true \/ is_upper c = true \/ c = UND) /\
    forall d, In d y -> is_lower d = true \/ is_upper d = true \/ is_digit d = true \/ d = UND.

Definition takes_argument (o : opt) : Prop := exists x l, o_complete o = Some (x :: l).

Definition valid_option (o : opt) : Prop :=
  o_strings o <> [] /\ (forall x, In x (o_strings o) -> option_string x) /\
  (forall x, o_capture o = Some x -> variable_name x) /\
  (forall c m, o_metavar o = Some (c :: m) -> takes_argument o) /\
  (o_optional_arg o = true -> takes_argument o) /\
  ~ (o_hidden o = true /\ o_repeatable o = XTrue).

Definition valid_positional (p : pos) : Prop :=
  (1 <= p_number p)%Z /\ p_complete p <> [] /\
  (forall x, p_capture p = Some x -> variable_name x).

(** Names a shell passes as one word: no space, tabulator and newline. *)
Definition one_word (x : str) : Prop := ~ In SP x /\ ~ In TAB x /\ ~ In LF x.

Definition valid_command (c : cmd) : Prop :=
  (forall a, In a (c_aliases c) -> one_word a) /\
  (forall w, c_wraps c = Some w -> one_word w /\ exists d, In d w /\ is_space d = false) /\
  (forall o, In o (c_options c) -> valid_option o) /\
  (forall p, In p (c_positionals c) -> valid_positional p) /\
  NoDup (map c_prog (subs c)).

(** [x] occurs in [l], and [y] after it. *)
Definition before {A} (l : list A) (x y : A) : Prop :=
  exists a b d, l = a ++ x :: b ++ y :: d.
