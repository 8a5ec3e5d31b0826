(** * Specification vocabulary for definitions given as dictionaries. *)
From Verif Require Import Base Value Cli StrUtils DictSource.

(** A program name that can be written as one word of a command path. *)
Definition one_word (x : str) : Prop := x <> [] /\ forall c, In c x -> is_space c = false.

(** The command trees that dictionaries can express: program names are single words, the root is
    not called like the document of defines, no option has an empty list as completer and no
    command an empty list of subcommands. *)
Record expressible (root : cmd) : Prop := {
  ex_root : c_prog root <> s "%defines%";
  ex_name : forall ps c, located root ps c -> one_word (c_prog c);
  ex_complete : forall ps c o, located root ps c -> In o (c_options c) -> o_complete o <> Some [];
  ex_subs : forall ps c, located root ps c -> c_subcommands c <> Some [] }.

(** The words of the [prog] entry of a definition. *)
Definition doc_path (v : value) : list str :=
  match v with
  | VDict d => match vget (s "prog") d with Some (VStr p) => split_ws p | _ => [] end
  | _ => []
  end.

(** A definition that is fine by itself: it has a valid [prog] entry and all its other entries
    are accepted. *)
Definition good_doc (v : value) (c : cmd) : Prop :=
  exists d p, v = VDict d /\ vget (s "prog") d = Some (VStr p) /\ validate_prog p = Ok tt /\
    dictionary_to_commandline d (last (split_ws p) []) = Ok c.

(** A definition stands after the definition of its parent. *)
Definition after_parent (docs : list value) : Prop :=
  forall before v after, docs = before ++ v :: after ->
    removelast (doc_path v) = [] \/ In (removelast (doc_path v)) (map doc_path before).

(** Exactly one definition has a path of one word. *)
Definition one_main (docs : list value) : Prop :=
  exists v, In v docs /\ length (doc_path v) = 1 /\
    forall v', In v' docs -> length (doc_path v') = 1 -> doc_path v' = doc_path v.

(** A command without its subcommands. *)
Definition bare (c : cmd) : cmd := set_subcommands c None.

(** The path of names from the root to a command. *)
Definition path_of (ps : list cmd) (c : cmd) : list str := map c_prog (rev (c :: ps)).
