(** * Specification: help texts and what was understood of them.

    Shares with the model only the type of the results. *)
From Verif Require Import Base HelpParser.
Open Scope list_scope.

(** ** From the results back to the text *)

Definition blank (c : N) : Prop := c = SP \/ c = TAB.
Definition blanks (x : str) : Prop := forall c, In c x -> blank c.
Definition delimiter (c : N) : Prop := c = COMMA \/ c = PIPE.
(** A line: nothing follows a line feed. *)
Definition line (x : str) : Prop := ~ In LF x \/ exists u, x = u ++ [LF] /\ ~ In LF u.
Definition option_string (x : str) : Prop :=
  (exists x', x = DASH :: x') /\ x <> s "-" /\ x <> s "--" /\
  forall c, In c x -> ~ blank c /\ ~ delimiter c /\ c <> LF /\ c <> EQ /\ c <> LBRK.

(** What stands behind the option string. *)
Inductive argument_text : option str -> bool -> str -> Prop :=
| no_argument : argument_text None false []
| equals_argument m : argument_text (Some m) false (EQ :: m)
| blank_argument c m : blank c -> argument_text (Some m) false (c :: m)
| optional_argument m : argument_text (Some (LBRK :: EQ :: m)) true (LBRK :: EQ :: m).
Inductive option_text : option_with_metavar -> str -> Prop :=
| one_option sp o m f t : blanks sp -> option_string o -> argument_text m f t ->
    option_text (MkOption o m f) (sp ++ o ++ t).
(** Options with delimiters between them, and perhaps one at the end. *)
Inductive options_text : list option_with_metavar -> str -> Prop :=
| last_option o t : option_text o t -> options_text [o] t
| last_delimiter o t sp d : option_text o t -> blanks sp -> delimiter d -> options_text [o] (t ++ sp ++ [d])
| next_option o os t sp d t' : option_text o t -> blanks sp -> delimiter d -> options_text os t' ->
    options_text (o :: os) (t ++ sp ++ [d] ++ t').
(** Lines, without the blanks at their beginnings. *)
Inductive description_text : str -> str -> Prop :=
| last_line sp l : blanks sp -> line l -> description_text l (sp ++ l)
| next_line sp l d t : blanks sp -> ~ In LF l -> description_text d t ->
    description_text (l ++ [LF] ++ d) (sp ++ l ++ [LF] ++ t).

Inductive item_text : item -> str -> Prop :=
| unparsed_text l : line l -> item_text (Unparsed l) l
| undescribed_text os t : options_text os t -> item_text (OptionsWithDescription os None) t
| described_text os d t t' : options_text os t -> description_text d t' ->
    item_text (OptionsWithDescription os (Some d)) (t ++ t').
Inductive items_text : list item -> str -> Prop :=
| no_items : items_text [] []
| more_items i is t t' : item_text i t -> items_text is t' -> items_text (i :: is) (t ++ t').

(** ** The usual layout of help texts *)

Inductive argument :=
| NoArgument                  (* --option *)
| Equals (m : str)            (* --option=METAVAR *)
| Separate (m : str)          (* --option METAVAR *)
| Optional (m : str).         (* --option[=METAVAR] *)
Record help_option := MkHelpOption { h_name : str; h_argument : argument }.
Inductive help_item :=
| Heading (text : str)
| Entry (indent : str) (options : list help_option) (first : str) (more : list (str * str)).

Definition argument_str (a : argument) : str :=
  match a with
  | NoArgument => []
  | Equals m => s "=" ++ m
  | Separate m => s " " ++ m
  | Optional m => s "[=" ++ m ++ s "]"
  end.
Definition option_str (o : help_option) : str := h_name o ++ argument_str (h_argument o).
(** [  -o, --option=FILE  First line of the description], and further lines *)
Definition help_item_str (i : help_item) : str :=
  match i with
  | Heading text => text ++ [LF]
  | Entry indent options first more =>
      indent ++ join (s ", ") (map option_str options) ++ s "  " ++ first ++ [LF] ++
      flat_map (fun '(indent, text) => indent ++ text ++ [LF]) more
  end.
Definition help_text (is : list help_item) : str := flat_map help_item_str is.

(** How it should be understood. *)
Definition expected_option (o : help_option) : option_with_metavar :=
  match h_argument o with
  | NoArgument => MkOption (h_name o) None false
  | Equals m => MkOption (h_name o) (Some m) false
  | Separate m => MkOption (h_name o) (Some m) false
  | Optional m => MkOption (h_name o) (Some (s "[=" ++ m ++ s "]")) true
  end.
Definition expected (i : help_item) : item :=
  match i with
  | Heading text => Unparsed (text ++ [LF])
  | Entry _ options first more =>
      OptionsWithDescription (map expected_option options)
        (Some (first ++ [LF] ++ flat_map (fun '(_, text) => text ++ [LF]) more))
  end.

(** The restrictions.  Metavariables: a word without brackets, quotes and delimiters, or [<..>]. *)
Definition word_metavar (m : str) : Prop :=
  m <> [] /\ forall c, In c m -> is_space c = false /\ ~ delimiter c /\ ~ In c [LT; LBRK; LPAR; LBRC; DQ; SQ].
Definition metavar_ok (m : str) : Prop :=
  word_metavar m \/ exists y, m = s "<" ++ y ++ s ">" /\ ~ In GT y.
Definition argument_ok (a : argument) : Prop :=
  match a with
  | NoArgument => True
  | Equals m => metavar_ok m
  | Separate m => metavar_ok m
  | Optional m => ~ In RBRK m
  end.
(** A line that does not start with one of these characters *)
Definition starts_not (P : N -> Prop) (x : str) : Prop := forall c x', x = c :: x' -> ~ P c.
Definition help_item_ok (i : help_item) : Prop :=
  match i with
  | Heading text => ~ In LF text /\ starts_not blank text /\ starts_not (eq DASH) text
  | Entry indent options first more =>
      blanks indent /\ List.length indent < 10 /\
      options <> [] /\ (forall o, In o options -> option_string (h_name o) /\ argument_ok (h_argument o)) /\
      ~ In LF first /\ starts_not blank first /\ starts_not delimiter first /\
      forall indent text, In (indent, text) more ->
        blanks indent /\ indent <> [] /\ ~ In LF text /\ starts_not blank text /\
        (List.length indent < 10 -> starts_not (eq DASH) text)
  end.

(** ** Texts that are not cut off: the last line is complete, there are no quotes, and every
    bracket is closed somewhere. *)
Definition complete_text (x : str) : Prop :=
  (x = [] \/ exists u, x = u ++ [LF]) /\ ~ In DQ x /\ ~ In SQ x /\
  forall u v, (x = u ++ [LT] ++ v -> In GT v) /\ (x = u ++ [LBRK] ++ v -> In RBRK v) /\
              (x = u ++ [LPAR] ++ v -> In RPAR v) /\ (x = u ++ [LBRC] ++ v -> In RBRC v).

(** ** Wrapped descriptions: lines joined with spaces, but not behind a hyphen *)
Fixpoint unwrap (lines : list str) : str :=
  match lines with
  | [] => []
  | [l] => l
  | l :: lines' => l ++ (if N.eqb (last l 0%N) DASH then [] else s " ") ++ unwrap lines'
  end.
