(** * Model of the completion of numbers: bash_complete.py 257-272, fish_complete.py 478-493,
    zsh_complete.py 351-385, and the helpers [number] (bash_helpers.py 744-754, fish_helpers.py 1031-1044) *)
From Verif Require Import Base PyStr KeyValueRun.
Open Scope list_scope.

(** The options of [integer] and [float].  The limits are texts: [str(options['min'])].  Validation makes
    sure that suffixes and descriptions are strings and that there is at least one, if any
    (scheme_validator.py 590-611); [[]]: no [suffixes]. *)
Record number_options := NumberOptions { n_min : option str; n_max : option str; n_help : option str; n_suffixes : list (str * str) }.

Definition COLON : N := 58%N.
(** bash_complete.py 262-263, fish_complete.py 483-484, zsh_complete.py 362-363 *)
Definition suffix_args (o : number_options) : list str := map (fun sd => fst sd ++ [COLON] ++ snd sd) (n_suffixes o).
(** bash_complete.py 257-269 *)
Definition bash_number_args (helper : str) (o : number_options) : option (list str) :=
  match suffix_args o with [] => None | l => Some (helper :: l) end.
(** fish_complete.py 478-490 *)
Definition fish_number_args (helper : str) (o : number_options) : option (list str) :=
  match suffix_args o with [] => None | l => Some (helper :: l) end.
(** zsh_complete.py 351-385; [help]: [ctxt.option.help or ctxt.option.metavar or '']; [float]: whether it
    is [float] *)
Definition zsh_number_args (float : bool) (help : str) (o : number_options) : list str :=
  [s "_numbers"] ++ (if float then [s "-f"] else [])
    ++ match n_min o with Some x => [s "-l"; x] | None => [] end
    ++ match n_max o with Some x => [s "-m"; x] | None => [] end
    ++ [match n_help o with Some x => x | None => help end] ++ suffix_args o.

(** [[0-9,.]] *)
Definition number_char (c : N) : bool := (N.leb 48 c && N.leb c 57) || N.eqb c 44 || N.eqb c 46.
(** [^[0-9,.]*]: the longest beginning *)
Fixpoint number_part (x : str) : str :=
  match x with [] => [] | c :: x' => if number_char c then c :: number_part x' else [] end.
(** bash_helpers.py 744-754; [cur]: the word as it was typed.  Simplification: it is one line. *)
Definition bash_number (cur : str) (args : list str) : list str :=
  match number_part cur with
  | [] => []
  | number => number :: map (fun a => number ++ before_first COLON a) args
  end.
(** fish_helpers.py 1031-1044; the lines that are printed *)
Definition fish_number (comp : str) (args : list str) : list str :=
  match number_part comp with
  | [] => []
  | number => map (fun a => number ++ before_first COLON a ++ [TAB] ++ after_first COLON a) args
  end.
