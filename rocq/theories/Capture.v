(** * Model of captured options: zsh.py 133-149 (see [Zsh]), fish_prepare.py 54-70, and the helpers they call. *)
From Verif Require Import Base Cli FishRuntime FishQuery.
Open Scope list_scope.

(** zsh_helpers.py 75-93: [query get_option OPTION ...], what it prints.  The loop starts at 0, where
    zsh finds the empty text. *)
Definition zget_option (q : query) (options : list str) : str :=
  (if mems [] options then [LF] else []) ++
  flat_map (fun x => if mems (fst x) options then snd x ++ [LF] else []) (q_options q).

(** fish_prepare.py 54-70; [f] is the name of the helper *)
Definition fish_capture_lines (f : str) (root : cmd) : list str :=
  flat_map (fun p => flat_map (fun o =>
      match o_capture o with
      | Some v => [f ++ s " " ++ v ++ s " " ++ join [SP] (o_strings o)]
      | None => []
      end) (c_options (snd p))) (visit_commandlines [] root).
(** fish_helpers.py 490-510: [capture_option VARIABLE OPTION ...], the values it stores *)
Definition fish_captured (q : query) (options : list str) : list str :=
  flat_map (fun x => if mems (fst x) options then [snd x] else []) (q_options q).
