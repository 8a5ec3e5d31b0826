(** * Model of crazy_complete/zsh.py 232-246, 283-286: the lines that switch sorting off. *)
From Verif Require Import Base PyStr Value Cli Generation.
Open Scope list_scope.

(** zsh.py 232-246; [prog] is the name of the root (cli.py 358-362) *)
Definition get_zstyles (prog : str) (c : cmd) : list str :=
  flat_map (fun o =>
      if o_nosort o then map (fun x => s "zstyle ':completion:*:*:" ++ prog ++ s ":option" ++ x ++ s "-*' sort false") (o_strings o)
      else []) (c_options c)
  ++ flat_map (fun p =>
      if p_nosort p then [s "zstyle ':completion:*:*:" ++ prog ++ s ":argument-" ++ show_Z (p_number p) ++ s ":*' sort false"]
      else []) (c_positionals c).
(** zsh.py 283-286 *)
Definition zstyles (root : cmd) : list str :=
  flat_map (fun x => get_zstyles (c_prog root) (snd x)) (visit_commandlines [] root).
