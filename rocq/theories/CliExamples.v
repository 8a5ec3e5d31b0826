(** * A concrete command tree, used by the examples beside the theorems. *)
From Verif Require Import Base Value Cli CliProofs.

Definition flag (x : list str) : opt :=
  MkOpt x None None None false None false XInherit false false None None SepInherit.
Definition flag_g (x g : list str) : opt :=
  MkOpt x None None None false (Some g) false XInherit false false None None SepInherit.
Definition with_arg (x : list str) : opt :=
  MkOpt x None None (Some [VStr (s "file")]) false None false XInherit false false None None SepInherit.
Definition positional (n : Z) : pos :=
  MkPos n None None [VStr (s "file")] false false None None.
Definition new (x : str) : cmd := Cmd x None [] None XInherit XInherit XInherit [] [] None.

(** git [-v|--verbose] [--dir DIR] FILE {remote [-v FILE --verbose] [-n] {add [-n] NAME}} *)
Definition git_add : cmd :=
  Cmd (s "add") None [] None XInherit XInherit XInherit [flag [s "-n"]] [positional 1] None.
Definition git_remote : cmd :=
  Cmd (s "remote") (Some (s "Manage remotes")) [s "rem"] None XTrue XInherit XInherit
      [with_arg [s "--verbose"; s "-v"]; flag_g [s "-n"] [s "g"]; flag_g [s "-m"] [s "g"; s "h"]]
      [] (Some [git_add]).
Definition git_reset : cmd :=
  Cmd (s "reset") None [] None XTrue XInherit XInherit [] [] None.
Definition git : cmd :=
  Cmd (s "git") None [] None XInherit XInherit XInherit
      [flag [s "-v"; s "--verbose"]; with_arg [s "--dir"]] [positional 1; positional 2]
      (Some [git_remote; git_reset]).

(** Trees that copying reproduces are built by the API. *)
Ltac by_copy := apply built_iff_copy; vm_compute; reflexivity.

Lemma git_built : built git.
Proof. by_copy. Qed.
Lemma git_add_located : located git [git_remote; git] git_add.
Proof.
  apply located_sub; [|left; reflexivity]. apply located_sub; [apply located_root|left; reflexivity].
Qed.
