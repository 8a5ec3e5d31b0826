(** * Model of a part of crazy_complete/argparse_source.py. *)
From Verif Require Import Base Value.

(** argparse_source.py 22-32; a Python range has the attributes start, stop and step. *)
Definition range_to_complete (start stop step : Z) : value :=
  let end_ := (if step >? 0 then stop - 1 else stop + 1)%Z in
  if (step =? 1)%Z then VList [VStr (s "range"); VInt start; VInt end_]
  else VList [VStr (s "range"); VInt start; VInt end_; VInt step].
