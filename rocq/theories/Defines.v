(** * What importing a list of definitions does to the caller's list (dictionary_source.py
    118-171, compat.py 12-48).

    The document of defines is removed from the list and loses its [prog] entry; the other
    documents are rebuilt, so the caller's stay as they are.  Without defines the caller's
    documents are used and the deprecated entries are replaced in them. *)
From Verif Require Import Base Dict Value StrUtils Cli DictSource.

(** dictionary_source.py 144 (with defines), 169 (without): the caller's list after
    [dictionaries_to_commandline], whatever its result is *)
Definition documents_afterwards (docs : list value) : list value :=
  match split_defines docs with
  | Some (_, docs') => docs'
  | None => map fix_commandline docs
  end.
