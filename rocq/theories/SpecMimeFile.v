(** * Specification for C130 and C131: what [grep -o] and [file -i] print (grep(1), file(1)); which files are to be
    offered (docs/commands.md, "mime_file") *)
From Verif Require Import Base.
Open Scope list_scope.

(** Texts, one on each line *)
Definition print_lines (l : list str) : str := flat_map (fun x => x ++ [LF]) l.

(** A path; the blanks behind the colon; the MIME type, with the character set *)
Record file_info := FileInfo { fi_path : str; fi_padding : str; fi_mime : str }.
(** [file] writes a byte that is not printable as a backslash and three octal digits. *)
Definition show_byte (unprintable : N -> bool) (c : N) : str :=
  if unprintable c then [BS; 48 + c / 64; 48 + c / 8 mod 8; 48 + c mod 8]%N else [c].
Definition show_path (unprintable : N -> bool) (x : str) : str := flat_map (show_byte unprintable) x.
Definition show_file (unprintable : N -> bool) (f : file_info) : str :=
  show_path unprintable (fi_path f) ++ [COLON] ++ fi_padding f ++ fi_mime f.
Definition print_files (unprintable : N -> bool) (l : list file_info) : str :=
  print_lines (map (show_file unprintable) l).

Definition blank (c : N) : Prop := c = SP \/ c = TAB.
(** One line; no blanks at its ends *)
Definition tidy (x : str) : Prop := ~ In LF x /\ (x <> [] -> ~ blank (hd 0%N x) /\ ~ blank (last x 0%N)).
(** Padding is blanks; a MIME type has no colons, and no blanks at its end. *)
Definition good_mime (f : file_info) : Prop :=
  (forall c, In c (fi_padding f) -> c = SP) /\ fi_mime f <> [] /\ ~ In COLON (fi_mime f) /\ ~ In LF (fi_mime f) /\
  ~ blank (last (fi_mime f) 0%N).

(** Paths of bytes; no backslashes, no blank at the beginning, no newline at the end *)
Definition good_path (f : file_info) : Prop :=
  ~ In BS (fi_path f) /\ (forall c, In c (fi_path f) -> (c < 256)%N) /\ fi_path f <> [] /\
  ~ blank (hd 0%N (fi_path f)) /\ last (fi_path f) 0%N <> LF.
(** A directory, or a file whose type fits; directories get a slash. *)
Definition directory_type (mime : str) : Prop := exists u v, mime = u ++ s "inode/directory" ++ v.
Inductive wanted_file (fits : str -> bool) (f : file_info) : list str -> Prop :=
| a_directory : directory_type (fi_mime f) -> wanted_file fits f [fi_path f ++ s "/"]
| a_file : ~ directory_type (fi_mime f) -> fits (fi_mime f) = true -> wanted_file fits f [fi_path f]
| no_file : ~ directory_type (fi_mime f) -> fits (fi_mime f) = false -> wanted_file fits f [].
(** What is wanted of all files, in their order *)
Definition wanted_files (fits : str -> bool) (l : list file_info) (names : list str) : Prop :=
  exists parts, Forall2 (wanted_file fits) l parts /\ names = concat parts.
