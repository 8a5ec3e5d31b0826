(** * C130 and C131: files are offered by their MIME type; texts of the history are offered. *)
From Coq Require Import String.
From Verif Require Import Base SpecShell SpecBashWords SpecExec Exec MimeFile SpecMimeFile MimeFileProofs.
Open Scope string_scope.
Open Scope list_scope.
Open Scope nat_scope.

(** ** C130

    [files]: the files whose paths begin with what was typed, and their types; [unprintable]: the bytes that
    [file] does not print; [fits]: whether the pattern is found in a text.  The pattern is not tied to the
    beginning of the type. *)
Theorem C130_bash_partial : forall unprintable escape fits typed files,
  unprintable LF = true -> (forall c, posix_special c = true -> escape c = true) ->
  Forall good_mime files -> Forall good_path files ->
  Forall (fun f => fits (fi_padding f ++ fi_mime f) = fits (fi_mime f)) files ->
  exists names, wanted_files fits files names /\
    bash_mime_file (printf_q escape) fits typed (print_files unprintable files) = map (printf_q escape) (filter (starts_with typed) names) /\
    (Forall (fun x => ~ In LF x) names ->
     Forall2 stands_for (bash_mime_file (printf_q escape) fits typed (print_files unprintable files)) (filter (starts_with typed) names)).
Proof.
  intros u escape fits typed files HL He Hm Hp Hf. eexists. split; [exact (names_right fits u files HL Hm Hp Hf) |].
  split; [reflexivity |]. intros Hn. apply quoted_all; [exact He |]. now apply filter_Forall.
Qed.
Print Assumptions C130_bash_partial.
Theorem C130_zsh_partial : forall unprintable fits files,
  unprintable LF = true -> Forall good_mime files -> Forall good_path files ->
  Forall (fun f => fits (fi_padding f ++ fi_mime f) = fits (fi_mime f)) files ->
  wanted_files fits files (zsh_mime_file fits (print_files unprintable files)).
Proof. intros u fits files HL Hm Hp Hf. exact (names_right fits u files HL Hm Hp Hf). Qed.
Print Assumptions C130_zsh_partial.
(** In Fish a path may have backslashes and blanks everywhere, but all its bytes have to be printable. *)
Theorem C130_fish_partial : forall unprintable fits files,
  unprintable LF = true -> Forall good_mime files -> (forall f c, In f files -> In c (fi_path f) -> unprintable c = false) ->
  Forall (fun f => fits (fi_padding f ++ fi_mime f) = fits (fi_mime f)) files ->
  exists names, wanted_files fits files names /\ fish_mime_file fits (print_files unprintable files) = print_lines names.
Proof.
  intros u fits files HL Hm Hp Hf. unfold fish_mime_file, print_files.
  rewrite read_print.
  - induction files as [| f files IH]; [exists []; split; [exists []; split; constructor | reflexivity] |].
    inversion Hm as [| ? ? Hm1 Hm2]; inversion Hf as [| ? ? Hf1 Hf2]; subst.
    destruct IH as (names & (parts & W & E) & Eq); auto; [intros g c Hg; apply Hp; now right |].
    destruct (fish_line_right fits f Hm1 Hf1) as (part & W1 & E1).
    exists (part ++ names). split; [exists (part :: parts); split; [now constructor | now rewrite E] |].
    cbn [map flat_map]. rewrite Eq. unfold show_file at 1. rewrite show_printable by (intros c; apply Hp; now left).
    rewrite E1. unfold print_lines. now rewrite flat_map_app.
  - apply Forall_forall. intros x Hx. apply in_map_iff in Hx as (f & <- & Hi). rewrite Forall_forall in Hm.
    destruct (Hm f Hi) as (G1 & G2 & G3 & G4 & G5). unfold show_file. rewrite !in_app_iff. intros [H | [H | [H | H]]].
    + now apply (show_LF u (fi_path f)).
    + destruct H as [H | []]; discriminate H.
    + apply G1 in H; discriminate H.
    + contradiction.
Qed.
Print Assumptions C130_fish_partial.

Definition not_ascii (c : N) : bool := (N.ltb c 32 || N.ltb 126 c)%N.
Definition type130 (path mime : string) : file_info := FileInfo (s path) [SP] (s mime).
Definition files130 : list file_info :=
  [type130 "img: 1.png" "image/png; charset=binary"; FileInfo (s "img" ++ [233%N]) [SP; SP] (s "image/gif; charset=binary");
   type130 "images" "inode/directory; charset=binary"; type130 "img.txt" "text/plain; charset=us-ascii"].
Example C130_example :
  Forall good_mime files130 /\ Forall good_path files130 /\
  Forall (fun f => has_infix (s "image/") (fi_padding f ++ fi_mime f) = has_infix (s "image/") (fi_mime f)) files130 /\
  zsh_mime_file (has_infix (s "image/")) (print_files not_ascii files130) = [s "img: 1.png"; s "img" ++ [233%N]; s "images/"] /\
  bash_mime_file (printf_q posix_special) (has_infix (s "image/")) (s "img") (print_files not_ascii files130) = [s "img:\ 1.png"; s "img" ++ [233%N]] /\
  fish_mime_file (has_infix (s "image/")) (print_files not_ascii files130) = s "img: 1.png" ++ [LF] ++ s "img\351" ++ [LF] ++ s "images/" ++ [LF].
Proof.
  split; [apply good_mimes; reflexivity |]. split; [apply good_paths; reflexivity |].
  split; [repeat constructor | repeat split; vm_compute; reflexivity].
Qed.

(** A backslash in front of three digits in a name is taken for a byte that [file] does not print: a file
    that does not exist is offered. *)
Theorem C130_backslash_refuted : exists f : file_info,
  good_mime f /\ (forall fits, fits (fi_padding f ++ fi_mime f) = true -> zsh_mime_file fits (print_files not_ascii [f]) = [s "aA"]) /\
  fi_path f = s "a\101" /\ ~ directory_type (fi_mime f).
Proof.
  exists (type130 "a\101" "image/png; charset=binary").
  split; [apply good_mime1; reflexivity |].
  split; [| split; [reflexivity | rewrite <- directory_iff; vm_compute; discriminate]].
  intros fits Hf. unfold zsh_mime_file.
  replace (read_stripped (print_files not_ascii [type130 "a\101" "image/png; charset=binary"]))
    with [s "a\101: image/png; charset=binary"] by reflexivity.
  cbn [flat_map]. unfold mime_line.
  replace (at_last_colon (s "a\101: image/png; charset=binary")) with (s "a\101", s " image/png; charset=binary") by reflexivity.
  change (fits (s " image/png; charset=binary") = true) in Hf. rewrite Hf, Bool.orb_true_r. reflexivity.
Qed.
Print Assumptions C130_backslash_refuted.
(** A blank at the beginning of a name is lost in Bash and zsh. *)
Theorem C130_blank_refuted : exists f : file_info,
  good_mime f /\ fi_path f = s " a" /\ zsh_mime_file (has_infix (s "image/")) (print_files not_ascii [f]) = [s "a"] /\
  bash_mime_file (printf_q posix_special) (has_infix (s "image/")) (s " ") (print_files not_ascii [f]) = [].
Proof.
  exists (type130 " a" "image/png; charset=binary").
  split; [apply good_mime1; reflexivity |]. repeat split; vm_compute; reflexivity.
Qed.
Print Assumptions C130_blank_refuted.
(** Fish offers the bytes as [file] prints them. *)
Theorem C130_fish_bytes_refuted : exists f : file_info,
  good_mime f /\ good_path f /\ fi_path f = s "img" ++ [233%N] /\
  fish_mime_file (has_infix (s "image/")) (print_files not_ascii [f]) = print_lines [s "img\351"].
Proof.
  exists (FileInfo (s "img" ++ [233%N]) [SP] (s "image/gif; charset=binary")).
  split; [apply good_mime1; reflexivity |].
  split; [apply good_path1; reflexivity |].
  split; reflexivity.
Qed.
Print Assumptions C130_fish_bytes_refuted.
(** The blank behind the colon belongs to the text in which the pattern is searched: a pattern that is tied
    to the beginning, as [^image/], fits no type. *)
Theorem C130_anchor_refuted : exists (fits : str -> bool) (f : file_info),
  (forall x, fits x = starts_with (s "image/") x) /\ good_mime f /\ good_path f /\ wanted_file fits f [fi_path f] /\
  zsh_mime_file fits (print_files not_ascii [f]) = [] /\ (forall q typed, bash_mime_file q fits typed (print_files not_ascii [f]) = []) /\
  fish_mime_file fits (print_files not_ascii [f]) = [].
Proof.
  exists (starts_with (s "image/")), (type130 "a" "image/png; charset=binary").
  split; [reflexivity |].
  split; [apply good_mime1; reflexivity |].
  split; [apply good_path1; reflexivity |].
  split; [apply a_file; [rewrite <- directory_iff; vm_compute; discriminate | reflexivity] |].
  split; [reflexivity |]. split; [| reflexivity]. intros q typed. unfold bash_mime_file.
  replace (flat_map _ _) with (@nil str) by reflexivity. reflexivity.
Qed.
Print Assumptions C130_anchor_refuted.

(** ** C131: the texts of the history in which the pattern is found, and that begin with what was typed

    [texts]: what [grep -o] prints, one on each line. *)
Theorem C131_bash_partial : forall escape typed texts,
  (forall c, posix_special c = true -> escape c = true) -> Forall tidy texts ->
  Forall2 stands_for (bash_history (printf_q escape) typed (print_lines texts)) (filter (starts_with typed) texts).
Proof.
  intros escape typed texts He Ht. unfold bash_history. rewrite read_tidy by exact Ht. apply quoted_all; [exact He |].
  apply filter_Forall. eapply Forall_impl; [| exact Ht]. intros x Hx. apply Hx.
Qed.
Print Assumptions C131_bash_partial.
Theorem C131_zsh_partial : forall texts, Forall tidy texts -> zsh_history (print_lines texts) = texts.
Proof. exact read_tidy. Qed.
Print Assumptions C131_zsh_partial.
Example C131_example :
  bash_history (printf_q posix_special) (s "https") (print_lines [s "http://a"; s "https://a b"; s "https://c"]) = [s "https://a\ b"; s "https://c"] /\
  zsh_history (print_lines [s "http://a"; s "https://a b"]) = [s "http://a"; s "https://a b"].
Proof. split; vm_compute; reflexivity. Qed.
(** What was typed is compared as it is written: what Bash itself has suggested is not found again when a
    blank was typed behind a backslash. *)
Theorem C131_escaped_refuted : exists cur us text_,
  units Outside cur = Some (us, false) /\ tidy text_ /\ starts_with (text us) text_ = true /\
  bash_history (printf_q posix_special) [] (print_lines [text_]) = [cur ++ s "c"] /\
  bash_history (printf_q posix_special) cur (print_lines [text_]) = [].
Proof.
  exists (s "a\ b"), [(97%N, Bare); (SP, Escaped); (98%N, Bare)], (s "a bc").
  split; [reflexivity |]. split; [| repeat split; vm_compute; reflexivity].
  split; [apply memc_false; reflexivity |]. intros _. split; rewrite <- blank_iff; vm_compute; discriminate.
Qed.
Print Assumptions C131_escaped_refuted.
(** Blanks at the ends of a text are lost. *)
Theorem C131_blank_refuted : exists text_, ~ In LF text_ /\ zsh_history (print_lines [text_]) <> [text_] /\
  bash_history (printf_q posix_special) text_ (print_lines [text_]) = [].
Proof.
  exists (s " a"). split; [apply memc_false; reflexivity |]. split; [vm_compute; discriminate | vm_compute; reflexivity].
Qed.
Print Assumptions C131_blank_refuted.
