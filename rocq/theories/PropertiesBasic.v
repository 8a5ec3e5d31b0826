(** * Properties C06-C09, C13-C19, C46-C48: string, list and template utilities.
    Statements only. *)
From Verif Require Import Base Dict Algo AlgoProofs StrUtils StrUtilsProofs Preproc SpecPreproc
  PreprocProofs Abbrev AbbrevProofs.
From Coq Require Import Permutation.

(** C06.  Every accepted option string has exactly one of the three styles ... *)
Theorem C06_option_styles : forall x : str, is_valid_option_string x = true ->
  (is_short_option_string x = true <-> exists c, c <> DASH /\ x = [DASH; c]) /\
  (is_long_option_string x = true <-> exists y, y <> [] /\ x = DASH :: DASH :: y) /\
  (is_old_option_string x = true <-> exists c d y, c <> DASH /\ x = DASH :: c :: d :: y).
Proof. exact option_style. Qed.
Print Assumptions C06_option_styles.

(** ... and the getters partition the option strings. *)
Theorem C06_getters_partition : forall l : list str,
  (forall x, In x l -> is_valid_option_string x = true) ->
  Permutation (get_short_option_strings l ++ get_long_option_strings l ++ get_old_option_strings l) l /\
  (forall x, In x (get_short_option_strings l) ->
     ~ In x (get_long_option_strings l) /\ ~ In x (get_old_option_strings l)) /\
  (forall x, In x (get_long_option_strings l) -> ~ In x (get_old_option_strings l)).
Proof. exact getters_partition. Qed.
Print Assumptions C06_getters_partition.

(** Which strings are accepted. *)
Theorem C06_valid_option_strings : forall x : str, is_valid_option_string x = true <->
  exists y, x = DASH :: y /\ y <> [] /\ y <> [DASH] /\
            forall c, In c y -> is_space c = false /\ c <> COMMA.
Proof. exact valid_option_string_iff. Qed.
Print Assumptions C06_valid_option_strings.

Example C06_example :
  forallb is_valid_option_string [s "-a"; s "--all"; s "-all"; s "---"] = true /\
  is_valid_option_string (s "--") = false /\ is_valid_option_string (s "-a b") = false /\
  get_old_option_strings [s "-a"; s "--all"; s "-all"; s "---"] = [s "-all"].
Proof. repeat split. Qed.

(** C07.  Abbreviations are prefixes, long enough and unambiguous. *)
Theorem C07_abbreviations_unambiguous : forall (m : nat) (words : list str) (w : str) (l : list str),
  get_abbreviations (general_abbreviations m words) w = Ok l ->
  forall a, In a l ->
    (exists t, w = a ++ t) /\ m <= length a /\
    (a = w \/ forall w', In w' words -> w' <> w -> ~ exists t, w' = a ++ t).
Proof. exact (fun m words w l H a Ha => proj1 (abbreviations_iff m words w l H a) Ha). Qed.
Print Assumptions C07_abbreviations_unambiguous.

(** C08.  All such prefixes are offered, without repetition; only unknown words fail. *)
Theorem C08_abbreviations_complete : forall (m : nat) (words : list str) (w : str),
  In w words ->
  exists l, get_abbreviations (general_abbreviations m words) w = Ok l /\ NoDup l /\
    (m <= length w -> In w l) /\
    forall a t, w = a ++ t -> m <= length a ->
      (forall w', In w' words -> w' <> w -> ~ exists t', w' = a ++ t') -> In a l.
Proof. exact abbreviations_complete. Qed.
Print Assumptions C08_abbreviations_complete.

Example C07_C08_example :
  get_abbreviations (command_abbreviations [s "pull"; s "push"; s "pu"; s "status"]) (s "pull")
    = Ok [s "pull"; s "pul"] /\
  get_abbreviations (command_abbreviations [s "pull"; s "push"; s "pu"; s "status"]) (s "pu")
    = Ok [s "pu"] /\
  get_abbreviations (command_abbreviations [s "pull"; s "push"; s "pu"; s "status"]) (s "status")
    = Ok [s "status"; s "statu"; s "stat"; s "sta"; s "st"; s "s"].
Proof. repeat split. Qed.

(** C09.  Abbreviations of two different option strings never coincide, and the generator
    accepts every set of valid long and old-style option strings. *)
Theorem C09_option_abbreviations_disjoint : forall (words : list str),
  (forall w, In w words -> is_valid_option_string w = true /\
     (is_long_option_string w = true \/ is_old_option_string w = true)) ->
  exists d, option_abbreviations words = Ok d /\
    forall w1 w2 l1 l2 a, get_abbreviations d w1 = Ok l1 -> get_abbreviations d w2 = Ok l2 ->
      In a l1 -> In a l2 -> w1 = w2.
Proof. exact option_abbreviations_disjoint. Qed.
Print Assumptions C09_option_abbreviations_disjoint.

Example C09_example :
  let words := [s "--foo"; s "--foobar"; s "-old"] in
  (forall w, In w words -> is_valid_option_string w = true /\
     (is_long_option_string w = true \/ is_old_option_string w = true)) /\
  get_abbreviations (general_abbreviations 3 words) (s "--foobar")
    = Ok [s "--foobar"; s "--fooba"; s "--foob"].
Proof.
  cbv zeta. split; [|reflexivity].
  intros w [<-|[<-|[<-|[]]]]; (split; [reflexivity|]); [left|left|right]; reflexivity.
Qed.

(** C13.  A properly nested template is reduced to the selected lines.  [splitlines] loses
    nothing, so this speaks about the whole text. *)
Theorem C13_preprocess_selects : forall (x : str) (defines : list str) (d : doc),
  concat (splitlines x) = x /\
  (splitlines x = render d -> wf d -> preprocess x defines = Ok (concat (select defines d))).
Proof. exact (fun x defines d => conj (splitlines_concat x) (preprocess_select x defines d)). Qed.
Print Assumptions C13_preprocess_selects.

Example C13_example :
  let d := DText (s "a" ++ [LF]) (DIfElse (s " #ifdef X" ++ [LF]) (s "X")
             (DIf (s "#ifdef Y" ++ [LF]) (s "Y") (DText (s "b" ++ [LF]) DNil) (s "#endif" ++ [LF]) DNil)
             (s "#else" ++ [LF]) (DText (s "c" ++ [LF]) DNil) (s "#endif" ++ [LF]) DNil) in
  wf d /\ splitlines (concat (render d)) = render d /\
  select [s "X"] d = [s "a" ++ [LF]] /\ select [] d = [s "a" ++ [LF]; s "c" ++ [LF]] /\
  select [s "X"; s "Y"] d = [s "a" ++ [LF]; s "b" ++ [LF]].
Proof.
  cbv zeta. split; [|vm_compute; repeat split].
  assert (T : forall c, negb (is_space c) && negb (N.eqb c HASH) = true -> text_line (c :: [LF])).
  { intros c Hc. apply andb_true_iff in Hc as [H1 H2]. apply negb_true_iff in H1, H2.
    apply N.eqb_neq in H2.
    repeat split; intros [ws [r [Hw E]]];
      (destruct ws as [|w ws]; [injection E; congruence|]; cbn [forallb app] in *; injection E as -> _;
       rewrite H1 in Hw; discriminate). }
  assert (E : directive (s "#endif") (s "#endif" ++ [LF])) by (exists [], [LF]; split; reflexivity).
  assert (El : directive (s "#else") (s "#else" ++ [LF])) by (exists [], [LF]; split; reflexivity).
  cbn [wf]. repeat split; try assumption; try (apply T; reflexivity).
  - exists [SP], [SP], [LF]. repeat split; try discriminate. right. exists LF, []. split; reflexivity.
  - exists [], [SP], [LF]. repeat split; try discriminate. right. exists LF, []. split; reflexivity.
Qed.

(** C14.  Acceptance is exactly balance (which does not depend on the defines) ... *)
Theorem C14_preprocess_accepts_balanced : forall (x : str) (defines : list str),
  (exists out, preprocess x defines = Ok out) <-> balanced (splitlines x).
Proof. exact preprocess_ok_iff. Qed.
Print Assumptions C14_preprocess_accepts_balanced.

(** ... and every error names the first offending directive, or the unclosed block. *)
Theorem C14_preprocess_errors : forall (x : str) (defines : list str) (e : exn),
  preprocess x defines = Err e ->
  (e = SyntaxError (s "Unclosed #ifdef") /\ prefix_ok (splitlines x) /\
     n_dir (s "#endif") (splitlines x) < n_dir (s "#ifdef") (splitlines x)) \/
  (exists p l q, splitlines x = p ++ l :: q /\ prefix_ok p /\
     ((e = SyntaxError (s "#endif without #ifdef") /\ is_dir (s "#endif") l = true /\
         n_dir (s "#endif") p = n_dir (s "#ifdef") p) \/
      (e = SyntaxError (s "#else without #ifdef") /\ is_dir (s "#else") l = true /\
         n_dir (s "#endif") p = n_dir (s "#ifdef") p) \/
      (e = IndexError /\ is_dir (s "#ifdef") l = true /\
         length (split_ws (lstrip_p is_space l)) < 2))).
Proof. exact preprocess_error. Qed.
Print Assumptions C14_preprocess_errors.

Example C14_example :
  preprocess (s "#else") [] = Err (SyntaxError (s "#else without #ifdef")) /\
  preprocess (s "#ifdef") [] = Err IndexError /\
  preprocess (s "#ifdef X") [] = Err (SyntaxError (s "Unclosed #ifdef")) /\
  preprocess (s "#ifdef X" ++ [LF] ++ s "#else" ++ [LF] ++ s "#else" ++ [LF] ++ s "#endif") []
    = Ok [].
Proof. repeat split. Qed.

(** C15.  Wrapping keeps all items in order ([w_items]), never makes an empty line, keeps lines
    of several items within the limit ([w_fits]) and breaks a line only if the next item would
    not fit ([w_greedy]). *)
Theorem C15_join_with_wrap : forall (psep ssep : str) (max : Z) (items : list str) (prefix : str),
  exists ls : list (list str),
    join_with_wrap psep ssep max items prefix
      = join ssep (map (fun l => prefix ++ join psep l) ls) /\
    concat ls = items /\
    (forall l, In l ls -> l <> []) /\
    (forall l a b r, In l ls -> l = a :: b :: r ->
       (Z.of_nat (length (prefix ++ join psep l)) <= max)%Z) /\
    (forall p l1 x l2 q, ls = p ++ l1 :: (x :: l2) :: q ->
       (Z.of_nat (length (prefix ++ join psep (l1 ++ [x]))) > max)%Z).
Proof. exact join_with_wrap_plain. Qed.
Print Assumptions C15_join_with_wrap.

Example C15_example :
  join_with_wrap (s " ") [LF] 6 [s "aa"; s "bbb"; s "c"; s "dddddddd"; s "e"] []
  = s "aa bbb" ++ [LF] ++ s "c" ++ [LF] ++ s "dddddddd" ++ [LF] ++ s "e".
Proof. reflexivity. Qed.

(** C16.  Indentation works line by line, leaves blank lines alone and can be undone. *)
Theorem C16_indent : forall (x : str) (n : Z),
  split_c LF (indent x n) =
    map (fun l => if forallb is_space l then l else repeat SP (Z.to_nat n) ++ l) (split_c LF x) /\
  join [LF] (map (fun l => if forallb is_space l then l else skipn (Z.to_nat n) l)
                 (split_c LF (indent x n))) = x.
Proof. exact (fun x n => conj (split_indent x n) (dedent_indent x n)). Qed.
Print Assumptions C16_indent.

Example C16_example : indent (s "a" ++ [LF; LF] ++ s " b") 2 = s "  a" ++ [LF; LF] ++ s "   b".
Proof. reflexivity. Qed.

(** C17.  One group per key, keys in order of first occurrence (the last occurrences, kept by
    [nodup], of the reversed list), and in each group exactly the elements with that key, in
    order. *)
Theorem C17_group_by : forall (A K : Type) (eqb : K -> K -> bool)
    (dec : forall a b : K, {a = b} + {a <> b}),
  (forall a b, reflect (a = b) (eqb a b)) ->
  forall (key : A -> K) (l : list A),
  group_by eqb l key =
  map (fun k => (k, filter (fun x => eqb (key x) k) l)) (rev (nodup dec (rev (map key l)))).
Proof. exact (fun A K eqb dec H key l => group_by_eq eqb dec H key l). Qed.
Print Assumptions C17_group_by.

Theorem C17_groups_nonempty : forall (A K : Type) (eqb : K -> K -> bool)
    (dec : forall a b : K, {a = b} + {a <> b}),
  (forall a b, reflect (a = b) (eqb a b)) ->
  forall (key : A -> K) (l : list A) k xs,
  In (k, xs) (group_by eqb l key) -> xs <> [] /\ forall x, In x xs <-> In x l /\ key x = k.
Proof. exact (fun A K eqb dec H key l => group_by_nonempty eqb dec H key l). Qed.
Print Assumptions C17_groups_nonempty.

Example C17_example :
  group_by N.eqb [5; 2; 7; 4]%N (fun x => N.modulo x 2) = [(1, [5; 7]); (0, [2; 4])]%N.
Proof. reflexivity. Qed.

(** C18.  De-duplication keeps first occurrences; partitioning and flattening. *)
Theorem C18_uniq : forall (A : Type) (eqb : A -> A -> bool) (dec : forall a b : A, {a = b} + {a <> b}),
  (forall a b, reflect (a = b) (eqb a b)) ->
  forall l : list A, uniq eqb l = rev (nodup dec (rev l)) /\ NoDup (uniq eqb l) /\
                     forall x, In x (uniq eqb l) <-> In x l.
Proof.
  exact (fun A eqb dec H l => conj (uniq_eq eqb dec H l)
           (conj (uniq_NoDup eqb dec H l) (uniq_In eqb dec H l))).
Qed.
Print Assumptions C18_uniq.

Theorem C18_partition : forall (A : Type) (p : A -> bool) (l : list A),
  partition l p = (filter p l, filter (fun x => negb (p x)) l).
Proof. exact (fun A => @partition_eq A). Qed.
Print Assumptions C18_partition.

Theorem C18_flatten : forall (A : Type) (l : list (list A)), flatten l = concat l.
Proof. exact (fun A => @flatten_eq A). Qed.
Print Assumptions C18_flatten.

Example C18_example : uniq N.eqb [3; 1; 3; 2; 1]%N = [3; 1; 2]%N.
Proof. reflexivity. Qed.

(** C19.  Contiguity is being a permutation of a non-empty run of consecutive integers. *)
Theorem C19_contiguous : forall l : list Z,
  numbers_are_contiguous l = true <->
  exists (a : Z) (n : nat), Permutation l (map (fun i => (a + Z.of_nat i)%Z) (seq 0 (S n))).
Proof. exact contiguous_iff. Qed.
Print Assumptions C19_contiguous.

Example C19_example : numbers_are_contiguous [3; 1; 2]%Z = true /\
  numbers_are_contiguous [1; 2; 2]%Z = false /\ numbers_are_contiguous [] = false.
Proof. repeat split. Qed.

(** C46.  Assignments to a sparse list never fail; afterwards every index below the length
    holds what was assigned to it last, or its previous value, or the default. *)
Theorem C46_sparse_list : forall (A : Type) (default : A) (l : list A) (ops : list (nat * A)),
  exists l', assign_all default l ops = Ok l' /\
  length l' = fold_right (fun p m => Nat.max (S (fst p)) m) (length l) ops /\
  forall i, nth_error l' i =
    if Nat.ltb i (length l')
    then Some (match last_assigned i ops with Some v => v | None => nth i l default end)
    else None.
Proof. exact (fun A default l ops => assign_all_spec default ops l). Qed.
Print Assumptions C46_sparse_list.

Example C46_example : assign_all 0%N [] [(2, 7%N); (0, 5%N); (2, 8%N)] = Ok [5; 0; 8]%N.
Proof. reflexivity. Qed.

(** C47.  A program string is accepted exactly if splitting it at single blanks gives only
    non-empty words, it has no tab or newline and is not blank. *)
Theorem C47_validate_prog : forall x : str, validate_prog x = Ok tt <->
  (forall w, In w (split_c SP x) -> w <> []) /\ ~ In TAB x /\ ~ In LF x /\
  exists c, In c x /\ is_space c = false.
Proof. exact validate_prog_iff. Qed.
Print Assumptions C47_validate_prog.

(** Then the two ways in which the code cuts it into a command path agree, if blanks are its
    only white space ... *)
Theorem C47_prog_paths_agree_partial : forall x : str,
  (forall c, In c x -> is_space c = true -> c = SP) -> validate_prog x = Ok tt ->
  split_ws x = split_c SP x.
Proof. exact validate_prog_split. Qed.
Print Assumptions C47_prog_paths_agree_partial.

(** ... but not in general (full claim: for every accepted [x]). *)
Theorem C47_prog_paths_agree_refuted : exists x : str,
  validate_prog x = Ok tt /\ split_ws x <> split_c SP x.
Proof. exists (s "git" ++ [160%N] ++ s "add"). split; [reflexivity|]. vm_compute. discriminate. Qed.
Print Assumptions C47_prog_paths_agree_refuted.

Example C47_example : validate_prog (s "git remote add") = Ok tt /\
  split_c SP (s "git remote add") = [s "git"; s "remote"; s "add"] /\
  validate_prog (s "git  add") = Err (CrazyError (s "contains multiple spaces")).
Proof. repeat split. Qed.

(** C48.  Tidying generated code only removes newlines, never adds any, and leaves text without
    double empty lines alone ... *)
Theorem C48_strip_empty_lines_partial : forall x : str,
  filter (fun c => negb (N.eqb c LF)) (strip_double_empty_lines x)
    = filter (fun c => negb (N.eqb c LF)) x /\
  length (strip_double_empty_lines x) <= length x /\
  ((forall a b, x <> a ++ [LF; LF; LF] ++ b) -> strip_double_empty_lines x = x).
Proof.
  exact (fun x => conj (sdel_content _ x (le_n _)) (conj (sdel_length _ x (le_n _)) (sdel_id _ x (le_n _)))).
Qed.
Print Assumptions C48_strip_empty_lines_partial.

(** ... but, unlike its name promises, can leave double empty lines behind (full claim: the
    result never contains three newlines in a row). *)
Theorem C48_strip_empty_lines_refuted : exists x a b : str,
  strip_double_empty_lines x = a ++ [LF; LF; LF] ++ b.
Proof. exists [LF; LF; LF; LF; LF], [LF], []. reflexivity. Qed.
Print Assumptions C48_strip_empty_lines_refuted.

Example C48_example :
  strip_double_empty_lines (s "a" ++ [LF; LF; LF] ++ s "b") = s "a" ++ [LF; LF] ++ s "b".
Proof. reflexivity. Qed.

(** C49.  Stripping comments removes exactly the comment lines, and doing it again changes
    nothing. *)
Theorem C49_strip_comments : forall x : str,
  (filter (fun l => negb (starts_with [HASH] (lstrip_p is_space l))) (split_c LF x) <> [] ->
   split_c LF (strip_comments x)
     = filter (fun l => negb (starts_with [HASH] (lstrip_p is_space l))) (split_c LF x)) /\
  strip_comments (strip_comments x) = strip_comments x.
Proof. exact (fun x => conj (split_strip_comments x) (strip_comments_idem x)). Qed.
Print Assumptions C49_strip_comments.

Example C49_example : strip_comments (s "a" ++ [LF] ++ s "  # b" ++ [LF] ++ s "c #") = s "a" ++ [LF] ++ s "c #".
Proof. reflexivity. Qed.
