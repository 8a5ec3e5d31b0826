(** * Proofs: the text that is made from a help text is read back. *)
From Coq Require Import Lia.
From Verif Require Import Base PyStr Value Cli StrUtils StrUtilsProofs DictSource DictSourceProofs HelpParser SpecHelp HelpProofs HelpConverter HelpYaml SpecYamlScalar YamlText SpecYamlText YamlTextProofs YamlTextMain YamlTextDocs YamlTextTree.
Open Scope list_scope.

Definition option_list (options : list option_with_metavar) (description : option str) : list (str * option value) :=
  let m := last_metavar options None in
  [(s "metavar", option_map VStr m);
   (s "help", Some (VStr (fix_description (match description with Some d => d | None => [] end))));
   (s "optional_arg", if existsb o_optional options then Some (VBool true) else None);
   (s "complete", option_map complete_for_metavar m)].
Lemma option_dict_list os d : option_dict os d = VDict (entries ((s "option_strings", Some (VList (map (fun o => VStr (o_option o)) os))) :: option_list os d)).
Proof. unfold option_dict, option_list. destruct (last_metavar os None), (existsb o_optional os); reflexivity. Qed.
Lemma complete_not_none m : value_eqb (complete_for_metavar m) VNone = false.
Proof.
  unfold complete_for_metavar. destruct (find _ metavar_equals) as [[? ?] |]; [reflexivity |]. destruct (find _ metavar_endswith) as [[? ?] |]; [reflexivity |].
  repeat match goal with |- context [if ?b then _ else _] => destruct b end; reflexivity.
Qed.
Lemma option_lines os d : option_to_yaml (converted_option os d) =
  join [LF] ((s "- " ++ pair_line (VStr (s "option_strings"), VList (map (fun o => VStr (o_option o)) os))) :: map (fun kv => s "  " ++ pair_line kv) (entries (option_list os d))).
Proof.
  unfold option_to_yaml. f_equal. rewrite field_lines_pairs. f_equal. f_equal. unfold field_pairs, option_fields, converted_option, option_list.
  generalize (fix_description (match d with Some d => d | None => [] end)). generalize (VList (map (fun o => VStr (o_option o)) os)). intros names help.
  destruct (last_metavar os None) as [m |]; [cbn [option_map]; pose proof (complete_not_none m) as C; generalize dependent (complete_for_metavar m); intros v C |]; destruct (existsb o_optional os); try (vm_compute; reflexivity).
  all: destruct v; try discriminate; vm_compute; reflexivity.
Qed.

(** ** Items *)
Definition comment_ok (i : item) : Prop := match i with Unparsed text => one_line (rstrip_p is_space text) | _ => True end.
Definition item_lines (i : item) : list str :=
  match i with
  | Unparsed text => [s "# " ++ rstrip_p is_space text]
  | OptionsWithDescription os d => dict_lines (dict_of (option_dict os d)) ++ [[]]
  end.
Definition items_dicts (is : list item) : list value := HelpConverter.option_dicts is.
Lemma option_good os d : yaml_writable (option_dict os d) = true ->
  exists kv d', dict_of (option_dict os d) = kv :: d' /\ good_pair kv /\ Forall good_pair d' /\
    indent (option_to_yaml (converted_option os d)) 2 = join [LF] (dict_lines (kv :: d')).
Proof.
  intros W. rewrite option_lines. rewrite option_dict_list in W |- *. apply entries_good in W; [| reflexivity]. cbn [entries dict_of] in *. inversion W; subst. eexists _, _. split; [reflexivity |].
  split; [assumption |]. split; [assumption |]. now apply indent_block.
Qed.
Lemma join_app_lf (a b : list str) : a <> [] -> b <> [] -> join [LF] (a ++ b) = join [LF] a ++ [LF] ++ join [LF] b.
Proof.
  intros Ha Hb. induction a as [| x a IH]; [contradiction |]. destruct a as [| y a]; [destruct b as [| z b]; [contradiction | reflexivity] |].
  cbn [app]. rewrite !join_cons. cbn [app] in IH. rewrite IH by discriminate. now rewrite <- !app_assoc.
Qed.
Lemma output_lines is (h : list str) : h <> [] -> (forall os d, In (OptionsWithDescription os d) is -> yaml_writable (option_dict os d) = true) ->
  join [LF] (join [LF] h :: flat_map item_output is) = join [LF] (h ++ flat_map item_lines is).
Proof.
  revert h. induction is as [| i is IH]; intros h Hn H; [cbn [flat_map join]; now rewrite app_nil_r |].
  assert (forall os d, In (OptionsWithDescription os d) is -> yaml_writable (option_dict os d) = true) as H' by (intros os d Hi; apply H; now right).
  assert (forall x l, join [LF] (join [LF] h :: x ++ flat_map item_output is) = join [LF] (join [LF] (h ++ l) :: flat_map item_output is) ->
    join [LF] (join [LF] h :: x ++ flat_map item_output is) = join [LF] (h ++ l ++ flat_map item_lines is)) as K.
  { intros x l E. rewrite E. rewrite IH; [now rewrite <- app_assoc | | exact H']. intros N. now apply app_eq_nil in N as [N _]. }
  cbn [flat_map]. apply K. destruct i as [text | os d]; cbn [item_output item_lines app].
  - rewrite join_app_lf by (assumption || discriminate). cbn [join]. destruct (flat_map item_output is) as [| w ws]; [reflexivity |]. now rewrite <- !app_assoc.
  - destruct (option_good os d (H os d (or_introl eq_refl))) as (kv & d' & E & _ & _ & F). rewrite E, F. rewrite !join_cons.
    rewrite (join_app_lf h) by (assumption || (cbn; discriminate)). rewrite (join_app_lf (dict_lines (kv :: d')) [[]]) by (cbn; discriminate).
    cbn [join]. rewrite app_nil_r. destruct (flat_map item_output is) as [| w ws]; [cbn [join]; now rewrite ?app_nil_r |]. cbn [app]. now repeat (rewrite <- !app_assoc; cbn [app]).
Qed.
Lemma fold_items is : (forall os d, In (OptionsWithDescription os d) is -> yaml_writable (option_dict os d) = true) ->
  fold_right read_line (Some (Below [] [] [] [])) (flat_map item_lines is) = Some (Below [] (HelpConverter.option_dicts is) [] []).
Proof.
  induction is as [| i is IH]; intros H; [reflexivity |]. cbn [flat_map]. rewrite fold_right_app, IH by (intros os d Hi; apply H; now right).
  destruct i as [text | os d]; cbn [item_lines HelpConverter.option_dicts].
  - reflexivity.
  - rewrite fold_right_app. cbn [fold_right]. change (read_line [] (Some ?b)) with (Some b). destruct (option_good os d (H os d (or_introl eq_refl))) as (kv & d' & E & G1 & G2 & _).
    rewrite fold_dict; [| rewrite E; discriminate | rewrite E; now constructor | reflexivity]. cbn [b_mappings b_entries b_documents]. now rewrite option_dict_list.
Qed.
Lemma items_one_line is : (forall os d, In (OptionsWithDescription os d) is -> yaml_writable (option_dict os d) = true) -> Forall comment_ok is -> Forall one_line (flat_map item_lines is).
Proof.
  intros H C. apply Forall_forall. intros x Hx. apply in_flat_map in Hx as (i & Hi & Hx). rewrite Forall_forall in C. specialize (C i Hi). destruct i as [text | os d]; cbn [item_lines] in Hx.
  - destruct Hx as [<- | []]. apply one_line_app; [now apply by_chars | exact C].
  - destruct (option_good os d (H os d Hi)) as (kv & d' & E & G1 & G2 & _). rewrite E in Hx. apply in_app_iff in Hx as [Hx | [<- | []]]; [| intros ? []]. cbn [dict_lines] in Hx.
    destruct Hx as [<- | Hx]; [apply (clean_prefix (s "  - ")); [now apply by_chars | exact G1] |]. apply in_map_iff in Hx as (kv' & <- & Hk). rewrite Forall_forall in G2.
    apply (clean_prefix (s "    ")); [now apply by_chars | now apply G2].
Qed.

(** ** The program *)
Definition plain_char (c : N) : bool := ((32 <=? c) && (c <=? 126) && negb (N.eqb c DQ) && negb (N.eqb c BS))%N.
Lemma plain_dumps x : forallb plain_char x = true -> s """" ++ x ++ s """" = dumps_str x.
Proof.
  intros H. unfold dumps_str. change (s """") with [DQ]. f_equal. f_equal. induction x as [| c x IH]; [reflexivity |]. cbn [forallb] in H. apply andb_true_iff in H as [Hc H].
  cbn [map concat]. rewrite <- IH by exact H. unfold plain_char in Hc. rewrite !andb_true_iff in Hc. destruct Hc as [[[A B] C] D]. apply negb_true_iff in C, D.
  assert (escape_char c = [c]) as ->; [| reflexivity]. pose proof A as A'. pose proof B as B'. apply N.leb_le in A', B'. unfold escape_char. rewrite C, D.
  repeat match goal with |- context [N.eqb c ?n] => destruct (N.eqb_spec c n); [lia |] end. now rewrite A, B.
Qed.
Lemma plain_writable x : forallb plain_char x = true -> yaml_writable (VStr x) = true.
Proof.
  intros H. unfold yaml_writable. cbn [writable]. apply forallb_forall. intros c Hc. rewrite forallb_forall in H. specialize (H c Hc). unfold plain_char in H. rewrite !andb_true_iff in H.
  destruct H as [[[_ B] _] _]. apply N.leb_le in B. unfold yaml_char. apply N.ltb_lt. lia.
Qed.

Theorem help_yaml x prog is :
  get_program_name_from_help x = Ok prog -> parse x = Ok is ->
  forallb plain_char prog = true ->
  (forall os d, In (OptionsWithDescription os d) is -> yaml_writable (option_dict os d) = true) -> Forall comment_ok is ->
  exists text, convert_to_yaml x = Ok text /\
  read_yaml text = Some [VDict [(VStr (s "prog"), VStr prog); (VStr (s "help"), VStr (s "<Program description here>"));
    (VStr (s "options"), match HelpConverter.option_dicts is with [] => VNone | _ => VList (HelpConverter.option_dicts is) end)]].
Proof.
  intros E1 E2 Hp H C. unfold convert_to_yaml. rewrite E1, E2. cbn [bind]. eexists. split; [reflexivity |].
  set (h := [pair_line (VStr (s "prog"), VStr prog); pair_line (VStr (s "help"), VStr (s "<Program description here>")); s "options" ++ s ":"]).
  assert ((s "prog: """ ++ prog ++ s """" ++ [LF] ++ s "help: ""<Program description here>""" ++ [LF] ++ s "options:") = join [LF] h) as ->.
  { unfold h. unfold pair_line at 1. cbn [fst snd key_text dumps join]. rewrite <- plain_dumps by exact Hp. rewrite <- !app_assoc. reflexivity. }
  assert (good_pair (VStr (s "prog"), VStr prog)) as G1 by (exists (s "prog"); split; [reflexivity | split; [reflexivity | now apply plain_writable]]).
  assert (good_pair (VStr (s "help"), VStr (s "<Program description here>"))) as G2 by (exists (s "help"); now repeat split).
  rewrite output_lines by (exact H || discriminate). destruct (lines_join (h ++ flat_map item_lines is)) as [K1 K2]; [discriminate | |].
  - apply Forall_app. split; [| now apply items_one_line]. unfold h. constructor; [| constructor; [| constructor; [| constructor]]].
    + now apply printable_one_line, pair_printable.
    + now apply printable_one_line, pair_printable.
    + now apply by_chars.
  - unfold read_yaml. rewrite K2, K1. rewrite fold_right_app, fold_items by exact H. unfold h. cbn [fold_right]. rewrite top_line by reflexivity.
    rewrite header_read by reflexivity. cbn [b_fields b_mappings b_entries b_documents]. rewrite !line_entry by assumption. now destruct (HelpConverter.option_dicts is).
Qed.

(** ** From the characters of the help text *)
Definition all_of (p : N -> bool) (x : str) : Prop := forall c, In c x -> p c = true.
Lemma all_app p a b : all_of p (a ++ b) <-> all_of p a /\ all_of p b.
Proof. unfold all_of. setoid_rewrite in_app_iff. firstorder. Qed.
Lemma all_cons p a b : all_of p (a :: b) <-> p a = true /\ all_of p b.
Proof. unfold all_of. split; [intros H; split; [apply H; now left | intros c Hc; apply H; now right] | intros [H1 H2] c [<- | Hc]; auto]. Qed.
Lemma all_lstrip p q x : all_of p x -> all_of p (lstrip_p q x).
Proof. induction x as [| c x IH]; intros H; [exact H |]. cbn [lstrip_p]. destruct (q c); [apply IH; now apply all_cons in H as [_ H] | exact H]. Qed.
Lemma all_rev p x : all_of p x -> all_of p (rev x).
Proof. intros H c Hc. apply H. now apply in_rev. Qed.
Lemma all_rstrip p q x : all_of p x -> all_of p (rstrip_p q x).
Proof. intros H. unfold rstrip_p. now apply all_rev, all_lstrip, all_rev. Qed.
Lemma all_strip p q x : all_of p x -> all_of p (strip_p q x).
Proof. intros H. unfold strip_p. now apply all_rstrip, all_lstrip. Qed.
Lemma all_inner p x : all_of p x -> all_of p (inner x).
Proof.
  intros H. unfold inner. assert (all_of p (tl x)) as K by (destruct x; [exact H | now apply all_cons in H as [_ H]]). revert K. generalize (tl x). clear.
  intros x. induction x as [| c x IH]; intros H; [exact H |]. apply all_cons in H as [H1 H2]. destruct x as [| d x]; [intros ? [] |]. change (removelast (c :: d :: x)) with (c :: removelast (d :: x)).
  apply all_cons. split; [exact H1 | now apply IH].
Qed.
Lemma all_strip_metavar p x : all_of p x -> all_of p (strip_metavar x).
Proof.
  intros H. unfold strip_metavar. set (y := if first_is LBRK x && last_is RBRK x then inner x else x). assert (all_of p y) as Hy by (unfold y; destruct (first_is LBRK x && last_is RBRK x); [now apply all_inner | exact H]).
  set (z := if first_is EQ y then tl y else y). assert (all_of p z) as Hz by (unfold z; destruct (first_is EQ y); [destruct y; [exact Hy | now apply all_cons in Hy as [_ Hy]] | exact Hy]).
  change (all_of p (if first_is LT z && last_is GT z then inner z else z)). destruct (first_is LT z && last_is GT z); [now apply all_inner | exact Hz].
Qed.
Lemma all_replace_c p a r x : all_of p r -> all_of p x -> all_of p (replace_c a r x).
Proof.
  intros Hr. induction x as [| c x IH]; intros H; [exact H |]. apply all_cons in H as [H1 H2]. cbn [replace_c]. destruct (N.eqb c a); [apply all_app; split; [exact Hr | now apply IH] | apply all_cons; split; [exact H1 | now apply IH]].
Qed.
Lemma all_replace p old new x : all_of p new -> all_of p x -> all_of p (replace_s old new x).
Proof.
  intros Hn. unfold replace_s. generalize 0. induction x as [| c x IH]; intros n H; cbn [replace_loop].
  - try (destruct n); try (destruct old); assumption || (intros ? []).
  - apply all_cons in H as [H1 H2]. destruct n as [| n]; [| now apply IH].
    repeat match goal with |- context [if ?b then _ else _] => destruct b end; repeat (rewrite all_app || rewrite all_cons); auto.
Qed.
Lemma all_split p a x w : all_of p x -> In w (split_c a x) -> all_of p w.
Proof.
  revert w. induction x as [| c x IH]; intros w H Hw; cbn [split_c] in Hw; [destruct Hw as [<- | []]; exact H |]. apply all_cons in H as [H1 H2].
  destruct (split_c a x) as [| v vs] eqn:E; [now apply split_c_nonnil in E |]. destruct (N.eqb c a); cbn [In] in Hw.
  - destruct Hw as [<- | Hw]; [intros ? [] | now apply IH].
  - destruct Hw as [<- | Hw]; [apply all_cons; split; [exact H1 | apply IH; [exact H2 | now left]] | apply IH; [exact H2 | now right]].
Qed.
Lemma all_writable x : all_of yaml_char x -> yaml_writable (VStr x) = true.
Proof. intros H. unfold yaml_writable. cbn [writable]. now apply forallb_forall. Qed.
Lemma complete_writable m : all_of yaml_char m -> yaml_writable (complete_for_metavar m) = true.
Proof.
  intros H. unfold complete_for_metavar. set (x := strip_p (fun c => memc c [LT; GT]) m). assert (all_of yaml_char x) as Hx by now apply all_strip. clearbody x.
  destruct (find _ metavar_equals) as [[k v] |] eqn:E1.
  { apply find_some in E1 as [E1 _]. assert (forallb (fun kv => yaml_writable (VList [VStr (snd kv)])) metavar_equals = true) as K by reflexivity. rewrite forallb_forall in K. exact (K _ E1). }
  destruct (find _ metavar_endswith) as [[k v] |] eqn:E2.
  { apply find_some in E2 as [E2 _]. assert (forallb (fun kv => yaml_writable (VList [VStr (snd kv)])) metavar_endswith = true) as K by reflexivity. rewrite forallb_forall in K. exact (K _ E2). }
  destruct (_ && _); [| reflexivity]. set (y := strip_p _ x). assert (all_of yaml_char y) as Hy by now apply all_strip. clearbody y.
  assert (forall a, yaml_writable (VList [VStr (s "choices"); VList (map (fun item => VStr (strip_p is_space item)) (split_c a y))]) = true) as K.
  { intros a. unfold yaml_writable. cbn [writable forallb]. rewrite andb_true_r. apply andb_true_iff. split; [reflexivity |]. apply forallb_forall. intros v Hv. apply in_map_iff in Hv as (w & <- & Hw).
    apply all_writable, all_strip. now apply (all_split _ a y). }
  destruct (memc PIPE y); [apply K |]. destruct (memc COMMA y); [apply K | reflexivity].
Qed.
Definition option_all (p : N -> bool) (o : option_with_metavar) : Prop := all_of p (o_option o) /\ forall m, o_metavar o = Some m -> all_of p m.
Lemma last_metavar_all p os m0 : Forall (option_all p) os -> (forall m, m0 = Some m -> all_of p m) -> forall m, last_metavar os m0 = Some m -> all_of p m.
Proof.
  intros H. revert m0. induction H as [| o os [_ Ho] _ IH]; intros m0 H0 m E; [now apply H0 |]. cbn [last_metavar] in E. apply (IH _) in E; [exact E |].
  intros m'. destruct (o_metavar o) as [[| c y] |]; [apply H0 | | apply H0]. intros [= <-]. now apply all_strip_metavar, Ho.
Qed.
Lemma option_writable os d : Forall (option_all yaml_char) os -> (forall x, d = Some x -> all_of yaml_char x) -> yaml_writable (option_dict os d) = true.
Proof.
  intros Ho Hd. rewrite option_dict_list. unfold option_list. assert (yaml_writable (VList (map (fun o => VStr (o_option o)) os)) = true) as W1.
  { unfold yaml_writable. cbn [writable]. apply forallb_forall. intros v Hv. apply in_map_iff in Hv as (o & <- & Hi). rewrite Forall_forall in Ho. apply all_writable. now apply Ho. }
  assert (yaml_writable (VStr (fix_description (match d with Some d => d | None => [] end))) = true) as W2.
  { apply all_writable. unfold fix_description. apply all_replace_c; [now intros c [<- | []] |]. apply all_replace; [now intros c [<- | []] |]. apply all_strip. destruct d; [now apply Hd | intros ? []]. }
  pose proof (last_metavar_all yaml_char os None Ho ltac:(discriminate)) as Hm.
  assert (forall l, (forall k v, In (k, Some v) l -> forallb yaml_char k = true /\ yaml_writable v = true) -> yaml_writable (VDict (entries l)) = true) as K.
  { clear. intros l H. unfold yaml_writable. cbn [writable]. apply forallb_forall. intros [k v] Hi. cbn [fst snd]. induction l as [| [k' [v' |]] l IH]; cbn [entries] in Hi; [contradiction | |].
    - destruct Hi as [[= <- <-] | Hi]; [| apply IH; [intros k0 v0 H0; apply H; now right | exact Hi]]. destruct (H k' v' (or_introl eq_refl)) as [A B]. apply andb_true_iff. now split.
    - apply IH; [intros k0 v0 H0; apply H; now right | exact Hi]. }
  apply K. intros k v [E | [E | [E | [E | [E | []]]]]]; injection E as <- E; (split; [reflexivity |]).
  - now subst v.
  - destruct (last_metavar os None) as [m |]; [| discriminate]. injection E as <-. now apply all_writable, Hm.
  - now subst v.
  - destruct (existsb o_optional os); [| discriminate]. now injection E as <-.
  - destruct (last_metavar os None) as [m |]; [| discriminate]. injection E as <-. now apply complete_writable, Hm.
Qed.
Lemma argument_all p m f t : argument_text m f t -> all_of p t -> forall m', m = Some m' -> all_of p m'.
Proof. intros [| m1 | c m1 Hc | m1] H m' E; try discriminate; injection E as <-; [now apply all_cons in H as [_ H] | now apply all_cons in H as [_ H] | exact H]. Qed.
Lemma option_text_all p o t : option_text o t -> all_of p t -> option_all p o.
Proof. intros [sp o1 m f t1 _ _ Ha] H. rewrite !all_app in H. destruct H as (_ & H1 & H2). split; [exact H1 |]. cbn [o_metavar]. now apply (argument_all p m f t1). Qed.
Lemma options_text_all p os t : options_text os t -> all_of p t -> Forall (option_all p) os.
Proof.
  induction 1 as [o t Ho | o t sp d Ho _ _ | o os t sp d t' Ho _ _ _ IH]; intros H; rewrite ?all_app in H.
  - constructor; [now apply (option_text_all p o t) | constructor].
  - constructor; [now apply (option_text_all p o t) | constructor].
  - constructor; [now apply (option_text_all p o t) | now apply IH].
Qed.
Lemma description_all p d t : description_text d t -> all_of p t -> all_of p d.
Proof. induction 1 as [sp l _ _ | sp l d t _ _ _ IH]; intros H; rewrite ?all_app in *; [now apply H |]. destruct H as (_ & H1 & H2 & H3). auto. Qed.
Definition text_char (c : N) : bool := allowed_char c && yaml_char c && (negb (ends_line c) || N.eqb c LF).
Lemma rstrip_no_lf l : line l -> ~ In LF (rstrip_p is_space l).
Proof.
  intros H. assert (forall u, ~ In LF u -> ~ In LF (rstrip_p is_space u)) as K.
  { intros u Hu I. apply (all_rstrip (fun c => negb (N.eqb c LF)) is_space u) in I; [now rewrite N.eqb_refl in I |]. intros c Hc. destruct (N.eqb_spec c LF) as [-> | ]; [contradiction | reflexivity]. }
  destruct H as [H | (u & -> & H)]; [now apply K |]. rewrite rstrip_space by reflexivity. now apply K.
Qed.
Lemma items_all is x : items_text is x -> all_of text_char x ->
  Forall comment_ok is /\ forall os d, In (OptionsWithDescription os d) is -> yaml_writable (option_dict os d) = true.
Proof.
  assert (forall a, all_of text_char a -> all_of yaml_char a) as Y.
  { intros a H c Hc. specialize (H c Hc). unfold text_char in H. apply andb_true_iff in H as [H _]. now apply andb_true_iff in H as [_ H]. }
  induction 1 as [| i is t t' Hi _ IH]; intros H; [split; [constructor | intros os d []] |]. apply all_app in H as [H1 H2]. destruct (IH H2) as [I1 I2]. split.
  - constructor; [| exact I1]. destruct Hi as [l Hl | |]; [| exact I | exact I]. cbn [comment_ok]. intros c Hc.
    pose proof (all_rstrip _ is_space _ H1 c Hc) as T. unfold text_char in T. rewrite !andb_true_iff in T. destruct T as [[T1 _] T2]. split; [exact T1 |].
    apply orb_true_iff in T2 as [T2 | T2]; [now apply negb_true_iff in T2 |]. apply N.eqb_eq in T2. subst c. now apply rstrip_no_lf in Hc.
  - intros os d [E | Hin]; [| now apply I2]. subst i. inversion Hi as [| os' t0 Ho | os' d' t0 t1 Ho Hd]; subst.
    + apply option_writable; [apply (options_text_all _ _ t); [exact Ho | now apply Y] | discriminate].
    + apply all_app in H1 as [H1 H1']. apply option_writable; [apply (options_text_all _ _ t0); [exact Ho | now apply Y] |]. intros y [= <-]. apply (description_all _ _ t1); [exact Hd | now apply Y].
Qed.
