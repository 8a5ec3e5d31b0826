(** * Proofs: exported command lines are read back. *)
From Coq Require Import Lia.
From Verif Require Import Base PyStr Value Cli StrUtils StrUtilsProofs DictSource DictSourceProofs SpecYamlScalar YamlText SpecYamlText YamlTextProofs YamlTextMain YamlTextDocs.
Open Scope list_scope.

Lemma entries_good l : forallb (fun ko => key_ok (fst ko)) l = true -> yaml_writable (VDict (entries l)) = true -> Forall good_pair (entries l).
Proof.
  induction l as [| [k [v |]] l IH]; cbn [entries]; intros Hk W; [constructor | |].
  - cbn [forallb fst] in Hk. apply andb_true_iff in Hk as [K1 K2]. unfold yaml_writable in *. cbn [writable forallb fst snd] in W. apply andb_true_iff in W as [W1 W2]. apply andb_true_iff in W1 as [_ W1].
    constructor; [exists k; now repeat split | now apply IH].
  - cbn [forallb fst] in Hk. apply andb_true_iff in Hk as [_ Hk]. now apply IH.
Qed.
Fixpoint distinct (l : list str) : bool := match l with [] => true | x :: l' => negb (mems x l') && distinct l' end.
Lemma distinct_ok l : distinct l = true -> NoDup l.
Proof.
  induction l as [| x l IH]; intros H; [constructor |]. cbn [distinct] in H. apply andb_true_iff in H as [H1 H2]. apply negb_true_iff in H1. constructor; [| now apply IH].
  intros I. assert (mems x l = true) as E; [| congruence]. unfold mems. apply existsb_exists. exists x. split; [exact I | apply str_eqb_refl].
Qed.
Ltac fits := repeat (apply Forall2_cons; [split; [reflexivity |]; cbn [fst snd]; unfold true_entry, xbool_entry, sep_entry, list_entry, option_map;
  repeat match goal with |- context [match ?f ?x with _ => _ end] => destruct (f x) | |- context [match ?l with [] => _ | _ :: _ => _ end] => is_var l; destruct l end; reflexivity |]); apply Forall2_nil.

(** ** Options *)
Definition option_entries (o : opt) : list (value * value) := dict_of (option_to_dictionary o).
Definition block_of (f : list (value * value) -> str) (d : list (value * value)) : Prop :=
  exists kv d', d = kv :: d' /\ good_pair kv /\ Forall good_pair d' /\ f d = join [LF] ((s "- " ++ pair_line kv) :: map (fun kv => s "  " ++ pair_line kv) d').
Lemma block_ok f fs name v l :
  (forall d, f d = join [LF] ((s "- " ++ name ++ s ": " ++ dumps (getd name VNone d)) :: field_lines fs d)) ->
  Forall2 fits_field fs l -> distinct (map fst ((name, Some v) :: l)) = true -> forallb (fun ko => key_ok (fst ko)) ((name, Some v) :: l) = true ->
  yaml_writable (VDict (entries ((name, Some v) :: l))) = true -> block_of f (entries ((name, Some v) :: l)).
Proof.
  intros Hf H2 Hn Hk W. apply distinct_ok in Hn. pose proof (entries_good _ Hk W) as G. cbn [entries] in G |- *. inversion G as [| ? ? G1 G2]; subst. exists (VStr name, v), (entries l).
  split; [reflexivity |]. split; [exact G1 |]. split; [exact G2 |]. rewrite Hf. f_equal. f_equal.
  - unfold getd, vget. cbn [Dict.dget value_eqb]. rewrite str_eqb_refl. reflexivity.
  - rewrite field_lines_pairs. f_equal. pose proof (pairs_entries fs l H2 [(name, Some v)] []) as E. rewrite !app_nil_r in E. cbn [app] in E. now apply E.
Qed.
Lemma option_block o : yaml_writable (option_to_dictionary o) = true -> block_of option_to_yaml (option_entries o).
Proof.
  intros W. refine (block_ok option_to_yaml option_fields (s "option_strings") _ _ _ _ _ _ W); [intros d; reflexivity | | reflexivity | reflexivity].
  fits.
Qed.
Lemma positional_block p : yaml_writable (positional_to_dictionary p) = true -> block_of positional_to_yaml (dict_of (positional_to_dictionary p)).
Proof.
  intros W. refine (block_ok positional_to_yaml positional_fields (s "number") _ _ _ _ _ _ W); [intros d; reflexivity | | reflexivity | reflexivity].
  fits.
Qed.

(** ** Commands *)
Lemma writable_list f (l : list (list (value * value))) : yaml_writable (VList (map f l)) = true -> forall d, In d l -> yaml_writable (f d) = true.
Proof. unfold yaml_writable. cbn [writable]. intros H d Hd. rewrite forallb_forall in H. apply H. apply in_map_iff. now exists d. Qed.
Definition top_entries (ps : list cmd) (c : cmd) : list (str * option value) :=
  [(s "prog", Some (VStr (get_command_path ps c))); (s "aliases", list_entry vstrs (c_aliases c)); (s "help", option_map VStr (c_help c)); (s "wraps", option_map VStr (c_wraps c));
   (s "abbreviate_commands", xbool_entry (c_abbrev_cmds c)); (s "abbreviate_options", xbool_entry (c_abbrev_opts c)); (s "inherit_options", xbool_entry (c_inherit c))].
Definition lists (c : cmd) : list (str * option value) :=
  [(s "options", list_entry (fun l => VList (map option_to_dictionary l)) (c_options c)); (s "positionals", list_entry (fun l => VList (map positional_to_dictionary l)) (c_positionals c))].
Lemma dictionary_split ps c : commandline_to_dictionary ps c = VDict (entries (top_entries ps c ++ lists c)).
Proof. reflexivity. Qed.
Definition option_dicts (c : cmd) := map option_entries (c_options c).
Definition positional_dicts (c : cmd) := map (fun p => dict_of (positional_to_dictionary p)) (c_positionals c).
Lemma doc_is ps c : doc_value (entries (top_entries ps c)) (option_dicts c) (positional_dicts c) = commandline_to_dictionary ps c.
Proof.
  rewrite dictionary_split, entries_app. unfold doc_value, option_dicts, positional_dicts, lists. f_equal. f_equal.
  assert (forall os, map VDict (map option_entries os) = map option_to_dictionary os) as E1 by (intros; rewrite map_map; apply map_ext; reflexivity).
  assert (forall os, map VDict (map (fun p => dict_of (positional_to_dictionary p)) os) = map positional_to_dictionary os) as E2 by (intros; rewrite map_map; apply map_ext; reflexivity).
  rewrite E1, E2. destruct (c_options c), (c_positionals c); reflexivity.
Qed.
Definition command_line (d : list (value * value)) (f : field) : str :=
  let '(name, default, i) := f in let v := getd name default d in if included i v then name ++ s ": " ++ dumps v ++ [LF] else [].
Lemma command_lines d fs : concat (map (command_line d) fs) = ended (map pair_line (field_pairs d fs)).
Proof.
  induction fs as [| [[name default] i] fs IH]; [reflexivity |]. unfold field_pairs in *. cbn [map concat flat_map]. rewrite map_app, ended_app, <- IH. f_equal.
  unfold command_line. destruct (included i (getd name default d)); [| reflexivity]. unfold ended, pair_line. cbn [map concat fst snd key_text]. now rewrite app_nil_r, <- !app_assoc.
Qed.
Lemma getd_at pre k o l default : ~ In k (map fst pre) -> ~ In k (map fst l) -> getd k default (entries (pre ++ (k, o) :: l)) = match o with Some v => v | None => default end.
Proof.
  intros H1 H2. unfold getd. rewrite entries_app, vget_skip by exact H1. rewrite vget_entries, str_eqb_refl. destruct o; [reflexivity |].
  rewrite <- (app_nil_r (entries l)), vget_skip by exact H2. reflexivity.
Qed.
Lemma not_in_names k l : mems k l = false -> ~ In k l.
Proof. intros H I. assert (mems k l = true) as E; [| congruence]. unfold mems. apply existsb_exists. exists k. split; [exact I | apply str_eqb_refl]. Qed.
Lemma list_of_entry {A} (f : A -> value) l : list_of (match list_entry (fun l => VList (map f l)) l with Some v => v | None => VNone end) = map f l.
Proof. now destruct l. Qed.
Definition add_section (k : str) (f : list (value * value) -> str) (l : list value) (r : str) : str :=
  match l with [] => r | _ => r ++ (k ++ s ":") ++ [LF] ++ concat (map (fun o => indent (f (dict_of o)) 2 ++ [LF; LF]) l) end.
Lemma to_yaml_is d : to_yaml d = rstrip_p is_space
  (add_section (s "positionals") positional_to_yaml (list_of (getd (s "positionals") VNone d))
    (add_section (s "options") option_to_yaml (list_of (getd (s "options") VNone d))
      ((s "prog: " ++ dumps (getd (s "prog") VNone d) ++ [LF]) ++ concat (map (command_line d) command_fields)))).
Proof. reflexivity. Qed.
Lemma section_ended r k (f : list (value * value) -> str) ds : (forall d, In d ds -> block_of f d) -> add_section k f (map VDict ds) r = r ++ ended (section_lines k ds).
Proof.
  intros H. unfold add_section. rewrite (indent_blocks f ds H). destruct ds as [| d0 ds]; cbn [map section_lines]; [unfold ended; cbn; now rewrite app_nil_r |].
  unfold ended at 2. cbn [map concat]. now rewrite <- !app_assoc.
Qed.
Lemma yaml_lines ps c : yaml_writable (commandline_to_dictionary ps c) = true ->
  Forall good_pair (entries (top_entries ps c)) /\ good_dicts (option_dicts c) /\ good_dicts (positional_dicts c) /\
  to_yaml (dict_of (commandline_to_dictionary ps c)) = rstrip_p is_space (ended (doc_lines (entries (top_entries ps c)) (option_dicts c) (positional_dicts c))).
Proof.
  intros W. rewrite dictionary_split in *. cbn [dict_of]. set (d := entries (top_entries ps c ++ lists c)) in *.
  assert (forall (l : list (value * value)) kv, yaml_writable (VDict l) = true -> In kv l -> yaml_writable (snd kv) = true) as Wd.
  { unfold yaml_writable. cbn [writable]. intros l kv H I. rewrite forallb_forall in H. specialize (H kv I). now apply andb_true_iff in H as [_ H]. }
  assert (forall o, In o (c_options c) -> yaml_writable (option_to_dictionary o) = true) as Wo.
  { intros o Ho. assert (yaml_writable (VList (map option_to_dictionary (c_options c))) = true) as K.
    { apply (Wd d (VStr (s "options"), VList (map option_to_dictionary (c_options c))) W). unfold d. rewrite entries_app. apply in_or_app. right. unfold lists. destruct (c_options c); [contradiction | now left]. }
    unfold yaml_writable in *. cbn [writable] in K. rewrite forallb_forall in K. apply K. apply in_map_iff. now exists o. }
  assert (forall p, In p (c_positionals c) -> yaml_writable (positional_to_dictionary p) = true) as Wp.
  { intros o Ho. assert (yaml_writable (VList (map positional_to_dictionary (c_positionals c))) = true) as K.
    { apply (Wd d (VStr (s "positionals"), VList (map positional_to_dictionary (c_positionals c))) W). unfold d. rewrite entries_app. apply in_or_app. right. unfold lists.
      destruct (c_positionals c); [contradiction |]. destruct (c_options c); cbn; tauto. }
    unfold yaml_writable in *. cbn [writable] in K. rewrite forallb_forall in K. apply K. apply in_map_iff. now exists o. }
  assert (Forall good_pair (entries (top_entries ps c))) as G.
  { apply entries_good; [reflexivity |]. unfold yaml_writable in *. cbn [writable] in *. unfold d in W. rewrite entries_app, forallb_app in W. now apply andb_true_iff in W as [W _]. }
  assert (forall os, (forall o, In o os -> block_of option_to_yaml o) -> good_dicts os) as Bo.
  { intros os H. apply Forall_forall. intros o Ho. destruct (H o Ho) as (kv & d' & -> & H1 & H2 & _). split; [discriminate | now constructor]. }
  assert (forall os, (forall o, In o os -> block_of positional_to_yaml o) -> good_dicts os) as Bp.
  { intros os H. apply Forall_forall. intros o Ho. destruct (H o Ho) as (kv & d' & -> & H1 & H2 & _). split; [discriminate | now constructor]. }
  assert (forall o, In o (option_dicts c) -> block_of option_to_yaml o) as Ho.
  { intros o Ho. apply in_map_iff in Ho as (x & <- & Hx). apply option_block. now apply Wo. }
  assert (forall o, In o (positional_dicts c) -> block_of positional_to_yaml o) as Hp.
  { intros o Hi. apply in_map_iff in Hi as (x & <- & Hx). apply positional_block. now apply Wp. }
  split; [exact G |]. split; [now apply Bo |]. split; [now apply Bp |].
  rewrite to_yaml_is. f_equal.
  assert (getd (s "prog") VNone d = VStr (get_command_path ps c)) as -> by (apply (getd_at []); apply not_in_names; reflexivity).
  assert (list_of (getd (s "options") VNone d) = map VDict (option_dicts c)) as ->.
  { unfold d, lists. rewrite getd_at by (apply not_in_names; reflexivity). rewrite list_of_entry. unfold option_dicts. rewrite map_map. reflexivity. }
  assert (list_of (getd (s "positionals") VNone d) = map VDict (positional_dicts c)) as ->.
  { unfold d, lists. change (top_entries ps c ++ [?a; ?b]) with ((top_entries ps c ++ [a]) ++ [b]). rewrite getd_at by (apply not_in_names; reflexivity). rewrite list_of_entry. unfold positional_dicts. rewrite map_map. reflexivity. }
  rewrite command_lines.
  assert (field_pairs d command_fields = entries (tl (top_entries ps c))) as ->.
  { apply (pairs_entries command_fields (tl (top_entries ps c)) ltac:(fits) [(s "prog", Some (VStr (get_command_path ps c)))] (lists c)). apply distinct_ok. reflexivity. }
  unfold doc_lines. rewrite !ended_app.
  assert (ended (map pair_line (entries (top_entries ps c))) = (s "prog: " ++ dumps (VStr (get_command_path ps c)) ++ [LF]) ++ ended (map pair_line (entries (tl (top_entries ps c))))) as ->.
  { unfold top_entries at 1. cbn [entries map]. unfold ended at 1. cbn [map concat]. unfold pair_line at 1. cbn [fst snd key_text]. rewrite <- !app_assoc. reflexivity. }
  rewrite (section_ended _ (s "options") option_to_yaml (option_dicts c) Ho), (section_ended _ (s "positionals") positional_to_yaml (positional_dicts c) Hp). now rewrite <- !app_assoc.
Qed.

(** ** The whole text *)
Definition clean_line (x : str) : Prop := line_ok x /\ one_line x.
Lemma one_line_app a b : one_line a -> one_line b -> one_line (a ++ b).
Proof. intros Ha Hb c Hc. apply in_app_iff in Hc as [Hc | Hc]; [now apply Ha | now apply Hb]. Qed.
Lemma by_chars a : forallb (fun c => allowed_char c && negb (ends_line c)) a = true -> one_line a.
Proof. intros H c Hc. rewrite forallb_forall in H. specialize (H c Hc). apply andb_true_iff in H as [H1 H2]. now apply negb_true_iff in H2. Qed.
Lemma clean_prefix a kv : one_line a -> good_pair kv -> clean_line (a ++ pair_line kv).
Proof. intros Ha H. split; [right; apply solid_app; now apply pair_solid |]. apply one_line_app; [exact Ha |]. now apply printable_one_line, pair_printable. Qed.
Lemma clean_section k ds : key_ok k = true -> good_dicts ds -> Forall clean_line (section_lines k ds).
Proof.
  intros Hk H. destruct ds as [| d0 ds0]; [constructor |]. unfold section_lines. set (ds := d0 :: ds0) in *. clearbody ds. constructor.
  - split; [right; apply solid_app; exists [], COLON; now split |]. apply one_line_app; [| now apply by_chars]. apply printable_one_line. intros e He.
    destruct k as [| c k]; [contradiction |]. apply andb_true_iff in Hk as [_ Hk]. rewrite forallb_forall in Hk. specialize (Hk _ He). apply andb_true_iff in Hk as [Hk _].
    apply andb_true_iff in Hk as [A B]. apply N.leb_le in A, B. unfold printable_char. lia.
  - unfold list_lines. induction H as [| d ds [_ Hd] H IH]; [constructor |]. cbn [map concat]. apply Forall_app. split; [apply Forall_app; split |exact IH].
    + destruct d as [| kv d]; [constructor |]. inversion Hd; subst. cbn [dict_lines]. constructor; [apply clean_prefix; [now apply by_chars | assumption] |].
      apply Forall_forall. intros x Hx. apply in_map_iff in Hx as (kv' & <- & Hkv). rewrite Forall_forall in H3. apply clean_prefix; [now apply by_chars | now apply H3].
    + constructor; [split; [now left | intros ? []] | constructor].
Qed.
Lemma clean_doc d os ps : Forall good_pair d -> good_dicts os -> good_dicts ps -> Forall clean_line (doc_lines d os ps).
Proof.
  intros Hd Ho Hp. unfold doc_lines. apply Forall_app. split; [| apply Forall_app; split; now apply clean_section].
  apply Forall_forall. intros x Hx. apply in_map_iff in Hx as (kv & <- & Hk). rewrite Forall_forall in Hd. apply (clean_prefix []); [intros ? [] | now apply Hd].
Qed.
Lemma doc_text ps c : yaml_writable (commandline_to_dictionary ps c) = true ->
  exists ls, to_yaml (dict_of (commandline_to_dictionary ps c)) = join [LF] ls /\ ls <> [] /\ Forall one_line ls /\
    forall docs, exists e, fold_right read_line (Some (Below [] [] [] docs)) ls = Some (Below [] [] e docs) /\ VDict e = commandline_to_dictionary ps c.
Proof.
  intros W. destruct (yaml_lines ps c W) as (G & Ho & Hp & E). rewrite E. pose proof (clean_doc _ _ _ G Ho Hp) as C.
  destruct (strip_lines (doc_lines (entries (top_entries ps c)) (option_dicts c) (positional_dicts c))) as (ls & n & E1 & E2 & _).
  { eapply Forall_impl; [| exact C]. now intros a [H _]. }
  exists ls. split; [exact E2 |]. split.
  { intros ->. cbn [app] in E1. unfold doc_lines, top_entries in E1. cbn [entries map app] in E1. destruct n; [discriminate |]. cbn [repeat] in E1. injection E1 as E1 _. unfold pair_line in E1. discriminate. }
  split.
  { rewrite E1 in C. apply Forall_app in C as [C _]. eapply Forall_impl; [| exact C]. now intros a [_ H]. }
  intros docs. destruct (fold_doc (entries (top_entries ps c)) (option_dicts c) (positional_dicts c) docs G Ho Hp) as (e & F & D). rewrite E1, fold_right_app, fold_blank in F.
  exists e. split; [exact F |]. rewrite D. apply doc_is.
Qed.
Lemma docs_text (l : list (list cmd * cmd)) : (forall pc, In pc l -> yaml_writable (commandline_to_dictionary (fst pc) (snd pc)) = true) ->
  exists lss, map (fun pc => to_yaml (dict_of (commandline_to_dictionary (fst pc) (snd pc)))) l = map (join [LF]) lss /\ Forall (fun ls => ls <> []) lss /\ Forall (Forall one_line) lss /\
    match lss with
    | [] => l = []
    | first :: more => exists e docs, fold_right read_line (Some (Below [] [] [] [])) (first ++ flat_map (fun l => s "---" :: l) more) = Some (Below [] [] e docs) /\
        VDict e :: docs = map (fun pc => commandline_to_dictionary (fst pc) (snd pc)) l
    end.
Proof.
  induction l as [| [ps c] l IH]; intros H; [exists []; repeat split; constructor |].
  destruct IH as (lss & E & N & L & F); [intros pc Hpc; apply H; now right |]. destruct (doc_text ps c (H (ps, c) (or_introl eq_refl))) as (ls & E1 & N1 & L1 & F1).
  exists (ls :: lss). split; [cbn [map fst snd]; now rewrite E, E1 |]. split; [now constructor |]. split; [now constructor |].
  destruct lss as [| first more].
  - subst l. cbn [flat_map]. rewrite app_nil_r. destruct (F1 []) as (e & F1' & D). exists e, []. split; [exact F1' |]. cbn. now rewrite D.
  - destruct F as (e & docs & F & D). cbn [flat_map]. change ((s "---" :: first) ++ ?x) with (s "---" :: first ++ x). rewrite fold_right_app. cbn [fold_right]. rewrite F, separator_read.
    destruct (F1 (VDict e :: docs)) as (e' & F1' & D'). exists e', (VDict e :: docs). split; [exact F1' |]. cbn [map fst snd]. now rewrite D', D.
Qed.
Theorem yaml_round_trip c : (forall d, In d (commandline_to_dictionaries c) -> yaml_writable d = true) ->
  read_yaml (commandline_to_yaml c) = Some (commandline_to_dictionaries c).
Proof.
  intros H. unfold commandline_to_yaml, commandline_to_dictionaries in *. rewrite map_map. set (l := visit_commandlines [] c) in *.
  assert (l <> []) as Hn by (unfold l; destruct c; discriminate).
  destruct (docs_text l) as (lss & E & N & L & F); [intros pc Hpc; apply H; apply in_map_iff; now exists pc |].
  rewrite E, join_documents by exact N. destruct lss as [| first more]; [contradiction |]. destruct F as (e & docs & F & D).
  unfold read_yaml. destruct (lines_join (first ++ flat_map (fun l => s "---" :: l) more)) as [K1 K2].
  - inversion N as [| ? ? N1 _]; subst. intros K. now apply app_eq_nil in K as [K _].
  - inversion L as [| ? ? L1 L2]; subst. apply Forall_app. split; [exact L1 |]. apply Forall_forall. intros w Hw. apply in_flat_map in Hw as (ls & Hl & [<- | Hw]); [now apply by_chars |].
    rewrite Forall_forall in L2. specialize (L2 ls Hl). rewrite Forall_forall in L2. now apply L2.
  - rewrite K2, K1, F. now rewrite D.
Qed.
