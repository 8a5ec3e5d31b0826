(** * Proofs: documents in YAML are read back. *)
From Coq Require Import Lia.
From Verif Require Import Base PyStr Value Cli StrUtils StrUtilsProofs DictSource DictSourceProofs ChoicesEmit SpecYamlScalar YamlText SpecYamlText YamlTextProofs YamlTextMain.
Open Scope list_scope.

(** ** Pairs *)
Definition pair_line (kv : value * value) : str := key_text (fst kv) ++ s ": " ++ dumps (snd kv).
(** keys of the definitions *)
Definition key_ok (k : str) : bool :=
  match k with [] => false | c :: _ => negb (memc c [SP; DASH; HASH]) && forallb (fun e => ((32 <=? e) && (e <=? 126))%N && negb (N.eqb e COLON)) k end.
Definition good_pair (kv : value * value) : Prop := exists k, fst kv = VStr k /\ key_ok k = true /\ yaml_writable (snd kv) = true.
Lemma key_colon k : key_ok k = true -> ~ In COLON k.
Proof.
  destruct k as [| c k]; [discriminate |]. intros H Hc. apply andb_true_iff in H as [_ H]. rewrite forallb_forall in H. specialize (H _ Hc). discriminate.
Qed.
Lemma pair_read k v : key_ok k = true -> yaml_writable v = true -> read_pair (pair_line (VStr k, v)) = Some (k, Some v).
Proof.
  intros Hk Hv. unfold read_pair, pair_line. cbn [fst snd key_text]. change (s ": " ++ dumps v) with (COLON :: SP :: dumps v).
  rewrite split_c_app by now apply key_colon. destruct (split_c COLON (SP :: dumps v)) as [| w ws] eqn:E; [now apply split_c_nonnil in E |].
  assert (skipn (S (List.length k)) (k ++ COLON :: SP :: dumps v) = SP :: dumps v) as ->.
  { clear. induction k as [| c k IH]; [reflexivity | exact IH]. }
  rewrite N.eqb_refl, (yaml_read v Hv). reflexivity.
Qed.
Lemma header_read k : key_ok k = true -> read_pair (k ++ s ":") = Some (k, None).
Proof.
  intros Hk. unfold read_pair. change (s ":") with [COLON]. rewrite split_c_app by now apply key_colon. cbn [split_c].
  assert (skipn (S (List.length k)) (k ++ [COLON]) = []) as -> by (clear; induction k as [| c k IH]; [reflexivity | exact IH]). reflexivity.
Qed.

(** ** Lines *)
Lemma line_field kv b : good_pair kv -> read_line (s "    " ++ pair_line kv) (Some b) = Some (Below (kv :: b_fields b) (b_mappings b) (b_entries b) (b_documents b)).
Proof.
  destruct kv as [k v]. intros (k' & E & Hk & Hv). cbn [fst snd] in *. subst k.
  change (read_line (s "    " ++ pair_line (VStr k', v)) (Some b)) with
    (match read_pair (pair_line (VStr k', v)) with Some (k, Some v) => Some (Below ((VStr k, v) :: b_fields b) (b_mappings b) (b_entries b) (b_documents b)) | _ => None end).
  now rewrite pair_read.
Qed.
Lemma line_item kv b : good_pair kv -> read_line (s "  - " ++ pair_line kv) (Some b) = Some (Below [] (VDict (kv :: b_fields b) :: b_mappings b) (b_entries b) (b_documents b)).
Proof.
  destruct kv as [k v]. intros (k' & E & Hk & Hv). cbn [fst snd] in *. subst k.
  change (read_line (s "  - " ++ pair_line (VStr k', v)) (Some b)) with
    (match read_pair (pair_line (VStr k', v)) with Some (k, Some v) => Some (Below [] (VDict ((VStr k, v) :: b_fields b) :: b_mappings b) (b_entries b) (b_documents b)) | _ => None end).
  now rewrite pair_read.
Qed.
Lemma top_line k r b : key_ok k = true ->
  read_line (k ++ r) (Some b) =
    match read_pair (k ++ r), b_fields b, b_mappings b with
    | Some (k, Some v), [], [] => Some (Below [] [] ((VStr k, v) :: b_entries b) (b_documents b))
    | Some (k, None), [], l => Some (Below [] [] ((VStr k, match l with [] => VNone | _ => VList l end) :: b_entries b) (b_documents b))
    | _, _, _ => None
    end.
Proof.
  intros H. destruct k as [| c k]; [discriminate |]. apply andb_true_iff in H as [H _]. apply negb_true_iff in H. unfold memc in H. cbn [existsb] in H.
  rewrite !orb_false_iff in H. destruct H as (H1 & H2 & H3 & _). unfold read_line. cbn [app]. rewrite H3.
  assert (str_eqb (c :: k ++ r) (s "---") = false) as -> by (apply str_eqb_neq; intros K; injection K as -> _; discriminate H2).
  assert (forall x, starts_with (SP :: x) (c :: k ++ r) = false) as K 
    by (intros x; apply N.eqb_neq in H1; apply not_true_is_false; intros K; apply starts_with_app in K as (y & K); injection K as K _; congruence).
  change (s "    ") with (SP :: s "   "). change (s "  - ") with (SP :: s " - "). now rewrite !K.
Qed.
Lemma line_entry kv docs d : good_pair kv -> read_line (pair_line kv) (Some (Below [] [] d docs)) = Some (Below [] [] (kv :: d) docs).
Proof.
  destruct kv as [k v]. intros (k' & E & Hk & Hv). cbn [fst snd] in *. subst k. unfold pair_line at 1. cbn [fst snd key_text]. rewrite top_line by exact Hk.
  change (k' ++ s ": " ++ dumps v) with (pair_line (VStr k', v)). now rewrite pair_read.
Qed.
Lemma line_header k l docs d : key_ok k = true -> l <> [] -> read_line (k ++ s ":") (Some (Below [] l d docs)) = Some (Below [] [] ((VStr k, VList l) :: d) docs).
Proof. intros Hk Hl. rewrite top_line by exact Hk. rewrite header_read by exact Hk. cbn [b_fields b_mappings]. destruct l; [contradiction | reflexivity]. Qed.

(** ** Blocks of lines *)
Definition dict_lines (d : list (value * value)) : list str :=
  match d with [] => [] | kv :: d' => (s "  - " ++ pair_line kv) :: map (fun kv => s "    " ++ pair_line kv) d' end.
Definition list_lines (ds : list (list (value * value))) : list str := concat (map (fun d => dict_lines d ++ [[]]) ds).
Definition section_lines (k : str) (ds : list (list (value * value))) : list str := match ds with [] => [] | _ => (k ++ s ":") :: list_lines ds end.
Lemma fold_fields d b : Forall good_pair d -> fold_right read_line (Some b) (map (fun kv => s "    " ++ pair_line kv) d) = Some (Below (d ++ b_fields b) (b_mappings b) (b_entries b) (b_documents b)).
Proof.
  induction d as [| kv d IH]; intros H; [destruct b; reflexivity |]. inversion H; subst. cbn [map fold_right]. rewrite IH by assumption. now rewrite line_field.
Qed.
Lemma fold_dict d b : d <> [] -> Forall good_pair d -> b_fields b = [] -> fold_right read_line (Some b) (dict_lines d) = Some (Below [] (VDict d :: b_mappings b) (b_entries b) (b_documents b)).
Proof.
  destruct d as [| kv d]; intros Hn H Hb; [contradiction |]. inversion H; subst. cbn [dict_lines fold_right]. rewrite fold_fields, line_item by assumption. cbn [b_fields b_mappings b_entries b_documents].
  now rewrite Hb, app_nil_r.
Qed.
Lemma fold_list ds e docs : Forall (fun d => d <> [] /\ Forall good_pair d) ds -> fold_right read_line (Some (Below [] [] e docs)) (list_lines ds) = Some (Below [] (map VDict ds) e docs).
Proof.
  induction ds as [| d ds IH]; intros H; [reflexivity |]. inversion H as [| ? ? [H1 H2] H3]; subst. unfold list_lines in *. cbn [map concat]. rewrite fold_right_app, IH by assumption.
  rewrite fold_right_app. cbn [fold_right]. change (read_line [] (Some ?b)) with (Some b). now rewrite fold_dict.
Qed.
Lemma fold_section k ds e docs : key_ok k = true -> Forall (fun d => d <> [] /\ Forall good_pair d) ds ->
  fold_right read_line (Some (Below [] [] e docs)) (section_lines k ds) = Some (Below [] [] (match ds with [] => e | _ => (VStr k, VList (map VDict ds)) :: e end) docs).
Proof.
  intros Hk H. destruct ds as [| d ds]; [reflexivity |]. unfold section_lines. cbn [fold_right]. rewrite fold_list by assumption. now rewrite line_header by (try assumption; discriminate).
Qed.
Lemma fold_top d e docs : Forall good_pair d -> fold_right read_line (Some (Below [] [] e docs)) (map pair_line d) = Some (Below [] [] (d ++ e) docs).
Proof. induction d as [| kv d IH]; intros H; [reflexivity |]. inversion H; subst. cbn [map fold_right]. rewrite IH by assumption. now rewrite line_entry. Qed.

(** A document: its entries, and the lists of options and of positional arguments *)
Definition doc_lines (d : list (value * value)) (os ps : list (list (value * value))) : list str :=
  map pair_line d ++ section_lines (s "options") os ++ section_lines (s "positionals") ps.
Definition doc_value (d : list (value * value)) (os ps : list (list (value * value))) : value :=
  VDict (d ++ (match os with [] => [] | _ => [(VStr (s "options"), VList (map VDict os))] end) ++ (match ps with [] => [] | _ => [(VStr (s "positionals"), VList (map VDict ps))] end)).
Definition good_dicts (ds : list (list (value * value))) : Prop := Forall (fun d => d <> [] /\ Forall good_pair d) ds.
Lemma fold_doc d os ps docs : Forall good_pair d -> good_dicts os -> good_dicts ps ->
  exists e, fold_right read_line (Some (Below [] [] [] docs)) (doc_lines d os ps) = Some (Below [] [] e docs) /\ VDict e = doc_value d os ps.
Proof.
  intros Hd Ho Hp. unfold doc_lines. rewrite !fold_right_app, !fold_section, fold_top by (assumption || reflexivity). eexists. split; [reflexivity |].
  unfold doc_value. f_equal. f_equal. destruct os, ps; reflexivity.
Qed.

(** ** The end of a document *)
Lemma rstrip_space x c : is_space c = true -> rstrip_p is_space (x ++ [c]) = rstrip_p is_space x.
Proof. intros H. unfold rstrip_p. rewrite rev_app_distr. cbn [rev app lstrip_p]. now rewrite H. Qed.
Definition line_ok (x : str) : Prop := x = [] \/ solid x.
Lemma strip_lines ls : Forall line_ok ls ->
  exists ls' n, ls = ls' ++ repeat [] n /\ rstrip_p is_space (concat (map (fun l => l ++ [LF]) ls)) = join [LF] ls' /\ Forall line_ok ls'.
Proof.
  induction ls as [| l ls IH] using rev_ind; intros H; [exists [], O; split; [reflexivity | split; [reflexivity | constructor]] |].
  apply Forall_app in H as [H Hl]. inversion Hl as [| ? ? Hl' _]; subst. rewrite map_app, concat_app. cbn [map concat]. rewrite app_nil_r.
  destruct Hl' as [-> | (y & c & -> & Hc)].
  - cbn [app]. rewrite rstrip_space by reflexivity. destruct (IH H) as (ls' & n & E1 & E2 & E3). exists ls', (S n).
    split; [rewrite E1, <- app_assoc; f_equal; clear; induction n as [| n IH]; [reflexivity | cbn in *; now f_equal] |]. now split.
  - rewrite app_assoc, rstrip_space by reflexivity. exists (ls ++ [y ++ [c]]), O. split; [now rewrite app_nil_r |]. split; [| apply Forall_app; split; [exact H | exact Hl]].
    rewrite app_assoc, rstrip_last by exact Hc. clear. induction ls as [| l ls IH]; [reflexivity |]. cbn [map concat app]. rewrite <- !app_assoc in *. rewrite IH.
    destruct ls as [| l' ls]; [reflexivity |]. cbn [app]. rewrite join_cons. reflexivity.
Qed.
Lemma fold_blank b n : fold_right read_line (Some b) (repeat [] n) = Some b.
Proof. induction n as [| n IH]; [reflexivity |]. cbn [repeat fold_right]. now rewrite IH. Qed.

(** ** Several documents *)
Lemma join_documents (docs : list (list str)) : Forall (fun l => l <> []) docs ->
  join ([LF] ++ s "---" ++ [LF]) (map (join [LF]) docs) = join [LF] (match docs with [] => [] | d :: more => d ++ flat_map (fun l => s "---" :: l) more end).
Proof.
  destruct docs as [| d docs]; intros H; [reflexivity |]. inversion H as [| ? ? Hd Hs]; subst. clear H. revert d Hd. induction Hs as [| d' docs Hd' Hs IH]; intros d Hd; [cbn; now rewrite app_nil_r |].
  cbn [map]. rewrite join_cons. change (join [LF] d' :: map (join [LF]) docs) with (map (join [LF]) (d' :: docs)). rewrite (IH d' Hd'). cbn [flat_map].
  assert (forall (a b : list str), a <> [] -> b <> [] -> join [LF] (a ++ b) = join [LF] a ++ [LF] ++ join [LF] b) as J.
  { clear. intros a b Ha Hb. induction a as [| x a IH]; [contradiction |]. destruct a as [| y a]; [destruct b as [| z b]; [contradiction | reflexivity] |].
    cbn [app]. rewrite !join_cons. cbn [app] in IH. rewrite IH by discriminate. now rewrite <- !app_assoc. }
  change ((s "---" :: d') ++ ?x) with ([s "---"] ++ d' ++ x). set (r := d' ++ _).
  assert (r <> []) as Hr by (unfold r; intros E; now apply app_eq_nil in E as [E _]).
  rewrite (J d ([s "---"] ++ r) Hd ltac:(discriminate)), (J [s "---"] r ltac:(discriminate) Hr). cbn [join]. now rewrite <- !app_assoc.
Qed.
Lemma separator_read e docs : read_line (s "---") (Some (Below [] [] e docs)) = Some (Below [] [] [] (VDict e :: docs)).
Proof. reflexivity. Qed.

(** ** Lines of a text *)
Definition one_line (x : str) : Prop := forall c, In c x -> allowed_char c = true /\ ends_line c = false.
Lemma printable_one_line x : (forall c, In c x -> printable_char c) -> one_line x.
Proof.
  intros H c Hc. apply H in Hc. unfold printable_char in Hc. split.
  - unfold allowed_char. apply orb_true_iff. left. apply orb_true_iff. left. apply orb_true_iff. left. apply orb_true_iff. right. apply andb_true_iff. split; apply N.leb_le; lia.
  - unfold ends_line, memc. cbn [existsb]. rewrite !orb_false_iff. repeat split; apply N.eqb_neq; lia.
Qed.
Lemma lines_join ls : ls <> [] -> Forall one_line ls -> lines_of (join [LF] ls) = ls /\ forallb allowed_char (join [LF] ls) = true.
Proof.
  induction ls as [| l ls IH]; intros Hn H; [contradiction |]. inversion H as [| ? ? Hl Hs]; subst. clear H Hn.
  destruct ls as [| l' ls].
  - cbn [join]. clear IH Hs. induction l as [| c l IH]; [now split |]. destruct (Hl c (or_introl eq_refl)) as [A B]. destruct IH as [I1 I2]; [intros d Hd; apply Hl; now right |].
    cbn [lines_of forallb]. rewrite A, B, I1, I2. now split.
  - destruct (IH ltac:(discriminate) Hs) as [I1 I2]. rewrite join_cons. set (r := join [LF] (l' :: ls)) in *. clearbody r. clear IH Hs.
    induction l as [| c l IH]; [cbn [app lines_of forallb]; change (ends_line LF) with true; change (allowed_char LF) with true; cbn [andb]; now rewrite I1, I2 |].
    destruct (Hl c (or_introl eq_refl)) as [A B]. destruct IH as [J1 J2]; [intros d Hd; apply Hl; now right |].
    cbn [app lines_of forallb] in *. rewrite A, B, J1, J2. now split.
Qed.

(** ** Dictionaries with optional entries *)
Definition fits_field (f : field) (ko : str * option value) : Prop :=
  fst (fst f) = fst ko /\ match snd ko with Some v => included (snd f) v = true | None => included (snd f) (snd (fst f)) = false end.
Definition field_pairs (d : list (value * value)) (fs : list field) : list (value * value) :=
  flat_map (fun f => let '(name, default, i) := f in let v := getd name default d in if included i v then [(VStr name, v)] else []) fs.
Lemma vget_skip k l r : ~ In k (map fst l) -> vget k (entries l ++ r) = vget k r.
Proof.
  induction l as [| [k' o] l IH]; intros H; [reflexivity |]. cbn [map fst] in H. specialize (IH ltac:(intros I; apply H; now right)).
  destruct o as [v |]; cbn [entries app]; [| exact IH]. unfold vget in *. cbn [Dict.dget value_eqb].
  assert (str_eqb k k' = false) as -> by (apply str_eqb_neq; intros ->; apply H; now left). exact IH.
Qed.
Lemma entries_app l r : entries (l ++ r) = entries l ++ entries r.
Proof. induction l as [| [k [v |]] l IH]; [reflexivity | cbn; now f_equal | exact IH]. Qed.
Lemma pairs_entries fs l : Forall2 fits_field fs l -> forall pre post, NoDup (map fst (pre ++ l ++ post)) ->
  field_pairs (entries (pre ++ l ++ post)) fs = entries l.
Proof.
  induction 1 as [| [[name default] i] [k o] fs l [E H] _ IH]; intros pre post N; [reflexivity |]. cbn [fst snd] in E, H. subst k.
  specialize (IH (pre ++ [(name, o)]) post). rewrite <- app_assoc in IH. specialize (IH N). cbn [app] in IH.
  unfold field_pairs in *. cbn [flat_map]. change (entries (pre ++ ((name, o) :: l) ++ post)) with (entries (pre ++ (name, o) :: l ++ post)). rewrite IH.
  assert (getd name default (entries (pre ++ (name, o) :: l ++ post)) = match o with Some v => v | None => default end) as ->.
  { rewrite map_app in N. cbn [map app fst] in N. pose proof (NoDup_remove_2 _ _ _ N) as Nn. rewrite in_app_iff in Nn. unfold getd. rewrite entries_app, vget_skip by (intros I; apply Nn; now left).
    rewrite vget_entries, str_eqb_refl. destruct o as [v |]; [reflexivity |]. rewrite <- (app_nil_r (entries (l ++ post))), vget_skip by (intros I; apply Nn; now right). reflexivity. }
  destruct o as [v |]; rewrite H; reflexivity.
Qed.
Lemma field_lines_pairs fs d : field_lines fs d = map (fun kv => s "  " ++ pair_line kv) (field_pairs d fs).
Proof.
  unfold field_lines, field_pairs. induction fs as [| [[name default] i] fs IH]; [reflexivity |]. cbn [flat_map]. rewrite map_app, IH. f_equal.
  destruct (included i (getd name default d)); reflexivity.
Qed.

(** ** Indented blocks *)
Lemma printable_not_lf x : (forall c, In c x -> printable_char c) -> ~ In LF x.
Proof. intros H I. apply H in I. unfold printable_char in I. lia. Qed.
Lemma pair_printable kv : good_pair kv -> forall c, In c (pair_line kv) -> printable_char c.
Proof.
  destruct kv as [k v]. intros (k' & E & Hk & Hv) c. cbn [fst snd] in *. subst k. unfold pair_line. cbn [fst snd key_text]. rewrite !in_app_iff. intros [H | [H | H]].
  - destruct k' as [| a k']; [contradiction |]. apply andb_true_iff in Hk as [_ Hk]. rewrite forallb_forall in Hk. specialize (Hk c H). apply andb_true_iff in Hk as [Hk _].
    apply andb_true_iff in Hk as [A B]. apply N.leb_le in A, B. unfold printable_char. lia.
  - revert H. now apply s_printable.
  - now apply (dumps_printable v Hv).
Qed.
Lemma pair_solid kv : good_pair kv -> solid (pair_line kv).
Proof. intros (k & _ & _ & Hv). unfold pair_line. apply solid_app, solid_app. now apply dumps_solid. Qed.
Lemma solid_not_blank x : solid x -> forallb is_space x = false.
Proof. intros (y & c & -> & H). rewrite forallb_app. cbn. rewrite H. now rewrite andb_false_r. Qed.
Lemma indent_block first d : good_pair first -> Forall good_pair d ->
  indent (join [LF] ((s "- " ++ pair_line first) :: map (fun kv => s "  " ++ pair_line kv) d)) 2 = join [LF] (dict_lines (first :: d)).
Proof.
  intros Hf Hd. rewrite indent_lines_eq, split_join_c; [| discriminate |].
  - cbn [dict_lines map]. f_equal. f_equal.
    rewrite map_map. apply map_ext_in. intros kv Hk. rewrite Forall_forall in Hd. unfold indent_line. rewrite solid_not_blank by (apply solid_app; now apply pair_solid, Hd). reflexivity.
  - intros w [<- | Hw].
    + apply printable_not_lf. intros c Hc. apply in_app_iff in Hc as [Hc | Hc]; [revert Hc; now apply s_printable | now apply (pair_printable first Hf)].
    + apply in_map_iff in Hw as (kv & <- & Hk). rewrite Forall_forall in Hd. apply printable_not_lf. intros c Hc. apply in_app_iff in Hc as [Hc | Hc]; [revert Hc; now apply s_printable | now apply (pair_printable kv (Hd kv Hk))].
Qed.
Definition ended (ls : list str) : str := concat (map (fun l => l ++ [LF]) ls).
Lemma ended_join ls : ls <> [] -> join [LF] ls ++ [LF] = ended ls.
Proof.
  unfold ended. induction ls as [| l ls IH]; intros H; [contradiction |]. destruct ls as [| l' ls]; [cbn; now rewrite app_nil_r |].
  rewrite join_cons. cbn [map concat] in *. rewrite <- IH by discriminate. now rewrite <- !app_assoc.
Qed.
Lemma ended_app a b : ended (a ++ b) = ended a ++ ended b.
Proof. unfold ended. now rewrite map_app, concat_app. Qed.
Lemma indent_blocks (f : list (value * value) -> str) ds :
  (forall d, In d ds -> exists kv d', d = kv :: d' /\ good_pair kv /\ Forall good_pair d' /\ f d = join [LF] ((s "- " ++ pair_line kv) :: map (fun kv => s "  " ++ pair_line kv) d')) ->
  concat (map (fun o => indent (f (dict_of o)) 2 ++ [LF; LF]) (map VDict ds)) = ended (list_lines ds).
Proof.
  intros H. induction ds as [| d ds IH]; [reflexivity |]. cbn [map concat]. rewrite IH by (intros d' Hd'; apply H; now right). unfold list_lines. cbn [map concat]. rewrite !ended_app. f_equal.
  destruct (H d (or_introl eq_refl)) as (kv & d' & E & H1 & H2 & Ef). cbn [dict_of]. rewrite Ef, indent_block by assumption. rewrite <- E.
  change [LF; LF] with ([LF] ++ [LF]). rewrite app_assoc, ended_join by (rewrite E; discriminate). reflexivity.
Qed.
