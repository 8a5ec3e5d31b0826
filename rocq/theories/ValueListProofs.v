(** * Proofs about lists of values. *)
From Coq Require Import Lia.
From Verif Require Import Base PyStr Shell SpecShell ShellProofs ZshUtils Choices SpecChoices StrUtilsProofs ChoicesZsh ChoicesFish ChoicesMain BashWords SpecBashWords SpecValueList.
From Verif Require ValueList.
From Verif Require Import SpecZsh KeyValue SpecKeyValue KeyValueProofs CaptureProofs.
Open Scope list_scope.

(** ** The elements *)
Lemma split_typed sep els b : Forall (list_element sep) els -> list_element sep b -> split_c sep (typed_list sep els b) = els ++ [b].
Proof.
  intros H Hb. unfold typed_list, before. induction H as [| e els He H IH]; cbn [map concat app]; [now apply split_c_word |].
  rewrite <- !app_assoc. change ([sep] ++ ?x) with (sep :: x). rewrite split_c_app by exact He. now rewrite IH.
Qed.
Lemma before_last sep els c : els <> [] -> last (before sep els) c = sep.
Proof.
  intros H. destruct (exists_last H) as (l & e & ->). unfold before. rewrite map_app, concat_app. cbn [map concat]. rewrite app_nil_r, app_assoc. apply last_last.
Qed.
Lemma last_app_ne (a b : str) d : b <> [] -> last (a ++ b) d = last b d.
Proof. intros H. destruct (exists_last H) as (l & c & ->). rewrite app_assoc. now rewrite !last_last. Qed.
Lemma last_in (b : str) d : b <> [] -> In (last b d) b.
Proof. intros H. destruct (exists_last H) as (l & c & ->). rewrite last_last. apply in_or_app. right. now left. Qed.
Lemma ends_sep sep els b : list_element sep b -> typed_list sep els b <> [] ->
  (N.eqb (last (typed_list sep els b) 0%N) sep = true <-> b = []).
Proof.
  intros Hb Hn. rewrite N.eqb_eq. unfold typed_list in *. destruct b as [| c b].
  - rewrite app_nil_r in *. split; [trivial |]. intros _. apply before_last. intros ->. now apply Hn.
  - rewrite last_app_ne by discriminate. split; [| discriminate]. intros E. contradiction Hb. rewrite <- E. apply last_in. discriminate.
Qed.
Lemma before_join sep els : els <> [] -> before sep els = join [sep] els ++ [sep].
Proof.
  unfold before. induction els as [| e els IH]; intros H; [contradiction |]. destruct els as [| e' els]; [cbn; now rewrite app_nil_r |].
  cbn [map concat] in IH |- *. rewrite IH by discriminate. change (join [sep] (e :: e' :: els)) with (e ++ [sep] ++ join [sep] (e' :: els)). now rewrite <- !app_assoc.
Qed.
Lemma mems_app x a b : mems x (a ++ b) = mems x a || mems x b.
Proof. unfold mems. apply existsb_app. Qed.
Lemma filter_ext_in' {A} (f g : A -> bool) l : (forall a, In a l -> f a = g a) -> filter f l = filter g l.
Proof. apply filter_ext_in. Qed.

(** ** Bash *)
Lemma first_line_id x : ~ In LF x -> ValueList.first_line x = x.
Proof. intros H. unfold ValueList.first_line. now rewrite split_c_word. Qed.
Lemma fields sep els b : memc sep [SP; TAB; LF] = false -> Forall (list_element sep) els -> list_element sep b -> ~ In LF (typed_list sep els b) ->
  ValueList.read_fields sep (typed_list sep els b) = els ++ match b with [] => [] | _ => [b] end.
Proof.
  intros Hs He Hb Hl. unfold ValueList.read_fields. rewrite first_line_id, Hs, split_typed by assumption. cbv zeta.
  rewrite last_last. destruct b; [now rewrite removelast_last, app_nil_r | reflexivity].
Qed.
Definition rest_of (typed : dequoted) : str := match dq_break typed with Some m => skipn m (dq_result typed) | None => dq_result typed end.
Lemma ends_with_app a b : ends_with b (a ++ b) = true.
Proof. unfold ends_with. rewrite rev_app_distr. apply starts_with_app. now eexists. Qed.
Lemma without_end a b : ValueList.without_suffix b (a ++ b) = a.
Proof.
  unfold ValueList.without_suffix. rewrite ends_with_app, app_length. replace (length a + length b - length b)%nat with (length a) by lia.
  now rewrite firstn_app, Nat.sub_diag, firstn_all, app_nil_r.
Qed.
Lemma rest_split typed a b : dq_result typed = a ++ b -> break_before typed (length a) ->
  exists a', rest_of typed = a' ++ b /\ forall r, inserted typed (a' ++ r) = a ++ r.
Proof.
  unfold break_before, rest_of, inserted. destruct (dq_break typed) as [m |]; intros E L; rewrite E.
  - exists (skipn m a). split; [rewrite skipn_app; now replace (m - length a)%nat with O by lia |].
    intros r. rewrite firstn_app. replace (m - length a)%nat with O by lia. cbn [firstn]. now rewrite app_nil_r, app_assoc, firstn_skipn.
  - exists a. now split.
Qed.

Theorem bash_values may typed dup sep values els b :
  dq_result typed = typed_list sep els b -> memc sep [SP; TAB; LF] = false -> Forall (list_element sep) els -> list_element sep b -> ~ In LF (typed_list sep els b) ->
  Forall (list_value sep) values -> break_before typed (length (before sep els)) -> (dup = true -> may = true) ->
  map (inserted typed) (ValueList.bash_value_list may typed ((if dup then [s "-d"] else []) ++ [[sep]] ++ values)) =
  if mems b values then if existsb (fun v => dup || negb (mems v (els ++ [b]))) values then [typed_list sep els b ++ [sep]] else []
  else map (fun v => before sep els ++ v) (filter (fits dup els b) values).
Proof.
  intros R Hs He Hb Hl Hv Hbr Hd. unfold ValueList.bash_value_list.
  set (args := (if dup then [s "-d"] else []) ++ [[sep]] ++ values).
  assert ((match args with a :: args' => if may && str_eqb a (s "-d") then (true, args') else (false, args) | [] => (false, []) end) = (dup, [[sep]] ++ values)) as ->.
  { unfold args. destruct dup; [rewrite (Hd eq_refl); reflexivity |]. cbn [app].
    assert (str_eqb [sep] (s "-d") = false) as -> by (apply str_eqb_neq; discriminate). now rewrite andb_false_r. }
  cbn [app]. clear args.
  assert (mems [] values = false) as H0.
  { apply not_true_is_false. intros M. apply mems_iff in M. rewrite Forall_forall in Hv. now apply Hv in M as [_ M]. }
  rewrite R. destruct (typed_list sep els b) as [| c0 x0] eqn:Et.
  - (* nothing typed *)
    unfold typed_list in Et. apply app_eq_nil in Et as [Eb ->]. assert (els = []) as ->.
    { destruct els as [| e els]; [reflexivity |]. unfold before in Eb. cbn in Eb. destruct e; discriminate. }
    rewrite H0. change (before sep []) with (@nil N). cbn [app].
    rewrite map_ext with (g := fun v : str => v); [| intros v; unfold inserted; rewrite R; now destruct (dq_break typed) as [[| ?] |]].
    rewrite !map_id. symmetry.
    rewrite (filter_ext_in' _ (fun _ => true)); [induction values; [reflexivity | cbn; f_equal; apply IHvalues; [now inversion Hv | cbn in H0; now apply orb_false_iff in H0 as [_ H0]]] |].
    intros v _. unfold fits. cbn. now rewrite orb_true_r.
  - rewrite <- Et. rewrite <- Et in R. assert (typed_list sep els b <> []) as Hn by (rewrite Et; discriminate). rewrite <- Et in Hl. clear Et c0 x0.
    cbv zeta. rewrite fields by assumption. assert (match dq_break typed with Some n => skipn n (typed_list sep els b) | None => typed_list sep els b end = rest_of typed) as -> by (unfold rest_of; now rewrite R).
    destruct (rest_split typed (before sep els) b R Hbr) as (a' & Ea & Ia).
    destruct b as [| cb b].
    + rewrite (proj2 (ends_sep sep els [] Hb Hn) eq_refl). rewrite H0, app_nil_r. rewrite app_nil_r in Ea. rewrite Ea, map_map.
      rewrite (map_ext _ (fun v => before sep els ++ v)) by (intros v; apply Ia). f_equal.
      unfold fits. cbn [starts_with andb]. destruct dup; cbn [orb]; [| reflexivity]. clear. induction values as [| v l IH]; [reflexivity | cbn; now f_equal].
    + assert (N.eqb (last (typed_list sep els (cb :: b)) 0%N) sep = false) as -> by (apply not_true_is_false; intros E; apply ends_sep in E; [discriminate | assumption ..]).
      rewrite last_last. set (w := cb :: b) in *.
      set (remaining := if dup then values else filter (fun v => negb (mems v (els ++ [w]))) values).
      assert (existsb (fun v => dup || negb (mems v (els ++ [w]))) values = match remaining with [] => false | _ => true end) as Er.
      { unfold remaining. destruct dup; cbn [orb]; [now destruct values |]. clear. induction values as [| v l IH]; [reflexivity |]. cbn [existsb filter]. rewrite IH.
        now destruct (negb (mems v (els ++ [w]))). }
      rewrite Er. rewrite app_length. replace (0 <? length els + length [w])%nat with true by (symmetry; apply Nat.ltb_lt; cbn; lia).
      destruct (mems w values) eqn:Mw.
      * destruct remaining; [reflexivity |]. cbn [map]. f_equal. rewrite Ea, <- app_assoc, Ia. unfold typed_list. now rewrite <- app_assoc.
      * rewrite Ea, without_end.
        assert (filter (fits dup els w) values = filter (starts_with w) remaining) as ->.
        { unfold remaining, fits. destruct dup; cbn [orb].
          - apply filter_ext. intros v. apply andb_true_r.
          - clear - Mw. induction values as [| v l IH]; [reflexivity |]. cbn [filter]. cbn [mems existsb] in Mw. apply orb_false_iff in Mw as [M1 M2].
            rewrite mems_app. cbn [mems existsb]. 
            assert (str_eqb v w = false) as -> by (apply str_eqb_neq; apply str_eqb_neq in M1; congruence). rewrite !orb_false_r.
            fold (mems v els). destruct (mems v els); cbn [negb]; rewrite ?andb_false_r, ?andb_true_r; [now apply IH |].
            cbn [filter]. destruct (starts_with w v); [f_equal |]; now apply IH. }
        destruct remaining as [| r0 rs]; [reflexivity |]. rewrite map_map. apply map_ext. intros v. apply Ia.
Qed.

(** ** fish *)
Theorem fish_values dup sep els b printed : N.eqb sep STAR = false -> Forall (list_element sep) els -> list_element sep b -> Forall (fun vd => list_value sep (fst vd)) printed ->
  filter (fun vd => starts_with (typed_list sep els b) (fst vd)) (ValueList.fish_list dup sep (typed_list sep els b) printed) =
  map (fun vd => (before sep els ++ fst vd, snd vd)) (filter (fun vd => fits dup (els ++ match b with [] => [] | _ => [b] end) b (fst vd)) printed).
Proof.
  intros Hs He Hb Hv. unfold ValueList.fish_list. rewrite Hs. cbn [orb].
  assert (forall l : list (str * str), map (fun vd => ([] ++ fst vd, snd vd)) l = l) as Mid.
  { induction l as [| [k d] l IH]; [reflexivity |]. cbn in *. now f_equal. }
  assert (forall pre w (l : list (str * str)), filter (fun vd => starts_with (pre ++ w) (fst vd)) (map (fun vd => (pre ++ fst vd, snd vd)) l) =
    map (fun vd => (pre ++ fst vd, snd vd)) (filter (fun vd => starts_with w (fst vd)) l)) as F.
  { intros pre w l. assert (forall v, starts_with (pre ++ w) (pre ++ v) = starts_with w v) as S by (intros v; induction pre as [| c pre IH]; [reflexivity | cbn; now rewrite N.eqb_refl]).
    induction l as [| vd l IH]; [reflexivity |]. cbn [map filter fst]. rewrite S. destruct (starts_with w (fst vd)); cbn [map]; now rewrite IH. }
  set (having := els ++ match b with [] => [] | _ => [b] end).
  assert (forall (l : list (str * str)), Forall (fun vd => list_value sep (fst vd)) l ->
    (if dup then l else filter (fun vd => negb (mems (fst vd) (els ++ [b]))) l) = filter (fun vd => dup || negb (mems (fst vd) having)) l) as Rem.
  { intros l Hl. destruct dup; cbn [orb]; [clear; induction l; [reflexivity | cbn; now f_equal] |]. apply filter_ext_in. intros vd Hin.
    rewrite Forall_forall in Hl. destruct (Hl vd Hin) as [_ Hne]. unfold having. destruct b; [| reflexivity].
    rewrite !mems_app. cbn. destruct (fst vd); [contradiction | reflexivity]. }
  assert (forall pre (l : list (str * str)), map (fun vd => (pre ++ fst vd, snd vd)) (filter (fun vd => starts_with b (fst vd)) (filter (fun vd => dup || negb (mems (fst vd) having)) l)) =
    map (fun vd => (pre ++ fst vd, snd vd)) (filter (fun vd => fits dup having b (fst vd)) l)) as G.
  { intros pre l. f_equal. unfold fits. clear. induction l as [| vd l IH]; [reflexivity |]. cbn [filter].
    destruct (dup || negb (mems (fst vd) having)); cbn [filter]; rewrite ?andb_true_r, ?andb_false_r; [destruct (starts_with b (fst vd)); now rewrite IH | exact IH]. }
  destruct (typed_list sep els b) as [| c0 x0] eqn:Et.
  - unfold typed_list in Et. apply app_eq_nil in Et as [Eb ->]. assert (els = []) as E0.
    { destruct els as [| e els]; [reflexivity |]. unfold before in Eb. cbn in Eb. destruct e; discriminate. }
    rewrite Eb, Mid. apply filter_ext. intros vd. unfold having, fits. rewrite E0. cbn. now rewrite orb_true_r.
  - rewrite <- Et. assert (typed_list sep els b <> []) as Hn by (rewrite Et; discriminate). clear Et c0 x0.
    cbv zeta. rewrite split_typed by assumption. rewrite (Rem printed Hv).
    destruct (N.eqb (last (typed_list sep els b) 0%N) sep) eqn:El.
    + apply ends_sep in El as ->; [| assumption ..]. unfold typed_list. rewrite app_nil_r. rewrite <- (G (before sep els) printed). set (l := filter (fun vd : str * str => dup || _) printed). pose proof (F (before sep els) [] l) as E. rewrite app_nil_r in E. exact E.
    + destruct (memc sep (typed_list sep els b)) eqn:M.
      * assert (els <> []) as Hne. { intros ->. apply memc_In in M. unfold typed_list in M. cbn in M. contradiction. }
        rewrite removelast_last. rewrite (map_ext (fun vd : str * str => (join [sep] els ++ [sep] ++ fst vd, snd vd)) (fun vd => (before sep els ++ fst vd, snd vd))).
        2: { intros vd. rewrite (before_join sep els Hne). now rewrite <- app_assoc. }
        unfold typed_list. rewrite F. apply G.
      * assert (els = []) as ->.
        { destruct els as [| e els]; [reflexivity |]. apply memc_false in M. contradiction M. unfold typed_list, before. cbn [map concat]. rewrite !in_app_iff. left. left. right. now left. }
        change (before sep []) with (@nil N). rewrite <- (G []). rewrite Mid. reflexivity.
Qed.

(** The code that prints the values. *)
Definition printed_items (i : ValueList.items) : list (str * str) :=
  match i with ValueList.Plain l => map (fun v => (v, [])) l | ValueList.Described l => l end.
Definition printable (x : str) : Prop := ~ In BS x /\ ~ In BTICK x /\ ~ In LF x.
Lemma rstrip_lines p ts : ts <> [] -> (forall t, In t ts -> exists a x, t = a ++ quote x) ->
  rstrip_continuation (p ++ concat (map (fun t => t ++ [SP; BS; LF]) ts)) = p ++ join [SP; BS; LF] ts.
Proof.
  intros Hn Ht.
  assert (concat (map (fun t => t ++ [SP; BS; LF]) ts) = join [SP; BS; LF] ts ++ [SP; BS; LF]) as ->.
  { clear Ht. induction ts as [| t ts IH]; [contradiction |]. destruct ts as [| t' ts]; [cbn; now rewrite app_nil_r |].
    cbn [map concat] in IH |- *. rewrite IH by discriminate. rewrite (join_cons _ t t' ts). now rewrite <- !app_assoc. }
  destruct (exists_last Hn) as (l & t & El). destruct (Ht t ltac:(rewrite El; apply in_or_app; right; now left)) as (a & x & E).
  destruct (quote_end x) as (c & q & Eq & Hc).
  assert (exists y, join [SP; BS; LF] ts = y ++ [c]) as (y & Ey).
  { rewrite El, E, Eq. destruct l as [| u l]; [exists (a ++ q); cbn; now rewrite app_assoc |].
    rewrite join_snoc by discriminate. eexists. rewrite !app_assoc. reflexivity. }
  rewrite Ey, app_assoc. apply (rstrip_tail _ (p ++ y) c); [now rewrite app_assoc | now apply end_memc |].
  intros d [<- | [<- | [<- | []]]]; reflexivity.
Qed.
Lemma fish_printf_code format fv lines vss : lines <> [] -> fword format fv -> Forall (fun ts => ts <> []) lines -> Forall2 (Forall2 fword) lines vss ->
  SpecChoices.fish_args (Some FUnquoted) None ((s "printf " ++ format ++ [SP; BS; LF]) ++ join [SP; BS; LF] (map (fun ts => s "  " ++ join [SP] ts) lines)) =
  Some (s "printf" :: fv :: concat vss).
Proof.
  intros Hn Hf Hl Hw.
  assert ((s "printf " ++ format ++ [SP; BS; LF]) ++ join [SP; BS; LF] (map (fun ts => s "  " ++ join [SP] ts) lines) =
    s "printf" ++ ([SP] ++ format ++ concat (map (fun l => [SP; BS; LF] ++ l) (map (fun ts => s "  " ++ join [SP] ts) lines)))) as ->.
  { pose proof (join_concat [SP; BS; LF] (s "printf " ++ format) (map (fun ts => s "  " ++ join [SP] ts) lines)) as E.
    destruct lines as [| l0 lines]; [contradiction |]. cbn [map] in E |- *. rewrite join_cons in E. rewrite <- !app_assoc in E. rewrite <- !app_assoc. exact E. }
  rewrite (fword_quote (s "printf") : forall a b, fword (s "printf") (s "printf")); [cbn [wval app] | intros K; vm_compute in K; intuition discriminate ..].
  apply frest_read. set (r := concat _).
  assert (frest r (concat vss)) as R.
  { unfold r. clear - Hw Hl. induction Hw as [| ts vs lines vss Hts H IH]; [constructor |]. inversion Hl as [| ? ? Hn Hl']; subst. cbn [map concat].
    apply frest_app; [| now apply IH]. exact (frest_join (SP :: BS :: LF :: repeat SP 2) ts vs (fsep_line 2) Hts Hn). }
  change (SP :: format ++ r) with ([SP] ++ format ++ r). constructor; [apply fsep_sp | exact Hf | exact R].
Qed.
Lemma fish_values_printed i : ValueList.names i <> [] -> (forall v d, In (v, d) (printed_items i) -> printable v /\ ~ In TAB v /\ printable d) ->
  fish_function_code (ValueList.fish_values_code i) = Some (printed_items i).
Proof.
  intros Hn Ht. unfold fish_function_code. destruct i as [l | l]; cbn [ValueList.fish_values_code ValueList.names printed_items] in *.
  - assert (forall v, In v l -> printable v /\ ~ In TAB v) as Hv.
    { intros v Hv. destruct (Ht v []) as (H1 & H2 & _); [apply in_map_iff; now exists v |]. now split. }
    set (ts := map (fun v => s "  " ++ quote v) l).
    assert (s "printf '%s\n' \" ++ [LF] ++ concat (map (fun v => s "  " ++ quote v ++ [SP; BS; LF]) l) =
      (s "printf " ++ s "'%s\n'" ++ [SP; BS; LF]) ++ concat (map (fun t => t ++ [SP; BS; LF]) ts)) as ->.
    { unfold ts. rewrite map_map. rewrite (map_ext (fun v => s "  " ++ quote v ++ [SP; BS; LF]) (fun v => (s "  " ++ quote v) ++ [SP; BS; LF])) by (intros v; now rewrite <- app_assoc). reflexivity. }
    rewrite rstrip_lines; [| unfold ts; destruct l; [contradiction | discriminate] | intros t Hi; unfold ts in Hi; apply in_map_iff in Hi as (v & <- & _); now exists (s "  "), v].
    assert (ts = map (fun ws => s "  " ++ join [SP] ws) (map (fun v => [quote v]) l)) as -> by (unfold ts; rewrite map_map; reflexivity).
    rewrite (fish_printf_code (s "'%s\n'") (s "%s\n") (map (fun v => [quote v]) l) (map (fun v => [v]) l)).
    + rewrite str_eqb_refl. assert (concat (map (fun v : str => [v]) l) = l) as -> by (clear; induction l; [reflexivity | cbn; now f_equal]).
      change (fish_printf (s "%s\n") l) with (Some (concat (map (fun x : str => x ++ [LF]) (match l with [] => [[]] | _ => l end)))). cbn [option_map].
      destruct l as [| x0 xs]; [contradiction |]. rewrite lines_concat by (intros x Hx; now apply Hv). f_equal. apply map_ext_in. intros v Hi. apply candidate_text. now apply Hv.
    + destruct l; [contradiction | discriminate].
    + apply format_one.
    + apply Forall_forall. intros t Hi. apply in_map_iff in Hi as (v & <- & _). discriminate.
    + apply Forall2_map2. intros v Hi. destruct (Hv v Hi) as ((B1 & B2 & _) & _). constructor; [now apply fword_quote | constructor].
  - assert (l <> []) as Hl by (intros ->; now apply Hn).
    set (ts := map (fun kv : str * str => s "  " ++ quote (fst kv) ++ [SP] ++ quote (snd kv)) l).
    assert (s "printf '%s\t%s\n' \" ++ [LF] ++ concat (map (fun kv => s "  " ++ quote (fst kv) ++ [SP] ++ quote (snd kv) ++ [SP; BS; LF]) l) =
      (s "printf " ++ s "'%s\t%s\n'" ++ [SP; BS; LF]) ++ concat (map (fun t => t ++ [SP; BS; LF]) ts)) as ->.
    { unfold ts. rewrite map_map. rewrite (map_ext (fun kv : str * str => s "  " ++ quote (fst kv) ++ [SP] ++ quote (snd kv) ++ [SP; BS; LF]) (fun kv => (s "  " ++ quote (fst kv) ++ [SP] ++ quote (snd kv)) ++ [SP; BS; LF])) by (intros v; now rewrite <- !app_assoc). reflexivity. }
    rewrite rstrip_lines; [| unfold ts; destruct l; [contradiction | discriminate] |].
    2: { intros t Hi. unfold ts in Hi. apply in_map_iff in Hi as (kv & <- & _). exists (s "  " ++ quote (fst kv) ++ [SP]), (snd kv). now rewrite <- !app_assoc. }
    assert (ts = map (fun ws => s "  " ++ join [SP] ws) (map (fun kv => [quote (fst kv); quote (snd kv)]) l)) as -> by (unfold ts; rewrite map_map; reflexivity).
    rewrite (fish_printf_code (s "'%s\t%s\n'") (s "%s\t%s\n") (map (fun kv => [quote (fst kv); quote (snd kv)]) l) (map (fun kv => [fst kv; snd kv]) l)).
    + rewrite str_eqb_refl. set (args := concat (map (fun kv : str * str => [fst kv; snd kv]) l)).
      assert (fish_printf (s "%s\t%s\n") args = Some (concat (map (fun x : str => x ++ [LF]) (map (fun kv : str * str => fst kv ++ TAB :: snd kv) l)))) as ->.
      { change (fish_printf (s "%s\t%s\n") args) with (Some (concat (map (fun '(a, b) => a ++ [TAB] ++ b ++ [LF]) (match args with [] => [([], [])] | _ => pairs args end)))).
        f_equal. assert (match args with [] => [([], [])] | _ => pairs args end = l) as ->.
        { assert (pairs args = l) as Ep.
          { unfold args. clear. induction l as [| [k d] l IH]; [reflexivity |]. cbn [map concat app pairs fst snd]. now rewrite IH. }
          destruct args eqn:Ea; [unfold args in Ea; destruct l; [contradiction | discriminate] | exact Ep]. }
        rewrite !map_map. f_equal. apply map_ext. intros [k d]. cbn [fst snd]. rewrite <- app_assoc. reflexivity. }
      cbn [option_map]. f_equal. rewrite lines_concat.
      * rewrite map_map. rewrite <- (map_id l) at 2. apply map_ext_in. intros [k d] Hi. cbn [fst snd]. apply candidate_both. now apply (Ht k d Hi).
      * intros x Hx. apply in_map_iff in Hx as ([k d] & <- & Hi). cbn [fst snd]. destruct (Ht k d Hi) as ((_ & _ & C1) & _ & (_ & _ & C2)).
        intros K. apply in_app_iff in K as [K | [K | K]]; [contradiction | discriminate | contradiction].
    + destruct l; [contradiction | discriminate].
    + apply format_two.
    + apply Forall_forall. intros t Hi. apply in_map_iff in Hi as (v & <- & _). discriminate.
    + apply Forall2_map2. intros [k d] Hi. destruct (Ht k d Hi) as ((B1 & B2 & _) & _ & (B3 & B4 & _)). repeat constructor; now apply fword_quote.
Qed.

(** ** zsh *)
Lemma harmless_brackets x : harmless x -> escape_square_brackets x = x.
Proof.
  intros H. unfold escape_square_brackets.
  assert (forall c r y, ~ In c y -> replace_c c r y = y) as K.
  { intros c r. induction y as [| d y IH]; intros Hy; [reflexivity |]. cbn [replace_c]. destruct (N.eqb_spec d c) as [-> | _]; [contradiction Hy; now left |].
    now rewrite IH by (intros I; apply Hy; now right). }
  rewrite !K; [reflexivity | | rewrite K]; now apply harmless_free.
Qed.
Lemma zsh_values_read i : (forall v d, In (v, d) (printed_items i) -> harmless v /\ tame [COLON; LBRK; RBRK] d = true) ->
  (match i with ValueList.Described l => forall v d, In (v, d) l -> d <> [] | _ => True end) ->
  map read_value (ValueList.zsh_values i) = map (fun vd => Some (ValueSpec [] false (fst vd) (match snd vd with [] => None | d => Some d end) None)) (printed_items i).
Proof.
  intros H Hd. assert (forall v d, harmless v -> tame [COLON; LBRK; RBRK] d = true ->
    read_value (escape_square_brackets v ++ match d with [] => [] | _ => s "[" ++ escape_square_brackets d ++ s "]" end) = Some (ValueSpec [] false v (match d with [] => None | d => Some d end) None)) as K.
  { intros v d Hv Ht. pose proof (read_argument_text (Entry [] (Some d) NoValue []) [] false v Hv (fun x (I : In x []) => match I with end) (conj Ht I)) as E.
    cbn [e_description e_completer value_action shown described] in E. unfold shown, described in E. cbn [e_description] in E. rewrite (harmless_brackets v Hv).
    unfold argument_text in E. cbn [app] in E. rewrite app_nil_r in E. destruct d; exact E. }
  destruct i as [l | l]; cbn [ValueList.zsh_values printed_items] in *; rewrite !map_map; apply map_ext_in.
  - intros v Hi. cbn [fst snd]. destruct (H v []) as [H1 H2]; [apply in_map_iff; now exists v |]. specialize (K v [] H1 H2). now rewrite app_nil_r in K.
  - intros [v d] Hi. cbn [fst snd]. destruct (H v d Hi) as [H1 H2]. specialize (K v d H1 H2). specialize (Hd v d Hi). destruct d; [contradiction | exact K].
Qed.
