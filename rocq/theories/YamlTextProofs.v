(** * Proofs about the export as text. *)
From Coq Require Import Lia.
From Verif Require Import Base PyStr Value SpecRanges RangesProofs SpecYamlScalar YamlScalarProofs YamlText SpecYamlText.
Open Scope list_scope.

(** ** Strings *)
Lemma hex_digit_value d : (d < 16)%N -> hex_value (hex_digit d) = Some d.
Proof.
  intros H. assert (forallb (fun d => match hex_value (hex_digit d) with Some e => N.eqb e d | None => false end) (map N.of_nat (seq 0 16)) = true) as K by reflexivity.
  rewrite forallb_forall in K. specialize (K d). destruct (hex_value (hex_digit d)) as [e |].
  - f_equal. apply N.eqb_eq, K. apply in_map_iff. exists (N.to_nat d). split; [apply N2Nat.id | apply in_seq; lia].
  - discriminate K. apply in_map_iff. exists (N.to_nat d). split; [apply N2Nat.id | apply in_seq; lia].
Qed.
Lemma hex4_number n : (n < 65536)%N -> hex_number (hex4 n) = Some n.
Proof.
  intros H. unfold hex_number, hex4. cbn [fold_left]. rewrite !hex_digit_value by (apply N.mod_lt; discriminate). f_equal.
  pose proof (N.div_mod' n 16) as E1. pose proof (N.div_mod' (n / 16) 16) as E2. pose proof (N.div_mod' (n / 256) 16) as E3.
  rewrite N.div_div in E2 by discriminate. rewrite N.div_div in E3 by discriminate.
  change (16 * 16)%N with 256%N in E2. change (256 * 16)%N with 4096%N in E3.
  assert (n / 4096 < 16)%N as L by (apply N.div_lt_upper_bound; [discriminate | exact H]).
  rewrite (N.mod_small (n / 4096) 16 L). lia.
Qed.
(** a character as [\u] can express it *)
Definition units16 (c : N) : str :=
  if (c <? 65536)%N then [c] else [55296 + (c - 65536) / 1024 mod 1024; 56320 + (c - 65536) mod 1024]%N.
Lemma read_u n y : (n < 65536)%N -> read_string (escape_u n ++ y) = put n (read_string y).
Proof. intros H. pose proof (hex4_number n H) as E. unfold escape_u, hex4 in *. cbn [app read_string]. cbn [N.eqb Pos.eqb]. now rewrite E. Qed.
Lemma read_char c y : read_string (escape_char c ++ y) = option_map (fun '(t, r) => (units16 c ++ t, r)) (read_string y).
Proof.
  assert (forall n, put n (read_string y) = option_map (fun '(t, r) => ([n] ++ t, r)) (read_string y)) as P by reflexivity.
  unfold escape_char, units16.
  destruct (N.eqb_spec c DQ) as [-> | N1]; [apply P |]. destruct (N.eqb_spec c BS) as [-> | N2]; [apply P |].
  destruct (N.eqb_spec c LF) as [-> | _]; [apply P |]. destruct (N.eqb_spec c CR) as [-> | _]; [apply P |]. destruct (N.eqb_spec c TAB) as [-> | _]; [apply P |].
  destruct (N.eqb_spec c 12) as [-> | _]; [apply P |]. destruct (N.eqb_spec c 8) as [-> | _]; [apply P |].
  destruct ((32 <=? c) && (c <=? 126))%N eqn:E.
  - apply andb_true_iff in E as [E1 E2]. apply N.leb_le in E1, E2. replace (c <? 65536)%N with true by (symmetry; apply N.ltb_lt; lia).
    cbn [app read_string]. apply N.eqb_neq in N1, N2. rewrite N1, N2. apply P.
  - destruct (N.ltb_spec c 65536) as [L | L]; [rewrite read_u by exact L; apply P |].
    rewrite <- app_assoc, !read_u.
    + destruct (read_string y) as [[t r] |]; reflexivity.
    + pose proof (N.mod_lt (c - 65536) 1024 ltac:(discriminate)). lia.
    + pose proof (N.mod_lt ((c - 65536) / 1024) 1024 ltac:(discriminate)). lia.
Qed.
Lemma read_escaped x r : read_string (concat (map escape_char x) ++ DQ :: r) = Some (concat (map units16 x), r).
Proof. induction x as [| c x IH]; [reflexivity |]. cbn [map concat]. rewrite <- app_assoc, read_char, IH. reflexivity. Qed.
Lemma yaml_units x : forallb yaml_char x = true -> concat (map units16 x) = x.
Proof. induction x as [| c x IH]; intros H; [reflexivity |]. cbn in H. apply andb_true_iff in H as [H1 H2]. cbn [map concat]. rewrite IH by exact H2. unfold units16. unfold yaml_char in H1. now rewrite H1. Qed.
Lemma json_units x : forallb json_char x = true -> join_surrogates (concat (map units16 x)) = x.
Proof.
  induction x as [| c x IH]; intros H; [reflexivity |]. cbn in H. apply andb_true_iff in H as [H1 H2]. specialize (IH H2). cbn [map concat].
  unfold json_char in H1. unfold units16 at 1. destruct (N.ltb_spec c 65536) as [L | L].
  - assert (high c = false) as Hc.
    { unfold high. apply orb_true_iff in H1 as [H1 | H1]; [apply N.ltb_lt in H1 | apply andb_true_iff in H1 as [H1 _]; apply N.leb_le in H1].
      - replace (55296 <=? c)%N with false by (symmetry; apply N.leb_gt; lia). reflexivity.
      - replace (c <? 56320)%N with false by (symmetry; apply N.ltb_ge; lia). apply andb_false_r. }
    cbn [app]. destruct (concat (map units16 x)) as [| b y] eqn:E; [cbn in *; now rewrite <- IH |].
    change (join_surrogates (c :: b :: y)) with (if high c && low b then (65536 + (c - 55296) * 1024 + (b - 56320))%N :: join_surrogates y else c :: join_surrogates (b :: y)).
    rewrite Hc. cbn [andb]. now rewrite IH.
  - assert (c < 1114112)%N as U.
    { apply orb_true_iff in H1 as [H1 | H1]; [apply N.ltb_lt in H1; lia | apply andb_true_iff in H1 as [_ H1]; now apply N.ltb_lt in H1]. }
    assert ((c - 65536) / 1024 < 1024)%N as D by (apply N.div_lt_upper_bound; [discriminate | lia]).
    pose proof (N.mod_lt (c - 65536) 1024 ltac:(discriminate)) as M. pose proof (N.div_mod' (c - 65536) 1024) as E.
    rewrite (N.mod_small ((c - 65536) / 1024)) by exact D. set (q := ((c - 65536) / 1024)%N) in *. set (m := ((c - 65536) mod 1024)%N) in *.
    cbn [app]. change (join_surrogates (?a :: ?b :: ?y)) with (if high a && low b then (65536 + (a - 55296) * 1024 + (b - 56320))%N :: join_surrogates y else a :: join_surrogates (b :: y)).
    replace (high (55296 + q)) with true by (symmetry; unfold high; apply andb_true_iff; split; [apply N.leb_le | apply N.ltb_lt]; lia).
    replace (low (56320 + m)) with true by (symmetry; unfold low; apply andb_true_iff; split; [apply N.leb_le | apply N.ltb_lt]; lia).
    cbn [andb]. rewrite IH. f_equal. lia.
Qed.

(** ** Values *)
Definition stops (r : str) : Prop := match r with [] => True | c :: _ => ends_scalar c = true end.
Definition scalar_text (t : str) : bool := match t with [] => false | _ => forallb (fun c => negb (ends_scalar c) && negb (N.eqb c DQ)) t end.
Lemma take_text t r : forallb (fun c => negb (ends_scalar c) && negb (N.eqb c DQ)) t = true -> stops r -> take_scalar (t ++ r) = (t, r).
Proof.
  intros H Hr. induction t as [| c t IH]; cbn [app].
  - destruct r as [| c r]; [reflexivity |]. cbn in *. now rewrite Hr.
  - cbn [forallb] in H. apply andb_true_iff in H as [H1 H2]. apply andb_true_iff in H1 as [H1 _]. apply negb_true_iff in H1. cbn [take_scalar]. rewrite H1, (IH H2). reflexivity.
Qed.
Section Dialect.
Variables (d : dialect) (char : N -> bool) (float : str -> bool).
Hypothesis Htext : forall x, forallb char x = true -> text d (concat (map units16 x)) = x.
Hypothesis Hnull : scalar d (s "null") = Some VNone.
Hypothesis Htrue : scalar d (s "true") = Some (VBool true).
Hypothesis Hfalse : scalar d (s "false") = Some (VBool false).
Hypothesis Hint : forall z, scalar d (show_Z z) = Some (VInt z).
Hypothesis Hfloat : forall x, float x = true -> scalar d x = Some (VFloat x) /\ scalar_text x = true.

Lemma read_scalar fuel t v r : (0 < fuel)%nat -> scalar_text t = true -> scalar d t = Some v -> stops r -> read_value d fuel (t ++ r) = Some (v, r).
Proof.
  intros F Ht Hv Hr. destruct fuel as [| f]; [lia |]. destruct t as [| c t]; [discriminate |]. cbn [app]. cbn [read_value].
  pose proof Ht as Ht'. cbn [scalar_text forallb] in Ht'. apply andb_true_iff in Ht' as [H1 _]. apply andb_true_iff in H1 as [H1 H2]. apply negb_true_iff in H1, H2. rewrite H2.
  assert (N.eqb c LBRK = false /\ N.eqb c LBRC = false) as [-> ->].
  { split; apply N.eqb_neq; intros ->; discriminate. }
  change (c :: t ++ r) with ((c :: t) ++ r). rewrite (take_text (c :: t) r Ht Hr), Hv. reflexivity.
Qed.
Lemma int_text z : scalar_text (show_Z z) = true.
Proof.
  pose proof (show_Z_nonempty z) as Hn. unfold scalar_text. destruct (show_Z z) as [| c t] eqn:E; [contradiction |]. rewrite <- E. apply forallb_forall. intros e He.
  apply show_Z_chars in He as [He | ->]; [| reflexivity]. unfold is_digit in He. apply andb_true_iff in He as [A B]. apply N.leb_le in A, B.
  apply andb_true_iff. split; apply negb_true_iff.
  - unfold ends_scalar, memc. cbn [existsb]. repeat (apply orb_false_iff; split); try reflexivity; apply N.eqb_neq; lia.
  - apply N.eqb_neq. lia.
Qed.
Lemma scalar_hd t : scalar_text t = true -> exists c y, t = c :: y /\ ends_scalar c = false.
Proof. destruct t as [| c t]; [discriminate |]. cbn. intros H. exists c, t. split; [reflexivity |]. apply andb_true_iff in H as [H _]. apply andb_true_iff in H as [H _]. now apply negb_true_iff in H. Qed.
(** what a value begins with *)
Definition good_hd (x : str) : Prop := exists c y, x = c :: y /\ c <> SP /\ c <> RBRK /\ c <> RBRC.
Lemma dumps_hd v : writable char float v = true -> good_hd (dumps v).
Proof.
  assert (forall t, scalar_text t = true -> good_hd t) as K.
  { intros t H. apply scalar_hd in H as (c & y & -> & Hc). exists c, y. split; [reflexivity |]. repeat split; intros ->; discriminate. }
  destruct v; cbn [dumps writable]; intros H.
  - now apply K.
  - now destruct b; apply K.
  - apply K, int_text.
  - apply K. now apply Hfloat.
  - eexists _, _. repeat split; discriminate.
  - eexists _, _. repeat split; discriminate.
  - eexists _, _. repeat split; discriminate.
Qed.
Lemma skip_hd x r : good_hd x -> skip (x ++ r) = x ++ r.
Proof. intros (c & y & -> & Hc & _). cbn. apply N.eqb_neq in Hc. now rewrite Hc. Qed.
Lemma dumps_str_hd x : good_hd (dumps_str x).
Proof. eexists _, _. repeat split; discriminate. Qed.

Lemma read_bracket f x : read_value d (S f) (LBRK :: x) =
  match skip x with
  | c' :: r => if N.eqb c' RBRK then Some (VList [], r) else option_map (fun '(l, rest) => (VList l, rest)) (read_items d f (c' :: r))
  | [] => None
  end.
Proof. reflexivity. Qed.
Lemma read_brace f x : read_value d (S f) (LBRC :: x) =
  match skip x with
  | c' :: r => if N.eqb c' RBRC then Some (VDict [], r) else option_map (fun '(l, rest) => (VDict l, rest)) (read_entries d f (c' :: r))
  | [] => None
  end.
Proof. reflexivity. Qed.
Definition reads (v : value) : Prop := forall fuel r, (List.length (dumps v) < fuel)%nat -> stops r -> read_value d fuel (dumps v ++ r) = Some (v, r).
Lemma items_read l : l <> [] -> Forall (fun v => reads v /\ good_hd (dumps v)) l ->
  forall fuel r, (S (List.length (join [COMMA; SP] (map dumps l))) < fuel)%nat ->
  read_items d fuel (join [COMMA; SP] (map dumps l) ++ RBRK :: r) = Some (l, r).
Proof.
  induction l as [| v l IH]; intros Hn Hl fuel r F; [contradiction |]. inversion Hl as [| ? ? [Rv Hv] Hl']; subst. destruct fuel as [| f]; [lia |].
  destruct l as [| v' l].
  - cbn [map join] in *. cbn [read_items]. rewrite Rv by (try lia; reflexivity). reflexivity.
  - cbn [map] in *. change (join [COMMA; SP] (dumps v :: dumps v' :: map dumps l)) with (dumps v ++ [COMMA; SP] ++ join [COMMA; SP] (dumps v' :: map dumps l)) in *.
    rewrite !app_length in F. cbn [List.length] in F. cbn [read_items]. rewrite <- app_assoc. rewrite Rv by (try lia; reflexivity). cbn [app skip N.eqb Pos.eqb].
    assert (skip (join [COMMA; SP] (dumps v' :: map dumps l) ++ RBRK :: r) = join [COMMA; SP] (dumps v' :: map dumps l) ++ RBRK :: r) as ->.
    { inversion Hl' as [| ? ? [_ (c & y & E & Hc & _)] _]; subst. destruct l; cbn [map join]; rewrite E; cbn; apply N.eqb_neq in Hc; now rewrite Hc. }
    rewrite IH; [reflexivity | discriminate | exact Hl' | lia].
Qed.
Definition entry_text (kv : value * value) : str := dumps_str (key_text (fst kv)) ++ [COLON; SP] ++ dumps (snd kv).
Lemma entries_read l : l <> [] -> Forall (fun kv => writable_key char (fst kv) = true /\ reads (snd kv) /\ good_hd (dumps (snd kv))) l ->
  forall fuel r, (S (List.length (join [COMMA; SP] (map entry_text l))) < fuel)%nat ->
  read_entries d fuel (join [COMMA; SP] (map entry_text l) ++ RBRC :: r) = Some (l, r).
Proof.
  induction l as [| [k v] l IH]; intros Hn Hl fuel r F; [contradiction |]. inversion Hl as [| ? ? (Hk & Rv & Hv) Hl']; subst. destruct fuel as [| f]; [lia |].
  cbn [fst snd] in Hk, Rv, Hv. destruct k as [| | | | x | |]; try discriminate Hk. cbn [writable_key] in Hk.
  assert (forall y, read_string ((concat (map escape_char x) ++ [DQ]) ++ y) = Some (concat (map units16 x), y)) as Rx by (intros y; rewrite <- app_assoc; apply read_escaped).
  assert (forall y, entry_text (VStr x, v) ++ y = DQ :: (concat (map escape_char x) ++ [DQ]) ++ COLON :: SP :: dumps v ++ y) as Ee.
  { intros y. unfold entry_text, dumps_str. cbn [fst snd key_text]. cbn [app]. f_equal. rewrite <- !app_assoc. reflexivity. }
  assert (List.length (dumps v) < List.length (entry_text (VStr x, v)))%nat as Le by (unfold entry_text, dumps_str; rewrite !app_length; cbn [fst snd List.length]; lia).
  destruct l as [| e' l].
  - cbn [map join] in *. rewrite Ee. cbn [read_entries]. cbn [N.eqb Pos.eqb negb]. rewrite Rx. cbn [skip N.eqb Pos.eqb negb].
    rewrite (skip_hd (dumps v) _ Hv), Rv by (try lia; reflexivity). cbn [skip N.eqb Pos.eqb]. now rewrite Htext by exact Hk.
  - cbn [map] in *. change (join [COMMA; SP] (entry_text (VStr x, v) :: entry_text e' :: map entry_text l)) with (entry_text (VStr x, v) ++ [COMMA; SP] ++ join [COMMA; SP] (entry_text e' :: map entry_text l)) in *.
    rewrite !app_length in F. cbn [List.length] in F. rewrite <- app_assoc, Ee. cbn [read_entries]. cbn [N.eqb Pos.eqb negb]. rewrite Rx. cbn [skip N.eqb Pos.eqb negb].
    rewrite (skip_hd (dumps v) _ Hv), Rv by (try lia; reflexivity). cbn [app skip N.eqb Pos.eqb].
    assert (skip (join [COMMA; SP] (entry_text e' :: map entry_text l) ++ RBRC :: r) = join [COMMA; SP] (entry_text e' :: map entry_text l) ++ RBRC :: r) as -> by (destruct l; reflexivity).
    rewrite IH; [now rewrite Htext by exact Hk | discriminate | exact Hl' | lia].
Qed.
Lemma value_read v : writable char float v = true -> reads v.
Proof.
  induction v as [| b | z | x | x | l IH | l IH] using value_ind'; intros W fuel r F Hr; cbn [dumps] in *.
  - apply read_scalar; [lia | reflexivity | exact Hnull | exact Hr].
  - destruct b; apply read_scalar; try reflexivity; try assumption; lia.
  - apply read_scalar; [lia | apply int_text | apply Hint | exact Hr].
  - destruct (Hfloat x W) as [H1 H2]. now apply read_scalar; [lia | ..].
  - cbn [writable] in W. unfold dumps_str. destruct fuel as [| f]; [lia |]. cbn [app]. cbn [read_value N.eqb Pos.eqb].
    rewrite <- app_assoc. cbn [app]. rewrite read_escaped. cbn [option_map]. now rewrite Htext.
  - cbn [writable] in W. assert (Forall (fun v => reads v /\ good_hd (dumps v)) l) as Hl.
    { apply Forall_forall. intros v Hv. rewrite forallb_forall in W. rewrite Forall_forall in IH. specialize (W v Hv). split; [now apply IH | now apply dumps_hd]. }
    destruct fuel as [| f]; [lia |]. destruct l as [| v l]; [reflexivity |]. rewrite !app_length in F. cbn [List.length] in F.
    rewrite <- !app_assoc. change ([LBRK] ++ ?x) with (LBRK :: x). rewrite read_bracket. change ([RBRK] ++ r) with (RBRK :: r).
    assert (exists c y, join [COMMA; SP] (map dumps (v :: l)) ++ RBRK :: r = c :: y /\ c <> SP /\ c <> RBRK) as (c & y & E & H1 & H2).
    { inversion Hl as [| ? ? [_ (c & y & E & Hc & Hc' & _)] _]; subst. destruct l; cbn [map join]; rewrite E; cbn [app]; eexists _, _; now split. }
    pose proof (items_read (v :: l) ltac:(discriminate) Hl f r ltac:(lia)) as R. rewrite E in *. cbn [skip]. apply N.eqb_neq in H1, H2. rewrite H1, H2, R. reflexivity.
  - cbn [writable] in W. assert (Forall (fun kv => writable_key char (fst kv) = true /\ reads (snd kv) /\ good_hd (dumps (snd kv))) l) as Hl.
    { apply Forall_forall. intros kv Hv. rewrite forallb_forall in W. rewrite Forall_forall in IH. specialize (W kv Hv). apply andb_true_iff in W as [W1 W2].
      split; [exact W1 |]. split; [now apply IH | now apply dumps_hd]. }
    destruct fuel as [| f]; [lia |]. destruct l as [| kv l]; [reflexivity |]. rewrite !app_length in F. cbn [List.length] in F.
    rewrite <- !app_assoc. change ([LBRC] ++ ?x) with (LBRC :: x). rewrite read_brace. change ([RBRC] ++ r) with (RBRC :: r).
    pose proof (entries_read (kv :: l) ltac:(discriminate) Hl f r) as R. unfold entry_text in R at 1 2. specialize (R ltac:(lia)).
    set (t := join [COMMA; SP] (map (fun kv => dumps_str (key_text (fst kv)) ++ [COLON; SP] ++ dumps (snd kv)) (kv :: l)) ++ RBRC :: r) in *.
    assert (exists y, t = DQ :: y) as (y & E) by (unfold t; destruct l; cbn [map join]; unfold dumps_str; cbn [app]; now eexists).
    rewrite E in *. cbn [skip N.eqb Pos.eqb]. rewrite R. reflexivity.
Qed.
Lemma text_read v : writable char float v = true -> read_text d (dumps v) = Some v.
Proof.
  intros W. unfold read_text. pose proof (value_read v W (S (List.length (dumps v))) [] ltac:(lia) I) as E. rewrite app_nil_r in E. now rewrite E.
Qed.
End Dialect.
