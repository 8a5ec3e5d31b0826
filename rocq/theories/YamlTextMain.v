(** * Proofs about YAML documents. *)
From Coq Require Import Lia.
From Verif Require Import Base PyStr Value Cli StrUtils StrUtilsProofs DictSource SpecRanges RangesProofs SpecYamlScalar YamlScalarProofs YamlText SpecYamlText YamlTextProofs.
Open Scope list_scope.

(** ** Scalars in both languages *)
Lemma number_char_text c : number_char c = true -> negb (ends_scalar c) && negb (N.eqb c DQ) = true.
Proof.
  intros H. unfold number_char in H. apply orb_true_iff in H as [H | H].
  - unfold is_digit in H. apply andb_true_iff in H as [A B]. apply N.leb_le in A, B. apply andb_true_iff. split; apply negb_true_iff.
    + unfold ends_scalar, memc. cbn [existsb]. repeat (apply orb_false_iff; split); try reflexivity; apply N.eqb_neq; lia.
    + apply N.eqb_neq. lia.
  - unfold memc in H. cbn [existsb] in H. repeat (apply orb_true_iff in H as [H | H]; [apply N.eqb_eq in H as ->; reflexivity |]). discriminate.
Qed.
Lemma number_text x : x <> [] -> forallb number_char x = true -> scalar_text x = true.
Proof.
  intros Hn H. unfold scalar_text. destruct x as [| c x]; [contradiction |]. rewrite forallb_forall in H. apply forallb_forall. intros e He. apply number_char_text. now apply H.
Qed.
Lemma digits_word x w : forallb (fun c => is_digit c || N.eqb c DASH) x = true -> existsb (fun c => negb (is_digit c || N.eqb c DASH)) w = true -> str_eqb x w = false.
Proof.
  intros H Hw. apply str_eqb_neq. intros ->. apply existsb_exists in Hw as (c & Hc & Hn). rewrite forallb_forall in H. rewrite (H c Hc) in Hn. discriminate.
Qed.
Lemma json_int z : json_scalar (show_Z z) = Some (VInt z).
Proof.
  assert (forallb (fun c => is_digit c || N.eqb c DASH) (show_Z z) = true) as H.
  { apply forallb_forall. intros c Hc. apply show_Z_chars in Hc as [-> | ->]; [reflexivity | apply orb_true_r]. }
  unfold json_scalar. rewrite !(digits_word _ _ H) by reflexivity. now rewrite read_int_show.
Qed.
Lemma json_float_text x : json_float x = true -> json_scalar x = Some (VFloat x) /\ scalar_text x = true.
Proof.
  unfold json_float. destruct x as [| c x]; [discriminate |]. intros H. apply andb_true_iff in H as [H1 H2]. split; [| now apply number_text].
  unfold json_scalar. assert (forall w, existsb (fun c => negb (number_char c)) w = true -> str_eqb (c :: x) w = false) as K.
  { intros w Hw. apply str_eqb_neq. intros E. apply existsb_exists in Hw as (e & He & Hn). rewrite <- E in He. rewrite forallb_forall in H1. rewrite (H1 e He) in Hn. discriminate. }
  rewrite !K by reflexivity. destruct (read_int (c :: x)); [discriminate |]. now rewrite H1.
Qed.
Theorem json_read v : json_writable v = true -> read_text json (dumps v) = Some v.
Proof.
  apply text_read; [exact json_units | reflexivity .. | exact json_int | exact json_float_text].
Qed.

Lemma digits_fold y : forallb is_digit y = true -> forall n, read_digits n y = Some (fold_left (fun z c => z * 10 + digit_value c)%Z y n).
Proof.
  induction y as [| c y IH]; intros H n; [reflexivity |]. cbn [forallb] in H. apply andb_true_iff in H as [H1 H2]. cbn [read_digits fold_left]. rewrite H1, IH by exact H2.
  f_equal. f_equal. unfold digit_value. rewrite H1. lia.
Qed.
Lemma number_show n : number 10 (show_nat n) = Z.of_nat n.
Proof. pose proof (digits_fold (show_nat n) (show_nat_digits n) 0%Z) as E. rewrite read_digits_show in E. unfold number. now injection E. Qed.
Lemma show_nat_form n : show_nat n = s "0" \/ exists c y, show_nat n = c :: y /\ is_digit c = true /\ c <> 48%N /\ Forall (fun d => is_digit d = true) y.
Proof.
  pose proof (show_nat_digits n) as D. pose proof (DecimalNat.Unsigned.to_of (Nat.to_uint n)) as E. rewrite DecimalNat.Unsigned.of_to in E.
  unfold show_nat in *. rewrite E in *. unfold Decimal.unorm in *.
  assert (forall d, match Decimal.nzhead d with Decimal.Nil | Decimal.D1 _ | Decimal.D2 _ | Decimal.D3 _ | Decimal.D4 _ | Decimal.D5 _ | Decimal.D6 _ | Decimal.D7 _ | Decimal.D8 _ | Decimal.D9 _ => True | Decimal.D0 _ => False end) as K
    by (induction d; cbn; trivial).
  specialize (K (Nat.to_uint n)). destruct (Decimal.nzhead (Nat.to_uint n)); try contradiction; [now left | right ..].
  all: cbn [uint_str] in *; eexists _, _; (split; [reflexivity |]); split; [reflexivity |]; split; [discriminate |]; apply Forall_forall; intros e He; rewrite forallb_forall in D; apply D; now right.
Qed.
Lemma show_unsigned z : unsigned (show_Z z) = show_nat (Z.abs_nat z).
Proof.
  unfold show_Z. destruct (z <? 0)%Z; [reflexivity |]. destruct (show_nat_hd (Z.abs_nat z)) as (c & x & E & D). rewrite E. cbn.
  destruct (N.eqb_spec c DASH) as [-> | _]; [discriminate |]. destruct (N.eqb_spec c PLUS) as [-> | _]; [discriminate | reflexivity].
Qed.
Lemma yaml_int_text z : yaml_scalar (show_Z z) = Some (VInt z).
Proof.
  assert (ordinary_integer (show_Z z)) as O.
  { unfold ordinary_integer. rewrite show_unsigned. apply show_nat_form. }
  destruct (integers_agree _ O) as [E1 E2].
  assert (yaml_scalar (show_Z z) = yaml_value (show_Z z) true) as ->.
  { pose proof (show_Z_nonempty z) as Hn. destruct (show_Z z) as [| c x] eqn:E; [contradiction |]. unfold yaml_scalar.
    assert (In c (show_Z z)) as Hc by (rewrite E; now left). apply show_Z_chars in Hc as [Hc | ->]; [| reflexivity]. unfold is_word. now rewrite Hc, !orb_true_r. }
  rewrite E1, E2. f_equal. f_equal. unfold int_value. rewrite show_unsigned.
  pose proof (show_nat_digits (Z.abs_nat z)) as D. rewrite digits_no_underscore by (apply Forall_forall; now apply forallb_forall).
  assert (decimal (show_nat (Z.abs_nat z)) = true) as ->.
  { destruct (show_nat_form (Z.abs_nat z)) as [-> | (c & y & -> & H1 & H2 & H3)]; [reflexivity |]. unfold decimal. apply orb_true_iff. right. rewrite H1. apply N.eqb_neq in H2. rewrite H2.
    cbn [negb andb]. apply forallb_forall. intros e He. rewrite Forall_forall in H3. unfold digit_or_underscore. now rewrite (H3 e He). }
  rewrite number_show. unfold show_Z. destruct (Z.ltb_spec z 0) as [H | H].
  - cbn [negative N.eqb Pos.eqb]. lia.
  - destruct (show_nat_hd (Z.abs_nat z)) as (c & x & E & Dc). rewrite E. cbn [negative]. destruct (N.eqb_spec c DASH) as [-> | _]; [discriminate | lia].
Qed.
Lemma yaml_float_text x : dotted_float x = true -> yaml_scalar x = Some (VFloat x) /\ scalar_text x = true.
Proof.
  unfold dotted_float. intros H. apply andb_true_iff in H as [H1 H2].
  assert (yaml_scalar x = yaml_value x true) as ->.
  { destruct x as [| c x]; [discriminate |]. unfold yaml_scalar. cbn [forallb] in H1. apply andb_true_iff in H1 as [H1 _]. unfold number_char in H1. apply orb_true_iff in H1 as [H1 | H1].
    - unfold is_word. now rewrite H1, !orb_true_r.
    - unfold memc in H1. cbn [existsb] in H1. repeat (apply orb_true_iff in H1 as [H1 | H1]; [apply N.eqb_eq in H1 as ->; reflexivity |]). discriminate. }
  destruct (yaml_value x true) as [v |] eqn:E; [| discriminate]. destruct v; try discriminate.
  assert (x0 = x) as ->.
  { unfold yaml_value in E. cbn [negb] in E. repeat match type of E with (if ?b then _ else _) = _ => destruct b end; try discriminate E; now injection E. }
  split; [reflexivity |]. apply number_text; [| exact H1]. intros ->. discriminate.
Qed.
Theorem yaml_read v : yaml_writable v = true -> read_text yaml (dumps v) = Some v.
Proof.
  apply text_read; [exact yaml_units | reflexivity .. | exact yaml_int_text | exact yaml_float_text].
Qed.

(** ** Lines *)
Lemma join_chars (P : N -> Prop) sep l : (forall c, In c sep -> P c) -> (forall x c, In x l -> In c x -> P c) -> forall c, In c (join sep l) -> P c.
Proof.
  intros Hs Hl. induction l as [| x l IH]; intros c Hc; [contradiction |]. destruct l as [| y l].
  - cbn in Hc. now apply (Hl x); [left |].
  - rewrite join_cons in Hc. rewrite !in_app_iff in Hc. destruct Hc as [Hc | [Hc | Hc]]; [now apply (Hl x); [left |] | now apply Hs |].
    apply IH; [| exact Hc]. intros z e Hz. apply Hl. now right.
Qed.
Definition printable_char (c : N) : Prop := (32 <= c <= 126)%N.
Lemma hex_digit_printable n : (n < 16)%N -> printable_char (hex_digit n).
Proof. intros H. unfold printable_char, hex_digit. destruct (N.ltb_spec n 10); lia. Qed.
Lemma escape_u_printable n c : In c (escape_u n) -> printable_char c.
Proof.
  unfold escape_u, hex4. intros H. cbn [In] in H. destruct H as [<- | [<- | H]]; [unfold printable_char; lia .. |].
  repeat (destruct H as [<- | H]; [apply hex_digit_printable, N.mod_lt; discriminate |]). contradiction.
Qed.
Lemma escape_printable e c : In c (escape_char e) -> printable_char c.
Proof.
  unfold escape_char. repeat (destruct (N.eqb _ _); [intros [<- | [<- | []]]; unfold printable_char; lia |]).
  destruct ((32 <=? e) && (e <=? 126))%N eqn:E; [apply andb_true_iff in E as [E1 E2]; apply N.leb_le in E1, E2; intros [<- | []]; unfold printable_char; lia |].
  destruct (e <? 65536)%N; [apply escape_u_printable |]. rewrite in_app_iff. intros [H | H]; now apply escape_u_printable in H.
Qed.
Lemma dumps_str_printable x c : In c (dumps_str x) -> printable_char c.
Proof.
  unfold dumps_str. rewrite !in_app_iff. intros [[<- | []] | [H | [<- | []]]]; [unfold printable_char; lia | | unfold printable_char; lia].
  apply in_concat in H as (y & Hy & H). apply in_map_iff in Hy as (e & <- & _). now apply escape_printable in H.
Qed.
Lemma s_printable x : forallb (fun c => (32 <=? c) && (c <=? 126))%N x = true -> forall c, In c x -> printable_char c.
Proof. intros H c Hc. rewrite forallb_forall in H. specialize (H c Hc). apply andb_true_iff in H as [A B]. apply N.leb_le in A, B. unfold printable_char. lia. Qed.
Lemma digit_printable c : is_digit c = true -> printable_char c.
Proof. unfold is_digit. intros H. apply andb_true_iff in H as [A B]. apply N.leb_le in A, B. unfold printable_char. lia. Qed.
Lemma float_printable x c : forallb number_char x = true -> In c x -> printable_char c.
Proof.
  intros H Hc. rewrite forallb_forall in H. specialize (H c Hc). unfold number_char in H. apply orb_true_iff in H as [H | H]; [now apply digit_printable |].
  unfold memc in H. cbn [existsb] in H. repeat (apply orb_true_iff in H as [H | H]; [apply N.eqb_eq in H as ->; unfold printable_char; lia |]). discriminate.
Qed.
Lemma dumps_printable v : yaml_writable v = true -> forall c, In c (dumps v) -> printable_char c.
Proof.
  unfold yaml_writable. induction v as [| b | z | x | x | l IH | l IH] using value_ind'; intros W c Hc; cbn [dumps writable] in *.
  - revert Hc. now apply s_printable.
  - destruct b; revert Hc; now apply s_printable.
  - apply show_Z_chars in Hc as [H | ->]; [now apply digit_printable | unfold printable_char; lia].
  - unfold dotted_float in W. apply andb_true_iff in W as [W _]. now apply (float_printable x).
  - now apply dumps_str_printable in Hc.
  - rewrite !in_app_iff in Hc. destruct Hc as [[<- | []] | [Hc | [<- | []]]]; [unfold printable_char; lia | | unfold printable_char; lia].
    revert c Hc. apply join_chars; [intros c [<- | [<- | []]]; unfold printable_char; lia |]. intros x c Hx Hc. apply in_map_iff in Hx as (v & <- & Hv).
    rewrite Forall_forall in IH. rewrite forallb_forall in W. now apply (IH v Hv (W v Hv)).
  - rewrite !in_app_iff in Hc. destruct Hc as [[<- | []] | [Hc | [<- | []]]]; [unfold printable_char; lia | | unfold printable_char; lia].
    revert c Hc. apply join_chars; [intros c [<- | [<- | []]]; unfold printable_char; lia |]. intros x c Hx Hc. apply in_map_iff in Hx as (kv & <- & Hv).
    rewrite Forall_forall in IH. rewrite forallb_forall in W. specialize (W kv Hv). apply andb_true_iff in W as [_ W].
    rewrite !in_app_iff in Hc. destruct Hc as [Hc | [[<- | [<- | []]] | Hc]]; [now apply dumps_str_printable in Hc | unfold printable_char; lia .. |]. now apply (proj2 (IH kv Hv) W).
Qed.
(** The last character is no blank. *)
Definition solid (x : str) : Prop := exists y c, x = y ++ [c] /\ is_space c = false.
Lemma solid_app a x : solid x -> solid (a ++ x).
Proof. intros (y & c & -> & H). exists (a ++ y), c. split; [now rewrite app_assoc | exact H]. Qed.
Lemma solid_all x : x <> [] -> (forall c, In c x -> is_space c = false) -> solid x.
Proof. intros Hn H. destruct (exists_last Hn) as (y & c & ->). exists y, c. split; [reflexivity |]. apply H, in_or_app. right. now left. Qed.
Lemma dumps_solid v : yaml_writable v = true -> solid (dumps v).
Proof.
  unfold yaml_writable. destruct v as [| b | z | x | x | l | l]; cbn [dumps writable]; intros W.
  - apply solid_all; [discriminate |].
    intros c Hc. apply negb_true_iff. revert c Hc. apply forallb_forall. reflexivity.
  - destruct b; (apply solid_all; [discriminate |]); intros c Hc; apply negb_true_iff; revert c Hc; apply forallb_forall; reflexivity.
  - apply solid_all; [apply show_Z_nonempty |]. intros c Hc. apply show_Z_chars in Hc as [H | ->]; [now apply digit_not_space | reflexivity].
  - destruct (yaml_float_text x W) as [_ Hn]. apply solid_all; [intros ->; discriminate |]. intros c Hc. unfold dotted_float in W. apply andb_true_iff in W as [W _]. rewrite forallb_forall in W. specialize (W c Hc).
    unfold number_char in W. apply orb_true_iff in W as [H | H]; [now apply digit_not_space |].
    unfold memc in H. cbn [existsb] in H. repeat (apply orb_true_iff in H as [H | H]; [apply N.eqb_eq in H as ->; reflexivity |]). discriminate.
  - unfold dumps_str. apply solid_app, solid_app. exists [], DQ. now split.
  - apply solid_app, solid_app. exists [], RBRK. now split.
  - apply solid_app, solid_app. exists [], RBRC. now split.
Qed.
