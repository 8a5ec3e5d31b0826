(** * The helper function [query_init] of fish scripts understands command lines. *)
From Verif Require Import Base Value Shell StrUtils StrUtilsProofs Cli CliProofs CliMore SpecCli BashUtils BashParser SpecParser
  ParserPaths ParserTables ParserProofs FishRuntime FishQuery SpecQuery FishQueryProofs.
Open Scope list_scope.

Section Main.
Context (root : cmd) (Hb : built root) (Hd : clear_definition root).
Context (defs : list str) (Hdefs : get_cmdline_definitions root = Ok defs).
Notation m := (get_macros root).

(** The positional arguments so far lead to [c] and [n] more belong to it. *)
Record at_place (words : list str) (rs : list cmd) (c : cmd) (n : nat) : Prop := {
  at_located : located root rs c;
  at_clean : forall w, In w words -> ~ In LF w;
  at_leads : leads words rs c;
  at_length : List.length words = taken_n rs + n;
  at_before : c_subcommands c = None \/ (Z.of_nat n < consumed c)%Z }.

Definition on_path (rs : list cmd) (c : cmd) (p : place) : Prop := p = (rs, c) \/ In p (ancestors rs).
Lemma root_on_path rs c : located root rs c -> on_path rs c ([], root).
Proof.
  intros H. induction H as [| ps c sub H IH Hi]; [now left |]. right. cbn [ancestors]. destruct IH as [E | Hp]; [injection E as <- <-; now left | now right].
Qed.
Lemma next_on_path words rs c rs' p : located root rs c -> leads words rs c -> In (rs', p) (ancestors rs) ->
  exists d, In d (subs p) /\ names p d (nth (taken_n (p :: rs') - 1) words []) /\ on_path rs c (p :: rs', d).
Proof.
  revert c. induction rs as [| q rs IH]; intros c Hl Hw Hin; [destruct Hin |]. cbn [ancestors] in Hin. cbn [leads] in Hw.
  inversion Hl as [| ? ? ? Hq Hs]; subst. destruct Hin as [E | Hin].
  - injection E as -> ->. exists c. split; [exact Hs |]. split; [exact (proj2 Hw) | now left].
  - destruct (IH q Hq (proj1 Hw) Hin) as (d & H1 & H2 & H3). exists d. split; [exact H1 |]. split; [exact H2 |].
    right. cbn [ancestors]. destruct H3 as [E | H3]; [left; now symmetry | now right].
Qed.
Lemma leads_on_path words rs c n : at_place words rs c n -> forall rs' c', located root rs' c' -> leads words rs' c' -> on_path rs c (rs', c').
Proof.
  intros H. induction rs' as [| p rs' IH]; intros c' Hl Hw.
  - inversion Hl; subst. apply root_on_path. exact (at_located _ _ _ _ H).
  - pose proof Hl as Hl0. inversion Hl as [| ? ? ? Hp Hs]; subst. cbn [leads] in Hw. destruct Hw as [Hw Hn].
    pose proof (names_clear root Hd _ _ _ _ Hl0 Hn) as (Hne & _ & _).
    assert (Hlt : taken_n (p :: rs') - 1 < List.length words).
    { destruct (Nat.lt_ge_cases (taken_n (p :: rs') - 1) (List.length words)) as [Q | Q]; [exact Q |]. now rewrite nth_overflow in Hne by exact Q. }
    destruct (IH p Hp Hw) as [E | Hin].
    + exfalso. injection E as -> ->. rewrite (at_length _ _ _ _ H) in Hlt. pose proof (taken_cons c rs) as T.
      pose proof (sum_nonneg rs). assert (T0 : Z.of_nat (taken_n rs) = sum (map consumed rs)) by (unfold taken_n; lia).
      destruct (at_before _ _ _ _ H) as [Q | Q]; [unfold subs in Hs; rewrite Q in Hs; destruct Hs | lia].
    + destruct (next_on_path words rs c rs' p (at_located _ _ _ _ H) (at_leads _ _ _ _ H) Hin) as (d & H1 & H2 & H3).
      now rewrite (clear_unique root Hd rs' p c' d _ Hp Hs H1 Hn H2).
Qed.
Lemma path_leads words rs c p : leads words rs c -> on_path rs c p -> leads words (fst p) (snd p).
Proof.
  revert c. induction rs as [| q rs IH]; intros c Hw [-> | Hin]; [exact Hw | destruct Hin | exact Hw |].
  cbn [ancestors] in Hin. cbn [leads] in Hw. apply (IH q (proj1 Hw)). destruct Hin as [E | Hin]; [left; now symmetry | now right].
Qed.
Lemma path_located rs c p : located root rs c -> on_path rs c p -> located root (fst p) (snd p).
Proof. intros Hl [-> | H]; [exact Hl | eapply ancestors_located; eassumption]. Qed.
Lemma scope_path rs c p : in_scope (rs, c) p -> on_path rs c p.
Proof. intros [-> | [H _]]; [now left | now right]. Qed.
Lemma no_macro : subs root = [] -> m_subcommands m = false.
Proof.
  intros H. unfold get_macros. cbn [m_subcommands]. rewrite visit_eq. rewrite H. cbn [flat_map map existsb snd].
  unfold subs in H. destruct (c_subcommands root) as [[| a l] |]; [reflexivity | discriminate H | reflexivity].
Qed.

(** ** Options that are known *)
Lemma get_option_known words rs c n x o : at_place words rs c n -> knows (root_first root) (rs, c) n x o ->
  find_option m words (rev defs) x = Some (arg_kind o) /\ ~ In EQ x /\
  exists p, on_path rs c p /\ located root (fst p) (snd p) /\ In o (c_options (snd p)) /\ In x (o_strings o).
Proof.
  intros H ([rs' c'] & [Hsc Hroot] & Ho & Hx). cbn [fst snd] in *. pose proof (scope_path _ _ _ Hsc) as Hp.
  pose proof (path_located rs c _ (at_located _ _ _ _ H) Hp) as Hl'. cbn [fst snd] in Hl'.
  assert (Hne : ~ In EQ x) by (eapply (clear_strings root Hd); eassumption).
  assert (Ha : applies root words rs' c').
  { intros Hm. split.
    - intros E. destruct Hroot as [Q | [[Q1 Q2] | Q]]; [now destruct Q | | exfalso; apply no_macro in Q; congruence].
      pose proof (at_length _ _ _ _ H) as L. cbn [fst] in Q1. subst rs n. cbn in L. destruct words; [reflexivity | discriminate L].
    - exact (path_leads words rs c _ (at_leads _ _ _ _ H) Hp). }
  destruct (find_option_spec root Hb Hd defs Hdefs words x (at_clean _ _ _ _ H) Hne) as [F1 F2].
  specialize (F2 rs' c' o Hl' Ha Ho Hx). split; [| split; [exact Hne | exists (rs', c'); auto]].
  destruct (find_option m words (rev defs) x) as [k |] eqn:E; [| now destruct F2]. f_equal.
  destruct (F1 k eq_refl) as (rs2 & c2 & o2 & Hl2 & Ha2 & Ho2 & Hx2 & ->).
  destruct (m_subcommands m) eqn:Hm.
  - destruct (Ha2 Hm) as [_ Hw2]. pose proof (leads_on_path words rs c n H rs2 c2 Hl2 Hw2) as Hp2.
    apply (clear_options root Hd rs c (rs2, c2) (rs', c') o2 o x (at_located _ _ _ _ H) Hp2 Hp Ho2 Hx2 Ho Hx).
  - assert (A : forall rs3 c3, located root rs3 c3 -> rs3 = [] /\ c3 = root).
    { intros rs3 c3 H3. induction H3 as [| ps3 c3 s3 H3 IH Hi]; [auto |]. exfalso. destruct IH as [-> ->].
      unfold get_macros in Hm. cbn [m_subcommands] in Hm. rewrite visit_eq in Hm. cbn [map existsb snd] in Hm. apply orb_false_iff in Hm as [Hm _].
      unfold subs in Hi. destruct (c_subcommands root) as [[| a l] |]; [destruct Hi | discriminate Hm | destruct Hi]. }
    destruct (A _ _ Hl2) as [-> ->]. destruct (A _ _ Hl') as [-> ->]. destruct (A _ _ (at_located _ _ _ _ H)) as [-> ->].
    apply (clear_options root Hd [] root ([], root) ([], root) o2 o x (located_root root) (or_introl eq_refl) (or_introl eq_refl) Ho2 Hx2 Ho Hx).
Qed.
Lemma get_option_path words rs c n x k : at_place words rs c n -> ~ In EQ x -> find_option m words (rev defs) x = Some k ->
  exists p o, on_path rs c p /\ located root (fst p) (snd p) /\ In o (c_options (snd p)) /\ In x (o_strings o) /\ k = arg_kind o.
Proof.
  intros H Hne E. destruct (find_option_spec root Hb Hd defs Hdefs words x (at_clean _ _ _ _ H) Hne) as [F1 _].
  destruct (F1 k E) as (rs2 & c2 & o2 & Hl2 & Ha2 & Ho2 & Hx2 & ->). exists (rs2, c2), o2. cbn [fst snd].
  split; [| auto]. destruct (m_subcommands m) eqn:Hm.
  - destruct (Ha2 Hm) as [_ Hw2]. exact (leads_on_path words rs c n H rs2 c2 Hl2 Hw2).
  - assert (A : forall rs3 c3, located root rs3 c3 -> rs3 = [] /\ c3 = root).
    { intros rs3 c3 H3. induction H3 as [| ps3 c3 s3 H3 IH Hi]; [auto |]. exfalso. destruct IH as [-> ->].
      unfold get_macros in Hm. cbn [m_subcommands] in Hm. rewrite visit_eq in Hm. cbn [map existsb snd] in Hm. apply orb_false_iff in Hm as [Hm _].
      unfold subs in Hi. destruct (c_subcommands root) as [[| a l] |]; [destruct Hi | discriminate Hm | destruct Hi]. }
    destruct (A _ _ Hl2) as [-> ->]. destruct (A _ _ (at_located _ _ _ _ H)) as [-> ->]. now left.
Qed.

(** ** Macros *)
Lemma macro_exists rs c o f : located root rs c -> In o (c_options c) -> f o = true ->
  existsb f (flat_map c_options (map snd (visit_commandlines [] root))) = true.
Proof.
  intros Hl Ho Hf. apply existsb_exists. exists o. split; [| exact Hf]. apply in_flat_map. exists c. split; [| exact Ho].
  apply in_map_iff. exists (rs, c). split; [reflexivity |]. apply visit_iff. exists rs. rewrite app_nil_r. auto.
Qed.
Lemma option_shape rs c o x : located root rs c -> In o (c_options c) -> In x (o_strings o) ->
  (exists d, d <> DASH /\ x = [DASH; d] /\ m_short m = true) \/
  (exists y, y <> [] /\ x = DASH :: DASH :: y /\ m_long m = true) \/
  (exists d e y, d <> DASH /\ x = DASH :: d :: e :: y /\ m_old m = true).
Proof.
  intros Hl Ho Hx. pose proof (located_option_valid root rs c o Hb Hl Ho x Hx) as Hv.
  destruct (option_style x Hv) as (S1 & S2 & S3).
  assert (G : forall f, f x = true -> nonempty (filter f (o_strings o)) = true).
  { intros f Hf. assert (In x (filter f (o_strings o))) by (apply filter_In; auto). now destruct (filter f (o_strings o)). }
  destruct (option_style_partition x Hv) as [(P & _) | [(_ & P & _) | (_ & _ & P)]].
  - left. pose proof P as P'. apply S1 in P as (d & Hdd & E). exists d. split; [exact Hdd |]. split; [exact E |].
    exact (macro_exists rs c o _ Hl Ho (G _ P')).
  - right. left. pose proof P as P'. apply S2 in P as (y & Hy & E). exists y. split; [exact Hy |]. split; [exact E |].
    exact (macro_exists rs c o _ Hl Ho (G _ P')).
  - right. right. pose proof P as P'. apply S3 in P as (d & e & y & Hdd & E). exists d, e, y. split; [exact Hdd |]. split; [exact E |].
    exact (macro_exists rs c o _ Hl Ho (G _ P')).
Qed.

Lemma split_eq_none x : ~ In EQ x -> split_eq x = None.
Proof.
  induction x as [| c x IH]; intros H; [reflexivity |]. cbn [split_eq].
  replace (N.eqb c EQ) with false by (symmetry; apply N.eqb_neq; intros ->; apply H; now left).
  rewrite IH; [reflexivity |]. intros K. apply H. now right.
Qed.
Lemma split_eq_some x t : ~ In EQ x -> split_eq (x ++ EQ :: t) = Some (x, t).
Proof.
  induction x as [| c x IH]; intros H; [reflexivity |]. cbn [split_eq app].
  replace (N.eqb c EQ) with false by (symmetry; apply N.eqb_neq; intros ->; apply H; now left).
  rewrite IH; [reflexivity |]. intros K. apply H. now right.
Qed.
Lemma split_eq_inv w : match split_eq w with Some (x, t) => w = x ++ EQ :: t /\ ~ In EQ x | None => ~ In EQ w end.
Proof.
  induction w as [| c w IH]; [intros [] |]. cbn [split_eq]. destruct (N.eqb_spec c EQ) as [-> | Hn]; [split; [reflexivity | intros []] |].
  destruct (split_eq w) as [[x t] |]; cbn [option_map].
  - destruct IH as [-> IH]. split; [reflexivity |]. intros [K | K]; auto.
  - intros [K | K]; auto.
Qed.

Section Word.
Context (words : list str) (rs : list cmd) (c : cmd) (n : nat) (Hat : at_place words rs c n).
Notation get := (find_option m words (rev defs)).
Notation known := (knows (root_first root) (rs, c) n).

(** ** Words that are options *)
(** what [query_loop] makes of a word that begins with a dash and is longer *)
Definition read (arg : str) : meaning :=
  if starts_with (s "--") arg then read_long get (m_long m) arg else read_dash get m arg.
Definition separate (arg : str) : Prop :=
  str_eqb arg (s "-") = false /\ str_eqb arg (s "--") = false /\ starts_with (s "-") arg = true.
Lemma known_shape x o : known x o ->
  (exists d, d <> DASH /\ x = [DASH; d] /\ m_short m = true) \/
  (exists y, y <> [] /\ x = DASH :: DASH :: y /\ m_long m = true) \/
  (exists d e y, d <> DASH /\ x = DASH :: d :: e :: y /\ m_old m = true).
Proof.
  intros H. destruct (get_option_known words rs c n x o Hat H) as (_ & _ & p & _ & Hl & Ho & Hx). eapply option_shape; eassumption.
Qed.
Lemma separate_dash d w : w <> [] \/ d <> DASH -> separate (DASH :: d :: w).
Proof.
  intros H. split; [reflexivity |]. split; [| reflexivity].
  destruct (str_eqb_spec (DASH :: d :: w) (s "--")) as [E | _]; [| reflexivity]. injection E as -> ->. destruct H as [H | H]; now destruct H.
Qed.
Lemma read_word x o : known x o -> 3 <= List.length x -> separate x /\
  read x = match arg_kind o with ArgRequired => ([], Some x) | _ => ([(x, [])], None) end.
Proof.
  intros H H3. destruct (get_option_known words rs c n x o Hat H) as (Hg & Hne & _).
  destruct (known_shape x o H) as [(d & _ & -> & _) | [(y & Hy & -> & Hm) | (d & e & y & Hdd & -> & Hm)]]; [cbn in H3; lia | |].
  - split; [apply separate_dash; now left |]. unfold read. change (starts_with (s "--") (DASH :: DASH :: y)) with true. cbn iota.
    unfold read_long. rewrite (split_eq_none _ Hne), Hm, Hg. now destruct (arg_kind o).
  - split; [apply separate_dash; now left |]. unfold read.
    replace (starts_with (s "--") (DASH :: d :: e :: y)) with false.
    2:{ symmetry. change (starts_with (s "--") (DASH :: d :: e :: y)) with (N.eqb DASH d && true). rewrite andb_true_r. apply N.eqb_neq. congruence. }
    unfold read_dash, read_old. rewrite Hm, (split_eq_none _ Hne), Hg. now destruct (arg_kind o).
Qed.
Lemma read_attached x o t : known x o -> 3 <= List.length x -> arg_kind o <> ArgNone -> separate (x ++ [EQ] ++ t) /\
  read (x ++ [EQ] ++ t) = ([(x, t)], None).
Proof.
  intros H H3 Hk. destruct (get_option_known words rs c n x o Hat H) as (Hg & Hne & _).
  destruct (known_shape x o H) as [(d & _ & -> & _) | [(y & Hy & -> & Hm) | (d & e & y & Hdd & -> & Hm)]]; [cbn in H3; lia | |].
  - split; [apply separate_dash; left; now destruct y |]. unfold read.
    change (starts_with (s "--") ((DASH :: DASH :: y) ++ [EQ] ++ t)) with true. cbn iota.
    unfold read_long. change ([EQ] ++ t) with (EQ :: t). now rewrite (split_eq_some _ t Hne).
  - split; [apply separate_dash; now right |]. unfold read.
    replace (starts_with (s "--") ((DASH :: d :: e :: y) ++ [EQ] ++ t)) with false.
    2:{ symmetry. change (starts_with (s "--") ((DASH :: d :: e :: y) ++ [EQ] ++ t)) with (N.eqb DASH d && true). rewrite andb_true_r. apply N.eqb_neq. congruence. }
    unfold read_dash, read_old. change ([EQ] ++ t) with (EQ :: t). rewrite Hm, (split_eq_some _ t Hne), Hg. now destruct (arg_kind o).
Qed.
Lemma read_short_spec cs given w : together (root_first root) (rs, c) n cs given w -> read_short get cs = (given, w).
Proof.
  intros H. induction H as [| d o cs given w Hk K H IH | d o t Hk K Ht | d o t Hk K Hn Ht | d o Hk K]; [reflexivity | | | |];
    cbn [read_short]; rewrite (proj1 (get_option_known words rs c n _ o Hat Hk)), K; [now rewrite IH | reflexivity | now destruct t | reflexivity].
Qed.
Lemma together_hd cs given w : together (root_first root) (rs, c) n cs given w -> cs <> [] ->
  exists d cs', cs = d :: cs' /\ d <> DASH /\ d <> EQ /\ hd_error cs' <> Some EQ /\ m_short m = true /\
    (cs' = [] -> exists o, known [DASH; d] o /\ (given, w) = match arg_kind o with ArgRequired => ([], Some [DASH; d]) | _ => ([([DASH; d], [])], None) end).
Proof.
  assert (S : forall d o, known [DASH; d] o -> d <> DASH /\ d <> EQ /\ m_short m = true).
  { intros d o Hk. destruct (get_option_known words rs c n _ o Hat Hk) as (_ & Hne & _).
    destruct (known_shape _ o Hk) as [(e & He & E & Hm) | [(y & Hy & E & _) | (e & f & y & _ & E & _)]]; [| injection E as -> <-; now destruct Hy | discriminate E].
    injection E as <-. split; [exact He |]. split; [intros ->; apply Hne; right; now left | exact Hm]. }
  intros H Hn. destruct H as [| d o cs given w Hk K H | d o t Hk K Ht | d o t Hk K Hnn Ht | d o Hk K]; [now destruct Hn | | | |];
    destruct (S d o Hk) as (S1 & S2 & S3).
  - exists d, cs. split; [reflexivity |]. split; [exact S1 |]. split; [exact S2 |]. split; [| split; [exact S3 |]].
    + destruct H as [| d' o' ? ? ? Hk' | d' o' ? Hk' | d' o' ? Hk' | d' o' Hk']; [discriminate | | | |];
        destruct (S d' o' Hk') as (_ & Q & _); cbn [hd_error]; intros [= E]; contradiction.
    + intros ->. exists o. split; [exact Hk |]. rewrite K. inversion H; subst. reflexivity.
  - exists d, t. split; [reflexivity |]. split; [exact S1 |]. split; [exact S2 |]. split; [exact Ht |]. split; [exact S3 |].
    intros ->. exists o. split; [exact Hk |]. now rewrite K.
  - exists d, t. split; [reflexivity |]. split; [exact S1 |]. split; [exact S2 |]. split; [exact Ht |]. split; [exact S3 |].
    intros ->. now destruct Hnn.
  - exists d, []. split; [reflexivity |]. split; [exact S1 |]. split; [exact S2 |]. split; [discriminate |]. split; [exact S3 |].
    intros _. exists o. split; [exact Hk |]. now rewrite K.
Qed.
Lemma read_together cs given w : together (root_first root) (rs, c) n cs given w -> cs <> [] -> no_option (rs, c) (DASH :: cs) ->
  separate (DASH :: cs) /\ read (DASH :: cs) = (given, w).
Proof.
  intros H Hn Hno. pose proof (read_short_spec cs given w H) as Hs.
  destruct (together_hd cs given w H Hn) as (d & cs' & -> & Hdd & Hde & Hhd & Hm & Hone).
  split; [apply separate_dash; now right |]. unfold read.
  replace (starts_with (s "--") (DASH :: d :: cs')) with false.
  2:{ symmetry. change (starts_with (s "--") (DASH :: d :: cs')) with (N.eqb DASH d && true). rewrite andb_true_r. apply N.eqb_neq. congruence. }
  unfold read_dash. rewrite Hm. cbn [tl].
  destruct (m_old m); [| exact Hs].
  assert (G : forall x k, ~ In EQ x -> get x = Some k ->
     exists p o, (p = (rs, c) \/ In p (ancestors rs)) /\ In o (c_options (snd p)) /\ In x (o_strings o) /\ 2 <= List.length x).
  { intros x k Hx E. destruct (get_option_path words rs c n x k Hat Hx E) as (p & o & Hp & Hl & Ho & Hxo & _). exists p, o.
    split; [exact Hp |]. split; [exact Ho |]. split; [exact Hxo |].
    destruct (option_shape _ _ o x Hl Ho Hxo) as [(? & _ & -> & _) | [(? & _ & -> & _) | (? & ? & ? & _ & -> & _)]]; cbn; lia. }
  unfold read_old. pose proof (split_eq_inv (DASH :: d :: cs')) as Hsp. destruct (split_eq (DASH :: d :: cs')) as [[x t] |].
  - destruct Hsp as [E Hx]. destruct (get x) as [k |] eqn:Eg; [| exact Hs]. exfalso.
    destruct (G x k Hx Eg) as (p & o & Hp & Ho & Hxo & L).
    destruct x as [| a [| b [| e x]]]; [cbn in L; lia | cbn in L; lia | |].
    + cbn [app] in E. injection E as <- <- ->. now destruct Hhd.
    + destruct (Hno p _ o Hp Ho Hxo) as [_ Q]; [cbn; lia |]. apply Q. exists t. rewrite E. now rewrite <- app_assoc.
  - destruct (get (DASH :: d :: cs')) as [k |] eqn:Eg; [| exact Hs].
    destruct cs' as [| e cs'].
    + destruct (Hone eq_refl) as (o & Hk & ->). rewrite (proj1 (get_option_known words rs c n _ o Hat Hk)) in Eg. injection Eg as <-.
      now destruct (arg_kind o).
    + exfalso. destruct (G _ k Hsp Eg) as (p & o & Hp & Ho & Hxo & _). destruct (Hno p _ o Hp Ho Hxo) as [Q _]; [cbn; lia |]. now apply Q.
Qed.
End Word.

Lemma loop_read words opts arg rest rs c n : at_place words rs c n -> separate arg ->
  query_loop m defs words opts (arg :: rest) =
  let (l, waiting) := read words arg in
  match waiting with
  | None => query_loop m defs words (opts ++ l) rest
  | Some x => match rest with
              | v :: rest' => query_loop m defs words (opts ++ l ++ [(x, v)]) rest'
              | [] => (MkQuery words (opts ++ l), true)
              end
  end.
Proof. intros _ (S1 & S2 & S3). cbn [query_loop]. rewrite S1, S2, S3. unfold read. reflexivity. Qed.
Lemma loop_word words opts w rest : ~ option_like w -> query_loop m defs words opts (w :: rest) = query_loop m defs (words ++ [w]) opts rest.
Proof.
  intros H. cbn [query_loop]. destruct (str_eqb_spec w (s "-")) as [-> | Hn]; [reflexivity |].
  destruct (str_eqb_spec w (s "--")) as [-> | Hn2]; [exfalso; apply H; now exists DASH, [] |].
  destruct (starts_with (s "-") w) eqn:E; [exfalso | reflexivity]. change (s "-") with [DASH] in *. destruct w as [| d w]; [discriminate E |].
  cbn [starts_with] in E. rewrite andb_true_r in E. apply N.eqb_eq in E as <-. destruct w as [| e w]; [now destruct Hn |]. apply H. now exists e, w.
Qed.

Lemma nth_before (l l' : list str) i : i < List.length l -> nth i (l ++ l') [] = nth i l [].
Proof. apply app_nth1. Qed.
Lemma leads_longer words w rs c : leads words rs c -> taken_n rs <= List.length words -> leads (words ++ [w]) rs c.
Proof.
  revert c. induction rs as [| p rs IH]; intros c H L; [exact I |]. cbn [leads] in *. pose proof (taken_step p rs). split.
  - apply IH; [exact (proj1 H) | lia].
  - rewrite nth_before by lia. exact (proj2 H).
Qed.
Lemma clean_longer (words : list str) w : (forall x, In x words -> ~ In LF x) -> ~ In LF w -> forall x, In x (words ++ [w]) -> ~ In LF x.
Proof. intros H Hw x Hx. apply in_app_or in Hx as [Hx | [<- | []]]; auto. Qed.
Lemma at_word words rs c n w : at_place words rs c n -> ~ In LF w -> c_subcommands c = None \/ Z.of_nat (S n) <> consumed c ->
  at_place (words ++ [w]) rs c (S n).
Proof.
  intros [H1 H2 H3 H4 H5] Hw Hn. constructor.
  - exact H1.
  - now apply clean_longer.
  - apply leads_longer; [exact H3 | lia].
  - rewrite app_length, H4. cbn [List.length]. lia.
  - destruct H5 as [H5 | H5]; [now left |]. destruct Hn as [Hn | Hn]; [now left | right; lia].
Qed.
Lemma at_command words rs c n sub w : at_place words rs c n -> ~ In LF w -> Z.of_nat (S n) = consumed c -> In sub (subs c) -> names c sub w ->
  at_place (words ++ [w]) (c :: rs) sub 0.
Proof.
  intros [H1 H2 H3 H4 H5] Hw Hn Hs Hx. pose proof (taken_cons c rs) as T. pose proof (sum_nonneg rs).
  assert (T0 : Z.of_nat (taken_n rs) = sum (map consumed rs)) by (unfold taken_n; lia). constructor.
  - now constructor.
  - now apply clean_longer.
  - cbn [leads]. split; [apply leads_longer; [exact H3 | lia] |].
    replace (taken_n (c :: rs) - 1) with (List.length words) by lia. rewrite app_nth2 by lia. now rewrite Nat.sub_diag.
  - rewrite app_length. cbn [List.length]. lia.
  - right. pose proof (consumed_pos sub). lia.
Qed.

Theorem query_understood here n ws ps given e : typed (root_first root) here n ws ps given e ->
  (forall w, In w ws -> ~ In LF w) -> forall words opts, at_place words (fst here) (snd here) n ->
  query_loop m defs words opts ws = (MkQuery (words ++ ps) (opts ++ given), e).
Proof.
  intros H. induction H as [[rs c] n | [rs c] n ws | [rs c] n x o ws ps given e Hk H3 K H IH | [rs c] n x o t ws ps given e Hk H3 K H IH
    | [rs c] n x o t ws ps given e Hk H3 K H IH | [rs c] n x o Hk H3 K | [rs c] n cs given0 ws ps given e Hn Ht Hno H IH
    | [rs c] n cs given0 x t ws ps given e Ht Hno H IH | [rs c] n cs given0 x Ht Hno
    | rs c n w ws ps given e Hw Hn H IH | rs c n sub w ws ps given e Hw Hn Hs Hx H IH]; intros Hc words opts Hat; cbn [fst snd] in *.
  - cbn [query_loop]. now rewrite !app_nil_r.
  - change (query_loop m defs words opts (s "--" :: ws)) with (MkQuery (words ++ ws) opts, false). now rewrite app_nil_r.
  - destruct (read_word words rs c n Hat x o Hk H3) as [Hs Hr]. rewrite (loop_read words opts x ws rs c n Hat Hs), Hr.
    assert (forall w, In w ws -> ~ In LF w) as Hc' by (intros w Q; apply Hc; now right).
    replace ((x, []) :: given) with ([(x, [])] ++ given) by reflexivity. rewrite app_assoc.
    destruct (arg_kind o); [| now destruct K |]; now apply IH.
  - destruct (read_attached words rs c n Hat x o t Hk H3 K) as [Hs Hr]. rewrite (loop_read words opts _ ws rs c n Hat Hs), Hr.
    replace ((x, t) :: given) with ([(x, t)] ++ given) by reflexivity. rewrite app_assoc. apply IH; [intros w Q; apply Hc; now right | exact Hat].
  - destruct (read_word words rs c n Hat x o Hk H3) as [Hs Hr]. rewrite (loop_read words opts x _ rs c n Hat Hs), Hr, K. cbn [app].
    replace ((x, t) :: given) with ([(x, t)] ++ given) by reflexivity. rewrite app_assoc. apply IH; [intros w Q; apply Hc; right; now right | exact Hat].
  - destruct (read_word words rs c n Hat x o Hk H3) as [Hs Hr]. rewrite (loop_read words opts x _ rs c n Hat Hs), Hr, K. now rewrite !app_nil_r.
  - destruct (read_together words rs c n Hat cs given0 None Ht Hn Hno) as [Hs Hr]. rewrite (loop_read words opts _ _ rs c n Hat Hs), Hr.
    rewrite app_assoc. apply IH; [intros w Q; apply Hc; now right | exact Hat].
  - assert (Hn : cs <> []) by (intros ->; inversion Ht).
    destruct (read_together words rs c n Hat cs given0 (Some x) Ht Hn Hno) as [Hs Hr]. rewrite (loop_read words opts _ _ rs c n Hat Hs), Hr.
    replace (opts ++ given0 ++ (x, t) :: given) with ((opts ++ given0 ++ [(x, t)]) ++ given) by now rewrite <- !app_assoc.
    apply IH; [intros w Q; apply Hc; right; now right | exact Hat].
  - assert (Hn : cs <> []) by (intros ->; inversion Ht).
    destruct (read_together words rs c n Hat cs given0 (Some x) Ht Hn Hno) as [Hs Hr]. rewrite (loop_read words opts _ _ rs c n Hat Hs), Hr.
    now rewrite app_nil_r.
  - rewrite (loop_word words opts w ws Hw). replace (words ++ w :: ps) with ((words ++ [w]) ++ ps) by now rewrite <- app_assoc.
    apply IH; [intros x Q; apply Hc; now right |]. apply at_word; [exact Hat | apply Hc; now left | exact Hn].
  - rewrite (loop_word words opts w ws Hw). replace (words ++ w :: ps) with ((words ++ [w]) ++ ps) by now rewrite <- app_assoc.
    apply IH; [intros y Q; apply Hc; now right |]. eapply at_command; [exact Hat | apply Hc; now left | exact Hn | exact Hs | exact Hx].
Qed.
End Main.

Lemma definitions_total root : exists defs, get_cmdline_definitions root = Ok defs.
Proof.
  unfold get_cmdline_definitions.
  assert (forall l, (forall x, In x l -> located root (fst x) (snd x)) -> exists r, map_res (fun '(ps, c) =>
      let query_options := get_query_option_strings ps c false in
      match query_options with
      | [] => Ok []
      | _ => do pattern <- get_positional_pattern ps c; Ok [pattern ++ s "=>" ++ query_options]
      end) l = Ok r) as G.
  { induction l as [| [ps c] l IH]; intros Hl; [now exists [] |]. destruct IH as (r & Hr); [intros x Hx; apply Hl; now right |].
    destruct (pattern_total root ps c (Hl (ps, c) (or_introl eq_refl))) as (pat & Hp). cbn zeta in Hr. cbn [map_res].
    rewrite Hr, Hp. cbn [bind]. destruct (get_query_option_strings ps c false); eexists; reflexivity. }
  destruct (G (visit_commandlines [] root)) as (r & Hr).
  - intros [ps c] Hx. apply visit_iff in Hx as (rs & E & Hl). rewrite app_nil_r in E. now subst rs.
  - cbn zeta in Hr. rewrite Hr. now eexists.
Qed.
Theorem query_init_understood root ws ps given e : built root -> clear_definition root ->
  typed (root_first root) ([], root) 0 ws ps given e -> (forall w, In w ws -> ~ In LF w) ->
  query_init root ws = Ok (MkQuery ps given, e).
Proof.
  intros Hb Hd Ht Hc. destruct (definitions_total root) as (defs & Hdefs). unfold query_init. rewrite Hdefs. cbn [bind]. f_equal.
  apply (query_understood root Hb Hd defs Hdefs ([], root) 0 ws ps given e Ht Hc [] []).
  constructor; [constructor | intros w [] | exact I | reflexivity |]. right. cbn [snd]. pose proof (consumed_pos root). lia.
Qed.
