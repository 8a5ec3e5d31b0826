(** * Proofs about [dequote], [parse_line] and [get_prefix_suffix_len]. *)
From Coq Require Import Lia.
From Verif Require Import Base Shell SpecShell ShellProofs BashWords SpecBashWords.
Open Scope list_scope.

(** ** [dequote] *)
Definition loop_of (p : place) : loop := match p with Outside => Outer | Singly => Single | Doubly => Double end.
Fixpoint last_break (breaks : str) (b : option nat) (n : nat) (us : list (N * how)) : option nat :=
  match us with
  | [] => b
  | u :: us' => last_break breaks (if is_break breaks u then Some (S n) else b) (S n) us'
  end.
Lemma with_unit_some u r us open : with_unit u r = Some (us, open) -> exists us', us = u :: us' /\ r = Some (us', open).
Proof. destruct r as [[v o] |]; cbn; [| discriminate]. intros [= <- <-]. now exists v. Qed.
Lemma none_kept_cons u us : none_kept (u :: us) -> snd u <> Kept /\ none_kept us.
Proof. unfold none_kept. cbn. tauto. Qed.
Lemma add_end r u (us : list (N * how)) : (r ++ [fst u]) ++ map fst us = r ++ map fst (u :: us).
Proof. rewrite <- app_assoc. reflexivity. Qed.
Lemma add_len (r : str) c : length (r ++ [c]) = S (length r).
Proof. rewrite app_length. cbn. lia. Qed.

Lemma dequote_units breaks n : forall x p us open r b, (length x <= n)%nat -> units p x = Some (us, open) -> none_kept us ->
  dequote_loop breaks (loop_of p) (Dequoted r b (quoted p)) x = Dequoted (r ++ map fst us) (last_break breaks b (length r) us) open.
Proof.
  induction n as [| n IH]; intros [| c x] p us open r b Hn H K; cbn [length] in Hn; try lia.
  - injection H as <- <-. cbn. now rewrite app_nil_r.
  - injection H as <- <-. cbn. now rewrite app_nil_r.
  - destruct p; cbn [units loop_of dequote_loop quoted] in H |- *.
    + destruct (N.eqb c SQ); [exact (IH x Singly us open r b ltac:(lia) H K) |].
      destruct (N.eqb c DQ); [exact (IH x Doubly us open r b ltac:(lia) H K) |].
      destruct (N.eqb c BS).
      * destruct x as [| d x]; [discriminate |]. destruct (N.eqb d LF); [discriminate |].
        apply with_unit_some in H as (us' & -> & H). apply none_kept_cons in K as [_ K].
        unfold add. cbn [dq_result dq_break dq_quotes].
        pose proof (IH x Outside us' open (r ++ [d]) b ltac:(cbn in Hn; lia) H K) as E; cbn [loop_of quoted] in E; rewrite E, (add_end r (d, Escaped)), add_len; reflexivity.
      * destruct (memc c [DOLLAR; BTICK]); [discriminate |].
        apply with_unit_some in H as (us' & -> & H). apply none_kept_cons in K as [_ K].
        unfold add. cbn [dq_result dq_break dq_quotes last_break is_break snd fst].
        destruct (memc c breaks); [pose proof (IH x Outside us' open (r ++ [c]) (Some (length (r ++ [c]))) ltac:(lia) H K) as E | pose proof (IH x Outside us' open (r ++ [c]) b ltac:(lia) H K) as E]; cbn [loop_of quoted] in E; rewrite E, (add_end r (c, Bare)), add_len; reflexivity.
    + destruct (N.eqb c SQ); [exact (IH x Outside us open r b ltac:(lia) H K) |].
      apply with_unit_some in H as (us' & -> & H). apply none_kept_cons in K as [_ K].
      unfold add. cbn [dq_result dq_break dq_quotes].
      pose proof (IH x Singly us' open (r ++ [c]) b ltac:(lia) H K) as E; cbn [loop_of quoted] in E; rewrite E, (add_end r (c, InSingle)), add_len; reflexivity.
    + destruct (N.eqb c DQ); [exact (IH x Outside us open r b ltac:(lia) H K) |].
      destruct (N.eqb c BS).
      * destruct x as [| d x]; [discriminate |]. destruct (N.eqb d LF); [discriminate |].
        destruct (memc d [DOLLAR; BTICK; DQ; BS]).
        -- apply with_unit_some in H as (us' & -> & H). apply none_kept_cons in K as [_ K].
           unfold add. cbn [dq_result dq_break dq_quotes].
           pose proof (IH x Doubly us' open (r ++ [d]) b ltac:(cbn in Hn; lia) H K) as E; cbn [loop_of quoted] in E; rewrite E, (add_end r (d, InDouble)), add_len; reflexivity.
        -- apply with_unit_some in H as (us' & -> & H). apply none_kept_cons in K as [K _]. now contradiction K.
      * destruct (memc c [DOLLAR; BTICK]); [discriminate |].
        apply with_unit_some in H as (us' & -> & H). apply none_kept_cons in K as [_ K].
        unfold add. cbn [dq_result dq_break dq_quotes].
        pose proof (IH x Doubly us' open (r ++ [c]) b ltac:(lia) H K) as E; cbn [loop_of quoted] in E; rewrite E, (add_end r (c, InDouble)), add_len; reflexivity.
Qed.

Lemma last_break_right breaks us : forall b n before,
  length before = n -> breaks_at breaks before b -> breaks_at breaks (before ++ us) (last_break breaks b n us).
Proof.
  induction us as [| u us IH]; intros b n before Hn Hb; cbn [last_break]; [now rewrite app_nil_r |].
  change (u :: us) with ([u] ++ us). rewrite app_assoc. apply IH; [rewrite app_length; cbn; lia |].
  destruct (is_break breaks u) eqn:E.
  - exists before, u, []. repeat split; [exact E | intros v [] | now subst n].
  - destruct b as [m |].
    + destruct Hb as (l & b & l' & -> & B1 & B2 & B3). exists l, b, (l' ++ [u]).
      repeat split; [now rewrite !app_assoc | exact B1 | | exact B3].
      intros v [Hv | [<- | []]] % in_app_or; [now apply B2 | exact E].
    + intros v [Hv | [<- | []]] % in_app_or; [now apply Hb | exact E].
Qed.

Lemma dequote_right breaks x us open : units Outside x = Some (us, open) -> none_kept us ->
  dq_result (dequote breaks x) = text us /\ dq_quotes (dequote breaks x) = open /\ breaks_at breaks us (dq_break (dequote breaks x)).
Proof.
  intros H K. unfold dequote. change (Dequoted [] None false) with (Dequoted [] None (quoted Outside)). change Outer with (loop_of Outside).
  rewrite (dequote_units breaks (length x) x Outside us open [] None (le_n _) H K). repeat split; try reflexivity.
  cbn [dq_break length]. apply (last_break_right breaks us None 0 []); [reflexivity | intros u []].
Qed.

(** ** Quoted texts *)
Definition taken (h : how) (x : str) : list (N * how) := map (fun c => (c, h)) x.
Lemma text_taken h x : text (taken h x) = x.
Proof. unfold text, taken. rewrite map_map. cbn. apply map_id. Qed.
Lemma none_kept_taken h x us : h <> Kept -> none_kept us -> none_kept (taken h x ++ us).
Proof.
  intros H K I. rewrite map_app in I. apply in_app_or in I as [I | I]; [| now apply K].
  unfold taken in I. rewrite map_map in I. apply in_map_iff in I as (c & E & _). now apply H.
Qed.
Definition then_units (us : list (N * how)) (r : option (list (N * how) * bool)) : option (list (N * how) * bool) :=
  match r with Some (vs, open) => Some (us ++ vs, open) | None => None end.
Lemma units_single x rest : ~ In SQ x -> units Singly (x ++ [SQ] ++ rest) = then_units (taken InSingle x) (units Outside rest).
Proof.
  induction x as [| c x IH]; intros H; cbn [app].
  - cbn [units]. rewrite N.eqb_refl. now destruct (units Outside rest) as [[? ?] |].
  - cbn [units]. destruct (N.eqb c SQ) eqn:E; [apply N.eqb_eq in E as ->; contradiction H; now left |].
    change (x ++ SQ :: rest) with (x ++ [SQ] ++ rest).
    rewrite IH by (intros I; apply H; now right). now destruct (units Outside rest) as [[? ?] |].
Qed.
Lemma units_double x rest : ~ In DQ x -> units Doubly (concat (map dq_esc x) ++ [DQ] ++ rest) = then_units (taken InDouble x) (units Outside rest).
Proof.
  induction x as [| c x IH]; intros H; cbn [map concat app].
  - cbn [units]. rewrite N.eqb_refl. now destruct (units Outside rest) as [[? ?] |].
  - assert (~ In DQ x) as H' by (intros I; apply H; now right).
    assert (c <> DQ) as Hc by (intros ->; apply H; now left).
    specialize (IH H'). rewrite <- app_assoc. unfold dq_esc at 1.
    assert (forall y, y = concat (map dq_esc x) ++ [DQ] ++ rest ->
      with_unit (c, InDouble) (units Doubly y) = then_units (taken InDouble (c :: x)) (units Outside rest)) as K.
    { intros y ->. rewrite IH. now destruct (units Outside rest) as [[? ?] |]. }
    destruct (N.eqb_spec c BS) as [-> | Hb]; [apply (K _ eq_refl) |].
    destruct (N.eqb_spec c DOLLAR) as [-> | Hd]; [apply (K _ eq_refl) |].
    destruct (N.eqb_spec c BTICK) as [-> | Ht]; [apply (K _ eq_refl) |].
    cbn [app units]. rewrite (proj2 (N.eqb_neq _ _) Hc), (proj2 (N.eqb_neq _ _) Hb).
    cbn [memc existsb]. rewrite (proj2 (N.eqb_neq _ _) Hd), (proj2 (N.eqb_neq _ _) Ht). apply (K _ eq_refl).
Qed.
Lemma units_bare x rest : (forall c, In c x -> ~ In c [SQ; DQ; BS; DOLLAR; BTICK]) -> units Outside (x ++ rest) = then_units (taken Bare x) (units Outside rest).
Proof.
  induction x as [| c x IH]; intros H; cbn [app].
  - now destruct (units Outside rest) as [[? ?] |].
  - assert (memc c [SQ; DQ; BS; DOLLAR; BTICK] = false) as M by (apply memc_false, H; now left).
    cbn [memc existsb] in M. repeat (apply orb_false_iff in M as [?M0 M]).
    cbn [units]. rewrite M0, M1, M2. cbn [memc existsb]. rewrite M3, M4. cbn [orb].
    rewrite IH by (intros d Hd; apply H; now right). now destruct (units Outside rest) as [[? ?] |].
Qed.
Lemma units_mixed x : exists us, units Singly (replace_c SQ [SQ; DQ; SQ; DQ; SQ] x ++ [SQ]) = Some (us, false) /\ text us = x /\ none_kept us /\
  forall u, In u us -> snd u <> Bare.
Proof.
  induction x as [| c x (us & E & T & K & B)].
  - exists []. repeat split; [intros [] | intros u []].
  - cbn [replace_c]. destruct (N.eqb_spec c SQ) as [-> | Hc].
    + exists ((SQ, InDouble) :: us). rewrite <- app_assoc. cbn [app].
      split; [| split; [unfold text in *; cbn [map fst]; now rewrite T | split]].
      * cbn [units]. rewrite N.eqb_refl. change (N.eqb DQ SQ) with false. rewrite N.eqb_refl.
        change (N.eqb SQ DQ) with false. change (N.eqb SQ BS) with false. change (memc SQ [DOLLAR; BTICK]) with false. cbv iota.
        rewrite E. reflexivity.
      * intros [I | I]; [discriminate | now apply K].
      * intros u [<- | I]; [discriminate | now apply B].
    + exists ((c, InSingle) :: us). cbn [app units]. rewrite (proj2 (N.eqb_neq _ _) Hc), E.
      split; [reflexivity |]. split; [unfold text in *; cbn [map fst]; now rewrite T |]. split.
      * intros [I | I]; [discriminate | now apply K].
      * intros u [<- | I]; [discriminate | now apply B].
Qed.
Lemma taken_snd h x u : In u (taken h x) -> snd u = h.
Proof. intros H. apply in_map_iff in H as (c & <- & _). reflexivity. Qed.
Lemma safe_bare c : is_safe c = true -> ~ In c [SQ; DQ; BS; DOLLAR; BTICK].
Proof. intros H I. repeat destruct I as [<- | I]; try discriminate H. destruct I. Qed.
(** [quote] of shell.py: nothing is bare unless the text is safe. *)
Lemma units_quote x : exists us, units Outside (quote x) = Some (us, false) /\ text us = x /\ none_kept us /\
  (forall u, In u us -> snd u = Bare -> forallb is_safe x = true).
Proof.
  destruct (quote_cases x) as [[Hf [Hn ->]]|[[_ [Hs ->]]|[[_ [_ [Hd ->]]]|[_ [_ [_ ->]]]]]].
  - exists (taken Bare x). rewrite <- (app_nil_r x) at 1. rewrite units_bare.
    + cbn [units then_units quoted]. rewrite app_nil_r. repeat split; [apply text_taken | | trivial].
      rewrite <- (app_nil_r (taken Bare x)). now apply none_kept_taken; [| intros []].
    + intros c Hc. apply safe_bare. rewrite forallb_forall in Hf. now apply Hf.
  - exists (taken InSingle x). change (SQ :: x ++ [SQ]) with ([SQ] ++ x ++ [SQ] ++ []). cbn [app units]. rewrite N.eqb_refl.
    change (x ++ [SQ]) with (x ++ [SQ] ++ []). rewrite units_single by exact Hs. cbn [units then_units quoted]. rewrite app_nil_r.
    repeat split; [apply text_taken | |].
    + rewrite <- (app_nil_r (taken InSingle x)). now apply none_kept_taken; [| intros []].
    + intros u Hu. apply taken_snd in Hu as ->. discriminate.
  - exists (taken InDouble x). cbn [units]. change (N.eqb DQ SQ) with false. rewrite N.eqb_refl.
    change (concat (map dq_esc x) ++ [DQ]) with (concat (map dq_esc x) ++ [DQ] ++ []). rewrite units_double by exact Hd. cbn [units then_units quoted]. rewrite app_nil_r.
    repeat split; [apply text_taken | |].
    + rewrite <- (app_nil_r (taken InDouble x)). now apply none_kept_taken; [| intros []].
    + intros u Hu. apply taken_snd in Hu as ->. discriminate.
  - destruct (units_mixed x) as (us & E & T & K & B). exists us. cbn [units]. rewrite N.eqb_refl. repeat split; try assumption.
    intros u Hu Hb. now apply B in Hu.
Qed.
Lemma units_printf_q special x : (forall c, In c [SQ; DQ; BS; DOLLAR; BTICK] -> special c = true) -> ~ In LF x ->
  exists us, units Outside (printf_q special x) = Some (us, false) /\ text us = x /\ none_kept us /\
  (forall u, In u us -> snd u = Bare -> special (fst u) = false).
Proof.
  intros S L. unfold printf_q. destruct x as [| c0 x0]; [exists []; repeat split; [intros [] | intros u []] |].
  remember (c0 :: x0) as x eqn:Ex. clear c0 x0 Ex.
  induction x as [| c x IH]; [exists []; repeat split; [intros [] | intros u []] |].
  destruct IH as (us & E & T & K & B); [intros I; apply L; now right |].
  assert (c <> LF) as Hl by (intros ->; apply L; now left).
  cbn [flat_map]. destruct (special c) eqn:Ec.
  - exists ((c, Escaped) :: us). cbn [app units]. change (N.eqb BS SQ) with false. change (N.eqb BS DQ) with false. rewrite N.eqb_refl.
    rewrite (proj2 (N.eqb_neq _ _) Hl), E. split; [reflexivity |]. split; [unfold text in *; cbn [map fst]; now rewrite T |]. split.
    + intros [I | I]; [discriminate | now apply K].
    + intros u [<- | I]; [discriminate | now apply B].
  - exists ((c, Bare) :: us). change ([c] ++ flat_map (fun c => if special c then [BS; c] else [c]) x) with ([c] ++ (flat_map (fun c => if special c then [BS; c] else [c]) x)).
    rewrite units_bare, E.
    + split; [reflexivity |]. split; [unfold text in *; cbn [map fst]; now rewrite T |]. split.
      * intros [I | I]; [discriminate | now apply K].
      * intros u [<- | I]; [trivial | now apply B].
    + intros d [<- | []] I. rewrite (S _ I) in Ec. discriminate.
Qed.

(** ** [parse_line] *)
Lemma parse_word n : forall w rest us open out word active, (length w <= n)%nat -> units Outside w = Some (us, open) -> ~ In (SP, Bare) us -> ~ In SQ w -> ~ In DQ w ->
  parse_line_loop out word active (w ++ rest) = parse_line_loop out (word ++ w) (match w with [] => active | _ => true end) rest.
Proof.
  induction n as [| n IH]; intros [| c w] rest us open out word active Hn H B Hs Hd; cbn [length] in Hn; try lia; try (now rewrite app_nil_r).
  assert (c <> SQ /\ c <> DQ) as [Hcs Hcd] by (split; intros ->; [apply Hs | apply Hd]; now left).
  cbn [units] in H. rewrite (proj2 (N.eqb_neq _ _) Hcs), (proj2 (N.eqb_neq _ _) Hcd) in H.
  cbn [app parse_line_loop]. rewrite (proj2 (N.eqb_neq _ _) Hcs), (proj2 (N.eqb_neq _ _) Hcd).
  destruct (N.eqb_spec c BS) as [-> | Hb].
  - change (N.eqb BS SP) with false. cbv iota. destruct w as [| d w]; [discriminate |]. destruct (N.eqb d LF); [discriminate |].
    apply with_unit_some in H as (us' & -> & H). cbn [app].
    rewrite (IH w rest us' open); [| cbn in Hn; lia | exact H | intros I; apply B; now right | intros I; apply Hs; now do 2 right | intros I; apply Hd; now do 2 right].
    rewrite <- app_assoc. cbn [app]. now destruct w.
  - destruct (memc c [DOLLAR; BTICK]); [discriminate |]. apply with_unit_some in H as (us' & -> & H).
    destruct (N.eqb_spec c SP) as [-> | Hsp]; [contradiction B; now left |].
    rewrite (IH w rest us' open); [| cbn in Hn; lia | exact H | intros I; apply B; now right | intros I; apply Hs; now right | intros I; apply Hd; now right].
    rewrite <- app_assoc. cbn [app]. now destruct w.
Qed.
Definition finish (x : str) (r : list str * str * bool) : list str :=
  let '(out, word, active) := r in if active then out ++ [word] else if N.eqb (last x SP) SP then out ++ [[]] else out.
Lemma last_behind (w x : str) c : last (w ++ c :: x) c = last x c.
Proof.
  induction w as [| d w IH]; [now destruct x |]. cbn [app last]. destruct (w ++ c :: x) eqn:E; [now destruct w |]. exact IH.
Qed.
Lemma parse_line_lines x ws : line_of x ws -> ~ In SQ x -> ~ In DQ x -> forall out, finish x (parse_line_loop out [] false x) = out ++ ws.
Proof.
  induction 1 as [| w [Hw (us & open & H & B)] | w x ws [Hw (us & open & H & B)] [us' C] L IH | x ws L IH]; intros Hs Hd out.
  - reflexivity.
  - rewrite <- (app_nil_r w) at 2. rewrite (parse_word (length w) w [] us open) by (assumption || apply le_n).
    destruct w; [contradiction |]. reflexivity.
  - assert (~ In SQ w /\ ~ In DQ w /\ ~ In SQ x /\ ~ In DQ x) as (H1 & H2 & H3 & H4).
    { repeat split; intros I; [apply Hs | apply Hd | apply Hs | apply Hd]; rewrite !in_app_iff; tauto. }
    rewrite (parse_word (length w) w ([SP] ++ x) us open) by (assumption || apply le_n).
    destruct w as [| c w]; [contradiction |]. cbn [app parse_line_loop]. rewrite N.eqb_refl.
    change (out ++ (c :: w) :: ws) with (out ++ [c :: w] ++ ws). rewrite app_assoc, <- (IH H3 H4).
    unfold finish. destruct (parse_line_loop _ _ _ x) as [[o v] a]. destruct a; [reflexivity |].
    change (c :: w ++ SP :: x) with ((c :: w) ++ SP :: x). now rewrite last_behind.
  - assert (~ In SQ x /\ ~ In DQ x) as (H3 & H4) by (split; intros I; [apply Hs | apply Hd]; now right).
    cbn [app parse_line_loop]. rewrite N.eqb_refl, <- (IH H3 H4).
    unfold finish. destruct (parse_line_loop _ _ _ x) as [[o v] a]. destruct a; [reflexivity |].
    change (SP :: x) with ([] ++ SP :: x). now rewrite last_behind.
Qed.
Lemma parse_line_right x ws : line_of x ws -> ~ In SQ x -> ~ In DQ x -> parse_line x = ws.
Proof.
  intros L Hs Hd. pose proof (parse_line_lines x ws L Hs Hd []) as H. cbn [app] in H. rewrite <- H. destruct x as [| c x]; [reflexivity |].
  unfold parse_line, finish. destruct (parse_line_loop [] [] false (c :: x)) as [[o v] a].
  replace (last (c :: x) SP) with (last (c :: x) 0%N); [reflexivity |]. clear. revert c. induction x as [| d x IH]; intros c; [reflexivity |]. exact (IH d).
Qed.

(** ** [get_prefix_suffix_len] *)
Lemma firstn_prefix (k : nat) (p x : str) : length p = k -> (k <= length x)%nat -> (str_eqb p (firstn k x) = true <-> prefix p x).
Proof.
  intros Hk Hx. rewrite str_eqb_eq. split.
  - intros ->. exists (skipn k x). symmetry. apply firstn_skipn.
  - intros [y ->]. rewrite firstn_app, Hk, Nat.sub_diag. cbn. rewrite app_nil_r, <- Hk. symmetry. apply firstn_all.
Qed.
Lemma prefix_suffix_right s1 s2 k : (k <= length s1)%nat -> (k <= length s2)%nat ->
  (forall m, (m < length s1 - k)%nat -> ~ prefix (skipn m s1) s2) ->
  let n := prefix_suffix_loop s1 s2 k in
  (n <= length s1)%nat /\ prefix (skipn n s1) s2 /\ forall m, (m < n)%nat -> ~ prefix (skipn m s1) s2.
Proof.
  induction k as [| k IH]; intros H1 H2 Hm; cbn [prefix_suffix_loop].
  - split; [lia |]. split; [rewrite skipn_all; now exists s2 |]. intros m L. apply Hm. lia.
  - cbv zeta. assert (length (skipn (length s1 - S k) s1) = S k) as L by (rewrite skipn_length; lia).
    rewrite (firstn_all2 (n := S k) (skipn (length s1 - S k) s1)) by lia.
    destruct (str_eqb (skipn (length s1 - S k) s1) (firstn (S k) s2)) eqn:E.
    + apply firstn_prefix in E; [| exact L | exact H2]. split; [lia |]. now split.
    + apply IH; [lia | lia |]. intros m Lm. destruct (Nat.eq_dec m (length s1 - S k)) as [-> | Ne]; [| apply Hm; lia].
      intros P. apply (firstn_prefix (S k)) in P; [| exact L | exact H2]. congruence.
Qed.
Lemma prefix_len p x : prefix p x -> (length p <= length x)%nat.
Proof. intros [y ->]. rewrite app_length. lia. Qed.
Lemma get_prefix_suffix_right s1 s2 : let n := get_prefix_suffix_len s1 s2 in
  (n <= length s1)%nat /\ prefix (skipn n s1) s2 /\ forall m, (m < n)%nat -> ~ prefix (skipn m s1) s2.
Proof.
  apply prefix_suffix_right; [lia | lia |]. intros m L P. apply prefix_len in P. rewrite skipn_length in P. lia.
Qed.

(** ** [commandline_string] *)
Lemma overlap_word pre w reply : pre = [] \/ last pre 0%N = SP -> prefix w reply -> ~ In SP reply ->
  firstn (get_prefix_suffix_len (pre ++ w) reply) (pre ++ w) = pre.
Proof.
  intros Hp Hw Hr. destruct (get_prefix_suffix_right (pre ++ w) reply) as (L & P & M). set (n := get_prefix_suffix_len (pre ++ w) reply) in *.
  assert (n = length pre) as ->.
  - destruct (Nat.lt_trichotomy n (length pre)) as [H | [H | H]]; [exfalso | exact H | exfalso].
    + destruct Hp as [-> | Hp]; [cbn in H; lia |].
      destruct P as [y E]. rewrite skipn_app in E. replace (n - length pre)%nat with O in E by lia. rewrite <- app_assoc in E.
      assert (In SP (skipn n pre)) as I.
      { assert (skipn n pre <> []) as Ne by (intros Z; apply (f_equal (@length N)) in Z; rewrite skipn_length in Z; cbn in Z; lia).
        rewrite <- Hp. rewrite <- (firstn_skipn n pre) at 1. destruct (exists_last Ne) as (l & c & ->). rewrite app_assoc, last_last.
        apply in_or_app. right. now left. }
      apply Hr. rewrite E. apply in_or_app. now left.
    + apply (M (length pre) H). rewrite skipn_app, skipn_all, Nat.sub_diag. exact Hw.
  - rewrite firstn_app, Nat.sub_diag, firstn_all. cbn. apply app_nil_r.
Qed.
