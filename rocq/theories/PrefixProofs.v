(** * Proofs for C121. *)
From Coq Require Import Lia.
From Verif Require Import Base PyStr StrUtils SpecShell BashStrings BashWords SpecBashWords BashWordsProofs SpecPrefix PrefixCompleter.
Open Scope list_scope.

Lemma starts_own p x : starts_with p (p ++ x) = true.
Proof. apply starts_with_app. now exists x. Qed.
Lemma next_units n : forall x p us open, (length x <= n)%nat -> units p x = Some (us, open) -> none_kept us ->
  match us with
  | [] => next (loop_of p) x = None
  | u :: us' => exists p' x', next (loop_of p) x = Some (fst u, loop_of p', x') /\ units p' x' = Some (us', open) /\ (length x' < length x)%nat /\ (length x' + (if quoted p' then 1 else 0) < length x + (if quoted p then 1 else 0))%nat
  end.
Proof.
  induction n as [| n IH]; intros [| c x] p us open Hn H K; cbn [length] in Hn; try lia.
  - injection H as <- <-. now destruct p.
  - injection H as <- <-. now destruct p.
  - destruct p; cbn [units loop_of next quoted] in H |- *.
    + destruct (N.eqb_spec c SQ) as [-> | Hsq].
      * change (N.eqb SQ DQ) with false. cbn match. pose proof (IH x Singly us open ltac:(lia) H K) as G. destruct us as [| u us']; [exact G |].
        destruct G as (p' & x' & G1 & G2 & G3 & G4). exists p', x'. cbn [length quoted] in *. repeat split; auto; lia.
      * destruct (N.eqb_spec c DQ) as [-> | Hdq].
        -- pose proof (IH x Doubly us open ltac:(lia) H K) as G. destruct us as [| u us']; [exact G |].
           destruct G as (p' & x' & G1 & G2 & G3 & G4). exists p', x'. cbn [length quoted] in *. repeat split; auto; lia.
        -- destruct (N.eqb c BS).
           ++ destruct x as [| d x]; [discriminate |]. destruct (N.eqb d LF); [discriminate |]. apply with_unit_some in H as (us' & -> & H).
              exists Outside, x. cbn [length quoted fst loop_of] in *. repeat split; auto; lia.
           ++ destruct (memc c [DOLLAR; BTICK]); [discriminate |]. apply with_unit_some in H as (us' & -> & H).
              exists Outside, x. cbn [length quoted fst loop_of] in *. repeat split; auto; lia.
    + destruct (N.eqb c SQ).
      * pose proof (IH x Outside us open ltac:(lia) H K) as G. destruct us as [| u us']; [exact G |].
        destruct G as (p' & x' & G1 & G2 & G3 & G4). exists p', x'. cbn [length quoted] in *. repeat split; auto; lia.
      * apply with_unit_some in H as (us' & -> & H). exists Singly, x. cbn [length quoted fst loop_of] in *. repeat split; auto; lia.
    + destruct (N.eqb c DQ).
      * pose proof (IH x Outside us open ltac:(lia) H K) as G. destruct us as [| u us']; [exact G |].
        destruct G as (p' & x' & G1 & G2 & G3 & G4). exists p', x'. cbn [length quoted] in *. repeat split; auto; lia.
      * destruct (N.eqb c BS).
        -- destruct x as [| d x]; [discriminate |]. destruct (N.eqb d LF); [discriminate |]. destruct (memc d [DOLLAR; BTICK; DQ; BS]).
           ++ apply with_unit_some in H as (us' & -> & H). exists Doubly, x. cbn [length quoted fst loop_of] in *. repeat split; auto; lia.
           ++ apply with_unit_some in H as (us' & -> & H). apply none_kept_cons in K as [K _]. now contradiction K.
        -- destruct (memc c [DOLLAR; BTICK]); [discriminate |]. apply with_unit_some in H as (us' & -> & H).
           exists Doubly, x. cbn [length quoted fst loop_of] in *. repeat split; auto; lia.
Qed.

(** The prefix was typed: what is left is written with the same characters *)
Lemma strip_units pre : forall p x us1 us2 open, units p x = Some (us1 ++ us2, open) -> none_kept (us1 ++ us2) -> text us1 = pre ->
  exists p' x', strip_loop pre (loop_of p) x = Some (loop_of p', x') /\ units p' x' = Some (us2, open) /\
    (pre <> [] -> length x' + (if quoted p' then 1 else 0) < length x + (if quoted p then 1 else 0))%nat.
Proof.
  induction pre as [| c pre IH]; intros p x us1 us2 open H K E; destruct us1 as [| u us1]; try discriminate.
  - exists p, x. split; [reflexivity |]. split; [exact H | congruence].
  - cbn [text map] in E. injection E as E1 E2. cbn [app] in *. pose proof (next_units (length x) x p _ open (le_n _) H K) as (p' & x' & N1 & N2 & _ & N4).
    apply none_kept_cons in K as [_ K]. destruct (IH p' x' us1 us2 open N2 K E2) as (p2 & x2 & S1 & S2 & S3). exists p2, x2. cbn [strip_loop]. rewrite N1, E1, N.eqb_refl.
    split; [exact S1 |]. split; [exact S2 |]. intros _. destruct pre; [| specialize (S3 ltac:(discriminate)); lia]. cbn in S1. injection S1 as S1 <-.
    assert (p2 = p') as -> by (destruct p2, p'; discriminate || reflexivity). exact N4.
Qed.
(** It was not *)
Lemma strip_none pre : forall p x us open, units p x = Some (us, open) -> none_kept us -> (forall r, text us <> pre ++ r) -> strip_loop pre (loop_of p) x = None.
Proof.
  induction pre as [| c pre IH]; intros p x us open H K E; [now destruct (E (text us)) |].
  pose proof (next_units (length x) x p _ open (le_n _) H K) as G. cbn [strip_loop]. destruct us as [| u us]; [now rewrite G |].
  destruct G as (p' & x' & N1 & N2 & _ & _). rewrite N1. destruct (N.eqb_spec c (fst u)) as [-> |]; [| reflexivity]. apply none_kept_cons in K as [_ K].
  apply (IH p' x' us open N2 K). intros r Er. apply (E r). unfold text in *. cbn [map app]. now rewrite Er.
Qed.

Lemma units_opening p x us open : units p x = Some (us, open) ->
  units Outside (match loop_of p with Outer => x | Single => SQ :: x | Double => DQ :: x end) = Some (us, open).
Proof. now destruct p. Qed.

(** ** Word breaks *)
Lemma break_units breaks n : forall x p us open i pos, (length x <= n)%nat -> units p x = Some (us, open) ->
  (break_loop breaks (loop_of p) i pos x = None <-> pos = None /\ forall u, In u us -> is_break breaks u = false).
Proof.
  induction n as [| n IH]; intros [| c x] p us open i pos Hn H; cbn [length] in Hn; try lia.
  - injection H as <- <-. cbn. intuition.
  - injection H as <- <-. cbn. intuition.
  - assert (Q : forall P (u : N * how) us', is_break breaks u = false -> (P /\ (forall v, In v us' -> is_break breaks v = false)) <-> (P /\ (forall v, In v (u :: us') -> is_break breaks v = false))).
    { intros P u us' Hu. split; intros [HP HH]; (split; [exact HP |]); [intros v [<- | Hv]; auto | intros v Hv; apply HH; now right]. }
    destruct p; cbn [units loop_of break_loop] in H |- *.
    + destruct (N.eqb_spec c SQ) as [-> | Hsq]; [change (N.eqb SQ DQ) with false; cbn match; exact (IH x Singly us open (S i) pos ltac:(lia) H) |].
      destruct (N.eqb c DQ); [exact (IH x Doubly us open (S i) pos ltac:(lia) H) |]. destruct (N.eqb c BS).
      * destruct x as [| d x]; [discriminate |]. destruct (N.eqb d LF); [discriminate |]. apply with_unit_some in H as (us' & -> & H).
        rewrite <- Q by reflexivity. exact (IH x Outside us' open (S (S i)) pos ltac:(cbn in Hn; lia) H).
      * destruct (memc c [DOLLAR; BTICK]); [discriminate |]. apply with_unit_some in H as (us' & -> & H). destruct (memc c breaks) eqn:Eb.
        -- pose proof (IH x Outside us' open (S i) (Some i) ltac:(lia) H) as G. cbn [loop_of] in G. rewrite G. split; [intros [D _]; discriminate |].
           intros [_ G2]. specialize (G2 (c, Bare) (or_introl eq_refl)). unfold is_break in G2. cbn [snd fst] in G2. congruence.
        -- rewrite <- Q by exact Eb. exact (IH x Outside us' open (S i) pos ltac:(lia) H).
    + destruct (N.eqb c SQ); [exact (IH x Outside us open (S i) pos ltac:(lia) H) |]. apply with_unit_some in H as (us' & -> & H).
      rewrite <- Q by reflexivity. exact (IH x Singly us' open (S i) pos ltac:(lia) H).
    + destruct (N.eqb_spec c DQ) as [-> | Hdq]; [change (N.eqb DQ BS) with false; cbn match; exact (IH x Outside us open (S i) pos ltac:(lia) H) |].
      destruct (N.eqb c BS).
      * destruct x as [| d x]; [discriminate |]. destruct (N.eqb d LF); [discriminate |]. destruct (memc d [DOLLAR; BTICK; DQ; BS]).
        -- apply with_unit_some in H as (us' & -> & H). rewrite <- Q by reflexivity. exact (IH x Doubly us' open (S (S i)) pos ltac:(cbn in Hn; lia) H).
        -- apply with_unit_some in H as (us0 & -> & H). apply with_unit_some in H as (us' & -> & H). rewrite <- !Q by reflexivity.
           exact (IH x Doubly us' open (S (S i)) pos ltac:(cbn in Hn; lia) H).
      * destruct (memc c [DOLLAR; BTICK]); [discriminate |]. apply with_unit_some in H as (us' & -> & H). rewrite <- Q by reflexivity.
        exact (IH x Doubly us' open (S i) pos ltac:(lia) H).
Qed.
Lemma no_break breaks x us open : units Outside x = Some (us, open) -> (last_break_position breaks x = None <-> forall u, In u us -> is_break breaks u = false).
Proof. intros H. pose proof (break_units breaks (length x) x Outside us open 0 None (le_n _) H) as G. cbn [loop_of] in G. unfold last_break_position. rewrite G. tauto. Qed.

Lemma rstrip_none x : ~ In LF x -> command_substitution x = x.
Proof.
  intros H. unfold command_substitution, rstrip_p. assert (~ In LF (rev x)) as H' by now rewrite <- in_rev.
  replace (lstrip_p (N.eqb LF) (rev x)) with (rev x); [apply rev_involutive |]. destruct (rev x) as [| c r]; [reflexivity |]. cbn [lstrip_p].
  destruct (N.eqb_spec LF c) as [<- |]; [destruct H'; now left | reflexivity].
Qed.
Lemma next_in l : forall x c l' x', next l x = Some (c, l', x') -> forall d, In d x' -> In d x.
Proof.
  intros x. revert l. assert (G : forall n x l c l' x', (length x <= n)%nat -> next l x = Some (c, l', x') -> forall d, In d x' -> In d x).
  { clear. induction n as [| n IH]; intros [| a x] l c l' x' Hn H d Hd; cbn [length] in Hn; try lia; try discriminate. cbn [next] in H. right. destruct l.
    - destruct (N.eqb a DQ); [exact (IH x _ c l' x' ltac:(lia) H d Hd) |]. destruct (N.eqb a SQ); [exact (IH x _ c l' x' ltac:(lia) H d Hd) |].
      destruct (N.eqb a BS); [destruct x as [| e x]; [discriminate |]; injection H as <- <- <-; now right |]. now injection H as <- <- <-.
    - destruct (N.eqb a SQ); [exact (IH x _ c l' x' ltac:(lia) H d Hd) |]. now injection H as <- <- <-.
    - destruct (N.eqb a DQ); [exact (IH x _ c l' x' ltac:(lia) H d Hd) |]. destruct (N.eqb a BS); [destruct x as [| e x]; [discriminate |]; injection H as <- <- <-; now right |]. now injection H as <- <- <-. }
  intros l c l' x'. exact (G (length x) x l c l' x' (le_n _)).
Qed.
Lemma strip_in p : forall l x l' x', strip_loop p l x = Some (l', x') -> forall d, In d x' -> In d x.
Proof.
  induction p as [| c p IH]; intros l x l' x' H d Hd; cbn [strip_loop] in H; [now injection H as <- <- |].
  destruct (next l x) as [[[e l2] x2] |] eqn:E; [| discriminate]. destruct (N.eqb c e); [| discriminate]. apply (next_in _ _ _ _ _ E). exact (IH _ _ _ _ H d Hd).
Qed.

(** ** Plain words *)
Lemma units_plain x : (forall c, In c x -> posix_special c = false) -> units Outside x = Some (map (fun c => (c, Bare)) x, false).
Proof.
  induction x as [| c x IH]; intros H; [reflexivity |]. assert (Hc := H c (or_introl eq_refl)). cbn [units map].
  destruct (N.eqb_spec c SQ) as [-> | _]; [discriminate |]. destruct (N.eqb_spec c DQ) as [-> | _]; [discriminate |].
  destruct (N.eqb_spec c BS) as [-> | _]; [discriminate |].
  assert (memc c [DOLLAR; BTICK] = false) as ->.
  { cbn. destruct (N.eqb_spec c DOLLAR) as [-> | _]; [discriminate |]. destruct (N.eqb_spec c BTICK) as [-> | _]; [discriminate | reflexivity]. }
  rewrite IH; [reflexivity |]. intros d Hd. apply H. now right.
Qed.
Lemma text_plain x : text (map (fun c => (c, Bare)) x) = x.
Proof. unfold text. rewrite map_map. apply map_id. Qed.
Lemma plain_none_kept x : none_kept (map (fun c => (c, Bare)) x).
Proof. unfold none_kept. rewrite map_map. intros H. apply in_map_iff in H as (c & E & _). discriminate. Qed.
Lemma plain_lf x : (forall c, In c x -> posix_special c = false) -> ~ In LF x.
Proof. intros H Hi. discriminate (H LF Hi). Qed.

(** ** [prefix] *)
Lemma stripped_rest breaks pre func cur us1 us2 open : pre <> [] -> ~ In LF cur -> units Outside cur = Some (us1 ++ us2, open) -> none_kept (us1 ++ us2) -> text us1 = pre ->
  exists stripped, units Outside stripped = Some (us2, open) /\
    bash_prefix breaks pre func cur = Some (match last_break_position breaks cur with None => map (app pre) (func stripped) | Some _ => func stripped end).
Proof.
  intros Hp Hl H K E. destruct (strip_units pre Outside cur us1 us2 open H K E) as (p' & x' & S1 & S2 & S3). specialize (S3 Hp). cbn [loop_of quoted] in S1, S3.
  exists (match loop_of p' with Outer => x' | Single => SQ :: x' | Double => DQ :: x' end). split; [now apply units_opening |].
  unfold bash_prefix, strip_prefix_keep_quoting. rewrite S1. pose proof (strip_in _ _ _ _ _ S1) as Hin.
  assert (Hc : forall q, q <> LF -> ~ In LF (q :: x')) by (intros q Hq [-> | Hi]; [now apply Hq | exact (Hl (Hin _ Hi))]).
  destruct p'; cbn [loop_of] in *; rewrite rstrip_none by first [apply Hc; discriminate | intros Hi; exact (Hl (Hin _ Hi))].
  - destruct (str_eqb_spec x' cur) as [-> |]; [cbn [quoted] in S3; lia | reflexivity].
  - destruct (str_eqb_spec (SQ :: x') cur) as [<- |]; [cbn [quoted length] in S3; lia | reflexivity].
  - destruct (str_eqb_spec (DQ :: x') cur) as [<- |]; [cbn [quoted length] in S3; lia | reflexivity].
Qed.
