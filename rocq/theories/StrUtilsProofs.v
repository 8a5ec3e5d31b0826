(** * Proofs about str_utils.py. *)
From Verif Require Import Base StrUtils.

(** ** Blank strings *)

Lemma lstrip_nil p x : lstrip_p p x = [] <-> forallb p x = true.
Proof.
  induction x as [|c x IH]; cbn; [tauto|]. destruct (p c); cbn; [exact IH|].
  split; discriminate.
Qed.

Lemma forallb_rev {A} (p : A -> bool) l : forallb p (rev l) = forallb p l.
Proof.
  induction l as [|x l IH]; cbn; [reflexivity|]. rewrite forallb_app, IH. cbn.
  rewrite andb_true_r, andb_comm. reflexivity.
Qed.

Lemma rev_nil {A} (l : list A) : rev l = [] <-> l = [].
Proof.
  split; [|intros ->; reflexivity]. intros H. rewrite <- (rev_involutive l), H. reflexivity.
Qed.

Lemma lstrip_suffix p x : exists y, x = y ++ lstrip_p p x /\ forallb p y = true.
Proof.
  induction x as [|c x IH]; cbn; [exists []; split; reflexivity|].
  destruct (p c) eqn:E; [|exists []; split; reflexivity].
  destruct IH as [y [Hy Hp]]. exists (c :: y). cbn. rewrite E, Hp. split; [f_equal; exact Hy|reflexivity].
Qed.

Lemma strip_nil p x : strip_p p x = [] <-> forallb p x = true.
Proof.
  unfold strip_p, rstrip_p. rewrite rev_nil, lstrip_nil, forallb_rev.
  destruct (lstrip_suffix p x) as [y [Hy Hp]]. split; intros H.
  - rewrite Hy, forallb_app, Hp, H. reflexivity.
  - rewrite Hy, forallb_app in H. apply andb_true_iff in H as [_ H]. exact H.
Qed.

Lemma is_empty_or_whitespace_iff x : is_empty_or_whitespace x = true <-> forallb is_space x = true.
Proof.
  unfold is_empty_or_whitespace. rewrite <- strip_nil.
  destruct (strip_p is_space x); split; congruence.
Qed.

(** ** indent *)

Lemma split_c_no_sep c x p : In p (split_c c x) -> ~ In c p.
Proof.
  revert p; induction x as [|d x IH]; cbn; intros p H.
  - destruct H as [<-|[]]; intros [].
  - destruct (split_c c x) as [|w ws] eqn:E; [exfalso; exact (split_c_nonnil _ _ E)|].
    destruct (N.eqb_spec d c) as [->|Hd].
    + destruct H as [<-|H]; [intros []|apply IH; exact H].
    + destruct H as [<-|H].
      * intros [->|H2]; [congruence|]. exact (IH w (or_introl eq_refl) H2).
      * apply IH; right; exact H.
Qed.

Lemma repeat_notin (c d : N) n : c <> d -> ~ In c (repeat d n).
Proof. intros H Hi. apply repeat_spec in Hi. congruence. Qed.

Definition indent_line (n : Z) (line : str) : str :=
  if forallb is_space line then line else repeat SP (Z.to_nat n) ++ line.

Lemma indent_lines_eq x n : indent x n = join [LF] (map (indent_line n) (split_c LF x)).
Proof.
  unfold indent. f_equal. apply map_ext. intros l. unfold indent_line.
  pose proof (strip_nil is_space l) as H.
  destruct (strip_p is_space l) as [|c y] eqn:E; destruct (forallb is_space l) eqn:F;
    try reflexivity; exfalso; destruct H as [H1 H2].
  - specialize (H1 eq_refl). discriminate.
  - specialize (H2 eq_refl). discriminate.
Qed.

Lemma split_indent x n : split_c LF (indent x n) = map (indent_line n) (split_c LF x).
Proof.
  rewrite indent_lines_eq. apply split_join_c.
  - intros H. apply map_eq_nil in H. exact (split_c_nonnil _ _ H).
  - intros l Hl. apply in_map_iff in Hl as [l0 [<- Hl]].
    apply split_c_no_sep in Hl. unfold indent_line.
    destruct (forallb is_space l0); [exact Hl|].
    rewrite in_app_iff. intros [H|H]; [|tauto]. revert H. apply repeat_notin. discriminate.
Qed.

Lemma indent_line_blank n line : forallb is_space (indent_line n line) = forallb is_space line.
Proof.
  unfold indent_line. destruct (forallb is_space line) eqn:E; [exact E|].
  rewrite forallb_app, E, andb_false_r. reflexivity.
Qed.

Lemma dedent_indent x n :
  join [LF] (map (fun l => if forallb is_space l then l else skipn (Z.to_nat n) l)
                 (split_c LF (indent x n))) = x.
Proof.
  rewrite split_indent, map_map. rewrite <- (join_split_c LF x) at 2. f_equal.
  rewrite <- map_id. apply map_ext. intros l. rewrite indent_line_blank.
  unfold indent_line. destruct (forallb is_space l); [reflexivity|].
  rewrite skipn_app, repeat_length, Nat.sub_diag. cbn [skipn].
  rewrite skipn_all2 by (rewrite repeat_length; lia). reflexivity.
Qed.

(** ** join_with_wrap *)

Lemma join_snoc sep l x : l <> [] -> join sep (l ++ [x]) = join sep l ++ sep ++ x.
Proof.
  induction l as [|a l IH]; intros H; [congruence|].
  destruct l as [|b l]; [reflexivity|].
  change ((a :: b :: l) ++ [x]) with (a :: b :: (l ++ [x])).
  rewrite !join_cons. change (b :: l ++ [x]) with ((b :: l) ++ [x]).
  rewrite IH by discriminate. rewrite <- !app_assoc. reflexivity.
Qed.

Definition zlen (x : str) : Z := Z.of_nat (length x).

Definition line_text (psep prefix : str) (items : list str) : str := prefix ++ join psep items.

(** A wrapping of [items] into lines is right if ... *)
Record wrapped (psep prefix : str) (max : Z) (items : list str) (ls : list (list str)) : Prop := {
  w_items : concat ls = items;
  w_nonempty : forall l, In l ls -> l <> [];
  w_fits : forall l a b r, In l ls -> l = a :: b :: r -> (zlen (line_text psep prefix l) <= max)%Z;
  w_greedy : forall p l1 x l2 q, ls = p ++ l1 :: (x :: l2) :: q ->
               (zlen (line_text psep prefix (l1 ++ [x])) > max)%Z }.

Lemma wrap_loop_spec psep max prefix items : forall ls cur,
  cur <> [] ->
  (forall l, In l ls -> l <> []) ->
  (forall l a b r, In l (ls ++ [cur]) -> l = a :: b :: r -> (zlen (line_text psep prefix l) <= max)%Z) ->
  (forall p l1 x l2 q, ls ++ [cur] = p ++ l1 :: (x :: l2) :: q ->
      (zlen (line_text psep prefix (l1 ++ [x])) > max)%Z) ->
  exists ls', wrap_loop psep max prefix (map (line_text psep prefix) ls) cur
                (zlen (line_text psep prefix cur)) items = map (line_text psep prefix) ls' /\
    wrapped psep prefix max (concat ls ++ cur ++ items) ls'.
Proof.
  induction items as [|it items IH]; intros ls cur Hc Hne Hfit Hgr.
  - cbn [wrap_loop]. exists (ls ++ [cur]). split.
    + destruct cur as [|c cur]; [congruence|]. rewrite map_app. reflexivity.
    + rewrite app_nil_r. split.
      * rewrite concat_app. cbn. rewrite app_nil_r. reflexivity.
      * intros l Hl. apply in_app_iff in Hl as [Hl|[<-|[]]]; [apply Hne; exact Hl|exact Hc].
      * exact Hfit.
      * exact Hgr.
  - cbn [wrap_loop].
    assert (Hcur : exists c cur', cur = c :: cur') by (destruct cur as [|c cur']; [congruence|eauto]).
    assert (Hlen : (zlen (line_text psep prefix (cur ++ [it])) =
                    zlen (line_text psep prefix cur) + Z.of_nat (length psep) + Z.of_nat (length it))%Z).
    { unfold line_text, zlen. rewrite join_snoc by exact Hc. rewrite !app_length. lia. }
    destruct Hcur as [c [cur' Ecur]].
    replace (match cur with [] => 0%Z | _ => Z.of_nat (length psep) end)
      with (Z.of_nat (length psep)) by (rewrite Ecur; reflexivity).
    replace (match cur with [] => false | _ => true end) with true by (rewrite Ecur; reflexivity).
    cbn [andb]. rewrite <- Hlen.
    destruct (zlen (line_text psep prefix (cur ++ [it])) >? max)%Z eqn:Eg.
    + apply Z.gtb_lt in Eg.
      replace (map (line_text psep prefix) ls ++ [prefix ++ join psep cur])
        with (map (line_text psep prefix) (ls ++ [cur])) by (rewrite map_app; reflexivity).
      replace (Z.of_nat (length prefix) + Z.of_nat (length it))%Z
        with (zlen (line_text psep prefix [it]))
        by (unfold zlen, line_text; cbn [join]; rewrite app_length; lia).
      destruct (IH (ls ++ [cur]) [it]) as [ls' [E W]].
      * discriminate.
      * intros l Hl. apply in_app_iff in Hl as [Hl|[<-|[]]]; [apply Hne; exact Hl|exact Hc].
      * intros l a b r Hl El. apply in_app_iff in Hl as [Hl|[<-|[]]]; [|discriminate].
        apply (Hfit l a b r Hl El).
      * intros p l1 x l2 q E. destruct q as [|q0 q] using rev_ind.
        -- (* the last pair *)
           replace (p ++ [l1; x :: l2]) with ((p ++ [l1]) ++ [x :: l2]) in E
             by (rewrite <- app_assoc; reflexivity).
           apply app_inj_tail in E as [E1 E2]. apply app_inj_tail in E1 as [_ <-].
           injection E2 as <- _. lia.
        -- replace (p ++ l1 :: (x :: l2) :: q ++ [q0]) with ((p ++ l1 :: (x :: l2) :: q) ++ [q0]) in E
             by (rewrite <- app_assoc; reflexivity).
           apply app_inj_tail in E as [E _]. apply (Hgr _ _ _ _ _ E).
      * exists ls'. split; [exact E|]. rewrite concat_app in W. cbn [concat] in W.
        rewrite app_nil_r, <- !app_assoc in W. exact W.
    + assert (Hle : (zlen (line_text psep prefix (cur ++ [it])) <= max)%Z).
      { rewrite Z.gtb_ltb in Eg. apply Z.ltb_ge in Eg. exact Eg. }
      destruct (IH ls (cur ++ [it])) as [ls' [E W]].
      * destruct cur; discriminate.
      * exact Hne.
      * intros l a b r Hl El. apply in_app_iff in Hl as [Hl|[<-|[]]]; [|exact Hle].
        apply (Hfit l a b r); [apply in_app_iff; left; exact Hl|exact El].
      * intros p l1 x l2 q E. destruct q as [|q0 q] using rev_ind.
        -- replace (p ++ [l1; x :: l2]) with ((p ++ [l1]) ++ [x :: l2]) in E
             by (rewrite <- app_assoc; reflexivity).
           apply app_inj_tail in E as [E1 E2]. subst ls.
           rewrite Ecur in E2. cbn [app] in E2. injection E2 as <- _.
           apply (Hgr p l1 c cur' []). rewrite Ecur, <- app_assoc. reflexivity.
        -- replace (p ++ l1 :: (x :: l2) :: q ++ [q0]) with ((p ++ l1 :: (x :: l2) :: q) ++ [q0]) in E
             by (rewrite <- app_assoc; reflexivity).
           apply app_inj_tail in E as [E _]. subst ls.
           apply (Hgr p l1 x l2 (q ++ [cur])). rewrite <- app_assoc. reflexivity.
      * exists ls'. split; [exact E|]. rewrite <- app_assoc in W. exact W.
Qed.

Lemma join_with_wrap_spec psep ssep max items prefix :
  exists ls, join_with_wrap psep ssep max items prefix
             = join ssep (map (line_text psep prefix) ls) /\
    wrapped psep prefix max items ls.
Proof.
  unfold join_with_wrap. destruct items as [|it items].
  - exists []. split; [reflexivity|]. split; [reflexivity|intros l []|intros l a b r []|].
    intros p l1 x l2 q E. destruct p; discriminate.
  - cbn [wrap_loop andb].
    replace (Z.of_nat (length prefix) + 0 + Z.of_nat (length it))%Z
      with (zlen (line_text psep prefix [it]))
      by (unfold zlen, line_text; cbn [join]; rewrite app_length; lia).
    destruct (wrap_loop_spec psep max prefix items [] [it]) as [ls [E W]].
    + discriminate.
    + intros l [].
    + intros l a b r [<-|[]] H. discriminate.
    + intros p l1 x l2 q E. destruct p as [|? [|? ?]]; discriminate.
    + exists ls. split; [|exact W]. cbn [app]. rewrite <- E. reflexivity.
Qed.

(** ** Option strings *)

Lemma valid_option_string_iff x : is_valid_option_string x = true <->
  exists y, x = DASH :: y /\ y <> [] /\ y <> [DASH] /\
            forall c, In c y -> is_space c = false /\ c <> COMMA.
Proof.
  unfold is_valid_option_string. destruct x as [|c [|d x]].
  - split; [discriminate|]. intros [y [H _]]. discriminate.
  - split; [discriminate|]. intros [y [H [Hn _]]]. injection H as -> <-. congruence.
  - cbn [tl]. rewrite !andb_true_iff, N.eqb_eq, negb_true_iff, str_eqb_neq, forallb_forall. split.
    + intros [[-> Hf] Hn]. exists (d :: x). split; [reflexivity|]. split; [discriminate|]. split.
      * intros E. apply Hn. f_equal. exact E.
      * intros c Hc. specialize (Hf c Hc). apply andb_true_iff in Hf as [H1 H2].
        apply negb_true_iff in H1, H2. apply N.eqb_neq in H2. auto.
    + intros [y [H [_ [Hn Hf]]]]. injection H as -> <-. split; [split; [reflexivity|]|].
      * intros c Hc. destruct (Hf c Hc) as [H1 H2]. rewrite H1. cbn.
        destruct (N.eqb_spec c COMMA); [congruence|reflexivity].
      * intros E. injection E as E. apply Hn. rewrite E. congruence.
Qed.

(** The three styles, described on the text of the option. *)
Lemma option_style x : is_valid_option_string x = true ->
  (is_short_option_string x = true <-> exists c, c <> DASH /\ x = [DASH; c]) /\
  (is_long_option_string x = true <-> exists y, y <> [] /\ x = DASH :: DASH :: y) /\
  (is_old_option_string x = true <-> exists c d y, c <> DASH /\ x = DASH :: c :: d :: y).
Proof.
  intros Hv. apply valid_option_string_iff in Hv as [y [-> [Hn [Hd _]]]].
  destruct y as [|c y]; [congruence|].
  unfold is_short_option_string, is_long_option_string, is_old_option_string.
  cbn [length starts_with]. rewrite N.eqb_refl. cbn [andb].
  rewrite andb_true_r.
  split; [|split].
  - rewrite Nat.eqb_eq. split.
    + intros H. destruct y; [|discriminate]. exists c. split; [|reflexivity]. intros ->. congruence.
    + intros [c' [_ H]]. injection H as _ ->. reflexivity.
  - rewrite N.eqb_eq. split.
    + intros <-. exists y. split; [|reflexivity]. intros ->. congruence.
    + intros [y' [_ H]]. congruence.
  - rewrite andb_true_iff, negb_true_iff, N.eqb_neq, Nat.ltb_lt. split.
    + intros [H1 H2]. destruct y as [|d y]; [cbn in H2; lia|]. exists c, d, y. split; [congruence|reflexivity].
    + intros [c' [d [y' [H1 H2]]]]. injection H2 as -> ->. split; [congruence|]. cbn. lia.
Qed.

Lemma option_style_partition x : is_valid_option_string x = true ->
  (is_short_option_string x = true /\ is_long_option_string x = false /\ is_old_option_string x = false) \/
  (is_short_option_string x = false /\ is_long_option_string x = true /\ is_old_option_string x = false) \/
  (is_short_option_string x = false /\ is_long_option_string x = false /\ is_old_option_string x = true).
Proof.
  intros Hv. apply valid_option_string_iff in Hv as [y [-> [Hn [Hd _]]]].
  destruct y as [|c y]; [congruence|].
  unfold is_short_option_string, is_long_option_string, is_old_option_string.
  cbn [length starts_with]. rewrite N.eqb_refl. cbn [andb]. rewrite andb_true_r.
  destruct (N.eqb_spec DASH c) as [<-|Hc].
  - destruct y as [|d y]; [congruence|]. right; left. repeat split.
  - destruct y as [|d y]; [left|right; right]; repeat split.
Qed.

(** ** Program names *)

Lemma starts_with_sp x : starts_with [SP] x = true <-> exists y, x = SP :: y.
Proof. rewrite starts_with_app. tauto. Qed.

Lemma contains_iff sub x : contains sub x = true <-> exists a b, x = a ++ sub ++ b.
Proof.
  induction x as [|c x IH]; cbn [contains].
  - rewrite orb_false_r, starts_with_app. split.
    + intros [y Hy]. exists [], y. exact Hy.
    + intros [a [b H]]. destruct a; [exists b; exact H|discriminate].
  - rewrite orb_true_iff, starts_with_app, IH. split.
    + intros [[y Hy]|[a [b ->]]]; [exists [], y; exact Hy|exists (c :: a), b; reflexivity].
    + intros [[|d a] [b H]]; [left; exists b; exact H|].
      right. injection H as _ H. exists a, b. exact H.
Qed.

(** Empty pieces of a split at blanks. *)
Lemma split_empty_piece c x : In [] (split_c c x) <->
  x = [] \/ (exists y, x = c :: y) \/ (exists y, x = y ++ [c]) \/ (exists a b, x = a ++ [c; c] ++ b).
Proof.
  assert (H : forall x, (In [] (tl (split_c c x)) <->
            (exists y, x = y ++ [c]) \/ (exists a b, x = a ++ [c; c] ++ b)) /\
            (hd [c] (split_c c x) = [] <-> x = [] \/ exists y, x = c :: y)).
  { clear x. induction x as [|d x [IH1 IH2]].
    - split; cbn.
      + split; [intros []|]. intros [[y H]|[a [b H]]]; [destruct y; discriminate|].
        destruct a; discriminate.
      + split; [left; reflexivity|reflexivity].
    - cbn [split_c]. destruct (split_c c x) as [|w ws] eqn:E; [exfalso; exact (split_c_nonnil _ _ E)|].
      cbn [hd tl] in *.
      destruct (N.eqb_spec d c) as [->|Hd]; cbn [hd tl].
      + split.
        * cbn [In]. split.
          -- intros [H|H].
             ++ apply IH2 in H as [->|[y ->]].
                ** left. exists []. reflexivity.
                ** right. exists [], y. reflexivity.
             ++ apply IH1 in H as [[y ->]|[a [b ->]]].
                ** left. exists (c :: y). reflexivity.
                ** right. exists (c :: a), b. reflexivity.
          -- intros [[y H]|[a [b H]]].
             ++ destruct y as [|e y]; [injection H as ->; left; apply IH2; left; reflexivity|].
                injection H as _ ->. right. apply IH1. left. exists y. reflexivity.
             ++ destruct a as [|e a]; [injection H as ->; left; apply IH2; right; exists b; reflexivity|].
                injection H as _ ->. right. apply IH1. right. exists a, b. reflexivity.
        * split; [intros _; right; exists x; reflexivity|reflexivity].
      + split.
        * rewrite IH1. split.
          -- intros [[y ->]|[a [b ->]]]; [left; exists (d :: y); reflexivity|right; exists (d :: a), b; reflexivity].
          -- intros [[y H]|[a [b H]]].
             ++ destruct y as [|e y]; [injection H as H; congruence|]. injection H as _ ->. left; exists y; reflexivity.
             ++ destruct a as [|e a]; [injection H as H; congruence|]. injection H as _ ->. right; exists a, b; reflexivity.
        * split; [discriminate|]. intros [H|[y H]]; [discriminate|]. injection H as H _. congruence. }
  destruct (H x) as [H1 H2].
  destruct (split_c c x) as [|w ws] eqn:E; [exfalso; exact (split_c_nonnil _ _ E)|].
  cbn [hd tl In] in *. rewrite H1, H2. tauto.
Qed.

Lemma validate_prog_iff x : validate_prog x = Ok tt <->
  (forall w, In w (split_c SP x) -> w <> []) /\ ~ In TAB x /\ ~ In LF x /\
  exists c, In c x /\ is_space c = false.
Proof.
  unfold validate_prog.
  assert (Hws : is_empty_or_whitespace x = false <-> exists c, In c x /\ is_space c = false).
  { destruct (is_empty_or_whitespace x) eqn:E.
    - apply is_empty_or_whitespace_iff in E. rewrite forallb_forall in E.
      split; [discriminate|]. intros [c [Hc Hs]]. rewrite (E c Hc) in Hs. discriminate.
    - split; [intros _|reflexivity].
      destruct (forallb is_space x) eqn:F; [apply is_empty_or_whitespace_iff in F; congruence|].
      clear E. induction x as [|c x IH]; [discriminate|]. cbn in F.
      destruct (is_space c) eqn:Es; [|exists c; split; [left; reflexivity|exact Es]].
      destruct (IH F) as [d [Hd Hs]]. exists d. split; [right; exact Hd|exact Hs]. }
  assert (Hp : (forall w, In w (split_c SP x) -> w <> []) <-> ~ In [] (split_c SP x)).
  { split; [intros H H1; exact (H _ H1 eq_refl)|intros H w Hw ->; tauto]. }
  rewrite Hp, split_empty_piece, <- Hws. clear Hp Hws.
  pose proof (starts_with_sp x) as H1.
  pose proof (ends_with_app [SP] x) as H2.
  pose proof (contains_iff [SP; SP] x) as H3.
  pose proof (memc_In TAB x) as H4. pose proof (memc_In LF x) as H5.
  assert (Hnil : x = [] -> is_empty_or_whitespace x = true) by (intros ->; reflexivity).
  destruct (is_empty_or_whitespace x).
  { split; [discriminate|]. intros [_ [_ [_ H]]]. discriminate. }
  assert (Hx : x <> []) by (intros E; specialize (Hnil E); discriminate).
  destruct (starts_with [SP] x).
  { split; [discriminate|]. intros [H _]. exfalso. apply H. right; left. apply H1. reflexivity. }
  destruct (ends_with [SP] x).
  { split; [discriminate|]. intros [H _]. exfalso. apply H. right; right; left. apply H2. reflexivity. }
  destruct (memc TAB x).
  { split; [discriminate|]. intros [_ [H _]]. exfalso. apply H. apply H4. reflexivity. }
  destruct (memc LF x).
  { split; [discriminate|]. intros [_ [_ [H _]]]. exfalso. apply H. apply H5. reflexivity. }
  destruct (contains [SP; SP] x).
  { split; [discriminate|]. intros [H _]. exfalso. apply H. right; right; right. apply H3. reflexivity. }
  split; [intros _|reflexivity]. split; [|split; [|split; [|reflexivity]]].
  - intros [H|[H|[H|H]]]; [tauto|apply H1 in H; discriminate|apply H2 in H; discriminate|apply H3 in H; discriminate].
  - intros H. apply H4 in H. discriminate.
  - intros H. apply H5 in H. discriminate.
Qed.

(** For text whose only white space are blanks, [split()] is [split(' ')] without empty pieces. *)
Definition nonempty (w : str) : bool := match w with [] => false | _ => true end.

Lemma split_ws_aux_split x : forall cur,
  (forall c, In c x -> is_space c = true -> c = SP) ->
  split_ws_aux cur x =
  match split_c SP x with
  | [] => []
  | w :: ws => filter nonempty ((rev cur ++ w) :: ws)
  end.
Proof.
  induction x as [|c x IH]; intros cur H.
  - cbn. rewrite app_nil_r. destruct cur as [|d cur]; [reflexivity|].
    cbn. destruct (rev cur ++ [d]) as [|e r] eqn:E; [destruct (rev cur); discriminate|]. reflexivity.
  - cbn [split_ws_aux split_c].
    assert (Hx : forall c, In c x -> is_space c = true -> c = SP) by (intros d Hd; apply H; right; exact Hd).
    destruct (is_space c) eqn:Es.
    + rewrite (H c (or_introl eq_refl) Es). rewrite N.eqb_refl. rewrite IH by exact Hx.
      destruct (split_c SP x) as [|w ws] eqn:E; [exfalso; exact (split_c_nonnil _ _ E)|].
      cbn [rev app]. rewrite app_nil_r.
      destruct cur as [|d cur]; [reflexivity|].
      cbn [rev]. destruct (rev cur ++ [d]) as [|e r] eqn:Er; [destruct (rev cur); discriminate|].
      reflexivity.
    + destruct (N.eqb_spec c SP) as [->|Hc]; [vm_compute in Es; discriminate|].
      rewrite IH by exact Hx.
      destruct (split_c SP x) as [|w ws] eqn:E; [exfalso; exact (split_c_nonnil _ _ E)|].
      cbn [rev]. rewrite <- app_assoc. reflexivity.
Qed.

Lemma split_ws_split x :
  (forall c, In c x -> is_space c = true -> c = SP) ->
  split_ws x = filter nonempty (split_c SP x).
Proof.
  intros H. unfold split_ws. rewrite split_ws_aux_split by exact H.
  destruct (split_c SP x); reflexivity.
Qed.

Lemma validate_prog_split x :
  (forall c, In c x -> is_space c = true -> c = SP) -> validate_prog x = Ok tt ->
  split_ws x = split_c SP x.
Proof.
  intros H Hv. rewrite split_ws_split by exact H. apply validate_prog_iff in Hv as [Hw _].
  induction (split_c SP x) as [|w ws IH]; [reflexivity|]. cbn [filter].
  destruct w as [|c w]; [exfalso; exact (Hw [] (or_introl eq_refl) eq_refl)|].
  cbn [nonempty]. rewrite IH; [reflexivity|]. intros v Hv; apply Hw; right; exact Hv.
Qed.

(** ** strip_comments *)

Lemma split_strip_comments x :
  filter (fun l => negb (starts_with [HASH] (lstrip_p is_space l))) (split_c LF x) <> [] ->
  split_c LF (strip_comments x)
  = filter (fun l => negb (starts_with [HASH] (lstrip_p is_space l))) (split_c LF x).
Proof.
  intros H. unfold strip_comments. apply split_join_c; [exact H|].
  intros l Hl. apply filter_In in Hl as [Hl _]. apply split_c_no_sep in Hl. exact Hl.
Qed.

Lemma strip_comments_idem x : strip_comments (strip_comments x) = strip_comments x.
Proof.
  set (f := fun l => negb (starts_with [HASH] (lstrip_p is_space l))).
  destruct (filter f (split_c LF x)) as [|l ls] eqn:E.
  - assert (strip_comments x = []) as ->; [|reflexivity].
    unfold strip_comments. fold f. rewrite E. reflexivity.
  - assert (H : filter f (split_c LF x) <> []) by (rewrite E; discriminate).
    unfold strip_comments at 1. rewrite split_strip_comments by exact H. fold f.
    unfold strip_comments. fold f.
    assert (Hff : forall l, filter f (filter f l) = filter f l).
    { clear. induction l as [|a l IH]; cbn; [reflexivity|]. destruct (f a) eqn:Ef; cbn; [rewrite Ef, IH; reflexivity|exact IH]. }
    rewrite Hff. reflexivity.
Qed.

(** ** strip_double_empty_lines *)

Lemma sdel_step a b c x : strip_double_empty_lines (a :: b :: c :: x) =
  if (N.eqb a LF && N.eqb b LF && N.eqb c LF)%bool then [LF; LF] ++ strip_double_empty_lines x
  else a :: strip_double_empty_lines (b :: c :: x).
Proof. reflexivity. Qed.

Lemma sdel_length n : forall x, (length x <= n)%nat -> (length (strip_double_empty_lines x) <= length x)%nat.
Proof.
  induction n as [|n IH]; intros x Hn.
  - destruct x; cbn in *; lia.
  - destruct x as [|a [|b [|c x]]]; [cbn; lia..|].
    rewrite sdel_step.
    destruct (N.eqb a LF && N.eqb b LF && N.eqb c LF)%bool.
    + cbn [app length]. specialize (IH x). cbn in Hn. lia.
    + specialize (IH (b :: c :: x)). cbn [length] in *. lia.
Qed.

(** Nothing but newlines is ever removed. *)
Lemma sdel_content n : forall x, (length x <= n)%nat ->
  filter (fun c => negb (N.eqb c LF)) (strip_double_empty_lines x)
  = filter (fun c => negb (N.eqb c LF)) x.
Proof.
  induction n as [|n IH]; intros x Hn.
  - destruct x; [reflexivity|cbn in Hn; lia].
  - destruct x as [|a [|b [|c x]]]; [reflexivity..|].
    rewrite sdel_step.
    destruct (N.eqb a LF && N.eqb b LF && N.eqb c LF)%bool eqn:E.
    + apply andb_true_iff in E as [E Ec]. apply andb_true_iff in E as [Ea Eb].
      cbn [app filter]. rewrite Ea, Eb, Ec. cbn. apply IH. cbn in Hn; lia.
    + cbn [filter]. rewrite IH by (cbn in *; lia). reflexivity.
Qed.

(** At most four newlines in a row are left of a run of five; runs of three and four become
    runs of two and three; texts without a run of three are unchanged. *)
Lemma sdel_id n : forall x, (length x <= n)%nat ->
  (forall a b, x <> a ++ [LF; LF; LF] ++ b) -> strip_double_empty_lines x = x.
Proof.
  induction n as [|n IH]; intros x Hn H.
  - destruct x; [reflexivity|cbn in Hn; lia].
  - destruct x as [|a [|b [|c x]]]; [reflexivity..|].
    rewrite sdel_step.
    destruct (N.eqb a LF && N.eqb b LF && N.eqb c LF)%bool eqn:E.
    + apply andb_true_iff in E as [E Ec]. apply andb_true_iff in E as [Ea Eb].
      apply N.eqb_eq in Ea, Eb, Ec. subst. exfalso. apply (H [] x). reflexivity.
    + f_equal. apply IH; [cbn in *; lia|]. intros p q Hpq. apply (H (a :: p) q).
      cbn. f_equal. exact Hpq.
Qed.

(** ** The getters partition the option strings *)
From Coq Require Import Permutation.

Lemma getters_partition l : (forall x, In x l -> is_valid_option_string x = true) ->
  Permutation (get_short_option_strings l ++ get_long_option_strings l ++ get_old_option_strings l) l /\
  (forall x, In x (get_short_option_strings l) -> ~ In x (get_long_option_strings l) /\ ~ In x (get_old_option_strings l)) /\
  (forall x, In x (get_long_option_strings l) -> ~ In x (get_old_option_strings l)).
Proof.
  intros Hv. unfold get_short_option_strings, get_long_option_strings, get_old_option_strings.
  split; [|split].
  - induction l as [|x l IH]; [constructor|].
    specialize (IH (fun y Hy => Hv y (or_intror Hy))). cbn [filter].
    destruct (option_style_partition x (Hv x (or_introl eq_refl)))
      as [[-> [-> ->]]|[[-> [-> ->]]|[-> [-> ->]]]].
    + cbn. constructor. exact IH.
    + cbn [app]. rewrite <- Permutation_middle. constructor. exact IH.
    + rewrite app_assoc, <- Permutation_middle. constructor. rewrite <- app_assoc. exact IH.
  - intros x Hx. rewrite !filter_In in *. destruct Hx as [Hi Hs].
    destruct (option_style_partition x (Hv x Hi)) as [[H1 [H2 H3]]|[[H1 [H2 H3]]|[H1 [H2 H3]]]];
      split; intros [_ H]; congruence.
  - intros x Hx. rewrite !filter_In in *. destruct Hx as [Hi Hs].
    destruct (option_style_partition x (Hv x Hi)) as [[H1 [H2 H3]]|[[H1 [H2 H3]]|[H1 [H2 H3]]]];
      intros [_ H]; congruence.
Qed.

Lemma join_with_wrap_plain psep ssep max items prefix :
  exists ls : list (list str),
    join_with_wrap psep ssep max items prefix
      = join ssep (map (fun l => prefix ++ join psep l) ls) /\
    concat ls = items /\
    (forall l, In l ls -> l <> []) /\
    (forall l a b r, In l ls -> l = a :: b :: r ->
       (Z.of_nat (length (prefix ++ join psep l)) <= max)%Z) /\
    (forall p l1 x l2 q, ls = p ++ l1 :: (x :: l2) :: q ->
       (Z.of_nat (length (prefix ++ join psep (l1 ++ [x]))) > max)%Z).
Proof.
  destruct (join_with_wrap_spec psep ssep max items prefix) as [ls [E [H1 H2 H3 H4]]].
  exists ls. split; [exact E|]. split; [exact H1|]. split; [exact H2|]. split; [exact H3|exact H4].
Qed.
