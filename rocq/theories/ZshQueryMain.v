(** * The helper function [query] of zsh scripts understands command lines, and the function of the
    right command completes them. *)
From Coq Require Import Permutation.
From Verif Require Import Base Value Shell StrUtils StrUtilsProofs Cli CliProofs CliMore SpecCli BashUtils BashParser SpecParser
  ParserPaths ParserTables ParserProofs FishRuntime FishQuery SpecQuery SpecOffered FishQueryProofs FishQueryMain ZshQuery SpecZshQuery ZshQueryProofs.
Open Scope list_scope.

Lemma path_trans rs0 c0 rs c p : on_path rs0 c0 (rs, c) -> on_path rs c p -> on_path rs0 c0 p.
Proof.
  intros [E | H] Hp; [injection E as <- <-; exact Hp |]. right. revert H. clear c0. induction rs0 as [| q rs0 IH]; [intros [] |]. cbn [ancestors].
  intros [E | H].
  - injection E as <- <-. destruct Hp as [-> | Hp]; [now left | now right].
  - right. now apply IH.
Qed.

Section Main.
Context (root : cmd) (Hb : built root) (Hd : clear_definition root).
Context (rs0 : list cmd) (c0 : cmd) (Hl0 : located root rs0 c0).
Notation m := (get_macros root).
Notation K := (known root rs0 c0).

Definition zread (arg : str) : meaning :=
  if starts_with (s "--") arg then zread_long m K arg else zread_dash m K arg.
Definition zseparate (arg : str) : Prop :=
  str_eqb arg (s "--") = false /\ starts_with (s "-") arg && (2 <=? List.length arg) = true.
Lemma zseparate_dash d w : w <> [] \/ d <> DASH -> zseparate (DASH :: d :: w).
Proof.
  intros H. split; [| reflexivity].
  destruct (str_eqb_spec (DASH :: d :: w) (s "--")) as [E | _]; [| reflexivity]. injection E as -> ->. destruct H as [H | H]; now destruct H.
Qed.

Section Word.
Context (rs : list cmd) (c : cmd) (n : nat) (Hp0 : on_path rs0 c0 (rs, c)).
Notation knows_here := (knows anywhere (rs, c) n).

Lemma knows_path x o : knows_here x o -> exists p, on_path rs0 c0 p /\ In o (c_options (snd p)) /\ In x (o_strings o).
Proof.
  intros (p & Hp & Ho & Hx). exists p. split; [| auto]. apply (path_trans _ _ _ _ _ Hp0). now apply scope_path.
Qed.
Lemma knows_value x o st k : knows_here x o -> K st k x = style_eqb st (style_of x) && akind_eqb k (arg_kind o).
Proof. intros H. destruct (knows_path x o H) as (p & Hp & Ho & Hx). exact (known_value root Hb Hd rs0 c0 Hl0 p o x st k Hp Ho Hx). Qed.
Lemma knows_shape x o : knows_here x o -> shaped root x /\ ~ In EQ x.
Proof.
  intros H. destruct (knows_path x o H) as (p & Hp & Ho & Hx). destruct (path_option_shape root Hb Hd rs0 c0 p o x Hl0 Hp Ho Hx) as (H1 & H2 & _). auto.
Qed.
Lemma old_start d y : d <> DASH -> starts_with (s "--") (DASH :: d :: y) = false.
Proof.
  intros H. change (starts_with (s "--") (DASH :: d :: y)) with (N.eqb DASH d && true). rewrite andb_true_r. apply N.eqb_neq. congruence.
Qed.
Lemma zread_word x o : knows_here x o -> 3 <= List.length x -> zseparate x /\
  zread x = match arg_kind o with ArgRequired => ([], Some x) | _ => ([(x, [])], None) end.
Proof.
  intros H H3. destruct (knows_shape x o H) as (Hs & Hne). pose proof (fun st k => knows_value x o st k H) as Hv.
  destruct Hs as [(d & _ & -> & _) | [(y & Hy & -> & Hm) | (d & e & y & Hdd & -> & Hm)]]; [cbn in H3; lia | |].
  - split; [apply zseparate_dash; now left |]. unfold zread. change (starts_with (s "--") (DASH :: DASH :: y)) with true. cbn iota.
    unfold zread_long. rewrite (split_eq_none _ Hne), Hm, Hv. change (style_of (DASH :: DASH :: y)) with Long. now destruct (arg_kind o).
  - split; [apply zseparate_dash; now left |]. unfold zread. rewrite old_start by exact Hdd.
    unfold zread_dash, zread_old. rewrite Hm, (split_eq_none _ Hne), !Hv. cbn [style_of]. rewrite (proj2 (N.eqb_neq d DASH) Hdd). now destruct (arg_kind o).
Qed.
Lemma zread_attached x o t : knows_here x o -> 3 <= List.length x -> arg_kind o <> ArgNone -> zseparate (x ++ [EQ] ++ t) /\
  zread (x ++ [EQ] ++ t) = ([(x, t)], None).
Proof.
  intros H H3 Hk. destruct (knows_shape x o H) as (Hs & Hne). pose proof (fun st k => knows_value x o st k H) as Hv.
  destruct Hs as [(d & _ & -> & _) | [(y & Hy & -> & Hm) | (d & e & y & Hdd & -> & Hm)]]; [cbn in H3; lia | |].
  - split; [apply zseparate_dash; left; now destruct y |]. unfold zread.
    change (starts_with (s "--") ((DASH :: DASH :: y) ++ [EQ] ++ t)) with true. cbn iota.
    unfold zread_long. change ([EQ] ++ t) with (EQ :: t). now rewrite (split_eq_some _ t Hne).
  - split; [apply zseparate_dash; now right |]. unfold zread. change ((DASH :: d :: e :: y) ++ [EQ] ++ t) with (DASH :: d :: (e :: y) ++ [EQ] ++ t) at 1. rewrite old_start by exact Hdd.
    unfold zread_dash, zread_old. change ([EQ] ++ t) with (EQ :: t). rewrite Hm, (split_eq_some _ t Hne), !Hv.
    cbn [style_of]. rewrite (proj2 (N.eqb_neq d DASH) Hdd). now destruct (arg_kind o).
Qed.
Lemma short_style d o : knows_here [DASH; d] o -> style_of [DASH; d] = Short /\ d <> DASH /\ d <> EQ /\ m_short m = true.
Proof.
  intros H. destruct (knows_shape _ o H) as (Hs & Hne).
  destruct Hs as [(e & He & E & Hm) | [(y & Hy & E & _) | (e & f & y & _ & E & _)]]; [| injection E as -> <-; now destruct Hy | discriminate E].
  injection E as <-. split; [cbn [style_of]; now rewrite (proj2 (N.eqb_neq d DASH) He) |]. split; [exact He |].
  split; [intros ->; apply Hne; right; now left | exact Hm].
Qed.
Lemma zread_short_spec cs given w : together anywhere (rs, c) n cs given w -> zread_short K cs = (given, w).
Proof.
  intros H. induction H as [| d o cs given w Hk A H IH | d o t Hk A Ht | d o t Hk A Hn Ht | d o Hk A]; [reflexivity | | | |];
    cbn [zread_short]; rewrite !(fun st k => knows_value _ o st k Hk), (proj1 (short_style d o Hk)), A; cbn [style_eqb akind_eqb andb];
    [now rewrite IH | reflexivity | now destruct t | reflexivity].
Qed.
Lemma together_first cs given w : together anywhere (rs, c) n cs given w -> cs <> [] ->
  exists d cs', cs = d :: cs' /\ d <> DASH /\ hd_error cs' <> Some EQ /\ m_short m = true.
Proof.
  intros H Hn. destruct H as [| d o cs given w Hk A H | d o t Hk A Ht | d o t Hk A Hnn Ht | d o Hk A]; [now destruct Hn | | | |];
    destruct (short_style d o Hk) as (_ & S1 & S2 & S3).
  - exists d, cs. split; [reflexivity |]. split; [exact S1 |]. split; [| exact S3].
    destruct H as [| d' o' ? ? ? Hk' | d' o' ? Hk' | d' o' ? Hk' | d' o' Hk']; [discriminate | | | |];
        destruct (short_style d' o' Hk') as (_ & _ & Q & _); cbn [hd_error]; intros [= E]; contradiction.
  - exists d, t. auto.
  - exists d, t. auto.
  - exists d, []. split; [reflexivity |]. split; [exact S1 |]. split; [discriminate | exact S3].
Qed.
Lemma old_known k x : K Old k x = true -> exists p o, on_path rs0 c0 p /\ located root (fst p) (snd p) /\ In o (c_options (snd p)) /\ In x (o_strings o) /\ 3 <= List.length x.
Proof.
  intros H. apply (known_iff root Hb Hd rs0 c0 Hl0) in H as (p & o & Hp & Ho & Hx & _ & Hst).
  destruct (path_option_shape root Hb Hd rs0 c0 p o x Hl0 Hp Ho Hx) as (Hs & _ & Hl). exists p, o. split; [exact Hp |]. split; [exact Hl |].
  split; [exact Ho |]. split; [exact Hx |].
  destruct Hs as [(d & Hdd & -> & _) | [(y & _ & -> & _) | (d & e & y & _ & -> & _)]]; [| discriminate Hst | cbn; lia].
  cbn [style_of] in Hst. rewrite (proj2 (N.eqb_neq d DASH) Hdd) in Hst. discriminate.
Qed.
Lemma zread_together cs given w : together anywhere (rs, c) n cs given w -> cs <> [] ->
  (forall rs c o x, located root rs c -> In o (c_options c) -> In x (o_strings o) -> 3 <= List.length x ->
    DASH :: cs <> x /\ ~ is_prefix (x ++ [EQ]) (DASH :: cs)) ->
  zseparate (DASH :: cs) /\ zread (DASH :: cs) = (given, w).
Proof.
  intros H Hn Hno. pose proof (zread_short_spec cs given w H) as Hs.
  destruct (together_first cs given w H Hn) as (d & cs' & -> & Hdd & Hhd & Hm).
  split; [apply zseparate_dash; now right |]. unfold zread. rewrite old_start by exact Hdd.
  unfold zread_dash. rewrite Hm. cbn [tl]. destruct (m_old m); [| exact Hs].
  unfold zread_old. pose proof (split_eq_inv (DASH :: d :: cs')) as Hsp. destruct (split_eq (DASH :: d :: cs')) as [[x t] |].
  - destruct Hsp as [E Hx]. destruct (K Old ArgRequired x || K Old ArgOptional x) eqn:Ek; [| exact Hs]. exfalso.
    apply orb_prop in Ek. assert (exists p o, located root (fst p) (snd p) /\ In o (c_options (snd p)) /\ In x (o_strings o) /\ 3 <= List.length x) as (p & o & Hl & Ho & Hxo & L).
    { destruct Ek as [Ek | Ek]; apply old_known in Ek as (p & o & _ & H1 & H2 & H3 & H4); exists p, o; auto. }
    apply (proj2 (Hno _ _ o x Hl Ho Hxo L)). exists t. rewrite E. now rewrite <- app_assoc.
  - assert (Q : forall k, K Old k (DASH :: d :: cs') = false).
    { intros k. destruct (K Old k (DASH :: d :: cs')) eqn:Ek; [| reflexivity]. exfalso. apply old_known in Ek as (p & o & _ & Hl & Ho & Hxo & L).
      now apply (proj1 (Hno _ _ o _ Hl Ho Hxo L)). }
    rewrite !Q. exact Hs.
Qed.
End Word.

Section Loop.
Context (unquote : str -> str).
Notation loop := (zquery_loop unquote m K).
Lemma loop_read acc opts w rest : zseparate (unquote w) ->
  loop acc opts (w :: rest) =
  let (l, waiting) := zread (unquote w) in
  match waiting with
  | None => loop acc (opts ++ l) rest
  | Some x => match rest with
              | v :: rest' => loop acc (opts ++ l ++ [(x, unquote v)]) rest'
              | [] => MkQuery acc (opts ++ l)
              end
  end.
Proof. intros (S1 & S2). cbn [zquery_loop]. rewrite S1, S2. unfold zread. reflexivity. Qed.
Lemma loop_word acc opts w rest : ~ option_like (unquote w) -> loop acc opts (w :: rest) = loop (acc ++ [unquote w]) opts rest.
Proof.
  intros H. cbn [zquery_loop]. destruct (str_eqb_spec (unquote w) (s "--")) as [E | Hn2]; [exfalso; apply H; rewrite E; now exists DASH, [] |].
  destruct (starts_with (s "-") (unquote w) && (2 <=? List.length (unquote w))) eqn:E; [exfalso | reflexivity].
  apply andb_prop in E as [E1 E2]. apply starts_eq in E1 as (t & E1). rewrite E1 in *. change (s "-") with [DASH] in *. cbn [app List.length] in E2.
  destruct t as [| d t]; [discriminate E2 |]. apply H. now exists d, t.
Qed.
Lemma loop_grows : forall k ws acc opts, List.length ws <= k -> exists more, q_positionals (loop acc opts ws) = acc ++ more.
Proof.
  induction k as [| k IH]; intros [| w rest] acc opts L; cbn [List.length] in L; try lia; cbn [zquery_loop q_positionals]; try (now exists []; rewrite app_nil_r).
  destruct (str_eqb _ _); [now exists rest |]. destruct (_ && _).
  - destruct (if starts_with _ _ then _ else _) as [l [x |]].
    + destruct rest as [| v rest']; [exists []; now rewrite app_nil_r |]. apply IH. cbn [List.length] in L. lia.
    + apply IH. lia.
  - destruct (IH rest (acc ++ [unquote w]) opts) as (more & E); [lia |]. exists (unquote w :: more). rewrite E. now rewrite <- app_assoc.
Qed.

Notation total := (taken_n (c0 :: rs0)).
(** what the loop finds, at least the first words and, without a sub-command, everything *)
Definition right (q : query) (positionals : list str) (options : list (str * str)) : Prop :=
  firstn total (q_positionals q) = firstn total positionals /\
  ((forall sub, In sub (subs c0) -> ~ leads positionals (c0 :: rs0) sub) -> q = MkQuery positionals options).

Lemma on_path_located rs c : on_path rs0 c0 (rs, c) -> located root rs c.
Proof. intros [E | Hp]; [now injection E as -> -> | exact (ancestors_located root rs0 c0 (rs, c) Hl0 Hp)]. Qed.
Theorem loop_right here n ws ps given e : typed anywhere here n ws ps given e ->
  forall raw acc opts, ws = map unquote raw ->
  (In (s "--") ws -> forall w, In w raw -> unquote w = w) ->
  unmistakable root ws ->
  on_path rs0 c0 here -> List.length acc = taken_n (fst here) + n ->
  (c_subcommands (snd here) = None \/ (Z.of_nat n < consumed (snd here))%Z) ->
  leads (acc ++ ps) rs0 c0 ->
  right (loop acc opts raw) (acc ++ ps) (opts ++ given).
Proof.
  intros H. induction H as [[rs c] n | [rs c] n ws | [rs c] n x o ws ps given e Hk H3 A H IH | [rs c] n x o t ws ps given e Hk H3 A H IH
    | [rs c] n x o t ws ps given e Hk H3 A H IH | [rs c] n x o Hk H3 A | [rs c] n cs given0 ws ps given e Hn Ht Hno H IH
    | [rs c] n cs given0 x t ws ps given e Ht Hno H IH | [rs c] n cs given0 x Ht Hno
    | rs c n w ws ps given e Hw Hn H IH | rs c n sub w ws ps given e Hw Hn Hs Hx H IH]; intros raw acc opts Hr Hdd Hum Hp HL Hbe Hle; cbn [fst snd] in *.
  - destruct raw; [| discriminate Hr]. cbn [zquery_loop]. rewrite !app_nil_r. now split.
  - destruct raw as [| w raw]; [discriminate Hr |]. injection Hr as Ew Er. cbn [zquery_loop].
    rewrite <- Ew. change (str_eqb (s "--") (s "--")) with true. cbn iota.
    assert (Eq : ws = raw).
    { rewrite Er. transitivity (map (fun x => x) raw); [| apply map_id]. apply map_ext_in. intros y Hy. apply Hdd; [now left | now right]. }
    rewrite app_nil_r, Eq. now split.
  - destruct raw as [| w raw]; [discriminate Hr |]. injection Hr as Ew Er. destruct (zread_word rs c n Hp x o Hk H3) as [Hs Hrd].
    rewrite Ew in Hs. rewrite (loop_read acc opts w raw Hs), <- Ew, Hrd.
    replace ((x, []) :: given) with ([(x, [])] ++ given) by reflexivity. rewrite app_assoc.
    assert (Hum' : unmistakable root ws) by (intros cs he k g wt Q; apply Hum; now right).
    destruct (arg_kind o); [| now destruct A |]; (apply IH; auto; [intros Q v Hv; apply Hdd; now right]).
  - destruct raw as [| w raw]; [discriminate Hr |]. injection Hr as Ew Er. destruct (zread_attached rs c n Hp x o t Hk H3 A) as [Hs Hrd].
    change (x ++ EQ :: t = unquote w) in Ew. change (x ++ [EQ] ++ t) with (x ++ EQ :: t) in *.
    rewrite Ew in Hs. rewrite (loop_read acc opts w raw Hs), <- Ew, Hrd.
    replace ((x, t) :: given) with ([(x, t)] ++ given) by reflexivity. rewrite app_assoc.
    apply IH; auto; [intros Q v Hv; apply Hdd; now right | intros cs he k g wt Q; apply Hum; now right].
  - destruct raw as [| w [| v raw]]; [discriminate Hr | discriminate Hr |]. injection Hr as Ew Ev Er. destruct (zread_word rs c n Hp x o Hk H3) as [Hs Hrd].
    rewrite Ew in Hs. rewrite (loop_read acc opts w _ Hs), <- Ew, Hrd, A. cbn [app].
    replace ((x, t) :: given) with ([(x, t)] ++ given) by reflexivity. rewrite app_assoc, <- Ev.
    apply IH; auto; [intros Q u Hu; apply Hdd; right; now right | intros cs he k g wt Q; apply Hum; right; now right].
  - destruct raw as [| w [| v raw]]; [discriminate Hr | | discriminate Hr]. injection Hr as Ew. destruct (zread_word rs c n Hp x o Hk H3) as [Hs Hrd].
    rewrite Ew in Hs. rewrite (loop_read acc opts w _ Hs), <- Ew, Hrd, A. rewrite !app_nil_r. now split.
  - destruct raw as [| w raw]; [discriminate Hr |]. injection Hr as Ew Er. change (DASH :: cs = unquote w) in Ew.
    destruct (zread_together rs c n Hp cs given0 None Ht Hn (Hum cs (rs, c) n given0 None (or_introl eq_refl) (on_path_located rs c Hp) Ht Hno)) as [Hs Hrd].
    rewrite Ew in Hs. rewrite (loop_read acc opts w _ Hs), <- Ew, Hrd. rewrite app_assoc.
    apply IH; auto; [intros Q v Hv; apply Hdd; now right | intros cs' he k g wt Q; apply Hum; now right].
  - assert (Hn : cs <> []) by (intros ->; inversion Ht).
    destruct raw as [| w [| v raw]]; [discriminate Hr | discriminate Hr |]. injection Hr as Ew Ev Er. change (DASH :: cs = unquote w) in Ew.
    destruct (zread_together rs c n Hp cs given0 (Some x) Ht Hn (Hum cs (rs, c) n given0 (Some x) (or_introl eq_refl) (on_path_located rs c Hp) Ht Hno)) as [Hs Hrd].
    rewrite Ew in Hs. rewrite (loop_read acc opts w _ Hs), <- Ew, Hrd, <- Ev.
    replace (opts ++ given0 ++ (x, t) :: given) with ((opts ++ given0 ++ [(x, t)]) ++ given) by now rewrite <- !app_assoc.
    apply IH; auto; [intros Q u Hu; apply Hdd; right; now right | intros cs' he k g wt Q; apply Hum; right; now right].
  - assert (Hn : cs <> []) by (intros ->; inversion Ht).
    destruct raw as [| w [| v raw]]; [discriminate Hr | | discriminate Hr]. injection Hr as Ew. change (DASH :: cs = unquote w) in Ew.
    destruct (zread_together rs c n Hp cs given0 (Some x) Ht Hn (Hum cs (rs, c) n given0 (Some x) (or_introl eq_refl) (on_path_located rs c Hp) Ht Hno)) as [Hs Hrd].
    rewrite Ew in Hs. rewrite (loop_read acc opts w _ Hs), <- Ew, Hrd. rewrite app_nil_r. now split.
  - destruct raw as [| v raw]; [discriminate Hr |]. injection Hr as Ew Er. rewrite Ew in Hw. rewrite (loop_word acc opts v raw Hw), <- Ew.
    replace (acc ++ w :: ps) with ((acc ++ [w]) ++ ps) by now rewrite <- app_assoc.
    apply IH; auto.
    + intros Q u Hu. apply Hdd; now right.
    + intros cs he k g wt Q. apply Hum. now right.
    + rewrite app_length, HL. cbn [List.length fst]. lia.
    + cbn [snd]. destruct Hbe as [Hbe | Hbe]; [now left |]. destruct Hn as [Hn | Hn]; [now left | right; lia].
    + now rewrite <- app_assoc.
  - destruct raw as [| v raw]; [discriminate Hr |]. injection Hr as Ew Er. rewrite Ew in Hw. rewrite (loop_word acc opts v raw Hw), <- Ew.
    pose proof (taken_cons c rs) as T. pose proof (sum_nonneg rs) as N0.
    assert (T0 : Z.of_nat (taken_n rs) = sum (map consumed rs)) by (unfold taken_n; lia).
    assert (Hnth : nth (taken_n (c :: rs) - 1) (acc ++ w :: ps) [] = w).
    { replace (taken_n (c :: rs) - 1) with (List.length acc) by lia. rewrite app_nth2 by lia. now rewrite Nat.sub_diag. }
    assert (HL' : List.length (acc ++ [w]) = taken_n (c :: rs)) by (rewrite app_length; cbn [List.length]; lia).
    destruct Hp as [E | Hp].
    + injection E as -> ->. split.
      * destruct (loop_grows _ raw (acc ++ [w]) opts (le_n _)) as (more & Em). rewrite Em.
        replace (acc ++ w :: ps) with ((acc ++ [w]) ++ ps) by now rewrite <- app_assoc.
        rewrite !firstn_app, HL', Nat.sub_diag. reflexivity.
      * intros Q. exfalso. apply (Q sub Hs). cbn [leads]. split; [exact Hle |]. now rewrite Hnth.
    + assert (Hlc : located root rs c) by exact (path_located root rs0 c0 (rs, c) Hl0 (or_intror Hp)).
      destruct (next_on_path root (acc ++ w :: ps) rs0 c0 rs c Hl0 Hle Hp) as (d & D1 & D2 & D3). rewrite Hnth in D2.
      assert (d = sub) as -> by exact (clear_unique root Hd rs c d sub w Hlc D1 Hs D2 Hx).
      replace (acc ++ w :: ps) with ((acc ++ [w]) ++ ps) by now rewrite <- app_assoc.
      apply IH; auto.
      * intros Q u Hu. apply Hdd; now right.
      * intros cs he k g wt Q. apply Hum. now right.
      * cbn [fst]. lia.
      * right. cbn [snd]. pose proof (consumed_pos sub). lia.
      * now rewrite <- app_assoc.
Qed.
End Loop.
End Main.

(** ** The function that completes *)
Section Completing.
Context (unquote : str -> str) (root : cmd) (Hb : built root) (Hd : clear_definition root).

Fixpoint case_of (f : cmd -> res (list cmd * cmd)) (default : list cmd * cmd) (c : cmd) (w : str) (l : list cmd) : res (list cmd * cmd) :=
  match l with
  | [] => Ok default
  | sub :: l' => do cmds <- get_all_command_variations sub (Some c); if mems w cmds then f sub else case_of f default c w l'
  end.
Lemma completing_eq rs c words : completing unquote root rs c words =
  match c_subcommands c with
  | None => Ok (rs, c)
  | Some l => case_of (fun sub => completing unquote root (c :: rs) sub words) (rs, c) c
                (get_positional (zquery unquote root rs c words) (positional_index rs (subcommands_number c) + 1)) l
  end.
Proof.
  destruct c as [x1 x2 x3 x4 x5 x6 x7 x8 x9 [l |]]; [| reflexivity]. cbn [completing c_subcommands].
  set (w := get_positional _ _). clearbody w. set (c := Cmd _ _ _ _ _ _ _ _ _ (Some l)). clearbody c.
  induction l as [| sub l IH]; [reflexivity |]. cbn [case_of]. destruct (get_all_command_variations sub (Some c)) as [e | cmds]; [reflexivity |].
  cbn [bind]. destruct (mems w cmds); [reflexivity | exact IH].
Qed.
Lemma zquery_loop_eq rs c words : zquery unquote root rs c words = zquery_loop unquote (get_macros root) (known root rs c) [] [] words.
Proof. reflexivity. Qed.

Lemma selected_leads words rs c : located root rs c -> (selected words rs c <-> leads words rs c).
Proof.
  revert c. induction rs as [| p rs IH]; intros c Hl; [reflexivity |]. cbn [selected leads]. assert (Hp : located root rs p) by now inversion Hl.
  rewrite (IH p Hp). pose proof (taken_step p rs) as T.
  assert (Et : Z.to_nat (taken (p :: rs) - 1) = taken_n (p :: rs) - 1) by (unfold taken, taken_n; lia).
  assert (Ht : (1 <= taken (p :: rs))%Z) by (unfold taken; unfold taken_n in T; lia).
  split; intros [H1 H2]; split; auto.
  - destruct H2 as (w & [_ Hw] & Hn). rewrite Et in Hw. now rewrite (nth_error_nth _ _ [] Hw).
  - eexists. split; [| exact H2]. split; [exact Ht |]. rewrite Et. apply nth_error_nth'.
    destruct (Nat.lt_ge_cases (taken_n (p :: rs) - 1) (List.length words)) as [Q | Q]; [exact Q |]. exfalso.
    rewrite nth_overflow in H2 by exact Q. exact (proj1 (names_clear root Hd rs p c [] Hl H2) eq_refl).
Qed.
Lemma typed_positionals usable here n ws ps given e : typed usable here n ws ps given e -> forall w, In w ps -> In w ws.
Proof.
  intros H. induction H; intros v Hv; try (now destruct Hv); try (right; auto; fail); try (right; right; auto; fail).
  - destruct Hv as [<- | Hv]; [now left | right; auto].
  - destruct Hv as [<- | Hv]; [now left | right; auto].
Qed.
Lemma rstrip_none w : ~ In LF w -> rstrip_p (N.eqb LF) w = w.
Proof.
  intros H. unfold rstrip_p. assert (E : lstrip_p (N.eqb LF) (rev w) = rev w); [| rewrite E; apply rev_involutive].
  destruct (rev w) as [| d l] eqn:E; [reflexivity |]. cbn [lstrip_p]. replace (N.eqb LF d) with false; [reflexivity |].
  symmetry. apply N.eqb_neq. intros <-. apply H. rewrite <- (rev_involutive w), E. cbn [rev]. apply in_or_app. right. now left.
Qed.
Lemma case_none f d c w l : (forall sub, In sub l -> exists cmds, get_all_command_variations sub (Some c) = Ok cmds /\ ~ In w cmds) -> case_of f d c w l = Ok d.
Proof.
  induction l as [| sub l IH]; intros H; [reflexivity |]. cbn [case_of]. destruct (H sub (or_introl eq_refl)) as (cmds & -> & Hn). cbn [bind].
  replace (mems w cmds) with false; [apply IH; intros; apply H; now right |]. symmetry. apply Bool.not_true_iff_false. intros K. apply Hn.
  unfold mems in K. apply existsb_exists in K as (y & Hy & E). apply str_eqb_eq in E as <-. exact Hy.
Qed.
Lemma case_some f d c w l sub : In sub l -> (forall sub', In sub' l -> exists cmds, get_all_command_variations sub' (Some c) = Ok cmds /\ (In w cmds <-> sub' = sub)) ->
  case_of f d c w l = f sub.
Proof.
  induction l as [| a l IH]; intros Hi H; [destruct Hi |]. cbn [case_of]. destruct (H a (or_introl eq_refl)) as (cmds & -> & Hn). cbn [bind].
  destruct (mems w cmds) eqn:E.
  - unfold mems in E. apply existsb_exists in E as (y & Hy & E). apply str_eqb_eq in E as <-. now apply Hn in Hy as ->.
  - destruct Hi as [-> | Hi]; [exfalso | apply IH; [exact Hi | intros; apply H; now right]].
    assert (K : mems w cmds = true); [| congruence]. unfold mems. apply existsb_exists. exists w. split; [now apply Hn | now apply str_eqb_eq].
Qed.

Lemma located_step p rs c : located root (p :: rs) c -> located root rs p /\ In c (subs p).
Proof. intros H. now inversion H. Qed.
Lemma located_first c : located root [] c -> c = root.
Proof. intros H. now inversion H. Qed.

Context (ws raw ps : list str) (given : list (str * str)) (e : bool).
Context (Ht : typed anywhere ([], root) 0 ws ps given e) (Hraw : ws = map unquote raw) (Hum : unmistakable root ws)
  (Hdd : In (s "--") ws -> forall w, In w raw -> unquote w = w) (Hlf : forall w, In w ws -> ~ In LF w).

Lemma zquery_right rs c : located root rs c -> leads ps rs c -> right rs c (zquery unquote root rs c raw) ps given.
Proof.
  intros Hl Hle. rewrite zquery_loop_eq. apply (loop_right root Hb Hd rs c Hl unquote ([], root) 0 ws ps given e Ht raw [] []); auto.
  - now apply root_on_path.
  - right. cbn [snd]. pose proof (consumed_pos root). lia.
Qed.
Lemma nth_firstn (l : list str) : forall k i, i < k -> nth i (firstn k l) [] = nth i l [].
Proof.
  induction l as [| x l IH]; intros [| k] [| i] H; cbn; try lia; auto. apply IH. lia.
Qed.
Lemma selector_word rs c : located root rs c -> leads ps rs c ->
  get_positional (zquery unquote root rs c raw) (positional_index rs (subcommands_number c) + 1) = nth (taken_n (c :: rs) - 1) ps [].
Proof.
  intros Hl Hle. destruct (zquery_right rs c Hl Hle) as [Hf _]. unfold get_positional. rewrite (selector_index root rs c Hl).
  pose proof (taken_cons c rs) as T. pose proof (sum_nonneg rs) as N0. pose proof (consumed_pos c) as N1.
  replace (Z.to_nat (consumed c - 1 + sum (map consumed rs) + 1 - 1)) with (taken_n (c :: rs) - 1) by lia.
  rewrite <- (nth_firstn _ (taken_n (c :: rs))), Hf, nth_firstn by lia. apply rstrip_none, nth_clean.
  intros w Hw. apply Hlf. eapply typed_positionals; eassumption.
Qed.
Lemma variations_of rs c sub w : located root rs c -> In sub (subs c) -> exists cmds, get_all_command_variations sub (Some c) = Ok cmds /\ (In w cmds <-> names c sub w).
Proof.
  intros Hl Hs. assert (Hls : located root (c :: rs) sub) by now constructor.
  destruct (patterns_total root (c :: rs) sub Hls) as (r & Hr). cbn [positional_patterns] in Hr.
  apply bind_ok in Hr as (r0 & _ & Hr). apply bind_ok in Hr as (cmds & Hc & _). exists cmds. split; [exact Hc |].
  apply (variations_spec root Hd rs c sub cmds Hls Hc).
Qed.
Lemma completing_path rs : forall c, located root rs c -> leads ps rs c -> completing unquote root [] root raw = completing unquote root rs c raw.
Proof.
  induction rs as [| p rs IH]; intros c Hl Hle.
  - now rewrite (located_first c Hl).
  - destruct (located_step p rs c Hl) as [Hp Hs]. cbn [leads] in Hle. destruct Hle as [Hle Hn]. rewrite (IH p Hp Hle), (completing_eq rs p raw).
    unfold subs in Hs. destruct (c_subcommands p) as [l |] eqn:El; [| destruct Hs].
    apply (case_some (fun sub => completing unquote root (p :: rs) sub raw)); [exact Hs |]. intros sub Hsub. rewrite (selector_word rs p Hp Hle).
    assert (Hsp : In sub (subs p)) by (unfold subs; now rewrite El). assert (Hcp : In c (subs p)) by (unfold subs; now rewrite El).
    destruct (variations_of rs p sub (nth (taken_n (p :: rs) - 1) ps []) Hp Hsp) as (cmds & Hc & Hiff).
    exists cmds. split; [exact Hc |]. rewrite Hiff. split; [intros Q; exact (clear_unique root Hd rs p sub c _ Hp Hsp Hcp Q Hn) | intros ->; exact Hn].
Qed.
Theorem completing_right rs c : located root rs c -> leads_to ps rs c ->
  completing unquote root [] root raw = Ok (rs, c) /\ zquery unquote root rs c raw = MkQuery ps given.
Proof.
  intros Hl [Hsel Hno]. apply (selected_leads ps rs c Hl) in Hsel.
  assert (Hno' : forall sub, In sub (subs c) -> ~ leads ps (c :: rs) sub).
  { intros sub Hs K. apply (Hno sub Hs). apply selected_leads; [now constructor | exact K]. }
  split; [| exact (proj2 (zquery_right rs c Hl Hsel) Hno')].
  rewrite (completing_path rs c Hl Hsel), completing_eq. destruct (c_subcommands c) as [l |] eqn:El; [| reflexivity].
  apply case_none. intros sub Hs. rewrite (selector_word rs c Hl Hsel). assert (Hsc : In sub (subs c)) by (unfold subs; now rewrite El).
  destruct (variations_of rs c sub (nth (taken_n (c :: rs) - 1) ps []) Hl Hsc) as (cmds & Hc & Hiff).
  exists cmds. split; [exact Hc |]. rewrite Hiff. intros K. apply (Hno' sub Hsc). cbn [leads]. auto.
Qed.
End Completing.
