(** * Proofs: what combined completers offer. *)
From Verif Require Import Base CommandPath SpecCommandPath CommandPathProofs Combine SpecCombine.
Open Scope list_scope.

Lemma completer_induction (P : completer -> Prop) :
  (forall l, P (Leaf l)) -> (forall f more, P f -> Forall P more -> P (Combine f more)) ->
  (forall d sep dup, P d -> P (ListOf d sep dup)) -> forall c, P c.
Proof.
  intros H1 H2 H3. fix IH 1. intros [l | f more | d sep dup]; [apply H1 | | apply H3, IH].
  apply H2; [apply IH |]. induction more as [| x more IHm]; constructor; [apply IH | exact IHm].
Qed.

Lemma accepted_all more : (fix all l := match l with [] => True | x :: l' => accepted x /\ all l' end) more <-> Forall accepted more.
Proof. induction more as [| x more IH]; [split; auto |]. rewrite Forall_cons_iff, <- IH. reflexivity. Qed.

Lemma has_path_steady o : path_accepted (path o) (path_append o) (path_prepend o) ->
  has_path o = negb (steady (Leaf (LCommand o))).
Proof. destruct o as [p a b]. intros (H1 & H2 & H3 & H4). unfold has_path, posix_path_code. cbn [path path_append path_prepend] in *. destruct p as [[|]|], a as [[|]|], b as [[|]|]; try congruence; reflexivity. Qed.
Lemma steady_path o : steady (Leaf (LCommand o)) = true -> forall x, path_of o x = x.
Proof. destruct o as [[p|] [a|] [b|]]; try discriminate. intros _ x. apply app_nil_r. Qed.
Lemma steady_last c : steady c = true -> path_last c = true.
Proof.
  induction c as [l | f more IHf IHm | d sep dup IHd] using completer_induction; [reflexivity | | exact IHd].
  cbn [steady path_last]. intros [Hf Hm]%andb_true_iff. destruct more as [| x more]; [auto |]. rewrite Hf. cbn [andb]. clear Hf IHf.
  revert x Hm IHm. induction more as [| y more IH]; intros x Hm IHm; cbn [forallb] in Hm; apply andb_true_iff in Hm as [Hx Hm].
  - inversion IHm; auto.
  - rewrite Hx. cbn [andb]. apply IH; [exact Hm | now inversion IHm].
Qed.

Section Run.
Variable offer : leaf -> str -> str -> list str.
Variable cut : str -> str -> str.
Variable as_list : bool -> str -> str -> list str -> list str.
Notation offers := (offers offer cut as_list).
Notation step := (step offer cut as_list).
Notation run := (run offer cut as_list).

Lemma run_app a b st : run (a ++ b) st = run b (run a st).
Proof. apply fold_left_app. Qed.
Lemma run_cons x b st : run (x :: b) st = run b (step st x).
Proof. reflexivity. Qed.

(** what the code of a completer does to the variables *)
Definition right (append : bool) (c : completer) (st st' : state) : Prop :=
  reply st' = (if append then reply st else []) ++ offers (search st) (word st) c /\
  word st' = word st /\
  (saves append c = false -> reply_old st' = reply_old st) /\
  (has_list c = false -> word_old st' = word_old st) /\
  (steady c = true -> search st' = search st).

Lemma leaf_right append l st : accepted (Leaf l) -> (append = true \/ speaks (Leaf l) = true \/ reply st = []) ->
  right append (Leaf l) st (run (get_commands append (leaf_object l)) st).
Proof.
  destruct st as [r ro w wo p]. intros Ha Hr. unfold right. cbn [reply reply_old word word_old search].
  destruct l as [values | args | o | args | [| c code]].
  - cbn. repeat split; auto.
  - cbn. repeat split; auto.
  - cbn [leaf_object get_commands]. cbn [accepted] in Ha. pose proof (has_path_steady o Ha) as E. rewrite E. destruct (steady (Leaf (LCommand o))) eqn:Es; cbn [negb app].
    + cbn. rewrite (steady_path o Es). repeat split; auto.
    + cbn. repeat split; auto. discriminate.
  - destruct append; cbn; repeat split; auto; discriminate.
  - cbn. destruct Hr as [-> | [Hr | Hr]]; [| discriminate |]; [| cbn in Hr; subst r; destruct append]; repeat split; auto using app_nil_r; now rewrite app_nil_r.
  - destruct append; cbn; repeat split; auto; discriminate.
Qed.
Definition all_right (c : completer) : Prop := forall append st, accepted c -> apart append c = true -> path_last c = true ->
  (append = true \/ speaks c = true \/ reply st = []) -> right append c st (run (get_commands append (object_of c)) st).
Definition last_of : list completer -> bool :=
  fix go l := match l with [] => true | [x] => path_last x | x :: l' => steady x && go l' end.
Lemma last_cons x y l : last_of (x :: y :: l) = steady x && last_of (y :: l).
Proof. reflexivity. Qed.

Lemma more_right more : Forall all_right more -> forall st, Forall accepted more -> forallb (apart true) more = true -> last_of more = true ->
  let st' := run (flat_map (get_commands true) (map object_of more)) st in
  reply st' = reply st ++ flat_map (offers (search st) (word st)) more /\
  word st' = word st /\
  (existsb (saves true) more = false -> reply_old st' = reply_old st) /\
  (existsb has_list more = false -> word_old st' = word_old st) /\
  (forallb steady more = true -> search st' = search st).
Proof.
  induction more as [| x more IH]; intros HP st Ha Hs Hl st'; [subst st'; cbn; rewrite app_nil_r; auto |].
  inversion HP as [| ? ? Px Pm]; subst. inversion Ha as [| ? ? Ax Am]; subst. cbn [forallb] in Hs. apply andb_true_iff in Hs as [Sx Sm].
  subst st'. cbn [map flat_map]. rewrite run_app.
  destruct more as [| y more].
  - cbn [map flat_map run fold_left]. destruct (Px true st Ax Sx Hl (or_introl eq_refl)) as (R1 & R2 & R3 & R4 & R5).
    cbn [flat_map existsb forallb]. rewrite app_nil_r, !orb_false_r, andb_true_r. auto.
  - rewrite last_cons in Hl. apply andb_true_iff in Hl as [Lx Ll].
    destruct (Px true st Ax Sx (steady_last x Lx) (or_introl eq_refl)) as (R1 & R2 & R3 & R4 & R5).
    specialize (IH Pm (run (get_commands true (object_of x)) st) Am Sm Ll). cbv zeta in IH. destruct IH as (Q1 & Q2 & Q3 & Q4 & Q5).
    rewrite Q1, R1, R2, (R5 Lx), <- app_assoc. cbn [flat_map]. split; [reflexivity |]. split; [congruence |].
    cbn [existsb forallb]. split; [| split].
    + intros [H1 H2]%orb_false_iff. rewrite Q3 by exact H2. auto.
    + intros [H1 H2]%orb_false_iff. rewrite Q4 by exact H2. auto.
    + intros [H1 H2]%andb_true_iff. rewrite Q5 by exact H2. auto.
Qed.

Lemma completer_right c : all_right c.
Proof.
  induction c as [l | f more IHf IHm | d sep dup IHd] using completer_induction; intros append st Ha Hs Hl Hr.
  - now apply leaf_right.
  - cbn [accepted] in Ha. destruct Ha as [Af Am]. apply (proj1 (accepted_all more)) in Am.
    cbn [apart] in Hs. apply andb_true_iff in Hs as [Sf Sm].
    cbn [object_of get_commands]. rewrite run_app.
    assert (path_last f = true /\ last_of more = true /\ (more = [] \/ steady f = true)) as (Lf & Lm & Lc).
    { cbn [path_last] in Hl. destruct more as [| x more]; [auto |]. apply andb_true_iff in Hl as [H1 H2]. split; [now apply steady_last |]. auto. }
    destruct (IHf append st Af Sf Lf Hr) as (R1 & R2 & R3 & R4 & R5).
    destruct (more_right more IHm (run (get_commands append (object_of f)) st) Am Sm Lm) as (Q1 & Q2 & Q3 & Q4 & Q5).
    unfold right. rewrite Q1, R1, R2. split; [| split; [congruence |]].
    + cbn [SpecCombine.offers]. rewrite <- app_assoc. do 2 f_equal. destruct Lc as [-> | Lc]; [reflexivity |]. now rewrite (R5 Lc).
    + cbn [saves has_list steady]. split; [| split].
      * intros [H1 H2]%orb_false_iff. rewrite Q3 by exact H2. auto.
      * intros [H1 H2]%orb_false_iff. rewrite Q4 by exact H2. auto.
      * intros [H1 H2]%andb_true_iff. rewrite Q5 by exact H2. auto.
  - cbn [apart] in Hs. apply andb_true_iff in Hs as [[Sd Sn]%andb_true_iff Sa]. apply negb_true_iff in Sn.
    set (inner := get_commands false (object_of d)).
    assert (forall st, speaks d = true \/ reply st = [] ->
      let st' := run ([CutCur sep] ++ inner ++ [RestoreCur; AsList dup sep]) st in
      reply st' = offers (search st) (word st) (ListOf d sep dup) /\ word st' = word st /\
      (saves false d = false -> reply_old st' = reply_old st) /\ (steady d = true -> search st' = search st)) as K.
    { clear st Hr. intros st Hr. cbv zeta. rewrite !run_app, run_cons. cbn [SpecCombine.run fold_left].
      destruct st as [r ro w wo p]. cbn [SpecCombine.step reply search word reply_old].
      destruct (IHd false (State r ro (cut sep w) w p) Ha Sd Hl (or_intror Hr)) as (R1 & R2 & R3 & R4 & R5). fold inner in R1, R2, R3, R4, R5.
      cbn [reply search word reply_old word_old app] in *.
      destruct (SpecCombine.run offer cut as_list inner (State r ro (cut sep w) w p)) as [r' ro' w' wo' p'] eqn:E.
      cbn [reply search word reply_old word_old SpecCombine.step fold_left] in *. rewrite (R4 Sn), R1. auto. }
    unfold right. destruct append.
    + cbn [negb orb] in Sa. apply andb_true_iff in Sa as [Sv Sp]. apply negb_true_iff in Sv.
      cbn [object_of get_commands app]. rewrite run_cons, app_comm_cons, run_app.
      destruct st as [r ro w wo p]. cbn [SpecCombine.step].
      destruct (K (State r r w wo p) (or_introl Sp)) as (K1 & K2 & K3 & K4). specialize (K3 Sv). cbn [reply search word reply_old word_old app] in *.
      fold inner. destruct (SpecCombine.run offer cut as_list (CutCur sep :: inner ++ [RestoreCur; AsList dup sep]) (State r r w wo p)) as [r' ro' w' wo' p'] eqn:E.
      cbn [reply search word reply_old word_old SpecCombine.step SpecCombine.run fold_left] in *. subst. cbn [saves has_list steady orb].
      repeat split; auto; discriminate.
    + destruct (K st) as (K1 & K2 & K3 & K4); [destruct Hr as [Hr | Hr]; [discriminate | exact Hr] |].
      cbn [object_of get_commands]. fold inner. cbn [app] in *. rewrite app_nil_r. cbn [saves has_list steady orb].
      repeat split; auto. discriminate.
Qed.

Theorem bash_right c search word : accepted c -> apart false c = true -> path_last c = true ->
  bash_offers offer cut as_list c search word = offers search word c.
Proof. intros Ha Hs Hl. unfold bash_offers. apply (completer_right c false (at_start search word) Ha Hs Hl). auto. Qed.

(** ** fish *)
Notation print_line := (print_line offer cut as_list).
Definition steady_line (x : fish_line) : bool := match x with FSetPath _ => false | _ => true end.
Lemma sequence_app word a b search : forallb steady_line a = true ->
  sequence (print_line word) search (a ++ b) = sequence (print_line word) search a ++ sequence (print_line word) search b.
Proof.
  induction a as [| x a IH]; intros H; [reflexivity |]. cbn [forallb] in H. apply andb_true_iff in H as [Hx Ha].
  destruct x; [discriminate | |]; cbn [app SpecCombine.sequence SpecCombine.print_line]; rewrite IH by exact Ha; now rewrite app_assoc.
Qed.
Lemma fish_has_path o : path_accepted (path o) (path_append o) (path_prepend o) ->
  match fish_path_code o with Some _ => steady (Leaf (LCommand o)) = false | None => steady (Leaf (LCommand o)) = true end.
Proof. destruct o as [p a b]. intros (H1 & H2 & H3 & H4). unfold fish_path_code. cbn [path path_append path_prepend] in *. destruct p as [[|]|], a as [[|]|], b as [[|]|]; try congruence; reflexivity. Qed.
Lemma steady_lines c : accepted c -> steady c = true -> forallb steady_line (fish_lines c) = true.
Proof.
  induction c as [l | f more IHf IHm | d sep dup IHd] using completer_induction; intros Ha Hs; [| | reflexivity].
  - destruct l as [| | o | | []]; try reflexivity. cbn [fish_lines]. pose proof (fish_has_path o Ha) as E. destruct (fish_path_code o); [congruence | reflexivity].
  - cbn [accepted] in Ha. destruct Ha as [Af Am]. apply (proj1 (accepted_all more)) in Am. cbn [steady] in Hs. apply andb_true_iff in Hs as [Sf Sm].
    cbn [fish_lines]. rewrite forallb_app, IHf by assumption. cbn [andb]. induction more as [| x more IH]; [reflexivity |].
    inversion IHm; inversion Am; subst. cbn [forallb] in Sm. apply andb_true_iff in Sm as [Sx Sm]. cbn [flat_map]. rewrite forallb_app. rewrite H1 by assumption. now apply IH.
Qed.
Lemma fish_completer c : accepted c -> path_last c = true -> forall word search,
  sequence (print_line word) search (fish_lines c) = offers search word c.
Proof.
  induction c as [l | f more IHf IHm | d sep dup IHd] using completer_induction; intros Ha Hl word search.
  - destruct l as [| | o | | []]; cbn; rewrite ?app_nil_r; try reflexivity. cbn [accepted] in Ha. pose proof (fish_has_path o Ha) as E.
    destruct (fish_path_code o); cbn; rewrite app_nil_r; [reflexivity |]. now rewrite (steady_path o E).
  - cbn [accepted] in Ha. destruct Ha as [Af Am]. apply (proj1 (accepted_all more)) in Am. cbn [fish_lines SpecCombine.offers].
    assert (forall more, Forall (fun c => accepted c -> path_last c = true -> forall word search, sequence (print_line word) search (fish_lines c) = offers search word c) more ->
      Forall accepted more -> last_of more = true -> sequence (print_line word) search (flat_map fish_lines more) = flat_map (offers search word) more) as K.
    { clear. intros more. induction more as [| x more IH]; intros HP Am Hl; [reflexivity |]. inversion HP; inversion Am; subst. cbn [flat_map].
      destruct more as [| y more]; [cbn [flat_map]; rewrite !app_nil_r; auto |]. rewrite last_cons in Hl. apply andb_true_iff in Hl as [Lx Ll].
      rewrite sequence_app by now apply steady_lines. rewrite H1 by auto using steady_last. f_equal. now apply IH. }
    cbn [path_last] in Hl. destruct more as [| x more].
    + cbn [flat_map]. rewrite !app_nil_r. now apply IHf.
    + apply andb_true_iff in Hl as [Lf Lm]. rewrite sequence_app by now apply steady_lines. rewrite IHf by auto using steady_last. f_equal. now apply K.
  - cbn [fish_lines SpecCombine.sequence SpecCombine.print_line SpecCombine.offers]. rewrite app_nil_r. f_equal. now apply IHd.
Qed.
Theorem fish_right c search word : accepted c -> path_last c = true -> fish_offers offer cut as_list c search word = offers search word c.
Proof. intros Ha Hl. now apply fish_completer. Qed.
End Run.
