(** * Proofs about the helper functions that come with crazy-complete. *)
From Coq Require Import Relations ZifyBool.
From Verif Require Import Base Dict PyStr Value StrUtils StrUtilsProofs Preproc SpecPreproc PreprocProofs
  Shell Cli Helpers SpecHelpers HelpersProofs HelpersMore ShippedHelpers.
Open Scope list_scope.

(** ** Replacing a placeholder line by line *)
Section Replace.
Context (F n : str) (HF : F <> []) (HFb : forallb (fun c => negb (is_linebreak c)) F = true)
  (Hnb : forallb (fun c => negb (is_linebreak c)) n = true).

Lemma starts_with_break c l r : is_linebreak c = true ->
  forall G, forallb (fun c => negb (is_linebreak c)) G = true ->
  starts_with G (l ++ c :: r) = starts_with G l /\ (starts_with G l = true -> List.length G <= List.length l).
Proof.
  intros Hc. induction l as [| d l IH]; intros G HG; cbn [app].
  - destruct G as [| g G]; [split; [reflexivity | cbn; lia] |]. cbn [starts_with].
    cbn in HG. apply andb_prop in HG as [Hg _].
    destruct (N.eqb_spec g c) as [-> | _]; [rewrite Hc in Hg; discriminate |].
    split; [reflexivity | discriminate].
  - destruct G as [| g G]; [split; [reflexivity | cbn; lia] |]. cbn [starts_with].
    cbn in HG. apply andb_prop in HG as [_ HG]. destruct (IH G HG) as [E L]. rewrite E.
    split; [reflexivity |]. intros H. apply andb_prop in H as [_ H]. specialize (L H). cbn. lia.
Qed.
Lemma replace_loop_break c r : is_linebreak c = true -> forall l skip, skip <= List.length l ->
  replace_loop F n skip (l ++ c :: r) = replace_loop F n skip l ++ c :: replace_loop F n 0 r.
Proof.
  intros Hc. induction l as [| d l IH]; intros skip Hs.
  - cbn in Hs. assert (skip = 0) as -> by lia. cbn [app replace_loop].
    destruct (starts_with_break c [] r Hc F HFb) as [E _]. cbn [app] in E. rewrite E.
    destruct F; [contradiction | reflexivity].
  - cbn [app replace_loop]. destruct skip as [| k].
    + change (d :: l ++ c :: r) with ((d :: l) ++ c :: r).
      destruct (starts_with_break c (d :: l) r Hc F HFb) as [E L]. rewrite E.
      destruct (starts_with F (d :: l)).
      * specialize (L eq_refl). cbn in L. rewrite IH by lia. now rewrite <- app_assoc.
      * rewrite IH by lia. reflexivity.
    + apply IH. cbn in Hs. lia.
Qed.
Lemma replace_s_break c l r : is_linebreak c = true ->
  replace_s F n (l ++ c :: r) = replace_s F n l ++ c :: replace_s F n r.
Proof. intros Hc. unfold replace_s. apply replace_loop_break; [exact Hc | lia]. Qed.

Lemma replace_loop_free l : forall skip, forallb (fun c => negb (is_linebreak c)) l = true ->
  forallb (fun c => negb (is_linebreak c)) (replace_loop F n skip l) = true.
Proof.
  induction l as [| d l IH]; intros skip H; [reflexivity |].
  cbn in H. apply andb_prop in H as [Hd Hl]. cbn [replace_loop]. destruct skip as [| k]; [| now apply IH].
  destruct (starts_with F (d :: l)).
  - rewrite forallb_app, Hnb. now apply IH.
  - cbn [forallb]. rewrite Hd. now apply IH.
Qed.

Lemma splitlines_aux_word l : forall cur x, forallb (fun c => negb (is_linebreak c)) l = true ->
  splitlines_aux cur (l ++ x) = splitlines_aux (rev l ++ cur) x.
Proof.
  induction l as [| c l IH]; intros cur x H; [reflexivity |].
  cbn in H. apply andb_prop in H as [Hc Hl]. cbn [app splitlines_aux].
  apply negb_true_iff in Hc. rewrite Hc, IH by exact Hl. cbn [rev]. now rewrite <- app_assoc.
Qed.
Lemma split_break x : forallb (fun c => negb (is_linebreak c)) x = true \/
  exists l c r, x = l ++ c :: r /\ forallb (fun c => negb (is_linebreak c)) l = true /\ is_linebreak c = true.
Proof.
  induction x as [| c x [IH | (l & d & r & -> & Hl & Hd)]]; [now left | |].
  - destruct (is_linebreak c) eqn:Hc.
    + right. exists [], c, x. repeat split. exact Hc.
    + left. cbn. now rewrite Hc.
  - destruct (is_linebreak c) eqn:Hc.
    + right. exists [], c, (l ++ d :: r). repeat split. exact Hc.
    + right. exists (c :: l), d, r. split; [reflexivity |]. split; [cbn; now rewrite Hc | exact Hd].
Qed.
Lemma splitlines_last l : forallb (fun c => negb (is_linebreak c)) l = true ->
  splitlines l = match l with [] => [] | _ => [l] end.
Proof.
  intros H. unfold splitlines. rewrite <- (app_nil_r l) at 1. rewrite splitlines_aux_word by exact H.
  rewrite app_nil_r. cbn [splitlines_aux].
  destruct l as [| c l]; [reflexivity |]. rewrite rev_involutive.
  destruct (rev (c :: l)) eqn:E; [| reflexivity]. apply (f_equal (@List.length N)) in E.
  rewrite rev_length in E. discriminate.
Qed.
Definition crlf (c : N) (r : str) : bool := N.eqb c CR && match r with d :: _ => N.eqb d LF | [] => false end.
Lemma splitlines_step l c r : forallb (fun c => negb (is_linebreak c)) l = true -> is_linebreak c = true ->
  splitlines (l ++ c :: r) =
  if crlf c r then (l ++ [c; LF]) :: splitlines (tl r) else (l ++ [c]) :: splitlines r.
Proof.
  intros Hl Hc. unfold splitlines. rewrite splitlines_aux_word by exact Hl. rewrite app_nil_r.
  cbn [splitlines_aux]. rewrite Hc. unfold crlf. destruct r as [| d r].
  - rewrite andb_false_r. cbn [rev]. now rewrite rev_involutive.
  - destruct (N.eqb_spec c CR) as [-> |]; cbn [andb].
    + destruct (N.eqb_spec d LF) as [-> |].
      * cbn [rev tl]. rewrite rev_involutive. now rewrite <- app_assoc.
      * cbn [rev]. now rewrite rev_involutive.
    + cbn [rev]. now rewrite rev_involutive.
Qed.

Lemma replace_nil x : replace_s F n x = [] -> x = [] \/ n = [].
Proof.
  destruct x as [| c x]; [now left |]. unfold replace_s. cbn [replace_loop].
  destruct (starts_with F (c :: x)); [| discriminate]. intros H. apply app_eq_nil in H as [H _]. now right.
Qed.
Lemma crlf_replace c r : n <> [] -> crlf c (replace_s F n r) = crlf c r.
Proof.
  intros Hn. unfold crlf. f_equal. destruct r as [| d r]; [reflexivity |].
  unfold replace_s. cbn [replace_loop]. destruct (starts_with F (d :: r)) eqn:E; [| reflexivity].
  destruct n as [| e n']; [contradiction |]. cbn [app].
  destruct (N.eqb_spec e LF) as [-> | _]; [discriminate Hnb |].
  destruct (N.eqb_spec d LF) as [-> | _]; [| reflexivity].
  destruct F as [| g F']; [contradiction |]. cbn [starts_with] in E. apply andb_prop in E as [E _].
  apply N.eqb_eq in E. subst g. discriminate HFb.
Qed.
Lemma splitlines_replace x : n <> [] ->
  splitlines (replace_s F n x) = map (replace_s F n) (splitlines x).
Proof.
  intros Hn. remember (List.length x) as k eqn:Ek. revert x Ek.
  induction k as [k IH] using lt_wf_ind. intros x ->.
  destruct (split_break x) as [H | (l & c & r & -> & Hl & Hc)].
  - rewrite (splitlines_last x H), splitlines_last by (unfold replace_s; now apply replace_loop_free).
    destruct x as [| c x]; [reflexivity |].
    destruct (replace_s F n (c :: x)) eqn:E; [| now cbn [map]; rewrite E].
    apply replace_nil in E. destruct E as [E | E]; [discriminate | contradiction].
  - rewrite replace_s_break by exact Hc.
    rewrite splitlines_step by (assumption || (unfold replace_s; now apply replace_loop_free)).
    rewrite (splitlines_step l c r Hl Hc), crlf_replace by exact Hn.
    destruct (crlf c r) eqn:Ec.
    + assert (exists r', r = LF :: r') as (r' & ->).
      { unfold crlf in Ec. apply andb_prop in Ec as [_ Ec]. destruct r as [| d r']; [discriminate |].
        apply N.eqb_eq in Ec. subst d. now exists r'. }
      change (LF :: r') with ([] ++ LF :: r'). rewrite (replace_s_break LF [] r' eq_refl).
      cbn [app tl]. cbn [map]. f_equal.
      * change (l ++ [c; LF]) with (l ++ c :: ([] ++ [LF])). rewrite replace_s_break by exact Hc.
        rewrite (replace_s_break LF [] [] eq_refl). reflexivity.
      * apply (IH (List.length r')); [| reflexivity]. rewrite app_length. cbn. lia.
    + cbn [map]. f_equal.
      * rewrite replace_s_break by exact Hc. reflexivity.
      * apply (IH (List.length r)); [| reflexivity]. rewrite app_length. cbn. lia.
Qed.

(** lines of a directive are untouched, other lines stay other lines *)
Lemma contains_none x : forall skip, contains F x = false -> skip = 0 -> replace_loop F n skip x = x.
Proof.
  induction x as [| c x IH]; intros skip H ->; [reflexivity |].
  cbn [contains] in H. apply orb_false_elim in H as [H1 H2]. cbn [replace_loop]. rewrite H1.
  now rewrite IH.
Qed.
Definition is_directive (l : str) : bool :=
  is_dir (s "#ifdef") l || is_dir (s "#else") l || is_dir (s "#endif") l.
Lemma not_hash_directive l : starts_with [HASH] (lstrip_p is_space l) = false -> is_directive l = false.
Proof.
  unfold is_directive, is_dir. destruct (lstrip_p is_space l) as [| c y]; [reflexivity |].
  cbn [starts_with]. rewrite andb_true_r. intros H.
  change (s "#ifdef") with (HASH :: s "ifdef"). change (s "#else") with (HASH :: s "else").
  change (s "#endif") with (HASH :: s "endif"). cbn [starts_with]. rewrite H. reflexivity.
Qed.
Context (Hn1 : exists c n', n = c :: n' /\ is_space c = false /\ c <> HASH)
  (HF1 : forallb (fun c => negb (is_space c)) F = true).
Lemma replace_line l :
  negb (contains F l) || negb (starts_with [HASH] (lstrip_p is_space l)) = true ->
  replace_s F n l = l \/ (is_directive l = false /\ is_directive (replace_s F n l) = false).
Proof.
  intros H. destruct (contains F l) eqn:Ec; [| left; now apply contains_none].
  cbn [negb orb] in H. apply negb_true_iff in H. right. split; [now apply not_hash_directive |].
  apply not_hash_directive. clear Ec. revert H. unfold replace_s. induction l as [| c l IH]; intros H; [reflexivity |].
  cbn [replace_loop]. destruct (starts_with F (c :: l)) eqn:E.
  - destruct Hn1 as (d & n' & -> & Hd & Hh). cbn [app lstrip_p]. rewrite Hd. cbn [starts_with].
    apply N.eqb_neq in Hh. now rewrite N.eqb_sym, Hh.
  - cbn [lstrip_p] in *. destruct (is_space c) eqn:Hs; [now apply IH |]. exact H.
Qed.
End Replace.

Definition similar (l l' : str) : Prop := l' = l \/ (is_directive l = false /\ is_directive l' = false).
Lemma preprocess_similar D ls ls' : Forall2 similar ls ls' -> forall st o o' r,
  preprocess_loop D st o ls = Ok r -> exists r', preprocess_loop D st o' ls' = Ok r'.
Proof.
  induction 1 as [| l l' ls ls' Hl Hls IH]; intros st o o' r H.
  - cbn [preprocess_loop] in *. destruct st; [now eexists | discriminate].
  - destruct Hl as [-> | [H1 H2]].
    + cbn [preprocess_loop] in *.
      destruct (starts_with (s "#ifdef") (lstrip_p is_space l)).
      { destruct (nth_error (split_ws (lstrip_p is_space l)) 1); [| discriminate]. now apply (IH _ o o' r). }
      destruct (starts_with (s "#else") (lstrip_p is_space l)).
      { destruct st; [discriminate |]. now apply (IH _ o o' r). }
      destruct (starts_with (s "#endif") (lstrip_p is_space l)).
      { destruct st; [discriminate |]. now apply (IH _ o o' r). }
      eapply IH. exact H.
    + unfold is_directive, is_dir in H1, H2.
      apply orb_false_elim in H1 as [H1 H1c]. apply orb_false_elim in H1 as [H1a H1b].
      apply orb_false_elim in H2 as [H2 H2c]. apply orb_false_elim in H2 as [H2a H2b].
      cbn [preprocess_loop] in *. rewrite H1a, H1b, H1c in H. rewrite H2a, H2b, H2c.
      eapply IH. exact H.
Qed.

Definition code_check (code : str) : bool :=
  forallb (fun l => negb (contains (s "%FUNCNAME%") l) || negb (starts_with [HASH] (lstrip_p is_space l)))
    (splitlines code) &&
  match preprocess code [] with inr _ => true | inl _ => false end.
Lemma get_code_ok k code name D : code_check code = true -> name <> [] ->
  (forall c, In c name -> is_space c = false /\ c <> HASH) ->
  exists text, get_code k code name D = Ok text.
Proof.
  intros H Hn Hc. unfold code_check in H. apply andb_prop in H as [H1 H2].
  assert (Hok : exists out, preprocess (replace_s (s "%FUNCNAME%") name code) D = Ok out).
  { assert (Hb : exists out, preprocess code D = Ok out).
    { apply preprocess_ok_iff. apply (preprocess_ok_iff code []).
      destruct (preprocess code []) as [e | out]; [discriminate | now exists out]. }
    destruct Hb as (out & Hb). unfold preprocess, bind in Hb |- *.
    destruct (preprocess_loop D [] [] (splitlines code)) as [e | r] eqn:E; [discriminate |].
    rewrite splitlines_replace; [| discriminate | reflexivity | | exact Hn].
    2: { apply forallb_forall. intros c Hi. destruct (Hc c Hi) as [Hs _].
         unfold is_space in Hs. unfold is_linebreak. lia. }
    assert (Hsim : Forall2 similar (splitlines code)
                     (map (replace_s (s "%FUNCNAME%") name) (splitlines code))).
    { clear E. induction (splitlines code) as [| l ls IH]; [constructor |].
      cbn [forallb] in H1. apply andb_prop in H1 as [Hl Hls]. cbn [map].
      constructor; [| now apply IH].
      apply replace_line; try exact Hl; try reflexivity.
      2: { destruct name as [| c name']; [contradiction |]. destruct (Hc c (or_introl eq_refl)) as [Hs Hh].
      exists c, name'. now repeat split. }
      apply forallb_forall. intros c Hi. destruct (Hc c Hi) as [Hs _].
      unfold is_space in Hs. unfold is_linebreak. lia. }
    destruct (preprocess_similar D _ _ Hsim [] [] [] r E) as (r' & ->). now eexists. }
  destruct Hok as (out & Hok). unfold get_code, bind. rewrite Hok. now eexists.
Qed.

(** The same check on the code before [new_function] strips it, quick to compute. *)
Definition fast_strip (x : str) : str := rev' (lstrip_p is_space (rev' (lstrip_p is_space x))).
Lemma fast_strip_eq x : fast_strip x = strip_p is_space x.
Proof. unfold fast_strip, strip_p, rstrip_p, rev'. now rewrite <- !rev_alt. Qed.

(** ** Whole registries *)
Definition registry (fs : list func) (h : helpers) : helpers := fold_left add_function fs h.

Definition helper_nameb (n : str) : bool :=
  match n with [] => false | c :: _ => negb (N.eqb c UND) end && forallb is_word n &&
  negb (contains [UND; UND] n) && negb (is_digit (last n 0%N)).
(** Names, and dependencies on functions registered before or after: [ranks] has the
    functions in an order in which dependencies come first. *)
Fixpoint position (x : str) (l : list str) : nat :=
  match l with [] => 0 | y :: l' => if str_eqb x y then 0 else S (position x l') end.
Definition names_check (order : list str) (l : list (str * list str)) : bool :=
  forallb (fun '(n, deps) =>
    helper_nameb n &&
    forallb (fun d => mems d (map fst l) && helper_nameb d && negb (str_eqb d (s "function")) &&
                      Nat.ltb (position d order) (position n order)) deps) l.
Definition registry_ok (reg : list (str * func)) : Prop :=
  (forall n f, In (n, f) reg -> code_check (f_code f) = true) /\
  exists order, names_check order (map (fun '(n, f) => (n, f_deps f)) reg) = true.
Lemma helper_nameb_ok n : helper_nameb n = true -> helper_name n.
Proof.
  unfold helper_nameb, helper_name. intros H. apply andb_prop in H as [H H4]. apply andb_prop in H as [H H3].
  apply andb_prop in H as [H1 H2]. destruct n as [| c n]; [discriminate |].
  split; [discriminate |]. split; [exact H2 |]. split; [| split].
  - intros (a & b & E). apply negb_true_iff in H3.
    assert (C : contains [UND; UND] (c :: n) = true) by (apply contains_iff; now exists a, b). congruence.
  - intros n' E. injection E as -> _. discriminate H1.
  - intros n' d E. rewrite E, last_last in H4. now apply negb_true_iff in H4.
Qed.
Lemma registry_dep reg order : names_check order (map (fun '(n, f) => (n, f_deps f)) reg) = true ->
  forall n f, In (n, f) reg -> helper_name n /\ forall d, In d (f_deps f) ->
    registered reg d /\ helper_name d /\ d <> s "function" /\ position d order < position n order.
Proof.
  intros H n f Hi. unfold names_check in H. rewrite forallb_forall in H.
  specialize (H (n, f_deps f)). cbn beta iota in H.
  assert (Hm : In (n, f_deps f) (map (fun '(n, f) => (n, f_deps f)) reg)).
  { apply in_map_iff. exists (n, f). now split. }
  specialize (H Hm). apply andb_prop in H as [H1 H2]. split; [now apply helper_nameb_ok |].
  intros d Hd. rewrite forallb_forall in H2. specialize (H2 d Hd).
  apply andb_prop in H2 as [H2 H5]. apply andb_prop in H2 as [H2 H4]. apply andb_prop in H2 as [H2 H3].
  split; [| split; [now apply helper_nameb_ok | split]].
  - apply mems_iff in H2. unfold registered. rewrite map_map in H2.
    erewrite map_ext in H2; [exact H2 |]. now intros [a b].
  - intros ->. apply negb_true_iff in H4. destruct (str_eqb_spec (s "function") (s "function")); congruence.
  - now apply Nat.ltb_lt.
Qed.
Lemma registry_closed reg n : registry_ok reg -> registered reg n ->
  forall m, needs reg n m -> registered reg m /\ ~ cyclic reg m.
Proof.
  intros (_ & order & H) Hr.
  assert (Hdep : forall a b, depends reg a b -> registered reg b /\ position b order < position a order).
  { intros a b (f & E & Hi). apply (dget_In _ str_eqb_spec) in E.
    destruct (registry_dep reg order H a f E) as [_ Hd]. destruct (Hd b Hi) as (A & _ & _ & B). now split. }
  assert (Hcl : forall a b, clos_trans str (depends reg) a b -> position b order < position a order).
  { induction 1 as [a b Hs | a b c _ IH1 _ IH2]; [now apply Hdep | lia]. }
  intros m Hm. split.
  - apply clos_rt_rt1n in Hm. induction Hm as [| x y z Hs _ IH]; [exact Hr |].
    apply IH. now apply (Hdep x y).
  - intros Hc. apply Hcl in Hc. lia.
Qed.
Lemma used_of_registered reg n f : registry_ok reg -> dget str_eqb n reg = Some f ->
  helper_name n /\ code_check (f_code f) = true /\
  forall d, In d (f_deps f) -> helper_name d /\ d <> s "function".
Proof.
  intros (H1 & order & H2) E. apply (dget_In _ str_eqb_spec) in E.
  destruct (registry_dep reg order H2 n f E) as [Hn Hd].
  split; [exact Hn |]. split; [now apply (H1 n) |]. intros d Hi. destruct (Hd d Hi) as (_ & A & B & _). now split.
Qed.

Lemma map_res_total {A B} (f : A -> res B) l : (forall x, In x l -> exists y, f x = Ok y) ->
  exists r, map_res f l = Ok r.
Proof.
  induction l as [| x l IH]; intros H; [now exists [] |]. cbn [map_res].
  destruct (H x (or_introl eq_refl)) as (y & ->). destruct IH as (r & ->); [intros z Hz; apply H; now right |].
  now exists (y :: r).
Qed.

Lemma shipped_total h requests fuel :
  registry_ok (h_functions h) -> h_used h = [] -> h_dynamic h = [] ->
  plain_text (h_prefix h) -> List.length (h_functions h) <= fuel ->
  (forall r ds, In (r, ds) requests -> registered (h_functions h) r) ->
  exists h' blocks, request_all fuel h requests = Ok h' /\ get_used_functions_code h' = Ok blocks /\
    h_functions h' = h_functions h /\ h_prefix h' = h_prefix h /\ h_class h' = h_class h /\
    h_dynamic h' = [] /\
    (forall n, In n (map fst (h_used h')) <-> exists m, In m (map fst requests) /\ needs (h_functions h) m n) /\
    NoDup (map fst (h_used h')).
Proof.
  intros Hreg Hu Hdyn Hp Hf Hr.
  destruct (request_all_total fuel requests h Hf) as (h' & E).
  { intros r ds n Hi Hn. apply (registry_closed _ r Hreg (Hr r ds Hi) n Hn). }
  destruct (request_all_ok fuel requests h h' E) as (F1 & F2 & F3 & F4 & F5 & F6 & (S1 & S2 & S3)).
  rewrite Hu in S1, S2. cbn in S1, S2.
  assert (Hin : forall n, In n (map fst (h_used h')) <-> exists m, In m (map fst requests) /\ needs (h_functions h) m n).
  { intros n. split; intros H0.
    - apply S2 in H0. destruct H0 as [[] | H0]. exact H0.
    - apply S2. now right. }
  clear S2. rename Hin into S2.
  assert (Hreg' : forall n, In n (map fst (h_used h')) -> registered (h_functions h') n).
  { intros n Hn. apply S2 in Hn as (m & Hm & Hmn). apply in_map_iff in Hm as ([m' ds] & <- & Hm).
    rewrite F1. apply (registry_closed _ m' Hreg (Hr m' ds Hm) n Hmn). }
  destruct (map_res_total (fun '(name, defines) => used_code h' name defines) (h_used h')) as (r & Er).
  { intros [n ds] Hi. assert (Hn : In n (map fst (h_used h'))) by (change n with (fst (n, ds)); now apply in_map).
    specialize (Hreg' n Hn). unfold used_code.
    destruct (dget str_eqb n (h_functions h')) as [f |] eqn:Ef;
      [| apply (dget_None _ str_eqb_spec) in Ef; contradiction].
    rewrite F1 in Ef. destruct (used_of_registered _ n f Hreg Ef) as ((N1 & N2 & _) & Hc & _).
    destruct (get_code_ok (h_class h') (f_code f) (get_real_function_name h' n) (h_defines h' ++ ds) Hc) as (t & ->).
    - unfold get_real_function_name. intros C. apply app_eq_nil in C as [_ C]. discriminate C.
    - intros c Hcc. destruct (plain_real h' n c) as (_ & _ & A & B); [now rewrite F2 | exact N2 | exact Hcc |].
      now split.
    - unfold bind. now eexists. }
  exists h', r. split; [exact E |]. split.
  { unfold get_used_functions_code, get_all_dynamic_functions, bind. rewrite Er, F4, Hdyn. cbn [map_res].
    now rewrite app_nil_r. }
  repeat (split; [congruence |]). split; [exact S2 |]. apply S1. constructor.
Qed.

Definition shipped (fs : list func) : Prop := fs = bash_functions \/ fs = fish_functions \/ fs = zsh_functions.
Definition order_of (l : list arguments) : list str :=
  (* the functions without dependencies first, then those that only need them, then the rest *)
  let name (a : arguments) := s (fst (fst a)) in
  let first := filter (fun a : arguments => match snd a with [] => true | _ => false end) l in
  let rest := filter (fun a : arguments => match snd a with [] => false | _ => true end) l in
  map name first ++ map name rest.
Lemma fold_dset_new (l : list func) : forall d : list (str * func),
  NoDup (map fst d ++ map f_name l) ->
  fold_left (fun d f => dset str_eqb (f_name f) f d) l d = d ++ map (fun f => (f_name f, f)) l.
Proof.
  induction l as [| f l IH]; intros d Hn; cbn [fold_left map]; [now rewrite app_nil_r |].
  assert (Hm : dmem str_eqb (f_name f) d = false).
  { apply (dmem_false _ str_eqb_spec). intros Hi. cbn [map] in Hn. apply NoDup_remove_2 in Hn.
    apply Hn, in_or_app. now left. }
  rewrite dset_new by exact Hm. rewrite IH; [now rewrite <- app_assoc |].
  rewrite map_app. cbn [map fst]. now rewrite <- app_assoc.
Qed.
Fixpoint nodupb (l : list str) : bool :=
  match l with [] => true | x :: l' => negb (mems x l') && nodupb l' end.
Lemma nodupb_ok l : nodupb l = true -> NoDup l.
Proof.
  induction l as [| x l IH]; intros H; [constructor |]. cbn in H. apply andb_prop in H as [H1 H2].
  constructor; [| now apply IH]. intros Hi. apply mems_iff in Hi. rewrite Hi in H1. discriminate.
Qed.
Definition arguments_check (l : list arguments) : bool :=
  forallb (fun a : arguments => code_check (fast_strip (s (snd (fst a))))) l &&
  nodupb (map (fun a : arguments => s (fst (fst a))) l) &&
  names_check (order_of l) (map (fun a : arguments => (s (fst (fst a)), map s (snd a))) l).
Lemma arguments_check_ok l h : arguments_check l = true -> h_functions h = [] ->
  registry_ok (h_functions (registry (map fn l) h)) /\
  map fst (h_functions (registry (map fn l) h)) = map f_name (map fn l).
Proof.
  intros H Hh. unfold arguments_check in H. apply andb_prop in H as [H H3]. apply andb_prop in H as [H1 H2].
  assert (E : forall fs h0, h_functions (registry fs h0) =
    fold_left (fun d f => dset str_eqb (f_name f) f d) fs (h_functions h0)).
  { induction fs as [| f fs IH]; intros h0; [reflexivity |]. cbn [registry fold_left].
    change (fold_left add_function fs (add_function h0 f)) with (registry fs (add_function h0 f)).
    rewrite IH. reflexivity. }
  assert (Hnames : map f_name (map fn l) = map (fun a : arguments => s (fst (fst a))) l).
  { rewrite map_map. apply map_ext. now intros [[n c] d]. }
  rewrite E, Hh, fold_dset_new by (cbn [map app]; rewrite Hnames; now apply nodupb_ok).
  cbn [app]. split; [split |].
  - intros n f Hi. apply in_map_iff in Hi as (g & Eg & Hg). injection Eg as <- <-.
    apply in_map_iff in Hg as ([[n c] d] & <- & Ha). rewrite forallb_forall in H1. specialize (H1 _ Ha).
    cbn [fst snd] in H1. rewrite fast_strip_eq in H1. exact H1.
  - exists (order_of l). rewrite !map_map.
    erewrite map_ext; [exact H3 |]. now intros [[n c] d].
  - rewrite !map_map. apply map_ext. now intros f.
Qed.
Lemma shipped_check fs h : shipped fs -> h_functions h = [] ->
  registry_ok (h_functions (registry fs h)) /\
  map fst (h_functions (registry fs h)) = map f_name fs.
Proof.
  intros Hs Hh. destruct Hs as [-> | [-> | ->]]; apply arguments_check_ok; try exact Hh; vm_compute; reflexivity.
Qed.
