(** * Proofs about the names and the code of helper functions. *)
From Coq Require Import Relations ZifyBool.
From Verif Require Import Base Dict PyStr Value StrUtils StrUtilsProofs Preproc Shell ShellProofs Cli
  Helpers SpecHelpers HelpersProofs.
From Verif Require CliProofs DictSourceProofs.
Open Scope list_scope.

(** ** Names of generated functions *)
Definition candidate (base : str) (k : nat) : str :=
  match k with O => base | S k => base ++ show_nat k end.
Lemma candidate_inj base a b : candidate base a = candidate base b -> a = b.
Proof.
  destruct a as [| a], b as [| b]; cbn [candidate]; intros H.
  - reflexivity.
  - rewrite <- (app_nil_r base) in H at 1. apply app_inv_head in H. exfalso.
    apply (show_nat_nonempty b). now symmetry.
  - rewrite <- (app_nil_r base) in H at 2. apply app_inv_head in H. exfalso.
    now apply (show_nat_nonempty a).
  - apply app_inv_head, show_nat_inj in H. now rewrite H.
Qed.
Lemma mems_iff x l : mems x l = true <-> In x l.
Proof.
  unfold mems. rewrite existsb_exists. split.
  - intros (y & Hy & E). destruct (str_eqb_spec x y); [now subst | discriminate].
  - intros H. exists x. split; [exact H |]. now destruct (str_eqb_spec x x).
Qed.
Lemma free_name_ok names base fuel : forall k,
  (forall j, j < k -> In (candidate base j) names) ->
  List.length names < k + fuel ->
  exists j, free_name fuel names base (candidate base k) k = Ok (candidate base j) /\
    ~ In (candidate base j) names.
Proof.
  assert (Hpig : forall k, (forall j, j < k -> In (candidate base j) names) -> k <= List.length names).
  { intros k H. assert (Hn : NoDup (map (candidate base) (seq 0 k))).
    { apply FinFun.Injective_map_NoDup; [intros a b; apply candidate_inj | apply seq_NoDup]. }
    apply NoDup_incl_length with (l' := names) in Hn.
    - now rewrite map_length, seq_length in Hn.
    - intros x Hx. apply in_map_iff in Hx as (j & <- & Hj). apply H. apply in_seq in Hj. lia. }
  induction fuel as [| fuel IH]; intros k Hk Hl.
  - specialize (Hpig k Hk). lia.
  - cbn [free_name]. destruct (mems (candidate base k) names) eqn:E.
    + apply mems_iff in E. apply (IH (S k)); [| lia].
      intros j Hj. destruct (Nat.eq_dec j k) as [-> | Hne]; [exact E | apply Hk; lia].
    + exists k. split; [reflexivity |]. intros Hi. apply mems_iff in Hi. congruence.
Qed.
Lemma get_dynamic_funcname_ok h base :
  exists j, get_dynamic_funcname h base = Ok (candidate base j) /\
    ~ In (candidate base j) (map snd (h_dynamic h)).
Proof.
  unfold get_dynamic_funcname. apply (free_name_ok _ _ _ 0); [intros j Hj; lia | lia].
Qed.

Definition dyn_wf (h : helpers) : Prop :=
  NoDup (map fst (h_dynamic h)) /\ NoDup (map snd (h_dynamic h)).
Lemma candidate_named base j : named_after base (candidate base j).
Proof.
  destruct j as [| j]; [exists []; split; [now rewrite app_nil_r | reflexivity] |].
  exists (show_nat j). split; [reflexivity | apply show_nat_digits].
Qed.
Lemma add_dynamic_ok h base code : dyn_wf h ->
  exists h' name, add_dynamic_func h base code = Ok (h', name) /\ dyn_wf h' /\
    dget str_eqb code (h_dynamic h') = Some name /\
    (forall c n, dget str_eqb c (h_dynamic h) = Some n -> dget str_eqb c (h_dynamic h') = Some n) /\
    (forall c n, dget str_eqb c (h_dynamic h') = Some n ->
       dget str_eqb c (h_dynamic h) = Some n \/ (c = code /\ n = name /\ named_after base n)) /\
    h_used h' = h_used h /\ h_functions h' = h_functions h /\ h_prefix h' = h_prefix h /\
    h_class h' = h_class h.
Proof.
  intros [W1 W2]. unfold add_dynamic_func.
  destruct (dget str_eqb code (h_dynamic h)) as [name |] eqn:E.
  - exists h, name. split; [reflexivity |]. split; [now split |]. split; [exact E |].
    split; [auto |]. split; [auto |]. repeat split.
  - destruct (get_dynamic_funcname_ok h base) as (j & -> & Hf). unfold bind.
    assert (Hm : dmem str_eqb code (h_dynamic h) = false).
    { unfold dmem. now rewrite E. }
    exists (set_dynamic h (dset str_eqb code (candidate base j) (h_dynamic h))), (candidate base j).
    split; [reflexivity |]. cbn [h_dynamic set_dynamic].
    split; [| split; [| split; [| split; [| repeat split]]]].
    + split; cbn [h_dynamic set_dynamic].
      * now apply (dset_NoDup _ str_eqb_spec).
      * rewrite dset_new by exact Hm. rewrite map_app. cbn [map snd].
        apply CliProofs.NoDup_snoc; assumption.
    + apply (dget_dset_same _ str_eqb_spec).
    + intros c n Hc. rewrite (dget_dset_other _ str_eqb_spec); [exact Hc |].
      intros ->. congruence.
    + intros c n Hc. destruct (str_eq_dec code c) as [<- | Hn].
      * rewrite (dget_dset_same _ str_eqb_spec) in Hc. injection Hc as <-.
        right. split; [reflexivity | split; [reflexivity | apply candidate_named]].
      * rewrite (dget_dset_other _ str_eqb_spec) in Hc by exact Hn. now left.
Qed.

Lemma add_all_ok adds : forall h, dyn_wf h ->
  exists h' names, add_all h adds = Ok (h', names) /\ dyn_wf h' /\
    Forall2 (fun a name => dget str_eqb (snd a) (h_dynamic h') = Some name) adds names /\
    (forall c n, dget str_eqb c (h_dynamic h) = Some n -> dget str_eqb c (h_dynamic h') = Some n) /\
    (forall c n, dget str_eqb c (h_dynamic h') = Some n ->
       dget str_eqb c (h_dynamic h) = Some n \/
       exists base, In (base, c) adds /\ named_after base n) /\
    h_used h' = h_used h /\ h_functions h' = h_functions h /\ h_prefix h' = h_prefix h /\
    h_class h' = h_class h.
Proof.
  induction adds as [| [base code] adds IH]; intros h W; cbn [add_all].
  - exists h, []. split; [reflexivity |]. split; [exact W |]. split; [constructor |].
    split; [auto |]. split; [auto |]. repeat split.
  - destruct (add_dynamic_ok h base code W) as (h1 & name & E & W1 & G1 & P1 & Q1 & U1 & F1 & X1 & K1).
    rewrite E. unfold bind.
    destruct (IH h1 W1) as (h2 & names & E2 & W2 & A2 & P2 & Q2 & U2 & F2 & X2 & K2).
    rewrite E2. exists h2, (name :: names). split; [reflexivity |]. split; [exact W2 |].
    split; [constructor; [cbn; now apply P2 | exact A2] |].
    split; [intros c n Hc; apply P2, P1, Hc |].
    split.
    + intros c n Hc. destruct (Q2 c n Hc) as [H | (b & Hi & Hb)].
      * destruct (Q1 c n H) as [H1 | (-> & -> & Hb)]; [now left |].
        right. exists base. split; [now left | exact Hb].
      * right. exists b. split; [now right | exact Hb].
    + repeat split; congruence.
Qed.
Lemma dget_snd_inj (d : list (str * str)) c1 c2 n : NoDup (map snd d) ->
  dget str_eqb c1 d = Some n -> dget str_eqb c2 d = Some n -> c1 = c2.
Proof.
  intros Hn H1 H2. apply (dget_In _ str_eqb_spec) in H1, H2.
  induction d as [| [c m] d IH]; [destruct H1 |]. cbn in Hn. inversion Hn as [| ? ? Hni Hnd]; subst.
  destruct H1 as [H1 | H1], H2 as [H2 | H2].
  - congruence.
  - injection H1 as -> ->. exfalso. apply Hni. change n with (snd (c2, n)). now apply in_map.
  - injection H2 as -> ->. exfalso. apply Hni. change n with (snd (c1, n)). now apply in_map.
  - now apply IH.
Qed.

(** ** Emitted code *)
Lemma map_res_ok {A B} (f : A -> res B) l : forall r, map_res f l = Ok r -> Forall2 (fun x y => f x = Ok y) l r.
Proof.
  induction l as [| x l IH]; intros r H; cbn [map_res] in H.
  - injection H as <-. constructor.
  - unfold bind in H. destruct (f x) as [e | y] eqn:E; [discriminate |].
    destruct (map_res f l) as [e | r'] eqn:E2; [discriminate |]. injection H as <-.
    constructor; [exact E | now apply IH].
Qed.

Lemma split_first h r : ~ In LF h -> split_c LF (h ++ LF :: r) = h :: split_c LF r.
Proof. apply split_c_app. Qed.
Lemma split_none h : ~ In LF h -> split_c LF h = [h].
Proof. apply split_c_word. Qed.
Lemma first_line_lf h r : ~ In LF h -> first_line (h ++ LF :: r) = h.
Proof. intros H. unfold first_line. now rewrite split_first. Qed.
Lemma first_line_none h : ~ In LF h -> first_line h = h.
Proof. intros H. unfold first_line. now rewrite split_none. Qed.

Lemma replace_first old new h r : old <> [] -> (forall c, In c h -> hd_error old <> Some c) ->
  hd_error old <> Some LF ->
  replace_s old new (h ++ LF :: r) = h ++ LF :: replace_s old new r.
Proof.
  intros Ho Hh Hl. unfold replace_s. destruct old as [| o old]; [contradiction |].
  induction h as [| c h IH]; cbn [app replace_loop].
  - cbn [starts_with]. destruct (N.eqb_spec o LF) as [-> | _]; [exfalso; now apply Hl |]. reflexivity.
  - cbn [starts_with]. destruct (N.eqb_spec o c) as [-> | _];
      [exfalso; apply (Hh c); [now left | reflexivity] |].
    cbn [andb]. f_equal. apply IH. intros d Hd. apply Hh. now right.
Qed.

Lemma sdel_first h r : ~ In LF h -> first_line (strip_double_empty_lines (h ++ LF :: r)) = h.
Proof.
  intros Hn.
  assert (H : exists r', strip_double_empty_lines (h ++ LF :: r) = h ++ LF :: r').
  { induction h as [| c h IH].
    - cbn [app]. destruct r as [| b [| c r]]; [now exists [] | now exists [b] |].
      rewrite sdel_step. destruct (N.eqb LF LF && N.eqb b LF && N.eqb c LF)%bool.
      + now eexists.
      + now eexists.
    - destruct IH as (r' & E); [intros Hi; apply Hn; now right |].
      assert (Hc : N.eqb c LF = false) by (apply N.eqb_neq; intros ->; apply Hn; now left).
      destruct (h ++ LF :: r) as [| b [| d t]] eqn:Eh.
      + destruct h; discriminate.
      + exists r. cbn [app]. rewrite Eh.
        assert (h = [] /\ r = [] /\ b = LF) as (-> & -> & ->).
        { destruct h as [| x [| y h]]; cbn in Eh; [injection Eh as <- <-; auto | discriminate | discriminate]. }
        reflexivity.
      + exists r'. cbn [app]. rewrite Eh, sdel_step, Hc. cbn [andb]. now rewrite E. }
  destruct H as (r' & ->). now apply first_line_lf.
Qed.

Lemma strip_comments_first h r : ~ In LF h -> starts_with [HASH] (lstrip_p is_space h) = false ->
  strip_comments (h ++ LF :: r) = h \/ exists r', strip_comments (h ++ LF :: r) = h ++ LF :: r'.
Proof.
  intros Hn Hh. unfold strip_comments. rewrite split_first by exact Hn. cbn [filter]. rewrite Hh.
  cbn [negb]. destruct (filter _ (split_c LF r)) as [| x l].
  - left. reflexivity.
  - right. cbn [join]. eexists. cbn [app]. reflexivity.
Qed.

Lemma Ok_inj {A} (a b : A) : (Ok a : res A) = Ok b -> a = b.
Proof. intros H. now injection H. Qed.

(** the first line survives all the steps *)
Lemma get_code_first k code name defines text : get_code k code name defines = Ok text ->
  exists r, text = header k name ++ LF :: r.
Proof.
  unfold get_code, bind. destruct (preprocess _ _) as [e | c]; [discriminate |].
  intros H. destruct k; apply Ok_inj in H; subst text; eexists.
  - unfold header. rewrite <- app_assoc. reflexivity.
  - unfold header. rewrite <- app_assoc. reflexivity.
Qed.

Definition no_lf_pct (x : str) := forall c, In c x -> c <> LF /\ c <> PERCENT.
Lemma used_code_first h name ds block f :
  dget str_eqb name (h_functions h) = Some f ->
  used_code h name ds = Ok block ->
  let hd := header (h_class h) (get_real_function_name h name) in
  no_lf_pct hd -> starts_with [HASH] (lstrip_p is_space hd) = false ->
  (forall d, In d (f_deps f) -> d <> [] /\ forallb is_word d = true) ->
  (forall d d', In d (f_deps f) -> In d' (f_deps f) -> ~ word_of d (get_real_function_name h d')) ->
  (forall d, In d (f_deps f) -> ~ word_of d hd) ->
  first_line block = hd.
Proof.
  intros Ef H hd Hp Hh Hw Hr Hd. unfold used_code, bind in H. rewrite Ef in H.
  destruct (get_code (h_class h) (f_code f) (get_real_function_name h name) (h_defines h ++ ds))
    as [e | text] eqn:E; [discriminate |].
  apply get_code_first in E as (r & ->). fold hd in H.
  apply Ok_inj in H. subst block.
  rewrite (rename_all (get_real_function_name h)) by assumption.
  assert (E1 : map_words (swaps (get_real_function_name h) (f_deps f)) [] (hd ++ LF :: r) =
               hd ++ LF :: map_words (swaps (get_real_function_name h) (f_deps f)) [] r).
  { rewrite map_words_app by (intros c x' Hx; injection Hx as <- _; reflexivity).
    rewrite map_words_fixed; [reflexivity |].
    intros w Hword. unfold swaps. destruct (in_dec str_eq_dec w (f_deps f)) as [Hi | _]; [| reflexivity].
    exfalso. exact (Hd w Hi Hword). }
  rewrite E1. clear E1. set (r1 := map_words _ [] r).
  rewrite replace_first; [| discriminate | |].
  2: { intros c Hc Hx. destruct (Hp c Hc) as [_ C].
       change (Some PERCENT = Some c) in Hx. congruence. }
  2: { change (Some PERCENT <> Some LF). discriminate. }
  assert (Hnl : ~ In LF hd) by (intros Hi; destruct (Hp LF Hi) as [C _]; congruence).
  destruct (h_keep_comments h).
  - now apply sdel_first.
  - destruct (strip_comments_first hd (replace_s (s "%PREFIX%") (h_prefix h) r1) Hnl Hh) as [-> | (r' & ->)].
    + unfold first_line. clear -Hnl.
      assert (E : strip_double_empty_lines hd = hd).
      { induction hd as [| a hd IH]; [reflexivity |].
        destruct hd as [| b [| c x]]; [reflexivity | reflexivity |].
        rewrite sdel_step.
        assert (Ha : N.eqb a LF = false) by (apply N.eqb_neq; intros ->; apply Hnl; now left).
        rewrite Ha. cbn [andb]. rewrite IH; [reflexivity |]. intros Hi. apply Hnl. now right. }
      rewrite E. now apply first_line_none.
    + now apply sdel_first.
Qed.

(** ** Words of real names *)
Lemma split3 (a w b x y : str) : a ++ w ++ b = x ++ y ->
  (exists b1, x = a ++ w ++ b1 /\ b = b1 ++ y) \/
  (exists a1, a = x ++ a1 /\ y = a1 ++ w ++ b) \/
  (exists w1 w2, w = w1 ++ w2 /\ w1 <> [] /\ w2 <> [] /\ x = a ++ w1 /\ y = w2 ++ b).
Proof.
  intros H. apply app_eq_app in H. destruct H as (l & [[-> E] | [-> E]]).
  - right. left. exists l. now split.
  - apply app_eq_app in E. destruct E as (m & [[-> E] | [-> ->]]).
    + destruct m as [| c m].
      * left. exists []. rewrite app_nil_r. split; [now rewrite app_nil_r | now symmetry].
      * destruct l as [| d l].
        -- right. left. exists []. split; [now rewrite !app_nil_r |]. exact E.
        -- right. right. exists (d :: l), (c :: m). repeat split; try discriminate. exact E.
    + left. exists m. now split.
Qed.
Lemma word_not_plain w b y : w <> [] -> forallb is_word w = true -> y = w ++ b -> starts_plain y -> False.
Proof.
  intros Hn Hw -> Hp. destruct w as [| c w]; [contradiction |].
  cbn in Hw. apply andb_prop in Hw as [Hc _]. specialize (Hp c (w ++ b) eq_refl). congruence.
Qed.
Lemma word_of_app w x y : starts_plain y -> word_of w (x ++ y) -> word_of w x \/ word_of w y.
Proof.
  intros Hp (a & b & E & Hn & Hw & Ha & Hb). symmetry in E. apply split3 in E.
  destruct E as [(b1 & -> & ->) | [(a1 & -> & ->) | (w1 & w2 & -> & H1 & H2 & -> & E)]].
  - left. exists a, b1. repeat (split; [assumption || reflexivity |]). intros c b' ->. now apply (Hb c (b' ++ y)).
  - right. exists a1, b. repeat (split; [assumption || reflexivity |]). split; [| exact Hb].
    intros a' c ->. apply (Ha (x ++ a') c). now rewrite app_assoc.
  - exfalso. rewrite forallb_app in Hw. apply andb_prop in Hw as [_ Hw].
    exact (word_not_plain w2 b y H2 Hw E Hp).
Qed.
Lemma word_of_real w prefix name :
  forallb is_word name = true -> (~ exists a b, w = a ++ [UND; UND] ++ b) ->
  word_of w (prefix ++ s "__" ++ name) -> word_of w prefix.
Proof.
  intros Hname Hd (a & b & E & Hn & Hw & Ha & Hb). symmetry in E. apply split3 in E.
  assert (Hall : forall c, In c (s "__" ++ name) -> is_word c = true).
  { intros c Hc. apply in_app_or in Hc. destruct Hc as [[<- | [<- | []]] | Hc]; [reflexivity | reflexivity |].
    rewrite forallb_forall in Hname. now apply Hname. }
  assert (Hnil : forall p, s "__" ++ name = p ++ b -> b = []).
  { intros p Hp. destruct b as [| c b]; [reflexivity |]. exfalso.
    assert (is_word c = true) by (apply Hall; rewrite Hp; apply in_or_app; right; now left).
    rewrite (Hb c b eq_refl) in H. discriminate. }
  destruct E as [(b1 & -> & ->) | [(a1 & -> & E) | (w1 & w2 & -> & H1 & H2 & -> & E)]].
  - destruct b1 as [| c b1].
    + exfalso. specialize (Hb UND ([UND] ++ name) eq_refl). discriminate Hb.
    + exists a, (c :: b1). repeat (split; [assumption || reflexivity |]).
      intros c' b' E'. injection E' as <- <-. apply (Hb c (b1 ++ s "__" ++ name) eq_refl).
  - exfalso. assert (b = []) as -> by (apply (Hnil (a1 ++ w)); rewrite E; now rewrite <- app_assoc).
    rewrite app_nil_r in E. destruct (list_eq_dec N.eq_dec a1 []) as [-> | Hn1].
    + apply Hd. exists [], name. cbn [app] in E |- *. now rewrite <- E.
    + destruct (exists_last Hn1) as (a2 & c & ->).
      assert (is_word c = true)
        by (apply Hall; rewrite E; apply in_or_app; left; apply in_or_app; right; now left).
      rewrite (Ha (prefix ++ a2) c) in H; [discriminate | now rewrite app_assoc].
  - exfalso. assert (b = []) as -> by (apply (Hnil w2), E).
    rewrite app_nil_r in E. apply Hd. exists w1, name. rewrite <- E. reflexivity.
Qed.

Lemma word_of_header k w prefix name :
  forallb is_word name = true -> (~ exists a b, w = a ++ [UND; UND] ++ b) ->
  (k = FishFunction -> w <> s "function") ->
  word_of w (header k (prefix ++ s "__" ++ name)) -> word_of w prefix.
Proof.
  intros Hname Hd Hf H. destruct k; unfold header in H.
  - apply word_of_app in H; [| intros c x' E; injection E as <- _; reflexivity].
    destruct H as [H | (a & b & E & Hn & Hw & _)]; [now apply (word_of_real w prefix name) |].
    exfalso. destruct w as [| c w]; [contradiction |].
    cbn in Hw. apply andb_prop in Hw as [Hc _].
    assert (Hi : In c (s "() {")) by (rewrite E; apply in_or_app; right; now left).
    repeat (destruct Hi as [Hi | Hi]; [subst c; discriminate Hc |]). destruct Hi.
  - replace (s "function " ++ prefix ++ s "__" ++ name)
      with (s "function" ++ ([SP] ++ prefix ++ s "__" ++ name)) in H by reflexivity.
    apply word_of_app in H; [| intros c x' E; injection E as <- _; reflexivity].
    destruct H as [(a & b & E & Hn & Hw & Ha & Hb) | H].
    + exfalso. apply (Hf eq_refl).
      assert (Hall : forallb is_word (a ++ w ++ b) = true) by (rewrite <- E; reflexivity).
      rewrite !forallb_app in Hall. apply andb_prop in Hall as [Haa Hall]. apply andb_prop in Hall as [_ Hbb].
      assert (a = []) as ->.
      { destruct (list_eq_dec N.eq_dec a []) as [-> | Hna]; [reflexivity |].
        destruct (exists_last Hna) as (a2 & c & ->). rewrite forallb_app in Haa.
        apply andb_prop in Haa as [_ Hc]. cbn in Hc. rewrite (Ha a2 c eq_refl) in Hc. discriminate. }
      assert (b = []) as ->.
      { destruct b as [| c b]; [reflexivity |]. cbn in Hbb. rewrite (Hb c b eq_refl) in Hbb. discriminate. }
      rewrite app_nil_r in E. cbn [app] in E. now symmetry.
    + apply (word_of_real w prefix name); [exact Hname | exact Hd |].
      destruct H as (a & b & E & Hn & Hw & Ha & Hb).
      destruct a as [| c a].
      * exfalso. destruct w as [| c w]; [contradiction |]. cbn [app] in E. injection E as <- _.
        cbn in Hw. discriminate.
      * cbn [app] in E. injection E as <- E. exists a, b. repeat (split; [assumption |]).
        split; [| exact Hb]. intros a' d ->. apply (Ha (SP :: a') d). reflexivity.
Qed.

Lemma in_header c k name : In c (header k name) -> In c name \/ In c (s "() {function ").
Proof.
  destruct k; unfold header; intros H; apply in_app_or in H; destruct H as [H | H]; auto; right.
  - assert (E : s "() {function " = s "() {" ++ s "function ") by reflexivity.
    rewrite E. apply in_or_app. now left.
  - assert (E : s "() {function " = s "() {" ++ s "function ") by reflexivity.
    rewrite E. apply in_or_app. now right.
Qed.
Lemma word_plain c : is_word c = true -> c <> LF /\ c <> PERCENT /\ c <> HASH /\ is_space c = false.
Proof.
  intros H. unfold is_word, is_lower, is_upper, is_digit in H. unfold is_space. lia.
Qed.
Lemma plain_real h name c : plain_text (h_prefix h) -> forallb is_word name = true ->
  In c (get_real_function_name h name) -> c <> LF /\ c <> PERCENT /\ c <> HASH /\ is_space c = false.
Proof.
  intros Hp Hn Hc. unfold get_real_function_name in Hc. apply in_app_or in Hc. destruct Hc as [Hc | Hc].
  - destruct (Hp c Hc) as (H1 & H2 & H3). repeat split; try assumption. intros ->. discriminate H1.
  - apply in_app_or in Hc. destruct Hc as [[<- | [<- | []]] | Hc].
    + now apply word_plain.
    + now apply word_plain.
    + rewrite forallb_forall in Hn. apply word_plain. now apply Hn.
Qed.

Lemma emitted_first_lines h blocks : names_ok h ->
  (forall n, In n (map snd (h_dynamic h)) -> ~ In LF n) ->
  get_used_functions_code h = Ok blocks ->
  map first_line blocks =
  map (header (h_class h)) (map (get_real_function_name h) (map fst (h_used h)) ++ map snd (h_dynamic h)).
Proof.
  intros (Hp & Hn & Hd) Hdyn H. unfold get_used_functions_code, bind in H.
  destruct (map_res _ (h_used h)) as [e | r] eqn:E1; [discriminate |].
  destruct (get_all_dynamic_functions h) as [e | dyn] eqn:E2; [discriminate |].
  apply Ok_inj in H. subst blocks. rewrite !map_app. f_equal.
  - apply map_res_ok in E1.
    assert (Hn' : forall n, In n (map fst (h_used h)) -> helper_name n) by exact Hn.
    assert (Hd' := Hd). clear Hn Hd. revert Hn' Hd'. generalize E1. clear E1 E2.
    intros E1. induction E1 as [| [name ds] block u r Hb Hr IH]; intros Hn Hd; [reflexivity |].
    cbn [map fst]. f_equal; [| apply IH; [intros n Hi; apply Hn; now right |
      intros n f d Hi; apply Hd; now right]].
    destruct (Hn name (or_introl eq_refl)) as (N1 & N2 & N3 & N4 & N5).
    destruct (dget str_eqb name (h_functions h)) as [f |] eqn:Ef;
      [| unfold used_code in Hb; rewrite Ef in Hb; discriminate].
    specialize (Hd name f) as Hd1. cbn [map fst] in Hd1. specialize (fun d => Hd1 d (or_introl eq_refl) Ef).
    apply (used_code_first h name ds block f Ef Hb).
    + intros c Hc. apply in_header in Hc. destruct Hc as [Hc | Hc].
      * destruct (plain_real h name c Hp N2 Hc) as (A & B & _). now split.
      * cbn in Hc. repeat (destruct Hc as [<- | Hc]; [split; discriminate |]). destruct Hc.
    + destruct (h_class h); unfold header.
      * destruct (get_real_function_name h name) as [| c x] eqn:Er.
        -- exfalso. unfold get_real_function_name in Er. destruct (h_prefix h); discriminate Er.
        -- destruct (plain_real h name c Hp N2) as (_ & _ & A & B); [rewrite Er; now left |].
           cbn [app lstrip_p]. rewrite B. cbn [starts_with]. apply N.eqb_neq in A.
           rewrite N.eqb_sym, A. reflexivity.
      * reflexivity.
    + intros d Hi. destruct (Hd1 d Hi) as ((D1 & D2 & _) & _). now split.
    + intros d d' Hi Hi' Hw. destruct (Hd1 d Hi) as ((_ & _ & D3 & _) & D4 & _).
      destruct (Hd1 d' Hi') as ((_ & D2' & _) & _).
      apply D4. apply (word_of_real d (h_prefix h) d' D2' D3). exact Hw.
    + intros d Hi Hw. destruct (Hd1 d Hi) as ((_ & _ & D3 & _) & D4 & D5).
      apply D4. apply (word_of_header (h_class h) d (h_prefix h) name N2 D3); [now intros _ | exact Hw].
  - unfold get_all_dynamic_functions in E2. apply map_res_ok in E2. revert Hdyn.
    induction E2 as [| [code name] block u r2 Hb Hr IH]; intros Hdyn; [reflexivity |].
    cbn [map snd]. f_equal; [| apply IH; intros n Hi; apply Hdyn; now right].
    apply get_code_first in Hb as (t & ->). apply first_line_lf.
    intros Hi. apply in_header in Hi. destruct Hi as [Hi | Hi].
    + apply (Hdyn name); [now left | exact Hi].
    + cbn in Hi. repeat (destruct Hi as [Hi | Hi]; [discriminate Hi |]). destruct Hi.
Qed.

(** ** Helper functions and generated functions do not share names *)
Lemma app_same_tail (a b c d : str) : List.length b = List.length d -> a ++ b = c ++ d -> a = c /\ b = d.
Proof.
  intros Hl H. apply app_eq_app in H. destruct H as (l & [[-> ->] | [-> ->]]);
    rewrite app_length in Hl; (destruct l; [| cbn in Hl; lia]); now rewrite ?app_nil_r.
Qed.
Lemma suffix_cases (a b c d : str) : a ++ b = c ++ d ->
  (exists l, l <> [] /\ b = l ++ d /\ c = a ++ l) \/ (a = c /\ b = d) \/
  (exists l, l <> [] /\ d = l ++ b /\ a = c ++ l).
Proof.
  intros H. apply app_eq_app in H. destruct H as (l & [[-> ->] | [-> ->]]); destruct l as [| x l].
  - right. left. now rewrite app_nil_r.
  - right. right. exists (x :: l). split; [discriminate | now split].
  - right. left. now rewrite app_nil_r.
  - left. exists (x :: l). split; [discriminate | now split].
Qed.
Lemma ends_und2 (a l : str) : l <> [] -> (exists c, c ++ [UND; UND] = a ++ l) ->
  l = [UND] \/ exists l', l = l' ++ [UND; UND].
Proof.
  intros Hl (c & H). destruct (exists_last Hl) as (l1 & x & ->).
  rewrite app_assoc in H. replace (c ++ [UND; UND]) with ((c ++ [UND]) ++ [UND]) in H by now rewrite <- app_assoc.
  apply app_inj_tail in H as [H <-]. destruct l1 as [| y l1]; [now left |]. right.
  assert (Hn : y :: l1 <> []) by discriminate. destruct (exists_last Hn) as (l2 & z & E). rewrite E in *.
  rewrite app_assoc in H. apply app_inj_tail in H as [_ <-]. exists l2. now rewrite <- app_assoc.
Qed.
Lemma digits_last n digits t : (forall n' c, n = n' ++ [c] -> is_digit c = false) ->
  digits <> [] -> forallb is_digit digits = true -> n <> t ++ digits.
Proof.
  intros Hn Hd Hf ->. destruct (exists_last Hd) as (d1 & x & ->).
  rewrite forallb_app in Hf. apply andb_prop in Hf as [_ Hx]. cbn in Hx.
  rewrite (Hn (t ++ d1) x) in Hx; [discriminate | now rewrite app_assoc].
Qed.

Lemma distinct_names prefix n base name ident t :
  helper_name n -> base = ident ++ s "__" ++ t -> named_after base name ->
  (exists c t', t = t' ++ [c] /\ is_digit c = true) \/
  (* an option string that does not end like the helper's real name *)
  (exists t', t = DASH :: t' /\ ~ exists a, t = a ++ s "__" ++ n) \/
  (* an identifier other than the helper's name *)
  (t <> n /\ (forall t', t <> UND :: t') /\ ~ exists a b, t = a ++ [UND; UND] ++ b) ->
  name <> prefix ++ s "__" ++ n.
Proof.
  intros (N1 & N2 & N3 & N4 & N5) -> (digits & -> & Hdig) Ht E.
  assert (N5' : forall n' c, prefix ++ s "__" ++ n = n' ++ [c] -> is_digit c = false).
  { intros n' c H. destruct (exists_last N1) as (n1 & x & ->).
    rewrite !app_assoc in H. apply app_inj_tail in H as [_ <-]. exact (N5 n1 x eq_refl). }
  destruct digits as [| d digits].
  2: { apply (digits_last _ (d :: digits) (ident ++ s "__" ++ t) N5'); [discriminate | exact Hdig | now symmetry]. }
  rewrite app_nil_r in E. destruct Ht as [(c & t' & -> & Hc) | [(t' & -> & Ht) | (H1 & H2 & H3)]].
  - rewrite (N5' (ident ++ s "__" ++ t') c) in Hc; [discriminate |].
    rewrite <- E. now rewrite <- !app_assoc.
  - rewrite !app_assoc in E. apply suffix_cases in E. destruct E as [(l & Hl & E1 & E2) | [[_ E] | (l & Hl & E1 & E2)]].
    + destruct (ends_und2 (ident ++ s "__") l Hl) as [-> | (l' & ->)].
      { exists prefix. exact E2. }
      * discriminate E1.
      * apply Ht. exists l'. rewrite E1. now rewrite <- app_assoc.
    + subst n. cbn in N2. discriminate.
    + subst n. rewrite forallb_app in N2. apply andb_prop in N2 as [_ N2]. cbn in N2. discriminate.
  - rewrite !app_assoc in E. apply suffix_cases in E. destruct E as [(l & Hl & E1 & E2) | [[_ E] | (l & Hl & E1 & E2)]].
    + destruct (ends_und2 (ident ++ s "__") l Hl) as [-> | (l' & ->)].
      { exists prefix. exact E2. }
      * exact (H2 n E1).
      * apply H3. exists l', n. rewrite E1. now rewrite <- app_assoc.
    + exact (H1 E).
    + destruct (ends_und2 (prefix ++ s "__") l Hl) as [-> | (l' & ->)].
      { exists ident. exact E2. }
      * exact (N4 t E1).
      * apply N3. exists l', t. rewrite E1. now rewrite <- app_assoc.
Qed.

Lemma no_double_iff x : no_double_und x = true -> ~ exists a b, x = a ++ [UND; UND] ++ b.
Proof.
  intros H (a & b & ->). induction a as [| c a IH]; [cbn in H; discriminate |].
  apply IH. change ((c :: a) ++ [UND; UND] ++ b) with (c :: a ++ [UND; UND] ++ b) in H.
  destruct (a ++ [UND; UND] ++ b) as [| d y] eqn:E; [reflexivity |].
  cbn [no_double_und] in H. apply andb_prop in H as [_ H]. exact H.
Qed.
Lemma show_Z_last z : exists c t, show_Z z = t ++ [c] /\ is_digit c = true.
Proof.
  assert (H : forall n, exists c t, show_nat n = t ++ [c] /\ is_digit c = true).
  { intros n. destruct (exists_last (show_nat_nonempty n)) as (t & c & E). exists c, t.
    split; [exact E |]. pose proof (show_nat_digits n) as Hd. rewrite E, forallb_app in Hd.
    apply andb_prop in Hd as [_ Hd]. cbn in Hd. now rewrite andb_true_r in Hd. }
  unfold show_Z. destruct (z <? 0)%Z.
  - destruct (H (Z.abs_nat z)) as (c & t & -> & Hc). exists c, (DASH :: t). now split.
  - apply H.
Qed.
Lemma context_distinct ps c o prefix base name n :
  context_name ps c o prefix = Ok base -> named_after base name -> helper_name n -> owner_ok n o ->
  name <> prefix ++ s "__" ++ n.
Proof.
  intros Hb Hn Hh Ho. unfold context_name in Hb.
  set (ident := make_identifier (join [UND] (set_first prefix (map c_prog (get_parents ps c true))))) in Hb.
  destruct o as [o | p num].
  - destruct Ho as (t & x & E1 & -> & E2). destruct (o_strings o) as [| y l]; [discriminate |].
    cbn in E1. injection E1 as ->. apply Ok_inj in Hb.
    apply (distinct_names prefix n base name ident (DASH :: t) Hh (eq_sym Hb) Hn).
    right. left. exists t. now split.
  - apply Ok_inj in Hb. cbn [owner_ok] in Ho. destruct (p_metavar p) as [[| m0 m] |].
    + apply (distinct_names prefix n base name ident (s "arg" ++ show_Z num) Hh (eq_sym Hb) Hn).
      left. destruct (show_Z_last num) as (d & t & -> & Hd). exists d, (s "arg" ++ t).
      split; [now rewrite app_assoc | exact Hd].
    + apply (distinct_names prefix n base name ident _ Hh (eq_sym Hb) Hn).
      right. right. destruct Ho as [H1 H2]. split; [exact H1 | split; [exact H2 |]].
      apply no_double_iff, make_identifier_no_double.
    + apply (distinct_names prefix n base name ident (s "arg" ++ show_Z num) Hh (eq_sym Hb) Hn).
      left. destruct (show_Z_last num) as (d & t & -> & Hd). exists d, (s "arg" ++ t).
      split; [now rewrite app_assoc | exact Hd].
Qed.

(** ** Completion functions of commands *)
Lemma parents_loop_rev ps : forall acc, parents_loop ps acc = rev ps ++ acc.
Proof.
  induction ps as [| p ps IH]; intros acc; [reflexivity |]. cbn [parents_loop rev]. rewrite IH.
  now rewrite <- app_assoc.
Qed.
Lemma get_parents_rev ps c : get_parents ps c true = rev ps ++ [c].
Proof. unfold get_parents. now rewrite parents_loop_rev, app_nil_r. Qed.

Lemma alnum_word x : alnum x -> forallb is_word x = true.
Proof.
  intros [_ H]. rewrite forallb_forall in *. intros c Hc. specialize (H c Hc).
  now apply andb_prop in H as [H _].
Qed.
Definition tails (l : list str) : str := flat_map (fun n => UND :: n) l.
Lemma join_tails p l : join [UND] (p :: l) = p ++ tails l.
Proof.
  revert p. induction l as [| x l IH]; intros p.
  - cbn. now rewrite app_nil_r.
  - change (join [UND] (p :: x :: l)) with (p ++ [UND] ++ join [UND] (x :: l)). rewrite IH. reflexivity.
Qed.
Lemma replace_c_app c r x y : replace_c c r (x ++ y) = replace_c c r x ++ replace_c c r y.
Proof.
  induction x as [| d x IH]; [reflexivity |]. cbn [app replace_c].
  destruct (N.eqb d c); rewrite IH; [now rewrite app_assoc | reflexivity].
Qed.
Lemma replace_c_id c r x : ~ In c x -> replace_c c r x = x.
Proof.
  induction x as [| d x IH]; intros Hn; [reflexivity |]. cbn [replace_c].
  destruct (N.eqb_spec d c) as [-> | _]; [exfalso; apply Hn; now left |].
  rewrite IH; [reflexivity |]. intros Hi. apply Hn. now right.
Qed.
Lemma tails_word l : (forall x, In x l -> alnum x) -> forallb is_word (tails l) = true.
Proof.
  intros H. induction l as [| x l IH]; [reflexivity |]. unfold tails. cbn [flat_map app forallb].
  rewrite forallb_app, (alnum_word x) by (apply H; now left).
  cbn [andb]. apply IH. intros y Hy. apply H. now right.
Qed.
Lemma collapse_app_snd a : forall b, no_double_und b = true ->
  (forall b', b = UND :: b' -> last a 0%N <> UND) -> collapse_und (a ++ b) = collapse_und a ++ b.
Proof.
  induction a as [| c a IH]; intros b Hb Hs; [now apply no_double_collapse |].
  destruct a as [| d a].
  - cbn [app]. destruct b as [| e b]; [reflexivity |].
    change (collapse_und (c :: e :: b)) with
      (if N.eqb c UND && N.eqb e UND then collapse_und (e :: b) else c :: collapse_und (e :: b)).
    rewrite (no_double_collapse (e :: b) Hb).
    destruct (N.eqb_spec c UND) as [-> | _]; [| reflexivity].
    destruct (N.eqb_spec e UND) as [-> | _]; [| reflexivity].
    exfalso. exact (Hs b eq_refl eq_refl).
  - assert (IH' : collapse_und ((d :: a) ++ b) = collapse_und (d :: a) ++ b).
    { apply IH; [exact Hb |]. intros b' E. exact (Hs b' E). }
    change ((c :: d :: a) ++ b) with (c :: (d :: a) ++ b).
    change (collapse_und (c :: (d :: a) ++ b)) with
      (if N.eqb c UND && N.eqb d UND then collapse_und ((d :: a) ++ b)
       else c :: collapse_und ((d :: a) ++ b)).
    rewrite IH'.
    change (collapse_und (c :: d :: a)) with
      (if N.eqb c UND && N.eqb d UND then collapse_und (d :: a) else c :: collapse_und (d :: a)).
    now destruct (N.eqb c UND && N.eqb d UND)%bool.
Qed.
Lemma alnum_no_und x : alnum x -> ~ In UND x.
Proof.
  intros [_ H] Hi. rewrite forallb_forall in H. specialize (H UND Hi). discriminate H.
Qed.
Lemma join_tl_tails l : tl (tails l) = join [UND] l.
Proof.
  destruct l as [| x l]; [reflexivity |]. rewrite join_tails. reflexivity.
Qed.
Lemma join_no_double l : (forall x, In x l -> alnum x) -> no_double_und (join [UND] l) = true /\
  (forall b, join [UND] l <> UND :: b).
Proof.
  assert (Hx : forall x r, alnum x -> no_double_und r = true -> no_double_und (x ++ r) = true).
  { intros x r Ha Hr. assert (Hu := alnum_no_und x Ha). destruct Ha as [_ Ha]. clear Ha.
    induction x as [| c x IH]; [exact Hr |]. cbn [app].
    assert (Hc : N.eqb c UND = false) by (apply N.eqb_neq; intros ->; apply Hu; now left).
    specialize (IH (fun Hi => Hu (or_intror Hi))).
    destruct (x ++ r) as [| d y] eqn:E; [reflexivity |].
    change (no_double_und (c :: d :: y)) with (negb (N.eqb c UND && N.eqb d UND) && no_double_und (d :: y))%bool.
    rewrite Hc. exact IH. }
  induction l as [| x l IH]; intros H; [split; [reflexivity | discriminate] |].
  assert (Ha : alnum x) by (apply H; now left).
  destruct IH as [I1 I2]; [intros y Hy; apply H; now right |].
  split.
  - rewrite join_tails. apply Hx; [exact Ha |]. destruct l as [| y l]; [reflexivity |].
    change (tails (y :: l)) with (UND :: y ++ tails l). rewrite <- join_tails.
    destruct (join [UND] (y :: l)) as [| d z] eqn:E; [reflexivity |].
    change (no_double_und (UND :: d :: z)) with (negb (N.eqb UND UND && N.eqb d UND) && no_double_und (d :: z))%bool.
    destruct (N.eqb_spec d UND) as [-> | _]; [exfalso; exact (I2 z eq_refl) | exact I1].
  - rewrite join_tails. intros b E. destruct x as [| c x]; [destruct Ha as [C _]; congruence |].
    injection E as -> _. apply (alnum_no_und _ Ha). now left.
Qed.

Lemma ident_path_inj prefix l1 l2 :
  (forall x, In x l1 -> alnum x) -> (forall x, In x l2 -> alnum x) ->
  make_identifier (join [UND] (prefix :: l1)) = make_identifier (join [UND] (prefix :: l2)) -> l1 = l2.
Proof.
  intros H1 H2 H. rewrite !join_tails in H.
  set (A := drop_nonword (replace_c DASH [UND] prefix)).
  assert (Hid : forall l, (forall x, In x l -> alnum x) ->
    drop_nonword (replace_c DASH [UND] (prefix ++ tails l)) = A ++ tails l).
  { intros l Hl. rewrite replace_c_app, (replace_c_id DASH [UND] (tails l)).
    - unfold drop_nonword. rewrite filter_app. fold (drop_nonword (tails l)).
      rewrite (drop_nonword_id (tails l)); [reflexivity | now apply tails_word].
    - intros Hi. pose proof (tails_word l Hl) as Hw. rewrite forallb_forall in Hw.
      specialize (Hw DASH Hi). discriminate Hw. }
  set (B := collapse_und (A ++ [UND])).
  (* the collapsed text *)
  assert (Hcol : forall l, (forall x, In x l -> alnum x) -> l <> [] ->
    collapse_und (A ++ tails l) = B ++ join [UND] l).
  { intros l Hl Hne. destruct l as [| x l]; [contradiction |].
    change (tails (x :: l)) with ([UND] ++ (x ++ tails l)). rewrite <- join_tails, app_assoc.
    destruct (join_no_double (x :: l) Hl) as [J1 J2]. apply collapse_app_snd; [exact J1 |].
    intros b' E. exfalso. exact (J2 b' E). }
  assert (Hinj : collapse_und (A ++ tails l1) = collapse_und (A ++ tails l2) -> l1 = l2).
  { assert (Hlen : List.length (collapse_und A) <= List.length B).
    { unfold B. clear. induction A as [| c A IH]; [cbn; lia |].
      destruct A as [| d A].
      - cbn. destruct (N.eqb c UND); cbn; lia.
      - change ((c :: d :: A) ++ [UND]) with (c :: (d :: A) ++ [UND]).
        change (collapse_und (c :: (d :: A) ++ [UND])) with
          (if N.eqb c UND && N.eqb d UND then collapse_und ((d :: A) ++ [UND])
           else c :: collapse_und ((d :: A) ++ [UND])).
        change (collapse_und (c :: d :: A)) with
          (if N.eqb c UND && N.eqb d UND then collapse_und (d :: A) else c :: collapse_und (d :: A)).
        destruct (N.eqb c UND && N.eqb d UND)%bool; [exact IH |]. cbn [List.length]. lia. }
    assert (Hpos : forall x l, (forall y, In y (x :: l) -> alnum y) -> 0 < List.length (join [UND] (x :: l))).
    { intros x l Hl. rewrite join_tails, app_length. destruct (Hl x (or_introl eq_refl)) as [Hx _].
      destruct x; [contradiction | cbn; lia]. }
    intros E. destruct l1 as [| x1 l1], l2 as [| x2 l2].
    - reflexivity.
    - exfalso. rewrite (Hcol (x2 :: l2)) in E by (assumption || discriminate).
      cbn [tails flat_map] in E. rewrite app_nil_r in E. apply (f_equal (@List.length N)) in E.
      rewrite app_length in E. specialize (Hpos x2 l2 H2). lia.
    - exfalso. rewrite (Hcol (x1 :: l1)) in E by (assumption || discriminate).
      cbn [tails flat_map] in E. rewrite app_nil_r in E. apply (f_equal (@List.length N)) in E.
      rewrite app_length in E. specialize (Hpos x1 l1 H1). lia.
    - rewrite (Hcol (x1 :: l1)), (Hcol (x2 :: l2)) in E by (assumption || discriminate).
      apply app_inv_head in E. apply (f_equal (split_c UND)) in E.
      rewrite !split_join_c in E; [exact E | discriminate | | discriminate |].
      + intros w Hw. apply alnum_no_und, H2, Hw.
      + intros w Hw. apply alnum_no_und, H1, Hw. }
  apply Hinj. unfold make_identifier in H. rewrite (Hid l1 H1), (Hid l2 H2) in H.
  destruct A as [| a A'] eqn:EA.
  - (* no prefix left: both begin with an underscore or are empty *)
    cbn [app] in *. clear -H.
    assert (Hh : forall l, match collapse_und (tails l) with
      | [] => collapse_und (tails l) | c :: _ => if is_digit c then UND :: collapse_und (tails l) else collapse_und (tails l)
      end = collapse_und (tails l)).
    { intros l. pose proof (collapse_hd (tails l)) as Hc. destruct (collapse_und (tails l)) as [| c y]; [reflexivity |].
      destruct l as [| x l]; [discriminate Hc |]. cbn in Hc. injection Hc as ->. reflexivity. }
    pose proof (Hh l1) as E1. pose proof (Hh l2) as E2.
    destruct (collapse_und (tails l1)), (collapse_und (tails l2)); congruence.
  - pose proof (collapse_hd ((a :: A') ++ tails l1)) as C1.
    pose proof (collapse_hd ((a :: A') ++ tails l2)) as C2.
    destruct (collapse_und ((a :: A') ++ tails l1)) as [| c1 y1]; [discriminate C1 |].
    destruct (collapse_und ((a :: A') ++ tails l2)) as [| c2 y2]; [discriminate C2 |].
    cbn in C1, C2. injection C1 as ->. injection C2 as ->.
    destruct (is_digit a); [injection H as H |]; congruence.
Qed.

Lemma map_res_length {A B} (f : A -> res B) l r : map_res f l = Ok r -> List.length r = List.length l.
Proof. intros H. apply map_res_ok in H. induction H; cbn; congruence. Qed.
Lemma blocks_count h blocks : get_used_functions_code h = Ok blocks ->
  List.length blocks = List.length (h_used h) + List.length (h_dynamic h).
Proof.
  unfold get_used_functions_code, get_all_dynamic_functions, bind. intros H.
  destruct (map_res _ (h_used h)) as [e | r] eqn:E1; [discriminate |].
  destruct (map_res _ (h_dynamic h)) as [e | r2] eqn:E2; [discriminate |].
  apply Ok_inj in H. subst blocks. apply map_res_length in E1, E2. rewrite app_length. congruence.
Qed.
