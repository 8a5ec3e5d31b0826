(** * Proofs: fish offers what the specification says. *)
From Coq Require Import Permutation.
From Verif Require Import Base Value Dict Abbrev AbbrevProofs Algo AlgoProofs StrUtils Shell SpecShell ShellProofs ShellParser When SpecWhen WhenProofs WhenTests
  Cli SpecCli CliProofs CliMore SpecParser ParserProofs
  FishUtils SpecFish FishProofs FishConditions FishEval FishRuntime SpecOffered SpecFishOffers.
Open Scope list_scope.

(** ** Helper functions *)

Lemma eqb_iff_true (b : bool) (P : Prop) : (b = true <-> P) -> (b = false <-> ~ P).
Proof. intros H. destruct b; split; intros K; try discriminate; try reflexivity. - exfalso. apply K. now apply H. - intros K'. apply H in K'. discriminate. Qed.

Section Truth.
Variable matches : str -> bool -> str -> bool.
Variable incomplete : list str -> bool.
Variable q : query.
Variable e : env.
Hypothesis He : good_names e.
Definition T : list str -> bool := fish_truth matches incomplete q e.
Definition is_var (f name : str) : bool := match e name with Some x => str_eqb f x | None => false end.
Lemma is_var_eq n n' : In n function_variables -> In n' function_variables -> is_var (helper e n) n' = str_eqb n n'.
Proof.
  intros Hn Hn'. unfold is_var. destruct (name_cases e n He Hn) as (_ & _ & _ & E). destruct (name_cases e n' He Hn') as (_ & _ & _ & E').
  rewrite E'. destruct (str_eqb_spec n n') as [-> | Hne]; [apply str_eqb_refl |].
  apply str_eqb_neq. intros K. apply Hne. destruct He as [_ Hi]. apply Hi; [exact Hn | exact Hn' |]. rewrite E, E'. now rewrite K.
Qed.
Lemma truth_of n args : In n function_variables -> T (helper e n :: args) =
  if str_eqb n (s "P") then true else if str_eqb n (s "has_option") then h_has_option incomplete q args
  else if str_eqb n (s "num_of_positionals") then h_num_of_positionals q args
  else if str_eqb n (s "positional_contains") then h_positional_contains q args
  else if str_eqb n (s "option_is") then h_option_is q args
  else if str_eqb n (s "option_match") then h_option_match matches q args else false.
Proof.
  intros Hn. unfold T, fish_truth. fold (is_var (helper e n) (s "P")). fold (is_var (helper e n) (s "has_option")).
  fold (is_var (helper e n) (s "num_of_positionals")). fold (is_var (helper e n) (s "positional_contains")).
  fold (is_var (helper e n) (s "option_is")). fold (is_var (helper e n) (s "option_match")).
  rewrite !is_var_eq by (try exact Hn; cbn; tauto). reflexivity.
Qed.

Lemma has_option_given os : (forall x, In x os -> x <> s "WITH_INCOMPLETE") ->
  h_has_option incomplete q os = true <-> exists x, In x os /\ is_given (q_options q) x.
Proof.
  intros H. destruct os as [| a os]; [split; [discriminate | intros (x & [] & _)] |]. unfold h_has_option.
  destruct (str_eqb_spec a (s "WITH_INCOMPLETE")) as [-> | _]; [exfalso; now apply (H (s "WITH_INCOMPLETE")); [left |] |].
  rewrite existsb_exists. split.
  - intros ((x & v) & Hi & Hm). apply mems_In in Hm. exists x. split; [exact Hm | now exists v].
  - intros (x & Hx & v & Hi). exists (x, v). split; [exact Hi | now apply mems_In].
Qed.
Lemma valid_not_incomplete x : is_valid_option_string x = true -> x <> s "WITH_INCOMPLETE".
Proof. intros H ->. discriminate H. Qed.

Lemma compare_op a op b : In op operators -> fish_compare a (test_operator op) b = true <-> compares a op b.
Proof.
  unfold compares.
  assert (D : forall x y : str, str_eqb x y = false -> x = y -> False) by (intros x y H ->; rewrite str_eqb_refl in H; discriminate).
  intros [<- | [<- | [<- | [<- | [<- | [<- | []]]]]]].
  - change (fish_compare a (test_operator (s "==")) b) with (a =? b)%Z. rewrite Z.eqb_eq. split; [auto |].
    intros [[_ K] | [[K _] | [[K _] | [[K _] | [[K _] | [K _]]]]]]; try exact K; exfalso; revert K; apply D; reflexivity.
  - change (fish_compare a (test_operator (s "!=")) b) with (negb (a =? b)%Z). rewrite negb_true_iff, Z.eqb_neq. split; [auto |].
    intros [[K _] | [[_ K] | [[K _] | [[K _] | [[K _] | [K _]]]]]]; try exact K; exfalso; revert K; apply D; reflexivity.
  - change (fish_compare a (test_operator (s "<=")) b) with (a <=? b)%Z. rewrite Z.leb_le. split; [intros K; auto 8 |].
    intros [[K _] | [[K _] | [[_ K] | [[K _] | [[K _] | [K _]]]]]]; try exact K; exfalso; revert K; apply D; reflexivity.
  - change (fish_compare a (test_operator (s ">=")) b) with (a >=? b)%Z. rewrite Z.geb_le. split; [intros K; do 3 right; left; split; [reflexivity | lia] |].
    intros [[K _] | [[K _] | [[K _] | [[_ K] | [[K _] | [K _]]]]]]; try lia; exfalso; revert K; apply D; reflexivity.
  - change (fish_compare a (test_operator (s "<")) b) with (a <? b)%Z. rewrite Z.ltb_lt. split; [intros K; do 4 right; left; now split |].
    intros [[K _] | [[K _] | [[K _] | [[K _] | [[_ K] | [K _]]]]]]; try exact K; exfalso; revert K; apply D; reflexivity.
  - change (fish_compare a (test_operator (s ">")) b) with (a >? b)%Z. rewrite Z.gtb_lt. split; [intros K; do 5 right; split; [reflexivity | lia] |].
    intros [[K _] | [[K _] | [[K _] | [[K _] | [[K _] | [_ K]]]]]]; try lia; exfalso; revert K; apply D; reflexivity.
Qed.

Lemma element_nth l n : (1 <= n)%Z -> fish_element l n = Some (match nth_error l (Z.to_nat (n - 1)) with Some x => [x] | None => [] end).
Proof.
  intros H. unfold fish_element. rewrite (proj2 (Z.eqb_neq _ _)) by lia. cbv zeta. rewrite (proj2 (Z.ltb_nlt n 0)) by lia.
  now rewrite (proj2 (Z.ltb_nlt (n - 1) 0)) by lia.
Qed.
Lemma contains_distinct l : NoDup l -> fish_contains l = false.
Proof. intros H. destruct l as [| x l]; [reflexivity |]. inversion H; subst. cbn. destruct (mems x l) eqn:E; [| reflexivity]. now apply mems_In in E. Qed.
Lemma z_str_not_i n : str_eqb (z_str n) (s "-i") = false.
Proof.
  apply str_eqb_neq. intros E. pose proof (z_str_chars n) as H. rewrite E in H. discriminate H.
Qed.
Lemma contains_nth (ic : bool) n values : (1 <= n)%Z -> NoDup (if ic then map lower values else values) ->
  h_positional_contains q (opt_word ic (s "-i") ++ z_str n :: values) = true <->
  exists w v, nth_positional (q_positionals q) n w /\ In v values /\ same ic w v.
Proof.
  intros Hn Hd.
  assert (E : h_positional_contains q (opt_word ic (s "-i") ++ z_str n :: values) =
     match fish_element (q_positionals q) n with
     | Some x => if ic then fish_contains (map lower (x ++ values)) else fish_contains (x ++ values) | None => false end).
  { destruct ic; cbn [opt_word app]; unfold h_positional_contains.
    - change (str_eqb (s "-i") (s "-i")) with true. cbv iota. now rewrite py_int_str.
    - rewrite z_str_not_i. now rewrite py_int_str. }
  rewrite E, element_nth by exact Hn. unfold nth_positional. destruct (nth_error (q_positionals q) (Z.to_nat (n - 1))) as [w |].
  - destruct ic; cbn [app map fish_contains same].
    + rewrite mems_In. split.
      * intros K. apply in_map_iff in K as (v & Ev & Hv). exists w, v. auto.
      * intros (w' & v & (_ & Ew) & Hv & Hs). injection Ew as <-. rewrite Hs. now apply in_map.
    + rewrite mems_In. split; [intros K; exists w, w; auto |]. intros (w' & v & (_ & Ew) & Hv & Hs). injection Ew as <-. now subst v.
  - cbn [app]. destruct ic; rewrite contains_distinct by exact Hd; (split; [discriminate |]); intros (w & v & (_ & K) & _); discriminate.
Qed.

Lemma flags_options (ic any : bool) rest :
  h_flags false false (opt_word ic (s "-i") ++ opt_word any (s "-a") ++ s "--" :: rest) = Some (any, ic, rest).
Proof. destruct ic, any; reflexivity. Qed.
Lemma h_split_app os rest : ~ In (s "--") os -> h_split (os ++ s "--" :: rest) = (os, rest).
Proof.
  induction os as [| x os IH]; intros H; [reflexivity |]. cbn [app h_split]. destruct (str_eqb_spec x (s "--")) as [-> | _]; [exfalso; apply H; now left |].
  rewrite IH; [reflexivity |]. intros K. apply H. now right.
Qed.
Lemma scan_spec any os ok l : h_scan any os ok (rev l) = true <-> exists v, value_of l any os v /\ ok v = true.
Proof.
  unfold value_of. induction l as [| [x u] l IH] using rev_ind.
  - split; [discriminate |]. intros (v & (b & y & a & E & _) & _). destruct b; discriminate.
  - rewrite rev_app_distr. cbn [rev app h_scan].
    assert (Hold : forall v b y a, l = b ++ (y, v) :: a -> In y os -> any = true \/ (~ In x os /\ forall z t, In (z, t) a -> ~ In z os) ->
       exists before y after, l ++ [(x, u)] = before ++ (y, v) :: after /\ In y os /\ (any = true \/ forall z t, In (z, t) after -> ~ In z os)).
    { intros v b y a E Hy Ha. exists b, y, (a ++ [(x, u)]). rewrite E, <- app_assoc. split; [reflexivity |]. split; [exact Hy |].
      destruct Ha as [Ha | [Hx Ha]]; [now left | right]. intros z t Hz. apply in_app_or in Hz as [Hz | [Hz | []]]; [now apply (Ha z t) |]. now injection Hz as <- <-. }
    assert (Hnew : forall v, (exists before y after, l ++ [(x, u)] = before ++ (y, v) :: after /\ In y os /\ (any = true \/ forall z t, In (z, t) after -> ~ In z os)) ->
       (v = u /\ In x os) \/ ((any = true \/ ~ In x os) /\ exists b y a, l = b ++ (y, v) :: a /\ In y os /\ (any = true \/ forall z t, In (z, t) a -> ~ In z os))).
    { intros v (b & y & a & E & Hy & Ha). destruct a as [| [z t] a _] using rev_ind.
      - apply app_inj_tail in E as [_ E]. injection E as <- <-. now left.
      - rewrite app_comm_cons, app_assoc in E. apply app_inj_tail in E as [E E']. injection E' as <- <-. right.
        split; [destruct Ha as [Ha | Ha]; [now left | right; apply (Ha x u), in_or_app; right; now left] |].
        exists b, y, a. split; [exact E |]. split; [exact Hy |]. destruct Ha as [Ha | Ha]; [now left | right]. intros z' t' Hz. apply (Ha z' t'), in_or_app. now left. }
    destruct (mems x os) eqn:Em.
    + apply mems_In in Em. destruct (ok u) eqn:Eo.
      * split; [intros _ | reflexivity]. exists u. split; [| exact Eo]. exists l, x, []. split; [reflexivity |]. split; [exact Em |]. right. intros ? ? [].
      * destruct any.
        -- rewrite IH. split.
           ++ intros (v & (b & y & a & E & Hy & _) & Hv). exists v. split; [| exact Hv]. eapply Hold; eauto.
           ++ intros (v & Hv & Ho). apply Hnew in Hv as [[-> _] | [_ Hv]]; [congruence |]. exists v. now split.
        -- split; [discriminate |]. intros (v & Hv & Ho). apply Hnew in Hv as [[-> _] | [[Hf | Hf] _]]; [congruence | discriminate | contradiction].
    + assert (Hx : ~ In x os) by (intros K; apply mems_In in K; congruence). rewrite IH. split.
      * intros (v & (b & y & a & E & Hy & Ha) & Hv). exists v. split; [| exact Hv]. eapply Hold; [exact E | exact Hy |]. destruct Ha; auto.
      * intros (v & Hv & Ho). apply Hnew in Hv as [[_ Hi] | [_ Hv]]; [contradiction |]. exists v. now split.
Qed.

Lemma test_truth o : sound_test o -> T (test_words e o) = true <-> test_holds matches (q_positionals q) (q_options q) o.
Proof.
  intros Hs. unfold test_words. destruct o as [os vs ic any | os r ic any | os | op n | ic n vs]; cbn [test_name test_arguments test_holds sound_test] in *;
    rewrite truth_of by (cbn; tauto); cbn [str_eqb].
  - change (h_option_is q (opt_word ic (s "-i") ++ opt_word any (s "-a") ++ [s "--"] ++ os ++ [s "--"] ++ vs) = true <->
      exists v w, value_of (q_options q) any os v /\ In w vs /\ same ic v w).
    unfold h_option_is. cbn [app]. rewrite flags_options, h_split_app by (now apply options_clean). rewrite scan_spec. split.
    + intros (v & Hv & Hm). apply mems_In in Hm. destruct ic; [| exists v, v; repeat split; auto].
      apply in_map_iff in Hm as (w & Ew & Hw). exists v, w. repeat split; auto. now symmetry.
    + intros (v & w & Hv & Hw & Hsame). exists v. split; [exact Hv |]. apply mems_In. destruct ic; cbn [same] in Hsame; [rewrite Hsame; now apply in_map | now subst w].
  - change (h_option_match matches q (opt_word ic (s "-i") ++ opt_word any (s "-a") ++ [s "--"] ++ os ++ [s "--"] ++ [r]) = true <->
      exists v, value_of (q_options q) any os v /\ matches r ic v = true).
    unfold h_option_match. cbn [app]. rewrite flags_options, h_split_app by (now apply options_clean). now rewrite scan_spec.
  - change (h_has_option incomplete q os = true <-> exists x, In x os /\ is_given (q_options q) x).
    apply has_option_given. intros x Hx. now apply valid_not_incomplete, Hs.
  - change (h_num_of_positionals q [test_operator op; z_str n] = true <-> compares (Z.of_nat (List.length (q_positionals q))) op n).
    unfold h_num_of_positionals. rewrite py_int_str. now apply compare_op.
  - change (h_positional_contains q (opt_word ic (s "-i") ++ [z_str n] ++ vs) = true <->
      exists w v, nth_positional (q_positionals q) n w /\ In v vs /\ same ic w v).
    destruct Hs as [H1 H2]. now apply contains_nth.
Qed.
End Truth.
