(** * C137: the IP addresses that are offered *)
From Coq Require Import String.
From Verif Require Import Base StrUtils StrUtilsProofs Value SchemeValidator SpecShell SpecChoices Settings IpAddress SpecIpAddress.
Open Scope string_scope.
Open Scope list_scope.

Ltac each_kind H := destruct H as [<- | [<- | [<- | [<- | [<- | [<- | []]]]]]].

(** The kinds are the ones that the validation accepts. *)
Lemma accepted_kinds kind : check_ip_address [VStr kind] = Ok tt <-> In kind kinds.
Proof.
  cbn [check_ip_address]. change [s "ipv4"; s "ipv6"; s "all"; s "ipv4+"; s "ipv6+"; s "all+"] with kinds.
  destruct (mems kind kinds) eqn:E.
  - apply mems_In in E. tauto.
  - split; [discriminate|]. intros H. apply mems_In in H. congruence.
Qed.

Lemma in_own (own : computer) a : In a (map fst own) <-> exists i, In (a, i) own.
Proof.
  rewrite in_map_iff. split; [intros ([x i] & E & H); cbn in E; subst; eauto | intros (i & H); now exists (a, i)].
Qed.

(** ** Bash *)
Lemma words_of text words ws cur : posix_words text = Some [words] -> posix_words words = Some ws ->
  Forall (fun w => printed_words w = [w]) ws -> compgen_words text cur = Some (filter (starts_with cur) ws).
Proof.
  intros E E' H. unfold compgen_words. rewrite E, E'. cbn [option_map]. f_equal. unfold begins_with.
  clear E E'. induction H as [|w ws Hw H IH]; [reflexivity|]. cbn [filter].
  destruct (starts_with cur w); [|apply IH]. cbn [map concat]. rewrite Hw. cbn [app]. f_equal. apply IH.
Qed.
Ltac some_words := eapply words_of; [vm_compute; reflexivity | vm_compute; reflexivity | repeat constructor].
Lemma any4_words cur : compgen_words (s "0.0.0.0") cur = Some (filter (starts_with cur) [s "0.0.0.0"]).
Proof. some_words. Qed.
Lemma any6_words cur : compgen_words (s "::") cur = Some (filter (starts_with cur) [s "::"]).
Proof. some_words. Qed.
Lemma any_words cur : compgen_words (s """0.0.0.0 ::""") cur = Some (filter (starts_with cur) [s "0.0.0.0"; s "::"]).
Proof. some_words. Qed.

Lemma no_colon a : negb (memc COLON a) = true <-> ~ In COLON a.
Proof. rewrite <- memc_In. destruct (memc COLON a); cbn; intuition congruence. Qed.
Lemma step_call own func cur line args ls before r :
  posix_words line = Some (func :: args) -> addresses_begun own cur args = Some r ->
  bash_replies own func cur (line :: ls) before = bash_replies own func cur ls (before ++ r).
Proof. intros E E'. cbn [bash_replies]. now rewrite E, str_eqb_refl, E'. Qed.
Lemma step_words own func cur line text ls before r :
  posix_words line = None -> text_between (s "COMPREPLY=($(compgen -W ") (s " -- ""$cur""))") line = None ->
  text_between (s "COMPREPLY+=($(compgen -W ") (s " -- ""$cur""))") line = Some text -> compgen_words text cur = Some r ->
  bash_replies own func cur (line :: ls) before = bash_replies own func cur ls (before ++ r).
Proof. intros E E1 E2 E'. cbn [bash_replies]. rewrite E. unfold bash_code. now rewrite E1, E2, E'. Qed.
Ltac not_in := let H := fresh in intros H; apply mems_In in H; vm_compute in H; discriminate H.
Ltac is_in := apply mems_In; reflexivity.

Definition four : list str := [s "ipv4"; s "ipv4+"].
Definition six : list str := [s "ipv6"; s "ipv6+"].
Definition plus : list str := [s "ipv4+"; s "ipv6+"; s "all+"].
(** What is wanted, kind by kind *)
Lemma wanted_iff own kind a : In kind kinds ->
  wanted own kind a <->
  (In kind four -> ~ In COLON a) /\ (In kind six -> In COLON a) /\
  ((exists i, In (a, i) own) \/ In kind plus /\ (a = s "0.0.0.0" \/ a = s "::")).
Proof.
  intros _. unfold wanted, of_kind. fold four six plus.
  assert (E : In a [s "0.0.0.0"; s "::"] <-> a = s "0.0.0.0" \/ a = s "::") by (cbn [In]; intuition congruence).
  tauto.
Qed.

(** The code for Bash offers the addresses that are wanted and begin with the word so far: all of them
    and no others, with the functions of each version of bash-completion. *)
Theorem C137_bash : forall v kind own cur, In kind kinds ->
  exists replies,
    bash_replies own (name_for v ip_addresses) cur (bash_ip (name_for v ip_addresses) kind) [] = Some replies /\
    forall address, In address replies <-> (starts_with cur address = true /\ wanted own kind address).
Proof.
  intros v kind own cur K.
  assert (C4 : ~ In COLON (s "0.0.0.0")) by (apply memc_false; reflexivity).
  assert (C6 : In COLON (s "::")) by (apply memc_In; reflexivity).
  set (func := name_for v ip_addresses).
  assert (F : posix_words func = Some [func] /\ posix_words (func ++ s " -6") = Some [func; s "-6"] /\ posix_words (func ++ s " -a") = Some [func; s "-a"]).
  { unfold func, name_for. destruct (tuple_ge v [2; 12]%Z); repeat split; vm_compute; reflexivity. }
  destruct F as (F0 & F6 & Fa).
  assert (W : forall a, wanted own kind a <->
    (In kind four -> ~ In COLON a) /\ (In kind six -> In COLON a) /\
    ((exists i, In (a, i) own) \/ In kind plus /\ (a = s "0.0.0.0" \/ a = s "::"))) by (intros a; now apply wanted_iff).
  pose proof (fun ls before => step_call own func cur func [] ls before _ F0 eq_refl) as S0.
  pose proof (fun ls before => step_call own func cur _ [s "-6"] ls before _ F6 eq_refl) as S6.
  pose proof (fun ls before => step_call own func cur _ [s "-a"] ls before _ Fa eq_refl) as Sa.
  pose proof (fun ls before => step_words own func cur (s "COMPREPLY+=($(compgen -W 0.0.0.0 -- ""$cur""))") (s "0.0.0.0") ls before _
    ltac:(vm_compute; reflexivity) ltac:(vm_compute; reflexivity) ltac:(vm_compute; reflexivity) (any4_words cur)) as T4.
  pose proof (fun ls before => step_words own func cur (s "COMPREPLY+=($(compgen -W :: -- ""$cur""))") (s "::") ls before _
    ltac:(vm_compute; reflexivity) ltac:(vm_compute; reflexivity) ltac:(vm_compute; reflexivity) (any6_words cur)) as T6.
  pose proof (fun ls before => step_words own func cur (s "COMPREPLY+=($(compgen -W ""0.0.0.0 ::"" -- ""$cur""))") (s """0.0.0.0 ::""") ls before _
    ltac:(vm_compute; reflexivity) ltac:(vm_compute; reflexivity) ltac:(vm_compute; reflexivity) (any_words cur)) as Ta.
  assert (O : forall a, In a (map fst own) <-> exists i, In (a, i) own) by apply in_own.
  assert (Z4 : forall a, In a [s "0.0.0.0"] <-> a = s "0.0.0.0") by (cbn [In]; intuition congruence).
  assert (Z6 : forall a, In a [s "::"] <-> a = s "::") by (cbn [In]; intuition congruence).
  assert (Za : forall a, In a [s "0.0.0.0"; s "::"] <-> a = s "0.0.0.0" \/ a = s "::") by (cbn [In]; intuition congruence).
  assert (CC : forall a, a = s "0.0.0.0" -> ~ In COLON a) by (intros a ->; exact C4).
  assert (CD : forall a, a = s "::" -> In COLON a) by (intros a ->; exact C6).
  each_kind K.
  - assert (I4 : In (s "ipv4") four) by is_in. assert (I6 : ~ In (s "ipv4") six) by not_in. assert (Ip : ~ In (s "ipv4") plus) by not_in.
    change (bash_ip func (s "ipv4")) with [func]. rewrite S0. eexists. split; [reflexivity|]. intros a.
    cbn [app]. rewrite W, !filter_In, no_colon, O. tauto.
  - assert (I4 : ~ In (s "ipv6") four) by not_in. assert (I6 : In (s "ipv6") six) by is_in. assert (Ip : ~ In (s "ipv6") plus) by not_in.
    change (bash_ip func (s "ipv6")) with [func ++ s " -6"]. rewrite S6. eexists. split; [reflexivity|]. intros a.
    cbn [app]. rewrite W, !filter_In, memc_In, O. tauto.
  - assert (I4 : ~ In (s "all") four) by not_in. assert (I6 : ~ In (s "all") six) by not_in. assert (Ip : ~ In (s "all") plus) by not_in.
    change (bash_ip func (s "all")) with [func ++ s " -a"]. rewrite Sa. eexists. split; [reflexivity|]. intros a.
    cbn [app]. rewrite W, !filter_In, O. tauto.
  - assert (I4 : In (s "ipv4+") four) by is_in. assert (I6 : ~ In (s "ipv4+") six) by not_in. assert (Ip : In (s "ipv4+") plus) by is_in.
    change (bash_ip func (s "ipv4+")) with [func; s "COMPREPLY+=($(compgen -W 0.0.0.0 -- ""$cur""))"].
    rewrite S0, T4. eexists. split; [reflexivity|]. intros a. specialize (CC a). specialize (CD a).
    rewrite app_nil_l, in_app_iff, W, !filter_In, no_colon, O, Z4. tauto.
  - assert (I4 : ~ In (s "ipv6+") four) by not_in. assert (I6 : In (s "ipv6+") six) by is_in. assert (Ip : In (s "ipv6+") plus) by is_in.
    change (bash_ip func (s "ipv6+")) with [func ++ s " -6"; s "COMPREPLY+=($(compgen -W :: -- ""$cur""))"].
    rewrite S6, T6. eexists. split; [reflexivity|]. intros a. specialize (CC a). specialize (CD a).
    rewrite app_nil_l, in_app_iff, W, !filter_In, memc_In, O, Z6. tauto.
  - assert (I4 : ~ In (s "all+") four) by not_in. assert (I6 : ~ In (s "all+") six) by not_in. assert (Ip : In (s "all+") plus) by is_in.
    change (bash_ip func (s "all+")) with [func ++ s " -a"; s "COMPREPLY+=($(compgen -W ""0.0.0.0 ::"" -- ""$cur""))"].
    rewrite Sa, Ta. eexists. split; [reflexivity|]. intros a.
    rewrite app_nil_l, in_app_iff, W, !filter_In, O, Za. tauto.
Qed.
Print Assumptions C137_bash.

(** ** Zsh *)
Lemma flags_of words flags : words = [s "_bind_addresses"; s "-" ++ flags] -> flags <> [] ->
  (forall c, In c flags -> In c (s "460")) -> forall own a,
  bind_addresses own words a <->
  (In 52%N flags -> ~ In COLON a) /\ (In 54%N flags -> In COLON a) /\
  ((exists interface, In (a, interface) own) \/ In 48%N flags /\ In a [s "0.0.0.0"; s "::"]).
Proof.
  intros -> N L own a. split.
  - intros (f & [[E _] | [E _]] & _ & H).
    + apply f_equal with (f := @List.length str) in E. discriminate E.
    + apply f_equal with (f := fun l => nth 1 l []) in E. cbn [nth] in E. apply app_inv_head in E. now subst f.
  - intros H. exists flags. split; [right; split; [reflexivity|exact N]|]. split; [exact L|exact H].
Qed.

(** The code for Zsh offers exactly the addresses that are wanted. *)
Theorem C137_zsh : forall kind own address, In kind kinds ->
  bind_addresses own (zsh_ip kind) address <-> wanted own kind address.
Proof.
  intros kind own a K. unfold wanted, of_kind. fold four six plus.
  each_kind K.
  - assert (I4 : In (s "ipv4") four) by is_in. assert (I6 : ~ In (s "ipv4") six) by not_in. assert (Ip : ~ In (s "ipv4") plus) by not_in.
    rewrite (flags_of (zsh_ip (s "ipv4")) (s "4") eq_refl) by (try discriminate; intros c H; apply memc_In; destruct H as [<- | []]; reflexivity).
    assert (F4 : In 52%N (s "4")) by (apply memc_In; reflexivity). assert (F6 : ~ In 54%N (s "4")) by (apply memc_false; reflexivity).
    assert (F0 : ~ In 48%N (s "4")) by (apply memc_false; reflexivity). tauto.
  - assert (I4 : ~ In (s "ipv6") four) by not_in. assert (I6 : In (s "ipv6") six) by is_in. assert (Ip : ~ In (s "ipv6") plus) by not_in.
    rewrite (flags_of (zsh_ip (s "ipv6")) (s "6") eq_refl) by (try discriminate; intros c H; apply memc_In; destruct H as [<- | []]; reflexivity).
    assert (F4 : ~ In 52%N (s "6")) by (apply memc_false; reflexivity). assert (F6 : In 54%N (s "6")) by (apply memc_In; reflexivity).
    assert (F0 : ~ In 48%N (s "6")) by (apply memc_false; reflexivity). tauto.
  - assert (I4 : ~ In (s "all") four) by not_in. assert (I6 : ~ In (s "all") six) by not_in. assert (Ip : ~ In (s "all") plus) by not_in.
    split.
    + intros (f & [[_ ->] | [E _]] & _ & H); [cbn [In] in H; tauto|].
      apply f_equal with (f := @List.length str) in E. discriminate E.
    + intros H. exists []. split; [left; split; reflexivity|]. cbn [In]. tauto.
  - assert (I4 : In (s "ipv4+") four) by is_in. assert (I6 : ~ In (s "ipv4+") six) by not_in. assert (Ip : In (s "ipv4+") plus) by is_in.
    rewrite (flags_of (zsh_ip (s "ipv4+")) (s "40") eq_refl) by (try discriminate; intros c H; apply memc_In; destruct H as [<- | [<- | []]]; reflexivity).
    assert (F4 : In 52%N (s "40")) by (apply memc_In; reflexivity). assert (F6 : ~ In 54%N (s "40")) by (apply memc_false; reflexivity).
    assert (F0 : In 48%N (s "40")) by (apply memc_In; reflexivity). tauto.
  - assert (I4 : ~ In (s "ipv6+") four) by not_in. assert (I6 : In (s "ipv6+") six) by is_in. assert (Ip : In (s "ipv6+") plus) by is_in.
    rewrite (flags_of (zsh_ip (s "ipv6+")) (s "60") eq_refl) by (try discriminate; intros c H; apply memc_In; destruct H as [<- | [<- | []]]; reflexivity).
    assert (F4 : ~ In 52%N (s "60")) by (apply memc_false; reflexivity). assert (F6 : In 54%N (s "60")) by (apply memc_In; reflexivity).
    assert (F0 : In 48%N (s "60")) by (apply memc_In; reflexivity). tauto.
  - assert (I4 : ~ In (s "all+") four) by not_in. assert (I6 : ~ In (s "all+") six) by not_in. assert (Ip : In (s "all+") plus) by is_in.
    rewrite (flags_of (zsh_ip (s "all+")) (s "0") eq_refl) by (try discriminate; intros c H; apply memc_In; destruct H as [<- | []]; reflexivity).
    assert (F4 : ~ In 52%N (s "0")) by (apply memc_false; reflexivity). assert (F6 : ~ In 54%N (s "0")) by (apply memc_false; reflexivity).
    assert (F0 : In 48%N (s "0")) by (apply memc_In; reflexivity). tauto.
Qed.
Print Assumptions C137_zsh.

(** ** Fish *)
Lemma contains_one c x : contains [c] x = memc c x.
Proof.
  induction x as [|d x IH]; [reflexivity|]. cbn [contains starts_with]. rewrite IH. unfold memc. cbn [existsb].
  now rewrite andb_true_r.
Qed.
Definition DOT : N := 46%N.
Lemma item_iff a i b : ~ In TAB a -> (item_of (a ++ [TAB] ++ i) b <-> b = a).
Proof.
  intros Ha. split; [|intros ->; exists i; now split].
  intros (d & E & Hb). revert b E Hb. induction a as [|c a IH]; intros [|e b] E Hb; [reflexivity| | |].
  - cbn in E. injection E as E _. exfalso. apply Hb. left. now symmetry.
  - cbn in E. injection E as E _. exfalso. apply Ha. left. now symmetry.
  - cbn [app] in E. injection E as -> E. f_equal. apply IH; [intros H; apply Ha; now right | exact E | intros H; apply Hb; now right].
Qed.
Lemma filter_true {A} (p : A -> bool) l : (forall x, p x = true) -> filter p l = l.
Proof. intros H. induction l as [|x l IH]; [reflexivity|]. cbn [filter]. now rewrite H, IH. Qed.
Lemma fish_shape own any4 any6 kind : In kind kinds ->
  fish_lines own any4 any6 (fish_ip kind) =
  Some (filter (fun line => (negb (mems kind four) || memc DOT line) && (negb (mems kind six) || memc COLON line))
    (map (fun x => fst x ++ [TAB] ++ snd x) own ++
     if mems kind plus then [s "0.0.0.0" ++ [TAB] ++ any4; s "::" ++ [TAB] ++ any6] else [])).
Proof.
  intros K. each_kind K.
  all: match goal with |- _ = Some (filter ?p (_ ++ if ?m then _ else _)) =>
         let b := eval vm_compute in m in change m with b; cbv iota end; rewrite ?app_nil_r.
  - change (fish_lines own any4 any6 (fish_ip (s "ipv4"))) with (Some (filter (contains [DOT]) (map (fun x => fst x ++ [TAB] ++ snd x) own))).
    f_equal. apply filter_ext. intros x. change (mems (s "ipv4") four) with true. change (mems (s "ipv4") six) with false. cbn [negb orb].
    rewrite andb_true_r. apply contains_one.
  - change (fish_lines own any4 any6 (fish_ip (s "ipv6"))) with (Some (filter (contains [COLON]) (map (fun x => fst x ++ [TAB] ++ snd x) own))).
    f_equal. apply filter_ext. intros x. change (mems (s "ipv6") four) with false. change (mems (s "ipv6") six) with true. cbn [negb orb andb].
    apply contains_one.
  - change (fish_lines own any4 any6 (fish_ip (s "all"))) with (Some (map (fun x => fst x ++ [TAB] ++ snd x) own)).
    f_equal. symmetry. apply filter_true. intros x. reflexivity.
  - change (fish_lines own any4 any6 (fish_ip (s "ipv4+"))) with (Some (filter (contains [DOT]) (map (fun x => fst x ++ [TAB] ++ snd x) own ++ [s "0.0.0.0" ++ [TAB] ++ any4; s "::" ++ [TAB] ++ any6]))).
    f_equal. apply filter_ext. intros x. change (mems (s "ipv4+") four) with true. change (mems (s "ipv4+") six) with false. cbn [negb orb].
    rewrite andb_true_r. apply contains_one.
  - change (fish_lines own any4 any6 (fish_ip (s "ipv6+"))) with (Some (filter (contains [COLON]) (map (fun x => fst x ++ [TAB] ++ snd x) own ++ [s "0.0.0.0" ++ [TAB] ++ any4; s "::" ++ [TAB] ++ any6]))).
    f_equal. apply filter_ext. intros x. change (mems (s "ipv6+") four) with false. change (mems (s "ipv6+") six) with true. cbn [negb orb andb].
    apply contains_one.
  - change (fish_lines own any4 any6 (fish_ip (s "all+"))) with (Some (map (fun x => fst x ++ [TAB] ++ snd x) own ++ [s "0.0.0.0" ++ [TAB] ++ any4; s "::" ++ [TAB] ++ any6])).
    f_equal. symmetry. apply filter_true. intros x. reflexivity.
Qed.

(** The code for Fish offers exactly the addresses that are wanted if the names of the interfaces have
    no dot and no colon and no IPv6 address is written with dots.  Missing: other names of interfaces
    (see the refutation), IPv6 addresses like [::ffff:192.0.2.1]. *)
Theorem C137_fish_partial : forall kind own any4 any6 address, In kind kinds ->
  (forall a i, In (a, i) own -> ~ In TAB a /\ (In DOT a <-> ~ In COLON a) /\ ~ In DOT i /\ ~ In COLON i) ->
  (forall i, In i [any4; any6] -> ~ In DOT i /\ ~ In COLON i) ->
  (fish_offers own any4 any6 (fish_ip kind) address <-> wanted own kind address).
Proof.
  intros kind own any4 any6 a K O A. unfold fish_offers. rewrite fish_shape by exact K.
  rewrite wanted_iff by exact K.
  assert (M4 : mems kind four = true <-> In kind four) by apply mems_In.
  assert (M6 : mems kind six = true <-> In kind six) by apply mems_In.
  assert (Mp : mems kind plus = true <-> In kind plus) by apply mems_In.
  assert (X : ~ (In kind four /\ In kind six)).
  { intros (H & H'). revert H'. destruct H as [<- | [<- | []]]; not_in. }
  destruct (A any4 (or_introl eq_refl)) as (A4d & A4c). destruct (A any6 (or_intror (or_introl eq_refl))) as (A6d & A6c).
  assert (D4 : In DOT (s "0.0.0.0")) by (apply memc_In; reflexivity).
  assert (C4 : ~ In COLON (s "0.0.0.0")) by (apply memc_false; reflexivity).
  assert (T4 : ~ In TAB (s "0.0.0.0")) by (apply memc_false; reflexivity).
  assert (D6 : ~ In DOT (s "::")) by (apply memc_false; reflexivity).
  assert (C6 : In COLON (s "::")) by (apply memc_In; reflexivity).
  assert (T6 : ~ In TAB (s "::")) by (apply memc_false; reflexivity).
  (* a line of an address *)
  assert (L : forall b i, ~ In DOT i -> ~ In COLON i -> (In DOT b <-> ~ In COLON b) ->
    ((negb (mems kind four) || memc DOT (b ++ [TAB] ++ i)) && (negb (mems kind six) || memc COLON (b ++ [TAB] ++ i)) = true <->
     (In kind four -> ~ In COLON b) /\ (In kind six -> In COLON b))).
  { intros b i Hd Hc Hb. rewrite andb_true_iff, !orb_true_iff, !memc_In, !in_app_iff.
    assert (Nd : ~ In DOT [TAB]) by (intros [E | []]; discriminate E). assert (Nc : ~ In COLON [TAB]) by (intros [E | []]; discriminate E).
    destruct (mems kind four), (mems kind six); cbn [negb]; intuition congruence. }
  split.
  - intros (lines & line & E & H & It). apply f_equal with (f := fun o => match o with Some l => l | None => [] end) in E. cbv beta iota in E. subst lines.
    rewrite filter_In in H. destruct H as (H & F). rewrite in_app_iff in H. destruct H as [H | H].
    + apply in_map_iff in H as ([b i] & <- & H). cbn [fst snd] in *. destruct (O b i H) as (Tb & Db & Di & Ci).
      apply item_iff in It; [|exact Tb]. subst a. apply L in F; [|assumption..]. split; [apply F|]. split; [apply F|]. left. now exists i.
    + destruct (mems kind plus) eqn:P; [|destruct H]. assert (In kind plus) by now apply Mp. destruct H as [<- | [<- | []]].
      * apply item_iff in It; [|exact T4]. subst a. apply L in F; [|tauto..]. tauto.
      * apply item_iff in It; [|exact T6]. subst a. apply L in F; [|tauto..]. tauto.
  - intros (W4 & W6 & [(i & H) | (P & [-> | ->])]).
    + destruct (O a i H) as (Tb & Db & Di & Ci). eexists. exists (a ++ [TAB] ++ i). split; [reflexivity|].
      split; [|now apply item_iff]. apply filter_In. split; [|apply L; tauto].
      apply in_app_iff. left. apply in_map_iff. now exists (a, i).
    + eexists. exists (s "0.0.0.0" ++ [TAB] ++ any4). split; [reflexivity|]. split; [|now apply item_iff].
      apply filter_In. split; [|apply L; tauto]. apply in_app_iff. right. apply Mp in P. rewrite P. now left.
    + eexists. exists (s "::" ++ [TAB] ++ any6). split; [reflexivity|]. split; [|now apply item_iff].
      apply filter_In. split; [|apply L; tauto]. apply in_app_iff. right. apply Mp in P. rewrite P. right. now left.
Qed.
Print Assumptions C137_fish_partial.

(** It does not for all: the name of the interface is searched too, so the IPv6 address of a VLAN is
    offered as an IPv4 address. *)
Theorem C137_fish_refuted : exists own address,
  fish_offers own (s "all IPv4") (s "all IPv6") (fish_ip (s "ipv4")) address /\ ~ wanted own (s "ipv4") address.
Proof.
  exists [(s "fe80::1", s "eth0.100")], (s "fe80::1"). split.
  - eexists. exists (s "fe80::1" ++ [TAB] ++ s "eth0.100"). split; [reflexivity|]. split; [now left|].
    apply item_iff; [apply memc_false; reflexivity|reflexivity].
  - intros ((H & _) & _). apply H; [now left|]. apply memc_In. reflexivity.
Qed.
Print Assumptions C137_fish_refuted.

(** A case: a computer with two addresses *)
Definition laptop : computer := [(s "192.168.0.7", s "wlan0"); (s "fe80::1", s "wlan0")].
Example C137_example :
  (forall kind, check_ip_address [VStr kind] = Ok tt <-> In kind kinds) /\
  bash_replies laptop (s "_ip_addresses") (s "1") (bash_ip (s "_ip_addresses") (s "all+")) [] = Some [s "192.168.0.7"] /\
  bash_replies laptop (s "_ip_addresses") [] (bash_ip (s "_ip_addresses") (s "ipv6+")) [] = Some [s "fe80::1"; s "::"] /\
  fish_lines laptop [] [] (fish_ip (s "ipv4")) = Some [s "192.168.0.7" ++ [TAB] ++ s "wlan0"] /\
  (forall a i, In (a, i) laptop -> ~ In TAB a /\ (In DOT a <-> ~ In COLON a) /\ ~ In DOT i /\ ~ In COLON i) /\
  wanted laptop (s "ipv4+") (s "0.0.0.0") /\ ~ wanted laptop (s "ipv4+") (s "fe80::1").
Proof.
  split; [exact accepted_kinds|]. split; [vm_compute; reflexivity|]. split; [vm_compute; reflexivity|]. split; [vm_compute; reflexivity|].
  split.
  - assert (Q : forall c x, In c x <-> memc c x = true) by (intros; now rewrite memc_In).
    intros a i [E | [E | []]]; injection E as <- <-; rewrite !Q; repeat split; vm_compute; congruence.
  - split.
    + split; [split; [intros _; apply memc_false; reflexivity | not_in]|]. right. split; [now left|now left].
    + intros ((H & _) & _). apply H; [right; now left|]. apply memc_In. reflexivity.
Qed.
