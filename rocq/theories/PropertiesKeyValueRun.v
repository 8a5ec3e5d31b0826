(** * Property C123: completing keys and values in Bash.  Statements only. *)
From Coq Require Import Lia.
From Verif Require Import Base PyStr SpecBashWords BashWords BashWordsProofs SpecPrefix PrefixProofs SpecValueList ValueList ValueListProofs KeyValue SpecKeyValue KeyValueProofs
  SpecExec Exec ExecProofs SpecKeyValueRun KeyValueRun KeyValueRunProofs.
Open Scope string_scope.
Open Scope list_scope.
Open Scope nat_scope.

(** C123, lists.  Some keys, with or without values, and the beginning [b] of another key were typed, in
    whatever quotes.  The keys that are left (C104) and begin with [b] are offered: if one of them is
    accepted, it is on the command line behind the elements that were typed.

    What is missing: a bare word break that is no separator, separators that are word breaks and quoted
    although the word does not begin with a quote, a backslash that stays in double quotes, and white
    space as separator. *)
Theorem C123_keys_partial : forall breaks sep1 sep2 call test func l cur us open pairs b,
  units Outside cur = Some (us, open) -> none_kept us -> written breaks [sep1; sep2] cur us ->
  sep1 <> sep2 -> memc sep1 [SP; TAB; LF] = false -> ~ In LF (text us) ->
  text us = complete_pairs sep1 sep2 pairs ++ b -> Forall (pair_ok sep1 sep2) pairs -> ~ In sep1 b -> ~ In sep2 b ->
  NoDup (map own_key l) -> (forall e, In e l -> own_key e <> []) -> (forall e x, In e l -> In x (excluded e) -> ~ In SP x) ->
  let args := flat_map (fun e => [own_key e; value_command e; join [SP] (excluded e)]) (filter (applies test func own_key) l) in
  exists keys,
    (forall key, In key keys <-> to_be_offered test func l (map fst pairs ++ match b with [] => [] | _ => [b] end) key /\ prefix b key) /\
    Forall2 (fun key reply => SpecPrefix.accepted breaks us reply (complete_pairs sep1 sep2 pairs ++ key)) keys
      (key_value_list breaks call sep1 sep2 args cur).
Proof.
  intros breaks sep1 sep2 call test func l cur us open pairs b Hu Hk Hw Hs Hi Hl E Hp H1 H2 Hd Hn He args.
  eexists. split; [| unfold key_value_list; eapply (list_keys breaks sep1 sep2 cur us open pairs Hu Hk Hw Hs Hi Hl Hp); eassumption].
  intros key. rewrite filter_In. pose proof (fun K => bash_remaining test func l (map fst pairs ++ match b with [] => [] | _ => [b] end) key Hd He K) as R. fold args in R.
  unfold remaining_keys in R. cbv zeta in R. rewrite starts_with_app. fold (prefix b key).
  split.
  - intros [I S]. split; [| exact S]. apply R; [| exact I]. intros ->. apply filter_In in I as [I _]. unfold args in I. rewrite triples_told, map_map in I. cbn [fst] in I.
    apply in_map_iff in I as (e & Ee & I). apply filter_In in I as [I _]. now apply (Hn e I).
  - intros [T S]. split; [| exact S]. apply R; [| exact T]. destruct T as (e & I & <- & _). now apply Hn.
Qed.
Print Assumptions C123_keys_partial.

(** C123, lists.  If the key of the last element, and the beginning of its value were typed, then the
    completer of this key is asked for this value; if one of its answers is accepted, it is on the
    command line behind the key. *)
Theorem C123_value_partial : forall breaks sep1 sep2 call test func l cur us1 us2 open pairs e v,
  units Outside cur = Some (us1 ++ us2, open) -> none_kept (us1 ++ us2) -> written breaks [sep1; sep2] cur (us1 ++ us2) ->
  sep1 <> sep2 ->
  In e l -> applies test func own_key e = true -> NoDup (map own_key l) ->
  text us1 = complete_pairs sep1 sep2 pairs ++ own_key e ++ [sep2] -> text us2 = v ->
  ~ In sep1 (own_key e) -> ~ In sep2 (own_key e) -> ~ In sep1 v -> (forall u, In u us2 -> is_break breaks u = false) ->
  let args := flat_map (fun e => [own_key e; value_command e; join [SP] (excluded e)]) (filter (applies test func own_key) l) in
  Forall2 (fun word reply => SpecPrefix.accepted breaks (us1 ++ us2) reply (complete_pairs sep1 sep2 pairs ++ own_key e ++ [sep2] ++ word))
    (call (value_command e) v) (key_value_list breaks call sep1 sep2 args cur).
Proof.
  intros breaks sep1 sep2 call test func l cur us1 us2 open pairs e v Hu Hk Hw Hs He Ha Hd E1 E2 H1 H2 H3 Hv args.
  assert (element (triples args) (own_key e) = Some (value_command e, join [SP] (excluded e))) as El.
  { unfold args. rewrite triples_told. apply element_told; [| apply filter_In; auto]. clear - Hd. induction l as [| a l IH]; [constructor |]. cbn [map] in Hd. inversion Hd as [| ? ? N1 N2]; subst. cbn [filter].
    destruct (applies test func own_key a); [| auto]. cbn [map]. constructor; [| auto]. intros K. apply N1. apply in_map_iff in K as (e & <- & He).
    apply filter_In in He as [He _]. now apply in_map. }
  unfold key_value_list. pose proof (list_value breaks sep1 sep2 cur (us1 ++ us2) open pairs Hu Hk Hw Hs (triples args)
    (fun key value => match element (triples args) key with Some (func, _) => call func value | None => [] end) (own_key e) v) as X. cbn beta in X. rewrite El in X. apply X; clear X; try assumption.
  - rewrite text_app, E1, E2. now rewrite <- !app_assoc.
  - intros a b E Eb u I. apply Hv. assert (length b = length us2) as L by (rewrite <- (map_length fst b), <- (map_length fst us2); change (map fst b) with (text b); change (map fst us2) with (text us2); congruence).
    assert (b = us2) as <-; [| exact I].
    assert (length a = length us1) as La by (apply (f_equal (@length _)) in E; rewrite !app_length in E; lia).
    clear - E La. revert us1 E La. induction a as [| x a IH]; intros [| y us1] E La; try discriminate La; cbn [app] in E; [now symmetry |]. injection E as _ E. apply (IH us1 E). now injection La.
Qed.
Print Assumptions C123_value_partial.

(** *** Examples: mount options, with the default word breaks [=] and [:] *)
Definition entry_ro : entry := Entry (s "ro") None NoValue [s "rw"].
Definition entry_rw : entry := Entry (s "rw") None NoValue [s "ro"].
Definition entry_root : entry := Entry (s "root") None AnyValue [].
Definition entry_uid : entry := Entry (s "uid") None (Completes (s "users") []) [].
Definition mounts : list entry := [entry_ro; entry_rw; entry_root; entry_uid].
Definition mount_args : list str := flat_map (fun e => [own_key e; value_command e; join [SP] (excluded e)]) mounts.
Definition users (func value : str) : list str := if str_eqb func (s "users") then filter (starts_with value) [s "anna"; s "andi"; s "bob"] else [].
Definition bare (x : str) : list (N * how) := map (fun c => (c, Bare)) x.
Example C123_keys_example : let breaks := s " =:" in
  let cur := s "uid=bob,rw,r" in
  units Outside cur = Some (bare cur, false) /\ none_kept (bare cur) /\ written breaks (s ",=") cur (bare cur) /\
  text (bare cur) = complete_pairs 44%N 61%N [(s "uid", Some (s "bob")); (s "rw", None)] ++ s "r" /\
  Forall (pair_ok 44%N 61%N) [(s "uid", Some (s "bob")); (s "rw", None)] /\
  NoDup (map own_key mounts) /\
  key_value_list breaks users 44%N 61%N mount_args cur = [s "bob,rw,root"] /\
  key_value_list breaks users 44%N 61%N mount_args (s """uid=bob,rw,r") = [s "uid=bob,rw,root"].
Proof.
  cbv zeta. repeat split; try reflexivity.
  - intros H. apply in_map_iff in H as (u & E & H). unfold bare in H. apply in_map_iff in H as (c & <- & _). discriminate.
  - intros u H. unfold bare in H. apply in_map_iff in H as (c & <- & H). cbn in H. intuition (subst; reflexivity).
  - repeat constructor; cbn; intuition discriminate.
  - repeat constructor; cbn; intuition discriminate.
Qed.
Example C123_value_example : let breaks := s " =:" in
  key_value_list breaks users 44%N 61%N mount_args (s "ro,uid=an") = [s "anna"; s "andi"] /\
  key_value_list breaks users 44%N 61%N mount_args (s "'ro,uid=an") = [s "ro,uid=anna"; s "ro,uid=andi"].
Proof. split; reflexivity. Qed.

(** C123, lists whose keys a command prints.  The keys that are left and begin with [b] are offered, as
    before; *)
Theorem C123_exec_keys_partial : forall breaks q sep1 sep2 l output cur us open pairs b,
  units Outside cur = Some (us, open) -> none_kept us -> written breaks [sep1; sep2] cur us ->
  sep1 <> sep2 -> memc sep1 [SP; TAB; LF] = false -> ~ In LF (text us) ->
  text us = complete_pairs sep1 sep2 pairs ++ b -> Forall (pair_ok sep1 sep2) pairs -> ~ In sep1 b -> ~ In sep2 b ->
  Forall good_key l -> NoDup (map p_key l) ->
  exists keys,
    (forall key, In key keys <-> left l (map fst pairs ++ match b with [] => [] | _ => [b] end) key /\ prefix b key) /\
    Forall2 (fun key reply => SpecPrefix.accepted breaks us reply (complete_pairs sep1 sep2 pairs ++ key)) keys
      (key_value_list_exec breaks q sep1 sep2 (print_keys l) output cur).
Proof.
  intros breaks q sep1 sep2 l output cur us open pairs b Hu Hk Hw Hs Hi Hl E Hp H1 H2 Hg Hd.
  eexists. split; [| unfold key_value_list_exec; eapply (list_keys breaks sep1 sep2 cur us open pairs Hu Hk Hw Hs Hi Hl Hp); eassumption].
  intros key. rewrite filter_In. rewrite (exec_left l _ key Hg Hd), starts_with_app. reflexivity.
Qed.
Print Assumptions C123_exec_keys_partial.
(** and for a value, what the command prints for the key is offered. *)
Theorem C123_exec_value_partial : forall breaks q sep1 sep2 l output cur us open pairs k v,
  units Outside cur = Some (us, open) -> none_kept us -> written breaks [sep1; sep2] cur us ->
  sep1 <> sep2 ->
  text us = complete_pairs sep1 sep2 pairs ++ k ++ [sep2] ++ v ->
  ~ In sep1 k -> ~ In sep2 k -> ~ In sep1 v ->
  (forall us1 us2, us = us1 ++ us2 -> text us2 = v -> forall u, In u us2 -> is_break breaks u = false) ->
  Forall2 (fun word reply => SpecPrefix.accepted breaks us reply (complete_pairs sep1 sep2 pairs ++ k ++ [sep2] ++ word))
    (bash_exec breaks q (output k) v) (key_value_list_exec breaks q sep1 sep2 (print_keys l) output cur).
Proof.
  intros breaks q sep1 sep2 l output cur us open pairs k v Hu Hk Hw Hs E H1 H2 H3 Hv.
  exact (list_value breaks sep1 sep2 cur us open pairs Hu Hk Hw Hs _ (fun key value => bash_exec breaks q (output key) value) k v E H1 H2 H3 Hv).
Qed.
Print Assumptions C123_exec_value_partial.
(** The example of the manual. *)
Definition manual_keys : list printed :=
  [Printed (s "flag") false [] (s "option without an argument") []; Printed (s "argument") false (s "=") (s "option with an argument") [];
   Printed (s "optional") false (s "=?") (s "option with an optional argument") []; Printed (s "repeatable") true [] (s "a repeatable option") [];
   Printed (s "excludes") false [] (s "disable options") [s "flag"; s "argument"]].
Definition manual_values (key : str) : str := if mems key [s "argument"; s "optional"] then print_entries [(s "foo", Some (s "a foo value")); (s "bar", Some (s "a bar value"))] else [].
Example C123_exec_example : let run cur := key_value_list_exec (s " =:") (fun x => x) 44%N 61%N (print_keys manual_keys) manual_values (s cur) in
  Forall good_key manual_keys /\ NoDup (map p_key manual_keys) /\
  run "" = map s ["flag"; "argument"; "optional"; "repeatable"; "excludes"] /\
  run "repeatable,excludes," = map s ["repeatable,excludes,optional"; "repeatable,excludes,repeatable"] /\
  run "flag,argument=" = map s ["foo"; "bar"] /\ run "'flag,argument=b" = map s ["flag,argument=bar"].
Proof.
  cbv zeta. split; [| split; [| repeat split]].
  - repeat constructor; cbn; intuition discriminate.
  - repeat constructor; cbn; intuition discriminate.
Qed.

(** C123, pairs.  Without a separator, the keys that begin with what was typed are offered; behind it,
    the completer of the key is asked. *)
Theorem C123_pair_partial : forall breaks q call sep args cur us open k v func,
  units Outside cur = Some (us, open) -> none_kept us -> written breaks [sep] cur us ->
  text us = k ++ [sep] ++ v -> ~ In sep k -> NoDup (map fst (couples args)) -> In (k, func) (couples args) ->
  (forall us1 us2, us = us1 ++ us2 -> text us2 = v -> forall u, In u us2 -> is_break breaks u = false) ->
  Forall2 (fun word reply => SpecPrefix.accepted breaks us reply (k ++ [sep] ++ word)) (call func v) (key_value_pair breaks q call sep args cur).
Proof.
  intros breaks q call sep args cur us open k v func Hu Hk Hw E H Hd Hf Hv. unfold key_value_pair. eapply pair_value; try eassumption.
  destruct (find (fun x => str_eqb (fst x) k) (rev (couples args))) as [x |] eqn:F.
  - apply find_some in F as [F1 F2]. apply in_rev in F1. apply str_eqb_eq in F2. cbn [option_map]. do 2 f_equal. clear - F1 F2 Hd Hf. subst k.
    induction (couples args) as [| a l IH]; [destruct F1 |]. cbn [map] in Hd. inversion Hd as [| ? ? N1 N2]; subst.
    destruct F1 as [-> | F1], Hf as [F | Hf]; auto.
    + now rewrite F.
    + exfalso. apply N1. apply (in_map fst) in Hf. exact Hf.
    + exfalso. apply N1. subst a. cbn [fst]. now apply in_map.
  - pose proof (find_none _ _ F (k, func)) as K. cbn [fst] in K. rewrite str_eqb_refl in K. discriminate K. now apply -> in_rev.
Qed.
Print Assumptions C123_pair_partial.
Theorem C123_pair_keys_partial : forall breaks q call sep args cur us open,
  units Outside cur = Some (us, open) -> none_kept us -> ~ In sep (text us) ->
  key_value_pair breaks q call sep args cur = map q (filter (starts_with (text us)) (map fst (couples args))).
Proof. intros breaks q call sep args cur us open Hu Hk H. exact (pair_keys breaks sep _ _ cur us open Hu Hk H). Qed.
Print Assumptions C123_pair_keys_partial.
(** The same if a command prints the keys and the values. *)
Theorem C123_pair_exec_partial : forall breaks q sep printed output cur us open,
  units Outside cur = Some (us, open) -> none_kept us -> written breaks [sep] cur us ->
  (~ In sep (text us) -> key_value_pair_exec breaks q sep printed output cur = bash_exec breaks q printed (text us)) /\
  (forall k v, text us = k ++ [sep] ++ v -> ~ In sep k -> 
    (forall us1 us2, us = us1 ++ us2 -> text us2 = v -> forall u, In u us2 -> is_break breaks u = false) ->
    Forall2 (fun word reply => SpecPrefix.accepted breaks us reply (k ++ [sep] ++ word)) (bash_exec breaks q (output k) v) (key_value_pair_exec breaks q sep printed output cur)).
Proof.
  intros breaks q sep printed output cur us open Hu Hk Hw. split.
  - intros H. exact (pair_keys breaks sep _ _ cur us open Hu Hk H).
  - intros k v E H Hv. unfold key_value_pair_exec. eapply pair_value; try eassumption. reflexivity.
Qed.
Print Assumptions C123_pair_exec_partial.
Example C123_pair_example : let args := map s ["owner"; "users"; "mode"; "true"] in
  key_value_pair (s " =:") (fun x => x) users 61%N args (s "ow") = [s "owner"] /\
  key_value_pair (s " =:") (fun x => x) users 61%N args (s "owner=an") = [s "anna"; s "andi"] /\
  key_value_pair (s " =:") (fun x => x) users 61%N args (s "'owner=an") = [s "owner=anna"; s "owner=andi"] /\
  key_value_pair_exec (s " =:") (fun x => x) 61%N (print_entries [(s "owner", None)]) (fun _ => print_entries [(s "anna", Some (s "Anna"))]) (s "owner=") = [s "anna"].
Proof. repeat split. Qed.

(** ** Where C123 is false *)

(** Another word break in the value: what is in front of it in the value is there twice, with [choices] for
    the value: [mode=a:b] becomes [mode=a:a:bc]. *)
Theorem C123_value_break_refuted : exists cur reply,
  key_value_list (s " =:") (fun _ => values (fun x => x) [s "a:bc"]) 44%N 61%N (map s ["mode"; "choices"; ""]) cur = [reply] /\
  cur = s "mode=a:b" /\ reply = s "a:bc" /\ SpecPrefix.accepted (s " =:") (bare cur) reply (s "mode=a:a:bc").
Proof.
  exists (s "mode=a:b"), (s "a:bc"). repeat split. exists (Some 7). split; [| reflexivity].
  exists (bare (s "mode=a")), (COLON, Bare), (bare (s "b")). repeat split. intros u [<- | []]. reflexivity.
Qed.
Print Assumptions C123_value_break_refuted.
(** So it is with the separator itself: [mode=a=b] becomes [mode=a=a=bc]. *)
Theorem C123_value_separator_refuted : exists cur reply,
  key_value_list (s " =:") (fun _ => values (fun x => x) [s "a=bc"]) 44%N 61%N (map s ["mode"; "choices"; ""]) cur = [reply] /\
  cur = s "mode=a=b" /\ reply = s "a=bc" /\ SpecPrefix.accepted (s " =:") (bare cur) reply (s "mode=a=a=bc").
Proof.
  exists (s "mode=a=b"), (s "a=bc"). repeat split. exists (Some 7). split; [| reflexivity].
  exists (bare (s "mode=a")), (EQ, Bare), (bare (s "b")). repeat split. intros u [<- | []]. reflexivity.
Qed.
Print Assumptions C123_value_separator_refuted.
(** A quote that is closed before the separator: [`"mode"=a`] becomes [mode=mode=abc]. *)
Theorem C123_closed_quote_refuted : exists cur us reply, units Outside cur = Some (us, false) /\ cur = s """mode""=a" /\ text us = s "mode=a" /\
  key_value_list (s " =:") (fun _ => values (fun x => x) [s "abc"]) 44%N 61%N (map s ["mode"; "choices"; ""]) cur = [reply] /\
  SpecPrefix.accepted (s " =:") us reply (s "mode=mode=abc").
Proof.
  exists (s """mode""=a"), (map (fun c => (c, InDouble)) (s "mode") ++ bare (s "=a")), (s "mode=abc"). repeat split. exists (Some 5). split; [| reflexivity].
  exists (map (fun c => (c, InDouble)) (s "mode")), (EQ, Bare), (bare (s "a")). repeat split. intros u [<- | []]. reflexivity.
Qed.
Print Assumptions C123_closed_quote_refuted.
(** A separator behind a backslash is no word break: the key is lost. *)
Theorem C123_escaped_refuted : exists cur us reply, units Outside cur = Some (us, false) /\ cur = s "mode\=a" /\ text us = s "mode=a" /\
  key_value_list (s " =:") (fun _ => values (fun x => x) [s "abc"]) 44%N 61%N (map s ["mode"; "choices"; ""]) cur = [reply] /\
  SpecPrefix.accepted (s " =:") us reply (s "abc").
Proof.
  exists (s "mode\=a"), (bare (s "mode") ++ [(61%N, Escaped); (97%N, Bare)]), (s "abc"). repeat split. exists None. split; [| reflexivity].
  intros u H. cbn in H. intuition (subst; reflexivity).
Qed.
Print Assumptions C123_escaped_refuted.
(** A key that is typed completely counts as given: it is not offered, so it cannot be completed. *)
Theorem C123_complete_key_refuted : exists cur, cur = s "ro" /\ In (s "ro") (map own_key mounts) /\
  key_value_list (s " =:") users 44%N 61%N mount_args cur = [s "root"] /\ key_value_list (s " =:") users 44%N 61%N mount_args (s "r") = map s ["ro"; "rw"; "root"].
Proof. exists (s "ro"). repeat split. now left. Qed.
Print Assumptions C123_complete_key_refuted.
(** A key that is printed without a description: the keys it excludes are taken for the description. *)
Theorem C123_no_description_refuted : exists l, l = [Printed (s "ro") false [] [] [s "rw"]; Printed (s "rw") false [] (s "writable") [s "ro"]] /\
  ~ left l [s "ro"] (s "rw") /\
  key_value_list_exec (s " =:") (fun x => x) 44%N 61%N (print_keys l) (fun _ => []) (s "ro,") = [s "ro,rw"].
Proof.
  eexists. split; [reflexivity |]. split; [| reflexivity]. intros [_ H]. destruct (H (Printed (s "ro") false [] [] [s "rw"])) as [H1 _].
  - now left.
  - now left.
  - apply H1. now left.
Qed.
Print Assumptions C123_no_description_refuted.
