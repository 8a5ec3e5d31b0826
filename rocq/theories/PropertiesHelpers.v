(** * C29, C30, C62-C65: helper functions in the generated scripts. *)
From Coq Require Import Relations.
From Verif Require DictSourceProofs.
From Verif Require Import Base Dict PyStr Value StrUtils Preproc Shell Cli Helpers SpecHelpers
  HelpersProofs HelpersMore ShippedHelpers ShippedProofs.
Local Open Scope string_scope.
Local Open Scope list_scope.

(** ** C29 *)

(** After a history of requests the functions in use are the requested ones and all they need,
    each once, and each has the macros that were requested for it. *)
Theorem C29_needed : forall fuel h requests h',
  h_used h = [] -> request_all fuel h requests = Ok h' ->
  NoDup (map fst (h_used h')) /\
  (forall n, In n (map fst (h_used h')) <->
     exists r, In r (map fst requests) /\ needs (h_functions h) r n) /\
  (forall n d, (exists ds, In (n, ds) (h_used h') /\ In d ds) <->
     exists ds, In (n, ds) requests /\ In d ds).
Proof.
  intros fuel h requests h' Hu H.
  destruct (request_all_ok fuel requests h h' H) as (_ & _ & _ & _ & _ & _ & (S1 & S2 & S3)).
  rewrite Hu in S1, S2, S3. assert (Hnd : NoDup (map fst (h_used h'))) by (apply S1; constructor).
  split; [exact Hnd |]. split.
  - intros n. split.
    + intros Hn. apply S2 in Hn. destruct Hn as [[] | Hn]. exact Hn.
    + intros Hn. apply S2. now right.
  - intros n d. split.
    + intros (ds & Hi & Hd). assert (Hh : has (h_used h') n d).
      { exists ds. split; [now apply (In_dget _ str_eqb_spec) | exact Hd]. }
      apply S3 in Hh. destruct Hh as [(l & C & _) | Hh]; [discriminate C | exact Hh].
    + intros Hr. assert (Hh : has (h_used h') n d) by (apply S3; now right).
      destruct Hh as (l & Hl & Hd). exists l. split; [now apply (dget_In _ str_eqb_spec) | exact Hd].
Qed.
Print Assumptions C29_needed.

(** Requests succeed exactly if everything needed is registered and nothing needed needs
    itself.  (With a cycle the real function never returns.) *)
Theorem C29_succeeds_exactly : forall h requests,
  (exists fuel h', request_all fuel h requests = Ok h') <->
  (forall r n, In r (map fst requests) -> needs (h_functions h) r n ->
     registered (h_functions h) n /\ ~ cyclic (h_functions h) n).
Proof.
  intros h requests. split.
  - intros (fuel & h' & H) r n Hr Hn. apply in_map_iff in Hr as ([r' ds] & <- & Hr).
    exact (request_all_only fuel requests h h' H r' ds n Hr Hn).
  - intros H. exists (List.length (h_functions h)).
    destruct (request_all_total (List.length (h_functions h)) requests h) as (h' & E).
    + lia.
    + intros r ds n Hi Hn. apply (H r n); [change r with (fst (r, ds)); now apply in_map | exact Hn].
    + now exists h'.
Qed.
Print Assumptions C29_succeeds_exactly.

(** One piece of code is emitted for every function in use and for every generated function. *)
Theorem C29_one_each : forall h blocks, get_used_functions_code h = Ok blocks ->
  List.length blocks = List.length (h_used h) + List.length (h_dynamic h).
Proof. exact blocks_count. Qed.
Print Assumptions C29_one_each.

(** The code of a function in use is made for exactly these macros: [DEBUG] if asked for, those
    that are defined for the whole script, and those that were requested for the function. *)
Theorem C29_macros : forall functions function_prefix prog debug keep k macros fuel requests h' name ds code,
  request_all fuel (fold_left define macros (registry functions (new_helpers function_prefix prog debug keep k))) requests = Ok h' ->
  In (name, ds) (h_used h') -> used_code h' name ds = Ok code ->
  exists f body all, dget str_eqb name (h_functions (registry functions (new_helpers function_prefix prog debug keep k))) = Some f /\
    get_code k (f_code f) (get_real_function_name h' name) all = Ok body /\
    forall m, In m all <->
      (debug = true /\ m = s "DEBUG") \/ In m macros \/ exists l, In (name, l) requests /\ In m l.
Proof.
  intros functions function_prefix prog debug keep k macros fuel requests h' name ds code H Hin Hc.
  set (h0 := new_helpers function_prefix prog debug keep k) in *.
  assert (Hr : forall fs h, h_defines (registry fs h) = h_defines h /\ h_used (registry fs h) = h_used h /\ h_class (registry fs h) = h_class h).
  { unfold registry. induction fs as [| f fs IH]; intros h; cbn [fold_left]; [auto |]. destruct (IH (add_function h f)) as (-> & -> & ->). auto. }
  assert (Hd : forall ms h, (forall m, In m (h_defines (fold_left define ms h)) <-> In m ms \/ In m (h_defines h)) /\
    h_used (fold_left define ms h) = h_used h /\ h_class (fold_left define ms h) = h_class h /\ h_functions (fold_left define ms h) = h_functions h).
  { induction ms as [| m ms IH]; intros h; cbn [fold_left]; [split; [intros m; cbn; tauto | auto] |].
    destruct (IH (define h m)) as (A & -> & -> & ->). split; [| auto]. intros x. rewrite A. cbn. intuition. }
  destruct (Hr functions h0) as (R1 & R2 & R3). destruct (Hd macros (registry functions h0)) as (D1 & D2 & D3 & D4).
  assert (Hu0 : h_used (fold_left define macros (registry functions h0)) = []) by (rewrite D2, R2; reflexivity).
  destruct (C29_needed fuel _ requests h' Hu0 H) as (Hnd & _ & Hm).
  destruct (request_all_ok fuel requests _ h' H) as (F1 & _ & F3 & _ & F5 & _).
  unfold used_code in Hc. rewrite F1, D4 in Hc. destruct (dget str_eqb name (h_functions (registry functions h0))) as [f |] eqn:Ef; [| discriminate].
  rewrite F3, D3, R3 in Hc. change (h_class h0) with k in Hc. rewrite F5 in Hc. set (defs := h_defines (fold_left define macros (registry functions h0))) in *.
  destruct (get_code k (f_code f) (get_real_function_name h' name) (defs ++ ds)) as [e | body] eqn:Eb; [discriminate |].
  exists f, body, (defs ++ ds). split; [reflexivity |]. split; [exact Eb |]. intros m. rewrite in_app_iff. rewrite D1, R1.
  assert (Hmm : In m ds <-> exists l, In (name, l) requests /\ In m l).
  { rewrite <- Hm. split; [eauto |]. intros (ds' & Hin' & Hd'). enough (ds = ds') by now subst.
    apply (In_dget _ str_eqb_spec) in Hin, Hin'; try assumption. congruence. }
  rewrite Hmm. unfold h0. cbn [new_helpers h_defines]. destruct debug; cbn [In]; split; intuition (subst; auto; discriminate).
Qed.
Print Assumptions C29_macros.

(** A registry of three functions; [c] is needed twice. *)
Definition small : helpers :=
  registry [new_function (s "c") (s "echo c") [];
            new_function (s "b") (s "c") [s "c"];
            new_function (s "a") (s "b; c") [s "b"; s "c"];
            new_function (s "loop") (s "loop") [s "loop"]]
    (new_helpers (s "_$PROG") (s "my-tool") false true ShellFunction).
Example C29_example :
  exists h blocks, request_all 9 small [(s "a", []); (s "c", [s "X"])] = Ok h /\
    map fst (h_used h) = [s "a"; s "b"; s "c"] /\ names_ok h /\
    get_used_functions_code h = Ok blocks /\
    nth 0 blocks [] = s "_my-tool__a() {
  _my-tool__b; _my-tool__c
}".
Proof.
  eexists. eexists. split; [vm_compute; reflexivity |]. split; [vm_compute; reflexivity |]. split.
  - assert (Hh : forall n, In n [s "a"; s "b"; s "c"] -> helper_name n).
    { intros n Hn. apply helper_nameb_ok. repeat (destruct Hn as [<- | Hn]; [vm_compute; reflexivity |]). destruct Hn. }
    split; [| split].
    + intros c Hc. vm_compute in Hc. repeat (destruct Hc as [<- | Hc]; [repeat split; discriminate |]). destruct Hc.
    + exact Hh.
    + intros n f d Hn Hf Hd. change (In n [s "a"; s "b"; s "c"]) in Hn.
      assert (Hd' : In d [s "b"; s "c"]).
      { repeat (destruct Hn as [<- | Hn]; [vm_compute in Hf; injection Hf as <-; vm_compute in Hd; vm_compute; tauto |]).
        destruct Hn. }
      clear Hn Hf Hd. split; [apply Hh; now right |]. split.
      * intros (a & b & E & Hn & Hw & Ha & Hb). change (s "_my-tool" = a ++ d ++ b) in E.
        assert (Hi : In (hd 0%N d) (s "_my-tool")).
        { rewrite E. apply in_or_app. right. destruct d; [contradiction | now left]. }
        destruct Hd' as [<- | [<- | []]]; vm_compute in Hi; intuition discriminate.
      * destruct Hd' as [<- | [<- | []]]; discriminate.
  - split; vm_compute; reflexivity.
Qed.
Example C29_macros_example : exists h ds code,
  request_all 9 (fold_left define [s "Y"; s "Z"]
    (registry [new_function (s "c") (s "#ifdef X
echo x
#endif
#ifdef Y
echo y
#endif
#ifdef W
echo w
#endif") []; new_function (s "b") (s "c") [s "c"]] (new_helpers (s "_$PROG") (s "tool") true true ShellFunction)))
    [(s "b", [s "W"]); (s "c", [s "X"])] = Ok h /\ In (s "c", ds) (h_used h) /\ used_code h (s "c") ds = Ok code /\
  code = s "_tool__c() {
  echo x
  echo y
}".
Proof. eexists. eexists. eexists. split; [vm_compute; reflexivity |]. split; [right; left; reflexivity |]. split; vm_compute; reflexivity. Qed.
Example C29_cycle_example : cyclic (h_functions small) (s "loop") /\
  request_all 1000 small [(s "loop", [])] = Err OutOfFuel.
Proof.
  split; [| vm_compute; reflexivity].
  apply t_step. eexists. split; [vm_compute; reflexivity | now left].
Qed.

(** ** C30 *)

(** Generated functions: additions never fail, equal code gets one name and different code
    different names, and a name is the one asked for, maybe with a number. *)
Theorem C30_unique : forall h adds, h_dynamic h = [] ->
  exists h' names, add_all h adds = Ok (h', names) /\ List.length names = List.length adds /\
    (forall i j base1 code1 base2 code2 n1 n2,
       nth_error adds i = Some (base1, code1) -> nth_error adds j = Some (base2, code2) ->
       nth_error names i = Some n1 -> nth_error names j = Some n2 ->
       (n1 = n2 <-> code1 = code2)) /\
    (forall i n, nth_error names i = Some n ->
       exists base code, nth_error (map snd adds) i = Some code /\ In (base, code) adds /\
         named_after base n) /\
    NoDup (map snd (h_dynamic h')) /\
    (forall code n, In (code, n) (h_dynamic h') <-> In (code, n) (combine (map snd adds) names)).
Proof.
  intros h adds Hd. destruct (add_all_ok adds h) as (h' & names & E & [W1 W2] & A & _ & Q & _).
  { unfold dyn_wf. rewrite Hd. split; constructor. }
  rewrite Hd in Q.
  assert (Hat : forall i base code n, nth_error adds i = Some (base, code) -> nth_error names i = Some n ->
    dget str_eqb code (h_dynamic h') = Some n).
  { clear -A. induction A as [| [b c] n adds names Hn HA IH]; intros i base code m Ha Hm;
      destruct i as [| i]; try discriminate; cbn in Ha, Hm.
    - injection Ha as -> ->. injection Hm as ->. exact Hn.
    - exact (IH i base code m Ha Hm). }
  assert (Hl : List.length names = List.length adds) by (clear -A; induction A; cbn; congruence).
  exists h', names. split; [exact E |]. split; [exact Hl |].
  split; [| split; [| split; [exact W2 |]]].
  - intros i j b1 c1 b2 c2 n1 n2 Hi Hj Hn1 Hn2. pose proof (Hat _ _ _ _ Hi Hn1) as G1.
    pose proof (Hat _ _ _ _ Hj Hn2) as G2. split.
    + intros ->. now apply (dget_snd_inj (h_dynamic h') c1 c2 n2).
    + intros ->. congruence.
  - intros i n Hn. destruct (nth_error adds i) as [[base code] |] eqn:Hi.
    + destruct (Q code n (Hat _ _ _ _ Hi Hn)) as [C | (b & Hb & Hna)]; [discriminate C |].
      exists b, code. split; [| now split]. rewrite nth_error_map, Hi. reflexivity.
    + apply nth_error_None in Hi. assert (nth_error names i <> None) by congruence.
      apply nth_error_Some in H. lia.
  - intros code n. split.
    + intros Hi. apply (In_dget _ str_eqb_spec) in Hi; [| exact W1].
      destruct (Q code n Hi) as [C | (b & Hb & _)]; [discriminate C |].
      apply In_nth_error in Hb as (i & Hb).
      destruct (nth_error names i) as [m |] eqn:Hm.
      * assert (m = n) as -> by (pose proof (Hat _ _ _ _ Hb Hm); congruence).
        clear -Hb Hm. revert adds names Hb Hm. induction i as [| i IH]; intros adds names Hb Hm;
          destruct adds as [| [b0 c0] adds], names as [| n0 names]; try discriminate; cbn in *.
        -- injection Hb as -> ->. injection Hm as ->. now left.
        -- right. now apply IH.
      * apply nth_error_None in Hm. assert (nth_error adds i <> None) by congruence.
        apply nth_error_Some in H. lia.
    + intros Hi. apply (dget_In _ str_eqb_spec). clear -A Hi.
      induction A as [| [b c] m adds names Hn HA IH]; [destruct Hi |].
      cbn in Hi. destruct Hi as [Hi | Hi]; [injection Hi as -> ->; exact Hn | now apply IH].
Qed.
Print Assumptions C30_unique.

Example C30_example :
  match add_all small [(s "_t__x", s "A"); (s "_t__x", s "B"); (s "_t__y", s "A"); (s "_t__x", s "C")] with
  | inr (_, names) => names = [s "_t__x"; s "_t__x0"; s "_t__x"; s "_t__x1"]
  | inl _ => False
  end.
Proof. vm_compute. reflexivity. Qed.

(** ** C62 *)

(** Replacing names one after the other renames exactly the words that are dependencies,
    all at once, if no dependency is a word of a real name. *)
Theorem C62_whole_words : forall (real : str -> str) deps x,
  (forall d, In d deps -> d <> [] /\ forallb is_word d = true) ->
  (forall d d', In d deps -> In d' deps -> ~ word_of d (real d')) ->
  in_words (fun w => if in_dec str_eq_dec w deps then real w else w) x
    (fold_left (fun code dep => replace_function_name dep (real dep) code) deps x).
Proof.
  intros real deps x H1 H2. rewrite (rename_all real deps x H1 H2). apply map_words_in.
Qed.
Print Assumptions C62_whole_words.

(** The emitted code has one definition for every function in use, in that order, and then one
    for every generated function. *)
Theorem C62_definitions_partial : forall h blocks,
  names_ok h -> (forall n, In n (map snd (h_dynamic h)) -> ~ In LF n) ->
  get_used_functions_code h = Ok blocks ->
  map first_line blocks =
  map (header (h_class h))
    (map (fun n => h_prefix h ++ s "__" ++ n) (map fst (h_used h)) ++ map snd (h_dynamic h)).
Proof. exact emitted_first_lines. Qed.
Print Assumptions C62_definitions_partial.


(** The program [docker-exec-it] has the helper name [exec] as a word: the emitted Zsh function
    has another name than the one used by its callers. *)
Theorem C62_prefix_word_refuted : exists h blocks called,
  use_function 40 (registry zsh_functions
    (new_helpers (s "_$PROG") (s "docker-exec-it") false false ShellFunction))
    (s "key_value_pair_exec") [] = Ok (h, called) /\
  get_used_functions_code h = Ok blocks /\
  called = s "_docker-exec-it__key_value_pair_exec" /\
  map first_line blocks = [s "_docker-_docker-exec-it__exec-it__key_value_pair_exec() {";
                           s "_docker-exec-it__exec() {"].
Proof.
  set (used := use_function 40 _ _ _).
  assert (H : match used with
    | inr (h, called) => called = s "_docker-exec-it__key_value_pair_exec" /\
        match get_used_functions_code h with
        | inr blocks => map first_line blocks = [s "_docker-_docker-exec-it__exec-it__key_value_pair_exec() {";
                                                 s "_docker-exec-it__exec() {"]
        | inl _ => False
        end
    | inl _ => False
    end) by (vm_compute; split; reflexivity).
  destruct used as [e | [h called]]; [destruct H |]. destruct H as [H1 H2].
  destruct (get_used_functions_code h) as [e | blocks] eqn:E; [destruct H2 |].
  exists h, blocks, called. repeat (split; [assumption || reflexivity |]). exact H2.
Qed.
Print Assumptions C62_prefix_word_refuted.

Example C62_example :
  fold_left (fun code dep => replace_function_name dep (s "_p__" ++ dep) code) [s "exec"; s "values"]
    (s "exec_fast; exec $values|values") = s "exec_fast; _p__exec $_p__values|_p__values".
Proof. vm_compute. reflexivity. Qed.

(** ** C63 *)

(** Helper functions and generated functions have different names, if no positional's metavar
    is the name of a helper in use and no option string ends like a helper's real name. *)
Theorem C63_distinct_partial : forall h adds h' names,
  h_dynamic h = [] -> NoDup (map fst (h_used h)) ->
  (forall n, In n (map fst (h_used h)) -> helper_name n) ->
  add_all h adds = Ok (h', names) ->
  (forall base code, In (base, code) adds -> exists ps c o,
     context_name ps c o (h_prefix h) = Ok base /\
     forall n, In n (map fst (h_used h)) -> owner_ok n o) ->
  NoDup (map (fun n => h_prefix h ++ s "__" ++ n) (map fst (h_used h')) ++ map snd (h_dynamic h')).
Proof.
  intros h adds h' names Hd Hn Hh E Ho.
  destruct (add_all_ok adds h) as (h2 & names2 & E2 & [W1 W2] & A & _ & Q & U & _).
  { unfold dyn_wf. rewrite Hd. split; constructor. }
  rewrite E in E2. apply Ok_inj in E2. injection E2 as <- <-. rewrite U. rewrite Hd in Q.
  apply DictSourceProofs.NoDup_app_intro; [| exact W2 |].
  - apply FinFun.Injective_map_NoDup; [| exact Hn].
    intros a b H. apply app_inv_head in H. now apply app_inv_head in H.
  - intros x Hx Hi. apply in_map_iff in Hx as (n & <- & Hin). apply in_map_iff in Hi as ([code m] & Em & Hi).
    cbn in Em. subst m. apply (In_dget _ str_eqb_spec) in Hi; [| exact W1].
    destruct (Q _ _ Hi) as [C | (base & Hb & Hna)]; [discriminate C |].
    destruct (Ho base code Hb) as (ps & c & o & Hc & Hok).
    exact (context_distinct ps c o (h_prefix h) base _ n Hc Hna (Hh n Hin) (Hok n Hin) eq_refl).
Qed.
Print Assumptions C63_distinct_partial.

(** A positional with the metavar [exec] gets a function that replaces the helper [exec]. *)
Definition tool : cmd := Cmd (s "p") None [] None XInherit XInherit XInherit []
  [MkPos 1 (Some (s "exec")) None [] false false None None] None.
Theorem C63_metavar_refuted : exists base h called h' name blocks,
  context_name [] tool (OwnerPositional (MkPos 1 (Some (s "exec")) None [] false false None None) 1)
    (s "_p") = Ok base /\
  use_function 40 (registry bash_functions
    (new_helpers (s "_$PROG") (s "p") false false ShellFunction)) (s "exec") [] = Ok (h, called) /\
  add_dynamic_func h base (s "compgen -c") = Ok (h', name) /\
  name = called /\
  get_used_functions_code h' = Ok blocks /\
  map first_line blocks = [s "_p__exec() {"; s "_p__exec() {"].
Proof.
  exists (s "_p__exec"). set (used := use_function 40 _ _ _).
  assert (H : match used with
    | inr (h, called) => match add_dynamic_func h (s "_p__exec") (s "compgen -c") with
        | inr (h', name) => name = called /\
            match get_used_functions_code h' with
            | inr blocks => map first_line blocks = [s "_p__exec() {"; s "_p__exec() {"]
            | inl _ => False
            end
        | inl _ => False
        end
    | inl _ => False
    end) by (vm_compute; split; reflexivity).
  destruct used as [e | [h called]]; [destruct H |]. exists h, called.
  destruct (add_dynamic_func h _ _) as [e | [h' name]] eqn:E; [destruct H |]. destruct H as [H1 H2].
  destruct (get_used_functions_code h') as [e | blocks] eqn:E2; [destruct H2 |].
  exists h', name, blocks. split; [vm_compute; reflexivity |].
  split; [reflexivity |]. split; [reflexivity || exact E |]. split; [exact H1 |]. split; [reflexivity || exact E2 | exact H2].
Qed.
Print Assumptions C63_metavar_refuted.

Example C63_example : exists base, 
  context_name [] tool (OwnerOption (MkOpt [s "--out"] None None None false None false XInherit false false None None SepInherit))
    (s "_p") = Ok base /\ base = s "_p__--out" /\
  owner_ok (s "exec") (OwnerOption (MkOpt [s "--out"] None None None false None false XInherit false false None None SepInherit)) /\
  helper_name (s "exec").
Proof.
  eexists. split; [vm_compute; reflexivity |]. split; [reflexivity |]. split.
  - exists (s "-out"), (s "--out"). split; [reflexivity |]. split; [reflexivity |].
    intros (a & E). apply (f_equal (fun x => starts_with (rev (s "exec")) (rev x))) in E.
    rewrite !rev_app_distr in E. vm_compute in E. discriminate E.
  - apply helper_nameb_ok. vm_compute. reflexivity.
Qed.

(** ** C64 *)

(** Commands whose names (below the root) have only letters and digits get different completion
    functions, unless their paths are the same. *)
Theorem C64_paths_partial : forall prefix ps1 c1 ps2 c2 suffix,
  (forall x, In x (path_below_root ps1 c1) -> alnum x) ->
  (forall x, In x (path_below_root ps2 c2) -> alnum x) ->
  make_completion_funcname prefix ps1 c1 suffix = make_completion_funcname prefix ps2 c2 suffix ->
  path_below_root ps1 c1 = path_below_root ps2 c2.
Proof.
  intros prefix ps1 c1 ps2 c2 suffix H1 H2 H. unfold make_completion_funcname in H.
  apply app_inv_tail in H. rewrite !get_parents_rev in H. unfold path_below_root in *.
  destruct (map c_prog (rev ps1 ++ [c1])) as [| r1 l1] eqn:E1.
  { apply (f_equal (@List.length str)) in E1. rewrite map_length, app_length in E1. cbn in E1. lia. }
  destruct (map c_prog (rev ps2 ++ [c2])) as [| r2 l2] eqn:E2.
  { apply (f_equal (@List.length str)) in E2. rewrite map_length, app_length in E2. cbn in E2. lia. }
  cbn [tl set_first] in *. now apply (ident_path_inj prefix).
Qed.
Print Assumptions C64_paths_partial.

(** [tool remote-add] and [tool remote add] get the same completion function. *)
Definition leaf (name : str) (subs : list cmd) : cmd :=
  Cmd name None [] None XInherit XInherit XInherit [] [] (match subs with [] => None | _ => Some subs end).
Definition r_add := leaf (s "add") [].
Definition r_remote := leaf (s "remote") [r_add].
Definition r_remote_add := leaf (s "remote-add") [].
Definition r_tool := leaf (s "tool") [r_remote; r_remote_add].
Theorem C64_same_function_refuted :
  located r_tool [r_remote; r_tool] r_add /\ located r_tool [r_tool] r_remote_add /\
  make_completion_funcname (s "_tool") [r_remote; r_tool] r_add [] = s "_tool_remote_add" /\
  make_completion_funcname (s "_tool") [r_tool] r_remote_add [] = s "_tool_remote_add" /\
  path_below_root [r_remote; r_tool] r_add <> path_below_root [r_tool] r_remote_add.
Proof.
  split; [| split; [| split; [| split]]].
  - apply located_sub; [| now left]. apply located_sub; [apply located_root | now left].
  - apply located_sub; [apply located_root | right; now left].
  - vm_compute. reflexivity.
  - vm_compute. reflexivity.
  - vm_compute. discriminate.
Qed.
Print Assumptions C64_same_function_refuted.
(** So do the siblings [a-b] and [a_b]. *)
Theorem C64_siblings_refuted :
  make_completion_funcname (s "_tool") [r_tool] (leaf (s "a-b") []) [] =
  make_completion_funcname (s "_tool") [r_tool] (leaf (s "a_b") []) [].
Proof. vm_compute. reflexivity. Qed.
Print Assumptions C64_siblings_refuted.
Example C64_example :
  make_completion_funcname (s "_tool") [r_remote; r_tool] r_add [] = s "_tool_remote_add" /\
  alnum (s "remote") /\ alnum (s "add").
Proof. split; [vm_compute; reflexivity |]. split; split; vm_compute; (reflexivity || discriminate). Qed.

(** ** C65 *)

(** The helper functions that come with crazy-complete can be requested in any order, with any
    macros and any plain prefix: everything they need exists, and their code is accepted. *)
Theorem C65_shipped : forall fs k function_prefix prog debug keep requests fuel,
  shipped fs ->
  let h := registry fs (new_helpers function_prefix prog debug keep k) in
  plain_text (replace_s (s "$PROG") prog function_prefix) ->
  (forall r ds, In (r, ds) requests -> In r (map f_name fs)) ->
  (List.length fs <= fuel)%nat ->
  exists h' blocks, request_all fuel h requests = Ok h' /\ get_used_functions_code h' = Ok blocks.
Proof.
  intros fs k function_prefix prog debug keep requests fuel Hs h Hp Hr Hf.
  destruct (shipped_check fs (new_helpers function_prefix prog debug keep k) Hs eq_refl) as [C1 C2].
  fold h in C1, C2.
  assert (Hsame : forall l h0, h_used (registry l h0) = h_used h0 /\ h_dynamic (registry l h0) = h_dynamic h0
    /\ h_prefix (registry l h0) = h_prefix h0).
  { induction l as [| f l IH]; intros h0; [now repeat split |].
    change (registry (f :: l) h0) with (registry l (add_function h0 f)).
    exact (IH (add_function h0 f)). }
  destruct (Hsame fs (new_helpers function_prefix prog debug keep k)) as (S1 & S2 & S3).
  destruct (shipped_total h requests fuel) as (h' & blocks & E1 & E2 & _).
  - exact C1.
  - unfold h. now rewrite S1.
  - unfold h. now rewrite S2.
  - unfold h. rewrite S3. exact Hp.
  - apply (f_equal (@List.length str)) in C2. rewrite !map_length in C2. lia.
  - intros r ds Hi. unfold registered. rewrite C2. now apply (Hr r ds).
  - now exists h', blocks.
Qed.
Print Assumptions C65_shipped.
Example C65_example :
  match request_all 40 (registry fish_functions (new_helpers (s "_$PROG") (s "p") true false FishFunction))
          [(s "prefix", []); (s "timezone_list", [s "X"])] with
  | inr h => map fst (h_used h) = [s "prefix"; s "get_completing_arg"; s "timezone_list"] /\
      match get_used_functions_code h with
      | inr blocks => map first_line blocks =
          [s "function _p__prefix"; s "function _p__get_completing_arg"; s "function _p__timezone_list"]
      | inl _ => False
      end
  | inl _ => False
  end.
Proof. vm_compute. split; reflexivity. Qed.
