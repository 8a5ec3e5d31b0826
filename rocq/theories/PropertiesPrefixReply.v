(** * C129: a value that is attached to a short option, as in [-ovalue], is completed behind the option. *)
From Coq Require Import String.
From Verif Require Import Base BashOffers SpecBashWords SpecPrefix PrefixReply SpecPrefixReply PrefixReplyProofs.
Open Scope string_scope.
Open Scope list_scope.
Open Scope nat_scope.

(** Whatever code runs for a value in the word that is typed: the word is the option and the value, and if
    accepting a suggestion for the value alone would give [result], then accepting what the word gets gives
    the option and [result]. *)
Theorem C129_attached_partial : forall breaks truth i m st code value prefix replies,
  In (Run code value prefix) (fst (run_dispatcher truth i m st)) -> prefix <> [] ->
  plain (st_cur st) -> (forall c, In c prefix -> ~ In c breaks) ->
  st_cur st = prefix ++ value /\
  units Outside (st_cur st) = Some (bare (st_cur st), false) /\ units Outside value = Some (bare value, false) /\
  Forall2 (fun reply reply' => forall result, accepted breaks (bare value) reply result ->
      accepted breaks (bare (st_cur st)) reply' (prefix ++ result))
    replies (prefix_compreply breaks (st_cur st) prefix replies).
Proof.
  intros breaks truth i m st code value prefix replies H Hp Pl Hb.
  destruct (dispatcher_in _ _ _ _ _ _ _ H) as [-> | E]; [now contradiction Hp |].
  split; [exact E |]. split; [now apply plain_units |].
  split; [apply plain_units; intros c Hc; apply Pl; rewrite E; apply in_app_iff; now right |].
  rewrite E. unfold prefix_compreply.
  induction replies as [| r rs IH].
  - destruct (has_break breaks (prefix ++ value)); constructor.
  - assert (R := fun result => reply_right breaks prefix value r result Hb).
    destruct (has_break breaks (prefix ++ value)); cbn [map]; constructor; auto.
Qed.
Print Assumptions C129_attached_partial.
Definition breaks129 : str := [SP; TAB; LF; DQ; SQ] ++ s "><=;|&(:".
Definition info129 : info := MkInfo true false false false false false [] (s "v") (s "o") [].
Definition master129 : master := Plain [(s "-o", (None, s "code"))] None.
Example C129_attached_example :
  run_dispatcher (fun _ => true) info129 master129 (MkSituation (s "-voab") (s "prog") [s "prog"; s "-voab"] [] false) = ([Run (s "code") (s "ab") (s "-vo")], true) /\
  prefix_compreply breaks129 (s "-voab") (s "-vo") [s "abc"; s "abd"] = [s "-voabc"; s "-voabd"] /\
  prefix_compreply breaks129 (s "-voa:b") (s "-vo") [s "bc"] = [s "bc"] /\
  accepted breaks129 (bare (s "a:b")) (s "bc") (s "a:bc") /\ accepted breaks129 (bare (s "-voa:b")) (s "bc") (s "-voa:bc").
Proof.
  split; [reflexivity |]. split; [reflexivity |]. split; [reflexivity |]. split.
  - exists (Some 2). split; [| reflexivity]. exists (bare (s "a")), (58%N, Bare), (bare (s "b")).
    repeat split. intros u [<- | []]; reflexivity.
  - exists (Some 5). split; [| reflexivity]. exists (bare (s "-voa")), (58%N, Bare), (bare (s "b")).
    repeat split. intros u [<- | []]; reflexivity.
Qed.

(** A word break behind a backslash is no word break, but the helper takes it for one: accepting a
    suggestion removes the option from the line. *)
Theorem C129_escaped_refuted : exists cur prefix value us vs reply,
  run_dispatcher (fun _ => true) info129 master129 (MkSituation cur (s "prog") [s "prog"; cur] [] false) = ([Run (s "code") value prefix], true) /\
  cur = prefix ++ value /\ units Outside cur = Some (us, false) /\ units Outside value = Some (vs, false) /\
  accepted breaks129 vs reply (s "a\ bc") /\
  prefix_compreply breaks129 cur prefix [reply] = [reply] /\
  accepted breaks129 us reply (s "a\ bc") /\ ~ accepted breaks129 us reply (prefix ++ s "a\ bc").
Proof.
  exists (s "-voa\ b"), (s "-vo"), (s "a\ b").
  exists [(45%N, Bare); (118%N, Bare); (111%N, Bare); (97%N, Bare); (SP, Escaped); (98%N, Bare)].
  exists [(97%N, Bare); (SP, Escaped); (98%N, Bare)], (s "a\ bc").
  assert (NB : forall u, In u [(45%N, Bare); (118%N, Bare); (111%N, Bare); (97%N, Bare); (SP, Escaped); (98%N, Bare)] -> is_break breaks129 u = false).
  { intros u Hu. repeat destruct Hu as [<- | Hu]; try reflexivity. contradiction Hu. }
  split; [vm_compute; reflexivity |]. split; [reflexivity |]. split; [reflexivity |]. split; [reflexivity |].
  split; [exists None; split; [| reflexivity]; intros u Hu; apply NB; right; right; right; exact Hu |].
  split; [reflexivity |]. split; [exists None; split; [exact NB | reflexivity] |].
  intros (n & B & E). destruct n as [k |]; [| vm_compute in E; discriminate].
  destruct B as (u & b & v & E1 & Hb & _). rewrite (NB b) in Hb; [discriminate |].
  rewrite E1. apply in_app_iff. right. now left.
Qed.
Print Assumptions C129_escaped_refuted.
