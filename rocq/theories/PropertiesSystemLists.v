(** * C132 and C133: mount points and sound cards are offered. *)
From Coq Require Import String.
From Verif Require Import Base SpecShell SpecBashWords ZshUtils SpecChoices ChoicesZsh SpecPrefix SpecExec Exec MimeFile SpecMimeFile MimeFileProofs SpecPrefixReply PrefixReplyProofs
  SystemLists SpecSystemLists SystemListsProofs.
Open Scope string_scope.
Open Scope list_scope.
Open Scope nat_scope.

(** ** C132: every mount point is offered, in Bash as a word that stands for it. *)
Theorem C132_bash_partial : forall escape cur points,
  (forall c, posix_special c = true -> escape c = true) -> Forall tidy points ->
  Forall2 stands_for (bash_mountpoint (printf_q escape) cur (print_lines points)) points.
Proof.
  intros escape cur points He Ht. unfold bash_mountpoint. rewrite read_tidy by exact Ht. apply quoted_all; [exact He |].
  eapply Forall_impl; [| exact Ht]. intros x Hx. apply Hx.
Qed.
Print Assumptions C132_bash_partial.
Theorem C132_zsh_partial : forall points, Forall tidy points -> zsh_mountpoint (print_lines points) = points.
Proof. exact read_tidy. Qed.
Print Assumptions C132_zsh_partial.
Example C132_example :
  bash_mountpoint (printf_q posix_special) (s "/") (print_lines [s "/"; s "/home"; s "/media/a disk"]) = [s "/"; s "/home"; s "/media/a\ disk"] /\
  Forall tidy [s "/"; s "/home"; s "/media/a disk"].
Proof.
  split; [vm_compute; reflexivity |].
  repeat constructor; try (apply memc_false; reflexivity); rewrite <- blank_iff; vm_compute; discriminate.
Qed.
(** In Bash, what was typed does not matter: mount points are suggested that do not begin with it. *)
Theorem C132_typed_refuted : exists cur points reply, Forall tidy points /\ plain cur /\
  In reply (bash_mountpoint (printf_q posix_special) cur (print_lines points)) /\
  stands_for reply reply /\ starts_with cur reply = false.
Proof.
  exists (s "/ho"), [s "/boot"; s "/home"], (s "/boot").
  split; [repeat constructor; try (apply memc_false; reflexivity); rewrite <- blank_iff; vm_compute; discriminate |].
  split; [intros c Hc; apply memc_false; cbn in Hc; repeat (destruct Hc as [<- | Hc]; [reflexivity |]); destruct Hc |].
  split; [left; reflexivity |]. split; [| reflexivity].
  apply (quoted_stands posix_special (s "/boot")); [auto | apply memc_false; reflexivity].
Qed.
Print Assumptions C132_typed_refuted.

(** ** C133: the sound cards, and the devices [hw:N] *)

(** Bash offers the numbers, or the devices, that begin with what was typed. *)
Theorem C133_bash_cards : forall cur cards, Forall good_card cards ->
  bash_cards [] cur (print_cards cards) = filter (starts_with cur) (map card_number cards).
Proof. intros cur cards H. now apply (bash_cards_right [] cur cards H). Qed.
Print Assumptions C133_bash_cards.
(** As long as no word break was typed, accepting a suggestion gives the device. *)
Theorem C133_bash_devices_partial : forall breaks cur cards, Forall good_card cards ->
  plain cur -> (forall c, In c cur -> ~ In c breaks) ->
  bash_cards (s "hw:") cur (print_cards cards) = filter (starts_with cur) (map (fun c => s "hw:" ++ card_number c) cards) /\
  units Outside cur = Some (bare cur, false) /\
  forall reply, In reply (bash_cards (s "hw:") cur (print_cards cards)) -> accepted breaks (bare cur) reply reply.
Proof.
  intros breaks cur cards H Hp Hb. split; [now apply (bash_cards_right (s "hw:") cur cards H) |]. split; [now apply plain_units |].
  intros reply _. exists None. split; [| reflexivity].
  refine (proj2 (bare_break breaks cur) _). apply has_break_false. intros c Hc. apply memc_false, Hb, Hc.
Qed.
Print Assumptions C133_bash_devices_partial.
(** Zsh and Fish offer them with the titles of the cards. *)
Theorem C133_zsh : forall cards, Forall good_card cards -> exists different, once cards different /\
  map zsh_describe (zsh_cards [] (print_cards cards)) = map (fun c => (card_number c, card_title c)) different /\
  map zsh_describe (zsh_cards (s "hw\:") (print_cards cards)) = map (fun c => (s "hw:" ++ card_number c, card_title c)) different.
Proof.
  intros cards H. destruct (uniq_right cards H) as (l & O & U). exists l. split; [exact O |].
  assert (Z : forall hw, ~ In BS hw -> map zsh_describe (zsh_cards (escape_colon hw) (print_cards cards)) = map (fun c => (hw ++ card_number c, card_title c)) l).
  { intros hw Hh. destruct (zsh_cards_right hw cards H Hh) as (l' & O' & E). rewrite E.
    replace l' with l; [reflexivity |]. clear - O O'. revert l' O'. induction O; intros m O'; inversion O'; subst; try reflexivity; try congruence; auto.
    f_equal. auto. }
  split; [exact (Z [] (fun K => K)) |]. apply (Z (s "hw:")). apply memc_false. reflexivity.
Qed.
Print Assumptions C133_zsh.
Theorem C133_fish_partial : forall before cards, Forall good_card cards ->
  (forall c u v, In c cards -> card_title c <> u ++ s ": " ++ v) ->
  fish_cards before (print_cards cards) = print_entries (map (fun c => (before ++ card_number c, Some (card_title c))) cards).
Proof.
  intros before cards H Ht. unfold fish_cards, print_cards. rewrite read_print by now apply cards_one_line.
  unfold print_entries. rewrite !flat_map_concat_map, !map_map. f_equal. apply map_ext_in. intros c Hc. rewrite Forall_forall in H.
  rewrite fish_card_right; [| now apply H | apply no_colon; intros u v; now apply Ht]. unfold print_entry. cbn [fst snd app]. now rewrite <- app_assoc.
Qed.
Print Assumptions C133_fish_partial.
Definition cards133 : list card :=
  [Card (s "0") (s "PCH [HDA: Intel]"); Card (s "0") (s "PCH [HDA: Intel]"); Card (s "12") (s "USB [Headset]")].
Example C133_example :
  Forall good_card cards133 /\ print_cards [Card (s "0") (s "PCH")] = s "card 0: PCH" ++ [LF] /\
  bash_cards [] (s "1") (print_cards cards133) = [s "12"] /\
  zsh_cards (s "hw\:") (print_cards cards133) = [s "hw\:0:PCH [HDA: Intel]"; s "hw\:12:USB [Headset]"] /\
  fish_cards (s "hw:") (print_cards [Card (s "12") (s "USB [Headset]")]) = s "hw:12" ++ [TAB] ++ s "USB [Headset]" ++ [LF].
Proof.
  split; [repeat (apply Forall_cons; [apply good_card1; reflexivity |]); apply Forall_nil |]. repeat split; vm_compute; reflexivity.
Qed.
(** A colon is a word break: accepting the device replaces only what is behind it. *)
Theorem C133_bash_colon_refuted : exists breaks cur cards reply,
  Forall good_card cards /\ plain cur /\ bash_cards (s "hw:") cur (print_cards cards) = [reply] /\ accepted breaks (bare cur) reply (s "hw:hw:0").
Proof.
  exists (s " :"), (s "hw:"), [Card (s "0") (s "PCH")], (s "hw:0").
  split; [repeat constructor; apply good_card1; reflexivity |].
  split; [intros c Hc; apply memc_false; cbn in Hc; repeat (destruct Hc as [<- | Hc]; [reflexivity |]); destruct Hc |].
  split; [vm_compute; reflexivity |]. exists (Some 3). split; [| reflexivity].
  exists (bare (s "hw")), (COLON, Bare), []. repeat split. intros u [].
Qed.
Print Assumptions C133_bash_colon_refuted.
(** Fish shows a title only up to a colon. *)
Theorem C133_fish_title_refuted : exists c, good_card c /\ card_title c = s "PCH [HDA: Intel]" /\
  fish_cards [] (print_cards [c]) = print_entries [(card_number c, Some (s "PCH [HDA"))].
Proof.
  exists (Card (s "0") (s "PCH [HDA: Intel]")). split; [apply good_card1; reflexivity |]. split; [reflexivity | vm_compute; reflexivity].
Qed.
Print Assumptions C133_fish_title_refuted.
