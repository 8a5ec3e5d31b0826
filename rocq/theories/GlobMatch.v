(** * Deciding what a Bash pattern matches.

    [case_matchb] computes the relation [case_matches] of the specification [SpecGlob]. *)
From Verif Require Import Base SpecShell SpecGlob.
Open Scope list_scope.

(** All ways to split a word in two. *)
Fixpoint splits (w : str) : list (str * str) :=
  ([], w) :: match w with
             | [] => []
             | c :: w' => map (fun '(u, v) => (c :: u, v)) (splits w')
             end.
Lemma splits_iff w : forall u v, In (u, v) (splits w) <-> w = u ++ v.
Proof.
  induction w as [| c w IH]; intros u v; cbn [splits In].
  - split; [intros [E | []]; injection E as <- <-; reflexivity |].
    intros E. symmetry in E. apply app_eq_nil in E as [-> ->]. now left.
  - rewrite in_map_iff. split.
    + intros [E | ((u' & v') & E & H)]; [injection E as <- <-; reflexivity |].
      injection E as <- <-. apply IH in H. now subst w.
    + destruct u as [| d u]; cbn [app]; intros E; [left; now rewrite E |].
      right. injection E as -> ->. exists (u, v). split; [reflexivity |]. now apply IH.
Qed.

Fixpoint starb (P : str -> bool) (n : nat) (w : str) : bool :=
  match w, n with
  | [], _ => true
  | _, O => false
  | _, S n' => existsb (fun '(u, v) => match u with [] => false | _ => P u && starb P n' v end) (splits w)
  end.
Definition ext_matchb (k : kind) (P : str -> bool) (w : str) : bool :=
  match k with
  | ExactlyOne => P w
  | AtMostOne => match w with [] => true | _ => P w end
  | AnyNumber => starb P (List.length w) w
  | AtLeastOne => existsb (fun '(u, v) => P u && starb P (List.length v) v) (splits w)
  | NoneOf => negb (P w)
  end.

Section Sequence.
Context (m : glob -> str -> bool).
Fixpoint seq_matchb_ (gs : list glob) (w : str) : bool :=
  match gs with
  | [] => match w with [] => true | _ => false end
  | g :: gs' => existsb (fun '(u, v) => m g u && seq_matchb_ gs' v) (splits w)
  end.
Fixpoint any_matchb_ (alts : list (list glob)) (w : str) : bool :=
  match alts with
  | [] => false
  | a :: alts' => seq_matchb_ a w || any_matchb_ alts' w
  end.
End Sequence.
Fixpoint matchb (g : glob) (w : str) : bool :=
  match g with
  | Char c => match w with [d] => N.eqb d c | _ => false end
  | AnyChar => match w with [_] => true | _ => false end
  | AnyText => true
  | OneOf negated ranges => match w with [c] => Bool.eqb (in_ranges c ranges) (negb negated) | _ => false end
  | Ext k alternatives => ext_matchb k (any_matchb_ matchb alternatives) w
  end.
Definition seq_matchb := seq_matchb_ matchb.
Definition any_matchb := any_matchb_ matchb.
(** A text that is no pattern matches nothing. *)
Definition case_matchb (x w : str) : bool :=
  match read_case x with Some alts => any_matchb alts w | None => false end.

Lemma starb_iff (P : str -> Prop) (p : str -> bool) : (forall w, p w = true <-> P w) ->
  forall n w, List.length w <= n -> (starb p n w = true <-> star P w).
Proof.
  intros HP. induction n as [| n IH]; intros w Hl.
  - destruct w; [| cbn in Hl; lia]. split; [intros _; constructor | reflexivity].
  - destruct w as [| c w]; [split; [intros _; constructor | reflexivity] |].
    cbn [starb]. rewrite existsb_exists. split.
    + intros ((u & v) & Hs & H). apply splits_iff in Hs. destruct u as [| d u]; [discriminate |].
      apply andb_prop in H as [H1 H2]. rewrite Hs. constructor; [now apply HP |]. apply IH; [| exact H2].
      apply (f_equal (@List.length N)) in Hs. rewrite app_length in Hs. cbn in *. lia.
    + intros H. remember (c :: w) as x eqn:Ex. revert Ex. induction H as [| u v Hu Hv IHv]; intros Ex; [discriminate |].
      destruct u as [| d u].
      * apply IHv; [exact Hl | exact Ex].
      * exists (d :: u, v). split; [now apply splits_iff |]. apply andb_true_intro. split; [now apply HP |].
        apply IH; [| exact Hv]. apply (f_equal (@List.length N)) in Ex. cbn in *. rewrite app_length in *. lia.
Qed.

Section GlobInd.
Context (P : glob -> Prop).
Context (HChar : forall c, P (Char c)) (HAnyChar : P AnyChar) (HAnyText : P AnyText)
  (HOneOf : forall n r, P (OneOf n r))
  (HExt : forall k alts, (forall a g, In a alts -> In g a -> P g) -> P (Ext k alts)).
Fixpoint glob_rect' (g : glob) : P g :=
  match g with
  | Char c => HChar c
  | AnyChar => HAnyChar
  | AnyText => HAnyText
  | OneOf n r => HOneOf n r
  | Ext k alts => HExt k alts
      ((fix goa (alts : list (list glob)) : forall a g, In a alts -> In g a -> P g :=
          match alts with
          | [] => fun a g Ha _ => match Ha with end
          | x :: alts' => fun a g Ha Hg =>
              match Ha with
              | or_introl E => (fix gos (l : list glob) : In g l -> P g :=
                    match l with
                    | [] => fun H => match H with end
                    | y :: l' => fun H => match H with
                        | or_introl E' => eq_ind y P (glob_rect' y) g E'
                        | or_intror H' => gos l' H'
                        end
                    end) x (eq_ind_r (fun z => In g z) Hg E)
              | or_intror Ha' => goa alts' a g Ha' Hg
              end
          end) alts)
  end.
End GlobInd.

Lemma seq_matchb_iff_ gs : (forall g, In g gs -> forall w, matchb g w = true <-> matches g w) ->
  forall w, seq_matchb_ matchb gs w = true <-> seq_matches_ matches gs w.
Proof.
  induction gs as [| g gs IH]; intros H w; cbn [seq_matchb_ seq_matches_].
  - destruct w; split; congruence.
  - rewrite existsb_exists. split.
    + intros ((u & v) & Hs & Hm). apply splits_iff in Hs. apply andb_prop in Hm as [H1 H2].
      exists u, v. split; [exact Hs |]. split; [apply (H g); [now left | exact H1] |].
      apply IH; [intros g' Hg'; apply H; now right | exact H2].
    + intros (u & v & E & H1 & H2). exists (u, v). split; [now apply splits_iff |]. apply andb_true_intro.
      split; [apply (H g); [now left | exact H1] |]. apply IH; [intros g' Hg'; apply H; now right | exact H2].
Qed.
Lemma any_matchb_iff_ alts : (forall a g, In a alts -> In g a -> forall w, matchb g w = true <-> matches g w) ->
  forall w, any_matchb_ matchb alts w = true <-> any_matches_ matches alts w.
Proof.
  induction alts as [| a alts IH]; intros H w; cbn [any_matchb_ any_matches_]; [split; [discriminate | intros []] |].
  rewrite orb_true_iff, seq_matchb_iff_, IH; [reflexivity | |].
  - intros a' g Ha Hg. apply (H a' g); [now right | exact Hg].
  - intros g Hg. apply (H a g); [now left | exact Hg].
Qed.
Lemma matchb_iff g : forall w, matchb g w = true <-> matches g w.
Proof.
  induction g using glob_rect'; intros w; cbn [matchb matches].
  - destruct w as [| d [| e w]]; [split; discriminate | | split; discriminate]. rewrite N.eqb_eq.
    split; [now intros -> | intros E; now injection E].
  - destruct w as [| d [| e w]]; [split; [discriminate | intros (c & E); discriminate] | | split; [discriminate | intros (c & E); discriminate]].
    split; [intros _; now exists d | reflexivity].
  - split; reflexivity.
  - destruct w as [| d [| e w]]; [split; [discriminate | intros (c & E & _); discriminate] | | split; [discriminate | intros (c & E & _); discriminate]].
    rewrite eqb_true_iff. split; [intros E; exists d; now split | intros (c & E & H); injection E as ->; exact H].
  - pose proof (any_matchb_iff_ alts H) as HP. destruct k; cbn [ext_matchb ext_matches].
    + apply HP.
    + destruct w as [| c w]; [split; [now left | reflexivity] |]. rewrite HP. split; [now right | intros [E | E]; [discriminate | exact E]].
    + apply starb_iff; [exact HP | reflexivity].
    + rewrite existsb_exists. split.
      * intros ((u & v) & Hs & Hm). apply splits_iff in Hs. apply andb_prop in Hm as [H1 H2]. exists u, v.
        split; [exact Hs |]. split; [now apply HP |]. revert H2. now apply starb_iff.
      * intros (u & v & E & H1 & H2). exists (u, v). split; [now apply splits_iff |]. apply andb_true_intro.
        split; [now apply HP |]. revert H2. now apply starb_iff.
    + rewrite negb_true_iff. rewrite <- HP. destruct (any_matchb_ matchb alts w); split; congruence.
Qed.
Lemma case_matchb_iff x w : case_matchb x w = true <-> case_matches x w.
Proof.
  unfold case_matchb, case_matches. destruct (read_case x) as [alts |].
  - unfold any_matchb. rewrite any_matchb_iff_ by (intros; apply matchb_iff).
    split; [intros H; exists alts; now split | intros (a & E & H); injection E as <-; exact H].
  - split; [discriminate | intros (a & E & _); discriminate].
Qed.
Lemma case_matchb_false x w : case_matchb x w = false <-> ~ case_matches x w.
Proof. rewrite <- case_matchb_iff. destruct (case_matchb x w); split; congruence. Qed.
