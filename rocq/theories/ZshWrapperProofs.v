(** * Proofs about wrapped commands in zsh. *)
From Verif Require Import Base PyStr StrUtils Algo AlgoProofs Value Cli SpecCli BashUtils SpecZshPattern ZshPatternProofs ZshWrapper SpecZshWrapper.
From Coq Require Import Lia.
Open Scope list_scope.

(** ** Names *)
Inductive named : str -> str -> Prop :=
| long_name c n : c <> DASH -> Forall (fun d => name_char d = true) (c :: n) -> named (DASH :: DASH :: c :: n) (c :: n)
| old_name c n : c <> DASH -> n <> [] -> Forall (fun d => name_char d = true) (c :: n) -> named (DASH :: c :: n) (c :: n).
Definition simple_name (x : str) : Prop := exists n, named x n.

Lemma simple_long x : simple_string x -> 2 < List.length x -> simple_name x.
Proof.
  intros [(c & -> & _)|(c & n & [(-> & Hn)| ->] & Hc & H)] Hl; [cbn in Hl; lia| |].
  - exists (c :: n). constructor; assumption.
  - exists (c :: n). constructor; assumption.
Qed.
Lemma name_ordinary c : name_char c = true -> ordinary c = true.
Proof.
  unfold name_char, ordinary. intros H. apply orb_true_iff in H as [-> | H]; [reflexivity|]. apply orb_true_iff. right.
  apply memc_iff in H. apply memc_iff. cbn in H |- *. intuition.
Qed.
Lemma names_ordinary n : Forall (fun d => name_char d = true) n -> Forall opaque n.
Proof. intros H. eapply Forall_impl; [|exact H]. intros c. apply name_ordinary. Qed.
Lemma no_equal n : Forall (fun d => name_char d = true) n -> ~ In EQ n.
Proof. intros H Hi. rewrite Forall_forall in H. apply H in Hi. discriminate Hi. Qed.
Lemma name_no_equal x : simple_name x -> ~ In EQ x.
Proof.
  intros (n & [c m Hc H|c m Hc _ H]) Hi; apply no_equal in H; cbn [In] in Hi, H; intuition discriminate.
Qed.
Lemma lstrip_name x n : named x n -> lstrip_dashes x = n.
Proof.
  unfold lstrip_dashes. intros [c m Hc _|c m Hc _ _]; cbn [lstrip_p]; change (N.eqb DASH DASH) with true; cbn iota;
    (destruct (N.eqb_spec DASH c); [congruence|reflexivity]).
Qed.
Lemma name_split x : simple_name x ->
  (is_long_option_string x = true /\ x = DASH :: DASH :: lstrip_dashes x \/ is_long_option_string x = false /\ x = DASH :: lstrip_dashes x)
  /\ Forall opaque (lstrip_dashes x).
Proof.
  intros (n & H). rewrite (lstrip_name _ _ H). destruct H as [c m Hc H|c m Hc Hm H]; (split; [|apply names_ordinary, H]).
  - left. split; reflexivity.
  - right. split; [|reflexivity]. unfold is_long_option_string. cbn [starts_with]. change (N.eqb DASH DASH) with true. cbn [andb].
    destruct (N.eqb_spec DASH c); [congruence|reflexivity].
Qed.

(** ** The patterns of long options *)
Definition head_text (long old : list str) : str :=
  match long, old with
  | _ :: _, _ :: _ => s "-(" ++ join [PIPE] old ++ s "|-(" ++ join [PIPE] long ++ s "))"
  | _ :: _, [] => s "--(" ++ join [PIPE] long ++ s ")"
  | [], _ :: _ => s "-(" ++ join [PIPE] old ++ s ")"
  | [], [] => []
  end.
Definition means (P : list zpat) (long old : list str) : Prop := forall p w r,
  In r (ends (P ++ p) w) <-> exists x w', (In x old /\ w = DASH :: x ++ w' \/ In x long /\ w = DASH :: DASH :: x ++ w') /\ In r (ends p w').
Lemma head_ok long old : long <> [] \/ old <> [] -> Forall (Forall opaque) long -> Forall (Forall opaque) old ->
  exists P, (forall t, read_pat (head_text long old ++ t) [] [] [] = read_pat t (rev P) [] []) /\ means P long old.
Proof.
  intros Hn Hl Ho. destruct long as [|y long]; [destruct old as [|x old]; [destruct Hn; congruence|]|destruct old as [|x old]].
  - exists [PChar DASH; PGroup (map chars (x :: old))]. split.
    + intros t. unfold head_text. rewrite <- !app_assoc.
      change (read_pat (s "-(" ++ join [PIPE] (x :: old) ++ s ")" ++ t) [] [] [])
        with (read_pat (join [PIPE] (x :: old) ++ RPAR :: t) [] [] [([PChar DASH], [])]).
      rewrite read_alternatives by (assumption || discriminate). reflexivity.
    + intros p w r. cbn [app]. rewrite ends_char. split.
      * intros (w1 & -> & H). apply ends_texts in H as (z & w2 & Hz & -> & H). exists z, w2. auto.
      * intros (z & w2 & [(Hz & ->)|([] & _)] & H). exists (z ++ w2). split; [reflexivity|]. apply ends_texts. exists z, w2. auto.
  - exists [PChar DASH; PChar DASH; PGroup (map chars (y :: long))]. split.
    + intros t. unfold head_text. rewrite <- !app_assoc.
      change (read_pat (s "--(" ++ join [PIPE] (y :: long) ++ s ")" ++ t) [] [] [])
        with (read_pat (join [PIPE] (y :: long) ++ RPAR :: t) [] [] [([PChar DASH; PChar DASH], [])]).
      rewrite read_alternatives by (assumption || discriminate). reflexivity.
    + intros p w r. cbn [app]. rewrite ends_char. split.
      * intros (w1 & -> & H). apply ends_char in H as (w2 & -> & H). apply ends_texts in H as (z & w3 & Hz & -> & H). exists z, w3. auto.
      * intros (z & w2 & [([] & _)|(Hz & ->)] & H). exists (DASH :: z ++ w2). split; [reflexivity|]. apply ends_char.
        exists (z ++ w2). split; [reflexivity|]. apply ends_texts. exists z, w2. auto.
  - exists [PChar DASH; PGroup (map chars (x :: old) ++ [[PChar DASH; PGroup (map chars (y :: long))]])]. split.
    + intros t. unfold head_text. rewrite <- !app_assoc.
      change (read_pat (s "-(" ++ join [PIPE] (x :: old) ++ s "|-(" ++ join [PIPE] (y :: long) ++ s "))" ++ t) [] [] [])
        with (read_pat (join [PIPE] (x :: old) ++ PIPE :: DASH :: LPAR :: join [PIPE] (y :: long) ++ s "))" ++ t) [] [] [([PChar DASH], [])]).
      rewrite read_more by (assumption || discriminate). rewrite app_nil_r.
      change (read_pat (DASH :: LPAR :: join [PIPE] (y :: long) ++ s "))" ++ t) [] (rev (map chars (x :: old))) [([PChar DASH], [])])
        with (read_pat (join [PIPE] (y :: long) ++ RPAR :: RPAR :: t) [] [] [([PChar DASH], rev (map chars (x :: old))); ([PChar DASH], [])]).
      rewrite read_alternatives by (assumption || discriminate).
      change (read_pat (RPAR :: t) (PGroup (rev [] ++ map chars (y :: long)) :: [PChar DASH]) (rev (map chars (x :: old))) [([PChar DASH], [])])
        with (read_pat t (PGroup (rev ([PChar DASH; PGroup (map chars (y :: long))] :: rev (map chars (x :: old)))) :: [PChar DASH]) [] []).
      cbn [rev]. change (rev (map chars (x :: old))) with (rev (map chars old) ++ [chars x]). rewrite rev_app_distr, rev_involutive. reflexivity.
    + intros p w r. cbn [app]. rewrite ends_char. split.
      * intros (w1 & -> & H). apply ends_group in H as (a & w2 & Ha & H & Hr).
        change (In a (map chars (x :: old) ++ [[PChar DASH; PGroup (map chars (y :: long))]])) in Ha. apply in_app_iff in Ha as [Ha|[<-|[]]].
        -- apply in_map_iff in Ha as (z & <- & Hz). rewrite <- (app_nil_r (chars z)) in H. apply ends_chars in H as (w3 & -> & H).
           apply ends_nil in H as ->. exists z, w2. auto.
        -- apply ends_char in H as (w3 & -> & H). apply ends_texts in H as (z & w4 & Hz & -> & H). apply ends_nil in H as ->.
           exists z, w2. auto.
      * intros (z & w2 & [(Hz & ->)|(Hz & ->)] & H).
        -- exists (z ++ w2). split; [reflexivity|]. apply ends_group. exists (chars z), w2.
           split; [change (In (chars z) (map chars (x :: old) ++ [[PChar DASH; PGroup (map chars (y :: long))]])); apply in_app_iff; left; apply in_map, Hz|].
           split; [|exact H]. rewrite <- (app_nil_r (chars z)). apply ends_chars. exists w2. split; [reflexivity|]. apply ends_nil. reflexivity.
        -- exists (DASH :: z ++ w2). split; [reflexivity|]. apply ends_group. exists [PChar DASH; PGroup (map chars (y :: long))], w2.
           split; [change (In [PChar DASH; PGroup (map chars (y :: long))] (map chars (x :: old) ++ [[PChar DASH; PGroup (map chars (y :: long))]])); apply in_app_iff; right; left; reflexivity|].
           split; [|exact H]. apply ends_char. exists (z ++ w2). split; [reflexivity|]. apply ends_texts. exists z, w2. split; [exact Hz|].
           split; [reflexivity|]. apply ends_nil. reflexivity.
Qed.

Definition tail_text (t : arg_type) : str := match t with TArg => s "=*" | TOptional => s "(|=*)" | TNone => [] end.
Definition tail_fits (t : arg_type) (u : str) : Prop :=
  match t with TNone => u = [] | TArg => exists v, u = EQ :: v | TOptional => u = [] \/ exists v, u = EQ :: v end.
Lemma tail_ok t P : exists T, read_pat (tail_text t) (rev P) [] [] = Some (P ++ T) /\ forall u, In [] (ends T u) <-> tail_fits t u.
Proof.
  destruct t; cbn [tail_text tail_fits].
  - exists []. split; [rewrite app_nil_r; cbn [read_pat]; rewrite rev_involutive; reflexivity|]. intros u. apply ends_nil.
  - exists [PChar EQ; PStar]. split.
    + change (read_pat (s "=*") (rev P) [] []) with (Some (rev (PStar :: PChar EQ :: rev P))). cbn [rev]. rewrite rev_involutive, <- app_assoc. reflexivity.
    + intros u. rewrite ends_char. split; [intros (v & -> & _); exists v; reflexivity|]. intros (v & ->). exists v. split; [reflexivity|].
      apply ends_star. exists v, []. split; [rewrite app_nil_r; reflexivity|apply ends_nil; reflexivity].
  - exists [PGroup [[]; [PChar EQ; PStar]]]. split.
    + change (read_pat (s "(|=*)") (rev P) [] []) with (Some (rev (PGroup [[]; [PChar EQ; PStar]] :: rev P))). cbn [rev]. rewrite rev_involutive. reflexivity.
    + intros u. rewrite ends_group. split.
      * intros (a & w' & [<-|[<-|[]]] & H & Hr); apply ends_nil in Hr as ->; [left; apply ends_nil in H; exact H|].
        right. apply ends_char in H as (v & -> & _). exists v. reflexivity.
      * intros [-> |(v & ->)].
        -- exists [], []. split; [left; reflexivity|]. split; apply ends_nil; reflexivity.
        -- exists [PChar EQ; PStar], []. split; [right; left; reflexivity|]. split; [|apply ends_nil; reflexivity].
           apply ends_char. exists v. split; [reflexivity|]. apply ends_star. exists v, []. split; [rewrite app_nil_r; reflexivity|apply ends_nil; reflexivity].
Qed.

Lemma long_pattern l t w : l <> [] -> (forall x, In x l -> simple_name x) ->
  globs (make_long_opts_pattern l t) w = true <-> exists x u, In x l /\ w = x ++ u /\ tail_fits t u.
Proof.
  intros Hn Hs. set (long := map lstrip_dashes (filter is_long_option_string l)).
  set (old := map lstrip_dashes (filter (fun x => negb (is_long_option_string x)) l)).
  assert (make_long_opts_pattern l t = head_text long old ++ tail_text t) as ->.
  { unfold make_long_opts_pattern. destruct l as [|x l]; [congruence|]. rewrite partition_eq. reflexivity. }
  assert (long <> [] \/ old <> []) as Hne.
  { destruct l as [|x l]; [congruence|]. subst long old. cbn [filter]. destruct (is_long_option_string x); cbn [negb]; [left|right]; discriminate. }
  assert (Forall (Forall opaque) long) as Hl.
  { apply Forall_forall. intros n H. apply in_map_iff in H as (x & <- & H). apply filter_In in H as (H & _). apply name_split, Hs, H. }
  assert (Forall (Forall opaque) old) as Ho.
  { apply Forall_forall. intros n H. apply in_map_iff in H as (x & <- & H). apply filter_In in H as (H & _). apply name_split, Hs, H. }
  destruct (head_ok long old Hne Hl Ho) as (P & HP & HM). destruct (tail_ok t P) as (T & HT & HF).
  unfold globs. rewrite HP, HT, nil_in, (HM T w []). split.
  - intros (n & u & [(H & ->)|(H & ->)] & Hu); apply in_map_iff in H as (x & <- & H); apply filter_In in H as (H & E); exists x, u;
      (split; [exact H|]); (split; [|apply HF, Hu]); destruct (name_split x (Hs x H)) as ([(E' & Ex)|(E' & Ex)] & _); rewrite E' in E; try discriminate E;
      rewrite Ex at 2; reflexivity.
  - intros (x & u & H & -> & Hu). exists (lstrip_dashes x), u. split; [|apply HF, Hu].
    destruct (name_split x (Hs x H)) as ([(E' & Ex)|(E' & Ex)] & _); [right|left]; (split; [|rewrite Ex at 1; reflexivity]);
      apply in_map_iff; exists x; (split; [reflexivity|]); apply filter_In; (split; [exact H|]); rewrite E'; reflexivity.
Qed.

(** ** The regular expressions of short options *)
Definition bracketed (l : str) : Prop := Forall (fun c => in_brackets c = true) l.
Lemma flag_regex f w : f <> [] -> bracketed f ->
  matches (make_short_opts_flag_regex f) w = true <-> exists l, l <> [] /\ w = DASH :: l /\ Forall (fun c => In c f) l.
Proof.
  intros Hn Hf. assert (make_short_opts_flag_regex f = s "^-[" ++ f ++ s "]+$") as -> by (destruct f; [congruence|reflexivity]).
  change (matches (s "^-[" ++ f ++ s "]+$") w)
    with (match read_re (91%N :: f ++ 93%N :: s "+$") None [(AChar DASH, Once)] with Some l => existsb is_nil (re_ends l w) | None => false end).
  rewrite read_bracket by assumption.
  change (read_re (s "+$") None [(ASet (rev f), Once); (AChar DASH, Once)]) with (Some [(AChar DASH, Once); (ASet (rev f), AtLeastOnce)]).
  cbn iota. rewrite nil_in, re_cons. split.
  - intros (w1 & H1 & H). apply one_of_iff in H1 as (c & -> & E). change (N.eqb DASH c = true) in E; apply N.eqb_eq in E as <-. apply re_cons in H as (w2 & H2 & H). apply re_nil in H as ->.
    unfold item_ends in H2. cbn [fst snd] in H2. apply in_flat_map in H2 as (w3 & H3 & H2). apply one_of_iff in H3 as (c & -> & E).
    apply some_of_iff in H2 as (u & -> & Hu). exists (c :: u ++ []). split; [discriminate|]. split; [reflexivity|]. rewrite app_nil_r.
    constructor; [cbn [fst accepts] in E; apply memc_iff in E; apply in_rev; exact E|]. eapply Forall_impl; [|exact Hu]. intros d Hd. apply memc_iff in Hd. apply in_rev. exact Hd.
  - intros (l & Hl & -> & H). exists l. split; [apply one_of_iff; exists DASH; split; reflexivity|]. apply re_cons. exists []. split; [|apply re_nil; reflexivity].
    destruct l as [|c l]; [congruence|]. inversion H as [|? ? Hc Hr]; subst. unfold item_ends. cbn [fst snd]. apply in_flat_map. exists l. split.
    + apply one_of_iff. exists c. split; [reflexivity|]. apply memc_iff. apply -> in_rev. exact Hc.
    + apply some_of_iff. exists l. split; [rewrite app_nil_r; reflexivity|]. eapply Forall_impl; [|exact Hr]. intros d Hd. apply memc_iff. apply -> in_rev. exact Hd.
Qed.

Definition re_tail_text (t : arg_type) : str := match t with TArg => s ".+" | TOptional => s ".*" | TNone => [] end.
Definition re_tail_fits (t : arg_type) (v : str) : Prop := match t with TNone => v = [] | TArg => v <> [] | TOptional => True end.
Lemma re_tail_ok t acc : exists T, read_re (re_tail_text t ++ s "$") None acc = Some (rev acc ++ T) /\
  forall v, In [] (re_ends T v) <-> re_tail_fits t v.
Proof.
  assert (forall v, Forall (fun c => accepts AAny c = true) v) as Hany by (intros v; apply Forall_forall; reflexivity).
  destruct t; cbn [re_tail_text re_tail_fits].
  - exists []. split; [rewrite app_nil_r; reflexivity|]. intros v. apply re_nil.
  - exists [(AAny, AtLeastOnce)]. split; [change (s ".+" ++ s "$") with (s ".+$"); reflexivity|]. intros v. rewrite re_cons. split.
    + intros (w & H & _). unfold item_ends in H. cbn [fst snd] in H. apply in_flat_map in H as (w1 & H & _). apply one_of_iff in H as (c & -> & _). discriminate.
    + intros H. destruct v as [|c v]; [congruence|]. exists []. split; [|apply re_nil; reflexivity]. unfold item_ends. cbn [fst snd]. apply in_flat_map. exists v.
      split; [apply one_of_iff; exists c; split; reflexivity|]. apply some_of_iff. exists v. rewrite app_nil_r. auto.
  - exists [(AAny, Repeated)]. split; [change (s ".*" ++ s "$") with (s ".*$"); reflexivity|]. intros v. rewrite re_cons. split; [auto|]. intros _.
    exists []. split; [|apply re_nil; reflexivity]. unfold item_ends. cbn [fst snd]. apply some_of_iff. exists v. rewrite app_nil_r. auto.
Qed.
Lemma re_app l l' w r : In r (re_ends (l ++ l') w) <-> exists w', In w' (re_ends l w) /\ In r (re_ends l' w').
Proof.
  revert w. induction l as [|i l IH]; intros w.
  - cbn [app]. split; [intros H; exists w; split; [apply re_nil; reflexivity|exact H]|]. intros (w' & H & Hr). apply re_nil in H as ->. exact Hr.
  - cbn [app]. rewrite re_cons. split.
    + intros (w1 & H1 & H). apply IH in H as (w2 & H2 & H). exists w2. split; [|exact H]. apply re_cons. exists w1. auto.
    + intros (w2 & H & Hr). apply re_cons in H as (w1 & H1 & H). exists w1. split; [exact H1|]. apply IH. exists w2. auto.
Qed.
Lemma arg_regex f a t w : a <> [] -> bracketed f -> bracketed a ->
  matches (make_short_opts_arg_regex f a t) w = true <->
  exists l c v, w = DASH :: l ++ c :: v /\ Forall (fun d => In d f) l /\ In c a /\ re_tail_fits t v.
Proof.
  intros Hn Hf Ha.
  assert (exists H0, (forall T, existsb is_nil (re_ends (H0 ++ T) w) = true <->
                       exists l c v, w = DASH :: l ++ c :: v /\ Forall (fun d => In d f) l /\ In c a /\ In [] (re_ends T v)) /\
                     matches (make_short_opts_arg_regex f a t) w
                     = match read_re (re_tail_text t ++ s "$") None (rev H0) with Some l => existsb is_nil (re_ends l w) | None => false end)
    as (H0 & HH & E).
  2: { rewrite E. destruct (re_tail_ok t (rev H0)) as (T & HT & HF). rewrite HT, rev_involutive. cbn iota. rewrite HH.
       split; intros (l & c & v & -> & Hl & Hc & Hv); exists l, c, v; (split; [reflexivity|]); (split; [exact Hl|]); (split; [exact Hc|]); apply HF, Hv. }
  destruct f as [|x f].
  - exists [(AChar DASH, Once); (ASet (rev a), Once)]. split.
    + intros T. rewrite nil_in. cbn [app]. rewrite re_cons. split.
      * intros (w1 & H1 & H). apply one_of_iff in H1 as (c & -> & Ec). change (N.eqb DASH c = true) in Ec; apply N.eqb_eq in Ec as <-. apply re_cons in H as (w2 & H2 & H).
        apply one_of_iff in H2 as (c & -> & Ec). cbn [fst accepts] in Ec; apply memc_iff in Ec. exists [], c, w2. split; [reflexivity|]. split; [constructor|]. split; [apply in_rev, Ec|exact H].
      * intros (l & c & v & -> & Hl & Hc & H). destruct l as [|d l]; [|inversion Hl as [|? ? [] ?]]. exists (c :: v).
        split; [apply one_of_iff; exists DASH; split; reflexivity|]. apply re_cons. exists v. split; [|exact H]. apply one_of_iff. exists c. split; [reflexivity|].
        apply memc_iff. apply -> in_rev. exact Hc.
    + assert (make_short_opts_arg_regex [] a t = s "^" ++ ((s "-[" ++ a ++ s "]") ++ re_tail_text t) ++ s "$") as -> by (destruct a; [congruence|reflexivity]).
      rewrite <- !app_assoc.
      change (matches (s "^" ++ s "-[" ++ a ++ s "]" ++ re_tail_text t ++ s "$") w)
        with (match read_re (91%N :: a ++ 93%N :: re_tail_text t ++ s "$") None [(AChar DASH, Once)] with Some l => existsb is_nil (re_ends l w) | None => false end).
      rewrite read_bracket by assumption. reflexivity.
  - set (f0 := x :: f) in *. exists [(AChar DASH, Once); (ASet (rev f0), Repeated); (ASet (rev a), Once)]. split.
    + intros T. rewrite nil_in. cbn [app]. rewrite re_cons. split.
      * intros (w1 & H1 & H). apply one_of_iff in H1 as (c & -> & Ec). change (N.eqb DASH c = true) in Ec; apply N.eqb_eq in Ec as <-. apply re_cons in H as (w2 & H2 & H).
        apply some_of_iff in H2 as (l & -> & Hl). apply re_cons in H as (w3 & H3 & H).
        apply one_of_iff in H3 as (c & -> & Ec). cbn [fst accepts] in Ec; apply memc_iff in Ec. exists l, c, w3. split; [reflexivity|].
        split; [eapply Forall_impl; [|exact Hl]; intros d Hd; apply memc_iff in Hd; apply in_rev; exact Hd|]. split; [apply in_rev, Ec|exact H].
      * intros (l & c & v & -> & Hl & Hc & H). exists (l ++ c :: v). split; [apply one_of_iff; exists DASH; split; reflexivity|]. apply re_cons. exists (c :: v).
        split; [apply some_of_iff; exists l; split; [reflexivity|]; eapply Forall_impl; [|exact Hl]; intros d Hd; apply memc_iff; apply -> in_rev; exact Hd|].
        apply re_cons. exists v. split; [|exact H]. apply one_of_iff. exists c. split; [reflexivity|]. apply memc_iff. apply -> in_rev. exact Hc.
    + assert (make_short_opts_arg_regex f0 a t = s "^" ++ ((s "-[" ++ f0 ++ s "]*[" ++ a ++ s "]") ++ re_tail_text t) ++ s "$") as -> by (destruct a; [congruence|reflexivity]).
      rewrite <- !app_assoc.
      change (matches (s "^" ++ s "-[" ++ f0 ++ s "]*[" ++ a ++ s "]" ++ re_tail_text t ++ s "$") w)
        with (match read_re (91%N :: f0 ++ 93%N :: s "*[" ++ a ++ s "]" ++ re_tail_text t ++ s "$") None [(AChar DASH, Once)] with Some l => existsb is_nil (re_ends l w) | None => false end).
      rewrite read_bracket by (assumption || discriminate).
      change (read_re (s "*[" ++ a ++ s "]" ++ re_tail_text t ++ s "$") None [(ASet (rev f0), Once); (AChar DASH, Once)])
        with (read_re (91%N :: a ++ 93%N :: re_tail_text t ++ s "$") None [(ASet (rev f0), Repeated); (AChar DASH, Once)]).
      rewrite read_bracket by assumption. reflexivity.
Qed.

(** ** The lists of strings *)
Section Options.
  Variable options : list opt.
  Hypothesis Hsimple : simple_options options.
  Hypothesis Hcons : consistent options.

  Lemma required_iff o : has_required_arg o = true <-> arg_kind o = ArgRequired.
  Proof. unfold has_required_arg, arg_kind. destruct (o_complete o), (o_optional_arg o); cbn; split; congruence. Qed.
  Lemma optional_iff o : has_optional_arg o = true <-> arg_kind o = ArgOptional.
  Proof. unfold has_optional_arg, arg_kind. destruct (o_complete o), (o_optional_arg o); cbn; split; congruence. Qed.
  Lemma flag_iff o : is_flag o = true <-> arg_kind o = ArgNone.
  Proof. unfold is_flag, has_required_arg, has_optional_arg, arg_kind. destruct (o_complete o), (o_optional_arg o); cbn; split; congruence. Qed.

  Lemma string_lengths x : simple_string x -> (2 < List.length x <-> is_long_option_string x || is_old_option_string x = true).
  Proof.
    intros [(c & -> & Hc)|(c & n & [(-> & Hn)| ->] & Hc & H)].
    - unfold is_long_option_string, is_old_option_string. cbn [starts_with List.length].
      assert (N.eqb DASH c = false) as -> by (apply N.eqb_neq; intros <-; apply Hc; cbn; auto 10). cbn. split; [lia|discriminate].
    - unfold is_long_option_string, is_old_option_string. destruct n as [|d n]; [congruence|]. cbn [List.length]. split; [|lia]. intros _.
      destruct (starts_with _ _); reflexivity.
    - cbn. split; [reflexivity|lia].
  Qed.
  Lemma long_in kind x : In x (long_opts kind options) <-> exists o, In o options /\ kind o = true /\ has_name o x.
  Proof.
    unfold long_opts. rewrite in_flat_map. split.
    - intros (o & Ho & H). destruct (kind o) eqn:E; [|destruct H]. exists o. split; [exact Ho|]. split; [exact E|].
      assert (In x (o_strings o) /\ is_long_option_string x || is_old_option_string x = true) as (Hx & Hl).
      { apply in_app_iff in H as [H|H]; apply filter_In in H as (H & ->); (split; [exact H|]); [reflexivity|apply orb_true_r]. }
      split; [exact Hx|]. apply string_lengths; [exact (Hsimple o x Ho Hx)|exact Hl].
    - intros (o & Ho & E & Hx & Hl). exists o. split; [exact Ho|]. rewrite E. apply string_lengths in Hl; [|exact (Hsimple o x Ho Hx)].
      apply in_app_iff. apply orb_true_iff in Hl as [Hl|Hl]; [left|right]; apply filter_In; auto.
  Qed.
  Lemma long_simple kind x : In x (long_opts kind options) -> simple_name x.
  Proof. intros H. apply long_in in H as (o & Ho & _ & Hx & Hl). apply simple_long; [exact (Hsimple o x Ho Hx)|exact Hl]. Qed.
  Lemma short_in kind c : In c (short_opts kind options) <-> exists o, In o options /\ kind o = true /\ has_letter o c.
  Proof.
    unfold short_opts. rewrite in_flat_map. split.
    - intros (o & Ho & H). destruct (kind o) eqn:E; [|destruct H]. exists o. split; [exact Ho|]. split; [exact E|].
      apply in_flat_map in H as (x & Hx & H). apply filter_In in Hx as (Hx & Hl). unfold has_letter.
      assert (x = [DASH; c]) as <-; [|exact Hx].
      apply Nat.eqb_eq in Hl. destruct (Hsimple o x Ho Hx) as [(d & -> & _)|(d & n & [(-> & Hn)| ->] & _)].
      + destruct H as [->|[]]. reflexivity.
      + destruct n; [congruence|discriminate Hl].
      + discriminate Hl.
    - intros (o & Ho & E & H). exists o. split; [exact Ho|]. rewrite E. apply in_flat_map. exists [DASH; c]. split; [|left; reflexivity].
      apply filter_In. split; [exact H|reflexivity].
  Qed.
  Lemma short_bracketed kind : bracketed (short_opts kind options).
  Proof.
    apply Forall_forall. intros c H. apply short_in in H as (o & Ho & _ & H). destruct (Hsimple o _ Ho H) as [(d & E & Hd)|(d & n & [(E & Hn)|E] & Hd & _)].
    - injection E as <-. unfold in_brackets. destruct (memc c _) eqn:Em; [|reflexivity]. apply memc_iff in Em. contradiction.
    - injection E as -> E. congruence.
    - discriminate E.
  Qed.

  (** ** The clauses *)
  Definition use (kind : argkind) (t : arg_type) (w : str) : Prop :=
    exists o x u, In o options /\ has_name o x /\ arg_kind o = kind /\ w = x ++ u /\ tail_fits t u.
  Lemma long_clause kind k t w : (forall o, kind o = true <-> arg_kind o = k) ->
    (nonempty (long_opts kind options) && globs (make_long_opts_pattern (long_opts kind options) t) w = true <-> use k t w).
  Proof.
    intros Hk. split.
    - intros H. apply andb_true_iff in H as (Hn & H). apply long_pattern in H.
      + destruct H as (x & u & Hx & -> & Hu). apply long_in in Hx as (o & Ho & E & Hx). exists o, x, u. apply Hk in E. auto 6.
      + intros E. rewrite E in Hn. discriminate Hn.
      + apply long_simple.
    - intros (o & x & u & Ho & Hx & E & -> & Hu). apply Hk in E. assert (In x (long_opts kind options)) as Hi by (apply long_in; exists o; auto).
      apply andb_true_iff. split; [destruct (long_opts kind options); [destruct Hi|reflexivity]|]. apply long_pattern.
      + intros E'. rewrite E' in Hi. destruct Hi.
      + apply long_simple.
      + exists x, u. auto.
  Qed.
  Lemma letters_in kind k l : (forall o, kind o = true <-> arg_kind o = k) ->
    (Forall (fun c => In c (short_opts kind options)) l <-> Forall (letter options k) l).
  Proof.
    intros Hk. split; intros H; (eapply Forall_impl; [|exact H]); intros c Hc.
    - apply short_in in Hc as (o & Ho & E & Hc). exists o. apply Hk in E. auto.
    - destruct Hc as (o & Ho & Hc & E). apply short_in. exists o. apply Hk in E. auto.
  Qed.
  Definition cluster (k : argkind) (t : arg_type) (w : str) : Prop :=
    exists l c v, w = DASH :: l ++ c :: v /\ Forall (letter options ArgNone) l /\ letter options k c /\ re_tail_fits t v.
  Lemma letter_in kind k c : (forall o, kind o = true <-> arg_kind o = k) -> In c (short_opts kind options) <-> letter options k c.
  Proof.
    intros Hk. rewrite short_in. split; intros (o & Ho & H1 & H2); exists o; [apply Hk in H1|apply Hk in H2]; auto.
  Qed.
  Lemma short_clause kind k t w : (forall o, kind o = true <-> arg_kind o = k) ->
    (nonempty (short_opts kind options) && matches (make_short_opts_arg_regex (short_opts is_flag options) (short_opts kind options) t) w = true <-> cluster k t w).
  Proof.
    intros Hk. split.
    - intros H. apply andb_true_iff in H as (Hn & H). apply arg_regex in H; [|intros E; rewrite E in Hn; discriminate Hn|apply short_bracketed|apply short_bracketed].
      destruct H as (l & c & v & -> & Hl & Hc & Hv). exists l, c, v. split; [reflexivity|]. split; [apply (letters_in is_flag); [exact flag_iff|exact Hl]|].
      split; [apply (letter_in kind); assumption|exact Hv].
    - intros (l & c & v & -> & Hl & Hc & Hv). apply (letter_in kind k c Hk) in Hc. apply andb_true_iff.
      split; [destruct (short_opts kind options); [destruct Hc|reflexivity]|]. apply arg_regex; [intros E; rewrite E in Hc; destruct Hc|apply short_bracketed|apply short_bracketed|].
      exists l, c, v. split; [reflexivity|]. split; [apply (letters_in is_flag ArgNone); [exact flag_iff|exact Hl]|]. auto.
  Qed.
  Definition flags (w : str) : Prop := exists l, l <> [] /\ w = DASH :: l /\ Forall (letter options ArgNone) l.
  Lemma flag_clause w : nonempty (short_opts is_flag options) && matches (make_short_opts_flag_regex (short_opts is_flag options)) w = true <-> flags w.
  Proof.
    split.
    - intros H. apply andb_true_iff in H as (Hn & H). apply flag_regex in H; [|intros E; rewrite E in Hn; discriminate Hn|apply short_bracketed].
      destruct H as (l & Hl & -> & H). exists l. split; [exact Hl|]. split; [reflexivity|]. apply (letters_in is_flag); [exact flag_iff|exact H].
    - intros (l & Hl & -> & H). apply (letters_in is_flag ArgNone l flag_iff) in H. apply andb_true_iff. split.
      + destruct l as [|c l]; [congruence|]. inversion H as [|? ? Hc _]; subst. destruct (short_opts is_flag options); [destruct Hc|reflexivity].
      + apply flag_regex; [|apply short_bracketed|exists l; auto]. intros E. rewrite E in H. destruct l as [|c l]; [congruence|]. inversion H as [|? ? [] _].
  Qed.

  (** ** The meaning of a word is unique *)
  Lemma name_alone_iff w : name_alone options w <-> use ArgRequired TArg w \/ use ArgOptional TOptional w \/ use ArgNone TNone w.
  Proof.
    split.
    - intros [o Ho Hx Hk|o x v Ho Hx Hk ->].
      + right. destruct (arg_kind o) eqn:E; [|congruence|]; [right|left]; exists o, w, []; rewrite app_nil_r; cbn; auto 7.
      + destruct (arg_kind o) eqn:E; [congruence| |]; [left|right; left]; exists o, x, (EQ :: v); (split; [exact Ho|]); (split; [exact Hx|]); (split; [exact E|]);
          (split; [reflexivity|]); cbn; [|right]; exists v; reflexivity.
    - intros [(o & x & u & Ho & Hx & E & -> & (v & ->))|[(o & x & u & Ho & Hx & E & -> & [-> |(v & ->)])|(o & x & u & Ho & Hx & E & -> & ->)]].
      + apply (by_value _ _ o x v); try assumption; [congruence|reflexivity].
      + rewrite app_nil_r. apply (by_name _ _ o); try assumption; congruence.
      + apply (by_value _ _ o x v); try assumption; [congruence|reflexivity].
      + rewrite app_nil_r. apply (by_name _ _ o); try assumption; congruence.
  Qed.
  Lemma name_waits_iff w : name_waits options w <-> use ArgRequired TNone w.
  Proof.
    split.
    - intros [o Ho Hx E]. exists o, w, []. rewrite app_nil_r. cbn. auto 7.
    - intros (o & x & u & Ho & Hx & E & -> & ->). rewrite app_nil_r. apply (by_waiting _ _ o); assumption.
  Qed.
  Lemma names_exclusive w : name_alone options w -> name_waits options w -> False.
  Proof.
    intros H [o Ho (Hx & Hl) E]. destruct H as [o' Ho' (Hx' & _) Hk|o' x v Ho' (Hx' & _) Hk ->].
    - apply Hk. rewrite <- (Hcons o o' w Ho Ho' Hx Hx'). exact E.
    - apply (name_no_equal (x ++ s "=" ++ v)); [apply simple_long; [exact (Hsimple o _ Ho Hx)|exact Hl]|].
      apply in_app_iff. right. left. reflexivity.
  Qed.
  Lemma letter_kind k k' c : letter options k c -> letter options k' c -> k = k'.
  Proof. intros (o & Ho & Hc & <-) (o' & Ho' & Hc' & <-). exact (Hcons o o' _ Ho Ho' Hc Hc'). Qed.
  Lemma cluster_unique k k' l l' c c' v v' : k <> ArgNone -> k' <> ArgNone ->
    Forall (letter options ArgNone) l -> Forall (letter options ArgNone) l' -> letter options k c -> letter options k' c' ->
    l ++ c :: v = l' ++ c' :: v' -> c = c' /\ v = v'.
  Proof.
    intros Hk Hk' Hl. revert l'. induction Hl as [|d l Hd Hl IH]; intros l' Hl' Hc Hc' E; destruct Hl' as [|d' l' Hd' Hl']; cbn [app] in E.
    - injection E as -> ->. auto.
    - injection E as -> _. destruct Hk. exact (letter_kind _ _ _ Hc Hd').
    - injection E as -> _. destruct Hk'. exact (letter_kind _ _ _ Hc' Hd).
    - injection E as _ E. exact (IH l' Hl' Hc Hc' E).
  Qed.
  Lemma flags_cluster k l l' c v : k <> ArgNone -> Forall (letter options ArgNone) l -> letter options k c -> l = l' ++ c :: v -> False.
  Proof.
    intros Hk Hl Hc ->. rewrite Forall_app in Hl. destruct Hl as (_ & Hl). inversion Hl as [|? ? Hd _]; subst. apply Hk. exact (letter_kind _ _ _ Hc Hd).
  Qed.
  Lemma letters_alone_iff w : letters_alone options w <-> cluster ArgRequired TArg w \/ cluster ArgOptional TOptional w \/ flags w.
  Proof.
    split.
    - intros [l Hn H ->|l c v Hl Hc Hv ->|l c v Hl Hc ->].
      + right. right. exists l. auto.
      + left. exists l, c, v. auto.
      + right. left. exists l, c, v. cbn. auto.
    - intros [(l & c & v & -> & Hl & Hc & Hv)|[(l & c & v & -> & Hl & Hc & _)|(l & Hn & -> & H)]].
      + exact (by_required _ _ l c v Hl Hc Hv eq_refl).
      + exact (by_optional _ _ l c v Hl Hc eq_refl).
      + exact (by_flags _ _ l Hn H eq_refl).
  Qed.
  Lemma letters_wait_iff w : letters_wait options w <-> cluster ArgRequired TNone w.
  Proof.
    split.
    - intros [l c Hl Hc ->]. exists l, c, []. cbn. auto.
    - intros (l & c & v & -> & Hl & Hc & ->). exact (by_letter _ _ l c Hl Hc eq_refl).
  Qed.
  Lemma letters_exclusive w : letters_alone options w -> letters_wait options w -> False.
  Proof.
    intros H [l c Hl Hc ->]. destruct H as [l' Hn H E|l' c' v Hl' Hc' Hv E|l' c' v Hl' Hc' E]; injection E as E.
    - apply (flags_cluster ArgRequired l' l c []); try assumption; [discriminate|]. symmetry. exact E.
    - apply (cluster_unique ArgRequired ArgRequired) in E as (_ & E); try assumption; try discriminate. congruence.
    - apply (cluster_unique ArgRequired ArgOptional) in E as (<- & _); try assumption; try discriminate.
      discriminate (letter_kind _ _ _ Hc Hc').
  Qed.
  Lemma own_exclusive w : own_alone options w -> own_waits options w -> False.
  Proof.
    intros [H|(Hn & H)] [H'|(Hn' & H')].
    - exact (names_exclusive w H H').
    - apply Hn'. left. exact H.
    - apply Hn. right. exact H'.
    - exact (letters_exclusive w H H').
  Qed.

  (** ** Classification *)
  Lemma classify_ok w : match classify options w with
    | Keep => ~ own_alone options w /\ ~ own_waits options w
    | One => own_alone options w
    | Two => own_waits options w
    end.
  Proof.
    pose proof (long_clause has_required_arg ArgRequired TArg w required_iff) as H1.
    pose proof (long_clause has_required_arg ArgRequired TNone w required_iff) as H2.
    pose proof (long_clause has_optional_arg ArgOptional TOptional w optional_iff) as H3.
    pose proof (long_clause is_flag ArgNone TNone w flag_iff) as H4.
    pose proof (short_clause has_required_arg ArgRequired TNone w required_iff) as H5.
    pose proof (short_clause has_required_arg ArgRequired TArg w required_iff) as H6.
    pose proof (short_clause has_optional_arg ArgOptional TOptional w optional_iff) as H7.
    pose proof (flag_clause w) as H8.
    pose proof (name_alone_iff w) as Ha. pose proof (name_waits_iff w) as Hw.
    pose proof (letters_alone_iff w) as La. pose proof (letters_wait_iff w) as Lw.
    unfold own_alone, own_waits, a_name, classify.
    repeat match goal with |- context [if ?b then _ else _] => let E := fresh "E" in destruct b eqn:E; rewrite ?E in * end; intuition congruence.
  Qed.

  (** ** All words *)
  Lemma deleted_from ws m i j : reading options ws m -> In j (deleted options ws i) -> i <= j.
  Proof.
    intros H. revert i. induction H as [|w ws l Ha Hw H IH|w ws l Ha H IH|w a ws l Hw H IH|w Hw]; intros i Hj; [destruct Hj| | | |];
      cbn [deleted] in Hj; pose proof (classify_ok w) as C; destruct (classify options w);
      try (exfalso; tauto); try (exfalso; eauto using own_exclusive; fail).
    - apply IH in Hj. lia.
    - destruct Hj as [<-|Hj]; [lia|]. apply IH in Hj. lia.
    - destruct Hj as [<-|[<-|Hj]]; [lia|lia|]. apply IH in Hj. lia.
    - destruct Hj as [<-|[<-|[]]]; lia.
  Qed.
  Lemma reading_exists n ws : List.length ws <= n -> exists m, reading options ws m.
  Proof.
    revert ws. induction n as [|n IH]; intros [|w ws] Hl; cbn [List.length] in Hl; try lia; try (exists []; constructor).
    pose proof (classify_ok w) as C. destruct (classify options w).
    - destruct (IH ws) as (m & H); [lia|]. exists (true :: m). constructor; tauto.
    - destruct (IH ws) as (m & H); [lia|]. exists (false :: m). constructor; assumption.
    - destruct ws as [|a ws]; [exists [false]; constructor; exact C|]. cbn [List.length] in Hl. destruct (IH ws) as (m & H); [lia|].
      exists (false :: false :: m). constructor; assumption.
  Qed.
  Lemma reading_unique ws m m' : reading options ws m -> reading options ws m' -> m = m'.
  Proof.
    intros H. revert m'. induction H as [|w ws l Ha Hw H IH|w ws l Ha H IH|w a ws l Hw H IH|w Hw]; intros m' H'; inversion H'; subst;
      try reflexivity; try contradiction; try (f_equal; apply IH; assumption); try (do 2 f_equal; apply IH; assumption); exfalso; eauto using own_exclusive.
  Qed.

  Lemma remaining_ok ws m : reading options ws m -> forall i D,
    (forall j, i <= j -> existsb (Nat.eqb j) D = existsb (Nat.eqb j) (deleted options ws i)) -> remaining D ws i = passed_on m ws.
  Proof.
    assert (forall j l, existsb (Nat.eqb j) l = true <-> In j l) as He.
    { intros j l. rewrite existsb_exists. split; [intros (k & H & E); apply Nat.eqb_eq in E as ->; exact H|intros H; exists j; split; [exact H|apply Nat.eqb_refl]]. }
    assert (forall j k, j <> k -> Nat.eqb j k = false) as Hne by (intros j k H; apply Nat.eqb_neq, H).
    intros H. induction H as [|w ws l Ha Hw H IH|w ws l Ha H IH|w a ws l Hw H IH|w Hw]; intros i D HD; [reflexivity| | | |];
      cbn [deleted] in HD; pose proof (classify_ok w) as C; destruct (classify options w);
      try (exfalso; tauto); try (exfalso; eauto using own_exclusive; fail); cbn [remaining passed_on].
    - assert (existsb (Nat.eqb i) D = false) as ->.
      { rewrite HD by lia. destruct (existsb _ _) eqn:E; [|reflexivity]. apply He in E. apply (deleted_from _ _ _ _ H) in E. lia. }
      f_equal. apply IH. intros j Hj. apply HD. lia.
    - assert (existsb (Nat.eqb i) D = true) as ->. { rewrite HD by lia. cbn [existsb]. rewrite Nat.eqb_refl. reflexivity. }
      apply IH. intros j Hj. rewrite HD by lia. cbn [existsb]. rewrite Hne by lia. reflexivity.
    - assert (existsb (Nat.eqb i) D = true) as ->. { rewrite HD by lia. cbn [existsb]. rewrite Nat.eqb_refl. reflexivity. }
      assert (existsb (Nat.eqb (S i)) D = true) as ->. { rewrite HD by lia. cbn [existsb]. rewrite Nat.eqb_refl, orb_true_r. reflexivity. }
      apply IH. intros j Hj. rewrite HD by lia. cbn [existsb]. rewrite !Hne by lia. reflexivity.
    - assert (existsb (Nat.eqb i) D = true) as ->. { rewrite HD by lia. cbn [existsb]. rewrite Nat.eqb_refl. reflexivity. }
      reflexivity.
  Qed.
  (** the words deleted before a word that is passed on *)
  Lemma count_ok ws m : reading options ws m -> forall i m1 m2 pre cur post, m = m1 ++ true :: m2 -> ws = pre ++ cur :: post -> List.length m1 = List.length pre ->
    List.length (filter (fun d => Nat.ltb d (i + List.length pre)) (deleted options ws i)) + List.length (passed_on m1 pre) = List.length pre.
  Proof.
    intros H. induction H as [|w ws l Ha Hw H IH|w ws l Ha H IH|w a ws l Hw H IH|w Hw]; intros i m1 m2 pre cur post E1 E2 El.
    - destruct m1; discriminate E1.
    - cbn [deleted]. pose proof (classify_ok w) as C; destruct (classify options w); try (exfalso; tauto).
      destruct m1 as [|b m1], pre as [|p pre]; try discriminate El.
      + cbn [List.length passed_on]. rewrite Nat.add_0_r, Nat.add_0_r.
        assert (filter (fun d => Nat.ltb d i) (deleted options ws (S i)) = []) as ->; [|reflexivity].
        destruct (filter _ _) as [|d r] eqn:Ef; [reflexivity|]. assert (In d (d :: r)) as Hd by (left; reflexivity). rewrite <- Ef in Hd.
        apply filter_In in Hd as (Hd & Hlt). apply (deleted_from _ _ _ _ H) in Hd. apply Nat.ltb_lt in Hlt. lia.
      + injection E1 as <- E1. injection E2 as <- E2. injection El as El. specialize (IH (S i) m1 m2 pre cur post E1 E2 El).
        cbn [List.length passed_on app]. replace (i + S (List.length pre)) with (S i + List.length pre) by lia. lia.
    - cbn [deleted]. pose proof (classify_ok w) as C; destruct (classify options w); try (exfalso; tauto); try (exfalso; eauto using own_exclusive; fail).
      destruct m1 as [|b m1], pre as [|p pre]; try discriminate El; [discriminate E1|].
      injection E1 as <- E1. injection E2 as <- E2. injection El as El. specialize (IH (S i) m1 m2 pre cur post E1 E2 El).
      cbn [List.length passed_on app filter]. replace (i + S (List.length pre)) with (S i + List.length pre) by lia.
      assert (Nat.ltb i (S i + List.length pre) = true) as -> by (apply Nat.ltb_lt; lia). cbn [List.length]. lia.
    - cbn [deleted]. pose proof (classify_ok w) as C; destruct (classify options w); try (exfalso; tauto); try (exfalso; eauto using own_exclusive; fail).
      destruct m1 as [|b m1], pre as [|p pre]; try discriminate El; [discriminate E1|]. destruct m1 as [|b' m1], pre as [|p' pre]; try discriminate El; [discriminate E1|].
      injection E1 as <- <- E1. injection E2 as <- <- E2. injection El as El. specialize (IH (S (S i)) m1 m2 pre cur post E1 E2 El).
      cbn [List.length passed_on app filter]. replace (i + S (S (List.length pre))) with (S (S i) + List.length pre) by lia.
      assert (Nat.ltb i (S (S i) + List.length pre) = true) as -> by (apply Nat.ltb_lt; lia).
      assert (Nat.ltb (S i) (S (S i) + List.length pre) = true) as -> by (apply Nat.ltb_lt; lia). cbn [List.length]. lia.
    - destruct m1 as [|b [|b' m1]]; discriminate E1.
  Qed.
  Lemma passed_app m1 m2 pre post : List.length m1 = List.length pre -> passed_on (m1 ++ m2) (pre ++ post) = passed_on m1 pre ++ passed_on m2 post.
  Proof.
    revert pre. induction m1 as [|b m1 IH]; intros [|p pre] E; try discriminate E; [reflexivity|]. injection E as E. cbn [app passed_on]. rewrite IH by exact E. apply app_assoc.
  Qed.

  Lemma program_kept prog ws m : ~ (exists t, prog = DASH :: t) -> reading options ws m -> reading options (prog :: ws) (true :: m).
  Proof.
    intros Hp H. assert (~ a_name options prog) as Hn.
    { intros [[o Ho (Hx & _) _|o x v Ho (Hx & _) _ E]|[o Ho (Hx & _) _]]; apply Hp;
        destruct (Hsimple _ _ Ho Hx) as [(c & -> & _)|(c & n & [(-> & _)| ->] & _)]; try subst prog; eexists; reflexivity. }
    constructor; [| |exact H].
    - intros [Ha|(_ & [l Hl Hf ->|l c v _ _ _ ->|l c v _ _ ->])]; [apply Hn; left; exact Ha| | |]; apply Hp; eexists; reflexivity.
    - intros [Ha|(_ & [l c _ _ ->])]; [apply Hn; right; exact Ha|]. apply Hp; eexists; reflexivity.
  Qed.
  Lemma wrapped_ok wraps prog pre cur post m1 m2 : ~ (exists t, prog = DASH :: t) ->
    reading options (pre ++ cur :: post) (m1 ++ true :: m2) -> List.length m1 = List.length pre ->
    wrapped options wraps (prog :: pre ++ cur :: post) (2 + List.length pre)
    = (wraps :: passed_on m1 pre ++ cur :: passed_on m2 post, 2 + List.length (passed_on m1 pre)).
  Proof.
    intros Hp H El. pose proof (program_kept prog _ _ Hp H) as H'. unfold wrapped.
    rewrite (remaining_ok _ _ H') by reflexivity. cbn [passed_on app tl]. rewrite passed_app by exact El. f_equal.
    pose proof (count_ok _ _ H' 1 (true :: m1) m2 (prog :: pre) cur post eq_refl eq_refl (f_equal S El)) as C.
    cbn [passed_on app List.length] in C. change (2 + List.length pre) with (1 + S (List.length pre)). lia.
  Qed.
End Options.
