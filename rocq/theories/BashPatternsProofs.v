(** * Proofs about crazy_complete/bash_patterns.py. *)
From Coq Require Import Permutation Sorting.Sorted.
From Verif Require Import Base Dict Algo AlgoProofs PyStr When SpecShell SpecGlob BashPatterns Cli.
Open Scope list_scope.

(** ** Matching *)
Lemma seq_matches_app gs : forall hs w,
  seq_matches (gs ++ hs) w <-> exists u v, w = u ++ v /\ seq_matches gs u /\ seq_matches hs v.
Proof.
  unfold seq_matches. induction gs as [| g gs IH]; intros hs w; cbn [app seq_matches_].
  - split; [intros H; exists [], w; auto | intros (u & v & -> & -> & H); exact H].
  - split.
    + intros (u & v & -> & Hg & H). apply IH in H as (u2 & v2 & -> & H1 & H2).
      exists (u ++ u2), v2. rewrite app_assoc. split; [reflexivity |]. split; [| exact H2].
      exists u, u2. auto.
    + intros (u & v & -> & (u1 & v1 & -> & Hg & H1) & H2). exists u1, (v1 ++ v).
      rewrite app_assoc. split; [reflexivity |]. split; [exact Hg |]. apply IH. exists v1, v. auto.
Qed.
Lemma seq_matches_one g w : seq_matches [g] w <-> matches g w.
Proof.
  unfold seq_matches. cbn [seq_matches_]. split.
  - intros (u & v & -> & H & ->). now rewrite app_nil_r.
  - intros H. exists w, []. rewrite app_nil_r. auto.
Qed.
Lemma seq_matches_chars x w : seq_matches (map Char x) w <-> w = x.
Proof.
  unfold seq_matches. revert w. induction x as [| c x IH]; intros w; cbn [map seq_matches_]; [reflexivity |]. split.
  - intros (u & v & -> & -> & H). apply IH in H. now subst.
  - intros ->. exists [c], x. split; [reflexivity |]. split; [reflexivity | now apply IH].
Qed.
Lemma any_matches_iff alts w : any_matches alts w <-> exists a, In a alts /\ seq_matches a w.
Proof.
  unfold any_matches. induction alts as [| a alts IH]; cbn [any_matches_ In].
  - split; [intros [] | intros (a & [] & _)].
  - rewrite IH. split.
    + intros [H | (a' & Hi & H)]; [exists a; auto | exists a'; auto].
    + intros (a' & [-> | Hi] & H); [now left | right; exists a'; auto].
Qed.

(** ** Reading *)
Definition push_all (cur : option (list glob)) (gs : list glob) : option (list glob) :=
  match gs with [] => cur | _ => Some (glob_of cur ++ gs) end.
Lemma push_all_app cur gs hs : push_all (push_all cur gs) hs = push_all cur (gs ++ hs).
Proof.
  destruct gs as [| g gs]; [reflexivity |]. destruct hs as [| h hs]; [now rewrite app_nil_r |].
  cbn. now rewrite <- app_assoc.
Qed.
Lemma glob_of_push_all cur gs : glob_of (push_all cur gs) = glob_of cur ++ gs.
Proof. destruct gs; cbn; [now rewrite app_nil_r | reflexivity]. Qed.

Lemma read_plain top st alts cur b c x' : read top GPlain st alts cur b (c :: x') =
          if N.eqb c SQ then read top GSingle st alts (match b with Some _ => cur | None => glob_start cur end) b x'
          else if N.eqb c DQ then read top GDouble st alts (match b with Some _ => cur | None => glob_start cur end) b x'
          else if N.eqb c BS then read top GEsc st alts cur b x'
          else match b with
          | Some br =>
              if b_start br && negb (b_negated br) && (N.eqb c BANG || N.eqb c CARET)
              then read top GPlain st alts cur (Some (MkBracket true [] None false true)) x'
              else if N.eqb c RBRK && negb (b_start br)
              then read top GPlain st alts (glob_push cur (bracket_close br)) None x'
              else if N.eqb c DASH && negb (b_dash br) && (match b_last br with Some _ => true | None => false end)
              then read top GPlain st alts cur
                     (Some (MkBracket (b_negated br) (b_items br) (b_last br) true false)) x'
              else if memc c [DOLLAR; BTICK; SP; TAB; LF] then None
              else if N.eqb c LBRK && (match x' with d :: _ => memc d [COLON; EQ; DOT] | [] => false end)
              then None
              else read top GPlain st alts cur (Some (bracket_add br c)) x'
          | None =>
              match ext_open c x' with
              | Some k =>
                  match x' with
                  | _ :: x'' => read top GPlain ((k, alts, cur) :: st) [] None None x''
                  | [] => None
                  end
              | None =>
                  if N.eqb c QM then read top GPlain st alts (glob_push cur AnyChar) None x'
                  else if N.eqb c STAR then read top GPlain st alts (glob_push cur AnyText) None x'
                  else if N.eqb c LBRK
                  then read top GPlain st alts (glob_start cur) (Some (MkBracket false [] None false true)) x'
                  else if N.eqb c PIPE then
                    match st, cur with
                    | [], None => None
                    | [], Some gs => if top then read top GPlain [] (alts ++ [gs]) None None x' else None
                    | _, _ => read top GPlain st (alts ++ [glob_of cur]) None None x'
                    end
                  else if N.eqb c RPAR then
                    match st with
                    | [] => None
                    | (k, alts0, cur0) :: st' =>
                        read top GPlain st' alts0 (glob_push cur0 (Ext k (alts ++ [glob_of cur]))) None x'
                    end
                  else if memc c [SP; TAB; LF; DOLLAR; BTICK; AMP; SEMI; LT; GT; LPAR] then None
                  else if memc c [HASH; TILDE] && (match cur with None => true | Some _ => false end)
                       && (match st with [] => true | _ => false end)
                  then None                                  (* comment, tilde expansion *)
                  else read top GPlain st alts (glob_push cur (Char c)) None x'
              end
          end.
Proof. reflexivity. Qed.

(** [x] is a complete piece of a pattern, meaning [gs] wherever it stands. *)
Definition reads (x : str) (gs : list glob) : Prop :=
  hd_error x <> Some LPAR /\ (x = [] -> gs = []) /\
  forall top st alts cur rest, hd_error rest <> Some LPAR ->
    read top GPlain st alts cur None (x ++ rest) = read top GPlain st alts (push_all cur gs) None rest.

Lemma reads_nil : reads [] [].
Proof. split; [discriminate |]. split; [reflexivity |]. reflexivity. Qed.
Lemma reads_app x y gs hs : reads x gs -> reads y hs -> reads (x ++ y) (gs ++ hs).
Proof.
  intros (H1 & H2 & H3) (K1 & K2 & K3). split; [destruct x; [exact K1 | exact H1] |]. split.
  - intros E. apply app_eq_nil in E as [-> ->]. now rewrite H2, K2.
  - intros top st alts cur rest Hr. rewrite <- app_assoc, H3, K3, push_all_app; auto.
    destruct y; [exact Hr | exact K1].
Qed.
Lemma plain_facts c : plain c = true ->
  forall d, In d [PIPE; AMP; SEMI; LT; GT; LPAR; RPAR; DOLLAR; BTICK; BS; DQ; SQ; SP; TAB; LF;
          STAR; QM; LBRK; RBRK; HASH; TILDE; BANG; LBRC; RBRC; CARET] -> N.eqb c d = false.
Proof.
  unfold plain, posix_special, memc. intros H d Hd. apply negb_true_iff in H.
  destruct (N.eqb c d) eqn:E; [| reflexivity].
  rewrite <- H. symmetry. apply existsb_exists. exists d. auto.
Qed.
Lemma reads_char c : plain c = true -> reads [c] [Char c].
Proof.
  intros Hp. pose proof (plain_facts c Hp) as F.
  split; [| split; [discriminate |]].
  { intros E. injection E as ->. specialize (F LPAR). cbn in F. assert (true = false) by tauto. discriminate. }
  intros top st alts cur rest Hr. cbn [app]. rewrite read_plain.
  rewrite (F SQ), (F DQ), (F BS), (F QM), (F STAR), (F LBRK), (F PIPE), (F RPAR) by (cbn; tauto).
  cbn [memc existsb].
  rewrite (F SP), (F TAB), (F LF), (F DOLLAR), (F BTICK), (F AMP), (F SEMI), (F LT), (F GT), (F LPAR), (F HASH), (F TILDE) by (cbn; tauto).
  cbn [orb andb].
  assert (E : push_all cur [Char c] = glob_push cur (Char c)) by (destruct cur; reflexivity).
  rewrite E.
  assert (Eo : ext_open c rest = None).
  { unfold ext_open. destruct rest as [| d rest]; [reflexivity |].
    destruct (N.eqb_spec d LPAR) as [-> | Hd]; [now destruct Hr | reflexivity]. }
  now rewrite Eo.
Qed.
Lemma reads_chars x : forallb plain x = true -> reads x (map Char x).
Proof.
  induction x as [| c x IH]; intros H; [apply reads_nil |]. cbn in H. apply andb_prop in H as [H1 H2].
  exact (reads_app [c] x [Char c] (map Char x) (reads_char c H1) (IH H2)).
Qed.
Lemma is_digit_not a : is_digit a = true -> forall d, (d < 48 \/ 57 < d)%N -> N.eqb a d = false.
Proof. unfold is_digit. intros H d Hd. apply andb_prop in H as [H1 H2]. apply N.leb_le in H1, H2. apply N.eqb_neq. lia. Qed.
Lemma reads_range a b : is_digit a = true -> is_digit b = true ->
  reads (s "[" ++ [a] ++ s "-" ++ [b] ++ s "]") [OneOf false [(a, b)]].
Proof.
  intros Ha Hb. pose proof (is_digit_not a Ha) as A. pose proof (is_digit_not b Hb) as B.
  split; [discriminate |]. split; [discriminate |]. intros top st alts cur rest Hr.
  assert (E : push_all cur [OneOf false [(a, b)]] = glob_push (glob_start cur) (OneOf false [(a, b)]))
    by (destruct cur; reflexivity).
  rewrite E.
  change ((s "[" ++ [a] ++ s "-" ++ [b] ++ s "]") ++ rest) with (LBRK :: a :: DASH :: b :: RBRK :: rest).
  rewrite read_plain. cbn -[read].
  rewrite read_plain, !A by lia. cbn -[read N.eqb]. rewrite !A by lia. cbn -[read].
  rewrite read_plain. cbn -[read].
  rewrite read_plain, !B by lia. cbn -[read N.eqb]. rewrite !B by lia. cbn -[read].
  rewrite read_plain. cbn -[read]. reflexivity.
Qed.
Lemma reads_join k a0 c0 st parts : (forall p, In p parts -> reads (fst p) (snd p)) -> parts <> [] ->
  forall top alts rest, hd_error rest <> Some LPAR ->
  read top GPlain ((k, a0, c0) :: st) alts None None (join (s "|") (map fst parts) ++ s ")" ++ rest) =
  read top GPlain st a0 (glob_push c0 (Ext k (alts ++ map snd parts))) None rest.
Proof.
  induction parts as [| [x gs] parts IH]; intros Hp Hn top alts rest Hr; [now destruct Hn |].
  destruct (Hp (x, gs) (or_introl eq_refl)) as (_ & _ & R). cbn [fst snd] in R.
  destruct parts as [| p2 parts].
  - cbn [map join snd fst]. rewrite R by discriminate. change (s ")" ++ rest) with (RPAR :: rest).
    rewrite read_plain. assert (E : ext_open RPAR rest = None) by (destruct rest; [| cbn -[N.eqb]; destruct (N.eqb _ _)]; reflexivity).
    rewrite E. cbn -[read]. rewrite glob_of_push_all. reflexivity.
  - change (map fst ((x, gs) :: p2 :: parts)) with (x :: map fst (p2 :: parts)).
    change (map snd ((x, gs) :: p2 :: parts)) with (gs :: map snd (p2 :: parts)).
    change (join (s "|") (x :: map fst (p2 :: parts))) with (x ++ s "|" ++ join (s "|") (map fst (p2 :: parts))).
    rewrite <- !app_assoc. rewrite R by discriminate.
    change (s "|") with [PIPE] at 1. cbn [app]. 
    transitivity (read top GPlain ((k, a0, c0) :: st) (alts ++ [gs]) None None
      (join (s "|") (map fst (p2 :: parts)) ++ s ")" ++ rest)).
    + rewrite read_plain.
      assert (E : ext_open PIPE (join (s "|") (map fst (p2 :: parts)) ++ s ")" ++ rest) = None).
      { destruct (_ ++ _); [| cbn -[N.eqb]; destruct (N.eqb _ _)]; reflexivity. }
      rewrite E. cbn -[join map read]. rewrite glob_of_push_all. reflexivity.
    + rewrite IH; [| intros p Hi; apply Hp; now right | discriminate | exact Hr].
      now rewrite <- app_assoc.
Qed.
Lemma reads_ext parts : (forall p, In p parts -> reads (fst p) (snd p)) -> parts <> [] ->
  reads (s "@(" ++ join (s "|") (map fst parts) ++ s ")") [Ext ExactlyOne (map snd parts)].
Proof.
  intros Hp Hn. split; [discriminate |]. split; [discriminate |]. intros top st alts cur rest Hr.
  rewrite <- !app_assoc.
  transitivity (read top GPlain ((ExactlyOne, alts, cur) :: st) [] None None
    (join (s "|") (map fst parts) ++ s ")" ++ rest)).
  { set (y := join _ _ ++ _). change (s "@(" ++ y) with (AT :: LPAR :: y). rewrite read_plain. cbn -[read join map]. reflexivity. }
  rewrite reads_join by assumption. destruct cur; reflexivity.
Qed.

(** ** Sorting *)
Lemma insert_str_perm x l : Permutation (insert_str x l) (x :: l).
Proof.
  induction l as [| y l IH]; cbn; [reflexivity |]. destruct (str_leb x y); [reflexivity |].
  rewrite IH. apply perm_swap.
Qed.
Lemma sort_strs_perm l : Permutation (sort_strs l) l.
Proof. induction l as [| x l IH]; cbn; [reflexivity |]. rewrite insert_str_perm. now constructor. Qed.

(** ** Tries *)
Fixpoint accept (t : trie) (w : str) {struct w} : bool :=
  match t, w with
  | Node term _, [] => term
  | Node _ ch, c :: w' => match dget N.eqb c ch with Some t' => accept t' w' | None => false end
  end.
Lemma N_eqb_spec a b : reflect (a = b) (N.eqb a b).
Proof. apply N.eqb_spec. Qed.
Lemma accept_empty w : accept new_trie w = false.
Proof. now destruct w. Qed.
Lemma accept_insert x : forall t w, accept (insert t x) w = str_eqb w x || accept t w.
Proof.
  induction x as [| c x IH]; intros [term ch] w.
  - destruct w; cbn; [reflexivity |]. reflexivity.
  - destruct w as [| d w]; cbn [insert accept str_eqb]; [reflexivity |].
    destruct (N.eqb_spec d c) as [-> | Hn].
    + rewrite (dget_dset_same _ N_eqb_spec). rewrite IH. cbn [andb].
      destruct (dget N.eqb c ch); [reflexivity | now rewrite accept_empty].
    + rewrite (dget_dset_other _ N_eqb_spec) by congruence. reflexivity.
Qed.
Lemma accept_fold l : forall t w, accept (fold_left insert l t) w = mems w l || accept t w.
Proof.
  induction l as [| x l IH]; intros t w; [reflexivity |]. cbn [fold_left mems existsb]. rewrite IH, accept_insert.
  unfold mems. destruct (str_eqb w x), (existsb (str_eqb w) l); reflexivity.
Qed.

(** Induction on tries *)
Fixpoint trie_rect' (P : trie -> Prop)
  (H : forall term ch, (forall c t, In (c, t) ch -> P t) -> P (Node term ch)) (t : trie) : P t :=
  match t with
  | Node term ch => H term ch
      ((fix go l : forall c t, In (c, t) l -> P t :=
          match l with
          | [] => fun _ _ F => match F with end
          | (c', t') :: l' => fun c t F =>
              match F with
              | or_introl E => eq_ind t' P (trie_rect' P H t') t (f_equal snd E)
              | or_intror F' => go l' c t F'
              end
          end) ch)
  end.

(** What tries built by [insert] look like: different tokens, leaves are terminal, plain tokens. *)
Inductive good : trie -> Prop :=
| good_node term ch : NoDup (map fst ch) -> (ch = [] -> term = true) ->
    (forall c t, In (c, t) ch -> plain c = true /\ good t) -> good (Node term ch).
(** as [good], but the root may be empty *)
Definition good_root (t : trie) : Prop := t = new_trie \/ good t.

Lemma In_dset {V} k (v : V) d k2 v2 : In (k2, v2) (dset N.eqb k v d) -> (k2 = k /\ v2 = v) \/ In (k2, v2) d.
Proof.
  induction d as [| [k' v'] d IH]; cbn [dset In].
  - intros [E | []]. injection E as <- <-. now left.
  - destruct (N.eqb_spec k k') as [-> | Hn]; cbn [In].
    + intros [E | H]; [injection E as <- <-; now left | right; now right].
    + intros [E | H]; [right; now left |]. destruct (IH H) as [H' | H']; [now left | right; now right].
Qed.
Lemma insert_not_empty t x : insert t x <> new_trie.
Proof.
  destruct t as [term ch], x as [| c x]; cbn; [discriminate |]. unfold new_trie.
  intros H. injection H as _ H. destruct ch as [| [k v] ch]; [discriminate |]. cbn in H.
  destruct (N.eqb c k); discriminate.
Qed.
Lemma insert_good x : forall t, forallb plain x = true -> good_root t -> good (insert t x).
Proof.
  induction x as [| c x IH]; intros [term ch] Hx Ht; cbn [insert].
  - destruct Ht as [Ht | Ht]; [injection Ht as -> ->; constructor; [constructor | reflexivity | intros ? ? []] |].
    inversion Ht as [? ? H1 H2 H3]; subst. constructor; auto.
  - cbn in Hx. apply andb_prop in Hx as [Hc Hx].
    assert (Hch : NoDup (map fst ch) /\ forall c t, In (c, t) ch -> plain c = true /\ good t).
    { destruct Ht as [Ht | Ht]; [injection Ht as -> ->; split; [constructor | intros ? ? []] |].
      inversion Ht; subst; auto. }
    destruct Hch as [Hn Hch].
    assert (Hg : good (insert (match dget N.eqb c ch with Some n => n | None => new_trie end) x)).
    { apply IH; [exact Hx |]. destruct (dget N.eqb c ch) as [n |] eqn:E; [right | now left].
      apply (dget_In _ N_eqb_spec) in E. now apply (Hch c). }
    constructor.
    + now apply (dset_NoDup _ N_eqb_spec).
    + intros E. destruct ch as [| [k v] ch]; [discriminate |]. cbn in E. destruct (N.eqb c k); discriminate.
    + intros d t Hi. apply In_dset in Hi. destruct Hi as [[-> ->] | Hi]; [now split |].
      now apply Hch.
Qed.

(** ** From tries to patterns *)
Definition texts (ch : list (N * trie)) : list str :=
  map (fun '(token, child) => token :: trie_to_pattern child) ch.
Lemma pattern_node term ch : ch <> [] ->
  trie_to_pattern (Node term ch) = build_pattern (if term then texts ch ++ [[]] else texts ch).
Proof. destruct ch; [congruence |]. reflexivity. Qed.

(** If the parts of a node are taken to be numbers in a row, they are digits. *)
Definition node_ok (t : trie) : Prop :=
  match t with
  | Node term ch => forall zs, term = false -> 2 <= List.length ch -> ints_of (texts ch) = Some zs ->
      numbers_are_contiguous (sorted zs) = true -> forall p, In p (texts ch) -> List.length p = 1
  end.
Inductive all_ok : trie -> Prop :=
| all_ok_node term ch : node_ok (Node term ch) -> (forall c t, In (c, t) ch -> all_ok t) ->
    all_ok (Node term ch).

Lemma ints_of_In parts : forall zs, ints_of parts = Some zs ->
  (forall p, In p parts -> exists z, py_int p = Some z /\ In z zs) /\
  (forall z, In z zs -> exists p, py_int p = Some z /\ In p parts).
Proof.
  induction parts as [| p parts IH]; intros zs H; cbn in H.
  - injection H as <-. split; intros ? [].
  - destruct (py_int p) as [z |] eqn:E; [| discriminate]. destruct (ints_of parts) as [zs' |]; [| discriminate].
    injection H as <-. destruct (IH zs' eq_refl) as [A B]. split.
    + intros q [-> | Hq]; [exists z; split; [assumption | now left] |].
      destruct (A q Hq) as (z' & E' & Hz). exists z'. split; [assumption | now right].
    + intros z' [-> | Hz]; [exists p; split; [assumption | now left] |].
      destruct (B z' Hz) as (q & E' & Hq). exists q. split; [assumption | now right].
Qed.
Lemma ints_of_length parts : forall zs, ints_of parts = Some zs -> List.length zs = List.length parts.
Proof.
  induction parts as [| p parts IH]; intros zs H; cbn in H; [now injection H as <- |].
  destruct (py_int p); [| discriminate]. destruct (ints_of parts) as [zs' |]; [| discriminate].
  injection H as <-. cbn. now rewrite (IH zs' eq_refl).
Qed.
Lemma py_int_one c z : py_int [c] = Some z -> is_digit c = true /\ z = Z.of_N (c - 48).
Proof.
  unfold py_int, strip_p, rstrip_p. cbn [lstrip_p].
  destruct (is_space c); [discriminate |]. cbn [rev app lstrip_p].
  destruct (is_space c); [discriminate |]. cbn [rev app lstrip_p].
  destruct (N.eqb c DASH); [discriminate |]. destruct (N.eqb c PLUS); [discriminate |].
  cbn [int_digits]. destruct (is_digit c); [| destruct (N.eqb c UND); discriminate].
  intros H. injection H as <-. split; [reflexivity | lia].
Qed.
Lemma show_digit (d : N) : (d <= 9)%N -> show_Z (Z.of_N d) = [(48 + d)%N].
Proof.
  intros H. assert (E : (d = 0 \/ d = 1 \/ d = 2 \/ d = 3 \/ d = 4 \/ d = 5 \/ d = 6 \/ d = 7 \/ d = 8 \/ d = 9)%N) by lia.
  repeat (destruct E as [-> | E]; [reflexivity |]). now subst.
Qed.

(** every child with the meaning of its pattern *)
Definition triples_ok (l : list (N * trie * list glob)) : Prop :=
  forall c t g, In (c, t, g) l -> reads (trie_to_pattern t) g /\ forall w, seq_matches g w <-> accept t w = true.
Lemma triples ch :
  (forall c t, In (c, t) ch -> exists g, reads (trie_to_pattern t) g /\ forall w, seq_matches g w <-> accept t w = true) ->
  exists l, map fst l = ch /\ triples_ok l.
Proof.
  induction ch as [| [c t] ch IH]; intros H.
  - exists []. split; [reflexivity | intros ? ? ? []].
  - destruct (H c t (or_introl eq_refl)) as (g & Hg).
    destruct IH as (l & El & Hl); [intros c' t' Hi; apply (H c' t'); now right |].
    exists ((c, t, g) :: l). split; [cbn; now rewrite El |].
    intros c' t' g' [E | Hi]; [injection E as <- <- <-; exact Hg | now apply (Hl c')].
Qed.
Lemma accept_children term ch c w : NoDup (map fst ch) ->
  (accept (Node term ch) (c :: w) = true <-> exists t, In (c, t) ch /\ accept t w = true).
Proof.
  intros Hn. cbn [accept]. split.
  - destruct (dget N.eqb c ch) as [t |] eqn:E; [| discriminate]. intros H. exists t. split; [| exact H].
    now apply (dget_In _ N_eqb_spec).
  - intros (t & Hi & H). now rewrite (In_dget _ N_eqb_spec c t ch Hn Hi).
Qed.
Lemma contiguous_range l : numbers_are_contiguous (sorted l) = true ->
  let ints := sorted l in
  (hd 0%Z ints <= last ints 0%Z)%Z /\ In (hd 0%Z ints) l /\ In (last ints 0%Z) l /\
  forall z, In z l <-> (hd 0%Z ints <= z <= last ints 0%Z)%Z.
Proof.
  intros H ints. assert (E : exists a n, ints = zrange a (S n)).
  { apply contiguous_iff in H as (a & n & P). exists a, n. apply sorted_unique.
    - apply Sorted_StronglySorted; [intros ? ? ?; apply Z.le_trans | apply sorted_sorted].
    - apply zrange_sorted.
    - exact P. }
  destruct E as (a & n & E).
  assert (Hin : forall z, In z l <-> In z ints).
  { intros z. split; intros Hz; [apply (Permutation_in _ (Permutation_sym (sorted_perm l))) in Hz
                                | apply (Permutation_in _ (sorted_perm l))]; exact Hz. }
  assert (Hd : hd 0%Z ints = a) by (rewrite E, zrange_S; reflexivity).
  assert (Hl : last ints 0%Z = (a + Z.of_nat n)%Z).
  { rewrite E. unfold zrange. rewrite seq_S, map_app. cbn [map]. rewrite last_last. reflexivity. }
  assert (Hz : forall z, In z ints <-> (a <= z <= a + Z.of_nat n)%Z).
  { intros z. rewrite E. unfold zrange. rewrite in_map_iff. split.
    - intros (i & <- & Hi). apply in_seq in Hi. lia.
    - intros Hz. exists (Z.to_nat (z - a)). split; [lia |]. apply in_seq. lia. }
  rewrite Hd, Hl. split; [lia |]. rewrite !Hin, !Hz. split; [lia |]. split; [lia |]. intros z. rewrite Hin. apply Hz.
Qed.

Lemma pattern_ok t : good t -> all_ok t ->
  exists gs, reads (trie_to_pattern t) gs /\ forall w, seq_matches gs w <-> accept t w = true.
Proof.
  induction t as [term ch IH] using trie_rect'. intros Hg Ho.
  inversion Hg as [? ? Hn Hleaf Hch]; subst. inversion Ho as [? ? Hok Hoch]; subst.
  destruct ch as [| ct0 ch0] eqn:Ech.
  { exists []. split; [apply reads_nil |]. rewrite (Hleaf eq_refl). intros w. unfold seq_matches. cbn.
    destruct w; cbn; split; congruence. }
  assert (Hne : ch <> []) by (rewrite Ech; discriminate). rewrite <- Ech in *. clear Hleaf.
  destruct (triples ch) as (l & El & Hl).
  { intros c t Hi. apply (IH c t Hi); [now apply (Hch c) | now apply (Hoch c)]. }
  set (pairs := map (fun '(c, t, g) => (c :: trie_to_pattern t, Char c :: g)) l).
  assert (Etexts : texts ch = map fst pairs).
  { unfold texts, pairs. rewrite <- El, !map_map. apply map_ext. now intros [[c t] g]. }
  assert (Hreads : forall p, In p pairs -> reads (fst p) (snd p)).
  { intros p Hp. apply in_map_iff in Hp as ([[c t] g] & <- & Hi). cbn [fst snd].
    destruct (Hl c t g Hi) as [Hr _]. apply (reads_app [c] _ [Char c] _); [| exact Hr].
    apply reads_char. apply (Hch c t). rewrite <- El. now apply (in_map fst l (c, t, g)). }
  assert (Hpairs : forall w, (exists p, In p pairs /\ seq_matches (snd p) w) <->
            exists c w', w = c :: w' /\ accept (Node term ch) w = true).
  { intros w. split.
    - intros (p & Hp & Hm). apply in_map_iff in Hp as ([[c t] g] & <- & Hi). cbn [snd] in Hm.
      destruct Hm as (u & v & -> & -> & Hm). change (seq_matches g v) in Hm.
      destruct (Hl c t g Hi) as [_ Ha]. apply Ha in Hm. exists c, v. split; [reflexivity |].
      apply (accept_children term ch c v Hn). exists t. split; [| exact Hm].
      rewrite <- El. now apply (in_map fst l (c, t, g)).
    - intros (c & w' & -> & Ha). apply (accept_children term ch c w' Hn) in Ha as (t & Hi & Ha).
      rewrite <- El in Hi. apply in_map_iff in Hi as ([ct g] & Ect & Hi). cbn in Ect. subst ct.
      exists (c :: trie_to_pattern t, Char c :: g). split; [exact (in_map _ l (c, t, g) Hi) |].
      cbn [snd]. exists [c], w'. split; [reflexivity |]. split; [reflexivity |].
      apply (Hl c t g Hi). exact Ha. }
  set (all := if term then pairs ++ [([], [])] else pairs).
  assert (Eall : (if term then texts ch ++ [[]] else texts ch) = map fst all).
  { unfold all. rewrite Etexts. destruct term; [now rewrite map_app | reflexivity]. }
  assert (Hall : forall p, In p all -> reads (fst p) (snd p)).
  { unfold all. intros p Hp. destruct term; [| now apply Hreads].
    apply in_app_iff in Hp as [Hp | [<- | []]]; [now apply Hreads | apply reads_nil]. }
  assert (Hmall : forall w, (exists p, In p all /\ seq_matches (snd p) w) <-> accept (Node term ch) w = true).
  { intros w. unfold all. destruct w as [| c w].
    - cbn [accept]. destruct term; split; intros H; try reflexivity; try discriminate.
      + exists ([], []). split; [apply in_or_app; right; now left | reflexivity].
      + apply Hpairs in H as (c & w' & E & _). discriminate.
    - assert (Hx : (exists p, In p pairs /\ seq_matches (snd p) (c :: w)) <-> accept (Node term ch) (c :: w) = true).
      { rewrite Hpairs. split; [intros (c' & w' & _ & H); exact H | intros H; exists c, w; auto]. }
      rewrite <- Hx. destruct term; [| reflexivity]. split.
      + intros (p & Hp & Hm). apply in_app_iff in Hp as [Hp | [<- | []]]; [exists p; auto |].
        unfold seq_matches in Hm. cbn in Hm. discriminate.
      + intros (p & Hp & Hm). exists p. split; [apply in_or_app; now left | exact Hm]. }
  rewrite pattern_node by exact Hne. rewrite Eall.
  assert (Hfall : exists gs,
    reads (s "@(" ++ join (s "|") (sort_strs (map fst all)) ++ s ")") gs /\
    forall w, seq_matches gs w <-> accept (Node term ch) w = true).
  { pose proof (sort_strs_perm (map fst all)) as P.
    apply Permutation_map_inv in P as (all' & E & P).
    exists [Ext ExactlyOne (map snd all')]. rewrite E. split.
    - apply reads_ext.
      + intros p Hp. apply Hall. now apply (Permutation_in _ (Permutation_sym P)).
      + intros ->. apply Permutation_sym, Permutation_nil in P. unfold all, pairs in P.
        destruct l; [now subst ch |]. destruct term; discriminate P.
    - intros w. rewrite seq_matches_one. cbn [matches ext_matches].
      change (any_matches (map snd all') w <-> accept (Node term ch) w = true).
      rewrite any_matches_iff, <- Hmall. split.
      + intros (a & Ha & Hm). apply in_map_iff in Ha as (p & <- & Hp). exists p. split; [| exact Hm].
        now apply (Permutation_in _ (Permutation_sym P)).
      + intros (p & Hp & Hm). exists (snd p). split; [| exact Hm]. apply in_map. now apply (Permutation_in _ P). }
  destruct (map fst all) as [| p1 [| p2 ps]] eqn:Ets.
  - unfold build_pattern. cbn [ints_of]. cbn [sorted numbers_are_contiguous]. exact Hfall.
  - destruct all as [| [x gs] [| ? ?]] eqn:Ea; try discriminate. cbn in Ets. injection Ets as ->.
    cbn [build_pattern]. exists gs. split; [exact (Hall (p1, gs) (or_introl eq_refl)) |].
    intros w. rewrite <- Hmall. split; [intros H; exists (p1, gs); split; [now left | exact H] |].
    intros (p & [<- | []] & H). exact H.
  - unfold build_pattern. rewrite <- Ets in *.
    destruct (ints_of (map fst all)) as [zs |] eqn:Ez; [| exact Hfall].
    destruct (numbers_are_contiguous (sorted zs)) eqn:Ec; [| exact Hfall]. clear Hfall.
    assert (term = false) as ->.
    { destruct term; [| reflexivity]. exfalso. destruct (ints_of_In _ _ Ez) as [A _].
      destruct (A []) as (z & E & _); [| discriminate E].
      unfold all. rewrite map_app. apply in_or_app. right. now left. }
    cbn [all] in *. unfold all in *. clear all Eall Hall.
    rewrite <- Etexts in *.
    assert (Hlen : 2 <= List.length ch).
    { apply (f_equal (@List.length _)) in Ets. unfold texts in Ets. rewrite map_length in Ets. cbn in Ets. lia. }
    specialize (Hok zs eq_refl Hlen Ez Ec).
    destruct (ints_of_In _ _ Ez) as [A B].
    assert (Hdig : forall p, In p (texts ch) -> exists c, p = [c] /\ is_digit c = true /\ py_int p = Some (Z.of_N (c - 48))).
    { intros p Hp. pose proof (Hok p Hp) as L. destruct p as [| c [| ? ?]]; try discriminate L.
      exists c. split; [reflexivity |]. destruct (A _ Hp) as (z & E & _).
      destruct (py_int_one c z E) as [D ->]. now split. }
    destruct (contiguous_range zs Ec) as (Hle & Hfst & Hlst & Hin).
    set (lo := hd 0%Z (sorted zs)) in *. set (hi := last (sorted zs) 0%Z) in *. clearbody lo hi.
    destruct (B lo Hfst) as (plo & Elo & Hplo). destruct (Hdig plo Hplo) as (clo & -> & Dlo & Elo').
    destruct (B hi Hlst) as (phi & Ehi & Hphi). destruct (Hdig phi Hphi) as (chi & -> & Dhi & Ehi').
    rewrite Elo' in Elo. injection Elo as <-. rewrite Ehi' in Ehi. injection Ehi as <-.
    assert (Bd : forall c, is_digit c = true -> (48 <= c <= 57)%N).
    { intros c H. unfold is_digit in H. apply andb_prop in H as [H1 H2]. apply N.leb_le in H1, H2. lia. }
    pose proof (Bd _ Dlo) as Blo. pose proof (Bd _ Dhi) as Bhi.
    exists [OneOf false [(clo, chi)]]. split.
    + rewrite !show_digit by lia.
      replace (48 + (clo - 48))%N with clo by lia. replace (48 + (chi - 48))%N with chi by lia.
      now apply reads_range.
    + intros w. rewrite seq_matches_one. cbn [matches in_ranges existsb negb].
      rewrite <- Hmall. split.
      * intros (c & -> & Hc). rewrite orb_false_r in Hc. apply andb_prop in Hc as [H1 H2]. apply N.leb_le in H1, H2.
        assert (Hz : In (Z.of_N (c - 48)) zs) by (apply Hin; lia).
        destruct (B _ Hz) as (p & Ep & Hp). destruct (Hdig p Hp) as (c' & -> & Dc' & Ep').
        rewrite Ep' in Ep. injection Ep as Ep. pose proof (Bd _ Dc').
        assert (c' = c) as -> by lia.
        rewrite Etexts in Hp. apply in_map_iff in Hp as ([x gs] & Ex & Hp). cbn in Ex. subst x.
        exists ([c], gs). split; [exact Hp |]. cbn [snd].
        apply in_map_iff in Hp as ([[c2 t2] g2] & E2 & Hi2). injection E2 as <- Et <-.
        destruct (Hl c2 t2 g2 Hi2) as [(_ & Hnil & _) _]. rewrite (Hnil Et).
        apply seq_matches_one. reflexivity.
      * intros (p & Hp & Hm). apply in_map_iff in Hp as ([[c2 t2] g2] & <- & Hi2). cbn [snd] in Hm.
        assert (Hp2 : In (c2 :: trie_to_pattern t2) (texts ch)).
        { rewrite Etexts. apply in_map_iff. exists (c2 :: trie_to_pattern t2, Char c2 :: g2). split; [reflexivity |].
          exact (in_map _ l (c2, t2, g2) Hi2). }
        destruct (Hdig _ Hp2) as (c & Ec2 & Dc & Ep2). injection Ec2 as <- Et.
        destruct (Hl c2 t2 g2 Hi2) as [(_ & Hnil & _) _]. rewrite (Hnil Et) in Hm.
        apply seq_matches_one in Hm. cbn in Hm. subst w. exists c2. split; [reflexivity |].
        destruct (A _ Hp2) as (z & Ez2 & Hz). rewrite Ep2 in Ez2. injection Ez2 as <-.
        apply Hin in Hz. pose proof (Bd _ Dc). rewrite orb_false_r.
        apply andb_true_intro. split; apply N.leb_le; lia.
Qed.

(** ** When numbers are recognised *)
Lemma in_lstrip p x c : In c x -> p c = true \/ In c (lstrip_p p x).
Proof.
  induction x as [| d x IH]; cbn; [tauto |]. intros [-> | H].
  - destruct (p c) eqn:E; [now left | right; now left].
  - destruct (p d); [now apply IH | right; now right].
Qed.
Lemma in_strip p x c : In c x -> p c = true \/ In c (strip_p p x).
Proof.
  intros H. apply (in_lstrip p) in H as [H | H]; [now left |]. unfold strip_p, rstrip_p.
  rewrite <- in_rev. apply in_lstrip. now rewrite <- in_rev.
Qed.
Lemma int_digits_chars x : forall prev acc z, int_digits prev acc x = Some z ->
  forall c, In c x -> is_digit c = true \/ c = UND.
Proof.
  induction x as [| d x IH]; intros prev acc z H c Hc; [destruct Hc |]. cbn in H.
  destruct (is_digit d) eqn:Ed.
  - destruct Hc as [<- | Hc]; [now left | now apply (IH _ _ _ H)].
  - destruct (N.eqb_spec d UND) as [-> |]; [| discriminate]. destruct prev; [| discriminate].
    destruct Hc as [<- | Hc]; [now right | now apply (IH _ _ _ H)].
Qed.
Lemma py_int_chars x z : py_int x = Some z -> ~ In LPAR x /\ ~ In LBRK x.
Proof.
  intros H.
  assert (F : forall c, In c x -> is_space c = true \/ is_digit c = true \/ In c [UND; DASH; PLUS]).
  { intros c Hc. apply (in_strip is_space) in Hc as [Hc | Hc]; [now left | right].
    unfold py_int in H. destruct (strip_p is_space x) as [| d y]; [discriminate |].
    assert (G : forall prev acc z', int_digits prev acc y = Some z' -> In c y -> is_digit c = true \/ In c [UND; DASH; PLUS]).
    { intros prev acc z' E Hy. destruct (int_digits_chars _ _ _ _ E c Hy) as [D | ->]; [now left | right; now left]. }
    destruct (N.eqb_spec d DASH) as [-> |].
    - destruct (int_digits false 0 y) as [z' |] eqn:E; [| discriminate].
      destruct Hc as [<- | Hc]; [right; right; now left | now apply (G _ _ _ E)].
    - destruct (N.eqb_spec d PLUS) as [-> |].
      + destruct Hc as [<- | Hc]; [right; do 2 right; now left | now apply (G _ _ _ H)].
      + destruct (int_digits_chars _ _ _ _ H c Hc) as [D | ->]; [now left | right; now left]. }
  split; intros Hi; apply F in Hi as [E | [E | E]]; try discriminate E;
    repeat destruct E as [E | E]; try discriminate E; exact E.
Qed.

Lemma build_pattern_many parts : List.length parts <> 1 ->
  In LPAR (build_pattern parts) \/ In LBRK (build_pattern parts).
Proof.
  intros H. unfold build_pattern. destruct parts as [| p [| p2 ps]]; [| now destruct H |].
  - left. right. now left.
  - destruct (ints_of _) as [zs |]; [| left; right; now left].
    destruct (numbers_are_contiguous _); [right; now left | left; right; now left].
Qed.
Lemma literal_trie t : good t -> ~ In LPAR (trie_to_pattern t) -> ~ In LBRK (trie_to_pattern t) ->
  forall w, accept t w = true <-> w = trie_to_pattern t.
Proof.
  induction t as [term ch IH] using trie_rect'. intros Hg H1 H2.
  inversion Hg as [? ? Hn Hleaf Hch]; subst.
  destruct ch as [| [c t] ch].
  { rewrite (Hleaf eq_refl). intros w. destruct w; cbn; split; congruence. }
  rewrite pattern_node in * by discriminate.
  destruct term.
  { exfalso. destruct (build_pattern_many (texts ((c, t) :: ch) ++ [[]])); [| tauto | tauto].
    rewrite app_length. cbn. lia. }
  destruct ch as [| [c2 t2] ch].
  2:{ exfalso. destruct (build_pattern_many (texts ((c, t) :: (c2, t2) :: ch))); [| tauto | tauto]. cbn. lia. }
  cbn [texts map build_pattern] in *.
  assert (IHt : forall w, accept t w = true <-> w = trie_to_pattern t).
  { apply (IH c t (or_introl eq_refl)).
    - now apply (Hch c t (or_introl eq_refl)).
    - intros Hi. apply H1. now right.
    - intros Hi. apply H2. now right. }
  intros [| d w]; cbn [accept dget]; [split; discriminate |].
  destruct (N.eqb_spec d c) as [-> | Hd].
  - rewrite IHt. split; [intros ->; reflexivity | intros E; now injection E].
  - split; [discriminate | intros E; injection E; congruence].
Qed.

Fixpoint node_at (t : trie) (p : str) {struct p} : option trie :=
  match p, t with
  | [], _ => Some t
  | c :: p', Node _ ch => match dget N.eqb c ch with Some t' => node_at t' p' | None => None end
  end.
Lemma accept_at p : forall t t' u, node_at t p = Some t' -> accept t (p ++ u) = accept t' u.
Proof.
  induction p as [| c p IH]; intros [term ch] t' u H; cbn in H; [now injection H as <- |].
  cbn [app accept]. destruct (dget N.eqb c ch) as [t2 |]; [| discriminate]. now apply IH.
Qed.
Lemma good_at p : forall t t', good t -> node_at t p = Some t' -> good t'.
Proof.
  induction p as [| c p IH]; intros [term ch] t' Hg H; cbn in H; [now injection H as <- |].
  destruct (dget N.eqb c ch) as [t2 |] eqn:E; [| discriminate]. apply (IH t2); [| exact H].
  inversion Hg; subst. apply (dget_In _ N_eqb_spec) in E. now apply (H4 c).
Qed.
Lemma all_ok_intro t : good t -> (forall p t', node_at t p = Some t' -> node_ok t') -> all_ok t.
Proof.
  induction t as [term ch IH] using trie_rect'. intros Hg H. inversion Hg as [? ? Hn Hleaf Hch]; subst. constructor.
  - apply (H []). reflexivity.
  - intros c t Hi. apply (IH c t Hi); [now apply (Hch c) |]. intros p t' Hp. apply (H (c :: p)).
    cbn. now rewrite (In_dget _ N_eqb_spec c t ch Hn Hi).
Qed.
Lemma node_ok_intro strings t p t' :
  good t -> (forall w, accept t w = true <-> In w strings) -> node_at t p = Some t' ->
  (consecutive py_int strings p -> forall u, follows strings p u -> List.length u = 1) -> node_ok t'.
Proof.
  intros Hg Ha Hp Hc. assert (Hg' : good t') by exact (good_at p t t' Hg Hp).
  destruct t' as [term ch]. intros zs -> Hlen Ez Ect q Hq.
  inversion Hg' as [? ? Hn Hleaf Hch]; subst.
  destruct (ints_of_In _ _ Ez) as [A B].
  assert (Hf : forall u, follows strings p u <-> In u (texts ch)).
  { intros u. unfold follows. rewrite <- Ha, (accept_at p t _ u Hp).
    assert (Hlit : forall c t, In (c, t) ch -> forall w, accept t w = true <-> w = trie_to_pattern t).
    { intros c t2 Hi. apply literal_trie; [now apply (Hch c) | |];
        destruct (A (c :: trie_to_pattern t2)) as (z & E & _);
        try (apply in_map_iff; exists (c, t2); split; [reflexivity | exact Hi]);
        apply py_int_chars in E; intros Hin; [apply (proj1 E) | apply (proj2 E)]; now right. }
    destruct u as [| c u].
    - cbn [accept]. split; [discriminate |]. intros Hi. apply in_map_iff in Hi as ([? ?] & E & _). discriminate.
    - rewrite (accept_children false ch c u Hn). unfold texts. rewrite in_map_iff. split.
      + intros (t2 & Hi & H). apply (Hlit c t2 Hi) in H. subst u. exists (c, t2). now split.
      + intros ([c2 t2] & E & Hi). injection E as <- <-. exists t2. split; [exact Hi |]. now apply (Hlit c2 t2 Hi). }
  apply Hc; [| now apply Hf]. split; [| split; [| split]].
  - destruct ch as [| [c1 t1] [| [c2 t2] ch]]; cbn in Hlen; try lia.
    exists (c1 :: trie_to_pattern t1), (c2 :: trie_to_pattern t2).
    rewrite !Hf. split; [now left |]. split; [right; now left |].
    intros E. injection E as -> _. cbn in Hn. inversion Hn as [| ? ? Hx _]. apply Hx. now left.
  - intros u v Hu Hv Hne. apply Hf in Hu, Hv. apply in_map_iff in Hu as ([c1 t1] & <- & H1).
    apply in_map_iff in Hv as ([c2 t2] & <- & H2). cbn. intros E. injection E as ->.
    apply (In_dget _ N_eqb_spec _ _ _ Hn) in H1, H2. rewrite H1 in H2. injection H2 as ->. now apply Hne.
  - intros u Hu. apply Hf in Hu. destruct (A u Hu) as (z & -> & _). discriminate.
  - destruct (contiguous_range zs Ect) as (_ & _ & _ & Hin).
    exists (hd 0%Z (sorted zs)), (last (sorted zs) 0%Z). intros n. rewrite <- Hin. split.
    + intros Hz. destruct (B n Hz) as (u & E & Hu). exists u. rewrite Hf. now split.
    + intros (u & Hu & E). apply Hf in Hu. destruct (A u Hu) as (z & E2 & Hz). rewrite E in E2. now injection E2 as <-.
Qed.

(** ** The whole pattern *)
Lemma read_alternatives strings : (forall x, In x strings -> x <> [] /\ forallb plain x = true) -> strings <> [] ->
  forall alts, read true GPlain [] alts None None (join (s "|") strings) = Some (alts ++ map (map Char) strings).
Proof.
  induction strings as [| x strings IH]; intros H Hn alts; [now destruct Hn |].
  destruct (H x (or_introl eq_refl)) as [Hx Hp]. destruct (reads_chars x Hp) as (_ & _ & R).
  assert (Epush : push_all None (map Char x) = Some (map Char x)) by (destruct x; [now destruct Hx | reflexivity]).
  destruct strings as [| y strings].
  - cbn [join map]. rewrite <- (app_nil_r x) at 1. rewrite R by discriminate. now rewrite Epush.
  - change (join (s "|") (x :: y :: strings)) with (x ++ s "|" ++ join (s "|") (y :: strings)).
    rewrite R by discriminate. rewrite Epush. change (s "|" ++ ?z) with (PIPE :: z).
    set (z := join (s "|") (y :: strings)) in *. change (s "|" ++ z) with (PIPE :: z). rewrite read_plain.
    assert (E : ext_open PIPE z = None) by (destruct z; [| cbn -[N.eqb]; destruct (N.eqb _ _)]; reflexivity).
    rewrite E. cbn -[read z map]. rewrite IH; [| intros a Ha; apply H; now right | discriminate].
    rewrite <- app_assoc. reflexivity.
Qed.
Lemma mems_In x l : mems x l = true <-> In x l.
Proof.
  unfold mems. rewrite existsb_exists. split.
  - intros (y & Hy & E). destruct (str_eqb_spec x y); [now subst | discriminate].
  - intros H. exists x. split; [exact H |]. destruct (str_eqb_spec x x); congruence.
Qed.
Lemma fold_good l : forall t, (forall x, In x l -> forallb plain x = true) -> good_root t -> l <> [] ->
  good (fold_left insert l t).
Proof.
  induction l as [| x l IH]; intros t H Ht Hn; [now destruct Hn |]. cbn [fold_left].
  assert (Hg : good (insert t x)) by (apply insert_good; [apply H; now left | exact Ht]).
  destruct l as [| y l]; [exact Hg |]. apply IH; [intros z Hz; apply H; now right | now right | discriminate].
Qed.
Lemma pattern_nonempty t : t <> new_trie -> good t -> (accept t [] = false) -> trie_to_pattern t <> [].
Proof.
  destruct t as [term ch]. intros _ Hg Ha. inversion Hg as [? ? Hn Hleaf Hch]; subst. cbn in Ha. subst term.
  destruct ch as [| [c t] ch]; [discriminate (Hleaf eq_refl) |]. rewrite pattern_node by discriminate.
  destruct ch as [| [c2 t2] ch]; [discriminate |].
  intros E. destruct (build_pattern_many (texts ((c, t) :: (c2, t2) :: ch))) as [H | H];
    [cbn; lia | rewrite E in H; destruct H..].
Qed.
Lemma make_pattern_exact strings :
  strings <> [] -> (forall x, In x strings -> x <> [] /\ forallb plain x = true) ->
  (forall p, consecutive py_int strings p -> forall u, follows strings p u -> List.length u = 1) ->
  forall w, case_matches (make_pattern strings) w <-> In w strings.
Proof.
  intros Hn Hp Hc w.
  assert (Hlist : forall l, (forall x, In x l <-> In x strings) -> l <> [] ->
    (case_matches (join (s "|") l) w <-> In w strings)).
  { intros l Hl Hnl. unfold case_matches, read_case.
    rewrite read_alternatives; [| intros x Hx; apply Hp; now apply Hl | exact Hnl]. cbn [app]. split.
    - intros (alts & E & Hm). injection E as <-. apply any_matches_iff in Hm as (a & Ha & Hm).
      apply in_map_iff in Ha as (x & <- & Hx). apply seq_matches_chars in Hm. subst w. now apply Hl.
    - intros Hw. eexists. split; [reflexivity |]. apply any_matches_iff. exists (map Char w).
      split; [apply in_map; now apply Hl | now apply seq_matches_chars]. }
  unfold make_pattern. destruct (Nat.ltb _ _); [now apply Hlist |].
  unfold compact_glob_trie. set (l := sort_strs (uniq str_eqb strings)).
  assert (Hl : forall x, In x l <-> In x strings).
  { intros x. unfold l. rewrite <- (uniq_In str_eqb (list_eq_dec N.eq_dec) str_eqb_spec strings x). split; intros H.
    - now apply (Permutation_in _ (sort_strs_perm _)).
    - now apply (Permutation_in _ (Permutation_sym (sort_strs_perm _))). }
  assert (Hnl : l <> []).
  { destruct strings as [| x0 ?]; [now destruct Hn |]. intros E. assert (H0 : In x0 l) by (apply Hl; now left).
    rewrite E in H0. destruct H0. }
  assert (Htrie : case_matches (trie_to_pattern (fold_left insert l new_trie)) w <-> In w strings).
  { set (t := fold_left insert l new_trie).
    assert (Hg : good t) by (apply fold_good; [intros x Hx; apply Hp; now apply Hl | now left | exact Hnl]).
    assert (Ha : forall w, accept t w = true <-> In w strings).
    { intros v. unfold t. rewrite accept_fold, accept_empty, orb_false_r, mems_In. apply Hl. }
    assert (Ho : all_ok t).
    { apply all_ok_intro; [exact Hg |]. intros p t' Hpt. apply (node_ok_intro strings t p t' Hg Ha Hpt). apply Hc. }
    destruct (pattern_ok t Hg Ho) as (gs & (_ & _ & R) & Hm).
    assert (Hnil : accept t [] = false).
    { destruct (accept t []) eqn:E; [| reflexivity]. apply Ha in E. now destruct (Hp [] E). }
    assert (Hgs : gs <> []).
    { intros ->. assert (F : seq_matches [] []) by reflexivity. apply Hm in F. congruence. }
    unfold case_matches, read_case. rewrite <- (app_nil_r (trie_to_pattern t)). rewrite R by discriminate.
    assert (E : push_all None gs = Some gs) by (destruct gs; [now destruct Hgs | reflexivity]).
    rewrite E. cbn [read app]. rewrite <- Ha, <- Hm. split.
    - intros (alts & Ea & H). injection Ea as <-. apply any_matches_iff in H as (a & [<- | []] & H). exact H.
    - intros H. exists [gs]. split; [reflexivity |]. apply any_matches_iff. exists gs. split; [now left | exact H]. }
  destruct l as [| x [| y l']] eqn:El; [now destruct Hnl | | exact Htrie].
  change x with (join (s "|") [x]). apply Hlist; [exact Hl | discriminate].
Qed.
