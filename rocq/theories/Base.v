(** * Base: strings, results, and the small part of Python's [str] API the model needs.

    Simplification used everywhere: a Python string is a list of code points [list N].
    The type also contains lists with numbers that are no code points; theorems that
    quantify over [str] therefore cover a superset of Python's strings. *)
From Coq Require Export List NArith ZArith Bool Lia Arith.
From Coq Require Ascii.
From Coq Require Export (notations) String.
Export ListNotations.

Notation str := (list N).

(** Literal strings of the source. *)
Fixpoint s (x : String.string) : str :=
  match x with
  | String.EmptyString => []
  | String.String c r => Ascii.N_of_ascii c :: s r
  end.

Notation TAB := 9%N (only parsing).
Notation LF := 10%N (only parsing).
Notation CR := 13%N (only parsing).
Notation SP := 32%N (only parsing).
Notation BANG := 33%N (only parsing).
Notation DQ := 34%N (only parsing).
Notation HASH := 35%N (only parsing).
Notation DOLLAR := 36%N (only parsing).
Notation PERCENT := 37%N (only parsing).
Notation AMP := 38%N (only parsing).
Notation SQ := 39%N (only parsing).
Notation LPAR := 40%N (only parsing).
Notation RPAR := 41%N (only parsing).
Notation STAR := 42%N (only parsing).
Notation PLUS := 43%N (only parsing).
Notation COMMA := 44%N (only parsing).
Notation DASH := 45%N (only parsing).
Notation DOT := 46%N (only parsing).
Notation SLASH := 47%N (only parsing).
Notation COLON := 58%N (only parsing).
Notation SEMI := 59%N (only parsing).
Notation LT := 60%N (only parsing).
Notation EQ := 61%N (only parsing).
Notation GT := 62%N (only parsing).
Notation QM := 63%N (only parsing).
Notation AT := 64%N (only parsing).
Notation LBRK := 91%N (only parsing).
Notation BS := 92%N (only parsing).
Notation RBRK := 93%N (only parsing).
Notation CARET := 94%N (only parsing).
Notation UND := 95%N (only parsing).
Notation BTICK := 96%N (only parsing).
Notation LBRC := 123%N (only parsing).
Notation PIPE := 124%N (only parsing).
Notation RBRC := 125%N (only parsing).
Notation TILDE := 126%N (only parsing).

(** Exceptions are values. *)
Inductive exn :=
| ValueError (m : str)
| CrazyError (m : str)
| SyntaxError (m : str)
| IndexError
| KeyError
| TypeError
| AttributeError
| AssertionError
| OutOfFuel.      (* the model's loop bound was exhausted; never a result of the real code *)

Definition res (A : Type) := (exn + A)%type.
Notation Ok x := (inr x) (only parsing).
Notation Err e := (inl e) (only parsing).

Definition bind {A B} (r : res A) (f : A -> res B) : res B :=
  match r with inl e => inl e | inr a => f a end.
Notation "'do' x <- r ; k" := (bind r (fun x => k))
  (at level 200, x pattern, r at level 100, k at level 200).

(** Python [==] on strings. *)
Fixpoint str_eqb (a b : str) : bool :=
  match a, b with
  | [], [] => true
  | x :: a', y :: b' => N.eqb x y && str_eqb a' b'
  | _, _ => false
  end.

(** Python [c in 'chars'] for a single character, [x in list] for strings. *)
Definition memc (c : N) (l : str) : bool := existsb (N.eqb c) l.
Definition mems (x : str) (l : list str) : bool := existsb (str_eqb x) l.

(** Python [string.startswith(prefix)], [endswith]. *)
Fixpoint starts_with (p x : str) : bool :=
  match p, x with
  | [], _ => true
  | c :: p', d :: x' => N.eqb c d && starts_with p' x'
  | _ :: _, [] => false
  end.
Definition ends_with (p x : str) : bool := starts_with (rev p) (rev x).

(** Python [string.replace(c, r)] for a single character [c]. *)
Fixpoint replace_c (c : N) (r : str) (x : str) : str :=
  match x with
  | [] => []
  | d :: x' => if N.eqb d c then r ++ replace_c c r x' else d :: replace_c c r x'
  end.

(** Python [sep.join(list)]. *)
Fixpoint join (sep : str) (l : list str) : str :=
  match l with
  | [] => []
  | [x] => x
  | x :: l' => x ++ sep ++ join sep l'
  end.

(** Python [string.split(c)] for a single character separator. *)
Fixpoint split_c (c : N) (x : str) : list str :=
  match x with
  | [] => [[]]
  | d :: x' =>
      match split_c c x' with
      | [] => [[]]   (* unreachable: split_c never returns [] *)
      | w :: ws => if N.eqb d c then [] :: w :: ws else (d :: w) :: ws
      end
  end.

(** Python [str.isspace] on one character: the exact set of code points. *)
Definition is_space (c : N) : bool :=
  ((9 <=? c) && (c <=? 13) || (28 <=? c) && (c <=? 32) || (c =? 133) || (c =? 160)
   || (c =? 5760) || (8192 <=? c) && (c <=? 8202) || (c =? 8232) || (c =? 8233)
   || (c =? 8239) || (c =? 8287) || (c =? 12288))%N.

Definition is_digit (c : N) : bool := ((48 <=? c) && (c <=? 57))%N.
Definition is_lower (c : N) : bool := ((97 <=? c) && (c <=? 122))%N.
Definition is_upper (c : N) : bool := ((65 <=? c) && (c <=? 90))%N.
(** [a-zA-Z0-9_] *)
Definition is_word (c : N) : bool := is_lower c || is_upper c || is_digit c || N.eqb c UND.

(** Simplification: [str.lower]/[str.upper] on ASCII letters only. *)
Definition lower_c (c : N) : N := if is_upper c then (c + 32)%N else c.
Definition upper_c (c : N) : N := if is_lower c then (c - 32)%N else c.
Definition lower (x : str) : str := map lower_c x.
Definition upper (x : str) : str := map upper_c x.

(** Python [lstrip]/[rstrip]/[strip] with a character predicate. *)
Fixpoint lstrip_p (p : N -> bool) (x : str) : str :=
  match x with
  | [] => []
  | c :: x' => if p c then lstrip_p p x' else x
  end.
Definition rstrip_p (p : N -> bool) (x : str) : str := rev (lstrip_p p (rev x)).
Definition strip_p (p : N -> bool) (x : str) : str := rstrip_p p (lstrip_p p x).

(** Python [string.split()] (runs of white space separate, no empty words). *)
Fixpoint split_ws_aux (cur : str) (x : str) : list str :=
  match x with
  | [] => match cur with [] => [] | _ => [rev cur] end
  | c :: x' =>
      if is_space c
      then match cur with [] => split_ws_aux [] x' | _ => rev cur :: split_ws_aux [] x' end
      else split_ws_aux (c :: cur) x'
  end.
Definition split_ws (x : str) : list str := split_ws_aux [] x.

(** Python [enumerate]-free list helper: [l[:n]]. *)
Definition prefix_n {A} (n : nat) (l : list A) : list A := firstn n l.

(** ** Lemmas *)

Lemma str_eqb_eq a b : str_eqb a b = true <-> a = b.
Proof.
  revert b; induction a as [|x a IH]; intros [|y b]; cbn; try easy.
  rewrite andb_true_iff, N.eqb_eq, IH. split.
  - intros [-> ->]; reflexivity.
  - intros H; injection H as -> ->; auto.
Qed.

Lemma str_eqb_refl a : str_eqb a a = true.
Proof. apply str_eqb_eq; reflexivity. Qed.

Lemma str_eqb_neq a b : str_eqb a b = false <-> a <> b.
Proof.
  rewrite <- str_eqb_eq. destruct (str_eqb a b); split; congruence.
Qed.

Lemma str_eqb_spec a b : reflect (a = b) (str_eqb a b).
Proof.
  destruct (str_eqb a b) eqn:E; constructor.
  - apply str_eqb_eq; exact E.
  - apply str_eqb_neq; exact E.
Qed.

Definition str_eq_dec (a b : str) : {a = b} + {a <> b} := list_eq_dec N.eq_dec a b.

Lemma memc_In c l : memc c l = true <-> In c l.
Proof.
  unfold memc. rewrite existsb_exists. split.
  - intros [x [Hx Hc]]. apply N.eqb_eq in Hc. subst; exact Hx.
  - intros H; exists c; split; [exact H | apply N.eqb_refl].
Qed.

Lemma memc_false c l : memc c l = false <-> ~ In c l.
Proof. rewrite <- memc_In. destruct (memc c l); split; congruence. Qed.

Lemma mems_In x l : mems x l = true <-> In x l.
Proof.
  unfold mems. rewrite existsb_exists. split.
  - intros [y [Hy He]]. apply str_eqb_eq in He. subst; exact Hy.
  - intros H; exists x; split; [exact H | apply str_eqb_refl].
Qed.

Lemma mems_false x l : mems x l = false <-> ~ In x l.
Proof. rewrite <- mems_In. destruct (mems x l); split; congruence. Qed.

Lemma starts_with_app p x : starts_with p x = true <-> exists y, x = p ++ y.
Proof.
  revert x; induction p as [|c p IH]; intros x; cbn.
  - split; [intros _; exists x; reflexivity | reflexivity].
  - destruct x as [|d x]; [split; [discriminate | intros [y Hy]; discriminate]|].
    rewrite andb_true_iff, N.eqb_eq, IH. split.
    + intros [-> [y ->]]; exists y; reflexivity.
    + intros [y Hy]; injection Hy as -> ->; split; [reflexivity | exists y; reflexivity].
Qed.

Lemma starts_with_refl x : starts_with x x = true.
Proof. apply starts_with_app; exists []; rewrite app_nil_r; reflexivity. Qed.

Lemma ends_with_app p x : ends_with p x = true <-> exists y, x = y ++ p.
Proof.
  unfold ends_with. rewrite starts_with_app. split; intros [y Hy].
  - exists (rev y). rewrite <- (rev_involutive x), Hy, rev_app_distr, rev_involutive. reflexivity.
  - exists (rev y). rewrite Hy, rev_app_distr. reflexivity.
Qed.

Lemma replace_c_app c r x y : replace_c c r (x ++ y) = replace_c c r x ++ replace_c c r y.
Proof.
  induction x as [|d x IH]; cbn; [reflexivity|].
  destruct (N.eqb d c); rewrite IH; [rewrite app_assoc|]; reflexivity.
Qed.

Lemma replace_c_notin c r x : ~ In c x -> replace_c c r x = x.
Proof.
  induction x as [|d x IH]; cbn; intros H; [reflexivity|].
  destruct (N.eqb_spec d c) as [->|Hn]; [tauto|].
  rewrite IH; tauto.
Qed.

Lemma join_cons sep x y l : join sep (x :: y :: l) = x ++ sep ++ join sep (y :: l).
Proof. reflexivity. Qed.

Lemma split_c_nonnil c x : split_c c x <> [].
Proof.
  induction x as [|d x IH]; cbn; [discriminate|].
  destruct (split_c c x) as [|w ws]; [tauto|]. destruct (N.eqb d c); discriminate.
Qed.

(** Splitting and joining with the same separator are inverse. *)
Lemma join_split_c c x : join [c] (split_c c x) = x.
Proof.
  induction x as [|d x IH]; cbn; [reflexivity|].
  destruct (split_c c x) as [|w ws] eqn:E; [exfalso; exact (split_c_nonnil c x E)|].
  destruct (N.eqb_spec d c) as [->|Hn].
  - rewrite join_cons. rewrite IH. reflexivity.
  - destruct ws as [|w' ws]; cbn in *; rewrite <- IH; reflexivity.
Qed.

Lemma split_c_word c w : ~ In c w -> split_c c w = [w].
Proof.
  induction w as [|d w IH]; cbn; intros H; [reflexivity|].
  rewrite IH by tauto. destruct (N.eqb_spec d c) as [->|Hn]; [tauto|reflexivity].
Qed.

Lemma split_c_app c w x : ~ In c w -> split_c c (w ++ c :: x) = w :: split_c c x.
Proof.
  induction w as [|d w IH]; intros H.
  - cbn [app split_c]. destruct (split_c c x) as [|v vs] eqn:E;
      [exfalso; exact (split_c_nonnil c x E)|]. rewrite N.eqb_refl. reflexivity.
  - cbn [app split_c]. rewrite IH by (cbn in H; tauto).
    destruct (N.eqb_spec d c) as [->|Hn]; [cbn in H; tauto|reflexivity].
Qed.

Lemma split_join_c c ws : ws <> [] -> (forall w, In w ws -> ~ In c w) ->
  split_c c (join [c] ws) = ws.
Proof.
  induction ws as [|w ws IH]; intros Hn Hw; [congruence|].
  destruct ws as [|w' ws].
  - cbn [join]. apply split_c_word. apply Hw; left; reflexivity.
  - rewrite join_cons. change ([c] ++ join [c] (w' :: ws)) with (c :: join [c] (w' :: ws)).
    rewrite split_c_app by (apply Hw; left; reflexivity).
    rewrite IH; [reflexivity | discriminate | intros v Hv; apply Hw; right; exact Hv].
Qed.

Lemma rstrip_p_nil p : rstrip_p p [] = [].
Proof. reflexivity. Qed.

Lemma lstrip_p_idem p x : lstrip_p p (lstrip_p p x) = lstrip_p p x.
Proof.
  induction x as [|c x IH]; cbn; [reflexivity|].
  destruct (p c) eqn:E; [exact IH|]. cbn. rewrite E. reflexivity.
Qed.

Global Arguments is_space : simpl never.
Global Arguments N.add : simpl never.
Global Arguments N.sub : simpl never.
Global Arguments N.leb : simpl never.
Global Arguments N.ltb : simpl never.
