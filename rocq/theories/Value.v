(** * Python data as read from JSON and YAML: None, bool, int, float, str, list, dict.

    Simplifications: a float is represented by its text; [True] and [1] are different values
    (Python says [True == 1]); two dictionaries are equal only if their items are in the same
    order; tuples are lists. *)
From Verif Require Import Base.

Inductive value :=
| VNone
| VBool (b : bool)
| VInt (z : Z)
| VFloat (x : str)
| VStr (x : str)
| VList (l : list value)
| VDict (d : list (value * value)).

Section Induction.
Variable P : value -> Prop.
Hypothesis HNone : P VNone.
Hypothesis HBool : forall b, P (VBool b).
Hypothesis HInt : forall z, P (VInt z).
Hypothesis HFloat : forall x, P (VFloat x).
Hypothesis HStr : forall x, P (VStr x).
Hypothesis HList : forall l, Forall P l -> P (VList l).
Hypothesis HDict : forall d, Forall (fun kv => P (fst kv) /\ P (snd kv)) d -> P (VDict d).

Fixpoint value_ind' (v : value) : P v :=
  match v with
  | VNone => HNone
  | VBool b => HBool b
  | VInt z => HInt z
  | VFloat x => HFloat x
  | VStr x => HStr x
  | VList l =>
      HList l ((fix go l := match l return Forall P l with
                            | [] => Forall_nil P
                            | x :: l' => Forall_cons x (value_ind' x) (go l')
                            end) l)
  | VDict d =>
      HDict d ((fix go d := match d return Forall (fun kv => P (fst kv) /\ P (snd kv)) d with
                            | [] => Forall_nil _
                            | kv :: d' => Forall_cons kv
                                (conj (value_ind' (fst kv)) (value_ind' (snd kv))) (go d')
                            end) d)
  end.
End Induction.

Section ListEqb.
Context {A : Type} (eqb : A -> A -> bool).
Fixpoint list_eqb (a b : list A) : bool :=
  match a, b with
  | [], [] => true
  | x :: a', y :: b' => eqb x y && list_eqb a' b'
  | _, _ => false
  end.
End ListEqb.

Definition option_eqb {A} (eqb : A -> A -> bool) (a b : option A) : bool :=
  match a, b with
  | None, None => true
  | Some x, Some y => eqb x y
  | _, _ => false
  end.

Fixpoint value_eqb (a b : value) : bool :=
  match a, b with
  | VNone, VNone => true
  | VBool x, VBool y => Bool.eqb x y
  | VInt x, VInt y => Z.eqb x y
  | VFloat x, VFloat y => str_eqb x y
  | VStr x, VStr y => str_eqb x y
  | VList x, VList y => list_eqb value_eqb x y
  | VDict x, VDict y =>
      list_eqb (fun p q => value_eqb (fst p) (fst q) && value_eqb (snd p) (snd q)) x y
  | _, _ => false
  end.

(** Python truth of a value ([if value:]); the float texts are not inspected, so a zero float
    is taken as true. *)
Definition truthy (v : value) : bool :=
  match v with
  | VNone => false
  | VBool b => b
  | VInt z => negb (Z.eqb z 0)
  | VFloat _ => true
  | VStr x => match x with [] => false | _ => true end
  | VList l => match l with [] => false | _ => true end
  | VDict d => match d with [] => false | _ => true end
  end.

Lemma list_eqb_eq {A} (eqb : A -> A -> bool) (a : list A) :
  Forall (fun x => forall y, eqb x y = true <-> x = y) a ->
  forall b, list_eqb eqb a b = true <-> a = b.
Proof.
  induction 1 as [|x a Hx _ IH]; intros [|y b]; cbn; try easy.
  rewrite andb_true_iff, Hx, IH. split; [intros [-> ->]; reflexivity|].
  intros E; injection E as -> ->; auto.
Qed.

Lemma list_eqb_refl {A} (eqb : A -> A -> bool) (a : list A) :
  (forall x, In x a -> eqb x x = true) -> list_eqb eqb a a = true.
Proof.
  induction a as [|x a IH]; intros H; cbn; [reflexivity|].
  rewrite H by (left; reflexivity). apply IH. intros y Hy. apply H. right; exact Hy.
Qed.

Lemma value_eqb_eq a : forall b, value_eqb a b = true <-> a = b.
Proof.
  induction a as [|x|x|x|x|x IH|x IH] using value_ind'; intros b; destruct b; cbn; try easy.
  - rewrite Bool.eqb_true_iff. split; congruence.
  - rewrite Z.eqb_eq. split; congruence.
  - rewrite str_eqb_eq. split; congruence.
  - rewrite str_eqb_eq. split; congruence.
  - rewrite (list_eqb_eq _ _ IH). split; congruence.
  - rewrite list_eqb_eq; [split; congruence|].
    eapply Forall_impl; [|exact IH]. cbn. intros [k v] [H1 H2] [k' v']. cbn in *.
    rewrite andb_true_iff, H1, H2. split; [intros [-> ->]; reflexivity|].
    intros E; injection E as -> ->; auto.
Qed.

Lemma value_eqb_spec a b : reflect (a = b) (value_eqb a b).
Proof.
  destruct (value_eqb a b) eqn:E; constructor.
  - apply value_eqb_eq; exact E.
  - intros H. apply value_eqb_eq in H. congruence.
Qed.

Lemma list_eqb_strs a b : list_eqb str_eqb a b = true <-> a = b.
Proof. apply list_eqb_eq. apply Forall_forall. intros x _ y. apply str_eqb_eq. Qed.

Lemma option_eqb_eq {A} (eqb : A -> A -> bool) :
  (forall x y, eqb x y = true <-> x = y) -> forall a b, option_eqb eqb a b = true <-> a = b.
Proof.
  intros H [x|] [y|]; cbn; try easy. rewrite H. split; congruence.
Qed.
