(** * Python dictionaries: association lists in insertion order. *)
From Verif Require Import Base.

Section Dict.
Context {K V : Type} (eqb : K -> K -> bool).

(** [d.get(k)] *)
Fixpoint dget (k : K) (d : list (K * V)) : option V :=
  match d with
  | [] => None
  | (k', v) :: d' => if eqb k k' then Some v else dget k d'
  end.

(** [k in d] *)
Definition dmem (k : K) (d : list (K * V)) : bool :=
  match dget k d with Some _ => true | None => false end.

(** [d[k] = v]: an existing key keeps its position. *)
Fixpoint dset (k : K) (v : V) (d : list (K * V)) : list (K * V) :=
  match d with
  | [] => [(k, v)]
  | (k', v') :: d' => if eqb k k' then (k', v) :: d' else (k', v') :: dset k v d'
  end.

Hypothesis eqb_spec : forall a b, reflect (a = b) (eqb a b).

Lemma dget_dset_same k v d : dget k (dset k v d) = Some v.
Proof.
  induction d as [|[k' v'] d IH]; cbn.
  - destruct (eqb_spec k k); [reflexivity|congruence].
  - destruct (eqb_spec k k') as [->|Hn]; cbn.
    + destruct (eqb_spec k' k'); [reflexivity|congruence].
    + destruct (eqb_spec k k'); [congruence|exact IH].
Qed.

Lemma dget_dset_other k k2 v d : k <> k2 -> dget k2 (dset k v d) = dget k2 d.
Proof.
  intros Hk. induction d as [|[k' v'] d IH]; cbn.
  - destruct (eqb_spec k2 k); [congruence|reflexivity].
  - destruct (eqb_spec k k') as [->|Hn]; cbn.
    + destruct (eqb_spec k2 k'); [congruence|reflexivity].
    + destruct (eqb_spec k2 k'); [reflexivity|exact IH].
Qed.

Lemma dget_In k v d : dget k d = Some v -> In (k, v) d.
Proof.
  induction d as [|[k' v'] d IH]; cbn; [discriminate|].
  destruct (eqb_spec k k') as [->|Hn].
  - intros H; injection H as ->; left; reflexivity.
  - intros H; right; apply IH; exact H.
Qed.

Lemma dget_None k d : dget k d = None <-> ~ In k (map fst d).
Proof.
  induction d as [|[k' v'] d IH]; cbn; [tauto|].
  destruct (eqb_spec k k') as [->|Hn]; [split; [discriminate|tauto]|].
  rewrite IH. split; [intros H [H1|H1]; [congruence|tauto]|tauto].
Qed.

Lemma dmem_In k d : dmem k d = true <-> In k (map fst d).
Proof.
  unfold dmem. destruct (dget k d) as [v|] eqn:E.
  - split; [intros _|reflexivity]. apply dget_In in E. apply (in_map fst) in E. exact E.
  - apply dget_None in E. split; [discriminate|tauto].
Qed.

Lemma dmem_false k d : dmem k d = false <-> ~ In k (map fst d).
Proof. rewrite <- dmem_In. destruct (dmem k d); split; congruence. Qed.

Lemma In_dget k v d : NoDup (map fst d) -> In (k, v) d -> dget k d = Some v.
Proof.
  induction d as [|[k' v'] d IH]; cbn; [tauto|]. intros Hn [H|H].
  - injection H as -> ->. destruct (eqb_spec k k); [reflexivity|congruence].
  - inversion Hn as [|? ? Hni Hn']; subst.
    destruct (eqb_spec k k') as [->|Hk]; [|apply IH; assumption].
    exfalso. apply Hni. apply (in_map fst) in H. exact H.
Qed.

Lemma dset_new k v d : dmem k d = false -> dset k v d = d ++ [(k, v)].
Proof.
  unfold dmem. induction d as [|[k' v'] d IH]; cbn; [reflexivity|].
  destruct (eqb k k'); [discriminate|]. intros H. rewrite IH; [reflexivity|exact H].
Qed.

Lemma dset_keys k v d : dmem k d = true -> map fst (dset k v d) = map fst d.
Proof.
  unfold dmem. induction d as [|[k' v'] d IH]; cbn; [discriminate|].
  destruct (eqb k k'); cbn; [reflexivity|]. intros H. rewrite IH; [reflexivity|exact H].
Qed.

Lemma dset_NoDup k v d : NoDup (map fst d) -> NoDup (map fst (dset k v d)).
Proof.
  intros H. destruct (dmem k d) eqn:E.
  - rewrite dset_keys by exact E. exact H.
  - rewrite dset_new by exact E. rewrite map_app. cbn.
    apply dmem_false in E.
    apply NoDup_app_remove_r with (l' := []) in H || idtac.
    clear -H E. induction (map fst d) as [|a l IH]; cbn.
    + constructor; [intros []|constructor].
    + inversion H; subst. constructor.
      * rewrite in_app_iff. cbn. intros [H1|[H1|[]]]; [tauto|]. subst. apply E; left; reflexivity.
      * apply IH; [assumption|]. intros Hx; apply E; right; exact Hx.
Qed.

Lemma dset_In_keys k v d k2 : In k2 (map fst (dset k v d)) <-> k2 = k \/ In k2 (map fst d).
Proof.
  destruct (dmem k d) eqn:E.
  - rewrite dset_keys by exact E. apply dmem_In in E. split; [tauto|]. intros [->|H]; assumption.
  - rewrite dset_new by exact E. rewrite map_app, in_app_iff. cbn. intuition congruence.
Qed.
End Dict.
