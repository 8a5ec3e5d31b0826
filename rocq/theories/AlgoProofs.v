(** * Proofs about algo.py. *)
From Verif Require Import Base Dict Algo.
From Coq Require Import Permutation Sorted.

Lemma flatten_loop_eq {A} (l : list (list A)) r : flatten_loop r l = r ++ concat l.
Proof.
  revert r; induction l as [|x l IH]; intros r; cbn; [rewrite app_nil_r; reflexivity|].
  rewrite IH, app_assoc. reflexivity.
Qed.

Lemma flatten_eq {A} (l : list (list A)) : flatten l = concat l.
Proof. exact (flatten_loop_eq l []). Qed.

Lemma partition_loop_eq {A} (p : A -> bool) l a b :
  partition_loop p a b l = (a ++ filter p l, b ++ filter (fun x => negb (p x)) l).
Proof.
  revert a b; induction l as [|x l IH]; intros a b; cbn; [rewrite !app_nil_r; reflexivity|].
  destruct (p x); cbn; rewrite IH, <- app_assoc; reflexivity.
Qed.

Lemma partition_eq {A} (p : A -> bool) l :
  partition l p = (filter p l, filter (fun x => negb (p x)) l).
Proof. exact (partition_loop_eq p l [] []). Qed.

Section Eq.
Context {A : Type} (eqb : A -> A -> bool) (dec : forall a b : A, {a = b} + {a <> b}).
Hypothesis eqb_spec : forall a b, reflect (a = b) (eqb a b).

Lemma existsb_eqb x l : existsb (eqb x) l = true <-> In x l.
Proof.
  rewrite existsb_exists. split.
  - intros [y [Hy He]]. destruct (eqb_spec x y); [subst; exact Hy|discriminate].
  - intros H. exists x. split; [exact H|]. destruct (eqb_spec x x); [reflexivity|congruence].
Qed.

(** First occurrences: [rev (nodup (rev l))].  Adding one element at the end. *)
Lemma first_snoc l x :
  rev (nodup dec (rev (l ++ [x]))) =
  if in_dec dec x l then rev (nodup dec (rev l)) else rev (nodup dec (rev l)) ++ [x].
Proof.
  rewrite rev_app_distr. cbn [rev app nodup].
  destruct (in_dec dec x (rev l)) as [H|H]; rewrite <- in_rev in H.
  - destruct (in_dec dec x l); [reflexivity|tauto].
  - destruct (in_dec dec x l); [tauto|reflexivity].
Qed.

Lemma uniq_loop_inv l : forall done seen,
  (forall x, In x seen <-> In x done) ->
  uniq_loop eqb seen (rev (nodup dec (rev done))) l = rev (nodup dec (rev (done ++ l))).
Proof.
  induction l as [|x l IH]; intros done seen Hs; cbn.
  - rewrite app_nil_r. reflexivity.
  - replace (done ++ x :: l) with ((done ++ [x]) ++ l) by (rewrite <- app_assoc; reflexivity).
    pose proof (first_snoc done x) as Hf.
    destruct (existsb (eqb x) seen) eqn:E.
    + apply existsb_eqb in E. apply Hs in E. destruct (in_dec dec x done); [|tauto].
      rewrite <- Hf. apply IH. intros y. rewrite in_app_iff. cbn. rewrite Hs.
      split; [tauto|]. intros [H|[H|[]]]; [exact H|subst; exact E].
    + destruct (in_dec dec x done) as [H|H].
      { apply Hs in H. apply existsb_eqb in H. congruence. }
      rewrite <- Hf. apply IH. intros y. rewrite in_app_iff. cbn. rewrite Hs. tauto.
Qed.

Lemma uniq_eq l : uniq eqb l = rev (nodup dec (rev l)).
Proof. apply (uniq_loop_inv l [] []). intros x; tauto. Qed.

Lemma uniq_NoDup l : NoDup (uniq eqb l).
Proof. rewrite uniq_eq. apply NoDup_rev, NoDup_nodup. Qed.

Lemma uniq_In l x : In x (uniq eqb l) <-> In x l.
Proof. rewrite uniq_eq, <- in_rev, nodup_In, <- in_rev. tauto. Qed.
End Eq.

Section Group.
Context {A K : Type} (eqb : K -> K -> bool) (dec : forall a b : K, {a = b} + {a <> b}).
Hypothesis eqb_spec : forall a b, reflect (a = b) (eqb a b).
Variable key : A -> K.

Definition groups_of (l : list A) : list (K * list A) :=
  map (fun k => (k, filter (fun x => eqb (key x) k) l)) (rev (nodup dec (rev (map key l)))).

Lemma groups_keys l : map fst (groups_of l) = rev (nodup dec (rev (map key l))).
Proof. unfold groups_of. rewrite map_map. cbn. apply map_id. Qed.

Lemma groups_NoDup l : NoDup (map fst (groups_of l)).
Proof. rewrite groups_keys. apply NoDup_rev, NoDup_nodup. Qed.

Lemma dget_map_key (f : K -> list A) ks k :
  dget eqb k (map (fun k => (k, f k)) ks) = if existsb (eqb k) ks then Some (f k) else None.
Proof.
  induction ks as [|k' ks IH]; cbn; [reflexivity|].
  destruct (eqb_spec k k') as [->|Hn]; cbn; [reflexivity|exact IH].
Qed.

Lemma dset_map_key (f : K -> list A) v ks k : NoDup ks -> In k ks ->
  dset eqb k v (map (fun k => (k, f k)) ks)
  = map (fun k' => (k', if eqb k k' then v else f k')) ks.
Proof.
  induction ks as [|k' ks IH]; cbn; intros Hn Hi; [tauto|].
  inversion Hn; subst. destruct (eqb_spec k k') as [->|Hk].
  - f_equal. apply map_ext_in. intros a Ha. destruct (eqb_spec k' a); [subst; tauto|reflexivity].
  - f_equal. apply IH; [assumption|]. destruct Hi; [congruence|assumption].
Qed.

Lemma groups_snoc l x :
  groups_of (l ++ [x]) =
  match dget eqb (key x) (groups_of l) with
  | Some items => dset eqb (key x) (items ++ [x]) (groups_of l)
  | None => dset eqb (key x) [x] (groups_of l)
  end.
Proof.
  set (ks := rev (nodup dec (rev (map key l)))).
  assert (Hks : NoDup ks) by (apply NoDup_rev, NoDup_nodup).
  assert (Hin : forall k, In k ks <-> In k (map key l)).
  { intros k. unfold ks. rewrite <- in_rev, nodup_In, <- in_rev. tauto. }
  assert (E : groups_of (l ++ [x]) =
    map (fun k => (k, filter (fun y => eqb (key y) k) l ++ (if eqb (key x) k then [x] else [])))
      (if in_dec dec (key x) (map key l) then ks else ks ++ [key x])).
  { unfold groups_of. rewrite map_app. cbn [map]. rewrite first_snoc. fold ks.
    apply map_ext. intros k. rewrite filter_app. cbn [filter]. reflexivity. }
  rewrite E. unfold groups_of. fold ks. rewrite dget_map_key.
  destruct (existsb (eqb (key x)) ks) eqn:Ex.
  - rewrite existsb_eqb in Ex by exact eqb_spec.
    destruct (in_dec dec (key x) (map key l)) as [Hi|Hi]; [|apply Hin in Ex; tauto].
    rewrite dset_map_key by assumption. apply map_ext. intros k.
    destruct (eqb_spec (key x) k) as [<-|Hk]; [reflexivity|rewrite app_nil_r; reflexivity].
  - assert (Hni : ~ In (key x) ks).
    { intros H. rewrite <- (existsb_eqb eqb eqb_spec) in H. congruence. }
    destruct (in_dec dec (key x) (map key l)) as [Hi|Hi]; [apply Hin in Hi; tauto|].
    rewrite dset_new.
    + rewrite map_app. cbn [map]. f_equal.
      * apply map_ext_in. intros k Hk. destruct (eqb_spec (key x) k) as [<-|]; [tauto|].
        rewrite app_nil_r. reflexivity.
      * f_equal. f_equal. destruct (eqb_spec (key x) (key x)); [|congruence].
        replace (filter _ l) with (@nil A); [reflexivity|].
        symmetry. clear -Hi eqb_spec. induction l as [|y l IH]; cbn; [reflexivity|].
        destruct (eqb_spec (key y) (key x)) as [Hk|Hk]; [cbn in Hi; tauto|].
        apply IH. cbn in Hi; tauto.
    + unfold dmem. rewrite dget_map_key, Ex. reflexivity.
Qed.

Lemma group_by_loop_inv l : forall done,
  group_by_loop eqb key (groups_of done) l = groups_of (done ++ l).
Proof.
  induction l as [|x l IH]; intros done; cbn.
  - rewrite app_nil_r; reflexivity.
  - replace (done ++ x :: l) with ((done ++ [x]) ++ l) by (rewrite <- app_assoc; reflexivity).
    rewrite <- IH, groups_snoc. destruct (dget eqb (key x) (groups_of done)); reflexivity.
Qed.

Lemma group_by_eq l : group_by eqb l key = groups_of l.
Proof. apply (group_by_loop_inv l []). Qed.

Lemma group_by_nonempty l k xs : In (k, xs) (group_by eqb l key) ->
  xs <> [] /\ forall x, In x xs <-> In x l /\ key x = k.
Proof.
  rewrite group_by_eq. unfold groups_of. intros H. apply in_map_iff in H as [k' [E H]].
  injection E as -> <-.
  assert (Hx : forall x, In x (filter (fun x => eqb (key x) k) l) <-> In x l /\ key x = k).
  { intros x. rewrite filter_In. destruct (eqb_spec (key x) k); intuition congruence. }
  split; [|exact Hx].
  rewrite <- in_rev, nodup_In, <- in_rev, in_map_iff in H. destruct H as [x [Hk Hi]].
  intros E. assert (Hf : In x []) by (rewrite <- E; apply Hx; auto). exact Hf.
Qed.
End Group.

(** ** numbers_are_contiguous *)

Lemma insert_sorted_perm x l : Permutation (insert_sorted x l) (x :: l).
Proof.
  induction l as [|y l IH]; cbn; [reflexivity|].
  destruct (x <=? y)%Z; [reflexivity|].
  rewrite IH. apply perm_swap.
Qed.

Lemma sorted_perm l : Permutation (sorted l) l.
Proof. induction l as [|x l IH]; cbn; [reflexivity|]. rewrite insert_sorted_perm, IH. reflexivity. Qed.

Lemma insert_sorted_sorted x l : Sorted Z.le l -> Sorted Z.le (insert_sorted x l).
Proof.
  induction l as [|y l IH]; cbn; intros H; [repeat constructor|].
  destruct (Z.leb_spec x y).
  - constructor; [exact H|constructor; assumption].
  - inversion H as [|? ? Hs Hh]; subst. constructor; [apply IH; exact Hs|].
    destruct l as [|z l]; cbn; [constructor; lia|].
    destruct (x <=? z)%Z; constructor; [lia|]. inversion Hh; assumption.
Qed.

Lemma sorted_sorted l : Sorted Z.le (sorted l).
Proof. induction l; cbn; [constructor|apply insert_sorted_sorted; assumption]. Qed.

(** A sorted list is determined by its elements. *)
Lemma sorted_unique (l1 l2 : list Z) :
  StronglySorted Z.le l1 -> StronglySorted Z.le l2 -> Permutation l1 l2 -> l1 = l2.
Proof.
  revert l2; induction l1 as [|a l1 IH]; intros l2 H1 H2 Hp.
  - apply Permutation_nil in Hp. congruence.
  - destruct l2 as [|b l2]; [apply Permutation_sym, Permutation_nil in Hp; discriminate|].
    inversion H1 as [|? ? Hs1 Hf1]; inversion H2 as [|? ? Hs2 Hf2]; subst.
    assert (a = b) as ->.
    { rewrite Forall_forall in Hf1, Hf2.
      assert (Hb : In b (a :: l1)) by (apply Permutation_sym in Hp; eapply Permutation_in; [exact Hp|left; reflexivity]).
      assert (Ha : In a (b :: l2)) by (eapply Permutation_in; [exact Hp|left; reflexivity]).
      destruct Ha as [->|Ha]; [reflexivity|]. destruct Hb as [->|Hb]; [reflexivity|].
      specialize (Hf1 _ Hb). specialize (Hf2 _ Ha). lia. }
    f_equal. apply IH; try assumption. apply Permutation_cons_inv in Hp. exact Hp.
Qed.

Definition zrange (a : Z) (n : nat) : list Z := map (fun i => (a + Z.of_nat i)%Z) (seq 0 n).

Lemma zrange_S a n : zrange a (S n) = a :: zrange (a + 1) n.
Proof.
  unfold zrange. cbn [seq map]. rewrite Z.add_0_r. f_equal.
  rewrite <- seq_shift, map_map. apply map_ext. intros i. lia.
Qed.

Lemma zrange_sorted n : forall a, StronglySorted Z.le (zrange a n).
Proof.
  induction n as [|n IH]; intros a; [constructor|]. rewrite zrange_S. constructor; [apply IH|].
  rewrite Forall_forall. intros x Hx. unfold zrange in Hx. apply in_map_iff in Hx as [i [<- _]]. lia.
Qed.

Lemma steps_are_one_zrange l : steps_are_one l = true <->
  match l with [] => True | a :: _ => l = zrange a (length l) end.
Proof.
  destruct l as [|a l]; [cbn; tauto|].
  revert a; induction l as [|b l IH]; intros a.
  - cbn. rewrite Z.add_0_r. tauto.
  - change (steps_are_one (a :: b :: l)) with ((b - a =? 1)%Z && steps_are_one (b :: l)).
    rewrite andb_true_iff, IH, Z.eqb_eq.
    change (length (a :: b :: l)) with (S (length (b :: l))). rewrite zrange_S. split.
    + intros [Hb Hl]. f_equal. replace (a + 1)%Z with b by lia. exact Hl.
    + intros H. assert (H1 : b :: l = zrange (a + 1) (length (b :: l))) by congruence.
      assert (Hb : b = (a + 1)%Z).
      { cbn [length] in H1. rewrite zrange_S in H1. congruence. }
      split; [lia|]. rewrite Hb in *. exact H1.
Qed.

Lemma contiguous_iff l : numbers_are_contiguous l = true <->
  exists a n, Permutation l (zrange a (S n)).
Proof.
  unfold numbers_are_contiguous. split.
  - destruct l as [|x l]; [discriminate|]. intros H. apply steps_are_one_zrange in H.
    pose proof (sorted_perm (x :: l)) as Hp.
    pose proof (Permutation_length Hp) as Hl.
    destruct (sorted (x :: l)) as [|a s] eqn:E; [discriminate|].
    exists a, (length s). rewrite <- Hp. rewrite H at 1. reflexivity.
  - intros [a [n Hp]]. destruct l as [|x l].
    { apply Permutation_nil in Hp. rewrite zrange_S in Hp. discriminate. }
    assert (E : sorted (x :: l) = zrange a (S n)).
    { apply sorted_unique.
      - apply Sorted_StronglySorted; [intros ? ? ?; apply Z.le_trans|apply sorted_sorted].
      - apply zrange_sorted.
      - rewrite sorted_perm. exact Hp. }
    rewrite E. apply steps_are_one_zrange.
    assert (Hl : length (zrange a (S n)) = S n) by (unfold zrange; rewrite map_length, seq_length; reflexivity).
    rewrite Hl. rewrite (zrange_S a n). symmetry. apply zrange_S.
Qed.

(** ** SparseList *)
Section Sparse.
Context {A : Type} (default : A).

Lemma list_set_length n (v : A) l : length (list_set n v l) = length l.
Proof. revert n; induction l as [|x l IH]; intros [|n]; cbn; [reflexivity..|]. rewrite IH. reflexivity. Qed.

Lemma list_set_nth n (v : A) l i : (n < length l)%nat ->
  nth_error (list_set n v l) i = if Nat.eqb i n then Some v else nth_error l i.
Proof.
  revert n i; induction l as [|x l IH]; intros [|n] [|i] H; cbn in *; try lia; try reflexivity.
  apply IH; lia.
Qed.

Lemma extend_to_length i l : (0 <= i)%Z ->
  length (extend_to default i l) = Nat.max (length l) (Z.to_nat (i + 1)).
Proof.
  intros Hi. unfold extend_to. destruct (Z.geb_spec i (Z.of_nat (length l))).
  - rewrite app_length, repeat_length. lia.
  - lia.
Qed.

Lemma nth_error_repeat_d n (d : A) k : nth_error (repeat d n) k = if Nat.ltb k n then Some d else None.
Proof.
  revert k; induction n as [|n IH]; intros [|k]; cbn; try reflexivity. rewrite IH. reflexivity.
Qed.

Lemma extend_to_nth i l k : (0 <= i)%Z ->
  nth_error (extend_to default i l) k =
  if Nat.ltb k (length l) then nth_error l k
  else if Nat.leb k (Z.to_nat i) then Some default else None.
Proof.
  intros Hi. unfold extend_to. destruct (Z.geb_spec i (Z.of_nat (length l))).
  - destruct (Nat.ltb_spec k (length l)).
    + apply nth_error_app1; assumption.
    + rewrite nth_error_app2 by assumption. rewrite nth_error_repeat_d.
      destruct (Nat.ltb_spec (k - length l) (Z.to_nat (i + 1 - Z.of_nat (length l))));
        destruct (Nat.leb_spec k (Z.to_nat i)); try reflexivity; lia.
  - destruct (Nat.ltb_spec k (length l)); [reflexivity|].
    destruct (Nat.leb_spec k (Z.to_nat i)); [lia|]. apply nth_error_None. lia.
Qed.

Lemma sparse_setitem_ok i v l : (0 <= i)%Z -> exists l',
  sparse_setitem default i v l = Ok l' /\
  length l' = Nat.max (length l) (S (Z.to_nat i)) /\
  forall k, nth_error l' k =
    if Nat.eqb k (Z.to_nat i) then Some v
    else if Nat.ltb k (length l) then nth_error l k
    else if Nat.ltb k (Z.to_nat i) then Some default else None.
Proof.
  intros Hi. unfold sparse_setitem. destruct (Z.ltb_spec i 0); [lia|].
  unfold list_setitem. destruct (Z.ltb_spec i 0); [lia|].
  pose proof (extend_to_length i l Hi) as Hl.
  replace ((i <? 0)%Z || (i >=? Z.of_nat (length (extend_to default i l)))%Z)%bool with false.
  - eexists. split; [reflexivity|]. split; [rewrite list_set_length, Hl; lia|].
    intros k. rewrite list_set_nth by lia.
    destruct (Nat.eqb_spec k (Z.to_nat i)); [reflexivity|].
    rewrite extend_to_nth by exact Hi. destruct (Nat.ltb_spec k (length l)); [reflexivity|].
    destruct (Nat.leb_spec k (Z.to_nat i)); destruct (Nat.ltb_spec k (Z.to_nat i)); try reflexivity; lia.
  - symmetry. apply orb_false_iff. split; [lia|]. rewrite Z.geb_leb. apply Z.leb_gt. lia.
Qed.

(** A history of assignments to natural indices. *)
Fixpoint assign_all (l : list A) (ops : list (nat * A)) : res (list A) :=
  match ops with
  | [] => Ok l
  | (i, v) :: ops' => do l' <- sparse_setitem default (Z.of_nat i) v l; assign_all l' ops'
  end.

(** The value assigned last to index [i]. *)
Fixpoint last_assigned (i : nat) (ops : list (nat * A)) : option A :=
  match ops with
  | [] => None
  | (j, v) :: ops' =>
      match last_assigned i ops' with
      | Some w => Some w
      | None => if Nat.eqb i j then Some v else None
      end
  end.

Lemma assign_all_spec ops : forall l, exists l',
  assign_all l ops = Ok l' /\
  length l' = fold_right (fun p m => Nat.max (S (fst p)) m) (length l) ops /\
  forall i, nth_error l' i =
    if Nat.ltb i (length l')
    then Some (match last_assigned i ops with Some v => v | None => nth i l default end)
    else None.
Proof.
  induction ops as [|[j v] ops IH]; intros l; cbn [assign_all fold_right last_assigned fst].
  - exists l. split; [reflexivity|]. split; [reflexivity|]. intros i.
    destruct (Nat.ltb_spec i (length l)); [apply nth_error_nth'; assumption|apply nth_error_None; assumption].
  - destruct (sparse_setitem_ok (Z.of_nat j) v l ltac:(lia)) as [l1 [E1 [L1 N1]]].
    rewrite E1. cbn [bind]. destruct (IH l1) as [l' [E [L N]]]. exists l'. split; [exact E|]. split.
    + rewrite L, L1. rewrite Nat2Z.id. clear.
      induction ops as [|[k w] ops IH]; cbn [fold_right fst]; [lia|]. rewrite IH. lia.
    + intros i. rewrite N. destruct (Nat.ltb i (length l')); [|reflexivity]. f_equal.
      destruct (last_assigned i ops); [reflexivity|].
      rewrite Nat2Z.id in N1. specialize (N1 i).
      destruct (Nat.eqb_spec i j) as [Hij|Hij].
      * apply nth_error_nth with (d := default) in N1. exact N1.
      * destruct (Nat.ltb_spec i (length l)).
        -- rewrite (nth_error_nth' l default) in N1 by assumption.
           apply nth_error_nth with (d := default) in N1. exact N1.
        -- rewrite (nth_overflow l) by assumption. destruct (Nat.ltb_spec i j).
           ++ apply nth_error_nth with (d := default) in N1. exact N1.
           ++ apply nth_overflow, nth_error_None. exact N1.
Qed.
End Sparse.
