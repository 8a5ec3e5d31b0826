(** * Proofs about numbers with suffixes (C125) *)
From Verif Require Import Base PyStr KeyValueRun KeyValueRunProofs SpecNumbers Numbers.
Open Scope list_scope.

Lemma number_char_In c : number_char c = true <-> In c digits_and_marks.
Proof.
  unfold number_char. rewrite !orb_true_iff, andb_true_iff, !N.eqb_eq, !N.leb_le. split.
  - intros H. change digits_and_marks with [48; 49; 50; 51; 52; 53; 54; 55; 56; 57; 44; 46]%N. cbn [In]. lia.
  - intros H. change digits_and_marks with [48; 49; 50; 51; 52; 53; 54; 55; 56; 57; 44; 46]%N in H. cbn [In] in H. lia.
Qed.
Lemma number_part_app n r : Forall (fun c => In c digits_and_marks) n -> ends_number r -> number_part (n ++ r) = n.
Proof.
  intros Hn Hr. induction Hn as [| c n Hc Hn IH].
  - destruct r as [| c r]; [reflexivity |]. cbn [app number_part]. destruct (number_char c) eqn:E; [| reflexivity]. apply number_char_In in E. contradiction.
  - cbn [app number_part]. rewrite (proj2 (number_char_In c) Hc). now f_equal.
Qed.
Lemma suffix_names (f : str -> str) o : (forall x, In x (n_suffixes o) -> ~ In COLON (fst x)) ->
  map (fun a => f (before_first COLON a)) (suffix_args o) = map (fun x => f (fst x)) (n_suffixes o).
Proof. intros H. unfold suffix_args. rewrite map_map. apply map_ext_in. intros x I. now rewrite before_first_app by now apply H. Qed.

