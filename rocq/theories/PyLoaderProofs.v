(** * Proofs about finding the parser in a Python file. *)
From Verif Require Import Base Cli Application ApplicationProofs PyLoader SpecPyLoader.
Open Scope list_scope.

Lemma remove_one_in i l : NoDup l -> forall j, In j (remove_one i l) <-> In j l /\ j <> i.
Proof.
  induction 1 as [| x l Hx Hl IH]; intros j; [cbn; tauto |]. cbn [remove_one]. destruct (Nat.eqb_spec i x) as [-> | Hi].
  - cbn [In]. split; [intros H; split; [now right | intros ->; contradiction] | intros [[-> | H] Hn]; [congruence | exact H]].
  - cbn [In]. rewrite IH. split; [intros [-> | [H Hn]]; [split; [now left | congruence] | split; [now right | exact Hn]] | intros [[-> | H] Hn]; [now left | right; now split]].
Qed.
Lemma remove_one_nodup i l : NoDup l -> NoDup (remove_one i l).
Proof.
  induction 1 as [| x l Hx Hl IH]; cbn [remove_one]; [constructor |]. destruct (Nat.eqb i x); [exact Hl |]. constructor; [| exact IH].
  intros H. apply remove_one_in in H; [| exact Hl]. now destruct H.
Qed.
Lemma remove_each_in gone : forall l, NoDup l -> NoDup (remove_each l gone) /\ forall j, In j (remove_each l gone) <-> In j l /\ ~ In j gone.
Proof.
  induction gone as [| i gone IH]; intros l H; cbn [remove_each fold_left]; [split; [exact H | intros j; cbn; tauto] |].
  destruct (IH (remove_one i l) (remove_one_nodup i l H)) as [H1 H2]. split; [exact H1 |]. intros j. unfold remove_each in H2. rewrite H2, remove_one_in by exact H. cbn [In].
  split; [intros [[A B] C]; split; [exact A | intros [-> | D]; [congruence | contradiction]] | intros [A B]; repeat split; [exact A | intros ->; apply B; now left | intros D; apply B; now right]].
Qed.
Lemma remove_all_in ls : forall l, NoDup l -> NoDup (fold_left remove_each ls l) /\ forall j, In j (fold_left remove_each ls l) <-> In j l /\ forall g, In g ls -> ~ In j g.
Proof.
  induction ls as [| g ls IH]; intros l H; cbn [fold_left]; [split; [exact H | intros j; cbn; tauto] |].
  destruct (remove_each_in g l H) as [G1 G2]. destruct (IH (remove_each l g) G1) as [H1 H2]. split; [exact H1 |]. intros j. rewrite H2, G2. cbn [In].
  split; [intros [[A B] C]; split; [exact A | intros g' [<- | D]; [exact B | now apply C]] | intros [A B]; repeat split; [exact A | apply B; now left | intros g' D; apply B; now right]].
Qed.
Lemma parsers_in m i : In i (find_parsers m) <-> bound m i.
Proof.
  unfold find_parsers, bound. rewrite in_flat_map. split.
  - intros ([n [j | l |]] & Hx & Hi); [destruct Hi as [-> | []]; now exists n | destruct Hi | destruct Hi].
  - intros [n H]. exists (n, Parser i). split; [exact H | now left].
Qed.
Lemma actions_in m l : In l (find_actions m) <-> exists n, In (n, Subparsers l) m.
Proof.
  unfold find_actions. rewrite in_flat_map. split.
  - intros ([n [j | l' |]] & Hx & Hi); [destruct Hi | destruct Hi as [-> | []]; now exists n | destruct Hi].
  - intros [n H]. exists (n, Subparsers l). split; [exact H | now left].
Qed.
Lemma parsers_nodup m : (forall n n' i, In (n, Parser i) m -> In (n', Parser i) m -> n = n') -> NoDup (map fst m) -> NoDup (find_parsers m).
Proof.
  induction m as [| [n o] m IH]; intros H1 H2; [constructor |]. cbn [map fst] in H2. apply NoDup_cons_iff in H2 as [Hn H2].
  assert (G : NoDup (find_parsers m)) by (apply IH; [intros a b i Ha Hb; apply (H1 a b i); now right | exact H2]).
  unfold find_parsers. cbn [flat_map]. destruct o as [i | l |]; [| exact G | exact G]. cbn [app]. constructor; [| exact G]. intros Hi. apply parsers_in in Hi as [n' Hi].
  assert (n = n') as <- by (apply (H1 n n' i); [now left | now right]). apply Hn. change n with (fst (n, Parser i)). now apply in_map.
Qed.
Lemma roots children m i : usual children m -> In i (find_root_argument_parsers m) <-> root_parser children m i.
Proof.
  intros (U1 & U2 & U3 & U4). unfold find_root_argument_parsers. destruct (remove_all_in (find_actions m) (find_parsers m) (parsers_nodup m U1 U2)) as [_ R]. rewrite R, parsers_in.
  unfold root_parser. split.
  - intros [B H]. split; [exact B |]. intros j Hj. destruct (U3 i j B Hj) as (n & l & Hl & Hi). apply (H l); [| exact Hi]. apply actions_in. now exists n.
  - intros [B H]. split; [exact B |]. intros l Hl Hi. apply actions_in in Hl as [n Hl]. destruct (U4 n l i Hl Hi) as [j Hj]. exact (H j Hj).
Qed.
Lemma roots_nodup children m : usual children m -> NoDup (find_root_argument_parsers m).
Proof. intros (U1 & U2 & _). apply remove_all_in, parsers_nodup; assumption. Qed.
Lemma single (l : list nat) i : NoDup l -> In i l -> (forall j, In j l -> j = i) -> l = [i].
Proof.
  intros Hn Hi H. destruct l as [| x l]; [destruct Hi |]. assert (x = i) as -> by (apply H; now left). f_equal. destruct l as [| y l]; [reflexivity |].
  assert (y = i) as -> by (apply H; right; now left). apply NoDup_cons_iff in Hn as [Hn _]. destruct Hn. now left.
Qed.

(** ** Importing *)

Lemma find_module_ok py dir name r : py_file py (path_join dir (name ++ s ".py")) = Some r ->
  (forall d, In d (py_path py) -> d <> dir -> py_file py (path_join d (name ++ s ".py")) = None) ->
  find_module py (if mems dir (py_path py) then py_path py else py_path py ++ [dir]) name = r.
Proof.
  intros Hf Hd. assert (G : forall p, In dir p -> (forall d, In d p -> d <> dir -> py_file py (path_join d (name ++ s ".py")) = None) -> find_module py p name = r).
  { induction p as [| d p IH]; intros Hi Hp; [destruct Hi |]. cbn [find_module]. destruct (list_eq_dec N.eq_dec d dir) as [-> | Hn]; [now rewrite Hf |].
    rewrite (Hp d (or_introl eq_refl) Hn). apply IH; [destruct Hi as [-> | Hi]; [congruence | exact Hi] |]. intros d' H'. apply Hp. now right. }
  destruct (mems dir (py_path py)) eqn:E.
  - apply G; [| exact Hd]. unfold mems in E. apply existsb_exists in E as (d & Hi & He). apply str_eqb_eq in He as ->. exact Hi.
  - apply G; [apply in_or_app; right; now left |]. intros d Hi Hn. apply in_app_or in Hi as [Hi | [-> | []]]; [now apply Hd | congruence].
Qed.
Lemma split_path_ok dir name : dir <> [] -> ~ In SLASH name -> split_path (path_join dir name) = (dir, name).
Proof.
  intros Hn Hs. unfold split_path, path_join. cbn [app]. rewrite split_app, (split_c_word SLASH name) by exact Hs. rewrite rev_app_distr. cbn [rev app]. rewrite rev_involutive, join_split_c.
  destruct (split_c SLASH dir) eqn:E; [now destruct (split_c_nonnil SLASH dir) |]. reflexivity.
Qed.
Lemma py_suffix name : ends_with (s ".py") (lower (name ++ s ".py")) = true.
Proof. unfold ends_with, lower. rewrite map_app, rev_app_distr. reflexivity. Qed.
Lemma firstn_suffix name : firstn (length (name ++ s ".py") - 3) (name ++ s ".py") = name.
Proof.
  rewrite app_length. change (length (s ".py")) with 3. replace (length name + 3 - 3)%nat with (length name) by lia.
  rewrite firstn_app, firstn_all, Nat.sub_diag. cbn [firstn]. apply app_nil_r.
Qed.
Lemma import_ok py dir name r : dir <> [] -> ~ In SLASH name -> own_name py dir name ->
  py_file py (path_join dir (name ++ s ".py")) = Some r -> import_file py (path_join dir (name ++ s ".py")) = r.
Proof.
  intros Hd Hs (Hdot & Hl & Hp) Hf. unfold import_file. rewrite split_path_ok; [| exact Hd |].
  - rewrite py_suffix, firstn_suffix. unfold import_module. destruct (memc DOT name) eqn:E.
    + unfold memc in E. apply existsb_exists in E as (c & Hc & E). apply N.eqb_eq in E as <-. contradiction.
    + rewrite Hl. destruct dir as [| c d]; [congruence |]. now apply find_module_ok.
  - intros H. apply in_app_or in H as [H | H]; [exact (Hs H) | cbn in H; intuition discriminate].
Qed.

Lemma load_ok py dir name m children i blacklist : dir <> [] -> ~ In SLASH name -> own_name py dir name ->
  py_file py (path_join dir (name ++ s ".py")) = Some (Runs m) -> usual children m -> (forall j, In j blacklist -> ~ bound m j) ->
  only_root children m i -> load_from_file py (path_join dir (name ++ s ".py")) None blacklist = Found (Parser i).
Proof.
  intros Hd Hs Ho Hf Hu Hb [Hi Hj]. unfold load_from_file. rewrite (import_ok py dir name (Runs m) Hd Hs Ho Hf).
  destruct (remove_each_in blacklist _ (roots_nodup children m Hu)) as [N1 N2].
  rewrite (single (remove_each (find_root_argument_parsers m) blacklist) i); [reflexivity | exact N1 | |].
  - apply N2. split; [now apply (roots children m i Hu) |]. intros H. apply (Hb i H). apply Hi.
  - intros j H. apply N2 in H as [H _]. apply Hj. now apply (roots children m j Hu).
Qed.
(** A parser is not guessed. *)
Lemma load_sound py dir name m children p blacklist : dir <> [] -> ~ In SLASH name -> own_name py dir name ->
  py_file py (path_join dir (name ++ s ".py")) = Some (Runs m) -> usual children m -> (forall j, In j blacklist -> ~ bound m j) ->
  load_from_file py (path_join dir (name ++ s ".py")) None blacklist = Found p -> exists i, p = Parser i /\ only_root children m i.
Proof.
  intros Hd Hs Ho Hf Hu Hb H. unfold load_from_file in H. rewrite (import_ok py dir name (Runs m) Hd Hs Ho Hf) in H.
  destruct (remove_each_in blacklist _ (roots_nodup children m Hu)) as [N1 N2].
  destruct (remove_each (find_root_argument_parsers m) blacklist) as [| i [| j l]] eqn:E; try discriminate. injection H as <-. exists i. split; [reflexivity |]. split.
  - apply (roots children m i Hu). apply N2. now left.
  - intros j Hj. apply (roots children m j Hu) in Hj as Hr. assert (In j [i]) as [<- | []]; [| reflexivity]. apply N2. split; [exact Hr |]. intros B. exact (Hb j B (proj1 Hj)).
Qed.
