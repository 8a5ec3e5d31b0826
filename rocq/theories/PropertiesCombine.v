(** * Property C103: combined completers. *)
From Coq Require Import String.
From Verif Require Import Base Value SchemeValidator PropertiesScheme CommandPath SpecCommandPath Combine SpecCombine CombineProofs.
Open Scope string_scope.
Open Scope list_scope.

(** For any completers, combined and put into lists to any depth, whatever they offer by
    themselves: Bash offers what all of them offer, in their order, if there is no list in a list,
    if a list behind other completers offers something and needs no saved candidates, and if no
    completer follows one that changes PATH. *)
Theorem C103_bash_partial offer cut as_list c search word :
  accepted c -> apart false c = true -> path_last c = true ->
  bash_offers offer cut as_list c search word = offers offer cut as_list search word c.
Proof. exact (bash_right offer cut as_list c search word). Qed.
Print Assumptions C103_bash_partial.

(** When the code is to add to candidates offered before, it adds them behind these and leaves the
    word typed as it was. *)
Theorem C103_bash_add_partial offer cut as_list c st :
  accepted c -> apart true c = true -> path_last c = true ->
  let st' := run offer cut as_list (get_commands true (object_of c)) st in
  reply st' = reply st ++ offers offer cut as_list (search st) (word st) c /\ word st' = word st.
Proof.
  intros Ha Hs Hl. cbv zeta. destruct (completer_right offer cut as_list c true st Ha Hs Hl (or_introl eq_refl)) as (H1 & H2 & _). auto.
Qed.
Print Assumptions C103_bash_add_partial.

(** The same for fish, if no completer follows one that changes PATH. *)
Theorem C103_fish_partial offer cut as_list c search word :
  accepted c -> path_last c = true ->
  fish_offers offer cut as_list c search word = offers offer cut as_list search word c.
Proof. exact (fish_right offer cut as_list c search word). Qed.
Print Assumptions C103_fish_partial.

(** *** Examples *)
Definition words (l : list String.string) : value := VList [VStr (s "choices"); VList (map (fun x => VStr (s x)) l)].
Definition exec (x : String.string) : value := VList [VStr (s "exec"); VStr (s x)].
Definition combined (l : list value) : value := VList [VStr (s "combine"); VList l].
Definition listed (v : value) : value := VList [VStr (s "list"); v].
Definition listed_by (sep : String.string) (v : value) : value := VList [VStr (s "list"); v; VDict [(VStr (s "separator"), VStr (s sep))]].
Definition search_in (x : String.string) : value := VList [VStr (s "command"); VDict [(VStr (s "path"), VStr (s x))]].
Definition plain_command : value := VList [VStr (s "command")].

(** completers that offer some texts, and [command] the directories it looks into *)
Definition offer0 (l : leaf) (search word : str) : list str :=
  match l with
  | LWords values => values
  | LCompgen args => [args]
  | LCommand _ => [s "in " ++ search]
  | LCall args => [s "output of " ++ last args []]
  | LCode code => [s "result of " ++ code]
  end.
Fixpoint cut_at (sep : N) (found word : str) : str :=
  match word with [] => found | c :: w => if N.eqb c sep then cut_at sep w w else cut_at sep found w end.
Definition cut0 (sep word : str) : str := cut_at (hd 0%N sep) word word.
(** the elements typed and each candidate for the last one *)
Definition as_list0 (duplicates : bool) (sep word : str) (l : list str) : list str :=
  map (fun x => firstn (List.length word - List.length (cut0 sep word)) word ++ x) l.
Definition bash0 (c : completer) (word : String.string) := bash_offers offer0 cut0 as_list0 c (s "/bin") (s word).
Definition fish0 (c : completer) (word : String.string) := fish_offers offer0 cut0 as_list0 c (s "/bin") (s word).
Definition meant0 (c : completer) (word : String.string) := offers offer0 cut0 as_list0 (s "/bin") (s word) c.
Definition valid (v : value) (c : completer) : Prop :=
  (exists t, check_complete e0 (MkCtx None VNone) [] v = Ok t) /\ completer_of (fun x => s "_tool_" ++ x) v = Some c.

Definition mixed : value := combined [words ["a"; "b"]; combined [exec "ls"; listed (words ["x"])]; search_in "/opt"].
Example C103_example : exists c, valid mixed c /\ accepted c /\ apart false c = true /\ path_last c = true /\
  bash0 c "k,y" = [s "a"; s "b"; s "output of ls"; s "k,x"; s "in /opt"] /\
  code_text (s "_tool_values") (s "_tool_value_list") false c = join [LF] (map s [
    "COMPREPLY=($(compgen -W 'a b' -- ""$cur""))";
    "local COMPREPLY_OLD=(""${COMPREPLY[@]}"")";
    "_tool_exec ls";
    "COMPREPLY=(""${COMPREPLY_OLD[@]}"" ""${COMPREPLY[@]}"")";
    "local COMPREPLY_OLD=(""${COMPREPLY[@]}"")";
    "local cur_old=""$cur""";
    "cur=""${cur##*,}""";
    "COMPREPLY=($(compgen -W x -- ""$cur""))";
    "cur=""$cur_old""";
    "_tool_value_list , ""${COMPREPLY[@]}""";
    "COMPREPLY=(""${COMPREPLY_OLD[@]}"" ""${COMPREPLY[@]}"")";
    "local -x PATH=/opt";
    "COMPREPLY+=($(compgen -A command -- ""$cur""))"]).
Proof.
  eexists. split; [split; [eexists; reflexivity | reflexivity] |].
  repeat split; try reflexivity; try discriminate.
Qed.

(** A list behind other completers whose own completers are combined: their saved candidates
    replace those that were saved for the list.  The first candidates get lost, and one is offered
    that is not an element of the list. *)
Theorem C103_bash_saved_refuted : exists c,
  valid (combined [words ["a"]; listed (combined [words ["b"]; exec "ls"])]) c /\
  meant0 c "k,y" = [s "a"; s "k,b"; s "k,output of ls"] /\
  bash0 c "k,y" = [s "b"; s "k,b"; s "k,output of ls"].
Proof. eexists. split; [split; [eexists; reflexivity | reflexivity] |]. split; reflexivity. Qed.
Print Assumptions C103_bash_saved_refuted.

(** A list in a list: the word typed is not put back. *)
Theorem C103_bash_nested_list_refuted : exists c,
  valid (listed_by ":" (listed (words ["x"]))) c /\
  meant0 c "a:b,c" = [s "a:b,x"] /\
  bash0 c "a:b,c" = [s "b,x"].
Proof. eexists. split; [split; [eexists; reflexivity | reflexivity] |]. split; reflexivity. Qed.
Print Assumptions C103_bash_nested_list_refuted.

(** A list of integers, for which nothing is to be offered, behind other completers: their
    candidates are offered again, as elements of the list. *)
Theorem C103_bash_silent_list_refuted : exists c,
  valid (combined [words ["auto"]; listed (VList [VStr (s "integer")])]) c /\
  meant0 c "1,2" = [s "auto"] /\
  bash0 c "1,2" = [s "auto"; s "1,auto"].
Proof. eexists. split; [split; [eexists; reflexivity | reflexivity] |]. split; reflexivity. Qed.
Print Assumptions C103_bash_silent_list_refuted.

(** A completer behind one that changes PATH runs with the changed PATH, in Bash and fish. *)
Theorem C103_path_refuted : exists c,
  valid (combined [search_in "/opt"; plain_command]) c /\ accepted c /\
  meant0 c "" = [s "in /opt"; s "in /bin"] /\
  bash0 c "" = [s "in /opt"; s "in /opt"] /\
  fish0 c "" = [s "in /opt"; s "in /opt"].
Proof. eexists. split; [split; [eexists; reflexivity | reflexivity] |]. repeat split; try reflexivity; discriminate. Qed.
Print Assumptions C103_path_refuted.
