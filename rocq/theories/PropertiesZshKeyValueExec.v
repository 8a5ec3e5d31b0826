(** * Property C127: keys and values that a command prints, in zsh.  Statements only. *)
From Verif Require Import Base SpecZsh SpecExec SpecKeyValue SpecKeyValueRun Exec ExecProofs KeyValueRunProofs ZshKeyValueExec ZshKeyValueExecProofs.
Open Scope string_scope.
Open Scope list_scope.

(** The action that completes the value of a key: [{helper 'command key'}], one word for the command with
    the key as its argument. *)
Definition asks_for (exec func key action : str) : Prop :=
  exists command, action = s "{" ++ command ++ s "}" /\ zsh_array command = Some [exec; func ++ s " " ++ key].

(** C127, lists.  [_values] reads one argument for each key that is printed: with the keys it excludes,
    whether it may be given again, its description, and whether it takes a value; what completes
    the value is the command, with the key as argument.

    What is missing: keys with other characters than letters, digits and [_+./-]; backslashes in
    descriptions; keys that may be given again and take a value; empty descriptions. *)
Theorem C127_list_partial : forall exec sep1 sep2 func l,
  harmless exec -> ~ In COLON func -> ~ In SQ func ->
  (forall p, In p l -> good_key p /\ harmless (p_key p) /\ Forall harmless (p_excludes p) /\ ~ In BS (p_description p) /\ (p_again p = true -> p_takes p = [])) ->
  exists args, zsh_key_value_list_exec exec sep1 sep2 func (print_keys l) = [s "_values"; s "-s"; sep1; s "-S"; sep2; []] ++ args /\
    Forall2 (fun p arg => exists argument,
      read_value arg = Some (ValueSpec (p_excludes p) (p_again p) (p_key p) (Some (p_description p)) argument) /\
      match argument with
      | None => p_takes p = []
      | Some (missing, message, action) => p_takes p = (if missing then s "=?" else s "=") /\ message = s " " /\ asks_for exec func (p_key p) action
      end) l args.
Proof.
  intros exec sep1 sep2 func l Hx Hf Hq Hl. exists (map (list_exec_arg exec func) (map key_line l)). split.
  - unfold zsh_key_value_list_exec. rewrite lines_read; [reflexivity |]. apply Forall_forall. intros p I. apply (Hl p I).
  - induction l as [| p l IH]; [constructor |]. cbn [map]. constructor; [| apply IH; intros x I; apply Hl; now right].
    destruct (Hl p (or_introl eq_refl)) as (H1 & H2 & H3 & H4 & H5). exists (takes_action exec func p). split.
    + apply list_arg; try assumption. now apply KeyValueProofs.harmless_free.
    + destruct (action_words exec func (p_key p) Hx H2 Hq) as (c & A1 & A2). destruct H1 as (_ & _ & _ & Ht & _).
      unfold takes_action. destruct Ht as [Ht | [Ht | [Ht | []]]]; rewrite <- Ht.
      * reflexivity.
      * split; [reflexivity |]. split; [reflexivity |]. exists c. split; assumption.
      * split; [reflexivity |]. split; [reflexivity |]. exists c. split; assumption.
Qed.
Print Assumptions C127_list_partial.

(** C127, pairs.  The same for single pairs: there are no exclusions, descriptions may be missing, and an
    equals sign behind a key says that it takes a value. *)
Theorem C127_pair_partial : forall exec sep func l,
  harmless exec -> ~ In COLON func -> ~ In SQ func ->
  let lines := map (fun k : str * bool * option str => (fst (fst k) ++ (if snd (fst k) then s "=" else []), snd k)) l in
  Forall good_entry lines ->
  (forall key takes d, In (key, takes, d) l -> harmless key /\ match d with Some x => ~ In BS x | None => True end) ->
  exists args, zsh_key_value_pair_exec exec sep func (print_entries lines) = [s "_values"; s "-S"; sep; []] ++ args /\
    Forall2 (fun (k : str * bool * option str) arg => exists argument,
      read_value arg = Some (ValueSpec [] false (fst (fst k)) (Some (match snd k with Some d => d | None => [] end)) argument) /\
      match argument with
      | None => snd (fst k) = false
      | Some (missing, message, action) => snd (fst k) = true /\ missing = true /\ message = [] /\ asks_for exec func (fst (fst k)) action
      end) l args.
Proof.
  intros exec sep func l Hx Hf Hq lines Hg Hl. exists (map (pair_exec_arg exec func) (map entry_line lines)). split.
  - unfold zsh_key_value_pair_exec. rewrite read_printed by exact Hg. reflexivity.
  - unfold lines in *. clear lines. induction l as [| [[key takes] d] l IH]; [constructor |]. cbn [map] in *. inversion Hg as [| ? ? G1 G2]; subst. cbn [fst snd] in *.
    constructor; [| apply IH; [exact G2 | intros k t x I; apply (Hl k t x); now right]].
    destruct (Hl key takes d (or_introl eq_refl)) as (H1 & H2). eexists. split.
    + apply pair_arg; try assumption; now apply KeyValueProofs.harmless_free.
    + destruct (action_words exec func key Hx H1 Hq) as (c & A1 & A2). destruct takes; [| reflexivity]. repeat split. exists c. split; assumption.
Qed.
Print Assumptions C127_pair_partial.

Definition options : list printed :=
  [Printed (s "ro") false [] (s "read only [no writes]: safe") [s "rw"; s "uid"]; Printed (s "uid") false (s "=") (s "owner") [];
   Printed (s "mode") false (s "=?") (s "mode") []; Printed (s "verbose") true [] (s "more output") []].
Definition options_args : list str := map s
  ["(rw uid)ro[read only \[no writes\]\: safe]"; "uid[owner]: :{_tool_exec 'list_options uid'}"; "mode[mode]:: :{_tool_exec 'list_options mode'}"; "*verbose[more output]"].
Example C127_example :
  harmless (s "_tool_exec") /\
  Forall (fun p => good_key p /\ harmless (p_key p) /\ Forall harmless (p_excludes p)) options /\
  zsh_key_value_list_exec (s "_tool_exec") (s ",") (s "=") (s "list_options") (print_keys options) = map s ["_values"; "-s"; ","; "-S"; "="; ""] ++ options_args /\
  map read_value options_args =
    [Some (ValueSpec [s "rw"; s "uid"] false (s "ro") (Some (s "read only [no writes]: safe")) None);
     Some (ValueSpec [] false (s "uid") (Some (s "owner")) (Some (false, s " ", s "{_tool_exec 'list_options uid'}")));
     Some (ValueSpec [] false (s "mode") (Some (s "mode")) (Some (true, s " ", s "{_tool_exec 'list_options mode'}")));
     Some (ValueSpec [] true (s "verbose") (Some (s "more output")) None)] /\
  zsh_key_value_pair_exec (s "_tool_exec") (s "=") (s "f") (print_entries [(s "a=", Some (s "first")); (s "b", None)]) =
    map s ["_values"; "-S"; "="; ""; "a[first]:::{_tool_exec 'f a'}"; "b[]"].
Proof.
  split; [split; [discriminate | reflexivity] |]. split; [| repeat split; reflexivity].
  repeat constructor; cbn; try discriminate; intuition discriminate.
Qed.

(** ** Where C127 is false *)

(** A key that may be given again and takes a value: the command is asked for a key with a star, which is a
    pattern for file names besides. *)
Theorem C127_again_refuted : exists p argument, p = Printed (s "subvol") true (s "=") (s "name") [] /\ good_key p /\
  zsh_key_value_list_exec (s "_x_exec") (s ",") (s "=") (s "keys") (print_keys [p]) = [s "_values"; s "-s"; s ","; s "-S"; s "="; []; argument] /\
  read_value argument = Some (ValueSpec [] true (s "subvol") (Some (s "name")) (Some (false, s " ", s "{_x_exec 'keys *subvol'}"))).
Proof.
  exists (Printed (s "subvol") true (s "=") (s "name") []), (s "*subvol[name]: :{_x_exec 'keys *subvol'}"). split; [reflexivity |]. split; [| split; reflexivity].
  repeat constructor; cbn; try discriminate; intuition discriminate.
Qed.
Print Assumptions C127_again_refuted.
(** A colon in a key ends it. *)
Theorem C127_colon_refuted : exists p argument, p = Printed (s "dc:title") false [] (s "title") [] /\ good_key p /\
  zsh_key_value_list_exec (s "_x_exec") (s ",") (s "=") (s "keys") (print_keys [p]) = [s "_values"; s "-s"; s ","; s "-S"; s "="; []; argument] /\
  read_value argument = Some (ValueSpec [] false (s "dc") None (Some (false, s "title[title]", []))).
Proof.
  exists (Printed (s "dc:title") false [] (s "title") []), (s "dc:title[title]"). split; [reflexivity |]. split; [| split; reflexivity].
  repeat constructor; cbn; try discriminate; intuition discriminate.
Qed.
Print Assumptions C127_colon_refuted.
(** Without a description, the keys that are excluded are read as the description. *)
Theorem C127_no_description_refuted : exists p argument, p = Printed (s "ro") false [] [] [s "rw"] /\
  zsh_key_value_list_exec (s "_x_exec") (s ",") (s "=") (s "keys") (print_keys [p]) = [s "_values"; s "-s"; s ","; s "-S"; s "="; []; argument] /\
  read_value argument = Some (ValueSpec [] false (s "ro") (Some (s "rw")) None).
Proof. exists (Printed (s "ro") false [] [] [s "rw"]), (s "ro[rw]"). repeat split; reflexivity. Qed.
Print Assumptions C127_no_description_refuted.
