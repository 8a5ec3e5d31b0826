(** * Model of the manual: manual.py 2358-2496. *)
From Verif Require Import Base StrUtils.
Open Scope list_scope.

(** One entry of [COMMANDS] (manual.py 15-2355); the texts themselves are not modelled, the theorems are
    about any list of entries.  [None] and an empty list of shells are not distinguished by the code. *)
Record entry := Entry {
  e_command : str; e_short : str; e_long : option str; e_long_colored : str;
  e_definition : str; e_definition_colored : str; e_output : str;
  e_notes : list str; e_implemented : list str; e_also : list (str * str) }.

Definition ESC : N := 27%N.
(** manual.py 2366-2372 *)
Definition bold (colors : bool) (x : str) : str := if colors then ESC :: s "[1m" ++ x ++ ESC :: s "[0m" else x.
Definition tab : str := repeat SP 4.
Definition strip (x : str) : str := strip_p is_space x.
(** manual.py 2383-2386 *)
Definition command_section (colors : bool) (e : entry) : str := bold colors (s "COMMAND") ++ [LF] ++ tab ++ e_command e.
(** manual.py 2389-2401 *)
Definition description_section (colors : bool) (e : entry) : str :=
  bold colors (s "DESCRIPTION") ++ [LF] ++ tab ++ e_short e
  ++ match e_long e with
     | None | Some [] => []
     | Some long => [LF; LF] ++ indent (strip (if colors then e_long_colored e else long)) 4
     end.
(** manual.py 2404-2413 *)
Definition example_section (colors : bool) (e : entry) : str :=
  bold colors (s "EXAMPLE") ++ [LF] ++ indent (strip (if colors then e_definition_colored e else e_definition e)) 4.
(** manual.py 2416-2420 *)
Definition output_section (colors : bool) (e : entry) : str :=
  bold colors (s "OUTPUT") ++ [LF] ++ indent (strip (e_output e)) 4.
(** manual.py 2423-2433 *)
Definition notes_section (colors : bool) (notes : list str) : str :=
  match notes with
  | [] => []
  | _ => join [LF] (bold colors (s "NOTES") :: map (fun note => tab ++ s "- " ++ note) notes)
  end.
(** manual.py 2436-2446 *)
Definition see_also_section (colors : bool) (e : entry) : str :=
  match e_also e with
  | [] => []
  | also => rstrip_p is_space (bold colors (s "SEE ALSO") ++ [LF]
              ++ concat (map (fun a => tab ++ bold colors (fst a) ++ s ": " ++ snd a ++ [LF]) also))
  end.
(** manual.py 2461-2468 *)
Definition all_notes (e : entry) : list str :=
  e_notes e ++ match e_implemented e with
               | [] => []
               | a :: more => [s "This completer is currently only implemented in " ++ a
                               ++ match more with [] => [] | b :: _ => s " and " ++ b end]
               end.
(** manual.py 2449-2483: what is printed, or the error *)
Definition help_for_command (commands : list entry) (colors : bool) (name : str) : res str :=
  match find (fun e => str_eqb (e_command e) name) commands with
  | None => Err (CrazyError (s "Command not found: " ++ name))
  | Some e =>
      let r := [command_section colors e; description_section colors e; example_section colors e;
                output_section colors e; notes_section colors (all_notes e); see_also_section colors e] in
      Ok ([LF] ++ join [LF; LF] (filter (fun l => match l with [] => false | _ => true end) r) ++ [LF] ++ [LF])
  end.
(** manual.py 2486-2496 *)
Definition help_topic (commands : list entry) (colors : bool) (topic : str) : str :=
  match help_for_command commands colors topic with
  | inr text => text
  | inl _ => s "Topic not found" ++ [LF] ++ [LF] ++ s "Available completers:" ++ [LF]
             ++ indent (join_with_wrap [SP] [LF] 40 (map e_command commands) []) 4 ++ [LF]
  end.
