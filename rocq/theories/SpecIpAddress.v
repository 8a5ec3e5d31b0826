(** * Specification for C137: which addresses are to be offered; the functions of the shells. *)
From Verif Require Import Base StrUtils SpecShell SpecChoices.
Open Scope list_scope.

(** The addresses of the computer, each with the name of its interface *)
Definition computer := list (str * str).
Definition kinds : list str := [s "ipv4"; s "ipv6"; s "all"; s "ipv4+"; s "ipv6+"; s "all+"].
(** An IPv6 address has a colon, an IPv4 address has none. *)
Definition of_kind (kind address : str) : Prop :=
  (In kind [s "ipv4"; s "ipv4+"] -> ~ In COLON address) /\ (In kind [s "ipv6"; s "ipv6+"] -> In COLON address).
(** To be offered: the addresses of the computer of this kind, and for [+] the address that stands
    for any of this kind. *)
Definition wanted (own : computer) (kind address : str) : Prop :=
  of_kind kind address /\
  ((exists interface, In (address, interface) own) \/
   In kind [s "ipv4+"; s "ipv6+"; s "all+"] /\ In address [s "0.0.0.0"; s "::"]).

(** bash-completion: [_ip_addresses] adds IPv4 addresses, with [-6] IPv6 addresses, with [-a] both, as
    far as they begin with [cur]. *)
Definition addresses_begun (own : computer) (cur : str) (args : list str) : option (list str) :=
  let begun := filter (starts_with cur) (map fst own) in
  match args with
  | [] => Some (filter (fun a => negb (memc COLON a)) begun)
  | [x] => if str_eqb x (s "-6") then Some (filter (memc COLON) begun)
           else if str_eqb x (s "-a") then Some begun else None
  | _ => None
  end.
(** The replies after the lines of the code, in the order of the lines *)
Fixpoint bash_replies (own : computer) (func cur : str) (lines : list str) (before : list str) : option (list str) :=
  match lines with
  | [] => Some before
  | line :: lines' =>
      match (match posix_words line with
             | Some (f :: args) => if str_eqb f func then option_map (app before) (addresses_begun own cur args) else None
             | _ => bash_code [] line cur before
             end) with
      | Some after => bash_replies own func cur lines' after
      | None => None
      end
  end.

(** Fish: [__fish_print_addresses] prints one line for each address: the address, a tabulator, the
    interface; with [--all] also the addresses that stand for any. *)
Definition print_addresses (own : computer) (any4 any6 : str) (args : list str) : option (list str) :=
  let own_lines := map (fun x => fst x ++ [TAB] ++ snd x) own in
  match args with
  | [] => Some own_lines
  | [x] => if str_eqb x (s "--all") then Some (own_lines ++ [s "0.0.0.0" ++ [TAB] ++ any4; s "::" ++ [TAB] ++ any6]) else None
  | _ => None
  end.
(** The lines that a command of Fish prints: [__fish_print_addresses] with arguments, alone or piped
    into [string match -e] with a text that has no wildcard *)
Definition arguments (words : option (list str)) : option (list str) :=
  match words with
  | Some (f :: args) => if str_eqb f (s "__fish_print_addresses") then Some args else None
  | _ => None
  end.
Definition fish_lines (own : computer) (any4 any6 command : str) : option (list str) :=
  match split_c 124%N command with
  | [first] =>
      match arguments (posix_words first) with Some args => print_addresses own any4 any6 args | None => None end
  | [first; second] =>
      match arguments (posix_words first), posix_words second with
      | Some args, Some [w1; w2; w3; pattern] =>
          if str_eqb w1 (s "string") && str_eqb w2 (s "match") && str_eqb w3 (s "-e")
             && negb (existsb (fun c => memc c (s "*?[]\")) pattern)
          then option_map (filter (contains pattern)) (print_addresses own any4 any6 args) else None
      | _, _ => None
      end
  | _ => None
  end.
(** What is offered for a line: the part in front of the tabulator *)
Definition item_of (line address : str) : Prop :=
  exists description, line = address ++ [TAB] ++ description /\ ~ In TAB address.

(** Zsh: [_bind_addresses], with [-4] or [-6] the addresses of one kind only, with [-0] also the ones
    that stand for any; letters may be written together. *)
Definition bind_addresses (own : computer) (words : list str) (address : str) : Prop :=
  exists flags,
    (words = [s "_bind_addresses"] /\ flags = [] \/ words = [s "_bind_addresses"; s "-" ++ flags] /\ flags <> []) /\
    (forall c, In c flags -> In c (s "460")) /\
    (In 52%N flags -> ~ In COLON address) /\ (In 54%N flags -> In COLON address) /\
    ((exists interface, In (address, interface) own) \/ In 48%N flags /\ In address [s "0.0.0.0"; s "::"]).

(** The addresses that a command of Fish offers *)
Definition fish_offers (own : computer) (any4 any6 command address : str) : Prop :=
  exists lines line, fish_lines own any4 any6 command = Some lines /\ In line lines /\ item_of line address.
