(** * Model of the completer of IP addresses: bash_complete.py 482-506, fish_complete.py 618-640,
    zsh_complete.py 567-583. *)
From Verif Require Import Base.
Open Scope list_scope.

(** bash_complete.py 482-506: the lines of the code; [func]: the function of bash-completion *)
Definition bash_ip (func kind : str) : list str :=
  if str_eqb kind (s "ipv4") then [func]
  else if str_eqb kind (s "ipv6") then [func ++ s " -6"]
  else if str_eqb kind (s "ipv4+") then [func; s "COMPREPLY+=($(compgen -W 0.0.0.0 -- ""$cur""))"]
  else if str_eqb kind (s "ipv6+") then [func ++ s " -6"; s "COMPREPLY+=($(compgen -W :: -- ""$cur""))"]
  else if str_eqb kind (s "all+") then [func ++ s " -a"; s "COMPREPLY+=($(compgen -W ""0.0.0.0 ::"" -- ""$cur""))"]
  else [func ++ s " -a"].

(** fish_complete.py 618-640: the command in the script *)
Definition fish_ip (kind : str) : str :=
  if str_eqb kind (s "ipv4") then s "__fish_print_addresses | string match -e '.'"
  else if str_eqb kind (s "ipv6") then s "__fish_print_addresses | string match -e ':'"
  else if str_eqb kind (s "ipv4+") then s "__fish_print_addresses --all | string match -e '.'"
  else if str_eqb kind (s "ipv6+") then s "__fish_print_addresses --all | string match -e ':'"
  else if str_eqb kind (s "all+") then s "__fish_print_addresses --all"
  else s "__fish_print_addresses".

(** zsh_complete.py 567-583 *)
Definition zsh_ip (kind : str) : list str :=
  if str_eqb kind (s "ipv4") then [s "_bind_addresses"; s "-4"]
  else if str_eqb kind (s "ipv6") then [s "_bind_addresses"; s "-6"]
  else if str_eqb kind (s "ipv4+") then [s "_bind_addresses"; s "-40"]
  else if str_eqb kind (s "ipv6+") then [s "_bind_addresses"; s "-60"]
  else if str_eqb kind (s "all+") then [s "_bind_addresses"; s "-0"]
  else [s "_bind_addresses"].
