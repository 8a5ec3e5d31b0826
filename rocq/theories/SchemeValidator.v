(** * Model of crazy_complete/scheme_validator.py and crazy_complete/completion_validator.py.

    Simplifications:
    - [ValueWithTrace] wrappers (line and column) are left out; they are transparent for
      equality and hashing (value_with_trace.py 43-47);
    - a schema error is [CrazyError] with a shortened text; when several schema errors are
      present, the model may report another one than the program first;
    - what lies outside of this file is a parameter ([env]): whether grep accepts a regular
      expression, what the glob translation of pattern.py says about a pattern, and [>] on
      numbers of which one is a float;
    - the context object is split: the positional and the list of positionals under
      consideration are the argument [ctx], the list [ctxt.trace] is passed along and returned. *)
From Verif Require Import Base Dict Value StrUtils Cli DictSource When.
Open Scope list_scope.

Definition dict := list (value * value).

Record env := MkEnv {
  valid_ere : str -> bool;
  glob_check : str -> res unit;
  float_gt : value -> value -> bool }.

Definition sch (m : String.string) : exn := CrazyError (s m).

(** scheme_validator.py 28-41; [cx_positional] is None for an option. *)
Record ctx := MkCtx {
  cx_positional : option dict;
  cx_positionals : value }.

(** 78-80 *)
Definition has_set (d : dict) (k : String.string) : bool :=
  match vget (s k) d with None | Some VNone => false | Some _ => true end.
(** 83-85 *)
Definition is_true (d : dict) (k : String.string) : bool :=
  match vget (s k) d with Some (VBool true) => true | _ => false end.

(** 88-105; a Python bool is an int. *)
Inductive ty := TStr | TInt | TFloat | TList | TDict | TBool | TNone.
Definition is_ty (t : ty) (v : value) : bool :=
  match t, v with
  | TStr, VStr _ | TInt, VInt _ | TInt, VBool _ | TFloat, VFloat _ | TList, VList _
  | TDict, VDict _ | TBool, VBool _ | TNone, VNone => true
  | _, _ => false
  end.
Definition check_type (v : value) (types : list ty) : res unit :=
  if existsb (fun t => is_ty t v) types then Ok tt else Err (sch "Invalid type").

(** 108-122 *)
Record rule := MkRule {
  r_key : String.string;
  r_required : bool;
  r_types : list ty;
  r_check : value -> res unit }.
Definition no_check : value -> res unit := fun _ => Ok tt.
Definition find_rule (rules : list rule) (k : value) : option rule :=
  match k with
  | VStr x => find (fun r => str_eqb (s (r_key r)) x) rules
  | _ => None
  end.
Fixpoint check_items (rules : list rule) (d : dict) : res unit :=
  match d with
  | [] => Ok tt
  | (k, v) :: d' =>
      match find_rule rules k with
      | None => Err (sch "Unknown parameter")
      | Some r =>
          do _ <- check_type v (r_types r);
          do _ <- r_check r v;
          check_items rules d'
      end
  end.
Definition check_dictionary (d : dict) (rules : list rule) : res unit :=
  do _ <- check_items rules d;
  if forallb (fun r => negb (r_required r) || dmem value_eqb (VStr (s (r_key r))) d) rules
  then Ok tt else Err (sch "Missing argument").

(** 125-166.  They are only called on values of the right type: the other cases do not occur. *)
Definition on_str (f : str -> bool) (m : String.string) (v : value) : res unit :=
  match v with VStr x => if f x then Ok tt else Err (sch m) | _ => Err TypeError end.
Definition check_regex (e : env) := on_str (valid_ere e) "Not an extended regular expression".
Definition check_char := on_str (fun x => Nat.eqb (List.length x) 1) "Single character expected".
Definition check_variable_name := on_str is_valid_variable_name "Not a variable name".
Definition check_non_empty_string :=
  on_str (fun x => negb (is_empty_or_whitespace x)) "String cannot be empty".
Definition check_no_spaces := on_str (fun x => negb (contains_space x)) "String cannot contain space".
Definition check_non_empty_list (v : value) : res unit :=
  match v with
  | VList [] => Err (sch "List cannot be empty")
  | VList _ => Ok tt
  | _ => Err TypeError
  end.
Definition check_non_empty_dict (v : value) : res unit :=
  match v with
  | VDict [] => Err (sch "Dictionary cannot be empty")
  | VDict _ => Ok tt
  | _ => Err TypeError
  end.
Definition check_extended_bool (v : value) : res unit :=
  match v with
  | VBool _ => Ok tt
  | VStr x => if str_eqb x INHERIT then Ok tt else Err (sch "Invalid value")
  | _ => Err (sch "Invalid value")
  end.

Fixpoint each (f : value -> res unit) (l : list value) : res unit :=
  match l with
  | [] => Ok tt
  | x :: l' => do _ <- f x; each f l'
  end.

(** 174-178 *)
Definition check_when (e : env) (v : value) : res unit :=
  match v with
  | VStr x =>
      match parse_when (valid_ere e) x with
      | Ok _ => Ok tt
      | Err (CrazyError m) => Err (CrazyError m)
      | Err x => Err x
      end
  | _ => Err TypeError
  end.

Definition too_many : exn := sch "Too many arguments".
Definition missing_arg : exn := sch "Missing argument".

(** 181-182 *)
Definition check_void (args : list value) : res unit :=
  match args with [] => Ok tt | _ => Err too_many end.

Definition last_in (trace : list str) (l : list str) : bool :=
  match rev trace with
  | [] => false
  | t :: _ => mems t l
  end.

(** 185-190 *)
Definition check_none (trace : list str) (args : list value) : res unit :=
  do _ <- check_void args;
  if last_in trace [s "combine"; s "list"; s "prefix"] then Err (sch "Completer not allowed in")
  else Ok tt.

Definition str_or_int := [TStr; TInt].

(** 193-205 *)
Definition check_choices (args : list value) : res unit :=
  match args with
  | [VList l] => each (fun v => check_type v str_or_int) l
  | [VDict d] =>
      each (fun v => match v with
                     | VList [k; x] => do _ <- check_type k str_or_int; check_type x str_or_int
                     | _ => Err TypeError
                     end) (map (fun kv => VList [fst kv; snd kv]) d)
  | _ => Err (sch "choices")
  end.

(** An optional dictionary as only argument, the empty dictionary by default. *)
Definition opt_dict (args : list value) : res dict :=
  match args with
  | [] => Ok []
  | [VDict d] => Ok d
  | _ => Err (sch "options")
  end.

(** 208-229.  The entries found are objects, hence true. *)
Definition has_key (d : dict) (k : String.string) : bool := dmem value_eqb (VStr (s k)) d.
Definition check_command (args : list value) : res unit :=
  do d <- opt_dict args;
  do _ <- check_dictionary d
    [MkRule "path" false [TStr] check_non_empty_string;
     MkRule "path_append" false [TStr] check_non_empty_string;
     MkRule "path_prepend" false [TStr] check_non_empty_string];
  if has_key d "path" && has_key d "path_append" then Err (sch "Mutually exclusive parameters")
  else if has_key d "path" && has_key d "path_prepend"
    then Err (sch "Mutually exclusive parameters")
  else Ok tt.

(** [positional.value['number'].value] where a number is needed; a float is treated like any
    other value that is no integer. *)
Definition get_number (d : dict) : res Z :=
  match vget (s "number") d with
  | None => Err KeyError
  | Some (VInt z) => Ok z
  | Some (VBool b) => Ok (if b then 1 else 0)%Z
  | Some _ => Err TypeError
  end.

(** 248-253; [complete[0]] of something else than a list or a text is an error, and a list entry
    of a dictionary with the key 0 is not considered. *)
Definition command_is_previous (self : dict) (v : value) : res bool :=
  match v with
  | VDict p =>
      if negb (has_set p "complete") then Ok false
      else
        do is_command <-
          match vget (s "complete") p with
          | Some (VList []) => Err IndexError
          | Some (VList (x :: _)) => Ok (value_eqb x (VStr (s "command")))
          | Some (VStr []) => Err IndexError
          | Some (VStr _) => Ok false
          | Some (VDict _) => Err KeyError
          | _ => Err TypeError
          end;
        if is_command : bool then
          do n <- get_number p;
          do m <- get_number self;
          Ok (n + 1 =? m)%Z
        else Ok false
  | _ => Err TypeError
  end.
(** [any(filter(f, l))]: stops at the first hit *)
Fixpoint any_res (f : value -> res bool) (l : list value) : res bool :=
  match l with
  | [] => Ok false
  | x :: l' => do b <- f x; if b : bool then Ok true else any_res f l'
  end.

(** 232-258 *)
Definition check_command_arg (c : ctx) (trace : list str) (args : list value) : res unit :=
  do _ <- check_void args;
  if last_in trace [s "combine"; s "list"; s "key_value_list"; s "key_value_pair"]
    then Err (sch "Completer not allowed in")
  else
    match cx_positional c with
    | None => Err (sch "Completer not allowed in option")
    | Some p =>
        if negb (has_set p "repeatable")
           || negb (match vget (s "repeatable") p with Some v => truthy v | None => false end)
          then Err (sch "Completer requires repeatable")
        else
          match cx_positionals c with
          | VList l =>
              do b <- any_res (command_is_previous p) l;
              if b : bool then Ok tt else Err (sch "command_arg without command")
          | _ => Err TypeError
          end
    end.

(** 261-293 *)
Definition check_extension (v : value) : res unit :=
  do _ <- check_type v [TStr];
  do _ <- check_non_empty_string v;
  check_no_spaces v.
Definition check_glob (e : env) (v : value) : res unit :=
  do _ <- check_type v [TStr];
  do _ <- check_non_empty_string v;
  match v with
  | VStr x =>
      match glob_check e x with
      | Err (ValueError m) => Err (CrazyError m)
      | r => r
      end
  | _ => Err TypeError
  end.
Definition on_list (f : value -> res unit) (v : option value) : res unit :=
  match v with
  | Some (VList l) => each f l
  | _ => Err TypeError
  end.
Definition check_filedir (e : env) (file list_ : bool) (args : list value) : res unit :=
  do d <- opt_dict args;
  do _ <- check_dictionary d
    ([MkRule "directory" false [TStr] check_non_empty_string]
     ++ (if file then
           [MkRule "extensions" false [TList] check_non_empty_list;
            MkRule "fuzzy" false [TBool] no_check;
            MkRule "ignore_globs" false [TList] check_non_empty_list]
         else [])
     ++ (if list_ then
           [MkRule "separator" false [TStr] check_char;
            MkRule "duplicates" false [TBool] no_check]
         else []));
  do _ <- (if has_set d "extensions" then on_list check_extension (vget (s "extensions") d)
           else Ok tt);
  if has_set d "ignore_globs" then on_list (check_glob e) (vget (s "ignore_globs") d) else Ok tt.

(** 312-316 and 561-565 *)
Definition check_regex_arg (e : env) (args : list value) : res unit :=
  match args with
  | [VStr x] => check_regex e (VStr x)
  | _ => Err (sch "pattern")
  end.

(** 319-339 *)
Definition int_of (v : value) : option Z :=
  match v with
  | VInt z => Some z
  | VBool b => Some (if b then 1 else 0)%Z
  | _ => None
  end.
Definition check_range (args : list value) : res unit :=
  let check start stop step :=
    match int_of start, int_of stop, int_of step with
    | Some start, Some stop, Some step =>
        if (step =? 0)%Z then Err (sch "step: Integer cannot be zero")
        else if (step >? 0)%Z && (start >? stop)%Z then Err (sch "start > stop")
        else if (step <? 0)%Z && (stop >? start)%Z then Err (sch "stop > start")
        else Ok tt
    | _, _, _ => Err (sch "Invalid type")
    end in
  match args with
  | [start; stop] => check start stop (VInt 1)
  | [start; stop; step] => check start stop step
  | _ => Err (sch "range")
  end.

(** 342-345 *)
Definition check_exec (args : list value) : res unit :=
  match args with [VStr _] => Ok tt | _ => Err (sch "command") end.

(** 348-359 *)
Definition check_key_value_list_exec (args : list value) : res unit :=
  match args with
  | [VStr ps; VStr vs; VStr command] =>
      do _ <- check_char (VStr ps);
      do _ <- check_char (VStr vs);
      check_non_empty_string (VStr command)
  | _ => Err (sch "key_value_list_exec")
  end.
(** 362-370 *)
Definition check_key_value_pair_exec (args : list value) : res unit :=
  match args with
  | [VStr vs; VStr command] =>
      do _ <- check_char (VStr vs);
      check_non_empty_string (VStr command)
  | _ => Err (sch "key_value_pair_exec")
  end.

(** 373-396 *)
Definition check_value_list (args : list value) : res unit :=
  match args with
  | [VDict d] =>
      do _ <- check_dictionary d
        [MkRule "values" true [TList; TDict] no_check;
         MkRule "separator" false [TStr] check_char;
         MkRule "duplicates" false [TBool] no_check];
      match vget (s "values") d with
      | Some (VDict x) =>
          do _ <- check_non_empty_dict (VDict x);
          each (fun v => match v with
                         | VList [k; x] => do _ <- check_type k [TStr]; check_type x [TStr]
                         | _ => Err TypeError
                         end) (map (fun kv => VList [fst kv; snd kv]) x)
      | Some (VList l) =>
          do _ <- check_non_empty_list (VList l);
          each (fun v => check_type v [TStr]) l
      | _ => Err TypeError
      end
  | _ => Err (sch "options")
  end.

(** 433-441, 498-506 *)
Definition check_key (key description : value) : res str :=
  match key with
  | VStr k =>
      do _ <- check_type description [TStr; TNone];
      do _ <- check_non_empty_string key;
      do _ <- check_no_spaces key;
      Ok k
  | _ => Err (sch "Invalid type")
  end.
Definition check_exclude (v : value) : res unit :=
  do _ <- check_type v [TStr]; check_non_empty_string v.
Definition check_excludes (v : value) : res unit :=
  match v with
  | VList l => each check_exclude l
  | _ => Err (sch "Invalid type")
  end.

(** The loops over nested completers; [f] checks a completer. *)
Section Nested.
Variable f : list str -> value -> res (list str).

(** 450-451, 508-511: None or a list *)
Definition optional_completer (trace : list str) (v : value) : res (list str) :=
  match v with
  | VNone => Ok trace
  | _ => f trace v
  end.

(** 421-458: the trace and the keys defined *)
Fixpoint kvl_entries (trace keys : list str) (l : list value) : res (list str * list str) :=
  match l with
  | [] => Ok (trace, keys)
  | VList (key :: description :: complete :: rest) :: l' =>
      match rest with
      | [] | [_] =>
          do _ <- check_type complete [TList; TNone];
          do k <- check_key key description;
          if mems k keys then Err (sch "Duplicate key")
          else
            do trace' <- optional_completer trace complete;
            do _ <- match rest with [ex] => check_excludes ex | _ => Ok tt end;
            kvl_entries trace' (keys ++ [k]) l'
      | _ => Err (sch "List must contain exact 3/4 items")
      end
  | VList _ :: _ => Err (sch "List must contain at least 3 items")
  | _ :: _ => Err (sch "Invalid type")
  end.

(** 490-511 *)
Fixpoint kvp_entries (trace : list str) (l : list value) : res (list str) :=
  match l with
  | [] => Ok trace
  | VList [key; description; complete] :: l' =>
      do _ <- check_type complete [TList; TNone];
      do _ <- check_key key description;
      do trace' <- optional_completer trace complete;
      kvp_entries trace' l'
  | _ :: _ => Err (sch "Invalid type")
  end.

(** 527-529 *)
Fixpoint completers (trace : list str) (l : list value) : res (list str) :=
  match l with
  | [] => Ok trace
  | x :: l' => do trace' <- f trace x; completers trace' l'
  end.
End Nested.

(** 461-470 *)
Definition excludes_exist (keys : list str) (l : list value) : bool :=
  forallb (fun v => match v with
                    | VList [_; _; _; VList ex] =>
                        forallb (fun x => match x with VStr k => mems k keys | _ => false end) ex
                    | _ => true
                    end) l.

(** 404, 409, 416-417 *)
Definition check_condition_func (rest : list value) : res unit :=
  match rest with
  | [] | [VNone] => Ok tt
  | [VStr x] => check_non_empty_string (VStr x)
  | _ => Err (sch "condition_func")
  end.

(** 540-543 *)
Definition check_list_options (rest : list value) : res unit :=
  do d <- opt_dict rest;
  check_dictionary d
    [MkRule "separator" false [TStr] check_char;
     MkRule "duplicates" false [TBool] no_check].

(** 568-572 *)
Definition check_date (args : list value) : res unit :=
  match args with [VStr x] => check_non_empty_string (VStr x) | _ => Err (sch "format") end.

(** 575-585 *)
Definition check_ip_address (args : list value) : res unit :=
  match args with
  | [] => Ok tt
  | [VStr x] =>
      if mems x [s "ipv4"; s "ipv6"; s "all"; s "ipv4+"; s "ipv6+"; s "all+"]
      then Ok tt else Err (sch "Invalid value")
  | _ => Err (sch "type")
  end.

(** 588-620 *)
Definition value_gt (e : env) (a b : value) : bool :=
  match int_of a, int_of b with
  | Some x, Some y => (x >? y)%Z
  | _, _ => float_gt e a b
  end.
Definition check_suffix (kv : value * value) : res unit :=
  do _ <- check_type (fst kv) [TStr];
  do _ <- check_type (snd kv) [TStr];
  do _ <- check_non_empty_string (fst kv);
  check_non_empty_string (snd kv).
Fixpoint check_suffixes (d : dict) : res unit :=
  match d with
  | [] => Ok tt
  | kv :: d' => do _ <- check_suffix kv; check_suffixes d'
  end.
Definition check_integer_float (e : env) (types : list ty) (args : list value) : res unit :=
  do d <- opt_dict args;
  do _ <- check_dictionary d
    [MkRule "min" false types no_check;
     MkRule "max" false types no_check;
     MkRule "help" false [TStr] check_non_empty_string;
     MkRule "suffixes" false [TDict] check_non_empty_dict];
  do _ <- (match vget (s "min") d, vget (s "max") d with
           | Some a, Some b =>
               if has_set d "min" && has_set d "max" && value_gt e a b then Err (sch "min > max")
               else Ok tt
           | _, _ => Ok tt
           end);
  match vget (s "suffixes") d with
  | None | Some VNone => Ok tt
  | Some (VDict x) => check_suffixes x
  | Some _ => Err TypeError
  end.

(** 623-672 *)
Inductive completer :=
| KVoid | KNone | KChoices | KCommand | KCommandArg | KFiledir (file list_ : bool) | KRegex
| KRange | KExec | KKeyValueListExec | KKeyValuePairExec | KValueList | KDate | KIpAddress
| KNumber (types : list ty) | KCombine | KKeyValueList | KKeyValuePair | KList | KPrefix.

Definition commands : list (str * completer) :=
  [(s "alsa_card", KVoid); (s "alsa_device", KVoid); (s "charset", KVoid);
   (s "choices", KChoices); (s "combine", KCombine); (s "command", KCommand);
   (s "command_arg", KCommandArg); (s "commandline_string", KVoid); (s "date", KDate);
   (s "date_format", KVoid); (s "directory", KFiledir false false);
   (s "directory_list", KFiledir false true); (s "environment", KVoid); (s "exec", KExec);
   (s "exec_fast", KExec); (s "exec_internal", KExec); (s "file", KFiledir true false);
   (s "file_list", KFiledir true true); (s "filesystem_type", KVoid);
   (s "float", KNumber [TInt; TFloat]); (s "gid", KVoid); (s "group", KVoid);
   (s "history", KRegex); (s "hostname", KVoid); (s "integer", KNumber [TInt]);
   (s "ip_address", KIpAddress); (s "key_value_list", KKeyValueList);
   (s "key_value_list_exec", KKeyValueListExec); (s "key_value_pair", KKeyValuePair);
   (s "key_value_pair_exec", KKeyValuePairExec); (s "list", KList); (s "locale", KVoid);
   (s "login_shell", KVoid); (s "mime_file", KRegex); (s "mountpoint", KVoid);
   (s "net_interface", KVoid); (s "none", KNone); (s "pid", KVoid); (s "prefix", KPrefix);
   (s "process", KVoid); (s "range", KRange); (s "service", KVoid); (s "signal", KVoid);
   (s "timezone", KVoid); (s "uid", KVoid); (s "user", KVoid); (s "value_list", KValueList);
   (s "variable", KVoid)].

(** The completers without nested completers. *)
Definition check_simple (e : env) (c : ctx) (trace : list str) (k : completer) (args : list value)
    : res unit :=
  match k with
  | KVoid => check_void args
  | KNone => check_none trace args
  | KChoices => check_choices args
  | KCommand => check_command args
  | KCommandArg => check_command_arg c trace args
  | KFiledir file list_ => check_filedir e file list_ args
  | KRegex => check_regex_arg e args
  | KRange => check_range args
  | KExec => check_exec args
  | KKeyValueListExec => check_key_value_list_exec args
  | KKeyValuePairExec => check_key_value_pair_exec args
  | KValueList => check_value_list args
  | KDate => check_date args
  | KIpAddress => check_ip_address args
  | KNumber types => check_integer_float e types args
  | _ => Err AssertionError   (* unreachable: these are handled by [check_complete] *)
  end.

(** The completers with nested completers; [f] checks a nested completer. *)
Section Level.
Variable f : list str -> value -> res (list str).

(** 514-529 *)
Definition check_combine (trace : list str) (args : list value) : res (list str) :=
  match args with
  | [VList l] =>
      match l with
      | [] => Err (sch "List cannot be empty")
      | [_] => Err (sch "List must contain at least 2 items")
      | _ => completers f (trace ++ [s "combine"]) l
      end
  | _ => Err (sch "commands")
  end.

(** 399-470 *)
Definition check_key_value_list (trace : list str) (args : list value) : res (list str) :=
  match args with
  | VStr ps :: VStr vs :: VList l :: rest =>
      do _ <- check_char (VStr ps);
      do _ <- check_char (VStr vs);
      do _ <- check_non_empty_list (VList l);
      do _ <- check_condition_func rest;
      do (trace', keys) <- kvl_entries f (trace ++ [s "key_value_list"]) [] l;
      if excludes_exist keys l then Ok trace' else Err (sch "No such key")
  | _ => Err (sch "key_value_list")
  end.

(** 473-511 *)
Definition check_key_value_pair (trace : list str) (args : list value) : res (list str) :=
  match args with
  | VStr vs :: VList l :: rest =>
      do _ <- check_char (VStr vs);
      do _ <- check_non_empty_list (VList l);
      do _ <- check_condition_func rest;
      kvp_entries f (trace ++ [s "key_value_pair"]) l
  | _ => Err (sch "key_value_pair")
  end.

(** 532-546 *)
Definition check_list (trace : list str) (args : list value) : res (list str) :=
  match args with
  | x :: rest =>
      do _ <- check_list_options rest;
      f (trace ++ [s "list"]) x
  | _ => Err (sch "list")
  end.

(** 549-558 *)
Definition check_prefix (trace : list str) (args : list value) : res (list str) :=
  match args with
  | [VStr _; x] => f (trace ++ [s "prefix"]) x
  | _ => Err (sch "prefix")
  end.

Definition check_level (e : env) (c : ctx) (trace : list str) (k : completer) (args : list value)
    : res (list str) :=
  match k with
  | KCombine => check_combine trace args
  | KKeyValueList => check_key_value_list trace args
  | KKeyValuePair => check_key_value_pair trace args
  | KList => check_list trace args
  | KPrefix => check_prefix trace args
  | _ => do _ <- check_simple e c trace k args; Ok trace
  end.
End Level.

(** 675-689.  The trace after the check is returned: it only grows.  A completer that is no list
    is rejected here, in Python by all callers. *)
Fixpoint check_complete (e : env) (c : ctx) (trace : list str) (v : value) {struct v}
    : res (list str) :=
  match v with
  | VList [] => Err missing_arg
  | VList (VStr cmd :: args) =>
      match dget str_eqb cmd commands with
      | None => Err (sch "Unknown completer")
      | Some k => check_level (check_complete e c) e c trace k args
      end
  | _ => Err (sch "Invalid type")
  end.

(** 699: [sorted(positionals, key=number)], stable *)
Fixpoint insert_number (x : Z * dict) (l : list (Z * dict)) : list (Z * dict) :=
  match l with
  | [] => [x]
  | y :: l' => if (fst x <=? fst y)%Z then x :: l else y :: insert_number x l'
  end.
Definition sort_numbers (l : list (Z * dict)) : list (Z * dict) := fold_right insert_number [] l.
Fixpoint with_numbers (l : list value) : res (list (Z * dict)) :=
  match l with
  | [] => Ok []
  | VDict p :: l' => do n <- get_number p; do r <- with_numbers l'; Ok ((n, p) :: r)
  | _ :: _ => Err TypeError
  end.

(** 697-714: the number of the repeatable positional *)
Definition is_repeatable (p : dict) : bool :=
  match vget (s "repeatable") p with Some v => truthy v | None => false end.
Fixpoint repeatable_loop (rep : option Z) (l : list (Z * dict)) : res (option Z) :=
  match l with
  | [] => Ok rep
  | (n, p) :: l' =>
      if is_repeatable p then
        match rep with
        | Some r => if (r =? n)%Z then repeatable_loop (Some n) l'
                    else Err (sch "Too many repeatable positionals")
        | None => repeatable_loop (Some n) l'
        end
      else
        match rep with
        | Some r => if (n >? r)%Z then Err (sch "Positional argument after repeatable")
                    else repeatable_loop rep l'
        | None => repeatable_loop rep l'
        end
  end.

(** 924-1000.  The root of the tree has no definition: it is the dictionary of its
    subcommands. *)
Inductive dtree := DNode (definition : dict) (subcommands : list (str * dtree)).
Definition forest := list (str * dtree).
Definition n_def (t : dtree) := let 'DNode d _ := t in d.
Definition n_subs (t : dtree) := let 'DNode _ l := t in l.

(** 947-962 *)
Fixpoint insert_def (path : list str) (sub : str) (d : dict) (f : forest) : res forest :=
  match path with
  | [] =>
      if dmem str_eqb sub f then Err (sch "Multiple definition of program")
      else Ok (dset str_eqb sub (DNode d []) f)
  | p :: path' =>
      match dget str_eqb p f with
      | None => Err (sch "Missing definition of program")
      | Some (DNode d' f') =>
          do f'' <- insert_def path' sub d f';
          Ok (dset str_eqb p (DNode d' f'') f)
      end
  end.
(** 931-945; [validate_prog] on something else than a text is an AttributeError. *)
Definition add_definition (f : forest) (v : value) : res forest :=
  match v with
  | VDict d =>
      match vget (s "prog") d with
      | None | Some VNone => Err (sch "Missing argument: prog")
      | Some (VStr p) =>
          do _ <- validate_prog p;
          match rev (split_c SP p) with
          | [] => Err IndexError
          | sub :: rpath => insert_def (rev rpath) sub d f
          end
      | Some _ => Err AttributeError
      end
  | _ => Err (sch "Invalid type")
  end.
(** 964-973 *)
Fixpoint find_def (path : list str) (f : forest) : option dtree :=
  match path with
  | [] => None
  | [p] => dget str_eqb p f
  | p :: path' => match dget str_eqb p f with Some t => find_def path' (n_subs t) | None => None end
  end.
(** 975-985 *)
Definition get_all (t : dtree) : list dtree := t :: map snd (n_subs t).

(** 692-719 *)
Definition check_positionals_repeatable (f : forest) (d : dict) : res unit :=
  match vget (s "positionals") d with
  | None | Some VNone => Ok tt
  | Some (VList l) =>
      do numbered <- with_numbers l;
      do rep <- repeatable_loop None (sort_numbers numbered);
      match vget (s "prog") d with
      | Some (VStr p) =>
          match find_def (split_c SP p) f with
          | None => Err KeyError
          | Some node =>
              match rep with
              | Some _ => if nonempty (n_subs node) then Err (sch "Repeatable with subcommands")
                          else Ok tt
              | None => Ok tt
              end
          end
      | _ => Err TypeError
      end
  | Some _ => Err TypeError
  end.

Definition opt_str := [TStr; TNone].
Definition opt_bool := [TBool; TNone].
Definition opt_list := [TList; TNone].
Definition xbool_ty := [TBool; TStr; TNone].

Definition check_option_string (v : value) : res unit :=
  match v with
  | VStr x => if is_valid_option_string x then Ok tt else Err (sch "Invalid value")
  | _ => Err (sch "Invalid type")
  end.

Definition check_if (b : bool) (f : value -> res unit) (v : option value) : res unit :=
  if b then match v with Some x => f x | None => Err KeyError end else Ok tt.

(** 731-799; the value of [complete] is a list here. *)
Definition option_rules : list rule :=
  [MkRule "option_strings" true [TList] no_check;
   MkRule "metavar" false opt_str no_check;
   MkRule "help" false opt_str no_check;
   MkRule "optional_arg" false opt_bool no_check;
   MkRule "group" false opt_str no_check;
   MkRule "groups" false opt_list no_check;
   MkRule "repeatable" false xbool_ty check_extended_bool;
   MkRule "final" false opt_bool no_check;
   MkRule "hidden" false opt_bool no_check;
   MkRule "nosort" false opt_bool no_check;
   MkRule "complete" false opt_list no_check;
   MkRule "when" false opt_str no_check;
   MkRule "capture" false opt_str no_check;
   MkRule "long_opt_arg_sep" false [TStr] no_check].
Definition check_sep (v : value) : res unit :=
  on_str (fun x => mems x [s "space"; s "equals"; s "both"; s "INHERIT"])
         "Invalid value" v.
Definition check_option0 (e : env) (positionals : value) (v : value) : res unit :=
  match v with
  | VDict o =>
      do _ <- check_dictionary o option_rules;
      do _ <- check_if true check_non_empty_list (vget (s "option_strings") o);
      do _ <- on_list check_option_string (vget (s "option_strings") o);
      if has_set o "metavar" && negb (has_set o "complete")
        then Err (sch "metavar requires complete")
      else if is_true o "optional_arg" && negb (has_set o "complete")
        then Err (sch "optional_arg requires complete")
      else if is_true o "repeatable" && is_true o "hidden"
        then Err (sch "Mutually exclusive parameters: repeatable, hidden")
      else if has_set o "group" && has_set o "groups"
        then Err (sch "Mutually exclusive parameters: groups, group")
      else
        do _ <- (if has_set o "groups" then on_list (fun g => check_type g [TStr]) (vget (s "groups") o)
                 else Ok tt);
        do _ <- check_if (has_set o "complete")
                  (fun x => do _ <- check_complete e (MkCtx None positionals) [] x; Ok tt)
                  (vget (s "complete") o);
        do _ <- check_if (has_set o "when") (check_when e) (vget (s "when") o);
        do _ <- check_if (has_set o "capture") check_variable_name (vget (s "capture") o);
        check_if (has_set o "long_opt_arg_sep") check_sep (vget (s "long_opt_arg_sep") o)
  | _ => Err (sch "Invalid type")
  end.

(** 802-813: to name the option in the message its option strings are joined; the characters of
    a text have no attribute [value]. *)
Definition option_error (v : value) (x : exn) : exn :=
  match x, v with
  | CrazyError _, VDict o =>
      match vget (s "option_strings") o with
      | Some (VStr (_ :: _)) => AttributeError
      | _ => x
      end
  | _, _ => x
  end.
Definition check_option (e : env) (positionals : value) (v : value) : res unit :=
  match check_option0 e positionals v with
  | Err x => Err (option_error v x)
  | r => r
  end.

(** 816-864.  A positional that is no dictionary gives a TypeError while the error message is
    built (857). *)
Definition positional_rules : list rule :=
  [MkRule "number" true [TInt] no_check;
   MkRule "metavar" false opt_str no_check;
   MkRule "help" false opt_str no_check;
   MkRule "repeatable" false opt_bool no_check;
   MkRule "nosort" false opt_bool no_check;
   MkRule "complete" false opt_list no_check;
   MkRule "when" false opt_str no_check;
   MkRule "capture" false opt_str no_check].
Definition check_positional (e : env) (positionals : value) (v : value) : res unit :=
  match v with
  | VDict p =>
      do _ <- check_dictionary p positional_rules;
      do n <- get_number p;
      if (n <? 1)%Z then Err (sch "number: Integer must be greater than zero")
      else
        do _ <- check_if (has_set p "complete")
                  (fun x => do _ <- check_complete e (MkCtx (Some p) positionals) [] x; Ok tt)
                  (vget (s "complete") p);
        do _ <- check_if (has_set p "when") (check_when e) (vget (s "when") p);
        check_if (has_set p "capture") check_variable_name (vget (s "capture") p)
  | _ => Err TypeError
  end.

(** 867-921 *)
Definition definition_rules : list rule :=
  [MkRule "prog" true [TStr] no_check;
   MkRule "help" false opt_str no_check;
   MkRule "aliases" false opt_list no_check;
   MkRule "wraps" false opt_str no_check;
   MkRule "abbreviate_commands" false xbool_ty check_extended_bool;
   MkRule "abbreviate_options" false xbool_ty check_extended_bool;
   MkRule "inherit_options" false xbool_ty check_extended_bool;
   MkRule "options" false opt_list no_check;
   MkRule "positionals" false opt_list no_check].
Definition check_wraps (d : dict) (v : value) : res unit :=
  do _ <- check_non_empty_string v;
  do _ <- check_no_spaces v;
  match vget (s "prog") d with
  | Some (VStr p) => if contains_space p then Err (sch "wraps not allowed in subcommand") else Ok tt
  | _ => Err TypeError
  end.
Definition check_definition (e : env) (d : dict) : res unit :=
  do _ <- check_dictionary d definition_rules;
  do _ <- check_if true (fun v => match v with VStr p => validate_prog p | _ => Err TypeError end)
            (vget (s "prog") d);
  do _ <- (if has_set d "aliases" then on_list check_extension (vget (s "aliases") d) else Ok tt);
  do _ <- check_if (has_set d "wraps") (check_wraps d) (vget (s "wraps") d);
  do _ <- (if has_set d "options"
           then on_list (check_option e (getd (s "positionals") VNone d)) (vget (s "options") d)
           else Ok tt);
  if has_set d "positionals"
  then on_list (check_positional e (getd (s "positionals") VNone d)) (vget (s "positionals") d)
  else Ok tt.

(** 1003-1022 *)
Fixpoint check_nodes (e : env) (f : forest) (l : list dtree) : res unit :=
  match l with
  | [] => Ok tt
  | t :: l' =>
      do _ <- check_definition e (n_def t);
      do _ <- check_positionals_repeatable f (n_def t);
      check_nodes e f l'
  end.
Definition validate (e : env) (docs : list value) : res unit :=
  do f <- fold_res add_definition docs [];
  match f with
  | [] => Err (sch "No programs defined")
  | [(_, t)] => check_nodes e f (get_all t)
  | _ => Err (sch "Too many programs defined")
  end.
