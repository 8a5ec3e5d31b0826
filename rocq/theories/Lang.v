(** * Model of the choice of the language: messages.py 14-43 and the test in each message. *)
From Verif Require Import Base.
Open Scope list_scope.

(** messages.py 14-20: [None] and the empty text are both false.  Simplification: [lower] for ASCII;
    no other character becomes [d] or [e] in lower case, so the test for [de] is not changed. *)
Definition normalize_lang (code : option str) : str :=
  match code with
  | None | Some [] => s "en"
  | Some x => lower (hd [] (split_c 46%N (hd [] (split_c 95%N x))))
  end.

(** [a or b] for two values that are [None] or a text *)
Definition or_ (a b : option str) : option str := match a with None | Some [] => b | Some x => Some x end.

(** messages.py 23-40: [env] is [os.environ.get]; [system] is what [locale.setlocale] and
    [locale.getlocale] do if they are called: an error, or a language that may be [None]. *)
Definition get_lang (env : str -> option str) (system : res (option str)) : res str :=
  let lang := or_ (or_ (or_ (env (s "LANGUAGE")) (env (s "LC_ALL"))) (env (s "LC_MESSAGES"))) (env (s "LANG")) in
  match lang with
  | None | Some [] =>
      do lang <- system;
      Ok (normalize_lang (match lang with None | Some [] => Some (s "en") | Some x => Some x end))
  | Some x => Ok (normalize_lang (Some x))
  end.

(** messages.py 43-241: each function: the text in German if [LANG == 'de'], else in English *)
Definition message (env : str -> option str) (system : res (option str)) (german english : str) : res str :=
  do lang <- get_lang env system;
  Ok (if str_eqb lang (s "de") then german else english).
