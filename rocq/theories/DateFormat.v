(** * Model of the helper [date_format] of crazy_complete/fish_helpers.py (983-1029).

    What is typed comes from [get_completing_arg] ([PrefixCompleter.completing_arg]).  [string sub
    -s -1 -l 1] gives the last character, or nothing of an empty text. *)
From Verif Require Import Base PrefixCompleter.
Open Scope string_scope.
Open Scope list_scope.

(** 988-1027 *)
Definition conversions : list (String.string * String.string) :=
  [("a", "abbreviated day name");
   ("A", "full day name");
   ("b", "abbreviated month name");
   ("h", "abbreviated month name");
   ("B", "full month name");
   ("c", "preferred locale date and time");
   ("C", "2-digit century");
   ("d", "day of month (01-31)");
   ("D", "American format month/day/year (%m/%d/%y)");
   ("e", "day of month ( 1-31)");
   ("F", "ISO 8601 year-month-date (%Y-%m-%d)");
   ("G", "4-digit ISO 8601 week-based year");
   ("g", "2-digit ISO 8601 week-based year");
   ("H", "hour (00-23)");
   ("I", "hour (01-12)");
   ("j", "day of year (001-366)");
   ("k", "hour ( 0-23)");
   ("l", "hour ( 1-12)");
   ("m", "month (01-12)");
   ("M", "minute (00-59)");
   ("n", "newline");
   ("p", "locale dependent AM/PM");
   ("r", "locale dependent a.m. or p.m. time (%I:%M:%S %p)");
   ("R", "24-hour notation time (%H:%M)");
   ("s", "seconds since the epoch");
   ("S", "seconds (00-60)");
   ("t", "tab");
   ("T", "24-hour notation with seconds (%H:%M:%S)");
   ("u", "day of week (1-7, 1=Monday)");
   ("U", "week number of current year, Sunday based (00-53)");
   ("V", "ISO 8601 week number of current year, week 1 has 4 days in current year (01-53)");
   ("w", "day of week (0-6, 0=Sunday)");
   ("W", "week number of current year, Monday based (00-53)");
   ("x", "locale dependent date representation without time");
   ("X", "locale dependent time representation without date");
   ("y", "2-digit year (00-99)");
   ("Y", "full year");
   ("z", "UTC offset");
   ("Z", "timezone name");
   ("%", "literal %")].

(** 986 *)
Definition last_char (x : str) : str := skipn (List.length x - 1) x.
(** 986-1028: the lines [text TAB description] *)
Definition date_format_lines (comp : str) : list str :=
  if str_eqb (last_char comp) (s "%") then
    map (fun '(c, d) => comp ++ s c ++ [TAB] ++ s d) conversions
  else [].
Definition date_format (arg : str) (strip : option str) : list str := date_format_lines (completing_arg arg strip).
