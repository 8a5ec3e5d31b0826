(** * The helper functions that come with crazy-complete.

    The text of every [ShellFunction(...)] and [FishFunction(...)] that the constructors of
    [BashHelpers], [FishHelpers] and [ZshHelpers] register, in the order of registration: name,
    code, dependencies.  The Python string literals are copied with their escapes resolved. *)
From Verif Require Import Base Helpers.
Local Open Scope string_scope.
Local Open Scope list_scope.

(** The arguments of [ShellFunction] or [FishFunction]: name, code and dependencies. *)
Definition arguments : Type := String.string * String.string * list String.string.
Definition fn (a : arguments) : func :=
  let '(name, code, deps) := a in new_function (s name) (s code) (List.map s deps).

(** bash_helpers.py: the functions registered in lines 808-842 *)

(** bash_helpers.py 8 *)
Definition bash_values : arguments := ("values", "
local word append=0

[[ ""$1"" == ""-a"" ]] && { shift; append=1; }
[[ ""$1"" == ""--"" ]] && { shift; }

(( append )) || COMPREPLY=()

for word; do
  if [[ ""$word"" == ""$cur""* ]]; then
    COMPREPLY+=(""$(printf '%q' ""$word"")"")
  fi
done
",
  []).

(** bash_helpers.py 23 *)
Definition bash_dequote : arguments := ("dequote", "
local in=""$1"" len=${#1} i=0 result='' ___break_pos=-1 ___in_quotes=0

for ((; i < len; ++i)); do
  case ""${in:i:1}"" in
    ""'"")
      ___in_quotes=1
      for ((++i; i < len; ++i)); do
        [[ ""${in:i:1}"" == ""'"" ]] && { ___in_quotes=0; break; }
        result+=""${in:i:1}""
      done;;
    '""')
      ___in_quotes=1
      for ((++i; i < len; ++i)); do
        [[ ""${in:i:1}"" == '""' ]] && { ___in_quotes=0; break; }

        if [[ ""${in:i:1}"" == '\' ]]; then
          result+=""${in:$((++i)):1}""
        else
          result+=""${in:i:1}""
        fi
      done;;
    '\')
      result+=""${in:$((++i)):1}"";;
    [$COMP_WORDBREAKS])
      result+=""${in:i:1}""
      ___break_pos=${#result};;
    *)
      result+=""${in:i:1}"";;
  esac
done

local -n ___RESULT=$2
local -n ___BREAK_POS=$3
local -n ___IN_QUOTES=$4
___RESULT=""$result""
___BREAK_POS=$___break_pos
___IN_QUOTES=$___in_quotes
",
  []).

(** bash_helpers.py 63 *)
Definition bash_dequote_words : arguments := ("dequote_words", "
local word dequoted break_pos in_quotes

words_dequoted=()

for word in ""${words[@]}""; do
  dequote ""$word"" dequoted break_pos in_quotes
  words_dequoted+=(""$dequoted"")
done
",
  ["dequote"]).

(** bash_helpers.py 627 *)
Definition bash_prefix : arguments := ("prefix", "
local prefix=""$1"" func=""$2""
local stripped=""$(strip_prefix_keep_quoting ""$prefix"" ""$cur"")""

if [[ ""$stripped"" == ""$cur"" ]]; then
  COMPREPLY=($(compgen -W ""$1"" -- ""$cur""))
  compopt -o nospace
  return
fi

local break_position=$(get_last_break_position ""$cur"")

local cur_old=""$cur"" cur=""$stripped""
$func

if (( break_position < 0 )); then
  for i in ""${!COMPREPLY[@]}""; do
    COMPREPLY[i]=""$prefix${COMPREPLY[i]}""
  done
fi
",
  ["get_last_break_position"; "strip_prefix_keep_quoting"]).

(** bash_helpers.py 649 *)
Definition bash_strip_prefix_keep_quoting : arguments := ("strip_prefix_keep_quoting", "
local p=""$1"" pi=0 plen=${#1}
local s=""$2"" si=0 slen=${#2} state=w

for (( pi=0; pi < plen; ++pi )); do
  pc=${p:pi:1}
  sc=''

  while (( si < slen )); do
    case ""$state"" in
      w)
        case ""${s:si:1}"" in
          '""') state=dq; ((++si));;
          ""'"") state=sq; ((++si));;
          '\')           ((++si)); sc=""${s:si:1}""; ((++si));   break;;
          *)             sc=""${s:si:1}""; ((++si));             break;;
        esac;;
      sq)
        case ""${s:si:1}"" in
          ""'"") state=w;  ((++si));;
          *)             sc=""${s:si:1}""; ((++si));             break;;
        esac;;
      dq)
        case ""${s:si:1}"" in
          '""') state=w;  ((++si));;
          '\')           ((++si)); sc=""${s:si:1}""; ((++si));   break;;
          *)             sc=""${s:si:1}""; ((++si));             break;;
        esac;;
    esac
  done

  [[ ""$pc"" != ""$sc"" ]] && { echo ""$s""; return; }
done

case ""$state"" in
  w)  printf '%s\n' ""${s:si}"";;
  sq) printf '%s\n' ""'${s:si}"";;
  dq) printf '%s\n' ""\""${s:si}"";;
esac
",
  []).

(** bash_helpers.py 227 *)
Definition bash_array_contains : arguments := ("array_contains", "
local w='' search=""$1""; shift;
for w; do [[ ""$search"" == ""$w"" ]] && return 0; done
return 1
",
  []).

(** bash_helpers.py 233 *)
Definition bash_array_contains_nocase : arguments := ("array_contains_nocase", "
local w='' search=""${1,,}""; shift;
for w; do [[ ""$search"" == ""${w,,}"" ]] && return 0; done
return 1
",
  []).

(** bash_helpers.py 239 *)
Definition bash_array_match : arguments := ("array_match", "
local shopt_arg='-u'
[[ ""$1"" == ""-i"" ]] && { shopt_arg='-s'; shift; }
[[ ""$1"" == ""--"" ]] && shift
local w='' regex=""$1""; shift
(
  shopt $shopt_arg nocasematch
  for w; do [[ ""$w"" =~ $regex ]] && return 0; done
  return 1
)
",
  []).

(** bash_helpers.py 600 *)
Definition bash_get_last_break_position : arguments := ("get_last_break_position", "
local in=""$1"" i=0 len=${#1} pos=-1

for ((i=0; i < len; ++i)); do
  case ""${in:i:1}"" in
    '""')
      for ((++i; i < len; ++i)); do
        if [[ ""${in:i:1}"" == '\' ]]; then
          ((++i))
        elif [[ ""${in:i:1}"" == '""' ]]; then
          break;
        fi
      done;;
    ""'"")
      for ((++i; i < len; ++i)); do
        [[ ""${in:i:1}"" == ""'"" ]] && break;
      done;;
    '\')
      ((++i));;
    [$COMP_WORDBREAKS])
      pos=$i;;
  esac
done

echo $pos
",
  []).

(** bash_helpers.py 74 *)
Definition bash_parse_line : arguments := ("parse_line", "
local -n out=""$1""
local in=""$2"" len=${#2} i=0 word='' active=0

if (( len == 0 )); then
  out+=('')
  return
fi

for ((i=0; i < len; ++i)); do
  case ""${in:i:1}"" in
    ' ')
      if (( active )); then
        out+=(""$word"")
        word=''
        active=0;
      fi;;
    '""')
      for ((; i < len; ++i)); do
        if [[ ""${in:i:1}"" == '\' ]]; then
          word+=""${in:$((++i)):1}""
        else
          word+=""${in:i:1}""
          [[ ""${in:i:1}"" == '""' ]] && break;
        fi
      done
      active=1;;
    ""'"")
      for ((; i < len; ++i)); do
        word+=""${in:i:1}""
        [[ ""${in:i:1}"" == ""'"" ]] && break;
      done
      active=1;;
    '\')
      word+='\'
      word+=""${in:$((++i)):1}""
      active=1;;
    *)
      word+=""${in:i:1}""
      active=1;;
  esac
done

if (( active )); then
  out+=(""$word"")
elif [[ ""${in:$((len - 1)):1}"" == ' ' ]]; then
  out+=('')
fi
",
  []).

(** bash_helpers.py 124 *)
Definition bash_get_prefix_suffix_len : arguments := ("get_prefix_suffix_len", "
local s1=""$1""
local s2=""$2""

local len1=${#s1}
local len2=${#s2}

local maxk=$len1
if (( len2 < maxk )); then
  maxk=$len2
fi

local k=$maxk
while (( k > 0 )); do
  local start=$((len1 - k))
  local suf=""${s1:start:k}""
  local pre=""${s2:0:k}""

  if [[ ""$suf"" == ""$pre"" ]]; then
    if (( len1 == k )); then
      echo 0
    else
      echo $((len1-k))
    fi

    return
  fi

  ((k--))
done

echo ${#s1}
",
  []).

(** bash_helpers.py 158 *)
Definition bash_commandline_string : arguments := ("commandline_string", "
local l line break_pos in_quotes
dequote ""$cur"" line break_pos in_quotes

local COMP_LINE_OLD=""$COMP_LINE""
local COMP_POINT_OLD=$COMP_POINT
local COMP_WORDS_OLD=(""${COMP_WORDS[@]}"")
local COMP_CWORD_OLD=$COMP_CWORD

COMP_LINE=""$line""
COMP_POINT=${#line}
COMP_WORDS=()
parse_line COMP_WORDS ""$line""
COMP_CWORD=$(( ${#COMP_WORDS[@]} - 1 ))
COMPREPLY=()

#ifdef bash_completions_v_2_12
_comp_command_offset 0
#else
_command_offset 0
#endif
compopt -o nospace
compopt -o noquote

if (( break_pos >= 0 )); then
  line=""${line:break_pos}""
fi

if (( ${#COMPREPLY[@]} )); then
  local len=$(get_prefix_suffix_len ""$line"" ""${COMPREPLY[0]}"")
  line=""${line:0:len}""

  for i in ""${!COMPREPLY[@]}""; do
    local REPLY=""${COMPREPLY[i]}""
    if (( in_quotes )); then
      COMPREPLY[i]=""$line$REPLY""
    else
      COMPREPLY[i]=""$(printf '%q' ""$line$REPLY"")""
    fi
  done
fi

COMP_LINE=""$COMP_LINE_OLD""
COMP_POINT=$COMP_POINT_OLD
COMP_WORDS=(""${COMP_WORDS_OLD[@]}"")
COMP_CWORD=$COMP_CWORD_OLD
",
  ["dequote"; "parse_line"; "get_prefix_suffix_len"]).

(** bash_helpers.py 206 *)
Definition bash_exec : arguments := ("exec", "
local item desc special=""$COMP_WORDBREAKS\""'><=;|&({:\\\$\`""

while IFS=$'\t' read -r item desc; do
  if [[ ""$item"" == ""$cur""* ]]; then
    [[ ""$item"" == *[$special]* ]] && item=""$(printf '%q' ""$item"")""
    COMPREPLY+=(""$item"")
  fi
done < <(eval ""$1"")
",
  []).

(** bash_helpers.py 217 *)
Definition bash_exec_fast : arguments := ("exec_fast", "
local item desc

while IFS=$'\t' read -r item desc; do
  if [[ ""$item"" == ""$cur""* ]]; then
    COMPREPLY+=(""$item"")
  fi
done < <(eval ""$1"")
",
  []).

(** bash_helpers.py 251 *)
Definition bash_value_list : arguments := ("value_list", "
#ifdef duplicates
local duplicates=0
[[ ""$1"" == '-d' ]] && { duplicates=1; shift; }
#endif
local separator=""$1""; shift

compopt -o nospace

local cur_unquoted break_pos in_quotes
dequote ""$cur"" cur_unquoted break_pos in_quotes

if [[ -z ""$cur_unquoted"" ]]; then
  COMPREPLY=(""$@"")
  return
fi

local value having_value having_values=() remaining_values=()

IFS=""$separator"" read -r -a having_values <<< ""$cur_unquoted""

#ifdef duplicates
if (( duplicates )); then
  remaining_values=(""$@"")
else
  for value; do
    if ! array_contains ""$value"" ""${having_values[@]}""; then
      remaining_values+=(""$value"")
    fi
  done
fi
#else
for value; do
  if ! array_contains ""$value"" ""${having_values[@]}""; then
    remaining_values+=(""$value"")
  fi
done
#endif

COMPREPLY=()

local cur_stripped=""$cur_unquoted""
if (( break_pos > -1 )); then
  cur_stripped=""${cur_stripped:break_pos}""
fi

if [[ ""${cur_unquoted: -1}"" == ""$separator"" ]]; then
  for value in ""${remaining_values[@]}""; do
    COMPREPLY+=(""$cur_stripped$value"")
  done
elif (( ${#remaining_values[@]} )); then
  if array_contains ""${having_values[-1]}"" ""$@""; then
    COMPREPLY+=(""$cur_stripped$separator"")
  elif (( ${#having_values[@]} )); then
    local cur_last_value=${having_values[-1]}
    cur_stripped=""${cur_stripped%""$cur_last_value""}""

    for value in ""${remaining_values[@]}""; do
      if [[ ""$value"" == ""$cur_last_value""* ]]; then
        COMPREPLY+=(""$cur_stripped$value"")
      fi
    done
  fi
fi
",
  ["dequote"; "array_contains"]).

(** bash_helpers.py 317 *)
Definition bash_key_value_list : arguments := ("key_value_list", "
local sep1=""$1""; shift
local sep2=""$1""; shift
local -A funcs=()
local -A excludes=()
local i

for ((i=1; i <= $#; i += 3)); do
  funcs[""${@:i:1}""]=""${@:i + 1:1}""
  excludes[""${@:i:1}""]=""${@:i + 2:1}""
done

local strip_chars=''
[[ ""$COMP_WORDBREAKS"" == *""$sep1""* ]] && strip_chars+=""$sep1""
[[ ""$COMP_WORDBREAKS"" == *""$sep2""* ]] && strip_chars+=""$sep2""
[[ ""${cur:0:1}"" == '""' ]] && strip_chars=''
[[ ""${cur:0:1}"" == ""'"" ]] && strip_chars=''
local cur=""$cur"" break_pos in_quotes
dequote ""$cur"" cur break_pos in_quotes

if [[ -z ""$cur"" ]]; then
  COMPREPLY=(""${!funcs[@]}"")
  return
fi

local pair key value found_key cur_stripped=""$cur""
local -a tmp having_pairs having_keys remaining_keys

IFS=""$sep1"" read -r -a having_pairs <<< ""$cur""

for pair in ""${having_pairs[@]}""; do
  key=""${pair%%""$sep2""*}""
  IFS=' ' read -r -a tmp <<< ""${excludes[$key]}""
  having_keys+=(""${tmp[@]}"")
done

for key in ""${!funcs[@]}""; do
  found_key=0

  for having_key in ""${having_keys[@]}""; do
    if [[ ""$key"" == ""$having_key"" ]]; then
      found_key=1
      break
    fi
  done

  if (( ! found_key )); then
    remaining_keys+=(""$key"")
  fi
done

COMPREPLY=()

if [[ ""${cur: -1}"" == ""$sep1"" ]]; then
  [[ -n ""$strip_chars"" ]] && cur_stripped=""${cur_stripped##*[$strip_chars]}""

  for key in ""${remaining_keys[@]}""; do
    COMPREPLY+=(""$cur_stripped$key"")
  done
else
  pair=""${cur##*""$sep1""}""
  if [[ ""$pair"" == *""$sep2""* ]]; then
    key=""${pair%%""$sep2""*}""
    value=""${pair#*""$sep2""}""
    cur=""$value""
    ${funcs[$key]}

    cur_stripped=""${cur_stripped:0:$(( ${#cur_stripped} - ${#value} ))}""
    if [[ -n ""$strip_chars"" ]]; then
        cur_stripped=""${cur_stripped##*[$strip_chars]}""
    fi

    for i in ""${!COMPREPLY[@]}""; do
      COMPREPLY[i]=""$cur_stripped${COMPREPLY[i]}""
    done
  else
    [[ -n ""$strip_chars"" ]] && cur_stripped=""${cur_stripped##*[$strip_chars]}""
    cur_stripped=""${cur_stripped%""$pair""}""

    for key in ""${remaining_keys[@]}""; do
      if [[ ""$key"" == ""$pair""* ]]; then
        COMPREPLY+=(""$cur_stripped$key"")
      fi
    done
  fi
fi
",
  ["dequote"]).

(** bash_helpers.py 405 *)
Definition bash_key_value_pair : arguments := ("key_value_pair", "
local sep=""$1""; shift
local -A funcs=()
local i

for ((i=1; i <= $#; i += 2)); do
  funcs[""${@:i:1}""]=""${@:i + 1:1}""
done

local strip_chars=''
[[ ""$COMP_WORDBREAKS"" == *""$sep""* ]] && strip_chars+=""$sep""
[[ ""${cur:0:1}"" == '""' ]] && strip_chars=''
[[ ""${cur:0:1}"" == ""'"" ]] && strip_chars=''
local cur=""$cur"" break_pos in_quotes
dequote ""$cur"" cur break_pos in_quotes

local key=""${cur%%""$sep""*}"" value=""${cur#*""$sep""}"" cur_stripped=""$cur""

COMPREPLY=()

if [[ ""$cur"" != *""$sep""* ]]; then
  values ""${!funcs[@]}""
elif array_contains ""$key"" ""${!funcs[@]}""; then
  cur=""$value""
  ${funcs[$key]}

  cur_stripped=""${cur_stripped:0:$(( ${#cur_stripped} - ${#value} ))}""
  if [[ -n ""$strip_chars"" ]]; then
      cur_stripped=""${cur_stripped##*[$strip_chars]}""
  fi

  for i in ""${!COMPREPLY[@]}""; do
    COMPREPLY[i]=""$cur_stripped${COMPREPLY[i]}""
  done
fi
",
  ["dequote"; "array_contains"; "values"]).

(** bash_helpers.py 474 *)
Definition bash_key_value_list_exec : arguments := ("key_value_list_exec", "
local sep1=""$1""
local sep2=""$2""
local func=""$3""
local -A excludes=()
local -A takes_arg=()
local key desc exclude non_repeatable_exclude

while IFS=$'\t' read -r key desc exclude; do
  local has_arg=false

  if [[ ""$key"" == *'=' ]]; then
    key=""${key:0:-1}""
    has_arg=true
  elif [[ ""$key"" == *'=?' ]]; then
    key=""${key:0:-2}""
  fi

  if [[ ""$key"" == '*'* ]]; then
    key=""${key:1}""
    non_repeatable_exclude=''
  else
    non_repeatable_exclude="" $key""
  fi

  takes_arg[$key]=$has_arg
  excludes[$key]=""$exclude$non_repeatable_exclude""
done < <($func)

local strip_chars=''
[[ ""$COMP_WORDBREAKS"" == *""$sep1""* ]] && strip_chars+=""$sep1""
[[ ""$COMP_WORDBREAKS"" == *""$sep2""* ]] && strip_chars+=""$sep2""
[[ ""${cur:0:1}"" == '""' ]] && strip_chars=''
[[ ""${cur:0:1}"" == ""'"" ]] && strip_chars=''
local cur=""$cur"" break_pos in_quotes
dequote ""$cur"" cur break_pos in_quotes

if [[ -z ""$cur"" ]]; then
  COMPREPLY=(""${!excludes[@]}"")
  return
fi

local pair key value found_key cur_stripped=""$cur""
local -a tmp having_pairs having_keys remaining_keys

IFS=""$sep1"" read -r -a having_pairs <<< ""$cur""

for pair in ""${having_pairs[@]}""; do
  key=""${pair%%""$sep2""*}""
  IFS=' ' read -r -a tmp <<< ""${excludes[$key]}""
  having_keys+=(""${tmp[@]}"")
done

for key in ""${!excludes[@]}""; do
  found_key=0

  for having_key in ""${having_keys[@]}""; do
    if [[ ""$key"" == ""$having_key"" ]]; then
      found_key=1
      break
    fi
  done

  if (( ! found_key )); then
    remaining_keys+=(""$key"")
  fi
done

COMPREPLY=()

if [[ ""${cur: -1}"" == ""$sep1"" ]]; then
  [[ -n ""$strip_chars"" ]] && cur_stripped=""${cur_stripped##*[$strip_chars]}""

  for key in ""${remaining_keys[@]}""; do
    COMPREPLY+=(""$cur_stripped$key"")
  done
else
  pair=""${cur##*""$sep1""}""
  if [[ ""$pair"" == *""$sep2""* ]]; then
    key=""${pair%%""$sep2""*}""
    value=""${pair#*""$sep2""}""
    cur=""$value""
    exec ""$func $key""

    cur_stripped=""${cur_stripped:0:$(( ${#cur_stripped} - ${#value} ))}""
    if [[ -n ""$strip_chars"" ]]; then
        cur_stripped=""${cur_stripped##*[$strip_chars]}""
    fi

    for i in ""${!COMPREPLY[@]}""; do
      COMPREPLY[i]=""$cur_stripped${COMPREPLY[i]}""
    done
  else
    [[ -n ""$strip_chars"" ]] && cur_stripped=""${cur_stripped##*[$strip_chars]}""
    cur_stripped=""${cur_stripped%""$pair""}""

    for key in ""${remaining_keys[@]}""; do
      if [[ ""$key"" == ""$pair""* ]]; then
        COMPREPLY+=(""$cur_stripped$key"")
      fi
    done
  fi
fi
",
  ["dequote"; "exec"]).

(** bash_helpers.py 442 *)
Definition bash_key_value_pair_exec : arguments := ("key_value_pair_exec", "
local sep=""$1""
local func=""$2""

local strip_chars=''
[[ ""$COMP_WORDBREAKS"" == *""$sep""* ]] && strip_chars+=""$sep""
[[ ""${cur:0:1}"" == '""' ]] && strip_chars=''
[[ ""${cur:0:1}"" == ""'"" ]] && strip_chars=''
local cur=""$cur"" break_pos in_quotes
dequote ""$cur"" cur break_pos in_quotes

local key=""${cur%%""$sep""*}"" value=""${cur#*""$sep""}"" cur_stripped=""$cur""

COMPREPLY=()

if [[ ""$cur"" != *""$sep""* ]]; then
  exec ""$func""
else
  cur=""$value""
  exec ""$func $key""

  cur_stripped=""${cur_stripped:0:$(( ${#cur_stripped} - ${#value} ))}""
  if [[ -n ""$strip_chars"" ]]; then
      cur_stripped=""${cur_stripped##*[$strip_chars]}""
  fi

  for i in ""${!COMPREPLY[@]}""; do
    COMPREPLY[i]=""$cur_stripped${COMPREPLY[i]}""
  done
fi
",
  ["dequote"; "exec"]).

(** bash_helpers.py 730 *)
Definition bash_file_filter : arguments := ("file_filter", "
local pattern REPLY COMPREPLY_OLD=(""${COMPREPLY[@]}"")

COMPREPLY=()

for REPLY in ""${COMPREPLY_OLD[@]}""; do
  for pattern; do
    [[ ""${REPLY##*/}"" == $pattern ]] && continue 2
  done

  COMPREPLY+=(""$REPLY"")
done
",
  []).

(** bash_helpers.py 579 *)
Definition bash_prefix_compreply : arguments := ("prefix_compreply", "
[[ ""$cur"" == *[$COMP_WORDBREAKS]* ]] && return

local i prefix=""$1""
for ((i=0; i < ${#COMPREPLY[@]}; ++i)); do
  COMPREPLY[i]=""$prefix${COMPREPLY[i]}""
done
",
  []).

(** bash_helpers.py 588 *)
Definition bash_history : arguments := ("history", "
[[ -f ""$HISTFILE"" ]] || return

local match

while read -r match; do
  if [[ ""$match"" == ""$cur""* ]]; then
    COMPREPLY+=(""$(printf '%q' ""$match"")"")
  fi
done < <(command grep -E -o -- ""$1"" ""$HISTFILE"")
",
  []).

(** bash_helpers.py 744 *)
Definition bash_number : arguments := ("number", "
local number=""$(command grep -E -o '^[0-9,.]+' <<< ""$cur"")"" suffix_and_desc

[[ -z ""$number"" ]] && return

COMPREPLY=(""$number"")

for suffix_and_desc; do
  COMPREPLY+=(""${number}${suffix_and_desc%%:*}"")
done
",
  []).

(** bash_helpers.py 690 *)
Definition bash_mime_file : arguments := ("mime_file", "
local line file mime i_opt cur_dequoted

if command file -i /dev/null &>/dev/null; then
  i_opt=""-i""
elif command file -I /dev/null &>/dev/null; then
  i_opt=""-I""
else
#ifdef bash_completions_v_2_12
  _comp_compgen_filedir
#else
  _filedir
#endif
  return
fi

local cur_dequoted break_pos in_quotes
dequote ""$cur"" cur_dequoted break_pos in_quotes

while read -r line; do
  mime=""${line##*:}""

  if [[ ""$mime"" == *inode/directory* ]] || command grep -q -E -- ""$1"" <<< ""$mime""; then
    file=""${line%:*}""

    if [[ ""$file"" == *\\* ]]; then
      file=""$(command perl -pe 's/\\([0-7]{3})/chr(oct($1))/ge' <<< ""$file"")""
    fi

    if [[ ""$mime"" == *inode/directory* ]]; then
      file=""$file/""
    fi

    if [[ ""$file"" == ""$cur_dequoted""* ]]; then
      COMPREPLY+=(""$(printf '%q' ""$file"")"")
    fi
  fi
done < <(command file -L $i_opt -- ""$cur_dequoted""* 2>/dev/null)
",
  ["dequote"]).

(** bash_helpers.py 760 *)
Definition bash_mountpoint : arguments := ("mountpoint", "
local REPLY

COMPREPLY=()

while read -r REPLY; do
  COMPREPLY+=(""$(printf '%q' ""$REPLY"")"")
done < <(command findmnt -lno TARGET)
",
  []).

(** bash_helpers.py 770 *)
Definition bash_locales : arguments := ("locales", "
COMPREPLY=($(compgen -W ""$(command locale -a)"" -- ""$cur""))
",
  []).

(** bash_helpers.py 774 *)
Definition bash_charsets : arguments := ("charsets", "
COMPREPLY=($(compgen -W ""$(command locale -m)"" -- ""$cur""))
",
  []).

(** bash_helpers.py 778 *)
Definition bash_timezone_list : arguments := ("timezone_list", "
if ! command timedatectl list-timezones 2>/dev/null; then
  command find /usr/share/zoneinfo -type f |\
  command sed 's|/usr/share/zoneinfo/||g'  |\
  command grep -E -v '^(posix|right)'
fi",
  []).

(** bash_helpers.py 785 *)
Definition bash_alsa_list_cards : arguments := ("alsa_list_cards", "
local card id cards=()
while builtin read card; do
  card=""${card#card }""
  id=""${card%%: *}""
  cards+=(""$id"")
done < <(command aplay -l | command grep -Eo '^card [0-9]+: [^,]+')

COMPREPLY=($(compgen -W ""${cards[*]}"" -- ""$cur""))
",
  []).

(** bash_helpers.py 796 *)
Definition bash_alsa_list_devices : arguments := ("alsa_list_devices", "
local card id devices=()
while builtin read card; do
  card=""${card#card }""
  id=""${card%%: *}""
  devices+=(""hw:$id"")
done < <(command aplay -l | command grep -Eo '^card [0-9]+: [^,]+')

COMPREPLY=($(compgen -W ""${devices[*]}"" -- ""$cur""))
",
  []).

(** bash_helpers.py 808-842 *)
Definition bash_arguments : list arguments :=
  [bash_values;
   bash_dequote;
   bash_dequote_words;
   bash_prefix;
   bash_strip_prefix_keep_quoting;
   bash_array_contains;
   bash_array_contains_nocase;
   bash_array_match;
   bash_get_last_break_position;
   bash_parse_line;
   bash_get_prefix_suffix_len;
   bash_commandline_string;
   bash_exec;
   bash_exec_fast;
   bash_value_list;
   bash_key_value_list;
   bash_key_value_pair;
   bash_key_value_list_exec;
   bash_key_value_pair_exec;
   bash_file_filter;
   bash_prefix_compreply;
   bash_history;
   bash_number;
   bash_mime_file;
   bash_mountpoint;
   bash_locales;
   bash_charsets;
   bash_timezone_list;
   bash_alsa_list_cards;
   bash_alsa_list_devices].
Definition bash_functions : list func := List.map fn bash_arguments.

(** fish_helpers.py: the functions registered in lines 1085-1115 *)

(** fish_helpers.py 8 *)
Definition fish_query_init : arguments := ("query_init", "
# ===========================================================================
#
# This function implements the parsing of options and positionals in the
# Fish shell.
#
# Usage: query_init COMMANDLINE_DEFINITION...
#
# COMMANDLINE DEFINITION
#   A command line definition has the format:
#      POSITIONAL_PATTERN=>OPTIONS
#
#   Definitions must be ordered from the least specific to the most specific
#   (global options first, then subcommand options).
#
# POSITIONAL PATTERN
#   The text before the '=>' is the positional pattern. An empty pattern
#   matches the top-level command. Subcommands inside the positional-pattern
#   are separated by '>'.
#
# OPTIONS
#   The text after the '=>' are the options for the command. Options
#   are separated by space.
#
# OPTION
#   Short options (-o), long options (--option), and old-style options (-option)
#   are supported.
#
#   If an option takes an argument, it is suffixed by '='.
#   If an option takes an optional argument, it is suffixed by '=?'.
#
# EXAMPLE
#   set -l opts \
#      '=>-f --flag -old-flag --with-arg= --with-optional=?' \
#      '(subcommand|subcmd)=>--choices=' \
#      '(subcommand|subcmd)>(subsub)=>--sub-sub-flag'
#
#   query_init $opts
#
#   Here, -f, --flag and -old-flag don't take options, --with-arg requires an
#   argument and --with-optional takes an optional argument.
#
#   If the first positional matches ""subcommand"" or ""subcmd"", --choices is
#   available as an option.
#
#   If, additionally, the seconds positional matches ""subsub"", --sub-sub-flag
#   is available as an option.
#
# ===========================================================================
#
set -l definitions $argv
set -l positionals
#ifdef positional_position
set -l positionals_positions
#endif
set -l having_options
set -l option_values
set -l last_arg_is_option_argument false

#ifdef subcommands
function %PREFIX%_match_positionals -S
  set -l patterns (string split -- '>' ""$argv[1]"")
  set -l i (count $patterns)

  while test $i -ge 1
    string match -q -r -- ""^$patterns[$i]\$"" ""$positionals[$i]"" || return 1
    set i (math $i - 1)
  end
end
#endif

function %PREFIX%_get_option -S
  set -l option $argv[1]
  set -l i (count $definitions)

  while test $i -ge 1
    set -l split (string split -m 1 -- '=>' $definitions[$i])
#ifdef subcommands
    if %PREFIX%_match_positionals ""$split[1]""
#else
    if true
#endif
      set -l opt
      for opt in (string split -- ' ' $split[2])
        test ""$opt"" = ""$option""   && begin echo '0'; return; end
        test ""$opt"" = ""$option=""  && begin echo '1'; return; end
        test ""$opt"" = ""$option=?"" && begin echo '?'; return; end
      end
    end

    set i (math $i - 1)
  end
end

set -l cmdline (commandline -poc)
set -l cmdline_count (count $cmdline)

set -l argi 2 # cmdline[1] is command name
while test $argi -le $cmdline_count
  set -l arg ""$cmdline[$argi]""
  set -l have_trailing_arg (test $argi -lt $cmdline_count && echo true || echo false)

  switch $arg
    case '-'
      set -a positionals -
#ifdef positional_position
      set -a positionals_positions $argi
#endif
    case '--'
      set -a positionals $cmdline[$(math $argi + 1)..]
#ifdef positional_position
      set -a positionals_positions (seq (math $argi + 1) $cmdline_count)
#endif
      break
    case '--*=*'
      set -l split (string split -m 1 -- '=' $arg)
      set -a having_options $split[1]
      set -a option_values ""$split[2]""
    case '--*'
#ifdef long_options
      set -l option_type (%PREFIX%_get_option $arg)
      if test ""$option_type"" = '1'
        if $have_trailing_arg
          set -a having_options $arg
          set -a option_values $cmdline[(math $argi + 1)]
          set argi (math $argi + 1)
        else
          set last_arg_is_option_argument true
        end
      else
        set -a having_options $arg
        set -a option_values ''
      end
#endif
    case '-*'
      set -l end_of_parsing false
#ifdef old_options

      if string match -q -- '*=*' $arg
        set -l split (string split -m 1 -- '=' $arg)
        set -l option_type (%PREFIX%_get_option $split[1])
        if contains -- ""$option_type"" '1' '?'
          set -a having_options $split[1]
          set -a option_values ""$split[2]""
          set end_of_parsing true
        end
      else
        set -l option_type (%PREFIX%_get_option $arg)
        if test ""$option_type"" = '1'
          set end_of_parsing true
          if $have_trailing_arg
            set -a having_options $arg
            set -a option_values $cmdline[(math $argi + 1)]
            set argi (math $argi + 1)
          else
            set last_arg_is_option_argument true
          end
        else if contains -- ""$option_type"" '0' '?'
          set -a having_options $arg
          set -a option_values ''
          set end_of_parsing true
        end
      end
#endif
#ifdef short_options

      set -l arg_length (string length -- $arg)
      set -l i 2
      while not $end_of_parsing; and test $i -le $arg_length
        set -l option ""-$(string sub -s $i -l 1 -- $arg)""
        set -l trailing_chars ""$(string sub -s (math $i + 1) -- $arg)""
        set -l option_type (%PREFIX%_get_option $option)

        if test ""$option_type"" = '0'
          set -a having_options $option
          set -a option_values ''
        else if test ""$option_type"" = '1'
          set end_of_parsing true

          if test -n ""$trailing_chars""
            set -a having_options $option
            set -a option_values $trailing_chars
          else if $have_trailing_arg
            set -a having_options $option
            set -a option_values $cmdline[(math $argi + 1)]
            set argi (math $argi + 1)
          else
            set last_arg_is_option_argument true
          end
        else if test ""$option_type"" = '?'
          set end_of_parsing true
          set -a having_options $option
          set -a option_values ""$trailing_chars"" # may be empty
        end

        set i (math $i + 1)
      end
#endif
    case '*'
      set -a positionals $arg
#ifdef positional_position
      set -a positionals_positions $argi
#endif
  end

  set argi (math $argi + 1)
end

set -g __QUERY_CACHE_POSITIONALS    $positionals
#ifdef positional_position
set -g __QUERY_CACHE_POSITIONALS_POSITIONS $positionals_positions
#endif
set -g __QUERY_CACHE_HAVING_OPTIONS $having_options
set -g __QUERY_CACHE_OPTION_VALUES  $option_values

set -l cmdline_last_arg (commandline -ct | string unescape)
set -g __QUERY_CACHE_CURRENT_ARG $cmdline_last_arg

$last_arg_is_option_argument && return

set -l split (string split -m1 -- '=' $cmdline_last_arg)
# `string split` returns 0 if it did split the string
if test $status -eq 0 && contains -- (%PREFIX%_get_option $split[1]) '1' '?'
  set -g __QUERY_CACHE_CURRENT_ARG $split[2]
  return
end
#ifdef short_options

set -l arg_length (string length -- $cmdline_last_arg)
set -l i 2
while test $i -le $arg_length
  set -l option ""-$(string sub -s $i -l 1 -- $cmdline_last_arg)""
  if contains -- (%PREFIX%_get_option $option) '1' '?'
    set -g __QUERY_CACHE_CURRENT_ARG (string sub -s (math $i + 1) -- $cmdline_last_arg)
    return
  end

  set i (math $i + 1)
end
#endif
",
  []).

(** fish_helpers.py 250 *)
Definition fish_positional_contains : arguments := ("positional_contains", "
# positional_contains [-i] <NUM> <WORDS>
#
# Checks if the positional argument number NUM is one of WORDS.
# NUM counts from one.
#
#ifdef nocase
set -l nocase false
if test ""$argv[1]"" = -i; set nocase true; set -e argv[1]; end

#endif
#ifdef DEBUG
if test (count $argv) -eq 0
  echo '%FUNCNAME%: missing number' >&2
  return 1
end

#endif
set -l positional_num $argv[1]
set -e argv[1]
#ifdef nocase
if $nocase
  contains -- (string lower -- $__QUERY_CACHE_POSITIONALS[$positional_num] $argv)
else
  contains -- $__QUERY_CACHE_POSITIONALS[$positional_num] $argv
end
#else
contains -- $__QUERY_CACHE_POSITIONALS[$positional_num] $argv
#endif
",
  ["query_init"]).

(** fish_helpers.py 281 *)
Definition fish_has_option : arguments := ("has_option", "
# has_option [WITH_INCOMPLETE] <OPTIONS>
#
# Checks if an option given in OPTIONS is passed on commandline.
# If an option requires an argument, this command returns true only if the
# option includes an argument. If 'WITH_INCOMPLETE' is specified, it also
# returns true for options missing their arguments.
#
set -l option
#ifdef with_incomplete
set -l with_incomplete false

if test $argv[1] = 'WITH_INCOMPLETE'
  set with_incomplete true
  set -e argv[1]
end

#endif
for option in $__QUERY_CACHE_HAVING_OPTIONS
  contains -- $option $argv && return 0
end

#ifdef with_incomplete
if $with_incomplete
  set -l tokens (commandline -po)
  set -e tokens[1]
  for option in $argv
    if test 2 -eq (string length -- $option)
      set option (string sub -l 1 -s 2 -- $option)
      string match -rq -- ""^-[A-z0-9]*$option\$""   $tokens[-2] && return 0
      string match -rq -- ""^-[A-z0-9]*$option.*\$"" $tokens[-1] && return 0
    else
      string match -q -r -- ""^$option\$""       $tokens[-2] && return 0
      string match -q -r -- ""^$option(=.*)?\$"" $tokens[-1] && return 0
      contains -- $tokens[-1] $argv && return 0
    end
  end
end

#endif
return 1
",
  ["query_init"]).

(** fish_helpers.py 324 *)
Definition fish_option_is : arguments := ("option_is", "
# option_is [-a] [-i] -- <OPTIONS...> -- <VALUES...>
#
# Checks if any option in OPTIONS has a value of VALUES.
#
#ifdef any
set -l any false
#endif
#ifdef nocase
set -l nocase false
#endif

while set -q argv[1]
#ifdef any
  if test ""$argv[1]"" = -a; set any true; set -e argv[1]; continue; end
#endif
#ifdef nocase
  if test ""$argv[1]"" = -i; set nocase true; set -e argv[1]; continue; end
#endif
  if test ""$argv[1]"" = --; set -e argv[1]; break; end
end

set -l eof_string (contains -i -- -- $argv || math (count $argv) + 1)
set -l options $argv[1..$(math $eof_string - 1)]
set -l values $argv[$(math $eof_string + 1)..]
#ifdef nocase
set -l option_values $__QUERY_CACHE_OPTION_VALUES
$nocase && set values (string lower -- $values)
$nocase && set option_values (string lower -- $option_values)
#endif

#ifdef DEBUG
if test (count $options) -eq 0
  echo '%FUNCNAME%: missing options' >&2
  return 1
end

if test (count $values) -eq 0
  echo '%FUNCNAME%: missing values' >&2
  return 1
end

#endif
set -l i (count $__QUERY_CACHE_HAVING_OPTIONS)
while test $i -ge 1
  if contains -- $__QUERY_CACHE_HAVING_OPTIONS[$i] $options
#ifdef nocase
    contains -- $option_values[$i] $values && return 0
#else
    contains -- $__QUERY_CACHE_OPTION_VALUES[$i] $values && return 0
#endif
#ifdef any
    $any || return 1
#else
    return 1
#endif
  end

  set i (math $i - 1)
end

return 1
",
  ["query_init"]).

(** fish_helpers.py 388 *)
Definition fish_option_match : arguments := ("option_match", "
# option_match [-a] [-i] -- <OPTIONS...> -- <REGEX>
#
# Checks if any option in OPTIONS has a value that matches REGEX.
#
#ifdef any
set -l any false
#endif
#ifdef nocase
set -l nocase ''
#endif

while set -q argv[1]
#ifdef any
  if test ""$argv[1]"" = -a; set any true; set -e argv[1]; continue; end
#endif
#ifdef nocase
  if test ""$argv[1]"" = -i; set nocase i; set -e argv[1]; continue; end
#endif
  if test ""$argv[1]"" = --; set -e argv[1]; break; end
end

set -l eof_string (contains -i -- -- $argv || math (count $argv) + 1)
set -l options $argv[1..$(math $eof_string - 1)]
set -l regex $argv[(math $eof_string + 1)]

#ifdef DEBUG
if test (count $options) -eq 0
  echo '%FUNCNAME%: missing options' >&2
  return 1
end

if test (count $regex) -eq 0
  echo '%FUNCNAME%: missing regex' >&2
  return 1
end

#endif
set -l i (count $__QUERY_CACHE_HAVING_OPTIONS)
while test $i -ge 1
  if contains -- $__QUERY_CACHE_HAVING_OPTIONS[$i] $options
#ifdef nocase
    string match -rq$nocase -- $regex $__QUERY_CACHE_OPTION_VALUES[$i] && return 0
#else
    string match -rq -- $regex $__QUERY_CACHE_OPTION_VALUES[$i] && return 0
#endif
#ifdef any
    $any || return 1
#else
    return 1
#endif
  end

  set i (math $i - 1)
end

return 1
",
  ["query_init"]).

(** fish_helpers.py 447 *)
Definition fish_num_of_positionals : arguments := ("num_of_positionals", "
# num_of_positionals [<OPERATOR> <NUMBER>]
#
# If no arguments are provided, print the count of positional arguments.
#
# If two arguments are provided, the first argument should be one of
# the comparison operators: '-lt', '-le', '-eq', '-ne', '-gt', '-ge'.
# Returns 0 if the count of positional arguments matches the
# specified NUMBER according to the comparison operator, otherwise
# returns 1.
#
switch (count $argv)
  case 0
    count $__QUERY_CACHE_POSITIONALS
#ifdef DEBUG
  case 1
    echo '%FUNCNAME%: $argv[1]: missing operand' >&2
    return 1
#endif
  case 2
#ifdef DEBUG
    if not contains -- $argv[1] -lt -le -eq -ne -gt -ge;
      echo '%FUNCNAME%: $argv[1]: unknown operator' >&2
      return 1
    end
#endif
    test (count $__QUERY_CACHE_POSITIONALS) $argv[1] $argv[2] && return 0 || return 1
#ifdef DEBUG
  case '*'
    echo '%FUNCNAME%: too many arguments' >&2
    return 1
#endif
end
",
  ["query_init"]).

(** fish_helpers.py 482 *)
Definition fish_positional_position : arguments := ("positional_position", "
# positional_position <POSITIONAL_NUMBER>
#
# Prints the command-line index of the specified positional argument.
#
echo $__QUERY_CACHE_POSITIONALS_POSITIONS[$argv[1]]
",
  ["query_init"]).

(** fish_helpers.py 490 *)
Definition fish_capture_option : arguments := ("capture_option", "
# capture_option <VARIABLE> <OPTIONS>
#
# Stores all values supplied to OPTIONS in VARIABLE.
# VARIABLE is global.
#
set -l variable $argv[1]
set -l options $argv[2..]
set -l values
set -l i 1

while test $i -le (count $__QUERY_CACHE_HAVING_OPTIONS)
  if contains -- $__QUERY_CACHE_HAVING_OPTIONS[$i] $options
    set -a values $__QUERY_CACHE_OPTION_VALUES[$i]
  end

  set i (math $i + 1)
end

set -g $variable $values
",
  ["query_init"]).

(** fish_helpers.py 512 *)
Definition fish_get_completing_arg : arguments := ("get_completing_arg", "
if test -n ""$__fish_stripprefix""
  string replace -r -- $__fish_stripprefix '' ""$__QUERY_CACHE_CURRENT_ARG""
else
  printf '%s\n' ""$__QUERY_CACHE_CURRENT_ARG""
end
",
  []).

(** fish_helpers.py 520 *)
Definition fish_filedir : arguments := ("filedir", "
# Function for completing files or directories
#
# Options:
#   -d|--description=DESC   The description for completed entries
#   -D|--directories        Only complete directories
#   -C|--cd=DIR             List contents in DIR
#ifdef regex
#   -r|--regex=PATTERN      Only list files matching pattern
#endif
#ifdef regex_ignore
#   -i|--ignore=PATTERN     Ignore files matching pattern
#endif

argparse --max-args 0 'd/description=' 'D/directories' 'C/cd=' \
#ifdef regex
    'r/regex=' \
#endif
#ifdef regex_ignore
    'i/ignore=' \
#endif
    -- $argv || return 1

set -l comp (get_completing_arg)
set -l desc
set -l files

if set -q _flag_cd[1]
  pushd $_flag_cd 2>/dev/null || return 1
  set files (complete -C""'' $comp"")
  popd
else
  set files (complete -C""'' $comp"")
end

if set -q _flag_description[1]
  set desc $_flag_description
else if set -g _flag_directories
  set desc 'Directory'
end

if set -q files[1]
  if set -q _flag_directories[1]
    set files (printf '%s\n' $files | string match -r '.*/$')
  end
#ifdef regex

  if set -q _flag_regex[1]
    set files (printf '%s\n' $files | string match -rg ""(.*/\$)|($_flag_regex[1])\$"")
  end
#endif
#ifdef regex_ignore

  if set -q _flag_ignore[1]
    set files (printf '%s\n' $files | string match -rv ""(^|.*/)($_flag_ignore[1])\$"")
  end
#endif

  printf '%s\n' $files\t""$desc""
end
",
  ["get_completing_arg"]).

(** fish_helpers.py 582 *)
Definition fish_list : arguments := ("list", "
set -l duplicates false

if test $argv[1] = '-d'
  set duplicates true
  set -e argv[1]
end

set -l separator $argv[1]
set -l func $argv[2]
set -l comp (get_completing_arg)

if test -z ""$comp""
  eval $func
  return
end

set -l i
set -l value
set -l values
set -l descriptions

set -g __fish_stripprefix ""^.*""(string escape --style=regex -- $separator)

for value in (eval $func)
  set -l split (string split -- \t $value)
  set -a values $split[1]
  set -a descriptions ""$split[2]""
end

set -e __fish_stripprefix

set -l having_values (string split -- $separator $comp)
set -l remaining_values_idxs

if $duplicates
  set remaining_values_idxs (seq 1 (count $values))
else
  set i 1
  for value in $values
    if not contains -- $value $having_values
      set -a remaining_values_idxs $i
    end

    set i (math $i + 1)
  end
end

switch $comp
  case ""*$separator""
    for i in $remaining_values_idxs
      printf '%s%s\t%s\n' $comp $values[$i] ""$descriptions[$i]""
    end
  case ""*$separator*""
    set comp (string split -r -m 1 -- $separator $comp)[1]

    for i in $remaining_values_idxs
      printf '%s%s%s\t%s\n' ""$comp"" $separator $values[$i] ""$descriptions[$i]""
    end
  case '*'
    for i in $remaining_values_idxs
      printf '%s\t%s\n' $values[$i] ""$descriptions[$i]""
    end
end
",
  ["get_completing_arg"]).

(** fish_helpers.py 648 *)
Definition fish_prefix : arguments := ("prefix", "
set -l comp (get_completing_arg)
set -l prefix_escaped (string escape --style=regex -- $argv[1])
if string match -qr -- $prefix_escaped $comp
  set -g __fish_stripprefix ""^""$prefix_escaped
  printf ""%s\n"" $argv[1](eval $argv[2])
  set -e __fish_stripprefix
else
  printf ""%s\n"" $argv[1]
end
",
  ["get_completing_arg"]).

(** fish_helpers.py 660 *)
Definition fish_key_value_list : arguments := ("key_value_list", "
set -l sep1 $argv[1]
set -l sep2 $argv[2]
set -l value
set -l keys
set -l descriptions
set -l functions
set -l excludes
set -l i

for i in (seq 3 4 (count $argv))
  set -a keys $argv[$i]
  set -a descriptions $argv[(math $i + 1)]
  set -a functions $argv[(math $i + 2)]
  set -a excludes $argv[(math $i + 3)]
end

set -l comp (get_completing_arg)
set -l remaining (seq 1 (count $keys))
set -l pairs (string split -- $sep1 $comp)
set -l pair

for pair in $pairs
  set -l split (string split -m1 -- $sep2 $pair)
  set i (contains -i -- $split[1] $keys)

  if test $status -eq 0
    set -l exclude
    for exclude in (string split -- ' ' $excludes[$i])
      set i (contains -i -- $exclude $keys)
      if test $status -eq 0
        set remaining (string match -v $i -- $remaining)
      end
    end
  end
end

if test -z ""$comp"" || test (string sub -s -1 -l 1 -- $comp) = $sep1
  for i in $remaining
    if test ""$functions[$i]"" = false
      printf '%s%s\t%s\n' ""$comp"" $keys[$i] ""$descriptions[$i]""
    else
      printf '%s%s%s\t%s\n' ""$comp"" $keys[$i] $sep2 ""$descriptions[$i]""
    end
  end
  return
end

function %PREFIX%__call_func_for_key -S
  set -l i
  for i in (seq 1 (count $keys))
    if test $keys[$i] = $argv[1]
      set -g __fish_stripprefix ""^.*""(string escape --style=regex -- $sep2)
      $functions[$i]
      set -e __fish_stripprefix
      return
    end
  end
end

set -l pair $pairs[-1]
set -l split (string split -m1 -- $sep2 $pair)

switch $pair
  case ""*$sep2*""
    set -l value_len (string length -- $split[2])

    if test $value_len -gt 0
      set comp (string sub -e -$value_len -- $comp)
    end

    for value in (%PREFIX%__call_func_for_key $split[1])
      printf '%s%s\n' $comp $value
    end
  case '*'
    set -l key_len (string length -- $split[1])
    set comp (string sub -e -$key_len -- $comp)

    for i in $remaining
      if test ""$functions[$i]"" = false
        printf '%s%s\t%s\n' ""$comp"" $keys[$i] ""$descriptions[$i]""
      else
        printf '%s%s%s\t%s\n' ""$comp"" $keys[$i] $sep2 ""$descriptions[$i]""
      end
    end
end
",
  ["get_completing_arg"]).

(** fish_helpers.py 748 *)
Definition fish_key_value_pair : arguments := ("key_value_pair", "
set -l sep $argv[1]
set -l keys
set -l descriptions
set -l functions
set -l i

for i in (seq 2 3 (count $argv))
  set -a keys $argv[$i]
  set -a descriptions $argv[(math $i + 1)]
  set -a functions $argv[(math $i + 2)]
end

function %PREFIX%__call_func_for_key -S
  set -l i
  for i in (seq 1 (count $keys))
    if test $keys[$i] = $argv[1]
      set -g __fish_stripprefix ""^.*""(string escape --style=regex -- $sep)
      $functions[$i]
      set -e __fish_stripprefix
      return
    end
  end
end

set -l comp (get_completing_arg)
set -l split (string split -m1 -- $sep $comp)

if test (count $split) -eq 2
  set -l value
  for value in (%PREFIX%__call_func_for_key $split[1])
    printf '%s%s%s\n' $split[1] $sep $value
  end
else
  for i in (seq 1 (count $keys))
    if test ""$functions[$i]"" = false
      printf '%s\t%s\n' $keys[$i] ""$descriptions[$i]""
    else
      printf '%s%s\t%s\n' $keys[$i] $sep ""$descriptions[$i]""
    end
  end
end
",
  ["get_completing_arg"]).

(** fish_helpers.py 810 *)
Definition fish_key_value_list_exec : arguments := ("key_value_list_exec", "
set -l sep1 $argv[1]
set -l sep2 $argv[2]
set -l func $argv[3]
set -l comp (get_completing_arg)
set -l pairs (string split -- $sep1 $comp)

set -l keys
set -l descriptions
set -l takes_arg
set -l excludes

set -l line
set -l i

for line in ($func)
  set -l split (string split -- \t $line)
  set -l key $split[1]
  set -l non_repeatable_exclude ''

  if string match -qr -- '=$' $key
    set key (string sub -e -1 -- $key)
    set -a takes_arg true
  else if string match -qr -- '=\?$' $key
    set key (string sub -e -2 -- $key)
    set -a takes_arg false
  else
    set -a takes_arg false
  end

  if string match -q -- '\**' $key
    set key (string sub -s 2 -- $key)
  else
    set non_repeatable_exclude "" $key""
  end

  set -a keys $key
  set -a descriptions $split[2]
  set -a excludes ""$split[3]$non_repeatable_exclude""
end

set -l remaining (seq 1 (count $keys))

set -l pair
for pair in $pairs
  set -l split (string split -m1 -- $sep2 $pair)
  set i (contains -i -- $split[1] $keys)

  if test $status -eq 0
    set -l exclude
    for exclude in (string split -n -- ' ' $excludes[$i])
      set i (contains -i -- $exclude $keys)
      if test $status -eq 0
        set remaining (string match -v $i -- $remaining)
      end
    end
  end
end

if test -z ""$comp"" || test (string sub -s -1 -l 1 -- $comp) = $sep1
  for i in $remaining
    if test ""$takes_arg[$i]"" = false
      printf '%s%s\t%s\n' ""$comp"" $keys[$i] ""$descriptions[$i]""
    else
      printf '%s%s%s\t%s\n' ""$comp"" $keys[$i] $sep2 ""$descriptions[$i]""
    end
  end
  return
end

set -l pair $pairs[-1]
set -l split (string split -m1 -- $sep2 $pair)

switch $pair
  case ""*$sep2*""
    set -l value_len (string length -- $split[2])

    if test $value_len -gt 0
      set comp (string sub -e -$value_len -- $comp)
    end

    set -g __fish_stripprefix ""^.*""(string escape --style=regex -- $sep)
    for value in ($func $split[1])
      printf '%s%s\n' $comp $value
    end
    set -e __fish_stripprefix
  case '*'
    set -l key_len (string length -- $split[1])
    set comp (string sub -e -$key_len -- $comp)

    for i in $remaining
      if test ""$takes_arg[$i]"" = false
        printf '%s%s\t%s\n' ""$comp"" $keys[$i] ""$descriptions[$i]""
      else
        printf '%s%s%s\t%s\n' ""$comp"" $keys[$i] $sep2 ""$descriptions[$i]""
      end
    end
end
",
  ["get_completing_arg"]).

(** fish_helpers.py 792 *)
Definition fish_key_value_pair_exec : arguments := ("key_value_pair_exec", "
set -l sep $argv[1]
set -l func $argv[2]
set -l comp (get_completing_arg)
set -l split (string split -m1 -- $sep $comp)

if test (count $split) -eq 2
  set -l value
  set -g __fish_stripprefix ""^.*""(string escape --style=regex -- $sep)
  for value in ($func $split[1])
    printf '%s%s%s\n' $split[1] $sep $value
  end
  set -e __fish_stripprefix
else
  $func
end
",
  ["get_completing_arg"]).

(** fish_helpers.py 910 *)
Definition fish_history : arguments := ("history", "
builtin history | command grep -E -o -- $argv[1]
",
  []).

(** fish_helpers.py 983 *)
Definition fish_date_format : arguments := ("date_format", "
set -l comp (get_completing_arg)

if test ""$(string sub -s -1 -l 1 -- $comp)"" = '%'
  printf '%s%s\t%s\n' \
    ""$comp"" 'a' 'abbreviated day name' \
    ""$comp"" 'A' 'full day name' \
    ""$comp"" 'b' 'abbreviated month name' \
    ""$comp"" 'h' 'abbreviated month name' \
    ""$comp"" 'B' 'full month name' \
    ""$comp"" 'c' 'preferred locale date and time' \
    ""$comp"" 'C' '2-digit century' \
    ""$comp"" 'd' 'day of month (01-31)' \
    ""$comp"" 'D' 'American format month/day/year (%m/%d/%y)' \
    ""$comp"" 'e' 'day of month ( 1-31)' \
    ""$comp"" 'F' 'ISO 8601 year-month-date (%Y-%m-%d)' \
    ""$comp"" 'G' '4-digit ISO 8601 week-based year' \
    ""$comp"" 'g' '2-digit ISO 8601 week-based year' \
    ""$comp"" 'H' 'hour (00-23)' \
    ""$comp"" 'I' 'hour (01-12)' \
    ""$comp"" 'j' 'day of year (001-366)' \
    ""$comp"" 'k' 'hour ( 0-23)' \
    ""$comp"" 'l' 'hour ( 1-12)' \
    ""$comp"" 'm' 'month (01-12)' \
    ""$comp"" 'M' 'minute (00-59)' \
    ""$comp"" 'n' 'newline' \
    ""$comp"" 'p' 'locale dependent AM/PM' \
    ""$comp"" 'r' 'locale dependent a.m. or p.m. time (%I:%M:%S %p)' \
    ""$comp"" 'R' '24-hour notation time (%H:%M)' \
    ""$comp"" 's' 'seconds since the epoch' \
    ""$comp"" 'S' 'seconds (00-60)' \
    ""$comp"" 't' 'tab' \
    ""$comp"" 'T' '24-hour notation with seconds (%H:%M:%S)' \
    ""$comp"" 'u' 'day of week (1-7, 1=Monday)' \
    ""$comp"" 'U' 'week number of current year, Sunday based (00-53)' \
    ""$comp"" 'V' 'ISO 8601 week number of current year, week 1 has 4 days in current year (01-53)' \
    ""$comp"" 'w' 'day of week (0-6, 0=Sunday)' \
    ""$comp"" 'W' 'week number of current year, Monday based (00-53)' \
    ""$comp"" 'x' 'locale dependent date representation without time' \
    ""$comp"" 'X' 'locale dependent time representation without date' \
    ""$comp"" 'y' '2-digit year (00-99)' \
    ""$comp"" 'Y' 'full year' \
    ""$comp"" 'z' 'UTC offset' \
    ""$comp"" 'Z' 'timezone name' \
    ""$comp"" '%' 'literal %'
end
",
  ["get_completing_arg"]).

(** fish_helpers.py 1031 *)
Definition fish_number : arguments := ("number", "
set -l comp (get_completing_arg)
set -l number (string match -r -- '^[0-9,.]*' $comp)

if test -z ""$number""
  return
end

set -l suffix_and_desc
for suffix_and_desc in $argv
  set suffix_and_desc (string split -m 1 -- ':' $suffix_and_desc)
  printf '%s%s\t%s\n' $number $suffix_and_desc[1] $suffix_and_desc[2]
end
",
  ["get_completing_arg"]).

(** fish_helpers.py 914 *)
Definition fish_mime_file : arguments := ("mime_file", "
set -l i_opt

set -l comp (get_completing_arg)

if command file -i /dev/null &>/dev/null
  set i_opt '-i'
else if command file -I /dev/null &>/dev/null
  set i_opt '-I'
else
  complete -C""'' $comp""
  return
end

set -l line
command file -L $i_opt -- ""$comp""* 2>/dev/null | while read line
  set -l split (string split -m 1 -r ':' ""$line"")

  if string match -q -- '*inode/directory*' $split[2]
    printf '%s/\n' ""$split[1]""
  else if begin; echo ""$split[2]"" | command grep -q -E -- $argv[1]; end
    printf '%s\n' ""$split[1]""
  end
end
",
  ["get_completing_arg"]).

(** fish_helpers.py 940 *)
Definition fish_subtract_prefix_suffix : arguments := ("subtract_prefix_suffix", "
set -l s1 $argv[1]
set -l s2 $argv[2]

set -l len1 (string length -- $s1)
set -l len2 (string length -- $s2)

set -l maxk $len1
if test $len2 -lt $maxk
  set maxk $len2
end

set -l k $maxk
while test $k -gt 0
  set -l start (math $len1 - $k + 1)
  set -l suf (string sub -s $start -l $k -- $s1)
  set -l pre (string sub -s 1 -l $k -- $s2)

  if test ""$suf"" = ""$pre""
    if test $len1 -eq $k
      echo ''
    else
      string sub -l (math $len1 - $k) -- $s1
    end
    return
  end

  set k (math $k - 1)
end

echo $s1
",
  []).

(** fish_helpers.py 973 *)
Definition fish_commandline_string : arguments := ("commandline_string", "
set -l line
set -l comp (get_completing_arg)

complete -C ""$comp"" | while read line
  set -l split (string split -m 1 -- \t $line)
  set -l comp2 (subtract_prefix_suffix ""$comp"" ""$split[1]"")
  printf '%s\t%s\n' ""$comp2$split[1]"" ""$split[2]""
end",
  ["subtract_prefix_suffix"; "get_completing_arg"]).

(** fish_helpers.py 1050 *)
Definition fish_timezone_list : arguments := ("timezone_list", "
if ! command timedatectl list-timezones 2>/dev/null
  command find /usr/share/zoneinfo -type f |\
  command sed 's|/usr/share/zoneinfo/||g'  |\
  command grep -E -v '^(posix|right)'
end
",
  []).

(** fish_helpers.py 1058 *)
Definition fish_alsa_list_cards : arguments := ("alsa_list_cards", "
set -l card

for card in (command aplay -l | string match -r '^card [0-9]+: [^,]+')
  set card (string replace 'card ' '' $card)
  set -l split (string split ': ' $card)

  if set -q split[2]
    printf ""%s\t%s\n"" $split[1] $split[2]
  end
end
",
  []).

(** fish_helpers.py 1071 *)
Definition fish_alsa_list_devices : arguments := ("alsa_list_devices", "
set -l card

for card in (command aplay -l | string match -r '^card [0-9]+: [^,]+')
  set card (string replace 'card ' '' $card)
  set -l split (string split ': ' $card)

  if set -q split[2]
    printf ""hw:%s\t%s\n"" $split[1] $split[2]
  end
end
",
  []).

(** fish_helpers.py 1085-1115 *)
Definition fish_arguments : list arguments :=
  [fish_query_init;
   fish_positional_contains;
   fish_has_option;
   fish_option_is;
   fish_option_match;
   fish_num_of_positionals;
   fish_positional_position;
   fish_capture_option;
   fish_get_completing_arg;
   fish_filedir;
   fish_list;
   fish_prefix;
   fish_key_value_list;
   fish_key_value_pair;
   fish_key_value_list_exec;
   fish_key_value_pair_exec;
   fish_history;
   fish_date_format;
   fish_number;
   fish_mime_file;
   fish_subtract_prefix_suffix;
   fish_commandline_string;
   fish_timezone_list;
   fish_alsa_list_cards;
   fish_alsa_list_devices].
Definition fish_functions : list func := List.map fn fish_arguments.

(** zsh_helpers.py: the functions registered in lines 557-577 *)

(** zsh_helpers.py 322 *)
Definition zsh_array_contains : arguments := ("array_contains", "
local arg='' key=""$1""; shift
for arg; do [[ ""$key"" == ""$arg"" ]] && return 0; done
return 1
",
  []).

(** zsh_helpers.py 9 *)
Definition zsh_query : arguments := ("query", "
# ===========================================================================
#
# This function is for querying the command line.
#
# COMMANDS
#   init <OPTIONS> <ARGS...>
#     This is the first call you have to make, otherwise the other commands
#     won't (successfully) work.
#
#     It parses <ARGS> according to <OPTIONS> and stores results in the
#     variables POSITIONALS, HAVING_OPTIONS and OPTION_VALUES.
#
#     The first argument is a comma-separated list of options that the parser
#     should know about. Short options (-o), long options (--option), and
#     old-style options (-option) are supported.
#
#     If an option takes an argument, it is suffixed by '='.
#     If an option takes an optional argument, it is suffixed by '=?'.
#
#   get_positional <NUM>
#     Prints out the positional argument number NUM (starting from 1)
#
#   has_option [WITH_INCOMPLETE] <OPTIONS...>
#     Checks if an option given in OPTIONS is passed on commandline.
#     If an option requires an argument, this command returns true only if the
#     option includes an argument. If 'WITH_INCOMPLETE' is specified, it also
#     returns true for options missing their arguments.
#
#   option_is [-a] [-i] -- <OPTIONS...> -- <VALUES...>
#     Checks if one option in OPTIONS has a value of VALUES.
#
# EXAMPLE
#   local POSITIONALS HAVING_OPTIONS OPTION_VALUES
#   query init '-f,-a=,-optional=?' program_name -f -optional -a foo bar
#   query has_option -f
#   query option_is -- -a -- foo
#
#   Here, -f is a flag, -a takes an argument, and -optional takes an optional
#   argument.
#
#   Both queries return true.
#
# ===========================================================================

local cmd=""$1""; shift

case ""$cmd"" in
#ifdef get_positional
  get_positional)
#ifdef DEBUG
    if (( $# != 1 )); then
      echo ""%FUNCNAME%: get_positional: takes exactly one argument"" >&2
      return 1
    fi

    if test ""$1"" -eq 0; then
      echo ""%FUNCNAME%: get_positional: positionals start at 1, not 0!"" >&2
      return 1
    fi

#endif
    printf ""%s"" ""${POSITIONALS[$1]}""
    return 0;;
#endif
#ifdef get_option
  get_option)
    local i=0

#ifdef DEBUG
    if (( $# == 0 )); then
      echo ""%FUNCNAME%: get_option: arguments required"" >&2
      return 1
    fi

#endif
    for (( i=0; i <= ${#HAVING_OPTIONS[@]}; ++i )); do
      local option=""${HAVING_OPTIONS[$i]}""
      if array_contains ""$option"" ""$@""; then
        printf ""%s\n"" ""${OPTION_VALUES[$i]}""
      fi
    done

    return 0;;
#endif
#ifdef has_option
  has_option)
#ifdef with_incomplete
    local option='' with_incomplete=0
    [[ ""$1"" == 'WITH_INCOMPLETE' ]] && { with_incomplete=1; shift; }
#else
    local option=''
#endif

#ifdef DEBUG
    if (( $# == 0 )); then
      echo ""%FUNCNAME%: has_option: arguments required"" >&2
      return 1
    fi

#endif
    for option in ""${HAVING_OPTIONS[@]}""; do
      array_contains ""$option"" ""$@"" && return 0
    done

#ifdef with_incomplete
    (( with_incomplete )) && \
      array_contains ""$INCOMPLETE_OPTION"" ""$@"" && return 0

#endif
    return 1;;
#endif
#ifdef option_is
  option_is)
    local i=0 dash_dash_pos=0 cmd_option_is_options=() cmd_option_is_values=()
    local nocase=0 any=0

    while (( $# )); do
#ifdef any
      [[ ""$1"" == ""-a"" ]] && { any=1; shift; continue; }
#endif
#ifdef nocase
      [[ ""$1"" == ""-i"" ]] && { nocase=1; shift; continue; }
#endif
      [[ ""$1"" == ""--"" ]] && { shift; break; }
    done

    dash_dash_pos=${@[(i)--]}
    cmd_option_is_options=(""${@:1:$((dash_dash_pos - 1))}"")
    cmd_option_is_values=(""${@:$((dash_dash_pos + 1))}"")
#ifdef nocase
    (( nocase )) && cmd_option_is_values=(""${(L)cmd_option_is_values[@]}"")
#endif

#ifdef DEBUG
    if (( ${#cmd_option_is_options[@]} == 0 )); then
      echo ""%FUNCNAME%: option_is: missing options"" >&2
      return 1
    fi

    if (( ${#cmd_option_is_values[@]} == 0 )); then
      echo ""%FUNCNAME%: option_is: missing values"" >&2
      return 1
    fi

#endif
    for (( i=${#HAVING_OPTIONS[@]}; i > 0; --i )); do
      if array_contains ""${HAVING_OPTIONS[$i]}"" ""${cmd_option_is_options[@]}""; then
        local value=""${OPTION_VALUES[$i]}""
#ifdef nocase
        (( nocase )) && value=""${(L)value}""
#endif
        array_contains ""$value"" ""${cmd_option_is_values[@]}"" && return 0
#ifdef any
        (( any )) || return 1
#else
        return 1
#endif
      fi
    done

    return 1;;
#endif
  init)
    local -a options=(${=1})
    shift;;
  *)
    echo ""%FUNCNAME%: argv[1]: invalid command"" >&2
    return 1;;
esac

# continuing init...

# ===========================================================================
# Parsing of available options
# ===========================================================================

#ifdef old_options
local   old_opts_with_arg=()   old_opts_with_optional_arg=()   old_opts_without_arg=()
#endif
#ifdef long_options
local  long_opts_with_arg=()  long_opts_with_optional_arg=()  long_opts_without_arg=()
#endif
#ifdef short_options
local short_opts_with_arg=() short_opts_with_optional_arg=() short_opts_without_arg=()
#endif

local option=''
for option in ""${options[@]}""; do
  case ""$option"" in
#ifdef long_options
    --?*=)    long_opts_with_arg+=(""${option%=}"");;
    --?*=\?)  long_opts_with_optional_arg+=(""${option%=?}"");;
    --?*)     long_opts_without_arg+=(""$option"");;
#endif
#ifdef short_options
    -?=)      short_opts_with_arg+=(""${option%=}"");;
    -?=\?)    short_opts_with_optional_arg+=(""${option%=?}"");;
    -?)       short_opts_without_arg+=(""$option"");;
#endif
#ifdef old_options
    -??*=)    old_opts_with_arg+=(""${option%=}"");;
    -??*=\?)  old_opts_with_optional_arg+=(""${option%=?}"");;
    -??*)     old_opts_without_arg+=(""$option"");;
#endif
#ifdef DEBUG
    *) echo ""%FUNCNAME%: $option: not a valid short, long or oldstyle option"" >&2; return 1;;
#endif
  esac
done

# ===========================================================================
# Parsing of command line options
# ===========================================================================

POSITIONALS=()
HAVING_OPTIONS=()
OPTION_VALUES=()
INCOMPLETE_OPTION=''

local args=(""${(Q)@}"")
local argi=2 # argi[1] is program name
for ((; argi <= ${#args[@]}; ++argi)); do
  local arg=""${args[$argi]}""
  local have_trailing_arg=$(test $argi -lt $# && echo true || echo false)

  case ""$arg"" in
    --)
      POSITIONALS+=(""${@:$((argi + 1))}"")
      break;;
    --*=*)
      HAVING_OPTIONS+=(""${arg%%=*}"")
      OPTION_VALUES+=(""${arg#*=}"");;
    --*)
#ifdef long_options
      if array_contains ""$arg"" ""${long_opts_with_arg[@]}""; then
        if $have_trailing_arg; then
          HAVING_OPTIONS+=(""$arg"")
          OPTION_VALUES+=(""${args[$((++argi))]}"")
#ifdef with_incomplete
        else
          INCOMPLETE_OPTION=""$arg""
#endif
        fi
      else
        HAVING_OPTIONS+=(""$arg"")
        OPTION_VALUES+=("""")
      fi
#endif
      ;;
    -?*) # ignore '-'
#ifdef old_options
      if [[ ""$arg"" == *=* ]]; then
        local option=""${arg%%=*}"" value=""${arg#*=}""
        if array_contains ""$option"" ""${old_opts_with_arg[@]}"" ""${old_opts_with_optional_arg[@]}""; then
          HAVING_OPTIONS+=(""$option"")
          OPTION_VALUES+=(""$value"")
          continue
        fi
      elif array_contains ""$arg"" ""${old_opts_with_arg[@]}""; then
        if $have_trailing_arg; then
          HAVING_OPTIONS+=(""$arg"")
          OPTION_VALUES+=(""${args[$((++argi))]}"")
#ifdef with_incomplete
        else
          INCOMPLETE_OPTION=""$arg""
#endif
        fi
        continue
      elif array_contains ""$arg"" ""${old_opts_without_arg[@]}"" ""${old_opts_with_optional_arg[@]}""; then
        HAVING_OPTIONS+=(""$arg"")
        OPTION_VALUES+=("""")
        continue
      fi
#endif

#ifdef short_options
      local i=1 arg_length=${#arg}
      for ((; i < arg_length; ++i)); do
        local option=""-${arg:$i:1}""
        local trailing_chars=""${arg:$((i+1))}""

        if array_contains ""$option"" ""${short_opts_without_arg[@]}""; then
          HAVING_OPTIONS+=(""$option"")
          OPTION_VALUES+=("""")
        elif array_contains ""$option"" ""${short_opts_with_arg[@]}""; then
          if [[ -n ""$trailing_chars"" ]]; then
            HAVING_OPTIONS+=(""$option"")
            OPTION_VALUES+=(""$trailing_chars"")
          elif $have_trailing_arg; then
            HAVING_OPTIONS+=(""$option"")
            OPTION_VALUES+=(""${args[$((++argi))]}"")
#ifdef with_incomplete
          else
            INCOMPLETE_OPTION=""$option""
#endif
          fi

          continue 2
        elif array_contains ""$option"" ""${short_opts_with_optional_arg[@]}""; then
          HAVING_OPTIONS+=(""$option"")
          OPTION_VALUES+=(""$trailing_chars"") # may be empty
          continue 2
        fi
      done
#endif
      ;;
    *)
      POSITIONALS+=(""$arg"");;
  esac
done
",
  ["array_contains"]).

(** zsh_helpers.py 328 *)
Definition zsh_option_match : arguments := ("option_match", "
local i=0 dash_dash_pos=0 options=() regex='' nocase=0 any=0

while (( $# )); do
#ifdef any
  [[ ""$1"" == '-a' ]] && { any=1; shift; continue; }
#endif
#ifdef nocase
  [[ ""$1"" == '-i' ]] && { nocase=1; shift; continue; }
#endif
  [[ ""$1"" == '--' ]] && { shift; break; }
done

dash_dash_pos=${@[(i)--]}
options=(""${@:1:$((dash_dash_pos - 1))}"")
regex=""${@:$((dash_dash_pos + 1)):1}""

#ifdef DEBUG
if (( ${#options[@]} == 0 )); then
  echo ""%FUNCNAME%: missing options"" >&2
  return 1
fi

if (( ${#regex} == 0 )); then
  echo ""%FUNCNAME%: missing regex"" >&2
  return 1
fi

#endif
for (( i=${#HAVING_OPTIONS[@]}; i > 0; --i )); do
  if array_contains ""${HAVING_OPTIONS[$i]}"" ""${options[@]}""; then
#ifdef nocase
    if (( nocase ));
    then [[ ""${(L)OPTION_VALUES[$i]}"" =~ ""${(L)regex}"" ]] && return 0
    else [[ ""${OPTION_VALUES[$i]}"" =~ ""${regex}"" ]] && return 0
    fi
#else
    [[ ""${OPTION_VALUES[$i]}"" =~ ""${regex}"" ]] && return 0
#endif
#ifdef any
    (( any )) || return 1
#else
    return 1
#endif
  fi
done

return 1
",
  ["array_contains"]).

(** zsh_helpers.py 388 *)
Definition zsh_exec : arguments := ("exec", "
local item='' desc='' describe=()

while IFS=$'\t' read -r item desc; do
  item=""${item//\\/\\\\}""
  item=""${item//:/\\:}""
  desc=""${desc//\\/\\\\}""
  [[ -n ""$desc"" ]] && describe+=(""$item:$desc"") || describe+=(""$item"")
done < <(eval ""$1"")

_describe '' describe
",
  []).

(** zsh_helpers.py 401 *)
Definition zsh_key_value_pair_exec : arguments := ("key_value_pair_exec", "
local sep=""$1""
local func=""$2""
local key='' desc=''
local -a args=()

while IFS=$'\t' read -r key desc; do
  desc=""${desc//\\/\\\\}""
  desc=""${desc//:/\\:}""
  desc=""${desc//\[/\\[}""
  desc=""${desc//\]/\\]}""

  if [[ ""${key[-1]}"" == '=' ]]; then
    key=""${key:0:-1}""
    args+=(""${key}[$desc]:::{exec '$func $key'}"")
  else
    args+=(""${key}[$desc]"")
  fi
done < <(eval ""$func"")

_values -S ""$sep"" '' ""${args[@]}""
",
  ["exec"]).

(** zsh_helpers.py 424 *)
Definition zsh_key_value_list_exec : arguments := ("key_value_list_exec", "
local sep1=""$1""
local sep2=""$2""
local func=""$3""
local key='' desc='' excludes=''
local -a args=()

while IFS=$'\t' read -r key desc excludes; do
  desc=""${desc//\\/\\\\}""
  desc=""${desc//:/\\:}""
  desc=""${desc//\[/\\[}""
  desc=""${desc//\]/\\]}""

  [[ -n ""$excludes"" ]] && excludes=""($excludes)""

  if [[ ""${key: -1:1}"" == '=' ]]; then
    key=""${key:0:-1}""
    args+=(""${excludes}${key}[$desc]: :{exec '$func $key'}"")
  elif [[ ""${key: -2:2}"" == '=?' ]]; then
    key=""${key:0:-2}""
    args+=(""${excludes}${key}[$desc]:: :{exec '$func $key'}"")
  else
    args+=(""${excludes}${key}[$desc]"")
  fi
done < <(eval ""$func"")

_values -s ""$sep1"" -S ""$sep2"" '' ""${args[@]}""
",
  ["exec"]).

(** zsh_helpers.py 378 *)
Definition zsh_prefix : arguments := ("prefix", "
if [[ ""$PREFIX"" == ""$1""* ]]; then
  PREFIX=""${PREFIX#""$1""}""
  IPREFIX=""$IPREFIX$1""
  $2
else
  compadd -S '' -- ""$1""
fi
",
  []).

(** zsh_helpers.py 453 *)
Definition zsh_history : arguments := ("history", "
[[ -f ""$HISTFILE"" ]] || return

local match=''

command grep -E -o -- ""$1"" ""$HISTFILE"" | while read -r match; do
  compadd -- ""$match""
done
",
  []).

(** zsh_helpers.py 509 *)
Definition zsh_path_files_relative : arguments := ("path_files_relative", "
local DIR=""$1""; shift
_path_files -W ""$PWD/$DIR"" ""$@""
",
  []).

(** zsh_helpers.py 463 *)
Definition zsh_mime_file : arguments := ("mime_file", "
local line='' file='' mime='' i_opt=''

if command file -i /dev/null &>/dev/null; then
  i_opt=""-i""
elif command file -I /dev/null &>/dev/null; then
  i_opt=""-I""
else
  compadd -- ""$PREFIX""*
  return
fi

command file -L $i_opt -- ""$PREFIX""* 2>/dev/null | while read -r line; do
  mime=""${line##*:}""

  if [[ ""$mime"" == *inode/directory* ]] || command grep -q -E -- ""$1"" <<< ""$mime""; then
    file=""${line%:*}""

    if [[ ""$file"" == *\\* ]]; then
      file=""$(command perl -pe 's/\\([0-7]{3})/chr(oct($1))/ge' <<< ""$file"")""
    fi

    if [[ ""$mime"" == *inode/directory* ]]; then
      compadd -- ""$file/""
    else
      compadd -- ""$file""
    fi
  fi
done
",
  []).

(** zsh_helpers.py 494 *)
Definition zsh_uid_list : arguments := ("uid_list", "
local items=($(command getent passwd | command awk -F: '{printf ""%s:%s\n"", $3, $1}'))
_describe 'users' items
",
  []).

(** zsh_helpers.py 499 *)
Definition zsh_gid_list : arguments := ("gid_list", "
local items=($(command getent group | command awk -F: '{printf ""%s:%s\n"", $3, $1}'))
_describe 'groups' items
",
  []).

(** zsh_helpers.py 504 *)
Definition zsh_charset_list : arguments := ("charset_list", "
local items=($(command locale -m))
_describe 'charsets' items
",
  []).

(** zsh_helpers.py 518 *)
Definition zsh_mountpoint : arguments := ("mountpoint", "
local item=''

command findmnt -lno TARGET | while read -r item; do
  compadd -- ""$item""
done
",
  []).

(** zsh_helpers.py 526 *)
Definition zsh_alsa_complete_cards : arguments := ("alsa_complete_cards", "
local card='' cards=()
command aplay -l \
  | command grep -Eo '^card [0-9]+: [^,]+' \
  | command uniq \
  | while builtin read card; do
  card=""${card#card }""
  local id=""${card%%: *}""
  local name=""${card#*: }""
  cards+=(""$id:$name"")
done

_describe 'ALSA card' cards
",
  []).

(** zsh_helpers.py 541 *)
Definition zsh_alsa_complete_devices : arguments := ("alsa_complete_devices", "
local card='' id='' name='' devices=()
command aplay -l \
  | command grep -Eo '^card [0-9]+: [^,]+' \
  | command uniq \
  | while builtin read card; do
  card=""${card#card }""
  id=""${card%%: *}""
  name=""${card#*: }""
  devices+=(""hw\\:$id:$name"")
done

_describe 'ALSA device' devices
",
  []).

(** zsh_helpers.py 557-577 *)
Definition zsh_arguments : list arguments :=
  [zsh_array_contains;
   zsh_query;
   zsh_option_match;
   zsh_exec;
   zsh_key_value_pair_exec;
   zsh_key_value_list_exec;
   zsh_prefix;
   zsh_history;
   zsh_path_files_relative;
   zsh_mime_file;
   zsh_uid_list;
   zsh_gid_list;
   zsh_charset_list;
   zsh_mountpoint;
   zsh_alsa_complete_cards;
   zsh_alsa_complete_devices].
Definition zsh_functions : list func := List.map fn zsh_arguments.
