# Formal model of crazy-complete in Rocq (Coq 8.16.1)

## Approach

* Source: `/repo/crazy_complete/*.py` at the pinned commit, read as text, never run.
* Model: shallow embedding.  Every Python function becomes a total Gallina function, branch by
  branch.  Exceptions are values (`inl err` / constructors of an error type).  Loops are structural
  recursion or folds; where fuel is needed, running out of fuel is a separate value and the theorems
  exclude it.
* Strings are `list N`: lists of Unicode code points (the type admits numbers that are not code
  points, so theorems cover a superset of Python's strings).
* Files: `Base` (string helpers), one model file per Python module, one or more proof files per
  model file, and `Properties*.v` files that contain the property theorems, a non-vacuity `Example`
  next to each and `Print Assumptions`.
* Independent specifications (shell word lexing, fish word lexing and evaluation, extended-glob
  matching, regular expressions, `&&`/`||` evaluation, command line usage, ...) live in `Spec*.v`
  files and do not mention the functions under test.
* A claim that is false of the code has a theorem `..._refuted` with a concrete witness, and a
  restricted theorem (usually `..._partial`) that says where it does hold.  Its status in
  `MANIFEST.json` is `partial`.

## Trusted base

* Coq's kernel (8.16.1; the final check is `coqchk -o`, which uses no virtual machine).  Some
  `Example`s and witnesses use `vm_compute`.
* `Print Assumptions` is printed behind every property theorem in `Properties*.v`; each says
  "Closed under the global context": no axioms, not even those of the standard library.  (A scan
  of the loaded libraries lists seven parameters of `Coq.ssr.ssrunder`; they come with `ssreflect`
  tactics of the standard library, and no theorem uses them.)
* Only the standard library is used.  There are no functors, module types, axioms, parameters,
  admitted goals or plugins; `Variable`/`Hypothesis` occur in sections only.
* That the definitions in the model files say what the Python code says.  Each carries a comment
  with the lines it models and its simplifications.  This is checked by reading only.
* That the specifications describe the shells.  `SpecShell` (POSIX, zsh and fish words),
  `SpecGlob`/`SpecZshGlob`/`SpecRegex` (matching), `SpecFish` (expansion, `complete`, conditions) and
  `SpecWhen` (`&&`, `||`, `!`, groups) are written from the manuals; where a construct is outside
  the described fragment they answer `None`, and theorems that use them show an answer.

## What is modelled, and what is not

| Python module | model | not modelled |
|---|---|---|
| `algo.py`, `str_utils.py`, `string_stream.py`, `type_utils.py` | `Algo`, `StrUtils`, `ShellParser`, `Value` | |
| `shell.py`, `shell_parser.py` | `Shell`, `ShellParser`, `ShellCompleter` | |
| `preprocessor.py`, `helpers.py`, `output.py` | `Preproc`, `Helpers`, `ShippedHelpers`, `Output` (also the outer layer of `generate_completion`) | reading the included files |
| `cli.py`, `utils.py` | `Cli`, `Abbrev`, `StrUtils` | error texts; object identity except where C44 and C61 need it |
| `dictionary_source.py`, `compat.py`, defines | `DictSource`, `Defines` | |
| `json_source.py`, `yaml_source.py`, `extended_yaml_parser.py` | `YamlParser` (`extended_yaml_parser.py`), `YamlText` (the text that is written); for the rest see the table below | reading files; PyYAML itself: its events are the input, its scalar resolver is a specification (`SpecYamlScalar.v`) |
| `argparse_source.py` 22-196, `argparse_mod.py` 23-54 | `ArgparseSource`, `Argparse` | argparse's objects are records with the attributes that are read; choices are ranges, lists, tuples or dictionaries; no warnings |
| `application.py` 26-51, 249-280, `config.py` 334-348, `bash_versions.py` | `Settings` | argparse's own reading of the command line |
| `argparse_source.py` 196-258, `file_loader.py` | `PyLoader` | running Python: the names a file binds are the input; packages |
| `scheme_validator.py`, `completion_validator.py`, `value_with_trace.py` | `SchemeValidator`, `Generation` | positions in error texts |
| `generation.py`, `config.py` | `Generation` | command line of the application |
| `when.py`, `bash_when.py`, `zsh_when.py`, `fish_conditions.py` | `When`, `FishUtils` | `grep -E` (a parameter) |
| `pattern.py` | `Pattern` | |
| `help_parser.py`, `help_converter.py` | `HelpParser`, `HelpConverter`, `HelpYaml` | reading the file |
| `bash_parser*.py`, `bash_patterns.py`, `bash_utils.py` | `BashParser`, `BashPatterns`, `BashUtils` | text layout of the parser; the scripts are interpreted as data (clauses) |
| `bash.py`, `bash_option_completion.py`, `bash_option_strings_completion.py`, `bash_positionals_completion.py` | `BashOffers` | fixed text is modelled by what Bash does with it; `wraps` (see `Wraps`), captured variables and the layout are left out |
| `bash.py` 165-197 | `Wraps` | `_command_offset` and the functions are parameters |
| `bash_complete.py` | `Choices` (choices), `Ranges`, `CommandPath`, `Combine`, `KeyValue`, `ValueList`; elsewhere the completer is a parameter | the other completers |
| `fish.py`, `fish_utils.py`, `fish_conditions.py`, `fish_prepare.py` | `FishUtils`, `FishQuery` | wrapped commands, aliases, captured options |
| `fish_helpers.py` | `FishRuntime` (the functions used in conditions), `FishQuery` (`query_init`), `FishFiles` (file filters), `FileCompleter` (`filedir`), `ValueList` (`list`), `FishKeyValue` (keys and values, also from commands), `PrefixCompleter` (`prefix`), `Numbers` (`number`), `FishCommandLine` (`commandline_string`), `MimeFile` (`mime_file`), `DateFormat` (`date_format`) | |
| `bash_helpers.py` | `BashWords` (`dequote`, `parse_line`, command lines), `ValueList` (`value_list`), `KeyValue` (the keys left), `KeyValueRun` (keys and values, also from commands), `PrefixCompleter` (`prefix`), `Exec` (`exec`, `exec_fast`; also of `zsh_helpers.py`), `Numbers` (`number`), `FileCompleter` (`file_filter`), `PrefixReply` (`prefix_compreply`), `MimeFile` (`mime_file`, `history`; also of `zsh_helpers.py` and `fish_helpers.py`), `SystemLists` (mount points, sound cards; also of the other shells) | time zones, locales, character sets |
| `fish_complete.py` | `FishFiles` (file filters), `Choices` (choices), `Ranges`, `CommandPath`, `Combine`, `KeyValue`, `ValueList`; elsewhere the completer is a parameter | the other completers |
| `zsh_utils.py` 15-160, `zsh.py` 22-248 | `ZshUtils`, `Zsh` | the texts of actions (`zsh_complete.py`; a parameter, quoted as `get_action_string` quotes them), `make_file_extension_pattern` |
| `zsh_helpers.py` 9-373, 401-451, `zsh.py` 110-168, `zsh_when.py` | `ZshQuery`, `ZshKeyValueExec` (401-451), `FileCompleter` (509-512) | `with_incomplete`, debugging; `${(Q)...}` and regular expressions are parameters; what `_arguments` itself parses |
| `zsh.py` 110-166, 232-286 | `ZshScript`, `ZshStyles` | the sections that offer options and arguments (see `Zsh`) |
| `zsh.py` 133-149, `zsh_helpers.py` 75-93, `fish_prepare.py` 54-70, `fish_helpers.py` 490-510 | `Zsh`, `Capture` | Bash (see `BashParser`); the scope of variables |
| `zsh_complete.py` | `Choices` (choices), `Ranges`, `CommandPath`, `KeyValue`, `ValueList` | the other completers |
| `zsh_wrapper.py` | `ZshWrapper` | the fixed text of the function is modelled by what zsh does with it; the inserted patterns are texts, read by `SpecZshPattern.v` |
| `zsh.py` (text of a function) | `ZshCode` | the sections other than the options are parameters here (see `Zsh`, `ZshScript`, `Capture`) |
| `application.py` 198-404, `paths.py` | `Application` | argparse and `shlex` (parameters), messages; the operating system is a record of functions |
| `manual.py` | not modelled: texts | |


## How to read seeded/LOG.jsonl

Each line is one edit of one definition of the model, tried in a scratch copy.
`failed_lemmas` names (at most twelve) statements whose proof script was seen to stop compiling.
`failed` names property theorems whose proofs rest on such a statement. Most of them were not
themselves seen to fail: the build stops at the first broken lemma of a file and, in the later
rounds, is run once per edit. A broken script shows that the theorem notices the edit; it is not a
proof that the theorem is false of the edited program.

Correction: until commit 4c86257 the dependents were found by matching bare lemma names as words
across all files, so equal names in different files made unrelated theorems look dependent. 101
names in 25 of the 322 lines were of theorems that do not depend on the edited definition; they have been
removed. No line lost all its theorems. The dependents of later lines come from coqc's .glob files.
The 322 older lines may still name theorems that depend on the edited definition but not on the
statement that failed.
## Properties: what is modelled and how each is proved

| id | property | modelled | proof |
|---|---|---|---|
| C01 | Shell quoting is faithful | `shell.quote`, `needs_quote`; spec: POSIX word lexer with expansions flagged | induction on the string per quoting strategy |
| C02 | A list of quoted words is read back as that list | `join_quoted` on top of C01 | lexer composes over blanks; induction on the list |
| C03 | The when-condition lexer understands everything quote produces | `Lexer`, `StringStream` quote parsing | same, against the code's own lexer |
| C04 | Quoting is faithful under fish's rules | `quote` against a fish lexer | restricted positive theorem, refutation witness for the full claim |
| C05 | Generated identifiers are valid shell identifiers | `make_identifier` (its four passes) | induction; character-class invariants per pass |
| C06 | Option strings have exactly one style | option string predicates and getters | case analysis |
| C07 | Abbreviations are unambiguous | abbreviation generators | induction over words and lengths |
| C08 | Abbreviations are complete | abbreviation generators | induction over words and lengths |
| C09 | No option abbreviation names two different options | abbreviation generators | induction over words and lengths |
| C10 | Subcommand abbreviations never collide with sibling aliases | `get_all_command_variations` | positive part (no alias clash), refutation witness |
| C100 | What is validated is what is converted | `convert_scalar` with Python's `int` and `float`; spec `SpecYamlScalar.v`: the resolver of PyYAML | case analysis on the first characters (`YamlScalarProofs.v`); documents by tree induction; counterexamples run through the validator |
| C101 | Ranges of integers offer the same numbers in all shells | the texts for ranges in the three shells (`Ranges.v`); spec `SpecRanges.v`: brace expansion, `seq`, `compgen -W`, and the set of numbers meant | arithmetic on quotients (`RangesProofs.v`); the readers run over the texts |
| C102 | Commands are searched on the PATH the definition asks for | the texts for commands (`CommandPath.v`); spec `SpecCommandPath.v`: words with variables in POSIX shells and fish, PATH behind the assignment, the PATH meant | quoted words in both readers with variables (`CommandPathProofs.v`); what validation accepts from C84 |
| C103 | Combined completers offer what each of them offers | completion objects of Bash with `get_code(append)` as lists of commands, with their text, and the lines of fish (`Combine.v`); spec `SpecCombine.v`: the variables of the function, and what is meant by a tree of completers | invariants on the variables, by induction on the tree (`CombineProofs.v`) |
| C104 | Key-value lists and pairs offer the defined keys | the code for key-value lists and pairs in the three shells, and the keys left in Bash's helper (`KeyValue.v`); spec `SpecKeyValue.v`: lines that fill an array, the command at the end, how `_values` reads its arguments | each line is read in one way, by induction over the entries (`KeyValueProofs.v`); the helper's associative arrays against the entries |
| C105 | A zsh script hands over to the function of the command that was typed | the functions of a script with the sections that hand over (`ZshScript.v`); spec `SpecZshScript.v`: how zsh reads the `case` statement and the variables, which definition of a function counts, which function is reached | the text is read back into its branches, then induction over the tree with C95 (`ZshScriptProofs.v`); names from C64 |
| C106 | Captured variables hold the values of their option | what `get_option` prints, and the lines and the helper of fish (`Capture.v`; the zsh text is in `Zsh.v`); spec `SpecCapture.v`: the value of `IFS`, field splitting, the assignments in order; the values given | the lines are read back; the last assignment counts; C95 and C83 for what the helpers found (`CaptureProofs.v`) |
| C107 | Parsers made with argparse are converted faithfully | argparse's parsers as data, and their conversion (`Argparse.v`); spec `SpecArgparse.v`: what an argument becomes, what a parser becomes (`converted`), same group, which parsers are `supported` | induction over parsers; the loop is characterised by what it adds (`loop_ok`), in both directions (`ArgparseProofs.v`); valid trees from C23 |
| C108 | In zsh, nosort keeps the suggestions of exactly the arguments it is set for in order | the `zstyle` lines of a script (`ZshStyles.v`); spec `SpecZshStyles.v`: patterns with stars, the contexts `_arguments` sets up, when a line applies | a line fits a context in one way only, because the fields have no colons (`one_way`); then by cases over the lines (`ZshStylesProofs.v`) |
| C109 | A wrapped command's completion sees the words that are meant for it | `zsh_wrapper.py`: the patterns and regular expressions as texts, the loop over the words, the new `words` and `CURRENT` | `SpecZshPattern.v` reads and matches the texts; lemmas say what each of them matches; induction over the reading of the words |
| C11 | Compact case patterns match exactly the given strings | trie, pattern emission; spec: extglob matcher | trie invariant + induction over the trie; witness for digits |
| C110 | The text of a zsh function hands the arguments to _arguments | the text of the code for the arguments (`Zsh.option_parsing_text`) and of the whole function with its indentation (`ZshCode.v`); spec `SpecZshCode.v`: joined lines, conditions, additions to the array, the call | quotes are balanced in every condition and specification (`level`, `ZshCodeProofs.v`); texts with one line each stay so (`ZshLines.v`); then with C93 (`ZshCodeMain.v`) |
| C111 | Bash scripts understand the word that is being typed | `bash_helpers.py`: `dequote`, character by character (`BashWords.dequote`); spec `SpecBashWords.v`: what Bash means by a word that is being typed, with the way each character is written | induction over the word for each place a character may be in |
| C112 | A command line in an argument is completed like one of its own | `bash_helpers.py`: `parse_line`, `get_prefix_suffix_len` and the completion of command lines (`BashWords.v`) | induction over the words of the line; the overlap is the longest one |
| C113 | In a list of values, each shell offers the values that may come next | `value_list` in `bash_complete.py`, `fish_complete.py`, `zsh_complete.py` and the helpers (`ValueList.v`); spec `SpecValueList.v`: elements, the last one being typed, which values fit | the typed word is split into its elements; the texts of the calls are read back by `SpecShell`, `SpecChoices` and `SpecKeyValue` |
| C114 | A command tree written as JSON or YAML is read back as the same tree | `yaml_source.py` 23-137 and `json_source.py` 22-27: `json.dumps` of every value, the lines of options, positionals and programs, the documents (`YamlText.v`); spec `SpecYamlText.v`: a reader of JSON and of the part of YAML 1.1 written in its style, line by line | values are read back by induction (`YamlTextProofs.v`, `YamlTextMain.v`); lines and blocks (`YamlTextDocs.v`), then the documents of the tree (`YamlTextTree.v`); with C25 the tree itself |
| C115 | The definition made from a help text is read as what was found in it | `help_converter.py` 96-138, the text that is written (`HelpYaml.v`), on top of `HelpConverter.v` and `YamlText.v`; spec `SpecYamlText.v` (comments, forbidden characters, line ends) | the characters of everything that is written come from the help text (C36); the lines of each option are read back as in C114, comments are skipped (`HelpYamlProofs.v`) |
| C116 | A script registers itself for the program and its aliases, and notes are only notes | `output.py` and the outer layer of `generate_completion` in `bash.py`, `fish.py`, `zsh.py` (`Output.v`); the code of helpers, functions and wrappers is arbitrary text; spec `SpecOutput.v`: lines that are commands, what registers a name in each shell | the commands of a script are those of its parts, in order (`OutputProofs.v`); the registering line is read by `SpecShell` |
| C117 | The program changes what it was asked to change, and nothing if it fails | `application.py` 198-246, 283-404 and `paths.py` (`Application.v`): effects on files and standard output are a list, loaders and generators are functions of the environment; spec `SpecApplication.v`: what is asked for, extensions, the commands of a batch file | by cases along `generate`; induction over the lines of a batch file |
| C118 | The parser of a Python file is the one that is converted | `argparse_source.py` 196-258, `file_loader.py` (`PyLoader.v`): Python is reduced to modules, names and objects; spec `SpecPyLoader.v`: parsers without a parent, files that Python finds under their own name | `list.remove` on lists without duplicates; the search along `sys.path` by induction (`PyLoaderProofs.v`) |
| C119 | Options of the program set what they name | `application.py` 26-51, 249-280, `config.py` 334-348, `bash_versions.py` (`Settings.v`); spec `SpecSettings.v`: versions compared as numbers, missing numbers are 0 | what `int` reads from a printed number is that number; induction over the list of features |
| C12 | Compact case patterns with numbers match exactly the given strings | trie, pattern emission; spec: extglob matcher | trie invariant + induction over the trie; witness for digits |
| C120 | A program that wraps another one is completed like it | `bash.py` 165-197, the wrapper for another command (`Wraps.v`); spec `SpecWraps.v`: patterns and `${text/pattern/replacement}` in Bash | plain names match themselves at the beginning of the line (`WrapsProofs.v`); counterexamples run |
| C121 | Behind a prefix, the completer is asked for what follows it | the completer `prefix`: `bash_helpers.py` 600-688 character by character, `zsh_helpers.py` 378-386, `fish_helpers.py` 512-518, 648-658 (`PrefixCompleter.v`); spec `SpecBashWords.v` (what a typed word means) and `SpecPrefix.v` (what is on the command line when a suggestion is accepted) | induction over the length of the typed word: each step takes one meant character and keeps how the rest is written (`PrefixProofs.v`) |
| C122 | Items that a command prints are offered as they are | the helpers for `exec` and `exec_fast`: `bash_helpers.py`, `zsh_helpers.py` (`Exec.v`); spec `SpecExec.v`: what a command prints (from the documentation), when a word stands for a text | reading lines and fields undoes printing them; `printf %q` against `SpecBashWords`, `_describe` against `SpecChoices` (`ExecProofs.v`) |
| C123 | Completing keys and values in Bash keeps the elements that were typed | the helpers for keys and values in Bash: `bash_helpers.py` 317-571, `key_value_list`, `key_value_pair`, `key_value_pair_exec`, `key_value_list_exec` (`KeyValueRun.v`, with `dequote`, `read` and `exec` from the models of C111, C113, C122); spec `SpecKeyValueRun.v` (what was typed, what a command prints), `SpecPrefix.v` (what is on the command line when a suggestion is accepted) and the keys that are left of C104 | the text behind the last separator that is a word break is what readline replaces (`KeyValueRunProofs.v`); reading what is printed undoes printing it |
| C124 | Completing keys and values in Fish offers exactly the keys that are left, behind what was typed | the helpers for keys and values in Fish: `fish_helpers.py` 660-908, `key_value_list`, `key_value_pair`, `key_value_pair_exec`, `key_value_list_exec` (`FishKeyValue.v`); spec: the keys that are left of C104 (`SpecKeyValue.v`), what was typed and what a command prints (`SpecKeyValueRun.v`, `SpecFishKeyValue.v`) | the indices that remain are those of the keys that no typed key excludes (`FishKeyValueProofs.v`) |
| C125 | Behind a number, its suffixes are offered | numbers with limits and suffixes: `bash_complete.py` 257-272, `fish_complete.py` 478-493, `zsh_complete.py` 351-385, `bash_helpers.py` 744-754, `fish_helpers.py` 1031-1044 (`Numbers.v`); spec `SpecNumbers.v` (numbers, the words of `_numbers`) | the number is the longest beginning of digits and marks; splitting at the first colon undoes joining (`NumbersProofs.v`) |
| C126 | Completing a command line in one argument keeps the words in front | command lines in one argument in Fish: `fish_helpers.py` 940-981 (`FishCommandLine.v`); spec `SpecFishCommandLine.v` (what `complete -C` prints, where the last word begins) | induction on the length of the overlap: one that is longer than the word contains a blank (`FishCommandLineProofs.v`) |
| C127 | Keys and values that a command prints are completed in zsh as they are printed | keys and values that a command prints, in zsh: `zsh_helpers.py` 401-451 (`ZshKeyValueExec.v`); spec: what a command prints (`SpecKeyValueRun.v`, `SpecExec.v`), how `_values` reads its arguments (`SpecKeyValue.v`) and zsh words (`SpecZsh.v`) | reading what is printed undoes printing it (as for C123); reading an argument undoes escaping the description (`ZshKeyValueExecProofs.v`) |
| C128 | File completers offer the files of the definition's directory, with its extensions, without the ignored ones | completing files and directories: `bash_complete.py` 301-346 with `file_filter`, `fish_complete.py` 172-242 with `filedir`, `zsh_complete.py` 393-433 with `path_files_relative` (`FileCompleter.v`); what lists files, changes the directory and matches patterns are parameters; spec `SpecFileCompleter.v` | running the lines of the code; C74, C75 and C40 for the patterns (`FileCompleterProofs.v`) |
| C129 | Completing a value that is attached to a short option keeps the option | values attached to short options in Bash: the helper `prefix_compreply` (`PrefixReply.v`) behind the dispatcher of `BashOffers.v`; spec `SpecPrefix.v`, `SpecPrefixReply.v` | the dispatcher splits the word in two at every call; a word break of the word is one of the value (`PrefixReplyProofs.v`) |
| C13 | Conditional blocks of templates are selected correctly | `preprocess` on lines | structured-document induction; acceptance automaton |
| C130 | mime_file offers exactly the directories and the files whose type fits | files by their MIME type: the helpers `mime_file` of the three shells (`MimeFile.v`); what `file` prints is specified (`SpecMimeFile.v`), the search for the pattern is a parameter | reading what is printed undoes printing it: lines, the last colon, octal digits (`MimeFileProofs.v`) |
| C131 | history offers exactly the texts found in the history | texts of the history: the helpers `history` of Bash and zsh (`MimeFile.v`); what `grep -o` prints is given | as for C130; quoting as for C122 (`MimeFileProofs.v`) |
| C132 | mountpoint offers the mount points | mount points: the helpers `mountpoint` of Bash and zsh (`SystemLists.v`); what `findmnt` prints is given | reading lines undoes printing them; quoting as for C122 (`SystemListsProofs.v`) |
| C133 | alsa_card and alsa_device offer the sound cards with their titles | sound cards: the helpers for ALSA of the three shells (`SystemLists.v`); spec `SpecSystemLists.v` (what `aplay` and `grep` print), `_describe` as in C99, readline as in C121 | the parts of a line; a line determines its card, for `uniq` (`SystemListsProofs.v`) |
| C134 | Definitions accepted by the validation can be imported | the validation (`SchemeValidator.v`) and the import (`DictSource.v`); spec `SpecImport.v` | what the validation checks of each parameter is what the readers of the import need; then the accepted lists of C07 and the constructors of C55 (`ImportProofs.v`) |
| C135 | Completing date formats in Fish finishes conversions | the helper `date_format` of Fish (`DateFormat.v`); spec `SpecDateFormat.v` (formats of `strftime`) | a format is a list of items; its last character (`DateFormatProofs.v`) |
| C136 | Exported command lines pass the validation | the export (`DictSource.v`), the check of the generator (`Generation.v`) and the validation (`SchemeValidator.v`) | each exported dictionary is checked like the one the generator checks: parameters that are left out have no influence (`ExportValidProofs.v`) |
| C137 | The addresses offered are of the kind that is asked for | the code for IP addresses in the three shells (`IpAddress.v`), line by line; spec `SpecIpAddress.v` (which addresses are wanted; `_ip_addresses`, `__fish_print_addresses`, `string match -e`, `_bind_addresses`) | each kind that the validation accepts is run symbolically; membership of the replies (`PropertiesIpAddress.v`); refuted for Fish and interfaces like `eth0.100` |
| C138 | Messages are in the language that the environment asks for | the choice of the language (`Lang.v`): variables of the environment, the locale of the system, the test in each message; spec `SpecLang.v` (locales, order of variables) | cutting at `_` and `.` gives the language; the chain of `or` picks the first variable (`PropertiesLang.v`); refuted for `de:en` and `de@euro` |
| C139 | The manual shows whole entries and no control sequences in files | the pages of the manual and the list of topics (`Manual.v`), for any list of entries; spec `SpecManual.v` (a page shows a text, lines behind blanks, words of a listing) | parts of joined texts are shown; stripping and indentation keep visible lines; wrapping keeps the names (`ManualProofs.v`) |
| C14 | Unbalanced conditional blocks are rejected | `preprocess` on lines | structured-document induction; acceptance automaton |
| C140 | uid and gid offer the numbers of all users and groups in Zsh | the helpers for numbers of users and groups in Zsh (`UidList.v`): `awk`, the words of the array; spec `SpecUidList.v` (lines of `getent`), `SpecChoices.v` (`_describe`) | fields of a line, words of the printed items (`PropertiesUidList.v`); refuted for names with blanks or backslashes |
| C141 | Locales, character sets and time zones are offered as they are on the computer | the helpers for locales, character sets and time zones (`NameLists.v`); spec `SpecNameLists.v` (names, files below `/usr/share/zoneinfo`) | words of printed lines; removal of the leading folder; the two folders that are left out (`PropertiesNameLists.v`) |
| C142 | Errors in definitions tell one place | the text of an error with the place of the value (`ErrorText.v`); the marks of the YAML parser are given; spec `SpecErrorText.v` (reading the text) | decimal numbers are read back; digits end where something else begins (`PropertiesErrorText.v`) |
| C15 | Wrapped lists lose and reorder nothing | `join_with_wrap`, `indent` | induction over items / lines |
| C16 | Indentation is reversible and leaves blank lines alone | `join_with_wrap`, `indent` | induction over items / lines |
| C17 | Grouping keeps every element once and in order | `algo.py` | list induction |
| C18 | De-duplication and partitioning are exact | `algo.py` | list induction |
| C19 | Digit-range detection is exact | `algo.py` | list induction |
| C20 | Subcommands see exactly the right inherited options | `cli.py` command tree | induction over trees and ancestor lists |
| C21 | Positional arguments are numbered consistently | `cli.py` command tree | induction over trees and ancestor lists |
| C22 | Mutual exclusion is symmetric and irreflexive | `cli.py` command tree | induction over trees and ancestor lists |
| C23 | Copying a command line gives an equal tree | `cli.py` command tree | induction over trees and ancestor lists |
| C24 | Subcommand names stay unique | `cli.py` command tree | induction over trees and ancestor lists |
| C25 | Definitions survive the round trip through dictionaries | `dictionary_source.py` | round trip by tree induction; fold invariants |
| C26 | Orphan and duplicate subcommand definitions are rejected | `dictionary_source.py` | round trip by tree induction; fold invariants |
| C27 | Settings left to inherit are always resolved | `generation._apply_config` | per-field case analysis, tree induction; witness |
| C28 | Enabling abbreviations and repeatable options cannot invalidate a definition | `generation._apply_config` | per-field case analysis, tree induction; witness |
| C29 | Used helper functions are emitted with all their dependencies, once | `helpers.py` state machine | invariant over operation lists |
| C30 | Generated helper functions get unique names | `helpers.py` state machine | invariant over operation lists |
| C31 | YAML documents are rebuilt exactly | `ExtendedYAMLParser` event handling with its objects on a heap (`YamlParser.v`); spec `SpecYaml.v`: trees, their events, what an object stands for | tree induction over event streams, with the part of the heap that a subtree occupies |
| C32 | Every definition at every depth is validated | `scheme_validator.py` pieces | fold invariants, arithmetic, witnesses |
| C33 | Nested completers are judged independently | `scheme_validator.py` pieces | fold invariants, arithmetic, witnesses |
| C34 | At most one repeatable positional, and it is the last | `scheme_validator.py` pieces | fold invariants, arithmetic, witnesses |
| C35 | Ranges are well-founded | `scheme_validator.py` pieces | fold invariants, arithmetic, witnesses |
| C36 | Help texts are parsed without loss and without crashing | `help_parser.py` | fuelled parser, progress measure, witness for the crash |
| C37 | when-conditions keep their meaning in the generated script | `when.py`, `shell_parser.py`, generators | shell-list evaluator; grammar of accepted token lists |
| C38 | Accepted when-conditions are well-formed | `when.py`, `shell_parser.py`, generators | shell-list evaluator; grammar of accepted token lists |
| C39 | Cached conditions in fish change nothing | `fish_utils.VariableManager` | invariant over histories |
| C40 | Glob patterns are translated faithfully | `pattern.py`; spec: glob and regex semantics | tree induction |
| C41 | Escaping for zsh completion specs is reversible | `zsh_utils` escapes (`ZshUtils.v`); spec: the readers of `SpecZsh.v` | string induction for texts without backslashes in front of special characters; witnesses otherwise |
| C42 | The generated Bash parsers use the options of the command that was typed | `bash_parser*.py`, `bash_utils.py` | prefix reasoning, witnesses |
| C43 | Different options are captured in different variables | `bash_parser*.py`, `bash_utils.py` | prefix reasoning, witnesses |
| C44 | Generation does not change the caller's definition | aliasing of completer dictionaries in copies | small heap model, witness |
| C45 | Quoting is faithful for zsh | `quote` against zsh's rules | as C01; witness for `=` |
| C46 | Sparse list assignments | sparse lists | list induction |
| C47 | Accepted program strings denote one command path | `prog` strings of definitions | split lemmas; witness for no-break spaces |
| C48 | Tidying generated code only removes surplus empty lines | tidying of generated code | induction over lines |
| C49 | Comment stripping | tidying of generated code | induction over lines |
| C50 | Options with arguments are a filter of the visible options | option queries of `cli.py` | filters over the visible options; witnesses |
| C51 | Looking up options by option strings | option queries of `cli.py` | filters over the visible options; witnesses |
| C52 | Every subcommand is offered under its name with its own help | `get_choices` | fold invariant; witness |
| C53 | The option list for query helpers is decodable | option queries of `cli.py` | filters over the visible options; witnesses |
| C54 | Visiting reaches every command exactly once, parents first | tree walks | tree induction |
| C55 | Constructors accept exactly the valid descriptions | constructors of `cli.py` | case analysis against a declarative spec |
| C56 | Single tests of conditions are read exactly as written | tests of `when.py`, fish condition commands | lexer composition; witnesses |
| C57 | Condition commands in fish scripts keep their words | tests of `when.py`, fish condition commands | lexer composition; witnesses |
| C58 | Walking a command tree | tree walks | tree induction |
| C59 | Defines are substituted everywhere and only there | defines, deprecated groups, repeated import | tree induction; heap witness |
| C60 | Deprecated option groups keep their meaning | defines, deprecated groups, repeated import | tree induction; heap witness |
| C61 | Importing a list of definitions can be repeated | defines, deprecated groups, repeated import | tree induction; heap witness |
| C62 | References between helper functions are renamed consistently | helper functions, function names | word-boundary lemmas, graph invariants, computation over the shipped table |
| C63 | All functions of a script have different names | helper functions, function names | word-boundary lemmas, graph invariants, computation over the shipped table |
| C64 | Different subcommands have different completion functions | helper functions, function names | word-boundary lemmas, graph invariants, computation over the shipped table |
| C65 | The shipped helper functions always generate | helper functions, function names | word-boundary lemmas, graph invariants, computation over the shipped table |
| C66 | Option patterns recognise exactly the option | `bash_patterns.py`, `bash_utils.py` | extglob matcher, witnesses |
| C67 | Extension patterns ignore case and nothing else | `bash_patterns.py`, `bash_utils.py` | extglob matcher, witnesses |
| C68 | Sub-command patterns match exactly the command's names | `bash_patterns.py`, `bash_utils.py` | extglob matcher, witnesses |
| C69 | Captured options get valid variable names | `bash_patterns.py`, `bash_utils.py` | extglob matcher, witnesses |
| C70 | The first generated Bash parser understands every command line | `bash_parser.py`, `bash_parser_v2.py`; spec: `SpecParser.usage` | simulation by induction over usages |
| C71 | The second generated Bash parser understands every command line | `bash_parser.py`, `bash_parser_v2.py`; spec: `SpecParser.usage` | simulation by induction over usages |
| C72 | It makes no difference which Bash parser is generated | `bash_parser.py`, `bash_parser_v2.py`; spec: `SpecParser.usage` | simulation by induction over usages |
| C73 | An option typed in full is not mistaken for an abbreviation | `bash_parser.py`, `bash_parser_v2.py`; spec: `SpecParser.usage` | simulation by induction over usages |
| C74 | Ignored files are the files that match | `pattern.py` users, errors | regex matching lemmas, totality |
| C75 | File extensions select the right files | `pattern.py` users, errors | regex matching lemmas, totality |
| C76 | Invalid patterns are reported as such | `pattern.py` users, errors | regex matching lemmas, totality |
| C77 | A help text in the usual layout is understood | `help_parser.py`, `help_converter.py` | layouts as grammars, induction over entries |
| C78 | Options converted from a help text pass validation | `help_parser.py`, `help_converter.py` | layouts as grammars, induction over entries |
| C79 | Wrapped descriptions become one line | `help_parser.py`, `help_converter.py` | layouts as grammars, induction over entries |
| C80 | fish complete commands say what was defined | `fish_utils.py`, `fish.py`, `fish_conditions.py`, condition functions of `fish_helpers.py` | double quotes inside double quotes: expansion lemmas; condition evaluation by induction over expressions; offers by tree induction |
| C81 | fish offers options, positionals and sub-commands where they belong | `fish_utils.py`, `fish.py`, `fish_conditions.py`, condition functions of `fish_helpers.py` | double quotes inside double quotes: expansion lemmas; condition evaluation by induction over expressions; offers by tree induction |
| C82 | when conditions hold in fish exactly if the command line meets them | `fish_utils.py`, `fish.py`, `fish_conditions.py`, condition functions of `fish_helpers.py` | double quotes inside double quotes: expansion lemmas; condition evaluation by induction over expressions; offers by tree induction |
| C83 | fish scripts understand every command line | `fish_prepare.py`, `query_init` of `fish_helpers.py` | invariant over the words: the positionals so far lead to the current command; definitions that match are those on its path |
| C84 | Validation accepts exactly what the manual describes | `scheme_validator.py` completely | per completer: the checks hold iff the rule of the manual (`SpecValid.v`) holds; composed with C33 and C32 |
| C85 | Validation reports only schema errors | the exceptions of `scheme_validator.py` | witnesses for the crashes |
| C86 | Bash offers exactly the options that apply | `bash.py`, `bash_option_completion.py`, `bash_option_strings_completion.py`, `bash_positionals_completion.py`; spec: `SpecBash.v` | generated conditions and patterns are evaluated; composed with C70/C71 over every usage |
| C87 | Bash completes the argument of the right option | `bash.py`, `bash_option_completion.py`, `bash_option_strings_completion.py`, `bash_positionals_completion.py`; spec: `SpecBash.v` | generated conditions and patterns are evaluated; composed with C70/C71 over every usage |
| C88 | Bash completes the right positional argument | `bash.py`, `bash_option_completion.py`, `bash_option_strings_completion.py`, `bash_positionals_completion.py`; spec: `SpecBash.v` | generated conditions and patterns are evaluated; composed with C70/C71 over every usage |
| C89 | Bash asks the functions of the right sub-commands | `bash.py`, `bash_option_completion.py`, `bash_option_strings_completion.py`, `bash_positionals_completion.py`; spec: `SpecBash.v` | generated conditions and patterns are evaluated; composed with C70/C71 over every usage |
| C90 | Bash scripts call only functions they define | names of functions in `bash.py` | tree induction |
| C91 | when conditions hold in Bash exactly if the command line meets them | `bash_when.py`; spec: `SpecBash.simple_command`, `cond_value` | raw words and expansions of every generated command, induction over expressions |
| C92 | Bash and fish offer the same options | both models together (`BashOffers.v`, `FishQuery.v`, `FishConditions.v`); spec: `SpecAcross.v` (common language: `SpecQuery.typed`) | a typed command line has a meaning for both parsers (`Across.typed_usage`); the command reached is unique; values of variables and typed options correspond; conditions by induction; then C81, C83 and C86 |
| C93 | zsh functions hand the right specifications to _arguments | `zsh_utils.py` and the part of `zsh.py` that makes the array for `_arguments` (`Zsh.v`); spec: how zsh reads array elements, with brace expansion, and how `_arguments` reads a specification (`SpecZsh.v`, `SpecZshFunction.v`) | the text is read word by word (`ZshReading.v`), each word is read back (`ZshSpecs.v`), then induction over the lists of options and positionals (`ZshFunction.v`) |
| C94 | zsh offers an option exactly when it may be used | the specifications of C93; spec: what `_arguments` offers for specifications and given options | from C93 by case analysis on the exclusion lists (`ZshOffers.v`) |
| C95 | zsh functions understand the command line | the helper `query` and the dispatch to sub-commands (`ZshQuery.v`); spec: `SpecQuery.typed`, `SpecZshQuery.v` | induction over the typed line for the option list of any command on the path (`ZshQueryMain.loop_right`), then induction over the path |
| C96 | zsh conditions hold exactly when they are met | `option_is`, `has_option`, `option_match`, `array_contains` and arithmetic on the text of conditions (`ZshQuery.zsh_truth`); spec: `SpecOffered.cond_holds` | the words of each test are read back and its status computed (`ZshConditions.v`); conditions by C37 |
| C97 | For every command line zsh offers exactly the options to be offered | all of the above | C93 to C96 together |
| C98 | For every command line zsh completes the right positional argument | the same; spec: which specification `_arguments` uses for the next word (`SpecZshFunction.zsh_completes`), `SpecOffered.positional_offered` | arithmetic on numbers of positionals along the path (`ZshPositionals.v`), with C93, C95, C96 |
| C99 | The shells offer exactly the choices of the definition | the three completers of choices (`Choices.v`), with `get_code`, `indent`, `join_with_wrap` and `quote` of the earlier models; spec `SpecChoices.v`: how zsh reads an action or a function with `_describe`, fish an argument of `complete -a` or a function with `printf`, Bash `compgen -W` or the helper for values | the wrapped, indented and preprocessed code is a list of lines of quoted texts (`ChoicesEmit.v`); each shell's reader run over it (`ChoicesZsh.v`, `ChoicesFish.v`, `ChoicesMain.v`) |

## State

The notes say what is missing from partial theorems and what is false of the code.

| id | status | note |
|---|---|---|
| C01 | proved | full claim, against a POSIX word reader that flags every expansion |
| C02 | proved | full claim |
| C03 | proved | full claim, plus termination of the modelled lexer on every text |
| C04 | partial | full claim is false (backslash; backtick in double quotes), see the _refuted theorems; proved for strings without backslash and backtick |
| C05 | proved | full claim, with an exact characterisation of the empty identifier |
| C06 | proved | full claim: exact characterisation of each style, and the getters partition the strings |
| C07 | proved | full claim |
| C08 | proved | full claim |
| C09 | proved | full claim |
| C10 | partial | full claim is false (aliases of siblings are ignored, see _refuted); proved that every collision involves an alias, and that variations always include name and aliases |
| C100 | partial | Proved for documents whose plain scalars are ordinary words or decimal integers in the usual notation, and for quoted ones. Refuted otherwise: nan, -inf, 1e3, 0x1 are rejected although YAML reads a text or a good number; tRUE is accepted although YAML reads a text; 010 is validated as 10 and converted as 8; scalars at the root get lost or leak into the next document. |
| C101 | partial | Proved for integers of at most 64 bits. Refuted for booleans, which validation takes for integers: Bash and zsh offer the text {True..5}, fish nothing. |
| C102 | partial | Proved for Bash and zsh without restriction, for fish if no directory has a backslash or a backtick (refuted otherwise: two backslashes become one). |
| C103 | partial | Proved for nestings of any depth without the following, each of which is refuted: in Bash a list behind other completers that contains combined completers with functions (the saved candidates are overwritten), a list in a list (the word typed is not restored), a list without candidates behind other completers (it repeats theirs); in Bash and fish a completer behind one that changes PATH. zsh is not modelled here. |
| C104 | partial | Bash: proved for all entries what the helper gets, and which keys are left if each key has one entry. fish: for texts without backslashes and backquotes; zsh: for keys of harmless characters. Refuted: in fish the condition of a pair is asked about the name of the condition function; in zsh the backslash in front of a colon is not quoted and keys are not quoted; a key that may be repeated cannot be excluded; a key with and one without a star are both accepted. |
| C105 | partial | Proved for the definitions and command lines of C95, commands with names (of sub-commands: not starting with an equals sign) and functions of different names; the functions have different names if the names of sub-commands consist of letters and digits. Refuted: 'remote add' and 'remote-add' have one function name, and the later definition replaces the earlier. |
| C106 | partial | zsh: proved for options of the selected command given at most once, with values without dollars, backslashes, newlines and the letter n. fish: proved for all values, if the variable belongs to one option and the strings have no special characters. Refuted: zsh splits at dollar, backslash and the letter n ('json' becomes 'jso') and not at newlines; in fish another option with the same variable empties it; option strings are not quoted in fish. |
| C107 | partial | Fidelity, validity, exclusivity and the class of parsers that are converted are proved in full. Findings: a tuple as metavar (nargs=2, metavar=('W','H')), which argparse allows, raises CrazyError; a positional argument or a sub-command whose help is SUPPRESS is described as '==SUPPRESS=='; a parser like cp's (several sources, then a destination) is converted but refused by the validation. Help texts are copied as they are: %% and %(default)s, which argparse expands, stay in the descriptions. |
| C108 | partial | Proved: exactly which options and positions are unsorted. Findings: an option whose string continues, after a dash, that of an option with nosort (--sort-by beside --sort) is not sorted either; repeatable positional arguments are always sorted (their context is argument-rest); the positional arguments of sub-commands get the wrong number (the names of the commands are not counted), so that other arguments are hit; nothing is unsorted when the program is called by an alias. Missing: option strings and program names with characters that are special in patterns. |
| C109 | partial | C109_wrapped_partial: for simple option strings and a cursor word that is passed on. C109_reading: the reading of a command line exists and is unique. Refuted: words after -- are still taken out; the cursor can be behind the last word; names with three dashes. |
| C11 | proved | Proved for all lists of non-empty strings without pattern characters whose endings are no numbers, against an independent reader and matcher of extended globs (SpecGlob.v). |
| C110 | partial | Proved for the code itself under the conditions of C93, and for the whole function if the texts of the definition have one line each. A second line of a description is indented inside the quotes (counterexample). wraps is missing. |
| C111 | partial | Proved for every word in which no backslash stays in double quotes, and for every text that is quoted by the script or by printf %q. Counterexample: in double quotes, a backslash before a character that is not special there is dropped, although Bash keeps it. |
| C112 | partial | Proved for lines whose words have no blanks in quotes and candidates that overlap with the last word only; the overlap is the longest one. Counterexamples: quotes in the line do not keep blanks together; a candidate with blanks that overlaps with more than the last word. |
| C113 | partial | Proved: in Bash, for separators other than blanks, if the last element is no value yet and has no word break in it (if it is a value, the separator is offered); in fish, for separators other than a star and texts without backslashes, backquotes and line breaks; in zsh, that _values reads each value with its description, for values of harmless characters (the builtin _values itself is not modelled). Counterexamples: in Bash a value hides those it is the beginning of, word breaks repeat the beginning, blanks are not quoted; in fish a star as the separator; in zsh a colon in a value. |
| C114 | partial | JSON: keys are texts, no lone surrogates, finite floats.  YAML: moreover only characters below 65536 and floats with a dot.  Refuted beyond: numbers as keys become texts, emoji become two characters in YAML, 1e+16 becomes a text in YAML. |
| C115 | partial | Help texts with characters below 65536 that YAML allows, lines ended by line feeds, and program names of visible ASCII characters without double quotes and backslashes.  Refuted beyond: backslashes and quotes in the name are not escaped, escape sequences of terminals in a comment make the text unreadable, and without any options the definition is refused. |
| C116 | partial | Names must need no quotes and not look like options; comments must be one line. Violations: a comment with a line break puts a command into the script (--comment); a program called r&d (Bash) or it's (fish) is accepted but not registered; an alias a=b makes zsh complete a like b. |
| C117 | partial | Proved in full for scripts that are made successfully, for Python files, for extensions and for the first failing line of a batch file. Violations: -i and -u are ignored for json and yaml; a text that cannot be encoded leaves an emptied file; a program name with slashes is installed elsewhere; a batch line that uses another batch file or asks for the version ends the batch silently; a batch file that uses itself never ends. |
| C118 | partial | Proved for files that Python finds under their own name and that bind parsers in the usual way. Violations: a parser with two names counts twice; a sub-parser counts as a root if the result of add_subparsers has no name; a file called like another module is not read at all; the fallback for files that cannot be imported never finds their parser (it looks into __main__, but the code ran in file_loader); a file that calls sys.exit ends the program; the program cannot be used on itself. |
| C119 | proved | Options that are only copied and used in the outer layer (debug, function prefix, vim modeline, comments) are covered by C116 and C117 as inputs; argparse itself is not modelled. |
| C12 | partial | Refuted: --opt9 and --opt10 give --opt[9-10]. Proved unless numbers of several characters follow each other where the strings start to differ. |
| C120 | partial | FINDINGS: (1) the typed name of the program is used as a pattern, so a path with brackets is not replaced while the cursor is moved (C120_pattern_refuted); (2) in Bash 5.2 an & in the wrapped name stands for the match (C120_ampersand_refuted); (3) a definition that has nothing but wraps has no function of its own, yet the wrapper calls it: Bash prints an error and the suggestions come twice (C120_only_wraps_refuted). What _command_offset and the functions do is arbitrary; COMP_CWORD is not modelled. |
| C121 | partial | FINDINGS: Bash: (1) a word break inside of the prefix: behind a:b an accepted answer replaces the b (C121_bash_break_refuted), and completing http: to http:// gives http:http:// (C121_bash_url_refuted); (2) a prefix that is begun in quotes is not offered (C121_bash_quotes_refuted); (3) a typed -n is swallowed by echo (C121_bash_echo_refuted); (4) with an empty prefix the completer is never asked (C121_bash_empty_refuted). Zsh: (5) PREFIX has quotes, a prefix with a blank is not found (C121_zsh_quotes_refuted). Fish: (6) the prefix is found anywhere in the argument (C121_fish_anywhere_refuted); (7) a prefix in a prefix asks the completer for the whole argument (C121_fish_nested_refuted); (8) no answers make an empty suggestion (C121_fish_nothing_refuted). Missing in the Bash theorem: backslashes that stay in double quotes. |
| C122 | partial | FINDINGS: (1) a last line without a newline is lost (C122_last_line_refuted); (2) an empty item is replaced by its description (C122_empty_item_refuted); Bash: (3) backslashes and glob characters in items are not quoted: a\b is inserted and means ab, *.c is expanded (C122_bash_backslash_refuted, C122_bash_star_refuted); (4) what was typed with quotes or backslashes is compared as typed (C122_bash_typed_refuted); (5) behind a word break the whole item is inserted again (C122_bash_break_refuted). In Zsh, descriptions with tabulators at their ends are outside. Fish uses the command itself. |
| C123 | partial | Proved for words that are typed without other bare word breaks, and with the separators bare if they are word breaks (or the whole word in quotes). Findings: with another word break or the separator itself in the value, its beginning is doubled (mode=a:b becomes mode=a:a:bc); with a quote that is closed before the separator the key is doubled; with an escaped separator the key is lost; a key that is typed completely is not offered; the excluded keys of a key that a command prints without description are ignored, as read takes two tabulators for one. |
| C124 | partial | Proved if the value that is typed does not contain the separator and keys are typed without separators in them. FALSE in three cases, see C124_*_refuted: if the value contains the separator, its completer is asked for the part behind the last one only, and the suggestions replace the whole value; a key that is typed completely counts as given and is not offered any more; if a command prints a line without a tabulator, the descriptions of the keys behind it move up. That Fish leaves out suggestions that do not begin with what was typed is not modelled. |
| C125 | partial | Proved for suffixes without colon, in Bash for a number without the beginning of a suffix, in zsh for help texts that do not begin with a dash. FALSE in three cases, see C125_*_refuted: in Bash the replies are not filtered, so that completing a number with the beginning of a suffix takes the suffix away; a suffix with a colon is cut; no suffix is offered behind a negative number. What _numbers does is not modelled, only how its words are read. |
| C126 | partial | Proved if the candidates begin with what was typed of the last word and contain no blank. FALSE in two cases, see C126_*_refuted: a candidate with a blank that overlaps more than the last word takes away a word in front; a candidate in another case is put behind the word instead of replacing it. |
| C127 | partial | Proved for keys of letters, digits and _+./-, descriptions that are not empty (in lists) and have no backslashes, and keys that do not both take a value and may be given again. FALSE in three cases, see C127_*_refuted: the command is called with a star in front of a key that may be given again; a colon in a key ends it; without a description, the excluded keys are read as the description. How _values completes is not modelled, only how it reads its arguments. |
| C128 | partial | Findings: patterns to be ignored may be quoted, but in Bash the quotation marks are part of the value of a variable and are compared with the name (C128_bash_quotes_refuted); in Fish a pattern is compared with the path, so that b* hides all files below build/ (C128_fish_path_refuted), and if no file is left one empty item is offered (C128_fish_empty_refuted); in zsh a pattern with a blank becomes two patterns (C128_zsh_blank_refuted). Also, in the helper filedir of Fish, set -g stands where set -q is meant, so that directories never get their description; this is modelled. Partial: patterns without quotes and blanks in Bash, patterns for which C40 and C74 hold in zsh and Fish, extensions without special characters in Fish; in Fish at least one file is left. |
| C129 | partial | C129_attached_partial: for words without quotes, backslashes and expansions, for every set of word breaks that has none of the characters of the options. Finding (C129_escaped_refuted): the helper looks for word breaks in the word as it is typed, so an escaped blank counts as one: completing `-oa\ b` to the file `a bc` replaces the whole word, and the option is gone. |
| C13 | proved | full claim, for every text whose lines render a well-nested template |
| C130 | partial | C130_bash_partial and C130_zsh_partial: for paths without backslashes, blanks at the beginning and newlines at the end; C130_fish_partial: for printable paths; for patterns that are not tied to the beginning of the type. Findings: a name with a backslash and three octal digits is decoded though file(1) printed it as it is (C130_backslash_refuted); blanks at the beginning of a name are lost (C130_blank_refuted); Fish does not decode (C130_fish_bytes_refuted); the blank behind the colon is a part of the text that is searched, so that a pattern like ^image/ fits nothing, in all shells (C130_anchor_refuted). |
| C131 | partial | C131_bash_partial (what was typed is taken as it is written) and C131_zsh_partial: for texts without blanks at their ends. Fish's helper prints what grep prints. Findings: in Bash the word is compared with its backslashes, though the suggestions have backslashes themselves: once a part of a suggestion with a blank is on the line, it is not found again (C131_escaped_refuted); blanks at the ends of texts are lost (C131_blank_refuted). |
| C132 | partial | C132_bash_partial (all mount points are offered) and C132_zsh_partial: for paths without blanks at their ends. Finding (C132_typed_refuted): the helper of Bash does not look at what was typed: all mount points are suggested, and readline replaces the word by what they have in common. |
| C133 | partial | C133_bash_cards and C133_zsh in full; C133_bash_devices_partial: when no word break was typed; C133_fish_partial: when no title has a colon and a blank. Findings: behind a typed `hw:` accepting a suggestion gives `hw:hw:0` (C133_bash_colon_refuted); Fish shows a title only up to a colon (C133_fish_title_refuted). |
| C134 | partial | Finding: validation accepts `final: null`, `hidden: null`, `optional_arg: null`, `nosort: null`, `group: null`, `options: null` and `positionals: null`, a program name with a no-break space, and anything in the options of a deeper subcommand; the import rejects these. Proved for all programs and direct subcommands without these values. |
| C135 | partial | Finding: behind `%%` (a finished conversion) letters are suggested as if they were conversions. |
| C136 | partial | C136_exported is proved in full for generated command lines. The equivalence of both checks holds if no completer is an empty list; C136_empty_completer_refuted: an empty completer of an option is rejected by the generator, but not exported. |
| C137 | partial | Proved for Bash and Zsh. Fish: proved if no interface name has a dot or a colon and no IPv6 address is written with dots; refuted otherwise: string match -e also searches the description, so the IPv6 address of the interface eth0.100 is offered as an IPv4 address. |
| C138 | partial | Proved for locales whose language is followed by nothing, a country or an encoding. Refuted for the rest: the list de:en in LANGUAGE and the variant in de@euro give English messages. If no variable is set and locale.setlocale fails, the program fails while it is loaded (part of C138_silent_partial). |
| C139 | proved | For any list of entries; the texts of the entries are not modelled. A third shell in the list of shells would not be shown; no entry has three. |
| C14 | proved | full claim; a nameless #ifdef fails with an IndexError instead of a syntax error (finding) |
| C140 | partial | Proved for names and numbers without blanks, tabulators and backslashes. Refuted for the rest: the array is split at blanks, so for the group 'domain users' the word 'users' is offered as a number; a backslash in a name (DOM\joe) is lost. |
| C141 | partial | Names without white space, quotes, backslashes, colons, dollar signs and backticks. Without timedatectl every file is taken for a zone, and a file like posixrules that only begins like one of the two folders is left out (refuted). |
| C142 | proved |  |
| C15 | proved | full claim |
| C16 | proved | full claim |
| C17 | proved | full claim |
| C18 | proved | full claim |
| C19 | proved | full claim (the empty list is not contiguous) |
| C20 | proved | full claim; order exact when no command has two options with the same strings, otherwise such options are moved together |
| C21 | proved | full claim |
| C22 | proved | full claim; options that differ only in long_opt_arg_sep count as equal |
| C23 | proved | full claim, over all command lines that the API can build |
| C24 | proved | full claim |
| C25 | partial | Round trip proved for every built tree whose root name is one word, is not %defines%, whose completers are non-empty and whose subcommand containers are non-empty; the unrestricted claim is refuted (an empty completer list is dropped). |
| C26 | proved | Acceptance characterised exactly (iff) and the content of the accepted tree stated definition by definition. |
| C27 | proved | full claim for every tree that can be built and every configuration (the settings of the configuration that change a command line) |
| C28 | partial | exact characterisation proved; the full claim is false: an option that is hidden and left to inherit `repeatable` is rejected once repeatable_options (or disabled_repeatable) is set (C28_repeatable_options_refuted) |
| C29 | proved | Histories of requests on any registry: functions in use are exactly those reachable through dependencies, each once, with exactly the requested macros; requests succeed iff everything needed is registered and acyclic. |
| C30 | proved | Histories of add_dynamic_func: total, name equality iff code equality, names are base plus digits. |
| C31 | proved | For every list of documents: the parser's objects stand for them, uniquely. Scalars at the root: see C100. |
| C32 | partial | exact characterisation of acceptance proved (order of programs, the root's and its direct subcommands' definitions checked); the full claim is false: definitions two or more levels deep are never checked (C32_deep_definition_refuted) |
| C33 | partial | proved for completers whose siblings leave the shared trace undisturbed; the full claim is false: the trace list is shared between siblings, so order matters and some forbidden places are accepted (two _refuted theorems) |
| C34 | proved | full claim, and an exact characterisation of the check on positionals |
| C35 | proved | full claim for all integers; converted Python ranges denote the same elements, in order |
| C36 | partial | No character is lost, for every text that is parsed. IndexError is the only exception; texts that end with a line feed and close every bracket, without quotes, are parsed. Cut off texts are refuted. |
| C37 | proved | full claim for every accepted condition that is a complete boolean expression (C38 shows that the parser also accepts other texts); zsh and bash; also when placed in front of && and between two && |
| C38 | partial | balanced parentheses proved for every accepted text; the claim that accepted texts are complete expressions is false (trailing operator, juxtaposed operands), see the _refuted theorems; proved for texts that end with an operand and do not juxtapose operands, and every boolean expression is accepted and read back |
| C39 | proved | Variable names are injective in the values, one definition per distinct value; caching leaves the executed complete commands unchanged (environment without earlier C variables). |
| C40 | partial | Partial: for patterns whose literal text has no backslash, ^ or $ (regular expressions), and with @(..) only and no character that needs quotes (Zsh). Names without line feeds for regular expressions. Refuted in general: $, backslash, escaped star, [^..] and, for Zsh, quoted parentheses. |
| C41 | partial | Refuted in full: backslashes are not escaped, so a backslash in front of a bracket or at the end of a text changes where the field ends. Proved for texts in which no backslash precedes a backslash, a special character or the end. |
| C42 | partial | Proved for sub-command names without shell-special characters or ':' where no name continues the name of a sibling that passes on its options. Refuted without the latter condition: 'addon' accepts the options of its sibling 'add'. |
| C43 | partial | Refuted: --foo-bar and --foo_bar share a variable, and so do -a and --a. Proved for main names of letters and digits that differ. |
| C44 | partial | proved for definitions without file_list/directory_list completers that set separator or duplicates; the full claim is false: these completers remove the entries from the caller's definition (C44_separator_lost_refuted) |
| C45 | partial | full claim is false (word starting with =); proved for all words that do not start with = |
| C46 | proved | full claim |
| C47 | partial | acceptance is proved exactly; agreement of split() and split(' ') is refuted for no-break spaces and proved when blanks are the only white space |
| C48 | partial | the no-two-empty-lines part is false (5 newlines leave 4); the rest is proved |
| C49 | proved | full claim, except that text consisting of comments only becomes empty text |
| C50 | partial | false with parent options (see _refuted); proved without parents, and the exact behaviour with parents |
| C51 | proved | full claim |
| C52 | partial | help may be replaced by a sibling's alias (see _refuted); names proved exactly, and the full claim when names are distinct |
| C53 | partial | false for option strings that end in = or =? (see _refuted); proved otherwise |
| C54 | proved | visit_commandlines reaches every command exactly once, parents before children. |
| C55 | proved | full claim: exact acceptance of each constructor, and the invariant for every tree that can be built |
| C56 | proved | full claim |
| C57 | partial | full claim is false (backslash, backtick), see the _refuted theorems; proved for words without backslash and backtick |
| C58 | proved | full claim |
| C59 | proved | full claim |
| C60 | proved | full claim, for documents without defines |
| C61 | partial | proved for lists without a document of defines; false with one: it is removed from the caller's list (C61_defines_lost_refuted) |
| C62 | partial | Whole-word renaming proved for all texts; definitions carry the right names if no dependency is a word of the prefix. Refuted otherwise: program docker-exec-it (Zsh). |
| C63 | partial | Refuted: a positional with metavar exec replaces the helper exec. Proved when metavars are not helper names. |
| C64 | partial | Refuted: 'remote-add' and 'remote add' share a function, as do a-b and a_b. Proved for names of letters and digits. |
| C65 | proved | The text of all shipped helpers is in ShippedHelpers.v; proved for all requests, macros and plain prefixes. parse_commandline (Bash) and prepare (Fish), which are generated, are not covered. |
| C66 | partial | Refuted: the short option -? gets the pattern ?, which matches every character. Proved for option strings without pattern characters. |
| C67 | proved | ASCII letters only (isalpha, upper and lower are modelled for ASCII). |
| C68 | partial | Refuted: names that need quotes give patterns with torn quotes. Proved for names of safe characters (and without digit ranges of several digits, see C12). |
| C69 | partial | Refuted: -? gives OPT_?. Proved if single-character options are letters, digits or underscores. |
| C70 | partial | Proved for every tree built by the API whose names and option strings have no special characters, where no spelling is shared by two options or sub-commands at one place, and without numbers of several digits in a row (C12). Missing: definitions outside these conditions (C12, C42, C73 show that the claim fails for some of them). |
| C71 | partial | As C70, with the condition on numbers also for option strings. |
| C72 | partial | Proved for every command line that C70 describes. Refuted for others: '--flag=x' for a flag, a short option defined by a sub-command and its parent, '-o=x' if there are old-style options. |
| C73 | partial | Proved for the options of the command itself, with no condition on abbreviations or parents, for the first parser. Refuted for inherited options: '--verbose' of the parent is taken for an abbreviation of '--verbose-all' of a sub-command that does not pass on its own options. |
| C74 | partial | Partial: same restriction on the patterns as C40; paths without line feeds. |
| C75 | partial | Partial: extensions of characters that need no quotes; paths without line feeds. Refuted for $. |
| C76 | partial | Partial: AttributeError remains possible; refuted with stray brackets and !x. That the translation always ends and raises no other exception is proved for all texts. |
| C77 | proved | Proved for the layout specified in SpecHelp.v, and for the program name. |
| C78 | partial | Proved for all help texts whose metavariables are not CMD and whose option strings contain no exotic white space; refuted for CMD (completer 'cmd' does not exist). |
| C79 | proved | Proved for all entries of the layout in SpecHelp.v whose description begins and ends with visible characters. |
| C80 | partial | Proved for strings without backslash and backtick (C04, C57) and option strings without a third dash; ---a is refuted. |
| C81 | partial | Proved end to end (definition, quoting, caching, fish evaluation, runtime helpers) under clean_scope. Refuted: options before a positional in front of sub-commands, command_arg of a sibling, alias equal to the name. The parsing of the typed line by query_init is a parameter. |
| C82 | partial | Proved for tests that name valid options and do not repeat a value. Refuted: repeated values with a missing positional, WITH_INCOMPLETE as an option. |
| C83 | partial | C83_query_partial: proved for every definition with clear names and every typed command line; C83_offers_partial combines it with C81. Missing: options of the first command behind a positional argument if there are sub-commands (C83_root_options_refuted: the pattern of the first command only matches an empty first positional), words with newlines (C83_newline_refuted), options hidden by a command that does not pass its own on (C83_hidden_refuted), names with > or newlines. C83_definitions_partial: the definitions survive quoting if names have no backslashes and single quotes. |
| C84 | partial | Proved: one equivalence between validation and a specification written from the manual (SpecValid.v), for single completers and whole lists of definitions. Missing: definitions deeper than direct sub-commands, which are not checked at all (C32_deep_definition_refuted), and completers with restrictions next to ones that nest (C33). |
| C85 | partial | Refuted with five definitions: option_strings as text, positional that is no dictionary, prog that is no text, command_arg behind a positional without a number or with an empty completer. |
| C86 | partial | C86_options_partial: end to end, from the typed words through the generated parser and functions to the words in COMPREPLY. Missing: definitions that bash_ready and bash_named exclude (variables shared by two options: C86_same_variable_refuted; option strings that are quoted: C86_quotes_refuted; an own argument at the cursor). |
| C87 | partial | C87_separate_partial and C87_attached_partial for options of the current command; that no option completer runs otherwise is part of C86 and C88. Refuted: only options with optional arguments (C87_only_optional_refuted), only the previous word is looked at (C87_previous_word_refuted), old-style flags (C87_old_style_refuted), inherited options (C87_inherited_refuted). |
| C88 | partial | C88_positionals_partial end to end, C88_choices. Refuted: words with a dash in commands without options (C88_dash_refuted). |
| C89 | partial | C89_functions_partial for selected commands; refuted if the cursor is still on the name (C89_name_refuted). |
| C90 | partial | Proved except for the function registered for a program with nothing to complete (C90_undefined_refuted). |
| C91 | proved | Proved for all arrays, all characters. array_contains and array_match are specified by what they are to do; the text of these three helper functions is not modelled. |
| C92 | partial | C92_options_partial: end to end, for every definition that C83 and C86 cover and every command line of the common language (SpecQuery.typed), the words that the Bash script offers are exactly those of the options whose fish command is active. Excluded and refuted with witnesses: a condition naming one of several strings of an option, option_is over two options, comparison of a missing positional with '', abbreviations, positional_count in positionals, hidden options. |
| C93 | partial | Proved for definitions whose option strings are free of zsh's special characters and whose texts satisfy C41's condition. Refuted otherwise: -? is globbed; actions with a colon and single quotes have $ expanded; an empty metavar makes the argument optional; a metavar starting with * makes the option take all following words; a trailing backslash joins name and action. Not covered: wraps, the texts of actions themselves. |
| C94 | partial | Proved relative to the specifications of C93 for definitions without shared option strings. Refuted against the behaviour of the other shells: the child's inherit_options decides instead of the parent's (both directions), final options of an ancestor are ignored if not inherited, an option whose condition is false excludes nothing. |
| C95 | partial | Proved unless definitions are ambiguous, a word is both a cluster of short options and an old-style option of another command, quoted words follow --, or words contain newlines; counterexamples: quotes kept behind --, cluster read as old-style option of the sub-command, name followed by a newline taken for the sub-command. |
| C96 | partial | Proved for complete conditions whose values do not start with = and, for positional_contains, are not empty and count from one; counterexamples: the empty value is found when the positional is missing; =word is expanded by zsh. |
| C97 | partial | End to end from the typed line to what _arguments offers; under the restrictions of C93 to C96. The options given, as _arguments sees them, are taken to be those typed. |
| C98 | partial | Proved if repeatable positionals come last, nothing in front of them is missing, and no ancestor has one; restrictions of C93, C95 and C96 otherwise. Counterexamples: a repeatable positional is completed in place of one whose condition does not hold, and in sub-commands. |
| C99 | partial | Proved for all three shells with every number and length of choices, all quotes, blanks, colons, dollar signs and parentheses. Counterexamples for the rest: zsh expands a choice that starts with '=', drops backslashes, fails on a long list of numbers, loses the description 0, indents the second line of a description, and replaces %FUNCNAME%; fish halves backslashes and splits at tabulators; Bash does not offer an empty choice, and none if the beginning was typed in quotes or with a backslash. |

## Findings (claims that are false of the code)

Each is a theorem with a witness.

* C04 Quoting is faithful under fish's rules: `C04_quote_fish_refuted`, `C04_quote_fish_refuted_backtick`
* C10 Subcommand abbreviations never collide with sibling aliases: `C10_command_variations_refuted`
* C100 What is validated is what is converted: `C100_nan_refuted`, `C100_option_refuted`, `C100_exponent_refuted`, `C100_case_refuted`, `C100_octal_refuted`, `C100_hexadecimal_refuted`, `C100_root_scalars_refuted`
* C101 Ranges of integers offer the same numbers in all shells: `C101_booleans_refuted`
* C102 Commands are searched on the PATH the definition asks for: `C102_fish_backslash_refuted`
* C103 Combined completers offer what each of them offers: `C103_bash_saved_refuted`, `C103_bash_nested_list_refuted`, `C103_bash_silent_list_refuted`, `C103_path_refuted`
* C104 Key-value lists and pairs offer the defined keys: `C104_fish_pair_condition_refuted`, `C104_zsh_colon_refuted`, `C104_zsh_key_refuted`, `C104_excluded_star_refuted`, `C104_same_key_refuted`
* C105 A zsh script hands over to the function of the command that was typed: `C105_overwritten_refuted`
* C106 Captured variables hold the values of their option: `C106_zsh_letter_refuted`, `C106_zsh_twice_refuted`, `C106_fish_shared_refuted`, `C106_fish_special_refuted`
* C107 Parsers made with argparse are converted faithfully: `C107_tuple_metavar_refuted`, `C107_suppressed_positional_refuted`, `C107_suppressed_command_refuted`, `C107_validated_refuted`
* C108 In zsh, nosort keeps the suggestions of exactly the arguments it is set for in order: `C108_longer_option_refuted`, `C108_repeatable_refuted`, `C108_subcommand_refuted`, `C108_alias_refuted`
* C109 A wrapped command's completion sees the words that are meant for it: `C109_after_dashes_refuted`, `C109_cursor_refuted`, `C109_three_dashes_refuted`
* C110 The text of a zsh function hands the arguments to _arguments: `C110_indentation_refuted`
* C111 Bash scripts understand the word that is being typed: `C111_kept_backslash_refuted`
* C112 A command line in an argument is completed like one of its own: `C112_quotes_refuted`, `C112_blanks_refuted`
* C113 In a list of values, each shell offers the values that may come next: `C113_bash_prefix_refuted`, `C113_bash_break_refuted`, `C113_bash_blank_refuted`, `C113_fish_star_refuted`, `C113_zsh_colon_refuted`
* C114 A command tree written as JSON or YAML is read back as the same tree: `C114_number_key_refuted`, `C114_surrogates_refuted`, `C114_float_refuted`
* C115 The definition made from a help text is read as what was found in it: `C115_backslash_refuted`, `C115_quotes_refuted`, `C115_escapes_refuted`, `C115_no_options_refuted`
* C116 A script registers itself for the program and its aliases, and notes are only notes: `C116_comment_refuted`, `C116_name_refuted`, `C116_service_refuted`
* C117 The program changes what it was asked to change, and nothing if it fails: `C117_install_refuted`, `C117_emptied_refuted`, `C117_directory_refuted`, `C117_batch_ends_refuted`, `C117_batch_loop_refuted`
* C118 The parser of a Python file is the one that is converted: `C118_two_names_refuted`, `C118_subparser_refuted`, `C118_wrong_file_refuted`, `C118_fallback_refuted`, `C118_exit_refuted`, `C118_itself_refuted`
* C12 Compact case patterns with numbers match exactly the given strings: `C12_two_digits_refuted`
* C120 A program that wraps another one is completed like it: `C120_pattern_refuted`, `C120_ampersand_refuted`, `C120_only_wraps_refuted`
* C121 Behind a prefix, the completer is asked for what follows it: `C121_bash_break_refuted`, `C121_bash_url_refuted`, `C121_bash_quotes_refuted`, `C121_bash_echo_refuted`, `C121_bash_empty_refuted`, `C121_zsh_quotes_refuted`, `C121_fish_anywhere_refuted`, `C121_fish_nested_refuted`, `C121_fish_nothing_refuted`
* C122 Items that a command prints are offered as they are: `C122_last_line_refuted`, `C122_empty_item_refuted`, `C122_bash_backslash_refuted`, `C122_bash_star_refuted`, `C122_bash_typed_refuted`, `C122_bash_break_refuted`
* C123 Completing keys and values in Bash keeps the elements that were typed: `C123_value_break_refuted`, `C123_value_separator_refuted`, `C123_closed_quote_refuted`, `C123_escaped_refuted`, `C123_complete_key_refuted`, `C123_no_description_refuted`
* C124 Completing keys and values in Fish offers exactly the keys that are left, behind what was typed: `C124_value_separator_refuted`, `C124_complete_key_refuted`, `C124_exec_tabulator_refuted`
* C125 Behind a number, its suffixes are offered: `C125_bash_suffix_refuted`, `C125_colon_refuted`, `C125_negative_refuted`
* C126 Completing a command line in one argument keeps the words in front: `C126_blank_refuted`, `C126_case_refuted`
* C127 Keys and values that a command prints are completed in zsh as they are printed: `C127_again_refuted`, `C127_colon_refuted`, `C127_no_description_refuted`
* C128 File completers offer the files of the definition's directory, with its extensions, without the ignored ones: `C128_bash_quotes_refuted`, `C128_fish_empty_refuted`, `C128_fish_path_refuted`, `C128_zsh_blank_refuted`
* C129 Completing a value that is attached to a short option keeps the option: `C129_escaped_refuted`
* C130 mime_file offers exactly the directories and the files whose type fits: `C130_backslash_refuted`, `C130_blank_refuted`, `C130_fish_bytes_refuted`, `C130_anchor_refuted`
* C131 history offers exactly the texts found in the history: `C131_escaped_refuted`, `C131_blank_refuted`
* C132 mountpoint offers the mount points: `C132_typed_refuted`
* C133 alsa_card and alsa_device offer the sound cards with their titles: `C133_bash_colon_refuted`, `C133_fish_title_refuted`
* C134 Definitions accepted by the validation can be imported: `C134_import_refuted`
* C135 Completing date formats in Fish finishes conversions: `C135_percent_refuted`
* C136 Exported command lines pass the validation: `C136_empty_completer_refuted`
* C137 The addresses offered are of the kind that is asked for: `C137_fish_refuted`
* C138 Messages are in the language that the environment asks for: `C138_list_refuted`, `C138_variant_refuted`
* C140 uid and gid offer the numbers of all users and groups in Zsh: `C140_blank_refuted`, `C140_backslash_refuted`
* C141 Locales, character sets and time zones are offered as they are on the computer: `C141_posixrules_refuted`
* C25 Definitions survive the round trip through dictionaries: `C25_dictionary_round_trip_refuted`
* C28 Enabling abbreviations and repeatable options cannot invalidate a definition: `C28_repeatable_options_refuted`
* C32 Every definition at every depth is validated: `C32_deep_definition_refuted`
* C33 Nested completers are judged independently: `C33_order_of_siblings_refuted`, `C33_forbidden_place_refuted`
* C36 Help texts are parsed without loss and without crashing: `C36_cut_off_refuted`
* C38 Accepted when-conditions are well-formed: `C38_trailing_operator_refuted`, `C38_juxtaposition_refuted`
* C40 Glob patterns are translated faithfully: `C40_dollar_refuted`, `C40_backslash_refuted`, `C40_escaped_star_refuted`, `C40_caret_refuted`, `C40_zsh_parentheses_refuted`
* C41 Escaping for zsh completion specs is reversible: `C41_description_refuted`, `C41_message_refuted`
* C42 The generated Bash parsers use the options of the command that was typed: `C42_sibling_refuted`
* C43 Different options are captured in different variables: `C43_shared_refuted`
* C44 Generation does not change the caller's definition: `C44_separator_lost_refuted`
* C45 Quoting is faithful for zsh: `C45_quote_zsh_refuted`
* C47 Accepted program strings denote one command path: `C47_prog_paths_agree_refuted`
* C48 Tidying generated code only removes surplus empty lines: `C48_strip_empty_lines_refuted`
* C50 Options with arguments are a filter of the visible options: `C50_options_with_arguments_refuted`
* C52 Every subcommand is offered under its name with its own help: `C52_choices_refuted`
* C53 The option list for query helpers is decodable: `C53_query_options_refuted`
* C57 Condition commands in fish scripts keep their words: `C57_backtick_refuted`, `C57_backslash_refuted`
* C61 Importing a list of definitions can be repeated: `C61_defines_lost_refuted`
* C62 References between helper functions are renamed consistently: `C62_prefix_word_refuted`
* C63 All functions of a script have different names: `C63_metavar_refuted`
* C64 Different subcommands have different completion functions: `C64_same_function_refuted`, `C64_siblings_refuted`
* C66 Option patterns recognise exactly the option: `C66_question_mark_refuted`
* C68 Sub-command patterns match exactly the command's names: `C68_quotes_refuted`
* C69 Captured options get valid variable names: `C69_invalid_refuted`
* C72 It makes no difference which Bash parser is generated: `C72_attached_refuted`, `C72_overridden_refuted`, `C72_equals_refuted`
* C73 An option typed in full is not mistaken for an abbreviation: `C73_inherited_refuted`
* C75 File extensions select the right files: `C75_dollar_refuted`
* C76 Invalid patterns are reported as such: `C76_stray_refuted`
* C78 Options converted from a help text pass validation: `C78_cmd_refuted`
* C80 fish complete commands say what was defined: `C80_dashes_refuted`
* C81 fish offers options, positionals and sub-commands where they belong: `C81_before_positional_refuted`, `C81_command_arg_refuted`, `C81_alias_refuted`
* C82 when conditions hold in fish exactly if the command line meets them: `C82_missing_positional_refuted`, `C82_with_incomplete_refuted`
* C83 fish scripts understand every command line: `C83_root_options_refuted`, `C83_newline_refuted`, `C83_hidden_refuted`
* C85 Validation reports only schema errors: `C85_crash_refuted`
* C86 Bash offers exactly the options that apply: `C86_same_variable_refuted`, `C86_quotes_refuted`
* C87 Bash completes the argument of the right option: `C87_only_optional_refuted`, `C87_previous_word_refuted`, `C87_old_style_refuted`, `C87_inherited_refuted`
* C88 Bash completes the right positional argument: `C88_dash_refuted`
* C89 Bash asks the functions of the right sub-commands: `C89_name_refuted`
* C90 Bash scripts call only functions they define: `C90_undefined_refuted`
* C92 Bash and fish offer the same options: `C92_other_string_refuted`, `C92_two_options_refuted`, `C92_empty_positional_refuted`, `C92_abbreviation_refuted`, `C92_count_refuted`, `C92_hidden_refuted`
* C93 zsh functions hand the right specifications to _arguments: `C93_option_string_refuted`, `C93_action_refuted`, `C93_empty_metavar_refuted`, `C93_star_metavar_refuted`, `C93_backslash_metavar_refuted`
* C94 zsh offers an option exactly when it may be used: `C94_inherit_refuted`, `C94_not_inherited_refuted`, `C94_final_refuted`, `C94_condition_refuted`
* C95 zsh functions understand the command line: `C95_quotes_refuted`, `C95_mistaken_refuted`, `C95_newline_refuted`
* C96 zsh conditions hold exactly when they are met: `C96_empty_value_refuted`, `C96_equals_refuted`
* C98 For every command line zsh completes the right positional argument: `C98_gap_refuted`, `C98_above_refuted`
* C99 The shells offer exactly the choices of the definition: `C99_zsh_equals_refuted`, `C99_zsh_backslash_refuted`, `C99_zsh_numbers_refuted`, `C99_zsh_zero_refuted`, `C99_zsh_lines_refuted`, `C99_zsh_placeholder_refuted`, `C99_fish_backslash_refuted`, `C99_fish_tabulator_refuted`, `C99_bash_empty_refuted`, `C99_bash_quoted_refuted`
