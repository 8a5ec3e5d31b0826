{"id": "C01", "title": "Shell quoting is faithful", "statement": "For every string, the text returned by shell.quote, when read by a POSIX-style shell (bash word lexing: unquoted safe characters, single quotes, double quotes with backslash escapes), is exactly one word, whose value is the original string, and no parameter, command or glob expansion is triggered.", "quantifier": "every string (any length, any Unicode code points, any mix of quotes, backslashes, dollars, backticks, newlines)", "why_tests_cant": "The interaction of the four quoting strategies with embedded quote characters has unboundedly many inputs; sampling cannot rule out an injection.", "anchors": ["crazy_complete/shell.py: quote, needs_quote"]}
{"id": "C02", "title": "A list of quoted words is read back as that list", "statement": "Joining the quoted forms of the strings of any list with single spaces gives text which a POSIX-style shell splits into exactly that list of words, in order, with no expansion.", "quantifier": "every list of strings, including empty strings and strings with blanks or newlines", "why_tests_cant": "Quantifies over all lists of arbitrary strings.", "anchors": ["crazy_complete/shell.py: join_quoted, quote"]}
{"id": "C03", "title": "The when-condition lexer understands everything quote produces", "statement": "Tokenizing a space-separated list of quoted words with the lexer used for `when` conditions gives one literal token per word, with the original text, whatever the words are.", "quantifier": "every list of strings (without a word that is an operator when unquoted, which quote leaves bare only if it needs no quoting)", "why_tests_cant": "All strings; the lexer has its own quote handling which must agree with the quoter everywhere.", "anchors": ["crazy_complete/shell_parser.py: Lexer", "crazy_complete/string_stream.py: parse_shell_single_quote, parse_shell_double_quote"]}
{"id": "C04", "title": "Quoting is faithful under fish's rules", "statement": "The text returned by shell.quote, read with fish's quoting rules (inside single quotes a backslash escapes a backslash and a single quote; inside double quotes a backslash escapes a backslash, a double quote and a dollar), is one word equal to the original string.", "quantifier": "every string", "why_tests_cant": "All strings; the failing cases need particular combinations of backslashes, quotes and backticks.", "anchors": ["crazy_complete/shell.py: quote", "crazy_complete/fish_utils.py: FishString"]}
{"id": "C05", "title": "Generated identifiers are valid shell identifiers", "statement": "The identifier derived from any string consists only of ASCII letters, digits and underscores, does not start with a digit, has no two consecutive underscores, and deriving an identifier from an identifier changes nothing; it is never empty when the input has at least one letter, digit, hyphen or underscore.", "quantifier": "every string", "why_tests_cant": "All strings including non-ASCII; the order of the four rewriting passes matters.", "anchors": ["crazy_complete/shell.py: make_identifier"]}
{"id": "C06", "title": "Option strings have exactly one style", "statement": "Every string accepted as an option string is exactly one of: short (dash plus one character), long (starts with two dashes), old-style (one dash, more than one character); and the three getters of an option partition its option strings.", "quantifier": "every valid option string; every option", "why_tests_cant": "All strings over an unbounded alphabet.", "anchors": ["crazy_complete/cli.py: is_short_option_string, is_long_option_string, is_old_option_string, Option.get_short_option_strings", "crazy_complete/str_utils.py: is_valid_option_string"]}
{"id": "C07", "title": "Abbreviations are unambiguous", "statement": "Every abbreviation offered for a word is a prefix of that word no shorter than the minimal length, and, unless it is the full word itself, is not a prefix of any other word in the set.", "quantifier": "every list of words, every minimal length", "why_tests_cant": "Quantifies over all word sets, including words that are prefixes of one another.", "anchors": ["crazy_complete/utils.py: GeneralAbbreviationGenerator, OptionAbbreviationGenerator, CommandAbbreviationGenerator"]}
{"id": "C08", "title": "Abbreviations are complete", "statement": "Every word of the set is offered as an abbreviation of itself when it reaches its minimal length, and every prefix of it that is long enough and unambiguous is offered too; asking for the abbreviations of a word of the set never fails.", "quantifier": "every list of words, every minimal length, every prefix", "why_tests_cant": "Quantifies over all prefixes of all words.", "anchors": ["crazy_complete/utils.py: GeneralAbbreviationGenerator.__init__, get_abbreviations, get_many_abbreviations"]}
{"id": "C09", "title": "No option abbreviation names two different options", "statement": "The abbreviations offered for two different option strings of a command line never coincide, and generating abbreviations never fails on valid long and old-style option strings.", "quantifier": "every list of option strings, every pair in it", "why_tests_cant": "Pairwise property over unbounded sets.", "anchors": ["crazy_complete/utils.py: OptionAbbreviationGenerator, get_option_abbreviator"]}
{"id": "C10", "title": "Subcommand abbreviations never collide with sibling aliases", "statement": "With abbreviated subcommands, no text that selects one subcommand (name, alias or abbreviation) also selects a sibling.", "quantifier": "every command with subcommands and aliases", "why_tests_cant": "Needs a relation between an abbreviation and another command's alias; all possible names.", "anchors": ["crazy_complete/utils.py: get_all_command_variations", "crazy_complete/cli.py: SubCommandsOption"]}
{"id": "C100", "title": "What is validated is what is converted", "statement": "The definitions in a YAML file that are validated are the same values as those that are turned into a command line, although they are read by two different readers.", "quantifier": "every YAML file: every document tree, every plain or quoted scalar in it", "why_tests_cant": "Texts of scalars are unbounded; the two readers must agree on each.", "anchors": ["crazy_complete/yaml_source.py: load_from_file", "crazy_complete/extended_yaml_parser.py: ExtendedYAMLParser.convert_scalar"]}
{"id": "C101", "title": "Ranges of integers offer the same numbers in all shells", "statement": "For every range (start, stop, step) of integers of at most 64 bits that validation accepts, every shell offers exactly the numbers start, start+step, ... that do not go beyond stop, each once; Bash those that start with what is typed, and behind what other completers offered when it is to add to them.", "quantifier": "all starts, stops and steps (positive and negative), typed beginnings and earlier offers", "why_tests_cant": "Each shell gets another notation (brace expansion, seq with two or three arguments in another order); tests cover a few small positive ranges.", "anchors": ["crazy_complete/bash_complete.py: BashCompleter.range, BashCompletionCompgen", "crazy_complete/zsh_complete.py: ZshCompleteRange", "crazy_complete/fish_complete.py: FishCompleter.range", "crazy_complete/scheme_validator.py: check_range"]}
{"id": "C102", "title": "Commands are searched on the PATH the definition asks for", "statement": "For every combination of path, path_append and path_prepend that validation accepts and whatever characters these have, each shell searches commands on the same PATH: the given one, or the user's with the given directories behind it or in front of it.", "quantifier": "all accepted options, all texts of directories, all values of PATH", "why_tests_cant": "The texts are put into shell code of three dialects, next to a variable; the result depends on the PATH of the user. Tests compare code for one harmless path.", "anchors": ["crazy_complete/bash_complete.py: BashCompleter.command", "crazy_complete/zsh_complete.py: ZshCompleteCommand", "crazy_complete/fish_complete.py: FishCompleteCommand", "crazy_complete/scheme_validator.py: check_command"]}
{"id": "C103", "title": "Combined completers offer what each of them offers", "statement": "For completers that are combined and put into lists to any depth, Bash and fish offer the candidates of all of them, in their order, and nothing else; the candidates of a list are for its last element; each completer sees the word typed and the PATH it would see alone.", "quantifier": "all completers built by combine and list from others, whatever these offer, and all words typed", "why_tests_cant": "The generated code shares variables (COMPREPLY, COMPREPLY_OLD, cur, cur_old, PATH) between completers; whether they interfere depends on the nesting, of which tests try one or two.", "anchors": ["crazy_complete/bash_complete.py: BashCompleteCombine, BashCompleter.list, BashCompletionCode, BashCompletionFunc, CompgenW, BashCompletionCompgen", "crazy_complete/fish_complete.py: FishCompleteCombine, FishCompleter.list, FishCompleteCommand"]}
{"id": "C104", "title": "Key-value lists and pairs offer the defined keys", "statement": "The generated code tells the shell exactly the defined keys whose condition function succeeds for them, each with its description (fish, zsh), the completer of its value and the keys it excludes; in Bash, a list then offers the keys that no key typed before excludes.", "quantifier": "for all lists of entries, descriptions, completers, excluded keys, separators, condition functions and their answers, and all typed keys", "why_tests_cant": "keys, descriptions and separators are arbitrary texts that pass through two readers (the shell and _values), and exclusions depend on every combination of typed keys", "anchors": ["crazy_complete/utils.py:get_key_value_list_definitions", "crazy_complete/bash_complete.py:BashCompleteKeyValueList", "crazy_complete/bash_complete.py:BashCompleteKeyValuePair", "crazy_complete/zsh_complete.py:ZshKeyValueList", "crazy_complete/zsh_complete.py:ZshKeyValuePair", "crazy_complete/fish_complete.py:FishCompleteKeyValueList", "crazy_complete/fish_complete.py:FishCompleteKeyValuePair", "crazy_complete/bash_helpers.py:_KEY_VALUE_LIST"]}
{"id": "C105", "title": "A zsh script hands over to the function of the command that was typed", "statement": "Started in the function of the program, a generated zsh script reaches the function of the sub-command that the command line selects: each function asks for the positional argument with the right number, compares it with the names, aliases and abbreviations of its sub-commands, whatever characters they have, and calls the function that belongs to the sub-command; if none is selected it completes itself. Functions of different commands have different names.", "quantifier": "all definitions, all command lines, all prefixes of function names", "why_tests_cant": "The functions are found by name and the selecting words are quoted patterns in a case statement; every level of nesting adds one more hand-over, and collisions of function names depend on pairs of commands anywhere in the tree.", "anchors": ["crazy_complete/zsh.py: _generate_subcommand_call, _get_query_init, generate_completion", "crazy_complete/helpers.py: make_completion_funcname", "crazy_complete/cli.py: get_positional_num"]}
{"id": "C106", "title": "Captured variables hold the values of their option", "statement": "If an option is captured in a variable, then in the generated zsh and fish scripts this variable holds the values given to the option on the command line: one element for each occurrence, in order, whatever characters they have.", "quantifier": "all definitions, options and command lines", "why_tests_cant": "What the variable holds depends on the splitting rules of the shell and on every other captured option of the program; tests compare the text of scripts.", "anchors": ["crazy_complete/zsh.py: _generate_option_capture", "crazy_complete/zsh_helpers.py: get_option", "crazy_complete/fish_prepare.py: _get_capture_code", "crazy_complete/fish_helpers.py: capture_option", "docs/documentation.md: Capturing Options"]}
{"id": "C107", "title": "Parsers made with argparse are converted faithfully", "statement": "Converting an argparse parser gives a valid command line with the same program name, description, options, positional arguments and sub-commands in the same order: an option takes an argument iff its action stores one, the argument is optional iff nargs is '?', it completes what complete() or choices say, it is hidden iff its help is SUPPRESS; positional arguments are numbered from 1 and repeatable iff they may take several values; sub-parsers are converted likewise under their names. Two options exclude each other iff argparse has them in one mutually exclusive group. The conversion succeeds exactly for a stated class of parsers.", "quantifier": "all parsers: any number of actions, groups and nested sub-parsers", "why_tests_cant": "Parsers are trees of unbounded size whose actions combine independent attributes.", "anchors": ["crazy_complete/argparse_source.py: argumentparser_to_commandline, get_complete, get_final, range_to_complete", "crazy_complete/argparse_mod.py"]}
{"id": "C108", "title": "In zsh, nosort keeps the suggestions of exactly the arguments it is set for in order", "statement": "In a zsh script, sorting is switched off for the arguments of an option or for a positional argument if nosort is set for it, and for no other argument, whatever is completed there.", "quantifier": "all command lines, completion contexts (function, completer, tag), option strings and positions", "why_tests_cant": "Every line is a pattern that is matched against every context; which other arguments it hits depends on all the names together.", "anchors": ["crazy_complete/zsh.py: get_zstyles, generate_completion"]}
{"id": "C109", "title": "A wrapped command's completion sees the words that are meant for it", "statement": "In zsh, when a program that wraps another command is completed, the other command's completion is given its own name, followed by exactly the typed words that do not belong to the program's own options or their arguments, in order, with the cursor on the same word.", "quantifier": "all sets of options, all command lines, all cursor positions", "why_tests_cant": "Options can be combined, abbreviated to letters and mixed with arguments in infinitely many ways; the inserted patterns must match exactly the right words for every set of option strings.", "anchors": ["crazy_complete/zsh_wrapper.py: generate_wrapper, _CODE, _make_long_opts_pattern, _make_short_opts_flag_regex, _make_short_opts_arg_regex"]}
{"id": "C11", "title": "Compact case patterns match exactly the given strings", "statement": "For every non-empty list of strings without glob metacharacters, the compact bash pattern built from it matches, under bash's extended-glob rules, exactly the given strings and nothing else.", "quantifier": "every non-empty list of metacharacter-free strings without digit runs that are merged into a range; every candidate word", "why_tests_cant": "The trie is arbitrary; matching has to be right for every candidate word, not just the listed ones.", "anchors": ["crazy_complete/bash_patterns.py: make_pattern, trie_to_pattern, compact_glob_trie"]}
{"id": "C110", "title": "The text of a zsh function hands the arguments to _arguments", "statement": "When zsh runs the part of a command's function that deals with the arguments, as it is written in the script, the array that is handed to _arguments has exactly the specifications of the command's options, positional arguments and sub-commands that have no condition or whose condition holds; options may be joined only if this is configured. What is in front of this part in the function does not matter.", "quantifier": "all command line definitions, commands in them, conditions, completers, and answers to the conditions", "why_tests_cant": "The text is made of quoted parts that are joined and indented; whether the shell finds the end of each part depends on every character in it.", "anchors": ["crazy_complete/zsh.py: _generate_option_parsing, get_code", "crazy_complete/zsh_when.py: generate_when_conditions", "crazy_complete/str_utils.py: indent"]}
{"id": "C111", "title": "Bash scripts understand the word that is being typed", "statement": "Whatever quotes and backslashes the word under the cursor has, and whether a quote is still open, the script compares and completes the text that Bash itself would give to the command, knows whether a quote is open, and knows the last place where Bash breaks the word, so that what it offers replaces the right part.", "quantifier": "all words that can be typed, complete or not, and all sets of word breaks", "why_tests_cant": "Quotes, backslashes and word breaks combine without bound; tests try a few words.", "anchors": ["crazy_complete/bash_helpers.py: _DEQUOTE, _PREFIX_COMPREPLY"]}
{"id": "C112", "title": "A command line in an argument is completed like one of its own", "statement": "If an argument is a command line in one word, Bash completes its last word with the completion of the command it begins with: that gets the words of the line, and each of its candidates is inserted so that the argument is the line with this candidate at its end, quoted as needed.", "quantifier": "all lines, word breaks and candidates", "why_tests_cant": "The line is quoted once more than its words, and the place where a candidate is inserted depends on the overlap of two arbitrary texts.", "anchors": ["crazy_complete/bash_helpers.py: _PARSE_LINE, _GET_PREFIX_SUFFIX_LEN, _COMMANDLINE_STRING"]}
{"id": "C113", "title": "In a list of values, each shell offers the values that may come next", "statement": "While a list of values is typed in one word, the values that begin like its last element and, unless duplicates are allowed, are not in the list yet are offered, with their descriptions, each of them as the list with that value at its end.", "quantifier": "all values and descriptions, separators, elements typed before and beginnings of the last one", "why_tests_cant": "The helpers split, compare and join arbitrary texts, in three shells with different rules for patterns, separators and word breaks.", "anchors": ["crazy_complete/bash_complete.py: value_list", "crazy_complete/bash_helpers.py: _VALUE_LIST", "crazy_complete/fish_complete.py: FishCompleteValueList", "crazy_complete/fish_helpers.py: _LIST", "crazy_complete/zsh_complete.py: value_list"]}
{"id": "C114", "title": "A command tree written as JSON or YAML is read back as the same tree", "statement": "The JSON and YAML texts that a command tree is exported to are read by a JSON or YAML reader as exactly the definitions of the tree: every program, option and positional argument in order, every text, number, list and dictionary as it was; so importing the text gives the tree back.", "quantifier": "all command trees, with any sub-commands, options, positional arguments, completers and texts", "why_tests_cant": "The YAML text is put together by hand from pieces of JSON, with indentation, blank lines and separators; whether it is read back depends on every character of every text and on the shape of every value.", "anchors": ["crazy_complete/yaml_source.py: option_to_yaml, positional_to_yaml, to_yaml, commandline_to_yaml", "crazy_complete/json_source.py: commandline_to_json", "crazy_complete/dictionary_source.py: commandline_to_dictionaries"]}
{"id": "C115", "title": "The definition made from a help text is read as what was found in it", "statement": "When a help text is converted to a YAML definition, a YAML reader finds in it the name of the program and exactly the options that were found in the help text, in order, with their names, metavariables, descriptions and completers; the lines that were not understood are comments and change nothing.", "quantifier": "all help texts", "why_tests_cant": "Lines, names and descriptions from the help text are pasted into the definition; whether it can be read at all depends on every character of them.", "anchors": ["crazy_complete/help_converter.py: from_file_to_yaml", "crazy_complete/yaml_source.py: option_to_yaml", "crazy_complete/help_parser.py: parse, get_program_name_from_help"]}
{"id": "C116", "title": "A script registers itself for the program and its aliases, and notes are only notes", "statement": "Whatever the settings and the helper functions in a script are, it registers its completion function for exactly the program and all its aliases. Comments and the modeline that the user asks for never change what the script does, and included files come complete, in order and before everything else that the script does.", "quantifier": "all settings, comments, included files, names and all code of the other parts of the script", "why_tests_cant": "Comments, files and names are pasted into the script; whether they stay comments and names depends on every character of them.", "anchors": ["crazy_complete/output.py: Output", "crazy_complete/bash.py: generate_completion", "crazy_complete/fish.py: generate_completion", "crazy_complete/zsh.py: generate_completion"]}
{"id": "C117", "title": "The program changes what it was asked to change, and nothing if it fails", "statement": "Run from the command line, the program changes exactly one thing: it prints, writes the file given with -o, or installs or removes the completion file in the directory of the shell, as the options say, with the output for the definition it was given; if it reports an error nothing was changed. Python files are run only with --input-type=python, and without --input-type the extension decides. A batch file does what its lines do, one after the other, up to the first error.", "quantifier": "all combinations of options, file names, contents of files and batch files, and all errors of reading, generating and writing", "why_tests_cant": "Whether a failure leaves files alone depends on where it happens; tests run the combinations that work.", "anchors": ["crazy_complete/application.py: generate, load_definition_file, write_string_to_file, try_batch, Application", "crazy_complete/paths.py: get_bash_completion_file, get_fish_completion_file, get_zsh_completion_file"]}
{"id": "C118", "title": "The parser of a Python file is the one that is converted", "statement": "With --input-type=python, the parser that is converted is the one of the given file: the one that --parser-variable names, or else the only parser without a parent; if there is none, or more than one, the user is told.", "quantifier": "all Python files, names of files, modules that are loaded or installed already, and names their parsers are bound to", "why_tests_cant": "Which file is imported depends on all modules of the machine, and which parser is taken on all names of the file; tests have a few files.", "anchors": ["crazy_complete/argparse_source.py: load_from_file, find_root_argument_parsers, find_objects_by_type", "crazy_complete/file_loader.py: import_file, execute_file", "crazy-complete"]}
{"id": "C119", "title": "Options of the program set what they name", "statement": "A version of bash-completion written with dots is understood as a list of numbers, and a script calls the new functions of bash-completion exactly if the version is 2.12 or later, compared as numbers. A truth value is accepted exactly if it is true or false in any capitals. A list of features to disable is accepted exactly if every one exists, and disables exactly those. Every other option sets exactly the setting of its name, and the line length is never 0 or less.", "quantifier": "all versions, texts, lists of features and combinations of option values", "why_tests_cant": "Tests try a version or two and one feature at a time; comparing versions as texts or forgetting one combination passes them.", "anchors": ["crazy_complete/application.py: boolean, version, feature_list, _get_config_from_options", "crazy_complete/config.py: Config.set_line_length", "crazy_complete/bash_versions.py"]}
{"id": "C12", "title": "Compact case patterns with numbers match exactly the given strings", "statement": "As the previous property, for strings that end in numbers, where the pattern uses digit ranges.", "quantifier": "every non-empty list of metacharacter-free strings; every candidate word", "why_tests_cant": "Digit ranges interact with multi-digit numbers in ways samples miss.", "anchors": ["crazy_complete/bash_patterns.py: _build_pattern, trie_to_pattern", "crazy_complete/algo.py: numbers_are_contiguous"]}
{"id": "C120", "title": "A program that wraps another one is completed like it", "statement": "In Bash, if a program wraps a command, the completion of that command sees the typed line with the command in the place of the program, in the line and in the words, with the cursor at the same place behind it; the program's own completion then sees what was typed; and what is offered are the suggestions of the command followed by those of the program.", "quantifier": "all programs, wrapped commands, typed lines, cursor positions and completions of the command and of the program", "why_tests_cant": "The name of the program is used as a pattern and the name of the command as a replacement text; tests use names without special characters and programs that have options of their own.", "anchors": ["crazy_complete/bash.py: _generate_wrapper", "crazy_complete/utils.py: is_worth_a_function"]}
{"id": "C121", "title": "Behind a prefix, the completer is asked for what follows it", "statement": "For the completer prefix: if the text that is typed, in whatever quotes, begins with the prefix, then the completer is asked for what is behind it, and if one of its answers is accepted, the prefix followed by this answer is on the command line. If the prefix was not typed yet, the prefix is offered exactly if it begins with what was typed. This holds in all three shells.", "quantifier": "all prefixes, typed words with any quoting, word breaks, and completers", "why_tests_cant": "The typed word can be quoted in many ways, and what readline replaces depends on the word breaks in it; tests complete a few unquoted words.", "anchors": ["crazy_complete/bash_helpers.py: _PREFIX, _STRIP_PREFIX_KEEP_QUOTING, _GET_LAST_BREAK_POSITION", "crazy_complete/zsh_helpers.py: _PREFIX", "crazy_complete/fish_helpers.py: _PREFIX, _GET_COMPLETING_ARG"]}
{"id": "C122", "title": "Items that a command prints are offered as they are", "statement": "For the completers exec and exec_fast: if a command prints items, each with or without a tabulator and a description, one per line, then Bash offers exactly the items that begin with what was typed, each as a word that stands for this item; and Zsh gets exactly these items and descriptions. The fast helper does so for items without special characters.", "quantifier": "all lists of items and descriptions on one line, typed beginnings and word breaks", "why_tests_cant": "Items may have any characters: quotes, blanks, colons, backslashes. Tests print a few harmless words.", "anchors": ["crazy_complete/bash_helpers.py: _EXEC, _EXEC_FAST", "crazy_complete/zsh_helpers.py: _EXEC", "docs/documentation.md: exec"]}
{"id": "C123", "title": "Completing keys and values in Bash keeps the elements that were typed", "statement": "In Bash, when a word is a list of keys with values and some elements and the beginning of a key were typed, in whatever quotes, exactly the keys that are left and begin like that are offered; behind a key and its separator, the completer of this key is asked for the value that was typed. If a suggestion is accepted, the elements that were typed are still there, and the key or value is behind them. The same holds for single pairs, and if a command prints the keys and values.", "quantifier": "all definitions of keys, completers of values, separators, word breaks, typed words and outputs of commands", "why_tests_cant": "What readline replaces depends on which separators are word breaks and on the quotes that were typed; tests try a few words with the default word breaks.", "anchors": ["crazy_complete/bash_helpers.py: _KEY_VALUE_LIST, _KEY_VALUE_PAIR, _KEY_VALUE_PAIR_EXEC, _KEY_VALUE_LIST_EXEC, _VALUES"]}
{"id": "C124", "title": "Completing keys and values in Fish offers exactly the keys that are left, behind what was typed", "statement": "In Fish, when an argument is a list of keys with values and some elements and the beginning of a key were typed, exactly the keys that are left are offered, in the order of the definition and with their descriptions, behind the elements that were typed, and with the separator if they take a value. Behind a key and its separator, the completer of this key is asked for the value that was typed, and its suggestions are offered behind the key. The same holds for single pairs, and if a command prints the keys and values.", "quantifier": "all definitions of keys, completers of values, separators, typed arguments and outputs of commands", "why_tests_cant": "Which keys are left depends on all elements typed before and on all exclusions; tests try a few arguments with a few keys.", "anchors": ["crazy_complete/fish_helpers.py: _KEY_VALUE_LIST, _KEY_VALUE_PAIR, _KEY_VALUE_PAIR_EXEC, _KEY_VALUE_LIST_EXEC"]}
{"id": "C125", "title": "Behind a number, its suffixes are offered", "statement": "If numbers with suffixes are to be completed, then behind a number, in Bash and Fish, the number with each of the suffixes is offered (in Fish with the description of the suffix), whatever was typed of the suffix, and accepting never takes away what was typed; in front of a number, and without suffixes, nothing is offered. In zsh, the limits, the help text and the suffixes are passed on to _numbers as they are in the definition.", "quantifier": "all limits, help texts, suffixes, descriptions and typed words", "why_tests_cant": "Suffixes and descriptions are free texts that are joined and split again; tests try one definition and one word.", "anchors": ["crazy_complete/bash_complete.py: BashCompleter.integer, float", "crazy_complete/fish_complete.py: FishCompleter.integer, float", "crazy_complete/zsh_complete.py: ZshCompleter.integer, float", "crazy_complete/bash_helpers.py: _NUMBER", "crazy_complete/fish_helpers.py: _NUMBER"]}
{"id": "C126", "title": "Completing a command line in one argument keeps the words in front", "statement": "In Fish, if an argument is a command line, then each candidate Fish has for its last word is offered as the whole argument: the words in front of it as they were typed, and the candidate in the place of the last word.", "quantifier": "all command lines and candidates", "why_tests_cant": "Where the last word begins is guessed from the overlap of what was typed and the candidate; whether the guess is right depends on all texts, not on a few samples.", "anchors": ["crazy_complete/fish_helpers.py: _SUBSTRACT_PREFIX_SUFFIX, _COMMANDLINE_STRING"]}
{"id": "C127", "title": "Keys and values that a command prints are completed in zsh as they are printed", "statement": "In zsh, if a command prints keys, with descriptions, excluded keys and marks for values, then _values is given one argument for each key, and reads from it exactly this key, its description, the keys it excludes, whether it may be given again and whether it takes a value; the value is completed by the command, called with this key as argument.", "quantifier": "all outputs of commands, commands and separators", "why_tests_cant": "Keys, descriptions and exclusions are free texts that are put into one argument with its own syntax; tests try a few of them.", "anchors": ["crazy_complete/zsh_helpers.py: _KEY_VALUE_PAIR_EXEC, _KEY_VALUE_LIST_EXEC"]}
{"id": "C128", "title": "File completers offer the files of the definition's directory, with its extensions, without the ignored ones", "statement": "For a completer of files, each shell offers exactly the files that are listed in the directory of the definition (or in the working directory), that are directories or have one of its extensions, and whose name matches none of the patterns to be ignored; the working directory is not changed. For a completer of directories, exactly the directories are offered.", "quantifier": "all directories, extensions, patterns, listings and working directories", "why_tests_cant": "Directories, extensions and patterns are free texts that pass through the syntax of three shells; tests look at a few of them.", "anchors": ["crazy_complete/bash_complete.py: BashCompleter.file, directory", "crazy_complete/bash_helpers.py: _FILE_FILTER", "crazy_complete/fish_complete.py: FishCompleteFile, FishCompleteDirectory", "crazy_complete/fish_helpers.py: _FILEDIR", "crazy_complete/zsh_complete.py: ZshCompleter.file, directory", "crazy_complete/zsh_helpers.py: _PATH_FILES_RELATIVE"]}
{"id": "C129", "title": "Completing a value that is attached to a short option keeps the option", "statement": "When the word being typed in Bash is one or more short options with a value attached, as in -voVALUE, then accepting a suggestion leaves the options in front on the line, followed by exactly what accepting the suggestion would have given for the value alone - whether or not the value contains characters at which readline breaks words.", "quantifier": "all commands with options, words typed, sets of word breaks, and suggestions for the value", "why_tests_cant": "It has to hold for every position of a word break in every value, and for every way to write the value; tests compare the replies for a few plain words.", "anchors": ["crazy_complete/bash_helpers.py: _PREFIX_COMPREPLY", "crazy_complete/bash_option_completion.py: _get_cur_completion"]}
{"id": "C13", "title": "Conditional blocks of templates are selected correctly", "statement": "Preprocessing a template keeps, in order and unchanged, exactly the non-directive lines all of whose enclosing #ifdef/#else branches are active under the given defines.", "quantifier": "every properly nested template of any depth, every set of defines", "why_tests_cant": "Nesting depth and number of lines are unbounded.", "anchors": ["crazy_complete/preprocessor.py: preprocess"]}
{"id": "C130", "title": "mime_file offers exactly the directories and the files whose type fits", "statement": "For every set of files whose paths begin with what was typed, the completer mime_file offers, in their order, the directories, with a slash, and the files in whose MIME type the pattern is found, under exactly their paths - whatever colons, blanks or bytes that are not printable the paths have. In Bash every suggestion is a word that stands for the path.", "quantifier": "all lists of files with MIME types, patterns, sets of bytes that file(1) does not print, and typed beginnings", "why_tests_cant": "The paths are printed by file(1), split at a colon, decoded and quoted again; names with colons, blanks, backslashes and other bytes are too many to try.", "anchors": ["crazy_complete/bash_helpers.py: _MIME_FILE", "crazy_complete/zsh_helpers.py: _MIME_FILE", "crazy_complete/fish_helpers.py: _MIME_FILE"]}
{"id": "C131", "title": "history offers exactly the texts found in the history", "statement": "The completer history offers exactly the texts in which the history matches the pattern, in their order; in Bash those that begin with what was typed, each as a word that stands for the text.", "quantifier": "all lists of matching texts and typed beginnings", "why_tests_cant": "The history and what is typed are arbitrary texts, with blanks and characters that have a meaning for the shell.", "anchors": ["crazy_complete/bash_helpers.py: _HISTORY", "crazy_complete/zsh_helpers.py: _HISTORY"]}
{"id": "C132", "title": "mountpoint offers the mount points", "statement": "The completer mountpoint offers exactly the mount points that are printed, in their order; in Bash those that begin with what was typed, each as a word that stands for the path.", "quantifier": "all lists of mount points and typed beginnings", "why_tests_cant": "The mount points are those of the machine on which the script runs.", "anchors": ["crazy_complete/bash_helpers.py: _MOUNTPOINT", "crazy_complete/zsh_helpers.py: _MOUNTPOINT"]}
{"id": "C133", "title": "alsa_card and alsa_device offer the sound cards with their titles", "statement": "For every list of sound cards, alsa_card offers their numbers and alsa_device the devices hw:NUMBER; zsh and Fish show the title of the card, whatever characters it has, and zsh offers a card with several devices once; Bash offers those that begin with what was typed, and accepting a suggestion gives the device.", "quantifier": "all lists of cards with numbers and titles, typed beginnings, and sets of word breaks", "why_tests_cant": "The cards are those of the machine on which the script runs, and their titles are free text that is split at colons.", "anchors": ["crazy_complete/bash_helpers.py: _ALSA_LIST_CARDS, _ALSA_LIST_DEVICES", "crazy_complete/zsh_helpers.py: _ALSA_COMPLETE_CARDS, _ALSA_COMPLETE_DEVICES", "crazy_complete/fish_helpers.py: _ALSA_LIST_CARDS, _ALSA_LIST_DEVICES"]}
{"id": "C134", "title": "Definitions accepted by the validation can be imported", "statement": "A list of definitions that passes validation can be turned into a command line: the import reports no further error.", "quantifier": "all lists of definitions (any number of programs, options, positionals and completers, with any values)", "why_tests_cant": "The validation and the import check types and values separately, in two places; that one never accepts what the other rejects concerns every combination of parameters and values.", "anchors": ["crazy_complete/scheme_validator.py: validate", "crazy_complete/dictionary_source.py: dictionaries_to_commandline, dictionary_to_commandline", "crazy_complete/compat.py: fix_commandline_dictionaries", "crazy_complete/cli.py: CommandLine, Option, Positional", "crazy_complete/yaml_source.py: load_definitions"]}
{"id": "C135", "title": "Completing date formats in Fish finishes conversions", "statement": "If a date format ends with an unfinished conversion, Fish suggests the format with the conversion finished, for every conversion of POSIX, keeping what was typed. If all conversions are finished, nothing is suggested.", "quantifier": "all typed formats, with or without a prefix that was taken off", "why_tests_cant": "Whether a percent sign begins or ends a conversion depends on everything typed before it; formats have any length.", "anchors": ["crazy_complete/fish_helpers.py: _DATE_FORMAT, _GET_COMPLETING_ARG"]}
{"id": "C136", "title": "Exported command lines pass the validation", "statement": "If a completion script can be generated for a command line (under a configuration that does not ignore conditions), then the definitions that are written for it as YAML or JSON dictionaries pass the validation; and the generator's check accepts a command line exactly if the validation accepts its exported definitions.", "quantifier": "all command trees that can be built, configurations, and tests for valid regular expressions and globs", "why_tests_cant": "The export leaves out parameters with default values, the generator's check writes all of them; that both are judged alike depends on every combination of parameters, completers and commands.", "anchors": ["crazy_complete/dictionary_source.py: commandline_to_dictionaries", "crazy_complete/completion_validator.py: CompletionValidator.validate_commandlines", "crazy_complete/scheme_validator.py: validate", "crazy_complete/generation.py: enhance_commandline"]}
{"id": "C137", "title": "The addresses offered are of the kind that is asked for", "statement": "For the completer of IP addresses, the script of each shell offers exactly the addresses of the computer that are of the kind in the definition: without a colon for ipv4, with a colon for ipv6, any for all. With a plus it also offers 0.0.0.0 or :: as far as they are of that kind, and nothing else. Bash offers those that begin with what is typed, with the names of functions of every version of bash-completion.", "quantifier": "all kinds that the validation accepts, all sets of addresses and interfaces of the computer, all typed beginnings, all versions of bash-completion", "why_tests_cant": "Tests compare the script with a stored one; which addresses are offered depends on the computer and the names of its interfaces.", "anchors": ["crazy_complete/bash_complete.py: ip_address", "crazy_complete/fish_complete.py: ip_address", "crazy_complete/zsh_complete.py: ip_address"]}
{"id": "C138", "title": "Messages are in the language that the environment asks for", "statement": "The first of LANGUAGE, LC_ALL, LC_MESSAGES and LANG that is set and not empty decides, else the locale of the system, else English is taken. Messages are in German exactly if the language in that locale is German, in whatever country, encoding or variant, and with big or small letters; otherwise they are in English. Choosing the language fails only if no variable is set and the system rejects its own locale.", "quantifier": "all environments, all values of the variables, all answers of the system and all messages", "why_tests_cant": "The tests run with LANG=C; the environment is read when the program is loaded.", "anchors": ["crazy_complete/messages.py: normalize_lang", "crazy_complete/messages.py: get_lang", "crazy_complete/messages.py: LANG"]}
{"id": "C139", "title": "The manual shows whole entries and no control sequences in files", "statement": "The page of a completer shows its name, its descriptions, every visible line of its example and its output, all its notes, the shells that have it (one or two) and every completer to see also with its text. For any other topic the names of all completers are listed, each once and in order, and nothing else. If the output is not a terminal, then no control sequence is printed.", "quantifier": "all lists of entries with different names, all topics, with and without colors", "why_tests_cant": "There is no test of the manual; the texts of entries change with each release.", "anchors": ["crazy_complete/manual.py: print_help_for_command", "crazy_complete/manual.py: print_help_topic", "crazy_complete/application.py: try_print_manual"]}
{"id": "C14", "title": "Unbalanced conditional blocks are rejected", "statement": "Preprocessing succeeds if and only if the #ifdef/#else/#endif directives are balanced and every #ifdef names a define, whatever the defines are; otherwise the specific error for the first offending directive or for the missing #endif is raised.", "quantifier": "every template text, every set of defines", "why_tests_cant": "All directive sequences.", "anchors": ["crazy_complete/preprocessor.py: preprocess"]}
{"id": "C140", "title": "uid and gid offer the numbers of all users and groups in Zsh", "statement": "The completers uid and gid offer in Zsh exactly the numbers of all users (groups) of the computer, each with the name of the user (group) as its description, in the order of the database and whatever other fields there are.", "quantifier": "all databases of users and groups", "why_tests_cant": "The users and groups are those of the machine on which the script runs.", "anchors": ["crazy_complete/zsh_helpers.py: _UID_LIST", "crazy_complete/zsh_helpers.py: _GID_LIST", "crazy_complete/zsh_complete.py: uid", "crazy_complete/zsh_complete.py: gid"]}
{"id": "C141", "title": "Locales, character sets and time zones are offered as they are on the computer", "statement": "The completers locale and charset offer in Bash exactly the names that the system prints and that begin with what is typed; charset offers in Zsh all of them, without descriptions. The time zones are exactly those that timedatectl prints; without timedatectl they are the files below /usr/share/zoneinfo, named relative to it, except for the copies in the folders posix and right.", "quantifier": "all lists of names, all sets of files, all typed beginnings", "why_tests_cant": "The names are those of the machine on which the script runs; timedatectl is there or not.", "anchors": ["crazy_complete/bash_helpers.py: _LOCALES", "crazy_complete/bash_helpers.py: _CHARSETS", "crazy_complete/bash_helpers.py: _TIMEZONE_LIST", "crazy_complete/fish_helpers.py: _TIMEZONE_LIST", "crazy_complete/zsh_helpers.py: _CHARSET_LIST"]}
{"id": "C142", "title": "Errors in definitions tell one place", "statement": "The text of an error that is found in a definition tells the line and the column of the value, counted from one, and the message, and it can be read in one way only: two errors with different places or messages never have the same text. Without a place the text is the message.", "quantifier": "all lines, columns and messages", "why_tests_cant": "Tests compare single messages; that texts cannot be confused is about all pairs of them.", "anchors": ["crazy_complete/errors.py: CrazySchemaValidationError", "crazy_complete/value_with_trace.py: get_position_string", "crazy_complete/value_with_trace.py: from_yaml_event"]}
{"id": "C15", "title": "Wrapped lists lose and reorder nothing", "statement": "Wrapping a list of items over several lines keeps all items in order, each followed on its line by the separator or the line break, and no line that holds more than one item exceeds the maximal length.", "quantifier": "every list of items, every maximal length, every separator and line prefix", "why_tests_cant": "Line-breaking boundaries depend on arbitrary item lengths.", "anchors": ["crazy_complete/str_utils.py: join_with_wrap"]}
{"id": "C16", "title": "Indentation is reversible and leaves blank lines alone", "statement": "Indenting a text prefixes every non-blank line with the given number of blanks and changes nothing else; removing the prefix gives the text back.", "quantifier": "every text, every level", "why_tests_cant": "All texts.", "anchors": ["crazy_complete/str_utils.py: indent"]}
{"id": "C17", "title": "Grouping keeps every element once and in order", "statement": "Grouping a list by a key puts each element in exactly the group of its key, keeps the relative order within groups, orders groups by first occurrence, and creates no empty group.", "quantifier": "every list, every key function", "why_tests_cant": "All lists and key functions.", "anchors": ["crazy_complete/algo.py: group_by"]}
{"id": "C18", "title": "De-duplication and partitioning are exact", "statement": "Removing duplicates keeps the first occurrence of every element and nothing else; partitioning splits a list into the elements satisfying the test and the others, each in order; flattening concatenates.", "quantifier": "every list, every predicate", "why_tests_cant": "All lists.", "anchors": ["crazy_complete/algo.py: uniq, partition, flatten"]}
{"id": "C19", "title": "Digit-range detection is exact", "statement": "A list of integers is reported contiguous exactly when it is non-empty and its elements are, in some order, the consecutive integers from its minimum to its maximum, each once.", "quantifier": "every list of integers", "why_tests_cant": "All lists in all orders.", "anchors": ["crazy_complete/algo.py: numbers_are_contiguous"]}
{"id": "C20", "title": "Subcommands see exactly the right inherited options", "statement": "The options visible in a subcommand are its own options, followed by those of its ancestors that are not shadowed by an option with the same set of option strings seen earlier; nothing is listed twice and own options are never dropped.", "quantifier": "every command tree of any depth", "why_tests_cant": "All trees; shadowing depends on every ancestor.", "anchors": ["crazy_complete/cli.py: CommandLine.get_options, OptionsGetter, Option.get_option_strings_key"]}
{"id": "C21", "title": "Positional arguments are numbered consistently", "statement": "The index of a positional argument inside the full command line equals its own number minus one plus the positions consumed by every ancestor (its subcommand selectors included), so positionals of a subcommand always come after all of those of its ancestors.", "quantifier": "every command tree, every positional", "why_tests_cant": "All depths.", "anchors": ["crazy_complete/cli.py: Positional.get_positional_index, get_positional_num, CommandLine.get_highest_positional_num"]}
{"id": "C22", "title": "Mutual exclusion is symmetric and irreflexive", "statement": "If one option conflicts with another then the other conflicts with it; two different options of a command line conflict exactly if they share a group; an option is never listed as conflicting with itself.", "quantifier": "every command line and pair of options", "why_tests_cant": "All group assignments.", "anchors": ["crazy_complete/cli.py: Option.get_conflicting_options"]}
{"id": "C23", "title": "Copying a command line gives an equal tree", "statement": "Copying any command line that can be built succeeds and gives the same tree at every depth; equality of command lines compares everything except the argument separator setting of options.", "quantifier": "every command tree", "why_tests_cant": "Trees of unbounded depth and width.", "anchors": ["crazy_complete/cli.py: CommandLine.copy, CommandLine.__eq__, Option.__eq__, Positional.__eq__, SubCommandsOption.__eq__"]}
{"id": "C24", "title": "Subcommand names stay unique", "statement": "However subcommands are added, no command ever has two subcommands of the same name, and adding a duplicate is refused leaving the command unchanged.", "quantifier": "every sequence of subcommand additions", "why_tests_cant": "All histories of additions.", "anchors": ["crazy_complete/cli.py: SubCommandsOption.add_commandline, add_commandline_object"]}
{"id": "C25", "title": "Definitions survive the round trip through dictionaries", "statement": "Exporting a command tree to the list of dictionaries and importing it again gives an equal command tree.", "quantifier": "every well-formed command tree of any depth", "why_tests_cant": "All trees and attribute combinations.", "anchors": ["crazy_complete/dictionary_source.py: commandline_to_dictionaries, dictionaries_to_commandline"]}
{"id": "C26", "title": "Orphan and duplicate subcommand definitions are rejected", "statement": "Importing a list of definitions succeeds only if every program path is defined at most once and after its parent's path, exactly one top-level program exists; otherwise an error is raised.", "quantifier": "every list of definitions in every order", "why_tests_cant": "All orders of all lists.", "anchors": ["crazy_complete/dictionary_source.py: CommandlineTree.add_commandline, dictionaries_to_commandline", "crazy_complete/scheme_validator.py: DefinitionTree"]}
{"id": "C27", "title": "Settings left to inherit are always resolved", "statement": "After applying a configuration, no command line or option keeps an undecided (`INHERIT`) setting, explicitly decided settings are unchanged, and applying the configuration again changes nothing.", "quantifier": "every command tree, every configuration", "why_tests_cant": "All trees and settings.", "anchors": ["crazy_complete/generation.py: _apply_config, enhance_commandline"]}
{"id": "C28", "title": "Enabling abbreviations and repeatable options cannot invalidate a definition", "statement": "If a definition is accepted, applying any configuration to it gives a definition that is accepted as well.", "quantifier": "every valid command tree, every configuration", "why_tests_cant": "Products of settings and options.", "anchors": ["crazy_complete/generation.py: enhance_commandline, _apply_config", "crazy_complete/scheme_validator.py: _check_option0"]}
{"id": "C29", "title": "Used helper functions are emitted with all their dependencies, once", "statement": "After any sequence of requests for helper functions, the emitted code contains every requested function and everything it transitively depends on, no function twice, and nothing else.", "quantifier": "every acyclic function registry, every sequence of requests", "why_tests_cant": "All dependency graphs and request orders.", "anchors": ["crazy_complete/helpers.py: GeneralHelpers.use_function, get_used_functions_code"]}
{"id": "C30", "title": "Generated helper functions get unique names", "statement": "In any sequence of dynamically added functions, two functions with different code never share a name and identical code reuses the existing function.", "quantifier": "every history of additions", "why_tests_cant": "All histories.", "anchors": ["crazy_complete/helpers.py: GeneralHelpers.add_dynamic_func"]}
{"id": "C31", "title": "YAML documents are rebuilt exactly", "statement": "Feeding the events of any document tree to the extended YAML parser returns that tree (mappings, sequences and scalars nested to any depth), for any number of documents, in order, with the position of every value; if a key is written twice its last value counts; aliases are always rejected.", "quantifier": "every list of document trees whose root is a mapping or sequence; every event stream with an alias", "why_tests_cant": "Unbounded nesting, any number of documents.", "anchors": ["crazy_complete/extended_yaml_parser.py: ExtendedYAMLParser"]}
{"id": "C32", "title": "Every definition at every depth is validated", "statement": "Validating a list of definitions checks every definition in it, at any subcommand depth.", "quantifier": "every accepted list of definitions", "why_tests_cant": "Depth is unbounded; only deep trees show the problem.", "anchors": ["crazy_complete/scheme_validator.py: DefinitionTree.visit, get_all, validate"]}
{"id": "C33", "title": "Nested completers are judged independently", "statement": "Whether a nested completer is accepted depends only on the completers that enclose it, not on siblings validated before it.", "quantifier": "every nested completer definition", "why_tests_cant": "Interaction of arbitrary nesting orders.", "anchors": ["crazy_complete/scheme_validator.py: Context.trace, _check_none, _check_list, _check_combine, _check_key_value_list"]}
{"id": "C34", "title": "At most one repeatable positional, and it is the last", "statement": "If validation of a command's positionals succeeds, all repeatable positionals share one number and no positional has a greater one, and a command with a repeatable positional has no subcommands.", "quantifier": "every list of positionals in any order", "why_tests_cant": "All lists and orders.", "anchors": ["crazy_complete/scheme_validator.py: _check_positionals_repeatable0"]}
{"id": "C35", "title": "Ranges are well-founded", "statement": "A numeric range accepted by validation has a non-zero step and is non-empty; a Python range converted to a completer denotes exactly the elements of the Python range.", "quantifier": "all integers start, stop, step", "why_tests_cant": "All integers.", "anchors": ["crazy_complete/scheme_validator.py: _check_range", "crazy_complete/argparse_source.py: range_to_complete"]}
{"id": "C36", "title": "Help texts are parsed without loss and without crashing", "statement": "Parsing any help text terminates without an exception and every character of the text outside of recognised separators is present in the result, in order.", "quantifier": "every text", "why_tests_cant": "All texts, in particular truncated ones.", "anchors": ["crazy_complete/help_parser.py: parse, parse_options_with_description, parse_option_delimiter"]}
{"id": "C37", "title": "when-conditions keep their meaning in the generated script", "statement": "The condition text generated for a `when` expression, placed in front of `&&`, is true exactly when the boolean expression is true, for every truth assignment of the single tests.", "quantifier": "every accepted when expression, every truth assignment", "why_tests_cant": "All boolean expressions with shell's equal-precedence && and ||.", "anchors": ["crazy_complete/when.py: parse_when, needs_braces", "crazy_complete/zsh_when.py: generate_when_conditions", "crazy_complete/bash_when.py: generate_when_conditions"]}
{"id": "C38", "title": "Accepted when-conditions are well-formed", "statement": "Every accepted condition has balanced parentheses and is a complete boolean expression.", "quantifier": "every condition text", "why_tests_cant": "All token sequences.", "anchors": ["crazy_complete/shell_parser.py: check_syntax, parse"]}
{"id": "C39", "title": "Cached conditions in fish change nothing", "statement": "Two different test expressions never share a cache variable, the same expression always gets the same variable, each is defined exactly once, and the script with cached conditions runs the same complete commands as the one with inline conditions.", "quantifier": "every sequence of requests, every list of definitions of any number of commands", "why_tests_cant": "All histories.", "anchors": ["crazy_complete/fish_utils.py: VariableManager", "crazy_complete/fish.py: FishCompletionGenerator"]}
{"id": "C40", "title": "Glob patterns are translated faithfully", "statement": "The regular expression and the Zsh pattern made from a Bash extended glob match exactly the names that the glob matches.", "quantifier": "every Bash pattern, built from literal text, quotes, wildcards, brackets and nested groups; every candidate name", "why_tests_cant": "All patterns and candidate strings.", "anchors": ["crazy_complete/pattern.py: GlobLexer, GlobParser, bash_glob_to_regex, bash_glob_to_zsh_glob"]}
{"id": "C41", "title": "Escaping for zsh completion specs is reversible", "statement": "Descriptions, names and actions that are escaped for the specifications of zsh's _arguments (colons, square brackets) are read back by _arguments as the original texts, and none of their characters ends the field early.", "quantifier": "every string, with and without backslashes", "why_tests_cant": "All strings including backslashes.", "anchors": ["crazy_complete/zsh_utils.py: escape_colon, escape_square_brackets, escape_colon_in_quoted_string"]}
{"id": "C42", "title": "The generated Bash parsers use the options of the command that was typed", "statement": "The options of a command are recognised exactly at that command and, if it passes its options on, at its descendants: not at its siblings, its parents or other commands. Different commands have different paths.", "quantifier": "every command tree that the API can build, every command of it, every other command", "why_tests_cant": "Depends on prefix relations between the names of siblings, at any depth.", "anchors": ["crazy_complete/bash_parser.py: generate", "crazy_complete/bash_parser_v2.py: _make_cmd_plus_option_switch_code", "crazy_complete/bash_parser_subcommand_code.py: get_subcommand_path"]}
{"id": "C43", "title": "Different options are captured in different variables", "statement": "Two different options of a command line never share the variable that records their use.", "quantifier": "every pair of options", "why_tests_cant": "Identifier derivation is not injective.", "anchors": ["crazy_complete/bash_utils.py: make_option_variable_name, VariableManager.capture_variable"]}
{"id": "C44", "title": "Generation does not change the caller's definition", "statement": "Generating a completion script leaves the command line passed in unchanged, so generating twice gives the same result.", "quantifier": "every command tree", "why_tests_cant": "Aliasing between copies.", "anchors": ["crazy_complete/generation.py: enhance_commandline", "crazy_complete/shell.py: file_list, directory_list", "crazy_complete/cli.py: CommandLine.copy"]}
{"id": "C45", "title": "Quoting is faithful for zsh", "statement": "Joining the quoted forms of any list of strings with blanks gives text that zsh (whose default EQUALS option expands a word with a leading unquoted equals sign) splits into exactly that list with no expansion.", "quantifier": "every list of strings", "why_tests_cant": "the set of strings is unbounded and the offending class is narrow", "anchors": ["crazy_complete/shell.py: quote, needs_quote, join_quoted"]}
{"id": "C46", "title": "Sparse list assignments", "statement": "Assigning values to arbitrary indexes of a sparse list never fails, and afterwards every index below its length holds the value assigned last to it, or its old value, or the default; the length is the highest assigned index plus one, or the old length.", "quantifier": "every list, every sequence of assignments", "why_tests_cant": "Unbounded sequences of assignments in any order.", "anchors": ["crazy_complete/algo.py: SparseList", "crazy_complete/fish_prepare.py"]}
{"id": "C47", "title": "Accepted program strings denote one command path", "statement": "A definition's program string is accepted exactly if it is a non-blank sequence of words separated by single blanks, and every part of the program that cuts it into a command path obtains the same path.", "quantifier": "every string", "why_tests_cant": "White space other than blanks is easy to miss.", "anchors": ["crazy_complete/str_utils.py: validate_prog", "crazy_complete/dictionary_source.py: CommandlineTree", "crazy_complete/scheme_validator.py: DefinitionTree"]}
{"id": "C48", "title": "Tidying generated code only removes surplus empty lines", "statement": "Stripping double empty lines changes nothing but newlines, leaves text without double empty lines alone, and its result has no two consecutive empty lines.", "quantifier": "every text", "why_tests_cant": "Runs of newlines of any length.", "anchors": ["crazy_complete/str_utils.py: strip_double_empty_lines"]}
{"id": "C49", "title": "Comment stripping", "statement": "Stripping comments removes exactly the lines whose first non-white character is a hash sign, keeps all other lines in order and is idempotent.", "quantifier": "every text", "why_tests_cant": "Unbounded text.", "anchors": ["crazy_complete/str_utils.py: strip_comments"]}
{"id": "C50", "title": "Options with arguments are a filter of the visible options", "statement": "Asking only for options that take arguments gives exactly the visible options that take arguments.", "quantifier": "every command in every command tree", "why_tests_cant": "Depends on shadowing between arbitrary ancestors.", "anchors": ["crazy_complete/cli.py: CommandLine.get_options, OptionsGetter"]}
{"id": "C51", "title": "Looking up options by option strings", "statement": "Looking up a list of option strings succeeds exactly if each belongs to an option of the command line, and returns the options found without repetition.", "quantifier": "every command line, every list of strings", "why_tests_cant": "Unbounded lists with overlapping strings.", "anchors": ["crazy_complete/cli.py: CommandLine.get_options_by_option_strings"]}
{"id": "C52", "title": "Every subcommand is offered under its name with its own help", "statement": "The choices of a subcommand selector are exactly the names and aliases of its subcommands, each once, in order, and each with the help of its subcommand.", "quantifier": "every list of subcommands", "why_tests_cant": "Collisions between names and aliases.", "anchors": ["crazy_complete/cli.py: SubCommandsOption.get_choices"]}
{"id": "C53", "title": "The option list for query helpers is decodable", "statement": "The text listing the options for the query helper functions can be read back into exactly the visible option strings with the right kind of argument (none, required, optional).", "quantifier": "every command in every command tree", "why_tests_cant": "Any option strings; option strings may contain the mark characters.", "anchors": ["crazy_complete/utils.py: get_query_option_strings"]}
{"id": "C54", "title": "Visiting reaches every command exactly once, parents first", "statement": "Visiting a command tree calls the callback for exactly the commands of the tree at every depth, once each, and for a parent before its children.", "quantifier": "every command tree", "why_tests_cant": "Depth and width are unbounded.", "anchors": ["crazy_complete/cli.py: CommandLine.visit_commandlines"]}
{"id": "C55", "title": "Constructors accept exactly the valid descriptions", "statement": "An option, positional or command line object can be created exactly if its description is valid (non-empty list of valid option strings, valid capture names, an argument wherever metavar or optional_arg needs one, not both hidden and repeatable, numbers from 1, aliases and wraps that are single words); so every command of every tree that can be built is valid.", "quantifier": "every description, every sequence of API calls, every command of the tree", "why_tests_cant": "All field combinations and all construction histories.", "anchors": ["crazy_complete/cli.py: Option.__init__, Positional.__init__, CommandLine.__init__, add_option, add_positional, add_subcommands"]}
{"id": "C56", "title": "Single tests of conditions are read exactly as written", "statement": "`option_is`, `option_match`, `has_option`, `positional_count` and `positional_contains` accept exactly their documented syntax and keep flags, options, numbers and values; every sensible test can be written and is read back.", "quantifier": "every list of arguments, every test, every integer", "why_tests_cant": "All argument lists, with flags in any number and order and values that look like flags or `--`.", "anchors": ["crazy_complete/when.py: OptionIs, OptionMatch, HasOption, PositionalCount, PositionalContains, replace_commands"]}
{"id": "C57", "title": "Condition commands in fish scripts keep their words", "statement": "The condition command written between double quotes in a fish script is read back by fish as exactly the words of the condition.", "quantifier": "every list of words", "why_tests_cant": "All strings, through two levels of quoting.", "anchors": ["crazy_complete/fish_conditions.py: escape_in_double, make_condition_command", "crazy_complete/shell.py: quote"]}
{"id": "C58", "title": "Walking a command tree", "statement": "Visiting a command line reaches every command below it exactly once, parents before children and siblings in order; from every command the root, the chain of ancestors and the final options of the chain are found.", "quantifier": "every command tree, every command in it", "why_tests_cant": "Trees of any depth and width.", "anchors": ["crazy_complete/cli.py: visit_commandlines, get_parents, get_root_commandline, get_command_path, get_final_options"]}
{"id": "C59", "title": "Defines are substituted everywhere and only there", "statement": "In a list of definitions with a document of defines, every text in value position that is a defined name is replaced by its definition, at any depth, in all other documents; everything else, including keys, stays the same, and without such a document nothing changes.", "quantifier": "every list of documents, every document of defines at any position, every nesting depth", "why_tests_cant": "documents and their nesting are unbounded", "anchors": ["crazy_complete/dictionary_source.py: replace_defines_in_documents"]}
{"id": "C60", "title": "Deprecated option groups keep their meaning", "statement": "A definition in which an option is written with the deprecated entry `group: g` is imported exactly as the same definition with `groups: [g]`; if both entries are given, `groups` counts.", "quantifier": "every list of definitions, every option in it, every group", "why_tests_cant": "the surrounding definitions are arbitrary", "anchors": ["crazy_complete/compat.py: fix_option_dictionary, fix_commandline_dictionary", "crazy_complete/dictionary_source.py: dictionaries_to_commandline"]}
{"id": "C61", "title": "Importing a list of definitions can be repeated", "statement": "Importing the same list of definitions a second time gives the same command line.", "quantifier": "every list of definitions", "why_tests_cant": "needs the effect on the caller's list for every list", "anchors": ["crazy_complete/dictionary_source.py: replace_defines_in_documents, dictionaries_to_commandline", "crazy_complete/compat.py"]}
{"id": "C62", "title": "References between helper functions are renamed consistently", "statement": "Whatever the program's name and the function prefix, each emitted helper function is defined under exactly the name its callers use, and inside its code exactly the whole words that name its dependencies are replaced by their real names.", "quantifier": "every prefix, registry and set of functions in use", "why_tests_cant": "All program names and all helper code.", "anchors": ["crazy_complete/helpers.py: replace_function_name, GeneralHelpers.get_used_functions_code, get_real_function_name"]}
{"id": "C63", "title": "All functions of a script have different names", "statement": "In a generated script no generated completion function has the name of a helper function or of another generated function.", "quantifier": "every history of helper requests and generated functions, every option and positional", "why_tests_cant": "All option strings, metavars and request histories.", "anchors": ["crazy_complete/helpers.py: make_completion_funcname_for_context, GeneralHelpers.add_dynamic_func, get_real_function_name"]}
{"id": "C64", "title": "Different subcommands have different completion functions", "statement": "The completion functions of two different commands of one program never have the same name.", "quantifier": "every command tree and every pair of its commands", "why_tests_cant": "All command trees.", "anchors": ["crazy_complete/helpers.py: GeneralHelpers.make_completion_funcname", "crazy_complete/bash.py", "crazy_complete/zsh.py"]}
{"id": "C65", "title": "The shipped helper functions always generate", "statement": "For every combination of requested shipped helper functions, macros, debug setting and prefix, everything they need is found and their code is generated without an error.", "quantifier": "every list of requests, every set of macros, every prefix without white space, % and #", "why_tests_cant": "Exponentially many combinations of macros and functions.", "anchors": ["crazy_complete/bash_helpers.py", "crazy_complete/fish_helpers.py", "crazy_complete/zsh_helpers.py", "crazy_complete/helpers.py: GeneralHelpers.get_used_functions_code", "crazy_complete/preprocessor.py"]}
{"id": "C66", "title": "Option patterns recognise exactly the option", "statement": "In the generated Bash parser, the pattern of an option without argument matches exactly its option strings, the pattern of an option with an attached argument matches exactly an option string followed by '=' and any text, the pattern of a short option matches exactly its letter, and the pattern of old-style options matches exactly these.", "quantifier": "every non-empty list of option strings; every word of the command line", "why_tests_cant": "A pattern that matches too much or too little is only seen with words nobody thought of.", "anchors": ["crazy_complete/bash_utils.py: CasePatterns"]}
{"id": "C67", "title": "Extension patterns ignore case and nothing else", "statement": "The pattern built from file extensions matches a word exactly if the word equals one of the extensions up to upper and lower case; the fuzzy pattern exactly if the word starts with one up to case.", "quantifier": "every non-empty list of extensions without pattern characters; every word; fuzzy or not", "why_tests_cant": "Both directions range over all words.", "anchors": ["crazy_complete/bash_utils.py: make_file_extension_pattern"]}
{"id": "C68", "title": "Sub-command patterns match exactly the command's names", "statement": "The pattern with which a generated Bash parser recognises a sub-command matches exactly its name, its aliases and their abbreviations.", "quantifier": "every non-empty list of names; every word of the command line", "why_tests_cant": "Quoting and pattern compaction interact for arbitrary names.", "anchors": ["crazy_complete/bash_parser_subcommand_code.py: _make_switch_case", "crazy_complete/bash.py: make_pattern over quoted names", "crazy_complete/bash_patterns.py: make_pattern"]}
{"id": "C69", "title": "Captured options get valid variable names", "statement": "The name of the variable that records an option in a generated Bash script is a valid shell variable name.", "quantifier": "every option with valid option strings", "why_tests_cant": "Option strings may contain any character but blanks.", "anchors": ["crazy_complete/bash_utils.py: make_option_variable_name, VariableManager.capture_variable"]}
{"id": "C70", "title": "The first generated Bash parser understands every command line", "statement": "Whatever mixture of long, old-style and short options (with attached or separate arguments, abbreviated, or clustered), positional arguments, sub-command names (also aliases and abbreviations) and '--' is typed before the cursor, the parser records exactly the options with their arguments and the positional arguments that were meant, in their order.", "quantifier": "every definition that the API can build, every command line of any length", "why_tests_cant": "Command lines can be combined without limit from the options of any tree of commands.", "anchors": ["crazy_complete/bash_parser.py: generate", "crazy_complete/bash_parser.py: _PARSER_CODE", "crazy_complete/bash_parser_subcommand_code.py: make_subcommand_switch_code", "crazy_complete/cli.py: get_option_abbreviator"]}
{"id": "C71", "title": "The second generated Bash parser understands every command line", "statement": "The same for the parser that looks options up in a function; if the definition has neither positional arguments nor sub-commands it does not record positional arguments.", "quantifier": "every definition that the API can build, every command line of any length", "why_tests_cant": "Command lines can be combined without limit from the options of any tree of commands.", "anchors": ["crazy_complete/bash_parser_v2.py: generate", "crazy_complete/bash_parser_v2.py: _PARSER_CODE", "crazy_complete/utils.py: get_defined_option_types"]}
{"id": "C72", "title": "It makes no difference which Bash parser is generated", "statement": "The generator takes the shorter of two parsers; both record the same options, arguments and positional arguments for the same command line.", "quantifier": "every definition that the API can build, every command line", "why_tests_cant": "Two programs have to agree on all inputs.", "anchors": ["crazy_complete/bash.py: generate_completion", "crazy_complete/bash_parser.py: generate", "crazy_complete/bash_parser_v2.py: generate"]}
{"id": "C73", "title": "An option typed in full is not mistaken for an abbreviation", "statement": "A long or old-style option string that is typed in full means the option that has this string, even if it is a prefix of other option strings that may be abbreviated.", "quantifier": "every definition that the API can build, every command of it, every option that may be used there", "why_tests_cant": "Depends on prefix relations between the options of a command and of all its ancestors.", "anchors": ["crazy_complete/cli.py: get_option_abbreviator", "crazy_complete/utils.py: OptionAbbreviationGenerator", "crazy_complete/bash_parser.py: generate"]}
{"id": "C74", "title": "Ignored files are the files that match", "statement": "In Fish, file completion with ignore_globs leaves out a path if and only if the file name behind some directory prefix matches one of the Bash patterns.", "quantifier": "every list of patterns, every path", "why_tests_cant": "The patterns are translated, joined and embedded in another regular expression that is searched, not matched.", "anchors": ["crazy_complete/fish_complete.py: FishCompletionBase.complete_file", "crazy_complete/fish_helpers.py: fish_complete_filedir", "crazy_complete/pattern.py: bash_glob_to_regex"]}
{"id": "C75", "title": "File extensions select the right files", "statement": "In Fish, file completion with extensions offers a path if and only if it is a directory or ends in a dot and one of the extensions, ignoring case; with fuzzy, further text may follow the extension.", "quantifier": "every list of extensions, every path, fuzzy or not", "why_tests_cant": "Extensions are arbitrary texts that are embedded in a regular expression.", "anchors": ["crazy_complete/fish_complete.py: _get_extension_regex", "crazy_complete/fish_helpers.py: fish_complete_filedir"]}
{"id": "C76", "title": "Invalid patterns are reported as such", "statement": "Translating a pattern ends for every text, with a result or with the exception for invalid patterns.", "quantifier": "every text", "why_tests_cant": "All texts, in particular malformed ones.", "anchors": ["crazy_complete/pattern.py: GlobLexer, GlobParser", "crazy_complete/scheme_validator.py: _check_glob_pattern"]}
{"id": "C77", "title": "A help text in the usual layout is understood", "statement": "For a help text made of headings and option entries (indentation, option strings with no argument, a separate word, an attached =argument, an optional [=argument], separated by commas; description on the same or on following, deeper indented lines), parsing yields exactly those headings and entries, with the option strings, metavariables, optional flags and descriptions as written. The program name is the word behind 'usage:', in any letter case.", "quantifier": "all lists of headings and entries of the described layout; all program names", "why_tests_cant": "Layouts can be combined in infinitely many ways; a test checks a few help texts.", "anchors": ["crazy_complete/help_parser.py:parse", "crazy_complete/help_parser.py:get_program_name_from_help"]}
{"id": "C78", "title": "Options converted from a help text pass validation", "statement": "Every option dictionary which the help converter writes is accepted by the validation of the definition file format.", "quantifier": "all help texts", "why_tests_cant": "Any text may be fed to the converter; only some are tested.", "anchors": ["crazy_complete/help_converter.py:from_file_to_yaml", "crazy_complete/scheme_validator.py:check_option"]}
{"id": "C79", "title": "Wrapped descriptions become one line", "statement": "The help of a converted option is its description with the line breaks replaced by spaces, or removed behind a hyphen; option strings keep their order.", "quantifier": "all entries of the usual layout, with any number of description lines", "why_tests_cant": "The number and content of description lines are unbounded.", "anchors": ["crazy_complete/help_converter.py", "crazy_complete/help_parser.py"]}
{"id": "C80", "title": "fish complete commands say what was defined", "statement": "Read by fish, the complete command that is written for an option, positional or sub-command list names the program, exactly the option strings, the description, the completions, the argument and order flags, and the conditions of the definition.", "quantifier": "every definition: any strings, any number of conditions and options", "why_tests_cant": "Strings are arbitrary and go through quoting twice.", "anchors": ["crazy_complete/fish_utils.py: FishCompleteCommand", "crazy_complete/fish.py: FishCompletionDefinition.get_complete_cmd"]}
{"id": "C81", "title": "fish offers options, positionals and sub-commands where they belong", "statement": "For every command line typed so far, the conditions of the fish complete command of an option are all true exactly if its command is selected, the options apply there, neither a final option nor a conflicting one (nor, unless repeatable, the option itself) is given, a hidden option has been begun, and its when condition holds; likewise for positionals and sub-command names.", "quantifier": "every command tree, every command in it, every typed command line (positionals and options)", "why_tests_cant": "Trees, names and typed lines are unbounded.", "anchors": ["crazy_complete/fish.py: _complete_option, _complete_positional, _complete_subcommands, _fix_command_arg", "crazy_complete/fish_conditions.py", "crazy_complete/fish_helpers.py: positional_contains, has_option, num_of_positionals"]}
{"id": "C82", "title": "when conditions hold in fish exactly if the command line meets them", "statement": "The fish text of a when condition is true exactly if the typed options and positionals satisfy the boolean expression of the tests, with each test meaning what the documentation says.", "quantifier": "every accepted when expression, every typed command line", "why_tests_cant": "All boolean expressions, all values, all typed lines.", "anchors": ["crazy_complete/when.py", "crazy_complete/fish_conditions.py", "crazy_complete/fish_helpers.py: option_is, option_match, has_option, positional_contains, num_of_positionals"]}
{"id": "C83", "title": "fish scripts understand every command line", "statement": "Given the words typed before the cursor, the generated fish script finds exactly the positional arguments and the options with their values, whether an argument is attached or the next word, whether short options are written together, in sub-commands at any depth, and whatever the order; and it knows whether an option is still waiting for its argument. What is offered then depends on exactly these.", "quantifier": "every command tree, every sequence of words that follows it", "why_tests_cant": "Trees and command lines are unbounded.", "anchors": ["crazy_complete/fish_prepare.py: _get_positional_pattern, _get_cmdline_definitions", "crazy_complete/fish_helpers.py: query_init", "crazy_complete/fish.py: generate_completion", "crazy_complete/utils.py: get_query_option_strings"]}
{"id": "C84", "title": "Validation accepts exactly what the manual describes", "statement": "A definition file is accepted exactly if every command, option, positional and completer has only the documented parameters, the required ones are there, every value has the documented type and lies in the documented set (option strings, words, single characters, regular expressions, variable names, when conditions, ranges with a non-zero step ...), parameters that exclude or need each other do so, and each completer stands where it is allowed.", "quantifier": "every value a definition file can contain, completers nested to any depth", "why_tests_cant": "Definition files are unbounded trees; accepting too much or too little shows only on files nobody wrote a test for.", "anchors": ["crazy_complete/scheme_validator.py: validate, _check_definition, _check_option, _check_positional, _check_complete, all _check_* functions of completers", "docs/commands.yaml"]}
{"id": "C85", "title": "Validation reports only schema errors", "statement": "Whatever a definition file contains, validation either accepts it or fails with the program's own error that names the place; it never fails with another exception.", "quantifier": "every value a definition file can contain", "why_tests_cant": "All malformed inputs.", "anchors": ["crazy_complete/scheme_validator.py: validate, _check_option, _check_positional, _validate_prog, _check_complete"]}
{"id": "C86", "title": "Bash offers exactly the options that apply", "statement": "When a word that begins with a dash is completed, the generated Bash script offers exactly the option strings (with = where the argument is attached) of the current sub-command and of those above that pass their options on, for options that are not hidden, whose when condition holds, and for which neither a final option, nor a conflicting one, nor (unless repeatable) the option itself is already given.", "quantifier": "every command tree, every command line in front of the cursor, either parser", "why_tests_cant": "Trees, groups, conditions and command lines are unbounded.", "anchors": ["crazy_complete/bash_option_strings_completion.py", "crazy_complete/bash.py: BashCompletionGenerator", "crazy_complete/cli.py: get_final_options, get_conflicting_options"]}
{"id": "C87", "title": "Bash completes the argument of the right option", "statement": "If the word before the cursor is an option that waits for its argument (a word of its own, abbreviated, or the last of several short options), or the word at the cursor contains the argument (--opt=arg, -xarg), the generated Bash script runs exactly the completer of this option for exactly this text; otherwise it runs no option completer.", "quantifier": "every command tree, every command line, either parser", "why_tests_cant": "All spellings of all options, all texts of arguments.", "anchors": ["crazy_complete/bash_option_completion.py", "crazy_complete/bash_patterns.py: make_pattern"]}
{"id": "C88", "title": "Bash completes the right positional argument", "statement": "For a word that does not begin with a dash the generated Bash script completes the positional argument that is next (or repeatable) and whose when condition holds, or the names of the sub-commands if they are next, with exactly the defined names and aliases.", "quantifier": "every command tree, every command line, either parser", "why_tests_cant": "Trees and command lines are unbounded.", "anchors": ["crazy_complete/bash_positionals_completion.py", "crazy_complete/cli.py: SubCommandsOption.get_choices"]}
{"id": "C89", "title": "Bash asks the functions of the right sub-commands", "statement": "The function of the sub-command that the positional arguments select is asked first, then those of the commands above that pass their options on, until one has completed the word; no others.", "quantifier": "every command tree of any depth, every list of positional arguments", "why_tests_cant": "Depth and names are unbounded.", "anchors": ["crazy_complete/bash.py: _generate_subcommand_call, _generate_function_body"]}
{"id": "C90", "title": "Bash scripts call only functions they define", "statement": "Every completion function that a Bash script calls for a sub-command, and the one it registers for the program, is defined in it.", "quantifier": "every command tree", "why_tests_cant": "Any tree.", "anchors": ["crazy_complete/bash.py: _generate_subcommand_call, generate_completion", "crazy_complete/utils.py: is_worth_a_function", "crazy_complete/generation.py: visit_commandlines"]}
{"id": "C91", "title": "when conditions hold in Bash exactly if the command line meets them", "statement": "The Bash text of a when condition succeeds exactly if the boolean expression over its tests is true of the values of the options and of the positional arguments.", "quantifier": "every accepted when expression, all contents of the arrays that the parser fills", "why_tests_cant": "All boolean expressions, all values with any characters.", "anchors": ["crazy_complete/bash_when.py", "crazy_complete/bash_helpers.py: array_contains, array_contains_nocase, array_match"]}
{"id": "C92", "title": "Bash and fish offer the same options", "statement": "For the same definition and the same command line, the Bash script and the fish script offer the same options: an option string is offered in Bash exactly if the fish script has a complete command for this option whose conditions are all true (final and conflicting options, options that may be given once, conditions of 'when', and the scope of options of parent commands are treated alike).", "quantifier": "all definitions, all command lines that both scripts understand, all words at the cursor that begin with a dash", "why_tests_cant": "Two generators and two run-time libraries that share no code have to agree on every definition and every command line; tests compare a few snapshots per shell.", "anchors": ["crazy_complete/bash_option_strings.py", "crazy_complete/bash_when.py", "crazy_complete/fish.py", "crazy_complete/fish_conditions.py", "crazy_complete/bash_parser_v2.py", "crazy_complete/fish_helpers.py"]}
{"id": "C93", "title": "zsh functions hand the right specifications to _arguments", "statement": "When zsh runs the function of a command, the array it passes to _arguments consists, after quoting and brace expansion, of one specification per option string, positional argument and sub-command list of the command (and of the ancestors, as inherit_options says), whose condition holds, and of nothing else; read by _arguments, each says what the definition says: name, description, hidden, repeatable, which options it excludes, whether and where it takes an argument, the argument's name and action, and the number of a positional.", "quantifier": "all command trees, all commands in them, all conditions, all texts in descriptions, metavars and actions", "why_tests_cant": "Three nested notations (zsh quoting, brace expansion, _arguments' own syntax) have to compose for every text; snapshot tests fix the texts of a few definitions and do not run zsh.", "anchors": ["crazy_complete/zsh_utils.py: make_option_spec, make_positional_spec", "crazy_complete/zsh.py: ZshCompletionFunction._generate_option_parsing, _complete_option, _complete_positional, _complete_subcommands"]}
{"id": "C94", "title": "zsh offers an option exactly when it may be used", "statement": "In the function of a command, an option string is offered exactly if it belongs to an option in scope whose condition holds, that is not hidden, no conflicting option and no final option is given, and the option itself is not given unless it is repeatable.", "quantifier": "all command trees, all commands, all sets of given options", "why_tests_cant": "Depends on all combinations of groups, final, repeatable, hidden and when, over the options of several commands.", "anchors": ["crazy_complete/zsh_utils.py: make_option_spec", "crazy_complete/zsh.py: ZshCompletionFunction._generate_option_parsing", "crazy_complete/cli.py: get_conflicting_options"]}
{"id": "C95", "title": "zsh functions understand the command line", "statement": "When zsh completes a command line, the function of the command that the positional arguments select runs, and its query finds exactly the positional arguments and the options with their values that were typed: short options written together, attached and separate arguments, old-style options, --option=value, abbreviations and aliases of sub-commands, options of ancestors that are passed on, and everything behind --.", "quantifier": "all command trees, all command lines, however quoted", "why_tests_cant": "The number of ways to write a command line is unbounded, and each function of a chain of sub-commands reads the line anew with its own list of options; the answers must agree for every line.", "anchors": ["crazy_complete/zsh_helpers.py: QUERY", "crazy_complete/zsh.py: ZshCompletionFunction._generate_option_parsing, _generate_subcommand_call", "crazy_complete/cli.py: get_query_option_strings"]}
{"id": "C96", "title": "zsh conditions hold exactly when they are met", "statement": "The command that zsh runs for a when condition succeeds exactly if the condition is true of the positional arguments and options found on the command line: has_option, option_is (last or any value, with or without case), option_match, positional_count and positional_contains, combined with !, &&, || and parentheses.", "quantifier": "all conditions, all command lines", "why_tests_cant": "Conditions nest without bound and their words pass through zsh quoting and the flag parsing of the helpers; tests only look at the generated text.", "anchors": ["crazy_complete/zsh_when.py: generate_when_conditions", "crazy_complete/zsh_helpers.py: QUERY, OPTION_MATCH, ARRAY_CONTAINS"]}
{"id": "C97", "title": "For every command line zsh offers exactly the options to be offered", "statement": "Whatever is typed, the zsh script ends in the function of the selected command and hands _arguments specifications with which it offers exactly the option strings of the options in scope whose when condition is true of this command line, that are not hidden, that no given option excludes, and that are not given already unless repeatable.", "quantifier": "all command trees, all command lines", "why_tests_cant": "Composes dispatch, query, conditions, quoting and exclusion lists; none of the intermediate texts is executed in unit tests.", "anchors": ["crazy_complete/zsh.py: ZshCompletionFunction", "crazy_complete/zsh_helpers.py: QUERY", "crazy_complete/zsh_utils.py: make_option_spec", "crazy_complete/zsh_when.py: generate_when_conditions"]}
{"id": "C98", "title": "For every command line zsh completes the right positional argument", "statement": "Whatever is typed, the next word of the command line is completed by zsh as the positional argument of the selected command that comes next and whose condition is met, or as the name of a sub-command behind its positional arguments, and as nothing else; numbers of positional arguments are counted across the levels of sub-commands.", "quantifier": "all command trees, all command lines", "why_tests_cant": "Numbers are relative to each command and shifted by the depth at which it is called; only a statement about all trees and lines shows that they meet the right argument.", "anchors": ["crazy_complete/zsh.py: ZshCompletionFunction._complete_positional, _complete_subcommands", "crazy_complete/zsh_utils.py: make_positional_spec", "crazy_complete/cli.py: get_positional_num, get_positional_index"]}
{"id": "C99", "title": "The shells offer exactly the choices of the definition", "statement": "For an option or positional argument whose completer is a list of choices, or a dictionary of choices with descriptions, the script of each shell offers exactly these texts with these descriptions, in this order: whatever characters they have, however many there are, and whether they are written in place or in a function of their own because they are long. Bash offers those that start with what is typed.", "quantifier": "all lists and dictionaries of choices, metavars, line lengths, function names and typed beginnings", "why_tests_cant": "The texts are quoted twice, wrapped over lines, indented and put through a preprocessor before a shell reads them; tests use a few harmless words.", "anchors": ["crazy_complete/zsh_complete.py: ZshCompleteChoices", "crazy_complete/fish_complete.py: FishCompleteChoices", "crazy_complete/bash_complete.py: CompgenW", "crazy_complete/str_utils.py: join_with_wrap, indent"]}
