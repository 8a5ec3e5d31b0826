{
 "claims": [
  {
   "property": "C01",
   "status": "proved",
   "theorems": [
    "C01_quote_faithful"
   ],
   "note": "full claim, against a POSIX word reader that flags every expansion"
  },
  {
   "property": "C02",
   "status": "proved",
   "theorems": [
    "C02_join_quoted_faithful"
   ],
   "note": "full claim"
  },
  {
   "property": "C03",
   "status": "proved",
   "theorems": [
    "C03_lexer_reads_quoted",
    "C03_lexer_terminates"
   ],
   "note": "full claim, plus termination of the modelled lexer on every text"
  },
  {
   "property": "C04",
   "status": "partial",
   "theorems": [
    "C04_quote_fish_refuted",
    "C04_quote_fish_refuted_backtick",
    "C04_quote_fish_partial"
   ],
   "note": "full claim is false (backslash; backtick in double quotes), see the _refuted theorems; proved for strings without backslash and backtick"
  },
  {
   "property": "C05",
   "status": "proved",
   "theorems": [
    "C05_make_identifier_valid"
   ],
   "note": "full claim, with an exact characterisation of the empty identifier"
  },
  {
   "property": "C06",
   "status": "proved",
   "theorems": [
    "C06_option_styles",
    "C06_getters_partition",
    "C06_valid_option_strings"
   ],
   "note": "full claim: exact characterisation of each style, and the getters partition the strings"
  },
  {
   "property": "C07",
   "status": "proved",
   "theorems": [
    "C07_abbreviations_unambiguous"
   ],
   "note": "full claim"
  },
  {
   "property": "C08",
   "status": "proved",
   "theorems": [
    "C08_abbreviations_complete"
   ],
   "note": "full claim"
  },
  {
   "property": "C09",
   "status": "proved",
   "theorems": [
    "C09_option_abbreviations_disjoint"
   ],
   "note": "full claim"
  },
  {
   "property": "C10",
   "status": "partial",
   "theorems": [
    "C10_command_variations_partial",
    "C10_command_variations_total",
    "C10_command_variations_refuted"
   ],
   "note": "full claim is false (aliases of siblings are ignored, see _refuted); proved that every collision involves an alias, and that variations always include name and aliases"
  },
  {
   "property": "C100",
   "status": "partial",
   "theorems": [
    "C100_same_documents_partial",
    "C100_words_partial",
    "C100_integers_partial",
    "C100_quoted",
    "C100_nan_refuted",
    "C100_option_refuted",
    "C100_exponent_refuted",
    "C100_case_refuted",
    "C100_octal_refuted",
    "C100_hexadecimal_refuted",
    "C100_root_scalars_refuted"
   ],
   "note": "Proved for documents whose plain scalars are ordinary words or decimal integers in the usual notation, and for quoted ones. Refuted otherwise: nan, -inf, 1e3, 0x1 are rejected although YAML reads a text or a good number; tRUE is accepted although YAML reads a text; 010 is validated as 10 and converted as 8; scalars at the root get lost or leak into the next document."
  },
  {
   "property": "C101",
   "status": "partial",
   "theorems": [
    "C101_ranges",
    "C101_default_step",
    "C101_booleans_refuted"
   ],
   "note": "Proved for integers of at most 64 bits. Refuted for booleans, which validation takes for integers: Bash and zsh offer the text {True..5}, fish nothing."
  },
  {
   "property": "C102",
   "status": "partial",
   "theorems": [
    "C102_posix",
    "C102_fish_partial",
    "C102_fish_backslash_refuted"
   ],
   "note": "Proved for Bash and zsh without restriction, for fish if no directory has a backslash or a backtick (refuted otherwise: two backslashes become one)."
  },
  {
   "property": "C103",
   "status": "partial",
   "theorems": [
    "C103_bash_partial",
    "C103_bash_add_partial",
    "C103_fish_partial",
    "C103_bash_saved_refuted",
    "C103_bash_nested_list_refuted",
    "C103_bash_silent_list_refuted",
    "C103_path_refuted"
   ],
   "note": "Proved for nestings of any depth without the following, each of which is refuted: in Bash a list behind other completers that contains combined completers with functions (the saved candidates are overwritten), a list in a list (the word typed is not restored), a list without candidates behind other completers (it repeats theirs); in Bash and fish a completer behind one that changes PATH. zsh is not modelled here."
  },
  {
   "property": "C104",
   "status": "partial",
   "theorems": [
    "C104_reading",
    "C104_bash_arguments",
    "C104_bash_keys_left_partial",
    "C104_fish_partial",
    "C104_zsh_list_partial",
    "C104_zsh_pair_partial",
    "C104_fish_pair_condition_refuted",
    "C104_zsh_colon_refuted",
    "C104_zsh_key_refuted",
    "C104_excluded_star_refuted",
    "C104_same_key_refuted"
   ],
   "note": "Bash: proved for all entries what the helper gets, and which keys are left if each key has one entry. fish: for texts without backslashes and backquotes; zsh: for keys of harmless characters. Refuted: in fish the condition of a pair is asked about the name of the condition function; in zsh the backslash in front of a colon is not quoted and keys are not quoted; a key that may be repeated cannot be excluded; a key with and one without a star are both accepted."
  },
  {
   "property": "C105",
   "status": "partial",
   "theorems": [
    "C105_zsh_dispatch_partial",
    "C105_names_partial",
    "C105_overwritten_refuted"
   ],
   "note": "Proved for the definitions and command lines of C95, commands with names (of sub-commands: not starting with an equals sign) and functions of different names; the functions have different names if the names of sub-commands consist of letters and digits. Refuted: 'remote add' and 'remote-add' have one function name, and the later definition replaces the earlier."
  },
  {
   "property": "C106",
   "status": "partial",
   "theorems": [
    "C106_zsh_partial",
    "C106_fish_partial",
    "C106_zsh_letter_refuted",
    "C106_zsh_twice_refuted",
    "C106_fish_shared_refuted",
    "C106_fish_special_refuted"
   ],
   "note": "zsh: proved for options of the selected command given at most once, with values without dollars, backslashes, newlines and the letter n. fish: proved for all values, if the variable belongs to one option and the strings have no special characters. Refuted: zsh splits at dollar, backslash and the letter n ('json' becomes 'jso') and not at newlines; in fish another option with the same variable empties it; option strings are not quoted in fish."
  },
  {
   "property": "C107",
   "status": "partial",
   "theorems": [
    "C107_converted",
    "C107_built",
    "C107_exclusive",
    "C107_supported_exactly",
    "C107_tuple_metavar_refuted",
    "C107_suppressed_positional_refuted",
    "C107_suppressed_command_refuted",
    "C107_validated_refuted"
   ],
   "note": "Fidelity, validity, exclusivity and the class of parsers that are converted are proved in full. Findings: a tuple as metavar (nargs=2, metavar=('W','H')), which argparse allows, raises CrazyError; a positional argument or a sub-command whose help is SUPPRESS is described as '==SUPPRESS=='; a parser like cp's (several sources, then a destination) is converted but refused by the validation. Help texts are copied as they are: %% and %(default)s, which argparse expands, stay in the descriptions."
  },
  {
   "property": "C108",
   "status": "partial",
   "theorems": [
    "C108_options_partial",
    "C108_positionals_partial",
    "C108_longer_option_refuted",
    "C108_repeatable_refuted",
    "C108_subcommand_refuted",
    "C108_alias_refuted"
   ],
   "note": "Proved: exactly which options and positions are unsorted. Findings: an option whose string continues, after a dash, that of an option with nosort (--sort-by beside --sort) is not sorted either; repeatable positional arguments are always sorted (their context is argument-rest); the positional arguments of sub-commands get the wrong number (the names of the commands are not counted), so that other arguments are hit; nothing is unsorted when the program is called by an alias. Missing: option strings and program names with characters that are special in patterns."
  },
  {
   "property": "C109",
   "status": "partial",
   "theorems": [
    "C109_reading",
    "C109_wrapped_partial",
    "C109_after_dashes_refuted",
    "C109_cursor_refuted",
    "C109_three_dashes_refuted"
   ],
   "note": "C109_wrapped_partial: for simple option strings and a cursor word that is passed on. C109_reading: the reading of a command line exists and is unique. Refuted: words after -- are still taken out; the cursor can be behind the last word; names with three dashes."
  },
  {
   "property": "C11",
   "status": "proved",
   "theorems": [
    "C11_exact"
   ],
   "note": "Proved for all lists of non-empty strings without pattern characters whose endings are no numbers, against an independent reader and matcher of extended globs (SpecGlob.v)."
  },
  {
   "property": "C110",
   "status": "partial",
   "theorems": [
    "C110_code_partial",
    "C110_function_partial",
    "C110_indentation_refuted"
   ],
   "note": "Proved for the code itself under the conditions of C93, and for the whole function if the texts of the definition have one line each. A second line of a description is indented inside the quotes (counterexample). wraps is missing."
  },
  {
   "property": "C111",
   "status": "partial",
   "theorems": [
    "C111_typed_partial",
    "C111_quoted_text",
    "C111_printed_text",
    "C111_kept_backslash_refuted"
   ],
   "note": "Proved for every word in which no backslash stays in double quotes, and for every text that is quoted by the script or by printf %q. Counterexample: in double quotes, a backslash before a character that is not special there is dropped, although Bash keeps it."
  },
  {
   "property": "C112",
   "status": "partial",
   "theorems": [
    "C112_words_partial",
    "C112_offers_partial",
    "C112_overlap",
    "C112_quotes_refuted",
    "C112_blanks_refuted"
   ],
   "note": "Proved for lines whose words have no blanks in quotes and candidates that overlap with the last word only; the overlap is the longest one. Counterexamples: quotes in the line do not keep blanks together; a candidate with blanks that overlaps with more than the last word."
  },
  {
   "property": "C113",
   "status": "partial",
   "theorems": [
    "C113_bash_partial",
    "C113_bash_next",
    "C113_fish_partial",
    "C113_zsh_partial",
    "C113_bash_prefix_refuted",
    "C113_bash_break_refuted",
    "C113_bash_blank_refuted",
    "C113_fish_star_refuted",
    "C113_zsh_colon_refuted"
   ],
   "note": "Proved: in Bash, for separators other than blanks, if the last element is no value yet and has no word break in it (if it is a value, the separator is offered); in fish, for separators other than a star and texts without backslashes, backquotes and line breaks; in zsh, that _values reads each value with its description, for values of harmless characters (the builtin _values itself is not modelled). Counterexamples: in Bash a value hides those it is the beginning of, word breaks repeat the beginning, blanks are not quoted; in fish a star as the separator; in zsh a colon in a value."
  },
  {
   "property": "C114",
   "status": "partial",
   "theorems": [
    "C114_json_partial",
    "C114_yaml_partial",
    "C114_tree_partial",
    "C114_number_key_refuted",
    "C114_surrogates_refuted",
    "C114_float_refuted"
   ],
   "note": "JSON: keys are texts, no lone surrogates, finite floats.  YAML: moreover only characters below 65536 and floats with a dot.  Refuted beyond: numbers as keys become texts, emoji become two characters in YAML, 1e+16 becomes a text in YAML."
  },
  {
   "property": "C115",
   "status": "partial",
   "theorems": [
    "C115_definition_partial",
    "C115_backslash_refuted",
    "C115_quotes_refuted",
    "C115_escapes_refuted",
    "C115_no_options_refuted"
   ],
   "note": "Help texts with characters below 65536 that YAML allows, lines ended by line feeds, and program names of visible ASCII characters without double quotes and backslashes.  Refuted beyond: backslashes and quotes in the name are not escaped, escape sequences of terminals in a comment make the text unreadable, and without any options the definition is refused."
  },
  {
   "property": "C116",
   "status": "partial",
   "theorems": [
    "C116_bash_partial",
    "C116_zsh_autoload_partial",
    "C116_zsh_sourced_partial",
    "C116_fish_partial",
    "C116_notes_partial",
    "C116_included_partial",
    "C116_comment_refuted",
    "C116_name_refuted",
    "C116_service_refuted"
   ],
   "note": "Names must need no quotes and not look like options; comments must be one line. Violations: a comment with a line break puts a command into the script (--comment); a program called r&d (Bash) or it's (fish) is accepted but not registered; an alias a=b makes zsh complete a like b."
  },
  {
   "property": "C117",
   "status": "partial",
   "theorems": [
    "C117_success",
    "C117_definition_partial",
    "C117_failure_partial",
    "C117_python",
    "C117_extension",
    "C117_batch_partial",
    "C117_batch_failure",
    "C117_install_refuted",
    "C117_emptied_refuted",
    "C117_directory_refuted",
    "C117_batch_ends_refuted",
    "C117_batch_loop_refuted"
   ],
   "note": "Proved in full for scripts that are made successfully, for Python files, for extensions and for the first failing line of a batch file. Violations: -i and -u are ignored for json and yaml; a text that cannot be encoded leaves an emptied file; a program name with slashes is installed elsewhere; a batch line that uses another batch file or asks for the version ends the batch silently; a batch file that uses itself never ends."
  },
  {
   "property": "C118",
   "status": "partial",
   "theorems": [
    "C118_found_partial",
    "C118_sound_partial",
    "C118_variable_partial",
    "C118_two_names_refuted",
    "C118_subparser_refuted",
    "C118_wrong_file_refuted",
    "C118_fallback_refuted",
    "C118_exit_refuted",
    "C118_itself_refuted"
   ],
   "note": "Proved for files that Python finds under their own name and that bind parsers in the usual way. Violations: a parser with two names counts twice; a sub-parser counts as a root if the result of add_subparsers has no name; a file called like another module is not read at all; the fallback for files that cannot be imported never finds their parser (it looks into __main__, but the code ran in file_loader); a file that calls sys.exit ends the program; the program cannot be used on itself."
  },
  {
   "property": "C119",
   "status": "proved",
   "theorems": [
    "C119_version",
    "C119_boolean",
    "C119_features",
    "C119_settings",
    "C119_line_length"
   ],
   "note": "Options that are only copied and used in the outer layer (debug, function prefix, vim modeline, comments) are covered by C116 and C117 as inputs; argparse itself is not modelled."
  },
  {
   "property": "C12",
   "status": "partial",
   "theorems": [
    "C12_numbers_partial",
    "C12_two_digits_refuted"
   ],
   "note": "Refuted: --opt9 and --opt10 give --opt[9-10]. Proved unless numbers of several characters follow each other where the strings start to differ."
  },
  {
   "property": "C120",
   "status": "partial",
   "theorems": [
    "C120_wrapped_partial",
    "C120_names_partial",
    "C120_pattern_refuted",
    "C120_ampersand_refuted",
    "C120_only_wraps_refuted"
   ],
   "note": "FINDINGS: (1) the typed name of the program is used as a pattern, so a path with brackets is not replaced while the cursor is moved (C120_pattern_refuted); (2) in Bash 5.2 an & in the wrapped name stands for the match (C120_ampersand_refuted); (3) a definition that has nothing but wraps has no function of its own, yet the wrapper calls it: Bash prints an error and the suggestions come twice (C120_only_wraps_refuted). What _command_offset and the functions do is arbitrary; COMP_CWORD is not modelled."
  },
  {
   "property": "C121",
   "status": "partial",
   "theorems": [
    "C121_bash_behind_partial",
    "C121_bash_begin_partial",
    "C121_bash_break_refuted",
    "C121_bash_url_refuted",
    "C121_bash_quotes_refuted",
    "C121_bash_echo_refuted",
    "C121_bash_empty_refuted",
    "C121_zsh_partial",
    "C121_zsh_quotes_refuted",
    "C121_fish_partial",
    "C121_fish_anywhere_refuted",
    "C121_fish_nested_refuted",
    "C121_fish_nothing_refuted"
   ],
   "note": "FINDINGS: Bash: (1) a word break inside of the prefix: behind a:b an accepted answer replaces the b (C121_bash_break_refuted), and completing http: to http:// gives http:http:// (C121_bash_url_refuted); (2) a prefix that is begun in quotes is not offered (C121_bash_quotes_refuted); (3) a typed -n is swallowed by echo (C121_bash_echo_refuted); (4) with an empty prefix the completer is never asked (C121_bash_empty_refuted). Zsh: (5) PREFIX has quotes, a prefix with a blank is not found (C121_zsh_quotes_refuted). Fish: (6) the prefix is found anywhere in the argument (C121_fish_anywhere_refuted); (7) a prefix in a prefix asks the completer for the whole argument (C121_fish_nested_refuted); (8) no answers make an empty suggestion (C121_fish_nothing_refuted). Missing in the Bash theorem: backslashes that stay in double quotes."
  },
  {
   "property": "C122",
   "status": "partial",
   "theorems": [
    "C122_bash_partial",
    "C122_bash_fast_partial",
    "C122_zsh_partial",
    "C122_last_line_refuted",
    "C122_empty_item_refuted",
    "C122_bash_backslash_refuted",
    "C122_bash_star_refuted",
    "C122_bash_typed_refuted",
    "C122_bash_break_refuted"
   ],
   "note": "FINDINGS: (1) a last line without a newline is lost (C122_last_line_refuted); (2) an empty item is replaced by its description (C122_empty_item_refuted); Bash: (3) backslashes and glob characters in items are not quoted: a\\b is inserted and means ab, *.c is expanded (C122_bash_backslash_refuted, C122_bash_star_refuted); (4) what was typed with quotes or backslashes is compared as typed (C122_bash_typed_refuted); (5) behind a word break the whole item is inserted again (C122_bash_break_refuted). In Zsh, descriptions with tabulators at their ends are outside. Fish uses the command itself."
  },
  {
   "property": "C123",
   "status": "partial",
   "theorems": [
    "C123_keys_partial",
    "C123_value_partial",
    "C123_exec_keys_partial",
    "C123_exec_value_partial",
    "C123_pair_partial",
    "C123_pair_keys_partial",
    "C123_pair_exec_partial",
    "C123_value_break_refuted",
    "C123_value_separator_refuted",
    "C123_closed_quote_refuted",
    "C123_escaped_refuted",
    "C123_complete_key_refuted",
    "C123_no_description_refuted"
   ],
   "note": "Proved for words that are typed without other bare word breaks, and with the separators bare if they are word breaks (or the whole word in quotes). Findings: with another word break or the separator itself in the value, its beginning is doubled (mode=a:b becomes mode=a:a:bc); with a quote that is closed before the separator the key is doubled; with an escaped separator the key is lost; a key that is typed completely is not offered; the excluded keys of a key that a command prints without description are ignored, as read takes two tabulators for one."
  },
  {
   "property": "C124",
   "status": "partial",
   "theorems": [
    "C124_keys_partial",
    "C124_value_partial",
    "C124_exec_keys_partial",
    "C124_exec_value",
    "C124_pair_partial",
    "C124_pair_exec",
    "C124_value_separator_refuted",
    "C124_complete_key_refuted",
    "C124_exec_tabulator_refuted"
   ],
   "note": "Proved if the value that is typed does not contain the separator and keys are typed without separators in them. FALSE in three cases, see C124_*_refuted: if the value contains the separator, its completer is asked for the part behind the last one only, and the suggestions replace the whole value; a key that is typed completely counts as given and is not offered any more; if a command prints a line without a tabulator, the descriptions of the keys behind it move up. That Fish leaves out suggestions that do not begin with what was typed is not modelled."
  },
  {
   "property": "C125",
   "status": "partial",
   "theorems": [
    "C125_bash_partial",
    "C125_fish_partial",
    "C125_nothing",
    "C125_zsh_partial",
    "C125_bash_suffix_refuted",
    "C125_colon_refuted",
    "C125_negative_refuted"
   ],
   "note": "Proved for suffixes without colon, in Bash for a number without the beginning of a suffix, in zsh for help texts that do not begin with a dash. FALSE in three cases, see C125_*_refuted: in Bash the replies are not filtered, so that completing a number with the beginning of a suffix takes the suffix away; a suffix with a colon is cut; no suffix is offered behind a negative number. What _numbers does is not modelled, only how its words are read."
  },
  {
   "property": "C126",
   "status": "partial",
   "theorems": [
    "C126_commandline_partial",
    "C126_beginning",
    "C126_blank_refuted",
    "C126_case_refuted"
   ],
   "note": "Proved if the candidates begin with what was typed of the last word and contain no blank. FALSE in two cases, see C126_*_refuted: a candidate with a blank that overlaps more than the last word takes away a word in front; a candidate in another case is put behind the word instead of replacing it."
  },
  {
   "property": "C127",
   "status": "partial",
   "theorems": [
    "C127_list_partial",
    "C127_pair_partial",
    "C127_again_refuted",
    "C127_colon_refuted",
    "C127_no_description_refuted"
   ],
   "note": "Proved for keys of letters, digits and _+./-, descriptions that are not empty (in lists) and have no backslashes, and keys that do not both take a value and may be given again. FALSE in three cases, see C127_*_refuted: the command is called with a star in front of a key that may be given again; a colon in a key ends it; without a description, the excluded keys are read as the description. How _values completes is not modelled, only how it reads its arguments."
  },
  {
   "property": "C128",
   "status": "partial",
   "theorems": [
    "C128_bash_partial",
    "C128_bash_quotes_refuted",
    "C128_fish_partial",
    "C128_fish_empty_refuted",
    "C128_fish_path_refuted",
    "C128_zsh_partial",
    "C128_zsh_blank_refuted",
    "C128_directories"
   ],
   "note": "Findings: patterns to be ignored may be quoted, but in Bash the quotation marks are part of the value of a variable and are compared with the name (C128_bash_quotes_refuted); in Fish a pattern is compared with the path, so that b* hides all files below build/ (C128_fish_path_refuted), and if no file is left one empty item is offered (C128_fish_empty_refuted); in zsh a pattern with a blank becomes two patterns (C128_zsh_blank_refuted). Also, in the helper filedir of Fish, set -g stands where set -q is meant, so that directories never get their description; this is modelled. Partial: patterns without quotes and blanks in Bash, patterns for which C40 and C74 hold in zsh and Fish, extensions without special characters in Fish; in Fish at least one file is left."
  },
  {
   "property": "C129",
   "status": "partial",
   "theorems": [
    "C129_attached_partial",
    "C129_escaped_refuted"
   ],
   "note": "C129_attached_partial: for words without quotes, backslashes and expansions, for every set of word breaks that has none of the characters of the options. Finding (C129_escaped_refuted): the helper looks for word breaks in the word as it is typed, so an escaped blank counts as one: completing `-oa\\ b` to the file `a bc` replaces the whole word, and the option is gone."
  },
  {
   "property": "C13",
   "status": "proved",
   "theorems": [
    "C13_preprocess_selects"
   ],
   "note": "full claim, for every text whose lines render a well-nested template"
  },
  {
   "property": "C130",
   "status": "partial",
   "theorems": [
    "C130_bash_partial",
    "C130_zsh_partial",
    "C130_fish_partial",
    "C130_backslash_refuted",
    "C130_blank_refuted",
    "C130_fish_bytes_refuted",
    "C130_anchor_refuted"
   ],
   "note": "C130_bash_partial and C130_zsh_partial: for paths without backslashes, blanks at the beginning and newlines at the end; C130_fish_partial: for printable paths; for patterns that are not tied to the beginning of the type. Findings: a name with a backslash and three octal digits is decoded though file(1) printed it as it is (C130_backslash_refuted); blanks at the beginning of a name are lost (C130_blank_refuted); Fish does not decode (C130_fish_bytes_refuted); the blank behind the colon is a part of the text that is searched, so that a pattern like ^image/ fits nothing, in all shells (C130_anchor_refuted)."
  },
  {
   "property": "C131",
   "status": "partial",
   "theorems": [
    "C131_bash_partial",
    "C131_zsh_partial",
    "C131_escaped_refuted",
    "C131_blank_refuted"
   ],
   "note": "C131_bash_partial (what was typed is taken as it is written) and C131_zsh_partial: for texts without blanks at their ends. Fish's helper prints what grep prints. Findings: in Bash the word is compared with its backslashes, though the suggestions have backslashes themselves: once a part of a suggestion with a blank is on the line, it is not found again (C131_escaped_refuted); blanks at the ends of texts are lost (C131_blank_refuted)."
  },
  {
   "property": "C132",
   "status": "partial",
   "theorems": [
    "C132_bash_partial",
    "C132_zsh_partial",
    "C132_typed_refuted"
   ],
   "note": "C132_bash_partial (all mount points are offered) and C132_zsh_partial: for paths without blanks at their ends. Finding (C132_typed_refuted): the helper of Bash does not look at what was typed: all mount points are suggested, and readline replaces the word by what they have in common."
  },
  {
   "property": "C133",
   "status": "partial",
   "theorems": [
    "C133_bash_cards",
    "C133_bash_devices_partial",
    "C133_zsh",
    "C133_fish_partial",
    "C133_bash_colon_refuted",
    "C133_fish_title_refuted"
   ],
   "note": "C133_bash_cards and C133_zsh in full; C133_bash_devices_partial: when no word break was typed; C133_fish_partial: when no title has a colon and a blank. Findings: behind a typed `hw:` accepting a suggestion gives `hw:hw:0` (C133_bash_colon_refuted); Fish shows a title only up to a colon (C133_fish_title_refuted)."
  },
  {
   "property": "C134",
   "status": "partial",
   "theorems": [
    "C134_import_partial",
    "C134_import_refuted"
   ],
   "note": "Finding: validation accepts `final: null`, `hidden: null`, `optional_arg: null`, `nosort: null`, `group: null`, `options: null` and `positionals: null`, a program name with a no-break space, and anything in the options of a deeper subcommand; the import rejects these. Proved for all programs and direct subcommands without these values."
  },
  {
   "property": "C135",
   "status": "partial",
   "theorems": [
    "C135_unfinished",
    "C135_finished_partial",
    "C135_percent_refuted"
   ],
   "note": "Finding: behind `%%` (a finished conversion) letters are suggested as if they were conversions."
  },
  {
   "property": "C136",
   "status": "partial",
   "theorems": [
    "C136_exported",
    "C136_same_check_partial",
    "C136_empty_completer_refuted"
   ],
   "note": "C136_exported is proved in full for generated command lines. The equivalence of both checks holds if no completer is an empty list; C136_empty_completer_refuted: an empty completer of an option is rejected by the generator, but not exported."
  },
  {
   "property": "C137",
   "status": "partial",
   "theorems": [
    "C137_bash",
    "C137_zsh",
    "C137_fish_partial",
    "C137_fish_refuted"
   ],
   "note": "Proved for Bash and Zsh. Fish: proved if no interface name has a dot or a colon and no IPv6 address is written with dots; refuted otherwise: string match -e also searches the description, so the IPv6 address of the interface eth0.100 is offered as an IPv4 address."
  },
  {
   "property": "C138",
   "status": "partial",
   "theorems": [
    "C138_language_partial",
    "C138_silent_partial",
    "C138_list_refuted",
    "C138_variant_refuted"
   ],
   "note": "Proved for locales whose language is followed by nothing, a country or an encoding. Refuted for the rest: the list de:en in LANGUAGE and the variant in de@euro give English messages. If no variable is set and locale.setlocale fails, the program fails while it is loaded (part of C138_silent_partial)."
  },
  {
   "property": "C139",
   "status": "proved",
   "theorems": [
    "C139_page",
    "C139_no_colors",
    "C139_other_topic"
   ],
   "note": "For any list of entries; the texts of the entries are not modelled. A third shell in the list of shells would not be shown; no entry has three."
  },
  {
   "property": "C14",
   "status": "proved",
   "theorems": [
    "C14_preprocess_accepts_balanced",
    "C14_preprocess_errors"
   ],
   "note": "full claim; a nameless #ifdef fails with an IndexError instead of a syntax error (finding)"
  },
  {
   "property": "C140",
   "status": "partial",
   "theorems": [
    "C140_zsh_partial",
    "C140_blank_refuted",
    "C140_backslash_refuted"
   ],
   "note": "Proved for names and numbers without blanks, tabulators and backslashes. Refuted for the rest: the array is split at blanks, so for the group 'domain users' the word 'users' is offered as a number; a backslash in a name (DOM\\joe) is lost."
  },
  {
   "property": "C141",
   "status": "partial",
   "theorems": [
    "C141_names",
    "C141_timezones_partial",
    "C141_posixrules_refuted"
   ],
   "note": "Names without white space, quotes, backslashes, colons, dollar signs and backticks. Without timedatectl every file is taken for a zone, and a file like posixrules that only begins like one of the two folders is left out (refuted)."
  },
  {
   "property": "C142",
   "status": "proved",
   "theorems": [
    "C142_text",
    "C142_unique"
   ],
   "note": ""
  },
  {
   "property": "C15",
   "status": "proved",
   "theorems": [
    "C15_join_with_wrap"
   ],
   "note": "full claim"
  },
  {
   "property": "C16",
   "status": "proved",
   "theorems": [
    "C16_indent"
   ],
   "note": "full claim"
  },
  {
   "property": "C17",
   "status": "proved",
   "theorems": [
    "C17_group_by",
    "C17_groups_nonempty"
   ],
   "note": "full claim"
  },
  {
   "property": "C18",
   "status": "proved",
   "theorems": [
    "C18_uniq",
    "C18_partition",
    "C18_flatten"
   ],
   "note": "full claim"
  },
  {
   "property": "C19",
   "status": "proved",
   "theorems": [
    "C19_contiguous"
   ],
   "note": "full claim (the empty list is not contiguous)"
  },
  {
   "property": "C20",
   "status": "proved",
   "theorems": [
    "C20_visible_options",
    "C20_same_strings"
   ],
   "note": "full claim; order exact when no command has two options with the same strings, otherwise such options are moved together"
  },
  {
   "property": "C21",
   "status": "proved",
   "theorems": [
    "C21_positional_index",
    "C21_positional_order"
   ],
   "note": "full claim"
  },
  {
   "property": "C22",
   "status": "proved",
   "theorems": [
    "C22_conflicts_exact",
    "C22_conflicts_symmetric"
   ],
   "note": "full claim; options that differ only in long_opt_arg_sep count as equal"
  },
  {
   "property": "C23",
   "status": "proved",
   "theorems": [
    "C23_copy",
    "C23_equality"
   ],
   "note": "full claim, over all command lines that the API can build"
  },
  {
   "property": "C24",
   "status": "proved",
   "theorems": [
    "C24_names_unique",
    "C24_adding",
    "C24_lookup"
   ],
   "note": "full claim"
  },
  {
   "property": "C25",
   "status": "partial",
   "theorems": [
    "C25_dictionary_round_trip_partial",
    "C25_imported_round_trip_partial",
    "C25_dictionary_round_trip_refuted"
   ],
   "note": "Round trip proved for every built tree whose root name is one word, is not %defines%, whose completers are non-empty and whose subcommand containers are non-empty; the unrestricted claim is refuted (an empty completer list is dropped)."
  },
  {
   "property": "C26",
   "status": "proved",
   "theorems": [
    "C26_accepted_definitions",
    "C26_imported_tree"
   ],
   "note": "Acceptance characterised exactly (iff) and the content of the accepted tree stated definition by definition."
  },
  {
   "property": "C27",
   "status": "proved",
   "theorems": [
    "C27_configured",
    "C27_resolved",
    "C27_idempotent"
   ],
   "note": "full claim for every tree that can be built and every configuration (the settings of the configuration that change a command line)"
  },
  {
   "property": "C28",
   "status": "partial",
   "theorems": [
    "C28_accepted_exactly_partial",
    "C28_ignoring_conditions",
    "C28_repeatable_options_refuted"
   ],
   "note": "exact characterisation proved; the full claim is false: an option that is hidden and left to inherit `repeatable` is rejected once repeatable_options (or disabled_repeatable) is set (C28_repeatable_options_refuted)"
  },
  {
   "property": "C29",
   "status": "proved",
   "theorems": [
    "C29_needed",
    "C29_succeeds_exactly",
    "C29_one_each",
    "C29_macros"
   ],
   "note": "Histories of requests on any registry: functions in use are exactly those reachable through dependencies, each once, with exactly the requested macros; requests succeed iff everything needed is registered and acyclic."
  },
  {
   "property": "C30",
   "status": "proved",
   "theorems": [
    "C30_unique"
   ],
   "note": "Histories of add_dynamic_func: total, name equality iff code equality, names are base plus digits."
  },
  {
   "property": "C31",
   "status": "proved",
   "theorems": [
    "C31_documents",
    "C31_unique",
    "C31_aliases"
   ],
   "note": "For every list of documents: the parser's objects stand for them, uniquely. Scalars at the root: see C100."
  },
  {
   "property": "C32",
   "status": "partial",
   "theorems": [
    "C32_accepted_exactly_partial",
    "C32_deep_definition_refuted"
   ],
   "note": "exact characterisation of acceptance proved (order of programs, the root's and its direct subcommands' definitions checked); the full claim is false: definitions two or more levels deep are never checked (C32_deep_definition_refuted)"
  },
  {
   "property": "C33",
   "status": "partial",
   "theorems": [
    "C33_judged_by_place_partial",
    "C33_order_of_siblings_refuted",
    "C33_forbidden_place_refuted"
   ],
   "note": "proved for completers whose siblings leave the shared trace undisturbed; the full claim is false: the trace list is shared between siblings, so order matters and some forbidden places are accepted (two _refuted theorems)"
  },
  {
   "property": "C34",
   "status": "proved",
   "theorems": [
    "C34_repeatable_is_last",
    "C34_check_exact"
   ],
   "note": "full claim, and an exact characterisation of the check on positionals"
  },
  {
   "property": "C35",
   "status": "proved",
   "theorems": [
    "C35_range_accepted",
    "C35_python_range",
    "C35_python_range_accepted"
   ],
   "note": "full claim for all integers; converted Python ranges denote the same elements, in order"
  },
  {
   "property": "C36",
   "status": "partial",
   "theorems": [
    "C36_nothing_lost",
    "C36_no_exception_partial",
    "C36_cut_off_refuted"
   ],
   "note": "No character is lost, for every text that is parsed. IndexError is the only exception; texts that end with a line feed and close every bracket, without quotes, are parsed. Cut off texts are refuted."
  },
  {
   "property": "C37",
   "status": "proved",
   "theorems": [
    "C37_zsh_meaning",
    "C37_bash_meaning",
    "C37_zsh_written",
    "C37_bash_written",
    "C37_zsh_words"
   ],
   "note": "full claim for every accepted condition that is a complete boolean expression (C38 shows that the parser also accepts other texts); zsh and bash; also when placed in front of && and between two &&"
  },
  {
   "property": "C38",
   "status": "partial",
   "theorems": [
    "C38_balanced",
    "C38_accepted_partial",
    "C38_written",
    "C38_trailing_operator_refuted",
    "C38_juxtaposition_refuted"
   ],
   "note": "balanced parentheses proved for every accepted text; the claim that accepted texts are complete expressions is false (trailing operator, juxtaposed operands), see the _refuted theorems; proved for texts that end with an operand and do not juxtapose operands, and every boolean expression is accepted and read back"
  },
  {
   "property": "C39",
   "status": "proved",
   "theorems": [
    "C39_variables",
    "C39_cached_conditions"
   ],
   "note": "Variable names are injective in the values, one definition per distinct value; caching leaves the executed complete commands unchanged (environment without earlier C variables)."
  },
  {
   "property": "C40",
   "status": "partial",
   "theorems": [
    "C40_regex_partial",
    "C40_zsh_partial",
    "C40_dollar_refuted",
    "C40_backslash_refuted",
    "C40_escaped_star_refuted",
    "C40_caret_refuted",
    "C40_zsh_parentheses_refuted"
   ],
   "note": "Partial: for patterns whose literal text has no backslash, ^ or $ (regular expressions), and with @(..) only and no character that needs quotes (Zsh). Names without line feeds for regular expressions. Refuted in general: $, backslash, escaped star, [^..] and, for Zsh, quoted parentheses."
  },
  {
   "property": "C41",
   "status": "partial",
   "theorems": [
    "C41_description_refuted",
    "C41_message_refuted",
    "C41_description_partial",
    "C41_message_partial"
   ],
   "note": "Refuted in full: backslashes are not escaped, so a backslash in front of a bracket or at the end of a text changes where the field ends. Proved for texts in which no backslash precedes a backslash, a special character or the end."
  },
  {
   "property": "C42",
   "status": "partial",
   "theorems": [
    "C42_scope_partial",
    "C42_sibling_refuted"
   ],
   "note": "Proved for sub-command names without shell-special characters or ':' where no name continues the name of a sibling that passes on its options. Refuted without the latter condition: 'addon' accepts the options of its sibling 'add'."
  },
  {
   "property": "C43",
   "status": "partial",
   "theorems": [
    "C43_distinct_partial",
    "C43_shared_refuted"
   ],
   "note": "Refuted: --foo-bar and --foo_bar share a variable, and so do -a and --a. Proved for main names of letters and digits that differ."
  },
  {
   "property": "C44",
   "status": "partial",
   "theorems": [
    "C44_unchanged_partial",
    "C44_asked",
    "C44_separator_lost_refuted"
   ],
   "note": "proved for definitions without file_list/directory_list completers that set separator or duplicates; the full claim is false: these completers remove the entries from the caller's definition (C44_separator_lost_refuted)"
  },
  {
   "property": "C45",
   "status": "partial",
   "theorems": [
    "C45_quote_zsh_refuted",
    "C45_quote_zsh_partial"
   ],
   "note": "full claim is false (word starting with =); proved for all words that do not start with ="
  },
  {
   "property": "C46",
   "status": "proved",
   "theorems": [
    "C46_sparse_list"
   ],
   "note": "full claim"
  },
  {
   "property": "C47",
   "status": "partial",
   "theorems": [
    "C47_validate_prog",
    "C47_prog_paths_agree_partial",
    "C47_prog_paths_agree_refuted"
   ],
   "note": "acceptance is proved exactly; agreement of split() and split(' ') is refuted for no-break spaces and proved when blanks are the only white space"
  },
  {
   "property": "C48",
   "status": "partial",
   "theorems": [
    "C48_strip_empty_lines_partial",
    "C48_strip_empty_lines_refuted"
   ],
   "note": "the no-two-empty-lines part is false (5 newlines leave 4); the rest is proved"
  },
  {
   "property": "C49",
   "status": "proved",
   "theorems": [
    "C49_strip_comments"
   ],
   "note": "full claim, except that text consisting of comments only becomes empty text"
  },
  {
   "property": "C50",
   "status": "partial",
   "theorems": [
    "C50_options_with_arguments_partial",
    "C50_options_with_arguments_refuted"
   ],
   "note": "false with parent options (see _refuted); proved without parents, and the exact behaviour with parents"
  },
  {
   "property": "C51",
   "status": "proved",
   "theorems": [
    "C51_options_by_strings",
    "C51_options_by_strings_error"
   ],
   "note": "full claim"
  },
  {
   "property": "C52",
   "status": "partial",
   "theorems": [
    "C52_choices_partial",
    "C52_choices_refuted"
   ],
   "note": "help may be replaced by a sibling's alias (see _refuted); names proved exactly, and the full claim when names are distinct"
  },
  {
   "property": "C53",
   "status": "partial",
   "theorems": [
    "C53_query_options_partial",
    "C53_query_options_refuted"
   ],
   "note": "false for option strings that end in = or =? (see _refuted); proved otherwise"
  },
  {
   "property": "C54",
   "status": "proved",
   "theorems": [
    "C54_visit_complete",
    "C54_visit_once",
    "C54_visit_parents_first"
   ],
   "note": "visit_commandlines reaches every command exactly once, parents before children."
  },
  {
   "property": "C55",
   "status": "proved",
   "theorems": [
    "C55_option_exact",
    "C55_positional_exact",
    "C55_commandline_exact",
    "C55_built_valid"
   ],
   "note": "full claim: exact acceptance of each constructor, and the invariant for every tree that can be built"
  },
  {
   "property": "C56",
   "status": "proved",
   "theorems": [
    "C56_tests_read_exactly",
    "C56_round_trip",
    "C56_numbers",
    "C56_result_sensible"
   ],
   "note": "full claim"
  },
  {
   "property": "C57",
   "status": "partial",
   "theorems": [
    "C57_condition_words_partial",
    "C57_backtick_refuted",
    "C57_backslash_refuted"
   ],
   "note": "full claim is false (backslash, backtick), see the _refuted theorems; proved for words without backslash and backtick"
  },
  {
   "property": "C58",
   "status": "proved",
   "theorems": [
    "C58_visits_exactly",
    "C58_parent_first",
    "C58_sibling_order",
    "C58_navigation"
   ],
   "note": "full claim"
  },
  {
   "property": "C59",
   "status": "proved",
   "theorems": [
    "C59_replaced",
    "C59_no_defines"
   ],
   "note": "full claim"
  },
  {
   "property": "C60",
   "status": "proved",
   "theorems": [
    "C60_group"
   ],
   "note": "full claim, for documents without defines"
  },
  {
   "property": "C61",
   "status": "partial",
   "theorems": [
    "C61_again_partial",
    "C61_defines_lost_refuted"
   ],
   "note": "proved for lists without a document of defines; false with one: it is removed from the caller's list (C61_defines_lost_refuted)"
  },
  {
   "property": "C62",
   "status": "partial",
   "theorems": [
    "C62_whole_words",
    "C62_definitions_partial",
    "C62_prefix_word_refuted"
   ],
   "note": "Whole-word renaming proved for all texts; definitions carry the right names if no dependency is a word of the prefix. Refuted otherwise: program docker-exec-it (Zsh)."
  },
  {
   "property": "C63",
   "status": "partial",
   "theorems": [
    "C63_distinct_partial",
    "C63_metavar_refuted"
   ],
   "note": "Refuted: a positional with metavar exec replaces the helper exec. Proved when metavars are not helper names."
  },
  {
   "property": "C64",
   "status": "partial",
   "theorems": [
    "C64_paths_partial",
    "C64_same_function_refuted",
    "C64_siblings_refuted"
   ],
   "note": "Refuted: 'remote-add' and 'remote add' share a function, as do a-b and a_b. Proved for names of letters and digits."
  },
  {
   "property": "C65",
   "status": "proved",
   "theorems": [
    "C65_shipped"
   ],
   "note": "The text of all shipped helpers is in ShippedHelpers.v; proved for all requests, macros and plain prefixes. parse_commandline (Bash) and prepare (Fish), which are generated, are not covered."
  },
  {
   "property": "C66",
   "status": "partial",
   "theorems": [
    "C66_case_patterns_partial",
    "C66_question_mark_refuted"
   ],
   "note": "Refuted: the short option -? gets the pattern ?, which matches every character. Proved for option strings without pattern characters."
  },
  {
   "property": "C67",
   "status": "proved",
   "theorems": [
    "C67_extensions"
   ],
   "note": "ASCII letters only (isalpha, upper and lower are modelled for ASCII)."
  },
  {
   "property": "C68",
   "status": "partial",
   "theorems": [
    "C68_names_partial",
    "C68_quotes_refuted"
   ],
   "note": "Refuted: names that need quotes give patterns with torn quotes. Proved for names of safe characters (and without digit ranges of several digits, see C12)."
  },
  {
   "property": "C69",
   "status": "partial",
   "theorems": [
    "C69_valid_partial",
    "C69_invalid_refuted"
   ],
   "note": "Refuted: -? gives OPT_?. Proved if single-character options are letters, digits or underscores."
  },
  {
   "property": "C70",
   "status": "partial",
   "theorems": [
    "C70_first_parser_partial"
   ],
   "note": "Proved for every tree built by the API whose names and option strings have no special characters, where no spelling is shared by two options or sub-commands at one place, and without numbers of several digits in a row (C12). Missing: definitions outside these conditions (C12, C42, C73 show that the claim fails for some of them)."
  },
  {
   "property": "C71",
   "status": "partial",
   "theorems": [
    "C71_second_parser_partial"
   ],
   "note": "As C70, with the condition on numbers also for option strings."
  },
  {
   "property": "C72",
   "status": "partial",
   "theorems": [
    "C72_parsers_agree_partial",
    "C72_attached_refuted",
    "C72_overridden_refuted",
    "C72_equals_refuted"
   ],
   "note": "Proved for every command line that C70 describes. Refuted for others: '--flag=x' for a flag, a short option defined by a sub-command and its parent, '-o=x' if there are old-style options."
  },
  {
   "property": "C73",
   "status": "partial",
   "theorems": [
    "C73_exact_partial",
    "C73_inherited_refuted"
   ],
   "note": "Proved for the options of the command itself, with no condition on abbreviations or parents, for the first parser. Refuted for inherited options: '--verbose' of the parent is taken for an abbreviation of '--verbose-all' of a sub-command that does not pass on its own options."
  },
  {
   "property": "C74",
   "status": "partial",
   "theorems": [
    "C74_fish_ignore_partial"
   ],
   "note": "Partial: same restriction on the patterns as C40; paths without line feeds."
  },
  {
   "property": "C75",
   "status": "partial",
   "theorems": [
    "C75_fish_extensions_partial",
    "C75_dollar_refuted"
   ],
   "note": "Partial: extensions of characters that need no quotes; paths without line feeds. Refuted for $."
  },
  {
   "property": "C76",
   "status": "partial",
   "theorems": [
    "C76_ends_partial",
    "C76_stray_refuted"
   ],
   "note": "Partial: AttributeError remains possible; refuted with stray brackets and !x. That the translation always ends and raises no other exception is proved for all texts."
  },
  {
   "property": "C77",
   "status": "proved",
   "theorems": [
    "C77_layout",
    "C77_program_name"
   ],
   "note": "Proved for the layout specified in SpecHelp.v, and for the program name."
  },
  {
   "property": "C78",
   "status": "partial",
   "theorems": [
    "C78_valid_partial",
    "C78_cmd_refuted"
   ],
   "note": "Proved for all help texts whose metavariables are not CMD and whose option strings contain no exotic white space; refuted for CMD (completer 'cmd' does not exist)."
  },
  {
   "property": "C79",
   "status": "proved",
   "theorems": [
    "C79_description"
   ],
   "note": "Proved for all entries of the layout in SpecHelp.v whose description begins and ends with visible characters."
  },
  {
   "property": "C80",
   "status": "partial",
   "theorems": [
    "C80_complete_command_partial",
    "C80_dashes_refuted"
   ],
   "note": "Proved for strings without backslash and backtick (C04, C57) and option strings without a third dash; ---a is refuted."
  },
  {
   "property": "C81",
   "status": "partial",
   "theorems": [
    "C81_offers_partial",
    "C81_before_positional_refuted",
    "C81_command_arg_refuted",
    "C81_alias_refuted"
   ],
   "note": "Proved end to end (definition, quoting, caching, fish evaluation, runtime helpers) under clean_scope. Refuted: options before a positional in front of sub-commands, command_arg of a sibling, alias equal to the name. The parsing of the typed line by query_init is a parameter."
  },
  {
   "property": "C82",
   "status": "partial",
   "theorems": [
    "C82_fish_when_partial",
    "C82_missing_positional_refuted",
    "C82_with_incomplete_refuted"
   ],
   "note": "Proved for tests that name valid options and do not repeat a value. Refuted: repeated values with a missing positional, WITH_INCOMPLETE as an option."
  },
  {
   "property": "C83",
   "status": "partial",
   "theorems": [
    "C83_query_partial",
    "C83_offers_partial",
    "C83_root_options_refuted",
    "C83_newline_refuted",
    "C83_hidden_refuted",
    "C83_definitions_partial"
   ],
   "note": "C83_query_partial: proved for every definition with clear names and every typed command line; C83_offers_partial combines it with C81. Missing: options of the first command behind a positional argument if there are sub-commands (C83_root_options_refuted: the pattern of the first command only matches an empty first positional), words with newlines (C83_newline_refuted), options hidden by a command that does not pass its own on (C83_hidden_refuted), names with > or newlines. C83_definitions_partial: the definitions survive quoting if names have no backslashes and single quotes."
  },
  {
   "property": "C84",
   "status": "partial",
   "theorems": [
    "C84_completer_partial",
    "C84_definitions_partial"
   ],
   "note": "Proved: one equivalence between validation and a specification written from the manual (SpecValid.v), for single completers and whole lists of definitions. Missing: definitions deeper than direct sub-commands, which are not checked at all (C32_deep_definition_refuted), and completers with restrictions next to ones that nest (C33)."
  },
  {
   "property": "C85",
   "status": "partial",
   "theorems": [
    "C85_crash_refuted"
   ],
   "note": "Refuted with five definitions: option_strings as text, positional that is no dictionary, prog that is no text, command_arg behind a positional without a number or with an empty completer."
  },
  {
   "property": "C86",
   "status": "partial",
   "theorems": [
    "C86_options_partial",
    "C86_same_variable_refuted",
    "C86_quotes_refuted"
   ],
   "note": "C86_options_partial: end to end, from the typed words through the generated parser and functions to the words in COMPREPLY. Missing: definitions that bash_ready and bash_named exclude (variables shared by two options: C86_same_variable_refuted; option strings that are quoted: C86_quotes_refuted; an own argument at the cursor)."
  },
  {
   "property": "C87",
   "status": "partial",
   "theorems": [
    "C87_separate_partial",
    "C87_attached_partial",
    "C87_only_optional_refuted",
    "C87_previous_word_refuted",
    "C87_old_style_refuted",
    "C87_inherited_refuted"
   ],
   "note": "C87_separate_partial and C87_attached_partial for options of the current command; that no option completer runs otherwise is part of C86 and C88. Refuted: only options with optional arguments (C87_only_optional_refuted), only the previous word is looked at (C87_previous_word_refuted), old-style flags (C87_old_style_refuted), inherited options (C87_inherited_refuted)."
  },
  {
   "property": "C88",
   "status": "partial",
   "theorems": [
    "C88_positionals_partial",
    "C88_choices",
    "C88_dash_refuted"
   ],
   "note": "C88_positionals_partial end to end, C88_choices. Refuted: words with a dash in commands without options (C88_dash_refuted)."
  },
  {
   "property": "C89",
   "status": "partial",
   "theorems": [
    "C89_functions_partial",
    "C89_name_refuted"
   ],
   "note": "C89_functions_partial for selected commands; refuted if the cursor is still on the name (C89_name_refuted)."
  },
  {
   "property": "C90",
   "status": "partial",
   "theorems": [
    "C90_functions_defined_partial",
    "C90_undefined_refuted"
   ],
   "note": "Proved except for the function registered for a program with nothing to complete (C90_undefined_refuted)."
  },
  {
   "property": "C91",
   "status": "proved",
   "theorems": [
    "C91_conditions"
   ],
   "note": "Proved for all arrays, all characters. array_contains and array_match are specified by what they are to do; the text of these three helper functions is not modelled."
  },
  {
   "property": "C92",
   "status": "partial",
   "theorems": [
    "C92_options_partial",
    "C92_other_string_refuted",
    "C92_two_options_refuted",
    "C92_empty_positional_refuted",
    "C92_abbreviation_refuted",
    "C92_count_refuted",
    "C92_hidden_refuted"
   ],
   "note": "C92_options_partial: end to end, for every definition that C83 and C86 cover and every command line of the common language (SpecQuery.typed), the words that the Bash script offers are exactly those of the options whose fish command is active. Excluded and refuted with witnesses: a condition naming one of several strings of an option, option_is over two options, comparison of a missing positional with '', abbreviations, positional_count in positionals, hidden options."
  },
  {
   "property": "C93",
   "status": "partial",
   "theorems": [
    "C93_specifications_partial",
    "C93_option_string_refuted",
    "C93_action_refuted",
    "C93_empty_metavar_refuted",
    "C93_star_metavar_refuted",
    "C93_backslash_metavar_refuted"
   ],
   "note": "Proved for definitions whose option strings are free of zsh's special characters and whose texts satisfy C41's condition. Refuted otherwise: -? is globbed; actions with a colon and single quotes have $ expanded; an empty metavar makes the argument optional; a metavar starting with * makes the option take all following words; a trailing backslash joins name and action. Not covered: wraps, the texts of actions themselves."
  },
  {
   "property": "C94",
   "status": "partial",
   "theorems": [
    "C94_offers_partial",
    "C94_inherit_refuted",
    "C94_not_inherited_refuted",
    "C94_final_refuted",
    "C94_condition_refuted"
   ],
   "note": "Proved relative to the specifications of C93 for definitions without shared option strings. Refuted against the behaviour of the other shells: the child's inherit_options decides instead of the parent's (both directions), final options of an ancestor are ignored if not inherited, an option whose condition is false excludes nothing."
  },
  {
   "property": "C95",
   "status": "partial",
   "theorems": [
    "C95_zsh_reads_partial",
    "C95_quotes_refuted",
    "C95_mistaken_refuted",
    "C95_newline_refuted"
   ],
   "note": "Proved unless definitions are ambiguous, a word is both a cluster of short options and an old-style option of another command, quoted words follow --, or words contain newlines; counterexamples: quotes kept behind --, cluster read as old-style option of the sub-command, name followed by a newline taken for the sub-command."
  },
  {
   "property": "C96",
   "status": "partial",
   "theorems": [
    "C96_zsh_when_partial",
    "C96_empty_value_refuted",
    "C96_equals_refuted"
   ],
   "note": "Proved for complete conditions whose values do not start with = and, for positional_contains, are not empty and count from one; counterexamples: the empty value is found when the positional is missing; =word is expanded by zsh."
  },
  {
   "property": "C97",
   "status": "partial",
   "theorems": [
    "C97_zsh_options_partial"
   ],
   "note": "End to end from the typed line to what _arguments offers; under the restrictions of C93 to C96. The options given, as _arguments sees them, are taken to be those typed."
  },
  {
   "property": "C98",
   "status": "partial",
   "theorems": [
    "C98_zsh_positionals_partial",
    "C98_gap_refuted",
    "C98_above_refuted"
   ],
   "note": "Proved if repeatable positionals come last, nothing in front of them is missing, and no ancestor has one; restrictions of C93, C95 and C96 otherwise. Counterexamples: a repeatable positional is completed in place of one whose condition does not hold, and in sub-commands."
  },
  {
   "property": "C99",
   "status": "partial",
   "theorems": [
    "C99_zsh_partial",
    "C99_zsh_short_partial",
    "C99_fish_partial",
    "C99_bash_partial",
    "C99_zsh_equals_refuted",
    "C99_zsh_backslash_refuted",
    "C99_zsh_numbers_refuted",
    "C99_zsh_zero_refuted",
    "C99_zsh_lines_refuted",
    "C99_zsh_placeholder_refuted",
    "C99_fish_backslash_refuted",
    "C99_fish_tabulator_refuted",
    "C99_bash_empty_refuted",
    "C99_bash_quoted_refuted"
   ],
   "note": "Proved for all three shells with every number and length of choices, all quotes, blanks, colons, dollar signs and parentheses. Counterexamples for the rest: zsh expands a choice that starts with '=', drops backslashes, fails on a long list of numbers, loses the description 0, indents the second line of a description, and replaces %FUNCNAME%; fish halves backslashes and splits at tabulators; Bash does not offer an empty choice, and none if the beginning was typed in quotes or with a backslash."
  }
 ]
}