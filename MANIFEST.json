{
 "claims": [
  {
   "property": "C01",
   "status": "proved",
   "theorems": [
    "C01_piece_table_is_byte_string",
    "C01_piece_table_prefix"
   ],
   "note": ""
  },
  {
   "property": "C02",
   "status": "proved",
   "theorems": [
    "C02_fuzz_never_reports_problem",
    "C02_naive_insert_is_splice",
    "C02_naive_delete_is_cut"
   ],
   "note": ""
  },
  {
   "property": "C03",
   "status": "proved",
   "theorems": [
    "C03_insert_in_range_succeeds_past_end_panics"
   ],
   "note": ""
  },
  {
   "property": "C04",
   "status": "partial",
   "theorems": [
    "C04_removes_to_seam_partial",
    "C04_truncates_iff_refuted",
    "C04_delete_past_end_truncates_refuted",
    "C04_delete_past_end_fresh_partial",
    "C04_delete_past_end_partial"
   ],
   "note": "False in general: after any insertion, deleting past the end from a position at or before it leaves the inserted text and the text after it in place. Proved: on a table without earlier edits it truncates; in every state exactly what goes: the text up to the next place where an earlier edit was made (C04_removes_to_seam_partial), so it truncates exactly if there is none before the end (C04_truncates_iff_refuted)."
  },
  {
   "property": "C05",
   "status": "partial",
   "theorems": [
    "C05_zero_table_usable_refuted",
    "C05_zero_table_usable_partial"
   ],
   "note": "False: on the zero value the second insertion always panics, whatever deletions come between. Proved: one insert followed by any in-range deletions works."
  },
  {
   "property": "C06",
   "status": "proved",
   "theorems": [
    "C06_diff_reassembles"
   ],
   "note": ""
  },
  {
   "property": "C07",
   "status": "proved",
   "theorems": [
    "C07_printed_diff_is_a_patch"
   ],
   "note": ""
  },
  {
   "property": "C08",
   "status": "proved",
   "theorems": [
    "C08_empty_output_iff_identical"
   ],
   "note": ""
  },
  {
   "property": "C09",
   "status": "proved",
   "theorems": [
    "C09_longest_common_run_kept"
   ],
   "note": ""
  },
  {
   "property": "C10",
   "status": "partial",
   "theorems": [
    "C10_exit_status_refuted",
    "C10_identical_exit_0_partial",
    "C10_output_partial",
    "C10_lines_read"
   ],
   "note": "False for all operands: the command exits 0 for different files and unreadable operands. Proved: what is printed for all operands, and status 0 for identical files."
  },
  {
   "property": "C11",
   "status": "proved",
   "theorems": [
    "C11_accepts",
    "C11_accepts_only",
    "C11_mistakes",
    "C11_mistake_status",
    "C11_context_size",
    "C11_context_size_not_an_int",
    "C11_default_context"
   ],
   "note": ""
  },
  {
   "property": "C12",
   "status": "proved",
   "theorems": [
    "C12_order_is_topological"
   ],
   "note": ""
  },
  {
   "property": "C13",
   "status": "proved",
   "theorems": [
    "C13_fails_exactly_on_cycles"
   ],
   "note": ""
  },
  {
   "property": "C14",
   "status": "partial",
   "theorems": [
    "C14_constraints_honoured_refuted",
    "C14_constraints_honoured_partial",
    "C14_recorded_relation_partial"
   ],
   "note": "False: Add of a single item x, after any other calls, forgets the constraint recorded from x, and the item that only it named. Proved: all constraints are honoured when no such Add occurs, and in general exactly which constraints survive."
  },
  {
   "property": "C15",
   "status": "proved",
   "theorems": [
    "C15_order_consumes",
    "C15_failed_order_leaves_the_rest"
   ],
   "note": ""
  },
  {
   "property": "C16",
   "status": "partial",
   "theorems": [
    "C16_tsort_command_refuted",
    "C16_long_word_refuted",
    "C16_tsort_command_partial",
    "C16_what_is_sorted_partial",
    "C16_odd_word_count",
    "C16_read_error",
    "C16_words_exist",
    "C16_tsort_ends",
    "C16_unopenable_operand"
   ],
   "note": "False for all input ending in 'x v x x' (v named nowhere else) and for words longer than the scanner's buffer. Proved for every other text, of any bytes, without a pair 'x x' after a pair 'x y', and in general what is sorted."
  },
  {
   "property": "C17",
   "status": "proved",
   "theorems": [
    "C17_cksum_is_posix_crc",
    "C17_length_octets_exist"
   ],
   "note": ""
  },
  {
   "property": "C18",
   "status": "proved",
   "theorems": [
    "C18_detects_every_burst"
   ],
   "note": ""
  },
  {
   "property": "C19",
   "status": "proved",
   "theorems": [
    "C19_reports",
    "C19_cksum_command",
    "C19_specification_is_functional"
   ],
   "note": ""
  },
  {
   "property": "C20",
   "status": "proved",
   "theorems": [
    "C20_first_difference"
   ],
   "note": ""
  },
  {
   "property": "C21",
   "status": "proved",
   "theorems": [
    "C21_all_differences",
    "C21_differences_are_all",
    "C21_differences_increasing",
    "C21_octal_numerals"
   ],
   "note": ""
  },
  {
   "property": "C22",
   "status": "partial",
   "theorems": [
    "C22_l_status_refuted",
    "C22_l_status_partial"
   ],
   "note": "False: differing files of equal length always give status 0 under -l. Proved: the status is 1 exactly when the lengths differ."
  },
  {
   "property": "C23",
   "status": "proved",
   "theorems": [
    "C23_s_silences_stdout"
   ],
   "note": ""
  },
  {
   "property": "C24",
   "status": "partial",
   "theorems": [
    "C24_operands_refuted",
    "C24_operands_partial",
    "C24_too_many_operands_partial",
    "C24_unopenable_partial",
    "C24_missing_operand",
    "C24_read_error",
    "C24_read_error_refuted"
   ],
   "note": "False for empty operands, which are skipped, and for read errors, which end the comparison like the end of the file. Proved for all operands that are not empty and can be read, with the exact messages."
  },
  {
   "property": "C25",
   "status": "partial",
   "theorems": [
    "C25_first_lines_refuted",
    "C25_one_operand_partial",
    "C25_many_operands_partial",
    "C25_carriage_returns_partial"
   ],
   "note": "False whenever one of the lines printed ends in a carriage return, which is dropped. Proved for all other input, and exactly what is printed for such lines."
  },
  {
   "property": "C26",
   "status": "partial",
   "theorems": [
    "C26_no_operands_refuted",
    "C26_no_arguments_prints_nothing",
    "C26_counts_only_partial"
   ],
   "note": "False: without arguments head prints nothing, whatever standard input holds. Proved: with a count and no operand standard input is read."
  },
  {
   "property": "C27",
   "status": "proved",
   "theorems": [
    "C27_concatenates",
    "C27_stops_at_failure",
    "C27_exhaustive"
   ],
   "note": ""
  },
  {
   "property": "C28",
   "status": "partial",
   "theorems": [
    "C28_failure_status_refuted",
    "C28_status_always_zero",
    "C28_stderr_tells_partial"
   ],
   "note": "False for every operand list with a failure: C28_status_always_zero. Proved: a failure, and only a failure, is visible on standard error."
  },
  {
   "property": "C29",
   "status": "partial",
   "theorems": [
    "C29_argument_count_rules_refuted",
    "C29_operator_operand_refuted",
    "C29_bang_operand_refuted",
    "C29_missing_primaries_refuted",
    "C29_argument_count_rules_partial",
    "C29_not_understood"
   ],
   "note": "False for missing primaries, empty left operands and operands that look like operators (four universal refutations). Proved for all other argument lists of 0 to 4 arguments."
  },
  {
   "property": "C30",
   "status": "partial",
   "theorems": [
    "C30_integer_comparisons",
    "C30_non_integer_is_error_refuted",
    "C30_operator_operand_refuted",
    "C30_non_integer_is_error_partial"
   ],
   "note": "The comparisons are proved in full; that a non-integer is an error is false for every empty left operand and for left operands that are unary operators, and proved for every other."
  },
  {
   "property": "C31",
   "status": "proved",
   "theorems": [
    "C31_file_primaries",
    "C31_missing_file_is_false",
    "C31_minus_a_is_device"
   ],
   "note": ""
  },
  {
   "property": "C32",
   "status": "proved",
   "theorems": [
    "C32_negation",
    "C32_pairs_cancel",
    "C32_statuses"
   ],
   "note": ""
  },
  {
   "property": "C33",
   "status": "partial",
   "theorems": [
    "C33_command_lines_refuted",
    "C33_accepts_one_list_refuted",
    "C33_never_accepts",
    "C33_rejects_others_partial"
   ],
   "note": "False: no command line makes cut print anything or, but for -h, succeed. Proved: none or several list options are rejected, with the exact message."
  },
  {
   "property": "C34",
   "status": "partial",
   "theorems": [
    "C34_requested_signal_refuted",
    "C34_always_sigkill_partial"
   ],
   "note": "False whatever signal other than KILL is requested: SIGKILL is sent. Proved: exactly one signal, always SIGKILL, goes to exactly the pid given."
  },
  {
   "property": "C35",
   "status": "proved",
   "theorems": [
    "C35_rejects_bad_arguments",
    "C35_last_pid_wins",
    "C35_no_pid_no_signal",
    "C35_panics",
    "C35_exhaustive",
    "C35_only_valid_lists_signal"
   ],
   "note": ""
  },
  {
   "property": "C36",
   "status": "partial",
   "theorems": [
    "C36_round_trip_refuted",
    "C36_int_refuted",
    "C36_round_trip_partial",
    "C36_registration",
    "C36_default_input",
    "C36_terminates"
   ],
   "note": "False for every value flag with a non-ASCII name: a string flag takes the rest of its own name, an integer flag is refused. Proved when value flags have ASCII names."
  },
  {
   "property": "C37",
   "status": "proved",
   "theorems": [
    "C37_positional_suffix"
   ],
   "note": ""
  },
  {
   "property": "C38",
   "status": "partial",
   "theorems": [
    "C38_attached_value_refuted",
    "C38_attached_value_partial"
   ],
   "note": "False for every value: its characters are parsed as flags as well. Proved: the flag is given that value first."
  },
  {
   "property": "C39",
   "status": "proved",
   "theorems": [
    "C39_decimal",
    "C39_literal",
    "C39_not_an_integer"
   ],
   "note": ""
  },
  {
   "property": "C40",
   "status": "partial",
   "theorems": [
    "C40_missing_value_refuted",
    "C40_unknown_flag_partial"
   ],
   "note": "False: at the end of the command line both mistakes crash. Proved: exactly when an unknown flag is reported."
  },
  {
   "property": "C41",
   "status": "proved",
   "theorems": [
    "C41_special_characters",
    "C41_literal",
    "C41_literal_anchored"
   ],
   "note": ""
  },
  {
   "property": "C42",
   "status": "proved",
   "theorems": [
    "C42_no_false_negative"
   ],
   "note": ""
  },
  {
   "property": "C43",
   "status": "partial",
   "theorems": [
    "C43_no_false_positive_refuted",
    "C43_no_false_positive_partial"
   ],
   "note": "False: the runes counted for a repeated element need not be adjacent. Proved for patterns whose variable repetitions of anything but '.' are followed by optional elements only. The exact condition for all patterns is C114."
  },
  {
   "property": "C44",
   "status": "partial",
   "theorems": [
    "C44_right_anchor_refuted",
    "C44_right_anchor_ignored"
   ],
   "note": "False for every pattern: the anchor is ignored (C44_right_anchor_ignored; every match followed by more text is still one). There is no true part to prove beyond C114."
  },
  {
   "property": "C45",
   "status": "proved",
   "theorems": [
    "C45_characters",
    "C45_counts",
    "C45_empty",
    "C45_anchors",
    "C45_unterminated_count",
    "C45_malformed_count",
    "C45_huge_count",
    "C45_unterminated_bracket",
    "C45_total"
   ],
   "note": ""
  },
  {
   "property": "C46",
   "status": "partial",
   "theorems": [
    "C46_report",
    "C46_command_refuted",
    "C46_command_partial",
    "C46_command_percent_partial",
    "C46_directives_partial"
   ],
   "note": "The report itself is proved in full. That the command prints it is false exactly when it contains a percent sign, for it is used as a format; proved when no variable contains one, and what becomes of doubled percent signs and, in C46_directives_partial, of every other directive without '*' or '[' (Go's complaint about a missing operand or verb is printed in its place)."
  },
  {
   "property": "C47",
   "status": "proved",
   "theorems": [
    "C47_era_fields"
   ],
   "note": ""
  },
  {
   "property": "C48",
   "status": "partial",
   "theorems": [
    "C48_too_few_fields",
    "C48_bad_direction",
    "C48_bad_offset_refuted",
    "C48_bad_offset_partial"
   ],
   "note": "Too few fields and bad directions are proved to be rejected; a bad offset is not, for every offset: the result is an empty era without error."
  },
  {
   "property": "C49",
   "status": "partial",
   "theorems": [
    "C49_preprocess_refuted",
    "C49_preprocess_partial",
    "C49_preprocess_no_comment_char",
    "C49_dangling_escape",
    "C49_other_word_refuted",
    "C49_terminates"
   ],
   "note": "False whenever there is a comment_char directive: it stays in the text, and a line whose first word only begins with escape_char is obeyed and removed (C49_other_word_refuted). Proved for all definitions with them left in; lines beginning with escape_char that do not have exactly two words stay unchanged."
  },
  {
   "property": "C50",
   "status": "partial",
   "theorems": [
    "C50_line_edits_refuted",
    "C50_change_last_refuted",
    "C50_append_partial",
    "C50_insert_partial",
    "C50_delete_partial",
    "C50_change_partial"
   ],
   "note": "False for buffers in which a line ends in a carriage return or is 64K long, or whose last line is blank or lacks its newline. Refuted for every buffer that ends in a blank line and for every change of a last line that follows a blank one. Proved for buffers of ordinary lines, for all ranges and texts; C129 says what happens otherwise."
  },
  {
   "property": "C51",
   "status": "partial",
   "theorems": [
    "C51_histories_refine_refuted",
    "C51_histories_refine_partial"
   ],
   "note": "False for the buffers named at C50: refuted for every buffer whose last line but one is blank. Proved for all histories of valid commands over buffers of ordinary lines."
  },
  {
   "property": "C52",
   "status": "proved",
   "theorems": [
    "C52_print_and_number",
    "C52_line_number",
    "C52_printing_modifies_nothing"
   ],
   "note": ""
  },
  {
   "property": "C53",
   "status": "partial",
   "theorems": [
    "C53_exact_partial",
    "C53_not_the_last_added_refuted",
    "C53_after_delete_partial",
    "C53_histories_partial",
    "C53_current_after_append_refuted",
    "C53_current_after_delete_refuted",
    "C53_current_line_partial"
   ],
   "note": "False for every a, c, and d that touch the last line, and a and c never leave the last line added current. Proved for buffers of ordinary lines: which line is current after each command and each history, and exactly when it exists."
  },
  {
   "property": "C54",
   "status": "partial",
   "theorems": [
    "C54_delete_open_line_refuted",
    "C54_delete_exact_refuted",
    "C54_append_after_open_line_refuted",
    "C54_delete_open_line_partial"
   ],
   "note": "False: appending after a last line that lacks its newline crashes, and after any insertion just before it it cannot be deleted. Proved: in an unmodified file it is deleted; and after any edits exactly what m,$d removes, and when it removes the lines (C54_delete_exact_refuted)."
  },
  {
   "property": "C55",
   "status": "partial",
   "theorems": [
    "C55_delete_blank_last_refuted",
    "C55_delete_cr_line_refuted",
    "C55_inner_cr_and_blank_partial"
   ],
   "note": "False for blank last lines and carriage returns at the end of a line. Proved for carriage returns inside lines and blank lines before the last one."
  },
  {
   "property": "C56",
   "status": "proved",
   "theorems": [
    "C56_write_is_atomic",
    "C56_swap_file",
    "C56_write_keeps_buffer"
   ],
   "note": ""
  },
  {
   "property": "C57",
   "status": "partial",
   "theorems": [
    "C57_failed_write_refuted",
    "C57_failed_write_partial"
   ],
   "note": "False for every file that is not empty: after a failed w every command crashes. Proved for text that does not come from a file that can be closed. What is on disk meanwhile is C108 and C109."
  },
  {
   "property": "C58",
   "status": "partial",
   "theorems": [
    "C58_typed_w_refuted",
    "C58_w_ignores_its_arguments_refuted",
    "C58_w_file_name_refuted"
   ],
   "note": "False: w never looks at its addresses or file name. There is no true part; what w does write is C56 and C108."
  },
  {
   "property": "C59",
   "status": "proved",
   "theorems": [
    "C59_any_schedule",
    "C59_schedules_agree"
   ],
   "note": ""
  },
  {
   "property": "C60",
   "status": "proved",
   "theorems": [
    "C60_runs_end",
    "C60_stopped_runs",
    "C60_quit"
   ],
   "note": ""
  },
  {
   "property": "C61",
   "status": "proved",
   "theorems": [
    "C61_range_commands",
    "C61_implied_addresses",
    "C61_numeric_addresses",
    "C61_numbers_mean_lines"
   ],
   "note": ""
  },
  {
   "property": "C62",
   "status": "partial",
   "theorems": [
    "C62_number_offset_refuted",
    "C62_relative_offset_refuted",
    "C62_no_offset_partial"
   ],
   "note": "False for every offset. Proved for addresses without offsets."
  },
  {
   "property": "C63",
   "status": "partial",
   "theorems": [
    "C63_text_partial",
    "C63_non_ascii_refuted",
    "C63_dotted_line_refuted"
   ],
   "note": "False for text with characters of several bytes and for lines that begin with a dot. C63_text_partial says exactly what is sent otherwise, including for such characters."
  },
  {
   "property": "C64",
   "status": "partial",
   "theorems": [
    "C64_regex_address_partial",
    "C64_search_ends_refuted",
    "C64_hang_is_real_refuted",
    "C64_empty_buffer_refuted",
    "C64_unmatched_reported_refuted",
    "C64_escaped_slash_refuted"
   ],
   "note": "False in five ways, each refuted by a theorem for all buffers: the search may never end, crashes in an empty buffer, goes on with line -1 when nothing matches or the expression is wrong, and an escaped slash at the end is lost. Proved: from a current line in the buffer the search ends and finds the first matching line, wrapping around. Missing: a report of the failure."
  },
  {
   "property": "C65",
   "status": "partial",
   "theorems": [
    "C65_explicit_addresses_kept",
    "C65_defaults_partial",
    "C65_defaults_refuted"
   ],
   "note": "False for g, G, v, V and w. Proved for all other commands."
  },
  {
   "property": "C66",
   "status": "partial",
   "theorems": [
    "C66_reversed_delete_refuted",
    "C66_reversed_print_refuted"
   ],
   "note": "False for every buffer: d on a reversed range succeeds and repeats lines, p crashes or prints nothing. There is no true part."
  },
  {
   "property": "C67",
   "status": "partial",
   "theorems": [
    "C67_fuzz_never_crashes_refuted",
    "C67_fuzz_never_crashes_partial"
   ],
   "note": "False: a deletion whose end exceeds the largest int wraps around and slices out of range. C67_fuzz_never_crashes_refuted says exactly which scripts crash the driver; C67_fuzz_never_crashes_partial that scripts with small numbers do not."
  },
  {
   "property": "C68",
   "status": "proved",
   "theorems": [
    "C68_detects_two_bit_errors"
   ],
   "note": ""
  },
  {
   "property": "C69",
   "status": "partial",
   "theorems": [
    "C69_s_prints_nothing_refuted",
    "C69_s_prints_nothing_partial"
   ],
   "note": "False when one file is a proper prefix of the other. Proved when the files are equal, or differ at a byte both have (without -l)."
  },
  {
   "property": "C70",
   "status": "partial",
   "theorems": [
    "C70_silent_commands_refuted"
   ],
   "note": "False for every valid a: an empty line is written. There is no true part for these commands."
  },
  {
   "property": "C71",
   "status": "partial",
   "theorems": [
    "C71_change_last_line_refuted"
   ],
   "note": "False for every buffer of two or more lines. There is no true part."
  },
  {
   "property": "C72",
   "status": "partial",
   "theorems": [
    "C72_print_exact_refuted",
    "C72_number_exact_refuted",
    "C72_invalid_address_refuted"
   ],
   "note": "False for every buffer and every range outside it: C72_print_exact_refuted and C72_number_exact_refuted say for any two line numbers what is printed and when the program crashes; nothing is ever reported. There is no true part."
  },
  {
   "property": "C73",
   "status": "partial",
   "theorems": [
    "C73_string_partial",
    "C73_string_refuted"
   ],
   "note": "False for the empty buffer only. Proved for all others."
  },
  {
   "property": "C74",
   "status": "partial",
   "theorems": [
    "C74_print_sets_current_refuted",
    "C74_lone_address_partial"
   ],
   "note": "False for every buffer and range. Proved: a lone address makes its line the current one."
  },
  {
   "property": "C75",
   "status": "proved",
   "theorems": [
    "C75_edit_loads",
    "C75_failed_edit_changes_nothing",
    "C75_lines_of_a_file"
   ],
   "note": ""
  },
  {
   "property": "C76",
   "status": "partial",
   "theorems": [
    "C76_no_file_refuted"
   ],
   "note": "False: the second a or i crashes. There is no true part beyond the first command."
  },
  {
   "property": "C77",
   "status": "partial",
   "theorems": [
    "C77_generated_parser_refuted",
    "C77_accepted_partial",
    "C77_generated_parser_partial"
   ],
   "note": "False: after every range that ends in its separator and is followed by blanks, 'w' is accepted by the grammar only. Proved: whatever the generated parser accepts the grammar accepts with the same tokens, and on all input without blanks they agree."
  },
  {
   "property": "C78",
   "status": "proved",
   "theorems": [
    "C78_parsing_ends",
    "C78_captures_in_range"
   ],
   "note": ""
  },
  {
   "property": "C79",
   "status": "partial",
   "theorems": [
    "C79_text_is_not_executed_refuted",
    "C79_text_is_not_executed_partial"
   ],
   "note": "False for every a, i and c, every range and every ASCII text: after a line of a dot and blanks every range or write command typed as text is executed, and so is the closing '.'. Proved for text without lines that begin with a dot."
  },
  {
   "property": "C80",
   "status": "partial",
   "theorems": [
    "C80_no_text_refuted",
    "C80_end_of_input_refuted"
   ],
   "note": "False for every range. There is no true part."
  },
  {
   "property": "C81",
   "status": "partial",
   "theorems": [
    "C81_semicolon_refuted",
    "C81_semicolon_is_comma_refuted"
   ],
   "note": "False: a semicolon is exactly a comma. There is no true part."
  },
  {
   "property": "C82",
   "status": "partial",
   "theorems": [
    "C82_blank_before_equals_refuted",
    "C82_line_number_partial"
   ],
   "note": "False with blanks before '='. Proved without."
  },
  {
   "property": "C83",
   "status": "partial",
   "theorems": [
    "C83_only_replies_refuted",
    "C83_text_shown_refuted"
   ],
   "note": "False for every input with a command and every schedule: every command is shown in Go syntax, every text of a, i and c after t, every w with its file names. There is no true part."
  },
  {
   "property": "C84",
   "status": "proved",
   "theorems": [
    "C84_lines_grouped",
    "C84_nothing_lost",
    "C84_overlong_line"
   ],
   "note": ""
  },
  {
   "property": "C85",
   "status": "partial",
   "theorems": [
    "C85_Q_quits_refuted",
    "C85_quit_partial"
   ],
   "note": "False for Q. Proved for q."
  },
  {
   "property": "C86",
   "status": "partial",
   "theorems": [
    "C86_sessions_partial",
    "C86_cut_sessions_partial",
    "C86_sessions_refuted"
   ],
   "note": "False whenever a text has a character of several bytes (refuted for every buffer, earlier session and schedule), as for the input named at C50, C51 and C63. Proved exactly: over buffers of ordinary lines, with texts of any characters without lines that begin with a dot, ed behaves as the line editor does on the texts cut to as many bytes as they have characters; so correctly for single-byte characters."
  },
  {
   "property": "C87",
   "status": "partial",
   "theorems": [
    "C87_mark_refuted",
    "C87_backward_search_refuted"
   ],
   "note": "False for every range that begins with a mark or a backward search (with any expression, offset and second address): the program ends. There is no true part."
  },
  {
   "property": "C88",
   "status": "partial",
   "theorems": [
    "C88_opens_file_partial",
    "C88_multibyte_name_refuted",
    "C88_newline_name_refuted",
    "C88_leading_blank_refuted",
    "C88_blank_name_refuted",
    "C88_return_name_refuted",
    "C88_long_name_refuted"
   ],
   "note": "False for names with characters of several bytes, with a newline, that begin with a blank or end in a carriage return, that are blank, and that are too long for the scanner, each for all such names. Proved for all other names."
  },
  {
   "property": "C89",
   "status": "proved",
   "theorems": [
    "C89_accepted_is_definition"
   ],
   "note": ""
  },
  {
   "property": "C90",
   "status": "proved",
   "theorems": [
    "C90_definitions_accepted"
   ],
   "note": ""
  },
  {
   "property": "C91",
   "status": "proved",
   "theorems": [
    "C91_always_ends"
   ],
   "note": ""
  },
  {
   "property": "C92",
   "status": "partial",
   "theorems": [
    "C92_others_rejected_partial",
    "C92_error_result_refuted"
   ],
   "note": "That other token lists are not accepted is proved in full; that Parse returns 1 is false, for Lexer.Error panics."
  },
  {
   "property": "C93",
   "status": "proved",
   "theorems": [
    "C93_currency_symbol"
   ],
   "note": ""
  },
  {
   "property": "C94",
   "status": "proved",
   "theorems": [
    "C94_grouping"
   ],
   "note": ""
  },
  {
   "property": "C95",
   "status": "partial",
   "theorems": [
    "C95_files_refuted",
    "C95_frac_digits_refuted"
   ],
   "note": "False for every successful parse: the field never changes. There is no true part."
  },
  {
   "property": "C96",
   "status": "partial",
   "theorems": [
    "C96_rejected_refuted",
    "C96_unchanged_partial"
   ],
   "note": "False: any accepted definition followed by the first word of another category is rejected and yet stores everything. Proved: without int_curr_symbol and mon_grouping lines nothing is changed, however the parse ends."
  },
  {
   "property": "C97",
   "status": "proved",
   "theorems": [
    "C97_blanks_ignored"
   ],
   "note": ""
  },
  {
   "property": "C98",
   "status": "proved",
   "theorems": [
    "C98_definitions_accepted",
    "C98_continued_lines"
   ],
   "note": ""
  },
  {
   "property": "C99",
   "status": "partial",
   "theorems": [
    "C99_empty_symbol_refuted",
    "C99_as_written",
    "C99_escape_refuted",
    "C99_symbol_partial",
    "C99_no_symbol"
   ],
   "note": "False for the empty symbol, of which two quotes are stored, and for every symbol with an escape, which is stored as written. Proved for all other symbols, and that without an int_curr_symbol line none is stored."
  },
  {
   "property": "C100",
   "status": "proved",
   "theorems": [
    "C100_grouping"
   ],
   "note": ""
  },
  {
   "property": "C101",
   "status": "partial",
   "theorems": [
    "C101_leading_blank_refuted",
    "C101_layout_partial"
   ],
   "note": "False for an empty line before the first category. Proved for all other layouts."
  },
  {
   "property": "C102",
   "status": "partial",
   "theorems": [
    "C102_accepted_partial",
    "C102_rest_ignored_refuted"
   ],
   "note": "False: text after the last category that is not a category is ignored. Proved: every accepted text is a definition up to there."
  },
  {
   "property": "C103",
   "status": "partial",
   "theorems": [
    "C103_collation_partial",
    "C103_any_words_refuted",
    "C103_any_torn_refuted",
    "C103_collate_refuted",
    "C103_collate_alone_refuted",
    "C103_collating_refuted",
    "C103_unclosed_refuted",
    "C103_escape_refuted",
    "C103_ends_partial",
    "C103_unreadable_partial",
    "C103_any_collate_refuted",
    "C103_any_unclosed_refuted",
    "C103_any_escape_refuted",
    "C103_parser_stops_partial",
    "C103_runs_on_refuted",
    "C103_runs_on_only_refuted"
   ],
   "note": "False: the program runs for ever on most first words of LC_COLLATE, on unclosed quotes in LC_MESSAGES and on a numeric escape cut short by the end of the text, each after any well-formed beginning. Proved for every text that does not end in such an escape or message and either has no LC_COLLATE or has END or order_start, possibly after other words, behind every header of LC_COLLATE and every order_end (and no small letter, blank and byte that is not UTF-8 in a row). Other words there, up to anything else, run for ever, and so does such a byte behind an unknown word of order_start. Exactly: reading ends as soon as the lexer ends or what it has sent begins no definition; otherwise, if the numbers are integers, it never ends."
  },
  {
   "property": "C104",
   "status": "partial",
   "theorems": [
    "C104_trailing_blank_refuted",
    "C104_any_trailing_blank_refuted"
   ],
   "note": "False for every entry, after any well-formed beginning of a definition. There is no true part."
  },
  {
   "property": "C105",
   "status": "partial",
   "theorems": [
    "C105_copy_refuted",
    "C105_any_copy_refuted"
   ],
   "note": "False for every category and name, after any well-formed beginning. There is no true part."
  },
  {
   "property": "C106",
   "status": "partial",
   "theorems": [
    "C106_charclass_refuted",
    "C106_charclass_token_refuted",
    "C106_any_charclass_refuted"
   ],
   "note": "False for every text, after any well-formed beginning. There is no true part."
  },
  {
   "property": "C107",
   "status": "proved",
   "theorems": [
    "C107_tokens",
    "C107_lossless"
   ],
   "note": ""
  },
  {
   "property": "C108",
   "status": "proved",
   "theorems": [
    "C108_session_saved"
   ],
   "note": ""
  },
  {
   "property": "C109",
   "status": "proved",
   "theorems": [
    "C109_file_never_broken"
   ],
   "note": ""
  },
  {
   "property": "C110",
   "status": "proved",
   "theorems": [
    "C110_fuzz_never_panics",
    "C110_are_identical"
   ],
   "note": ""
  },
  {
   "property": "C111",
   "status": "proved",
   "theorems": [
    "C111_changes_apart"
   ],
   "note": ""
  },
  {
   "property": "C112",
   "status": "partial",
   "theorems": [
    "C112_minimal_refuted",
    "C112_ordered_minimal_partial"
   ],
   "note": "False for a family of files with no bound on how much too long the difference is. Proved minimal when the lines that both files have occur once in each and in the same order; other lines may be repeated."
  },
  {
   "property": "C113",
   "status": "proved",
   "theorems": [
    "C113_queue_order",
    "C113_recorded_order",
    "C113_determined",
    "C113_any_order_of_the_free"
   ],
   "note": ""
  },
  {
   "property": "C114",
   "status": "proved",
   "theorems": [
    "C114_exactly_loose_matches"
   ],
   "note": ""
  },
  {
   "property": "C115",
   "status": "proved",
   "theorems": [
    "C115_surrounding_text",
    "C115_concatenation"
   ],
   "note": ""
  },
  {
   "property": "C116",
   "status": "proved",
   "theorems": [
    "C116_swapped_operands"
   ],
   "note": ""
  },
  {
   "property": "C117",
   "status": "proved",
   "theorems": [
    "C117_words_sent"
   ],
   "note": ""
  },
  {
   "property": "C118",
   "status": "proved",
   "theorems": [
    "C118_carriage_returns"
   ],
   "note": ""
  },
  {
   "property": "C119",
   "status": "proved",
   "theorems": [
    "C119_text_in_place",
    "C119_same_as_list"
   ],
   "note": ""
  },
  {
   "property": "C120",
   "status": "partial",
   "theorems": [
    "C120_clean_keeps_text_partial",
    "C120_clean_removes_partial",
    "C120_clean_removes_refuted"
   ],
   "note": "False: of pieces without text that follow each other only every second is removed. Proved: the text is kept, now and under later edits, and all are removed if no two follow each other."
  },
  {
   "property": "C121",
   "status": "proved",
   "theorems": [
    "C121_append"
   ],
   "note": ""
  },
  {
   "property": "C122",
   "status": "partial",
   "theorems": [
    "C122_blank_last_line_refuted",
    "C122_last_line_partial"
   ],
   "note": "False for every buffer whose last line is blank. Proved for all others of ordinary lines."
  },
  {
   "property": "C123",
   "status": "partial",
   "theorems": [
    "C123_numbers_partial",
    "C123_not_integers_refuted"
   ],
   "note": "False for two characters with a minus sign at the end, as 7- or --, which LC_NUMERIC accepts. Proved for everything else."
  },
  {
   "property": "C124",
   "status": "proved",
   "theorems": [
    "C124_characters",
    "C124_grammar",
    "C124_unambiguous"
   ],
   "note": ""
  },
  {
   "property": "C125",
   "status": "partial",
   "theorems": [
    "C125_malformed_refuted"
   ],
   "note": "False for every text that is no pattern: ParseBre panics. There is no true part."
  },
  {
   "property": "C126",
   "status": "proved",
   "theorems": [
    "C126_printed_elements"
   ],
   "note": ""
  },
  {
   "property": "C127",
   "status": "proved",
   "theorems": [
    "C127_detects_flipped_bits",
    "C127_sizes_are_exact"
   ],
   "note": ""
  },
  {
   "property": "C128",
   "status": "partial",
   "theorems": [
    "C128_long_line_refuted",
    "C128_read_error_refuted",
    "C128_success_partial",
    "C128_failure_partial",
    "C128_exhaustive"
   ],
   "note": "False: the scanner looks one line too far, so an overlong line or a read error right after the lines printed makes head panic. Proved: it succeeds when also the line after those printed can be read, and fails otherwise; the cases are exhaustive."
  },
  {
   "property": "C129",
   "status": "proved",
   "theorems": [
    "C129_exact_histories",
    "C129_ordinary_lines",
    "C129_as_asked"
   ],
   "note": ""
  },
  {
   "property": "C130",
   "status": "partial",
   "theorems": [
    "C130_two_digits_refuted",
    "C130_ordinary_backslash_refuted",
    "C130_read_partial"
   ],
   "note": "False: an octal escape of two digits before the closing quote, and a backslash before any other character even after escape_char, make the program fail, in any text after any well-formed beginning. Proved: escapes of three octal, two or three decimal or two hexadecimal digits, and escaped , ; < > are each one token."
  },
  {
   "property": "C131",
   "status": "partial",
   "theorems": [
    "C131_head_writes",
    "C131_cksum_writes",
    "C131_cmp_writes",
    "C131_tsort_writes",
    "C131_diff_writes",
    "C131_full_disk_refuted",
    "C131_hole_refuted",
    "C131_cat_partial",
    "C131_cat_status_refuted",
    "C131_prefix_partial"
   ],
   "note": "False for every run of head, cksum, cmp, tsort and diff: the results of writes are ignored, so a full disk loses everything without a word and without a change of status, and a write that fails once leaves a hole. Proved: cat stops and names the operand and the error (its status is 0 nevertheless); an output that is broken for good has taken a beginning of the right output."
  },
  {
   "property": "C132",
   "status": "partial",
   "theorems": [
    "C132_report_partial",
    "C132_question_mark_refuted"
   ],
   "note": "False for every rejected command: the report goes on after the question mark with a rule name, places and a quotation. Proved: a report is made exactly for the rejected commands, making it never fails, and it begins with a question mark and a newline."
  },
  {
   "property": "C133",
   "status": "partial",
   "theorems": [
    "C133_place_partial",
    "C133_unknown_partial",
    "C133_after_letter_partial",
    "C133_newline_refuted",
    "C133_nothing_named_refuted",
    "C133_open_text_partial"
   ],
   "note": "False: when the place is a newline, the report gives column 0 of the next line (r and blanks), and after k nothing is named or quoted though k was read. Proved for every rejected command: the quoted part is a piece of the command, and the places are right except at newlines; which piece it is, for lines no command begins with, for junk after a letter that takes a range, and for texts without a dot."
  },
  {
   "property": "C134",
   "status": "partial",
   "theorems": [
    "C134_mark",
    "C134_destination_partial",
    "C134_blank_destination_refuted",
    "C134_no_destination",
    "C134_read_partial",
    "C134_read_alone_refuted",
    "C134_shell_partial",
    "C134_as_typed_partial",
    "C134_cut_refuted"
   ],
   "note": "False: m and t with blanks before the destination and r without a file name are rejected, for every range; names and shell commands with characters of several bytes lose their end. Proved for k in full, for m and t with the destination right after the letter, and for r and ! exactly: as many bytes as there are characters are sent."
  },
  {
   "property": "C135",
   "status": "partial",
   "theorems": [
    "C135_not_carried_out_refuted",
    "C135_unreadable_refuted",
    "C135_exactly_partial"
   ],
   "note": "False: h, H, P, Q, u, E, f, j, l, k, m, t, r and !, however written, are accepted and answered with '? (NYI)', and nothing is done, in every editor; s, g, G, v and V are rejected after every range. Proved: exactly the other commands are treated by code of their own."
  },
  {
   "property": "C136",
   "status": "proved",
   "theorems": [
    "C136_schedules_agree",
    "C136_all_end",
    "C136_verdict",
    "C136_decided",
    "C136_undecided"
   ],
   "note": "Proved for every interleaving of the lexer's goroutine and the parser and every channel capacity of at least 1: no deadlock, the same verdict always, and reading ends under every schedule or none. go-lexer's channel is modelled from memory."
  },
  {
   "property": "C137",
   "status": "partial",
   "theorems": [
    "C137_apart_partial",
    "C137_attached_refuted",
    "C137_equals_refuted",
    "C137_grouped_refuted",
    "C137_rejects_partial",
    "C137_switch_value",
    "C137_bad_syntax"
   ],
   "note": "False: arguments in the same word as their option, and several options in one word, are rejected for every list; -f=1 gives the list 1. Proved: options written apart, with -- and operands, are read as POSIX says; unknown options, words of bad syntax and missing arguments are rejected; -n=value and -s=value take exactly the twelve words Go's ParseBool knows. Go's package flag is modelled from memory."
  },
  {
   "property": "C138",
   "status": "proved",
   "theorems": [
    "C138_four_bytes",
    "C138_range"
   ],
   "note": "Proved in full, from C18's fact about bursts and a count: different windows give different checksums, and there are as many windows as checksums."
  },
  {
   "property": "C139",
   "status": "proved",
   "theorems": [
    "C139_space",
    "C139_insertions"
   ],
   "note": "Proved in full, also for edits out of range that return. Edits that panic are covered by C03."
  },
  {
   "property": "C140",
   "status": "proved",
   "theorems": [
    "C140_prefix",
    "C140_first_error"
   ],
   "note": "Proved for all token sequences; a number token whose text is no int can stop the parser earlier, which the theorem says."
  },
  {
   "property": "C141",
   "status": "partial",
   "theorems": [
    "C141_counted",
    "C141_steps_refuted",
    "C141_steps_partial",
    "C141_nowhere"
   ],
   "note": "False: for every constant and degree some pattern and text take more steps; a*a*...a*b takes 2^k steps on k letters. Proved: the bound (e+1)(n+2)^(v+2), which is polynomial in the text for any given pattern and quadratic without varying elements."
  },
  {
   "property": "C142",
   "status": "partial",
   "theorems": [
    "C142_head_refuted",
    "C142_kill_refuted",
    "C142_exits_partial"
   ],
   "note": "False for head, which reports every failure by a panic (exact condition proved), and for kill (exact condition proved). Proved for cat, cksum, cmp, cut, diff, test and tsort, with the statuses; the status of cut -h is a parameter."
  },
  {
   "property": "C143",
   "status": "partial",
   "theorems": [
    "C143_any_reader_refuted",
    "C143_inserting_keeps",
    "C143_any_reader_partial",
    "C143_short_reads"
   ],
   "note": "False for readers that answer io.EOF together with the last byte (exact condition proved for readers that always do). Proved: over every reader keeping the contract String returns the edited content or panics, and it does not panic if errors come with short reads only or the last byte was deleted."
  },
  {
   "property": "C144",
   "status": "proved",
   "theorems": [
    "C144_tokens",
    "C144_one_derivation"
   ],
   "note": "Proved for every grammar expression without the end symbol and so for the whole grammar; positions are natural numbers (uint32 in the program)."
  },
  {
   "property": "C145",
   "status": "proved",
   "theorems": [
    "C145_tree",
    "C145_print"
   ],
   "note": "Proved for every accepted command; Print of the token list and the coloured variants are not modelled."
  },
  {
   "property": "C146",
   "status": "proved",
   "theorems": [
    "C146_shown",
    "C146_newlines_matter"
   ],
   "note": "Proved for all texts whose lines have no newline."
  },
  {
   "property": "C147",
   "status": "partial",
   "theorems": [
    "C147_shell_input_refuted",
    "C147_shell_input_all_refuted",
    "C147_shell_input_partial"
   ],
   "note": "False: LC_ALL and a category's own value are printed without quotes, so with a blank or an operator in one of them the output is no list of assignments. Proved: if those values have no character special to the shell (and LANG none special between quotes, and no percent sign), the output is read in one way and gives the same settings. Expansions ($, backquote, tilde) are not in the model of the shell."
  },
  {
   "property": "C148",
   "status": "partial",
   "theorems": [
    "C148_insertion_refuted",
    "C148_around_partial",
    "C148_insertion_partial",
    "C148_removed_around_partial",
    "C148_removal_partial"
   ],
   "note": "False: with a line repeated at least three times before it, one line put in makes the difference remove a line and add two. Proved: nothing is removed, and the lines added are those put in up to order, if the block was put before or after the whole old text, or anywhere in an old text whose lines are all different; and the same with added and removed exchanged."
  },
  {
   "property": "C149",
   "status": "partial",
   "theorems": [
    "C149_agree_refuted",
    "C149_identical_partial",
    "C149_lines_partial"
   ],
   "note": "False for every pair of texts that differ only by a newline at the end, by a carriage return at the end of a line, or after the beginning of a line of 65536 bytes: cmp exits 1, diff finds nothing. Proved: what cmp calls identical has no difference for diff; on files of plain lines the two agree."
  },
  {
   "property": "C150",
   "status": "partial",
   "theorems": [
    "C150_reproducible_refuted",
    "C150_reproducible_partial",
    "C150_failure_partial",
    "C150_chain_partial"
   ],
   "note": "False when two items may come first: for each of them there is a map order that prints it first (C150_reproducible_refuted). With at most one such item every map order gives the same run, failures are always the same, and a chain of pairs comes out as written."
  },
  {
   "property": "C151",
   "status": "partial",
   "theorems": [
    "C151_message_partial",
    "C151_brief",
    "C151_missing_refuted"
   ],
   "note": "Missing: completeness of the list when it is exactly EOL or ';'; there a comma may be left out (C151_missing_refuted, for every place where both the end of the line and a comma may stand). Everything else is proved: the token named, soundness of the list, no list only with five or more, complete otherwise. As delivered the messages are brief (C151_brief)."
  },
  {
   "property": "C152",
   "status": "proved",
   "theorems": [
    "C152_difference",
    "C152_printed"
   ],
   "note": "Proved in full, in both directions: a list of comparisons is the result exactly if it is made in this way."
  },
  {
   "property": "C153",
   "status": "partial",
   "theorems": [
    "C153_steps_refuted",
    "C153_no_constant_refuted",
    "C153_steps_partial",
    "C153_same_result"
   ],
   "note": "False for every constant: files of 2k lines, every second of which is one and the same line (as blank lines are), take k*k*k/3 steps, exactly counted. Proved: at most (N+(1+r)M)*min(N,M) steps if no line of the new file is in the old one more than r times. A step is a call or a round of a loop; access to maps, comparisons of lines and appends are not counted separately."
  },
  {
   "property": "C154",
   "status": "partial",
   "theorems": [
    "C154_exchange_refuted",
    "C154_no_choice_partial",
    "C154_ordered_partial"
   ],
   "note": "False for a family of files, in which one direction changes 4k lines and the other 2k+2. Proved where there is no choice between blocks, at no depth, and where the lines that both files have occur once in each and in the same order."
  },
  {
   "property": "C155",
   "status": "partial",
   "theorems": [
    "C155_written",
    "C155_abbreviations_partial",
    "C155_impossible",
    "C155_star_refuted",
    "C155_optional_refuted"
   ],
   "note": "False for x*x*, which matches more than x*, and for x{0,n} against n optional x, for every element that accepts one character and not another. Proved: x{m}, x{m,}, x{m,n} as x{m}x{0,n-m}, x{0,} and sums of counts; x{m,n} with n < m matches nothing anywhere."
  },
  {
   "property": "C156",
   "status": "partial",
   "theorems": [
    "C156_order_of_pairs_refuted",
    "C156_same_pairs_partial",
    "C156_fewer_pairs_partial",
    "C156_again_partial",
    "C156_taken_back_refuted"
   ],
   "note": "False: pairs 'a x' for all x of a list come out in the order of the list, and a pair given again after 'x x' counts again. Proved: with the same pairs (and no pair 'x x' after 'x y') sorting succeeds or fails alike and prints the same items; with fewer pairs it still succeeds; a pair given again without 'x x' in between changes nothing."
  },
  {
   "property": "C157",
   "status": "partial",
   "theorems": [
    "C157_refused_refuted",
    "C157_exchange_refuted",
    "C157_rest_partial",
    "C157_exchange_partial",
    "C157_any_order_partial",
    "C157_grouping_partial"
   ],
   "note": "False: every variable named before an unknown flag has been set when it is reported, and a string flag with a non-ASCII name swallows nothing but hides the groups after it. Proved for value flags with ASCII names: what follows the groups is parsed as a line of its own; neighbours that set different variables can be exchanged; consistent groups can be permuted; Boolean flags can be grouped or not."
  },
  {
   "property": "C158",
   "status": "proved",
   "theorems": [
    "C158_surroundings",
    "C158_change",
    "C158_exclusive_or"
   ],
   "note": "Proved for all texts (equal lengths only; nothing is claimed for texts of different lengths)."
  },
  {
   "property": "C159",
   "status": "partial",
   "theorems": [
    "C159_again_refuted",
    "C159_again_partial"
   ],
   "note": "False exactly when a line printed ends in two carriage returns: each run takes one away. Proved otherwise, exit status included."
  },
  {
   "property": "C160",
   "status": "partial",
   "theorems": [
    "C160_shorter_refuted",
    "C160_longer_refuted",
    "C160_bytes_partial",
    "C160_status_0_partial"
   ],
   "note": "False for files of different length: a second file that is too short can be cut anywhere behind its last difference, and one that is too long can go on in any way, without a trace. Proved: every byte as far as the files go, and the whole file if the status is 0."
  },
  {
   "property": "C161",
   "status": "partial",
   "theorems": [
    "C161_undo_partial",
    "C161_commute_partial",
    "C161_history_partial",
    "C161_history_refuted"
   ],
   "note": "False for deletions that reach beyond the end (C04): whether they remove anything depends on how the text is divided into pieces. Proved for all edits in range."
  },
  {
   "property": "C162",
   "status": "partial",
   "theorems": [
    "C162_nearest_partial",
    "C162_beyond_refuted",
    "C162_line_zero_refuted"
   ],
   "note": "False for every buffer: beyond the last line a, i and c add their text at the end and d does nothing, and line 0 is the first line for c and d, all without a report. Proved: for any line numbers in order the command acts at the nearest place there is (C162_nearest_partial). c over lines after which the buffer would end in a blank line is left out, as in C50."
  },
  {
   "property": "C163",
   "status": "partial",
   "theorems": [
    "C163_order_partial",
    "C163_undo_partial",
    "C163_order_refuted"
   ],
   "note": "False for every buffer that ends in a blank line and another: deleting the last line first puts the blank one out of reach. Proved when the buffer does not come to end in a blank line in between."
  },
  {
   "property": "C164",
   "status": "partial",
   "theorems": [
    "C164_current_line_refuted",
    "C164_later_command_refuted",
    "C164_text_kept_partial",
    "C164_again_partial",
    "C164_histories_partial"
   ],
   "note": "False: after every w the current line is the last one, for Write reopens the file; and if the last line lacks its newline and the text was edited in or just before the lines, m,$d removes them only after a w (C164_later_command_refuted). Proved: text, name, file and other files; a second w or e changes nothing; over buffers of ordinary lines every history of commands with line numbers prints the same with a w before it as without."
  },
  {
   "property": "C165",
   "status": "proved",
   "theorems": [
    "C165_equivalence",
    "C165_interchangeable",
    "C165_three_files"
   ],
   "note": "Proved for operands that do not begin with a minus sign."
  },
  {
   "property": "C166",
   "status": "partial",
   "theorems": [
    "C166_empty_refuted",
    "C166_operators_refuted",
    "C166_strings_partial",
    "C166_trichotomy",
    "C166_order",
    "C166_two_equalities"
   ],
   "note": "The integer half is proved in full. The string half is false for an empty left operand and for one that looks like an operator (test '' = '' and test '' != x are both false, test -n = x and test -n != x both true); proved for all other operands."
  },
  {
   "property": "C167",
   "status": "partial",
   "theorems": [
    "C167_identical",
    "C167_same_sum_refuted",
    "C167_same_sum_partial",
    "C167_short_partial"
   ],
   "note": "Identical files have the same line, and the converse holds for files of at most four bytes. It is false for every file of five bytes or more: some other file has its checksum and size. Proved of those: cmp -l then lists two differences at least four bytes apart."
  },
  {
   "property": "C168",
   "status": "partial",
   "theorems": [
    "C168_carriage_return_refuted",
    "C168_no_final_newline_refuted",
    "C168_whole_partial",
    "C168_beginning_partial"
   ],
   "note": "False for every file in which a printed line ends in a carriage return (cmp reports exactly that byte) and for every file printed whole that lacks its final newline. Proved for all others whose lines are below 64 KiB: identical if printed whole, else a beginning."
  },
  {
   "property": "C169",
   "status": "proved",
   "theorems": [
    "C169_groups",
    "C169_after_failure",
    "C169_u",
    "C169_no_operand"
   ],
   "note": "Each group must have an operand (a group without one reads standard input, C169_no_operand). The second run's standard input is that left by the first."
  }
 ]
}