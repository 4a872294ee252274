c("C11","proved","C11_parallel_equals_sequential C11_result_is_unique C11_sample_order_irrelevant","All interleavings of the transition system in BatchModel.v.")
c("C12","proved","C12_no_deadlock C12_executions_are_bounded C12_no_infinite_execution C12_maximal_executions_return")
c("C13","partial","C13_sampler_panic_is_reported_partial C13_worker_panic_hangs_refuted C13_sequential_accepts_empty","False of the code: after a worker panic the main thread waits forever (proved for every schedule). A panic of the sampler is reported (proved).")
c("C14","proved","C14_merge_total C14_merge_commutative C14_merge_associative C14_merge_fresh")

c("C22","partial","C22_round_trip_partial C22_round_trip_exact_partial C22_round_trip_refuted C22_flag_always_lost","The full round trip is false: the paragraph flag is written as split_paragraphs but read as split_paragraph (refuted, and shown lost for every set); everything else is restored for bytes/byteshuff sets; for bits sets the exact loaded value is given.")
c("C23","partial","C23_reload_usable_partial C23_bits_reload_usable_iff C23_reload_usable_refuted","Holds for bytes and byteshuff sets. False for bits sets: fallback sequences are added twice (refuted); exact condition proved: accepted after reload iff every byte is a token.")
c("C24","proved","C24_key_identifies C24_key_exists","Text of serde_json modelled including escaping; sets of the shape the program builds.")
c("C15","proved","C15_cache_is_transparent C15_cache_answers C15_answers_in_full","tokenize_file is the parallel transition system of C11; keys are the serialized sorted sets of C24.")
c("C26","proved","C26_memory_sampler_slices C26_memory_sampler_covers_data C26_chunk_zero_never_ends","For positive chunk sizes; with chunk size 0 the iterator never ends (proved).")
c("C27","partial","C27_samples_keep_text_partial C27_single_chunk_or_ascii C27_samples_keep_text_refuted C27_text_kept_iff","False of the code in general: a chunk boundary without a blank line may cut a character, which is then replaced (refuted theorem, for every chunk size). Proved exactly when it holds: for every input the samples give the text back if and only if every cut (and the end of the text) is between two characters, and they are never shorter than the text.")
c("C28","partial","C28_file_read_exactly_once C28_file_sampler_partial C28_ascii_file C28_file_sampler_refuted C28_file_sampler_panics_iff C28_cuts_unique","The bytes are read exactly once in order; the samples panic if a cut falls inside a character (refuted). Proved exactly when: for every file and every short-read behaviour the cuts are determined (after the last blank line of a full buffer, else at the end of the read) and the iterator panics if and only if some cut is not between two characters; otherwise the samples are the pieces between the cuts.")
c("C29","proved","C29_paragraph_end")
c("C30","partial","C30_trim_panics_iff C30_trim_partial C30_trim_refuted","False for windows without a start of character (panic), exactly characterised; proved otherwise.")
c("C31","proved","C31_whole_paragraphs C31_at_most_one_over C31_at_most_one_short C31_first_paragraph_never_taken f64_never_over f64_never_far_under C31_sample_from_file","The floating point comparison is the binary64 rounding of Flocq; conversions exact below 2^53. Also: the first paragraph is never taken (0/0).")
c("C50","proved","C50_windows_disjoint C50_samples_are_text C50_panics")
c("C32","partial","C32_reversible_partial C32_injective_partial C32_ascii C32_reversible_refuted C32_multichar_refuted","False in general: markers in the input, and capitals with several lower-case characters (refuted theorems). Proved for marker-free text whose capitals have reversible lower-case forms, hence for all marker-free ASCII text. The Unicode tables are a parameter.")
c("C33","partial","C33_file_processing C33_file_processing_partial C33_file_processing_refuted C33_invalid_text_is_reported C33_written_before_the_error","Exact for every text after line-end normalisation; the literal statement holds only for text with plain newlines and a final newline (refuted otherwise).")
c("C34","partial","C34_success_partial C34_success_refuted","False of the code: the final flush happens on drop and its error is ignored (refuted). Proved for every failure point: a prefix is written, at most one buffer is missing on success.")
c("C48","proved","C48_character_counts code_point_inj")
c("C49","proved","C49_processed_form C49_always_applies C49_one_marker_per_word C49_symbols_kept C49_lower_case C49_lower_case_met","Unicode tables as a parameter.")
c("C35","proved","C35_byte_selection C35_otherwise_panics","For room between 0 and 256 byte tokens; outside that range it panics (proved).")
c("C36","proved","C36_huffman_encoding C36_search_is_the_promise C36_search_by_bisection","The binary searches on the tables of bytes are modelled by their result; C36_search_is_the_promise shows that every search that keeps the promise of the standard library gives it, and bisection does.")
c("C37","proved","C37_huffman_size C37_small_budgets_panic")
c("C38","proved","C38_splitting_into_intervals C38_zero_parts_panic")
c("C39","proved","C39_bpe_adds_a_new_token","As long as all sequences are one byte long (true of every set the program builds) the string is new among all strings; otherwise it is a new token and adding it drops a sequence with the same string.")
c("C40","proved","C40_paragraph_rule C40_short_strings_panic")
c("C41","partial","C41_bpe_keeps_the_rule_partial C41_bpe_keeps_the_rule_refuted","False in general: if every pair of the data breaks the rule, the last candidate is proposed although it breaks the rule. Proved: whenever some candidate keeps the rule, the proposed one does and is a most frequent one of those.")
c("C42","proved","C42_optimization_terminates C43_unsupported_targets_panic","Explicit bound on the number of rounds; unsupported sizes panic in the first round.")
c("C43","partial","C43_optimization_never_panics_partial C43_unsupported_targets_panic C43_optimization_never_panics_refuted","False for the bits types above 256 + number of extension tokens (e.g. Bits1 with 300 tokens): the byte optimizer panics in the first round for every data set. Proved for all other sizes, and exactly characterised from scratch.")
c("C44","proved","C44_result_within_budget")
c("C45","proved","C45_never_longer C45_same_size_never_longer","Also for byteshuff: from scratch, and from any set to which no byte can be added.")
c("C47","partial","C47_estimate_formula C47_estimate_exact_partial C47_estimate_in_search C47_estimate_exact_refuted","C47_estimate_formula gives the exact value for every token set: what is spent on single bytes plus one for each one-byte token inside each sequence used. So the claim is false for huffman sets (first token of a sequence is a one-byte token, counted twice) and true for all sets whose sequences contain no one-byte token.")
c("C52","proved","C52_search_makes_progress C52_result_not_smaller")
c("C46","partial","C46_increasing_data_returns_refuted C46_minimum_too_big_panics C46_minimum_zero_never_ends C46_increasing_data_returns_partial C46_results_exist","False: no result for any file of at most 2^24+1 bytes (panic, or endless loop for minimum 0), nor if the minimum reaches the file size. Proved: a positive minimum always ends; a result is the full-data statistics of a set within the budget that passed the test; a panic means that the sizes ran out.")
c("C53","proved","C53_one_result","Unstable sort as a fixed but arbitrary function; save clock and number of threads differ freely between the two executions.")
c("C54","proved","C54_budget_used_up","For byteshuff sets the remaining case also says that all 258 extension and byte positions are used.")
c("C55","proved","C55_result_is_stable","Also for a different order of ties in the second run.")

c("C56","partial","C56_files_read_back_partial C56_bytes_sets_unchanged C56_cut_files_rejected","Reading back is exact except for what C22 refutes (the paragraph flag is lost, bits sets get their fallback sequences again); truncated files are always rejected.")
c("C57","partial","C57_replacement_atomic_partial C57_replacement_atomic_refuted","False: fs::write truncates first, so there is a moment at which a crash loses both. Proved: readers see the old file, the new one, or one that does not load; no other file changes.")
c("C58","partial","C58_convert_keeps_set_refuted C58_convert_keeps_set_partial","False for bits sets in which some byte is not a token: the command cannot convert the program's own files. Proved for bytes and byteshuff sets without the flag.")
c("C59","partial","C59_only_requested_file_partial C59_only_requested_file_refuted","False: intermediate saves are named after their own size. Proved: only files of sets within the budget, of the right type and processing, are touched, and what they hold; the result is complete at the end.")
c("C60","proved","C60_loaded_value_consistent C60_loaded_file_consistent C60_loaded_shaped")
c("C61","partial","C61_requested_kind_refuted C61_requested_kind_partial","False if the starting set is of another kind: the result then has the processing (and for bits the type) of the starting set. Proved when the starting set matches or there is none.")
c("C62","proved","C62_statistics_in_file","For numbers below 2^64; the quotient bytes per token is an abstract number text.")
c("C63","partial","C63_resume_partial C63_resume_refuted","Proved for all files except those of bits sets in which some byte is not a token: these do not load into a usable set and the resumed run panics at once. No worse, for byteshuff: if the first run started from scratch or no byte can be added to the set in the file.")
c("C64","proved","C64_joins_the_preferred_pair C64_preferred_pair_exists C64_otherwise")
c("C65","partial","C65_joining_saves_partial C65_bpe_step_saves C65_joining_saves_refuted","False for a token that follows itself: aaa has two such pairs and joining saves one token. Proved: at least k for two different tokens, at least half of k for the same token.")
c("C66","proved","C66_cheapest_number_of_extension_tokens")
c("C67","partial","C67_optimal_split_refuted C67_optimal_split_partial","False: 2 2 1 1 is split into 2 2 | 1 1 (3 left over), 2 | 2 1 1 leaves 2. Proved: no interval of several bytes weighs more than two neighbouring intervals together.")
c("C68","partial","C68_random_samples_partial C68_short_file_panics C68_random_samples_refuted C68_ascii_file","False: a sample that starts or ends inside a character panics, a file not longer than a sample panics, and the last byte is never sampled. Proved: those are the only failures; otherwise exactly k pieces as described; ASCII files never fail.")
c("C69","partial","C69_process_command_partial C69_other_files_untouched C69_failed_run C69_process_command_refuted","False when data and output are the same file (it is emptied and success is reported) and when the last flush fails (C34). Proved for different files.")
c("C70","partial","C70_files_with_increasing_data_partial C70_files_with_increasing_data_refuted","False: with data of at most 2^24+1 bytes the command panics after its search and, without a save in between, leaves the directory as it was. Proved: what changed files hold at any moment, and that a normal end leaves the complete result.")
c("C71","proved","C71_counters_do_not_overflow C71_merging_does_not_overflow C71_sets_of_the_program")
c("C72","proved","C72_chars_tokenizer C72_char_costs","Module src/chars, which main.rs does not compile in. Pair counts are claimed for sets of at most 2^16 tokens: the table's keys are 16 bit.")
c("C73","partial","C73_ids_determine_text_partial C73_ids_determine_text_refuted","False: a character below 256 that does not occur in the data has an empty code. Proved for texts of characters of the data.")
c("C74","proved","C74_number_of_extension_tokens")
c("C75","partial","C75_fills_the_set_partial C75_fills_the_set_refuted","False: it panics when no two neighbouring tokens are left. Proved, for up to 2^16 tokens: either exactly n tokens, each added string new, joining two tokens and lowering the number of tokens of the data by at least one, or that panic.")
c("C76","proved","C76_legacy_tokenizer C76_pair_counts","Modules src/tokens.rs, stats.rs and tokenizer.rs, which main.rs does not compile in. Pair counts are claimed for sets of at most 2^16 tokens: the key of a pair is a u32.")
c("C77","partial","C77_cache_partial C77_cache_refuted","Module src/optimizer.rs, not compiled in. Proved for token sets without the empty token and without zero bytes, with the counts in the order of the tokens of some set with the same strings. Refuted: two sets with the same strings in another order share a key, so the counts come back in the wrong order; and a token with a zero byte makes keys of different sets equal, so the cost is that of another set.")
c("C78","partial","C78_byte_tokens_partial C78_byte_tokens_refuted","Proved for all encodings but Hex. Refuted: with Hex it panics, since it tries to remove mandatory tokens; and it may report a change without gain, for every order of equal counts - then the assertion at the end of optimize_token_set fails.")
c("C82","partial","C82_sizes_partial C82_sizes_refuted","Proved for min >= 1. Refuted: with min = 0 optimize_all never ends.")
c("C79","partial","C79_exchange_partial C79_exchange_refuted","Module src/optimizer.rs, not compiled in. Proved for tokens and fast samples without zero bytes (the cache confuses sets with them, C77), at most 2^16 tokens, and a fast sample left over for every removable token; the local optimum for at most 512 removable tokens (beyond that the code gives up). Refuted: without such fast samples it panics, for every oracle.")
c("C80","partial","C80_add_tokens C80_bpe_partial C80_bpe_refuted","add_tokens is proved in full, for at most 2^16 tokens (the pair key). add_tokens_bpe: never panics; ends with the size asked for if there are at least that many different samples, and otherwise either ends so or never ends. Refuted: it never ends when all samples have become tokens, or when the block is 0.")
c("C83","partial","C83_optimize_partial C83_optimize_refuted","Proved for samples without zero bytes and enough different ones; the local optimum for at most 512 removable tokens. Refuted: it may never end, because add_tokens_bpe may not.")
c("C84","partial","C84_saved_partial C84_saved_refuted","Proved for every run that ends, all encodings but Hex, any timer. Refuted: the assertion after the last exchange of bytes panics, for every oracle, with samples that are part of the slow samples.")
c("C81","partial","C81_json_partial C81_json_refuted","Module src/tokens.rs, not compiled in; at the level of JSON values (the text of the crate json is not modelled). Proved for all encodings but Dist2 and Dist4. Refuted: those are loaded as Dist8, and texts get dearer.")
c('C85','proved','C85_optimized_sets_decodable','')
c('C86','proved','C86_stops_when_close C86_result_generalizes','The comparison is modelled with Flocq as IEEE binary64 operations (two quotients, a difference, a quotient, the rounded constant), counters below 2^53 (774 times the file size).')
c('C87','proved','C87_counters_are_only_added C87_work C87_linear C87_memory','The loops of the model with a counter added; erasing the counter gives back process_slice for every input. The final loop over the spans (one iteration per span) and the cost of building the tokenizer are not counted.')
c('C88','partial','C88_decodable_partial C88_decodable_refuted C88_hex_case C88_bits_case','Proved for the bit encodings and for all tokens, and for the distribution encodings when ntokens^(literal_cost-1) >= 256. False for hexadecimal literals: a set of one-byte tokens that are not all 256 bytes, such as the fresh one, has more texts of cost 3 than numbers of three tokens, because the prefix token 0x10 and the hexadecimal digits are also ordinary tokens. False for the distribution encodings without tokens, which have a single symbol.')
c('C89','proved','C89_statistics_of_result C89_statistics_with_increasing_data','Hypotheses as in C59 and C70 (supported targets, sets that the program could have made). The text of floating-point numbers is a parameter.')
c('C90','proved','C90_printed_token C90_printed_step C90_steps_can_be_replayed C90_printed_counts',"The standard library's table of characters printed unescaped is a parameter of the theorems.")
c('C91','proved','C91_content_kept C91_own_output_unchanged C91_any_file_kept C91_minus_zero_may_load C91_token_set_kept C91_cut_files_rejected',"Python's json.load is taken to agree with serde_json on these files; what it writes for a floating point number is a parameter, assumed to be the text of one (and to be stable, for the second theorem) for the numbers in the file.")
c('C92','proved','C92_same_form_everywhere C92_spaces_vanish C92_capitalized C92_all_capitals C92_one_token_per_word','The Unicode tables are a parameter; the theorems on capitals state what they need of them (single-character lower case that is no capital).')
c('C93','proved','C93_files_match_their_names C93_any_file_restarts C93_overlapping_commands C93_hypotheses_met','Assumed of the surroundings: at least one thread, a sort that reorders, supported sizes, reads that return data, numbers in statistics below 2^64, and the hypotheses of C91 for pretty.py, which is run on files that load. Two commands writing the same file byte by byte at the same time are not covered.')
c('C94','partial','C94_literal_rule C94_literal_rule_partial C94_rule_through_markers C94_literal_rule_refuted C94_hypotheses_met','The README\'s rule taken word for word restores the text only when no single space stands before a word in capitals (iff, proved; refuted on "a B"); read through the markers it restores every text. Hypotheses on the text: no markers in it, every capital has one small letter and returns from it (C32\'s refutations show these are needed).')
c('C95','proved','C95_command_line C95_one_meaning C95_readme_call C95_file_words_refused','The rules of the library clap (4.x, derive) are modelled from its documentation; the table of options is that of main.rs. Arguments that are not valid text, and the help texts, count as refused.')
c('C96','proved','C96_files_touched C96_optimize_files C96_refused_arguments C96_hypotheses_met C96_path_below_directory C96_paths_differ','Paths are names of files (no links or two spellings of one path); temporary files are left out; the data are read as they were at the start.')
c('C97','proved','C97_file_describes_set C97_file_decodes C97_hypotheses_met','The number printed for the ratio is a parameter that must be a JSON number. The text is that of serde_json::to_string_pretty; numbers must fit in 64 bits.')
c('C98','proved','C98_optimize_succeeds C98_optimize_ends C98_convert_succeeds C98_process_succeeds C98_count_chars C98_increasing_succeeded C98_failed_start C98_refused_arguments C98_unwritable_directory C98_hypotheses_met','Ends of runs are the relation `ends` of ProgramModel.v (Normal = exit status 0, Failed = panic or refused arguments). A write works or changes nothing; files cut short by a kill are the subject of C59 and C96. Data of 16 GB or more and --min-data-size can panic in the middle (C28, C70), so for --min-data-size only the normal end is described.')
c('C99','proved','C99_search_does_not_overflow C99_a_terabyte_and_65536_tokens C99_limits_needed C99_hypotheses_met','The general theorem gives the limits for a modulus M: 2^18 (length + 1) <= M, n^2 <= M and the bound of C42 on the rounds below M. Lengths and indices of vectors are unbounded. Answers of the tokenizer wrap (release build); C71 bounds their counters.')
c('C100','proved','C100_segmentation_counted C100_order_does_not_matter C100_sorting_keeps_counts C100_tie canonical_example','same_content is the specification of C21. Tokens must be distinct (NoDup): with duplicate extension tokens a count per number would not be determined by the content.')
c('C101','proved','C101_whole_file C101_token_file C101_sample_from_file C101_count_chars C101_process_file C101_file_sampler C101_random_samples C101_preloaded_windows C101_preloaded_short_read','The preloaded sampler (not used by the program) does not repeat a short read: it then leaves out the rest of the window without an error (C101_preloaded_short_read); its windows stay apart and inside the file all the same. The buffered reader of the standard library is modelled (fill_buf, read_until, read_to_end); serde_json is taken to read its file to the end.')
c('C102','proved','C102_bounded_memory C102_nothing_left C102_bound_reached','The sample that the main thread is about to send (blocked in send) is counted as not yet asked for: with it the bound is 5 + n. The bound is reached.')
c('C103','proved','C103_start_order_irrelevant C103_same_result_with_fixed_ties','The starting set is used as it is in the first round only; from then on every set comes from the statistics of a sorted set.')
c('C104','proved','C104_token_earns_its_place C104_no_wasted_token C104_unused_token','byteshuff is left out: there the estimate that decides between a byte and a pair is not exact (C47), so the token added in place of the removed one need not shorten the data.')
c('C105','proved','C105_cost_of_a_cut C105_cost_of_sampling C105_local_edit C105_appending C105_tokenizing_edited_text C105_longer_text_cheaper C105_reported_tokens','d is 8, 4, 2, 1 and at most 258 for bits1, bits2, bits4, bytes and byteshuff. The example attains the bound for a cut.')
c('C106','proved','C106_requests C106_requests_any_start C106_cache_size C106_every_execution','Counts requests and tokenizations of the whole data, not time.')
c('C107','proved','C107_starting_adds_nothing C107_returns_the_sequential_result C107_no_deadlock C107_bounded C107_ends_with_the_result C107_refusal_is_reported','Samples must be non-empty where the result or the absence of deadlock is claimed (C13 shows what happens otherwise); the refusal is reported for all samples.')
c('C108','proved','C108_ratio_monotone C108_ratio_accuracy C108_ratio_orders C108_files_compare C108_no_tokens','IEEE double precision through Flocq. The printing of a double is a parameter; C108_files_compare assumes that the two printed numbers are read back unchanged.')
c('C109','partial','C109_processing_beforehand_partial C109_success_refuted','Proved for disks that never refuse a write while the data is processed; C109_success_refuted is the counterexample without that condition. The two files must not change between the runs.')
c('C110','partial','C110_different_files C110_overlapping_saves_partial C110_both_lost_refuted C110_mixed_refuted C110_hypotheses_met','C110_overlapping_saves_partial needs that each text is written by one call of write; C110_mixed_refuted is the counterexample otherwise. C110_both_lost_refuted: what loads is complete, but possibly nothing loads.')
c('C111','proved','C111_text C111_unambiguous C111_process_accepts_text C111_count_chars_accepts_text','The specification (scalar values, the encoding by arithmetic) is separate from the model, which follows the table of well-formed byte sequences as the standard library does.')
c('C112','proved','C112_same_result_elsewhere C112_same_files_elsewhere C112_hypotheses_met','The intermediate files of an optimization depend on the clock (one is saved when enough time has passed) and are not claimed to be the same; those of one clock are (C98). For convert-tokens, which cuts the data where reads end (C28), reads must return the same amounts.')
c('C113','proved','C113_more_promising_token C113_hypotheses_met','Which single bytes are chosen is C35 (bits) and C66 (byteshuff); which pair, C64.')
c('C114','proved','C114_local_optimum C114_exchanges_exist C114_hypotheses_met','The exchanges are defined from the public operations and from fresh statistics of the intermediate set, so that no cached statistics enter the statement.')
c('C115','proved','C115_file_numbers C115_entropy_bounds C115_hypotheses_met','Modules src/stats.rs, src/tokens.rs and src/optimizer.rs, not compiled in. The entropy is a real number; the rounding of its computation is not modelled. The texts of the floating-point numbers are parameters.')
c('C116','proved','C116_only_proportions_matter C116_hypotheses_met','byteshuff is left out: its optimizer adds one to every count (src/optimize_bytes.rs:84-98), so there the amount of data matters. Counts are natural numbers (no overflow of u64 or i64), as in C53.')
c('C117','proved','C117_printing_succeeds C117_printout_determines_set C117_hypotheses_met','Directory src/chars, not compiled in. Which characters the standard library prints unescaped is a parameter, as in C90.')
c('C118','proved','C118_reported_ratio_never_falls C118_same_size_rises C118_hypotheses_met','The decimal digits printed are those of the standard library and not modelled; the theorem is about the number.')
c('C119','proved','C119_conversion_reproduces_result C119_conversion_succeeds C119_same_pieces C119_hypotheses_met','For bits sets in which some byte is not a token the conversion fails (C58_convert_keeps_set_refuted).')
c('C120','proved','C120_growing_never_longer C120_chain_continues C120_hypotheses_met','')
c('C121','proved','C121_never_fewer_characters C121_at_most_characters C121_at_most_bytes C121_at_most_text C121_at_most_file C121_bound_reached C121_lower_bound_reached C121_hypotheses_met C121_tokens_needed C121_tokens_needed_met','The Unicode table is a parameter; in the one of the Rust library no character is lowered to more than two characters, so K = 2 there, and K = 1 for ASCII.')
c('C122','proved','C122_reported_range C122_logged_range C122_least_number C122_hypotheses_met','Double precision is modelled with Flocq as in C108; the theorems use the axioms of the real numbers.')
