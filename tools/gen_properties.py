#!/usr/bin/env python3
"""Writes /verif/properties.jsonl (one JSON object per property)."""
import json, os
P = []
def p(id, title, statement, quantifier, why, anchors):
    P.append(dict(id=id, title=title, statement=statement, quantifier=quantifier,
                  why_tests_cant=why, anchors=anchors))

T2="src/tokenizer2.rs"; TS="src/tokenset.rs"; BT="src/batch_tokenize.rs"; OB="src/optimize_bytes.rs"; OP="src/optimize.rs"; PR="src/processing.rs"; MS="src/input/memory_sampler.rs"; FS="src/input/file_sampler.rs"; PS="src/input/preloaded_sampler.rs"; UT="src/input/util.rs"; SA="src/input/sample.rs"; ST="src/stats2.rs"; MA="src/main.rs"

p("C01","A tokenizer can be built exactly for usable token sets",
  "Building a fragment tokenizer from a token set succeeds (no panic) if and only if all strings denoted by the set's string tokens and sequences are non-empty and pairwise different and every one of the 256 single bytes is one of them.",
  "all token sets","the accept/reject boundary ranges over an infinite family of token sets; the construction asserts at four different places, each on derived tables",
  [f"{T2}: FragmentTokenizer::new, create_spans, create_suffix_states"])
p("C02","Tokenization is lossless",
  "Tokenizing any byte string with an accepted tokenizer chooses a sequence of tokens/sequences whose strings concatenate to exactly the input.",
  "all accepted token sets, all byte strings","depends on the automaton tables and the dynamic program for every token set and input",
  [f"{T2}: FragmentTokenizer::process_slice, update_stats"])
p("C03","Tokenization is optimal",
  "The number of tokens added to total_tokens for an input is the minimum, over every way of cutting the input into strings of the token set, of the number of tokens needed (1 per token, the length of its encoding per sequence).",
  "all accepted token sets, all byte strings, all alternative segmentations","optimality compares against exponentially many alternatives for every input",
  [f"{T2}: FragmentTokenizer::process_slice, create_spans, create_suffix_states"])
p("C04","Token totals are consistent",
  "After tokenizing, total_tokens has grown by exactly the length of the emitted token stream, which is also the growth of the sum of all per-token counts, and scanned_bytes has grown by the input length.",
  "all accepted token sets, all inputs, all earlier statistics","an accounting identity over three independently updated counters",
  [f"{T2}: update_stats",f"{ST}: TokenStats"])
p("C05","Per-token and per-sequence counts are occurrence counts",
  "One single segmentation of the input explains all counters: each per-token count grows by the number of occurrences of that token in the emitted stream (including inside expanded sequences) and each per-sequence count by the number of uses of that sequence.",
  "all accepted token sets, inputs, token indices and sequence indices","counts are computed indirectly through span counters; must hold for each index",
  [f"{T2}: update_stats"])
p("C06","Pair counts count adjacent tokens",
  "The pair counter at (i, j) grows by exactly the number of places where token i is immediately followed by token j in the segmentation, where neither is part of an expanded sequence; no pair is counted across two inputs.",
  "all accepted token sets, inputs, pairs","index arithmetic i*ntokens+j must not alias for any pair",
  [f"{T2}: update_stats",f"{ST}: TokenStats::pair_counts"])
p("C07","Tokenizing never panics, loops or depends on the scratch buffer",
  "Tokenizing any byte string (including the empty one) with an accepted tokenizer and matching statistics terminates without panic, and the result does not depend on the previous contents of the reusable buffer.",
  "all accepted token sets, inputs, buffers","absence of index-out-of-range, unwrap and endless suffix-chain loops over all inputs",
  [f"{T2}: process_slice, update_stats"])
p("C08","Token order does not change the token count",
  "Two token sets with the same strings at the same costs (for instance a token set and its sorted version) give the same total token count on every input.",
  "all pairs of such token sets, all inputs","universally quantified over permutations",
  [f"{T2}: process_slice",f"{TS}: TokenSet::sort"])
p("C09","Adding a token never makes tokenization worse",
  "If a new string token is added to an accepted token set (and the result is still accepted), the total token count of any input does not increase.",
  "all token sets, added strings, inputs","monotonicity over all inputs",
  [f"{TS}: TokenSet::add_token",f"{T2}: process_slice"])
p("C10","Token count bounds",
  "The token count of an input is at most the sum of the costs of its single bytes and, multiplied by the longest string in the token set, at least the input length.",
  "all accepted token sets, inputs","a bound over all inputs",
  [f"{T2}: process_slice"])
p("C11","Parallel tokenization equals sequential tokenization",
  "For every number of worker threads and every interleaving of the sender, the workers and the collector, if parallel tokenization of a sampler finishes, its statistics equal those of the sequential version.",
  "all schedules, thread counts, sample lists, accepted token sets","all interleavings of a bounded channel, a mutex and a result channel",
  [f"{BT}: tokenize_file, worker, tokenize_file_sync",f"{ST}: TokenStats::merge"])
p("C12","Parallel tokenization cannot deadlock or run forever",
  "With at least one worker and non-empty samples, every schedule of parallel tokenization can always make a step until it has returned, and no schedule is infinite.",
  "all schedules, thread counts, sample lists","liveness over all interleavings",
  [f"{BT}: tokenize_file, worker"])
p("C13","A failing worker is reported",
  "If a worker panics (an empty sample reaches it), parallel tokenization ends with a panic instead of blocking forever.",
  "all schedules","requires a crash at a particular point in the schedule",
  [f"{BT}: worker, tokenize_file"])
p("C14","Merging statistics is order independent",
  "Merging statistics of the same token set is commutative and associative in every counter, with fresh statistics as identity, and leaves the token set and the initial size of the receiver unchanged.",
  "all statistics of one token set","algebraic law over all counters",
  [f"{ST}: TokenStats::new, merge"])
p("C15","The statistics cache is transparent",
  "For every history of cached statistics requests on a fixed sampler, each answer equals tokenizing the (sorted) token set from scratch, apart from pair counts being dropped where documented.",
  "all request histories over well-formed token sets","a stale or colliding cache entry can be produced by any earlier request",
  [f"{BT}: TokenizerCache::get_stats, get_stats_with_pairs, get_key"])
p("C16","Cutting data into samples",
  "Tokenizing the parts of a text separately never gives fewer tokens than tokenizing the whole, and gives exactly the same number if no token string can cross the cut; in particular, cuts after a newline are free if no string of the token set has a newline directly followed by something else.",
  "all token sets, all texts, all cuts","relates optima of different inputs",
  [f"{T2}: process_slice",f"{OP}: is_valid_token",f"{UT}: find_paragraph_end"])
p("C17","Bit-fallback token sets are decodable",
  "In a fresh bits1/bits2/bits4 token set every byte has exactly one encoding, of length 8/4/2, over the 2/4/16 extension tokens, and the token stream of any text over that set extended by any string tokens can be decoded back to the text.",
  "all bytes, all texts, all added string tokens","all streams, not a few bytes",
  [f"{TS}: new_bits1, new_bits2, new_bits4, add_token"])
p("C18","Adding a token",
  "Adding a string token appends it, returns its index, removes exactly the sequences for the same string and changes nothing else; it panics exactly on the empty string.",
  "all token sets and strings","frame condition over all state",
  [f"{TS}: add_token"])
p("C19","Removing a token keeps the rest",
  "Removing a token that no sequence uses leaves all other tokens (as a multiset), all sequence strings and the tokens each sequence denotes unchanged; removal panics exactly if a sequence uses the token or the index is out of range.",
  "all token sets and indices","swap-remove renumbers an index in every sequence",
  [f"{TS}: remove_token"])
p("C20","Finding a token",
  "Finding a string returns the lowest index holding that string token, and nothing exactly if no token has that string.",
  "all token sets and strings","for all sets","{TS}: find_token".format(TS=TS).split("|"))
p("C21","Sorting is canonical and meaning preserving",
  "Sorting a token set permutes its tokens into the documented order (extension tokens first, then strings in byte order), orders sequences by string, keeps what every sequence denotes, is idempotent, and maps any two token sets that differ only in the order of tokens and sequences to the same value.",
  "all well-formed token sets","index renumbering under an arbitrary permutation",
  [f"{TS}: sort, Token::cmp, Sequence::cmp"])
p("C22","Saving and loading a token set round-trips",
  "Loading what was saved gives back the same token set (type, processing, paragraph flag, tokens, sequences).",
  "all well-formed token sets","needs all token sets; depends on field names agreeing in two functions",
  [f"{TS}: to_json, from_json, parse_token"])
p("C23","A saved and reloaded token set can be used",
  "If a token set is accepted by the tokenizer, so is the token set loaded from its saved form.",
  "all accepted token sets of each type","the defect depends on the token type and on which bytes have tokens",
  [f"{TS}: to_json, from_json",f"{T2}: FragmentTokenizer::new",f"{MA}: load_save_tokens, read_token_set"])
p("C24","Cache keys identify token sets",
  "Two well-formed token sets with the same serialized form are equal.",
  "all pairs of well-formed token sets","injectivity over all pairs; escapes, separators and UTF-8 must not collide",
  [f"{BT}: get_key",f"{TS}: to_json, bytes_to_json"])
p("C25","The file name identifies size, processing and type",
  "Two token sets have the same name exactly if they have the same number of tokens, processing and type.",
  "all pairs of token sets","injectivity of decimal rendering and concatenation",
  [f"{TS}: name",f"{PR}: Processing Display"])
p("C26","Memory sampler covers the data exactly once",
  "For every data and positive chunk size, iterating the memory sampler terminates and its raw slices are non-empty, at most one chunk long, consecutive and concatenate to the data; every slice but the last ends just after a blank line whenever the window contains one.",
  "all data, chunk sizes","all lengths and boundary alignments",
  [f"{MS}: MemoryIterator::next",f"{UT}: find_paragraph_end"])
p("C27","Samples do not alter the text",
  "The text handed to the tokenizer by the memory sampler is the data itself when the data is valid UTF-8.",
  "all valid UTF-8 data, chunk sizes","corruption appears only when a multi-byte character straddles a chunk edge without blank line",
  [f"{SA}: Sample::from_bytes",f"{MS}: MemoryIterator::next"])
p("C28","File sampler reads the file exactly once",
  "With no sample limit, iterating the file sampler over a file yields samples that concatenate to the file contents and then ends, without panic, for valid UTF-8 files and any positive sample size.",
  "all files, sample sizes, read schedules","seek-back arithmetic, short reads and character boundaries",
  [f"{FS}: FileIterator::next"])
p("C29","Paragraph end search",
  "The paragraph-end search returns the largest position not after the given end that directly follows two newlines, or the given end if there is none.",
  "all data and ends within it","all positions",
  [f"{UT}: find_paragraph_end"])
p("C30","UTF-8 trimming",
  "Trimming a byte window cut out of a valid UTF-8 text yields a valid UTF-8 text of whole characters of the window and never panics.",
  "all valid texts and windows","all alignments of 1-4 byte characters",
  [f"{UT}: extract_valid_utf8_slice"])
p("C31","Data subsampling takes whole paragraphs",
  "Subsampling a file yields a concatenation, in order, of whole paragraphs of the file, of total size at most the requested share plus one paragraph.",
  "all files and sizes","all files",
  [f"{MS}: sample_from_file"])
p("C32","Caps-words processing is reversible",
  "The original text can be recovered from its processed form.",
  "all texts","injectivity over all texts; marker characters and irregular case mappings",
  [f"{PR}: process, add_word"])
p("C33","File processing equals text processing",
  "Processing a file line by line writes exactly the processed form of the whole file content.",
  "all files","line ends, missing final newline, carriage returns",
  [f"{PR}: process_file"])
p("C34","Successful processing has written everything",
  "If file processing reports success, the whole processed text has reached the output.",
  "all inputs and all points at which the output may fail","needs a write failure at a chosen point",
  [f"{PR}: process_file"])
p("C35","Byte selection keeps the best bytes",
  "For bits token sets, re-optimizing the byte tokens with room for n byte tokens yields a well-formed token set with exactly n byte tokens that are n most frequent bytes, the same multi-byte tokens, type, processing and paragraph flag.",
  "all statistics and n up to 256","selection under ties for all counts",
  [f"{OB}: SimpleBytesOptimizer::optimize_bytes"])
p("C36","Huffman-style byte encoding is complete and unambiguous",
  "The byteshuff optimizer returns, for every count table and every budget of at least 3, a token set in which each of the 256 bytes is exactly one of: a single-byte token or a sequence consisting of a single-byte token followed by extension tokens; different bytes have different encodings and every token stream can be decoded.",
  "all count tables, budgets","recursive interval splitting over all count tables",
  [f"{OB}: HuffOptimizer::optimize_bytes, optimize_bytes_tokenset, optimize_ext_encoding, optimize_splits"])
p("C37","Huffman-style optimizer size",
  "The byteshuff optimizer uses exactly the budget of byte and extension tokens for budgets from 3 to 258 and 258 of them for larger budgets, and keeps all multi-byte tokens.",
  "all statistics and budgets","all budgets and tables",
  [f"{OB}: HuffOptimizer::optimize_bytes"])
p("C38","Interval splitting",
  "Splitting a sorted count table into parts yields min(parts, length) consecutive non-empty intervals covering the table, each reported with its first character and a most frequent character inside it.",
  "all count tables and part numbers","all tables",
  [f"{OB}: optimize_splits, node_to_split"])
p("C39","A BPE step never adds an existing token",
  "The string proposed from pair statistics of a tokenization is never already a string of the token set, so adding it keeps the token set accepted.",
  "all accepted token sets, all data","follows from optimality of tokenization only; no finite test",
  [f"{OP}: add_token_bpe",f"{T2}: process_slice"])
p("C40","Paragraph rule check",
  "The token validity check accepts a string of length at least 2 exactly if no byte other than newline occurs anywhere after two consecutive newlines in it.",
  "all strings","all strings",
  [f"{OP}: is_valid_token"])
p("C41","BPE respects the paragraph rule",
  "A string proposed by a BPE step never has a non-newline after a blank line.",
  "all statistics","depends on the fall-through when every candidate is invalid",
  [f"{OP}: add_token_bpe, is_valid_token"])
p("C42","Optimization terminates",
  "Token set optimization terminates on every data set, for every token type and every target size in the supported range.",
  "all data, targets, types","termination of a local search",
  [f"{OP}: optimize_tokenset_impl, optimization_step, remove_add_token"])
p("C43","Optimization never panics",
  "For every data set, token type and target size of at least the type's minimum, optimization from scratch returns a token set and does not panic.",
  "all data, all supported targets","panics depend on target size, byte coverage and intermediate states",
  [f"{OP}: optimize_tokenset, optimization_step, add_byte, remove_add_token",f"{OB}: SimpleBytesOptimizer::optimize_bytes"])
p("C44","Optimization respects the token budget",
  "The optimized token set is well formed and accepted by the tokenizer, has at most the requested number of tokens, and keeps the requested type and processing.",
  "all data, targets, types","invariant over all search steps",
  [f"{OP}: optimize_tokenset, optimization_step"])
p("C45","Optimization never makes the data longer",
  "The optimized token set needs at most as many tokens for the data as the initial token set, and every accepted step does not increase the count: for bits and bytes types, and for byteshuff when optimizing from scratch or from a set that uses up the budget.",
  "all data, targets","all search histories",
  [f"{OP}: optimization_step, remove_add_token, add_token"])
p("C46","Incremental-data optimization returns",
  "Optimizing with a minimum data size returns a result for every data file and minimum data size.",
  "all file sizes and minimum sizes","depends on file size thresholds",
  [f"{MA}: optimize_with_increasing_data"])
p("C47","Byte-token cost estimate",
  "The estimate of tokens spent on single bytes equals the number actually spent on single-byte segments when the estimate is taken for the token set that was used.",
  "all statistics of a tokenization","depends on whether counters mix roles",
  [f"{OP}: count_tokens_in_bytes, add_byte"])
p("C48","Character counting",
  "Counting characters of a valid text reports the number of characters and, for each character below 256, its number of occurrences.",
  "all texts","all texts",
  [f"{MA}: count_chars"])
p("C49","Processing marks words",
  "In the processed form, every maximal run of letters of the input is followed by exactly one end-of-word marker, every character that is neither a letter nor a space is kept unchanged and in order, and no other characters are introduced than the three markers and lower-case forms.",
  "all texts","all texts",
  [f"{PR}: process, add_word, get_char_type"])
p("C50","Preloaded sampler windows are disjoint",
  "The windows read by the preloaded sampler lie within the file, do not overlap, and its total size is the sum of the chunk sizes it yields.",
  "all file sizes, sample sizes, limits","integer division rounding over all sizes",
  [f"{PS}: PreloadedSampler::new"])
p("C51","Paragraph cuts are free under the paragraph rule",
  "For token sets in which no string contains two newlines followed by something else (the optimizer's validity rule), cutting the data after a blank line before a non-newline does not change the number of tokens.",
  "all token sets obeying the rule, all texts, all such cuts","relates optima of different inputs",
  [f"{OP}: is_valid_token",f"{UT}: find_paragraph_end"])
p("C52","The search never goes back",
  "Each token set accepted by the search has more tokens than all accepted before it, or as many tokens and a strictly shorter encoding of the data; no token set is visited twice.",
  "all data, targets, types, sort orders, save times, cache contents","property of all histories of a local search",
  [f"{OP}: optimize_tokenset_impl, optimization_step, remove_add_token"])
p("C53","An optimization has one result",
  "The token set and the statistics returned by an optimization depend only on the data (as a collection of samples), the requested size, the kind of token set, the processing, the starting set and how ties are ordered: not on the number of threads, the interleaving of the threads, the order in which samples are read, or the time at which intermediate results are saved. Two runs that save at the same moments save the same files.",
  "all pairs of executions with any numbers of threads, all schedules, orders of samples, save times","needs all pairs of schedules of two executions",
  [f"{OP}: optimize_tokenset, optimize_tokenset_impl, tokenize_file",f"{BT}: tokenize_file"])
p("C54","The budget is used up",
  "The token set an optimization returns has exactly the requested number of tokens; only bytes and byteshuff sets may be smaller, and then no token pair is left to join: in a bytes set every sample is itself a token.",
  "all data, targets, types, starting sets, sort orders, schedules","property of the end of all searches",
  [f"{OP}: optimize_tokenset, add_token, add_byte, add_token_bpe"])
p("C55","The result is stable",
  "Optimizing again, starting from the token set an optimization returned, on the same data with the same target, returns the same set and statistics and saves nothing in between, for any number of threads, order of samples, save times and order of ties.",
  "all data, targets, types, starting sets, pairs of executions","relates two executions of a search",
  [f"{OP}: optimize_tokenset, optimize_tokenset_impl, optimization_step"])
p("C56","Saved files can be read back",
  "The text written for a token set, alone or with statistics, is JSON that the program's own reader accepts and that loads to the saved set (up to what C22 says about the paragraph flag and bits sets); every strictly shorter beginning of such a file is rejected.",
  "all token sets the program builds, all statistics, all cut points","quantifies over all sets, all strings in them and all truncations",
  [f"{TS}: TokenSet::to_json, from_json",f"{ST}: TokenStats::to_json",f"{MA}: read_token_set, save_tokens",f"{OP}: save_tokens"])
p("C57","Replacing a token set file is atomic",
  "While a token set file is being replaced, every reader, and the next run after a crash, sees the old or the new content.",
  "all old and new contents, all crash points of the write","needs all crash points",
  [f"{MA}: save_tokens",f"{OP}: save_tokens"])
p("C58","Converting a token set keeps it",
  "The convert-tokens command writes the set it has read, and running it again on its output with the same data writes the same file.",
  "all token files, all data, all schedules","all files and schedules",
  [f"{MA}: load_save_tokens, maybe_process_file"])
p("C59","An optimization only touches the file of the requested size",
  "At any moment during and after an optimization, the only token set file that differs from before is the one for the requested number of tokens, type and processing; after a normal end it is the complete result.",
  "all data, settings, save times, crash points, previous contents of the directory","crash points and save times",
  [f"{MA}: optimize, save_tokens",f"{OP}: optimize_tokenset_impl, save_tokens"])
p("C60","Loading yields consistent sets or nothing",
  "Whatever file is read: if loading returns, the set has its numbered extension tokens first, in the number its type needs, then only non-empty strings, and every sequence refers to existing tokens.",
  "all JSON values and all byte strings as files","arbitrary input files",
  [f"{TS}: TokenSet::from_json",f"{MA}: read_token_set"])
p("C61","The result has the requested type and processing",
  "An optimization returns, and saves, only sets of the requested type and processing, also with a given starting set.",
  "all data, settings, starting sets, save times","all starting sets and executions",
  [f"{MA}: optimize",f"{OP}: optimize_tokenset"])
p("C62","The statistics in a converted file are those of the data",
  "The file written by convert-tokens is named after the set and its statistics hold the size of the original data, the size of the tokenized data, the number of tokens of the set and the least total number of tokens for the pieces the data is cut into.",
  "all token files, all data, all numbers of threads and schedules","all files and schedules",
  [f"{MA}: load_save_tokens",f"{ST}: TokenStats::to_json"])
p("C63","An optimization can be resumed from its files",
  "Any complete file an optimization has written, also when it was interrupted, can be given as the starting set of a further optimization with the same settings; it then ends normally and its result is no worse than the set in the file.",
  "all data, settings, crash points, save times","crash points and pairs of executions",
  [f"{MA}: optimize, read_token_set",f"{OP}: optimize_tokenset, save_tokens"])
p("C64","Pair joining joins the most frequent pair",
  "A pair-joining (BPE) step adds the concatenation of the two string tokens that stand next to each other most often in the tokenized data, ties going to the smaller token numbers, among the pairs whose concatenation keeps the paragraph rule, and reports that count; it proposes nothing exactly when no two string tokens are adjacent; if every pair breaks the rule, the least preferred pair is joined and count 0 reported.",
  "all token sets, all data, all pair counts","all data and token sets",
  [f"{OP}: add_token_bpe",f"{TS}: is_valid_token"])
p("C65","Joining a pair saves as many tokens as it occurs",
  "Adding the concatenation of two tokens that stand next to each other k times lowers the total number of tokens for the data by at least k.",
  "all token sets, all data, all adjacent pairs","all data and token sets",
  [f"{OP}: add_token_bpe",f"{T2}: FragmentTokenizer::process_slice"])
p("C66","byteshuff uses the cheapest number of extension tokens",
  "The byte encoding chosen for byteshuff is the one built for the number of extension tokens (2 to 10, fewer than the budget) for which encoding all bytes, each as often as it was seen on its own plus once, takes the fewest tokens; on a tie, the smallest number; the multi-byte tokens follow unchanged.",
  "all statistics of accepted sets whose sequences are single bytes, all budgets from 3","all counts of 256 bytes",
  [f"{OB}: HuffOptimizer::optimize_bytes, optimize_bytes_tokenset"])
p("C67","The split of the bytes into intervals is optimal",
  "As its documentation says, the interval split is an optimal one: no other split into the same number of intervals leaves less weight on the bytes that are not the most frequent of their interval.",
  "all tables of byte counts, all numbers of parts","all tables of counts",
  [f"{OB}: optimize_splits"])
p("C68","Random sampling covers the file and never fails",
  "With a limit of k samples the file sampler yields exactly k samples of valid text of at most the sample size, each ending after the last blank line that was read, together at most the announced total; it does not fail on valid UTF-8, and every byte can be sampled.",
  "all files, sample sizes, limits, draws of the random generator, lengths of reads","all random draws and read lengths",
  [f"{FS}: FileSampler::iter, FileSamplerIter::next, total_size",f"{UT}: find_paragraph_end"])
p("C69","process writes the processed text and keeps its input",
  "The process command leaves the data file as it was, changes no other file than the output, and when it reports success the output file is the processed text.",
  "all files, file names, directories, refused writes","all files and failure points of writes",
  [f"{MA}: Process command",f"{PR}: process_file"])
p("C70","The files of an optimization with increasing data",
  "With --min-data-size, at any moment every token set file that differs from before is that of a set of the requested type and processing within the budget, complete or cut; and when the command ends, its directory holds the complete file of a set optimized for the request.",
  "all data, minimum sizes, settings, save times, closeness tests, crash points","crash points and save times over several rounds",
  [f"{MA}: optimize, optimize_with_increasing_data, save_tokens",f"{OP}: optimize_tokenset_impl, save_tokens"])
p("C71","No counter overflows",
  "As long as the number of bytes times the length of the longest byte sequence is below 2^64, tokenizing with 64 bit arithmetic computes the same costs, choices and statistics as with unbounded numbers, also when statistics of several threads are merged; for the sets an optimization works with 258 is enough as length.",
  "all token sets, all data up to that size, all moduli","all data up to 2^56 bytes",
  [f"{T2}: FragmentTokenizer::process_slice, update_stats",f"{ST}: TokenStats::merge"])
CT="src/chars/tokens.rs"; CS="src/chars/token_stats.rs"; CZ="src/chars/tokenizer.rs"; CO="src/chars/optimizer.rs"
p("C72","The character tokenizer is optimal",
  "For any character token set built by the module's functions: tokenizing a text returns exactly when the text is valid UTF-8 (it panics otherwise), and then counts the tokens of a segmentation into tokens and characters that no other segmentation beats, the characters among its pieces, and its pairs of neighbouring tokens; a character without a token costs the length of the code it was given last (as a byte), and without any code nothing below 256 and 32 from there on.",
  "all token sets built by the API, all byte strings","all sets and all texts; optimality over exponentially many segmentations",
  [f"{CZ}: CharsTokenizer::process_slice",f"{CT}: CharsTokenSet::add_string, add_char_token, add_encoding",f"{CS}: CharsTokenStats::merge"])
p("C73","Ids of the character tokenizer determine the text",
  "With a token set made by the optimizer of the module, two texts that are written with the same token ids are equal.",
  "all data the set was made from, all numbers of tokens, all added strings, all texts, all segmentations","unique decodability over all texts",
  [f"{CO}: optimize_chars, optimize_ext_encoding",f"{CT}: CharsTokenSet::char_encoding"])
p("C74","Number of extension tokens",
  "The choice of character tokens panics for fewer than three tokens; otherwise it returns a set of at most the requested size with 2 to 8 extension tokens first and a token for as many characters of the data as there is room for, in which every character of the data has a code, and no other number of extension tokens spells the data with fewer tokens.",
  "all valid data, all numbers of tokens","all data; minimum over all numbers of extension tokens",
  [f"{CO}: optimize_chars_by_ext, optimize_chars, optimize_splits"])
p("C75","The character optimizer fills the set",
  "For valid data and at least three tokens the character optimizer returns a set with exactly the requested number of tokens.",
  "all valid data, all numbers of tokens, all orders of the hash maps","all data and all hash map orders",
  [f"{CO}: optimize_chars_tokens, select_token_bpe"])
LT="src/tokens.rs"; LS="src/stats.rs"; LZ="src/tokenizer.rs"; LO="src/optimizer.rs"
p("C76","The tokenizer with literals is optimal",
  "For any token set of src/tokens.rs without the empty token, tokenize_file returns the statistics of one way of cutting each sample into tokens and literal bytes: no other way costs less (1 per token, the literal cost per literal), among the cheapest each piece is, from the end, the longest possible, and no byte that is a token is a literal; token, literal, pair and byte counts are those of that cutting, however the samples are distributed over the threads. With the empty token it panics.",
  "all token sets built by the API, all lists of non-empty samples, all distributions over the threads","all sets and all texts; optimality over exponentially many segmentations",
  [f"{LZ}: Tokenizer::process_slice, create_suffix_states, update_stats, tokenize_file",f"{LT}: TokenSet::new, add_token, remove_token, generate_suffixes",f"{LS}: TokenStats::add, cost"])
p("C77","The cache of the earlier optimizer is transparent",
  "Whatever has been asked before, the statistics that the cache of src/optimizer.rs returns for a token set are those of tokenizing the samples with it: the same cost, literal counts, bytes, and for every token of the set its own count.",
  "all histories of requests, token sets, samples, distributions over threads","a wrong answer needs two token sets with one key, or an answer given in another order",
  [f"{LO}: TokenizerCache::get_stats, get_stats_with_pairs"])
p("C78","Exchanging single-byte tokens never hurts",
  "optimize_byte_tokens never panics; it keeps the number of tokens and all longer tokens; afterwards no byte that is not a token was used more often than one that is; the new set never costs more on the samples; and when it reports a change, the new set costs strictly less.",
  "all token sets built by the API, all samples, all orders of equal counts","exchange argument over all texts; the order of equal elements is the sort's choice",
  [f"{LO}: optimize_byte_tokens"])
p("C82","The sizes and blocks of optimize_all",
  "optimize_all makes a token set for every size min*2^k up to max (below 1024 for raw), with a block b, 1 <= b, b*b < size, found by halving; it ends for every min; load_prev_token_set returns the set of the first existing size among n, n/2, n/4, ... down to 2.",
  "all min, max, sets of existing files","termination and the exact set of sizes for all numbers",
  [f"{LO}: optimize_all, load_prev_token_set"])
p("C79","Exchanging one token for another never hurts",
  "remove_and_add_token of the earlier optimizer never panics; a set it returns has exactly one removable token less and one new token more, a most frequent candidate of the fast samples once the old token is gone, and costs strictly less on the samples; when it returns nothing, no such exchange would be cheaper.",
  "all token sets, samples, histories of the caches and of attempts, hash orders, orders of equal counts","the order of trials depends on hash order and history; optimality quantifies over all texts",
  [f"{LO}: remove_and_add_token, add_token"])
p("C80","The earlier BPE reaches the size asked for",
  "add_tokens adds the n candidates of most value, never an existing string and never twice the same, and lowers the cost whenever it adds anything; add_tokens_bpe ends with exactly the number of tokens asked for, keeps the tokens given, adds only substrings of samples, and lowers the cost.",
  "all token sets, samples, sizes, blocks, distributions over threads, hash orders","termination and the effect on the cost for all texts",
  [f"{LO}: add_tokens, add_tokens_bpe"])
p("C83","The earlier optimization in memory ends in a local optimum",
  "optimize_bpe ends without panic; the set has the size asked for and keeps the encoding, the statistics are those of the returned set, it costs no more than the set given, and no further exchange of one token would be cheaper.",
  "all token sets, samples, sizes, blocks, hash orders, distributions over threads","termination of a descent over all token sets",
  [f"{LO}: optimize_bpe"])
p("C84","The files the earlier optimizer writes never get worse",
  "Every time optimize_token_set writes the token set file, the set in it has the size and encoding asked for, the statistics with it are those of the slow samples with that set, the cost is never more than in any file written before nor than that of the set the run began with; and the run never panics.",
  "all token sets, samples, sizes, moments at which the timer strikes, hash orders, orders of equal counts","depends on when ten minutes have passed and on the order of equal elements",
  [f"{LO}: optimize_token_set, optimize_byte_tokens, save_token_set"])
p("C81","The earlier program loads what it saved",
  "A token set saved by the earlier program is loaded as a set with the same encoding, the same tokens with the same mandatory marks, and the same number of tokens, whatever statistics were saved with it; it costs the same on every text and saving it again writes the same token list.",
  "all token sets built by the API, all statistics, all texts","all byte strings, UTF-8 or not, and all encodings",
  [f"{LT}: TokenSet::to_json, TokenSet::from_json", f"{LO}: save_token_set"])
p('C85','Texts can be recovered from the tokens of an optimized set',
  'For every token set an optimization saves or returns, whatever its type: two texts written with the same sequence of tokens are equal. With a given starting set this needs the starting set to have the property.',
  'all data, targets, types, starting sets, schedules, save times; all texts and all ways of cutting them','all histories of exchanges of tokens and byte encodings, all texts',
  ['src/optimize.rs: optimize_tokenset, remove_add_token, add_token, optimization_step', 'src/optimize_bytes.rs: SimpleBytesOptimizer, HuffOptimizer', 'src/tokenset.rs: remove_token, add_token, sort'])
p('C86','The growing-data search stops exactly when the sample is representative',
  'When optimize is run with a minimum data size, every round on more than 2^24 bytes compares the bytes per token of the set it found on its sample with those of the same set on the whole file. The run ends with the statistics of the whole file if the two differ by less than 0.5% (of the latter) and goes on with twice the data and the set just found if they differ by more; the double precision arithmetic of the test can only matter when the difference is within 2^-50 of 0.5%. So the bytes per token of a result are within 0.5% of what was achieved on the sample it was found with.',
  'all token types, processings and supported targets, all data files of up to 11 TB and read lengths, all minimum sizes, start sets, save times, thread schedules, candidate orders, and all rounds of the run','The test is made in floating point on quotients of counters of unbounded range, and only after a whole search on more than 16 MB; a unit test can look at a few quotients but not show that rounding never flips the decision outside a window of 2^-50.',
  ['src/main.rs optimize_with_increasing_data', 'src/stats2.rs bytes_per_token'])
p('C87','Tokenizing takes work and memory linear in the data',
  'Tokenizing a text of n bytes with a usable token set tries each occurrence of a token or sequence string in the text exactly once: the number of candidates tried equals the number of places where a string of the set occurs in the text, so it lies between n and n times the length of the longest string, whatever the number of tokens. Reading off the result takes at most n further steps and the work buffer holds n + 1 entries. The tables of the tokenizer hold one entry per string plus one, and at most one state per byte of the strings plus one.',
  'for every usable token set, every text, every scratch buffer and all statistics','Timing a few inputs cannot exclude token sets or texts on which the suffix chains make the scan quadratic; the count is exact for all of them.',
  ['src/tokenizer2.rs FragmentTokenizer::process_slice', 'src/tokenizer2.rs FragmentTokenizer::update_stats', 'src/tokenizer2.rs FragmentTokenizer::create_suffix_states'])
p('C88','The costs that the earlier program counts are enough to recover the text',
  'For a token set of src/tokens.rs there is a code that writes every text as numbers below ntokens, as many of them as the tokenizer of src/tokenizer.rs counts for it (1 per token, literal_cost per literal), from which the text can be recovered.',
  'all token sets built by the API without the empty token, all texts','it is a statement about all texts at once: that no two of them collide; the failure for hexadecimal literals is a counting argument over all texts of three tokens',
  ['src/tokens.rs: LiteralEncoding::literal_cost, LiteralEncoding::reserved_tokens, TokenSet::new, TokenSet::ntokens', 'src/tokenizer.rs: tokenize_file'])
p('C89','The statistics in the file of an optimization are those of its data',
  'After a normal end of optimize, the file of the result gives the size of the original data, the size of the text that was scanned, the number of tokens of the set and the least number of tokens that the pieces of the text need with this set. The scanned text is never shorter than the data (the raw file, or the processed text if the processing is caps-words), and is the data itself for ASCII data, for valid text of at most 2^20 bytes and for raw files of at least 2^34 bytes; with --min-data-size it is always the data.',
  'all data, settings, schedules of the threads, save times, previous contents of the directory','the numbers come from statistics merged from several threads and kept in a cache, after an optimization of unbounded length; a test checks one run',
  ['src/main.rs: optimize, optimize_with_increasing_data, maybe_process_file, TokenStats::to_json', 'src/optimize.rs: optimize_impl', 'src/batch_tokenize.rs: TokenizerCache'])
p('C90','What is printed about tokens identifies them',
  'A printed token, a printed optimization step ("removed -> added") and the output of count-chars can be read back: no two different tokens print alike even inside a list separated by spaces, two step lines are equal exactly if the same tokens were removed and the same tokens were added (whatever order the hash sets are iterated in), so that the token set after each step can be reconstructed from the log, and the count-chars output determines the number of characters, the number of occurrences of every character below 256 and the largest character.',
  'all tokens (any bytes, valid UTF-8 or not), all pairs of token sets, all hash iteration orders, all texts, all choices of which characters are printed unescaped','Escaping, separators inside tokens, and the iteration order of hash sets make infinitely many combinations; a test sees a few lines.',
  ['src/tokenset.rs: show_bytes, Display for Token', 'src/optimize.rs: show_tokenset_diff', 'src/main.rs: count_chars'])
p('C91','Laying out a file with pretty.py keeps the token set',
  'Running pretty.py on a token set file leaves its meaning unchanged: any file that loads, whoever wrote it, loads as the same set afterwards, and for files the program wrote this also holds for rejections (a foreign file may become loadable: -0 is written as 0); natural numbers in its statistics stay the same, any JSON value with natural numbers only is read back equal, running the script again changes nothing, and while the script rewrites the file no partly written content is accepted as a token set (only a missing final newline is).',
  'all JSON files (all token sets, statistics, token bytes, nesting depths and line widths), all JSON values, every prefix of the written text','Line breaking depends on the width and nesting of every value, and strings may contain quotes, brackets, commas and any other characters.',
  ['pretty.py: serialize, save_json', 'src/main.rs: read_token_set', 'src/tokenset.rs: to_json, from_json'])
p('C92','Words keep their tokens in processed text',
  'In processed text a word has the same form wherever it stands (whatever precedes or follows it, the output for the word alone is inserted between parts that depend only on the surroundings); a capitalized word and a word in capitals are the small form behind one marker; single spaces between words leave no trace; hence a sentence whose words (with their end marker) are tokens is tokenized into at most one token per word, plus one per case marker.',
  'all words, all surroundings, all sentences, all Unicode tables, all accepted token sets','The README promises this for every word and every context; it combines the word machine with the optimality of the tokenizer over unbounded texts.',
  ['README.md: Processing', 'src/processing.rs: process, add_word', 'src/tokenizer2.rs: process_slice'])
p('C93','Any history of commands leaves a usable directory',
  'Start with a directory in which nothing loads as a token set. Run optimize (with and without --min-data-size), convert-tokens, pretty.py and file removals any number of times in any order, one after the other or several at a time (each write of a whole file by one of them at a time), each possibly killed at any point of its work or of its writes, each optimization starting from nothing or from any file of the directory that, if it loads, is of the requested kind and not larger than requested. Then every file that loads is the token set its name describes, and every such file that the tokenizer accepts can start a further optimization of its kind: some run returns, no run panics, the result is in the budget, and (for Huffman sets: if there is no room for further bytes) it needs no more tokens than the file it started from.',
  'all histories of commands of any length, all interruption points, all data and thread counts, all token types, schedules, clocks and orders','A test runs a few commands; the claim is an invariant of all sequences of them with crashes in between.',
  ['src/main.rs: optimize, optimize_increasing, convert_tokens, read_token_set, save_stats', 'src/optimize.rs: optimize_tokenset', 'pretty.py'])
p('C94','Decoding by the README rule',
  'The README says how to read a processed text: an end-of-word marker between two letters becomes a space and any other one is dropped; the other two markers capitalise the first letter, or all letters, of the word after them. Applied to what processing writes for a marker-free text whose capitals can be restored, the rule taken word for word gives back the text without the single spaces that stand between a word and a following capitalised or all-capitals word (the marker of that word, not a letter, follows the end-of-word marker); so it gives back the text exactly when there is no such space, and "a B" reads back as "aB". Taking the two capital markers as part of the word they precede, the rule gives every such text back.',
  'every table of Unicode properties, every text without markers whose capitals have a single small letter to return from','the texts and their words are unbounded, and no decoder exists in the code that a test could run',
  ['README.md (Processing)', 'src/processing.rs: process, add_word'])
p('C95','The command line',
  'The arguments with which the program carries out a command are exactly these: the name of the command, then each of its options once (required ones all, optional ones if wanted) in any order, each as --name value, --name=value, -x value, -x=value or -xvalue, and possibly a final --. A value in an argument of its own must not begin with a dash unless it is a single dash. Numbers are decimal, below 2^64, possibly with a plus sign; processing is raw or caps-words, type one of bits1, bits2, bits4, bytes, bytes-huff. Everything else is refused. The values reach the command under their own names; in particular the calls shown in the README do what they say. The words used in file names, capswords and byteshuff, are refused.',
  'every list of arguments, of any length','the lists of arguments are unbounded: every order, spelling, repetition and value',
  ['src/main.rs: Args, Command, main', 'src/processing.rs: Processing (ValueEnum)', 'src/tokenset.rs: TokenType (ValueEnum)', 'README.md (Usage)'])
p('C96','Files a run of the program may change',
  'For every command line and every state of the files: at any moment during a run and after it no file has disappeared, and only these files can differ from before: for process the output file; for convert-tokens the file named after the token set in the input file, in the given directory; for optimize (with or without --min-data-size) files with names of token sets in the given directory, and if the request is supported and the starting set fits it only files tokens<k>_<processing>_<type>.json with the requested processing and type and k at most the requested number. count-chars and refused arguments change nothing.',
  'every list of arguments, every state of the file system, every moment of every run (crash points included), all schedules, clocks, reads and orders','all command lines, file systems, interruption points and schedules',
  ['src/main.rs: main, process, load_save_tokens, optimize, optimize_with_increasing_data, save_tokens', 'src/optimize.rs: save_tokens'])
p('C97',"The character optimizer's file describes its token set",
  'The text written for the result of the character optimizer is JSON that reads back as: the tokens in order (extension tokens as numbers, characters and strings as themselves, no two alike); a code, as a list of those tokens, for exactly the characters of the data that have no token of their own; and the true numbers in the statistics. The file alone is enough to decode: no two texts can be written with the same tokens, every text of characters of the data can be written, and the total in the statistics is the sum of the least numbers of tokens with which the samples can be written with what the file says (if no code is longer than 255 tokens).',
  'all valid data, up to 2^16 tokens, all orders of the hash maps, all texts','all data and all hash map orders; decoding is a claim about all pairs of texts',
  ['src/chars/tokens.rs: CharsToken::to_json, tokens_to_json, encodings_to_json', 'src/chars/token_stats.rs: to_json', 'src/chars/optimizer.rs: optimize_chars_tokens'])
p('C98','The end of a run means what it says',
  'Given arguments that ask for an optimization the program supports, files that are there (for a given starting set: one fit for the request), data below 16 GB and files that can be written, the program ends normally whatever the threads do, and always with the same files; then the directory holds the file of a token set of the requested kind within the budget, from whose tokens every text can be recovered, with the statistics of the data, and only files of sets of this kind have changed. The same for convert-tokens (exactly one file changes) and process; an optimization with --min-data-size that ends normally has kept the same promise. A run that cannot start (missing or unreadable data or token set, processed data missing, invalid text to process, refused arguments) ends with an error and changes nothing; so does a run whose output directory cannot be written.',
  'all command lines, all file systems, all systems around the program (threads, clock, order of the unstable sort, reads, refused writes)','a test runs the program in a few directories with one schedule; the promise is about every file system and every schedule, including runs that fail',
  ['src/main.rs: main, optimize, load_save_tokens, maybe_process_file, read_token_set, save_tokens, process, count_chars', 'src/optimizer2.rs: optimize_tokenset'])
p('C99','The search does not overflow',
  'With 64-bit integers an optimization computes what it would compute with unbounded ones: with at most a terabyte of data and at most 65536 tokens no run panics because of an arithmetic overflow in a debug build, and a release build, where overflows wrap around, returns the same token set with the same statistics and saves the same sets, whatever the threads do. This covers the unsigned sums, products and differences of counts and costs, the conversions of counts to signed numbers and their negation as sort keys, the difference of costs that decides between adding a byte and adding a pair, the sums of the Huffman tree and the counters of removals.',
  'all data and targets within the limits, all token types and starting sets, both kinds of builds, all distributions of the samples among threads, all orders of the unstable sort, all clocks','tests run on small data, where nothing overflows whatever the code does; the limits concern sums over a whole run',
  ['src/optimize.rs: optimize_tokenset, add_byte, add_token_bpe, remove_add_token, count_tokens_in_bytes', 'src/optimize_bytes.rs: SimpleBytesOptimizer, HuffOptimizer, optimize_splits', 'src/batch_tokenize.rs: tokenize_file', 'src/stats2.rs: merge'])
p('C100','Which shortest segmentation is counted',
  'When a text has several segmentations with the least number of tokens, the counters are those of one determined by the strings of the token set alone: the only one in which, read from the end of the text, every piece is as long as any shortest segmentation of the text up to there allows. Two token sets with the same content, their tokens and sequences listed in any order, therefore count the same for every token, every sequence and every pair of neighbouring tokens, and so does the sorted set.',
  'all token sets, all texts, all statistics counted so far, all orders of tokens and sequences','the rule is about all segmentations of all texts; tests see single texts, and C02-C08 hold for any way of breaking ties',
  ['src/tokenizer2.rs: Tokenizer::process_slice, Tokenizer::update_stats', 'src/tokenset.rs: TokenSet::sort'])
p('C101','Errors while reading are never mistaken for the end of the data',
  'However the operating system answers reads and seeks - short reads, interruptions, errors at any point - a result is never computed from a part of a file: loading data or a token set into memory, drawing a subsample, counting characters, processing a file and running the file sampler either give what they give for the whole file, or end with an error (a panic, or an error returned by process_file), and the error was reported by the system or occurs without it, too. Interruptions are retried everywhere but in the samplers that read a file directly, where they panic. Once the file has answered often enough the operation ends.',
  'all files, buffer sizes, numbers of bytes returned by each read, interruptions and errors of reads and seeks','tests read small files from a disk that never fails and always fills the buffer',
  ['src/input/memory_sampler.rs: MemorySampler::from_file, sample_from_file', 'src/input/file_sampler.rs: FileIterator::next', 'src/input/preloaded_sampler.rs: PreloadedSampler::new', 'src/main.rs: count_chars, read_token_set', 'src/processing.rs: process_file'])
p('C102','Parallel tokenization runs in bounded memory and leaves nothing behind',
  'At every moment of every schedule of parallel tokenization, whatever happens to the workers: the samples asked for so far are the first ones of the sampler, each of them exactly once either finished or in memory; at most four wait in the channel and at most one per worker is being tokenized, so that data of any size is processed with at most 4 + n samples in memory; and at most one worker at a time is taking a sample. When the call has returned every worker has ended normally and no sample and no result is left in a channel; when it has panicked every worker has ended.',
  'all schedules, numbers of workers, sample lists, token sets, and samplers that panic','a test sees a few schedules on data that fits into memory',
  ['src/batch_tokenize.rs: tokenize_file, worker'])
p('C103','The order of the tokens in the starting set does not matter',
  'When an optimization is started from a given token set, the arrangement of its tokens (which the user sees as the order in the file) has no influence on what can come out: for each starting set, each rearrangement of the same tokens and sequences, and each way the unstable sort breaks ties in the first search, there is a way of breaking ties (still trying the least often removed strings first) with which the search from the rearranged set returns the same statistics and the same token set, and saves the same sets along the way, for every number of threads, order of the samples and clock. If ties are broken without looking at the arrangement, the two searches give the same result outright.',
  'all starting sets, rearrangements, samples, sizes, types, threads, clocks, tie breaks and executions','a test compares a few arrangements with one tie break',
  ['src/optimize.rs: optimize_tokenset, optimization_step, remove_add_token', 'src/tokenset.rs: sort'])
p('C104','Every multi-byte token of a result earns its place',
  'In the token set that an optimization of type bits or bytes returns with its budget used up, giving up any multi-byte token makes the data longer, as soon as two tokens could be joined instead: by at least half the number of times any joinable pair of neighbours then occurs, and by at least one. So if the data can be encoded in the fewest tokens without some multi-byte token - in particular if its count in the statistics is zero - the data can be encoded in the fewest tokens without any two neighbouring string tokens; in a bytes set every sample is then itself a token. And the result is never smaller than the starting set.',
  'all data, targets, types except byteshuff, starting sets, tie breaks, clocks, threads and executions','a test sees a few optimized sets; local optimality over all removals is a statement about the whole search',
  ['src/optimize.rs: optimization_step, remove_add_token, add_token, add_byte, add_token_bpe'])
p('C105','Token counts change locally',
  'Cutting a text in two adds at most d*L-1 tokens, where L is the length of the longest string of the token set and d the most tokens a single byte costs. So the number of tokens counted for data that are read in samples (and the number an optimization reports) exceeds what the same data need in one piece by at most d*L-1 for every boundary between samples, and never falls below it. Replacing a part of a text changes the count by at most d tokens for every byte of the part and twice that much again; appending a text adds at most d tokens per byte and saves at most d*(L-1)-1 tokens. Counts are not monotone: the beginning of a token may cost more than the token.',
  'all usable token sets, all texts, all cuts and samplings, all edits, all optimizations','the bounds hold for all texts and cuts; tests see a few of them, and the worst cut depends on the whole token set',
  ['src/tokenizer2.rs: process_slice', 'src/batch_tokenize.rs: tokenize_file', 'src/input/file_sampler.rs', 'src/input/memory_sampler.rs', 'src/optimize.rs: optimize_tokenset'])
p('C106','How often an optimization goes over its data',
  'An optimization with a target of n tokens makes at most 2n+5 requests for statistics in each round, and at most 3 besides; each round but the last adds a token to the set or shortens the encoded data, so there are at most n + N0 + 1 rounds, N0 being the number of tokens the data need with the starting set - at a result of k more tokens that saves d tokens of data, at most k + d + 1 rounds. The data are tokenized at most once per request, and the cache of statistics holds at most one entry for each time they were tokenized. (For a byteshuff set that leaves room for more byte tokens a coarser bound holds, since its data may get longer at first.)',
  'all data, targets, types, starting sets, tie breaks, clocks, threads and executions, finished or not','a bound on work for all data and histories of the search; tests time a few runs',
  ['src/optimize.rs: optimize_tokenset_impl, optimization_step, remove_add_token, add_token', 'src/batch_tokenize.rs: TokenizerCache'])
p('C107','Starting the worker threads one by one, or failing to',
  'Parallel tokenization starts its workers one after another, and the ones that run may already compete for the samples. Whatever the schedule: an execution that returns has started all n threads, they have all ended, and the value is that of the sequential loop; no schedule deadlocks and every one is finite (at most 5 per sample plus 6 per thread plus 5 steps). If the operating system refuses to start one of the threads, then for any data the call ends with a panic, and only after each thread that had been started has ended by itself: nothing hangs and no thread is left behind.',
  'all token sets, samples, thread counts n >= 1, choices of the system which threads start, and schedules','interleavings of starting threads and a system that refuses threads cannot be produced at will by a test',
  ['src/batch_tokenize.rs: tokenize_file, worker'])
p('C108','The bytes per token in a file compare token sets',
  'The number bytes_per_token in a saved file is the size of the original data divided by the number of tokens, up to one part in 2^53 (sizes below 2^53), and null exactly when there are no tokens. So reading it from two files about the same data tells which set needs fewer tokens: for totals below 2^52 it is larger in one file exactly if the total is smaller, and equal exactly if the totals are; for totals of any size it is never smaller for the smaller total.',
  'all data sizes, totals and pairs of files','floating point rounding over all pairs of sizes; a test tries some quotients',
  ['src/stats2.rs: TokenStats::to_json'])
p('C109','Processing the data beforehand changes nothing',
  'After "process --data D --output P" ended normally, every run of convert-tokens or optimize on D with --processed-data P can end in the same ways, and leave the same files, as the same command without --processed-data. Found not to hold when the last write of the process command fails: the command still ends normally (C34), P is empty or cut off, and a later run silently tokenizes the shorter text.',
  'all data files, directories, command lines, token sets and disk behaviours','all pairs of runs and disk failures; a test compares one pair of output files',
  ['src/main.rs: process, maybe_process_file, convert_tokens, optimize', 'src/processing.rs: process_file'])
p('C110','Runs that save files at the same time',
  'Several runs of the program save token sets into one directory at the same time; their actions (truncating a file, each call of write, closing) interleave in any order and any run may stop anywhere. A file that only one of them saves is at any moment as if that run were alone, and at its end what it saved last. A file that several of them save, if it loads, is the old file or one that was saved, complete. Found not to hold in two ways: two runs that both end normally can leave a file that does not load, for any two texts of different length; and if the system writes a text in several pieces, the file can load as a token set that neither run saved.',
  'all numbers of runs, lists of files, interleavings, stopping points and (for files saved by one run) cuts of the writes','interleavings of system calls of several processes; a test sees one of them',
  ['src/main.rs: load_save_tokens, save_tokens', 'src/optimize.rs: save_tokens'])
p('C111','What counts as text',
  'The commands that need text (process, count-chars) accept a file exactly if it is the UTF-8 encoding, as the Unicode standard defines it, of some sequence of characters (scalar values); every other file is reported as an error. The bytes determine the characters, and the counts printed by count-chars are those of the characters.',
  'all files','all byte sequences: overlong forms, surrogates, cut characters',
  ['src/main.rs: count_chars', 'src/processing.rs: process_file', 'src/input/sample.rs'])
p('C112','The same result on another computer',
  'Two computers with the same program and the same files, one with more threads, another clock, other schedules or a disk that takes writes in other pieces, come to the same: an optimization (without --min-data-size, data below 16 GB) that both can serve ends normally on both and its result file is identical byte for byte; convert-tokens, process, count-chars and refused arguments end in the same way and leave the same files.',
  'all pairs of systems with the same Unicode tables, text of fractions and order of ties in the unstable sort; all files, arguments and schedules','all thread counts, schedules, clocks and write sizes on two machines at once',
  ['src/main.rs: main, run_optimize_bpe, convert_tokens', 'src/batch_tokenize.rs', 'src/optimize_bpe.rs', 'src/processing.rs'])
p('C113','The more promising token is added',
  'In a round on a token set with room for more tokens, if filling all the room with single bytes lowers the number of tokens of the data, that is done; otherwise the set grows by one token: by a single byte (the most frequent ones chosen afresh) exactly if that is possible and it saves more tokens on the bytes seen on their own than the most frequent pair of neighbouring tokens occurs, and else by joining that pair; it stays as it is exactly if neither is possible. For all types but byteshuff the new set needs fewer tokens for the data, by at least half of the better of the two promises.',
  'all data, all token sets the search can be at or start from, all supported sizes','the choice must be right for all statistics, and what it promises must be delivered for all data',
  ['src/optimize.rs: add_byte, add_token, count_tokens_in_bytes, optimization_step, remove_add_token'])
p('C114','A result cannot be improved by the exchanges of the search',
  'The token set optimization returns needs no more tokens for the data than any set that comes from it by one of the exchanges the search tries: choosing the single bytes afresh; and, if the set is full, giving up one single byte for the most frequent pair of neighbouring tokens, or giving up any multi-byte token for the more promising addition (a single byte or the most frequent pair, C113). If the set is not full, nothing can be added to it.',
  'all data, all token set types, all supported sizes, all orders of trying, all schedules, cold starts and good starting sets','a local optimum is a statement about all neighbours of the result, for all data and all orders in which they are tried',
  ['src/optimize.rs: optimization_step, remove_add_token, add_token, optimize_bpe'])
p('C115',"The numbers in the earlier program's files",
  'The statistics in the files of the earlier program describe the tokens written there and the data: the size is the number of the entries listed, scanned_bytes the length of the data, total_tokens and total_literals the tokens and literals of a cheapest tokenization, total_cost its cost, final_tokens the number of tokens that are written for it, which is total_cost unless all literals share one token, literal_count the number of times each byte is a literal, and literal_dist_entropy the entropy of the literals, which is between 0 and the logarithm of the number of different ones, so at most 8 bits.',
  'all data, all token sets of the earlier program without the empty token, all literal encodings, all ways to divide the work','the counts come from a backward walk over the states for arbitrary data; the bound on the entropy is an inequality over all distributions',
  ['src/stats.rs: to_json, total_tokens, total_literals, cost', 'src/tokens.rs: to_json, dist_entropy, tokens_in_literal, ntokens', 'src/optimizer.rs: save_token_set'])
p('C116','Only the proportions of the data matter',
  'For the token types bits1, bits2, bits4 and bytes, an optimization depends on the proportions in which the samples occur and not on how much data there is: if a copies of one collection of samples are, up to order, b copies of another, then optimizing on either, with any numbers of threads and under any schedules and clocks, gives the same token set, and all the counts returned with it (tokens written, bytes scanned, the use of each token and sequence) differ by the factor b/a only; with equal clocks and round limits also the same token sets are saved on the way.',
  'all collections of samples in the same proportions, all numbers of copies, all numbers of threads, schedules, clocks and start sets, all supported sizes of the four token types','it compares two whole executions on different data: every decision of every round (which byte or pair to add, whether a trade or a removal pays) has to be shown the same when all counts are multiplied',
  ['src/optimize.rs: optimize_tokenset, optimize, optimization_step, add_token, add_token_bpe, add_byte, remove_add_token', 'src/optimize_bytes.rs: SimpleBytesOptimizer, NoopBytesOptimizer'])
p('C117','The printout of a character token set is the whole set',
  'Printing a character token set returned by the character optimizer never fails, and the printed text determines the set: two returned sets that are printed alike have the same tokens with the same numbers and the same code for every character, and every text is counted alike with both (total, literals and neighbouring pairs).',
  'all pairs of results of the character optimizer (all valid data, sizes up to 2^16, orders of the hash maps), all texts, all choices of which characters are printed unescaped','it compares the printouts of all pairs of sets; tokens contain quotes, spaces, line ends and digits, which could be confused with the layout around them',
  ['src/chars/tokens.rs: Display for CharsToken, Display for CharsTokenSet', 'src/chars/tokenizer.rs: process_slice'])
p('C118','The bytes per token a search reports never fall',
  'The numbers of (processed) bytes per token that optimize prints, for the initial set, for every token set it accepts and in the final statistics, never fall, as double precision numbers, for all token types except byteshuff started from a set with room for more bytes. For every type and every start, of two accepted sets of the same size the later one has the larger number (data below 5.8 TB).',
  'all token types, processings and supported targets, all non-empty data, all start sets, thread schedules, candidate orders and save times (with a save after every step the saved sets are all accepted sets), all moments of the run','it relates all numbers of a run of unbounded length; two different token counts could be rounded to the same quotient, or the rounding could turn the order around',
  ['src/optimize.rs: remove_add_token, optimization_step, optimize_tokenset_impl', 'src/stats2.rs: TokenStats::bytes_per_token'])
p('C119','Converting the result of an optimization reproduces its file',
  'If the file that optimize wrote for its result (a bytes or byteshuff set) is given to convert-tokens with the same data, cut into the same pieces, the command succeeds for every number of threads and every schedule and writes a file of the same name and with the same text, byte for byte, except that the field split_paragraphs is false: the statistics are reproduced exactly. The pieces are the same for data files of at least 16 GiB that are read alike and for texts of at most 2^20 bytes that are read at once.',
  'all results of supported bytes and byteshuff optimizations, all data, all thread numbers and schedules of both commands, all reads','it relates the outcomes of two concurrent programs for all data; the search arrives at its statistics through caches and sorted sets, the conversion directly from the file',
  ['src/main.rs: optimize, convert_tokens, save_tokens', 'src/stats2.rs: TokenStats::to_json', 'src/tokenset.rs: to_json, from_json', 'src/input/memory_sampler.rs', 'src/input/file_sampler.rs'])
p('C120','Growing a token set over several runs never makes the data longer',
  'Run optimize repeatedly on the same data, each time from the file of the result before it and with at least its budget (any thread numbers, schedules, save times and orders of ties, different ones in each run). Every result is within its budget, and the least number of tokens for the data never grows from one result to a later one. The chain can always be continued: a further run with a larger supported budget returns. (For bits sets if all bytes are tokens, for byteshuff if no further byte fits in: otherwise the file does not load, C63, or the set may get worse, C45.)',
  'all chains of runs of any length, all budgets, all data, schedules, orders, save times and thread numbers','it is about every number of successive runs, each of unbounded length, through files that are written and read again',
  ['src/main.rs: optimize', 'src/optimize.rs: optimize_tokenset', 'src/tokenset.rs: to_json, from_json'])
p('C121','Caps-words processing keeps the size of the text within bounds',
  'Processed text is never shorter than the text, counted in characters, and it is not much longer: if no character becomes more than K characters in lower case, the processed text has at most K + 1 times as many characters, plus one; the same holds for bytes, for processed strings and for what is written for a data file, valid or not and however the writes end (a missing final newline is added first). Both bounds are reached: texts of any odd length more than double, by one character, and texts without letters keep their length. So a token set needs at most so many times the tokens of its dearest byte for the processed form of a file.',
  'all texts, files, Unicode tables, buffer sizes and partial writes','it is about every text of every length: the worst case alternates words and symbols without end',
  ['src/processing.rs: process, process_file, add_word'])
p('C122','The reported bytes per token stay within the range of the token set',
  'Every number of (processed) bytes per token that optimize prints, for the initial set, for every set it accepts and at its end, is at most the length of the longest string of the set, and at least 1/8 for the type bits1, 1/4 for bits2, 1/2 for bits4, 1 for bytes and 1/258 (rounded) for byteshuff, for data of less than 2^53/774 bytes. It is neither infinite nor not-a-number for data that are not empty.',
  'all token types, processings and supported targets, all non-empty data, all start sets, thread schedules, candidate orders and save times, all moments of the run','it is about every data set and every run, and about the rounding of the three floating point operations',
  ['src/stats2.rs: bytes_per_token', 'src/optimize.rs: optimize_tokenset, optimization_step, remove_add_token'])
with open(os.path.join(os.path.dirname(__file__),"..","properties.jsonl"),"w") as f:
    for x in P: f.write(json.dumps(x,ensure_ascii=False)+"\n")
print(len(P))
