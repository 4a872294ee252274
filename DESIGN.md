# Formal model of eterevsky/tokens in Rocq (Coq 8.16.1)

Contents: 1 trusted base; 2 what is modelled (file by file) and what is not;
3 simplifications; 4 plan and proof method per property; 5 how the statements
are organised; 6 checks of the model against the program and of the theorems
against wrong programs.

## 1. Trusted base

* Coq's kernel (8.16.1; the proofs use `vm_compute` only in a few closed
  examples, no `native_compute`, no plugin, no extraction in the proof build).
* Axioms.  No axiom is declared in `rocq/theories`.  `Print Assumptions`
  (collected for every theorem of MANIFEST.json by `tools/assumptions.py`):
  * every theorem except the eighteen below: *Closed under the global context*;
  * `f64_never_over`, `f64_never_far_under`, `C31_sample_from_file` (file
    `SampleFloat.v`), `C86_stops_when_close`, `C86_result_generalizes` (file
    `StopFloat.v`), the five theorems of C108 (file `PropRatio.v`), `C118_reported_ratio_never_falls`,
    `C118_same_size_rises` (file `PropProgressLog.v`), the four theorems of C122 (file `PropRatioRange.v`), about binary64 arithmetic through Flocq, and `C115_file_numbers`,
    `C115_entropy_bounds` (file `PropLegacyStats.v`), about logarithms of real numbers: the standard
    library's `ClassicalDedekindReals.sig_forall_dec`,
    `ClassicalDedekindReals.sig_not_dec`, `Classical_Prop.classic` and
    `FunctionalExtensionality.functional_extensionality_dep`, on which
    `Coq.Reals` rests.
  `coqchk -o` of the whole development also reports constants that are
  opaque module parameters of the libraries loaded (`Coq.ssr.ssrunder.*`,
  `Coq.Reals.Rdefinitions.RbaseSymbolsImpl.*`); no theorem of the
  development other than the eighteen above depends on any of them.
* The correspondence between /repo and the `*Model.v` files, read by hand;
  every definition there cites file and lines.  It is exercised by the
  conformance run of section 6.
* The correspondence between the English properties and the specifications
  (`TokSpec.v` and the definitions placed directly before the theorems).

## 2. What is modelled

The crate root `src/main.rs` compiles the modules `batch_tokenize`, `input/*`,
`optimize`, `optimize_bytes`, `processing`, `stats2`, `tokenizer2`,
`tokenset`: the *live* code.

| Source | Model | Not modelled |
|---|---|---|
| tokenset.rs | TokenSetModel.v (constructors, add/remove/find/sort/name), JsonModel.v (to_json, from_json), PrintModel.v (`Display` of a token, `show_bytes`) | derived `Debug` |
| tokenizer2.rs | TokenizerModel.v, whole file; CostModel.v: the same with counters of the work done and the memory used | the recording of `pairs` is always on (the program has no switch in the live code) |
| stats2.rs | TokenizerModel.v (`stats`), BatchModel.v (merge), JsonModel.v (`stats_object`), PropRatio.v (`bytes_per_token`) | derived `Debug` |
| batch_tokenize.rs | BatchModel.v (threads, channels, mutex as a transition system), CacheModel.v (`TokenizerCache`) | progress printing |
| optimize_bytes.rs | OptBytesModel.v, whole file | printing |
| optimize.rs | OptimizeModel.v, whole file | progress lines other than the step line (PrintModel.v), `dbg!` |
| processing.rs | ProcessingModel.v, whole file, with a buffered writer that can fail | |
| input/util.rs, memory_sampler.rs, file_sampler.rs, preloaded_sampler.rs, sample.rs | SamplerModel.v, Utf8.v (UTF-8 validation and lossy decoding), IoModel.v (the same with errors of reading) | the random number generator (an arbitrary number in its range) |
| main.rs | CountModel.v and PrintModel.v (`count_chars` and its output), MainModel.v (`optimize_with_increasing_data`), CommandsModel.v (`read_token_set`, `maybe_process_file`, `convert-tokens`, `optimize`, files), ArgsModel.v (`Args`, `main`), ProgramModel.v (how a run ends: missing files, refused writes, panics, exit status) | help texts |
| pretty.py | PrettyModel.v, whole file | Python's `json.load` beyond its agreement with serde_json, its text of floats |
| serde_json | JsonModel.v (`Value`, compact text), JsonText.v (the reader) | |

Legacy files, not reachable from any `mod` declaration of the crate and not
compiled: `tokens.rs`, `tokenizer.rs`, `stats.rs`, `optimizer.rs`, `chars/*`.
CharsModel.v models `chars/*` (C72-C75) and CharsJsonModel.v its JSON output (C97), PropCharsPrint.v what is printed of a set (C117);
LegacyModel.v models `tokens.rs`, `stats.rs` and `tokenizer.rs` (C76),
LegacyOptModel.v models `optimizer.rs` except its files and output (C77-C80, C82-C84),
LegacyJson.v models `to_json` and `from_json` of `tokens.rs` (C81).

## 3. Conventions and simplifications

* `u8` is `Byte.byte`; `as u8` is reduction mod 256.  Counters and sizes
  (`usize`, `u64`, `i64`) are `nat`/`Z` without wrap-around (for the tokenizer and the
  merging of statistics C71 proves that this makes no difference below 2^64, for the
  search C99, in debug and release builds); file
  sizes that are compared with large constants are `N`.
* Subtractions that could underflow are checked and give `Panic`: this is the
  behaviour of a debug build.  A release build wraps instead; where a theorem
  says that there is no panic the two agree.
* A panic (failed `assert!`, `unwrap`, index out of range, `unreachable!`,
  empty random range) is the value `Panic`; in transition systems a panicking
  thread has explicit states.  A loop whose termination is not structural runs
  on fuel and yields `OutOfFuel`, a value no theorem accepts as a result; the
  theorems give an explicit sufficient amount.
* `&mut` functions return the new value.  `Vec` is `list`; `HashMap` is an
  association list.  The stable sorts are insertion sorts; the unstable sort
  of `remove_add_token` is an arbitrary permuting function of the removal
  counts and the list.
* `binary_search(..).unwrap_err()` (optimize_bytes.rs) counts the smaller entries and panics on
  unsorted tables; BinarySearch.v proves that this is what every search with the library's
  promise, and bisection, gives on sorted tables (C36).
* Threads: in BatchModel.v all workers exist from the start; SpawnModel.v
  starts them one by one and lets the system refuse one, and C107 proves that
  this adds no behaviour.  Channel and mutex operations are atomic; schedules
  are arbitrary.
* Time: whether a minute has passed since the last save is an arbitrary
  function of the round.
* Floating point: the share test of `sample_from_file` is an arbitrary
  predicate in SamplerModel.v, and the binary64 comparison in SampleFloat.v
  (exact conversions: sizes below 2^53); the 0.5% test of
  `optimize_with_increasing_data` is an arbitrary predicate in MainModel.v,
  and the binary64 comparison in StopFloat.v; the text of
  `bytes_per_token` is an arbitrary number text (the number itself is binary64 in PropRatio.v, C108).
* The Unicode tables (alphabetic, upper/lower case, case mapping, final sigma)
  are a parameter of ProcessingModel.v; theorems state what they need of it.
* Files: `read` returns any allowed number of bytes (file sampler); the
  preloaded sampler's reads fill the buffer (IoModel.v drops this); `fs::write` truncates and then
  writes pieces in order (several programs at once: OverlapModel.v, C110); a write through the buffered writer is accepted,
  short, interrupted or refused according to a script.  Opening and creating
  files may fail (ProgramModel.v); errors of
  seeking and reading are modelled in IoModel.v only, which refines to the
  models without them (C101).
* clap: the rules for options with values (long and short, attached or not, `--`, no
  repetitions), from its documentation; arguments are valid text.
* serde_json: numbers with fraction or exponent are kept as text
  (overflowing exponents, which it rejects, are accepted); recursion limit 128
  as in the library.
* Printing to the terminal is left out, except for the texts of C90 (tokens, differences of token sets, character tables).

Every definition carries a comment with the source lines it models.

## 4. Plan per property

| Property | Model | Proof method |
|---|---|---|
| C01 | `create_spans`, `create_suffix_states` with every assert | both directions, by invariants of the two construction loops |
| C02-C07, C10 | `process_slice`, `update_stats` | DP invariant (cost array = optimum of each prefix), Aho-Corasick invariant (state = longest suffix that is a prefix of a span), back-trace induction |
| C08, C09, C16 | same | corollaries of optimality against an independent segmentation spec |
| C11-C13 | transition system of sender / workers / collector | inductive invariant, progress lemma, decreasing measure; C13 expected false (main keeps a result sender alive): refutation |
| C14 | `TokenStats::merge` | algebra on lists of counters |
| C15, C24 | cache state machine + serializer | injectivity of serialization on well-formed sets, induction over the request history |
| C17 | `new_bits*` | computation over the 256 bytes lifted to all streams, decoder spec |
| C18-C21, C25 | `TokenSet` operations | list lemmas, permutation arguments |
| C22, C23 | `to_json`/`from_json` | expected false as stated (`split_paragraph` vs `split_paragraphs`; duplicate fallback sequences): refutation by witness plus the part that holds |
| C26-C31, C50 | samplers over an abstract file/byte list | induction on the iteration; C27, C28 and C30 expected to fail at character boundaries: refutation plus the exact condition (C27, C28: PropSamplerExact.v) or the part that holds (C30) |
| C32, C33, C49 | `process`, `process_file` over a table of Unicode predicates | decoder spec, round-trip on marker-free text with reversible case mapping; refutation in general |
| C34 | buffered writer with a failing sink | expected false (drop ignores the flush error): refutation |
| C35-C38 | `optimize_bytes.rs` | selection by stable sort; interval-partition invariant; recursion on interval length |
| C39-C41 | `add_token_bpe`, `is_valid_token` | optimality excludes pairs whose concatenation is a token; C41 expected false |
| C42-C45 | whole `optimize.rs` loop with the cache threaded | well-formedness invariant, lexicographic measure; C43 expected false for bits types above 256+n_ext |
| C46 | control skeleton of `optimize_with_increasing_data` | expected false: refutation |
| C47, C48 | `count_tokens_in_bytes`, `count_chars` | induction |
| C51 | segmentation spec | exchange argument at blank lines; refutation for sets that break the rule |
| C52-C55 | `optimize.rs` loop | lexicographic order on (size, encoding length) along all histories; a deterministic interpreter of the search to which every execution is equal (C53); analysis of the last round (C54, C55) |
| C56, C57, C60 | JsonText.v, `read_token_set`, `fs::write` | parser/printer inversion, prefix rejection; C57 expected false (truncation): refutation plus what readers can see |
| C58, C62 | `load_save_tokens` | composition of C22, C56, C11, C28; C58 false for bits sets |
| C59, C61, C63 | command `optimize` and its files | C42-C45 on every reachable state, plus the directory; intermediate saves refute C59, starting sets of another kind refute C61, bits sets refute C63 |
| C64, C65 | `add_token_bpe` | order of the sorted candidate list; joining adjacent pieces from left to right gives a segmentation, so optimality bounds the saving; `aaa` refutes C65 as stated |
| C66, C67 | `HuffOptimizer`, `optimize_splits` | the search keeps the first cheapest candidate; C67 expected false (greedy): refutation, plus the invariant of joining the lightest neighbours |
| C68 | `file_random_samples` (draws and read lengths are inputs) | case analysis over the end of the paragraph search; expected false in three ways: refutations |
| C69 | `process_command`: directory as a map, `fs::write`/create truncates first | C33/C34 plus the directory; expected false for data = output: refutation |
| C70 | `increasing`: the loop of `optimize_with_increasing_data` with what each round saves; the files at any moment | invariant over rounds from C44; expected false for small data: refutation by "a search without save times saves nothing" |
| C71 | OverflowModel: the tokenizer and `merge` with all sums and products modulo M | equality with the unbounded model below the bound: bounds on costs and counters, monotone counters |
| C72 | CharsModel: sets, statistics and `process_slice` of src/chars | the suffix table as longest match first, forward dynamic program, spec by segmentations into pieces |
| C73, C74 | `optimize_chars`, `optimize_ext_encoding`, `optimize_splits` on the sorted counts | Huffman-like grouping invariants (as C13): prefix property of the codes; minimum over the counts of extension tokens; C73 expected false for unseen characters |
| C75 | `optimize_chars_tokens`: the loop adding joined pairs, the order of the hash map a parameter | each joined pair lowers the optimal number; expected false: refutation by a text without pairs |
| C76 | LegacyModel: tokens.rs, stats.rs, tokenizer.rs, all tables and the threads' merge | as C03: the suffix chain visits every token that ends at a position, longest first; forward dynamic program; literal fallback; spec LegacySpec.v |
| C77 | LegacyOptModel: optimizer.rs; hash order, threads and unstable sorts are an oracle | canonical segmentations are unique and move along a permutation of the tokens; the key is injective without zero bytes |
| C78 | LegacyOptModel `optimize_byte_tokens` | exchange of the used bytes: the cost is at most that of the old cutting with literals and tokens exchanged; top-n sums |
| C79 | LegacyOptModel `remove_and_add`, `choose_token` | induction on the tokens tried; the cache answers rightly (C77); the best candidate over any hash order |
| C80 | LegacyOptModel `add_tokens`, `add_tokens_bpe` | the pairs of a canonical cut are exactly the candidates, none twice; a candidate of the cheapest cut lowers the cost; the size is the measure |
| C81 | LegacyJson: `to_json`, `from_json` of tokens.rs on JSON values | mandatory tokens are an invariant of the API; loading sorted strings adds exactly the others |
| C82 | LegacyOptModel `all_sizes`, `block_size`, `load_prev` | induction on the halving and doubling |
| C83 | LegacyOptModel `optimize_bpe` | well-founded induction on the cost, with C79 and C80 |
| C84 | LegacyOptModel `optimize_token_set` | invariant of the files written, for any timer; a run that panics, built from the oracle's own order of equal counts |
| C85 | whole search of OptimizeModel | unique decodability depends only on the set of code words (string, tokens), so sorting and removing keep it and a new token is a mark of its own; fresh byte encodings from C17 and C36; a partial-correctness logic over the search |
| C86 | StopFloat.f64_near (src/main.rs:181-183), MainModel | relative error analysis of the five roundings; determinism of a round (C11, C53) |
| C87 | counting version of `process_slice` (CostModel.v) | erasure lemma; the suffix chain of the current state visits exactly the strings ending here, by induction on the chain |
| C88 | LegacyModel literal_cost, reserved_tokens, lset_new; LegacySpec l_costs | an explicit prefix-free code; pigeonhole principle for the refutations |
| C89 | CommandsModel optimize_run, written, optimize_increasing; JsonText parse_json | the result of the search is the answer to its last question (C53), which is the sequential tokenization (C11, C15) |
| C90 | `show_bytes`, `Display`, `show_tokenset_diff`, `count_chars` output (PrintModel) | prefix-freeness of escapes, permutation-invariance of sorting |
| C91 | `pretty.py` (PrettyModel) | a grammar of JSON texts with arbitrary white space, read back by induction; the lines of `serialize` are such a text for every indentation; whatever the JSON reader accepts is well-formed and at most 127 deep (JsonRead), by induction on its fuel; loading commutes with renumbering |
| C92 | `process` (ProcessingModel), tokenizer | the word machine only appends, so its runs from different states can be composed; C03 for the token bound |
| C93 | MainModel, CommandsModel, PrettyModel, optimizer | invariant of directories (each loading file is named after its set and, if usable, a good start) kept by every event; C22/C23 for reloading, C44 for results, C56/C91 for cut files, C43/C45 for the restart |
| C94 | process (src/processing.rs) with the decoding rules of README.md written as two passes | cut into words (C49), induction over the words for both readings at once |
| C95 | ArgsModel.v: `Args` and clap's rules, refused or a command with its values | both directions: reading any spelling in any order, and recovering the settings from accepted arguments |
| C96 | ArgsModel.v: `main`, from arguments and files to the files at any moment, on top of the models of the commands | names of the files written (C59, C61, C69, C70) and the joining of paths |
| C97 | CharsJsonModel: to_json of chars/tokens.rs and token_stats.rs, the text of to_string_pretty | the set's shape is an invariant of the run (made_set); injectivity of the codes by the head of a code; minimality carried over from C74 by translating pieces both ways |
| C98 | ProgramModel.ends over all commands | composition of C42-C44, C85, C89, C95, C53 and a frame argument for the files |
| C99 | OverflowOptModel.v: the search with machine integers in both builds | simulation with the unbounded search, invariants for counts, costs, tree sums and removal counters |
| C100 | TokenizerModel.v, longest_last in TokSpec.v | the scan keeps the longest of the cheapest candidates; uniqueness by induction from the end; transport along the renumbering |
| C101 | IoModel.v: system calls answered by a script, BufReader, the loops over lines, the samplers | invariant for the unread rest, refinement to the models without errors, counting of answers for progress |
| C102 | BatchModel.v (threads, channels, mutex as a transition system) | invariants over all reachable states |
| C103 | OptimizeModel.v (the search), PropFixpoint.v | the first round on both sets is compared action by action; after it the searches coincide |
| C104 | OptimizeModel.v (the search), PropFixpoint.v, PropBpe.v | the last round of the search tried to exchange every multi-byte token; lower bounds for what the exchange gains (C65, C47); transfer of segmentations to the set with one string more |
| C105 | TokenizerModel.v, OptimizeModel.v, TokSpec.v | the one piece of an optimal segmentation that crosses a cut is spelled byte by byte; induction over the samples |
| C106 | OptimizeModel.v, CacheModel.v | a counter of requests for programs, compositional bounds for each function of the search, and the progress of each round as measure; executions with counters are shown to be all executions |
| C107 | SpawnModel.v | simulation: a state while threads are started is reachable with all threads present; an execution with a refused thread is one of a smaller pool whose sampler fails at once |
| C108 | stats_object (JsonModel.v) with the quotient of PropRatio.v | monotonicity and relative error of rounding; two quotients with different denominators below 2^52 differ by more than the errors |
| C109 | ends (ProgramModel.v), process_command, open_data | the text opened is the same in both runs (C33, C69), and nothing else depends on the option |
| C110 | OverlapModel.v: std::fs::write by several programs with their own offsets | invariant over the interleaving: a complete text followed by the end of another one; an object followed by a closing brace is not JSON (JsonText.v) |
| C111 | Utf8.v, CountModel.v, ProcessingModel.v | arithmetic of the encoding both ways; injectivity of code points |
| C112 | ProgramModel.v | both runs reduced to the one outcome of the search (C53) and of the batch (C11), the same text, the same file |
| C113 | OptimizeModel.v | the two estimates as sums over the 256 bytes and as pair counts; the old segmentation re-encoded bounds the new total |
| C114 | OptimizeModel.v | the last round changed nothing; every branch of that round is compared with the least number of tokens of the exchanged set |
| C115 | PropLegacyStats.v | the counters are numbers of pieces of one optimal segmentation (C76); Gibbs' inequality from ln x <= x - 1 |
| C116 | PropScale.v | a relation between programs asked about the data and about k copies of it: the answers to the second are k times those to the first, and all comparisons made are between quantities that scale |
| C117 | PropCharsPrint.v | the printed parts are prefix-free (quotes, digits, line ends), so the text parses in one way; the tokens are distinct, so the spelled codes give the numbers |
| C118 | PropProgressLog.v | the order of the token counts (C45, C52) and the monotonicity of the rounded quotient (C108, Flocq) |
| C119 | PropRecompute.v | loading gives the set without the flag (C56), the least token total does not depend on the flag and is unique, and the rest of the text depends on nothing else |
| C120 | PropGrowRuns.v | induction over the chain; a link is C56 (the file loads), C44 and C45 for the run with the larger budget |
| C121 | PropProcessSize.v, PropProcessTokens.v | invariant of the state machine with an arbitrary weight of characters (one each, or their bytes); the file by C33 |
| C122 | PropRatioRange.v | the bounds of C105 for the sets of each type, then monotone rounding; 1/8 to 1 are double precision numbers |


No property was found that cannot be expressed in a model.

## 5. Organisation of the statements

`TokSpec.v` is the specification of tokenization (segmentations, optimality,
usable sets), independent of automaton and dynamic program; `Utf8.v` starts
with the specification of well-formed UTF-8.  Each `Prop*.v` file holds the
theorems named after the properties (`Cnn_...`), preceded by the small
definitions their statements use and followed by an `Example` showing that a concrete
case meets the hypotheses.  `*Proof*.v` hold lemmas only.

Suffixes: `_partial` is a theorem that proves only part of the property as
written in properties.jsonl (its comment or the MANIFEST note says what is
missing); `_refuted` proves that the property as written is false of the model,
with the code's behaviour stated exactly where possible.  In these cases the
property keeps its original wording and has status `partial`.

## 6. Checks

* `tools/conformance/run.sh` extracts the model to OCaml and compares it with
  the unit tests of /repo and with the data and token files in /repo (not part of the
  proof build): parsing and printing all token files, tokenizing with them, and
  comparing the statistics stored in them, processing of `data/pride.txt`.
  `tools/conformance/files.sh` does the same for the layout of `pretty.py` (every laid-out token file
  is reproduced byte for byte), for the sorted order of the tokens and for the
  fallback sequences of bits sets (rebuilt from their tokens).
* `seeded/LOG.jsonl`: wrong versions of the model, the theorems that failed,
  and the theorems that were tightened.
