{"id": "C01", "title": "Corpus files are content-addressed", "statement": "After any history of recordings of argument data into a corpus directory, every file in that directory is named by the 40-character lower-case hexadecimal SHA-1 digest of exactly the bytes the file holds.", "quantifier": "every byte string recorded, every sequence of recordings, every starting directory that already has the property", "why_tests_cant": "Tests record one or two values; the claim is about every history and every byte string.", "anchors": ["runtime/src/lib.rs: write_data", "runtime/src/lib.rs: write_args"]}
{"id": "C02", "title": "Recording loses nothing and invents nothing", "statement": "After any history of recordings, each recorded datum can be read back from the directory unless another recorded datum has the same SHA-1 digest; every file in the directory was either there before or holds a recorded datum; files outside the directory are unchanged.", "quantifier": "every history of recordings, every initial file system", "why_tests_cant": "The absence of lost or extra files over all histories cannot be sampled.", "anchors": ["runtime/src/lib.rs: write_data", "cargo-test-fuzz/src/lib.rs: consolidate"]}
{"id": "C03", "title": "Corpus contents do not depend on order or multiplicity of recordings", "statement": "Two histories that record the same set of data (with no SHA-1 collision among them) leave the directory with identical contents; recording the same datum again changes nothing.", "quantifier": "all pairs of histories with equal sets of data", "why_tests_cant": "Order independence ranges over all permutations and repetitions.", "anchors": ["runtime/src/lib.rs: write_data"]}
{"id": "C04", "title": "Concurrent recorders of the same or different data cannot corrupt the corpus", "statement": "When any number of threads or processes record data concurrently into one directory and all of them finish, whatever the interleaving of their open-with-truncation and (possibly partial) write system calls, every recorded datum is stored intact under its own name (absent SHA-1 collisions).", "quantifier": "every number of writers, every datum, every partition of each write into partial writes, every interleaving", "why_tests_cant": "Interleavings of system calls are not under a test's control.", "anchors": ["runtime/src/lib.rs: write_data (create_dir_all, std::fs::write)", "fuzzable/tests/arc.rs"]}
{"id": "C05", "title": "A killed recorder leaves only prefixes, and recording again repairs", "statement": "If a recorder is killed at an arbitrary point, the corpus file it was writing holds a prefix of its datum (so the name no longer matches the content: recording is not atomic); recording the same datum again restores the file.", "quantifier": "every datum, every crash point", "why_tests_cant": "Crash points are not exercised by any test.", "anchors": ["runtime/src/lib.rs: write_data"]}
{"id": "C06", "title": "Corpus file names are always processed by display, replay and consolidate", "statement": "A corpus file name is a single path component of exactly 40 characters in 0-9a-f, distinct for distinct digests; it is never one of the names (README.txt, .state) that display, replay and consolidate skip.", "quantifier": "every datum", "why_tests_cant": "Universal over all byte strings.", "anchors": ["runtime/src/lib.rs: write_data", "cargo-test-fuzz/src/lib.rs: for_each_entry", "cargo-test-fuzz/src/lib.rs: consolidate"]}
{"id": "C07", "title": "The directory a target records to is the directory cargo test-fuzz reads", "statement": "For every crate, module path, impl type and target name for which `_fuzz__` does not occur in the text `crate::path::target_fuzz_`, the corpus, generic-args and impl-generic-args directory computed at run time from the argument type's name equals the directory cargo test-fuzz computes from the executable name and the listed test name.", "quantifier": "every crate name, module path, target name, generic instantiation", "why_tests_cant": "The names range over all identifiers; two different programs compute the path in two different ways.", "anchors": ["internal/src/dirs.rs: path_from_args_type, path_from_target", "cargo-test-fuzz/src/lib.rs: targets", "macro/src/lib.rs: mod_ident"]}
{"id": "C08", "title": "Targets whose qualified name contains `_fuzz__` (or ends in `_fuzz_`) lose their corpus", "statement": "The agreement of C07 fails exactly when `_fuzz__` occurs in `crate::path::target_fuzz_`: then the recording directory is a strict prefix of the one that is read. In particular a target called `a_fuzz_` records into the directory of `a`.", "quantifier": "every crate name, module path, target name", "why_tests_cant": "Exact characterisation over all names.", "anchors": ["internal/src/dirs.rs: path_from_args_type"]}
{"id": "C09", "title": "Directories of different targets and different kinds of data never overlap", "statement": "For targets whose names contain no path separator, the corpus, generic-args, impl-generic-args and output directories of two (crate, target) pairs with different (dash-normalised crate, target) are different and none is inside another; and the four kinds of directory of one target are pairwise disjoint.", "quantifier": "every pair of crates and targets, every target directory, every TEST_FUZZ_ID without slashes (more generally: tame ones, see C103)", "why_tests_cant": "Universal over pairs of names.", "anchors": ["internal/src/dirs.rs"]}
{"id": "C10", "title": "TEST_FUZZ_ID partitions all data directories", "statement": "Two runs with different TEST_FUZZ_ID values without slashes (or one with and one without) never use the same corpus, generic-args or output directory; without TEST_FUZZ_ID and outside tests the plain names are used.", "quantifier": "every pair of ids without slashes (C103 says what slashes do)", "why_tests_cant": "Universal over ids.", "anchors": ["internal/src/dirs.rs: path_segment, maybe_id, thread_id"]}
{"id": "C11", "title": "Target discovery is exact", "statement": "The fuzz targets found in an executable are exactly the strings T for which the executable's terse test listing has a line `T_fuzz__::entry: test`, in listing order and with multiplicity; lines that are not of that form are ignored.", "quantifier": "every listing (every sequence of lines, with LF or CRLF line ends)", "why_tests_cant": "All listings.", "anchors": ["cargo-test-fuzz/src/lib.rs: targets"]}
{"id": "C12", "title": "Target filtering is exact", "statement": "With TARGETNAME given, the selected targets are exactly the targets containing it as a substring, or, with --exact, equal to it; order and executables are preserved, and an executable appears if and only if one of its targets is selected.", "quantifier": "every list of executables and targets, every pattern", "why_tests_cant": "All names and patterns, including overlapping and empty ones.", "anchors": ["cargo-test-fuzz/src/lib.rs: filter_executable_targets, filter_targets"]}
{"id": "C13", "title": "An empty selection is an error, never a silent success", "statement": "When fuzzing, displaying, replaying or measuring coverage, an empty selection yields an error naming the pattern; otherwise each selected (executable, target) pair is processed exactly once, in order.", "quantifier": "every selection", "why_tests_cant": "All selections.", "anchors": ["cargo-test-fuzz/src/lib.rs: flatten_executable_targets, match_message, executable_targets"]}
{"id": "C14", "title": "Recorded arguments decode to themselves (postcard, the default format)", "statement": "For every argument type built from the supported serde shapes and every value of it in which each string is at most 2048 bytes, decoding the recorded bytes yields that value.", "quantifier": "every type shape and every value (unbounded nesting, lengths and integer widths)", "why_tests_cant": "Round trip over an infinite value space.", "anchors": ["internal/src/serde_format.rs: serialize, deserialize"]}
{"id": "C15", "title": "Different arguments are recorded differently", "statement": "For a fixed argument type, encodings of different values are different and neither is a prefix of the other, so two calls record the same file only if their arguments are equal or SHA-1 collides; trailing bytes after an encoding do not change what is decoded.", "quantifier": "every type shape and pair of values", "why_tests_cant": "Pairs over an infinite space.", "anchors": ["internal/src/serde_format.rs", "runtime/src/lib.rs: write_args, read_args"]}
{"id": "C16", "title": "Decoding arbitrary fuzzer input is total", "statement": "Whatever the input, a decoded value has the argument type. For types without recursion decoding ends in a value or a failure on a stack of fixed depth; for recursive types the depth is linear in the input length, provided reading past the end is an error, and then extending an input that decodes does not change the result. If postcard's reader yields zeros past the end (as IOReader::pop does), extension, termination for recursive types and boundedness of the decoded value all fail, with explicit witnesses.", "quantifier": "every type shape, every byte string", "why_tests_cant": "The fuzzer produces arbitrary byte strings.", "anchors": ["internal/src/serde_format.rs: deserialize"]}
{"id": "C17", "title": "Strings longer than 2048 bytes are recorded but never decode (default format)", "statement": "A value containing a string longer than 2048 bytes is recorded like any other, but decoding the recorded bytes fails, so the harness silently does not call the target; the boundary is exact.", "quantifier": "every value containing a long string", "why_tests_cant": "No test uses a long string.", "anchors": ["internal/src/serde_format.rs: SLIDING_BUFFER_SIZE, deserialize"]}
{"id": "C18", "title": "Recorded arguments decode to themselves (bincode)", "statement": "With the serde_bincode feature, for every supported type shape and every value, decoding the recorded bytes yields that value exactly if the size claimed for it (the full width of every integer, not its encoded length) is at most one gibibyte; encodings of different values are different and prefix-free; decoding arbitrary input is total. An encoding within the limit is not enough.", "quantifier": "every type shape and value", "why_tests_cant": "Round trip over an infinite value space.", "anchors": ["internal/src/serde_format.rs: serialize, deserialize, BYTE_LIMIT"]}
{"id": "C19", "title": "A replayed corpus entry calls the target with the arguments of the recorded call", "statement": "If a call to the target during `cargo test` recorded a corpus file, then replaying that file runs the target exactly once, on arguments equal to those of the recorded call.", "quantifier": "every target signature (argument types), every call", "why_tests_cant": "Composition of macro, runtime, file system and CLI over all signatures and values.", "anchors": ["macro/src/lib.rs: map_method_or_fn, map_arg", "runtime/src/lib.rs: write_args, read_args", "cargo-test-fuzz/src/lib.rs: for_each_entry"]}
{"id": "C20", "title": "Argument conversion round-trips for every argument type", "statement": "For every parameter type, the type stored in the corpus, the expression that converts the argument to it and the expression that converts it back are well typed and inverse: the target receives a value of its declared type equal to the original argument (&str via String, &[T] via Vec<T>, references through owned values, at any nesting). Exceptions, each with a counterexample: a receiver with a written type (`self: Box<Self>`), `mut self` (rejected), a destructuring pattern with one variable, a `_` parameter, and a parenthesised reference type.", "quantifier": "every parameter type (any nesting of references, slices, str, paths), every conversion table, every value", "why_tests_cant": "Types nest without bound.", "anchors": ["macro/src/lib.rs: map_arg, map_typed_arg, map_path_arg, map_ref_arg"]}
{"id": "C21", "title": "A `convert` option that matches no argument is rejected", "statement": "Macro expansion succeeds only if every conversion applies to at least one argument, at the position where its type is matched; a later conversion for the same type replaces an earlier one; arguments carrying attributes are never converted. The README's statement that converting X also converts arguments of type &X is false when X is a path (counterexample).", "quantifier": "every conversion table and every argument list", "why_tests_cant": "All combinations.", "anchors": ["macro/src/lib.rs: map_method_or_fn (conversions), map_typed_arg, map_arg"]}
{"id": "C22", "title": "Generated field names are distinct unless the user writes one of the generated names", "statement": "Names generated for anonymous arguments and phantom fields are pairwise distinct for fewer than 2^32 generated names, whatever the interleaving of expansions; they can clash with a user's argument only if that argument is called `_` followed by digits. Both limits are real (counterexamples). In the debug output the receiver is called `self`, a parameter by its name, and one without a name by the generated name of its field.", "quantifier": "every number of expansions, every interleaving, every argument list", "why_tests_cant": "Process-wide counter shared by all expansions.", "anchors": ["macro/src/lib.rs: anonymous_ident, type_generic_phantom_idents_and_types, map_arg", "macro/src/pat_utils.rs"]}
{"id": "C23", "title": "Generated module names follow the documented rule; collisions are characterised", "statement": "The generated module is `NAME_fuzz__` with rename, `TYPE_target_fuzz__` in an impl of a path type, and `target_fuzz__` otherwise; two targets of one scope get the same module exactly when these stems are equal (so a free function `Foo_bar` collides with `bar` in `impl Foo`, and so do methods of the same name of two traits implemented for one type). The target is listed by cargo test-fuzz under its scope and stem, and its directories are those the instrumented function writes to.", "quantifier": "every pair of targets", "why_tests_cant": "All identifiers.", "anchors": ["macro/src/lib.rs: mod_ident", "macro/src/type_utils.rs: type_base"]}
{"id": "C24", "title": "test_fuzz_impl changes only attributed functions", "statement": "Expanding an impl block keeps every item without a test_fuzz attribute unchanged and in order, adds exactly one module per attributed function in order, removes exactly that attribute and the attributes of the parameters, and warns exactly when there is none. Of several test_fuzz attributes only the first is removed (counterexample to the general form).", "quantifier": "every impl block", "why_tests_cant": "All item lists.", "anchors": ["macro/src/lib.rs: test_fuzz_impl, map_impl_items, map_impl_item_fn, is_test_fuzz"]}
{"id": "C25", "title": "Turbofish insertion is sound and complete", "statement": "Converting a type or path to expression position inserts `::` immediately before generic-argument lists and changes nothing else: deleting the inserted tokens gives the original, every occurrence of an argument list present when that list is visited is preceded by `::` in the end, and `a::b::Foo<..>` becomes `a::b::Foo::<..>`. The general form fails in three ways, each shown by a counterexample: a list changed by an earlier insertion is missed (`A<u8>::B<C<u8>>`), a list already written with `::` gets a second one, and equal tokens that are no argument list get one too (`<T>::Foo<T>`).", "quantifier": "every token sequence and every set of argument lists", "why_tests_cant": "All types.", "anchors": ["macro/src/type_utils.rs: TurbofishVisitor, path_as_turbofish, type_as_turbofish"]}
{"id": "C26", "title": "Self expansion eliminates Self", "statement": "After expansion of an argument or return type, `Self` no longer occurs as a type or as the head of an associated-type path (given the self type itself has none), every `Self` became the self type, `Self::A` became `<SelfTy as Trait>::A`, and types without Self are unchanged; `Self::A` in an inherent impl is rejected. Exceptions, each with a counterexample: `Self` inside the generic arguments of an associated type, and `Self` in an array length, are left.", "quantifier": "every type", "why_tests_cant": "Types nest without bound.", "anchors": ["macro/src/type_utils.rs: expand_self, match_type_path"]}
{"id": "C27", "title": "Generic arguments are matched to parameters from the right and lifetimes are completed", "statement": "impl_generic_args are assigned to the last parameters of the impl, in order; more arguments than parameters is rejected; lifetime parameters without an argument are filled with 'static so that the number of lifetime arguments equals the number of lifetime parameters. The completed list has its lifetimes first exactly when nothing was missing or only lifetimes were given (counterexample otherwise), and constant arguments of the impl are not substituted (counterexample). If a name whose argument is not a type occurs as a type, expansion panics.", "quantifier": "every parameter and argument list", "why_tests_cant": "All lists.", "anchors": ["macro/src/lib.rs: generic_params_map, map_method_or_fn (combined_generic_args_with_dummy_lifetimes), combine_options, combine_generics"]}
{"id": "C28", "title": "The harness is inert in an ordinary `cargo test`", "statement": "With TEST_FUZZ unset or 0, the generated entry test reads no input, calls no target, writes nothing but the one-time warning, and passes (if stderr can be written to, C119).", "quantifier": "every environment, every standard input, every target", "why_tests_cant": "All environments and inputs.", "anchors": ["macro/src/lib.rs: map_method_or_fn (entry)", "runtime/src/lib.rs: enabled, warn_if_test_fuzz_not_enabled"]}
{"id": "C29", "title": "Displaying never runs the target", "statement": "With display enabled and neither coverage nor replay, the harness decodes and prints the arguments and never calls the target.", "quantifier": "every environment, every input, every target", "why_tests_cant": "All inputs.", "anchors": ["macro/src/lib.rs: map_method_or_fn (entry)"]}
{"id": "C30", "title": "Fuzzing, replay and coverage call the target exactly once per decodable input and never otherwise", "statement": "In fuzzing, replay and coverage modes the target is called exactly once with the decoded arguments if the input decodes, and not at all (without failing) if it does not; a panicking target aborts the process in fuzzing mode only.", "quantifier": "every environment, every input, every target", "why_tests_cant": "All inputs.", "anchors": ["macro/src/lib.rs: map_method_or_fn (entry, call_in_environment_with_deserialized_arguments)"]}
{"id": "C31", "title": "Instrumentation is transparent and records before the call", "statement": "An instrumented function returns what the original returns on the same arguments, and in a test build with TEST_FUZZ disabled it has recorded its generic arguments and (unless only_generic_args) its arguments before its body runs, even if the body panics.", "quantifier": "every target, every argument, every environment", "why_tests_cant": "All calls.", "anchors": ["macro/src/lib.rs: map_method_or_fn (write_generic_args_and_args)"]}
{"id": "C32", "title": "Recording in production is off unless explicitly enabled", "statement": "Outside test builds nothing is recorded unless enable_in_production was given and TEST_FUZZ_WRITE is set to something other than 0; in test builds recording does not depend on TEST_FUZZ_WRITE.", "quantifier": "every environment and option combination", "why_tests_cant": "All environments.", "anchors": ["macro/src/lib.rs: map_method_or_fn (in_production_write_generic_args_and_args)", "runtime/src/lib.rs: write_enabled"]}
{"id": "C33", "title": "cargo test-fuzz never records while fuzzing, displaying or replaying", "statement": "Every harness process that cargo test-fuzz starts for fuzzing, display, replay or coverage runs with recording disabled, in test and production instrumentation alike, whatever the user's environment.", "quantifier": "every inherited environment, every option set", "why_tests_cant": "All environments.", "anchors": ["cargo-test-fuzz/src/lib.rs: BASE_ENVS, fuzz_command, for_each_entry", "runtime/src/lib.rs: enabled"]}
{"id": "C34", "title": "The harness runs in the mode the user asked for", "statement": "If the inherited environment sets none of TEST_FUZZ_COVERAGE, TEST_FUZZ_DISPLAY, TEST_FUZZ_REPLAY, each harness process runs exactly in the modes given on the command line; an inherited TEST_FUZZ_DISPLAY, say, silently turns fuzzing into displaying.", "quantifier": "every inherited environment, every option set", "why_tests_cant": "All environments.", "anchors": ["cargo-test-fuzz/src/lib.rs: for_each_entry, fuzz_command", "macro/src/lib.rs: entry"]}
{"id": "C35", "title": "The not-enabled warning is printed at most once per process", "statement": "However many harness tests run concurrently in one test process, the warning is printed exactly once if TEST_FUZZ is disabled when the first one checks and never otherwise.", "quantifier": "every number of threads and every interleaving", "why_tests_cant": "Interleavings.", "anchors": ["runtime/src/lib.rs: warn_if_test_fuzz_not_enabled"]}
{"id": "C36", "title": "Auto-generation uses every auto-generated value", "statement": "If every argument type has at least one auto-generated value, then each auto-generated value of each argument occurs in at least one generated corpus entry, and every entry uses only auto-generated values.", "quantifier": "every number of arguments, every list of values per argument", "why_tests_cant": "All arities and lengths.", "anchors": ["macro/src/lib.rs: args_from_autos"]}
{"id": "C37", "title": "Auto-generation produces exactly as many entries as the longest value list", "statement": "The number of generated entries is the maximum number of values over the arguments, zero if some argument has none, and one for a function without arguments; it never indexes out of bounds.", "quantifier": "every number of arguments, every list of values per argument", "why_tests_cant": "All arities and lengths.", "anchors": ["macro/src/lib.rs: args_from_autos"]}
{"id": "C38", "title": "Auto-generated integers are the documented ones and never overflow", "statement": "For every integer type the auto-generated values are min, max, default, max-1, the two middle values and min+1 as documented, computed without overflow and in range, and the middle values are adjacent and split the range.", "quantifier": "every signed and unsigned bit width", "why_tests_cant": "Arithmetic over all widths.", "anchors": ["runtime/src/traits.rs", "runtime/src/lib.rs: auto!"]}
{"id": "C39", "title": "Auto-generation of corpora attempts every target and reports every failure", "statement": "Before fuzzing, auto-generation is attempted for exactly the targets without a corpus directory, for all of them even if some fail; fuzzing proceeds only if every target has a corpus directory; each attempt and success is announced, and the error has a line for each failing target that names its corpus directory or the failed command, from which executable and target can be read off: each word in quotation marks, every byte as itself, with a backslash, or by its hexadecimal digits.", "quantifier": "every set of targets, every outcome of each attempt", "why_tests_cant": "All outcome combinations.", "anchors": ["cargo-test-fuzz/src/lib.rs: auto_generate_corpora, auto_generate_corpus"]}
{"id": "C40", "title": "Version compatibility check is symmetric and exact for releases", "statement": "For release versions, an executable is accepted if and only if its dependency version and the installed tool's version agree in the leftmost non-zero component and everything before it (semver compatibility), regardless of which is newer; a missing dependency is an error; a prerelease tool is never rejected.", "quantifier": "every pair of versions", "why_tests_cant": "All versions.", "anchors": ["cargo-test-fuzz/src/lib.rs: check_dependency_version, as_version_req, check_test_fuzz_and_afl_versions"]}
{"id": "C41", "title": "The upgrade warning means what it says for releases", "statement": "For accepted release versions the upgrade hint is printed exactly when the dependency is newer than the tool; for a prerelease tool the hint can be printed although the dependency is older.", "quantifier": "every pair of versions", "why_tests_cant": "All versions.", "anchors": ["cargo-test-fuzz/src/lib.rs: check_dependency_version"]}
{"id": "C42", "title": "One invocation performs one kind of action", "statement": "For every combination of options, cargo test-fuzz performs exactly one of: reject, list, build only, consolidate-and-reset, reset, coverage/display/replay, fuzz; invalid coverage and replay objects are rejected, by the name they have on the command line, before anything is built; list and no-run change no data.", "quantifier": "every combination of options", "why_tests_cant": "Exponentially many combinations.", "anchors": ["cargo-test-fuzz/src/lib.rs: run_without_exit_code"]}
{"id": "C43", "title": "Instrumentation choice is consistent", "statement": "Coverage instrumentation and fuzzing instrumentation are never requested together, so the target directory computation never fails; fuzzing always uses the fuzzing-instrumented build and directory; display and replay use it exactly for the -instrumented objects.", "quantifier": "every combination of options", "why_tests_cant": "All combinations.", "anchors": ["cargo-test-fuzz/src/lib.rs: include_coverage_instrumentation, include_fuzzing_instrumentation, target_directory, build", "internal/src/dirs.rs: target_directory"]}
{"id": "C44", "title": "Exit codes mean what the documentation says", "statement": "With --exit-code the process exits 2 exactly when an error occurs, 1 exactly when a target stopped programmatically without reaching its time limit, and 0 otherwise; without it, an error is returned to the caller.", "quantifier": "every history of child outputs and exit statuses", "why_tests_cant": "All histories.", "anchors": ["cargo-test-fuzz/src/lib.rs: run, fuzz"]}
{"id": "C45", "title": "The fuzzer command line is well-formed", "statement": "The fuzzer is always given the target's own output directory, the corpus directory on a first run and `-` when resuming, the time slice when cpus are insufficient and otherwise the total time, the timeout in milliseconds, the user's extra arguments, and then after `--` exactly the executable and the exact entry test; a timeout above u64::MAX/1000 overflows.", "quantifier": "every option set, executable and target", "why_tests_cant": "All option sets.", "anchors": ["cargo-test-fuzz/src/lib.rs: fuzz_command"]}
{"id": "C46", "title": "Consolidation never loses a finding", "statement": "After a successful --consolidate, the contents of every crash, hang and queue file (README.txt and .state excepted) are in the corpus (absent SHA-1 collisions), previous corpus entries (files named by their contents) are kept, nothing else gets into the corpus, and only then is the output removed (so that the project's test, which consolidates beside one recording, passes exactly if the fuzzer had found something else); at every intermediate point each finding is still in the output or already in the corpus. With --reset-all as well, --consolidate is ignored and the findings are lost (counterexample).", "quantifier": "every file system, every listing order, every crash point", "why_tests_cant": "All file systems and crash points.", "anchors": ["cargo-test-fuzz/src/lib.rs: consolidate, reset, run_without_exit_code", "cargo-test-fuzz/tests/integration/consolidate.rs: consolidate"]}
{"id": "C47", "title": "A failed consolidation deletes nothing", "statement": "If consolidation fails (for instance because a target was never fuzzed and its output directory is missing), nothing is removed from any output directory and no existing corpus entry is lost, except that a write failing half-way can truncate an entry (counterexample), whose data is then still in an output directory.", "quantifier": "every file system, every failure point", "why_tests_cant": "All failures.", "anchors": ["cargo-test-fuzz/src/lib.rs: consolidate, run_without_exit_code"]}
{"id": "C48", "title": "Reset removes exactly the selected targets' fuzzing data", "statement": "After --reset or --reset-all the output directories of the selected targets are gone and every other path, in particular every corpus and every other target's output, is unchanged; a missing output directory is not an error.", "quantifier": "every file system, every selection", "why_tests_cant": "All file systems.", "anchors": ["cargo-test-fuzz/src/lib.rs: reset"]}
{"id": "C49", "title": "--consolidate-all with several targets consolidates and then crashes", "statement": "Documentation says --consolidate-all moves all targets' findings to their corpora; the code consolidates but then, unless --reset-all is also given or there is exactly one target, hits a failed assertion instead of clearing the output.", "quantifier": "every selection of targets", "why_tests_cant": "No test runs --consolidate-all.", "anchors": ["cargo-test-fuzz/src/lib.rs: run_without_exit_code, reset"]}
{"id": "C50", "title": "Display, replay and coverage show every entry exactly once", "statement": "Every file of the chosen directory except README.txt and .state is processed exactly once and reported by its name in listing order, every report of a harness and of a nonempty raw file ends with a newline (that of an empty raw file does not), and raw objects start no process.", "quantifier": "every directory listing, every process outcome", "why_tests_cant": "All directories and outcomes.", "anchors": ["cargo-test-fuzz/src/lib.rs: for_each_entry"]}
{"id": "C51", "title": "Summary messages of display and replay are accurate", "statement": "`Nothing to ...` is printed exactly when there is no entry, `No output on stderr detected` exactly when there are entries but no output, failure or timeout, and the buggy-Debug hint exactly when there was a failure or timeout and neither coverage nor replay; individual failures never make the command fail; the internal assertion never fails.", "quantifier": "every sequence of process outcomes", "why_tests_cant": "All outcome sequences.", "anchors": ["cargo-test-fuzz/src/lib.rs: for_each_entry, present_participle"]}
{"id": "C52", "title": "At most the permitted number of fuzzers run, and never two for one target", "statement": "At every moment of a parallel fuzzing session at most min(--cpus, available) fuzzers run, never two of them for one target, and the internal count equals the number of running fuzzers.", "quantifier": "every number of targets and cpus, every history of child events", "why_tests_cant": "All schedules.", "anchors": ["cargo-test-fuzz/src/lib.rs: fuzz"]}
{"id": "C53", "title": "The parallel fuzzing loop never hits an internal assertion", "statement": "With at least one cpu, and target names of ASCII characters if the terminal display is used, for every history in which the poller reports only registered children, and each at most once per batch, no assertion, index, or missing-child panic of the parallel fuzzing loop can occur.", "quantifier": "every history of child events", "why_tests_cant": "All schedules.", "anchors": ["cargo-test-fuzz/src/lib.rs: fuzz"]}
{"id": "C54", "title": "Failed targets are not restarted and do not stop the others", "statement": "A target whose fuzzer exited unsuccessfully (or without the programmatic-abort marker) is never started again; the session keeps serving the other targets; when all targets have failed the session ends with an error.", "quantifier": "every history of child events", "why_tests_cant": "All schedules.", "anchors": ["cargo-test-fuzz/src/lib.rs: fuzz (failed_targets)"]}
{"id": "C55", "title": "A target's first run uses its corpus and later runs resume", "statement": "In a session without --resume, a fuzzer start uses the corpus directory if and only if it is that target's first start of the session, and otherwise resumes.", "quantifier": "every history of child events", "why_tests_cant": "All schedules.", "anchors": ["cargo-test-fuzz/src/lib.rs: fuzz (first_run), fuzz_command"]}
{"id": "C56", "title": "Time-sliced fuzzing is round-robin fair", "statement": "With fewer cpus than targets, fuzzers are started in cyclic target order, skipping only targets that have failed or are still running; hence no target is started twice while another eligible target has not been started in between.", "quantifier": "every history of child events", "why_tests_cant": "All schedules.", "anchors": ["cargo-test-fuzz/src/lib.rs: fuzz (i_task, cycle)"]}
{"id": "C57", "title": "Time-sliced fuzzing always makes progress while enough targets are healthy; otherwise it spins forever", "statement": "While at least as many non-failed targets as permitted fuzzers remain, the scheduler reaches its waiting point after at most one pass over the targets; once every non-failed target is already running and a permitted slot is free, the scheduler loops forever without waiting for or reading from any child.", "quantifier": "every reachable scheduler state", "why_tests_cant": "Needs two failing targets and a specific timing.", "anchors": ["cargo-test-fuzz/src/lib.rs: fuzz (loop)"]}
{"id": "C58", "title": "With enough cpus every target is fuzzed exactly once and the session ends when all are done", "statement": "With at least as many cpus as targets, every target is started exactly once, no assertion fails, and the session ends exactly when every fuzzer has ended (with an error if and only if all failed).", "quantifier": "every history of child events", "why_tests_cant": "All schedules.", "anchors": ["cargo-test-fuzz/src/lib.rs: fuzz"]}
{"id": "C59", "title": "Output handling does not depend on how output is chunked", "statement": "Whatever way a child's output is split into reads, the complete lines shown and scanned are exactly the complete lines of the whole output, in order, each once; an incomplete last line is held back; invalid UTF-8 in a complete line is reported as an error.", "quantifier": "every byte stream and every chunking", "why_tests_cant": "Chunk boundaries depend on timing.", "anchors": ["cargo-test-fuzz/src/lib.rs: Child::read_lines, fuzz"]}
{"id": "C60", "title": "Time-limit and abort markers are recognised wherever they occur in a complete line", "statement": "A child counts as having reached its time limit (having been aborted programmatically) if and only if some complete line of its output contains the corresponding marker text, independent of chunking.", "quantifier": "every byte stream and every chunking", "why_tests_cant": "Chunk boundaries depend on timing.", "anchors": ["cargo-test-fuzz/src/lib.rs: fuzz"]}
{"id": "C61", "title": "Line truncation keeps as much as fits and no more", "statement": "For text sliced only at character boundaries, truncating a line to a width returns the shortest prefix that shows width visible bytes (the whole line if it shows fewer), for any escape-sequence stripping that works as a stream.", "quantifier": "every line, every width, every streaming escape stripper", "why_tests_cant": "All lines and widths.", "anchors": ["cargo-test-fuzz/src/lib.rs: prefix_with_width"]}
{"id": "C62", "title": "Line truncation crashes on some non-ASCII lines", "statement": "There are valid UTF-8 lines for which truncation slices inside a character and panics; it never panics on ASCII lines.", "quantifier": "every line and width", "why_tests_cant": "No test prints non-ASCII text in the user interface.", "anchors": ["cargo-test-fuzz/src/lib.rs: prefix_with_width"]}
{"id": "C63", "title": "Dividers have exactly the requested width", "statement": "For plain ASCII target names a divider is exactly as wide as requested, starts with as much of the target name as fits and is filled with dashes.", "quantifier": "every target name and width", "why_tests_cant": "All names and widths.", "anchors": ["cargo-test-fuzz/src/lib.rs: divider_with_width"]}
{"id": "C64", "title": "Panels exactly fill the terminal", "statement": "For every terminal height and number of running fuzzers that fit, panel heights differ by at most one and all panels with their dividers fill all rows but the last; each panel shows the newest lines and buffers never keep more lines than are shown.", "quantifier": "every terminal size, number of children, buffer contents", "why_tests_cant": "All sizes.", "anchors": ["cargo-test-fuzz/src/lib.rs: Child::refresh"]}
{"id": "C65", "title": "Serde combinators are transparent and round-trip", "statement": "For every stack of Ref, RefMut, Mutex and RwLock combinators, serialising produces exactly what serialising the innermost value produces, and deserialising rebuilds an unlocked stack around an equal value; errors of the inner deserialiser are propagated.", "quantifier": "every stack of combinators, every inner format and value", "why_tests_cant": "Stacks nest without bound.", "anchors": ["serde_combinators/src"]}
{"id": "C66", "title": "Serialising locks never blocks", "statement": "Serialising a mutex fails exactly when it is locked or poisoned when tried, and a read-write lock exactly when it is write-locked, queued for or poisoned (that a lock merely queued for is refused is shown by a counterexample to the simpler rule); it never waits or retries, locks are tried from the outside in and released in reverse order, and afterwards the thread holds what it held before and the lock state is as before, except that a panic of the innermost serialisation poisons the mutexes (counterexample).", "quantifier": "every lock state at every level of the stack", "why_tests_cant": "Lock states depend on other threads.", "anchors": ["serde_combinators/src/mutex.rs", "serde_combinators/src/rw_lock.rs"]}
{"id": "C67", "title": "Converting a command for the subprocess library preserves it", "statement": "The converted command has the same program, arguments, working directory and the same effective environment for every inherited environment; variables added afterwards win.", "quantifier": "every command and inherited environment", "why_tests_cant": "All commands.", "anchors": ["cargo-test-fuzz/src/to_exec.rs"]}
{"id": "C68", "title": "Dependency version lookup is exact", "statement": "The versions reported for an executable are those of the first direct dependency named test-fuzz of its package, and of the first direct dependency named afl of that; a broken dependency graph is an error naming the missing package, an absent dependency is reported as absent.", "quantifier": "every dependency graph", "why_tests_cant": "All graphs.", "anchors": ["cargo-test-fuzz/src/lib.rs: test_fuzz_and_afl_versions, package_dependency, package"]}
{"id": "C69", "title": "Two runs in one process can interfere", "statement": "The directory and environment used by run depend on the first run in the process, not on its own options: after a list run, a fuzzing run in the same process builds into the uninstrumented target directory.", "quantifier": "every sequence of runs", "why_tests_cant": "Tests run one command per process.", "anchors": ["cargo-test-fuzz/src/lib.rs: LLVM_ENVS, TARGET_DIR, METADATA"]}
{"id": "C70", "title": "Values without Debug are shown by their type's name", "statement": "For every type T without Debug the placeholder shown is `<unknown of type T>` with T's full name, and producing it never panics.", "quantifier": "every type name", "why_tests_cant": "All type names, including ones mentioning TryDebug.", "anchors": ["runtime/src/lib.rs: DebugUnimplemented, TryDebug"]}
{"id": "C71", "title": "Coverage environment paths are rebased onto the coverage target directory and otherwise untouched", "statement": "Every variable reported by the coverage tool is passed on with quotes removed; a value lying under the workspace target directory is moved to the same place under the coverage target directory (the directory itself becomes the other one with a slash at the end), any other value is unchanged; a line without = is a crash. A value that itself contains a quote is not passed on as it was (counterexample).", "quantifier": "every tool output and directory", "why_tests_cant": "All outputs.", "anchors": ["cargo-test-fuzz/src/lib.rs: llvm_envs, replace_target_dir"]}
{"id": "C72", "title": "Generic arguments are recorded once per instantiation and displayed verbatim", "statement": "A recorded generic-argument list is the comma-separated type names; displaying generic args prints the recorded text of every distinct instantiation once, without starting a process, each followed by a newline except the empty text of a function without generic parameters (counterexample). The project's tests of this compare successfully precisely when the texts they expect are in increasing order and are those of the instantiations that happened.", "quantifier": "every history of instantiations", "why_tests_cant": "All histories.", "anchors": ["runtime/src/lib.rs: write_impl_generic_args, write_generic_args", "cargo-test-fuzz/src/lib.rs: flags_and_dir, for_each_entry", "cargo-test-fuzz/tests/integration/generic_args.rs: test"]}
{"id": "C73", "title": "The fuzzing plan fits the options", "statement": "A single target without --exit-code is fuzzed in the foreground; otherwise fuzzers run in parallel on min(--cpus, available) cpus (all but one by default), which must be at least one, and a total time limit is accepted only if every target gets a cpu, each refusal having its own message; no arithmetic fails on a machine with at least one cpu.", "quantifier": "every number of targets, cpu count and combination of options", "why_tests_cant": "The decision depends on the machine's cpu count, which a test cannot vary.", "anchors": ["cargo-test-fuzz/src/lib.rs: fuzz"]}
{"id": "C75", "title": "cargo-afl's version is the first word after its name, anything else stops the tool", "statement": "The version used in the compatibility check is the parse of the first whitespace-separated word after `cargo-afl ` in the output of `cargo afl --version`; any output of another form (in particular cargo-afl missing) ends the tool by a panic and never lets it continue with a made-up version. Output that names no version is answered with the advice to install cargo-afl.", "quantifier": "every output of the command and every parser", "why_tests_cant": "The installed cargo-afl always answers well; malformed answers cannot be provoked in the test environment.", "anchors": ["cargo-test-fuzz/src/lib.rs: cached_cargo_afl_version, cargo_afl_version"]}
{"id": "C76", "title": "Recorder and tool agree on the data root", "statement": "The tests that record corpora and the tool that reads them use the same data directory root whenever they look at the same workspace and agree on TEST_FUZZ_MANIFEST_PATH; the --manifest-path option alone does not achieve this (refuted: the tool then builds one workspace and looks for data in another).", "quantifier": "every workspace layout, environment and working directory", "why_tests_cant": "Tests run both sides in the same workspace.", "anchors": ["internal/src/dirs.rs: target_directory", "cargo-test-fuzz/src/lib.rs: build, metadata"]}
{"id": "C77", "title": "The build command matches the options", "statement": "The cargo command line is exactly determined by the options: `afl` first exactly if fuzzing instrumentation is wanted, --target-dir exactly if some instrumentation is wanted and then naming the directory for that instrumentation, followed by every feature, profile, manifest, package and test option given, each once and in order. What the build writes to stderr is dropped exactly if entries are to be shown and --verbose is not given.", "quantifier": "every combination of options", "why_tests_cant": "2^20 combinations of options; tests try a handful.", "anchors": ["cargo-test-fuzz/src/lib.rs: build, target_directory, include_fuzzing_instrumentation, include_coverage_instrumentation"]}
{"id": "C78", "title": "A target gets a working harness exactly if its type parameters are known", "statement": "The harness generated for a target does something exactly if only_generic_args is off and generic arguments are given for every generic impl and function; corpus auto-generation additionally needs no_auto_generate to be off; arguments are recorded exactly if only_generic_args is off, and outside of tests exactly if enable_in_production is on. In a fuzzing build, a target whose arguments are recorded but whose generic arguments are missing is rejected, so every accepted one has a harness.", "quantifier": "every combination of options, generic parameters and build configurations", "why_tests_cant": "All combinations of options with all signatures.", "anchors": ["macro/src/lib.rs: map_method_or_fn"]}
{"id": "C74", "title": "Without the display every line stands below the name of its target", "statement": "When several targets are fuzzed without the terminal display, the last target name printed above any line of fuzzer output is the target whose fuzzer wrote it; a name is printed exactly when the target changes, immediately before the line. With the display no names are interleaved.", "quantifier": "every number of targets and processors, every interleaving of output, every chunking, every failure of system calls", "why_tests_cant": "Interleaving of outputs of processes.", "anchors": ["cargo-test-fuzz/src/lib.rs: fuzz (i_target_prev), Child::print_line"]}
{"id": "C79", "title": "Started processes inherit the environment unchanged except for the documented variables", "statement": "The fuzzer's environment is cargo-test-fuzz's own (with the coverage tool's variables) except that TEST_FUZZ is 1, TEST_FUZZ_WRITE is 0, AFL_NO_UI is 1 exactly when there is no user interface and AFL_BENCH_UNTIL_CRASH is 1 exactly when --run-until-crash is given; a harness started on an entry has TEST_FUZZ, AFL_QUIET set, TEST_FUZZ_WRITE 0, and the variables for coverage, display, replay, backtrace and pretty printing set exactly when asked for, and all others as inherited.", "quantifier": "every option set, every inherited environment, every variable", "why_tests_cant": "All environments and all variables.", "anchors": ["cargo-test-fuzz/src/lib.rs: BASE_ENVS, for_each_entry, fuzz_command, command, llvm_envs", "cargo-test-fuzz/src/to_exec.rs"]}
{"id": "C80", "title": "Fuzzing misses nothing that fails when replayed; the converse fails for caught panics", "statement": "An input that passes when fuzzed makes the same calls and leaves the same state when replayed, and passes there (printing of the result aside); an input whose replay fails makes the fuzzing harness abort, and fuzzing ends in a pass or an abort only. Because the panic hook aborts where a panic is raised, a target that catches its own panics is reported as crashing although its replay passes. (Targets that install a panic hook themselves: C119.)", "quantifier": "every target (also with state, also with execute_with), every input", "why_tests_cant": "Targets that catch panics internally do not occur in the test suite.", "anchors": ["macro/src/lib.rs: map_method_or_fn (entry, set_hook)"]}
{"id": "C81", "title": "Persistent builds fuzz the inputs one by one but never show anything", "statement": "In a build with --persistent, fuzzing a target without state on a sequence of inputs is the same as fuzzing each input in its own process up to the first crash; with state it is not. Such a build never shows arguments or results: --display does nothing at all, and replaying aborts the process on a panic instead of failing the test.", "quantifier": "every target, environment and sequence of inputs", "why_tests_cant": "The tests combine --persistent with fuzzing only.", "anchors": ["macro/src/lib.rs: map_method_or_fn (input_args, output_args, call_in_environment_with_deserialized_arguments, output_ret)"]}
{"id": "C82", "title": "execute_with runs the target only inside and only on decoded arguments", "statement": "Whatever the function given as execute_with does with the closure, and in whatever mode, the target is called only with arguments some input decodes to; a function that just calls the closure is the same as no execute_with; one that does not call it means the target is never called.", "quantifier": "every function given as execute_with, every mode and input", "why_tests_cant": "The function is arbitrary user code.", "anchors": ["macro/src/lib.rs: map_method_or_fn (call_in_environment)"]}
{"id": "C83", "title": "dont_care! loses exactly the values it is applied to", "statement": "A value containing values of dont_care! types at any depth comes back from the recorded bytes with exactly those replaced by the given expression's value and nothing else changed; two values are recorded identically exactly if they differ in such values only; such values take no room.", "quantifier": "every type built from structs, vectors and options, every value, both formats", "why_tests_cant": "All types and values.", "anchors": ["test-fuzz/src/utils.rs: dont_care!"]}
{"id": "C84", "title": "leak! and serde_ref preserve what references refer to", "statement": "With leak!(T, W) and convert = \"&T, W\" every argument of type &T comes back as a reference to an equal value, exactly if T's ToOwned implementation is lawful; serde_ref and serde_ref_mut store exactly what the reference refers to and give back a reference to it, passing errors on.", "quantifier": "every type with ToOwned, every value and serializer", "why_tests_cant": "All types and values.", "anchors": ["test-fuzz/src/utils.rs: leak!, serialize_ref, deserialize_ref, serialize_ref_mut, deserialize_ref_mut", "test-fuzz/src/convert.rs: FromRef"]}
{"id": "C85", "title": "The command line is read exactly as documented", "statement": "cargo test-fuzz ARGS runs with options o exactly if ARGS, up to the first --, are flags, options with valid values and at most one target in one of the documented spellings, none but --features repeated, and o has exactly the flags given, the values the arguments denote (slice 1200 if not given), the features in order, the target, and everything after the first -- verbatim for the fuzzer. The order of the arguments and the spelling do not matter; --no-instrumentation has no effect; no combination of flags is refused by the parser.", "quantifier": "every sequence of arguments, every set of options", "why_tests_cant": "All argument sequences.", "anchors": ["cargo-test-fuzz/src/bin/cargo_test_fuzz/transition.rs: TestFuzzWithDeprecations, From<TestFuzzWithDeprecations> for TestFuzz, cargo_test_fuzz", "cargo-test-fuzz/src/bin/cargo_test_fuzz/main.rs: main"]}
{"id": "C86", "title": "Args stores each argument in its documented form and the harness calls the attributed function", "statement": "The generated Args struct has one field per argument, in order, of the type stored for it (the conversion's target; String for &str, Vec<T> for &[T]; what is behind other references; otherwise the type itself; the type itself if the argument carries attributes), followed by one PhantomData marker per type and lifetime parameter of the impl and the function. The harness calls `super::f`, `SelfTy::f` or `<SelfTy as Trait>::f` with the given generic arguments, and passes the arguments rebuilt from the fields in order. In the trait's path, parameters are replaced in the arguments of segments only.", "quantifier": "for every function, impl header, option list and counter state for which expansion succeeds", "why_tests_cant": "There are unboundedly many signatures, nested types, generic parameter lists and option combinations; the test suite expands a few dozen.", "anchors": ["macro/src/lib.rs:376-470", "macro/src/lib.rs:575-612", "macro/src/lib.rs:840-1010", "macro/src/lib.rs:1107-1129"]}
{"id": "C87", "title": "Auto-generated values of any type are those of the documented table", "statement": "For a type implementing any subset of Bounded, Default, One, Add, Sub and Div, with arbitrary operations, the values auto! generates are exactly those of the table in the README. Corpus entries are generated for a target exactly if each argument type implements Bounded or Default, and then every value of the table appears in some entry and every entry consists of such values. If no operation panics, generation does not.", "quantifier": "for every type, given by the traits it implements and what their operations do, and every list of argument types", "why_tests_cant": "Any user type may be an argument type; which of the vectors apply depends on trait resolution for each subset of traits.", "anchors": ["runtime/src/lib.rs:62-118", "runtime/src/traits.rs", "macro/src/lib.rs:446-454", "macro/src/lib.rs:1136-1166", "README.md:463-476"]}
{"id": "C88", "title": "Names of a signature keep their meaning in the generated code, unless they collide with its own", "statement": "A path in a type of the signature denotes, at the places where the macro repeats it in the generated module, the same entity as in the signature, for every surrounding program, exactly if it is an external or crate path, a generic parameter, or a path that neither starts with one of the names the macro defines at that place (Args, UsingReader, HasRetTy; Auto, AutoFallback; Ret) nor goes up through super. The generic parameters declared by the generated items agree with the original ones, do not clash, and are given completely exactly if there is no constant parameter and no type parameter is called R. The values recorded are those of the parameters if no parameter is called generic_args or impl_generic_args; otherwise this fails. Args, super::Foo and generic_args are proved counterexamples.", "quantifier": "for every type, module tree, parameter list and position", "why_tests_cant": "A test shows one program; the claim quantifies over all programs around the target and all names, and the failures occur for particular names only.", "anchors": ["macro/src/lib.rs:446-453", "macro/src/lib.rs:478-530", "macro/src/lib.rs:634-708", "macro/src/lib.rs:788-802", "runtime/src/lib.rs:67-118"]}
{"id": "C89", "title": "Every fuzzer an invocation starts runs the documented command on a selected target", "statement": "Whenever a run of cargo test-fuzz starts a fuzzer, in the foreground or in the parallel loop, it is for one of the targets reached (found in a built executable and selected), its output directory and its corpus are that target's, the corpus is given as input exactly the first time that target is started in the session and never with --resume (otherwise the fuzzer resumes), the time limit is the slice if there are fewer cpus than targets and the total time otherwise, the hang limit is the timeout in milliseconds, and the user's arguments are passed on.", "quantifier": "for every world (cargo, executables, file system, outcome of every process, schedule of events), all options with a representable timeout, every start in the session", "why_tests_cant": "The command of the n-th start depends on the whole history of the session; a test observes a few starts of one schedule.", "anchors": ["cargo-test-fuzz/src/lib.rs:1205-1481", "cargo-test-fuzz/src/lib.rs:265-421"]}
{"id": "C90", "title": "Options of the attribute are read exactly", "statement": "A list of options of #[test_fuzz(...)] or #[test_fuzz_impl] methods is accepted if and only if every item is one of the documented options with a value of its type and no option but convert is given twice; otherwise the expansion stops. An accepted list gives every option the value given for it and otherwise its default, with the convert options in order. Methods and functions read the attribute alike, with and without arguments; options given as #[test_fuzz = ...] on a method are silently ignored.", "quantifier": "for all lists of options in every order, all predicates deciding which strings are identifiers, all parsers of types and generic arguments", "why_tests_cant": "Tests use a few combinations of options; unknown, repeated, mistyped and reordered options can occur in any combination.", "anchors": ["macro/src/lib.rs:175-197", "macro/src/lib.rs:272-290"]}
{"id": "C91", "title": "The harness instantiates generic parameters in one way throughout", "statement": "Whenever the arguments given with impl_generic_args and generic_args are complete for the compiler, every type parameter of the impl stands for the same type in Args and in the type whose method is called, every parameter of the function stands for the same argument in Args and in the call, and the arguments for the type of the result are the ones given, completed with one 'static for each missing lifetime (too many lifetimes are refused), so that none of them changes. The type names recorded for display are those of the type parameters in order. With types given for the impl and lifetimes for the function, the combined list is out of order (counterexample).", "quantifier": "for all generic impls and functions, all argument lists", "why_tests_cant": "Tests instantiate a few generic functions with one or two parameters; a wrong pairing shows only with several parameters of compatible types.", "anchors": ["macro/src/lib.rs:321-340", "macro/src/lib.rs:370-396", "macro/src/lib.rs:1050-1076"]}
{"id": "C92", "title": "Generated items demand what the signature demands and no more", "statement": "The generated functions and implementations declare the generic parameters of impl and function, lifetimes first, and demand exactly the bounds and where predicates of both; reading additionally demands DeserializeOwned of every type parameter and of nothing else; the Args structures demand exactly the predicates of the bounds option.", "quantifier": "for all generic impls and functions with any bounds and where clauses, all bounds options", "why_tests_cant": "A missing or superfluous bound shows only for signatures whose parameters distinguish them.", "anchors": ["macro/src/lib.rs:334-349", "macro/src/lib.rs:657-709", "macro/src/lib.rs:1064-1105"]}
{"id": "C93", "title": "What a build records it can decode, whichever formats its features select", "statement": "Every selection of the features serde_bincode and serde_postcard compiles to one format, used for writing and for reading alike: bincode exactly if its feature is enabled, otherwise postcard. Arguments recorded by a build decode, in a build with the same features, to themselves (up to the limits of C17 and C18). as_feature names the feature of that format, or panics if both are enabled. When a build later gains the feature serde_bincode, earlier recordings decode silently to different arguments (counterexample).", "quantifier": "for all feature selections, types, values and trailing bytes", "why_tests_cant": "Tests run with one selection of features.", "anchors": ["internal/src/serde_format.rs:15-79", "internal/build.rs:1-4"]}
{"id": "C94", "title": "retry stops at the first success and reports the last error", "statement": "retry calls the operation until its first success and at most n times; its result is that success, or the error of the n-th call; all earlier errors are logged as warnings, in order; the unreachable! is never reached, and n = 0 is rejected.", "quantifier": "for all n and all sequences of results", "why_tests_cant": "The outcomes of flaky operations cannot be enumerated.", "anchors": ["testing/src/retry.rs:4-30"]}
{"id": "C95", "title": "Logging an expansion is switched on exactly as documented and does not change it", "statement": "The expansion is printed exactly if the macro was compiled with TEST_FUZZ_LOG set to 1 or to the name of the crate being compiled; it is the same whether it is printed or not; the macro stops only if it is to be printed and does not parse, or if a name was given and the crate has none.", "quantifier": "for all values of the variables and all expansions", "why_tests_cant": "Tests set the variable for one crate.", "anchors": ["macro/src/lib.rs:43-44", "macro/src/lib.rs:1191-1201"]}
{"id": "C96", "title": "Headings name the targets shown", "statement": "When several targets are displayed, replayed or measured, each is directly preceded by the heading with its name, as wide as the terminal (three dashes if the width is unknown); a single target has none, and there are no other headings. A name outside ASCII on a terminal no wider than the name can make the run panic.", "quantifier": "every world, options and file system; every terminal width", "why_tests_cant": "All terminals, names and selections.", "anchors": ["cargo-test-fuzz/src/lib.rs: run_without_exit_code", "cargo-test-fuzz/src/lib.rs: divider_with_width"]}
{"id": "C97", "title": "A failed build is reported completely and ends the run", "statement": "If the build fails, all of the compiler's messages are printed in order, nothing else happens, no file changes, and the status is 1, or 2 with --exit-code; compiler messages are printed in no other case.", "quantifier": "every world, options and file system", "why_tests_cant": "All message streams and options.", "anchors": ["cargo-test-fuzz/src/lib.rs: build"]}
{"id": "C98", "title": "Warnings tell which fuzzers failed and what they last printed", "statement": "The parallel loop prints one warning for every end of a fuzzer that marks its target as failed, in order, naming the target; a failed fuzzer's warning quotes the lines printed since the screen was last drawn and the newest ones before, and none without a screen. That the warning shows everything the fuzzer printed is refuted.", "quantifier": "every session of the parallel loop, every terminal size", "why_tests_cant": "All interleavings of fuzzer output and redraws.", "anchors": ["cargo-test-fuzz/src/lib.rs: fuzz", "cargo-test-fuzz/src/lib.rs: refresh"]}
{"id": "C99", "title": "The time limit of displaying and replaying", "statement": "A harness that keeps its error output open until it exits is shown completely if it exits within the limit and is otherwise stopped at the limit and shown with what it had written; so n entries take at most n times the limit. The tool waits for ever exactly for a harness that closes its error output in time and never exits; a harness whose descendants keep its error output open is shown as a timeout although it exited.", "quantifier": "every process behaviour and limit", "why_tests_cant": "Processes that close or leak descriptors are rare in tests.", "anchors": ["cargo-test-fuzz/src/lib.rs: for_each_entry"]}
{"id": "C100", "title": "Errors have a reported cause and no failure is ignored", "statement": "An invocation that reports an error does so because the last thing it did failed (its build, the listing of an executable, consolidating, resetting, cleaning, showing an entry, the coverage report, generating a corpus, fuzzing) or because it is refused (an invalid object, an unfit version, no target, no cpu, a total time with too few cpus, an unknown lcov.info), and the report says which; the status is 2 with --exit-code and otherwise 1. Without a report the status is not 2, and 1 only for a finding under --exit-code. An invocation that succeeds has done nothing that failed.", "quantifier": "every world, options, file system and session", "why_tests_cant": "An error passed over or mislabelled shows up only when exactly that operation fails at that moment; tests provoke a handful of the dozens of failures.", "anchors": ["cargo-test-fuzz/src/lib.rs: run, run_without_exit_code"]}
{"id": "C101", "title": "Nothing recorded or found is lost in the course of time", "statement": "Over any sequence of recordings, fuzzing sessions and invocations of the tool (listing, consolidating, resetting, replaying, displaying, fuzzing, whether they succeed or fail): what is in the corpus of a target stays there under the digest of its contents; in particular what a test has recorded, and what a fuzzer had found in crashes, hangs or queue when a consolidation of that target succeeded. A successful replay of the corpus starts the harness exactly once on it. Conversely every file of a corpus directory was there at first or was put there by a recording, by a consolidation of a finding, or by generation for a target whose corpus was missing; and the fuzzers' output of a target is changed only by its fuzzers and by resetting it.", "quantifier": "for all initial file systems, all finite sequences of events (recorders, fuzzers, invocations with any options, any executables, any answers of the operating system that are not lies), all targets, all contents without a digest collision among the files of the sequence", "why_tests_cant": "A test runs one or two steps from an empty directory; the guarantee is about every interleaving of tests, sessions and invocations, including those that fail half-way.", "anchors": ["runtime/src/lib.rs:171-197", "cargo-test-fuzz/src/lib.rs:265-421", "cargo-test-fuzz/src/lib.rs:730-830", "cargo-test-fuzz/src/lib.rs:1483-1526", "internal/src/dirs.rs:12-83"]}
{"id": "C102", "title": "Consolidating is safe while tests record, fuzzers run and other invocations consolidate", "statement": "Consider the system calls of any number of consolidating invocations interleaved in any way with each other, with those of recording tests (of which any may fail or be killed at any moment) and with running fuzzers. At every moment a finding that no fuzzer changes meanwhile, of a target that no invocation resets without consolidating, either is where it was found or has been completely recorded to the corpus of its target, and the latter if an invocation consolidating the target has returned success; so if any invocations are killed at any moment the finding is not lost. When the recorders are done, every such finding is in the corpus, what the tests recorded is intact, and what was in the corpus before is intact. On the other hand, what a fuzzer finds after its directory has been listed is removed without having been copied, although the tool returns success (refuted). Alone, an invocation does what the sequential model says.", "quantifier": "all target directories, all lists of invocations with any namespaces, options and selected targets, all file systems, all interleavings of system calls (schedules) with all chunkings of writes, all failures, all kill points, all answers of read_dir allowed by POSIX, all actions of fuzzers on their output directories", "why_tests_cant": "Tests consolidate a quiescent directory with one invocation; races between listing, copying and removing depend on schedules that tests do not control.", "anchors": ["cargo-test-fuzz/src/lib.rs:332-344", "cargo-test-fuzz/src/lib.rs:767-808", "cargo-test-fuzz/src/lib.rs:810-831", "runtime/src/lib.rs:189-197"]}
{"id": "C103", "title": "Namespaces whose names contain slashes", "statement": "Directory names are built with PathBuf::join from TEST_FUZZ_ID as it is. Without slashes in it, the place that the operating system finds for every such text is the one of the component model (so C07 to C10 hold for the real texts). With slashes, the first piece of the id ends the name of the kind's directory and the others are directories below it. No piece being `..`, everything stays below the target directory; and ids whose pieces after the first are plain names without colons never share anything with other ids, kinds, crates or targets. Both fail in general: an id with `..` leads out of the target directory; different ids can mean the same namespace; one id can put generic arguments and corpus of all targets into the corpus without id; and resetting a target in one namespace can delete the crashes found in another, e.g. `ci` and `ci/c::f`.", "quantifier": "every target directory, id, kind of data, crate, target, type name; all texts joined", "why_tests_cant": "The texts of ids are unbounded; that paths never overlap is a statement about all pairs of them.", "anchors": ["internal/src/dirs.rs: path_segment, maybe_id, corpus_directory, output_directory and the others"]}
{"id": "C104", "title": "A half-written recording is never replayed as another call", "statement": "Whatever a harness has read of a corpus file that a recorder is still writing, or that a killed recorder left behind, is a beginning of the recorded bytes, for every interleaving of its reads with the writes, if a single recorder makes the file or no write is split. A reader of a finished recording gets all of it. A proper beginning of a serialised value decodes to nothing if reading past the end is an error (bincode, and postcard so configured), so the harness calls the target with the recorded arguments or not at all. Refuted if the end of the input reads as zeros (then what decodes is what some number of appended zeros make of it), and for two recorders of the same bytes whose writes are split.", "quantifier": "all file systems, sets of recorders, schedules of recorder steps, failures, kills and reads of any size; all types, values and prefixes; all harness modes", "why_tests_cant": "Depends on the interleaving of system calls of two processes and on every way to cut every value of every type", "anchors": ["internal/src/dirs.rs", "runtime/src/lib.rs:175-201", "cargo-test-fuzz/src/lib.rs:915-940", "internal/src/serde_format.rs:34-79"]}
{"id": "C105", "title": "An invocation crashes only for known reasons", "statement": "An invocation ends in a panic (status 101, also with --exit-code) only if: cargo-afl does not state its version, cargo gives no metadata of the package or of the current directory (also if --manifest-path is given), or with --coverage cargo-llvm-cov does not print assignments, and then it panics at once; consolidating or resetting without -all concerns not exactly one target; a target whose name is not ASCII does not fit the terminal and there are several targets; the machine has no processor; the timeout in milliseconds overflows 64 bits; or the session of parallel fuzzing went wrong (unknown terminal size, text that is not ASCII on the display, an event of a fuzzer that is not running).", "quantifier": "every world, options, file system and session", "why_tests_cant": "Panics hide in assertions, unwraps, slices and arithmetic all over the invocation; tests show that some runs do not panic, not that no other situation exists in which they do.", "anchors": ["cargo-test-fuzz/src/lib.rs: run, consolidate, reset, fuzz, fuzz_command, cached_cargo_afl_version, metadata, llvm_envs"]}
{"id": "C106", "title": "Recording does not disturb the program that hosts it, except where listed", "statement": "For any program that calls instrumented functions (nested, repeated, with panics that are caught, changing directory or environment in between): (a) when a call is to be recorded, its body is entered with the impl generic arguments, generic arguments and arguments all on disk, unless cargo metadata fails in the directory the program is in at that moment, the arguments do not serialise, the type name has no _fuzz__, a file is where a directory should be, or a directory has the name of the file; in exactly these cases it panics before the body; either way only the directories for recordings have changed. (b) If no recording is impeded, a program that does not look at these directories ends with the result and the state of the program without the attribute. (c) While TEST_FUZZ is on (test builds) or TEST_FUZZ_WRITE is off (others) the program is exactly the original, including nested calls. A program that changes its directory records into other target directories, or panics outside of any package, unless TEST_FUZZ_MANIFEST_PATH is set.", "quantifier": "every program (tree of steps and instrumented calls), every state of file system, directory and environment, every behaviour of cargo metadata that does not depend on the recordings themselves, every serialisation", "why_tests_cant": "Tests run from the package directory with a clean target directory; hosts that change directory, catch panics, or have unwritable paths are not exercised.", "anchors": ["runtime/src/lib.rs: write_args, write_generic_args, write_impl_generic_args, write_data", "internal/src/dirs.rs: target_directory, path_from_args_type", "macro/src/lib.rs: map_method_or_fn (write_generic_args_and_args)", "internal/src/serde_format.rs: serialize"]}
{"id": "C107", "title": "What is printed about a recorded call is that call", "statement": "A successful invocation that displays, replays or measures coverage for a corpus prints for each entry of a target, once and in listing order, the entry's name and what the harness writes for the file's contents. For a call recorded by cargo test this is: with --display the Debug text of its arguments, with --replay the Debug text of its result (pretty if asked) after whatever the target itself prints, or the message of its panic; with nothing written, the exit status. A file that does not decode gives an empty line and is not a failure. A harness not asked to fuzz says only how to run it; one asked for the coverage of a function with several statements first says that its coverage will not be shown, where the function is, and what to do. Afterwards at most one message goes to stderr: that there was nothing to show, that nothing failed or was written, or, if entries are only displayed, that some harness failed.", "quantifier": "every target, argument list, recorded file, world and options", "why_tests_cant": "End to end over the generated code, the serialisation, the directory layout, the process environment and the printing; tests compare single outputs for single targets.", "anchors": ["cargo-test-fuzz/src/lib.rs: for_each_entry, run_without_exit_code", "macro/src/lib.rs: output_args, output_ret, entry", "runtime/src/lib.rs: read_args"]}
{"id": "C108", "title": "What an invocation says about versions", "statement": "An invocation of cargo-test-fuzz that comes to deal with targets has printed exactly one upgrade hint for each dependency (test-fuzz, then afl) of each executable with a selected target that the installed tool does not satisfy, in the order of the executables, with the names, both versions and the suggested command spelled out, and no other hint. In any invocation, also a refused one, every hint printed has such a reason. Among releases a hint is due exactly if the dependency is compatible and newer.", "quantifier": "for all worlds, options, file systems and versions, including prereleases", "why_tests_cant": "Needs every combination of executables, selections, dependency versions and tool versions; the texts and the order are not asserted by any test.", "anchors": ["cargo-test-fuzz/src/lib.rs:682-703", "cargo-test-fuzz/src/lib.rs:732-766", "cargo-test-fuzz/src/lib.rs:244-330"]}
{"id": "C109", "title": "What fuzzing finds, replaying shows", "statement": "The fuzzer sees the harness abort on an input exactly if decoding it or the target called with it panics, and sees it pass otherwise; it never sees an ordinary test failure. Wherever such an input then is among the target's data, a successful invocation that replays that directory (or generates coverage from it) shows it once, with the status of a failure and the message of the panic after whatever else is shown; an input on which the fuzzer saw nothing is shown with the status of a pass. Targets that catch panics themselves are treated in C80.", "quantifier": "for all targets, inputs, file names, directories, options, environments that do not themselves switch the harness, and invocations", "why_tests_cant": "Relates two processes started by two invocations in different environments through files on disk, for every input and directory.", "anchors": ["macro/src/lib.rs:735-767", "cargo-test-fuzz/src/lib.rs:355-386", "cargo-test-fuzz/src/lib.rs:879-1000", "cargo-test-fuzz/src/lib.rs:1433-1439"]}
{"id": "C110", "title": "Skipped arguments come back as their defaults, and one-sided skipping corrupts the rest", "statement": "If the Serde field attributes of every argument either keep it (written and read) or skip it (neither), a recorded call is decoded, and replayed, with exactly the original arguments except that skipped ones have their default values. Nothing of a skipped argument is recorded: calls that differ only there produce the same file, no other calls do, and the implementations of its type play no role. Whatever input a fuzzer produces, an argument that is not read has its default. Without attributes nothing changes. Attributes that skip only when serialising are accepted by the macro, and then a recorded call can be decoded as one whose other arguments differ.", "quantifier": "all argument lists, attribute assignments, implementations, stored values, input bytes and harness environments", "why_tests_cant": "The tests use one struct with one skipped field; they cannot show that no input gives a skipped argument another value, nor that no call is confused with another.", "anchors": ["macro/src/lib.rs:420-436", "macro/src/lib.rs:664-687", "macro/src/lib.rs:914-924", "runtime/src/lib.rs:183-201", "internal/src/serde_format.rs:33-79"]}
{"id": "C111", "title": "What --list prints identifies the executables and targets", "statement": "The text --list prints (pretty debug format of the list of executables with their targets) is unambiguous: wherever the text ends, it determines how many executables there are, in order, and for each the path, the name, the two version texts and the exact list of targets, whatever quotes, backslashes, control characters or non-ASCII characters occur in the strings; if version texts are non-empty and distinct, it determines the versions and whether they are known. Names of ordinary characters are printed as they are, in quotes. The text is laid out in lines, each ended by a line feed, with each target and each fact about an executable on a line of its own, indented. A successful invocation with --list prints exactly one such text, last: the executables that were built and asked for their tests and have targets, with the targets the given name selects, without executables of which nothing is selected; it leaves the file system as it was.", "quantifier": "all lists of executables and targets, all valid UTF-8 strings, all tables of printable characters, all worlds and options, all file systems", "why_tests_cant": "Tests compare the listing of one test crate; they do not use names with quotes, control characters or non-ASCII characters, and cannot show that two different lists never print alike.", "anchors": ["cargo-test-fuzz/src/lib.rs:244-263", "cargo-test-fuzz/src/lib.rs:317-325", "cargo-test-fuzz/src/lib.rs:598-675"]}
{"id": "C112", "title": "Integration tests ask for what they mean and keep their data apart", "statement": "The helpers of the project's integration tests build command lines that the tool understands as intended: the manifest path, the serialisation format as the only feature, the test executable, the target (compared exactly or not), and otherwise the default options. The tool is the one of the workspace, run by cargo. The test run for recording is the one test artifact whose file name begins with the crate name and a dash, run by its exact name; if there is none or several nothing is run and the refusal says which. The test itself, the recording program and the tool it starts use the same directories whether or not TEST_FUZZ_ID is set; tests in different threads of one process use disjoint directories if TEST_FUZZ_ID is not set. Tests in different processes need not: thread numbers repeat, so they can share directories.", "quantifier": "all crate and target names not beginning with a dash, all environments, all thread numbers, all answers of cargo", "why_tests_cant": "They are the tests; whether two of them can disturb each other depends on scheduling and shows only as a rare failure.", "anchors": ["testing/src/fuzzable.rs:15-131", "internal/src/dirs.rs:86-107", "cargo-test-fuzz/src/bin/cargo_test_fuzz/transition.rs:26-159"]}
{"id": "C113", "title": "The options of the attribute do not interfere", "statement": "Each part of an expansion depends only on the options meant for it. The function that replaces the target is the same whatever the options are. What it records depends on enable_in_production and only_generic_args; the name of the module on rename; its presence outside of tests on enable_in_production; the stored fields on the conversions and only_generic_args; the function called on the generic arguments; the arguments of the call on the conversions; the presence of a body of entry and of the auto_generate test on which generic arguments are given, only_generic_args and (for the latter) no_auto_generate. The expression given by execute_with and the predicates given by bounds are taken over as they are and influence nothing else. Whether a target can be expanded at all depends on the conversions and generic arguments only, and in a fuzzing build on only_generic_args.", "quantifier": "forall build configurations, generic parameters, trait paths, self types, pairs of option sets, attributes, counter values and functions", "why_tests_cant": "Options are tested one at a time by example; that two options never influence each other is a statement about all pairs of option sets.", "anchors": ["macro/src/lib.rs:175-197", "macro/src/lib.rs:238-808", "macro/src/lib.rs:340-350", "macro/src/lib.rs:602-609"]}
{"id": "C114", "title": "Fuzzers are given a corpus that exists and holds everything recorded", "statement": "No fuzzer is started (in the foreground or by the parallel loop) before the corpus directory of every target reached exists: missing ones are generated first, and if one cannot be, nothing is started. Unless `--resume` is given, the input directory of the foreground fuzzer, and of the first fuzzer of each target in the parallel loop, is the corpus directory of that target, and every value recorded for the target at any earlier time - by a test, whatever recordings, fuzzing sessions and invocations happened in between - is a file in it under the name of its digest.", "quantifier": "all options, worlds (results of builds, listings, generators and sessions), file systems and histories of recordings, fuzzing sessions and invocations", "why_tests_cant": "Tests fuzz one freshly recorded example; whether the directory that the runtime writes and the one the tool passes to afl-fuzz agree, still exist and are complete after any history of consolidations, resets and generated corpora cannot be sampled.", "anchors": ["cargo-test-fuzz/src/lib.rs:1205-1414", "cargo-test-fuzz/src/lib.rs:1483-1513", "cargo-test-fuzz/src/lib.rs:1416-1481", "runtime/src/lib.rs:171-197", "internal/src/dirs.rs:12-34"]}
{"id": "C115", "title": "The sample targets crash on exactly the intended inputs", "statement": "While fuzzing, the harness of each sample target of the project aborts on an input if and only if the input decodes (postcard) to a value on which the target panics, and passes on every other input: for `qwerty`, the inputs made of a spelling of the length 6, the text `qwerty` and anything; for `assert`, those whose first byte is 1; for `calm`, none; for `panicky`, those with a first byte 0 or 1 (and the empty one if missing bytes read as zero); for `cast`, with the feature `cast_checks`, those that spell a number of at least 2^32, and none without it; for the `generic` sample, variant 0 with the text `qwerty`. What a call with `Foo::A(s)` records is the data of a call with `Bar::B(s)`, so that for `s = qwerty` it makes the harness of `Bar` abort.", "quantifier": "all input bytes, all configurations, environments without the crate's switches, all worlds of conversions and all draws of the macro", "why_tests_cant": "The integration tests of the project run a fuzzer on these samples for a limited time and check that a crash is or is not found; they cannot tell which inputs crash nor exclude others", "anchors": ["fuzzable/tests/qwerty.rs:1", "fuzzable/tests/assert.rs:1", "fuzzable/tests/cast.rs:1", "fuzzable/tests/generic.rs:1", "fuzzable/tests/calm_and_panicky.rs:1", "runtime/src/lib.rs:199", "macro/src/lib.rs:735"]}
{"id": "C116", "title": "The sample targets get the corpora the tests expect", "statement": "If nothing is recorded for the target and TEST_FUZZ is off, the generated test of a sample leaves in the corpus directory exactly the expected entries and nothing else: the six encodings of the extreme and middle values for `i64` and `u64`, one for `assert` and for a structure that implements `Default`. Fuzzing such a target first generates this corpus, prints that it could not be found and that it was generated, and goes on. A target with `no_auto_generate`, or with an argument of a type that implements none of the traits, gets nothing recorded: fuzzing it fails with an error naming directory and target, and leaves the file system unchanged.", "quantifier": "all configurations, draws of the macro, environments, file systems, target directories, identifiers and target names", "why_tests_cant": "The tests of the project count the entries for one file system; that the entries are these for every state of the file system and in every configuration cannot be tested", "anchors": ["fuzzable/tests/auto_generate.rs:1", "fuzzable/tests/default.rs:1", "fuzzable/tests/alloc.rs:1", "cargo-test-fuzz/tests/integration/auto_generate.rs:12", "test-fuzz/tests/integration/auto_generate.rs:5", "cargo-test-fuzz/src/lib.rs:1483"]}
{"id": "C117", "title": "The sample targets expand as intended", "statement": "In every build and whatever numbers the name counter gives, each sample target of the project becomes the intended module: its name (after the type, the function or the `rename` option), the fields with their types (converted, owned or as declared, with phantom fields for the generic parameters), the function called (with the trait and the generic arguments filled in, e.g. `<Baz as TryFrom::<Bar>>::try_from`), the expressions for the arguments, the type of the result with `Self` expanded, and whether there is an entry point and a generating test. The sample with an inapplicable conversion is refused by every build. An impl block keeps its other items, loses the attributes, and a module is made for each marked method; a block with none is left unchanged and reported.", "quantifier": "all builds (fuzzing or not, with or without cast checks), all values of the name counter, all other items of an impl block", "why_tests_cant": "The project compiles the samples, which shows that the expansion is accepted for the numbers drawn in that build; it does not show what the expansion is nor that it is the same in the other builds", "anchors": ["fuzzable/tests/conversion.rs:1", "fuzzable/tests/from.rs:18", "fuzzable/tests/generic.rs:31", "fuzzable/tests/return_type.rs:6", "fuzzable/tests/test_fuzz_impl.rs:6", "fuzzable/tests/rename.rs:1", "fuzzable/tests/unserde.rs:4", "macro/src/lib.rs:238"]}
{"id": "C118", "title": "A program that hosts recordings leaves behind exactly what was to be recorded", "statement": "When a program whose functions carry the attribute ends, normally or by a panic, each call that is recorded and that nothing impedes has its impl generic args, generic args and arguments in files named after their digests in the directories computed at that call, however many calls, nested, repeated or panicking, came before or after. Every place for recordings is at the end as it was at the start, or is a new directory on the way to a recording, or is the file of a recording. A program that is told its manifest by TEST_FUZZ_MANIFEST_PATH and starts without a directory of recordings ends with as many entries in it as there were different data to record there, and with no directory if there were none. A program that is not a test and has no TEST_FUZZ_WRITE leaves those places unchanged. The project's own test of recording in production sees one entry if TEST_FUZZ_WRITE is on for the program and TEST_FUZZ_ID is not set for the test, and none otherwise. So it fails wherever TEST_FUZZ_ID is set, and its variant without TEST_FUZZ_WRITE fails wherever that variable is on already. What can keep that test's program from recording is only an unknown target directory, a file on the way to one of three directories, or a directory in the place of one of three files.", "quantifier": "all programs with calls of instrumented functions (trees of calls and own steps), states, argument types and their bytes, file systems without links, answers of cargo metadata; for counts: no two different data with the same SHA-1", "why_tests_cant": "The project runs one program with one call, in two environments; programs with nested, repeated and panicking calls, directories that exist already and other environments are not tried.", "anchors": ["test-fuzz/tests/integration/in_production.rs:26-71", "fuzzable/src/bin/hello-world.rs:1-12", "runtime/src/lib.rs:171-197", "macro/src/lib.rs:778-789", "internal/src/dirs.rs:86-124"]}
{"id": "C119", "title": "Harnesses that share a process with other tests", "statement": "In an ordinary cargo test, however the threads take turns and whatever other tests panic, harnesses abort nothing, all pass and warn exactly once together. A harness that is the only test of its process, as the tool runs it, ends as C30 says and leaves the panic hook as it was. In general a test ends as it would alone unless the process is aborted, which takes a panic while some harness is between installing and removing its hook; the hook is gone when all tests have ended; and no test waits forever. Running several tests with TEST_FUZZ on is not safe: a test that is meant to panic can abort the process, and a panic of one target need not abort it if another harness has removed the hook (counterexamples). A target that installs a panic hook of its own can panic without an abort, so that the fuzzer sees no crash (counterexample). If stderr cannot be written to, the first harness panics and thereby makes all others panic.", "quantifier": "every number of tests, every interleaving, every environment and every target", "why_tests_cant": "Interleavings of tests and failing writes cannot be enumerated by tests.", "anchors": ["macro/src/lib.rs: map_method_or_fn (entry)", "runtime/src/lib.rs: warn_if_test_fuzz_not_enabled", "cargo-test-fuzz/src/lib.rs: tests::warn_if_test_fuzz_not_enabled", "fuzzable/tests/calm_and_panicky.rs: test"]}
{"id": "C120", "title": "Versions survive being printed and read back as requirements", "statement": "The version check prints a version and reads the text back as a requirement, with an expect that would panic if the text were refused. It is never refused: for every version that can exist (numbers of 64 bits, prerelease and build words) the text is read as the caret requirement with the same numbers and prerelease; build metadata is dropped and makes no difference to the verdict. Exactly the texts of well-formed versions are accepted as versions, a version read is printed as the very text it was read from, different versions are printed differently, and comparing prereleases as text agrees with the order of semantic versioning. So the check on texts says what C40 and C41 say of the numbers, in full wording; the requirement suggested by the upgrade hint is readable and is satisfied by the dependency's version and exactly by the releases that are not older.", "quantifier": "every text and every well-formed version, including prereleases and build metadata", "why_tests_cant": "tests try a handful of version numbers, without build metadata or numbers at the limit of 64 bits", "anchors": ["cargo-test-fuzz/src/lib.rs:705-765"]}
{"id": "C121", "title": "For which versions the installation tests find what they look for", "statement": "The tests of what is said about versions edit Cargo.toml files with sed, run the tool and search its output with regular expressions. For every version of the repository, the scripts change exactly the intended numbers in the line with the package's version and in the line requiring it, and the same way in both. The test for an incompatible test-fuzz then succeeds exactly if the repository's version is a release other than 0.0.x: for every prerelease it fails, although the scripts worked, since a tool that is a prerelease rejects nothing. The test for a newer test-fuzz succeeds exactly if the version is not 0.0.x and its patch number is below 255. With cargo-afl 0.13.2 the tests about afl succeed for every afl that the requirement 0.18 allows, or for 0.13.3, whatever the repository's version is. The message about a missing cargo-afl is found after whatever text ends in a space.", "quantifier": "every well-formed version, every non-empty list of executables, all other output that does not look like the messages", "why_tests_cant": "the tests run once, for the version that the repository has at that time", "anchors": ["cargo-test-fuzz/tests/install.rs:20-204", "cargo-test-fuzz/src/lib.rs:682-765"]}
{"id": "C122", "title": "What the tests of the workspace's versions establish", "statement": "Two tests keep the versions of the workspace together. The first succeeds exactly if every package but serde_combinators has the version of test-fuzz, build metadata included. The second never panics, and succeeds exactly if every requirement on a package called test-fuzz\u2026 that is not a development dependency begins with the operator = and admits the version of test-fuzz. If such a requirement has all three numbers, it admits no other version up to build metadata, so a version that is raised without its requirements is noticed. With fewer numbers the test passes too, although it is said to check that requirements are exact: for every release, = and its major number alone pass, and admit all releases with that number. What each of the eight operators admits is, for all numbers given or left out, the interval that Cargo documents; a prerelease is admitted only by a requirement that mentions a prerelease of the same numbers.", "quantifier": "every workspace, every requirement with any of the eight operators, every well-formed version", "why_tests_cant": "the tests look at the one workspace at hand, whose requirements all have three numbers", "anchors": ["test-fuzz/tests/integration/versions.rs:5-50"]}
{"id": "C123", "title": "Preparing a release sets every version and every requirement, and the two version tests then succeed", "statement": "Running scripts/update_versions.sh with a version sets the version line of every manifest outside serde_combinators to it and leaves every other line of those manifests as it is; in the workspace's manifest it sets the requirement of each dependency that is called test-fuzz\u2026, directly or through `package`, to exactly that version. If Cargo reads versions and requirements from those lines, the tests versions_are_equal and versions_are_exact_and_match succeed afterwards for every version. A dependency given a table of its own loses its requirement (refuted). scripts/check_CHANGELOG.sh succeeds exactly for a tag that is `refs/tags/v` and a version for which the changelog has a heading equal to it up to the characters in the place of its dots: for a release only that release's heading will do; for a prerelease another version's may (refuted).", "quantifier": "for all versions, manifests, positions of lines, old versions and requirements without quotes or spaces, keys, paths, renamed packages, references and changelogs", "why_tests_cant": "The scripts run by hand or on a tag and have no tests; whichever versions they are run with, the expressions match texts (greedy parts, word edges, dots that stand for any character) for all lines that the manifests may come to have.", "anchors": ["scripts/update_versions.sh:17-32", "scripts/check_CHANGELOG.sh:13-22", "test-fuzz/tests/integration/versions.rs:5-50"]}
{"id": "C124", "title": "What the tests of the dependency tables and of the suppliers' report compare", "statement": "A table of dependencies is divided into groups exactly where a line begins after blank lines and nowhere else (there is only one such division, and the groups put together are the table). The test succeeds exactly if the keys of each group are in order, and panics exactly if a group by itself is no document and the groups before it are in order. In a file with carriage returns no blank line is seen, so the whole table is one group, and the verdict on the same lines may differ (refuted). Of the suppliers' report, everything but what is at a key `avatar`, at whatever depth, is compared: two reports are the same to the test exactly if along every path without that key they have the same leaf, as many items, or the same other keys. Unless BLESS is set and is not 0, the test succeeds exactly if the stored report is the new one, and changes nothing; otherwise it stores the new one.", "quantifier": "every document, every span in it, every reading of keys, every JSON value with distinct keys, every path", "why_tests_cant": "the tests look at the manifests and the report of this repository only; a group that is cut wrongly would only make a test too strict or too lax for tables that are not there yet", "anchors": ["test-fuzz/tests/integration/ci.rs:199-276", "test-fuzz/tests/integration/ci.rs:282-335"]}
{"id": "C125", "title": "What the tests of the readme and of the licenses accept", "statement": "The test against inline links succeeds exactly if nowhere brackets without a closing bracket inside are followed by a parenthesis; an inline link whose text has brackets in it is not noticed (refuted). The test of the order succeeds exactly if no line with a definition is before one that is less. The test that labels are used succeeds if each label that a line defines occurs somewhere before it, and exactly then if no label goes over the end of a line; a label used only afterwards or in other letters is called unused, and one in another definition's target is taken as used (refuted). The usage that must be in the readme is what follows the second line of the output, and nothing is required of shorter output. A license is accepted exactly if before a colon there is an allowed name standing alone, so one that is required besides an allowed one is not noticed (refuted).", "quantifier": "every readme, every output, every line on licenses", "why_tests_cant": "the tests run on one readme and one list of licenses; what their expressions would accept is a statement about all texts", "anchors": ["test-fuzz/tests/integration/ci.rs:62-86", "test-fuzz/tests/integration/ci.rs:124-182"]}
{"id": "C126", "title": "Headings on stdout are where a test looks for them", "statement": "When several targets are shown successfully, every heading begins a line of stdout, unless files of generic arguments are shown of which one is empty. A heading is the name, a space and at least one dash exactly if the terminal's width is unknown or at least the length of the name and two. So the expression of the test display_multiple_corpora finds every target shown, whatever the harnesses write. With --display=generic-args, the empty file of an instance without type parameters is shown without a line feed, and the next heading is glued to it, where the expression does not find it (refuted).", "quantifier": "every world, options, file system, terminal width, set of targets and output of harnesses", "why_tests_cant": "the test shows six targets with one entry each and no terminal", "anchors": ["cargo-test-fuzz/src/lib.rs:356-385", "cargo-test-fuzz/tests/integration/display.rs:46-74"]}
{"id": "C127", "title": "Which patches belong to third parties' code, and when they are called current", "statement": "For every address, the test and the script that updates the patches mean the same file, named after what follows the last slash; forks of one repository share it (refuted that it is distinct). A repository's tests are run exactly if they are not expensive or all tests were asked for, and they may be run on the toolchain. A patch is called current exactly if it and the difference have as many lines and the lines are pairwise the same or both about contents (index lines with seven hexadecimal digits each); so modes in those lines and carriage returns at the ends of lines are not compared (refuted). Updating the revisions gives every line with a revision the head of its repository and leaves all others as they are, if no later repository has one of the revisions involved and another head; with a fork that is at its origin's head, the origin gets a revision that it does not have (refuted).", "quantifier": "every address, every set of flags and toolchain, every patch and difference, every list of revisions and every file", "why_tests_cant": "the test needs the network and four fixed repositories, and the script is run by hand", "anchors": ["third-party/tests/third_party.rs:20-65", "third-party/tests/third_party.rs:238-296", "scripts/update_patches.sh:18-41"]}
{"id": "C128", "title": "What removing patch versions from the manifests changes", "statement": "On each line that does not begin with the word version, the first text in quotation marks that is three numbers loses the third, and nothing else changes. What is left admits every version that the requirement admitted: exactly the releases with the same major version and no smaller minor one (the same one, if the major version is zero). A second run may change a line again, if it has two such texts, and what is left of 0.0.3 admits the incompatible 0.0.4 (refuted).", "quantifier": "every line, every three numbers, every version", "why_tests_cant": "the script has no test, and which lines it may meet depends on manifests to come", "anchors": ["scripts/remove_patch_versions.sh:16"]}
{"id": "C129", "title": "What the macro says about a conversion that applies to no argument", "statement": "There is a message exactly if options and arguments are in order and some conversion meets none of the types that are compared with it, and then the expansion panics. The message names, of the conversions that meet none, the one whose type has the least text, with the target that was given last for it. It lists exactly the types compared (declared types of arguments without attributes, and what is under references), each once and in order, and the named type is not among them. It depends neither on the order of the conversions nor on those that later ones replace. If one type with an ordinary text is compared, the expression of the test conversion finds the message.", "quantifier": "every list of conversions, every list of arguments, every self type and trait, every way to print types that does not confuse two", "why_tests_cant": "the test tries one conversion and one argument; with several of each, maps and sets that are ordered by printed text decide what is said", "anchors": ["macro/src/lib.rs:272-282", "macro/src/lib.rs:398-420", "macro/src/lib.rs:928-945", "macro/src/ord_type.rs:1-38", "test-fuzz/tests/integration/conversion.rs:5-18"]}
{"id": "C130", "title": "The test of the serialization format tells from recorded unit variants whether names are stored, for small enums only", "statement": "The integration test serde_format runs a target whose arguments are unit variants and then asserts that no recorded file has an ASCII uppercase letter. For recorded calls with unit variants of any indices the assertion succeeds with postcard exactly if no index has a most significant base-128 digit between 65 and 90, and with bincode exactly if no index is between 65 and 90 or, above 250, has a base-256 digit between 65 and 90. So for enums with at most 65 variants it succeeds with both formats. It is not true that it succeeds whenever names are not stored: variant 65 fails it with both formats, and variant 321 only with bincode.", "quantifier": "all numbers of recorded calls, all lists of variant indices below 2^32, both formats, both versions of the reader switches", "why_tests_cant": "the test runs one call with the variants 0, 1 and 1", "anchors": ["test-fuzz/tests/integration/serde_format.rs:10-32", "fuzzable/tests/serde.rs:189-214", "internal/src/serde_format.rs:34-61"]}
{"id": "C131", "title": "The test that replays hangs finds its expression exactly if an entry has run into the time limit or is shown alike", "statement": "The integration test replay_hangs replays the files under hangs and checks that stdout matches (?m)\\bTimeout$. A text matches exactly if it has the word Timeout, not preceded by a word character, before the end of a line or of the text. If no operation fails, the stdout of the replay matches exactly if one of the listed files other than README.txt and .state has run into the time limit, whatever was output before, or a line shown about one that has not (its name with its stderr, or with its status if stderr was empty) ends with that word. So a match does not show that there was a time limit: a target that fails at once with a message that ends so is found, too.", "quantifier": "all directories, listings, contents of files, behaviours of the processes and options; all classes of word characters for which spaces and line feeds are none", "why_tests_cant": "the test runs one target, whose outputs it cannot choose", "anchors": ["cargo-test-fuzz/tests/integration/replay.rs:38-47", "cargo-test-fuzz/tests/integration/replay.rs:79-95", "cargo-test-fuzz/src/lib.rs:911-998"]}
{"id": "C132", "title": "The crashes that the replay test has the fuzzer find are reproduced because the two memory limits differ", "statement": "The integration test replay_crashes fuzzes a target that allocates as many bytes as it is told, with a memory limit for the fuzzer, and replays the crashes with a limit of 8 GiB for the process. The argument for the fuzzer is the limit divided by 1024, and afl-fuzz takes it to be in mebibytes: the limit while fuzzing is 1024 times the one while replaying (up to rounding), so the two are not the same, and some allocations fail when replayed only. For every limit of at least 10^9 bytes, each allocation that crashes while fuzzing also crashes when it is replayed, however much memory is in use then, and the message matches the expression of the test, if what is in use while fuzzing and the limit for replaying are together at most the limit for fuzzing. If the argument was in mebibytes there would be crashes that are not reproduced, as what is in use need not be the same. The two limits are 8 GiB and 8 TiB.", "quantifier": "all limits, sizes of allocations, amounts of memory in use and texts around the message", "why_tests_cant": "the test has one limit and relies on what the fuzzer happens to find", "anchors": ["cargo-test-fuzz/tests/integration/replay.rs:15-40", "cargo-test-fuzz/tests/integration/replay.rs:80-95", "fuzzable/tests/alloc.rs:1-11"]}
{"id": "C133", "title": "The workflow for pull requests succeeds if no run of the tests failed, and also if its first job did and none was run", "statement": "In .github/workflows/ci.yml the job all-checks succeeds exactly if the job check-up-to-dateness did not succeed, or said that nothing has changed, or no run of the tests has failed or been cancelled; otherwise it fails. So success does not imply that the tests were run or that nothing has changed: if the first job fails the tests are skipped and all-checks succeeds. The runs are all 16 combinations, each once. The third-party tests are run in full exactly in runs for them that are scheduled, or are for a pull request of which git can tell the changed files and one of the files has patches or third_party as a word in its name; so not in a merge queue. Build and test commands select the same packages and have exactly the format of the run. The check of names of files fails exactly if it is made and a name begins with id:. With nightly toolchains, and only with them, the tests run one at a time and shuffled, without those of documentation.", "quantifier": "all results of jobs and runs, all outputs of the first job, all events, changed files and names of files, all runs of the matrix", "why_tests_cant": "the workflow is not tested", "anchors": [".github/workflows/ci.yml:26-48", ".github/workflows/ci.yml:122-181"]}
{"id": "C134", "title": "Publishing a release ends with all crates published and can be repeated after a failure", "statement": "The workflow .github/workflows/release.yml publishes five crates in a fixed order and goes on after a failure whose last line says that the crate already exists. A line says so exactly if it is some text, \": crate \", a name without backticks and \" already exists on crates.io index\". If cargo says this only of published crates, then all five crates are published if the step succeeds. If cargo also publishes whatever is unpublished and has its dependencies published, the step succeeds whatever part of the five has been published before, provided serde_combinators has been; without it three crates are published and two are not, since the workflow does not publish it. The version in the title is the tag without refs/tags/v. A release is marked as a prerelease exactly if its version has pre or rc in it, in any case of letters, which is neither implied by nor implies a prerelease version. The notes are the lines that the last change of CHANGELOG.md has added, in order, but for those that begin with a plus sign. Of any ref the first occurrence of refs/tags/v, and nothing else, is removed to get the version.", "quantifier": "all behaviours of cargo, all states of the index, all tags, all commits and differences", "why_tests_cant": "the workflow is not tested; it only runs for releases", "anchors": [".github/workflows/release.yml:5-7", ".github/workflows/release.yml:30-61", "Cargo.toml:67-74", "docs/crates.dot:1-12"]}
{"id": "C135", "title": "The sample target for profiles crashes exactly in release builds", "statement": "The build script of the samples writes the profile into a Rust source file, which a target includes. The constant it defines is the profile exactly if that has no quote, backslash or carriage return; both profiles that cargo gives are such. So for every invocation the target has an argument that crashes it exactly if --release was given, which is when the integration test fuzz_profile expects the exit code 1 rather than 0, and the argument that is recorded crashes it in no profile.", "quantifier": "all profiles, all options", "why_tests_cant": "the test fuzzes for a minute in each of two profiles", "anchors": ["fuzzable/build.rs:8-19", "fuzzable/tests/profile.rs:1-11", "cargo-test-fuzz/tests/integration/fuzz_profile.rs:13-43", "cargo-test-fuzz/src/lib.rs:440-442"]}
{"id": "C136", "title": "A recorded hash set is identified by its iteration order as well as its members", "statement": "fuzzable/tests/arc.rs records calls of a target with a shared hash set and a number. Two such calls are recorded in the same bytes, in both modelled formats, exactly if the sets have the same elements in the same iteration order and the numbers are equal. Hence runs whose sets have pairwise different orders (the hasher's state is random in each process) never share an entry: the corpus grows by one entry per recording thread and run. Reading an entry gives a set with exactly the recorded members. That equal arguments are recorded in one file is refuted for sets, and the target shows different elements for the two orders.", "quantifier": "for all sets of u32 in all orders, all numbers, all lists of runs and of threads that get to record", "why_tests_cant": "The order of a hash set is random in each process; a test sees one order per run and does not compare the files of several runs.", "anchors": ["fuzzable/tests/arc.rs:6-26"]}
{"id": "C137", "title": "What the test of consolidating tells: a crash was found and kept, but not that a hang was", "statement": "The test of consolidating (cargo-test-fuzz/tests/integration/consolidate.rs) fuzzes, consolidates and displays up to three times without emptying the corpus in between. After each attempt the corpus has what the sample's test recorded and everything found until then, each once. The test succeeds exactly if after one of the attempts something other than the recorded call was found and the text looked for is among what is displayed. For crashes of the sample assert this means that some found input is read as the call with true, i.e. (in both formats) begins with the byte 1, whichever order the entries are shown in. For hangs, where the text looked for is empty, it means that anything new was found in whichever directory: that the test of consolidating hangs succeeds only if a hang was found is refuted.", "quantifier": "for all findings of all attempts, all orders of reading the corpus, all inputs", "why_tests_cant": "The test itself is the subject: a run shows that it succeeds for one sequence of random findings, not which sequences make it succeed.", "anchors": ["cargo-test-fuzz/tests/integration/consolidate.rs:13-78", "testing/src/retry.rs:4-30", "fuzzable/tests/assert.rs:1-9", "cargo-test-fuzz/src/lib.rs:767-808"]}
{"id": "C138", "title": "Displaying arguments whose Debug implementation panics or hangs says so, whatever is in the files", "statement": "For the sample whose Debug implementation panics (fuzzable/tests/debug.rs, mod crash) the harness decodes every file, of any contents; it fails without calling the target if it is to display it, and passes after one call of the target if it only replays or measures coverage. Displaying any directory with at least one entry then succeeds with exactly one remark on stderr, the text about a failure that the test looks for. If every process runs into the time limit (mod hang), whatever it wrote before, the only remark is the text about a timeout.", "quantifier": "for all file contents, directories, listings with an entry, options that only display, parent environments that do not already switch the harness, both kinds of reader", "why_tests_cant": "The tests display one auto-generated entry of each sample; not other contents, further files, or the other modes.", "anchors": ["fuzzable/tests/debug.rs:1-34", "cargo-test-fuzz/tests/integration/display.rs:12-48", "cargo-test-fuzz/src/lib.rs:861-1029", "macro/src/lib.rs:561-570", "macro/src/lib.rs:735-767"]}
{"id": "C139", "title": "What the test of third parties' code finds in what is displayed and replayed", "statement": "Displaying the corpus of a target of a third party's code passes the test's checks exactly if the corpus is not empty and no entry is shown with the text for a value of unknown type; replaying passes exactly if what is shown for some entry begins with a line that is a result of the form Ret(Ok(...)) or Ret(Err(...)), or has a later line that itself looks like an entry with such a result. So displaying passes also if not a single entry can be read, and replaying fails for a target that writes a line of its own before each result, though the results are shown.", "quantifier": "every corpus whose entries have names as recordings give them, and every text shown for them", "why_tests_cant": "The test is itself one of the tests: it is only ever run with the corpora that the third parties' own tests produce, so that what it would let pass or refuse is not seen.", "anchors": ["third-party/tests/third_party.rs:178-186", "cargo-test-fuzz/src/lib.rs: for_each_entry"]}
{"id": "C140", "title": "What is done for a third party's repository, and what has been seen when the test passes", "statement": "If the test passes for a repository that is run, then the repository was cloned, the revision checked out and the patch named after the repository applied, in this order and before anything else; its tests were run with recording switched on and the format chosen; and afterwards, for each target, displaying and replaying succeeded and printed what is looked for (C139). A repository that is not run has only git's commands and cargo update run for it, and passes exactly if git's three succeed and both packages depend on test-fuzz by a path; running it starts with the same commands and passes only if that does. Whether cargo update succeeds makes no difference. The whole test passes exactly if it does for each repository, and stops at the first for which it does not. Of several dependencies on test-fuzz only the first is looked at.", "quantifier": "every list of repositories, every world (any answers of commands, depending on all commands before), both settings of test-full and of the toolchain, every format", "why_tests_cant": "The test needs the network and hours, and its behaviour when commands fail is not tested at all.", "anchors": ["third-party/tests/third_party.rs:51-238", "testing/src/logged_assert.rs:10-28"]}
{"id": "C141", "title": "What the tests that fuzz samples have seen when they pass", "statement": "A test that fuzzes a sample with --exit-code and expects a code passes exactly if one of its at most three attempts gives the code, after attempts that gave others, and fails exactly if all give others; if an attempt does not end, neither does the test. Passing for code 1 implies that in some attempt a fuzzer was stopped before any notice of its time limit, passing for code 2 that there was an error, and passing for code 0 that some attempt ended with neither. So a test that expects no crash passes even if a crash was found in each attempt but the last.", "quantifier": "every world and state of the files for each attempt, all options with --exit-code, all codes", "why_tests_cant": "These are the tests themselves; they show one outcome at a time, and a test that passes thanks to its repetitions looks like any other.", "anchors": ["cargo-test-fuzz/tests/integration/fuzz.rs:32-46", "cargo-test-fuzz/tests/integration/fuzz_generic.rs:36-48", "cargo-test-fuzz/tests/integration/fuzz_cast.rs:26-33", "cargo-test-fuzz/tests/integration/fuzz_profile.rs:26-33", "cargo-test-fuzz/tests/integration/fuzz_parallel.rs:25-39", "testing/src/retry.rs"]}
