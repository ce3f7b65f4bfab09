# Design

The subject is trailofbits/test-fuzz at the pinned commit in /repo: the
`test_fuzz` macro, the runtime it calls, and the `cargo test-fuzz` command.
Nothing is executed; the Rust text is modelled by hand in Gallina under
`rocq/theories`, and every definition cites the file and lines it models.

## Conventions

* `str` and `bytes` are `list ascii` (one element per byte). Rust `&str` slices
  at byte offsets; panics of slicing at a non-boundary are explicit values.
* A panic, failed assertion, `unwrap` on `None`, `bail!`/`ensure!` is an explicit
  error value in the result, never a default.
* Loops are structural recursion or folds. Unbounded loops (the scheduler) are
  step relations/functions, with theorems over all runs.
* Things the code asks the outside world (child processes, `read_dir` order,
  event batches of the poller, environment, metadata) are universally quantified
  inputs of the theorems: oracles passed as arguments, never axioms.
* Machine integers are `N`/`Z` with explicit bounds; where the code can overflow
  this is an explicit outcome.
* Property theorems live in `Props*.v`; each is followed by
  `Print Assumptions`. Each has an `Example` on a concrete case next to it.
  The specifications the theorems are stated with are small separate definitions
  (in the sections headed Specification), not the model's own functions.

## Properties

For each property: what it is modelled by, how it is proved, and its theorems. `_refuted` marks a
statement one would expect and that the model violates, proved in the form `exists …` or as the exact failing case.

### C01 Corpus files are content-addressed

Model: Sha1.v, Fs.v, Write.v: `write_data` and histories of it on a finite-map file system; SHA-1 and hexadecimal are computed. Proof: invariant by induction over histories; SHA-1 against FIPS 180-4 stated as a relation (PropsSha1.v).

* `C01_sha1_standard` (PropsSha1.v): [sha1] computes the digest the standard defines, for every message.
* `C01_sha1_example` (PropsSha1.v): concrete case. FIPS 180-4's example of two blocks.
* `C01_content_addressed` (PropsWrite.v): after any history of recordings (successful or not, into any directories) every file of a directory is named by the lower-case hex SHA-1 of its contents, if that was so before (for instance if the directory did not exist).
* `C01_content_addressed_fresh` (PropsWrite.v): C01, from nothing: in a file system where [dir] has no files, after any history.
* `C01_example` (PropsWrite.v): concrete case.

### C02 Recording loses nothing and invents nothing

Model: as C01. Proof: induction over histories with a frame lemma.

* `C02_recorded_readable` (PropsWrite.v): every recorded datum can be read back, unless another datum recorded in the same directory has the same digest (in which case that one is there); all recordings succeed.
* `C02_nothing_invented` (PropsWrite.v): for any history whatsoever, a file afterwards was there before with the same contents or is a recorded datum in its place; new directories are only those leading to a recording directory.
* `C02_frame` (PropsWrite.v): for any history whatsoever, what is not a recorded file is untouched.
* `C02_example` (PropsWrite.v): concrete case.

### C03 Corpus contents do not depend on order or multiplicity of recordings

Model: as C01. Proof: commutation of non-colliding writes; extensional equality of the final file systems.

* `C03_order_and_multiplicity` (PropsWrite.v): the outcome depends only on the set of recordings.
* `C03_idempotent` (PropsWrite.v): recording the same datum again changes nothing, whatever the state.
* `C03_example` (PropsWrite.v): concrete case.

### C04 Concurrent recorders of the same or different data cannot corrupt the corpus

Model: WriteConc.v: writers as automata over open-truncate and partial writes with a shared file table. Proof: inductive invariant over all interleavings.

* `C04_concurrent_intact` (PropsWrite.v): recorders running concurrently, under any interleaving of their system calls: once all have returned successfully, every datum is intact.
* `C04_no_failure` (PropsWrite.v): without injected failures no recorder fails, and each system call of an unfinished recorder makes progress, so all return after finitely many.
* `C04_progress` (PropsWrite.v): every step of a recorder that is not finished brings it closer to its end.
* `C04_frame` (PropsWrite.v): nothing else is touched, even by killed or failing recorders.
* `C04_example` (PropsWrite.v): concrete case.

### C05 A killed recorder leaves only prefixes, and recording again repairs

Model: WriteConc.v. Proof: prefix invariant, refutation of atomicity, repair by a further recording.

* `C05_killed_leaves_prefix` (PropsWrite.v): a recorder that is alone, killed or failing at any point, leaves the file as it was or holding a prefix of the datum.
* `C05_atomic_refuted` (PropsWrite.v): recording is not atomic: a killed recorder can leave a file whose name is not the digest of its contents.
* `C05_concurrent_prefix_refuted` (PropsWrite.v): with several recorders of one datum even the prefix property fails when they are killed ...
* `C05_concurrent_bytes` (PropsWrite.v): ... but every byte is the datum's or zero, and the file is not too long.
* `C05_recording_again_repairs` (PropsWrite.v): whatever happened, recording the datum again repairs the file.
* `C05_example` (PropsWrite.v): concrete case.

### C06 Corpus file names are always processed by display, replay and consolidate

Model: Sha1.v, Entries.v, Consolidate.v. Proof: alphabet and length of hexadecimal names.

* `C06_name` (PropsWrite.v): the name of a corpus file.
* `C06_name_distinct` (PropsWrite.v): names are equal exactly for equal digests.
* `C06_not_skipped` (PropsWrite.v): no corpus file is skipped by display, replay and consolidation.
* `C06_example` (PropsWrite.v): concrete case.

### C07 The directory a target records to is the directory cargo test-fuzz reads

Model: Dirs.v: the runtime's and the tool's path computations over strings. Proof: first-occurrence lemmas of `find`; exact case distinction.

* `C07_directories_agree` (PropsDirs.v): recording (by type name) and reading (by target name) use the same directory, unless [_fuzz__] occurs in [crate::target_fuzz_].
* `C07_example` (PropsDirs.v): concrete case.

### C08 Targets whose qualified name contains `_fuzz__` (or ends in `_fuzz_`) lose their corpus

Model: Dirs.v: the runtime's and the tool's path computations over strings. Proof: first-occurrence lemmas of `find`; exact case distinction.

* `C08_directories_disagree` (PropsDirs.v): otherwise the recording path is a strict prefix of the one read.
* `C08_directories_agree_refuted` (PropsDirs.v): agreement for all target names is refuted: target [a_fuzz_] records into the directory read for target [a].
* `C08_example` (PropsDirs.v): concrete case.

### C09 Directories of different targets and different kinds of data never overlap

Model: Dirs.v: component paths. Proof: injectivity of path segments and of crate and target names.

* `C09_directories_disjoint` (PropsDirs.v): if some path lies in a data directory of one target and in one of another, then id, kind, (normalised) crate and target are the same. The directories are the places of the program's texts; ids have no slashes, or only tame ones (see C103).
* `C09_output_subdirectories` (PropsDirs.v): crashes, hangs and queue are inside the output directory.
* `C09_crate_names_distinct_refuted` (PropsDirs.v): crates that differ only by dash/underscore share their directories.
* `C09_layout` (PropsDirs.v): where the data of a target is, spelled out.
* `C09_example` (PropsDirs.v): concrete case.

### C10 TEST_FUZZ_ID partitions all data directories

Model: Dirs.v: component paths. Proof: injectivity of path segments and of crate and target names.

* `C10_ids_disjoint` (PropsDirs.v): data directories with different ids (or with and without id) never overlap, whatever the kinds, crates and targets, for ids without slashes.
* `C10_id_source` (PropsDirs.v): the id is TEST_FUZZ_ID when it is set and UTF-8, and there is none outside the project's own tests otherwise.
* `C10_thread_id` (PropsDirs.v): the thread's number appears in the id between "ThreadId_" and "_".
* `C10_example` (PropsDirs.v): concrete case.

### C11 Target discovery is exact

Model: Targets.v: `lines`, `strip_suffix`, the loop over the listing. Proof: equality with a declarative specification, induction.

* `C11_targets_exact` (PropsTargets.v): for every listing whose lines are UTF-8, the targets found are exactly those of the lines [T_fuzz__::entry: test], in order.
* `C11_listings_cover_all_outputs` (PropsTargets.v): listings cover every byte string, so C11_targets_exact and C11_targets_invalid together describe [targets] completely.
* `C11_targets_invalid` (PropsTargets.v): a line that is not UTF-8 makes the whole command fail.
* `C11_listing_targets_unique` (PropsTargets.v): the targets of a listing are determined by its lines.
* `C11_example` (PropsTargets.v): concrete case.

### C12 Target filtering is exact

Model: Targets.v: `contains` as search, filters, the error cases. Proof: equivalence with an existential specification, sublists.

* `C12_filter_exact` (PropsTargets.v): with TARGETNAME [pat], each executable keeps exactly the targets equal to [pat] ([--exact]) or containing it, in order; executables left without targets disappear, the others stay in order.
* `C12_example` (PropsTargets.v): concrete case.

### C13 An empty selection is an error, never a silent success

Model: Targets.v: `contains` as search, filters, the error cases. Proof: equivalence with an existential specification, sublists.

* `C13_executables` (PropsRun8.v): the executables considered are those with targets, with all their targets, in order; the command fails exactly if some listing cannot be read.
* `C13_asked` (PropsRun8.v): that is what an invocation uses: it asks the executables one after another, up to the first failure, changes nothing, and goes on with those with targets, of which the given name selects (C12).
* `C13_example_executables` (PropsRun8.v): concrete case.
* `C13_flatten_exact` (PropsTargets.v): an empty selection is an error naming the pattern; otherwise every (executable, target) pair is listed exactly once, in order.
* `C13_example` (PropsTargets.v): concrete case.

### C14 Recorded arguments decode to themselves (postcard, the default format)

Model: Serde.v, Postcard.v: universe of serde shapes including recursive types, encoder, decoder with its buffer. Proof: induction on typing derivations; prefix-freeness from the round trip with continuation; exact boundary of the buffer.

* `C14_round_trip` (PropsSerde.v): What was recorded is decoded to itself, whatever follows it, if no string is longer than the buffer.
* `C14_round_trip_sticky` (PropsSerde.v): If the buffer is not reused, the same holds as long as everything put into it fits together.
* `C14_example` (PropsSerde.v): concrete case.

### C15 Different arguments are recorded differently

Model: Serde.v, Postcard.v: universe of serde shapes including recursive types, encoder, decoder with its buffer. Proof: induction on typing derivations; prefix-freeness from the round trip with continuation; exact boundary of the buffer.

* `C15_injective` (PropsSerde.v): different values have different encodings, and none is an initial part of another.
* `C15_same_file` (PropsSerde.v): Two calls write the same corpus file only if their arguments are equal or SHA-1 collides.
* `C15_example` (PropsSerde.v): concrete case.

### C16 Decoding arbitrary fuzzer input is total

Model: Serde.v, SerdeFacts.v, Postcard.v, Bincode.v. Proof: typing and fuel monotonicity by induction on fuel.

* `C16_well_typed` (PropsSerde.v): Whatever the input, a decoded value has the argument type.
* `C16_total` (PropsSerde.v): For types that do not mention recursive ones, decoding ends in a value or a failure on a stack of fixed depth, for every input.
* `C16_total_recursive` (PropsSerde.v): Recursive types whose definitions read something before they recurse: the depth needed grows at most linearly with the input, if reading past the end is an error.
* `C16_extension` (PropsSerde.v): The result depends on a prefix of the input only, if reading past the end is an error.
* `C16_deeper_stack` (PropsSerde.v): A deeper stack never changes a result.
* `C16_extension_refuted` (PropsSerde.v): If the end of the input reads as zeros, a truncated input can decode, and what follows it then matters.
* `C16_recursion_refuted` (PropsSerde.v): If the end of the input reads as zeros, an empty input overflows any stack for a recursive type whose first variant recurses.
* `C16_huge_value_refuted` (PropsSerde.v): And a few bytes can make a byte vector of any length.
* `C16_example` (PropsSerde.v): concrete case.

### C17 Strings longer than 2048 bytes are recorded but never decode (default format)

Model: Serde.v, Postcard.v: universe of serde shapes including recursive types, encoder, decoder with its buffer. Proof: induction on typing derivations; prefix-freeness from the round trip with continuation; exact boundary of the buffer.

* `C17_long_string_lost` (PropsSerde.v): With a string longer than the buffer the recorded bytes never decode.
* `C17_boundary_exact` (PropsSerde.v): So a corpus entry is usable exactly if none of its strings is longer than 2048 bytes.
* `C17_example` (PropsSerde.v): concrete case.

### C18 Recorded arguments decode to themselves (bincode)

Model: Serde.v, Bincode.v. Proof: as C14, with the size limit.

* `C18_round_trip` (PropsSerde.v): The recorded bytes decode to the value exactly if what is claimed for it is within one gibibyte.
* `C18_injective` (PropsSerde.v): the same for bincode.
* `C18_decoding_total` (PropsSerde.v): Arbitrary input.
* `C18_encoding_within_limit_refuted` (PropsSerde.v): An encoding far below the limit can be undecodable: 2^27 eight-byte integers, each encoded in one byte.
* `C18_example` (PropsSerde.v): concrete case.

### C19 A replayed corpus entry calls the target with the arguments of the recorded call

Model: EndToEnd.v (joins MacroArgs.v, Postcard.v, Write.v, Dirs.v, Harness.v, Entries.v, Opts.v). Proof: composition of C07, C14, C20, C30, C31, C50.

* `C19_recorded` (PropsEndToEnd.v): with `cargo test`, a call of an instrumented function first records, then behaves as the original; the recorded file is in the directory that cargo-test-fuzz will use.
* `C19_kept` (PropsEndToEnd.v): recordings of other calls, by any threads and in any order, do not disturb the file, unless they have the same digest.
* `C19_replayed` (PropsEndToEnd.v): replaying the corpus of the target, when the recorded file is in its directory, starts a harness on that file exactly once; given that file the harness calls the target exactly once, with the original arguments, and reports failure if the target panics on them and its result if it returns.
* `C19_fuzzed` (PropsEndToEnd.v): the same for fuzzing, where the recorded files are the initial inputs: the process aborts if the target panics on the original arguments.
* `C19_end_to_end` (PropsEndToEnd.v): everything together. A call during `cargo test` records a file; whatever is recorded after it (without a digest collision in that directory), replaying the corpus starts a harness on that file exactly once, and that harness calls the target exactly once, with the arguments of the original call.
* `C19_example` (PropsEndToEnd.v): concrete case.

### C20 Argument conversion round-trips for every argument type

Model: Syntax.v, SelfTy.v, MacroArgs.v: type syntax, argument mapping with the conversion table, typed evaluation of the generated expressions. Proof: induction on types; invariant of the table.

* `C20_round_trip` (PropsMacroArgs.v): One argument: the stored value exists, and from it the argument is rebuilt.
* `C20_unique` (PropsMacroArgs.v): Nothing else can be stored or rebuilt.
* `C20_call` (PropsMacroArgs.v): The whole argument list: every stored value exists, and a call with the rebuilt arguments passes the original values.
* `C20_typed_receiver_refuted` (PropsMacroArgs.v): The expansion of [self: Box<Self>] stores a [Foo]; no value can be computed for it.
* `C20_mut_self_refuted` (PropsMacroArgs.v): A receiver [mut self] is rejected in every impl.
* `C20_pattern_refuted` (PropsMacroArgs.v): For a parameter [(a, _): (u8, u8)] the field is computed from [a] alone.
* `C20_wildcard_refuted` (PropsMacroArgs.v): For [_: t] the field is computed from a variable that is no parameter.
* `C20_parenthesised_refuted` (PropsMacroArgs.v): A parenthesised reference is stored as a reference, but cloned to what it refers to.
* `C20_example` (PropsMacroArgs.v): concrete case. [fn target(&mut self, names: &[&str], text: &&str, key: Key)] of an [impl Foo], with [convert = "Key, Stored"].

### C21 A `convert` option that matches no argument is rejected

Model: Syntax.v, SelfTy.v, MacroArgs.v: type syntax, argument mapping with the conversion table, typed evaluation of the generated expressions. Proof: induction on types; invariant of the table.

* `C21_exact` (PropsMacroArgs.v): Expansion of the arguments succeeds exactly if the options are well formed, the arguments acceptable, and every conversion meets an argument without attributes.
* `C21_last_conversion` (PropsMacroArgs.v): An argument without attributes whose type has a conversion is stored as the type of the last conversion given for it, computed with [FromRef] and rebuilt with [Into].
* `C21_attributed` (PropsMacroArgs.v): An argument with attributes is stored under its own type.
* `C21_reference_refuted` (PropsMacroArgs.v): The README says that [convert = "X, Y"] also converts arguments of type [&X]. If [X] is a path, it does not, and expansion fails.
* `C21_example` (PropsMacroArgs.v): concrete case.

### C22 Generated field names are distinct unless the user writes one of the generated names

Model: MacroArgs.v: the shared counter, field names. Proof: injectivity of decimal notation, permutation argument.

* `C22_names` (PropsMacroArgs.v): The fields are named after the parameters and, for the rest, by generated names, which are pairwise distinct as long as the counter has not gone round meanwhile. [draws] are the values the shared counter had when this expansion asked for a name.
* `C22_distinct` (PropsMacroArgs.v): So the names are distinct unless the user writes one name twice or a generated one.
* `C22_shown` (PropsMacroArgs.v): In the debug output (C70) the receiver is called [self] and a parameter by its name; one without a name by the name of its field, which is a generated one.
* `C22_user_clash_refuted` (PropsMacroArgs.v): [fn f(&self, _0: u8)] as the first expansion.
* `C22_wrap_refuted` (PropsMacroArgs.v): After [2^32] names the first one comes again.
* `C22_example` (PropsMacroArgs.v): concrete case.

### C23 Generated module names follow the documented rule; collisions are characterised

Model: MacroMod.v: names of modules, expansion of functions and impl blocks, when an entry is generated. Proof: case analysis, induction on items.

* `C23_rule` (PropsMacroMod.v): The module is called after the target.
* `C23_stem_unique` (PropsMacroMod.v): Every target has exactly one stem.
* `C23_collision_exact` (PropsMacroMod.v): Two targets get the same module name exactly if they have the same stem.
* `C23_collision_cases` (PropsMacroMod.v): Without [rename]: free functions of the same name; a free function named like the type and the method; methods of types with the same last name, if these have no underscore.
* `C23_discovered` (PropsMacroMod.v): The target is found by [cargo test-fuzz] under its scope and stem (C11), and the directories are those the instrumented function writes to (C07).
* `C23_distinct_targets_refuted` (PropsMacroMod.v): [fn Foo_bar] and [bar] in [impl Foo] collide; so do the [bar] of two traits implemented for [Foo].
* `C23_example` (PropsMacroMod.v): concrete case.

### C24 test_fuzz_impl changes only attributed functions

Model: MacroMod.v: names of modules, expansion of functions and impl blocks, when an entry is generated. Proof: case analysis, induction on items.

* `C24_items` (PropsMacroMod.v): Items without the attribute are kept, attributed functions are instrumented, all in order; one module for each of them, in order; the warning exactly if there is none.
* `C24_second_attribute_refuted` (PropsMacroMod.v): Only the first [test_fuzz] attribute is taken: a second one is still there.
* `C24_example` (PropsMacroMod.v): concrete case.
* `C24_function` (PropsMacroMod.v): A function of its own keeps everything but the attributes of its parameters.

### C25 Turbofish insertion is sound and complete

Model: Turbofish.v: token lists. Proof: induction on tokens.

* `C25_only_before_lists` (PropsTurbofish.v): The result is the printed type with [::] inserted, each time immediately before an occurrence of an argument list that is not yet preceded by [::].
* `C25_every_occurrence` (PropsTurbofish.v): Every occurrence of an argument list that is there when the list is visited is preceded by [::] in the end.
* `C25_already_done` (PropsTurbofish.v): Where every occurrence is preceded already, nothing changes.
* `C25_self_type` (PropsTurbofish.v): A self type such as [a::b::Foo<T>]: its arguments are preceded by [::] and inside them [::] is inserted only.
* `C25_no_arguments` (PropsTurbofish.v): A type without argument lists is printed as it is.
* `C25_changed_list_refuted` (PropsTurbofish.v): Not every list gets its [::]: in [A<u8>::B<C<u8>>] the list of [B] changes when [<u8>] is visited, and is not found any more.
* `C25_second_colons_refuted` (PropsTurbofish.v): An argument list written with [::] gets a second one.
* `C25_not_a_list_refuted` (PropsTurbofish.v): [::] is inserted where there is no argument list: in [<T>::Foo<T>] also before the qualified self type.
* `C25_example` (PropsTurbofish.v): concrete case.

### C26 Self expansion eliminates Self

Model: Syntax.v, SelfTy.v: expansion of `Self`. Proof: induction on types.

* `C26_replaced` (PropsSelf.v): In an impl of a trait: every [Self] is replaced, nothing else is changed.
* `C26_eliminated` (PropsSelf.v): No [Self] is left, if there is none in the self type, in the trait path and in the arguments of associated types.
* `C26_unchanged` (PropsSelf.v): A type without [Self] is unchanged.
* `C26_inherent` (PropsSelf.v): Outside an impl of a trait exactly the types with an associated type of [Self] are rejected.
* `C26_associated_arguments_refuted` (PropsSelf.v): [Self] inside the arguments of an associated type stays.
* `C26_array_length_refuted` (PropsSelf.v): So does [Self] in the length of an array: the tokens still contain it.
* `C26_example` (PropsSelf.v): concrete case.

### C27 Generic arguments are matched to parameters from the right and lifetimes are completed

Model: SelfTy.v, Turbofish.v, MacroMod.v: matching of generic arguments. Proof: list lemmas.

* `C27_assigned_from_the_right` (PropsSelf.v): The arguments belong to the last parameters, in order; the other parameters get none.
* `C27_too_many` (PropsSelf.v): Exactly too many arguments are rejected.
* `C27_substitution` (PropsSelf.v): Substitution replaces exactly the names in the map; names with a lifetime or constant as argument are rejected.
* `C27_substitution_rejected` (PropsSelf.v): If a name whose argument is a lifetime or a constant is to be replaced, the macro panics; it never reports an error of its own.
* `C27_parameter_gone` (PropsSelf.v): A parameter with a type argument does not occur afterwards.
* `C27_lifetimes_completed` (PropsSelf.v): Afterwards there is one lifetime argument for each lifetime parameter; more than that are rejected.
* `C27_order_exact` (PropsSelf.v): Given arguments in that order, the completed list is in that order exactly if nothing had to be added or there are lifetimes only.
* `C27_order_refuted` (PropsSelf.v): [fn f<'a, T>] with [generic_args = "u8"] gives [<u8, 'static>].
* `C27_constant_refuted` (PropsSelf.v): A constant argument of the impl is not substituted: [impl<const N: usize> Foo<N>] with [impl_generic_args = "3"] still calls [Foo<N>].
* `C27_combined` (PropsSelf.v): The combined parameters and arguments: those of the impl, then those of the function.
* `C27_example` (PropsSelf.v): concrete case.

### C28 The harness is inert in an ordinary `cargo test`

Model: Harness.v: entry as a function from environment and standard input to a trace of events. Proof: case analysis.

* `C28_inert` (PropsHarness.v): with TEST_FUZZ unset, 0 or not UTF-8 the harness does nothing but warn and pass.
* `C28_example` (PropsHarness.v): concrete case.

### C29 Displaying never runs the target

Model: Harness.v: entry as a function from environment and standard input to a trace of events. Proof: case analysis.

* `C29_display_never_calls` (PropsHarness.v): displaying never runs the target and never aborts the process.
* `C29_display_shows` (PropsHarness.v): and it shows the arguments (in the asked format).
* `C29_example` (PropsHarness.v): concrete case.

### C30 Fuzzing, replay and coverage call the target exactly once per decodable input and never otherwise

Model: Harness.v: entry as a function from environment and standard input to a trace of events. Proof: case analysis.

* `C30_called_once` (PropsHarness.v): when fuzzing, replaying or measuring coverage the target is called once with the decoded arguments, or not at all if the input does not decode (the test then passes), and never with anything else. (When also displaying, a panic while printing the arguments comes first.
* `C30_panic` (PropsHarness.v): a panicking target aborts the process when fuzzing; when replaying or measuring coverage only the test fails.
* `C30_coverage_warning` (PropsHarness.v): the warning that coverage will not be shown (the function has several statements) comes first, exactly when measuring coverage of such a function.
* `C30_returns` (PropsHarness.v): a returning target makes the fuzzing harness pass silently; replaying shows the result.
* `C30_example` (PropsHarness.v): concrete case.

### C31 Instrumentation is transparent and records before the call

Model: Harness.v: the instrumented function over an arbitrary state. Proof: case analysis.

* `C31_records_then_runs` (PropsHarness.v): in a test build with TEST_FUZZ off, the generic arguments and (unless only_generic_args) the arguments are recorded first, in this order, and then the function does exactly what the original does, panicking or not; if recording panics, the original is not run.
* `C31_recording_failure_panics_first` (PropsHarness.v): if the first recording panics, so does the function, and its body is not run.
* `C31_transparent` (PropsHarness.v): when the call is not recorded the function is exactly the original.
* `C31_example` (PropsHarness.v): concrete case.

### C32 Recording in production is off unless explicitly enabled

Model: Harness.v: the instrumented function over an arbitrary state. Proof: case analysis.

* `C32_production_off` (PropsHarness.v): outside test builds nothing is recorded unless enable_in_production was given and TEST_FUZZ_WRITE is on.
* `C32_production_on` (PropsHarness.v): with both it records, whatever TEST_FUZZ is; in test builds neither TEST_FUZZ_WRITE nor enable_in_production matters.
* `C32_test_build_ignores_write` (PropsHarness.v): in test builds only TEST_FUZZ and [only_generic_args] matter.
* `C32_example` (PropsHarness.v): concrete case.

### C33 cargo test-fuzz never records while fuzzing, displaying or replaying

Model: Env.v, Opts.v, Harness.v: environments as overlays. Proof: overlay lemmas.

* `C33_entries_never_record` (PropsHarness.v): a harness started for display, replay or coverage, or by the fuzzer, never records, whatever the environment cargo test-fuzz itself runs in ([parent]) and the coverage tool's variables ([llvm]).
* `C33_fuzzing_never_records` (PropsHarness.v): nor does a harness run by the fuzzer.
* `C33_example` (PropsHarness.v): concrete case.

### C34 The harness runs in the mode the user asked for

Model: Env.v, Opts.v, Harness.v: environments as overlays. Proof: overlay lemmas.

* `C34_modes_as_asked` (PropsHarness.v): if none of the mode variables is inherited, the modes are those of the command line.
* `C34_modes_as_asked_refuted` (PropsHarness.v): without that hypothesis it fails: there is an inherited environment in which fuzzing never calls any target.
* `C34_example` (PropsHarness.v): concrete case.

### C35 The not-enabled warning is printed at most once per process

Model: Harness.v (`once`, `wstep`): threads around `Once`. Proof: inductive invariant over all interleavings.

* `C35_at_most_once` (PropsHarness.v): at most one warning, whatever the threads do and whatever the checks say; with a constant environment exactly one (once a thread is through) if TEST_FUZZ is off and none if it is on.
* `C35_once_iff_disabled` (PropsHarness.v): with TEST_FUZZ constant, exactly one warning once a thread is through, if it is off, and none if it is on.
* `C35_example` (PropsHarness.v): concrete case.

### C36 Auto-generation uses every auto-generated value

Model: Auto.v: value lists, their combination, integer arithmetic with widths. Proof: index arithmetic.

* `C36_every_value_used` (PropsAuto.v): if every argument has a value, every value of every argument occurs in some entry at that argument's place.
* `C36_only_generated_values` (PropsAuto.v): entries are made of generated values only, one per argument.
* `C36_example` (PropsAuto.v): concrete case.

### C37 Auto-generation produces exactly as many entries as the longest value list

Model: Auto.v: value lists, their combination, integer arithmetic with widths. Proof: index arithmetic.

* `C37_count_exact` (PropsAuto.v): the number of entries, for every list of value lists; no index is out of bounds and there is no division by zero (the result is never a panic).
* `C37_example` (PropsAuto.v): concrete case.

### C38 Auto-generated integers are the documented ones and never overflow

Model: Auto.v: value lists, their combination, integer arithmetic with widths. Proof: index arithmetic.

* `C38_values` (PropsAuto.v): for every integer type of at least three bits the generated values are those of the documentation; nothing overflows.
* `C38_in_range_and_middle` (PropsAuto.v): all of them are in range, and the two middle values are adjacent and split the range into halves.
* `C38_example` (PropsAuto.v): concrete case.

### C39 Auto-generation of corpora attempts every target and reports every failure

Model: AutoGen.v with an oracle for each attempt, CommandText.v: the text of the failed command. Proof: induction on targets; the escaping is prefix-free by computation over all bytes.

* `C39_all_attempted` (PropsAuto.v): generation is attempted exactly for the targets without a corpus directory, for all of them in order, whatever fails. [fate] tells how each attempt ended: with a corpus ([None]), with a successful process but no corpus ([Some true]), or with a failed process ([Some false]). Fuzzing proceeds exactly if no attempt failed, and then every target has a corpus directory; otherwise the error has one line for each failure. Each attempt and each corpus obtained is announced.
* `C39_words_shown` (PropsAuto.v): every word of the command is shown byte by byte, in quotation marks.
* `C39_error_identifies` (PropsAuto.v): how the failed command is shown: each of its words in quotation marks, and unusual characters in an unambiguous way, so that the line tells the executable and the target.
* `C39_nothing_to_do` (PropsAuto.v): nothing is attempted, and fuzzing proceeds, if every corpus exists.
* `C39_test_selected` (PropsAuto.v): the process runs exactly the test [auto_generate] of the module whose test [entry] makes the target known.
* `C39_generated_corpus` (PropsAuto.v): what the generated test writes: outside of fuzzing, the encoding of every entry, and nothing else; it succeeds if the corpus directory is usable.
* `C39_inherited_variable_refuted` (PropsAuto.v): with TEST_FUZZ set in the environment of cargo test-fuzz (which the generating process inherits, cargo-test-fuzz/src/lib.rs:1516) nothing is ever generated: the attempt succeeds but leaves no corpus, so fuzzing is refused.
* `C39_example` (PropsAuto.v): concrete case.

### C40 Version compatibility check is symmetric and exact for releases

Model: Semver.v: parsing, ordering and caret requirements of versions. Proof: case analysis, order lemmas.

* `C40_release_exact` (PropsSemver.v): for releases, acceptance is semver compatibility, whichever is newer.
* `C40_symmetric` (PropsSemver.v): symmetric in the two versions.
* `C40_missing` (PropsSemver.v): a missing dependency is always an error that names it.
* `C40_prerelease_tool` (PropsSemver.v): a prerelease tool is never rejected.
* `C40_prerelease_dependency` (PropsSemver.v): a prerelease dependency needs a release tool that is compatible and not older.
* `C40_all_executables` (PropsSemver.v): the whole check passes iff every executable passes both of its checks.
* `C40_first_error` (PropsSemver.v): the reported error is that of the first failing executable.
* `C40_example` (PropsSemver.v): concrete case.

### C41 The upgrade warning means what it says for releases

Model: Semver.v: parsing, ordering and caret requirements of versions. Proof: case analysis, order lemmas.

* `C41_hint_exact` (PropsSemver.v): for accepted releases the hint is printed exactly when the dependency is newer.
* `C41_hint_text` (PropsSemver.v): the hint, when printed, carries the right names and versions, and is printed at most once per check.
* `C41_all_hints` (PropsSemver.v): what is printed, over all executables: the hints of every check, in order, up to the first check that fails.
* `C41_prerelease_tool` (PropsSemver.v): for a prerelease tool, exactly when the hint is printed.
* `C41_hint_means_newer_refuted` (PropsSemver.v): so a prerelease tool may claim "newer" of an older dependency.
* `C41_example` (PropsSemver.v): concrete case.

### C42 One invocation performs one kind of action

Model: Run.v, RunFacts.v: a whole invocation as a function of options and answers of the outside world. Proof: case analysis and composition of the lemmas on the parts.

* `C42_one_kind` (PropsRun.v): Everything an invocation does beyond preparing is of the one kind it asks for.
* `C42_invalid_rejected` (PropsRun.v): Invalid objects are rejected before anything at all is done; the message names the option and the object as they are written on the command line.
* `C42_data_untouched` (PropsRun.v): Listing, building only, and showing change no data directory; only resetting, consolidating and auto-generation do.
* `C42_success_means_done` (PropsRun.v): A successful invocation has done what it asks for.
* `C42_shown_targets_exact` (PropsRun.v): Showing reaches exactly the selected targets that the executables list.
* `C42_built_first` (PropsRun.v): Before any work the program has been built, with the command line of C77.
* `C42_directory_shown` (PropsRun.v): The directory shown is that of the first given of --coverage, --display, --replay.
* `C42_clear_is_consolidate_or_reset` (PropsRun.v): Clearing is the function of C46-C49.
* `C42_replay_object_ignored_refuted` (PropsRun.v): Asked to display one object and replay another, the tool looks at the first only.
* `C42_example` (PropsRun.v): concrete case.
* `C42_coverage_report` (PropsRun2.v): With --coverage, old coverage data are removed before any target is run and the report is made after all of them; otherwise neither happens.
* `C42_clean_failure` (PropsRun2.v): If the old data cannot be removed, no target is run.
* `C42_cleared_targets` (PropsRun2.v): Consolidating and resetting work on exactly the targets reached, under the names of their executables.
* `C42_fuzzed_targets` (PropsRun2.v): Fuzzing works on exactly the targets reached: corpora are generated for them (C39), a single one is fuzzed in the foreground with the command line of C45, several ones by the parallel loop of C52-C58, without user interface if --no-ui or --exit-code is given.
* `C42_coverage_example` (PropsRun2.v): concrete case. One of the two targets is selected; its coverage is measured between cleaning and reporting.
* `C42_cleared_example` (PropsRun2.v): concrete case.
* `C42_fuzzed_example` (PropsRun2.v): concrete case.

### C43 Instrumentation choice is consistent

Model: Run.v, RunFacts.v: a whole invocation as a function of options and answers of the outside world. Proof: case analysis and composition of the lemmas on the parts.

* `C43_never_both` (PropsRun.v): C43
* `C43_instrumented_exact` (PropsRun.v): Without --list and --coverage, the program is built with fuzzing instrumentation exactly if every object given to --display and --replay is an instrumented one.
* `C43_fuzzing_uses_instrumented_build` (PropsRun.v): Whenever a fuzzer is started, the program was built by cargo-afl into the directory for instrumented programs.
* `C43_example` (PropsRun.v): concrete case.

### C44 Exit codes mean what the documentation says

Model: Run.v, RunFacts.v: a whole invocation as a function of options and answers of the outside world. Proof: case analysis and composition of the lemmas on the parts.

* `C44_exit_codes` (PropsRun.v): With --exit-code: status 2 exactly if the work returned an error; status 1 exactly if some fuzzer of the session stopped programmatically without having reached its time limit; status 0 exactly if the work succeeded; a panic is 101.
* `C44_without_exit_code` (PropsRun.v): Without --exit-code errors are returned to the caller (so main exits with 1), and nothing exits on its own.
* `C44_no_ui` (PropsRun.v): --exit-code implies --no-ui.
* `C44_missing_cargo_afl_refuted` (PropsRun.v): Without cargo-afl, --exit-code does not give 2: the process panics.
* `C44_example` (PropsRun.v): concrete case. Two targets; the second one's fuzzer finds something before any time limit.
* `C44_exit_code_implies_no_ui` (PropsRun2.v): --exit-code implies --no-ui and changes no other option.
* `C44_exit_code_1_exact` (PropsSched.v): With --exit-code the process exits with 1 exactly at the first regular end of a fuzzer whose output does not say that its time limit was reached.
* `C44_exit_example` (PropsSched.v): concrete case.

### C45 The fuzzer command line is well-formed

Model: FuzzCmd.v: `fuzz_command`, the preparations of `fuzz`. Proof: direct; order of comparisons.

* `C45_arguments_exact` (PropsFuzzCmd.v): the arguments of the fuzzer, exactly, for every timeout whose milliseconds fit.
* `C45_outputs_differ` (PropsFuzzCmd.v): the output directories of different targets are given different names (if the paths are text at all).
* `C45_harness_command` (PropsFuzzCmd.v): if the user's arguments contain no [--], what follows the first [--] is exactly the executable and the exact entry test.
* `C45_harness_command_refuted` (PropsFuzzCmd.v): a [--] among the user's arguments replaces the harness.
* `C45_timeout_overflow_panics` (PropsFuzzCmd.v): a larger timeout overflows: a panic with overflow checks, ...
* `C45_timeout_milliseconds_refuted` (PropsFuzzCmd.v): ... and without them a much smaller limit than requested, here 384 milliseconds for over five hundred million years.
* `C45_example` (PropsFuzzCmd.v): concrete case.

### C46 Consolidation never loses a finding

Model: Consolidate.v on Fs.v, every file system operation may fail or be the last. Proof: induction over entries with crash points.

* `C46_exact` (PropsConsTest.v): after a successful consolidation the files of a content-addressed corpus are those that were there and the findings of the selected targets with that corpus, each under the name of its contents; and no directory has appeared among them.
* `C46_seen_by_test` (PropsConsTest.v): cargo-test-fuzz/tests/integration/consolidate.rs:48,67: if before the consolidation there was just the one recorded call, then afterwards there is more than one entry exactly if the fuzzer had found something else.
* `C46_test_example` (PropsConsTest.v): concrete case.
* `C46_no_finding_lost` (PropsConsolidate.v): after a successful consolidation every finding of every selected target is in the target's corpus, every content-addressed corpus entry is kept, and the selected targets' output is gone.
* `C46_crash_safe` (PropsConsolidate.v): at every intermediate point, including in the middle of a write or of the removal, each finding is still in the output or already in the corpus.
* `C46_succeeds` (PropsConsolidate.v): consolidation succeeds when the three directories of every selected target exist and contain only files (README.txt and .state aside), the corpora can be written to and no operation fails without need.
* `C46_reset_all_wins_refuted` (PropsConsolidate.v): with [--reset-all] as well, [--consolidate] is ignored: the finding is nowhere afterwards.
* `C46_example` (PropsConsolidate.v): concrete case.

### C47 A failed consolidation deletes nothing

Model: Consolidate.v on Fs.v, every file system operation may fail or be the last. Proof: induction over entries with crash points.

* `C47_failed_consolidation_removes_nothing` (PropsConsolidate.v): if consolidation fails the invocation fails, and nothing in any output directory, of any target, has changed.
* `C47_corpus_kept` (PropsConsolidate.v): and, unless a write failed half-way, every content-addressed corpus entry is still there; if one did, the entry's data is still in an output directory.
* `C47_never_fuzzed_fails` (PropsConsolidate.v): a target that was never fuzzed (one of its directories is missing) makes consolidation fail.
* `C47_write_error_keeps_corpus_refuted` (PropsConsolidate.v): a write that fails half-way leaves an entry of the corpus truncated.
* `C47_example` (PropsConsolidate.v): concrete case. The second target was never fuzzed: the first is consolidated, then the command fails; both outputs are as before.

### C48 Reset removes exactly the selected targets' fuzzing data

Model: Consolidate.v on Fs.v, every file system operation may fail or be the last. Proof: induction over entries with crash points.

* `C48_reset_exact` (PropsConsolidate.v): a successful reset removes exactly the selected targets' output directories.
* `C48_reset_contained` (PropsConsolidate.v): whatever happens, nothing outside the selected output directories changes.
* `C48_others_untouched` (PropsConsolidate.v): in particular every corpus (and every generic-arguments directory), and the output of every target that is not selected, is unchanged.
* `C48_reset_succeeds` (PropsConsolidate.v): a missing output directory is not an error: reset succeeds whenever every selected output is missing or a directory.
* `C48_example` (PropsConsolidate.v): concrete case.

### C49 --consolidate-all with several targets consolidates and then crashes

Model: Consolidate.v on Fs.v, every file system operation may fail or be the last. Proof: induction over entries with crash points.

* `C49_consolidate_all_crashes` (PropsConsolidate.v): [--consolidate-all] without [--reset-all] never succeeds unless exactly one executable with exactly one target is selected; if consolidating succeeds, it crashes afterwards, with the outputs still there.
* `C49_consolidate_all_works_refuted` (PropsConsolidate.v): hence "--consolidate-all moves all targets' findings" fails on two healthy targets.
* `C49_single_target_only` (PropsConsolidate.v): [--consolidate] and [--reset] crash before touching anything unless exactly one executable with exactly one target is selected.
* `C49_example` (PropsConsolidate.v): concrete case.

### C50 Display, replay and coverage show every entry exactly once

Model: Entries.v: entries to printed text, started processes and verdict. Proof: fold invariants.

* `C50_each_entry_once` (PropsEntries.v): if no operation fails, every file of the directory except README.txt and .state is reported exactly once, in listing order; a harness is started once for each of them, in that order, unless the object is raw, and then none is.
* `C50_entries_exact` (PropsEntries.v): the entries are exactly the listed names other than README.txt and .state, in listing order.
* `C50_failure_stops_in_order` (PropsEntries.v): whatever fails, what was reported is the reports of an initial part of the listing, and at most the entry whose harness failed was started besides.
* `C50_report_shape` (PropsEntries.v): an entry has one report; it begins with the entry's name; the report of a harness's output ends with a newline.
* `C50_arguments` (PropsEntries.v): every harness is started on exactly the target's entry test, uncaptured, with the requested time limit (one second by default).
* `C50_directory` (PropsEntries.v): the objects and their directories; raw are exactly the generic-argument objects; the hint to run `cargo test` is given exactly for what `cargo test` records.
* `C50_every_report_ends_with_newline_refuted` (PropsEntries.v): a directly read empty file is reported without a newline.
* `C50_example` (PropsEntries.v): concrete case.

### C51 Summary messages of display and replay are accurate

Model: Entries.v: entries to printed text, started processes and verdict. Proof: fold invariants.

* `C51_summary_exact` (PropsEntries.v): the message after the entries, exactly ([summary] is a specification).
* `C51_failures_are_not_errors` (PropsEntries.v): a failing or hanging entry never makes the command fail: it fails only if the directory is missing or cannot be listed or some operation on a listed name fails. The internal assertion always holds.
* `C51_error_text` (PropsEntries.v): the message of a failure names the operation and the path.
* `C51_participle` (PropsEntries.v): the word for what was being done.
* `C51_example` (PropsEntries.v): concrete case.

### C52 At most the permitted number of fuzzers run, and never two for one target

Model: Sched.v: state, step function, batches of events (SchedInv.v, SchedProofs.v). Proof: inductive invariants over all runs; livelock witness.

* `C52_bounded_parallelism` (PropsSched.v): at every moment of every session
* `C52_count_exact` (PropsSched.v): Between two iterations the internal count is exact.
* `C52_events_of_running` (PropsSched.v): Only fuzzers that were started can end, and lines are only shown for running fuzzers.
* `C52_example` (PropsSched.v): concrete case.

### C53 The parallel fuzzing loop never hits an internal assertion

Model: Sched.v: state, step function, batches of events (SchedInv.v, SchedProofs.v). Proof: inductive invariants over all runs; livelock witness.

* `C53_never_panics` (PropsSched.v): C53
* `C53_unregistered_event_panics` (PropsSched.v): The hypotheses are needed: an event for a target that is not running panics.
* `C53_example` (PropsSched.v): concrete case.

### C54 Failed targets are not restarted and do not stop the others

Model: Sched.v: state, step function, batches of events (SchedInv.v, SchedProofs.v). Proof: inductive invariants over all runs; livelock witness.

* `C54_failed_never_restarted` (PropsSched.v): C54
* `C54_failed_exactly` (PropsSched.v): A fuzzer's end marks its target as failed exactly if it was unsuccessful or its output lacks the abort marker.
* `C54_gives_up_only_if_all_failed` (PropsSched.v): The session gives up only when, and as soon as, every target has failed.
* `C54_gives_up_when_all_failed` (PropsSched.v): Once every target has failed, the next iteration ends the session with an error.
* `C54_others_served` (PropsSched.v): A failure leaves the others alone: the next turn of a healthy target that is not running starts it, if a cpu is free.
* `C54_example` (PropsSched.v): concrete case.

### C55 A target's first run uses its corpus and later runs resume

Model: Sched.v: state, step function, batches of events (SchedInv.v, SchedProofs.v). Proof: inductive invariants over all runs; livelock witness.

* `C55_first_run_exact` (PropsSched.v): C55
* `C55_example` (PropsSched.v): concrete case.

### C56 Time-sliced fuzzing is round-robin fair

Model: Sched.v: state, step function, batches of events (SchedInv.v, SchedProofs.v). Proof: inductive invariants over all runs; livelock witness.

* `C56_cyclic` (PropsSched.v): The turns are cyclic, ...
* `C56_skip_only_if` (PropsSched.v): ... a turn is passed over only for a failed or running target, ...
* `C56_fair` (PropsSched.v): ... hence between two starts of a target every other target was started, or its turn came while it had failed or was running.
* `C56_example` (PropsSched.v): concrete case.

### C57 Time-sliced fuzzing always makes progress while enough targets are healthy; otherwise it spins forever

Model: Sched.v: state, step function, batches of events (SchedInv.v, SchedProofs.v). Proof: inductive invariants over all runs; livelock witness.

* `C57_progress` (PropsSched.v): As long as there are at least as many healthy targets as cpus, the loop waits for events at least once in any [n + 1] iterations.
* `C57_livelock` (PropsSched.v): Otherwise, once every healthy target is running and a cpu is free, it spins forever: whatever happens, no event is ever waited for and nothing is started.
* `C57_always_progress_refuted` (PropsSched.v): Such states are reachable: three targets, two cpus, two failures.
* `C57_example` (PropsSched.v): concrete case.

### C58 With enough cpus every target is fuzzed exactly once and the session ends when all are done

Model: Sched.v: state, step function, batches of events (SchedInv.v, SchedProofs.v). Proof: inductive invariants over all runs; livelock witness.

* `C58_started_at_most_once` (PropsSched.v): With enough cpus no target is ever started twice or passed over.
* `C58_success_means_all_done` (PropsSched.v): A successful session has started and finished every target exactly once, and not all targets have failed.
* `C58_ends_when_all_done` (PropsSched.v): Conversely, as soon as every target's fuzzer has ended and not all failed, the session ends successfully.
* `C58_starts_without_waiting` (PropsSched.v): While some target has not been started, a free cpu is used for it at once.
* `C58_example` (PropsSched.v): concrete case.

### C59 Output handling does not depend on how output is chunked

Model: Lines.v: non-blocking reads. Proof: invariance under chunking by induction.

* `C59_lines_independent_of_chunks` (PropsLines.v): whatever way the output [render ls last] ([ls] complete lines with LF or CRLF, [last] incomplete) is delivered in events and reads, exactly the lines [ls] are shown, in order, each once, and [last] is held back.
* `C59_every_output` (PropsLines.v): every output is of that form, so the previous theorem is about every output.
* `C59_invalid_utf8_is_error` (PropsLines.v): invalid UTF-8 in a complete line is an error, however it is chunked.
* `C59_read_error_is_error` (PropsLines.v): a failing read is never ignored.
* `C59_example` (PropsLines.v): concrete case.

### C60 Time-limit and abort markers are recognised wherever they occur in a complete line

Model: Lines.v: non-blocking reads. Proof: invariance under chunking by induction.

* `C60_markers_exact` (PropsLines.v): the markers are recognised iff a complete line contains them.
* `C60_example` (PropsLines.v): concrete case.

### C61 Line truncation keeps as much as fits and no more

Model: Ui.v: binary search over a streaming stripper of escape sequences, dividers, panels. Proof: loop invariant, arithmetic.

* `C61_truncation` (PropsUi.v): truncation gives the shortest initial part of the line that shows [width] bytes, or the whole line, for every stream-like removal of escape sequences.
* `C61_ascii_lines_never_panic` (PropsUi.v): and ASCII lines always have one.
* `C61_example` (PropsUi.v): concrete case.

### C62 Line truncation crashes on some non-ASCII lines

Model: Ui.v: binary search over a streaming stripper of escape sequences, dividers, panels. Proof: loop invariant, arithmetic.

* `C62_panics_inside_character` (PropsUi.v): a line of two or more bytes whose middle byte is inside a character makes it panic, for every width and every way to remove escape sequences.
* `C62_truncation_total_refuted` (PropsUi.v): such lines exist among valid UTF-8: "truncation of valid text succeeds" is refuted.
* `C62_example` (PropsUi.v): concrete case.

### C63 Dividers have exactly the requested width

Model: Ui.v: binary search over a streaming stripper of escape sequences, dividers, panels. Proof: loop invariant, arithmetic.

* `C63_divider` (PropsUi.v): dividers of plain ASCII target names are exactly as wide as requested: the name, a space and dashes, cut to the width.
* `C63_example` (PropsUi.v): concrete case.

### C64 Panels exactly fill the terminal

Model: Ui.v: binary search over a streaming stripper of escape sequences, dividers, panels. Proof: loop invariant, arithmetic.

* `C64_panels_fill_screen` (PropsUi.v): the panels of the running fuzzers fill all rows but the last; heights differ by at most one; each panel is a divider followed by the truncated newest lines of its fuzzer and empty rows, and the buffer keeps exactly the lines shown ([screen] in Ui.v).
* `C64_small_terminal` (PropsUi.v): on a terminal that is too small, or without the display, nothing is drawn and nothing is lost.
* `C64_example` (PropsUi.v): concrete case.

### C65 Serde combinators are transparent and round-trip

Model: Combinators.v: stacks of combinators over a store of lock cells, other threads acting in between. Proof: induction on stacks.

* `C65_transparent` (PropsCombinators.v): Whatever other threads do meanwhile: if the innermost value is serialised at all, the result is exactly that of serialising it; and it is the value that lies innermost at that moment, with every lock above it held.
* `C65_alone` (PropsCombinators.v): With nothing else running, the result is that of the innermost value, provided the locks are to be had.
* `C65_deserialise` (PropsCombinators.v): Deserialising propagates errors, and otherwise puts the innermost value into a fresh stack of unlocked locks.
* `C65_round_trip` (PropsCombinators.v): Round trip through any format that gives back the innermost value.
* `C65_postcard` (PropsCombinators.v): In particular for the values and the format of the corpus (C14).
* `C65_example` (PropsCombinators.v): concrete case.

### C66 Serialising locks never blocks

Model: Combinators.v: stacks of combinators over a store of lock cells, other threads acting in between. Proof: induction on stacks.

* `C66_course` (PropsCombinators.v): Whatever other threads do, serialisation takes the course specified, with at most one attempt and one release for each lock of the type: no attempt waits or is repeated.
* `C66_guards_returned` (PropsCombinators.v): Afterwards this thread holds the guards it held before.
* `C66_unchanged` (PropsCombinators.v): With nothing else running, all locks are as before; if the innermost serialisation panics, the mutexes on the way are poisoned, and that is all.
* `C66_state_as_before_refuted` (PropsCombinators.v): A mutex whose content once panicked when serialised can not be serialised any more.
* `C66_write_locked_refuted` (PropsCombinators.v): A read-write lock that is neither write-locked nor poisoned can still be refused, while threads are queued for it.
* `C66_example` (PropsCombinators.v): concrete case. The mutex is held elsewhere; the outer lock is given back.

### C67 Converting a command for the subprocess library preserves it

Model: Env.v: `to_exec`. Proof: overlay lemmas.

* `C67_conversion_preserves` (PropsHarness.v): converting a command preserves program, arguments, directory and effective environment; variables added afterwards win.
* `C67_later_variables_win` (PropsHarness.v): variables set after the conversion win over those of the command and the inherited ones.
* `C67_example` (PropsHarness.v): concrete case.

### C68 Dependency version lookup is exact

Model: Meta.v: packages and features of cargo's metadata. Proof: list search lemmas.

* `C68_versions_exact` (PropsMeta.v): for every dependency graph the reported versions are those of the first direct dependency called test-fuzz and of that package's first direct dependency called afl.
* `C68_error_exact` (PropsMeta.v): the lookup fails exactly if the graph is broken at the package or at its test-fuzz dependency, and never panics.
* `C68_error_text` (PropsMeta.v): what the failed lookup says.
* `C68_executables_exact` (PropsMeta.v): the executables are exactly the executables of test artifacts, in order.
* `C68_example` (PropsMeta.v): concrete case.

### C69 Two runs in one process can interfere

Model: Build.v: write-once caches over sequences of runs. Proof: witness and invariant.

* `C69_first_run_wins` (PropsBuild.v): Whatever the later runs' options are, all runs of a process use the metadata, target directory and environment of the first run.
* `C69_single_run_own` (PropsBuild.v): A single run uses its own options, and only asking cargo for metadata or for the coverage environment can fail.
* `C69_stale_directory_refuted` (PropsBuild.v): So a fuzzing run after a listing run of the same process builds the instrumented program into the directory of ordinary builds; alone it would not.
* `C69_example` (PropsBuild.v): concrete case.

### C70 Values without Debug are shown by their type's name

Model: DebugName.v: placeholders for types without `Debug`. Proof: string lemmas.

* `C70_placeholder` (PropsDebug.v): For every type name [t], wherever [TryDebug] itself is defined, the placeholder shows [t] in full, even if [t] mentions [TryDebug<] itself; there is no panic.
* `C70_distinct` (PropsDebug.v): Different types are never confused, and a type with [Debug] shows its own text.
* `C70_debug_is_used` (PropsDebug.v): A value that implements [Debug] is shown by it.
* `C70_example` (PropsDebug.v): concrete case.

### C71 Coverage environment paths are rebased onto the coverage target directory and otherwise untouched

Model: Build.v: `llvm_envs`, `replace_target_dir`. Proof: path prefix lemmas.

* `C71_every_variable` (PropsBuild.v): Every line [key=value] becomes one variable, in order, with the quotes around the value removed and then rebased.
* `C71_inside` (PropsBuild.v): A value lying under the workspace's target directory is moved to the same place under the other one.
* `C71_itself` (PropsBuild.v): The target directory itself, written with or without a slash at the end, becomes the other one with a slash at the end.
* `C71_outside` (PropsBuild.v): Any other value is unchanged: relative texts and paths elsewhere.
* `C71_crashes` (PropsBuild.v): A line without [=] is a crash; so is output that is not UTF-8; nothing is asked without --coverage.
* `C71_quotes_inside_refuted` (PropsBuild.v): A value that itself contains a quote is not passed on as it was.
* `C71_example` (PropsBuild.v): concrete case.

### C72 Generic arguments are recorded once per instantiation and displayed verbatim

Model: Write.v, Entries.v, GenericTest.v: `seen_texts`. Proof: composition; uniqueness of sorted lists.

* `C72_recorded_text` (PropsEntries.v): the recorded text is the type names separated by a comma and a space.
* `C72_displayed_once` (PropsEntries.v): after any history of instantiations recorded in a fresh directory, displaying it succeeds, starts no process and shows the text of every distinct instantiation exactly once, each after the name of its file and (unless empty) before a newline.
* `C72_nongeneric_newline_refuted` (PropsEntries.v): the generic arguments of a function without generic parameters are recorded as an empty text and displayed without a newline, so the message that follows on the other stream or the shell prompt appears on the same line.
* `C72_example` (PropsEntries.v): concrete case.
* `C72_seen_by_test` (PropsGenericTest.v): the tests of generic arguments read from the tool's output exactly what was recorded: after any history of instantiations in a fresh directory, the comparison holds precisely if the expected texts are in strictly increasing order and are the texts of the instantiations that happened.
* `C72_seen_example` (PropsGenericTest.v): concrete case.

### C73 The fuzzing plan fits the options

Model: FuzzCmd.v: `fuzz_command`, the preparations of `fuzz`. Proof: direct; order of comparisons.

* `C73_plan_exact` (PropsFuzzCmd.v): how fuzzing is carried out. [cpus] is the number of processors, at least one.
* `C73_no_coverage` (PropsFuzzCmd.v): with coverage requested, fuzzing is an internal error.
* `C73_example` (PropsFuzzCmd.v): concrete case.

### C75 cargo-afl's version is the first word after its name, anything else stops the tool

Model: Build.v: the version question and the build command. Proof: case analysis.

* `C75_version_exact` (PropsBuild.v): The version is the first word after the prefix; anything else is refused; and a refusal ends the process with a panic.
* `C75_missing_is_a_panic` (PropsBuild.v): Without cargo-afl the process panics, even with --exit-code (so it does not exit 2).
* `C75_advice` (PropsBuild.v): output that names no version is answered with the advice to install cargo-afl.
* `C75_example` (PropsBuild.v): concrete case.

### C76 Recorder and tool agree on the data root

Model: Dirs.v, Build.v: where recorder and tool look for the data root. Proof: case analysis.

* `C76_same_workspace` (PropsBuild.v): The tool reads where the tests wrote whenever the current directory belongs to the same workspace.
* `C76_manifest_path_refuted` (PropsBuild.v): --manifest-path selects the program that is built but not the directories: given the manifest of another workspace, the tool looks in the wrong place.
* `C76_example` (PropsBuild.v): concrete case.

### C77 The build command matches the options

Model: Build.v: the version question and the build command. Proof: case analysis.

* `C77_instrumentation` (PropsBuild.v): Instrumentation and target directory: [afl] is the subcommand exactly with fuzzing instrumentation, and a target directory is given exactly with some instrumentation.
* `C77_stderr` (PropsBuild.v): what the build writes to stderr is dropped exactly if entries are to be shown and --verbose is not given.
* `C77_arguments_exact` (PropsBuild.v): Every option that selects what is built is passed on: the arguments, after the subcommand, are exactly these groups in this order.
* `C77_example` (PropsBuild.v): concrete case.

### C78 A target gets a working harness exactly if its type parameters are known

Model: MacroMod.v: names of modules, expansion of functions and impl blocks, when an entry is generated. Proof: case analysis, induction on items.

* `C78_entry_exact` (PropsMacroMod.v): The harness of a target does something exactly if arguments are recorded at all and all type parameters are given; its auto-generation likewise, unless switched off.
* `C78_fuzzing_build` (PropsMacroMod.v): In a fuzzing build a missing argument list is an error; so every target that is built and records arguments has a harness.
* `C78_ordinary_build` (PropsMacroMod.v): The kind of build decides nothing else: unless an argument list is missing for a target that records arguments, a fuzzing build expands it like an ordinary build; and an ordinary build never objects to a missing list, that is, it accepts what a build of the same target with [only_generic_args] accepts.
* `C78_example` (PropsMacroMod.v): concrete case. In an ordinary build a generic target without arguments is only a silent test.

### C74 Without the display every line stands below the name of its target

Model: Sched.v, Lines.v: headers of plain output. Proof: invariant over runs.

* `C74_console` (PropsHeaders.v): Every session without display, whatever happens outside.
* `C74_attributable` (PropsHeaders.v): In particular, a reader who looks for the last name above a line finds the line's target.
* `C74_display` (PropsHeaders.v): With the display nothing is announced: the lines go to the boxes of the targets.
* `C74_example` (PropsHeaders.v): concrete case. Two targets taking turns: the second line of target 1 needs no new name above it.

### C79 Started processes inherit the environment unchanged except for the documented variables

Model: Env.v, Opts.v, Harness.v: environments as overlays. Proof: overlay lemmas.

* `C79_fuzzing_environment` (PropsHarness.v): The environment of the fuzzer and of the harnesses it runs is that of cargo-test-fuzz with the coverage tool's variables, except for four variables.
* `C79_entry_environment` (PropsHarness.v): The environment of a harness started for displaying, replaying or coverage.
* `C79_example` (PropsHarness.v): concrete case.

### C80 Fuzzing misses nothing that fails when replayed; the converse fails for caught panics

Model: Persistent.v: the harness with the panic hook as state, caught panics, `execute_with` as an interaction tree. Proof: simulation between the two hooks, induction on trees.

* `C80_extends_simple_harness` (PropsPersistent.v): For user code without caught panics this is the model of Harness.v.
* `C80_passing_inputs_replay` (PropsPersistent.v): An input that passes when fuzzed makes the same calls when replayed and leaves the same state; it passes, unless printing the returned value panics.
* `C80_failing_replays_crash` (PropsPersistent.v): Nothing that fails when replayed is missed by fuzzing (unless it is the printing of the returned value that fails).
* `C80_fuzzing_passes_or_aborts` (PropsPersistent.v): Fuzzing never ends in an ordinary test failure: the fuzzer sees an abort or a pass.
* `C80_caught_panic_aborts` (PropsPersistent.v): A target that raises and catches a panic itself: fuzzing reports a crash, as the hook aborts where the panic is raised.
* `C80_crashes_replay_refuted` (PropsPersistent.v): Hence a crash need not show when it is replayed.
* `C80_example` (PropsPersistent.v): concrete case.

### C81 Persistent builds fuzz the inputs one by one but never show anything

Model: Persistent.v: persistent builds over sequences of inputs. Proof: induction on inputs.

* `C81_persistent_shows_nothing` (PropsPersistent.v): A persistent build shows neither arguments nor returned values, in any mode.
* `C81_persistent_display_inert` (PropsPersistent.v): In particular --display with --persistent does nothing at all.
* `C81_display_shows_arguments_refuted` (PropsPersistent.v): So --persistent --display shows nothing where --display shows the arguments.
* `C81_persistent_one_by_one` (PropsPersistent.v): Persistent fuzzing of a target without state is fuzzing the inputs one by one, each in a process of its own ([t0]: the state a process starts in).
* `C81_independent_inputs_refuted` (PropsPersistent.v): With state this fails: inputs that pass one by one crash together.
* `C81_persistent_replay_aborts` (PropsPersistent.v): Replaying with a persistent build aborts the process on a panic instead of failing the test.
* `C81_example` (PropsPersistent.v): concrete case.

### C82 execute_with runs the target only inside and only on decoded arguments

Model: Persistent.v: the harness with the panic hook as state, caught panics, `execute_with` as an interaction tree. Proof: simulation between the two hooks, induction on trees.

* `C82_only_decoded_arguments` (PropsPersistent.v): Whatever execute_with does, in whatever mode, the target is only ever called with arguments an input decodes to.
* `C82_transparent` (PropsPersistent.v): execute_with given a function that just calls its argument is no execute_with at all.
* `C82_never_outside` (PropsPersistent.v): The target runs inside execute_with only: if the function never calls its argument, the target is never called.
* `C82_example` (PropsPersistent.v): concrete case.

### C83 dont_care! loses exactly the values it is applied to

Model: Utils.v: `dont_care!` types nested in structs, vectors, options, over Serde.v. Proof: induction on types, injectivity of the formats.

* `C83_round_trip_postcard` (PropsUtils.v): what comes back from the recorded bytes is the original with every [dont_care!] value replaced by the expression's, with postcard,
* `C83_round_trip_bincode` (PropsUtils.v): and with bincode.
* `C83_same_record_exactly` (PropsUtils.v): two values are recorded identically exactly if they differ in [dont_care!] values only.
* `C83_takes_no_room` (PropsUtils.v): a [dont_care!] value takes no room in the recorded bytes, in either format.
* `C83_example` (PropsUtils.v): concrete case. A vector of pairs of a byte and something that is not recorded.

### C84 leak! and serde_ref preserve what references refer to

Model: Utils.v: `leak!`, `serde_ref` over MacroArgs.v and Combinators.v. Proof: composition with C20 and C65.

* `C84_leak_converts_iff` (PropsUtils.v): [convert = "&t, ident"] after [leak!(t, ident)] preserves every argument, exactly if borrowing from an owned copy gives back the value.
* `C84_leak_argument` (PropsUtils.v): so the function is called with the same reference contents as in the recorded call.
* `C84_serde_ref` (PropsUtils.v): fields marked [serde(with = "test_fuzz::serde_ref")] (or [serde_ref_mut]) are stored as what they refer to and come back as references to it.
* `C84_example` (PropsUtils.v): concrete case. [leak!(str, LeakedStr)] with [convert = "&str, LeakedStr"].

### C85 The command line is read exactly as documented

Model: Cli.v: the command line as clap is asked to read it, conversion to `TestFuzz`. Proof: inversion of the reader, case analysis.

* `C85_exact` (PropsCli.v): The arguments are accepted exactly when they are a way of writing a list of items that makes sense, and the options are then what the items mean.
* `C85_subcommand` (PropsCli.v): Any other first argument is refused.
* `C85_order` (PropsCli.v): The order does not matter, nor the way of writing, except for the order of the features among themselves.
* `C85_fuzzer_arguments` (PropsCli.v): What follows the first [--] reaches the fuzzer as it is, whatever it looks like.
* `C85_no_instrumentation` (PropsCli.v): [--no-instrumentation] is accepted once and has no effect.
* `C85_any_flags` (PropsCli.v): No combination of options is refused by the parser itself: given any choice of flags, there are arguments with exactly these.
* `C85_example` (PropsCli.v): concrete case.

### C86 Args stores each argument in its documented form and the harness calls the attributed function

Model: MacroArgs.v, MacroMod.v: fields of `Args`, markers, the call. Proof: induction on types and argument lists against a separate relation.

* `C86_fields` (PropsMacroMod2.v): [Args] has a field for each argument and then a marker for each type and lifetime parameter of the impl and of the function, in order.
* `C86_stored_unique` (PropsMacroMod2.v): What is stored for a type is determined by it.
* `C86_trait_path` (PropsMacroMod2.v): The path of a trait is replaced in the arguments of its segments only: a trait named like a parameter keeps its name. If there is nothing to put there, the macro panics.
* `C86_call` (PropsMacroMod2.v): A function outside of an impl is called through [super]; one in an impl through the self type, or through [<Self type as Trait>], both with the arguments of the impl in place of its parameters (C27) and written for an expression (C25). The arguments are those rebuilt from the fields (C20), in order.
* `C86_example` (PropsMacroMod2.v): concrete case. A method of [impl<'a, T> Foo<'a, T>] for [T = u8], generic itself.

### C87 Auto-generated values of any type are those of the documented table

Model: AutoTy.v: `auto!` by the traits a type implements. Proof: case analysis against the table of the README.

* `C87_documented_values` (PropsAutoTy.v): The values generated for a type are exactly those of the table, whatever traits the type implements and whatever its operations do.
* `C87_total` (PropsAutoTy.v): If no operation panics, there is no panic.
* `C87_entries` (PropsAutoTy.v): Entries are generated for a target exactly if each of its argument types implements [Bounded] or [Default]; and then every value of the table occurs in some entry, and nothing else.
* `C87_integers` (PropsAutoTy.v): For integers this is what C38 computes.
* `C87_example` (PropsAutoTy.v): concrete case.

### C88 Names of a signature keep their meaning in the generated code, unless they collide with its own

Model: Hygiene.v: name resolution in the generated module, declared parameters, shadowed variables. Proof: exactness with a separating program, composition with C20.

* `C88_types_exact` (PropsHygiene.v): A type means the same where the macro repeats it, whatever the program is, exactly if none of its paths starts with a name the macro defines there, and none goes up through [super].
* `C88_types_refuted` (PropsHygiene.v): So a target whose self type is called [Args] refers to the wrong type in the generated module, and so does one with a type of the parent module.
* `C88_parameters_exact` (PropsHygiene.v): They are met exactly if there is no constant parameter and no type parameter is called [R].
* `C88_recorded` (PropsHygiene.v): The recorded values are those of the parameters (C20), if no parameter has the name of a variable of the recording code.
* `C88_recorded_refuted` (PropsHygiene.v): The value of an argument called [generic_args] is not recorded: what the recording code would store is no value of the field's type.
* `C88_captured` (PropsHygiene.v): What it finds under the two names, whatever the parameters: the macro's arrays of the names of the generic arguments, [[&'static str; n]] (macro/src/lib.rs:494-505).
* `C88_example` (PropsHygiene.v): concrete case. A vector of a type of the own module, and one of the type parameter [T], are safe; a value of type [Auto] is stored, but no values for it can be generated.

### C89 Every fuzzer an invocation starts runs the documented command on a selected target

Model: Run.v: `start_command` within a whole run. Proof: composition of C42, C45, C52, C55.

* `C89_parallel_fuzzers` (PropsRun3.v): Every fuzzer the parallel loop starts fuzzes one of the targets reached, in its own output directory, with its corpus as input exactly the first time (and never with --resume), for a slice if there are fewer cpus than targets, else for the time given.
* `C89_foreground_fuzzer` (PropsRun3.v): The fuzzer in the foreground likewise.
* `C89_example` (PropsRun3.v): concrete case.
* `C89_environment` (PropsRun8.v): all fuzzers of an invocation have the same environment: that of cargo-test-fuzz with the coverage tool's variables, except that recording is off, that the user interface is off exactly with --no-ui or --exit-code, and that the fuzzer stops at the first crash exactly with --run-until-crash (unless the caller's environment says so).
* `C89_configuration` (PropsRun8.v): The configuration is the one the command lines of C89_parallel_fuzzers are computed with.

### C90 Options of the attribute are read exactly

Model: Options.v (darling's generated reader, the three forms of the attribute, parsing of the texts). Proof: each option by lookup, acceptance exactly.

* `C90_accepted_exact` (PropsOptions.v): Options are accepted exactly if every item is one of the documented options with a value of its type, and none but [convert] is repeated; anything else stops the expansion.
* `C90_values` (PropsOptions.v): Each option has the value given for it, and its default otherwise.
* `C90_forms` (PropsOptions.v): On a method and on a function the attribute is read alike, with and without arguments; but options given as [#[test_fuzz = ...]] are refused on a function and ignored silently on a method.
* `C90_expansion` (PropsOptions.v): The expansion sees exactly these options: without arguments, the defaults.
* `C90_parses` (PropsOptions.v): And there is an expansion unless a text does not parse.
* `C90_defaults` (PropsOptions.v): The attribute without arguments gives the default options.
* `C90_example` (PropsOptions.v): concrete case.

### C91 The harness instantiates generic parameters in one way throughout

Model: Generics.v: combined generics with bounds, the arguments of the harness. Proof: positional assignment as in the Rust reference, sets of demands.

* `C91_one_instantiation` (PropsGenerics.v): The harness, the type it is called on, the function it calls, and the type of the result that is shown are all instantiated alike: wherever the compiler finds the arguments complete, each type parameter of the impl stands for the same type in [Args] and in the type of which the method is called, and each parameter of the function for the same argument in [Args] and in the call.
* `C91_result_args` (PropsGenerics.v): The arguments for the type of the result are the ones given, those of the impl first, followed by one ['static] for each lifetime that is missing; only too many lifetimes are refused.
* `C91_recorded_types` (PropsGenerics.v): The recorded type names are those of the type parameters, in order; without constants these are the values for which arguments must be given.
* `C91_order_refuted` (PropsGenerics.v): The lifetimes of the function follow the types of the impl where both are given, which the compiler rejects although each list is in order.
* `C91_example` (PropsGenerics.v): concrete case.

### C92 Generated items demand what the signature demands and no more

Model: Generics.v: combined generics with bounds, the arguments of the harness. Proof: positional assignment as in the Rust reference, sets of demands.

* `C92_bounds_exact` (PropsGenerics.v): The generated functions and implementations demand of the parameters exactly what the impl and the function demand, so they can be used wherever the function can; reading additionally demands that every type parameter can be deserialised, and nothing else; the structures demand what the option [bounds] says. All declare the parameters of impl and function, lifetimes first.
* `C92_example` (PropsGenerics.v): concrete case.

### C93 What a build records it can decode, whichever formats its features select

Model: Format.v: the conditions of compilation. Proof: composition of C14 and C18 over the features.

* `C93_same_format` (PropsFormat.v): Every selection of features compiles, and what it writes it can read: what is recorded by a build decodes, in a build with the same features, to what was recorded, whether or not formats are given and even if both are. Strings of more than 2048 bytes and values of more than a gibibyte are the exceptions (C17, C18).
* `C93_which_format` (PropsFormat.v): Which format it is: bincode exactly if its feature is enabled, otherwise postcard.
* `C93_as_feature` (PropsFormat.v): [as_feature] names the feature of the format, if at most one is enabled, and panics otherwise; a build with the feature it names, and no other, uses the same format.
* `C93_mixed_formats_refuted` (PropsFormat.v): Features added by another crate of the build can change the format; data recorded before is then decoded silently to other arguments.
* `C93_example` (PropsFormat.v): concrete case.

### C94 retry stops at the first success and reports the last error

Model: Support.v: `retry`, `log`. Proof: induction over the attempts; cases.

* `C94_retry` (PropsSupport.v): A test is retried until its first success, at most [n] times; the result is that success or the last error, every earlier error is logged as a warning, and the end is reached only by asking for no attempt at all.
* `C94_example` (PropsSupport.v): concrete case.

### C95 Logging an expansion is switched on exactly as documented and does not change it

Model: Support.v: `retry`, `log`. Proof: induction over the attempts; cases.

* `C95_log` (PropsSupport.v): The expansion is printed exactly if the macro was compiled with TEST_FUZZ_LOG set to 1 or to the name of the crate, and is the same whether it is printed or not.
* `C95_example` (PropsSupport.v): concrete case.

### C96 Headings name the targets shown

Model: Run.v: `p_heading`, `p_show`; Ui.v: dividers. Proof: the trace of the loop over the targets, C63.

* `C96_headings` (PropsRun4.v): If more than one target is shown, each is directly preceded by the heading with its name; a single target is shown without one. There are no other headings.
* `C96_narrow_terminal_refuted` (PropsRun4.v): "The targets are always shown" is refuted: with two targets, a terminal as narrow as one of their names can make the heading panic, where a wide terminal does not.
* `C96_example` (PropsRun4.v): concrete case. Two targets on a terminal of twelve columns, then without a terminal, then one target.

### C97 A failed build is reported completely and ends the run

Model: Run.v: `p_build`, `p_compiler`. Proof: the shape of the preparation.

* `C97_failed_build` (PropsRun4.v): If the build fails, the compiler's messages are printed, all of them and in order, nothing else happens, nothing changes, and the status is 1, or 2 with --exit-code.
* `C97_silent_otherwise` (PropsRun4.v): The compiler's messages are printed only if the build fails.
* `C97_example` (PropsRun4.v): concrete case.

### C98 Warnings tell which fuzzers failed and what they last printed

Model: Warn.v: the warnings of the loop of Sched.v. Proof: invariant: the buffer is the newest lines since the start.

* `C98_warnings` (PropsWarn.v): there is one warning for every end of a fuzzer that marks its target as failed, in order and with the target's name. A successful fuzzer that did not say it was aborted gets the one text, a failed fuzzer the other, with the lines it printed since the screen was last drawn and the newest before; without a screen, no lines.
* `C98_example` (PropsWarn.v): concrete case.
* `C98_all_output_refuted` (PropsWarn.v): "the warning shows what the failed fuzzer printed" is refuted: lines that have left the screen are not in it.

### C99 The time limit of displaying and replaying

Model: Timing.v: reading with a limit, waiting, killing. Proof: case analysis; induction over the entries.

* `C99_limit` (PropsTiming.v): a simple process that exits within the limit is shown with all of its output and its status, as soon as it exits; any other is stopped at the limit and shown with what it had written by then.
* `C99_total_time` (PropsTiming.v): so all simple processes together take at most the limit each, and each gets a result.
* `C99_hangs_exact` (PropsTiming.v): when the tool waits for ever, exactly.
* `C99_limit_enforced_refuted` (PropsTiming.v): "every entry is done with within the time limit" is refuted: a harness that closes its error output and goes on is waited for, whatever the limit.
* `C99_timeout_means_slow_refuted` (PropsTiming.v): "a timeout is shown only for a harness that runs too long" is refuted: a harness that exits at once, leaving a process that holds its error output, is shown as a timeout.
* `C99_example` (PropsTiming.v): concrete case. Limit three seconds: a quick failure, and an endless loop that writes something every two seconds.

### C100 Errors have a reported cause and no failure is ignored

Model: Run.v: the whole invocation, with the report of its error. Proof: per phase: what its errors and its successes imply; composition of phases.


### C101 Nothing recorded or found is lost in the course of time

Model: History.v: recordings, fuzzers and invocations one after another. Proof: induction over the history; per event what it adds and sweeps, from the phases of Run.v.


### C102 Consolidating is safe while tests record, fuzzers run and other invocations consolidate

Model: ConsConc.v: the system calls of any number of invocations in `consolidate` and `reset`, recorders (WriteConc.v) of tests and of the invocations, and fuzzers, interleaved; answers of the operating system as events. Proof: invariants of all runs (a finding is where it was and every invocation that would remove it has it before it, or it is recorded; recorders never write where fuzzers do), induction over events; simulation of the sequential model.


### C103 Namespaces whose names contain slashes

Model: DirsText.v: `PathBuf::join` on texts, path resolution with `.`, `..` and repeated slashes, the directory functions on texts. Proof: splitting at slashes commutes with joining; resolution of plain components; synchronisation of component lists at the first name with a colon.


### C104 A half-written recording is never replayed as another call

Model: Race.v: a reader of a corpus file beside recorders that write it in steps. Proof: invariants over interleavings; a relation between decoders that fail and that read zeros at the end.


### C105 An invocation crashes only for known reasons

Model: Run.v: the whole invocation, with its panics. Proof: per phase: what its panics imply; composition of phases; decidability of a session's good behaviour.


### C106 Recording does not disturb the program that hosts it, except where listed

Model: programs as trees of steps and instrumented calls, state with file system, directory and environment (Host.v: run, plain, attempts, record_host). Proof: frame and exact failure condition of write_data on well-formed file systems, stability under the earlier recordings of the call, simulation by induction on programs.


### C107 What is printed about a recorded call is that call

Model: stderr of a harness from its events, with the Debug texts as oracles (Shown.v: stderr_of, process_of, nontrivial_text); invocations (Run.v), entries (Entries.v), harness (Harness.v). Proof: composition of C42, C100, C50, C19 and a case analysis over the switches.


### C108 What an invocation says about versions

Model: versions checked by an invocation (Semver.v: check_versions; Run.v: p_versions, vmsg_text, run). Proof: walk along the trace; the specification is a relation on what was done, shown to be functional.


### C109 What fuzzing finds, replaying shows

Model: fuzzed and replayed harness, as shown by an invocation (Harness.v, Opts.v, Shown.v, Entries.v, Run.v). Proof: composition of the harness in two environments with C107; case analysis of user code.


### C110 Skipped arguments come back as their defaults, and one-sided skipping corrupts the rest

Model: derived implementations with skipped fields (SkipArgs.v: written, fields_from_at, args_data_at, args_decode_at). Proof: induction over the arguments with the round trip of C14; evaluation of the rebuilding expressions depends on one field only; computation for the counterexample.


### C111 What --list prints identifies the executables and targets

Model: ListText.v: Debug texts of strings, paths, lists, tuples and structs with indentation; PropsRun9.v over Run.v. Proof: self-delimiting codes: each text determines its value and where it ends, through a left inverse of the indentation; injectivity of UTF-8 code points and hexadecimal digits by arithmetic.


### C112 Integration tests ask for what they mean and keep their data apart

Model: TestHelpers.v: test, test_fuzz_all, test_fuzz, test_fuzz_inexact, helper_id; with Cli.v and Dirs.v. Proof: evaluation of the command-line parser on symbolic words; composition with C10.


### C113 The options of the attribute do not interfere

Model: The expansion of a function (MacroMod.v: map_method_or_fn with all options, among them bounds and execute_with; Options.v: parsed). Proof: two expansions that agree on the options of a part, step by step through the binds.


### C114 Fuzzers are given a corpus that exists and holds everything recorded

Model: Run.v: `p_fuzz`; AutoGen.v: `autogen_loop`; History.v: `history`; FuzzCmd.v: `fuzz_args`. Proof: Inversion of a run that starts a fuzzer gives a generation without errors; induction on the targets shows that all corpora exist; C89 for the command line, C101 for what recordings survive..


### C115 The sample targets crash on exactly the intended inputs

Model: Fuzzable.v: the sample targets as inputs of the macro, their bodies; Postcard.v, Harness.v, EndToEnd.v. Proof: Inversion of the decoder gives the exact set of inputs per type; the generated conversion is evaluated for each sample; C61 relates the harness to the target..


### C116 The sample targets get the corpora the tests expect

Model: Fuzzable.v: the samples, `generate`; AutoGen.v: `auto_generate_corpora`, `auto_generate`; AutoTy.v: `autos_of`. Proof: Evaluation of the macro and the generated values; the digests of the entries are computed to be distinct; the lemma on recorded histories (C11) gives the directory exactly..


### C117 The sample targets expand as intended

Model: Fuzzable.v: the samples; MacroMod.v: `map_method_or_fn`, `test_fuzz_impl`. Proof: Evaluation with symbolic configuration and counter values; the expected expansions are written as token texts..


### C118 A program that hosts recordings leaves behind exactly what was to be recorded

Model: Production.v: hello_world, production_test; Host.v: run, attempts; Write.v. Proof: induction over programs with a transitive relation between file systems (unchanged, new directory, recorded file); permutation of listing and recorded names for the counts.


### C119 Harnesses that share a process with other tests

Model: TestProcess.v: `step`, `run`, `harness` on top of Harness.v `entry_body`. Proof: invariants over all schedules; termination measure.


### C120 Versions survive being printed and read back as requirements

Model: SemverText.v: printing, reading and comparing versions as the semver crate does, requirements, and `check_dependency_version` on texts. Proof: grammar as an inductive relation, inversion of the readers, numerals compared by length and text; equality with the abstract check.


### C121 For which versions the installation tests find what they look for

Model: InstallTest.v: the regular expressions of `grep` and `sed`, the six scripts, the four patterns, and the check of all executables on texts. Proof: separate meaning of expressions, unique cuts of lines at quotes and dots; the verdicts of C120 on edited versions.


### C122 What the tests of the workspace's versions establish

Model: Versions.v: comparators with all operators, how requirements are printed, which versions they admit, and the two tests over a workspace's packages. Proof: intervals of number triples as specification, case analysis; first character of the printed requirement.


### C123 Preparing a release sets every version and every requirement, and the two version tests then succeed

Model: Release.v: the edits of update_versions.sh on the lines of the manifests, and the search of check_CHANGELOG.sh. Proof: the matcher of C121, which cut a greedy part takes, unique cuts at quotes; the tests of C122 on what was written.


### C124 What the tests of the dependency tables and of the suppliers' report compare

Model: Ci.v: the groups of a table as offsets, the check of their order, and the removal of avatars from a JSON value. Proof: division at blank lines as a relation with a proof that it is unique; views along paths as specification of equality; induction on nested values.


### C125 What the tests of the readme and of the licenses accept

Model: Ci.v: the expressions on the readme, matches that do not overlap, sorting, and the expression on licenses with its word boundaries. Proof: cuts of texts as specification, soundness and completeness of the search for definitions by induction with the rest of a match.


### C126 Headings on stdout are where a test looks for them

Model: Stdout.v: what the actions of C42/C96 write to stdout, and what the test's expression finds. Proof: each report ends a line (C50), so each prefix of the output does; the order of C96; a text whose lines differ from a heading has none.


### C127 Which patches belong to third parties' code, and when they are called current

Model: ThirdParty.v: names of patches in Rust and in bash, the comparison of patches, the replacement of revisions. Proof: splitting at the last slash; the expression has items of fixed length; replacing is followed line by line through the list.


### C128 What removing patch versions from the manifests changes

Model: ThirdParty.v: the expression and its address, with semver's requirements of C120. Proof: numbers and dots cannot be confused, so the expression matches in one way; cases of the caret.


### C129 What the macro says about a conversion that applies to no argument

Model: Conversions.v: the map and the set ordered by printed text and the message, on top of MacroArgs.v. Proof: insertion into sorted lists; the marks and candidates after all arguments (as in C21); a sorted list is determined by its members.


### C130 The test of the serialization format tells from recorded unit variants whether names are stored, for small enums only

Model: the recorded bytes of unit variants in both formats and the test's assertion (SerdeTest.v: is_upper, no_names, unit_variants; Postcard.v, Bincode.v: the formats). Proof: induction over the bytes of a number in each format.


### C131 The test that replays hangs finds its expression exactly if an entry has run into the time limit or is shown alike

Model: matching the test's expression on what replaying prints (ReplayTest.v: is_match; Entries.v: for_each_entry). Proof: reports end with line feeds, so a match lies in one of them; case analysis over a report.


### C132 The crashes that the replay test has the fuzzer find are reproduced because the two memory limits differ

Model: the argument with the memory limit and how afl-fuzz reads it, the allocating target under a limit (AllocTest.v: limit_arg, afl_bytes, target, message). Proof: numerals are read back; bounds on numbers and on their digits.


### C133 The workflow for pull requests succeeds if no run of the tests failed, and also if its first job did and none was run

Model: the jobs with their conditions and the commands of a run (Workflow.v: test_job, all_checks, matrix, full, build_words, test_words, check_fails). Proof: case analysis over results; the search for words is compared with a specification by induction.


### C134 Publishing a release ends with all crates published and can be repeated after a failure

Model: the publishing loop with its dependencies, the title, the mark and the notes of a release (Publish.v: publish, deps, exists_line, version_of, prerelease, notes). Proof: induction over the crates with the index as state; texts are compared with specifications.


### C135 The sample target for profiles crashes exactly in release builds

Model: the generated source file, reading its string literal, and the target (Profile.v: profile_rs, constant, target). Proof: induction over the literal with a bound on lengths.


### C136 A recorded hash set is identified by its iteration order as well as its members

Model: `SetArgs.v`: the recorded value of a call with a set, the threads that record, the members of a read set. Proof: injectivity and round trip of the formats, pairwise distinct entries by induction over runs.


### C137 What the test of consolidating tells: a crash was found and kept, but not that a hang was

Model: `ConsTest.v`: the corpus over the attempts, one attempt, the test with its repetitions, what is shown of an entry of the sample. Proof: membership by induction over attempts, the theorem on retrying (C94), a letter that occurs in no other line.


### C138 Displaying arguments whose Debug implementation panics or hangs says so, whatever is in the files

Model: `DebugTest.v`: the user code of the sample that panics, the process of the one that hangs, the checks of the test. Proof: evaluation of the harness for all modes, the theorems on what is said afterwards (C51, C107).


### C139 What the test of third parties' code finds in what is displayed and replayed

Model: the checks of the test of third parties' code (ThirdRun.v: regular expressions on lines, `display_ok`, `replay_ok`) on what is shown (PropsShown.v). Proof: splitting of the output into lines; where a text without line feeds can occur; computation for the counterexamples.


### C140 What is done for a third party's repository, and what has been seen when the test passes

Model: the test of third parties' code as steps in a world that answers commands according to what was run before (ThirdFlow.v: `steps`, `take`, `test_all`, `depends`). Proof: a passing list of steps has each step good after the commands before it; splitting of the list at the step in question; two worlds compared by induction.


### C141 What the tests that fuzz samples have seen when they pass

Model: attempts as whole invocations (FuzzTests.v: `attempts` on Run.v's `run`), compared with Support.v's `retry`. Proof: induction on the attempts; exit codes by C44; computation for the counterexample.


## Which code is modelled

Lines cited by the model, per source file (generated from the comments), with the model files citing them.

| source file | lines | model files |
|---|---|---|
| bin/cargo_test_fuzz/main.rs | 9-15 | Run |
| cargo-test-fuzz/src/bin/cargo_test_fuzz/main.rs | 9-15 | Cli, Run |
| cargo-test-fuzz/src/bin/cargo_test_fuzz/transition.rs | 26-159 | Cli |
| cargo-test-fuzz/src/lib.rs | 54-55, 57, 59, 61, 71-84, 87-120, 122-124, 127-142, 144-167, 169-181, 183-191, 193-208, 210-212, 214-233, 237-242, 244-263, 265-281, 285-422, 425-529, 531-548, 550-580, 582-584, 586-588, 590-596, 598-614, 616-644, 646-662, 664-670, 672-680, 682-703, 705-710, 712-730, 732-760, 762-765, 767-831, 834-858, 861-1029, 1031-1049, 1051-1071, 1073-1077, 1079-1088, 1091-1109, 1119-1163, 1174-1184, 1187-1202, 1205-1414, 1416-1481, 1483-1513, 1515-1526 | AutoGen, Build, Cli, CommandText, ConsConc, ConsTest, Consolidate, Dirs, Entries, FuzzCmd, FuzzEnv, Fuzzable, History, InstallTest, Lines, ListText, Meta, Opts, Profile, Race, Run, Sched, Semver, SemverText, Shown, Stdout, Targets, ThirdRun, Timing, Ui, Warn, Write |
| cargo-test-fuzz/src/to_exec.rs | 15-29 | Env |
| cargo-test-fuzz/tests/install.rs | 26-27, 50-51, 78, 82-83, 111, 115, 120-121, 151, 155, 159, 164-165, 183-192, 196-201 | InstallTest |
| cargo-test-fuzz/tests/integration/consolidate.rs | 13-24, 37-78 | ConsTest |
| cargo-test-fuzz/tests/integration/display.rs | 12-33, 41-47, 68-72 | DebugTest, Stdout |
| cargo-test-fuzz/tests/integration/fuzz.rs | 32-46 | FuzzTests |
| cargo-test-fuzz/tests/integration/fuzz_profile.rs | 16-33 | Profile |
| cargo-test-fuzz/tests/integration/generic_args.rs | 74-84 | GenericTest |
| cargo-test-fuzz/tests/integration/replay.rs | 17, 33-36, 38, 45 | AllocTest, ReplayTest |
| fuzz_cast.rs | 26-33 | FuzzTests |
| fuzz_generic.rs | 36-48 | FuzzTests |
| fuzz_parallel.rs | 25-39, 70-84 | FuzzTests |
| fuzz_profile.rs | 26-33 | FuzzTests |
| fuzzable/build.rs | 8-19 | Profile |
| fuzzable/src/bin/hello-world.rs | 1-12 | Production |
| fuzzable/tests/alloc.rs | 1-6 | AllocTest, Fuzzable |
| fuzzable/tests/arc.rs | 6-22, 24-27 | SetArgs |
| fuzzable/tests/assert.rs | 1-4, 7-9 | ConsTest, Fuzzable |
| fuzzable/tests/associated_type.rs | 26-32 | Fuzzable |
| fuzzable/tests/auto_generate.rs | 1-19 | Fuzzable |
| fuzzable/tests/calm_and_panicky.rs | 14-20 | Fuzzable |
| fuzzable/tests/cast.rs | 1-5 | Fuzzable |
| fuzzable/tests/collision.rs | 6-7 | Fuzzable |
| fuzzable/tests/conversion.rs | 1-13, 15-27, 48-57, 65-94, 96-125, 160-196 | Fuzzable |
| fuzzable/tests/debug.rs | 1-16, 18-34 | DebugTest |
| fuzzable/tests/default.rs | 1-29 | Fuzzable |
| fuzzable/tests/from.rs | 18-41 | Fuzzable |
| fuzzable/tests/generic.rs | 31-35, 49-78 | Fuzzable |
| fuzzable/tests/lifetime.rs | 27-30 | Fuzzable |
| fuzzable/tests/mut_ref.rs | 1-11 | Fuzzable |
| fuzzable/tests/profile.rs | 1, 3-6 | Profile |
| fuzzable/tests/qwerty.rs | 1-12 | Fuzzable |
| fuzzable/tests/rename.rs | 1-2 | Fuzzable |
| fuzzable/tests/return_type.rs | 6-16 | Fuzzable |
| fuzzable/tests/self_ty_in_mod_name.rs | 6-10 | Fuzzable |
| fuzzable/tests/serde.rs | 189-214 | SerdeTest |
| fuzzable/tests/serde_attr.rs | 21-24 | Fuzzable |
| fuzzable/tests/unserde.rs | 4-8 | Fuzzable |
| internal/build.rs | 1-4 | Format |
| internal/src/dirs.rs | 12-34, 37-39, 42-54, 57-59, 62-83, 86-93, 95-107, 110-124, 127-133, 136-138 | Build, ConsConc, Dirs, DirsText, History, Host |
| internal/src/serde_format.rs | 4-5, 7-11, 15-32, 34-79 | Bincode, Format, Host, Postcard, Serde |
| lib.rs | 43-44, 174, 180, 186, 743-748, 750-754, 757 | Semver, Support, Write |
| macro/src/lib.rs | 38, 50-173, 175-197, 199-228, 238-808, 810-837, 840-1010, 1012-1029, 1031-1038, 1040-1048, 1050-1062, 1064-1076, 1084-1093, 1095-1105, 1107-1123, 1125-1129, 1136-1166, 1169-1182, 1184-1189, 1191-1197, 1199-1201 | Auto, AutoGen, AutoTy, Conversions, EndToEnd, Generics, Harness, Host, Hygiene, MacroArgs, MacroMod, Options, Persistent, Production, SelfTy, Shown, SkipArgs, Support, TestProcess |
| macro/src/ord_type.rs | 14-18, 20-38 | Conversions |
| macro/src/type_utils.rs | 10-15, 17-22, 28-50, 52-103, 105-172, 174-183 | MacroArgs, MacroMod, SelfTy, Turbofish |
| mutex.rs | 13-24, 33-38 | Combinators |
| parallel.rs | 1-19 | Fuzzable |
| ref_.rs | 13-21, 30-37 | Combinators |
| ref_mut.rs | 13-21, 30-37 | Combinators |
| runtime/src/lib.rs | 33-42, 44-60, 67-92, 94-118, 120-133, 135-163, 165-169, 171-197, 199-201 | Auto, AutoGen, AutoTy, ConsConc, DebugName, EndToEnd, Env, Harness, History, Host, Hygiene, Race, Sha1, Shown, SkipArgs, TestProcess, Write, WriteConc |
| runtime/src/traits.rs | 4-15, 17-28, 30-41, 43-59 | Auto, AutoTy |
| rw_lock.rs | 13-24, 33-38 | Combinators |
| serde_combinators/src/lib.rs | 68-78, 81-93 | Combinators |
| test-fuzz/src/convert.rs | 1-13 | Utils |
| test-fuzz/src/utils.rs | 9-16, 18-25, 34-52, 62-70, 75-83, 92-100, 104-112 | Utils |
| test-fuzz/tests/integration/ci.rs | 62-86, 124-145, 148-154, 157-167, 170-182, 235-248, 250-263, 265-276, 296-311, 314-335, 360-362 | Ci |
| test-fuzz/tests/integration/conversion.rs | 11-17 | Conversions |
| test-fuzz/tests/integration/in_production.rs | 26-71 | Production |
| test-fuzz/tests/integration/serde_format.rs | 21-32 | SerdeTest |
| test-fuzz/tests/integration/versions.rs | 8-50, 62 | Versions |
| test_fuzz_impl.rs | 6-13 | Fuzzable |
| testing/src/fuzzable.rs | 15-85, 87-109, 111-123, 125-127 | TestHelpers |
| testing/src/logged_assert.rs | 10-28 | ThirdFlow |
| testing/src/retry.rs | 4-30 | FuzzTests, Support |
| third-party/tests/third_party.rs | 19-25, 27-36, 39-42, 51-64, 66-186, 189-206, 208-238, 246, 286-296 | ThirdFlow, ThirdParty, ThirdRun |
| transition.rs | 252-256 | Cli |
| type_.rs | 13-18, 27-32 | Combinators |

## Trusted base

* The Coq 8.16.1 kernel and coqchk.
* `Print Assumptions` says "Closed under the global context" for each of the 367 property theorems: no
  axiom is used. (Loading std++ makes seven axioms of `Coq.ssr.ssrunder.Under_rel` visible to coqchk; no theorem
  depends on them.)
* The hand translation from Rust to Gallina. Each definition cites what it models and states its simplifications.
* Behaviour of what is outside the repository, which was modelled from documentation and knowledge of it since its
  sources were not available: the file system calls of `std::fs` (no symbolic links or permissions; `write` is open with
  truncation followed by writes; `read_dir` in any order), string functions of `std`, `Once`, `OnceLock`, `Mutex`,
  `RwLock` (`try_read` may refuse while threads are queued), `sha1` (FIPS 180-4), `hex`, `semver` 1.0, `postcard` 1.1.3
  (two details are parameters of the theorems: `eof_zero`, whether reading past the end yields zero bytes, and
  `sticky`, whether the scratch buffer is used up over the whole input), `bincode` 2.0.1, the parsing and printing of
  types by `syn` and `quote`, `mio` polling (only registered tokens are reported), `subprocess`, `strip-ansi-escapes`.
* Rust's semantics of the generated code: method lookup for `clone`, `to_owned`, `as_str` and the like as in the typed
  evaluation of MacroArgs.v.

Not modelled: clap's messages, help texts and abbreviations, colours and logging, rustc's type checking and name resolution of the
generated code beyond the typed expression model, AFL++ itself, cargo's build,
terminal size queries, wall-clock time, the test suites and CI scripts of the repository.
