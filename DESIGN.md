# Formal model of flapigen-rs in Rocq (Coq 8.16.1)

The plan of this document was written and committed before the proofs; it is kept current as the model grows.
`MANIFEST.json` has the status of each property in machine-readable form, `properties.jsonl` the properties,
`seeded/LOG.jsonl` the wrong programs the theorems were tested against.

## Approach

The code generator (`/repo/macroslib/src`) is modelled function by function as total, computable Gallina functions
over small data types. Whatever the result may depend on besides the arguments is an explicit argument, so that the
theorems quantify over it: the iteration order of hash tables (an arbitrary permutation), tie-breaking in the
priority queue of the search, failures of the operating system (an oracle per operation), the scheduling of
threads, garbage collection. `panic!`, `assert!`, `unwrap`, out-of-range slices and failed `Result`s are
explicit outcomes (`Panic`, `Err`) wherever they are reachable. The run-time support code shipped with the
generator (Rust glue, Java classes, C++ headers) is modelled as state machines with a memory that records
allocation, ownership and every invalid use.

Layout, all under `rocq/theories/`:

* `*Model.v` – definitions only; every definition cites the file and lines of /repo it models, and says where it simplifies.
* `*Spec.v` – small independent specifications, not using the model's helpers. Where there is no such file, the
  specification stands at the head of the `*Props.v` file.
* `*Proofs*.v` – lemmas.
* `*Props.v`, `MergeMadeProps.v`, `MergeExamples.v` – the property theorems `Cnn_...`, each with an `Example` beside it which shows
  that a concrete non-trivial case meets the hypotheses.

A property found false of the code as it is keeps its English statement; the largest fragment proved has the suffix
`_partial`, and a theorem with suffix `_refuted` exhibits the counterexample inside the model, from a reachable state.

## Plan and result per property

Each entry: what is modelled and how it is proved; the status and the theorems are those of MANIFEST.json.

### C01 Found conversion chains are real and shortest

*Claim.* Whenever the generator finds a chain of conversion rules from one Rust type to another, consecutive rules of the chain fit together (each starts at the type the previous one ends at), the chain starts at the source type and ends at the target type, every rule of it is a registered rule, and no shorter chain of registered rules exists.

*Model and proof.* `GraphModel`/`GraphSpec`: petgraph's `Graph` as node and edge lists, `astar` as a loop over a priority queue with an arbitrary tie-break. Loop invariant: every queued or settled distance is witnessed by a path and no shorter one exists.

*Status:* **proved**. Theorems: `C01_shortest_chain`. petgraph's astar is part of the model; ties broken arbitrarily

### C02 Conversion search is complete

*Claim.* The search for a chain of conversion rules reports `Can not find conversion` exactly when no chain of registered rules leads from the source type to the target type; it never misses one and always terminates.

*Model and proof.* Same model; termination by a measure on unsettled nodes, completeness from the invariant at exit.

*Status:* **proved**. Theorems: `C02_complete`. never runs out of its iteration bound, never aborts

### C03 Speculative rule instantiation leaves no trace

*Claim.* Trying to build a conversion path by instantiating generic rules leaves the table of known types and registered conversions exactly as it was (same types, same rules, same order), whether the attempt succeeds or fails, until the found path is explicitly merged.

*Model and proof.* `TMapModel`: the snapshot with its push and pop of speculative nodes and edges, with index-compacting removal; hash-set order as oracle. Proved by an invariant relating the speculative to the original graph.

*Status:* **proved**. Theorems: `C03_no_trace`. generic rules are arbitrary functions of type, goal and known types

### C04 A path that was built is usable afterwards

*Claim.* If instantiating generic rules discovers a path, then merging it makes the ordinary conversion search between the same two types succeed, with a chain no longer than the discovered one, and every rule registered before is still registered.

*Model and proof.* Simulation between the speculative graph and the graph after `merge_path_to_conv_map`.

*Status:* **proved**. Theorems: `C04_built_path_usable`. for maps satisfying the table invariant, which C05 shows for all reachable maps

### C05 Type table stays consistent

*Claim.* Across any sequence of type registrations and path merges, the table of known Rust types maps every name to exactly one entry whose normalized name is that name, entries are never lost or renumbered, and looking up a registered type by any spelling with the same normalized name returns the same entry.

*Model and proof.* Invariant of the type table over every history of operations.

*Status:* **proved**. Theorems: `C05_table_consistent`, `C05_find_or_alloc`, `C05_never_aborts`. histories of registrations, rules, conversions, fast mappings, invalidations

### C06 Emitted conversion code composes

*Claim.* The code emitted for a type conversion is, in order, one snippet per rule of the chain; the first reads the input variable, all later ones read the output variable, each assigns the output variable with the target type of its rule, and the final type is the requested one; when source and target coincide and the names differ a plain `let mut out = in;` is emitted, and when names coincide nothing is emitted.

*Model and proof.* `convert_rust_types` as a fold over the path; induction on the path.

*Status:* **proved**. Theorems: `C06_code_composes`. the snippet of a rule is generate_code, whose meaning is C18

### C07 Helper items are emitted at most once

*Claim.* Supporting items attached to a conversion rule (and shared by all instances of a generic rule) are emitted by the first conversion that uses the rule and never again, over the whole run of the generator.

*Model and proof.* Induction over histories of conversions with the `dependency` cells of edges.

*Status:* **proved**. Theorems: `C07_emitted_at_most_once`, `C07_first_use_emits`. exact count equation over whole runs

### C08 Foreign type choice is the nearest one

*Claim.* With the fast search, mapping a Rust type to a foreign type returns a registered foreign type whose Rust side is connected with the type in the requested direction by a minimal number of rules, the earliest registered one among equals, and returns nothing exactly when no registered foreign type is connected.

*Model and proof.* Mapping to a foreign type: the choice minimises the distance computed by the search (C01).

*Status:* **proved**. Theorems: `C08_nearest_foreign_type`.

### C09 Foreign type choice is stable once made

*Claim.* Once a Rust type has been mapped to a foreign type by the fast search, later requests for the same direction return the same foreign type and the chosen type stays connected, no matter which types, rules and paths are added in between, until the cache is explicitly invalidated.

*Model and proof.* Invariant of the two caches over histories.

*Status:* **proved**. Theorems: `C09_stable_choice`.

### C10 Step limit bounds speculative search

*Claim.* Building a path with limit n only instantiates generic rules at types at most n-1 rules away from the start, so the search terminates even when generic rules generate infinitely many types.

*Model and proof.* Counting argument on the steps of `try_build_path`.

*Status:* **proved**. Theorems: `C10_step_limit`. sn_probes records at which types generic rules were tried

### C11 Normalized names ignore lifetimes

*Claim.* Two spellings of a type that differ only in reference lifetimes, lifetime arguments and the `dyn` keyword get the same normalized name, hence the same entry in the type table.

*Model and proof.* `AstModel`: `syn::Type` as a nested inductive; `normalize_type` as traversal and token printing. Structural induction over a relation that erases lifetimes and `dyn`.

*Status:* **proved**. Theorems: `C11_names_ignore_lifetimes`, `C11_dyn_lifetimes_refuted`, `C11_turbofish_refuted`. Lifetimes inside dyn bounds, for<'a> and the turbofish stay in the name (refuted theorems show that the claim cannot be extended to them).

### C12 Normalized names identify types

*Claim.* Two types with the same normalized name are equal up to reference lifetimes, lifetime arguments and `dyn`; so distinct types never share a table entry.

*Model and proof.* Injectivity of token printing: a decoder for the printed form.

*Status:* **proved**. Theorems: `C12_names_identify_types`. For every pair of well-formed types of the modelled grammar.

### C13 Normalization is idempotent and cache-transparent

*Claim.* Normalizing an already lifetime-free type changes nothing, and the normalization cache never changes an answer whatever was normalized before.

*Model and proof.* Structural induction; the thread-local cache as a partial map whose entries are correct.

*Status:* **proved**. Theorems: `C13_plain_unchanged`, `C13_idempotent`, `C13_cache_transparent`.

### C14 A generic match is a real instance

*Claim.* When the generic matcher accepts that a concrete type is an instance of a pattern and returns type arguments, substituting these arguments for the type parameters in the pattern gives the concrete type (up to lifetimes).

*Model and proof.* `AstMatch*`: the matcher with its substitution map; soundness by induction on the type.

*Status:* **partial**. Theorems: `C14_match_is_instance_partial`, `C14_bindings_concrete`, `C14_rule_instance_partial`, `C14_qself_refuted`, `C14_unresolved_refuted`. Proved for patterns without qualified paths; for qualified paths (`<T as Tr>::X`) the claim is false of the code (C14_qself_refuted: qself is ignored), and a rule with a parameter that the match does not determine leaves the parameter in the result (C14_unresolved_refuted).

### C15 Generic match binds only declared parameters

*Claim.* The generic matcher never invents, removes or reorders type parameters, never changes a parameter that was already bound, and leaves the bindings of parameters that do not occur in the pattern untouched.

*Model and proof.* Same induction.

*Status:* **proved**. Theorems: `C15_keys_and_bindings_stay`, `C15_others_untouched`.

### C16 Linear patterns are matched whenever an instance exists

*Claim.* If every type parameter occurs at most once in a pattern, then every lifetime-free instance of the pattern is accepted and the original arguments are recovered.

*Model and proof.* Completeness on patterns where each parameter occurs once, by induction on pattern and instance.

*Status:* **partial**. Theorems: `C16_linear_patterns_partial`, `C16_array_refuted`, `C16_repeated_refuted`. Proved for linear patterns without arrays; false of the code for arrays (C16_array_refuted); linearity is needed (C16_repeated_refuted).

### C17 Generic rule respects trait bounds

*Claim.* A generic conversion rule is only applied to a type when every type parameter bound at the matcher is replaced by a type known to implement all traits the rule lists for this parameter.

*Model and proof.* Trait bounds as sets; case analysis on where bounds are written.

*Status:* **partial**. Theorems: `C17_trait_bounds_partial`, `C17_two_lists_refuted`, `C17_where_type_refuted`. Proved when each parameter's bounds are in one list; false of the code when the bounds are split over two lists (C17_two_lists_refuted) and the code aborts on where clauses about non-parameters (C17_where_type_refuted).

### C18 Template substitution replaces every placeholder and nothing else

*Claim.* Instantiating a conversion template replaces each occurrence of the four placeholders by the given variable and type names, simultaneously, and leaves all other text as it is, provided the given names contain no placeholder text themselves.

*Model and proof.* `TextModel`: strings as lists of characters, `str::replace` and `match_indices`. Independent reference: simultaneous substitution.

*Status:* **partial**. Theorems: `C18_generate_code_partial`, `C18_unique`, `C18_generate_code_refuted`. Sequential replacement equals simultaneous substitution under a hygiene condition; false without it (captured placeholder), witness given.

### C19 First-and-other replacement is exact

*Claim.* Replacing a keyword so that its first occurrence becomes a declaration and the later ones a use keeps all text between the occurrences, replaces the leftmost non-overlapping occurrences, the first one by the first text and all others by the second text.

*Model and proof.* Decomposition of the text at occurrences.

*Status:* **proved**. Theorems: `C19_replace_first_and_other`, `C19_replace_all`.

### C20 Unresolved template parameters are reported

*Claim.* Substituting parameters in a conversion snippet fails exactly when some declared parameter has no value; on success no value has been asked for that is not declared.

*Model and proof.* Decomposition of the text at `$`.

*Status:* **proved**. Theorems: `C20_subst_func_reports`, `C20_requests`.

### C21 Parameters whose names extend each other do not interfere

*Claim.* Substituting declared parameters of a snippet gives each occurrence of a parameter its own value, also when one parameter's name is a prefix of another's (e.g. `$tmp` and `$tmp1`).

*Model and proof.* Order of replacement for parameters one of which is a prefix of another.

*Status:* **partial**. Theorems: `C21_params_partial`, `C21_params_refuted`. False when one parameter is a prefix of another; proved for prefix-free parameters.

### C22 Macro expansion keeps the surrounding text

*Claim.* Expanding helper macros in a code template keeps all text outside of macro calls, in order, and replaces each call by what its expander returns for the call's name and arguments; text without macro calls is returned unchanged.

*Model and proof.* `MacroModel`: characters versus bytes made explicit; relation between text and expansion.

*Status:* **partial**. Theorems: `C22_expansion_partial`, `C22_unambiguous`, `C22_no_calls_unchanged`, `C22_rule_code`, `C22_nonascii_refuted`. Proved for all ASCII templates and all expanders; false of the code for other characters (find_macro uses a character index as a byte offset).

### C23 Macro detection is total on all text

*Claim.* Looking for macro calls in a template never aborts, whatever characters the template contains.

*Model and proof.* Case analysis on every slice and index.

*Status:* **partial**. Theorems: `C23_total_partial`, `C23_total_refuted`, `C23_argument_refuted`. Proved for ASCII templates; false of the code in general: the template `a <e-acute>` aborts the generator.

### C24 Fresh names are fresh

*Claim.* A generated unique name differs from every name already in use, equals the requested name if that is free, and otherwise is the requested name with the smallest free number appended.

*Model and proof.* `NamesModel`: induction over histories of generated names.

*Status:* **proved**. Theorems: `C24_unique_name`, `C24_fuel_irrelevant`. For fewer than 2^64-2 names in use (the code panics at u64::MAX).

### C25 Function argument names are distinct

*Claim.* After parsing a foreign method declaration all argument names used in generated code are pairwise distinct, named arguments keep their names, and `_` arguments get fresh ones.

*Model and proof.* Induction over the argument list.

*Status:* **proved**. Theorems: `C25_arg_names`.

### C26 Source ids are stable and unique

*Claim.* Registering a piece of source code returns an id under which its text is found again forever, different pieces get different ids, and registering a second piece with the same name is rejected.

*Model and proof.* Invariant over histories of registrations.

*Status:* **proved**. Theorems: `C26_source_registry`, `C26_stable`.

### C27 Foreign type names are unique

*Claim.* In every reachable foreign-type registry each name belongs to exactly one entry, a second definition of a name is reported as an error and changes nothing, find-or-create is idempotent, and indices given out stay valid and keep their name.

*Model and proof.* Invariant over histories of the foreign type storage.

*Status:* **proved**. Theorems: `C27_names_unique`, `C27_second_definition`, `C27_find_or_alloc`, `C27_indices_stable`.

### C28 Display name of a foreign type hides exactly the uniqueness prefix

*Claim.* The displayed name of a foreign type is the stored unique name without its prefix, and prefix followed by displayed name is the stored name.

*Model and proof.* Direct, with the length bookkeeping of the prefix.

*Status:* **proved**. Theorems: `C28_display`, `C28_set_prefix`.

### C29 Implemented-trait sets only grow

*Claim.* Recording implemented traits never duplicates or forgets a trait, and merging the description of a type contributed by another file keeps all traits of both.

*Model and proof.* Set inclusion along histories.

*Status:* **proved**. Theorems: `C29_implements`, `C29_contains_subset`.

### C30 Generated files are rewritten only when they change

*Claim.* After writing out a generated file its content is exactly the collected output; if the file on disk already has this content it is not touched, and no other file is ever touched.

*Model and proof.* `FilesModel`: file system as a map, every operation may fail by oracle.

*Status:* **proved**. Theorems: `C30_update`, `C30_failed_update`, `C30_heals`, `C30_second_run`, `C30_old_content_lost_refuted`. A failed write can leave the file truncated (C30_old_content_lost_refuted): the old content is not kept; the next successful run repairs it (C30_heals).

### C31 Failed generation leaves the destination untouched

*Claim.* If expanding a source text reports an error, the destination file is left as it was; if it succeeds the destination holds the formatted output.

*Model and proof.* Control flow of the whole run, every failing step.

*Status:* **proved**. Theorems: `C31_destination`, `C31_collected`, `C31_foreign_files_refuted`. The destination is only touched by a run which reached the final write; foreign language files written before the failure stay changed (C31_foreign_files_refuted).

### C32 Stale Java files are removed, others kept

*Claim.* When cleaning the output directory, exactly the Java files directly inside it which this run did not generate are removed; nothing else is.

*Model and proof.* Directory listing in any order; induction.

*Status:* **proved**. Theorems: `C32_cleaning`, `C32_whole_run`, `C32_directory_refuted`. For the Java and the C++ generator. A directory whose name looks like a generated file makes the run fail (C32_directory_refuted).

### C33 Unknown derives are rejected, known handlers run in order

*Claim.* Code generation for a declaration calls the registered extension of each listed non-reserved name exactly once in the listed order, and reports an error for a name without registered extension.

*Model and proof.* Table lookup and order of handlers.

*Status:* **partial**. Theorems: `C33_class`, `C33_unknown`, `C33_enum`, `C33_register`, `C102_java_enum_refuted`, `C102_python_refuted`. Proved for classes in Java and C++ and for enums in C++ (each of the two headers). Refuted for enums in Java, whose derives are not looked at, and for Python (C102).

### C34 JNI function names are unambiguous

*Claim.* Two native methods of different package, class, method name or (for overloaded ones) argument types get different JNI symbol names, for identifiers of ASCII letters, digits and underscores not starting with a digit.

*Model and proof.* `JniModel`: mangling and the JVM's lookup after the JNI specification; injectivity by a decoder; linking of a whole run.

*Status:* **partial**. Theorems: `C34_linking_partial`, `C34_injective`, `C34_boxed_argument_refuted`, `C34_delete_refuted`, `C34_dollar_refuted`. The JVM (modelled after the JNI specification) finds exactly the generated function for every native method of a run. Boxed types as arguments of overloaded methods, a method called `delete`, and `$` in a package name are excluded by hypotheses and shown to fail.

### C35 JNI type signatures are well formed

*Claim.* The method signature string passed to the JVM for every callback or cached method conforms to the JNI grammar: parenthesised parameter descriptors followed by a return descriptor.

*Model and proof.* Grammar of descriptors as an inductive relation; every table entry of the generator.

*Status:* **partial**. Theorems: `C35_signature_partial`, `C35_class_name`, `C35_unknown_panics`, `C35_result_refuted`, `C35_boxed_refuted`. Proved for known unboxed arguments and results that are void, primitive or arrays of primitives; false of the code otherwise (C35_result_refuted, C35_boxed_refuted).

### C36 Integers cross the Java boundary exactly or not at all

*Claim.* For every Rust integer type the conversion to Java and back yields the original value or stops with a panic at the point where the value is not representable; no value is ever silently changed.

*Model and proof.* `RuntimeModel`: mathematical integers with ranges; every `as`, `try_from` and `expect` of the support code.

*Status:* **proved**. Theorems: `C36_to_java`, `C36_from_java`, `C36_round_trip`, `C36_bool`, `C36_time_partial`, `C36_time_refuted`. All integer types and both target widths. SystemTime (not an integer type) is proved for the range without overflow; in release builds later times wrap (C36_time_refuted).

### C37 Strings survive the trip to Java and back

*Claim.* Converting a Rust string to a Java string and back gives the same string, and a Java string converts exactly when it is well-formed UTF-16.

*Model and proof.* UTF-16 encoding and decoding with surrogates; the two length conversions.

*Status:* **partial**. Theorems: `C37_round_trip_partial`, `C37_from_java`, `C37_option`, `C37_null_is_empty`, `C37_long_strings_refuted`. Proved for strings of fewer than 2^31 UTF-16 units; longer strings are cut silently (C37_long_strings_refuted).

### C38 Enums round-trip

*Claim.* Converting an enum value to its foreign integer and back gives the same value, different values get different integers, integers which are no variant make the program stop instead of producing a value, and the absent optional enum is never confused with a present one.

*Model and proof.* Generated match arms as lists numbered by position.

*Status:* **proved**. Theorems: `C38_from_int`, `C38_java_from_int`, `C38_round_trip`, `C38_injective`, `C38_items`, `C38_option`, `C38_same_variant_refuted`. Java (i32) and C++ (u32). The Java side needs pairwise different variants, which the generator does not check (C38_same_variant_refuted).

### C39 Java wrapper objects free the native object exactly once

*Claim.* Over any sequence of method calls, explicit deletes, moves into Rust and finalizations of a Java wrapper, the wrapped Rust object is dropped at most once, exactly once if the wrapper is finalized and it was not moved out, and no method is run on it afterwards unless the object is used after an explicit delete/move.

*Model and proof.* `JavaLifeModel`: heap of Rust objects with owner counts, Java wrappers, frames of native calls, garbage collection and finalizers as steps; invariant over all traces.

*Status:* **partial**. Theorems: `C39_safe_partial`, `C39_alive_partial`, `C39_one_owner_partial`, `C39_dropped_once`, `C39_exactly_once_partial`, `C39_finalize_partial`, `C39_use_after_delete`, `C39_argument_after_delete`, `C39_argument_taken`, `C39_argument_owned`, `C39_this_refuted`, `C39_ref_and_value_refuted`, `C39_leak_refuted`, `C39_array_refuted`, `C39_deleted_option_refuted`. Any number of threads, calls, wrappers and collections. Proved for programs which do not delete or move an object during a call that borrows it, keep the receiver alive during its methods, and put no null and no Rc/Arc object into arrays; the refuted theorems show that each of these rules is needed (the receiver is not fenced against the garbage collector; a moved argument leaks when a later argument is null).

### C40 C++ wrapper objects free the native object exactly once

*Claim.* Over any sequence of constructions, copies, moves, assignments, releases and destructions of C++ owning wrappers, every Rust object given to C++ is freed exactly once, and never used after being freed.

*Model and proof.* `CppLifeModel`: heap with owner counts, C++ objects with their special member functions, frames; invariant over all traces.

*Status:* **partial**. Theorems: `C40_never_freed_twice`, `C40_alive`, `C40_one_owner`, `C40_times_freed`, `C40_exactly_once`, `C40_destroy`, `C40_moved_from`, `C40_no_use_after_free`, `C40_wrappers_alone_are_safe`, `C40_ref_outlives_refuted`, `C40_assign_from_own_ref_refuted`, `C40_ref_constructor_refuted`, `C40_self_move_refuted`. Freedom from double free and leak holds for every program (leaks: without the broken XRef constructor); freedom from use after free holds for owning wrappers alone and, with references, for programs keeping the borrowed object alive. The refuted theorems show the generated-code defects: assigning from an own reference, the XRef constructor, self-move with NDEBUG.

### C41 RustString in C++ manages memory correctly

*Claim.* Over any sequence of constructions, copies, moves, assignments (including self-assignment) and destructions, each Rust string buffer handed to C++ is freed exactly once and the helper functions are only called with valid buffers.

*Model and proof.* `CppMemModel`: allocations with capacity and contents; invariant over all programs.

*Status:* **partial**. Theorems: `C41_values`, `C41_only_null`, `C41_safe_partial`, `C41_one_owner`, `C41_exactly_once`, `C41_copy_refuted`. For every program: buffers freed exactly once, texts as specified, and the only invalid argument ever passed is null, when a default-constructed or moved-from string is copied (C41_copy_refuted); C41_safe_partial excludes these copies.

### C42 RustVec in C++ manages memory correctly

*Claim.* Over any sequence of operations on C++ vectors of Rust objects, each element is freed exactly once and each buffer is freed exactly once.

*Model and proof.* Same memory; vectors of Rust objects with ownership of the elements.

*Status:* **partial**. Theorems: `C42_contents`, `C42_objects`, `C42_buffers`, `C42_exactly_once`, `C42_undefined`, `C42_safe_partial`, `C42_reference`, `C42_push_moved_refuted`, `C42_reference_refuted`, `C42_index_refuted`, `C42_alignment_refuted`. For every program of vectors, wrappers and Rust-side moves: contents as specified, each object dropped and each buffer freed exactly once (given the alignment condition; C42_alignment_refuted shows it is needed). Safety excludes pushing a moved-from object, indexing out of range without assertions and references used after their vector changed; each is refuted otherwise.

### C43 JVM thread attachment is balanced

*Claim.* Every callback from Rust into Java, on any thread, detaches the thread from the JVM if and only if the callback attached it, and the global reference to the Java object is released exactly once.

*Model and proof.* `JavaCbModel`: threads, attachment, nested callbacks, weak and global references; invariant over all interleavings.

*Status:* **partial**. Theorems: `C43_safe`, `C43_attached`, `C43_balanced`, `C43_references`, `C43_released`, `C43_reaches_java`, `C43_leak_refuted`, `C43_lost_refuted`. Every interleaving of any number of threads, callbacks and nested calls: attach/detach balanced and no JNIEnv or reference used when invalid. Exactly-once release needs attaching to work (C43_released); if attaching fails on drop the reference leaks for ever (C43_leak_refuted) and a void callback is silently not delivered (C43_lost_refuted).

### C44 Class declarations are accepted iff consistent

*Claim.* A foreign class declaration is accepted exactly if it is consistent: constructors, methods and static functions have the receivers they should have, argument names differ, a self type is given iff there is a constructor, a Copy class has a clone method, the empty constructor is private and the only one after it. The accepted class has the declared functions in order with their paths, argument and result types, access and foreign names; all its constructors return one type; a class with methods and no self type is refused before generation. Interface and enum declarations are taken over in the same way.

*Model and proof.* ClassModel models the item loop of do_parse_foreigner_class, the checks after it, validate_class, the interface and the enum parser over items already read by syn. ClassSpec states consistency and the declared class without the loop (splits of the item list); ClassProofs has a state invariant over the prefix read and shows each step succeeds iff the item fits the prefix; ClassProps concludes the iff.

*Status:* **partial**. Theorems: `C44_accepted_iff`, `C44_constructors_agree_partial`, `C44_constructors_agree_refuted`, `C44_validate`, `C44_order_refuted`, `C44_one_self_refuted`, `C44_camel_panic_refuted`, `C44_interface`, `C44_enum`. Accepted iff consistent and the result is what was declared, for all declarations; interfaces and enums likewise. Partial: that all constructors return one type holds unless `constructor = empty -> T` follows another constructor, whose type is then silently replaced (refuted); the position of the empty constructor decides acceptance, a second self argument is accepted, and camelCaseAliases panics on names such as `_1`.

### C45 Merging type maps keeps all knowledge

*Claim.* Merging the type information of a file into the current map keeps every known type, rule and foreign type at its index, adds every new one, re-targets its rules to the right types by name, and merging the same information twice adds nothing new.

*Model and proof.* `MergeModel`: merge of two maps with re-indexing, in any hash order; the state of a map described by names only; reachable maps as an inductive predicate.

*Status:* **partial**. Theorems: `C45_merge_made`, `C45_twice_partial`, `C45_order_independent`, `C45_rule`, `C45_merge`, `C45_idempotent_partial`, `C45_modules_refuted`, `C45_modules_rule_refuted`, `C45_generic_twice_refuted`. For every pair of maps the program can make ([made]): merging succeeds, keeps positions, and what is known by name afterwards is exactly the union (later file wins), whatever the hash order; a second merge changes neither types, rules nor foreign types. Every rule of a file is either reported or has exactly its effect. Refuted: required modules of the later file (and of the earlier rule within a file) are forgotten; generic rules are stored again on a second merge.

### C46 Conflicting foreign type rules are reported

*Claim.* When two files give different Rust sides for one direction of a foreign type, the documented policy is applied: the later one wins unless both come from the same file, in which case an error is reported.

*Model and proof.* Same model; effect of one rule per direction of a foreign type.

*Status:* **partial**. Theorems: `C46_later_file_wins`, `C46_same_file_reported_partial`, `C46_later_rule_wins`, `C46_simple_dup_reported`, `C46_only_repeats_reported`, `C46_accepted`, `C46_same_file_refuted`. The later file wins per direction; two rules with conversion code for one direction in the same file are reported, as is a second simple rule. C46_accepted says exactly which rules a map accepts. Refuted for rules without code: they silently replace each other within one file.

### C47 Generated calls pass arguments in order

*Claim.* A call of a wrapped method, static method or constructor from Java or C++ calls the user's Rust function exactly once, with the receiver first and all arguments in declaration order, each converted exactly once on each side that has a conversion, and returns its converted result; if a conversion stops, the function is not called. No variable of the wrapper clashes with an argument or another variable, and the fence against the garbage collector covers every converted object.

*Model and proof.* CallModel has the text of the call expression, of the conversions of the inputs on the Rust side, of the Java and the C++ wrapper and of the fence, and an interpreter of these wrappers over arbitrary values: environments of named variables, conversions as partial functions, calls recorded. CallSpec states the expected result without names. CallProofs shows by induction over the arguments that the text is that of a plan with fresh variables, that running the plan gives each position its converted value, and that the Rust body does the same; CallProps puts both together for methods, static methods and constructors.

*Status:* **partial**. Theorems: `C47_call_text`, `C47_call_text_inline`, `C47_rust_inputs`, `C47_callback_inputs`, `C47_java_text`, `C47_fence`, `C47_cpp_text`, `C47_java_call`, `C47_java_new`, `C47_cpp_call`, `C47_expected`, `C47_no_call`, `C47_env_refuted`, `C47_field_name_refuted`, `C47_struct_refuted`. Texts of the call, the conversions and the fence for all signatures, and the execution of the wrappers for all arguments and conversions. Partial: an argument called env makes the Rust code of a Java method invalid, a constructor argument called mNativeObj hides the field, which then stays 0, and the word struct is cut out of the name of a returned C++ class (refuted). Conversions are abstract functions that bind only their own variable.

### C48 Configuration options select exactly one foreign variant

*Claim.* For a conversion rule with option-dependent foreign types, after configuration exactly the variants matching the configured options remain, and an error is reported if an unknown option is used or several remain.

*Model and proof.* Selection of variants by options for both backends.

*Status:* **proved**. Theorems: `C48_variant`, `C48_known_options`, `C48_unknown_option_reported`, `C48_pairs`, `C48_one_of_pair`, `C48_java_rule`, `C48_cpp_rule`, `C48_foreign_code`. All rules and configurations of both backends; foreign code pieces are written exactly once when their option applies.

### C49 Conversions reachable within the step limit are found

*Claim.* If the target type can be reached from the source type by at most six steps (registered rules or generic rules that apply), one further generic step and then registered rules only, the generator finds a conversion, whatever the iteration order of its hash sets.

*Model and proof.* The speculative search seen as reachability within a number of steps.

*Status:* **proved**. Theorems: `C49_reachable_is_found`.

### C50 Deep search for a foreign type is safe

*Claim.* When no direct conversion exists, the deep search either returns a foreign type that is connected with the Rust type afterwards, or nothing; it does not abort and keeps everything known before.

*Model and proof.* `FullModel`: search over all foreign types.

*Status:* **partial**. Theorems: `C50_result_connected`, `C50_no_abort_partial`, `C50_shortest_candidate`, `C50_not_a_stop`, `C50_no_abort_refuted`. the claim that it never aborts is false of the code (C50_no_abort_refuted): a foreign type with an intermediate type can make merge_path_to_conv_map's assertion fail; proved without intermediate types

### C51 Rust macros in templates survive expansion

*Claim.* A macro call in a Rust code template whose name is not one of the generator's own macros is kept: the same macro is called with the same arguments and text in the expanded code, and the generator's own macros inside its arguments are expanded.

*Model and proof.* Tokens of the unknown macro before and after.

*Status:* **partial**. Theorems: `C51_same_call_partial`, `C51_rule_same_call`, `C51_canonical_unchanged_partial`, `C51_text_refuted`, `C51_nested_refuted`. An unknown macro is re-emitted as a call with the same name and arguments, but its text may change (even in string literals) and known macros inside it are not expanded.

### C52 Cached JNI ids are initialised

*Claim.* Every class, method and field id which the generated glue uses has a global variable and is set when the library is loaded, after its class and from the path, name and signature given where it is used; nothing is looked up twice; ids used inconsistently stop the generator; every class reference taken on load is released on unload.

*Model and proof.* `find_cache.rs` as a table; scan of the generated code.

*Status:* **proved**. Theorems: `C52_ids_initialised`, `C52_two_ids_rejected`, `C52_two_classes_rejected`, `C52_same_class_again_refuted`.

### C53 Arrays and vectors cross the Java boundary unchanged or not at all

*Claim.* A slice or vector of numbers, objects or strings given to Java arrives with the same length and every element at its place, or the program stops because it is too long; a Java array arrives in Rust as it is.

*Model and proof.* Copy loops with lengths and bounds.

*Status:* **proved**. Theorems: `C53_slices`, `C53_objects`, `C53_strings`, `C53_strings_small`.

### C54 Errors returned by Rust become Java exceptions with the same text

*Claim.* When a Rust function returns Err with a message, the Java caller gets an exception whose message is this text; when it returns Ok the caller gets the converted value.

*Model and proof.* Text of the message through the JVM's modified UTF-8.

*Status:* **partial**. Theorems: `C54_error_partial`, `C54_success`, `C54_error_refuted`. Proved for messages of characters U+0001..U+FFFF; a NUL aborts and other characters are not passed in the JVM's encoding (C54_error_refuted).

### C55 C++ iterators over Rust objects visit every element once

*Claim.* Looping over a C++ vector or slice of Rust objects visits the address of each element exactly once in order; indexing, `it + n` and `it - it` agree with element positions.

*Model and proof.* Addresses of elements and iterators as integers modulo the size of the address space.

*Status:* **partial**. Theorems: `C55_index`, `C55_visit`, `C55_distinct`, `C55_add`, `C55_difference_partial`, `C55_difference_refuted`, `C55_zero_sized_refuted`. Loops, indexing and offsets are right for elements of positive size; the difference of iterators is wrong whenever it is negative (C55_difference_refuted, all sizes of two or more bytes) and containers of zero-sized objects look empty to a loop.

### C56 Identifiers of generic aliases

*Claim.* The identifier made for a generic alias (such as the C type of a vector of T) consists of identifier characters only, and different types get different identifiers.

*Model and proof.* SymModel: escaping and concatenation of identifiers. The codes of printable characters form a prefix code (shown by cases on all characters), from which injectivity follows by induction.

*Status:* **partial**. Theorems: `C56_identifier`, `C56_injective_partial`, `C56_injective_refuted`, `C56_alias`. For all ASCII texts the result is made of identifier characters; different texts give different identifiers if they have no digits (and not the path std::os::raw, which is cut out on purpose). Missing: texts with digits, for which it is false (refuted: `A < B >` and the identifier `A326032B3262`). Characters beyond ASCII are left out.

### C57 C functions of C++ classes do not clash

*Claim.* Every method, constructor and destructor of the exported classes gets a C function, and no two of these functions have one name, so each C++ call reaches the Rust function it was generated for.

*Model and proof.* SymModel: the list of C functions of a class. The name is decoded from the front (access word, class, function), so equal names have equal parts.

*Status:* **partial**. Theorems: `C57_symbols_partial`, `C57_symbols_refuted`, `C57_complete`. All functions have different names if class names have no underscore and are not access words, and if no class has two methods with one name and access or one with a generated name. Refuted without these conditions: `A_b`::`c` and `A`::`b_c`, class `private_A`, a method `delete`.

### C58 Generated foreign files do not overwrite each other

*Claim.* Different exported classes, enums and interfaces are written to different files, and none of them to a file the generator needs for itself.

*Model and proof.* SymModel: the list of files of a declaration. Equal file names have equal suffixes, hence equal kinds and names.

*Status:* **partial**. Theorems: `C58_cpp_files_partial`, `C58_cpp_files_refuted`, `C58_java_files`. C++: all files differ if no name ends in `_fwd` or `_impl`; refuted otherwise (class `Foo` and enum `Foo_fwd`). Java: all files differ if names do and none is that of a helper class. Case-insensitive file systems are left out.

### C59 A generic foreign_typemap! rule is used exactly for its instances

*Claim.* A generic rule is used for a type only if the type is an instance of the rule's Rust type for the asked direction and every trait the rule asks for, in the angle brackets or after where, is known of the type argument; of several rules the first such is used.

*Model and proof.* InstModel: is_ty_subst_of_my_generic_rtype over the matching of C14–C16 and the search for the first rule. InstProps derives the statements from C14/C16 and from the list of bounds; `fits` is the independent notion of an instance.

*Status:* **partial**. Theorems: `C59_applies_partial`, `C59_applies_to_instances_partial`, `C59_first_partial`, `C59_none_partial`, `C59_where_type_refuted`. Both back ends. A rule that is used fits; a rule that fits is used, unless a parameter is repeated or stands in an array, a trait object, parentheses or an associated type (see C16). Missing: patterns with qualified paths. Refuted: a where clause on a type which is no single name aborts the generator.

### C60 The concrete rule is the generic rule with its parameters put in

*Claim.* The rule made from a generic foreign_typemap! rule for a type consists of the parts of the generic rule for that direction: each type, type name, module name and piece of code is the generic one with type parameters and macro calls replaced by what they stand for, nothing else changed, in the same order, modules listed once.

*Model and proof.* InstModel: expand_type as a state-passing visitor, the four text contexts on top of expand_macroses (C23), aliases, and subst_generic_params, over an arbitrary back end. InstSpec has relations `filled` (types) and `text_filled` (texts) with the meaning of each macro given as inductive rules. InstProofs: induction over types with the invariant that the error flag is off; InstProofs2: texts and rules; InstPlain: types without macros are exactly substituted.

*Status:* **partial**. Theorems: `C60_rule_instance_partial`, `C60_chosen_rule_partial`, `C60_types_partial`, `C60_c_items_partial`, `C60_type_error_refuted`. All parts of the rule, for an arbitrary back end. Missing: non-ASCII rule texts; a macro call in a Rust type that cannot be expanded is silently left in the type (refuted), so the theorem asks that those of the rule can be.

### C61 A call of a callback trait in Rust is one call of the C++ virtual function

*Claim.* When Rust calls a function of a foreign_callback! trait whose implementation lives in C++, exactly one virtual function is called, the one declared for it, on the object that was handed over, with the arguments converted one by one in order; the converted result comes back; dropping an owned callback destroys exactly that object and dropping a lent one nothing.

*Model and proof.* CbModel: the struct of function pointers as a list of slots filled by name in C++ and read by position in Rust, the static functions with their variables, the trait implementation. CbSpec: the expected effect of a call. Proof by showing that filling puts every slot at the index Rust reads.

*Status:* **partial**. Theorems: `C61_call`, `C61_call_reference`, `C61_expected`, `C61_drop`, `C61_opaque_refuted`, `C61_field_refuted`, `C61_result_refuted`. All declarations with names C++ can tell apart. Partial: an argument or method called `opaque`, two methods with one foreign name, and results whose converter needs a variable (such as a boxed callback) give code that does not compile (refuted).

### C62 Callback objects are deleted once and never used after that

*Claim.* Over any history in which objects are created in C++, handed to Rust, lent to Rust, called and dropped, an object is destroyed once, by its owner, and no call reaches a destroyed object, as long as C++ keeps lent objects alive.

*Model and proof.* CbModel: histories over objects, owners and structs. CbSpec: an abstract history of who holds what. Simulation by induction over the history, and an invariant of the abstract history.

*Status:* **partial**. Theorems: `C62_safe`, `C62_once`, `C62_clone_refuted`, `C62_null_refuted`. All histories without clone. Refuted: the generated struct derives Clone, so safe Rust code can delete an object twice; an empty unique_ptr aborts the program.

### C63 A call of a callback trait in Rust is one call of the declared Java method

*Claim.* When Rust calls a function of a foreign_callback! trait implemented in Java, the method ids kept by the callback are those of the declared methods, even with overloads in the class; exactly that method runs, every argument arrives with the value and type it had, the result comes back converted, and no Java exception is left pending. Without a JNI environment nothing runs. Declarations with values that need Java code are refused.

*Model and proof.* JCbModel: checks of the types, signatures (C35), method ids, passing of arguments through variable arguments and reading by descriptor, exceptions. JCbSpec: which method is declared, values of JNI types, the expected effect. Uses that method descriptors are uniquely readable.

*Status:* **partial**. Theorems: `C63_descriptor`, `C63_value`, `C63_attach`, `C63_call_partial`, `C63_no_env`, `C63_accepts`, `C63_exception_refuted`. All interfaces, classes and values. Missing: boxed arguments and object results, whose signatures are wrong (C35). After a Java exception in a method with a result, whatever the JNI function returned is converted and taken for the answer (refuted).

### C64 map_type answers with the rule of the foreign type found, and with nothing else

*Claim.* When a back end accepts a Rust type in a direction, the foreign type is one the map of conversions answered with, and its rule for that direction decides the result: the name, the Rust type passed over the boundary, the converter and the modules. A converter is used only if the intermediate type maps to itself without a further converter. For Java the null annotation is the one in the name, none for primitive types, else @Nullable for an Option of one type and @NonNull otherwise. A deeper stack changes no answer that was given.

*Model and proof.* MapModel: map_type of both back ends over an arbitrary map of conversions (a record of operations on an arbitrary state), with the expansion of generic rules of InstModel calling back into it; the depth of the stack is a parameter. MapProofs: a relation between two runs which is kept by every construct, hence monotonicity in the depth; inversion of an accepted mapping.

*Status:* **partial**. Theorems: `C64_java_result`, `C64_cpp_result`, `C64_one_converter`, `C64_annotation`, `C64_option`, `C64_option_complete_partial`, `C64_option_complete_refuted`, `C64_more_stack`, `C64_own_intermediate_overflows`, `C64_terminates_refuted`. All maps, types, directions and depths. Partial: an Option of a type in which a type called T occurs is annotated @NonNull (refuted); a type which is its own intermediate type makes the recursion endless (refuted).

### C65 An accepted mapping can be converted

*Claim.* After a back end accepted a Rust type, the Rust conversion code for it exists: convert_rust_types between the type and the type passed over the boundary, in the direction asked, gives code and no error, as long as no rule of a foreign type was replaced by a rule for other Rust types.

*Model and proof.* MapTMap: the operations of MapModel on the map of TMapModel and FullModel, with merge_conv_rule written for it. MapTMapProofs: each operation keeps the invariant of FullProofs, only adds conversions and never separates what was joined, unless a rule is replaced. MapConvProps: histories by induction, then the walk found by the search joined with that of the intermediate type.

*Status:* **proved**. Theorems: `C65_java_convertible`, `C65_cpp_convertible`, `C65_cpp_all_convertible`, `C65_replaced_refuted`. All histories, with the C types rules declare (C65_cpp_all_convertible). Without the condition on replaced rules the claim is false: stale answers stay in the cache (refuted).

### C66 Python arguments reach Rust as the declared types say

*Claim.* Calling a generated Python function with values that do not fit the declared types raises TypeError and nothing happens. Otherwise the Rust function is called exactly once, with the values the Python values stand for at the declared types (the object in an instance, its clone, its Arc, the variant of a number, None or Some, the elements of a list in order), or a number that is no variant raises ValueError and nothing is called. Each argument stands for one value only.

*Model and proof.* PyModel: the generator of python/mod.rs as functions to a tree of generated code, an evaluator of this code over cells, instances and locks, and rust-cpython's extraction of arguments. PySpec: how a declared type is read, which Python values fit, which Rust value each stands for and which locks this takes, without generated code. Proof by induction over the recursion of the generator.

*Status:* **partial**. Theorems: `C66_arguments`, `C66_unique`, `C66_arc_by_value_refuted`, `C66_option_ref_refuted`, `C66_vec_ref_refuted`. All methods, arguments, states and functions whose argument types give valid Rust (rust_ok). Missing: the forms the generator accepts though the code is not valid Rust or passes another type (refuted: class kept in Arc by value, Option or Vec of references); types named T or E.

### C67 Python results are what the declared result type says

*Claim.* When the Rust function returns, Python gets the value its declared type says: a number, a new instance holding the object, its clone or the shared Arc, None for an empty Option or unit, a list, a tuple, or an exception with the text of the error and all its causes. Every value of the declared type comes back, all instances made before stay what they were, and all locks are as before.

*Model and proof.* PySpec.returns: the Python value and new instances for a value of a declared type; typed: the values of a type. Proof by induction over the types, with an invariant of instances and cells.

*Status:* **partial**. Theorems: `C67_results`, `C67_total`, `C67_nested_option_refuted`, `C67_borrowed_tuple_refuted`. All result types and values. Missing: tuples which refer to the locked self (the generated code is refused by Rust); nested Options cannot be told apart in Python (refuted).

### C68 Python enum numbers round trip

*Claim.* The constants of a generated Python enum are its items in order, each with its discriminant as u32; a constant passed to Rust arrives as the variant it is named after, and a variant returned equals its constant, exactly if the discriminants differ modulo 2^32; every other number raises and no Rust function is called.

*Model and proof.* From C66 and C67 and modular arithmetic.

*Status:* **proved**. Theorems: `C68_round_trip`, `C68_constants`, `C68_call`, `C68_truncation_refuted`. All enums and numbers; equivalence with the condition on discriminants.

### C69 Locks of Python objects

*Claim.* While a Rust function runs, at most one of its arguments refers to an object kept in a mutex, and a mutable reference refers only to an object whose lock the call holds. A call in which one such object is wanted twice never returns.

*Model and proof.* Counting references in the values of C66 against the locks taken.

*Status:* **proved**. Theorems: `C69_exclusive`, `C69_same_object`, `C69_self_twice_refuted`. All methods, instances and positions; for one thread.

### C70 What the Python back end accepts

*Claim.* A method is accepted exactly if each argument type and the result type are of the supported forms, a class exactly if its constructors return its self type (bare or in a known smart pointer) and all its methods are accepted; otherwise there is an error, never a panic. Every method but a dummy constructor becomes one Python function in the order of declaration. Classes may be declared in any order; enums must come before the classes using them, and with that any order gives the same code.

*Model and proof.* PySpec.arg_ok/ret_ok/class_accepted as independent description; equivalence by induction. C70_order through the enums known at each item.

*Status:* **proved**. Theorems: `C70_methods`, `C70_classes`, `C70_items`, `C70_order`, `C70_enum_after_class_refuted`, `C70_interface_panics_refuted`, `C70_module_clash_refuted`. All items, classes, methods and types written without the names T and E, to any nesting (the bound n is any number above the nesting).

### C71 A type map file means what its items say

*Claim.* After a type map file is read, the conversion between two types is the one of the last item about this pair, each foreign type has in each direction the Rust type of the last item about it, every ordinary item is copied to the output once and in order, generic conversions and rules are kept once and in order. The file is accepted exactly if every item is right at its place, otherwise there is an error.

*Model and proof.* ParseModel: parse() as a fold over the items with the map of MergeModel, the generic edges, dependencies, trait codes and utils. ParseSpec: `says_*` (what one item says at its place), `final` (the last one counts) and `collects` (all, in order), `item_ok` (when an item is right). Proof: an invariant relating the state after each prefix to these, by induction from the right; acceptance of foreign_typemap! through C46_accepted. ParseOrder: name, source and modules of a foreign type after a rule are a function of those before, so two walks of the table stay equal by name and accept the same items.

*Status:* **partial**. Theorems: `C71_conversions`, `C71_dependencies`, `C71_foreign`, `C71_output`, `C71_generic`, `C71_traits`, `C71_accepted`, `C71_no_panic`, `C71_table_order`, `C71_order_accepted`, `C71_order_foreign`, `C71_merge`, `C71_panics_refuted`, `C71_panics2_refuted`, `C71_dangling_refuted`, `C71_duplicate_refuted`. All files, items and walks of the table; items as syn gives them, the parser of types is arbitrary. Refuted: a macro without a proper generic argument makes the reader panic; a foreign name without a Rust type is dropped and a repeated one replaced without a message. Neither what is accepted nor what is known depends on the order in which the table is walked.

### C72 Items for another pointer width are ignored

*Claim.* A conversion, conversion trait or conversion macro with #[cfg(target_pointer_width = n)] as its only condition is ignored wherever it stands if n is not the width of the target, and counts as if it had no condition otherwise.

*Model and proof.* From ParseModel by rewriting (ParseOrder: at any place, by a relation between states that every item keeps) with the meaning of the attribute list; refutations by concrete files.

*Status:* **proved**. Theorems: `C72_other_width`, `C72_own_width`, `C72_own_width_anywhere`, `C72_two_conditions_refuted`, `C72_other_conditions_refuted`, `C72_typemap_refuted`. All files, positions and widths for items with one condition. Refuted: of two conditions the last counts, conditions other than the width are ignored and hide a width after them, and a condition on foreign_typemap! is ignored.

### C73 All type map files together: the last word counts

*Claim.* After all type map files are read in order, the conversion between two types is the one of the last item, in all the files, about this pair, with the helper code it needs; each direction of a foreign type is that of the last item about it; ordinary items, generic conversions and rules kept for later are those of all files in order. The files are accepted exactly if each can be read after those before it and some type is known at the end.

*Model and proof.* InitModel: init_types_map as a fold of parse (C71) and merge (C45). InitSpec: `lastly` and `gathers` over the list of all items with their files. Proof by induction over the files from the right, with lemmas splitting `lastly` at a boundary between files.

*Status:* **proved**. Theorems: `C73_conversions`, `C73_foreign`, `C73_collected`, `C73_accepted`, `C73_no_panic`. All lists of files and all hash orders; what one file says is C71. Panics only as in C71.

### C74 A class is registered exactly if it is right and its names are free

*Claim.* Registering a class for Java or C++ succeeds exactly if the class is well formed (a class without self type has no methods on objects, one with a self type has something to call), SmartPtrCopy is asked only for an Rc or Arc (for C++ also without a method clone), and none of the foreign types it introduces has a name in use; otherwise there is an error, never an abort. An accepted class takes exactly these names.

*Model and proof.* RegModel: register_class and register_typemap_for_self_type of both back ends as programs on the map of MapTMap. RegProps: well_formed, the list of names a class introduces, acceptable. Proof: each step either adds exactly its foreign types to a good map or fails because a name is taken (`acts`), composed; the names of one class are shown different.

*Status:* **proved**. Theorems: `C74_java_accepted`, `C74_cpp_accepted`, `C74_cpp_ref_clash`. All classes and all histories of the modelled operations in which no rule of a foreign type was replaced by one for other types (C65); class names are identifiers. A C++ class C takes the name CRef too.

### C75 A registered class can be passed in every way

*Claim.* After a class is registered, and whatever classes are registered later, its type by value is mapped in both directions, and references to it are mapped as arguments (for C++ a shared one also as result, unless the class is plain), to the foreign class, with the foreign code which makes an object of the pointer, takes the pointer away (or leaves it if the class is copied), or lends it. The type implements the traits of the class. This holds if nothing was mapped to the type before.

*Model and proof.* A foreign type with a rule on exactly the type asked for is found by the search, the first one if there are several (`first_wins`, from C03); registering later classes only appends. The text of the converters is written out again in the specification.

*Status:* **partial**. Theorems: `C75_java_value`, `C75_java_reference`, `C75_java_reference_accepted`, `C75_cpp_value`, `C75_cpp_reference`, `C75_cpp_view`, `C75_java_traits`, `C75_cpp_traits`, `C75_traits_refuted`, `C75_cpp_result_refuted`. All classes, histories and later classes, if nothing was mapped to the types before. Refuted: a type the map already knew gets no traits (so a class over Foo after one over Rc<Foo> is not known as a class); for C++ a constructor returning a Result makes the Result the type of the class. That a Java reference is accepted, and not only mapped right if accepted, is C75_java_reference_accepted.

### C76 Mappings with classes can be converted

*Claim.* When a Rust type is mapped, in a map with any classes registered, the Rust code converting between the type and what is passed for it can be generated, except for references to a self type other than what the constructors make, and as long as no rule of a foreign type was replaced by one for other Rust types (C65).

*Model and proof.* The invariant of C65 with a set of names exempt from it; registering a class keeps it, because each class type is registered together with the rules which join it to its pointer.

*Status:* **proved**. Theorems: `C76_java_convertible`, `C76_cpp_convertible`, `C76_aside_refuted`. All histories with classes, under the condition of C65. Refuted without the exception: with self type Foo and constructors making Rc<RefCell<Foo>>, &Foo is accepted and no conversion exists.

### C77 Generated C headers keep their shape

*Claim.* Every header written for rules begins with the guard, the includes of fixed integers and the check of the pointer width; its blocks extern "C" are opened and closed in pairs and each C declaration is inside of one; no item is declared twice in a header; a piece of foreign code is written once per header and that of every merged rule is there, with the user's namespace put in; what was written is never changed later. This holds if no declaration was given up with an error, and if no item is declared again while its own declaration is being made.

*Model and proof.* CItemModel: headers as lists of chunks with a text for each, the state of CppContext, generate_c_type, register_c_type, merge_rule and map_type of C++ calling each other with the stack depth as parameter, on the map of MapTMap. Two ghost fields record declarations begun and not finished. CItemProofs: a preorder on states kept by every operation (`along`) is kept by the whole recursion; CItemProofs2/3: three such preorders, one counting blocks.

*Status:* **proved**. Theorems: `C77_well_formed`, `C77_declared_once`, `C77_code_once`, `C77_code_written`, `C77_kept`, `C77_includes_inside_refuted`, `C77_code_inside_refuted`, `C77_again_refuted`, `C77_open_refuted`. All histories of rules and mappings, nothing assumed about the mappings made while a declaration is written. Refuted without the conditions: a refused function leaves its block open, a nested generic rule declares an item twice; includes of functions and foreign code of generic rules may stand inside a block extern "C".

### C78 A declared C item is the Rust item

*Claim.* A struct or union of define_c_type! is declared in its header with the same fields in the same order, each with the C type its Rust type is passed as without conversion, after includes of the headers of these types (not of itself); Rust gets the type, or if the user defined it a test that the layout is the same; a function is declared with its arguments in order and its result (void if none), a static as extern const; items already declared in the header are left alone; all items of a merged rule are declared.

*Model and proof.* Inversion of each generator function; the C type of a field is stated through map_type in a state between the two (`c_named`).

*Status:* **partial**. Theorems: `C78_rust_items`, `C78_rust_checked`, `C78_texts`, `C78_record`, `C78_function`, `C78_constant_partial`, `C78_all_declared`, `C78_constant_header_refuted`, `C78_other_fields_refuted`, `C78_two_headers_refuted`, `C78_order_refuted`. All items and states. Missing and refuted: a static does not bring the header of its type; a second definition with other fields is ignored without a message; one struct may be declared in two headers; a struct may be declared before the struct it contains.

### C79 C records become known types

*Claim.* When a struct or union of define_c_type! is registered, its type gets exactly one foreign type with the name `struct N` or `union N`, passed in both directions without conversion and bringing its header; if nothing answered for the type before, mapping it gives this. A record known under this name already is left alone, one known under another name or whose C name is taken is refused. All records of one definition are registered before the first is declared.

*Model and proof.* The lemmas of RegProofs on registering foreign types, with the search for a foreign type standing for itself; C79_mapped through `first_wins`.

*Status:* **proved**. Theorems: `C79_registered`, `C79_mapped`, `C79_known`, `C79_refused`, `C79_all`. All histories in which no rule of a foreign type was replaced by one for other types (C65).

### C80 A typemap rule is read as it is written

*Claim.* The parser of foreign_typemap! accepts exactly the sequences of arms of its grammar that agree with each other: at most one Rust rule in each direction, at most one list of C items, the same generics everywhere, foreign rules of a direction with different options, prefixes that begin the name, temporaries with different names, aliases and unread C items only with generics. The rule then says what the arms say: each direction with its types, code, modules, options and names, in the order written. No input can be read in two ways, and none makes the parser panic.

*Model and proof.* TmapModel: the parser as functions on token trees in a parser monad (Ok, Err, Panic), syn's parsers of types and generics as parameters. TmapSpec: an inductive grammar of arms with no parser in it (`arms_at`) and `says`, relating a list of arms to a rule through filters. Proof: each parser function accepts exactly what its grammar rule describes, both directions; the fold over arms against `says` by induction from the right.

*Status:* **partial**. Theorems: `C80_read`, `C80_unambiguous`, `C80_twice_refuted`, `C80_panic_refuted`. All token sequences; syn's parsers of types and generics are arbitrary parsers that only consume tokens. Refuted: a parameter given twice is accepted and the last counts; a variable called o, ou or out makes the parser panic.

### C81 The variables of conversion code are replaced, nothing else

*Claim.* In the code of a rule each $name that is the input variable becomes the place for the input, $out the place for the output with its declaration (in foreign code the first use declares, later ones do not), $out_no_type the place for a declaration without type, temporaries stay to be renamed when the code is used, and all other text is unchanged. Code of a Rust rule that does not use input and output is refused.

*Model and proof.* TmapCodeSpec: the reading of a text as characters and variables with their longest names, and filling. Proof: `replace` of a variable not beginning another is filling, by induction over the reading; uniqueness of readings.

*Status:* **partial**. Theorems: `C81_rust_partial`, `C81_foreign_partial`, `C81_reading`, `C81_no_variable`, `C81_refuted`. All code texts in which the input variable and the output variable are not the beginning of another variable. Refuted without this: $p is replaced inside $pin, $out inside $outer, and $out stays beside $out_no_type.

### C83 No two items of an accepted run have the same name or file

*Claim.* When the generator accepts a list of classes, enums and callbacks, their names are pairwise different, none of them was already the name of a foreign type, and no output file is written for two of them.

*Model and proof.* ItemModel: the two phases of a run, register all classes, then generate all items, on the state of MapTMap. Proof: names of foreign types only grow under every operation and every map_type (`rel_java`, `rel_cpp` with the relation `grown`), a successful registration takes a name that was not there (`takes`), and `takes` composes; any state, no invariant needed.

*Status:* **partial**. Theorems: `C83_java_partial`, `C83_cpp_partial`, `C83_java_refuted`, `C83_cpp_refuted`. Any state of the map, any list of items. Java without null annotations: all items with a type; with them, classes among themselves and enums and callbacks among themselves. C++: classes and enums among themselves, callbacks among themselves. The full claim is false: classes without self type take no name; with null annotations a class and an enum may share a name; in C++ a class and a callback may share a name and both files, and a class called Foo_fwd shares a file with class Foo.

### C82 An enum is accepted unless its name is taken, and its type can be passed both ways

*Claim.* In a map that knows jint (Java), foreign_enum! is accepted exactly if the enum has fewer than i32::MAX (Java) or u32::MAX (C++) items and no foreign type has its name; it takes that one name and nothing else. Afterwards, if nothing was mapped to the type before and jint / u32 are mapped as they are, its type maps to the enum class and is passed as jint / u32: given out with fromInt / static_cast, taken in with getValue / static_cast<uint32_t>. Classes and enums registered later do not change that. A type not known before gets exactly the trait generic rules recognise enums by, and for Java converts to jobject, so that callbacks can take it.

*Model and proof.* ItemModel (`java_enum`, `cpp_enum`) on the state of MapTMap. Proof in ItemEnum/ItemEnumProps: the step calculus `acts` of the class registration (C74), the search finds the first exact rule (`first_wins`), and a type mapped as it is (`is_plainly`) stays so under later registrations. The invariant is the one of C65 with every name exempt, because the conversion between an enum and its number comes from a generic rule, not from an edge.

*Status:* **proved**. Theorems: `C82_java_accepted`, `C82_java_needs_jint`, `C82_cpp_accepted`, `C82_java_mapped`, `C82_cpp_mapped`, `C82_java_trait`, `C82_cpp_trait`, `C82_java_object`, `C82_order_refuted`. Acceptance, names taken, mapping in both directions with the exact text of the conversions, traits and the conversion to a Java object are proved for every history of the map built from rules, conversions, mappings, classes and enums. The claim speaks of what comes after the enum: that the order of items does not matter at all is false (C82_order_refuted): a class using an enum which stands after it is refused. The text of the generated enum files is not part of this claim.

### C84 The file of an enum says what the enum says, whatever its documentation says

*Claim.* The Java, C++ and C file written for foreign_enum! reads (comments removed as each language removes them) as exactly one declaration of that enum: its package or namespace, its name, every item in order with its number, and for Java the switch which returns each item for its number. Documentation never becomes code and never hides code.

*Model and proof.* EnumTextModel: the texts of the three files. EnumTextSpec: a reader of Java and C++ text (words, symbols, literals, comments, escapes) with nothing of the generator in it, and the declarations expected, as tokens. Proof: a calculus of the reader over concatenated texts (`lex_lit`, `lex_name`, `block_text`, `line_text`), induction over items and documentation.

*Status:* **partial**. Theorems: `C84_java_docs`, `C84_c_docs`, `C84_java_file`, `C84_cpp_file`, `C84_c_file`, `C84_java_refuted`, `C84_cpp_refuted`. All names, lists of items and documentation texts which for Java have no */ and no backslash-u, for C and C++ no line break and no backslash at the end; Java enums with at least one item. The rest of the claim is false: */ ends the Java comment, backslash-u is an escape even in comments, a Java enum without items has no semicolon before its members; the lines after the first of a documentation text become code in C++, and a backslash at the end of documentation hides the item below it.

### C85 The Java file of a class declares the class, and the native functions the Rust side exports

*Claim.* The Java file of foreign_class! reads as one declaration of the class: its package, the imports of the annotations used, for each declared method, in order, the method users call with its access, name, types and parameters and throws clause and a body with balanced braces, and its native function; then delete, finalize and the pointer for classes with objects, and a private constructor for classes without. The native functions are exactly those exported by the Rust side, with the same names and parameter types. Documentation changes nothing.

*Model and proof.* JavaTextModel: the text of the file from signatures, with the argument conversions of CallModel and the names of JniModel. JavaTextSpec: members of a Java class with parameters, results, modifiers and bodies, and `declares`, what a declared method becomes; no texts. Proof: `complete` texts compose under the reader of C84; each kind of method reads as its members; induction over methods. C85_natives compares with the exports of JniModel (C34), removing a simplification there.

*Status:* **partial**. Theorems: `C85_java_class`, `C85_natives`, `C85_docs_refuted`, `C85_blank_refuted`. All classes whose names are words, whose types and filled conversion texts are complete Java texts, and whose documentation has no */ and no backslash-u. Refuted otherwise: */ in documentation; and a converter made of blanks, for which the Java method is native itself while Rust exports do_f. Derived extensions are not part of the model (C33).

### C86 Null annotations used in Java files are imported

*Claim.* If a package of null annotations is configured, every NonNull or Nullable annotation in a signature of a Java file, written by the generator or part of a type of the type map, is imported in that file, and parameters of unannotated reference types get Nullable for Option and NonNull otherwise. If none is configured, the generator adds neither annotations nor imports.

*Model and proof.* JavaTextModel (`args_with_java_types`, `get_null_annotation_imports`, `type_annotation`). Proof by cases on where an annotation stands.

*Status:* **partial**. Theorems: `C86_imported`, `C86_none`, `C86_which`, `C86_refuted`. All methods and types, as long as no type name mentions both annotations. Refuted for such types: only Nullable is imported, and the file does not compile.

### C87 The Java interface of a callback can be implemented as it is written

*Claim.* The Java file of foreign_callback! reads as one public interface with its package, the imports of the annotations used and, for every function of the trait in order, one abstract method with its name, result, types and parameters, and nothing else. Every class that implements these methods, as written in the file, can be given to Rust: each look-up of a method id by name and signature succeeds and finds the method declared for that function. Documentation changes nothing.

*Model and proof.* JIfaceModel: the text of the file over the methods of JCbModel (C63), with annotations and documentation. C87_interface: the reader of C84, with the lemmas of C85 on parameters, imports and documentation. C87_attach: a class that implements the members read from the file implements the methods in the sense of C63, whose theorem on look-ups gives the ids.

*Status:* **partial**. Theorems: `C87_interface`, `C87_attach`, `C87_docs_refuted`. All callbacks whose names are words, whose types are complete Java texts the signature code knows (the types of C35, no boxed ones), and whose documentation has no */ and no backslash-u; false for other documentation (C87_docs_refuted). The Java compiler's reading of a type is a parameter that agrees with the descriptors of C35.

### C88 The C header of a class declares the functions that the generated Rust code defines

*Claim.* The C header of a class reads, in C, as: once only, the check of the size of a pointer and the C linkage for C++, the opaque struct if the class has objects, and then for every exported function exactly one declaration with its name, its result and its parameters: the static functions, the methods with the pointer of the object first (const exactly for &self), the constructors with a result that is the pointer, the copy of a shared class, the release of an object. Their names are, in some order, the symbols that the Rust code defines, and each has the number of parameters of its definition. Documentation changes nothing.

*Model and proof.* CppTextModel: the text of the C header from the signatures, with the names of SymModel. CppTextSpec: a list of C functions with results, names and parameters, no texts. Proof: the reader of C84 with texts complete in themselves (`ccomplete`); C88_functions compares with the symbols of C56.

*Status:* **partial**. Theorems: `C88_c_header`, `C88_functions`, `C88_docs_refuted`. All classes whose names are words, whose types are complete C texts and whose documentation lines have no line break and no backslash at the end; false for other documentation (C88_docs_refuted).

### C89 The C++ header of a class has the declared methods, and they call the C functions

*Claim.* If the generator accepts a class, its C++ header reads, in C++, as a class with: the declared methods in their order, each under the access it was declared with, static or const as declared, noexcept, with its C++ types and names; the members for objects (move, copy or deleted copy, adoption and release of the pointer, destructor) that call the C functions for copy and release; the code of the user, once; and nothing else. Every method has one definition that calls its C function, with the pointer of the object for a method, and gives its result back. With separate definitions the header has none and the other file has them. The forward header declares the same class or templates. Documentation changes nothing.

*Model and proof.* CppTextModel: class, copies, destructor, the loop over methods with access labels, definitions, two files, forward header; conversion of arguments from CallModel (C47). CppTextSpec: members with the access in force by the rules of C++ (`effective`), what a declared method becomes (`declares`, `defines`), with each argument passed as itself, as a moved new variable or converted in place (`passed`, the converter filled in by `filled_in`) and the result given back (`gives`). Proof: each piece of text reads as its tokens, induction over methods with the last access written.

*Status:* **partial**. Theorems: `C89_cpp_header`, `C89_forward`, `C89_struct_refuted`. All classes the generator accepts, under the conditions of C88 and: filled in converters are complete C++ texts (those that declare a variable begin with a blank), the temporaries of converters are words, no result is called `void` by its type, and `struct` is in the type of a result at most as its first word (after const). Without the last one it is refuted: a result of type Infrastructure is declared as Infraure. The arguments of the call to C are exactly the converted arguments in order (`passes`), and the result is given back converted (`gives`).

### C90 The C and C++ headers of a callback declare the struct of functions and the class to derive from

*Claim.* The C header of a foreign_callback! reads, whatever its documentation says, as one struct: the pointer to the object, the pointer to the function that ends it, and for each declared method, in order, a pointer to a function with its C result, its C parameters and the object last. The C++ header reads as one class: public and virtual, a destructor and each declared method, pure, const as declared, with its C++ types; two functions that fill the struct for an object that is given or lent, every field exactly once; not public, the function that deletes the object and for each method a function that gets the object as its last argument, converts the other arguments in order, calls that virtual method and gives its result back, converted. Names made up in it differ from the names of the arguments.

*Model and proof.* CppCbTextModel: the texts of both headers over the methods of CbModel (C61), conversion of arguments from CallModel. CppCbTextSpec: a struct as a list of pointers to functions, the class as members with their access (`effective`), `reroutes` for the functions behind the pointers, with `passed` of C89. Proof: the lemmas of C88 and C89 on parameters, arguments, documentation; induction over the methods.

*Status:* **partial**. Theorems: `C90_c_header`, `C90_cpp_header`, `C90_fields`. All callbacks the generator accepts whose names are words, whose types and filled in converters are complete texts (a converter of a result has only {from_var}: nothing else is filled in there), and whose documentation lines have no line break and no backslash at the end; false for other documentation (C90_docs_refuted). C90_fields: the fields are those of C61.

### C91 Results made of values reach C++ as the same values

*Claim.* A Rust result built from pairs, triples, Option and Result, nested in any way, arrives in C++ as the same value: pairs and tuples with the same parts at the same places, an optional that is set exactly for Some, a variant with the alternative of the case, an error exactly for Err; every part without parts is converted once by the conversions of its type. No member of a union is read that was not written, and the generated code compiles.

*Model and proof.* NestModel: the rules for pairs, triples, Option, Result as trees of statements with macros; expansion of macros, replacement of {from_var}/{to_var}, conversion of types by recursion; the C++ converters as trees of expressions; an interpreter with hiding, blocks and unions. NestSpec: a value whatever the language (`Data`), its form in Rust (`rust_of`) and C++ (`cpp_of`). Proof: replacing twice is replacing once, so the code of a type is made of that of its parts; induction over types with the variables that stay as they are.

*Status:* **partial**. Theorems: `C91_result_partial`, `C91_nested_refuted`, `C91_same_types_refuted`. Proved for types with a tuple only at the first place of another tuple (directly; behind Option or Result anywhere) and Results of two different C++ types. Refuted without: (a, (b, c)) arrives as (b, (b, c)) (C91_nested_refuted, for all a of the type of b), as the inner conversion declares p0 again; a Result of two types that are one C++ type does not compile.

### C92 Arguments made of values reach Rust as the same values

*Claim.* A C++ argument built from pairs, tuples, optionals and variants arrives in Rust as the same value of the declared type, whatever the name of the argument; together with C91: a value sent to C++ and given back is the value sent.

*Model and proof.* As C91 in the other direction; closures see their parameter only.

*Status:* **partial**. Theorems: `C92_argument_partial`, `C92_round_trip_partial`, `C92_triple_refuted`. Under the conditions of C91 and: no triples (C92_triple_refuted: std::tuple has no member `first`, so no C++ caller compiles), and an argument with a tuple in its type is not called p0, p1 or p2. C92_refuted: (1, (2, 3)) arrives as (2, (2, 3)).

### C93 Arguments are converted independently

*Claim.* The user's function is called with each argument converted from what the C++ caller gave for it: the code that converts one argument does not change another one.

*Model and proof.* NestModel: the conversions of all arguments in one scope (`args_code`); induction over the arguments with C92.

*Status:* **partial**. Theorems: `C93_arguments_partial`. If some argument has a tuple in its type then no argument is called p0, p1 or p2. Without it refuted (C93_refuted): fn f(p0: i32, point: (i32, i32)) called with 7 and (1, 2) gets 1 and (1, 2).

### C94 Objects made for Java need a bounded number of references

*Claim.* Strings, objects of classes, vectors of either, slices of numbers and optional numbers given to Java become exactly one new reference to a new Java object with these contents, in order, each Rust object in a box of its own; two free local references suffice however long the vector is, and nothing that existed before changes. If a JNI function fails the program stops, leaving at most two references more; no JNI function is ever called while an exception is pending, and no null or deleted reference is used.

*Model and proof.* JRefModel: a state monad over a JVM with heap, local references with limited room, taken characters, a pending exception and an oracle saying which calls fail; what JNI forbids is the outcome `Bad`; the functions of jni-include.rs written call by call. Proof: an equation per JNI function, induction over the vectors.

*Status:* **proved**. Theorems: `C94_strings`, `C94_objects`, `C94_object`, `C94_optional`, `C94_numbers`. For every JVM state without a pending exception and every oracle of failing calls. The JVM is modelled after the JNI specification without garbage collection; vectors of 2^31 and more elements are in C38.

### C95 Reading Java objects leaves nothing behind

*Claim.* A Java string, array of objects, array of numbers or boxed number given to Rust arrives with its contents; the characters or elements taken from the JVM are given back, also when the conversion or the user's function panics, and no local reference is left, whatever the length.

*Model and proof.* JRefModel, with destructors that run on panics too (`finally`). Induction over the array.

*Status:* **partial**. Theorems: `C95_string_partial`, `C95_null`, `C95_string_refuted`, `C95_objects_partial`, `C95_null_element_refuted`, `C95_numbers_partial`, `C95_numbers_refuted`, `C95_long`, `C95_no_long`. Proved if the JVM can hand out the characters or elements (refuted otherwise: the null is not checked and read, C95_string_refuted, C95_numbers_refuted), and for arrays of objects without null elements (C95_null_element_refuted: null is given to GetLongField).

### C96 Calling Java from Rust with objects

*Claim.* A method of a callback with a string calls the Java method once with this string, catches what it throws, and can be called any number of times within one native method.

*Model and proof.* JRefModel: the generated body of a callback method with a string; the Java method is any function on the JVM. Refutation by induction over the calls.

*Status:* **partial**. Theorems: `C96_string_partial`, `C96_memory_refuted`, `C96_references_refuted`, `C96_overflow_refuted`. Each call alone is right if the string can be made. Refuted: without memory for it Java is called with the exception pending (C96_memory_refuted); the reference of each call stays until the native method ends, so enough calls in a loop exceed any table of local references (C96_references_refuted, C96_overflow_refuted).

### C97 Error messages show the place of the error

*Claim.* Whatever error is found in the input, all errors are printed in order, each under the name of its source, with the lines of source its span touches and carets under exactly the characters of the span; printing them never panics itself. A source registered once is found by its id, and a name cannot be registered twice.

*Model and proof.* ErrModel: texts as lists of characters, `str::lines`, the loop of eprint_error_location with usize subtraction that panics, the registry and the report. Spec by positions (row, column). Induction over the lines, over the errors.

*Status:* **partial**. Theorems: `C97_lines`, `C97_lines_exist`, `C97_shown`, `C97_single`, `C97_many_partial`, `C97_report`, `C97_sources`, `C97_first_line_refuted`, `C97_wide_refuted`, `C97_blank_refuted`. Proved for any span of code, except the carets of spans over several lines: the first line gets one caret too few (C97_first_line_refuted), a line with non-ASCII characters too many (C97_wide_refuted), an empty line one (C97_blank_refuted); otherwise exact (C97_many_partial). With a span of real code nothing underflows (C97_shown).

### C98 Objects in a Mutex: calls are atomic

*Claim.* If objects of classes made as Arc<Mutex<T>> are used from several threads, then whatever the interleaving each method is executed as if alone: results and contents are those of calling the methods one after the other, each thread's in its order.

*Model and proof.* LockModel: the statements of the generated code of a method, threads with a schedule, mutexes. Proof by simulation: an invariant relates the contents to those of the calls that returned, executed one at a time; the objects of a function under way hold the steps done so far.

*Status:* **proved**. Theorems: `C98_atomic`, `C98_exclusive`. For every schedule of any number of threads. The user's function is any list of steps on the objects it gets; it does not panic or lock by itself.

### C99 Objects in a Mutex: every call returns

*Claim.* Calling methods of objects of classes made as Arc<Mutex<T>>, with such objects as arguments, from several threads never ends in a deadlock: each call returns after finitely many steps.

*Model and proof.* LockModel as in C98. If all are blocked the ranks of awaited objects would grow without end; a measure of the code left decreases with each step. Refuted by two concrete states without successor.

*Status:* **partial**. Theorems: `C99_ordered_partial`, `C99_single_partial`, `C99_bounded`, `C99_same_object_refuted`, `C99_two_threads_refuted`. Proved if the calls take their objects in the order of some ranking, in particular if no second object is given by reference. Refuted otherwise: an object given to its own method waits for itself (C99_same_object_refuted), a.f(b) and b.f(a) in two threads wait for each other (C99_two_threads_refuted).

### C100 Objects in a RefCell: borrows

*Claim.* If classes are made as Rc<RefCell<T>>, a method succeeds exactly if none of the objects it or the methods called within it need is already in use in a conflicting way (one changes it, or it is to be changed); afterwards every object is free again.

*Model and proof.* CellModel: the statements of the generated code, the counters of RefCell, calls nested to any depth (a tree). Induction over trees, with a relation between the counters and the list of uses.

*Status:* **proved**. Theorems: `C100_exact`, `C100_two`, `C100_nested_refuted`. Exactly the conflicts panic. C100_nested_refuted shows one that a user meets: a &mut self method calling back into its own object.

### C101 Slices between Rust and C++ show the same elements

*Claim.* A slice of plain values given between Rust and C++ shows the elements of the buffer: C++ reads, in order, exactly the elements at the time of reading, changes on either side are seen on the other at the same index, and nothing else changes.

*Model and proof.* ViewModel: memory of blocks, slices of Rust, the C structs, the class RustSlice member by member, pointers with bounds. Spec: a slice is a list of places. Simulation over the program; induction over the loop of an iteration. Refuted by two concrete programs.

*Status:* **partial**. Theorems: `C101_program_partial`, `C101_null_refuted`, `C101_self_move_refuted`. Proved for every program that does not pass a slice without a buffer to Rust and does not move a slice to itself. Refuted there: std::slice::from_raw_parts(null, 0) is undefined (C101_null_refuted, for a slice that was moved away or is made of an empty vector); v = std::move(v) loses the contents (C101_self_move_refuted).

### C102 No attribute of a declaration is lost

*Claim.* Each attribute of a class, its methods, an enum, its items, a callback or its methods is either documentation, which is kept in order with its declaration, or a derive or method attribute that the generator knows or that calls the extension registered for it, exactly once and in order, or else an error.

*Model and proof.* AttrModel: the loop of parse_attrs with its flags and asserts, its uses in the parsers, then extension.rs (FilesModel) as each back end calls it. Spec: relations that split attributes into documentation, derives and others, and a run through the extensions. Induction over attributes and members.

*Status:* **partial**. Theorems: `C102_class_partial`, `C102_cpp_enum`, `C102_callback`, `C102_no_panic`, `C102_self_type_refuted`, `C102_java_enum_refuted`, `C102_python_refuted`, `C102_twice_refuted`. Proved for classes in Java and C++, enums in C++ and callbacks. Refuted: attributes of self_type and foreign_code are dropped (C102_self_type_refuted), derives of enums in Java and Python (C102_java_enum_refuted), derives and method attributes of classes in Python (C102_python_refuted); camelCaseAliases given twice is an unknown attribute in Java (C102_twice_refuted).

### C103 Optional objects cross the Java boundary unchanged

*Claim.* An optional argument (Option<T> or Option<&T>) of a class reaches Rust as the value of the Java object, and as None exactly if Java gives null; an optional result reaches Java as an object of the value, or as an empty Optional. Every value is owned by exactly one Java object until it is deleted or given away, and freed then.

*Model and proof.* OptModel: the heap of Rust with any allocator, mNativeObj of the Java objects, conversion of all arguments first in Java, then in Rust, then the function looks at them. Spec: which object has which value. Invariant: boxes and objects with a value correspond one to one; induction over arguments and over the program.

*Status:* **partial**. Theorems: `C103_program_partial`, `C103_deleted_refuted`, `C103_both_refuted`. Proved for programs that use no object after it was deleted or given away and do not give an object away that is used once more in the same call. Refuted there: such an object is None for Rust, without an error (C103_deleted_refuted); f(o, o) with Option<&T> and Option<T> gives a reference to freed memory (C103_both_refuted). Optional numbers are not part of this model.

### C104 The fence against the garbage collector is complete

*Claim.* Every generated Java method keeps each object, out of which it took a value for the native function, alive until this function has returned: with the generated class by one call of a function of JNIReachabilityFence with exactly these objects in order, which the generated file declares with that many parameters and the Rust side exports; with the standard class by one call for each. A method with more such objects than the limit is refused, and none is refused otherwise.

*Model and proof.* FenceModel: the text of JNIReachabilityFence.java; CallModel: the calls. Spec: the declared members as tokens, the arguments to keep as a recursion over the signature. The tokenizer is run over the text; induction over functions and arguments.

*Status:* **proved**. Theorems: `C104_file`, `C104_calls`, `C104_natives`, `C104_std`, `C104_method`, `C104_class_file`. The texts of the file and of the calls are read by the tokenizer of EnumTextSpec. C104_method: in every body the fence follows the native call and the conversion of its result, and at most the return of a variable follows the fence. C104_class_file: the same for every member in the file of a class. The receiver has no fence at all (C39_this_refuted).

### C105 References to C++ objects reach Rust as these objects

*Claim.* A function of Rust with parameters &T, &mut T, Option<&T> and Option<&mut T>, called from C++, sees the values of the objects given, and None exactly for a null pointer; the objects given to mutable parameters have the values the function leaves in them, for C++ and for all later calls, and no other object changes; moving an object moves its value; nothing is undefined.

*Model and proof.* RefModel: the heap of Rust with any allocator, self_ of the C++ objects, conversion of each argument, the rule of Rust that a mutable reference is exclusive, the writes of the function. Spec: which object has which value, a relation per operation. Invariant: objects with a value have a box of their own; induction over arguments and over the program.

*Status:* **partial**. Theorems: `C105_program_partial`, `C105_start_partial`, `C105_call`, `C105_moved_refuted`, `C105_twice_refuted`. Proved for programs that call with objects that were not moved from, and give no object that the function may change twice to it. Refuted there: an object moved from is None for an optional parameter, and stops the process for the others (C105_moved_refuted); f(x, x) with a mutable parameter makes two references to one object, undefined behaviour in Rust (C105_twice_refuted). What a call does with any objects is stated exactly in C105_call. Methods with &mut self, threads and classes behind Rc, Arc are not part of this model.

## Trusted base

* The kernel of Coq 8.16.1 (including its virtual machine, used by `vm_compute` in examples and refutations), `coqc`,
  the OCaml runtime and the operating system of this machine.
* `Print Assumptions` prints "Closed under the global context" for every theorem of MANIFEST.json: no axiom is
  used, neither one of our own nor one of the standard library. (The checker's list of library axioms names seven
  constants of `Coq.ssr.ssrunder`, which are the fields of a module type declared in a file of the standard
  library that gets loaded; no theorem depends on them.) Only the standard library is imported.
* The reading of the Rust, Java and C++ source as Gallina, which the comments of the model make checkable line by line.
* The behaviour of software which is not in /repo and had to be modelled from its documentation:
  petgraph 0.6 (`Graph`, `astar`, `has_path_connecting`, `update_edge`), the data types of `syn` and the token printing of
  `proc_macro2`, `str::replace`/`match_indices`/`find` and slicing of the Rust standard library, `HashMap` as a map with
  arbitrary iteration order, the operating system's file operations, the JVM (symbol lookup, attachment of threads,
  references, garbage collection, modified UTF-8) after the JNI specification, and C++ object lifetimes after the C++17 standard.

## What is modelled

| module | code |
|---|---|
| `TextModel` | str_replace.rs; typemap.rs:46-184 (`TypeConvCode`) |
| `NamesModel` | namegen.rs; code_parse.rs:588-673; source_registry.rs; typemap/ty.rs; typemap/ast.rs (`UniqueName`); typemap/ast/subst_map.rs |
| `GraphModel`, `TMapModel`, `FullModel` | typemap.rs:342-1255 (snapshots, search, type table, caches, mapping to foreign types) and petgraph |
| `AstModel` | typemap/ast.rs (normalisation, generic matching, trait bounds), `syn::Type` |
| `MacroModel` | typemap/typemap_macro.rs:646-733 and the expander closures (:1180-1240, ast.rs:480-530) |
| `FilesModel` | file_cache.rs; typemap/utils.rs:348-380; extension.rs; lib.rs:587-723; file operations of java_jni/mod.rs and cpp/mod.rs |
| `JniModel` | java_jni/rust_code.rs; java_code.rs; find_cache.rs; parts of fclass.rs and mod.rs |
| `RuntimeModel` | java_jni/jni-include.rs conversions; java_jni/fenum.rs, cpp/fenum.rs |
| `JavaLifeModel` | java_jni/fclass.rs (wrapper classes), map_class_self_type.rs, jni-include.rs ownership functions |
| `CppLifeModel` | cpp/fclass.rs (wrapper classes), cpp/map_class_self_type.rs |
| `CppMemModel` | cpp/cpp-include.rs:207-1080, cpp/rust_vec_impl.hpp, rust_foreign_vec_impl.hpp, rust_slice_*.hpp iterators |
| `JavaCbModel` | jni-include.rs:176-304; java_jni/finterface.rs:184-371 |
| `ClassModel` | code_parse.rs:181-577, 675-812; types.rs:14-190 |
| `CallModel` | types.rs:156-187; typemap/utils.rs:64-108, 140-179; java_jni/fclass.rs:145-170, 300-333, 390-410, 610-655, 832-1138 (names, order of statements; conversions are abstract functions); cpp/cpp_code.rs:41-61, 95-156; cpp/fclass.rs:205-300, 358-359, 800-970 |
| `SymModel` | typemap/typemap_macro.rs:555-646; cpp/mod.rs:387-406; cpp/cpp_code.rs:158-172; the names of C functions and files in cpp/fclass.rs, fenum.rs, finterface.rs, java_jni/*.rs |
| `InstModel` | typemap/typemap_macro.rs:191-350, 524-646, 735-1354; java_jni/map_type.rs:145-155, 214-231; cpp/map_type.rs:45-55, 283-308; the back end behind the expansion is arbitrary; C items of rules: `CItemModel` |
| `CbModel` | cpp/finterface.rs:70-134, 139-320, 370-607; documentation, includes, `const` and types of arguments are left out |
| `JCbModel` | java_jni/finterface.rs:26-417; documentation, imports, annotations, local references are left out (threads: `JavaCbModel`) |
| `MapModel` | java_jni/map_type.rs:26-331; cpp/map_type.rs:19-333; cpp/mod.rs:91-185; the C types of generic rules are one unspecified operation (specified in `CItemModel`) |
| `MapTMap` | typemap.rs:539-970, typemap/merge.rs:85-354 on the map of `TMapModel`; java_jni/mod.rs:295-334, cpp/mod.rs:473-533 `merge_rule` |
| `PyModel` | python/mod.rs; python/python-include.rs; documentation texts and module initialisation are left out; rust-cpython's conversions and Rust's temporaries, borrows and mutexes as far as the generated code uses them |
| `ParseModel` | typemap/parse.rs:48-732 (items as `syn` gives them; the parser of types is a parameter) |
| `InitModel` | lib.rs:725-744; typemap/merge.rs:23-62 |
| `RegModel` | java_jni/mod.rs:113-169; java_jni/map_class_self_type.rs:19-489; cpp/mod.rs:230-300; cpp/map_class_self_type.rs:18-378; typemap/utils.rs:228-311 |
| `CItemModel` | cpp/mod.rs:1-31, 424-575; cpp/cpp_code.rs:193-555; cpp/map_type.rs:19-135, 306-330; typemap_macro.rs:246-292; file_cache.rs:14-21, 69-77; `syn`'s parser of items is a parameter |
| `TmapModel` | typemap/typemap_macro/parse.rs: 47-466, 527-804 (syn's parsers of types, generics and items are parameters) |
| `ItemModel` | java_jni/fenum.rs: 25-98, 265-282; cpp/fenum.rs: 20-83; java_jni/finterface.rs: 26-50, 53-135, 178-358; cpp/finterface.rs: 26-129, 249-266, 318-365, 617-707; the conversions asked for in java_jni/fclass.rs and cpp/fclass.rs; typemap/utils.rs: 40-183; the runs of java_jni/mod.rs: 171-203 and cpp/mod.rs: 317-356; the names of the files written |
| `EnumTextModel` | java_jni/java_code.rs:63-94; cpp/cpp_code.rs:24-39; java_jni/fenum.rs:98-172; cpp/fenum.rs:86-212 (extensions of derived enums: see C33) |
| `JavaTextModel` | java_jni/fclass.rs:83-499, 1140-1162; java_jni/java_code.rs:16-61, 96-145; java_jni/map_type.rs:107-122, 326-334 (derived extensions: see C33) |
| `JIfaceModel` | java_jni/finterface.rs:26-52, 76-182 (text of the interface; types and signatures: `JCbModel`) |
| `CppTextModel` | cpp/fclass.rs:36-800, 1014-1038, 1067-1418 (texts of the headers; the Rust code of the functions: `SymModel`, `CallModel`, `CppLifeModel`); cpp/cpp_code.rs:41-93 |
| `CppCbTextModel` | cpp/finterface.rs:370-615 (texts of the headers of a callback; the Rust side: `CbModel`), cpp/cpp_code.rs:26-93 |
| `NestModel` | cpp/cpp-include.rs:294-375, 581-660, 1080-1277 (std17 options; the boost ones are the same with other names); typemap/typemap_macro.rs:1150-1300; typemap.rs:144-160, 569-605; cpp/map_type.rs:160-274; typemap/utils.rs:40-110 |
| `JRefModel` | java_jni/jni-include.rs:325-429, 659-712, 730-752, 767-830, 1258-1335 (the functions for the other boxed types are alike); java_jni/finterface.rs:278-300 for one argument of type String |
| `ErrModel` | error.rs:64-139; source_registry.rs; the text of `syn` errors is given |
| `LockModel` | java_jni/fclass.rs:1006-1022, cpp/fclass.rs:891-909, the Mutex rules of jni-include.rs:1020-1042 and cpp-include.rs:142-164 |
| `CellModel` | the same code with the RefCell rules of jni-include.rs:1056-1078 and cpp-include.rs:178-200 |
| `ViewModel` | cpp/cpp-include.rs:831-894, cpp/rust_slice_tmpl.hpp (buffers stay alive: see C40-C42, C55) |
| `AttrModel` | code_parse.rs:123-201, 220-228, 240-259, 497-509, 547-577, 677-715, 723-809 (attributes only; the rest: `ClassModel`); extension.rs as called from java_jni/fclass.rs:490, cpp/fclass.rs:778, cpp/fenum.rs:140, python/mod.rs:82 |
| `OptModel` | java_jni/jni-include.rs:1540-1617; java_jni/fclass.rs:445-451 |
| `FenceModel` | java_jni/mod.rs:378-459 |
| `RefModel` | cpp/cpp-include.rs:535-581; cpp/map_class_self_type.rs:132-170; cpp/fclass.rs:645-656, 1189-1239 |
| `MergeModel` | typemap/merge.rs; typemap/typemap_macro.rs (rule data); utils.rs options; java_jni/mod.rs, cpp/mod.rs `merge_rule` |

## What is not modelled

* Spans and the text of error messages (except in `ErrModel`, C97): an error is an outcome without content.
* `rustfmt`, the parser of Rust itself (`syn`), logging, `build.rs` helper binaries.
* The Rust compiler: whether generated code type-checks is not a subject, only what it does.
* Real time, memory exhaustion, signals; `u64` counters that wrap after 2^64 steps.
* In each module the simplifications stated in the comment of the definition concerned.

## Findings

Defects of the code shown by a `_refuted` theorem (the witness is in the theorem), and a few seen on the way which were
not formalised.

* C11: lifetimes in `dyn` bounds and a turbofish change the normalised name.
* C14/C16/C17: the matcher accepts a qualified path without checking its self type, may leave a parameter unbound, misses
  arrays and repeated parameters; of several lists of trait bounds only the first counts, a bound on a non-parameter type aborts.
* C18/C21: `$tmp` is replaced inside `$tmp1`; names introduced by the generator can capture parameters.
* C22/C23/C51: the macro scanner uses character indices as byte offsets: a non-ASCII template aborts or garbles; unknown macros
  are re-emitted with changed text (even inside string literals), and known macros inside them stay unexpanded.
* C30–C32: a failed write leaves a truncated file; foreign files are already changed when a run fails; a directory named like a generated file stops cleaning.
* C34/C35/C52: signatures of boxed Java types lack `;`, return types keep dots, a method called `delete` clashes, a `$` in the
  package is not mangled; asking for a class again after one of its members is refused.
* C36–C38/C54: `SystemTime` overflows, long strings are cut, an enum may name a variant twice, exception texts with NUL abort.
* C39/C43: `this` passed by reference and by value in one call, exceptions between handing over and wrapping, arrays of
  objects; callbacks leak or lose the Java object.
* C40–C42/C55: references that outlive their owner, self move, copying a moved-from string, difference of iterators, zero-sized elements.
* C47: an argument called `env` of a class exported to Java gives a Rust function with two parameters of this name; a
  constructor argument called `mNativeObj` hides the field, so the object keeps the pointer 0; `replace("struct", "")` in
  cpp/fclass.rs cuts the word out of class names (`Instruction` becomes `Inion`).
* C44: the type of `constructor = empty -> T` silently replaces that of an earlier constructor, acceptance depends on its
  position, a second `self` argument is accepted, `camelCaseAliases` aborts on names like `_1`.
* C45/C46: modules required by the later file are forgotten when a foreign type is known already; generic rules are doubled by
  a second merge; rules without code silently replace each other in one file.
* C56–C58: a type with digits in its name can get the alias of another type; C functions of `A_b::c` and `A::b_c` clash, as do
  overloads and a method `delete`; an enum `Foo_fwd` overwrites the forward header of the class `Foo`.
* C61, C62: a callback argument or method called `opaque`, two methods with the same foreign name, and a result whose converter uses
  `{to_var_type}` or `$tmp` (a boxed callback) give C++ or C that does not compile; the generated Rust struct derives `Clone` although
  its `Drop` deletes the C++ object; an empty `unique_ptr` aborts the program.
* C63: after a Java exception in a callback with a result, the value the JNI function returned (unspecified) is converted and returned
  to Rust, e.g. as an answer or as a panic.
* C59, C60: a where clause on a type which is no single name aborts; a macro call in a Rust type of a generic rule that cannot be
  expanded (unknown alias, no conversion) is left in the type without an error, because `expand_type` drops the error it noted.
* C64: `Option<Vec<T>>` with a type of the user called `T` is annotated `@NonNull`; a type that is its own intermediate type
  (`A => A` with a foreign converter) makes `map_type` recurse without end.
* C65: when another file replaces the rule of a foreign type, a cached answer makes a later mapping be accepted although no
  conversion to the type passed exists; the error appears only when code is generated.
* C66–C70 (Python): a class kept in an `Arc` and taken by value is passed as `Arc<T>` (the clone is of the `Arc`); `Option`, `Vec` of
  references, `&&T`, `&&[T]` are accepted but the code does not compile; so is a tuple result referring to the locked `self`, and `&[T]`
  results of elements without `Clone`; passing one object twice (`a.f(a)`, also by value, also two instances sharing an
  `Arc<Mutex<T>>`) deadlocks; `Option<Option<T>>`, `Option<()>` collapse; discriminants are cut to 32 bits; an enum declared after
  the class using it is unknown; names equal in snake case give one module twice; callbacks abort; every constructor becomes
  `__new__`; a type of the user called `T` or `E` hides `Option`, `Vec`, `Arc` around it; `std::sync::Arc<T>` is not recognised.
* C50: the deep search can abort.
* C71: a conversion macro without `swig_generic_arg`, or with one that is no identifier, makes the reader panic; a
  `swig_foreigner_type` without Rust type is dropped and a repeated one replaced without a message.
* C72: of two `cfg` attributes only the last width counts; `not(..)`, `all(..)`, `target_os` are ignored and hide a width
  after them; `cfg` on `foreign_typemap!` is ignored.
* C74: a C++ class `Foo` and a class `FooRef` cannot be in one program: the second is refused.
* C75: traits of a class are given only to a type the map did not know, so with a class over `Rc<Foo>` before it the class over `Foo`
  is no `SwigForeignClass`; of two classes over one type the first is always used; a C++ constructor returning `Result` makes the
  `Result` the type of the class (only Java looks inside).
* C76: with a self type other than what the constructors make, references to it are accepted as arguments although no conversion exists.
* C77: the includes needed by a C function are written inside its block `extern "C"`, as is foreign code (templates too) of a generic
  rule first used for its types; a refused function leaves the block open in the header; a generic rule used for a field of a
  record can declare the same record again.
* C78: a `static` of `define_c_type!` is declared without the header of its type; a second definition of a record with other
  fields is ignored without a message, and with another header it is declared in both; a record is declared before a later one
  of the list that it contains, which C refuses.
* C80: an input variable called `o`, `ou` or `out` makes the parser panic; an option or prefix given twice is accepted and the last
  counts; a left type beginning with `<` is read as generics.
* C81: `$p` is replaced inside `$pin`, `$out` inside `$outer`; `$out` beside `$out_no_type` and unknown variables stay in the code.
* C83: no two items should share an output file, but (1) a class without self type takes no name in the type map, so two such classes, or such a class and an enum, may be called the same and the later file is written over the earlier; (2) with Java null annotations class `Foo` is known as `@NonNull Foo` and enum or callback `Foo` as `Foo`: both are accepted and both are `Foo.java`; (3) in C++ callback `Foo` takes `C_Foo` and `std::unique_ptr<Foo>` but not `Foo`, so class `Foo` and callback `Foo` are both accepted and both write `Foo.hpp` and `c_Foo.h`; (4) in C++ class `Foo_fwd` beside class `Foo`: both write `Foo_fwd.hpp` (C83_java_refuted, C83_cpp_refuted).
* C82: enums are registered when they are generated, in the order of the items, so a class whose functions take an enum is refused if it
  stands before the enum and accepted after it (`C82_order_refuted`); the program aborts on any Java enum if no rule mentions `jint` (`C82_java_needs_jint`).
* **Documentation can become code** (C84): `*/` in a doc comment ends the Java comment, `\u` (as in `C:\users`) is a broken escape
  for Java even in a comment; a doc comment of several lines (`/** .. */`) is written with one `//` for C++, so its further lines are
  code (a line such as `Two,` becomes an item of the enum and shifts nothing else); a doc comment ending in a backslash joins the
  line below to the comment, so the item below it silently disappears from the C and C++ enum.
* A Java enum without items has no `;` before its members and does not compile (C84_java_refuted).
* C85/C86: a static method whose converter is made of blanks is native itself in Java, while the Rust side exports `do_…`, so the first
  call throws UnsatisfiedLinkError (mod.rs:232 looks at the converter, fclass.rs:203 at the trimmed text); a type name with both
  annotations imports only `Nullable`.
* C87, C88: documentation of a callback with `*/` or a backslash-u, and documentation of a C or C++ function with a line break or a
  backslash at the end of a line, changes what the file declares (C87_docs_refuted, C88_docs_refuted); the last takes the function
  below it out of the header.
* C89: the name of the type that a C++ function returns goes through `replace("struct", "")` (cpp/fclass.rs:349), so a type whose
  name has `struct` within it (`Infrastructure`, `Destructor`) comes out as another name (`Infraure`, `Deor`): C89_struct_refuted.
* C91/C92: a pair at the second place of a pair, or a tuple behind the first place of a triple, is converted wrongly: the rules
  of tuples declare `p0`, `p1`, `p2` in one scope, so the code of the inner tuple hides the `p0` of the outer one
  (cpp/cpp-include.rs:306-353). `(1, (2, 3))` arrives as `(2, (2, 3))` in both directions; with different types at both places
  the generated Rust does not compile.
* C92: a triple cannot be an argument: the C++ converter takes `.first`, `.second`, `.third` of a `std::tuple`
  (cpp/cpp-include.rs:358-363). The tests only return one.
* C91: `Result<T, E>` of two types with one C++ type (also `Result<Option<T>, Result<(), T>>`) gives `std::variant<X, X>`, which
  cannot be filled by type (cpp/cpp-include.rs:1225-1276).
* C93: an argument called `p0` is overwritten when a later argument is a pair, as all conversions share one scope
  (typemap/utils.rs:86-108); a pair that is itself called `p0` does not compile.
* C90: as C88, a line of documentation ending in a backslash swallows the next line of the header of a callback.
* C95: the results of `GetStringChars` and `Get..ArrayElements` are not compared with null (jni-include.rs:672, 781): when the JVM
  has no memory, a slice is made from the null pointer (C95_string_refuted, C95_numbers_refuted). A null element in a Java array given as `Vec<T>` is given to
  `GetLongField` (jni-include.rs:370, C95_null_element_refuted).
* C96: callbacks do not delete the local references of their arguments (finterface.rs:278-300), so a Rust loop within one native method that calls
  a callback with a string (or an object, an array) overflows the table of local references, of 512 entries on older Androids (C96_overflow_refuted); and
  a failed conversion is not noticed: Java is called with the exception pending (C96_memory_refuted).
* Errors over several lines (C97): the carets under the first line stop one character short (`line.len() - start.column - 1`),
  lines are measured in bytes but columns are characters, and an empty line gets a caret.
* Deadlocks (C99): the objects given by reference are locked from left to right, then `this`, and stay locked until the method
  returns. An object given to its own method waits for itself; `a.f(b)` and `b.f(a)` in two threads wait for each other.
* A method of an object in a RefCell that is called from within a `&mut self` method of it (through a callback) panics inside
  `extern "C"` (C100).
* Not formalised: a `&mut self` method of an object in a Mutex first makes a `&mut Mutex<T>` from the raw pointer, also if
  other threads use it at the same time; by Rust's rules on references this is undefined although only `lock` is called.
* A C++ slice without a buffer (data is null: moved away, or made of an empty `std::vector`) passed to Rust becomes
  `from_raw_parts(null, 0)`, which is undefined: the check `len == 0 || !data.is_null()` lets it through (C101).
* `v = std::move(v)` of a `RustSlice` leaves it empty (C101).
* Java: the derives of an enum are accepted and ignored; a callback registered with `register_enum_attribute_callback` is never called and an
  unknown name is no error, unlike in C++ (C33, C102). In C++ it is called twice, for both headers.
* Attributes (also documentation) before `self_type` or `foreign_code` are dropped silently (C102).
* Python: derives of enums and classes and attributes of methods without a meaning are ignored silently (C102).
* `#[derive(camelCaseAliases, camelCaseAliases)]`: only the first is removed; Java reports an "unknown derive attribute", C++ does not (C102).
* Java: a deleted object, or one whose value was given away, passed for an `Option<T>` or `Option<&T>` is `None` for Rust; for a plain `T` it
  panics (C103). One object passed for `Option<&T>` and `Option<T>` in one call gives a reference to freed memory (C103, cf. C39).
* C105: a C++ object moved from is `None` for `Option<&T>` and `Option<&mut T>`, without an error; `f(x, x)` with a `&mut` parameter
  compiles in C++ and gives Rust two references to one object (nothing on either side checks it).
* Not formalised: enums and callback interfaces are registered when they are generated, in the order of the items, so a class using
  one declared later is refused; attributes such as `#[cfg]` on the macros are dropped; the macros inside a `mod` are not
  recognised; foreign files are already written when a later item is refused.
* Not formalised: after a rule is merged only the caches of its two types are invalidated, so an older cached choice for a third
  type may differ from a fresh search; `jlong_to_pointer` truncates on 32 bit; the warning for `Copy` with
  `SmartPtrCopy` contradicts the code; local references created in callbacks are never deleted.
