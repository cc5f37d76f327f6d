{
 "claims": [
  {
   "property": "C18",
   "status": "partial",
   "theorems": [
    "C18_generate_code_partial",
    "C18_unique",
    "C18_generate_code_refuted"
   ],
   "note": "Sequential replacement equals simultaneous substitution under a hygiene condition; false without it (captured placeholder), witness given."
  },
  {
   "property": "C19",
   "status": "proved",
   "theorems": [
    "C19_replace_first_and_other",
    "C19_replace_all"
   ],
   "note": ""
  },
  {
   "property": "C20",
   "status": "proved",
   "theorems": [
    "C20_subst_func_reports",
    "C20_requests"
   ],
   "note": ""
  },
  {
   "property": "C21",
   "status": "partial",
   "theorems": [
    "C21_params_partial",
    "C21_params_refuted"
   ],
   "note": "False when one parameter is a prefix of another; proved for prefix-free parameters."
  },
  {
   "property": "C24",
   "status": "proved",
   "theorems": [
    "C24_unique_name",
    "C24_fuel_irrelevant"
   ],
   "note": "For fewer than 2^64-2 names in use (the code panics at u64::MAX)."
  },
  {
   "property": "C25",
   "status": "proved",
   "theorems": [
    "C25_arg_names"
   ],
   "note": ""
  },
  {
   "property": "C26",
   "status": "proved",
   "theorems": [
    "C26_source_registry",
    "C26_stable"
   ],
   "note": ""
  },
  {
   "property": "C27",
   "status": "proved",
   "theorems": [
    "C27_names_unique",
    "C27_second_definition",
    "C27_find_or_alloc",
    "C27_indices_stable"
   ],
   "note": ""
  },
  {
   "property": "C28",
   "status": "proved",
   "theorems": [
    "C28_display",
    "C28_set_prefix"
   ],
   "note": ""
  },
  {
   "property": "C29",
   "status": "proved",
   "theorems": [
    "C29_implements",
    "C29_contains_subset"
   ],
   "note": ""
  },
  {
   "property": "C01",
   "status": "proved",
   "theorems": [
    "C01_shortest_chain"
   ],
   "note": "petgraph's astar is part of the model; ties broken arbitrarily"
  },
  {
   "property": "C02",
   "status": "proved",
   "theorems": [
    "C02_complete"
   ],
   "note": "never runs out of its iteration bound, never aborts"
  },
  {
   "property": "C03",
   "status": "proved",
   "theorems": [
    "C03_no_trace"
   ],
   "note": "generic rules are arbitrary functions of type, goal and known types"
  },
  {
   "property": "C04",
   "status": "proved",
   "theorems": [
    "C04_built_path_usable"
   ],
   "note": "for maps satisfying the table invariant, which C05 shows for all reachable maps"
  },
  {
   "property": "C05",
   "status": "proved",
   "theorems": [
    "C05_table_consistent",
    "C05_find_or_alloc",
    "C05_never_aborts"
   ],
   "note": "histories of registrations, rules, conversions, fast mappings, invalidations"
  },
  {
   "property": "C06",
   "status": "proved",
   "theorems": [
    "C06_code_composes"
   ],
   "note": "the snippet of a rule is generate_code, whose meaning is C18"
  },
  {
   "property": "C07",
   "status": "proved",
   "theorems": [
    "C07_emitted_at_most_once",
    "C07_first_use_emits"
   ],
   "note": "exact count equation over whole runs"
  },
  {
   "property": "C08",
   "status": "proved",
   "theorems": [
    "C08_nearest_foreign_type"
   ],
   "note": ""
  },
  {
   "property": "C09",
   "status": "proved",
   "theorems": [
    "C09_stable_choice"
   ],
   "note": ""
  },
  {
   "property": "C10",
   "status": "proved",
   "theorems": [
    "C10_step_limit"
   ],
   "note": "sn_probes records at which types generic rules were tried"
  },
  {
   "property": "C49",
   "status": "proved",
   "theorems": [
    "C49_reachable_is_found"
   ],
   "note": ""
  },
  {
   "property": "C50",
   "status": "partial",
   "theorems": [
    "C50_result_connected",
    "C50_no_abort_partial",
    "C50_shortest_candidate",
    "C50_not_a_stop",
    "C50_no_abort_refuted"
   ],
   "note": "the claim that it never aborts is false of the code (C50_no_abort_refuted): a foreign type with an intermediate type can make merge_path_to_conv_map's assertion fail; proved without intermediate types"
  },
  {
   "property": "C11",
   "status": "proved",
   "theorems": [
    "C11_names_ignore_lifetimes",
    "C11_dyn_lifetimes_refuted",
    "C11_turbofish_refuted"
   ],
   "note": "Lifetimes inside dyn bounds, for<'a> and the turbofish stay in the name (refuted theorems show that the claim cannot be extended to them)."
  },
  {
   "property": "C12",
   "status": "proved",
   "theorems": [
    "C12_names_identify_types"
   ],
   "note": "For every pair of well-formed types of the modelled grammar."
  },
  {
   "property": "C13",
   "status": "proved",
   "theorems": [
    "C13_plain_unchanged",
    "C13_idempotent",
    "C13_cache_transparent"
   ],
   "note": ""
  },
  {
   "property": "C14",
   "status": "partial",
   "theorems": [
    "C14_match_is_instance_partial",
    "C14_bindings_concrete",
    "C14_rule_instance_partial",
    "C14_qself_refuted",
    "C14_unresolved_refuted"
   ],
   "note": "Proved for patterns without qualified paths; for qualified paths (`<T as Tr>::X`) the claim is false of the code (C14_qself_refuted: qself is ignored), and a rule with a parameter that the match does not determine leaves the parameter in the result (C14_unresolved_refuted)."
  },
  {
   "property": "C15",
   "status": "proved",
   "theorems": [
    "C15_keys_and_bindings_stay",
    "C15_others_untouched"
   ],
   "note": ""
  },
  {
   "property": "C16",
   "status": "partial",
   "theorems": [
    "C16_linear_patterns_partial",
    "C16_array_refuted",
    "C16_repeated_refuted"
   ],
   "note": "Proved for linear patterns without arrays; false of the code for arrays (C16_array_refuted); linearity is needed (C16_repeated_refuted)."
  },
  {
   "property": "C17",
   "status": "partial",
   "theorems": [
    "C17_trait_bounds_partial",
    "C17_two_lists_refuted",
    "C17_where_type_refuted"
   ],
   "note": "Proved when each parameter's bounds are in one list; false of the code when the bounds are split over two lists (C17_two_lists_refuted) and the code aborts on where clauses about non-parameters (C17_where_type_refuted)."
  },
  {
   "property": "C22",
   "status": "partial",
   "theorems": [
    "C22_expansion_partial",
    "C22_unambiguous",
    "C22_no_calls_unchanged",
    "C22_rule_code",
    "C22_nonascii_refuted"
   ],
   "note": "Proved for all ASCII templates and all expanders; false of the code for other characters (find_macro uses a character index as a byte offset)."
  },
  {
   "property": "C23",
   "status": "partial",
   "theorems": [
    "C23_total_partial",
    "C23_total_refuted",
    "C23_argument_refuted"
   ],
   "note": "Proved for ASCII templates; false of the code in general: the template `a <e-acute>` aborts the generator."
  },
  {
   "property": "C51",
   "status": "partial",
   "theorems": [
    "C51_same_call_partial",
    "C51_rule_same_call",
    "C51_canonical_unchanged_partial",
    "C51_text_refuted",
    "C51_nested_refuted"
   ],
   "note": "An unknown macro is re-emitted as a call with the same name and arguments, but its text may change (even in string literals) and known macros inside it are not expanded."
  },
  {
   "property": "C30",
   "status": "proved",
   "theorems": [
    "C30_update",
    "C30_failed_update",
    "C30_heals",
    "C30_second_run",
    "C30_old_content_lost_refuted"
   ],
   "note": "A failed write can leave the file truncated (C30_old_content_lost_refuted): the old content is not kept; the next successful run repairs it (C30_heals)."
  },
  {
   "property": "C31",
   "status": "proved",
   "theorems": [
    "C31_destination",
    "C31_collected",
    "C31_foreign_files_refuted"
   ],
   "note": "The destination is only touched by a run which reached the final write; foreign language files written before the failure stay changed (C31_foreign_files_refuted)."
  },
  {
   "property": "C32",
   "status": "proved",
   "theorems": [
    "C32_cleaning",
    "C32_whole_run",
    "C32_directory_refuted"
   ],
   "note": "For the Java and the C++ generator. A directory whose name looks like a generated file makes the run fail (C32_directory_refuted)."
  },
  {
   "property": "C33",
   "status": "partial",
   "theorems": [
    "C33_class",
    "C33_unknown",
    "C33_enum",
    "C33_register",
    "C102_java_enum_refuted",
    "C102_python_refuted"
   ],
   "note": "Proved for classes in Java and C++ and for enums in C++ (each of the two headers). Refuted for enums in Java, whose derives are not looked at, and for Python (C102)."
  },
  {
   "property": "C34",
   "status": "partial",
   "theorems": [
    "C34_linking_partial",
    "C34_injective",
    "C34_boxed_argument_refuted",
    "C34_delete_refuted",
    "C34_dollar_refuted"
   ],
   "note": "The JVM (modelled after the JNI specification) finds exactly the generated function for every native method of a run. Boxed types as arguments of overloaded methods, a method called `delete`, and `$` in a package name are excluded by hypotheses and shown to fail."
  },
  {
   "property": "C35",
   "status": "partial",
   "theorems": [
    "C35_signature_partial",
    "C35_class_name",
    "C35_unknown_panics",
    "C35_result_refuted",
    "C35_boxed_refuted"
   ],
   "note": "Proved for known unboxed arguments and results that are void, primitive or arrays of primitives; false of the code otherwise (C35_result_refuted, C35_boxed_refuted)."
  },
  {
   "property": "C52",
   "status": "proved",
   "theorems": [
    "C52_ids_initialised",
    "C52_two_ids_rejected",
    "C52_two_classes_rejected",
    "C52_same_class_again_refuted"
   ],
   "note": ""
  },
  {
   "property": "C36",
   "status": "proved",
   "theorems": [
    "C36_to_java",
    "C36_from_java",
    "C36_round_trip",
    "C36_bool",
    "C36_time_partial",
    "C36_time_refuted"
   ],
   "note": "All integer types and both target widths. SystemTime (not an integer type) is proved for the range without overflow; in release builds later times wrap (C36_time_refuted)."
  },
  {
   "property": "C37",
   "status": "partial",
   "theorems": [
    "C37_round_trip_partial",
    "C37_from_java",
    "C37_option",
    "C37_null_is_empty",
    "C37_long_strings_refuted"
   ],
   "note": "Proved for strings of fewer than 2^31 UTF-16 units; longer strings are cut silently (C37_long_strings_refuted)."
  },
  {
   "property": "C38",
   "status": "proved",
   "theorems": [
    "C38_from_int",
    "C38_java_from_int",
    "C38_round_trip",
    "C38_injective",
    "C38_items",
    "C38_option",
    "C38_same_variant_refuted"
   ],
   "note": "Java (i32) and C++ (u32). The Java side needs pairwise different variants, which the generator does not check (C38_same_variant_refuted)."
  },
  {
   "property": "C53",
   "status": "proved",
   "theorems": [
    "C53_slices",
    "C53_objects",
    "C53_strings",
    "C53_strings_small"
   ],
   "note": ""
  },
  {
   "property": "C54",
   "status": "partial",
   "theorems": [
    "C54_error_partial",
    "C54_success",
    "C54_error_refuted"
   ],
   "note": "Proved for messages of characters U+0001..U+FFFF; a NUL aborts and other characters are not passed in the JVM's encoding (C54_error_refuted)."
  },
  {
   "property": "C39",
   "status": "partial",
   "theorems": [
    "C39_safe_partial",
    "C39_alive_partial",
    "C39_one_owner_partial",
    "C39_dropped_once",
    "C39_exactly_once_partial",
    "C39_finalize_partial",
    "C39_use_after_delete",
    "C39_argument_after_delete",
    "C39_argument_taken",
    "C39_argument_owned",
    "C39_this_refuted",
    "C39_ref_and_value_refuted",
    "C39_leak_refuted",
    "C39_array_refuted",
    "C39_deleted_option_refuted"
   ],
   "note": "Any number of threads, calls, wrappers and collections. Proved for programs which do not delete or move an object during a call that borrows it, keep the receiver alive during its methods, and put no null and no Rc/Arc object into arrays; the refuted theorems show that each of these rules is needed (the receiver is not fenced against the garbage collector; a moved argument leaks when a later argument is null)."
  },
  {
   "property": "C40",
   "status": "partial",
   "theorems": [
    "C40_never_freed_twice",
    "C40_alive",
    "C40_one_owner",
    "C40_times_freed",
    "C40_exactly_once",
    "C40_destroy",
    "C40_moved_from",
    "C40_no_use_after_free",
    "C40_wrappers_alone_are_safe",
    "C40_ref_outlives_refuted",
    "C40_assign_from_own_ref_refuted",
    "C40_ref_constructor_refuted",
    "C40_self_move_refuted"
   ],
   "note": "Freedom from double free and leak holds for every program (leaks: without the broken XRef constructor); freedom from use after free holds for owning wrappers alone and, with references, for programs keeping the borrowed object alive. The refuted theorems show the generated-code defects: assigning from an own reference, the XRef constructor, self-move with NDEBUG."
  },
  {
   "property": "C41",
   "status": "partial",
   "theorems": [
    "C41_values",
    "C41_only_null",
    "C41_safe_partial",
    "C41_one_owner",
    "C41_exactly_once",
    "C41_copy_refuted"
   ],
   "note": "For every program: buffers freed exactly once, texts as specified, and the only invalid argument ever passed is null, when a default-constructed or moved-from string is copied (C41_copy_refuted); C41_safe_partial excludes these copies."
  },
  {
   "property": "C42",
   "status": "partial",
   "theorems": [
    "C42_contents",
    "C42_objects",
    "C42_buffers",
    "C42_exactly_once",
    "C42_undefined",
    "C42_safe_partial",
    "C42_reference",
    "C42_push_moved_refuted",
    "C42_reference_refuted",
    "C42_index_refuted",
    "C42_alignment_refuted"
   ],
   "note": "For every program of vectors, wrappers and Rust-side moves: contents as specified, each object dropped and each buffer freed exactly once (given the alignment condition; C42_alignment_refuted shows it is needed). Safety excludes pushing a moved-from object, indexing out of range without assertions and references used after their vector changed; each is refuted otherwise."
  },
  {
   "property": "C55",
   "status": "partial",
   "theorems": [
    "C55_index",
    "C55_visit",
    "C55_distinct",
    "C55_add",
    "C55_difference_partial",
    "C55_difference_refuted",
    "C55_zero_sized_refuted"
   ],
   "note": "Loops, indexing and offsets are right for elements of positive size; the difference of iterators is wrong whenever it is negative (C55_difference_refuted, all sizes of two or more bytes) and containers of zero-sized objects look empty to a loop."
  },
  {
   "property": "C43",
   "status": "partial",
   "theorems": [
    "C43_safe",
    "C43_attached",
    "C43_balanced",
    "C43_references",
    "C43_released",
    "C43_reaches_java",
    "C43_leak_refuted",
    "C43_lost_refuted"
   ],
   "note": "Every interleaving of any number of threads, callbacks and nested calls: attach/detach balanced and no JNIEnv or reference used when invalid. Exactly-once release needs attaching to work (C43_released); if attaching fails on drop the reference leaks for ever (C43_leak_refuted) and a void callback is silently not delivered (C43_lost_refuted)."
  },
  {
   "property": "C45",
   "status": "partial",
   "theorems": [
    "C45_merge_made",
    "C45_twice_partial",
    "C45_order_independent",
    "C45_rule",
    "C45_merge",
    "C45_idempotent_partial",
    "C45_modules_refuted",
    "C45_modules_rule_refuted",
    "C45_generic_twice_refuted"
   ],
   "note": "For every pair of maps the program can make ([made]): merging succeeds, keeps positions, and what is known by name afterwards is exactly the union (later file wins), whatever the hash order; a second merge changes neither types, rules nor foreign types. Every rule of a file is either reported or has exactly its effect. Refuted: required modules of the later file (and of the earlier rule within a file) are forgotten; generic rules are stored again on a second merge."
  },
  {
   "property": "C46",
   "status": "partial",
   "theorems": [
    "C46_later_file_wins",
    "C46_same_file_reported_partial",
    "C46_later_rule_wins",
    "C46_simple_dup_reported",
    "C46_only_repeats_reported",
    "C46_accepted",
    "C46_same_file_refuted"
   ],
   "note": "The later file wins per direction; two rules with conversion code for one direction in the same file are reported, as is a second simple rule. C46_accepted says exactly which rules a map accepts. Refuted for rules without code: they silently replace each other within one file."
  },
  {
   "property": "C48",
   "status": "proved",
   "theorems": [
    "C48_variant",
    "C48_known_options",
    "C48_unknown_option_reported",
    "C48_pairs",
    "C48_one_of_pair",
    "C48_java_rule",
    "C48_cpp_rule",
    "C48_foreign_code"
   ],
   "note": "All rules and configurations of both backends; foreign code pieces are written exactly once when their option applies."
  },
  {
   "property": "C44",
   "status": "partial",
   "theorems": [
    "C44_accepted_iff",
    "C44_constructors_agree_partial",
    "C44_constructors_agree_refuted",
    "C44_validate",
    "C44_order_refuted",
    "C44_one_self_refuted",
    "C44_camel_panic_refuted",
    "C44_interface",
    "C44_enum"
   ],
   "note": "Accepted iff consistent and the result is what was declared, for all declarations; interfaces and enums likewise. Partial: that all constructors return one type holds unless `constructor = empty -> T` follows another constructor, whose type is then silently replaced (refuted); the position of the empty constructor decides acceptance, a second self argument is accepted, and camelCaseAliases panics on names such as `_1`."
  },
  {
   "property": "C47",
   "status": "partial",
   "theorems": [
    "C47_call_text",
    "C47_call_text_inline",
    "C47_rust_inputs",
    "C47_callback_inputs",
    "C47_java_text",
    "C47_fence",
    "C47_cpp_text",
    "C47_java_call",
    "C47_java_new",
    "C47_cpp_call",
    "C47_expected",
    "C47_no_call",
    "C47_env_refuted",
    "C47_field_name_refuted",
    "C47_struct_refuted"
   ],
   "note": "Texts of the call, the conversions and the fence for all signatures, and the execution of the wrappers for all arguments and conversions. Partial: an argument called env makes the Rust code of a Java method invalid, a constructor argument called mNativeObj hides the field, which then stays 0, and the word struct is cut out of the name of a returned C++ class (refuted). Conversions are abstract functions that bind only their own variable."
  },
  {
   "property": "C56",
   "status": "partial",
   "theorems": [
    "C56_identifier",
    "C56_injective_partial",
    "C56_injective_refuted",
    "C56_alias"
   ],
   "note": "For all ASCII texts the result is made of identifier characters; different texts give different identifiers if they have no digits (and not the path std::os::raw, which is cut out on purpose). Missing: texts with digits, for which it is false (refuted: `A < B >` and the identifier `A326032B3262`). Characters beyond ASCII are left out."
  },
  {
   "property": "C57",
   "status": "partial",
   "theorems": [
    "C57_symbols_partial",
    "C57_symbols_refuted",
    "C57_complete"
   ],
   "note": "All functions have different names if class names have no underscore and are not access words, and if no class has two methods with one name and access or one with a generated name. Refuted without these conditions: `A_b`::`c` and `A`::`b_c`, class `private_A`, a method `delete`."
  },
  {
   "property": "C58",
   "status": "partial",
   "theorems": [
    "C58_cpp_files_partial",
    "C58_cpp_files_refuted",
    "C58_java_files"
   ],
   "note": "C++: all files differ if no name ends in `_fwd` or `_impl`; refuted otherwise (class `Foo` and enum `Foo_fwd`). Java: all files differ if names do and none is that of a helper class. Case-insensitive file systems are left out."
  },
  {
   "property": "C59",
   "status": "partial",
   "theorems": [
    "C59_applies_partial",
    "C59_applies_to_instances_partial",
    "C59_first_partial",
    "C59_none_partial",
    "C59_where_type_refuted"
   ],
   "note": "Both back ends. A rule that is used fits; a rule that fits is used, unless a parameter is repeated or stands in an array, a trait object, parentheses or an associated type (see C16). Missing: patterns with qualified paths. Refuted: a where clause on a type which is no single name aborts the generator."
  },
  {
   "property": "C60",
   "status": "partial",
   "theorems": [
    "C60_rule_instance_partial",
    "C60_chosen_rule_partial",
    "C60_types_partial",
    "C60_c_items_partial",
    "C60_type_error_refuted"
   ],
   "note": "All parts of the rule, for an arbitrary back end. Missing: non-ASCII rule texts; a macro call in a Rust type that cannot be expanded is silently left in the type (refuted), so the theorem asks that those of the rule can be."
  },
  {
   "property": "C61",
   "status": "partial",
   "theorems": [
    "C61_call",
    "C61_call_reference",
    "C61_expected",
    "C61_drop",
    "C61_opaque_refuted",
    "C61_field_refuted",
    "C61_result_refuted"
   ],
   "note": "All declarations with names C++ can tell apart. Partial: an argument or method called `opaque`, two methods with one foreign name, and results whose converter needs a variable (such as a boxed callback) give code that does not compile (refuted)."
  },
  {
   "property": "C62",
   "status": "partial",
   "theorems": [
    "C62_safe",
    "C62_once",
    "C62_clone_refuted",
    "C62_null_refuted"
   ],
   "note": "All histories without clone. Refuted: the generated struct derives Clone, so safe Rust code can delete an object twice; an empty unique_ptr aborts the program."
  },
  {
   "property": "C63",
   "status": "partial",
   "theorems": [
    "C63_descriptor",
    "C63_value",
    "C63_attach",
    "C63_call_partial",
    "C63_no_env",
    "C63_accepts",
    "C63_exception_refuted"
   ],
   "note": "All interfaces, classes and values. Missing: boxed arguments and object results, whose signatures are wrong (C35). After a Java exception in a method with a result, whatever the JNI function returned is converted and taken for the answer (refuted)."
  },
  {
   "property": "C64",
   "status": "partial",
   "theorems": [
    "C64_java_result",
    "C64_cpp_result",
    "C64_one_converter",
    "C64_annotation",
    "C64_option",
    "C64_option_complete_partial",
    "C64_option_complete_refuted",
    "C64_more_stack",
    "C64_own_intermediate_overflows",
    "C64_terminates_refuted"
   ],
   "note": "All maps, types, directions and depths. Partial: an Option of a type in which a type called T occurs is annotated @NonNull (refuted); a type which is its own intermediate type makes the recursion endless (refuted)."
  },
  {
   "property": "C65",
   "status": "proved",
   "theorems": [
    "C65_java_convertible",
    "C65_cpp_convertible",
    "C65_cpp_all_convertible",
    "C65_replaced_refuted"
   ],
   "note": "All histories, with the C types rules declare (C65_cpp_all_convertible). Without the condition on replaced rules the claim is false: stale answers stay in the cache (refuted)."
  },
  {
   "property": "C66",
   "status": "partial",
   "theorems": [
    "C66_arguments",
    "C66_unique",
    "C66_arc_by_value_refuted",
    "C66_option_ref_refuted",
    "C66_vec_ref_refuted"
   ],
   "note": "All methods, arguments, states and functions whose argument types give valid Rust (rust_ok). Missing: the forms the generator accepts though the code is not valid Rust or passes another type (refuted: class kept in Arc by value, Option or Vec of references); types named T or E."
  },
  {
   "property": "C67",
   "status": "partial",
   "theorems": [
    "C67_results",
    "C67_total",
    "C67_nested_option_refuted",
    "C67_borrowed_tuple_refuted"
   ],
   "note": "All result types and values. Missing: tuples which refer to the locked self (the generated code is refused by Rust); nested Options cannot be told apart in Python (refuted)."
  },
  {
   "property": "C68",
   "status": "proved",
   "theorems": [
    "C68_round_trip",
    "C68_constants",
    "C68_call",
    "C68_truncation_refuted"
   ],
   "note": "All enums and numbers; equivalence with the condition on discriminants."
  },
  {
   "property": "C69",
   "status": "proved",
   "theorems": [
    "C69_exclusive",
    "C69_same_object",
    "C69_self_twice_refuted"
   ],
   "note": "All methods, instances and positions; for one thread."
  },
  {
   "property": "C70",
   "status": "proved",
   "theorems": [
    "C70_methods",
    "C70_classes",
    "C70_items",
    "C70_order",
    "C70_enum_after_class_refuted",
    "C70_interface_panics_refuted",
    "C70_module_clash_refuted"
   ],
   "note": "All items, classes, methods and types written without the names T and E, to any nesting (the bound n is any number above the nesting)."
  },
  {
   "property": "C71",
   "status": "partial",
   "theorems": [
    "C71_conversions",
    "C71_dependencies",
    "C71_foreign",
    "C71_output",
    "C71_generic",
    "C71_traits",
    "C71_accepted",
    "C71_no_panic",
    "C71_table_order",
    "C71_order_accepted",
    "C71_order_foreign",
    "C71_merge",
    "C71_panics_refuted",
    "C71_panics2_refuted",
    "C71_dangling_refuted",
    "C71_duplicate_refuted"
   ],
   "note": "All files, items and walks of the table; items as syn gives them, the parser of types is arbitrary. Refuted: a macro without a proper generic argument makes the reader panic; a foreign name without a Rust type is dropped and a repeated one replaced without a message. Neither what is accepted nor what is known depends on the order in which the table is walked."
  },
  {
   "property": "C72",
   "status": "proved",
   "theorems": [
    "C72_other_width",
    "C72_own_width",
    "C72_own_width_anywhere",
    "C72_two_conditions_refuted",
    "C72_other_conditions_refuted",
    "C72_typemap_refuted"
   ],
   "note": "All files, positions and widths for items with one condition. Refuted: of two conditions the last counts, conditions other than the width are ignored and hide a width after them, and a condition on foreign_typemap! is ignored."
  },
  {
   "property": "C73",
   "status": "proved",
   "theorems": [
    "C73_conversions",
    "C73_foreign",
    "C73_collected",
    "C73_accepted",
    "C73_no_panic"
   ],
   "note": "All lists of files and all hash orders; what one file says is C71. Panics only as in C71."
  },
  {
   "property": "C74",
   "status": "proved",
   "theorems": [
    "C74_java_accepted",
    "C74_cpp_accepted",
    "C74_cpp_ref_clash"
   ],
   "note": "All classes and all histories of the modelled operations in which no rule of a foreign type was replaced by one for other types (C65); class names are identifiers. A C++ class C takes the name CRef too."
  },
  {
   "property": "C75",
   "status": "partial",
   "theorems": [
    "C75_java_value",
    "C75_java_reference",
    "C75_java_reference_accepted",
    "C75_cpp_value",
    "C75_cpp_reference",
    "C75_cpp_view",
    "C75_java_traits",
    "C75_cpp_traits",
    "C75_traits_refuted",
    "C75_cpp_result_refuted"
   ],
   "note": "All classes, histories and later classes, if nothing was mapped to the types before. Refuted: a type the map already knew gets no traits (so a class over Foo after one over Rc<Foo> is not known as a class); for C++ a constructor returning a Result makes the Result the type of the class. That a Java reference is accepted, and not only mapped right if accepted, is C75_java_reference_accepted."
  },
  {
   "property": "C76",
   "status": "proved",
   "theorems": [
    "C76_java_convertible",
    "C76_cpp_convertible",
    "C76_aside_refuted"
   ],
   "note": "All histories with classes, under the condition of C65. Refuted without the exception: with self type Foo and constructors making Rc<RefCell<Foo>>, &Foo is accepted and no conversion exists."
  },
  {
   "property": "C77",
   "status": "proved",
   "theorems": [
    "C77_well_formed",
    "C77_declared_once",
    "C77_code_once",
    "C77_code_written",
    "C77_kept",
    "C77_includes_inside_refuted",
    "C77_code_inside_refuted",
    "C77_again_refuted",
    "C77_open_refuted"
   ],
   "note": "All histories of rules and mappings, nothing assumed about the mappings made while a declaration is written. Refuted without the conditions: a refused function leaves its block open, a nested generic rule declares an item twice; includes of functions and foreign code of generic rules may stand inside a block extern \"C\"."
  },
  {
   "property": "C78",
   "status": "partial",
   "theorems": [
    "C78_rust_items",
    "C78_rust_checked",
    "C78_texts",
    "C78_record",
    "C78_function",
    "C78_constant_partial",
    "C78_all_declared",
    "C78_constant_header_refuted",
    "C78_other_fields_refuted",
    "C78_two_headers_refuted",
    "C78_order_refuted"
   ],
   "note": "All items and states. Missing and refuted: a static does not bring the header of its type; a second definition with other fields is ignored without a message; one struct may be declared in two headers; a struct may be declared before the struct it contains."
  },
  {
   "property": "C79",
   "status": "proved",
   "theorems": [
    "C79_registered",
    "C79_mapped",
    "C79_known",
    "C79_refused",
    "C79_all"
   ],
   "note": "All histories in which no rule of a foreign type was replaced by one for other types (C65)."
  },
  {
   "property": "C80",
   "status": "partial",
   "theorems": [
    "C80_read",
    "C80_unambiguous",
    "C80_twice_refuted",
    "C80_panic_refuted"
   ],
   "note": "All token sequences; syn's parsers of types and generics are arbitrary parsers that only consume tokens. Refuted: a parameter given twice is accepted and the last counts; a variable called o, ou or out makes the parser panic."
  },
  {
   "property": "C81",
   "status": "partial",
   "theorems": [
    "C81_rust_partial",
    "C81_foreign_partial",
    "C81_reading",
    "C81_no_variable",
    "C81_refuted"
   ],
   "note": "All code texts in which the input variable and the output variable are not the beginning of another variable. Refuted without this: $p is replaced inside $pin, $out inside $outer, and $out stays beside $out_no_type."
  },
  {
   "property": "C83",
   "status": "partial",
   "theorems": [
    "C83_java_partial",
    "C83_cpp_partial",
    "C83_java_refuted",
    "C83_cpp_refuted"
   ],
   "note": "Any state of the map, any list of items. Java without null annotations: all items with a type; with them, classes among themselves and enums and callbacks among themselves. C++: classes and enums among themselves, callbacks among themselves. The full claim is false: classes without self type take no name; with null annotations a class and an enum may share a name; in C++ a class and a callback may share a name and both files, and a class called Foo_fwd shares a file with class Foo."
  },
  {
   "property": "C82",
   "status": "proved",
   "theorems": [
    "C82_java_accepted",
    "C82_java_needs_jint",
    "C82_cpp_accepted",
    "C82_java_mapped",
    "C82_cpp_mapped",
    "C82_java_trait",
    "C82_cpp_trait",
    "C82_java_object",
    "C82_order_refuted"
   ],
   "note": "Acceptance, names taken, mapping in both directions with the exact text of the conversions, traits and the conversion to a Java object are proved for every history of the map built from rules, conversions, mappings, classes and enums. The claim speaks of what comes after the enum: that the order of items does not matter at all is false (C82_order_refuted): a class using an enum which stands after it is refused. The text of the generated enum files is not part of this claim."
  },
  {
   "property": "C84",
   "status": "partial",
   "theorems": [
    "C84_java_docs",
    "C84_c_docs",
    "C84_java_file",
    "C84_cpp_file",
    "C84_c_file",
    "C84_java_refuted",
    "C84_cpp_refuted"
   ],
   "note": "All names, lists of items and documentation texts which for Java have no */ and no backslash-u, for C and C++ no line break and no backslash at the end; Java enums with at least one item. The rest of the claim is false: */ ends the Java comment, backslash-u is an escape even in comments, a Java enum without items has no semicolon before its members; the lines after the first of a documentation text become code in C++, and a backslash at the end of documentation hides the item below it."
  },
  {
   "property": "C85",
   "status": "partial",
   "theorems": [
    "C85_java_class",
    "C85_natives",
    "C85_docs_refuted",
    "C85_blank_refuted"
   ],
   "note": "All classes whose names are words, whose types and filled conversion texts are complete Java texts, and whose documentation has no */ and no backslash-u. Refuted otherwise: */ in documentation; and a converter made of blanks, for which the Java method is native itself while Rust exports do_f. Derived extensions are not part of the model (C33)."
  },
  {
   "property": "C86",
   "status": "partial",
   "theorems": [
    "C86_imported",
    "C86_none",
    "C86_which",
    "C86_refuted"
   ],
   "note": "All methods and types, as long as no type name mentions both annotations. Refuted for such types: only Nullable is imported, and the file does not compile."
  },
  {
   "property": "C87",
   "status": "partial",
   "theorems": [
    "C87_interface",
    "C87_attach",
    "C87_docs_refuted"
   ],
   "note": "All callbacks whose names are words, whose types are complete Java texts the signature code knows (the types of C35, no boxed ones), and whose documentation has no */ and no backslash-u; false for other documentation (C87_docs_refuted). The Java compiler's reading of a type is a parameter that agrees with the descriptors of C35."
  },
  {
   "property": "C88",
   "status": "partial",
   "theorems": [
    "C88_c_header",
    "C88_functions",
    "C88_docs_refuted"
   ],
   "note": "All classes whose names are words, whose types are complete C texts and whose documentation lines have no line break and no backslash at the end; false for other documentation (C88_docs_refuted)."
  },
  {
   "property": "C89",
   "status": "partial",
   "theorems": [
    "C89_cpp_header",
    "C89_forward",
    "C89_struct_refuted"
   ],
   "note": "All classes the generator accepts, under the conditions of C88 and: filled in converters are complete C++ texts (those that declare a variable begin with a blank), the temporaries of converters are words, no result is called `void` by its type, and `struct` is in the type of a result at most as its first word (after const). Without the last one it is refuted: a result of type Infrastructure is declared as Infraure. The arguments of the call to C are exactly the converted arguments in order (`passes`), and the result is given back converted (`gives`)."
  },
  {
   "property": "C90",
   "status": "partial",
   "theorems": [
    "C90_c_header",
    "C90_cpp_header",
    "C90_fields"
   ],
   "note": "All callbacks the generator accepts whose names are words, whose types and filled in converters are complete texts (a converter of a result has only {from_var}: nothing else is filled in there), and whose documentation lines have no line break and no backslash at the end; false for other documentation (C90_docs_refuted). C90_fields: the fields are those of C61."
  },
  {
   "property": "C91",
   "status": "partial",
   "theorems": [
    "C91_result_partial",
    "C91_nested_refuted",
    "C91_same_types_refuted"
   ],
   "note": "Proved for types with a tuple only at the first place of another tuple (directly; behind Option or Result anywhere) and Results of two different C++ types. Refuted without: (a, (b, c)) arrives as (b, (b, c)) (C91_nested_refuted, for all a of the type of b), as the inner conversion declares p0 again; a Result of two types that are one C++ type does not compile."
  },
  {
   "property": "C92",
   "status": "partial",
   "theorems": [
    "C92_argument_partial",
    "C92_round_trip_partial",
    "C92_triple_refuted"
   ],
   "note": "Under the conditions of C91 and: no triples (C92_triple_refuted: std::tuple has no member `first`, so no C++ caller compiles), and an argument with a tuple in its type is not called p0, p1 or p2. C92_refuted: (1, (2, 3)) arrives as (2, (2, 3))."
  },
  {
   "property": "C93",
   "status": "partial",
   "theorems": [
    "C93_arguments_partial"
   ],
   "note": "If some argument has a tuple in its type then no argument is called p0, p1 or p2. Without it refuted (C93_refuted): fn f(p0: i32, point: (i32, i32)) called with 7 and (1, 2) gets 1 and (1, 2)."
  },
  {
   "property": "C94",
   "status": "proved",
   "theorems": [
    "C94_strings",
    "C94_objects",
    "C94_object",
    "C94_optional",
    "C94_numbers"
   ],
   "note": "For every JVM state without a pending exception and every oracle of failing calls. The JVM is modelled after the JNI specification without garbage collection; vectors of 2^31 and more elements are in C38."
  },
  {
   "property": "C95",
   "status": "partial",
   "theorems": [
    "C95_string_partial",
    "C95_null",
    "C95_string_refuted",
    "C95_objects_partial",
    "C95_null_element_refuted",
    "C95_numbers_partial",
    "C95_numbers_refuted",
    "C95_long",
    "C95_no_long"
   ],
   "note": "Proved if the JVM can hand out the characters or elements (refuted otherwise: the null is not checked and read, C95_string_refuted, C95_numbers_refuted), and for arrays of objects without null elements (C95_null_element_refuted: null is given to GetLongField)."
  },
  {
   "property": "C96",
   "status": "partial",
   "theorems": [
    "C96_string_partial",
    "C96_memory_refuted",
    "C96_references_refuted",
    "C96_overflow_refuted"
   ],
   "note": "Each call alone is right if the string can be made. Refuted: without memory for it Java is called with the exception pending (C96_memory_refuted); the reference of each call stays until the native method ends, so enough calls in a loop exceed any table of local references (C96_references_refuted, C96_overflow_refuted)."
  },
  {
   "property": "C97",
   "status": "partial",
   "theorems": [
    "C97_lines",
    "C97_lines_exist",
    "C97_shown",
    "C97_single",
    "C97_many_partial",
    "C97_report",
    "C97_sources",
    "C97_first_line_refuted",
    "C97_wide_refuted",
    "C97_blank_refuted"
   ],
   "note": "Proved for any span of code, except the carets of spans over several lines: the first line gets one caret too few (C97_first_line_refuted), a line with non-ASCII characters too many (C97_wide_refuted), an empty line one (C97_blank_refuted); otherwise exact (C97_many_partial). With a span of real code nothing underflows (C97_shown)."
  },
  {
   "property": "C98",
   "status": "proved",
   "theorems": [
    "C98_atomic",
    "C98_exclusive"
   ],
   "note": "For every schedule of any number of threads. The user's function is any list of steps on the objects it gets; it does not panic or lock by itself."
  },
  {
   "property": "C99",
   "status": "partial",
   "theorems": [
    "C99_ordered_partial",
    "C99_single_partial",
    "C99_bounded",
    "C99_same_object_refuted",
    "C99_two_threads_refuted"
   ],
   "note": "Proved if the calls take their objects in the order of some ranking, in particular if no second object is given by reference. Refuted otherwise: an object given to its own method waits for itself (C99_same_object_refuted), a.f(b) and b.f(a) in two threads wait for each other (C99_two_threads_refuted)."
  },
  {
   "property": "C100",
   "status": "proved",
   "theorems": [
    "C100_exact",
    "C100_two",
    "C100_nested_refuted"
   ],
   "note": "Exactly the conflicts panic. C100_nested_refuted shows one that a user meets: a &mut self method calling back into its own object."
  },
  {
   "property": "C101",
   "status": "partial",
   "theorems": [
    "C101_program_partial",
    "C101_null_refuted",
    "C101_self_move_refuted"
   ],
   "note": "Proved for every program that does not pass a slice without a buffer to Rust and does not move a slice to itself. Refuted there: std::slice::from_raw_parts(null, 0) is undefined (C101_null_refuted, for a slice that was moved away or is made of an empty vector); v = std::move(v) loses the contents (C101_self_move_refuted)."
  },
  {
   "property": "C102",
   "status": "partial",
   "theorems": [
    "C102_class_partial",
    "C102_cpp_enum",
    "C102_callback",
    "C102_no_panic",
    "C102_self_type_refuted",
    "C102_java_enum_refuted",
    "C102_python_refuted",
    "C102_twice_refuted"
   ],
   "note": "Proved for classes in Java and C++, enums in C++ and callbacks. Refuted: attributes of self_type and foreign_code are dropped (C102_self_type_refuted), derives of enums in Java and Python (C102_java_enum_refuted), derives and method attributes of classes in Python (C102_python_refuted); camelCaseAliases given twice is an unknown attribute in Java (C102_twice_refuted)."
  },
  {
   "property": "C103",
   "status": "partial",
   "theorems": [
    "C103_program_partial",
    "C103_deleted_refuted",
    "C103_both_refuted"
   ],
   "note": "Proved for programs that use no object after it was deleted or given away and do not give an object away that is used once more in the same call. Refuted there: such an object is None for Rust, without an error (C103_deleted_refuted); f(o, o) with Option<&T> and Option<T> gives a reference to freed memory (C103_both_refuted). Optional numbers are not part of this model."
  },
  {
   "property": "C104",
   "status": "proved",
   "theorems": [
    "C104_file",
    "C104_calls",
    "C104_natives",
    "C104_std",
    "C104_method",
    "C104_class_file"
   ],
   "note": "The texts of the file and of the calls are read by the tokenizer of EnumTextSpec. C104_method: in every body the fence follows the native call and the conversion of its result, and at most the return of a variable follows the fence. C104_class_file: the same for every member in the file of a class. The receiver has no fence at all (C39_this_refuted)."
  },
  {
   "property": "C105",
   "status": "partial",
   "theorems": [
    "C105_program_partial",
    "C105_start_partial",
    "C105_call",
    "C105_moved_refuted",
    "C105_twice_refuted"
   ],
   "note": "Proved for programs that call with objects that were not moved from, and give no object that the function may change twice to it. Refuted there: an object moved from is None for an optional parameter, and stops the process for the others (C105_moved_refuted); f(x, x) with a mutable parameter makes two references to one object, undefined behaviour in Rust (C105_twice_refuted). What a call does with any objects is stated exactly in C105_call. Methods with &mut self, threads and classes behind Rc, Arc are not part of this model."
  }
 ]
}