{"id": "C01", "title": "Found conversion chains are real and shortest", "statement": "Whenever the generator finds a chain of conversion rules from one Rust type to another, consecutive rules of the chain fit together (each starts at the type the previous one ends at), the chain starts at the source type and ends at the target type, every rule of it is a registered rule, and no shorter chain of registered rules exists.", "quantifier": "every conversion graph, every pair of types, every order in which the priority queue may break ties", "why_tests_cant": "the set of type graphs is unbounded and the heap's tie-breaking depends on insertion history; tests only see a handful of graphs", "anchors": ["macroslib/src/typemap.rs::find_conversion_path", "macroslib/src/typemap.rs::TypeMap::find_path"]}
{"id": "C02", "title": "Conversion search is complete", "statement": "The search for a chain of conversion rules reports `Can not find conversion` exactly when no chain of registered rules leads from the source type to the target type; it never misses one and always terminates.", "quantifier": "every conversion graph, every pair of types, every tie-breaking order", "why_tests_cant": "absence of missed paths is a statement about all graphs", "anchors": ["macroslib/src/typemap.rs::find_conversion_path"]}
{"id": "C03", "title": "Speculative rule instantiation leaves no trace", "statement": "Trying to build a conversion path by instantiating generic rules leaves the table of known types and registered conversions exactly as it was (same types, same rules, same order), whether the attempt succeeds or fails, until the found path is explicitly merged.", "quantifier": "every graph, every set of generic rules, every pair of types, every hash iteration order, every step limit", "why_tests_cant": "rollback must be exact for every interleaving of added nodes and edges", "anchors": ["macroslib/src/typemap.rs::TypeGraphSnapshot", "macroslib/src/typemap.rs::try_build_path"]}
{"id": "C04", "title": "A path that was built is usable afterwards", "statement": "If instantiating generic rules discovers a path, then merging it makes the ordinary conversion search between the same two types succeed, with a chain no longer than the discovered one, and every rule registered before is still registered.", "quantifier": "every graph satisfying the table invariants, every generic-rule set, every iteration order", "why_tests_cant": "depends on index renumbering between the rolled-back speculative graph and the merged graph", "anchors": ["macroslib/src/typemap.rs::PossiblePath::new", "macroslib/src/typemap.rs::merge_path_to_conv_map", "macroslib/src/typemap.rs::TypeMap::find_or_build_path"]}
{"id": "C05", "title": "Type table stays consistent", "statement": "Across any sequence of type registrations and path merges, the table of known Rust types maps every name to exactly one entry whose normalized name is that name, entries are never lost or renumbered, and looking up a registered type by any spelling with the same normalized name returns the same entry.", "quantifier": "every history of find-or-register, rule additions, speculative builds and merges", "why_tests_cant": "an invariant over unbounded histories", "anchors": ["macroslib/src/typemap.rs::TypeMap::add_node", "macroslib/src/typemap.rs::TypeMap::find_or_alloc_rust_type", "macroslib/src/typemap.rs::TypeMap::ty_to_rust_type_checked"]}
{"id": "C06", "title": "Emitted conversion code composes", "statement": "The code emitted for a type conversion is, in order, one snippet per rule of the chain; the first reads the input variable, all later ones read the output variable, each assigns the output variable with the target type of its rule, and the final type is the requested one; when source and target coincide and the names differ a plain `let mut out = in;` is emitted, and when names coincide nothing is emitted.", "quantifier": "every graph, pair of types and pair of variable names", "why_tests_cant": "chains have arbitrary length", "anchors": ["macroslib/src/typemap.rs::TypeMap::convert_rust_types", "macroslib/src/typemap.rs::TypeConvCode::generate_code"]}
{"id": "C07", "title": "Helper items are emitted at most once", "statement": "Supporting items attached to a conversion rule (and shared by all instances of a generic rule) are emitted by the first conversion that uses the rule and never again, over the whole run of the generator.", "quantifier": "every history of conversions sharing rules", "why_tests_cant": "duplicate definitions would appear only for particular histories", "anchors": ["macroslib/src/typemap.rs::TypeConvEdge", "macroslib/src/typemap.rs::TypeMap::convert_rust_types"]}
{"id": "C08", "title": "Foreign type choice is the nearest one", "statement": "With the fast search, mapping a Rust type to a foreign type returns a registered foreign type whose Rust side is connected with the type in the requested direction by a minimal number of rules, the earliest registered one among equals, and returns nothing exactly when no registered foreign type is connected.", "quantifier": "every type map, direction and Rust type, with an empty cache entry", "why_tests_cant": "minimality and first-wins tie-breaking over all registries", "anchors": ["macroslib/src/typemap.rs::TypeMap::map_through_conversion_to_foreign"]}
{"id": "C09", "title": "Foreign type choice is stable once made", "statement": "Once a Rust type has been mapped to a foreign type by the fast search, later requests for the same direction return the same foreign type and the chosen type stays connected, no matter which types, rules and paths are added in between, until the cache is explicitly invalidated.", "quantifier": "every history of registrations, conversions and mappings between the two requests", "why_tests_cant": "cache coherence over unbounded histories", "anchors": ["macroslib/src/typemap.rs::TypeMap::map_through_conversion_to_foreign", "macroslib/src/typemap.rs::TypeMap::invalidate_conv_cache"]}
{"id": "C10", "title": "Step limit bounds speculative search", "statement": "Building a path with limit n only instantiates generic rules at types at most n-1 rules away from the start, so the search terminates even when generic rules generate infinitely many types.", "quantifier": "every generic-rule set, including ones generating unboundedly many new types", "why_tests_cant": "non-termination cannot be tested", "anchors": ["macroslib/src/typemap.rs::try_build_path", "macroslib/src/typemap.rs::MAX_TRY_BUILD_PATH_STEPS"]}
{"id": "C11", "title": "Normalized names ignore lifetimes", "statement": "Two spellings of a type that differ only in reference lifetimes, lifetime arguments and the `dyn` keyword get the same normalized name, hence the same entry in the type table.", "quantifier": "every type of the modelled grammar, at any nesting depth", "why_tests_cant": "types nest without bound", "anchors": ["macroslib/src/typemap/ast.rs::normalize_type", "macroslib/src/typemap/ast.rs::strip_lifetimes"]}
{"id": "C12", "title": "Normalized names identify types", "statement": "Two types with the same normalized name are equal up to reference lifetimes, lifetime arguments and `dyn`; so distinct types never share a table entry.", "quantifier": "every pair of types of the modelled grammar", "why_tests_cant": "injectivity over an infinite set", "anchors": ["macroslib/src/typemap/ast.rs::normalize_type"]}
{"id": "C13", "title": "Normalization is idempotent and cache-transparent", "statement": "Normalizing an already lifetime-free type changes nothing, and the normalization cache never changes an answer whatever was normalized before.", "quantifier": "every type, every history of previous normalizations", "why_tests_cant": "cache coherence over histories", "anchors": ["macroslib/src/typemap/ast.rs::normalize_type", "macroslib/src/typemap/ast.rs::NormalizeTyLifetimesCache"]}
{"id": "C14", "title": "A generic match is a real instance", "statement": "When the generic matcher accepts that a concrete type is an instance of a pattern and returns type arguments, substituting these arguments for the type parameters in the pattern gives the concrete type (up to lifetimes).", "quantifier": "every pattern, every concrete type, every set of type parameters", "why_tests_cant": "structural induction over unbounded types", "anchors": ["macroslib/src/typemap/ast.rs::is_second_subst_of_first", "macroslib/src/typemap/ast.rs::replace_all_types_with"]}
{"id": "C15", "title": "Generic match binds only declared parameters", "statement": "The generic matcher never invents, removes or reorders type parameters, never changes a parameter that was already bound, and leaves the bindings of parameters that do not occur in the pattern untouched.", "quantifier": "every pattern, concrete type and initial binding", "why_tests_cant": "unbounded nesting and parameter lists", "anchors": ["macroslib/src/typemap/ast.rs::is_second_subst_of_first", "macroslib/src/typemap/ast/subst_map.rs::TyParamsSubstMap"]}
{"id": "C16", "title": "Linear patterns are matched whenever an instance exists", "statement": "If every type parameter occurs at most once in a pattern, then every lifetime-free instance of the pattern is accepted and the original arguments are recovered.", "quantifier": "every linear pattern and every substitution", "why_tests_cant": "completeness over infinite sets", "anchors": ["macroslib/src/typemap/ast.rs::is_second_subst_of_first"]}
{"id": "C17", "title": "Generic rule respects trait bounds", "statement": "A generic conversion rule is only applied to a type when every type parameter bound at the matcher is replaced by a type known to implement all traits the rule lists for this parameter.", "quantifier": "every rule, type and registry of implemented traits", "why_tests_cant": "quantifies over all registries", "anchors": ["macroslib/src/typemap/ast.rs::GenericTypeConv::is_conv_possible", "macroslib/src/typemap/ast.rs::is_ty_satisfy_trait_bounds", "macroslib/src/typemap/ast.rs::get_trait_bounds"]}
{"id": "C18", "title": "Template substitution replaces every placeholder and nothing else", "statement": "Instantiating a conversion template replaces each occurrence of the four placeholders by the given variable and type names, simultaneously, and leaves all other text as it is, provided the given names contain no placeholder text themselves.", "quantifier": "every template text and every names without braces", "why_tests_cant": "strings are unbounded and overlapping matches are subtle", "anchors": ["macroslib/src/typemap.rs::TypeConvCode::generate_code"]}
{"id": "C19", "title": "First-and-other replacement is exact", "statement": "Replacing a keyword so that its first occurrence becomes a declaration and the later ones a use keeps all text between the occurrences, replaces the leftmost non-overlapping occurrences, the first one by the first text and all others by the second text.", "quantifier": "every source text, keyword and replacement pair", "why_tests_cant": "strings are unbounded", "anchors": ["macroslib/src/str_replace.rs::replace_first_and_other"]}
{"id": "C20", "title": "Unresolved template parameters are reported", "statement": "Substituting parameters in a conversion snippet fails exactly when some declared parameter has no value; on success no value has been asked for that is not declared.", "quantifier": "every snippet, parameter list and substitution function", "why_tests_cant": "quantifies over substitution functions", "anchors": ["macroslib/src/typemap.rs::TypeConvCode::generate_code_with_subst_func"]}
{"id": "C21", "title": "Parameters whose names extend each other do not interfere", "statement": "Substituting declared parameters of a snippet gives each occurrence of a parameter its own value, also when one parameter's name is a prefix of another's (e.g. `$tmp` and `$tmp1`).", "quantifier": "every snippet and parameter list", "why_tests_cant": "needs all name combinations", "anchors": ["macroslib/src/typemap.rs::TypeConvCode::generate_code_with_subst_func", "macroslib/src/typemap/typemap_macro/parse.rs"]}
{"id": "C22", "title": "Macro expansion keeps the surrounding text", "statement": "Expanding helper macros in a code template keeps all text outside of macro calls, in order, and replaces each call by what its expander returns for the call's name and arguments; text without macro calls is returned unchanged.", "quantifier": "every ASCII template text and every expander", "why_tests_cant": "strings and nesting of brackets are unbounded", "anchors": ["macroslib/src/typemap/typemap_macro.rs::expand_macroses", "macroslib/src/typemap/typemap_macro.rs::find_macro"]}
{"id": "C23", "title": "Macro detection is total on all text", "statement": "Looking for macro calls in a template never aborts, whatever characters the template contains.", "quantifier": "every template text including non-ASCII", "why_tests_cant": "needs all texts", "anchors": ["macroslib/src/typemap/typemap_macro.rs::find_macro"]}
{"id": "C24", "title": "Fresh names are fresh", "statement": "A generated unique name differs from every name already in use, equals the requested name if that is free, and otherwise is the requested name with the smallest free number appended.", "quantifier": "every set of used names and every requested name", "why_tests_cant": "sets are unbounded", "anchors": ["macroslib/src/namegen.rs::new_unique_name"]}
{"id": "C25", "title": "Function argument names are distinct", "statement": "After parsing a foreign method declaration all argument names used in generated code are pairwise distinct, named arguments keep their names, and `_` arguments get fresh ones.", "quantifier": "every argument list", "why_tests_cant": "argument lists are unbounded; collisions between generated and user names are corner cases", "anchors": ["macroslib/src/code_parse.rs::parse_fn_args"]}
{"id": "C26", "title": "Source ids are stable and unique", "statement": "Registering a piece of source code returns an id under which its text is found again forever, different pieces get different ids, and registering a second piece with the same name is rejected.", "quantifier": "every history of registrations", "why_tests_cant": "history property", "anchors": ["macroslib/src/source_registry.rs::SourceRegistry"]}
{"id": "C27", "title": "Foreign type names are unique", "statement": "In every reachable foreign-type registry each name belongs to exactly one entry, a second definition of a name is reported as an error and changes nothing, find-or-create is idempotent, and indices given out stay valid and keep their name.", "quantifier": "every history of registry operations", "why_tests_cant": "history property", "anchors": ["macroslib/src/typemap/ty.rs::ForeignTypesStorage"]}
{"id": "C28", "title": "Display name of a foreign type hides exactly the uniqueness prefix", "statement": "The displayed name of a foreign type is the stored unique name without its prefix, and prefix followed by displayed name is the stored name.", "quantifier": "every name and prefix", "why_tests_cant": "strings unbounded", "anchors": ["macroslib/src/typemap/ast.rs::UniqueName"]}
{"id": "C29", "title": "Implemented-trait sets only grow", "statement": "Recording implemented traits never duplicates or forgets a trait, and merging the description of a type contributed by another file keeps all traits of both.", "quantifier": "every history of insertions and merges", "why_tests_cant": "history property", "anchors": ["macroslib/src/typemap/ty.rs::ImplementsSet", "macroslib/src/typemap/ty.rs::RustTypeS::merge"]}
{"id": "C30", "title": "Generated files are rewritten only when they change", "statement": "After writing out a generated file its content is exactly the collected output; if the file on disk already has this content it is not touched, and no other file is ever touched.", "quantifier": "every file-system state and output", "why_tests_cant": "quantifies over file systems and run histories", "anchors": ["macroslib/src/file_cache.rs::FileWriteCache"]}
{"id": "C31", "title": "Failed generation leaves the destination untouched", "statement": "If expanding a source text reports an error, the destination file is left as it was; if it succeeds the destination holds the formatted output.", "quantifier": "every input, every failing step", "why_tests_cant": "needs all failure points", "anchors": ["macroslib/src/lib.rs::Generator::expand_str"]}
{"id": "C32", "title": "Stale Java files are removed, others kept", "statement": "When cleaning the output directory, exactly the Java files directly inside it which this run did not generate are removed; nothing else is.", "quantifier": "every directory content and every set of generated files", "why_tests_cant": "quantifies over directory states", "anchors": ["macroslib/src/typemap/utils.rs::remove_files_if", "macroslib/src/java_jni/mod.rs"]}
{"id": "C33", "title": "Unknown derives are rejected, known handlers run in order", "statement": "Code generation for a declaration calls the registered extension of each listed non-reserved name exactly once in the listed order, and reports an error for a name without registered extension.", "quantifier": "every derive list and extension registry", "why_tests_cant": "unbounded lists", "anchors": ["macroslib/src/extension.rs"]}
{"id": "C34", "title": "JNI function names are unambiguous", "statement": "Two native methods of different package, class, method name or (for overloaded ones) argument types get different JNI symbol names, for identifiers of ASCII letters, digits and underscores not starting with a digit.", "quantifier": "every pair of methods", "why_tests_cant": "injectivity over an infinite set", "anchors": ["macroslib/src/java_jni/rust_code.rs::generate_jni_func_name"]}
{"id": "C35", "title": "JNI type signatures are well formed", "statement": "The method signature string passed to the JVM for every callback or cached method conforms to the JNI grammar: parenthesised parameter descriptors followed by a return descriptor.", "quantifier": "every list of Java types", "why_tests_cant": "unbounded", "anchors": ["macroslib/src/java_jni/rust_code.rs::jni_method_signature", "macroslib/src/java_jni/rust_code.rs::jni_signature"]}
{"id": "C36", "title": "Integers cross the Java boundary exactly or not at all", "statement": "For every Rust integer type the conversion to Java and back yields the original value or stops with a panic at the point where the value is not representable; no value is ever silently changed.", "quantifier": "every value of every integer type, on 32 and 64 bit targets", "why_tests_cant": "2^64 values and two target widths", "anchors": ["macroslib/src/java_jni/jni-include.rs"]}
{"id": "C37", "title": "Strings survive the trip to Java and back", "statement": "Converting a Rust string to a Java string and back gives the same string, and a Java string converts exactly when it is well-formed UTF-16.", "quantifier": "every string", "why_tests_cant": "strings are unbounded; surrogates are corner cases", "anchors": ["macroslib/src/java_jni/jni-include.rs::from_std_str_jstring", "macroslib/src/java_jni/jni-include.rs::from_jstring_std_string"]}
{"id": "C38", "title": "Enums round-trip", "statement": "Converting an enum value to its foreign integer and back gives the same value, different values get different integers, integers which are no variant make the program stop instead of producing a value, and the absent optional enum is never confused with a present one.", "quantifier": "every enum declaration and every integer", "why_tests_cant": "quantifies over all enum declarations", "anchors": ["macroslib/src/java_jni/fenum.rs", "macroslib/src/cpp/fenum.rs", "macroslib/src/java_jni/jni-include.rs"]}
{"id": "C39", "title": "Java wrapper objects free the native object exactly once", "statement": "Over any sequence of method calls, explicit deletes, moves into Rust and finalizations of a Java wrapper, the wrapped Rust object is dropped at most once, exactly once if the wrapper is finalized and it was not moved out, and no method is run on it afterwards unless the object is used after an explicit delete/move.", "quantifier": "every history of operations on every number of wrappers", "why_tests_cant": "history property", "anchors": ["macroslib/src/java_jni/fclass.rs", "macroslib/src/java_jni/jni-include.rs"]}
{"id": "C40", "title": "C++ wrapper objects free the native object exactly once", "statement": "Over any sequence of constructions, copies, moves, assignments, releases and destructions of C++ owning wrappers, every Rust object given to C++ is freed exactly once, and never used after being freed.", "quantifier": "every history on every number of wrappers", "why_tests_cant": "history property", "anchors": ["macroslib/src/cpp/fclass.rs"]}
{"id": "C41", "title": "RustString in C++ manages memory correctly", "statement": "Over any sequence of constructions, copies, moves, assignments (including self-assignment) and destructions, each Rust string buffer handed to C++ is freed exactly once and the helper functions are only called with valid buffers.", "quantifier": "every history on every number of RustString objects", "why_tests_cant": "history property", "anchors": ["macroslib/src/cpp/cpp-include.rs::RustString", "macroslib/src/cpp/cpp-include.rs::crust_string_clone"]}
{"id": "C42", "title": "RustVec in C++ manages memory correctly", "statement": "Over any sequence of operations on C++ vectors of Rust objects, each element is freed exactly once and each buffer is freed exactly once.", "quantifier": "every history", "why_tests_cant": "history property", "anchors": ["macroslib/src/cpp/rust_foreign_vec_impl.hpp", "macroslib/src/cpp/rust_vec_impl.hpp", "macroslib/src/cpp/cpp-include.rs"]}
{"id": "C43", "title": "JVM thread attachment is balanced", "statement": "Every callback from Rust into Java, on any thread, detaches the thread from the JVM if and only if the callback attached it, and the global reference to the Java object is released exactly once.", "quantifier": "every interleaving of callbacks on any number of threads", "why_tests_cant": "schedule property", "anchors": ["macroslib/src/java_jni/jni-include.rs::JavaCallback", "macroslib/src/java_jni/jni-include.rs::JniEnvHolder"]}
{"id": "C44", "title": "Class declarations are accepted iff consistent", "statement": "A foreign class declaration is accepted exactly if it is consistent: constructors, methods and static functions have the receivers they should have, argument names differ, a self type is given iff there is a constructor, a Copy class has a clone method, the empty constructor is private and the only one after it. The accepted class has the declared functions in order with their paths, argument and result types, access and foreign names; all its constructors return one type; a class with methods and no self type is refused before generation. Interface and enum declarations are taken over in the same way.", "quantifier": "every sequence of class, interface and enum items", "why_tests_cant": "unbounded declarations", "anchors": ["macroslib/src/code_parse.rs::do_parse_foreigner_class", "macroslib/src/types.rs::ForeignClassInfo"]}
{"id": "C45", "title": "Merging type maps keeps all knowledge", "statement": "Merging the type information of a file into the current map keeps every known type, rule and foreign type at its index, adds every new one, re-targets its rules to the right types by name, and merging the same information twice adds nothing new.", "quantifier": "every pair of type maps", "why_tests_cant": "quantifies over pairs of maps", "anchors": ["macroslib/src/typemap/merge.rs"]}
{"id": "C46", "title": "Conflicting foreign type rules are reported", "statement": "When two files give different Rust sides for one direction of a foreign type, the documented policy is applied: the later one wins unless both come from the same file, in which case an error is reported.", "quantifier": "every pair of rules", "why_tests_cant": "case space is large", "anchors": ["macroslib/src/typemap/merge.rs::ftype_merge", "macroslib/src/typemap/merge.rs::validate_rule_rewrite"]}
{"id": "C47", "title": "Generated calls pass arguments in order", "statement": "A call of a wrapped method, static method or constructor from Java or C++ calls the user's Rust function exactly once, with the receiver first and all arguments in declaration order, each converted exactly once on each side that has a conversion, and returns its converted result; if a conversion stops, the function is not called. No variable of the wrapper clashes with an argument or another variable, and the fence against the garbage collector covers every converted object.", "quantifier": "every signature, set of argument names, converters and argument values", "why_tests_cant": "arity, names and values are unbounded", "anchors": ["macroslib/src/types.rs::ForeignMethod::generate_code_to_call_rust_func", "macroslib/src/typemap/utils.rs::foreign_to_rust_convert_method_inputs", "macroslib/src/java_jni/fclass.rs::convert_code_for_method", "macroslib/src/cpp/cpp_code.rs::convert_args"]}
{"id": "C48", "title": "Configuration options select exactly one foreign variant", "statement": "For a conversion rule with option-dependent foreign types, after configuration exactly the variants matching the configured options remain, and an error is reported if an unknown option is used or several remain.", "quantifier": "every rule and configuration", "why_tests_cant": "combinatorial", "anchors": ["macroslib/src/typemap/utils.rs::configure_ftype_rule", "macroslib/src/typemap/utils.rs::validate_cfg_options"]}
{"id": "C49", "title": "Conversions reachable within the step limit are found", "statement": "If the target type can be reached from the source type by at most six steps (registered rules or generic rules that apply), one further generic step and then registered rules only, the generator finds a conversion, whatever the iteration order of its hash sets.", "quantifier": "every history of the type map, every set of generic rules, every iteration order", "why_tests_cant": "search completeness over unbounded graphs and rule sets", "anchors": ["macroslib/src/typemap.rs::try_build_path", "macroslib/src/typemap.rs::convert_rust_types"]}
{"id": "C50", "title": "Deep search for a foreign type is safe", "statement": "When no direct conversion exists, the deep search either returns a foreign type that is connected with the Rust type afterwards, or nothing; it does not abort and keeps everything known before.", "quantifier": "every history of the type map including earlier deep searches", "why_tests_cant": "needs all graphs and rule sets; the abort needs an interaction between two candidates", "anchors": ["macroslib/src/typemap.rs::map_through_conversion_to_foreign", "macroslib/src/typemap.rs::merge_path_to_conv_map"]}
{"id": "C51", "title": "Rust macros in templates survive expansion", "statement": "A macro call in a Rust code template whose name is not one of the generator's own macros is kept: the same macro is called with the same arguments and text in the expanded code, and the generator's own macros inside its arguments are expanded.", "quantifier": "all templates, all macro names and argument texts", "why_tests_cant": "argument texts are unbounded and contain arbitrary nesting, quoting and white space", "anchors": ["macroslib/src/typemap/typemap_macro.rs::expand_rust_code", "macroslib/src/typemap/typemap_macro.rs::expand_macroses", "macroslib/src/typemap/ast.rs::code_for_conversion"]}
{"id": "C52", "title": "Cached JNI ids are initialised", "statement": "Every class, method and field id which the generated glue uses has a global variable and is set when the library is loaded, after its class and from the path, name and signature given where it is used; nothing is looked up twice; ids used inconsistently stop the generator; every class reference taken on load is released on unload.", "quantifier": "every sequence of id uses in the generated code", "why_tests_cant": "the uses come from any number of classes, callbacks and user rules in any order", "anchors": ["macroslib/src/java_jni/find_cache.rs::JniCacheMacroCallsVisitor", "macroslib/src/java_jni/rust_code.rs::generate_load_unload_jni_funcs"]}
{"id": "C53", "title": "Arrays and vectors cross the Java boundary unchanged or not at all", "statement": "A slice or vector of numbers, objects or strings given to Java arrives with the same length and every element at its place, or the program stops because it is too long; a Java array arrives in Rust as it is.", "quantifier": "every vector, of any length", "why_tests_cant": "the length is cast to 32 bits at several places; vectors above 2^31 elements cannot be tested", "anchors": ["macroslib/src/java_jni/jni-include.rs::from_slice_to_raw", "macroslib/src/java_jni/jni-include.rs::vec_string_to_jobject_array", "macroslib/src/java_jni/jni-include.rs::vec_of_objects_to_jobject_array"]}
{"id": "C54", "title": "Errors returned by Rust become Java exceptions with the same text", "statement": "When a Rust function returns Err with a message, the Java caller gets an exception whose message is this text; when it returns Ok the caller gets the converted value.", "quantifier": "every message and every value", "why_tests_cant": "messages are unbounded texts in any script", "anchors": ["macroslib/src/java_jni/jni-include.rs::jni_throw"]}
{"id": "C55", "title": "C++ iterators over Rust objects visit every element once", "statement": "Looping over a C++ vector or slice of Rust objects visits the address of each element exactly once in order; indexing, `it + n` and `it - it` agree with element positions.", "quantifier": "every address, element size, length, index and offset", "why_tests_cant": "arithmetic over all addresses and sizes", "anchors": ["macroslib/src/cpp/rust_foreign_slice_iter.hpp::RustForeignSliceIterator", "macroslib/src/cpp/rust_foreign_vec_impl.hpp"]}
{"id": "C56", "title": "Identifiers of generic aliases", "statement": "The identifier made for a generic alias (such as the C type of a vector of T) consists of identifier characters only, and different types get different identifiers.", "quantifier": "every alias expression and every pair of type texts", "why_tests_cant": "pairs of arbitrary texts cannot be enumerated", "anchors": ["macroslib/src/typemap/typemap_macro.rs::properly_escape_str_as_type", "macroslib/src/typemap/typemap_macro.rs::concat_idents", "macroslib/src/typemap/typemap_macro.rs::build_generic_aliases"]}
{"id": "C57", "title": "C functions of C++ classes do not clash", "statement": "Every method, constructor and destructor of the exported classes gets a C function, and no two of these functions have one name, so each C++ call reaches the Rust function it was generated for.", "quantifier": "every set of classes with their methods, access words and aliases", "why_tests_cant": "a clash depends on combinations of class and method names over the whole project", "anchors": ["macroslib/src/cpp/mod.rs::do_c_func_name", "macroslib/src/cpp/fclass.rs::do_generate"]}
{"id": "C58", "title": "Generated foreign files do not overwrite each other", "statement": "Different exported classes, enums and interfaces are written to different files, and none of them to a file the generator needs for itself.", "quantifier": "every set of declarations", "why_tests_cant": "a clash depends on combinations of names over the whole project", "anchors": ["macroslib/src/cpp/cpp_code.rs::cpp_header_name", "macroslib/src/cpp/fclass.rs::do_generate", "macroslib/src/java_jni/mod.rs"]}
{"id": "C59", "title": "A generic foreign_typemap! rule is used exactly for its instances", "statement": "A generic rule is used for a type only if the type is an instance of the rule's Rust type for the asked direction and every trait the rule asks for, in the angle brackets or after where, is known of the type argument; of several rules the first such is used.", "quantifier": "every set of generic rules, every type, both directions, both back ends, every set of known traits", "why_tests_cant": "rules are written by users of the library; the choice depends on all of them and on the traits noted so far", "anchors": ["macroslib/src/typemap/typemap_macro.rs::is_ty_subst_of_my_generic_rtype", "macroslib/src/java_jni/map_type.rs::do_map_type", "macroslib/src/java_jni/map_type.rs::is_ty_implement_traits", "macroslib/src/cpp/map_type.rs::do_map_type"]}
{"id": "C60", "title": "The concrete rule is the generic rule with its parameters put in", "statement": "The rule made from a generic foreign_typemap! rule for a type consists of the parts of the generic rule for that direction: each type, type name, module name and piece of code is the generic one with type parameters and macro calls replaced by what they stand for, nothing else changed, in the same order, modules listed once.", "quantifier": "every generic rule, every list of type arguments, every behaviour of the back end that answers swig_i_type! and swig_f_type!", "why_tests_cant": "the texts and types of rules are arbitrary and macros nest with answers which themselves come from other rules", "anchors": ["macroslib/src/typemap/typemap_macro.rs::subst_generic_params", "macroslib/src/typemap/typemap_macro.rs::expand_type", "macroslib/src/typemap/typemap_macro.rs::expand_ftype_rule", "macroslib/src/typemap/typemap_macro.rs::expand_rust_code", "macroslib/src/typemap/typemap_macro.rs::expand_foreign_code", "macroslib/src/typemap/typemap_macro.rs::build_generic_aliases"]}
{"id": "C61", "title": "A call of a callback trait in Rust is one call of the C++ virtual function", "statement": "When Rust calls a function of a foreign_callback! trait whose implementation lives in C++, exactly one virtual function is called, the one declared for it, on the object that was handed over, with the arguments converted one by one in order; the converted result comes back; dropping an owned callback destroys exactly that object and dropping a lent one nothing.", "quantifier": "every callback declaration, every method, every argument list, every conversion, owned and lent objects", "why_tests_cant": "the function pointers are filled in C++ and read in Rust by position; a mismatch shows only for certain combinations of methods and names", "anchors": ["macroslib/src/cpp/finterface.rs::rust_code_generate_interface", "macroslib/src/cpp/finterface.rs::generate_for_interface"]}
{"id": "C62", "title": "Callback objects are deleted once and never used after that", "statement": "Over any history in which objects are created in C++, handed to Rust, lent to Rust, called and dropped, an object is destroyed once, by its owner, and no call reaches a destroyed object, as long as C++ keeps lent objects alive.", "quantifier": "every finite history of creations, transfers, loans, calls and drops over any number of objects", "why_tests_cant": "double deletes appear only for particular orders of transfers and drops", "anchors": ["macroslib/src/cpp/finterface.rs::rust_code_generate_interface", "macroslib/src/cpp/finterface.rs::generate_for_interface"]}
{"id": "C63", "title": "A call of a callback trait in Rust is one call of the declared Java method", "statement": "When Rust calls a function of a foreign_callback! trait implemented in Java, the method ids kept by the callback are those of the declared methods, even with overloads in the class; exactly that method runs, every argument arrives with the value and type it had, the result comes back converted, and no Java exception is left pending. Without a JNI environment nothing runs. Declarations with values that need Java code are refused.", "quantifier": "every interface, every Java class that implements it, every argument list, every conversion", "why_tests_cant": "arguments go through C's variable arguments and ids are looked up by name and signature strings: errors show only for certain types and overloads", "anchors": ["macroslib/src/java_jni/finterface.rs::generate_interface", "macroslib/src/java_jni/finterface.rs::find_suitable_ftypes_for_interace_methods", "macroslib/src/java_jni/finterface.rs::convert_args_for_variadic_function_call"]}
{"id": "C64", "title": "map_type answers with the rule of the foreign type found, and with nothing else", "statement": "When a back end accepts a Rust type in a direction, the foreign type is one the map of conversions answered with, and its rule for that direction decides the result: the name, the Rust type passed over the boundary, the converter and the modules. A converter is used only if the intermediate type maps to itself without a further converter. For Java the null annotation is the one in the name, none for primitive types, else @Nullable for an Option of one type and @NonNull otherwise. A deeper stack changes no answer that was given.", "quantifier": "every map of conversions and every behaviour of its operations, every Rust type, both directions, both back ends, every depth of recursion", "why_tests_cant": "mapping is mutually recursive with the expansion of generic rules, whose number and nesting are the user's", "anchors": ["macroslib/src/java_jni/map_type.rs::map_type", "macroslib/src/java_jni/map_type.rs::do_map_type", "macroslib/src/java_jni/map_type.rs::calc_annotation", "macroslib/src/cpp/map_type.rs::map_type", "macroslib/src/cpp/map_type.rs::do_map_type", "macroslib/src/cpp/mod.rs::CppForeignTypeInfo::try_new"]}
{"id": "C65", "title": "An accepted mapping can be converted", "statement": "After a back end accepted a Rust type, the Rust conversion code for it exists: convert_rust_types between the type and the type passed over the boundary, in the direction asked, gives code and no error, as long as no rule of a foreign type was replaced by a rule for other Rust types.", "quantifier": "every history of rules merged, types added, mappings and conversions asked for, in any order, with any generic rules, for both back ends", "why_tests_cant": "the answer comes from caches, generic rules and two different searches; whether the conversion exists depends on everything merged before", "anchors": ["macroslib/src/java_jni/map_type.rs::map_type", "macroslib/src/cpp/map_type.rs::map_type", "macroslib/src/typemap.rs::convert_rust_types", "macroslib/src/typemap.rs::map_through_conversion_to_foreign", "macroslib/src/typemap/merge.rs::merge_conv_rule"]}
{"id": "C66", "title": "Python arguments reach Rust as the declared types say", "statement": "Calling a generated Python function with values that do not fit the declared types raises TypeError and nothing happens. Otherwise the Rust function is called exactly once, with the values the Python values stand for at the declared types (the object in an instance, its clone, its Arc, the variant of a number, None or Some, the elements of a list in order), or a number that is no variant raises ValueError and nothing is called. Each argument stands for one value only.", "quantifier": "all classes and enums, all methods whose types are valid for the generated Rust, all argument values, all states of objects and locks, all Rust functions", "why_tests_cant": "types nest without bound and combine four kinds of storage with references and smart pointers; every object state and argument list is possible", "anchors": ["macroslib/src/python/mod.rs::generate_conversion_for_argument", "macroslib/src/python/mod.rs::if_exported_class_generate_argument_conversion", "macroslib/src/python/mod.rs::generate_method_code", "macroslib/src/python/mod.rs::smart_pointer"]}
{"id": "C67", "title": "Python results are what the declared result type says", "statement": "When the Rust function returns, Python gets the value its declared type says: a number, a new instance holding the object, its clone or the shared Arc, None for an empty Option or unit, a list, a tuple, or an exception with the text of the error and all its causes. Every value of the declared type comes back, all instances made before stay what they were, and all locks are as before.", "quantifier": "all result types accepted, all values of these types, all states", "why_tests_cant": "result types nest without bound and each element may create instances or throw in the middle", "anchors": ["macroslib/src/python/mod.rs::generate_conversion_for_return", "macroslib/src/python/mod.rs::if_exported_class_generate_return_conversion", "macroslib/src/python/python-include.rs::swig_collect_error_message"]}
{"id": "C68", "title": "Python enum numbers round trip", "statement": "The constants of a generated Python enum are its items in order, each with its discriminant as u32; a constant passed to Rust arrives as the variant it is named after, and a variant returned equals its constant, exactly if the discriminants differ modulo 2^32; every other number raises and no Rust function is called.", "quantifier": "all enums with any discriminants, all numbers", "why_tests_cant": "discriminants are arbitrary integers of the user", "anchors": ["macroslib/src/python/mod.rs::generate_enum", "macroslib/src/python/mod.rs::generate_conversion_for_argument"]}
{"id": "C69", "title": "Locks of Python objects", "statement": "While a Rust function runs, at most one of its arguments refers to an object kept in a mutex, and a mutable reference refers only to an object whose lock the call holds. A call in which one such object is wanted twice never returns.", "quantifier": "all methods, all instances, also different instances sharing one object, all positions of arguments", "why_tests_cant": "aliasing depends on which instances Python passes; a test shows single cases and a deadlock cannot be observed by waiting", "anchors": ["macroslib/src/python/mod.rs::generate_deref_for_mutex", "macroslib/src/python/mod.rs::generate_deref_for_arc_mutex", "macroslib/src/python/mod.rs::generate_deref_for_box"]}
{"id": "C70", "title": "What the Python back end accepts", "statement": "A method is accepted exactly if each argument type and the result type are of the supported forms, a class exactly if its constructors return its self type (bare or in a known smart pointer) and all its methods are accepted; otherwise there is an error, never a panic. Every method but a dummy constructor becomes one Python function in the order of declaration. Classes may be declared in any order; enums must come before the classes using them, and with that any order gives the same code.", "quantifier": "all lists of items, all classes, methods and nested types", "why_tests_cant": "acceptance is decided by recursion over unbounded types and over the items seen so far", "anchors": ["macroslib/src/python/mod.rs::expand_items", "macroslib/src/python/mod.rs::generate_class", "macroslib/src/python/mod.rs::generate_method_code", "macroslib/src/python/mod.rs::generate_rust_instance_field_and_methods"]}
{"id": "C71", "title": "A type map file means what its items say", "statement": "After a type map file is read, the conversion between two types is the one of the last item about this pair, each foreign type has in each direction the Rust type of the last item about it, every ordinary item is copied to the output once and in order, generic conversions and rules are kept once and in order. The file is accepted exactly if every item is right at its place, otherwise there is an error.", "quantifier": "all files as lists of items, all items, attributes and previous files, all orders in which the table of types is walked", "why_tests_cant": "files are unbounded lists of items of five kinds whose meaning depends on the items before", "anchors": ["macroslib/src/typemap/parse.rs::parse", "macroslib/src/typemap/parse.rs::handle_attrs", "macroslib/src/typemap/parse.rs::handle_my_impl", "macroslib/src/typemap/parse.rs::handle_macro", "macroslib/src/typemap/parse.rs::fill_foreign_types_map"]}
{"id": "C72", "title": "Items for another pointer width are ignored", "statement": "A conversion, conversion trait or conversion macro with #[cfg(target_pointer_width = n)] as its only condition is ignored wherever it stands if n is not the width of the target, and counts as if it had no condition otherwise.", "quantifier": "all files, all positions, all widths", "why_tests_cant": "the condition may stand on any item among any others", "anchors": ["macroslib/src/typemap/parse.rs::is_wrong_cfg_pointer_width", "macroslib/src/typemap/parse.rs::parse"]}
{"id": "C73", "title": "All type map files together: the last word counts", "statement": "After all type map files are read in order, the conversion between two types is the one of the last item, in all the files, about this pair, with the helper code it needs; each direction of a foreign type is that of the last item about it; ordinary items, generic conversions and rules kept for later are those of all files in order. The files are accepted exactly if each can be read after those before it and some type is known at the end.", "quantifier": "all lists of files, all items in them, all orders in which hash maps are walked", "why_tests_cant": "the number of files and items is unbounded, conversions of later files use traits of earlier ones, and the result must not depend on hash order", "anchors": ["macroslib/src/lib.rs::init_types_map", "macroslib/src/typemap/merge.rs::merge", "macroslib/src/typemap/parse.rs::parse"]}
{"id": "C74", "title": "A class is registered exactly if it is right and its names are free", "statement": "Registering a class for Java or C++ succeeds exactly if the class is well formed (a class without self type has no methods on objects, one with a self type has something to call), SmartPtrCopy is asked only for an Rc or Arc (for C++ also without a method clone), and none of the foreign types it introduces has a name in use; otherwise there is an error, never an abort. An accepted class takes exactly these names.", "quantifier": "all classes, all histories of types, rules, generic rules, classes, mappings and conversions before it", "why_tests_cant": "the names in use depend on everything done before, the self type, the constructors and the attributes of the class", "anchors": ["macroslib/src/java_jni/mod.rs::register_class", "macroslib/src/java_jni/map_class_self_type.rs::register_typemap_for_self_type", "macroslib/src/cpp/mod.rs::register_class", "macroslib/src/cpp/map_class_self_type.rs::register_typemap_for_self_type", "macroslib/src/types.rs::validate_class"]}
{"id": "C75", "title": "A registered class can be passed in every way", "statement": "After a class is registered, and whatever classes are registered later, its type by value is mapped in both directions, and references to it are mapped as arguments (for C++ a shared one also as result, unless the class is plain), to the foreign class, with the foreign code which makes an object of the pointer, takes the pointer away (or leaves it if the class is copied), or lends it. The type implements the traits of the class. This holds if nothing was mapped to the type before.", "quantifier": "all classes, all histories before, all lists of classes after, all types without a zero character in their names", "why_tests_cant": "the search for a mapping goes over everything registered so far, and must find exactly the new entries", "anchors": ["macroslib/src/java_jni/map_class_self_type.rs::register_main_foreign_types", "macroslib/src/cpp/map_class_self_type.rs::register_main_foreign_types", "macroslib/src/java_jni/map_type.rs::map_type", "macroslib/src/cpp/map_type.rs::map_type", "macroslib/src/typemap.rs::map_through_conversion_to_foreign"]}
{"id": "C76", "title": "Mappings with classes can be converted", "statement": "When a Rust type is mapped, in a map with any classes registered, the Rust code converting between the type and what is passed for it can be generated, except for references to a self type other than what the constructors make, and as long as no rule of a foreign type was replaced by one for other Rust types (C65).", "quantifier": "all histories including classes, all types and directions", "why_tests_cant": "conversions for classes are spread over several rules added in different places", "anchors": ["macroslib/src/java_jni/map_class_self_type.rs::register_rust_ty_conversation_rules", "macroslib/src/cpp/map_class_self_type.rs::register_rust_ty_conversation_rules", "macroslib/src/typemap.rs::convert_rust_types"]}
{"id": "C77", "title": "Generated C headers keep their shape", "statement": "Every header written for rules begins with the guard, the includes of fixed integers and the check of the pointer width; its blocks extern \"C\" are opened and closed in pairs and each C declaration is inside of one; no item is declared twice in a header; a piece of foreign code is written once per header and that of every merged rule is there, with the user's namespace put in; what was written is never changed later. This holds if no declaration was given up with an error, and if no item is declared again while its own declaration is being made.", "quantifier": "every sequence of merged rules and mapped types, generic rules with C items applied at any depth", "why_tests_cant": "declarations are written while types are mapped, which itself may write declarations and code to the same header", "anchors": ["macroslib/src/cpp/mod.rs::file_for_module", "macroslib/src/cpp/mod.rs::merge_rule", "macroslib/src/cpp/mod.rs::merge_c_types", "macroslib/src/cpp/cpp_code.rs::generate_c_type", "macroslib/src/file_cache.rs::FileWriteCache"]}
{"id": "C78", "title": "A declared C item is the Rust item", "statement": "A struct or union of define_c_type! is declared in its header with the same fields in the same order, each with the C type its Rust type is passed as without conversion, after includes of the headers of these types (not of itself); Rust gets the type, or if the user defined it a test that the layout is the same; a function is declared with its arguments in order and its result (void if none), a static as extern const; items already declared in the header are left alone; all items of a merged rule are declared.", "quantifier": "all items, fields, types and states, whatever mapping the field types writes in between", "why_tests_cant": "names of types come from the map of conversions which has arbitrary contents, and from generic rules applied on the way", "anchors": ["macroslib/src/cpp/cpp_code.rs::generate_c_type", "macroslib/src/cpp/cpp_code.rs::generate_c_type_record", "macroslib/src/cpp/map_type.rs::map_repr_c_type"]}
{"id": "C79", "title": "C records become known types", "statement": "When a struct or union of define_c_type! is registered, its type gets exactly one foreign type with the name `struct N` or `union N`, passed in both directions without conversion and bringing its header; if nothing answered for the type before, mapping it gives this. A record known under this name already is left alone, one known under another name or whose C name is taken is refused. All records of one definition are registered before the first is declared.", "quantifier": "all records, all histories before", "why_tests_cant": "what is known about a type depends on everything merged, mapped or registered before", "anchors": ["macroslib/src/cpp/mod.rs::register_c_type", "macroslib/src/typemap.rs::find_foreigner_type_with_same_rust_type"]}
{"id": "C80", "title": "A typemap rule is read as it is written", "statement": "The parser of foreign_typemap! accepts exactly the sequences of arms of its grammar that agree with each other: at most one Rust rule in each direction, at most one list of C items, the same generics everywhere, foreign rules of a direction with different options, prefixes that begin the name, temporaries with different names, aliases and unread C items only with generics. The rule then says what the arms say: each direction with its types, code, modules, options and names, in the order written. No input can be read in two ways, and none makes the parser panic.", "quantifier": "all token sequences", "why_tests_cant": "arms can be combined in any number and order and each arm has optional parts", "anchors": ["macroslib/src/typemap/typemap_macro/parse.rs::TypeMapConvRuleInfo::parse", "macroslib/src/typemap/typemap_macro/parse.rs::parse_typemap_type_arm_param", "macroslib/src/typemap/typemap_macro/parse.rs::parse_f_type_arm", "macroslib/src/typemap/typemap_macro/parse.rs::parse_r_type_arm"]}
{"id": "C81", "title": "The variables of conversion code are replaced, nothing else", "statement": "In the code of a rule each $name that is the input variable becomes the place for the input, $out the place for the output with its declaration (in foreign code the first use declares, later ones do not), $out_no_type the place for a declaration without type, temporaries stay to be renamed when the code is used, and all other text is unchanged. Code of a Rust rule that does not use input and output is refused.", "quantifier": "all code texts, all variable names", "why_tests_cant": "variables may stand anywhere in the text and their names may begin alike", "anchors": ["macroslib/src/typemap/typemap_macro/parse.rs::convert_foreign_code", "macroslib/src/typemap/typemap_macro/parse.rs::convert_code"]}
{"id": "C83", "title": "No two items of an accepted run have the same name or file", "statement": "When the generator accepts a list of classes, enums and callbacks, their names are pairwise different, none of them was already the name of a foreign type, and no output file is written for two of them.", "quantifier": "all lists of items in any order, all states of the type map, all earlier histories", "why_tests_cant": "a name may be taken by any earlier item, any merged rule or any foreign type made on demand while signatures are mapped", "anchors": ["macroslib/src/java_jni/mod.rs::expand_items", "macroslib/src/cpp/mod.rs::expand_items", "macroslib/src/java_jni/fenum.rs::generate_enum", "macroslib/src/java_jni/finterface.rs::generate_interface", "macroslib/src/cpp/fenum.rs::generate_enum", "macroslib/src/cpp/finterface.rs::generate_interface", "macroslib/src/typemap/ty.rs::ForeignTypesStorage"]}
{"id": "C82", "title": "An enum is accepted unless its name is taken, and its type can be passed both ways", "statement": "In a map that knows jint (Java), foreign_enum! is accepted exactly if the enum has fewer than i32::MAX (Java) or u32::MAX (C++) items and no foreign type has its name; it takes that one name and nothing else. Afterwards, if nothing was mapped to the type before and jint / u32 are mapped as they are, its type maps to the enum class and is passed as jint / u32: given out with fromInt / static_cast, taken in with getValue / static_cast<uint32_t>. Classes and enums registered later do not change that. A type not known before gets exactly the trait generic rules recognise enums by, and for Java converts to jobject, so that callbacks can take it.", "quantifier": "every enum, every history of the map made of merged rules, conversions, mappings, classes and enums, both directions, every depth of nesting above 1, every oracle order", "why_tests_cant": "Tests register one enum on the bundled map; the claim ranges over arbitrary maps, over what was registered before and after, and over enums of any size.", "anchors": ["macroslib/src/java_jni/fenum.rs::generate_enum", "macroslib/src/cpp/fenum.rs::generate_enum", "macroslib/src/java_jni/fenum.rs::add_conversion_from_enum_to_jobject_for_callbacks", "macroslib/src/typemap.rs::alloc_foreign_type"]}
{"id": "C84", "title": "The file of an enum says what the enum says, whatever its documentation says", "statement": "The Java, C++ and C file written for foreign_enum! reads (comments removed as each language removes them) as exactly one declaration of that enum: its package or namespace, its name, every item in order with its number, and for Java the switch which returns each item for its number. Documentation never becomes code and never hides code.", "quantifier": "every package and namespace, every name, every list of items of any length, every documentation text", "why_tests_cant": "documentation is arbitrary text pasted into comments; a test compiles a few harmless comments", "anchors": ["macroslib/src/java_jni/fenum.rs::generate_java_code_for_enum", "macroslib/src/java_jni/java_code.rs::doc_comments_to_java_comments", "macroslib/src/cpp/fenum.rs::generate_cpp_code_for_enum", "macroslib/src/cpp/fenum.rs::generate_c_code_for_enum", "macroslib/src/cpp/cpp_code.rs::doc_comments_to_c_comments"]}
{"id": "C85", "title": "The Java file of a class declares the class, and the native functions the Rust side exports", "statement": "The Java file of foreign_class! reads as one declaration of the class: its package, the imports of the annotations used, for each declared method, in order, the method users call with its access, name, types and parameters and throws clause and a body with balanced braces, and its native function; then delete, finalize and the pointer for classes with objects, and a private constructor for classes without. The native functions are exactly those exported by the Rust side, with the same names and parameter types. Documentation changes nothing.", "quantifier": "every class, every list of methods of all kinds, every signature, with and without conversions, both kinds of fences, every documentation text", "why_tests_cant": "the file is pasted together from templates, names, types and conversion code; tests compile some classes", "anchors": ["macroslib/src/java_jni/fclass.rs::generate_java_code", "macroslib/src/java_jni/fclass.rs::calc_output_conv", "macroslib/src/java_jni/fclass.rs::convert_code_for_method", "macroslib/src/java_jni/java_code.rs::args_with_java_types", "macroslib/src/java_jni/mod.rs::method_name"]}
{"id": "C86", "title": "Null annotations used in Java files are imported", "statement": "If a package of null annotations is configured, every NonNull or Nullable annotation in a signature of a Java file, written by the generator or part of a type of the type map, is imported in that file, and parameters of unannotated reference types get Nullable for Option and NonNull otherwise. If none is configured, the generator adds neither annotations nor imports.", "quantifier": "every list of methods, every type name and converter a type map can give", "why_tests_cant": "type names come from user type maps; tests use the bundled ones", "anchors": ["macroslib/src/java_jni/java_code.rs::get_null_annotation_imports", "macroslib/src/java_jni/java_code.rs::args_with_java_types", "macroslib/src/java_jni/map_type.rs::type_annotation", "macroslib/src/java_jni/map_type.rs::map_type"]}
{"id": "C87", "title": "The Java interface of a callback can be implemented as it is written", "statement": "The Java file of foreign_callback! reads as one public interface with its package, the imports of the annotations used and, for every function of the trait in order, one abstract method with its name, result, types and parameters, and nothing else. Every class that implements these methods, as written in the file, can be given to Rust: each look-up of a method id by name and signature succeeds and finds the method declared for that function. Documentation changes nothing.", "quantifier": "every callback, every list of methods with any signature the generator accepts, every class that implements the interface with further methods in any order, every documentation text", "why_tests_cant": "the declarations users implement and the signatures used for the look-up come from two different pieces of code; tests run a few callbacks", "anchors": ["macroslib/src/java_jni/finterface.rs::generate_java_code_for_interface", "macroslib/src/java_jni/finterface.rs::generate_rust_code_for_interface", "macroslib/src/java_jni/java_code.rs::args_with_java_types", "macroslib/src/java_jni/rust_code.rs::jni_method_signature"]}
{"id": "C88", "title": "The C header of a class declares the functions that the generated Rust code defines", "statement": "The C header of a class reads, in C, as: once only, the check of the size of a pointer and the C linkage for C++, the opaque struct if the class has objects, and then for every exported function exactly one declaration with its name, its result and its parameters: the static functions, the methods with the pointer of the object first (const exactly for &self), the constructors with a result that is the pointer, the copy of a shared class, the release of an object. Their names are, in some order, the symbols that the Rust code defines, and each has the number of parameters of its definition. Documentation changes nothing.", "quantifier": "every class, every list of methods with any names, accesses, argument names and types, every documentation text, every pointer width", "why_tests_cant": "declarations and definitions are made by separate pieces of code from the same signatures, for any class; tests compile a few classes", "anchors": ["macroslib/src/cpp/fclass.rs::generate_c_header_preamble", "macroslib/src/cpp/fclass.rs::do_generate", "macroslib/src/cpp/cpp_code.rs::c_generate_args_with_types", "macroslib/src/cpp/cpp_code.rs::c_func_name"]}
{"id": "C89", "title": "The C++ header of a class has the declared methods, and they call the C functions", "statement": "If the generator accepts a class, its C++ header reads, in C++, as a class with: the declared methods in their order, each under the access it was declared with, static or const as declared, noexcept, with its C++ types and names; the members for objects (move, copy or deleted copy, adoption and release of the pointer, destructor) that call the C functions for copy and release; the code of the user, once; and nothing else. Every method has one definition that calls its C function, with the pointer of the object for a method, and gives its result back. With separate definitions the header has none and the other file has them. The forward header declares the same class or templates. Documentation changes nothing.", "quantifier": "every class with or without reference objects, every list of methods, arguments with and without converters, results that are arguments, namespaces, includes, documentation texts, one file or two", "why_tests_cant": "texts for declarations, definitions, access labels and converters are joined in a loop over any class; tests compile a few classes", "anchors": ["macroslib/src/cpp/fclass.rs::generate", "macroslib/src/cpp/fclass.rs::do_generate", "macroslib/src/cpp/fclass.rs::generate_cpp_header_preamble", "macroslib/src/cpp/fclass.rs::generate_copy_stuff", "macroslib/src/cpp/cpp_code.rs::cpp_generate_args_with_types", "macroslib/src/cpp/cpp_code.rs::convert_args"]}
{"id": "C90", "title": "The C and C++ headers of a callback declare the struct of functions and the class to derive from", "statement": "The C header of a foreign_callback! reads, whatever its documentation says, as one struct: the pointer to the object, the pointer to the function that ends it, and for each declared method, in order, a pointer to a function with its C result, its C parameters and the object last. The C++ header reads as one class: public and virtual, a destructor and each declared method, pure, const as declared, with its C++ types; two functions that fill the struct for an object that is given or lent, every field exactly once; not public, the function that deletes the object and for each method a function that gets the object as its last argument, converts the other arguments in order, calls that virtual method and gives its result back, converted. Names made up in it differ from the names of the arguments.", "quantifier": "every callback, every list of methods, arguments and results with and without converters, every names of arguments, namespaces, includes, documentation texts", "why_tests_cant": "the texts are joined in one loop over the methods into four buffers; tests compile a few callbacks", "anchors": ["macroslib/src/cpp/finterface.rs::cpp_code_generate_interface", "macroslib/src/cpp/finterface.rs::c_interface_header", "macroslib/src/cpp/cpp_code.rs::c_generate_args_with_types", "macroslib/src/cpp/cpp_code.rs::cpp_generate_args_with_types", "macroslib/src/cpp/cpp_code.rs::convert_args"]}
{"id": "C91", "title": "Results made of values reach C++ as the same values", "statement": "A Rust result built from pairs, triples, Option and Result, nested in any way, arrives in C++ as the same value: pairs and tuples with the same parts at the same places, an optional that is set exactly for Some, a variant with the alternative of the case, an error exactly for Err; every part without parts is converted once by the conversions of its type. No member of a union is read that was not written, and the generated code compiles.", "quantifier": "every type built from types without parts by pairs, triples, Option, Result<(), E> and Result<T, E>, at any depth, every value of it, every conversions of the parts", "why_tests_cant": "the code of a nested type is put together by expanding macros inside rules; tests have a handful of types, none with a tuple behind another value in a tuple", "anchors": ["macroslib/src/cpp/cpp-include.rs", "macroslib/src/typemap/typemap_macro.rs::expand_rust_code", "macroslib/src/typemap/typemap_macro.rs::expand_foreign_code", "macroslib/src/typemap.rs::convert_rust_types", "macroslib/src/cpp/map_type.rs::swig_from_rust_to_i_type"]}
{"id": "C92", "title": "Arguments made of values reach Rust as the same values", "statement": "A C++ argument built from pairs, tuples, optionals and variants arrives in Rust as the same value of the declared type, whatever the name of the argument; together with C91: a value sent to C++ and given back is the value sent.", "quantifier": "every type as in C91, every value, every name of the argument", "why_tests_cant": "as C91; names of arguments can meet names used in the generated code", "anchors": ["macroslib/src/cpp/cpp-include.rs", "macroslib/src/typemap/typemap_macro.rs::expand_rust_code", "macroslib/src/cpp/map_type.rs::swig_from_i_type_to_rust", "macroslib/src/cpp/map_type.rs::swig_foreign_to_i_type"]}
{"id": "C93", "title": "Arguments are converted independently", "statement": "The user's function is called with each argument converted from what the C++ caller gave for it: the code that converts one argument does not change another one.", "quantifier": "every list of arguments with different names and types as in C91, every values", "why_tests_cant": "the conversions share one scope, so names written in conversion rules can hide the user's names", "anchors": ["macroslib/src/typemap/utils.rs::foreign_to_rust_convert_method_inputs", "macroslib/src/cpp/cpp-include.rs", "macroslib/src/cpp/cpp_code.rs::convert_args"]}
{"id": "C94", "title": "Objects made for Java need a bounded number of references", "statement": "Strings, objects of classes, vectors of either, slices of numbers and optional numbers given to Java become exactly one new reference to a new Java object with these contents, in order, each Rust object in a box of its own; two free local references suffice however long the vector is, and nothing that existed before changes. If a JNI function fails the program stops, leaving at most two references more; no JNI function is ever called while an exception is pending, and no null or deleted reference is used.", "quantifier": "every vector of fewer than 2^31 elements, every state of the JVM, every pattern of failing JNI functions", "why_tests_cant": "tests run with short vectors, JVMs with large reference tables, and no failures", "anchors": ["macroslib/src/java_jni/jni-include.rs::vec_string_to_jobject_array", "macroslib/src/java_jni/jni-include.rs::vec_of_objects_to_jobject_array", "macroslib/src/java_jni/jni-include.rs::object_to_jobject", "macroslib/src/java_jni/jni-include.rs::define_array_handling_code", "macroslib/src/java_jni/jni-include.rs::to_java_util_optional_long"]}
{"id": "C95", "title": "Reading Java objects leaves nothing behind", "statement": "A Java string, array of objects, array of numbers or boxed number given to Rust arrives with its contents; the characters or elements taken from the JVM are given back, also when the conversion or the user's function panics, and no local reference is left, whatever the length.", "quantifier": "every string, every array, every function that gets the slice, every state of the JVM", "why_tests_cant": "a leaked buffer or reference shows after many calls only; failing JNI functions are not tested", "anchors": ["macroslib/src/java_jni/jni-include.rs::JavaUTF16Slice", "macroslib/src/java_jni/jni-include.rs::from_jstring_std_string", "macroslib/src/java_jni/jni-include.rs::jobject_array_to_vec_of_objects", "macroslib/src/java_jni/jni-include.rs::define_array_handling_code", "macroslib/src/java_jni/jni-include.rs::from_java_lang_long_to_rust"]}
{"id": "C96", "title": "Calling Java from Rust with objects", "statement": "A method of a callback with a string calls the Java method once with this string, catches what it throws, and can be called any number of times within one native method.", "quantifier": "every string, every behaviour of the Java method, every number of calls, every state of the JVM", "why_tests_cant": "the references left by each call are freed when the native method ends, so only long loops show them", "anchors": ["macroslib/src/java_jni/finterface.rs::generate_rust_code_for_interface", "macroslib/src/java_jni/jni-include.rs::from_std_str_jstring"]}
{"id": "C97", "title": "Error messages show the place of the error", "statement": "Whatever error is found in the input, all errors are printed in order, each under the name of its source, with the lines of source its span touches and carets under exactly the characters of the span; printing them never panics itself. A source registered once is found by its id, and a name cannot be registered twice.", "quantifier": "every source text in any script, every span of code, every list of errors and sources", "why_tests_cant": "the messages go to stderr just before a panic and no test looks at them; spans over several lines, empty lines and non-ASCII text are rare", "anchors": ["macroslib/src/error.rs::eprint_error_location", "macroslib/src/error.rs::panic_on_parse_error", "macroslib/src/source_registry.rs::SourceRegistry"]}
{"id": "C98", "title": "Objects in a Mutex: calls are atomic", "statement": "If objects of classes made as Arc<Mutex<T>> are used from several threads, then whatever the interleaving each method is executed as if alone: results and contents are those of calling the methods one after the other, each thread's in its order.", "quantifier": "every number of threads and calls, every method, every schedule", "why_tests_cant": "tests run few interleavings", "anchors": ["macroslib/src/java_jni/jni-include.rs::MutexGuard", "macroslib/src/cpp/cpp-include.rs::MutexGuard", "macroslib/src/java_jni/fclass.rs::generate_method", "macroslib/src/cpp/fclass.rs::generate_method", "macroslib/src/typemap/utils.rs::foreign_to_rust_convert_method_inputs"]}
{"id": "C99", "title": "Objects in a Mutex: every call returns", "statement": "Calling methods of objects of classes made as Arc<Mutex<T>>, with such objects as arguments, from several threads never ends in a deadlock: each call returns after finitely many steps.", "quantifier": "every number of threads and calls, every method, every schedule", "why_tests_cant": "a deadlock needs two threads at just the right time, or the same object twice", "anchors": ["macroslib/src/java_jni/jni-include.rs::MutexGuard", "macroslib/src/cpp/cpp-include.rs::MutexGuard", "macroslib/src/java_jni/fclass.rs::generate_method", "macroslib/src/cpp/fclass.rs::generate_method"]}
{"id": "C100", "title": "Objects in a RefCell: borrows", "statement": "If classes are made as Rc<RefCell<T>>, a method succeeds exactly if none of the objects it or the methods called within it need is already in use in a conflicting way (one changes it, or it is to be changed); afterwards every object is free again.", "quantifier": "every method, every list of arguments, every tree of calls through callbacks, of any depth", "why_tests_cant": "a conflict panics only for particular combinations of objects", "anchors": ["macroslib/src/java_jni/jni-include.rs::RefMut", "macroslib/src/cpp/cpp-include.rs::RefMut", "macroslib/src/java_jni/fclass.rs::generate_method", "macroslib/src/cpp/fclass.rs::generate_method"]}
{"id": "C101", "title": "Slices between Rust and C++ show the same elements", "statement": "A slice of plain values given between Rust and C++ shows the elements of the buffer: C++ reads, in order, exactly the elements at the time of reading, changes on either side are seen on the other at the same index, and nothing else changes.", "quantifier": "every program of creating, moving, indexing, changing, iterating over and passing slices, every buffer and length", "why_tests_cant": "slices that overlap, are moved between variables or have no buffer are rarely used in tests, and undefined behaviour may go unnoticed", "anchors": ["macroslib/src/cpp/cpp-include.rs::CRustSlice", "macroslib/src/cpp/cpp-include.rs::CRustSliceMut", "macroslib/src/cpp/rust_slice_tmpl.hpp::RustSlice"]}
{"id": "C102", "title": "No attribute of a declaration is lost", "statement": "Each attribute of a class, its methods, an enum, its items, a callback or its methods is either documentation, which is kept in order with its declaration, or a derive or method attribute that the generator knows or that calls the extension registered for it, exactly once and in order, or else an error.", "quantifier": "every declaration with any number of attributes, every set of extensions", "why_tests_cant": "combinations of attributes and places are unbounded, and an attribute that is ignored shows nothing", "anchors": ["macroslib/src/code_parse.rs::parse_attrs", "macroslib/src/code_parse.rs::parse_doc_comments", "macroslib/src/code_parse.rs::do_parse_foreigner_class", "macroslib/src/extension.rs::extend_foreign_class", "macroslib/src/extension.rs::extend_foreign_enum", "macroslib/src/java_jni/fenum.rs::generate_enum", "macroslib/src/python/mod.rs::generate_class"]}
{"id": "C103", "title": "Optional objects cross the Java boundary unchanged", "statement": "An optional argument (Option<T> or Option<&T>) of a class reaches Rust as the value of the Java object, and as None exactly if Java gives null; an optional result reaches Java as an object of the value, or as an empty Optional. Every value is owned by exactly one Java object until it is deleted or given away, and freed then.", "quantifier": "every program of creating, deleting and passing objects, every number of arguments, every allocator", "why_tests_cant": "histories of objects and combinations of arguments are unbounded", "anchors": ["macroslib/src/java_jni/jni-include.rs::foreign_typemap Option<T>, Option<&T>", "macroslib/src/java_jni/fclass.rs::generate_java_code"]}
{"id": "C104", "title": "The fence against the garbage collector is complete", "statement": "Every generated Java method keeps each object, out of which it took a value for the native function, alive until this function has returned: with the generated class by one call of a function of JNIReachabilityFence with exactly these objects in order, which the generated file declares with that many parameters and the Rust side exports; with the standard class by one call for each. A method with more such objects than the limit is refused, and none is refused otherwise.", "quantifier": "every signature, all names of arguments, every limit", "why_tests_cant": "arity and limit are unbounded; a fence that is missing shows only under a garbage collection in the middle of a call", "anchors": ["macroslib/src/java_jni/mod.rs::init", "macroslib/src/java_jni/fclass.rs::convert_code_for_method"]}
{"id": "C105", "title": "References to C++ objects reach Rust as these objects", "statement": "A function of Rust with parameters &T, &mut T, Option<&T> and Option<&mut T>, called from C++, sees the values of the objects given, and None exactly for a null pointer; the objects given to mutable parameters have the values the function leaves in them, for C++ and for all later calls, and no other object changes; moving an object moves its value; nothing is undefined.", "quantifier": "every program of creating, moving, destroying and passing objects, every number of arguments, every function, every allocator", "why_tests_cant": "histories of objects and combinations of arguments are unbounded; aliasing shows only in optimised code", "anchors": ["macroslib/src/cpp/cpp-include.rs::foreign_typemap Option<&T>, Option<&mut T>", "macroslib/src/cpp/map_class_self_type.rs::register_rust_ty_conversion_rules", "macroslib/src/cpp/fclass.rs::generate"]}
