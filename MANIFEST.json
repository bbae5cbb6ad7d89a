{
 "claims": [
  {
   "property": "C01",
   "status": "proved",
   "theorems": [
    "C01_checked_conversions_exact_or_rejected",
    "C01_helpers_cover_all_lossy_pairs"
   ],
   "note": "All nine helpers, all values."
  },
  {
   "property": "C02",
   "status": "partial",
   "theorems": [
    "C02_generated_casts_exact_partial",
    "C02_representable_values_survive",
    "C02_generated_casts_exact_refuted",
    "C02_every_other_narrowing_cast_loses",
    "C02_kind_names_round_trip",
    "C02_kinds_have_the_go_type_of_their_range"
   ],
   "note": "True for int32/int64/uint32/uint64 and widening pairs; refuted for every narrowing pair with sint/fixed/sfixed/enum kinds (castValidationNumberMap has no row for them)."
  },
  {
   "property": "C03",
   "status": "proved",
   "theorems": [
    "C03_evaluation_waits_for_dependencies",
    "C03_success_means_everything_was_evaluated",
    "C03_evaluation_never_deadlocks",
    "C03_evaluation_terminates"
   ],
   "note": "All plans, schedules and outcomes; names unique as the resolver enforces."
  },
  {
   "property": "C04",
   "status": "partial",
   "theorems": [
    "C04_plan_covers_exactly_the_definitions_partial",
    "C04_plan_covers_exactly_the_definitions_refuted",
    "C04_self_reference_is_never_evaluated",
    "C04_single_self_reference_yields_no_plan",
    "C04_plan_building_may_not_terminate"
   ],
   "note": "Proved for definition lists without self reference; refuted for self references (silently dropped, or the plan builder recurses forever)."
  },
  {
   "property": "C05",
   "status": "proved",
   "theorems": [
    "C05_edges_are_the_dependencies",
    "C05_edges_never_point_backwards"
   ],
   "note": "Edges characterised exactly for every definition list."
  },
  {
   "property": "C06",
   "status": "partial",
   "theorems": [
    "C06_reported_iff_cycle_below_a_root",
    "C06_no_false_alarm",
    "C06_cycles_are_reported_partial",
    "C06_cycles_are_reported_refuted"
   ],
   "note": "No false alarms; cycles reachable from a root are reported; rootless cycles are refuted."
  },
  {
   "property": "C07",
   "status": "partial",
   "theorems": [
    "C07_evaluations_never_overlap",
    "C07_callers_obtain_an_outcome_of_the_definition",
    "C07_no_evaluation_after_a_recorded_outcome",
    "C07_evaluated_at_most_once_partial",
    "C07_evaluated_at_most_once_per_call",
    "C07_evaluated_at_most_once_refuted"
   ],
   "note": "At-most-once is refuted (cache miss before, single-flight entry after another evaluation); everything else proved for all schedules."
  },
  {
   "property": "C08",
   "status": "proved",
   "theorems": [
    "C08_false_condition_sets_zero",
    "C08_failing_condition_is_reported",
    "C08_true_condition_sets_the_value",
    "C08_body_runs_only_when_condition_is_true"
   ],
   "note": "Arbitrary conditions, bodies and setters; slice aliasing of the declarations modelled."
  },
  {
   "property": "C09",
   "status": "proved",
   "theorems": [
    "C09_map_evaluates_elements_in_order",
    "C09_one_result_per_element",
    "C09_first_failure_stops",
    "C09_evaluation_is_determined",
    "C09_map_definition"
   ],
   "note": "Any source list and iterator; surrounding declarations shown untouched under slice aliasing."
  },
  {
   "property": "C10",
   "status": "proved",
   "theorems": [
    "C10_retry",
    "C10_bounded_retry_ends",
    "C10_outcome_unique",
    "C10_zero_is_unbounded",
    "C10_success_is_not_retried",
    "C10_default_bound"
   ],
   "note": "Outcomes of calls and conditions, the context and the base back-off policy are arbitrary streams."
  },
  {
   "property": "C11",
   "status": "proved",
   "theorems": [
    "C11_outcome",
    "C11_returns_once",
    "C11_does_not_wait",
    "C11_no_leaked_goroutine",
    "C11_deadline_means_timeout_refuted"
   ],
   "note": "All interleavings of a state machine. Also shown: a cancelled parent context gives DEADLINE_EXCEEDED too."
  },
  {
   "property": "C12",
   "status": "proved",
   "theorems": [
    "C12_first_rule_that_does_not_pass",
    "C12_no_match_returns_the_original_error",
    "C12_ignore",
    "C12_ignore_and_response",
    "C12_matching_rule_decides_the_status",
    "C12_failed_handling_returns_the_original_error"
   ],
   "note": "Any rule list, error, expression outcomes and evaluation state; default error handler. A failing ignore_and_response expression gives a nil response (only logged)."
  },
  {
   "property": "C13",
   "status": "partial",
   "theorems": [
    "C13_success_needs_ignore_partial",
    "C13_success_needs_ignore_refuted"
   ],
   "note": "Refuted: a rule without code applied to an error without gRPC status (or a rule with code OK) yields success. The partial theorem characterises all successes."
  },
  {
   "property": "C14",
   "status": "partial",
   "theorems": [
    "C14_rules_see_their_own_error_partial",
    "C14_rules_see_their_own_error_refuted",
    "C14_stale_error_refuted"
   ],
   "note": "Refuted for concurrently failing calls (one shared variable) and for errors without status (stale value); proved for calls with a status handled one after the other."
  },
  {
   "property": "C15",
   "status": "proved",
   "theorems": [
    "C15_error_variable_classifies_details",
    "C15_only_unencodable_details_are_dropped",
    "C15_errors_with_a_status",
    "C15_wrapping_keeps_code_and_details"
   ],
   "note": "Details whose type is unknown to the binary do not decode and are skipped, as the status library hands out an error instead of a message for them."
  },
  {
   "property": "C16",
   "status": "partial",
   "theorems": [
    "C16_validation_fails_iff_partial",
    "C16_failure_carries_the_status",
    "C16_evaluation_error_is_reported",
    "C16_cases_are_exhaustive",
    "C16_validation_fails_iff_refuted"
   ],
   "note": "Refuted for code OK (condition true, validation succeeds); proved for every other code."
  },
  {
   "property": "C17",
   "status": "partial",
   "theorems": [
    "C17_ends",
    "C17_rewrites_exactly_null_comparisons_partial",
    "C17_fresh_ids",
    "C17_idempotent",
    "C17_meaning_partial",
    "C17_no_comparison_left",
    "C17_everywhere_refuted",
    "C17_evaluable_without_comprehension",
    "C17_evaluable_refuted"
   ],
   "note": "Refuted for keys of map literals, which are not visited; proved everywhere else, including the meaning of the result. Also refuted: an expression with both a null comparison and a comprehension can be evaluated (the changed tree cannot be printed)."
  },
  {
   "property": "C18",
   "status": "partial",
   "theorems": [
    "C18_placeholder_partial",
    "C18_placeholder_refuted",
    "C18_substituted_once"
   ],
   "note": "Refuted: a dollar sign in a string literal is replaced too; the substitution is characterised exactly."
  },
  {
   "property": "C19",
   "status": "partial",
   "theorems": [
    "C19_call_partial",
    "C19_metadata",
    "C19_service_codec_round_trip",
    "C19_arguments_refuted",
    "C19_opaque_types_fail",
    "C19_wrapper_results_are_lost",
    "C19_results_refuted",
    "C19_errors_refuted",
    "C19_enum_arguments_wrap",
    "C19_nested_lists_refuted",
    "C19_enum_results_do_not_compile",
    "C19_declared_types"
   ],
   "note": "A whole call is proved for all declared types but well-known messages and maps, and errors with a text. Refuted: Duration and other well-known messages never arrive, wrapper results arrive as zero, an error with empty text arrives as a zero value, declared lists of lists are resolved to lists. protojson and proto.Marshal are taken to be faithful."
  },
  {
   "property": "C20",
   "status": "partial",
   "theorems": [
    "C20_own_response",
    "C20_serialised",
    "C20_closed_calls_fail",
    "C20_closed_stays",
    "C20_calls_end_while_the_plugin_lives",
    "C20_no_deadlock_partial",
    "C20_no_hang_refuted",
    "C20_everything_hangs_after"
   ],
   "note": "Own responses, serialisation and errors after Close proved for all interleavings. Refuted: after a plugin dies while a call waits for its response, the next operation hangs and holds the lock for ever."
  },
  {
   "property": "C21",
   "status": "partial",
   "theorems": [
    "C21_panic_free_partial",
    "C21_second_close_panics_refuted",
    "C21_gc_after_close_panics_refuted",
    "C21_panics_after_close",
    "C21_gc_never_blocks"
   ],
   "note": "Refuted: a second Close, and GC after Close, panic; these are proved to be the only ways."
  },
  {
   "property": "C22",
   "status": "partial",
   "theorems": [
    "C22_selection",
    "C22_condition_fails",
    "C22_value_fails",
    "C22_mixed_refuted"
   ],
   "note": "Proved for every accepted message. Refuted that accepted messages always give code that compiles: a oneof that mixes automatically bound members and members with rules does not."
  },
  {
   "property": "C23",
   "status": "partial",
   "theorems": [
    "C23_forward",
    "C23_backward",
    "C23_round_trip",
    "C23_default_rejected",
    "C23_ambiguous_partial",
    "C23_ambiguous_refuted",
    "C23_backward_refuted"
   ],
   "note": "Proved for enums with unambiguous aliases. Refuted that ambiguous aliases are always rejected (two aliases for one value in the same dependency enum), and that a conversion into an enum that has aliases of its own to a third enum follows the aliases of the source."
  },
  {
   "property": "C24",
   "status": "proved",
   "theorems": [
    "C24_result_is_converted",
    "C24_fails_iff_part_fails",
    "C24_never_stuck",
    "C24_fields",
    "C24_nil",
    "C24_lists",
    "C24_map_keys",
    "C24_back_refuted"
   ],
   "note": "For conversions that can be written in Go: members of oneofs are different messages, and all enum conversions used have a table. If keys of a map are narrowed they may collide; the theorem on keys says when they do not. C24_back_refuted is a finding outside the statement: the way back does not follow aliases."
  },
  {
   "property": "C25",
   "status": "partial",
   "theorems": [
    "C25_sort_partial",
    "C25_sort_permutes",
    "C25_sort_refuted",
    "C25_first",
    "C25_first_evaluates_all",
    "C25_reduce",
    "C25_flatten"
   ],
   "note": "Ordering refuted for keys that do not compare (NaN); proved for comparable keys; sort.Slice by its contract."
  },
  {
   "property": "C26",
   "status": "partial",
   "theorems": [
    "C26_full_names",
    "C26_only_the_named",
    "C26_methods",
    "C26_methods_only",
    "C26_local_partial",
    "C26_local_simple_partial",
    "C26_local_refuted",
    "C26_history_refuted",
    "C26_no_package_refuted"
   ],
   "note": "Proved for messages, enums and methods, by full name and within the package, after any history of resolutions. Refuted: a package named like an outer message hides its nested messages; a name below the current package is only found if it happened to be resolved before; files without a package do not work."
  },
  {
   "property": "C27",
   "status": "partial",
   "theorems": [
    "C27_distinct",
    "C27_identifiers",
    "C27_kept",
    "C27_chosen",
    "C27_refuted",
    "C27_accepts_partial",
    "C27_accepts_refuted"
   ],
   "note": "Proved for all definitions at any depth. Refuted for the names of error details' messages, which are not checked and can be shared. Also refuted that valid distinct names are always accepted: names chosen for definitions without a name clash between two errors of one call and between two oneof cases."
  },
  {
   "property": "C28",
   "status": "partial",
   "theorems": [
    "C28_bound",
    "C28_ambiguous",
    "C28_unoffered",
    "C28_accepted",
    "C28_list_refuted",
    "C28_incompatible_candidate"
   ],
   "note": "Proved for all messages without alias and custom resolver. A second candidate of an unsuitable type is an error as well. Refuted that the code always compiles (lists and maps)."
  },
  {
   "property": "C29",
   "status": "partial",
   "theorems": [
    "C29_variables_are_evaluated_before_use_partial",
    "C29_names_are_the_names_read",
    "C29_retry_condition_refuted",
    "C29_request_field_condition_refuted",
    "C29_error_message_refuted",
    "C29_error_response_refuted",
    "C29_enum_in_map_refuted",
    "C29_iterator_named_like_its_source_refuted"
   ],
   "note": "Proved under every schedule for all expressions of a definition, including those nested in its error rules and details, except five kinds. Refuted, with a run, for each of these: conditions of retries and of request fields, messages and ignore_and_response of errors, and enums in maps; and for an iterator named like its source."
  },
  {
   "property": "C30",
   "status": "partial",
   "theorems": [
    "C30_always_chosen",
    "C30_imported_once",
    "C30_names_are_distinct_partial",
    "C30_names_resolve_partial",
    "C30_unique_names_partial",
    "C30_three_packages_refuted",
    "C30_numbered_package_refuted",
    "C30_own_names_refuted",
    "C30_two_files_refuted",
    "C30_client_refuted",
    "C30_own_service_refuted"
   ],
   "note": "A name is always found and no package is imported twice. Names are distinct and resolve under stated conditions on the packages' names, and each condition is shown necessary by a refutation: three packages of one name, a package named post1, a package named trace, a package with two proto files, a service in a package of its own, a call to a service of the own package."
  },
  {
   "property": "C31",
   "status": "proved",
   "theorems": [
    "C31_every_expression_has_its_own_index",
    "C31_programs_are_never_mixed_up",
    "C31_cache_is_invisible"
   ],
   "note": "Every template position with an expression gets its own non-zero index, and however evaluations interleave, the program used for an expression was compiled from that expression at that position. Which templates evaluate which expression is transcribed; the bodies of the templates around them are not modelled."
  },
  {
   "property": "C32",
   "status": "partial",
   "theorems": [
    "C32_contexts_partial",
    "C32_names_used",
    "C32_plans",
    "C32_refuted"
   ],
   "note": "Proved for all nestings of groups, calls, error rules, details, validations and oneof cases, if at most one error rule of a call has definitions that start a goroutine group. Refuted with two such rules: eg and ctx1 are declared twice in one function and the code does not compile."
  },
  {
   "property": "C33",
   "status": "partial",
   "theorems": [
    "C33_incremental_equals_full_partial",
    "C33_failed_then_removed_refuted",
    "C33_imported_file_changes_refuted"
   ],
   "note": "False in full: changing an imported file does not regenerate its importers, and removing a file while it does not compile leaves its output. Proved for all histories without these two, with any failing compilations, unnoticed removals and map orders, by an invariant over cache and disk. Requires one handled event: nothing is written at the start of watch mode. Output files of different proto files are assumed distinct."
  },
  {
   "property": "C34",
   "status": "partial",
   "theorems": [
    "C34_refuted",
    "C34_only_changes_during_a_run_are_lost_partial",
    "C34_dropped_only_while_working",
    "C34_comes_to_rest",
    "C34_runs_have_causes"
   ],
   "note": "False in full: a change noticed while the generator runs is dropped and never made up for (C34_refuted). Proved for every schedule: the watcher comes to rest, and then every file is up to date unless an event for its last change was taken during a run."
  },
  {
   "property": "C35",
   "status": "partial",
   "theorems": [
    "C35_refuted",
    "C35_first_plugin_gets_requests_partial",
    "C35_one_plugin_gets_requests"
   ],
   "note": "False of the code: the reader with the request is emptied after the first plugin, so further plugins run with no input (C35_refuted). Proved: the first plugin gets every request, and exactly what the others get."
  },
  {
   "property": "C36",
   "status": "partial",
   "theorems": [
    "C36_options_are_applied_or_rejected",
    "C36_round_trip_partial",
    "C36_round_trip_refuted"
   ],
   "note": "Fully proved that a string is accepted exactly if all its parts are options that can be honoured, and that then all take effect. The round trip holds for values without comma, equals sign and colon and is refuted otherwise (plugin locations with a port are rejected)."
  },
  {
   "property": "C37",
   "status": "partial",
   "theorems": [
    "C37_shared_variables_partial",
    "C37_accepted_types_partial",
    "C37_order_independent",
    "C37_comparison_decides",
    "C37_alike_equivalence",
    "C37_refuted",
    "C37_type_depends_on_order_refuted",
    "C37_recursive_types_refuted",
    "C37_recursive_variables_refuted"
   ],
   "note": "Proved for every set of services, every map iteration order and non-recursive message types: the shared message has exactly the names declared by all using services, and there is an error for exactly the names declared with types of different structure. Refuted as stated: the comparison ignores the identity of enums and messages, so two different enums are accepted and the type seen depends on the map order; with recursive message types the comparison never ends."
  },
  {
   "property": "C38",
   "status": "partial",
   "theorems": [
    "C38_bind_complete",
    "C38_request_complete",
    "C38_bind_partial",
    "C38_request_partial",
    "C38_repeated_refuted",
    "C38_enum_to_string_accepted",
    "C38_map_values_accepted",
    "C38_request_scalar_accepted"
   ],
   "note": "Every compatible assignment is accepted. Soundness is refuted (lists and single values, enum to string, map values, scalars to request messages and enums) and proved outside these cases."
  },
  {
   "property": "C39",
   "status": "partial",
   "theorems": [
    "C39_argument_is_union_partial",
    "C39_accepted_types_partial",
    "C39_accepted_names_partial",
    "C39_errors_justified",
    "C39_late_name_refuted",
    "C39_order_dependent",
    "C39_repeated_compatible_refuted",
    "C39_types_compatible_refuted",
    "C39_other_roots_unchecked",
    "C39_inline_names_unchecked",
    "C39_no_value_crashes",
    "C39_nameless_argument_refuted"
   ],
   "note": "Proved for every acyclic message graph with arguments that have a value and a name (or are inline without one): the argument of a message has exactly the names passed by its callers, each once; without an error types are compatible, expressions of one caller have each other's names and of two callers one has all the names of the other; every error is justified. Refuted as stated: a caller looked at later may pass further names (so the verdict depends on the order of dependencies), repeated and singular values and different number types share a name, callers below a root that is no response are not checked, inline names of sibling expressions are not required, an argument without a value crashes the compiler."
  },
  {
   "property": "C40",
   "status": "partial",
   "theorems": [
    "C40_round_trip_partial",
    "C40_encoding_ends",
    "C40_settings_lost",
    "C40_kinds",
    "C40_refuted",
    "C40_same_variable_refuted",
    "C40_error_rules_refuted",
    "C40_oneof_field_refuted",
    "C40_presence_refuted",
    "C40_name_only_refuted"
   ],
   "note": "Proved for every typed schema graph (any size, cycles included) whose objects have distinct names: every path shows the plugin what it shows the generator, and sharing is the same. The full statement is refuted: settings are not transferred, variables of two messages with one name collide, the error rules of calls and a few other fields are dropped."
  },
  {
   "property": "C41",
   "status": "partial",
   "theorems": [
    "C41_panics_become_errors",
    "C41_no_panic_is_swallowed",
    "C41_recovered_error",
    "C41_recovered_error_through_singleflight",
    "C41_message_refuted"
   ],
   "note": "Crash freedom and propagation proved for every nesting; the value is carried in full only if it has one line: a value of several lines is cut (refuted)."
  },
  {
   "property": "C42",
   "status": "partial",
   "theorems": [
    "C42_names_partial",
    "C42_qualified",
    "C42_types_partial",
    "C42_conversions",
    "C42_oneof_fields",
    "C42_resolvers",
    "C42_field_resolvers_partial",
    "C42_variables_partial",
    "C42_auto_names",
    "C42_plugin_methods_partial",
    "C42_function_ids",
    "C42_scalar_function_ids_partial",
    "C42_refuted",
    "C42_style_refuted",
    "C42_conversions_refuted",
    "C42_resolvers_refuted",
    "C42_variables_refuted",
    "C42_plugin_methods_refuted",
    "C42_function_ids_refuted"
   ],
   "note": "Refuted as stated, also for names in the style of the proto guide. Proved for conventional names: exactly which qualified names, conversions, resolvers, variables and plugin functions share an identifier, and the cases in which they are distinct."
  },
  {
   "property": "C43",
   "status": "proved",
   "theorems": [
    "C43_compiled_files",
    "C43_resolve",
    "C43_imported_first",
    "C43_cycle_without_registration",
    "C43_result",
    "C43_files_in_order_refuted",
    "C43_import_once_refuted"
   ],
   "note": "Proved for every graph and map order. Two stronger readings are refuted: the list of files itself (as opposed to the order of registration and resolution) is not in order of dependencies, and an import named twice in one option is compiled twice."
  },
  {
   "property": "C44",
   "status": "proved",
   "theorems": [
    "C44_incomplete_rejected",
    "C44_created_is_whole",
    "C44_complete_creates",
    "C44_created_only_if_usable",
    "C44_error_is_of_a_part",
    "C44_second_construction_refuted"
   ],
   "note": "Factories, files, hashing, compilation, plugin validation, environment and service variables are parameters. Also found: a configuration can be used only once, since its readers are consumed."
  },
  {
   "property": "C45",
   "status": "partial",
   "theorems": [
    "C45_scope_partial",
    "C45_visible_partial",
    "C45_scope_refuted",
    "C45_error_log_refuted",
    "C45_once_refuted"
   ],
   "note": "Proved for histories in which only one holder of a list of attributes adds to it. Refuted in full: sibling messages and error records append in place to the array they share and overwrite each other, and attributes are repeated once per nesting level."
  },
  {
   "property": "C46",
   "status": "proved",
   "theorems": [
    "C46_precondition_failure_keeps_what_evaluates",
    "C46_bad_request_keeps_what_evaluates"
   ],
   "note": "Any violation list and expression outcomes."
  },
  {
   "property": "C47",
   "status": "proved",
   "theorems": [
    "C47_accepted_iff",
    "C47_accepted_plugins_know_the_function"
   ],
   "note": "For every function list and version answer."
  },
  {
   "property": "C48",
   "status": "partial",
   "theorems": [
    "C48_fields",
    "C48_value_unique",
    "C48_value_fails",
    "C48_fails_only",
    "C48_oneof_member_refuted",
    "C48_alias_refuted",
    "C48_custom_false_refuted"
   ],
   "note": "Proved for fields outside oneofs; oneofs are C22. Refuted for oneof members (also proto3 optional) with by or custom_resolver, which are accepted and never set, and for fields without options in messages with an alias, and custom_resolver false."
  },
  {
   "property": "C49",
   "status": "partial",
   "theorems": [
    "C49_terminates",
    "C49_once",
    "C49_complete_partial",
    "C49_service_partial",
    "C49_alias_refuted",
    "C49_selectors_refuted",
    "C49_names_refuted",
    "C49_response_refuted"
   ],
   "note": "Collecting ends for every schema and collects nothing twice. Completeness is proved for schemas whose type names stay distinct when concatenated and without renaming aliases, and refuted without: renamed fields, a second enum selector with the same target, concatenated names, and methods with a response option."
  },
  {
   "property": "C50",
   "status": "proved",
   "theorems": [
    "C50_plugins_are_verified"
   ],
   "note": "Files, hashing and module execution are parameters."
  },
  {
   "property": "C51",
   "status": "partial",
   "theorems": [
    "C51_refuted",
    "C51_changes_are_noticed_partial"
   ],
   "note": "False for source directories written with a leading dot (./proto, .., .): they are not watched. Proved for all trees below other directories. fsnotify reporting the entries of the directories it is given is assumed; directories created later are not in the model."
  },
  {
   "property": "C52",
   "status": "partial",
   "theorems": [
    "C52_each_client_once",
    "C52_clients_of_declared_responses",
    "C52_clients_partial",
    "C52_no_needless_client",
    "C52_statement_refuted",
    "C52_custom_response_refuted",
    "C52_service_variable_refuted",
    "C52_nested_error_rules_refuted"
   ],
   "note": "False in full: with a custom response the clients of the declared response are asked for instead of its own, messages of service variables are ignored, and definitions in nested error rules are not planned at all. Proved exactly for every other schema, cyclic ones included."
  },
  {
   "property": "C53",
   "status": "partial",
   "theorems": [
    "C53_messages_partial",
    "C53_messages_of_service",
    "C53_statement_refuted"
   ],
   "note": "False for a response that another message makes too. Proved for every acyclic schema otherwise, with an exact description of the messages a service gets."
  },
  {
   "property": "C54",
   "status": "partial",
   "theorems": [
    "C54_custom_resolvers_partial",
    "C54_no_needless_resolver",
    "C54_statement_refuted",
    "C54_oneof_refuted",
    "C54_service_variable_refuted",
    "C54_plain_message_crashes_refuted"
   ],
   "note": "False for messages made by oneof rules or service variables; a message without option crashes the search. Proved exactly for every other acyclic schema."
  },
  {
   "property": "C55",
   "status": "partial",
   "theorems": [
    "C55_cleanup_closes_started",
    "C55_failed_early_starts_nothing_partial",
    "C55_statement_refuted",
    "C55_invalid_plugin_refuted"
   ],
   "note": "Cleanup closes exactly what was started. The second half is false: when a later plugin, the environment or the service variables fail, plugins already started go on running."
  },
  {
   "property": "C56",
   "status": "partial",
   "theorems": [
    "C56_calls_partial",
    "C56_calls_exact",
    "C56_printed_again_partial",
    "C56_library_methods",
    "C56_cel_methods",
    "C56_library_lost",
    "C56_cel_lost",
    "C56_plugin_takes_method",
    "C56_bare_name_refused",
    "C56_refuted",
    "C56_printed_again_refuted"
   ],
   "note": "The full statement is refuted (now().add(d) does not compile with the whole library). Proved exactly, for every set of bindings and every expression: a call compiles as meant if and only if nothing bound shadows it (bound functions always; methods if no function is bound later under the same last name; CEL's own if nothing is). With the library alone exactly the methods parse and add, and CEL's contains, replace, split, trim, format and join, are lost. Printing and compiling again is proved if no binding is named like a macro of CEL and refuted otherwise. Types of arguments are not modelled."
  },
  {
   "property": "C57",
   "status": "partial",
   "theorems": [
    "C57_accepted_partial",
    "C57_one_package",
    "C57_no_plugins",
    "C57_refuted",
    "C57_bare_name_refuted",
    "C57_shadowed_method_refuted",
    "C57_other_package_refuted",
    "C57_library_name_refused"
   ],
   "note": "Proved for every expression if the last names of plugin functions are not those of other functions or methods, message and service resolve names alike (shown for one package) and plugin functions are not called by a bare name; unconditional without plugins in one package. Each condition is shown to be needed: expressions are accepted that the service then refuses, or in which it calls another function. Types are not modelled."
  },
  {
   "property": "C58",
   "status": "proved",
   "theorems": [
    "C58_enums",
    "C58_enums_exactly",
    "C58_order_independent",
    "C58_plugins",
    "C58_plugins_exactly",
    "C58_own_plugin_refuted"
   ],
   "note": "Proved for every tree of imports, order of map iteration and sequence of files with the shared cache. If two plugins have one name, one of them is taken, and C58_own_plugin_refuted shows it need not be the file's own."
  },
  {
   "property": "C59",
   "status": "partial",
   "theorems": [
    "C59_accessors_exact",
    "C59_attr_refuted"
   ],
   "note": "The full statement is refuted: attr is accepted for enums without attributes, and all accessors for enums of google (but google.rpc.Code) and grpc.federation. C59_accessors_exact says exactly which accessors exist."
  },
  {
   "property": "C60",
   "status": "partial",
   "theorems": [
    "C60_checked_partial",
    "C60_attributes_partial",
    "C60_attr_absent",
    "C60_accessors",
    "C60_round_trip",
    "C60_refuted",
    "C60_crash",
    "C60_text_refuted",
    "C60_invalid_go_refuted",
    "C60_out_of_range_refuted"
   ],
   "note": "The full statement is refuted. Proved if no value has an attribute twice, no number two names and texts are without backquote, NUL and carriage return; each case left out but NUL is shown to fail. A number beyond int32 is taken for another."
  },
  {
   "property": "C61",
   "status": "partial",
   "theorems": [
    "C61_files_exactly",
    "C61_maps_partial",
    "C61_refuted"
   ],
   "note": "Which files are generated is proved exactly. That what they use is generated too is refuted (the variable with the attributes of an enum of another package) and proved if every file with such enums shares its package with a service or plugin. Of what files use of each other only these variables are modelled."
  },
  {
   "property": "C62",
   "status": "partial",
   "theorems": [
    "C62_assigned_partial",
    "C62_assigned_exact",
    "C62_accepted_exact",
    "C62_constants_refused",
    "C62_no_panic",
    "C62_field_checked",
    "C62_refuted",
    "C62_definition_refuted",
    "C62_optional_refuted",
    "C62_equal_refuted"
   ],
   "note": "The full statement is refuted: a call as the last argument of a call makes generated code that does not compile. Proved for all other nestings, with the exact condition. What is accepted is proved exactly; that aliases are checked is proved for fields and refuted for definitions. The conversions themselves are parameters here (C23)."
  },
  {
   "property": "C63",
   "status": "partial",
   "theorems": [
    "C63_placed",
    "C63_no_package",
    "C63_standalone_modes",
    "C63_standalone_exact",
    "C63_module_exact",
    "C63_refuted",
    "C63_module_refuted"
   ],
   "note": "Proved for the protoc plugin in every mode, and for the stand-alone generator in the modes that use the Go package. The stand-alone generator with source_relative writes every file into the directory of the proto file being generated (refuted, with the exact condition). The module prefix is cut as text and other import paths are not refused (refuted, with the exact condition). Letters outside ASCII are not modelled."
  },
  {
   "property": "C64",
   "status": "partial",
   "theorems": [
    "C64_exact",
    "C64_partial",
    "C64_recognised",
    "C64_refuted"
   ],
   "note": "Refuted: names that differ in case only, or files of one Go package in two directories, share a path. The exact condition is proved."
  },
  {
   "property": "C65",
   "status": "partial",
   "theorems": [
    "C65_partial",
    "C65_outside",
    "C65_refuted"
   ],
   "note": "Refuted: import paths are compared as text, so proto is taken for a directory of proto2/a.proto. Proved if no earlier import path is a textual prefix and absolute paths are spelled without . and ..."
  },
  {
   "property": "C66",
   "status": "partial",
   "theorems": [
    "C66_exact",
    "C66_partial",
    "C66_read",
    "C66_refuted",
    "C66_code_refuted"
   ],
   "note": "Refuted: an alternate with lower-case letters is looked up in upper case; names with the same Go name and option texts with a backquote are accepted and make invalid Go. The exact behaviour is proved for every list of variables. The envconfig library is modelled from its documentation, the conversion of texts to values is a parameter."
  },
  {
   "property": "C67",
   "status": "partial",
   "theorems": [
    "C67_described_exact",
    "C67_accepted_exact",
    "C67_no_panic_partial",
    "C67_valid_partial",
    "C67_refuted",
    "C67_type_refuted"
   ],
   "note": "Refuted: a map without a key or value crashes the generator, a repeated of a repeated or a map loses one level, and lists are accepted as keys. The exact conditions are proved."
  },
  {
   "property": "C68",
   "status": "partial",
   "theorems": [
    "C68_terminates",
    "C68_once",
    "C68_exact_partial",
    "C68_arguments",
    "C68_refuted",
    "C68_unnamed_maps",
    "C68_byte_lists",
    "C68_null",
    "C68_lower_case",
    "C68_suffix",
    "C68_variable"
   ],
   "note": "Refuted: enums with aliases, maps of lists of bytes, null arguments, two maps made in expressions, nested messages in lower case, messages named XArgument, and variables with the name of an argument give invalid Go or end the generator. Termination and uniqueness hold for every input; the exact condition for valid code is proved where names do not clash and arguments keep their fields. Arguments that are members of a oneof are not modelled."
  },
  {
   "property": "C69",
   "status": "partial",
   "theorems": [
    "C69_partial",
    "C69_accepted_exact",
    "C69_names",
    "C69_exact_partial",
    "C69_two_validations",
    "C69_conditional",
    "C69_refuted",
    "C69_named_validation",
    "C69_list_condition",
    "C69_no_expression",
    "C69_same_field"
   ],
   "note": "Refuted: a variable with a condition is dropped without an error. The lists accepted are characterised exactly, and an accepted list without named validations starts as the list without its conditional variables says; for right lists without conditions, with at most one validation and distinct Go names, the full statement holds."
  },
  {
   "property": "C70",
   "status": "partial",
   "theorems": [
    "C70_partial",
    "C70_exact",
    "C70_hidden",
    "C70_refuted",
    "C70_hidden_case",
    "C70_hidden_inside",
    "C70_custom"
   ],
   "note": "Refuted: a used variable with the Go name of an argument overwrites it before the fields are bound, one of a oneof even with its zero value. The full statement holds where no used variable has the Go name of an argument, and C70_exact says what is seen for every accepted message."
  },
  {
   "property": "C71",
   "status": "partial",
   "theorems": [
    "C71_partial",
    "C71_values",
    "C71_raw_exact",
    "C71_comment_exact",
    "C71_lines",
    "C71_refuted",
    "C71_injected",
    "C71_carriage_return"
   ],
   "note": "Refuted: a backtick ends a raw literal, so that the rest of the text is Go code; a carriage return is dropped; '*/' in a text ends the comment above a definition. The full statement holds for texts without these, and C71_raw_exact and C71_comment_exact show that exactly these break a literal or a comment."
  },
  {
   "property": "C72",
   "status": "partial",
   "theorems": [
    "C72_partial",
    "C72_instants",
    "C72_first_exact",
    "C72_fails",
    "C72_forgets",
    "C72_locations",
    "C72_rounding",
    "C72_rounding_half",
    "C72_refuted",
    "C72_hour_late",
    "C72_azores"
   ],
   "note": "Refuted: a value keeps the name and the offset of its zone, not its location, so addDate across a change of the clocks is an hour off, daylight saving time is never reported away from Greenwich, and times at offset zero in a zone without a location of that name fail in every function. The full statement holds where all locations have one zone; instants are right in all locations as long as no date is added."
  },
  {
   "property": "C73",
   "status": "partial",
   "theorems": [
    "C73_partial",
    "C73_stable",
    "C73_strings",
    "C73_twice_exact",
    "C73_clobbered",
    "C73_refuted"
   ],
   "note": "Refuted: the overloads for bytes append into the array of their argument, so a second call on the same bytes overwrites the result of the first. The full statement holds where no bytes are appended to twice, and always for strings; C73_twice_exact says exactly when two calls are right."
  },
  {
   "property": "C74",
   "status": "partial",
   "theorems": [
    "C74_partial",
    "C74_enclosing",
    "C74_lost",
    "C74_refuted",
    "C74_method_lost",
    "C74_first_only",
    "C74_oneof_definitions",
    "C74_detail_message",
    "C74_shorthand",
    "C74_import",
    "C74_import_option",
    "C74_go_package",
    "C74_no_panic"
   ],
   "note": "Refuted: strings written as several literals, methods, the definitions of a oneof field after the first, and whatever a second statement of an option says are not found. The place is found for all other locations in files whose options are written once as blocks (C74_partial lists the kinds of locations left out in looked_up), and what is shown is always on the way to the place (C74_enclosing)."
  },
  {
   "property": "C75",
   "status": "partial",
   "theorems": [
    "C75_partial",
    "C75_persistent",
    "C75_lazy_twice",
    "C75_refuted",
    "C75_env_lost",
    "C75_copy_lost",
    "C75_resolve_message",
    "C75_all_reported",
    "C75_resolve_lazy",
    "C75_nested_name"
   ],
   "note": "Refuted: two calls in a row on a builder made with ToLazy... are a nil pointer dereference, what is set on a variable of an environment is missing in the location (and appears in an older one), and six parts are lost by copies. Proved for all programs that avoid these (C75_partial, C75_persistent), with the exact condition for the panic in resolveMessage (C75_resolve_lazy)."
  },
  {
   "property": "C76",
   "status": "partial",
   "theorems": [
    "C76_exact",
    "C76_sound_partial",
    "C76_complete_partial",
    "C76_refuted",
    "C76_lists_of_lists",
    "C76_nested_list",
    "C76_first_map"
   ],
   "note": "Refuted: only the kind of a type is compared, so a list of bools is accepted as a condition and a list of strings as a text; lists in lists and in maps are forgotten; a map in a handler, a detail or a oneof cannot go over a variable of an outer list. Proved: what is accepted, exactly (C76_exact); every accepted expression is checked in its scope and has its type up to lists (C76_sound_partial); a message that avoids nested lists and outer sources is accepted if it is well typed (C76_complete_partial)."
  },
  {
   "property": "C77",
   "status": "partial",
   "theorems": [
    "C77_reported_partial",
    "C77_sorted",
    "C77_stable",
    "C77_source_line",
    "C77_linter_partial",
    "C77_compile_errors",
    "C77_generation_partial",
    "C77_mark",
    "C77_printed",
    "C77_refuted",
    "C77_unknown_dropped",
    "C77_last_line_lost",
    "C77_settings",
    "C77_published",
    "C77_other_file"
   ],
   "note": "Refuted: errors that are not of the resolver's or the compiler's own type are dropped, so that the linter succeeds without output and the generator dereferences nil; the last line of a file is never shown. Proved for all runs whose errors are of the known types; order, stability, printing and the positions the language server publishes are proved without restriction."
  },
  {
   "property": "C78",
   "status": "partial",
   "theorems": [
    "C78_some_text_partial",
    "C78_not_older",
    "C78_quiet_partial",
    "C78_alone_partial",
    "C78_finishes",
    "C78_only_changed",
    "C78_unparsable",
    "C78_text",
    "C78_closed_stays",
    "C78_stale",
    "C78_imports_lost",
    "C78_refuted"
   ],
   "note": "Refuted: an older validation may publish after a newer one, and a validation of another document may take the import paths away. Proved: exact for a change when no other validation is under way; for a change when no validation of the same document is under way, up to repeated or missing import paths; in every execution what is published is the diagnosis of a text not older than the change."
  },
  {
   "property": "C79",
   "status": "partial",
   "theorems": [
    "C79_right_partial",
    "C79_found_exact",
    "C79_top_enums_lost",
    "C79_field_partial",
    "C79_method_partial",
    "C79_method_found_exact",
    "C79_import_partial",
    "C79_file_path",
    "C79_cursor_exact",
    "C79_cursor_refuted",
    "C79_right_refuted",
    "C79_found_refuted",
    "C79_field_scope_refuted",
    "C79_method_refuted",
    "C79_suffix_refuted"
   ],
   "note": "Refuted: of declarations with the same simple name the last of the file is shown; enums outside of messages, names qualified with the own package and types of enclosing messages are not found; files are matched by the end of their names. Proved: right if the simple name is unique in its file, the exact set of names that are found, and the exact dispatch on the place of the cursor."
  },
  {
   "property": "C80",
   "status": "partial",
   "theorems": [
    "C80_def_exact",
    "C80_def_usable",
    "C80_arg_exact",
    "C80_field_exact",
    "C80_types_accepted",
    "C80_request_exact",
    "C80_distinct",
    "C80_methods_exact",
    "C80_messages_exact",
    "C80_request_fields",
    "C80_message_of",
    "C80_items",
    "C80_edit_partial",
    "C80_edit_word",
    "C80_edit_refuted",
    "C80_usable_refuted",
    "C80_complete_refuted",
    "C80_types_refuted",
    "C80_methods_refuted"
   ],
   "note": "Refuted: of the variables only one is proposed (the loop of candidatesVariableName reads the definition with the number of the place in every turn), for requests and arguments the variable being written; the type for a field of a request is that of the field with the same number; edits of words without quotes go before their last character. Proved: the exact proposals at every place, types that the resolver accepts, and the edit in quoted texts."
  },
  {
   "property": "C81",
   "status": "partial",
   "theorems": [
    "C81_total",
    "C81_handled_partial",
    "C81_declared_exact",
    "C81_no_other_constant",
    "C81_told_only_calls",
    "C81_constants_distinct_in_order",
    "C81_lower_case_refuted",
    "C81_same_name_refuted",
    "C81_error_rule_refuted",
    "C81_service_variable_refuted",
    "C81_statement_refuted"
   ],
   "note": "Refuted: the constant of a method whose name is not a public Go name is declared and used under different names; two methods may share one constant; calls in error rules and in messages of service variables have none. Proved: right outside of these cases, exactly which constants are declared, none for other methods, distinct and sorted."
  },
  {
   "property": "C82",
   "status": "partial",
   "theorems": [
    "C82_sound_partial",
    "C82_complete_partial",
    "C82_exact_partial",
    "C82_nothing_elsewhere",
    "C82_import",
    "C82_option_after_field",
    "C82_separate_definitions",
    "C82_split_text",
    "C82_top_enums",
    "C82_map_fields",
    "C82_service_option",
    "C82_sound_refuted",
    "C82_complete_refuted"
   ],
   "note": "Refuted: an option, nested message or enum written after a field is given a location of this field too (a service option after a method: only the method); definitions written one by one all have the index 0; a text of several literals ends the search; map, validation, error, enum and oneof expressions, top-level enums and map fields are not recognised. Proved: sound for files as they are usually written; complete for the recognised texts of message and field options, types and imports, at any nesting; nothing elsewhere."
  },
  {
   "property": "C83",
   "status": "partial",
   "theorems": [
    "C83_warnings_partial",
    "C83_ordinary_partial",
    "C83_unused_reported_partial",
    "C83_only_federation_used_partial",
    "C83_hidden_use",
    "C83_same_package",
    "C83_order",
    "C83_every_spot_hides",
    "C83_refuted",
    "C83_unused_reported_refuted",
    "C83_nested_packages_refuted"
   ],
   "note": "Refuted: thirteen kinds of places in the options, three in the definitions and two in expressions are not searched (each with a file that gets a wrong warning); the field of what a call returns is taken for a package; a package whose name starts with that of another is passed over. Proved: apart from these the warnings are exact, for files of any shape, so an unneeded import is always reported and a file that keeps to the other places gets the right warnings."
  },
  {
   "property": "C84",
   "status": "partial",
   "theorems": [
    "C84_works_partial",
    "C84_timeout_and_response",
    "C84_compiles_needs",
    "C84_shared_response",
    "C84_order_matters",
    "C84_inner_response",
    "C84_given",
    "C84_errors_once",
    "C84_rule",
    "C84_rule_value",
    "C84_valid",
    "C84_refuted",
    "C84_single_refuted",
    "C84_response_types_refuted"
   ],
   "note": "Refuted: a method with both timeout and response does not compile; of two methods with the same response one may not compile, depending on the order of a map; a response that other messages use does not get the fields of the request. Proved: apart from these three every method works, for any resolver, conversion and limit; which rules are accepted, exactly."
  },
  {
   "property": "C85",
   "status": "partial",
   "theorems": [
    "C85_values_partial",
    "C85_one_kind_partial",
    "C85_order_partial",
    "C85_empty_lists",
    "C85_same_text",
    "C85_alike",
    "C85_entries",
    "C85_calls",
    "C85_attributes_partial",
    "C85_refuted",
    "C85_clear_refuted",
    "C85_order_refuted"
   ],
   "note": "Refuted: keys of one map that are written alike (1 and '1', 1 and 1u) overwrite each other, and which is logged differs from run to run; an empty list is logged as null. Proved: apart from these two every value of any depth is logged as it is, in whatever order its maps are visited; which keys are written alike; one entry per call, with level, message and attributes, for every sequence of calls."
  },
  {
   "property": "C86",
   "status": "partial",
   "theorems": [
    "C86_env_exact",
    "C86_message_exact",
    "C86_fields",
    "C86_env_fields",
    "C86_entry_name",
    "C86_env_name",
    "C86_env_types",
    "C86_refuted",
    "C86_words_refuted"
   ],
   "note": "Refuted: a variable of a map type whose name has an underscore or an inner capital gets an entry with a name protobuf does not accept; maps with lists or maps as values are taken although protobuf has none. Proved: exactly which lists of variables, and which messages, are accepted; the fields of the descriptor, one for one with number, kind, type and label; the computed name of an entry is the one of protobuf for every name."
  },
  {
   "property": "C87",
   "status": "partial",
   "theorems": [
    "C87_range_partial",
    "C87_int31n_exact",
    "C87_fair",
    "C87_fair31",
    "C87_plain",
    "C87_same_numbers",
    "C87_seed",
    "C87_new_source",
    "C87_shared",
    "C87_equal_itself",
    "C87_equal_other",
    "C87_refuted",
    "C87_equal_refuted"
   ],
   "note": "Refuted: int31n uses the lower 32 bits of its bound only, so it fails for 2^31 and takes some negative bounds; comparing takes a number from both operands, and a generator is in general not equal to itself. Proved: the range for all other bounds and functions, exactly what int31n does, that no number is preferred, the same numbers for the same seed in all interleavings of calls without comparisons, and exactly what a comparison does. Left out: floating point numbers; that the loop of math/rand ends."
  }
 ]
}