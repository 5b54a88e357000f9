{
 "claims": [
  {
   "property": "C01",
   "status": "proved",
   "theorems": [
    "C01_getitem_exact",
    "C01_getitem_raises_iff_no_position",
    "C01_setitem_exact",
    "C01_setitem_raises",
    "C01_pop_exact",
    "C01_pop_missing",
    "C01_popleft_is_pop0",
    "C01_insert_exact",
    "C01_index_first_occurrence",
    "C01_index_raises_iff_absent",
    "C01_slice_exact",
    "C01_remove_first_occurrence",
    "C01_raising_ops_change_nothing",
    "C01_append_exact",
    "C01_extend_exact",
    "C01_contains_iff",
    "C01_clear_empties",
    "C01_setslice_contiguous",
    "C01_setslice_extended",
    "C01_setslice_refused",
    "C01_extend_not_atomic_refuted",
    "C01_created"
   ],
   "note": "All index operations proved against an independent index/slice specification. Also proved: extend with a bad element is not atomic (refuted theorem documents the actual behaviour)."
  },
  {
   "property": "C02",
   "status": "proved",
   "theorems": [
    "C02_move_exact",
    "C02_move_invalid_unchanged",
    "C02_move_permutes"
   ],
   "note": "move proved exactly, including invalid indices."
  },
  {
   "property": "C03",
   "status": "proved",
   "theorems": [
    "C03_swap_exact",
    "C03_swap_invalid_unchanged",
    "C03_swap_involutive",
    "C03_swap_permutes",
    "C03_reverse_involutive",
    "C03_reverse_exact",
    "C03_reverse_permutes"
   ],
   "note": "swap/reverse exact and involutive."
  },
  {
   "property": "C04",
   "status": "proved",
   "theorems": [
    "C04_include_idempotent",
    "C04_exclude_result",
    "C04_exclude_nodup_idempotent",
    "C04_exclude_idempotent_refuted"
   ],
   "note": "include/exclude; exclude idempotence holds without duplicates and is refuted with duplicates."
  },
  {
   "property": "C05",
   "status": "proved",
   "theorems": [
    "C05_stores_never_drift"
   ],
   "note": "Coherence of every pile reachable by any public history."
  },
  {
   "property": "C06",
   "status": "proved",
   "theorems": [
    "C06_pile_is_ordered_map"
   ],
   "note": "Refinement to a plain ordered list, answers included, for all histories."
  },
  {
   "property": "C07",
   "status": "proved",
   "theorems": [
    "C07_failing_ops_change_nothing"
   ],
   "note": "Literal state equality when an operation raises."
  },
  {
   "property": "C08",
   "status": "proved",
   "theorems": [
    "C08_type_constraint_invariant",
    "C08_stored_items_allowed",
    "C08_config_never_changes",
    "C08_disallowed_rejected"
   ],
   "note": "Type constraint as invariant, for every class hierarchy."
  },
  {
   "property": "C09",
   "status": "proved",
   "theorems": [
    "C09_linearizable",
    "C09_mutual_exclusion",
    "C09_holder_releases"
   ],
   "note": "Small-step interleaving model; locked methods linearizable for all schedules and thread counts; mutual exclusion; lock holder releases within two own steps."
  },
  {
   "property": "C10",
   "status": "proved",
   "theorems": [
    "C10_include_true_means_present",
    "C10_include_false_means_invalid_or_present",
    "C10_exclude_means_absent",
    "C10_include_false_only_if_invalid_refuted",
    "C10_exclude_false_only_if_bad_id_refuted"
   ],
   "note": "Exact meaning of the booleans for every schedule; the documented 'False only if validation fails' is refuted by a concrete race for both include and exclude."
  },
  {
   "property": "C11",
   "status": "proved",
   "theorems": [
    "C11_order_keeps_coherent_refuted",
    "C11_remove_not_atomic_refuted",
    "C11_order_coherent_iff",
    "C11_unknown_order_rejected"
   ],
   "note": "Coherent iff the order is empty or a permutation of the ids; general acceptance refuted, and remove shown non-atomic on such a pile."
  },
  {
   "property": "C12",
   "status": "proved",
   "theorems": [
    "C12_filter_exact",
    "C12_slice_exact",
    "C12_ids_exact",
    "C12_progression_exact",
    "C12_ints_exact",
    "C12_type_exact",
    "C12_queries_pure",
    "C12_read_returns",
    "C12_read_errors",
    "C12_read_ends",
    "C12_read_alone",
    "C12_read_growth",
    "C12_read_documented_refuted",
    "C12_read_snapshot_refuted"
   ],
   "note": "All query forms; new coherent pile with exactly the selected items."
  },
  {
   "property": "C13",
   "status": "proved",
   "theorems": [
    "C13_iteration_under_growth",
    "C13_iteration_complete_refuted",
    "C13_iteration_never_raises_refuted"
   ],
   "note": "Completeness/exactly-once proved when other threads only add or update; refuted (skip and KeyError) when they remove."
  },
  {
   "property": "C14",
   "status": "proved",
   "theorems": [
    "C14_referential_integrity",
    "C14_remove_item_integrity_iff",
    "C14_add_item_effect",
    "C14_remove_item_effect",
    "C14_unconditional_refuted",
    "C14_constructed"
   ],
   "note": "Integrity for all histories without repeated ids; exact iff for one removal; exact effect of add_item and remove_item; unconditional claim refuted."
  },
  {
   "property": "C15",
   "status": "proved",
   "theorems": [
    "C15_names_unique",
    "C15_get_by_name",
    "C15_get_absent_name",
    "C15_get_by_id",
    "C15_name_reusable",
    "C15_add_progression_effect",
    "C15_remove_progression_effect",
    "C15_constructed_names_refuted",
    "C15_add_progression_outcome",
    "C15_remove_progression_outcome",
    "C15_get_by_instance_refuted"
   ],
   "note": "Name index exact from an empty flow; exact effects of add/remove; refuted for flows constructed with duplicate names, and for get_progression called with a Progression instance."
  },
  {
   "property": "C16",
   "status": "proved",
   "theorems": [
    "C16_remove_item_outcome",
    "C16_add_item_outcome",
    "C16_progression_ops_atomic",
    "C16_remove_item_atomic",
    "C16_add_item_refused_by_pile",
    "C16_add_item_refuted"
   ],
   "note": "Atomicity proved for the progression operations, for remove_item under integrity and for add_item refused by the pile; add_item with an unknown progression refuted."
  },
  {
   "property": "C17",
   "status": "proved",
   "theorems": [
    "C17_refines",
    "C17_edge_queries",
    "C17_endpoints"
   ],
   "note": "Refinement to an index-free multigraph for all histories, iteration orders and well-formed starting data; failing operations leave the whole state equal."
  },
  {
   "property": "C18",
   "status": "proved",
   "theorems": [
    "C18_remove_node"
   ],
   "note": "Exact remaining nodes and edges."
  },
  {
   "property": "C19",
   "status": "proved",
   "theorems": [
    "C19_is_acyclic",
    "C19_always_answers_refuted"
   ],
   "note": "Correct for every recursion limit and iteration order; totality within the limit; unbounded totality refuted by a chain for every limit."
  },
  {
   "property": "C20",
   "status": "proved",
   "theorems": [
    "C20_topological_sort"
   ],
   "note": "Permutation, forward edges, exact failure conditions."
  },
  {
   "property": "C21",
   "status": "proved",
   "theorems": [
    "C21_find_path"
   ],
   "note": "Soundness, completeness and minimality for arbitrary conditions and iteration orders. Edge conditions are pure; the graph does not change during the search."
  },
  {
   "property": "C22",
   "status": "proved",
   "theorems": [
    "C22_well_formed_data",
    "C22_dangling_edge_stuck",
    "C22_dangling_never_acyclic",
    "C22_dangling_rejected_refuted",
    "C22_dangling_neighbours"
   ],
   "note": "Well-formed data proved; general theorems for dangling edges; rejection refuted."
  },
  {
   "property": "C23",
   "status": "proved",
   "theorems": [
    "C23_at_most_once",
    "C23_exclusive",
    "C23_later_calls_noop",
    "C23_at_rest",
    "C23_terminates"
   ],
   "note": "Any number of callers, any lock admission order, any outcomes and cancellations; single start, exclusion, no-op afterwards, termination. Assumes nobody resets the status by hand."
  },
  {
   "property": "C24",
   "status": "proved",
   "theorems": [
    "C24_outcome",
    "C24_retryable",
    "C24_terminal_stable",
    "C24_user_timeout_kept_refuted"
   ],
   "note": "Exact outcome table; builtin TimeoutError raised by the operation is refuted to be kept."
  },
  {
   "property": "C25",
   "status": "proved",
   "theorems": [
    "C25_group",
    "C25_flat_group",
    "C25_nested_refuted",
    "C25_base_exception_stuck"
   ],
   "note": "Exact characterisation; the nested claim and the terminal-state claim for other BaseExceptions are refuted."
  },
  {
   "property": "C26",
   "status": "proved",
   "theorems": [
    "C26_bag",
    "C26_conserved",
    "C26_drain_sorted",
    "C26_fifo_among_ties_refuted"
   ],
   "note": "Refinement of CPython's heap algorithms to a bag with minima, for every strict weak order; draining is sorted. FIFO among equal keys is refuted."
  },
  {
   "property": "C27",
   "status": "proved",
   "theorems": [
    "C27_bound_and_conservation",
    "C27_section",
    "C27_outside"
   ],
   "note": "All schedules with arbitrary cancellation; per-section answers. anyio's lock and condition are modelled from their documented FIFO behaviour."
  },
  {
   "property": "C28",
   "status": "proved",
   "theorems": [
    "C28_getters_not_stranded",
    "C28_putters_not_stranded",
    "C28_terminates",
    "C28_quiescent_states",
    "C28_bounded_refuted"
   ],
   "note": "No stranded waiter when only one side can block; termination bound 12 steps per call; the bounded two-sided case is refuted by a concrete schedule (one condition variable, notify(1))."
  },
  {
   "property": "C29",
   "status": "proved",
   "theorems": [
    "C29_queue_bound",
    "C29_sequential",
    "C29_refused_iff_full",
    "C29_enqueue_effect",
    "C29_enqueue_priority",
    "C29_limit_refuted"
   ],
   "note": "Exact refusal condition and the exact slack for overlapping calls; the bare limit is refuted for two overlapping appends."
  },
  {
   "property": "C30",
   "status": "proved",
   "theorems": [
    "C30_partition",
    "C30_status",
    "C30_cleanup_processing_refuted",
    "C30_taken_refuted"
   ],
   "note": "Interleavings of any number of calls; refuted for cleanup of processing events and for events appended in status PROCESSING (C30_taken_refuted). Cancelled calls are in C115."
  },
  {
   "property": "C31",
   "status": "proved",
   "theorems": [
    "C31_counts",
    "C31_denied",
    "C31_tracker_bound",
    "C31_eviction_refuted"
   ],
   "note": "Trace-level denial count; refuted when the tracker is full (for every number of denials)."
  },
  {
   "property": "C32",
   "status": "proved",
   "theorems": [
    "C32_concurrency",
    "C32_capacity",
    "C32_overlap_refuted",
    "C32_priority",
    "C32_joins",
    "C32_once"
   ],
   "note": "Semaphore bound for all runs; capacity for non-overlapping process() calls, refuted for overlapping ones."
  },
  {
   "property": "C33",
   "status": "proved",
   "theorems": [
    "C33_pending",
    "C33_no_error",
    "C33_full_strands_refuted",
    "C33_backfill_refuted"
   ],
   "note": "Two strandings refuted: full queue on append, overflow while start() backfills."
  },
  {
   "property": "C34",
   "status": "proved",
   "theorems": [
    "C34_delivery",
    "C34_complete",
    "C34_returns",
    "C34_count",
    "C34_plain",
    "C34_wrong_type",
    "C34_kept",
    "C34_base_exception_refuted",
    "C34_bound_methods_refuted",
    "C34_equal_callables_refuted",
    "C34_mixed_refuted",
    "C34_subclasses_refuted"
   ],
   "note": "Refutations: BaseException, bound methods (no dedup, no unsubscribe), equal callables, object plus its own method, subclasses sharing a list."
  },
  {
   "property": "C35",
   "status": "proved",
   "theorems": [
    "C35_emit",
    "C35_independent",
    "C35_call_raises",
    "C35_call_raises_refuted",
    "C35_unsubscribe",
    "C35_count",
    "C35_topics",
    "C35_topics_refuted",
    "C35_unsubscribe_any_eq",
    "C35_kept"
   ],
   "note": "Refutations: a handler whose call raises prevents the others; topics() lists dead topics. Outer cancellation of emit is left out."
  },
  {
   "property": "C36",
   "status": "proved",
   "theorems": [
    "C36_return_exceptions",
    "C36_values",
    "C36_raises",
    "C36_no_error_lost",
    "C36_outer_cancelled",
    "C36_self_cancel_refuted"
   ],
   "note": "Refutation: self-raised cancellation. Task-group behaviour of anyio is assumed as stated in ModelGroup."
  },
  {
   "property": "C37",
   "status": "proved",
   "theorems": [
    "C37_bound",
    "C37_bad_limit",
    "C37_once",
    "C37_return_exceptions",
    "C37_values",
    "C37_raises",
    "C37_progress"
   ],
   "note": "Outer cancellation makes it raise (shared with C36)."
  },
  {
   "property": "C38",
   "status": "proved",
   "theorems": [
    "C38_trace",
    "C38_attempts",
    "C38_stops",
    "C38_no_deadline",
    "C38_delay",
    "C38_deadline",
    "C38_max_delay_refuted",
    "C38_overflow_refuted"
   ],
   "note": "Refutations: max_delay exceeded by jitter; OverflowError after 1025 failures."
  },
  {
   "property": "C39",
   "status": "proved",
   "theorems": [
    "C39_order",
    "C39_next",
    "C39_stops",
    "C39_limit",
    "C39_refused",
    "C39_leave",
    "C39_block_raises",
    "C39_progress",
    "C39_break_cancels_refuted",
    "C39_yield_all_completed_refuted"
   ],
   "note": "Refutations: break does not cancel; a failure hides unread results. The block is assumed not to catch the cancellation."
  },
  {
   "property": "C40",
   "status": "proved",
   "theorems": [
    "C40_refuses",
    "C40_return_exceptions",
    "C40_values",
    "C40_raises",
    "C40_bounds",
    "C40_progress",
    "C40_default",
    "C40_success_or_fatal",
    "C40_self_cancel_refuted"
   ],
   "note": "The conversion of input and output by to_list is C46; call_func's timeout is one of the call outcomes. Refutation: self-raised cancellation."
  },
  {
   "property": "C41",
   "status": "proved",
   "theorems": [
    "C41_batches",
    "C41_all",
    "C41_zero",
    "C41_negative_refuted"
   ],
   "note": "Stated on the list to_list returned (C46). Refutation: negative batch size."
  },
  {
   "property": "C42",
   "status": "proved",
   "theorems": [
    "C42_edit_distance",
    "C42_metric"
   ],
   "note": "Strings are lists of code points."
  },
  {
   "property": "C43",
   "status": "proved",
   "theorems": [
    "C43_range",
    "C43_identity",
    "C43_symmetry",
    "C43_hamming",
    "C43_scaling",
    "C43_empty_identity_refuted"
   ],
   "note": "Scores are exact rationals, cosine enters by its square; rounding of floats is not modelled. Refutation: empty strings."
  },
  {
   "property": "C44",
   "status": "proved",
   "theorems": [
    "C44_errors",
    "C44_best",
    "C44_all",
    "C44_case_sensitive",
    "C44_case_sensitive_all_refuted"
   ],
   "note": "lower() and the score function are parameters; scores are rationals. Refutation: case_sensitive does not return all matches."
  },
  {
   "property": "C45",
   "status": "proved",
   "theorems": [
    "C45_errors",
    "C45_no_keys",
    "C45_result",
    "C45_exact_and_origin",
    "C45_deterministic_refuted",
    "C45_empty_key_refuted"
   ],
   "note": "Mapping inputs only; lower() and the score are parameters; scores are rationals. Refutations: result depends on set order; empty expected key."
  },
  {
   "property": "C46",
   "status": "proved",
   "theorems": [
    "C46_flatten",
    "C46_shape",
    "C46_idempotent",
    "C46_use_values",
    "C46_unique",
    "C46_fallback",
    "C46_errors",
    "C46_distinct_kept_refuted",
    "C46_order_independent_error_refuted"
   ],
   "note": "Equality and hash are parameters; finite acyclic values. Refutations: items with colliding hashes are dropped; [frozenset(), set()] is accepted but not reversed."
  },
  {
   "property": "C47",
   "status": "proved",
   "theorems": [
    "C47_order",
    "C47_exact",
    "C47_key_types_refuted",
    "C47_key_texts_refuted",
    "C47_order_any_keys_refuted",
    "C47_equal_keys_refuted",
    "C47_equal_sets_refuted",
    "C47_nested_sets_refuted",
    "C47_objects_refuted",
    "C47_minus_one_refuted",
    "C47_modulus_refuted",
    "C47_float_values",
    "C47_zeros",
    "C47_float_keys_refuted",
    "C47_nan_refuted",
    "C47_nan_set_refuted",
    "C47_half_refuted",
    "C47_fractions_refuted"
   ],
   "note": "Subclasses of built-in types are left out; tuple and string hashes, the hash of a NaN and the texts of floats (different for different floats) are parameters. Twelve refutations mark the limits."
  },
  {
   "property": "C48",
   "status": "proved",
   "theorems": [
    "C48_bins",
    "C48_no_empty_bin_refuted"
   ],
   "note": "Strings enter by their lengths. Refutation: empty first bin."
  },
  {
   "property": "C49",
   "status": "proved",
   "theorems": [
    "C49_float",
    "C49_int",
    "C49_errors",
    "C49_bound_after_rounding_refuted",
    "C49_nan_in_bounds_refuted",
    "C49_documented_errors_refuted"
   ],
   "note": "Floats are exact rationals, infinities and NaN. Refutations: bounds after rounding, NaN within bounds, OverflowError."
  },
  {
   "property": "C50",
   "status": "proved",
   "theorems": [
    "C50_result",
    "C50_raises",
    "C50_errors",
    "C50_balanced_refuted",
    "C50_trailing_backslash_refuted"
   ],
   "note": "Refutations: cut inside a literal; trailing backslash."
  },
  {
   "property": "C51",
   "status": "proved",
   "theorems": [
    "C51_exact",
    "C51_idempotent",
    "C51_clean",
    "C51_leaves",
    "C51_written",
    "C51_text_refuted"
   ],
   "note": "Texts enter as blank or not; sets are lists in arbitrary iteration order; orjson.loads is a parameter. The YAML text itself is not modelled. Refuted: a text is written as that text."
  },
  {
   "property": "C52",
   "status": "proved",
   "theorems": [
    "C52_parse",
    "C52_parse_errors",
    "C52_map",
    "C52_map_raises",
    "C52_call",
    "C52_nest",
    "C52_conserved",
    "C52_no_schema",
    "C52_duplicate_refused_refuted",
    "C52_repeated_keyword_refused_refuted",
    "C52_keyword_kept_refuted",
    "C52_explicit_kept_refuted",
    "C52_optional_like_union_refuted"
   ],
   "note": "Works on syntax trees; the outcome of literal_eval on each argument is given. Refutations: duplicate and repeated names, _pos_ keywords, explicit nested argument lost, Optional fields."
  },
  {
   "property": "C53",
   "status": "proved",
   "theorems": [
    "C53_positions",
    "C53_column_refuted"
   ],
   "note": "Refuted: that the column is always the offset in the line plus one."
  },
  {
   "property": "C54",
   "status": "proved",
   "theorems": [
    "C54_total",
    "C54_names",
    "C54_strings"
   ],
   "note": "The character classes of Unicode (letters, digits, numerics) are parameters."
  },
  {
   "property": "C55",
   "status": "proved",
   "theorems": [
    "C55_any_spelling",
    "C55_round_trip"
   ],
   "note": "At the start of an OUT block; C58 covers strings anywhere among the fields."
  },
  {
   "property": "C56",
   "status": "proved",
   "theorems": [
    "C56_parse",
    "C56_source",
    "C56_value_error_refuted",
    "C56_no_eof_refuted"
   ],
   "note": "Refuted: that only ParseError escapes, and termination without EOF."
  },
  {
   "property": "C57",
   "status": "proved",
   "theorems": [
    "C57_content",
    "C57_own_refuted"
   ],
   "note": "Refuted: that it is the text between the declaration's own tags; C58 gives conditions under which it is."
  },
  {
   "property": "C58",
   "status": "proved",
   "theorems": [
    "C58_document",
    "C58_content_refuted",
    "C58_out_refuted"
   ],
   "note": "Assumes that Unicode white space is disjoint from letters and digits. Float texts are kept, not converted."
  },
  {
   "property": "C59",
   "status": "proved",
   "theorems": [
    "C59_sound",
    "C59_complete",
    "C59_errors",
    "C59_causes",
    "C59_declared",
    "C59_document",
    "C59_repeated_refuted",
    "C59_text_refuted",
    "C59_stale_action_refuted",
    "C59_order_refuted"
   ],
   "note": "Parameters: literal_eval, scalar converters, parse_function_call, model validation. Refuted: that every reference reaches the instance, that texts are kept, that the action table holds only pending actions, that declarations after OUT count. C59_document composes it with the lexer and parser."
  },
  {
   "property": "C60",
   "status": "proved",
   "theorems": [
    "C60_correct",
    "C60_safe",
    "C60_order",
    "C60_case_refuted",
    "C60_empty_refuted"
   ],
   "note": "Scores and thresholds are rationals; score function and lower-casing are parameters. Refuted: that a candidate differing only in case wins; that no candidates gives MissingFieldError."
  },
  {
   "property": "C61",
   "status": "proved",
   "theorems": [
    "C61_models",
    "C61_fields",
    "C61_thresholds",
    "C61_strict",
    "C61_fuzzy",
    "C61_exact",
    "C61_kept",
    "C61_capabilities",
    "C61_document",
    "C61_overwrite_refuted",
    "C61_field_overwrite_refuted",
    "C61_action_refuted"
   ],
   "note": "Composed with the lexer, parser and resolver models. Refuted: that no OUT field or model field is lost; that actions are corrected like variables."
  },
  {
   "property": "C62",
   "status": "proved",
   "theorems": [
    "C62_guard",
    "C62_message",
    "C62_not_model",
    "C62_revalidate",
    "C62_afterwards",
    "C62_extra_refuted",
    "C62_nested_refuted"
   ],
   "note": "Values are finite trees; model_dump without serializers, exclusions and aliases; validation is a parameter. Refuted: that calls in pydantic extra fields or other objects are found, and that nested calls survive re-validation."
  },
  {
   "property": "C63",
   "status": "proved",
   "theorems": [
    "C63_first",
    "C63_defaults",
    "C63_late",
    "C63_stable",
    "C63_construct",
    "C63_data",
    "C63_history_refuted",
    "C63_data_refuted"
   ],
   "note": "Single inheritance, no default factories. Refuted: that acceptance depends only on the declared fields."
  },
  {
   "property": "C64",
   "status": "proved",
   "theorems": [
    "C64_to_dict",
    "C64_updates",
    "C64_others_refuted"
   ],
   "note": "Copying of containers is a parameter. Refuted: that with_updates leaves the other fields unchanged."
  },
  {
   "property": "C65",
   "status": "proved",
   "theorems": [
    "C65_construct",
    "C65_get",
    "C65_updates",
    "C65_default",
    "C65_both",
    "C65_with_default",
    "C65_metadict",
    "C65_annotation",
    "C65_both_refuted"
   ],
   "note": "Positional metadata is given flattened. Refuted: that every accepted spec with a factory can make a default value."
  },
  {
   "property": "C66",
   "status": "proved",
   "theorems": [
    "C66_construct",
    "C66_get",
    "C66_check",
    "C66_include",
    "C66_exclude",
    "C66_both",
    "C66_include_empty_refuted",
    "C66_unnamed_refuted"
   ],
   "note": "Refuted: that an empty include selects nothing, that unnamed specs may be repeated."
  },
  {
   "property": "C67",
   "status": "proved",
   "theorems": [
    "C67_equality",
    "C67_least_recent",
    "C67_most_recent",
    "C67_transparent",
    "C67_equal",
    "C67_negative",
    "C67_agree",
    "C67_exact_refuted",
    "C67_agree_refuted"
   ],
   "note": "Key equality is any equivalence. Refuted: that the cached answer is identical to the fresh one, and that annotated() agrees with annotation."
  },
  {
   "property": "C68",
   "status": "proved",
   "theorems": [
    "C68_partition",
    "C68_none"
   ],
   "note": "CPython's group split modelled; leaf partition with positions."
  },
  {
   "property": "C69",
   "status": "proved",
   "theorems": [
    "C69_dump_total",
    "C69_dump_shape",
    "C69_roundtrip",
    "C69_metadata",
    "C69_created",
    "C69_no_class",
    "C69_no_metadata",
    "C69_wrong_key",
    "C69_unknown_class",
    "C69_own_lion_class_refuted",
    "C69_occupied_key_refuted",
    "C69_local_class_refuted",
    "C69_naive_refuted",
    "C69_dump_errors",
    "C69_fit"
   ],
   "note": "Text formats, class lookup and the dump of further fields are parameters. Float timestamps are exact in the model. Refuted: that every metadata entry, every key and every class round-trips."
  },
  {
   "property": "C70",
   "status": "proved",
   "theorems": [
    "C70_roundtrip",
    "C70_items",
    "C70_fail_fast",
    "C70_loaded_coherent",
    "C70_loaded_strict",
    "C70_items_no_list",
    "C70_via_element",
    "C70_db_fails",
    "C70_db_refuted",
    "C70_empty_constraint_refuted",
    "C70_name_refuted",
    "C70_empty_key_refuted",
    "C70_one_more"
   ],
   "note": "Items are elements or nodes without piles inside. Refuted: the round trip in db mode with default keys, of an empty type constraint, and of the metadata."
  },
  {
   "property": "C71",
   "status": "proved",
   "theorems": [
    "C71_roundtrip",
    "C71_codec",
    "C71_codec_twice",
    "C71_codec_fails",
    "C71_twice_refuted",
    "C71_unregistered_refuted"
   ],
   "note": "Refuted: the round trip with inverse codecs through Node.from_dict, and that the class is kept for unregistered classes."
  },
  {
   "property": "C72",
   "status": "proved",
   "theorems": [
    "C72_live_exact",
    "C72_no_false_leaks",
    "C72_not_weak",
    "C72_stale",
    "C72_progress",
    "C72_blocked",
    "C72_not_weak_refuted",
    "C72_deadlock_refuted"
   ],
   "note": "Refuted: that entries of objects without weak references disappear, and that the methods always return (the finalizer takes the same non-reentrant lock)."
  },
  {
   "property": "C73",
   "status": "proved",
   "theorems": [
    "C73_position",
    "C73_shape",
    "C73_string",
    "C73_total",
    "C73_only_type_error",
    "C73_set",
    "C73_enum",
    "C73_object",
    "C73_parser_unused",
    "C73_object_order",
    "C73_depth",
    "C73_suppress",
    "C73_flat",
    "C73_flat_string",
    "C73_flat_other",
    "C73_flat_object",
    "C73_recursive",
    "C73_is_dict",
    "C73_list_refuted",
    "C73_set_refuted",
    "C73_parser_refuted",
    "C73_subclass_refuted"
   ],
   "note": "Parsers, methods of objects, hashing and equality are parameters; values are finite trees, while objects may unfold forever. Refuted: that the result is always a dict, that sets survive, that a plain parser is used inside, that list subclasses keep their items."
  },
  {
   "property": "C74",
   "status": "proved",
   "theorems": [
    "C74_fresh",
    "C74_retry",
    "C74_streaming_kept_refuted"
   ],
   "note": "Also refuted: streaming is kept."
  },
  {
   "property": "C75",
   "status": "proved",
   "theorems": [
    "C75_accumulates",
    "C75_flat"
   ],
   "note": "All sequences."
  },
  {
   "property": "C76",
   "status": "proved",
   "theorems": [
    "C76_faithful",
    "C76_deep_refuted"
   ],
   "note": "Identity-based cycle detection included; refuted beyond the limit."
  },
  {
   "property": "C77",
   "status": "proved",
   "theorems": [
    "C77_first",
    "C77_outer",
    "C77_progress",
    "C77_empty"
   ],
   "note": "Outer cancellation included; an awaitable's outcome is then dropped, also an error."
  },
  {
   "property": "C78",
   "status": "proved",
   "theorems": [
    "C78_valid_json",
    "C78_result"
   ],
   "note": "The JSON parser and the cleaning are parameters here; the cleaning is modelled for C94."
  },
  {
   "property": "C79",
   "status": "proved",
   "theorems": [
    "C79_attributes",
    "C79_missing_refuted"
   ],
   "note": "Refuted: that a missing attribute raises AttributeError, which hasattr and copy need."
  },
  {
   "property": "C80",
   "status": "proved",
   "theorems": [
    "C80_default_kw",
    "C80_call",
    "C80_bcall_refuted"
   ],
   "note": "Refuted: that BcallParams calls bcall with its batch size."
  },
  {
   "property": "C81",
   "status": "proved",
   "theorems": [
    "C81_field",
    "C81_extra",
    "C81_own_extra",
    "C81_error",
    "C81_both",
    "C81_model",
    "C81_model_error",
    "C81_names",
    "C81_extra_refuted",
    "C81_default_refuted"
   ],
   "note": "pydantic itself is not modelled: a field is what is passed to Field. Refuted: that all custom metadata survives, and that spec and field agree on the default."
  },
  {
   "property": "C82",
   "status": "proved",
   "theorems": [
    "C82_graph",
    "C82_graph_db_fails",
    "C82_flow",
    "C82_flow_refs",
    "C82_flow_other_key_fails",
    "C82_graph_db_refuted",
    "C82_flow_refuted",
    "C82_flow_list",
    "C82_flow_list_more",
    "C82_flow_scalar",
    "C82_flow_parts"
   ],
   "note": "The check that progressions refer to items is a parameter that may depend on everything the round trip restores. Refuted: the db round trip with default keys, and the flow round trip with the same key on both sides."
  },
  {
   "property": "C83",
   "status": "proved",
   "theorems": [
    "C83_order",
    "C83_input",
    "C83_output",
    "C83_value_error",
    "C83_alcall_items",
    "C83_unique_alone_refuted",
    "C83_output_always_processed_refuted",
    "C83_text_is_one_item_refuted",
    "C83_alcall_agrees_refuted"
   ],
   "note": "The function may depend on the calls before; it does not change the list being iterated. Refuted: that input_unique works alone, that output options always apply, that a text is one item, that alcall and lcall agree on models."
  },
  {
   "property": "C84",
   "status": "proved",
   "theorems": [
    "C84_fences",
    "C84_blocks_exist",
    "C84_text",
    "C84_other",
    "C84_fenced",
    "C84_failure_visible_refuted",
    "C84_fence_in_string_refuted",
    "C84_one_if_single_refuted"
   ],
   "note": "The regular expression is modelled with greedy and lazy backtracking; the parser is a parameter (fuzzy_json is C78). Refuted: that failure is visible, that fences in strings are harmless, that one valid block gives one value."
  },
  {
   "property": "C85",
   "status": "proved",
   "theorems": [
    "C85_plain",
    "C85_matched",
    "C85_errors",
    "C85_mapping",
    "C85_extraction_failure_refuted",
    "C85_conversion_error_refuted",
    "C85_no_fields_refuted"
   ],
   "note": "Builds on C45 and C84; model_validate and the conversion of values that are no text are parameters. Refuted: that extraction failures are ValidationErrors, that failed conversion of a text is reported, that models without fields see no keys."
  },
  {
   "property": "C86",
   "status": "proved",
   "theorems": [
    "C86_response",
    "C86_unusable",
    "C86_update",
    "C86_none_on_failure_refuted"
   ],
   "note": "Refuted: that a failed validation always gives None (errors of other kinds propagate)."
  },
  {
   "property": "C87",
   "status": "proved",
   "theorems": [
    "C87_history",
    "C87_choice",
    "C87_decided",
    "C87_order",
    "C87_placeholder",
    "C87_clip",
    "C87_safe_refuted",
    "C87_additional",
    "C87_override_refuted"
   ],
   "note": "Refuted: that safe_fallback never raises, that the caller's order comes first. What textwrap does with a text that is too long is a parameter."
  },
  {
   "property": "C88",
   "status": "proved",
   "theorems": [
    "C88_sorted",
    "C88_deterministic",
    "C88_ties",
    "C88_address",
    "C88_no_address",
    "C88_same_set_refuted"
   ],
   "note": "Refuted: that equal sets always give equal output."
  },
  {
   "property": "C89",
   "status": "proved",
   "theorems": [
    "C89_options",
    "C89_lines",
    "C89_indent_refuted",
    "C89_flags_refuted"
   ],
   "note": "Assumed of orjson: the newline option appends a newline, and unindented output has no newline. Refuted: that lines are lines whatever the options, that flags count next to options."
  },
  {
   "property": "C90",
   "status": "proved",
   "theorems": [
    "C90_type",
    "C90_error",
    "C90_lines",
    "C90_type_list_refuted",
    "C90_bool_refuted",
    "C90_items_refuted",
    "C90_description_refuted"
   ],
   "note": "Schemas whose keys have values of the shape JSON schema gives them. Refuted: four claims, see the statement."
  },
  {
   "property": "C91",
   "status": "proved",
   "theorems": [
    "C91_accepted",
    "C91_refused",
    "C91_roundtrip",
    "C91_format",
    "C91_context_refuted",
    "C91_null_refuted"
   ],
   "note": "Assumed of the JSON writers: finite floats are read back exactly, orjson writes other floats as null and refuses json's names for them. Refuted: that to_dict leaves the context it is given alone, that the text null means None."
  },
  {
   "property": "C92",
   "status": "proved",
   "theorems": [
    "C92_kept",
    "C92_loaded",
    "C92_errors",
    "C92_class",
    "C92_back",
    "C92_nested_refuted",
    "C92_unknown_refuted"
   ],
   "note": "Class names have no dots. Refuted: that a dump always names the class that loads it, that unknown names are not found."
  },
  {
   "property": "C93",
   "status": "proved",
   "theorems": [
    "C93_path",
    "C93_join",
    "C93_files",
    "C93_done",
    "C93_succeeds",
    "C93_not_reserved",
    "C93_timeout",
    "C93_inside",
    "C93_escape_refuted",
    "C93_extension_refuted",
    "C93_backslash_refuted",
    "C93_trace_refuted"
   ],
   "note": "Refuted: that the path is always in the directory, that the extension asked for is used, that every backslash is refused, that a failing call changes nothing. No symbolic links, permissions or concurrent processes in the model."
  },
  {
   "property": "C94",
   "status": "proved",
   "theorems": [
    "C94_repaired",
    "C94_fuzzy",
    "C94_compact_refuted",
    "C94_list_refuted",
    "C94_colon_refuted",
    "C94_apostrophe_refuted",
    "C94_spaces_refuted"
   ],
   "note": "Refuted: that keys without quotes and single-quoted strings are always repaired or refused; the five refutations are texts that are answered with another value or rejected. The JSON parser is a parameter that reads strict JSON."
  },
  {
   "property": "C95",
   "status": "proved",
   "theorems": [
    "C95_timely",
    "C95_transparent",
    "C95_timeout",
    "C95_contained",
    "C95_contained_all",
    "C95_exact",
    "C95_uncaught",
    "C95_over",
    "C95_effective",
    "C95_effective_nested",
    "C95_effective_refuted",
    "C95_shield",
    "C95_runs",
    "C95_work_refuted",
    "C95_cancel_refuted"
   ],
   "note": "Refuted: that work past a deadline raises TimeoutError, that leaving a cancelled fail_after raises, that effective_deadline None means unlimited. anyio's cancel scopes are assumptions stated in ModelDeadline."
  },
  {
   "property": "C96",
   "status": "proved",
   "theorems": [
    "C96_fifo",
    "C96_fails",
    "C96_bounded",
    "C96_waits",
    "C96_put",
    "C96_put_closed",
    "C96_get",
    "C96_closed",
    "C96_drain",
    "C96_half",
    "C96_kept_refuted",
    "C96_interrupted_refuted"
   ],
   "note": "Refuted: that items whose put returned are received or can still be received after close; that an interrupted close frees waiting puts. anyio's memory object streams are assumptions as stated in ModelChannel."
  },
  {
   "property": "C97",
   "status": "proved",
   "theorems": [
    "C97_timestamp",
    "C97_timestamp_close",
    "C97_exact_refuted",
    "C97_last_refuted",
    "C97_int",
    "C97_float",
    "C97_datetime",
    "C97_iso",
    "C97_aware",
    "C97_aware_refuted",
    "C97_errors",
    "C97_valueerror_refuted",
    "C97_basic_date_refuted",
    "C97_bool"
   ],
   "note": "Refuted: exactness after 2242 and at the end of 9999; that created_at is always aware; that numeric-looking ISO dates are dates; that bad texts always raise ValueError."
  },
  {
   "property": "C98",
   "status": "proved",
   "theorems": [
    "C98_eq_hash",
    "C98_member",
    "C98_content",
    "C98_class_refuted",
    "C98_sentinel_refuted",
    "C98_python",
    "C98_json",
    "C98_json_exclude_refuted",
    "C98_roundtrip",
    "C98_rejects",
    "C98_sentinel_lost_refuted",
    "C98_eq_hash_refuted",
    "C98_frozen_refuted"
   ],
   "note": "Refuted: equality implies equal hash without the conditions; frozen models keep their hash; include and exclude count in json mode; sentinels survive."
  },
  {
   "property": "C99",
   "status": "proved",
   "theorems": [
    "C99_fresh",
    "C99_history",
    "C99_constant",
    "C99_errors",
    "C99_leak",
    "C99_value_error_refuted",
    "C99_failure_forgotten",
    "C99_reload_refuted",
    "C99_class_name",
    "C99_generic",
    "C99_nested",
    "C99_extract"
   ],
   "note": "Refuted: every failure is a ValueError; the type returned is the one the name denotes now."
  },
  {
   "property": "C100",
   "status": "proved",
   "theorems": [
    "C100_serial",
    "C100_exclusive",
    "C100_finish",
    "C100_quiet",
    "C100_answers",
    "C100_query_fails_refuted",
    "C100_half_added_refuted",
    "C100_acyclic_refuted"
   ],
   "note": "Refuted: queries succeed, and see whole edges, while other threads change the graph."
  },
  {
   "property": "C101",
   "status": "proved",
   "theorems": [
    "C101_alone",
    "C101_serial",
    "C101_unique",
    "C101_lookup",
    "C101_leaves",
    "C101_integrity",
    "C101_added_refuted",
    "C101_item_refuted",
    "C101_passed_over_refuted",
    "C101_remove_fails_refuted"
   ],
   "note": "Refuted: referential integrity under concurrent remove_item; remove_item failing only if the item is missing."
  },
  {
   "property": "C102",
   "status": "proved",
   "theorems": [
    "C102_accepts",
    "C102_result",
    "C102_refusal",
    "C102_split",
    "C102_private",
    "C102_defined_refuted",
    "C102_callable_refuted",
    "C102_inherited",
    "C102_own_refuted"
   ],
   "note": "Refuted: a decorated class has the members of its protocols (underscore names, annotations, values that cannot be called); __protocols__ of a class are what its own body implements."
  },
  {
   "property": "C103",
   "status": "proved",
   "theorems": [
    "C103_range",
    "C103_scaling",
    "C103_identity",
    "C103_symmetry",
    "C103_order",
    "C103_error",
    "C103_faithful",
    "C103_jaro_order_refuted",
    "C103_threshold_refuted"
   ],
   "note": "x ** 0.5 is a parameter assumed faithful (it never passes a float that bounds the root); C103_faithful shows that the correctly rounded square root is. Refuted: candidates of equal exact jaro score tie; a score meets every threshold that the exact score meets. Standard library axioms of the reals, see DESIGN.md."
  },
  {
   "property": "C104",
   "status": "proved",
   "theorems": [
    "C104_value",
    "C104_accepts",
    "C104_small_ints",
    "C104_float_bounds",
    "C104_round",
    "C104_refusal",
    "C104_int_refuted",
    "C104_bound_refuted",
    "C104_trunc_refuted",
    "C104_half_refuted"
   ],
   "note": "Refuted: an int is returned as given; an int within int bounds is accepted and one outside is refused; the int result is the number given cut towards zero; a precision rounds the number given half to even. Standard library axioms of the reals, see DESIGN.md."
  },
  {
   "property": "C105",
   "status": "proved",
   "theorems": [
    "C105_recognised",
    "C105_sound",
    "C105_run_sync",
    "C105_alcall",
    "C105_deliver",
    "C105_object_refuted",
    "C105_unhashable",
    "C105_kwarg_refuted",
    "C105_run_async",
    "C105_run_async_refuted"
   ],
   "note": "Refuted: every callable that returns a coroutine is recognised (objects with an async __call__); alcall passes its keyword arguments on; run_async raises what the coroutine raises (BaseExceptions are lost)."
  },
  {
   "property": "C106",
   "status": "proved",
   "theorems": [
    "C106_backoff",
    "C106_growth",
    "C106_agrees",
    "C106_jitter",
    "C106_error",
    "C106_overflow",
    "C106_int",
    "C106_deadline",
    "C106_no_deadline",
    "C106_ceiling_refuted",
    "C106_growth_refuted",
    "C106_strict_refuted"
   ],
   "note": "Refuted: jittered delays stay within max_delay; jittered delays grow; a jittered delay is below delay*(1+jitter)."
  },
  {
   "property": "C107",
   "status": "proved",
   "theorems": [
    "C107_sanitize",
    "C107_sanitize_twice",
    "C107_refused",
    "C107_not_installed",
    "C107_success",
    "C107_errors",
    "C107_file",
    "C107_generated_refuted",
    "C107_model_fallback_refuted",
    "C107_value_error_refuted",
    "C107_identifier_refuted",
    "C107_inside_refuted"
   ],
   "note": "Refuted: the class is a generated one (title BaseModel); a module with a class Model is always accepted; every string that is no JSON object raises ValueError; cleaned names are legal class names; the file is always inside the temporary directory."
  },
  {
   "property": "C108",
   "status": "proved",
   "theorems": [
    "C108_single",
    "C108_copies",
    "C108_class",
    "C108_one_thread",
    "C108_library",
    "C108_recognised",
    "C108_race_refuted",
    "C108_pickle_refuted"
   ],
   "note": "Refuted: concurrent first calls give one object; pickling preserves every singleton."
  },
  {
   "property": "C109",
   "status": "proved",
   "theorems": [
    "C109_exclusive",
    "C109_isolated",
    "C109_atomic",
    "C109_reenter",
    "C109_fifo",
    "C109_ends",
    "C109_no_deadlock",
    "C109_isolated_refuted",
    "C109_deadlock_refuted"
   ],
   "note": "Refuted: nobody else can use the pile during a block; tasks never deadlock."
  },
  {
   "property": "C110",
   "status": "proved",
   "theorems": [
    "C110_no_new_work",
    "C110_returns",
    "C110_runs_on",
    "C110_not_stopped",
    "C110_flag",
    "C110_cancelled",
    "C110_mode",
    "C110_stop_first_refuted",
    "C110_noticed_refuted",
    "C110_mode_refuted"
   ],
   "note": "Refuted: a stop() before execute() takes effect; a loop always notices stop(); execution_mode tells whether execute() runs."
  },
  {
   "property": "C111",
   "status": "proved",
   "theorems": [
    "C111_blocks",
    "C111_longest",
    "C111_score",
    "C111_range",
    "C111_zero",
    "C111_symmetric_refuted",
    "C111_optimal_refuted",
    "C111_insertion_refuted"
   ],
   "note": "difflib is modelled as in the standard library (no junk, autojunk on); the score is the exact quotient, not its float. Refuted: symmetry; optimality; a positive score for a text with one more character in front."
  },
  {
   "property": "C112",
   "status": "proved",
   "theorems": [
    "C112_meta_eq",
    "C112_meta_hash",
    "C112_spec",
    "C112_eq",
    "C112_params_hash",
    "C112_dataclass_hash",
    "C112_no_fields",
    "C112_element",
    "C112_meta_hash_refuted",
    "C112_transitive_refuted",
    "C112_spec_hash_refuted",
    "C112_content_refuted",
    "C112_hashable_refuted"
   ],
   "note": "Values, their ==, is, id, hash and str are parameters. Refuted: equal Metas or Specs have equal hashes; equality of Metas is transitive; Params and DataClass objects with equal content are equal; Params objects are hashable."
  },
  {
   "property": "C113",
   "status": "proved",
   "theorems": [
    "C113_order",
    "C113_got",
    "C113_put_result",
    "C113_bound",
    "C113_wait_ends",
    "C113_put",
    "C113_get",
    "C113_closed",
    "C113_after_close",
    "C113_close_wakes_get",
    "C113_drain_refuted",
    "C113_close_cut_refuted",
    "C113_maxsize"
   ],
   "note": "C96 states the order of calls as wholes; here tasks resume step by step. anyio's memory object streams are modelled from their documented behaviour and source, and are trusted. Refuted: close lets consumers fetch what was put (C113_drain_refuted); a cancelled close frees the waiting puts (C113_close_cut_refuted)."
  },
  {
   "property": "C114",
   "status": "proved",
   "theorems": [
    "C114_never_raises",
    "C114_response",
    "C114_dumpable",
    "C114_dumpable_refuted",
    "C114_error",
    "C114_defaults",
    "C114_builtin",
    "C114_error_dict",
    "C114_report",
    "C114_base"
   ],
   "note": "Values, json_dumpb and to_dict are parameters. Refuted: every reported response can be dumped (C114_dumpable_refuted). Exception groups are in C76."
  },
  {
   "property": "C115",
   "status": "proved",
   "theorems": [
    "C115_partition",
    "C115_slots",
    "C115_joins",
    "C115_ends",
    "C115_outcome",
    "C115_capacity_moves",
    "C115_capacity",
    "C115_worn_out",
    "C115_timeout_refuted",
    "C115_stranded",
    "C115_stranded_running",
    "C115_siblings_refuted"
   ],
   "note": "Refuted: an interrupted call gives its capacity back; events it had dequeued are processed later; an event that cancels itself affects no other."
  },
  {
   "property": "C116",
   "status": "proved",
   "theorems": [
    "C116_accepts",
    "C116_batches",
    "C116_progress",
    "C116_nan_capacity",
    "C116_queue",
    "C116_start_refused",
    "C116_start",
    "C116_bounds_refuted"
   ],
   "note": "The documented bounds do not hold for NaN: C116_bounds_refuted, with the effect in C116_nan_capacity. All permissions are granted here; denials are in C30-C33, and start() under threads of control in C33."
  },
  {
   "property": "C117",
   "status": "proved",
   "theorems": [
    "C117_ends",
    "C117_flag",
    "C117_survives",
    "C117_cut_short",
    "C117_off",
    "C117_mode",
    "C117_left",
    "C117_worn_out",
    "C117_mode_refuted",
    "C117_again_refuted"
   ],
   "note": "Refuted: execution_mode tells whether execute() is running (C117_mode_refuted); execute() after a cancelled one resumes processing (C117_again_refuted)."
  },
  {
   "property": "C118",
   "status": "proved",
   "theorems": [
    "C118_bounded",
    "C118_rest",
    "C118_settles",
    "C118_forward",
    "C118_overlap_refuted",
    "C118_drain",
    "C118_decided",
    "C118_done",
    "C118_all_done",
    "C118_rounds"
   ],
   "note": "Refuted: overlapping process() calls all end (C118_overlap_refuted). With a full denial tracker an event can be denied for ever (C31_eviction_refuted). Cancelled calls and raising callbacks are in C115 and C117."
  },
  {
   "property": "C119",
   "status": "proved",
   "theorems": [
    "C119_new",
    "C119_slots",
    "C119_bound",
    "C119_no_idle",
    "C119_fifo",
    "C119_turn",
    "C119_enters",
    "C119_extra_refuted",
    "C119_stuck",
    "C119_reentry_refuted",
    "C119_zero"
   ],
   "note": "anyio's Semaphore enters by its documented behaviour: first in line, hand-over on release, cancelled waiters leave the line or pass the slot on. Refuted: the bound with a release() too many; reentrant use."
  },
  {
   "property": "C120",
   "status": "proved",
   "theorems": [
    "C120_text",
    "C120_element",
    "C120_node",
    "C120_pile_blind",
    "C120_pile_lost",
    "C120_pile",
    "C120_graph_lost",
    "C120_flow_lost",
    "C120_pile_refuted",
    "C120_graph_refuted",
    "C120_flow_refuted"
   ],
   "note": "Refuted for Pile, Graph and Flow: they override to_dict but inherit to_json, which dumps the declared fields only. A text is represented by the data orjson reads from it."
  },
  {
   "property": "C121",
   "status": "proved",
   "theorems": [
    "C121_refused",
    "C121_frame",
    "C121_history",
    "C121_created",
    "C121_left_out",
    "C121_created_as",
    "C121_status",
    "C121_timeout",
    "C121_again",
    "C121_closed",
    "C121_meta_dict",
    "C121_meta_errors",
    "C121_meta_numbers",
    "C121_meta_text",
    "C121_meta_list",
    "C121_meta_refuted"
   ],
   "note": "Pydantic's assignment validation enters by its documented behaviour; to_dict is the model of C73. Refuted: the docstring of the metadata validator (raises ValueError if conversion fails)."
  },
  {
   "property": "C122",
   "status": "proved",
   "theorems": [
    "C122_exact",
    "C122_again",
    "C122_missing",
    "C122_missing_refuted",
    "C122_never_run"
   ],
   "note": "Refuted: that completed events can always be cleaned away (after cleaning up an event being processed)."
  },
  {
   "property": "C123",
   "status": "proved",
   "theorems": [
    "C123_sound",
    "C123_errors",
    "C123_quiet",
    "C123_none",
    "C123_none_refuted",
    "C123_raises_refuted",
    "C123_reused_refuted"
   ],
   "note": "Refuted: that None means unreachable whatever others do, that no error occurs while both ends stay stored, and soundness when ids are used again. The search is only interrupted where a condition is awaited."
  },
  {
   "property": "C124",
   "status": "proved",
   "theorems": [
    "C124_lcall_same",
    "C124_lcall_appending",
    "C124_lcall_endless",
    "C124_lcall_removing",
    "C124_alcall_sound",
    "C124_alcall_raised",
    "C124_alcall_grown",
    "C124_alcall_shrinking",
    "C124_alcall_at_once",
    "C124_lcall_once_refuted",
    "C124_alcall_grown_refuted"
   ],
   "note": "Refuted: that a function is called once per item when it changes the list; that alcall reports only failures of calls. Cancellation from outside is not part of this model."
  },
  {
   "property": "C125",
   "status": "proved",
   "theorems": [
    "C125_names",
    "C125_found",
    "C125_freed",
    "C125_cleaned",
    "C125_renamed_refuted",
    "C125_progressions_refuted"
   ],
   "note": "Refuted: that names stay unique and findable when progressions are renamed or flow.progressions is used directly."
  },
  {
   "property": "C126",
   "status": "proved",
   "theorems": [
    "C126_unseen",
    "C126_removed",
    "C126_lost",
    "C126_bare",
    "C126_gone",
    "C126_moved",
    "C126_true",
    "C126_undecided",
    "C126_edges_refuted",
    "C126_atomic_refuted"
   ],
   "note": "Refuted: C17, C18 and C19 for graphs whose piles were changed directly."
  },
  {
   "property": "C127",
   "status": "proved",
   "theorems": [
    "C127_class",
    "C127_same",
    "C127_exact",
    "C127_threads",
    "C127_exact_refuted",
    "C127_same_refuted",
    "C127_threads_refuted"
   ],
   "note": "Refuted: that a subclass gives an object of its own; that it is always the same object (multiple inheritance, threads)."
  },
  {
   "property": "C128",
   "status": "proved",
   "theorems": [
    "C128_kept",
    "C128_plain",
    "C128_names",
    "C128_raises",
    "C128_again",
    "C128_installed",
    "C128_plain_refuted",
    "C128_installed_refuted"
   ],
   "note": "Refuted: that the module at a dotted path is given; that is_import_installed always answers."
  }
 ]
}