{
 "claims": [
  {
   "property": "C01",
   "status": "partial",
   "theorems": [
    "C01_round_trip_partial",
    "C01_round_trip_refuted",
    "C01_chunk_bound_tight"
   ],
   "note": "False as stated: once 4096 bytes are buffered before the end of the header has been seen (default chunk size and a message of 4096 bytes or more), decode raises UnboundLocalError. Proved for all chunks that together with the header fit the window; the bound is tight."
  },
  {
   "property": "C02",
   "status": "partial",
   "theorems": [
    "C02_sequence_partial",
    "C02_sync_free_junk_is_clean",
    "C02_truncated_partial",
    "C02_sequence_refuted",
    "C02_length_field",
    "C02_malformed_refuted",
    "C02_negative_refuted"
   ],
   "note": "Holds within the same window bound and for junk in which no message seems to start; refuted beyond the bound (leftover data of one message breaks the next). Refuted for messages of other senders too: a length that is no number raises ValueError on every later call, and a negative one cuts at a place counted from the end of the buffer."
  },
  {
   "property": "C03",
   "status": "proved",
   "theorems": [
    "C03_bytessource",
    "C03_recvall",
    "C03_netstringify"
   ],
   "note": ""
  },
  {
   "property": "C04",
   "status": "proved",
   "theorems": [
    "C04_view_live"
   ],
   "note": ""
  },
  {
   "property": "C05",
   "status": "partial",
   "theorems": [
    "C05_nested_view_refuted",
    "C05_nested_view_partial",
    "C05_condition_fixed_length",
    "C05_condition_front_anchored",
    "C05_subscript"
   ],
   "note": "Refuted: view(lst)[-3:][1:], read once and followed by an append, keeps showing the old positions. Proved whenever the length of each inner view determines what the next one selects."
  },
  {
   "property": "C06",
   "status": "proved",
   "theorems": [
    "C06_setitem",
    "C06_setitem_out_of_range",
    "C06_setslice",
    "C06_setslice_scalar",
    "C06_reverse",
    "C06_selected_meaning",
    "C06_condition_single"
   ],
   "note": ""
  },
  {
   "property": "C07",
   "status": "partial",
   "theorems": [
    "C07_in_slice_refuted",
    "C07_index_in_slice_refuted",
    "C07_in_slice_partial",
    "C07_index_in_slice_partial",
    "C07_out_of_range_rejected",
    "C07_in_slice_int",
    "C07_in_slice_nolength"
   ],
   "note": "False for exactly one kind of slice: negative step and start = length. Proved everywhere else."
  },
  {
   "property": "C08",
   "status": "partial",
   "theorems": [
    "C08_fupdate_index",
    "C08_fupdate_index_rejected",
    "C08_fupdate_index_at_len_ignored",
    "C08_fupdate_slice_refuted",
    "C08_fupdate_slice_partial",
    "C08_fupdate_slice_too_short",
    "C08_fupdate_slice_iterable"
   ],
   "note": "Same exception as C07 for slices; single indices and mappings are proved in full."
  },
  {
   "property": "C09",
   "status": "proved",
   "theorems": [
    "C09_fupdate_sequential",
    "C09_fupdate_compose",
    "C09_last_update_wins"
   ],
   "note": ""
  },
  {
   "property": "C10",
   "status": "partial",
   "theorems": [
    "C10_islice_slice_refuted",
    "C10_islice_slice_partial",
    "C10_islice_slice_excluded_raises",
    "C10_islice_step_rejected",
    "C10_islice_index",
    "C10_islice_negative_index",
    "C10_islice_negative_index_refuted"
   ],
   "note": "Refuted for a negative start with a positive stop before it (AssertionError) and a negative index before the start (gives the first item); proved otherwise."
  },
  {
   "property": "C11",
   "status": "proved",
   "theorems": [
    "C11_contents",
    "C11_construction_succeeds",
    "C11_empty_singleton",
    "C11_nonempty_fresh",
    "C11_equality",
    "C11_equal_hashes"
   ],
   "note": ""
  },
  {
   "property": "C12",
   "status": "partial",
   "theorems": [
    "C12_mogrify_partial",
    "C12_leaves",
    "C12_set_elements",
    "C12_identity",
    "C12_compose",
    "C12_shared_refuted",
    "C12_set_size_refuted",
    "C12_cyclic_refuted"
   ],
   "note": "Proved for structures in which no mutable container occurs twice. Refuted: shared containers are mapped twice, a self-containing list recurses without end, set size is not preserved."
  },
  {
   "property": "C13",
   "status": "proved",
   "theorems": [
    "C13_thread_local",
    "C13_isolation",
    "C13_box"
   ],
   "note": ""
  },
  {
   "property": "C14",
   "status": "partial",
   "theorems": [
    "C14_llist",
    "C14_llist_of_linked_list",
    "C14_lreverse",
    "C14_lappend",
    "C14_lzip",
    "C14_improper",
    "C14_atoms",
    "C14_reversed",
    "C14_llist_of_iterator_refuted",
    "C14_equality",
    "C14_hash",
    "C14_member",
    "C14_accessors"
   ],
   "note": "Everything proved; the one exception is llist() of a partly consumed reverse iterator, which gives all items."
  },
  {
   "property": "C15",
   "status": "partial",
   "theorems": [
    "C15_every_cell_is_a_chain",
    "C15_list_iterators",
    "C15_iterators_need_a_cell",
    "C15_tree_leaves_partial",
    "C15_tree_order_refuted",
    "C15_tree_order_partial"
   ],
   "note": "Leaves are visited exactly once; left-to-right order is false for cells with a cell on the left and a leaf on the right, and proved for all other trees."
  },
  {
   "property": "C16",
   "status": "proved",
   "theorems": [
    "C16_rows",
    "C16_foldl",
    "C16_foldr",
    "C16_scan_lengths",
    "C16_scanl_items",
    "C16_scanr_items",
    "C16_scan_last_is_fold",
    "C16_foldr_is_rfoldl",
    "C16_rfoldl",
    "C16_reducel",
    "C16_reducer"
   ],
   "note": ""
  },
  {
   "property": "C17",
   "status": "proved",
   "theorems": [
    "C17_unfold1_items",
    "C17_unfold1_end",
    "C17_iterate1_orbit"
   ],
   "note": ""
  },
  {
   "property": "C18",
   "status": "proved",
   "theorems": [
    "C18_prod",
    "C18_running_minmax",
    "C18_minmax"
   ],
   "note": ""
  },
  {
   "property": "C19",
   "status": "proved",
   "theorems": [
    "C19_split_at",
    "C19_negative_rejected",
    "C19_take_prefix",
    "C19_unpack",
    "C19_unpack_default",
    "C19_unpack_short",
    "C19_butlastn_lastn",
    "C19_butlast",
    "C19_nth",
    "C19_first_second",
    "C19_last",
    "C19_tail",
    "C19_pad"
   ],
   "note": ""
  },
  {
   "property": "C20",
   "status": "proved",
   "theorems": [
    "C20_window",
    "C20_chunked",
    "C20_small_n_rejected"
   ],
   "note": ""
  },
  {
   "property": "C21",
   "status": "proved",
   "theorems": [
    "C21_flatten_only_leaves",
    "C21_flatten_result",
    "C21_flatten_preserves_leaves",
    "C21_flatten_equations"
   ],
   "note": ""
  },
  {
   "property": "C22",
   "status": "proved",
   "theorems": [
    "C22_uniqify",
    "C22_uniq",
    "C22_picks_unique"
   ],
   "note": ""
  },
  {
   "property": "C23",
   "status": "partial",
   "theorems": [
    "C23_inn_refuted",
    "C23_inn_partial",
    "C23_iindex",
    "C23_iindex_absent",
    "C23_find"
   ],
   "note": "False for an infinite constant iterable that begins beyond x; proved otherwise."
  },
  {
   "property": "C24",
   "status": "proved",
   "theorems": [
    "C24_zip_positions",
    "C24_zip_lengths",
    "C24_zip_longest_positions",
    "C24_zip_longest_lengths",
    "C24_no_inputs",
    "C24_maps_are_zips",
    "C24_equal_lengths"
   ],
   "note": ""
  },
  {
   "property": "C25",
   "status": "proved",
   "theorems": [
    "C25_partition",
    "C25_interleave",
    "C25_interleave_no_inputs_diverges",
    "C25_subset",
    "C25_powerset",
    "C25_powerset_distinct",
    "C25_allsame"
   ],
   "note": ""
  },
  {
   "property": "C26",
   "status": "proved",
   "theorems": [
    "C26_partition_int_custom",
    "C26_partition_int_custom_rejected",
    "C26_partition_int",
    "C26_partition_int_triangular",
    "C26_bounds_rejected",
    "C26_default_upper"
   ],
   "note": ""
  },
  {
   "property": "C27",
   "status": "partial",
   "theorems": [
    "C27_assign",
    "C27_read_back_partial",
    "C27_read_back_refuted",
    "C27_failed_is_noop",
    "C27_finalized",
    "C27_with_block",
    "C27_lookup",
    "C27_distinct",
    "C27_delete",
    "C27_pop",
    "C27_popitem",
    "C27_clear",
    "C27_update",
    "C27_update_finalized",
    "C27_update_pairs_refuted",
    "C27_setdefault",
    "C27_names_valid_partial",
    "C27_names_valid_refuted",
    "C27_construct"
   ],
   "note": "update and setdefault accept invalid or reserved names, and names of env's own methods cannot be read back; proved otherwise."
  },
  {
   "property": "C28",
   "status": "partial",
   "theorems": [
    "C28_set_bound",
    "C28_set_unbound",
    "C28_rebind",
    "C28_history_partial",
    "C28_update_refuted",
    "C28_constructor_refuted"
   ],
   "note": "The constructor with bindings always raises, and update() rebinds silently; proved for all other operations."
  },
  {
   "property": "C29",
   "status": "partial",
   "theorems": [
    "C29_meaning",
    "C29_scopes_restored",
    "C29_values_restored",
    "C29_interleaved_blocks_refuted"
   ],
   "note": "Holds for properly nested blocks with any exceptions; refuted for blocks interleaved by a suspended generator."
  },
  {
   "property": "C30",
   "status": "partial",
   "theorems": [
    "C30_blocks_invisible",
    "C30_private",
    "C30_inherits",
    "C30_copy_at_start_refuted",
    "C30_copy_refuted"
   ],
   "note": "Per-thread push and pop proved; refuted: the copy is made at first use in the thread, and the scopes themselves are shared."
  },
  {
   "property": "C31",
   "status": "partial",
   "theorems": [
    "C31_every_instance_partial",
    "C31_once_partial",
    "C31_no_deadlock",
    "C31_getitem",
    "C31_getslice",
    "C31_one_generator_partial",
    "C31_one_generator_refuted"
   ],
   "note": "Proved per generator; refuted: overlapping calls of the generator function can make two generators for the same arguments."
  },
  {
   "property": "C32",
   "status": "partial",
   "theorems": [
    "C32_shared_instance_refuted"
   ],
   "note": "Refuted by a schedule of two threads. See C31 for what holds."
  },
  {
   "property": "C33",
   "status": "partial",
   "theorems": [
    "C33_key_sound",
    "C33_key_shared_partial",
    "C33_key_order_refuted",
    "C33_once_partial",
    "C33_same_answer_partial",
    "C33_no_deadlock",
    "C33_transparent",
    "C33_reentrant_refuted"
   ],
   "note": "Proved for functions that do not call themselves with the same binding while it is being computed, and, for the sharing of keys, without a **kwargs parameter; both exceptions are refuted."
  },
  {
   "property": "C34",
   "status": "partial",
   "theorems": [
    "C34_forall_partial",
    "C34_shadowing_refuted",
    "C34_type_error_refuted",
    "C34_stop_iteration_refuted",
    "C34_insist_refuted",
    "C34_left_identity_partial",
    "C34_right_identity_partial",
    "C34_associativity",
    "C34_functor_identity",
    "C34_functor_composition_partial",
    "C34_bind",
    "C34_guard",
    "C34_deny",
    "C34_lift",
    "C34_add",
    "C34_nil_refuted",
    "C34_type_errors"
   ],
   "note": "Proved for distinct names and bodies that do not raise; refuted: shadowed names leak, TypeError in a body is swallowed, StopIteration becomes RuntimeError, insist does not guard later lines, nil items break the laws."
  },
  {
   "property": "C35",
   "status": "partial",
   "theorems": [
    "C35_caught",
    "C35_uncaught",
    "C35_unhashable_refuted"
   ],
   "note": "Proved for hashable tags; refuted for unhashable ones."
  },
  {
   "property": "C36",
   "status": "proved",
   "theorems": [
    "C36_escapes",
    "C36_expired",
    "C36_transparent"
   ],
   "note": ""
  },
  {
   "property": "C37",
   "status": "proved",
   "theorems": [
    "C37_same_result",
    "C37_depth",
    "C37_constant_stack",
    "C37_jump_into_data",
    "C37_inert"
   ],
   "note": ""
  },
  {
   "property": "C38",
   "status": "partial",
   "theorems": [
    "C38_items",
    "C38_returns",
    "C38_raises",
    "C38_nothing_else",
    "C38_last_batch",
    "C38_last_batch_raises",
    "C38_value_refuted",
    "C38_typeerror_refuted"
   ],
   "note": "The yielded sequence is proved; refuted: an iterable last value is not returned, a TypeError in the last batch is swallowed."
  },
  {
   "property": "C39",
   "status": "partial",
   "theorems": [
    "C39_revisit",
    "C39_bottom",
    "C39_unchanged",
    "C39_deterministic",
    "C39_terminates",
    "C39_memo_refuted",
    "C39_tco_exception_refuted",
    "C39_bottom_args_refuted"
   ],
   "note": "Proved without memo, and for functions without cycles; refuted: with memo cyclic results depend on earlier calls, fixtco after an exception reports a false cycle, bottom gets arguments of another function."
  },
  {
   "property": "C40",
   "status": "partial",
   "theorems": [
    "C40_outermost",
    "C40_fix_nested",
    "C40_fixtco_nested",
    "C40_leak_refuted"
   ],
   "note": "Clean after every outermost call is proved; refuted for inner fixtco calls that raise."
  },
  {
   "property": "C41",
   "status": "proved",
   "theorems": [
    "C41_order",
    "C41_first",
    "C41_unmatched",
    "C41_deterministic"
   ],
   "note": ""
  },
  {
   "property": "C42",
   "status": "partial",
   "theorems": [
    "C42_invoke",
    "C42_transfer",
    "C42_foreign",
    "C42_available",
    "C42_same_name_refuted",
    "C42_stopiteration_refuted"
   ],
   "note": "Proved except for a restart function that invokes its own name (refuted), and a StopIteration from a restart function, which comes out as RuntimeError because restarts is a generator (refuted)."
  },
  {
   "property": "C43",
   "status": "proved",
   "theorems": [
    "C43_error",
    "C43_cerror",
    "C43_warn"
   ],
   "note": ""
  },
  {
   "property": "C44",
   "status": "proved",
   "theorems": [
    "C44_balanced",
    "C44_visible"
   ],
   "note": ""
  },
  {
   "property": "C45",
   "status": "partial",
   "theorems": [
    "C45_decline_partial",
    "C45_decline_refuted"
   ],
   "note": "Proved for handlers that decline without using `with handlers` or signalling; refuted otherwise (RuntimeError)."
  },
  {
   "property": "C46",
   "status": "partial",
   "theorems": [
    "C46_grouping_partial",
    "C46_waits_partial",
    "C46_third_step_refuted"
   ],
   "note": "Proved for functions with fixed parameters and at most two steps before the last one. Refuted beyond: the third step that leaves a parameter unbound raises TypeError (partial calls typing.get_type_hints on a functools.partial object), so curry(f)(1)(2)(3)(4) fails. This relies on CPython keeping partials of partials nested once they have a __dict__."
  },
  {
   "property": "C47",
   "status": "partial",
   "theorems": [
    "C47_to_callable_partial",
    "C47_to_data_partial",
    "C47_to_values_partial",
    "C47_exception_partial",
    "C47_top_level_refuted",
    "C47_keyword_only_refuted",
    "C47_var_keyword_refuted",
    "C47_early_named_refuted"
   ],
   "note": "Proved for positional parameters and at most two steps before the last one (see C46); refuted with keyword-only or **kwargs parameters, early surplus names, and at the top level when the first result is callable."
  },
  {
   "property": "C48",
   "status": "partial",
   "theorems": [
    "C48_composel",
    "C48_composer",
    "C48_assoc",
    "C48_pipe",
    "C48_piped",
    "C48_lazy_piped",
    "C48_persistent",
    "C48_composel1",
    "C48_composer1",
    "C48_compose1_arity",
    "C48_compose1_named",
    "C48_pipe1",
    "C48_piped1",
    "C48_lazy_piped1",
    "C48_curried",
    "C48_single_value_refuted",
    "C48_empty_refuted",
    "C48_composerc_refuted",
    "C48_piped_curried_refuted",
    "C48_no_values_refuted"
   ],
   "note": "Agreement proved where no function returns a one-item Values; five refutations (one-item and empty Values, no functions, curry context of composerc and of piped)."
  },
  {
   "property": "C49",
   "status": "proved",
   "theorems": [
    "C49_eq",
    "C49_not_values",
    "C49_iter",
    "C49_subscript",
    "C49_get",
    "C49_identity",
    "C49_identity_unit",
    "C49_const",
    "C49_valuify"
   ],
   "note": ""
  },
  {
   "property": "C50",
   "status": "partial",
   "theorems": [
    "C50_flip",
    "C50_rotate",
    "C50_rotate_rotate",
    "C50_rotate_range",
    "C50_tokth_partial",
    "C50_tolast_partial",
    "C50_to1st",
    "C50_to2nd",
    "C50_tolast_refuted",
    "C50_to",
    "C50_apply",
    "C50_results_compose"
   ],
   "note": "tokth with k = -n (tolast on one argument) raises IndexError; everything else proved."
  },
  {
   "property": "C51",
   "status": "proved",
   "theorems": [
    "C51_notf",
    "C51_andf",
    "C51_orf"
   ],
   "note": ""
  },
  {
   "property": "C52",
   "status": "partial",
   "theorems": [
    "C52_registry",
    "C52_function",
    "C52_no_match",
    "C52_method_partial",
    "C52_falsy_refuted",
    "C52_diamond_refuted",
    "C52_super_refuted",
    "C52_varargs_refuted"
   ],
   "note": "Functions proved in full. Methods: for true objects with linear inheritance; refuted for falsy objects, diamonds, super(), and empty *args: Tuple[int, ...]."
  },
  {
   "property": "C53",
   "status": "partial",
   "theorems": [
    "C53_decides",
    "C53_empty_builtin_refuted",
    "C53_object",
    "C53_str_subclass_refuted",
    "C53_tuple_subclass_refuted",
    "C53_dict_subclass_refuted",
    "C53_callable_class_refuted"
   ],
   "note": "Compositionality is proved in full; refuted at the leaves: classes that derive from builtin containers, and empty list and dict."
  },
  {
   "property": "C54",
   "status": "partial",
   "theorems": [
    "C54_letrec",
    "C54_let",
    "C54_body",
    "C54_duplicate",
    "C54_forward_reference",
    "C54_lispylet",
    "C54_do",
    "C54_do0_partial",
    "C54_do0_refuted",
    "C54_do_item",
    "C54_not_callable",
    "C54_begin",
    "C54_lazy_begin"
   ],
   "note": "let, letrec, do are proved; do0 with a first assignment to a method name is refuted."
  },
  {
   "property": "C55",
   "status": "proved",
   "theorems": [
    "C55_looped",
    "C55_looped_over",
    "C55_breakably_looped_over",
    "C55_fold",
    "C55_continue_break",
    "C55_deterministic"
   ],
   "note": ""
  },
  {
   "property": "C56",
   "status": "partial",
   "theorems": [
    "C56_try_partial",
    "C56_swallow_refuted",
    "C56_raisef",
    "C56_finally",
    "C56_invalid"
   ],
   "note": "Proved when the body does not raise or some handler matches; refuted otherwise: the exception is swallowed."
  },
  {
   "property": "C57",
   "status": "partial",
   "theorems": [
    "C57_reraise_in",
    "C57_total",
    "C57_reraise_partial",
    "C57_stop_refuted"
   ],
   "note": "reraise_in in full; the block form when no target is StopIteration (refuted: becomes RuntimeError)."
  },
  {
   "property": "C58",
   "status": "partial",
   "theorems": [
    "C58_unique",
    "C58_returns",
    "C58_no_deadlock",
    "C58_no_failure_partial",
    "C58_keyerror_refuted",
    "C58_finalizer_refuted"
   ],
   "note": "Uniqueness under every schedule is proved; refuted: sym() can raise KeyError with two threads and deadlock with a finalizer inside the lock."
  },
  {
   "property": "C59",
   "status": "partial",
   "theorems": [
    "C59_type_error",
    "C59_new_object",
    "C59_no_deadlock",
    "C59_unique_partial",
    "C59_signal_refuted",
    "C59_unpickle_refuted"
   ],
   "note": "Proved for all schedules without signal handlers inside the constructor; refuted with them, and for concurrent unpickling."
  },
  {
   "property": "C60",
   "status": "partial",
   "theorems": [
    "C60_stable",
    "C60_force_again",
    "C60_once_partial",
    "C60_symbol_refuted",
    "C60_base_exception_refuted",
    "C60_reentrant_refuted",
    "C60_threads_partial",
    "C60_threads_refuted",
    "C60_threads_exception_refuted",
    "C60_threads_error_partial",
    "C60_threads_later_error"
   ],
   "note": "Proved for one thread and acyclic promises whose thunks end with a value other than the marker symbol or an Exception; four kinds of exceptions refuted, and threads."
  },
  {
   "property": "C61",
   "status": "proved",
   "theorems": [
    "C61_primes_speed",
    "C61_primes_infinite",
    "C61_primes_memory"
   ],
   "note": ""
  },
  {
   "property": "C62",
   "status": "proved",
   "theorems": [
    "C62_diagonal_reduce",
    "C62_cauchyprod",
    "C62_cauchyprod_length",
    "C62_commutative",
    "C62_polynomial"
   ],
   "note": ""
  },
  {
   "property": "C63",
   "status": "partial",
   "theorems": [
    "C63_begins_with_terms_refuted",
    "C63_begins_with_terms_partial",
    "C63_arithmetic",
    "C63_geometric",
    "C63_inconsistent_rejected_partial",
    "C63_finite_arithmetic",
    "C63_finite_arithmetic_rejected",
    "C63_cyclic",
    "C63_plain",
    "C63_ints_small",
    "C63_ints_begins_partial",
    "C63_ints_arithmetic",
    "C63_ints_tolerance",
    "C63_syntax"
   ],
   "note": "Proved for exact fractions; int terms accepted approximately are refuted; the floating-point power test is not modelled."
  },
  {
   "property": "C64",
   "status": "proved",
   "theorems": [
    "C64_termwise",
    "C64_termwise_unary",
    "C64_shortest",
    "C64_fibonacci",
    "C64_triangular"
   ],
   "note": ""
  },
  {
   "property": "C65",
   "status": "partial",
   "theorems": [
    "C65_positional",
    "C65_unique",
    "C65_format",
    "C65_format_negative_refuted"
   ],
   "note": "Proved; format_human_time of negative times is refuted."
  },
  {
   "property": "C66",
   "status": "proved",
   "theorems": [
    "C66_popper",
    "C66_popper_next",
    "C66_popper_fifo",
    "C66_counting",
    "C66_slurp",
    "C66_slurp_complete",
    "C66_slurp_order"
   ],
   "note": ""
  },
  {
   "property": "C67",
   "status": "partial",
   "theorems": [
    "C67_includes",
    "C67_generic_covers",
    "C67_generic_exact_refuted",
    "C67_lower_refuted",
    "C67_kwargs",
    "C67_generic_kwargs_refuted"
   ],
   "note": "Plain functions proved; refuted for generic functions (range not exact, named arguments) and bound methods without self."
  },
  {
   "property": "C68",
   "status": "proved",
   "theorems": [
    "C68_fixpoint",
    "C68_fixpoint_terminates",
    "C68_fixpoint_exact",
    "C68_within"
   ],
   "note": ""
  },
  {
   "property": "C69",
   "status": "partial",
   "theorems": [
    "C69_streamsource_partial",
    "C69_streamsource_refuted"
   ],
   "note": "Nothing is lost (proved); the bound on the chunk size is refuted."
  },
  {
   "property": "C70",
   "status": "partial",
   "theorems": [
    "C70_read_partial",
    "C70_false_fallback_refuted",
    "C70_write"
   ],
   "note": "Proved for fallbacks that are true objects; refuted for falsy ones."
  },
  {
   "property": "C71",
   "status": "partial",
   "theorems": [
    "C71_live",
    "C71_released_refuted"
   ],
   "note": "Liveness proved; refuted that views are released."
  },
  {
   "property": "C72",
   "status": "partial",
   "theorems": [
    "C72_converts",
    "C72_unmapped",
    "C72_cerror_proceed_refuted",
    "C72_warn_muffle_refuted",
    "C72_subtype_refuted"
   ],
   "note": "The order and the first match are proved; refuted: proceed and muffle do not reach the original, a target that is a subtype of its source recurses without end."
  },
  {
   "property": "C73",
   "status": "partial",
   "theorems": [
    "C73_estimate_partial",
    "C73_all",
    "C73_keep_none_refuted"
   ],
   "note": "Proved for keep_last >= 1 or None; refuted for keep_last = 0."
  },
  {
   "property": "C74",
   "status": "proved",
   "theorems": [
    "C74_every_test_counted",
    "C74_session_means",
    "C74_session_not_nested"
   ],
   "note": ""
  },
  {
   "property": "C75",
   "status": "proved",
   "theorems": [
    "C75_report_faithful",
    "C75_testset"
   ],
   "note": ""
  },
  {
   "property": "C76",
   "status": "partial",
   "theorems": [
    "C76_terminate_ends_testset_partial",
    "C76_terminate_session_refuted",
    "C76_terminate_postproc_refuted"
   ],
   "note": "Proved: the testset in which terminate is called ends at once. Refuted: testset absorbs TestSessionExit (fixtures.py 694-695), so the rest of the session is run."
  },
  {
   "property": "C77",
   "status": "partial",
   "theorems": [
    "C77_stray_condition",
    "C77_counted_once_refuted",
    "C77_proceeds"
   ],
   "note": "Proved for cerror and warn; refuted for signal and error, which every enclosing testset counts again."
  },
  {
   "property": "C78",
   "status": "proved",
   "theorems": [
    "C78_autoreturn"
   ],
   "note": ""
  },
  {
   "property": "C79",
   "status": "partial",
   "theorems": [
    "C79_tco_partial",
    "C79_lockstep_partial",
    "C79_autoreturn_tco_partial",
    "C79_try_refuted",
    "C79_finally_refuted",
    "C79_and_refuted",
    "C79_uncallable_refuted",
    "C79_ec_refuted"
   ],
   "note": "Proved for programs where no tail call is inside a try or with body, no `and` in tail position may yield a false value other than False, and only functions are called. Refuted without these: a tail call in a try body escapes its handlers; finally and __exit__ run before the tail call; `x and f()` gives False for a false x; calling a non-function gives RuntimeError, not TypeError; functions with the names of escape continuations lose their return value."
  },
  {
   "property": "C80",
   "status": "proved",
   "theorems": [
    "C80_no_stack",
    "C80_room",
    "C80_proper"
   ],
   "note": ""
  },
  {
   "property": "C81",
   "status": "partial",
   "theorems": [
    "C81_meaning_partial",
    "C81_pending_refuted"
   ],
   "note": "Proved for programs in which every `x := v` is for a let or do variable, other than one which the surrounding local[] is just declaring (refuted for these), and whose variables do not have names of env's methods. do0, dlet/blet, comprehensions and the older binding syntaxes are not modelled."
  },
  {
   "property": "C82",
   "status": "partial",
   "theorems": [
    "C82_accepts",
    "C82_shadow_refuted",
    "C82_shadow_do_refuted",
    "C82_brackets_refuted"
   ],
   "note": "The theorem C82_accepts is complete for the fragment. Refuted against the documentation: shadowing of a do's variable by an inner let or do, and local[] in the bracketed body of a let inside a do, are SyntaxErrors."
  },
  {
   "property": "C83",
   "status": "partial",
   "theorems": [
    "C83_meaning_partial",
    "C83_steps",
    "C83_targets",
    "C83_none",
    "C83_odd_refuted"
   ],
   "note": "Proved for runs that do not come to one of six places, each refuted: a second call_cc[] in a function that was itself called with a continuation (the rest of the caller never runs), call_cc[None] there (the rest of the caller runs twice), a composed continuation that is called by hand or is the parent continuation (a TypeError, or a jump object instead of a value), and identity called with a continuation (a Values object that contains the continuation), `return a and f()` with a false a other than False (gives False), and a tail call in the body of a try statement (escapes its handler). let and do in return values, finally, break, continue, and cc as an explicit parameter are not modelled."
  },
  {
   "property": "C84",
   "status": "proved",
   "theorems": [
    "C84_accepts"
   ],
   "note": ""
  },
  {
   "property": "C85",
   "status": "proved",
   "theorems": [
    "C85_plain"
   ],
   "note": ""
  },
  {
   "property": "C86",
   "status": "partial",
   "theorems": [
    "C86_name_partial",
    "C86_self_refuted",
    "C86_order",
    "C86_duplicate"
   ],
   "note": "Refuted when the right hand side has the name itself in it (x << g(x)): the expansion never ends. Otherwise proved."
  },
  {
   "property": "C87",
   "status": "partial",
   "theorems": [
    "C87_template_partial",
    "C87_use_partial",
    "C87_later_refuted",
    "C87_own_refuted",
    "C87_nested_refuted",
    "C87_count"
   ],
   "note": "Proved when no parameter's name is in the code the template is used on. Refuted otherwise: arguments are put in one after the other, so f[a, b] << a - b makes f[b, c] into c - c; f[a] << g(a) on f[h(a)] never ends; and a template that is just its parameter leaves f[f[x]] as f[x]."
  },
  {
   "property": "C88",
   "status": "partial",
   "theorems": [
    "C88_block",
    "C88_tests",
    "C88_branch",
    "C88_expr_body",
    "C88_user_code_refuted"
   ],
   "note": "The claim that other code stays as it is is refuted: eliminate_ifones also works on the user's own `if 1:` and `if 0:`, so that a function whose body is `if 0: yield` is left without a body. Definitions with parameters in block mode, and nested let_syntax blocks, are not covered by C88_block."
  },
  {
   "property": "C89",
   "status": "partial",
   "theorems": [
    "C89_meaning_partial",
    "C89_untouched",
    "C89_quote_unquote",
    "C89_stray_unquote",
    "C89_starred_refuted",
    "C89_empty_refuted"
   ],
   "note": "Proved for code without kw(**d). Refuted for that: the code looks for Starred in keyword arguments, where it never is, so kw(**d) is accepted, and of kw(**a), kw(**b) only b is passed on. The empty tuple raises ValueError, also as data in a quoted tuple."
  },
  {
   "property": "C90",
   "status": "partial",
   "theorems": [
    "C90_call_by_name_partial",
    "C90_once_partial",
    "C90_unused_refuted"
   ],
   "note": "Proved for code in which the container of a subscript is a name, a subscript or a call of such, and a starred argument is not a name or a subscript. Refuted: an argument that is a subscript, as in f(x[1/0]), is looked up at the call, used or not."
  },
  {
   "property": "C91",
   "status": "partial",
   "theorems": [
    "C91_same_value_partial",
    "C91_leak_refuted",
    "C91_starred_refuted"
   ],
   "note": "Proved for the same code as C90. Refuted outside it: in (a if x == (3,) else b)[0] the name x is not forced all the way, so a tuple of promises is compared; f(*x) where x is a parameter raises TypeError, because a promise is not iterable. By reading, not modelled: x += 1 on a parameter, and names in default values, are not forced either."
  },
  {
   "property": "C92",
   "status": "partial",
   "theorems": [
    "C92_loops_partial",
    "C92_insist",
    "C92_only_first",
    "C92_type_error_refuted",
    "C92_stop_iteration_refuted",
    "C92_ignored_refuted"
   ],
   "note": "Proved for lines of which none after the first raises TypeError or StopIteration, and no body that mentions `_ignored`. Refuted: a TypeError in a later line is swallowed (from_iterable catches it and retries the exhausted generator), so results disappear silently; a StopIteration becomes RuntimeError; a line without a name assigns a variable `_ignored`."
  },
  {
   "property": "C93",
   "status": "partial",
   "theorems": [
    "C93_fn_partial",
    "C93_ends",
    "C93_if_refuted",
    "C93_dict_refuted",
    "C93_lambda_refuted"
   ],
   "note": "Proved for code in which, inside of an fn[...], no lambda has a parameter named `_`, `a if t else b` has underscores in a or in t but not in both, and no underscore in a value of a dictionary display stands before one in a key. Refuted outside: the parameters come in the order of the fields of the ast nodes, so fn[_ if _ else _] takes the test first and fn[{_: _, _: _}] the keys first; fn[(lambda _: _)(7)] captures the parameter of the lambda. Comprehensions, which have the same defect of order (element first), are not modelled."
  },
  {
   "property": "C94",
   "status": "partial",
   "theorems": [
    "C94_curried_partial",
    "C94_plain",
    "C94_third_step_refuted",
    "C94_call_data_refuted",
    "C94_left_over_refuted",
    "C94_nested_lambda_refuted",
    "C94_argument_lambda_refuted"
   ],
   "note": "Proved where curried evaluation raises no TypeError and each manual curry() of a lambda is of the form curry(lambda ...: body) without a lambda in the body. Refuted outside: a third partial application of the same function, add4(1)(2)(3)(4), is a TypeError (the spec has this limit built in as an option); in the block the call of something that is not callable, such as 5(1), returns it and drops the arguments (fun.py 308 returns before it looks at the arguments), and so does curry(5, 1); arguments left over are an error only at the top level, in the body of a curried function they give a Values object; the lambdas inside curry(lambda ...) are not curried, since the state hascurry is not reset; a lambda passed to a manually curried function, curry(f)(lambda ...), is taken for a decorated lambda and not curried. C94_plain holds without these restrictions."
  },
  {
   "property": "C95",
   "status": "partial",
   "theorems": [
    "C95_regroup_partial",
    "C95_order_refuted",
    "C95_surplus_refuted",
    "C95_third_step_refuted",
    "C95_empty_refuted"
   ],
   "note": "Proved for programs that run without error in curried evaluation, with at least one argument in the second group, up to the order of the effects. The regrouped program must also not run into the limit on partial application (refuted: add4(1)(2)(3)(4)). Refuted without them: the order of effects may change, f(1)(2) is 1 and f(1, 2) a TypeError for f = lambda x: x, and f()() is not f()."
  },
  {
   "property": "C96",
   "status": "partial",
   "theorems": [
    "C96_generic",
    "C96_no_false_alarm",
    "C96_first_partial",
    "C96_call",
    "C96_second_rejected_refuted",
    "C96_second_accepted_refuted",
    "C96_default_refuted",
    "C96_varargs_refuted"
   ],
   "note": "Generic functions (not methods): full, for definitions without *args and **kwargs whose defaults have the annotated types. Plain functions with annotations: proved for the first partial. Refuted for a partial of a partial: line 163 binds the collected arguments to func, whose signature lacks the parameters already bound, instead of thecallable, so valid arguments are rejected and invalid ones accepted. Refuted also for defaults not of the annotated type (x: int = None) and for an annotation on *args, which are held against the annotation although no argument was given."
  },
  {
   "property": "C97",
   "status": "partial",
   "theorems": [
    "C97_call_partial",
    "C97_pass_partial",
    "C97_keep_partial",
    "C97_error_partial",
    "C97_named_refuted",
    "C97_kwonly_refuted"
   ],
   "note": "Proved for positional arguments and definitions with positional parameters only. Refuted with named arguments (the TypeError of _bind for one definition is not caught, so a later definition hides an earlier one that accepts) and with keyword-only parameters (a surplus positional argument is also held against the type of the keyword-only parameter). Methods are not covered."
  },
  {
   "property": "C98",
   "status": "partial",
   "theorems": [
    "C98_meaning_partial",
    "C98_first_object",
    "C98_variable",
    "C98_target_refuted",
    "C98_as_name_refuted",
    "C98_reserved_refuted",
    "C98_shadow_refuted",
    "C98_loop_refuted"
   ],
   "note": "Proved with the names in the targets of attribute assignments read as variables, and with inner objects that do not mention the as-name of their own block; both restrictions are necessary (refuted without). Refuted also: names that other macros use are never looked up (and for a missing comma at line 305 curryf and currycall, which should be exempt, are); an as-name that is hidden by a parameter; an anonymous block in a loop shares one variable between its runs."
  },
  {
   "property": "C99",
   "status": "partial",
   "theorems": [
    "C99_dlet_partial",
    "C99_let_partial",
    "C99_rest",
    "C99_loop_refuted",
    "C99_branch_refuted",
    "C99_nonlocal_refuted",
    "C99_delete_refuted",
    "C99_default_refuted",
    "C99_dletseq_refuted"
   ],
   "note": "Proved where compound statements do not mention names that they create or delete, inner functions do not mention names that the outer one declares nor delete names shadowed outside, and defaults and first iterables do not mention the parameters or targets; each condition is necessary (refuted without): a for loop's variable is not seen in its own body. Refuted also: parameters of a @dletseq function do not shadow. Classes, imports, match and except are not modelled."
  },
  {
   "property": "C100",
   "status": "partial",
   "theorems": [
    "C100_registry",
    "C100_import_order",
    "C100_sort",
    "C100_has_lambda",
    "C100_has_other",
    "C100_has_def",
    "C100_insert_partial",
    "C100_none",
    "C100_check_refuted",
    "C100_unordered_refuted",
    "C100_parametric_refuted",
    "C100_curryf_refuted",
    "C100_builtin_tco"
   ],
   "note": "Proved: the registry, the sorting of lambda decorators, detection, and the insertion among decorators without arguments. Refuted: decorators that are out of order are not noticed (the check looks at the running maxima), so that a wrong place is suggested; decorators with arguments are ignored when inserting; the curryf that autocurry adds is not a known name, so lambdas with it are not sorted."
  },
  {
   "property": "C101",
   "status": "partial",
   "theorems": [
    "C101_meaning_partial",
    "C101_lowered",
    "C101_accepts",
    "C101_multilambda_refuted",
    "C101_cond_refuted"
   ],
   "note": "Proved for all programs whose assignments are to variables of a let or do (as in C81) and that have no variable called `it`. Refuted: local[] in the brackets, if these are inside an item of a do[]."
  },
  {
   "property": "C102",
   "status": "partial",
   "theorems": [
    "C102_bindings",
    "C102_bindings_only",
    "C102_macro_partial",
    "C102_macro_empty",
    "C102_template_refuted",
    "C102_in_refuted",
    "C102_read",
    "C102_read_content",
    "C102_read_decorator",
    "C102_only",
    "C102_no_body_refuted",
    "C102_write_bindings",
    "C102_write_bindings_content",
    "C102_write_bindings_decorator",
    "C102_write_body_partial",
    "C102_write_body_content",
    "C102_write_body_refuted",
    "C102_assign",
    "C102_assign_rename",
    "C102_assign_only",
    "C102_do",
    "C102_do_only",
    "C102_rejects_bindings",
    "C102_rejects_view",
    "C102_rejects_decorator_body",
    "C102_rejects_assign",
    "C102_rejects_do"
   ],
   "note": "Proved for bindings without templates in the forms with `in` and `where`; a body is replaced correctly if it is none of the four node types that have a `value`. Refuted: templates of let_syntax there, `let[x << 1 in x]`, the missing body of a decorator (TypeError instead of None), and replacing a body that is a constant, attribute, subscript or `:=` (the missing return in _set_subscript_slice makes the tree cyclic)."
  },
  {
   "property": "C103",
   "status": "partial",
   "theorems": [
    "C103_made_let",
    "C103_made_dlet",
    "C103_made_do",
    "C103_read_let",
    "C103_read_dlet",
    "C103_read_do",
    "C103_write_body",
    "C103_write_bindings",
    "C103_write_bindings_decorator",
    "C103_write_do",
    "C103_only",
    "C103_names_refuted",
    "C103_rejects",
    "C103_rejects_body",
    "C103_rejects_body_decorator",
    "C103_rejects_bindings",
    "C103_rejects_bindings_decorator",
    "C103_rejects_do_body",
    "C103_labels"
   ],
   "note": "Proved for all trees the macros make. Refuted: that only expanded forms are recognised; functions and methods of the user called `letter` or `dof` are, too."
  },
  {
   "property": "C104",
   "status": "partial",
   "theorems": [
    "C104_meaning_partial",
    "C104_local_refuted",
    "C104_default_refuted",
    "C104_decorator_refuted",
    "C104_comprehension_refuted",
    "C104_function_refuted",
    "C104_method_refuted",
    "C104_self_refuted"
   ],
   "note": "Proved for programs that satisfy the conditions `fines` in EvfSpec. Each is necessary, by a counterexample: local variables, comprehension variables or functions with the name of a parameter around, defaults and decorators that mention a parameter's name, parameters called as methods of env, and self. gensym is modelled as one name for each depth of nesting."
  },
  {
   "property": "C105",
   "status": "partial",
   "theorems": [
    "C105_meaning_partial",
    "C105_names_partial",
    "C105_assigned",
    "C105_key_refuted",
    "C105_other_refuted",
    "C105_argument_refuted",
    "C105_default_refuted",
    "C105_keyword_refuted"
   ],
   "note": "Meaning: proved for programs without a lambda at a constant key that is not a string, where the macro makes the program raise TypeError (C105_key_refuted). Names: proved for `usual` programs; the conditions exclude decorated lambdas (C105_other_refuted, C105_argument_refuted), lambdas in default values (C105_default_refuted) and in the function part of a call with keyword arguments (C105_keyword_refuted). Macros inside the block, in particular autocurry, are not expanded."
  },
  {
   "property": "C106",
   "status": "partial",
   "theorems": [
    "C106_captures_partial",
    "C106_transparent",
    "C106_verdict",
    "C106_raises",
    "C106_block_verdict",
    "C106_block_raises",
    "C106_nested_refuted",
    "C106_block_refuted",
    "C106_trivial_refuted"
   ],
   "note": "C106_captures_partial is for programs without a the[] in another the[] (the source recorded for the outer one is not the code as written: C106_nested_refuted) and without a the[] of a test block inside another test block (it is recorded for the outer block: C106_block_refuted). Literals are shown although documented as skipped (C106_trivial_refuted). test_signals[] is not modelled; the run-time part, testset, is in C74-C77 (Tset)."
  },
  {
   "property": "C107",
   "status": "proved",
   "theorems": [
    "C107_state",
    "C107_names",
    "C107_call",
    "C107_env_argument",
    "C107_blet"
   ],
   "note": ""
  },
  {
   "property": "C108",
   "status": "partial",
   "theorems": [
    "C108_meaning_partial",
    "C108_transparent_partial",
    "C108_starred_refuted",
    "C108_source_refuted",
    "C108_twice_refuted",
    "C108_nested_refuted",
    "C108_value_refuted",
    "C108_clobber_refuted",
    "C108_passthrough"
   ],
   "note": "Partial because it fails for: starred arguments of print in a dbg block (values lost), dbg[] inside another dbg[] or an argument of such a print (expanded source shown), nested dbg[p] blocks, nb blocks nested in one function (print function of the inner stays), nb[value], programs that use the name theprint. Each is refuted with a witness; on all other programs proved. The layout of the printed text (header, sep) and a custom dyn.dbgprint_expr are not modelled."
  },
  {
   "property": "C109",
   "status": "partial",
   "theorems": [
    "C109_interrupt",
    "C109_sessions",
    "C109_fresh",
    "C109_reply_partial",
    "C109_end",
    "C109_empty_request",
    "C109_reply_refuted",
    "C109_alone",
    "C109_wire_partial",
    "C109_complete"
   ],
   "note": "Partial: requests that are the empty object, whose id is a list or an object, or for which the completer raises, get no reply (refuted with witnesses); pieces of a message must be of a size the decoder can cope with (see C01). One request is handled in one step: a REPL session does not close in the middle of one."
  },
  {
   "property": "C110",
   "status": "partial",
   "theorems": [
    "C110_thread_refuted",
    "C110_container_partial"
   ],
   "note": "The full statement is false: fg raises TypeError for every Thread, whatever its state (C110_thread_refuted). For an object that passes fg's test, proved."
  },
  {
   "property": "C111",
   "status": "partial",
   "theorems": [
    "C111_termwise_partial",
    "C111_scalar",
    "C111_lazy",
    "C111_shared_refuted",
    "C111_pow3_refuted"
   ],
   "note": "Partial because it fails when the same generator occurs twice in the expression (refuted: a + a), for pow(2, a, 5) (refuted), and, if an operand raises just after the other has ended, for comparisons with a plain iterable on the left, which Python mirrors. Elements are numbers, not iterables."
  },
  {
   "property": "C112",
   "status": "partial",
   "theorems": [
    "C112_dialogue_partial",
    "C112_quit_partial",
    "C112_faithful",
    "C112_all_shown",
    "C112_announced",
    "C112_cut_prompt_refuted",
    "C112_false_prompt_refuted",
    "C112_cut_character_refuted"
   ],
   "note": "Partial because the pieces must not cut prompts or characters, nor end with the text of a prompt in the output (all three refuted without this). Ctrl+C: see C135."
  },
  {
   "property": "C113",
   "status": "partial",
   "theorems": [
    "C113_dlet_partial",
    "C113_seq_partial",
    "C113_seq_nested",
    "C113_all_expanded",
    "C113_unchanged",
    "C113_local_shadows_refuted",
    "C113_local_in_if_refuted",
    "C113_default_refuted",
    "C113_decorator_refuted",
    "C113_hidden_default_refuted",
    "C113_seq_param_refuted",
    "C113_seq_state_refuted",
    "C113_seq_assign_refuted",
    "C113_seq_decorator_refuted"
   ],
   "note": "Partial because of the conditions in fine and seq_ok, each of which is refuted without it: local variables with the name of a let variable that are mentioned before the end of the statement that assigns to them, default values and decorators that mention the own let's names, default values hidden by parameters, parameters with the name of the first variable of a dletseq."
  },
  {
   "property": "C114",
   "status": "partial",
   "theorems": [
    "C114_get",
    "C114_unique",
    "C114_with_default",
    "C114_missing",
    "C114_default_refuted",
    "C114_endless",
    "C114_bounded",
    "C114_set",
    "C114_steps",
    "C114_set_missing",
    "C114_set_data",
    "C114_set_get",
    "C114_get_set",
    "C114_set_set",
    "C114_set_get_refuted"
   ],
   "note": "Partial only because the default does not act as in getattr when it has the attribute itself (refuted), and a value with the attribute is not read back after it was written (refuted)."
  },
  {
   "property": "C115",
   "status": "partial",
   "theorems": [
    "C115_round_trip_partial",
    "C115_all",
    "C115_dumps_partial",
    "C115_identity",
    "C115_twice",
    "C115_long_refuted",
    "C115_threadlocal_refuted",
    "C115_shim_refuted",
    "C115_singleton_refuted"
   ],
   "note": "Partial because of ThreadLocalBox and Shim (refuted), which are excluded by all_supported, and because the recursion limit bounds the depth of what can be pickled, in particular the length of linked lists (refuted for every limit). Keys of dictionaries are strings, numbers, symbols and singletons. pickle itself is modelled, not verified."
  },
  {
   "property": "C116",
   "status": "partial",
   "theorems": [
    "C116_repr_eval",
    "C116_repr_injective",
    "C116_depth",
    "C116_dotted_depth",
    "C116_lispyrepr_partial",
    "C116_lispyrepr_refuted"
   ],
   "note": "repr is proved in full; lispyrepr only for structures in which no list has cells as items, and refuted for the others. Atoms are abstract, with a representation of one word."
  },
  {
   "property": "C117",
   "status": "partial",
   "theorems": [
    "C117_next_float",
    "C117_ulp_partial",
    "C117_ulp_bounds",
    "C117_below_powers_refuted",
    "C117_subnormal_refuted",
    "C117_special"
   ],
   "note": "Proved for all normal floats but the last 1023 below each power of two (the 43-bit resolution of a logarithm near 1024); there the result is right or twice the right value. Refuted: the float just below each power of two from 8 on, the largest float, subnormal floats. int and mpf arguments are not modelled."
  },
  {
   "property": "C118",
   "status": "partial",
   "theorems": [
    "C118_equip",
    "C118_signal",
    "C118_error",
    "C118_cerror",
    "C118_warn",
    "C118_invalid",
    "C118_invalid_cause_partial",
    "C118_invalid_cause_refuted",
    "C118_none_refuted",
    "C118_cause_refuted",
    "C118_warn_class_refuted",
    "C118_equip_invalid"
   ],
   "note": "Proved for all stacks, heaps and handlers. Refuted: None as a condition, the message for an invalid cause, the cause of an instance signaled again, classes of warnings."
  },
  {
   "property": "C119",
   "status": "partial",
   "theorems": [
    "C119_carries",
    "C119_order",
    "C119_arrives",
    "C119_disconnect",
    "C119_once",
    "C119_stop",
    "C119_short_send_refuted",
    "C119_stop_refuted",
    "C119_broken_pipe_refuted",
    "C119_optional_refuted",
    "C119_unstarted_refuted"
   ],
   "note": "C119_carries assumes that send and write take all they are given (refuted otherwise). Refuted also: output pending at stop(), BrokenPipeError, missing callbacks, stop without start."
  },
  {
   "property": "C120",
   "status": "partial",
   "theorems": [
    "C120_all_or_nothing_partial",
    "C120_again",
    "C120_halt",
    "C120_failed_start_refuted",
    "C120_restore_refuted"
   ],
   "note": "Proved for histories in which ports can be bound and sys is not changed by others; refuted without: a failing start is not undone, and stop restores what was there at import."
  },
  {
   "property": "C121",
   "status": "partial",
   "theorems": [
    "C121_total",
    "C121_symmetric",
    "C121_equal",
    "C121_special",
    "C121_relative",
    "C121_absolute",
    "C121_exact",
    "C121_signs",
    "C121_transitive_refuted",
    "C121_int_partial",
    "C121_int_zero",
    "C121_int_refuted"
   ],
   "note": "Everything is proved for floats. For ints C121_int_partial requires that the sizes add up to at most the largest float; C121_int_refuted shows the OverflowError beyond 2^1024."
  },
  {
   "property": "C122",
   "status": "partial",
   "theorems": [
    "C122_iter",
    "C122_items",
    "C122_eq",
    "C122_getitem_partial",
    "C122_contains_partial",
    "C122_get_partial",
    "C122_class_names_refuted",
    "C122_keyerror_refuted",
    "C122_view_assignment_refuted"
   ],
   "note": "C122_getitem_partial, C122_contains_partial and C122_get_partial are about names that are not attributes of the class; C122_class_names_refuted shows that they fail for those, in every state."
  },
  {
   "property": "C123",
   "status": "partial",
   "theorems": [
    "C123_source",
    "C123_target_partial",
    "C123_target_refuted",
    "C123_once",
    "C123_delivered",
    "C123_delivered_refuted",
    "C123_inject",
    "C123_check",
    "C123_not_thread",
    "C123_unstarted_refuted",
    "C123_outcomes",
    "C123_unsupported"
   ],
   "note": "C123_target_partial assumes that the system does not give an ident twice; C123_target_refuted shows that without this a call with the object of a thread that has ended raises the exception in another thread."
  },
  {
   "property": "C124",
   "status": "partial",
   "theorems": [
    "C124_store_partial",
    "C124_store_sound",
    "C124_store_error",
    "C124_del_partial",
    "C124_declared",
    "C124_function_partial",
    "C124_lambda",
    "C124_comprehension_partial",
    "C124_import_refuted",
    "C124_handler_refuted",
    "C124_walrus_refuted",
    "C124_match_refuted",
    "C124_del_refuted",
    "C124_nonlocal_refuted",
    "C124_target_refuted"
   ],
   "note": "Proved for statements without dotted imports, names bound in what is evaluated around an inner scope, := in comprehensions, and mapping or class patterns; each is refuted (the patterns raise TypeError: MatchCapturesCollector is called with the tree in its constructor, which takes none). For del, without handlers that have a name. Comprehension targets that are names or tuples of names. Done nodes and type parameters are not modelled."
  },
  {
   "property": "C125",
   "status": "partial",
   "theorems": [
    "C125_isolated",
    "C125_found_partial",
    "C125_restored",
    "C125_order_refuted",
    "C125_handed_refuted"
   ],
   "note": "The isolation is proved for threads that use the blocks they made, in any order. What is found is proved for handlers that are properly nested in handlers, and restarts in restarts, each entered once at a time; for blocks left in any order, that nothing fails and nothing is left behind; a block left while a younger one is open pops the younger one's bindings, and `handlers` made in one thread and entered in another act on the first thread's stack (refuted). The listings are compared before they are sorted."
  },
  {
   "property": "C126",
   "status": "partial",
   "theorems": [
    "C126_accepts",
    "C126_rejected",
    "C126_kinds",
    "C126_listing_partial",
    "C126_unbound_refuted",
    "C126_name_refuted",
    "C126_local_refuted",
    "C126_typed_refuted"
   ],
   "note": "Acceptance, rejection and isgeneric are proved in full. The listing is proved for functions without and bound methods with a first parameter named like self. Refuted: the listing of an unbound method lacks the definitions of the bases; with another name for self the listing shows definitions that are never tried; a generic function inside a function shares its definitions between all calls of that function, and a typed one raises TypeError the second time. The text that format_methods makes of a definition is not modelled."
  },
  {
   "property": "C127",
   "status": "partial",
   "theorems": [
    "C127_deregistered",
    "C127_contained",
    "C127_files",
    "C127_terminal_partial",
    "C127_terminal_refuted",
    "C127_message_refuted"
   ],
   "note": "The list of sessions, the errors and the files are proved. The terminal is closed if setting up and cleaning up do not fail; refuted otherwise: the try that stops the proxy begins only at line 488, so that every failure between line 452 and it (print to a client that has gone, a Ctrl+C, no more files) leaves the terminal open, as does a failing message at line 494. What interact() does inside is not modelled."
  },
  {
   "property": "C128",
   "status": "partial",
   "theorems": [
    "C128_sequence",
    "C128_imemoize",
    "C128_same",
    "C128_once",
    "C128_lazy",
    "C128_again",
    "C128_after",
    "C128_outside_refuted",
    "C128_goes_on_refuted"
   ],
   "note": "Proved when nobody else advances the iterator, and up to its first exception; refuted otherwise: items that others take are missing, and an iterator that could go on after an exception is not asked again."
  },
  {
   "property": "C129",
   "status": "proved",
   "theorems": [
    "C129_reads",
    "C129_first",
    "C129_distinct",
    "C129_unchanged",
    "C129_ends"
   ],
   "note": ""
  },
  {
   "property": "C130",
   "status": "proved",
   "theorems": [
    "C130_uniqify",
    "C130_uniq",
    "C130_take",
    "C130_drop",
    "C130_drop_all",
    "C130_butlastn",
    "C130_lastn",
    "C130_nth",
    "C130_last",
    "C130_scons",
    "C130_pad",
    "C130_interleave",
    "C130_flatmap",
    "C130_flatten",
    "C130_flatten1",
    "C130_flatten1_bare",
    "C130_flatten_in",
    "C130_window",
    "C130_within",
    "C130_find",
    "C130_iindex",
    "C130_subset",
    "C130_allsame",
    "C130_inn",
    "C130_unpack",
    "C130_split_at",
    "C130_refusals",
    "C130_refusals_unpack",
    "C130_refusals_window"
   ],
   "note": ""
  },
  {
   "property": "C131",
   "status": "proved",
   "theorems": [
    "C131_given",
    "C131_lazy",
    "C131_end",
    "C131_all",
    "C131_answers"
   ],
   "note": ""
  },
  {
   "property": "C132",
   "status": "partial",
   "theorems": [
    "C132_owned",
    "C132_next_chunk",
    "C132_first_item",
    "C132_next_item",
    "C132_possible",
    "C132_size",
    "C132_in_turn",
    "C132_any_order_refuted"
   ],
   "note": "Proved in full for any order of requests as far as ownership, order and reading go, and for chunks read in turn; refuted: chunks requested before the earlier ones are read do not have constant length, so list(chunked(2, range(4))) has four chunks of one item."
  },
  {
   "property": "C133",
   "status": "proved",
   "theorems": [
    "C133_map",
    "C133_mapr",
    "C133_rmap",
    "C133_scanl",
    "C133_foldl",
    "C133_scanr",
    "C133_foldr",
    "C133_rscanl",
    "C133_rfoldl",
    "C133_not_asked_again",
    "C133_scanl1",
    "C133_reducel",
    "C133_running_minmax",
    "C133_minmax",
    "C133_scanr1",
    "C133_reducer",
    "C133_rscanl1",
    "C133_rreducel"
   ],
   "note": ""
  },
  {
   "property": "C134",
   "status": "partial",
   "theorems": [
    "C134_calls",
    "C134_raises",
    "C134_atomic_refuted",
    "C134_exception_refuted"
   ],
   "note": "Proved as stated for structures without views in which no mutable container occurs twice; refuted: that a failed call changes nothing, and that the exception is always passed on unchanged (StopIteration in a tuple)."
  },
  {
   "property": "C135",
   "status": "partial",
   "theorems": [
    "C135_text_partial",
    "C135_lines_partial",
    "C135_answered",
    "C135_survives_partial",
    "C135_asks_again",
    "C135_without",
    "C135_twice_refuted",
    "C135_lost_refuted",
    "C135_line_refuted",
    "C135_end_refuted",
    "C135_served",
    "C135_replies_partial",
    "C135_replies_refuted"
   ],
   "note": "Proved for all sequences of interrupts that avoid the named instants; each of them is refuted (text twice, text lost, typed line lost, client ended by a second Ctrl+C, replies on the control channel lost for good). The number of requests, the new prompt and the agreement with C112 are proved without condition."
  },
  {
   "property": "C136",
   "status": "partial",
   "theorems": [
    "C136_meaning",
    "C136_once",
    "C136_restored",
    "C136_values",
    "C136_untouched",
    "C136_inside",
    "C136_again_refuted",
    "C136_nested_refuted"
   ],
   "note": "All programs of one thread. Two things that the documentation of let suggests are refuted for blocks that are entered again."
  },
  {
   "property": "C137",
   "status": "partial",
   "theorems": [
    "C137_meaning",
    "C137_anywhere",
    "C137_nested",
    "C137_errors",
    "C137_outside",
    "C137_outside_seq",
    "C137_assign_refuted",
    "C137_read_refuted"
   ],
   "note": "All expressions of the fragment, in both directions. Two ways in which assignment expressions in the body do not behave as without the let are refuted."
  },
  {
   "property": "C138",
   "status": "partial",
   "theorems": [
    "C138_orderly",
    "C138_undisturbed",
    "C138_any_order",
    "C138_as_by_one",
    "C138_restored",
    "C138_out_of_order",
    "C138_extent_refuted"
   ],
   "note": "Equal to the specification for orders that are last in, first out; for all other orders, without empty blocks, to what one piece of code taking the same steps would see, and the stack is restored in the end. The full statement is refuted."
  },
  {
   "property": "C139",
   "status": "partial",
   "theorems": [
    "C139_callec",
    "C139_callec_fails",
    "C139_isec",
    "C139_lambdas",
    "C139_lambdas_all",
    "C139_dof_refuted",
    "C139_once",
    "C139_good",
    "C139_same"
   ],
   "note": "All trees; the claim on lambdas is for trees without calls by the names dof and currycall, and is refuted for others. The walkers of mcpyrate are modelled after Python's own."
  },
  {
   "property": "C140",
   "status": "partial",
   "theorems": [
    "C140_report",
    "C140_one_history",
    "C140_depth",
    "C140_circle_refuted",
    "C140_limit_refuted"
   ],
   "note": "All histories with a beginning that fit in the recursion limit; circular and longer ones refuted. The texts of tracebacks, types and messages are given."
  },
  {
   "property": "C141",
   "status": "partial",
   "theorems": [
    "C141_measures",
    "C141_nested",
    "C141_not_entered",
    "C141_same_refuted",
    "C141_callsite",
    "C141_callsite_none",
    "C141_name_refuted"
   ],
   "note": "Times in whole units, not floating point. All programs in which a timer is not entered again within its own block; that case, and user functions named like the helpers, are refuted."
  },
  {
   "property": "C142",
   "status": "partial",
   "theorems": [
    "C142_strategy",
    "C142_constant",
    "C142_missing_partial",
    "C142_loops_refuted"
   ],
   "note": "Blocks of any kind around the signal that neither handle the condition nor have the restart. For a missing restart: proved if ControlError is not handled; refuted (no end) if the same handler gets it. One argument, one thread."
  }
 ]
}
