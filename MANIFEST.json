{
 "claims": [
  {
   "property": "C01",
   "status": "proved",
   "theorems": [
    "c01_finalize_then_read_back"
   ],
   "note": "For every heap value (strings < 2^32 bytes, keys <= 65535), walking or definalizing the finalized block at any 8-aligned address returns the value."
  },
  {
   "property": "C02",
   "status": "proved",
   "theorems": [
    "c02_finalize_in_bounds",
    "c02_huge_string_refuted",
    "c02_small_objects_finalize"
   ],
   "note": "Guarded by string length < 2^32; without the guard the model writes outside the allocation (witness)."
  },
  {
   "property": "C03",
   "status": "proved",
   "theorems": [
    "c03_lookup",
    "c03_non_ascii_refuted",
    "c03_nul_refuted",
    "c03_length_255_refuted",
    "c03_find_key",
    "c03_find_missing_refuted"
   ],
   "note": "For the object at every position and every search key; key restriction is no NUL, first two bytes ASCII, length other than 255; each restriction shown necessary. find() of a missing key uses an uninitialised index (refuted)."
  },
  {
   "property": "C04",
   "status": "proved",
   "theorems": [
    "c04_lookup_safe"
   ],
   "note": "For every accepted byte string at any address, every element reachable by any calls, every key."
  },
  {
   "property": "C05",
   "status": "proved",
   "theorems": [
    "c05_validation_total",
    "c05_lying_length"
   ],
   "note": "For every byte string at every address, aligned or not; is_valid and validate agree."
  },
  {
   "property": "C06",
   "status": "proved",
   "theorems": [
    "c06_walk_safe",
    "c06_definalize_safe",
    "c06_calls_safe",
    "c06_aligned",
    "c06_terminated",
    "c06_same_alignment",
    "c06_misaligned_refuted",
    "c06_boolean_refuted"
   ],
   "note": "Safe at the address that was validated (modulo 8). Two witnesses: bytes accepted at a misaligned address are read out of bounds once copied to an aligned block; a boolean byte other than 0/1 is accepted and reading it is undefined."
  },
  {
   "property": "C07",
   "status": "proved",
   "theorems": [
    "c07_accepts_finalized",
    "c07_accepts_bytes",
    "c07_null_in_array_refuted",
    "c07_null_in_object_refuted"
   ],
   "note": "All null-free objects, as roots or nested; nulls that are not last are rejected (witnesses)."
  },
  {
   "property": "C08",
   "status": "proved",
   "theorems": [
    "c08_canonical",
    "c08_bytes_exist",
    "c08_share_bytes_refuted"
   ],
   "note": "Same contents iff same bytes. share_bytes() of a nested buffer returns the root's bytes (refuted)."
  },
  {
   "property": "C09",
   "status": "proved",
   "theorems": [
    "c09_relocatable"
   ],
   "note": "Any nested object or array, at any position, any 8-aligned destination."
  },
  {
   "property": "C10",
   "status": "proved",
   "theorems": [
    "c10_merge",
    "c10_same_bytes",
    "c10_finalized_clean",
    "c10_inject"
   ],
   "note": "Any two finalized objects, from anywhere in any buffers, given that the result fits its block (C11) and the format; bytes are those of finalizing the mutable union."
  },
  {
   "property": "C11",
   "status": "proved",
   "theorems": [
    "c11_exact",
    "c11_adjacent",
    "c11_single",
    "c11_inject_one",
    "c11_small",
    "c11_overflow_refuted"
   ],
   "note": "In bounds exactly when room_union holds; always for one pair, non-interleaving keys, values of alignment <= 2. The unguarded statement is false (witness)."
  },
  {
   "property": "C12",
   "status": "proved",
   "theorems": [
    "c12_project",
    "c12_same_bytes",
    "c12_exact",
    "c12_overflow_refuted"
   ],
   "note": "Any key list no longer than the object; with more keys, in bounds exactly when room_selection holds (witnesses of overflow)."
  },
  {
   "property": "C13",
   "status": "proved",
   "theorems": [
    "c13_key_order"
   ],
   "note": "dart_comparator is the documented order and a strict total order."
  },
  {
   "property": "C14",
   "status": "proved",
   "theorems": [
    "c14_object_is_a_map",
    "c14_one_answer"
   ],
   "note": "Refinement to a finite map over all histories of 27 calls, from any object; the map specification is deterministic."
  },
  {
   "property": "C15",
   "status": "proved",
   "theorems": [
    "c15_array_is_a_list"
   ],
   "note": "Refinement to a list over all histories; sizes kept below 2^63 by a bound on the history length and resize counts."
  },
  {
   "property": "C16",
   "status": "proved",
   "theorems": [
    "c16_value_semantics",
    "c16_others_unchanged",
    "c16_observe_once",
    "c16_clear_refuted",
    "c16_resize_refuted",
    "c16_insert_lvalue_refuted"
   ],
   "note": "All histories over any number of variables; excluded and refuted: clear/resize on shared storage, inserting a non-const variable over an existing key (it is emptied), putting a handle into itself."
  },
  {
   "property": "C17",
   "status": "proved",
   "theorems": [
    "c17_counts_exact",
    "c17_nothing_leaks",
    "c17_self_insert_refuted",
    "c17_self_insert_over_refuted",
    "c17_resize_alias_refuted"
   ],
   "note": "All histories that put no handle into itself and resize no shared array; both exclusions refuted by a leak."
  },
  {
   "property": "C18",
   "status": "proved",
   "theorems": [
    "c18_failed_calls_change_nothing"
   ],
   "note": "Any failing call with any arguments, from any state such histories reach."
  },
  {
   "property": "C19",
   "status": "proved",
   "theorems": [
    "c19_integers"
   ],
   "note": "All 64-bit integers, any place in a block."
  },
  {
   "property": "C20",
   "status": "proved",
   "theorems": [
    "c20_decimals"
   ],
   "note": "All 64-bit patterns; single precision iff some single denotes the same number."
  },
  {
   "property": "C21",
   "status": "proved",
   "theorems": [
    "c21_bytes_kept",
    "c21_c_string",
    "c21_inline"
   ],
   "note": "Any base and appended part, whatever the memory held before."
  },
  {
   "property": "C22",
   "status": "proved",
   "theorems": [
    "c22_content",
    "c22_reflexive",
    "c22_symmetric",
    "c22_transitive",
    "c22_strings",
    "c22_nul_refuted",
    "c22_nan_refuted",
    "c22_sharing_refuted"
   ],
   "note": "Including arbitrary sharing of storage; symmetric and transitive without restriction. With NaN the answer depends on sharing (refuted)."
  },
  {
   "property": "C23",
   "status": "proved",
   "theorems": [
    "c23_generic",
    "c23_heap_buffer",
    "c23_null_refuted"
   ],
   "note": "Both operand orders, any element of a finalized object; total for all values. Only the mutable operand must be free of null members; NaN is covered (it equals nothing)."
  },
  {
   "property": "C24",
   "status": "proved",
   "theorems": [
    "c24_fits",
    "c24_other_roots",
    "c24_seven_refuted"
   ],
   "note": "Every text of the grammar, any sorting of members, any previous content of the block. Seven bytes per character would not do (refuted). The text-to-document step is RapidJSON's contract."
  },
  {
   "property": "C25",
   "status": "proved",
   "theorems": [
    "c25_value",
    "c25_meaning",
    "c25_long_key",
    "c25_sajson",
    "c25_scalar_root_refuted",
    "c25_big_integers_refuted"
   ],
   "note": "Any nesting; the meaning of a document is specified apart from the parser and shown unique. Scalar roots and integers from 2^63 on are refuted."
  },
  {
   "property": "C26",
   "status": "proved",
   "theorems": [
    "c26_agree",
    "c26_big_integers_refuted",
    "c26_duplicates_refuted",
    "c26_long_key_refuted",
    "c26_uninitialised_refuted",
    "c26_large_integer_nearest"
   ],
   "note": "Texts below 2^29 characters, short keys, no duplicates, integers in int64. Outside that the witnesses include a read outside the block chosen by the text's author."
  },
  {
   "property": "C27",
   "status": "proved",
   "theorems": [
    "c27_round_trip",
    "c27_finalized",
    "c27_scalar_refuted",
    "c27_nan_refuted"
   ],
   "note": "Heaps, buffers and packets; the written text is taken to be read back token by token."
  },
  {
   "property": "C28",
   "status": "proved",
   "theorems": [
    "c28_path_lookup",
    "c28_path_cases",
    "c28_empty_path"
   ],
   "note": "Heap and buffer; the three shapes of path text are exhaustive."
  },
  {
   "property": "C29",
   "status": "proved",
   "theorems": [
    "c29_buffer_iteration",
    "c29_buffer_keys",
    "c29_heap_iteration",
    "c29_heap_keys"
   ],
   "note": "Forward, reverse and key iteration of the aggregate at any position."
  },
  {
   "property": "C30",
   "status": "proved",
   "theorems": [
    "c30_packet_follows_its_value",
    "c30_same_answers",
    "c30_before_and_after",
    "c30_front_or_refuted",
    "c30_find_absent_refuted",
    "c30_at_index_refuted"
   ],
   "note": "All sequences of calls, both forms, against a specification machine. front_or/back_or, find of an absent key and at(index) on a non-array depend on the form (refuted)."
  },
  {
   "property": "C31",
   "status": "proved",
   "theorems": [
    "c31_mutations_refused",
    "c31_immutable",
    "c31_definalize",
    "c31_definalize_child"
   ],
   "note": "Every modelled mutating call, every finalized element, any sequence of calls."
  },
  {
   "property": "C32",
   "status": "proved",
   "theorems": [
    "c32_bytes",
    "c32_round_trip",
    "c32_model",
    "c32_model_signed",
    "c32_arithmetic",
    "c32_bits",
    "c32_subtract",
    "c32_subtract_refuted",
    "c32_scale_refuted"
   ],
   "note": "Both hosts, both orders, 8-64 bits, signed and unsigned; also the in-place operators. x -= narrower unsigned is wrong, 16-bit *= can overflow int (refuted)."
  },
  {
   "property": "C33",
   "status": "proved",
   "theorems": [
    "c33_step",
    "c33_history",
    "c33_plain_history",
    "c33_observers",
    "c33_unique",
    "c33_equal",
    "c33_lifetime",
    "c33_no_leak",
    "c33_move_exact",
    "c33_move_from_pointee_refuted",
    "c33_self_move_raw_refuted",
    "c33_cycle_refuted",
    "c33_null_owner_refuted"
   ],
   "note": "All operations of counted_ptr_base and of shareable_ptr around it, pointees that hold further pointers, any history. Moving into a pointer from inside its own pointee, and giving a shareable_ptr its own wrapped pointer, touch freed memory (refuted); c33_move_exact says exactly when."
  },
  {
   "property": "C34",
   "status": "proved",
   "theorems": [
    "c34_never_early",
    "c34_exactly_once",
    "c34_no_mistakes",
    "c34_all_dropped",
    "c34_can_finish",
    "c34_plain_counter_refuted"
   ],
   "note": "Any number of threads, any programs of copy, drop, use, look and hand-over, any schedule of atomic steps. unsafe_ptr's plain counter is refuted. One pointee; seq_cst interleaving."
  },
  {
   "property": "C35",
   "status": "proved",
   "theorems": [
    "c35_compare",
    "c35_substr",
    "c35_remove",
    "c35_at",
    "c35_front_back",
    "c35_copy",
    "c35_starts_ends",
    "c35_find",
    "c35_find_wraps",
    "c35_find_npos_refuted",
    "c35_rfind",
    "c35_rfind_refuted",
    "c35_find_first_of",
    "c35_find_last_of",
    "c35_find_last_of_refuted",
    "c35_find_first_not_of",
    "c35_find_first_not_of_refuted",
    "c35_find_last_not_of",
    "c35_find_last_not_of_refuted"
   ],
   "note": "Each function's exact behaviour; the standard's specification is refuted for rfind, find_last_of with an offset, find_first_not_of, find_last_not_of and find near npos."
  },
  {
   "property": "C36",
   "status": "proved",
   "theorems": [
    "c36_exact",
    "c36_narrow",
    "c36_wide_enough",
    "c36_sign_refuted"
   ],
   "note": "Every integer type of 1 to 8 bytes, signed or not, every value."
  },
  {
   "property": "C37",
   "status": "proved",
   "theorems": [
    "c37_round_trip",
    "c37_self_compare",
    "c37_stored",
    "c37_converts",
    "c37_reads",
    "c37_optional_refuted",
    "c37_variant_refuted",
    "c37_integer_keys_refuted",
    "c37_coarse_equality_refuted",
    "c37_float_nearest",
    "c37_has",
    "c37_bool"
   ],
   "note": "Every type built from scalars, strings, sequences, arrays, sets, maps, multimaps, optionals, pairs, tuples and variants, with any comparator and any hash order. Nested optionals, variants with overlapping alternatives, non-string keys and unordered multimaps with a coarse equality do not round trip (refuted); told_apart, keyed and self_equal exclude exactly these and NaN."
  },
  {
   "property": "C38",
   "status": "proved",
   "theorems": [
    "c38_exact",
    "c38_forward_list",
    "c38_multimap_blind",
    "c38_null_member_refuted",
    "c38_mixed_refuted",
    "c38_forward_list_refuted",
    "c38_multimap_refuted",
    "c38_integer_against_decimal",
    "c38_set",
    "c38_set_nul_refuted"
   ],
   "note": "Exact for all types without forward lists, sets and multimaps, when integers do not meet decimals and no member is null (both refuted otherwise). Forward lists: exact unless the packet is longer, then the list is overrun. Sets: exact as multisets, unless strings contain NUL (refuted)."
  },
  {
   "property": "C39",
   "status": "proved",
   "theorems": [
    "c39_number_left",
    "c39_answer_unique",
    "c39_number_right",
    "c39_number_right_swapped",
    "c39_number_right_refuted",
    "c39_update",
    "c39_increment",
    "c39_decrement",
    "c39_increment_refuted",
    "c39_update_finalized_refuted",
    "c39_integers_exact",
    "c39_cast_integer",
    "c39_cast_decimal",
    "c39_cast_double"
   ],
   "note": "Every number, every arithmetic operand and operator: the answer is the IEEE-754 one, rounded to nearest even, said without reference to an algorithm (SpecArith.v). t - n and t / n compute n - t and n / t (refuted; c39_number_right_swapped says so for all operands). += and ++ turn integers into decimals and stall above 2^53 (refuted). On a number out of a finalized packet they throw inside noexcept functions (refuted for all such numbers)."
  },
  {
   "property": "C40",
   "status": "proved",
   "theorems": [
    "c40_types",
    "c40_followed",
    "c40_construct",
    "c40_machine",
    "c40_no_terminate",
    "c40_moved_answers",
    "c40_moved_refuted",
    "c40_copy_refuted",
    "c40_dynamic_refuted",
    "c40_argument_refuted"
   ],
   "note": "Every program with wrappers and packets as variables: a wrapper constructed and not moved from holds its type, whatever bytes the packets have; construction from another type throws type_error. With valid packets every call answers as the machine in SpecWrap.v says and none ends the program (clear and resize are taken to act on storage not shared with other variables, see C16). A moved-from wrapper holds null, its copies are not checked, and a child taken with std::move(w).dynamic().get replaces the value (refuted)."
  },
  {
   "property": "C41",
   "status": "proved",
   "theorems": [
    "c41_refuses",
    "c41_refuses_shape",
    "c41_builds",
    "c41_same_bytes",
    "c41_any_order",
    "c41_size_unchecked_refuted"
   ],
   "note": "Any mix of mutable and finalized arguments. Results of 2^32 bytes or more are built with a truncated size field (refuted)."
  },
  {
   "property": "C42",
   "status": "proved",
   "theorems": [
    "c42_inject",
    "c42_inject_throws"
   ],
   "note": "Argument list given as key/value pairs."
  },
  {
   "property": "C43",
   "status": "proved",
   "theorems": [
    "c43_project"
   ],
   "note": ""
  },
  {
   "property": "C44",
   "status": "proved",
   "theorems": [
    "c44_buffers",
    "c44_form_independent",
    "c44_zero_refuted",
    "c44_nan_refuted",
    "c44_padding_refuted"
   ],
   "note": "Elements at any depth, of one block or of two. Signed zeros, NaN and foreign padding bytes make the answer depend on the form (refuted)."
  },
  {
   "property": "C45",
   "status": "proved",
   "theorems": [
    "c45_machine",
    "c45_defined",
    "c45_tags",
    "c45_codes",
    "c45_take",
    "c45_take_resets_refuted",
    "c45_take_failed_refuted",
    "c45_to_buffer_refuted",
    "c45_init_refuted",
    "c45_copy_refuted",
    "c45_failed_refuted"
   ],
   "note": "Every program of calls that keeps to the contract (careful) answers as SpecAbi.v says and never gets to undefined behaviour. What take leaves is said exactly (left_of); the documentation's version is refuted. Not here: JSON, bytes, iterators, clear, resize, reserve, equal, refcount."
  },
  {
   "property": "C46",
   "status": "proved",
   "theorems": [
    "c46_builds",
    "c46_long_name",
    "c46_only",
    "c46_failure",
    "c46_counter",
    "c46_inside",
    "c46_long_refuted",
    "c46_begin_refuted",
    "c46_comma_refuted",
    "c46_null_refuted"
   ],
   "note": "Formats and arguments are related to documents by a grammar (SpecVa.v); both directions are proved. Where the documentation of the formats says something else it is refuted."
  },
  {
   "property": "C47",
   "status": "proved",
   "theorems": [
    "c47_machine",
    "c47_defined",
    "c47_walk",
    "c47_kept",
    "c47_for_each_refuted",
    "c47_for_each_scalar_refuted",
    "c47_unknown"
   ],
   "note": "Every program with iterators that keeps to the contract (icareful) answers as SpecIter.v says. The loop written out with care is proved to visit every member in order; the macro dart_for_each is refuted for every aggregate and every other value. Mutable iterators are taken to dangle after any call that may change their variable."
  },
  {
   "property": "C48",
   "status": "proved",
   "theorems": [
    "c48_scalar",
    "c48_scalar_unique",
    "c48_parses",
    "c48_accepts",
    "c48_breaks_off",
    "c48_empty",
    "c48_buffer",
    "c48_buffer_roots",
    "c48_zero_byte_refuted",
    "c48_quoted_refuted",
    "c48_keys_refuted",
    "c48_shifted_refuted"
   ],
   "note": "libyaml is taken by contract (events of a tree). Number syntax is specified as a grammar of C literals; strtoll and strtod are modelled and proved to accept exactly those, with correct rounding. Keys that are aggregates are refuted: undefined behaviour, or silently another document."
  },
  {
   "property": "C49",
   "status": "proved",
   "theorems": [
    "c49_edits",
    "c49_others",
    "c49_erase_if",
    "c49_end_refuted",
    "c49_copy_refuted",
    "c49_clear_refuted",
    "c49_stale_refuted"
   ],
   "note": "Every careful program (SpecCursor.v: an iterator is used while its variable is unchanged, or is the one the last change returned) runs without undefined behaviour and agrees with positions in independent values; the erase loop is proved to filter. Careless uses are refuted."
  },
  {
   "property": "C50",
   "status": "proved",
   "theorems": [
    "c50_threads",
    "c50_looking",
    "c50_finished",
    "c50_ends",
    "c50_relaxed_refuted",
    "c50_clear_refuted",
    "c50_resize_refuted"
   ],
   "note": "Where reading a count acquires, every schedule is free of races and every thread behaves as if alone on independent values; with any counter for threads that only look. With std::shared_ptr's use_count (the default of dart::heap) in-place mutation races: refuted with a schedule. clear and resize, which do not copy on write, race with any counter."
  },
  {
   "property": "C51",
   "status": "proved",
   "theorems": [
    "c51_same",
    "c51_exact",
    "c51_finalized",
    "c51_bound",
    "c51_linear_refuted",
    "c51_probes"
   ],
   "note": "Validation costs exactly the places of the value; linear on the library's own buffers without nulls, at most exponential on any bytes, and really exponential on some: refuted as linear with a family of valid buffers. Key lookup is logarithmic on any bytes."
  },
  {
   "property": "C52",
   "status": "proved",
   "theorems": [
    "c52_views",
    "c52_uncounted",
    "c52_invisible",
    "c52_snapshot_refuted",
    "c52_growth_refuted",
    "c52_temporary_refuted"
   ],
   "note": "Views of mutable values refine live aliases of their variable for every program that respects their lifetime; they are not counted and invisible to the owners. Snapshot semantics, survival of growth and views of temporaries are refuted."
  },
  {
   "property": "C53",
   "status": "proved",
   "theorems": [
    "c53_programs",
    "c53_lifetimes",
    "c53_no_leaks",
    "c53_bytes_never_change",
    "c53_gone_is_gone",
    "c53_views_uncounted",
    "c53_as_owner_refuted",
    "c53_as_owner_moved_refuted",
    "c53_null_owner_refuted",
    "c53_view_alone_refuted"
   ],
   "note": "Refinement of immutable documents with holders, over counted blocks of real bytes: answers, counts and lifetimes for every program that respects views. as_owner pairs the element a view kept with the counted pointer its variable holds now: refuted after reassignment and after a move; a null can end up counted: refuted."
  },
  {
   "property": "C54",
   "status": "proved",
   "theorems": [
    "c54_programs",
    "c54_no_leaks",
    "c54_exceptions",
    "c54_mixed_comparisons",
    "c54_order",
    "c54_emplace_self_refuted",
    "c54_emplace_throws_refuted",
    "c54_deref_empty_refuted"
   ],
   "note": "Refinement of optional values for every program and every pattern of exceptions; living objects are counted. emplace of a reference into itself is undefined, and emplace does not restore the old value when it throws: refuted."
  },
  {
   "property": "C55",
   "status": "proved",
   "theorems": [
    "c55_pipeline",
    "c55_same_bytes",
    "c55_null_refuted",
    "c55_nan_refuted"
   ],
   "note": "Composition over the whole way: text, mutable value or buffer, validation, bytes at another address, validation, reading, text, parsing. For documents without null and with finite numbers; both restrictions are shown necessary."
  },
  {
   "property": "C56",
   "status": "proved",
   "theorems": [
    "c56_bound",
    "c56_exact",
    "c56_fixed_refuted"
   ],
   "note": "Fuel is read as the stack available: spent by one for each nested call and given back on return. The bound holds for any bytes at any address; exactness for accepted ones."
  },
  {
   "property": "C57",
   "status": "proved",
   "theorems": [
    "c57_packets",
    "c57_answers",
    "c57_counts",
    "c57_refcount",
    "c57_nothing_left",
    "c57_forms_agree",
    "c57_others_unchanged",
    "c57_self_insert_refuted"
   ],
   "note": "Refinement for every program over packets in both forms, composed from the stores of C17 and C53. Hypotheses: packets exist, keys and sizes are within what the format has room for, and no packet is copied into itself; the last is shown necessary."
  },
  {
   "property": "C58",
   "status": "proved",
   "theorems": [
    "c58_programs",
    "c58_without_copying",
    "c58_ownership",
    "c58_no_leaks",
    "c58_handed_over",
    "c58_copying_constructor_refuted",
    "c58_immutable_refuted",
    "c58_unaligned_refuted",
    "c58_failed_take_refuted"
   ],
   "note": "Refinement for every program of client and library. Hypotheses: the documented obligations, and that memory behind a handle is intact when read, which the documentation promises for copies and the code does not keep; the refutations show the second is necessary, and c58_without_copying that it is only needed for the copying constructor."
  },
  {
   "property": "C59",
   "status": "proved",
   "theorems": [
    "c59_packets_read",
    "c59_get",
    "c59_follow",
    "c59_get_typed",
    "c59_has_key",
    "c59_get_or",
    "c59_get_or_typed",
    "c59_own_keys",
    "c59_get_or_refuted",
    "c59_get_or_number_refuted"
   ],
   "note": "All forms, identifiers and paths. Hypotheses: keys within what finalized lookup is reliable for (C05), arrays no longer than memory allows; get_or on arrays with an integer, shown necessary."
  },
  {
   "property": "C60",
   "status": "proved",
   "theorems": [
    "c60_heap",
    "c60_programs",
    "c60_sharing_lost",
    "c60_packet",
    "c60_finalized_other",
    "c60_finalized_refuted"
   ],
   "note": "For every value and any state of both stores. Hypotheses: positive counts (c17_counts_exact), the value is one a heap can hold, arrays no longer than memory allows; finalized packets hold an object, shown necessary."
  },
  {
   "property": "C61",
   "status": "proved",
   "theorems": [
    "c61_reader",
    "c61_unambiguous",
    "c61_zero_ends",
    "c61_heap_outcome",
    "c61_buffer_outcome",
    "c61_forms_agree",
    "c61_written",
    "c61_round_trip",
    "c61_exact",
    "c61_injective",
    "c61_nan_refuted",
    "c61_c_text",
    "c61_c_parse",
    "c61_c_not_json",
    "c61_c_round",
    "c61_c_unterminated",
    "c61_c_returned",
    "c61_c_counter_refuted"
   ],
   "note": "For all byte strings and values. Printing and reading doubles are parameters with hypotheses met by c61_print and c61_scan; exactness of decimals (faithful) is a hypothesis of c61_exact, c61_injective and c61_c_round only. RapidJSON itself is not in /repo: the model follows its documentation."
  },
  {
   "property": "C62",
   "status": "proved",
   "theorems": [
    "c62_fits",
    "c62_objects",
    "c62_arrays_refuted",
    "c62_over_read_refuted",
    "c62_default_refuted"
   ],
   "note": "For all documents of the parser, which is not in /repo: what it accepts and the width of its integers are not modelled."
  },
  {
   "property": "C63",
   "status": "proved",
   "theorems": [
    "c63_calendar",
    "c63_text",
    "c63_nanoseconds",
    "c63_round",
    "c63_order",
    "c63_equal",
    "c63_equal_other",
    "c63_equal_refuted",
    "c63_fields_refuted",
    "c63_overflow_refuted",
    "c63_nan_refuted",
    "c63_digits_refuted",
    "c63_not_date"
   ],
   "note": "The C library follows its documentation; strtof is a parameter whose two hypotheses a concrete function meets."
  },
  {
   "property": "C64",
   "status": "proved",
   "theorems": [
    "c64_values",
    "c64_effects",
    "c64_slots_apart",
    "c64_crossing",
    "c64_wrong_counter",
    "c64_mixed",
    "c64_c_calls_apart",
    "c64_cpp_calls_apart",
    "c64_counts",
    "c64_tidy",
    "c64_leak",
    "c64_leak_refuted",
    "c64_after_destroy",
    "c64_failed_get",
    "c64_failed_get_refuted"
   ],
   "note": "dart_heap_t; programs restricted on C++ variables as C16 is."
  },
  {
   "property": "C65",
   "status": "proved",
   "theorems": [
    "c65_inject",
    "c65_object",
    "c65_array",
    "c65_variadic",
    "c65_throws",
    "c65_receiver",
    "c65_odd_refuted",
    "c65_forms",
    "c65_packet",
    "c65_repeat_refuted",
    "c65_bad_key_refuted"
   ],
   "note": "Injecting into a finalized object under the room condition of C11."
  },
  {
   "property": "C66",
   "status": "proved",
   "theorems": [
    "c66_serialize",
    "c66_from_buffer",
    "c66_parse",
    "c66_parse_bound",
    "c66_parse_sound",
    "c66_parsed",
    "c66_destroy",
    "c66_destroy_exact",
    "c66_destroy_shared",
    "c66_fixed_refuted"
   ],
   "note": "RapidJSON builds with the default flags; exact for destroying only where nothing is shared, an upper bound otherwise."
  },
  {
   "property": "C67",
   "status": "proved",
   "theorems": [
    "c67_compares",
    "c67_order",
    "c67_others",
    "c67_total",
    "c67_refuses_refuted"
   ],
   "note": "All nine overloads."
  },
  {
   "property": "C68",
   "status": "proved",
   "theorems": [
    "c68_value",
    "c68_tells",
    "c68_empty",
    "c68_heap",
    "c68_buffer",
    "c68_tells_refuted",
    "c68_ends",
    "c68_ends_plain",
    "c68_temporary_refuted"
   ],
   "note": "Pointers, views and wrappers as the type asked for are not modelled."
  },
  {
   "property": "C69",
   "status": "proved",
   "theorems": [
    "c69_finalize",
    "c69_layout",
    "c69_heap",
    "c69_heap_equal",
    "c69_heap_shared",
    "c69_across",
    "c69_across_equal",
    "c69_fixed_refuted"
   ],
   "note": "Calls are counted, not the size of their frames."
  },
  {
   "property": "C70",
   "status": "proved",
   "theorems": [
    "c70_enough",
    "c70_value_semantics",
    "c70_call",
    "c70_counts",
    "c70_nothing_leaks",
    "c70_unsafe_leaks_refuted",
    "c70_storage_kept_refuted"
   ],
   "note": "Calls of Store.v on mutable handles; histories with refused calls are for std::shared_ptr, single calls for both counters."
  },
  {
   "property": "C71",
   "status": "proved",
   "theorems": [
    "c71_enough",
    "c71_erase_at",
    "c71_goes_on",
    "c71_counts",
    "c71_told_apart_refuted"
   ],
   "note": "erase(iterator) after any careful program with iterators; going on is for std::shared_ptr."
  },
  {
   "property": "C72",
   "status": "proved",
   "theorems": [
    "c72_enough",
    "c72_put_at",
    "c72_goes_on",
    "c72_counts",
    "c72_positions_refuted"
   ],
   "note": "insert and set with an iterator after any careful program with iterators; going on and counts are for std::shared_ptr."
  }
 ]
}
