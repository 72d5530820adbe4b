{
 "claims": [
  {
   "property": "C01",
   "status": "proved",
   "theorems": [
    "C01_refines_stream",
    "C01_reads_are_the_stream",
    "C01_consumed_is_contiguous",
    "C01_histories_related"
   ],
   "note": ""
  },
  {
   "property": "C02",
   "status": "proved",
   "theorems": [
    "C02_held_span_stable",
    "C02_unread_in_place"
   ],
   "note": ""
  },
  {
   "property": "C03",
   "status": "proved",
   "theorems": [
    "C03_writer_counts",
    "C03_reserve_exact",
    "C03_reader_counts"
   ],
   "note": ""
  },
  {
   "property": "C04",
   "status": "proved",
   "theorems": [
    "C04_both_images",
    "C04_span_in_bounds"
   ],
   "note": ""
  },
  {
   "property": "C05",
   "status": "proved",
   "theorems": [
    "C05_partial_publication"
   ],
   "note": "Rounds are stated for element types that are not recycled; recycling is C11. Interleaved histories are covered by C01_refines_stream."
  },
  {
   "property": "C06",
   "status": "proved",
   "theorems": [
    "C06_index_is_modulo",
    "C06_mask_path"
   ],
   "note": ""
  },
  {
   "property": "C07",
   "status": "proved",
   "theorems": [
    "C07_capacity",
    "C07_linear"
   ],
   "note": ""
  },
  {
   "property": "C08",
   "status": "proved",
   "theorems": [
    "C08_too_much_refused",
    "C08_consume_once",
    "C08_get_never_widens",
    "C08_release_policy"
   ],
   "note": ""
  },
  {
   "property": "C09",
   "status": "partial",
   "theorems": [
    "C09_empty_reservation_partial",
    "C09_second_writer_refuted"
   ],
   "note": "False for a writer object created on a buffer that carries data (C09_second_writer_refuted); proved for every other case of a zero-length reservation. The failed reservation is covered by C01_refines_stream."
  },
  {
   "property": "C10",
   "status": "partial",
   "theorems": [
    "C10_free_bounded_partial",
    "C10_last_reader_leaves_refuted"
   ],
   "note": "False when the last reader leaves after more than one capacity was published (C10_last_reader_leaves_refuted); proved with a reader attached."
  },
  {
   "property": "C11",
   "status": "partial",
   "theorems": [
    "C11_housekeeping_invisible_partial",
    "C11_unread_data_wiped_refuted"
   ],
   "note": "False for Clearable element types when the stream is more than one capacity ahead of the last recycled position (C11_unread_data_wiped_refuted); proved otherwise."
  },
  {
   "property": "C12",
   "status": "proved",
   "theorems": [
    "C12_reads_right",
    "C12_no_overwrite",
    "C12_bounded_backlog"
   ],
   "note": "Sequentially consistent interleaving of atomic accesses; readers may detach at any point."
  },
  {
   "property": "C13",
   "status": "proved",
   "theorems": [
    "C13_claims_disjoint",
    "C13_claims_tile",
    "C13_claim_is_free"
   ],
   "note": "Readers fixed for the run; sequentially consistent interleaving."
  },
  {
   "property": "C14",
   "status": "proved",
   "theorems": [
    "C14_reads_are_published",
    "C14_published_is_finished",
    "C14_prefix_grows"
   ],
   "note": "Readers fixed for the run; sequentially consistent interleaving."
  },
  {
   "property": "C15",
   "status": "proved",
   "theorems": [
    "C15_nothing_hidden",
    "C15_abandoned_slot_blocks"
   ],
   "note": "C15_abandoned_slot_blocks shows that a reserved slot that is never published blocks all later publications (debug builds abort there)."
  },
  {
   "property": "C16",
   "status": "partial",
   "theorems": [
    "C16_quiet_attach_partial",
    "C16_quiet_backlog_partial",
    "C16_attach_race_refuted"
   ],
   "note": "False in general (C16_attach_race_refuted: generation bump delayed after the cursor load). Proved when nothing is published inside the attach window."
  },
  {
   "property": "C17",
   "status": "proved",
   "theorems": [
    "C17_exact_set",
    "C17_registration_succeeds"
   ],
   "note": ""
  },
  {
   "property": "C18",
   "status": "proved",
   "theorems": [
    "C18_bounded_deque_dynamic",
    "C18_bounded_deque_fixed"
   ],
   "note": ""
  },
  {
   "property": "C19",
   "status": "proved",
   "theorems": [
    "C19_span_shows_contents",
    "C19_iteration_shows_contents"
   ],
   "note": ""
  },
  {
   "property": "C20",
   "status": "partial",
   "theorems": [
    "C20_iteration_misses_write_refuted",
    "C20_write_reverts_refuted",
    "C20_indexed_access_partial",
    "C20_next_iteration_partial"
   ],
   "note": "False in general: a write through a reference is not copied to the mirror (C20_iteration_misses_write_refuted, C20_write_reverts_refuted). Proved for indexed access and, for the next iteration, for elements before the wrap point or still dirty."
  },
  {
   "property": "C21",
   "status": "proved",
   "theorems": [
    "C21_push_back_range",
    "C21_push_front_range"
   ],
   "note": ""
  },
  {
   "property": "C22",
   "status": "proved",
   "theorems": [
    "C22_fresh",
    "C22_set_range",
    "C22_set_bit"
   ],
   "note": ""
  },
  {
   "property": "C23",
   "status": "proved",
   "theorems": [
    "C23_concurrent_final_value",
    "C23_agreeing_updates_kept",
    "C23_linearisable"
   ],
   "note": ""
  },
  {
   "property": "C24",
   "status": "proved",
   "theorems": [
    "C24_trace_follows_documented_edges",
    "C24_rejected_request_has_no_effect",
    "C24_accepted_request_effect",
    "C24_stopped_until_reinitialised",
    "C24_stop_during_pause_request_refuted"
   ],
   "note": "The documented edge REQUESTED_PAUSE -> REQUESTED_STOP is refused by the code (C24_stop_during_pause_request_refuted); the code's own table is the property proved."
  },
  {
   "property": "C25",
   "status": "proved",
   "theorems": [
    "C25_hook_runs_exactly_once",
    "C25_no_other_hook_runs",
    "C25_hook_history_discipline"
   ],
   "note": ""
  },
  {
   "property": "C26",
   "status": "partial",
   "theorems": [
    "C26_serialised_requests_partial",
    "C26_concurrent_requests_refuted"
   ],
   "note": "False as stated: load, check and store are separate steps (C26_concurrent_requests_refuted). Proved for requests that do not interleave."
  },
  {
   "property": "C27",
   "status": "proved",
   "theorems": [
    "C27_equals_long_division",
    "C27_any_reflected",
    "C27_any_unreflected"
   ],
   "note": ""
  },
  {
   "property": "C28",
   "status": "proved",
   "theorems": [
    "C28_incremental"
   ],
   "note": ""
  },
  {
   "property": "C29",
   "status": "proved",
   "theorems": [
    "C29_burst",
    "C29_single_bit",
    "C29_damaged_bytes",
    "C29_odd_errors"
   ],
   "note": ""
  },
  {
   "property": "C30",
   "status": "proved",
   "theorems": [
    "C30_round_trip",
    "C30_restart",
    "C30_4GiB_payload_lost"
   ],
   "note": "Payloads below 4 GiB; C30_4GiB_payload_lost shows what happens beyond."
  },
  {
   "property": "C31",
   "status": "proved",
   "theorems": [
    "C31_safe_and_faithful",
    "C31_frames",
    "C31_header"
   ],
   "note": ""
  },
  {
   "property": "C32",
   "status": "proved",
   "theorems": [
    "C32_cut",
    "C32_damage",
    "C32_bit_flip"
   ],
   "note": ""
  },
  {
   "property": "C33",
   "status": "proved",
   "theorems": [
    "C33_prefix",
    "C33_size_field",
    "C33_annotation_round_trip",
    "C33_annotation_any_input",
    "C33_annotation_truncated"
   ],
   "note": ""
  },
  {
   "property": "C34",
   "status": "proved",
   "theorems": [
    "C34_readers_exclude_writers",
    "C34_trylock_outcome",
    "C34_writers_share"
   ],
   "note": "Writers are not excluded from each other by design (C34_writers_share)."
  },
  {
   "property": "C35",
   "status": "proved",
   "theorems": [
    "C35_counter_is_holders",
    "C35_free_after_release",
    "C35_acquirable_after_release",
    "C35_failed_trylock_no_effect"
   ],
   "note": ""
  },
  {
   "property": "C36",
   "status": "partial",
   "theorems": [
    "C36_pair",
    "C36_window",
    "C36_alternate",
    "C36_filter_change",
    "C36_single_partial",
    "C36_single_name_only",
    "C36_single_context_refuted",
    "C36_no_sides"
   ],
   "note": "False for single filters that name a context (C36_single_context_refuted: containment is tested the wrong way round). Proved for pairs (with marks, blanks and brackets) and for single filters that name no context. Filters are texts made of clean pieces; other texts (for example stray brackets inside names) are covered only by C36_filter_change and C37."
  },
  {
   "property": "C37",
   "status": "partial",
   "theorems": [
    "C37_first_call_partial",
    "C37_repeat_refuted"
   ],
   "note": "False: only the first call with a malformed text throws (C37_repeat_refuted holds for every malformed text). The first call is characterised exactly."
  },
  {
   "property": "C38",
   "status": "proved",
   "theorems": [
    "C38_safe",
    "C38_step",
    "C38_refused",
    "C38_destroy"
   ],
   "note": "Histories of one pool with any clients; operations are atomic (the pool's mutex). Block addresses answered by upstream are arbitrary, not null and not overlapping blocks still out. Precondition: chunk size at least 8, as asserted in the constructor."
  },
  {
   "property": "C39",
   "status": "partial",
   "theorems": [
    "C39_intact",
    "C39_exclusive",
    "C39_progress",
    "C39_store",
    "C39_all_returned",
    "C39_destroy",
    "C39_out_of_order_refuted",
    "C39_no_reader_refuted"
   ],
   "note": "False when payloads are stored for elements out of order (C39_out_of_order_refuted). Proved for stores in element order, with any readers, housekeeping and a shared pool; also that nothing leaks, and that no step is undefined. C39_no_reader_refuted: without readers nothing is ever reclaimed."
  },
  {
   "property": "C40",
   "status": "partial",
   "theorems": [
    "C40_blocks",
    "C40_request",
    "C40_zero_size_refuted"
   ],
   "note": "Requests of zero bytes are answered without regard to the alignment (C40_zero_size_refuted); everything else is proved, including that a refusal means no aligned place is left."
  },
  {
   "property": "C41",
   "status": "partial",
   "theorems": [
    "C41_refines",
    "C41_step",
    "C41_refused",
    "C41_other_keys",
    "C41_copy",
    "C41_entry_limit_refuted",
    "C41_capacity_refuted",
    "C41_self_alias_refuted",
    "C41_zero_byte_refuted"
   ],
   "note": "Proved for all histories of emplace, insert_or_assign, erase, clear, reserve, shrink_to_fit, copy and copy assignment within stated limits: fewer than 65535 keys (43690 before a long key), strings without zero bytes, new keys not taking their value from the same map, blob below 4 GiB. Outside these limits it fails: C41_entry_limit_refuted, C41_capacity_refuted, C41_self_alias_refuted, C41_zero_byte_refuted."
  },
  {
   "property": "C42",
   "status": "proved",
   "theorems": [
    "C42_disjoint"
   ],
   "note": "For the same histories as C41."
  },
  {
   "property": "C43",
   "status": "partial",
   "theorems": [
    "C43_refuted",
    "C43_overrun_refuted"
   ],
   "note": "False: merge copies records with their unpadded length (C43_refuted: another key loses its value; C43_overrun_refuted: a record ends behind the blob)."
  },
  {
   "property": "C44",
   "status": "partial",
   "theorems": [
    "C44_plain_partial",
    "C44_refuted"
   ],
   "note": "False for maps with nested maps: every such map is rejected (C44_refuted). Proved for maps of scalars, complex numbers, strings and empty values (C44_plain_partial); tensors missing."
  },
  {
   "property": "C45",
   "status": "partial",
   "theorems": [
    "C45_validator",
    "C45_decode_partial",
    "C45_scalar_refuted",
    "C45_tensor_refuted",
    "C45_insert_refuted"
   ],
   "note": "Validator: proved for all bytes (C45_validator). Decoding accepted bytes: ends and reads inside, but for up to 8 bytes after the end (C45_decode_partial). Three ways in which accepted bytes do harm: C45_scalar_refuted, C45_tensor_refuted, C45_insert_refuted."
  },
  {
   "property": "C46",
   "status": "partial",
   "theorems": [
    "C46_assign_partial",
    "C46_refuted"
   ],
   "note": "False for the empty value on an existing key (C46_refuted); proved for all other values."
  },
  {
   "property": "C47",
   "status": "partial",
   "theorems": [
    "C47_makeAt_partial"
   ],
   "note": "Proved for ValueMap::makeAt; the bounded interface of ValueMapView is not modelled yet."
  },
  {
   "property": "C48",
   "status": "proved",
   "theorems": [
    "C48_recoverable"
   ],
   "note": ""
  },
  {
   "property": "C49",
   "status": "partial",
   "theorems": [
    "C49_update_partial",
    "C49_refuted"
   ],
   "note": "False for empty source values on keys the destination has (C49_refuted, same cause as C46); proved otherwise, for maps of together at most 43690 keys."
  },
  {
   "property": "C50",
   "status": "partial",
   "theorems": [
    "C50_request_partial",
    "C50_overflow_refuted"
   ],
   "note": "Holds below the address space; n*sizeof(T) wraps beyond it and a small block is returned (C50_overflow_refuted)."
  },
  {
   "property": "C51",
   "status": "partial",
   "theorems": [
    "C51_aligned_partial",
    "C51_refuted"
   ],
   "note": "False once long keys are erased (C51_refuted); proved for histories without long keys."
  },
  {
   "property": "C52",
   "status": "partial",
   "theorems": [
    "C52_flat_partial",
    "C52_refuted"
   ],
   "note": "False: 32 + 144 k bytes can cost 2^k (C52_refuted). Proved for accepted bytes without nesting (C52_flat_partial)."
  },
  {
   "property": "C53",
   "status": "proved",
   "theorems": [
    "C53_limits_respect_ports"
   ],
   "note": ""
  },
  {
   "property": "C54",
   "status": "partial",
   "theorems": [
    "C54_progress_partial",
    "C54_tag_before_min_output_refuted",
    "C54_min_not_multiple_refuted"
   ],
   "note": "False: a tag nearer than the output min_samples, or an input min_samples that is no multiple of the chunk size with a tag there, stops the block for good (two _refuted theorems, over all later events). Proved when input ports ask for at most one sample and output ports for at most one chunk (C54_progress_partial)."
  },
  {
   "property": "C55",
   "status": "proved",
   "theorems": [
    "C55_schedule_independent",
    "C55_two_schedules"
   ],
   "note": ""
  },
  {
   "property": "C56",
   "status": "partial",
   "theorems": [
    "C56_tags_once_in_order_partial",
    "C56_consume_without_publish_refuted",
    "C56_publish_without_consume_refuted",
    "C56_tag_in_gap_refuted"
   ],
   "note": "Proved for one input, default policy, no stride, blocks that use their spans completely. False for processBulk functions that consume without publishing (tag lost) or publish without consuming (tag repeated), and for strided blocks (tag on the first skipped sample lost)."
  },
  {
   "property": "C57",
   "status": "proved",
   "theorems": [
    "C57_end_of_stream",
    "C57_stops_at_end"
   ],
   "note": ""
  },
  {
   "property": "C58",
   "status": "partial",
   "theorems": [
    "C58_stride_grid_partial",
    "C58_tag_moves_grid_refuted"
   ],
   "note": "Proved when no tag but the end of stream is fed. False with tags: a tag inside the gap starts a chunk there (C58_tag_moves_grid_refuted)."
  },
  {
   "property": "C59",
   "status": "partial",
   "theorems": [
    "C59_stride_schedule_refuted"
   ],
   "note": "False: C59_stride_schedule_refuted gives two schedules of the same ten samples with different output."
  },
  {
   "property": "C60",
   "status": "partial",
   "theorems": [
    "C60_tag_displacement_partial",
    "C60_displacement_unbounded_refuted"
   ],
   "note": "Proved for one input whose port asks for at most one sample. False for larger min_samples: the tag can be moved by any number of samples."
  },
  {
   "property": "C61",
   "status": "proved",
   "theorems": [
    "C61_simd_covers"
   ],
   "note": ""
  },
  {
   "property": "C62",
   "status": "partial",
   "theorems": [
    "C62_forwarded_once_partial",
    "C62_ten_tags_refuted"
   ],
   "note": "Proved for at most nine tags at a time; with ten tags on two inputs two are forwarded twice (C62_ten_tags_refuted)."
  },
  {
   "property": "C63",
   "status": "proved",
   "theorems": [
    "C63_decompress_iff",
    "C63_decompress_span_iff"
   ],
   "note": ""
  },
  {
   "property": "C64",
   "status": "proved",
   "theorems": [
    "C64_hostile_input"
   ],
   "note": ""
  },
  {
   "property": "C65",
   "status": "partial",
   "theorems": [
    "C65_size_query",
    "C65_size_then_decode",
    "C65_size_validates_refuted"
   ],
   "note": "The query gives the size of the content and afterwards decoding fails on a wrong check value only (both proved). Not proved because false: it does not validate the check values (C65_size_validates_refuted)."
  },
  {
   "property": "C66",
   "status": "proved",
   "theorems": [
    "C66_unambiguous",
    "C66_deflate_end"
   ],
   "note": ""
  },
  {
   "property": "C67",
   "status": "proved",
   "theorems": [
    "C67_adler32",
    "C67_adler32_in_pieces"
   ],
   "note": ""
  },
  {
   "property": "C68",
   "status": "proved",
   "theorems": [
    "C68_round_trip",
    "C68_round_trip_span"
   ],
   "note": "Inputs below 4 GiB: the symbol counters are 32 bits wide and wrap at 2^32 occurrences, after which a symbol in use could be left without a code."
  },
  {
   "property": "C69",
   "status": "proved",
   "theorems": [
    "C69_bound",
    "C69_smallest_choice"
   ],
   "note": "Same size condition as C68."
  },
  {
   "property": "C70",
   "status": "proved",
   "theorems": [
    "C70_output_conforms",
    "C70_code_lengths",
    "C70_injective"
   ],
   "note": "Same size condition as C68; C70_code_lengths has none."
  },
  {
   "property": "C71",
   "status": "proved",
   "theorems": [
    "C71_stream_sound",
    "C71_call_within_bounds"
   ],
   "note": ""
  },
  {
   "property": "C72",
   "status": "proved",
   "theorems": [
    "C72_stream_complete"
   ],
   "note": ""
  },
  {
   "property": "C73",
   "status": "proved",
   "theorems": [
    "C73_hostile_stream"
   ],
   "note": "Calls after an error (which the header says should fail, see C76) are not covered."
  },
  {
   "property": "C74",
   "status": "proved",
   "theorems": [
    "C74_agrees_with_whole_buffer",
    "C74_cut_does_not_matter",
    "C74_error_is_final"
   ],
   "note": ""
  },
  {
   "property": "C75",
   "status": "proved",
   "theorems": [
    "C75_status_tells_why",
    "C75_finishing_loop_ends"
   ],
   "note": ""
  },
  {
   "property": "C76",
   "status": "partial",
   "theorems": [
    "C76_sticky_gzip_refuted",
    "C76_sticky_raw_refuted",
    "C76_sticky_done_refuted"
   ],
   "note": "False in all three formats: C76_sticky_gzip_refuted, C76_sticky_raw_refuted, C76_sticky_done_refuted. What holds is C74_error_is_final: the stream as a whole is then refused by the whole-buffer decoder, and no error-free session completes."
  },
  {
   "property": "C77",
   "status": "proved",
   "theorems": [
    "C77_stream_encodes",
    "C77_round_trip"
   ],
   "note": "Positions in the stream are unbounded numbers in the model (64 bits wide in the code)."
  },
  {
   "property": "C78",
   "status": "proved",
   "theorems": [
    "C78_calls_succeed",
    "C78_size_bound"
   ],
   "note": ""
  },
  {
   "property": "C79",
   "status": "proved",
   "theorems": [
    "C79_cut_does_not_matter",
    "C79_at_most_two",
    "C79_finishing_loop_ends"
   ],
   "note": ""
  },
  {
   "property": "C80",
   "status": "partial",
   "theorems": [
    "C80_status_partial",
    "C80_status_offered_refuted",
    "C80_status_finished_refuted",
    "C80_sticky_refuted"
   ],
   "note": "Not proved because false: needInput is also returned when the output was filled exactly, with nothing of the offered input consumed (C80_status_offered_refuted) or with the whole stream delivered and finishing requested (C80_status_finished_refuted); the error after done is not sticky (C80_sticky_refuted). C80_status_partial is what holds."
  },
  {
   "property": "C81",
   "status": "partial",
   "theorems": [
    "C81_int_to_int_partial",
    "C81_unsigned_refuted",
    "C81_int_to_bool"
   ],
   "note": "C81_int_to_int_partial leaves out unsigned 64-bit numbers of at least 2^63 with a signed target; there the claim is false (C81_unsigned_refuted): they are accepted as negative numbers."
  },
  {
   "property": "C82",
   "status": "partial",
   "theorems": [
    "C82_int_to_float_exact",
    "C82_int_to_float_accepts_partial",
    "C82_zero_refuted",
    "C82_representable_refuted"
   ],
   "note": "Exactness is proved for all sources. Acceptance holds for numbers that fit the mantissa except the 64-bit unsigned zero, which is refused (C82_zero_refuted); larger numbers are refused even when representable (C82_representable_refuted)."
  },
  {
   "property": "C83",
   "status": "partial",
   "theorems": [
    "C83_float_to_int_partial",
    "C83_not_finite",
    "C83_float_to_bool",
    "C83_above_range_refuted"
   ],
   "note": "C83_float_to_int_partial leaves out the one number 2^digits when the target has more digits than the source's mantissa; there the check passes and the cast is undefined (C83_above_range_refuted)."
  },
  {
   "property": "C84",
   "status": "proved",
   "theorems": [
    "C84_nearest",
    "C84_widening_exact",
    "C84_not_finite"
   ],
   "note": "Casts are modelled as round to nearest, ties to even, with gradual underflow. The sign of zero is not modelled."
  },
  {
   "property": "C85",
   "status": "partial",
   "theorems": [
    "C85_real_to_complex",
    "C85_complex_same",
    "C85_complex_refuted"
   ],
   "note": "False for complex sources: every conversion of a complex number to another type is refused, because the inner calls pass a std::variant (C85_complex_refuted)."
  },
  {
   "property": "C86",
   "status": "proved",
   "theorems": [
    "C86_text_sound",
    "C86_text_complete",
    "C86_text_bool"
   ],
   "note": ""
  },
  {
   "property": "C87",
   "status": "partial",
   "theorems": [
    "C87_same_type_partial",
    "C87_strict",
    "C87_stored_text_refuted"
   ],
   "note": "False for texts: the visitor passes std::string_view, which convert_safely does not handle, so a stored text converts to nothing, not even to std::string (C87_stored_text_refuted). Settings and ports treat string members separately."
  },
  {
   "property": "C88",
   "status": "partial",
   "theorems": [
    "C88_smallest",
    "C88_accepts",
    "C88_only_integers",
    "C88_float_text_refuted"
   ],
   "note": "The integer part is proved. Texts with a point or an exponent are always refused, because the inner call passes a std::variant (C88_float_text_refuted)."
  },
  {
   "property": "C89",
   "status": "partial",
   "theorems": [
    "C89_values_kept_partial",
    "C89_array_size",
    "C89_safe_same_type",
    "C89_widening_refuted",
    "C89_narrowing_refuted",
    "C89_policy_table"
   ],
   "note": "C89_values_kept_partial leaves out integers with more bits than the target's mantissa, for which Widening changes the number (C89_widening_refuted); Narrowing from floating point can be undefined (C89_narrowing_refuted). C89_policy_table settles for every policy which pairs of element types are accepted and why the others are refused."
  },
  {
   "property": "C90",
   "status": "partial",
   "theorems": [
    "C90_values_like_typed",
    "C90_first_failure",
    "C90_typed_like_values_refuted"
   ],
   "note": "One direction and the reported index are proved; the converse is false (C90_typed_like_values_refuted): the table of tryConvertElement has fewer pairs than is_widening_v / is_narrowing_v."
  },
  {
   "property": "C91",
   "status": "proved",
   "theorems": [
    "C91_simple_jobs"
   ],
   "note": ""
  },
  {
   "property": "C92",
   "status": "partial",
   "theorems": [
    "C92_searched_jobs",
    "C92_all_blocks_refuted",
    "C92_own_blocks_refuted"
   ],
   "note": "C92_searched_jobs: exactly the blocks reachable from a source. Blocks without edges and blocks only on source-less loops are never run (C92_all_blocks_refuted); blocks of an inner scheduler are on the outer lists too (C92_own_blocks_refuted)."
  },
  {
   "property": "C93",
   "status": "proved",
   "theorems": [
    "C93_search_order"
   ],
   "note": ""
  },
  {
   "property": "C94",
   "status": "proved",
   "theorems": [
    "C94_components"
   ],
   "note": "The result of std::ranges::sort is any permutation sorted by size."
  },
  {
   "property": "C95",
   "status": "partial",
   "theorems": [
    "C95_feedback_loops",
    "C95_all_loops_refuted"
   ],
   "note": "Loops sharing their closing edge with a reported one are not reported, so their rates are not checked either (C95_all_loops_refuted)."
  },
  {
   "property": "C96",
   "status": "partial",
   "theorems": [
    "C96_stable_loops",
    "C96_priming_size",
    "C96_goes_round",
    "C96_overflow_refuted",
    "C96_goes_round_refuted",
    "C96_port_collection_refuted"
   ],
   "note": "False beyond 32-bit products (C96_overflow_refuted), for chunks that do not divide the size or change the rate (C96_goes_round_refuted), and for ports after a port collection (C96_port_collection_refuted)."
  },
  {
   "property": "C97",
   "status": "partial",
   "theorems": [
    "C97_flatten",
    "C97_closed_refuted"
   ],
   "note": "Edges inside groups that are not looked into are kept (C97_closed_refuted)."
  },
  {
   "property": "C98",
   "status": "partial",
   "theorems": [
    "C98_primed_at_start",
    "C98_resume_refuted",
    "C98_silent_refuted",
    "C98_bystander_refuted"
   ],
   "note": "C98_primed_at_start for the first three parts; C98_resume_refuted, C98_silent_refuted, C98_bystander_refuted for the others."
  },
  {
   "property": "C99",
   "status": "partial",
   "theorems": [
    "C99_all_connected",
    "C99_independent_refuted"
   ],
   "note": "C99_all_connected when every edge is connectable; C99_independent_refuted otherwise."
  },
  {
   "property": "C100",
   "status": "partial",
   "theorems": [
    "C100_definition_finds_port",
    "C100_nothing_else",
    "C100_spelling",
    "C100_exact_refuted"
   ],
   "note": "C100_definition_finds_port, C100_nothing_else (indexes and names without '#'), C100_spelling; C100_exact_refuted: \"in#1x\" selects element 1."
  },
  {
   "property": "C101",
   "status": "partial",
   "theorems": [
    "C101_group_keeps_wires",
    "C101_collection_refuted",
    "C101_resources_refuted"
   ],
   "note": "C101_group_keeps_wires; C101_collection_refuted and C101_resources_refuted for the two exceptions."
  },
  {
   "property": "C102",
   "status": "partial",
   "theorems": [
    "C102_failed_group_unchanged",
    "C102_planning_unchanged",
    "C102_refuted"
   ],
   "note": "C102_planning_unchanged for the errors found while planning, C102_failed_group_unchanged when the inner ports exist; C102_refuted otherwise."
  },
  {
   "property": "C103",
   "status": "partial",
   "theorems": [
    "C103_ungroup_keeps_wires",
    "C103_same_name_refuted"
   ],
   "note": "C103_ungroup_keeps_wires for groups with distinct exported names; C103_same_name_refuted."
  },
  {
   "property": "C104",
   "status": "partial",
   "theorems": [
    "C104_ungroup_undoes_group",
    "C104_identical_refuted"
   ],
   "note": "C104_ungroup_undoes_group; C104_identical_refuted."
  },
  {
   "property": "C105",
   "status": "partial",
   "theorems": [
    "C105_remove_block",
    "C105_replace_block",
    "C105_replace_fails",
    "C105_defined_refuted"
   ],
   "note": "C105_remove_block, C105_replace_block below the reserved size, C105_replace_fails; C105_defined_refuted at the reserved size."
  },
  {
   "property": "C106",
   "status": "partial",
   "theorems": [
    "C106_export",
    "C106_withdraw",
    "C106_same_name_refuted"
   ],
   "note": "C106_export, C106_withdraw for fresh names; C106_same_name_refuted."
  },
  {
   "property": "C107",
   "status": "partial",
   "theorems": [
    "C107_connect_truthful",
    "C107_history",
    "C107_emplaced",
    "C107_spelling_refuted",
    "C107_two_feeders_refuted",
    "C107_grouped_refuted",
    "C107_ungrouped_refuted",
    "C107_replaced_refuted"
   ],
   "note": "C107_connect_truthful, C107_history, C107_emplaced under plain wiring; five _refuted theorems for mixed spelling, two feeders, grouping, ungrouping, replacing."
  },
  {
   "property": "C108",
   "status": "proved",
   "theorems": [
    "C108_outcome"
   ],
   "note": "C108_outcome."
  },
  {
   "property": "C109",
   "status": "partial",
   "theorems": [
    "C109_sizes",
    "C109_late_refuted"
   ],
   "note": "C109_sizes when the edges of an output are connected together; C109_late_refuted."
  },
  {
   "property": "C110",
   "status": "partial",
   "theorems": [
    "C110_outputs_ready",
    "C110_removed_refuted"
   ],
   "note": "C110_outputs_ready; C110_removed_refuted."
  },
  {
   "property": "C111",
   "status": "partial",
   "theorems": [
    "C111_remove",
    "C111_pending_refuted",
    "C111_index_refuted"
   ],
   "note": "C111_remove for connected edges; C111_pending_refuted and C111_index_refuted."
  },
  {
   "property": "C112",
   "status": "partial",
   "theorems": [
    "C112_refused_call",
    "C112_refused_calls_keep_data",
    "C112_ok_counts",
    "C112_explicit_consume_refuted",
    "C112_tag_reapplied_refuted"
   ],
   "note": "C112_refused_call, C112_refused_calls_keep_data, C112_ok_counts for processing functions without explicit counts; C112_explicit_consume_refuted, C112_tag_reapplied_refuted."
  },
  {
   "property": "C113",
   "status": "partial",
   "theorems": [
    "C113_stored_values_match_log",
    "C113_same_time_refuted"
   ],
   "note": "Proved for the block's own name matching, no expiry, a clock that does not go back and distinct times per context; C113_same_time_refuted shows the loss of the newer values for the same time."
  },
  {
   "property": "C114",
   "status": "partial",
   "theorems": [
    "C114_switching_applies_context",
    "C114_newer_entry_applies",
    "C114_same_time_refuted",
    "C114_pending_refuted"
   ],
   "note": "Both kinds of activation with nothing pending; C114_same_time_refuted, C114_pending_refuted."
  },
  {
   "property": "C115",
   "status": "partial",
   "theorems": [
    "C115_explicit_values_survive_tags",
    "C115_unactivated_set_refuted"
   ],
   "note": "Histories on the default context with a strictly advancing clock, every set followed by an activation; C115_unactivated_set_refuted."
  },
  {
   "property": "C116",
   "status": "partial",
   "theorems": [
    "C116_tags_set_other_members",
    "C116_pending_refuted"
   ],
   "note": "As C115, the tag arriving with nothing pending; C116_pending_refuted."
  },
  {
   "property": "C117",
   "status": "partial",
   "theorems": [
    "C117_reset_restores_given_members",
    "C117_tag_value_refuted"
   ],
   "note": "As C115, for explicitly given members; C117_tag_value_refuted."
  },
  {
   "property": "C118",
   "status": "partial",
   "theorems": [
    "C118_apply_effect",
    "C118_get_mirrors_fields",
    "C118_rejected_forwarded_refuted"
   ],
   "note": "All states with unique names and the get mirror, which holds in every reachable state; C118_rejected_forwarded_refuted."
  },
  {
   "property": "C119",
   "status": "partial",
   "theorems": [
    "C119_staged_values_applied",
    "C119_lost_refuted",
    "C119_stuck_refuted"
   ],
   "note": "Interleavings of a staging and an applying thread outside the unlocked window; C119_lost_refuted, C119_stuck_refuted."
  },
  {
   "property": "C120",
   "status": "partial",
   "theorems": [
    "C120_remove_context",
    "C120_no_time_refuted",
    "C120_stale_protection_refuted"
   ],
   "note": "Strictly sorted entries (as kept by the code for distinct times) and a non-zero time; C120_no_time_refuted, C120_stale_protection_refuted."
  },
  {
   "property": "C121",
   "status": "partial",
   "theorems": [
    "C121_purge_with_expiry",
    "C121_set_ignored_refuted",
    "C121_overflow_refuted"
   ],
   "note": "No 64-bit overflow of time plus expiry; C121_set_ignored_refuted, C121_overflow_refuted."
  },
  {
   "property": "C122",
   "status": "partial",
   "theorems": [
    "C122_activation_result",
    "C122_matching_order",
    "C122_endless_refuted"
   ],
   "note": "Any state and matching rule; C122_endless_refuted."
  },
  {
   "property": "C123",
   "status": "proved",
   "theorems": [
    "C123_round_trip",
    "C123_distinct_texts"
   ],
   "note": "All nested maps of good values (YamlSpec.good); the text of finite floating-point numbers and its reading are arguments and assumed exact for the numbers in the map."
  },
  {
   "property": "C124",
   "status": "partial",
   "theorems": [
    "C124_strings",
    "C124_blank_line_refuted",
    "C124_escape_refuted",
    "C124_unreadable_refuted"
   ],
   "note": "All strings not written as a block (block strings: C123 with noBlankLine and noEscape); three refutations for block strings."
  },
  {
   "property": "C125",
   "status": "partial",
   "theorems": [
    "C125_keys",
    "C125_blank_refuted",
    "C125_comment_refuted",
    "C125_dash_refuted",
    "C125_quote_refuted",
    "C125_bracket_refuted"
   ],
   "note": "All good keys; refutations for blanks, comments, dashes, quotes and brackets."
  },
  {
   "property": "C126",
   "status": "partial",
   "theorems": [
    "C126_number_refuted",
    "C126_cut_refuted",
    "C126_entries_refuted"
   ],
   "note": "Refuted by witnesses."
  },
  {
   "property": "C127",
   "status": "partial",
   "theorems": [
    "C127_never_refuted",
    "C127_items_refuted"
   ],
   "note": "Refuted: no accepted text holds a tensor of strings (any text); items are reinterpreted."
  },
  {
   "property": "C128",
   "status": "partial",
   "theorems": [
    "C128_extents_refuted",
    "C128_digits_refuted"
   ],
   "note": "Refuted for any number format that writes two finite numbers alike."
  },
  {
   "property": "C129",
   "status": "proved",
   "theorems": [
    "C129_reading_ends",
    "C129_any_fuel"
   ],
   "note": "Fuel of twice the length plus three always suffices."
  },
  {
   "property": "C130",
   "status": "proved",
   "theorems": [
    "C130_read_sound"
   ],
   "note": "All accepted texts."
  },
  {
   "property": "C131",
   "status": "partial",
   "theorems": [
    "C131_trailing_refuted",
    "C131_hex_refuted",
    "C131_null_refuted"
   ],
   "note": "Refuted by witnesses."
  },
  {
   "property": "C132",
   "status": "partial",
   "theorems": [
    "C132_quiescence_excludes_work",
    "C132_overlapping_requests_refuted"
   ],
   "note": "Any number of workers below 2^64; accesses taken as sequentially consistent."
  },
  {
   "property": "C133",
   "status": "proved",
   "theorems": [
    "C133_quiescence_is_granted"
   ],
   "note": "Any history before."
  },
  {
   "property": "C134",
   "status": "partial",
   "theorems": [
    "C134_messages_are_handled",
    "C134_exact_period",
    "C134_ratio_zero_refuted"
   ],
   "note": "All ratios; exact period from 2; refuted for 0."
  },
  {
   "property": "C135",
   "status": "partial",
   "theorems": [
    "C135_stop_is_noticed",
    "C135_works_only_when_running",
    "C135_reasons_to_leave",
    "C135_restart_unnoticed_refuted"
   ],
   "note": "Bounds for all ratios; the restart that waits for ever is refuted for every continuation."
  },
  {
   "property": "C136",
   "status": "proved",
   "theorems": [
    "C136_pass_reports"
   ],
   "note": "All lists of reports."
  },
  {
   "property": "C137",
   "status": "partial",
   "theorems": [
    "C137_taken_blocks_are_left_alone",
    "C137_taken_while_stopping_refuted"
   ],
   "note": "All histories; refuted while stopping."
  },
  {
   "property": "C138",
   "status": "partial",
   "theorems": [
    "C138_one_worker_per_block",
    "C138_own_blocks_once",
    "C138_rebuilt_while_working_refuted"
   ],
   "note": "All timely histories; refuted without the wait."
  },
  {
   "property": "C139",
   "status": "partial",
   "theorems": [
    "C139_published_lists_are_handled",
    "C139_stale_removal_refuted"
   ],
   "note": "All tidy histories; stale removal refuted."
  },
  {
   "property": "C140",
   "status": "partial",
   "theorems": [
    "C140_accepted_block_is_run",
    "C140_worker_has_left_refuted",
    "C140_accepted_before_start_refuted",
    "C140_replacement_not_run_refuted"
   ],
   "note": "Positive for active schedulers; three general refutations."
  },
  {
   "property": "C141",
   "status": "partial",
   "theorems": [
    "C141_removed_blocks_are_released",
    "C141_removed_while_stopped_refuted"
   ],
   "note": "All timely histories; general refutation after reset."
  },
  {
   "property": "C142",
   "status": "partial",
   "theorems": [
    "C142_exchange_runs_new_graph",
    "C142_exchange_before_start_refuted"
   ],
   "note": "All timely histories; general refutation before the start."
  },
  {
   "property": "C143",
   "status": "partial",
   "theorems": [
    "C143_children_are_heard",
    "C143_nobody_listens_refuted"
   ],
   "note": "All sequences, with and without a listener."
  },
  {
   "property": "C144",
   "status": "partial",
   "theorems": [
    "C144_passed_on_when_read",
    "C144_one_child_blocks_all_refuted"
   ],
   "note": "All sequences."
  },
  {
   "property": "C145",
   "status": "partial",
   "theorems": [
    "C145_run_blocks_are_connected",
    "C145_not_connected_refuted"
   ],
   "note": "All regular histories; four witnesses."
  },
  {
   "property": "C146",
   "status": "partial",
   "theorems": [
    "C146_queue_order_partial",
    "C146_highest_first",
    "C146_large_priority_refuted"
   ],
   "note": "All sequences; general refutation from 2^31."
  },
  {
   "property": "C147",
   "status": "partial",
   "theorems": [
    "C147_once",
    "C147_kept_partial",
    "C147_empty_pool_refuted",
    "C147_shutdown_refuted"
   ],
   "note": "All interleavings; two witnesses of dropped tasks."
  },
  {
   "property": "C148",
   "status": "partial",
   "theorems": [
    "C148_thread_count_partial",
    "C148_single_submitter",
    "C148_maximum_refuted",
    "C148_raise_minimum_refuted"
   ],
   "note": "All interleavings with fixed bounds; general refutation for the raised minimum."
  },
  {
   "property": "C149",
   "status": "partial",
   "theorems": [
    "C149_can_run_partial",
    "C149_leaves_execute",
    "C149_lost_wakeup_refuted"
   ],
   "note": "All reachable states; lost wakeup as witness."
  },
  {
   "property": "C150",
   "status": "partial",
   "theorems": [
    "C150_counters_partial",
    "C150_at_rest",
    "C150_dropped_refuted"
   ],
   "note": "All interleavings; general refutation after a drop."
  },
  {
   "property": "C151",
   "status": "partial",
   "theorems": [
    "C151_workers_leave_partial",
    "C151_lost_notification_refuted",
    "C151_shutdown_twice_refuted",
    "C151_destructor_joins"
   ],
   "note": "All interleavings; a worker inside the compare-exchange loop may need more steps."
  },
  {
   "property": "C152",
   "status": "proved",
   "theorems": [
    "C152_default_split"
   ],
   "note": "All limits and concurrencies (not Emscripten)."
  },
  {
   "property": "C153",
   "status": "partial",
   "theorems": [
    "C153_cores_divided_partial",
    "C153_new_worker_refuted"
   ],
   "note": "All masks; general refutation for new workers."
  },
  {
   "property": "C154",
   "status": "proved",
   "theorems": [
    "C154_not_concerned",
    "C154_command_table",
    "C154_get"
   ],
   "note": "All messages and states."
  },
  {
   "property": "C155",
   "status": "partial",
   "theorems": [
    "C155_replies",
    "C155_staged_set_confirmed",
    "C155_settings_set_not_confirmed_refuted"
   ],
   "note": "All sequences; general refutation for Settings and UiConstraints."
  },
  {
   "property": "C156",
   "status": "proved",
   "theorems": [
    "C156_last_word",
    "C156_one_each"
   ],
   "note": "All sequences of messages."
  },
  {
   "property": "C157",
   "status": "partial",
   "theorems": [
    "C157_set_apply_get",
    "C157_refused_set_applied_refuted"
   ],
   "note": "All convertible bodies; general refutation of atomicity."
  },
  {
   "property": "C158",
   "status": "partial",
   "theorems": [
    "C158_state_by_message",
    "C158_get_state",
    "C158_no_confirmation_refuted"
   ],
   "note": "All requests; general refutation of the confirmation."
  },
  {
   "property": "C159",
   "status": "partial",
   "theorems": [
    "C159_set_then_get",
    "C159_listed_parameters",
    "C159_default_stays",
    "C159_wrong_types_accepted_refuted"
   ],
   "note": "New context, no expiry, the default (null) match predicate; general refutations for wrong types."
  },
  {
   "property": "C160",
   "status": "partial",
   "theorems": [
    "C160_all_handled",
    "C160_given_back_refuted",
    "C160_never_answered_refuted"
   ],
   "note": "All inboxes; general refutation without room."
  },
  {
   "property": "C161",
   "status": "partial",
   "theorems": [
    "C161_told_once",
    "C161_quiet",
    "C161_never_told_refuted",
    "C161_reset_untold_refuted"
   ],
   "note": "All histories; general refutations."
  },
  {
   "property": "C162",
   "status": "proved",
   "theorems": [
    "C162_output_is_what_was_consumed",
    "C162_stream_is_preserved"
   ],
   "note": "All mappings and calls; the second theorem over any number of calls in both modes."
  },
  {
   "property": "C163",
   "status": "proved",
   "theorems": [
    "C163_input_stops_only_at_a_full_output"
   ],
   "note": "All mappings and calls."
  },
  {
   "property": "C164",
   "status": "partial",
   "theorems": [
    "C164_combined_output_alternates_partial",
    "C164_rounds_are_those_of_input_zero",
    "C164_unmapped_first_input_refuted",
    "C164_samples_lost_refuted"
   ],
   "note": "Proved for combined outputs linked to input 0; general refutation if input 0 is unmapped, a witness for lost samples."
  },
  {
   "property": "C165",
   "status": "proved",
   "theorems": [
    "C165_levelling_ends",
    "C165_linked_inputs_advance_together"
   ],
   "note": "All mappings; fixed point by a decreasing measure."
  },
  {
   "property": "C166",
   "status": "partial",
   "theorems": [
    "C166_monitor_shows_what_is_consumed",
    "C166_choice_is_forgotten_refuted",
    "C166_no_mapping_no_monitor_refuted"
   ],
   "note": "Proved for calls with a select sample; general refutations."
  },
  {
   "property": "C167",
   "status": "proved",
   "theorems": [
    "C167_unmapped_inputs"
   ],
   "note": "All mappings and calls."
  },
  {
   "property": "C168",
   "status": "partial",
   "theorems": [
    "C168_accepted_mapping_is_valid",
    "C168_refused_mapping_is_kept_refuted",
    "C168_fewer_inputs_not_checked_refuted"
   ],
   "note": "General refutations for the refused pair and for fewer inputs."
  },
  {
   "property": "C169",
   "status": "proved",
   "theorems": [
    "C169_equal_samples_per_call",
    "C169_equal_samples_over_a_run"
   ],
   "note": "All calls and runs."
  },
  {
   "property": "C170",
   "status": "partial",
   "theorems": [
    "C170_aligned_on_the_earliest_common_time",
    "C170_aligned_tag_is_a_trigger_partial",
    "C170_filter_ignored_refuted",
    "C170_zero_tolerance_refuted",
    "C170_largest_time_refuted"
   ],
   "note": "General alignment theorem; the filter part under a hypothesis; zero tolerance refuted for all runs."
  },
  {
   "property": "C171",
   "status": "partial",
   "theorems": [
    "C171_reports_are_exact_and_in_place_partial",
    "C171_reported_number_wraps_refuted"
   ],
   "note": "All runs that skip fewer than 2^32 samples; the wrap is refuted."
  },
  {
   "property": "C172",
   "status": "proved",
   "theorems": [
    "C172_tags_travel_with_their_samples"
   ],
   "note": "All calls."
  },
  {
   "property": "C173",
   "status": "partial",
   "theorems": [
    "C173_nothing_before_the_first_common_time",
    "C173_synchronised_streams_flow",
    "C173_back_pressure_drops_samples_refuted"
   ],
   "note": "All calls; general refutation under back pressure."
  },
  {
   "property": "C174",
   "status": "partial",
   "theorems": [
    "C174_block_ends_before_the_next_trigger",
    "C174_block_begins_behind_the_previous_trigger_partial",
    "C174_unmatched_trigger_published_refuted"
   ],
   "note": "End of the block in general; begin with at most one earlier trigger."
  },
  {
   "property": "C175",
   "status": "proved",
   "theorems": [
    "C175_data_sets",
    "C175_pair_filter",
    "C175_single_filter",
    "C175_single_ranges",
    "C175_contents",
    "C175_any_calls"
   ],
   "note": "All runs of calls with samples; instantiated with the text of the filter setting for two-sided and one-sided filters."
  },
  {
   "property": "C176",
   "status": "partial",
   "theorems": [
    "C176_prompt",
    "C176_full_is_late_refuted"
   ],
   "note": "All runs; the delay with n_max by a witness."
  },
  {
   "property": "C177",
   "status": "proved",
   "theorems": [
    "C177_merged",
    "C177_with_data_set"
   ],
   "note": "All runs; the merged map is modelled as the list of tags it is made of."
  },
  {
   "property": "C178",
   "status": "partial",
   "theorems": [
    "C178_empty_call_refuted",
    "C178_same_stream_refuted",
    "C178_harmless_partial"
   ],
   "note": "General refutation for every state in the post phase, a witness run, and the harmless case."
  },
  {
   "property": "C179",
   "status": "proved",
   "theorems": [
    "C179_integers"
   ],
   "note": "Equivalence for all texts and types."
  },
  {
   "property": "C180",
   "status": "proved",
   "theorems": [
    "C180_stream",
    "C180_any_calls",
    "C180_progress",
    "C180_ranges",
    "C180_triggers"
   ],
   "note": "Refinement of a per-sample machine for all calls; then the ranges of streams with ranges far enough apart, for two-sided and one-sided filters."
  },
  {
   "property": "C181",
   "status": "proved",
   "theorems": [
    "C181_none_lost",
    "C181_in_place"
   ],
   "note": "All runs as in C180."
  },
  {
   "property": "C182",
   "status": "partial",
   "theorems": [
    "C182_start_in_tail_refuted",
    "C182_both_tags_refuted",
    "C182_no_post_refuted"
   ],
   "note": "Three witnesses; the positive part is C180 and C181."
  },
  {
   "property": "C183",
   "status": "proved",
   "theorems": [
    "C183_samples",
    "C183_nothing_lost",
    "C183_bounded",
    "C183_progress",
    "C183_only_when_full"
   ],
   "note": "Invariant over all interleavings of sink (claim, publish), settings changes and poller; the sink's claim and publish are separate steps."
  },
  {
   "property": "C184",
   "status": "partial",
   "theorems": [
    "C184_tags",
    "C184_only_when_full",
    "C184_not_counted_refuted",
    "C184_counted_but_kept_refuted",
    "C184_without_tags_refuted"
   ],
   "note": "C184_tags holds when every handler takes tags and the tags of a call are in order; three refutations."
  },
  {
   "property": "C185",
   "status": "partial",
   "theorems": [
    "C185_bounds",
    "C185_remainder_refuted"
   ],
   "note": "Bounds for all states; the remainder below the minimum is stuck."
  },
  {
   "property": "C186",
   "status": "proved",
   "theorems": [
    "C186_callback"
   ],
   "note": "All data, tags in order and chunk sizes."
  },
  {
   "property": "C187",
   "status": "partial",
   "theorems": [
    "C187_windows",
    "C187_all_triggers",
    "C187_history_refuted"
   ],
   "note": "Refinement to the windows of the concatenated stream for calls that are not empty; the history is refuted."
  },
  {
   "property": "C188",
   "status": "proved",
   "theorems": [
    "C188_ranges",
    "C188_bounded"
   ],
   "note": "Refinement to the ranges of the concatenated stream for calls that are not empty."
  },
  {
   "property": "C189",
   "status": "proved",
   "theorems": [
    "C189_snapshots"
   ],
   "note": "Refinement to the concatenated stream for calls that are not empty."
  },
  {
   "property": "C190",
   "status": "proved",
   "theorems": [
    "C190_queue"
   ],
   "note": "All interleavings."
  },
  {
   "property": "C191",
   "status": "partial",
   "theorems": [
    "C191_lookup",
    "C191_names_differ",
    "C191_types_refuted",
    "C191_taken_name_refuted",
    "C191_never_again_refuted",
    "C191_stale_refuted"
   ],
   "note": "C191_lookup and C191_names_differ for calm histories; four refutations. Lookup by block name is not modelled."
  },
  {
   "property": "C192",
   "status": "proved",
   "theorems": [
    "C192_at",
    "C192_tuples",
    "C192_linear"
   ],
   "note": "All ranks and extents; offsets do not wrap in the model."
  },
  {
   "property": "C193",
   "status": "proved",
   "theorems": [
    "C193_order",
    "C193_owning",
    "C193_equal"
   ],
   "note": "All extents and strides, by induction over the dimensions."
  },
  {
   "property": "C194",
   "status": "proved",
   "theorems": [
    "C194_slice",
    "C194_transpose",
    "C194_axes"
   ],
   "note": "Cell of each index tuple, for any view as the source."
  },
  {
   "property": "C195",
   "status": "partial",
   "theorems": [
    "C195_contiguous",
    "C195_reshape",
    "C195_reshape_when",
    "C195_view_refuted",
    "C195_copy"
   ],
   "note": "Contiguous views and owning tensors; the general claim is refuted for any view whose cells are not in one piece."
  },
  {
   "property": "C196",
   "status": "partial",
   "theorems": [
    "C196_contiguous",
    "C196_one_index_refuted",
    "C196_fill_refuted"
   ],
   "note": "Contiguous views; refuted for the others."
  },
  {
   "property": "C197",
   "status": "partial",
   "theorems": [
    "C197_resize",
    "C197_first_dimension",
    "C197_other_dimension_refuted",
    "C197_throw_refuted"
   ],
   "note": "resize, and resize_dim of the first dimension; two refutations."
  },
  {
   "property": "C198",
   "status": "partial",
   "theorems": [
    "C198_product",
    "C198_zero_refuted"
   ],
   "note": "Without an extent 0; with one the order matters."
  },
  {
   "property": "C199",
   "status": "proved",
   "theorems": [
    "C199_merge",
    "C199_outputs",
    "C199_pieces",
    "C199_chain"
   ],
   "note": "All nestings and streams; one type of sample, no SIMD."
  },
  {
   "property": "C200",
   "status": "proved",
   "theorems": [
    "C200_graph",
    "C200_sizes"
   ],
   "note": "Existence and uniqueness of the solution, by induction over the nesting."
  },
  {
   "property": "C201",
   "status": "proved",
   "theorems": [
    "C201_tap",
    "C201_output",
    "C201_causal"
   ],
   "note": "One output of the forward block, as the code needs; an equivalence, so existence and uniqueness."
  },
  {
   "property": "C202",
   "status": "proved",
   "theorems": [
    "C202_sum"
   ],
   "note": "Integers without overflow."
  },
  {
   "property": "C203",
   "status": "partial",
   "theorems": [
    "C203_edges",
    "C203_alternate",
    "C203_index",
    "C203_noise",
    "C203_constant",
    "C203_threshold_zero_refuted"
   ],
   "note": "All signals of integers; with threshold 0 a constant signal gives an edge at every sample."
  },
  {
   "property": "C204",
   "status": "partial",
   "theorems": [
    "C204_basic",
    "C204_fit",
    "C204_denominator",
    "C204_start_refuted",
    "C204_index_refuted"
   ],
   "note": "Basic: all signals. Fits: any fit that finds a crossing, signals from below; otherwise refuted."
  },
  {
   "property": "C205",
   "status": "partial",
   "theorems": [
    "C205_nearest",
    "C205_between",
    "C205_slow_refuted"
   ],
   "note": "Exact divisions, as in the model; the claim for all signals is refuted."
  },
  {
   "property": "C206",
   "status": "partial",
   "theorems": [
    "C206_any_cut",
    "C206_progress",
    "C206_cut_refuted",
    "C206_time_refuted"
   ],
   "note": "Without interpolation, all cuts; two refutations with it."
  },
  {
   "property": "C207",
   "status": "partial",
   "theorems": [
    "C207_round_trip",
    "C207_same_graph",
    "C207_weight_and_name_refuted",
    "C207_large_size_refuted"
   ],
   "note": "Maps, not their text; settings as loaded. Weight, name and sizes from 2^32 on are refuted."
  },
  {
   "property": "C208",
   "status": "partial",
   "theorems": [
    "C208_last_of_name",
    "C208_equal_names_refuted"
   ],
   "note": "The exact rule for all names; equality of the ends is refuted for equal names."
  },
  {
   "property": "C209",
   "status": "partial",
   "theorems": [
    "C209_subgraph_refuted",
    "C209_exported_port_refuted",
    "C209_accepted"
   ],
   "note": "Refuted for all graphs with sub-graphs; C209_accepted says what the loader would take."
  },
  {
   "property": "C210",
   "status": "partial",
   "theorems": [
    "C210_edges",
    "C210_accepted",
    "C210_blocks",
    "C210_size",
    "C210_negative_size_refuted"
   ],
   "note": "Both directions for connections; blocks one way; the body of sub-graphs is any function."
  },
  {
   "property": "C211",
   "status": "partial",
   "theorems": [
    "C211_accepted",
    "C211_hex_digits",
    "C211_wrong_byte",
    "C211_wrong_star_refuted",
    "C211_second_digit_refuted"
   ],
   "note": "All lines; the two kinds of unnoticed errors are refuted in general."
  },
  {
   "property": "C212",
   "status": "proved",
   "theorems": [
    "C212_fields",
    "C212_checksum_cut",
    "C212_carriage_return"
   ],
   "note": "Both directions, all lines."
  },
  {
   "property": "C213",
   "status": "partial",
   "theorems": [
    "C213_when",
    "C213_content",
    "C213_same_second_refuted",
    "C213_numbers"
   ],
   "note": "All sequences (the content for seconds that are not negative); one witness a minute and an hour apart."
  },
  {
   "property": "C214",
   "status": "partial",
   "theorems": [
    "C214_position",
    "C214_time_refuted",
    "C214_date_refuted",
    "C214_position_fields",
    "C214_time_kept"
   ],
   "note": "Position for all sequences within a second, which C213 reduces all others to; witnesses for time and date hold for every conversion."
  },
  {
   "property": "C215",
   "status": "partial",
   "theorems": [
    "C215_single_samples",
    "C215_forced_refuted"
   ],
   "note": "All sequences of calls without force; the difference with force is refuted for every ramp."
  },
  {
   "property": "C216",
   "status": "proved",
   "theorems": [
    "C216_cuts",
    "C216_every_sample"
   ],
   "note": "All reachable states."
  },
  {
   "property": "C217",
   "status": "partial",
   "theorems": [
    "C217_no_clicks",
    "C217_known_gains",
    "C217_single_samples_refuted"
   ],
   "note": "Spans: all sequences; single samples: one witness."
  },
  {
   "property": "C218",
   "status": "proved",
   "theorems": [
    "C218_settles",
    "C218_answer"
   ],
   "note": "All reachable states."
  },
  {
   "property": "C219",
   "status": "partial",
   "theorems": [
    "C219_tags_in_place",
    "C219_no_tag_missing",
    "C219_equal_places_refuted",
    "C219_both_lists_refuted"
   ],
   "note": "All sequences of calls, places below 2^32-1, repeat_period 0; the loss is shown for all lists and calls for two listed tags, by one witness for both lists."
  },
  {
   "property": "C220",
   "status": "partial",
   "theorems": [
    "C220_number_of_samples",
    "C220_tag_behind_the_end_refuted"
   ],
   "note": "All sequences of calls with a limit set."
  },
  {
   "property": "C221",
   "status": "partial",
   "theorems": [
    "C221_close_times",
    "C221_time_zero_refuted"
   ],
   "note": "All sequences of calls without listed tags; the repetition of time 0 for all sequences."
  },
  {
   "property": "C222",
   "status": "partial",
   "theorems": [
    "C222_not_too_many",
    "C222_catches_up",
    "C222_limits",
    "C222_rate_kept_refuted"
   ],
   "note": "Whole rates and nanoseconds, exact products; all sequences of calls."
  },
  {
   "property": "C223",
   "status": "partial",
   "theorems": [
    "C223_no_catching_up",
    "C223_in_time_refuted"
   ],
   "note": "All sequences of calls; the starvation holds for all of them."
  },
  {
   "property": "C224",
   "status": "proved",
   "theorems": [
    "C224_never_stuck",
    "C224_zero_is_stuck"
   ],
   "note": "All seeds, all numbers of draws; exact 64-bit words."
  },
  {
   "property": "C225",
   "status": "proved",
   "theorems": [
    "C225_seeds_apart",
    "C225_states_apart"
   ],
   "note": "All seeds and states; the step and the seeding are injective."
  },
  {
   "property": "C226",
   "status": "proved",
   "theorems": [
    "C226_published",
    "C226_published_any",
    "C226_seeded",
    "C226_in_parts"
   ],
   "note": "Against the published generator written in arithmetic."
  },
  {
   "property": "C227",
   "status": "proved",
   "theorems": [
    "C227_uniform_double",
    "C227_uniform_float",
    "C227_twice_minus_one",
    "C227_half_open"
   ],
   "note": "Numerators over 2^53 and 2^24; the doubles and floats are these exactly."
  }
 ]
}