{
 "claims": [
  {
   "property": "C01",
   "status": "proved",
   "theorems": [
    "C01_scalar_roundtrip",
    "C01_signed_roundtrip",
    "C01_bytes_are_digits"
   ],
   "note": "all widths, both byte orders of the wire and of the sender and receiver hosts; floating point values are carried as their bit patterns"
  },
  {
   "property": "C02",
   "status": "proved",
   "theorems": [
    "C02_size_roundtrip",
    "C02_size_overflow_refused",
    "C02_null_length",
    "C02_selector_roundtrip"
   ],
   "note": "sizes 0..2^32-1 and selectors; larger sizes and the null marker where it is not allowed are refused"
  },
  {
   "property": "C03",
   "status": "proved",
   "theorems": [
    "C03_string_roundtrip",
    "C03_null_string",
    "C03_string_array_roundtrip"
   ],
   "note": "std::string, C string and arrays of strings, with strict prefixes rejected"
  },
  {
   "property": "C04",
   "status": "proved",
   "theorems": [
    "C04_array_roundtrip",
    "C04_sliced_array_read",
    "C04_sliced_array_roundtrip"
   ],
   "note": "contiguous buffers (WireProps) and the slice by slice loops on arbitrarily segmented buffers (SegProps)"
  },
  {
   "property": "C05",
   "status": "partial",
   "theorems": [
    "C05_status_roundtrip_partial",
    "C05_status_nul_refuted",
    "C05_success_verdict"
   ],
   "note": "round trip proved for messages and traces without NUL; C05_status_nul_refuted shows that text is cut at the first NUL"
  },
  {
   "property": "C06",
   "status": "proved",
   "theorems": [
    "C06_header_roundtrip",
    "C06_header_rejects"
   ],
   "note": ""
  },
  {
   "property": "C07",
   "status": "proved",
   "theorems": [
    "C07_primitive_decoders_safe",
    "C07_skip_exact",
    "C07_mask_decoder_safe",
    "C07_type_decoder_safe",
    "C07_value_decoders_safe"
   ],
   "note": "no decoder reads outside its input or resumes after a fault, for all byte strings"
  },
  {
   "property": "C08",
   "status": "partial",
   "theorems": [
    "C08_segmentation_invisible",
    "C08_primitive_decoders_segment_independent",
    "C08_skip_in_window_partial",
    "C08_skip_across_refuted",
    "C08_mask_decoder_segment_independent",
    "C08_type_decoder_segment_independent",
    "C08_value_decoders_segment_independent"
   ],
   "note": "every decoder written against the buffer interface is independent of segmentation; skip() across a slice boundary consumes too much (C08_skip_across_refuted), skip() inside the window is exact"
  },
  {
   "property": "C09",
   "status": "partial",
   "theorems": [
    "C09_mask_bits_roundtrip",
    "C09_mask_roundtrip_partial",
    "C09_wide_mask_refuted"
   ],
   "note": "bits preserved for every mask; iteration of the received mask agrees up to 65528 bits; wider masks wrap the 16 bit size (C09_wide_mask_refuted)"
  },
  {
   "property": "C10",
   "status": "partial",
   "theorems": [
    "C10_find_set",
    "C10_iteration",
    "C10_construction",
    "C10_initializer",
    "C10_range_iteration_refuted",
    "C10_shrink_refuted",
    "C10_received_mask_safe"
   ],
   "note": "proved for masks without bits beyond their size (all masks made by sizing and setting bits, or received with fewer than 8192 bytes); shrinking and range iteration violate it (C10_shrink_refuted, C10_range_iteration_refuted)"
  },
  {
   "property": "C11",
   "status": "proved",
   "theorems": [
    "C11_type_roundtrip",
    "C11_deeper_refuted",
    "C11_definition_recovered"
   ],
   "note": "every type up to 20 levels of nesting, any cache; C11_deeper_refuted shows 21 levels are refused by the receiver although the sender sends them"
  },
  {
   "property": "C12",
   "status": "partial",
   "theorems": [
    "C12_hostile_types_wellformed",
    "C12_cache_starts_ok",
    "C12_history_cache_ok",
    "C12_value_of_received_type",
    "C12_value_of_good_type",
    "C12_hostile_values_harmless",
    "C12_hostile_type_value_harmless",
    "C12_hostile_update_harmless_partial",
    "C12_big_update_refuted"
   ],
   "note": "the type decoder, creation of Values and the value decoders (complete, with type, partial updates) are total, memory safe and yield usable values for every byte string and cache history; partial updates only for types of less than 65536 fields, beyond which an empty update loops (C12_big_update_refuted)"
  },
  {
   "property": "C13",
   "status": "partial",
   "theorems": [
    "C13_full_value_roundtrip",
    "C13_contents_preserved",
    "C13_truncation_detected",
    "C13_type_and_value_roundtrip",
    "C13_usable_values_encodable",
    "C13_forwarded_union_array_refuted"
   ],
   "note": "proved for every type and value, both byte orders, all receiver storage, any following bytes, strict prefixes refused; arrays of Union arrive as arrays of the selected members and cannot be sent on (C13_forwarded_union_array_refuted), null arrays arrive empty"
  },
  {
   "property": "C14",
   "status": "proved",
   "theorems": [
    "C14_partial_update_roundtrip",
    "C14_truncation_detected"
   ],
   "note": "with and without a request mask"
  },
  {
   "property": "C15",
   "status": "partial",
   "theorems": [
    "C15_first_definition_partial",
    "C15_redefinition_refuted",
    "C15_unknown_key_faults"
   ],
   "note": "first definition and reference proved; a redefinition of a key is ignored by the receiver (C15_redefinition_refuted)"
  },
  {
   "property": "C16",
   "status": "proved",
   "theorems": [
    "C16_is_marked",
    "C16_unmark",
    "C16_mark",
    "C16_mark_off"
   ],
   "note": "every type and storage; mark() through any chain of enclosing unions"
  },
  {
   "property": "C17",
   "status": "proved",
   "theorems": [
    "C17_marked_fields",
    "C17_union_member"
   ],
   "note": "every structure in every type, and the Union case"
  },
  {
   "property": "C18",
   "status": "proved",
   "theorems": [
    "C18_lookup_table",
    "C18_lookup_table_only",
    "C18_dotted",
    "C18_parent",
    "C18_root",
    "C18_has_parent",
    "C18_name_of",
    "C18_name_of_union"
   ],
   "note": "For every structure in every value whose names are identifiers: a dotted name finds the field at its path or nothing (C18_dotted, C18_lookup_table, C18_lookup_table_only), '<' leads to the parent and fails at the root (C18_parent, C18_has_parent, C18_root), nameOf() and lookup are inverse (C18_name_of, C18_name_of_union).  Other expressions: C75."
  },
  {
   "property": "C19",
   "status": "partial",
   "theorems": [
    "C19_integer_stored",
    "C19_integer_read",
    "C19_write_read",
    "C19_integer_text",
    "C19_integer_read_text",
    "C19_text_to_signed",
    "C19_text_to_unsigned_partial",
    "C19_bool_field",
    "C19_bool_source",
    "C19_failure_harmless",
    "C19_failed_assignment_marks_refuted",
    "C19_real_to_integer_refuted"
   ],
   "note": "every integer, integer type pair, text and bool; the floating point unit is a parameter of the model. Not true of the code: real numbers out of range when converted to integers are undefined behaviour (C19_real_to_integer_refuted), a failed structure array conversion leaves the field marked (C19_failed_assignment_marks_refuted), and unsigned text parsing inherits C44 (C19_text_to_unsigned_partial)"
  },
  {
   "property": "C20",
   "status": "proved",
   "theorems": [
    "C20_integer_array",
    "C20_empty_array",
    "C20_integer_to_text",
    "C20_text_to_signed",
    "C20_bool_arrays"
   ],
   "note": "every integer array and pair of element types; also integer to text, text to signed and bool arrays"
  },
  {
   "property": "C21",
   "status": "partial",
   "theorems": [
    "C21_assign_partial",
    "C21_clone_partial",
    "C21_union_selection_refuted",
    "C21_unselected_union_refuted",
    "C21_struct_array_refuted",
    "C21_root_mark_refuted"
   ],
   "note": "structures of any shape without Union fields, any marks, any position in the two values (C21_assign_partial, C21_clone_partial); with Unions the selection can change, clone() can throw, and a root mark does not carry the contents (refuted theorems)"
  },
  {
   "property": "C22",
   "status": "partial",
   "theorems": [
    "C22_selection",
    "C22_ancestors",
    "C22_hostile_request",
    "C22_testmask",
    "C22_union_type_refuted"
   ],
   "note": "structure types of any shape and any request, including hostile ones; for a channel whose type is a Union the mask computation leaves the type description (C22_union_type_refuted)"
  },
  {
   "property": "C23",
   "status": "proved",
   "theorems": [
    "C23_reads",
    "C23_reading",
    "C23_incomplete",
    "C23_huge_stalls"
   ],
   "note": "all ways of cutting the stream into reads, whole state and handlers included; reading goes on unless the announced length is 2^32-8 or more, when the connection stalls (C23_huge_stalls)"
  },
  {
   "property": "C24",
   "status": "proved",
   "theorems": [
    "C24_delivered",
    "C24_out_of_place",
    "C24_interrupted",
    "C24_not_a_message",
    "C24_sent"
   ],
   "note": "any stream of frames and control messages, any handlers; out of place segments, changed command and malformed headers end the connection; round trip with enqueueTxBody()"
  },
  {
   "property": "C25",
   "status": "proved",
   "theorems": [
    "C25_order",
    "C25_bound",
    "C25_post_result",
    "C25_no_abort"
   ],
   "note": "every interleaving of posts, messages, worker steps and connection loss; the finish marker may take one more slot"
  },
  {
   "property": "C26",
   "status": "partial",
   "theorems": [
    "C26_converges_partial",
    "C26_root_mark_refuted",
    "C26_union_refuted",
    "C26_unselected_refuted"
   ],
   "note": "Every request and every structure type without Union fields, updates not marked as a whole (C26_root_mark_refuted); sharing of one update between subscribers is C29.  Missing, because false: with a Union, merging may change which member is selected (C26_union_refuted) and ignores that none is selected any more (C26_unselected_refuted)."
  },
  {
   "property": "C27",
   "status": "partial",
   "theorems": [
    "C27_window_partial",
    "C27_end",
    "C27_finish_window_refuted",
    "C27_stop_window_refuted",
    "C27_stopped_end_refuted"
   ],
   "note": "the end is announced last and once (C27_end, all interleavings); the window holds until finish(), up to one update per stop (C27_window_partial); it is ignored after finish() and after a stop (refuted theorems), and the end after a stop is malformed (C27_stopped_end_refuted)"
  },
  {
   "property": "C28",
   "status": "partial",
   "theorems": [
    "C28_no_stall_unpipelined",
    "C28_no_stall_partial",
    "C28_ack_refuted"
   ],
   "note": "no stall without pipelining, and with pipelining when acknowledgements come with a start; a plain acknowledgement does not resume sending (C28_ack_refuted)"
  },
  {
   "property": "C29",
   "status": "partial",
   "theorems": [
    "C29_unmerged_partial",
    "C29_converges_partial",
    "C29_refuted"
   ],
   "note": "refuted as stated (C29_refuted: one copy is shared by all queues and merged into). Proved: exact delivery while no queue overflows, and convergence to the current value of every subscriber whatever the others do"
  },
  {
   "property": "C30",
   "status": "partial",
   "theorems": [
    "C30_partial",
    "C30_waiting_partial",
    "C30_value",
    "C30_refuted"
   ],
   "note": "refuted as stated (C30_refuted: a post between set-up and joining is lost). Proved for subscribers joining without a post in between, set up before or after open(), any later interleaving"
  },
  {
   "property": "C31",
   "status": "partial",
   "theorems": [
    "C31_partial",
    "C31_last_partial",
    "C31_close_refuted",
    "C31_servers_refuted"
   ],
   "note": "proved for channels of one server without close(); refuted with close() and with two servers"
  },
  {
   "property": "C32",
   "status": "partial",
   "theorems": [
    "C32_at_most_one",
    "C32_after_disconnect",
    "C32_ended",
    "C32_reply_sent",
    "C32_stale_refuted",
    "C32_unanswered_refuted"
   ],
   "note": "at most one reply per accepted execute request, nothing after disconnect or after the operation ended, and a waiting request is answered by the first reply: all event sequences. Not true of the code: a reply object kept from a cancelled execution answers the next one (C32_stale_refuted), and an RPC request with the GET bit reaches no handler (C32_unanswered_refuted)"
  },
  {
   "property": "C33",
   "status": "partial",
   "theorems": [
    "C33_partial",
    "C33_running_distinct",
    "C33_ioid_usable",
    "C33_refuted",
    "C33_init_refuted"
   ],
   "note": "all event sequences: at most once; exactly once and request ID released when the operation ends other than by its own reply; refuted for requests with the destroy bit, refused INIT and GET_FIELD"
  },
  {
   "property": "C34",
   "status": "proved",
   "theorems": [
    "C34_sid",
    "C34_sid_available",
    "C34_ioid",
    "C34_cid"
   ],
   "note": "SIDs over all event sequences of a connection; IOID and CID loops for every counter value and set of used identifiers, if fewer than 2^32 are in use"
  },
  {
   "property": "C35",
   "status": "partial",
   "theorems": [
    "C35_destroyed_partial",
    "C35_closed_partial",
    "C35_callback_partial",
    "C35_refuted",
    "C35_again_refuted"
   ],
   "note": "closing an open channel ends all its operations and calls its callback once, in every reachable state; requests naming it later are still accepted and it stays in the table (C35_refuted)"
  },
  {
   "property": "C36",
   "status": "partial",
   "theorems": [
    "C36_order",
    "C36_wake",
    "C36_all_seen",
    "C36_callbacks",
    "C36_called",
    "C36_cancelled",
    "C36_pop",
    "C36_batch",
    "C36_batch_emptied",
    "C36_init_error_refuted"
   ],
   "note": "all event sequences and interleavings with pops, if onInit does not throw; an exception of onInit is never reported (C36_init_error_refuted)"
  },
  {
   "property": "C37",
   "status": "partial",
   "theorems": [
    "C37_once",
    "C37_final",
    "C37_told",
    "C37_cancelled",
    "C37_dropped",
    "C37_reply",
    "C37_info_once",
    "C37_info_cancelled",
    "C37_reexec_put_partial",
    "C37_reexec_put_lost",
    "C37_reexec_lost_refuted",
    "C37_reexec_early_refuted",
    "C37_reexec_twice_refuted",
    "C37_reexec_error_refuted"
   ],
   "note": "all event sequences for the default autoExec and for INFO: at most once, exactly once when it ends by itself, never after cancel(); refuted for reExecGet()/reExecPut() (callback lost, called twice, or connection ended)"
  },
  {
   "property": "C38",
   "status": "partial",
   "theorems": [
    "C38_partial",
    "C38_reexec",
    "C38_one_outstanding",
    "C38_refuted"
   ],
   "note": "at most once plus once per loss of connection while the reply is awaited (C38_refuted: it is sent again); at most once per reExecPut()"
  },
  {
   "property": "C39",
   "status": "partial",
   "theorems": [
    "C39_scheduled",
    "C39_bound",
    "C39_first",
    "C39_only",
    "C39_no_abort",
    "C39_long_name_refuted",
    "C39_once_refuted",
    "C39_backoff",
    "C39_first_again",
    "C39_reset_refuted"
   ],
   "note": "For every history: a channel being searched for is scheduled (C39_scheduled), is asked for within 30 ticks whatever else happens (C39_bound, C39_first), only such channels are asked for (C39_only), and intervals grow as documented with up to 100 channels in the ring (C39_backoff, C39_first_again).  Missing, because false: names of more than 65536 bytes abort the process (C39_long_name_refuted; C39_no_abort is proved up to 32000 bytes); a channel may be asked for twice in one message (C39_once_refuted); the interval is not reset when a connected channel is lost (C39_reset_refuted)."
  },
  {
   "property": "C40",
   "status": "proved",
   "theorems": [
    "C40_alternate",
    "C40_beacon",
    "C40_timeout",
    "C40_timeout_is",
    "C40_silent",
    "C40_limit",
    "C40_server",
    "C40_server_bytes",
    "C40_steady"
   ],
   "note": "For every history of beacons, timers and clock readings: announcements of a server alternate between online and lost, with the same identity (C40_alternate); exactly what each beacon (C40_beacon) and each expiration of the timer (C40_timeout, C40_timeout_is) announces, nothing else does (C40_silent); at most 20000 are known (C40_limit); the beacons a server sends are read back (C40_server, C40_server_bytes) and keep it known (C40_steady)."
  },
  {
   "property": "C41",
   "status": "partial",
   "theorems": [
    "C41_search",
    "C41_beacon",
    "C41_safe_partial",
    "C41_forward",
    "C41_protocol_refuted",
    "C41_abort_refuted",
    "C41_throw_refuted"
   ],
   "note": "Decoding is exact for every datagram and every earlier history of the collector: C41_search and C41_beacon are equivalences with the format of UdpSpec.v, C41_forward covers forwarding to the other servers of the host, C41_safe_partial the absence of accesses outside of the buffer.  Missing, because false: a datagram which is not a search can abort the process if sent from the same host (C41_abort_refuted) or be reported as an internal error (C41_throw_refuted); the protocol list of an earlier datagram counts for later ones (C41_protocol_refuted)."
  },
  {
   "property": "C42",
   "status": "partial",
   "theorems": [
    "C42_order",
    "C42_never_undone",
    "C42_accepts",
    "C42_refuses",
    "C42_call_returns",
    "C42_call_own",
    "C42_none_forgotten",
    "C42_can_finish",
    "C42_join_partial",
    "C42_join_refuted"
   ],
   "note": "order, exactly once, call() after its action, no lost wake-up, for all interleavings; at join() only if no thread is between push and wake-up (C42_join_refuted: call() then waits forever)"
  },
  {
   "property": "C43",
   "status": "proved",
   "theorems": [
    "C43_escaped_printable",
    "C43_escape_readable",
    "C43_escape_injective",
    "C43_quoted_readable"
   ],
   "note": "every byte string; the escaped form can be read back"
  },
  {
   "property": "C44",
   "status": "partial",
   "theorems": [
    "C44_print_decimal",
    "C44_parse_print_signed",
    "C44_parse_print_unsigned",
    "C44_signed_exact",
    "C44_denotes_one",
    "C44_unsigned_exact_partial",
    "C44_unsigned_range_refuted",
    "C44_bool_text"
   ],
   "note": "signed parsing accepts exactly the texts denoting a number in range, unsigned parsing also accepts negative numbers modulo 2^64 (C44_unsigned_range_refuted)"
  },
  {
   "property": "C45",
   "status": "partial",
   "theorems": [
    "C45_names_partial",
    "C45_nul_refuted",
    "C45_empty_refuted",
    "C45_constructed_names"
   ],
   "note": "every description delivered by the constructors has valid names; two name defects refuted (embedded NUL, empty)"
  },
  {
   "property": "C46",
   "status": "partial",
   "theorems": [
    "C46_accepts",
    "C46_documented",
    "C46_error",
    "C46_field",
    "C46_record",
    "C46_names",
    "C46_written",
    "C46_build",
    "C46_default",
    "C46_served",
    "C46_space_refuted",
    "C46_grammar_refuted",
    "C46_keyword_refuted",
    "C46_more_refuted",
    "C46_atomic_refuted"
   ],
   "note": "For every text and every history of calls: which texts are taken and what they do (C46_accepts), the documented grammar being part of that (C46_documented); every text is taken or refused with an error which shows where (C46_error); what .field() and .record() do (C46_field, C46_record); what a sequence of calls asks for (C46_names); what is written is read (C46_written); the request built (C46_build, C46_default), and what a server selects for it (C46_served).  Missing, because false: trailing spaces (C46_space_refuted), only the documented grammar (C46_grammar_refuted), any name (C46_keyword_refuted), naming more selects more (C46_more_refuted), refused text changes nothing (C46_atomic_refuted).  Not modelled: rawRequest()."
  },
  {
   "property": "C47",
   "status": "partial",
   "theorems": [
    "C47_order",
    "C47_results",
    "C47_restore",
    "C47_refused",
    "C47_create_partial",
    "C47_throw_refuted",
    "C47_wrong_source_refuted"
   ],
   "note": "Registry: proved for all histories (C47_order, C47_results, C47_restore, C47_refused).  Channel creation: proved if a source which throws does so before touching the channel (C47_create_partial); otherwise false (C47_throw_refuted, C47_wrong_source_refuted)."
  },
  {
   "property": "C48",
   "status": "partial",
   "theorems": [
    "C48_partial",
    "C48_last_partial",
    "C48_same_name",
    "C48_again_refuted",
    "C48_order_refuted",
    "C48_env"
   ],
   "note": "Proved for all histories in which no pattern is set twice without logger_level_clear() in between (C48_partial, C48_last_partial), together with the format of PVXS_LOG (C48_env) and equality of loggers of one name for all histories (C48_same_name).  Missing: repeated patterns, where the code does differ (C48_again_refuted, C48_order_refuted)."
  },
  {
   "property": "C49",
   "status": "proved",
   "theorems": [
    "C49_usable",
    "C49_kept",
    "C49_others",
    "C49_from_text",
    "C49_scaled",
    "C49_echo"
   ],
   "note": "every configured number, including NaN and infinities; multiplication not rounded"
  },
  {
   "property": "C50",
   "status": "partial",
   "theorems": [
    "C50_endpoints",
    "C50_strings_partial",
    "C50_strings_refuted"
   ],
   "note": "proved for endpoints; lists of strings are sorted (C50_strings_refuted)"
  },
  {
   "property": "C51",
   "status": "proved",
   "theorems": [
    "C51_address_roundtrip"
   ],
   "note": ""
  },
  {
   "property": "C52",
   "status": "partial",
   "theorems": [
    "C52_first_wins",
    "C52_after",
    "C52_woken_partial",
    "C52_refuted"
   ],
   "note": "the first result wins for every interleaving; release proved for one waiter, refuted for two (C52_refuted)"
  },
  {
   "property": "C53",
   "status": "partial",
   "theorems": [
    "C53_append",
    "C53_append_one",
    "C53_rebuild",
    "C53_duplicate_aborts_refuted",
    "C53_recode_refuted"
   ],
   "note": "append and rebuild proved; duplicate Struct names abort and a code changing append loses members (refuted theorems)"
  },
  {
   "property": "C54",
   "status": "partial",
   "theorems": [
    "C54_same_shape_equal",
    "C54_reflexive",
    "C54_exact_partial",
    "C54_symmetric_partial",
    "C54_union_refuted"
   ],
   "note": "exact on types without Union; Unions compare by selector count only (C54_union_refuted)"
  },
  {
   "property": "C55",
   "status": "partial",
   "theorems": [
    "C55_sync_partial",
    "C55_struct_array_refuted"
   ],
   "note": "every storage; values held in Any/Union fields are clones, when they can be cloned (C55_struct_array_refuted)"
  },
  {
   "property": "C56",
   "status": "proved",
   "theorems": [
    "C56_encoders_bounded",
    "C56_encoders_complete_when_good"
   ],
   "note": ""
  },
  {
   "property": "C57",
   "status": "partial",
   "theorems": [
    "C57_expression",
    "C57_size_mismatch_refused",
    "C57_equality_partial",
    "C57_not_equality_refuted"
   ],
   "note": "evaluation proved for all expressions; == proved for masks without bits beyond the size, which ! produces (C57_not_equality_refuted)"
  },
  {
   "property": "C58",
   "status": "proved",
   "theorems": [
    "C58_difference_complete",
    "C58_equal_texts",
    "C58_difference_reported"
   ],
   "note": "every pair of lists of lines"
  },
  {
   "property": "C59",
   "status": "partial",
   "theorems": [
    "C59_split_partial",
    "C59_carriage_return_refuted"
   ],
   "note": "texts with \\n or \\r\\n line ends; a lone carriage return loops forever (C59_carriage_return_refuted)"
  },
  {
   "property": "C60",
   "status": "proved",
   "theorems": [
    "C60_clear"
   ],
   "note": "every type, value and field; array fields are reset to the null array"
  },
  {
   "property": "C61",
   "status": "proved",
   "theorems": [
    "C61_all_fields",
    "C61_children"
   ],
   "note": "every type; Union/array element iteration is by members (f_iter)"
  },
  {
   "property": "C62",
   "status": "partial",
   "theorems": [
    "C62_counters_partial",
    "C62_stats_refuted"
   ],
   "note": "largest queue length and internal merge count right; the reported number queued is the merge count and the reported merge count is always 0 (C62_stats_refuted)"
  },
  {
   "property": "C63",
   "status": "partial",
   "theorems": [
    "C63_no_stall",
    "C63_window_partial",
    "C63_acked",
    "C63_refuted",
    "C63_percent_refuted"
   ],
   "note": "no stall, and acknowledgements match what was popped, for all histories; the window bound only without Connected events and reconnects, since popped events are acknowledged like updates (C63_refuted); percentages are not divided by 100 (C63_percent_refuted)"
  },
  {
   "property": "C64",
   "status": "partial",
   "theorems": [
    "C64_alternate",
    "C64_masked",
    "C64_masked_finished_refuted"
   ],
   "note": "alternation and masks for all histories; Finished is not masked (C64_masked_finished_refuted)"
  },
  {
   "property": "C65",
   "status": "partial",
   "theorems": [
    "C65_monitor_partial",
    "C65_refuted",
    "C65_gpr",
    "C65_reexec_partial",
    "C65_unsolicited"
   ],
   "note": "GET, PUT, RPC: proved for every moment of cancel(); subscriptions: no hang-up if not cancelled between INIT and its reply, where it does happen (C65_refuted)"
  },
  {
   "property": "C66",
   "status": "partial",
   "theorems": [
    "C66_partial",
    "C66_refuted"
   ],
   "note": "proved unless given up from a callback run inside Channel::disconnect(), where the null connection is used (C66_refuted)"
  },
  {
   "property": "C67",
   "status": "proved",
   "theorems": [
    "C67_put"
   ],
   "note": "every PUT execution sent, over all event sequences"
  },
  {
   "property": "C68",
   "status": "partial",
   "theorems": [
    "C68_server",
    "C68_client",
    "C68_precedence",
    "C68_order_refuted"
   ],
   "note": "ports, flags and address sets; the order of addresses is lost (C68_order_refuted); the timeout is not part of it"
  },
  {
   "property": "C69",
   "status": "partial",
   "theorems": [
    "C69_port_partial",
    "C69_invalid_ignored",
    "C69_refuted"
   ],
   "note": "up to 65535, and invalid text ignored; larger numbers become another port (C69_refuted)"
  },
  {
   "property": "C70",
   "status": "proved",
   "theorems": [
    "C70_words",
    "C70_list"
   ],
   "note": "every text; reading and printing one address is a parameter"
  },
  {
   "property": "C71",
   "status": "proved",
   "theorems": [
    "C71_search"
   ],
   "note": "Every message of every history, in its three variants."
  },
  {
   "property": "C72",
   "status": "partial",
   "theorems": [
    "C72_reply",
    "C72_ignored",
    "C72_read",
    "C72_connect",
    "C72_round_trip",
    "C72_unicast",
    "C72_ping",
    "C72_tcp",
    "C72_protocol_order_refuted",
    "C72_short_refuted"
   ],
   "note": "End to end for every history: broadcast (C72_round_trip), one address (C72_unicast), name server (C72_tcp), discovery (C72_ping); replies of either byte order (C72_read) and which channels connect (C72_connect).  Missing, because false: a search through a connection which lists a protocol after tcp is misread (C72_protocol_order_refuted), a short reply is reported as an internal error (C72_short_refuted)."
  },
  {
   "property": "C73",
   "status": "partial",
   "theorems": [
    "C73_hurry",
    "C73_online",
    "C73_only",
    "C73_rate",
    "C73_clock_refuted"
   ],
   "note": "Exactly when hurryUp() (C73_hurry) or a beacon (C73_online) has an effect, nothing else has (C73_only), and never twice in 30 seconds (C73_rate), for every history.  Missing, because false: after the clock was set back it has no effect until the clock caught up (C73_clock_refuted).  That the effect reaches every channel is C39_bound."
  },
  {
   "property": "C74",
   "status": "partial",
   "theorems": [
    "C74_told",
    "C74_late_refuted"
   ],
   "note": "Each announcement goes to exactly the operations in progress (C74_told).  Missing, because false: an operation is not told of servers which were known before it started (C74_late_refuted).  Not modelled: discoverers is changed on the TCP worker while the UDP worker may iterate over it (a data race)."
  },
  {
   "property": "C75",
   "status": "partial",
   "theorems": [
    "C75_expression",
    "C75_total",
    "C75_result_partial",
    "C75_const",
    "C75_untouched",
    "C75_index_refuted",
    "C75_failed_lookup_refuted",
    "C75_leave_union_refuted"
   ],
   "note": "For all values, starting fields and texts: which field an expression finds, as an equivalence with a relation of steps (C75_expression), the lookup ends without undefined behaviour also on hostile values (C75_total), const lookups change nothing (C75_const), others no mark and at most one field of the value (C75_untouched).  What lookup() and operator[] give their caller follows from the steps, exceptions included (C75_result_partial; the exact exception of a failed lookup() is not described).  Missing, because false: an index which is no number throws from operator[] (C75_index_refuted), a failed lookup may have changed a Union (C75_failed_lookup_refuted); '<' does not leave a Union member (C75_leave_union_refuted)."
  },
  {
   "property": "C76",
   "status": "partial",
   "theorems": [
    "C76_init",
    "C76_get",
    "C76_put",
    "C76_rpc",
    "C76_subscribe",
    "C76_monitor_control",
    "C76_others",
    "C76_create",
    "C76_validation",
    "C76_empty_name_refuted"
   ],
   "note": "Bytes, both byte orders on all three sides, the unchanged type cache and every cut: C76_init, C76_get, C76_put, C76_rpc, C76_subscribe, C76_monitor_control, C76_others, C76_create, C76_validation.  Missing, because false: a channel request with an empty name gets neither reply nor refusal (C76_empty_name_refuted)."
  },
  {
   "property": "C77",
   "status": "proved",
   "theorems": [
    "C77_error",
    "C77_init",
    "C77_get",
    "C77_put_rpc",
    "C77_channels",
    "C77_get_field",
    "C77_mon_init",
    "C77_mon_update",
    "C77_mon_finish"
   ],
   "note": "C77_error (every request, with any body left out), C77_init, C77_get (also the get part of a PUT), C77_put_rpc, C77_channels, C77_get_field, C77_mon_init, C77_mon_update, C77_mon_finish.  Updates for types of less than 65536 fields (see C12_big_update_refuted)."
  },
  {
   "property": "C78",
   "status": "partial",
   "theorems": [
    "C78_monitor_partial",
    "C78_get_partial",
    "C78_monitor_unions_partial",
    "C78_get_unions_partial",
    "C78_struct_array_refuted"
   ],
   "note": "For sequences of any length, through the bytes of the messages.  Types without Union or Any: C78_monitor_partial, C78_get_partial.  All types, when what a Union or Any holds is made of numbers, texts, arrays of these and structures: C78_monitor_unions_partial, C78_get_unions_partial, equal up to marks.  False otherwise: an array of structures in an Any ends the connection (C78_struct_array_refuted).  Missing: Unions and Any inside of what a Union or Any holds."
  },
  {
   "property": "C79",
   "status": "partial",
   "theorems": [
    "C79_client_choice",
    "C79_server_offer",
    "C79_first",
    "C79_handshake",
    "C79_only_own",
    "C79_later_refuted"
   ],
   "note": "C79_client_choice, C79_server_offer, C79_first, C79_handshake (through the bytes), C79_only_own (all histories).  Missing, because false: after a first \"ca\" message a later anonymous or refused one leaves the earlier user in force (C79_later_refuted)."
  },
  {
   "property": "C80",
   "status": "partial",
   "theorems": [
    "C80_server",
    "C80_client",
    "C80_client_partial",
    "C80_early_update_refuted",
    "C80_empty_type_refuted"
   ],
   "note": "All messages to a server (C80_server) and all but subscription updates to a client (C80_client); those only if every operation is a subscription of known type (C80_client_partial).  Missing, because false: an update which comes too early, or for another kind of operation, or after an empty type, makes the client follow a null pointer (C80_early_update_refuted, C80_empty_type_refuted).  Types of operations have less than 65536 fields (C12_big_update_refuted)."
  },
  {
   "property": "C81",
   "status": "partial",
   "theorems": [
    "C81_scalar",
    "C81_scalar_refused",
    "C81_enum",
    "C81_ndarray",
    "C81_ndarray_float_refuted",
    "C81_table",
    "C81_duplicate_column_refuted",
    "C81_table_labels",
    "C81_uri",
    "C81_uri_call",
    "C81_uri_call_unfit"
   ],
   "note": "For all parameters: C81_scalar, C81_scalar_refused, C81_enum, C81_ndarray, C81_table, C81_table_labels, C81_uri, C81_uri_call (arguments text, boolean, integer or double, given for fields of such type).  Missing, because false: an image of floats or doubles is a single number (C81_ndarray_float_refuted); two columns of one name stop the process (C81_duplicate_column_refuted)."
  },
  {
   "property": "C82",
   "status": "partial",
   "theorems": [
    "C82_spelled",
    "C82_printed",
    "C82_refused",
    "C82_index_refuted",
    "C82_malformed_refuted"
   ],
   "note": "C82_spelled, C82_printed, C82_refused for all texts.  Missing, because false: a subscript is reduced modulo 2^32 (C82_index_refuted); a trailing dot, an empty subscript and text after a subscript are accepted (C82_malformed_refuted)."
  },
  {
   "property": "C83",
   "status": "partial",
   "theorems": [
    "C83_settings",
    "C83_files",
    "C83_files_clear",
    "C83_unreported_refuted",
    "C83_abort_refuted",
    "C83_array_refuted",
    "C83_command_refuted",
    "C83_go_on"
   ],
   "note": "C83_settings for all documents whose values suit their options; C83_go_on; C83_files, C83_files_clear for dbLoadGroup().  Missing, because false: an unsuitable value is not reported (C83_unreported_refuted) or stops the process (C83_abort_refuted, C83_array_refuted); the iocsh command forgets the files (C83_command_refuted).  yajl is represented by the callbacks it makes for a text and by whether it finds the text well formed."
  },
  {
   "property": "C84",
   "status": "partial",
   "theorems": [
    "C84_valid",
    "C84_order",
    "C84_triggers",
    "C84_blank_refuted"
   ],
   "note": "C84_valid, C84_order, C84_triggers for all configurations.  Missing, because false: blanks in a trigger list, as in the documentation, are taken as part of the names (C84_blank_refuted)."
  },
  {
   "property": "C85",
   "status": "partial",
   "theorems": [
    "C85_created",
    "C85_groups",
    "C85_failed_refuted",
    "C85_range_refuted",
    "C85_subscript_refuted"
   ],
   "note": "C85_created for one group, C85_groups from the documents of a whole IOC.  Missing, because false: a group whose creation failed is served without a type (C85_failed_refuted), triggers of a group with a missing field are out of range (C85_range_refuted), a field named by a subscript alone stops the process (C85_subscript_refuted)."
  },
  {
   "property": "C86",
   "status": "partial",
   "theorems": [
    "C86_group",
    "C86_options",
    "C86_member",
    "C86_meta",
    "C86_structure",
    "C86_nested_refuted",
    "C86_channel"
   ],
   "note": "C86_group, C86_options, C86_channel, C86_member (scalar, plain, any, const), C86_meta, C86_structure (names of one component).  Missing, because false: a structure with a nested name is put elsewhere (C86_nested_refuted).  Constants of kinds JSON cannot give are not covered."
  },
  {
   "property": "C87",
   "status": "partial",
   "theorems": [
    "C87_permitted",
    "C87_calls",
    "C87_one_lock",
    "C87_complete",
    "C87_denied",
    "C87_partial_refuted",
    "C87_permission_refuted",
    "C87_proc_refuted",
    "C87_member_refuted"
   ],
   "note": "C87_permitted (atomic, or all fields with channels), C87_calls (any group, without permission), C87_one_lock, C87_complete, C87_denied.  Missing, because false: a refused PUT may have written part (C87_partial_refuted); a non-atomic PUT to a group with a field without channel asks for the permission of another field (C87_permission_refuted); the record of a Proc field is processed without permission (C87_proc_refuted); a value sent for the member value of a Scalar field alone is not written (C87_member_refuted).  asTrapWrite is not modelled."
  },
  {
   "property": "C88",
   "status": "partial",
   "theorems": [
    "C88_snapshot",
    "C88_pieces",
    "C88_reads",
    "C88_succeeds",
    "C88_complete",
    "C88_made",
    "C88_const_refuted"
   ],
   "note": "C88_snapshot, C88_pieces, C88_reads, C88_succeeds, C88_complete; C88_made shows that sound configurations give groups meeting the hypotheses.  Missing, because false: Const fields are absent from a non-atomic GET (C88_const_refuted)."
  },
  {
   "property": "C89",
   "status": "partial",
   "theorems": [
    "C89_first",
    "C89_all",
    "C89_event",
    "C89_first_refuted"
   ],
   "note": "C89_first, C89_all, C89_event for all groups and histories when reads of the database succeed.  Missing, because false: a field no other triggers is absent from the first update (C89_first_refuted)."
  },
  {
   "property": "C90",
   "status": "partial",
   "theorems": [
    "C90_permitted",
    "C90_writes",
    "C90_get",
    "C90_monitor",
    "C90_other_member_refuted",
    "C90_tag_refuted"
   ],
   "note": "C90_permitted, C90_writes, C90_get, C90_monitor.  Missing, because false: a PUT which sends another member writes the default value (C90_other_member_refuted); MONITOR ignores Q:time:tag, GET does not (C90_tag_refuted).  dbProcessNotify() is represented by any operation which makes only the writes it is asked to make."
  },
  {
   "property": "C91",
   "status": "partial",
   "theorems": [
    "C91_field",
    "C91_time",
    "C91_alarm",
    "C91_time_refuted",
    "C91_long_refuted",
    "C91_wrap_refuted",
    "C91_cut_refuted",
    "C91_null_refuted"
   ],
   "note": "C91_field with event_members and shown, C91_time, C91_alarm; for writes the predicate wrote in C87 and C90.  Missing, because false: seconds wrap (C91_time_refuted), a full long string loses its last character (C91_long_refuted), numbers wrap (C91_wrap_refuted), texts are cut (C91_cut_refuted), an array not given is ignored (C91_null_refuted).  String arrays sent as arrays of other types are not covered."
  },
  {
   "property": "C92",
   "status": "partial",
   "theorems": [
    "C92_names",
    "C92_no_pose",
    "C92_host",
    "C92_host_refuted"
   ],
   "note": "C92_names, C92_no_pose, C92_host.  Missing, because false: the host of an IPv6 peer is '[' (C92_host_refuted)."
  },
  {
   "property": "C93",
   "status": "partial",
   "theorems": [
    "C93_frozen",
    "C93_private",
    "C93_typed",
    "C93_freeze",
    "C93_thaw",
    "C93_thaw_refuted",
    "C93_erase",
    "C93_cast",
    "C93_consume_refuted",
    "C93_convert",
    "C93_resize",
    "C93_make_unique",
    "C93_write",
    "C93_copy",
    "C93_slice",
    "C93_move",
    "C93_assign",
    "C93_at",
    "C93_at_refuted",
    "C93_defined",
    "C93_convert_integers",
    "C93_convert_to_text",
    "C93_convert_from_text"
   ],
   "note": "All histories of operations, with use counts, parts of arrays, casts and conversions.  Missing, because false: at(size()) reads beyond the array (C93_at_refuted), thaw() of a shared void array of Value throws (C93_thaw_refuted), castTo<void>() does not leave the array empty as documented (C93_consume_refuted).  Raw pointers, memory of the user's, castToUnsafe() and memory ordering of use counts are not modelled."
  },
  {
   "property": "C94",
   "status": "partial",
   "theorems": [
    "C94_group",
    "C94_single",
    "C94_waiting",
    "C94_off",
    "C94_option",
    "C94_block_refuted"
   ],
   "note": "PUTs which succeed, of groups and of single PVs; the list of calls is given exactly.  Missing, because false: a client which asks to wait (block) and to process (process=true) does not wait (C94_block_refuted).  A PUT which waits: C94_waiting, where dbProcessNotify() is any operation which has the value written once and the record process."
  },
  {
   "property": "C95",
   "status": "partial",
   "theorems": [
    "C95_no_crash",
    "C95_no_crash_refuted"
   ],
   "note": "All histories in which no server gives one number to two channels of a connection.  Otherwise false: such a server ends the client (C95_no_crash_refuted).  Callbacks which call back into the client are not modelled."
  },
  {
   "property": "C96",
   "status": "partial",
   "theorems": [
    "C96_attended",
    "C96_progress",
    "C96_failed_build_refuted",
    "C96_failed_holdoff_refuted",
    "C96_given_server_refuted",
    "C96_name_server_refuted"
   ],
   "note": "All reachable states, for any number of channels, connections and name servers.  Missing, because false: an attempt to connect which fails at once leaves a channel without anything under way (C96_failed_build_refuted, C96_failed_holdoff_refuted); an operation for a given server may go to another (C96_given_server_refuted); a name server which broke the protocol is not connected again (C96_name_server_refuted)."
  },
  {
   "property": "C97",
   "status": "proved",
   "theorems": [
    "C97_order",
    "C97_state",
    "C97_kept",
    "C97_exec",
    "C97_again"
   ],
   "note": "All histories.  Which operations are tried again is a parameter of each event, as it depends on the state of the operation (C64 and others)."
  },
  {
   "property": "C98",
   "status": "proved",
   "theorems": [
    "C98_turns",
    "C98_current",
    "C98_kept",
    "C98_new"
   ],
   "note": "All histories."
  },
  {
   "property": "C99",
   "status": "proved",
   "theorems": [
    "C99_lost",
    "C99_destroyed",
    "C99_disconnect",
    "C99_others"
   ],
   "note": "All reachable states: C99_lost, C99_destroyed and C99_disconnect for the channels concerned, C99_others for all others and all other events."
  },
  {
   "property": "C100",
   "status": "partial",
   "theorems": [
    "C100_shared",
    "C100_apart",
    "C100_dropped",
    "C100_one_connection",
    "C100_one_connection_refuted",
    "C100_second_check_refuted"
   ],
   "note": "Sharing of channels: all histories.  One connection for each server: while none was lost (C100_one_connection).  Not always: C100_one_connection_refuted.  The two checks before an unused channel is closed: C100_second_check_refuted."
  },
  {
   "property": "C101",
   "status": "partial",
   "theorems": [
    "C101_silent",
    "C101_silent_never_lost",
    "C101_told",
    "C101_silent_refuted"
   ],
   "note": "All histories, if every connection is the one which the context has for its server, so if none was lost before.  Not always: a connection which the context has lost sight of stays open (C101_silent_refuted).  UDP searches are not part of this model."
  },
  {
   "property": "C102",
   "status": "partial",
   "theorems": [
    "C102_options",
    "C102_name_only",
    "C102_order_refuted",
    "C102_queue_refuted"
   ],
   "note": "All JSON maps.  Missing, because false: a monorder or Q beyond 32 bits is not kept within its range (C102_order_refuted, C102_queue_refuted)."
  },
  {
   "property": "C103",
   "status": "partial",
   "theorems": [
    "C103_read",
    "C103_not_connected",
    "C103_disconnect_time",
    "C103_path",
    "C103_missing_refuted",
    "C103_stale_time_refuted"
   ],
   "note": "All histories, for a link whose field is a structure, and the conversions of the relation gives; for all histories while not connected.  Missing: a link to a field which is not a structure, for time and alarm; and false: a missing field read as an array (C103_missing_refuted), the time of such a field after a change of type (C103_stale_time_refuted)."
  },
  {
   "property": "C104",
   "status": "proved",
   "theorems": [
    "C104_processing",
    "C104_order",
    "C104_all"
   ],
   "note": "All histories.  The queue of a subscription is taken as unbounded (C64 has it); what records do when processed is outside."
  },
  {
   "property": "C105",
   "status": "partial",
   "theorems": [
    "C105_accept",
    "C105_refuse",
    "C105_waits_partial",
    "C105_send",
    "C105_origin",
    "C105_complete",
    "C105_disconnect_refuted",
    "C105_defer_refuted",
    "C105_early_refuted",
    "C105_stale_refuted",
    "C105_retry_refuted"
   ],
   "note": "All histories.  Missing, because false: a disconnect or the option defer leaves a waiting record active for ever (C105_disconnect_refuted, C105_defer_refuted); a record may be completed before its value is sent (C105_early_refuted); a value of a failed PUT is sent later (C105_stale_refuted); retry does not survive a disconnect (C105_retry_refuted)."
  },
  {
   "property": "C106",
   "status": "partial",
   "theorems": [
    "C106_same_request",
    "C106_shared_partial",
    "C106_subscribed_partial",
    "C106_shared_refuted"
   ],
   "note": "All histories in which an unused subscription is gone before the next link is opened.  Otherwise false: C106_shared_refuted."
  },
  {
   "property": "C107",
   "status": "partial",
   "theorems": [
    "C107_safe_partial",
    "C107_others",
    "C107_name_refuted",
    "C107_real_refuted"
   ],
   "note": "Links with a PV name, and reads of values without floating point numbers or arrays of numbers (or as C103).  Missing, because false: an empty name (C107_name_refuted), a large floating point number (C107_real_refuted)."
  },
  {
   "property": "C108",
   "status": "partial",
   "theorems": [
    "C108_returns_partial",
    "C108_crossed",
    "C108_deadlock_refuted"
   ],
   "note": "All schedules up to the point where the worker of the client and a thread wait for each other.  Missing, because false: a write while the server answers for the previous value may block that thread, all which use the PV and the client for ever (C108_deadlock_refuted, C108_crossed)."
  },
  {
   "property": "C109",
   "status": "partial",
   "theorems": [
    "C109_type",
    "C109_enum",
    "C109_elements",
    "C109_limits",
    "C109_units",
    "C109_precision",
    "C109_alarm_time",
    "C109_not_connected",
    "C109_array_refuted"
   ],
   "note": "All histories.  Missing, because false: the type of an array is always that of a 32 bit integer (C109_array_refuted)."
  },
  {
   "property": "C110",
   "status": "partial",
   "theorems": [
    "C110_resumes",
    "C110_never_stuck",
    "C110_bounded",
    "C110_queue",
    "C110_held_partial",
    "C110_subscription_refuted",
    "C110_sending_refuted"
   ],
   "note": "Catching up, and the bound for replies to requests: all histories.  Missing, because false: a bound for updates of subscriptions (C110_subscription_refuted, C110_sending_refuted)."
  },
  {
   "property": "C111",
   "status": "partial",
   "theorems": [
    "C111_history_partial",
    "C111_get_partial",
    "C111_subscribers_partial",
    "C111_put_get_partial",
    "C111_readonly",
    "C111_readonly_history",
    "C111_odd_time_refuted",
    "C111_throws_refuted"
   ],
   "note": "All histories of PUTs, GETs and posts, for structures without Union.  Missing, because false: a type whose timeStamp is not the standard one, and handlers which throw (C111_odd_time_refuted, C111_throws_refuted: no answer at all)."
  },
  {
   "property": "C112",
   "status": "partial",
   "theorems": [
    "C112_names",
    "C112_disconnects",
    "C112_close",
    "C112_removed_partial",
    "C112_other_names_partial",
    "C112_late_client_refuted",
    "C112_two_names_refuted"
   ],
   "note": "Names, lists, channels and disconnecting: all histories.  Missing, because false: a client which connects while the PV is removed (C112_late_client_refuted), and a PV under two names (C112_two_names_refuted)."
  },
  {
   "property": "C113",
   "status": "partial",
   "theorems": [
    "C113_ends_partial",
    "C113_callback_refuted",
    "C113_leaving_refuted"
   ],
   "note": "All schedules, if callbacks do not add or remove PVs, or close() of the source is not used.  Otherwise false (C113_callback_refuted, C113_leaving_refuted: deadlock)."
  },
  {
   "property": "C114",
   "status": "partial",
   "theorems": [
    "C114_same_timeout",
    "C114_any_client_partial",
    "C114_settings",
    "C114_noticed",
    "C114_goes_on",
    "C114_goes_on_up",
    "C114_short_server_refuted"
   ],
   "note": "All timings, with the same timeout for both, or above 15 s plus the delay for the server.  Otherwise false: a server with a shorter timeout closes every idle connection of a client with the default (C114_short_server_refuted)."
  },
  {
   "property": "C115",
   "status": "proved",
   "theorems": [
    "C115_fifo",
    "C115_ends",
    "C115_all_delivered"
   ],
   "note": "All schedules of any threads: order and limit (C115_fifo), termination without lost wake-ups (C115_ends), and delivery of everything between producers and consumers (C115_all_delivered)."
  },
  {
   "property": "C116",
   "status": "partial",
   "theorems": [
    "C116_states",
    "C116_calls_partial",
    "C116_closed",
    "C116_run_partial",
    "C116_ends",
    "C116_waits",
    "C116_run_again_refuted",
    "C116_stale_refuted",
    "C116_two_runs_refuted",
    "C116_overlap_refuted",
    "C116_interrupt"
   ],
   "note": "All schedules of any threads: what a stopped and a running server do (C116_states), fate of connections (C116_closed), no run() ends before the first interrupt() or signal (C116_run_partial), termination (C116_ends), interrupt() lets a waiting run() go on (C116_interrupt). That start() and stop() leave the server running and stopped is proved for one controlling thread with any others which interrupt (C116_calls_partial, C116_waits), and false otherwise (C116_overlap_refuted: a stop() during start() returns and leaves the server running; C116_two_runs_refuted: a second run() throws). An interrupt() made before run() ends it at once (C116_stale_refuted), and so does one made for an earlier run(), since the destructor of SigInt calls the handler (C116_run_again_refuted)."
  },
  {
   "property": "C117",
   "status": "partial",
   "theorems": [
    "C117_once",
    "C117_called",
    "C117_safe_partial",
    "C117_signal_partial",
    "C117_ends",
    "C117_no_signal_refuted",
    "C117_in_progress_refuted",
    "C117_handled"
   ],
   "note": "All schedules: at most one call, none after the destructor (C117_once), signals are handled exactly while a SigInt exists (C117_handled), a byte sent is a call made (C117_called), nothing waits for ever (C117_ends). A signal leads to a byte, and no closed socket is used, provided no signal handler is in progress at the end of the wait of a destructor (C117_signal_partial, C117_safe_partial). Without that, a closed socket is used and no SigInt can be made any more (C117_in_progress_refuted: the loop of the destructor is left at once while a handler is in progress). The function is called without a signal when a SigInt is destroyed (C117_no_signal_refuted)."
  },
  {
   "property": "C118",
   "status": "partial",
   "theorems": [
    "C118_array",
    "C118_array_printable",
    "C118_delta",
    "C118_tree_partial",
    "C118_tree_8bit_refuted"
   ],
   "note": "Arrays: C118_array, C118_array_printable; delta format of scalars and arrays: C118_delta; tree format of scalars: C118_tree_partial, except for 8 bit integers, which are printed as characters (C118_tree_8bit_refuted). Floating point numbers and compound fields are not modelled."
  },
  {
   "property": "C119",
   "status": "partial",
   "theorems": [
    "C119_known_partial",
    "C119_no_others",
    "C119_primary",
    "C119_unknown_refuted"
   ],
   "note": "Holds for accounts the system knows (C119_known_partial; C119_primary and C119_no_others whatever the C library does). An account it does not know has its own name as a role, also if a group is named so (C119_unknown_refuted). Unix only."
  },
  {
   "property": "C120",
   "status": "partial",
   "theorems": [
    "C120_check_partial",
    "C120_order_partial",
    "C120_unique_partial",
    "C120_large_refuted"
   ],
   "note": "Holds while the first number is below 128 and the others below 256 (C120_check_partial, C120_order_partial, C120_unique_partial); from 256 on they run into each other (C120_large_refuted)."
  }
 ]
}