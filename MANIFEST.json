{
 "claims": [
  {
   "property": "C01",
   "status": "proved",
   "theorems": [
    "C01_varnumber_round_trip"
   ],
   "note": ""
  },
  {
   "property": "C02",
   "status": "proved",
   "theorems": [
    "C02_varnumber_total",
    "C02_type_total",
    "C02_accepts",
    "C02_variants_agree",
    "C02_truncated_rejected"
   ],
   "note": ""
  },
  {
   "property": "C03",
   "status": "proved",
   "theorems": [
    "C03_nni_round_trip",
    "C03_nni_strict",
    "C03_nni_errors"
   ],
   "note": ""
  },
  {
   "property": "C04",
   "status": "proved",
   "theorems": [
    "C04_framing",
    "C04_extent",
    "C04_truncated",
    "C04_unique_split",
    "C04_encoded"
   ],
   "note": ""
  },
  {
   "property": "C05",
   "status": "proved",
   "theorems": [
    "C05_parse_iff",
    "C05_encode_total",
    "C05_encode_tree",
    "C05_parse_tree"
   ],
   "note": "push_back/insert/remove/erase on a block that was never parsed drop its value, as in the code; C05_encode_total covers that behaviour."
  },
  {
   "property": "C06",
   "status": "partial",
   "theorems": [
    "C06_failed_parse_refuted",
    "C06_failed_parse_truncates",
    "C06_failed_parse_partial"
   ],
   "note": "Refuted as stated (C06_failed_parse_refuted): after complete elements followed by an unreadable header the second parse() succeeds with a truncated list. Proved for over-long elements."
  },
  {
   "property": "C07",
   "status": "proved",
   "theorems": [
    "C07_encoder_contents"
   ],
   "note": ""
  },
  {
   "property": "C08",
   "status": "proved",
   "theorems": [
    "C08_estimator_agrees"
   ],
   "note": ""
  },
  {
   "property": "C09",
   "status": "proved",
   "theorems": [
    "C09_wire_round_trip",
    "C09_wire_format",
    "C09_decode_exact",
    "C09_history"
   ],
   "note": ""
  },
  {
   "property": "C10",
   "status": "proved",
   "theorems": [
    "C10_canonical_round_trip",
    "C10_alternate_round_trip",
    "C10_alternate_nonshortest_refuted",
    "C10_parse_total"
   ],
   "note": "the alternate form needs the shortest-integer hypothesis of the property; witness in C10_alternate_nonshortest_refuted"
  },
  {
   "property": "C11",
   "status": "proved",
   "theorems": [
    "C11_percent_lossless",
    "C11_percent_format"
   ],
   "note": ""
  },
  {
   "property": "C12",
   "status": "partial",
   "theorems": [
    "C12_compare_canonical_partial",
    "C12_equals",
    "C12_total_order",
    "C12_compare_slices",
    "C12_nonminimal_refuted"
   ],
   "note": "compare() is the canonical order for names with shortest component headers and sizes below 2^31; refuted for decoded names with non-minimal length fields (C12_nonminimal_refuted)"
  },
  {
   "property": "C13",
   "status": "proved",
   "theorems": [
    "C13_component_successor",
    "C13_name_successor"
   ],
   "note": ""
  },
  {
   "property": "C14",
   "status": "proved",
   "theorems": [
    "C14_numeric_round_trip",
    "C14_kinds_exclusive",
    "C14_is_iff_to"
   ],
   "note": ""
  },
  {
   "property": "C15",
   "status": "partial",
   "theorems": [
    "C15_isPrefixOf",
    "C15_subname_partial",
    "C15_prefix_partial",
    "C15_append",
    "C15_at",
    "C15_subname_refuted",
    "C15_prefix_refuted"
   ],
   "note": "getSubName/getPrefix are the documented slices except for counts where start+count wraps around size_t and for prefix lengths below -size(); witnesses in C15_*_refuted"
  },
  {
   "property": "C16",
   "status": "proved",
   "theorems": [
    "C16_round_trip",
    "C16_encodable",
    "C16_history_partial",
    "C16_history_refuted"
   ],
   "note": "all setter histories, including ones with failed calls; also histories with encoding/decoding where throwing calls leave the object unchanged (C16_history_partial, refuted without that)"
  },
  {
   "property": "C17",
   "status": "proved",
   "theorems": [
    "C17_decode_exact",
    "C17_rejects",
    "C17_ignores"
   ],
   "note": ""
  },
  {
   "property": "C18",
   "status": "partial",
   "theorems": [
    "C18_invariant_partial",
    "C18_decode",
    "C18_refuted"
   ],
   "note": "histories in which throwing calls leave the object unchanged; setSignatureInfo of an un-encodable SignatureInfo breaks the invariant (C18_refuted)"
  },
  {
   "property": "C19",
   "status": "proved",
   "theorems": [
    "C19_matches_data",
    "C19_matches_interest"
   ],
   "note": ""
  },
  {
   "property": "C20",
   "status": "proved",
   "theorems": [
    "C20_data_round_trip",
    "C20_reencode"
   ],
   "note": ""
  },
  {
   "property": "C21",
   "status": "proved",
   "theorems": [
    "C21_decode_exact",
    "C21_rejects",
    "C21_ignores"
   ],
   "note": ""
  },
  {
   "property": "C22",
   "status": "proved",
   "theorems": [
    "C22_signed_octets",
    "C22_range_injective",
    "C22_unsigned_injective",
    "C22_range_decoded"
   ],
   "note": ""
  },
  {
   "property": "C23",
   "status": "partial",
   "theorems": [
    "C23_data_partial",
    "C23_metainfo",
    "C23_signatureinfo_partial",
    "C23_data_refuted",
    "C23_signatureinfo_refuted"
   ],
   "note": "proved for all histories in which a throwing call leaves the Data unchanged, and for SignatureInfo always encoded as one type; C23_*_refuted show that a wireEncode that throws leaves a malformed cached wire, and that a SignatureInfo cached as Data type is returned for an Interest"
  },
  {
   "property": "C24",
   "status": "partial",
   "theorems": [
    "C24_metainfo_round_trip",
    "C24_keylocator_round_trip",
    "C24_signatureinfo_round_trip_partial",
    "C24_signatureinfo_refuted",
    "C24_metainfo_redecode_refuted"
   ],
   "note": "SignatureInfo with an empty nonce or a critical custom element encodes but does not decode (C24_signatureinfo_refuted); decoding a MetaInfo into a used object keeps old AppMetaInfo (C24_metainfo_redecode_refuted)"
  },
  {
   "property": "C25",
   "status": "partial",
   "theorems": [
    "C25_present",
    "C25_ranges",
    "C25_sign_partial",
    "C25_sign_refuted",
    "C25_last_refuted"
   ],
   "note": "what is extracted is characterised for every reachable Interest; that it is what was signed needs no element between SignatureInfo and SignatureValue and well-formed digest components (C25_sign_refuted, C25_last_refuted)"
  },
  {
   "property": "C26",
   "status": "proved",
   "theorems": [
    "C26_order",
    "C26_roundtrip",
    "C26_roundtrip_bare",
    "C26_encodes",
    "C26_roundtrip_refuted"
   ],
   "note": "Fragment-only packets that do not hold one Interest or Data are excluded; C26_roundtrip_refuted shows what happens to them, including undefined behaviour for an empty fragment."
  },
  {
   "property": "C27",
   "status": "proved",
   "theorems": [
    "C27_set",
    "C27_add",
    "C27_add_throws",
    "C27_add_ok",
    "C27_remove",
    "C27_clear",
    "C27_get_range",
    "C27_read",
    "C27_set_refuted"
   ],
   "note": "Malformed values are excluded; C27_set_refuted shows that they can be set but not read back."
  },
  {
   "property": "C28",
   "status": "proved",
   "theorems": [
    "C28_accepts",
    "C28_ignores",
    "C28_bare",
    "C28_other"
   ],
   "note": ""
  },
  {
   "property": "C29",
   "status": "partial",
   "theorems": [
    "C29_nack_partial",
    "C29_nack_unknown_partial",
    "C29_nack_unknown_refuted",
    "C29_nack_empty",
    "C29_cache_policy",
    "C29_pit_token",
    "C29_severity"
   ],
   "note": "Unknown Nack reasons of 2^31 and more make decoding throw instead of reading as None (C29_nack_unknown_refuted); proved for all smaller codes."
  },
  {
   "property": "C30",
   "status": "partial",
   "theorems": [
    "C30_capacity_partial",
    "C30_insert_partial",
    "C30_limit_refuted",
    "C30_fail_refuted"
   ],
   "note": "proved for limits of at least 16; C30_limit_refuted and C30_fail_refuted: with a smaller limit an erase raises the capacity above the limit"
  },
  {
   "property": "C31",
   "status": "partial",
   "theorems": [
    "C31_find_partial",
    "C31_exact",
    "C31_fresh_refuted"
   ],
   "note": "C31_fresh_refuted: an Interest with MustBeFresh and the full name of a stale packet is answered with it"
  },
  {
   "property": "C32",
   "status": "proved",
   "theorems": [
    "C32_find_name",
    "C32_find_pure"
   ],
   "note": ""
  },
  {
   "property": "C33",
   "status": "partial",
   "theorems": [
    "C33_erase_prefix_partial",
    "C33_erase_exact",
    "C33_prefix_refuted"
   ],
   "note": "C33_prefix_refuted: erase by a prefix that is itself the full name of a stored packet stops there"
  },
  {
   "property": "C34",
   "status": "partial",
   "theorems": [
    "C34_victim_partial",
    "C34_log_present",
    "C34_log_access_partial",
    "C34_log_insert",
    "C34_access_refuted"
   ],
   "note": "C34_access_refuted: a packet returned for an Interest with its full name is not counted as accessed"
  },
  {
   "property": "C35",
   "status": "proved",
   "theorems": [
    "C35_at_most_once",
    "C35_not_early_in_order",
    "C35_identifiers",
    "C35_expiry"
   ],
   "note": ""
  },
  {
   "property": "C36",
   "status": "proved",
   "theorems": [
    "C36_cancelled",
    "C36_cancelled_all",
    "C36_scoped",
    "C36_scoped_moved",
    "C36_released",
    "C36_no_effect",
    "C36_valid"
   ],
   "note": ""
  },
  {
   "property": "C37",
   "status": "proved",
   "theorems": [
    "C37_armed",
    "C37_runs",
    "C37_loop"
   ],
   "note": ""
  },
  {
   "property": "C38",
   "status": "proved",
   "theorems": [
    "C38_at_most_one_answer",
    "C38_answers_expressed",
    "C38_started_once",
    "C38_no_answer_after_removal",
    "C38_no_answer_after_removeAll",
    "C38_refuted_throwing_callback",
    "C38_cancel_is_deferred"
   ],
   "note": "Histories run by processEvents (exceptions shut the face down). C38_refuted_throwing_callback: when the application runs the io_context itself, a data callback that throws leaves the Interest pending and it is answered again. C38_cancel_is_deferred shows that cancel() only takes effect when the io_context runs."
  },
  {
   "property": "C39",
   "status": "proved",
   "theorems": [
    "C39_data_reaches_matching",
    "C39_refuted_throwing_callback"
   ],
   "note": "No callback throws, packet not oversized; C39_refuted_throwing_callback shows the first condition is needed."
  },
  {
   "property": "C40",
   "status": "partial",
   "theorems": [
    "C40_nack_sound_partial",
    "C40_nack_complete_partial",
    "C40_refuted_same_destination",
    "C40_refuted_assertion"
   ],
   "note": "Nacks are counted, not attributed to destinations: C40_refuted_same_destination (two Nacks from the forwarder) and C40_refuted_assertion (Nack for an incoming Interest nobody took) are witnesses that the full statement is false of the code."
  },
  {
   "property": "C41",
   "status": "proved",
   "theorems": [
    "C41_incoming",
    "C41_own_interest",
    "C41_filter_table"
   ],
   "note": "Regular expressions are arbitrary predicates on the components after the prefix (see C58 for the matcher itself)."
  },
  {
   "property": "C42",
   "status": "proved",
   "theorems": [
    "C42_chunking",
    "C42_all_delivered",
    "C42_any_stream"
   ],
   "note": "For all packet sequences, cuts and interleavings; C42_any_stream covers arbitrary octets, including elements that never fit the buffer. Pausing in between can lose a packet (C64_refuted_lossless)."
  },
  {
   "property": "C43",
   "status": "partial",
   "theorems": [
    "C43_prefix",
    "C43_no_stall_partial",
    "C43_refuted_pause"
   ],
   "note": "Prefix and single outstanding write for all histories including pause, close, errors. Liveness proved without pause, close, exceptions and errors. False in general: pause() aborts the write in progress and nothing is ever written again (C43_refuted_pause)."
  },
  {
   "property": "C44",
   "status": "partial",
   "theorems": [
    "C44_segment_buffer",
    "C44_segment_stream",
    "C44_overloads_agree_partial",
    "C44_overloads_differ_refuted"
   ],
   "note": "Segmenter::segment from a buffer and from a stream: proved for all objects below 2^64 octets, signers and conventions (the error outcome is a packet of more than 2^63-1 octets). That both overloads agree is proved for non-empty objects; for an empty object it is false: the buffer overload makes a packet with empty Content, the stream overload one with no Content (C44_overloads_differ_refuted)."
  },
  {
   "property": "C45",
   "status": "proved",
   "theorems": [
    "C45_delivered",
    "C45_published"
   ],
   "note": "Assumes that validated Data with the same segment number have the same size (one version of the object) and FinalBlockIds below 2^63-1; C45_published discharges both for the output of Segmenter."
  },
  {
   "property": "C46",
   "status": "partial",
   "theorems": [
    "C46_once",
    "C46_stop",
    "C46_stop_in_handler_partial",
    "C46_stop_in_handler_refuted"
   ],
   "note": "C46_once and C46_stop hold for all histories. stop() called inside handlers: proved for afterSegmentReceived, onComplete, onInOrderComplete and onError (C46_stop_in_handler_partial); refuted for afterSegmentValidated, afterSegmentNacked, afterSegmentTimedOut."
  },
  {
   "property": "C47",
   "status": "partial",
   "theorems": [
    "C47_refuted",
    "C47_bookkeeping_partial"
   ],
   "note": "C47_refuted gives five histories in which an assertion fails (late Data after a timeout, FinalBlockIds that come late or change, a base name ending with a segment number, in-order fetch not starting at 0). C47_bookkeeping_partial proves, for every network that answers each Interest at most once with the segments of one object, that no assertion fails, that the in-flight count is exactly the number of unanswered requests, that the fetch ends once everything is validated and that it never gets stuck."
  },
  {
   "property": "C48",
   "status": "proved",
   "theorems": [
    "C48_rto_in_bounds",
    "C48_statistics",
    "C48_defined",
    "C48_follows",
    "C48_defined_refuted"
   ],
   "note": "RTO within bounds for every history, statistics exact up to integer division; C48_follows gives the value after each call (smoothed RTT and variation up to rounding of doubles, RTO = SRTT + k RTTVAR limited to the range, back-off). No undefined behaviour for samples up to 2^50 ns; a first sample of 2^62 ns overflows (C48_defined_refuted)."
  },
  {
   "property": "C49",
   "status": "proved",
   "theorems": [
    "C49_once",
    "C49_bound",
    "C49_answered",
    "C49_can_go_on",
    "C49_dropped",
    "C49_defined",
    "C49_throw_refuted"
   ],
   "note": "Policies answer once, synchronously, and callbacks do not re-enter the validator (the library's policies do not). Refuted part: an exception may escape the event loop for a fetched certificate without ValidityPeriod (C49_throw_refuted), with the verdict still given."
  },
  {
   "property": "C50",
   "status": "proved",
   "theorems": [
    "C50_chain",
    "C50_anchor",
    "C50_expired_refuted",
    "C50_anchor_expired_refuted"
   ],
   "note": "For every policy and verification function. Refuted stronger reading: certificates of the chain need not be valid when the verdict is given, only when each was examined; anchors' validity is never checked (C50_expired_refuted, C50_anchor_expired_refuted)."
  },
  {
   "property": "C51",
   "status": "proved",
   "theorems": [
    "C51_checked",
    "C51_ts_increasing",
    "C51_seq_increasing",
    "C51_nonce",
    "C51_accept",
    "C51_bound",
    "C51_defined",
    "C51_overlap_refuted",
    "C51_old_format_refuted",
    "C51_tie_refuted",
    "C51_malformed_refuted",
    "C51_overflow_refuted"
   ],
   "note": "Grace/presence, increasing timestamps and sequence numbers, nonce window, acceptance of fresh Interests, table bounds and absence of undefined behaviour are proved for every history; the hypotheses under which increase holds (one-by-one validation of the key, few other keys, clock advanced) are shown necessary by the refuted theorems."
  },
  {
   "property": "C52",
   "status": "proved",
   "theorems": [
    "C52_grace",
    "C52_increasing",
    "C52_no_replay",
    "C52_accept",
    "C52_bound",
    "C52_defined",
    "C52_overlap_refuted",
    "C52_regress_refuted",
    "C52_not_only_first_refuted",
    "C52_malformed_refuted",
    "C52_overflow_refuted"
   ],
   "note": "Histories of overlapping validations, any clock readings. Refuted: replay by overlapping validations, record moving back, grace period only for first contact, exception on malformed SignatureTime, overflow of far timestamps."
  },
  {
   "property": "C53",
   "status": "proved",
   "theorems": [
    "C53_increasing",
    "C53_not_behind",
    "C53_exact",
    "C53_every_request"
   ],
   "note": "Determined outcome (C53_exact) assumes clock readings within 1896..2116 and fewer than 2^41 requests, so that no 64-bit addition overflows; monotonicity needs no such bound. The KeyChain::sign call that follows is not part of this claim."
  },
  {
   "property": "C54",
   "status": "proved",
   "theorems": [
    "C54_calendar",
    "C54_iso",
    "C54_iso_order",
    "C54_covers",
    "C54_covers_refuted",
    "C54_period",
    "C54_default",
    "C54_relative",
    "C54_wire",
    "C54_decode",
    "C54_decode_iso",
    "C54_history",
    "C54_failed_decode_refuted"
   ],
   "note": "Outcome of the Boost parser on texts that are not YYYYMMDDTHHMMSS is a parameter. C54_covers_refuted: NotBefore in the last second of the clock range overflows. C54_failed_decode_refuted: after a decoding that throws, the object encodes as the rejected octets."
  },
  {
   "property": "C55",
   "status": "proved",
   "theorems": [
    "C55_find",
    "C55_find_interest",
    "C55_expiry",
    "C55_found",
    "C55_reinsert_refuted",
    "C55_expired_blocks_refuted",
    "C55_digest_refuted"
   ],
   "note": "Times in 64-bit nanoseconds without overflow (sane). Exceptions named in the statement are the three _refuted witnesses."
  },
  {
   "property": "C56",
   "status": "proved",
   "theorems": [
    "C56_pump",
    "C56_functional",
    "C56_round_trip",
    "C56_step",
    "C56_after_end",
    "C56_partial_sinks",
    "C56_partial_sinks_refuted"
   ],
   "note": "For every chain of hexEncode, hexDecode and stripSpace with bufferSource or stepSource and a sink that takes everything, as the library's sinks do.  With sinks that take only part of what they are offered hexDecode loses output at the end (C56_partial_sinks_refuted); other chains do not (C56_partial_sinks)."
  },
  {
   "property": "C57",
   "status": "proved",
   "theorems": [
    "C57_history",
    "C57_history_more",
    "C57_defined",
    "C57_gone",
    "C57_single",
    "C57_throw",
    "C57_throw_refuted",
    "C57_single_throw_refuted",
    "C57_scoped",
    "C57_scoped_move_refuted"
   ],
   "note": "Histories without exceptions refine a list specification; exceptions handled by C57_throw; three _refuted witnesses for the exceptions named in the statement."
  },
  {
   "property": "C58",
   "status": "proved",
   "theorems": [
    "C58_syntax",
    "C58_accepted",
    "C58_error",
    "C58_unambiguous",
    "C58_sound",
    "C58_exact",
    "C58_repeat_refuted",
    "C58_empty_refuted",
    "C58_blank_refuted"
   ],
   "note": "For every behaviour of std::regex (a parameter). Completeness and termination (C58_exact) hold if no repeated sub-pattern denotes the empty name; C58_repeat_refuted and C58_empty_refuted show that the restriction is needed, C58_blank_refuted that an empty expression is undefined behaviour."
  },
  {
   "property": "C59",
   "status": "partial",
   "theorems": [
    "C59_round_trip",
    "C59_wire",
    "C59_decode",
    "C59_fields",
    "C59_flag_bits_partial",
    "C59_out_of_range",
    "C59_flag_bits_refuted"
   ],
   "note": "Round trip, wire format, decoding and setters are proved for every history.  Flag bits are proved for bits 0..30; for bits 31..63 the property is false of the code (1 << bit is computed on int), see C59_flag_bits_refuted."
  },
  {
   "property": "C60",
   "status": "proved",
   "theorems": [
    "C60_format",
    "C60_request",
    "C60_response",
    "C60_defaults",
    "C60_request_round_trip"
   ],
   "note": "Every format, and the requests and responses of all commands with ControlParameters (rib/announce, whose parameters are a Data, is not modelled)."
  },
  {
   "property": "C61",
   "status": "proved",
   "theorems": [
    "C61_segments",
    "C61_answers",
    "C61_nothing_after",
    "C61_packet",
    "C61_sending_fails_refuted"
   ],
   "note": "for senders that do not throw; with a sender that throws the numbering claim is refuted (C61_sending_fails_refuted). Also the Data packets the dispatcher makes of the segments (C61_packet)."
  },
  {
   "property": "C62",
   "status": "partial",
   "theorems": [
    "C62_injective_partial",
    "C62_refuted"
   ],
   "note": "needs: no name component of type 36 (C62_refuted)"
  },
  {
   "property": "C63",
   "status": "partial",
   "theorems": [
    "C63_iterate_partial",
    "C63_empty_refuted"
   ],
   "note": "C63_empty_refuted: begin() of an empty storage is undefined"
  },
  {
   "property": "C64",
   "status": "partial",
   "theorems": [
    "C64_paused_partial",
    "C64_one_receive_partial",
    "C64_refuted_paused",
    "C64_refuted_lossless"
   ],
   "note": "No callback while paused, and one receive operation, proved when no completed receive operation waits for its handler at the time of pause(). False otherwise (C64_refuted_paused), and resuming in the middle of a packet drops what was read (C64_refuted_lossless)."
  },
  {
   "property": "C65",
   "status": "partial",
   "theorems": [
    "C65_close_partial",
    "C65_refuted_read",
    "C65_refuted_connect"
   ],
   "note": "Proved when no completion handler is queued at the time of close(). False otherwise: callback after close() and failed assertion (C65_refuted_read), state leaves CLOSED (C65_refuted_connect)."
  },
  {
   "property": "C66",
   "status": "partial",
   "theorems": [
    "C66_equality_partial",
    "C66_refuted_unencoded"
   ],
   "note": "Proved for Blocks that have a value or no elements. False for Blocks built with push_back and not yet encoded (C66_refuted_unencoded)."
  },
  {
   "property": "C67",
   "status": "proved",
   "theorems": [
    "C67_sound",
    "C67_sound_interest",
    "C67_static",
    "C67_reload",
    "C67_defined",
    "C67_shared_refuted",
    "C67_reinsert_refuted",
    "C67_reload_drops_static_refuted",
    "C67_replaced_refuted"
   ],
   "note": "Proved for all histories, file contents and iteration orders (steady clock not before its epoch). Refuted beside it: an anchor in two groups is lost for both when one gives it up (also when a file disappears from a dynamic group), cannot be inserted again in the group that still lists it, and a file replaced by a certificate of the same name is not picked up."
  },
  {
   "property": "C68",
   "status": "proved",
   "theorems": [
    "C68_captures",
    "C68_default",
    "C68_literal_refuted",
    "C68_stale_refuted"
   ],
   "note": "C68_stale_refuted: a group that took no part may hold an old capture. C68_literal_refuted: a template cannot end in a literal."
  },
  {
   "property": "C69",
   "status": "proved",
   "theorems": [
    "C69_fromName",
    "C69_numeric_refuted"
   ],
   "note": "Under explicit hypotheses about std::regex: .* matches everything, an escaped literal matches itself only (literals, dot_star)."
  },
  {
   "property": "C70",
   "status": "partial",
   "theorems": [
    "C70_documented_partial",
    "C70_removeKey_refuted",
    "C70_removeKey_asserts_refuted",
    "C70_setDefaultCertificate_refuted",
    "C70_addCertificate_refuted",
    "C70_refuted"
   ],
   "note": "Proved (C70_documented_partial) of every history over the in-memory back end that avoids three kinds of calls, by a simulation of the documented tree; refuted for those three: removing a key that is not the default one (the default key is lost, and a later call may fail an assertion), making a default of a certificate of another public key (the stored public key is replaced), replacing the default certificate by another of the same name (the old one is answered). PibSqlite3 is not modelled."
  },
  {
   "property": "C71",
   "status": "partial",
   "theorems": [
    "C71_consistent_partial",
    "C71_handles_partial",
    "C71_certificates_partial",
    "C71_defined_partial",
    "C71_deleteKey_partial",
    "C71_deleteIdentity_partial",
    "C71_createIdentity_partial",
    "C71_createKey_partial",
    "C71_export_import_partial",
    "C71_refuted",
    "C71_deleteKey_refuted"
   ],
   "note": "Proved (suffix _partial) of every history without three calls: deleting a key while another key is the identity's default, replacing the default certificate by a different one of the same name, and setDefaultCertificate with a certificate of another public key. The unrestricted claim is false: C71_refuted (setDefaultCertificate breaks the link between the stored public key and the private key), C71_deleteKey_refuted. Signature scheme abstract (crypto_ok); in-memory TPM; digests used as key ids must not collide with names in use."
  },
  {
   "property": "C72",
   "status": "partial",
   "theorems": [
    "C72_sign_partial",
    "C72_certificate_partial",
    "C72_unchanged_partial",
    "C72_certificate_refuted",
    "C72_missing_refuted"
   ],
   "note": "Proved of the histories described under C71. False without them (C72_certificate_refuted) and for a certificate that does not exist but whose key does (C72_missing_refuted: signing succeeds, the documentation promises InvalidSigningInfoError)."
  },
  {
   "property": "C73",
   "status": "partial",
   "theorems": [
    "C73_load",
    "C73_accepted",
    "C73_bypass",
    "C73_request",
    "C73_exact",
    "C73_throw_refuted",
    "C73_history_refuted",
    "C73_failed_load_refuted",
    "C73_refresh_refuted"
   ],
   "note": "Load: sound and complete. Decision: sound for all configurations, exact for decided rules (C73_exact); unrestricted exactness is false: an exception for a name checker and a KeyLocator without identity, dependence on earlier packets through stale captures, a failed load stays partly in force, an empty refresh period is undefined (the _refuted theorems). Parsing of the INFO text into a property tree is not modelled."
  },
  {
   "property": "C74",
   "status": "proved",
   "theorems": [
    "C74_namespace",
    "C74_identity_refuted"
   ],
   "note": "Namespace = name before the first KEY; with the identity before the last KEY instead it is false (C74_identity_refuted)."
  },
  {
   "property": "C75",
   "status": "proved",
   "theorems": [
    "C75_exact",
    "C75_request",
    "C75_namespace",
    "C75_digest_refuted"
   ],
   "note": "The reserved names are a real exception: C75_digest_refuted."
  },
  {
   "property": "C76",
   "status": "partial",
   "theorems": [
    "C76_top",
    "C76_handler",
    "C76_route",
    "C76_one",
    "C76_settles",
    "C76_justified",
    "C76_numbers",
    "C76_answers",
    "C76_exact_name_refuted",
    "C76_cached_refuted"
   ],
   "note": "Registration, routing, justification of every output, and effect of every decision are proved for all histories. Refuted: Interest with exactly the name of a command added with the older addControlCommand (undefined behaviour); authorization of each requester of a dataset (stored segments are sent without asking)."
  },
  {
   "property": "C77",
   "status": "partial",
   "theorems": [
    "C77_number_partial",
    "C77_silent",
    "C77_unique_partial",
    "C77_reuse_refuted"
   ],
   "note": "Numbering and uniqueness proved for histories in which no stream is added whose relative prefix is the full name of a stream posted to before; refuted without this."
  },
  {
   "property": "C78",
   "status": "partial",
   "theorems": [
    "C78_retained",
    "C78_kept",
    "C78_fetch_partial",
    "C78_large_refuted"
   ],
   "note": "Retention proved for all histories; fetch proved for Interests without MustBeFresh. Refuted for datasets with more segments than the storage holds."
  },
  {
   "property": "C79",
   "status": "partial",
   "theorems": [
    "C79_round_trip",
    "C79_wire",
    "C79_decode",
    "C79_decode_complete",
    "C79_errors_partial",
    "C79_equality",
    "C79_fields",
    "C79_flag_bits_partial",
    "C79_out_of_range",
    "C79_flag_bits_refuted",
    "C79_timestamp_refuted"
   ],
   "note": "Round trip, wire format, both directions of decoding, equality and getters proved for all eleven classes. Refuted: flag bits 31 to 63; decoding of huge timestamps (undefined behaviour), hence C79_errors_partial."
  },
  {
   "property": "C80",
   "status": "proved",
   "theorems": [
    "C80_parse",
    "C80_parse_complete",
    "C80_errors",
    "C80_round_trip",
    "C80_end_to_end",
    "C80_forwarder_status",
    "C80_cs_info"
   ],
   "note": "Errors are proved for the classes that datasets list (ForwarderStatus is not among them)."
  },
  {
   "property": "C81",
   "status": "proved",
   "theorems": [
    "C81_round_trip",
    "C81_wire",
    "C81_decode",
    "C81_decode_complete",
    "C81_errors",
    "C81_fields"
   ],
   "note": "Round trip, wire format, both directions of decoding, errors and getters."
  },
  {
   "property": "C82",
   "status": "partial",
   "theorems": [
    "C82_one_pending",
    "C82_keeps_asking_partial",
    "C82_throwing_refuted",
    "C82_silent",
    "C82_destroy_refuted"
   ],
   "note": "At most one pending Interest, none when stopped or destroyed, silence while stopped: proved for all histories. Liveness excludes handlers of onTimeout that throw (refuted). Destruction with a pending Interest is refuted."
  },
  {
   "property": "C83",
   "status": "partial",
   "theorems": [
    "C83_in_sequence",
    "C83_next",
    "C83_once_partial",
    "C83_throwing_refuted",
    "C83_twice_refuted"
   ],
   "note": "Order and next number: proved for all histories. At most one notification per Interest needs handlers that do not throw (refuted otherwise); duplicates through two Interests are exhibited."
  },
  {
   "property": "C84",
   "status": "partial",
   "theorems": [
    "C84_delay",
    "C84_defined_partial",
    "C84_overflow_refuted"
   ],
   "note": "Delay proved for every number except 2^64-1, the initial value of the variable. Definedness proved up to 55 Nacks; overflow at 57 exhibited."
  },
  {
   "property": "C85",
   "status": "partial",
   "theorems": [
    "C85_in_step",
    "C85_unambiguous",
    "C85_list",
    "C85_decode",
    "C85_travels",
    "C85_alias_partial",
    "C85_alias_refuted",
    "C85_failed_decode_refuted",
    "C85_default_refuted"
   ],
   "note": "Agreement, effects, decoding and round trip proved for all histories in which a call that threw changed nothing. Removal through a reference into the list is proved without duplicates and refuted with them; failed decoding and the default constructor are refuted."
  },
  {
   "property": "C86",
   "status": "proved",
   "theorems": [
    "C86_accepts",
    "C86_round_trip",
    "C86_discovery",
    "C86_interest"
   ],
   "note": "Signing is given as a SignatureInfo and an operation."
  },
  {
   "property": "C87",
   "status": "partial",
   "theorems": [
    "C87_accepts",
    "C87_keeps_packet",
    "C87_round_trip",
    "C87_kept",
    "C87_dropped",
    "C87_setters",
    "C87_equal",
    "C87_unsigned_refuted",
    "C87_negative_refuted"
   ],
   "note": "Acceptance, round trip and setters proved. Histories exclude failed signing (refuted: the unsigned packet is returned) and start with an expiration that is not negative (refuted for received packets)."
  },
  {
   "property": "C88",
   "status": "proved",
   "theorems": [
    "C88_response",
    "C88_end_to_end"
   ],
   "note": "For all commands and all Contents; texts of the responses the Controller makes itself are not modelled."
  },
  {
   "property": "C89",
   "status": "partial",
   "theorems": [
    "C89_once",
    "C89_justified",
    "C89_distinct",
    "C89_not_lost",
    "C89_destroy_refuted"
   ],
   "note": "Once, justified, distinct and not lost hold of all histories in which no undefined behaviour happened; C89_destroy_refuted: destroying the Controller does not cancel its commands, and Data arriving later is given to a validator reached through the destroyed Controller."
  },
  {
   "property": "C90",
   "status": "partial",
   "theorems": [
    "C90_once",
    "C90_justified",
    "C90_not_lost",
    "C90_released",
    "C90_destroyed",
    "C90_defined_partial",
    "C90_destroy_refuted",
    "C90_throw_refuted"
   ],
   "note": "Once: if no callback for a dataset throws (C90_throw_refuted: one that throws leaves the fetcher running, and the dataset can be reported again). Safe destruction: outside callbacks for datasets (C90_destroy_refuted)."
  },
  {
   "property": "C91",
   "status": "partial",
   "theorems": [
    "C91_round_trip",
    "C91_encode_total",
    "C91_decode",
    "C91_certificate_partial",
    "C91_certificate_refuted"
   ],
   "note": "Proved: encoding and decoding carry the fields and the key (C91_round_trip, C91_encode_total, C91_decode), and a certificate signed with the library comes out as the same object (C91_certificate_partial). Missing: a certificate with ignored non-critical elements loses them, so its signature no longer covers what is in the packet (C91_certificate_refuted)."
  },
  {
   "property": "C92",
   "status": "partial",
   "theorems": [
    "C92_fields",
    "C92_decode",
    "C92_equal",
    "C92_round_trip_partial",
    "C92_wire",
    "C92_stale_refuted"
   ],
   "note": "Proved: C92_fields, C92_decode, C92_equal, C92_wire for all histories; C92_round_trip_partial for histories in which set is not used after wireEncode or wireDecode. Missing: set does not reset the cached encoding, so the round trip is false otherwise (C92_stale_refuted). Changing values through the non-const iterators has the same effect and is not modelled."
  },
  {
   "property": "C93",
   "status": "partial",
   "theorems": [
    "C93_parse",
    "C93_error",
    "C93_round_trip_partial",
    "C93_hmac_refuted",
    "C93_digest_refuted"
   ],
   "note": "Proved: C93_parse, C93_error for all strings; C93_round_trip_partial for all signers but HMAC and the identity named like the digest signer. Missing: those two do not round-trip (C93_hmac_refuted, C93_digest_refuted)."
  },
  {
   "property": "C94",
   "status": "partial",
   "theorems": [
    "C94_stream_partial",
    "C94_bundle_unique",
    "C94_split",
    "C94_failed",
    "C94_complete",
    "C94_malformed_refuted"
   ],
   "note": "Proved: the certificates given, the waiting octets and the error state are those of the concatenated octets for every segmentation (C94_stream_partial, C94_bundle_unique, C94_split, C94_complete, C94_failed). Refuted: malformed octets are always reported (C94_malformed_refuted: an element of type 0 keeps the decoder waiting for ever). Handlers of onCertDecoded return and do not call append."
  },
  {
   "property": "C95",
   "status": "partial",
   "theorems": [
    "C95_first",
    "C95_base_unique",
    "C95_inner",
    "C95_next_partial",
    "C95_continue_partial",
    "C95_accept",
    "C95_redirect",
    "C95_successor_refuted",
    "C95_missing_refuted",
    "C95_nocert_refuted"
   ],
   "note": "Proved: the first request's name, next segments where s+1 has as many octets as s and the comparison with FinalBlockId, redirection to segment zero and to the inner fetcher, what a continuing answer implies for the certificate handed on. Refuted: next segment after 255 (C95_successor_refuted), every answer concludes (C95_missing_refuted: null pointer dereferenced; C95_nocert_refuted: exception leaves the callback). Lookup in the unverified cache is an argument."
  },
  {
   "property": "C96",
   "status": "partial",
   "theorems": [
    "C96_level_partial",
    "C96_unique",
    "C96_when_partial",
    "C96_set",
    "C96_names",
    "C96_texts",
    "C96_pattern_refuted"
   ],
   "note": "Proved for documented patterns (all, a.b.*, a name): C96_level_partial, C96_when_partial; for all patterns: effect on existing loggers (C96_set), config strings and exceptions (said, C96_unique), names (C96_names), texts (C96_texts). Refuted for patterns that do not end at a dot, such as ndn.Fa* (C96_pattern_refuted). Loggers are never destroyed; operations hold a mutex and are sequential."
  },
  {
   "property": "C97",
   "status": "proved",
   "theorems": [
    "C97_grammar",
    "C97_round_trip",
    "C97_text",
    "C97_equal",
    "C97_parts",
    "C97_ether",
    "C97_ether_text",
    "C97_endpoint",
    "C97_unix",
    "C97_fd",
    "C97_dev",
    "C97_dev_refuted",
    "C97_unix_refuted",
    "C97_mapped_endpoint_refuted"
   ],
   "note": "Grammar as an inductive relation (S_FaceUri), equivalent to the parser. The texts that boost::asio prints for addresses and std::to_string for numbers are arguments of the stated form. The limits of the last sentence are needed: C97_dev_refuted (interface name with a colon), C97_unix_refuted (path with ?), C97_mapped_endpoint_refuted (IPv6 endpoint with an IPv4-mapped address prints dots and reads back as IPv4)."
  },
  {
   "property": "C98",
   "status": "partial",
   "theorems": [
    "C98_schemes",
    "C98_unsupported",
    "C98_canonical_partial",
    "C98_identity_partial",
    "C98_address",
    "C98_scheme_kept",
    "C98_succeeds",
    "C98_readable_partial",
    "C98_zone",
    "C98_dev",
    "C98_udpdev",
    "C98_ether",
    "C98_null_refuted",
    "C98_brackets_refuted",
    "C98_link_local_refuted",
    "C98_port_refuted"
   ],
   "note": "Address parsing and printing, sscanf and the resolver are parameters. Proved for regular addresses (an address is what its text reads as; link-local ones have a zone not starting with 25): C98_canonical_partial; for everything but the null Ethernet address and bracketed interfaces: C98_identity_partial; the rest in full. As stated it is false of the code: C98_link_local_refuted (udp6://[fe80::1]:6363 gives a result that is not canonical, where the code asserts it is), C98_null_refuted (ether://[00:00:00:00:00:00] is canonical but canonize fails), C98_brackets_refuted (dev://[::1] is canonical but becomes another URI), C98_port_refuted (port 99999 is accepted as canonical)."
  },
  {
   "property": "C99",
   "status": "partial",
   "theorems": [
    "C99_calls",
    "C99_once_partial",
    "C99_answer",
    "C99_timeout",
    "C99_empty",
    "C99_twice_refuted"
   ],
   "note": "Exactly one call is proved for all schedules except those where the timer runs while an answer is already waiting for the event loop (C99_once_partial, C99_answer, C99_timeout); C99_calls lists all outcomes. For the excepted schedules the claim is false: onError (timeout) and then onSuccess are called (C99_twice_refuted), because cancel() of the resolver does not affect a completed operation."
  },
  {
   "property": "C100",
   "status": "proved",
   "theorems": [
    "C100_addresses",
    "C100_one_each",
    "C100_signals",
    "C100_add",
    "C100_remove",
    "C100_state",
    "C100_mtu",
    "C100_records_refuted"
   ],
   "note": "Signals are recorded in the order they are emitted; handlers that call back into the interface are not modelled. C100_records_refuted shows that changed flags of a listed address are not signalled."
  },
  {
   "property": "C101",
   "status": "proved",
   "theorems": [
    "C101_flushes",
    "C101_lines",
    "C101_writes",
    "C101_read_back",
    "C101_nested",
    "C101_midline_refuted"
   ],
   "note": "Error states of the streams are not modelled. C101_midline_refuted shows that a flush within a line ends the line."
  },
  {
   "property": "C102",
   "status": "proved",
   "theorems": [
    "C102_interest",
    "C102_data",
    "C102_nack",
    "C102_throws",
    "C102_bare",
    "C102_receive",
    "C102_end_to_end",
    "C102_policy_refuted"
   ],
   "note": "Tags whose value the field cannot hold are excluded (tag_ok); C102_policy_refuted shows such a case. The Interest or Data inside is taken as an element; its decoding is the subject of other claims."
  },
  {
   "property": "C103",
   "status": "proved",
   "theorems": [
    "C103_exactly",
    "C103_once",
    "C103_end",
    "C103_when",
    "C103_released",
    "C103_self_move_refuted"
   ],
   "note": "No copy of a plain handle is kept beside the scoped one, and cancel functions do not use the handles. C103_self_move_refuted shows that moving an object onto itself cancels its operation. Not yet tested with seeded bugs."
  }
 ]
}