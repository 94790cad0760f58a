{
 "claims": [
  {
   "property": "C01",
   "status": "partial",
   "theorems": [
    "c01_strict_and_equality",
    "c01_le_refuted",
    "c01_le_ge_partial"
   ],
   "note": "The statement is false of the code: <= and >= compare whole seconds only. <, >, == and != are exact; <= and >= are characterised exactly as comparisons of the second count."
  },
  {
   "property": "C02",
   "status": "proved",
   "theorems": [
    "c02_add_exact",
    "c02_sub_exact",
    "c02_sub_then_add",
    "c02_add_sub_int_exact",
    "c02_constructor_normalises"
   ],
   "note": "int64 overflow of the second count is an explicit undefined outcome; the hypotheses exclude it."
  },
  {
   "property": "C03",
   "status": "partial",
   "theorems": [
    "c03_fromGPS_refuted",
    "c03_fromGPS_error",
    "c03_fromGPS_whole_seconds_partial",
    "c03_fromGPS_overflows"
   ],
   "note": "The statement is false of the code: leftover milliseconds are scaled by 1e9 instead of 1e6 and 32-bit overflow occurs from week 3551. The exact error is stated; whole seconds are proved exact."
  },
  {
   "property": "C04",
   "status": "partial",
   "theorems": [
    "c04_glonass_refuted",
    "c04_glonass_whole_seconds_partial"
   ],
   "note": "Same millisecond fault as C03; proved for whole seconds."
  },
  {
   "property": "C05",
   "status": "proved",
   "theorems": [
    "c05_quantized_comparisons_exact",
    "c05_quantized_mirror",
    "c05_quantized_trichotomy",
    "c05_quantized_eq_not_transitive"
   ],
   "note": "IEEE double arithmetic modelled with Flocq."
  },
  {
   "property": "C06",
   "status": "proved",
   "theorems": [
    "c06_buffer_is_bounded_deque"
   ],
   "note": "Elements are treated as trivially copyable; lifetimes are C07."
  },
  {
   "property": "C07",
   "status": "partial",
   "theorems": [
    "c07_pop_back_refuted",
    "c07_push_back_refuted",
    "c07_lifetimes_partial"
   ],
   "note": "The statement is false of the code: pop_back destroys the raw slot past the end and leaks the last element; push_back and push_front assign to raw memory. Proved for the remaining operations."
  },
  {
   "property": "C08",
   "status": "proved",
   "theorems": [
    "c08_getBit_reads_field",
    "c08_getBit_signed_reads_field",
    "c08_getBit_depends_only_on_field"
   ],
   "note": "Widths 1..56 (above 56 the C++ temporary type does not exist). Reads outside the buffer are an explicit failure outcome of the model and are shown not to happen."
  },
  {
   "property": "C09",
   "status": "proved",
   "theorems": [
    "c09_setBit_writes_field",
    "c09_getBit_after_setBit",
    "c09_setBit_preserves_other_fields"
   ],
   "note": "Proved for widths 1..56; the data argument is a 32-bit value in the code, any value in the model."
  },
  {
   "property": "C10",
   "status": "proved",
   "theorems": [
    "c10_getBitGlo_reads_field",
    "c10_getBitGlo_round_trip"
   ],
   "note": "The double result is modelled as the integer it holds; exact up to 53 bits, every use in the code is at most 27 bits."
  },
  {
   "property": "C11",
   "status": "proved",
   "theorems": [
    "c11_crc24_is_remainder",
    "c11_crc24_defined",
    "c11_remainder_unique",
    "c11_crc24_additive"
   ],
   "note": "The 256-entry table is transcribed literally and checked entry by entry against polynomial division; lifted to messages of any length by induction."
  },
  {
   "property": "C12",
   "status": "proved",
   "theorems": [
    "c12_burst_changes_crc",
    "c12_burst_detected"
   ],
   "note": "Proved for the message alone and for the message followed by its check bytes."
  },
  {
   "property": "C13",
   "status": "proved",
   "theorems": [
    "c13_gloTest_is_icd_rule",
    "c13_single_error_rejected",
    "c13_double_error_rejected",
    "c13_flip_is_one_bit"
   ],
   "note": "The masks and parity table are transcribed literally; gloTest is also proved equal to the acceptance rule of the GLONASS interface document."
  },
  {
   "property": "C14",
   "status": "proved",
   "theorems": [
    "c14_send_writes_frame",
    "c14_frames_delivered",
    "c14_listener_order",
    "c14_subscription_exact"
   ],
   "note": "Payload lengths 1..2048. Listeners get the whole buffer and no length, so the theorem speaks of the first len bytes. Callbacks are assumed not to re-enter the parser."
  },
  {
   "property": "C15",
   "status": "partial",
   "theorems": [
    "c15_empty_payload_refuted",
    "c15_empty_payload_blocks_forever"
   ],
   "note": "The statement is false of the code: a zero length leaves the parser in the payload state for every continuation of the stream."
  },
  {
   "property": "C16",
   "status": "proved",
   "theorems": [
    "c16_buffer_safe"
   ],
   "note": "Out-of-range access is a failure outcome of the model and is shown unreachable."
  },
  {
   "property": "C17",
   "status": "proved",
   "theorems": [
    "c17_only_valid_frames",
    "c17_delivered_at_frame_end"
   ],
   "note": ""
  },
  {
   "property": "C18",
   "status": "proved",
   "theorems": [
    "c18_noise_then_frame"
   ],
   "note": ""
  },
  {
   "property": "C19",
   "status": "partial",
   "theorems": [
    "c19_decode_partial",
    "c19_orders",
    "c19_subframe3_first_lost",
    "c19_any_order_refuted"
   ],
   "note": "Every field is proved to hold the raw integer and scale factors of the bits that IS-GPS-200 assigns to it. Any order is false of the code: on a fresh object a subframe 3 received before the others is lost, because it is compared with the unset iode. Proved for every order in which subframe 3 is not first."
  },
  {
   "property": "C20",
   "status": "partial",
   "theorems": [
    "c20_issue_mix_refuted",
    "c20_zero_issue_refuted",
    "c20_contents_partial",
    "c20_always_defined"
   ],
   "note": "The statement is false of the code (witnesses: two issues mixed after a success; issue number 0). What a success guarantees about each subframe's contents is proved for every history."
  },
  {
   "property": "C21",
   "status": "partial",
   "theorems": [
    "c21_spurious_success_refuted",
    "c21_first_success_partial"
   ],
   "note": "The statement is false of the code: after a success, bytes that carry no ephemeris subframe make parse return true again. Proved for the first success."
  },
  {
   "property": "C22",
   "status": "proved",
   "theorems": [
    "c22_rejected_unchanged",
    "c22_rejected_false"
   ],
   "note": ""
  },
  {
   "property": "C23",
   "status": "proved",
   "theorems": [
    "c23_bad_page_ignored",
    "c23_other_word_ignored",
    "c23_bad_page_invisible"
   ],
   "note": "Buffers of at least 32 bytes; the size argument is ignored by the code (C59)."
  },
  {
   "property": "C24",
   "status": "proved",
   "theorems": [
    "c24_complete_consistent",
    "c24_reported"
   ],
   "note": "Completeness is stated over the history of pages; the converse (the first complete consistent set is reported) is proved for weeks up to 2500."
  },
  {
   "property": "C25",
   "status": "partial",
   "theorems": [
    "c25_week_refuted",
    "c25_week_partial"
   ],
   "note": "The statement is false of the code: each further success without a new word 0 adds 1024 weeks again. Proved for the first success after each word 0, relative to the time of week the object holds (which is wrong in general, C26)."
  },
  {
   "property": "C26",
   "status": "partial",
   "theorems": [
    "c26_tail_bits_refuted",
    "c26_contents_partial",
    "c26_tail_partial",
    "c26_when_tails_agree_partial"
   ],
   "note": "The statement is false of the code: the last 16 data bits are taken from bits 234-249 of the page pair instead of 130-145. Every parameter in the first 112 bits is proved right for all histories; the six others are characterised exactly."
  },
  {
   "property": "C27",
   "status": "proved",
   "theorems": [
    "c27_one_superframe",
    "c27_always_reported"
   ],
   "note": "Strings of at least 16 bytes given to a new object. The converse (a complete set is always reported) is proved as well."
  },
  {
   "property": "C28",
   "status": "proved",
   "theorems": [
    "c28_rejected_unchanged"
   ],
   "note": "Includes strings shorter than 16 bytes, failing the parity test, or with a number outside 1..5."
  },
  {
   "property": "C29",
   "status": "proved",
   "theorems": [
    "c29_round_trip",
    "c29_record_round_trip",
    "c29_unlisted_kept"
   ],
   "note": "The arithmetic of dual quaternions is a parameter of the codec: the theorem holds for any function giving three, respectively four, doubles. Vectors of dynamic size must be read into a vector of the same size."
  },
  {
   "property": "C30",
   "status": "partial",
   "theorems": [
    "c30_layout_partial",
    "c30_ephemeris_refuted",
    "c30_ephemeris_count_refuted",
    "c30_matrix_refuted",
    "c30_dynamic_refuted"
   ],
   "note": "The statement is false of the code for ephemerides, matrices and vectors of dynamic size. Proved for the other loggable types, with distinct field names other than t, type, rows and cols."
  },
  {
   "property": "C31",
   "status": "proved",
   "theorems": [
    "c31_all_records",
    "c31_time_order"
   ],
   "note": "The files may be opened in any order. A callback is modelled as reading one record into fresh objects of the logged types; values are copied as in C29."
  },
  {
   "property": "C32",
   "status": "partial",
   "theorems": [
    "c32_incomplete_refuted",
    "c32_complete_partial",
    "c32_python_partial"
   ],
   "note": "The statement is false of the code: a record cut in its payload is delivered with missing values. Proved: every complete record is delivered unchanged, and besides them at most one message, with the stamp of the record that was cut; the Python reader shows exactly the complete records."
  },
  {
   "property": "C33",
   "status": "proved",
   "theorems": [
    "c33_on_time"
   ],
   "note": "For periods in [0, 2^32) seconds and times within 2^60 seconds of the epoch; a record up to 50 microseconds early counts as reaching the due time, as QuantizedTime does (C05)."
  },
  {
   "property": "C34",
   "status": "proved",
   "theorems": [
    "c34_newest",
    "c34_python"
   ],
   "note": "For chains of any length with non-empty sets of streams (see C77) and normalised times."
  },
  {
   "property": "C35",
   "status": "partial",
   "theorems": [
    "c35_collision_refuted",
    "c35_distinct_partial"
   ],
   "note": "The statement is false of the code: keys 100 and 1000 share a name. All pairs sharing a name are determined."
  },
  {
   "property": "C36",
   "status": "proved",
   "theorems": [
    "c36_fields",
    "c36_ids_sort",
    "c36_latest"
   ],
   "note": "The fields of gmtime are specified by the POSIX formula for seconds since the epoch."
  },
  {
   "property": "C37",
   "status": "proved",
   "theorems": [
    "c37_almanac",
    "c37_others"
   ],
   "note": "For ephemerides whose reference time has nanoseconds in range and which pass the checks of addEph (others end the process)."
  },
  {
   "property": "C38",
   "status": "partial",
   "theorems": [
    "c38_closest_refuted",
    "c38_closest_partial",
    "c38_whole_seconds_partial"
   ],
   "note": "The statement is false of the code for far times, where rounded distances tie. Proved exactly within 2^22 s (48 days); for reference times of whole seconds proved up to the resolution of the distance."
  },
  {
   "property": "C39",
   "status": "proved",
   "theorems": [
    "c39_roster",
    "c39_held",
    "c39_discovery"
   ],
   "note": "On the model of the circular buffer itself. Ephemerides carry the number of their constellation, others end the process."
  },
  {
   "property": "C40",
   "status": "partial",
   "theorems": [
    "c40_order_refuted",
    "c40_order_partial"
   ],
   "note": "The statement is false of the code for measurements of the same time. Proved for accepted measurements more than 50.002 microseconds apart, in any order, for any functions as prediction and updates."
  },
  {
   "property": "C41",
   "status": "partial",
   "theorems": [
    "c41_before_oldest_refuted",
    "c41_stale_partial",
    "c41_unknown",
    "c41_unchanged"
   ],
   "note": "The statement is false of the code for measurements at most 50 microseconds older than the oldest state. The rest is proved for all reachable states of sessions up to 2^50 ns (13 days)."
  },
  {
   "property": "C42",
   "status": "proved",
   "theorems": [
    "c42_factors",
    "c42_exists",
    "c42_lossless"
   ],
   "note": "Over the real numbers: rounding is left out. Determinant 1 or -1 is stated as: an inverse with integer entries."
  },
  {
   "property": "C43",
   "status": "partial",
   "theorems": [
    "c43_far_refuted",
    "c43_best_partial",
    "c43_ends"
   ],
   "note": "The statement is false of the code when fewer candidates than asked for are nearer than the initial bound of 1e18 (a variance of 1e-20 does it): missing places hold the zero vector. Proved otherwise. Over the real numbers: rounding is left out."
  },
  {
   "property": "C44",
   "status": "proved",
   "theorems": [
    "c44_matrix",
    "c44_rotation"
   ],
   "note": "Over the real numbers: rounding is left out."
  },
  {
   "property": "C45",
   "status": "proved",
   "theorems": [
    "c45_group",
    "c45_order"
   ],
   "note": "Over the real numbers: rounding is left out. rotp(p*q) is p first, rota(p*q) is q first."
  },
  {
   "property": "C46",
   "status": "proved",
   "theorems": [
    "c46_rigid",
    "c46_composition"
   ],
   "note": "Over the real numbers: rounding is left out."
  },
  {
   "property": "C47",
   "status": "proved",
   "theorems": [
    "c47_from_R",
    "c47_matrix"
   ],
   "note": "Over the real numbers: rounding is left out."
  },
  {
   "property": "C48",
   "status": "proved",
   "theorems": [
    "c48_group",
    "c48_action"
   ],
   "note": "Over the real numbers: rounding is left out."
  },
  {
   "property": "C49",
   "status": "proved",
   "theorems": [
    "c49_frame",
    "c49_exists"
   ],
   "note": "Over the real numbers: rounding is left out. Every reference but the centre of the Earth."
  },
  {
   "property": "C50",
   "status": "partial",
   "theorems": [
    "c50_nan_refuted",
    "c50_limit_partial",
    "c50_history_partial"
   ],
   "note": "The statement is false of the code: finite inputs whose parts overflow give a result that is not a number. Proved: every result that is a number lies within the limits, and for moderate gains and inputs every history gives finite results within the limits."
  },
  {
   "property": "C51",
   "status": "partial",
   "theorems": [
    "c51_day_refuted",
    "c51_reads_partial",
    "c51_determines_partial",
    "c51_fits"
   ],
   "note": "The statement is false of the code from one day on: the number of days is divided twice and is never printed. Proved below one day."
  },
  {
   "property": "C52",
   "status": "proved",
   "theorems": [
    "c52_join",
    "c52_pieces",
    "c52_strip",
    "c52_strip_only"
   ],
   "note": ""
  },
  {
   "property": "C53",
   "status": "partial",
   "theorems": [
    "c53_value_refuted",
    "c53_matrices_refuted",
    "c53_ends_refuted",
    "c53_value_partial"
   ],
   "note": "The statement is false of the code: dt*A + A*B becomes dt*(A + B), repeated products are counted wrongly, and A*A*B + A*A*C is never finished. Proved for expressions without blocks of one row that repeat no product when multiplied out."
  },
  {
   "property": "C54",
   "status": "partial",
   "theorems": [
    "c54_sum",
    "c54_scale",
    "c54_product",
    "c54_transpose",
    "c54_transition",
    "c54_input",
    "c54_covariance",
    "c54_returns_refuted",
    "c54_returns_partial"
   ],
   "note": "Every result equals the dense formula; but products of 1 x 1 blocks raise an error (refuted), and returning is proved for products of blocks with other than one row."
  },
  {
   "property": "C55",
   "status": "proved",
   "theorems": [
    "c55_update",
    "c55_innovation",
    "c55_gated",
    "c55_mahal"
   ],
   "note": "Over the real numbers: rounding is left out. Eigen's inverse is a parameter that inverts the innovation."
  },
  {
   "property": "C56",
   "status": "proved",
   "theorems": [
    "c56_bad_checksum_dropped",
    "c56_one_byte_damage_dropped"
   ],
   "note": "Damage to the two length bytes changes how many bytes are consumed and is not covered."
  },
  {
   "property": "C57",
   "status": "partial",
   "theorems": [
    "c57_leap_seconds_refuted",
    "c57_constant_bias",
    "c57_elapsed_partial"
   ],
   "note": "The statement is false of the code: the leap seconds are added, so every result is 36 s late. Elapsed times are exact."
  },
  {
   "property": "C58",
   "status": "partial",
   "theorems": [
    "c58_validity_flags_refuted",
    "c58_validity_flags_partial"
   ],
   "note": "The statement is false of the code for the two data-validity flags; the health fields are right (c26_contents_partial)."
  },
  {
   "property": "C59",
   "status": "partial",
   "theorems": [
    "c59_short_buffer_refuted",
    "c59_repeated_success_refuted",
    "c59_defined_partial"
   ],
   "note": "The statement is false of the code. Proved for buffers of at least 32 bytes and week numbers up to 2500."
  },
  {
   "property": "C60",
   "status": "partial",
   "theorems": [
    "c60_foreign_clock_refuted",
    "c60_own_clock_partial"
   ],
   "note": "The statement is false of the code. Proved when every good word 4 passed to the object names its satellite."
  },
  {
   "property": "C61",
   "status": "proved",
   "theorems": [
    "c61_burst_rejected"
   ],
   "note": ""
  },
  {
   "property": "C62",
   "status": "proved",
   "theorems": [
    "c62_contents"
   ],
   "note": "Scaled doubles are kept as raw integer and list of factors."
  },
  {
   "property": "C63",
   "status": "partial",
   "theorems": [
    "c63_day_refuted",
    "c63_day_partial"
   ],
   "note": "The statement is false of the code: the almanac day N_A is used instead of N_T."
  },
  {
   "property": "C64",
   "status": "partial",
   "theorems": [
    "c64_overflow_refuted",
    "c64_defined_partial"
   ],
   "note": "The statement is false of the code for N_4 >= 19. Proved for every history with N_4 <= 18."
  },
  {
   "property": "C65",
   "status": "proved",
   "theorems": [
    "c65_one_bit_rejected",
    "c65_two_bits_rejected"
   ],
   "note": ""
  },
  {
   "property": "C66",
   "status": "partial",
   "theorems": [
    "c66_band_refuted",
    "c66_frequency_partial"
   ],
   "note": "The statement is false of the code: the orbital slot number is used as the frequency channel. The exact frequency is proved."
  },
  {
   "property": "C67",
   "status": "partial",
   "theorems": [
    "c67_members_lost_refuted",
    "c67_measurements_partial"
   ],
   "note": "The statement is false of the code for ephemerides. Proved for ImuSample and GnssObservation."
  },
  {
   "property": "C68",
   "status": "partial",
   "theorems": [
    "c68_estimate_refuted",
    "c68_without_covariance_partial"
   ],
   "note": "The statement is false of the code. Proved for the eight declared values without the covariance."
  },
  {
   "property": "C69",
   "status": "proved",
   "theorems": [
    "c69_add",
    "c69_sub",
    "c69_add_sub",
    "c69_monotone"
   ],
   "note": ""
  },
  {
   "property": "C70",
   "status": "partial",
   "theorems": [
    "c70_negative_refuted",
    "c70_partial"
   ],
   "note": "The statement is false of the code for negative values with a fraction. Proved for x >= 0."
  },
  {
   "property": "C71",
   "status": "partial",
   "theorems": [
    "c71_missing_file_refuted",
    "c71_returns_partial"
   ],
   "note": "The statement is false of the code: if the file of a subscribed stream is missing and the uninitialised key has no callback, read never returns. Proved for files with arbitrary contents whose key agrees with a subscribed one."
  },
  {
   "property": "C72",
   "status": "partial",
   "theorems": [
    "c72_other_file_refuted",
    "c72_archive_refuted",
    "c72_slash_refuted",
    "c72_same_partial"
   ],
   "note": "The statement is false of the code. Proved for directories holding only logs."
  },
  {
   "property": "C73",
   "status": "partial",
   "theorems": [
    "c73_cycle_refuted",
    "c73_returns_partial"
   ],
   "note": "The statement is false of the code for a log amending itself. Proved: opening returns if and only if the chain of amendments ends."
  },
  {
   "property": "C74",
   "status": "partial",
   "theorems": [
    "c74_same_second_refuted",
    "c74_kept_partial",
    "c74_others_partial"
   ],
   "note": "The statement is false of the code for two logs started in the same second."
  },
  {
   "property": "C75",
   "status": "partial",
   "theorems": [
    "c75_crash_refuted",
    "c75_unreadable",
    "c75_closed_partial"
   ],
   "note": "The statement is false of the code at every crash point before close. The contents after close are proved."
  },
  {
   "property": "C76",
   "status": "partial",
   "theorems": [
    "c76_end_time_refuted",
    "c76_destructor_time",
    "c76_end_time_partial"
   ],
   "note": "The statement is false of the code: the destructor overwrites the end time. Proved until the destruction."
  },
  {
   "property": "C77",
   "status": "partial",
   "theorems": [
    "c77_empty_refuted",
    "c77_opens_partial"
   ],
   "note": "The statement is false of the code for logs without streams."
  },
  {
   "property": "C78",
   "status": "partial",
   "theorems": [
    "c78_reopen_refuted",
    "c78_reopen_partial"
   ],
   "note": "The statement is false of the code if the Logger was not closed. Proved after close."
  },
  {
   "property": "C79",
   "status": "partial",
   "theorems": [
    "c79_all_held_refuted",
    "c79_all_held_partial"
   ],
   "note": "The statement is false of the code: at most 29 satellites are held."
  },
  {
   "property": "C80",
   "status": "proved",
   "theorems": [
    "c80_has_ephemeris"
   ],
   "note": ""
  },
  {
   "property": "C81",
   "status": "partial",
   "theorems": [
    "c81_close_refuted",
    "c81_early_refuted",
    "c81_repeated_refuted",
    "c81_safe_partial"
   ],
   "note": "The statement is false of the code for close or repeated time stamps. Proved for separated ones and at most 29 satellites of a constellation. The checks that computed numbers are finite are outside the model."
  },
  {
   "property": "C82",
   "status": "partial",
   "theorems": [
    "c82_late_refuted",
    "c82_late_partial"
   ],
   "note": "The statement is false of the code after a gap in the data."
  },
  {
   "property": "C83",
   "status": "partial",
   "theorems": [
    "c83_overflow_refuted",
    "c83_before_1970_partial"
   ],
   "note": "The statement is false of the code for every time since 1970. In the model of predict the subtraction wraps around."
  },
  {
   "property": "C84",
   "status": "partial",
   "theorems": [
    "c84_clock_refuted",
    "c84_gps_partial"
   ],
   "note": "The statement is false of the code for Galileo and GLONASS."
  },
  {
   "property": "C85",
   "status": "partial",
   "theorems": [
    "c85_evicted_refuted",
    "c85_usable_partial"
   ],
   "note": "The statement is false of the code for more than 29 satellites of a constellation."
  },
  {
   "property": "C86",
   "status": "partial",
   "theorems": [
    "c86_time_lost_refuted",
    "c86_assigned_refuted",
    "c86_rest_partial",
    "c86_copy_partial"
   ],
   "note": "The statement is false of the code: the time is not copied."
  },
  {
   "property": "C87",
   "status": "proved",
   "theorems": [
    "c87_exp",
    "c87_line"
   ],
   "note": "Over the real numbers: rounding is left out."
  },
  {
   "property": "C88",
   "status": "proved",
   "theorems": [
    "c88_exp_log",
    "c88_log_exp",
    "c88_small",
    "c88_exp_log_near",
    "c88_log_exp_near"
   ],
   "note": "Over the real numbers: rounding is left out. Within 4e-6 of the identity and of its negative log is the vector of the same rotation up to 1e-30."
  },
  {
   "property": "C89",
   "status": "proved",
   "theorems": [
    "c89_quat",
    "c89_dquat",
    "c89_se3",
    "c89_se3_small"
   ],
   "note": "Over the real numbers: rounding is left out. For SE3 at angles below 2e-3 the cut-off series leaves a difference, bounded by 1e-22 of the translation."
  },
  {
   "property": "C90",
   "status": "proved",
   "theorems": [
    "c90_left",
    "c90_right",
    "c90_so3",
    "c90_near",
    "c90_so3_near",
    "c90_curves"
   ],
   "note": "Over the real numbers: rounding is left out. Exact for rotations of more than 4e-6 rad (0.002 rad in so3.h) and without rotation, along curves too; elsewhere to within the bounds stated."
  },
  {
   "property": "C91",
   "status": "proved",
   "theorems": [
    "c91_exp"
   ],
   "note": "Over the real numbers: rounding is left out. Up to 1e-20 below |w|^2 = 4e-6."
  },
  {
   "property": "C92",
   "status": "partial",
   "theorems": [
    "c92_log_refuted",
    "c92_log_partial"
   ],
   "note": "The statement is false of the code near half a turn: log is the vector of the inverse rotation. Proved for all other rotations. Over the real numbers: rounding is left out."
  },
  {
   "property": "C93",
   "status": "partial",
   "theorems": [
    "c93_quat_refuted",
    "c93_so3_refuted",
    "c93_quat_partial",
    "c93_so3_partial"
   ],
   "note": "The statement is false of the code at and near half a turn. Over the real numbers: rounding is left out."
  },
  {
   "property": "C94",
   "status": "partial",
   "theorems": [
    "c94_opposite_refuted",
    "c94_quat_partial",
    "c94_so3_partial",
    "c94_same"
   ],
   "note": "The statement is false of the code for opposite vectors. Over the real numbers: rounding is left out."
  },
  {
   "property": "C95",
   "status": "proved",
   "theorems": [
    "c95_euler",
    "c95_round_trip"
   ],
   "note": "Over the real numbers: rounding is left out."
  },
  {
   "property": "C96",
   "status": "partial",
   "theorems": [
    "c96_negative_refuted",
    "c96_small_refuted",
    "c96_exp_log_partial",
    "c96_log_exp_partial"
   ],
   "note": "The statement is false of the code near the negative of the identity, and inaccurate for small turns. Over the real numbers: rounding is left out."
  },
  {
   "property": "C97",
   "status": "partial",
   "theorems": [
    "c97_half_turn_refuted",
    "c97_exp_log_partial"
   ],
   "note": "The statement is false of the code for half turns. Over the real numbers: rounding is left out."
  },
  {
   "property": "C98",
   "status": "proved",
   "theorems": [
    "c98_same_motion",
    "c98_line"
   ],
   "note": "Over the real numbers: rounding is left out. For squared angles above 4e-6."
  },
  {
   "property": "C99",
   "status": "proved",
   "theorems": [
    "c99_quat",
    "c99_dquat"
   ],
   "note": "Over the real numbers: rounding is left out."
  },
  {
   "property": "C100",
   "status": "proved",
   "theorems": [
    "c100_axis_angle",
    "c100_agree"
   ],
   "note": "Over the real numbers: rounding is left out. SO3 for squared angles of at least 4e-6."
  },
  {
   "property": "C101",
   "status": "partial",
   "theorems": [
    "c101_refuted",
    "c101_partial"
   ],
   "note": "The statement is false of the code whenever there is a translation and a rotation. Over the real numbers: rounding is left out."
  },
  {
   "property": "C102",
   "status": "partial",
   "theorems": [
    "c102_centre_refuted",
    "c102_returns_partial"
   ],
   "note": "The statement is false of the code at the centre of the Earth only. Over the real numbers: rounding is left out."
  },
  {
   "property": "C103",
   "status": "proved",
   "theorems": [
    "c103_ecef",
    "c103_lla"
   ],
   "note": "Over the real numbers: rounding is left out."
  },
  {
   "property": "C104",
   "status": "proved",
   "theorems": [
    "c104_geodetic"
   ],
   "note": "Over the real numbers: rounding is left out."
  },
  {
   "property": "C105",
   "status": "proved",
   "theorems": [
    "c105_axes",
    "c105_directions",
    "c105_vertical"
   ],
   "note": "Over the real numbers: rounding is left out."
  },
  {
   "property": "C106",
   "status": "proved",
   "theorems": [
    "c106_azel"
   ],
   "note": "Over the real numbers: rounding is left out."
  },
  {
   "property": "C107",
   "status": "proved",
   "theorems": [
    "c107_ends",
    "c107_reduced"
   ],
   "note": "Over the real numbers: rounding is left out."
  },
  {
   "property": "C108",
   "status": "partial",
   "theorems": [
    "c108_range_refuted",
    "c108_closest_partial",
    "c108_ratio"
   ],
   "note": "The statement is false of the code for ambiguities outside the range of int (undefined conversion in modf) and where the initial bound cuts off candidates. Proved otherwise, with Eigen's inverse as a parameter that inverts. Over the real numbers: rounding is left out. The comment in lambda.h names Q itself as the metric; the code uses its inverse, as the benchmark expects."
  },
  {
   "property": "C109",
   "status": "partial",
   "theorems": [
    "c109_one_refuted",
    "c109_returns_partial"
   ],
   "note": "The statement is false of the code for one candidate: the second norm is read out of range. Over the real numbers: rounding is left out."
  },
  {
   "property": "C110",
   "status": "partial",
   "theorems": [
    "c110_windup_refuted"
   ],
   "note": "The statement is false of the code: the guard compares the integral part with u - p + d, which is the integral part itself, so it never acts. What stays true of the output is in C50."
  },
  {
   "property": "C111",
   "status": "partial",
   "theorems": [
    "c111_normal_refuted",
    "c111_normal_partial",
    "c111_instant"
   ],
   "note": "The statement is false of the code for fractions that round to a whole second: the nanoseconds are then 10^9. Proved: the instant always, normalised for all other fractions."
  },
  {
   "property": "C112",
   "status": "partial",
   "theorems": [
    "c112_reads_refuted",
    "c112_reads_partial",
    "c112_determines",
    "c112_shown"
   ],
   "note": "The statement is false of the code for 1 to 99 milliseconds, which are printed without leading zeros. Proved otherwise; the text still determines the second and the millisecond."
  },
  {
   "property": "C113",
   "status": "proved",
   "theorems": [
    "c113_predict",
    "c113_series",
    "c113_inverse",
    "c113_history"
   ],
   "note": "Over the real numbers: rounding is left out."
  },
  {
   "property": "C114",
   "status": "proved",
   "theorems": [
    "c114_gain",
    "c114_correction"
   ],
   "note": "Over the real numbers: rounding is left out. Eigen's inverse is a parameter that inverts the innovation."
  },
  {
   "property": "C115",
   "status": "proved",
   "theorems": [
    "c115_solved"
   ],
   "note": "Over the real numbers: rounding is left out. An eccentricity is broadcast as 32 bits in units of 2^-33, hence at most one half."
  },
  {
   "property": "C116",
   "status": "proved",
   "theorems": [
    "c116_position",
    "c116_ellipse"
   ],
   "note": "Over the real numbers: rounding is left out."
  },
  {
   "property": "C117",
   "status": "partial",
   "theorems": [
    "c117_constant_refuted",
    "c117_close_partial"
   ],
   "note": "The statement is false of the code: it uses the GPS constant for Galileo too, which moves a satellite by half a metre in two hours. Proved: at most nine metres, for orbits without harmonic corrections. Over the real numbers: rounding is left out."
  },
  {
   "property": "C118",
   "status": "partial",
   "theorems": [
    "c118_perigee_refuted",
    "c118_harmonic_refuted",
    "c118_velocity_partial"
   ],
   "note": "The statement is false of the code at perigee and apogee (zero divided by zero) and with harmonic corrections. Proved for orbits without them, elsewhere. Over the real numbers: rounding is left out."
  },
  {
   "property": "C119",
   "status": "partial",
   "theorems": [
    "c119_clock_refuted",
    "c119_clock_partial"
   ],
   "note": "The statement is false of the code: af1 multiplies the time from the time of ephemeris instead of the time of clock, and the drift misses a factor of two on af2. Proved: the exact difference, which vanishes for equal times and af2 = 0. Over the real numbers: rounding is left out."
  },
  {
   "property": "C120",
   "status": "partial",
   "theorems": [
    "c120_stale_refuted",
    "c120_fresh_partial"
   ],
   "note": "The statement is false of the code: beyond two hours a check ends the process. Proved within two hours. Over the real numbers: rounding is left out."
  },
  {
   "property": "C121",
   "status": "partial",
   "theorems": [
    "c121_history_refuted",
    "c121_fresh_partial"
   ],
   "note": "The statement is false of the code: a state filled before is propagated and the position of the new ephemeris ignored. Proved for a new state. Over the real numbers: rounding is left out."
  },
  {
   "property": "C122",
   "status": "proved",
   "theorems": [
    "c122_energy"
   ],
   "note": "Over the real numbers: rounding is left out."
  },
  {
   "property": "C123",
   "status": "proved",
   "theorems": [
    "c123_fourth_order"
   ],
   "note": "Over the real numbers: rounding is left out."
  },
  {
   "property": "C124",
   "status": "partial",
   "theorems": [
    "c124_bounded_refuted",
    "c124_zenith_partial",
    "c124_height",
    "c124_outside"
   ],
   "note": "The statement is false of the code near the horizon, where the delay exceeds every bound. The rest is proved. Over the real numbers: rounding is left out."
  },
  {
   "property": "C125",
   "status": "partial",
   "theorems": [
    "c125_leap_refuted",
    "c125_model_partial",
    "c125_bounds"
   ],
   "note": "The statement is false of the code: leap seconds are added to a time of week that already is GPS time, so the local time is 18 s late. Proved for the shifted time. Over the real numbers: rounding is left out."
  },
  {
   "property": "C126",
   "status": "partial",
   "theorems": [
    "c126_still_refuted",
    "c126_found_partial"
   ],
   "note": "The statement is false of the code for a satellite at rest over the Earth (the loop is skipped, the Sagnac term not set). Proved for speeds from 1000 to 5000 m/s and flights up to 0.2 s; the satellite is a function of the time, subtraction of a double from a time is within a nanosecond. Over the real numbers: rounding is left out."
  },
  {
   "property": "C127",
   "status": "proved",
   "theorems": [
    "c127_dead_reckoning",
    "c127_accepted"
   ],
   "note": "Times normal and within 2^61 s. Over the real numbers: rounding is left out."
  },
  {
   "property": "C128",
   "status": "partial",
   "theorems": [
    "c128_nominal_refuted",
    "c128_zero_partial"
   ],
   "note": "The statement is false of the code: it multiplies dStatedBias by the whole parameter instead of its difference from the nominal bias (commented out). Proved for the parameter zero. Over the real numbers: rounding is left out."
  },
  {
   "property": "C129",
   "status": "partial",
   "theorems": [
    "c129_pose_refuted",
    "c129_end_partial",
    "c129_start_partial",
    "c129_end_rotation_partial",
    "c129_start_rotation_partial"
   ],
   "note": "The statement is false of the code for turned poses: the columns of the translation and of the rotation use the wrong rotation. Proved: the exact condition for all rows, any motion; for the rows of the orientation, errors of rotation that are zero or neither small nor half turns. Over the real numbers: rounding is left out."
  },
  {
   "property": "C130",
   "status": "proved",
   "theorems": [
    "c130_start",
    "c130_end"
   ],
   "note": "Over the real numbers: rounding is left out."
  },
  {
   "property": "C131",
   "status": "proved",
   "theorems": [
    "c131_covariance",
    "c131_positive",
    "c131_finished"
   ],
   "note": "Over the real numbers: rounding is left out."
  },
  {
   "property": "C132",
   "status": "partial",
   "theorems": [
    "c132_gyro_refuted",
    "c132_accel_partial"
   ],
   "note": "The statement is false of the code for the gyroscope: the state is propagated to first order, its derivative to second. Proved exact for the accelerometer. Over the real numbers: rounding is left out."
  },
  {
   "property": "C133",
   "status": "partial",
   "theorems": [
    "c133_inside_refuted",
    "c133_split_partial",
    "c133_outside"
   ],
   "note": "The statement is false of the code: within 0.1 ms before a sample, and from 50 to 100 microseconds after one, the process ends. Proved: the exact outcome for every time. Over the real numbers: rounding is left out."
  },
  {
   "property": "C134",
   "status": "partial",
   "theorems": [
    "c134_between_refuted",
    "c134_sample_partial"
   ],
   "note": "The statement is false of the code between samples, since the position is integrated to first order. Proved for the times of samples. Over the real numbers: rounding is left out."
  },
  {
   "property": "C135",
   "status": "partial",
   "theorems": [
    "c135_half_refuted",
    "c135_constant_partial"
   ],
   "note": "The statement is false of the code: the position follows the velocity at the beginning of each interval. Proved: the exact result. Over the real numbers: rounding is left out."
  },
  {
   "property": "C136",
   "status": "proved",
   "theorems": [
    "c136_sub_add",
    "c136_add_sub",
    "c136_same",
    "c136_sub_add_near",
    "c136_add_sub_near"
   ],
   "note": "Exact where exp and log do not use series, and for equal states. Over the real numbers: rounding is left out."
  },
  {
   "property": "C137",
   "status": "proved",
   "theorems": [
    "c137_position_velocity_jacobian"
   ],
   "note": "Over the real numbers: rounding is left out."
  },
  {
   "property": "C138",
   "status": "partial",
   "theorems": [
    "c138_velocity_is_rate_refuted",
    "c138_velocity_is_rate_partial"
   ],
   "note": "The statement is false of the code: the measured turn rate is used without taking off the gyroscope bias. Proved: it holds exactly when bias and antenna arm are parallel. Over the real numbers: rounding is left out."
  },
  {
   "property": "C139",
   "status": "partial",
   "theorems": [
    "c139_newton_refuted",
    "c139_newton_partial"
   ],
   "note": "The statement is false of the code: gravity is turned with rota instead of rotp and the term of the turning frame is missing. Proved: the exact condition. Over the real numbers: rounding is left out."
  },
  {
   "property": "C140",
   "status": "partial",
   "theorems": [
    "c140_state_jacobian_refuted",
    "c140_linear_model",
    "c140_orientation_partial",
    "c140_position_partial"
   ],
   "note": "The statement is false of the code for the clocks (no row), the position (turning of the frame) and the velocity (gravity). Proved: errorStateDynamics is the linear model of both Jacobians; the orientation rows are right to first order and the position rows but for the turning of the frame. Over the real numbers: rounding is left out."
  },
  {
   "property": "C141",
   "status": "proved",
   "theorems": [
    "c141_pseudorange_jacobian",
    "c141_each"
   ],
   "note": "The Sagnac term and delays of the cache are constants, as in the code. Over the real numbers: rounding is left out."
  },
  {
   "property": "C142",
   "status": "partial",
   "theorems": [
    "c142_doppler_jacobian_refuted",
    "c142_doppler_jacobian_partial"
   ],
   "note": "The statement is false of the code: the change of the direction to the satellite and of the Sagnac rate are left out. Proved: a bound of what is left out. Over the real numbers: rounding is left out."
  },
  {
   "property": "C143",
   "status": "partial",
   "theorems": [
    "c143_doppler_is_range_rate_refuted",
    "c143_doppler_is_range_rate_partial"
   ],
   "note": "The statement is false of the code: the Sagnac rate has the opposite sign of the Sagnac term. Proved: the difference is exactly twice that rate. Over the real numbers: rounding is left out."
  },
  {
   "property": "C144",
   "status": "proved",
   "theorems": [
    "c144_fix_and_hold",
    "c144_jacobian"
   ],
   "note": "Over the real numbers: rounding is left out."
  },
  {
   "property": "C145",
   "status": "partial",
   "theorems": [
    "c145_sign_refuted",
    "c145_small_refuted",
    "c145_minus_plus_partial",
    "c145_plus_minus_partial"
   ],
   "note": "The statement is false of the code: between a pose and the same attitude with the opposite quaternion the difference has the translation reversed, and for small screw motions the advance comes back wrong by more than 2e-9 of itself. Proved: exact without rotation and for rotations above about 2e-3 rad. Over the real numbers: rounding is left out."
  },
  {
   "property": "C146",
   "status": "proved",
   "theorems": [
    "c146_weights"
   ],
   "note": "Over the real numbers: rounding is left out."
  },
  {
   "property": "C147",
   "status": "proved",
   "theorems": [
    "c147_zero",
    "c147_switched_off"
   ],
   "note": "Over the real numbers: rounding is left out."
  },
  {
   "property": "C148",
   "status": "proved",
   "theorems": [
    "c148_range_and_switch"
   ],
   "note": "For weights without correlation; correlated ones are in C149. Over the real numbers: rounding is left out."
  },
  {
   "property": "C149",
   "status": "partial",
   "theorems": [
    "c149_doppler_refuted",
    "c149_correlated_refuted",
    "c149_clock_partial",
    "c149_doppler_partial"
   ],
   "note": "The statement is false of the code: the Doppler row leaves out terms, and the Jacobians of velocity, clock, switch and lever arm take only the diagonal of the weights. Proved: the exact condition for the clock, a bound for the Doppler row. Over the real numbers: rounding is left out."
  },
  {
   "property": "C150",
   "status": "partial",
   "theorems": [
    "c150_pseudorange",
    "c150_doppler_refuted",
    "c150_doppler_partial"
   ],
   "note": "The statement is false of the code for the Doppler: the factor divides the line of sight by the range with the Sagnac term. Proved: equal pseudoranges and the exact difference of the Doppler. Over the real numbers: rounding is left out."
  },
  {
   "property": "C151",
   "status": "partial",
   "theorems": [
    "c151_cycles_refuted",
    "c151_cycles_partial"
   ],
   "note": "The statement is false of the code: the metres are multiplied by the wavelength, not divided. Proved: the residual that remains, zero for a wavelength of 1 only. Over the real numbers: rounding is left out."
  },
  {
   "property": "C152",
   "status": "partial",
   "theorems": [
    "c152_jacobian_refuted",
    "c152_jacobian_partial"
   ],
   "note": "The statement is false of the code: the change of the Sagnac term is left out. Proved: that is exactly the difference. Over the real numbers: rounding is left out."
  },
  {
   "property": "C153",
   "status": "proved",
   "theorems": [
    "c153_zero",
    "c153_chain",
    "c153_jacobian"
   ],
   "note": "Over the real numbers: rounding is left out."
  },
  {
   "property": "C154",
   "status": "proved",
   "theorems": [
    "c154_zero"
   ],
   "note": "Over the real numbers: rounding is left out."
  },
  {
   "property": "C155",
   "status": "partial",
   "theorems": [
    "c155_replay_refuted",
    "c155_replay_partial"
   ],
   "note": "The statement is false of the code: the comparison is the wrong way round, so that ephemerides come before their time, never once their second has passed, and front() of an empty vector is read after the last. Proved: the exact outcome for steps whose seconds do not go back."
  },
  {
   "property": "C156",
   "status": "proved",
   "theorems": [
    "c156_on_the_ground",
    "c156_defined"
   ],
   "note": "Over the real numbers: rounding is left out."
  },
  {
   "property": "C157",
   "status": "partial",
   "theorems": [
    "c157_straight_run_refuted",
    "c157_straight_run_partial"
   ],
   "note": "The statement is false of the code: the position lags by half of the acceleration times dt squared. Proved: the exact position. Over the real numbers: rounding is left out."
  },
  {
   "property": "C158",
   "status": "partial",
   "theorems": [
    "c158_inverse_refuted",
    "c158_inverse_partial"
   ],
   "note": "The statement is false of the code: mass, inertia and a factor of two are left out. Proved: what the car gets. Over the real numbers: rounding is left out."
  },
  {
   "property": "C159",
   "status": "partial",
   "theorems": [
    "c159_gains_refuted"
   ],
   "note": "The statement is false of the code: Sim::step passes the time of the last step and asks not to update the integrator. Proved for every history and all finite gains. Nothing remains of the statement to be proved."
  },
  {
   "property": "C160",
   "status": "partial",
   "theorems": [
    "c160_order_refuted",
    "c160_order_partial",
    "c160_in_range"
   ],
   "note": "The statement is false of the code: current_waypoint_ is not initialised, and a negative value wraps modulo 2^64. Proved for values that are not negative and histories that do not overflow the int."
  },
  {
   "property": "C161",
   "status": "partial",
   "theorems": [
    "c161_speed_refuted",
    "c161_speed_partial"
   ],
   "note": "The statement is false of the code for max_speed below 1 m/s. Proved: at most the larger of 1 and max_speed. Over the real numbers: rounding is left out."
  },
  {
   "property": "C162",
   "status": "partial",
   "theorems": [
    "c162_towards_refuted",
    "c162_towards_partial"
   ],
   "note": "The statement is false of the code: straight behind, the eighth power of the cosine commands full speed away. Proved: the commanded turn does not increase the angle to a fixed direction. Over the real numbers: rounding is left out."
  },
  {
   "property": "C163",
   "status": "partial",
   "theorems": [
    "c163_specific_force_refuted",
    "c163_specific_force_partial",
    "c163_ground"
   ],
   "note": "The statement is false of the code: the centripetal acceleration is missing and gravity is turned by rota instead of rotp. Proved: the exact condition, and what is missing on the ground. Over the real numbers: rounding is left out."
  },
  {
   "property": "C164",
   "status": "proved",
   "theorems": [
    "c164_same_process"
   ],
   "note": "Both leave out the same term (C139, C163). Over the real numbers: rounding is left out."
  },
  {
   "property": "C165",
   "status": "proved",
   "theorems": [
    "c165_same_pseudorange"
   ],
   "note": "The satellite is a function of the time; subtraction of a double from a time is within a nanosecond. Over the real numbers: rounding is left out."
  },
  {
   "property": "C166",
   "status": "partial",
   "theorems": [
    "c166_rate_refuted",
    "c166_rate_partial",
    "c166_count"
   ],
   "note": "The statement is false of the code: the time of a late sample is the start of the next period, so 250 Hz asked every 3 ms gives 167 Hz. Proved in doubles, to 8 units of 2^-53: never faster, and not late by more than the time between calls."
  },
  {
   "property": "C167",
   "status": "proved",
   "theorems": [
    "c167_antenna",
    "c167_velocity",
    "c167_pose"
   ],
   "note": "Over the real numbers: rounding is left out."
  },
  {
   "property": "C168",
   "status": "proved",
   "theorems": [
    "c168_doppler"
   ],
   "note": "Over the real numbers: rounding is left out."
  },
  {
   "property": "C169",
   "status": "proved",
   "theorems": [
    "c169_dquat",
    "c169_se3",
    "c169_dquat_near",
    "c169_se3_near"
   ],
   "note": "Exact without turn and for turns of more than 0.002 rad; for every turn to within the remainders of the series. Over the real numbers: rounding is left out."
  },
  {
   "property": "C170",
   "status": "partial",
   "theorems": [
    "c170_half_turn_refuted",
    "c170_quat_partial",
    "c170_so3_partial",
    "c170_dquat_partial",
    "c170_se3_partial"
   ],
   "note": "The statement is false of the code: at a half turn log(jac) of DQuat divides zero by zero where log() is defined (for SO3 see C93). Proved: without turn and for all turns outside the series and the half turns. Over the real numbers: rounding is left out."
  },
  {
   "property": "C171",
   "status": "partial",
   "theorems": [
    "c171_so3_refuted",
    "c171_dquat_refuted",
    "c171_partial"
   ],
   "note": "The statement is false of the code: near half turns log(jac) of SO3 returns the opposite rotation, and for turns of about 0.0016 rad log(jac) of DQuat stretches the translation along the axis by more than 2e-7. Proved: equal for all turns outside the series and the half turns, and without turn. Over the real numbers: rounding is left out."
  },
  {
   "property": "C172",
   "status": "partial",
   "theorems": [
    "c172_half_turn_refuted",
    "c172_residual_refuted",
    "c172_jacobian_partial"
   ],
   "note": "The statement is false of the code as C170 and C171 are. Proved: without turn from the anchor and for turns from 0.002 rad up to half turns. Over the real numbers: rounding is left out."
  },
  {
   "property": "C173",
   "status": "partial",
   "theorems": [
    "c173_half_turn_refuted",
    "c173_biases_partial"
   ],
   "note": "The statement is false of the code at half turns of the error of rotation: the Jacobian divides zero by zero. Proved: for every history, pose, velocity and curve of biases, where the error of rotation and the adjustment by the bias are zero or above 8e-6 and 4e-6 rad. Over the real numbers: rounding is left out."
  },
  {
   "property": "C174",
   "status": "partial",
   "theorems": [
    "c174_glonass_refuted",
    "c174_frequency_partial"
   ],
   "note": "The statement is false of the code: the GLONASS slot number is not reduced by 7, so the frequency is that of seven channels above. Proved: right for GPS and Galileo, off by exactly seven channels for GLONASS, no other signal logged."
  },
  {
   "property": "C175",
   "status": "partial",
   "theorems": [
    "c175_too_many_refuted",
    "c175_stale_refuted",
    "c175_observations_partial"
   ],
   "note": "The statement is false of the code: a message of 61 measurements is read beyond the array, and a message that announces more than it carries logs measurements of earlier messages again. Proved: exact for messages of at most 60 measurements that carry what they announce; frequencies as in C174."
  },
  {
   "property": "C176",
   "status": "partial",
   "theorems": [
    "c176_short_page_refuted",
    "c176_short_partial"
   ],
   "note": "The statement is false of the code for Galileo: messages without words make pages of another satellite count. Proved for GPS, GLONASS and all other systems."
  },
  {
   "property": "C177",
   "status": "proved",
   "theorems": [
    "c177_limit",
    "c177_logged"
   ],
   "note": "Messages as long as they say, clocks below 2^62 s."
  },
  {
   "property": "C178",
   "status": "proved",
   "theorems": [
    "c178_gps",
    "c178_glonass",
    "c178_galileo"
   ],
   "note": "Messages as long as they say (else C176). For Galileo the parameters within the first 112 bits of each word; the others are decoded wrongly (C26)."
  },
  {
   "property": "C179",
   "status": "proved",
   "theorems": [
    "c179_value",
    "c179_list"
   ],
   "note": "For paths whose names hold no slash and whose last name is not empty."
  },
  {
   "property": "C180",
   "status": "partial",
   "theorems": [
    "c180_required_refuted",
    "c180_required_partial"
   ],
   "note": "The statement is false of the code: a required setting of the wrong type, and an empty key, return false. Proved: a missing required setting never returns."
  },
  {
   "property": "C181",
   "status": "partial",
   "theorems": [
    "c181_throws_refuted",
    "c181_throws_partial"
   ],
   "note": "The statement is false of the code: BadSubscript leaves get when the path goes on from a scalar, and the conversion error of a list element is not the one caught. Proved: the exact condition."
  },
  {
   "property": "C182",
   "status": "partial",
   "theorems": [
    "c182_short_refuted",
    "c182_long_refuted",
    "c182_matrix_partial"
   ],
   "note": "The statement is false of the code: the length is not checked, a short list is read beyond its end and the rest of a long one is ignored. Proved: right for lists that are long enough."
  },
  {
   "property": "C183",
   "status": "proved",
   "theorems": [
    "c183_round_trip",
    "c183_short"
   ],
   "note": "The conversion of single numbers is arbitrary."
  },
  {
   "property": "C184",
   "status": "partial",
   "theorems": [
    "c184_start_refuted",
    "c184_nothing",
    "c184_limit_partial"
   ],
   "note": "The statement is false of the code: x0.t stays at 1970, so the callback that is to stop after 45 s stops at the first record of every log stamped after 1970-01-01 00:00:46; c184_nothing proves this for all logs. Proved: the limit is 45 s from the time of the state."
  },
  {
   "property": "C185",
   "status": "partial",
   "theorems": [
    "c185_dropped_refuted",
    "c185_batches_partial",
    "c185_all_partial"
   ],
   "note": "The statement is false of the code: of epochs less than 10 ms apart only the first is used. Proved: the exact batches, and that nothing is lost when the observations between gaps are of one time."
  },
  {
   "property": "C186",
   "status": "proved",
   "theorems": [
    "c186_loaded"
   ],
   "note": "Times below 2^62 s."
  },
  {
   "property": "C187",
   "status": "proved",
   "theorems": [
    "c187_vector",
    "c187_covariance",
    "c187_process",
    "c187_jacobian",
    "c187_places"
   ],
   "note": "The contents of a block are those of its accessor (C191)."
  },
  {
   "property": "C188",
   "status": "partial",
   "theorems": [
    "c188_round_trip_refuted",
    "c188_full_partial"
   ],
   "note": "The statement is false of the code: fromDense only takes vectors of the largest size. Proved for the largest counts."
  },
  {
   "property": "C189",
   "status": "partial",
   "theorems": [
    "c189_size_refuted",
    "c189_size_partial"
   ],
   "note": "The statement is false of the code: a variable member counts one for every element, not its components. Proved when elements have one component, as in rtk_ekf.yaml."
  },
  {
   "property": "C190",
   "status": "partial",
   "theorems": [
    "c190_initial_refuted",
    "c190_tile_refuted",
    "c190_blocks_partial"
   ],
   "note": "The statement is false of the code: blocks between different members are never written, and tile writes nothing, so the blocks of variable members are not either; in every composition some content of the memory shows it. Proved: the blocks of fixed members with themselves."
  },
  {
   "property": "C191",
   "status": "partial",
   "theorems": [
    "c191_accessor_refuted",
    "c191_accessor_partial"
   ],
   "note": "The statement is false of the code: parameters and arguments stand in the orders of two different Python sets, so that two variable members may get their counts interchanged. Proved for at most one variable member, or two with one counter. (In rtk_ekf the two counts of fix and hold are checked to be equal.)"
  },
  {
   "property": "C192",
   "status": "partial",
   "theorems": [
    "c192_gate_refuted",
    "c192_check_refuted",
    "c192_gate_partial",
    "c192_check_partial"
   ],
   "note": "The statement is false of the code: of fewer rows than the largest number, the rest of the residual, of the Jacobian and of the inverse innovation is never written and yet used. Proved when the rest is zero or there is none. The gate over the real numbers."
  },
  {
   "property": "C193",
   "status": "partial",
   "theorems": [
    "c193_finite_refuted",
    "c193_finite_partial"
   ],
   "note": "The statement is false of the code: infinities pass. Proved: finite numbers pass and NaN does not."
  },
  {
   "property": "C194",
   "status": "proved",
   "theorems": [
    "c194_close",
    "c194_quadratic"
   ],
   "note": "Over the real numbers: rounding is left out."
  },
  {
   "property": "C195",
   "status": "partial",
   "theorems": [
    "c195_earth_refuted",
    "c195_blind_refuted",
    "c195_identity_partial",
    "c195_off_diagonal"
   ],
   "note": "The statement is false of the code: the step is absolute, so at 6378137 the Jacobian is 2 percent off, and beyond 2^27 it is zero for every function. Proved: the error of the identity is below 2^(k-52)/eps within 2^k of the origin."
  },
  {
   "property": "C196",
   "status": "proved",
   "theorems": [
    "c196_product",
    "c196_inverse",
    "c196_fixed_step",
    "c196_rotated"
   ],
   "note": "Over the real numbers: rounding is left out."
  },
  {
   "property": "C197",
   "status": "partial",
   "theorems": [
    "c197_ends_refuted",
    "c197_ends_partial"
   ],
   "note": "The statement is false of the code: a positive step below a nanosecond adds nothing and the loop never ends. Proved for steps of a nanosecond or more, start within 2^60 s, and fewer than 2^31 steps."
  },
  {
   "property": "C198",
   "status": "proved",
   "theorems": [
    "c198_width",
    "c198_characters",
    "c198_filled",
    "c198_complete"
   ],
   "note": "Rounding of the quotients is left out."
  },
  {
   "property": "C199",
   "status": "partial",
   "theorems": [
    "c199_start_refuted",
    "c199_long_refuted",
    "c199_left_partial"
   ],
   "note": "The statement is false of the code: infinities, NaN and values beyond an int are converted to int before the first step is done and early in long runs. Proved: exact when the time left is below 2^31 ms. Rounding of the quotients is left out."
  },
  {
   "property": "C200",
   "status": "partial",
   "theorems": [
    "c200_narrow_refuted",
    "c200_wide_refuted",
    "c200_within",
    "c200_reached_partial"
   ],
   "note": "The statement is false of the code: the width is converted to int. Proved: within the interval always, all of it for whole widths. Over the real numbers: rounding is left out."
  },
  {
   "property": "C201",
   "status": "partial",
   "theorems": [
    "c201_once_refuted",
    "c201_pure_partial"
   ],
   "note": "The statement is false of the code: the argument is evaluated twice. Proved for expressions whose second evaluation repeats the first."
  },
  {
   "property": "C202",
   "status": "partial",
   "theorems": [
    "c202_severe_refuted",
    "c202_shown_partial"
   ],
   "note": "The statement is false of the code: error and fatal compare with WARN. Proved for the other functions, and for all at levels up to WARN."
  },
  {
   "property": "C203",
   "status": "proved",
   "theorems": [
    "c203_sorted",
    "c203_kept",
    "c203_dropped"
   ],
   "note": "Sessions of up to 2^50 ns from the start, as long as the process does not end (C81)."
  },
  {
   "property": "C204",
   "status": "partial",
   "theorems": [
    "c204_enable",
    "c204_rate",
    "c204_independent_partial",
    "c204_survey_refuted",
    "c204_survey_partial"
   ],
   "note": "The statement is false of the code: startSurveyIn does not clear its message and sends what earlier calls left there, beginning with the version byte. Proved: exact frames for enableMessage and setNavRate, independence of earlier calls for all but startSurveyIn, and the three fields that startSurveyIn does write (its limit is 0.3 mm, not the 3 cm of the comment)."
  },
  {
   "property": "C205",
   "status": "partial",
   "theorems": [
    "c205_unset_refuted",
    "c205_answered_partial"
   ],
   "note": "The statement is false of the code: disableNmea branches on major_version_ before it has a value. Proved: after an answer with a version, what is written depends on the answer only."
  },
  {
   "property": "C206",
   "status": "partial",
   "theorems": [
    "c206_set_refuted",
    "c206_word_refuted",
    "c206_get_refuted",
    "c206_front_partial",
    "c206_word_partial"
   ],
   "note": "The statement is false of the code: for every key of one or two bytes the message of 12 bytes is not a list of keys with values, for keys of four bytes and size 4 the value sent is 0, and getConfiguration asks for the key 0 twice besides. Proved: the message begins with header, key and value, zeros following; four-byte values announced with size 2 are sent correctly."
  },
  {
   "property": "C207",
   "status": "partial",
   "theorems": [
    "c207_serial_refuted",
    "c207_new_refuted",
    "c207_usb_partial"
   ],
   "note": "The statement is false of the code: PORT_USB | PORT_UART1 is PORT_USB, the character format is written into the flags, and the messages to new receivers are malformed (C206). Proved: on the USB port of old receivers the masks are right."
  },
  {
   "property": "C208",
   "status": "partial",
   "theorems": [
    "c208_model_refuted",
    "c208_only_partial"
   ],
   "note": "The statement is false of the code: 4 g for old receivers, 1 g for new ones. Proved: on old receivers nothing else is applied."
  },
  {
   "property": "C209",
   "status": "partial",
   "theorems": [
    "c209_version_partial",
    "c209_silent_partial",
    "c209_late_refuted",
    "c209_stale_refuted",
    "c209_long_refuted"
   ],
   "note": "The statement is false of the code: the structure takes 30 strings of 10 bytes for strings of 30 bytes, so that strings from the eighth on are not seen; bytes beyond the end of the message are searched too; a part of five digits is read beyond an array. Proved: in one of the first seven strings, with parts of at most four digits and nothing else that looks like a version, the version is right; with nothing that looks like one the old version stays."
  },
  {
   "property": "C210",
   "status": "partial",
   "theorems": [
    "c210_name_partial",
    "c210_long_refuted"
   ],
   "note": "The statement is false of the code: a name of ten or more characters leaves the array without a terminating zero. Proved for shorter names in the last place that looks like a name, in the first seven strings."
  },
  {
   "property": "C211",
   "status": "partial",
   "theorems": [
    "c211_values_partial",
    "c211_values_refuted"
   ],
   "note": "The statement is false of the code: C212 to C215 are its four exceptions. Proved of all programs without q *= q, quaternions made from expressions, dual quaternions of eight numbers and copies of error states. Over the real numbers: rounding is left out."
  },
  {
   "property": "C212",
   "status": "partial",
   "theorems": [
    "c212_multiply_partial",
    "c212_square_wrong",
    "c212_multiply_refuted"
   ],
   "note": "The statement is false of the code: q *= q is wrong for every quaternion with a first vector part whose square has another scalar part than it. Proved for different objects (see also C211). Over the real numbers: rounding is left out."
  },
  {
   "property": "C213",
   "status": "partial",
   "theorems": [
    "c213_scalars_partial",
    "c213_scalars_refuted"
   ],
   "note": "The statement is false of the code: real() and dual() are the identity whatever the numbers. Proved: the eight numbers are there, and a copy has the right parts."
  },
  {
   "property": "C214",
   "status": "partial",
   "theorems": [
    "c214_copy_partial",
    "c214_copy_shared",
    "c214_copy_refuted"
   ],
   "note": "The statement is false of the code: alpha, beta and gamma of a copy look at the original. Proved: the copy is right when made."
  },
  {
   "property": "C215",
   "status": "partial",
   "theorems": [
    "c215_expression_gone",
    "c215_expression_refuted"
   ],
   "note": "The statement is false of the code for every expression: the temporary is gone after the statement."
  },
  {
   "property": "C216",
   "status": "partial",
   "theorems": [
    "c216_copy_partial",
    "c216_size_partial",
    "c216_push_refuted",
    "c216_size_refuted"
   ],
   "note": "The statement is false of the code: the copy works on the slots of the original, and its size() on the head of the original. Proved: contents of both under all sequences of removals; size() of the copy while only the copy gives objects out."
  },
  {
   "property": "C217",
   "status": "partial",
   "theorems": [
    "c217_ended_partial",
    "c217_ended_wrong",
    "c217_ended_refuted"
   ],
   "note": "The statement is false of the code for every buffer that holds an object when copied. Proved for empty ones."
  },
  {
   "property": "C218",
   "status": "proved",
   "theorems": [
    "c218_items",
    "c218_ids",
    "c218_classes"
   ],
   "note": "For programs that compile and name objects that are there; the bodies of the factors are not defined in the code."
  },
  {
   "property": "C219",
   "status": "partial",
   "theorems": [
    "c219_lists_partial",
    "c219_lists_refuted"
   ],
   "note": "The statement is false of the code: making a factor does not put it on the lists of its states. Proved: what is on a list was put there by the caller."
  },
  {
   "property": "C220",
   "status": "proved",
   "theorems": [
    "c220_first"
   ],
   "note": "The members imu_bias_, p_b2g_ and T_r2n_, which nothing reads, are left out."
  },
  {
   "property": "C221",
   "status": "partial",
   "theorems": [
    "c221_nearest",
    "c221_rotation_partial",
    "c221_near",
    "c221_mirrored",
    "c221_rotation_refuted",
    "c221_motion"
   ],
   "note": "The statement is false of the code for matrices with a negative determinant: the nearest orthonormal matrix is a mirror. Proved: nearest of all orthonormal matrices; a rotation when the determinant is positive, as it is for every matrix nearer than 1 to a rotation. The decomposition of Eigen is an argument, with what Eigen promises of it as a hypothesis. Over the real numbers: rounding is left out."
  },
  {
   "property": "C222",
   "status": "proved",
   "theorems": [
    "c222_fixed",
    "c222_twice",
    "c222_same",
    "c222_turned"
   ],
   "note": "The decomposition of Eigen is an argument, with what Eigen promises of it as a hypothesis. Over the real numbers: rounding is left out."
  },
  {
   "property": "C223",
   "status": "partial",
   "theorems": [
    "c223_alone_partial",
    "c223_one_thread",
    "c223_orthonormal",
    "c223_threads_refuted"
   ],
   "note": "The statement is false of the code: the solver is shared, and a call can give the matrix of another thread. Proved for calls that do not overlap and for one thread; in every schedule of whole steps the result is orthonormal. Over the real numbers: rounding is left out."
  },
  {
   "property": "C224",
   "status": "partial",
   "theorems": [
    "c224_in_turn_partial",
    "c224_shared",
    "c224_refuted"
   ],
   "note": "The statement is false of the code: each type has a static engine of its own, all in the same state. Proved: within a purpose every number is used once. Over the real numbers: rounding is left out."
  },
  {
   "property": "C225",
   "status": "partial",
   "theorems": [
    "c225_satellites_partial",
    "c225_goes_on",
    "c225_repeat_refuted"
   ],
   "note": "The statement is false of the code: the static engines go on where the last simulation left them. Proved for the noise of the satellites. Over the real numbers: rounding is left out."
  },
  {
   "property": "C226",
   "status": "partial",
   "theorems": [
    "c226_strength_partial",
    "c226_noise",
    "c226_strength_refuted"
   ],
   "note": "The statement is false of the code: the biases walk with the strength of the noise of the readings. Proved: exactly when right. Over the real numbers: rounding is left out."
  },
  {
   "property": "C227",
   "status": "partial",
   "theorems": [
    "c227_bias",
    "c227_clock",
    "c227_one",
    "c227_spread_partial",
    "c227_rate",
    "c227_spread_refuted"
   ],
   "note": "The statement is false of the code: the noise is scaled with the time and not with its square root. Proved: right for samples once a second, and the variance in all cases. Over the real numbers: rounding is left out."
  },
  {
   "property": "C228",
   "status": "proved",
   "theorems": [
    "c228_integral",
    "c228_steady"
   ],
   "note": "Over the real numbers: rounding is left out."
  },
  {
   "property": "C229",
   "status": "proved",
   "theorems": [
    "c229_cycles"
   ],
   "note": "The offsets are arguments, drawn by std::rand. Over the real numbers: rounding is left out."
  },
  {
   "property": "C230",
   "status": "partial",
   "theorems": [
    "c230_equal_partial",
    "c230_pooled_partial",
    "c230_equal_refuted",
    "c230_array_refuted"
   ],
   "note": "The statement is false of the code: addresses are compared, and the language lets equal literals have different ones. Proved: equal errors made from literals say the same; the converse where literals are pooled."
  },
  {
   "property": "C231",
   "status": "partial",
   "theorems": [
    "c231_keeps_partial",
    "c231_array_refuted"
   ],
   "note": "The statement is false of the code: create accepts arrays that are not constant. Proved for errors made from literals, as all in the repository are."
  },
  {
   "property": "C232",
   "status": "partial",
   "theorems": [
    "c232_ok_partial",
    "c232_message_refuted"
   ],
   "note": "The statement is false of the code: an empty message is accepted. Proved: ok() exactly for none()."
  },
  {
   "property": "C233",
   "status": "partial",
   "theorems": [
    "c233_prints_partial",
    "c233_stops",
    "c233_prints_refuted"
   ],
   "note": "The statement is false of the code: none() writes a null pointer, which the standard leaves undefined and after which libstdc++ (modelled) writes nothing. Proved: right up to the first none(), and nothing after it."
  },
  {
   "property": "C234",
   "status": "partial",
   "theorems": [
    "c234_means_partial",
    "c234_first",
    "c234_means_refuted"
   ],
   "note": "The statement is false of the code for arguments that use a variable called err, which is read before it is set. Proved for all others."
  },
  {
   "property": "C235",
   "status": "partial",
   "theorems": [
    "c235_result_partial",
    "c235_value",
    "c235_none",
    "c235_result_refuted"
   ],
   "note": "The statement is false of builds with DISABLE_CHECK. Proved for builds with checks, where none() ends the process."
  },
  {
   "property": "C236",
   "status": "proved",
   "theorems": [
    "c236_answers"
   ],
   "note": "The objects read into have the types and sizes that were logged."
  },
  {
   "property": "C237",
   "status": "partial",
   "theorems": [
    "c237_all_partial",
    "c237_first_partial",
    "c237_twice",
    "c237_late_refuted"
   ],
   "note": "The statement is false of the code: read drops the streams that have no callback, and a callback set later gets nothing. Proved for callbacks set before the first read; and at every moment the records given are the first of the stream."
  },
  {
   "property": "C238",
   "status": "partial",
   "theorems": [
    "c238_other_keys_partial",
    "c238_second_refuted",
    "c238_times_refuted"
   ],
   "note": "The statement is false of the code: open resets nothing, and a stream of the first log hides the one of the second. Proved for keys that the first log has not."
  },
  {
   "property": "C239",
   "status": "proved",
   "theorems": [
    "c239_lines",
    "c239_streams",
    "c239_types"
   ],
   "note": "The type and the satellite on the line are left out; times are within the range of the model's clock. Over the real numbers: rounding is left out."
  },
  {
   "property": "C240",
   "status": "partial",
   "theorems": [
    "c240_accepted_partial",
    "c240_accepted_refuted"
   ],
   "note": "The statement is false of the code when the two hours end between the two readings of the clock. Proved: off by at most the time between the two, and accepted if the ephemeris is not newer than the record."
  },
  {
   "property": "C241",
   "status": "proved",
   "theorems": [
    "c241_once",
    "c241_queues",
    "c241_loads",
    "c241_mismatch"
   ],
   "note": "Records are those that the reader hands over; their constellations are those of their streams, or the process ends."
  },
  {
   "property": "C242",
   "status": "partial",
   "theorems": [
    "c242_again_partial",
    "c242_again_refuted"
   ],
   "note": "The statement is false of the code for all logs: a sample then reads past the end of the offsets. Proved: the satellites themselves hold what both logs say."
  },
  {
   "property": "C243",
   "status": "partial",
   "theorems": [
    "c243_copy_partial",
    "c243_outlives",
    "c243_copy_refuted"
   ],
   "note": "The statement is false of the code when the original is gone: the pointers of a copy go to the satellites of the original. Proved as long as it lives."
  },
  {
   "property": "C244",
   "status": "proved",
   "theorems": [
    "c244_state",
    "c244_calls",
    "c244_order"
   ],
   "note": "Callbacks do not change the simulator."
  },
  {
   "property": "C245",
   "status": "proved",
   "theorems": [
    "c245_left",
    "c245_right",
    "c245_limit",
    "c245_frames"
   ],
   "note": "For values that are quaternions; other groups are not modelled. Over the real numbers: rounding is left out."
  },
  {
   "property": "C246",
   "status": "partial",
   "theorems": [
    "c246_sign_partial",
    "c246_sign_refuted"
   ],
   "note": "The statement is false of the code when the function turns by more than about 8e-6 radians between the two points and the sign changes there. Proved for smaller turns. Over the real numbers: rounding is left out."
  },
  {
   "property": "C247",
   "status": "proved",
   "theorems": [
    "c247_hstack",
    "c247_vstack"
   ],
   "note": "The comma initializer is that of Eigen 3.3; sizes do not overflow."
  },
  {
   "property": "C248",
   "status": "partial",
   "theorems": [
    "c248_refused_partial",
    "c248_refused_refuted"
   ],
   "note": "The statement is false of builds with NDEBUG, in which the assertions are gone. Proved for builds without."
  },
  {
   "property": "C249",
   "status": "partial",
   "theorems": [
    "c249_copies_partial",
    "c249_copies_refuted"
   ],
   "note": "The statement is false of the code for all matrices that have entries: nothing is ever written to the result. Proved: the result has the right size."
  },
  {
   "property": "C250",
   "status": "partial",
   "theorems": [
    "c250_parts_partial",
    "c250_large_refuted",
    "c250_alias_refuted"
   ],
   "note": "The statement is false of the code for entries whose whole part is not an int, and when intpart is x itself. Proved for all others, on doubles."
  },
  {
   "property": "C251",
   "status": "partial",
   "theorems": [
    "c251_sorts_partial",
    "c251_nan_refuted"
   ],
   "note": "The statement is false of the code for vectors with NaN beside different numbers: std::sort then has no defined behaviour. Proved for all vectors without NaN."
  },
  {
   "property": "C252",
   "status": "partial",
   "theorems": [
    "c252_lists_partial",
    "c252_lists_refuted"
   ],
   "note": "The statement is false of the code: argsort gives the place of each entry (C251), which is the inverse. Proved for permutations that are their own inverse. The uses in the code want the places."
  },
  {
   "property": "C253",
   "status": "proved",
   "theorems": [
    "c253_rotations",
    "c253_vectors"
   ],
   "note": "A limit, which says nothing of the fixed step 1e-8 of left_jac and the others; for the size of the error there see C196. Over the real numbers: rounding is left out."
  },
  {
   "property": "C254",
   "status": "partial",
   "theorems": [
    "c254_after_partial",
    "c254_mixed_partial",
    "c254_before_refuted"
   ],
   "note": "The statement is false of the code for callbacks set before opening: they are accepted, and reading does just what it does without them. Proved for those set after opening, whatever was set before. The start of the log is that of openLog; that the streams read are those of the directory is C34."
  },
  {
   "property": "C255",
   "status": "proved",
   "theorems": [
    "c255_keeps",
    "c255_order"
   ],
   "note": "Used by the tests, as the way to the library they compare with. toe and toc of Kepler ephemerides are set with the same expression."
  },
  {
   "property": "C256",
   "status": "partial",
   "theorems": [
    "c256_defined_partial",
    "c256_week_refuted",
    "c256_date_refuted"
   ],
   "note": "The statement is false of the code for every time: both assignments are to sec. Proved: nothing overflows in the GPS weeks 0 to 3549. gps2date is any function of the week and the second."
  }
 ]
}