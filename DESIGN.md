# Verified model of rtk_factor_graph: design

The source under `/repo` is C++14 with a Python code generator. It is read as text. Nothing in
`/repo` is compiled, run or changed. The model is written in Gallina (Coq 8.16.1) under
`rocq/theories`, function by function; every model definition cites the file and lines it models.

## Trusted base

* Coq's kernel (`coqc` 8.16.1, and `coqchk` over the compiled files).
* The axioms reported by `Print Assumptions` for each theorem. The table at the end of this file is
  generated from the output of `Print Assumptions`. Only axioms of the Coq standard library appear. They
  come from the real-number library, and from Flocq's use of it for doubles. Theorems about integers, bytes,
  lists, strings and symbols are closed under the global context. Theorems about times in doubles, choice of
  ephemerides, rotations, rigid transforms, geodesy, orbits, atmosphere, integer ambiguities, controllers,
  filters, factors, simulation and derivatives are not.
* The faithfulness of the transcription: that each Gallina definition says what the cited C++ or
  Python lines do. This is by inspection, and it is what the comments in the model files document.
* The specification files (`*Spec.v`), which state what is proved without using the model.

## Modelling conventions

* Fixed-width integers are `Z` or `N` with explicit `mod 2^k` where wrap-around is defined behaviour
  in C++, and with an explicit failure outcome where overflow is undefined behaviour. Where a theorem
  assumes the absence of overflow the assumption is a stated hypothesis.
* Bytes are `N` (or `Z`) below 256; that bound is a hypothesis or an invariant, never an axiom.
* Undefined behaviour (destroying a raw slot, writing past a buffer, `front()` of an empty vector)
  is a distinct outcome of the model. A theorem that excludes it says so.
* Doubles: code whose logic does not depend on rounding is modelled over exact integers, rationals
  or reals; this is stated in the comment of each definition. Serialisation treats a double as its
  8-byte bit pattern. No claim is made about floating-point rounding unless a theorem says so.
* Unbounded loops are structural recursion over the input list, or fuel-indexed with a separate
  theorem that enough fuel exists.
* A property that the code violates is kept in the list. A theorem `..._refuted` gives a concrete
  input on which the faithful model breaks it, and a companion theorem proves the strongest true
  part. Its MANIFEST status is `partial`.

## File layout

For each area `X`: `XModel.v` (transcription), `XSpec.v` (independent specification, where it is not
just arithmetic), `XProofs.v` (lemmas), `XProps.v` (the property theorems, closed by `exact`, each
followed by `Print Assumptions`, and an `Example` showing that a concrete case meets the hypotheses).

`seeded/LOG.jsonl` records wrong programs tried against the theorems: one changed definition each, in a copy
outside of the repository. `proof_broken_at` is the lemma at which the build stopped; `theorems_failed` lists the
property theorems that depend on that lemma. Edits written as `[old -> new]` between their surroundings were
made by a script, one for every definition of the model not edited by hand; entries whose claim is `equivalent`
do not change what the definition computes.


## Properties: what is modelled and how it is proved

### C01 Time comparisons agree with the instant they denote

For any two UTCTime values whose nanosecond part is in [0, 1e9), each of <, >, ==, !=, <= and >= returns exactly the result of comparing the instants sec*1e9+nsec as integers.

*Model and proof.* Model each operator literally over Z. Spec: comparison of sec*1e9+nsec. `<`, `>`, `==`, `!=` proved; `<=` and `>=` refuted with a same-second witness, and characterised exactly (they compare whole seconds only).

*Status.* partial. Theorems: `c01_strict_and_equality`, `c01_le_refuted`, `c01_le_ge_partial`. The statement is false of the code: <= and >= compare whole seconds only. <, >, == and != are exact; <= and >= are characterised exactly as comparisons of the second count.

### C02 Adding and subtracting times is exact and keeps the representation normalised

For normalised UTCTime values a and b with no 64-bit overflow, a+b and a-b denote exactly the sum and difference of the instants, the result is again normalised, and (a-b)+b == a.

*Model and proof.* Model wrapNsec and the operators over Z with explicit int64 overflow as an undefined outcome. Proof by lia.

*Status.* proved. Theorems: `c02_add_exact`, `c02_sub_exact`, `c02_sub_then_add`, `c02_add_sub_int_exact`, `c02_constructor_normalises`. int64 overflow of the second count is an explicit undefined outcome; the hypotheses exclude it.

### C03 A GPS week and time of week convert to the right instant

UTCTime::fromGPS(week, tow_ms) denotes the instant GPS epoch + week*604800 s + tow_ms ms, and GpsWeek / GpsTow of the result give week and tow back.

*Model and proof.* Model with int32/int64 arithmetic, overflow as an undefined outcome. Full statement refuted for tow_ms not a multiple of 1000 (milliseconds are scaled by 1e9 instead of 1e6) and overflow shown for weeks >= 3551. Proved: whole-second times of week convert exactly and round-trip.

*Status.* partial. Theorems: `c03_fromGPS_refuted`, `c03_fromGPS_error`, `c03_fromGPS_whole_seconds_partial`, `c03_fromGPS_overflows`. The statement is false of the code: leftover milliseconds are scaled by 1e9 instead of 1e6 and 32-bit overflow occurs from week 3551. The exact error is stated; whole seconds are proved exact.

### C04 A GLONASS time of day is placed on the reference day

UTCTime::fromGlonassTimeOfDay(ref, tod_ms) denotes an instant on the same Moscow-time day as ref, exactly tod_ms milliseconds after its midnight.

*Model and proof.* Same treatment as fromGPS: exact for whole seconds; refuted for fractional seconds.

*Status.* partial. Theorems: `c04_glonass_refuted`, `c04_glonass_whole_seconds_partial`. Same millisecond fault as C03; proved for whole seconds.

### C05 Quantised time comparisons are mutually consistent

For any two times exactly one of q<t, q==t, q>t holds; q<=t is (q<t or q==t), q>=t is (q>t or q==t), q!=t is the negation of q==t; swapping the operands mirrors the result; and times further apart than half the quantisation step compare as the exact times do.

*Model and proof.* Model with IEEE double arithmetic (Flocq's binary64) for toSec and the comparison with half a step. Monotonicity of rounding plus the two boundary values reduces each operator to an exact integer comparison of nanosecond differences; trichotomy, mirror laws and the failure of transitivity follow.

*Status.* proved. Theorems: `c05_quantized_comparisons_exact`, `c05_quantized_mirror`, `c05_quantized_trichotomy`, `c05_quantized_eq_not_transitive`. IEEE double arithmetic modelled with Flocq.

### C06 The circular buffer is a bounded double-ended queue

Starting from an empty CircularBuffer<T,N>, after any sequence of push/emplace at either end, pops (of a non-empty buffer) and clear, iteration from begin() to end(), size(), empty(), full(), front(), back() and operator[] report exactly the contents of a double-ended queue of capacity N-1 in which a push at one end of a full queue first discards the element at the other end.

*Model and proof.* Concrete model: slot array, head and tail indices wrapping modulo N. Spec: a list. Refinement proved by induction over the operation list; indexing lemma for every in-range i.

*Status.* proved. Theorems: `c06_buffer_is_bounded_deque`. Elements are treated as trivially copyable; lifetimes are C07.

### C07 The circular buffer destroys exactly the objects it holds

In any history, every destructor call is made on a slot holding a constructed element, and every element that leaves the buffer is destroyed exactly once.

*Model and proof.* Slots carry a constructed/raw tag; destroying a raw slot or assigning to one is an explicit fault outcome. Refuted for pop_back (destroys the slot past the end) and push_back (assigns to raw memory); proved for histories of emplace_back, emplace_front into a buffer with room, pop_front, element assignment and clear.

*Status.* partial. Theorems: `c07_pop_back_refuted`, `c07_push_back_refuted`, `c07_lifetimes_partial`. The statement is false of the code: pop_back destroys the raw slot past the end and leaks the last element; push_back and push_front assign to raw memory. Proved for the remaining operations.

### C08 Bit-field reads return exactly the addressed bits

getBit<len>(buf,pos) returns the unsigned integer formed by bits pos..pos+len-1 of the buffer, most significant first, and getBit<len,Signed> its two's-complement value; no byte outside those holding the field influences the result.

*Model and proof.* Model the byte loop with the truncating temporary type width. Spec: big-endian fold over a bit list. Proved for all widths 1..56 via a shift/mask lemma, unsigned and signed.

*Status.* proved. Theorems: `c08_getBit_reads_field`, `c08_getBit_signed_reads_field`, `c08_getBit_depends_only_on_field`. Widths 1..56 (above 56 the C++ temporary type does not exist). Reads outside the buffer are an explicit failure outcome of the model and are shown not to happen.

### C09 Bit-field writes change exactly the addressed bits

setBit<len>(buf,pos,data) leaves every bit outside [pos,pos+len) unchanged, and reading the field back yields data mod 2^len.

*Model and proof.* Model the backwards byte loop with masks in the temporary type. Spec on the bit list: take ++ field ++ drop.

*Status.* proved. Theorems: `c09_setBit_writes_field`, `c09_getBit_after_setBit`, `c09_setBit_preserves_other_fields`. Proved for widths 1..56; the data argument is a 32-bit value in the code, any value in the model.

### C10 GLONASS sign-magnitude fields decode correctly

getBitGlo<len>(buf,pos) is the magnitude in the low len-1 bits, negated when the first bit is set; every encodable value round-trips.

*Model and proof.* Corollary of the getBit theorem plus a round trip through the write model.

*Status.* proved. Theorems: `c10_getBitGlo_reads_field`, `c10_getBitGlo_round_trip`. The double result is modelled as the integer it holds; exact up to 53 bits, every use in the code is at most 27 bits.

### C11 The Galileo CRC is the CRC-24Q polynomial remainder

crc24(buf,len) equals the remainder of the message times x^24 modulo the CRC-24Q generator 0x1864CFB, for every message; it is additive over XOR of equal-length messages.

*Model and proof.* Model the 256-entry table literally and the fold. Spec: bit-serial long division over GF(2). Table checked entry by entry (complete finite domain), lifted to all strings by induction.

*Status.* proved. Theorems: `c11_crc24_is_remainder`, `c11_crc24_defined`, `c11_remainder_unique`, `c11_crc24_additive`. The 256-entry table is transcribed literally and checked entry by entry against polynomial division; lifted to messages of any length by induction.

### C12 The Galileo page check detects every burst error of up to 24 bits

If the bits of a protected message are corrupted in a non-empty span of at most 24 consecutive bits, the CRC changes; in particular every single-bit error is detected.

*Model and proof.* Follows from linearity and from x being invertible modulo the generator (odd constant term).

*Status.* proved. Theorems: `c12_burst_changes_crc`, `c12_burst_detected`. Proved for the message alone and for the message followed by its check bytes.

### C13 The GLONASS string check rejects damaged strings

If a GLONASS string passes gloTest, changing any one of its 77 information bits makes it fail; if it satisfies all eight parity equations, changing any two of its 85 bits makes it fail.

*Model and proof.* Model the masks literally, as linear functions over GF(2). Error detection reduces to properties of the parity columns, checked over the complete set of positions and pairs, lifted to all strings by linearity.

*Status.* proved. Theorems: `c13_gloTest_is_icd_rule`, `c13_single_error_rejected`, `c13_double_error_rejected`, `c13_flip_is_one_bit`. The masks and parity table are transcribed literally; gloTest is also proved equal to the acceptance rule of the GLONASS interface document.

### C14 Every UBX message that is sent is received intact

Feeding the bytes written by sendMessage(class,id,payload,len), for 1 <= len <= 2048, to an idle parser delivers exactly one message to the subscribed listeners with the same class, id and payload, and leaves the parser idle; this extends to any concatenation of messages, however it is split across receive_callback calls.

*Model and proof.* Model the byte automaton and the sender literally. Round-trip theorem by induction over the payload and the message list; chunking is fold_left_app.

*Status.* proved. Theorems: `c14_send_writes_frame`, `c14_frames_delivered`, `c14_listener_order`, `c14_subscription_exact`. Payload lengths 1..2048. Listeners get the whole buffer and no length, so the theorem speaks of the first len bytes. Callbacks are assumed not to re-enter the parser.

### C15 A UBX message with an empty payload is received

Feeding the bytes of a message with len == 0 to an idle parser delivers it and leaves the parser ready for the next message.

*Model and proof.* Refuted: after a zero length the automaton stays in the payload state for every continuation of the stream (proved for all streams), so nothing is delivered ever again.

*Status.* partial. Theorems: `c15_empty_payload_refuted`, `c15_empty_payload_blocks_forever`. The statement is false of the code: a zero length leaves the parser in the payload state for every continuation of the stream.

### C16 The UBX parser never stores outside its payload buffer

For any byte stream, every payload store is at an index below BUFFER_SIZE, and the write index never exceeds the announced length.

*Model and proof.* Out-of-range store is a fault outcome in the model; invariant over all streams.

*Status.* proved. Theorems: `c16_buffer_safe`. Out-of-range access is a failure outcome of the model and is shown unreachable.

### C17 Only frames with a valid checksum are delivered

Whenever a listener is called with (class,id,payload), the bytes consumed end with a complete frame: sync bytes, class, id, length, payload, and the two Fletcher checksum bytes computed over class..payload.

*Model and proof.* Invariant: the parser state determines the suffix of the consumed input; deliveries are tied to a suffix equal to the encoding of the message.

*Status.* proved. Theorems: `c17_only_valid_frames`, `c17_delivered_at_frame_end`. 

### C18 The UBX parser resynchronises after noise

Noise that does not contain the two-byte sync pattern (including across its boundary with earlier input) neither triggers a delivery nor prevents the next complete frame from being delivered.

*Model and proof.* Induction over the noise; combined with the round-trip theorem.

*Status.* proved. Theorems: `c18_noise_then_frame`. 

### C19 A GPS ephemeris decodes to the transmitted parameters

Feeding the three subframes that encode a set of broadcast parameters (with matching issue of data) to GPSEphemeris::parse, in any order, returns success on the last one and leaves every integer parameter and its scale exactly as encoded, with toe and toc at the encoded week and seconds.

*Model and proof.* Model word unpacking and the three field tables over integers (scale factors are recorded symbolically as powers of two, not multiplied in floating point). Spec: an independent encoder from the bit numbers 1 to 300 of IS-GPS-200. Round trip via the getBit theorem.

*Status.* partial. Theorems: `c19_decode_partial`, `c19_orders`, `c19_subframe3_first_lost`, `c19_any_order_refuted`. Every field is proved to hold the raw integer and scale factors of the bits that IS-GPS-200 assigns to it. Any order is false of the code: on a fresh object a subframe 3 received before the others is lost, because it is compared with the unset iode. Proved for every order in which subframe 3 is not first.

### C20 A GPS ephemeris never mixes issues of data

parse returns true only if the three subframes it combined all carry the same issue-of-data value.

*Model and proof.* Refuted: subframe 3's own issue of data is overwritten before the comparison. Proved part: the issue of data of subframes 1 and 2 agree.

*Status.* partial. Theorems: `c20_issue_mix_refuted`, `c20_zero_issue_refuted`, `c20_contents_partial`, `c20_always_defined`. The statement is false of the code (witnesses: two issues mixed after a success; issue number 0). What a success guarantees about each subframe's contents is proved for every history.

### C21 A GPS parse call reports success only when it used the given subframe

parse returns true only if the buffer it was given held a subframe with the right preamble and number 1, 2 or 3.

*Model and proof.* Refuted with a history in which a damaged subframe after a success returns true; proved for the first success.

*Status.* partial. Theorems: `c21_spurious_success_refuted`, `c21_first_success_partial`. The statement is false of the code: after a success, bytes that carry no ephemeris subframe make parse return true again. Proved for the first success.

### C22 Rejected GPS input leaves the ephemeris unchanged

A buffer that is too short, or whose subframe number is not 1, 2 or 3, or whose preamble is wrong, does not change any decoded parameter.

*Model and proof.* State-equality theorem on the model for each rejection branch.

*Status.* proved. Theorems: `c22_rejected_unchanged`, `c22_rejected_false`. 

### C23 Galileo pages failing the CRC or page structure are ignored

If the even/odd page flags, alert bit or CRC of a page pair do not check, parse returns false and leaves all decoded parameters unchanged.

*Model and proof.* State-equality theorem on the model.

*Status.* proved. Theorems: `c23_bad_page_ignored`, `c23_other_word_ignored`, `c23_bad_page_invisible`. Buffers of at least 32 bytes; the size argument is ignored by the code (C59).

### C24 A Galileo ephemeris is reported only when complete and consistent

parse returns true only if word types 0 to 5 have all been accepted since the last word of type 2 cleared them, and words 1 to 4 carry the same issue of data.

*Model and proof.* Invariant over the page history relating the collected flags to accepted words.

*Status.* proved. Theorems: `c24_complete_consistent`, `c24_reported`. Completeness is stated over the history of pages; the converse (the first complete consistent set is reported) is proved for weeks up to 2500.

### C25 A Galileo ephemeris carries the correct week

Whenever parse returns true, the week is the transmitted week plus 1024 rollovers, adjusted by at most one for a toe near the week boundary.

*Model and proof.* Refuted: a second success without new week data adds 1024 again. Proved for a first success.

*Status.* partial. Theorems: `c25_week_refuted`, `c25_week_partial`. The statement is false of the code: each further success without a new word 0 adds 1024 weeks again. Proved for the first success after each word 0, relative to the time of week the object holds (which is wrong in general, C26).

### C26 Galileo word bits come from the page data field

The 128 data bits decoded for a word are the 112 data bits of the even part followed by the 16 data bits of the odd part.

*Model and proof.* Refuted for the last 16 bits (wrong source offset); proved for the first 112 bits.

*Status.* partial. Theorems: `c26_tail_bits_refuted`, `c26_contents_partial`, `c26_tail_partial`, `c26_when_tails_agree_partial`. The statement is false of the code: the last 16 data bits are taken from bits 234-249 of the page pair instead of 130-145. Every parameter in the first 112 bits is proved right for all histories; the six others are characterised exactly.

### C27 A GLONASS ephemeris is reported only from one superframe set of strings

parse returns true only on string 5 when strings 1 to 4 were accepted before it with the same time mark, with no string of another time mark in between.

*Model and proof.* History invariant over the string sequence.

*Status.* proved. Theorems: `c27_one_superframe`, `c27_always_reported`. Strings of at least 16 bytes given to a new object. The converse (a complete set is always reported) is proved as well.

### C28 Rejected GLONASS strings leave the ephemeris unchanged

A short buffer, a string failing gloTest, or a string number outside 1..5 returns false and changes no decoded parameter.

*Model and proof.* State-equality theorem per branch.

*Status.* proved. Theorems: `c28_rejected_unchanged`. Includes strings shorter than 16 bytes, failing the parity test, or with a number outside 1..5.

### C29 Logged values are read back unchanged

For every type with a serialiser, reading the bytes written for a value into an object gives every serialised member the value it had, leaves the other members alone and consumes exactly the bytes written, whatever follows them in the stream. A pose comes back with its rotation unchanged and its dual part computed from the written translation.

*Model and proof.* Byte-level codec model for a small type language (fixed-width integers, 8-byte floats as bit patterns, fixed arrays, records); one generic round-trip theorem instantiated for each type's field list.

*Status.* proved. Theorems: `c29_round_trip`, `c29_record_round_trip`, `c29_unlisted_kept`. The arithmetic of dual quaternions is a parameter of the codec: the theorem holds for any function giving three, respectively four, doubles. Vectors of dynamic size must be read into a vector of the same size.

### C30 The declared log layout matches the bytes in the log

For every list of loggable types, log_reader.py, using the layout in the .yml file, shows exactly the records that were logged: every stamp, member, vector element and matrix entry with the logged value.

*Model and proof.* The layout generator, make_dtype and numpy's reading of a record file are modelled. Proved for scalars, fixed vectors, times, measurements, quaternions, poses and jets; refuted for the three ephemerides, for matrices (column-major in Eigen, row-major in numpy) and for vectors of dynamic size.

*Status.* partial. Theorems: `c30_layout_partial`, `c30_ephemeris_refuted`, `c30_ephemeris_count_refuted`, `c30_matrix_refuted`, `c30_dynamic_refuted`. The statement is false of the code for ephemerides, matrices and vectors of dynamic size. Proved for the other loggable types, with distinct field names other than t, type, rows and cols.

### C31 A log replays every record of every stream in time order

Reading a log calls each stream's callback once for every record written to that stream, with the recorded stamp and value, in non-decreasing stamp order when each stream was written in non-decreasing order, and records of one stream in the order they were written.

*Model and proof.* Model the k-way merge over byte streams with the writer's encoding; refinement to a sorted merge of the record lists.

*Status.* proved. Theorems: `c31_all_records`, `c31_time_order`. The files may be opened in any order. A callback is modelled as reading one record into fresh objects of the logged types; values are copied as in C29.

### C32 A log truncated by a crash still replays every complete record

Cutting a stream file at any byte leaves a log from which every record that was written completely is replayed unchanged, and nothing else is replayed from it.

*Model and proof.* Proved: all complete records are replayed unchanged before anything else. Refuted: a cut inside the payload of a record delivers that record with missing bytes.

*Status.* partial. Theorems: `c32_incomplete_refuted`, `c32_complete_partial`, `c32_python_partial`. The statement is false of the code: a record cut in its payload is delivered with missing values. Proved: every complete record is delivered unchanged, and besides them at most one message, with the stamp of the record that was cut; the Python reader shows exactly the complete records.

### C33 Maintenance callbacks fire at their period during replay

During replay a maintenance callback is called at most once per record, never before its next due time, and each call moves its due time by exactly one period.

*Model and proof.* Transition-system model of the replay loop; invariant relating call count and due time.

*Status.* proved. Theorems: `c33_on_time`. For periods in [0, 2^32) seconds and times within 2^60 seconds of the epoch; a record up to 50 microseconds early counts as reaching the due time, as QuantizedTime does (C05).

### C34 In an amended log the newest version of each stream is used

Opening a log that amends others makes each stream available from the newest log in the chain that contains it, and the time span covers all logs in the chain.

*Model and proof.* Model openLog as recursion over the chain with emplace semantics (first insertion wins); spec: lookup in the first log containing the stream.

*Status.* proved. Theorems: `c34_newest`, `c34_python`. For chains of any length with non-empty sets of streams (see C77) and normalised times.

### C35 Distinct log keys have distinct stream names

Two different stream keys never map to the same stream file name.

*Model and proof.* Model decimal printing with the centred zero fill. Refuted with a pair of keys; proved for keys of equal digit count and for the named keys.

*Status.* partial. Theorems: `c35_collision_refuted`, `c35_distinct_partial`. The statement is false of the code: keys 100 and 1000 share a name. All pairs sharing a name are determined.

### C36 Log directory names sort in creation order

For two creation times in years 0..9999, the log ids compare lexicographically in the same order as the times, so choosing the greatest name chooses the newest log.

*Model and proof.* Model zero-padded formatting; lexicographic order of fixed-width digit strings equals order of the tuples.

*Status.* proved. Theorems: `c36_fields`, `c36_ids_sort`, `c36_latest`. The fields of gmtime are specified by the POSIX formula for seconds since the epoch.

### C37 Each satellite's ephemeris list stays sorted with one entry per reference time

After any sequence of addEph calls, the stored ephemerides are strictly increasing in time of ephemeris, and contain exactly the latest ephemeris added for each distinct time.

*Model and proof.* List model of the vector and the insertion loop; spec: finite map from toe to last ephemeris.

*Status.* proved. Theorems: `c37_almanac`, `c37_others`. For ephemerides whose reference time has nanoseconds in range and which pass the checks of addEph (others end the process).

### C38 The closest ephemeris is used

findClosestEphemeris(t) returns an ephemeris whose |t - toe| is minimal over all stored ephemerides, and never one that is not stored.

*Model and proof.* Model the reverse scan with early break over doubles. Refuted for two reference times a nanosecond apart 30 years away. Proved exactly within 2^22 s, and up to the resolution of a double for reference times of whole seconds.

*Status.* partial. Theorems: `c38_closest_refuted`, `c38_closest_partial`, `c38_whole_seconds_partial`. The statement is false of the code for far times, where rounded distances tie. Proved exactly within 2^22 s (48 days); for reference times of whole seconds proved up to the resolution of the distance.

### C39 The satellite manager keeps the most recently discovered satellites, once each

After any sequence of ephemeris callbacks, each constellation holds no satellite twice, at most 29 satellites, and getSat finds a satellite exactly if its number is among the held ones; receiving a 30th satellite removes exactly the one discovered first.

*Model and proof.* Model on top of the ring-buffer specification; invariant by induction over the callback list.

*Status.* proved. Theorems: `c39_roster`, `c39_held`, `c39_discovery`. On the model of the circular buffer itself. Ephemerides carry the number of their constellation, others end the process.

### C40 The estimator's result does not depend on arrival order

If two histories deliver the same set of measurements in different orders, with none rejected or expired, the final filter state is the same.

*Model and proof.* Model with arbitrary predict and update functions. Refuted: a measurement at the time of an existing state makes later ones of that time be applied twice. Proved for any two histories when times differ by more than 50.002 microseconds.

*Status.* partial. Theorems: `c40_order_refuted`, `c40_order_partial`. The statement is false of the code for measurements of the same time. Proved for accepted measurements more than 50.002 microseconds apart, in any order, for any functions as prediction and updates.

### C41 The estimator rejects what it cannot place

addMeasurement of a measurement older than the oldest retained state, or observing an unknown satellite, returns an error and leaves the filter state and the measurement buffer unchanged.

*Model and proof.* State-equality theorem on the model.

*Status.* partial. Theorems: `c41_before_oldest_refuted`, `c41_stale_partial`, `c41_unknown`, `c41_unchanged`. The statement is false of the code for measurements at most 50 microseconds older than the oldest state. The rest is proved for all reachable states of sessions up to 2^50 ns (13 days).

### C42 Ambiguity decorrelation is lossless

The LAMBDA reduction produces an integer matrix with determinant +-1, and the reduced covariance is exactly the original one transformed by it.

*Model and proof.* Model over exact rationals; invariant over the sequence of elementary operations.

*Status.* proved. Theorems: `c42_factors`, `c42_exists`, `c42_lossless`. Over the real numbers: rounding is left out. Determinant 1 or -1 is stated as: an inverse with integer entries.

### C43 The integer search returns the best integer vectors

search(n,...) returns integer vectors such that no other integer vector has a smaller weighted distance than the returned ones, in increasing order of distance.

*Model and proof.* Model the depth-first enumeration with fuel over rationals; prove soundness of pruning; termination stated separately.

*Status.* partial. Theorems: `c43_far_refuted`, `c43_best_partial`, `c43_ends`. The statement is false of the code when fewer candidates than asked for are nearer than the initial bound of 1e18 (a variance of 1e-20 does it): missing places hold the zero vector. Proved otherwise. Over the real numbers: rounding is left out.

### C44 Quaternion rotation is the rotation of its matrix

For every unit quaternion, rotp(v) equals R()*v and rota(v) equals R() transposed * v; both preserve lengths and inner products and are inverse to each other.

*Model and proof.* Model over Coq reals; polynomial identities by ring/nsatz with the unit constraint. Floating-point rounding is outside the model.

*Status.* proved. Theorems: `c44_matrix`, `c44_rotation`. Over the real numbers: rounding is left out.

### C45 Quaternion composition is associative and norm preserving

Multiplying quaternions is associative with identity and inverse, |p*q| = |p||q|, and rotating by p*q equals rotating by p then by q in the documented order.

*Model and proof.* Ring identities over reals.

*Status.* proved. Theorems: `c45_group`, `c45_order`. Over the real numbers: rounding is left out. rotp(p*q) is p first, rota(p*q) is q first.

### C46 Rigid transforms compose and invert correctly

For DQuat with unit real part built from a rotation and a translation: transforma and transformp are inverse to each other, preserve distances, translation() returns the given translation, and (A*B) transforms as A then B; the inverse transforms back.

*Model and proof.* Ring identities over reals under the unit and orthogonality constraints.

*Status.* proved. Theorems: `c46_rigid`, `c46_composition`. Over the real numbers: rounding is left out.

### C47 Rotation matrices convert back to the same quaternion up to sign

For every unit quaternion q, from_R(q.R()) is q or -q, whichever of the four branches is taken.

*Model and proof.* Case analysis over reals with sqrt.

*Status.* proved. Theorems: `c47_from_R`, `c47_matrix`. Over the real numbers: rounding is left out.

### C48 SE3 is a group acting on points

Composition of SE3 transforms is associative, inverse() is a two-sided inverse, transformp/transforma undo each other, and transformp respects composition.

*Model and proof.* Matrix identities over reals under orthogonality.

*Status.* proved. Theorems: `c48_group`, `c48_action`. Over the real numbers: rounding is left out.

### C49 NED and ECEF conversions are inverse rigid motions

For every reference position, ned2ecef(ecef2ned(p)) = p and distances are preserved; the reference point itself maps to the origin.

*Model and proof.* Corollary of the DQuat theorems with q_e2n modelled with real sin and cos.

*Status.* proved. Theorems: `c49_frame`, `c49_exists`. Over the real numbers: rounding is left out. Every reference but the centre of the Earth.

### C50 The PID output never exceeds its limit

For any history of calls, every value returned by PID::run lies in [-max, max].

*Model and proof.* Model over reals; saturation lemma and state invariant.

*Status.* partial. Theorems: `c50_nan_refuted`, `c50_limit_partial`, `c50_history_partial`. The statement is false of the code: finite inputs whose parts overflow give a result that is not a number. Proved: every result that is a number lies within the limits, and for moderate gains and inputs every history gives finite results within the limits.

### C51 Durations are printed faithfully

The elapsed/remaining time stamp printed by the progress bar determines the number of milliseconds shown.

*Model and proof.* Model the digit computation; refuted (days are dropped); proved for durations below one day.

*Status.* partial. Theorems: `c51_day_refuted`, `c51_reads_partial`, `c51_determines_partial`, `c51_fits`. The statement is false of the code from one day on: the number of days is divided twice and is never printed. Proved below one day.

### C52 String helpers lose nothing they should keep

split_string followed by joining with the delimiter restores the string up to one trailing delimiter, no piece contains the delimiter, and strip_string removes exactly the listed characters keeping the order of the rest.

*Model and proof.* List model of getline splitting and the filter loop.

*Status.* proved. Theorems: `c52_join`, `c52_pieces`, `c52_strip`, `c52_strip_only`. 

### C53 Symbolic simplification preserves the meaning of filter equations

The EKF code generator's algebraic simplification of a block expression does not change the matrix it evaluates to, for any values of the blocks.

*Model and proof.* Block expressions as trees, every constructor and every rewrite of reduce executable, with errors and endless loops as None; a value in real matrices. Products of blocks as lists: the rewrites permute them. Wrong simplifications are refuted with witnesses.

*Status.* partial. Theorems: `c53_value_refuted`, `c53_matrices_refuted`, `c53_ends_refuted`, `c53_value_partial`. The statement is false of the code: dt*A + A*B becomes dt*(A + B), repeated products are counted wrongly, and A*A*B + A*A*C is never finished. Proved for expressions without blocks of one row that repeat no product when multiplied out.

### C54 The block-sparse covariance computation equals the dense formula

Multiplying block matrices by skipping zero blocks and identity blocks, as the generator does, gives the same result as full matrix multiplication, for any sparsity pattern.

*Model and proof.* Block matrices as lists of rows of block expressions with the zero and identity short cuts; their dense matrix over the reals for any block sizes; sums, multiples, products, transposes and the formulas of the generated propagation.

*Status.* partial. Theorems: `c54_sum`, `c54_scale`, `c54_product`, `c54_transpose`, `c54_transition`, `c54_input`, `c54_covariance`, `c54_returns_refuted`, `c54_returns_partial`. Every result equals the dense formula; but products of 1 x 1 blocks raise an error (refuted), and returning is proved for products of blocks with other than one row.

### C55 The measurement update keeps the covariance symmetric and does not increase it

If the covariance is symmetric positive semidefinite before an update, it is after it, and the updated covariance is no larger than the previous one.

*Model and proof.* Abstract matrix model over an ordered field.

*Status.* proved. Theorems: `c55_update`, `c55_innovation`, `c55_gated`, `c55_mahal`. Over the real numbers: rounding is left out. Eigen's inverse is a parameter that inverts the innovation.

### C56 A damaged UBX frame is dropped and counted

If exactly one byte of the class, id, payload or checksum of a frame is changed in transit, the receiver calls no listener for it, counts one error, and is ready for the next frame.

*Model and proof.* The byte automaton of C14 fed with a frame whose check bytes do not match; one changed byte always changes the first Fletcher sum.

*Status.* proved. Theorems: `c56_bad_checksum_dropped`, `c56_one_byte_damage_dropped`. Damage to the two length bytes changes how many bytes are consumed and is not covered.

### C57 A GPS time converts to Coordinated Universal Time

UTCTime::fromGPS(week, tow_ms) is the UTC instant of that GPS time: GPS epoch + week*604800 s + tow_ms ms minus the 18 leap seconds by which GPS is ahead of UTC since 2017.

*Model and proof.* The model of C03 against a spec that subtracts the leap seconds. Refuted; every whole-second conversion is proved late by exactly 36 s, and elapsed times are proved exact.

*Status.* partial. Theorems: `c57_leap_seconds_refuted`, `c57_constant_bias`, `c57_elapsed_partial`. The statement is false of the code: the leap seconds are added, so every result is 36 s late. Elapsed times are exact.

### C58 Galileo health and data-validity flags come from their own bits

After a Galileo ephemeris is reported, e5b_hs, e1b_hs, e5b_dvs and e1b_dvs hold the fields of those names of the last word 5 received.

*Model and proof.* Bits of word 5 against the ICD. Refuted for the two validity flags (read one bit early); exact reading proved for all histories.

*Status.* partial. Theorems: `c58_validity_flags_refuted`, `c58_validity_flags_partial`. The statement is false of the code for the two data-validity flags; the health fields are right (c26_contents_partial).

### C59 Decoding Galileo pages is always well defined

parse(buf, size) never reads outside the buffer and never overflows, whatever object state and bytes it is given.

*Model and proof.* Out-of-range reads and signed overflow are failure outcomes of the model. Refuted (the size is ignored; repeated successes overflow the week arithmetic); proved for full buffers and weeks up to 2500.

*Status.* partial. Theorems: `c59_short_buffer_refuted`, `c59_repeated_success_refuted`, `c59_defined_partial`. The statement is false of the code. Proved for buffers of at least 32 bytes and week numbers up to 2500.

### C60 A Galileo ephemeris never takes another satellite's clock

When parse reports success, the clock parameters in the object come from a word 4 that names the object's satellite.

*Model and proof.* Histories of pages as in C24. Refuted: frame4 stores the parameters before comparing the satellite, and the collected flag of the previous word 4 is still set. Proved when every good word 4 names the satellite.

*Status.* partial. Theorems: `c60_foreign_clock_refuted`, `c60_own_clock_partial`. The statement is false of the code. Proved when every good word 4 passed to the object names its satellite.

### C61 A burst of up to 24 damaged bits never alters a Galileo ephemeris

If a good page pair is damaged within 24 consecutive transmitted bits (data or checksum), parse refuses it and leaves the object unchanged.

*Model and proof.* C12 carried through the code's re-packing of the page into the CRC buffer.

*Status.* proved. Theorems: `c61_burst_rejected`. 

### C62 A GLONASS ephemeris holds the transmitted parameters

When parse reports success, every position, velocity, acceleration, clock and health parameter of the object is the field the GLONASS interface document assigns to it (sign-magnitude, with its scale), taken from the last string of its number.

*Model and proof.* Specification numbers the bits 85..1 as the interface document does; the model reads them through getBit/getBitGlo after the code's byte swapping.

*Status.* proved. Theorems: `c62_contents`. Scaled doubles are kept as raw integer and list of factors.

### C63 GLONASS times are on the day the satellite names

When parse reports success, toe and tof are the instants of the immediate data: the day N_T (string 4) of the four-year period N_4 (string 5), at t_b and t_k Moscow time.

*Model and proof.* Refuted: convertTime takes the almanac day N_A of string 5. The exact instants are proved in terms of N_A.

*Status.* partial. Theorems: `c63_day_refuted`, `c63_day_partial`. The statement is false of the code: the almanac day N_A is used instead of N_T.

### C64 Decoding GLONASS strings is always well defined

parse(buf, size) never reads outside the buffer and never overflows, whatever the history and the bytes.

*Model and proof.* Signed overflow and out-of-range reads are failure outcomes of the model. Refuted from four-year period 19 (year 2068) on; proved for all histories with N_4 at most 18.

*Status.* partial. Theorems: `c64_overflow_refuted`, `c64_defined_partial`. The statement is false of the code for N_4 >= 19. Proved for every history with N_4 <= 18.

### C65 One or two damaged bits never alter a GLONASS ephemeris

A good string in which one of the 77 information bits is damaged, or any two of the 85 bits of an undamaged string, is refused by parse and the object keeps its state.

*Model and proof.* C13 carried through parse.

*Status.* proved. Theorems: `c65_one_bit_rejected`, `c65_two_bits_rejected`. 

### C66 The GLONASS carrier frequency is one of the assigned channels

After a success, getWavelength(0) and getWavelength(1) use a frequency 1602 MHz + k 562.5 kHz or 1246 MHz + k 437.5 kHz with a channel k from -7 to 6.

*Model and proof.* Refuted: the orbital slot number of string 4 is used as the channel. The frequency used is proved exactly.

*Status.* partial. Theorems: `c66_band_refuted`, `c66_frequency_partial`. The statement is false of the code: the orbital slot number is used as the frequency channel. The exact frequency is proved.

### C67 No member of a logged object is lost

Reading a logged object back into a fresh object of its class gives an object equal to the logged one in every data member.

*Model and proof.* Refuted for ephemerides, whose reception flags are not listed. Proved for the measurement classes.

*Status.* partial. Theorems: `c67_members_lost_refuted`, `c67_measurements_partial`. The statement is false of the code for ephemerides. Proved for ImuSample and GnssObservation.

### C68 The estimates logged by post_process can be loaded

The records of the ESTIMATE stream written by post_process are shown unchanged by log_reader.py.

*Model and proof.* Refuted: the call logs the covariance after the eight declared values, so the records are longer than declared. Proved for the eight declared values.

*Status.* partial. Theorems: `c68_estimate_refuted`, `c68_without_covariance_partial`. The statement is false of the code. Proved for the eight declared values without the covariance.

### C69 Adding seconds to a time is exact to the nanosecond

t + x and t - x with a double x give a normalised time whose distance from t is x seconds to within one nanosecond plus the rounding of x times 10^9; subtracting what was added gives t back exactly; a greater x never gives an earlier time.

*Model and proof.* IEEE-754 arithmetic through Flocq; integer conversions that do not fit are undefined.

*Status.* proved. Theorems: `c69_add`, `c69_sub`, `c69_add_sub`, `c69_monotone`. 

### C70 A time constructed from seconds is normalised

UTCTime(x) for a double x is normalised, within a nanosecond of x seconds after the epoch, and equal to any other time denoting the same instant.

*Model and proof.* Refuted for negative x with a fraction: UTCTime(-0.5) differs from UTCTime(0.0) - 0.5. Proved for x >= 0.

*Status.* partial. Theorems: `c70_negative_refuted`, `c70_partial`. The statement is false of the code for negative values with a fraction. Proved for x >= 0.

### C71 Reading a log always returns

LogReader::read returns for every log directory that could be opened, whichever files of it are missing or damaged.

*Model and proof.* Refuted for a missing stream file: no number of steps ends the loop. Proved for arbitrary bytes in the files.

*Status.* partial. Theorems: `c71_missing_file_refuted`, `c71_returns_partial`. The statement is false of the code: if the file of a subscribed stream is missing and the uninitialised key has no callback, read never returns. Proved for files with arbitrary contents whose key agrees with a subscribed one.

### C72 C++ and Python open the same log of a directory

Given a directory of logs, LogReader and log_reader.py open the newest log, and both accept the path of a log written with or without a slash at its end.

*Model and proof.* Refuted for directories with other entries (Python fails, C++ may choose an archive) and for a path ending in a slash. Proved if all entries are logs.

*Status.* partial. Theorems: `c72_other_file_refuted`, `c72_archive_refuted`, `c72_slash_refuted`, `c72_same_partial`. The statement is false of the code. Proved for directories holding only logs.

### C73 Opening a log always returns

LogReader::open returns or fails for every set of logs and amendments that Logger can write.

*Model and proof.* Refuted: a log can amend itself. Opening returns exactly if the chain of amendments ends.

*Status.* partial. Theorems: `c73_cycle_refuted`, `c73_returns_partial`. The statement is false of the code for a log amending itself. Proved: opening returns if and only if the chain of amendments ends.

### C74 Starting a log destroys no other log

Constructing a Logger, and every later call on it, leaves the files of all logs written earlier unchanged.

*Model and proof.* Refuted for two logs of the same second. All other directories are proved unchanged.

*Status.* partial. Theorems: `c74_same_second_refuted`, `c74_kept_partial`, `c74_others_partial`. The statement is false of the code for two logs started in the same second.

### C75 A log survives a crash of its writer

If the process stops before the Logger is closed, the log can be opened and shows the records written so far; after close every stream holds exactly the records logged to it.

*Model and proof.* Refuted at every crash point: the manifest is written only by close. The contents after close are proved for every sequence of calls.

*Status.* partial. Theorems: `c75_crash_refuted`, `c75_unreadable`, `c75_closed_partial`. The statement is false of the code at every crash point before close. The contents after close are proved.

### C76 The end time of a log is the one given to close

After close(t_end) the manifest of the log has the end time t_end, also after the Logger is destroyed.

*Model and proof.* Refuted: the destructor closes again with the current time. Proved until the destruction.

*Status.* partial. Theorems: `c76_end_time_refuted`, `c76_destructor_time`, `c76_end_time_partial`. The statement is false of the code: the destructor overwrites the end time. Proved until the destruction.

### C77 Every closed log can be opened

A log that was closed, and whose amended log can be opened, is opened by LogReader and log_reader.py with its start time, end time and streams.

*Model and proof.* Refuted for a log without streams, whose manifest has no keys. Proved for all others with distinct stream names.

*Status.* partial. Theorems: `c77_empty_refuted`, `c77_opens_partial`. The statement is false of the code for logs without streams.

### C78 A Logger can be opened again

After open the Logger writes to the new log as a newly constructed one would.

*Model and proof.* Refuted if the Logger was not closed: records go to the old log, initStream exits. Proved after close.

*Status.* partial. Theorems: `c78_reopen_refuted`, `c78_reopen_partial`. The statement is false of the code if the Logger was not closed. Proved after close.

### C79 Every satellite of a constellation can be held

If ephemerides of GPS satellites 1 to 32 (or Galileo satellites 1 to 36) are received, getSat finds each of them afterwards.

*Model and proof.* Refuted: a buffer of 30 slots holds 29. Proved for histories with at most 29 numbers of the constellation.

*Status.* partial. Theorems: `c79_all_held_refuted`, `c79_all_held_partial`. The statement is false of the code: at most 29 satellites are held.

### C80 A satellite handed out by the manager has an ephemeris of its own

Every satellite returned by getSat has the constellation and number asked for and at least one ephemeris, all of them received for that satellite; so getState and carrierWavelength never meet an empty almanac.

*Model and proof.* Invariant over the callback list.

*Status.* proved. Theorems: `c80_has_ephemeris`. 

### C81 No measurement ends the process

Whatever time stamps measurements carry and in whatever order they come, addMeasurement returns: it accepts the measurement or reports an error.

*Model and proof.* Refuted for an IMU sample closely following another, one shortly before the first state, and a repeated time stamp. Proved for separated times, in any order.

*Status.* partial. Theorems: `c81_close_refuted`, `c81_early_refuted`, `c81_repeated_refuted`, `c81_safe_partial`. The statement is false of the code for close or repeated time stamps. Proved for separated ones and at most 29 satellites of a constellation. The checks that computed numbers are finite are outside the model.

### C82 A measurement at most a second late is accepted

addMeasurement accepts a measurement that is at most MAX_DELAY_AGE_S older than the newest one and that observes known satellites only.

*Model and proof.* Refuted: after a gap in the data no state a second old is kept. Proved if an older accepted measurement is itself in the last second and among the newest 99.

*Status.* partial. Theorems: `c82_late_refuted`, `c82_late_partial`. The statement is false of the code after a gap in the data.

### C83 The check that the filter is initialised is defined

Comparing the time of a filter state with INVALID_TIME in predict has defined behaviour and finds every set time different.

*Model and proof.* Refuted: the subtraction overflows int64 for every time since 1970. Proved for earlier times.

*Status.* partial. Theorems: `c83_overflow_refuted`, `c83_before_1970_partial`. The statement is false of the code for every time since 1970. In the model of predict the subtraction wraps around.

### C84 An observation is compared with the clock of its constellation

The residual of an observation uses the receiver clock offset of the constellation of the observed satellite.

*Model and proof.* Refuted for every observation of Galileo and GLONASS: gnss_id is never set.

*Status.* partial. Theorems: `c84_clock_refuted`, `c84_gps_partial`. The statement is false of the code for Galileo and GLONASS.

### C85 Observations of a satellite whose ephemeris was received are usable

If an ephemeris of a satellite was received, an observation of it is processed.

*Model and proof.* Refuted: the manager drops the first of 30 satellites while hasCache still reports it; the check in getCache ends the process. Proved for up to 29.

*Status.* partial. Theorems: `c85_evicted_refuted`, `c85_usable_partial`. The statement is false of the code for more than 29 satellites of a constellation.

### C86 A copy of the filter state carries its time

Copying or assigning the State of the generated filter gives the same time and the same values.

*Model and proof.* Refuted: the time is left out of copying and assignment. The values are proved copied through any sequence of assignments.

*Status.* partial. Theorems: `c86_time_lost_refuted`, `c86_assigned_refuted`, `c86_rest_partial`, `c86_copy_partial`. The statement is false of the code: the time is not copied.

### C87 The exponential of a quaternion is the rotation by its vector

Quat::exp(v) is a unit quaternion; rota turns every vector about v by the angle |v| (Rodrigues' formula), and rotations about one axis multiply to the rotation by the sum of the angles.

*Model and proof.* Exact above 4e-6; below, the quaternion is within 2e-40 of the rotation.

*Status.* proved. Theorems: `c87_exp`, `c87_line`. Over the real numbers: rounding is left out.

### C88 The logarithm of a quaternion inverts the exponential

log(q) is a rotation vector of q, exp(log(q)) = q up to the sign of the quaternion, and log(exp(v)) = v for |v| up to half a turn: exactly, and to within 1e-29 where the code uses series.

*Model and proof.* Exact unless the vector part is at most 4e-6; there log is within 1e-30 of a rotation vector of q or -q, and both round trips are within 1e-29.

*Status.* proved. Theorems: `c88_exp_log`, `c88_log_exp`, `c88_small`, `c88_exp_log_near`, `c88_log_exp_near`. Over the real numbers: rounding is left out. Within 4e-6 of the identity and of its negative log is the vector of the same rotation up to 1e-30.

### C89 The adjoint moves tangent vectors between frames

For Quat, DQuat and SE3: x * exp(v) * x.inverse() = exp(x.Ad() * v).

*Model and proof.* Exact for Quat and DQuat at all angles, for SE3 at angles of at least 2e-3; below, the translations agree up to 1e-22 of the distance from the origin.

*Status.* proved. Theorems: `c89_quat`, `c89_dquat`, `c89_se3`, `c89_se3_small`. Over the real numbers: rounding is left out. For SE3 at angles below 2e-3 the cut-off series leaves a difference, bounded by 1e-22 of the translation.

### C90 The Jacobian of the exponential is its derivative

The matrix J returned by exp(w, &J) satisfies: d/ds exp(w + s d) at s = 0 is the product of the tangent vector J d and exp(w), on the side asked for. Where the code uses series, J d is within 1e-34 |d| (Quat) and 1e-18 |d| (SO3) of that of the exact exponential.

*Model and proof.* Exact for Quat on both sides for |w| > 4e-6, for SO3 for |w|^2 > 4e-6; below, a bound from the remainders of the series of sine and cosine.

*Status.* proved. Theorems: `c90_left`, `c90_right`, `c90_so3`, `c90_near`, `c90_so3_near`, `c90_curves`. Over the real numbers: rounding is left out. Exact for rotations of more than 4e-6 rad (0.002 rad in so3.h) and without rotation, along curves too; elsewhere to within the bounds stated.

### C91 The exponential of SO3 is the rotation by its vector

SO3::exp(w) is a rotation matrix that turns every vector about w by |w|.

*Model and proof.* Exact for |w|^2 >= 4e-6, else within 1e-20.

*Status.* proved. Theorems: `c91_exp`. Over the real numbers: rounding is left out. Up to 1e-20 below |w|^2 = 4e-6.

### C92 The logarithm of SO3 inverts the exponential

log() of a rotation matrix is a vector about which the matrix turns by its length.

*Model and proof.* Refuted near half a turn: the vector of the inverse rotation. Proved for traces above -1 + 1e-8.

*Status.* partial. Theorems: `c92_log_refuted`, `c92_log_partial`. The statement is false of the code near half a turn: log is the vector of the inverse rotation. Proved for all other rotations. Over the real numbers: rounding is left out.

### C93 The Jacobian of the logarithm inverts that of the exponential

The matrix returned by log(&J) is the inverse of the one returned by exp at the same vector.

*Model and proof.* Refuted: at half a turn 0/0 for Quat, the negative of the inverse for SO3 near half a turn. Proved elsewhere.

*Status.* partial. Theorems: `c93_quat_refuted`, `c93_so3_refuted`, `c93_quat_partial`, `c93_so3_partial`. The statement is false of the code at and near half a turn. Over the real numbers: rounding is left out.

### C94 The rotation between two unit vectors takes one to the other

from_two_unit_vectors(u, v) rotates u to v.

*Model and proof.* Refuted for opposite vectors: not a number for Quat, the identity for SO3. Proved for all others.

*Status.* partial. Theorems: `c94_opposite_refuted`, `c94_quat_partial`, `c94_so3_partial`, `c94_same`. The statement is false of the code for opposite vectors. Over the real numbers: rounding is left out.

### C95 Euler angles mean yaw, pitch and roll

from_euler(r, p, y) rotates by r about x, then p about y, then y about z, and roll(), pitch() and yaw() return the angles for |p| < pi/2.

*Model and proof.* Rodrigues turns; polar angles.

*Status.* proved. Theorems: `c95_euler`, `c95_round_trip`. Over the real numbers: rounding is left out.

### C96 The logarithm of DQuat inverts the exponential

exp(log(d)) is the same rigid motion as d.

*Model and proof.* Refuted: near the negative of the identity the translation is reversed; for turns by about 2e-4 it is off by 3e-9. Proved where the vector part exceeds 1e-3.

*Status.* partial. Theorems: `c96_negative_refuted`, `c96_small_refuted`, `c96_exp_log_partial`, `c96_log_exp_partial`. The statement is false of the code near the negative of the identity, and inaccurate for small turns. Over the real numbers: rounding is left out.

### C97 The logarithm of SE3 inverts the exponential

exp(log(x)) = x.

*Model and proof.* Refuted for half turns: 0/0. Proved for traces in (-1 + 1e-8, 3 - 4e-6].

*Status.* partial. Theorems: `c97_half_turn_refuted`, `c97_exp_log_partial`. The statement is false of the code for half turns. Over the real numbers: rounding is left out.

### C98 Dual quaternions and SE3 agree on the exponential

DQuat::exp(v).transforma and SE3::exp(v).transformp are the same motion, and motions along one screw multiply to the motion by the sum of the parameters.

*Model and proof.* For squared angles above 4e-6.

*Status.* proved. Theorems: `c98_same_motion`, `c98_line`. Over the real numbers: rounding is left out. For squared angles above 4e-6.

### C99 Parameter and generator Jacobians are inverse

dGenDParam() * dParamDGen() is the identity and dParamDGen() maps a tangent vector to the derivative of q * exp(d), for Quat and DQuat.

*Model and proof.* Products of quaternions.

*Status.* proved. Theorems: `c99_quat`, `c99_dquat`. Over the real numbers: rounding is left out.

### C100 Rotations by axis and angle agree

Quat::from_axis_angle(k, t) is the unit quaternion whose rota turns by t about k, and SO3::from_axis_angle(k, t) is its R().

*Model and proof.* Rodrigues turns; for SO3 with squared angle at least 4e-6.

*Status.* proved. Theorems: `c100_axis_angle`, `c100_agree`. Over the real numbers: rounding is left out. SO3 for squared angles of at least 4e-6.

### C101 A dual quaternion made from a 4x4 matrix transforms as the matrix

from_4x4(m) transforms points as m does, by transformp or by transforma.

*Model and proof.* Refuted: transformp subtracts the column, transforma applies the transpose. Proved: what it does apply.

*Status.* partial. Theorems: `c101_refuted`, `c101_partial`. The statement is false of the code whenever there is a translation and a rotation. Over the real numbers: rounding is left out.

### C102 Converting to geodetic coordinates returns

ecef2lla returns latitude, longitude and height for every point.

*Model and proof.* Proved with one bound on the rounds for all points but the centre, where the result is not a number.

*Status.* partial. Theorems: `c102_centre_refuted`, `c102_returns_partial`. The statement is false of the code at the centre of the Earth only. Over the real numbers: rounding is left out.

### C103 Geodetic conversions are inverse to each other

lla2ecef(ecef2lla(p)) is within 2 micrometres of p for |p| >= 6000 km; ecef2lla(lla2ecef(l)) returns latitude up to 1e-12, height up to 2 micrometres and longitude exactly away from the poles, for heights above -300 km.

*Model and proof.* Contraction of the iteration with factor 0.0072.

*Status.* proved. Theorems: `c103_ecef`, `c103_lla`. Over the real numbers: rounding is left out.

### C104 Geodetic coordinates are those of the WGS-84 ellipsoid

lla2ecef(l) is the point at height h on the outward normal of the ellipsoid at the point where the normal has the given latitude and longitude, and the only one.

*Model and proof.* Gradient of the ellipsoid's equation.

*Status.* proved. Theorems: `c104_geodetic`. Over the real numbers: rounding is left out.

### C105 The axes of the local frame point north, east and down

A step (n, e, d) in the local frame moves the point n metres north, e metres east and d metres down, where these are the directions in which latitude, longitude and height grow.

*Model and proof.* Derivatives of lla2ecef are positive multiples of the axes.

*Status.* proved. Theorems: `c105_axes`, `c105_directions`, `c105_vertical`. Over the real numbers: rounding is left out.

### C106 Azimuth and elevation give back the line of sight

getAzEl returns az in (-pi, pi] and el in [-pi/2, pi/2] with line of sight = distance * (cos el cos az north + cos el sin az east + sin el up).

*Model and proof.* Polar angles in the local frame.

*Status.* proved. Theorems: `c106_azel`. Over the real numbers: rounding is left out.

### C107 The decorrelation ends and nothing is left to reduce

reduction(Q, a, ...) returns for every positive definite covariance, and what it returns is reduced: off-diagonal entries of L are at most 1/2 in magnitude and no exchange of neighbours would lower a conditional variance.

*Model and proof.* Exchanges lower a weighted product of the pivots that takes finitely many values below its start.

*Status.* proved. Theorems: `c107_ends`, `c107_reduced`. Over the real numbers: rounding is left out.

### C108 Fixed ambiguities are the closest integers

lambda(a, Q, ...) returns the integer vector closest to a in the metric of the covariance Q, and the ratio of its squared distance to that of the second closest.

*Model and proof.* Composition of the lossless reduction and the exhaustive search.

*Status.* partial. Theorems: `c108_range_refuted`, `c108_closest_partial`, `c108_ratio`. The statement is false of the code for ambiguities outside the range of int (undefined conversion in modf) and where the initial bound cuts off candidates. Proved otherwise, with Eigen's inverse as a parameter that inverts. Over the real numbers: rounding is left out. The comment in lambda.h names Q itself as the metric; the code uses its inverse, as the benchmark expects.

### C109 Ambiguity fixing works for every number of candidates

lambda(a, Q, a_fixed, ratio, n_candidates) returns for every n_candidates of one or more.

*Model and proof.* The ratio reads the second norm whatever the count.

*Status.* partial. Theorems: `c109_one_refuted`, `c109_returns_partial`. The statement is false of the code for one candidate: the second norm is read out of range. Over the real numbers: rounding is left out.

### C110 The PID integrator does not wind up

While the output of PID::run is held at its limit the integrator does not keep growing: its part of the output stays of the order of the limit, so that the output leaves the limit soon after the error changes sign.

*Model and proof.* Refuted by an induction over the calls: the guard compares the integral part with itself.

*Status.* partial. Theorems: `c110_windup_refuted`. The statement is false of the code: the guard compares the integral part with u - p + d, which is the integral part itself, so it never acts. What stays true of the output is in C50.

### C111 A calendar date gives the time it names

fromCalendar(y, mo, d, h, mi, s) is the instant s seconds after that minute of the Gregorian calendar, to the nearest nanosecond, and is normalised.

*Model and proof.* Rounding errors bounded in Flocq doubles; refuted normalisation by a witness.

*Status.* partial. Theorems: `c111_normal_refuted`, `c111_normal_partial`, `c111_instant`. The statement is false of the code for fractions that round to a whole second: the nanoseconds are then 10^9. Proved: the instant always, normalised for all other fractions.

### C112 A printed time can be read

The text of UTCTime::str and of operator<< names the second and the milliseconds: read as a decimal number, the seconds are those of the time.

*Model and proof.* The milliseconds are not padded. Proved exactly when the text reads rightly, and that texts of different milliseconds differ.

*Status.* partial. Theorems: `c112_reads_refuted`, `c112_reads_partial`, `c112_determines`, `c112_shown`. The statement is false of the code for 1 to 99 milliseconds, which are printed without leading zeros. Proved otherwise; the text still determines the second and the millisecond.

### C113 The prediction keeps the covariance symmetric and positive

If the covariance is symmetric positive semidefinite before predict, it is after it, being that of the second order transition matrix plus input and process noise; so after any sequence of predictions and updates.

*Model and proof.* Quadratic forms of congruences; induction over histories.

*Status.* proved. Theorems: `c113_predict`, `c113_series`, `c113_inverse`, `c113_history`. Over the real numbers: rounding is left out.

### C114 The measurement update is the best linear one

No other gain leaves a smaller error variance in any direction, and the correction made minimises the cost of correction plus misfit.

*Model and proof.* Completing the square.

*Status.* proved. Theorems: `c114_gain`, `c114_correction`. Over the real numbers: rounding is left out. Eigen's inverse is a parameter that inverts the innovation.

### C115 Kepler's equation is solved

The eccentric anomaly that eph2Sat uses is the one solution of Kepler's equation for the mean anomaly, to within 1e-25 before rounding, and thirty rounds are always enough.

*Model and proof.* Intermediate value theorem for existence, a Lipschitz bound for uniqueness, quadratic convergence of Newton's method from a start within one half.

*Status.* proved. Theorems: `c115_solved`. Over the real numbers: rounding is left out. An eccentricity is broadcast as 32 bits in units of 2^-33, hence at most one half.

### C116 The position is the one the GPS interface specification gives

eph2Sat at a time within two hours of the ephemeris puts the satellite at the point of the orbit that IS-GPS-200 defines: ellipse, harmonic corrections, inclination and node at that time, Earth rotation.

*Model and proof.* The specification is a composition of three rotations of a point of an ellipse; without corrections the distance is bounded by 2e-25 semi-major axes.

*Status.* proved. Theorems: `c116_position`, `c116_ellipse`. Over the real numbers: rounding is left out.

### C117 Galileo positions follow the Galileo interface specification

For a Galileo ephemeris eph2Sat gives the position that the OS SIS ICD defines, with its gravitational constant.

*Model and proof.* Refuted by a circular orbit two hours from the time of ephemeris; bounded by nine metres in general.

*Status.* partial. Theorems: `c117_constant_refuted`, `c117_close_partial`. The statement is false of the code: it uses the GPS constant for Galileo too, which moves a satellite by half a metre in two hours. Proved: at most nine metres, for orbits without harmonic corrections. Over the real numbers: rounding is left out.

### C118 The velocity is the derivative of the position

The velocity that eph2Sat returns is the rate of change of the position it returns.

*Model and proof.* Derivatives in the reals. At perigee and apogee the code divides zero by zero; rates of the harmonic corrections are evaluated at the corrected argument of latitude.

*Status.* partial. Theorems: `c118_perigee_refuted`, `c118_harmonic_refuted`, `c118_velocity_partial`. The statement is false of the code at perigee and apogee (zero divided by zero) and with harmonic corrections. Proved for orbits without them, elsewhere. Over the real numbers: rounding is left out.

### C119 The satellite clock is the one of the interface specification

The clock offset and drift that eph2Sat returns are those of the polynomial about the time of clock with the relativistic term, and its derivative.

*Model and proof.* Refuted by an ephemeris with different times and af2; the exact difference is proved in general.

*Status.* partial. Theorems: `c119_clock_refuted`, `c119_clock_partial`. The statement is false of the code: af1 multiplies the time from the time of ephemeris instead of the time of clock, and the drift misses a factor of two on af2. Proved: the exact difference, which vanishes for equal times and af2 = 0. Over the real numbers: rounding is left out.

### C120 An old ephemeris does not end the process

Asking for a satellite at a time that its ephemeris does not cover reports an error; it does not end the process.

*Model and proof.* The check beyond two hours is shown to be reached and to end the process; within two hours a state is returned.

*Status.* partial. Theorems: `c120_stale_refuted`, `c120_fresh_partial`. The statement is false of the code: beyond two hours a check ends the process. Proved within two hours. Over the real numbers: rounding is left out.

### C121 A GLONASS state depends on the ephemeris and the time only

eph2Sat for a GLONASS ephemeris gives the state found by integrating the equations of motion from the ephemeris to the time, whatever the SatelliteState passed in held before; it always returns.

*Model and proof.* Refuted by two ephemerides in a row; from a new state the steps are characterised by induction.

*Status.* partial. Theorems: `c121_history_refuted`, `c121_fresh_partial`. The statement is false of the code: a state filled before is propagated and the position of the new ephemeris ignored. Proved for a new state. Over the real numbers: rounding is left out.

### C122 The GLONASS equations of motion conserve energy

Along every solution of the equations that glonassOrbit integrates, the energy in the rotating frame (kinetic, centrifugal, the Earth's potential with its second zonal harmonic, the constant acceleration) stays constant.

*Model and proof.* The derivative of the energy along the field vanishes identically; the potential is stated independently.

*Status.* proved. Theorems: `c122_energy`. Over the real numbers: rounding is left out.

### C123 The Runge-Kutta step has fourth order

For equations whose right-hand side is an affine function, RK4 gives the Taylor polynomial of fourth order of the solution.

*Model and proof.* Expansion with linearity only.

*Status.* proved. Theorems: `c123_fourth_order`. Over the real numbers: rounding is left out.

### C124 The tropospheric delay is that of a finite atmosphere

computeTroposphericDelay is zero outside the troposphere and below the horizon, otherwise positive, grows towards the horizon as one over the sine of the elevation, decreases with height, and stays below a bound that holds for all elevations.

*Model and proof.* Bounds on powers and exponentials; monotonicity by an inequality between logarithmic derivatives. The bound for all elevations is refuted.

*Status.* partial. Theorems: `c124_bounded_refuted`, `c124_zenith_partial`, `c124_height`, `c124_outside`. The statement is false of the code near the horizon, where the delay exceeds every bound. The rest is proved. Over the real numbers: rounding is left out.

### C125 The ionospheric delay is that of the Klobuchar model

computeIonosphericDelay gives the delay of IS-GPS-200 20.3.3.5.2.5 for the GPS time of week of the time passed in, and is defined and between 1.49 and 34 metres for every satellite above the horizon.

*Model and proof.* The model stated as a relation; refuted by a satellite overhead in the early afternoon; proved for the shifted time.

*Status.* partial. Theorems: `c125_leap_refuted`, `c125_model_partial`, `c125_bounds`. The statement is false of the code: leap seconds are added to a time of week that already is GPS time, so the local time is 18 s late. Proved for the shifted time. Over the real numbers: rounding is left out.

### C126 A satellite is taken at the time of transmission

SatelliteCache::update, PseudorangeModel and RelativeCarrierPhase find the time at which the signal that arrives at t left the satellite, with the rotation of the Earth during the flight, to the millimetre; the loop always ends.

*Model and proof.* Fixed point iteration with Lipschitz constant 2e-5; refuted for a geostationary satellite.

*Status.* partial. Theorems: `c126_still_refuted`, `c126_found_partial`. The statement is false of the code for a satellite at rest over the Earth (the loop is skipped, the Sagnac term not set). Proved for speeds from 1000 to 5000 m/s and flights up to 0.2 s; the satellite is a function of the time, subtraction of a double from a time is within a nanosecond. Over the real numbers: rounding is left out.

### C127 Integrated inertial measurements give dead reckoning

For every sequence of samples accepted by integrate, computeEndState from any start pose and velocity gives exactly the pose and velocity of dead reckoning sample by sample in the inertial frame; integrate accepts exactly the sequences in which each sample comes at least 0.1 ms after the one before, and ends the process on every other.

*Model and proof.* Independent specification: strapdown steps in the inertial frame. Invariant over the history relating both. Times with their double comparisons.

*Status.* proved. Theorems: `c127_dead_reckoning`, `c127_accepted`. Times normal and within 2^61 s. Over the real numbers: rounding is left out.

### C128 The inertial residual vanishes exactly at the predicted end state

Evaluate with the bias the measurements were integrated with gives the zero residual exactly when the end pose and velocity are those computeEndState predicts (the quaternion up to its sign).

*Model and proof.* The logarithm of a unit quaternion is zero only for the identity and its negative. Refuted for the nominal bias.

*Status.* partial. Theorems: `c128_nominal_refuted`, `c128_zero_partial`. The statement is false of the code: it multiplies dStatedBias by the whole parameter instead of its difference from the nominal bias (commented out). Proved for the parameter zero. Over the real numbers: rounding is left out.

### C129 The pose Jacobians of the inertial residual are its derivatives

The Jacobians by the start and end pose that Evaluate returns are the derivatives of the residual along every motion of that pose.

*Model and proof.* Curves of poses with a given body rate; derivative of the residual computed and compared with the returned blocks. Refuted for a turned pose.

*Status.* partial. Theorems: `c129_pose_refuted`, `c129_end_partial`, `c129_start_partial`, `c129_end_rotation_partial`, `c129_start_rotation_partial`. The statement is false of the code for turned poses: the columns of the translation and of the rotation use the wrong rotation. Proved: the exact condition for all rows, any motion; for the rows of the orientation, errors of rotation that are zero or neither small nor half turns. Over the real numbers: rounding is left out.

### C130 The velocity Jacobians of the inertial residual are exact

Adding any change to the start or end velocity changes the residual by exactly the returned Jacobian times that change.

*Model and proof.* Linearity of rotations.

*Status.* proved. Theorems: `c130_start`, `c130_end`. Over the real numbers: rounding is left out.

### C131 The covariance of integrated measurements is a covariance that can be inverted

After any sequence of samples the covariance is symmetric and positive semidefinite; with positive sensor noise it is positive definite after two samples, and what finished() inverts is symmetric positive definite whenever there is a sample.

*Model and proof.* Invariant over the history: null vectors of the covariance have no velocity and orientation part after one step, no part after two.

*Status.* proved. Theorems: `c131_covariance`, `c131_positive`, `c131_finished`. Over the real numbers: rounding is left out.

### C132 dStatedBias is the derivative of the integrated state by the biases

For every history, dStatedBias is the derivative of the integrated position, velocity and orientation by the accelerometer and gyroscope biases.

*Model and proof.* Two runs with different biases compared by induction: exact for the accelerometer. Refuted for the gyroscope by two equal steps.

*Status.* partial. Theorems: `c132_gyro_refuted`, `c132_accel_partial`. The statement is false of the code for the gyroscope: the state is propagated to first order, its derivative to second. Proved exact for the accelerometer. Over the real numbers: rounding is left out.

### C133 Integrated measurements can be split at any time inside

split(t) for any t between the first and the last sample returns the part before and the part after t, meeting at t, with the interpolated sample at t; any other t ends the process.

*Model and proof.* Complete description of the outcome by the distances to the neighbouring samples. Refuted for a time less than 0.1 ms before a sample.

*Status.* partial. Theorems: `c133_inside_refuted`, `c133_split_partial`, `c133_outside`. The statement is false of the code: within 0.1 ms before a sample, and from 50 to 100 microseconds after one, the process ends. Proved: the exact outcome for every time. Over the real numbers: rounding is left out.

### C134 Splitting does not change the predicted motion

The end state predicted by the first part and then by the second is the one predicted before the split.

*Model and proof.* Composition of dead reckoning; exact when split at a sample, refuted between samples.

*Status.* partial. Theorems: `c134_between_refuted`, `c134_sample_partial`. The statement is false of the code between samples, since the position is integrated to first order. Proved for the times of samples. Over the real numbers: rounding is left out.

### C135 A constant force gives uniformly accelerated motion

With constant specific force f and no turning for T seconds, the integrated velocity is T f and the integrated position T^2 f / 2.

*Model and proof.* Closed form for any spacing: the position lacks half the sum of the squared intervals.

*Status.* partial. Theorems: `c135_half_refuted`, `c135_constant_partial`. The statement is false of the code: the position follows the velocity at the beginning of each interval. Proved: the exact result. Over the real numbers: rounding is left out.

### C136 Differences of inertial states are inverse to their addition

y + (x - y) = x and (y + d) - y = d for inertial states with unit quaternions and increments of at most half a turn: the attitude to within 1e-29 and up to the sign of its quaternion, everything else exactly.

*Model and proof.* Inverse pair of exponential and logarithm of quaternions.

*Status.* proved. Theorems: `c136_sub_add`, `c136_add_sub`, `c136_same`, `c136_sub_add_near`, `c136_add_sub_near`. Exact where exp and log do not use series, and for equal states. Over the real numbers: rounding is left out.

### C137 The position and velocity Jacobian of the filter is the derivative of its residual

The Jacobian returned by h<pointPosMeas> is the derivative of its residual along every motion of the state: body pose, Earth pose, antenna arm, velocity.

*Model and proof.* Curves of states with rigid poses; the derivative of the residual computed through moving rotations and compared with the blocks.

*Status.* proved. Theorems: `c137_position_velocity_jacobian`. Over the real numbers: rounding is left out.

### C138 The antenna velocity the filter predicts is the rate of its position

Along every solution of the process, the velocity used by the position and observation measurements is the rate of change of the antenna position.

*Model and proof.* Exact criterion. Refuted: the gyroscope bias is not taken off in the measurements.

*Status.* partial. Theorems: `c138_velocity_is_rate_refuted`, `c138_velocity_is_rate_partial`. The statement is false of the code: the measured turn rate is used without taking off the gyroscope bias. Proved: it holds exactly when bias and antenna arm are parallel. Over the real numbers: rounding is left out.

### C139 The filter's process obeys Newton's law

Along every solution of the process the velocity in the inertial frame changes by the specific force turned into that frame plus gravity.

*Model and proof.* Exact criterion. Refuted for a tilted body at rest: gravity is turned the wrong way, and the turning of the body frame is left out.

*Status.* partial. Theorems: `c139_newton_refuted`, `c139_newton_partial`. The statement is false of the code: gravity is turned with rota instead of rotp and the term of the turning frame is missing. Proved: the exact condition. Over the real numbers: rounding is left out.

### C140 The filter's process Jacobian is the derivative of the process

In every family of solutions the first order error changes as StateJac says; errorStateDynamics is StateJac times the error plus InputJac times the noise.

*Model and proof.* Families of solutions with exact derivatives; refuted for clocks, position and velocity. Exact error equations for two solutions: orientation and position rows.

*Status.* partial. Theorems: `c140_state_jacobian_refuted`, `c140_linear_model`, `c140_orientation_partial`, `c140_position_partial`. The statement is false of the code for the clocks (no row), the position (turning of the frame) and the velocity (gravity). Proved: errorStateDynamics is the linear model of both Jacobians; the orientation rows are right to first order and the position rows but for the turning of the frame. Over the real numbers: rounding is left out.

### C141 The pseudorange Jacobian of the filter is the derivative of its residual

The range row h<obsMeas> returns is the derivative of the range residual along every motion of the state; each observation has its own two rows and the clock of its constellation; another constellation ends the process.

*Model and proof.* Derivative of a norm along moving poses; the Sagnac term of the cache is constant as in the code.

*Status.* proved. Theorems: `c141_pseudorange_jacobian`, `c141_each`. The Sagnac term and delays of the cache are constants, as in the code. Over the real numbers: rounding is left out.

### C142 The Doppler Jacobian of the filter is the derivative of its residual

The Doppler row h<obsMeas> returns is the derivative of the Doppler residual along every motion of the state.

*Model and proof.* Exact derivative; refuted since the direction to the satellite changes too. Bound of the omitted terms by speed over distance.

*Status.* partial. Theorems: `c142_doppler_jacobian_refuted`, `c142_doppler_jacobian_partial`. The statement is false of the code: the change of the direction to the satellite and of the Sagnac rate are left out. Proved: a bound of what is left out. Over the real numbers: rounding is left out.

### C143 The predicted Doppler is the rate of the predicted pseudorange

When satellite, antenna and clocks move as their rates say, the predicted pseudorange changes at the predicted Doppler.

*Model and proof.* Refuted: the Sagnac rate has the opposite sign. Exact difference.

*Status.* partial. Theorems: `c143_doppler_is_range_rate_refuted`, `c143_doppler_is_range_rate_partial`. The statement is false of the code: the Sagnac rate has the opposite sign of the Sagnac term. Proved: the difference is exactly twice that rate. Over the real numbers: rounding is left out.

### C144 Fix and hold compares every single difference with its fixed value

h<fixAndHoldMeas> returns the difference of every held value and the estimate, in order; changing the estimate by any amount changes it by the Jacobian times that amount; a different number of values ends the process.

*Model and proof.* Induction on the list.

*Status.* proved. Theorems: `c144_fix_and_hold`, `c144_jacobian`. Over the real numbers: rounding is left out.

### C145 Differences of filter states are inverse to adding errors

For states with the same number of single differences, x + (y - x) = y and (x + d) - x = d.

*Model and proof.* Inverse pair of exponential and logarithm of rigid motions.

*Status.* partial. Theorems: `c145_sign_refuted`, `c145_small_refuted`, `c145_minus_plus_partial`, `c145_plus_minus_partial`. The statement is false of the code: between a pose and the same attitude with the opposite quaternion the difference has the translation reversed, and for small screw motions the advance comes back wrong by more than 2e-9 of itself. Proved: exact without rotation and for rotations above about 2e-3 rad. Over the real numbers: rounding is left out.

### C146 Weighted residuals measure distance in the given covariance

For every covariance the pseudorange factor computes an upper triangular weight whose weighted residual has, as squared length, the residual measured by the inverse covariance.

*Model and proof.* Cofactor inverse and Cholesky factor, by minors.

*Status.* proved. Theorems: `c146_weights`. Over the real numbers: rounding is left out.

### C147 The pseudorange residual vanishes exactly at agreement, and switched off it ignores the measurement

The residual is zero if and only if the switch is 1 and both predictions equal the measurements; with the switch at 0 it is the same for every measurement, satellite and state.

*Model and proof.* Triangular weights are injective.

*Status.* proved. Theorems: `c147_zero`, `c147_switched_off`. Over the real numbers: rounding is left out.

### C148 The range and switch rows of the pseudorange factor are derivatives

For uncorrelated errors the rows of range and switch of the six Jacobians add up to the derivative of the residual along every motion of all parameters at once.

*Model and proof.* Derivative along curves of poses, velocities, clocks, switch and lever arm.

*Status.* proved. Theorems: `c148_range_and_switch`. For weights without correlation; correlated ones are in C149. Over the real numbers: rounding is left out.

### C149 The Jacobians of the pseudorange factor are derivatives

The six Jacobians add up to the derivative of the whole residual along every motion of all parameters, for every covariance.

*Model and proof.* Refuted for the Doppler row and for correlated errors. Exact condition for the clock and a bound for the Doppler row.

*Status.* partial. Theorems: `c149_doppler_refuted`, `c149_correlated_refuted`, `c149_clock_partial`, `c149_doppler_partial`. The statement is false of the code: the Doppler row leaves out terms, and the Jacobians of velocity, clock, switch and lever arm take only the diagonal of the weights. Proved: the exact condition for the clock, a bound for the Doppler row. Over the real numbers: rounding is left out.

### C150 The pseudorange factor and the filter predict the same measurements

For the same satellite, antenna and clock both predict the same pseudorange and the same Doppler.

*Model and proof.* Refuted: one divides the line of sight by the distance with the Sagnac term. Exact difference.

*Status.* partial. Theorems: `c150_pseudorange`, `c150_doppler_refuted`, `c150_doppler_partial`. The statement is false of the code for the Doppler: the factor divides the line of sight by the range with the Sagnac term. Proved: equal pseudoranges and the exact difference of the Doppler. Over the real numbers: rounding is left out.

### C151 A carrier phase in agreement with the geometry has no residual

If the change of phase in cycles is the change of travelled metres over the wavelength, the residual is zero.

*Model and proof.* Refuted: metres are multiplied by the wavelength. Exact residual.

*Status.* partial. Theorems: `c151_cycles_refuted`, `c151_cycles_partial`. The statement is false of the code: the metres are multiplied by the wavelength, not divided. Proved: the residual that remains, zero for a wavelength of 1 only. Over the real numbers: rounding is left out.

### C152 The Jacobians of the carrier phase factor are derivatives

The eight Jacobians add up to the derivative of the residual along every motion of the parameters.

*Model and proof.* Refuted: the Sagnac term moves with the receiver. Exact difference.

*Status.* partial. Theorems: `c152_jacobian_refuted`, `c152_jacobian_partial`. The statement is false of the code: the change of the Sagnac term is left out. Proved: that is exactly the difference. Over the real numbers: rounding is left out.

### C153 The clock factor vanishes exactly for clocks that run on, composes over time, and is linear

GnssDynamics is zero if and only if the rate and switch are unchanged and the offset advanced by rate times time; zero on two adjacent intervals implies zero on both together; any change of the parameters changes the residual by the Jacobians times it.

*Model and proof.* Algebra; linearity without remainder.

*Status.* proved. Theorems: `c153_zero`, `c153_chain`, `c153_jacobian`. Over the real numbers: rounding is left out.

### C154 The pose factor vanishes exactly at the anchor's motion

For non-zero weights the residual is defined for every pair of poses and is zero if and only if pose and anchor move every point alike, whatever the signs of their quaternions.

*Model and proof.* Logarithm is zero only for the identity motion, in the closed form and in the series.

*Status.* proved. Theorems: `c154_zero`. Over the real numbers: rounding is left out.

### C155 The simulator delivers every ephemeris once its time has come

Each ephemeris of the log is delivered once, at the first step at or after its stamp; running out of ephemerides is harmless.

*Model and proof.* Refuted by three witnesses. Exact outcome by induction over the history.

*Status.* partial. Theorems: `c155_replay_refuted`, `c155_replay_partial`. The statement is false of the code: the comparison is the wrong way round, so that ephemerides come before their time, never once their second has passed, and front() of an empty vector is read after the last. Proved: the exact outcome for steps whose seconds do not go back.

### C156 The simulated car stays on the ground and does not slip sideways

After every history of steps and wheel torques the car is at height zero, upright, moves straight ahead and turns about its vertical axis only; for real machines every history is defined.

*Model and proof.* Invariant: planar dual quaternions are closed under products and exponentials.

*Status.* proved. Theorems: `c156_on_the_ground`, `c156_defined`. Over the real numbers: rounding is left out.

### C157 Under constant torque the car accelerates as Newton says

Driven by the same torque k on both wheels for n steps of dt seconds it has the speed a n dt and has come a (n dt)^2 / 2 far, with a = 2 k / (radius mass).

*Model and proof.* Refuted: the first step uses the acceleration before it. Exact position by induction.

*Status.* partial. Theorems: `c157_straight_run_refuted`, `c157_straight_run_partial`. The statement is false of the code: the position lags by half of the acceleration times dt squared. Proved: the exact position. Over the real numbers: rounding is left out.

### C158 The controller inverts the car's model

The torques the controller computes for an angular acceleration and an acceleration give the car exactly these.

*Model and proof.* Refuted already for the default car. Exact result.

*Status.* partial. Theorems: `c158_inverse_refuted`, `c158_inverse_partial`. The statement is false of the code: mass, inertia and a factor of two are left out. Proved: what the car gets. Over the real numbers: rounding is left out.

### C159 The gains of the car's controllers act in the simulation

The integral and derivative gains given for heading and speed influence the torques.

*Model and proof.* Refuted in doubles for all histories at once: the time since the last step is always zero and the integrator is never updated.

*Status.* partial. Theorems: `c159_gains_refuted`. The statement is false of the code: Sim::step passes the time of the last step and asks not to update the integrator. Proved for every history and all finite gains. Nothing remains of the statement to be proved.

### C160 The car visits its way points in order, from the first

At every call the car goes for the way point it went for before, or, once closer than the threshold, for the next one around; at first for the first.

*Model and proof.* Refuted by values of the uninitialised counter. Proved for counters that are not negative, by induction.

*Status.* partial. Theorems: `c160_order_refuted`, `c160_order_partial`, `c160_in_range`. The statement is false of the code: current_waypoint_ is not initialised, and a negative value wraps modulo 2^64. Proved for values that are not negative and histories that do not overflow the int.

### C161 The commanded speed respects the limits

The follower never commands more than max_speed nor a turn faster than max_omega.

*Model and proof.* Refuted: 1 m/s is commanded in turns whatever the limit. Proved with the larger of the two.

*Status.* partial. Theorems: `c161_speed_refuted`, `c161_speed_partial`. The statement is false of the code for max_speed below 1 m/s. Proved: at most the larger of 1 and max_speed. Over the real numbers: rounding is left out.

### C162 The follower brings the car towards its way point

Driving as commanded the car turns towards its way point and gets closer to it.

*Model and proof.* Refuted for a way point behind. The commanded turn never increases the angle: derivative of its cosine.

*Status.* partial. Theorems: `c162_towards_refuted`, `c162_towards_partial`. The statement is false of the code: straight behind, the eighth power of the cosine commands full speed away. Proved: the commanded turn does not increase the angle to a fixed direction. Over the real numbers: rounding is left out.

### C163 The simulated accelerometer and gyroscope measure specific force and turn rate

Without noise and bias the readings are the specific force and the turn rate of the simulated motion, in the frame of the body.

*Model and proof.* Refuted: the turning of the frame is left out and gravity is turned the wrong way. Exact condition.

*Status.* partial. Theorems: `c163_specific_force_refuted`, `c163_specific_force_partial`, `c163_ground`. The statement is false of the code: the centripetal acceleration is missing and gravity is turned by rota instead of rotp. Proved: the exact condition, and what is missing on the ground. Over the real numbers: rounding is left out.

### C164 The filter's process follows the simulation

With the readings of the simulated sensor and the right biases the filter's process moves pose and velocity at the rates of the simulation.

*Model and proof.* Algebra.

*Status.* proved. Theorems: `c164_same_process`. Both leave out the same term (C139, C163). Over the real numbers: rounding is left out.

### C165 The filter predicts the simulated pseudorange

Without noise the simulated pseudorange is the one the filter predicts from the same satellite, clocks and delays, to a few millimetres; both searches for the time of transmission end at the same time.

*Model and proof.* Both loops compute the same iterates; bound of the last step.

*Status.* proved. Theorems: `c165_same_pseudorange`. The satellite is a function of the time; subtraction of a double from a time is within a nanosecond. Over the real numbers: rounding is left out.

### C166 A sensor samples at its rate

A sensor asked often enough delivers its rate of samples per second, never more, and is never late by more than the time between two calls.

*Model and proof.* In doubles, with error bounds. Average rate refuted: the phase is lost at every sample.

*Status.* partial. Theorems: `c166_rate_refuted`, `c166_rate_partial`, `c166_count`. The statement is false of the code: the time of a late sample is the start of the next period, so 250 Hz asked every 3 ms gives 167 Hz. Proved in doubles, to 8 units of 2^-53: never faster, and not late by more than the time between calls.

### C167 The simulated antenna is where the filter has it

Position and velocity of the simulated antenna are those the filter computes for the same state; the velocity is the rate of the position; the published pose is that of the antenna.

*Model and proof.* Quaternion algebra, derivative along curves of poses.

*Status.* proved. Theorems: `c167_antenna`, `c167_velocity`, `c167_pose`. Over the real numbers: rounding is left out.

### C168 The pseudorange factor predicts the simulated Doppler

Without noise the simulated Doppler differs from the prediction of the pseudorange factor by no more than the relative speed times the change of direction of the last step of the search.

*Model and proof.* Difference of two scaled lines of sight.

*Status.* proved. Theorems: `c168_doppler`. Over the real numbers: rounding is left out.

### C169 The Jacobians of the exponentials of motions are derivatives

The 6x6 matrices that exp(x, jac) of DQuat and SE3 return are the derivatives of exp: along every differentiable curve of tangent vectors the motion changes at the rate the matrix gives, seen from the outside (LEFT) or from the body (RIGHT). Where the code uses series, the rate is that of the exact exponential to within 1e-16 of the speeds (times the length of the linear part).

*Model and proof.* Structure equation of the left Jacobian, proved by differentiating coefficients; the origin by a squeeze. Missing: turns between 0 and 0.002 rad, where the series are truncated.

*Status.* proved. Theorems: `c169_dquat`, `c169_se3`, `c169_dquat_near`, `c169_se3_near`. Exact without turn and for turns of more than 0.002 rad; for every turn to within the remainders of the series. Over the real numbers: rounding is left out.

### C170 The Jacobians of the logarithms are derivatives

The matrices that log(jac) of Quat, SO3, DQuat and SE3 return are the derivatives of log along every differentiable curve of rotations or motions.

*Model and proof.* log is differentiable, exp(log) is the identity, so the derivative of log inverts that of exp. Refuted at half turns.

*Status.* partial. Theorems: `c170_half_turn_refuted`, `c170_quat_partial`, `c170_so3_partial`, `c170_dquat_partial`, `c170_se3_partial`. The statement is false of the code: at a half turn log(jac) of DQuat divides zero by zero where log() is defined (for SO3 see C93). Proved: without turn and for all turns outside the series and the half turns. Over the real numbers: rounding is left out.

### C171 Asking for the Jacobian does not change the logarithm

log(jac) returns the same vector as log().

*Model and proof.* Closed forms; refuted near half turns (SO3) and for small turns with a translation (DQuat).

*Status.* partial. Theorems: `c171_so3_refuted`, `c171_dquat_refuted`, `c171_partial`. The statement is false of the code: near half turns log(jac) of SO3 returns the opposite rotation, and for turns of about 0.0016 rad log(jac) of DQuat stretches the translation along the axis by more than 2e-7. Proved: equal for all turns outside the series and the half turns, and without turn. Over the real numbers: rounding is left out.

### C172 The Jacobian of the pose factor is the derivative of its residual

PoseError gives the same residual whether Jacobians are asked for or not, and the Jacobian is the derivative of the residual along every curve of poses.

*Model and proof.* C170 for DQuat composed with the products and the weights.

*Status.* partial. Theorems: `c172_half_turn_refuted`, `c172_residual_refuted`, `c172_jacobian_partial`. The statement is false of the code as C170 and C171 are. Proved: without turn from the anchor and for turns from 0.002 rad up to half turns. Over the real numbers: rounding is left out.

### C173 The Jacobian by the biases is the derivative of the inertial residual

Wherever Evaluate gives a residual, the Jacobian by the biases that it returns is the derivative of the residual along every curve of biases.

*Model and proof.* The transpose of the LEFT Jacobian of exp is the RIGHT one; Ad and the transpose turn one inverse Jacobian into the other. Refuted at half turns.

*Status.* partial. Theorems: `c173_half_turn_refuted`, `c173_biases_partial`. The statement is false of the code at half turns of the error of rotation: the Jacobian divides zero by zero. Proved: for every history, pose, velocity and curve of biases, where the error of rotation and the adjustment by the bias are zero or above 8e-6 and 4e-6 rad. Over the real numbers: rounding is left out.

### C174 A logged observation carries the frequency of the signal measured

gather_ephemeris writes each observation with the carrier frequency of the signal that was measured; measurements of signals it does not handle are not written.

*Model and proof.* Specification: table of carriers and the receiver manual (freqId is the GLONASS slot plus 7). Refuted for GLONASS.

*Status.* partial. Theorems: `c174_glonass_refuted`, `c174_frequency_partial`. The statement is false of the code: the GLONASS slot number is not reduced by 7, so the frequency is that of seven channels above. Proved: right for GPS and Galileo, off by exactly seven channels for GLONASS, no other signal logged.

### C175 The log holds exactly the observations received

The observations that gather_ephemeris logs are those of the RXM-RAWX messages received, one record each, in order, stamped with the time of reception.

*Model and proof.* Composition of the UBX parser model with the listeners. Refuted for more than 60 measurements and for messages that announce more than they carry.

*Status.* partial. Theorems: `c175_too_many_refuted`, `c175_stale_refuted`, `c175_observations_partial`. The statement is false of the code: a message of 61 measurements is read beyond the array, and a message that announces more than it carries logs measurements of earlier messages again. Proved: exact for messages of at most 60 measurements that carry what they announce; frequencies as in C174.

### C176 A short navigation message changes nothing

An RXM-SFRBX message with fewer words than a subframe, page or string of its system is ignored: no ephemeris object changes and nothing is logged.

*Model and proof.* GPS and GLONASS look at the size, Galileo does not: refuted by pages of another satellite.

*Status.* partial. Theorems: `c176_short_page_refuted`, `c176_short_partial`. The statement is false of the code for Galileo: messages without words make pages of another satellite count. Proved for GPS, GLONASS and all other systems.

### C177 Ephemerides are logged only near their reference time

gather_ephemeris logs an ephemeris only if the clock differs from its time of ephemeris by at most two hours, exactly, to the nanosecond.

*Model and proof.* The conversion to double seconds is monotonic and exact at 7200 s (Float64).

*Status.* proved. Theorems: `c177_limit`, `c177_logged`. Messages as long as they say, clocks below 2^62 s.

### C178 A logged ephemeris was broadcast by the satellite it is logged for

Every ephemeris that gather_ephemeris logs for a satellite is decoded from the latest words of each kind that this satellite sent, and from no other message, whatever messages of other satellites and systems come between and however the bytes are cut.

*Model and proof.* Invariant: each accumulator is the parser run on the words of its satellite. Uses the parser theorems (C19-C28) and the UBX framing.

*Status.* proved. Theorems: `c178_gps`, `c178_glonass`, `c178_galileo`. Messages as long as they say (else C176). For Galileo the parameters within the first 112 bits of each word; the others are decoded wrongly (C26).

### C179 A setting is found exactly where the configuration has it

Config::get(key, out) returns true exactly when the path of names in the key leads to a value of the type asked for, and sets out to that value; otherwise out keeps its value.

*Model and proof.* The tree of yaml-cpp as an inductive type, operator[] and as<> as functions; specification: inductive paths.

*Status.* proved. Theorems: `c179_value`, `c179_list`. For paths whose names hold no slash and whose last name is not empty.

### C180 A required setting is delivered or the program ends

Config::get(key, out, true) either returns true with out set, or ends the program.

*Model and proof.* Refuted: a value of another type and an empty key return false.

*Status.* partial. Theorems: `c180_required_refuted`, `c180_required_partial`. The statement is false of the code: a required setting of the wrong type, and an empty key, return false. Proved: a missing required setting never returns.

### C181 Reading a setting does not throw

Config::get reports a setting that is missing or of another type by returning false (or by check), not by an exception.

*Model and proof.* Refuted: paths through scalars, lists with an element of another type. The exact condition is proved.

*Status.* partial. Theorems: `c181_throws_refuted`, `c181_throws_partial`. The statement is false of the code: BadSubscript leaves get when the path goes on from a scalar, and the conversion error of a list element is not the one caught. Proved: the exact condition.

### C182 A matrix is read only from a list of its size

Config::get for a matrix succeeds exactly for a list of rows*cols numbers, which fill the rows in order; another length is refused.

*Model and proof.* Refuted: no length is checked.

*Status.* partial. Theorems: `c182_short_refuted`, `c182_long_refuted`, `c182_matrix_partial`. The statement is false of the code: the length is not checked, a short list is read beyond its end and the rest of a long one is ignored. Proved: right for lists that are long enough.

### C183 Matrices survive being written to and read from YAML

A matrix encoded with YAML::convert is decoded to the same matrix, by as<> and by Config::get, if single numbers are; decode refuses a list that is too short.

*Model and proof.* Induction over rows and columns.

*Status.* proved. Theorems: `c183_round_trip`, `c183_short`. The conversion of single numbers is arbitrary.

### C184 Post-processing replays the start of the log

post_process hands the records of the first 45 seconds of the log to the filter.

*Model and proof.* Refuted for every log of this century: the time of the initial state is never set, so the maintenance callback ends the reading before the first record. Built on the model of LogReader.

*Status.* partial. Theorems: `c184_start_refuted`, `c184_nothing`, `c184_limit_partial`. The statement is false of the code: x0.t stays at 1970, so the callback that is to stop after 45 s stops at the first record of every log stamped after 1970-01-01 00:00:46; c184_nothing proves this for all logs. Proved: the limit is 45 s from the time of the state.

### C185 Post-processing gives the filter every observation

post_process hands every logged GNSS observation to the filter once, together with those of its epoch.

*Model and proof.* Refuted: epochs within 10 ms of one another. Exact batches proved by induction, with the comparison of doubles at 10 ms exact to the nanosecond.

*Status.* partial. Theorems: `c185_dropped_refuted`, `c185_batches_partial`, `c185_all_partial`. The statement is false of the code: of epochs less than 10 ms apart only the first is used. Proved: the exact batches, and that nothing is lost when the observations between gaps are of one time.

### C186 Post-processing uses ephemerides logged within two hours of their time

loadEphemeris hands to the filter exactly the ephemerides of the log stamped within 7200 s of their time of ephemeris, in order.

*Model and proof.* Induction, with the comparison in double precision shown exact.

*Status.* proved. Theorems: `c186_loaded`. Times below 2^62 s.

### C187 Dense forms of generated filters hold every block at its place

dense() of a generated ErrorState, Covariance, ProcessCovariance or Jacobian has the size of the components in use and holds every component of every block at its place: fixed members first, then variable ones, as many elements of each as counted; blocks that the configuration does not list are zero, and covariances are symmetric. Every composition can be generated.

*Model and proof.* Generator and generated assignments modelled; induction over the members with the memory as a function.

*Status.* proved. Theorems: `c187_vector`, `c187_covariance`, `c187_process`, `c187_jacobian`, `c187_places`. The contents of a block are those of its accessor (C191).

### C188 fromDense undoes dense

ErrorState::fromDense(e.dense(counts)) is e, for the elements counted.

*Model and proof.* Refuted for counts below the largest; proved for the largest.

*Status.* partial. Theorems: `c188_round_trip_refuted`, `c188_full_partial`. The statement is false of the code: fromDense only takes vectors of the largest size. Proved for the largest counts.

### C189 The size of a state is the number of its error components

State::size() is the number of components of the error state for the current counts.

*Model and proof.* Refuted for elements of several components.

*Status.* partial. Theorems: `c189_size_refuted`, `c189_size_partial`. The statement is false of the code: a variable member counts one for every element, not its components. Proved when elements have one component, as in rtk_ekf.yaml.

### C190 A covariance made from variances is their diagonal matrix

Covariance(const ProcessCovariance&), with which post_process makes the initial covariance, is the diagonal matrix of the variances; tile returns copies of its argument.

*Model and proof.* Refuted in every composition of two members or more, and for tile always; memory that is not written holds arbitrary values.

*Status.* partial. Theorems: `c190_initial_refuted`, `c190_tile_refuted`, `c190_blocks_partial`. The statement is false of the code: blocks between different members are never written, and tile writes nothing, so the blocks of variable members are not either; in every composition some content of the memory shows it. Proved: the blocks of fixed members with themselves.

### C191 Accessors of blocks return the block in use

The accessor of a block of a Jacobian or covariance, as the generated code calls it, returns as many rows and columns as the two members have components.

*Model and proof.* The order of a set is an arbitrary permutation of its elements, chosen for every set of strings.

*Status.* partial. Theorems: `c191_accessor_refuted`, `c191_accessor_partial`. The statement is false of the code: parameters and arguments stand in the orders of two different Python sets, so that two variable members may get their counts interchanged. Proved for at most one variable member, or two with one counter. (In rtk_ekf the two counts of fix and hold are checked to be equal.)

### C192 Whether an update is made depends on measurement and filter alone

doUpdate gates a measurement, and update ends the process, depending on the rows of the measurement and on the filter only.

*Model and proof.* Refuted for every measurement of fewer rows than the largest number; exact where the rest is zero.

*Status.* partial. Theorems: `c192_gate_refuted`, `c192_check_refuted`, `c192_gate_partial`, `c192_check_partial`. The statement is false of the code: of fewer rows than the largest number, the rest of the residual, of the Jacobian and of the inverse innovation is never written and yet used. Proved when the rest is zero or there is none. The gate over the real numbers.

### C193 isFinite refuses what is not finite

isFinite holds exactly of matrices of finite numbers.

*Model and proof.* Refuted: an infinity equals itself. IEEE doubles of Flocq.

*Status.* partial. Theorems: `c193_finite_refuted`, `c193_finite_partial`. The statement is false of the code: infinities pass. Proved: finite numbers pass and NaN does not.

### C194 Numerical Jacobians converge to the derivative

Each entry of compute_jac(f, x, eps) differs from the partial derivative of f by at most m eps^2 / 6, where m bounds the third derivative along that coordinate within eps of x; it is exact for functions that are quadratic in it.

*Model and proof.* Taylor expansion to third order with mean value theorems, over the real numbers.

*Status.* proved. Theorems: `c194_close`, `c194_quadratic`. Over the real numbers: rounding is left out.

### C195 Numerical Jacobians are accurate at every point

compute_jac in double precision, with its default step, returns the identity within 1e-6 for the function that returns its argument.

*Model and proof.* Refuted at the radius of the Earth and, for every function, beyond 2^27; bounded by the rounding error nearer to the origin. IEEE doubles of Flocq.

*Status.* partial. Theorems: `c195_earth_refuted`, `c195_blind_refuted`, `c195_identity_partial`, `c195_off_diagonal`. The statement is false of the code: the step is absolute, so at 6378137 the Jacobian is 2 percent off, and beyond 2^27 it is zero for every function. Proved: the error of the identity is below 2^(k-52)/eps within 2^k of the origin.

### C196 Numerical Jacobians of rotations match the exact ones

compute_jac of a product, of an inverse or of a rotated vector with respect to a quaternion is the exact Jacobian to a relative error of the square of the step.

*Model and proof.* The steps on the manifold computed in closed form, over the real numbers.

*Status.* proved. Theorems: `c196_product`, `c196_inverse`, `c196_fixed_step`, `c196_rotated`. Over the real numbers: rounding is left out.

### C197 The simulation runs for the time asked for

simulate ends at the first step that reaches start + tmax, or at the interrupt, with the true pose logged once a step at start + k dt, for every positive dt.

*Model and proof.* Refuted below a nanosecond: the time does not advance. Proved from a nanosecond on by induction over the steps.

*Status.* partial. Theorems: `c197_ends_refuted`, `c197_ends_partial`. The statement is false of the code: a positive step below a nanosecond adds nothing and the loop never ends. Proved for steps of a nanosecond or more, start within 2^60 s, and fewer than 2^31 steps.

### C198 The progress bar shows the part that is done

ProgressBar::print fills the cells of the part done, leaves those of the rest blank, prints as many cells as the bar is wide and prints in between one of the characters of its theme.

*Model and proof.* Integer quotients; rounding left out.

*Status.* proved. Theorems: `c198_width`, `c198_characters`, `c198_filled`, `c198_complete`. Rounding of the quotients is left out.

### C199 The time left can be printed at any moment

ProgressBar::print computes the time left and the time elapsed for every number of completed steps from none to all.

*Model and proof.* Refuted before the first step and early in long runs; exact otherwise.

*Status.* partial. Theorems: `c199_start_refuted`, `c199_long_refuted`, `c199_left_partial`. The statement is false of the code: infinities, NaN and values beyond an int are converted to int before the first step is done and early in long runs. Proved: exact when the time left is below 2^31 ms. Rounding of the quotients is left out.

### C200 randomUniform draws from the interval asked for

randomUniform(lower, upper) draws from the whole of the interval from lower to upper.

*Model and proof.* Refuted: the width is an int, so that below 1 only lower is drawn. Proved: never outside of the interval, and all of it for whole widths below 2^31.

*Status.* partial. Theorems: `c200_narrow_refuted`, `c200_wide_refuted`, `c200_within`, `c200_reached_partial`. The statement is false of the code: the width is converted to int. Proved: within the interval always, all of it for whole widths. Over the real numbers: rounding is left out.

### C201 RETURN_OR_ASSIGN evaluates its argument once

RETURN_OR_ASSIGN(e) evaluates e once, returns its error, or goes on with its value.

*Model and proof.* Refuted by a call that removes an element; proved for expressions whose second evaluation repeats the first.

*Status.* partial. Theorems: `c201_once_refuted`, `c201_pure_partial`. The statement is false of the code: the argument is evaluated twice. Proved for expressions whose second evaluation repeats the first.

### C202 Messages at or above the configured level are shown

dbg, info, warn, error and fatal print exactly when LOG_LEVEL is at most their own level.

*Model and proof.* Refuted: error and fatal are shown up to WARN only.

*Status.* partial. Theorems: `c202_severe_refuted`, `c202_shown_partial`. The statement is false of the code: error and fatal compare with WARN. Proved for the other functions, and for all at levels up to WARN.

### C203 The estimator keeps measurements in order

After any history of calls, the measurements that the estimator keeps for replaying are in order of time and, at one time, of kind; they are the accepted ones that are at most a second older than the newest accepted one, those of one time and kind in the order of arrival.

*Model and proof.* Invariant over calls: the kept list is the stable order of the accepted ones, cut at one second exactly (subtraction in doubles).

*Status.* proved. Theorems: `c203_sorted`, `c203_kept`, `c203_dropped`. Sessions of up to 2^50 ns from the start, as long as the process does not end (C81).

### C204 Configuration messages depend only on their arguments

Every configuration call writes complete frames that carry its arguments and depend only on them and on the version of the receiver, not on the messages sent before.

*Model and proof.* Bytes of the packed structures at their offsets, framed by sendMessage (C14). Refuted for startSurveyIn, which sends what is left in the buffer; proved for the others.

*Status.* partial. Theorems: `c204_enable`, `c204_rate`, `c204_independent_partial`, `c204_survey_refuted`, `c204_survey_partial`. The statement is false of the code: startSurveyIn does not clear its message and sends what earlier calls left there, beginning with the version byte. Proved: exact frames for enableMessage and setNavRate, independence of earlier calls for all but startSurveyIn, and the three fields that startSurveyIn does write (its limit is 0.3 mm, not the 3 cm of the comment).

### C205 What is written to the receiver depends on its answers

The bytes that gather_ephemeris writes when it sets up a receiver depend only on what the receiver answers.

*Model and proof.* Members without initialisers are arbitrary initial values. Refuted: NMEA is disabled before the version is known.

*Status.* partial. Theorems: `c205_unset_refuted`, `c205_answered_partial`. The statement is false of the code: disableNmea branches on major_version_ before it has a value. Proved: after an answer with a version, what is written depends on the answer only.

### C206 configure sets one key and getConfiguration asks for one

configure sends a message that the protocol reads as setting the given key to the given value and nothing else; getConfiguration one that asks for the given key and nothing else.

*Model and proof.* The grammar of UBX-CFG-VALSET and VALGET as a specification. Refuted: the fixed lengths of 12 and 16 bytes.

*Status.* partial. Theorems: `c206_set_refuted`, `c206_word_refuted`, `c206_get_refuted`, `c206_front_partial`, `c206_word_partial`. The statement is false of the code: for every key of one or two bytes the message of 12 bytes is not a list of keys with values, for keys of four bytes and size 4 the value sent is 0, and getConfiguration asks for the key 0 twice besides. Proved: the message begins with header, key and value, zeros following; four-byte values announced with size 2 are sent correctly.

### C207 disableNmea turns NMEA off

disableNmea turns NMEA off on the serial port and on USB, in both directions, and keeps characters of eight bits.

*Model and proof.* Fields of UBX-CFG-PRT as a specification. Refuted for the serial port (the two ports are or-ed into USB) and for new receivers.

*Status.* partial. Theorems: `c207_serial_refuted`, `c207_new_refuted`, `c207_usb_partial`. The statement is false of the code: PORT_USB | PORT_UART1 is PORT_USB, the character format is written into the flags, and the messages to new receivers are malformed (C206). Proved: on the USB port of old receivers the masks are right.

### C208 The dynamic model is the same on every receiver

setDynamicMode selects the same dynamic model on old and on new receivers and changes nothing else.

*Model and proof.* Refuted: 4 g on old receivers, 1 g on new ones.

*Status.* partial. Theorems: `c208_model_refuted`, `c208_only_partial`. The statement is false of the code: 4 g for old receivers, 1 g for new ones. Proved: on old receivers nothing else is applied.

### C209 The version of the receiver is the one it gives

After a version message has arrived, majorVersion and minorVersion are those that the message gives.

*Model and proof.* Round trip from the layout of the protocol (strings of 30 bytes) through the reader (places 10 bytes apart). Refuted for late strings, stale bytes, and five digits.

*Status.* partial. Theorems: `c209_version_partial`, `c209_silent_partial`, `c209_late_refuted`, `c209_stale_refuted`, `c209_long_refuted`. The statement is false of the code: the structure takes 30 strings of 10 bytes for strings of 30 bytes, so that strings from the eighth on are not seen; bytes beyond the end of the message are searched too; a part of five digits is read beyond an array. Proved: in one of the first seven strings, with parts of at most four digits and nothing else that looks like a version, the version is right; with nothing that looks like one the old version stays.

### C210 The name of the module is the one it gives

After a version message has arrived, moduleVame is the name that the message gives.

*Model and proof.* Proved below ten characters; from ten on the array has no end.

*Status.* partial. Theorems: `c210_name_partial`, `c210_long_refuted`. The statement is false of the code: a name of ten or more characters leaves the array without a terminating zero. Proved for shorter names in the last place that looks like a name, in the first seven strings.

### C211 Quaternions, dual quaternions and error states are values

Programs that make, copy, assign, multiply and change Quat, DQuat and ImuErrorState objects behave as if each object had numbers of its own: a statement changes the object on its left and nothing else, and real(), dual(), alpha, beta and gamma are parts of the numbers of their object.

*Model and proof.* A memory of single numbers, objects as the addresses their maps look at; the specification has lists of numbers and no addresses. Induction over programs with the memory as the concatenation of the objects.

*Status.* partial. Theorems: `c211_values_partial`, `c211_values_refuted`. The statement is false of the code: C212 to C215 are its four exceptions. Proved of all programs without q *= q, quaternions made from expressions, dual quaternions of eight numbers and copies of error states. Over the real numbers: rounding is left out.

### C212 Multiplying in place leaves the product

After q *= p the quaternion q is the product of what q and p were, whatever quaternion p is.

*Model and proof.* Refuted where both are one object: the right side is read again after part of it was overwritten.

*Status.* partial. Theorems: `c212_multiply_partial`, `c212_square_wrong`, `c212_multiply_refuted`. The statement is false of the code: q *= q is wrong for every quaternion with a first vector part whose square has another scalar part than it. Proved for different objects (see also C211). Over the real numbers: rounding is left out.

### C213 The parts of a dual quaternion of eight numbers are those numbers

After DQuat d(rw, rx, ry, rz, dw, dx, dy, dz), d.real() is the quaternion of the first four numbers and d.dual() that of the last four.

*Model and proof.* Refuted: the parts are default quaternions; for all eight numbers the exact behaviour is proved.

*Status.* partial. Theorems: `c213_scalars_partial`, `c213_scalars_refuted`. The statement is false of the code: real() and dual() are the identity whatever the numbers. Proved: the eight numbers are there, and a copy has the right parts.

### C214 A copy of an error state is its own

A copy of an ImuErrorState has numbers of its own: changing alpha, beta or gamma of the copy changes the copy and not the original.

*Model and proof.* Refuted: the copy constructor that the compiler writes copies the maps.

*Status.* partial. Theorems: `c214_copy_partial`, `c214_copy_shared`, `c214_copy_refuted`. The statement is false of the code: alpha, beta and gamma of a copy look at the original. Proved: the copy is right when made.

### C215 A quaternion made from an expression is that quaternion

A quaternion constructed from an expression of four numbers, such as the sum of two element vectors, has these numbers.

*Model and proof.* Refuted for every expression: the map looks at the temporary.

*Status.* partial. Theorems: `c215_expression_gone`, `c215_expression_refuted`. The statement is false of the code for every expression: the temporary is gone after the statement.

### C216 A copy of a circular buffer is its own

After a CircularBuffer is copied, the original and the copy are two queues: operations on one do not change what the other holds or reports.

*Model and proof.* The two share slots and have a head and a tail each. Proved for removals through the representation relation of C06; refuted for insertions and for size().

*Status.* partial. Theorems: `c216_copy_partial`, `c216_size_partial`, `c216_push_refuted`, `c216_size_refuted`. The statement is false of the code: the copy works on the slots of the original, and its size() on the head of the original. Proved: contents of both under all sequences of removals; size() of the copy while only the copy gives objects out.

### C217 A circular buffer and its copy destroy each object once

When a CircularBuffer and its copy end, in either order, every object is destroyed exactly once.

*Model and proof.* Wrong for every buffer that is not empty; right for empty ones.

*Status.* partial. Theorems: `c217_ended_partial`, `c217_ended_wrong`, `c217_ended_refuted`. The statement is false of the code for every buffer that holds an object when copied. Proved for empty ones.

### C218 A factor shows its states

base_items() of a factor gives the states the factor was made with, in that order, each with an ID that tells its class, the DIM of its class and the numbers last written to it.

*Model and proof.* The specification reads the program: the last statement that wrote a state, the arguments of each factor.

*Status.* proved. Theorems: `c218_items`, `c218_ids`, `c218_classes`. For programs that compile and name objects that are there; the bodies of the factors are not defined in the code.

### C219 A state lists its factors

The list of factors of a state holds the factors that were made with it.

*Model and proof.* Refuted: factors do not register. Proved: only the caller puts factors there.

*Status.* partial. Theorems: `c219_lists_partial`, `c219_lists_refuted`. The statement is false of the code: making a factor does not put it on the lists of its states. Proved: what is on a list was put there by the caller.

### C220 A new graph starts at the initial state

After FactorGraph graph(options), lastNode() has the time, pose, velocity and clock of the options and all its switches are 1, and the graph has one node.

*Model and proof.* On the circular buffer of C06.

*Status.* proved. Theorems: `c220_first`. The members imu_bias_, p_b2g_ and T_r2n_, which nothing reads, are left out.

### C221 Rectifying gives the nearest rotation

rectify() and rectified() of SO3 and SE3 turn any matrix into the rotation nearest to it, in the sum of the squares of the entries; SE3 keeps its translation and becomes a rigid motion.

*Model and proof.* The decomposition is an argument with the promise of Eigen as hypothesis. In its bases the inner product with an orthonormal matrix is a sum of singular values times diagonal entries of at most 1. Refuted for mirrors.

*Status.* partial. Theorems: `c221_nearest`, `c221_rotation_partial`, `c221_near`, `c221_mirrored`, `c221_rotation_refuted`, `c221_motion`. The statement is false of the code for matrices with a negative determinant: the nearest orthonormal matrix is a mirror. Proved: nearest of all orthonormal matrices; a rotation when the determinant is positive, as it is for every matrix nearer than 1 to a rotation. The decomposition of Eigen is an argument, with what Eigen promises of it as a hypothesis. Over the real numbers: rounding is left out.

### C222 Rectifying leaves rotations as they are

rectify() does not change a rotation, so that doing it twice is doing it once; what it gives does not depend on the choice of decomposition, does not change when the matrix is scaled, and turns with the matrix.

*Model and proof.* The nearest orthonormal matrix is unique.

*Status.* proved. Theorems: `c222_fixed`, `c222_twice`, `c222_same`, `c222_turned`. The decomposition of Eigen is an argument, with what Eigen promises of it as a hypothesis. Over the real numbers: rounding is left out.

### C223 Rectifying in several threads

Every call to rectify() gives the rectified form of its own matrix, whatever other threads do.

*Model and proof.* The solver is a static variable. Refuted by a schedule of two threads; proved for calls that do not overlap; orthonormal in every schedule.

*Status.* partial. Theorems: `c223_alone_partial`, `c223_one_thread`, `c223_orthonormal`, `c223_threads_refuted`. The statement is false of the code: the solver is shared, and a call can give the matrix of another thread. Proved for calls that do not overlap and for one thread; in every schedule of whole steps the result is orthonormal. Over the real numbers: rounding is left out.

### C224 Each random number of a simulation serves one purpose

The numbers drawn for the input, the clock, the satellites and the inertial sensor of a simulation are different numbers of the random sequence, none used twice.

*Model and proof.* Each instance of the template has a static engine of its own in the default state. Refuted: all purposes use the same numbers.

*Status.* partial. Theorems: `c224_in_turn_partial`, `c224_shared`, `c224_refuted`. The statement is false of the code: each type has a static engine of its own, all in the same state. Proved: within a purpose every number is used once. Over the real numbers: rounding is left out.

### C225 A simulation can be repeated

A simulation with the same options and motion draws the same noise each time.

*Model and proof.* Refuted: the static engines go on from the last simulation. Proved for the noise of the satellites.

*Status.* partial. Theorems: `c225_satellites_partial`, `c225_goes_on`, `c225_repeat_refuted`. The statement is false of the code: the static engines go on where the last simulation left them. Proved for the noise of the satellites. Over the real numbers: rounding is left out.

### C226 The simulated biases walk with the strength of the options

The biases of the simulated inertial sensor walk with the strengths accel_walk_stdev and gyro_walk_stdev.

*Model and proof.* Refuted: the strength is that of the noise. Proved: exactly when right.

*Status.* partial. Theorems: `c226_strength_partial`, `c226_noise`, `c226_strength_refuted`. The statement is false of the code: the biases walk with the strength of the noise of the readings. Proved: exactly when right. Over the real numbers: rounding is left out.

### C227 Random walks spread with the time

How far the simulated biases and the rate of the clock spread depends on the time that has passed and not on how often the sensor samples: the variance after a time T is the square of the strength times T.

*Model and proof.* The state is a weighted sum of the noise; the variance is the sum of the squares of the weights, which are unique. Refuted: n samples in a time T give T^2/n.

*Status.* partial. Theorems: `c227_bias`, `c227_clock`, `c227_one`, `c227_spread_partial`, `c227_rate`, `c227_spread_refuted`. The statement is false of the code: the noise is scaled with the time and not with its square root. Proved: right for samples once a second, and the variance in all cases. Over the real numbers: rounding is left out.

### C228 The bias of the simulated clock is the integral of its rate

Between two samples the rate of the clock goes straight from one value to the next and the bias follows a curve with that slope; without noise the bias grows evenly over any history.

*Model and proof.* Derivative of the curve; induction over the history.

*Status.* proved. Theorems: `c228_integral`, `c228_steady`. Over the real numbers: rounding is left out.

### C229 The carrier phase of a simulated satellite keeps its number of cycles

For each satellite there is one whole number of cycles such that at every sample the carrier phase is the range in wavelengths plus that number plus its own noise; pseudorange and Doppler have noise of their own.

*Model and proof.* Induction over the satellites.

*Status.* proved. Theorems: `c229_cycles`. The offsets are arguments, drawn by std::rand. Over the real numbers: rounding is left out.

### C230 Errors that say the same are equal

Two errors compare equal, with == and !=, exactly when they were made with the same message; an error compares equal to a text exactly when that is its message.

*Model and proof.* Programs run on a memory of texts; the layout is any that the language allows. Refuted: addresses are compared.

*Status.* partial. Theorems: `c230_equal_partial`, `c230_pooled_partial`, `c230_equal_refuted`, `c230_array_refuted`. The statement is false of the code: addresses are compared, and the language lets equal literals have different ones. Proved: equal errors made from literals say the same; the converse where literals are pooled.

### C231 An error keeps its message

what() gives the message that the error was made with, whenever it is asked.

*Model and proof.* Induction over programs. Refuted for arrays, which create accepts although its comment says otherwise.

*Status.* partial. Theorems: `c231_keeps_partial`, `c231_array_refuted`. The statement is false of the code: create accepts arrays that are not constant. Proved for errors made from literals, as all in the repository are.

### C232 An error that was made is one, and has a message

An error made with create() is not ok() and has a message that is not empty; none() is ok().

*Model and proof.* Refuted for the message: the size compared with 0 counts the end of the text. Proved: ok() exactly for none().

*Status.* partial. Theorems: `c232_ok_partial`, `c232_message_refuted`. The statement is false of the code: an empty message is accepted. Proved: ok() exactly for none().

### C233 Printing errors leaves a stream usable

What is printed of a sequence of errors is the messages in order, and nothing for none().

*Model and proof.* Induction over the sequence. Refuted: printing none() ends all output of the stream.

*Status.* partial. Theorems: `c233_prints_partial`, `c233_stops`, `c233_prints_refuted`. The statement is false of the code: none() writes a null pointer, which the standard leaves undefined and after which libstdc++ (modelled) writes nothing. Proved: right up to the first none(), and nothing after it.

### C234 RETURN_IF_NOT_OK returns the first error

RETURN_IF_NOT_OK evaluates its argument once, as it stands in the function around it; it returns the error, and nothing after it is run, or goes on.

*Model and proof.* Interpreter with scopes, compared with the meaning. Refuted for arguments that use a variable err.

*Status.* partial. Theorems: `c234_means_partial`, `c234_first`, `c234_means_refuted`. The statement is false of the code for arguments that use a variable called err, which is read before it is set. Proved for all others.

### C235 A result without a value has an error

An ErrorResult has either a value, which res() gives, or an error that is not ok(), which err() gives.

*Model and proof.* Case analysis. Refuted where DISABLE_CHECK is defined.

*Status.* partial. Theorems: `c235_result_partial`, `c235_value`, `c235_none`, `c235_result_refuted`. The statement is false of builds with DISABLE_CHECK. Proved for builds with checks, where none() ends the process.

### C236 getNext gives the records of a stream one by one

Successive calls of getNext for a key give the records logged to it, unchanged and in order, whatever is asked of other keys in between; after the last record the time is the end of time.

*Model and proof.* Invariant over calls: the bytes left in each file are those of the records not given yet.

*Status.* proved. Theorems: `c236_answers`. The objects read into have the types and sizes that were logged.

### C237 A LogReader gives every record once

Over any sequence of setCallback, getNext and read, also stopped early and called again, the records given for a key are the first ones of its stream, each once and in order; when read has come to the end, a key with a callback has been given all of them.

*Model and proof.* Invariant over calls. Refuted for callbacks set after a read, which dropped the stream.

*Status.* partial. Theorems: `c237_all_partial`, `c237_first_partial`, `c237_twice`, `c237_late_refuted`. The statement is false of the code: read drops the streams that have no callback, and a callback set later gets nothing. Proved for callbacks set before the first read; and at every moment the records given are the first of the stream.

### C238 A LogReader opened again shows the new log

After open() of a second log the streams, the start time and the end time are those of that log, as for a new reader.

*Model and proof.* Refuted: nothing is reset and emplace keeps the old stream. Proved: keys that the first log has not come from the second; the times are those of both.

*Status.* partial. Theorems: `c238_other_keys_partial`, `c238_second_refuted`, `c238_times_refuted`. The statement is false of the code: open resets nothing, and a stream of the first log hides the one of the second. Proved for keys that the first log has not.

### C239 verify_ephemeris reports every logged ephemeris

For each of the three streams of ephemerides the program prints one line for each record logged, in the order written; the line is an error exactly if the time of the record and the time of the ephemeris are more than two hours apart.

*Model and proof.* End to end over the model of the writer and the reader: bytes written are read back and compared, with the double of the difference rounded.

*Status.* proved. Theorems: `c239_lines`, `c239_streams`, `c239_types`. The type and the satellite on the line are left out; times are within the range of the model's clock. Over the real numbers: rounding is left out.

### C240 What gather_ephemeris logs, verify_ephemeris accepts

The ephemerides that gather_ephemeris has checked and logged are within two hours of the time of their record, so that verify_ephemeris reports none as unusual and post_process uses all.

*Model and proof.* Refuted: the clock is read twice, and the record is stamped with the first reading and checked with the second. Proved: off by at most the time between the two.

*Status.* partial. Theorems: `c240_accepted_partial`, `c240_accepted_refuted`. The statement is false of the code when the two hours end between the two readings of the clock. Proved: off by at most the time between the two, and accepted if the ephemeris is not newer than the record.

### C241 The simulator observes each satellite of its log once

A GnssSim makes its observations from the satellites that have ephemerides in the log, each once, with all ephemerides of the log, the latest for each reference time; all ephemerides wait to be sent in the order of the log. A log without ephemerides ends the process.

*Model and proof.* Invariant over the records: the map of each constellation is sorted, and each satellite holds what its ephemerides say.

*Status.* proved. Theorems: `c241_once`, `c241_queues`, `c241_loads`, `c241_mismatch`. Records are those that the reader hands over; their constellations are those of their streams, or the process ends.

### C242 GnssSim::load may be called again

After load() is called again the observations are made from the satellites of both logs, each once.

*Model and proof.* Refuted for all logs: the pointers are appended and the offsets not made longer.

*Status.* partial. Theorems: `c242_again_partial`, `c242_again_refuted`. The statement is false of the code for all logs: a sample then reads past the end of the offsets. Proved: the satellites themselves hold what both logs say.

### C243 A copied simulator observes what the original does

A copy of a GnssSim makes the same observations as the original, also when the original is gone.

*Model and proof.* Objects with addresses. Refuted: the pointers of the copy go to the maps of the original. Proved: right exactly as long as the first original lives.

*Status.* partial. Theorems: `c243_copy_partial`, `c243_outlives`, `c243_copy_refuted`. The statement is false of the code when the original is gone: the pointers of a copy go to the satellites of the original. Proved as long as it lives.

### C244 The simulation does not depend on who listens

The states of a simulation are the same whatever callbacks are registered and when; the data of a step go once each to the callback registered last for their sensor, in the order GNSS, IMU, GPS, Galileo, GLONASS.

*Model and proof.* Every run is compared with the run in which everything is listened to.

*Status.* proved. Theorems: `c244_state`, `c244_calls`, `c244_order`. Callbacks do not change the simulator.

### C245 The numerical Jacobian of a function into the rotations

For a function that turns at a constant rate along a coordinate, the column of left_jac3 is the rate in the outer frame and that of right_jac3 the rate in the inner frame, to 1e-22. For every function with a derivative, the columns tend to these rates as the step goes to zero. For every function the two columns are each other's, turned by the value of the function at the lower point.

*Model and proof.* Over the reals. The logarithm commutes with conjugation; a turn and its opposite make a turn of twice the angle, whose logarithm is known.

*Status.* proved. Theorems: `c245_left`, `c245_right`, `c245_limit`, `c245_frames`. For values that are quaternions; other groups are not modelled. Over the real numbers: rounding is left out.

### C246 The numerical Jacobian does not depend on the sign of the quaternion

left_jac3 and right_jac3 give the same matrix for two functions that give the same rotations, whichever of the two quaternions of each rotation they return.

*Model and proof.* Refuted: log takes the long way for a negative real part, except in its series for small turns. Proved for small turns.

*Status.* partial. Theorems: `c246_sign_partial`, `c246_sign_refuted`. The statement is false of the code when the function turns by more than about 8e-6 radians between the two points and the sign changes there. Proved for smaller turns. Over the real numbers: rounding is left out.

### C247 hstack and vstack put matrices beside and above each other

hstack(a, b) of matrices with the same number of rows is a with b to its right; vstack(a, b) of matrices with the same number of columns is a with b below. Every entry is written, and no write leaves the matrix.

*Model and proof.* Eigen's comma initializer is modelled with its position, its wrap to the next row and its assertions.

*Status.* proved. Theorems: `c247_hstack`, `c247_vstack`. The comma initializer is that of Eigen 3.3; sizes do not overflow.

### C248 hstack and vstack refuse matrices that do not fit

hstack of matrices with different numbers of rows, and vstack of matrices with different numbers of columns, end the process rather than give a matrix.

*Model and proof.* Refuted for builds with NDEBUG: entries of the result are not initialised. Proved for the others.

*Status.* partial. Theorems: `c248_refused_partial`, `c248_refused_refuted`. The statement is false of builds with NDEBUG, in which the assertions are gone. Proved for builds without.

### C249 tile gives copies of a matrix

tile(a, v, h) is the matrix of v times h copies of a.

*Model and proof.* Refuted for all matrices: the loop makes blocks and assigns nothing to them. Proved: the size.

*Status.* partial. Theorems: `c249_copies_partial`, `c249_copies_refuted`. The statement is false of the code for all matrices that have entries: nothing is ever written to the result. Proved: the result has the right size.

### C250 modf splits every entry exactly

modf gives, for each entry of a matrix of finite numbers, the whole part towards zero and the rest, with the sign of the entry and below one, whose sum is the entry without any rounding; the whole parts may be put into the matrix itself.

*Model and proof.* Doubles of IEEE 754. Refuted: the cast to int is undefined from 2^31, and the rest is zero when the two matrices are one. Proved for others.

*Status.* partial. Theorems: `c250_parts_partial`, `c250_large_refuted`, `c250_alias_refuted`. The statement is false of the code for entries whose whole part is not an int, and when intpart is x itself. Proved for all others, on doubles.

### C251 argsort gives the places of the entries in the sorted vector

For every vector, putting each entry at the place that argsort gives for it, as a permutation matrix made from the result does, uses every place once and gives the vector in ascending order.

*Model and proof.* std::sort is a relation. Refuted with NaN, where the comparison is not a strict weak order. Proved for all others, infinities too.

*Status.* partial. Theorems: `c251_sorts_partial`, `c251_nan_refuted`. The statement is false of the code for vectors with NaN beside different numbers: std::sort then has no defined behaviour. Proved for all vectors without NaN.

### C252 argsort lists the entries from the smallest to the largest

x(argsort(x)(k)) is the k-th smallest entry of x, as with the function of this name in NumPy.

*Model and proof.* Refuted by 3, 1, 2: the result is the inverse permutation. Proved where the permutation is its own inverse.

*Status.* partial. Theorems: `c252_lists_partial`, `c252_lists_refuted`. The statement is false of the code: argsort gives the place of each entry (C251), which is the inverse. Proved for permutations that are their own inverse. The uses in the code want the places.

### C253 Numerical Jacobians of functions of rotations converge to the derivative

For every function from rotations to rotations or to vectors that has derivatives along the turns about the three axes, the columns of the numerical Jacobian tend to these derivatives as the step goes to zero, as rates of rotation in the outer frame for the left Jacobian and in the inner frame for the right one.

*Model and proof.* Over the reals. A step of the code is a turn by an angle that differs from the step by its third power, because exp normalises; the gap of the values is differentiated and the series of log tends to 1.

*Status.* proved. Theorems: `c253_rotations`, `c253_vectors`. A limit, which says nothing of the fixed step 1e-8 of left_jac and the others; for the size of the error there see C196. Over the real numbers: rounding is left out.

### C254 A maintenance callback works whenever it is set

A maintenance callback given to setMaintenanceCallback before a log is opened is refused by the check there, or is called while the log is read like one that is set after opening: from the start of the log on, once per period.

*Model and proof.* The check compares with UTCTime::min() but the member starts as UTCTime::max(). Refuted for all logs: the callback is accepted and never called. Proved for callbacks set after opening.

*Status.* partial. Theorems: `c254_after_partial`, `c254_mixed_partial`, `c254_before_refuted`. The statement is false of the code for callbacks set before opening: they are accepted, and reading does just what it does without them. Proved for those set after opening, whatever was set before. The start of the log is that of openLog; that the streams read are those of the directory is C34.

### C255 Times are given to RTKLIB unchanged and in order

toRtklib of a time has its whole seconds and a fraction from 0 up to but below 1 that is within 2^-52 of the true one; of two times the earlier one stays earlier, so that different times stay different.

*Model and proof.* Doubles of IEEE 754.

*Status.* proved. Theorems: `c255_keeps`, `c255_order`. Used by the tests, as the way to the library they compare with. toe and toc of Kepler ephemerides are set with the same expression.

### C256 toSdr gives the GPS week and the second in the week

toSdr of a time has the GPS week in which the time lies and the seconds since the start of that week, and the date of an ephemeris is made from these.

*Model and proof.* Refuted for all times: the seconds are overwritten with a week counted from 1970 and the week is never set. Proved: nothing overflows.

*Status.* partial. Theorems: `c256_defined_partial`, `c256_week_refuted`, `c256_date_refuted`. The statement is false of the code for every time: both assignments are to sec. Proved: nothing overflows in the GPS weeks 0 to 3549. gps2date is any function of the week and the second.

## What is not modelled

Parts of `/repo` without a model, and why:

* `third_party/` (argparse, backward, crcpp, gps_sdr_sim, rtklib, simplejson), except the conversions of times in the adapters of gps_sdr_sim and rtklib, and the libraries the build
  fetches (Eigen, fmt, yaml-cpp, GoogleTest, Google Benchmark). The CRC of `utils/crc.cxx` is modelled as the
  polynomial division that crcpp documents. Eigen's products, blocks and solvers are modelled by the matrices
  they stand for; which objects share memory is modelled for
  `Quat`, `DQuat`, `ImuErrorState` and copies of `CircularBuffer` (C211 to C217) only. yaml-cpp is modelled by the tree of a document.
* Tests (`test_*`, `*_test.*`), benchmarks (`bench_*`, `*_bench.*`), `common/test_helpers.h`, `scratch/`,
  `script/`, `cmake/`, `docs/`: not part of the programs.
* Plots (`plotting/`, `utils/plot_window.py`, `utils/plotting.py`, `tools/plot_*.py`, `sim/plot_sim.py`,
  `sim/dynamics/plot_test_car.py`, `models/plot_imu_model_test.py`): their only effect is what is drawn.
* Command lines, the text of messages, and formats of numbers in messages.
* Timing of the operating system: threads, signals other than the flag of `sim/simulate.cxx` (C197), and serial
  ports. The programs have one thread.
* `core/solver/solver.h`, `core/states/*.cxx`, `core/factors/factors.cxx`, `sim/dynamics/multirotor.*`: empty files
  or declarations alone. `core/estimator.cxx` is commented out.
* Rounding of double arithmetic, except in times (`UTCTime`, `QuantizedTime`), calendars, bit patterns, PID
  controllers, choice of ephemerides and numerical Jacobians, where doubles are those of IEEE 754 (Flocq).
* Running out of memory, and the size of a stack.


## What Print Assumptions lists for each theorem

Four axioms of the standard library appear and no others: `ClassicalDedekindReals.sig_forall_dec` and
`ClassicalDedekindReals.sig_not_dec` (the real numbers), `FunctionalExtensionality.functional_extensionality_dep`
(real numbers and, in places, matrices as functions) and `Classical_Prop.classic` (used by Flocq and by parts of
the library of real analysis). Theorems by what is listed for them:

* **Closed under the global context** (278 theorems): `c01_le_ge_partial`, `c01_le_refuted`, `c01_strict_and_equality`, `c02_add_exact`, `c02_add_sub_int_exact`, `c02_constructor_normalises`, `c02_sub_exact`, `c02_sub_then_add`, `c03_fromGPS_error`, `c03_fromGPS_overflows`, `c03_fromGPS_refuted`, `c03_fromGPS_whole_seconds_partial`, `c04_glonass_refuted`, `c04_glonass_whole_seconds_partial`, `c06_buffer_is_bounded_deque`, `c07_lifetimes_partial`, `c07_pop_back_refuted`, `c07_push_back_refuted`, `c08_getBit_depends_only_on_field`, `c08_getBit_reads_field`, `c08_getBit_signed_reads_field`, `c09_getBit_after_setBit`, `c09_setBit_preserves_other_fields`, `c09_setBit_writes_field`, `c10_getBitGlo_reads_field`, `c10_getBitGlo_round_trip`, `c11_crc24_additive`, `c11_crc24_defined`, `c11_crc24_is_remainder`, `c11_remainder_unique`, `c12_burst_changes_crc`, `c12_burst_detected`, `c13_double_error_rejected`, `c13_flip_is_one_bit`, `c13_gloTest_is_icd_rule`, `c13_single_error_rejected`, `c14_frames_delivered`, `c14_listener_order`, `c14_send_writes_frame`, `c14_subscription_exact`, `c15_empty_payload_blocks_forever`, `c15_empty_payload_refuted`, `c16_buffer_safe`, `c17_delivered_at_frame_end`, `c17_only_valid_frames`, `c18_noise_then_frame`, `c19_any_order_refuted`, `c19_decode_partial`, `c19_orders`, `c19_subframe3_first_lost`, `c20_always_defined`, `c20_contents_partial`, `c20_issue_mix_refuted`, `c20_zero_issue_refuted`, `c21_first_success_partial`, `c21_spurious_success_refuted`, `c22_rejected_false`, `c22_rejected_unchanged`, `c23_bad_page_ignored`, `c23_bad_page_invisible`, `c23_other_word_ignored`, `c24_complete_consistent`, `c24_reported`, `c25_week_partial`, `c25_week_refuted`, `c26_contents_partial`, `c26_tail_bits_refuted`, `c26_tail_partial`, `c26_when_tails_agree_partial`, `c27_always_reported`, `c27_one_superframe`, `c28_rejected_unchanged`, `c29_record_round_trip`, `c29_round_trip`, `c29_unlisted_kept`, `c30_dynamic_refuted`, `c30_ephemeris_count_refuted`, `c30_ephemeris_refuted`, `c30_layout_partial`, `c30_matrix_refuted`, `c32_python_partial`, `c34_newest`, `c34_python`, `c35_collision_refuted`, `c35_distinct_partial`, `c36_fields`, `c36_ids_sort`, `c36_latest`, `c37_almanac`, `c37_others`, `c39_discovery`, `c39_held`, `c39_roster`, `c51_day_refuted`, `c51_determines_partial`, `c51_fits`, `c51_reads_partial`, `c52_join`, `c52_pieces`, `c52_strip`, `c52_strip_only`, `c53_ends_refuted`, `c54_returns_partial`, `c54_returns_refuted`, `c56_bad_checksum_dropped`, `c56_one_byte_damage_dropped`, `c57_constant_bias`, `c57_elapsed_partial`, `c57_leap_seconds_refuted`, `c58_validity_flags_partial`, `c58_validity_flags_refuted`, `c59_defined_partial`, `c59_repeated_success_refuted`, `c59_short_buffer_refuted`, `c60_foreign_clock_refuted`, `c60_own_clock_partial`, `c61_burst_rejected`, `c62_contents`, `c63_day_partial`, `c63_day_refuted`, `c64_defined_partial`, `c64_overflow_refuted`, `c65_one_bit_rejected`, `c65_two_bits_rejected`, `c66_band_refuted`, `c66_frequency_partial`, `c67_measurements_partial`, `c67_members_lost_refuted`, `c68_estimate_refuted`, `c68_without_covariance_partial`, `c72_archive_refuted`, `c72_other_file_refuted`, `c72_same_partial`, `c72_slash_refuted`, `c73_cycle_refuted`, `c73_returns_partial`, `c74_kept_partial`, `c74_others_partial`, `c74_same_second_refuted`, `c75_closed_partial`, `c75_crash_refuted`, `c75_unreadable`, `c76_destructor_time`, `c76_end_time_partial`, `c76_end_time_refuted`, `c77_empty_refuted`, `c77_opens_partial`, `c78_reopen_partial`, `c78_reopen_refuted`, `c79_all_held_partial`, `c79_all_held_refuted`, `c80_has_ephemeris`, `c84_clock_refuted`, `c84_gps_partial`, `c86_assigned_refuted`, `c86_copy_partial`, `c86_rest_partial`, `c86_time_lost_refuted`, `c112_determines`, `c112_reads_partial`, `c112_reads_refuted`, `c112_shown`, `c155_replay_partial`, `c155_replay_refuted`, `c160_in_range`, `c179_list`, `c179_value`, `c180_required_partial`, `c180_required_refuted`, `c181_throws_partial`, `c181_throws_refuted`, `c182_long_refuted`, `c182_matrix_partial`, `c182_short_refuted`, `c183_round_trip`, `c183_short`, `c187_places`, `c187_vector`, `c188_full_partial`, `c189_size_partial`, `c189_size_refuted`, `c191_accessor_partial`, `c191_accessor_refuted`, `c192_check_partial`, `c192_check_refuted`, `c193_finite_partial`, `c193_finite_refuted`, `c198_characters`, `c198_complete`, `c198_filled`, `c198_width`, `c199_left_partial`, `c199_long_refuted`, `c199_start_refuted`, `c201_once_refuted`, `c201_pure_partial`, `c202_severe_refuted`, `c202_shown_partial`, `c204_enable`, `c204_independent_partial`, `c204_rate`, `c204_survey_partial`, `c204_survey_refuted`, `c205_answered_partial`, `c205_unset_refuted`, `c206_front_partial`, `c206_get_refuted`, `c206_set_refuted`, `c206_word_partial`, `c206_word_refuted`, `c207_new_refuted`, `c207_serial_refuted`, `c207_usb_partial`, `c208_model_refuted`, `c208_only_partial`, `c209_late_refuted`, `c209_long_refuted`, `c209_silent_partial`, `c209_stale_refuted`, `c209_version_partial`, `c210_long_refuted`, `c210_name_partial`, `c216_copy_partial`, `c216_push_refuted`, `c216_size_partial`, `c216_size_refuted`, `c217_ended_partial`, `c217_ended_refuted`, `c217_ended_wrong`, `c218_ids`, `c224_in_turn_partial`, `c224_refuted`, `c224_shared`, `c225_goes_on`, `c225_satellites_partial`, `c230_array_refuted`, `c230_equal_partial`, `c230_equal_refuted`, `c230_pooled_partial`, `c231_array_refuted`, `c231_keeps_partial`, `c232_message_refuted`, `c232_ok_partial`, `c233_prints_partial`, `c233_prints_refuted`, `c233_stops`, `c234_first`, `c234_means_partial`, `c234_means_refuted`, `c235_none`, `c235_result_partial`, `c235_result_refuted`, `c235_value`, `c238_other_keys_partial`, `c238_second_refuted`, `c238_times_refuted`, `c239_streams`, `c239_types`, `c241_loads`, `c241_mismatch`, `c241_once`, `c241_queues`, `c242_again_partial`, `c242_again_refuted`, `c243_copy_partial`, `c243_copy_refuted`, `c243_outlives`, `c244_calls`, `c244_order`, `c244_state`, `c247_hstack`, `c247_vstack`, `c248_refused_partial`, `c248_refused_refuted`, `c249_copies_partial`, `c249_copies_refuted`, `c251_nan_refuted`, `c252_lists_partial`.

* **`sig_forall_dec`** (19 theorems): `c54_transpose`, `c144_fix_and_hold`, `c187_covariance`, `c187_jacobian`, `c187_process`, `c188_round_trip_refuted`, `c190_blocks_partial`, `c213_scalars_partial`, `c214_copy_partial`, `c214_copy_shared`, `c215_expression_gone`, `c215_expression_refuted`, `c218_classes`, `c218_items`, `c219_lists_partial`, `c219_lists_refuted`, `c220_first`, `c223_alone_partial`, `c223_one_thread`.

* **`sig_forall_dec`, `functional_extensionality_dep`** (87 theorems): `c43_best_partial`, `c43_ends`, `c43_far_refuted`, `c44_matrix`, `c45_order`, `c46_composition`, `c53_matrices_refuted`, `c53_value_partial`, `c53_value_refuted`, `c54_covariance`, `c54_input`, `c54_product`, `c54_scale`, `c54_sum`, `c54_transition`, `c55_gated`, `c55_innovation`, `c55_update`, `c99_dquat`, `c99_quat`, `c108_ratio`, `c113_history`, `c113_inverse`, `c113_predict`, `c113_series`, `c114_correction`, `c114_gain`, `c123_fourth_order`, `c137_position_velocity_jacobian`, `c138_velocity_is_rate_partial`, `c138_velocity_is_rate_refuted`, `c139_newton_partial`, `c139_newton_refuted`, `c140_linear_model`, `c140_orientation_partial`, `c140_position_partial`, `c144_jacobian`, `c153_chain`, `c153_jacobian`, `c153_zero`, `c158_inverse_partial`, `c158_inverse_refuted`, `c163_ground`, `c163_specific_force_partial`, `c164_same_process`, `c167_antenna`, `c167_pose`, `c167_velocity`, `c190_initial_refuted`, `c190_tile_refuted`, `c192_gate_partial`, `c192_gate_refuted`, `c194_quadratic`, `c200_narrow_refuted`, `c200_reached_partial`, `c200_wide_refuted`, `c200_within`, `c211_values_partial`, `c211_values_refuted`, `c212_multiply_partial`, `c212_multiply_refuted`, `c212_square_wrong`, `c213_scalars_refuted`, `c214_copy_refuted`, `c221_mirrored`, `c221_nearest`, `c221_rotation_partial`, `c221_rotation_refuted`, `c222_fixed`, `c222_same`, `c222_turned`, `c222_twice`, `c223_orthonormal`, `c223_threads_refuted`, `c225_repeat_refuted`, `c226_noise`, `c226_strength_partial`, `c226_strength_refuted`, `c227_bias`, `c227_clock`, `c227_one`, `c227_rate`, `c227_spread_partial`, `c227_spread_refuted`, `c228_integral`, `c228_steady`, `c229_cycles`.

* **`sig_forall_dec`, `sig_not_dec`, `functional_extensionality_dep`** (73 theorems): `c42_exists`, `c42_factors`, `c42_lossless`, `c44_rotation`, `c45_group`, `c46_rigid`, `c47_from_R`, `c47_matrix`, `c48_action`, `c48_group`, `c87_line`, `c89_dquat`, `c89_se3`, `c89_se3_small`, `c90_left`, `c90_right`, `c90_so3`, `c95_euler`, `c98_line`, `c98_same_motion`, `c100_agree`, `c100_axis_angle`, `c101_partial`, `c101_refuted`, `c104_geodetic`, `c105_axes`, `c105_directions`, `c105_vertical`, `c107_ends`, `c107_reduced`, `c108_closest_partial`, `c108_range_refuted`, `c109_one_refuted`, `c109_returns_partial`, `c121_fresh_partial`, `c121_history_refuted`, `c125_bounds`, `c125_leap_refuted`, `c125_model_partial`, `c126_found_partial`, `c126_still_refuted`, `c140_state_jacobian_refuted`, `c141_each`, `c141_pseudorange_jacobian`, `c142_doppler_jacobian_partial`, `c142_doppler_jacobian_refuted`, `c143_doppler_is_range_rate_partial`, `c143_doppler_is_range_rate_refuted`, `c146_weights`, `c147_switched_off`, `c147_zero`, `c148_range_and_switch`, `c149_clock_partial`, `c149_correlated_refuted`, `c149_doppler_partial`, `c149_doppler_refuted`, `c150_doppler_partial`, `c150_doppler_refuted`, `c150_pseudorange`, `c151_cycles_partial`, `c151_cycles_refuted`, `c152_jacobian_partial`, `c152_jacobian_refuted`, `c156_defined`, `c156_on_the_ground`, `c157_straight_run_partial`, `c157_straight_run_refuted`, `c163_specific_force_refuted`, `c165_same_pseudorange`, `c168_doppler`, `c169_se3`, `c221_motion`, `c221_near`.

* **`sig_forall_dec`, `classic`, `functional_extensionality_dep`** (1 theorems): `c55_mahal`.

* **`sig_forall_dec`, `sig_not_dec`, `classic`, `functional_extensionality_dep`** (216 theorems): `c05_quantized_comparisons_exact`, `c05_quantized_eq_not_transitive`, `c05_quantized_mirror`, `c05_quantized_trichotomy`, `c31_all_records`, `c31_time_order`, `c32_complete_partial`, `c32_incomplete_refuted`, `c33_on_time`, `c38_closest_partial`, `c38_closest_refuted`, `c38_whole_seconds_partial`, `c40_order_partial`, `c40_order_refuted`, `c41_before_oldest_refuted`, `c41_stale_partial`, `c41_unchanged`, `c41_unknown`, `c49_exists`, `c49_frame`, `c50_history_partial`, `c50_limit_partial`, `c50_nan_refuted`, `c69_add`, `c69_add_sub`, `c69_monotone`, `c69_sub`, `c70_negative_refuted`, `c70_partial`, `c71_missing_file_refuted`, `c71_returns_partial`, `c81_close_refuted`, `c81_early_refuted`, `c81_repeated_refuted`, `c81_safe_partial`, `c82_late_partial`, `c82_late_refuted`, `c83_before_1970_partial`, `c83_overflow_refuted`, `c85_evicted_refuted`, `c85_usable_partial`, `c87_exp`, `c88_exp_log`, `c88_exp_log_near`, `c88_log_exp`, `c88_log_exp_near`, `c88_small`, `c89_quat`, `c90_curves`, `c90_near`, `c90_so3_near`, `c91_exp`, `c92_log_partial`, `c92_log_refuted`, `c93_quat_partial`, `c93_quat_refuted`, `c93_so3_partial`, `c93_so3_refuted`, `c94_opposite_refuted`, `c94_quat_partial`, `c94_same`, `c94_so3_partial`, `c95_round_trip`, `c96_exp_log_partial`, `c96_log_exp_partial`, `c96_negative_refuted`, `c96_small_refuted`, `c97_exp_log_partial`, `c97_half_turn_refuted`, `c102_centre_refuted`, `c102_returns_partial`, `c103_ecef`, `c103_lla`, `c106_azel`, `c110_windup_refuted`, `c111_instant`, `c111_normal_partial`, `c111_normal_refuted`, `c115_solved`, `c116_ellipse`, `c116_position`, `c117_close_partial`, `c117_constant_refuted`, `c118_harmonic_refuted`, `c118_perigee_refuted`, `c118_velocity_partial`, `c119_clock_partial`, `c119_clock_refuted`, `c120_fresh_partial`, `c120_stale_refuted`, `c122_energy`, `c124_bounded_refuted`, `c124_height`, `c124_outside`, `c124_zenith_partial`, `c127_accepted`, `c127_dead_reckoning`, `c128_nominal_refuted`, `c128_zero_partial`, `c129_end_partial`, `c129_end_rotation_partial`, `c129_pose_refuted`, `c129_start_partial`, `c129_start_rotation_partial`, `c130_end`, `c130_start`, `c131_covariance`, `c131_finished`, `c131_positive`, `c132_accel_partial`, `c132_gyro_refuted`, `c133_inside_refuted`, `c133_outside`, `c133_split_partial`, `c134_between_refuted`, `c134_sample_partial`, `c135_constant_partial`, `c135_half_refuted`, `c136_add_sub`, `c136_add_sub_near`, `c136_same`, `c136_sub_add`, `c136_sub_add_near`, `c145_minus_plus_partial`, `c145_plus_minus_partial`, `c145_sign_refuted`, `c145_small_refuted`, `c154_zero`, `c159_gains_refuted`, `c160_order_partial`, `c160_order_refuted`, `c161_speed_partial`, `c161_speed_refuted`, `c162_towards_partial`, `c162_towards_refuted`, `c166_count`, `c166_rate_partial`, `c166_rate_refuted`, `c169_dquat`, `c169_dquat_near`, `c169_se3_near`, `c170_dquat_partial`, `c170_half_turn_refuted`, `c170_quat_partial`, `c170_se3_partial`, `c170_so3_partial`, `c171_dquat_refuted`, `c171_partial`, `c171_so3_refuted`, `c172_half_turn_refuted`, `c172_jacobian_partial`, `c172_residual_refuted`, `c173_biases_partial`, `c173_half_turn_refuted`, `c174_frequency_partial`, `c174_glonass_refuted`, `c175_observations_partial`, `c175_stale_refuted`, `c175_too_many_refuted`, `c176_short_page_refuted`, `c176_short_partial`, `c177_limit`, `c177_logged`, `c178_galileo`, `c178_glonass`, `c178_gps`, `c184_limit_partial`, `c184_nothing`, `c184_start_refuted`, `c185_all_partial`, `c185_batches_partial`, `c185_dropped_refuted`, `c186_loaded`, `c194_close`, `c195_blind_refuted`, `c195_earth_refuted`, `c195_identity_partial`, `c195_off_diagonal`, `c196_fixed_step`, `c196_inverse`, `c196_product`, `c196_rotated`, `c197_ends_partial`, `c197_ends_refuted`, `c203_dropped`, `c203_kept`, `c203_sorted`, `c236_answers`, `c237_all_partial`, `c237_first_partial`, `c237_late_refuted`, `c237_twice`, `c239_lines`, `c240_accepted_partial`, `c240_accepted_refuted`, `c245_frames`, `c245_left`, `c245_limit`, `c245_right`, `c246_sign_partial`, `c246_sign_refuted`, `c250_alias_refuted`, `c250_large_refuted`, `c250_parts_partial`, `c251_sorts_partial`, `c252_lists_refuted`, `c253_rotations`, `c253_vectors`, `c254_after_partial`, `c254_before_refuted`, `c254_mixed_partial`, `c255_keeps`, `c255_order`, `c256_date_refuted`, `c256_defined_partial`, `c256_week_refuted`.
