{"id": "C01", "title": "Time comparisons agree with the instant they denote", "statement": "For any two UTCTime values whose nanosecond part is in [0, 1e9), each of <, >, ==, !=, <= and >= returns exactly the result of comparing the instants sec*1e9+nsec as integers.", "quantifier": "every pair of UTCTime values with a normalised nanosecond part", "why_tests_cant": "There are 2^126 pairs; the failing pairs (same second, different nanosecond) are a thin slice that sampled tests miss.", "anchors": ["common/utctime.cxx: UTCTime::operator<, operator>, operator<=, operator>=, operator==, operator!="]}
{"id": "C02", "title": "Adding and subtracting times is exact and keeps the representation normalised", "statement": "For normalised UTCTime values a and b with no 64-bit overflow, a+b and a-b denote exactly the sum and difference of the instants, the result is again normalised, and (a-b)+b == a.", "quantifier": "every pair of normalised UTCTime values whose second counts do not overflow int64", "why_tests_cant": "Carry and borrow cases depend on all nanosecond pairs.", "anchors": ["common/utctime.cxx: operator+, operator-, operator+=, operator-=, wrapNsec"]}
{"id": "C03", "title": "A GPS week and time of week convert to the right instant", "statement": "UTCTime::fromGPS(week, tow_ms) denotes the instant GPS epoch + week*604800 s + tow_ms ms, and GpsWeek / GpsTow of the result give week and tow back.", "quantifier": "every week number and every time of week 0 <= tow_ms < 604800000 for which int arithmetic does not overflow", "why_tests_cant": "604.8 million values of tow_ms per week; unit tests only use a few.", "anchors": ["common/utctime.cxx: UTCTime::fromGPS, fromGalileo, GpsWeek, GpsTow"]}
{"id": "C04", "title": "A GLONASS time of day is placed on the reference day", "statement": "UTCTime::fromGlonassTimeOfDay(ref, tod_ms) denotes an instant on the same Moscow-time day as ref, exactly tod_ms milliseconds after its midnight.", "quantifier": "every reference time at or after the GLONASS-time epoch and before int overflow, every tod_ms in a day", "why_tests_cant": "Day and week boundaries for every reference instant cannot be enumerated.", "anchors": ["common/utctime.cxx: fromGlonass, fromGlonassTimeOfDay, GlonassWeek, GlonassDayOfWeek"]}
{"id": "C05", "title": "Quantised time comparisons are mutually consistent", "statement": "For any two times exactly one of q<t, q==t, q>t holds; q<=t is (q<t or q==t), q>=t is (q>t or q==t), q!=t is the negation of q==t; swapping the operands mirrors the result; and times further apart than half the quantisation step compare as the exact times do.", "quantifier": "every pair of normalised times whose difference does not overflow", "why_tests_cant": "The boundary at half a quantisation step is a single nanosecond among 1e18 differences.", "anchors": ["common/quantized_time.h: QuantizedTime", "common/quantized_time.cxx: comparison operators"]}
{"id": "C06", "title": "The circular buffer is a bounded double-ended queue", "statement": "Starting from an empty CircularBuffer<T,N>, after any sequence of push/emplace at either end, pops (of a non-empty buffer) and clear, iteration from begin() to end(), size(), empty(), full(), front(), back() and operator[] report exactly the contents of a double-ended queue of capacity N-1 in which a push at one end of a full queue first discards the element at the other end.", "quantifier": "every N >= 2, every element type, every operation sequence of any length", "why_tests_cant": "Wrap-around positions depend on the whole history; sequences are unbounded.", "anchors": ["common/circular_buffer.h: CircularBuffer, const_iterator, iterator"]}
{"id": "C07", "title": "The circular buffer destroys exactly the objects it holds", "statement": "In any history, every destructor call is made on a slot holding a constructed element, and every element that leaves the buffer is destroyed exactly once.", "quantifier": "every N >= 2 and every operation sequence", "why_tests_cant": "A leaked or doubly destroyed element is invisible for trivially destructible types used in tests and depends on wrap position.", "anchors": ["common/circular_buffer.h: pop_back, pop_front, clear, emplace_back, push_back, push_front"]}
{"id": "C08", "title": "Bit-field reads return exactly the addressed bits", "statement": "getBit<len>(buf,pos) returns the unsigned integer formed by bits pos..pos+len-1 of the buffer, most significant first, and getBit<len,Signed> its two's-complement value; no byte outside those holding the field influences the result.", "quantifier": "every buffer, every bit position, every width 1..56", "why_tests_cant": "All alignments times all widths times all contents; shifts go wrong at single alignments.", "anchors": ["common/ephemeris/bit_tools.h: getBit<len,Sign,order>, TypeHelper"]}
{"id": "C09", "title": "Bit-field writes change exactly the addressed bits", "statement": "setBit<len>(buf,pos,data) leaves every bit outside [pos,pos+len) unchanged, and reading the field back yields data mod 2^len.", "quantifier": "every buffer, position, width 1..32 and 32-bit value", "why_tests_cant": "Neighbouring-bit damage shows only at particular alignments and contents.", "anchors": ["common/ephemeris/bit_tools.h: setBit"]}
{"id": "C10", "title": "GLONASS sign-magnitude fields decode correctly", "statement": "getBitGlo<len>(buf,pos) is the magnitude in the low len-1 bits, negated when the first bit is set; every encodable value round-trips.", "quantifier": "every buffer, position and width 2..57", "why_tests_cant": "Each of the fields has up to 2^27 values at its own alignment.", "anchors": ["common/ephemeris/bit_tools.h: getBitGlo"]}
{"id": "C11", "title": "The Galileo CRC is the CRC-24Q polynomial remainder", "statement": "crc24(buf,len) equals the remainder of the message times x^24 modulo the CRC-24Q generator 0x1864CFB, for every message; it is additive over XOR of equal-length messages.", "quantifier": "every byte string of every length", "why_tests_cant": "A wrong table entry affects only messages that reach it; message length is unbounded.", "anchors": ["utils/crc.cxx: crc24, table_crc24q"]}
{"id": "C12", "title": "The Galileo page check detects every burst error of up to 24 bits", "statement": "If the bits of a protected message are corrupted in a non-empty span of at most 24 consecutive bits, the CRC changes; in particular every single-bit error is detected.", "quantifier": "every message, every length, every burst position and pattern of span <= 24", "why_tests_cant": "Number of patterns times positions times messages is unbounded.", "anchors": ["utils/crc.cxx: crc24", "common/ephemeris/galileo.cxx: GalileoEphemeris::parse"]}
{"id": "C13", "title": "The GLONASS string check rejects damaged strings", "statement": "If a GLONASS string passes gloTest, changing any one of its 77 information bits makes it fail; if it satisfies all eight parity equations, changing any two of its 85 bits makes it fail.", "quantifier": "every 85-bit string and every error position", "why_tests_cant": "2^85 strings; each of the 85 positions must be covered by the parity masks.", "anchors": ["utils/crc.cxx: gloTest"]}
{"id": "C14", "title": "Every UBX message that is sent is received intact", "statement": "Feeding the bytes written by sendMessage(class,id,payload,len), for 1 <= len <= 2048, to an idle parser delivers exactly one message to the subscribed listeners with the same class, id and payload, and leaves the parser idle; this extends to any concatenation of messages, however it is split across receive_callback calls.", "quantifier": "every class, id, payload of every length 1..2048, every sequence of messages and every chunking", "why_tests_cant": "Payload contents can mimic headers and checksums; sequences are unbounded.", "anchors": ["parsers/ubx/ubx.cxx: sendMessage, receive_callback, decodeMessage, calculateChecksum"]}
{"id": "C15", "title": "A UBX message with an empty payload is received", "statement": "Feeding the bytes of a message with len == 0 to an idle parser delivers it and leaves the parser ready for the next message.", "quantifier": "every class and id", "why_tests_cant": "The stuck state is only visible on what happens afterwards, for every later byte stream.", "anchors": ["parsers/ubx/ubx.cxx: receive_callback (GOT_LENGTH1, GOT_LENGTH2)"]}
{"id": "C16", "title": "The UBX parser never stores outside its payload buffer", "statement": "For any byte stream, every payload store is at an index below BUFFER_SIZE, and the write index never exceeds the announced length.", "quantifier": "every byte stream from every reachable state", "why_tests_cant": "Overflow needs particular lengths at a particular state; streams are unbounded.", "anchors": ["parsers/ubx/ubx.cxx: receive_callback", "parsers/ubx/ubx_defs.h: BUFFER_SIZE"]}
{"id": "C17", "title": "Only frames with a valid checksum are delivered", "statement": "Whenever a listener is called with (class,id,payload), the bytes consumed end with a complete frame: sync bytes, class, id, length, payload, and the two Fletcher checksum bytes computed over class..payload.", "quantifier": "every byte stream and every delivery", "why_tests_cant": "Negative property over all streams, including resynchronisation after damaged frames.", "anchors": ["parsers/ubx/ubx.cxx: receive_callback, decodeMessage, calculateChecksum"]}
{"id": "C18", "title": "The UBX parser resynchronises after noise", "statement": "Noise that does not contain the two-byte sync pattern (including across its boundary with earlier input) neither triggers a delivery nor prevents the next complete frame from being delivered.", "quantifier": "every noise string without the sync pattern, every following frame", "why_tests_cant": "Noise strings are unbounded.", "anchors": ["parsers/ubx/ubx.cxx: receive_callback (START)"]}
{"id": "C19", "title": "A GPS ephemeris decodes to the transmitted parameters", "statement": "Feeding the three subframes that encode a set of broadcast parameters (with matching issue of data) to GPSEphemeris::parse, in any order, returns success on the last one and leaves every integer parameter and its scale exactly as encoded, with toe and toc at the encoded week and seconds.", "quantifier": "every value of every broadcast field, every order of the three subframes", "why_tests_cant": "The field space has over 500 bits; a wrong bit offset shows only for particular contents.", "anchors": ["common/ephemeris/gps.cxx: parse, frame1, frame2, frame3", "common/ephemeris/gps.h"]}
{"id": "C20", "title": "A GPS ephemeris never mixes issues of data", "statement": "parse returns true only if the three subframes it combined all carry the same issue-of-data value.", "quantifier": "every sequence of subframes", "why_tests_cant": "Depends on unbounded interleavings of old and new subframes.", "anchors": ["common/ephemeris/gps.cxx: parse, frame3"]}
{"id": "C21", "title": "A GPS parse call reports success only when it used the given subframe", "statement": "parse returns true only if the buffer it was given held a subframe with the right preamble and number 1, 2 or 3.", "quantifier": "every parser history and every buffer", "why_tests_cant": "Only visible in histories in which an earlier call succeeded.", "anchors": ["common/ephemeris/gps.cxx: parse, frame1, frame2, frame3"]}
{"id": "C22", "title": "Rejected GPS input leaves the ephemeris unchanged", "statement": "A buffer that is too short, or whose subframe number is not 1, 2 or 3, or whose preamble is wrong, does not change any decoded parameter.", "quantifier": "every parser state and every such buffer", "why_tests_cant": "All states times all malformed buffers.", "anchors": ["common/ephemeris/gps.cxx: parse"]}
{"id": "C23", "title": "Galileo pages failing the CRC or page structure are ignored", "statement": "If the even/odd page flags, alert bit or CRC of a page pair do not check, parse returns false and leaves all decoded parameters unchanged.", "quantifier": "every parser state and every 32-byte buffer", "why_tests_cant": "All states times 2^256 buffers.", "anchors": ["common/ephemeris/galileo.cxx: GalileoEphemeris::parse"]}
{"id": "C24", "title": "A Galileo ephemeris is reported only when complete and consistent", "statement": "parse returns true only if word types 0 to 5 have all been accepted since the last word of type 2 cleared them, and words 1 to 4 carry the same issue of data.", "quantifier": "every sequence of page pairs", "why_tests_cant": "Unbounded interleavings of pages and issues.", "anchors": ["common/ephemeris/galileo.cxx: parse, frame0..frame5"]}
{"id": "C25", "title": "A Galileo ephemeris carries the correct week", "statement": "Whenever parse returns true, the week is the transmitted week plus 1024 rollovers, adjusted by at most one for a toe near the week boundary.", "quantifier": "every sequence of page pairs", "why_tests_cant": "Shows only on the second success in one history.", "anchors": ["common/ephemeris/galileo.cxx: parse"]}
{"id": "C26", "title": "Galileo word bits come from the page data field", "statement": "The 128 data bits decoded for a word are the 112 data bits of the even part followed by the 16 data bits of the odd part.", "quantifier": "every pair of page parts", "why_tests_cant": "Only fields placed in the last 16 bits are affected, and only for non-zero contents.", "anchors": ["common/ephemeris/galileo.cxx: parse"]}
{"id": "C27", "title": "A GLONASS ephemeris is reported only from one superframe set of strings", "statement": "parse returns true only on string 5 when strings 1 to 4 were accepted before it with the same time mark, with no string of another time mark in between.", "quantifier": "every sequence of strings", "why_tests_cant": "Unbounded interleavings of strings, frames and losses.", "anchors": ["common/ephemeris/glonass.cxx: GlonassEphemeris::parse, frame1..frame5"]}
{"id": "C28", "title": "Rejected GLONASS strings leave the ephemeris unchanged", "statement": "A short buffer, a string failing gloTest, or a string number outside 1..5 returns false and changes no decoded parameter.", "quantifier": "every state and every buffer", "why_tests_cant": "All states times all buffers.", "anchors": ["common/ephemeris/glonass.cxx: parse", "utils/crc.cxx: gloTest"]}
{"id": "C29", "title": "Logged values are read back unchanged", "statement": "For every type with a serialiser, reading the bytes written for a value into an object gives every serialised member the value it had, leaves the other members alone and consumes exactly the bytes written, whatever follows them in the stream. A pose comes back with its rotation unchanged and its dual part computed from the written translation.", "quantifier": "every value of every serialisable type, every suffix", "why_tests_cant": "All bit patterns of all fields, including NaN payloads and extreme integers.", "anchors": ["common/logging/serialize.h", "common/logging/serialize.cxx"]}
{"id": "C30", "title": "The declared log layout matches the bytes in the log", "statement": "For every list of loggable types, log_reader.py, using the layout in the .yml file, shows exactly the records that were logged: every stamp, member, vector element and matrix entry with the logged value.", "quantifier": "every loggable type and every value", "why_tests_cant": "The reader that uses the layout is a separate Python program; a mismatch shifts every later record.", "anchors": ["common/logging/log_format.cxx", "common/logging/serialize.cxx", "common/logging/log_reader.py: make_dtype"]}
{"id": "C31", "title": "A log replays every record of every stream in time order", "statement": "Reading a log calls each stream's callback once for every record written to that stream, with the recorded stamp and value, in non-decreasing stamp order when each stream was written in non-decreasing order, and records of one stream in the order they were written.", "quantifier": "every number of streams, every record sequence, every value", "why_tests_cant": "Merge order depends on all stamps of all streams.", "anchors": ["common/logging/log_reader.cxx: LogReader::read, StreamReader", "common/logging/log_writer.cxx: StreamWriter"]}
{"id": "C32", "title": "A log truncated by a crash still replays every complete record", "statement": "Cutting a stream file at any byte leaves a log from which every record that was written completely is replayed unchanged, and nothing else is replayed from it.", "quantifier": "every record sequence and every cut position", "why_tests_cant": "Every byte offset of every file is a crash point.", "anchors": ["common/logging/log_reader.cxx: StreamReader::readStamp, get", "common/logging/log_writer.cxx"]}
{"id": "C33", "title": "Maintenance callbacks fire at their period during replay", "statement": "During replay a maintenance callback is called at most once per record, never before its next due time, and each call moves its due time by exactly one period.", "quantifier": "every set of maintenance callbacks, periods and record times", "why_tests_cant": "Depends on all inter-record gaps.", "anchors": ["common/logging/log_reader.cxx: LogReader::read"]}
{"id": "C34", "title": "In an amended log the newest version of each stream is used", "statement": "Opening a log that amends others makes each stream available from the newest log in the chain that contains it, and the time span covers all logs in the chain.", "quantifier": "every chain length and every distribution of streams over the logs", "why_tests_cant": "Chains and stream sets are unbounded.", "anchors": ["common/logging/log_reader.cxx: openLog", "common/logging/log_reader.py"]}
{"id": "C35", "title": "Distinct log keys have distinct stream names", "statement": "Two different stream keys never map to the same stream file name.", "quantifier": "every pair of keys", "why_tests_cant": "Collisions depend on decimal digits and padding of pairs of keys.", "anchors": ["common/logging/log_key.h"]}
{"id": "C36", "title": "Log directory names sort in creation order", "statement": "For two creation times in years 0..9999, the log ids compare lexicographically in the same order as the times, so choosing the greatest name chooses the newest log.", "quantifier": "every pair of broken-down times with four-digit years", "why_tests_cant": "All pairs of instants over ten millennia.", "anchors": ["common/logging/log_writer.cxx: createLogId", "common/logging/log_reader.cxx: getLatestLog"]}
{"id": "C37", "title": "Each satellite's ephemeris list stays sorted with one entry per reference time", "statement": "After any sequence of addEph calls, the stored ephemerides are strictly increasing in time of ephemeris, and contain exactly the latest ephemeris added for each distinct time.", "quantifier": "every sequence of ephemerides in any order", "why_tests_cant": "Insertion orders are unbounded.", "anchors": ["common/satellite/satellite.h: Satellite::addEph"]}
{"id": "C38", "title": "The closest ephemeris is used", "statement": "findClosestEphemeris(t) returns an ephemeris whose |t - toe| is minimal over all stored ephemerides, and never one that is not stored.", "quantifier": "every non-empty stored list and every time", "why_tests_cant": "The early exit is only correct because of sortedness over all lists.", "anchors": ["common/satellite/satellite.h: Satellite::findClosestEphemeris"]}
{"id": "C39", "title": "The satellite manager keeps the most recently discovered satellites, once each", "statement": "After any sequence of ephemeris callbacks, each constellation holds no satellite twice, at most 29 satellites, and getSat finds a satellite exactly if its number is among the held ones; receiving a 30th satellite removes exactly the one discovered first.", "quantifier": "every sequence of ephemerides over all constellations", "why_tests_cant": "Eviction depends on the full discovery history.", "anchors": ["core/sat_manager.cxx: addEph, ephCb, getSat", "core/sat_manager.h"]}
{"id": "C40", "title": "The estimator's result does not depend on arrival order", "statement": "If two histories deliver the same set of measurements in different orders, with none rejected or expired, the final filter state is the same.", "quantifier": "every set of measurements and every permutation", "why_tests_cant": "Number of permutations is factorial and the effect depends on equal-time measurements.", "anchors": ["core/ekf/rtk_ekf_estimator.cxx: addMeasurement, rollFilter, handleImu, handleObs, dropOldMeasurements"]}
{"id": "C41", "title": "The estimator rejects what it cannot place", "statement": "addMeasurement of a measurement older than the oldest retained state, or observing an unknown satellite, returns an error and leaves the filter state and the measurement buffer unchanged.", "quantifier": "every estimator state and every such measurement", "why_tests_cant": "All reachable states.", "anchors": ["core/ekf/rtk_ekf_estimator.cxx: addMeasurement"]}
{"id": "C42", "title": "Ambiguity decorrelation is lossless", "statement": "The LAMBDA reduction produces an integer matrix with determinant +-1, and the reduced covariance is exactly the original one transformed by it.", "quantifier": "every positive definite covariance of every size", "why_tests_cant": "Sizes and matrices are unbounded; integer rounding choices differ for each.", "anchors": ["core/solver/lambda.cxx: LTDL, integerGaussTransformations, permute, reduction"]}
{"id": "C43", "title": "The integer search returns the best integer vectors", "statement": "search(n,...) returns integer vectors such that no other integer vector has a smaller weighted distance than the returned ones, in increasing order of distance.", "quantifier": "every triangular factorisation, float vector and candidate count", "why_tests_cant": "The search space is infinite; correctness rests on the pruning argument.", "anchors": ["core/solver/lambda.cxx: search"]}
{"id": "C44", "title": "Quaternion rotation is the rotation of its matrix", "statement": "For every unit quaternion, rotp(v) equals R()*v and rota(v) equals R() transposed * v; both preserve lengths and inner products and are inverse to each other.", "quantifier": "every unit quaternion and every vector", "why_tests_cant": "Continuum of inputs; sign errors cancel on symmetric samples.", "anchors": ["common/math/quat.h: rotp, rota, R, inverse"]}
{"id": "C45", "title": "Quaternion composition is associative and norm preserving", "statement": "Multiplying quaternions is associative with identity and inverse, |p*q| = |p||q|, and rotating by p*q equals rotating by p then by q in the documented order.", "quantifier": "every pair and triple of quaternions", "why_tests_cant": "Continuum of inputs.", "anchors": ["common/math/quat.h: otimes, operator*=, inverse, norm"]}
{"id": "C46", "title": "Rigid transforms compose and invert correctly", "statement": "For DQuat with unit real part built from a rotation and a translation: transforma and transformp are inverse to each other, preserve distances, translation() returns the given translation, and (A*B) transforms as A then B; the inverse transforms back.", "quantifier": "every pair of rigid transforms and every point", "why_tests_cant": "Continuum of inputs.", "anchors": ["common/math/dquat.h: DQuat, otimes, inverse, translation, transformp, transforma"]}
{"id": "C47", "title": "Rotation matrices convert back to the same quaternion up to sign", "statement": "For every unit quaternion q, from_R(q.R()) is q or -q, whichever of the four branches is taken.", "quantifier": "every unit quaternion", "why_tests_cant": "The four branches meet at measure-zero boundaries tests do not hit.", "anchors": ["common/math/quat.h: from_R, R"]}
{"id": "C48", "title": "SE3 is a group acting on points", "statement": "Composition of SE3 transforms is associative, inverse() is a two-sided inverse, transformp/transforma undo each other, and transformp respects composition.", "quantifier": "every pair of rigid transforms with orthogonal rotation part", "why_tests_cant": "Continuum of inputs.", "anchors": ["common/math/se3.h", "common/math/so3.h"]}
{"id": "C49", "title": "NED and ECEF conversions are inverse rigid motions", "statement": "For every reference position, ned2ecef(ecef2ned(p)) = p and distances are preserved; the reference point itself maps to the origin.", "quantifier": "every reference and every point", "why_tests_cant": "Continuum of inputs.", "anchors": ["utils/wgs84.cxx: ned2ecef, ecef2ned, q_e2n, dq_ecef2ned"]}
{"id": "C50", "title": "The PID output never exceeds its limit", "statement": "For any history of calls, every value returned by PID::run lies in [-max, max].", "quantifier": "every gain set with max >= 0, every call history", "why_tests_cant": "Unbounded histories of a stateful controller.", "anchors": ["sim/controllers/pid.cxx: PID::run"]}
{"id": "C51", "title": "Durations are printed faithfully", "statement": "The elapsed/remaining time stamp printed by the progress bar determines the number of milliseconds shown.", "quantifier": "every non-negative 32-bit millisecond count", "why_tests_cant": "Only durations of a day or more go wrong.", "anchors": ["utils/progress_bar.cxx: ms_to_stamp"]}
{"id": "C52", "title": "String helpers lose nothing they should keep", "statement": "split_string followed by joining with the delimiter restores the string up to one trailing delimiter, no piece contains the delimiter, and strip_string removes exactly the listed characters keeping the order of the rest.", "quantifier": "every string, delimiter and character set", "why_tests_cant": "Unbounded strings.", "anchors": ["utils/split_string.cxx", "utils/strip_string.cxx"]}
{"id": "C53", "title": "Symbolic simplification preserves the meaning of filter equations", "statement": "The EKF code generator's algebraic simplification of a block expression does not change the matrix it evaluates to, for any values of the blocks.", "quantifier": "every expression the generator can build and every valuation of its symbols", "why_tests_cant": "Generated code is checked only for two example filters.", "anchors": ["core/ekf/ekf_gen/symb_matrix.py", "core/ekf/ekf_gen/symb_algebra.py: reduce, factor, factor_scalars, factor_first_term, factor_last_term"]}
{"id": "C54", "title": "The block-sparse covariance computation equals the dense formula", "statement": "Multiplying block matrices by skipping zero blocks and identity blocks, as the generator does, gives the same result as full matrix multiplication, for any sparsity pattern.", "quantifier": "every sparsity pattern, block sizes and values", "why_tests_cant": "Patterns are configuration data; only two are tested.", "anchors": ["core/ekf/ekf_gen/symb_block_matrix.py", "core/ekf/ekf_gen/ekf_gen_matrix_manip.py"]}
{"id": "C55", "title": "The measurement update keeps the covariance symmetric and does not increase it", "statement": "If the covariance is symmetric positive semidefinite before an update, it is after it, and the updated covariance is no larger than the previous one.", "quantifier": "every state size, measurement size, covariance, Jacobian and noise", "why_tests_cant": "Matrices of every size and content.", "anchors": ["core/ekf/ekf_gen/ekf_gen_templates.py: doUpdate", "core/ekf/ekf_gen/ekf_gen_matrix_manip.py: sparse_meas_update"]}
{"id": "C56", "title": "A damaged UBX frame is dropped and counted", "statement": "If exactly one byte of the class, id, payload or checksum of a frame is changed in transit, the receiver calls no listener for it, counts one error, and is ready for the next frame.", "quantifier": "every message with a payload of 1..2048 bytes, every position outside the length field, every replacement value, every idle parser state", "why_tests_cant": "255 wrong values at each of up to 2054 positions of every message.", "anchors": ["parsers/ubx/ubx.cxx: receive_callback, decodeMessage, calculateChecksum"]}
{"id": "C57", "title": "A GPS time converts to Coordinated Universal Time", "statement": "UTCTime::fromGPS(week, tow_ms) is the UTC instant of that GPS time: GPS epoch + week*604800 s + tow_ms ms minus the 18 leap seconds by which GPS is ahead of UTC since 2017.", "quantifier": "every week 0..3549 and every whole second of the week", "why_tests_cant": "The project's own tests encode the opposite sign, so they pass; only a comparison with the definition of GPS time for every input settles it.", "anchors": ["common/utctime.h: GPS_UTC_OFFSET", "common/utctime.cxx: UTCTime::fromGPS"]}
{"id": "C58", "title": "Galileo health and data-validity flags come from their own bits", "statement": "After a Galileo ephemeris is reported, e5b_hs, e1b_hs, e5b_dvs and e1b_dvs hold the fields of those names of the last word 5 received.", "quantifier": "every satellite, every history of pages, every content of word 5", "why_tests_cant": "A test needs pages with every combination of the four adjacent flags; healthy satellites broadcast all zeros, for which every position looks right.", "anchors": ["common/ephemeris/galileo.cxx: GalileoEphemeris::frame5"]}
{"id": "C59", "title": "Decoding Galileo pages is always well defined", "statement": "parse(buf, size) never reads outside the buffer and never overflows, whatever object state and bytes it is given.", "quantifier": "every buffer and size, every history of pages", "why_tests_cant": "Undefined behaviour depends on lengths and long histories and need not show up in a run.", "anchors": ["common/ephemeris/galileo.cxx: GalileoEphemeris::parse", "common/utctime.cxx: UTCTime::fromGalileo"]}
{"id": "C60", "title": "A Galileo ephemeris never takes another satellite's clock", "statement": "When parse reports success, the clock parameters in the object come from a word 4 that names the object's satellite.", "quantifier": "every history of pages, including pages of other satellites", "why_tests_cant": "The fault needs a particular order: a complete set, then a word 4 of another satellite.", "anchors": ["common/ephemeris/galileo.cxx: GalileoEphemeris::frame4, parse"]}
{"id": "C61", "title": "A burst of up to 24 damaged bits never alters a Galileo ephemeris", "statement": "If a good page pair is damaged within 24 consecutive transmitted bits (data or checksum), parse refuses it and leaves the object unchanged.", "quantifier": "every object state, every good page pair, every position and pattern of the burst", "why_tests_cant": "2^24 patterns at every position of every page.", "anchors": ["common/ephemeris/galileo.cxx: GalileoEphemeris::parse", "utils/crc.cxx: crc24"]}
{"id": "C62", "title": "A GLONASS ephemeris holds the transmitted parameters", "statement": "When parse reports success, every position, velocity, acceleration, clock and health parameter of the object is the field the GLONASS interface document assigns to it (sign-magnitude, with its scale), taken from the last string of its number.", "quantifier": "every history of strings, every content of the strings", "why_tests_cant": "The history before a success is unbounded and every bit of five strings matters.", "anchors": ["common/ephemeris/glonass.cxx: GlonassEphemeris::parse, frame1 .. frame5"]}
{"id": "C63", "title": "GLONASS times are on the day the satellite names", "statement": "When parse reports success, toe and tof are the instants of the immediate data: the day N_T (string 4) of the four-year period N_4 (string 5), at t_b and t_k Moscow time.", "quantifier": "every history of strings", "why_tests_cant": "Almanac day and current day usually agree, so a test with recorded data passes.", "anchors": ["common/ephemeris/glonass.cxx: GlonassEphemeris::convertTime"]}
{"id": "C64", "title": "Decoding GLONASS strings is always well defined", "statement": "parse(buf, size) never reads outside the buffer and never overflows, whatever the history and the bytes.", "quantifier": "every buffer and size, every history of strings", "why_tests_cant": "Undefined behaviour depends on received values that do not occur today.", "anchors": ["common/ephemeris/glonass.cxx: GlonassEphemeris::parse, convertTime"]}
{"id": "C65", "title": "One or two damaged bits never alter a GLONASS ephemeris", "statement": "A good string in which one of the 77 information bits is damaged, or any two of the 85 bits of an undamaged string, is refused by parse and the object keeps its state.", "quantifier": "every object state, every good string, every position of the damage", "why_tests_cant": "Every string content and each of the 3570 pairs of positions.", "anchors": ["common/ephemeris/glonass.cxx: GlonassEphemeris::parse", "utils/crc.cxx: gloTest"]}
{"id": "C66", "title": "The GLONASS carrier frequency is one of the assigned channels", "statement": "After a success, getWavelength(0) and getWavelength(1) use a frequency 1602 MHz + k 562.5 kHz or 1246 MHz + k 437.5 kHz with a channel k from -7 to 6.", "quantifier": "every history of strings", "why_tests_cant": "Tests use a few satellites; slot numbers up to 24 give frequencies no satellite transmits.", "anchors": ["common/ephemeris/glonass.cxx: GlonassEphemeris::getWavelength"]}
{"id": "C67", "title": "No member of a logged object is lost", "statement": "Reading a logged object back into a fresh object of its class gives an object equal to the logged one in every data member.", "quantifier": "every serialisable class, every value", "why_tests_cant": "The member list of the serialiser is kept by hand beside the class; a test compares the members its author remembers.", "anchors": ["common/ephemeris/gps.h", "common/ephemeris/galileo.h", "common/ephemeris/glonass.h", "common/measurements/imu.h", "common/measurements/gnss_observation.h", "common/logging/serialize.h"]}
{"id": "C68", "title": "The estimates logged by post_process can be loaded", "statement": "The records of the ESTIMATE stream written by post_process are shown unchanged by log_reader.py.", "quantifier": "every sequence of estimates", "why_tests_cant": "The declaration and the call that logs are forty lines apart and no type check connects them.", "anchors": ["tools/post_process.cxx: initStream<...>(ESTIMATE), log(ESTIMATE, ...)", "common/logging/log_writer.h: initStream, log"]}
{"id": "C69", "title": "Adding seconds to a time is exact to the nanosecond", "statement": "t + x and t - x with a double x give a normalised time whose distance from t is x seconds to within one nanosecond plus the rounding of x times 10^9; subtracting what was added gives t back exactly; a greater x never gives an earlier time.", "quantifier": "every normalised time with seconds below 2^61 in magnitude (2^62 for one operation), every finite x below 2^32 in magnitude", "why_tests_cant": "Depends on the rounding of products for every double and on the borrow between seconds and nanoseconds.", "anchors": ["common/utctime.cxx: operator+(double), operator-(double), operator+=(double), operator-=(double)"]}
{"id": "C70", "title": "A time constructed from seconds is normalised", "statement": "UTCTime(x) for a double x is normalised, within a nanosecond of x seconds after the epoch, and equal to any other time denoting the same instant.", "quantifier": "every finite x below 2^32 in magnitude", "why_tests_cant": "Negative fractions of a second are not in the tests.", "anchors": ["common/utctime.cxx: UTCTime(double)", "common/utctime.h"]}
{"id": "C71", "title": "Reading a log always returns", "statement": "LogReader::read returns for every log directory that could be opened, whichever files of it are missing or damaged.", "quantifier": "every set of streams, every contents of their files, every set of callbacks", "why_tests_cant": "Non-termination is not observable by a test, and damage is arbitrary.", "anchors": ["common/logging/log_reader.cxx: StreamReader::StreamReader, StreamReader::open, LogReader::read"]}
{"id": "C72", "title": "C++ and Python open the same log of a directory", "statement": "Given a directory of logs, LogReader and log_reader.py open the newest log, and both accept the path of a log written with or without a slash at its end.", "quantifier": "every set of directory entries, every path", "why_tests_cant": "The two readers choose independently and use different patterns; other files in the directory are arbitrary.", "anchors": ["common/logging/log_reader.cxx: isLogId, getLatestLog", "common/logging/log_reader.py: load, get_log_files"]}
{"id": "C73", "title": "Opening a log always returns", "statement": "LogReader::open returns or fails for every set of logs and amendments that Logger can write.", "quantifier": "every history of Logger calls, every graph of amendments", "why_tests_cant": "Non-termination is not observable by a test, and the graph of amendments is arbitrary.", "anchors": ["common/logging/log_reader.cxx: openLog", "common/logging/log_writer.cxx: amends"]}
{"id": "C74", "title": "Starting a log destroys no other log", "statement": "Constructing a Logger, and every later call on it, leaves the files of all logs written earlier unchanged.", "quantifier": "every set of existing logs, every start time, every sequence of calls", "why_tests_cant": "Needs two logs started within a second, and a comparison of everything else in the directory.", "anchors": ["common/logging/log_writer.cxx: Logger::open, createLogId", "utils/file.h: removeDirectoryIfExist"]}
{"id": "C75", "title": "A log survives a crash of its writer", "statement": "If the process stops before the Logger is closed, the log can be opened and shows the records written so far; after close every stream holds exactly the records logged to it.", "quantifier": "every sequence of calls, every crash point", "why_tests_cant": "Crash points are not reached by tests.", "anchors": ["common/logging/log_writer.cxx: Logger::close, writeManifest, Stream::~Stream", "common/logging/log_reader.cxx: openLog"]}
{"id": "C76", "title": "The end time of a log is the one given to close", "statement": "After close(t_end) the manifest of the log has the end time t_end, also after the Logger is destroyed.", "quantifier": "every sequence of calls, every time", "why_tests_cant": "Tests read the log while the Logger exists or do not look at the end time.", "anchors": ["common/logging/log_writer.h: ~Logger", "common/logging/log_writer.cxx: close, writeManifest"]}
{"id": "C77", "title": "Every closed log can be opened", "statement": "A log that was closed, and whose amended log can be opened, is opened by LogReader and log_reader.py with its start time, end time and streams.", "quantifier": "every sequence of calls", "why_tests_cant": "Sequences of calls are unbounded; the empty one is not tested.", "anchors": ["common/logging/log_writer.h: initStream", "common/logging/log_reader.cxx: openLog", "common/logging/log_reader.py: get_log_files"]}
{"id": "C78", "title": "A Logger can be opened again", "statement": "After open the Logger writes to the new log as a newly constructed one would.", "quantifier": "every history of the Logger before open", "why_tests_cant": "Depends on the state left by arbitrary earlier calls.", "anchors": ["common/logging/log_writer.h: Logger::open, initStream, log", "common/logging/log_writer.cxx: Logger::open"]}
{"id": "C79", "title": "Every satellite of a constellation can be held", "statement": "If ephemerides of GPS satellites 1 to 32 (or Galileo satellites 1 to 36) are received, getSat finds each of them afterwards.", "quantifier": "every history of ephemerides", "why_tests_cant": "Tests use a few satellites; recordings rarely show 30 of one constellation.", "anchors": ["core/sat_manager.h: MAX_SAT", "core/sat_manager.cxx: addEph"]}
{"id": "C80", "title": "A satellite handed out by the manager has an ephemeris of its own", "statement": "Every satellite returned by getSat has the constellation and number asked for and at least one ephemeris, all of them received for that satellite; so getState and carrierWavelength never meet an empty almanac.", "quantifier": "every history of ephemerides over all constellations", "why_tests_cant": "Satellites are created before their first ephemeris is added; every history matters.", "anchors": ["core/sat_manager.cxx: addEph, getSat", "common/satellite/satellite.h: carrierWavelength, findClosestEphemeris"]}
{"id": "C81", "title": "No measurement ends the process", "statement": "Whatever time stamps measurements carry and in whatever order they come, addMeasurement returns: it accepts the measurement or reports an error.", "quantifier": "every history of measurements and ephemerides", "why_tests_cant": "Depends on differences of time stamps near the quantisation step and on rounding of times to doubles.", "anchors": ["core/ekf/rtk_ekf_estimator.h: addMeasurement", "core/ekf/rtk_ekf_estimator.cxx: handleImu, rollFilter", "core/ekf/ekf_gen/ekf_gen_templates.py: predict"]}
{"id": "C82", "title": "A measurement at most a second late is accepted", "statement": "addMeasurement accepts a measurement that is at most MAX_DELAY_AGE_S older than the newest one and that observes known satellites only.", "quantifier": "every history of measurements and ephemerides", "why_tests_cant": "Depends on which states the history left in the buffer.", "anchors": ["core/ekf/rtk_ekf_estimator.cxx: dropOldMeasurements", "core/ekf/rtk_ekf_estimator.h: addMeasurement, MAX_DELAY_AGE_S"]}
{"id": "C83", "title": "The check that the filter is initialised is defined", "statement": "Comparing the time of a filter state with INVALID_TIME in predict has defined behaviour and finds every set time different.", "quantifier": "every time", "why_tests_cant": "Overflow of a signed subtraction is not visible without a sanitizer.", "anchors": ["core/ekf/ekf_gen/ekf_gen_templates.py: predict", "common/quantized_time.cxx: operator!=", "common/utctime.h: INVALID_TIME"]}
{"id": "C84", "title": "An observation is compared with the clock of its constellation", "statement": "The residual of an observation uses the receiver clock offset of the constellation of the observed satellite.", "quantifier": "every observation", "why_tests_cant": "The measurement is disabled by default, so no estimate shows it.", "anchors": ["core/ekf/rtk_ekf_estimator.cxx: handleMeas", "core/ekf/rtk_ekf_impl.cxx: h<meas::Obs>", "core/ekf/rtk_ekf.yaml"]}
{"id": "C85", "title": "Observations of a satellite whose ephemeris was received are usable", "statement": "If an ephemeris of a satellite was received, an observation of it is processed.", "quantifier": "every history of ephemerides", "why_tests_cant": "Needs 30 satellites of one constellation.", "anchors": ["core/ekf/rtk_ekf_estimator.cxx: hasCache, getCache", "core/sat_manager.cxx: addEph"]}
{"id": "C86", "title": "A copy of the filter state carries its time", "statement": "Copying or assigning the State of the generated filter gives the same time and the same values.", "quantifier": "every state", "why_tests_cant": "Tests compare the values, and the copies are made inside the filter.", "anchors": ["core/ekf/ekf_gen/ekf_gen_state.py: copy constructor", "core/ekf/ekf_gen/ekf_gen_templates.py: State"]}
{"id": "C87", "title": "The exponential of a quaternion is the rotation by its vector", "statement": "Quat::exp(v) is a unit quaternion; rota turns every vector about v by the angle |v| (Rodrigues' formula), and rotations about one axis multiply to the rotation by the sum of the angles.", "quantifier": "every vector, of any length", "why_tests_cant": "Continuum of inputs. The two branches meet at |v| = 4e-6.", "anchors": ["common/math/quat.h: exp"]}
{"id": "C88", "title": "The logarithm of a quaternion inverts the exponential", "statement": "log(q) is a rotation vector of q, exp(log(q)) = q up to the sign of the quaternion, and log(exp(v)) = v for |v| up to half a turn: exactly, and to within 1e-29 where the code uses series.", "quantifier": "every unit quaternion and every vector", "why_tests_cant": "Continuum of inputs. The branches meet near the identity and its negative.", "anchors": ["common/math/quat.h: log, exp"]}
{"id": "C89", "title": "The adjoint moves tangent vectors between frames", "statement": "For Quat, DQuat and SE3: x * exp(v) * x.inverse() = exp(x.Ad() * v).", "quantifier": "every x and every tangent vector", "why_tests_cant": "Continuum of inputs.", "anchors": ["common/math/quat.h: Ad, exp", "common/math/dquat.h: Ad, exp", "common/math/se3.h: Ad, exp"]}
{"id": "C90", "title": "The Jacobian of the exponential is its derivative", "statement": "The matrix J returned by exp(w, &J) satisfies: d/ds exp(w + s d) at s = 0 is the product of the tangent vector J d and exp(w), on the side asked for. Where the code uses series, J d is within 1e-34 |d| (Quat) and 1e-18 |d| (SO3) of that of the exact exponential.", "quantifier": "every w and every direction d", "why_tests_cant": "Tests compare with finite differences on samples, to a few digits.", "anchors": ["common/math/quat.h: exp(v, jac)", "common/math/so3.h: exp(w, jac)"]}
{"id": "C91", "title": "The exponential of SO3 is the rotation by its vector", "statement": "SO3::exp(w) is a rotation matrix that turns every vector about w by |w|.", "quantifier": "every rotation vector", "why_tests_cant": "Continuum of inputs.", "anchors": ["common/math/so3.h: exp"]}
{"id": "C92", "title": "The logarithm of SO3 inverts the exponential", "statement": "log() of a rotation matrix is a vector about which the matrix turns by its length.", "quantifier": "every rotation matrix", "why_tests_cant": "Rotations near half a turn form a thin set that random tests never hit.", "anchors": ["common/math/so3.h: log"]}
{"id": "C93", "title": "The Jacobian of the logarithm inverts that of the exponential", "statement": "The matrix returned by log(&J) is the inverse of the one returned by exp at the same vector.", "quantifier": "every rotation", "why_tests_cant": "The exceptional rotations form thin sets.", "anchors": ["common/math/quat.h: log(jac)", "common/math/so3.h: log(jac)"]}
{"id": "C94", "title": "The rotation between two unit vectors takes one to the other", "statement": "from_two_unit_vectors(u, v) rotates u to v.", "quantifier": "every pair of unit vectors", "why_tests_cant": "Opposite vectors form a thin set.", "anchors": ["common/math/quat.h: from_two_unit_vectors", "common/math/so3.h: from_two_unit_vectors"]}
{"id": "C95", "title": "Euler angles mean yaw, pitch and roll", "statement": "from_euler(r, p, y) rotates by r about x, then p about y, then y about z, and roll(), pitch() and yaw() return the angles for |p| < pi/2.", "quantifier": "all angles", "why_tests_cant": "Continuum of inputs. Quadrants matter.", "anchors": ["common/math/quat.h: from_euler, roll, pitch, yaw"]}
{"id": "C96", "title": "The logarithm of DQuat inverts the exponential", "statement": "exp(log(d)) is the same rigid motion as d.", "quantifier": "every rigid motion", "why_tests_cant": "The exceptional motions form thin sets.", "anchors": ["common/math/dquat.h: log, exp"]}
{"id": "C97", "title": "The logarithm of SE3 inverts the exponential", "statement": "exp(log(x)) = x.", "quantifier": "every rigid motion", "why_tests_cant": "Half turns form a thin set.", "anchors": ["common/math/se3.h: log, exp"]}
{"id": "C98", "title": "Dual quaternions and SE3 agree on the exponential", "statement": "DQuat::exp(v).transforma and SE3::exp(v).transformp are the same motion, and motions along one screw multiply to the motion by the sum of the parameters.", "quantifier": "every tangent vector", "why_tests_cant": "Continuum of inputs.", "anchors": ["common/math/dquat.h: exp", "common/math/se3.h: exp"]}
{"id": "C99", "title": "Parameter and generator Jacobians are inverse", "statement": "dGenDParam() * dParamDGen() is the identity and dParamDGen() maps a tangent vector to the derivative of q * exp(d), for Quat and DQuat.", "quantifier": "every unit (dual) quaternion", "why_tests_cant": "Continuum of inputs.", "anchors": ["common/math/quat.h: dParamDGen, dGenDParam", "common/math/dquat.h: dParamDGen, dGenDParam"]}
{"id": "C100", "title": "Rotations by axis and angle agree", "statement": "Quat::from_axis_angle(k, t) is the unit quaternion whose rota turns by t about k, and SO3::from_axis_angle(k, t) is its R().", "quantifier": "every unit axis and every angle", "why_tests_cant": "Continuum of inputs. The conventions of the classes differ.", "anchors": ["common/math/quat.h: from_axis_angle", "common/math/so3.h: from_axis_angle"]}
{"id": "C101", "title": "A dual quaternion made from a 4x4 matrix transforms as the matrix", "statement": "from_4x4(m) transforms points as m does, by transformp or by transforma.", "quantifier": "every rigid 4x4 matrix", "why_tests_cant": "There is no test.", "anchors": ["common/math/dquat.h: from_4x4"]}
{"id": "C102", "title": "Converting to geodetic coordinates returns", "statement": "ecef2lla returns latitude, longitude and height for every point.", "quantifier": "every point", "why_tests_cant": "The loop has no bound on its rounds; tests use points near the surface.", "anchors": ["utils/wgs84.cxx: ecef2lla"]}
{"id": "C103", "title": "Geodetic conversions are inverse to each other", "statement": "lla2ecef(ecef2lla(p)) is within 2 micrometres of p for |p| >= 6000 km; ecef2lla(lla2ecef(l)) returns latitude up to 1e-12, height up to 2 micrometres and longitude exactly away from the poles, for heights above -300 km.", "quantifier": "every point and every geodetic position", "why_tests_cant": "Continuum of inputs. The iteration stops at 0.1 mm.", "anchors": ["utils/wgs84.cxx: ecef2lla, lla2ecef"]}
{"id": "C104", "title": "Geodetic coordinates are those of the WGS-84 ellipsoid", "statement": "lla2ecef(l) is the point at height h on the outward normal of the ellipsoid at the point where the normal has the given latitude and longitude, and the only one.", "quantifier": "every geodetic position", "why_tests_cant": "Continuum of inputs.", "anchors": ["utils/wgs84.cxx: lla2ecef"]}
{"id": "C105", "title": "The axes of the local frame point north, east and down", "statement": "A step (n, e, d) in the local frame moves the point n metres north, e metres east and d metres down, where these are the directions in which latitude, longitude and height grow.", "quantifier": "every reference and every step", "why_tests_cant": "Continuum of inputs. Sign errors cancel on symmetric samples.", "anchors": ["utils/wgs84.cxx: q_e2n, ned2ecef, lla2ned"]}
{"id": "C106", "title": "Azimuth and elevation give back the line of sight", "statement": "getAzEl returns az in (-pi, pi] and el in [-pi/2, pi/2] with line of sight = distance * (cos el cos az north + cos el sin az east + sin el up).", "quantifier": "every receiver and satellite position", "why_tests_cant": "Continuum of inputs. Quadrants matter.", "anchors": ["common/satellite/azel.cxx: getAzEl, los2AzEl"]}
{"id": "C107", "title": "The decorrelation ends and nothing is left to reduce", "statement": "reduction(Q, a, ...) returns for every positive definite covariance, and what it returns is reduced: off-diagonal entries of L are at most 1/2 in magnitude and no exchange of neighbours would lower a conditional variance.", "quantifier": "every positive definite covariance of every size, every float vector", "why_tests_cant": "The loop steps back after every exchange; that it ends needs an argument over all matrices.", "anchors": ["core/solver/lambda.cxx: reduction, permute, integerGaussTransformations"]}
{"id": "C108", "title": "Fixed ambiguities are the closest integers", "statement": "lambda(a, Q, ...) returns the integer vector closest to a in the metric of the covariance Q, and the ratio of its squared distance to that of the second closest.", "quantifier": "every float vector, positive definite covariance, candidate count of two or more", "why_tests_cant": "The set of integer vectors is infinite and the result passes through a change of basis and back.", "anchors": ["core/solver/lambda.cxx: lambda, search, reduction", "common/matrix_defs.h: modf, argsort"]}
{"id": "C109", "title": "Ambiguity fixing works for every number of candidates", "statement": "lambda(a, Q, a_fixed, ratio, n_candidates) returns for every n_candidates of one or more.", "quantifier": "every candidate count, float vector and positive definite covariance", "why_tests_cant": "Every test uses the default count.", "anchors": ["core/solver/lambda.cxx: lambda"]}
{"id": "C110", "title": "The PID integrator does not wind up", "statement": "While the output of PID::run is held at its limit the integrator does not keep growing: its part of the output stays of the order of the limit, so that the output leaves the limit soon after the error changes sign.", "quantifier": "every history of calls, every choice of gains and limit", "why_tests_cant": "Wind-up shows only over long histories; the test looks at a handful of steps.", "anchors": ["sim/controllers/pid.cxx: PID::run"]}
{"id": "C111", "title": "A calendar date gives the time it names", "statement": "fromCalendar(y, mo, d, h, mi, s) is the instant s seconds after that minute of the Gregorian calendar, to the nearest nanosecond, and is normalised.", "quantifier": "every date, every double s in [0, 60)", "why_tests_cant": "Continuum of fractions; only those just below a whole second go wrong.", "anchors": ["common/utctime.cxx: UTCTime::fromCalendar"]}
{"id": "C112", "title": "A printed time can be read", "statement": "The text of UTCTime::str and of operator<< names the second and the milliseconds: read as a decimal number, the seconds are those of the time.", "quantifier": "every time", "why_tests_cant": "Only times with 1 to 99 milliseconds go wrong, and no test looks at the text.", "anchors": ["common/utctime.cxx: UTCTime::str, operator<<"]}
{"id": "C113", "title": "The prediction keeps the covariance symmetric and positive", "statement": "If the covariance is symmetric positive semidefinite before predict, it is after it, being that of the second order transition matrix plus input and process noise; so after any sequence of predictions and updates.", "quantifier": "every state and input size, Jacobians, noise, time step and history", "why_tests_cant": "Matrices of every size, histories of every length.", "anchors": ["core/ekf/ekf_gen/ekf_gen_templates.py: predict", "core/ekf/ekf_gen/ekf_gen_matrix_manip.py: block_sparse_propagate_covariance"]}
{"id": "C114", "title": "The measurement update is the best linear one", "statement": "No other gain leaves a smaller error variance in any direction, and the correction made minimises the cost of correction plus misfit.", "quantifier": "every covariance, Jacobian, positive noise and residual", "why_tests_cant": "Optimality is a statement about all other gains.", "anchors": ["core/ekf/ekf_gen/ekf_gen_templates.py: doUpdate", "core/ekf/ekf_gen/ekf_gen_matrix_manip.py: sparse_meas_update"]}
{"id": "C115", "title": "Kepler's equation is solved", "statement": "The eccentric anomaly that eph2Sat uses is the one solution of Kepler's equation for the mean anomaly, to within 1e-25 before rounding, and thirty rounds are always enough.", "quantifier": "every mean anomaly, every eccentricity a broadcast ephemeris can carry (up to one half)", "why_tests_cant": "Continuum of inputs; convergence of Newton's method has to be shown for all of them.", "anchors": ["common/satellite/satellite_state.cxx: eph2Sat (Keplerian)"]}
{"id": "C116", "title": "The position is the one the GPS interface specification gives", "statement": "eph2Sat at a time within two hours of the ephemeris puts the satellite at the point of the orbit that IS-GPS-200 defines: ellipse, harmonic corrections, inclination and node at that time, Earth rotation.", "quantifier": "every broadcast ephemeris with eccentricity up to one half, every time within two hours", "why_tests_cant": "Tests compare with a few tabulated positions.", "anchors": ["common/satellite/satellite_state.cxx: eph2Sat (Keplerian)"]}
{"id": "C117", "title": "Galileo positions follow the Galileo interface specification", "statement": "For a Galileo ephemeris eph2Sat gives the position that the OS SIS ICD defines, with its gravitational constant.", "quantifier": "every Galileo ephemeris, every time within two hours", "why_tests_cant": "The error is below a metre near the time of ephemeris, where tests look.", "anchors": ["common/satellite/satellite_state.cxx: eph2Sat (Keplerian)", "common/defs.h: GM_EARTH"]}
{"id": "C118", "title": "The velocity is the derivative of the position", "statement": "The velocity that eph2Sat returns is the rate of change of the position it returns.", "quantifier": "every broadcast ephemeris, every time within two hours", "why_tests_cant": "A finite difference at a few times cannot tell a small systematic error from truncation, and the singular times have measure zero.", "anchors": ["common/satellite/satellite_state.cxx: eph2Sat (Keplerian)"]}
{"id": "C119", "title": "The satellite clock is the one of the interface specification", "statement": "The clock offset and drift that eph2Sat returns are those of the polynomial about the time of clock with the relativistic term, and its derivative.", "quantifier": "every broadcast ephemeris, every time within two hours", "why_tests_cant": "In most recorded ephemerides the time of clock equals the time of ephemeris and af2 is zero.", "anchors": ["common/satellite/satellite_state.cxx: eph2Sat (Keplerian)"]}
{"id": "C120", "title": "An old ephemeris does not end the process", "statement": "Asking for a satellite at a time that its ephemeris does not cover reports an error; it does not end the process.", "quantifier": "every ephemeris and time", "why_tests_cant": "The inputs come from what happens to be received.", "anchors": ["common/satellite/satellite_state.cxx: eph2Sat (Keplerian)", "common/check.h"]}
{"id": "C121", "title": "A GLONASS state depends on the ephemeris and the time only", "statement": "eph2Sat for a GLONASS ephemeris gives the state found by integrating the equations of motion from the ephemeris to the time, whatever the SatelliteState passed in held before; it always returns.", "quantifier": "every ephemeris, time and previous state", "why_tests_cant": "Histories of calls; the loop over a floating number of steps.", "anchors": ["common/satellite/satellite_state.cxx: eph2Sat (GLONASS)", "common/math/rk4.h: RK4"]}
{"id": "C122", "title": "The GLONASS equations of motion conserve energy", "statement": "Along every solution of the equations that glonassOrbit integrates, the energy in the rotating frame (kinetic, centrifugal, the Earth's potential with its second zonal harmonic, the constant acceleration) stays constant.", "quantifier": "every solution, for all time", "why_tests_cant": "A statement about all trajectories; a sign or factor wrong in one of the terms breaks it.", "anchors": ["common/satellite/satellite_state.cxx: glonassOrbit"]}
{"id": "C123", "title": "The Runge-Kutta step has fourth order", "statement": "For equations whose right-hand side is an affine function, RK4 gives the Taylor polynomial of fourth order of the solution.", "quantifier": "every linear right-hand side, start and step", "why_tests_cant": "Order is an algebraic identity in all inputs.", "anchors": ["common/math/rk4.h: RK4"]}
{"id": "C124", "title": "The tropospheric delay is that of a finite atmosphere", "statement": "computeTroposphericDelay is zero outside the troposphere and below the horizon, otherwise positive, grows towards the horizon as one over the sine of the elevation, decreases with height, and stays below a bound that holds for all elevations.", "quantifier": "every latitude, height and elevation", "why_tests_cant": "Continuum of inputs; tests use a few positions of satellites well above the horizon.", "anchors": ["common/satellite/atm_correction.cxx: computeTroposphericDelay"]}
{"id": "C125", "title": "The ionospheric delay is that of the Klobuchar model", "statement": "computeIonosphericDelay gives the delay of IS-GPS-200 20.3.3.5.2.5 for the GPS time of week of the time passed in, and is defined and between 1.49 and 34 metres for every satellite above the horizon.", "quantifier": "every time, receiver position, azimuth and elevation", "why_tests_cant": "Continuum of inputs; the eighteen seconds change the result by millimetres.", "anchors": ["common/satellite/atm_correction.cxx: computeIonosphericDelay", "common/defs.h: sat"]}
{"id": "C126", "title": "A satellite is taken at the time of transmission", "statement": "SatelliteCache::update, PseudorangeModel and RelativeCarrierPhase find the time at which the signal that arrives at t left the satellite, with the rotation of the Earth during the flight, to the millimetre; the loop always ends.", "quantifier": "every motion of satellite and receiver position, every rounding of times to a nanosecond", "why_tests_cant": "The loop ends by a contraction argument; a motionless satellite never enters it.", "anchors": ["common/satellite/satellite_cache.cxx: SatelliteCache::update", "models/prange_model.cxx: PseudorangeModel::computeConstants", "models/relative_carrier_phase_model.cxx: RelativeCarrierPhase::computeSatState"]}
{"id": "C127", "title": "Integrated inertial measurements give dead reckoning", "statement": "For every sequence of samples accepted by integrate, computeEndState from any start pose and velocity gives exactly the pose and velocity of dead reckoning sample by sample in the inertial frame; integrate accepts exactly the sequences in which each sample comes at least 0.1 ms after the one before, and ends the process on every other.", "quantifier": "every sequence of samples (any length), bias, start pose and velocity", "why_tests_cant": "Preintegration is a change of coordinates that must commute with every later start state; tests integrate a few trajectories.", "anchors": ["models/imu_model.cxx: ImuModel::integrate, ImuModel::computeEndState, ImuModel::dynamics", "models/imu_state.cxx"]}
{"id": "C128", "title": "The inertial residual vanishes exactly at the predicted end state", "statement": "Evaluate with the bias the measurements were integrated with gives the zero residual exactly when the end pose and velocity are those computeEndState predicts (the quaternion up to its sign).", "quantifier": "every history, start and end state, bias", "why_tests_cant": "An equivalence over all states; the tests use zero bias.", "anchors": ["models/imu_model.cxx: ImuModel::Evaluate, ImuModel::computeEndState"]}
{"id": "C129", "title": "The pose Jacobians of the inertial residual are its derivatives", "statement": "The Jacobians by the start and end pose that Evaluate returns are the derivatives of the residual along every motion of that pose.", "quantifier": "every pair of poses, every motion through them", "why_tests_cant": "Derivatives at all points; the tests compare numerical derivatives at the identity only.", "anchors": ["models/imu_model.cxx: ImuModel::Evaluate, PoseJacobian"]}
{"id": "C130", "title": "The velocity Jacobians of the inertial residual are exact", "statement": "Adding any change to the start or end velocity changes the residual by exactly the returned Jacobian times that change.", "quantifier": "every state and every change, of any size", "why_tests_cant": "All directions and sizes at all states.", "anchors": ["models/imu_model.cxx: ImuModel::Evaluate"]}
{"id": "C131", "title": "The covariance of integrated measurements is a covariance that can be inverted", "statement": "After any sequence of samples the covariance is symmetric and positive semidefinite; with positive sensor noise it is positive definite after two samples, and what finished() inverts is symmetric positive definite whenever there is a sample.", "quantifier": "every history, bias and noise", "why_tests_cant": "Definiteness is a statement about all vectors after all histories.", "anchors": ["models/imu_model.cxx: ImuModel::integrate, ImuModel::finished"]}
{"id": "C132", "title": "dStatedBias is the derivative of the integrated state by the biases", "statement": "For every history, dStatedBias is the derivative of the integrated position, velocity and orientation by the accelerometer and gyroscope biases.", "quantifier": "every history, every direction of bias", "why_tests_cant": "Derivative accumulated over histories of any length.", "anchors": ["models/imu_model.cxx: ImuModel::integrate, ImuModel::dStatedBias"]}
{"id": "C133", "title": "Integrated measurements can be split at any time inside", "statement": "split(t) for any t between the first and the last sample returns the part before and the part after t, meeting at t, with the interpolated sample at t; any other t ends the process.", "quantifier": "every history, every time", "why_tests_cant": "The comparison of times is rounded to half a quantum, the spacing check uses a whole one; the windows between matter.", "anchors": ["models/imu_model.cxx: ImuModel::split", "common/quantized_time.cxx"]}
{"id": "C134", "title": "Splitting does not change the predicted motion", "statement": "The end state predicted by the first part and then by the second is the one predicted before the split.", "quantifier": "every history, split time, start state", "why_tests_cant": "All histories and split times.", "anchors": ["models/imu_model.cxx: ImuModel::split, ImuModel::computeEndState"]}
{"id": "C135", "title": "A constant force gives uniformly accelerated motion", "statement": "With constant specific force f and no turning for T seconds, the integrated velocity is T f and the integrated position T^2 f / 2.", "quantifier": "every spacing of the samples, force, bias", "why_tests_cant": "All spacings and lengths.", "anchors": ["models/imu_model.cxx: ImuModel::integrate"]}
{"id": "C136", "title": "Differences of inertial states are inverse to their addition", "statement": "y + (x - y) = x and (y + d) - y = d for inertial states with unit quaternions and increments of at most half a turn: the attitude to within 1e-29 and up to the sign of its quaternion, everything else exactly.", "quantifier": "every pair of states", "why_tests_cant": "Continuum; wrong order of quaternion factors only shows for states turned differently.", "anchors": ["models/imu_state.cxx: ImuState::operator+, ImuState::operator-"]}
{"id": "C137", "title": "The position and velocity Jacobian of the filter is the derivative of its residual", "statement": "The Jacobian returned by h<pointPosMeas> is the derivative of its residual along every motion of the state: body pose, Earth pose, antenna arm, velocity.", "quantifier": "every state, input, measurement and motion of the state", "why_tests_cant": "Derivatives at all points and directions; tests compare with numerical differences at a few random states.", "anchors": ["core/ekf/rtk_ekf_impl.cxx: h<pointPosMeas>"]}
{"id": "C138", "title": "The antenna velocity the filter predicts is the rate of its position", "statement": "Along every solution of the process, the velocity used by the position and observation measurements is the rate of change of the antenna position.", "quantifier": "every solution of the process, every state and input", "why_tests_cant": "Relates two functions through a differential equation; tests check each alone.", "anchors": ["core/ekf/rtk_ekf_impl.cxx: dynamics, h<pointPosMeas>, h<obsMeas>"]}
{"id": "C139", "title": "The filter's process obeys Newton's law", "statement": "Along every solution of the process the velocity in the inertial frame changes by the specific force turned into that frame plus gravity.", "quantifier": "every solution of the process, every state and input", "why_tests_cant": "A law for all orientations, rates and velocities.", "anchors": ["core/ekf/rtk_ekf_impl.cxx: dynamics"]}
{"id": "C140", "title": "The filter's process Jacobian is the derivative of the process", "statement": "In every family of solutions the first order error changes as StateJac says; errorStateDynamics is StateJac times the error plus InputJac times the noise.", "quantifier": "every family of solutions, every error", "why_tests_cant": "Linearisation of a flow at all points; the tests compare errorStateDynamics with the Jacobian, both hand written.", "anchors": ["core/ekf/rtk_ekf_impl.cxx: dynamics, errorStateDynamics"]}
{"id": "C141", "title": "The pseudorange Jacobian of the filter is the derivative of its residual", "statement": "The range row h<obsMeas> returns is the derivative of the range residual along every motion of the state; each observation has its own two rows and the clock of its constellation; another constellation ends the process.", "quantifier": "every state, satellite, list of observations and motion", "why_tests_cant": "All geometries and motions.", "anchors": ["core/ekf/rtk_ekf_impl.cxx: h<obsMeas>"]}
{"id": "C142", "title": "The Doppler Jacobian of the filter is the derivative of its residual", "statement": "The Doppler row h<obsMeas> returns is the derivative of the Doppler residual along every motion of the state.", "quantifier": "every state, satellite and motion", "why_tests_cant": "All geometries and motions; the tests allow an error of 1e-3.", "anchors": ["core/ekf/rtk_ekf_impl.cxx: h<obsMeas>"]}
{"id": "C143", "title": "The predicted Doppler is the rate of the predicted pseudorange", "statement": "When satellite, antenna and clocks move as their rates say, the predicted pseudorange changes at the predicted Doppler.", "quantifier": "every satellite and receiver motion", "why_tests_cant": "Relates two predictions by a derivative for all motions.", "anchors": ["core/ekf/rtk_ekf_impl.cxx: h<obsMeas>", "common/satellite/satellite_state.cxx: computeSagnac"]}
{"id": "C144", "title": "Fix and hold compares every single difference with its fixed value", "statement": "h<fixAndHoldMeas> returns the difference of every held value and the estimate, in order; changing the estimate by any amount changes it by the Jacobian times that amount; a different number of values ends the process.", "quantifier": "every number of values, every value", "why_tests_cant": "Lists of all lengths.", "anchors": ["core/ekf/rtk_ekf_impl.cxx: h<fixAndHoldMeas>"]}
{"id": "C145", "title": "Differences of filter states are inverse to adding errors", "statement": "For states with the same number of single differences, x + (y - x) = y and (x + d) - x = d.", "quantifier": "every pair of states, every error below a full turn", "why_tests_cant": "Continuum; wrong order of factors only shows for states turned differently.", "anchors": ["core/ekf/ekf_gen/ekf_gen_state.py: boxplus_impl, boxminus_impl", "common/math/dquat.h: exp, log"]}
{"id": "C146", "title": "Weighted residuals measure distance in the given covariance", "statement": "For every covariance the pseudorange factor computes an upper triangular weight whose weighted residual has, as squared length, the residual measured by the inverse covariance.", "quantifier": "every symmetric positive definite covariance", "why_tests_cant": "A continuum of matrices; correlated ones are not tested.", "anchors": ["models/prange_model.cxx: PseudorangeModel"]}
{"id": "C147", "title": "The pseudorange residual vanishes exactly at agreement, and switched off it ignores the measurement", "statement": "The residual is zero if and only if the switch is 1 and both predictions equal the measurements; with the switch at 0 it is the same for every measurement, satellite and state.", "quantifier": "every parameter, measurement, satellite and covariance", "why_tests_cant": "Equivalence over all parameters.", "anchors": ["models/prange_model.cxx: Evaluate"]}
{"id": "C148", "title": "The range and switch rows of the pseudorange factor are derivatives", "statement": "For uncorrelated errors the rows of range and switch of the six Jacobians add up to the derivative of the residual along every motion of all parameters at once.", "quantifier": "every parameter, satellite and motion", "why_tests_cant": "All geometries and motions.", "anchors": ["models/prange_model.cxx: Evaluate"]}
{"id": "C149", "title": "The Jacobians of the pseudorange factor are derivatives", "statement": "The six Jacobians add up to the derivative of the whole residual along every motion of all parameters, for every covariance.", "quantifier": "every covariance, parameter, satellite and motion", "why_tests_cant": "All covariances and geometries.", "anchors": ["models/prange_model.cxx: Evaluate"]}
{"id": "C150", "title": "The pseudorange factor and the filter predict the same measurements", "statement": "For the same satellite, antenna and clock both predict the same pseudorange and the same Doppler.", "quantifier": "every satellite, position, velocity and clock", "why_tests_cant": "Equality of two implementations for all inputs.", "anchors": ["models/prange_model.cxx: Evaluate", "core/ekf/rtk_ekf_impl.cxx: h<obsMeas>"]}
{"id": "C151", "title": "A carrier phase in agreement with the geometry has no residual", "statement": "If the change of phase in cycles is the change of travelled metres over the wavelength, the residual is zero.", "quantifier": "every wavelength, satellite, pose and clock", "why_tests_cant": "All wavelengths; the test takes the factor's own prediction as truth.", "anchors": ["models/relative_carrier_phase_model.cxx: Evaluate"]}
{"id": "C152", "title": "The Jacobians of the carrier phase factor are derivatives", "statement": "The eight Jacobians add up to the derivative of the residual along every motion of the parameters.", "quantifier": "every parameter, satellite and motion", "why_tests_cant": "All geometries and motions; the test allows a tolerance.", "anchors": ["models/relative_carrier_phase_model.cxx: Evaluate"]}
{"id": "C153", "title": "The clock factor vanishes exactly for clocks that run on, composes over time, and is linear", "statement": "GnssDynamics is zero if and only if the rate and switch are unchanged and the offset advanced by rate times time; zero on two adjacent intervals implies zero on both together; any change of the parameters changes the residual by the Jacobians times it.", "quantifier": "every clock, switch, interval and change of finite size", "why_tests_cant": "All intervals and changes.", "anchors": ["models/gnss_dynamics_model.cxx: Evaluate"]}
{"id": "C154", "title": "The pose factor vanishes exactly at the anchor's motion", "statement": "For non-zero weights the residual is defined for every pair of poses and is zero if and only if pose and anchor move every point alike, whatever the signs of their quaternions.", "quantifier": "every pair of rigid motions", "why_tests_cant": "Includes both branches of the logarithm and both signs.", "anchors": ["models/pose_error_model.cxx: Evaluate", "common/math/dquat.h: log"]}
{"id": "C155", "title": "The simulator delivers every ephemeris once its time has come", "statement": "Each ephemeris of the log is delivered once, at the first step at or after its stamp; running out of ephemerides is harmless.", "quantifier": "every list of ephemerides and every history of steps", "why_tests_cant": "Depends on the whole history of steps; tests stop before the list is empty.", "anchors": ["sim/sensors/gnss.cxx: sampleGpsEph, sampleGloEph, sampleGalEph", "sim/sim.cxx: step"]}
{"id": "C156", "title": "The simulated car stays on the ground and does not slip sideways", "statement": "After every history of steps and wheel torques the car is at height zero, upright, moves straight ahead and turns about its vertical axis only; for real machines every history is defined.", "quantifier": "every history of times and torques, every car", "why_tests_cant": "Unbounded histories.", "anchors": ["sim/dynamics/car.cxx: compute_wrench", "sim/dynamics/dynamics.cxx: plus, f, step", "common/math/dquat.h: exp"]}
{"id": "C157", "title": "Under constant torque the car accelerates as Newton says", "statement": "Driven by the same torque k on both wheels for n steps of dt seconds it has the speed a n dt and has come a (n dt)^2 / 2 far, with a = 2 k / (radius mass).", "quantifier": "every car, torque, step and number of steps", "why_tests_cant": "Every number and length of steps.", "anchors": ["sim/dynamics/dynamics.cxx: plus, step"]}
{"id": "C158", "title": "The controller inverts the car's model", "statement": "The torques the controller computes for an angular acceleration and an acceleration give the car exactly these.", "quantifier": "every car and every pair of accelerations", "why_tests_cant": "A continuum of cars and commands.", "anchors": ["sim/dynamics/car.cxx: controller, compute_wrench", "sim/dynamics/dynamics.cxx: f"]}
{"id": "C159", "title": "The gains of the car's controllers act in the simulation", "statement": "The integral and derivative gains given for heading and speed influence the torques.", "quantifier": "every set of gains, every history of steps", "why_tests_cant": "A statement about all histories: no run of any length shows a difference.", "anchors": ["sim/sim.cxx: step", "sim/dynamics/car.cxx: controller", "sim/controllers/pid.cxx: run"]}
{"id": "C160", "title": "The car visits its way points in order, from the first", "statement": "At every call the car goes for the way point it went for before, or, once closer than the threshold, for the next one around; at first for the first.", "quantifier": "every list of way points, every history of poses, every initial value of memory", "why_tests_cant": "The counter is not initialised: tests see one value.", "anchors": ["sim/dynamics/car.h: WaypointFollower", "sim/dynamics/car.cxx: follow"]}
{"id": "C161", "title": "The commanded speed respects the limits", "statement": "The follower never commands more than max_speed nor a turn faster than max_omega.", "quantifier": "every pose, way point and limit", "why_tests_cant": "A continuum of poses.", "anchors": ["sim/dynamics/car.cxx: follow"]}
{"id": "C162", "title": "The follower brings the car towards its way point", "statement": "Driving as commanded the car turns towards its way point and gets closer to it.", "quantifier": "every pose and way point", "why_tests_cant": "A continuum of poses.", "anchors": ["sim/dynamics/car.cxx: follow"]}
{"id": "C163", "title": "The simulated accelerometer and gyroscope measure specific force and turn rate", "statement": "Without noise and bias the readings are the specific force and the turn rate of the simulated motion, in the frame of the body.", "quantifier": "every motion", "why_tests_cant": "A continuum of motions; needs the derivative of the velocity in the inertial frame.", "anchors": ["sim/sensors/imu.cxx: sample", "sim/dynamics/dynamics.cxx: plus"]}
{"id": "C164", "title": "The filter's process follows the simulation", "statement": "With the readings of the simulated sensor and the right biases the filter's process moves pose and velocity at the rates of the simulation.", "quantifier": "every state of the simulation and every bias", "why_tests_cant": "Equality of two implementations for all inputs.", "anchors": ["sim/sensors/imu.cxx: sample", "core/ekf/rtk_ekf_impl.cxx: dynamics"]}
{"id": "C165", "title": "The filter predicts the simulated pseudorange", "statement": "Without noise the simulated pseudorange is the one the filter predicts from the same satellite, clocks and delays, to a few millimetres; both searches for the time of transmission end at the same time.", "quantifier": "every satellite motion between 1000 and 5000 m/s, every receiver within 10000 km and every time", "why_tests_cant": "Iterations of two programs for all motions.", "anchors": ["sim/sensors/gnss.cxx: range", "common/satellite/satellite_cache.cxx: update", "core/ekf/rtk_ekf_impl.cxx: h<obsMeas>"]}
{"id": "C166", "title": "A sensor samples at its rate", "statement": "A sensor asked often enough delivers its rate of samples per second, never more, and is never late by more than the time between two calls.", "quantifier": "every rate, every history of times", "why_tests_cant": "All histories of times; comparisons of rounded times.", "anchors": ["sim/sensors/imu.cxx: sample", "sim/sensors/gnss.cxx: sample"]}
{"id": "C167", "title": "The simulated antenna is where the filter has it", "statement": "Position and velocity of the simulated antenna are those the filter computes for the same state; the velocity is the rate of the position; the published pose is that of the antenna.", "quantifier": "every state and motion, every place on the Earth", "why_tests_cant": "Equality for all states, derivative for all motions.", "anchors": ["sim/sensors/gnss.cxx: sample", "core/ekf/rtk_ekf_impl.cxx: h<obsMeas>"]}
{"id": "C168", "title": "The pseudorange factor predicts the simulated Doppler", "statement": "Without noise the simulated Doppler differs from the prediction of the pseudorange factor by no more than the relative speed times the change of direction of the last step of the search.", "quantifier": "every satellite, receiver and clock", "why_tests_cant": "A continuum of geometries.", "anchors": ["sim/sensors/gnss.cxx: range", "models/prange_model.cxx: Evaluate"]}
{"id": "C169", "title": "The Jacobians of the exponentials of motions are derivatives", "statement": "The 6x6 matrices that exp(x, jac) of DQuat and SE3 return are the derivatives of exp: along every differentiable curve of tangent vectors the motion changes at the rate the matrix gives, seen from the outside (LEFT) or from the body (RIGHT). Where the code uses series, the rate is that of the exact exponential to within 1e-16 of the speeds (times the length of the linear part).", "quantifier": "every tangent vector, every curve through it, both sides", "why_tests_cant": "Derivatives at a continuum of points along all curves; tests compare a few points with differences.", "anchors": ["common/math/dquat.h: exp", "common/math/se3.h: exp"]}
{"id": "C170", "title": "The Jacobians of the logarithms are derivatives", "statement": "The matrices that log(jac) of Quat, SO3, DQuat and SE3 return are the derivatives of log along every differentiable curve of rotations or motions.", "quantifier": "every rotation or motion for which log() is defined, every curve through it, both sides", "why_tests_cant": "Derivatives at a continuum of points along all curves.", "anchors": ["common/math/quat.h: log", "common/math/so3.h: log", "common/math/dquat.h: log", "common/math/se3.h: log"]}
{"id": "C171", "title": "Asking for the Jacobian does not change the logarithm", "statement": "log(jac) returns the same vector as log().", "quantifier": "every rotation or motion", "why_tests_cant": "Equality of two programs for all inputs.", "anchors": ["common/math/quat.h: log", "common/math/so3.h: log", "common/math/dquat.h: log", "common/math/se3.h: log"]}
{"id": "C172", "title": "The Jacobian of the pose factor is the derivative of its residual", "statement": "PoseError gives the same residual whether Jacobians are asked for or not, and the Jacobian is the derivative of the residual along every curve of poses.", "quantifier": "every anchor, pose, weight and curve", "why_tests_cant": "Derivatives along all curves of poses.", "anchors": ["models/pose_error_model.cxx: Evaluate"]}
{"id": "C173", "title": "The Jacobian by the biases is the derivative of the inertial residual", "statement": "Wherever Evaluate gives a residual, the Jacobian by the biases that it returns is the derivative of the residual along every curve of biases.", "quantifier": "every history of samples, pair of poses and velocities, every bias and every curve through it", "why_tests_cant": "Derivatives at a continuum of points along all curves, for histories of any length; the tests compare one random history.", "anchors": ["models/imu_model.cxx: Evaluate (jacobian 4)", "common/math/quat.h: exp, log, Ad"]}
{"id": "C174", "title": "A logged observation carries the frequency of the signal measured", "statement": "gather_ephemeris writes each observation with the carrier frequency of the signal that was measured; measurements of signals it does not handle are not written.", "quantifier": "every sequence of receiver messages, every division into reads", "why_tests_cant": "Sequences of messages are unbounded; no test runs the tool.", "anchors": ["tools/gather_ephemeris.cxx: ObsListener::get_freq, gotUbx", "parsers/ubx/ubx_defs.h: RXM_RAWX_t"]}
{"id": "C175", "title": "The log holds exactly the observations received", "statement": "The observations that gather_ephemeris logs are those of the RXM-RAWX messages received, one record each, in order, stamped with the time of reception.", "quantifier": "every sequence of receiver messages, every division into reads, every number of measurements in a message", "why_tests_cant": "Buffers reused between messages make the result depend on the whole history.", "anchors": ["tools/gather_ephemeris.cxx: ObsListener::gotUbx", "parsers/ubx/ubx.cxx: receive_callback"]}
{"id": "C176", "title": "A short navigation message changes nothing", "statement": "An RXM-SFRBX message with fewer words than a subframe, page or string of its system is ignored: no ephemeris object changes and nothing is logged.", "quantifier": "every message, every content of the buffer after it, every state", "why_tests_cant": "What lies in the buffer after the message depends on the whole history.", "anchors": ["tools/gather_ephemeris.cxx: Listener::gotUbx, Accumulator::handle", "common/ephemeris/galileo.cxx: parse"]}
{"id": "C177", "title": "Ephemerides are logged only near their reference time", "statement": "gather_ephemeris logs an ephemeris only if the clock differs from its time of ephemeris by at most two hours, exactly, to the nanosecond.", "quantifier": "every sequence of receiver messages, every reading of the clock", "why_tests_cant": "Boundary of a comparison in doubles for all pairs of times.", "anchors": ["tools/gather_ephemeris.cxx: verify, Accumulator::handle"]}
{"id": "C178", "title": "A logged ephemeris was broadcast by the satellite it is logged for", "statement": "Every ephemeris that gather_ephemeris logs for a satellite is decoded from the latest words of each kind that this satellite sent, and from no other message, whatever messages of other satellites and systems come between and however the bytes are cut.", "quantifier": "every interleaving of messages of all satellites, every division into reads", "why_tests_cant": "Interleavings are unbounded; no test runs the tool.", "anchors": ["tools/gather_ephemeris.cxx: Accumulator::handle, Listener::gotUbx"]}
{"id": "C179", "title": "A setting is found exactly where the configuration has it", "statement": "Config::get(key, out) returns true exactly when the path of names in the key leads to a value of the type asked for, and sets out to that value; otherwise out keeps its value.", "quantifier": "every configuration tree, every path of names, every type of value", "why_tests_cant": "Trees and paths of any depth.", "anchors": ["utils/config.h: Config::get", "utils/split_string.cxx"]}
{"id": "C180", "title": "A required setting is delivered or the program ends", "statement": "Config::get(key, out, true) either returns true with out set, or ends the program.", "quantifier": "every configuration tree and key", "why_tests_cant": "All trees and keys; the test has one missing name.", "anchors": ["utils/config.h: Config::get", "common/check.cxx: check"]}
{"id": "C181", "title": "Reading a setting does not throw", "statement": "Config::get reports a setting that is missing or of another type by returning false (or by check), not by an exception.", "quantifier": "every configuration tree and key", "why_tests_cant": "All trees and keys.", "anchors": ["utils/config.h: Config::get"]}
{"id": "C182", "title": "A matrix is read only from a list of its size", "statement": "Config::get for a matrix succeeds exactly for a list of rows*cols numbers, which fill the rows in order; another length is refused.", "quantifier": "every configuration, every size of matrix, every length of list", "why_tests_cant": "All sizes; reading beyond a list is undefined behaviour that a test may not show.", "anchors": ["utils/config.h: Config::get (MatOut)"]}
{"id": "C183", "title": "Matrices survive being written to and read from YAML", "statement": "A matrix encoded with YAML::convert is decoded to the same matrix, by as<> and by Config::get, if single numbers are; decode refuses a list that is too short.", "quantifier": "every matrix of every size, every text form of numbers that can be read back", "why_tests_cant": "All sizes and contents.", "anchors": ["utils/config.h: YAML::convert<Eigen::Matrix>"]}
{"id": "C184", "title": "Post-processing replays the start of the log", "statement": "post_process hands the records of the first 45 seconds of the log to the filter.", "quantifier": "every log, every choice of streams and of their order, every cut of the files", "why_tests_cant": "All logs; a test would have to run the whole program on one of them.", "anchors": ["tools/post_process.cxx: main, getState", "common/logging/log_reader.cxx: LogReader::read", "core/ekf/ekf_gen/ekf_gen_templates.py: State"]}
{"id": "C185", "title": "Post-processing gives the filter every observation", "statement": "post_process hands every logged GNSS observation to the filter once, together with those of its epoch.", "quantifier": "every sequence of stamped observations of any length", "why_tests_cant": "All sequences of stamps.", "anchors": ["tools/post_process.cxx: main (callback for GNSS_OBS)"]}
{"id": "C186", "title": "Post-processing uses ephemerides logged within two hours of their time", "statement": "loadEphemeris hands to the filter exactly the ephemerides of the log stamped within 7200 s of their time of ephemeris, in order.", "quantifier": "every sequence of stamped ephemerides", "why_tests_cant": "All sequences; exact boundary.", "anchors": ["tools/post_process.cxx: loadEphemeris"]}
{"id": "C187", "title": "Dense forms of generated filters hold every block at its place", "statement": "dense() of a generated ErrorState, Covariance, ProcessCovariance or Jacobian has the size of the components in use and holds every component of every block at its place: fixed members first, then variable ones, as many elements of each as counted; blocks that the configuration does not list are zero, and covariances are symmetric. Every composition can be generated.", "quantifier": "every composition of the state, every configuration of dependencies, every count of elements, all contents", "why_tests_cant": "All compositions and counts; the generated tests cover one composition and the largest counts.", "anchors": ["core/ekf/ekf_gen/ekf_gen_state.py: make_dense_vector, make_dense_matrix", "core/ekf/ekf_gen/ekf_gen.py: make_jacobian_dense_impl, organize_states", "core/ekf/ekf_gen/ekf_gen_utils.py: accumulate_expr"]}
{"id": "C188", "title": "fromDense undoes dense", "statement": "ErrorState::fromDense(e.dense(counts)) is e, for the elements counted.", "quantifier": "every composition, every count up to the largest, all contents", "why_tests_cant": "All compositions and counts.", "anchors": ["core/ekf/ekf_gen/ekf_gen_state.py: from_dense, make_dense_vector", "core/ekf/ekf_gen/ekf_gen_templates.py: ErrorState::fromDense"]}
{"id": "C189", "title": "The size of a state is the number of its error components", "statement": "State::size() is the number of components of the error state for the current counts.", "quantifier": "every composition and count", "why_tests_cant": "All compositions; the one of rtk_ekf has single components, where it happens to be right.", "anchors": ["core/ekf/ekf_gen/ekf_gen_state.py: state_size"]}
{"id": "C190", "title": "A covariance made from variances is their diagonal matrix", "statement": "Covariance(const ProcessCovariance&), with which post_process makes the initial covariance, is the diagonal matrix of the variances; tile returns copies of its argument.", "quantifier": "every composition, every content of the memory the object is made in", "why_tests_cant": "Uninitialised memory is often zero in tests.", "anchors": ["core/ekf/ekf_gen/ekf_gen_state.py: covariance_from_process_cov", "core/ekf/ekf_gen/ekf_gen_templates.py: Covariance::Covariance(const ProcessCovariance&)", "common/matrix_defs.h: tile", "tools/post_process.cxx: main"]}
{"id": "C191", "title": "Accessors of blocks return the block in use", "statement": "The accessor of a block of a Jacobian or covariance, as the generated code calls it, returns as many rows and columns as the two members have components.", "quantifier": "every pair of members and counts, every order in which Python iterates over its sets", "why_tests_cant": "The order of a set of strings changes from run to run of the generator.", "anchors": ["core/ekf/ekf_gen/ekf_gen.py: make_jacobian, make_jacobian_dense_impl", "core/ekf/ekf_gen/ekf_gen_state.py: covariance_members, make_dense_matrix", "core/ekf/ekf_gen/ekf_gen_matrix_manip.py: create_symbolic_covariance, create_symbolic_measurement_jacobian"]}
{"id": "C192", "title": "Whether an update is made depends on measurement and filter alone", "statement": "doUpdate gates a measurement, and update ends the process, depending on the rows of the measurement and on the filter only.", "quantifier": "every number of rows up to the largest, every content of memory that was never written", "why_tests_cant": "Uninitialised memory varies from run to run.", "anchors": ["core/ekf/ekf_gen/ekf_gen_templates.py: doUpdate, update", "core/ekf/ekf_gen/ekf_gen_matrix_manip.py: sparse_meas_update", "core/ekf/rtk_ekf_impl.cxx: h<obsMeas>, h<fixAndHoldMeas>"]}
{"id": "C193", "title": "isFinite refuses what is not finite", "statement": "isFinite holds exactly of matrices of finite numbers.", "quantifier": "all matrices of doubles", "why_tests_cant": "All doubles, infinities among them.", "anchors": ["common/matrix_defs.h: isFinite"]}
{"id": "C194", "title": "Numerical Jacobians converge to the derivative", "statement": "Each entry of compute_jac(f, x, eps) differs from the partial derivative of f by at most m eps^2 / 6, where m bounds the third derivative along that coordinate within eps of x; it is exact for functions that are quadratic in it.", "quantifier": "every function differentiable three times, every point, every step, every size", "why_tests_cant": "All functions and points; a test compares at a few points with a tolerance.", "anchors": ["common/numerical_jacobian.h: compute_jac"]}
{"id": "C195", "title": "Numerical Jacobians are accurate at every point", "statement": "compute_jac in double precision, with its default step, returns the identity within 1e-6 for the function that returns its argument.", "quantifier": "all doubles", "why_tests_cant": "The error grows with the size of the argument; tests use arguments about 1.", "anchors": ["common/numerical_jacobian.h: compute_jac"]}
{"id": "C196", "title": "Numerical Jacobians of rotations match the exact ones", "statement": "compute_jac of a product, of an inverse or of a rotated vector with respect to a quaternion is the exact Jacobian to a relative error of the square of the step.", "quantifier": "all unit quaternions, all vectors, all steps up to one half", "why_tests_cant": "All rotations.", "anchors": ["common/numerical_jacobian.h: compute_jac", "common/math/quat.h: Quat"]}
{"id": "C197", "title": "The simulation runs for the time asked for", "statement": "simulate ends at the first step that reaches start + tmax, or at the interrupt, with the true pose logged once a step at start + k dt, for every positive dt.", "quantifier": "every start, every duration and step in double precision, every moment of an interrupt", "why_tests_cant": "All durations and steps, no bound on the number of steps.", "anchors": ["sim/simulate.cxx: main", "sim/sim.cxx: Sim::step", "common/utctime.cxx: UTCTime::operator+"]}
{"id": "C198", "title": "The progress bar shows the part that is done", "statement": "ProgressBar::print fills the cells of the part done, leaves those of the rest blank, prints as many cells as the bar is wide and prints in between one of the characters of its theme.", "quantifier": "every total, width, theme and number of completed steps", "why_tests_cant": "All totals and widths; the index into the theme is computed.", "anchors": ["utils/progress_bar.cxx: ProgressBar::print"]}
{"id": "C199", "title": "The time left can be printed at any moment", "statement": "ProgressBar::print computes the time left and the time elapsed for every number of completed steps from none to all.", "quantifier": "every total, every number of completed steps, every elapsed time", "why_tests_cant": "All numbers of steps and times; conversion beyond an int is undefined.", "anchors": ["utils/progress_bar.cxx: ProgressBar::print, ms_to_stamp"]}
{"id": "C200", "title": "randomUniform draws from the interval asked for", "statement": "randomUniform(lower, upper) draws from the whole of the interval from lower to upper.", "quantifier": "all intervals, every value of the generator", "why_tests_cant": "All intervals; tests of randomness see single draws.", "anchors": ["common/random.h: randomUniform, randomUniformat"]}
{"id": "C201", "title": "RETURN_OR_ASSIGN evaluates its argument once", "statement": "RETURN_OR_ASSIGN(e) evaluates e once, returns its error, or goes on with its value.", "quantifier": "every expression with any effect on any state", "why_tests_cant": "All expressions; the test uses one without effects.", "anchors": ["common/error_result.h: RETURN_OR_ASSIGN, ErrorResult"]}
{"id": "C202", "title": "Messages at or above the configured level are shown", "statement": "dbg, info, warn, error and fatal print exactly when LOG_LEVEL is at most their own level.", "quantifier": "every level", "why_tests_cant": "The level is fixed when compiling: one build tests one level.", "anchors": ["common/print.cxx: dbg, info, warn, error, fatal", "common/print.h: LoggingLevel"]}
{"id": "C203", "title": "The estimator keeps measurements in order", "statement": "After any history of calls, the measurements that the estimator keeps for replaying are in order of time and, at one time, of kind; they are the accepted ones that are at most a second older than the newest accepted one, those of one time and kind in the order of arrival.", "quantifier": "every history of measurements and ephemerides, in any order of times, of any length", "why_tests_cant": "All histories.", "anchors": ["core/ekf/rtk_ekf_estimator.h: RtkEkfEstimator::addMeasurement, Meas", "core/ekf/rtk_ekf_estimator.cxx: dropOldMeasurements"]}
{"id": "C204", "title": "Configuration messages depend only on their arguments", "statement": "Every configuration call writes complete frames that carry its arguments and depend only on them and on the version of the receiver, not on the messages sent before.", "quantifier": "all arguments, every content of the message buffer, every history of calls", "why_tests_cant": "All buffers and histories.", "anchors": ["parsers/ubx/ubx.cxx: enableMessage, setNavRate, startSurveyIn, configure, getConfiguration", "parsers/ubx/ubx_defs.h: CFG_MSG_t, CFG_RATE_t, CFG_TMODE3_t"]}
{"id": "C205", "title": "What is written to the receiver depends on its answers", "statement": "The bytes that gather_ephemeris writes when it sets up a receiver depend only on what the receiver answers.", "quantifier": "every content of the memory in which the object is made, every answer", "why_tests_cant": "The content of uninitialised memory is not under the control of a test.", "anchors": ["tools/gather_ephemeris.cxx: main", "parsers/ubx/ubx.cxx: disableNmea, getVersion", "parsers/ubx/ubx.h: Ubx"]}
{"id": "C206", "title": "configure sets one key and getConfiguration asks for one", "statement": "configure sends a message that the protocol reads as setting the given key to the given value and nothing else; getConfiguration one that asks for the given key and nothing else.", "quantifier": "all versions, layers, keys, values, sizes, buffers", "why_tests_cant": "All keys and values; the reader is the receiver.", "anchors": ["parsers/ubx/ubx.cxx: configure, getConfiguration", "parsers/ubx/ubx_defs.h: CFG_VALSET_t, CFG_VALGET_t"]}
{"id": "C207", "title": "disableNmea turns NMEA off", "statement": "disableNmea turns NMEA off on the serial port and on USB, in both directions, and keeps characters of eight bits.", "quantifier": "every version, every buffer", "why_tests_cant": "The effect is on the receiver; all versions.", "anchors": ["parsers/ubx/ubx.cxx: disableNmea", "parsers/ubx/ubx_defs.h: CFG_PRT_t"]}
{"id": "C208", "title": "The dynamic model is the same on every receiver", "statement": "setDynamicMode selects the same dynamic model on old and on new receivers and changes nothing else.", "quantifier": "every version, every buffer", "why_tests_cant": "The effect is on the receiver; all versions.", "anchors": ["parsers/ubx/ubx.cxx: setDynamicMode", "parsers/ubx/ubx_defs.h: CFG_NAV5_t"]}
{"id": "C209", "title": "The version of the receiver is the one it gives", "statement": "After a version message has arrived, majorVersion and minorVersion are those that the message gives.", "quantifier": "all version messages of the protocol, any number of strings, everything that earlier messages left in the buffer", "why_tests_cant": "All messages and all histories of the buffer.", "anchors": ["parsers/ubx/ubx.cxx: versionCb, extractVersionString", "parsers/ubx/ubx_defs.h: MON_VER_t"]}
{"id": "C210", "title": "The name of the module is the one it gives", "statement": "After a version message has arrived, moduleVame is the name that the message gives.", "quantifier": "all version messages, all names", "why_tests_cant": "All names.", "anchors": ["parsers/ubx/ubx.cxx: versionCb, extractModuleName", "parsers/ubx/ubx.h: moduleVame"]}
{"id": "C211", "title": "Quaternions, dual quaternions and error states are values", "statement": "Programs that make, copy, assign, multiply and change Quat, DQuat and ImuErrorState objects behave as if each object had numbers of its own: a statement changes the object on its left and nothing else, and real(), dual(), alpha, beta and gamma are parts of the numbers of their object.", "quantifier": "all programs of these statements, any number of objects and statements, all numbers", "why_tests_cant": "All programs: which objects share memory depends on the whole history.", "anchors": ["common/math/quat.h: Quat, arr_, operator=, operator*=, otimes", "common/math/dquat.h: DQuat, real, dual, setReal, setDual, otimes", "models/imu_state.h: ImuErrorState", "models/imu_state.cxx: ImuErrorState::ImuErrorState"]}
{"id": "C212", "title": "Multiplying in place leaves the product", "statement": "After q *= p the quaternion q is the product of what q and p were, whatever quaternion p is.", "quantifier": "all quaternions q and p, the same object or not", "why_tests_cant": "All pairs of objects.", "anchors": ["common/math/quat.h: operator*="]}
{"id": "C213", "title": "The parts of a dual quaternion of eight numbers are those numbers", "statement": "After DQuat d(rw, rx, ry, rz, dw, dx, dy, dz), d.real() is the quaternion of the first four numbers and d.dual() that of the last four.", "quantifier": "all eight numbers", "why_tests_cant": "All numbers.", "anchors": ["common/math/dquat.h: DQuat(const T& rw, ...), real, dual"]}
{"id": "C214", "title": "A copy of an error state is its own", "statement": "A copy of an ImuErrorState has numbers of its own: changing alpha, beta or gamma of the copy changes the copy and not the original.", "quantifier": "all error states and changes", "why_tests_cant": "All error states.", "anchors": ["models/imu_state.h: ImuErrorState, alpha, beta, gamma"]}
{"id": "C215", "title": "A quaternion made from an expression is that quaternion", "statement": "A quaternion constructed from an expression of four numbers, such as the sum of two element vectors, has these numbers.", "quantifier": "all expressions", "why_tests_cant": "All expressions; what a freed temporary holds differs from run to run.", "anchors": ["common/math/quat.h: Quat(const Eigen::Ref<const Vec4>)"]}
{"id": "C216", "title": "A copy of a circular buffer is its own", "statement": "After a CircularBuffer is copied, the original and the copy are two queues: operations on one do not change what the other holds or reports.", "quantifier": "all capacities, all histories before the copy, all sequences of operations on the two after it", "why_tests_cant": "All histories.", "anchors": ["common/circular_buffer.h: CircularBuffer, head_, tail_, end_, buf_, size"]}
{"id": "C217", "title": "A circular buffer and its copy destroy each object once", "statement": "When a CircularBuffer and its copy end, in either order, every object is destroyed exactly once.", "quantifier": "all capacities, all histories before the copy, both orders", "why_tests_cant": "All histories.", "anchors": ["common/circular_buffer.h: ~CircularBuffer, clear"]}
{"id": "C218", "title": "A factor shows its states", "statement": "base_items() of a factor gives the states the factor was made with, in that order, each with an ID that tells its class, the DIM of its class and the numbers last written to it.", "quantifier": "all programs that make and write states and factors", "why_tests_cant": "All programs.", "anchors": ["common/hetero_collection.h: HeteroCollection, base_items", "core/states/base.h: State, StateTemplate", "core/states/pose.h", "core/states/vel.h", "core/states/clock_bias.h", "core/states/antenna_position.h", "core/states/imu_bias.h", "core/states/gnss_switch.h", "core/factors/base.h: FactorTemplate", "core/factors/gnss.h", "core/factors/imu.h", "core/factors/gnss_switch.h", "core/factors/relative_carrier_phase.h"]}
{"id": "C219", "title": "A state lists its factors", "statement": "The list of factors of a state holds the factors that were made with it.", "quantifier": "all programs that make states and factors", "why_tests_cant": "All programs.", "anchors": ["core/states/base.h: State::factors, base_items", "core/factors/base.h: FactorTemplate"]}
{"id": "C220", "title": "A new graph starts at the initial state", "statement": "After FactorGraph graph(options), lastNode() has the time, pose, velocity and clock of the options and all its switches are 1, and the graph has one node.", "quantifier": "all options", "why_tests_cant": "All options.", "anchors": ["core/factor_graph.cxx: FactorGraph::FactorGraph", "core/factor_graph.h: lastNode", "core/node.h: Node"]}
{"id": "C221", "title": "Rectifying gives the nearest rotation", "statement": "rectify() and rectified() of SO3 and SE3 turn any matrix into the rotation nearest to it, in the sum of the squares of the entries; SE3 keeps its translation and becomes a rigid motion.", "quantifier": "all matrices, all singular value decompositions that Eigen may give", "why_tests_cant": "A continuum of matrices; nearest means nearer than every other rotation.", "anchors": ["common/math/so3.h: rectify, rectified, orthonormalize", "common/math/se3.h: rectify, rectified"]}
{"id": "C222", "title": "Rectifying leaves rotations as they are", "statement": "rectify() does not change a rotation, so that doing it twice is doing it once; what it gives does not depend on the choice of decomposition, does not change when the matrix is scaled, and turns with the matrix.", "quantifier": "all matrices with a determinant, all rotations", "why_tests_cant": "A continuum of matrices and decompositions.", "anchors": ["common/math/so3.h: rectify, rectified, orthonormalize"]}
{"id": "C223", "title": "Rectifying in several threads", "statement": "Every call to rectify() gives the rectified form of its own matrix, whatever other threads do.", "quantifier": "all schedules of any number of threads and calls", "why_tests_cant": "All interleavings.", "anchors": ["common/math/so3.h: orthonormalize"]}
{"id": "C224", "title": "Each random number of a simulation serves one purpose", "statement": "The numbers drawn for the input, the clock, the satellites and the inertial sensor of a simulation are different numbers of the random sequence, none used twice.", "quantifier": "all sequences, all histories of samples", "why_tests_cant": "All histories; a test sees numbers that look random.", "anchors": ["common/random.h: randomNormal", "sim/sensors/gnss.cxx: GnssSim::GnssSim, sample", "sim/sensors/imu.cxx: sample", "sim/sim.cxx: step"]}
{"id": "C225", "title": "A simulation can be repeated", "statement": "A simulation with the same options and motion draws the same noise each time.", "quantifier": "all sequences, all histories of samples, all earlier simulations in the process", "why_tests_cant": "All histories.", "anchors": ["common/random.h: randomNormal", "sim/sensors/gnss.h: gen_", "sim/sim.cxx: step"]}
{"id": "C226", "title": "The simulated biases walk with the strength of the options", "statement": "The biases of the simulated inertial sensor walk with the strengths accel_walk_stdev and gyro_walk_stdev.", "quantifier": "all options, all noise, all histories", "why_tests_cant": "All histories of noise.", "anchors": ["sim/sensors/imu.cxx: sample, ImuSim::ImuSim", "sim/sensors/imu.h: Options"]}
{"id": "C227", "title": "Random walks spread with the time", "statement": "How far the simulated biases and the rate of the clock spread depends on the time that has passed and not on how often the sensor samples: the variance after a time T is the square of the strength times T.", "quantifier": "all options, all times of samples", "why_tests_cant": "All histories; a variance is not seen in a run.", "anchors": ["sim/sensors/imu.cxx: sample", "sim/sensors/gnss.cxx: sample"]}
{"id": "C228", "title": "The bias of the simulated clock is the integral of its rate", "statement": "Between two samples the rate of the clock goes straight from one value to the next and the bias follows a curve with that slope; without noise the bias grows evenly over any history.", "quantifier": "all clocks, all noise, all histories", "why_tests_cant": "A continuum; needs a derivative.", "anchors": ["sim/sensors/gnss.cxx: sample"]}
{"id": "C229", "title": "The carrier phase of a simulated satellite keeps its number of cycles", "statement": "For each satellite there is one whole number of cycles such that at every sample the carrier phase is the range in wavelengths plus that number plus its own noise; pseudorange and Doppler have noise of their own.", "quantifier": "all ranges, all noise, all numbers of satellites, all samples", "why_tests_cant": "All histories.", "anchors": ["sim/sensors/gnss.cxx: GnssSim::GnssSim, sample"]}
{"id": "C230", "title": "Errors that say the same are equal", "statement": "Two errors compare equal, with == and !=, exactly when they were made with the same message; an error compares equal to a text exactly when that is its message.", "quantifier": "all programs that make errors, all places the compiler may give the literals", "why_tests_cant": "A test sees the places that one compiler chose.", "anchors": ["common/error.h: Error::create, operator==, operator!="]}
{"id": "C231", "title": "An error keeps its message", "statement": "what() gives the message that the error was made with, whenever it is asked.", "quantifier": "all programs that make errors and change arrays, all layouts", "why_tests_cant": "All histories of the arrays.", "anchors": ["common/error.h: Error::create, what"]}
{"id": "C232", "title": "An error that was made is one, and has a message", "statement": "An error made with create() is not ok() and has a message that is not empty; none() is ok().", "quantifier": "all programs, all layouts, all messages", "why_tests_cant": "All programs; a rule of the compiler.", "anchors": ["common/error.h: Error::create, none, ok"]}
{"id": "C233", "title": "Printing errors leaves a stream usable", "statement": "What is printed of a sequence of errors is the messages in order, and nothing for none().", "quantifier": "all sequences of errors", "why_tests_cant": "All sequences.", "anchors": ["common/error.h: operator<<"]}
{"id": "C234", "title": "RETURN_IF_NOT_OK returns the first error", "statement": "RETURN_IF_NOT_OK evaluates its argument once, as it stands in the function around it; it returns the error, and nothing after it is run, or goes on.", "quantifier": "all functions made of declarations and checks, all functions called and their effects", "why_tests_cant": "All programs.", "anchors": ["common/error.h: RETURN_IF_NOT_OK"]}
{"id": "C235", "title": "A result without a value has an error", "statement": "An ErrorResult has either a value, which res() gives, or an error that is not ok(), which err() gives.", "quantifier": "all values and errors, builds with and without checks", "why_tests_cant": "All builds.", "anchors": ["common/error_result.h: ErrorResult, ok, res, err", "common/check.cxx: check"]}
{"id": "C236", "title": "getNext gives the records of a stream one by one", "statement": "Successive calls of getNext for a key give the records logged to it, unchanged and in order, whatever is asked of other keys in between; after the last record the time is the end of time.", "quantifier": "all logs written by a Logger, all sequences of calls of getNext, all numbers of calls after the end", "why_tests_cant": "All interleavings of the streams, all lengths.", "anchors": ["common/logging/log_reader.h: LogReader::getNext, StreamReader::get, readStamp"]}
{"id": "C237", "title": "A LogReader gives every record once", "statement": "Over any sequence of setCallback, getNext and read, also stopped early and called again, the records given for a key are the first ones of its stream, each once and in order; when read has come to the end, a key with a callback has been given all of them.", "quantifier": "all logs, all sequences of calls, all maintenance callbacks, all orders of the streams", "why_tests_cant": "All histories, all points at which a reading is stopped.", "anchors": ["common/logging/log_reader.h: LogReader::getNext", "common/logging/log_reader.cxx: LogReader::setCallback, read"]}
{"id": "C238", "title": "A LogReader opened again shows the new log", "statement": "After open() of a second log the streams, the start time and the end time are those of that log, as for a new reader.", "quantifier": "all file systems, all chains of amended logs", "why_tests_cant": "All chains, all sets of keys.", "anchors": ["common/logging/log_reader.cxx: LogReader::open, openLog"]}
{"id": "C239", "title": "verify_ephemeris reports every logged ephemeris", "statement": "For each of the three streams of ephemerides the program prints one line for each record logged, in the order written; the line is an error exactly if the time of the record and the time of the ephemeris are more than two hours apart.", "quantifier": "all logs written by a Logger, all orders of the streams, all ephemerides", "why_tests_cant": "All logs, all times.", "anchors": ["tools/verify_ephemeris.cxx: verify, main", "common/logging/log_reader.cxx: LogReader::read"]}
{"id": "C240", "title": "What gather_ephemeris logs, verify_ephemeris accepts", "statement": "The ephemerides that gather_ephemeris has checked and logged are within two hours of the time of their record, so that verify_ephemeris reports none as unusual and post_process uses all.", "quantifier": "all messages of a receiver, all clocks", "why_tests_cant": "All clocks, all moments at which a message comes.", "anchors": ["tools/gather_ephemeris.cxx: verify, main", "tools/verify_ephemeris.cxx: verify"]}
{"id": "C241", "title": "The simulator observes each satellite of its log once", "statement": "A GnssSim makes its observations from the satellites that have ephemerides in the log, each once, with all ephemerides of the log, the latest for each reference time; all ephemerides wait to be sent in the order of the log. A log without ephemerides ends the process.", "quantifier": "all logs, all histories of other simulators", "why_tests_cant": "All logs, all sets of satellites, all orders of the records.", "anchors": ["sim/sensors/gnss.cxx: GnssSim::load, ephCb, getSatPointers, sample", "common/satellite/satellite.h: addEph"]}
{"id": "C242", "title": "GnssSim::load may be called again", "statement": "After load() is called again the observations are made from the satellites of both logs, each once.", "quantifier": "all pairs of logs", "why_tests_cant": "All logs.", "anchors": ["sim/sensors/gnss.cxx: GnssSim::load, GnssSim::GnssSim, sample", "sim/sensors/gnss.h: GnssSim"]}
{"id": "C243", "title": "A copied simulator observes what the original does", "statement": "A copy of a GnssSim makes the same observations as the original, also when the original is gone.", "quantifier": "all histories of construction, copying and destruction", "why_tests_cant": "All lifetimes.", "anchors": ["sim/sensors/gnss.h: GnssSim, satellites_", "sim/sensors/gnss.cxx: getSatPointers, sample"]}
{"id": "C244", "title": "The simulation does not depend on who listens", "statement": "The states of a simulation are the same whatever callbacks are registered and when; the data of a step go once each to the callback registered last for their sensor, in the order GNSS, IMU, GPS, Galileo, GLONASS.", "quantifier": "all sequences of steps and registrations, all cars, sensors and random numbers", "why_tests_cant": "All histories.", "anchors": ["sim/sim.cxx: Sim::step", "sim/sim.h: registerGnssCB, registerImuCB, registerGloEphCb, registerGalEphCb, registerGPSEphCb"]}
{"id": "C245", "title": "The numerical Jacobian of a function into the rotations", "statement": "For a function that turns at a constant rate along a coordinate, the column of left_jac3 is the rate in the outer frame and that of right_jac3 the rate in the inner frame, to 1e-22. For every function with a derivative, the columns tend to these rates as the step goes to zero. For every function the two columns are each other's, turned by the value of the function at the lower point.", "quantifier": "all functions from vectors of any length to unit quaternions, all points, coordinates, axes, and rates up to 1e8 radians for each unit", "why_tests_cant": "All functions, all points.", "anchors": ["common/numerical_jacobian.h: left_jac3, right_jac3"]}
{"id": "C246", "title": "The numerical Jacobian does not depend on the sign of the quaternion", "statement": "left_jac3 and right_jac3 give the same matrix for two functions that give the same rotations, whichever of the two quaternions of each rotation they return.", "quantifier": "all pairs of functions with the same rotations", "why_tests_cant": "All functions, all places where the sign changes.", "anchors": ["common/numerical_jacobian.h: left_jac3, right_jac3", "common/math/quat.h: log"]}
{"id": "C247", "title": "hstack and vstack put matrices beside and above each other", "statement": "hstack(a, b) of matrices with the same number of rows is a with b to its right; vstack(a, b) of matrices with the same number of columns is a with b below. Every entry is written, and no write leaves the matrix.", "quantifier": "all matrices of all sizes, with at least one row (hstack) or column (vstack), also those without columns or rows in the other direction", "why_tests_cant": "All sizes.", "anchors": ["common/matrix_defs.h: hstack, vstack"]}
{"id": "C248", "title": "hstack and vstack refuse matrices that do not fit", "statement": "hstack of matrices with different numbers of rows, and vstack of matrices with different numbers of columns, end the process rather than give a matrix.", "quantifier": "all matrices of all sizes, all builds", "why_tests_cant": "All sizes.", "anchors": ["common/matrix_defs.h: hstack, vstack"]}
{"id": "C249", "title": "tile gives copies of a matrix", "statement": "tile(a, v, h) is the matrix of v times h copies of a.", "quantifier": "all matrices, all numbers of copies", "why_tests_cant": "All sizes.", "anchors": ["common/matrix_defs.h: tile"]}
{"id": "C250", "title": "modf splits every entry exactly", "statement": "modf gives, for each entry of a matrix of finite numbers, the whole part towards zero and the rest, with the sign of the entry and below one, whose sum is the entry without any rounding; the whole parts may be put into the matrix itself.", "quantifier": "all matrices of finite doubles", "why_tests_cant": "All doubles.", "anchors": ["common/matrix_defs.h: modf"]}
{"id": "C251", "title": "argsort gives the places of the entries in the sorted vector", "statement": "For every vector, putting each entry at the place that argsort gives for it, as a permutation matrix made from the result does, uses every place once and gives the vector in ascending order.", "quantifier": "all vectors of doubles, every result that the standard allows std::sort", "why_tests_cant": "All vectors, all implementations of std::sort, equal entries in any order.", "anchors": ["common/matrix_defs.h: argsort, argsort_comp"]}
{"id": "C252", "title": "argsort lists the entries from the smallest to the largest", "statement": "x(argsort(x)(k)) is the k-th smallest entry of x, as with the function of this name in NumPy.", "quantifier": "all vectors of numbers", "why_tests_cant": "All vectors.", "anchors": ["common/matrix_defs.h: argsort"]}
{"id": "C253", "title": "Numerical Jacobians of functions of rotations converge to the derivative", "statement": "For every function from rotations to rotations or to vectors that has derivatives along the turns about the three axes, the columns of the numerical Jacobian tend to these derivatives as the step goes to zero, as rates of rotation in the outer frame for the left Jacobian and in the inner frame for the right one.", "quantifier": "all functions of unit quaternions with values in unit quaternions or 3-vectors, all points, both sides", "why_tests_cant": "All functions, all points.", "anchors": ["common/numerical_jacobian.h: compute_jac, left_jac, right_jac, left_jac2, right_jac2", "common/math/quat.h: exp, log"]}
{"id": "C254", "title": "A maintenance callback works whenever it is set", "statement": "A maintenance callback given to setMaintenanceCallback before a log is opened is refused by the check there, or is called while the log is read like one that is set after opening: from the start of the log on, once per period.", "quantifier": "all logs, all numbers of callbacks, all periods, before or after opening", "why_tests_cant": "All orders of the calls, all logs and periods.", "anchors": ["common/logging/log_reader.h: setMaintenanceCallback", "common/logging/log_reader.cxx: LogReader::read"]}
{"id": "C255", "title": "Times are given to RTKLIB unchanged and in order", "statement": "toRtklib of a time has its whole seconds and a fraction from 0 up to but below 1 that is within 2^-52 of the true one; of two times the earlier one stays earlier, so that different times stay different.", "quantifier": "all times with nanoseconds from 0 to 999999999", "why_tests_cant": "All nanoseconds, with rounding.", "anchors": ["third_party/rtklib/rtklib_adapter.cxx: toRtklib"]}
{"id": "C256", "title": "toSdr gives the GPS week and the second in the week", "statement": "toSdr of a time has the GPS week in which the time lies and the seconds since the start of that week, and the date of an ephemeris is made from these.", "quantifier": "all times", "why_tests_cant": "All times.", "anchors": ["third_party/gps_sdr_sim/sdr_adapter.cxx: toSdr"]}
