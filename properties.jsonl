{"id": "C01", "title": "Checked add/sub/mul are exact", "statement": "try_int_add(lval, rval), try_int_sub and try_int_mul return true exactly when the mathematical sum/difference/product is representable in the type of lval, in which case lval becomes that value; when they return false lval keeps its old value. This holds when lval and rval have different widths and signedness.", "quantifier": "for every pair of fixed-width two's-complement integer types (any widths, signed or unsigned) and every pair of values of those types", "why_tests_cant": "The value space is 2^128 per type pair and the bugs live at the asymmetric corners (min negative, mixed signedness, promotion of narrow types); tests sample corners of a few types.", "anchors": ["src/archon/core/integer.hpp: try_int_add, try_int_sub, try_int_mul, int_add, int_sub, int_mul"]}
{"id": "C02", "title": "Mixed-type integer comparison is mathematical comparison", "statement": "int_equal, int_less and the derived comparison functions return the result of comparing the mathematical values of their arguments even if one is signed and the other unsigned and the widths differ.", "quantifier": "for every pair of integer types and every pair of values", "why_tests_cant": "C++'s own conversions give wrong results only for particular sign/width combinations; enumerating all values of all type pairs is impossible.", "anchors": ["src/archon/core/integer.hpp: int_equal, int_less, int_greater, int_less_equal, int_greater_equal"]}
{"id": "C03", "title": "Checked integer casts preserve value or fail", "statement": "try_int_cast succeeds exactly when the source value is representable in the destination type and then yields the same mathematical value, otherwise it leaves the destination untouched; can_int_cast agrees with it; int_cast_clamp yields the representable value nearest to the source.", "quantifier": "for every source and destination integer type and every source value", "why_tests_cant": "Unbounded family of type pairs and astronomically many values.", "anchors": ["src/archon/core/integer.hpp: can_int_cast, try_int_cast, int_cast_clamp"]}
{"id": "C04", "title": "Checked power and arithmetic left shift are exact", "statement": "try_int_pow(base, exp) and try_int_arith_shift_left(lval, shift) succeed exactly when the mathematical base^exp resp. lval * 2^shift is representable in the type of the first argument, and then store exactly that value; on failure the argument is left unchanged.", "quantifier": "for every integer type, every base and every non-negative exponent/shift", "why_tests_cant": "Intermediate overflow in square-and-multiply can reject a representable result only for specific base/exponent combinations; tests check a few.", "anchors": ["src/archon/core/integer.hpp: try_int_pow, try_int_arith_shift_left"]}
{"id": "C05", "title": "Integer square root is the floor square root", "statement": "int_sqrt(v) terminates and returns the largest integer r with r*r <= v, without overflowing the argument type in any intermediate step.", "quantifier": "for every integer type width and every non-negative value", "why_tests_cant": "Newton iteration can oscillate or stop one off only for particular values near squares; 2^64 values cannot be enumerated.", "anchors": ["src/archon/core/integer.hpp: int_sqrt"]}
{"id": "C06", "title": "Rounding division and periodic modulus", "statement": "int_div_round_up(a,b) is the ceiling of a/b, int_div_round_half_down(a,b) is a/b rounded to nearest with ties toward the lower value, and int_periodic_mod(a,b) is the unique value in [0,b) congruent to a modulo b, also for negative a and for argument types of different width and signedness.", "quantifier": "for every representable non-negative dividend (any dividend for the periodic modulus) and every positive divisor", "why_tests_cant": "The formulas are arranged to avoid overflow; an off-by-one or a wrapped intermediate only shows for extreme values.", "anchors": ["src/archon/core/integer.hpp: int_div_round_up, int_div_round_half_down, int_periodic_mod"]}
{"id": "C07", "title": "Bit position queries", "statement": "int_find_msb_pos(v) returns the floor of log2(v) for every positive v and -1 for zero; int_is_power_of_two(v) is true exactly for the powers of two; int_mask(n) has exactly the n lowest bits set.", "quantifier": "for every width and every non-negative value", "why_tests_cant": "Binary search over bit positions has a boundary for every width and every bit index.", "anchors": ["src/archon/core/integer.hpp: int_find_msb_pos, int_is_power_of_two, int_mask"]}
{"id": "C08", "title": "Width-changing two's complement casts preserve the represented value", "statement": "try_twos_compl_cast between two unsigned types that hold two's complement bit patterns succeeds exactly when the signed value represented by the source pattern is representable in the width of the destination, and then the destination pattern represents the same signed value.", "quantifier": "for every pair of unsigned types and every bit pattern", "why_tests_cant": "No test calls it, and the failure depends on integer promotion of types narrower than int.", "anchors": ["src/archon/core/integer.hpp: can_twos_compl_cast, try_twos_compl_cast"]}
{"id": "C09", "title": "SuperInt arithmetic is exact modulo its width", "statement": "SuperInt addition, subtraction, negation, multiplication, bitwise operators and comparison agree with mathematical integers reduced to the (N+1)-bit two's complement range, where N is the width of the widest unsigned type; construction from and conversion to builtin integers preserve the value or report failure.", "quantifier": "for every N and all pairs of representable values", "why_tests_cant": "The value space has 2^130 pairs; carry/sign logic is only exercised at a few points.", "anchors": ["src/archon/core/super_int.hpp: SuperInt::operator+=, operator-=, operator*=, operator<, get_as"]}
{"id": "C10", "title": "SuperInt overflow detection is exact", "statement": "add_with_overflow_detect, subtract_with_overflow_detect, multiply_with_overflow_detect and divide_with_overflow_detect report overflow exactly when the mathematical result (truncated quotient for division) is not representable, leave the value unchanged when reporting overflow, and otherwise store the exact result.", "quantifier": "for every N, every pair of representable values (non-zero divisor)", "why_tests_cant": "The conditions are rearranged inequalities in modular arithmetic; a single wrong bound shows only at rare values.", "anchors": ["src/archon/core/super_int.hpp: add_with_overflow_detect, subtract_with_overflow_detect, multiply_with_overflow_detect, divide_with_overflow_detect"]}
{"id": "C11", "title": "MulPrecInt ring operations and comparison", "statement": "Addition, subtraction, multiplication, complement and comparison of multiple-precision integers agree with mathematical integers modulo 2^width (comparison: with the signed or unsigned value of the representation).", "quantifier": "for every number of parts, every part width, and all operand values", "why_tests_cant": "Carry propagation across an arbitrary number of parts; tests use one or two sizes.", "anchors": ["src/archon/core/mul_prec_int.hpp: MulPrecInt::operator+, operator-, operator*, operator<, operator=="]}
{"id": "C12", "title": "MulPrecInt division", "statement": "divmod(b) yields the truncated quotient and remainder of the represented values for every non-zero divisor (reduced modulo 2^width in the single overflow case).", "quantifier": "for every number of parts, part width, dividend and non-zero divisor", "why_tests_cant": "Knuth's Algorithm D has a correction step taken with probability about 2/base; random tests practically never reach it.", "anchors": ["src/archon/core/mul_prec_int.hpp: MulPrecInt::divmod, unsigned_div, unsigned_short_div, unsigned_long_div"]}
{"id": "C13", "title": "Base64 round trip without padding", "statement": "Decoding the base64 encoding of a byte sequence gives back that byte sequence when the encoder is used without padding, with or without line breaks, in either alphabet.", "quantifier": "for every byte sequence, alphabet and line size", "why_tests_cant": "Unbounded input length; line breaks and partial groups interact.", "anchors": ["src/archon/core/base64.hpp: base64_encode, base64_decode", "src/archon/core/base64.cpp: IncrementalEncoder::encode, IncrementalDecoder::decode"]}
{"id": "C14", "title": "Base64 round trip with padding", "statement": "Decoding the padded base64 encoding of a byte sequence with a decoder that allows or requires padding gives back that byte sequence.", "quantifier": "for every byte sequence", "why_tests_cant": "Existing tests only decode unpadded text; the claim is about all inputs.", "anchors": ["src/archon/core/base64.cpp: IncrementalDecoder::decode", "src/archon/core/base64.hpp: base64_decode, DecodeParams"]}
{"id": "C15", "title": "Base64 output size prediction", "statement": "encode_buffer_size(n, config) is exactly the number of characters the encoder produces for n bytes, and decode never produces more bytes than decode_buffer_size promises; both report failure rather than a wrapped value if the size does not fit in size_t.", "quantifier": "for every input size and configuration, including sizes near the maximum of size_t", "why_tests_cant": "Buffer overruns appear only for specific size residues or extreme sizes that cannot be allocated in a test.", "anchors": ["src/archon/core/base64.cpp: BasicEncoder::encode_buffer_size, BasicDecoder::decode_buffer_size"]}
{"id": "C16", "title": "Incremental base64 encoding is independent of chunking", "statement": "Feeding the input to the incremental encoder in arbitrary pieces with output buffers of arbitrary sizes produces the same character sequence as encoding in one go.", "quantifier": "for every input, every way of splitting it and every sequence of output buffer sizes", "why_tests_cant": "Exponentially many splittings; resumption state (held characters, line position) must be right at every cut point.", "anchors": ["src/archon/core/base64.cpp: IncrementalEncoder::encode"]}
{"id": "C17", "title": "UTF-8 round trip", "statement": "Decoding the UTF-8 encoding of a sequence of valid code points yields that sequence; encoding fails exactly when the sequence contains an invalid code point.", "quantifier": "for every sequence of integers offered as code points", "why_tests_cant": "Unbounded sequences; buffer boundaries and encoding lengths interact.", "anchors": ["src/archon/core/unicode.hpp: try_encode_utf8, try_decode_utf8, encode_utf8_incr, decode_utf8_incr"]}
{"id": "C18", "title": "UTF-8 decoding accepts exactly the well-formed sequences", "statement": "Strict UTF-8 decoding succeeds exactly on byte sequences that are the concatenation of shortest-form encodings of valid code points; overlong forms, surrogates, values above U+10FFFF and truncated sequences are rejected.", "quantifier": "for every byte sequence", "why_tests_cant": "All byte strings; security relevant acceptance of overlong forms cannot be excluded by samples.", "anchors": ["src/archon/core/unicode.hpp: try_decode_utf8, decode_utf8_incr"]}
{"id": "C19", "title": "UTF-16 round trip and well-formedness", "statement": "UTF-16 decoding inverts UTF-16 encoding on every sequence of valid code points and succeeds exactly on well-formed UTF-16 sequences.", "quantifier": "for every sequence of code points resp. 16-bit units", "why_tests_cant": "Unbounded sequences with surrogate pairs at arbitrary positions.", "anchors": ["src/archon/core/unicode.hpp: try_encode_utf16, try_decode_utf16, encode_utf16_incr, decode_utf16_incr"]}
{"id": "C20", "title": "Direct transcoding equals decode followed by encode", "statement": "utf8_to_utf16 and utf16_to_utf8 produce exactly what decoding to code points and re-encoding would produce, and fail on exactly the inputs on which decoding fails.", "quantifier": "for every input sequence", "why_tests_cant": "Two independent hand-written state machines must agree on all byte strings.", "anchors": ["src/archon/core/unicode.hpp: utf8_to_utf16_incr, utf16_to_utf8_incr, try_utf8_to_utf16, try_utf16_to_utf8"]}
{"id": "C21", "title": "Lenient transcoding keeps the valid text", "statement": "The lenient functions (those ending in _l) replace each malformed part by the replacement character and leave all well-formed text before and after it in the output in order.", "quantifier": "for every input sequence", "why_tests_cant": "No test covers these functions; the claim is about all inputs.", "anchors": ["src/archon/core/unicode.hpp: encode_utf8_l, decode_utf8_l, encode_utf16_l, decode_utf16_l, utf8_to_utf16_l, utf16_to_utf8_l"]}
{"id": "C22", "title": "Incremental Unicode conversion can be resumed anywhere", "statement": "An incremental conversion call that stops (output full or input exhausted) has consumed exactly the input corresponding to the output it produced, so continuing from the reported offsets with a fresh output buffer yields the same total output as a single call with an unlimited buffer.", "quantifier": "for every input and every sequence of output buffer sizes", "why_tests_cant": "Every cut point of every input is a distinct case.", "anchors": ["src/archon/core/unicode.hpp: encode_utf8_incr, decode_utf8_incr, utf8_to_utf16_incr, utf16_to_utf8_incr"]}
{"id": "C23", "title": "Deque behaves as a sequence", "statement": "After any sequence of push_front, push_back, pop_front, pop_back, append, resize, clear, reserve and shrink_to_fit, the deque holds exactly the elements a mathematical sequence would hold, at(i) and iteration see them in order, no uninitialised or out-of-bounds slot is read, and every constructed element is destroyed exactly once.", "quantifier": "for every finite history of operations and every element values", "why_tests_cant": "The circular buffer can be wrapped at any offset; histories are unbounded.", "anchors": ["src/archon/core/deque.hpp: Deque"]}
{"id": "C24", "title": "Deque::erase removes exactly the given range", "statement": "erase(begin, end) leaves exactly the elements outside the range, in order, for every position of the content within the circular buffer, and touches no memory outside the allocation.", "quantifier": "for every deque state and every valid range", "why_tests_cant": "The existing test enumerates capacities up to 5; the wrong index expressions only matter from size 6 on.", "anchors": ["src/archon/core/deque.hpp: erase, do_erase, erase_near_front, erase_near_back"]}
{"id": "C25", "title": "Vector behaves as a sequence", "statement": "After any sequence of emplace_back, pop_back, append, emplace, erase, clear, resize, reserve and shrink_to_fit, the vector holds exactly the elements a mathematical sequence would hold, stays within its capacity, and constructs no element beyond its size.", "quantifier": "for every history of operations, every static capacity", "why_tests_cant": "Over-construction past the end shows up only when capacity is exactly used up; tests do not observe it.", "anchors": ["src/archon/core/impl/vector_impl.hpp: VectorImpl", "src/archon/core/vector.hpp: Vector"]}
{"id": "C26", "title": "Buffer growth and append/prepend", "statement": "Buffer::append/append_a and prepend/prepend_a keep all previously written data (at its offset resp. distance from the end), place the new data adjacent to it, and grow the memory when and only when needed; size overflow is reported by an exception.", "quantifier": "for every sequence of append/prepend operations with any data sizes", "why_tests_cant": "Reallocation can happen at any operation; unbounded histories.", "anchors": ["src/archon/core/buffer.hpp: Buffer::append, append_a, prepend, prepend_a, reserve_extra_a, do_reserve"]}
{"id": "C27", "title": "Buffer::at rejects every index outside the buffer", "statement": "Buffer::at(i) throws exactly when i is not less than the size.", "quantifier": "for every buffer and every index", "why_tests_cant": "Tests check in-range access; the single wrong index is size itself.", "anchors": ["src/archon/core/buffer.hpp: Buffer::at, verify_index"]}
{"id": "C28", "title": "Buffer growth policy", "statement": "suggest_new_buffer_size(cur, min, max) returns a size between max(cur, min) and max, returns cur when cur is already sufficient, and otherwise grows by at least half of cur unless limited by max; it never wraps around.", "quantifier": "for all size_t values with cur <= max and min <= max", "why_tests_cant": "Overflow cases near SIZE_MAX cannot be exercised by allocation.", "anchors": ["src/archon/core/memory.hpp: suggest_new_buffer_size"]}
{"id": "C29", "title": "FlatMap is a finite map with sorted unique keys", "statement": "After any sequence of insert, operator[], erase and clear, lookups (find, contains, at, lower_bound, upper_bound, equal_range) return what a mathematical finite map would return and iteration visits the entries in strictly increasing key order; insertion of an existing key leaves the map unchanged and reports so.", "quantifier": "for every strict weak order on keys and every history of operations", "why_tests_cant": "Binary-search boundaries for every size and every key position.", "anchors": ["src/archon/core/flat_map.hpp: FlatMap", "src/archon/core/impl/flat_map_impl.hpp: FlatMapImpl"]}
{"id": "C30", "title": "FlatMultimap keeps equal keys in insertion order", "statement": "Multi-insertion keeps the entries sorted by key, and entries with equivalent keys stay in order of insertion; erase removes all of them and returns their number; equal_range delimits exactly them.", "quantifier": "for every history of operations", "why_tests_cant": "Stability must hold for arbitrarily many equivalent keys.", "anchors": ["src/archon/core/flat_multimap.hpp", "src/archon/core/impl/flat_map_impl.hpp: insert_multi, equal_range, erase"]}
{"id": "C31", "title": "LiteralHashMap finds exactly the given associations", "statement": "A map made from an array of associations finds a key exactly when it occurs in the array and then yields the value of its first occurrence, for any hash function and any positive number of buckets.", "quantifier": "for every association array, hash function, bucket count and key", "why_tests_cant": "Depends on all possible collisions.", "anchors": ["src/archon/core/literal_hash_map.hpp: LiteralHashMap::init, init_rev, find"]}
{"id": "C32", "title": "RangeMap update is pointwise", "statement": "After update(range, f) the map sends each key in the range to f applied to its old value (default value if it had none) and every other key to its old value; stored ranges stay non-empty, disjoint and ordered; no key arithmetic overflows.", "quantifier": "for every map reachable by updates, every range and every f", "why_tests_cant": "Ranges can overlap stored entries in arbitrarily many ways.", "anchors": ["src/archon/core/range_map.hpp: RangeMap::update, assign"]}
{"id": "C33", "title": "RangeMap defrag changes representation only", "statement": "defrag(equal) leaves the key to value mapping unchanged up to the given equivalence, and afterwards no two adjacent touching ranges have equivalent values.", "quantifier": "for every map and every equivalence relation", "why_tests_cant": "Arbitrary chains of mergeable ranges.", "anchors": ["src/archon/core/range_map.hpp: RangeMap::defrag"]}
{"id": "C34", "title": "FrozenSets operations preserve existing sets", "statement": "unite(i, j) returns an identifier whose set is the union of the two sets, and all previously created identifiers keep denoting the sets they denoted; likewise for unite_ordered, unite_unordered and freeze.", "quantifier": "for every history of freeze/unite operations and every pair of identifiers", "why_tests_cant": "There is no test for this class; the failure needs two identifiers denoting equal sets.", "anchors": ["src/archon/core/frozen_sets.hpp: FrozenSets::unite, unite_ordered, unite_unordered, freeze_unordered, discard_from"]}
{"id": "C35", "title": "StringMatcher implements wildcard matching", "statement": "A matcher built from patterns accepts a string exactly when some pattern matches it, where * in a pattern stands for any sequence of characters and every other character for itself, and reports the identifier of the first matching pattern.", "quantifier": "for every list of patterns and every string", "why_tests_cant": "Subset construction over all patterns and strings.", "anchors": ["src/archon/core/string_matcher.hpp: BasicStringMatcher::match, Builder::add_pattern, Builder::build_dfa"]}
{"id": "C36", "title": "FNV-1a hash agrees with its definition", "statement": "Hash_FNV_1a_32 yields the 32-bit FNV-1a hash of the octet sequence fed to it, where an integer contributes the octets of its two's complement representation in little-endian order.", "quantifier": "for every sequence of bytes and integers of any type", "why_tests_cant": "Unbounded inputs; the accumulator may be wider than 32 bits.", "anchors": ["src/archon/core/hash_fnv.hpp: Hash_FNV_1a_32"]}
{"id": "C37", "title": "Timestamp unwrapping recovers the true time", "statement": "If the secondary clock's elapsed time (rounded to milliseconds, as the code does) differs from the true elapsed time by less than half the wrap-around period, the unwrapped timestamp equals the true unwrapped timestamp, no matter how often the N-bit counter wrapped in between, and no intermediate overflow occurs as long as the result is representable.", "quantifier": "for every N, every start time, every sequence of later times and every admissible clock skew", "why_tests_cant": "Wrap-around happens after days or weeks; all offsets relative to the wrap matter.", "anchors": ["src/archon/display/noinst/timestamp_unwrapper.hpp: TimestampUnwrapper::unwrap_next_timestamp"]}
{"id": "C38", "title": "Packed rectangles never overlap", "statement": "When pack() returns true, every rectangle lies inside its bin respecting the margin, any two rectangles in the same bin are separated by at least the spacing horizontally or vertically, and the reported utilized size covers all rectangles in the bin.", "quantifier": "for every list of rectangles, bin size, spacing, margin and number of bins", "why_tests_cant": "Unbounded combinations of rectangle sizes drive the guillotine splits.", "anchors": ["src/archon/util/rectangle_packer.hpp: RectanglePacker::pack, do_pack, get_rect_pos, get_utilized_width"]}
{"id": "C39", "title": "Integer formatting and parsing are inverse", "statement": "Parsing the formatted representation of a value in the same radix yields that value (except for zero formatted with an explicit minimum of no digits, which is documented to yield the empty string); parsing succeeds exactly on an optional admissible sign followed by at least one valid digit whose value is representable in the target type, and otherwise leaves the target untouched; formatting yields no superfluous leading zeros beyond the requested minimum number of digits.", "quantifier": "for every radix 2..36, integer type, value, minimum digit count and string", "why_tests_cant": "All strings and all values of all types, including the most negative value.", "anchors": ["src/archon/core/integer_parser.hpp: BasicIntegerParser::parse", "src/archon/core/integer_formatter.hpp: BasicIntegerFormatter::format, do_format"]}
{"id": "C40", "title": "Greedy word wrapping", "statement": "word_wrap::greedy yields strictly increasing breakpoints such that every line with more than one word fits its line size, and no line could have taken the next word.", "quantifier": "for every word list, geometry and trailing space", "why_tests_cant": "Unbounded inputs with saturating size arithmetic.", "anchors": ["src/archon/core/word_wrap.cpp: word_wrap::greedy"]}
{"id": "C41", "title": "Knuth word wrapping is optimal", "statement": "KnuthWrapper::wrap yields breakpoints whose total badness (sum of squared gaps of all lines but the last) is minimal among all ways of breaking the words into fitting lines, and get_badness reports that minimum.", "quantifier": "for every word list and geometry (as long as badness does not overflow)", "why_tests_cant": "Memoised branch and bound; optimality over exponentially many layouts for unbounded inputs.", "anchors": ["src/archon/core/word_wrap.cpp: KnuthWrapper::wrap"]}
{"id": "C42", "title": "Quoted strings can be read back", "statement": "The double-quoted form of a byte string (no size limit) is a C string literal that denotes exactly that byte string, whatever characters (other than newline) are considered printable; with a size limit the quoted form never exceeds max(limit, 5) characters, and is the whole string or the longest prefix that fits, with an ellipsis.", "quantifier": "for every string, every character classification and every limit", "why_tests_cant": "Escape sequences interact with following characters (octal digits), all strings matter.", "anchors": ["src/archon/core/quote.hpp: quoted, do_quote"]}
{"id": "C43", "title": "Digit counting functions are exact", "statement": "int_find_msd_pos returns the position of the most significant digit of the absolute value of its argument in the given base (-1 for zero), int_num_digits the number of digits, and int_max_digits the least number of digits sufficient for every value of the type; none of them overflows.", "quantifier": "for every integer type, value and base >= 2", "why_tests_cant": "All types, values (including the most negative one) and bases up to the maximum int.", "anchors": ["src/archon/core/integer.hpp: int_find_msd_pos, int_num_digits, int_max_digits"]}
{"id": "C44", "title": "Incremental base64 decoding is independent of chunking", "statement": "Feeding text to the incremental decoder in arbitrary pieces with output buffers of arbitrary sizes produces the same bytes, and accepts the same texts, as decoding in one go.", "quantifier": "for every text, every way of splitting it, every configuration and every sequence of output buffer sizes", "why_tests_cant": "Exponentially many splittings; partial groups of four characters are carried over between calls.", "anchors": ["src/archon/core/base64.cpp: IncrementalDecoder::decode"]}
{"id": "C45", "title": "Undecodable base64 text is reported by an exception", "statement": "BasicDecoder::decode() throws on text that is not base64, whatever the text is and whatever the size of the buffer was; it does not fail an assertion.", "quantifier": "for every text and every buffer", "why_tests_cant": "The failing case needs bad input exactly where the output has filled the buffer.", "anchors": ["src/archon/core/base64.hpp: BasicDecoder::decode, decode, decode_buffer_size"]}
{"id": "C46", "title": "UTF-8 decoding rejects units that are not bytes", "statement": "When the units of the input are wider than 8 bits, strict UTF-8 decoding rejects every sequence that contains a unit greater than 0xFF.", "quantifier": "for every sequence of non-negative units", "why_tests_cant": "Tests use char; wider unit values at every position of every sequence cannot be sampled.", "anchors": ["src/archon/core/unicode.hpp: decode_utf8_incr"]}
{"id": "C47", "title": "Incomplete input is told apart from invalid input", "statement": "An incremental conversion stops with in_exhausted exactly when what is left is empty or a proper prefix of an encoded valid code point, as documented.", "quantifier": "for every input and every sufficiently large output", "why_tests_cant": "Every truncated sequence of every input is a distinct case.", "anchors": ["src/archon/core/unicode.hpp: decode_utf8_incr, utf8_to_utf16_incr, decode_utf16_incr, utf16_to_utf8_incr"]}
{"id": "C48", "title": "Suggested bin width is sound", "statement": "suggest_bin_width() fails no assertion, and every added rectangle, with the margin on both sides, fits into the suggested width unless the suggestion is the greatest representable width.", "quantifier": "for every list of rectangles, spacing, margin and component type", "why_tests_cant": "The fallback for large total areas and the wrapping conversions depend on sums over unboundedly many rectangles.", "anchors": ["src/archon/util/rectangle_packer.hpp: RectanglePacker::suggest_bin_width"]}
{"id": "C49", "title": "A packer can be packed again", "statement": "After pack() has returned true, pack() can be called again on the same packer.", "quantifier": "for every nonempty list of rectangles that was packed", "why_tests_cant": "Tests use a fresh or reset packer for each packing; that no sequence of rectangles allows a second packing is a universal claim.", "anchors": ["src/archon/util/rectangle_packer.hpp: RectanglePacker::do_pack"]}
{"id": "C50", "title": "Greedy word wrapping uses the fewest lines", "statement": "No way of breaking the words into fitting lines has fewer lines than the breakpoints given by word_wrap::greedy, even when the lines have different sizes.", "quantifier": "for every word list, geometry and trailing space, unless the sum of the sizes of the first word and its space is saturated and a line is of size SIZE_MAX; over all layouts", "why_tests_cant": "Exponentially many layouts for unboundedly many words and sizes.", "anchors": ["src/archon/core/word_wrap.cpp: word_wrap::greedy"]}
{"id": "C51", "title": "Choice between quoted and unquoted form", "statement": "smart_quoted() uses the unquoted form exactly in the cases given by its documentation: without a limit, for nonempty strings without spaces and special characters; with a limit, depending on whether both forms fit and which of them is smaller or has more characters of the string in it.", "quantifier": "for every string, every character classification, every limit and both quotation marks", "why_tests_cant": "The decision depends on sizes of escape sequences around the limit; the code decides incrementally, without computing both forms.", "anchors": ["src/archon/core/quote.hpp: smart_quoted, do_quote"]}
{"id": "C52", "title": "StringMatcher detects ambiguous patterns", "statement": "When ambiguity between patterns is not allowed, building a matcher fails exactly when some string is matched by two different patterns, and the two patterns named in the error do have a common matching string.", "quantifier": "for every list of patterns", "why_tests_cant": "Whether two patterns have a common string ranges over all strings, and depends on the subset construction for all pattern lists.", "anchors": ["src/archon/core/string_matcher.hpp: Builder::build, Builder::build_dfa"]}
{"id": "C53", "title": "Bit copy between part arrays is exact", "statement": "int_bit_copy() never shifts by too much or accesses a part out of bounds, and the destination denotes the source number, sign or zero extended, reduced to the destination width. cast_from_twos_compl_a() of a bit pattern gives the number that the pattern denotes.", "quantifier": "for every two part widths, every two array lengths, every content and both signednesses; for every pair of integer types", "why_tests_cant": "The loops have different paths for every combination of part widths and lengths; tests use the few part widths of existing types.", "anchors": ["src/archon/core/integer.hpp: int_bit_copy, cast_from_twos_compl_a", "src/archon/core/integer_traits.hpp: IntegerTraits"]}
{"id": "C54", "title": "Packing of numbers in bit media", "statement": "pack_int() gives the packed form described in the documentation, a value of the medium type, and unpack_int() and unpack_int_a() give the number back. The unpacked type has at least N value bits. Unpacking never fails; packing never fails, not even for values out of range.", "quantifier": "for every medium type and width N, every type of the value, every value", "why_tests_cant": "All values of all types and widths; the failure needs a signed medium used at full width and a value out of range.", "anchors": ["src/archon/image/bit_medium.hpp: pack_int, unpack_int, unpack_int_a, unpacked_type"]}
{"id": "C55", "title": "change_bit_width is exact", "statement": "change_bit_width(v, n, m) is trunc(v / (2^n - 1) * 2^m) computed exactly (2^m - 1 for the number one), equivalently the bits of v repeated from the top; the result is in range, nothing overflows, and widening followed by narrowing is the identity.", "quantifier": "for every integer type, every two widths that satisfy the assertions and every v less than 2^n", "why_tests_cant": "The existing test checks small widths against floating-point arithmetic, which is not exact for wide types.", "anchors": ["src/archon/util/unit_frac.hpp: change_bit_width"]}
{"id": "C56", "title": "int_to_int_a rounds like flt_to_int_a", "statement": "int_to_int_a(val, max_1, max_2) is val / max_1 * max_2 rounded to nearest exactly as by flt_to_int_a() in exact arithmetic. It maps 0 to 0 and max_1 to max_2, is monotone, never exceeds max_2, and can be inverted when max_2 is not less than max_1.", "quantifier": "for every two maxima and value, and all types wide enough for their product", "why_tests_cant": "Ties occur only for even max_1; products near the limit of the wide type are out of reach of sampling.", "anchors": ["src/archon/util/unit_frac.hpp: int_to_int_a"]}
{"id": "C57", "title": "Conversion between integer component representations", "statement": "image::int_to_int() maps the packed form of an M-bit number in one medium to the packed form of the scaled N-bit number in another medium without overflow; conversion to at least as many bits and back is the identity.", "quantifier": "for every pair of medium types and widths and every M-bit number", "why_tests_cant": "The intermediate type is the common type of two promoted types, so signedness mixes differ for every pair of types.", "anchors": ["src/archon/image/comp_types.hpp: int_to_int"]}
{"id": "C58", "title": "Intersection and clipping of pixel boxes", "statement": "For valid boxes, Box::intersects() tells whether the boxes have a common pixel, and Box::clip() reduces the other box to the set of common pixels and returns true, or leaves it unchanged and returns false if there is none; is_valid() and is_empty() are exact; there is no overflow.", "quantifier": "for every two valid boxes", "why_tests_cant": "Positions and sizes range over all ints, and the failing cases need boxes that are more than INT_MAX apart.", "anchors": ["src/archon/util/pixel_box.hpp: Box::intersects, Box::clip, Box::is_valid, Box::is_empty"]}
{"id": "C59", "title": "Containment and ordering of pixel boxes", "statement": "For valid boxes, Box::contains() tells whether the corners of one box lie within the other, which for nonempty boxes is inclusion of the sets of pixels; contains_pixel_at() tells whether a pixel is in the box; there is no overflow. The comparison operators are those of a total order.", "quantifier": "for every two valid boxes and every pixel; for every three boxes", "why_tests_cant": "Positions and sizes range over all ints.", "anchors": ["src/archon/util/pixel_box.hpp: Box::contains, Box::contains_pixel_at, Box::operator<"]}
{"id": "C60", "title": "Bit fields of packed pixels", "statement": "valid_bit_fields() accepts a list of bit fields exactly if all widths are positive, no gap is negative and the fields with gaps fit in the available bits (also when the sum would overflow). get_bit_field_width/shift/mask() agree with the layout that lists the most significant field first: the mask has ones exactly in the bits of the field; different fields share no bits; widest_bit_field() is the maximum of the widths.", "quantifier": "for every list of bit fields, every number of available bits, every field of the list and every builtin integer type wide enough", "why_tests_cant": "The number of fields and their widths are unbounded; the real checks are compile-time for a handful of layouts.", "anchors": ["src/archon/image/bit_field.hpp: valid_bit_fields, get_bit_field_width, get_bit_field_shift, get_bit_field_mask, widest_bit_field"]}
{"id": "C61", "title": "Reading packed pixels", "statement": "For a packed pixel format with components of at most 16 bits, read() on an area contained in the image yields, for each pixel of the area, its channels in canonical order: the fields of the number assembled from the words of the pixel in the given word order, mapped to channels according to alpha_channel_first and reverse_channel_order, scaled to the transfer representation. There is no access outside of the buffer, no overflow, no shift by too much.", "quantifier": "for every combination of template parameters that satisfies the static assertions, every image size, buffer content, position and tray size within the image", "why_tests_cant": "Template parameters and buffers range over infinite families; tests instantiate a few formats.", "anchors": ["src/archon/image/packed_pixel_format.hpp: PackedPixelFormat::read, read_pixel, get_component, map_channel_index, map_word_index, get_pixel_ptr"]}
{"id": "C62", "title": "Writing packed pixels", "statement": "For a packed pixel format with components of at most 16 bits, write() and fill() store in each pixel of the area the number whose fields are the specified components cut to the widths of the fields, with unused bits zero, and leave all other words of the buffer unchanged. A component as wide as the transfer representation is read back as written, others are read back as the scaled cut value, and writing that again makes no further change. If unused bits are zero, writing back what was read leaves the buffer unchanged.", "quantifier": "for every combination of template parameters that satisfies the static assertions, every image size, buffer content, area within the image, and all components", "why_tests_cant": "Template parameters, buffers and components range over families that cannot be enumerated; a fault at a word boundary of one layout is easily missed.", "anchors": ["src/archon/image/packed_pixel_format.hpp: PackedPixelFormat::write, fill, write_pixel, set_component"]}
{"id": "C63", "title": "Buffer size of packed pixel formats", "statement": "get_buffer_size() returns exactly the number of words of the image, width times height times words per pixel, and throws exactly if that number, the length of a row, or the number of words per pixel is not representable in std::size_t.", "quantifier": "for every packed pixel format, every valid image size and every unsigned type as std::size_t", "why_tests_cant": "Overflow occurs for sizes that cannot be allocated in a test.", "anchors": ["src/archon/image/packed_pixel_format.hpp: PackedPixelFormat::get_buffer_size, get_words_per_row"]}
{"id": "C64", "title": "Reading from integer pixel formats", "statement": "Reading an area from a buffer in an integer pixel format with int8 or int16 transfer representation yields, for each pixel, the components in canonical channel order, each being the number that its words hold scaled to the transfer representation; there is no undefined behaviour.", "quantifier": "for every integer pixel format that satisfies the static assertions and has int8 or int16 transfer representation (any numbers of words and bits, word order, channel order, signedness of types), every image, every area contained in it", "why_tests_cant": "The number of formats (word type, bits per word, words per channel, order of words and channels) times areas times contents is unbounded.", "anchors": ["src/archon/image/integer_pixel_format.hpp: IntegerPixelFormat::read, read_pixel, read_comp, map_channel_index, map_word_index, get_pixel_ptr"]}
{"id": "C65", "title": "Writing and filling in integer pixel formats", "statement": "Writing a tray (or filling an area) in an integer pixel format with int8 or int16 transfer representation sets the pixels of the area to the given components scaled to the bit depth, and changes no other word of the buffer. What is read back is what was written, cut down to the bit depth, and exactly what was written if the bit depth is that of the transfer representation; writing back what was read changes nothing. The buffer size is exact, or an exception is thrown if it is not representable.", "quantifier": "as C64, and for every tray, color and buffer, and every unsigned type as std::size_t", "why_tests_cant": "As C64; absence of writes outside the area must hold for every area and buffer.", "anchors": ["src/archon/image/integer_pixel_format.hpp: IntegerPixelFormat::write, fill, write_pixel, write_comp, get_buffer_size, get_words_per_row"]}
{"id": "C66", "title": "Words of components of integer pixel formats", "statement": "In every integer pixel format (including those with floating-point transfer), the assembly of the words of a component in read_comp() yields the number that the words hold, and the splitting in write_comp() stores words that hold the given number, without undefined behaviour.", "quantifier": "for every integer pixel format that satisfies the static assertions, every component value, every buffer and position", "why_tests_cant": "Undefined shifts usually go unnoticed at run time; the claim is about all combinations of word type, bits per word and words per channel.", "anchors": ["src/archon/image/integer_pixel_format.hpp: IntegerPixelFormat::read_comp (420-425), write_comp (465-471), map_word_index"]}
{"id": "C67", "title": "Reading from subword pixel formats", "statement": "Reading an area from a buffer in a subword pixel format, where several pixels share a word, yields for each pixel the channels found at its position in its word, in canonical order and scaled to the transfer representation, whether or not rows are word aligned, and also when the area begins or ends in the middle of a word; there is no undefined behaviour.", "quantifier": "for every subword pixel format that satisfies the static assertions and has int8 or int16 transfer representation (any numbers of channels, bits and pixels, bit order, channel order, alignment, word type), every image, every area contained in it", "why_tests_cant": "Whether first and last words are treated correctly depends on the position of the area modulo the number of pixels in a word, on the width and the row, in each of the unbounded number of formats.", "anchors": ["src/archon/image/subword_pixel_format.hpp: SubwordPixelFormat::read, get_pixel, read_word, read_comp, map_channel_pos, map_pixel_pos, get_pixel_pos"]}
{"id": "C68", "title": "Writing and filling in subword pixel formats", "statement": "Writing a tray (or filling an area) in a subword pixel format sets the pixels of the area to the given channels, scaled, and changes no other pixel, even where these share words with the area. Reading back yields what was written except for rounding to the number of bits per channel, and writing back what was read leaves the buffer unchanged. The buffer size is exact, or an exception is thrown if it cannot be computed in std::size_t.", "quantifier": "as C67, and for every tray, color and buffer, and every unsigned type as std::size_t", "why_tests_cant": "As C67; that neighbours in shared words are preserved must hold for all positions and contents.", "anchors": ["src/archon/image/subword_pixel_format.hpp: SubwordPixelFormat::write, fill, set_pixel, do_set_pixel, encode_pixel, write_comp, write_word, get_buffer_size, get_words_per_row"]}
{"id": "C69", "title": "Reading from indexed pixel formats", "statement": "Reading an area from a buffer in an indexed pixel format yields the color index in the slot of each pixel.", "quantifier": "for every indexed pixel format that satisfies the static assertions, every image, every area contained in it", "why_tests_cant": "As C67, with compounds of several words in either order and slots that do not fill a compound.", "anchors": ["src/archon/image/indexed_pixel_format.hpp: IndexedPixelFormat::read, get_pixel, read_compound, map_pixel_pos, map_word_index, get_pixel_pos"]}
{"id": "C70", "title": "Writing and filling in indexed pixel formats", "statement": "Writing color indexes (or filling with one) in an indexed pixel format sets the slots of the pixels in the area to these indexes and changes no other pixel.", "quantifier": "for every indexed pixel format that satisfies the static assertions, every image, every area contained in it, every color indexes in the transfer representation", "why_tests_cant": "As C68.", "anchors": ["src/archon/image/indexed_pixel_format.hpp: IndexedPixelFormat::write, fill, set_pixel, write_compound"]}
{"id": "C71", "title": "Buffer size for indexed pixel formats", "statement": "get_buffer_size() returns the number of compounds needed for all rows, with or without aligned rows, times the number of words per compound, or throws if that, or an intermediate product (pixels of the image, words of a row), is not representable.", "quantifier": "for every indexed pixel format, every image size, every unsigned type as std::size_t", "why_tests_cant": "Overflow in intermediate products occurs only for particular combinations of sizes and formats.", "anchors": ["src/archon/image/indexed_pixel_format.hpp: IndexedPixelFormat::get_buffer_size, get_words_per_row"]}
{"id": "C72", "title": "kdtree_sort() builds a balanced k-d tree for every range and every conforming nth_element", "statement": "util::kdtree_sort() reorders the points of a range (it loses and duplicates none) so that they form a balanced k-d tree: for each sub-range the middle element splits the rest such that no point before it is above it, and no point after it is below it, in the dimension of the level, with dimensions cycling from 0 to k - 1. The fixed-size stack of pending ranges never overflows, and no access falls outside of the range.", "quantifier": "for all point types and component functions, all numbers of dimensions k >= 1, all ranges shorter than 2^max_levels, and all implementations of std::nth_element() that meet the requirements of the standard", "why_tests_cant": "The order std::nth_element() leaves equivalent points in is unspecified and differs between libraries, and the depth of the pending stack is only exercised by ranges that are too large to allocate.", "anchors": ["src/archon/util/kdtree.hpp:120", "src/archon/util/kdtree.hpp:130-138", "src/archon/util/kdtree.hpp:142-194"]}
{"id": "C73", "title": "kdtree_find() finds a nearest point, and fails only if there is none within the maximum distance", "statement": "In a range that is a k-d tree, util::kdtree_find() returns a point of the range whose distance to the specified point is the least among all the points of the range, and that distance, provided it is less than the specified maximum. It returns false exactly when every point is at least as far away as the maximum. Skipping sub-ranges never loses a nearer point, ties in a component included.", "quantifier": "for all point types and component functions (with exact integer components), all k >= 1, all k-d trees shorter than 2^max_levels, all query points and all non-negative maximum distances (or none)", "why_tests_cant": "A wrong pruning condition only shows for particular combinations of query point, ties, and tree shape; random tests rarely place the nearest point in the branch that was wrongly skipped.", "anchors": ["src/archon/util/kdtree.hpp:69-97", "src/archon/util/kdtree.hpp:197-306"]}
{"id": "C74", "title": "NFA over pattern positions accepts exactly what the patterns match", "statement": "For every list of command-line patterns represented in a pattern structure, impl::NfaBuilder completes without failing an assertion or accessing a vector out of range, and the NFA it builds has, for each pattern, a path from a start position to the final position of that pattern labelled with a sequence of (pattern-internal position, symbol) pairs exactly when that sequence is a match of the pattern (sequences, optional parts, one-or-more repetitions, and alternatives, nested to any depth).", "quantifier": "for all pattern structures, all lists of patterns represented in them, all pattern indexes, and all sequences of marked symbols", "why_tests_cant": "Nesting of optional, repeated and alternative parts is unbounded and so are the matched sequences; the first/last/follow bookkeeping goes wrong only for particular nestings of nullable parts.", "anchors": ["src/archon/cli/impl/nfa_builder.hpp:114-376", "src/archon/cli/impl/nfa.hpp:99-119", "src/archon/cli/impl/pattern_structure.hpp:36-147"]}
{"id": "C75", "title": "Construction of the pattern matcher reports exactly the disallowed defects", "statement": "For every nonempty list of command-line patterns, the construction of the DFA in impl::PatternMatcher terminates (there are at most 2^N states for N positions), fails no assertion, and throws exactly when the patterns have a defect that the configuration does not allow: two patterns match the same sequence of symbols (cross-pattern ambiguity); a sequence is matched by one pattern in two ways with different positions (positional ambiguity); a match of a delegating pattern, which is the first pattern to match the sequence, is a proper prefix of another match. The reported pattern numbers refer to patterns that have the defect.", "quantifier": "for all pattern structures, all nonempty lists of patterns represented in them, all delegation flags, and all configurations", "why_tests_cant": "Ambiguity is a property of infinite sets of symbol sequences; the number of DFA states and the order in which they are found depend on the patterns in a way no finite set of patterns covers.", "anchors": ["src/archon/cli/impl/pattern_matcher.hpp:136-301"]}
{"id": "C76", "title": "Pattern matcher decides matching, viability and delegation", "statement": "After any sequence of calls to consume(), where w is the sequence of the symbols that were consumed: consume(s) succeeds exactly if w followed by s can be extended to a match of some pattern, and otherwise leaves the matcher unchanged; is_match() reports the first pattern that matches w, and reports no match exactly if there is no such pattern; can_consume() tells whether w can be extended by at least one symbol to a match; can_delegate() tells whether w is a prefix of a match of some delegating pattern. No assertion fails.", "quantifier": "for all patterns for which a matcher can be constructed, all configurations, and all sequences of calls", "why_tests_cant": "Both the patterns and the sequences of symbols are unbounded.", "anchors": ["src/archon/cli/impl/pattern_matcher.hpp:325-362", "src/archon/cli/impl/pattern_matcher.hpp:415-429"]}
{"id": "C77", "title": "Backtracking yields the positions of a match", "statement": "If the consumed symbols are matched by some pattern, backtrack() yields, for the first such pattern, one entry per consumed symbol with the position that the symbol has in one and the same match of the pattern, and the argument index passed to consume(), followed by an entry with the number of symbols of the pattern and the number of arguments. If there are several such matches, it is the one that has the smallest position at the last place where it differs from another one. If no pattern matches, the assertion on the final position fails, and no other assertion fails.", "quantifier": "for all patterns for which a matcher can be constructed, all configurations, and all sequences of calls", "why_tests_cant": "The recovered path depends on all prior states of the run and on the interplay of several patterns; runs and patterns are unbounded.", "anchors": ["src/archon/cli/impl/pattern_matcher.hpp:365-412"]}
{"id": "C78", "title": "Recorded pattern structures are those of the syntax tree", "statement": "For the nodes of a syntax tree, record() appends a flat structure to the pattern structure in which all members are as documented: types, indexes, offsets, numbers of elements and branches, number of parameters, end positions, the collapsible, parameter and nullable flags, and the index of the first nullable branch. Juxtapositions are merged, and so are nested alternatives, symbols are numbered from left to right, and equal lexemes have equal symbols. The references in the pattern are entered in the specification: previous entries are unchanged, different names get different new symbols, and a proto option is assigned to this pattern if, and only if it is referenced by it and was not referenced by a previous one. If the pattern refers to an option that takes an argument or has an attribute that rules it out, or breaks a rule, an error is reported that names such a reference or broken rule. No assertion fails, and no access is out of range.", "quantifier": "for all syntax trees as nodes in a vector, including the empty pattern, all prior pattern structures, and all consistent specifications", "why_tests_cant": "Syntax trees nest to any depth, and the state of the traversal consists of staging areas shared by all levels of nesting.", "anchors": ["src/archon/cli/impl/spec_parser.hpp:286-601", "src/archon/cli/impl/spec.hpp:183-250", "src/archon/cli/impl/pattern_structure.hpp:60-135"]}
{"id": "C79", "title": "The structural rules are broken exactly by ambiguous patterns", "statement": "A pattern is rejected for its structure if, and only if it is structurally ambiguous, that is, there is a sequence of matched positions that gives rise to more than one value for the pattern function. In particular, the 4 rules of the documentation are sufficient and necessary: when none is broken, the value is uniquely determined by the matches; when one is broken anywhere in the pattern, there are matches with two values.", "quantifier": "for all patterns, and all sequences of matched positions", "why_tests_cant": "Uniqueness is over all values of unbounded nesting, and all matches of unbounded length.", "anchors": ["src/archon/cli/spec.hpp:75-84", "src/archon/cli/spec.hpp:380-384", "src/archon/cli/impl/spec_parser.hpp:490-575"]}
{"id": "C80", "title": "Tokens of pattern strings", "statement": "Extraction of a token from a pattern string skips spaces, and then yields the token that is there with its type, its lexeme, and whether it was preceded by a space, and leaves the rest of the string: a keyword is a maximal run of alphanumeric characters and dashes that starts with an alphanumeric character that can be narrowed, or a lone dash; a long option starts with two dashes and is maximal; a short option is a dash and one other character; a value slot extends to the first closing angle bracket; all other tokens are fixed strings. If only spaces remain, it yields the end of input, and if there is no such token, an error with the code of the construct being parsed. A string consists of tokens in at most one way.", "quantifier": "for all strings, and all character classifications and mappings that treat the special characters as such", "why_tests_cant": "Strings are unbounded, and the classification of characters depends on the locale.", "anchors": ["src/archon/cli/impl/spec_parser.hpp:767-871"]}
{"id": "C81", "title": "The parser accepts exactly the grammar", "statement": "A pattern string is accepted if, and only if its tokens derive a juxtaposition in the documented grammar (repetition binds tighter than juxtaposition, juxtaposition tighter than alternatives, alternatives tighter than the comma; juxtaposed expressions are separated by space; inside brackets and parentheses there are alternatives), it has no value slot when the pattern is delegating, it is not structurally ambiguous, and none of its references to options is bad; the empty string stands for the empty pattern. When it is accepted, the recorded structure is that of the tree derived, which is unique. Errors about multiple patterns, unparenthesized alternatives and value slots in delegating patterns are raised in exactly the corresponding cases. Option forms are accepted if, and only if they are a comma-separated list of options, and are appended to the specification in order. An option argument is accepted if, and only if it is empty, a value slot, or a value slot in brackets. No assertion fails, and no access is out of range.", "quantifier": "for all strings, all usable locales, all consistent specifications, and all prior pattern structures", "why_tests_cant": "Strings nest to any depth, and rejection has to be shown for all derivations.", "anchors": ["src/archon/cli/impl/spec_parser.hpp:232-283", "src/archon/cli/impl/spec_parser.hpp:604-764", "src/archon/cli/impl/spec_parser.hpp:900-951"]}
{"id": "C82", "title": "Registration of options", "statement": "add_option() registers an option if, and only if it has at least one form, has no attributes other than the 3 defined ones, has an argument only if it is neither short-circuiting nor one that turns further arguments into values and only if its action accepts one and can do without one in case the argument is optional, and no form of it is a form of a previously registered option. When it is registered, exactly its forms stand for it, everything that was known is still known by the same symbol, and the specification stays consistent. Otherwise, an error is raised with the code and message of one of the conditions not met; in case of a reused form, it has the ordinal of an option that has this form. No assertion fails.", "quantifier": "for all consistent specifications without patterns, all lists of forms, arguments, attributes and actions", "why_tests_cant": "The condition on reuse quantifies over all previously registered options and all forms.", "anchors": ["src/archon/cli/impl/spec.hpp:253-259", "src/archon/cli/impl/spec.hpp:293-375"]}
{"id": "C83", "title": "Reading of command-line arguments", "statement": "Command-line arguments are read in exactly one way as a sequence of values and keywords, options without argument, options with argument, unknown options, options whose argument is missing, and options that are given an argument they do not take. An argument with a single dash is a sequence of short options, up to and including the first one that takes an argument, whose argument is the rest of the command-line argument or, if nothing is left and the argument is required, the next command-line argument. An argument with two dashes is a long option, whose argument is what follows the first equal sign or, if there is none and the argument is required, the next command-line argument. After an option that says so, all further arguments are values.", "quantifier": "for all lists of arguments, and all consistent specifications", "why_tests_cant": "Arguments, their number, and the set of options are unbounded.", "anchors": ["src/archon/cli/impl/processor.hpp:185-421"]}
{"id": "C84", "title": "Processing of command-line arguments", "statement": "Processing of the command-line arguments terminates without failing assertion and without access out of range, and what comes of it is determined by the way the arguments are read: options are collected in order, keywords, values and options that are used in patterns are put to the patterns, a keyword that does not fit is taken as a value, every thing that does not fit raises one error with the code, the argument index and the message for it, matching stops at the first such thing, processing stops at it if a delegating pattern may still match, processing stops at a short-circuit option, and delegation takes place as soon as a delegating pattern is matched.", "quantifier": "for all lists of arguments, all lists of patterns, and all consistent specifications with options that can do without argument if none is required", "why_tests_cant": "The interplay of compound options, attached arguments, patterns and delegation has unboundedly many cases.", "anchors": ["src/archon/cli/impl/processor.hpp:139-156", "src/archon/cli/impl/processor.hpp:160-421", "src/archon/cli/impl/processor.hpp:480-536"]}
{"id": "C85", "title": "Outcomes of processing", "statement": "Errors are raised in the order of the arguments they are about; processing is in error if, and only if it was so before, or if an error was raised; a pattern is selected only if there is no error, every argument is as it should be, all options on the command line are collected, and it is the first pattern that matches the arguments; delegation happens only to a delegating pattern that is the first one to match, with exactly the options in front of the point of delegation collected.", "quantifier": "for all lists of arguments, patterns and specifications", "why_tests_cant": "It is about all command lines.", "anchors": ["src/archon/cli/impl/processor.hpp:160-421", "src/archon/cli/impl/processor.hpp:480-536"]}
{"id": "C86", "title": "Invocation of options", "statement": "invoke_options() performs the actions of the options on the command line in order, each one with the argument that was read for it, if any, and raises one error for each argument that is not accepted, with the argument index, the form and the argument as they are on the command line.", "quantifier": "for all lists of arguments, all ways in which actions accept or reject arguments", "why_tests_cant": "The positions from which forms and arguments are recovered depend on everything in front of them.", "anchors": ["src/archon/cli/impl/processor.hpp:425-458", "src/archon/cli/impl/processor.hpp:81-95"]}
{"id": "C87", "title": "Construction of the processor", "statement": "The constructor accepts the declared options and patterns if, and only if each option has well-formed forms, a well-formed argument, attributes and an action that fit, and no form of an earlier option, and each pattern is well-formed, not structurally ambiguous, refers to no option that takes an argument or is short-circuiting or turns further arguments into values, and has attributes and a function that fit. Otherwise, an error is raised because of the first declaration not like this, with a code and message that apply to it. If there are no patterns, there is the empty one.", "quantifier": "for all lists of declarations, and all usable locales", "why_tests_cant": "Lists of declarations and the strings in them are unbounded.", "anchors": ["src/archon/cli/processor.hpp:545-664", "src/archon/cli/impl/spec.hpp:263-290", "src/archon/cli/impl/spec.hpp:293-375"]}
{"id": "C88", "title": "What is known after construction", "statement": "After construction, a name is found if, and only if it is a form of a declared option, or occurs in a pattern; it is associated with the option it is a form of, if any, with the argument, attributes and action declared for this option; it is known to be used in patterns if, and only if it, or another form of the same option, occurs in a pattern; and the specification and pattern structure are consistent.", "quantifier": "for all lists of declarations that are accepted, and all names", "why_tests_cant": "It quantifies over all names and all declarations.", "anchors": ["src/archon/cli/processor.hpp:545-664", "src/archon/cli/impl/spec.hpp:263-375", "src/archon/cli/impl/spec_parser.hpp:285-602"]}
{"id": "C89", "title": "From declarations to outcome", "statement": "If the constructor succeeds, and the patterns are not ambiguous, then processing of any command line succeeds, with the outcome that follows from the declarations, and if a pattern is selected, then the actions of all options on the command line are performed in order. This does not hold without the condition that an option that requires no argument has an action that can do without: such a declaration is accepted when the option takes no argument at all, and an assertion fails when the option occurs. The message about an unknown option in an argument, processor.hpp:363-366, is never used.", "quantifier": "for all declarations, all command lines, and all usable locales", "why_tests_cant": "It composes properties of all components, each of which has unboundedly many inputs.", "anchors": ["src/archon/cli/processor.hpp:545-664", "src/archon/cli/impl/processor.hpp:160-458", "src/archon/cli/impl/spec.hpp:312-329", "src/archon/cli/impl/option_action.hpp:181-184"]}
{"id": "C90", "title": "Descriptions of matches", "statement": "For an unambiguous pattern that has been recorded, and for each match, generate_descs() reaches no failing assertion, and produces the descriptions of the elements that correspond to parameters, from left to right and outer elements before inner ones, that the value of the match has: the argument index for a value slot, 0 or 1 for optional elements, the number of repetitions, and the index of the matched branch. There is exactly one such list for each value.", "quantifier": "for all patterns, all structures the pattern may be recorded in, and all matches", "why_tests_cant": "There are unboundedly many patterns with unboundedly many matches, and nesting of optional, repeated, and alternative elements is unbounded.", "anchors": ["src/archon/cli/impl/pattern_args_parser.hpp:84-101", "src/archon/cli/impl/pattern_args_parser.hpp:113-268"]}
{"id": "C91", "title": "Arguments of pattern functions", "statement": "When a function fits a pattern, then, for each match, its parameters receive what the value of the match says (booleans, counts, optionals, vectors, variants, parsed values, at any depth); the function is called if, and only if there was no error already, and no argument of the command line is rejected by a value parser; all rejected arguments are reported, from left to right; and no assertion fails.", "quantifier": "for all patterns, all parameter types (nested optionals, vectors, variants, and tuples), all matches, all command lines, and all value parsers", "why_tests_cant": "Patterns, types, and matches are all unbounded, and each combination of types is a separate instance of the template.", "anchors": ["src/archon/cli/impl/pattern_args_parser.hpp:295-460", "src/archon/cli/impl/pattern_action.hpp:156-181"]}
{"id": "C92", "title": "Check of pattern functions", "statement": "The check of a pattern function against a pattern is successful if, and only if the types of the parameters fit the pattern according to the documented rules, and it depends only on the pattern. It does not follow that the function can be called: std::size_t is accepted for alternatives without value slots, as documented, but when the arguments are parsed, an assertion fails. It does follow when the pattern has no such alternatives.", "quantifier": "for all patterns, and all parameter types", "why_tests_cant": "Patterns and types are unbounded, and each combination of types is a separate instance of the template.", "anchors": ["src/archon/cli/impl/pattern_func_checker.hpp:98-382", "src/archon/cli/spec.hpp:29-63", "src/archon/cli/impl/pattern_args_parser.hpp:401-435"]}
{"id": "C93", "title": "Processing as a whole", "statement": "A processor, at any level of delegation, does the following with the rest of the command line: it invokes a short-circuit option and nothing else; or it delegates, at the right place on the command line, and performs nothing; or it performs the options of all levels, outermost first and in order of appearance, and then calls the function of the pattern that matches, with the arguments that the match says, provided that there were no errors at any level; or it passes all the errors of all levels, and none other, to the error handler, in the order of the arguments that they are about, and, among those about the same argument, in order of discovery. No assertion fails. (There is always at least one argument; see C95.)", "quantifier": "for all processors that can be relied upon, all levels of delegation, and all command lines", "why_tests_cant": "Processors, levels of delegation, and command lines are unbounded, and which errors are found depends on combinations of all of them.", "anchors": ["src/archon/cli/processor.hpp:411-469", "src/archon/cli/processor.hpp:670-765", "src/archon/cli/command_line.hpp:104-164", "src/archon/cli/impl/pattern_action.hpp:111-211"]}
{"id": "C94", "title": "Construction of processors", "statement": "A processor that was constructed has the actions, attributes, and configuration that were declared, the options and patterns mean what was declared, and it can be relied upon in the sense of C93, provided that no action of an option requires an argument unless the option does, and that no parameter of type std::size_t stands for alternatives. The constructor succeeds whenever the declarations have a meaning.", "quantifier": "for all declarations of options and patterns, with all types of pattern functions", "why_tests_cant": "There are unboundedly many declarations.", "anchors": ["src/archon/cli/processor.hpp:545-664", "src/archon/cli/impl/pattern_action.hpp:139-211"]}
{"id": "C95", "title": "Taking over of arguments", "statement": "The arguments that are processed are those of argv, decoded if needed, in order, and they refer to memory of the string holder if one was specified, or if decoding is needed; an exception is thrown only if there are no arguments, or if one cannot be decoded. This is so unless arguments are copied by value, and those after the last group of more than 8192 characters are all empty: in that case an assertion fails.", "quantifier": "for all argument lists of any size, all decodings, and all contents of the string holder", "why_tests_cant": "Argument lists are unbounded, and what happens depends on where groups of more than 8192 characters end.", "anchors": ["src/archon/cli/impl/root_state.hpp:98-198", "src/archon/cli/string_holder.hpp:67-88"]}
{"id": "C96", "title": "Accumulation of errors", "statement": "What is got from an error accumulator is what was added to it, in order, with the messages that were added.", "quantifier": "for all sequences of errors, and all messages (also empty ones)", "why_tests_cant": "Sequences of errors and messages are unbounded.", "anchors": ["src/archon/cli/impl/error_accum.hpp:71-110"]}
{"id": "C97", "title": "String templates", "statement": "Any string has one way of being read as a template: text, references to parameters (@x, @{name}), @@, and references that are wrong (unterminated, or to a parameter that is not defined). Parsing passes exactly the errors in the string to the error handler, in order, and it stops at the first one for which the error handler says not to go on, in which case there is no template. Otherwise, the template expands to the text with values in place of references (wrong references stand for themselves); each value is written with the flags that the stream has initially, and these are in effect again afterwards, also after an exception; and the template refers to the parameters that it should. Parameters can be defined if, and only if their names are different.", "quantifier": "for all strings, all parameter definitions, all error handlers, all contexts, and all initial flags", "why_tests_cant": "Strings and parameter definitions are unbounded, and error handlers are arbitrary functions.", "anchors": ["src/archon/core/string_template.hpp:58-126", "src/archon/core/string_template.hpp:425-488", "src/archon/core/string_template.hpp:654-720"]}
{"id": "C98", "title": "Formatting as list", "statement": "A sequence formatted as a list is the texts of its elements with the separator between them. One space follows each separator when the space mode is tight, loose, or auto with a separator that is not a space, and no space otherwise. If bracketed, the whole is enclosed in brackets with one space inside of each in loose mode. That the spaces inside of brackets are left out when there are no elements is refuted.", "quantifier": "for all configurations, all sequences, and all ways of formatting elements", "why_tests_cant": "Sequences and element formats are unbounded.", "anchors": ["src/archon/core/as_list.hpp:50-121", "src/archon/core/as_list.hpp:289-338"]}
{"id": "C99", "title": "Parsing as list", "statement": "Parsing a list into a nonempty sequence succeeds exactly when the string is one text for each element (no text contains the separator), with separators between, and with spaces only after separators and inside of brackets, and only if spaces are accepted; and each text is accepted for its element. In the variable length version there can be fewer texts, the count is set, and the remaining elements are left alone. In the alternative version there can be fewer texts, and the remaining elements are assigned the default value, or the last value that was read; the assertion holds. An unbracketed empty sequence is read from exactly the empty string. That a bracketed empty sequence can be read from what is written for it, and that no fewer than the minimum number of elements is accepted, are refuted.", "quantifier": "for all configurations, all strings, all sequences, and all ways of parsing elements", "why_tests_cant": "Strings, sequences, and element parsers are unbounded.", "anchors": ["src/archon/core/as_list.hpp:124-262", "src/archon/core/as_list.hpp:352-424", "src/archon/core/as_list.hpp:453-462", "src/archon/core/as_list.hpp:520-539", "src/archon/core/as_list.hpp:608-619"]}
{"id": "C100", "title": "Round trip of lists", "statement": "A nonempty sequence that is formatted as a list is read back into a sequence of the same length, if each element can be read back, and no text contains the separator, is empty or has spaces at its ends (the latter two only where spaces are accepted). The same goes for the variable length version, for the given prefix if it is not empty, and for the alternative version, where the section at the end that is left out is the longest that can be left out. That an empty list of variable length is read back is refuted.", "quantifier": "for all configurations, all sequences, and all ways of formatting and parsing elements", "why_tests_cant": "Sequences and element formats are unbounded.", "anchors": ["src/archon/core/as_list.hpp:124-262", "src/archon/core/as_list.hpp:501-539", "src/archon/core/as_list.hpp:599-619"]}
{"id": "C101", "title": "Newlines of text files", "statement": "Any sequence of bytes is read in exactly one way as characters, where carriage return followed by line feed is one newline. Decoding places the first of the remaining characters in the buffer, the same ones no matter what comes after the data at hand (unless it is the end of data), and stops only when the buffer is full, when everything is consumed, or at a final carriage return that may be followed by a line feed. The reported clear position is right after the last newline that took two bytes. Simulated decoding of n characters advances by the bytes of the first n characters, and fails if there are fewer. Encoding writes the encoded form of the characters it consumes and stops only when everything is consumed or the next character does not fit. What is encoded is read back, whatever it is.", "quantifier": "for all byte sequences, buffers, offsets, and for all continuations of the data", "why_tests_cant": "The data can be split at any point, and continued in any way.", "anchors": ["src/archon/core/newline_codec.cpp:32-132", "src/archon/core/newline_codec.hpp:32-118"]}
{"id": "C102", "title": "Text files with Windows newlines", "statement": "For any history of allowed operations (read ahead, advance, discard, tell, seek, write, flush) on a text file implementation with Windows newlines, whatever the initial contents, the position, the buffer and its growth, however many bytes each read of the underlying file delivers, and whichever of its operations fail, with partial writes: no assertion fails; reading yields the successive characters at the read-ahead pointer, at least one unless the size is zero or the end of the file is reached (or dynamic end of file is asked for and only a carriage return remains); advancing moves the logical file pointer by the bytes of the characters; telling reports its position; discarding and seeking put the underlying file in the right position; everything written ends up in the file, once, in order and at the right position. An operation fails only if an operation on the underlying file fails.", "quantifier": "for all files, buffers, histories of operations, and all patterns of failures and of short reads and writes", "why_tests_cant": "There are infinitely many histories and failure patterns.", "anchors": ["src/archon/core/impl/prim_text_file_impl.hpp:91-148", "src/archon/core/impl/prim_text_file_impl.hpp:275-337", "src/archon/core/impl/prim_text_file_impl.cpp:100-297", "src/archon/core/text_file_impl_concept.hpp:110-322"]}
{"id": "C103", "title": "Progress of a failed write", "statement": "When writing to a text file with Windows newlines fails, some number of characters from the start, fewer than all of them, end up in the file at the next successful flush, but the documented claim that the number is reported is refuted: the number is left as it was. As a result, a caller that goes on from the reported number writes characters twice.", "quantifier": "for all files, buffers, characters to be written and failure patterns; the refutation is by a witness", "why_tests_cant": "Requires a failure of the underlying file in the middle of a write.", "anchors": ["src/archon/core/impl/prim_text_file_impl.cpp:149-170", "src/archon/core/impl/prim_text_file_impl.cpp:281-297", "src/archon/core/text_file_impl_concept.hpp:243-246", "src/archon/core/impl/text_file_impl.hpp:682-698"]}
{"id": "C104", "title": "Subdivision of boxes", "statement": "For every valid box, dividing it into blocks of bounded area never overflows and yields boxes that are a partition of the box: every position in the box is in exactly one of them and they contain no other position. Each has at most 4096 pixels, and none is empty unless the box is.", "quantifier": "for all valid boxes with coordinates and sizes of type int", "why_tests_cant": "There are about 2^128 boxes.", "anchors": ["src/archon/image/reader.hpp:1160-1211"]}
{"id": "C105", "title": "Reading outside of the image", "statement": "Reading a block at any position, inside, partly inside or outside of the image, yields for each pixel the color of the image extended horizontally and vertically in the selected falloff modes (background, edge, repeat), for direct as well as indexed color, or the background color if the image is empty. It does not depend on the order in which the two extensions are made. No coordinate arithmetic overflows, no pixel outside of the image is read, and nothing outside of the tray is changed.", "quantifier": "for all images, falloff modes, background colors, int positions and trays", "why_tests_cant": "Extreme positions and the combinations of modes, sizes and positions are too many to be tested.", "anchors": ["src/archon/image/reader.hpp:656-729", "src/archon/image/reader.hpp:1243-1602", "src/archon/image/reader.cpp:69-186"]}
{"id": "C106", "title": "Reading of blocks of any size", "statement": "Reading a block of arbitrary size, which is done piecewise, yields in every pixel of the tray the color of the extended image at the corresponding position, and changes nothing else.", "quantifier": "for all images, falloff modes, valid boxes and trays of that size", "why_tests_cant": "There are infinitely many images and too many boxes.", "anchors": ["src/archon/image/reader.hpp:979-988", "src/archon/image/reader.hpp:1160-1211", "src/archon/image/tray.hpp:204-208"]}
{"id": "C107", "title": "Clipped writing", "statement": "Filling an area, writing a part of another image, and writing a block of pixels affect exactly the part of the area that is inside of the image: there, every pixel becomes the color that belongs to it, blended and faded as configured, and all other pixels keep their value. No arithmetic overflows if no coordinate of the position is the lowest value of int; if one is, the claim is refuted: the clipping overflows, although areas outside of the image are allowed.", "quantifier": "for all images, areas, positions, blocks and pixel operations; the refutation is by a witness", "why_tests_cant": "Positions of the area relative to the image are too many to be tested, and the overflow occurs only for one value of the coordinate.", "anchors": ["src/archon/image/writer.cpp:48-207", "src/archon/image/writer.cpp:256-330", "src/archon/image/writer.hpp:137-150", "src/archon/image/writer.hpp:582-654", "src/archon/util/pixel_box.hpp:242-277"]}
{"id": "C108", "title": "Repetition of a pattern", "statement": "Repeating a pattern to the left, to the right, upwards, downwards, or all over an area that contains it makes every pixel of the filled area a copy of the original pixel of the pattern that is an integer number of pattern widths and pattern heights away, and changes nothing else, although copies are made from a block that is being written to. Such a pixel of the pattern always exists when the pattern is not empty. No assertion fails, nothing overflows, and no access is made outside of the filled area.", "quantifier": "for all pixel arrays, iterators, non-empty patterns and areas", "why_tests_cant": "There are infinitely many arrays and too many patterns and areas.", "anchors": ["src/archon/image/iter.hpp:181-238", "src/archon/image/iter.hpp:335-437", "src/archon/util/pixel_box.hpp:324-327"]}
{"id": "C109", "title": "Byte order of integer types", "statement": "The byte order of an integer type with more than one byte is reported as big or little exactly when the type has no padding bits and the value of every word is obtained by combining its bytes in that order. For any other arrangement of bytes, no byte order is reported.", "quantifier": "for all platforms with 8-bit bytes, and all integer types of more than one byte", "why_tests_cant": "A test runs on one platform only.", "anchors": ["src/archon/core/endianness.hpp:135-181", "src/archon/image/buffer_format.cpp:490-509"]}
{"id": "C110", "title": "Validity of pixel formats", "statement": "An integer, packed or subword pixel format is reported as valid exactly when its parameters are positive, each word has as many bits as are used, the number of bits per channel or compound is representable, and the channels fit in the words. No arithmetic overflows, whatever the parameters are.", "quantifier": "for all formats with parameters of type int, and all platforms", "why_tests_cant": "There are too many formats, platforms and memory contents to enumerate.", "anchors": ["src/archon/image/buffer_format.hpp:421-457", "src/archon/image/bit_field.hpp:129-141"]}
{"id": "C111", "title": "Reinterpretation of a pixel format as an integer format", "statement": "When a pixel format can be reinterpreted as an integer format with a particular word type, the new format is valid, has that word type, and gives the same depth and the same value for every channel of every pixel, whatever the contents of memory. An exception is thrown exactly when the original format is invalid, and nothing overflows. From an integer format, reinterpretation in terms of bytes succeeds exactly when words are fully used, the byte order is known, and it agrees with the order of words where there is more than one per channel.", "quantifier": "for all formats, word types, platforms, memory contents, image widths, pixels and channels", "why_tests_cant": "There are too many formats, platforms and memory contents to enumerate.", "anchors": ["src/archon/image/buffer_format.cpp:52-250"]}
{"id": "C112", "title": "Reinterpretation of a pixel format as a subword format", "statement": "When a pixel format can be reinterpreted as a subword format with a particular word type, the new format is valid, has that word type, and gives the same depth and the same value for every channel of every pixel, whatever the contents of memory. An exception is thrown exactly when the original format is invalid, and nothing overflows. A valid subword format can be reinterpreted as itself.", "quantifier": "for all formats, word types, platforms, memory contents, image widths, pixels and channels", "why_tests_cant": "There are too many formats, platforms and memory contents to enumerate.", "anchors": ["src/archon/image/buffer_format.cpp:349-487"]}
{"id": "C113", "title": "Selection of PNG format that matches the pixel format", "statement": "When a PNG format is selected for saving pixels directly from memory, then what the PNG library takes from the rows is the same color space, the same alpha channel, the same depth, and the same value for every channel of every pixel. An exception is thrown exactly when the pixel format is invalid, and nothing overflows. A format is always selected for 8-bit and 16-bit channels in bytes and for gray levels of 1, 2 or 4 bits packed in bytes, unless rows do not start at byte boundaries.", "quantifier": "for all pixel formats, platforms, memory contents, image widths, pixels and channels", "why_tests_cant": "There are too many formats, platforms and memory contents to enumerate.", "anchors": ["src/archon/image/file_format_png.cpp:201-283"]}
{"id": "C114", "title": "Stable sort", "statement": "Sorting a sequence stays inside of the sequence, terminates, and leaves a rearrangement of it in which no element is before one that it should come after, and in which elements that are equivalent for the comparison function are in their original order. There is only one such rearrangement.", "quantifier": "for all element types, strict weak orderings, and sequences", "why_tests_cant": "There are infinitely many sequences, and stability can be observed only with elements that are equivalent but different.", "anchors": ["src/archon/core/algorithm.hpp:53-70"]}
{"id": "C115", "title": "Lookup of named colors", "statement": "Looking up a color name succeeds exactly for the names in the table, and gives the entry with that name. Looking up a color value succeeds exactly for the values in the table, and gives the first entry with that value. Every named color is found both ways.", "quantifier": "for all strings, and for all values of red, green, blue and alpha", "why_tests_cant": "There are infinitely many strings and 2^32 values.", "anchors": ["src/archon/util/css_color.cpp:61-67", "src/archon/util/css_color.cpp:125-324", "src/archon/util/css_color.cpp:655-683"]}
{"id": "C116", "title": "Grammar of CSS colors", "statement": "Parsing succeeds exactly for: a number sign followed by 3, 4, 6, or 8 hexadecimal digits; the functions rgb, rgba, hsl, and hsla with the right number of numbers, of which all or none (rgb) or exactly the last two of the first three (hsl) have a percent sign, and which are separated by a comma and any number of spaces; and the color names. The result has the form and the values that the text denotes, and no text denotes two colors.", "quantifier": "for all strings, and for all ways to read a number from a text in which the empty text is no number", "why_tests_cant": "There are infinitely many strings.", "anchors": ["src/archon/util/css_color.cpp:495-612", "src/archon/util/css_color.cpp:728-834"]}
{"id": "C117", "title": "Formatting of CSS colors", "statement": "A color in hexadecimal form is written with the shortest number of digits that is allowed (3, 4, 6, or 8 uppercase digits, with 3 and 4 only if the short form is not disabled). Parsing what was written gives a color of the same form with the same values, except that an alpha value above one becomes one.", "quantifier": "for all colors of all five forms whose numbers read back from their own text", "why_tests_cant": "There are 2^32 hexadecimal colors and still more with fractional components.", "anchors": ["src/archon/util/css_color.cpp:328-492", "src/archon/util/css_color.cpp:692-725"]}
{"id": "C118", "title": "Writing and reading of colors with as_css_color", "statement": "A color is written as its name if it has one (the first one in the table if there are several), otherwise with 6 hexadecimal digits if it is opaque, otherwise with 8. Reading what was written gives the same color.", "quantifier": "for all values of red, green, blue and alpha", "why_tests_cant": "There are 2^32 colors.", "anchors": ["src/archon/util/as_css_color.hpp:75-119", "src/archon/util/css_color.cpp:629-652"]}
{"id": "C119", "title": "Color keywords of CSS Level 3", "statement": "All color keywords of CSS Level 3 are understood, regardless of case, and have the values given there; no other keyword is a named color.", "quantifier": "for all strings that are color keywords", "why_tests_cant": "There are more than a hundred keywords with up to 2^20 spellings each, and a test that compares with the table itself does not notice what is missing from it.", "anchors": ["src/archon/util/colors.hpp:40-186", "src/archon/util/css_color.cpp:125-273", "src/archon/util/as_css_color.hpp:50-53"]}
{"id": "C120", "title": "A palette is read from an image in reading order", "statement": "PaletteMap::read_palette() on an image with at least one column stores the components of the first colors of the image in reading order (left to right, top to bottom), the number of colors being the number of pixels, limited by the largest value of int and by the specified maximum, and stays inside the allocated array. On an image without columns it divides by zero.", "quantifier": "For all image widths and heights, numbers of channels, pixel contents, maximum sizes (also negative, meaning no limit), and sizes of int, size_t and ptrdiff_t with the stated room.", "why_tests_cant": "The partial last row, the saturation at the largest int and the empty image are separate cases over unboundedly many geometries.", "anchors": ["src/archon/display/noinst/palette_map.hpp:167-212"]}
{"id": "C121", "title": "Reverse lookup in a palette map finds a nearest color", "statement": "A palette map constructed from an image, or from an array with the right number of components, is constructed without undefined behaviour, and reverse_lookup() returns the index of a color of the palette whose distance to the specified color, with respect to the channels that count (a trivial alpha channel does not), is least. It returns false only if the palette is empty. The constructor throws if the number of components is wrong.", "quantifier": "For all palettes (of any number of colors and channels), all conversions of components, all colors looked up, and all implementations of std::nth_element that satisfy the standard.", "why_tests_cant": "Nearest among all colors for every color looked up, every palette, and every conforming nth_element.", "anchors": ["src/archon/display/noinst/palette_map.cpp:41-144", "src/archon/display/noinst/palette_map.hpp:129-138", "src/archon/display/noinst/palette_map.hpp:215-243"]}
{"id": "C122", "title": "A moved palette map behaves like the original", "statement": "After move construction or move assignment, the destination has the number of channels, size and lookup results that the source had. (False: the number of channels including alpha is not moved, so that lookup uses the wrong stride.)", "quantifier": "For all palette maps moved from and to, and all colors looked up.", "why_tests_cant": "Moves of maps do not occur in the present code, and a lookup after a move goes wrong only for some palettes and colors.", "anchors": ["src/archon/display/noinst/palette_map.cpp:90-102", "src/archon/display/noinst/palette_map.hpp:115-126"]}
{"id": "C123", "title": "LU decomposition is a factorization with partial pivoting", "statement": "decompose() leaves B in the matrix A such that A = P * L * U, where L is the lower unitriangular (or trapezoidal) part of B, U the upper triangular (or trapezoidal) part of B, and P the product of the transpositions given by the returned array as documented. Each pivot is in range, and no element of L exceeds 1 in absolute value. No element outside of the matrix is accessed and there is no division by zero.", "quantifier": "For all ordered fields of scalars (exact arithmetic), all numbers of rows and columns, and all matrices, singular or not.", "why_tests_cant": "All sizes and all matrices, including every pattern of pivoting and singular leading blocks; tests of floating point compare with a tolerance.", "anchors": ["src/archon/math/matrix.hpp:545-612", "src/archon/math/matrix.hpp:1114-1158"]}
{"id": "C124", "title": "Inversion of triangular matrices", "statement": "try_upper_tri_inv() and try_lower_tri_inv() return true exactly when the matrix is assumed unitriangular or has no zero on the diagonal, and the triangular part of the matrix is then replaced by its inverse on both sides. Elements on the other side of the diagonal, and the diagonal itself when assumed to be ones, are neither used nor changed.", "quantifier": "For all ordered fields of scalars (exact arithmetic), all sizes, all matrices, and both values of the template argument.", "why_tests_cant": "All sizes and all matrices, and all contents of the elements that must not be used.", "anchors": ["src/archon/math/matrix.hpp:516-543", "src/archon/math/matrix.hpp:1064-1111"]}
{"id": "C125", "title": "Inversion of square matrices", "statement": "try_inv() returns true exactly when the matrix is regular, and then leaves its inverse (on both sides) in the matrix. inv() returns the inverse of a regular matrix and the zero matrix for a singular one.", "quantifier": "For all ordered fields of scalars (exact arithmetic), all sizes, and all square matrices.", "why_tests_cant": "All sizes and all matrices, including those whose factorization needs exchange of rows.", "anchors": ["src/archon/math/matrix.hpp:417-424", "src/archon/math/matrix.hpp:505-513", "src/archon/math/matrix.hpp:939-947", "src/archon/math/matrix.hpp:1023-1061"]}
{"id": "C126", "title": "Determinant", "statement": "det() returns the determinant of the matrix. (True for exact arithmetic with division. False if the scalar type is an integer type, since the elimination then uses integer division.)", "quantifier": "For all ordered fields of scalars (exact arithmetic), all sizes, and all square matrices; and for integer scalar types.", "why_tests_cant": "All sizes and all matrices; the existing test has two matrices of floating point numbers.", "anchors": ["src/archon/math/matrix.hpp:410-415", "src/archon/math/matrix.hpp:922-936"]}
{"id": "C127", "title": "Products and quotients of matrices", "statement": "The product of an M by N and an N by P matrix is the M by P matrix of inner products of rows and columns. The quotient of A and a regular matrix B is the matrix C such that C * B = A, and is the zero matrix if B is singular.", "quantifier": "For all ordered fields of scalars (exact arithmetic), all sizes, and all matrices.", "why_tests_cant": "All sizes and all matrices.", "anchors": ["src/archon/math/matrix.hpp:872-903", "src/archon/math/matrix.hpp:983-1011", "src/archon/math/vector.hpp:613-622"]}
{"id": "C128", "title": "A memory output stream is a file of limited size", "statement": "A memory output stream buffer behaves as a file with a limit on its size that starts with the specified amount of contents and a position of zero: writing overwrites and extends the contents from the position on until the limit is reached, seeking to a position up to the limit extends the contents with null characters as needed, and other seeks fail and change nothing. view() is the contents of the file, and memory after the contents is not modified. The constructor throws if positions cannot be represented by the offset type.", "quantifier": "For all memories and initial sizes, and all sequences of writes and seeks with arguments of the right types.", "why_tests_cant": "Unbounded sequences of operations, all offsets of 64 bits, and all sizes of memory, including those for which the put pointer is moved in several steps.", "anchors": ["src/archon/core/memory_output_stream.hpp:119-176", "src/archon/core/memory_output_stream.hpp:281-467"]}
{"id": "C129", "title": "A memory input stream is a file", "statement": "A memory input stream buffer behaves as a file with the memory as contents: characters are read in order from the current position, ungetting goes one back, and seeking to a position from zero to the size succeeds while other seeks fail and change nothing. The constructor throws if positions cannot be represented by the offset type.", "quantifier": "For all memories, and all sequences of reads, ungets and seeks with arguments of the right types.", "why_tests_cant": "Unbounded sequences of operations and all offsets of 64 bits.", "anchors": ["src/archon/core/memory_input_stream.hpp:124-145", "src/archon/core/memory_input_stream.hpp:213-339"]}
{"id": "C130", "title": "A stream with seed memory collects what is written", "statement": "The view of a stream buffer with seed memory is the concatenation of everything written or appended since the contents were last cleared. An operation throws only if the resulting size is too large or memory cannot be allocated, and changes nothing then. Every array that is allocated is deleted exactly once, and the seed memory never is. Memory is retained, also when the contents are cleared: an operation that throws needs more room than the seed memory has, and more than any earlier operation that did not throw. (False for a character whose value is that of traits_type::eof(), when the memory is full: an indeterminate character is appended in its place.)", "quantifier": "For all seed memories, all sequences of operations, and all patterns of allocation failure.", "why_tests_cant": "Unbounded sequences of operations, every relation between the amount written and the capacity, and every pattern of allocation failure.", "anchors": ["src/archon/core/seed_memory_output_stream.hpp:200-365"]}
{"id": "C131", "title": "Integer parsing accepts exactly the numerals of the type", "statement": "For an integer type that is neither bool nor a character type, BasicValueParserSource::parse() returns true exactly if the whole string is a decimal numeral (optional sign and one or more digits) whose value is in the range of the type and which, if the type is unsigned, has no leading dash. The variable is then assigned the value of the numeral.", "quantifier": "for all integer types (any width, signed or unsigned), all strings, and all previous values of the variable", "why_tests_cant": "The set of strings is infinite, and the boundary of the accepted set depends on the width of the type and on arbitrarily long numerals.", "anchors": ["src/archon/core/value_parser.hpp:317-333", "src/archon/core/value_parser.hpp:135-143"]}
{"id": "C132", "title": "Failed parsing leaves the variable untouched", "statement": "If BasicValueParserSource::parse() returns false, the variable has the value it had before the call, as stated in the documentation.", "quantifier": "for all integer types, all rejected strings, and all previous values of the variable", "why_tests_cant": "The statement covers all rejected strings; a test with an arbitrary rejected string such as -5 for an unsigned type succeeds although the statement is false for other rejected strings.", "anchors": ["src/archon/core/value_parser.hpp:140-143", "src/archon/core/value_parser.hpp:317-333"]}
{"id": "C133", "title": "SeedSeq::generate() is std::seed_seq::generate()", "statement": "For every segmentation of an initial seed sequence, every number of output elements, and every unsigned element type of at least 32 bits, SeedSeq::generate() stores exactly the values that the C++ standard defines for std::seed_seq::generate() with the concatenated sequence; no access is out of bounds and no overflow exception is thrown provided the words involved fit in the address space.", "quantifier": "for all lists of segments (any number, any lengths, any words), all output lengths, all element widths >= 32, all widths of std::size_t for which the words fit in the address space", "why_tests_cant": "The indexes depend on the output length, the seed length and the segmentation, and the intermediate values are not reduced when the element type is wider than 32 bits; only finitely many combinations can be compared with the standard library.", "anchors": ["src/archon/core/random.hpp:524-593", "src/archon/core/random.hpp:141-143", "src/archon/core/random.cpp:71-92"]}
{"id": "C134", "title": "SeedSeq size and parameters", "statement": "SeedSeq::size() is the total number of words in all segments, the summation fails exactly when that number is not representable, and SeedSeq::param() gives all words in order.", "quantifier": "for all lists of segments and all widths of std::size_t", "why_tests_cant": "Overflow cannot be reached in a test as it requires more memory than is available.", "anchors": ["src/archon/core/random.cpp:71-92", "src/archon/core/random.hpp:596-601"]}
{"id": "C135", "title": "rand_int() for multi-part integers is min plus the first acceptable draw", "statement": "For integer types that are not supported by the standard library distribution, rand_int(engine, min, max) returns min plus the number made up of the drawn parts of the first iteration in which that number is at most max - min.  In particular the carry logic of the addition and subtraction of parts is right and no part is accessed out of bounds.", "quantifier": "for all part widths, all numbers of parts, signed and unsigned, all min <= max, all sequences of draws", "why_tests_cant": "The integers are of arbitrary width and the draws are random; carries across all parts occur with negligible probability in a test.", "anchors": ["src/archon/core/random.hpp:218-282"]}
{"id": "C136", "title": "rand_int() for multi-part integers is uniform on [min, max]", "statement": "Every value from min to max is the result of exactly one of the equally likely sets of draws of an iteration, no other value is, and more than half of the sets of draws are accepted, so that the expected number of iterations is less than 2.", "quantifier": "for all part widths, all numbers of parts, signed and unsigned, all min <= max", "why_tests_cant": "A test can only check the distribution statistically, and only for few pairs of min and max.", "anchors": ["src/archon/core/random.hpp:218-282"]}
{"id": "C137", "title": "Number of words used for seeding", "statement": "get_num_seed_words() is the least number of 32-bit words that hold the state of the engine, and get_num_input_words() is the least number of input words that hold the seed words, plus 3.", "quantifier": "for all state sizes, word sizes, and numbers of seed words for which there is no overflow", "why_tests_cant": "The arguments are unbounded; tests use the two predefined engines only.", "anchors": ["src/archon/core/random.hpp:409-443"]}
{"id": "C138", "title": "Contents of a hex dump", "statement": "A hex dump is the hexadecimal numerals of the elements, each one taken modulo 2 to the width of the element type, with the separator in between. If that does not fit within the specified size, it is the longest such dump of a first part of the data, that leaves room for the ellipsis, followed by the ellipsis. Numerals have the specified least number of digits, or as many as the width of the type calls for.", "quantifier": "for all integer types, data, separators, least numbers of digits, size limits, and character mappings", "why_tests_cant": "Data and separators are unbounded, and the cut-off depends on the interplay of the limit with all sizes; the look-ahead and overflow branches are not covered by tests.", "anchors": ["src/archon/core/hex_dump.hpp:106-204"]}
{"id": "C139", "title": "Size limit of a hex dump", "statement": "The size of a hex dump is at most the specified size.", "quantifier": "for all integer types, data, separators, least numbers of digits, and size limits other than std::size_t(-1)", "why_tests_cant": "Data, separator, and limit are unbounded.", "anchors": ["src/archon/core/hex_dump.hpp:56-60", "src/archon/core/hex_dump.hpp:133-191"]}
{"id": "C140", "title": "Hex dumps tell the data", "statement": "Two sequences with the same dump are the same sequence, when no size limit and no least number of digits is specified. This holds for any separator, also when it is empty or made of digits.", "quantifier": "for all integer types, pairs of data sequences, and separators", "why_tests_cant": "It is a statement about all pairs of sequences.", "anchors": ["src/archon/core/hex_dump.hpp:106-204"]}
{"id": "C141", "title": "Serialized form of a random seed", "statement": "In serialized form, a seed is its blocks of six words separated by dashes, or a single dash when there are none. Each block is 33 characters: three numerals in base 62 of 11 digits each, with figures, upper-case letters, and lower-case letters as digits in that order, and with values that are made of two words each, the first one being least significant.", "quantifier": "for all seeds, and all character mappings", "why_tests_cant": "The number of blocks is unbounded, and each block has 2^192 values.", "anchors": ["src/archon/check/random_seed.hpp:60-80", "src/archon/check/random_seed.hpp:358-404"]}
{"id": "C142", "title": "Reading of a random seed", "statement": "The stream input operator accepts exactly the serialized forms of seeds, and produces the seed. It reads up to, and does not consume, the first character that does not belong to the serialized form.", "quantifier": "for all texts, character mappings, and integer widths", "why_tests_cant": "Texts are unbounded; the handling of blocks of other lengths, of characters that are not digits, and of too large values is not covered by tests.", "anchors": ["src/archon/check/random_seed.hpp:407-472", "src/archon/check/random_seed.cpp:29-35"]}
{"id": "C143", "title": "Round trip of random seeds", "statement": "The serialized form of a seed is read back as the same seed, also when followed by other text, that does not start with an alphanumeric character or a dash.", "quantifier": "for all seeds and following texts", "why_tests_cant": "There are 2^192 values of each block; only very few of them are affected by the mistake in the range check.", "anchors": ["src/archon/check/random_seed.hpp:358-472"]}
{"id": "C144", "title": "Splitting of strings into words", "statement": "for_each_word() visits exactly the maximal runs of characters that are not spaces, in order of occurrence, and each exactly once.", "quantifier": "for every string", "why_tests_cant": "Strings are unbounded; tests try a few with particular placements of spaces.", "anchors": ["src/archon/core/string.hpp:274", "src/archon/core/string.hpp:300"]}
{"id": "C145", "title": "Meaning of wildcard filters", "statement": "The documented meaning of a filter holds: a test is included when its name matches one of the include patterns (those before the first dash, or everything if there are none) and none of the exclude patterns (those after the dash).", "quantifier": "for every filter string and every test name", "why_tests_cant": "Both the filter and the name are unbounded, and the matchers are automata that are constructed from the filter.", "anchors": ["src/archon/check/wildcard_filter.hpp:39", "src/archon/check/wildcard_filter.cpp:30", "src/archon/check/wildcard_filter.cpp:60"]}
{"id": "C146", "title": "Each test execution happens exactly once", "statement": "TestRunner::run() begins and ends exactly the executions of the selected tests in each of the repetitions, each exactly once, whatever the interleaving of the testing threads, the order, and the shuffling.", "quantifier": "for every list of tests, number of repetitions and threads, sorting and shuffling, and every interleaving of the threads", "why_tests_cant": "The interleavings of threads are not under control of a test, and their number is exponential.", "anchors": ["src/archon/check/test_runner.cpp:119", "src/archon/check/test_runner.cpp:207", "src/archon/check/noinst/thread_context_impl.cpp:48", "src/archon/check/noinst/thread_context_impl.cpp:93"]}
{"id": "C147", "title": "Nonconcurrent tests are executed alone", "statement": "No test is in progress when a nonconcurrent test begins, and nothing else happens until it ends. Each testing thread executes one test at a time, and there are at most as many threads as asked for.", "quantifier": "for every list of tests, number of repetitions and threads, and every interleaving of the threads", "why_tests_cant": "It is about all interleavings of threads.", "anchors": ["src/archon/check/noinst/thread_context_impl.cpp:57", "src/archon/check/noinst/thread_context_impl.cpp:65", "src/archon/check/noinst/thread_context_impl.cpp:80", "src/archon/check/test_runner.cpp:383"]}
{"id": "C148", "title": "Testing threads are reported once", "statement": "For each testing thread, the reporter is told once that it begins, before any of its executions, and once that it ends, after all of its executions.", "quantifier": "for every list of tests, number of repetitions and threads, and every interleaving of the threads", "why_tests_cant": "It is about all interleavings and configurations.", "anchors": ["src/archon/check/noinst/thread_context_impl.cpp:53", "src/archon/check/noinst/thread_context_impl.cpp:148", "src/archon/check/test_runner.cpp:353", "src/archon/check/reporter.hpp:133"]}
{"id": "C149", "title": "Numbers of tests and executions in the summary", "statement": "The summary has the number of disabled tests, of tests excluded by the filter, of selected tests, and their product with the number of repetitions. An exception is thrown instead exactly when the number of repetitions or threads is negative, or two tests have the same name.", "quantifier": "for every list of tests, number of repetitions and threads", "why_tests_cant": "Lists of tests and numbers of repetitions are unbounded.", "anchors": ["src/archon/check/test_runner.cpp:121", "src/archon/check/test_runner.cpp:130", "src/archon/check/test_runner.cpp:152", "src/archon/check/test_runner.cpp:394", "src/archon/check/reporter.hpp:43"]}
{"id": "C150", "title": "Order of executions", "statement": "Without shuffling, executions are initiated in the documented order: all tests of the first repetition in their order, then all of the second repetition, and so on.", "quantifier": "for every list of tests, number of repetitions and threads, and every interleaving of the threads", "why_tests_cant": "It is about all interleavings and all lists of tests.", "anchors": ["src/archon/check/test_config.hpp:117", "src/archon/check/test_runner.cpp:207", "src/archon/check/noinst/thread_context_impl.cpp:57"]}
{"id": "C151", "title": "Result of a test run", "statement": "TestRunner::run() returns true if, and only if no execution fails, and the numbers of failed executions, checks and failed checks in the summary are the sums of those of all executions.", "quantifier": "for every list of tests, outcome of each execution, number of repetitions and threads, and every interleaving of the threads", "why_tests_cant": "It depends on which thread gets the last execution, and so on the interleaving.", "anchors": ["src/archon/check/test_runner.hpp:76", "src/archon/check/test_runner.cpp:405", "src/archon/check/noinst/thread_context_impl.cpp:65", "src/archon/check/noinst/thread_context_impl.cpp:80", "src/archon/check/noinst/thread_context_impl.cpp:142"]}
{"id": "C152", "title": "Test runs make progress", "statement": "The testing threads never wait for each other forever: every partial interleaving can be completed, each thread that has not returned can continue when it gets the mutex, and the mutex is taken at most once per thread and once per concurrent execution.", "quantifier": "for every list of executions, number of threads, and every partial interleaving", "why_tests_cant": "Absence of deadlock is about all interleavings.", "anchors": ["src/archon/check/noinst/thread_context_impl.cpp:48", "src/archon/check/noinst/thread_context_impl.cpp:93", "src/archon/check/noinst/thread_context_impl.cpp:135"]}
{"id": "C153", "title": "The finite sequence memory holds the most recent values in order", "statement": "For a FiniteSequenceMemory of capacity at least 1, after any sequence of push_back() and clear(), size() is the smaller of the capacity and the number of values pushed since the last clear(), and operator[](i) is the i'th oldest of that many most recent values; no access is outside the buffer and the assertion in push_back() never fails.", "quantifier": "for all capacities from 1 to the largest ptrdiff_t, all element types, all sequences of calls and all indices below size()", "why_tests_cant": "The ring buffer wraps around at a position that depends on the capacity and the number of pushes; sequences of calls are unbounded.", "anchors": ["src/archon/render/impl/finite_sequence_memory.hpp:74-126"]}
{"id": "C154", "title": "The finite curve memory interpolates between the retained samples", "statement": "After any sequence of add_value() and clear() with non-decreasing times, get_value(t) is the value at t of the piecewise linear curve through the last max_samples samples since the last clear(): the value of a sample at its time, the interpolation of the two neighbouring samples between them, the oldest retained value before them, and a default value after them. A value is sampled if it is the first one, or lies in another time slot than its predecessor, where the slot length is the smallest N with N * (max_samples - 1) >= millis_back.", "quantifier": "for all positive millis_back, all max_samples from 2, all sequences of calls with times in non-decreasing order, and all times t", "why_tests_cant": "The binary search runs over a ring buffer of arbitrary size and offset; times and sequences of calls are unbounded.", "anchors": ["src/archon/render/impl/finite_curve_memory.hpp:74-142", "src/archon/core/math.hpp:216-221"]}
{"id": "C155", "title": "The finite curve memory reaches back the promised time", "statement": "For every time up to millis_back before the most recent add_value(), get_value() is the value of the curve through all samples since the last clear(), as if none had been forgotten. (False: only (max_samples - 2) slots are guaranteed. Also, millis_back = 0 leads to a division by zero.)", "quantifier": "for all positive millis_back, all max_samples from 2, all sequences of calls with times in non-decreasing order, and all such times", "why_tests_cant": "The shortfall appears only for particular alignments of event times with slot boundaries.", "anchors": ["src/archon/render/impl/finite_curve_memory.hpp:74-91", "src/archon/render/virt_trackball.cpp:36-41"]}
{"id": "C156", "title": "Releasing the virtual trackball uses a tracked position of the current grab", "statement": "For every sequence of acquire(), track(), set_orientation()/set_spin() and release() in which the track events of each grab are in order of time, no indeterminate member is read and nothing overflows; release() does nothing without a grab, stops the ball if nothing was tracked or the grab was short and did not move, and otherwise derives the spin from the position on the tracked curve of the current grab at 100 ms before the last event (or at the beginning of the grab if that is later), never from the default position.", "quantifier": "for all event sequences with representable, non-decreasing times in each grab, and for every interpretation of interpolation and of the distance test", "why_tests_cant": "The state of the curve memory survives from grab to grab and depends on unbounded event histories.", "anchors": ["src/archon/render/virt_trackball.cpp:46-134", "src/archon/render/virt_trackball.hpp:214-279"]}
{"id": "C157", "title": "The spin of the released trackball is scaled by a finite factor", "statement": "Whenever release() imparts a spin, the number of milliseconds it divides by is positive. (False when all events of the grab carry the same millisecond; otherwise true.)", "quantifier": "for all event sequences with representable, non-decreasing times in each grab", "why_tests_cant": "It fails only if two events with distant positions fall into the same millisecond.", "anchors": ["src/archon/render/virt_trackball.cpp:115-133"]}
{"id": "C158", "title": "Checked casts to two's complement are exact", "statement": "can_cast_to_twos_compl<T>(x) is true exactly if x lies in the range of two's complement numbers of the width of T. try_cast_to_twos_compl() then stores the pattern that denotes x, and otherwise leaves the destination alone; cast_to_twos_compl() throws in that case. Nothing overflows.", "quantifier": "for all builtin integer types T and F of any width and signedness, and all values of F", "why_tests_cant": "The comparisons take place after promotions that depend on both widths; the space of type pairs and values is infinite.", "anchors": ["src/archon/core/integer.hpp:1291-1338", "src/archon/core/integer.hpp:565-588"]}
{"id": "C159", "title": "Checked casts from two's complement are exact", "statement": "can_cast_from_twos_compl<T>(p) is true exactly if the number denoted by the pattern p is representable in T. try_cast_from_twos_compl() then stores that number, and otherwise leaves the destination alone; cast_from_twos_compl() throws in that case. Nothing overflows.", "quantifier": "for all builtin integer types T and F of any width and signedness, and all values of F", "why_tests_cant": "The comparisons take place after promotions that depend on both widths; the space of type pairs and values is infinite.", "anchors": ["src/archon/core/integer.hpp:1341-1414", "src/archon/core/integer.hpp:591-609"]}
{"id": "C160", "title": "Two's complement casts between arbitrary types preserve the denoted number", "statement": "try_twos_compl_cast() succeeds exactly if the number denoted by the source fits into the width of the destination in two's complement, and then stores the pattern that denotes the same number; otherwise it leaves the destination alone. (False for two unsigned types of which the source is narrower than int and the destination narrower than the source.)", "quantifier": "for all builtin integer types T and F of any width and signedness, and all values of F", "why_tests_cant": "Four combinations of signedness with unboundedly many widths go through different code.", "anchors": ["src/archon/core/integer.hpp:1459-1537"]}
{"id": "C161", "title": "Text parser: fields of a line", "statement": "BasicTextParser::parse() without a field sequence splits the line into its words (maximal runs of characters other than the delimiter). It succeeds exactly if there are as many words as fields and each word is accepted by the field in its place. Otherwise the first problem from the left is reported: a word that its field does not accept, with that word, the identifier of the field and the position of the word in the line; a field without a word, with the identifier of the first such field and the size of the line as position; or a surplus word, with the first such word and its position.", "quantifier": "for all lines, delimiters, lists of fields (of any behavior), and initial states", "why_tests_cant": "Unboundedly many lines and field configurations; positions depend on runs of delimiters anywhere in the line.", "anchors": ["src/archon/core/text_parser.hpp:142-173", "src/archon/core/string.hpp:300-319"]}
{"id": "C162", "title": "Text parser: fields followed by a sequence of values", "statement": "BasicTextParser::parse() with a field sequence succeeds exactly if the words of the line are one per field, accepted by the fields, followed by at least min and at most max words, accepted by the field sequence in order. Otherwise the first problem from the left is reported, with the right error, value, identifier and position; a word beyond the maximum is reported as surplus whether or not it would be accepted.", "quantifier": "for all lines, delimiters, lists of fields and field sequences (of any behavior), initial states, and all min and max of type std::size_t, including the largest", "why_tests_cant": "Unboundedly many lines and field configurations, and 64-bit limits.", "anchors": ["src/archon/core/text_parser.hpp:176-225", "src/archon/core/string.hpp:300-319"]}
{"id": "C163", "title": "Code points and code point ranges as text", "statement": "A word is parsed as a code point exactly if it is a decimal numeral without sign whose value is less than 2^32 - 1, and as a range exactly if it is a code point or two code points in order with a dash between; the result is the value. What is printed for a range is parsed as that range and as no other. The conversion to a character gives the character with that code and is injective.", "quantifier": "for all words and all code points and ranges", "why_tests_cant": "2^32 code points, 2^63 ranges and unboundedly many words.", "anchors": ["src/archon/font/code_point.hpp:97-112", "src/archon/font/code_point.hpp:127-141", "src/archon/font/code_point.hpp:170-202"]}
{"id": "C164", "title": "Fallback font: what is loaded", "statement": "load_spec() has defined behavior for every file. It succeeds exactly if the file, without comments and blank lines, consists of a name, a line of strictly increasing and disjoint ranges, a line of metrics, and one or more glyph lines, each with a box within the image and non-negative advances, the first without code points and all others with at least one, no code point occurring twice. What is loaded is what the file says, and is determined by the file.", "quantifier": "for all sequences of lines", "why_tests_cant": "Unboundedly many files.", "anchors": ["src/archon/font/loader_fallback.cpp:136-351"]}
{"id": "C165", "title": "Fallback font: lookup of glyphs", "statement": "After successful loading, find_glyph() returns, for every character, the index of a glyph that can be loaded: the glyph in whose line the code point of the character occurs, or else the fallback glyph. load_glyph() accepts exactly the indexes of glyphs and selects the glyph of the line at that index.", "quantifier": "for all files that are loaded and all characters and indexes", "why_tests_cant": "Unboundedly many files; 2^32 characters.", "anchors": ["src/archon/font/loader_fallback.cpp:485-506", "src/archon/font/loader_fallback.cpp:257-328"]}
{"id": "C166", "title": "Fallback font: rendering of glyphs", "statement": "When a loaded glyph is rendered into a buffer, the block that is written is exactly the intersection of the buffer and the glyph at its position, the block that is read has the same size and the corresponding offset within the glyph, and it is within the image. Nothing is read or written if the intersection is empty. An exception is thrown only if the position is not representable. There is no overflow.", "quantifier": "for all files that are loaded, all glyphs in them, all translations, positions and sizes of buffers", "why_tests_cant": "Unboundedly many files and 2^192 placements.", "anchors": ["src/archon/font/loader_fallback.cpp:537-555", "src/archon/image/geom.hpp"]}
{"id": "C167", "title": "Fallback font: boxes of glyphs", "statement": "All loaded glyphs have non-negative advances, and boxes of non-negative size within the image.", "quantifier": "for all files that are loaded and all glyphs in them", "why_tests_cant": "Unboundedly many files.", "anchors": ["src/archon/font/loader_fallback.cpp:290-300"]}
{"id": "C168", "title": "POSIX text file implementation conforms to its concept", "statement": "Whatever operations are performed on a text file implementation with POSIX newlines, in an order that the concept allows, no assertion fails, and each operation does what the concept of text file implementations says: reading ahead gets the characters after those already read ahead, and gets none only at the end of the file; advancing, telling, and discarding act on the logical file pointer; writing puts the characters at the logical file pointer, and a failed attempt to write tells how many characters were written; and the actual file has the right contents.", "quantifier": "for all actual files (contents and position), all sequences of operations, and all behaviors of the actual file (how much is read or written each time, and which calls fail)", "why_tests_cant": "The behavior depends on every partial read, partial write, and failure of the underlying file, and on the whole history of operations.", "anchors": ["src/archon/core/impl/prim_text_file_impl.hpp:160-268", "src/archon/core/text_file_impl_concept.hpp:110-322"]}
{"id": "C169", "title": "Buffered text file implementation over POSIX newlines conforms to its concept", "statement": "The buffered text file implementation on top of the POSIX one also does what the concept says, for any size of the buffer and any manner of growing it, read_until() included (as far as the logical file pointer can be told, see C171).", "quantifier": "for all actual files, all initial buffers and growth policies, all sequences of operations, and all behaviors of the actual file", "why_tests_cant": "Read-ahead, retained characters, flushing, and write-through interact with the size of the buffer and with partial and failing operations in unboundedly many ways.", "anchors": ["src/archon/core/impl/buffered_text_file_impl.hpp:145-465", "src/archon/core/buffered_text_file_impl_concept.hpp:41-65"]}
{"id": "C170", "title": "Buffered text file implementation over Windows newlines conforms to its concept", "statement": "The buffered text file implementation on top of the Windows one does what the concept says: in particular, after a failed attempt to write or flush, a retry continues where the failure occurred, and no character is written twice.", "quantifier": "for all actual files, all buffers of both layers, all sequences of operations, and all behaviors of the actual file", "why_tests_cant": "The defect needs a failure of the actual file in the middle of a flush, and a subsequent retry.", "anchors": ["src/archon/core/impl/buffered_text_file_impl.hpp:145-465", "src/archon/core/impl/prim_text_file_impl.hpp:272-342", "src/archon/core/impl/prim_text_file_impl.cpp:95-297"]}
{"id": "C171", "title": "read_until() starts at, and advances, the logical file pointer", "statement": "read_until() extracts characters starting at the logical file pointer, and stopping after the first occurrence of the delimiter or at the end of the file, and leaves the logical file pointer after the last extracted character.", "quantifier": "for all files, delimiters, buffers, and behaviors of the actual file", "why_tests_cant": "Applications that always advance before and after see no difference; the claim is about every state in which it can be called.", "anchors": ["src/archon/core/buffered_text_file_impl_concept.hpp:41-65", "src/archon/core/impl/buffered_text_file_impl.hpp:145-465"]}
{"id": "C172", "title": "Text files with POSIX newlines do what applications expect", "statement": "For text files with POSIX newlines, buffered or not: reading gets exactly the characters from the current position on, lines are split at newlines, writing puts exactly the specified characters at the current position, tell() tells the position after what has been read or written, and once flushed (or when reading) the actual file has exactly the contents that the application has put there. The application can switch freely between reading and writing. Operations fail only if the actual file fails, and failures tell what was read or written.", "quantifier": "for all actual files, all sequences of operations by the application, all buffers, and all behaviors of the actual file", "why_tests_cant": "Every interleaving of reading, writing, seeking, and telling, with every partial or failing operation of the actual file.", "anchors": ["src/archon/core/text_file.hpp:525-779", "src/archon/core/buffered_text_file.hpp:223-248", "src/archon/core/impl/buffered_text_file_impl.hpp:145-465", "src/archon/core/impl/prim_text_file_impl.hpp:160-268"]}
{"id": "C173", "title": "Text files with Windows newlines do what applications expect", "statement": "The same as C172 for text files with Windows newlines: in particular, a failed attempt to write tells how many characters were written, and no character is written twice.", "quantifier": "for all actual files, all sequences of operations by the application, all buffers, and all behaviors of the actual file", "why_tests_cant": "The defects need a failure of the actual file in the middle of a write or flush, and a subsequent retry.", "anchors": ["src/archon/core/text_file.hpp:525-779", "src/archon/core/buffered_text_file.hpp:223-248", "src/archon/core/impl/buffered_text_file_impl.hpp:145-465", "src/archon/core/impl/prim_text_file_impl.hpp:272-342", "src/archon/core/impl/prim_text_file_impl.cpp:95-297"]}
{"id": "C174", "title": "Text files with Windows newlines work if the actual file does", "statement": "If no operation of the actual file fails (partial reads and writes are allowed), no operation on a text file with Windows newlines fails, and all have the effects that applications expect, buffered or not: newlines are read from, and written as, carriage return and line feed, other carriage returns are kept, and the contents of the actual file are exactly right once flushed.", "quantifier": "for all actual files, all sequences of operations by the application, all buffers, and all behaviors of the actual file without failures", "why_tests_cant": "Every interleaving of operations, with newlines divided between partial reads and writes in every possible way.", "anchors": ["src/archon/core/text_file.hpp:525-779", "src/archon/core/buffered_text_file.hpp:223-248", "src/archon/core/impl/buffered_text_file_impl.hpp:145-465", "src/archon/core/impl/prim_text_file_impl.hpp:272-342", "src/archon/core/impl/prim_text_file_impl.cpp:95-297"]}
{"id": "C175", "title": "Key bindings call the right handlers", "statement": "For every sequence of registrations, bindings, key presses, key releases, losses of focus, and resumptions, and whatever the handlers return and do to the modifier mode, the key bindings have no undefined behaviour, and each event calls exactly the handlers that follow from the history: a press calls the handler that is bound to the key in the current modifier mode for the multiplicity of the press; a release calls the handler that was selected by the press; a loss of focus calls the handlers of all outstanding presses, in the order of keys, and, if interrupted by a handler, goes on with the remaining ones when resumed.", "quantifier": "for all sequences of events that are allowed (no key events while a loss of focus is being processed, times that are not negative), all behaviours of handlers that do not bind keys", "why_tests_cant": "What is called depends on the whole history of events, bindings and handler results; the sequences cannot be enumerated.", "anchors": ["src/archon/render/impl/key_bindings.cpp:89-232", "src/archon/render/impl/key_bindings.hpp:49-138"]}
{"id": "C176", "title": "Calls of key handlers are balanced", "statement": "For each key, the calls of handlers alternate between down and up, each up call goes to the handler of the preceding down call, and after a release of the key, or a completed loss of focus, no down call is outstanding, provided that no key is bound while one is outstanding for it.", "quantifier": "for all sequences of events, all keys, all behaviours of handlers that do not bind keys", "why_tests_cant": "A stuck key shows only for particular interleavings of presses, mode changes, interruptions and losses of focus.", "anchors": ["src/archon/render/impl/key_bindings.cpp:127-205"]}
{"id": "C177", "title": "Calls are balanced when keys are rebound", "statement": "After a release of a key, no down call for it is outstanding, also if the key is bound while it is held. (Refuted: binding resets the state of the key, so the release is ignored.)", "quantifier": "for all sequences of events", "why_tests_cant": "It takes a binding in the middle of a press.", "anchors": ["src/archon/render/impl/key_bindings.cpp:100-110", "src/archon/render/impl/key_bindings.cpp:208-232"]}
{"id": "C178", "title": "Handlers may bind keys", "statement": "Handlers may bind keys at any time, as the documentation of the engine says. (Refuted: when a handler that is called because of a loss of focus binds a new key, the iteration over the keys goes on with invalid iterators.)", "quantifier": "for all sequences of events, all behaviours of handlers", "why_tests_cant": "It is undefined behaviour, which a test may not reveal.", "anchors": ["src/archon/render/engine.hpp:280-282", "src/archon/render/impl/key_bindings.cpp:184-205"]}
{"id": "C179", "title": "Combined modifier modes are never in effect", "statement": "As long as the built-in handlers for modifier keys are bound in no other modifier mode than none, the modifier mode is always none, shift, control, alt, or meta, so that handlers bound in a combined mode are never called.", "quantifier": "for all sequences of events, all choices of modifier keys, all behaviours of handlers that do not bind keys", "why_tests_cant": "It is about all sequences of events.", "anchors": ["src/archon/render/noinst/engine_impl.cpp:105-128", "src/archon/render/noinst/engine_impl.cpp:539-592"]}
{"id": "C180", "title": "The modifier mode tells which modifier keys are pressed", "statement": "The modifier mode that is in effect has a bit set precisely for those modifiers for which a key is currently pressed down. (Refuted when several modifier keys are held: the second one is ignored, and releasing the first one clears the bit even if its twin is held. Proved if no modifier key is pressed while another one is held.)", "quantifier": "for all sequences of events in which the application leaves modifier keys alone", "why_tests_cant": "Orders of presses and releases of eight keys, interleaved with losses of focus, are unbounded.", "anchors": ["src/archon/render/key_binding_support.hpp:129-131", "src/archon/render/noinst/engine_impl.cpp:105-128", "src/archon/render/noinst/engine_impl.cpp:539-592"]}
{"id": "C181", "title": "Quaternion arithmetic", "statement": "The product of quaternions is Hamilton's product; it is associative, distributes over sums, and has 1 as unit; subtraction undoes addition; conjugation reverses products; the squared magnitude of a product is the product of squared magnitudes, so unit quaternions are closed under multiplication (exact arithmetic).", "quantifier": "all quaternions over every ordered field", "why_tests_cant": "Tests check a handful of quaternions with a floating-point tolerance; the statement is an algebraic identity in all the components.", "anchors": ["src/archon/math/quaternion.hpp:389-531"]}
{"id": "C182", "title": "Quaternion inverse and division", "statement": "Every quaternion other than zero times its inverse, on either side, is 1, and division by it undoes multiplication by it (exact arithmetic).", "quantifier": "all nonzero quaternions over every ordered field", "why_tests_cant": "Tests check a handful of quaternions with a floating-point tolerance; the statement is an algebraic identity in all the components.", "anchors": ["src/archon/math/quaternion.hpp:389-531"]}
{"id": "C183", "title": "Conjugation by a quaternion", "statement": "The shortcuts for conjugation by a quaternion agree with their documented definition b * a * conj(b); on vectors it is linear, composes in the order of multiplication, and, for unit quaternions, preserves scalar and vector products.", "quantifier": "all quaternions and vectors over every ordered field", "why_tests_cant": "Tests check a handful of quaternions with a floating-point tolerance; the statement is an algebraic identity in all the components.", "anchors": ["src/archon/math/quaternion.hpp:389-531"]}
{"id": "C184", "title": "Rotation matrix of a quaternion", "statement": "The rotation matrix of any nonzero quaternion, unit or not, is orthogonal with determinant 1, acts as conjugation by the normalized quaternion, does not depend on scale, and turns products into products.", "quantifier": "all nonzero quaternions over every ordered field", "why_tests_cant": "Tests check a handful of quaternions with a floating-point tolerance; the statement is an algebraic identity in all the components.", "anchors": ["src/archon/math/quaternion.hpp:416-443"]}
{"id": "C185", "title": "Quaternion from axis and angle", "statement": "The quaternion that is made from a unit axis and an angle, or the cosine of an angle, is a unit quaternion, and conjugation by it is rotation (Rodrigues' formula) by that angle; the one made from proper Euler angles is the product of the rotations about Z, X, and Z.", "quantifier": "all unit axes, angles, and vectors over every ordered field; square root, cosine, and sine correct at the arguments involved", "why_tests_cant": "Tests check a handful of quaternions with a floating-point tolerance; the statement is an algebraic identity in all the components.", "anchors": ["src/archon/math/quaternion.hpp:389-415", "src/archon/math/quaternion.cpp"]}
{"id": "C186", "title": "Rotations", "statement": "Conversion of a quaternion to a rotation gives a unit axis and the rotation of the normalized quaternion; the sum of two rotations is the first followed by the second; negation is the inverse; the difference is the sum with the negation.", "quantifier": "all rotations with unit axes and all vectors over every ordered field; square root, cosine, sine, and arctangent correct at the arguments involved", "why_tests_cant": "Tests check a handful of quaternions with a floating-point tolerance; the statement is an algebraic identity in all the components.", "anchors": ["src/archon/math/rotation.hpp:61-200", "src/archon/math/quaternion.cpp"]}
{"id": "C187", "title": "The trackball is always well defined", "statement": "No call on the trackball reads a data member that was not set; the ball is the largest one that fits in the viewport and is round for the given pixel aspect ratio; there is an orientation at all times, with a unit vector as axis.", "quantifier": "all sequences of press, move, release, set_orientation, set_spin, set_viewport_size, and set_pixel_aspect_ratio calls with positive sizes, unit axes, and moves in order of time; all ordered fields in which the library functions obey their laws (the reals are one)", "why_tests_cant": "Tests (there are none for this class) would check single drags; the statement is about all sequences of user interface events and all positions.", "anchors": ["src/archon/render/virt_trackball.hpp:208-340", "src/archon/render/virt_trackball.cpp:46-134"]}
{"id": "C188", "title": "The point on the trackball under the pointer", "statement": "The point on the ball that belongs to a pointer position is on the front half of the unit sphere; it is exactly under the pointer when that is inside of the ball, and otherwise the point of the rim in the same direction.", "quantifier": "all sequences of press, move, release, set_orientation, set_spin, set_viewport_size, and set_pixel_aspect_ratio calls with positive sizes, unit axes, and moves in order of time; all ordered fields in which the library functions obey their laws (the reals are one); all pointer positions", "why_tests_cant": "Tests (there are none for this class) would check single drags; the statement is about all sequences of user interface events and all positions.", "anchors": ["src/archon/render/virt_trackball.hpp:208-340", "src/archon/render/virt_trackball.cpp:46-134"]}
{"id": "C189", "title": "The trackball follows the pointer", "statement": "A point of the object that is under the pointer when the ball is grabbed stays under the pointer while the ball is dragged.", "quantifier": "all sequences of press, move, release, set_orientation, set_spin, set_viewport_size, and set_pixel_aspect_ratio calls with positive sizes, unit axes, and moves in order of time; all ordered fields in which the library functions obey their laws (the reals are one); all sequences of moves after a press", "why_tests_cant": "Tests (there are none for this class) would check single drags; the statement is about all sequences of user interface events and all positions.", "anchors": ["src/archon/render/virt_trackball.hpp:208-340", "src/archon/render/virt_trackball.cpp:46-134"]}
{"id": "C190", "title": "The trackball does not jump", "statement": "Acquiring, releasing, imparting spin, and the first tracked position of a grab leave the orientation at that time unchanged; set_orientation() makes the orientation the specified one from then on.", "quantifier": "all sequences of press, move, release, set_orientation, set_spin, set_viewport_size, and set_pixel_aspect_ratio calls with positive sizes, unit axes, and moves in order of time; all ordered fields in which the library functions obey their laws (the reals are one); all times", "why_tests_cant": "Tests (there are none for this class) would check single drags; the statement is about all sequences of user interface events and all positions.", "anchors": ["src/archon/render/virt_trackball.hpp:208-340", "src/archon/render/virt_trackball.cpp:46-134"]}
{"id": "C191", "title": "The trackball goes on spinning as it was dragged", "statement": "After release, the ball stands still if it was not dragged, or only for a short time and distance; otherwise it spins such that, in the time from the reference position to the last position, it turns the point under the one to the point under the other, and goes on at that rate.", "quantifier": "all sequences of press, move, release, set_orientation, set_spin, set_viewport_size, and set_pixel_aspect_ratio calls with positive sizes, unit axes, and moves in order of time; all ordered fields in which the library functions obey their laws (the reals are one); all later times", "why_tests_cant": "Tests (there are none for this class) would check single drags; the statement is about all sequences of user interface events and all positions.", "anchors": ["src/archon/render/virt_trackball.hpp:208-340", "src/archon/render/virt_trackball.cpp:46-134"]}
{"id": "C192", "title": "A histogram counts every value exactly once", "statement": "After values have been added, bin i holds the number of values v with boundary i <= v < boundary i + 1, where the boundaries divide the range into bins of equal width. The two remaining counters hold the number of values below the range, and the number of values at or above its end. All counters add up to the number of values. (False for values that are more than 2^64 times the width of a bin above the beginning of the range: the conversion to std::size_t, which happens before the check of the range, has undefined behavior.)", "quantifier": "For all ranges, all numbers of bins, all precisions of at least 24 bits, and all sequences of values.", "why_tests_cant": "Values on and around every boundary, for every range and number of bins; values far outside of the range.", "anchors": ["src/archon/core/histogram.hpp:133-161"]}
{"id": "C193", "title": "A histogram is printed as an aligned table", "statement": "A histogram is printed as one line per bin, showing the bounds of the bin, its count, and a bar. A line for values below the range and one for values above it are added on request. The upper bound of a bin is shown as the lower bound of the next one. All columns are as wide as their widest text, and all lines are as wide as requested, or as wide as necessary if that is more. The length of a bar differs by at most one half from the length that is proportional to the count, and the largest count has a full bar. (False if no values have been added: the length of a bar is then computed by division of zero by zero, and the conversion of the result to int has undefined behavior.)", "quantifier": "For all ranges, numbers of bins, sequences of values, widths, types of characters, and ways of formatting numbers.", "why_tests_cant": "Arbitrary lengths of formatted numbers relative to the width, arbitrary counts, and every locale.", "anchors": ["src/archon/core/histogram.hpp:194-361"]}
{"id": "C194", "title": "Perlin noise is the weighted sum over the corners of a grid module", "statement": "The noise at a position is the sum, over the corners of the grid module that contains the closest point of the grid, of the dot product of the gradient at the corner and the vector from the corner, times a weight that is the product of one factor per dimension. The factor is the interpolation function of the fractional coordinate for the far side, and one minus that for the near side. A point on the border of several grid modules gets the same value from all of them (continuity). All accesses to the array of gradients and to the stack are in bounds, no indeterminate value is used, index arithmetic does not overflow, the assertion holds, and the loop of jumps terminates.", "quantifier": "For all numbers of dimensions, grid sizes, gauges, grid positions, gradients, positions, and interpolation schemes.", "why_tests_cant": "Unbounded number of dimensions and grid sizes; the loop emulates recursion with jumps.", "anchors": ["src/archon/util/perlin_noise.hpp:204-217", "src/archon/util/perlin_noise.hpp:256-312", "src/archon/util/perlin_noise.hpp:324-340"]}
{"id": "C195", "title": "Perlin noise outside of the grid is that at the closest point of the grid", "statement": "Perlin noise is defined at every position, and two positions with the same closest point of the grid have the same noise.", "quantifier": "For all numbers of dimensions, grids, gradients, positions, and interpolation schemes.", "why_tests_cant": "Every combination of dimensions in which the position is before, in, or after the grid.", "anchors": ["src/archon/util/perlin_noise.hpp:177-179", "src/archon/util/perlin_noise.hpp:259-285"]}
{"id": "C196", "title": "Amplitude of Perlin noise", "statement": "With unit gradients, the square of the noise is at most n / 4, where n is the number of dimensions, for each interpolation scheme. Therefore, the noise with a specified range is always in that range. (The code is right; the documentation claims that the amplitude is the square root of n / 2.)", "quantifier": "For all numbers of dimensions, grids, unit gradients, positions, interpolation schemes, and ranges.", "why_tests_cant": "The extreme values occur for special combinations of gradients and positions only.", "anchors": ["src/archon/util/perlin_noise.hpp:132-142", "src/archon/util/perlin_noise.hpp:237-241", "src/archon/util/perlin_noise.hpp:315-340"]}
{"id": "C197", "title": "Tables of enumeration names", "statement": "The table of names of an enumeration is accepted if, and only if no two entries have the same value, or the same name (up to letter case, if that is to be ignored). Otherwise, the error is about the first entry that clashes with an earlier one. With an accepted table, the name of a value is that of its entry, a string is parsed as the value of the entry with that name (up to letter case, if that is to be ignored), and all other values and strings are rejected.", "quantifier": "For all tables, values, and strings, with and without letter case being ignored.", "why_tests_cant": "Unbounded tables and strings; relies on the comparison of names being a strict weak order.", "anchors": ["src/archon/core/enum.hpp:211-263", "src/archon/core/enum.hpp:303-321"]}
{"id": "C198", "title": "Input operator of enumerations", "statement": "The input operator skips space (unless told not to), consumes the longest sequence of letters, digits, and underscores, and nothing after it. On success, the value is that of the entry with that name. If there is no such entry, or no such characters, it sets the fail flag, and leaves the value unchanged. The flag for end of input is set if, and only if nothing is left. If the stream is not good, nothing is consumed. A bad table makes the stream bad. The operator for unwrapped values does the same.", "quantifier": "For all tables, streams, contents, and locales.", "why_tests_cant": "Unbounded input; every combination of stream state, whitespace, and end of input.", "anchors": ["src/archon/core/enum.hpp:341-375", "src/archon/core/enum.hpp:394-403", "src/archon/core/stream_input.hpp:132-186"]}
{"id": "C199", "title": "Enumeration values are read as they are written", "statement": "When a value that has a name is written, and then read, the result is the same value, and what follows it is left in the stream. (False for names that are empty, or have characters other than letters, digits, and underscores, though the documentation admits all characters of the basic character set.)", "quantifier": "For all tables, values, surrounding text, and character types.", "why_tests_cant": "Unbounded tables and text.", "anchors": ["src/archon/core/enum.hpp:78-82", "src/archon/core/enum.hpp:324-375"]}
{"id": "C200", "title": "Floating-point limits of integer ranges", "statement": "max_float_not_above_nonneg_int() determines the greatest floating-point value that is not above the integer, and min_float_not_below_nonpos_int() the lowest one not below it; max_float_for_int() and min_float_for_int() do it for the limits of an integer type. This is so no matter which neighbour an integer that is not representable is converted to. There is no undefined behaviour.", "quantifier": "For all floating-point formats (radix 2) with at least two bits, whose finite range covers that of the integer type, all integer types, all integers, and all conversions from integer that give an adjacent value.", "why_tests_cant": "Formats and integer widths are unbounded, and rounding is implementation-defined; a platform exercises one choice.", "anchors": ["src/archon/core/float.hpp:399-529", "src/archon/core/float_traits.hpp:62-160"]}
{"id": "C201", "title": "Comparison of floating-point and integer values", "statement": "Comparisons between a floating-point value and an integer are right in the mathematical sense, for all values; NaN compares false. There is no undefined behaviour. (False: the four order comparisons are wrong when the integer is strictly between the floating-point value and the next one toward zero, e.g., 16777218.0f is claimed to be less than, or equal to 16777217.)", "quantifier": "For all floating-point formats (radix 2), integer types, floating-point values, and integers.", "why_tests_cant": "Unbounded formats and values; errors occur only for integers with more bits than the precision of the floating-point type.", "anchors": ["src/archon/core/float.hpp:60-90", "src/archon/core/float.hpp:280-341"]}
{"id": "C202", "title": "Conversion of floating-point values to integers", "statement": "clamped_float_to_int() rounds values in the range of the integer type toward zero, clamps other values to the range, and converts NaN to zero. try_float_to_int() succeeds with the same result for the values in range, and fails for other values and NaN. There is no undefined behaviour.", "quantifier": "For all floating-point formats (radix 2), integer types, and floating-point values, including infinities and NaN.", "why_tests_cant": "Unbounded formats, widths, and values.", "anchors": ["src/archon/core/float.hpp:344-367", "src/archon/core/float.hpp:386-396"]}
{"id": "C203", "title": "Image file formats are found in the registry as documented", "statement": "After any sequence of registrations that does not throw, get_num_file_formats() is the number of formats, get_file_format() gives the format at the index in the order of registration and throws if the index is out of range, lookup() gives the first registered format with the identifier (or null), the one-result versions of lookup_by_mime_type() and lookup_by_extension() give the first registered format that has the MIME type or extension (or null), and the tray versions append all such formats to the tray in the order of registration. No access is out of range.", "quantifier": "For all sequences of formats with arbitrary identifiers, lists of extensions, and lists of MIME types, all keys, all indexes, and all initial tray contents.", "why_tests_cant": "Tests register a handful of formats; the claim depends on stability of sorted insertion among equal keys for every registration order.", "anchors": ["src/archon/image/file_format_registry.cpp:75-160", "src/archon/image/file_format_registry.hpp:131-159"]}
{"id": "C204", "title": "Registration of an image file format adds it or throws", "statement": "register_file_format() throws if the registry already contains the format, or another format with the same identifier; throws std::length_error if the number of formats is the maximum value of int; and otherwise adds the format last, so that it is found by its identifier.", "quantifier": "For all registries produced by registrations and all formats.", "why_tests_cant": "A registry with 2^31-1 formats cannot be built in a test, and rejection of duplicates was never exercised by tests.", "anchors": ["src/archon/image/file_format_registry.cpp:136-160", "src/archon/image/file_format_registry.hpp:117-128", "src/archon/core/flat_map.hpp:92"]}
{"id": "C205", "title": "Conversion of a time point to seconds and nanoseconds", "statement": "time_point_to_timespec() returns the number of whole seconds, rounded down, and the number of nanoseconds, rounded down, that remain, between 0 and 999999999, also for points in time before the epoch and no matter how the clock's to_time_t() rounds (as long as it rounds by less than a second). The assertion does not fail.", "quantifier": "For all time points, all tick rates of the clock, and all ways of rounding by less than a second.", "why_tests_cant": "Tests use the rounding of one standard library and a few time points, mostly after the epoch.", "anchors": ["src/archon/core/time.hpp:83-97"]}
{"id": "C206", "title": "Subsecond digits are added to the first seconds field of a timestamp", "statement": "Formatting of a timestamp generates what std::put_time() generates, except that the first occurrence of %S or %T is followed by a point and the first 3, 6, or 9 digits of the fraction (rounded down, with leading zeros) when the precision is milliseconds, microseconds, or nanoseconds. Modified conversions (%OS) and escaped percent signs (%%S) are left as they are.", "quantifier": "For all formats that are sequences of ordinary characters and complete conversions, all numbers of nanoseconds from 0 to 999999999, all precisions, and all behaviors of the facet that generates the conversions.", "why_tests_cant": "The number of formats is unbounded, and tests use formats with a single seconds field.", "anchors": ["src/archon/core/timestamp_formatter.hpp:76-82", "src/archon/core/timestamp_formatter.hpp:250-306"]}
{"id": "C207", "title": "Default formats of timestamps", "statement": "With an empty format, format_local() and format_utc() of a time point generate the date (%F), a T, the time (%T), the point and the fraction if the precision is finer than seconds, and then %z or Z, respectively.", "quantifier": "For all time points, tick rates, ways of rounding by less than a second, precisions, and behaviors of the facet that generates the conversions.", "why_tests_cant": "Tests use a few time points.", "anchors": ["src/archon/core/timestamp_formatter.hpp:182-226", "src/archon/core/timestamp_formatter.hpp:250-306", "src/archon/core/time.hpp:83-97"]}
{"id": "C208", "title": "Rewindable sources", "statement": "Any sequence of read, rewind, and release operations that does not rewind after release is free of assertion failures. Each successful read operation delivers bytes of the underlying source from the current position (at least one if the size is not zero and the end has not been reached, and at most as many as asked for), a rewind operation moves the position back to the beginning, and a read operation fails only if the underlying source does. No byte is lost or duplicated.", "quantifier": "For all contents of the underlying source, all ways for it to split the contents and to fail, all initial buffer sizes, all strategies for growth of the buffer, and all sequences of operations.", "why_tests_cant": "The number of interleavings of partial reads, rewinding, release, and buffer growth is unbounded.", "anchors": ["src/archon/core/rewindable_source.cpp:34-59", "src/archon/core/rewindable_source.hpp:121-131"]}
{"id": "C209", "title": "Detection of the file format of an image", "statement": "When no format is specified, the format that is used to load an image is the first one that recognizes the input, where formats are tried in this order: those with the specified MIME type, those with the specified file name extension, and then all, each in the order of registration. Each format that is tried reads the input from the beginning, and so does the operation that loads the image. Detection fails only if every registered format rejects the input.", "quantifier": "For all sets of registered formats, all functions by which formats recognize input, all inputs, ways of splitting them into reads, MIME types, and extensions.", "why_tests_cant": "Tests have a few built-in formats with distinct extensions and inputs that are delivered in one piece.", "anchors": ["src/archon/image/load.cpp:80-149", "src/archon/core/rewindable_source.cpp:34-59", "src/archon/image/file_format_registry.cpp"]}
{"id": "C210", "title": "Loading of an image with a specified file format", "statement": "When a format is specified, the first registered format with that identifier is used and reads the input directly, or if there is none, loading fails with an error that says so. Nothing is read in order to detect the format.", "quantifier": "For all sets of registered formats, all identifiers that are not empty, and all inputs.", "why_tests_cant": "Tests use a few identifiers.", "anchors": ["src/archon/image/load.cpp:80-149", "src/archon/image/file_format_registry.cpp"]}
{"id": "C211", "title": "Messages reach the destinations whose limits allow them, with the right prefixes", "statement": "A message that is logged through a logger reaches, in order and once for each route, the destinations of the routes of the selected channel for which every limit on the route is at least the level of the message. Routes are added by duplicating loggers and by loggers that introduce channels, and limits are added by limiting loggers to the channels whose names match the pattern. Limits that are not fixed take effect with their current values. The prefixes of the loggers that the message passes come before it, those nearest to the destination first, and no prefix is lost or repeated.", "quantifier": "For all programs that construct root, null, copied, prefixing, channel selecting, jailed, limiting, duplicating, and channel introducing loggers from each other, all levels, and all later values of the limits that are not fixed.", "why_tests_cant": "The number of ways to combine loggers is unbounded, and the fixed limit that each logger caches must agree with limits that are combined and checked in other places.", "anchors": ["src/archon/log/logger.hpp:628-771", "src/archon/log/limit_logger.hpp:93-232", "src/archon/log/duplicating_logger.hpp:134-281", "src/archon/log/channel_logger.hpp:128-221", "src/archon/log/jail_logger.hpp:103-110", "src/archon/log/limit.hpp:77-102", "src/archon/log/prefix.hpp:105-156", "src/archon/log/prefix_logger.hpp:129-153"]}
{"id": "C212", "title": "Loggers know their limit", "statement": "will_log() returns true if, and only if the level is less than or equal to what get_log_level_limit() returns at that time, and it never returns false for a message that would reach a destination.", "quantifier": "For all programs that construct loggers, all levels, and all later values of the limits that are not fixed.", "why_tests_cant": "The number of ways to combine loggers is unbounded.", "anchors": ["src/archon/log/logger.hpp:647-666", "src/archon/log/duplicating_logger.hpp:164-177"]}
{"id": "C213", "title": "The limit of a limiting logger can be changed when it is not fixed", "statement": "set_log_level_limit() of a limiting logger that is constructed without a fixed limit changes the limit, and nothing else, and the change takes effect for all loggers that are derived from it.", "quantifier": "For all programs that construct loggers, all limiting loggers without a fixed limit, and all new limits.", "why_tests_cant": "No test calls the function.", "anchors": ["src/archon/log/limit_logger.hpp:103-107", "src/archon/log/limit_logger.hpp:204-222"]}
{"id": "C214", "title": "Channels of loggers are sorted", "statement": "The channels of each logger are in strictly ascending order of name, as needed by the binary search, their names are those of the base logger plus those that are introduced, and the selected channel is among them. No assertion fails when loggers are constructed.", "quantifier": "For all programs that construct loggers.", "why_tests_cant": "The number of ways to combine loggers is unbounded.", "anchors": ["src/archon/log/channel_map.hpp:48-50", "src/archon/log/channel_map.hpp:110-122", "src/archon/log/limit_logger.hpp:93-232", "src/archon/log/duplicating_logger.hpp:134-281", "src/archon/log/channel_logger.hpp:128-221"]}
{"id": "C215", "title": "Every line of a logged message gets the prefix", "statement": "When a root logger writes a message, it is divided into lines at newlines, and every line, including the last one and empty ones, is written with the prefix before it and a newline after it.", "quantifier": "For all messages and prefixes, and any newline character.", "why_tests_cant": "The number of messages is unbounded.", "anchors": ["src/archon/log/logger.hpp:805-843"]}
{"id": "C216", "title": "Stride iterators move by whole strides", "statement": "Iterator number k over every S'th element, moved by i steps, is iterator number k + i, whichever operator is used, and the element at offset i is the one it refers to.", "quantifier": "For all strides, arrays, starting positions, and numbers k and i, also negative, for which the positions are in the array, and for underlying iterators that are pointers as well as those of class type.", "why_tests_cant": "No test uses the class, and the wrong conversion of negative operands has no visible effect with most underlying iterators.", "anchors": ["src/archon/core/stride_iterator.hpp:124-196", "src/archon/core/stride_iterator.hpp:255-260"]}
{"id": "C217", "title": "Difference and order of stride iterators", "statement": "The difference between stride iterators number j and k is j - k, they are equal if, and only if j and k are, and the first comes before the second if, and only if j is less than k.", "quantifier": "For all strides, arrays, starting positions, and numbers j and k for which the positions are in the array.", "why_tests_cant": "No test uses the class, and the number of arrays, strides, and positions is unbounded.", "anchors": ["src/archon/core/stride_iterator.hpp:199-252"]}
{"id": "C218", "title": "Elapsed time of a timer is the difference between two points in time", "statement": "The elapsed time of a timer is the current time minus the time when it was started, and zero if that is negative. If the number of seconds is more than std::time_t has room for, it is the greatest number that there is room for. No assertion fails.", "quantifier": "For all signed types std::time_t, and all valid points in time.", "why_tests_cant": "A test can not control the clock, so borrowing from the seconds, clocks that go backwards, and overflow are out of reach.", "anchors": ["src/archon/core/timer.cpp:197-222"]}
{"id": "C219", "title": "Image blocks have a buffer of the right size", "statement": "Construction of an image block of valid size succeeds if, and only if the number of components is representable in std::ptrdiff_t, and a supplied buffer is not smaller than that; otherwise it fails with the right exception. A buffer that is not supplied has exactly that many components, all zero.", "quantifier": "For all numbers of channels, sizes that are not negative, and buffers.", "why_tests_cant": "The sizes where the multiplication overflows are too large to allocate, and no test reaches them.", "anchors": ["src/archon/image/block.hpp:174-200", "src/archon/image/block.hpp:239-256"]}
{"id": "C220", "title": "Items of image blocks are in row-major order", "statement": "The components in the buffer of an image block are those of its items in row-major order, and fetching the item at any position in the block gives that item, without reading outside the buffer and without overflow.", "quantifier": "For all numbers of channels, sizes, buffers that are accepted, and positions in the block.", "why_tests_cant": "The number of sizes and positions is unbounded in practice, and reads outside the buffer and overflow may pass unnoticed.", "anchors": ["src/archon/image/block.hpp:47-54", "src/archon/image/block.hpp:260-285", "src/archon/image/iter.hpp:292-298"]}
{"id": "C221", "title": "Escape sequences change the text attributes of a terminal as intended", "statement": "When a terminal that interprets SGR escape sequences has the first of two styles, and receives the text that is generated for a change to the second one, it has the second one. The text is empty if, and only if the styles are the same, and it never exceeds the stated minimum size of the buffer.", "quantifier": "For all pairs of text attributes.", "why_tests_cant": "There are almost 4 million pairs, two ways to make each change, and no test interprets the escape sequences.", "anchors": ["src/archon/core/terminal.cpp:34-233", "src/archon/core/terminal.hpp:320-455"]}
{"id": "C222", "title": "Packing of pixel components by multiplication can be undone", "statement": "When each multiplier exceeds what all other fields with the same multiplier or a lower one can contribute together, and the greatest compound value is representable, packing gives the sum of the offset and the components times their multipliers, and unpacking gets back the components, whatever order the fields are in. Unpacking of any compound value gives valid components. The same goes when compound values are mapped to color indexes by way of a list and its inverse, and no assertion fails then.", "quantifier": "For all numbers of fields, multipliers, maximum values, offsets, components, compound values, and results of std::sort.", "why_tests_cant": "The code is for X11 standard colormaps and has no tests; the number of field specifications is unbounded.", "anchors": ["src/archon/display/noinst/mult_pixel_format.hpp:192-225", "src/archon/display/noinst/mult_pixel_format.hpp:493-545", "src/archon/display/noinst/x11/support.cpp:495-551"]}
{"id": "C223", "title": "A pixel written as words can be read back, and no other pixel changes", "statement": "When the compound value of a pixel fits in the words of the pixel, writing its components to a position in the image stores the words of the compound value at the place of the pixel, in the specified word order, and reading at that position gets back the components. The words of all other pixels, and what is read from them, are unchanged. No assertion fails, no shift is undefined, and no access is outside the buffer.", "quantifier": "For all field specifications as in C222, bits per word, words per pixel, word orders, image sizes, positions, buffer contents, and components; for unsigned word types.", "why_tests_cant": "The pixel format is for X11 standard colormaps and has no tests; the number of combinations of parameters and buffer contents is unbounded.", "anchors": ["src/archon/display/noinst/mult_pixel_format.hpp:338-368", "src/archon/display/noinst/mult_pixel_format.hpp:405-415", "src/archon/display/noinst/mult_pixel_format.hpp:477-490"]}
