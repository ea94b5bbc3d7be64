{
 "claims": [
  {
   "property": "C01",
   "status": "proved",
   "theorems": [
    "checked_add_exact",
    "checked_sub_exact",
    "checked_mul_exact"
   ],
   "note": "All widths and signedness combinations; C++ promotions and wrap-around modelled explicitly, undefined behaviour is a separate outcome that is proved unreachable."
  },
  {
   "property": "C02",
   "status": "proved",
   "theorems": [
    "mixed_comparison_exact"
   ],
   "note": ""
  },
  {
   "property": "C03",
   "status": "proved",
   "theorems": [
    "checked_cast_exact",
    "clamped_cast_nearest",
    "clamped_cast_bounds"
   ],
   "note": ""
  },
  {
   "property": "C04",
   "status": "proved",
   "theorems": [
    "checked_pow_exact",
    "checked_pow_negative_exponent",
    "checked_shift_left_exact"
   ],
   "note": "Left shift under its documented precondition lval >= 0."
  },
  {
   "property": "C05",
   "status": "proved",
   "theorems": [
    "int_sqrt_floor"
   ],
   "note": ""
  },
  {
   "property": "C06",
   "status": "proved",
   "theorems": [
    "div_round_up_ceiling",
    "div_round_half_down_nearest",
    "periodic_mod_unique",
    "periodic_mod_negative_divisor"
   ],
   "note": ""
  },
  {
   "property": "C07",
   "status": "proved",
   "theorems": [
    "find_msb_pos_log2",
    "find_msb_pos_zero",
    "find_msb_pos_negative",
    "find_msb_pos_fallback_agrees",
    "is_power_of_two_exact",
    "mask_low_bits"
   ],
   "note": ""
  },
  {
   "property": "C08",
   "status": "partial",
   "theorems": [
    "twos_compl_cast_refuted",
    "twos_compl_cast_partial",
    "twos_compl_cast_narrow_behaviour"
   ],
   "note": "FINDING: false for source types narrower than int (0xFFFF in 16 bits is refused by the cast to 8 bits). Proved for sources of at least 32 bits and for widening; exact behaviour of the failing case is characterised."
  },
  {
   "property": "C09",
   "status": "proved",
   "theorems": [
    "superint_ring_ops",
    "superint_bitwise",
    "superint_shifts",
    "superint_compare",
    "superint_conversions",
    "superint_extremes"
   ],
   "note": ""
  },
  {
   "property": "C10",
   "status": "proved",
   "theorems": [
    "superint_overflow_detection",
    "superint_division"
   ],
   "note": ""
  },
  {
   "property": "C100",
   "status": "proved",
   "theorems": [
    "list_round_trip",
    "list_v_round_trip",
    "list_a_round_trip",
    "list_v_round_trip_refuted"
   ],
   "note": "Empty lists of variable length are not read back (list_v_round_trip_refuted)."
  },
  {
   "property": "C101",
   "status": "proved",
   "theorems": [
    "reads_unique",
    "newline_decode_exact",
    "newline_simul_decode_exact",
    "newline_encode_exact",
    "newline_round_trip"
   ],
   "note": ""
  },
  {
   "property": "C102",
   "status": "proved",
   "theorems": [
    "win_file_conforms",
    "win_file_reliable"
   ],
   "note": ""
  },
  {
   "property": "C103",
   "status": "proved",
   "theorems": [
    "win_file_write_progress",
    "win_file_write_refuted",
    "win_file_retry_refuted"
   ],
   "note": "That the number of characters written before a failure is reported is false (win_file_write_refuted); going on from the reported number duplicates characters (win_file_retry_refuted)."
  },
  {
   "property": "C104",
   "status": "proved",
   "theorems": [
    "subdivide_exact"
   ],
   "note": ""
  },
  {
   "property": "C105",
   "status": "proved",
   "theorems": [
    "extension_order",
    "read_falloff_exact"
   ],
   "note": ""
  },
  {
   "property": "C106",
   "status": "proved",
   "theorems": [
    "get_block_exact"
   ],
   "note": ""
  },
  {
   "property": "C107",
   "status": "proved",
   "theorems": [
    "writer_fill_exact",
    "put_image_exact",
    "put_block_exact",
    "writer_lowest_refuted"
   ],
   "note": "That no arithmetic overflows is false if a coordinate is the lowest int (writer_lowest_refuted)."
  },
  {
   "property": "C108",
   "status": "proved",
   "theorems": [
    "repeat_left_exact",
    "repeat_right_exact",
    "repeat_up_exact",
    "repeat_down_exact",
    "repeat_exact"
   ],
   "note": ""
  },
  {
   "property": "C109",
   "status": "proved",
   "theorems": [
    "byte_order_exact"
   ],
   "note": ""
  },
  {
   "property": "C11",
   "status": "proved",
   "theorems": [
    "mulprec_value_bijection",
    "mulprec_add_exact",
    "mulprec_sub_exact",
    "mulprec_mul_exact",
    "mulprec_neg_exact",
    "mulprec_compl_exact",
    "mulprec_bitwise_exact",
    "mulprec_compare_exact",
    "mulprec_shift_exact",
    "mulprec_find_msb_pos_exact",
    "mulprec_limits_exact"
   ],
   "note": "Every even part width and number of parts, signed and unsigned; also bitwise operations, shifts, limits and find_msb_pos."
  },
  {
   "property": "C110",
   "status": "proved",
   "theorems": [
    "format_valid_exact"
   ],
   "note": ""
  },
  {
   "property": "C111",
   "status": "partial",
   "theorems": [
    "cast_to_int_partial",
    "int_cast_complete",
    "packed_cast_refuted",
    "subword_cast_refuted"
   ],
   "note": "The full statement is false: the order of channels is wrong for most packed formats (packed_cast_refuted), and the depth for subword formats with more than one channel or pixel per word (subword_cast_refuted). Proved without condition for integer formats, and under good_cast for the others."
  },
  {
   "property": "C112",
   "status": "proved",
   "theorems": [
    "cast_to_sub_exact",
    "sub_cast_complete"
   ],
   "note": ""
  },
  {
   "property": "C113",
   "status": "partial",
   "theorems": [
    "match_save_partial",
    "match_save_complete",
    "match_save_refuted"
   ],
   "note": "The full statement is false for the reasons given at C111 (match_save_refuted); proved under good_cast, which always holds for integer formats."
  },
  {
   "property": "C114",
   "status": "proved",
   "theorems": [
    "stable_sort_exact",
    "stable_sort_unique"
   ],
   "note": ""
  },
  {
   "property": "C115",
   "status": "proved",
   "theorems": [
    "find_by_name_exact",
    "find_by_value_exact",
    "named_colors_found"
   ],
   "note": ""
  },
  {
   "property": "C116",
   "status": "proved",
   "theorems": [
    "parse_css_exact",
    "css_text_unambiguous"
   ],
   "note": "How a number is read from a text is a parameter of the model."
  },
  {
   "property": "C117",
   "status": "proved",
   "theorems": [
    "format_hex_exact",
    "format_parse_css"
   ],
   "note": "How a number is written and read is a parameter of the model; the round trip is for numbers that are the same after writing and reading."
  },
  {
   "property": "C118",
   "status": "proved",
   "theorems": [
    "write_color_exact",
    "write_read_color"
   ],
   "note": ""
  },
  {
   "property": "C119",
   "status": "partial",
   "theorems": [
    "css3_names_partial",
    "named_colors_css3",
    "css3_names_refuted"
   ],
   "note": "The full statement is false: the keyword yellowgreen is missing from the table, and keywords that are not in lower case are rejected (css3_names_refuted). Proved for all other keywords in lower case."
  },
  {
   "property": "C12",
   "status": "proved",
   "theorems": [
    "mulprec_divmod_exact",
    "mulprec_div_exact",
    "mulprec_divmod_zero"
   ],
   "note": "Complete proof of the long division including the digit estimate and the add-back step. Division by zero is undefined behavior."
  },
  {
   "property": "C120",
   "status": "proved",
   "theorems": [
    "read_palette_exact"
   ],
   "note": "includes the division by zero on an image without columns"
  },
  {
   "property": "C121",
   "status": "proved",
   "theorems": [
    "palette_map_lookup_exact",
    "palette_map_components_exact"
   ],
   "note": ""
  },
  {
   "property": "C122",
   "status": "partial",
   "theorems": [
    "moved_palette_map_partial",
    "moved_palette_map_refuted"
   ],
   "note": "false in general: move_from() does not assign the number of channels including alpha; proved when destination and source agree on it already"
  },
  {
   "property": "C123",
   "status": "proved",
   "theorems": [
    "decompose_exact"
   ],
   "note": "for every ordered field of scalars; rounding is not modelled"
  },
  {
   "property": "C124",
   "status": "proved",
   "theorems": [
    "try_upper_tri_inv_exact",
    "try_lower_tri_inv_exact"
   ],
   "note": "for every ordered field of scalars; rounding is not modelled"
  },
  {
   "property": "C125",
   "status": "proved",
   "theorems": [
    "try_inv_exact",
    "inv_exact"
   ],
   "note": "for every ordered field of scalars; rounding is not modelled"
  },
  {
   "property": "C126",
   "status": "partial",
   "theorems": [
    "det_exact",
    "det_integer_refuted"
   ],
   "note": "proved for every ordered field of scalars; false for integer scalar types, for which the function compiles but uses integer division (det_integer_refuted)"
  },
  {
   "property": "C127",
   "status": "proved",
   "theorems": [
    "inner_mm_exact",
    "mat_div_exact"
   ],
   "note": "for every ordered field of scalars; rounding is not modelled"
  },
  {
   "property": "C128",
   "status": "proved",
   "theorems": [
    "memory_output_exact",
    "memory_output_too_large"
   ],
   "note": ""
  },
  {
   "property": "C129",
   "status": "proved",
   "theorems": [
    "memory_input_exact",
    "memory_input_too_large"
   ],
   "note": ""
  },
  {
   "property": "C13",
   "status": "proved",
   "theorems": [
    "base64_round_trip",
    "base64_encode_exact",
    "base64_decode_exact"
   ],
   "note": "The encoder produces exactly the RFC 4648 text divided into lines; the decoder accepts exactly the unpadded texts."
  },
  {
   "property": "C130",
   "status": "partial",
   "theorems": [
    "seed_memory_partial",
    "seed_memory_retained",
    "seed_memory_refuted"
   ],
   "note": "false for a character with the value of traits_type::eof() (possible for wide characters) when the memory is full; proved for all other characters"
  },
  {
   "property": "C131",
   "status": "proved",
   "theorems": [
    "parse_integer_exact"
   ],
   "note": "The extraction operator of the standard library (classic locale, decimal, skipws off) is modelled from the C++ standard, not from code in the repository."
  },
  {
   "property": "C132",
   "status": "partial",
   "theorems": [
    "parse_untouched_partial",
    "parse_untouched_refuted"
   ],
   "note": "The full statement is false: parsing 12x as int assigns 12 and returns false, and parsing the empty string assigns 0. Proved for the only case in which it holds by design, an unsigned type and a leading dash."
  },
  {
   "property": "C133",
   "status": "proved",
   "theorems": [
    "seed_seq_generate_standard"
   ],
   "note": ""
  },
  {
   "property": "C134",
   "status": "proved",
   "theorems": [
    "seed_seq_size_param"
   ],
   "note": ""
  },
  {
   "property": "C135",
   "status": "proved",
   "theorems": [
    "rand_int_exact"
   ],
   "note": "Draws of parts are inputs. get_parts()/from_parts() are modelled by the requirements of the integer concept."
  },
  {
   "property": "C136",
   "status": "proved",
   "theorems": [
    "rand_int_uniform"
   ],
   "note": "Relative to uniform draws of parts, which are made by the standard library."
  },
  {
   "property": "C137",
   "status": "proved",
   "theorems": [
    "num_seed_words_exact",
    "num_input_words_exact"
   ],
   "note": ""
  },
  {
   "property": "C138",
   "status": "proved",
   "theorems": [
    "hex_dump_exact"
   ],
   "note": ""
  },
  {
   "property": "C139",
   "status": "partial",
   "theorems": [
    "hex_dump_size_partial",
    "hex_dump_size_refuted"
   ],
   "note": "Holds for limits of at least 3, the size of the ellipsis. With smaller limits the dump can exceed the limit; see findings."
  },
  {
   "property": "C14",
   "status": "partial",
   "theorems": [
    "base64_padded_round_trip_refuted",
    "base64_padding_rejected",
    "base64_padded_round_trip_partial"
   ],
   "note": "The full claim is false of the code: the padding character is never consumed, so text with padding is always rejected. It holds for lengths divisible by three."
  },
  {
   "property": "C140",
   "status": "proved",
   "theorems": [
    "hex_dump_injective"
   ],
   "note": "The character mapping must tell digits apart."
  },
  {
   "property": "C141",
   "status": "proved",
   "theorems": [
    "random_seed_write_exact"
   ],
   "note": ""
  },
  {
   "property": "C142",
   "status": "partial",
   "theorems": [
    "random_seed_read_partial",
    "random_seed_read_refuted"
   ],
   "note": "The theorem tells exactly which texts are accepted. Those are not exactly the serialized forms: blocks with more than 33 characters are accepted, and blocks with a pair of all ones are rejected; see findings."
  },
  {
   "property": "C143",
   "status": "partial",
   "theorems": [
    "random_seed_round_trip_partial",
    "random_seed_round_trip_refuted"
   ],
   "note": "Holds for seeds where no pair of words is all ones. Others cannot be read back; see findings."
  },
  {
   "property": "C144",
   "status": "proved",
   "theorems": [
    "for_each_word_exact"
   ],
   "note": ""
  },
  {
   "property": "C145",
   "status": "partial",
   "theorems": [
    "wildcard_filter_partial",
    "wildcard_filter_dashes",
    "wildcard_filter_refuted"
   ],
   "note": "Holds when there is at most one dash. With more of them, everything before the next to last one is silently forgotten; see findings."
  },
  {
   "property": "C146",
   "status": "proved",
   "theorems": [
    "tests_executed_once"
   ],
   "note": ""
  },
  {
   "property": "C147",
   "status": "proved",
   "theorems": [
    "nonconcurrent_tests_alone"
   ],
   "note": ""
  },
  {
   "property": "C148",
   "status": "partial",
   "theorems": [
    "threads_reported_once_partial",
    "threads_reported_once_refuted"
   ],
   "note": "Holds unless there is one execution only, of a concurrent test, and more than one thread was asked for. In that case the end is reported twice; see findings."
  },
  {
   "property": "C149",
   "status": "proved",
   "theorems": [
    "test_counts_exact",
    "run_tests_throws"
   ],
   "note": ""
  },
  {
   "property": "C15",
   "status": "proved",
   "theorems": [
    "base64_encode_size",
    "base64_encode_fits",
    "base64_decode_size",
    "base64_decode_fits"
   ],
   "note": "size_t is assumed to have at least 8 bits. The assertion in the decoder fails in other cases, see C45."
  },
  {
   "property": "C150",
   "status": "partial",
   "theorems": [
    "executions_in_order_partial",
    "executions_in_order_refuted"
   ],
   "note": "Holds if the tests are all concurrent, or all nonconcurrent, or there is one thread. In general, the concurrent ones come first, in order, and then the others, in order; see findings."
  },
  {
   "property": "C151",
   "status": "partial",
   "theorems": [
    "run_tests_result_partial",
    "run_tests_result_general",
    "run_tests_result_refuted"
   ],
   "note": "Holds if the tests are all concurrent, or all nonconcurrent, or there is one thread. In general, what the last thread has counted during the concurrent tests is lost, so failures can go unnoticed; see findings."
  },
  {
   "property": "C152",
   "status": "proved",
   "theorems": [
    "execution_progress"
   ],
   "note": ""
  },
  {
   "property": "C153",
   "status": "proved",
   "theorems": [
    "sequence_memory_exact",
    "sequence_memory_zero"
   ],
   "note": "sequence_memory_zero: capacity zero is accepted by the constructor, but push_back() then writes outside the buffer."
  },
  {
   "property": "C154",
   "status": "proved",
   "theorems": [
    "curve_memory_exact"
   ],
   "note": "core::lerp_a() (floating point) is an arbitrary function."
  },
  {
   "property": "C155",
   "status": "partial",
   "theorems": [
    "curve_memory_reach_partial",
    "curve_memory_reach_refuted",
    "curve_memory_zero_span"
   ],
   "note": "The full statement is false already for the parameters of the virtual trackball (curve_memory_reach_refuted). Proved: the memory reaches back (max_samples - 2) time slots."
  },
  {
   "property": "C156",
   "status": "proved",
   "theorems": [
    "trackball_release_exact"
   ],
   "note": "Orientations, rotations and the steady clock are not modelled; the distance test and the interpolation are arbitrary functions."
  },
  {
   "property": "C157",
   "status": "partial",
   "theorems": [
    "spin_divisor_partial",
    "spin_divisor_refuted"
   ],
   "note": "The full statement is false: events in the same millisecond give a division by zero. Proved: this is the only case."
  },
  {
   "property": "C158",
   "status": "proved",
   "theorems": [
    "cast_to_twos_compl_exact"
   ],
   "note": ""
  },
  {
   "property": "C159",
   "status": "proved",
   "theorems": [
    "cast_from_twos_compl_exact"
   ],
   "note": ""
  },
  {
   "property": "C16",
   "status": "proved",
   "theorems": [
    "base64_encode_chunks"
   ],
   "note": ""
  },
  {
   "property": "C160",
   "status": "partial",
   "theorems": [
    "try_twos_compl_cast_partial",
    "try_twos_compl_cast_refuted"
   ],
   "note": "The full statement is false for narrowing casts between unsigned types narrower than int (same finding as C08); proved for all other pairs of types."
  },
  {
   "property": "C161",
   "status": "proved",
   "theorems": [
    "parse_line_exact"
   ],
   "note": ""
  },
  {
   "property": "C162",
   "status": "proved",
   "theorems": [
    "parse_line_seq_exact"
   ],
   "note": ""
  },
  {
   "property": "C163",
   "status": "proved",
   "theorems": [
    "code_point_text_exact"
   ],
   "note": ""
  },
  {
   "property": "C164",
   "status": "partial",
   "theorems": [
    "load_spec_partial",
    "load_spec_defined_refuted"
   ],
   "note": "False for files with a glyph of negative width or height: the check of the box can overflow. Everything else is proved; undefined behavior occurs only if there is such a glyph."
  },
  {
   "property": "C165",
   "status": "proved",
   "theorems": [
    "loaded_font_lookup"
   ],
   "note": ""
  },
  {
   "property": "C166",
   "status": "partial",
   "theorems": [
    "render_loaded_partial"
   ],
   "note": "Overflow is possible, but only if the glyph has negative width or height, if its position is the lowest representable one, or if bottom + height is not representable."
  },
  {
   "property": "C167",
   "status": "partial",
   "theorems": [
    "loaded_glyphs_partial",
    "loaded_glyph_sizes_refuted"
   ],
   "note": "False: negative sizes are accepted. Proved: advances are not negative, and the box does not extend beyond the image."
  },
  {
   "property": "C168",
   "status": "proved",
   "theorems": [
    "posix_file_conforms"
   ],
   "note": ""
  },
  {
   "property": "C169",
   "status": "proved",
   "theorems": [
    "buffered_posix_conforms"
   ],
   "note": ""
  },
  {
   "property": "C17",
   "status": "proved",
   "theorems": [
    "utf8_round_trip",
    "unicode_strict_exact"
   ],
   "note": "Strict encoding and decoding through the buffer-growing functions; failure exactly on an invalid code point."
  },
  {
   "property": "C170",
   "status": "partial",
   "theorems": [
    "buffered_windows_conforms_partial",
    "buffered_windows_reliable",
    "buffered_windows_conforms_refuted"
   ],
   "note": "False when the actual file fails: after a failed flush, a retry can write the same characters twice. Proved: everything if the actual file never fails; with failures, everything except what the contents and the number of written characters are after a failed attempt to write, flush, or tell while writing."
  },
  {
   "property": "C171",
   "status": "partial",
   "theorems": [
    "read_until_posix_partial",
    "read_until_windows_partial",
    "read_until_moves_refuted",
    "read_until_starts_refuted"
   ],
   "note": "False: it starts at the read-ahead pointer and can leave the logical file pointer behind. Proved: when nothing has been read ahead, the right characters are extracted, and a subsequent advance() moves the logical file pointer to after them."
  },
  {
   "property": "C172",
   "status": "proved",
   "theorems": [
    "posix_text_file_conforms",
    "posix_buffered_text_file_conforms"
   ],
   "note": ""
  },
  {
   "property": "C173",
   "status": "partial",
   "theorems": [
    "windows_text_file_conforms_partial",
    "windows_buffered_text_file_conforms_partial",
    "windows_text_file_conforms_refuted",
    "windows_buffered_text_file_conforms_refuted"
   ],
   "note": "False when the actual file fails: too few characters are reported as written, and with a buffer, a retry can write the same characters twice. Proved: everything except what the contents and the number of written characters are after such a failure."
  },
  {
   "property": "C174",
   "status": "proved",
   "theorems": [
    "windows_text_file_reliable",
    "windows_buffered_text_file_reliable"
   ],
   "note": ""
  },
  {
   "property": "C175",
   "status": "proved",
   "theorems": [
    "key_bindings_conform"
   ],
   "note": "Handlers that bind keys are excluded (see C178); they may return anything and set the modifier mode in any way."
  },
  {
   "property": "C176",
   "status": "proved",
   "theorems": [
    "key_calls_balanced",
    "key_calls_finished"
   ],
   "note": "The proviso is needed (see C177)."
  },
  {
   "property": "C177",
   "status": "partial",
   "theorems": [
    "rebinding_balanced_refuted"
   ],
   "note": "Refuted: the statement is false of the code. C176 is what holds."
  },
  {
   "property": "C178",
   "status": "partial",
   "theorems": [
    "handlers_may_bind_refuted"
   ],
   "note": "Refuted: the statement is false of the code. C175 covers handlers that do not bind keys."
  },
  {
   "property": "C179",
   "status": "proved",
   "theorems": [
    "modes_are_simple"
   ],
   "note": ""
  },
  {
   "property": "C18",
   "status": "proved",
   "theorems": [
    "utf8_decode_exact",
    "utf8_decode_accepts"
   ],
   "note": "Acceptance against concatenations of encodings and against table 3-7 of the Unicode Standard (without U+FFFE and U+FFFF, which the library rejects)."
  },
  {
   "property": "C180",
   "status": "partial",
   "theorems": [
    "modifier_mode_partial",
    "modifier_mode_refuted",
    "modifier_mode_twin_refuted"
   ],
   "note": "The full statement is false of the code when several modifier keys are held."
  },
  {
   "property": "C181",
   "status": "proved",
   "theorems": [
    "quaternion_algebra"
   ],
   "note": ""
  },
  {
   "property": "C182",
   "status": "proved",
   "theorems": [
    "quaternion_inverse"
   ],
   "note": ""
  },
  {
   "property": "C183",
   "status": "proved",
   "theorems": [
    "quaternion_conjugation"
   ],
   "note": ""
  },
  {
   "property": "C184",
   "status": "proved",
   "theorems": [
    "rotation_matrix_right"
   ],
   "note": ""
  },
  {
   "property": "C185",
   "status": "proved",
   "theorems": [
    "axis_angle_right"
   ],
   "note": ""
  },
  {
   "property": "C186",
   "status": "proved",
   "theorems": [
    "rotations_right",
    "rotations_real"
   ],
   "note": "rotations_real is the instance for real numbers with the actual functions; it depends on the axioms of the standard library's real numbers (see DESIGN.md)."
  },
  {
   "property": "C187",
   "status": "proved",
   "theorems": [
    "trackball_well_defined"
   ],
   "note": "The hypotheses about the library functions hold for real numbers: real_laws in QuatReals.v."
  },
  {
   "property": "C188",
   "status": "proved",
   "theorems": [
    "ball_point_right"
   ],
   "note": ""
  },
  {
   "property": "C189",
   "status": "partial",
   "theorems": [
    "drag_follows_pointer_partial",
    "drag_follows_pointer_refuted"
   ],
   "note": "The full statement is false of the code when the pointer gets to the opposite end of the rim: the ball does not turn."
  },
  {
   "property": "C19",
   "status": "proved",
   "theorems": [
    "utf16_round_trip",
    "utf16_decode_exact"
   ],
   "note": "As for UTF-8."
  },
  {
   "property": "C190",
   "status": "proved",
   "theorems": [
    "trackball_continuous"
   ],
   "note": ""
  },
  {
   "property": "C191",
   "status": "proved",
   "theorems": [
    "trackball_spin"
   ],
   "note": ""
  },
  {
   "property": "C192",
   "status": "partial",
   "theorems": [
    "histogram_counts_partial",
    "histogram_counts_refuted"
   ],
   "note": "false for values more than 2^64 bin widths above the beginning of the range (undefined behavior); proved for all others"
  },
  {
   "property": "C193",
   "status": "partial",
   "theorems": [
    "histogram_table_partial",
    "histogram_line_size",
    "histogram_table_refuted"
   ],
   "note": "false for a histogram without values (undefined behavior); proved for all others"
  },
  {
   "property": "C194",
   "status": "proved",
   "theorems": [
    "noise_right"
   ],
   "note": "exact arithmetic"
  },
  {
   "property": "C195",
   "status": "proved",
   "theorems": [
    "noise_total"
   ],
   "note": "exact arithmetic"
  },
  {
   "property": "C196",
   "status": "proved",
   "theorems": [
    "noise_amplitude"
   ],
   "note": "exact arithmetic; the amplitude is any positive number whose square is n / 4"
  },
  {
   "property": "C197",
   "status": "proved",
   "theorems": [
    "enum_table"
   ],
   "note": ""
  },
  {
   "property": "C198",
   "status": "proved",
   "theorems": [
    "enum_read",
    "clash_free_unique"
   ],
   "note": ""
  },
  {
   "property": "C199",
   "status": "partial",
   "theorems": [
    "enum_round_trip_partial",
    "enum_round_trip_refuted"
   ],
   "note": "for names that are nonempty sequences of letters, digits, and underscores only; refuted for other names, which the documentation admits"
  },
  {
   "property": "C20",
   "status": "proved",
   "theorems": [
    "utf8_to_utf16_exact",
    "utf16_to_utf8_exact"
   ],
   "note": "Direct transcoding compared with the models of decoding and encoding."
  },
  {
   "property": "C200",
   "status": "proved",
   "theorems": [
    "float_limits",
    "toward_zero_faithful"
   ],
   "note": "radix 2"
  },
  {
   "property": "C201",
   "status": "partial",
   "theorems": [
    "float_compare_int_partial",
    "float_compare_int_refuted"
   ],
   "note": "refuted in general; proved when the integer is not strictly between the value and the next one toward zero, in particular when the integer is representable; the theorem also says exactly which results are wrong among values in the range of the integer type"
  },
  {
   "property": "C202",
   "status": "proved",
   "theorems": [
    "float_to_int_right"
   ],
   "note": "radix 2"
  },
  {
   "property": "C203",
   "status": "proved",
   "theorems": [
    "registry_lookup"
   ],
   "note": ""
  },
  {
   "property": "C204",
   "status": "partial",
   "theorems": [
    "registry_register_partial",
    "registry_register_refuted"
   ],
   "note": "A format whose identifier is taken is not rejected: the flag is initialized from the iterator (p.first), rather than from p.second. Proved for new identifiers, including the limit on the number of formats."
  },
  {
   "property": "C205",
   "status": "proved",
   "theorems": [
    "timespec_exact"
   ],
   "note": ""
  },
  {
   "property": "C206",
   "status": "partial",
   "theorems": [
    "timestamp_format_partial",
    "timestamp_format_all",
    "timestamp_format_refuted"
   ],
   "note": "The fraction is added to every %S and %T, not only to the first one. Proved as documented for formats with at most one; the theorem about all formats says that each one gets the fraction."
  },
  {
   "property": "C207",
   "status": "proved",
   "theorems": [
    "timestamp_default"
   ],
   "note": ""
  },
  {
   "property": "C208",
   "status": "proved",
   "theorems": [
    "rewindable_source"
   ],
   "note": ""
  },
  {
   "property": "C209",
   "status": "proved",
   "theorems": [
    "load_detect"
   ],
   "note": "The theorem is about the format and the source that FileFormat::try_load() is called with, not about what it does."
  },
  {
   "property": "C21",
   "status": "partial",
   "theorems": [
    "unicode_lenient_partial",
    "unicode_lenient_refuted"
   ],
   "note": "The full claim is false for every malformed input: the replacement is appended at the offset where conversion began. Proved for well-formed input."
  },
  {
   "property": "C210",
   "status": "proved",
   "theorems": [
    "load_specified"
   ],
   "note": ""
  },
  {
   "property": "C211",
   "status": "partial",
   "theorems": [
    "log_routes_partial",
    "log_routes_refuted"
   ],
   "note": "Not so for the messages that are logged directly through a limiting logger whose pattern does not include the selected channel: the limit is applied to them anyway."
  },
  {
   "property": "C212",
   "status": "proved",
   "theorems": [
    "log_will_log"
   ],
   "note": "That no message is held back is subject to the same exception as C211, stated as a condition in the theorem."
  },
  {
   "property": "C213",
   "status": "partial",
   "theorems": [
    "log_set_limit_partial",
    "log_set_limit_refuted"
   ],
   "note": "The assertion in LimitImpl::set() is inverted, so the function always fails for limits that are not fixed. Proved is that the assignment after it has the right effect."
  },
  {
   "property": "C214",
   "status": "proved",
   "theorems": [
    "log_channels"
   ],
   "note": ""
  },
  {
   "property": "C215",
   "status": "proved",
   "theorems": [
    "log_lines",
    "log_lines_unique"
   ],
   "note": ""
  },
  {
   "property": "C216",
   "status": "partial",
   "theorems": [
    "stride_move_partial",
    "stride_move_refuted"
   ],
   "note": "Missing: negative numbers of steps when the underlying iterator is a pointer; there, the operand is a huge unsigned number, and the operation is undefined (stride_move_refuted)."
  },
  {
   "property": "C217",
   "status": "partial",
   "theorems": [
    "stride_diff_partial",
    "stride_diff_refuted"
   ],
   "note": "Missing: negative differences when the stride is more than one; there, the division is unsigned, and the result is not negative (stride_diff_refuted). Equality and order are proved without restriction."
  },
  {
   "property": "C218",
   "status": "proved",
   "theorems": [
    "timer_elapsed"
   ],
   "note": "The value is exact; rounding to double is not modelled."
  },
  {
   "property": "C219",
   "status": "proved",
   "theorems": [
    "block_construct",
    "block_negative"
   ],
   "note": "Sizes with two negative components are accepted (block_negative)."
  },
  {
   "property": "C22",
   "status": "proved",
   "theorems": [
    "unicode_resumption",
    "unicode_decomposition"
   ],
   "note": "Any sequence of input pieces and output sizes, for all six conversions."
  },
  {
   "property": "C220",
   "status": "proved",
   "theorems": [
    "block_get_pixel",
    "block_items"
   ],
   "note": ""
  },
  {
   "property": "C221",
   "status": "proved",
   "theorems": [
    "term_change",
    "term_buffer",
    "term_no_change"
   ],
   "note": "The terminal is the one in TermSpec.v, where each weight replaces the previous one."
  },
  {
   "property": "C222",
   "status": "proved",
   "theorems": [
    "mult_round_trip",
    "mult_unpack_valid",
    "perm_round_trip",
    "perm_unpack_valid",
    "isort_sorts"
   ],
   "note": "isort_sorts shows that the assumption about std::sort can be met."
  },
  {
   "property": "C223",
   "status": "proved",
   "theorems": [
    "mult_pixel"
   ],
   "note": "For unsigned word types, and from components to components: their conversion to and from the transfer representation is not modelled. No wrong variants of this model have been tried."
  },
  {
   "property": "C23",
   "status": "proved",
   "theorems": [
    "deque_step",
    "deque_history",
    "deque_exception_safe",
    "deque_capacity",
    "deque_iterators",
    "deque_copy_move",
    "deque_self_assign_empties",
    "deque_self_assign_refuted"
   ],
   "note": "Any history of the listed operations, slot by slot in the circular buffer; at(), iteration and iterator arithmetic; strong exception safety; destruction frees every slot. Side finding: copy assignment of a deque to itself empties it. Elements pushed by reference into the deque itself are not modelled."
  },
  {
   "property": "C24",
   "status": "partial",
   "theorems": [
    "deque_erase_partial",
    "deque_erase_wrong",
    "deque_erase_refuted"
   ],
   "note": "The claim is false: erase is exact under the condition erasable, and in every other case accesses a slot that holds no element (deque_erase_wrong); deque_erase_refuted has a witness for both branches."
  },
  {
   "property": "C25",
   "status": "partial",
   "theorems": [
    "vector_history_partial",
    "vector_step_partial",
    "vector_exception_safe",
    "vector_no_realloc",
    "vector_capacity",
    "vector_move",
    "vector_resize_overrun",
    "vector_resize_refuted"
   ],
   "note": "Proved for every history except upward resize of a non-empty vector, where the claim is false: resize constructs `size` elements at data()+m_size instead of size - m_size (vector_resize_refuted: push_back then resize(3) on Vector<int,3> writes past the static memory). Also proved: exception safety, no reallocation within capacity, moves."
  },
  {
   "property": "C26",
   "status": "proved",
   "theorems": [
    "buffer_append_exact",
    "buffer_append_a_exact",
    "buffer_prepend_exact",
    "buffer_prepend_a_exact",
    "buffer_append_history",
    "buffer_prepend_history",
    "buffer_assign_exact",
    "buffer_reserve_exact"
   ],
   "note": "Data passed in is outside the buffer memory; allocation failure not modelled."
  },
  {
   "property": "C27",
   "status": "partial",
   "theorems": [
    "buffer_at_refuted",
    "buffer_at_partial"
   ],
   "note": "FINDING: verify_index uses i <= size(), so at(size()) is an out-of-bounds access for every buffer. Proved for every other index."
  },
  {
   "property": "C28",
   "status": "proved",
   "theorems": [
    "growth_policy"
   ],
   "note": ""
  },
  {
   "property": "C29",
   "status": "proved",
   "theorems": [
    "flat_map_history",
    "flat_map_bounds"
   ],
   "note": "The underlying Vector is modelled by the list of its elements."
  },
  {
   "property": "C30",
   "status": "proved",
   "theorems": [
    "flat_multimap_history",
    "flat_multimap_equal_range"
   ],
   "note": ""
  },
  {
   "property": "C31",
   "status": "proved",
   "theorems": [
    "literal_hash_map_find_exact",
    "rev_literal_hash_map_find_exact",
    "literal_hash_map_found_iff"
   ],
   "note": ""
  },
  {
   "property": "C32",
   "status": "proved",
   "theorems": [
    "range_map_update_pointwise",
    "range_map_history",
    "range_map_assign"
   ],
   "note": ""
  },
  {
   "property": "C33",
   "status": "proved",
   "theorems": [
    "range_map_defrag"
   ],
   "note": ""
  },
  {
   "property": "C34",
   "status": "partial",
   "theorems": [
    "frozen_sets_history_partial",
    "frozen_sets_step_partial",
    "frozen_sets_unite_refuted",
    "frozen_sets_unite_empty_refuted",
    "frozen_sets_unite_unordered_refuted"
   ],
   "note": "FINDING: uniting two equal sets (including two empty ones) discards existing sets; unite_unordered with the elements of an existing set overwrites it. Proved for all histories that never unite equal sets."
  },
  {
   "property": "C35",
   "status": "proved",
   "theorems": [
    "string_matcher_exact",
    "string_matcher_clear"
   ],
   "note": ""
  },
  {
   "property": "C36",
   "status": "partial",
   "theorems": [
    "fnv1a_partial",
    "fnv1a_bytes",
    "fnv1a_narrow_negative_refuted"
   ],
   "note": "FINDING: negative integers of types narrower than int are hashed with an unmasked final octet. Proved for byte sequences and for all other integers."
  },
  {
   "property": "C37",
   "status": "proved",
   "theorems": [
    "timestamp_unwrap_exact",
    "timestamp_unwrap_exact_ticks",
    "timestamp_unwrap_ticks_half_period_refuted"
   ],
   "note": "Stated for the elapsed time rounded to milliseconds; at tick precision the bound (2^N-1)/2 ms suffices and 2^N/2 ms does not (refutation)."
  },
  {
   "property": "C38",
   "status": "proved",
   "theorems": [
    "rectpack_exact",
    "rectpack_success",
    "rectpack_sort_exact"
   ],
   "note": "From any list of rectangles: no undefined behavior and no failed assertion, true implies a packing with tight utilized sizes, false only if margins or a rectangle do not fit or there are fewer bins than rectangles."
  },
  {
   "property": "C39",
   "status": "proved",
   "theorems": [
    "parse_exact",
    "numeral_value_unique",
    "format_exact",
    "format_parse_round_trip",
    "format_unsupported_radix_refuted"
   ],
   "note": "The character mapper is a parameter. FINDING: format_a with an unsupported radix and a negative min_num_digits is undefined behaviour instead of std::invalid_argument."
  },
  {
   "property": "C40",
   "status": "partial",
   "theorems": [
    "greedy_exact_partial",
    "greedy_exact_refuted"
   ],
   "note": "exact (inductive greedy layout: every line has as many words as fit) except when the size of the first word and its space saturates and a line is of size SIZE_MAX; in that corner the claim is refuted by a witness"
  },
  {
   "property": "C41",
   "status": "partial",
   "theorems": [
    "knuth_wrap_optimal_partial",
    "knuth_wrap_success",
    "knuth_wrap_optimal_refuted",
    "knuth_badness_refuted"
   ],
   "note": "termination, optimality and the reported badness proved for two or more words; refuted in the saturation corner and (stale badness) for fewer than two words"
  },
  {
   "property": "C42",
   "status": "proved",
   "theorems": [
    "quoted_literal",
    "quoted_limit_exact",
    "quoted_prefix_alone_refuted"
   ],
   "note": "quoted_prefix_alone_refuted: a literal reading of the documentation (escaping the prefix alone) gives a longer prefix in rare cases"
  },
  {
   "property": "C43",
   "status": "proved",
   "theorems": [
    "find_msd_pos_exact",
    "num_digits_exact",
    "max_digits_exact"
   ],
   "note": ""
  },
  {
   "property": "C44",
   "status": "proved",
   "theorems": [
    "base64_decode_chunks"
   ],
   "note": ""
  },
  {
   "property": "C45",
   "status": "partial",
   "theorems": [
    "base64_bad_text_reported_refuted",
    "base64_bad_text_reported_partial"
   ],
   "note": "The full claim is false of the code when the output has filled a buffer of exactly decode_buffer_size() bytes; with one more byte it holds."
  },
  {
   "property": "C46",
   "status": "partial",
   "theorems": [
    "utf8_wide_units_exact",
    "utf8_wide_units_refuted"
   ],
   "note": "False: upper bits of continuation units are ignored. The exact behavior is proved."
  },
  {
   "property": "C47",
   "status": "partial",
   "theorems": [
    "unicode_exhausted_partial",
    "unicode_exhausted_refuted"
   ],
   "note": "False for UTF-8 input: truncated sequences are reported as exhausted input even if they cannot be completed. The converse, and the full claim for other input, are proved."
  },
  {
   "property": "C48",
   "status": "partial",
   "theorems": [
    "suggest_bin_width_partial",
    "suggest_bin_width_exact",
    "suggest_bin_width_refuted",
    "suggest_bin_width_unsigned_refuted"
   ],
   "note": "False as stated: for component type int an assertion fails if the total area needs more than 64 bits. The rest of the claim is proved, and so is the exact value of the suggestion when nothing overflows."
  },
  {
   "property": "C49",
   "status": "partial",
   "theorems": [
    "rectpack_again_refuted"
   ],
   "note": "False: the second call fails an assertion, always."
  },
  {
   "property": "C50",
   "status": "proved",
   "theorems": [
    "greedy_fewest_lines"
   ],
   "note": ""
  },
  {
   "property": "C51",
   "status": "proved",
   "theorems": [
    "smart_quoted_choice",
    "smart_quoted_unlimited",
    "quote_forms_exist"
   ],
   "note": ""
  },
  {
   "property": "C52",
   "status": "proved",
   "theorems": [
    "string_matcher_ambiguity"
   ],
   "note": ""
  },
  {
   "property": "C53",
   "status": "proved",
   "theorems": [
    "int_bit_copy_exact",
    "builtin_parts_round_trip",
    "cast_from_twos_compl_a_exact"
   ],
   "note": ""
  },
  {
   "property": "C54",
   "status": "partial",
   "theorems": [
    "pack_unpack_exact",
    "is_bit_medium_width",
    "unpack_int_a_total",
    "pack_int_total_partial",
    "pack_int_total_refuted"
   ],
   "note": "False in one part: pack_int() terminates the program (an exception in a noexcept function) for a value out of range when a signed medium is used at full width. All else is proved."
  },
  {
   "property": "C55",
   "status": "partial",
   "theorems": [
    "change_bit_width_exact_partial",
    "change_bit_width_bits",
    "change_bit_width_round_trip",
    "change_bit_width_exact_refuted"
   ],
   "note": "False when the target width is the width of a signed type, which the assertions admit: signed overflow, or a negative result. Proved whenever the target width does not exceed the number of value bits."
  },
  {
   "property": "C56",
   "status": "partial",
   "theorems": [
    "int_to_int_a_nearest",
    "int_to_int_a_round_trip",
    "int_to_int_a_monotone",
    "int_to_int_a_rounds_partial",
    "int_to_int_a_rounds_refuted"
   ],
   "note": "False on ties, which are rounded down; proved for odd max_1. The other parts are proved."
  },
  {
   "property": "C57",
   "status": "proved",
   "theorems": [
    "int_to_int_exact",
    "int_to_int_round_trip"
   ],
   "note": ""
  },
  {
   "property": "C58",
   "status": "partial",
   "theorems": [
    "box_valid_exact",
    "box_empty_exact",
    "box_intersects_exact_partial",
    "box_clip_exact_partial",
    "box_clip_exact_refuted"
   ],
   "note": "False for valid boxes whose positions are more than INT_MAX apart: signed overflow. Proved for all other pairs."
  },
  {
   "property": "C59",
   "status": "partial",
   "theorems": [
    "box_contains_exact_partial",
    "contains_pixel_at_exact_partial",
    "box_order",
    "box_clip_exact_refuted"
   ],
   "note": "As C58: signed overflow for distant boxes. Proved for all other pairs; the total order is proved without restriction."
  },
  {
   "property": "C60",
   "status": "proved",
   "theorems": [
    "valid_bit_fields_exact",
    "bit_field_layout",
    "bit_fields_disjoint",
    "widest_bit_field_exact"
   ],
   "note": ""
  },
  {
   "property": "C61",
   "status": "proved",
   "theorems": [
    "packed_read_exact"
   ],
   "note": "Transfer representation int8 or int16 only, as stated."
  },
  {
   "property": "C62",
   "status": "proved",
   "theorems": [
    "packed_write_exact",
    "packed_fill_exact",
    "packed_round_trip",
    "packed_represent_channels",
    "packed_write_back"
   ],
   "note": "Transfer representation int8 or int16 only, as stated."
  },
  {
   "property": "C63",
   "status": "proved",
   "theorems": [
    "packed_buffer_size_exact"
   ],
   "note": ""
  },
  {
   "property": "C64",
   "status": "proved",
   "theorems": [
    "integer_read_exact"
   ],
   "note": ""
  },
  {
   "property": "C65",
   "status": "proved",
   "theorems": [
    "integer_write_exact",
    "integer_fill_exact",
    "integer_write_back",
    "integer_write_holds",
    "integer_round_trip",
    "integer_buffer_size_exact"
   ],
   "note": ""
  },
  {
   "property": "C66",
   "status": "partial",
   "theorems": [
    "integer_comp_split",
    "integer_comp_assemble_partial",
    "integer_comp_assemble_undefined",
    "integer_comp_assemble_refuted"
   ],
   "note": "Splitting is proved for all formats. Assembly is undefined behaviour exactly if a component is a single word as wide as the unpacked type (e.g. IntegerPixelFormat_Lum_32), and proved in all other cases."
  },
  {
   "property": "C67",
   "status": "proved",
   "theorems": [
    "subword_read_exact"
   ],
   "note": ""
  },
  {
   "property": "C68",
   "status": "proved",
   "theorems": [
    "subword_write_exact",
    "subword_fill_exact",
    "subword_round_trip",
    "subword_write_back",
    "subword_buffer_size_exact"
   ],
   "note": ""
  },
  {
   "property": "C69",
   "status": "partial",
   "theorems": [
    "indexed_read_exact_partial",
    "indexed_read_refuted"
   ],
   "note": "Proved for formats with at most 8 bits per pixel. The static assertions admit more bits, and then upper bits of the index are lost (indexed_read_refuted)."
  },
  {
   "property": "C70",
   "status": "partial",
   "theorems": [
    "indexed_write_exact_partial",
    "indexed_fill_exact_partial",
    "indexed_write_refuted"
   ],
   "note": "Proved for indexes that fit in bits_per_pixel bits. A larger index is not cut down in set_pixel() and changes neighbouring pixels (indexed_write_refuted)."
  },
  {
   "property": "C71",
   "status": "proved",
   "theorems": [
    "indexed_buffer_size_exact"
   ],
   "note": ""
  },
  {
   "property": "C72",
   "status": "proved",
   "theorems": [
    "kdtree_sort_exact"
   ],
   "note": ""
  },
  {
   "property": "C73",
   "status": "proved",
   "theorems": [
    "kdtree_find_exact",
    "kdtree_sort_find_exact",
    "kdtree_find_negative_max_dist_refuted"
   ],
   "note": "Stated with squared distances. A negative maximum distance acts like its absolute value (kdtree_find_negative_max_dist_refuted)."
  },
  {
   "property": "C74",
   "status": "proved",
   "theorems": [
    "nfa_exact"
   ],
   "note": ""
  },
  {
   "property": "C75",
   "status": "proved",
   "theorems": [
    "matcher_construction_exact",
    "positional_message_refuted"
   ],
   "note": "The symbol numbers in the message about positional ambiguity are offset by the number of NFA positions of the prior patterns (positional_message_refuted)."
  },
  {
   "property": "C76",
   "status": "proved",
   "theorems": [
    "matcher_run_exact"
   ],
   "note": ""
  },
  {
   "property": "C77",
   "status": "proved",
   "theorems": [
    "matcher_backtrack_exact",
    "backtrack_leftmost_refuted"
   ],
   "note": "A comment in the code speaks of the left-most path. The match is the least one when compared from the right, not from the left (backtrack_leftmost_refuted)."
  },
  {
   "property": "C78",
   "status": "proved",
   "theorems": [
    "record_exact"
   ],
   "note": ""
  },
  {
   "property": "C79",
   "status": "proved",
   "theorems": [
    "ambiguity_exact",
    "value_unique",
    "record_rejects_ambiguous",
    "structural_ambiguity_code_refuted"
   ],
   "note": "The error code is bad_pattern_syntax; the documented error code structural_ambiguity is never raised (structural_ambiguity_code_refuted)."
  },
  {
   "property": "C80",
   "status": "proved",
   "theorems": [
    "token_exact",
    "tokens_unique"
   ],
   "note": ""
  },
  {
   "property": "C81",
   "status": "proved",
   "theorems": [
    "parse_pattern_exact",
    "pattern_means_unique",
    "syntax_flaw_excludes",
    "parse_unique",
    "parse_option_forms_exact",
    "forms_mean_unique",
    "parse_option_arg_exact",
    "arg_means_unique"
   ],
   "note": ""
  },
  {
   "property": "C82",
   "status": "proved",
   "theorems": [
    "add_option_exact"
   ],
   "note": "A form that is given twice in one declaration is not reported (same_form_twice_ex)."
  },
  {
   "property": "C83",
   "status": "proved",
   "theorems": [
    "reading_exact"
   ],
   "note": ""
  },
  {
   "property": "C84",
   "status": "proved",
   "theorems": [
    "process_exact"
   ],
   "note": "Actions that cannot do without an argument are excluded for options that require none (see C89)."
  },
  {
   "property": "C85",
   "status": "proved",
   "theorems": [
    "outcome_exact"
   ],
   "note": ""
  },
  {
   "property": "C86",
   "status": "proved",
   "theorems": [
    "options_exact"
   ],
   "note": ""
  },
  {
   "property": "C87",
   "status": "proved",
   "theorems": [
    "build_exact",
    "build_succeeds",
    "options_mean_unique"
   ],
   "note": "Whether a function fits a pattern is a parameter."
  },
  {
   "property": "C88",
   "status": "proved",
   "theorems": [
    "built_usable",
    "names_exact"
   ],
   "note": ""
  },
  {
   "property": "C89",
   "status": "proved",
   "theorems": [
    "command_line_exact",
    "actions_fit_refuted",
    "message_unused"
   ],
   "note": ""
  },
  {
   "property": "C90",
   "status": "proved",
   "theorems": [
    "descriptions_exact"
   ],
   "note": ""
  },
  {
   "property": "C91",
   "status": "proved",
   "theorems": [
    "invoke_exact"
   ],
   "note": "That a function fits is in the sense of what can be parsed; see C92."
  },
  {
   "property": "C92",
   "status": "partial",
   "theorems": [
    "check_exact",
    "func_decl_mean",
    "func_decls_build",
    "checked_works_partial",
    "size_of_alternatives_refuted"
   ],
   "note": "The check is exact. That a function that passes the check can be called is false (refuted) if std::size_t stands for alternatives; it is proved for patterns without alternatives of that kind."
  },
  {
   "property": "C93",
   "status": "proved",
   "theorems": [
    "run_exact"
   ],
   "note": "That there is at least one argument is a hypothesis of run_exact; it is ensured by set_args_exact (C95)."
  },
  {
   "property": "C94",
   "status": "proved",
   "theorems": [
    "construct_exact",
    "construct_succeeds"
   ],
   "note": ""
  },
  {
   "property": "C95",
   "status": "proved",
   "theorems": [
    "set_args_exact",
    "set_args_refuted"
   ],
   "note": "That no assertion fails is refuted (set_args_refuted); set_args_exact says exactly when one does."
  },
  {
   "property": "C96",
   "status": "proved",
   "theorems": [
    "get_errors_exact"
   ],
   "note": ""
  },
  {
   "property": "C97",
   "status": "proved",
   "theorems": [
    "template_exact",
    "define_exact"
   ],
   "note": ""
  },
  {
   "property": "C98",
   "status": "proved",
   "theorems": [
    "format_as_list_exact",
    "format_as_list_refuted"
   ],
   "note": "Spaces inside of brackets are added also when there are no elements (format_as_list_refuted)."
  },
  {
   "property": "C99",
   "status": "proved",
   "theorems": [
    "parse_list_exact",
    "parse_list_v_exact",
    "parse_list_a_exact",
    "parse_empty_exact",
    "parse_empty_refuted",
    "parse_list_a_refuted"
   ],
   "note": "Bracketed empty sequences cannot be parsed (parse_empty_refuted); the minimum number of elements is not enforced when parsing (parse_list_a_refuted)."
  }
 ]
}