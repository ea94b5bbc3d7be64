# Formal model of kspangsege/archon — design

The project is C++20.  The model lives in `rocq/theories` (Coq 8.16.1, standard
library only).  Every definition in a `*Model.v` file cites the file and lines
in /repo it models.  `*Spec.v` files hold the independent specification used to
state the theorems, `*Proofs.v` the lemmas, `*Props.v` the theorems themselves,
each followed by a concrete non-trivial instance and `Print Assumptions`.

## Trusted base

* Coq's kernel (including `vm_compute`).
* What `Print Assumptions` lists for each theorem: see the table at the end.
* The transcription of the C++ into Gallina, stated per definition.  No C++ is
  executed or extracted.

## Modelling conventions

* Builtin integers are elements of `Z` together with a type descriptor (width,
  signedness).  Every arithmetic operation that C++ performs in an unsigned
  type is followed by an explicit reduction modulo 2^width; integer promotion
  is modelled where it matters.  Signed overflow and shifts by too much are a
  distinct outcome (`None`), not assumed away.
* Raw memory is a list of `option` slots (`None` = uninitialised); reading,
  writing or destroying the wrong kind of slot, or any slot outside the
  allocation, is a distinct outcome.
* Loops become structurally recursive functions or fuel recursion; fuel
  exhaustion is a distinct outcome and is proved unreachable.
* Exceptions/`bool` failure returns become `option`/sum values.

## Plan per property

| id | model | proof idea |
|----|-------|------------|
| C01–C04, C08 | `Int*`: checked integer functions of core/integer.hpp, generic in width/signedness | case split on signedness, `lia`/`nia` on modular arithmetic; C08 refuted by witness plus partial theorem |
| C05 | Newton iteration of `int_sqrt` | invariant r >= floor sqrt, strict decrease |
| C06, C07 | division helpers and binary search for msb | division lemmas; invariant on halving steps |
| C09, C10 | `SuperInt*`: pair (sign bit, N-bit word) | value function, generic N |
| C11, C12 | `MulPrec*`: list of subparts, schoolbook multiplication, Algorithm D | positional value of digit lists, loop invariants |
| C13–C16 | `Base64*`: encoder and decoder state machines | invariant relating state to bits already emitted; C14 refuted by witness |
| C17–C22 | `Unicode*`: the six incremental loops and wrappers | relation to a declarative per-code-point encoding; C21 refuted by witness |
| C23, C24 | `Deque*`: circular buffer of slots | refinement to lists, C24 refuted by witness for the wrapped cases, partial for the rest |
| C25 | `Vector*`: slots memory | refinement to lists; `resize` refuted by witness |
| C26–C28 | `Buffer*`, growth policy | refinement; C27 refuted by witness |
| C29, C30 | `FlatMap*`: binary searches over sorted lists | invariant: sorted; search = partition point |
| C31 | `LitHash*` | chain invariant per bucket |
| C32, C33 | `RangeMap*` | pointwise semantics of a sorted list of ranges |
| C34 | `FrozenSets*` | history invariant; `unite` refuted by witness, partial for non-equal sets |
| C35 | `StringMatcher*` | followpos/subset construction versus declarative matching |
| C36 | `Fnv*` | congruence modulo 2^32; narrow negative integers refuted by witness |
| C37 | `Timestamp*` | modular arithmetic |
| C38 | `RectPack*` | invariant: free regions and placed rectangles pairwise separated |
| C39 | `IntText*` | positional notation |
| C40, C41 | `WordWrap*`: the state machine of wrap() | C40: the loop fills each line; C41: invariant of cache, results and the linked list of breakpoints, every step of the search keeps a lower bound; induction on the remaining words |
| C42 | `Quote*` | independent C-string-literal reader inverts the quoter |
| C43 | `IntText*`: digit counting | positional notation |
| C44, C45 | `Base64*`: decoder | chunks: the state after each chunk is that of the whole; C45 refuted by witness |
| C46, C47 | `Unicode*` | exact behaviour for wide units; C46, C47 refuted by witness |
| C48, C49 | `RectPack*`: suggest_bin_width, repeated pack | exact value; refuted by witness |
| C50 | `WordWrap*`: greedy | greedy stays ahead of any other layout |
| C51 | `Quote*`: smart forms | both forms are specified by the documentation; the incremental decision is compared with it |
| C52 | `StringMatcher*` | the scan of a state meets two final positions exactly when the string leading to it is matched by two patterns |
| C53 | `IntBitCopy*` | bit-by-bit invariant of the scatter and gather loops |
| C54 | `BitMedium*`: pack, unpack | typed arithmetic of the model, two's complement lemmas of `Int*` and C53 |
| C55 | `BitMedium*`: change_bit_width | loop invariant: the ratio of the number to the maximum is kept; bits by periodicity of v / (2^n - 1) |
| C56 | `BitMedium*`: int_to_int_a | from the exactness of int_div_round_half_down (C06) |
| C57 | `BitMedium*`: int_to_int | composition of C54 and C55 in the common type |
| C58 | `PixelBox*` | boxes as sets of pixels, case analysis by dimension |
| C59 | `PixelBox*` | as C58 |
| C60 | `PackedPixel*` | `valid_bit_fields` etc. as loops over the list of fields; layout stated with `total` of the fields that follow |
| C61 | `PixelBuf*`, `PackedPixel*` | buffer as list of words, pointers as offsets; invariant on the bits of the assembled compound; the loops over areas are proved once for any pixel type (`PixelBufProofs2`) and used by several formats |
| C62 | `PixelBuf*`, `PackedPixel*` | as C61; `lor` into a field that is zero |
| C63 | `PackedPixel*` | from exactness of `try_int_mul` (C01) |
| C64 | `IntegerPixel*`, using `PixelBuf*` (loops over pixels) and `BitMedium*` | words of a component as digits; the loops as for C61; the order of channels as for C61 |
| C65 | `IntegerPixel*` | splitting into digits at distinct addresses, loops as for C62; round trip from shrink-after-expand of C57 |
| C66 | `IntegerPixel*` | invariant: the first i digits have been assembled; refuted for single words as wide as the unpacked type |
| C67 | `SubwordPixel*`, using `Run*` (rows of slots in compounds) | general theorem about the loops over first, middle and last compounds of a row; a pixel is a digit of the word, a channel a field of the pixel |
| C68 | `SubwordPixel*`, `Run*` | replacing a digit (bit by bit) leaves the other digits alone; loops by induction on rows and words |
| C69 | `SubwordPixel*` (indexed part), `Run*`, compounds of words as in C61 | as C67; refuted for more than 8 bits per pixel |
| C70 | `SubwordPixel*` (indexed part), `Run*` | as C68; refuted for indexes with too many bits |
| C71 | `SubwordPixel*` (indexed part) | exactness of `try_int_mul` and `int_div_round_up` |
| C72 | `Kdtree*` (sort part) | strong induction over the segment handled by one run of the loop, with the part of the stack below it unchanged; stack bound size * 2^depth < 2^max_levels |
| C73 | `Kdtree*` (find part) | same induction; a skipped part is at least as far away as the splitting plane |
| C74 | `CliPatternModel`, `CliPatternSpec`, `CliGlushkov`, `CliTreeProofs`, `CliBuilderProofs`, `CliNfa*` | position sets, position set ranges, frames and the iterative traversal of the pattern structure as in the builder; the traversal is related to first/last/follow of a regular expression over positions (Glushkov), whose chains are proved to be its words |
| C75 | `CliMatcherModel`, `CliMatcherSpec`, `CliReachProofs`, `CliDfaProofs*`, `CliMatcher*` | subset construction with frozen position sets, state map and target sets as in the constructor; invariant: each state is the set of positions reached by some sequence, all sets differ, finalized states have all their transitions; defects are translated to conflicts within a set |
| C76 | same | every run is in the state whose set is what the consumed symbols reach; every position leads on to the end of its pattern |
| C77 | same | induction over the history; the prior position is the least one in the prior state that leads on |
| C78 | `CliSpecModel`, `CliRecorderModel`, `CliRecorderSpec`, `CliSpecProofs`, `CliRecorderProofs*` | the loop with its stack is turned into a recursion over the syntax tree, then induction with two contexts: an operand in a sequence, and a branch in alternatives |
| C79 | `CliAmbigProofs`, `CliValueProofs`, `CliRecorderProps` | values are given by inductive relations; unique decomposition by induction over the pattern with a condition on what follows; the other direction by a witness for each rule, carried outwards |
| C80 | `CliParserModel`, `CliParserSpec`, `CliLexerProofs`, `CliParserProps` | lexical structure as an inductive relation between type, lexeme and what follows; each loop yields the maximal word, which is unique |
| C81 | `CliParserProofs`, `CliParserProofs2`, `CliParserProofs3`, `CliParserProps` | grammar as left-recursive inductive relations over tokens; soundness by induction over fuel, completeness by induction over derivations with a condition on the token that follows, fuel bounded by the length of the string; composed with `record_exact` |
| C82 | `CliSpecModel`, `CliOptionSpec`, `CliOptionProps` | the maps as functions before and after; bits of the attributes by bitwise extensionality |
| C83 | `CliProcessorModel`, `CliProcessorSpec`, `CliProcessorProofs`, `CliProcessorProps` | reading as an inductive relation, independent of patterns and state; total and functional |
| C84 | `CliProcessorProofs2`, `CliProcessorProofs3`, `CliProcessorProps` | progress relation over what was read, stated with the matches of C76; the loop over characters simulates it, with fuel bounded by the lengths of the arguments |
| C85 | `CliProcessorProofs4`, `CliProcessorProps` | induction over the progress relation |
| C86 | `CliProcessorProofs4`, `CliProcessorProps` | occurrences hold positions; they recover what was read |
| C87 | `CliBuildModel`, `CliBuildSpec`, `CliBuildProofs`, `CliBuildProofs3`, `CliBuildProps` | meaning of declarations in terms of the grammar (C81); invariant over options, then over patterns |
| C88 | `CliBuildProofs2`, `CliBuildProps` | what is registered, as a relation between declarations, trees and maps, kept by each step |
| C89 | `CliProcessorProps` | composition of C84 - C88; the counterexample by computation |
| C90 | `CliArgsModel`, `CliArgsSpec`, `CliArgsProofs`, `CliArgsProps` | the loop with its explicit stack simulates the recursion over the value; which positions are ahead decides at each element (uses C79) |
| C91 | `CliArgsProofs2`, `CliArgsProofs3`, `CliArgsProps` | mutual induction over types; the descriptions of a sequence are those of its parameters |
| C92 | `CliArgsProofs2`, `CliArgsProofs3`, `CliArgsProps` | mutual induction over types; the counterexample by computation |
| C93 | `CliRunModel`, `CliRunSpec`, `CliRunProofs`, `CliRunProps` | composition of C82, C79, C90, and C91 at each level; the errors by uniqueness of stable sorting |
| C94 | `CliRunModel`, `CliRunProps` | composition of C85, C88, C89, and C92 |
| C95 | `CliRootModel`, `CliRootSpec`, `CliRootProofs`, `CliRootProps` | invariant of the loop: what has been taken over, and what is in the buffer; groups are determined by the arguments |
| C96 | `CliRootModel`, `CliRootProps` | induction over the errors |
| C97 | `StrTemplModel`, `StrTemplSpec`, `StrTemplProofs`, `StrTemplProps` | induction over the rounds of the loop; what remains to be substituted expands to the remaining parts, from any point at or before the current position; the parts are unique by induction |
| C98 | `AsListModel`, `AsListSpec`, `AsListProofs`, `AsListProps` | induction over the sequence |
| C99 | same | induction over the sequence (soundness) and over the derivation of the list syntax (completeness); trimming of spaces is characterised separately |
| C100 | same | what is written is in the list syntax, then C99; the number of elements left out is by induction on the index |
| C101 | `NewlineModel`: `newline_codec.cpp` | induction on the data; what is read is an inductive relation between bytes and characters |
| C102 | `WinFileModel`: `prim_text_file_impl.cpp` with Windows newlines, over a file that fails and delivers as an environment decides | simulation of a file with a logical file pointer and a read-ahead pointer, by an invariant for each of the modes (neutral, reading, writing) |
| C103 | same | from C102; witnesses for the refutations |
| C104 | `FalloffModel`: `Reader::subdivide` | invariants of the three loops; a partition is stated by positions |
| C105 | `FalloffModel`: `Reader` with falloff, over abstract pixels and canvases that are functions | each step extends the set of pixels known to be right (`good`); the quadrants and the expansions are composed from such steps |
| C106 | same | induction over the boxes of C104 |
| C107 | `FalloffModel`: `Writer::fill`, `put_image`, `put_block` and `Box::clip` | clipping as in C105, then induction over the boxes of C104; witness for the refutation |
| C108 | `IterRepeatModel`: `Iter::repeat` and the functions it calls | invariant of the loops over the set of pixels known to be right; periodicity of the target |
| C109 | `BufFmtModel`: `core::try_get_byte_order`, `BufferFormat::try_get_byte_order` | a platform is a permutation of bytes for each type; induction over the loop |
| C110 | `BufFmtModel`: `is_valid` of the three kinds of formats, `valid_bit_fields` | case analysis, induction over bit fields |
| C111 | `BufFmtModel`: `try_cast_to(IntegerFormat&)` | values of channels as numbers with digits in nested bases; witnesses for the refutations |
| C112 | `BufFmtModel`: `try_cast_to(SubwordFormat&)` | as C111 |
| C113 | `BufFmtModel`: `try_match_save_format` | C111 and C112 composed with a specification of the row layout of libpng |
| C114 | `StableSortModel` | loop invariants for an insertion sort, which is then shown to be a stable sort |
| C115 | `CssModel`: table, maps, `find_by_name`, `find_by_value` | C114, and correctness of a lookup by `std::lower_bound` in a stably sorted map |
| C116 | `CssModel`: `parse_css` and what it calls | equivalence with an independent grammar (`css_text`) |
| C117 | `CssModel`: `format` and what it calls | exact digits from C39; the text satisfies the grammar of C116 |
| C118 | `CssModel`: `write_color`, `read_color` | C115, C116 and C117 composed |
| C119 | `CssModel`: `named_colors` | comparison with the table of CSS Level 3 in `CssSpec`; refuted for yellowgreen and for upper case |
| C120 | `PalMapModel`: `read_palette`, with `get_block_a` as a loop over pixels | loop invariant: colors read so far, rest of the array |
| C121 | `PalMapModel`: constructors, `convert`, `setup_kdtree`, `reverse_lookup` | C72 and C73 with the components of colors as coordinates |
| C122 | `PalMapModel`: `move_from` | refuted by a palette of three colors; equal strides otherwise |
| C123 | `MatrixModel`: `decompose` | loop invariants on matrices as functions; A = P(LU + rest) after each column; the scaled column is at most 1 since the pivot is largest |
| C124 | `MatrixModel`: `try_upper_tri_inv`, `try_lower_tri_inv` | column by column: product with the original leading block is the identity; lower by transposition |
| C125 | `MatrixModel`: `try_inv`, `inv` | C123, C124, and the two loops that multiply by the inverses of L and P; a zero in U gives a vector in the kernel |
| C126 | `MatrixModel`: `det` | determinant (expansion along the first column) is multilinear and alternating, so elimination changes at most its sign; refuted for integers |
| C127 | `MatrixModel`: `inner_mm`, `mat_div` | sums of products, associativity, C125 |
| C128 | `MemStreamModel`: `o_reset`, `o_seekoff`, `o_seekpos`, `o_seek`, `o_set_pos`, `o_view`, and `sputn` of the standard | simulation of a file given by contents and position |
| C129 | `MemStreamModel`: `i_reset`, `i_seekoff`, `i_seekpos`, `i_seek`, and the reading functions of the standard | simulation of a file given by what was read and what is left |
| C130 | `MemStreamModel`: `append`, `append_fill`, `reserve_extra`, `overflow`, `s_xsputn`, `dealloc` | invariant: memory starts with the contents, one live array at most; growth by C28; refuted for the character that equals eof |
| C131 | `ValParse*`: `do_parse` for integers over a model of the extraction operator. Proved against an inductive definition of numerals with positional value. |
| C132 | Same model. False in general (`parse_untouched_refuted`); holds when an unsigned type meets a leading dash. |
| C133 | `SeedSeq*`: `generate()` on an array with checked accesses and wrapping index arithmetic, against the definition in the C++ standard stated for functions of the index with arithmetic modulo 2^32. Needed on the way: the index of the previous element is wrong for k = 0 unless n is a power of 2, but all elements are equal then. |
| C134 | Same model, `size()`, `no_copy_a()`, `param()`. |
| C135 | `RandInt*`: addition, subtraction and comparison of arrays of parts, and the loop over draws; the draws are an input. |
| C136 | Same model; uniqueness of positional notation. |
| C137 | Same model; ceiling of a division. |
| C138 | `HexDump*`: `do_hex_dump` with its labels as functions over the remaining data, `size_t` of any width; induction over the data, digits by C39. |
| C139 | Same model; corollary of C138 and a witness. |
| C140 | Same model; fixed-width numerals and uniqueness of digits. |
| C141 | `RandomSeed*`: stream output operator as a function from seed to text; base 62 numerals by induction over digits. |
| C142 | Same model; stream input operator as a function over the text that is in the stream, with what is left of it as part of the result; induction over the text, uniqueness of the split into blocks. |
| C143 | Same model; corollary of C141 and C142, and a witness. |
| C144 | `WildFilter*`: the string splitter, character by character; the words are characterised by an inductive relation; induction over that. |
| C145 | Same model, on top of the model of string matchers (C35, C52); induction over the words with the patterns in the builder as invariant, and a witness. |
| C146 | `TestRun*`: selection, repetition, number of threads, and the threads as a transition system where a step is what a thread does while it has the mutex; an interleaving is a list of thread indexes; invariant over reachable states. |
| C147 | Same model and invariant; the part of the trace of calls to the reporter that belongs to a thread. |
| C148 | Same; and a witness. |
| C149 | Same model; induction over the list of tests and over the repetitions. |
| C150 | Same model; the executions begin in the order of the list of concurrent executions, then of the other one; and a witness. |
| C151 | Same; the counters of the root context are the sum over threads that have been finalized; and a witness for every number of threads. |
| C152 | Same model; a measure that every step decreases by one. |
| C153 | `FiniteSequenceMemory` as a ring buffer in an array with checked accesses; invariant that relates the buffer to the last pushes since the last clear, by induction over the calls |
| C154 | `FiniteCurveMemory` on top of it; the sampled values are described by a recursion over the history (compare slot with the predecessor), the result by an explicit case distinction (`curve_value`); loop invariant for the binary search |
| C155 | same model; gap between slot indices bounds the gap between times; counterexample with the constants of the trackball |
| C156 | event handling of `VirtualTrackball` as a state machine with indeterminate members as None; invariant that relates the state to the current grab |
| C157 | same model; counterexample with two events in one millisecond |
| C158, C159 | the casts with explicit promotions, on the typed arithmetic of `CInt`; comparison of non-negative values of any two types is exact; case distinction on signedness |
| C160 | dispatch to C08, C158, C159 and the plain cast (C05) |
| C161, C162 | the loop over the fields and the loop over the rest of the words on the splitter of `WildFilterModel`, positions as lengths of what is left; the words of a line are characterised by `word_at` (maximal runs without delimiter), the outcomes by an inductive relation that is shown to be the graph of the function |
| C163 | `parse_value()` for code points on the integer parser of `IntText*`, with the conversions of `std::char_traits` as wraps; `parse_exact` and `format_parse_round_trip` give both directions |
| C164 | the whole of `load_spec()` on the text parser of `TextParse*`, states as records; the file format is specified by relations on lines (`FontSpecSpec`); induction over the lines; uniqueness from uniqueness of words and numerals. Refuted for negative sizes by a concrete file |
| C165 | the glyph map as list of entries; no duplicate keys by C163's injectivity |
| C166, C167 | on the box arithmetic of `PixelBoxModel`, with the invariants from C164 |
| C168 | step by step simulation of an abstract view (mode, contents, logical position, number of characters read ahead); histories of any length |
| C169, C170 | the same view, with a relation that says which part of the buffer is read ahead or yet to be written; generic in the implementation underneath (anything that conforms) |
| C171 | counterexamples by computation; the rest from C169 and C170 |
| C172 - C174 | a simpler view (contents, position, whether everything is in the actual file), again by simulation, generic in the implementation underneath |
| C175, C176 | simulation of a view that is a function of the log of events; balance by induction on the log |
| C177, C178 | counterexamples by computation |
| C179, C180 | invariants over the log of events; counterexamples by computation |
| C181 - C184 | identities in an arbitrary ordered field, by its ring and field decision procedures |
| C185, C186 | the same; square root and the trigonometric functions are parameters with pointwise hypotheses |
| C187 - C191 | the trackball on top of the grab of C156 and the rotations of C186; invariant over all sequences of calls; laws of the library functions as hypotheses, proved for the real numbers |
| C192 - C193 | Histograms (`Histogram*`): rational values, formatted texts as arbitrary functions. The scaled value reaches i exactly when the value reaches boundary i; induction over the values; the ranges of texts in the formatter remain valid as it grows (induction over the bins). |
| C194 - C196 | Perlin noise (`Perlin*`): rational numbers, any number of dimensions. The loop of jumps computes a nested interpolation (induction over the number of completed dimensions); expansion into a sum over corners; comparison of the nested interpolations for two grid modules; Jensen's and Cauchy-Schwarz's inequalities for the amplitude. |
| C197 - C199 | Enumerations with named values (`Enum*`): the two maps as ordered lists searched by means of the comparison object; strict total order on (upper-cased) names; induction over the table, and over the characters of the stream. |
| C200 - C202 | Comparison and conversion between floating-point and integer values (`Flt*`): finite values as integers in units of the smallest positive value; any precision, range, and integer type; any conversion from integer that gives an adjacent value. Follows the proof sketched in the source for the limits; the rest by cases on sign and range. |
| C203 - C204 | The registry of image file formats (`FmtReg*`): a list of formats, a flat map, and two flat multimaps (functions of `FlatMapModel`), keyed by strings in lexicographic order; `was_inserted` is what the code computes, namely whether a pointer is not null. Invariant over registrations: each multimap holds the bag of keys and indexes in order of insertion, and the map holds the first one for each identifier. C204 in full is false: registration of a taken identifier does not throw. |
| C205 - C207 | Timestamp formatting (`Stamp*`): the scan of the format by index, as in the code, and `std::time_put::put()` as a function of what the facet generates for each conversion (a parameter); digits by the integer formatter of `IntTextModel`; rounding by the clock is a parameter. Formats in the specification are sequences of tokens. Induction on the tokens, generalized over the position of the scan. C206 in full is false: every seconds field gets the fraction. |
| C208 - C210 | Rewindable sources and format detection (`Load*`): a recognizer is a tree of read operations whose continuation depends on the bytes delivered; the underlying source splits its contents and fails as directed by a list. The specification says which results a recognizer may have when it reads the data from a position. Invariant: the buffer followed by the unread part is the data, and the offset is the position; induction on the recognizer and on the list of formats. |
| C211 - C214 | Loggers and log level limits (`LogLim*`): limits and sinks as trees that refer to a store of limit objects; programs are lists of commands that construct loggers from each other. The specification assigns to each channel a list of routes (destination, prefix, and limits passed). Simulation by induction on the program; a limit of a channel covers its sink. C211 in full is false when the pattern of a limiting logger leaves out the selected channel, and C213 is false since the assertion is inverted. |
| C215 | Lines of logged messages (`LogText*`): the loop that assembles the output, by positions in the message as in the code. The specification has the message as lines joined by newlines; the decomposition is shown to exist and to be unique. Induction on the lines. |
| C216 | Stride iterators (`Stride*`): each operator as arithmetic on the position of the underlying iterator, with the conversions to `std::size_t` that come from the type of the stride. The underlying iterator is a pointer or of class type. Modular arithmetic. |
| C217 | As C216. |
| C218 | Elapsed time of a timer (`Timer*`): the branches of the code, with the checked subtraction from `IntModel.v` (`try_int_sub`). Case analysis, by `checked_sub_exact`. |
| C219 | Image blocks (`Block*`): construction, with the checked multiplication and cast from `IntModel.v`, by `checked_mul_exact` and `checked_cast_exact`. |
| C220 | As C219. Strides, pointer arithmetic with bounds, and the copying of components. The specification has the buffer as a concatenation of items, shown to exist for every buffer that is accepted. |
| C221 | Text attributes of terminals (`Term*`): the text that is generated, piece by piece as in the code. The specification is a terminal that interprets the characters of an SGR sequence. An invariant says what the text so far does to the terminal; no enumeration of attributes. |
| C222 | Packing by multiplication (`MultField*`): construction, packing, and unpacking, with `std::sort` as a parameter that is assumed to sort; and `PermMultFieldSpec`, which maps compound values to color indexes. The condition on the multipliers does not refer to the order. Induction on the order; what is left of the compound value is the contribution of the remaining fields. |
| C223 | Pixels as words (`MultWords*`): splitting of compound values into words, assembly, and the place of a pixel in the buffer, on top of `MultField*`. The words are specified by division. Induction on the number of words, bit by bit for assembly. Not tested against wrong variants of the model. |

## Status

| id | property | status | theorems |
|----|----------|--------|----------|
| C01 | Checked add/sub/mul are exact | proved | `checked_add_exact`, `checked_sub_exact`, `checked_mul_exact` |
| C02 | Mixed-type integer comparison is mathematical comparison | proved | `mixed_comparison_exact` |
| C03 | Checked integer casts preserve value or fail | proved | `checked_cast_exact`, `clamped_cast_nearest`, `clamped_cast_bounds` |
| C04 | Checked power and arithmetic left shift are exact | proved | `checked_pow_exact`, `checked_pow_negative_exponent`, `checked_shift_left_exact` |
| C05 | Integer square root is the floor square root | proved | `int_sqrt_floor` |
| C06 | Rounding division and periodic modulus | proved | `div_round_up_ceiling`, `div_round_half_down_nearest`, `periodic_mod_unique`, `periodic_mod_negative_divisor` |
| C07 | Bit position queries | proved | `find_msb_pos_log2`, `find_msb_pos_zero`, `find_msb_pos_negative`, `find_msb_pos_fallback_agrees`, `is_power_of_two_exact`, `mask_low_bits` |
| C08 | Width-changing two's complement casts preserve the represented value | partial | `twos_compl_cast_refuted`, `twos_compl_cast_partial`, `twos_compl_cast_narrow_behaviour` |
| C09 | SuperInt arithmetic is exact modulo its width | proved | `superint_ring_ops`, `superint_bitwise`, `superint_shifts`, `superint_compare`, `superint_conversions`, `superint_extremes` |
| C10 | SuperInt overflow detection is exact | proved | `superint_overflow_detection`, `superint_division` |
| C11 | MulPrecInt ring operations and comparison | proved | `mulprec_value_bijection`, `mulprec_add_exact`, `mulprec_sub_exact`, `mulprec_mul_exact`, `mulprec_neg_exact`, `mulprec_compl_exact`, `mulprec_bitwise_exact`, `mulprec_compare_exact`, `mulprec_shift_exact`, `mulprec_find_msb_pos_exact`, `mulprec_limits_exact` |
| C12 | MulPrecInt division | proved | `mulprec_divmod_exact`, `mulprec_div_exact`, `mulprec_divmod_zero` |
| C13 | Base64 round trip without padding | proved | `base64_round_trip`, `base64_encode_exact`, `base64_decode_exact` |
| C14 | Base64 round trip with padding | partial | `base64_padded_round_trip_refuted`, `base64_padding_rejected`, `base64_padded_round_trip_partial` |
| C15 | Base64 output size prediction | proved | `base64_encode_size`, `base64_encode_fits`, `base64_decode_size`, `base64_decode_fits` |
| C16 | Incremental base64 encoding is independent of chunking | proved | `base64_encode_chunks` |
| C17 | UTF-8 round trip | proved | `utf8_round_trip`, `unicode_strict_exact` |
| C18 | UTF-8 decoding accepts exactly the well-formed sequences | proved | `utf8_decode_exact`, `utf8_decode_accepts` |
| C19 | UTF-16 round trip and well-formedness | proved | `utf16_round_trip`, `utf16_decode_exact` |
| C20 | Direct transcoding equals decode followed by encode | proved | `utf8_to_utf16_exact`, `utf16_to_utf8_exact` |
| C21 | Lenient transcoding keeps the valid text | partial | `unicode_lenient_partial`, `unicode_lenient_refuted` |
| C22 | Incremental Unicode conversion can be resumed anywhere | proved | `unicode_resumption`, `unicode_decomposition` |
| C23 | Deque behaves as a sequence | proved | `deque_step`, `deque_history`, `deque_exception_safe`, `deque_capacity`, `deque_iterators`, `deque_copy_move`, `deque_self_assign_empties`, `deque_self_assign_refuted` |
| C24 | Deque::erase removes exactly the given range | partial | `deque_erase_partial`, `deque_erase_wrong`, `deque_erase_refuted` |
| C25 | Vector behaves as a sequence | partial | `vector_history_partial`, `vector_step_partial`, `vector_exception_safe`, `vector_no_realloc`, `vector_capacity`, `vector_move`, `vector_resize_overrun`, `vector_resize_refuted` |
| C26 | Buffer growth and append/prepend | proved | `buffer_append_exact`, `buffer_append_a_exact`, `buffer_prepend_exact`, `buffer_prepend_a_exact`, `buffer_append_history`, `buffer_prepend_history`, `buffer_assign_exact`, `buffer_reserve_exact` |
| C27 | Buffer::at rejects every index outside the buffer | partial | `buffer_at_refuted`, `buffer_at_partial` |
| C28 | Buffer growth policy | proved | `growth_policy` |
| C29 | FlatMap is a finite map with sorted unique keys | proved | `flat_map_history`, `flat_map_bounds` |
| C30 | FlatMultimap keeps equal keys in insertion order | proved | `flat_multimap_history`, `flat_multimap_equal_range` |
| C31 | LiteralHashMap finds exactly the given associations | proved | `literal_hash_map_find_exact`, `rev_literal_hash_map_find_exact`, `literal_hash_map_found_iff` |
| C32 | RangeMap update is pointwise | proved | `range_map_update_pointwise`, `range_map_history`, `range_map_assign` |
| C33 | RangeMap defrag changes representation only | proved | `range_map_defrag` |
| C34 | FrozenSets operations preserve existing sets | partial | `frozen_sets_history_partial`, `frozen_sets_step_partial`, `frozen_sets_unite_refuted`, `frozen_sets_unite_empty_refuted`, `frozen_sets_unite_unordered_refuted` |
| C35 | StringMatcher implements wildcard matching | proved | `string_matcher_exact`, `string_matcher_clear` |
| C36 | FNV-1a hash agrees with its definition | partial | `fnv1a_partial`, `fnv1a_bytes`, `fnv1a_narrow_negative_refuted` |
| C37 | Timestamp unwrapping recovers the true time | proved | `timestamp_unwrap_exact`, `timestamp_unwrap_exact_ticks`, `timestamp_unwrap_ticks_half_period_refuted` |
| C38 | Packed rectangles never overlap | proved | `rectpack_exact`, `rectpack_success`, `rectpack_sort_exact` |
| C39 | Integer formatting and parsing are inverse | proved | `parse_exact`, `numeral_value_unique`, `format_exact`, `format_parse_round_trip`, `format_unsupported_radix_refuted` |
| C40 | Greedy word wrapping | partial | `greedy_exact_partial`, `greedy_exact_refuted` |
| C41 | Knuth word wrapping is optimal | partial | `knuth_wrap_optimal_partial`, `knuth_wrap_success`, `knuth_wrap_optimal_refuted`, `knuth_badness_refuted` |
| C42 | Quoted strings can be read back | proved | `quoted_literal`, `quoted_limit_exact`, `quoted_prefix_alone_refuted` |
| C43 | Digit counting functions are exact | proved | `find_msd_pos_exact`, `num_digits_exact`, `max_digits_exact` |
| C44 | Incremental base64 decoding is independent of chunking | proved | `base64_decode_chunks` |
| C45 | Undecodable base64 text is reported by an exception | partial | `base64_bad_text_reported_refuted`, `base64_bad_text_reported_partial` |
| C46 | UTF-8 decoding rejects units that are not bytes | partial | `utf8_wide_units_exact`, `utf8_wide_units_refuted` |
| C47 | Incomplete input is told apart from invalid input | partial | `unicode_exhausted_partial`, `unicode_exhausted_refuted` |
| C48 | Suggested bin width is sound | partial | `suggest_bin_width_partial`, `suggest_bin_width_exact`, `suggest_bin_width_refuted`, `suggest_bin_width_unsigned_refuted` |
| C49 | A packer can be packed again | partial | `rectpack_again_refuted` |
| C50 | Greedy word wrapping uses the fewest lines | proved | `greedy_fewest_lines` |
| C51 | Choice between quoted and unquoted form | proved | `smart_quoted_choice`, `smart_quoted_unlimited`, `quote_forms_exist` |
| C52 | StringMatcher detects ambiguous patterns | proved | `string_matcher_ambiguity` |
| C53 | Bit copy between part arrays is exact | proved | `int_bit_copy_exact`, `builtin_parts_round_trip`, `cast_from_twos_compl_a_exact` |
| C54 | Packing of numbers in bit media | partial | `pack_unpack_exact`, `is_bit_medium_width`, `unpack_int_a_total`, `pack_int_total_partial`, `pack_int_total_refuted` |
| C55 | change_bit_width is exact | partial | `change_bit_width_exact_partial`, `change_bit_width_bits`, `change_bit_width_round_trip`, `change_bit_width_exact_refuted` |
| C56 | int_to_int_a rounds like flt_to_int_a | partial | `int_to_int_a_nearest`, `int_to_int_a_round_trip`, `int_to_int_a_monotone`, `int_to_int_a_rounds_partial`, `int_to_int_a_rounds_refuted` |
| C57 | Conversion between integer component representations | proved | `int_to_int_exact`, `int_to_int_round_trip` |
| C58 | Intersection and clipping of pixel boxes | partial | `box_valid_exact`, `box_empty_exact`, `box_intersects_exact_partial`, `box_clip_exact_partial`, `box_clip_exact_refuted` |
| C59 | Containment and ordering of pixel boxes | partial | `box_contains_exact_partial`, `contains_pixel_at_exact_partial`, `box_order`, `box_clip_exact_refuted` |
| C60 | Bit fields of packed pixels | proved | `valid_bit_fields_exact`, `bit_field_layout`, `bit_fields_disjoint`, `widest_bit_field_exact` |
| C61 | Reading packed pixels | proved | `packed_read_exact` |
| C62 | Writing packed pixels | proved | `packed_write_exact`, `packed_fill_exact`, `packed_round_trip`, `packed_represent_channels`, `packed_write_back` |
| C63 | Buffer size of packed pixel formats | proved | `packed_buffer_size_exact` |
| C64 | Reading from integer pixel formats | proved | `integer_read_exact` |
| C65 | Writing and filling in integer pixel formats | proved | `integer_write_exact`, `integer_fill_exact`, `integer_write_back`, `integer_write_holds`, `integer_round_trip`, `integer_buffer_size_exact` |
| C66 | Words of components of integer pixel formats | partial | `integer_comp_split`, `integer_comp_assemble_partial`, `integer_comp_assemble_undefined`, `integer_comp_assemble_refuted` |
| C67 | Reading from subword pixel formats | proved | `subword_read_exact` |
| C68 | Writing and filling in subword pixel formats | proved | `subword_write_exact`, `subword_fill_exact`, `subword_round_trip`, `subword_write_back`, `subword_buffer_size_exact` |
| C69 | Reading from indexed pixel formats | partial | `indexed_read_exact_partial`, `indexed_read_refuted` |
| C70 | Writing and filling in indexed pixel formats | partial | `indexed_write_exact_partial`, `indexed_fill_exact_partial`, `indexed_write_refuted` |
| C71 | Buffer size for indexed pixel formats | proved | `indexed_buffer_size_exact` |
| C72 | kdtree_sort() builds a balanced k-d tree for every range and every conforming nth_element | proved | `kdtree_sort_exact` |
| C73 | kdtree_find() finds a nearest point, and fails only if there is none within the maximum distance | proved | `kdtree_find_exact`, `kdtree_sort_find_exact`, `kdtree_find_negative_max_dist_refuted` |
| C74 | NFA over pattern positions accepts exactly what the patterns match | proved | `nfa_exact` |
| C75 | Construction of the pattern matcher reports exactly the disallowed defects | proved | `matcher_construction_exact`, `positional_message_refuted` |
| C76 | Pattern matcher decides matching, viability and delegation | proved | `matcher_run_exact` |
| C77 | Backtracking yields the positions of a match | proved | `matcher_backtrack_exact`, `backtrack_leftmost_refuted` |
| C78 | Recorded pattern structures are those of the syntax tree | proved | `record_exact` |
| C79 | The structural rules are broken exactly by ambiguous patterns | proved | `ambiguity_exact`, `value_unique`, `record_rejects_ambiguous`, `structural_ambiguity_code_refuted` |
| C80 | Tokens of pattern strings | proved | `token_exact`, `tokens_unique` |
| C81 | The parser accepts exactly the grammar | proved | `parse_pattern_exact`, `pattern_means_unique`, `syntax_flaw_excludes`, `parse_unique`, `parse_option_forms_exact`, `forms_mean_unique`, `parse_option_arg_exact`, `arg_means_unique` |
| C82 | Registration of options | proved | `add_option_exact` |
| C83 | Reading of command-line arguments | proved | `reading_exact` |
| C84 | Processing of command-line arguments | proved | `process_exact` |
| C85 | Outcomes of processing | proved | `outcome_exact` |
| C86 | Invocation of options | proved | `options_exact` |
| C87 | Construction of the processor | proved | `build_exact`, `build_succeeds`, `options_mean_unique` |
| C88 | What is known after construction | proved | `built_usable`, `names_exact` |
| C89 | From declarations to outcome | proved | `command_line_exact`, `actions_fit_refuted`, `message_unused` |
| C90 | Descriptions of matches | proved | `descriptions_exact` |
| C91 | Arguments of pattern functions | proved | `invoke_exact` |
| C92 | Check of pattern functions | partial | `check_exact`, `func_decl_mean`, `func_decls_build`, `checked_works_partial`, `size_of_alternatives_refuted` |
| C93 | Processing as a whole | proved | `run_exact` |
| C94 | Construction of processors | proved | `construct_exact`, `construct_succeeds` |
| C95 | Taking over of arguments | proved | `set_args_exact`, `set_args_refuted` |
| C96 | Accumulation of errors | proved | `get_errors_exact` |
| C97 | String templates | proved | `template_exact`, `define_exact` |
| C98 | Formatting as list | proved | `format_as_list_exact`, `format_as_list_refuted` |
| C99 | Parsing as list | proved | `parse_list_exact`, `parse_list_v_exact`, `parse_list_a_exact`, `parse_empty_exact`, `parse_empty_refuted`, `parse_list_a_refuted` |
| C100 | Round trip of lists | proved | `list_round_trip`, `list_v_round_trip`, `list_a_round_trip`, `list_v_round_trip_refuted` |
| C101 | Newlines of text files | proved | `reads_unique`, `newline_decode_exact`, `newline_simul_decode_exact`, `newline_encode_exact`, `newline_round_trip` |
| C102 | Text files with Windows newlines | proved | `win_file_conforms`, `win_file_reliable` |
| C103 | Progress of a failed write | proved | `win_file_write_progress`, `win_file_write_refuted`, `win_file_retry_refuted` |
| C104 | Subdivision of boxes | proved | `subdivide_exact` |
| C105 | Reading outside of the image | proved | `extension_order`, `read_falloff_exact` |
| C106 | Reading of blocks of any size | proved | `get_block_exact` |
| C107 | Clipped writing | proved | `writer_fill_exact`, `put_image_exact`, `put_block_exact`, `writer_lowest_refuted` |
| C108 | Repetition of a pattern | proved | `repeat_left_exact`, `repeat_right_exact`, `repeat_up_exact`, `repeat_down_exact`, `repeat_exact` |
| C109 | Byte order of integer types | proved | `byte_order_exact` |
| C110 | Validity of pixel formats | proved | `format_valid_exact` |
| C111 | Reinterpretation of a pixel format as an integer format | partial | `cast_to_int_partial`, `int_cast_complete`, `packed_cast_refuted`, `subword_cast_refuted` |
| C112 | Reinterpretation of a pixel format as a subword format | proved | `cast_to_sub_exact`, `sub_cast_complete` |
| C113 | Selection of PNG format that matches the pixel format | partial | `match_save_partial`, `match_save_complete`, `match_save_refuted` |
| C114 | Stable sort | proved | `stable_sort_exact`, `stable_sort_unique` |
| C115 | Lookup of named colors | proved | `find_by_name_exact`, `find_by_value_exact`, `named_colors_found` |
| C116 | Grammar of CSS colors | proved | `parse_css_exact`, `css_text_unambiguous` |
| C117 | Formatting of CSS colors | proved | `format_hex_exact`, `format_parse_css` |
| C118 | Writing and reading of colors with as_css_color | proved | `write_color_exact`, `write_read_color` |
| C119 | Color keywords of CSS Level 3 | partial | `css3_names_partial`, `named_colors_css3`, `css3_names_refuted` |
| C120 | A palette is read from an image in reading order | proved | `read_palette_exact` |
| C121 | Reverse lookup in a palette map finds a nearest color | proved | `palette_map_lookup_exact`, `palette_map_components_exact` |
| C122 | A moved palette map behaves like the original | partial | `moved_palette_map_partial`, `moved_palette_map_refuted` |
| C123 | LU decomposition is a factorization with partial pivoting | proved | `decompose_exact` |
| C124 | Inversion of triangular matrices | proved | `try_upper_tri_inv_exact`, `try_lower_tri_inv_exact` |
| C125 | Inversion of square matrices | proved | `try_inv_exact`, `inv_exact` |
| C126 | Determinant | partial | `det_exact`, `det_integer_refuted` |
| C127 | Products and quotients of matrices | proved | `inner_mm_exact`, `mat_div_exact` |
| C128 | A memory output stream is a file of limited size | proved | `memory_output_exact`, `memory_output_too_large` |
| C129 | A memory input stream is a file | proved | `memory_input_exact`, `memory_input_too_large` |
| C130 | A stream with seed memory collects what is written | partial | `seed_memory_partial`, `seed_memory_retained`, `seed_memory_refuted` |
| C131 | Integer parsing accepts exactly the numerals of the type | proved | `parse_integer_exact` |
| C132 | Failed parsing leaves the variable untouched | partial | `parse_untouched_partial`, `parse_untouched_refuted` |
| C133 | SeedSeq::generate() is std::seed_seq::generate() | proved | `seed_seq_generate_standard` |
| C134 | SeedSeq size and parameters | proved | `seed_seq_size_param` |
| C135 | rand_int() for multi-part integers is min plus the first acceptable draw | proved | `rand_int_exact` |
| C136 | rand_int() for multi-part integers is uniform on [min, max] | proved | `rand_int_uniform` |
| C137 | Number of words used for seeding | proved | `num_seed_words_exact`, `num_input_words_exact` |
| C138 | Contents of a hex dump | proved | `hex_dump_exact` |
| C139 | Size limit of a hex dump | partial | `hex_dump_size_partial`, `hex_dump_size_refuted` |
| C140 | Hex dumps tell the data | proved | `hex_dump_injective` |
| C141 | Serialized form of a random seed | proved | `random_seed_write_exact` |
| C142 | Reading of a random seed | partial | `random_seed_read_partial`, `random_seed_read_refuted` |
| C143 | Round trip of random seeds | partial | `random_seed_round_trip_partial`, `random_seed_round_trip_refuted` |
| C144 | Splitting of strings into words | proved | `for_each_word_exact` |
| C145 | Meaning of wildcard filters | partial | `wildcard_filter_partial`, `wildcard_filter_dashes`, `wildcard_filter_refuted` |
| C146 | Each test execution happens exactly once | proved | `tests_executed_once` |
| C147 | Nonconcurrent tests are executed alone | proved | `nonconcurrent_tests_alone` |
| C148 | Testing threads are reported once | partial | `threads_reported_once_partial`, `threads_reported_once_refuted` |
| C149 | Numbers of tests and executions in the summary | proved | `test_counts_exact`, `run_tests_throws` |
| C150 | Order of executions | partial | `executions_in_order_partial`, `executions_in_order_refuted` |
| C151 | Result of a test run | partial | `run_tests_result_partial`, `run_tests_result_general`, `run_tests_result_refuted` |
| C152 | Test runs make progress | proved | `execution_progress` |
| C153 | The finite sequence memory holds the most recent values in order | proved | `sequence_memory_exact`, `sequence_memory_zero` |
| C154 | The finite curve memory interpolates between the retained samples | proved | `curve_memory_exact` |
| C155 | The finite curve memory reaches back the promised time | partial | `curve_memory_reach_partial`, `curve_memory_reach_refuted`, `curve_memory_zero_span` |
| C156 | Releasing the virtual trackball uses a tracked position of the current grab | proved | `trackball_release_exact` |
| C157 | The spin of the released trackball is scaled by a finite factor | partial | `spin_divisor_partial`, `spin_divisor_refuted` |
| C158 | Checked casts to two's complement are exact | proved | `cast_to_twos_compl_exact` |
| C159 | Checked casts from two's complement are exact | proved | `cast_from_twos_compl_exact` |
| C160 | Two's complement casts between arbitrary types preserve the denoted number | partial | `try_twos_compl_cast_partial`, `try_twos_compl_cast_refuted` |
| C161 | Text parser: fields of a line | proved | `parse_line_exact` |
| C162 | Text parser: fields followed by a sequence of values | proved | `parse_line_seq_exact` |
| C163 | Code points and code point ranges as text | proved | `code_point_text_exact` |
| C164 | Fallback font: what is loaded | partial | `load_spec_partial`, `load_spec_defined_refuted` |
| C165 | Fallback font: lookup of glyphs | proved | `loaded_font_lookup` |
| C166 | Fallback font: rendering of glyphs | partial | `render_loaded_partial` |
| C167 | Fallback font: boxes of glyphs | partial | `loaded_glyphs_partial`, `loaded_glyph_sizes_refuted` |
| C168 | POSIX text file implementation conforms to its concept | proved | `posix_file_conforms` |
| C169 | Buffered text file implementation over POSIX newlines conforms to its concept | proved | `buffered_posix_conforms` |
| C170 | Buffered text file implementation over Windows newlines conforms to its concept | partial | `buffered_windows_conforms_partial`, `buffered_windows_reliable`, `buffered_windows_conforms_refuted` |
| C171 | read_until() starts at, and advances, the logical file pointer | partial | `read_until_posix_partial`, `read_until_windows_partial`, `read_until_moves_refuted`, `read_until_starts_refuted` |
| C172 | Text files with POSIX newlines do what applications expect | proved | `posix_text_file_conforms`, `posix_buffered_text_file_conforms` |
| C173 | Text files with Windows newlines do what applications expect | partial | `windows_text_file_conforms_partial`, `windows_buffered_text_file_conforms_partial`, `windows_text_file_conforms_refuted`, `windows_buffered_text_file_conforms_refuted` |
| C174 | Text files with Windows newlines work if the actual file does | proved | `windows_text_file_reliable`, `windows_buffered_text_file_reliable` |
| C175 | Key bindings call the right handlers | proved | `key_bindings_conform` |
| C176 | Calls of key handlers are balanced | proved | `key_calls_balanced`, `key_calls_finished` |
| C177 | Calls are balanced when keys are rebound | partial | `rebinding_balanced_refuted` |
| C178 | Handlers may bind keys | partial | `handlers_may_bind_refuted` |
| C179 | Combined modifier modes are never in effect | proved | `modes_are_simple` |
| C180 | The modifier mode tells which modifier keys are pressed | partial | `modifier_mode_partial`, `modifier_mode_refuted`, `modifier_mode_twin_refuted` |
| C181 | Quaternion arithmetic | proved | `quaternion_algebra` |
| C182 | Quaternion inverse and division | proved | `quaternion_inverse` |
| C183 | Conjugation by a quaternion | proved | `quaternion_conjugation` |
| C184 | Rotation matrix of a quaternion | proved | `rotation_matrix_right` |
| C185 | Quaternion from axis and angle | proved | `axis_angle_right` |
| C186 | Rotations | proved | `rotations_right`, `rotations_real` |
| C187 | The trackball is always well defined | proved | `trackball_well_defined` |
| C188 | The point on the trackball under the pointer | proved | `ball_point_right` |
| C189 | The trackball follows the pointer | partial | `drag_follows_pointer_partial`, `drag_follows_pointer_refuted` |
| C190 | The trackball does not jump | proved | `trackball_continuous` |
| C191 | The trackball goes on spinning as it was dragged | proved | `trackball_spin` |
| C192 | A histogram counts every value exactly once | partial | `histogram_counts_partial`, `histogram_counts_refuted` |
| C193 | A histogram is printed as an aligned table | partial | `histogram_table_partial`, `histogram_line_size`, `histogram_table_refuted` |
| C194 | Perlin noise is the weighted sum over the corners of a grid module | proved | `noise_right` |
| C195 | Perlin noise outside of the grid is that at the closest point of the grid | proved | `noise_total` |
| C196 | Amplitude of Perlin noise | proved | `noise_amplitude` |
| C197 | Tables of enumeration names | proved | `enum_table` |
| C198 | Input operator of enumerations | proved | `enum_read`, `clash_free_unique` |
| C199 | Enumeration values are read as they are written | partial | `enum_round_trip_partial`, `enum_round_trip_refuted` |
| C200 | Floating-point limits of integer ranges | proved | `float_limits`, `toward_zero_faithful` |
| C201 | Comparison of floating-point and integer values | partial | `float_compare_int_partial`, `float_compare_int_refuted` |
| C202 | Conversion of floating-point values to integers | proved | `float_to_int_right` |
| C203 | Image file formats are found in the registry as documented | proved | `registry_lookup` |
| C204 | Registration of an image file format adds it or throws | partial | `registry_register_partial`, `registry_register_refuted` |
| C205 | Conversion of a time point to seconds and nanoseconds | proved | `timespec_exact` |
| C206 | Subsecond digits are added to the first seconds field of a timestamp | partial | `timestamp_format_partial`, `timestamp_format_all`, `timestamp_format_refuted` |
| C207 | Default formats of timestamps | proved | `timestamp_default` |
| C208 | Rewindable sources | proved | `rewindable_source` |
| C209 | Detection of the file format of an image | proved | `load_detect` |
| C210 | Loading of an image with a specified file format | proved | `load_specified` |
| C211 | Messages reach the destinations whose limits allow them, with the right prefixes | partial | `log_routes_partial`, `log_routes_refuted` |
| C212 | Loggers know their limit | proved | `log_will_log` |
| C213 | The limit of a limiting logger can be changed when it is not fixed | partial | `log_set_limit_partial`, `log_set_limit_refuted` |
| C214 | Channels of loggers are sorted | proved | `log_channels` |
| C215 | Every line of a logged message gets the prefix | proved | `log_lines`, `log_lines_unique` |
| C216 | Stride iterators move by whole strides | partial | `stride_move_partial`, `stride_move_refuted` |
| C217 | Difference and order of stride iterators | partial | `stride_diff_partial`, `stride_diff_refuted` |
| C218 | Elapsed time of a timer is the difference between two points in time | proved | `timer_elapsed` |
| C219 | Image blocks have a buffer of the right size | proved | `block_construct`, `block_negative` |
| C220 | Items of image blocks are in row-major order | proved | `block_get_pixel`, `block_items` |
| C221 | Escape sequences change the text attributes of a terminal as intended | proved | `term_change`, `term_buffer`, `term_no_change` |
| C222 | Packing of pixel components by multiplication can be undone | proved | `mult_round_trip`, `mult_unpack_valid`, `perm_round_trip`, `perm_unpack_valid`, `isort_sorts` |
| C223 | A pixel written as words can be read back, and no other pixel changes | proved | `mult_pixel` |

Remarks on what is missing in the partial ones are in MANIFEST.json and at the theorems.

## Findings

Claims of the documentation, or of the intent of the code, that are false of the
model.  Each has a theorem with a witness (`…_refuted`) or an exact description
of the wrong behaviour.

| where | what | theorem |
|-------|------|---------|
| core/integer.hpp, cast_to_twos_compl | source types narrower than int are promoted, so that representable values are refused | `twos_compl_cast_refuted` |
| core/buffer.hpp, Buffer::at | index equal to size() is accepted | `buffer_at_refuted` |
| core/vector (resize) | constructs `size` elements instead of `size - m_size`: writes past the memory | `vector_resize_refuted` |
| core/deque.hpp, erase | wrong slots when the range or the deque wraps around | `deque_erase_refuted`, `deque_erase_wrong` |
| core/deque.hpp, operator= | self assignment empties the deque | `deque_self_assign_refuted` |
| core/frozen_sets.hpp, unite | uniting two equal sets discards existing sets; unite_unordered with the elements of an existing set overwrites it | `frozen_sets_unite_refuted`, `frozen_sets_unite_empty_refuted`, `frozen_sets_unite_unordered_refuted` |
| core/hash_fnv.hpp, add_int | negative integers of types narrower than int are hashed with an unmasked final octet | `fnv1a_narrow_negative_refuted` |
| core/integer formatter, format_a | unsupported radix with negative min_num_digits is undefined behaviour, not an exception | `format_unsupported_radix_refuted` |
| core/base64.hpp, decoder | the padding character is never consumed, so padded text is rejected | `base64_padded_round_trip_refuted` |
| core/base64.hpp, BasicDecoder::decode | assertion failure in place of an exception when the output has filled the buffer | `base64_bad_text_reported_refuted` |
| core/unicode.hpp, `_l` functions | the replacement is appended at the offset where the conversion began | `unicode_lenient_refuted` |
| core/unicode.hpp, UTF-8 decoding | truncated sequences are reported as exhausted input even if nothing can complete them; high bits of wide continuation units are ignored | `unicode_exhausted_refuted`, `utf8_wide_units_refuted` |
| util/rectangle_packer.hpp, pack | the second call without reset() fails an assertion | `rectpack_again_refuted` |
| util/rectangle_packer.hpp, suggest_bin_width | assertion failure for int when the total area needs more than 64 bits; for unsigned types the square root less the spacing may wrap to an enormous value; the spacing is added to the width twice and not to the height | `suggest_bin_width_refuted`, `suggest_bin_width_unsigned_refuted` |
| core/word_wrap.cpp | with a line of size SIZE_MAX and a saturated first or last word, words are placed where there is no room | `greedy_exact_refuted`, `knuth_wrap_optimal_refuted` |
| core/word_wrap.cpp, KnuthWrapper | with fewer than two words, get_badness() reports the badness of an earlier text; a least total badness of exactly 2^64-1 is reported as overflow | `knuth_badness_refuted` |
| core/quote.hpp, quoted with a limit | the escape sequence before a cut-off digit is written as if the digit followed, so a longer prefix would fit (harmless) | `quoted_prefix_alone_refuted` |
| image/bit_medium.hpp, pack_int | terminates the program for a value out of range when a signed medium is used at full width, although an unspecified result is promised | `pack_int_total_refuted` |
| util/unit_frac.hpp, change_bit_width | signed overflow (or a negative result) when the target width is the full width of a signed type, which the assertions admit | `change_bit_width_exact_refuted` |
| util/unit_frac.hpp, int_to_int_a | ties are rounded down, unlike in flt_to_int_a() | `int_to_int_a_rounds_refuted` |
| util/pixel_box.hpp, intersects, contains, clip | signed overflow for valid boxes that are more than INT_MAX apart | `box_clip_exact_refuted` |
| image/integer_pixel_format.hpp, read_comp | a component that is a single word as wide as the unpacked type is read with a shift by the width of the type (IntegerPixelFormat_Lum_32, ... where int32_type has 32 bits) | `integer_comp_assemble_undefined`, `integer_comp_assemble_refuted` |
| image/indexed_pixel_format.hpp, set_pixel | the index is not cut down to bits_per_pixel, an index that is too large changes neighbouring pixels in the same compound | `indexed_write_refuted` |
| image/indexed_pixel_format.hpp, static assertions | bits_per_pixel may exceed 8, the number of bits in the transfer representation; reading then loses the upper bits of indexes | `indexed_read_refuted` |
| util/kdtree.hpp, find | a negative maximum distance is squared, and points nearer than its absolute value are found | `kdtree_find_negative_max_dist_refuted` |
| cli/impl/pattern_matcher.hpp, constructor | the message about positional ambiguity gives NFA positions in place of symbol numbers: both numbers are too large for all but the first pattern | `positional_message_refuted` |
| cli/impl/pattern_matcher.hpp, backtrack | in case of positional ambiguity, the match is not the left-most path (it is the least one when compared from the right) | `backtrack_leftmost_refuted` |
| cli/impl/spec_parser.hpp, record | structural ambiguity is reported with error code bad_pattern_syntax; SpecError::structural_ambiguity, which is documented, is raised nowhere | `structural_ambiguity_code_refuted` |
| cli/impl/spec.hpp, add_option (312-329) | that the action requires an argument is checked only if the option allows for one: an assigning action for an option without argument is accepted, and when the option occurs, `ARCHON_ASSERT_UNREACHABLE()` is reached (option_action.hpp:181-184) | `actions_fit_refuted` |
| cli/impl/processor.hpp (356-366) | the message about an unknown option in an argument is never used, because the offset has just been set to the size it is compared to | `message_unused` |
| cli/impl/pattern_args_parser.hpp, parse_elem (401-422) | std::size_t is documented (cli/spec.hpp:52-54), and accepted by the check (pattern_func_checker.hpp:107-108), for alternatives without value slots, but parsing handles only optional and repeated elements, and then asserts that the element is a symbol | `size_of_alternatives_refuted` |
| cli/impl/root_state.hpp, set_args (130, 164) | when arguments are copied by value (wide characters, or a specified string holder), an assertion fails if all the arguments after the last group of more than 8192 characters are empty: a single empty argument, or a long one followed by an empty one | `set_args_refuted` |
| core/as_list.hpp, format_as_list (316, 332) | with brackets and AsListSpace::loose, two spaces are written between the brackets when there are no elements, although the documentation (75–78) says that the spaces are added only when the number of elements is not zero | `format_as_list_refuted` |
| core/as_list.hpp, parse_as_list (419) | the test for an empty list looks at the whole string rather than at what is inside of the brackets, so an empty bracketed sequence, which is written as an empty pair of brackets, cannot be parsed from any string | `parse_empty_refuted` |
| core/as_list.hpp, parse_value for AsListA (521) | `min_elems` is ignored when parsing, so more elements can be left out than the documentation allows (203–210) | `parse_list_a_refuted` |
| core/as_list.hpp, parse_value for AsListV (609) | an empty list of variable length is written as nothing, but is not read back: the empty string is taken as one element | `list_v_round_trip_refuted` |
| core/impl/prim_text_file_impl.cpp, write (166) | when flushing fails in the middle of a write, `n` is not set, although characters were consumed (documented in core/text_file_impl_concept.hpp:243–246: `n` indicates how many were written); core/impl/text_file_impl.hpp, write (460) does the same, and its shallow_flush (690–696) then goes on from `n` = 0, so characters are written twice | `win_file_write_refuted`, `win_file_retry_refuted` |
| util/pixel_box.hpp, clip (254, 268) | `0 - pos.x` overflows when a coordinate of the position is the lowest int, although an area that lies outside of the image is documented as allowed (image/writer.hpp:144–146); affects `Writer::fill`, `put_image_a` and `put_block_a` | `writer_lowest_refuted` |
| image/buffer_format.cpp, try_cast_to(IntegerFormat&) (168–169) | the order of channels is reversed when the word order is big, but the first bit field is the most significant one, so it is for little that it must be reversed; the decision is moreover made after the word order was replaced by the byte order (147) or reset (152); saving such an image as PNG exchanges red and blue | `packed_cast_refuted`, `match_save_refuted` |
| image/buffer_format.cpp, try_cast_to(IntegerFormat&) (209) | the number of bytes per channel is set to the number of bytes per word, although there may be several channels or pixels in a word; four 8-bit channels in a word become 32-bit channels | `subword_cast_refuted`, `match_save_refuted` |
| util/colors.hpp (40–186), util/css_color.cpp (125–273) | the documentation says that the named colors are those of CSS Level 3, and that all forms of CSS Level 3 are accepted when parsing; yellowgreen is missing, and names are compared with regard to case | `css3_names_refuted` |
| display/noinst/palette_map.cpp, move_from (90–102) | `m_num_channels_ext` is not assigned, so lookup in a moved palette map uses the wrong stride and finds a wrong color | `moved_palette_map_refuted` |
| display/noinst/palette_map.hpp, read_palette (195) | division by zero when the palette image has no columns | `read_palette_exact` |
| math/matrix.hpp, det (922–936) | `scalar_arith_type<T>` of an integer type is an integer type, so the elimination in `decompose()` uses integer division and the determinant of a matrix of integers is wrong: 2 for the rows (2, 1) and (1, 1) | `det_integer_refuted` |
| core/seed_memory_output_stream.hpp, overflow (311–319) | when called with `traits_type::eof()`, the put pointer is advanced although there is no character to append, so that an indeterminate character becomes part of the contents; `sputc()` of a wide character with the value of `WEOF` leads to such a call | `seed_memory_refuted`, `overflow_eof_case` |
| `core/value_parser.hpp:317-333` | Documentation says that the variable is left untouched when parsing fails, but the extraction operator has assigned to it already (12 for `12x`, 0 for an empty string, the nearest value if out of range). | `parse_untouched_refuted` |
| `core/hex_dump.hpp` `HexDumpConfig::max_size` | The documentation says that the total size is limited to the specified size. For sizes less than 3, an ellipsis of 3 characters, or a dump of 3 characters, is written all the same. | `hex_dump_size_refuted` |
| `check/random_seed.hpp` `operator>>` | A block where two joined words are all ones (value 2^64-1) is rejected, although it is written by the output operator: the range check at line 431 is `>=` and not `>`. | `random_seed_round_trip_refuted` |
| `check/random_seed.hpp` `operator>>` | A block of more than 33 characters is accepted, and the excess characters are silently ignored (lines 454-457). | `random_seed_read_refuted` |
| check/wildcard_filter.cpp:47 | Each word that is a dash replaces the include patterns by those since the preceding dash. A filter with two dashes, `a - b - c`, therefore means `b - c`, not an exclusion of `b`, `-` and `c`, and no error is reported. | `wildcard_filter_refuted`, `wildcard_filter_dashes` |
| check/noinst/thread_context_impl.cpp:70-71 and 82 | When there are nonconcurrent tests, the last thread to end returns from `run()` without adding its counters to those of the root context, and `nonconcur_run()` then clears them. The failures and checks that this thread has counted during the concurrent tests are lost, and `TestRunner::run()` can return `true` although tests have failed. With one failing concurrent test, one nonconcurrent test, and at least two threads asked for, this happens every time. | `run_tests_result_refuted`, `run_tests_result_general` |
| check/test_runner.cpp:356-357 | When the number of threads is reduced to one because there is only one execution, of a concurrent test, `run()` and `nonconcur_run()` both report the end of the thread. | `threads_reported_once_refuted` |
| check/test_config.hpp:121-131 | Executions are documented to be initiated in order of repetition, then test. In fact, nonconcurrent tests of the first repetition come after concurrent tests of the last repetition. | `executions_in_order_refuted` |
| `render/impl/finite_curve_memory.hpp:74-91` | With `max_samples` samples, only `max_samples - 2` full time slots are guaranteed, so the memory does not always reach back `millis_back`. With the constants of the trackball (100 ms, 16 samples, 7 ms slots) it can be 1 ms short. | `curve_memory_reach_refuted` |
| `render/impl/finite_curve_memory.hpp:86` | `millis_back = 0` gives slots of length zero, and add_value() divides by zero. | `curve_memory_zero_span` |
| `render/impl/finite_sequence_memory.hpp:84-96` | A memory of capacity zero can be constructed, but push_back() then writes outside the buffer. | `sequence_memory_zero` |
| `render/virt_trackball.cpp:133` | `1000.0 / millis` with `millis` zero if all events of a grab carry the same millisecond and the pointer moved 4 pixels or more: the spin becomes infinite. | `spin_divisor_refuted` |
| `font/loader_fallback.cpp:291-295` | Glyphs of negative width or height are accepted (only containment of the corners is checked); `Face::render_glyph_mask()` (face.cpp:40-43) would then ask for a buffer of negative size. | `loaded_glyph_sizes_refuted` |
| `font/loader_fallback.cpp:291` | With a negative glyph size and a large image size the containment check overflows `int`. | `load_spec_defined_refuted` |
| `core/impl/prim_text_file_impl.cpp` (write of the Windows implementation) | The number of written characters is not updated on failure. So a text file reports too few characters as written, and the buffered implementation keeps characters in its buffer that have already been written: when the application flushes again, they are written twice. | `windows_text_file_conforms_refuted`, `buffered_windows_conforms_refuted`, `windows_buffered_text_file_conforms_refuted` |
| `core/buffered_text_file_impl_concept.hpp:43-47` | read_until() is documented to start at the logical file pointer, and to advance it past what was extracted. The implementation starts at the read-ahead pointer, and can leave the logical file pointer behind. `BufferedTextFile` is not affected, as it always calls advance() before it relies on the logical file pointer. | `read_until_starts_refuted`, `read_until_moves_refuted` |
| `render/impl/key_bindings.cpp:100-110` | Binding a key while it is held resets its state. The handler that was called with `true` when it was pressed is never called with `false`. bind_key() also accepts multiplicities less than 1, which no press ever has. | `rebinding_balanced_refuted` |
| `render/engine.hpp:280-282` | All functions of the engine (except two) are documented to be callable from a key handler. If a handler binds a new key while it is called because the window lost focus, `m_key_slots` (a flat map) is changed during iteration over it (key_bindings.cpp:187-203). In words only: registering a handler from a handler can reallocate `m_handlers`, which contains the function that is executing. | `handlers_may_bind_refuted` |
| `render/key_binding_support.hpp:129-131` | The documented meaning of modifier modes is that the mode is the set of modifier keys currently pressed. The built-in handlers of modifier keys are bound in mode none only (engine_impl.cpp:105-128), so a second modifier key is ignored, and combined modes, for which `operator\|` exists, are never in effect. Also, if both shift keys are held, releasing the first one ends the mode. | `modifier_mode_refuted`, `modifier_mode_twin_refuted`, `modes_are_simple` |
| `render/virt_trackball.hpp:331-339` | `calc_rotation()` returns no rotation for opposite points, so that the ball snaps back to its orientation at the time of the grab when the pointer is dragged from one end of the rim to exactly the opposite one. | `drag_follows_pointer_refuted` |
| core/histogram.hpp:150 | `add()` converts to `std::size_t` before it checks that the value is in the range of that type: undefined behavior for values far above the range. | `histogram_counts_refuted` |
| core/histogram.hpp:334,349 | `print()` of a histogram without values computes 0 / 0 or 0 * inf, and converts the result to `int`: undefined behavior. | `histogram_table_refuted` |
| util/perlin_noise.hpp:134 | The documentation says that `amplitude()` is `sqrt(n/2)`; the code returns `sqrt(n/4)`, which is what bounds the noise. | `noise_amplitude` |
| core/enum.hpp:356 | An enumeration value whose name has a character other than a letter, a digit, or an underscore (e.g., `a-b`) is not read as it is written; if `a` is the name of another value, it is read as that one. Lines 78-82 recommend names made from the basic character set, which has such characters. | `enum_round_trip_refuted` |
| core/float.hpp:295, 308, 327, 338 | Order comparisons of a floating-point value and an integer are wrong when the integer is strictly between the value and the next one toward zero. With single precision, and 32-bit integers, `float_less_equal_int(16777218.0f, 16777217)` is true, and `float_greater_int()` is false. Using the predecessor presumes that it is at most one away. | `float_compare_int_refuted` |
| `image/file_format_registry.cpp` | `register_file_format()` initializes `was_inserted` from `p.first` (a pointer that is never null) rather than from `p.second`, so a format whose identifier is taken is not rejected. It is added to the list, and to the extension and MIME type indexes, but `lookup()` never finds it. | `registry_register_refuted` |
| `core/timestamp_formatter.hpp` | Documentation of `Params::format` says that the first occurrence of `%S` (or `%T`) is extended with subsecond digits. `do_format()` continues the scan after the first one, and extends every one of them. | `timestamp_format_refuted` |
| `log/limit_logger.hpp:105` | The assertion in `LimitImpl::set()` has the condition inverted: `set_log_level_limit()` always fails it for a limiting logger without a fixed limit, which is the only kind that it is meant for, and is accepted for one with a fixed limit, after which the logger and its sinks disagree about the limit. | `log_set_limit_refuted` |
| `log/limit_logger.hpp:227` | A limiting logger applies its limit to the messages that are logged directly through it even when its channel pattern does not match the selected channel. A plain copy of the logger does not. | `log_routes_refuted` |
| `core/stride_iterator.hpp:203` | The difference between stride iterators is divided by a `std::size_t`, so a negative difference is converted to unsigned first. The result is wrong whenever it should be negative and the stride is more than one. The class is not used elsewhere at this commit. | `stride_diff_refuted` |
| `core/stride_iterator.hpp:127,169,187` | A negative number of steps becomes a huge `std::size_t`, which is undefined when the underlying iterator is a pointer (although common implementations wrap around to the intended address). It is harmless for iterators of class type. | `stride_move_refuted` |
| `image/block.hpp:249` | A block size with two negative components is accepted, because only the product is checked. Sizes with one negative component are refused unless the other one is zero. | `block_negative` |

## What is not modelled, per module

* `Int*`: compiler builtins for checked arithmetic (the portable code is
  modelled); `find_msb_pos` is modelled with and without the builtin.
* `MulPrec*`: part widths are even.  `s_subpart_mask` is taken as 2^n - 1.
  `operator>>` on a negative signed value is logical
  (`mulprec_shift_right_negative`) and shift counts are taken modulo the width,
  as in the code.  Division by zero is undefined behaviour.
* `Cli*`: sizes and indexes are natural numbers, `std::set` and `std::map` are sorted
  lists, `std::unordered_map` is an association list. Error messages are an enumeration.
  In the pattern matcher (C74-C77), lexemes are left out, and patterns enter as structures
  that represent trees (`rep_pattern`); the parser and the recorder (C78-C81) produce such
  structures from strings. Character classification is a parameter; special characters
  have their ASCII codes. Descriptions and help formatting are not modelled. Types of
  parameters of pattern functions (C90-C92) are data rather than template arguments. In the processor (C83-C89), quoting of texts
  in error messages is left out, and actions of options are given by whether they accept
  an argument. In processing as a whole (C93, C94), the outcome is what is called, with
  which arguments; exit statuses, and what the called functions do in turn, are left out. In C95, the text
  codec is a parameter.
* `StrTempl*`: widening of the basic character set is the identity, narrowing is a
  parameter; field width of the stream is zero, as documented; the texts of error messages
  are left out; lifetimes (`m_locale` is a reference that may dangle) are not modelled.
* `Kdtree*`: components are mathematical integers (no rounding of floating-point
  components, no overflow of integer ones); distances are squared, the final
  `std::sqrt()` is left out; iterators are indexes into a list; `get_comp()` does not throw.
* `PixelBuf*`, `PackedPixel*`, `IntegerPixel*`, `Run*`, `SubwordPixel*`: trays are functions (read from) or lists of rows
  (written to); their memory layout is not modelled. Transfer in terms of
  floating-point numbers (components of more than 16 bits), color spaces and
  `try_describe` are not modelled.
* `IntBitCopy*`, `BitMedium*`: `get_parts` and `from_parts` of `IntegerTraits` are
  modelled for builtin types.  The wide type in `int_to_int_a` is any unsigned builtin
  type; multi-precision types are not substituted for it.  Conversions to and from
  floating-point representations are not modelled.
* `StringMatcher*`: a position set is the sorted list it denotes (C34); a call of
  `unite(Ident, Ident)` on equal sets (where `FrozenSets` fails) is an error of the
  model, proved unreachable.  Widening of `const char*` patterns, locales, and the
  text of the ambiguity message are not modelled.
* `Uninit*`, `Vector*`, `Deque*`: element types are abstract; the number of
  constructor calls that succeed before one throws is a parameter.
  Arguments that refer to an element of the container itself
  (`v.push_back(v[0])` across reallocation) are not modelled: in the code such a
  reference dangles.  `uninit_move_downwards` is lenient for size zero.
* `Buffer*`: data passed in lies outside the buffer; allocation failure only
  where the size overflows.
* `FlatMap*`: the underlying `Vector` is the list of its elements (see
  `Vector*`).
* `RangeMap*`: `std::map` is the ordered list of its entries; exceptions are not
  modelled.
* `FrozenSets*`: `std::sort` is any function that yields a sorted permutation.
* `Base64*`: `if constexpr (BasicCharMapper<char>::is_trivial)` tests `char`
  and not the character type, so the other branch is dead and not modelled.
* `RectPack*`, `WordWrap*`: memory allocation does not fail; checked arithmetic
  is taken as exact (it is proved exact in `IntProps`).
* `Newline*`, `WinFile*`: characters and bytes are natural numbers; sizes and
  offsets do not overflow; the underlying file is changed by nobody else.  The
  debug mode flags are not modelled.
* `TextFile*`: the same. The character codec is the degenerate one (`char_type` is
  `char`), so `TextFileImpl2`, shift states and unshift() are not modelled, nor are
  opening and closing of files, resizing, and streams. The growth of buffers is an
  arbitrary function; memory is unlimited.
* `Falloff*`, `IterRepeat*`: pixels are values of an abstract type; conversion of
  representations and color spaces, blending and fading are abstract functions on
  single pixels.  Strides are not modelled (different pixels of an array do not
  overlap), nor is writing an image to itself, `put_block_mask`, or exceptions.
* `BufFmt*`: bytes have 8 bits, `int` has 32 and `std::size_t` 64. Of float and indexed
  formats only the kind is modelled (no cast between kinds is made from them), and
  `try_cast_to(PackedFormat&)` is not modelled because it is not implemented in the
  code. What libpng does with a row is specified in `BufFmtSpec` from its documentation.
* `Css*`: floating-point numbers, the way they are written and read, and the conversion of
  functional forms to bytes (`to_hex`) are parameters. `std::lower_bound` is modelled by
  its specification, a range that is not partitioned being an error. The table of CSS
  Level 3 in `CssSpec` was written from knowledge of that standard.
* `PalMap*`: components converted to floating point are mathematical
  integers, as in `Kdtree*`; the conversion is a parameter.  Access by
  `get_comp` must be inside the array for all colors and channels.  The reader
  is a function from positions to components.  Allocation succeeds.
* `Matrix*`: scalars are the elements of an ordered field (or, for a
  refutation, integers with division that truncates); rounding, infinities
  and NaN are not modelled. `math::Vector` and `math::Matrix` are lists; the
  elementwise operators are not modelled.
* `MemStream*`: the members of `std::basic_streambuf` that call the
  overriding functions are modelled after the standard; formatting and state
  flags of `std::basic_ostream` and `std::basic_istream` are not modelled.
  Appending a part of a stream to the stream itself is not modelled.
* `ValParse*`: other types than integers, bool and character types, locales other than the classic one, custom `parse_value()`, `with_modified_locale()`.
* `SeedSeq*`, `RandInt*`: constructors and move of `SeedSeq`, `rand_int()` for builtin types, floating point and unit vectors, nondeterministic entropy.
* `HexDump*`: stream and field width (`BasicStreamOutputHelper`), character mapping other than widening of a character.
* `RandomSeed*`: the sentry (skipping of white space, stream state), `random()`, copy and move; what the locale says about characters is a parameter.
* `WildFilter*`: locales; widening of the characters (the identity); conversion of test details to names.
* `TestRun*`: logging, test file directories, mapping of file paths, elapsed time, random seeds, exceptions thrown by reporters, `abort_on_failure`, overflow of counters, start and join of threads. Sorting and shuffling are arbitrary permutations. The memory model: everything that threads share is protected by the mutex.
* `CurveMem*`: floating point interpolation and distance (arbitrary functions); iterators,
  `dump_info()`; orientations, rotations, and viewport of the trackball (see `TrackGeo*`); failure to
  allocate memory.
* `TextParse*`: what a variable holds after a word that was not accepted; exceptions; the conditions of `Field2` and `FieldSeq2` are part of the parameters `f_set` and `s_add` (as written, text_parser.hpp:288 and 316 refer to `cond` without the object and would not compile if instantiated).
* `FontSpec*`: messages; reading of the file and of the image; the parsing of floating-point numbers is a parameter, and so is what a metrics line that is not accepted leaves behind; whether the image has the size stated in the file; code points are not checked against the declared ranges by the code either.
* `KeyBind*`: labels of handlers; the flat map as such (it is a sorted list); the mapping
  from SDL events to keys; the engine's other event handlers; exceptions thrown by
  handlers. Handlers are functions of the number of calls so far; in the theorems that
  say what is called they do not bind keys.
* `Quat*`: rounding (arithmetic is exact, in any ordered field); the actual square root and
  trigonometric functions; comparison, stream, and compound assignment operators. The documentation
  of `from_axis_angle()` says that the angle is clamped to [0;2*pi]; the code does not do that, and
  the theorem is about the code.
* `TrackGeo*`: rounding; integer resolution of the steady clock; viewports of size zero (the code
  divides by the radius, which is then zero); changes of the size of the viewport during a drag are
  modelled, but nothing is claimed about the orientation across such a change.
* `Histogram*`: rounding of floating point numbers, NaN and infinite arguments; a range or number of bins of size zero; selection of a width from the terminal; formatting of numbers (arbitrary functions).
* `Perlin*`: rounding of floating point numbers, NaN, and infinities; generation of random gradients (given); computation of the square root in `amplitude()` (any number with the right square).
* `Enum*`: the search trees of `std::map` (ordered lists instead), the array seeded buffers, field width, formatting of integers, enabled stream exceptions, and the conversion between `int` and the enumeration type (values are integers).
* `Flt*`: radix other than 2; the sign of zero; floating-point types without infinity or NaN; `float_to_int()` (throws when `try_float_to_int()` fails); formats where values below one have less than full precision.
* `FmtReg*`: memory exhaustion, lifetime of the referenced format objects, the default registry (lines 31-60 of the cpp file).
* `Stamp*`: breakdown of time into calendar fields, the time facet of the locale (a parameter), widening of the format, formats that end inside a conversion or have a percent sign after a modifier, overflow of time points.
* `Load*`: `FileFormat::try_load()` and the recognizers of the particular formats, opening of files, the logger, growth of the buffer (a parameter; see C26), exceptions from the underlying source.
* `LogLim*`: formatting of messages (but see C215), timestamp prefixes, output to streams, encoding loggers, pattern matching (a parameter), concurrency, lifetime of loggers; names of channels are numbers, and the binary search for a channel is a linear one (C214 says that the order is as it needs to be).
* `LogText*`: formatting of the prefix (see C211 for what it is), coloring of the level, locking, output to the stream.
* `Stride*`: the iterator that postfix operators return, `operator->`, `!=`, `>`, `<=`, and `>=`, mixed types of iterators, platforms where `std::size_t` does not have 64 bits.
* `Timer*`: selection and reading of clocks, rounding of the result to `double`, the fallback on `std::chrono`.
* `Block*`: ownership and allocation of memory, `comp_repr_unpack()`, other use of trays, platforms with other sizes of `int`, `std::size_t`, and `std::ptrdiff_t`.
* `Term*`: layout of the bit fields, `seq::*`, `should_enable_escape_sequences()`. In the specification, a weight replaces the previous one; on a terminal where bold and faint are independent, a change from one to the other can leave both on.
* `MultField*`: signed compound types and those that are narrower than `int`, the conditions under which X11 code makes use of it.
* `MultWords*`: signed word types, conversion of components, alpha multiplication, overflow in buffer sizes and pixel addresses, the loops of `read()`, `write()`, and `fill()`.
* `Quote*`: widening and narrowing of characters is the identity on ASCII; the
  character classification is arbitrary, except that newline is not printable
  and hexadecimal digits are classified as such.  Sizes are exact integers.
  Padding to the field width is not modelled.
* Streams, locales, threads, graphics, and everything that is not listed in the
  plan are not modelled.

## Mutation tests

`seeded/LOG.jsonl` has one line per edit of the model: the definition, the edit,
the claim it breaks, the theorems that failed and the theorems that were
tightened.  Edits without failing theorems are equivalent to the original and
say so.

## Assumptions

`Print Assumptions` says "Closed under the global context" for every theorem
named in MANIFEST.json, that is, no axioms at all, with one exception:
`rotations_real` (C186), as well as the lemma `real_laws` and the example
`trackball_case`, which show that hypotheses are satisfiable, are about the
real numbers of the standard library, and depend on its axioms
`ClassicalDedekindReals.sig_not_dec`, `ClassicalDedekindReals.sig_forall_dec`,
`FunctionalExtensionality.functional_extensionality_dep`, and
`Classical_Prop.classic`.  Coq's standard library
modules loaded by `ZifyBool` contain axioms in `Coq.ssr.ssrunder`
(`Under_rel.Under_rel`, `Under_rel.Over_rel`, …; seven of them, an opaque module
type instance); no theorem depends on them.  For the same reason, a check of all
loaded modules also lists the constants of the opaque modules `RbaseSymbolsImpl`
and `RinvImpl` of `Coq.Reals.Rdefinitions`; these have definitions in the
standard library, and are loaded for `rotations_real` only.
