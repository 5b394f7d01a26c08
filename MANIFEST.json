{
 "claims": [
  {
   "property": "C01",
   "status": "proved",
   "theorems": [
    "C01_add_assign",
    "C01_add"
   ],
   "note": "Addition is integer addition. Model: op_add_assign, op_add, abs_val_add, abs_val_sub. Loop invariants; every signed case."
  },
  {
   "property": "C02",
   "status": "proved",
   "theorems": [
    "C02_add_to_itself"
   ],
   "note": "Adding a number to itself in place. Model: op_add_assign with the argument aliased to *this. Same loop, reading the vector being written."
  },
  {
   "property": "C03",
   "status": "proved",
   "theorems": [
    "C03_sub_assign",
    "C03_sub",
    "C03_sub_from_itself"
   ],
   "note": "Same-sign subtraction is integer subtraction. Model: op_sub_assign, op_sub, abs_val_sub. Same-sign cases; x -= x separately."
  },
  {
   "property": "C04",
   "status": "proved",
   "theorems": [
    "C04_add_digitless_undefined",
    "C04_sub_digitless_undefined",
    "C04_sub_digitless_undefined_mixed",
    "C04_add_otherwise_defined",
    "C04_sub_otherwise_defined",
    "C04_sub_self_otherwise_defined"
   ],
   "note": "Out-of-bounds access happens exactly when both magnitudes are digit-less. Model: the same functions. Undefined exactly for two digit-less operands: undefined-ness and definedness are both theorems."
  },
  {
   "property": "C05",
   "status": "proved",
   "theorems": [
    "C05_mixed_sign_sub",
    "C05_mixed_sign_sub_refuted"
   ],
   "note": "Mixed-sign subtraction does not subtract. Model: op_sub_assign. Closed formula for every mixed-sign pair; the documented statement is refuted."
  },
  {
   "property": "C06",
   "status": "proved",
   "theorems": [
    "C06_add_then_subtract"
   ],
   "note": "Adding then subtracting restores the number. Model: op_add, op_sub, op_eq. Composition of C01 and C03 with canonicity."
  },
  {
   "property": "C07",
   "status": "proved",
   "theorems": [
    "C07_add_commutes"
   ],
   "note": "Commutativity of addition as seen by ==. Model: op_add, op_eq. Iff, including the failing case."
  },
  {
   "property": "C08",
   "status": "proved",
   "theorems": [
    "C08_eq_is_representation_equality",
    "C08_eq_is_value_equality"
   ],
   "note": "Equality is representation equality. Model: op_eq, op_ne. == in every state, value equality for canonical numbers."
  },
  {
   "property": "C09",
   "status": "proved",
   "theorems": [
    "C09_ge_le"
   ],
   "note": ">= and <= on non-negative numbers. Model: op_ge, op_le. Lexicographic order equals numeric order on canonical digits."
  },
  {
   "property": "C10",
   "status": "proved",
   "theorems": [
    "C10_gt_lt",
    "C10_complete",
    "C10_gt_refuted"
   ],
   "note": "> and < on non-negative numbers: complete but unsound. Model: op_gt, op_lt. Exact condition, plus completeness, plus refutation of the documented meaning."
  },
  {
   "property": "C11",
   "status": "proved",
   "theorems": [
    "C11_negative",
    "C11_reflexive"
   ],
   "note": "Comparisons of two negative numbers. Model: all comparisons on BN_NEG. Exact conditions."
  },
  {
   "property": "C12",
   "status": "proved",
   "theorems": [
    "C12_across_signs",
    "C12_agrees_with_values"
   ],
   "note": "Comparison across signs. Model: all comparisons across signs. Exact conditions."
  },
  {
   "property": "C13",
   "status": "proved",
   "theorems": [
    "C13_not_a_strict_order",
    "C13_ge_total_order"
   ],
   "note": "> is not a strict order. Model: op_gt, op_ge. X > y and y > x in every shipped base; >= is a total order."
  },
  {
   "property": "C14",
   "status": "proved",
   "theorems": [
    "C14_left_not_finite",
    "C14_left_not_finite_self"
   ],
   "note": "NaN and infinity on the left of a compound assignment. Model: the four compound operators. Every y, both builds."
  },
  {
   "property": "C15",
   "status": "proved",
   "theorems": [
    "C15_add",
    "C15_sub",
    "C15_sub_digitless",
    "C15_mul",
    "C15_mul_ieee",
    "C15_mul_digitless",
    "C15_div",
    "C15_div_full_width",
    "C15_div_zero"
   ],
   "note": "NaN and infinity on the right of an operator. Model: the four compound operators. Case by case; multiplication both in exact and in IEEE arithmetic."
  },
  {
   "property": "C16",
   "status": "proved",
   "theorems": [
    "C16_product",
    "C16_product_binary",
    "C16_square",
    "C16_columns_fit",
    "C16_column_overflow",
    "C16_lengths_sharp"
   ],
   "note": "Multiplication in exact arithmetic. Model: mul_strassen over exact reals (Exact.v). DFT proved by induction on the recursion; sharp length limits."
  },
  {
   "property": "C17",
   "status": "proved",
   "theorems": [
    "C17_product",
    "C17_square",
    "C17_column_overflow",
    "C17_per_type",
    "C17_lengths_sharp",
    "C17_product_refuted",
    "C17_accurate_exists"
   ],
   "note": "Multiplication in IEEE double arithmetic. Model: mul_strassen over Flocq's binary64 (Ieee.v), with any choice of fused multiply-adds and any recovery from NaN products. Forward error analysis with an explicit constant; exact length limits per type; refutation beyond them."
  },
  {
   "property": "C18",
   "status": "proved",
   "theorems": [
    "C18_two_maximal_digits",
    "C18_two_maximal_digits_ieee",
    "C18_single_digits"
   ],
   "note": "Multiplication by the full-width types overflows. Model: mul_strassen, full-width types. For all lengths >= 2, exact and IEEE; one-digit witness in IEEE."
  },
  {
   "property": "C19",
   "status": "proved",
   "theorems": [
    "C19_zero_times_zero"
   ],
   "note": "Zero times zero never returns. Model: mul_strassen on two empty vectors. No fuel suffices."
  },
  {
   "property": "C20",
   "status": "proved",
   "theorems": [
    "C20_transform",
    "C20_inverse_of_transform",
    "C20_transform_of_inverse",
    "C20_refuted",
    "C20_empty"
   ],
   "note": "The transform computes the discrete Fourier transform. Model: fft_complex, ifft_complex over exact reals. For all power-of-two lengths; other lengths: refuted for 3, never returns for 0."
  },
  {
   "property": "C21",
   "status": "proved",
   "theorems": [
    "C21_convolution",
    "C21_complete"
   ],
   "note": "Pointwise product step is cyclic convolution. Model: create_fft_table, convolute_fft, ifft_complex. For all operands; the table length is covered."
  },
  {
   "property": "C22",
   "status": "proved",
   "theorems": [
    "C22_next_pow2",
    "C22_next_pow2_zero",
    "C22_next_pow2_refuted",
    "C22_is_pow2"
   ],
   "note": "nextPow2. Model: nextPow2, isPow2 with 64-bit wrapping. Bit-level; refuted above 2^32."
  },
  {
   "property": "C23",
   "status": "proved",
   "theorems": [
    "C23_mul_naive",
    "C23_mul_naive_full_width",
    "C23_mul_naive_refuted"
   ],
   "note": "Schoolbook multiplication. Model: mul_naive with int promotion and 32-bit indices. Row invariant; what the full-width types compute instead."
  },
  {
   "property": "C24",
   "status": "proved",
   "theorems": [
    "C24_division",
    "C24_division_binary",
    "C24_equal_magnitudes",
    "C24_divide_by_itself",
    "C24_division_refuted"
   ],
   "note": "Division is truncated division, except x/x. Model: op_div_assign, op_div, abs_val_div, shift_left_1. Doubling-search invariant; x/x cases separately; refutation of the unrestricted statement."
  },
  {
   "property": "C25",
   "status": "proved",
   "theorems": [
    "C25_rounds",
    "C25_outer_rounds"
   ],
   "note": "Division terminates within a logarithmic number of rounds. Model: div_outer, div_inner. The fuel needed is log2|x|+2; bound on outer rounds."
  },
  {
   "property": "C26",
   "status": "proved",
   "theorems": [
    "C26_lone_zero_divisor",
    "C26_digitless_divisor_never_returns",
    "C26_zero_dividend"
   ],
   "note": "Division by zero. Model: op_div_assign. Digit-less divisor: no fuel suffices."
  },
  {
   "property": "C27",
   "status": "proved",
   "theorems": [
    "C27_full_width_division_undefined",
    "C27_full_width_division_defined"
   ],
   "note": "Division with full-width digits. Model: shift_left_1 with a truncated base. Undefined exactly in the stated cases."
  },
  {
   "property": "C28",
   "status": "proved",
   "theorems": [
    "C28_constructor",
    "C28_leading_zeros_ignored"
   ],
   "note": "Construction from a digit list. Model: bn_make (initializer list constructor). Closed form of the stored digits."
  },
  {
   "property": "C29",
   "status": "proved",
   "theorems": [
    "C29_push_back",
    "C29_push_front",
    "C29_pop_back",
    "C29_pop_front",
    "C29_pop_empty_undefined",
    "C29_push_at",
    "C29_pop_at",
    "C29_beyond_end_undefined",
    "C29_push_pop_inverse",
    "C29_resize"
   ],
   "note": "Digit insertion and removal. Model: push/pop members. Effect on the value and on the digits; undefined cases."
  },
  {
   "property": "C30",
   "status": "proved",
   "theorems": [
    "C30_subscript"
   ],
   "note": "Checked subscripting. Model: operator[]. Both overloads."
  },
  {
   "property": "C31",
   "status": "proved",
   "theorems": [
    "C31_set_descriptor",
    "C31_clear",
    "C31_classification"
   ],
   "note": "Descriptor changes and classification. Model: setDescriptor, clear, is* members. All states."
  },
  {
   "property": "C32",
   "status": "proved",
   "theorems": [
    "C32_numeral",
    "C32_decimal_and_octal",
    "C32_same_text",
    "C32_ambiguous",
    "C32_raw",
    "C32_special"
   ],
   "note": "Printed text. Model: print (operator <<). Against an independent inductive definition of numerals; ambiguity of base > 10."
  },
  {
   "property": "C33",
   "status": "proved",
   "theorems": [
    "C33_sums",
    "C33_post_forms",
    "C33_product",
    "C33_quotient",
    "C33_shift_right",
    "C33_shift_left",
    "C33_bitwise",
    "C33_not",
    "C33_comparisons"
   ],
   "note": "Fixed-width integer wrapper. Model: BNIntType operators with C++ integral promotion. Exact definedness conditions."
  },
  {
   "property": "C34",
   "status": "proved",
   "theorems": [
    "C34_digits_in_range"
   ],
   "note": "Digits stay in range over any history. Model: Machine.v: programs over all public operations. Induction over programs, any allocator, both builds, any floating point."
  },
  {
   "property": "C35",
   "status": "proved",
   "theorems": [
    "C35_no_superfluous_zeros",
    "C35_shipped_types"
   ],
   "note": "No superfluous zeros over any arithmetic history. Model: Machine.v. As C34."
  },
  {
   "property": "C36",
   "status": "proved",
   "theorems": [
    "C36_additive_programs"
   ],
   "note": "Programs of constructions, copies and additions compute integers. Model: Machine.v. Against an interpreter over the integers; any aliasing."
  },
  {
   "property": "C37",
   "status": "proved",
   "theorems": [
    "C37_add_assign",
    "C37_sub_assign",
    "C37_mul_assign",
    "C37_div_assign",
    "C37_only_target_changes"
   ],
   "note": "Failure atomicity of compound assignment. Model: the four compound operators. Every allocation point; the state left behind is stated exactly."
  },
  {
   "property": "C38",
   "status": "proved",
   "theorems": [
    "C38_binary_operators",
    "C38_operands_unchanged",
    "C38_named_operators"
   ],
   "note": "Binary operators never change their operands. Model: binary operators in Machine.v. Exact outcome in every case."
  },
  {
   "property": "C39",
   "status": "proved",
   "theorems": [
    "C39_debug_same_or_throws",
    "C39_debug_subtraction",
    "C39_debug_subtraction_negative_result",
    "C39_debug_addition_same_sign",
    "C39_debug_addition",
    "C39_debug_mixed_subtraction"
   ],
   "note": "Debug builds reject valid subtractions. Model: abs_val_sub with the BN_DEBUG block. Exact throwing condition; debug equals release otherwise."
  },
  {
   "property": "C40",
   "status": "proved",
   "theorems": [
    "C40_copy",
    "C40_copy_assign",
    "C40_move",
    "C40_frame",
    "C40_self_move"
   ],
   "note": "Copy and move. Model: copy and move members. All states, self-assignment included."
  },
  {
   "property": "C41",
   "status": "proved",
   "theorems": [
    "C41_shipped_limits",
    "C41_bases"
   ],
   "note": "Shipped limits satisfy the arithmetic side conditions. Model: Limits.v. By computation over the finite list of shipped types."
  },
  {
   "property": "C42",
   "status": "proved",
   "theorems": [
    "C42_runtime_assert"
   ],
   "note": "Runtime assertions. Model: bn_runtime_assert. All arguments."
  },
  {
   "property": "C43",
   "status": "proved",
   "theorems": [
    "C43_copy_assign_not_atomic",
    "C43_copy_assign_atomic_refuted"
   ],
   "note": "Copy assignment is not failure atomic. Model: operator=(const Bignum&). Exact state after failure; atomicity refuted."
  },
  {
   "property": "C44",
   "status": "proved",
   "theorems": [
    "C44_natural_programs"
   ],
   "note": "Programs over natural numbers compute natural numbers. Model: Machine.v. Total correctness against an interpreter over the natural numbers."
  },
  {
   "property": "C45",
   "status": "proved",
   "theorems": [
    "C45_padded_dividend",
    "C45_power_exists",
    "C45_right_iff",
    "C45_short_dividend",
    "C45_quotient_refuted"
   ],
   "note": "Division of a number with a superfluous high-order zero. Model: op_div_assign on u ++ [0]. Closed formula; right iff; refutation of the documented statement."
  },
  {
   "property": "C46",
   "status": "proved",
   "theorems": [
    "C46_roundtrip",
    "C46_roundtrip_high_byte_refuted",
    "C46_trailing_zeros",
    "C46_compress",
    "C46_empty_text_refuted",
    "C46_signed_char",
    "C46_signed_char_refuted"
   ],
   "note": "The compression client restores the text. Model: Compress.v: the program of tests/compress_test.cpp. Loop invariants over the recorded bits, on top of C45, C24, C17 and C01."
  },
  {
   "property": "C47",
   "status": "proved",
   "theorems": [
    "C47_integer_programs",
    "C47_arithmetic_test",
    "C47_arithmetic_test_one"
   ],
   "note": "Programs over integers with all four operations compute integers. Model: Machine.v; the program of tests/arithmetic_test.cpp. Total correctness against an interpreter over the integers, in IEEE arithmetic."
  },
  {
   "property": "C48",
   "status": "proved",
   "theorems": [
    "C48_euclid",
    "C48_euclid_equal_refuted"
   ],
   "note": "Euclid's algorithm by division. Model: While.v: programs with branches and loops. Loop induction on the remainder; refuted for equal numbers (no fuel suffices)."
  },
  {
   "property": "C49",
   "status": "proved",
   "theorems": [
    "C49_euclid_sub",
    "C49_euclid_sub_gt_refuted"
   ],
   "note": "Euclid's algorithm by subtraction. Model: While.v. Loop induction on a + b; refuted with >."
  },
  {
   "property": "C50",
   "status": "proved",
   "theorems": [
    "C50_structured_programs",
    "C50_factorial",
    "C50_fibonacci"
   ],
   "note": "Structured programs over natural numbers. Model: While.v. Induction over a big-step semantics of programs on natural numbers; factorial and Fibonacci loops as corollaries."
  },
  {
   "property": "C51",
   "status": "proved",
   "theorems": [
    "C51_transform",
    "C51_inverse",
    "C51_round_trip",
    "C51_exact_refuted"
   ],
   "note": "Accuracy of the transforms in IEEE arithmetic. Model: fft_complex, ifft_complex over Flocq's binary64, with any choice of fused multiply-adds and any recovery from NaN products. Forward error analysis by induction over the recursion (FftError.v) and Parseval's identity; counterexample to entry-wise accuracy by computation."
  },
  {
   "property": "C52",
   "status": "proved",
   "theorems": [
    "C52_integer_test",
    "C52_integer_test_undefined",
    "C52_refuted"
   ],
   "note": "The client of the integer wrapper. Model: IntTest.v: the program, text output included; the draw is an argument. Case analysis from C33; refuted for the range the program draws from."
  },
  {
   "property": "C53",
   "status": "proved",
   "theorems": [
    "C53_padded_divisor",
    "C53_bounds",
    "C53_right_iff",
    "C53_zeros_diverge",
    "C53_zeros_short",
    "C53_quotient_refuted"
   ],
   "note": "Division by a number with a superfluous high-order zero. Model: op_div_assign on divisors u ++ [0] and on zeros. Closed formula by induction over the search loops; right iff; divergence for every fuel; refutation of the documented statement."
  },
  {
   "property": "C54",
   "status": "proved",
   "theorems": [
    "C54_debug_division",
    "C54_one_digit",
    "C54_valid_division_refuted"
   ],
   "note": "Division in a debug build rejects valid operands. Model: op_div_assign with dbg = true. Exact condition as an inductive predicate on values (Spec.v: rejected); equality of outcomes otherwise; refutation."
  },
  {
   "property": "C55",
   "status": "proved",
   "theorems": [
    "C55_add_same_sign",
    "C55_add_mixed_sign",
    "C55_sub_same_sign",
    "C55_sub_mixed_sign",
    "C55_canonical_not_misleading",
    "C55_ge_le"
   ],
   "note": "Sums, differences and comparisons of numbers with superfluous zeros. Model: op_add_assign, op_sub_assign, op_ge, op_le on arbitrary digits. Exact formula, right iff; no canonicity assumed."
  },
  {
   "property": "C56",
   "status": "proved",
   "theorems": [
    "C56_table",
    "C56_printed_rows",
    "C56_table_text",
    "C56_wrong_rows",
    "C56_decimal_table",
    "C56_output"
   ],
   "note": "The output of the arithmetic test. Model: ArithTest.v: the program, text output included. Row by row from C01, C05, C12, C17, C24; the decimal table by computation on the proved rows."
  },
  {
   "property": "C57",
   "status": "proved",
   "theorems": [
    "C57_conditions",
    "C57_laws",
    "C57_mul_div_refuted",
    "C57_mul_commutes",
    "C57_add_assoc_zero_sum"
   ],
   "note": "The laws of arithmetic as a program can test them. Model: Expression.v: expressions and conditions over the operators. Induction over expressions from C47; the comparisons from C08, C09, C12; zero sums from the sign of the result of an addition; x*y/y refuted for |x| = 1 by C24."
  },
  {
   "property": "C58",
   "status": "proved",
   "theorems": [
    "C58_reads_numerals",
    "C58_no_numeral",
    "C58_writes_numerals",
    "C58_round_trip",
    "C58_bytes",
    "C58_byte_refuted",
    "C58_any_text"
   ],
   "note": "Numbers of BNIntType on streams. Model: IntStream.v: the stream operators of BNIntType over a description of istream and ostream. Induction over texts and sequences; numerals as in C32; the 8-bit case refuted."
  },
  {
   "property": "C59",
   "status": "proved",
   "theorems": [
    "C59_both_padded",
    "C59_two_zeros_too_large",
    "C59_endless",
    "C59_ends",
    "C59_ends_iff"
   ],
   "note": "Division of and by numbers with superfluous zeros, and when division ends. Model: op_div_assign on arbitrary digits. One round of the outer loop with the comparison described by a bound, then C53; termination by cases over C04, C24, C26, C45, C53."
  },
  {
   "property": "C60",
   "status": "proved",
   "theorems": [
    "C60_output",
    "C60_no_file",
    "C60_unreadable",
    "C60_restored_iff",
    "C60_restored_signed_iff",
    "C60_never_smaller",
    "C60_notation"
   ],
   "note": "The output of the compression test. Model: CompressTest.v: the program, files as an argument, text output and exit status included. From the number and the bit count of C46's proofs; uniqueness of digits; texts composed along the program (ProgramProof.v); the shipped sample file as an instance."
  },
  {
   "property": "C61",
   "status": "proved",
   "theorems": [
    "C61_debug_output",
    "C61_builds_differ"
   ],
   "note": "The arithmetic test in debug builds. Model: ArithTest.v in the writing execution model of Program.v. Rejected (Spec.v) is decided for the long numbers by the digits of its first subtraction, and refuted for 2B^2-1 by B in any base B; then C54, C39 and the rows of C56."
  },
  {
   "property": "C62",
   "status": "proved",
   "theorems": [
    "C62_division",
    "C62_other_base_refuted",
    "C62_other_divisor_refuted",
    "C62_compression_test"
   ],
   "note": "Debug builds in bases that are powers of two. Model: Division.v, Bignum.v with the BN_DEBUG block; Compress.v, CompressTest.v with BN_DEBUG as a parameter. Powers of two below the base have one digit that is not 0, so a subtrahend that is not greater has no greater digit; this carried through both loops; then through the program."
  },
  {
   "property": "C63",
   "status": "proved",
   "theorems": [
    "C63_default",
    "C63_digit",
    "C63_numeral",
    "C63_same_text",
    "C63_ambiguous",
    "C63_width",
    "C63_aligned_refuted",
    "C63_length",
    "C63_showbase_refuted"
   ],
   "note": "Numbers written with manipulators. Model: Format.v: operator << with the flags of the stream as a state; the inserters of the standard library as the standard describes them. The text split at the first item written; numerals as in C32 with the radix as a parameter."
  },
  {
   "property": "C64",
   "status": "proved",
   "theorems": [
    "C64_digits",
    "C64_digits_below_base_refuted",
    "C64_decimal_text",
    "C64_endless",
    "C64_from_digits",
    "C64_roundtrip",
    "C64_convert"
   ],
   "note": "Conversion between bases by the client. Model: Convert.v: the two loops of a client over the operators of Bignum.v. The four operators on naturals for any allocator, from C01, C03, C17, C24; induction over the rounds against the digit list of the number."
  },
  {
   "property": "C65",
   "status": "proved",
   "theorems": [
    "C65_operators",
    "C65_expressions",
    "C65_programs",
    "C65_completed",
    "C65_handlers_refuted"
   ],
   "note": "What a build with BN_DEBUG accepts. Model: Strict.v: the programs of Machine.v and While.v without handlers, over both builds. A simulation between the two builds for every function, up to an exception; then induction over the execution."
  },
  {
   "property": "C66",
   "status": "proved",
   "theorems": [
    "C66_programs",
    "C66_expressions",
    "C66_completes",
    "C66_structured_programs",
    "C66_integer_programs",
    "C66_debug"
   ],
   "note": "Programs that run out of memory. Model: Strict.v over all of the model. For every function: equal to its run with unlimited memory with all requests granted, or stopped at the first refused one; then C47 and C50."
  },
  {
   "property": "C67",
   "status": "proved",
   "theorems": [
    "C67_handlers",
    "C67_transfer",
    "C67_euclid",
    "C67_euclid_sub",
    "C67_euclid_equal_refuted",
    "C67_subscript_refuted"
   ],
   "note": "Handlers that make no difference. Model: Machine.v, While.v with handlers against Strict.v without. Release builds throw only for refused requests (the lemmas of C37), statement by statement; then C66, C48 and C49."
  },
  {
   "property": "C68",
   "status": "proved",
   "theorems": [
    "C68_difference",
    "C68_sum",
    "C68_sum_one_sign",
    "C68_product",
    "C68_quotient",
    "C68_refuted"
   ],
   "note": "Results that are zero. Model: Bignum.v: the four operators followed by ==. The exact sign and digits of the results (sums and quotients are never digit-less, differences and products always canonical), then C08."
  },
  {
   "property": "C69",
   "status": "proved",
   "theorems": [
    "C69_difference",
    "C69_difference_copies",
    "C69_mixed_sub",
    "C69_sum",
    "C69_sum_grows",
    "C69_self",
    "C69_product",
    "C69_quotient",
    "C69_binary",
    "C69_comparisons"
   ],
   "note": "Operations that need no memory. Model: Bignum.v; requests for memory counted by the monad of Base.v. The result of an addition is longer by the number of requests, and its length follows from its value; subtraction never asks; the first request of the others is explicit; C66 carries a run without requests to every allocator."
  },
  {
   "property": "C70",
   "status": "proved",
   "theorems": [
    "C70_number",
    "C70_flags",
    "C70_prefix",
    "C70_sequence",
    "C70_truncated"
   ],
   "note": "Numbers written to a stream that fails. Model: Sink.v: operator << insertion by insertion on a stream with bounded room whose buffer refuses or throws, with and without exceptions(). Every insertion sends its text character by character or is inert on a bad stream; composed along operator << and along sequences; truncated texts by the digits of C32."
  },
  {
   "property": "C71",
   "status": "proved",
   "theorems": [
    "C71_schedules",
    "C71_completes",
    "C71_memory",
    "C71_numbers",
    "C71_dependent_refuted"
   ],
   "note": "Clients with several threads. Model: Threads.v: the programs of Strict.v stepwise under an arbitrary schedule, variables and allocator shared. Locality of every statement (ThreadsProof.v), independence of the number of requests made before (UniformProof.v, for every function); induction over the schedule; stepwise and structured executions agree; then C66."
  },
  {
   "property": "C72",
   "status": "proved",
   "theorems": [
    "C72_requests",
    "C72_assignment",
    "C72_product",
    "C72_held",
    "C72_linear"
   ],
   "note": "The memory that a multiplication asks for. Model: MulMemory.v: mul_strassen, the transforms and *= with one request for every vector that is reserved, copied or built, and the blocks that a completed multiplication acquires and releases. A computation that makes a fixed number of requests and stops at the first refusal (asks, MulMemoryProof.v); induction over the recursion of the transform; the digits part asks for nothing; C17 for the product."
  },
  {
   "property": "C73",
   "status": "proved",
   "theorems": [
    "C73_when_lt_is_an_order",
    "C73_equivalent_keys",
    "C73_careful",
    "C73_key",
    "C73_sort_permutes",
    "C73_sort",
    "C73_sort_refuted",
    "C73_lower_bound",
    "C73_lower_bound_lt",
    "C73_max_min"
   ],
   "note": "Sorting, searching and maxima by the comparison operators. Model: Sorting.v: insertion sort as std::sort does it for up to 16 elements, std::lower_bound, std::max and std::min over the comparison operators. The answers of < in closed form, digitwise order against the order of the values (SortingProof.v); invariants of the two loops for every comparator that answers by a key."
  },
  {
   "property": "C74",
   "status": "proved",
   "theorems": [
    "C74_counting",
    "C74_rounds",
    "C74_bound",
    "C74_worst",
    "C74_power",
    "C74_quadratic"
   ],
   "note": "The work of a division. Model: DivWork.v: the two loops of abs_val_div with counters. The counted run ends as the run of Division.v for every allocation behaviour (C74_counting); the inner loop stops at the highest one bit of the quotient, which the outer loop then removes (DivWorkProof.v)."
  },
  {
   "property": "C75",
   "status": "proved",
   "theorems": [
    "C75_unchanged",
    "C75_types",
    "C75_removing_separators",
    "C75_separators",
    "C75_positions",
    "C75_text",
    "C75_unlike_integers"
   ],
   "note": "Numbers written in a locale that groups digits. Model: Grouping.v: operator << with the stream's numpunct facet (separator, sizes of the groups) as an argument. The grouping of one digit of the list at a time; length of a digit's text against powers of the radix."
  },
  {
   "property": "C76",
   "status": "proved",
   "theorems": [
    "C76_extends_C50",
    "C76_programs",
    "C76_root",
    "C76_root_of_one_refuted",
    "C76_power",
    "C76_power_right_iff",
    "C76_careful_power"
   ],
   "note": "Roots and powers by the client. Model: Clients.v over Machine.v and While.v: Newton's iteration and repeated squaring as client programs. A big-step semantics with the quotient the library computes, sound for every base (C76_programs); invariants of the two loops over it."
  },
  {
   "property": "C77",
   "status": "proved",
   "theorems": [
    "C77_no_more",
    "C77_operators",
    "C77_comparisons",
    "C77_programs",
    "C77_endless",
    "C77_wrong_loop"
   ],
   "note": "Programs predicted without digits. Model: all operators and comparisons of Bignum.v, the statements of Machine.v and While.v, against Calculator.v (a specification on descriptors and integers). Each digit algorithm is replaced by its integer result with the exact form of zero results; one simulation for returning, undefined and unending executions."
  },
  {
   "property": "C78",
   "status": "proved",
   "theorems": [
    "C78_numbers",
    "C78_types",
    "C78_refuted"
   ],
   "note": "Programs that give the same numbers in every type. Model: as C77, with a second calculator that does not know a base. The baseless calculator is below the one of every base in the order in which unknown is least; C77 twice."
  },
  {
   "property": "C79",
   "status": "proved",
   "theorems": [
    "C79_programs",
    "C79_returns",
    "C79_operators",
    "C79_binary",
    "C79_numbers",
    "C79_capacity"
   ],
   "note": "Theorems hold whatever the standard library does with capacities. Model: Capacity.v: all operators and the client machine again, on vectors that have a capacity and ask only beyond it; the growth policy of the standard library is a parameter. Every execution of the capacity model is an execution of the model of Base.v for some list of answers of the allocator, with a refusal only if there was one; invariant size <= capacity."
  },
  {
   "property": "C80",
   "status": "proved",
   "theorems": [
    "C80_accumulate",
    "C80_copies",
    "C80_fits",
    "C80_beyond"
   ],
   "note": "Accumulating sums allocates rarely. Model: loops of += and of x = x + y over the operators of Capacity.v. Potential of the capacity doubles with every request; computations that ask for nothing do not depend on the allocator."
  },
  {
   "property": "C81",
   "status": "proved",
   "theorems": [
    "C81_counting",
    "C81_sum",
    "C81_difference",
    "C81_product",
    "C81_naive",
    "C81_bound"
   ],
   "note": "Exact work of sums, differences and products. Model: Work.v: the loops of sums, differences, transforms and both products again, with their rounds counted. Counting changes nothing (erasure, for every allocator); exact counts by induction over the loops and the recursion of the transform."
  },
  {
   "property": "C82",
   "status": "proved",
   "theorems": [
    "C82_mod_power",
    "C82_common_factor_refuted",
    "C82_same_key",
    "C82_message_back"
   ],
   "note": "Modular exponentiation by a client. Model: ModPower.v: a client that computes powers modulo a number with the operators. Rules of C76 for the program, induction on the exponent with coprimality as the invariant; RSA by Euler's theorem (mathcomp, carried to Z in EulerProof.v); the wrong cases by the calculator of C77."
  },
  {
   "property": "C83",
   "status": "proved",
   "theorems": [
    "C83_step",
    "C83_capacity",
    "C83_program",
    "C83_give",
    "C83_failed_push_keeps_refuted",
    "C83_spare_room_lost",
    "C83_requests"
   ],
   "note": "Vectors of numbers. Model: Sequence.v: std::vector<Bignum> of libstdc++ (push_back by copy and by move, insert, erase, pop_back, std::swap of elements, reserve), element by element on objects with capacities; `grow` (the growth of the storage) is a parameter. Every operation asks a number of times known beforehand and gives one result, or throws and gives the vector back (`stronger`); lists by splitting at the index."
  },
  {
   "property": "C84",
   "status": "proved",
   "theorems": [
    "C84_raised",
    "C84_same_state",
    "C84_dead_handlers",
    "C84_dead_bad_alloc",
    "C84_std_exception",
    "C84_two_handlers",
    "C84_cleanup",
    "C84_handlers",
    "C84_left_behind",
    "C84_underflow_handler_refuted",
    "C84_bad_alloc_handler_refuted",
    "C84_std_handler_refuted"
   ],
   "note": "Which handlers can run. Model: Catch.v: programs with nested try blocks, handlers by type, `throw;`, and what() texts. The exceptions of every statement from C37 and C39; induction on the fuel of the program for programs."
  },
  {
   "property": "C85",
   "status": "proved",
   "theorems": [
    "C85_least_factor",
    "C85_divisor_sum",
    "C85_divisor_sum_refuted"
   ],
   "note": "Factors and divisors by a client. Model: Factor.v: trial division and the sum of the divisors as clients of the operators. The rules for clients of C76, the loop by induction on n - d; all allocators by C67."
  },
  {
   "property": "C86",
   "status": "proved",
   "theorems": [
    "C86_counting",
    "C86_width",
    "C86_digits",
    "C86_bound",
    "C86_cubic"
   ],
   "note": "The digits that a division doubles. Model: DivDigits.v: abs_val_div with the rounds of the loop in shift_left_1 counted. Counting changes nothing (C86_counting); the search for a one bit at position j doubles numbers of known lengths; sums of odd numbers and squares."
  },
  {
   "property": "C87",
   "status": "proved",
   "theorems": [
    "C87_programs",
    "C87_gcd",
    "C87_power",
    "C87_power_refuted",
    "C87_operators",
    "C87_self_post"
   ],
   "note": "Programs over the integer wrapper. Model: IntMachine.v: statements over wrapped and plain variables, each running the operators of BNInt.v; the two clients are programs of that language. The same statements over unbounded integers (zrun in PropIntMachine.v); induction on that run; reduction modulo 2^W commutes with each operator under the conditions zbin lists. The assignment forms are the binary forms by definition of the model, since the code repeats one built-in expression in all of them."
  },
  {
   "property": "C88",
   "status": "proved",
   "theorems": [
    "C88_default",
    "C88_flushed",
    "C88_operations",
    "C88_product",
    "C88_square",
    "C88_column_overflow",
    "C88_lengths",
    "C88_per_type",
    "C88_lengths_sharp",
    "C88_same_product",
    "C88_programs",
    "C88_phases"
   ],
   "note": "Products in any floating-point environment. Model: Environment.v: binary64 with a rounding direction and the two flushing modes; programs in parts, each in its environment. The same error analysis as C17, with unit 2^-52 and the flushed value as the value of a double (rounding_in in EnvironmentProof.v); programs by the calculator of C77, whose proof takes any arithmetic that multiplies rightly."
  },
  {
   "property": "C89",
   "status": "proved",
   "theorems": [
    "C89_multiple",
    "C89_never_right",
    "C89_square",
    "C89_operator",
    "C89_odd",
    "C89_single_digits"
   ],
   "note": "Products of 32-bit digits that are never right. Model: the model of C88. The error analysis of C17 without its precision condition (coefficients_near in WideProof.v), monotonicity of rounding at 2^(52+k), the significand of a double; the lowest digit decides the residue modulo 2^k."
  },
  {
   "property": "C90",
   "status": "proved",
   "theorems": [
    "C90_transform",
    "C90_inverse",
    "C90_round_trip",
    "C90_convolution",
    "C90_coefficients",
    "C90_float_decimal",
    "C90_long_double",
    "C90_table",
    "C90_table_refuted"
   ],
   "note": "The transforms at float and long double. Model: Formats.v: the operations of any binary format of Flocq, conversions between formats, the angle in the wider of double and flt_t, the length converted to flt_t and back. The same error analysis as C51 with the angle's error as its only assumption about pi (AngleProof.v, FormatProof.v); the lower bound by computing the angle of a quarter turn exactly and bounding its cosine from below."
  },
  {
   "property": "C91",
   "status": "proved",
   "theorems": [
    "C91_operations",
    "C91_complex_parts",
    "C91_product",
    "C91_square",
    "C91_column_overflow",
    "C91_per_type",
    "C91_lengths_sharp",
    "C91_same_product",
    "C91_programs"
   ],
   "note": "Products with excess precision. Model: Excess.v: every operation computed in a wider format of Flocq and converted to double when it is assigned; each product inside a complex product kept or stored, per place; nearest rounding, and no values kept in registers across assignments. Double rounding meets the assumptions of FloatModel.v with u = 2^-53 * 1025/1024 (ExcessProof.v); then as C88."
  },
  {
   "property": "C92",
   "status": "proved",
   "theorems": [
    "C92_product",
    "C92_column_overflow",
    "C92_float",
    "C92_long_double",
    "C92_long_double_sharp",
    "C92_same_product",
    "C92_float_wrong",
    "C92_digits_right"
   ],
   "note": "Multiplication with another floating-point type. Model: MulFormats.v: mul_strassen with flt_t a parameter; x + 0.5, its floor and the sum with the carry are computed in the wider of double and flt_t, since 0.5 is a double. C90's error bound for the coefficients, the conversion to the wider type being exact, and the carry loop of C17 with the arithmetic of the wider type; wrong products: a float above 2^24 is even, so the lowest digit is even."
  }
 ]
}