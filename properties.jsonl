{"id": "C01", "title": "Addition is integer addition", "statement": "For every two finite (BN_POS/BN_NEG) numbers x and y whose digits are in range and carry no superfluous high-order zero digit (a lone 0 digit is allowed), x += y and x + y give a number whose signed value is exactly value(x)+value(y), with every digit in range; y is not modified. The only excluded inputs are two digit-less numbers (the zero a user gets from {0} or {}) of opposite signs, covered by C04.", "quantifier": "all shipped number types (and every base/word size meeting the shipped types' side conditions), all lengths, all digit values, all finite sign pairs, all allocation outcomes", "why_tests_cant": "unboundedly many digit strings, bases and sign combinations; a test samples a handful", "anchors": ["include/bignum/impl/bn_type_impl.h: operator +=, operator +", "include/bignum/impl/bn_addition_impl.h: abs_val_add", "include/bignum/impl/bn_subtraction_impl.h: abs_val_sub"]}
{"id": "C02", "title": "Adding a number to itself in place", "statement": "x += x (the argument is the same object, so the digit buffer is read while it is being overwritten and may be grown) doubles the value of x for every finite x, with digits in range.", "quantifier": "all lengths, digits, bases, signs", "why_tests_cant": "aliasing bugs depend on carry chains reaching the end of the buffer; unboundedly many digit strings, bases and sign combinations; a test samples a handful", "anchors": ["include/bignum/impl/bn_type_impl.h: operator +=", "include/bignum/impl/bn_addition_impl.h: abs_val_add"]}
{"id": "C03", "title": "Same-sign subtraction is integer subtraction", "statement": "For every two finite numbers of the same sign, in range and without superfluous high-order zeros, x -= y and x - y give value(x)-value(y), the result's digits are in range and it has no high-order zero digit at all; excluded: both operands digit-less (C04).", "quantifier": "all shipped number types, lengths, digits, both sign classes, all allocation outcomes", "why_tests_cant": "unboundedly many digit strings, bases and sign combinations; a test samples a handful", "anchors": ["include/bignum/impl/bn_type_impl.h: operator -=", "include/bignum/impl/bn_subtraction_impl.h: abs_val_sub"]}
{"id": "C04", "title": "Out-of-bounds access happens exactly when both magnitudes are digit-less", "statement": "x -= y (any finite signs) and x += y (opposite signs) access a digit outside the buffer exactly when both operands hold no digits, i.e. 0 - 0 and 0 + (-0) for zeros written {0}, {} or obtained by a subtraction are undefined behaviour, and for every other pair of finite operands no out-of-range digit access takes place.", "quantifier": "all digit strings, including malformed ones", "why_tests_cant": "memory errors on particular inputs need every length pair to be ruled out; tests never used zero", "anchors": ["include/bignum/impl/bn_subtraction_impl.h: abs_val_sub", "include/bignum/impl/bn_type_impl.h: operator -=, operator +="]}
{"id": "C05", "title": "Mixed-sign subtraction does not subtract", "statement": "When the signs of two finite operands differ, x -= y does not produce value(x)-value(y): keeping x's sign, the magnitude becomes |x|-|y| if |x|>=|y| with operator-style 'greater' holding, 0 if that test fails, and B^n+|x|-|y| when the test wrongly succeeds; it therefore agrees with true subtraction only when y is zero or 2|y| equals B^n in the wrapped case. (Deviation from the documented 'copy of *this with the parameter value subtracted', witnessed.)", "quantifier": "all finite operands of opposite sign, all bases", "why_tests_cant": "the exact set of wrong inputs is infinite", "anchors": ["include/bignum/impl/bn_type_impl.h: operator -="]}
{"id": "C06", "title": "Adding then subtracting restores the number", "statement": "For all non-negative x, y without high-order zeros, ((x + y) - y) == x evaluates to true, including when either or both are zero.", "quantifier": "all lengths, digits, bases", "why_tests_cant": "unboundedly many digit strings, bases and sign combinations; a test samples a handful", "anchors": ["include/bignum/impl/bn_type_impl.h: operator +=, operator -=, operator =="]}
{"id": "C07", "title": "Commutativity of addition as seen by ==", "statement": "For all finite x, y with canonical digits for which both sums are defined, (x + y) == (y + x) is true unless the operands have opposite signs and equal magnitude, in which case it is false (the two sums are +0 and -0).", "quantifier": "all finite canonical operand pairs", "why_tests_cant": "unboundedly many digit strings, bases and sign combinations; a test samples a handful", "anchors": ["include/bignum/impl/bn_type_impl.h: operator +=, operator =="]}
{"id": "C08", "title": "Equality is representation equality", "statement": "x == y is true exactly when both have the same descriptor and the same digit sequence, and x != y is its negation in every state; hence == is an equivalence, and on numbers without high-order zeros == holds exactly when the values are equal, except that +0 and -0 differ; a zero stored as one 0 digit differs from a digit-less zero.", "quantifier": "all states, including NaN, infinities and malformed digits", "why_tests_cant": "unboundedly many digit strings, bases and sign combinations; a test samples a handful", "anchors": ["include/bignum/impl/bn_type_impl.h: operator ==, operator !=", "include/bignum/impl/bn_compare_impl.h: abs_val_is_eq"]}
{"id": "C09", "title": ">= and <= on non-negative numbers", "statement": "For all BN_POS operands without high-order zeros, x >= y is true exactly when value(x) >= value(y), and x <= y exactly when value(x) <= value(y).", "quantifier": "all lengths, digits and bases", "why_tests_cant": "unboundedly many digit strings, bases and sign combinations; a test samples a handful", "anchors": ["include/bignum/impl/bn_type_impl.h: operator >=, operator <=", "include/bignum/impl/bn_compare_impl.h: abs_val_is_ge, abs_val_is_le"]}
{"id": "C10", "title": "> and < on non-negative numbers: complete but unsound", "statement": "For BN_POS operands without high-order zeros, x > y is true whenever value(x) > value(y), but it is also true exactly when the lengths agree and some digit of x exceeds the digit of y at the same position, so 19 > 20 is true; the same holds for < with the roles exchanged. (Deviation from the documented order, characterised for every input and witnessed.)", "quantifier": "all lengths, digits and bases", "why_tests_cant": "a test can show one wrong pair, not the exact set", "anchors": ["include/bignum/impl/bn_type_impl.h: operator >, operator <", "include/bignum/impl/bn_compare_impl.h: abs_val_is_gt, abs_val_is_lt"]}
{"id": "C11", "title": "Comparisons of two negative numbers", "statement": "For BN_NEG operands: x > x and not (x >= x), not (x <= x) hold for every x; x > y is true exactly when value(x) >= value(y) (canonical operands); x >= y is true exactly when x is shorter than y or lengths agree and some digit of x is smaller; x < y and x <= y are the same function. (Deviation from the documented order, characterised and witnessed.)", "quantifier": "all pairs of negative numbers", "why_tests_cant": "unboundedly many digit strings, bases and sign combinations; a test samples a handful", "anchors": ["include/bignum/impl/bn_type_impl.h: operator >, operator >=, operator <, operator <="]}
{"id": "C12", "title": "Comparison across signs", "statement": "For finite x, y of different sign, x > y and x >= y are true exactly when x is BN_POS, x < y and x <= y exactly when x is BN_NEG; this agrees with the values except when both are zero.", "quantifier": "all finite operands of opposite sign", "why_tests_cant": "unboundedly many digit strings, bases and sign combinations; a test samples a handful", "anchors": ["include/bignum/impl/bn_type_impl.h: operator >, >=, <, <="]}
{"id": "C13", "title": "> is not a strict order", "statement": "There are non-negative numbers with x > y and y > x both true, so sorting with operator < or > has no defined result; in every base, >= and <= on non-negative canonical numbers are total orders.", "quantifier": "existence plus all bases", "why_tests_cant": "the positive half quantifies over all triples", "anchors": ["include/bignum/impl/bn_type_impl.h: operator >, operator <, operator >=, operator <="]}
{"id": "C14", "title": "NaN and infinity on the left of a compound assignment", "statement": "If x is NaN or infinite, x += y, x -= y, x *= y and x /= y all discard x: the result has y's descriptor and no digits; so NaN and infinity are not sticky: NaN + 5 is +0.", "quantifier": "all y, every operator", "why_tests_cant": "quantifies over all right operands", "anchors": ["include/bignum/impl/bn_type_impl.h: operator +=, -=, *=, /=, isComputable"]}
{"id": "C15", "title": "NaN and infinity on the right of an operator", "statement": "If x is finite and y is NaN or infinite with no digits, x + y leaves the value of x unchanged (with BN_NEG/BN_POS kept), x - y too unless x is digit-less (out-of-bounds access), x * y is zero unless x is digit-less (never returns), and x / y for non-zero x never returns for the base-N types, and divides by the integer zero (undefined behaviour) for the full-width types.", "quantifier": "all finite x", "why_tests_cant": "unboundedly many digit strings, bases and sign combinations; a test samples a handful", "anchors": ["include/bignum/impl/bn_type_impl.h: operator +=, -=, *=, /="]}
{"id": "C16", "title": "Multiplication in exact arithmetic", "statement": "If the complex arithmetic, pi, sine and cosine were exact, then for every two in-range numbers, not both digit-less and with total length at most 2^32, x *= y and x * y give the product of the values, with the sign rule, digits in range and no high-order zeros, provided every column total (with the carry from lower columns) fits the double type, which holds if (shorter length)*(B-1)*B is at most the number of its values; beyond that bound there are operands for which it is undefined behaviour.", "quantifier": "all shipped types, all lengths and digits", "why_tests_cant": "unboundedly many digit strings, bases and sign combinations; a test samples a handful", "anchors": ["include/bignum/impl/bn_multiplication_impl.h: mul_strassen", "include/bignum/impl/bn_type_impl.h: operator *=", "include/bignum/impl/fourier_impl.h: fft_complex, ifft_complex, convolute_fft, create_fft_table"]}
{"id": "C17", "title": "Multiplication in IEEE double arithmetic", "statement": "With every floating-point operation rounded as IEEE binary64 requires, multiply-adds fused or not as the compiler likes, and sine/cosine accurate to 2^-52 on [-4,4], the product is exact whenever 103 (l+1) (Q+1) <= 2^53, where l is the rounded-up binary logarithm of the total number of digits and Q the sum of the squares of all the digits of both operands, and no column total of the product exceeds the double type. For the base 2, 8, 10 and 16 types this leaves only a limit on the length m of the shorter operand, for all total lengths up to 2^32: m <= 128, 1170, 47721858, 17895697 respectively; these limits are exact: m+1 maximal digits times m+2 maximal digits is undefined behaviour.", "quantifier": "all operands up to the length bound; every rounding behaviour satisfying the standard model; every libm meeting the accuracy bound", "why_tests_cant": "rounding errors accumulate over all digit patterns", "anchors": ["include/bignum/impl/bn_multiplication_impl.h: mul_strassen", "include/bignum/impl/fourier_impl.h: fft_complex"]}
{"id": "C18", "title": "Multiplication by the full-width types overflows", "statement": "For bignum_lowp, bignum_medp and bignum two operands with at least two maximal digits make a coefficient exceed the double-precision type, which is undefined behaviour; for bignum (32-bit digits) even one-digit operands are multiplied inexactly: (2^32-1)*(2^32-1) is wrong under IEEE rounding.", "quantifier": "existence for each type and every length >= 2", "why_tests_cant": "needs the exact arithmetic of rounding", "anchors": ["include/bignum/impl/bn_multiplication_impl.h: mul_strassen"]}
{"id": "C19", "title": "Zero times zero never returns", "statement": "If neither operand has any digit, x * y and x *= y recurse without bound.", "quantifier": "every recursion depth", "why_tests_cant": "non-termination cannot be observed by a test", "anchors": ["include/bignum/impl/fourier_impl.h: fft_complex", "include/bignum/impl/bn_multiplication_impl.h: mul_strassen"]}
{"id": "C20", "title": "The transform computes the discrete Fourier transform", "statement": "In exact arithmetic fft_complex on a list whose length is a power of two replaces entry k by sum_j x_j e^(-2 pi i jk/n), and ifft_complex inverts it. For other lengths this is false, although the comments speak of zero padding: 1, 0, 0 becomes 1, 1, 0; for length 0 neither function returns.", "quantifier": "all power-of-two lengths, all complex inputs", "why_tests_cant": "all inputs and all lengths", "anchors": ["include/bignum/impl/fourier_impl.h: fft_complex, ifft_complex"]}
{"id": "C21", "title": "Pointwise product step is cyclic convolution", "statement": "In exact arithmetic create_fft_table, convolute_fft and ifft_complex together yield the convolution of the two digit sequences, entry by entry, with zero imaginary part.", "quantifier": "all digit sequences", "why_tests_cant": "all inputs", "anchors": ["include/bignum/impl/fourier_impl.h: create_fft_table, convolute_fft, ifft_complex"]}
{"id": "C22", "title": "nextPow2", "statement": "nextPow2(n) is the least power of two >= n for every 64-bit n with 1 <= n <= 2^32, and 0 for 0; above 2^32 the claim fails.", "quantifier": "all 64-bit n up to 2^32", "why_tests_cant": "2^32 inputs; the failing region needs operands of 4 G digits", "anchors": ["include/bignum/impl/fourier_impl.h: nextPow2, isPow2"]}
{"id": "C23", "title": "Schoolbook multiplication", "statement": "mul_naive returns digits whose value is the product of its operands' values, for every type whose squared base fits the digit word (all shipped base-N types) and total length below 2^32; for full-width types it returns the carry-less truncated convolution, so the value is generally wrong.", "quantifier": "all lengths and digits", "why_tests_cant": "unboundedly many digit strings, bases and sign combinations; a test samples a handful", "anchors": ["include/bignum/impl/bn_multiplication_impl.h: mul_naive"]}
{"id": "C24", "title": "Division is truncated division, except x/x", "statement": "For every base-N type and finite canonical x, y with y non-zero and |x| <> |y| or |y| = 1, x /= y returns, and gives the quotient truncated toward zero with the sign rule, digits in range; when |x| = |y| <> 1 (x non-zero) the result is 0 instead of 1.", "quantifier": "all lengths, digits, base-N types, signs", "why_tests_cant": "unboundedly many digit strings, bases and sign combinations; a test samples a handful", "anchors": ["include/bignum/impl/bn_type_impl.h: operator /=", "include/bignum/impl/bn_division_impl.h: abs_val_div"]}
{"id": "C25", "title": "Division terminates within a logarithmic number of rounds", "statement": "For every base-N type and canonical non-zero divisor, the quotient loop runs at most log2|x|+1 outer rounds of at most log2|x|+1 doublings each.", "quantifier": "all operands", "why_tests_cant": "termination for all inputs", "anchors": ["include/bignum/impl/bn_division_impl.h: abs_val_div"]}
{"id": "C26", "title": "Division by zero", "statement": "Dividing a finite x by a zero stored as one 0 digit gives the infinity of the sign product, with no digits; dividing a non-zero x by a digit-less zero never returns (for every number of loop iterations, it is still running or has run out of memory); dividing a zero by a digit-less zero returns zero.", "quantifier": "all x, all iteration counts", "why_tests_cant": "non-termination", "anchors": ["include/bignum/impl/bn_type_impl.h: operator /=", "include/bignum/impl/bn_division_impl.h: abs_val_div"]}
{"id": "C27", "title": "Division with full-width digits", "statement": "For bignum_lowp, bignum_medp and bignum, every division that reaches the quotient loop with a divisor that has digits divides by the integer zero (undefined behaviour): x / y is defined only when y is 1 or a lone 0 digit, x is zero, or x is not above y.", "quantifier": "all operands", "why_tests_cant": "holds for every operand pair", "anchors": ["include/bignum/impl/bn_division_impl.h: abs_val_div, shift_left_1"]}
{"id": "C28", "title": "Construction from a digit list", "statement": "Bignum(desc, {d_k,...,d_0}) stores the digits so that the value is the base-B number written most significant digit first, removes all leading zeros (so no high-order zero remains and an all-zero list gives a digit-less number), keeps the descriptor, and does not depend on how many leading zeros were given; digits out of range and digits under NaN/infinity are kept unchecked.", "quantifier": "all lists and descriptors", "why_tests_cant": "unboundedly many digit strings, bases and sign combinations; a test samples a handful", "anchors": ["include/bignum/impl/bn_type_impl.h: Bignum(bn_desc_t, initializer_list)"]}
{"id": "C29", "title": "Digit insertion and removal", "statement": "push_back(d) appends d as the most significant digit (value + d*B^size), pop_back removes it, push_front(d) inserts the least significant digit (value*B + d), pop_front removes it, push/pop act at a position and are mutually inverse; push_front/push_back therefore have the opposite effect of their documentation; popping from an empty number or beyond the size is undefined behaviour. resize(n, d), documented as a reservation of memory, leaves exactly n digits: the value modulo B^n, or the value with n - size digits d written in front.", "quantifier": "all digit sequences and positions", "why_tests_cant": "unboundedly many digit strings, bases and sign combinations; a test samples a handful", "anchors": ["include/bignum/impl/bn_type_impl.h: push_back, pop_back, push_front, pop_front, push, pop, resize"]}
{"id": "C30", "title": "Checked subscripting", "statement": "x[i] returns the i-th least significant digit when i < size() and otherwise throws without touching the number; it never reads outside the buffer.", "quantifier": "all numbers and all indices", "why_tests_cant": "all indices", "anchors": ["include/bignum/impl/bn_type_impl.h: operator[]", "src/bn_except.cpp: bn_runtime_assert"]}
{"id": "C31", "title": "Descriptor changes and classification", "statement": "setDescriptor to NaN or an infinity empties the digits, to BN_POS/BN_NEG keeps them; clear gives +0; exactly one of isPositive, isNegative, isNan holds in each state, isInfinite is never true for finite or NaN numbers, and isComputable is the negation of (isNan or isInfinite).", "quantifier": "all states", "why_tests_cant": "finite enumeration over descriptors times all digit data", "anchors": ["include/bignum/impl/bn_type_impl.h: setDescriptor, clear, isPositive, isNegative, isInfinite, isNan, isComputable"]}
{"id": "C32", "title": "Printed text", "statement": "For bignum_base10, writing a canonical finite number to a stream yields exactly the usual decimal numeral of its value (with '-' also for negative zero); for bignum_base8 the octal numeral; so distinct values print differently. For bignum_base16, bignum_medp and bignum two different numbers can print the same text.", "quantifier": "all numbers", "why_tests_cant": "injectivity over all pairs", "anchors": ["include/bignum/impl/bn_type_impl.h: operator <<", "include/bignum/impl/bn_int_type_impl.h: operator <<"]}
{"id": "C33", "title": "Fixed-width integer wrapper", "statement": "Each BNIntType arithmetic operator returns the mathematical result modulo 2^W whenever the underlying C++ expression is defined, and the undefined cases are exactly: division or remainder by zero, shift counts not below the promoted width, 16-bit products above 2^31-1, (and left shifts of promoted values beyond 32 bits); comparisons are numeric; compound and binary forms agree.", "quantifier": "all widths 8/16/32/64, all operand values", "why_tests_cant": "2^128 operand pairs", "anchors": ["include/bignum/impl/bn_int_type_impl.h: BN_INT_TYPE_BINARY_OP, unary operators, BN_INT_TYPE_BOOL_OP"]}
{"id": "C34", "title": "Digits stay in range over any history", "statement": "Starting from numbers with in-range digits and performing any sequence of constructions, copies, moves, +=, -=, *=, /= (including on the same object), setDescriptor, clear, push and pop with in-range digits, every number reached has all digits in range, unless the history hits undefined behaviour or non-termination.", "quantifier": "all operation sequences over any number of variables, all aliasing patterns, all allocation failures", "why_tests_cant": "unbounded histories", "anchors": ["include/bignum/impl/bn_type_impl.h: all members"]}
{"id": "C35", "title": "No superfluous zeros over any arithmetic history", "statement": "Over any sequence of constructions, copies, moves, +=, -=, *=, /=, setDescriptor and clear, every number reached is either without high-order zero digits or a lone 0 digit.", "quantifier": "all operation sequences", "why_tests_cant": "unbounded histories", "anchors": ["include/bignum/impl/bn_type_impl.h: constructors, operator +=, -=, *=, /="]}
{"id": "C36", "title": "Programs of constructions, copies and additions compute integers", "statement": "Any program of constructions, copies, clears and additions over any number of variables that does not hit the digit-less 0 + (-0) case leaves each variable with the value a mathematical interpreter over the integers computes.", "quantifier": "all programs, all inputs", "why_tests_cant": "unbounded histories", "anchors": ["include/bignum/impl/bn_type_impl.h: operator +=, copy/assignment"]}
{"id": "C37", "title": "Failure atomicity of compound assignment", "statement": "If any memory allocation inside x += y, x -= y, x *= y or x /= y fails, the call throws an object of type std::exception (not std::bad_alloc), x ends as an infinity with no digits whose sign is that of y's descriptor (BN_POS gives +INF, anything else -INF), and y is unmodified unless it is x; if no allocation fails, nothing is thrown (release build).", "quantifier": "every allocation point (crash point), all operands", "why_tests_cant": "every failure point of every execution", "anchors": ["include/bignum/impl/bn_type_impl.h: operator +=, -=, *=, /= catch blocks"]}
{"id": "C38", "title": "Binary operators never change their operands", "statement": "x + y, x - y, x * y and x / y leave x and y unmodified, whether they return or throw, and return what the compound form would have stored.", "quantifier": "all operands and allocation failures", "why_tests_cant": "every failure point", "anchors": ["include/bignum/impl/bn_type_impl.h: operator +, -, *, /"]}
{"id": "C39", "title": "Debug builds reject valid subtractions", "statement": "With BN_DEBUG, subtracting throws exactly when the lengths agree and some digit of the subtrahend exceeds the digit above it in the minuend (or the minuend is shorter), so 20 - 19 throws and leaves an infinity; when it does not throw the result is the same as in a release build. Adding numbers of different sign throws exactly if the smaller magnitude looks greater in this sense, subtracting numbers of different sign exactly if each magnitude looks greater than the other, and adding numbers of the same sign never.", "quantifier": "all operands", "why_tests_cant": "unboundedly many digit strings, bases and sign combinations; a test samples a handful", "anchors": ["include/bignum/impl/bn_subtraction_impl.h: abs_val_sub BN_DEBUG block", "include/bignum/impl/bn_compare_impl.h: abs_val_is_lt"]}
{"id": "C40", "title": "Copy and move", "statement": "Copy construction and assignment give an equal number and leave the source unchanged (self-assignment included); move construction and move assignment give the target the source's former digits and descriptor. Moving an object onto itself asks for no memory and changes no other object, but makes it positive, with its digits or without (as the container does): a negative number becomes its absolute value or zero, an infinity or NaN becomes a finite number.", "quantifier": "all numbers", "why_tests_cant": "all states", "anchors": ["include/bignum/impl/bn_type_impl.h: constructors, operator="]}
{"id": "C41", "title": "Shipped limits satisfy the arithmetic side conditions", "statement": "Every shipped (single, double, max) combination leaves enough room in the double type for carry detection in addition and borrow detection in subtraction, and exactly the base-N combinations leave room for doubling a digit in the single type.", "quantifier": "all shipped types", "why_tests_cant": "the side conditions are what every other claim rests on", "anchors": ["include/bignum/bn_limits.h, include/bignum/impl/bn_limits_impl.h"]}
{"id": "C42", "title": "Runtime assertions", "statement": "bn_runtime_assert does nothing when the condition holds; otherwise it writes one line (ALERT to stdout, WARNING and ERROR to stderr) and throws exactly for BN_ERROR.", "quantifier": "all arguments", "why_tests_cant": "finite, recorded for completeness", "anchors": ["src/bn_except.cpp: bn_runtime_assert"]}
{"id": "C43", "title": "Copy assignment is not failure atomic", "statement": "If the allocation inside x = y fails, std::bad_alloc leaves the assignment and x then carries y's descriptor with its own old digits: a failed assignment can turn 5 into -5, so x does not keep its value (basic guarantee only, unlike what a user of a value type expects; witnessed).", "quantifier": "all x, y with a refused allocation", "why_tests_cant": "needs an allocation failure at one specific point", "anchors": ["include/bignum/impl/bn_type_impl.h: operator=(const Bignum&)"]}
{"id": "C44", "title": "Programs over natural numbers compute natural numbers", "statement": "For the base-N types (bignum_base2, 8, 10, 16, 256), any program of constructions of non-negative numbers, copies, moves, clears, +=, -=, /=, +, - and / in which every difference has a positive minuend not below the subtrahend and every division has a positive divisor that differs from the dividend (or is 1), returns normally - no exception, no undefined behaviour, no endless loop - and leaves every variable with exactly the natural number that the mathematical program computes, whatever zeros are stored along the way.", "quantifier": "all programs over any number of variables, all inputs, all aliasing patterns", "why_tests_cant": "unbounded histories", "anchors": ["include/bignum/impl/bn_type_impl.h: constructors, operator +=, -=, /=, +, -, /"]}
{"id": "C45", "title": "Division of a number with a superfluous high-order zero", "statement": "For the base-N types and a dividend stored with a superfluous high-order zero digit, or several (push_back makes such numbers): let v be its value, n its number of digits less one, y > 1 the divisor's value and 2^k the largest power of two with y*2^k below base^n; the quotient stored is floor(v/y) if v >= y*2^k and floor((v + base^(n+1))/y) otherwise, so it is right exactly if v >= y*2^k (06/2 is 53 in base 10). If the divisor has more than n digits the quotient is 0, as it should be.", "quantifier": "all dividends, divisors, base-N types and signs", "why_tests_cant": "unboundedly many digit strings, bases and sign combinations; a test samples a handful", "anchors": ["include/bignum/impl/bn_type_impl.h: operator /=, push_back", "include/bignum/impl/bn_division_impl.h: abs_val_div", "include/bignum/impl/bn_subtraction_impl.h: abs_val_sub"]}
{"id": "C46", "title": "The compression client restores the text", "statement": "The program of tests/compress_test.cpp, run on a text (non-empty, below 2^25 bytes) with IEEE binary64 arithmetic and accurate sin and cos, writes the same text after compressing and decompressing if the last byte is in 1..127 or 192..255 (signed char: if moreover all bytes are below 128); if the last byte is in 128..191 its highest bit is lost, zero bytes at the end are lost, an empty text becomes one zero byte, and with a signed char type no text with a byte from 128 on comes back: what comes back is, in two's complement with one byte more, the number whose base-256 digits are the signed chars (dropping a zero top byte), e.g. 'a' 195 137 'z' comes back as 'a' 195 136 'y'.", "quantifier": "all texts, both signednesses of char", "why_tests_cant": "the program is correct only because two division defects cancel; no finite set of texts shows that", "anchors": ["tests/compress_test.cpp: compress, decompress", "include/bignum/impl/bn_type_impl.h: push_back, operator *, +, /="]}
{"id": "C47", "title": "Programs over integers with all four operations compute integers", "statement": "For the base-N types, IEEE binary64 arithmetic and accurate sin and cos: any program of constructions, copies, moves, clears, setDescriptor, +, -, *, / and the compound forms over any number of variables returns normally with exactly the integers the mathematical program computes, provided every sum is not of two zeros, every difference has operands of the same strict sign or subtracts zero from a nonzero number, every product has a nonzero factor and stays within the length limits of the type, and every division has a divisor of magnitude 1 or of magnitude different from the dividend's. In particular tests/arithmetic_test.cpp (a += b; a -= b; a *= b; a /= b) restores a, digit for digit, for all positive a and b within the limits unless a = 1 and b > 1, where it ends with 0.", "quantifier": "all programs, all inputs, all aliasing patterns", "why_tests_cant": "unbounded histories", "anchors": ["include/bignum/impl/bn_type_impl.h: operator +=, -=, *=, /=, +, -, *, /", "tests/arithmetic_test.cpp: main"]}
{"id": "C48", "title": "Euclid's algorithm by division", "statement": "The loop q = a / b; q *= b; q = a - q; a = move(b); b = move(q) while b != 0, run on positive a and b within the length limits of a base-N type, ends with a equal to the greatest common divisor if a and b differ or are both 1; for equal a and b greater than 1 it never ends, because a / a is 0.", "quantifier": "all a, b within the length limits, all base-N types", "why_tests_cant": "termination of a loop for unboundedly many inputs", "anchors": ["include/bignum/impl/bn_type_impl.h: operator /, *=, -, !=, move assignment"]}
{"id": "C49", "title": "Euclid's algorithm by subtraction", "statement": "while (a != b) { if (a >= b) a -= b; else b -= a; } ends with both variables equal to the greatest common divisor for all positive a and b of any length; with > in place of >= (equivalent in mathematics) it never ends for 19 and 21 in base 10.", "quantifier": "all positive a, b, all base-N types", "why_tests_cant": "termination of a loop for unboundedly many inputs", "anchors": ["include/bignum/impl/bn_type_impl.h: operator -=, !=, >=, >"]}
{"id": "C50", "title": "Structured programs over natural numbers", "statement": "For the base-N types, IEEE binary64 arithmetic and accurate sin and cos: a client program with sequences, branches and loops on ==, !=, >=, <= over constructions, copies, moves, clears, +, -, *, / and the compound forms ends normally with exactly the natural numbers the mathematical program ends with, whenever that program ends, never subtracts a greater number or from zero, never multiplies two zeros or beyond the length limits, never divides by zero or by an equal number other than one, and never compares a zero that came out of a division or of 0 + 0. In particular the usual loops for k! (within the length limits) and for Fibonacci numbers (without limits) are correct.", "quantifier": "all programs, all inputs, all terminating executions of any length", "why_tests_cant": "unbounded loops", "anchors": ["include/bignum/impl/bn_type_impl.h: all arithmetic and comparison operators"]}
{"id": "C51", "title": "Accuracy of the transforms in IEEE arithmetic", "statement": "With IEEE binary64 arithmetic and cosine and sine within 2^-52, for 2^l (l <= 49) pairs of finite doubles whose absolute values add up to at most 2^140: fft_complex returns finite entries, each within 17.1 l 2^-53 (sum of the absolute values + 2^l 2^-64) of the discrete Fourier transform, with a similar bound for Euclidean lengths; ifft_complex returns the inverse transform within 17.1 (l+1) 2^-53 (Euclidean length / sqrt n + ...); applying both restores the sequence up to a Euclidean distance of 17.1 (2l+1) 2^-53 times its length. Single entries are not restored with that relative accuracy: 2^53, 1 comes back as 2^53, 1/2.", "quantifier": "all lengths up to 2^49, all finite doubles within the bound, all accurate libraries, all choices of fused multiply-adds", "why_tests_cant": "a bound on rounding errors over all inputs", "anchors": ["include/bignum/impl/fourier_impl.h: fft_complex, ifft_complex"]}
{"id": "C52", "title": "The client of the integer wrapper", "statement": "tests/integer_test.cpp prints, for two numbers drawn from 0..100, one line for each operator of BNIntType<unsigned> in both orders. If both numbers are in 1..31 all 32 lines are right (results modulo 2^32); for every other pair the program has undefined behaviour (division by zero or a shift beyond 31).", "quantifier": "all pairs of 32-bit numbers", "why_tests_cant": "the draw is random; most draws are undefined, which a passing run does not show", "anchors": ["tests/integer_test.cpp: main", "include/bignum/impl/bn_int_type_impl.h: all binary operators"]}
{"id": "C53", "title": "Division by a number with a superfluous high-order zero", "statement": "For the base-N types and a divisor y > 0 stored with a superfluous high-order zero (n digits without the zero, T = base^n): a dividend v < T gives 0; for v >= T the result is 2^j * floor(v / (y*2^j)), j being the largest number with v mod (y*2^j) < T. So the result never exceeds the quotient, and it is right exactly if T <= v mod y + y*2^l where 2^l is the largest power of two dividing floor(v/y) (base 10: 6/02 is 0, 30/02 is 12, 96/02 is 48). A divisor of several zero digits is not recognised as zero: dividends with fewer digits give 0 and all others make the division run forever.", "quantifier": "all dividends, divisors, base-N types and signs", "why_tests_cant": "unboundedly many digit strings, bases and sign combinations; a test samples a handful", "anchors": ["include/bignum/impl/bn_type_impl.h: operator /=, push_back", "include/bignum/impl/bn_division_impl.h: abs_val_div"]}
{"id": "C54", "title": "Division in a debug build rejects valid operands", "statement": "With BN_DEBUG and a base-N type, x /= y for canonical x and y > 1 throws and leaves an infinity exactly if, in the division of |x| by repeatedly subtracting the largest |y|*2^k that fits, some |y|*2^k has as many digits as the remainder it is subtracted from and in some place a greater digit; otherwise the debug build does exactly what the release build does. So 30/4 throws; one-digit dividends never do.", "quantifier": "all operands, base-N types, allocators", "why_tests_cant": "unboundedly many digit strings, bases and sign combinations; a test samples a handful", "anchors": ["include/bignum/impl/bn_type_impl.h: operator /=", "include/bignum/impl/bn_division_impl.h: abs_val_div", "include/bignum/impl/bn_subtraction_impl.h: abs_val_sub, BN_DEBUG block"]}
{"id": "C55", "title": "Sums, differences and comparisons of numbers with superfluous zeros", "statement": "For all finite numbers with digits in range, superfluous high-order zeros allowed: adding numbers of the same sign is exact. Adding numbers of different sign (not both digit-less) and subtracting numbers of the same sign is exact unless the operand with more digits has the smaller magnitude; then the result is wrong by base^(that operand's length), carrying that operand's sign in the sum or difference (7 - 05 is -98). Between non-negative numbers, x >= y and y <= x compare lengths before digits, so 6 >= 02 is false. Without superfluous zeros this never happens. Subtracting a number of the other sign gives zero with the sign of x unless x looks greater digit by digit or by length, and then the difference of the magnitudes (plus base^(length of x) if negative), for all digits, zeros or not.", "quantifier": "all digit sequences, all types", "why_tests_cant": "unboundedly many digit strings, bases and sign combinations; a test samples a handful", "anchors": ["include/bignum/impl/bn_type_impl.h: operator +=, -=, >=, <=", "include/bignum/impl/bn_subtraction_impl.h: abs_val_sub", "include/bignum/impl/bn_compare_impl.h: abs_val_is_ge"]}
{"id": "C56", "title": "The output of the arithmetic test", "statement": "tests/arithmetic_test.cpp prints for each base-N type a table of comparisons, sums, differences, products and quotients of two numbers of different signs, then does so with the signs exchanged. For any two positive magnitudes within the length limits of the multiplication the table is printed in full; every comparison, sum and product in it is right, a quotient is right unless the magnitudes are equal and not 1, and a difference is right only if it happens to wrap around onto the sum of the magnitudes. With the numbers in the source the four differences of each table are wrong (-199 - 10 is printed as -189, 10 - -199 as 0) and everything else is right. The decimal table is given character by character, and the program ends with the numerals of a, b, a+b, a, a*b, a. If memory runs out it has written a proper beginning of that text, reports the exception on standard error, and still exits with status 0.", "quantifier": "all pairs of digit lists, all base-N types, all accurate libraries, all allocators", "why_tests_cant": "the test prints its results and checks none of them", "anchors": ["tests/arithmetic_test.cpp: CREATE_BN_TEST, main", "include/bignum/impl/bn_type_impl.h: all arithmetic and order operators, operator <<"]}
{"id": "C57", "title": "The laws of arithmetic as a program can test them", "statement": "For the base-N types, IEEE binary64 arithmetic and accurate sin and cos: a condition e == f, e != f, e >= f, e <= f, e > f or e < f between two expressions in +, -, *, / evaluates to the mathematical answer if every operation in e and f is one that C47 allows, not both values are zero, and for >= and <= the values are non-negative or of different strict signs, for > and < of different strict signs. So tested with ==, addition and multiplication associate, multiplication distributes over addition, x + y - y is x for x and y of the same sign, and x * y / y is x, whenever the values compared are not zero, within the length limits, and in the last law unless |x| = 1 < |y|, in which case the test is false. Multiplication commutes for all finite numbers including zeros and superfluous zeros. If x + y + z = 0 with none of them zero, (x + y) + z == x + (y + z) is true exactly if x and z have different signs.", "quantifier": "all expressions, all operands, all base-N types, all accurate libraries, all choices of fused multiply-adds, all allocators", "why_tests_cant": "unboundedly many expressions; the failing cases differ only in the sign of a zero", "anchors": ["include/bignum/impl/bn_type_impl.h: operator +, -, *, /, ==, !=, >=, <=, >, <"]}
{"id": "C58", "title": "Numbers of BNIntType on streams", "statement": "For the 16-, 32- and 64-bit types, << writes the decimal numeral of the number, and >> on a text of blanks, an optional sign, the numeral of z and anything but a digit reads z (2^W - z modulo 2^W after a minus sign), or the largest number of the type with failbit if z does not fit; any other text is refused with failbit, and the variable becomes 0 unless the text is all blanks, which leaves it; so numbers written with blanks between them are all read back. The 8-bit type is read and written as a character: of a sequence of bytes written, exactly those that are not blanks (9..13, 32) are read back, and the decimal text 65 is read as 54 and 53. Whatever the text, what is read is a number of the type, and after a failed read no read changes anything.", "quantifier": "all numbers, all sequences, all texts, all widths", "why_tests_cant": "unboundedly many digit strings, bases and sign combinations; a test samples a handful", "anchors": ["include/bignum/impl/bn_int_type_impl.h: operator << (std::ostream), operator >> (std::istream)"]}
{"id": "C59", "title": "Division of and by numbers with superfluous zeros, and when division ends", "statement": "For the base-N types, with a dividend of value v and n+1 digits and a divisor of value d > 0 and m+1 digits, both with a high-order zero: for n < m the result is 0 whatever the values are; for n = m it is 0 if v <= d and otherwise the largest power of two not above v/d; for n > m it is 2^k, the largest power with d*2^k < base^n, plus the leading binary digits of the quotient of v - d*2^k (plus base^(n+1) if that is negative) until what is left is below base^m. A longer dividend with two or more superfluous zeros therefore always gives too large a quotient. For arbitrary digits, superfluous zeros or none on either side, x /= y runs forever exactly if y is zero but not written as a single 0, x is neither digit-less nor a single 0, and x has more digits than y, or as many and is not zero; in all other cases it ends.", "quantifier": "all finite numbers with digits in range, all base-N types, signs and allocators", "why_tests_cant": "unboundedly many digit strings, bases and sign combinations; a test samples a handful", "anchors": ["include/bignum/impl/bn_type_impl.h: operator /=, push_back", "include/bignum/impl/bn_division_impl.h: abs_val_div"]}
{"id": "C60", "title": "The output of the compression test", "statement": "tests/compress_test.cpp, run on any list of files (each giving back fewer than 2^25 bytes) with IEEE binary64 arithmetic and accurate sin and cos, ends with status 0 and writes, to the character, the list of names and for each file the report: text, size n, number of 16-bit digits ceil(b/16), these digits in decimal without separators, the number of bits in the last one, the restored text and its digits. With an unsigned char type b = 8n+9 if the last byte is below 128 and 8n otherwise, and the text is restored exactly if the last byte is neither 0 nor in 128..191 (or it is one zero byte); otherwise a last byte in 128..191 loses its highest bit and zero bytes at the end are dropped. With a signed char type b = 8n+9 or 8n+8 by the sign of the number whose digits are the chars, that number comes back in two's complement, and the text is restored exactly if all bytes are below 128 and the last one is not 0. An empty text takes one bit and comes back as one zero byte. The compressed number never takes fewer bytes than the text. A file that cannot be opened is reported on std::cerr and then treated as empty, with status 0; without arguments and without BN_TEST_FILE the status is -1. All this holds in debug builds too. If memory runs out, a proper beginning of that text has been written and the program ends by std::terminate, not with status 0.", "quantifier": "all lists of files, all contents, both signednesses of char, all accurate libraries, all choices of fused multiply-adds, all allocators", "why_tests_cant": "the test prints sizes and texts and checks nothing", "anchors": ["tests/compress_test.cpp: read_file, compress, decompress, parseArgs, main", "include/bignum/impl/bn_type_impl.h: push_back, operator *, +, /=, <<"]}
{"id": "C61", "title": "The arithmetic test in debug builds", "statement": "Compiled with BN_DEBUG, tests/arithmetic_test.cpp prints the same four tables, in every base, and the numerals of a, b, a+b, a and a*b, but never the last line: dividing a*b by b throws whatever the allocator does, the handler in main writes one line to standard error, and the exit status is 0 all the same. So the same source succeeds in one build and fails in the other without the exit status telling them apart. When memory runs out earlier, a proper beginning of that text has been written. This holds for every order in which the operands of << are evaluated.", "quantifier": "all accurate libraries, all evaluations of floating-point expressions, all evaluation orders, all allocators", "why_tests_cant": "a test run sees one build, one compiler and an allocator that never fails; the status 0 is all a test driver looks at", "anchors": ["tests/arithmetic_test.cpp: CREATE_BN_TEST, main", "include/bignum/impl/bn_subtraction_impl.h: absValSub under BN_DEBUG"]}
{"id": "C62", "title": "Debug builds in bases that are powers of two", "statement": "In a base that is a power of two, x /= y with y a power of two does exactly the same with and without BN_DEBUG, for all dividends (superfluous zeros and digits that are too big included) and all allocators: the check that rejects valid divisions elsewhere is never tripped. Neither condition can be dropped: 30/4 in base 10 and 512/3 in base 256 throw. The compression test divides by 2 in base 256 only and adds positive numbers only, so it is the same program in both builds, for every floating-point arithmetic, all files and all allocators.", "quantifier": "all dividends, all powers of two as divisors and bases, all allocators, all files, all floating-point operations", "why_tests_cant": "a test samples some dividends in one build", "anchors": ["include/bignum/impl/bn_type_impl.h: operator /=, operator +=", "include/bignum/impl/bn_subtraction_impl.h: abs_val_sub, BN_DEBUG block", "include/bignum/impl/bn_division_impl.h: abs_val_div", "tests/compress_test.cpp: compress, decompress, main"]}
{"id": "C63", "title": "Numbers written with manipulators", "statement": "With the default flags << writes what C32 says. With any radix set by std::oct, std::dec or std::hex and no showbase and no width, a number of a type with digits of more than 8 bits (8-bit digits are written as characters) and a base up to the radix is written as its numeral in its own base (with small or capital letters as std::uppercase says) after a '-' if its descriptor is BN_NEG, and two numbers have the same text exactly if they have the same sign and magnitude; so std::hex makes base-16 numbers unambiguous. For every base above the radix two different numbers have the same text. std::setw applies to the sign or, without a sign, to the first digit only: padding on the left comes before the whole text, padding on the right comes after the sign or the first digit and so inside the number, internal padding comes before it or after its 0x; the width is 0 afterwards, and the length is that of the remaining text plus the larger of the width and that first part. So setw does not align numbers. std::showbase puts a prefix before every digit that is not 0 (0x10x20x3).", "quantifier": "all numbers, all types, all combinations of radix, case, adjustment, fill and width", "why_tests_cant": "unboundedly many digit strings, bases and sign combinations; a test samples a handful", "anchors": ["include/bignum/impl/bn_type_impl.h: operator <<", "include/bignum/impl/bn_int_type_impl.h: operator << (std::ostream)"]}
{"id": "C64", "title": "Conversion between bases by the client", "statement": "For the base-N types, IEEE arithmetic and accurate sin and cos, within the length limits: the loop while (x >= one) { q = x / b; out.push_back(x - q * b); x = q; } ends with the digits of x in base b, lowest first, except that a number starting with 1 0 in base b gets the single digit b in place of these two (x / x is 0). Written one after the other in a type with a base above ten, the results for b = ten are nevertheless the decimal numeral of x, and Horner's rule acc = acc * b + d gives back x digit for digit. Horner's rule also carries a number of one type to another type with an equal or larger base. With the condition x != zero or x > zero, zero as the constructors make it, the loop never ends for any x that has a digit, because a quotient that is zero is stored as the digit 0 and a constructed zero has no digits.", "quantifier": "all numbers, all bases b > 1 of any length within the limits, all base-N types, all accurate libraries, all allocators", "why_tests_cant": "endless loops and the numbers starting with 1 0 are not visible in sampled conversions of other numbers", "anchors": ["include/bignum/impl/bn_type_impl.h: operator /, *, -, +, >=, !=, >", "include/bignum/impl/bn_division_impl.h: abs_val_div"]}
{"id": "C65", "title": "What a build with BN_DEBUG accepts", "statement": "A client program without exception handlers (all operators, constructors, digit access, branches and loops) does in a build with BN_DEBUG exactly what it does without, request for memory by request for memory, or a std::exception leaves it; so if it completes in a debug build, the release build completes with the same values. BN_DEBUG brings no undefined behaviour and no endless loops of its own. The same holds for expressions. With handlers that swallow exceptions a program can complete in both builds with different values: 30 /= 4 leaves an infinity in one and 7 in the other.", "quantifier": "all programs, all number types, all initial values including NaN and superfluous zeros, all floating-point arithmetic, all allocators", "why_tests_cant": "a property of two builds over unboundedly many programs and memory failures", "anchors": ["include/bignum/impl/bn_subtraction_impl.h: abs_val_sub, BN_DEBUG block", "include/bignum/impl/bn_type_impl.h: all operators"]}
{"id": "C66", "title": "Programs that run out of memory", "statement": "A client program without exception handlers does exactly what it does with unlimited memory, or std::bad_alloc or a std::exception leaves it at the first request for memory that is refused; it completes exactly with the allocators that grant as many requests as it makes with unlimited memory. So for the programs of C47 and C50 (integers with all four operations; naturals with branches and loops) and every allocator: no undefined behaviour, no endless loop, the right numbers if the program completes, and it does not complete only if a request was refused; in debug builds it may also throw otherwise, but never completes with other numbers.", "quantifier": "all programs, all number types, both builds, all initial values, all allocators", "why_tests_cant": "memory failures at every point of every program", "anchors": ["include/bignum/impl/bn_type_impl.h: all operators", "include/bignum/impl/bn_addition_impl.h: abs_val_add", "include/bignum/impl/bn_subtraction_impl.h: abs_val_sub", "include/bignum/impl/bn_division_impl.h: abs_val_div", "include/bignum/impl/bn_multiplication_impl.h: mul_strassen"]}
{"id": "C67", "title": "Handlers that make no difference", "statement": "In a release build no statement of a client throws while memory lasts except r[i] = d with i out of range: a program without that statement runs the same with every statement in a handler and without any, whether it completes, runs forever or has undefined behaviour. So what holds of the program with handlers and unlimited memory holds of the program without handlers for every allocator, up to an exception at the first refused request. In particular Euclid's algorithm by division (for different numbers) and by subtraction ends with the greatest common divisor for every allocator, or with an exception; for two equal numbers above 1 the former only ever ends with an exception for lack of memory.", "quantifier": "all programs, all number types, all initial values, all allocators", "why_tests_cant": "all programs and all memory failures", "anchors": ["include/bignum/impl/bn_type_impl.h: all operators and members", "include/bignum/bn_except.h: BN_ASSERT"]}
{"id": "C68", "title": "Results that are zero", "statement": "Tested with == against Bignum() (or Bignum(BN_POS, {0})), for operands without superfluous zeros: x - y is zero, for x and y of one sign and not both zero, exactly if x = y and both are positive; x + y is zero, for different signs and not both zero, exactly if they cancel and x is the positive one, and for one sign it never is, not even 0 + 0; x * y is zero exactly if one of them is and the signs agree; x / y for nonzero y is zero exactly if x is zero and the signs agree, so never for nonzero x < y. Hence (-5) - (-5), (-4) + 4, 0 + 0 and 3 / 5 all compare unequal to zero.", "quantifier": "all operands, all base-N types (products: within the length limits), all allocators", "why_tests_cant": "unboundedly many digit strings, bases and sign combinations; a test samples a handful", "anchors": ["include/bignum/impl/bn_type_impl.h: operator +, -, *, /, =="]}
{"id": "C69", "title": "Operations that need no memory", "statement": "For operands without superfluous zeros, x nonzero, in a release build: x -= y for |y| <= |x| of one sign, x += y for |y| <= |x| of different signs, x += y of one sign if the sum has no more digits than x, x -= x, x /= 1, and 0 /= y make no request for memory and give the right number, whatever the allocator does; so do all comparisons of any two objects. Every other case of the four compound assignments on finite operands throws if no memory is left (x += y with one more digit: if the vector has no spare capacity), and so does every binary operator.", "quantifier": "all operands, all number types with limits in order, all allocators", "why_tests_cant": "unboundedly many digit strings, bases and sign combinations; a test samples a handful", "anchors": ["include/bignum/impl/bn_type_impl.h: operator +=, -=, *=, /=, +, -, *, /, comparisons", "include/bignum/impl/bn_addition_impl.h: abs_val_add", "include/bignum/impl/bn_subtraction_impl.h: abs_val_sub"]}
{"id": "C70", "title": "Numbers written to a stream that fails", "statement": "When the stream's buffer refuses a character or throws, at any point, what has been written of a number (or of any sequence of numbers with manipulators between) is the longest beginning of the text it has on a stream that never fails that there was room for; the stream is bad afterwards exactly if the text did not fit, and operator << throws exactly if it did not and the exception mask asks for it (the buffer's own exception if that threw, std::ios_base::failure otherwise and on a stream that was bad before); nothing is written after the refused character. Where no exception is asked for, the stream keeps its flags, and its width too if it was bad before; otherwise the width is 0 afterwards, unless the buffer threw in the first insertion and that was one of characters: then the width stays. The text itself does not tell: what arrives of a non-negative octal or decimal number without its last n digits is the whole text of the number divided by B^n.", "quantifier": "all numbers, all number types, all formatting flags, all amounts of room, all sequences", "why_tests_cant": "a fault at every character of every text", "anchors": ["include/bignum/impl/bn_type_impl.h:17-45 operator <<"]}
{"id": "C71", "title": "Clients with several threads", "statement": "Threads that share numbers none of them writes, and share no others, do not disturb each other: every schedule that runs all of them to their ends, with any allocator, leaves in the variables of each thread what that thread leaves there alone, and everything else as it was; if every thread alone completes, every schedule that gives each of them enough turns completes without exception or undefined behaviour while memory lasts; an allocator that refuses a request stops a thread with an exception at that request and nothing else. Threads over natural numbers (C50) so compute the right numbers under every schedule. Where a thread writes what another one uses, the outcome depends on the schedule.", "quantifier": "all numbers of threads, all programs, all schedules, all allocators, all number types, both builds", "why_tests_cant": "all interleavings of all programs", "anchors": ["include/bignum/impl/bn_type_impl.h: all operators and members", "include/bignum/impl: all functions (no static object that is not constexpr)"]}
{"id": "C72", "title": "The memory that a multiplication asks for", "statement": "Multiplying numbers with d digits together, with N the least power of two not below d, asks the allocator exactly 6N-1 times (fewer than 12 times per digit). If all the requests are granted the result is what it would be without limits on memory (the product, where C17 applies); at the first refusal no further request is made, *this becomes the infinity of the operand's sign and std::exception is thrown, whichever request it was. During a multiplication that completes at most 4N-1 complex numbers are held at a time, and at some time that many; at its end none, and one block of N digits for the result.", "quantifier": "all operands of at most 2^32 digits together, all number types, all floating-point behaviours, all allocators and each refused request", "why_tests_cant": "the number of requests depends on the operands' lengths and each can be the one refused", "anchors": ["include/bignum/impl/bn_multiplication_impl.h:16-61", "include/bignum/impl/fourier_impl.h:41-170", "include/bignum/impl/bn_type_impl.h:592-632"]}
{"id": "C73", "title": "Sorting, searching and maxima by the comparison operators", "statement": "On a set of finite numbers without superfluous zeros, operator < is a strict weak order (what std::sort, std::set and std::map demand) exactly if any two of them with the same sign and length are comparable digit by digit; there it is the order of the values with -0 before +0. Two numbers neither of which is < the other are always the same. The comparator !(a > b) for negative a and !(a >= b) otherwise is the order of the values on all such numbers, !(a >= b) alone on those that are not negative. Insertion sort (std::sort of up to 16 elements) with any operator on any numbers stays within the vector, needs no memory and permutes; it sorts where the comparator is an order, but with < it turns (19, 20) into (20, 19). std::lower_bound on a sorted vector finds the right place in logarithmically many comparisons with the careful comparator, with < only if the numbers are comparable. std::max and std::min return the wrong number exactly if the first one is the right answer and the two have the same sign and length and incomparable digits, so std::max(20, 19) is 19.", "quantifier": "all bases, all sets and vectors of numbers, all numbers sought", "why_tests_cant": "all vectors and all sets of keys", "anchors": ["include/bignum/impl/bn_type_impl.h:286-378", "include/bignum/impl/bn_compare_impl.h:8-140", "include/bignum/bn_type.h:289-346"]}
{"id": "C74", "title": "The work of a division", "statement": "A division of magnitudes makes one round of its outer loop for each one bit of the quotient, and for each of these bits as many rounds of its inner loop as the position of the bit, because the search starts again at the divisor each time. So a quotient of k bits costs at most k outer and k(k-1)/2 inner rounds, which is reached by 2^k - 1; a power of two costs one outer round and k inner rounds. In a base 2^w the division of the n-digit number of largest digits by one takes nw outer and nw(nw-1)/2 inner rounds.", "quantifier": "all bases below half the range of the digit type, all canonical dividends and divisors, all behaviours of the memory", "why_tests_cant": "exact numbers of rounds for all quotients", "anchors": ["include/bignum/impl/bn_division_impl.h:8-78"]}
{"id": "C75", "title": "Numbers written in a locale that groups digits", "statement": "On a stream whose locale groups digits, each digit of the list is grouped by itself. So the text is that of the classic locale exactly if every digit is below radix^g, g being the size of the first group, or the digits are written as characters; a type whose base is at most radix^g is written the same in every such locale. There are separators exactly if some digit is not below radix^g; without them the text is the classic one. Read from the right, an integer's text is cut into blocks as long as the locale's groups, the last size repeating, with separators between. An integer of the same value, from radix^g on, is written with separators, the Bignum with base up to the radix without.", "quantifier": "all bases, numbers, formats of the stream, separators and groupings", "why_tests_cant": "all groupings and all numbers", "anchors": ["include/bignum/impl/bn_type_impl.h:17-45", "include/bignum/impl/bn_int_type_impl.h:236-239"]}
{"id": "C76", "title": "Roots and powers by the client", "statement": "Structured programs over natural numbers compute what a semantics says in which x / x is 0 unless x is 1 and everything else is as in mathematics (it extends that of C50, also by comparisons with a zero that is stored as a digit). So Newton's iteration gives the integer root of every number of any length except 1, whose root comes out as 0. Repeated squaring with h = e / 2 gives b^e' instead of b^e, where e' has the binary digits of e except that a leading 10 is replaced by 01: 7^2 comes out as 7, 7^10 as 7^6; it is right exactly if b = 1, e <= 1, or the second binary digit of e is 1. With a halving that treats 2 apart the power is right for all b >= 1 and e, as long as it has no more digits than a factor may have.", "quantifier": "all number types for which products are exact and digits can be doubled, all numbers, all programs with branches and loops", "why_tests_cant": "all radicands, bases and exponents", "anchors": ["include/bignum/impl/bn_type_impl.h:286-378", "include/bignum/impl/bn_division_impl.h:8-78", "include/bignum/bn_type.h:102-458"]}
{"id": "C77", "title": "Programs predicted without digits", "statement": "An object whose digits have no high-order zeros is nothing but its descriptor and an integer or the absence of digits. On such descriptions a small calculator predicts the library: the four operators for every pair of descriptors (both signs, infinities, NaN, an object with itself), including the sign and the form of a zero result, where an operation is undefined and where it never returns; the six comparisons; and any program with branches and loops over construction, copy, move, the operators, setDescriptor, clear, push_front and pop_front. If the calculator arrives at numbers so does the program, if it crashes the behaviour is undefined, and as long as it runs the program runs. Only > and <, subtraction across signs and the limits of products mention the base.", "quantifier": "all number types for which products are exact and digits can be doubled, all states, all programs, all depths of execution, as long as no request for memory fails", "why_tests_cant": "all programs and all states, including those that never end", "anchors": ["include/bignum/impl/bn_type_impl.h:38-114", "include/bignum/impl/bn_type_impl.h:286-403", "include/bignum/impl/bn_type_impl.h:454-702", "include/bignum/impl/bn_compare_impl.h:1-140"]}
{"id": "C78", "title": "Programs that give the same numbers in every type", "statement": "A program that subtracts only numbers of one sign, compares with ==, != and the sound ones of the order comparisons, and writes literals of one digit, computes the same numbers (descriptor and value of every variable, also whether a zero has digits) in every number type and with every accurate mathematical library, provided that its literals are digits and its products respect the limits of the type. Without these restrictions it does not: 105 - (-110) is 995 in base 10 and 0 in base 16.", "quantifier": "all pairs of number types for which products are exact and digits can be doubled, all such programs, all states", "why_tests_cant": "all programs, all states, all pairs of types and floating-point environments", "anchors": ["include/bignum/impl/bn_type_impl.h:286-378", "include/bignum/impl/bn_type_impl.h:523-585", "include/bignum/bn_limits.h:1-199"]}
{"id": "C79", "title": "Theorems hold whatever the standard library does with capacities", "statement": "Whether a vector asks for memory depends on its capacity, which depends on its history and on the growth policy of the standard library. With capacities kept for every variable and temporary and any growth policy, every program ends in a way in which it can also end when every growth and copy is a request, with a refusal only if one happened. So what is proved about all executions (results, no undefined behaviour, termination, exceptions only after a refused request) holds for every history of capacities, for operators and for programs. And with any policy that makes room for the elements, no program makes the size of a vector exceed its capacity.", "quantifier": "all growth policies, number types, programs, states with any capacities, allocators", "why_tests_cant": "capacities depend on the whole history and on the standard library in use", "anchors": ["include/bignum/impl/bn_addition_impl.h:8-54", "include/bignum/impl/bn_division_impl.h:8-78", "include/bignum/impl/bn_type_impl.h:38-114", "include/bignum/impl/bn_type_impl.h:385-702"]}
{"id": "C80", "title": "Accumulating sums allocates rarely", "statement": "A loop that adds any number of numbers of one sign to a variable with += computes the sum, or ends with a std::exception and an infinity after a refused request. All its requests together are at most log2 of four times the number of digits of the result, if push_back at least doubles the capacity, and none if the result fits in the capacity at the start: then a single += cannot fail under any allocator; if it does not fit, the refusal of the first request makes it fail. The same loop written x = x + y asks at least once per addition.", "quantifier": "all number types, all lists of numbers of one sign, all capacities, all geometric growth policies, all allocators", "why_tests_cant": "all lengths of loops and all histories of capacities", "anchors": ["include/bignum/impl/bn_addition_impl.h:8-54", "include/bignum/impl/bn_type_impl.h:410-418", "include/bignum/impl/bn_type_impl.h:454-516"]}
{"id": "C81", "title": "Exact work of sums, differences and products", "statement": "A sum makes one round for each digit of the longer operand (at least one), and one more exactly if there is a carry out of the top digit. A difference makes one round for each digit of the minuend and then reads the high-order zeros it removes and one digit more. A product of operands with d digits in all makes exactly k 2^k butterflies, each with one cosine and one sine, where 2^k is the least power of two from d on, then 2^k products of entries and 2^k carries: fewer than 2 d (log2 d + 1) butterflies, whatever the floating-point arithmetic. The schoolbook product makes one round for each pair of digits. Counting the rounds changes neither results nor requests.", "quantifier": "all number types, all operands (products: up to 2^32 digits in all), all floating-point arithmetics, all allocators", "why_tests_cant": "cost as a function of all lengths, not of measured samples", "anchors": ["include/bignum/impl/bn_addition_impl.h:8-54", "include/bignum/impl/bn_subtraction_impl.h:14-72", "include/bignum/impl/bn_multiplication_impl.h:16-98", "include/bignum/impl/fourier_impl.h:41-170"]}
{"id": "C82", "title": "Modular exponentiation by a client", "statement": "A square-and-multiply program that reduces with x -= (x / m) * m computes b^e mod m for every exponent, if b has no factor in common with m (then the wrong quotient x / x = 0 is never asked for) and m has at most as many digits as a factor may have. So two parties who exchange g^a and g^c get the same key, object for object, and a message raised to an RSA exponent and then to its inverse comes back as the same object. With a common factor it is wrong: 2^2 mod 4 comes out as 4, and 2^4 mod 4 is undefined behaviour.", "quantifier": "the five base-N types that can divide, all moduli up to the length limit of factors, all bases coprime to them, all exponents of any size, all accurate cosines and sines and evaluations of the complex products", "why_tests_cant": "a statement about unboundedly long computations and all keys", "anchors": ["include/bignum/impl/bn_type_impl.h:102-458", "include/bignum/impl/bn_division_impl.h:8-78", "include/bignum/impl/bn_multiplication_impl.h:16-98"]}
{"id": "C83", "title": "Vectors of numbers", "statement": "In a std::vector of numbers every push_back, insert, erase, pop_back, swap of two elements and reserve does to the list of numbers what it says (a swap of an element with itself changes nothing), or throws bad_alloc and leaves the vector as it was, object for object. The number of requests for memory is known beforehand: because the move constructor is not noexcept, every reallocation copies all the numbers, so n push_backs into an empty vector that doubles ask n + (log2_up n + 1) + (2^log2_up n - 1) times, and the numbers lose their spare capacity. A failed push_back(std::move(x)) keeps x only if the storage was refused; otherwise the number is lost.", "quantifier": "all vectors, all numbers with any capacities, all lists of operations, all growth policies, all failures of the allocator", "why_tests_cant": "all sequences of operations and all failures; the loss of the argument shows only when a particular request fails", "anchors": ["include/bignum/bn_type.h:135", "include/bignum/bn_type.h:385", "include/bignum/impl/bn_type_impl.h:95-114", "include/bignum/impl/bn_type_impl.h:380-403"]}
{"id": "C84", "title": "Which handlers can run", "statement": "An exception is taken by the first handler for its type or a base of it, and by none otherwise. No client, however its try blocks are nested, ever enters a handler for BNUnderflow, BNNaN or int: leaving them all out changes nothing, in debug builds too, where the library throws BNUnderflow internally. A try block with only compound assignments, moves and changes in place never enters a handler for std::bad_alloc, although it may fail for lack of memory: the operators throw on a copy cut down to std::exception, so what() says std::exception. A handler for std::exception catches everything but the BN_ERROR of a subscript out of range, which only catch (bn_error_t) and catch (...) take; with the two handlers nothing gets out. A handler finds what the block did before the exception: after a failed compound assignment the target is an infinity with the sign of the right operand (x /= x: positive), after a failed copy assignment it has its own digits and the other number's descriptor, after any other statement nothing has changed; try { a } catch (...) { b; throw; } runs b from there and passes the same exception on.", "quantifier": "all programs with loops, branches and nested handlers, all initial values, all types, debug and release builds, all failures of the allocator", "why_tests_cant": "that code is dead is a statement about all programs", "anchors": ["include/bignum/bn_except.h:23-129", "src/bn_except.cpp:15-47", "include/bignum/impl/bn_type_impl.h:506-513", "include/bignum/impl/bn_type_impl.h:575-582", "include/bignum/impl/bn_type_impl.h:622-629", "include/bignum/impl/bn_type_impl.h:692-699", "include/bignum/impl/bn_type_impl.h:262-280"]}
{"id": "C85", "title": "Factors and divisors by a client", "statement": "Trial division with d * d <= n and (n / d) * d == n leaves the least factor above one, which is a prime, and n itself exactly if n is a prime. Adding up all d from 1 to n with (n / d) * d == n leaves the sum of the divisors without n, since n / n is 0: never the sum of the divisors, and n itself exactly if n is perfect. With an allocator that may fail the programs give this or throw.", "quantifier": "all n from 2 up to the largest for which products are right, the five types with doubling, all accurate sines and cosines, all allocators", "why_tests_cant": "loops of any length over numbers of any size below the limit", "anchors": ["include/bignum/bn_type.h:102-458", "include/bignum/impl/bn_division_impl.h:8-78", "include/bignum/impl/bn_type_impl.h:286-378", "include/bignum/impl/bn_type_impl.h:410-450"]}
{"id": "C86", "title": "The digits that a division doubles", "statement": "For each one bit of the quotient, at position j, a division doubles the divisor j + 1 times and the number one j times, digit by digit; the exact number of digits doubled is the sum of the lengths of these numbers. With a dividend of n digits and a quotient of k bits that is at most n k^2, so in a base 2^w at most w^2 n^3, and the order n^3 is reached by dividing the largest number of n digits by one: at least nw(nw+1)(2nw+1)/(6w) digits, in base 2 exactly n(n+1)(2n+1)/6, for a division whose result is its dividend. Counting changes neither results nor requests for memory.", "quantifier": "all bases below half the range of the digit type, all canonical dividends and divisors, all behaviours of the memory", "why_tests_cant": "exact work for all numbers; cubic growth shows only for long ones", "anchors": ["include/bignum/impl/bn_division_impl.h:20-43", "include/bignum/impl/bn_division_impl.h:45-76"]}
{"id": "C87", "title": "Programs over the integer wrapper", "statement": "A program of assignments, operators, increments, comparisons, branches and loops over BNIntType and plain variables of one type can be understood over the integers: if the program runs over the integers, with operands in range for quotients, remainders, right shifts, ! and comparisons, and left shifts and 16-bit products that int can hold, then it runs in the type and leaves every variable equal to its integer modulo 2^W, with no undefined behaviour, exception or request for memory. Outside these conditions a binary operator on values of the type has undefined behaviour. Euclid's algorithm gives the greatest common divisor of all pairs; square and multiply gives all powers modulo 2^W in the 8, 32 and 64-bit types, but in the 16-bit type it is undefined already for 65535 to the power 1. x = x++ leaves the old value.", "quantifier": "all programs, all four types, all initial values", "why_tests_cant": "all programs; overflow inside a promoted product depends on the values and on the type", "anchors": ["include/bignum/impl/bn_int_type_impl.h:12-98", "include/bignum/impl/bn_int_type_impl.h:103-160", "include/bignum/impl/bn_int_type_impl.h:167-231"]}
{"id": "C88", "title": "Products in any floating-point environment", "statement": "The transforms run in the floating-point environment of the caller. Whatever the rounding direction, and whether subnormal results or operands are flushed to zero, a product is the right number if 103 (l+1)(Q+1) <= 2^52, l being the rounded-up logarithm of the total length and Q the sum of the squares of the digits (one bit less than in the default environment), and columns fit the wider type; the lengths for which products are always right are the same as in the default environment for bases 2, 8, 10 and 16 (base 256 and the 8-bit type: 2^24 digits in all, 16-bit type: 925). Two executions in different environments, with different compilers and libraries, give the same object. A program whose parts run in different environments is predicted by a calculator that knows of no environment.", "quantifier": "all environments (5 rounding directions, both flushing modes), all operands within the limits, all fused or separate evaluations, all accurate sines and cosines, all programs with loops", "why_tests_cant": "all environments and all operands; a test runs in one environment", "anchors": ["include/bignum/impl/fourier_impl.h:41-170", "include/bignum/impl/bn_multiplication_impl.h:16-61", "include/bignum/impl/bn_type_impl.h:592-632"]}
{"id": "C89", "title": "Products of 32-bit digits that are never right", "statement": "A double of 2^(52+k) or more is a multiple of 2^k. So for the 32-bit type (bn_limits highp) and operands of up to 2^32 digits in all and any signs: if the product c of the two lowest digits is at least 2^(55+k) and not a multiple of 2^k, then *=, x *= x and operator * never give the product; they give another number, or are undefined behaviour, or are refused memory. In particular no product of two odd numbers whose lowest digits are 2^28 or more is ever right. For any type with a base of at most 2^53 that is a multiple of 2^k: if c exceeds 2^(52+k) by more than the error bound of the transform, whatever is stored is a multiple of 2^k. For two numbers of one digit with c >= 2^(52+k) + 2^20 the operation always ends, and with a wrong number, unless it is refused memory.", "quantifier": "all operands with such lowest digits (the other digits are arbitrary), all lengths up to 2^32, all floating-point environments, all evaluations of the complex products, all accurate sines and cosines, all allocators", "why_tests_cant": "that a result is wrong for every choice of the other digits, on every platform", "anchors": ["include/bignum/impl/bn_multiplication_impl.h:16-61", "include/bignum/impl/fourier_impl.h:41-170", "include/bignum/impl/bn_type_impl.h:592-632", "include/bignum/bn_limits.h:1-199"]}
{"id": "C90", "title": "The transforms at float and long double", "statement": "fft_complex and ifft_complex are templates over the floating-point type. At float (up to 2^24 entries), double, x87 long double and binary128 (up to 2^49 entries), with a library accurate to 2u: every entry of the result is finite and its error is at most 17.1 l u times the sum of the absolute values of the 2^l arguments, the Euclidean length of the error is at most 17.1 l u times that of the result, 17.1 (l+1) u for the inverse and 17.1 (2l+1) u there and back, where u is 2^-24 at float, 2^-53 at double and only 2^-56 at the longer types. That is no weakness of the proof: the literal for pi has no suffix, so it is a double, and at every type of 64 bits or more the transform of 0, 1, 0, 0 is wrong by at least 2^-55, even if cosine and sine are accurate to 2^-60. create_fft_table<.., float> stores digits up to 2^24 exactly, but 16777217 becomes 16777216. The three steps create_fft_table, convolute_fft, ifft_complex leave every coefficient of the product with an error of at most 51.9 (l+1)(Q+1) u, Q being the sum of the squares of the digits, so rounding to the nearest integer gives the coefficients if 104 (l+1)(Q+1) u <= 1: at float for all decimal numbers of up to 221 digits in all.", "quantifier": "all four formats, all lengths up to the limits, all finite arguments with a sum of absolute values of up to 2^90, all accurate libraries, all fused or separate evaluations of complex products", "why_tests_cant": "error bounds for all inputs and lengths, and for every mathematical library; the missing suffix changes no digit that a test at double sees", "anchors": ["include/bignum/impl/fourier_impl.h:41-86", "include/bignum/impl/fourier_impl.h:91-103", "include/bignum/impl/fourier_impl.h:108-142", "include/bignum/impl/fourier_impl.h:147-170"]}
{"id": "C91", "title": "Products with excess precision", "statement": "A compiler may evaluate double expressions in a wider format (FLT_EVAL_METHOD 2, the x87 unit), so that every result is rounded twice, and products inside a complex product may stay in the wider format or be stored as doubles. Results of single operations then differ, but a product of numbers is still the right number if 104 (l+1)(Q+1) <= 2^53 (l the rounded-up logarithm of the total length, Q the sum of the squares of the digits) and columns fit the wider integer type; a column that does not fit is undefined behaviour all the same. The lengths for which products are always right and the lengths at which the longest operands overflow are those of C88. A build with excess precision and one without, in any floating-point environment, give the same object, and the calculator of C77 predicts programs.", "quantifier": "all register formats of at least 64 bits (x87, binary128), all choices of what stays in registers, all operands within the limits, all accurate sines and cosines, all programs with loops", "why_tests_cant": "all operands and all compilers; a test runs one build", "anchors": ["include/bignum/impl/fourier_impl.h:41-170", "include/bignum/impl/bn_multiplication_impl.h:16-61", "include/bignum/impl/bn_type_impl.h:592-632"]}
{"id": "C92", "title": "Multiplication with another floating-point type", "statement": "A comment above the typedef in mul_strassen says: default type is double, use floats if they perform well enough. With the typedef changed to float, x87 long double or binary128 (or left at double), and u = 2^-24, 2^-56, 2^-56 (2^-53): the result is the canonical product if 106 (l+1)(Q+1) u <= 1 (l the rounded-up logarithm of the total length, Q the sum of the squares of the digits) and the columns fit the wider integer type; if they do not, the behaviour is undefined whatever the type. The digits are those that the code computes with doubles. With float products are right up to 10550 digits in all in base 2 (128 in the shorter operand), 322 in base 8, 217 in base 10 and 87 in base 16. long double raises the total lengths (to 10552 digits for the 16-bit type), but not the length of the shorter operand. For 16-bit digits float is not enough: if two odd digits have a product above 2^24 by more than the error bound, for example 65535 * 65535, no library and no compiler makes the result right, while double and long double multiply every pair of 16-bit digits correctly.", "quantifier": "all four formats, all operands within the limits, all fused or separate evaluations, all accurate sines and cosines, all failures of the allocator", "why_tests_cant": "the typedef is double in every test; that a product is wrong for every library and every compiler", "anchors": ["include/bignum/impl/bn_multiplication_impl.h:16-61", "include/bignum/impl/fourier_impl.h:41-170"]}
