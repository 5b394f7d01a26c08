# A machine-checked model of hamsham/BigNum

`properties.jsonl` lists the properties, `MANIFEST.json` maps each to its theorems, `seeded/LOG.jsonl`
records the wrong programs the theorems were tried against.  Everything is in Coq 8.16.1 under
`rocq/theories`.

## How the code is modelled

Each function of the library is written as a Gallina function over `list Z` (digit vectors, least
significant digit first), next to a comment with the file and lines it follows.  The functions run in a
small monad (`Base.v`) in which every outcome of the C++ code is a different constructor:

* `Ret a n`: normal completion;
* `Throw e n`: a C++ exception leaves the function (`std::bad_alloc`, `BNUnderflow`, the sliced
  `std::exception` rethrown by the operators, `bn_error_t`);
* `Undef u`: undefined behaviour was reached (vector access out of range, integer division by zero, signed
  overflow after promotion, float-to-integer conversion out of range, bad shift, bad iterator);
* `NoFuel`: a loop or recursion has not ended within the given fuel.

A theorem that says a call returns a value therefore also says that it throws nothing, reaches no undefined
behaviour, and terminates (the fuel it needs is a stated bound).  A theorem that says a call never returns
quantifies over all fuel.

Every point where the code may allocate asks an allocation oracle (`nat -> bool`, any function), so the
theorems range over every pattern of allocation failures.  `Outcome.v` defines the three ways theorems talk
about outcomes: `returns`, `assigns` and the undefined/non-terminating variants.

Machine integers are explicit: widths come from a record `limits`, results are reduced `mod 2^w`, and
integral promotion is modelled where it matters.  Theorems hold for every `limits` satisfying a boolean
side condition, which the eight instances in use are proved to satisfy (C41).

The FFT code is modelled over a record of floating-point operations.  It is instantiated with exact reals
(`Exact.v`) and with Flocq's IEEE binary64 (`Ieee.v`), in both cases running the same model functions.

Client programs (`Machine.v`) are lists of instructions over registers; using one register twice is
aliasing.  `While.v` adds branches and loops on the comparison operators, and `Expression.v` has nested expressions and conditions between them.  `Compress.v` models one real client, `tests/compress_test.cpp`.
`Program.v` has programs that write: the text written before an exception is kept, however the program ends.

The specification vocabulary (`Spec.v`, `Conv.v`, `Dft.v`, `FloatModel.v`, parts of the `Prop*` files) does
not refer to the model: `value`, `digits_ok`, `canonical`, `signed_value`, polynomial coefficients, the
discrete Fourier transform, numerals, integer and natural-number interpreters of programs.

## File map

| files | contents |
|----|----|
| Base, Limits, Compare, AddSub, Division, Fourier, Multiplication, Bignum, BNInt, Print | the library, function by function, no proofs |
| Exact, Ieee, Environment, Formats | the floating-point arithmetics the transforms are run with: exact, binary64, binary64 in any environment, other binary formats |
| Format, Grouping, IntStream, Sink | stream output: flags, locales, streams that fail |
| Compress, CompressTest, SignedText, ArithTest, IntTest | the programs in `tests/` |
| Machine, While, Strict, Expression, Program, Threads, Catch, Sequence, Sorting | clients of the library: straight-line programs, loops, handlers, expressions, output, threads, try blocks, vectors of numbers, algorithms of the standard library |
| Calculator, Convert, Clients, ModPower, Factor, IntMachine | particular clients and a calculator that predicts them |
| Capacity, MulMemory, DivWork, DivDigits, Work | the library again with capacities, each request for memory, or rounds counted; proved to give the same results |
| Spec, Outcome, ProgramSpec, Conv, Dft, FloatModel | specification vocabulary |
| Wp, ValueProof, \*Proof, Norm, FftError, ConvError | proofs |
| Prop\* | the theorems of the manifest, `Print Assumptions` after each, examples showing that the hypotheses can be met |

## Properties

The status is that of the statement in `properties.jsonl`.  Where the documented or expected behaviour is
false, the property states what the code does instead, and a theorem named `_refuted` refutes the
expected statement.

| id | property | modelled code | proof | status |
|----|----|----|----|----|
| C01 | Addition is integer addition | op_add_assign, op_add, abs_val_add, abs_val_sub | loop invariants; every signed case | proved |
| C02 | Adding a number to itself in place | op_add_assign with the argument aliased to *this | same loop, reading the vector being written | proved |
| C03 | Same-sign subtraction is integer subtraction | op_sub_assign, op_sub, abs_val_sub | same-sign cases; x -= x separately | proved |
| C04 | Out-of-bounds access happens exactly when both magnitudes are digit-less | the same functions | undefined exactly for two digit-less operands: undefined-ness and definedness are both theorems | proved |
| C05 | Mixed-sign subtraction does not subtract | op_sub_assign | closed formula for every mixed-sign pair; the documented statement is refuted | proved |
| C06 | Adding then subtracting restores the number | op_add, op_sub, op_eq | composition of C01 and C03 with canonicity | proved |
| C07 | Commutativity of addition as seen by == | op_add, op_eq | iff, including the failing case | proved |
| C08 | Equality is representation equality | op_eq, op_ne | == in every state, value equality for canonical numbers | proved |
| C09 | >= and <= on non-negative numbers | op_ge, op_le | lexicographic order equals numeric order on canonical digits | proved |
| C10 | > and < on non-negative numbers: complete but unsound | op_gt, op_lt | exact condition, plus completeness, plus refutation of the documented meaning | proved |
| C11 | Comparisons of two negative numbers | all comparisons on BN_NEG | exact conditions | proved |
| C12 | Comparison across signs | all comparisons across signs | exact conditions | proved |
| C13 | > is not a strict order | op_gt, op_ge | x > y and y > x in every shipped base; >= is a total order | proved |
| C14 | NaN and infinity on the left of a compound assignment | the four compound operators | every y, both builds | proved |
| C15 | NaN and infinity on the right of an operator | the four compound operators | case by case; multiplication both in exact and in IEEE arithmetic | proved |
| C16 | Multiplication in exact arithmetic | mul_strassen over exact reals (Exact.v) | DFT proved by induction on the recursion; sharp length limits | proved |
| C17 | Multiplication in IEEE double arithmetic | mul_strassen over Flocq's binary64 (Ieee.v), with any choice of fused multiply-adds and any recovery from NaN products | forward error analysis with an explicit constant; exact length limits per type; refutation beyond them | proved |
| C18 | Multiplication by the full-width types overflows | mul_strassen, full-width types | for all lengths >= 2, exact and IEEE; one-digit witness in IEEE | proved |
| C19 | Zero times zero never returns | mul_strassen on two empty vectors | no fuel suffices | proved |
| C20 | The transform computes the discrete Fourier transform | fft_complex, ifft_complex over exact reals | for all power-of-two lengths; other lengths: refuted for 3, never returns for 0 | proved |
| C21 | Pointwise product step is cyclic convolution | create_fft_table, convolute_fft, ifft_complex | for all operands; the table length is covered | proved |
| C22 | nextPow2 | nextPow2, isPow2 with 64-bit wrapping | bit-level; refuted above 2^32 | proved |
| C23 | Schoolbook multiplication | mul_naive with int promotion and 32-bit indices | row invariant; what the full-width types compute instead | proved |
| C24 | Division is truncated division, except x/x | op_div_assign, op_div, abs_val_div, shift_left_1 | doubling-search invariant; x/x cases separately; refutation of the unrestricted statement | proved |
| C25 | Division terminates within a logarithmic number of rounds | div_outer, div_inner | the fuel needed is log2|x|+2; bound on outer rounds | proved |
| C26 | Division by zero | op_div_assign | digit-less divisor: no fuel suffices | proved |
| C27 | Division with full-width digits | shift_left_1 with a truncated base | undefined exactly in the stated cases | proved |
| C28 | Construction from a digit list | bn_make (initializer list constructor) | closed form of the stored digits | proved |
| C29 | Digit insertion and removal | push/pop members | effect on the value and on the digits; undefined cases | proved |
| C30 | Checked subscripting | operator[] | both overloads | proved |
| C31 | Descriptor changes and classification | setDescriptor, clear, is* members | all states | proved |
| C32 | Printed text | print (operator <<) | against an independent inductive definition of numerals; ambiguity of base > 10 | proved |
| C33 | Fixed-width integer wrapper | BNIntType operators with C++ integral promotion | exact definedness conditions | proved |
| C34 | Digits stay in range over any history | Machine.v: programs over all public operations | induction over programs, any allocator, both builds, any floating point | proved |
| C35 | No superfluous zeros over any arithmetic history | Machine.v | as C34 | proved |
| C36 | Programs of constructions, copies and additions compute integers | Machine.v | against an interpreter over the integers; any aliasing | proved |
| C37 | Failure atomicity of compound assignment | the four compound operators | every allocation point; the state left behind is stated exactly | proved |
| C38 | Binary operators never change their operands | binary operators in Machine.v | exact outcome in every case | proved |
| C39 | Debug builds reject valid subtractions | abs_val_sub with the BN_DEBUG block | exact throwing condition; debug equals release otherwise | proved |
| C40 | Copy and move | copy and move members | all states, self-assignment included | proved |
| C41 | Shipped limits satisfy the arithmetic side conditions | Limits.v | by computation over the finite list of shipped types | proved |
| C42 | Runtime assertions | bn_runtime_assert | all arguments | proved |
| C43 | Copy assignment is not failure atomic | operator=(const Bignum&) | exact state after failure; atomicity refuted | proved |
| C44 | Programs over natural numbers compute natural numbers | Machine.v | total correctness against an interpreter over the natural numbers | proved |
| C45 | Division of a number with a superfluous high-order zero | op_div_assign on u ++ [0] | closed formula; right iff; refutation of the documented statement | proved |
| C46 | The compression client restores the text | Compress.v: the program of tests/compress_test.cpp | loop invariants over the recorded bits, on top of C45, C24, C17 and C01 | proved |
| C47 | Programs over integers with all four operations compute integers | Machine.v; the program of tests/arithmetic_test.cpp | total correctness against an interpreter over the integers, in IEEE arithmetic | proved |
| C48 | Euclid's algorithm by division | While.v: programs with branches and loops | loop induction on the remainder; refuted for equal numbers (no fuel suffices) | proved |
| C49 | Euclid's algorithm by subtraction | While.v | loop induction on a + b; refuted with > | proved |
| C50 | Structured programs over natural numbers | While.v | induction over a big-step semantics of programs on natural numbers; factorial and Fibonacci loops as corollaries | proved |
| C51 | Accuracy of the transforms in IEEE arithmetic | fft_complex, ifft_complex over Flocq's binary64, with any choice of fused multiply-adds and any recovery from NaN products | forward error analysis by induction over the recursion (FftError.v) and Parseval's identity; counterexample to entry-wise accuracy by computation | proved |
| C52 | The client of the integer wrapper | IntTest.v: the program, text output included; the draw is an argument | case analysis from C33; refuted for the range the program draws from | proved |
| C53 | Division by a number with a superfluous high-order zero | op_div_assign on divisors u ++ [0] and on zeros | closed formula by induction over the search loops; right iff; divergence for every fuel; refutation of the documented statement | proved |
| C54 | Division in a debug build rejects valid operands | op_div_assign with dbg = true | exact condition as an inductive predicate on values (Spec.v: rejected); equality of outcomes otherwise; refutation | proved |
| C55 | Sums, differences and comparisons of numbers with superfluous zeros | op_add_assign, op_sub_assign, op_ge, op_le on arbitrary digits | exact formula, right iff; no canonicity assumed | proved |
| C56 | The output of the arithmetic test | ArithTest.v: the program, text output included | row by row from C01, C05, C12, C17, C24; the decimal table by computation on the proved rows | proved |
| C57 | The laws of arithmetic as a program can test them | Expression.v: expressions and conditions over the operators | induction over expressions from C47; the comparisons from C08, C09, C12; zero sums from the sign of the result of an addition; x*y/y refuted for |x| = 1 by C24 | proved |
| C58 | Numbers of BNIntType on streams | IntStream.v: the stream operators of BNIntType over a description of istream and ostream | induction over texts and sequences; numerals as in C32; the 8-bit case refuted | proved |
| C59 | Division of and by numbers with superfluous zeros, and when division ends | op_div_assign on arbitrary digits | one round of the outer loop with the comparison described by a bound, then C53; termination by cases over C04, C24, C26, C45, C53 | proved |
| C60 | The output of the compression test | CompressTest.v: the program, files as an argument, text output and exit status included | from the number and the bit count of C46's proofs; uniqueness of digits; texts composed along the program (ProgramProof.v); the shipped sample file as an instance | proved |
| C61 | The arithmetic test in debug builds | ArithTest.v in the writing execution model of Program.v | rejected (Spec.v) is decided for the long numbers by the digits of its first subtraction, and refuted for 2B^2-1 by B in any base B; then C54, C39 and the rows of C56 | proved |
| C62 | Debug builds in bases that are powers of two | Division.v, Bignum.v with the BN_DEBUG block; Compress.v, CompressTest.v with BN_DEBUG as a parameter | powers of two below the base have one digit that is not 0, so a subtrahend that is not greater has no greater digit; this carried through both loops; then through the program | proved |
| C63 | Numbers written with manipulators | Format.v: operator << with the flags of the stream as a state; the inserters of the standard library as the standard describes them | the text split at the first item written; numerals as in C32 with the radix as a parameter | proved |
| C64 | Conversion between bases by the client | Convert.v: the two loops of a client over the operators of Bignum.v | the four operators on naturals for any allocator, from C01, C03, C17, C24; induction over the rounds against the digit list of the number | proved |
| C65 | What a build with BN_DEBUG accepts | Strict.v: the programs of Machine.v and While.v without handlers, over both builds | a simulation between the two builds for every function, up to an exception; then induction over the execution | proved |
| C66 | Programs that run out of memory | Strict.v over all of the model | for every function: equal to its run with unlimited memory with all requests granted, or stopped at the first refused one; then C47 and C50 | proved |
| C67 | Handlers that make no difference | Machine.v, While.v with handlers against Strict.v without | release builds throw only for refused requests (the lemmas of C37), statement by statement; then C66, C48 and C49 | proved |
| C68 | Results that are zero | Bignum.v: the four operators followed by == | the exact sign and digits of the results (sums and quotients are never digit-less, differences and products always canonical), then C08 | proved |
| C69 | Operations that need no memory | Bignum.v; requests for memory counted by the monad of Base.v | the result of an addition is longer by the number of requests, and its length follows from its value; subtraction never asks; the first request of the others is explicit; C66 carries a run without requests to every allocator | proved |
| C70 | Numbers written to a stream that fails | Sink.v: operator << insertion by insertion on a stream with bounded room whose buffer refuses or throws, with and without exceptions() | every insertion sends its text character by character or is inert on a bad stream; composed along operator << and along sequences; truncated texts by the digits of C32 | proved |
| C71 | Clients with several threads | Threads.v: the programs of Strict.v stepwise under an arbitrary schedule, variables and allocator shared | locality of every statement (ThreadsProof.v), independence of the number of requests made before (UniformProof.v, for every function); induction over the schedule; stepwise and structured executions agree; then C66 | proved |
| C72 | The memory that a multiplication asks for | MulMemory.v: mul_strassen, the transforms and *= with one request for every vector that is reserved, copied or built, and the blocks that a completed multiplication acquires and releases | a computation that makes a fixed number of requests and stops at the first refusal (asks, MulMemoryProof.v); induction over the recursion of the transform; the digits part asks for nothing; C17 for the product | proved |
| C73 | Sorting, searching and maxima by the comparison operators | Sorting.v: insertion sort as std::sort does it for up to 16 elements, std::lower_bound, std::max and std::min over the comparison operators | the answers of < in closed form, digitwise order against the order of the values (SortingProof.v); invariants of the two loops for every comparator that answers by a key | proved |
| C74 | The work of a division | DivWork.v: the two loops of abs_val_div with counters | the counted run ends as the run of Division.v for every allocation behaviour (C74_counting); the inner loop stops at the highest one bit of the quotient, which the outer loop then removes (DivWorkProof.v) | proved |
| C75 | Numbers written in a locale that groups digits | Grouping.v: operator << with the stream's numpunct facet (separator, sizes of the groups) as an argument | the grouping of one digit of the list at a time; length of a digit's text against powers of the radix | proved |
| C76 | Roots and powers by the client | Clients.v over Machine.v and While.v: Newton's iteration and repeated squaring as client programs | a big-step semantics with the quotient the library computes, sound for every base (C76_programs); invariants of the two loops over it | proved |
| C77 | Programs predicted without digits | all operators and comparisons of Bignum.v, the statements of Machine.v and While.v, against Calculator.v (a specification on descriptors and integers) | each digit algorithm is replaced by its integer result with the exact form of zero results; one simulation for returning, undefined and unending executions | proved |
| C78 | Programs that give the same numbers in every type | as C77, with a second calculator that does not know a base | the baseless calculator is below the one of every base in the order in which unknown is least; C77 twice | proved |
| C79 | Theorems hold whatever the standard library does with capacities | Capacity.v: all operators and the client machine again, on vectors that have a capacity and ask only beyond it; the growth policy of the standard library is a parameter | every execution of the capacity model is an execution of the model of Base.v for some list of answers of the allocator, with a refusal only if there was one; invariant size <= capacity | proved |
| C80 | Accumulating sums allocates rarely | loops of += and of x = x + y over the operators of Capacity.v | potential of the capacity doubles with every request; computations that ask for nothing do not depend on the allocator | proved |
| C81 | Exact work of sums, differences and products | Work.v: the loops of sums, differences, transforms and both products again, with their rounds counted | counting changes nothing (erasure, for every allocator); exact counts by induction over the loops and the recursion of the transform | proved |
| C82 | Modular exponentiation by a client | ModPower.v: a client that computes powers modulo a number with the operators | rules of C76 for the program, induction on the exponent with coprimality as the invariant; RSA by Euler's theorem (mathcomp, carried to Z in EulerProof.v); the wrong cases by the calculator of C77 | proved |
| C83 | Vectors of numbers | Sequence.v: std::vector<Bignum> of libstdc++ (push_back by copy and by move, insert, erase, pop_back, std::swap of elements, reserve), element by element on objects with capacities; `grow` (the growth of the storage) is a parameter | every operation asks a number of times known beforehand and gives one result, or throws and gives the vector back (`stronger`); lists by splitting at the index | proved |
| C84 | Which handlers can run | Catch.v: programs with nested try blocks, handlers by type, `throw;`, and what() texts | the exceptions of every statement from C37 and C39; induction on the fuel of the program for programs | proved |
| C85 | Factors and divisors by a client | Factor.v: trial division and the sum of the divisors as clients of the operators | the rules for clients of C76, the loop by induction on n - d; all allocators by C67 | proved |
| C86 | The digits that a division doubles | DivDigits.v: abs_val_div with the rounds of the loop in shift_left_1 counted | counting changes nothing (C86_counting); the search for a one bit at position j doubles numbers of known lengths; sums of odd numbers and squares | proved |
| C87 | Programs over the integer wrapper | IntMachine.v: statements over wrapped and plain variables, each running the operators of BNInt.v; the two clients are programs of that language | the same statements over unbounded integers (zrun in PropIntMachine.v); induction on that run; reduction modulo 2^W commutes with each operator under the conditions zbin lists. The assignment forms are the binary forms by definition of the model, since the code repeats one built-in expression in all of them | proved |
| C88 | Products in any floating-point environment | Environment.v: binary64 with a rounding direction and the two flushing modes; programs in parts, each in its environment | the same error analysis as C17, with unit 2^-52 and the flushed value as the value of a double (rounding_in in EnvironmentProof.v); programs by the calculator of C77, whose proof takes any arithmetic that multiplies rightly | proved |
| C89 | Products of 32-bit digits that are never right | the model of C88 | the error analysis of C17 without its precision condition (coefficients_near in WideProof.v), monotonicity of rounding at 2^(52+k), the significand of a double; the lowest digit decides the residue modulo 2^k | proved |
| C90 | The transforms at float and long double | Formats.v: the operations of any binary format of Flocq, conversions between formats, the angle in the wider of double and flt_t, the length converted to flt_t and back | the same error analysis as C51 with the angle's error as its only assumption about pi (AngleProof.v, FormatProof.v); the lower bound by computing the angle of a quarter turn exactly and bounding its cosine from below | proved |
| C91 | Products with excess precision | Excess.v: every operation computed in a wider format of Flocq and converted to double when it is assigned; each product inside a complex product kept or stored, per place; nearest rounding, and no values kept in registers across assignments | double rounding meets the assumptions of FloatModel.v with u = 2^-53 * 1025/1024 (ExcessProof.v); then as C88 | proved |
| C92 | Multiplication with another floating-point type | MulFormats.v: mul_strassen with flt_t a parameter; x + 0.5, its floor and the sum with the carry are computed in the wider of double and flt_t, since 0.5 is a double | C90's error bound for the coefficients, the conversion to the wider type being exact, and the carry loop of C17 with the arithmetic of the wider type; wrong products: a float above 2^24 is even, so the lowest digit is even | proved |


## What is modelled, and what is not

Modelled completely, function by function:

* `bn_compare_impl.h`, `bn_addition_impl.h`, `bn_subtraction_impl.h` (with and without `BN_DEBUG`),
  `bn_division_impl.h`, `bn_multiplication_impl.h` (`mul_strassen`, `mul_naive`), `fourier_impl.h`;
* `bn_type_impl.h`: constructors, assignment, comparison and arithmetic operators, digit access, descriptors,
  `operator <<`;
* `bn_int_type_impl.h`: all operators; the built-in stream operators they forward to are described in `IntStream.v`;
* `bn_limits_impl.h`, the type list of `bignum.h`, and the client-defined base-256 type of the tests;
* `src/bn_except.cpp`: `bn_runtime_assert`;
* `tests/compress_test.cpp`, `tests/integer_test.cpp` and `tests/arithmetic_test.cpp`: the whole programs.

Not modelled, or simplified:

* vector capacity: in most files each growth, copy or construction of a vector is a point where the allocator may refuse.
  The real code allocates at a subset of these points.  Capacity.v keeps the capacities of all vectors, and C79 shows that
  what is proved without them holds with them; what `reserve` gives in a multiplication is taken to be exactly what it is
  asked for.  In `mul_strassen` one request stands for all its local vectors, as a failure of any of them leaves the
  function in the same way (C72 proves this against MulMemory.v, which has each of its requests);
* `std::vector` of digits itself (its operations are list operations with range checks), the `noexcept` machinery;
* widths are those of the usual platforms: 32-bit `int`, 64-bit `size_t`, `double` is binary64 with round to
  nearest even (other environments: C88); extended precision only as the standard allows it, rounded at every assignment (C91).  Contraction of `a*b - c*d` and `a*b + c*d` in the complex products into
  fused multiply-adds is a parameter (`evaluation`, chosen for each place, round and part separately); the IEEE
  theorems hold for every choice;
* `std::cos` and `std::sin` are parameters.  The IEEE theorems assume they are within 2^-52 of the true
  values on [-4, 4]; C17_accurate_exists shows such functions exist;
* what the compiler's run-time library makes of a complex product whose two parts both come out NaN is another part of
  the parameter `evaluation`: any function of the operands;
* `print` models the text for the default flags of a stream; Format.v has the flags (radix, case, showbase, adjustment, fill, width) as a state, in the classic locale, Grouping.v the same in locales that group digits; Sink.v has streams that fail (buffers that refuse a character or throw);
* the message of a failed assertion beyond what C42 says; threads below the level of whole statements, and threads that share numbers one of them writes (independent threads: Threads.v);
* the disabled branch in the `main` of `compress_test.cpp`; files that are not regular files.

## Trusted base

* Coq's kernel (the build is also rechecked by `coqchk`).
* The reading of the C++ sources into the model, by eye: no code was run.
* The definitions in the specification files and the statements in the `Prop*` files.
* The axioms listed by `Print Assumptions`, all of Coq's standard library; no axiom is declared here.

Using `ClassicalDedekindReals.sig_forall_dec`, `ClassicalDedekindReals.sig_not_dec`, `Classical_Prop.classic`, `FunctionalExtensionality.functional_extensionality_dep` (the standard library's real numbers, classical logic and functional extensionality): C15_mul, C15_mul_ieee, C16_product, C16_product_binary, C16_square, C16_column_overflow, C16_lengths_sharp, C17_product, C17_square, C17_column_overflow, C17_per_type, C17_lengths_sharp, C17_product_refuted, C17_accurate_exists, C18_two_maximal_digits, C18_two_maximal_digits_ieee, C18_single_digits, C20_transform, C20_inverse_of_transform, C20_transform_of_inverse, C21_convolution, C46_roundtrip, C46_roundtrip_high_byte_refuted, C46_trailing_zeros, C46_empty_text_refuted, C46_signed_char, C46_signed_char_refuted, C47_integer_programs, C47_arithmetic_test, C47_arithmetic_test_one, C48_euclid, C48_euclid_equal_refuted, C50_structured_programs, C50_factorial, C50_fibonacci, C51_transform, C51_inverse, C51_round_trip, C51_exact_refuted, C56_table, C56_printed_rows, C56_table_text, C56_decimal_table, C56_output, C57_conditions, C57_laws, C57_mul_div_refuted, C57_mul_commutes, C60_output, C60_unreadable, C61_debug_output, C61_builds_differ, C64_digits, C64_digits_below_base_refuted, C64_endless, C64_from_digits, C64_roundtrip, C64_convert, C66_structured_programs, C66_integer_programs, C66_debug, C67_euclid, C67_euclid_equal_refuted, C67_subscript_refuted, C68_product, C71_numbers, C72_product, C76_programs, C76_root, C76_power, C76_careful_power, C77_operators, C77_programs, C77_endless, C77_wrong_loop, C78_numbers, C78_types, C79_numbers, C82_mod_power, C82_common_factor_refuted, C82_same_key, C82_message_back, C85_least_factor, C85_divisor_sum, C85_divisor_sum_refuted, C88_default, C88_operations, C88_product, C88_square, C88_column_overflow, C88_per_type, C88_lengths_sharp, C88_same_product, C88_programs, C88_phases, C89_multiple, C89_never_right, C89_square, C89_operator, C89_odd, C89_single_digits, C90_transform, C90_inverse, C90_round_trip, C90_convolution, C90_coefficients, C90_float_decimal, C90_long_double, C90_table, C90_table_refuted, C91_operations, C91_complex_parts, C91_product, C91_square, C91_column_overflow, C91_per_type, C91_lengths_sharp, C91_same_product, C91_programs, C92_product, C92_column_overflow, C92_float, C92_long_double, C92_long_double_sharp, C92_same_product, C92_float_wrong, C92_digits_right.

Using `ClassicalDedekindReals.sig_forall_dec`, `ClassicalDedekindReals.sig_not_dec`, `FunctionalExtensionality.functional_extensionality_dep` (the standard library's real numbers, classical logic and functional extensionality): C20_refuted, C78_refuted.

Using `FunctionalExtensionality.functional_extensionality_dep` (the standard library's real numbers, classical logic and functional extensionality): C79_programs, C79_returns, C79_operators, C79_binary, C80_accumulate, C80_copies, C80_fits, C80_beyond.

Using `ClassicalDedekindReals.sig_forall_dec`, `FunctionalExtensionality.functional_extensionality_dep` (the standard library's real numbers, classical logic and functional extensionality): C88_flushed.

"Closed under the global context" (no axiom at all): the other 284 theorems.

Flocq, Coquelicot and (for Euler's theorem, in EulerProof.v) mathcomp are used as libraries of definitions and proofs; they add no axioms.

## What the proofs found in the code

* `gt`/`lt` are unsound on equal lengths: 19 > 20 (C10); comparisons of negatives are shifted (C11).
* So `std::sort`, `std::set`, `std::max` with the default order are wrong (std::max(20, 19) is 19) unless the digits of equally long numbers are comparable; a comparator from `>` and `>=` that is right for all finite numbers (C73).
* Subtraction of numbers of different sign is wrong (C05).
* `x / x` is 0 unless x is 1 (C24).  Division by a digit-less zero does not terminate (C26).
* Division with full-width digits is undefined behaviour (C27).
* `0 - 0` and `0 + (-0)` read outside the buffer when both zeros have no digits (C04); 0 * 0 recurses forever (C19).
* Products are exact only within per-type length limits.  The limits are exact: one digit more is undefined
  behaviour (C16, C17, C18).
* No product of two 32-bit-digit numbers that are odd and whose lowest digits are at least 2^28 is ever right (C89).
* The transforms at long double are no more precise than about 2^-55, since the literal for pi is a double (C90); at float a digit of 32 bits is not stored exactly (C90), and products of 16-bit digits can be wrong (C92).
* A debug build throws on valid subtractions such as 20 - 19 (C39) and valid divisions such as 30 / 4 (C54).
* Copy assignment is not failure atomic: a failed `x = y` can negate x (C43).
* With superfluous high-order zeros, 7 - 05 = -98 and 6 >= 02 is false (C55).
* A dividend with a superfluous high-order zero gives a wrong quotient: 06 / 2 = 53 (C45).
* A divisor with a superfluous high-order zero gives a quotient with its low binary digits cut off: 6 / 02 = 0; dividing by
  00 never ends (C53).
* The compression test works for ASCII only because that error and 2 / 2 = 0 cancel; with a signed char type it changes every
  text that is not ASCII (C46, C60).  It reports success for files it cannot open (C60).
* Newton's iteration gives 0 as the root of 1; repeated squaring gives 7 for 7^2 and 7^6 for 7^10, because 2 / 2 is 0 (C76).
* Modular exponentiation is right for bases coprime to the modulus; 2^2 mod 4 comes out as 4, and 2^4 mod 4 is undefined behaviour (C82).
* The move operations are not noexcept: a `std::vector` of numbers copies all of them whenever it grows, and a failed `push_back(std::move(x))` can lose x (C83).
* The handlers of the operators `throw e;` by the static type: clients can catch neither BNUnderflow nor std::bad_alloc from a compound assignment; a subscript out of range throws an enumerator, which catch (std::exception&) does not take (C84).
* Square and multiply over the 16-bit BNIntType overflows int: 65535 to the power 1 is undefined, in the other three types the same program is right for all inputs (C87).
* Division is cubic in the number of digits even by a one-digit divisor: x / 1 in base 2 doubles n(n+1)(2n+1)/6 digits for the largest x of n digits (C86).
* A client that adds up the divisors of n with (n / d) * d == n misses n itself (C85).
* The same subtraction gives different numbers in different bases: 105 - (-110) is 995 in base 10 and 0 in base 16 (C78).
* Euclid's algorithm written with `/` hangs on equal numbers; written with `-` and `>` it hangs on 19 and 21 (C48, C49).
* `tests/arithmetic_test.cpp` would fail for a = 1 (C47); all sixteen differences in its tables are wrong (C56).
  Its debug build fails in the last division and exits with status 0 (C61).
* A handler that swallows the debug build's exceptions lets the same program end with other values (C65).
* A loop that divides until x != zero never ends, because a zero quotient is not equal to a constructed zero (C64).
* A result that is zero is mostly not == to a constructed zero: (-5) - (-5), (-4) + 4, 0 + 0 and 3 / 5 are not (C68).
* Addition tested with == does not associate when the sum is zero: (5 + -8) + 3 is -0, 5 + (-8 + 3) is +0 (C57).
* `tests/integer_test.cpp` is undefined behaviour unless both random numbers are in 1..31 (C52).
* The transforms are wrong for lengths other than powers of two, and never return for length 0 (C20).
* NaN and infinities are not sticky (C14).
* `nextPow2` is wrong above 2^32 (C22).  `push_front`/`push_back` do the opposite of their comments (C29).

## Testing the theorems

`seeded/LOG.jsonl` has one line per wrong program: the model definition edited, the edit, the claims it
breaks, the theorems that no longer prove, and the theorems tightened because of it.
