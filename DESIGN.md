# Formal model of qlibs-cpp in Rocq

## Approach

* Each C++ module becomes a set of small total Gallina functions (`*_Model.v`), one per C++ function, each citing file and lines.
* Undefined behaviour (out-of-bounds access, over-wide shift, signed overflow, null dereference) is a distinct outcome `Ub` of the result type `res`.
* Arrays are lists with checked read/write; C integers are `Z` with explicit `mod 2^32` where the code wraps.
* `real_t` (= float) code is written once over a record of arithmetic operations. It is instantiated with the real numbers `R` (exact arithmetic, an idealisation stated in each theorem) and with IEEE-754 binary32 (Flocq `binary32`, round to nearest even).
* `*_Spec.v` hold small independent specifications; `*_Proofs.v` the proofs; `*_Properties.v` only final theorems, `Print Assumptions`, and non-vacuity examples.

## Plan per property

* **C01** Bit-field behaves as an array of bits under any history. Bitfield_Model: words as list Z (each in [0,2^32)); refinement to `list bool` by induction over the op list.
* **C02** n-bit write then read round-trips. Bit lemma: testbit of write_uint32/read_uint32 at every offset; round trip by bit extensionality.
* **C03** n-bit write leaves every other bit unchanged. Same bit lemma, frame part.
* **C04** Fields running past the end are truncated, not corrupted. Same bit lemma for the truncated case.
* **C05** Width 0 and areas that are not whole words are undefined. Model returns UB for shift>=32 and out-of-bounds access; refuted/witness theorems by computation.
* **C06** Single-precision floats round-trip bit-exactly through a bit-field. Corollary of C02 at n=32 over raw 32-bit patterns.
* **C07** Uninitialised bit-field refuses everything; dump copies a prefix. Guard reasoning; bytes of little-endian words.
* **C08** crc::generic computes the polynomial-division CRC. Spec: long division of bit lists over GF(2). Invariant: register = remainder of the consumed prefix.
* **C09** CRC is affine over GF(2). Linearity of the register step over xor.
* **C10** CRC detects every burst no longer than its width. Injectivity of the shift step when poly is odd.
* **C11** CRC can be computed incrementally. Fold over append.
* **C12** CRC result range and degenerate inputs. Low-bits lemma: only val mod 2^width matters.
* **C13** CRC presets implement their documented parameter sets. Preset table compared against documented parameter records.
* **C14** Tapped delay line holds exactly the last n samples. Ring-buffer invariant wr=(rd+1) mod n; abstraction to the list of the last n samples; induction over ops.
* **C15** Delay line index handling. Computation / case split; n=1 witness.
* **C16** Transport delay delays by exactly N samples. Corollary of C14 with n=N+1 / n=nD.
* **C17** sort() returns the sorted permutation. Explicit-stack quicksort with the C loop structure; invariant (permutation, stacked ranges disjoint, >=2 elements each).
* **C18** sort() with a comparator. Same model, comparator variant; permutation by induction; witness for unsortedness.
* **C19** reverse and rotate. Loop invariant; rotate as three reversals; UB witness.
* **C20** Linear algorithms: fill, find, any_of, all_of, count_if, for_each. Loop inductions.
* **C21** find_if / replace / replace_if versus their documentation. Loop inductions plus refuting witnesses.
* **C22** binary_search is exact on sorted ranges. Loop invariant on lo/hi.
* **C23** Q16.16 addition and subtraction are exact or flagged. Z arithmetic with explicit mod 2^32.
* **C24** Q16.16 multiplication is correctly rounded or flagged. Z arithmetic of the three partial products.
* **C25** Q16.16 division. Invariant of the shift-subtract division loop.
* **C26** Q16.16 conversions from and to integers. div/mod arithmetic.
* **C27** Q16.16 comparisons are the order of the represented numbers. Z order.
* **C28** Q16.16 angle wrapping. Fuel-free loop model with decreasing measure.
* **C29** Q16.16 square root. Invariant of the digit-by-digit square root loop.
* **C30** Q16.16 text conversion. Digit-string denotation function as specification.
* **C31** Q16.16 special values of exp, log, sinh, atan2, rounding. Case analysis plus witnesses.
* **C32** Numerical integrators are exact on the polynomials their rule promises. Arithmetic-generic model, theorems at the real-number instance.
* **C33** Numerical derivatives. Same.
* **C34** PID output always respects the configured saturation. Same model at the IEEE binary32 instance (Flocq).
* **C35** PID implements the documented control law. Real instance.
* **C36** PID setup and setters validate and are transactional. Generic over the arithmetic.
* **C37** PID dead band, reset and manual mode. Generic/real.
* **C38** Auto-tuning changes gains only at the end of its window. Counter invariant.
* **C39** Smoother setup rejects out-of-range parameters. Generic.
* **C40** First-order smoother stays in the hull of its inputs. Real instance; convexity; induction over inputs.
* **C41** Second-order low-pass has unit DC gain. Real instance.
* **C42** Moving-window means are the mean of the last n samples. Real instance; invariant sum = sum of window.
* **C43** Outlier-removal smoothers. Generic.
* **C44** Gaussian kernel is normalised. Real instance.
* **C45** Scalar Kalman smoother keeps a positive covariance and gain in (0,1). Real instance.
* **C46** Discrete transfer function implements its difference equation. Real instance; direct form II state invariant.
* **C47** LTI output saturation. Binary32 instance.
* **C48** FIR update is a shift register with the dot product. Generic over the arithmetic for the window; real for the sum.
* **C49** Continuous transfer function steps the controllable canonical form. Real instance.
* **C50** Transfer functions with different numerator and denominator lengths. UB outcome from checked array access.
* **C51** Interpolators reproduce the data points. Real instance.
* **C52** Linear interpolation is exact and bounded. Real instance.
* **C53** Neighbour interpolators select the right neighbour. Real instance.
* **C54** Interpolation memory safety. Checked reads.
* **C55** Hermite is Lagrange interpolation; sine interpolation picks the last interval. Real instance.
* **C56** Matrix construction, access and algebra. Matrices as functions/lists over R.
* **C57** Matrix inverse. Gauss-Jordan invariant.
* **C58** Matrix increment, decrement and infinity norm. Witnesses/general lemma.
* **C59** Fuzzy operators stay in [0,1] and are norms. Real and binary32 instances.
* **C60** Membership functions stay in [0,1] and hit their shape. Real instance.
* **C61** Rule evaluation follows the rule text. State machine model; spec = parse tree of rules and its denotation.
* **C62** Inference never runs away on malformed rules. Same state machine.
* **C63** Defuzzified outputs stay in the output range. Real/binary32.
* **C64** FIS parameter/defuzzification acceptance table. Finite sweep over enumerations.
* **C65** RMS estimator. Real instance.
* **C66** floor/ceil/trunc/rounding are the mathematical functions. Bit-pattern integers; specification through the represented real.
* **C67** classify, copysign, absf, nextAfter act on the representation correctly. Bit-pattern integers; order isomorphism.
* **C68** rexp and ldexp. Bit-pattern integers.
* **C69** inRangeCoerce clamps every float. Binary32.
* **C70** mod and rem. Real instance and binary32 witnesses.
* **C71** Approximate square root accuracy. Bit pattern + Flocq rounding error bounds.
* **C72** The PID tuner is recursive least squares with positive tuned gains. Real instance.
* **C73** Double exponential and adaptive smoothers. Real instance.
* **C74** reset() makes a smoother forget. Generic over the arithmetic; real instance for the windowed filters.
* **C75** The spline method is a smooth piecewise cubic. Real instance; cubic Hermite form.
* **C76** Matrix compound assignment and aliasing. Generic loop invariant with the operand re-read in each iteration.
* **C77** Inverse membership functions of Tsukamoto systems. Real instance; each inverse composed with its shape.
* **C78** Fuzzification clips the inputs and evaluates the sets. Real instance and binary32 range.
* **C79** Aggregation reads the rules as the inference does. Loop over the cells of a generated text.
* **C80** FIS set-up, access and sets. Generic over the arithmetic.
* **C81** A Mamdani evaluation is a function of its inputs. Composition of C78, C61, C79 and C63.
* **C82** Approximate reciprocals. Bit pattern + Flocq rounding error bounds.
* **C83** Angle wrapping. Corollary of C70.
* **C84** midpoint() never overflows and stays between its arguments. Rounded reals (Flocq): exact halving, one rounding, case analysis of the branches.
* **C85** lerp() is exact at the ends, bounded and monotone. Rounded reals; overflow of the unclipped value handled through the clip.
* **C86** normalize() and map() rescale ranges monotonically. Rounded reals; monotonicity of rounding.
* **C87** hypot() and inCircle(). Rounded reals on top of the square root, ldexp and rexp theorems.
* **C88** exp2() accuracy. Rounded reals: range reduction through the floor theorem, Horner rounding errors, and a polynomial bound by interval subdivision on integer coefficients, proved sound once (PolyBound.v), against the Taylor expansion of exp.
* **C89** exp(), exp10(), expm1() accuracy. Corollaries of C88 with bounds of ln 2 and ln 10.
* **C90** Hyperbolic functions. Corollaries of C89.
* **C91** log2() accuracy. Binary32 instance. The exponent/mantissa split is computed on the pattern; ln(1+t) minus the polynomial has a rational derivative whose numerator is bounded by interval bisection of an integer polynomial, giving an error proportional to |t|; rounding errors are carried proportionally to |t| through the evaluation.
* **C92** log(), log10(), log1p() accuracy. Binary32 instance, from C91 by one multiplication with a rounded constant; log1p through the perturbation of ln.
* **C93** pow() accuracy and domain. Binary32 instance, C91 composed with C88.
* **C94** Inverse hyperbolic functions. Binary32 instance, square root (C71) and log (C92) composed; stated through sinh, cosh, tanh of the result.
* **C95** Constrained spline does not overshoot between inner knots. Real instance; the pieces computed exactly, then a monotonicity argument for cubics with end slopes between 0 and twice the chord; corner by an explicit table.
* **C96** Hermite polynomials. Real instance; the loop is the three-term recurrence, whose solution is shown by induction to satisfy Rodrigues' formula.
* **C97** Legendre polynomials. Real instance; recurrence, then the derivative identities by induction give Legendre's equation; m-th derivatives by a second recurrence; deviation by a witness.
* **C98** Laguerre polynomials. Real instance; the backward hypergeometric loop is summed by induction; the value at zero in closed form shows the missing factor.
* **C99** Max and Min of any number of arguments. Any arithmetic for membership, binary32 for extremality, by induction over the arguments with the order of binary32 embedded in the reals.
* **C100** inPolygon stays within the bounding box. Any arithmetic; loop invariants over the index and over the box; the rectangle in the real instance.
* **C101** factorial. binary32; the table is checked entry by entry against rounding of the integer factorial, the index is the floor of x.
* **C102** Gamma function: recurrence to the last bit. binary32; all additions and subtractions of integers between 1 and 12 are shown exact, so the loop multiplies by x last.
* **C103** Logarithm of the gamma function: poles and zeros. binary32; classification and truncation lemmas; the bound on ln n! by induction.
* **C104** Beta function is symmetric. binary32; commutativity of the float sum, NaN propagation into exp2.
* **C105** sin() and cos() accuracy. binary32: the range reduction by adding and subtracting 1.5*2^24 rounds to even integers exactly; the quartic against sin through Taylor bounds of cos and bisection.
* **C106** tan() accuracy. binary32, from the bounds of sin and cos.
* **C107** asin() and acos() accuracy and domain. binary32: half-angle identity, sqrt accuracy, Taylor bounds of sin.
* **C108** atan() and atan2() accuracy. binary32: arctangent bounded by a Chebyshev polynomial whose derivative is compared with 1/(1+x^2); quadrant analysis against polar coordinates.
* **C109** Cube root accuracy. Binary32 model; the seed taken from the bits is analysed by exponent modulo three with polynomial bounds, then rounding errors are carried through both refinement steps.
* **C110** Q16.16 to and from float and double. Conversions written once over an IEEE format and instantiated at binary32 and binary64 (Flocq); rounding by adding a half is analysed on the grid of the format.
* **C111** Q16.16 constants are correctly rounded. The literal conversion is computed in the model; the constants are bounded by Taylor expansions and the bounds on pi.
* **C112** Complete elliptic integral of the first kind. The loop of Carlson's duplication is followed with relative error intervals; an invariant gives the ratio of the arguments; the integral is taken as a Riemann integral and reduced to the arithmetic-geometric form by substitution.
* **C113** Elliptic integrals: symmetry, domain and end points. Case analysis on the sign and on the tests in front of the loops; the loops themselves are shown not to see the sign of k.
* **C114** Exponential integral: accuracy for positive arguments. Ei is specified by its series; its derivative is proved to be exp(x)/x as a check of the specification. Euler's constant is bounded through the monotone sequences H_n - ln n - 1/2n + 1/12n^2. The loop keeps relative error intervals for the term and the sum, the break test bounds the tail.
* **C115** Exponential integral: special arguments and deviations. The asymptotic loop is shown to stop at its first turn; the alternating loop keeps the two partial sums as approximations of a split of the partial sum; Ei is bounded by termwise comparison with exp(x)/x.
* **C116** Bessel functions: domain and values at zero. Case analysis on the tests of the code, with the value of a float extended to the infinities.
* **C117** Bessel functions are defined for every argument. The rounded sum of the order and a constant stays above 2^31 (monotone rounding), so the conversion, a partial function in the model, is undefined.
* **C118** Bessel functions of the first kind of orders 0 and 1: accuracy. J_n and I_n are specified by their power series; their derivatives are proved as a check of the specification. The loop keeps absolute error bounds for the term and the sum, and the break test leaves a geometric tail. The factor of order 1 uses the accuracy of log and exp. The failures compare the computed bits with bounds of the series of I_0(5) and K_0(2).
* **C119** Spherical associated Legendre function. Real instance, with the logarithm of the gamma function as an argument specified at integers and half-integers. The recurrence in l is that of the m-th derivatives of the Legendre polynomials, by induction on the degree.
* **C120** Riemann zeta function. Zeta is specified by its series, bounded by its first two terms from 20 on. The point 19 tests the global series by computation. The factors of the Euler product after the second are exactly 1, so the loop is followed by a generic lemma. To the left the power is 0 and the gamma function +inf, hence NaN; the single points by computation.
* **C121** Q16.16 sine, cosine and tangent: accuracy. The raw values are read as reals x/65536. Every product is within half a unit of the real product, so the partial Taylor sum carries an explicit error; the alternating series bounds the sine. Beyond 2.573 rad the eleventh power exceeds 32768, the product is the overflow value and the last term is a constant, which gives the total bound and the deviation.
* **C122** Q16.16 exponential and hyperbolic functions: accuracy. Loop invariant over the terms of the exponential series: the error of term i and of the partial sum is bounded by a multiple of e^x; when the loop stops, x is at most half the next index, so the tail is at most the last term. Negative arguments through the rounded reciprocal; the hyperbolic functions from both exponentials.
* **C123** Q16.16 binary and natural logarithm: accuracy. Binary logarithm: the halving or doubling loop keeps log2 of the argument plus the count within an error of one unit per rounded halving; the squaring loop is the bit by bit expansion, each square within half a unit. Natural logarithm: the scaling loops divide by e^4 or e, each Newton step for e^t = s is shown to contract to the accuracy of exp, and the loop count is bounded.
* **C124** Q16.16 inverse trigonometric functions: accuracy. Polar angles through the tangent of pi/4 - t and 3 pi/4 - t; the cubic against the inverse tangent by a certified polynomial bound on [-1,1]; the absolute value by shift and exclusive or is exact below 2^28 and at most 14 units too large beyond. The inverse sine uses the subtraction formula of the inverse tangent, so the error of the square root enters undivided.
* **C125** Q16.16 power function. Induction over the multiplication loop with the geometric error sum as invariant; the other exponents compose the proved errors of log, the product and exp. A negative base follows the path of its absolute value and is negated.
* **C126** Error function. The result of exp is non-negative for every argument up to 25, and r/((r+1)*2) - 1 lies in [-1, -1/2] for such r with every operation rounded; the specification is the Riemann integral of the Gaussian.
* **C127** Q16.16 operators: programs. Programs are a syntax tree with a fuel-bounded evaluator over raw values; the specification is a big-step relation over the reals whose rules demand representable values. Simulation by induction on the derivation, with monotonicity in the fuel.
* **C128** Q16.16 operators: accumulated error of expressions. Induction over the expression tree; the error is a recursive real-valued function of the tree.
* **C129** Low-pass smoother in single precision. Binary32 instance; monotonicity of rounding and exactness of small sums for the hull, contraction plus rounding error for settling, a fixed point for the stall.
* **C130** FIR sums in single precision. Binary32 instance; error recursion over the accumulation loop; a finite result implies that every intermediate result was finite.
* **C131** Discrete transfer functions in single precision. Binary32 instance; backward error of each step, induction over the stream for an inner real signal, then convolution with the impulse response for the forward bound.
* **C132** Moving mean in single precision. Binary32 instance; the delay-line invariant carries the window, the error of the running sum satisfies a linear recursion; a two-state cycle for the sum that never recovers.
* **C133** Numerical integration in single precision. Binary32 instance; a calculus of relative and absolute errors bounds each increment, a linear recursion bounds the sum; midpoints between neighbouring floats give the stagnation.
* **C134** Scalar Kalman filter in single precision. Binary32 instance; invariant on gain, variance and state; one step never moves past the sample by more than the rounding of one difference, so the excess does not accumulate.
* **C135** Numerical differentiation in single precision. Binary32 instance; the same calculus of relative and absolute errors as C133, doubling is exact; a constant whose triple is not representable.
* **C136** Exponentially weighted mean in single precision. Binary32 instance; the weight stays in [1, 2^j], the rounding errors of one step are absorbed by the contraction 1 - 1/w; a fixed point of the rounded recursion for the deviation.
* **C137** Linear interpolation in single precision. Binary32 instance; the search by induction on the remaining intervals, the three differences and the last sum by their purely relative rounding error; a two-point table for the deviation.
* **C138** Step interpolation in single precision. Binary32 instance; the searches of previous and next make the same comparisons as over the reals, the distances of nearest carry a relative error only; a two-point table for the deviation.
* **C139** Gaussian smoother in single precision. The window holds the last samples by induction on the stream, in any arithmetic; the error of one sum as in C130.
* **C140** Gaussian smoother kernel normalised in single precision. Relative error of a sum of non-negative numbers by induction on the window, then the error of each quotient; the constant signal from C139.

## Trusted base

* The Coq 8.16.1 kernel (and `coqchk`), including its `vm_compute` where a proof uses it. No OCaml plugin beyond the distributed tactics (`lia`, `lra`, `nra`, `field`, `ring`), whose results the kernel checks.
* Libraries: the Coq standard library and Flocq. No axiom is added by this development; no functor, module type, `Declare Module`, section-less `Variable`/`Hypothesis`, disabled check, `Admitted` or open obligation.
* That the Gallina models say what the C++ says. Each definition cites the lines it models. The C++ was read, never compiled or run. Modelling conventions:
  * `float` is IEEE-754 binary32, round to nearest even, every operation rounded once (no fused multiply-add, no excess precision, no flush to zero, no `-ffast-math`); `real_t` is `float`, the library's default configuration.
  * `size_t` is unbounded (`Z`/`nat`) unless a theorem says otherwise; `int` is 32 bits with overflow undefined; `uint32_t` wraps; `>>` of a negative `int` is arithmetic; a cast of an out-of-range float to an integer is undefined.
  * Distinct arrays and objects given by the caller do not overlap. Where the library itself aliases (matrix compound operators), the model re-reads the aliased cell.
  * A C array of length n is a list of length n; reading or writing outside of it is `Ub`. A null pointer is `None`.
  * Functions that the code calls through the elementary library inside generic (`arith`) models (`exp`, `cos`, ...) are oracles of the arithmetic record; theorems about them state what they need of the oracle. The elementary functions themselves are modelled in binary32 in Ffmath_Model/Ffmath2_Model.
* Exact-arithmetic theorems (`A := RA`) are about the same generic program instantiated with the real numbers: they are statements about the algorithm, not about its rounding. Division by zero in that instance is the (unspecified but total) value of Coq's `/`; theorems exclude it by hypothesis where it matters.

## What `Print Assumptions` lists

Every assumption is an axiom of the standard library (used by its classical real numbers and by Flocq):
`sig_forall_dec` and `sig_not_dec` (ClassicalDedekindReals), `functional_extensionality_dep` (FunctionalExtensionality), `classic` (Classical_Prop).

* **Closed under the global context** (153 theorems): `C01_bitfield_is_bit_array`, `C02_write_read_roundtrip`, `C02_width1_is_truthiness`, `C03_write_frame`, `C03_writeFloat_frame`, `C04_truncated_write_read`, `C04_read_is_the_bits_that_exist`, `C05_width0_undefined`, `C05_wide_refused`, `C05_ragged_area_undefined`, `C06_float_roundtrip`, `C07_uninitialised_refuses`, `C07_setup_guard`, `C07_dump_prefix`, `C08_generic_is_polynomial_crc`, `C08_spec_is_functional`, `C09_crc_affine`, `C09_crc_linear`, `C10_burst_detection`, `C11_incremental`, `C12_range`, `C12_degenerate`, `C12_overlong_undefined`, `C13_presets_match_documentation`, `C13_DNP_actual_parameters`, `C13_DNP_comment_refuted`, `C14_delay_line_holds_last_n`, `C14_line_is_last_samples`, `C15_bad_index_is_nan`, `C15_one_element_line_reads_out_of_bounds`, `C15_bad_size_undefined`, `C16_transport_delay`, `C16_delayed_is_pure_delay`, `C16_n_tap_line_delays_n_minus_1`, `C17_sort_sorts`, `C17_sort_stack_never_overflows`, `C17_reversed_range_swaps_ends`, `C18_comparator_sort_is_a_rearrangement`, `C18_comparator_sorts_refuted`, `C19_reverse`, `C19_rotate`, `C19_rotate_negative_multiple_undefined`, `C20_fill`, `C20_find`, `C20_any_of`, `C20_all_of`, `C20_count_if`, `C20_for_each`, `C21_find_if_returns_last`, `C21_find_if_first_refuted`, `C21_replace_changes_first_only`, `C21_replace_if_changes_first_only`, `C21_replace_all_refuted`, `C22_binary_search`, `C23_add_exact_or_flagged`, `C23_sub_exact_or_flagged`, `C24_mul_correct`, `C24_mul_correct_nonnegative`, `C24_nearest_functional`, `C24_mul_refuted`, `C25_div_correct`, `C25_div_by_zero`, `C25_div_of_sentinel`, `C26_int_round_trip`, `C26_toInt_rounds`, `C26_floor`, `C26_ceil`, `C26_int_round_trip_refuted`, `C26_rounding_refuted`, `C27_comparisons_are_rational_order`, `C27_abs_and_neg`, `C28_wrapToPi`, `C28_wrapTo180`, `C28_wrapToPi_within_pi_refuted`, `C29_sqrt_rounded`, `C29_sqrt_below_4096`, `C29_sqrt_non_positive`, `C29_sqrt_refuted`, `C30_toASCII`, `C30_toASCII_length`, `C30_toASCII_overflow`, `C31_exp_saturates`, `C31_log_of_non_positive`, `C31_hyperbolic_saturates`, `C31_log2_of_powers_of_two`, `C31_special_values_refuted`, `C33_derive_keeps_value`, `C33_no_update_keeps_history`, `C36_refused_changes_nothing`, `C36_accepted_iff`, `C36_initialised_iff`, `C36_uninitialised_control`, `C36_setup_tests_previous_step`, `C37_reset_forgets`, `C38_gains_kept`, `C38_window`, `C38_gains_installed`, `C38_enable`, `C38_enable_zero`, `C47_setSaturation`, `C48_shift`, `C48_bad_size_undefined`, `C49_init_uses_first_element`, `C49_integration_method`, `C50_lengths_must_agree`, `C50_states_must_fit`, `C50_refused`, `C39_moving_window_setup_refuted`, `C74_reset_forgets`, `C54_configuration`, `C54_defined`, `C54_cubic_undefined`, `C54_short`, `C56_construction`, `C56_access`, `C56_elementwise`, `C57_defined`, `C58_increment`, `C58_norm_undefined`, `C76_matrix_operands`, `C76_scalar_operands`, `C76_own_element`, `C62_terminates`, `C62_accepts`, `C62_refuses`, `C62_refuted`, `C64_settings`, `C64_implication_refuted`, `C79_then_refuted`, `C80_before_setup`, `C80_setup`, `C80_access`, `C80_access_refuted`, `C80_sets`, `C80_region`, `C96_hermite_nan`, `C97_order_above_degree`, `C98_refused`, `C99_an_argument`, `C100_total`, `C100_within_box`, `C100_empty_refuted`, `C119_order_above_degree`, `C119_nan`, `C124_atan2_undefined`, `C124_atan_undefined`, `C127_deterministic`, `C127_compound_is_assignment`, `C127_post_increment`, `C127_overflow_lost_refuted`, `C127_negated_overflow_undefined`, `C127_counting_loop_refuted`, `C139_forgets`.
* **sig_forall_dec, functional_extensionality_dep** (12 theorems): `C46_response_unique`, `C43_outliers_hull`, `C60_core_support`, `C125_pow_integer`, `C127_program_exact`, `C127_comparisons`, `C127_sum_loop`, `C128_forward_error`, `C128_exact`, `C128_inner_product`, `C128_horner`, `C130_simple_bound`.
* **sig_forall_dec, sig_not_dec, functional_extensionality_dep** (3 theorems): `C44_weights`, `C121_sin_accurate`, `C121_sin_near_pi_refuted`.
* **sig_forall_dec, sig_not_dec, classic, functional_extensionality_dep** (359 theorems): `C32_rectangular_exact`, `C32_trapezoidal_exact`, `C32_quadratic_exact`, `C32_simpson_average`, `C32_simpson_constant`, `C32_simpson_ramp_refuted`, `C32_rule_weights`, `C33_two_points_exact`, `C33_backward_exact`, `C33_forward_exact`, `C34_output_within_limits`, `C34_limits_configured`, `C34_exact_output_within_limits`, `C35_control_law`, `C35_documented_law`, `C35_derivative_refuted`, `C36_settings`, `C36_control_keeps_settings`, `C37_dead_band`, `C37_manual_ramp`, `C37_bumpless_refuted`, `C72_tuner_is_rls`, `C72_exact_estimates_kept`, `C72_tuned_gains_positive`, `C72_series_gains`, `C46_difference_equation`, `C46_restart`, `C46_delay`, `C47_discrete_output_within_limits`, `C47_continuous_output_within_limits`, `C47_default_limits_hide_negative_outputs`, `C47_unit_gain_refuted`, `C48_weighted_sum`, `C48_plain_sum`, `C49_canonical_form`, `C49_euler_step`, `C49_trapezoidal_step`, `C49_steady_output_refuted`, `C39_lowpass_setup`, `C39_kalman_setup`, `C39_double_exponential_setup`, `C39_outlier_setup`, `C39_line_setup`, `C39_adaptive_setup`, `C39_gaussian_setup`, `C40_lowpass`, `C40_exponential_weighting`, `C40_exponential_mean_refuted`, `C40_kalman`, `C41_second_order`, `C42_moving_mean`, `C42_nan_never_leaves`, `C43_outliers`, `C43_constant_time_refuted`, `C44_gaussian_window`, `C45_kalman`, `C73_double_exponential`, `C73_adaptive`, `C73_momentum_refuted`, `C74_kalman_reset_refuted`, `C51_knots`, `C51_constrained_spline_knots`, `C51_constrained_spline_refuted`, `C51_next_refuted`, `C51_cubic_refuted`, `C52_linear`, `C52_affine`, `C52_nan`, `C53_previous`, `C53_nearest`, `C53_next`, `C53_next_refuted`, `C53_nan`, `C54_next_undefined`, `C55_polynomial`, `C55_extrapolation`, `C55_overshoot`, `C55_sine_last_interval`, `C55_sine_refuted`, `C75_spline_pieces`, `C75_spline_smooth`, `C75_spline_affine`, `C95_no_overshoot`, `C95_pieces`, `C95_smooth_refuted`, `C56_product`, `C56_algebra`, `C57_inverse`, `C57_pivot_refuted`, `C58_decrement_refuted`, `C58_norm_square`, `C76_own_element_refuted`, `C65_setup`, `C65_params`, `C65_range`, `C65_constant`, `C65_estimate`, `C65_frozen_refuted`, `C69_coerce`, `C59_closed`, `C59_exact`, `C59_norms`, `C60_straight`, `C60_curved`, `C60_monotone`, `C60_smooth`, `C60_degrees_binary32`, `C60_linz_refuted`, `C60_gauss2_refuted`, `C77_inverses`, `C77_inverses_refuted`, `C61_strengths`, `C61_strengths_binary32`, `C63_range`, `C63_mamdani`, `C63_som_refuted`, `C63_weighted`, `C63_linear_consequent`, `C63_nothing_fired`, `C78_fuzzify`, `C78_inputs_binary32`, `C79_follows_text`, `C81_evaluation`, `C66_floor`, `C66_ceil`, `C66_trunc`, `C66_rounding`, `C67_classify`, `C67_predicates`, `C67_copysign`, `C67_absf`, `C67_sign`, `C67_nextAfter`, `C67_nextAfter_nan`, `C68_rexp`, `C68_ldexp`, `C68_ldexp_wraps`, `C68_refuted`, `C70_mod`, `C70_mod_zero`, `C70_rem`, `C70_frac`, `C70_refuted`, `C71_sqrt`, `C71_special`, `C71_refuted`, `C82_recip`, `C82_rSqrt`, `C82_rSqrt_special`, `C82_refuted`, `C83_wrapTo2Pi`, `C83_wrapTo360`, `C83_wrapToPi`, `C83_wrapTo180`, `C83_refuted`, `C84_midpoint`, `C85_lerp`, `C85_lerp_ends`, `C85_lerp_monotone`, `C86_normalize`, `C86_normalize_ends`, `C86_normalize_monotone`, `C86_map`, `C86_map_monotone`, `C86_map_first`, `C86_map_last_refuted`, `C87_hypot`, `C87_hypot_special`, `C87_hypot_refuted`, `C87_inCircle`, `C88_exp2_accurate`, `C88_exp2_exact`, `C88_exp2_limits`, `C88_exp2_overflow_refuted`, `C88_exp2_nan_undefined`, `C89_exp_accurate`, `C89_exp10_accurate`, `C89_limits`, `C89_expm1_accurate`, `C89_expm1_relative_refuted`, `C90_sinh_cosh_accurate`, `C90_tanh_accurate`, `C90_tanh_range`, `C90_tanh_negative_refuted`, `C91_log2_accurate`, `C91_log2_exact`, `C91_log2_special`, `C91_log2_refuted`, `C92_log_accurate`, `C92_log10_accurate`, `C92_special`, `C92_log1p_accurate`, `C92_log1p_relative_refuted`, `C93_pow_accurate`, `C93_pow_zero`, `C93_pow_exact`, `C93_pow_base_zero`, `C93_pow_undefined`, `C94_asinh_accurate`, `C94_acosh_accurate`, `C94_acosh_near_one`, `C94_atanh_accurate`, `C94_acosh_domain`, `C94_asinh_negative_refuted`, `C96_hermite`, `C97_legendre`, `C97_associated`, `C97_associated_refuted`, `C98_laguerre`, `C98_at_zero`, `C98_associated_at_zero_refuted`, `C99_extremal`, `C99_nan`, `C100_rectangle_refuted`, `C101_factorial`, `C101_factorial_outside`, `C102_functional_equation`, `C102_below_one`, `C102_factorials`, `C102_special`, `C103_special`, `C103_large_refuted`, `C104_symmetric`, `C104_nan`, `C104_large_undefined`, `C98_between_refuted`, `C105_sin`, `C105_cos`, `C105_sin_odd`, `C105_sin_range`, `C105_sin_small`, `C105_large_refuted`, `C106_tan`, `C107_asin`, `C107_acos`, `C107_asin_odd`, `C107_domain`, `C108_atan`, `C108_atan_odd`, `C108_atan2`, `C108_atan2_vertical`, `C108_small_refuted`, `C108_infinity_refuted`, `C108_origin_refuted`, `C109_cbrt`, `C109_rcbrt`, `C109_special`, `C109_negative_refuted`, `C109_infinity_refuted`, `C109_subnormal_refuted`, `C110_to_float`, `C110_to_float_exact`, `C110_to_double`, `C110_from_double`, `C110_from_float`, `C110_out_of_range_undefined`, `C110_double_round_trip`, `C110_float_round_trip`, `C110_float_round_trip_refuted`, `C110_literals`, `C111_constants`, `C112_complete_first`, `C112_domain`, `C113_even`, `C113_complete_domain`, `C113_incomplete_domain`, `C113_end_points`, `C114_positive`, `C114_relative`, `C114_spec_derivative`, `C115_special`, `C115_large_refuted`, `C115_monotone_refuted`, `C115_sign_refuted`, `C115_infinity_refuted`, `C116_domain`, `C116_spherical_domain`, `C116_at_zero`, `C116_spherical_at_zero`, `C117_modified_undefined`, `C117_neumann_undefined`, `C117_spherical_undefined`, `C118_order_zero`, `C118_order_one`, `C118_spec_equations`, `C118_modified_first_refuted`, `C118_modified_second_refuted`, `C119_value`, `C120_large`, `C120_special`, `C120_left_refuted`, `C120_negative_refuted`, `C120_global_at_19`, `C120_spec_bounds`, `C121_sin_total`, `C121_cos_accurate`, `C121_cos_total`, `C121_cos_undefined`, `C121_cos_near_half_pi_refuted`, `C121_tan_accurate`, `C121_tan_refuted`, `C122_exp_positive`, `C122_exp_negative`, `C122_cosh_accurate`, `C122_sinh_accurate`, `C122_tanh_accurate`, `C122_hyperbolic_saturation_refuted`, `C123_log2_accurate`, `C123_log_accurate`, `C123_log_smallest_refuted`, `C124_atan2_accurate`, `C124_atan_accurate`, `C124_asin_accurate`, `C124_acos_accurate`, `C124_ends_refuted`, `C124_small_refuted`, `C125_pow_general`, `C125_zero_exponent`, `C125_zero_exponent_negative_refuted`, `C125_even_negative_refuted`, `C126_range`, `C126_accuracy_refuted`, `C126_zero_refuted`, `C126_saturates`, `C126_nan_undefined`, `C129_hull`, `C129_settles`, `C129_settles_refuted`, `C130_weighted_sum`, `C130_plain_sum`, `C130_finite`, `C130_cancellation_refuted`, `C131_backward`, `C131_coefficients`, `C131_forward`, `C132_drift_bound`, `C132_recovery_refuted`, `C133_drift_bound`, `C133_stagnation`, `C133_growth_refuted`, `C134_hull`, `C134_exact_hull_refuted`, `C135_accuracy`, `C135_constant_2points`, `C135_constant_refuted`, `C136_hull`, `C136_constant_refuted`, `C137_accuracy`, `C137_constant`, `C137_knots_refuted`, `C138_previous_next`, `C138_nearest`, `C138_knots`, `C138_nearest_refuted`, `C139_accuracy`, `C139_finite`, `C139_narrow_refuted`, `C140_normalised`, `C140_constant`.

## What is modelled

| source | model | remarks |
|---|---|---|
| bitfield.cpp/.hpp | Bitfield_Model | all functions |
| crc.cpp/.hpp | Crc_Model | all functions and presets |
| tdl.cpp/.hpp | Tdl_Model | all functions; the delay line inside LTI systems and smoothers |
| algorithm.hpp | Algorithm_Model | all templates, at element type Z with an arbitrary comparator/predicate |
| fp16.cpp/.hpp | Fp16_Model, Fp16Expr_Model | all arithmetic, text conversion and elementary functions; the operators of the header as a language of programs (operands without side effects) |
| fp16.cpp 5-17, 58-99, fp16.hpp 591-598 | Fp16Conv_Model | float and double conversions, literals, constants; binary32 and binary64 |
| numa.cpp/.hpp | Numa_Model | all integrators and derivators |
| pid.cpp/.hpp | Pid_Model | all, including auto-tuning and the model-reference adaptation |
| rms.cpp/.hpp | Rms_Model | all |
| smoother.cpp/.hpp | Smoother_Model | all filters |
| ltisys.cpp/.hpp | Ltisys_Model | discrete and continuous transfer functions, delays, saturation |
| interp1.cpp/.hpp | Interp1_Model | all nine methods and the object |
| mat.hpp | Mat_Model | all operations with a dimension-checked list representation |
| fis.cpp, fisCore.cpp, fis.hpp | FisCore_Model, Fis_Model | membership functions, set-up, rule interpreter, defuzzification |
| ffmath.cpp 108-941, ffmath.hpp | Ffmath_Model, Ffmath2_Model | everything up to nextAfter (inPolygon, Max, Min: Poly_Model); sin, cos, tan, asin, acos, atan, atan2, cbrt, rCbrt, erf, erfc are modelled |
| ffmath.cpp 779-812, 1286-1520, 2088-2173, ffmath.hpp 85-126 | Poly_Model | inPolygon, Laguerre, Legendre, Hermite polynomials, Max, Min; over an abstract arithmetic |
| ffmath.cpp 943-1284, 1321-1347, 1522-1536 | Ffmath3_Model | tgamma, lgamma, factorial, large-n Laguerre formula, beta; binary32 |
| ffmath.cpp 1538-2086 | Ffmath4_Model | Carlson forms, elliptic integrals, exponential integral; binary32 |
| ffmath.cpp 2175-2883 | Ffmath5_Model | zeta, Bessel and Neumann functions; binary32 |
| ffmath.cpp 2885-2957 | SphLegendre_Model | spherical Legendre function; over an abstract arithmetic |

## What is not modelled

* Configuration with `real_t` = `double`.
* Compilation, ABI, timing, concurrency (the library has no locks or shared state; every theorem is about one caller at a time).

## Findings (behaviour that differs from the documentation or from what a user expects)

Each is a theorem (suffix `_refuted`, `_undefined`) or is visible in the statement of the theorem named by the property.

* **bitfield**: a field of width 0 shifts by 32 (undefined); single-bit operations have no bounds check; an area that is not a multiple of four bytes is accessed past its end.
* **crc**: null data or length 0 gives 0 and not the initial value processed; the comment of crc16_DNP names another polynomial.
* **tdl**: with one cell, getAtIndex(0) reads out of bounds; with zero cells initialisation is undefined.
* **algorithm**: ranges are inclusive although the documentation describes half-open ones; sort with first > last exchanges elements; the comparator version leaves arrays unsorted; find_if returns the last match; replace changes only the first match; rotate by a negative multiple of the length reads out of bounds, by INT_MIN overflows.
* **ffmath trigonometry**: sin and cos lose all accuracy and leave [-1,1] beyond about 2^24; atan loses 13% of small angles; atan of an infinity is NaN; atan2 is NaN when the quotient overflows, pi/2 at the origin.
* **fp16**: products of large operands are wrong; division and toInt have undefined cases; rounding(x) adds one; sqrt is wrong from 4096 on; sinh(0)=1; asin(1), acos(1), log2(2^-15), pow of negative bases are wrong; atan2(Max,1) is undefined; wrapToPi leaves its range.
* **numa**: Simpson's rule averages the current and the previous step.
* **pid**: setup tests the old sampling time, not its argument; the tuner ignores 0 epochs instead of disabling; UNDEFINED counts down; set-up of the model-reference adaptation refuses Mu = 0; bumpless transfer is not guaranteed.
* **ltisys**: the default lower saturation limit is the smallest positive float, so non-positive outputs are cut; the normaliser swaps the two counts and leaves the arrays when they differ; setDelay(w,nD) delays by nD-1; the continuous update lacks the direct term; the quadratic integrator is refused.
* **smoother**: the first moving-median set-up always fails and smoothing is then undefined; the outlier filter 2 returns its input; the momentum of the adaptive filter is read out of bounds and its version without momentum is always refused; a NaN never leaves the second moving mean.
* **interp1**: `next` returns the ordinate after the wanted one at a knot and below the table, and reads out of bounds at NaN; `cubic` reads before the table in the first interval; `sine` misses a break; `hermite` is Lagrange's polynomial; the constrained spline has corners (its two second derivatives are interchanged) and NaN where end slopes cancel.
* **mat**: `--m` increments; the infinity norm uses the wrong extents; the inverse does not pivot; compound operators with an element of the matrix itself re-read the changed element.
* **fis**: LinZMF rises; Gauss2MF is wrong between its centres; four Tsukamoto inverses are wrong; SOM equals LOM; truncated rule texts are read out of bounds; an input tag equal to the number of inputs is accepted; Tsukamoto consequents are evaluated at the inputs; IS_NOT with set 123 is taken for THEN.
* **ffmath**: ldexp wraps modulo 256; sqrt of subnormals is negative and of infinity NaN; recip(0) is finite; rem(0,y) is NaN; mod(55607740,3) = -1; wrapTo360(360)=0; hypot(3,0) is tiny; exp2 between 127.5 and 128 is infinite and of NaN undefined; tanh(x <= -45) is NaN; log2 of infinity is 128; pow of a negative base and pow(0,0) are undefined; asinh(-8192) is -inf; assoc_legendre is wrong from n = m + 2 on; assoc_laguerre is wrong at 0 and uses a large-degree formula at every degree; inPolygon accepts no point inside an upright rectangle; lgamma is infinite above 171.624 and beta undefined there; factorial(34.5) is infinite.
* `cbrt`, `rCbrt`: negative arguments are wrong (cbrt(-8) is zero) because the seed is computed from bits that include the sign; +inf gives -inf; subnormal arguments are wrong; cbrt is only accurate to 3e-5 although rCbrt reaches 2e-7.
* **fp16 conversions**: fromFloat may be off by one step between 128 and 256 (adding 0.5 is not exact there) and is undefined out of range; toFloat of the greatest values cannot be converted back.
* **elliptic integrals**: comp_ellint_3(+-1, nu) is NaN where the integral is +inf; comp_ellint_1(+-1) is NaN as well.
* **expint**: wrong sign on (-1, 0); only the leading term of the asymptotic expansion from 36.044 on (result 1% to 11% too small); NaN at +inf. The continued fraction used on (-100, -1] is modelled but nothing is proved about its accuracy.
* **Bessel functions**: the modified functions start the second continued fraction from the value the first one left in `d`, so from the end of the power series on cyl_bessel_i and from x = 2 on cyl_bessel_k are off by percents; large orders and, for the spherical functions, large arguments convert a float to an integer type that cannot hold it.
* **zeta**: NaN for every s <= -171, infinite or NaN from about -34 on, and -283 at the zero -30 (the product of a tiny power, a sine that is not exactly zero and a huge gamma value).
* **fp16 trigonometry**: beyond 2.573 rad the last Taylor term of sin overflows and is replaced by a constant, so sin(pi-) and cos(pi/2-) are 0.0077 instead of 0 and tan(1.5) is 8% low; cos and tan are undefined for the largest 102944 raw values.
* **fp16 hyperbolic functions**: sinh and cosh saturate from 10.3972 on, although they are representable up to 11.09: cosh(10.4) is 32768 instead of 16430.
* **fp16 log**: near the smallest numbers the scaled argument is a handful of units, so log(2^-16) is -11.083 instead of -11.090; log2(2^-15) is 0 (C31).
* **fp16 inverse trigonometric functions**: asin(-1) and acos(-1) are wrong as asin(1) and acos(1) are; atan2(0,0) is 25736 rad; atan2 is undefined when |x| + |y| reaches 32768, so atan is for its last 65536 arguments on each side; small angles are 19% to 21% too small.
* **fp16 pow**: a negative base with an exponent that is zero or a negative even integer gives the negative of the power, so pow(-2, 0) = -1 and pow(-2, -2) = -0.25.
* **erf, erfc**: the code divides by (|r|+1)*2 where r/(|r|+1)*2 was meant, so erf lies between -1 and -1/2 for every argument below 6.912 and erf(0) = -0.75; NaN is undefined.
* **fp16 operators**: overflow is not sticky: an overflowed sum plus a positive number is an ordinary number; unary minus of an overflowed result is undefined; a counting loop against the largest number never ends.
* **LPF1 in single precision**: the output of the low-pass smoother can stall short of a constant input forever (0.9, 1 + 2^-21 then ones).
* **FIR in single precision**: cancellation can lose the whole result (unit taps over 2^30, 1, -2^30 give 0); the proved bound is relative to the sum of absolute values.
* **MWM2 in single precision**: the running sum keeps rounding errors for ever; a large sample followed by zeros leaves a non-zero mean of an all-zero window.
* **nState::integrate in single precision**: contributions below 2^-25 of the integral are lost, so the integral stagnates for ever (65536 with unit samples and 1 ms steps).
* **smootherKLMN in single precision**: an output can exceed the largest sample by a rounding error when the gain rounds to 1.
* **nState::derive in single precision**: the backward and forward rules give a non-zero derivative for constants whose triple is not representable.
* **smootherEXPW in single precision**: a constant input need not be reproduced; the output can settle one unit in the last place away from it.
* **interp1 linear method in single precision**: the ordinate at the right end of an interval need not be reproduced, since y0 + (y1 - y0)/(x1 - x0)*(x1 - x0) rounds.
* **interp1 nearest method in single precision**: distances that round to the same number are a tie, and the later abscissa wins even when it is farther.
* **smootherGMWF::setup** accepts kernels that are all NaN: when sigma is small against the distance from the centre to the nearest sample, every weight underflows to 0 and the normalisation divides 0 by 0 (C139_narrow_refuted).
