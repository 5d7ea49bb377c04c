{"id": "C01", "title": "Bit-field behaves as an array of bits under any history", "statement": "After setup() on a zero-or-garbage area of 4*k bytes, for every sequence of setBit/clearBit/toggleBit/writeBit/writeUINTn/writeFloat/setAll/clearAll calls with in-range positions, readBit(i) returns exactly the bit a plain array of 32*k booleans would hold after the same sequence, and no call touches memory outside the area.", "quantifier": "all area sizes 4*k with k>=1, all initial contents, all call sequences, all in-range indices", "why_tests_cant": "The claim ranges over every history of calls; a test runs a handful.", "anchors": ["src/bitfield.cpp: setBit, clearBit, toggleBit, writeBit, writeUINTn, writeFloat, setAll, clearAll, readBit", "src/include/bitfield.hpp: get, set, clear, toggle, mask, slot"]}
{"id": "C02", "title": "n-bit write then read round-trips", "statement": "For 2<=n<=32 and i+n<=size, writeUINTn(i,n,v) followed by readUINTn(i,n) returns v mod 2^n, at every alignment including fields straddling two words; for n=1 it returns 1 iff v is non-zero (truthiness, not the low bit).", "quantifier": "all positions, widths, values and prior contents", "why_tests_cant": "The input space is far too large to enumerate; tests sample it.", "anchors": ["src/bitfield.cpp: writeUINTn, readUINTn, read_uint32, write_uint32", "src/include/bitfield.hpp: maskMerge, safeMask, offset"]}
{"id": "C03", "title": "n-bit write leaves every other bit unchanged", "statement": "writeUINTn(i,n,v) and writeFloat(i,x) change only the bits at positions i..i+n-1 (n=32 for writeFloat); every other readable bit is unchanged, including the neighbours in the same and the next word.", "quantifier": "all positions, widths, values and prior contents", "why_tests_cant": "The input space is far too large to enumerate; tests sample it.", "anchors": ["src/bitfield.cpp: writeUINTn, writeFloat, write_uint32"]}
{"id": "C04", "title": "Fields running past the end are truncated, not corrupted", "statement": "When i is in range but i+n exceeds the size, writeUINTn stores the bits that fit and drops the rest, readUINTn returns the bits that exist with zeros above, and no word outside the area is accessed.", "quantifier": "all in-range start positions and widths 1..32", "why_tests_cant": "The input space is far too large to enumerate; tests sample it.", "anchors": ["src/bitfield.cpp: read_uint32, write_uint32, readUINTn, writeUINTn"]}
{"id": "C05", "title": "Width 0 and areas that are not whole words are undefined", "statement": "readUINTn/writeUINTn accept width 0 (it passes the <=32 guard) and then shift a 32-bit value by 32; an area whose byte size is not a multiple of 4 lets in-range bit indices address a word beyond the counted slots. Widths above 32 are refused without any effect.", "quantifier": "all contents; witnesses for the undefined cases", "why_tests_cant": "The input space is far too large to enumerate; tests sample it.", "anchors": ["src/bitfield.cpp: readUINTn, writeUINTn, setup", "src/include/bitfield.hpp: safeMask"]}
{"id": "C06", "title": "Single-precision floats round-trip bit-exactly through a bit-field", "statement": "writeFloat(i,x); readFloat(i) returns the very bit pattern of x (including NaN payloads, -0 and subnormals) at any in-range alignment.", "quantifier": "all 2^32 float patterns, all positions with i+32<=size, all prior contents", "why_tests_cant": "The input space is far too large to enumerate; tests sample it.", "anchors": ["src/bitfield.cpp: readFloat, writeFloat"]}
{"id": "C07", "title": "Uninitialised bit-field refuses everything; dump copies a prefix", "statement": "Before a successful setup() every operation returns false/0/nullptr and touches nothing; dump(dst,n) succeeds iff n<=size/8 and then dst holds exactly the first n bytes of the area (little-endian words).", "quantifier": "all operations, all sizes", "why_tests_cant": "The input space is far too large to enumerate; tests sample it.", "anchors": ["src/bitfield.cpp: setup, dump"]}
{"id": "C08", "title": "crc::generic computes the polynomial-division CRC", "statement": "For every non-empty message, width in {8,16,32}, polynomial, init, reflection flags and xorOut, crc::generic equals the textbook definition: the remainder over GF(2) of (message bits with init folded in) * x^width modulo x^width+poly, optionally bit-reflected and xored.", "quantifier": "all messages of any length, all parameter values", "why_tests_cant": "The input space is far too large to enumerate; tests sample it.", "anchors": ["src/crc.cpp: generic, reflect"]}
{"id": "C09", "title": "CRC is affine over GF(2)", "statement": "For equal-length messages a,b,c the CRC of a xor b xor c equals crc(a) xor crc(b) xor crc(c); with init=xorOut=0, crc(a xor b)=crc(a) xor crc(b).", "quantifier": "all message lengths and contents, all parameters", "why_tests_cant": "The input space is far too large to enumerate; tests sample it.", "anchors": ["src/crc.cpp: generic, reflect"]}
{"id": "C10", "title": "CRC detects every burst no longer than its width", "statement": "If the polynomial's constant term is 1, two equal-length messages whose difference (in transmission bit order) is confined to a window of at most width bits never have the same CRC; in particular every single-bit error is detected.", "quantifier": "all messages, all positions, all error patterns in the window", "why_tests_cant": "The input space is far too large to enumerate; tests sample it.", "anchors": ["src/crc.cpp: generic, reflect"]}
{"id": "C11", "title": "CRC can be computed incrementally", "statement": "Without output reflection/xor, the CRC of a concatenation equals the CRC of the second part computed with init set to the CRC of the first part.", "quantifier": "all pairs of non-empty messages, all parameters", "why_tests_cant": "The input space is far too large to enumerate; tests sample it.", "anchors": ["src/crc.cpp: generic, reflect"]}
{"id": "C12", "title": "CRC result range and degenerate inputs", "statement": "The result is below 2^width for every init/xorOut (bits of init above the width never influence it), nullptr or zero length or an unknown mode return 0 even when init/xorOut are non-zero.", "quantifier": "all inputs", "why_tests_cant": "The input space is far too large to enumerate; tests sample it.", "anchors": ["src/crc.cpp: generic, reflect"]}
{"id": "C13", "title": "CRC presets implement their documented parameter sets", "statement": "Each named preset equals the Rocksoft model with the parameters written in its doc comment; the one exception is crc16_DNP whose comment says poly 0x3D98 while the code uses 0x3D65.", "quantifier": "all messages, all presets", "why_tests_cant": "The input space is far too large to enumerate; tests sample it.", "anchors": ["src/include/crc.hpp: crc8 .. crc32_XFER"]}
{"id": "C14", "title": "Tapped delay line holds exactly the last n samples", "statement": "For n>=2, after setup(area,n,v) and any sequence of insertSample/flush calls, getAtIndex(i) / operator[](i) for i<n is the sample inserted i steps ago (or the initial value), getRecent is the last one and getOldest / operator[](-1) the one n-1 steps ago; the line never touches memory outside area.", "quantifier": "all n>=2, all initial values, all insertion histories", "why_tests_cant": "The claim ranges over every history of calls; a test runs a handful.", "anchors": ["src/tdl.cpp: setup, flush, insertSample, getAtIndex, getOldest, getRecent, operator[]"]}
{"id": "C15", "title": "Delay line index handling", "statement": "operator[] with index < -1 or >= n returns NaN and touches nothing; for a one-element line getAtIndex(0)/operator[](0) reads one element past the buffer.", "quantifier": "all indices, all histories", "why_tests_cant": "The claim ranges over every history of calls; a test runs a handful.", "anchors": ["src/tdl.cpp: setup, flush, insertSample, getAtIndex, getOldest, getRecent, operator[]"]}
{"id": "C16", "title": "Transport delay delays by exactly N samples", "statement": "transportDelay<N>: the k-th output is the initial value for k<N and the (k-N)-th input afterwards. ltisys::setDelay(w,nD) by contrast delays by nD-1 samples.", "quantifier": "all N>=1, all input streams", "why_tests_cant": "The claim ranges over every history of calls; a test runs a handful.", "anchors": ["src/include/ltisys.hpp: transportDelay", "src/ltisys.cpp: excite, setDelay", "src/tdl.cpp"]}
{"id": "C17", "title": "sort() returns the sorted permutation", "statement": "sort(array) and sort(array,first,last) over a total order rearrange exactly elements first..last (inclusive) into non-decreasing order, are a permutation of the input, leave the rest untouched and never overflow their fixed explicit stack of n pairs.", "quantifier": "all array sizes, contents and ranges", "why_tests_cant": "The input space is far too large to enumerate; tests sample it.", "anchors": ["src/include/algorithm.hpp: sort"]}
{"id": "C18", "title": "sort() with a comparator", "statement": "The comparator overload compares against the moving slot array[pivotIndex] instead of the saved pivot; it always terminates with a permutation inside bounds, but there are arrays it leaves unsorted.", "quantifier": "all arrays (permutation/bounds); a witness for unsortedness", "why_tests_cant": "The input space is far too large to enumerate; tests sample it.", "anchors": ["src/include/algorithm.hpp: sort(Comparator)"]}
{"id": "C19", "title": "reverse and rotate", "statement": "reverse(first,last) mirrors the inclusive range and nothing else; rotate(k) moves element i to (i+k) mod n for every k whose negative is not a multiple of n; for k negative and a multiple of n it indexes out of bounds.", "quantifier": "all arrays, all int k", "why_tests_cant": "The input space is far too large to enumerate; tests sample it.", "anchors": ["src/include/algorithm.hpp: reverse, rotate"]}
{"id": "C20", "title": "Linear algorithms: fill, find, any_of, all_of, count_if, for_each", "statement": "fill sets exactly first..last; find returns the first matching position or none; any_of/all_of/count_if agree with their quantifiers over the inclusive range; for_each applies the function once to each element in order.", "quantifier": "all arrays, predicates and ranges", "why_tests_cant": "The input space is far too large to enumerate; tests sample it.", "anchors": ["src/include/algorithm.hpp: fill, find, any_of, all_of, count_if, for_each"]}
{"id": "C21", "title": "find_if / replace / replace_if versus their documentation", "statement": "find_if returns the last element satisfying the predicate (documentation: first); replace and replace_if change only the first match (documentation: all).", "quantifier": "all arrays and predicates", "why_tests_cant": "The input space is far too large to enumerate; tests sample it.", "anchors": ["src/include/algorithm.hpp: find_if, replace, replace_if"]}
{"id": "C22", "title": "binary_search is exact on sorted ranges", "statement": "On a sorted inclusive range binary_search returns true iff the value occurs, and never reads outside the range.", "quantifier": "all sorted arrays, ranges, keys", "why_tests_cant": "The input space is far too large to enumerate; tests sample it.", "anchors": ["src/include/algorithm.hpp: binary_search"]}
{"id": "C23", "title": "Q16.16 addition and subtraction are exact or flagged", "statement": "add/sub return the exact fixed-point result when it is representable above the sentinel and the overflow sentinel otherwise; never a wrapped value.", "quantifier": "all pairs of 32-bit representations", "why_tests_cant": "The input space is far too large to enumerate; tests sample it.", "anchors": ["src/fp16.cpp: add, sub"]}
{"id": "C24", "title": "Q16.16 multiplication is correctly rounded or flagged", "statement": "mul returns the product rounded to nearest (ties away from zero) when representable and otherwise the overflow sentinel, whenever the operands have opposite signs, are both non-negative with a representable product, or have magnitudes adding to at most 2^31-2^17; a product rounding to exactly +-2^31 may be undefined. For other operands mul can be wrong: an unflagged overflow, a flagged representable product (witnesses).", "quantifier": "all pairs of 32-bit representations", "why_tests_cant": "The input space is far too large to enumerate; tests sample it.", "anchors": ["src/fp16.cpp: mul"]}
{"id": "C25", "title": "Q16.16 division", "statement": "div(a,b) for b<>0 and operands other than the sentinel is the quotient rounded to nearest (ties away) when representable above the sentinel, the sentinel when out of range, and undefined for a quotient of exactly -2^31 with |a|<=2^15|b|; division by zero returns the most negative finite value; a sentinel operand is undefined behaviour.", "quantifier": "all pairs of 32-bit representations", "why_tests_cant": "The input space is far too large to enumerate; tests sample it.", "anchors": ["src/fp16.cpp: div"]}
{"id": "C26", "title": "Q16.16 conversions from and to integers", "statement": "For -32767<=k<=32767 toInt(fromInt(k))=k (k=-32768 is undefined); toInt rounds to nearest where the addition of one half does not overflow and is undefined elsewhere; floor/ceil are the mathematical floor/ceiling on every argument whose ceiling fits, ceil is undefined above; rounding() does not round to nearest.", "quantifier": "all 32-bit representations", "why_tests_cant": "The input space is far too large to enumerate; tests sample it.", "anchors": ["src/fp16.cpp: fromInt, toInt, floor, ceil"]}
{"id": "C27", "title": "Q16.16 comparisons are the order of the represented numbers", "statement": "==,!=,<,<=,>,>= agree with the rational order of the represented values; absolute value and negation are exact except at the sentinel.", "quantifier": "all pairs of 32-bit representations", "why_tests_cant": "The input space is far too large to enumerate; tests sample it.", "anchors": ["src/include/fp16.hpp: operators", "src/fp16.cpp: absolute"]}
{"id": "C28", "title": "Q16.16 angle wrapping", "statement": "wrapToPi returns a value in [-pi,pi] plus at most one unit in the last place, congruent to the argument modulo 2*pi (in representation units) and equal to it inside [-pi,pi]; wrapTo180 likewise for 360 degrees within [-180,180]; both terminate for every argument. The extra unit is reachable (witness).", "quantifier": "all 32-bit representations", "why_tests_cant": "The input space is far too large to enumerate; tests sample it.", "anchors": ["src/fp16.cpp: wrapToPi, wrapTo180"]}
{"id": "C29", "title": "Q16.16 square root", "statement": "sqrt(x) for 0<x<4096.0 is the exact square root rounded to nearest; for 4096.0<=x<16384.0 it is either that or truncated to a multiple of 1/256 according to the remainder of the integer root; from 16384.0 on it can be wrong, negative or undefined (witnesses); sqrt(0) and sqrt(x<0) return -2147483647.", "quantifier": "all 32-bit representations", "why_tests_cant": "The input space is far too large to enumerate; tests sample it.", "anchors": ["src/fp16.cpp: sqrt"]}
{"id": "C30", "title": "Q16.16 text conversion", "statement": "toASCII writes a NUL-terminated decimal of at most 13 bytes that denotes the value rounded to the requested number of decimals, and 'overflow' for the sentinel.", "quantifier": "all 32-bit representations, all decimal counts", "why_tests_cant": "The input space is far too large to enumerate; tests sample it.", "anchors": ["src/fp16.cpp: toASCII, itoa"]}
{"id": "C31", "title": "Q16.16 special values of exp, log, sinh, atan2, rounding", "statement": "exp saturates to Max above 681391 and to 0 below -681391; log/log2 of non-positive values return the sentinel; log2 is exact on powers of two except 2^-15; sinh/cosh/tanh saturate; the documented values are violated by sinh(0)=1, asin(1)=-1 unit, acos(1)=pi/2, log2(2^-15)=0, an undefined atan2(Max,1) and pow(-4,0.5)<0.", "quantifier": "all 32-bit representations; witnesses for the violations", "why_tests_cant": "The input space is far too large to enumerate; tests sample it.", "anchors": ["src/fp16.cpp: exp, log, log2, sinh, rounding, atan2"]}
{"id": "C32", "title": "Numerical integrators are exact on the polynomials their rule promises", "statement": "In exact arithmetic, fed with the samples of a polynomial, the rectangular rule returns the exact integral at every step for constants, the trapezoidal rule for degree <= 1, the quadratic rule for degree <= 2; the Simpson rule returns the exact integral averaged over the current and previous step for degree <= 3, so it is exact on constants but late on a ramp (deviation). Each call adds the step times the weighted sum of the last three samples fed.", "quantifier": "all sample values, all histories, all step sizes", "why_tests_cant": "The claim ranges over every history of calls; a test runs a handful.", "anchors": ["src/numa.cpp: integrate, derive"]}
{"id": "C33", "title": "Numerical derivatives", "statement": "In exact arithmetic the 2-point derivative is exact on linear signals, the backward 3-point formula on quadratics, and the forward formula yields the derivative of a quadratic two steps earlier; derive never changes the stored state value.", "quantifier": "all sample values, all histories, all non-zero step sizes", "why_tests_cant": "The claim ranges over every history of calls; a test runs a handful.", "anchors": ["src/numa.cpp: integrate, derive"]}
{"id": "C34", "title": "PID output always respects the configured saturation", "statement": "Once initialised, control() returns a value inside [sat_Min,sat_Max] whatever the setpoint, measurement, gains and history, unless the computed output is NaN.", "quantifier": "all call histories, all float inputs (binary32 semantics)", "why_tests_cant": "The claim ranges over every history of calls; a test runs a handful.", "anchors": ["src/pid.cpp: control, setSaturation"]}
{"id": "C35", "title": "PID implements the documented control law", "statement": "In exact arithmetic every run of control() after a reset returns the clamped documented law v = psi*w + kc*e_b + ki*int(e + c(t-1)) + kd*LPF(de_c/dt) with trapezoidal integrals and anti-windup feedback c = kw(u-v), when kd = 0 or (c = 1 and no saturation). In general the derivative is taken against the previous integrand e + c(t-1) instead of the previous weighted error, so with the default weights a constant set point and measurement give a permanent derivative term (deviation).", "quantifier": "all histories and parameters", "why_tests_cant": "The claim ranges over every history of calls; a test runs a handful.", "anchors": ["src/pid.cpp: control, error"]}
{"id": "C36", "title": "PID setup and setters validate and are transactional", "statement": "Setters return false and change nothing when the controller is not initialised or the argument is out of range; setup() tests the stored step (default 1) rather than its argument, so a non-positive dT is accepted once and blocks every later setup(). An accepted call stores exactly the documented settings (gains from parameters, series form, clamped weights, limits, filter, tuning parameters) and leaves every other setting alone.", "quantifier": "all arguments and histories", "why_tests_cant": "The claim ranges over every history of calls; a test runs a handful.", "anchors": ["src/pid.cpp: setup, setGains, setExtraGains, setSaturation, setSeries, setEpsilon, setDerivativeFilter, setReferenceWeighting, setManualInput, setMode"]}
{"id": "C37", "title": "PID dead band, reset and manual mode", "statement": "Errors with magnitude <= epsilon are treated as zero; reset() clears the integral, derivative and filter memory; in manual mode the output is the clamped integral of the manual input as documented. The promised bumpless switch to automatic does not hold in general (deviation).", "quantifier": "all histories", "why_tests_cant": "The claim ranges over every history of calls; a test runs a handful.", "anchors": ["src/pid.cpp: control, error, reset"]}
{"id": "C38", "title": "Auto-tuning changes gains only at the end of its window", "statement": "While auto-tuning is enabled the gains change exactly on the step where the remaining-iteration counter reaches zero; enableAutoTuning(0) does not disable it but runs 2^32-2 valid steps.", "quantifier": "all histories and counts", "why_tests_cant": "The claim ranges over every history of calls; a test runs a handful.", "anchors": ["src/pid.cpp: adaptGains, enableAutoTuning, pidAutoTuning::step"]}
{"id": "C39", "title": "Smoother setup rejects out-of-range parameters", "statement": "LPF1/LPF2/MOR/EXPW/KLMN/DESF/ALNF setup return true iff every parameter is in its open range and the buffers are non-null; smootherMWM1::setup always returns false because it tests the member instead of the argument; ALNF without momentum can never be set up.", "quantifier": "all arguments", "why_tests_cant": "The input space is far too large to enumerate; tests sample it.", "anchors": ["src/smoother.cpp: setup (all classes)"]}
{"id": "C40", "title": "First-order smoother stays in the hull of its inputs", "statement": "In exact arithmetic every LPF1/EXPW/KLMN output lies between the minimum and maximum of the inputs since setup or reset (so a constant input is reproduced exactly); LPF1 is the documented exponential recursion; after any history the distance to a new constant input shrinks at least geometrically. EXPW is not the exponentially weighted mean of the samples: the first sample counts twice (deviation).", "quantifier": "all input histories, all valid parameters", "why_tests_cant": "The claim ranges over every history of calls; a test runs a handful.", "anchors": ["src/smoother.cpp: smootherLPF1::smooth, smootherEXPW::smooth, smootherKLMN::smooth"]}
{"id": "C41", "title": "Second-order low-pass has unit DC gain", "statement": "In exact arithmetic LPF2 reproduces a constant input for every valid alpha, obeys the second-order difference equation, and after any history converges to a constant input.", "quantifier": "all alpha in (0,1), all constants, all steps", "why_tests_cant": "The claim ranges over every history of calls; a test runs a handful.", "anchors": ["src/smoother.cpp: smootherLPF2"]}
{"id": "C42", "title": "Moving-window means are the mean of the last n samples", "statement": "In exact arithmetic MWM2 (recursive) returns the mean of the last n inputs (initial sample replicated) for every history, also after reset. In binary32 a single NaN sample makes every later output NaN until reset (deviation). MWM1 can never be set up (see C39).", "quantifier": "all window sizes, all input histories", "why_tests_cant": "The claim ranges over every history of calls; a test runs a handful.", "anchors": ["src/smoother.cpp: smootherMWM1::smooth, smootherMWM2::smooth"]}
{"id": "C43", "title": "Outlier-removal smoothers", "statement": "MOR1 returns the sample, or the mean of the window of accepted values when the sample deviates from it by more than alpha times its magnitude; outputs stay in the hull of the samples. MOR2 performs the same bookkeeping but always returns the raw sample (deviation).", "quantifier": "all input histories", "why_tests_cant": "The claim ranges over every history of calls; a test runs a handful.", "anchors": ["src/smoother.cpp: smootherMOR1::smooth, smootherMOR2::smooth"]}
{"id": "C44", "title": "Gaussian kernel is normalised", "statement": "In exact arithmetic GMWF weights are positive and sum to 1, so outputs stay in the hull of the window and constants are reproduced.", "quantifier": "all sizes, sigma>0, centres", "why_tests_cant": "The input space is far too large to enumerate; tests sample it.", "anchors": ["src/smoother.cpp: smootherGMWF"]}
{"id": "C45", "title": "Scalar Kalman smoother keeps a positive covariance and gain in (0,1)", "statement": "In exact arithmetic, for every measurement sequence, the covariance stays positive and below r, is updated in information form 1/p' = 1/(p+q) + 1/r, and the gain lies in (q/(q+r), 1).", "quantifier": "all histories, all positive covariances", "why_tests_cant": "The claim ranges over every history of calls; a test runs a handful.", "anchors": ["src/smoother.cpp: smootherKLMN"]}
{"id": "C46", "title": "Discrete transfer function implements its difference equation", "statement": "In exact arithmetic, for NB=NA and den[0]<>0, excite() output satisfies a0*y[k] = sum b_i u[k-i] - sum_{i>=1} a_i y[k-i] for every input stream from zero state (no saturation active).", "quantifier": "all orders, coefficients, input streams", "why_tests_cant": "The claim ranges over every history of calls; a test runs a handful.", "anchors": ["src/ltisys.cpp: discreteSystem::update, updateFIR, normalizeTransferFunction, setup"]}
{"id": "C47", "title": "LTI output saturation", "statement": "excite() output lies in [min,max] for every finite computation; with the default limits (REAL_MIN is the smallest positive float) every negative or zero output is replaced by 1.17e-38 until setSaturation is called.", "quantifier": "all histories (binary32 semantics)", "why_tests_cant": "The claim ranges over every history of calls; a test runs a handful.", "anchors": ["src/ltisys.cpp: excite, saturate", "src/include/ltisys.hpp: min, max"]}
{"id": "C48", "title": "FIR update is a shift register with the dot product", "statement": "updateFIR(w,n,x,c) for n>=1 makes w the last n inputs newest-first and returns sum c_i w_i (or the plain sum); n=0 is undefined.", "quantifier": "all n, windows, coefficients", "why_tests_cant": "The input space is far too large to enumerate; tests sample it.", "anchors": ["src/ltisys.cpp: updateFIR"]}
{"id": "C49", "title": "Continuous transfer function steps the controllable canonical form", "statement": "In exact arithmetic each update integrates the controllable canonical form; the direct feed-through term b0*u is missing from the output, and setInitStates copies xi[0] to every state.", "quantifier": "all orders, coefficients, histories", "why_tests_cant": "The claim ranges over every history of calls; a test runs a handful.", "anchors": ["src/ltisys.cpp: continuousSystem::update, setInitStates"]}
{"id": "C50", "title": "Transfer functions with different numerator and denominator lengths", "statement": "discreteSystem::setup passes (n_a,n_b) to a normaliser expecting (n_num,n_den): with NB<>NA the shorter array is written past its end.", "quantifier": "all sizes", "why_tests_cant": "The input space is far too large to enumerate; tests sample it.", "anchors": ["src/ltisys.cpp: discreteSystem::setup, normalizeTransferFunction"]}
{"id": "C51", "title": "Interpolators reproduce the data points", "statement": "In exact arithmetic, on a strictly increasing table, the linear, previous, nearest, hermite, spline and constrained spline methods return ty[i] at x = tx[i], and the cubic method does from the third point on. The next method returns ty[i+1], the cubic method reads before the table at the first two points, and the constrained spline returns NaN in binary32 where its end-slope denominator vanishes (deviations).", "quantifier": "all tables and knots", "why_tests_cant": "The input space is far too large to enumerate; tests sample it.", "anchors": ["src/interp1.cpp: linear, previous, next, nearest, spline, cSpline, hermite"]}
{"id": "C52", "title": "Linear interpolation is exact and bounded", "statement": "In exact arithmetic linear() between two knots is the chord through them, lies between the two ordinates, and outside the table extends the end chords.", "quantifier": "all tables, all x", "why_tests_cant": "The input space is far too large to enumerate; tests sample it.", "anchors": ["src/interp1.cpp: linear"]}
{"id": "C53", "title": "Neighbour interpolators select the right neighbour", "statement": "previous/nearest/next return the ordinate of the greatest knot <= x, of the closest knot (the larger on a tie), and of the least knot strictly above x; outside the table they return the end ordinate, except that next below the table returns the second ordinate (deviation). With NaN, previous returns the last ordinate and nearest the first.", "quantifier": "all strictly increasing tables, all x", "why_tests_cant": "The input space is far too large to enumerate; tests sample it.", "anchors": ["src/interp1.cpp: previous, next, nearest"]}
{"id": "C54", "title": "Interpolation memory safety", "statement": "get() never reads outside the tables except: next() with NaN reads one past the end, cubic() in the first interval reads before the start. Tables that are absent or too short give NaN; a refused setData/setMethod changes nothing.", "quantifier": "all tables of the accepted size, all floats", "why_tests_cant": "The input space is far too large to enumerate; tests sample it.", "anchors": ["src/interp1.cpp: get, next, cubic"]}
{"id": "C55", "title": "Hermite is Lagrange interpolation; sine interpolation picks the last interval", "statement": "hermite() reproduces every polynomial of degree < table size; sine() for an interior x evaluates the last interval instead of the one containing x.", "quantifier": "all tables, all x", "why_tests_cant": "The input space is far too large to enumerate; tests sample it.", "anchors": ["src/interp1.cpp: hermite, sine"]}
{"id": "C56", "title": "Matrix construction, access and algebra", "statement": "Constructors, copies, element access, transpose and the element-by-element operators produce exactly the documented entries in any arithmetic; operator()(index) is defined for index < Rows*Cols only; MAT_MAGIC leaves the matrix uninitialised. In exact arithmetic +, -, *, scalar operations and transpose obey the laws of matrix algebra (commutativity and associativity, both distributive laws, unit matrix, transpose of a product).", "quantifier": "all dimensions and entries", "why_tests_cant": "The input space is far too large to enumerate; tests sample it.", "anchors": ["src/include/mat.hpp: mat, operator(), operator+, operator-, operator*, operator/, operator!"]}
{"id": "C57", "title": "Matrix inverse", "statement": "In exact arithmetic, for every square matrix whose leading blocks are all nonsingular, inv() returns a two-sided inverse. Rows are never exchanged: for an invertible matrix with a zero pivot the binary32 result is all NaN (deviation).", "quantifier": "all dimensions and entries", "why_tests_cant": "The input space is far too large to enumerate; tests sample it.", "anchors": ["src/include/mat.hpp: inv"]}
{"id": "C58", "title": "Matrix increment, decrement and infinity norm", "statement": "++m, m++ and m-- add or subtract one everywhere and the postfix forms return the old matrix; --m adds one (deviation). For square matrices normInf() is the largest row sum of absolute values; for others it leaves the array (deviation).", "quantifier": "all matrices", "why_tests_cant": "The input space is far too large to enumerate; tests sample it.", "anchors": ["src/include/mat.hpp: operator++, operator--, normInf"]}
{"id": "C59", "title": "Fuzzy operators stay in [0,1] and are norms", "statement": "Min/Prod are t-norms, Max/ProbOr/Sum t-conorms on [0,1] in exact arithmetic, and in binary32 every result is a number in [0,1] whatever the operands, NaN included; Min and Max of two degrees are exact.", "quantifier": "all operands", "why_tests_cant": "The input space is far too large to enumerate; tests sample it.", "anchors": ["src/fisCore.cpp: Min, Prod, Max, ProbOr, Sum, bound"]}
{"id": "C60", "title": "Membership functions stay in [0,1] and hit their shape", "statement": "Each bounded membership function returns a degree in [0,1] for ordered parameters, with its documented support, core and monotonicity; LinZMF (rising between its corners) and Gauss2MF (below 1 between its centres, 1 beyond the second) deviate.", "quantifier": "all x and parameters", "why_tests_cant": "The input space is far too large to enumerate; tests sample it.", "anchors": ["src/fisCore.cpp: TriMF, TrapMF, SMF, ZMF, PiMF, LinSMF, LinZMF, RectangleMF, SingletonMF, ConcaveMF, SpikeMF, Gauss2MF, TSMF, TZMF"]}
{"id": "C61", "title": "Rule evaluation follows the rule text", "statement": "For every well-formed rule array inference() computes for rule r the fold of its antecedents with the chosen connectors (IS NOT complements) times the rule weight, in order, and returns true iff the number of rules matches.", "quantifier": "all well-formed rule sets, membership values", "why_tests_cant": "The input space is far too large to enumerate; tests sample it.", "anchors": ["src/fis.cpp: inference, inferenceAntecedent, inferenceConsequent, inferenceReachEnd"]}
{"id": "C62", "title": "Inference never runs away on malformed rules", "statement": "inference() terminates on every rule array ending with the end mark and returns false on syntactically wrong ones.", "quantifier": "all rule arrays", "why_tests_cant": "The input space is far too large to enumerate; tests sample it.", "anchors": ["src/fis.cpp: inference"]}
{"id": "C63", "title": "Defuzzified outputs stay in the output range", "statement": "deFuzzify leaves every output inside [min,max] for any rules, sets and method, also when nothing fired (the output is then its minimum); in exact arithmetic a Mamdani output is the centroid, the bisector, the middle or the last of the maxima of the surface the fired rules span over a hundred points of its range, and a Sugeno or Tsukamoto output the weighted average or sum of the consequents that fired. SOM returns the largest of maximum (deviation).", "quantifier": "all states", "why_tests_cant": "The input space is far too large to enumerate; tests sample it.", "anchors": ["src/fis.cpp: deFuzzify", "src/fisCore.cpp: deFuzzCentroid, deFuzzBisector, deFuzzLOM, deFuzzSOM, deFuzzMOM, deFuzzWtAverage, deFuzzWtSum"]}
{"id": "C64", "title": "FIS parameter/defuzzification acceptance table", "statement": "setParameter and setDeFuzzMethod accept exactly the combinations the documentation lists for the system type.", "quantifier": "all type/parameter/value combinations", "why_tests_cant": "The input space is far too large to enumerate; tests sample it.", "anchors": ["src/fis.cpp: setParameter, setDeFuzzMethod"]}
{"id": "C65", "title": "RMS estimator", "statement": "In exact arithmetic with an exact square root the output is non-negative, bounded by the peak magnitude, and a constant input c yields |c|; setParams validates (0,1].", "quantifier": "all input histories", "why_tests_cant": "The claim ranges over every history of calls; a test runs a handful.", "anchors": ["src/rms.cpp: update, setParams, setup"]}
{"id": "C66", "title": "floor/ceil/trunc/rounding are the mathematical functions", "statement": "For every float, floor/ceil/trunc/rounding return the float whose value is the floor/ceiling/truncation/round-half-away of the argument; infinities and NaN are returned unchanged.", "quantifier": "all 2^32 float patterns", "why_tests_cant": "The input space is far too large to enumerate; tests sample it.", "anchors": ["src/ffmath.cpp: floor, ceil, trunc, rounding"]}
{"id": "C67", "title": "classify, copysign, absf, nextAfter act on the representation correctly", "statement": "classify partitions all patterns as IEEE does; copysign/absf change only the sign; nextAfter(x,y) is the adjacent float of x in the direction of y.", "quantifier": "all float patterns", "why_tests_cant": "The input space is far too large to enumerate; tests sample it.", "anchors": ["src/ffmath.cpp: classify, copysign, absf, nextAfter, sign"]}
{"id": "C68", "title": "rexp and ldexp", "statement": "For normal x, ldexp(rexp(x,&e),e)=x with the significand in [0.5,1); ldexp multiplies by 2^k exactly while the exponent stays normal and wraps modulo 256 otherwise.", "quantifier": "all float patterns, all exponents", "why_tests_cant": "The input space is far too large to enumerate; tests sample it.", "anchors": ["src/ffmath.cpp: rexp, ldexp"]}
{"id": "C69", "title": "inRangeCoerce clamps every float", "statement": "inRangeCoerce always leaves x in [lower,upper] (NaN becomes lower) and returns true iff x was already inside.", "quantifier": "all floats (binary32), lower<=upper", "why_tests_cant": "The input space is far too large to enumerate; tests sample it.", "anchors": ["src/ffmath.cpp: inRangeCoerce"]}
{"id": "C70", "title": "mod and rem", "statement": "mod(x,y) lies in [0,y) (or (y,0] for negative y) and differs from x by a whole multiple of y up to a few rounding errors, for every pair of floats whose quotient is at most 2^22; mod(x,0)=x; rem(x,y) is x less a multiple of y, no larger than y and on the side of x up to the same error; frac is exact. Deviations: rem(0,y) is NaN because the code tests x instead of y, rem can have the wrong sign, mod leaves its range for larger quotients.", "quantifier": "all binary32 x,y", "why_tests_cant": "The input space is far too large to enumerate; tests sample it.", "anchors": ["src/ffmath.cpp: mod, rem, frac"]}
{"id": "C71", "title": "Approximate square root accuracy", "statement": "ffmath::sqrt has relative error at most 2^-19 for every positive normal float, returns 0 at 0 and NaN below. Deviations: positive subnormals can have negative roots, sqrt(+inf) is NaN.", "quantifier": "all floats", "why_tests_cant": "The input space is far too large to enumerate; tests sample it.", "anchors": ["src/ffmath.cpp: sqrt"]}
{"id": "C72", "title": "The PID tuner is recursive least squares with positive tuned gains", "statement": "In exact arithmetic each tuning step performs the recursive least squares update (with forgetting factor and a 1e-10 regularisation) for the model y(t) = b1 u(t-1) - a1 y(t-1); estimates that already explain the sample are kept; for a positive estimated process gain and time constant the resulting gains are positive (zero for actions the selected controller type lacks); setSeries() replaces Kc by Kc + Ki*Kd/Kc and leaves Ki and Kd.", "quantifier": "all histories of inputs, outputs and estimates", "why_tests_cant": "The claim ranges over every history of calls; a test runs a handful.", "anchors": ["src/pid.cpp: pidAutoTuning::step, getEstimates, computeParameters; pidController::setSeries"]}
{"id": "C73", "title": "Double exponential and adaptive smoothers", "statement": "In exact arithmetic DESF returns level + n*trend of the documented recursion as coded: the level ignores the trend and the trend starts at the first sample, so a constant c is answered with c + n(1-beta)^(k+1) c (deviation). ALNF without a momentum buffer is the least-mean-squares filter started from equal weights; with a momentum buffer it reads past the weights, so arrays of exactly n cells are undefined behaviour (deviation).", "quantifier": "all valid parameters, all input histories", "why_tests_cant": "The claim ranges over every history of calls; a test runs a handful.", "anchors": ["src/smoother.cpp: smootherDESF::smooth, smootherALNF::smooth, smootherALNF::setup"]}
{"id": "C74", "title": "reset() makes a smoother forget", "statement": "After setup, any history and reset(), the outputs for the following samples are those of the freshly set-up filter: for LPF1, LPF2, EXPW and DESF in any arithmetic including binary32, for the windowed filters in exact arithmetic. The Kalman smoother keeps its covariance through reset() (deviation).", "quantifier": "all histories before and after reset", "why_tests_cant": "The claim ranges over every history of calls; a test runs a handful.", "anchors": ["src/include/smoother.hpp: reset", "src/smoother.cpp: smooth (all classes)"]}
{"id": "C75", "title": "The spline method is a smooth piecewise cubic", "statement": "In exact arithmetic the spline method is, between neighbouring points, the cubic with the values of the table and the slopes given by differences of the neighbouring points (one-sided at the ends); adjacent pieces agree in value and slope, and straight-line data are reproduced everywhere.", "quantifier": "all strictly increasing tables of at least four points, all x", "why_tests_cant": "The input space is far too large to enumerate; tests sample it.", "anchors": ["src/interp1.cpp: spline, slope"]}
{"id": "C76", "title": "Matrix compound assignment and aliasing", "statement": "+=, -=, *=, /= with another matrix, with the matrix itself, or with a scalar stored elsewhere give the result of the corresponding binary operator. A scalar that is an element of the matrix itself is read through a reference that changes halfway: the elements after it (row by row) are combined with its new value, so m /= m(0,0) does not normalise the matrix (deviation).", "quantifier": "all matrices, all positions of the aliased element, any arithmetic", "why_tests_cant": "The input space is far too large to enumerate; tests sample it.", "anchors": ["src/include/mat.hpp: operator+=, operator-=, operator*=, operator/="]}
{"id": "C77", "title": "Inverse membership functions of Tsukamoto systems", "statement": "For a firing strength w the Tsukamoto shapes name the point whose degree on the corresponding shape is w: TLinS, TRamp on [0,1], TSig on (0,1), TS for w <= 1/2. Deviations: TLinZ names the point of degree 1-w, TS is wrong for 1/2 < w < 1, TZ leaves the slope for w >= 2/3, TConcave returns w itself.", "quantifier": "all shape parameters a<b, all firing strengths, exact arithmetic", "why_tests_cant": "The input space is far too large to enumerate; tests sample it.", "anchors": ["src/fisCore.cpp: TLinSMF, TLinZMF, TRampMF, TSigMF, TSMF, TZMF, TConcaveMF"]}
{"id": "C78", "title": "Fuzzification clips the inputs and evaluates the sets", "statement": "fuzzify() clips every input to its range (NaN becomes the minimum) and gives every input set its height times its shape at the clipped value of the input it belongs to; nothing else changes.", "quantifier": "all systems, input values and shapes", "why_tests_cant": "The input space is far too large to enumerate; tests sample it.", "anchors": ["src/fis.cpp: fuzzify, evalInputMFs"]}
{"id": "C79", "title": "Aggregation reads the rules as the inference does", "statement": "During defuzzification every output receives exactly the consequents that name it, in the order of the text, each with the strength of its own rule. Deviation: the cell of IS_NOT of input set 123 equals the THEN mark, so aggregation reads such a rule from the middle and accesses memory outside the outputs.", "quantifier": "all rule texts, strengths and output sets", "why_tests_cant": "The input space is far too large to enumerate; tests sample it.", "anchors": ["src/fis.cpp: fuzzyAggregate, aggregationFindConsequent, inferenceConsequent"]}
{"id": "C80", "title": "FIS set-up, access and sets", "statement": "Before an accepted setup() every operation answers false without effect; setup() refuses missing or empty arrays and installs the documented defaults; tags within the tables select their object and leave the others alone; heights are clipped to [0,1] and fixed at 1 for Sugeno and Tsukamoto consequents; a region is stored only with room for all points. Deviations: tags beyond the tables are accessed, operator[] with a foreign tag returns an input, weights and rule count survive a new setup.", "quantifier": "all systems, tags and values, any arithmetic", "why_tests_cant": "The input space is far too large to enumerate; tests sample it.", "anchors": ["src/fis.cpp: setup, setupInput, setupOutput, setInput, getOutput, setMF, storeAggregatedRegion", "src/include/fis.hpp: operator[], setupInputMF, setupOutputMF"]}
{"id": "C81", "title": "A Mamdani evaluation is a function of its inputs", "statement": "In exact arithmetic fuzzify(), inference(), deFuzzify() on a well-formed Mamdani system all succeed and every output is what its method takes from the surface spanned by the rules at the clipped inputs, independent of whatever was computed before.", "quantifier": "all systems, rule texts, inputs and earlier states", "why_tests_cant": "The claim ranges over every history of calls; a test runs a handful.", "anchors": ["src/fis.cpp: fuzzify, inference, deFuzzify"]}
{"id": "C82", "title": "Approximate reciprocals", "statement": "recip(x) is within 0.26 % of 1/x for every normal x below 2^124 in magnitude; rSqrt(x) is within 0.18 % of 1/sqrt(x) for every positive normal x, +inf at 0 and NaN below. Deviations: recip(0) is finite, recip(2^127) is NaN.", "quantifier": "all floats", "why_tests_cant": "The input space is far too large to enumerate; tests sample it.", "anchors": ["src/ffmath.cpp: recip, rSqrt"]}
{"id": "C83", "title": "Angle wrapping", "statement": "wrapTo2Pi and wrapTo360 bring every angle up to 2^24 rad / 2^30 degrees into [0,2pi) / [0,360), wrapToPi and wrapTo180 bring every angle up to 2^22 rad / 2^28 degrees into [-pi,pi] / [-180,180], by a whole number of turns up to rounding. Deviations from the documentation: 180 maps to -180 and 360 to 0.", "quantifier": "all floats in range", "why_tests_cant": "The input space is far too large to enumerate; tests sample it.", "anchors": ["src/ffmath.cpp: wrapToPi, wrapTo2Pi, wrapTo180, wrapTo360"]}
{"id": "C84", "title": "midpoint() never overflows and stays between its arguments", "statement": "For all finite a and b, including the largest, midpoint(a,b) is finite, lies between a and b, and differs from (a+b)/2 by at most one rounding of a+b.", "quantifier": "all pairs of finite floats", "why_tests_cant": "The input space is far too large to enumerate; tests sample it.", "anchors": ["src/ffmath.cpp: midpoint"]}
{"id": "C85", "title": "lerp() is exact at the ends, bounded and monotone", "statement": "For all finite a, b: lerp(a,b,0) = a and lerp(a,b,1) = b; for every t in [0,1] the result is finite, lies between a and b, does not move back as t grows, and is within 4 units in the last place of the larger argument of a + t(b-a).", "quantifier": "all finite floats a, b and all floats t in [0,1]", "why_tests_cant": "The input space is far too large to enumerate; tests sample it.", "anchors": ["src/ffmath.cpp: lerp"]}
{"id": "C86", "title": "normalize() and map() rescale ranges monotonically", "statement": "For x in [xMin,xMax] of finite width, normalize() gives a value of [0,1], 0 and 1 at the ends, nondecreasing in x and accurate to 4 units in the last place; map() is monotone in x, meets yMin exactly at xMin and is within 16 units in the last place of the larger end of the affine map. Deviation: map() need not meet yMax at xMax.", "quantifier": "all finite floats with non-overflowing widths", "why_tests_cant": "The input space is far too large to enumerate; tests sample it.", "anchors": ["src/ffmath.cpp: normalize, map"]}
{"id": "C87", "title": "hypot() and inCircle()", "statement": "hypot(x,y) is within a relative error of 2^-18 of sqrt(x^2+y^2) for normal operands up to 2^127 whose magnitudes are within a factor 2^60; it is +inf when an operand is infinite and NaN for a NaN beside a number. inCircle() decides the distance test up to the rounding of the squares. Deviation: hypot(3,0) is a tiny number.", "quantifier": "all floats in range", "why_tests_cant": "The input space is far too large to enumerate; tests sample it.", "anchors": ["src/ffmath.cpp: hypot, inCircle"]}
{"id": "C88", "title": "exp2() accuracy", "statement": "For every float x with -126 < x < 127.5, exp2(x) is defined and within a relative error of 2^-21 of 2^x, and exact for integer x; it is 0 from -126 down and +inf above 128. Deviations: +inf already from 127.5 on, and a NaN argument is converted to an integer, which is undefined.", "quantifier": "all 2^32 floats", "why_tests_cant": "The input space is far too large to enumerate; tests sample it.", "anchors": ["src/ffmath.cpp: exp2"]}
{"id": "C89", "title": "exp(), exp10(), expm1() accuracy", "statement": "exp(x) is within a relative error of 2^-20 + 2^-23|x| of e^x for x in [-86,88], exp10(x) within 2^-20 + 2^-21|x| of 10^x for x in [-37,38]; beyond, they are 0 and +inf. expm1 has the same error plus one rounding. Deviation: expm1 of a tiny number is 0, without any correct digit.", "quantifier": "all floats in range", "why_tests_cant": "The input space is far too large to enumerate; tests sample it.", "anchors": ["src/ffmath.cpp: exp, exp10, expm1"]}
{"id": "C90", "title": "Hyperbolic functions", "statement": "sinh and cosh are within 2^-19 + 2^-22|x|, relative to cosh x, for |x| up to 86; tanh is within 2^-20 + 2^-22|x| for x in [-44,43] and never leaves [-1,1] for x of -44 or more. Deviation: tanh(x) is NaN for every x of -45 or less.", "quantifier": "all floats in range", "why_tests_cant": "The input space is far too large to enumerate; tests sample it.", "anchors": ["src/ffmath.cpp: sinh, cosh, tanh"]}
{"id": "C91", "title": "log2() accuracy", "statement": "For every positive normal x, log2(x) is within a relative error of 2^-20 of the binary logarithm, also next to 1, and exact at powers of two; it is -inf at zero and NaN below. Deviations: log2(+inf) is 128, log2(NaN) is a finite number, and subnormal arguments give values that are too large.", "quantifier": "all 2^32 floats", "why_tests_cant": "The input space is far too large to enumerate; tests sample it.", "anchors": ["src/ffmath.cpp: log2"]}
{"id": "C92", "title": "log(), log10(), log1p() accuracy", "statement": "For every positive normal x, log(x) and log10(x) are within a relative error of 2^-20; -inf at zero and NaN below. log1p(x) has the same error plus 2^-23 for x above -1. Deviation: log1p of a tiny number is 0, without any correct digit.", "quantifier": "all floats in range", "why_tests_cant": "The input space is far too large to enumerate; tests sample it.", "anchors": ["src/ffmath.cpp: log, log10, log1p"]}
{"id": "C93", "title": "pow() accuracy and domain", "statement": "For positive normal b and |e log2 b| up to 125, pow(b,e) is defined and within a relative error of 2^-20 (1 + |e log2 b|) of b^e; it is 1 for e = 0, exact for integer powers of powers of two, and 0 or +inf for b = 0. Deviations: a negative base is undefined behaviour for every exponent, and so is 0 to the 0.", "quantifier": "all pairs of floats in range", "why_tests_cant": "The input space is far too large to enumerate; tests sample it.", "anchors": ["src/ffmath.cpp: pow"]}
{"id": "C94", "title": "Inverse hyperbolic functions", "statement": "asinh (from 0 to 2^62), acosh (from 2 to 2^62) and atanh (between -1 and 1) are within 2^-20 |a| + 2^-18 (atanh: 2^-23) of the a whose sinh, cosh, tanh is x; acosh is within 2^-10 between 1 and 2 and NaN below 1. Deviation: asinh(-8192) is -inf.", "quantifier": "all floats in range", "why_tests_cant": "The input space is far too large to enumerate; tests sample it.", "anchors": ["src/ffmath.cpp: asinh, acosh, atanh"]}
{"id": "C95", "title": "Constrained spline does not overshoot between inner knots", "statement": "Between two inner knots of a table whose neighbouring ordinates differ, the constrained spline stays between the two ordinates (up to the effect of the constant 0.166666667F). Deviation: its pieces use the two second derivatives the wrong way round, so the curve has corners at the knots: its slope at either end is twice the chord's minus the constrained slope of the opposite end.", "quantifier": "all tables, all inner intervals, all abscissas", "why_tests_cant": "The input space is far too large to enumerate; tests sample it.", "anchors": ["src/interp1.cpp: cSpline, firstDerivate, leftSecondDerivate, rightSecondDerivate"]}
{"id": "C96", "title": "Hermite polynomials", "statement": "hermite(n, x) in exact arithmetic is the n-th physicists' Hermite polynomial: (-1)^n e^(x^2) times the n-th derivative of e^(-x^2); it is NaN for NaN.", "quantifier": "all degrees, all arguments", "why_tests_cant": "The input space is far too large to enumerate; tests sample it.", "anchors": ["src/ffmath.cpp: hermite"]}
{"id": "C97", "title": "Legendre polynomials", "statement": "legendre(n, x) in exact arithmetic is the polynomial of degree n that solves Legendre's equation and is 1 at 1. assoc_legendre(n, m, x) is (1-x^2)^(m/2) times its m-th derivative when m = 0, n = m or n = m + 1, and 0 when m > n. Deviation: from n = m + 2 on it is not, a parenthesis is misplaced.", "quantifier": "all degrees and orders, all arguments not within 2^-126 of (but different from) 1 and -1", "why_tests_cant": "The input space is far too large to enumerate; tests sample it.", "anchors": ["src/ffmath.cpp: legendre, poly_legendre_p, assoc_legendre"]}
{"id": "C98", "title": "Laguerre polynomials", "statement": "assoc_laguerre(n, m, x) in exact arithmetic is the associated Laguerre polynomial when n <= 1 or x >= 2(m+1)+4n; it is NaN for negative x and NaN; laguerre(n, 0) = 1. Deviations: at 0 the associated polynomials with n >= 2 and m >= 1 lack the last factor, and for 0 < x < 2(m+1)+4n an asymptotic formula for large n is used whatever n is.", "quantifier": "all degrees and orders, all arguments in the ranges named", "why_tests_cant": "The input space is far too large to enumerate; tests sample it.", "anchors": ["src/ffmath.cpp: laguerre, assoc_laguerre, poly_laguerre_hyperg, poly_laguerre_large_n"]}
{"id": "C99", "title": "Max and Min of any number of arguments", "statement": "Max and Min return one of their arguments; if none is NaN it is at least (at most) every argument. With two arguments one of which is NaN the second is returned, so whether a NaN comes through depends on the order.", "quantifier": "all argument lists of binary32 values", "why_tests_cant": "The input space is far too large to enumerate; tests sample it.", "anchors": ["src/include/ffmath.hpp: Max, Min"]}
{"id": "C100", "title": "inPolygon stays within the bounding box", "statement": "inPolygon never reads outside the vertex arrays when there is at least one vertex, and accepts only points whose coordinates lie between two vertex coordinates. Deviations: with no vertex it reads the first one, and no point strictly inside an upright rectangle is accepted.", "quantifier": "all points, all vertex lists", "why_tests_cant": "The input space is far too large to enumerate; tests sample it.", "anchors": ["src/ffmath.cpp: inPolygon"]}
{"id": "C101", "title": "factorial", "statement": "factorial(x) for 0 <= x <= 34 is the float nearest to the factorial of the integer part of x; it is NaN for negative x and NaN and +inf above 34 (also for 34.5, whose integer part has a representable factorial).", "quantifier": "all binary32 arguments", "why_tests_cant": "The input space is far too large to enumerate; tests sample it.", "anchors": ["src/ffmath.cpp: factorial"]}
{"id": "C102", "title": "Gamma function: recurrence to the last bit", "statement": "For floats x with 1 <= x < 11 such that x+1 is a float, tgamma(x+1) is exactly the float product of tgamma(x) and x; for 2^-23 <= x < 1, tgamma(x) is exactly the float quotient of tgamma(x+1) and x; tgamma(n+1) is exactly n! for n <= 10. Zeros and +inf give +inf, negative integers, -inf and NaN give NaN, arguments above 171.624 give +inf.", "quantifier": "all binary32 arguments", "why_tests_cant": "The input space is far too large to enumerate; tests sample it.", "anchors": ["src/ffmath.cpp: tgamma"]}
{"id": "C103", "title": "Logarithm of the gamma function: poles and zeros", "statement": "lgamma is +inf at the infinities, at zero and at every negative integer, NaN for NaN, and zero at 1 and 2. Deviation: above 171.624 it is +inf although the true value is small (lgamma(200) is about 858).", "quantifier": "all binary32 arguments", "why_tests_cant": "The input space is far too large to enumerate; tests sample it.", "anchors": ["src/ffmath.cpp: lgamma, lgamma_positive"]}
{"id": "C104", "title": "Beta function is symmetric", "statement": "beta(x, y) and beta(y, x) agree to the last bit; a NaN argument gives NaN. Deviation: when one argument exceeds 171.624 and the other is not negative, the call has undefined behaviour (a NaN is converted to int32_t).", "quantifier": "all binary32 arguments", "why_tests_cant": "The input space is far too large to enumerate; tests sample it.", "anchors": ["src/ffmath.cpp: beta, lgamma, exp, exp2"]}
{"id": "C105", "title": "sin() and cos() accuracy", "statement": "For |x| <= 2^23, sin(x) is finite and within 0.000921 + |x|/6000000 of the sine of x, its magnitude is at most 1.000001, sin(-x) = -sin(x) exactly, and sin(x) = x for |x| <= 0.006599; for |x| <= 8388000, cos(x) is within 0.000922 + |x|/4000000 of the cosine. Deviation: for larger arguments results leave [-1,1] (|sin(-59999992)| > 3).", "quantifier": "all binary32 arguments in the stated ranges", "why_tests_cant": "The input space is far too large to enumerate; tests sample it.", "anchors": ["src/ffmath.cpp: sin, cos"]}
{"id": "C106", "title": "tan() accuracy", "statement": "For |x| <= 1000 with |cos x| >= 0.01, tan(x) is finite and within 0.002/cos(x)^2 of the tangent of x.", "quantifier": "all binary32 arguments in the stated range", "why_tests_cant": "The input space is far too large to enumerate; tests sample it.", "anchors": ["src/ffmath.cpp: tan, sin, cos"]}
{"id": "C107", "title": "asin() and acos() accuracy and domain", "statement": "For -1 <= x <= 1, asin(x) and acos(x) are finite and within 0.01234 of the true values and asin(-x) = -asin(x) exactly; outside [-1,1] both are NaN.", "quantifier": "all finite binary32 arguments", "why_tests_cant": "The input space is far too large to enumerate; tests sample it.", "anchors": ["src/ffmath.cpp: asin, acos, sqrt"]}
{"id": "C108", "title": "atan() and atan2() accuracy", "statement": "For every finite x, atan(x) is within 0.00623 of the arctangent and atan(-x) = -atan(x) exactly. For a point (x, y) with x = 0 and y != 0, or |x| > 2^-126 and |y/x| <= 2^127, atan2(y, x) is within 0.00624 of the polar angle in (-pi, pi]. Deviations: small angles lose more than a tenth of their value; atan of an infinity, and atan2 when y/x overflows, are NaN; atan2(0,0) is pi/2, and points with subnormal x are taken to lie on the vertical axis.", "quantifier": "all finite binary32 arguments, all quadrants", "why_tests_cant": "The input space is far too large to enumerate; tests sample it.", "anchors": ["src/ffmath.cpp: atan, atan2"]}
{"id": "C109", "title": "Cube root accuracy", "statement": "For every positive normal x with real cube root s, cbrt(x) is finite and within 0.003% of s, and rCbrt(x) is finite and within 2e-7 of 1/s in relative terms; NaN stays NaN, cbrt keeps a zero and its sign, rCbrt of a zero is +inf. Deviations: negative arguments are wrong (cbrt(-8) is zero, rCbrt(-8) is below 1e-25 in magnitude), +inf gives -inf, subnormal arguments are wrong.", "quantifier": "all positive normal binary32 arguments; the special values", "why_tests_cant": "The input space is far too large to enumerate; tests sample it.", "anchors": ["src/ffmath.cpp: cbrt, rCbrt, compute_cbrt"]}
{"id": "C110", "title": "Q16.16 to and from float and double", "statement": "toFloat gives a float no further from the represented number than any other float (exact up to magnitude 256), toDouble is exact. fromDouble gives the nearest representable value, ties away from zero (but for the one double just below half a step), for every double that rounds into range; fromFloat does so below 128, is exact from 256 on and never off by more than one step. double round trips are the identity for all values, float round trips up to magnitude 128. Floating literals convert like doubles, integer literals are exact up to 32767. Deviations: between 128 and 256 the float round trip may be off by one step; out-of-range values, NaN and toFloat of the greatest values have undefined behaviour on the way back instead of saturating; integer literals above 32767 wrap.", "quantifier": "all 32-bit raw values, all floats, all doubles", "why_tests_cant": "The input space is far too large to enumerate; tests sample it.", "anchors": ["src/fp16.cpp: toFloat, toDouble, fromFloat, fromDouble", "src/include/fp16.hpp: operator _fp, from"]}
{"id": "C111", "title": "Q16.16 constants are correctly rounded", "statement": "FP_E, FP_LOG2E, FP_LOG10E, FP_LN2, FP_LN10, FP_PI, FP_PI_2, FP_PI_4, FP_1_PI, FP_2_PI, FP_2_SQRTPI, FP_SQRT2 and FP_SQRT1_2 differ from the real constants by at most half a step.", "quantifier": "all the constants, against the real numbers", "why_tests_cant": "The input space is far too large to enumerate; tests sample it.", "anchors": ["src/fp16.cpp: FP_E ... FP_SQRT1_2"]}
{"id": "C112", "title": "Complete elliptic integral of the first kind", "statement": "For every k with |k| < 1, comp_ellint_1(k) is finite and differs from the integral of 1/sqrt(1 - k^2 sin^2 t) over [0, pi/2] by at most (1/16384 + 1/(16777216 (1 - k^2))) of its value (the second part is the unavoidable effect of rounding k^2). For |k| >= 1 and for NaN the result is NaN.", "quantifier": "all binary32 moduli", "why_tests_cant": "The input space is far too large to enumerate; tests sample it.", "anchors": ["src/ffmath.cpp: comp_ellint_1, ellint_rf"]}
{"id": "C113", "title": "Elliptic integrals: symmetry, domain and end points", "statement": "All six elliptic integrals are even in k to the last bit. A NaN argument, |k| > 1, and for the complete third kind nu > 1, give NaN and never undefined behaviour. comp_ellint_2(+-1) = 1 and comp_ellint_3(k, 1) = +inf. Deviation: comp_ellint_3(+-1, nu) is NaN although the integral diverges to +inf for nu < 1.", "quantifier": "all binary32 arguments", "why_tests_cant": "The input space is far too large to enumerate; tests sample it.", "anchors": ["src/ffmath.cpp: comp_ellint_1, comp_ellint_2, comp_ellint_3, ellint_1, ellint_2, ellint_3"]}
{"id": "C114", "title": "Exponential integral: accuracy for positive arguments", "statement": "For 0 < x < 36.044 (x normal), expint(x) is finite and differs from Ei(x) = gamma + ln x + sum x^k/(k k!) by at most 2^-15 of the sum of the magnitudes of its three parts; for 1 <= x < 36.044 that is a relative error of at most 2^-15.", "quantifier": "all positive normal binary32 arguments below 36.044", "why_tests_cant": "The input space is far too large to enumerate; tests sample it.", "anchors": ["src/ffmath.cpp: expint, expint_Ei, expint_Ei_series"]}
{"id": "C115", "title": "Exponential integral: special arguments and deviations", "statement": "NaN gives NaN, a zero gives -inf, x <= -100 gives a zero, finite x >= 89 gives +inf. Deviations: for 36.044 <= x <= 88 the result is exp(x)/x, between 1% and 11% too small, so the function falls from one float to the next at 36.044; for -1 < x < 0 the sign is wrong (the result approximates -Ei(x)); expint(+inf) is NaN.", "quantifier": "all binary32 arguments in the stated ranges", "why_tests_cant": "The input space is far too large to enumerate; tests sample it.", "anchors": ["src/ffmath.cpp: expint, expint_Ei, expint_Ei_asymp, expint_E1_series, expint_E1_asymp"]}
{"id": "C116", "title": "Bessel functions: domain and values at zero", "statement": "cyl_bessel_i, cyl_bessel_j, cyl_bessel_k and cyl_neumann return NaN for a negative order, a negative argument or a NaN; sph_bessel and sph_neumann for a negative argument or NaN. For arguments from 0 up to the least normal number the functions of the first kind return 1 for order zero (at most the least normal number) and 0 for larger orders, cyl_bessel_k returns +infinity and cyl_neumann and sph_neumann return -infinity.", "quantifier": "all orders and arguments (floats, including infinities and NaN; all size_t orders of the spherical functions)", "why_tests_cant": "The input space is far too large to enumerate; tests sample it.", "anchors": ["src/ffmath.cpp: ffmath::cyl_bessel_i", "src/ffmath.cpp: ffmath::cyl_bessel_j", "src/ffmath.cpp: ffmath::cyl_bessel_k", "src/ffmath.cpp: ffmath::cyl_neumann", "src/ffmath.cpp: ffmath::sph_bessel", "src/ffmath.cpp: ffmath::sph_neumann"]}
{"id": "C117", "title": "Bessel functions are defined for every argument", "statement": "The Bessel functions of either kind return a value for every order and argument. False as stated: the order (or order minus argument) is converted to an integer type that cannot hold it, which is undefined behaviour, for cyl_bessel_k from order 2^31 on, for cyl_neumann from order 2^31 on when x < 2 and from order 2^32 on when x <= 1000, and for the spherical functions from order 2^31 on when x < 2 and for x >= 2^33 (also +infinity) at every smaller order.", "quantifier": "all orders and arguments in the ranges given", "why_tests_cant": "The input space is far too large to enumerate; tests sample it.", "anchors": ["src/ffmath.cpp: bessel_jn", "src/ffmath.cpp: bessel_ik", "src/ffmath.cpp: ffmath::cyl_bessel_k", "src/ffmath.cpp: ffmath::cyl_neumann", "src/ffmath.cpp: ffmath::sph_bessel"]}
{"id": "C118", "title": "Bessel functions of the first kind of orders 0 and 1: accuracy", "statement": "For order 0 and 2^-125 <= x <= 3.15 cyl_bessel_j and cyl_bessel_i return a number within 2^-15 of J_0(x) and I_0(x). For order 1 and 2^-119 <= x <= 4.46 they are within (x/2)(1/20000 + |ln(x/2)|/100000) of J_1(x) and I_1(x). Outside the range of the power series the modified functions are wrong: cyl_bessel_i(0, 5) is more than 2 percent above I_0(5) and cyl_bessel_k(0, 2) more than half a percent above K_0(2).", "quantifier": "all floats x in the ranges, all floats equal to 0 or 1 as orders; the failures at the given arguments", "why_tests_cant": "The input space is far too large to enumerate; tests sample it.", "anchors": ["src/ffmath.cpp: ffmath::cyl_bessel_j", "src/ffmath.cpp: ffmath::cyl_bessel_i", "src/ffmath.cpp: cyl_bessel_ij_series", "src/ffmath.cpp: bessel_ik"]}
{"id": "C119", "title": "Spherical associated Legendre function", "statement": "In exact arithmetic sph_legendre(l, m, theta) is (-1)^m sqrt((2l+1)/(4 pi) (l-m)!/(l+m)!) P_l^m(cos theta) for every l and m <= l, where P_l^m(x) is (1-x^2)^(m/2) times the m-th derivative of the Legendre polynomial. It is 0 for m > l and NaN for a NaN angle.", "quantifier": "all degrees and orders, all real angles whose cosine is +-1 or differs from both by more than 2^-126", "why_tests_cant": "The input space is far too large to enumerate; tests sample it.", "anchors": ["src/ffmath.cpp: ffmath::sph_legendre"]}
{"id": "C120", "title": "Riemann zeta function", "statement": "For 20 <= s <= 2^126 riemann_zeta(s) is within 3e-7 of the sum of n^-s, and at s = 19, through the globally convergent series, within 2e-7. NaN gives NaN, 1 gives +infinity, +infinity gives 1, and a zero gives -1/2. To the left of the pole a user expects a number: for every s from -2^126 to -171 the result is NaN, at -34 it is NaN, at -35 +infinity, and at the zero -30 it is -283.", "quantifier": "all floats in the ranges given; the named arguments", "why_tests_cant": "The input space is far too large to enumerate; tests sample it.", "anchors": ["src/ffmath.cpp: ffmath::riemann_zeta", "src/ffmath.cpp: riemann_zeta_product", "src/ffmath.cpp: riemann_zeta_glob"]}
{"id": "C121", "title": "Q16.16 sine, cosine and tangent: accuracy", "statement": "sin is defined for every angle, stays within 8 units (2^-16) of [-1,1] and is within 542 units + |x|/2300000 of the sine; up to 2.573 rad it is within 8 units. cos is within 8.3 units from -4.144 to 1.0025 rad and within 543 units + |x|/2300000 elsewhere, except that it (and tan) is undefined for the largest 102944 raw values. tan is within 52 units up to 1 rad. Deviations: from 3 rad to pi sin is too large by more than 0.0048, from 1.43 rad to pi/2 cos is too large by more than 0.0047, and tan(1.5) is below 13 instead of above 14.", "quantifier": "all raw values in the ranges given", "why_tests_cant": "The input space is far too large to enumerate; tests sample it.", "anchors": ["src/fp16.cpp: fp16::sin", "src/fp16.cpp: fp16::cos", "src/fp16.cpp: fp16::tan"]}
{"id": "C122", "title": "Q16.16 exponential and hyperbolic functions: accuracy", "statement": "exp(x) is within e^x/1600 + 20 units of e^x for 0 <= x <= 10.39 and within e^x/1065 + half a unit for -10.39 <= x < 0. cosh and sinh (other than at 0) are within cosh(x)/1065 + 12 units for |x| <= 10.39, and tanh is within 0.001 + half a unit for every x. Deviation: from 10.3972 to 11, where cosh and sinh are below 29950, the result is the largest number.", "quantifier": "all raw values in the ranges given", "why_tests_cant": "The input space is far too large to enumerate; tests sample it.", "anchors": ["src/fp16.cpp: fp16::exp", "src/fp16.cpp: fp16::cosh", "src/fp16.cpp: fp16::sinh", "src/fp16.cpp: fp16::tanh"]}
{"id": "C123", "title": "Q16.16 binary and natural logarithm: accuracy", "statement": "log2(x) is within 5 units (2^-16) of the binary logarithm of x for every positive x except 2^-15, and log(x) is defined and within 0.0012 + 1/(6900000 x) of the natural logarithm for every positive x. Deviation: the second part of the bound is not an artefact, at the smallest number 2^-16 log is more than 0.007 too high.", "quantifier": "all positive raw values", "why_tests_cant": "The input space is far too large to enumerate; tests sample it.", "anchors": ["src/fp16.cpp: fp16::log2", "src/fp16.cpp: fp16::log2i", "src/fp16.cpp: fp16::log"]}
{"id": "C124", "title": "Q16.16 inverse trigonometric functions: accuracy", "statement": "atan2(y, x) is within 0.0103 rad of the polar angle of (x, y) for every point other than the origin whose coordinates' magnitudes add up to less than 2^31 - 14 raw units; where they add up to 2^31 or more it is undefined. atan is within 0.0103 for |x| < 32767 - 14 units and undefined for the last 65536 raw values on each side. asin and acos are within 0.0111 and 0.0112 on (-1, 1). Deviations: asin(1) and asin(-1) are about 0, acos(1) and acos(-1) about pi/2, the angle of the origin is 25736 rad, and atan(0.01) is 19 percent too small.", "quantifier": "all raw values and points in the ranges given, all angles", "why_tests_cant": "The input space is far too large to enumerate; tests sample it.", "anchors": ["src/fp16.cpp: fp16::atan2", "src/fp16.cpp: fp16::atan", "src/fp16.cpp: fp16::asin", "src/fp16.cpp: fp16::acos"]}
{"id": "C125", "title": "Q16.16 power function", "statement": "pow(x, n) for a positive integer n is within half a unit times 1 + |x| + ... + |x|^(n-2) of x^n, as long as power and error fit. For every other exponent, a positive base and |y ln x| <= 10.3 it is within x^y (1.1 |y| d + 1/900) + 20 units of x^y, d being the error of log. The zeroth power of a non-negative number is 1. Deviations: the zeroth power of a negative number is -1 and its even negative powers are negative.", "quantifier": "all raw bases and exponents in the ranges given", "why_tests_cant": "The input space is far too large to enumerate; tests sample it.", "anchors": ["src/fp16.cpp: fp16::pow", "src/fp16.cpp: fp16::powi"]}
{"id": "C126", "title": "Error function", "statement": "erf should return 2/sqrt(pi) times the integral of exp(-t^2) from 0 to x, and erfc its complement. Deviation: for every finite x from -2^120 up to 6.912 erf returns a number between -1 and -1/2 and erfc one between 3/2 and 2, so that on [0, 6.912) both are off by at least one half (erf(0) = -0.75, erfc(0) = 1.75). From 6.912 on, infinity included, they return 1 and 0. For NaN both are undefined, because exp is.", "quantifier": "all finite arguments from -2^120 on, +infinity and NaN", "why_tests_cant": "The input space is far too large to enumerate; tests sample it.", "anchors": ["src/ffmath.cpp: ffmath::erf", "src/ffmath.cpp: ffmath::erfc"]}
{"id": "C127", "title": "Q16.16 operators: programs", "statement": "A program written with the fp16 operators (assignment, + - * / and their compound forms, unary minus, ++, --, comparisons, branches and loops) that runs over the real numbers without meeting a value that is not representable ends on fp16 objects with the same values. x op= e is x = x op e even if e is x; y = x++ stores the old value; comparisons are the order of the reals. Deviations: the overflow flag is not kept (an overflowed sum plus a positive number is an ordinary wrong number), its negative is undefined, and while (x < y) ++x; never ends when x starts at an integer and y is the largest number.", "quantifier": "all programs, all states and all runs of any length", "why_tests_cant": "The claim ranges over every history of calls; a test runs a handful.", "anchors": ["src/include/fp16.hpp: fp16::operator+", "src/include/fp16.hpp: fp16::operator+=", "src/include/fp16.hpp: fp16::operator++", "src/include/fp16.hpp: fp16::operator<"]}
{"id": "C128", "title": "Q16.16 operators: accumulated error of expressions", "statement": "For every expression of + - * / and negation over fp16 numbers and integers, the result is within the accumulated error of the real value: sums and negations add nothing, a product or quotient adds half a unit of 2^-16 and carries the errors of its operands to first and second order, as long as value plus error stay in range. In particular an inner product of n terms and a Horner scheme with n coefficients on [-1, 1] are off by at most n half units.", "quantifier": "all expression trees and all operand values", "why_tests_cant": "The input space is far too large to enumerate; tests sample it.", "anchors": ["src/include/fp16.hpp: fp16::operator*", "src/include/fp16.hpp: fp16::operator/", "src/include/fp16.hpp: fp16::operator-"]}
{"id": "C129", "title": "Low-pass smoother in single precision", "statement": "In single precision the first-order low-pass smoother returns only values between the least and the greatest sample it has seen, for every accepted constant and every stream: rounding never takes it out of the hull of its inputs. On a constant input c the distance to c never grows and shrinks geometrically with ratio r = a (1 + 2^-24)^3 to at most (2^-24 |c| + 2^-148)/(1 - r). Deviation: it need not reach c: with the default constant 0.9, a sample 1 + 2^-21 followed by any number of samples 1 leaves the output at 1 + 2^-21 forever.", "quantifier": "all accepted constants, all streams of finite single-precision samples of any length", "why_tests_cant": "The claim ranges over every history of calls; a test runs a handful.", "anchors": ["src/smoother.cpp: smootherLPF1::setup", "src/smoother.cpp: smootherLPF1::smooth"]}
{"id": "C130", "title": "FIR sums in single precision", "statement": "In single precision the weighted sum of n samples computed by a FIR update is, whenever it is a finite number, off the exact sum by at most ((1 + 2^-24)^(n+1) - 1) times the sum of the absolute values of the terms plus 3n(1 + 2^-24)^n 2^-150 (for up to 4094 taps (n+2) 2^-24 times that sum plus 4n 2^-150), and it is finite whenever that sum plus the bound is at most 2^127. Deviation: the error is not small relative to the result: unit taps over 2^30, 1, -2^30 give 0 instead of 1.", "quantifier": "all windows, coefficients, samples and sizes", "why_tests_cant": "The input space is far too large to enumerate; tests sample it.", "anchors": ["src/ltisys.cpp: discreteSystem::updateFIR"]}
{"id": "C131", "title": "Discrete transfer functions in single precision", "statement": "In single precision, for every input stream during which the outputs stay strictly between the limits, the outputs of a discrete system are within one step's rounding error of the exact response of the rounded coefficients to inputs within one step's rounding error of the given ones, however long the stream. Hence, if the absolute impulse response of 1/denominator adds up to at most H, the distance to the exact response stays below a fixed bound given by the coefficients, H and the largest input, for ever.", "quantifier": "all coefficients of any order and all input streams of any length", "why_tests_cant": "The claim ranges over every history of calls; a test runs a handful.", "anchors": ["src/ltisys.cpp: discreteSystem::update", "src/ltisys.cpp: discreteSystem::updateFIR", "src/ltisys.cpp: ltisys::excite"]}
{"id": "C132", "title": "Moving mean in single precision", "statement": "In single precision the constant-time moving mean is, as long as its outputs are finite, off the mean of the last n samples after k samples by at most ((1 + 2^-24)^(k+2) - 1)((n + 5) M + 3 2^-126)/n + 2^-150, where M is the largest magnitude ever seen. Deviation: rounding errors of the running sum never leave it: with a window of two, the samples 0, 2^30, 1 followed by zeros give the output -1/2 at every later step, for ever, although every sample in the window is zero.", "quantifier": "all window sizes below 2^24 and all streams of finite samples of any length", "why_tests_cant": "The claim ranges over every history of calls; a test runs a handful.", "anchors": ["src/smoother.cpp: smootherMWM2::setup", "src/smoother.cpp: smootherMWM2::smooth"]}
{"id": "C133", "title": "Numerical integration in single precision", "statement": "In single precision every integration rule is, as long as its outputs are finite, off the exact value of the rule after k samples by at most ((1 + 2^-24)^(k+6) - 1) times the sum of the magnitudes of everything added up plus k (1 + 2^-24)^k (2|h| + 3) 2^-150. Deviation: contributions small next to the integral are lost: once 3/2 times the step times the largest sample is at most 2^-25 of the integral, it never changes again, whatever the stream; fed the constant 1 every millisecond, an integral that has reached 65536 stays there for ever.", "quantifier": "all rules, steps, initial values and streams of samples of any length", "why_tests_cant": "The claim ranges over every history of calls; a test runs a handful.", "anchors": ["src/numa.cpp: nState::integrate", "src/include/numa.hpp: nState"]}
{"id": "C134", "title": "Scalar Kalman filter in single precision", "statement": "In single precision, for all accepted finite parameters of at most 2^60 and every stream of finite samples in [lo, hi] of magnitude at most M (2^-100 <= M <= 2^100), the Kalman smoother never produces a NaN or an infinity, every output lies within 2^-21 M of [lo, hi] whatever the length of the stream, the gain stays in [0, 1] and the error variance in [0, 2^62]. Deviation: outputs can leave the hull of the samples: with q = 10^10 and r = p = 1 the samples -1, 16777218 give 16777220.", "quantifier": "all accepted parameters and all streams of finite samples of any length", "why_tests_cant": "The claim ranges over every history of calls; a test runs a handful.", "anchors": ["src/smoother.cpp: smootherKLMN::setup", "src/smoother.cpp: smootherKLMN::smooth"]}
{"id": "C135", "title": "Numerical differentiation in single precision", "statement": "In single precision every differentiation rule is, as long as its outputs are finite, off the exact difference quotient of the rule on the last three samples by at most ((1 + 2^-24)^4 - 1) times the quotient of the magnitudes plus (3/|h| + 1) 2^-150, at every step of every stream: errors do not accumulate. The two-point rule differentiates every constant to exactly zero. Deviation: the three-point rules do not: the constant 1 + 2^-23 with step 2^-10 has the derivative 2^-14 (backward) or -2^-14 (forward) for ever.", "quantifier": "all rules, finite non-zero steps of at most 2^126, states and streams of samples of any length", "why_tests_cant": "The claim ranges over every history of calls; a test runs a handful.", "anchors": ["src/numa.cpp: nState::derive", "src/include/numa.hpp: nState"]}
{"id": "C136", "title": "Exponentially weighted mean in single precision", "statement": "In single precision, for every accepted forgetting factor of at most 1 - 2^-j (1 <= j <= 20) and every stream of finite samples in [lo, hi] of magnitude at most M (2^-100 <= M <= 2^100), every output of the exponential-weighting smoother is a finite number within 2^(j-21) M of [lo, hi], whatever the length of the stream. Deviation: on a constant input the output can leave the constant for ever: with the factor 0.6 and the constant 1 + 3 2^-23 it is 1 + 4 2^-23 from the 41st sample on.", "quantifier": "all accepted forgetting factors of at most 1 - 2^-20 and all streams of finite samples of any length", "why_tests_cant": "The claim ranges over every history of calls; a test runs a handful.", "anchors": ["src/smoother.cpp: smootherEXPW::setup", "src/smoother.cpp: smootherEXPW::smooth"]}
{"id": "C137", "title": "Linear interpolation in single precision", "statement": "In single precision, for every table of finite strictly increasing abscissas whose neighbours are at most 2^127 apart, any ordinates and every abscissa x inside the table, linear interpolation reads only the table and answers from an interval i that contains x; a finite answer is off the exact line through the ends of that interval by at most 2^-24 |y_i| + 2^-21 |y_i+1 - y_i| + 2^-149 (1 + x - x_i). When all ordinates equal c the answer is exactly c everywhere inside. Deviation: a data point need not be reproduced: on the points (0, -1) and (1, 16777218) the answer at 1 is 16777220.", "quantifier": "all tables of fewer than 2^31 single-precision points and all abscissas inside", "why_tests_cant": "The claim ranges over every history of calls; a test runs a handful.", "anchors": ["src/interp1.cpp: interp1::linear", "src/include/interp1.hpp: interp1::get"]}
{"id": "C138", "title": "Step interpolation in single precision", "statement": "In single precision, for every table of finite strictly increasing abscissas, any ordinates (even NaN) and every finite x, the previous method returns bit for bit the ordinate of the greatest abscissa not above x (the first one left of the table), the next method that of the least abscissa above x when x is not left of the table (the last one right of it), and the nearest method that of an abscissa whose distance from x is least up to a factor (1 + 2^-24)/(1 - 2^-24), if the distances are at most 2^127; the previous and nearest methods reproduce every data point bit for bit. Deviation: the nearest method can choose a farther abscissa: at 1, between -16777215 and 16777218 it chooses the second.", "quantifier": "all tables of single-precision points and all finite abscissas", "why_tests_cant": "The claim ranges over every history of calls; a test runs a handful.", "anchors": ["src/interp1.cpp: interp1::next, interp1::previous, interp1::nearest", "src/include/interp1.hpp: interp1::get"]}
{"id": "C139", "title": "Gaussian smoother in single precision", "statement": "In single precision, after every accepted set-up of the Gaussian smoother with buffers of at least n elements, every smooth() call is defined and every finite output is off the kernel-weighted mean of the last n samples (the first sample standing for those before it) by at most ((1 + 2^-24)^(n+1) - 1) times the same mean of the magnitudes plus 3 n (1 + 2^-24)^n 2^-150, whatever the length of the stream; the outputs are finite when samples and kernel are and that mean plus the bound is at most 2^127; streams that agree on their last n samples give bit-identical outputs, whatever came before. Deviation: a narrow Gaussian between two samples is accepted but unusable: with sigma 1/64, centre 1/2 and a window of two, every weight underflows, the kernel is 0/0 and every output is NaN.", "quantifier": "all accepted set-ups, all kernels and all streams of any length", "why_tests_cant": "The claim ranges over every history of calls; a test runs a handful.", "anchors": ["src/smoother.cpp: smootherGMWF::setup", "src/smoother.cpp: smootherGMWF::smooth", "src/ltisys.cpp: discreteSystem::updateFIR"]}
{"id": "C140", "title": "Gaussian smoother kernel normalised in single precision", "statement": "In single precision, for a window of n <= 4094 samples and every exp() whose n values are numbers in [0, 2] and not all 0, the kernel of every accepted set-up of the Gaussian smoother holds finite non-negative numbers whose exact sum is 1 up to (n + 4) 2^-24; so every finite output on a constant signal x is off x by at most (2 n + 8) 2^-24 |x| + 4 n 2^-150, from the first output on and however long the signal.", "quantifier": "all widths, centres, window sizes up to 4094, exp() implementations and constant signals of any length", "why_tests_cant": "The claim ranges over every history of calls; a test runs a handful.", "anchors": ["src/smoother.cpp: smootherGMWF::setup", "src/smoother.cpp: smootherGMWF::smooth"]}
