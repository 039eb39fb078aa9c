{"id": "C01", "title": "Matrix element addressing is row-major, isolated and unchecked", "statement": "For a matrix<T,N,M>, writing element (r,c) with 0<=r<N, 0<=c<M and reading it back gives the written value; every other element keeps its value; element (r,c) is the linear element r*M+c; an access (r,c) is undefined behaviour exactly when r*M+c is not in [0,N*M) (columns beyond M silently alias the next row).", "quantifier": "all sizes N,M, all contents, all row/column arguments (including negative and out-of-range ones)", "why_tests_cant": "tests use a handful of fixed shapes and never index outside them; undefined behaviour is not observable by a passing test", "anchors": ["include/num/matrix.hpp: matrix::at, operator(), operator[]"]}
{"id": "C02", "title": "Initializer-list construction", "statement": "matrix<T,N,M>{v0..vk-1} with k<=N*M holds v0..vk-1 in row-major order followed by zeros; with k>N*M it writes outside the object (undefined behaviour). A default constructed matrix has indeterminate elements on desktop and zeros on AVR.", "quantifier": "all shapes and all list lengths", "why_tests_cant": "tests use exact-length lists only", "anchors": ["include/num/matrix.hpp: matrix(std::initializer_list<T>), matrix(), matrix(value_type)", "include/std/algorithm.hpp: std20::copy, std20::fill"]}
{"id": "C03", "title": "Element-wise operators", "statement": "A+B, A-B, A+v, v+A, A-v, A*v, v*A and the 1x1 forms compute, at every position, the sum/difference/product of the corresponding elements, without undefined behaviour, for any shape; v+A equals A+v and v*A equals A*v.", "quantifier": "all shapes, all element values of any commutative ring", "why_tests_cant": "unbounded shapes and values", "anchors": ["include/num/matrix.hpp: operator+, operator-, operator*"]}
{"id": "C04", "title": "Square matrix product is the mathematical product", "statement": "For NxN matrices A*B has elements sum_k A(i,k)B(k,j); the product is associative and distributes over addition, eye<T,N>() is neutral on both sides.", "quantifier": "all N, all element values of any commutative ring", "why_tests_cant": "unbounded shapes and values; algebraic laws", "anchors": ["include/num/matrix.hpp: operator*(matrix<T,N,M>,matrix<T,N,M>), eye"]}
{"id": "C05", "title": "Rectangular products leave their operands", "statement": "operator* on two equally shaped NxM matrices, row-vector*matrix and matrix*column-vector accept rectangular shapes at compile time. With M>N every such product accesses memory outside an operand or the result (undefined behaviour) whatever the values; with M<=N they are free of undefined behaviour.", "quantifier": "all N,M>0, all element values", "why_tests_cant": "a test cannot observe that an access was out of bounds, nor quantify over shapes", "anchors": ["include/num/matrix.hpp: operator*(matrix,matrix), operator*(rowvec,matrix), operator*(matrix,colvec)"]}
{"id": "C06", "title": "Dot, outer and matrix-vector products", "statement": "rowvec*colvec is sum_i a(i)b(i); colvec*rowvec has elements a(i)b(j); x*A and A*x for square A are the usual products; (A*B)*x = A*(B*x) and x*(A*B) = (x*A)*B.", "quantifier": "all N, all element values of any commutative ring", "why_tests_cant": "unbounded shapes and values", "anchors": ["include/num/matrix.hpp: operator*(rowvec,colvec), operator*(colvec,rowvec), operator*(rowvec,matrix), operator*(matrix,colvec)"]}
{"id": "C07", "title": "Transposition", "statement": "transposed swaps rows and columns, is an involution, is additive, and reverses 2x2 products: transposed(A*B) = transposed(B)*transposed(A); transposed of a vector keeps the elements and flips the shape.", "quantifier": "all element values, all vector lengths", "why_tests_cant": "unbounded values; algebraic laws", "anchors": ["include/num/matrix.hpp: transposed"]}
{"id": "C08", "title": "Scalar inversion never divides by zero", "statement": "inverted(v) is 0 for v==0 and otherwise the multiplicative inverse of v; the division by zero is never evaluated.", "quantifier": "all values", "why_tests_cant": "unbounded values", "anchors": ["include/num/matrix.hpp: inverted(T)"]}
{"id": "C09", "title": "2x2 inversion returns the transpose of the inverse", "statement": "For a non-singular 2x2 A, inverted(A) equals the transpose of the inverse of A, hence inverted(A)*A = I holds exactly when A(0,1) = A(1,0); for singular A the function divides by zero.", "quantifier": "all 2x2 matrices", "why_tests_cant": "the shipped test encodes the wrong values for one matrix; the correct/incorrect split needs all matrices", "anchors": ["include/num/matrix.hpp: inverted(matrix<T,2,2>)", "test/matrix.t.cpp: inverted"]}
{"id": "C10", "title": "Identity matrix", "statement": "eye<T,N>() has ones on the diagonal and zeros elsewhere for every N.", "quantifier": "all N", "why_tests_cant": "unbounded N", "anchors": ["include/num/matrix.hpp: eye"]}
{"id": "C11", "title": "One update is one textbook Kalman step", "statement": "update(u,z) yields exactly: x^- = A x + B u, P^- = A P A^T + Q, K = P^- H^T (H P^- H^T + R)^-1, x = x^- + K (z - H x^-), P = (I - K H) P^-, whenever the innovation covariance is non-zero, and never has undefined behaviour.", "quantifier": "all system matrices, states, inputs, measurements (2-state, 1 measurement, 1 input, exact arithmetic)", "why_tests_cant": "continuous input space", "anchors": ["include/dsp/kalman.hpp: kalman::update", "example/matlab/kalman.m"]}
{"id": "C12", "title": "Elapsed time", "statement": "after any n calls of update, time() equals n*dt (exact arithmetic); in fixed point it is n times the stored dt as long as that is representable.", "quantifier": "all histories of updates", "why_tests_cant": "unbounded histories", "anchors": ["include/dsp/kalman.hpp: kalman::time, kalman::update"]}
{"id": "C13", "title": "Gain and covariance do not depend on the data", "statement": "Two estimators constructed with the same A,B,H,Q,R,P (any initial state estimates) and driven by any two equally long input/measurement histories report the same gain and covariance after every step, for any numeric type including floating point and overflowing fixed point (as long as neither run has undefined behaviour).", "quantifier": "all numeric types, all pairs of histories", "why_tests_cant": "relational property over all pairs of histories", "anchors": ["include/dsp/kalman.hpp: kalman::update, kalman_gain, estimation_error_covariance"]}
{"id": "C14", "title": "Covariance stays symmetric", "statement": "If P and Q are symmetric at construction, estimation_error_covariance() is symmetric after every history of updates (exact arithmetic); in fixed point this is lost.", "quantifier": "all histories, all systems", "why_tests_cant": "unbounded histories", "anchors": ["include/dsp/kalman.hpp: kalman::update"]}
{"id": "C15", "title": "Covariance stays positive semidefinite", "statement": "If P and Q are symmetric positive semidefinite and R>=0 at construction, estimation_error_covariance() is positive semidefinite after every history of updates (exact arithmetic).", "quantifier": "all histories, all systems", "why_tests_cant": "unbounded histories, universally quantified quadratic form", "anchors": ["include/dsp/kalman.hpp: kalman::update"]}
{"id": "C16", "title": "A measurement never increases the uncertainty", "statement": "The covariance after the correction is at most the predicted covariance in the Loewner order (every direction's variance does not grow).", "quantifier": "all reachable states, all systems, all directions", "why_tests_cant": "universally quantified over directions and states", "anchors": ["include/dsp/kalman.hpp: kalman::update"]}
{"id": "C17", "title": "Short covariance update equals the Joseph form at the computed gain only", "statement": "P = (I-KH)P^- equals (I-KH)P^-(I-KH)^T + K R K^T for the gain update computes, and for another gain the two differ in general (the example program compares them for a non-optimal gain).", "quantifier": "all states and systems; all gains", "why_tests_cant": "continuous input space", "anchors": ["include/dsp/kalman.hpp: kalman::update", "example/desktop/covariance-error.e.cpp: main"]}
{"id": "C18", "title": "The computed gain is optimal", "statement": "No other gain gives a smaller a-posteriori error covariance (Loewner order, in particular trace) than the one update uses.", "quantifier": "all states, systems and alternative gains", "why_tests_cant": "quantifies over all alternative gains", "anchors": ["include/dsp/kalman.hpp: kalman::update"]}
{"id": "C19", "title": "Tracking of the modelled system", "statement": "If the true system follows x' = A x + B u + w, z = H x' + v, the estimation error follows e' = (I-KH)(A e + w) - K v at every step; without noise and with exact initial estimate, system_state() equals the true state forever.", "quantifier": "all histories, all noise sequences", "why_tests_cant": "unbounded histories", "anchors": ["include/dsp/kalman.hpp: kalman::update, system_state"]}
{"id": "C20", "title": "Zero innovation covariance is harmless", "statement": "If H P^- H^T + R = 0 the gain is zero, the state is the prediction, the covariance is the predicted covariance, and no division by zero is executed.", "quantifier": "all states with that property", "why_tests_cant": "continuous input space, corner case", "anchors": ["include/dsp/kalman.hpp: kalman::update", "include/num/matrix.hpp: inverted(T)"]}
{"id": "C21", "title": "Superposition", "statement": "The state estimate is a linear function of (initial estimate, inputs, measurements): the estimates for a linear combination of two data histories is the linear combination of the estimates.", "quantifier": "all pairs of histories and coefficients", "why_tests_cant": "relational, unbounded histories", "anchors": ["include/dsp/kalman.hpp: kalman::update, system_state"]}
{"id": "C22", "title": "Gain before the first update", "statement": "kalman_gain() elements are indeterminate after construction on desktop (reading them is undefined), zero on AVR; after at least one update they are defined, forever.", "quantifier": "all systems and histories", "why_tests_cant": "indeterminate reads are not observable by tests", "anchors": ["include/dsp/kalman.hpp: kalman::kalman, kalman_gain"]}
{"id": "C23", "title": "Timing variant of the estimator", "statement": "The timing program's copy of the estimator gives the same state, gain and covariance as the library's after every history when gain updating is enabled, but its time() stays 0; with gain updating disabled it never changes P or K and on AVR ignores every measurement.", "quantifier": "all histories", "why_tests_cant": "two implementations compared on all histories", "anchors": ["time/avr-kalman-time.cpp: kalman::update", "include/dsp/kalman.hpp: kalman::update"]}
{"id": "C24", "title": "Corrected output lies between prediction and measurement", "statement": "With P,Q positive semidefinite and R>=0, H*x after update is a convex combination of the predicted output H*x^- and the measurement z (0 <= HK <= 1), so the estimator never overshoots the measurement.", "quantifier": "all reachable states, all measurements", "why_tests_cant": "continuous input space", "anchors": ["include/dsp/kalman.hpp: kalman::update"]}
{"id": "C25", "title": "Perfect measurements are honoured", "statement": "With R=0 and non-zero innovation covariance the corrected state reproduces the measurement exactly (H*x = z) and has no remaining uncertainty in the measured direction.", "quantifier": "all such states", "why_tests_cant": "continuous input space", "anchors": ["include/dsp/kalman.hpp: kalman::update"]}
{"id": "C26", "title": "Two-measurement estimator is correct although inverted is not", "statement": "For the 2-measurement instantiation, the innovation covariance is symmetric when P,Q,R are, so update computes the textbook step although inverted(2x2) returns a transposed inverse; with a non-symmetric R it does not.", "quantifier": "all systems with symmetric P,Q,R", "why_tests_cant": "interaction of two components over a continuous space", "anchors": ["include/dsp/kalman.hpp: kalman::update", "include/num/matrix.hpp: inverted(matrix<T,2,2>)"]}
{"id": "C27", "title": "Fixed-point values stay in range", "statement": "Whatever sequence of arithmetic operations is applied to fixed_point values, as long as no operation has undefined behaviour the underlying value is within the limits of the implementation type.", "quantifier": "all operation sequences, all widths and fraction sizes", "why_tests_cant": "unbounded sequences", "anchors": ["include/num/fixed-point.hpp: fixed_point"]}
{"id": "C28", "title": "Fixed-point addition and subtraction", "statement": "a+b and a-b are exact when the result is representable; otherwise they wrap modulo 2^n when T is narrower than int and are undefined behaviour when T is int.", "quantifier": "all operands, all widths", "why_tests_cant": "full operand space, undefined behaviour", "anchors": ["include/num/fixed-point.hpp: operator+=, operator-=, operator+, operator-"]}
{"id": "C29", "title": "Fixed-point multiplication rounds down by less than one step", "statement": "when the result is representable, as real numbers a*b - 2^-F < result <= a*b; never undefined behaviour; commutative; 1 is neutral when representable.", "quantifier": "all operands, widths, fraction sizes", "why_tests_cant": "full operand space", "anchors": ["include/num/fixed-point.hpp: operator*=, operator*"]}
{"id": "C30", "title": "Fixed-point division rounds towards zero by less than one step", "statement": "for b != 0, when the result is representable, |result| <= |a/b| < |result| + 2^-F and result has the sign of the quotient; b == 0 is undefined behaviour.", "quantifier": "all operands, widths, fraction sizes", "why_tests_cant": "full operand space, undefined behaviour", "anchors": ["include/num/fixed-point.hpp: operator/=, operator/"]}
{"id": "C31", "title": "Integer conversion", "statement": "fixed_point(n).as<integer>() gives n back for all representable integers n; outside it wraps; as<integer> truncates towards zero.", "quantifier": "all integers, widths, fraction sizes", "why_tests_cant": "full operand space", "anchors": ["include/num/fixed-point.hpp: fixed_point(U), as<U>"]}
{"id": "C32", "title": "Floating-point conversion", "statement": "fixed_point(double v) is the representable value nearest to v (ties away from zero) in exact arithmetic, odd-symmetric and monotone; the double-precision addition of 0.5 makes it differ from the nearest value for some inputs.", "quantifier": "all real / double inputs", "why_tests_cant": "continuous input space; rounding corner cases", "anchors": ["include/num/fixed-point.hpp: fixed_point(double), fixed_point(float)"]}
{"id": "C33", "title": "Comparisons", "statement": "==,!=,<,<=,>,>= on fixed_point agree with the comparisons of the represented real numbers and form a total order; addition without overflow is monotone.", "quantifier": "all operands", "why_tests_cant": "full operand space", "anchors": ["include/num/fixed-point.hpp: operator==, operator<, ..."]}
{"id": "C34", "title": "Negation", "statement": "-x is exact except for the most negative value, where it wraps to itself for types narrower than int and is undefined behaviour for int; -(-x) = x otherwise.", "quantifier": "all operands, widths", "why_tests_cant": "undefined behaviour at one value per width", "anchors": ["include/num/fixed-point.hpp: operator-()"]}
{"id": "C35", "title": "Representation round trip", "statement": "from_rep(to_rep(x)) = x, to_rep(from_rep(v)) = v, as_double is injective, and constructing from as_double gives the value back.", "quantifier": "all values", "why_tests_cant": "full operand space", "anchors": ["include/num/fixed-point.hpp: to_rep, from_rep, as_double"]}
{"id": "C36", "title": "Fixed-point arithmetic is not a ring", "statement": "multiplication is not associative and does not distribute over addition, even without overflow; the distribution error is less than one step.", "quantifier": "all operands", "why_tests_cant": "error bound over the full operand space", "anchors": ["include/num/fixed-point.hpp: operator*"]}
{"id": "C37", "title": "fixed_point<int,15> has no fractional bits on AVR", "statement": "the numeric type used by the AVR programs (fixed_point<int,15>) has 16 fractional bits on desktop and 0 on AVR where int has 16 bits: there all fractions are rounded to integers.", "quantifier": "all values", "why_tests_cant": "depends on the target; tests run on desktop", "anchors": ["include/num/fixed-point.hpp: fixed_point", "time/avr-kalman-time.cpp: fp32_t"]}
{"id": "C38", "title": "Direct form 2 realises the difference equation", "statement": "From a reset filter, the outputs of step satisfy y[n] = b0 x[n] + b1 x[n-1] + b2 x[n-2] - a1 y[n-1] - a2 y[n-2] for every input sequence.", "quantifier": "all coefficient sets and input sequences", "why_tests_cant": "unbounded sequences", "anchors": ["include/dsp/biquad.hpp: BiQuadT::step, step_df2"]}
{"id": "C39", "title": "Direct form 2 and its transposed form agree from rest", "statement": "For every coefficient set and input sequence the outputs of step_df2 and step_df2_transposed started from a reset filter are equal.", "quantifier": "all coefficient sets and input sequences", "why_tests_cant": "unbounded sequences", "anchors": ["include/dsp/biquad.hpp: step_df2, step_df2_transposed"]}
{"id": "C40", "title": "Biquad is linear and time invariant", "statement": "The output for a linear combination of inputs is the linear combination of outputs; delaying the input delays the output.", "quantifier": "all coefficient sets, input sequences", "why_tests_cant": "unbounded sequences, relational", "anchors": ["include/dsp/biquad.hpp: step"]}
{"id": "C41", "title": "Reset restores the power-on behaviour", "statement": "after any input history, reset() makes the filter behave as newly constructed and leaves the coefficients unchanged.", "quantifier": "all histories", "why_tests_cant": "unbounded histories", "anchors": ["include/dsp/biquad.hpp: reset"]}
{"id": "C42", "title": "Switching forms mid-stream changes the output", "statement": "the state kept by step_df2 and step_df2_transposed is not interchangeable: there are histories after which continuing with the other form gives another output.", "quantifier": "existence over histories", "why_tests_cant": "a negative interchangeability claim", "anchors": ["include/dsp/biquad.hpp: step_df2, step_df2_transposed"]}
{"id": "C43", "title": "Poles and zeros are the roots", "statement": "poles() returns the two complex roots of z^2 + a1 z + a2, zeros() those of b0 z^2 + b1 z + b2 (b0 != 0): each is a root, sum and product match the coefficients.", "quantifier": "all coefficients", "why_tests_cant": "continuous input space, complex square root branches", "anchors": ["include/dsp/biquad.hpp: solve, BiQuadT::poles, zeros"]}
{"id": "C44", "title": "Stability test", "statement": "is_stable() holds exactly when |a2| <= 1 and |a1| <= 1 + a2; it accepts filters with poles on the unit circle, some of which have an unbounded response to a bounded input.", "quantifier": "all coefficients", "why_tests_cant": "continuous input space", "anchors": ["include/dsp/biquad.hpp: is_stable"]}
{"id": "C45", "title": "Zero/pole/gain construction", "statement": "A biquad constructed from conjugate or real zeros, poles and gain has exactly the transfer function k (z-z1)(z-z2)/((z-p1)(z-p2)); with a non-real first root the second root is ignored.", "quantifier": "all zero/pole/gain values", "why_tests_cant": "continuous input space", "anchors": ["include/dsp/biquad.hpp: to_coeff, BiQuadT(zeros,poles,k)"]}
{"id": "C46", "title": "Biquad swap", "statement": "swap exchanges coefficients and state of two filters and is its own inverse.", "quantifier": "all filters", "why_tests_cant": "all states", "anchors": ["include/dsp/biquad.hpp: BiQuadT::swap"]}
{"id": "C47", "title": "Cascade is a bounded list of sections", "statement": "append, insert, remove, replace, clear on a biquad_cascade act as on a list of sections: the sequence of sections observable through coeff_a/coeff_b/state/size/iteration is the list obtained by the corresponding list operations, for every operation history that respects the preconditions.", "quantifier": "all operation histories, all capacities", "why_tests_cant": "unbounded histories", "anchors": ["include/dsp/biquad-cascade.hpp: append, insert, remove, replace, clear, size"]}
{"id": "C48", "title": "Cascade capacity", "statement": "size() never exceeds reserved() and an operation violating a precondition stops the program (assert) on desktop; on AVR, where assert is empty, append on a full cascade writes outside the object.", "quantifier": "all operation histories", "why_tests_cant": "undefined behaviour and aborts", "anchors": ["include/dsp/biquad-cascade.hpp: append, insert", "include/dsp/biquad.hpp: assert (lines 19-23)"]}
{"id": "C49", "title": "Cascade insert cannot extend", "statement": "insert(i, bq) is rejected for i == size(), in particular always on an empty cascade.", "quantifier": "all cascades", "why_tests_cant": "precondition over all states", "anchors": ["include/dsp/biquad-cascade.hpp: insert"]}
{"id": "C50", "title": "Cascade step is the composition of its sections", "statement": "step(cascade,x) feeds each section with the previous section's output, in order, each section stepped exactly once; an empty cascade is the identity. Processing a sequence through the cascade equals processing the whole sequence section after section.", "quantifier": "all cascades and input sequences", "why_tests_cant": "unbounded sequences and sizes", "anchors": ["include/dsp/biquad-cascade.hpp: step, step_df2, step_df2_transposed"]}
{"id": "C51", "title": "Cascade response", "statement": "response(cascade,f) is the product of the sections' responses, independent of their order; empty cascade responds 1.", "quantifier": "all cascades, all frequencies", "why_tests_cant": "unbounded sizes", "anchors": ["include/dsp/biquad-cascade.hpp: response", "include/dsp/biquad.hpp: response"]}
{"id": "C52", "title": "Cascade stability", "statement": "is_stable(cascade) holds exactly when all sections are stable.", "quantifier": "all cascades", "why_tests_cant": "unbounded sizes", "anchors": ["include/dsp/biquad-cascade.hpp: is_stable"]}
{"id": "C53", "title": "Cascade reset and clear", "statement": "reset(cascade) resets every section and keeps all coefficients; clear() empties the cascade.", "quantifier": "all histories", "why_tests_cant": "unbounded histories", "anchors": ["include/dsp/biquad-cascade.hpp: reset, clear"]}
{"id": "C54", "title": "Section order does not matter from rest", "statement": "two cascades holding the same sections in different order give the same output sequence from rest (exact arithmetic).", "quantifier": "all permutations, cascades, input sequences", "why_tests_cant": "unbounded sizes and sequences", "anchors": ["include/dsp/biquad-cascade.hpp: step"]}
{"id": "C55", "title": "One-pole step response", "statement": "the one-pole filter's output is y[n] = b0 x[n] - a1 y[n-1]; |a1|<1 bounds the output by |b0| X/(1-|a1|) for inputs bounded by X, for ever.", "quantifier": "all coefficient sets, input sequences", "why_tests_cant": "unbounded sequences", "anchors": ["include/dsp/onepole.hpp: step"]}
{"id": "C56", "title": "One-pole stability and pole report", "statement": "poles() reports 7 for every filter and is_stable() is always true, also for filters whose output diverges.", "quantifier": "all coefficients", "why_tests_cant": "universal statement about wrong answers", "anchors": ["include/dsp/onepole.hpp: solve, poles, is_stable"]}
{"id": "C57", "title": "One-pole designs", "statement": "for all 0<f<fs/2: the low-pass design has unit gain at DC and is strictly stable, the high-pass design has unit gain at Nyquist and is strictly stable.", "quantifier": "all frequencies", "why_tests_cant": "continuous input space, transcendental functions", "anchors": ["include/dsp/onepole-design.hpp: low_pass, high_pass"]}
{"id": "C58", "title": "Biquad low-pass and high-pass designs", "statement": "for all 0<f<fs/2 and Q>0: strictly stable; low pass gain 1 at DC, 0 at Nyquist; high pass 0 at DC, 1 at Nyquist; the gain at the corner frequency is Q.", "quantifier": "all frequencies and Q", "why_tests_cant": "continuous input space, transcendental functions", "anchors": ["include/dsp/biquad-design.hpp: biquad_design low_pass, high_pass"]}
{"id": "C59", "title": "Biquad band-pass and band-stop designs", "statement": "for all 0<f<fs/2 and Q>0: strictly stable; band pass gain 0 at DC and Nyquist and 1 at f; band stop 1 at DC and Nyquist and 0 at f; the two are complementary (sum to 1 at every frequency).", "quantifier": "all frequencies and Q", "why_tests_cant": "continuous input space", "anchors": ["include/dsp/biquad-design.hpp: biquad_design band_pass, band_stop"]}
{"id": "C60", "title": "Decibel helpers", "statement": "dbP_factor inverts dbP for ratios >= 1; dbV_factor does not invert dbV: it halves the power factor instead of taking its square root (factor 0.5 at 0 dB); it is right for exactly one positive gain (20 log10 2 dB).", "quantifier": "all dB values", "why_tests_cant": "continuous input space", "anchors": ["include/dsp/filter-design.hpp: dbP, dbP_factor, dbV, dbV_factor"]}
{"id": "C61", "title": "Shelving and peaking designs", "statement": "all are strictly stable for 0<f<fs/2, Q>0; low shelf gain at DC is the factor V for boost and 1/V for cut (V as the library computes it), 1 at Nyquist; mirrored for high shelf; peak has V (1/V) at f and 1 at DC and Nyquist; because V=1/2 at 0 dB, the 0 dB designs are not flat.", "quantifier": "all frequencies, Q and dB values", "why_tests_cant": "continuous input space", "anchors": ["include/dsp/biquad-design.hpp: biquad_design low_shelf, high_shelf, peak_band_eq", "include/dsp/filter-design.hpp: dbV_factor"]}
{"id": "C62", "title": "Chebyshev sections are stable with unit gain at the end of the pass band", "statement": "every section produced by the Chebyshev type 1 and type 2 low-pass/high-pass designs is strictly stable and its response is exactly 1 at frequency 0 (low pass) or half the sampling frequency (high pass), for all specifications with separate bands, different losses and an order that fits in an int.", "quantifier": "all specifications, all section indices", "why_tests_cant": "unbounded order and continuous parameters", "anchors": ["include/dsp/chebyshev-design.hpp: chebyshev1_lp_hp, chebyshev2_lp_hp"]}
{"id": "C63", "title": "Chebyshev order, number of sections and capacity", "statement": "the order is the exact order rounded up and the design returns ceil(N/2) sections; building a cascade of capacity C succeeds with exactly these sections if ceil(N/2) <= C, otherwise the assertion stops the program (or, without assertions, it writes outside of the array); overlapping bands or exchanged losses are detected nowhere and evaluate acosh outside of its domain, touching bands divide by zero; edges at or above half the sampling frequency and other responses fail an assertion, without assertions other responses are designed as high pass.", "quantifier": "all specifications, all capacities", "why_tests_cant": "unbounded order", "anchors": ["include/dsp/chebyshev-design.hpp: chebyshev1_lp_hp, chebyshev2_lp_hp, make_biquad_cascade"]}
{"id": "C64", "title": "Chebyshev type 1 designs do not meet their specification", "statement": "the response of a type 1 design is (1+e^2)/(e^2+T_N^2) (even order; odd order likewise with an extra factor) with e the stop-band ripple parameter instead of the inverse pass-band one; an even-order filter amplifies in the pass band, meets the stop-band specification at its edge only if T_N^2 >= 1+e^2+e^4, and its reported -3 dB frequency is right for one pair of losses only; there are specifications whose stop band is violated and specifications whose pass band is violated.", "quantifier": "all specifications; existence for the violations", "why_tests_cant": "comparison over continuous parameters and unbounded order", "anchors": ["include/dsp/chebyshev-design.hpp: chebyshev1_lp_hp"]}
{"id": "C65", "title": "Integer ranges enumerate", "statement": "iterating range(a,b) with a<=b visits a, a+1, ..., b-1 in order, exactly b-a values, then stops, for all argument types whose common type holds both bounds (always so when their signedness agrees); indices(c) visits 0..size-1; range(a) starts at a and goes on without end, modulo 2^w for unsigned and wider, in int until its counter or value would overflow; range(a).step(s) visits a+k*s.", "quantifier": "all bounds", "why_tests_cant": "unbounded", "anchors": ["include/core/range.hpp: range, range_proxy, indices"]}
{"id": "C66", "title": "Stepped ranges", "statement": "range(a,b,s) with s>0 visits a+k*s for k=0.. while a+k*s<b, in order and exactly those; provided the value that ends the loop is representable (in int otherwise undefined behaviour, in unsigned it wraps around and continues below b); nothing for a>=b whatever the step; with s=0 and a<b it repeats a without end (in int until the step counter overflows); with s<0 and a<b it counts down until it overflows.", "quantifier": "all bounds and steps", "why_tests_cant": "unbounded", "anchors": ["include/core/range.hpp: step_range_proxy"]}
{"id": "C67", "title": "Reversed unit range never ends normally", "statement": "range(a,b) with a>b does not stop at once: in int it passes through every value up to the maximum and overflows; in unsigned and narrow types it wraps around and ends at b; range(-n,b) with an unsigned b starts at 2^w-n.", "quantifier": "all a>b", "why_tests_cant": "undefined behaviour after many iterations", "anchors": ["include/core/range.hpp: range_proxy, range_iter_base"]}
{"id": "C68", "title": "Text replacement", "statement": "replaced(text,from,to) replaces the first (leftmost) occurrence of from and nothing else; text without an occurrence is returned unchanged; an empty from puts to in front; line(n,c) is n copies of c and throws for negative n.", "quantifier": "all strings", "why_tests_cant": "unbounded strings", "anchors": ["include/core/text.hpp: replaced, line"]}
{"id": "C69", "title": "std20 algorithms", "statement": "copy, fill, equal and swap behave as the standard algorithms on all ranges: copy reproduces the source and touches nothing else (with the destination starting inside the source it repeats the beginning), fill likewise, it is defined exactly for ranges inside the memory; swap exchanges two objects, equal decides element-wise equality of equally long ranges.", "quantifier": "all ranges", "why_tests_cant": "unbounded", "anchors": ["include/std/algorithm.hpp: copy, fill, equal", "include/std/utility.hpp: swap"]}
{"id": "C70", "title": "AVR numeric limits", "statement": "on AVR min, max and digits are right for every integer type, but is_signed is reported true for unsigned types as well, so fixed_point accepts unsigned implementation types; the default number of fraction bits fills the digits left by the integer part.", "quantifier": "all integer types of the header", "why_tests_cant": "target specific", "anchors": ["include/std/limits.hpp: numeric_limits"]}
{"id": "C71", "title": "Register field write and read back", "statement": "writing a value to a bit field of a read-write register and reading the field gives the value modulo 2 to the number of bits of the field (for a one-bit field 1 unless the value is 0), and no other bit of the register changes, for every field position, width, register content and value; no other register changes. trigger() writes back what it reads with the one bit set.", "quantifier": "all fields, contents, values", "why_tests_cant": "2^8..2^16 contents times all fields and values", "anchors": ["include/mcu/register.hpp: bitfield_t::write, bitfield_t::read, rw_t"]}
{"id": "C72", "title": "Bit masks", "statement": "rngmask(hi,lo) has exactly the bits lo..hi set, bitmask(b...) exactly the given bits, and the _n forms their complements within the register width.", "quantifier": "all bit positions", "why_tests_cant": "all widths", "anchors": ["include/mcu/register.hpp: bitmask, bitmask_n, rngmask, rngmask_n"]}
{"id": "C73", "title": "Combined lazy writes", "statement": "joining lazy writes of disjoint fields of one register with the comma operator and in-range values performs one bus write and has the same final register content as performing the writes one after another, for any number of fields.", "quantifier": "all chains of fields, values, contents", "why_tests_cant": "unbounded chains", "anchors": ["include/mcu/register.hpp: write_proxy, operator,"]}
{"id": "C74", "title": "Out-of-range values leak in combined writes only", "statement": "with a value wider than its field a single write keeps the excess out, a combined lazy write can set bits of another field of the chain, never bits outside the joined fields.", "quantifier": "all fields and values", "why_tests_cant": "input-space wide", "anchors": ["include/mcu/register.hpp: operator,, write_proxy"]}
{"id": "C75", "title": "Single-bit fields disagree between write and lazy write", "statement": "writing an even non-zero value to a one-bit field sets it with write and clears it with write_lazy; for 0 and 1 they agree.", "quantifier": "all values", "why_tests_cant": "input space", "anchors": ["include/mcu/register.hpp: bitfield_t::write, write_lazy"]}
{"id": "C76", "title": "Clearing a write-one-to-clear flag", "statement": "on a register whose flags are cleared by writing ones, clear() of one flag clears all pending flags of the register.", "quantifier": "all register contents and flags", "why_tests_cant": "needs hardware semantics", "anchors": ["include/mcu/register.hpp: clearbit_w1, rc_w1_t", "include/mcu/atmega328.hpp: tc0::reg::tifr0, tc1::reg::tifr1"]}
{"id": "C77", "title": "Pin change interrupt flags are cleared the wrong way round", "statement": "clearing one pin-change flag leaves that flag pending and clears the other pending ones.", "quantifier": "all register contents and flags", "why_tests_cant": "needs hardware semantics", "anchors": ["include/mcu/atmega328.hpp: ei::reg::pcifr"]}
{"id": "C78", "title": "Timer waveform round trip", "statement": "setting the waveform of timer 0/1 and reading it back gives the same waveform exactly for waveforms 0..3; for others the value read back differs; the hardware bits are set correctly and other fields are preserved.", "quantifier": "all waveforms and register contents", "why_tests_cant": "tests run without hardware", "anchors": ["include/mcu/atmega328.hpp: tc0::output::current/set(waveform), tc1::output::current/set(waveform)"]}
{"id": "C79", "title": "Forcing a timer-1 compare corrupts the output mode", "statement": "set(tc1::control::compare::force::a/b) leaves the force-compare register untouched and instead sets a compare-output-mode bit of output a.", "quantifier": "all register contents", "why_tests_cant": "tests run without hardware", "anchors": ["include/mcu/atmega328.hpp: tc1::reg::tccr1c::foc1a, foc1b, tc1::control::compare::force::set"]}
{"id": "C80", "title": "Field writes to a register holding a write-one-to-clear flag", "statement": "any read-modify-write of a field of ADCSRA while the conversion-complete flag is pending clears that flag.", "quantifier": "all contents, fields, values", "why_tests_cant": "needs hardware semantics", "anchors": ["include/mcu/atmega328.hpp: adc::reg::adcsra", "include/mcu/register.hpp: w_t"]}
{"id": "C81", "title": "Atomic 16-bit access", "statement": "with interrupts that may run between any two instructions, mcu::atomic writes are seen by an interrupt routine only completely or not at all; an unguarded two-byte access can be torn.", "quantifier": "all interleavings", "why_tests_cant": "schedules cannot be enumerated by tests", "anchors": ["include/mcu/register.hpp: atomic, scoped_interrupt_guard"]}
{"id": "C82", "title": "Interrupt guards", "statement": "scoped_sreg restores the interrupt enable state found on entry; scoped_interrupt_guard (used by atomic) always leaves interrupts enabled, also when they were disabled before. Both hold through loops and early returns.", "quantifier": "all nestings and initial states", "why_tests_cant": "unbounded nesting", "anchors": ["include/mcu/register.hpp: scoped_interrupt_guard, atomic", "include/mcu/atmega328.hpp: core::scoped_sreg"]}
{"id": "C83", "title": "Two-wire write sends the address twice", "statement": "for every address and byte, a successful twi::sync::write puts start, address, address, stop on the bus; the byte never reaches the bus.", "quantifier": "all addresses, bytes, bus histories", "why_tests_cant": "tests run without hardware", "anchors": ["include/mcu/atmega328.hpp: twi::sync::detail::write"]}
{"id": "C84", "title": "Two-wire error paths", "statement": "twi::sync::write reports an error on any unexpected status and then leaves the bus without a stop condition; it reports success only after all three expected statuses.", "quantifier": "all bus status histories", "why_tests_cant": "unbounded bus behaviours", "anchors": ["include/mcu/atmega328.hpp: twi::sync::detail::write, expect_status"]}
{"id": "C85", "title": "Heartbeat dividers", "statement": "the timer interrupt's cascaded counters raise the 10 ms, 100 ms and 1 s events exactly every 10, 100 and 1000 interrupts, forever.", "quantifier": "all numbers of interrupts", "why_tests_cant": "unbounded histories", "anchors": ["example/avr/avr-adc-dac-isr-atmega.e.cpp: ISR(TIMER0_COMPA_vect)"]}
{"id": "C86", "title": "Mailbox", "statement": "a mailbox set by an interrupt is seen at least once by the polling loop, events raised before a poll are coalesced into one, and no event is reported without having been raised, for every interleaving.", "quantifier": "all interleavings", "why_tests_cant": "schedules", "anchors": ["example/avr/avr-adc-dac-isr-atmega.e.cpp: mbx"]}
{"id": "C87", "title": "Clamp", "statement": "the DAC value is within the limits for every input and equals the input when that is within the limits.", "quantifier": "all inputs", "why_tests_cant": "input space", "anchors": ["example/avr/avr-adc-dac-isr-atmega.e.cpp: clamp"]}
{"id": "C88", "title": "Strictly stable filters are bounded and forget", "statement": "for a filter whose poles lie strictly inside the unit circle, every bounded input sequence, however long, gives outputs below one bound that depends only on the filter, its state and the input bound; without input the output dies out geometrically.", "quantifier": "all coefficients, states, inputs and lengths", "why_tests_cant": "unbounded sequences", "anchors": ["include/dsp/biquad.hpp: BiQuadT::step"]}
{"id": "C89", "title": "response() is the steady-state response", "statement": "for a strictly stable filter fed with a sinusoid of any frequency, amplitude and phase from any state, the output approaches, geometrically, the sinusoid with amplitude and phase changed by the complex number response(bq, f/fs) reports.", "quantifier": "all coefficients, states, frequencies, amplitudes, phases", "why_tests_cant": "limit statement over unbounded sequences", "anchors": ["include/dsp/biquad.hpp: response, BiQuadT::step"]}
{"id": "C90", "title": "Cascades of strictly stable sections are bounded", "statement": "a cascade all of whose sections have their poles strictly inside the unit circle gives, for every bounded input sequence however long and from any state, outputs below one bound.", "quantifier": "all cascades, states, inputs and lengths", "why_tests_cant": "unbounded sequences", "anchors": ["include/dsp/biquad-cascade.hpp: step"]}
{"id": "C91", "title": "response() of a cascade is its steady-state response", "statement": "for a cascade of strictly stable sections fed with a sinusoid of any frequency, amplitude and phase from any state, the output approaches, geometrically, the sinusoid with amplitude and phase changed by the complex number response(cascade, f/fs) reports.", "quantifier": "all cascades, states, frequencies, amplitudes, phases", "why_tests_cant": "limit statement over unbounded sequences", "anchors": ["include/dsp/biquad-cascade.hpp: response, step"]}
{"id": "C92", "title": "Designs are bilinear transforms of analogue prototypes", "statement": "for every response type, 0<f<fs/2, Q>0 and gain, the frequency response of the designed section at every normalised frequency below Nyquist equals the analogue prototype of that type at j tan(pi fnorm)/tan(pi f/fs), and the section is strictly stable.", "quantifier": "all response types, frequencies, Q, gains", "why_tests_cant": "continuous input space, transcendental functions", "anchors": ["include/dsp/biquad-design.hpp: biquad_design"]}
{"id": "C93", "title": "Butterworth low and high pass", "statement": "with Q=1/sqrt 2 the low-pass gain is 1/sqrt(1+x^4) and the high-pass gain x^2/sqrt(1+x^4) with x the warped frequency ratio: half power at the requested corner, power complementary, and the low-pass gain strictly decreases with frequency.", "quantifier": "all corner, sampling and test frequencies", "why_tests_cant": "continuous input space", "anchors": ["include/dsp/biquad-design.hpp: biquad_design low_pass, high_pass", "include/dsp/filter.hpp: Lpf, Hpf"]}
{"id": "C94", "title": "Cut undoes boost", "statement": "a shelving or peaking section of -g dB is the exact inverse of the one of +g dB at every frequency.", "quantifier": "all gains, frequencies, Q", "why_tests_cant": "continuous input space", "anchors": ["include/dsp/biquad-design.hpp: biquad_design low_shelf, high_shelf, peak_band_eq"]}
{"id": "C95", "title": "response() of a one-pole filter is its steady-state response", "statement": "fed with a sinusoid of any frequency, amplitude and phase from any state, the deviation of the output from the sinusoid changed by response() is exactly |a1|^(n+1) times the initial deviation.", "quantifier": "all coefficients, states, frequencies, amplitudes, phases", "why_tests_cant": "unbounded sequences", "anchors": ["include/dsp/onepole.hpp: response, step"]}
{"id": "C96", "title": "Chebyshev type 2 response", "statement": "the cascade made from a type 2 design has the squared magnitude T_N(x)^2/(T_N(x)^2+e^2) at every frequency from 0 to half the sampling frequency, T_N the Chebyshev polynomial of the computed order, x the ratio of the prewarped stop-band edge and the prewarped frequency (inverse for a high pass) and e the stop-band ripple parameter.", "quantifier": "all specifications, all capacities, all frequencies", "why_tests_cant": "unbounded order and continuous parameters", "anchors": ["include/dsp/chebyshev-design.hpp: chebyshev2_lp_hp, make_biquad_cascade", "include/dsp/biquad-cascade.hpp: response"]}
{"id": "C97", "title": "Chebyshev type 2 designs meet their specification", "statement": "the cascade made from a type 2 design loses at most Apass dB at every frequency of the pass band (and never amplifies there) and at least Astop dB at every frequency of the stop band, both including the edges; the reported -3 dB frequency is the half-power frequency.", "quantifier": "all specifications, all capacities, all frequencies", "why_tests_cant": "unbounded order and continuous parameters", "anchors": ["include/dsp/chebyshev-design.hpp: chebyshev2_lp_hp, make_biquad_cascade", "include/dsp/biquad-cascade.hpp: response"]}
{"id": "C98", "title": "The band-stop design is an identity", "statement": "chebyshev2_bs returns no sections whatever is specified; the cascade made from it passes every signal unchanged.", "quantifier": "all specifications, capacities, inputs", "why_tests_cant": "a negative statement about all specifications", "anchors": ["include/dsp/chebyshev-design.hpp: chebyshev2_bs"]}
{"id": "C99", "title": "Settings of the peripherals", "statement": "each of the lazily written settings of timers, converter, comparator, external interrupts, two-wire interface, power and clock changes exactly its bits in its data-sheet register to the value given, reading it back gives the value, flags pending in the same register are cleared and nothing else changes; several settings of one register joined with | act together in one store.", "quantifier": "all settings, values, register contents", "why_tests_cant": "register contents times settings, no hardware in tests", "anchors": ["include/mcu/atmega328.hpp: set, current, tc0, tc1, adc, ac, ei, twi", "include/mcu/register.hpp: write_lazy, operator|"]}
{"id": "C100", "title": "Immediate settings and compare values", "statement": "the settings written at once change exactly their bits and are read back; the compare values of timer 0 and 1 are stored completely (one byte or two bytes) and nothing else changes.", "quantifier": "all settings, values, register contents", "why_tests_cant": "register contents times settings", "anchors": ["include/mcu/atmega328.hpp: tc0::compare, tc1::compare, set_now", "include/mcu/register.hpp: w_t"]}
{"id": "C101", "title": "Initialisation of PWM, converter and heartbeat", "statement": "from every register state the initialisations of the example leave the registers in the intended configuration and change nothing else; with the compare value 250 the timer needs 251 counts for a round, so the heartbeat is slower than a millisecond (1.004 ms at 16 MHz).", "quantifier": "all initial register contents, all accepted clock frequencies", "why_tests_cant": "needs hardware; all initial states", "anchors": ["include/mcu/atmega328.hpp: tc1_pwm_on_a_pb1", "example/avr/avr-adc-dac-isr-atmega.e.cpp: adc::init, beat::init"]}
{"id": "C102", "title": "LEDs", "statement": "switching an LED on, off or over changes exactly the bit of its pin in the port register, enabling it exactly the bit in the direction register; toggling twice restores everything.", "quantifier": "all ports, pins, register contents", "why_tests_cant": "needs hardware; all states", "anchors": ["include/mcu/atmega328.hpp: led, gpio"]}
{"id": "C103", "title": "Writing pins disturbs the port", "statement": "setting, clearing or toggling a bit through the pin register toggles every port bit whose written bit is one: setting a pin (meant to switch on a pull-up) flips all port bits whose pins are high and switches an active pull-up off.", "quantifier": "all ports, pins, register contents, pin levels", "why_tests_cant": "needs hardware semantics", "anchors": ["include/mcu/atmega328.hpp: gpio::inp"]}
{"id": "C104", "title": "Whole flag registers", "statement": "writing the whole flag register of timer 0 clears exactly the flags written as ones; the whole flag register of timer 1 can be neither read nor written (does not compile), and flags cannot be set, toggled or written.", "quantifier": "all values and contents", "why_tests_cant": "needs hardware; negative compile facts", "anchors": ["include/mcu/atmega328.hpp: tc0::reg::tifr0, tc1::reg::tifr1"]}
{"id": "C105", "title": "Two-wire initialisation", "statement": "twi::sync::init sets the bit rate, enables the interface with its other control bits off, keeps a pending flag, sets the prescaler to 1 whatever is asked for, leaves every other register alone, and switches each pull-up on exactly if the port bit equalled the level of the pin, so not at all on an idle bus after reset.", "quantifier": "all bit rates, prescalers and register states", "why_tests_cant": "tests run without hardware", "anchors": ["include/mcu/atmega328.hpp: twi::sync::init"]}
{"id": "C106", "title": "detail_x start and data", "statement": "in the alternative detail_x of the two-wire interface, data() after start() puts a second start condition on the bus and never the byte, for every byte and every state with the interface enabled.", "quantifier": "all bytes and register states", "why_tests_cant": "tests run without hardware", "anchors": ["include/mcu/atmega328.hpp: twi::sync::detail_x"]}
{"id": "C107", "title": "The converter program under all interleavings", "statement": "in every execution of the example program with its timer and converter interrupts, every value written to the analog output is a complete delivered measurement (or the initial zero) limited to 3..1023 and never a mixture of two; the LED is switched on only after a measurement of at least 512; there is at most one output in 1000 and one blink in 100 timer interrupts; the LED is toggled at most six times and exactly six times before any other output; and the program never ends. Interrupts are first enabled by the program's first step and are never disabled for more than six steps in a row; bytes of two-byte values move only while they are disabled.", "quantifier": "all interleavings of the main program with its interrupt routines, all measurements, unbounded executions", "why_tests_cant": "schedules and unbounded executions", "anchors": ["example/avr/avr-adc-dac-isr-atmega.e.cpp: main, ISR(ADC_vect), ISR(TIMER0_COMPA_vect)", "include/mcu/register.hpp: atomic_read, atomic_write"]}
{"id": "C108", "title": "P is the covariance of the estimation error", "statement": "for random initial states, process and measurement noise with zero means, the covariances given to the estimator and no correlation between different times or kinds, the error of the estimate after every number of updates has mean zero and its covariance is exactly the matrix P of the estimator.", "quantifier": "all systems, inputs, probability spaces and noises of any distribution with these moments, all numbers of updates", "why_tests_cant": "a statement about expectations, not about single runs", "anchors": ["include/dsp/kalman.hpp: update, state_vector, error_covariance"]}
{"id": "C109", "title": "Best linear estimate", "statement": "under the same noise model no estimator that is an offset plus a weighted sum of the measurements has a smaller mean square error: for every such estimator the covariance of its error minus P is positive semidefinite, so its trace is at least that of P.", "quantifier": "all systems, noises, numbers of updates, all weights and offsets", "why_tests_cant": "optimality over an infinite set of competitors", "anchors": ["include/dsp/kalman.hpp: update"]}
{"id": "C110", "title": "White innovations", "statement": "under the same noise model the innovations z - H x- of different updates have mean zero and are uncorrelated, and the variance of each is H P- Ht + R.", "quantifier": "all systems, noises, pairs of updates", "why_tests_cant": "a statement about expectations", "anchors": ["include/dsp/kalman.hpp: update"]}
{"id": "C111", "title": "Monotonicity and bounds of the covariance", "statement": "a larger initial covariance, process noise or measurement noise gives a larger covariance after every update (in the order of quadratic forms); a matrix that is not increased by an update bounds the covariance for ever; in the simulation the variance of the position stays below 19.1 and that of the velocity below 0.45 for ever.", "quantifier": "all systems, covariances, histories of any length", "why_tests_cant": "unbounded histories, order on matrices", "anchors": ["include/dsp/kalman.hpp: update", "example/avr/avr-kalman-sim.e.cpp: main"]}
{"id": "C112", "title": "Information form", "statement": "with each measurement the inverse of the covariance grows by Ht H / R, the determinant of the covariance shrinks by the factor R / (H P- Ht + R), and the gain equals P+ Ht / R.", "quantifier": "all systems with nonzero R and innovation covariance, all states", "why_tests_cant": "algebraic identity over all inputs", "anchors": ["include/dsp/kalman.hpp: gain, correct, update"]}
{"id": "C113", "title": "Only noise ratios matter", "statement": "multiplying Q, R and the initial P by one nonzero factor leaves all gains and estimates unchanged and multiplies all covariances by the factor.", "quantifier": "all systems, factors, histories", "why_tests_cant": "all histories", "anchors": ["include/dsp/kalman.hpp: update"]}
{"id": "C114", "title": "Change of state coordinates", "statement": "describing the same system in other coordinates x' = T x (T invertible, with the matrices transformed accordingly) gives the transformed estimates, covariances and gains after every history.", "quantifier": "all systems, invertible T, histories", "why_tests_cant": "all histories and coordinate systems", "anchors": ["include/dsp/kalman.hpp: update"]}
{"id": "C115", "title": "Repeated measurement of a constant", "statement": "for a constant state n measurements are equivalent to a single measurement of their mean with variance R / n; the variance of the measured quantity is at most R / n, and neither the order of the measurements nor the inputs matter.", "quantifier": "all initial states and covariances, all lists of measurements", "why_tests_cant": "lists of any length", "anchors": ["include/dsp/kalman.hpp: update"]}
{"id": "C116", "title": "Two measurements at once or in sequence", "statement": "for uncorrelated measurement errors an update with two measurements gives the same estimate and covariance as two updates with one measurement each, the second without time passing.", "quantifier": "all systems, states, measurements", "why_tests_cant": "algebraic identity between two code paths", "anchors": ["include/dsp/kalman.hpp: gain (M=1, M=2), update"]}
{"id": "C117", "title": "Exact tracking in every numeric type", "statement": "if the state evolves exactly as the model in the arithmetic of the numeric type and the measurement is H times the state, an estimator started at the state equals the state bit for bit after every update that is defined, in spite of all rounding; fixed point of every format, int and idealised double have the needed property.", "quantifier": "all numeric types with a-a=0, a*0=0, (a+b)+0=a+b where defined; all systems, inputs, numbers of updates", "why_tests_cant": "all formats and run lengths", "anchors": ["include/dsp/kalman.hpp: update", "example/avr/avr-kalman-sim.e.cpp: main", "include/num/fixed-point.hpp: operators"]}
{"id": "C118", "title": "The simulation program", "statement": "the simulation without noise makes 50 updates and ends with the state and the estimate at exactly 1250 m and 50 m/s; in 32-bit fixed point it does the same without undefined behaviour.", "quantifier": "the whole program, over the reals and in fixed_point<int32_t,15>", "why_tests_cant": "the real-number program cannot be run", "anchors": ["example/avr/avr-kalman-sim.e.cpp: main"]}
{"id": "C119", "title": "The simulation as built for the microcontroller", "statement": "with fp32_t and 16-bit int no fraction bits remain: 0.2 becomes 0, the gain is 0 after every update and the estimate is independent of all measurements (dead reckoning); the program ends at 1225 m instead of 1250 m.", "quantifier": "all histories of inputs and measurements", "why_tests_cant": "all histories; needs the target's int", "anchors": ["example/avr/avr-kalman-sim.e.cpp: fp32_t, main", "example/avr/mk-avr-kalman-sim.e.py", "include/num/fixed-point.hpp: template parameters"]}
{"id": "C120", "title": "The desktop simulation: plots, noise, symmetry", "statement": "the value plotted as velocity error covariance is the covariance of position and velocity, not the variance of the velocity; the simulated process noise has covariance accelnoise^2 diag(dt^4/4, dt^2), not the Q given to the estimator; in fixed point rounding makes the covariance asymmetric.", "quantifier": "all states; all noise distributions with these moments", "why_tests_cant": "expectations; all states", "anchors": ["example/desktop/kalman-sim.e.cpp: process_noise, main", "include/dsp/kalman.hpp: update"]}
{"id": "C121", "title": "Register map agrees with the data sheet", "statement": "every named register and field of the register header has the address, bit position, width and kind of access the register summary of the ATmega328P data sheet gives to the register or bit of that name; fields of one register do not overlap; the pointers X, Y, Z are the pairs of general purpose registers R27:R26, R29:R28, R31:R30. Exceptions: the force-compare bits of timer 1 are placed in TCCR1A, TWWC is declared writable though read-only, TWINT is declared twice.", "quantifier": "all 131 fields without parameter, all fields with parameter", "why_tests_cant": "addresses and bit numbers are invisible to tests off the target; a test on the target exercises only what it uses", "anchors": ["include/mcu/atmega328.hpp: register definitions"]}
{"id": "C122", "title": "What a field's policy allows", "statement": "which operations on a field compile is exactly what the policy's documentation says, for single bits and for several; nothing that changes a read-only field compiles and reading it changes no memory.", "quantifier": "all fields, policies, operations, values, states", "why_tests_cant": "what must not compile cannot be called by a test", "anchors": ["include/mcu/register.hpp: io policies", "include/mcu/register.hpp: field operations"]}
{"id": "C123", "title": "Blinking programs", "statement": "the light changes after every 457000 nop instructions, or after every 1000th timer interrupt, and no register is changed but those of the light and timer 0; with the compare value set by the program a thousand interrupts take 1.004 s, not 1 s.", "quantifier": "all initial register contents, any number of rounds or interrupts", "why_tests_cant": "unbounded executions on the target", "anchors": ["example/avr/avr-blink-led.e.cpp: main", "example/avr/avr-blink-led-isr.e.cpp: init_timer0_1ms, ISR, main"]}
{"id": "C124", "title": "Fading program", "statement": "the brightness follows a triangle wave 0, 1, ..., 1023, 1022, ..., 1 with period 2046, timer 0 gets a quarter of it, output B of timer 1 the complement, the light shows the last sample of pin 0 of port D; no other register or bit changes.", "quantifier": "all initial register contents, all pin signals, any number of rounds", "why_tests_cant": "unbounded executions on the target; all pin signals", "anchors": ["example/avr/avr-fade-led.e.cpp: init_timer0_pwm, init_timer1_pwm, delay_ms, main"]}
{"id": "C125", "title": "Conversion in an interrupt", "statement": "however conversions interleave with the main loop, the light is decided by a value really converted, never by bytes of two values, and by the latest but for at most five instructions; interrupts are never left off; for a steady value the light is steady and right except for 513, 514, 515, where it flickers for ever. The initialisation does not select channel 0 if bit 1 of the channel was set; led(false) puts the light on.", "quantifier": "all interleavings, all 10-bit values, all initial register contents", "why_tests_cant": "torn reads depend on the interleaving", "anchors": ["example/avr/avr-adc-isr.e.cpp: init_adc, guarded, led, main, ISR"]}
{"id": "C126", "title": "The numeric types calculate up to rounding", "statement": "an operation of fixed_point, double or float whose exact result is not larger than the largest number is defined (no overflow, no infinity, no nan) and off by at most: nothing for sums and differences and one step for products in fixed point; the relative error 2^-53 (2^-24) and for products the underflow 2^-1075 (2^-150) in double (float). In fixed point a product can really be off by almost a step.", "quantifier": "all formats, all operands", "why_tests_cant": "all pairs of operands", "anchors": ["include/num/fixed-point.hpp: operators", "include/dsp/biquad.hpp: step"]}
{"id": "C127", "title": "One-pole filter with rounding", "statement": "a one-pole filter with |a1| < 1 and inputs bounded so that there is room never overflows, however long it runs, and its outputs never differ from those of the exact filter with the same coefficients by more than a constant: in fixed point 2 steps / (1 - |a1|).", "quantifier": "all coefficients, formats, inputs of any length; fixed point, double, any rounding arithmetic", "why_tests_cant": "error bounds for signals of any length", "anchors": ["include/dsp/onepole.hpp: step"]}
{"id": "C128", "title": "Second order sections with rounding", "statement": "a strictly stable section has a finite recursion gain G; with room for its signals it never overflows and its outputs never differ from those of the exact section by more than (2 B G + 3) steps in direct form and 5 G steps in transposed form, where B is the sum of |b0|, |b1|, |b2|; correspondingly for double.", "quantifier": "all coefficients, formats, inputs of any length; fixed point, double, any rounding arithmetic", "why_tests_cant": "error bounds for signals of any length", "anchors": ["include/dsp/biquad.hpp: step_df2, step_df2_transposed"]}
{"id": "C129", "title": "Filters with rounding need not come to rest", "statement": "without input the exact filter decays to 0, but in fixed point a one-pole filter with a1 = -(1 - step) keeps every state between 0 and 1 for ever, and in double a pole of 3/4 keeps the smallest positive number for ever.", "quantifier": "all formats with fraction bits, all such states, any number of steps", "why_tests_cant": "unbounded executions", "anchors": ["include/dsp/onepole.hpp: step", "include/num/fixed-point.hpp: operator*"]}
{"id": "C130", "title": "Cascades with rounding", "statement": "a cascade whose sections have room for their signals never overflows and its output never differs from that of the exact sections one after the other by more than the accumulated error, in which each section amplifies the error of its input by its gain and adds its own.", "quantifier": "all cascades, coefficients, inputs of any length, any rounding arithmetic", "why_tests_cant": "error bounds for signals of any length", "anchors": ["include/dsp/biquad-cascade.hpp: step"]}
{"id": "C131", "title": "Exact tracking in floating point", "statement": "in any IEEE format, if every measurement is exactly what the estimator predicts, each estimate that is not nan is bit for bit the simulated state, whatever the covariance. The guard of inverted against 0 does not help: the inverse of a number smaller than 2^-1024 is infinite, and the estimate can become nan though all data are finite.", "quantifier": "all IEEE formats, initial states, covariances, inputs, any number of updates", "why_tests_cant": "all floating-point data and formats", "anchors": ["include/dsp/kalman.hpp: update", "include/num/matrix.hpp: inverted"]}
{"id": "C132", "title": "The simulation in double and float", "statement": "the simulation program ends after 50 updates with the position exactly 1250 and the velocity exactly 50; in double its covariance is positive definite but not symmetric (by less than 1e-15), in float it is symmetric.", "quantifier": "all bounds on the number of rounds from 50 on", "why_tests_cant": "the whole execution with IEEE rounding is followed by the kernel, termination included", "anchors": ["example/avr/avr-kalman-sim.e.cpp: main", "example/desktop/kalman-sim.e.cpp: main"]}
{"id": "C133", "title": "Two formulas for the covariance", "statement": "the covariance program's Joseph form keeps the covariance symmetric and positive semidefinite for every sequence of gains; it agrees with the short form exactly if the gain is 0 or optimal; with a gain 10 percent too large the short form gives a negative variance. The program itself ends after ten passes; its short form is negative and asymmetric from the first pass on, its Joseph form stays positive definite, though in float not symmetric; all printed values are within 1e-7 of the exact ones.", "quantifier": "all systems, gains and covariances; any number of passes", "why_tests_cant": "all gains and any number of passes", "anchors": ["example/desktop/covariance-error.e.cpp: main"]}
{"id": "C134", "title": "Products in every numeric type", "statement": "in every numeric type each entry of a matrix product, matrix-vector product, vector-matrix product and scalar product is the sum of products taken from the left, starting at zero, and is defined if these sums are.", "quantifier": "all numeric types, sizes (columns not more than rows), operands", "why_tests_cant": "all types and sizes", "anchors": ["include/num/matrix.hpp: operator*", "include/num/matrix.hpp: dot"]}
{"id": "C135", "title": "Products with rounding", "statement": "matrix and matrix-vector products with room for the sums of absolute values do not overflow, and each entry is off by at most: M steps in fixed point for M columns; 2 (M+1) 2^-53 times the sum of absolute values, plus underflow, in double; in general ((1+eps)^(M+1) - 1) times that sum plus M (1+eps)^M eta.", "quantifier": "all sizes, operands with room, all fixed-point formats, double, any rounding arithmetic", "why_tests_cant": "all operands", "anchors": ["include/num/matrix.hpp: operator*", "include/num/fixed-point.hpp: operator*"]}
{"id": "C136", "title": "Text of vectors and matrices", "statement": "the text of a matrix has one line for each row and in it, after a blank each, the text of every element in order; that of a vector has them between brackets. So it determines the shape and every element's text; the text of a number has neither blanks nor line ends.", "quantifier": "all shapes, elements and element texts without blanks; all floating-point numbers", "why_tests_cant": "all matrices", "anchors": ["include/num/matrix-io.hpp: operator<<", "include/core/vector-io.hpp: operator<<"]}
{"id": "C137", "title": "Text of numbers", "statement": "read as a decimal number, the text of a finite float or double has at most six significant digits, is off by at most 5e-6 of its value, and no number with six digits is closer; infinities and nan are no numbers; a fixed-point number is printed like its exact value, and up to 16 bits different numbers have different texts; with 32 bits they need not.", "quantifier": "all finite floats and doubles, all fixed-point formats and values", "why_tests_cant": "all values", "anchors": ["include/num/fixed-point-io.hpp: operator<<", "include/core/vector-io.hpp: operator<<"]}
{"id": "C138", "title": "The recorded simulation output", "statement": "whatever the random numbers are, the simulation program in double prints exactly the matrices, gains and covariances recorded in kalman-sim.out.txt. For some random numbers of at most 10 in magnitude it prints the whole recorded file, digit for digit, except that the file has an end of line after each vector; no random numbers make the present program print the file itself.", "quantifier": "all sequences of random numbers", "why_tests_cant": "the recorded run shows one sequence of random numbers", "anchors": ["example/desktop/kalman-sim.e.cpp: main", "example/desktop/kalman-sim.out.txt"]}
{"id": "C139", "title": "Text of filters", "statement": "the text of a biquad shows coefficients, state, and the roots of both polynomials, and says stable exactly if its poles are in the closed unit disc; that of a cascade shows the number of sections and the room for them, says stable exactly if all are, and contains their texts in order. The text of a one-pole filter says always stable even if its response is unbounded, and shows 7 as its pole.", "quantifier": "all real coefficients, all cascades", "why_tests_cant": "all coefficients", "anchors": ["include/dsp/biquad-io.hpp: operator<<", "include/dsp/biquad-cascade-io.hpp: operator<<", "include/dsp/onepole-io.hpp: operator<<"]}
{"id": "C140", "title": "Ranges of floating-point numbers", "statement": "a loop over range( first, last, step ) of floats or doubles sees, in order, the values first + k * step with two roundings each, up to the first that reaches last; each is off by at most a relative 3 * 2^-prec however far the loop has come. A loop over range( a, b ) of integer values up to 2^prec sees a, a+1, ..., b-1. The loop never ends if more than 2^prec steps are needed (0 to 1e8 by 1 in float), if first or last is nan, if the step is not positive, or, without a step, if first is an integer and last is none or lies beyond 2^prec. range( first ) without last never ends and sees the same values.", "quantifier": "all IEEE formats, first, last, step; any number of rounds", "why_tests_cant": "all floating-point data; non-termination", "anchors": ["include/mcu/register.hpp: range, operator++, operator=="]}
{"id": "C141", "title": "The frequency axis of the desktop programs", "statement": "for N samples the programs' loop over [0, 0.5] runs N or N + 1 times and each sample is within 2^-51 of k * 0.5 / (N - 1). It need not be N: for N = 7 there is an eighth sample beyond 0.5. For the programs' own 101 and 201 it is exactly N and the last sample is exactly 0.5; the inner range stays strictly between.", "quantifier": "all N from 2 to 2^40", "why_tests_cant": "all sample counts", "anchors": ["example/desktop/biquad-design.e.cpp: main", "example/desktop/onepole.e.cpp: main", "include/mcu/register.hpp: range"]}
{"id": "C142", "title": "Two measurements bound the covariance", "statement": "if two successive measurements determine the state (observability), one bound holds for the covariance from the second update on, whatever it was initially and whatever is measured; for the simulation programs 100 for the position and 200.01 for the velocity. Without observability there is no such bound.", "quantifier": "all observable systems, initial covariances, histories of two or more updates", "why_tests_cant": "any initial covariance and any history", "anchors": ["include/dsp/kalman.hpp: update", "include/dsp/kalman.hpp: estimator"]}
{"id": "C143", "title": "The initial state is forgotten", "statement": "if moreover R > 0 and the process noise of two steps reaches every direction, then two estimators started from different states and given the same inputs and measurements approach each other at a geometric rate that depends on the system only. Without process noise they need not.", "quantifier": "all such systems (stable or not), initial covariances, states, histories", "why_tests_cant": "all histories, in the limit", "anchors": ["include/dsp/kalman.hpp: update", "include/dsp/kalman.hpp: estimator"]}
{"id": "C144", "title": "Steady state", "statement": "under the same conditions covariance and gain converge geometrically, whatever the initial covariance, to the only covariance that an update reproduces and to its gain; for the simulation programs the limits are, with t = sqrt 401, K = ((201 t - 401)/20000, (201 - t)/10000) the variances (201 t - 401)/200 = 18.12 and (t - 1)/50 = 0.38, the covariance (201 - t)/100.", "quantifier": "all such systems, initial covariances, histories", "why_tests_cant": "limits of unbounded runs", "anchors": ["include/dsp/kalman.hpp: update", "include/dsp/kalman.hpp: gain", "example/desktop/kalman-sim.e.cpp: main"]}
{"id": "C145", "title": "Bounded noise, bounded error", "statement": "under the same conditions, when in every step process noise and measurement noise are at most beta - in whatever direction, random or not - the error of the estimate is at most B beta plus a term that decays geometrically, B depending on the system only. An estimator set up with P = 0 and Q = 0 has no such bound.", "quantifier": "all such systems, true states, noise sequences, initial covariances and estimates", "why_tests_cant": "all noise sequences of any length", "anchors": ["include/dsp/kalman.hpp: update", "include/dsp/kalman.hpp: estimator"]}
{"id": "C146", "title": "Representation and value of fixed-point numbers", "statement": "from_rep( v ) makes the number v / 2^F. from_value( v ) stores its argument unchanged in a number with the same number of fraction bits, so the number made is v / 2^F too: it equals v only without fraction bits or for zero.", "quantifier": "all supported formats, all widths of the argument's type, all values", "why_tests_cant": "all values and formats", "anchors": ["include/num/fixed-point.hpp: to_rep, from_rep, from_value", "test/fixed-point.t.cpp:226-232"]}
{"id": "C147", "title": "The estimator computes what the MATLAB function computes", "statement": "for the same inputs, kalman.m and the C++ estimator return the same gain, estimate and error covariance (over the reals), with one measurement whenever the innovation variance is not zero, with two for symmetric covariances and a regular innovation covariance. With innovation variance zero the MATLAB function has no finite result while the C++ estimator returns its prediction. With an R that is not symmetric they differ.", "quantifier": "all systems, covariances, estimates, inputs and measurements", "why_tests_cant": "all real data", "anchors": ["example/matlab/kalman.m: kalman", "include/dsp/kalman.hpp: update"]}
{"id": "C148", "title": "The simulation computes what the MATLAB script computes", "statement": "for the same random numbers, the positions, velocities, measurements, estimates, gains and covariances collected by kalman-sim.e.cpp (over the reals) are those collected by kalman-sim.m, which makes one pass more: 51 against 50 (first:step:last lists the numbers first, first+step, ... not beyond last).", "quantifier": "all sequences of random numbers", "why_tests_cant": "all sequences of random numbers", "anchors": ["example/matlab/kalman-sim.m", "example/desktop/kalman-sim.e.cpp: main"]}
{"id": "C149", "title": "The desktop filter programs list the gains of the filter", "statement": "for a strictly stable filter and any list of frequencies, the text printed by biquad.e.cpp, biquad-cascade.e.cpp, onepole.e.cpp and print_pass of chebyshev-design.e.cpp consists of exactly the described lines: the heading, the filter's own text, the frequencies, the gains by which the filter multiplies sinusoids of these frequencies (after a transient that dies out geometrically), the same gains in decibels (-inf for gain 0), and the Octave commands; the gain at a frequency is a unique number.", "quantifier": "all strictly stable filters with b0 not 0, all frequencies, all titles without line ends, all number formats without line ends", "why_tests_cant": "all filters and frequencies", "anchors": ["example/desktop/biquad.e.cpp: print", "example/desktop/biquad-cascade.e.cpp: print", "example/desktop/onepole.e.cpp: print", "example/desktop/chebyshev-design.e.cpp: print_pass", "include/dsp/chebyshev-design-io.hpp: operator<<"]}
{"id": "C150", "title": "The filters of the desktop programs are what they are said to be", "statement": "up to 0.0001, the bi-quad filters of biquad.e.cpp have the pass band, ripple, stop band and attenuation of cheby1(2,3,0.4) and cheby2(2,10,0.4), and the second cascade of biquad-cascade.e.cpp those of cheby2(6,20,0.4), at every frequency; the one-pole filters of onepole.e.cpp are a low pass and its mirror image with gains falling from 1 to 1/39. The first cascade, said to be cheby1(6,3,0.4), has a ripple of 1 instead of 3 decibel.", "quantifier": "all frequencies of the bands", "why_tests_cant": "a continuum of frequencies", "anchors": ["example/desktop/biquad.e.cpp: main", "example/desktop/biquad-cascade.e.cpp: main", "example/desktop/onepole.e.cpp: main"]}
{"id": "C151", "title": "What is printed for a band design is another filter", "statement": "print_band prints the gains of one fixed cascade for every design it is given. It is the band pass of the comment in the source (gain 0.95 to 1 from 3/20 to 6/20, at most 0.05 up to 2.5/20 and from 6.5/20); of the band stop the program names it violates the stop band and both pass bands, and it differs from the cascade of the designed coefficients, which changes nothing.", "quantifier": "all coefficients, all frequencies of the bands", "why_tests_cant": "a continuum of frequencies, all coefficients", "anchors": ["example/desktop/chebyshev-design.e.cpp: print_band"]}
{"id": "C152", "title": "The Octave text of the design programs", "statement": "for every kind and arguments without brackets, biquad-design.e.cpp and onepole-design.e.cpp print, for the call they make, exactly the lines of C149 with the Octave text 'kind( arguments )'. In chebyshev-design.e.cpp the second namespace qualification remains, for every argument list, so that the Octave text is not a call of the Octave function; the name of the band pass is not translated.", "quantifier": "all kinds, arguments and coefficients of stable designs", "why_tests_cant": "all texts", "anchors": ["example/desktop/biquad-design.e.cpp: print", "example/desktop/onepole-design.e.cpp: print", "example/desktop/chebyshev-design.e.cpp: print_pass", "example/desktop/chebyshev-design.e.cpp: print_band"]}
{"id": "C153", "title": "Conversion between fixed-point and floating-point numbers, bit for bit", "statement": "the constructor from a float or double stores the rounded value of 2^F times the argument, as IEEE arithmetic of the type computes it, and is undefined exactly if the sum of that product and one half does not fit or is no number; in double this agrees with the conversion of C32 for all finite arguments. From a float it is at most one step off; a number of at most 2^23 steps survives the conversion to float and back. An odd number of steps between 2^23 and 2^24, although exact in float, comes back changed by one step; beyond that it is rounded by up to 64 steps, and the 63 largest 32-bit numbers cannot be converted back (undefined). In double every number survives.", "quantifier": "all supported formats, all floats and doubles including infinities and nan, all stored values", "why_tests_cant": "all bit patterns", "anchors": ["include/num/fixed-point.hpp: fixed_point( float ), fixed_point( double )", "include/num/fixed-point.hpp: as, as_double"]}
{"id": "C154", "title": "Constant data", "statement": "when input and measurement stay the same - consistent with each other or not - the estimate converges geometrically, from any state and covariance, to the only state that an update in the steady state (C144) leaves as it is. If the data are those of a state that does not move, that is the state.", "quantifier": "all observable and controllable systems with R > 0, inputs, measurements, initial states and covariances", "why_tests_cant": "limits of unbounded runs", "anchors": ["include/dsp/kalman.hpp: update", "include/dsp/kalman.hpp: estimator"]}
{"id": "C155", "title": "The timing program", "statement": "after n passes of its loop the light is on exactly if n is even and no other register than the direction and the output of its port has changed. The measurement is never renewed, so the estimate (over the reals) tends to 45.7 m and 9.5 m/s. Without gain updating (KE_UPDATE_KALMAN_GAIN=0) on AVR it is n^2/2 and n. As built with fp32_t for the microcontroller it is n(n-1)/2 and n for n up to 256; pass 257 overflows (undefined), with or without gain updating.", "quantifier": "all numbers of passes, initial contents of memory, numeric types (light)", "why_tests_cant": "unbounded number of passes", "anchors": ["time/avr-kalman-time.cpp: main", "time/avr-kalman-time.cpp: init_led, blink_led", "time/mk-avr-kalman-time.py"]}
{"id": "C156", "title": "The simulation in double computes what exact arithmetic computes", "statement": "for the same random numbers, finite and at most 10 in magnitude, kalman-sim.e.cpp compiled for double records 50 passes in which every number is finite and differs from what the program would record with exact arithmetic by at most 10^-9 (positions, velocities, measurements, estimates), 2 10^-16 (gains) and 2 10^-14 (covariances). It never agrees exactly.", "quantifier": "all sequences of random numbers (doubles) of magnitude up to 10", "why_tests_cant": "3 x 50 arbitrary doubles; accumulation of rounding errors", "anchors": ["example/desktop/kalman-sim.e.cpp: main", "include/dsp/kalman.hpp: update"]}
{"id": "C157", "title": "The simulation in fixed point against exact arithmetic", "statement": "for random numbers of at most 10 in magnitude, kalman-sim.e.cpp compiled for fp32_t, as its build script does, never overflows and records 50 passes that differ from what it would record with exact arithmetic by at most 0.08 m (position, measurement), 0.004 m/s (velocity), 0.45 m and 0.07 m/s (estimates), 0.0003 (gains) and 0.025 (covariances). Gains and covariances are the same numbers for all random numbers, and the covariances are off by more than 0.021. Without the bound the run is undefined.", "quantifier": "all sequences of random numbers (doubles) of magnitude up to 10", "why_tests_cant": "3 x 50 arbitrary doubles; accumulation of rounding errors; overflow", "anchors": ["example/desktop/kalman-sim.e.cpp: main", "example/desktop/mk-kalman-sim.py", "include/num/fixed-point.hpp: operator*, operator/, fixed_point( double )", "include/dsp/kalman.hpp: update"]}
{"id": "C158", "title": "Type traits on AVR", "statement": "remove_reference, remove_const, remove_volatile and remove_cv give the one type without reference or qualifier from which the given type is made; is_same is equality of types; move gives an rvalue reference to its argument's type. is_integral is right where it compiles, which is for ten types (not bool, char, short, nor any qualified type); is_signed is true for the unsigned ones too. So fixed_point accepts on AVR the unsigned types against its stated requirement and rejects short, and has multiplication and division for three types only.", "quantifier": "all types made of fundamental types, classes, pointers, arrays and references", "why_tests_cant": "infinitely many types; compile errors are not observable by a test that must compile", "anchors": ["include/std/type_traits.hpp: remove_reference, remove_cv, is_same, is_integral, is_signed, enable_if", "include/std/limits.hpp: numeric_limits", "include/std/utility.hpp: move", "include/num/fixed-point.hpp: fixed_point, promote"]}
{"id": "C159", "title": "Filter designs in floating point", "statement": "with a tangent accurate to two units in the last place, the low pass, high pass, band pass and band stop designs compute, for frequencies up to a quarter of the sample frequency, finite coefficients within 105 2^-53 (float: 105 2^-24) of the exact ones, the first within a relative 52 2^-53 (2^-24). In double every such filter from the 2^26th part of the sample frequency up to 49% of it with Q from 1/2 to 65536 is stable, and the low pass passes a constant within 1/2000 from the 2^20th part up. In float (which double is on AVR) this holds from the 4000th part up and Q up to 64 (within 1% from the 200th part up); it is false at the 20000th: a 1 Hz low pass at 20 kHz has a pole outside the unit circle. The one-pole designs are stable and pass a constant (low pass) or half the sample frequency (high pass) within 2^-53 (2^-24).", "quantifier": "all floats and doubles f, fs, Q in the given ranges, all tangent and exponential functions of the given accuracy", "why_tests_cant": "all bit patterns; the mathematical library differs between platforms", "anchors": ["include/dsp/biquad-design.hpp: biquad_design_method<low_pass>, <high_pass>, <band_pass>, <band_stop>", "include/dsp/filter-design.hpp: prewarp", "include/dsp/onepole-design.hpp: onepole_design_method"]}
{"id": "C160", "title": "Inclusion of headers", "statement": "for every combination of compiler flags and every sequence of #include lines of library headers without std/tuple.hpp, preprocessing succeeds, each header reached contributes its text exactly once and including it again adds nothing, and a header that is included and does not lead back comes, with all it reaches, before the text that includes it. Every name needed is declared before exactly if the cycle filter, biquad-design, filter-design is not entered at biquad-design.hpp, no biquad or one-pole filter is included on AVR, and no register header elsewhere. The functions that the biquad designs call are found exactly if the cycle is entered at filter.hpp or biquad-design.hpp. All programs but biquad-design.e.cpp satisfy the first condition; that one is ill-formed. std/tuple.hpp lacks an #endif and can never be included.", "quantifier": "all sequences of headers, all combinations of AVR, MSVC and C++17, all macros on the command line", "why_tests_cant": "infinitely many orders of inclusion; an ill-formed program has no run time", "anchors": ["include: all headers", "include/dsp/filter.hpp: Lpf, Hpf", "include/dsp/biquad-design.hpp: biquad_design_method", "include/dsp/filter-design.hpp: prewarp", "include/std/tuple.hpp", "example/desktop/biquad-design.e.cpp"]}
{"id": "C161", "title": "Shelf and peak designs in floating point", "statement": "with library functions accurate to two units in the last place, low shelf, high shelf and peak designs with gains g up to 40 dB compute, for frequencies up to a quarter of the sample frequency, finite coefficients off from the exact ones by at most 90 2^-53 times b0 (b1: twice that) in the numerator, 180 2^-53 for a1 and 90 2^-53 for a2, a boost for g >= 0 and a cut otherwise; where double has 24 bits, 2^-24 instead of 2^-53. Up to 49% of the sample frequency the filters are stable: in double from the 2^19th part of it up with Q from 1/2 to 4096, with 24 bits from the 400th part up, gains up to 12 dB and Q up to 10.", "quantifier": "all doubles g, f, fs, Q in the given ranges, all tangent, square root and power functions of the given accuracy", "why_tests_cant": "all bit patterns; the mathematical library differs between platforms", "anchors": ["include/dsp/biquad-design.hpp: biquad_design_method<low_shelf>, <high_shelf>, <peak_band_eq>", "include/dsp/filter-design.hpp: dbP_factor, dbV_factor, prewarp"]}
{"id": "C162", "title": "Stability test and construction from zeros and poles in floating point", "statement": "is_stable() accepts a biquad if all polynomials with coefficients within 32 2^-53 (float: 2^-24) of its a1, a2 have both roots in the closed unit disc, and rejects it if none within 64 2^-53 has; in between the answer may be wrong: correctly rounded library functions do not stop it from accepting a filter with a pole outside. A biquad made from zeros, poles and gain has b0 = k, and coefficients off from those of the exact polynomials by at most 1 to 5 units of rounding; if both poles have magnitude at most 1 - 2^-23 (float: 1 - 2^-9) is_stable() accepts it, but two real poles of magnitude up to 1 - 2^-30 (float: 1 - 2^-13) can yield an unstable filter.", "quantifier": "all finite coefficients, zeros and poles up to 2^508 (float: 2^60), all complex square roots and magnitudes accurate to a unit in the last place", "why_tests_cant": "all bit patterns; the mathematical library differs between platforms", "anchors": ["include/dsp/biquad.hpp: solve, poles, is_stable, to_coeff, BiQuadT( z, p, k )"]}
{"id": "C163", "title": "Matrices of int: exact or overflow", "statement": "Every operation on matrices of a w-bit int gives what unbounded integers give, or overflows. A product A * B of NxM matrices, M <= N, is defined exactly if all products of elements and all partial sums from the first term on fit in w bits; then each element is the exact sum. If one does not, it overflows, even where the result would fit. The identity matrix is neutral on both sides for all matrices of int.", "quantifier": "all widths, sizes and integer elements", "why_tests_cant": "all values of all elements for every size; sanitisers see single runs", "anchors": ["include/num/matrix.hpp: operator+, -, *, dot, inverted, eye"]}
{"id": "C164", "title": "AVR initializer list and matrices made from it", "statement": "From begin() to end() an initializer list gives exactly the elements in braces, in order, and size() of them; a default list is empty and copying from it does nothing. A matrix made from a list of at most N M elements has these elements row by row and zero after them; no other memory changes, the array of the list included, and the result is that of the model of matrices. More elements overwrite the memory behind the matrix.", "quantifier": "all element types, element values, sizes and positions in memory", "why_tests_cant": "all sizes and memory contents; overwriting a neighbour may go unnoticed in a test", "anchors": ["include/std/utility.hpp: initializer_list, begin, end", "include/num/matrix.hpp: matrix( std::initializer_list<T> )", "include/std/algorithm.hpp: copy"]}
{"id": "C165", "title": "What covariance-error prints", "statement": "covariance-error.e.cpp ends after ten passes and prints exactly 80 lines: for t = 0 to 9 the covariances in the short form and in Joseph's form, six significant digits each. From t = 1 on the short form has a negative variance and is not symmetric, Joseph's form is symmetric with positive variances.", "quantifier": "every run (the program has no input)", "why_tests_cant": "the text depends on every rounding of the loop and of the conversion to decimal", "anchors": ["example/desktop/covariance-error.e.cpp: main", "include/num/matrix-io.hpp: operator<<"]}
{"id": "C166", "title": "Complex numbers on AVR", "statement": "A program that uses std20::complex<T> of the AVR branch does not link if it uses any operator + - * / (unary, binary or compound), abs or sqrt; otherwise its behaviour is undefined if it assigns a complex number as a whole, although the value is stored; otherwise constructors, copies, real(), imag() and the setters do what they say.", "quantifier": "all programs of declarations, setters, assignments and operators, all types T and values", "why_tests_cant": "infinitely many programs; a program that does not link cannot be tested, and undefined behaviour may look right", "anchors": ["include/std/complex.hpp: complex, operator=, real, imag, operator+, operator-, operator*, operator/, abs, sqrt"]}
{"id": "C167", "title": "What matrix and range programs print; loops that break", "statement": "matrix.e.cpp prints exactly the 69 lines of its captions and results; below inverted(A) stands the transposed inverse. range.e.cpp ends after at most 23 passes per loop and prints exactly its eight lists. A loop over range( a ).step( s ) that breaks at a condition runs its body for a, a + s, ... up to and with the first value that meets it, if the numbers involved fit in the type; if they cease to fit before, the loop overflows instead of going on for ever.", "quantifier": "every run (the programs have no input); for the loops all types, starts, steps and conditions", "why_tests_cant": "the text depends on rounding and conversion; infinitely many loops, overflow may go unnoticed", "anchors": ["example/desktop/matrix.e.cpp: main", "example/desktop/range.e.cpp: main", "include/core/range.hpp: range, step", "include/num/matrix-io.hpp: operator<<"]}
{"id": "C168", "title": "The constant pi", "statement": "The literal behind num::pi<T> has the first 40 decimals of pi. pi<double>, pi<float> (rounded twice on the desktop) and both on AVR, where double has 24 binary digits, are the numbers of their format nearest to pi. pi<long double> is not: as the literal is a double, it is off by more than 2^-53.", "quantifier": "all numbers of the formats (none is nearer)", "why_tests_cant": "a comparison with a reference constant trusts that constant; no test ranges over all floating-point numbers", "anchors": ["include/num/constants.hpp: pi"]}
