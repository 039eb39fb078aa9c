# Formal model of kalman-estimator: design and trusted base

Source: `/repo` (C++17, header only). Model and proofs: Rocq/Coq 8.16.1 in
`rocq/theories` (logical name `Verif`). Nothing in `/repo` was built or run.

## Layout

| kind of file | content |
|---|---|
| `Base.v`, `Scalars.v`, `Matrix.v`, `Kalman.v`, `FixedPoint.v`, `FixedIEEE.v` (first part), `Biquad.v`, `Cascade.v`, `OnePole.v`, `Design.v`, `Chebyshev.v`, `Range.v`, `Text.v`, `Algorithm.v`, `Limits.v`, `Register.v`, `AtmegaRegs.v`, `Atmega.v`, `Interrupt.v`, `Twi.v`, `AdcDac.v`, `KalmanSim.v`, `AvrExamples.v`, `Ieee.v`, `KalmanIeee.v`, `Output.v`, `RangeFloat.v`, `FixedRep.v`, `Matlab.v`, `FilterPrograms.v`, `FixedFloat.v`, `TimeProgram.v`, `FixedSim.v`, `TypeTraits.v`, `DesignIeee.v`, `Include.v`, `ShelfIeee.v` | the **model**: total functions, each with a comment naming file and lines it transcribes and any simplification |
| `...Spec.v` | what correct behaviour is, written without the model's helpers: 2×2 linear algebra and textbook Kalman equations, difference equations, analogue prototypes, Chebyshev polynomials, arithmetic progressions, bit fields, bus events |
| `...Proofs.v`, `BiquadStability.v`, `CascadeSteady.v`, `ChebProduct.v`, `ChebyshevDesign.v`, `PolyPositive.v`, `FixedSimBounds.v`, `DesignRoundingProofs2.v`, `ShelfProofs2.v` | lemmas |
| `Props....v` | the theorems `Cnn_...` of `MANIFEST.json`, each followed by `Print Assumptions` and an `Example` with concrete data that meets its hypotheses |

`properties.jsonl` holds the properties, `MANIFEST.json` the theorems for each,
`seeded/LOG.jsonl` the wrong programs the theorems were tested against.

## How the code is modelled

* **Undefined behaviour is an outcome.** Functions return `outcome A = Ok a | Err why`;
  `why` is access outside an object, use of an indeterminate value, signed overflow,
  division by zero, bad shift, failed assertion, domain error or exception. No
  precondition is assumed silently: theorems state which outcome there is.
* **The numeric type is a parameter.** A record `scalar` of operations, which may
  themselves fail, stands for `T`. Instances: every commutative ring, the reals
  (idealised `double`), unbounded and bounded integers, fixed point. Theorems that need
  no arithmetic law are proved for *every* `scalar`, hence also hold for IEEE `double`
  and `float`.
* **`double`, idealised and real.** Theorems that name `R_scalar` are about exact real
  arithmetic. `Ieee.v` instantiates the same code with binary64 and binary32 (Flocq);
  theorems about `double_scalar`, `float_scalar` and any `rounding` arithmetic, the
  conversion of `float` and `double` to fixed point (`FixedFloat.v`, `FixedIEEE.v`) and everything about fixed point
  include rounding.
* **Storage cells** may be indeterminate (`None`): the desktop default constructor of
  `matrix` does not initialise.
* **Loops** of the source are the loops of the model: same range, same order; loops that
  need not end are observed with a bound (`fuel`) over which theorems quantify.
* **Templates that do not compile** when instantiated are `None` (register policies
  lacking a member, joined writes of different registers).
* **Platforms** are parameters where they matter: width of `int`, C++ standard for left
  shifts, with or without assertions, initialised or uninitialised storage.
* **Registers** are bytes in memory; every access is recorded in order with its width, so
  that theorems can say which registers are *not* accessed. Flags cleared by writing ones
  and toggling through pin registers are part of the hardware function `atmega`.
* **Interrupts** run between any two instructions, if enabled, and may do anything to
  memory (`Interrupt.v`) or are the program's own routines (`AdcDac.v`). The two-wire
  interface is an arbitrary function of the whole history of accesses.

## Trusted base

1. The kernel of Coq 8.16.1 (`coqc`; `coqchk` was run on the result).
2. The axioms `Print Assumptions` lists, all of the standard library: for 218 of the
   501 theorems none; otherwise one of these sets, given per theorem below:
   * **R**: `ClassicalDedekindReals.sig_forall_dec`,
     `FunctionalExtensionality.functional_extensionality_dep` (the real numbers);
   * **R+**: R and `ClassicalDedekindReals.sig_not_dec`;
   * **RC**: R+ and `Classical_Prop.classic` (trigonometric and hyperbolic functions,
     Flocq).
   No axiom is added, no kernel check switched off, nothing is admitted, and there are no
   functors or module types. (The list of axioms the build check prints is longer because
   it names every axiom any *loaded* library declares.)
3. That the model is the code. Each definition cites the lines it transcribes; the
   transcription itself, the reading of C++17 and of what avr-gcc and avr-libc do, and the
   parts of the ATmega328 data sheet in `Atmega.v`, `AtmegaSheet.v`, `Twi.v`, `TwiSpec.v` are trusted. As a check, `RepoTests.v` evaluates
   the expectations of the project's unit tests on the model; all hold.

## What is modelled and what is not

| source | model | left out |
|---|---|---|
| `num/matrix.hpp` | `Matrix.v`, all functions | `constexpr` |
| `dsp/kalman.hpp`, `time/avr-kalman-time.cpp` (estimator) | `Kalman.v`, 2 states, 1 or 2 measurements, 1 or 2 inputs | other dimensions do not compile in the source (`inverted` exists for scalars and 2×2) |
| `time/avr-kalman-time.cpp` (`main`, light) | `TimeProgram.v` | duration of a pass |
| `num/fixed-point.hpp` | `FixedPoint.v`, `FixedIEEE.v`, `FixedRep.v`, `FixedFloat.v` | in `FixedPoint.v` and `FixedIEEE.v` overflow of the scaled number to infinity; `FixedFloat.v` has it |
| `dsp/biquad.hpp`, `biquad-cascade.hpp`, `onepole.hpp`, `filter.hpp` | `Biquad.v`, `Cascade.v`, `OnePole.v`; with rounding: C126–C130, `PolesIeee.v` | rounding of zeros and of evaluation at a frequency |
| `dsp/biquad-design.hpp`, `onepole-design.hpp`, `filter-design.hpp`, `chebyshev-design.hpp` | `Design.v`, `Chebyshev.v` over the reals; `DesignIeee.v` (four responses, one pole) and `ShelfIeee.v` (shelves, peak; for `double` or an all-`double` target) with rounding | rounding of Chebyshev designs and of shelves for desktop `float`; band pass and band stop of Chebyshev are stubs in the source (modelled as such) |
| `std/complex.hpp` (AVR) | `AvrComplex.v` | `constexpr`; converting between number types in programs. The filters use own complex numbers (`Biquad.v`) |
| `num/constants.hpp` | `Constants.v` | integer and fixed-point types as `T` |
| `core/range.hpp` | `Range.v`, all ranges, for any integer types | |
| `std/type_traits.hpp` (AVR branch), `std/utility.hpp` (move), `num/fixed-point.hpp` (`num_require`, `promote`) | `TypeTraits.v` | functions, pointers to members, arrays of unknown bound as types |
| `core/text.hpp`, `std/algorithm.hpp`, `std/utility.hpp` (swap, initializer_list), `std/limits.hpp` | `Text.v`, `Algorithm.v`, `InitList.v`, `Limits.v` | `float` limits |
| `mcu/register.hpp` | `Register.v`, `Interrupt.v`, all | |
| `mcu/atmega328.hpp` | `AtmegaRegs.v` (every register and field), `Atmega.v` (settings, flags, waveforms, pins, initialisations), `Twi.v`, `AdcDac.v` | changes the hardware makes by itself except interrupts and answers of the two-wire interface; timing in clock cycles |
| `example/avr/avr-adc-dac-isr-atmega.e.cpp` | `AdcDac.v`, whole program | commented-out code |
| `example/avr/avr-kalman-sim.e.cpp`, `example/desktop/kalman-sim.e.cpp`, `mk-avr-kalman-sim.e.py` (numeric type), `mk-kalman-sim.py` (numeric type) | `KalmanSim.v`, `FixedSim.v` | random number generator (draws are arbitrary) |
| `example/avr/avr-blink-led.e.cpp`, `avr-blink-led-isr.e.cpp`, `avr-fade-led.e.cpp`, `avr-adc-isr.e.cpp` | `AvrExamples.v` | instruction timing; `init_spl`, never called |
| `example/desktop/covariance-error.e.cpp` | `KalmanIeee.v`, `CovText.v` (text) | |
| preprocessor directives of all headers, names by which headers depend on each other | `Include.v` | headers of the standard library; names within one header |
| `core/range.hpp` for `float` and `double`, loops of the desktop filter and design programs | `RangeFloat.v` | excess precision (`FLT_EVAL_METHOD` other than 0) |
| `matrix-io.hpp`, `vector-io.hpp`, `fixed-point-io.hpp`, `biquad-io.hpp`, `biquad-cascade-io.hpp`, `onepole-io.hpp`, output of `kalman-sim.e.cpp` | `Output.v`: the text as a string, for a stream in its initial state; `os << double` is modelled as `%g` with six digits, correctly rounded | filters are printed over the reals with a parameter for the text of a number; `sizeof` of a cascade is a parameter |
| `example/matlab/kalman.m`, `kalman-sim.m` | `Matlab.v`, over the reals | text and figures |
| `test/*.t.cpp` | `RepoTests.v`: the expectations, evaluated on the model | |
| `example/desktop/biquad.e.cpp`, `biquad-cascade.e.cpp`, `onepole.e.cpp`, `biquad-design.e.cpp`, `onepole-design.e.cpp`, `chebyshev-design.e.cpp`, `dsp/chebyshev-design-io.hpp` | `FilterPrograms.v`: what `print` prints, over the reals with a parameter for the text of a number; the filters of `main` | `print_ISP` |
| `example/desktop/range.e.cpp`, `matrix.e.cpp` | `ExampleText.v`, whole programs | |

## Findings

Claims one would expect of the code and that were proved false, or behaviours proved that
a user would not expect. The number is the property.

* C09, C26: `inverted` of a 2×2 matrix returns the transposed inverse; with a symmetric
  innovation covariance this is harmless. A singular one divides by zero (no guard, unlike
  the scalar case, C20).
* C22, C23: the gain `K` is not initialised on the desktop; the timing variant with gain
  updating off reads it (undefined), and on AVR ignores all measurements.
* C14, C36: in fixed point the covariance loses its symmetry; products are rounded down, so
  the ring laws fail.
* C29: `T(1)` is minus one when there are no integer bits. C30: dividing a negative
  fixed-point number shifts a negative value left, undefined in C++17.
* C32: adding 0.5 before truncating is wrong for the double next to one half.
* C37: `fixed_point<int,15>` has no fraction bits on AVR.
* C39: direct form 2 and its transposed form disagree in fixed point. C42: switching form in
  the middle is noticed by every strictly stable filter.
* C44: `is_stable` accepts poles on the unit circle, with unbounded output.
* C48, C49: without assertions a full cascade is overrun; `insert` cannot append with
  assertions but does without.
* C56: one-pole filters always report the pole 7 and are always stable. Its zpk constructor
  and `operator/` do not compile when instantiated.
* C57: the one-pole corner is too low (π where 2π is meant), and with C's integer `abs` the
  gain is not normalised.
* C60, C61: `dbV_factor` is wrong but for one ratio; shelves and peaks of 0 dB have gain 1/2.
* C63, C64: Chebyshev type 1 designs use the stop-band loss for the ripple, the wrong corner
  in the odd section, no gain correction for even order and a wrong -3 dB frequency;
  overlapping bands, exchanged losses and touching bands are not detected; without
  assertions other responses are designed as high pass. C98: the band-stop design is the
  identity.
* C65-C67: `range(a,b)` with a > b does not stop at once; open and stepped ranges overflow
  inside in `int`; a zero step does not end; `range(-1, unsigned)` starts at the top.
* C68: `line` with a negative size throws.
* C70: on AVR `is_signed` is true for unsigned types, so `fixed_point` accepts them.
* C74: a value too large for its field leaks into the other field of a joined write.
  C75: `write(2)` sets, `write_lazy(2)` clears a one-bit field.
* C76: clearing one flag clears all flags of the register. C77: clearing a pin change flag
  keeps it and clears the others. C80: settings in ADCSRA, ACSR, TWCR lose a pending
  interrupt.
* C78: waveforms from four on read back wrong. C79: forcing a compare of timer 1 changes the
  output mode instead. C100: `current` of a compare value returns nothing. C104: the whole
  flag register of timer 1 cannot be used. C103: setting a pin through PINx toggles others.
* C82: `scoped_interrupt_guard` always enables interrupts, so a nested guard opens the outer
  section.
* C83, C84: two-wire `write` sends the address twice and never the byte, leaves the bus
  without stop after an error and can wait for ever. C105: its initialisation ignores the
  prescaler and does not switch pull-ups on. C106: `detail_x::data` sends another start.
* C101: the heartbeat is 1.004 ms.
* C119: built with `fp32_t` for the 16-bit target, the simulation has no fraction bits; its
  estimator ignores every measurement and ends 25 m off.
* C120: the desktop simulation plots the covariance of position and velocity as the
  velocity's error covariance, and its process noise does not have the covariance Q; in
  fixed point the covariance becomes asymmetric (C14 holds over the reals).
* C121: FOC1A and FOC1B are declared at the address of TCCR1A; TWWC, read-only, is declared
  writable; TWINT is declared twice.
* C123: the interrupt-driven blinking has period 1.004 s. C125: `init_adc` clears MUX2 twice
  and MUX1 never, so it may leave channel 2 selected; `led` ignores its argument; comparing
  ten bits with 512 and eight with 128 disagree for 513 to 515, where the light flickers.
* C129: rounding keeps filters from coming to rest: in fixed point a one-pole filter with
  pole 1 - step keeps any state in (0, 1) for ever.
* C131: `inverted` guards against 0 only; the inverse of a smaller number than 2^-1024 is
  infinite and makes the estimate nan.
* C132: in double the covariance of the simulation is not symmetric. C133: the short form of
  the covariance update, used by the estimator, gives a negative variance for a gain that is
  10 percent too large; in float not even the Joseph form stays symmetric.
* C137: six digits do not distinguish all 32-bit fixed-point numbers (2^24 and 2^24 + 1 steps
  print the same). C139: a one-pole filter is printed as always stable with pole 7, whatever
  its coefficients.
* C140: ranges of floating-point numbers may have no end although last can be reached: 0 to
  1e8 by 1 in `float`, 0 to 0.5 without a step. C141: the frequency axis has one sample too
  many for some sample counts (7, 22, 25, ...), though not for those used.
* C09: the project's own test (matrix.t.cpp) expects the transposed inverse, so it does not
  reveal the error.
* C146: `from_value( 123 )` does not make 123 but 123 / 2^F.
* C147: with innovation variance zero the estimator and its MATLAB model part. C148: the
  script makes one pass more than the program.
* C150: the cascade that biquad-cascade.e.cpp calls cheby1(6,3,0.4) is cheby1(6,1,0.4).
* C151: chebyshev-design.e.cpp shows a fixed band pass in place of the band stop it names.
* C152: the Octave text it prints for low and high pass still contains `dsp::`; the name of
  the band pass design is not translated.
* C153: converting to `float` and back (on AVR also to `double` and back) changes an odd
  number of steps above 2^23 by one step although `float` holds it exactly, and is undefined
  for the largest 32-bit numbers.
* C155: as built with `fp32_t` for the microcontroller the timing program overflows in pass
  257. Its build script mk-avr-kalman-time.py names a source file, kalman-time-avr.cpp, that
  does not exist (it is avr-kalman-time.cpp).
* Simulation in fixed point (C157): as `mk-kalman-sim.py` builds it, the covariance of the
  position is off by 0.02 and the estimates may be off by decimetres, much more than the
  resolution of 1/65536; a random number of 32768 makes the run undefined. The build script
  names a source file, kalman-sim.cpp, that does not exist (it is kalman-sim.e.cpp).
* Recorded output (C138): `kalman-sim.out.txt` has an end of line after each vector that the
  present `core/vector-io.hpp` does not write: no run of the present program prints the file.
  Everything else in it, every digit, is reproduced by the model with suitable random numbers.
* Type traits on AVR (C158): `numeric_limits` says `is_signed` for unsigned types, so
  `fixed_point<unsigned,...>` is accepted although the code requires a signed type; `short`,
  `bool`, `char` and every qualified type are compile errors instead of an answer.
* Low cutoff frequencies in `float` (C159): the coefficients of a low pass for 1 Hz at
  20 kHz, computed in `float` (the only floating-point type on AVR), have a pole outside the
  unit circle: 1 + a1 + a2 is -2^-24 instead of 10^-7. From the 4000th part of the sample
  frequency up, rounding is harmless.
* Circular inclusion (C160): `filter.hpp`, `biquad-design.hpp` and `filter-design.hpp` include
  each other. Entered at `biquad-design.hpp`, as `biquad-design.e.cpp` does, the text of
  `filter.hpp` comes before `FilterResponse` and `biquad_design`, which it names: the program
  is ill-formed (a compiler that does not check templates before use may accept it; the
  properties of that program elsewhere presuppose one). Entered at `filter-design.hpp`, the
  designs cannot be instantiated for `float` or `double`, because `prewarp` is declared after
  them. Only `filter.hpp` first is right.
* `std/tuple.hpp` lacks an `#endif` and cannot be included (C160).
* On AVR `biquad.hpp` and `onepole.hpp` name `std20::polar`, which `complex.hpp` declares only
  elsewhere; `mcu/register.hpp` names `std20::is_same_v`, declared only on AVR (C160).
* `is_stable()` may accept a filter with a pole just outside the unit circle, and a filter made
  from two real poles within 2^-30 (`float`: 2^-13) of the circle can be unstable, although both
  poles given are inside (C162).
* On AVR a program with any operator on complex numbers, `abs` or `sqrt` does not link, and every
  assignment of a complex number reaches the end of `operator=` without `return` (C166).
* `num::pi<long double>` has the accuracy of `double` only (C168).

Noticed but not formalised: `operator/( AT )` of the one-pole filter names a member that
does not exist; the unary `+` for AVR complex numbers takes any type and returns `complex` of
it; `compare::current` lacks a `return`; the Octave text of the design
programs uses `b` and `a`, which it does not define.

## Per property

For each property: what is modelled and how it is proved, then the theorems with their file
and axiom set. Full statements are in `properties.jsonl`, the exact claims in the files.

### C01 Matrix element addressing is row-major, isolated and unchecked

`at2`, `set2`, `at1`, `set1` on a list of N*M cells, any T, N, M; by arithmetic on row-major positions.

* `C01_matrix_addressing` (`PropsMatrix.v`, no axioms): Read-back, frame, row-major position and exact bounds, for reads and writes.

### C02 Initializer-list construction

All constructors, with the AVR and the desktop default; loop invariants over the number of cells.

* `C02_matrix_construction` (`PropsMatrix.v`, no axioms)

### C03 Element-wise operators

The element-wise operators; loop invariant: cells before the index are done, the others untouched.

* `C03_matrix_elementwise` (`PropsMatrix.v`, no axioms)

### C04 Square matrix product is the mathematical product

`mul_mm` by a triple loop invariant against a finite sum; the algebra follows from the ring laws of the element type.

* `C04_square_product` (`PropsMatrix.v`, no axioms): The product of square matrices is the mathematical one.
* `C04_product_associative` (`PropsMatrix.v`, no axioms)
* `C04_product_distributes` (`PropsMatrix.v`, no axioms)
* `C04_eye_neutral` (`PropsMatrix.v`, no axioms)

### C05 Rectangular products leave their operands

`mul_mm` on rectangular operands: the type forces both to be N×M, so the inner index leaves the array or the result is something else than the product; stated exactly.

* `C05_rectangular_products` (`PropsMatrix.v`, no axioms)

### C06 Dot, outer and matrix-vector products

Row×column, column×row, matrix×column, row×matrix by loop invariants.

* `C06_vector_products` (`PropsMatrix.v`, no axioms)
* `C06_matrix_vector_associative` (`PropsMatrix.v`, no axioms)

### C07 Transposition

`transposed` by a loop invariant; product rule from C04.

* `C07_transposed` (`PropsMatrix.v`, no axioms)
* `C07_transposed_product` (`PropsMatrix.v`, no axioms)

### C08 Scalar inversion never divides by zero

`inverted` of a scalar and of 1×1 for every T.

* `C08_scalar_inverse` (`PropsMatrix.v`, R)
* `C08_no_division_by_zero` (`PropsMatrix.v`, no axioms): For every numeric type: a value that compares equal to zero is never used as a divisor.

### C09 2x2 inversion returns the transpose of the inverse

`inverted` of 2×2 over the reals: equal to the transposed inverse; refuted as inverse with the matrix of the project's own test.

* `C09_inverted_22_is_transposed_inverse` (`PropsMatrix.v`, R): The result, transposed, is the inverse; the result itself is the inverse exactly for symmetric matrices; singular matrices divide by zero.
* `C09_inverted_22_refuted` (`PropsMatrix.v`, R): The claim the function's name makes is false: the library's own test matrix.

### C10 Identity matrix

`eye` for all sizes.

* `C10_eye` (`PropsMatrix.v`, no axioms)

### C11 One update is one textbook Kalman step

`update` unfolded by symbolic execution to the textbook step on reals (`KalmanSpec.v`); absence of undefined behaviour by induction over histories.

* `C11_textbook_step` (`PropsKalman.v`, R): one update is one textbook step
* `C11_no_undefined_behaviour` (`PropsKalman.v`, R): No history of updates has undefined behaviour, whatever the system.
* `C11_two_inputs` (`PropsKalman.v`, R): Two control inputs: the same step with [B u] a matrix-vector product.

### C12 Elapsed time

Time after a history by induction; for fixed point modulo the range.

* `C12_elapsed_time` (`PropsKalman.v`, R)
* `C12_elapsed_time_fixed` (`PropsFixed.v`, R): After [n] updates without undefined behaviour the time is [n] times the stored time step, modulo the range; exactly that when it is representable.

### C13 Gain and covariance do not depend on the data

Gain and covariance of two runs with different data are equal, by induction over histories, for every numeric type.

* `C13_data_independence` (`PropsKalman.v`, no axioms): For every numeric type, every number of measurements and inputs; initial state, inputs and measurements, control matrix and time step may all differ.

### C14 Covariance stays symmetric

Symmetry is kept by the textbook step, hence along histories; refuted in fixed point by a concrete run.

* `C14_symmetric` (`PropsKalman.v`, R)
* `C14_symmetric_fixed_refuted` (`PropsFixed.v`, no axioms)

### C15 Covariance stays positive semidefinite

Invariant `psd` over histories by the Joseph form (C17).

* `C15_positive_semidefinite` (`PropsKalman.v`, R)
* `C15_variances` (`PropsKalman.v`, R): In particular variances are never negative and the off-diagonal element is bounded by them.

### C16 A measurement never increases the uncertainty

Loewner order: the correction subtracts an outer product over S.

* `C16_measurement_reduces_uncertainty` (`PropsKalman.v`, R): a measurement never increases the uncertainty

### C17 Short covariance update equals the Joseph form at the computed gain only

Algebra of 2×2 matrices (`field`), and the converse for arbitrary gains.

* `C17_joseph_at_computed_gain` (`PropsKalman.v`, R): short and Joseph form agree exactly for the computed gain
* `C17_joseph_only_at_computed_gain` (`PropsKalman.v`, R): For an arbitrary gain [L] the two forms agree iff [L] is zero or satisfies the normal equation [L S = P H^T], i.e. is the computed gain.

### C18 The computed gain is optimal

Trace of the Joseph form is a square completed at the computed gain.

* `C18_gain_optimal` (`PropsKalman.v`, R)
* `C18_gain_unique` (`PropsKalman.v`, R): With positive innovation variance it is the only optimal gain.

### C19 Tracking of the modelled system

Error recursion by algebra; tracking by induction.

* `C19_error_recursion` (`PropsKalman.v`, R): Error recursion, in every state and for every noise.
* `C19_exact_tracking` (`PropsKalman.v`, R): No noise and exact initial estimate: exact tracking forever, for every system, every covariance parameters, every input sequence.

### C20 Zero innovation covariance is harmless

Both zero-innovation branches of `inverted` for scalars.

* `C20_zero_innovation_covariance` (`PropsKalman.v`, R): zero innovation covariance

### C21 Superposition

Linear combination of two runs with the same covariances by induction.

* `C21_superposition` (`PropsKalman.v`, R)

### C22 Gain before the first update

The gain member before the first update is indeterminate (desktop) or zero (AVR) and afterwards the computed one.

* `C22_gain_before_update` (`PropsKalman.v`, no axioms): the gain before and after the first update
* `C22_gain_after_update` (`PropsKalman.v`, no axioms)

### C23 Timing variant of the estimator

The timing copy of the estimator against `update`, for every numeric type.

* `C23_timed_variant_agrees` (`PropsKalman.v`, no axioms): Gain updating enabled: same gain, covariance, state for every numeric type; the clock stands still.
* `C23_timed_variant_frozen` (`PropsKalman.v`, no axioms): Gain updating disabled: gain and covariance never change.
* `C23_timed_variant_ignores_measurements` (`PropsKalman.v`, R): On AVR the measurements are then ignored; on a desktop the first update reads the indeterminate gain.
* `C23_timed_variant_desktop_undefined` (`PropsKalman.v`, R)

### C24 Corrected output lies between prediction and measurement

Corrected output is a convex combination, weights from S.

* `C24_convex_combination` (`PropsKalman.v`, R): the corrected output lies between prediction and measurement

### C25 Perfect measurements are honoured

R = 0 and S > 0: algebra.

* `C25_perfect_measurement` (`PropsKalman.v`, R)

### C26 Two-measurement estimator is correct although inverted is not

Two measurements: `inverted_22` gives the transposed inverse, harmless exactly for symmetric S.

* `C26_two_measurements` (`PropsKalman.v`, R)
* `C26_symmetric_preserved` (`PropsKalman.v`, R): The covariance stays symmetric, so the statement applies again after each update.
* `C26_singular_innovation_divides_by_zero` (`PropsKalman.v`, R): Singular innovation covariance: the division by the determinant is not guarded (unlike the single-measurement case, C20).
* `C26_needs_symmetric_R_refuted` (`PropsKalman.v`, R): Without symmetric [R] the result is not the textbook step.

### C27 Fixed-point values stay in range

Every operation ends in a `wrap` or in `Err`.

* `C27_values_in_range` (`PropsFixed.v`, R)

### C28 Fixed-point addition and subtraction

Arithmetic modulo 2^w; narrow types are computed in `int`.

* `C28_exact_when_representable` (`PropsFixed.v`, R)
* `C28_wraps_when_narrow` (`PropsFixed.v`, no axioms)
* `C28_overflow_undefined_when_wide` (`PropsFixed.v`, no axioms)

### C29 Fixed-point multiplication rounds down by less than one step

Floor of the exact product; neutral element; no undefined behaviour, by bounding the product in the promoted type.

* `C29_mul_rounds_down` (`PropsFixed.v`, R)
* `C29_mul_when_in_range` (`PropsFixed.v`, R): The representability hypothesis in terms of the represented numbers: the product lies between the smallest value and one step above the largest.
* `C29_mul_never_undefined` (`PropsFixed.v`, no axioms)
* `C29_one_neutral` (`PropsFixed.v`, R): [T(1)] is neutral as soon as there is an integer bit.
* `C29_one_without_integer_bits` (`PropsFixed.v`, R): Without integer bits (I = 0) the constant one is minus one.

### C30 Fixed-point division rounds towards zero by less than one step

Quotient towards zero; exact conditions for undefined behaviour.

* `C30_div_rounds_to_zero` (`PropsFixed.v`, R)
* `C30_div_undefined` (`PropsFixed.v`, no axioms)
* `C30_div_otherwise_defined` (`PropsFixed.v`, no axioms): Every other division is defined (and wraps if the result is not representable), except that C++17, the standard the repository is compiled with, leaves dividing a negative value undefined, because it is shifted left.

### C31 Integer conversion

Integer conversions both ways.

* `C31_integer_round_trip` (`PropsFixed.v`, R)
* `C31_integer_wraps` (`PropsFixed.v`, no axioms): Outside the representable integers the result is congruent modulo the range.
* `C31_as_truncates` (`PropsFixed.v`, R): [as<integer>] truncates towards zero, provided the stored integer fits.

### C32 Floating-point conversion

Nearest value over the reals; binary64 rounding of the actual computation with Flocq.

* `C32_nearest` (`PropsFixed.v`, R): Nearest representable value, ties away from zero.
* `C32_defined_odd_monotone` (`PropsFixed.v`, R): Defined exactly for the reals that round into the range; odd; monotone.
* `C32_double_exact_except_one` (`PropsFixedIEEE.v`, RC): For every double [x] whose scaled magnitude is below 2^50 (the type's range is below 2^31) the conversion computed in binary64 is the exact one, unless the scaled value is the double next to one half.
* `C32_double_nearest_refuted` (`PropsFixedIEEE.v`, RC): For that value the conversion gives one step although zero is the nearest.

### C33 Comparisons

Comparisons of storage against comparisons of values.

* `C33_comparisons` (`PropsFixed.v`, R)
* `C33_order` (`PropsFixed.v`, no axioms): Exactly one of <, ==, > holds; addition and subtraction preserve the order when they do not overflow.

### C34 Negation

Negation, its fixed point and its overflow.

* `C34_negation` (`PropsFixed.v`, R)

### C35 Representation round trip

`to_rep` and `from_rep`.

* `C35_representation` (`PropsFixed.v`, R)

### C36 Fixed-point arithmetic is not a ring

Error of distributivity; ring laws refuted by concrete values.

* `C36_distribution_error` (`PropsFixed.v`, R): Distributivity holds up to one step, in one direction.
* `C36_ring_laws_refuted` (`PropsFixed.v`, R): The ring laws fail without any overflow.

### C37 fixed_point<int,15> has no fractional bits on AVR

Default number of fraction bits with 16-bit `int`.

* `C37_avr_has_no_fraction` (`PropsFixed.v`, R): With [int] of 16 bits there are no fraction bits: every conversion gives an integer.

### C38 Direct form 2 realises the difference equation

Direct form 2 by induction over inputs against the difference equation, uniqueness included.

* `C38_difference_equation` (`PropsBiquad.v`, R): direct form 2 realises the difference equation
* `C38_equation_determines_output` (`PropsBiquad.v`, R): The equation determines the output: nothing else than [ys] satisfies it.

### C39 Direct form 2 and its transposed form agree from rest

Both forms have the same input/output relation over a ring; refuted in fixed point.

* `C39_forms_agree_from_rest` (`PropsBiquad.v`, R): direct form 2 and its transposed form agree from rest
* `C39_forms_agree_fixed_refuted` (`PropsBiquad.v`, no axioms): In fixed point they do not: the forms round different products.

### C40 Biquad is linear and time invariant

Linearity and time invariance by induction.

* `C40_linear` (`PropsBiquad.v`, R)
* `C40_linear_transposed` (`PropsBiquad.v`, R)
* `C40_time_invariant` (`PropsBiquad.v`, R)

### C41 Reset restores the power-on behaviour

Reset against construction.

* `C41_reset_is_new` (`PropsBiquad.v`, no axioms)

### C42 Switching forms mid-stream changes the output

State maps of both forms compared; equivalence derived from three impulse-like histories.

* `C42_switching_harmless_iff` (`PropsBiquad.v`, R): Switching from direct form 2 to the transposed form after some history and continuing goes unnoticed for every history exactly for the filters with [a2 = -1], [b1 = 1 + a1 b0], [b2 = - b0].
* `C42_stable_filters_notice` (`PropsBiquad.v`, R+): In particular no strictly stable filter allows it.

### C43 Poles and zeros are the roots

Quadratic formula as coded, with branch on the discriminant, against roots.

* `C43_poles` (`PropsBiquad.v`, R+): poles and zeros are the roots
* `C43_zeros` (`PropsBiquad.v`, R+)
* `C43_zeros_without_b0` (`PropsBiquad.v`, R+)
* `C43_vieta` (`PropsBiquad.v`, R+): Sum and product of the poles.

### C44 Stability test

`is_stable` against the closed unit disc; resonance witnesses.

* `C44_is_stable_iff` (`PropsBiquad.v`, R+)
* `C44_is_stable_answers` (`PropsBiquad.v`, R+)
* `C44_accepts_stable` (`PropsBiquad.v`, R+): It accepts every strictly stable filter ...
* `C44_bounded_output_refuted` (`PropsBiquad.v`, R+): ... and a filter with an unbounded response to a constant input.

### C45 Zero/pole/gain construction

Zpk constructor against products of linear factors.

* `C45_zpk` (`PropsBiquad.v`, R): The polynomials of the constructed filter have the given roots.
* `C45_second_root_ignored` (`PropsBiquad.v`, R): With a non-real first root the second one is not looked at.
* `C45_round_trip` (`PropsBiquad.v`, R+): Constructing from the poles of a filter gives its denominator back.

### C46 Biquad swap

`swap` of filters.

* `C46_swap` (`PropsBiquad.v`, no axioms)

### C47 Cascade is a bounded list of sections

Each modifying call simulates a list operation; sequences by induction.

* `C47_construction` (`PropsCascade.v`, no axioms)
* `C47_list_semantics` (`PropsCascade.v`, no axioms): Every history of modifying calls that respects the preconditions acts as on the list, whether assertions are compiled in or not.
* `C47_replace_returns_previous` (`PropsCascade.v`, no axioms): [replace] hands out the previous section.
* `C47_list_is_observable` (`PropsCascade.v`, no axioms): The list is determined by what is shown.

### C48 Cascade capacity

Assertions against preconditions; without assertions the write is out of bounds.

* `C48_violations_stop` (`PropsCascade.v`, no axioms): With assertions a call succeeds exactly when its precondition holds; the size never exceeds the capacity.
* `C48_size_within_capacity` (`PropsCascade.v`, no axioms)
* `C48_avr_append_overruns` (`PropsCascade.v`, no axioms): Without assertions (AVR) appending to a full cascade writes outside the array, and so does inserting into one.

### C49 Cascade insert cannot extend

`insert` at the end: refused with assertions, extends without.

* `C49_insert_cannot_extend` (`PropsCascade.v`, no axioms)
* `C49_avr_insert_extends` (`PropsCascade.v`, no axioms): Without assertions it does extend.

### C50 Cascade step is the composition of its sections

`step` as composition of the sections.

* `C50_step_composes` (`PropsCascade.v`, no axioms)
* `C50_empty_is_identity` (`PropsCascade.v`, no axioms): An empty cascade is the identity.

### C51 Cascade response

Product over the sections.

* `C51_response_is_product` (`PropsCascade.v`, R+)
* `C51_response_order_irrelevant` (`PropsCascade.v`, R+): The order of the sections is irrelevant, also for failure (a pole at the frequency).
* `C51_response_fails_iff` (`PropsCascade.v`, R+): It fails exactly when a section fails, by division by zero.

### C52 Cascade stability

Conjunction over the sections, combined with C44.

* `C52_stable_iff_all_sections` (`PropsCascade.v`, R+)
* `C52_stable_iff_coefficients` (`PropsCascade.v`, R+): The same in terms of the sections' coefficients: all poles in the closed unit disc.

### C53 Cascade reset and clear

`reset`, `clear`.

* `C53_reset` (`PropsCascade.v`, no axioms): [reset] zeroes all states and keeps all coefficients and the number of sections.
* `C53_reset_forgets` (`PropsCascade.v`, no axioms): After [reset] the cascade filters as it did when it was built from sections at rest.
* `C53_clear` (`PropsCascade.v`, no axioms)

### C54 Section order does not matter from rest

Impulse responses commute (convolution), so order does not matter from rest.

* `C54_order_irrelevant_from_rest` (`PropsCascade.v`, R)
* `C54_order_matters_otherwise` (`PropsCascade.v`, no axioms): Away from rest the order does matter: integer arithmetic, the states differ.

### C55 One-pole step response

Geometric series; sharpness by explicit inputs.

* `C55_difference_equation` (`PropsOnePole.v`, R): the difference equation and its bound
* `C55_bounded` (`PropsOnePole.v`, R)
* `C55_bound_is_sharp` (`PropsOnePole.v`, R): The bound cannot be improved: inputs of alternating or constant sign come as near to it as desired.
* `C55_reset_forgets` (`PropsOnePole.v`, no axioms): [reset] makes the filter forget its past, for every numeric type.

### C56 One-pole stability and pole report

The hard-coded pole 7.

* `C56_pole_report` (`PropsOnePole.v`, R): The pole of the filter is the root -a1 of z + a1; what is reported is right only when that happens to be 7.
* `C56_reported_stable_refuted` (`PropsOnePole.v`, R)

### C57 One-pole designs

Coefficients as coded; normalisation, corner frequency.

* `C57_low_pass` (`PropsOnePole.v`, RC): With the absolute value of floating-point numbers.
* `C57_high_pass` (`PropsOnePole.v`, RC)
* `C57_unit_gain_with_int_abs_refuted` (`PropsOnePole.v`, RC): If the unqualified [abs] is C's function for [int], the gain is not normalised.
* `C57_corner_is_half_power_refuted` (`PropsOnePole.v`, RC): The requested frequency is not the half-power frequency: the power is always below half there.

### C58 Biquad low-pass and high-pass designs

Symbolic evaluation of the design at DC, Nyquist and corner.

* `C58_low_pass` (`PropsDesign.v`, RC)
* `C58_high_pass` (`PropsDesign.v`, RC)
* `C58_filter_classes` (`PropsDesign.v`, RC): The filter classes of filter.hpp are these designs, in their initial state.

### C59 Biquad band-pass and band-stop designs

Likewise for band filters, complementarity by adding coefficients.

* `C59_band_pass` (`PropsDesign.v`, RC)
* `C59_band_stop` (`PropsDesign.v`, RC)
* `C59_complementary` (`PropsDesign.v`, RC)

### C60 Decibel helpers

Logarithms.

* `C60_power_factor_inverts_gain` (`PropsDesign.v`, RC)
* `C60_voltage_factor_right_iff` (`PropsDesign.v`, RC): The voltage factor is meant to invert [dbV]: it does so for one ratio only.
* `C60_voltage_factor_at_zero` (`PropsDesign.v`, RC)

### C61 Shelving and peaking designs

Shelves and peak at DC, Nyquist and centre.

* `C61_low_shelf` (`PropsDesign.v`, RC)
* `C61_high_shelf` (`PropsDesign.v`, RC)
* `C61_peak` (`PropsDesign.v`, RC)
* `C61_zero_dB_flat_refuted` (`PropsDesign.v`, RC): A shelf or peak of 0 dB should be flat; the library's has gain 1/2.
* `C61_boost_right_iff` (`PropsDesign.v`, RC): A gain of [g] dB means an amplitude factor of 10^(g/20): the library has it right for exactly one boost.

### C62 Chebyshev sections are stable with unit gain at the end of the pass band

Poles of each section by the sign conditions of the quadratic; gains by products.

* `C62_type1_stable_unit_gain` (`PropsChebyshev.v`, RC)
* `C62_type2_stable_unit_gain` (`PropsChebyshev.v`, RC)

### C63 Chebyshev order, number of sections and capacity

Computed order against the defining inequality; capacity and assertion outcomes.

* `C63_type1_order` (`PropsChebyshev.v`, RC)
* `C63_type2_order` (`PropsChebyshev.v`, RC)
* `C63_cascade_capacity` (`PropsChebyshev.v`, R): The cascade holds all the sections, or the program stops, or (without assertions) writes outside of the array.
* `C63_overlapping_bands` (`PropsChebyshev.v`, RC): A specification in which the stop band overlaps the pass band has no order: acosh is evaluated outside of its domain. Touching bands give a division by zero.
* `C63_edge_assertions` (`PropsChebyshev.v`, RC): Designs are refused (assertion) for an edge at or above half the sampling frequency and for responses other than low pass and high pass; without assertions those responses are designed as a high pass.
* `C63_other_responses_without_assertions` (`PropsChebyshev.v`, RC)

### C64 Chebyshev type 1 designs do not meet their specification

Squared magnitude of the cascade as a product over Chebyshev roots (`ChebProduct.v`).

* `C64_type1_response` (`PropsChebyshev.v`, RC): The response, for even and for odd order. [a] is determined by [sinh (N a) = eps (loss Astop)]. A type 1 filter should have the response 1 / (1 + eps (loss Apass)^2 T^2).
* `C64_even_pass_band` (`PropsChebyshev.v`, RC): In the pass band an even-order filter amplifies instead of attenuating.
* `C64_even_stop_edge_iff` (`PropsChebyshev.v`, RC): An even-order filter meets the stop-band specification at the edge only if its order is far higher than the order that is computed.
* `C64_even_f3_half_power_iff` (`PropsChebyshev.v`, RC): The frequency reported as -3 dB point of an even-order filter is the half-power frequency only for one particular pair of losses.
* `C64_stop_band_specification_refuted` (`PropsChebyshev.v`, RC)
* `C64_pass_band_specification_refuted` (`PropsChebyshev.v`, RC)

### C65 Integer ranges enumerate

Invariant: position k has seen a .. a+k-1; all integer types with their common type.

* `C65_unit_range` (`PropsRange.v`, no axioms): Iterating over [range(a,b)], [a <= b], sees [a], ..., [b-1] and ends, for all argument types whose common type holds both bounds.
* `C65_same_signedness` (`PropsRange.v`, no axioms): The bounds fit whenever each fits its own type and the types have the same signedness.
* `C65_indices` (`PropsRange.v`, no axioms): [indices(c)] sees [0], ..., [size-1].
* `C65_open_range_unsigned` (`PropsRange.v`, no axioms): The one-argument [range(a)] starts at [a] and does not end: for [unsigned] and wider it goes on modulo [2^w] ...
* `C65_open_range_int` (`PropsRange.v`, no axioms): ... for [int] and wider it goes on until its counter or its value would pass the greatest value: after [2^(w-1)] values when [a <= 0], after fewer when [a > 0].
* `C65_open_range_step` (`PropsRange.v`, no axioms): [range(a).step(s)] in [unsigned].

### C66 Stepped ranges

Same with steps; overflow at the first unrepresentable step.

* `C66_stepped_range` (`PropsRange.v`, no axioms): [range(a,b,s)] with [s > 0] sees exactly the [a + k*s] below [b], in order: [n] is the least number of steps that reach [b]. The value that ends the loop has to be representable, and in [int] also the product [n*s].
* `C66_common_type` (`PropsRange.v`, no axioms): The same for [range(a,b,s)] with arguments of three types: the elements have their common type, taken from the left.
* `C66_overflow` (`PropsRange.v`, no axioms): In [int] a positive step whose product or last value is not representable ends in undefined behaviour instead, although every value seen is in range: [k] is the first such step.
* `C66_empty` (`PropsRange.v`, no axioms): Nothing is seen when the bounds are not in order, whatever the step: a range cannot count down.
* `C66_zero_step_forever` (`PropsRange.v`, no axioms): With step 0 the loop repeats [a]: without end in unsigned and in narrow signed types ...
* `C66_zero_step_int` (`PropsRange.v`, no axioms): ... and [2^(w-1)] times in [int], when the step counter overflows.
* `C66_negative_step` (`PropsRange.v`, no axioms): A negative step with the bounds in order counts down, away from the end, until the next value is not representable.
* `C66_unsigned_wraps` (`PropsRange.v`, no axioms): In [unsigned] the sequence wraps around when the value after the last one is not representable: the loop sees a value below the end again.

### C67 Reversed unit range never ends normally

Reversed bounds run around.

* `C67_reversed_int` (`PropsRange.v`, no axioms): [range(a,b)], [a > b], does not stop at once: in [int] it runs up to the greatest value and overflows,
* `C67_reversed_wraps` (`PropsRange.v`, no axioms): in unsigned types and types narrower than [int] it wraps around and ends.
* `C67_mixed_signs` (`PropsRange.v`, no axioms): A negative first bound with an unsigned second one of the same width is such a case.

### C68 Text replacement

`replaced` through `find`; `line`.

* `C68_replaced` (`PropsCore.v`, no axioms): [replaced( text, from, to )] replaces the leftmost occurrence of [from] and keeps the rest; without an occurrence the text is returned unchanged.
* `C68_replaced_empty` (`PropsCore.v`, no axioms)
* `C68_replaced_length` (`PropsCore.v`, no axioms): Only one occurrence is replaced, also when the replacement contains the pattern.
* `C68_line` (`PropsCore.v`, no axioms): [line( size, chr )] is [size] copies of [chr]; a negative size throws.

### C69 std20 algorithms

Memory model of `copy`, `fill`, `equal`, `swap`.

* `C69_copy` (`PropsCore.v`, no axioms): [copy( first, last, d_first )] between ranges inside the memory, the destination not starting inside the source: the destination receives the source, nothing else changes, and the end of the destination is returned.
* `C69_copy_overlapping` (`PropsCore.v`, no axioms): With the destination starting inside the source the beginning of the source is repeated with the distance as period.
* `C69_copy_defined_iff` (`PropsCore.v`, no axioms): Outside of these conditions a non-empty copy leaves the memory.
* `C69_fill` (`PropsCore.v`, no axioms): [fill( first, last, value )].
* `C69_equal` (`PropsCore.v`, no axioms): [equal] answers [true] exactly when all pairs agree, [false] exactly when a pair inside the first range disagrees and all before it agree; it reads no further.
* `C69_swap` (`PropsCore.v`, no axioms): [swap( a, b )] exchanges two objects, also one with itself, and changes nothing else.

### C70 AVR numeric limits

`numeric_limits` of the AVR replacement against the extreme values; default fraction bits in `C70_default_fraction`.

* `C70_avr_limits` (`PropsCore.v`, no axioms): On AVR [min()] and [max()] are the extreme values of every integer type and [digits] its number of value bits, but [is_signed] is [true] for all of them, so it is right exactly for those that have a negative value.
* `C70_fixed_point_accepts_unsigned` (`PropsCore.v`, no axioms): Hence [fixed_point] accepts every integer type on AVR, unsigned ones included, although multiplication exists for the signed types up to 32 bits only.
* `C70_default_fraction` (`PropsCore.v`, no axioms): The default number of fraction bits is the one with which integer and fraction bits together are the value bits of the type; of the floating-point types nothing but 0 is within [min()] and [max()].

### C71 Register field write and read back

Bits of the register before and after (`Z.testbit`), for every field of every register; `trigger` in `C71_trigger`.

* `C71_write` (`PropsRegister.v`, no axioms): Writing a field of a read-write register changes the bits of the field only and accesses no other register; a field of several bits then holds the value modulo its size, a field of one bit holds whether the value is not zero.
* `C71_read` (`PropsRegister.v`, no axioms): Reading a field gives the number its bits form and changes nothing.
* `C71_round_trip` (`PropsRegister.v`, no axioms): Writing a field and reading it: the value comes back exactly if it fits.
* `C71_bit_operations` (`PropsRegister.v`, no axioms): [set], [clear] and [toggle] of a bit of a read-write register change that bit only.
* `C71_trigger` (`PropsRegister.v`, no axioms): [trigger] of a bit (write-one-to-start) writes back what it reads with the bit set, whatever the register does with what is written; a plain register then holds just that.

### C72 Bit masks

Masks bit by bit.

* `C72_masks` (`PropsRegister.v`, no axioms)
* `C72_masks_fit` (`PropsRegister.v`, no axioms): The masks are numbers of the register's type: no other bits are set.

### C73 Combined lazy writes

Joined lazy writes: the accumulated mask and value against sequential writes, and the bus trace.

* `C73_combined_write` (`PropsRegister.v`, no axioms): Joining the lazy writes of any number of disjoint fields of one register, with values that fit, has the same effect as writing them one after another and takes one read and one write of the register.

### C74 Out-of-range values leak in combined writes only

Exact effect for all values: where excess bits go.

* `C74_combined_bits` (`PropsRegister.v`, no axioms): Whatever the fields and values: the bits of the joined fields become the disjunction of all values, each moved to its field's place but not cut to its field's size; no other bit changes.
* `C74_single_lazy_write` (`PropsRegister.v`, no axioms): A lazy write on its own keeps the excess out: the field holds the value modulo its size, the other bits stay.
* `C74_leak` (`PropsRegister.v`, no axioms): Joined with the lazy write of a higher field it does not: a bit of the value beyond its field sets the bit of the other field that field was to clear, where writing the fields one after the other clears it.

### C75 Single-bit fields disagree between write and lazy write

One-bit fields.

* `C75_one_bit` (`PropsRegister.v`, no axioms): [write] of a one-bit field takes any value but zero for a one, [write_lazy] takes the lowest bit of the value.

### C76 Clearing a write-one-to-clear flag

Read-modify-write on write-one-to-clear flags.

* `C76_clear_clears_all` (`PropsAtmega.v`, no axioms): Clearing a flag of the kind cleared by writing a one clears every flag of its register.
* `C76_shared_flags_all_cleared` (`PropsAtmega.v`, no axioms): Clearing a flag of timer 0, timer 1 or the external interrupts clears all flags of the register and changes nothing else.
* `C76_pending_flag_lost` (`PropsAtmega.v`, no axioms): So a pending flag is lost when another flag of the register is cleared.
* `C76_exact_clear_refuted` (`PropsAtmega.v`, no axioms): The intended effect, losing the one flag only, is not what these functions have.
* `C76_single_flags_exactly_cleared` (`PropsAtmega.v`, no axioms): The flags of the converter, the comparator and the two-wire interface, being alone in their registers, are cleared exactly.

### C77 Pin change interrupt flags are cleared the wrong way round

Pin change flags declared with the wrong policy.

* `C77_pin_change_flags` (`PropsAtmega.v`, no axioms): Clearing the pin change flag [k] leaves it as it is and clears the other two.
* `C77_clear_refuted` (`PropsAtmega.v`, no axioms): The flag asked to be cleared stays pending.

### C78 Timer waveform round trip

Waveform set and read back for both timers.

* `C78_tc0_set_waveform_and_clock` (`PropsAtmega.v`, no axioms): Setting the waveform of timer 0 in one statement with the clock: the low two bits of the waveform go to bits 1:0 of TCCR0A, its third bit to bit 3 of TCCR0B, the clock to bits 2:0 of TCCR0B, and nothing else changes.
* `C78_tc0_set_waveform` (`PropsAtmega.v`, no axioms): Setting the waveform alone keeps the clock as well.
* `C78_tc0_current_waveform` (`PropsAtmega.v`, no axioms): Reading the waveform of timer 0 gives eight, not four, times the third bit plus the low two.
* `C78_tc0_round_trip` (`PropsAtmega.v`, no axioms): So a waveform set reads back as itself exactly if it is below four.
* `C78_tc1_set_waveform_and_clock` (`PropsAtmega.v`, no axioms): Timer 1: the low two bits of the waveform go to bits 1:0 of TCCR1A, the high two to bits 4:3 of TCCR1B, the clock to bits 2:0 of TCCR1B.
* `C78_tc1_current_waveform` (`PropsAtmega.v`, no axioms): Reading the waveform of timer 1.
* `C78_tc1_round_trip` (`PropsAtmega.v`, no axioms): A waveform of timer 1 reads back as itself exactly if it is below four; waveforms four to seven read back as the valid waveforms eight to eleven.

### C79 Forcing a timer-1 compare corrupts the output mode

Force-compare addresses.

* `C79_tc1_force` (`PropsAtmega.v`, no axioms): Forcing a compare of timer 1 sets a bit of the compare output mode of output a in TCCR1A; the register with the force bits, TCCR1C at 0x82, is not touched.
* `C79_tc0_force` (`PropsAtmega.v`, no axioms): Forcing a compare of timer 0 sets the right bit of TCCR0B and no other.

### C80 Field writes to a register holding a write-one-to-clear flag

Every read-modify-write of a register with a flag clears it.

* `C80_writes_clear_flags` (`PropsAtmega.v`, no axioms): Reading a register with flags, changing bits of it and writing it back clears every flag that is not among the bits changed: writing a field, setting, clearing or toggling a bit, or joined lazy writes.
* `C80_settings_lose_pending_interrupt` (`PropsAtmega.v`, no axioms): Making any setting of the converter, the comparator or the two-wire interface that lives in the register of its interrupt flag loses a pending interrupt; for the two-wire interface it makes the next bus action start.

### C81 Atomic 16-bit access

All interleavings of byte accesses with arbitrary interrupt routines.

* `C81_atomic_write` (`PropsInterrupt.v`, no axioms): [atomic( dest, value )], for a destination of any size, whatever the order of the byte stores and whichever interrupt routines run when: the whole assignment happens at one point between the routines, each of which sees the complete old or the complete new value.
* `C81_atomic_read` (`PropsInterrupt.v`, no axioms): [atomic( value )], for a value of any size: the value read is the complete value memory held at one point between the routines.
* `C81_unguarded_write_torn` (`PropsInterrupt.v`, no axioms): Without the guard an interrupt routine can see a value that is neither the old nor the new one: for every address, every old and new value of two bytes that differ in both bytes, and both orders of the stores.
* `C81_unguarded_read_torn` (`PropsInterrupt.v`, no axioms): Likewise an unguarded read can deliver a value that memory never held.

### C82 Interrupt guards

Structural induction over code with nested guards, loops (`C82_loop`) and returns.

* `C82_scoped_sreg_restores` (`PropsInterrupt.v`, no axioms): A scope with a [scoped_sreg] leaves the status register as it found it, whatever is done in it, nested guards and returns included; nothing else is affected.
* `C82_guard_leaves_on` (`PropsInterrupt.v`, no axioms): A scope with a [scoped_interrupt_guard] runs its code from a state with interrupts off and leaves interrupts on, however it found them and whatever is done in it; the other bits of the status register and all else are as the code left them.
* `C82_guard_restores_refuted` (`PropsInterrupt.v`, no axioms): So it does not restore what it found: for every code and every state with interrupts off, they are on afterwards.
* `C82_code_after_nested_guard` (`PropsInterrupt.v`, no axioms): Code after a nested guard runs with interrupts on although the outer guard, or the interrupt routine it is part of, is not at its end: the state in which [q] starts has interrupts enabled, unless [p] returned.
* `C82_loop` (`PropsInterrupt.v`, no axioms): A loop runs its body so many times and goes on with what follows; a return in the body, at whatever round, ends the function with all guards left.
* `C82_outer_section_open` (`PropsInterrupt.v`, no axioms): The section of the outer guard is therefore open: with an atomic write inside it, every interrupt routine can run between that and the rest of the section.

### C83 Two-wire write sends the address twice

Bus events of every terminating `write` against every device.

* `C83_byte_never_sent` (`PropsTwi.v`, no axioms): The byte to be written is ignored: it never reaches the bus, whether [write] succeeds or not, and a successful [write] sends the address in its place.
* `C83_transfer_refuted` (`PropsTwi.v`, no axioms): So a successful [write] of a byte other than the address is never the transfer asked for: start, address, byte, stop.

### C84 Two-wire error paths

Case analysis of every path of `write`; devices are arbitrary functions of the history.

* `C84_write_outcomes` (`PropsTwi.v`, no axioms): All that can happen when [write] ends. It reports success exactly if the three status codes read are those of a start, an acknowledged address and an acknowledged data byte; then a start condition, the address, the address again, and a stop condition have been sent. With any other status it reports an error at once, and does not send a stop condition.
* `C84_success_iff_acknowledged` (`PropsTwi.v`, no axioms): Success means all three acknowledgements.
* `C84_no_stop_after_error` (`PropsTwi.v`, no axioms): After an error there is no stop condition, though there always was a start.
* `C84_waits_for_ever` (`PropsTwi.v`, no axioms): A device that never sets the flag makes [write] wait for ever: it has no limit.
* `C84_ends` (`PropsTwi.v`, no axioms): It ends with a device that sets its flag at some time, whatever the status codes: after so many reads of the flag without another access the flag is set.

### C85 Heartbeat dividers

Closed form of the counters after n interrupts, by induction.

* `C85_heartbeat` (`PropsAdcDac.v`, no axioms): From the start, for ever, and whatever is done to the mailboxes between the interrupts: the [n]-th interrupt (counted from 1) raises a mailbox exactly if its period divides [n], and never resets one.

### C86 Mailbox

Transition system of one mailbox; induction over event lists.

* `C86_no_phantom` (`PropsAdcDac.v`, no axioms): No event is reported without having been raised: from a state in which the flag is not raised and no report is under way, as initially and after every report, all polls report nothing as long as nothing is raised.
* `C86_after_report` (`PropsAdcDac.v`, no axioms): Every report leaves the mailbox in that state.
* `C86_no_more_than_raised` (`PropsAdcDac.v`, no axioms): There are never more reports of an event than times it was raised, for every interleaving.
* `C86_seen` (`PropsAdcDac.v`, no axioms): Every raised event is reported afterwards: at the latest by the second step of the polling program after it, whatever else happens and whatever the state was.
* `C86_coalesced` (`PropsAdcDac.v`, no axioms): Events raised before a poll are reported as one.
* `C86_raised_during_report` (`PropsAdcDac.v`, no axioms): An event raised between the read and the reset of an earlier one shares its report: it is not reported by itself.

### C87 Clamp

Case analysis; `dac_write` through C81.

* `C87_clamp` (`PropsAdcDac.v`, no axioms): The result lies between the limits, is the argument if that does, and otherwise the limit it passed.
* `C87_limits_exchanged` (`PropsAdcDac.v`, no axioms): With limits in the wrong order the result can be outside.
* `C87_dac_write` (`PropsAdcDac.v`, no axioms): [dac::write] changes the two bytes of OCR1A at one point between the interrupt routines, to a value from 3 to 1023, the value itself where possible, and nothing else.

### C88 Strictly stable filters are bounded and forget

Bound by the geometric decay of the strictly stable recursion (both pole cases).

* `C88_bounded_output` (`PropsBiquad.v`, R+): strictly stable filters have bounded output for ever
* `C88_zero_input_decays` (`PropsBiquad.v`, R+): Without input the output dies out geometrically, whatever the state.

### C89 response() is the steady-state response

Input a sampled complex exponential: the output converges to response times input.

* `C89_response_is_steady_state` (`PropsBiquad.v`, R+)

### C90 Cascades of strictly stable sections are bounded

C88 along the sections.

* `C90_bounded_output` (`PropsCascade.v`, R+)

### C91 response() of a cascade is its steady-state response

C89 along the sections.

* `C91_cascade_response_is_steady_state` (`PropsCascade.v`, R+)

### C92 Designs are bilinear transforms of analogue prototypes

Coefficients equal those of the bilinear transform of the analogue prototype, as rational functions.

* `C92_prototype_response` (`PropsDesign.v`, RC): every design is the bilinear transform of its analogue prototype

### C93 Butterworth low and high pass

Magnitude of the low and high pass with Q = 1/sqrt 2 in the warped frequency.

* `C93_butterworth` (`PropsDesign.v`, RC): Gain of the designs with Q = 1/sqrt 2, as function of the warped frequency ratio.
* `C93_monotone` (`PropsDesign.v`, RC): The Butterworth low pass attenuates the more, the higher the frequency, and is at half power at the corner frequency.

### C94 Cut undoes boost

Cut and boost coefficients are reciprocal.

* `C94_cut_inverts_boost` (`PropsDesign.v`, RC): a cut undoes the boost of the same number of decibels

### C95 response() of a one-pole filter is its steady-state response

One-pole steady state.

* `C95_response_is_steady_state` (`PropsOnePole.v`, R+): [response] is the steady state

### C96 Chebyshev type 2 response

Product formula over the inverse Chebyshev roots.

* `C96_type2_response` (`PropsChebyshev.v`, RC): the response of a type 2 filter is the Chebyshev function

### C97 Chebyshev type 2 designs meet their specification

Specification at both edges from C96 and the order condition.

* `C97_type2_meets_specification` (`PropsChebyshev.v`, RC): type 2 filters meet their specification
* `C97_type2_f3_half_power` (`PropsChebyshev.v`, RC): The frequency reported as -3 dB point is the half-power frequency.

### C98 The band-stop design is an identity

The stub returns an identity cascade.

* `C98_band_stop_is_identity` (`PropsChebyshev.v`, R+): the band-stop design designs nothing

### C99 Settings of the peripherals

Finite table of settings, each checked against its place in the data sheet by the general theorem on lazy statements.

* `C99_setting` (`PropsSettings.v`, no axioms): Making a setting with any of its enumerators puts the number at its place in the data sheet; no other register changes, nor any other bit of the register but for interrupt flags, which are cleared; [current] gives the enumerator back. There is an enumerator for every number that fits.
* `C99_joined_settings` (`PropsSettings.v`, no axioms): Settings of one register joined with commas: each takes its value.

### C100 Immediate settings and compare values

Likewise for settings written at once.

* `C100_immediate_setting` (`PropsSettings.v`, no axioms): Making such a setting puts the number at its place, changes nothing else, and reads back.
* `C100_compare_values` (`PropsSettings.v`, no axioms): A compare value is stored too, but [current] of it gives nothing back.

### C101 Initialisation of PWM, converter and heartbeat

Symbolic execution of the initialisations over an arbitrary register state.

* `C101_pwm_init` (`PropsBoard.v`, no axioms): The initialisation of the pulse width modulation: pin PB1 becomes an output, output a of timer 1 is in mode 2, the waveform is 7, the clock is not divided; no other register or bit changes.
* `C101_adc_init` (`PropsBoard.v`, no axioms): The initialisation of the converter: reference AVcc, channel 0, free running, and ADCSRA exactly 0xef: prescaler 128, everything on, conversion started, the flag cleared. The adjustment of the result is left as it was.
* `C101_beat_init` (`PropsBoard.v`, no axioms): The initialisation of the heartbeat: interrupt on compare match a, compare value 250, waveform 2 (count to the compare value and start again), clock divided by 64.
* `C101_heartbeat_slow` (`PropsBoard.v`, no axioms): The heartbeat is slower than a millisecond: with the compare value the initialisation leaves in the register, the timer needs more than a thousandth of the clock frequency for a round, for every clock frequency the static assertion accepts; with 16 MHz a round takes 1.004 ms.

### C102 LEDs

Port and direction bits.

* `C102_led` (`PropsBoard.v`, no axioms): Switching an LED changes the bit of its pin in the port register, enabling it the bit in the direction register; nothing else.
* `C102_toggle_twice` (`PropsBoard.v`, no axioms): Toggling an LED twice restores everything.

### C103 Writing pins disturbs the port

Read-modify-write of pin registers toggles.

* `C103_pin_writes` (`PropsBoard.v`, no axioms): Setting, clearing or toggling a bit through the pin register reads the levels of the pins and toggles every bit of the port whose bit is written as one.
* `C103_pin_set_disturbs` (`PropsBoard.v`, no axioms): So "set" of a pin disturbs every other bit of the port whose pin is high, and turns the bit itself off if it was on.

### C104 Whole flag registers

Whole flag registers.

* `C104_tifr0_whole` (`PropsBoard.v`, no axioms): Writing the whole flag register of timer 0 clears exactly the flags written as ones.
* `C104_tifr1_whole_unusable` (`PropsBoard.v`, no axioms): The whole flag register of timer 1, declared with another policy, can be neither read nor written: the functions do not compile; setting and toggling a flag of either register does not compile.

### C105 Two-wire initialisation

Symbolic execution over an arbitrary register state.

* `C105_twi_init` (`PropsTwi.v`, no axioms): The initialisation of the interface: the prescaler and with it all of TWSR is zero whatever prescaler is asked for, TWBR is the rate, the interface is enabled with its other control bits off and a pending flag left pending. The bits of port C for the two wires are not set but end up set exactly if they equalled the level of the pin; nothing else changes.
* `C105_pull_ups_refuted` (`PropsTwi.v`, no axioms): So with the wires idle, both high, and their port bits clear, as after a reset, the pull-ups are not switched on, and a prescaler other than 1 is never set.

### C106 detail_x start and data

Trace of the two statements, interpreted as bus events.

* `C106_data_sends_start` (`PropsTwi.v`, no axioms): [detail_x::data] after [detail_x::start] does not send the byte but another start condition: the start bit is still set in the control register, and clearing the flag writes it back. For every state in which the interface is enabled.

### C107 The converter program under all interleavings

A small program logic (assertions stable under interrupts, rules for each construct) over the transition system; invariant `J`.  `C107_interrupts`: programs built from pieces that keep interrupts on but for sections of at most six steps.

* `C107_program` (`PropsProgram.v`, no axioms): Whatever the interrupt routines do when, in every state the program can reach: every value written to the converter is a complete measurement, or the initial zero, limited to 3..1023; the light was switched on only if there was a measurement in the upper half; there is at most one write in a thousand heartbeats and at most one blink in a hundred; the light is toggled at most six times, and exactly six times before anything else is done with it or with the converter; and the program never ends.
* `C107_interrupts` (`PropsProgram.v`, no axioms): Interrupts are off before the first step of the program, which switches them on, so nothing happens before it. In every state the program can reach, interrupts are on or the program switches them on with one of its next six steps, so no interrupt has to wait for longer. Bytes of measurements and of values for the converter are moved only while interrupts are off.

### C108 P is the covariance of the estimation error

The world is a sample space with any linear positive expectation; induction on the number of updates with the invariant that the error is uncorrelated with all later noise.

* `C108_error_covariance` (`PropsStochastic.v`, R): the covariance is the covariance of the error

### C109 Best linear estimate

Orthogonality of the error to every affine function of the measurements, then Pythagoras.

* `C109_best_linear_estimate` (`PropsStochastic.v`, R): No estimator that adds an offset [d] to a weighted sum of all the measurements has a smaller error in any direction; the weights [L] may be chosen with full knowledge of the system and of the noise statistics.

### C110 White innovations

Innovations are combinations of error and noise; orthogonality of C109.

* `C110_innovations_white` (`PropsStochastic.v`, R): [e i] is the estimator after [i] updates; the innovation at step [i] is what the next measurement adds to its prediction.

### C111 Monotonicity and bounds of the covariance

Variational characterisation of the Riccati step (the gain minimises every quadratic form), induction over the history; the numeric bound is a supersolution.

* `C111_covariance_monotone` (`PropsRiccati.v`, R)
* `C111_covariance_bounded` (`PropsRiccati.v`, R): A covariance that one update does not increase bounds all later ones.
* `C111_covariance_decreasing` (`PropsRiccati.v`, R): If the first update does not increase the covariance, no later one does.
* `C111_simulation_bounded` (`PropsRiccati.v`, R)

### C112 Information form

Field identities for the 2×2 case.

* `C112_information_form` (`PropsRiccati.v`, R): The inverse covariance ("information") grows by H^T H / R with every measurement; the determinant shrinks by the factor R / S; the gain is the corrected covariance times H^T / R.

### C113 Only noise ratios matter

Induction over the history.

* `C113_noise_scale` (`PropsRiccati.v`, R)

### C114 Change of state coordinates

Induction over the history; H and Q transformed contragrediently.

* `C114_coordinate_change` (`PropsRiccati.v`, R)

### C115 Repeated measurement of a constant

Closed form of covariance and estimate after n updates, by induction.

* `C115_repeated_measurement` (`PropsRiccati.v`, R)
* `C115_order_irrelevant` (`PropsRiccati.v`, R): The order of the measurements does not matter, and inputs do not either.

### C116 Two measurements at once or in sequence

Identity between `gain` for M = 2 and two steps with M = 1.

* `C116_sequential_measurements` (`PropsRiccati.v`, R): With uncorrelated measurement errors, the two-measurement estimator does the same as the one-measurement estimator fed with the first measurement and then, without any time passing, with the second.

### C117 Exact tracking in every numeric type

Inversion of one defined update: the innovation is a - a, so the correction adds 0; induction.

* `C117_exact_tracking_every_type` (`PropsKalmanSim.v`, no axioms)
* `C117_types_qualify` (`PropsKalmanSim.v`, R): The numeric types of the repository qualify: fixed point, idealised double, int.

### C118 The simulation program

Loop invariant over the reals; the fixed-point program has no input, so its single execution is computed by the kernel.

* `C118_simulation` (`PropsKalmanSim.v`, R)

### C119 The simulation as built for the microcontroller

Setup computed by the kernel; invariant P = 0 for arbitrary measurements.

* `C119_measurements_ignored` (`PropsKalmanSim.v`, R): Every run of the estimator with the parameters of that build, whatever is measured: the gain is 0 and the estimate is what dead reckoning gives.
* `C119_wrong_position` (`PropsKalmanSim.v`, R): The program ends at 1225 instead of 1250, and with a measurement 1000 m off the estimator does not move.

### C120 The desktop simulation: plots, noise, symmetry

Symbolic execution; moments of the noise by linearity; counterexample for symmetry is the final state of the program itself.

* `C120_fixed_symmetry_refuted` (`PropsKalmanSim.v`, R): Rounding destroys the symmetry of the covariance (C14 does not carry over).
* `C120_plot` (`PropsKalmanSim.v`, R): What is plotted: everything is as labelled, except that the "error covariance of the velocity" is the covariance of position and velocity.
* `C120_velocity_variance_refuted` (`PropsKalmanSim.v`, R)
* `C120_process_noise` (`PropsKalmanSim.v`, R): The process noise it adds, from two independent draws of mean 0 and variance 1: its covariance is accelnoise^2 * diag (dt^4/4, dt^2), not the matrix Q given to the estimator.

### C121 Register map agrees with the data sheet

`AtmegaSheet.v` transcribes the register summary of the data sheet (which is not part of /repo); the finite tables are compared by the kernel, completely (`C121_complete`).

* `C121_fields_in_place` (`PropsSheet.v`, no axioms)
* `C121_registers_in_place` (`PropsSheet.v`, no axioms)
* `C121_complete` (`PropsSheet.v`, no axioms)
* `C121_pointers` (`PropsSheet.v`, no axioms): The three pointers X, Y and Z are the pairs R27:R26, R29:R28 and R31:R30: reading one reads the low byte from the first and the high byte from the second general purpose register.
* `C121_parametric_in_place` (`PropsSheet.v`, no axioms): Fields with parameters: interrupt masks and flags, pin change masks, ports.
* `C121_force_bits_refuted` (`PropsSheet.v`, no axioms): The force bits of timer 1 are not where the data sheet says: they are addressed in TCCR1A (see C79).
* `C121_fields_disjoint` (`PropsSheet.v`, no axioms): Different fields do not overlap; only TWINT has two names.
* `C121_access` (`PropsSheet.v`, no axioms): Access: the fields of read-only bits cannot be written, except TWWC; flags are declared as flags, except one of the two names of TWINT (and the pin change flags, C77); and nothing else is.

### C122 What a field's policy allows

Case analysis over policies and operations; the documented operations are listed separately from the model.

* `C122_single_bits` (`PropsSheet.v`, no axioms)
* `C122_several_bits` (`PropsSheet.v`, no axioms): Fields of several bits can be read and written only with the policies for reading and writing; the single-bit operations are the same.
* `C122_read_only` (`PropsSheet.v`, no axioms): So nothing that compiles changes the memory through a read-only field.

### C123 Blinking programs

Induction over rounds and interrupts for arbitrary memory; the counters are those of C85.

* `C123_blink` (`PropsAvrExamples.v`, no axioms): The light changes after every 457000 executions of [nop], 200 times 2285, and is on before the first change; nothing but it and its direction is changed.
* `C123_blink_isr` (`PropsAvrExamples.v`, no axioms): When [n] interrupts have been served the light has been changed once per thousand of them; timer 0 is told to clear on compare match with 250 and to count every 64th cycle, its compare interrupt is enabled, and nothing else is changed.
* `C123_second_refuted` (`PropsAvrExamples.v`, no axioms): The light is meant to change once per second; with the compare value the program sets it takes 64000 cycles, four milliseconds, longer.

### C124 Fading program

Induction over rounds: position in the loops in closed form, samples of the delay loop by induction.

* `C124_fade` (`PropsAvrExamples.v`, no axioms): When the body of a loop has been executed [n + 1] times, the compare values follow the triangle wave at [n], output B of timer 1 being the complement, the light is the last of the 914 samples of pin 0 of port D taken meanwhile, the timers are set up as said, and nothing else is changed.
* `C124_triangle` (`PropsAvrExamples.v`, no axioms): The brightness changes by exactly one from step to step, reaches every value of the converter from 0 to 1023, both ends included, and repeats after 2046 steps and not earlier.

### C125 Conversion in an interrupt

Transition system over event lists; invariant relating registers, light and the history of conversions, with the age of each.

* `C125_init` (`PropsAvrExamples.v`, no axioms): Afterwards the converter runs by itself, slowest clock, interrupt enabled, started and no interrupt pending, whatever it did before; the light's pin is an output and high.
* `C125_channel_refuted` (`PropsAvrExamples.v`, no axioms): Channel 0 is meant to be selected; bit 1 of the channel number is not cleared, the mask names bit 2 twice, so that the channel is 0 or 2, whichever that bit says. Neither is the high bit of the reference selection.
* `C125_led_refuted` (`PropsAvrExamples.v`, no axioms): [led] is meant to put the light on or off; it puts it on either way.
* `C125_light` (`PropsAvrExamples.v`, no axioms): However conversions and instructions interleave, the light tells whether a value the converter really gave was above half of the range, judged from all ten bits or the upper eight, and [main] has executed at most five instructions since that value was its latest; only before the fifth instruction of all the light is what it was set to initially.
* `C125_interrupts_on` (`PropsAvrExamples.v`, no axioms): [main] can always go on: interrupts are never left off for good.
* `C125_steady_light` (`PropsAvrExamples.v`, no axioms): If the value does not change, the light is steady and tells whether it is more than half of the range, unless it is 513, 514 or 515.
* `C125_flicker_refuted` (`PropsAvrExamples.v`, no axioms): The light is meant to tell whether the value is more than half of the range; if the value stays 513, 514 or 515, it keeps going on and off: from every state each of the two is reached within six instructions.

### C126 The numeric types calculate up to rounding

`rounding` in `RoundingSpec.v` says what is needed of an arithmetic; for fixed point from C27–C29, for binary64 and binary32 from Flocq.

* `C126_fixed_point` (`PropsRounding.v`, R): the numeric types calculate with real numbers up to rounding
* `C126_double` (`PropsRounding.v`, RC)
* `C126_float` (`PropsRounding.v`, RC)
* `C126_fixed_point_sharp` (`PropsRounding.v`, R): The bounds on the errors cannot be improved by more than the rounding of half a unit: for fixed-point numbers a product can be off by nearly a step.

### C127 One-pole filter with rounding

Each step is the exact difference equation with a bounded perturbation; the perturbation sums to a geometric series.

* `C127_one_pole` (`PropsRounding.v`, R): A filter with |a1| < 1 never leaves the range of numbers and its outputs stay within a fixed distance of those of the exact filter with the same coefficients, however long it runs. [N] bounds all intermediate results, [W] the outputs.
* `C127_one_pole_fixed` (`PropsRounding.v`, R): In fixed point: two steps divided by 1 - |a1|, as long as the inputs leave that much room.
* `C127_one_pole_double` (`PropsRounding.v`, RC)

### C128 Second order sections with rounding

Superposition: the difference to the exact section is the response to the rounding errors, bounded by the recursion gain; existence of the gain from the modal bounds of C46. `G` is a hypothesis about the exact recursion, discharged by `C128_gain_exists` and `C128_gain_small`.

* `C128_gain_exists` (`PropsRounding.v`, R+): Strictly stable sections have a gain, so the theorems below apply to them; a simple bound is 1 / (1 - |a1| - |a2|).
* `C128_gain_small` (`PropsRounding.v`, R)
* `C128_direct_form` (`PropsRounding.v`, R)
* `C128_transposed_form` (`PropsRounding.v`, R)
* `C128_direct_form_fixed` (`PropsRounding.v`, R)
* `C128_transposed_form_fixed` (`PropsRounding.v`, R)
* `C128_direct_form_double` (`PropsRounding.v`, RC)

### C129 Filters with rounding need not come to rest

Fixed points of the rounded step, for every format and state; in double computed by the kernel.

* `C129_one_pole_decays_refuted` (`PropsRounding.v`, R): One pole at 1 - step: the exact filter decays, the fixed-point filter keeps every state between 0 and 1 for ever.
* `C129_double_decays_refuted` (`PropsRounding.v`, RC): The same in double: at the smallest positive number a factor of 3/4 has no effect.

### C130 Cascades with rounding

Induction over the sections with C128 and the sample-by-sample equivalence of the cascade with running sections one after the other.

* `C130_cascade` (`PropsRoundingCascade.v`, R): A cascade of sections at rest, in any rounding arithmetic: as long as every section has room for its signals the cascade is defined for ever, and its output stays within the accumulated error of the output of the exact sections one after the other.

### C131 Exact tracking in floating point

`ieee_scalar` (`Ieee.v`) is Flocq's arithmetic with one nan; the innovation x - x is +0 or nan, K times 0 is a zero or nan, and adding a zero to a number changes it only if it is -0, which the prediction cannot be.

* `C131_exact_tracking_ieee` (`PropsIeeeKalman.v`, RC)
* `C131_inverse_overflows` (`PropsIeeeKalman.v`, RC): Without the condition on nan the claim is false: the guard of [inverted] against 0 does not keep the inverse of a very small number from being infinite.
* `C131_without_nan_condition_refuted` (`PropsIeeeKalman.v`, RC)

### C132 The simulation in double and float

The program of C118 with `ieee_numeric` (`KalmanIeee.v`), evaluated by the kernel; more rounds allowed change nothing (induction).

* `C132_simulation_double` (`PropsIeeeKalman.v`, RC): The program in double: 50 updates; state and estimate are exactly 1250 m and 50 m/s. The covariance is positive definite but, through rounding, no longer symmetric.
* `C132_simulation_float` (`PropsIeeeKalman.v`, RC): The same in float; here the covariance stays symmetric.

### C133 Two formulas for the covariance

`cov_short`, `cov_joseph`, `cov_main` in `KalmanIeee.v`; over the reals by algebra against `Pcorr`, `Pjoseph` of `KalmanSpec.v`, in float evaluated by the kernel; `C133_program_values` compares with the recursion in rational numbers.

* `C133_forms` (`PropsCovariance.v`, R): What the two statements of the program compute, for every gain.
* `C133_joseph_any_gain` (`PropsCovariance.v`, R)
* `C133_forms_agree` (`PropsCovariance.v`, R): For a symmetric covariance the two forms agree exactly if the gain is zero or solves the equation of the optimal gain.
* `C133_short_form_refuted` (`PropsCovariance.v`, R): The short form with another gain: after the first pass of the program (gain 1.1) the variance of the position is negative and the covariance asymmetric.
* `C133_program` (`PropsCovariance.v`, RC): Ten passes. From the first on the short form has a negative variance of the position and is asymmetric. The Joseph form is positive definite throughout; at the end rounding has made it asymmetric, too.
* `C133_program_values` (`PropsCovariance.v`, RC): Every covariance of both forms, in every pass, is within 10^-7 of the exact one.

### C134 Products in every numeric type

Invariants of the loops for an arbitrary `scalar`; `left_sum` in `PropsMatrixRounding.v` is the specification.

* `C134_products_every_type` (`PropsMatrixRounding.v`, no axioms): In every numeric type each entry of a product is the sum of the products of a row and a column, taken from the left; it is defined if these sums are.

### C135 Products with rounding

Error recurrence of `left_sum` for `rounding` arithmetic, then C126.

* `C135_products_rounding` (`PropsMatrixRounding.v`, R): Products of matrices and vectors in rounding arithmetic: if there is room for the sums of the absolute values and the error, products are defined, and each entry differs from the exact one by at most [product_error].
* `C135_products_fixed` (`PropsMatrixRounding.v`, R): In fixed point a product of matrices with [M] columns is off by at most [M] steps.
* `C135_products_double` (`PropsMatrixRounding.v`, RC): In [double] the relative error, measured by the sum of the absolute values, is at most 2 (M + 1) 2^-53, up to underflow, for up to 2^20 columns.

### C136 Text of vectors and matrices

`show_matrix`, `show_vector` (`Output.v`) against `lines` and `words` (`OutputSpec.v`), which split a text at line ends and blanks.

* `C136_matrix` (`PropsOutput.v`, no axioms): One line for every row, in each line every element after a blank.
* `C136_vector` (`PropsOutput.v`, no axioms): In brackets every element after a blank.
* `C136_matrix_injective` (`PropsOutput.v`, no axioms): So a text determines the shape and the text of every element.
* `C136_numbers` (`PropsOutput.v`, no axioms): The text of a floating point number (also in an infinity or a nan) has neither blanks nor line ends.

### C137 Text of numbers

`show_float` writes what `%g` with six digits writes; `read_decimal` (`OutputSpec.v`) is an independent reader of decimal numbers. Decimal exponent and rounding by invariants over integers, then real arithmetic.

* `C137_six_digits` (`PropsOutput.v`, RC): Six significant digits: no number with six digits is closer.
* `C137_not_finite` (`PropsOutput.v`, no axioms): Only finite numbers are numbers in the text.
* `C137_integers` (`PropsOutput.v`, R)
* `C137_fixed_point` (`PropsOutput.v`, RC): A fixed-point number is printed with six significant digits of its value.
* `C137_fixed_point_injective` (`PropsOutput.v`, RC): Up to 16 bits the text determines the number.
* `C137_fixed_point_32_refuted` (`PropsOutput.v`, RC)

### C138 The recorded simulation output

`sim_text` (`Output.v`) with `ieee_numeric`; gains and covariances do not depend on the measurements (proved with abstract operations), so one evaluation by the kernel covers all of them. `C138_recorded_run`: random numbers (found by a search outside, checked in the kernel) with which the model prints the whole recorded file, once the line ends after vectors are put back; `C138_recorded_file_refuted`: without that no random numbers do.

* `C138_recorded_output` (`PropsOutputSim.v`, RC): Whatever the random numbers are, the program prints the matrices, gains and covariances that are recorded in kalman-sim.out.txt, digit for digit.
* `C138_recorded_run` (`PropsRecorded.v`, RC): There are random numbers, none above 10, with which the program prints the recorded file, digit for digit, except that the file has an end of line after each vector.
* `C138_recorded_file_refuted` (`PropsRecorded.v`, RC)

### C139 Text of filters

`show_biquad`, `show_cascade`, `show_onepole` (`Output.v`) over the reals with an arbitrary text for numbers; verdicts by C44, C52, C56.

* `C139_biquad` (`PropsOutput.v`, R+): The lines of the text of a second order section.
* `C139_biquad_without_b0` (`PropsOutput.v`, R+): Without [b0] there are no zeros to print.
* `C139_cascade` (`PropsOutput.v`, R+): The text of a cascade: how many sections there are and could be, whether all of them are stable, and their texts in order.
* `C139_onepole` (`PropsOutput.v`, R): A first order section is always called stable, and the printed pole is always 7.
* `C139_always_stable_refuted` (`PropsOutput.v`, R): The words "always stable" are not true, nor is the pole: the transfer function b z / (z + a) has its pole at -a.

### C140 Ranges of floating-point numbers

`float_loop`, `float_loop_step` (`RangeFloat.v`) in any IEEE format; `element` is the value with its two roundings. Invariants over the rounds with Flocq; the factor stops growing at 2^prec.

* `C140_stepped_range` (`PropsRangeFloat.v`, RC): The values the loop sees, if nothing overflows: the elements before the first one that reaches [last].
* `C140_infinite` (`PropsRangeFloat.v`, RC): A range without end has no end, whatever the data;
* `C140_infinite_values` (`PropsRangeFloat.v`, RC): its values are the elements as long as they fit.
* `C140_element_error` (`PropsRangeFloat.v`, RC): Each value the loop sees is off by at most two roundings, however far the loop has come.
* `C140_too_many_steps` (`PropsRangeFloat.v`, RC): So a range with more than 2^prec steps has no end.
* `C140_step_not_positive` (`PropsRangeFloat.v`, RC): A step that is zero or negative, from below [last]: no end.
* `C140_nan` (`PropsRangeFloat.v`, RC): With a nan as first or last there is no end either.
* `C140_unit_range` (`PropsRangeFloat.v`, RC): Integers: as for integer types.
* `C140_unit_never_meets` (`PropsRangeFloat.v`, RC): From an integer to a number that is none: no end.
* `C140_unit_too_far` (`PropsRangeFloat.v`, RC)

### C141 The frequency axis of the desktop programs

`frequencies`, `inner_frequencies` (`RangeFloat.v`): rounding bounds for the step, the samples and the end of the range; the programs' own numbers by evaluation in the kernel.

* `C141_samples` (`PropsRangeFloat.v`, RC): The number of samples is the intended one or one more, and every sample is where it should be up to rounding.
* `C141_intended_number_refuted` (`PropsRangeFloat.v`, RC): "Always the intended number" is false: 8 samples instead of 7, the last one beyond half the sampling frequency.
* `C141_programs` (`PropsRangeFloat.v`, RC): The programs' numbers of samples, 101 and 201, are met and the last sample is one half exactly.
* `C141_inner` (`PropsRangeFloat.v`, RC): The inner range leaves out both ends.

### C142 Two measurements bound the covariance

The Kalman gain minimises the Joseph form in the Loewner order, so two updates with dead-beat gains, which map any initial covariance to the same matrix, give a bound (`ceiling`); counterexample without observability.

* `C142_covariance_bounded` (`PropsConvergence.v`, R): When two successive measurements determine the state, there is one bound that the covariance respects from the second update on, whatever it was initially.
* `C142_simulation_bounded` (`PropsConvergence.v`, R): The same with numbers for the simulation programs: also with an initial covariance that is arbitrarily large, the position variance is at most 100 (the sensor's) and the velocity variance at most 200.01 from the second update on.
* `C142_unobservable_unbounded` (`PropsConvergence.v`, R): Without observability there is no such bound: the second component of a state that stands still and is never measured keeps its initial variance.

### C143 The initial state is forgotten

Lyapunov function d ↦ d·P⁻¹d: two updates shrink it by a fixed factor, because the covariance is bounded above (C142) and below (two-step process noise); no spectral theory needed.

* `C143_initial_state_forgotten` (`PropsConvergence.v`, R+): Two estimators given the same inputs and measurements, started from different states: their estimates approach each other at a geometric rate that depends on the system only.
* `C143_not_excited_not_forgotten` (`PropsConvergence.v`, R): Without process noise the estimator need not forget, even when the state can be observed: here the estimator is certain (P = 0, Q = 0) and differences in the first component double with every update.

### C144 Steady state

P − P' is multiplied from both sides by the transition matrices of C143; Cauchy sequences; the limit is a fixed point by monotonicity (C111); uniqueness from the same contraction; closed form for the simulation checked in Q(√401).

* `C144_steady_state` (`PropsConvergence.v`, R+)
* `C144_steady_state_unique` (`PropsConvergence.v`, R+)
* `C144_simulation` (`PropsConvergence.v`, R+)

### C145 Bounded noise, bounded error

The error recursion is linear; uniform decay of the transition matrices from the third update on, geometric series.

* `C145_error_bounded` (`PropsConvergence.v`, R+): The true state is disturbed and the sensor is wrong by at most [beta] in every step - not necessarily at random. The error of the estimate stays within a multiple [B beta] that depends on the system only, up to a term that decays geometrically.
* `C145_overconfident_diverges` (`PropsConvergence.v`, R): An estimator told that there is no process noise (Q = 0) and that its initial state is exact (P = 0) lets the error grow without bound under a constant disturbance.

### C146 Representation and value of fixed-point numbers

`FixedRep.v`; the stored integer is followed through the conversions of the constructor.

* `C146_from_rep_value` (`PropsFixedRep.v`, R): [from_rep] makes the number [v / 2^F].
* `C146_from_value_stores` (`PropsFixedRep.v`, R): [from_value] stores its argument unchanged:
* `C146_from_value_keeps_number` (`PropsFixedRep.v`, R): the number is the argument only where there are no fraction bits (or for zero).

### C147 The estimator computes what the MATLAB function computes

`kalman_m` (`Matlab.v`), matrices as lists of rows with the sizes checked as MATLAB checks them, against `update`; both sides are computed to the textbook step.

* `C147_same_step` (`PropsMatlab.v`, R): Where the innovation variance is not zero, the C++ estimator and the MATLAB function give the same gain, the same estimate and the same error covariance.
* `C147_zero_innovation` (`PropsMatlab.v`, R): Where it is zero they part: the MATLAB function inverts zero and has no finite result, the C++ estimator keeps its prediction.
* `C147_two_measurements` (`PropsMatlab.v`, R): The same for two measurements, for symmetric covariances.
* `C147_needs_symmetric_R_refuted` (`PropsMatlab.v`, R): Without symmetric [R] they differ.

### C148 The simulation computes what the MATLAB script computes

`sim_m` (`Matlab.v`) against `sim_plots`; induction over the passes with the invariant that the covariance is symmetric positive semidefinite (so the innovation variance is never zero and `P(2)`, the element below the diagonal, is the one C++ reads beside it).

* `C148_same_curves` (`PropsMatlab.v`, R): With the same draws, the script collects what the C++ program collects and one record more: 51 against 50.
* `C148_colon` (`PropsMatlab.v`, no axioms): The values [t] takes in the script: what MATLAB defines [first : step : last] to be, the numbers [first], [first + step], ... not beyond [last], in this order.

### C149 The desktop filter programs list the gains of the filter

`print_filter`, `print_pass` (`FilterPrograms.v`); the lines are read back with `lines` (`OutputSpec.v`), the gains come from C89, C91, C95 and are unique because a sinusoid that vanishes geometrically is zero.

* `C149_biquad` (`PropsFilterPrograms.v`, RC): biquad.e.cpp: after the filter's own text, the frequencies, the gains by which the filter multiplies sinusoids of these frequencies, and these gains in decibels.
* `C149_cascade` (`PropsFilterPrograms.v`, RC)
* `C149_onepole` (`PropsFilterPrograms.v`, RC)
* `C149_gain_unique` (`PropsFilterPrograms.v`, R+)
* `C149_pass` (`PropsFilterPrograms.v`, RC)

### C150 The filters of the desktop programs are what they are said to be

The literal coefficients as rationals; the squared gain is a quotient of polynomials in cos 2 pi f, whose bounds are shown by a verified subdivision (`PolyPositive.v`); the band edges by trigonometric identities.

* `C150_biquad_cheby1` (`PropsFilterExamples.v`, RC)
* `C150_biquad_cheby2` (`PropsFilterExamples.v`, RC)
* `C150_cascade_cheby2` (`PropsFilterExamples.v`, RC)
* `C150_cascade_cheby1_refuted` (`PropsFilterExamples.v`, RC): The first cascade of biquad-cascade.e.cpp is said to be cheby1(6,3,0.4); it is cheby1(6,1,0.4).
* `C150_stable` (`PropsFilterExamples.v`, R+): The sections are strictly stable: what the programs' filters do with a bounded signal is bounded (C90), and their gains are those of sinusoids (C89, C91).
* `C150_onepole` (`PropsFilterExamples.v`, R+)

### C151 What is printed for a band design is another filter

As C150 for the cascade of `print_band`; the cascade of the coefficients by C98.

* `C151_band_text` (`PropsFilterPrograms.v`, RC): [print_band] does the same with another cascade, whatever the coefficients.
* `C151_band_pass` (`PropsFilterExamples.v`, R+): It is the band pass of the comment above it (chebyshev-design.e.cpp:113-141): gain at least 0.95 from 3 to 6, at most 0.05 up to 2.5 and from 6.5, for 20 samples per unit of time.
* `C151_band_stop_refuted` (`PropsFilterExamples.v`, RC): It is printed as the design chebyshev2_bs( 100, 15, 35, 20, 30, 1, 10 ) of chebyshev-design.e.cpp:217, which asks for at least 10 decibel less from 20 to 30 and at most 1 less up to 15 and from 35, for 100 samples per unit of time; it is neither that nor the cascade of the coefficients printed above it, which changes nothing (C98).

### C152 The Octave text of the design programs

`matlab_design`, `matlab_pass`, `matlab_band` (`FilterPrograms.v`), by C68: only the first occurrence is replaced.

* `C152_biquad_design` (`PropsFilterPrograms.v`, RC): biquad-design.e.cpp: the text of the macros, "(dsp::biquad_design<FilterResponse::kind>( arguments))", gives the Octave line "kind( arguments)".
* `C152_onepole_design` (`PropsFilterPrograms.v`, RC)
* `C152_pass_text_refuted` (`PropsFilterPrograms.v`, no axioms): The second "dsp::" stays: the Octave text is not a call of the function.
* `C152_band_text` (`PropsFilterPrograms.v`, no axioms): Nor is the band pass's name replaced, which the program has when CONFIG_USE_BAND_STOP is 0.

### C153 Conversion between fixed-point and floating-point numbers, bit for bit

`fx_of_ieee`, `fx_as_ieee` (`FixedFloat.v`): product, sum with one half and truncation in Flocq's `binary_float` for any precision; scaling by a power of two is exact unless it overflows; agreement with the `double` model of C32 for every finite double.

* `C153_conversion` (`PropsFixedFloat.v`, RC): For every floating-point number, of any precision: infinities and nans are undefined behaviour; otherwise the stored integer is the described one if it fits, and the conversion is undefined if it does not.
* `C153_unique` (`PropsFixedFloat.v`, R): The description determines the integer.
* `C153_double` (`PropsFixedFloat.v`, RC): In binary64 it is what FixedIEEE.v has, for every finite double.
* `C153_float_error` (`PropsFixedFloat.v`, RC): With [float], and with [double] on AVR, the result is off by at most one step; by at most little more than half a step below [2^23] steps.
* `C153_float_round_trip` (`PropsFixedFloat.v`, RC): Up to [2^23] steps a fixed-point number is exact in [float], and converting it back gives the same number.
* `C153_float_odd_refuted` (`PropsFixedFloat.v`, RC): Between [2^23] and [2^24] steps it is exact in [float] too, but converting an odd number of steps back gives the next number.
* `C153_float_large` (`PropsFixedFloat.v`, RC): From [2^24] steps on the conversion to [float] rounds (by at most 64 of up to [2^31] steps), and what fits comes back as the rounded number; the largest 32-bit number does not fit.
* `C153_float_max_refuted` (`PropsFixedFloat.v`, RC): The 63 largest 32-bit numbers do not come back: converting to [float] gives [2^31] steps.
* `C153_double_round_trip` (`PropsFixedFloat.v`, RC): With [double] of 53 bits every fixed-point number comes back.

### C154 Constant data

The difference to the state of rest is driven by the difference of the gains, which decays (C144), through transition matrices that decay uniformly (C145); the state of rest is unique because the matrix of the steady state does not have the eigenvalue 1.

* `C154_constant_data` (`PropsTime.v`, R+): When input and measurement stay the same, whatever they are and whether or not they are consistent with each other, the estimate converges geometrically to a state that does not depend on where it started: the only one that the steady state leaves as it is.
* `C154_consistent` (`PropsTime.v`, R+): When the data are those of a state that does not move, that is the state found.

### C155 The timing program

`time_main` (`TimeProgram.v`) for any numeric type; the light as in C123; the limit by C154 with the closed form of the gain (C144); fixed point: the 256 updates that do not overflow are evaluated in the kernel, both variants, then induction.

* `C155_light` (`PropsTime.v`, no axioms): The light changes once in each pass of the loop: it is on (the port bit is set) after an even number of passes; nothing else but its direction and the pull-ups of its port is changed. So a period of the light is two passes.
* `C155_settles` (`PropsTime.v`, R+)
* `C155_runs_away` (`PropsTime.v`, R): Without gain updating on AVR the gain stays zero, and the estimate runs away as the input says.
* `C155_fixed_point` (`PropsTime.v`, R)

### C156 The simulation in double computes what exact arithmetic computes

`sim_plots` for `double` (Flocq) and for `R` side by side: an invariant carries integer bounds (units of 2^-128) for error and magnitude of each quantity and integer enclosures of the exact covariance; the bounds of all 50 passes are one evaluation in the kernel, its soundness is by induction. The correction uses (1-K)e1 + K e2 so that errors do not grow by 1+K per pass. Refuted: exact agreement (the first gain is 1/1001).

* `C156_double_simulation` (`PropsSimRounding.v`, RC): With the same random numbers, the program compiled for [double] and the program calculating exactly record 50 passes each, everything recorded in [double] is finite, and no signal differs by more than 10^-9, no gain by more than 2 10^-16 and no covariance by more than 2 10^-14.
* `C156_exact_refuted` (`PropsSimRounding.v`, RC)

### C157 The simulation in fixed point against exact arithmetic

`fixed_sim` (`FixedSim.v`) with the conversions of C153; per pass, errors of the signals are integers, those of estimate against state (needed to exclude overflow) and of estimate against exact estimate are zonotopes (`FixedSimBounds.v`): combinations of pairs of integers that prediction and correction map linearly, so that errors of position and velocity may cancel as they do. All 50 passes are one evaluation in the kernel, soundness by induction. `C157_tight`: no tolerance of the covariance below 0.021 holds. Refuted: definedness for all finite random numbers.

* `C157_fixed_simulation` (`PropsFixedSim.v`, RC): With random numbers up to 10 in magnitude, no operation of the program compiled for [fp32_t] overflows; it records 50 passes, in which position and measurement differ from exact arithmetic by at most 0.08 m, the velocity by 0.004 m/s, the estimates by 0.45 m and 0.07 m/s, the gains by 0.0003 and the covariances by 0.025.
* `C157_gains` (`PropsFixedSim.v`, RC): Gains and covariances recorded are the same for all random numbers.
* `C157_tight` (`PropsFixedSim.v`, RC)
* `C157_range_refuted` (`PropsFixedSim.v`, RC): Without the bound on the random numbers the run is undefined

### C158 Type traits on AVR

`TypeTraits.v`: a datatype of types, partial functions for what need not compile; induction on types. Refuted: the requirement of `fixed_point` (both directions), `promote` for every signed type below 64 bits.

* `C158_remove_reference` (`PropsTypeTraits.v`, no axioms): The type without reference: it is no reference, and the given type is it or a reference to it; there is only one such type.
* `C158_remove_cv` (`PropsTypeTraits.v`, no axioms)
* `C158_remove_one` (`PropsTypeTraits.v`, no axioms): [remove_const] and [remove_volatile] take away the one and leave the other.
* `C158_is_same` (`PropsTypeTraits.v`, no axioms)
* `C158_is_integral` (`PropsTypeTraits.v`, no axioms): Where [is_integral] exists it is right; it exists for ten unqualified types only, among which [bool], [char], [short] and [unsigned short] are not.
* `C158_is_signed` (`PropsTypeTraits.v`, no axioms): [is_signed] is right exactly for the signed ones of these types.
* `C158_fixed_point` (`PropsTypeTraits.v`, no axioms): On AVR these are eight, four of them unsigned, which the standard traits would reject; multiplication and division, which need a wider type, exist for three of them.
* `C158_requirement_refuted` (`PropsTypeTraits.v`, no axioms): "require signed integral implementation type", fixed-point.hpp:66, is false in both directions.
* `C158_promote` (`PropsTypeTraits.v`, no axioms): [promote_t] is the type of twice the width, for the fixed-width types of the platform; [long long] on AVR and [long] on the desktop, both of 64 bits, have none, nor has a type of the same width under another name.
* `C158_promote_refuted` (`PropsTypeTraits.v`, no axioms)
* `C158_move` (`PropsTypeTraits.v`, no axioms): Whatever its argument, an object or a value, [move] gives an rvalue reference to the argument's type.

### C159 Filter designs in floating point

`DesignIeee.v`: the designs in Flocq arithmetic, with pi, tangent and exponential as parameters; `C159_library`: correctly rounded functions are accurate enough. Errors are counted as factors 1/(1-2^-prec) for positive quantities and relative to a majorant for differences; pi by the Machin series, evaluated exactly. Stability by the triangle of C44 with margins 4K^2/D, 4/D and 2K/(QD). Refuted in `float` for 1 Hz at 20 kHz: seven possible values of the tangent, evaluated. Shelves and peak filters: C161.

* `C159_accuracy_double` (`PropsDesignRounding.v`, RC): in [double], for frequencies up to a quarter of the sample frequency, every coefficient is within [105 * 2^-53] of the exact one and the first within a relative [52 * 2^-53], for any tangent that is accurate to two units in the last place.
* `C159_accuracy_float` (`PropsDesignRounding.v`, RC): in [float] (which [double] is on AVR), within [105 * 2^-24].
* `C159_resolved_double` (`PropsDesignRounding.v`, RC): rounding keeps the poles within the unit circle if it is fine enough against the prewarped frequency, whatever that is.
* `C159_stable_double` (`PropsDesignRounding.v`, RC): in [double] every design from the [2^26]th part of the sample frequency up to 49% of it, with a quality from 1/2 to 65536, is stable; from the [2^20]th part up the low pass passes a constant within 1/2000, and it blocks half the sample frequency exactly.
* `C159_stable_float` (`PropsDesignRounding.v`, RC): in [float] only from the 4000th part up (quality at most 64); from the 200th part up the low pass passes a constant within 1%.
* `C159_float_refuted` (`PropsDesignRounding.v`, RC): in [float] (what [double] is on AVR) not further down: the low pass for 1 Hz at 20 kHz has a pole outside the unit circle, whatever the last bits of the tangent; its gain for constants has the wrong sign as well.
* `C159_onepole_double` (`PropsDesignRounding.v`, RC): the one-pole designs in [double]: stable, and the low pass passes a constant, the high pass half the sample frequency, within [2^-53].
* `C159_onepole_float` (`PropsDesignRounding.v`, RC): in [float], within [2^-24].

### C160 Inclusion of headers

`Include.v`: the directives of all 35 headers and a preprocessor with a stack of conditionals. It is reduced to visits of a graph (depth first, with guards); invariant with sets of finished and open headers, fuel bounded by the number of headers. The cycle by projection to the six headers that lead into it. Refuted: `tuple.hpp`, `biquad-design.e.cpp`.

* `C160_once` (`PropsInclude.v`, no axioms): For all compiler flags, all macros defined on the command line that guard no header, and all sequences of headers without tuple.hpp: preprocessing succeeds, each header reached contributes its own text exactly once and others nothing, and a header that is included and does not lead back comes, with all it reaches, before the text that includes it.
* `C160_again` (`PropsInclude.v`, no axioms): A header already reached adds nothing when it is included again.
* `C160_tuple_refuted` (`PropsInclude.v`, no axioms): tuple.hpp lacks an #endif: no program that includes it is preprocessed.
* `C160_names` (`PropsInclude.v`, no axioms): Which sequences give a text in which every name needed is declared before: on AVR those without biquad and onepole filters, otherwise those without registers; and never if the cycle of designs is entered at biquad-design.hpp.
* `C160_calls` (`PropsInclude.v`, no axioms): When the functions called by the designs can be found on instantiation: exactly if the cycle is entered at filter.hpp or at biquad-design.hpp (or not at all).
* `C160_biquad_design_refuted` (`PropsInclude.v`, no axioms): The program biquad-design.e.cpp is ill-formed, whatever the compiler: the text of filter.hpp comes before the declarations it uses.
* `C160_programs` (`PropsInclude.v`, no axioms): All other programs get texts in which every name needed is declared before.

### C161 Shelf and peak designs in floating point

`ShelfIeee.v`: each branch as written, with pi, tangent, square root and power as parameters (`C161_library`: correctly rounded functions and the square root of IEEE 754 qualify). Every branch is a quotient of two polynomials p0 + p1 + p2 whose coefficients are products, so roundings are counted as in C159; numerator and denominator of the spec come from a boost or its inverse. Stability by the margins 4 p0/D, 4 p2/D, 2 p1/D. Missing: shelves for `float` on the desktop, which mix types.

* `C161_accuracy_double` (`PropsShelf.v`, RC): in [double], for gains up to 40 dB and frequencies up to a quarter of the sample frequency, the coefficients are within a relative [90 * 2^-53] of the exact ones (those of the numerator relative to its first coefficient), for any mathematical library accurate to two units in the last place.
* `C161_accuracy_float` (`PropsShelf.v`, RC): where [double] has 24 bits (as on AVR), within [90 * 2^-24].
* `C161_resolved_double` (`PropsShelf.v`, RC): whatever the frequency, rounding keeps the poles within the unit circle if it is fine enough against the coefficients of the denominator.
* `C161_stable_double` (`PropsShelf.v`, RC): in [double] every design from the [2^19]th part of the sample frequency up to 49% of it, with gains up to 40 dB and quality from 1/2 to 4096, is stable.
* `C161_stable_float` (`PropsShelf.v`, RC): where [double] has 24 bits, from the 400th part up, with gains up to 12 dB and quality from 1/2 to 10.

### C162 Stability test and construction from zeros and poles in floating point

`PolesIeee.v`: `solve`, `is_stable` and the constructor as written, with complex square root and magnitude as parameters (`C162_library`: correctly rounded functions exist and qualify). Real poles: the computed discriminant is within a few units of the exact one, and a difference of squares turns an error of the discriminant into one of the pole (`PolesReal.v`); complex poles likewise by the square of the magnitude. The spec is independent of the formula: `weakly_stable` speaks about roots of nearby polynomials. `C162_exact_refuted`: a1 = -(1/2 + 2^-53), a2 = -1/2. `C162_zpk_refuted`: poles 1 - 2^-30 and 1 - 2^-30 - 2^-53 give 1 + a1 + a2 = -2^-53. Missing: zeros(), response at a frequency.

* `C162_test_double` (`PropsPoles.v`, RC): If all polynomials with coefficients within 32 units of rounding are stable, the test accepts; if none within 64 units is, it rejects.
* `C162_test_float` (`PropsPoles.v`, RC)
* `C162_exact_refuted` (`PropsPoles.v`, RC)
* `C162_zpk_double` (`PropsPoles.v`, RC): The coefficients are those of the polynomials with the given roots, up to rounding.
* `C162_zpk_float` (`PropsPoles.v`, RC)
* `C162_zpk_stable_double` (`PropsPoles.v`, RC): A filter made from poles at some distance from the unit circle passes the test.
* `C162_zpk_stable_float` (`PropsPoles.v`, RC)
* `C162_zpk_refuted` (`PropsPoles.v`, RC): Closer to the circle it need not even be stable: two real poles inside can make a filter with a pole outside the closed unit disc.

### C163 Matrices of int: exact or overflow

A relation between outcomes, equal or overflow, is preserved by sequencing and loops, so it holds for each operation of `Matrix.v` with `int_scalar w` and `Z_scalar`. The product is defined by loop invariants (done elements hold the sum, the others 0), and the converse by reading the same invariants off a run that succeeds.

* `C163_exact_or_overflow` (`PropsIntMatrix.v`, no axioms): Every operation on matrices of [int] does what it does on integers without bounds, or overflows.
* `C163_product_defined` (`PropsIntMatrix.v`, no axioms)
* `C163_product_overflows` (`PropsIntMatrix.v`, no axioms): If a product or a partial sum does not fit, multiplying is undefined, even if the result fits.
* `C163_eye_neutral` (`PropsIntMatrix.v`, no axioms): The identity matrix is neutral for all matrices of [int].

### C164 AVR initializer list and matrices made from it

`InitList.v`: the class with a pointer (an index into the memory of `Algorithm.v`, or null) and a count, and the constructor of `matrix` on that memory. The spec is `holds m p xs`, a splitting of the memory. Uses C69; the last conjuncts tie the memory to `mat_il` of `Matrix.v`, on which C01 and others rest.

* `C164_elements` (`PropsInitList.v`, no axioms): A list in braces: from [begin()] to [end()] are its elements, in order; [size()] tells how many. An empty one is as good as a list made by default.
* `C164_matrix` (`PropsInitList.v`, no axioms): A matrix made from a list in braces: element after element, row by row, the rest zero; no other memory changes. This is what the model of matrices says.
* `C164_surplus` (`PropsInitList.v`, no axioms): More elements than the matrix has: the memory behind its storage is overwritten with the surplus (undefined behaviour, which the model of matrices reports).

### C165 What covariance-error prints

`CovText.v`: the loop with its output statement, as text by `Output.v`. The program has no input, so its only run is evaluated by the kernel and compared with the lines spelled out (which were computed separately by a program in another language); runs with less fuel have not ended.

* `C165_text` (`PropsCovText.v`, RC): It ends after ten passes and prints exactly these lines; with fewer it has not ended.

### C166 Complex numbers on AVR

`AvrComplex.v`: the functions of the header as data (which are defined, their bodies, what they call) and an interpreter; programs that use the class are sequences of uses. The spec gives the meaning on pairs. Induction on programs, with the invariant that every variable is a pair. Left out: conversions between `complex<X>` and `complex<T>` in programs.

* `C166_functions` (`PropsAvrComplex.v`, no axioms): Of the functions, those that link are the constructors, assignments, getters and setters: every operator, [abs] and [sqrt] is, or calls, a function without definition.
* `C166_missing` (`PropsAvrComplex.v`, no axioms): What the linker misses: a binary operator lacks the compound operator of the same sign, for a number where the right side is a number, else for a complex number; the other functions that do not link lack their own definition.
* `C166_assignment` (`PropsAvrComplex.v`, no axioms): An assignment stores what it should, and then reaches its end without [return], which is undefined: from a number, from another complex number, from itself.
* `C166_construction` (`PropsAvrComplex.v`, no axioms): Construction, from two numbers, from a complex number, and from one of another type (here the same, as conversions of numbers are left out): the parts are those given, whatever the memory held before.
* `C166_programs` (`PropsAvrComplex.v`, no axioms): All programs: with a calculation they do not link; else with an assignment they are undefined; else they end with the variables that the declarations and setters mean.

### C167 What matrix and range programs print; loops that break

`ExampleText.v`: both programs statement by statement, on `Matrix.v` with doubles, `Range.v`, `RangeFloat.v` and the text of `Output.v`; a loop with `break` as its own recursion. Texts by evaluation against lines computed separately; more fuel does not change a loop that has ended. Loops that break: passes as in C66, then the last one.

* `C167_matrix` (`PropsExampleText.v`, RC): matrix.e.cpp is defined and prints these lines.
* `C167_range` (`PropsExampleText.v`, RC): range.e.cpp ends, none of its loops taking more than 23 passes, and prints these lines.
* `C167_break` (`PropsExampleText.v`, no axioms): If the numbers involved fit in the type, the body sees exactly the values up to and with the first that stops.
* `C167_no_break` (`PropsExampleText.v`, no axioms): If they do not fit before a value stops, the loop does not go on for ever: it overflows.

### C168 The constant pi

`Constants.v`: the literal as a rational number, rounded to the format; conversions to `float` and to a format of 64 digits. The digits by the Machin series of C159 with 50 terms, evaluated exactly. Nearest: numbers of the format between 2 and 4 are multiples of 2^(2-p), others are farther than 1/2. `C159` and others use the same numbers `pi_double`, `pi_float`.

* `C168_digits` (`PropsConstants.v`, RC): The digits of the literal are the first 40 decimals of pi.
* `C168_nearest` (`PropsConstants.v`, RC): For [double], for [float] (rounded twice), and on AVR, [num::pi<T>] is the nearest number.
* `C168_long_double_refuted` (`PropsConstants.v`, RC): For [long double] it is not: it is the [double], off by more than 2^-53.

