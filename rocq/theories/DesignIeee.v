(** * Model of the filter designs in floating-point arithmetic

    include/dsp/filter-design.hpp:20-26, biquad-design.hpp:99-177 (low pass, high pass, band
    pass, band stop) and onepole-design.hpp:70-96 for [T] = [float] or [double], rounding
    included (compare [Design.v], over the reals).  The mathematical library is a parameter.
    Shelves and peak filters: [ShelfIeee.v]. *)

From Coq Require Import ZArith.
From Flocq Require Import Core IEEE754.BinarySingleNaN.
From Verif Require Import Base Ieee Biquad.
Local Open Scope Z_scope.

Section Design.

Context (prec emax : Z) {Hprec : Prec_gt_0 prec} {Hmax : Prec_lt_emax prec emax}.
(** [num::pi<T>] (constants.hpp:14), [std::tan] (filter-design.hpp:25), [exp]
    (onepole-design.hpp:78, 92). *)
Context (pi : binary_float prec emax) (tanT expT : binary_float prec emax -> binary_float prec emax).

Local Notation T := (binary_float prec emax).
Local Notation "x + y" := (Bplus mode_NE x y).
Local Notation "x - y" := (Bminus mode_NE x y).
Local Notation "x * y" := (Bmult mode_NE x y).
Local Notation "x / y" := (Bdiv mode_NE x y).
(** An [int] in an expression with [T] is converted to it (biquad-design.hpp:108-113). *)
Local Notation int z := (ieee_of_Z prec emax z).

(** filter-design.hpp:20-26, [prewarp( f, fs )]. *)
Definition ieee_prewarp (f fs : T) : T := tanT (pi * f / fs).

(** biquad-design.hpp:108, 128, 148, 168: the common [norm]. *)
Definition ieee_norm (K Q : T) : T := int 1 / (int 1 + K / Q + K * K).
(** biquad-design.hpp:112-113, 132-133, 152-153, 172-173 ([a1] of the band stop is its [b1],
    the same expression). *)
Definition ieee_den (K Q : T) : coeff_a T :=
  let norm := ieee_norm K Q in
  {| a1 := int 2 * (K * K - int 1) * norm;
     a2 := (int 1 - K / Q + K * K) * norm |}.

(** biquad-design.hpp:101-117, low pass; [K] is the prewarped frequency. *)
Definition ieee_low_pass (K Q : T) : coeff_b T * coeff_a T :=
  let norm := ieee_norm K Q in
  let b0 := K * K * norm in
  ({| b0 := b0; b1 := int 2 * b0; b2 := b0 |}, ieee_den K Q).
(** biquad-design.hpp:121-137, high pass. *)
Definition ieee_high_pass (K Q : T) : coeff_b T * coeff_a T :=
  let norm := ieee_norm K Q in
  let b0 := int 1 * norm in
  ({| b0 := b0; b1 := int (-2) * b0; b2 := b0 |}, ieee_den K Q).
(** biquad-design.hpp:141-157, band pass. *)
Definition ieee_band_pass (K Q : T) : coeff_b T * coeff_a T :=
  let norm := ieee_norm K Q in
  let b0 := K / Q * norm in
  ({| b0 := b0; b1 := int 0; b2 := Bopp b0 |}, ieee_den K Q).
(** biquad-design.hpp:161-177, band stop. *)
Definition ieee_band_stop (K Q : T) : coeff_b T * coeff_a T :=
  let norm := ieee_norm K Q in
  let b0 := (int 1 + K * K) * norm in
  ({| b0 := b0; b1 := int 2 * (K * K - int 1) * norm; b2 := b0 |}, ieee_den K Q).

(** biquad-design.hpp:27-37, [FilterResponse]; those of biquad-design.hpp:101-177. *)
Inductive basic_response := Low | High | Pass | Stop.
(** biquad-design.hpp:286-300, [biquad_design<R>( dbGain, f, fs, Q )] for arguments of type
    [T]; the gain is not used by these four. *)
Definition ieee_biquad_design (r : basic_response) (f fs Q : T) : coeff_b T * coeff_a T :=
  let K := ieee_prewarp f fs in
  match r with
  | Low => ieee_low_pass K Q | High => ieee_high_pass K Q
  | Pass => ieee_band_pass K Q | Stop => ieee_band_stop K Q
  end.

(** onepole-design.hpp:74-83, low pass: coefficients b0 and a1; [abs] as for [double]. *)
Definition ieee_onepole_low_pass (f fs : T) : T * T :=
  let a1 := Bopp (expT (Bopp (int 1) * pi * f / fs)) in
  (int 1 - Babs a1, a1).
(** onepole-design.hpp:88-97, high pass; [T{0.5}] is exact. *)
Definition ieee_onepole_high_pass (f fs : T) : T * T :=
  let half := int 1 / int 2 in
  let a1 := expT (Bopp (int 1) * pi * (half - f / fs)) in
  (int 1 - Babs a1, a1).

End Design.

(** constants.hpp:14, [num::pi<double>]: the decimal constant rounded to nearest. *)
Definition pi_double : double := @B754_finite 53 1024 false 7074237752028440 (-51) eq_refl.
(** constants.hpp:14, [num::pi<float>]. *)
Definition pi_float : float := @B754_finite 24 128 false 13176795 (-22) eq_refl.
