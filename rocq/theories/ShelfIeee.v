(** * Model of the shelf and peak designs in floating-point arithmetic

    include/dsp/filter-design.hpp:38-60 and biquad-design.hpp:179-282 for a single
    floating-point type: [T] = [double] (where [std::sqrt(2)] is a [double] as well), rounding
    included (compare [Design.v], over the reals).  The mathematical library is a parameter.
    Left out: [T] = [float] where it differs from [double], for which the shelves compute in
    a mixture of [float] and [double] and round to [float] at the end (biquad-design.hpp:72-76). *)

From Coq Require Import ZArith.
From Flocq Require Import Core IEEE754.BinarySingleNaN.
From Verif Require Import Base Ieee Biquad DesignIeee.
Local Open Scope Z_scope.

Section Design.

Context (prec emax : Z) {Hprec : Prec_gt_0 prec} {Hmax : Prec_lt_emax prec emax}.
(** [num::pi<T>] (constants.hpp:14), [std::tan] (filter-design.hpp:25), [std::sqrt]
    (biquad-design.hpp:192), [std::pow] (filter-design.hpp:43). *)
Context (pi : binary_float prec emax) (tanT sqrtT : binary_float prec emax -> binary_float prec emax).
Context (powT : binary_float prec emax -> binary_float prec emax -> binary_float prec emax).

Local Notation T := (binary_float prec emax).
Local Notation "x + y" := (Bplus mode_NE x y).
Local Notation "x - y" := (Bminus mode_NE x y).
Local Notation "x * y" := (Bmult mode_NE x y).
Local Notation "x / y" := (Bdiv mode_NE x y).
(** An [int] in an expression with [T] is converted to it (biquad-design.hpp:192-197);
    [T{10}] and [T{2}] (filter-design.hpp:43, 59) are the same. *)
Local Notation int z := (ieee_of_Z prec emax z).

(** filter-design.hpp:40-44, [dbP_factor( dbv )]. *)
Definition ieee_dbP_factor (dbv : T) : T := powT (int 10) (Babs dbv / int 10).
(** filter-design.hpp:56-60, [dbV_factor( dbv )]. *)
Definition ieee_dbV_factor (dbv : T) : T := ieee_dbP_factor dbv / int 2.

(** biquad-design.hpp:189, 224, 259, [dbGain >= 0]; false for a NaN. *)
Definition ieee_boosts (dbGain : T) : bool :=
  match Bcompare dbGain (int 0) with Some Lt | None => false | Some _ => true end.

(** biquad-design.hpp:189-212, low shelf from [V] and [K]. *)
Definition ieee_low_shelf (boost : bool) (V K : T) : coeff_b T * coeff_a T :=
  if boost then
    let norm := int 1 / (int 1 + sqrtT (int 2) * K + K * K) in
    ({| b0 := (int 1 + sqrtT (int 2 * V) * K + V * K * K) * norm;
        b1 := int 2 * (V * K * K - int 1) * norm;
        b2 := (int 1 - sqrtT (int 2 * V) * K + V * K * K) * norm |},
     {| a1 := int 2 * (K * K - int 1) * norm;
        a2 := (int 1 - sqrtT (int 2) * K + K * K) * norm |})
  else
    let norm := int 1 / (int 1 + sqrtT (int 2 * V) * K + V * K * K) in
    ({| b0 := (int 1 + sqrtT (int 2) * K + K * K) * norm;
        b1 := int 2 * (K * K - int 1) * norm;
        b2 := (int 1 - sqrtT (int 2) * K + K * K) * norm |},
     {| a1 := int 2 * (V * K * K - int 1) * norm;
        a2 := (int 1 - sqrtT (int 2 * V) * K + V * K * K) * norm |}).

(** biquad-design.hpp:224-247, high shelf from [V] and [K]. *)
Definition ieee_high_shelf (boost : bool) (V K : T) : coeff_b T * coeff_a T :=
  if boost then
    let norm := int 1 / (int 1 + sqrtT (int 2) * K + K * K) in
    ({| b0 := (V + sqrtT (int 2 * V) * K + K * K) * norm;
        b1 := int 2 * (K * K - V) * norm;
        b2 := (V - sqrtT (int 2 * V) * K + K * K) * norm |},
     {| a1 := int 2 * (K * K - int 1) * norm;
        a2 := (int 1 - sqrtT (int 2) * K + K * K) * norm |})
  else
    let norm := int 1 / (V + sqrtT (int 2 * V) * K + K * K) in
    ({| b0 := (int 1 + sqrtT (int 2) * K + K * K) * norm;
        b1 := int 2 * (K * K - int 1) * norm;
        b2 := (int 1 - sqrtT (int 2) * K + K * K) * norm |},
     {| a1 := int 2 * (K * K - V) * norm;
        a2 := (V - sqrtT (int 2 * V) * K + K * K) * norm |}).

(** biquad-design.hpp:259-282, peak band equalizer from [V], [K] and [Q]. *)
Definition ieee_peak_band_eq (boost : bool) (V K Q : T) : coeff_b T * coeff_a T :=
  if boost then
    let norm := int 1 / (int 1 + int 1 / Q * K + K * K) in
    let b1 := int 2 * (K * K - int 1) * norm in
    ({| b0 := (int 1 + V / Q * K + K * K) * norm;
        b1 := b1;
        b2 := (int 1 - V / Q * K + K * K) * norm |},
     {| a1 := b1;
        a2 := (int 1 - int 1 / Q * K + K * K) * norm |})
  else
    let norm := int 1 / (int 1 + V / Q * K + K * K) in
    let b1 := int 2 * (K * K - int 1) * norm in
    ({| b0 := (int 1 + int 1 / Q * K + K * K) * norm;
        b1 := b1;
        b2 := (int 1 - int 1 / Q * K + K * K) * norm |},
     {| a1 := b1;
        a2 := (int 1 - V / Q * K + K * K) * norm |}).

(** biquad-design.hpp:27-37, [FilterResponse]; those of biquad-design.hpp:179-282. *)
Inductive gain_response := LowShelf | HighShelf | Peak.
(** biquad-design.hpp:181-300, [biquad_design<R>( dbGain, f, fs, Q )] for these three. *)
Definition ieee_gain_design (r : gain_response) (dbGain f fs Q : T) : coeff_b T * coeff_a T :=
  let V := ieee_dbV_factor dbGain in
  let K := ieee_prewarp prec emax pi tanT f fs in
  let boost := ieee_boosts dbGain in
  match r with
  | LowShelf => ieee_low_shelf boost V K
  | HighShelf => ieee_high_shelf boost V K
  | Peak => ieee_peak_band_eq boost V K Q
  end.

End Design.
