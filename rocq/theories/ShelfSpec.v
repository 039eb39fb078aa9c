(** * Specification of shelf and peak designs with rounding *)

From Coq Require Import ZArith Reals.
From Flocq Require Import Core IEEE754.BinarySingleNaN.
From Verif Require Import Biquad BiquadSpec Design ShelfIeee.
Local Open Scope R_scope.

Section Spec.

Context (prec emax : Z).
Notation T := (binary_float prec emax).

(** The library's square root has a relative error of at most 1 unit in the last place (of a
    mantissa in [1,2)); IEEE 754 demands half of that. *)
Definition sqrt_ok (sqrtT : T -> T) : Prop :=
  forall x, is_finite x = true -> bpow radix2 (-2) <= B2R x <= bpow radix2 30 ->
    is_finite (sqrtT x) = true /\
    Rabs (B2R (sqrtT x) - sqrt (B2R x)) <= 2 * bpow radix2 (- prec) * sqrt (B2R x).

(** The library's powers of 10 have a relative error of at most 2 units. *)
Definition pow_ok (powT : T -> T -> T) : Prop :=
  forall b x, is_finite b = true -> is_finite x = true -> B2R b = 10 -> 0 <= B2R x <= 5 ->
    is_finite (powT b x) = true /\
    Rabs (B2R (powT b x) - Rpower 10 (B2R x)) <= 4 * bpow radix2 (- prec) * Rpower 10 (B2R x).

End Spec.

(** The polynomial [p0 + p1 s + p2 s^2] in the normalised frequency becomes
    [total + middle z^-1 + last z^-2] under the bilinear transform. *)
Record quad := { p0 : R; p1 : R; p2 : R }.
Definition total (p : quad) : R := p0 p + p1 p + p2 p.
Definition middle (p : quad) : R := 2 * (p2 p - p0 p).
Definition last (p : quad) : R := p0 p - p1 p + p2 p.

(** The polynomials of the three responses with prewarped frequency [k], quality [q] and
    factor [v]: without gain, and with. *)
Definition plain (r : gain_response) (k q : R) : quad :=
  match r with
  | Peak => {| p0 := 1; p1 := k / q; p2 := k * k |}
  | _ => {| p0 := 1; p1 := sqrt 2 * k; p2 := k * k |}
  end.
Definition gained (r : gain_response) (v k q : R) : quad :=
  match r with
  | LowShelf => {| p0 := 1; p1 := sqrt (2 * v) * k; p2 := v * (k * k) |}
  | HighShelf => {| p0 := v; p1 := sqrt (2 * v) * k; p2 := k * k |}
  | Peak => {| p0 := 1; p1 := v * (k / q); p2 := k * k |}
  end.
(** A cut is the inverse of a boost. *)
Definition upper (boost : bool) r v k q : quad := if boost then gained r v k q else plain r k q.
Definition lower (boost : bool) r v k q : quad := if boost then plain r k q else gained r v k q.

(** The factor of a gain [g] in dB, as the project has it. *)
Definition factor (g : R) : R := Rpower 10 (Rabs g / 10) / 2.

(** A section [c] against the exact one of the polynomials [n] and [d]: the errors of the
    numerator are relative to its first coefficient. *)
Definition near_section {prec emax} (c : coeff_b (binary_float prec emax) * coeff_a (binary_float prec emax)) (n d : quad) (e : R) : Prop :=
  let D := total d in let g := total n / D in
  Rabs (B2R (b0 (fst c)) - total n / D) <= e * g /\
  Rabs (B2R (b1 (fst c)) - middle n / D) <= 2 * e * g /\
  Rabs (B2R (b2 (fst c)) - last n / D) <= e * g /\
  Rabs (B2R (a1 (snd c)) - middle d / D) <= 2 * e /\
  Rabs (B2R (a2 (snd c)) - last d / D) <= e.

(** The responses of the real design they belong to. *)
Definition gain_kind (r : gain_response) : filter_response :=
  match r with LowShelf => low_shelf | HighShelf => high_shelf | Peak => peak_band_eq end.

(** The rounding errors, of relative size [2^-prec], are small enough against the
    denominator's coefficients to keep the poles inside the unit circle. *)
Definition resolved3 (prec : Z) (d : quad) : Prop :=
  let u := bpow radix2 (- prec) in
  13 * u * total d < p0 d /\ 13 * u * total d < p2 d /\ 9 * u * total d < p1 d.
