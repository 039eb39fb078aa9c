(** * Specification of filter designs with rounding *)

From Coq Require Import ZArith Reals.
From Flocq Require Import Core IEEE754.BinarySingleNaN.
From Verif Require Import Biquad BiquadSpec Design DesignIeee.
Local Open Scope R_scope.

Section Spec.

Context (prec emax : Z).

(** The library's tangent has a relative error of at most 2 units in the last place (of a
    mantissa in [1,2)) between 0 and a right angle. *)
Definition tan_ok (tanT : binary_float prec emax -> binary_float prec emax) : Prop :=
  forall x, is_finite x = true -> 0 < B2R x < PI / 2 ->
    is_finite (tanT x) = true /\
    Rabs (B2R (tanT x) - tan (B2R x)) <= 4 * bpow radix2 (- prec) * tan (B2R x).

(** The library's exponential function: so for arguments from -4 to 0. *)
Definition exp_ok (expT : binary_float prec emax -> binary_float prec emax) : Prop :=
  forall x, is_finite x = true -> -4 <= B2R x < 0 ->
    is_finite (expT x) = true /\
    Rabs (B2R (expT x) - exp (B2R x)) <= 4 * bpow radix2 (- prec) * exp (B2R x).

End Spec.

(** Second order filters by the bilinear transform, as in a text book: with prewarped
    frequency [k] and quality [q], [lead] is the leading coefficient of the denominator. *)
Definition lead (k q : R) : R := 1 + k / q + k * k.
Definition exact_a1 (k q : R) : R := 2 * (k * k - 1) / lead k q.
Definition exact_a2 (k q : R) : R := (1 - k / q + k * k) / lead k q.

(** The responses of the real design they belong to. *)
Definition kind (r : basic_response) : filter_response :=
  match r with Low => low_pass | High => high_pass | Pass => band_pass | Stop => band_stop end.
Definition exact_b (r : basic_response) (k q : R) : coeff_b R :=
  let D := lead k q in
  match r with
  | Low => {| b0 := k * k / D; b1 := 2 * (k * k / D); b2 := k * k / D |}
  | High => {| b0 := 1 / D; b1 := -2 * (1 / D); b2 := 1 / D |}
  | Pass => {| b0 := k / q / D; b1 := 0; b2 := - (k / q / D) |}
  | Stop => {| b0 := (1 + k * k) / D; b1 := exact_a1 k q; b2 := (1 + k * k) / D |}
  end.

(** The rounding errors, of relative size [2^-prec], are small enough against [k^2], 1 and
    [k/q] to keep the poles inside the unit circle. *)
Definition resolved (prec : Z) (k q : R) : Prop :=
  let u := bpow radix2 (- prec) in
  7 * u * lead k q < 1 /\ 7 * u * lead k q < k * k /\ 5 * u * lead k q < k / q.

(** A section with floating-point coefficients, against exact coefficients. *)
Section Close.

Context {prec emax : Z}.
Notation T := (binary_float prec emax).

Definition all_finite (c : coeff_b T * coeff_a T) : Prop :=
  is_finite (b0 (fst c)) = true /\ is_finite (b1 (fst c)) = true /\ is_finite (b2 (fst c)) = true /\
  is_finite (a1 (snd c)) = true /\ is_finite (a2 (snd c)) = true.
(** All coefficients are off by at most [d], the first one by at most the fraction [e]. *)
Definition close_to (c : coeff_b T * coeff_a T) (b : coeff_b R) (a : coeff_a R) (e d : R) : Prop :=
  Rabs (B2R (b0 (fst c)) - b0 b) <= e * b0 b /\
  Rabs (B2R (b0 (fst c)) - b0 b) <= d /\ Rabs (B2R (b1 (fst c)) - b1 b) <= d /\ Rabs (B2R (b2 (fst c)) - b2 b) <= d /\
  Rabs (B2R (a1 (snd c)) - a1 a) <= d /\ Rabs (B2R (a2 (snd c)) - a2 a) <= d.


(** The poles of the section are within the unit circle... *)
Definition section_stable (c : coeff_b T * coeff_a T) : Prop :=
  strictly_stable (B2R (a1 (snd c))) (B2R (a2 (snd c))).
(** ... and its gain at frequency 0 ([z = 1]) and at half the sample frequency ([z = -1]). *)
Definition dc_gain (c : coeff_b T * coeff_a T) : R :=
  (B2R (b0 (fst c)) + B2R (b1 (fst c)) + B2R (b2 (fst c))) / (1 + B2R (a1 (snd c)) + B2R (a2 (snd c))).
Definition nyquist_numerator (c : coeff_b T * coeff_a T) : R :=
  B2R (b0 (fst c)) - B2R (b1 (fst c)) + B2R (b2 (fst c)).

End Close.
