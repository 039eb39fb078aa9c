(** * num/constants.hpp: the constant pi *)
From Coq Require Import ZArith Bool.
From Flocq Require Import Core IEEE754.BinarySingleNaN.
From Verif Require Import Kalman KalmanSim Ieee KalmanIeee.
Local Open Scope Z_scope.

(** constants.hpp:14, the digits of the literal, a [double]: this number over 10^40. *)
Definition pi_num : Z := 31415926535897932384626433832795028841971.
(** (constants.hpp:14) *)
Definition pi_den : Z := 10 ^ 40.

(** The value of a positive decimal literal n/d (language; constants.hpp:14) where [double] has
    the given format: the nearest number, as gcc chooses it.  The quotient is cut off after
    200 binary digits, and a last digit set if anything was cut off, which rounds the same
    way for formats with far fewer digits. *)
Definition decimal (prec emax : Z) {Hp : Prec_gt_0 prec} {Hm : Prec_lt_emax prec emax} (n d : Z)
  : binary_float prec emax :=
  let q := n * 2 ^ 200 / d in
  let r := (n * 2 ^ 200) mod d in
  binary_normalize prec emax Hp Hm mode_NE (2 * q + (if r =? 0 then 0 else 1)) (-201) false.

(** constants.hpp:13-14, [num::pi<double>] on the desktop. *)
Definition num_pi_double : double := decimal 53 1024 pi_num pi_den.
(** constants.hpp:13-14, [num::pi<float>] on the desktop: the [double] converted. *)
Definition num_pi_float : float := double_to_float num_pi_double.
(** constants.hpp:13-14, [num::pi<T>] on AVR, where [double] is [float]. *)
Definition num_pi_avr : float := decimal 24 128 pi_num pi_den.

(** x86's [long double]: 64 binary digits (platform; a [T] for constants.hpp:13). *)
Definition extended := binary_float 64 16384.
(** (constants.hpp:13) *)
Definition Hp64 : Prec_gt_0 64 := eq_refl.
(** (constants.hpp:13) *)
Definition Hm64 : Prec_lt_emax 64 16384 := eq_refl.
(** constants.hpp:13-14, [num::pi<long double>]: the literal has no suffix [L], so it is the
    [double] converted. *)
Definition num_pi_extended : extended :=
  match num_pi_double with
  | B754_zero s => B754_zero s
  | B754_infinity s => B754_infinity s
  | B754_nan => B754_nan
  | B754_finite s m e _ => binary_normalize 64 16384 Hp64 Hm64 mode_NE (cond_Zopp s (Zpos m)) e s
  end.
