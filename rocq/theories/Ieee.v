(** * Floating-point numbers as numeric type

    [double] of the desktop programs (example/desktop/kalman-sim.e.cpp:26,
    example/desktop/biquad.e.cpp:18, biquad-cascade.e.cpp:22, onepole.e.cpp:18) and [float], which
    is also what [double] is on AVR (avr-gcc: [sizeof(double) == 4]): IEEE 754 binary64 and
    binary32, bit for bit, from the formalisation of Flocq.  Every operation rounds to
    nearest, ties to even.  Simplifications: all nans are one value; an operation is carried
    out in the precision of its type (FLT_EVAL_METHOD 0) and not contracted with another. *)

From Coq Require Import ZArith Reals Lia.
From Flocq Require Import Core IEEE754.BinarySingleNaN.
From Verif Require Import Base.
Local Open Scope Z_scope.

Section Ieee.

Context (prec emax : Z) {Hprec : Prec_gt_0 prec} {Hmax : Prec_lt_emax prec emax}.

(** An integer constant converted to the type, such as [V{0}] in biquad.hpp:33 or the
    initialisers of kalman-sim.e.cpp:56-71. *)
Definition ieee_of_Z (z : Z) : binary_float prec emax :=
  binary_normalize prec emax Hprec Hmax mode_NE z 0 false.

(** The arithmetic of floating-point element types (matrix.hpp:45, kalman.hpp:27,
    biquad.hpp:243-266, onepole.hpp:224).  Division by zero gives an infinity or nan
    (IEC 60559), never an undefined result. *)
Definition ieee_scalar : scalar (binary_float prec emax) := {|
  sc_zero := B754_zero false;
  sc_one  := ieee_of_Z 1;
  sc_add  := fun a b => Ok (Bplus mode_NE a b);
  sc_sub  := fun a b => Ok (Bminus mode_NE a b);
  sc_mul  := fun a b => Ok (Bmult mode_NE a b);
  sc_div  := fun a b => Ok (Bdiv mode_NE a b);
  sc_opp  := fun a => Ok (Bopp a);
  sc_nz   := fun a => match a with B754_zero _ => false | _ => true end
|}.

End Ieee.

(** The parameters of [double] and [float] are valid (IEC 60559; kalman-sim.e.cpp:26,
    covariance-error.e.cpp:10). *)
#[global] Instance double_prec : Prec_gt_0 53 := eq_refl.
(** (kalman-sim.e.cpp:26) *)
#[global] Instance double_emax : Prec_lt_emax 53 1024 := eq_refl.
(** (covariance-error.e.cpp:10) *)
#[global] Instance float_prec : Prec_gt_0 24 := eq_refl.
(** (covariance-error.e.cpp:10) *)
#[global] Instance float_emax : Prec_lt_emax 24 128 := eq_refl.

(** [double] on the desktop (kalman-sim.e.cpp:26). *)
Definition double := binary_float 53 1024.
(** Its arithmetic (kalman-sim.e.cpp:26, biquad.e.cpp:18, onepole.e.cpp:18). *)
Definition double_scalar : scalar double := ieee_scalar 53 1024.
(** [float] (covariance-error.e.cpp:10) and [double] on AVR (avr-kalman-time.cpp:190). *)
Definition float := binary_float 24 128.
(** Its arithmetic (covariance-error.e.cpp:10, avr-kalman-time.cpp:190). *)
Definition float_scalar : scalar float := ieee_scalar 24 128.
