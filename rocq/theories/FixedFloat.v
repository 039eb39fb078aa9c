(** * Conversion of fixed-point numbers from and to floating-point numbers, bit for bit

    fixed-point.hpp:104-110 and 129-138 in IEEE arithmetic of any precision: [float] on every
    platform, [double] on the desktop, and [double] on AVR, which has 32 bits there.
    Infinities, nans and overflow are included. *)

From Coq Require Import ZArith Bool.
From Flocq Require Import Core IEEE754.BinarySingleNaN.
From Verif Require Import Base Scalars FixedPoint Ieee.
Local Open Scope Z_scope.

Section FixedFloat.

Context (prec emax : Z) {Hprec : Prec_gt_0 prec} {Hmax : Prec_lt_emax prec emax}.

(** [static_cast<T>] of a floating-point number to a signed integer type of [w] bits
    (fixed-point.hpp:105, 109): truncation; what does not fit, infinities and nans are
    undefined (language rule). *)
Definition ieee_to_int (w : Z) (x : binary_float prec emax) : outcome Z :=
  match x with
  | B754_infinity _ | B754_nan => Err SignedOverflow
  | _ => chk w (Btrunc x)
  end.

(** The literal [0.5f] or [0.5] of fixed-point.hpp:105, 109. *)
Definition ieee_half : binary_float prec emax :=
  Bdiv mode_NE (ieee_of_Z prec emax 1) (ieee_of_Z prec emax 2).

(** fixed-point.hpp:104-106 and 108-110, [fixed_point( float )] and [fixed_point( double )];
    [detail::power2(F) * value] converts the [int64_t] to the type of [value]. *)
Definition fx_of_ieee (c : fx) (value : binary_float prec emax) : outcome Z :=
  p <- power2 (fx_F c) ;;
  ieee_to_int (fx_w c)
    (Bplus mode_NE (Bmult mode_NE (ieee_of_Z prec emax p) value)
       (if Bleb (B754_zero false) value then ieee_half else Bopp ieee_half)).

(** fixed-point.hpp:135-138, [as_double()], and 129-133, [as<U>()] for a floating-point type. *)
Definition fx_as_ieee (c : fx) (a : Z) : outcome (binary_float prec emax) :=
  p <- power2 (fx_F c) ;;
  Ok (Bdiv mode_NE (ieee_of_Z prec emax (fx_rep c a)) (ieee_of_Z prec emax p)).

End FixedFloat.
