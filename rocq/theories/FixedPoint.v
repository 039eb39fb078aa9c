(** * Model of include/num/fixed-point.hpp

    A [fixed_point<T,I,F>] object is its [storage] member (line 220), an integer of the
    signed type [T]. *)

From Coq Require Import ZArith Reals List Lia Bool.
From Verif Require Import Base Scalars.
Local Open Scope Z_scope.

(** The template arguments and the platform (fixed-point.hpp:57-66).

    [fx_w]      number of bits of [T]
    [fx_ib]     number of bits of [int] on the platform: 32 on the desktop, 16 on AVR
    [fx_F]      number of fraction bits, [F]
    [fx_cpp20]  whether shifting a negative value left is defined (C++20, and what gcc
                does in every mode); the repository is compiled as C++17. *)
Record fx := { fx_w : Z; fx_ib : Z; fx_F : Z; fx_cpp20 : bool }.

(** fixed-point.hpp:62-64: the default [F] is [numeric_limits<T>::digits - I], where
    [digits] is the width without the sign bit (std/limits.hpp:47, desktop: std). *)
Definition default_F (w I : Z) : Z := (w - 1) - I.

(** Conversion of an integer to the signed type of [w] bits: modulo [2^w]
    (implementation-defined before C++20, modular in gcc). Used by the [static_cast<T>] of
    fixed-point.hpp:101, 157, 163, the compound assignments 147, 152 and the argument
    conversion of line 143. *)
Definition wrap (w v : Z) : Z := (v + 2 ^ (w - 1)) mod 2 ^ w - 2 ^ (w - 1).

(** Width of the type in which an operation on a value of width [w] is computed: integer
    promotion to [int]. (Language rule, used by fixed-point.hpp:143-163.) *)
Definition arith_width (c : fx) (w : Z) : Z := Z.max w (fx_ib c).

(** fixed-point.hpp:36-43, [promote_t<T>]: twice the width. *)
Definition promote_width (w : Z) : Z := 2 * w.

(** fixed-point.hpp:47-53, [power2]: loop of doublings in [int64_t]. *)
Fixpoint power2_loop (n : nat) (result : Z) : outcome Z :=
  match n with
  | O => Ok result
  | S n' => r <- chk 64 (result * 2) ;; power2_loop n' r
  end.
(** fixed-point.hpp:47-53, [power2]. *)
Definition power2 (n : Z) : outcome Z := power2_loop (Z.to_nat n) 1.

(** fixed-point.hpp:99-102, construction from an integer [value] of a signed type of at
    most 64 bits or an unsigned type of at most 32 bits: computed in [int64_t]. *)
Definition fx_of_int (c : fx) (value : Z) : outcome Z :=
  p <- power2 (fx_F c) ;; v <- chk 64 (p * value) ;; Ok (wrap (fx_w c) v).

(** Truncation of a real towards zero (language rule for [static_cast] of a floating-point
    value to an integer; used by fixed-point.hpp:104-110). *)
Definition Rtrunc (r : R) : Z :=
  if Rle_dec 0 r then Int_part r else - Int_part (- r).

(** fixed-point.hpp:104-110, construction from [float] and [double]: multiply, add or
    subtract one half, truncate; a value outside [T] is undefined behaviour.
    Simplification: the floating-point operations are exact; FixedIEEE.v models the
    rounding of the addition. *)
Definition fx_of_real (c : fx) (value : R) : outcome Z :=
  p <- power2 (fx_F c) ;;
  chk (fx_w c) (Rtrunc (IZR p * value + (if Rle_dec 0 value then 1/2 else - (1/2))))%R.

(** fixed-point.hpp:114-117, [min()]. *)
Definition fx_min (c : fx) : Z := - 2 ^ (fx_w c - 1).
(** fixed-point.hpp:119-122, [max()]. *)
Definition fx_max (c : fx) : Z := 2 ^ (fx_w c - 1) - 1.

(** fixed-point.hpp:95-97, [fixed_point( construct, value )], with the conversion of the
    argument to [T]; fixed-point.hpp:237-249 [from_rep]. *)
Definition fx_construct (c : fx) (value : Z) : Z := wrap (fx_w c) value.

(** fixed-point.hpp:124-127, [underlying_value()]; 223-235 [to_rep]. *)
Definition fx_rep (c : fx) (a : Z) : Z := a.

(** fixed-point.hpp:129-133, [as<U>()] for a signed integer type of [wu] bits; the division
    is computed in [int64_t]. *)
Definition fx_as_int (c : fx) (wu a : Z) : outcome Z :=
  p <- power2 (fx_F c) ;; Ok (Z.quot (wrap wu (fx_rep c a)) p).

(** fixed-point.hpp:135-138, [as_double()] (129-133 with a floating-point type). Exact for
    [double]: at most 32 bits divided by a power of two. *)
Definition fx_as_real (c : fx) (a : Z) : outcome R :=
  p <- power2 (fx_F c) ;; Ok (IZR (fx_rep c a) / IZR p)%R.

(** fixed-point.hpp:142, unary plus. *)
Definition fx_pos (c : fx) (a : Z) : outcome Z := Ok a.

(** fixed-point.hpp:143, unary minus: [-storage] in the promoted type, converted to [T]. *)
Definition fx_neg (c : fx) (a : Z) : outcome Z :=
  v <- chk (arith_width c (fx_w c)) (- a) ;; Ok (fx_construct c v).

(** fixed-point.hpp:145-148 and 167-170. *)
Definition fx_add (c : fx) (a b : Z) : outcome Z :=
  v <- chk (arith_width c (fx_w c)) (a + b) ;; Ok (wrap (fx_w c) v).

(** fixed-point.hpp:150-153 and 172-175. *)
Definition fx_sub (c : fx) (a b : Z) : outcome Z :=
  v <- chk (arith_width c (fx_w c)) (a - b) ;; Ok (wrap (fx_w c) v).

(** [v >> n] in a signed type of [w] bits: arithmetic shift, rounds down. (Language rule,
    gcc for negative [v]; used by fixed-point.hpp:157.) *)
Definition sshr (w v n : Z) : outcome Z :=
  if (0 <=? n) && (n <? w) then Ok (v / 2 ^ n) else Err BadShift.

(** [v << n] in a signed type of [w] bits. (Language rule; used by fixed-point.hpp:163.)
    Simplification: a result that does not fit counts as undefined. *)
Definition sshl (cpp20 : bool) (w v n : Z) : outcome Z :=
  if negb ((0 <=? n) && (n <? w)) then Err BadShift
  else if (v <? 0) && negb cpp20 then Err BadShift
  else chk w (v * 2 ^ n).

(** fixed-point.hpp:155-159 and 177-180. *)
Definition fx_mul (c : fx) (a b : Z) : outcome Z :=
  let w := arith_width c (promote_width (fx_w c)) in
  p <- chk w (a * b) ;; q <- sshr w p (fx_F c) ;; Ok (wrap (fx_w c) q).

(** fixed-point.hpp:161-165 and 182-185. *)
Definition fx_div (c : fx) (a b : Z) : outcome Z :=
  let w := arith_width c (promote_width (fx_w c)) in
  n <- sshl (fx_cpp20 c) w a (fx_F c) ;;
  if b =? 0 then Err DivByZero else
  q <- chk w (Z.quot n b) ;; Ok (wrap (fx_w c) q).

(** fixed-point.hpp:189-192, [==]. *)
Definition fx_eq (a b : Z) : bool := a =? b.
(** fixed-point.hpp:194-197, [!=]. *)
Definition fx_ne (a b : Z) : bool := negb (fx_eq a b).
(** fixed-point.hpp:199-202, [<]. *)
Definition fx_lt (a b : Z) : bool := a <? b.
(** fixed-point.hpp:204-207, [<=]. *)
Definition fx_le (a b : Z) : bool := negb (fx_lt b a).
(** fixed-point.hpp:209-212, [>]. *)
Definition fx_gt (a b : Z) : bool := fx_lt b a.
(** fixed-point.hpp:214-217, [>=]. *)
Definition fx_ge (a b : Z) : bool := negb (fx_lt a b).

(** [fixed_point] as element type of [matrix] and [kalman] (fixed-point.hpp:57-220,
    matrix.hpp:45, kalman.hpp:27): [T(0)], [T(1)] by lines 99-102
    (their storage is [0] and [wrap (2^F)]), [v != 0] by lines 194-197 with [0] converted.
    Simplification: the constants are written out because the record has no failing
    constants; [fx_of_int_0], [fx_of_int_1] in FixedProofs.v show they are what the
    constructor gives. *)
Definition fx_scalar (c : fx) : scalar Z := {|
  sc_zero := 0;
  sc_one  := wrap (fx_w c) (2 ^ fx_F c);
  sc_add  := fx_add c;
  sc_sub  := fx_sub c;
  sc_mul  := fx_mul c;
  sc_div  := fx_div c;
  sc_opp  := fx_neg c;
  sc_nz   := fun v => fx_ne v 0
|}.
