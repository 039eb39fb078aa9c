(** * Model of include/dsp/biquad.hpp

    The template parameters [T] (values) and [S] (coefficients) are the same type, as in
    every instantiation of the repository.  Filtering is modelled for any numeric type
    [scalar T] (Base.v); poles, zeros, stability, zero/pole/gain construction and response
    for real numbers, with [std::complex<double>] as [Coquelicot.Complex.C] (pairs of
    reals).  Simplification: rounding of floating-point arithmetic is not modelled.
    [std20::complex] is [std::complex] (std/complex.hpp:14-19); the class of the AVR branch
    (std/complex.hpp:23-194) declares its operators without defining them. *)

From Coq Require Import Reals List.
From Coquelicot Require Import Complex.
From Verif Require Import Base.
Import ListNotations.

Section Biquad.

Context {T : Type} (S : scalar T).

(** biquad.hpp:31-36, [AT]. *)
Record coeff_a := { a1 : T; a2 : T }.

(** biquad.hpp:40-44, [BT]. *)
Record coeff_b := { b0 : T; b1 : T; b2 : T }.

(** biquad.hpp:48-52, [WT]. *)
Record state := { v1 : T; v2 : T }.

(** biquad.hpp:318-325, the members of [BiQuadT]. *)
Record biquad := { bq_a : coeff_a; bq_b : coeff_b; bq_w : state }.

(** biquad.hpp:34 and 51: the default member initialisers [V{0}]. *)
Definition zero_a : coeff_a := {| a1 := sc_zero S; a2 := sc_zero S |}.

(** biquad.hpp:43, the default member initialisers of [BT]. *)
Definition zero_b : coeff_b := {| b0 := sc_zero S; b1 := sc_zero S; b2 := sc_zero S |}.

(** biquad.hpp:51, [W{}]. *)
Definition zero_w : state := {| v1 := sc_zero S; v2 := sc_zero S |}.

(** biquad.hpp:160, [BiQuadT()]. *)
Definition biquad_default : biquad := {| bq_a := zero_a; bq_b := zero_b; bq_w := zero_w |}.

(** biquad.hpp:162-167, [BiQuadT( B )]. *)
Definition biquad_b (b : coeff_b) : biquad := {| bq_a := zero_a; bq_b := b; bq_w := zero_w |}.

(** biquad.hpp:171-182, [BiQuadT( B, A )]. *)
Definition biquad_ba (b : coeff_b) (a : coeff_a) : biquad :=
  {| bq_a := a; bq_b := b; bq_w := zero_w |}.

(** biquad.hpp:231-234, [reset()]. *)
Definition reset (bq : biquad) : biquad :=
  {| bq_a := bq_a bq; bq_b := bq_b bq; bq_w := zero_w |}.

(** biquad.hpp:243-253, [step_df2( x )]: the output and the filter afterwards. *)
Definition step_df2 (bq : biquad) (x : T) : outcome (T * biquad) :=
  let a := bq_a bq in let b := bq_b bq in let w := bq_w bq in
  p1 <- sc_mul S (a1 a) (v1 w) ;; d1 <- sc_sub S x p1 ;;
  p2 <- sc_mul S (a2 a) (v2 w) ;; w0 <- sc_sub S d1 p2 ;;
  q0 <- sc_mul S (b0 b) w0 ;;
  q1 <- sc_mul S (b1 b) (v1 w) ;; s1 <- sc_add S q0 q1 ;;
  q2 <- sc_mul S (b2 b) (v2 w) ;; y <- sc_add S s1 q2 ;;
  Ok (y, {| bq_a := a; bq_b := b; bq_w := {| v1 := w0; v2 := v1 w |} |}).

(** biquad.hpp:236-239, [step( x )]. *)
Definition step (bq : biquad) (x : T) : outcome (T * biquad) := step_df2 bq x.

(** biquad.hpp:257-266, [step_df2_transposed( x )]. *)
Definition step_df2_transposed (bq : biquad) (x : T) : outcome (T * biquad) :=
  let a := bq_a bq in let b := bq_b bq in let w := bq_w bq in
  p0 <- sc_mul S (b0 b) x ;; y <- sc_add S p0 (v1 w) ;;
  p1 <- sc_mul S (b1 b) x ;; r1 <- sc_mul S (a1 a) y ;;
  d1 <- sc_sub S p1 r1 ;; n1 <- sc_add S d1 (v2 w) ;;
  p2 <- sc_mul S (b2 b) x ;; r2 <- sc_mul S (a2 a) y ;; n2 <- sc_sub S p2 r2 ;;
  Ok (y, {| bq_a := a; bq_b := b; bq_w := {| v1 := n1; v2 := n2 |} |}).

(** A sequence of calls of one of the step functions (biquad.hpp:236-266): the outputs and
    the filter afterwards. *)
Fixpoint run (f : biquad -> T -> outcome (T * biquad)) (bq : biquad) (xs : list T)
  : outcome (list T * biquad) :=
  match xs with
  | [] => Ok ([], bq)
  | x :: xs' =>
      r <- f bq x ;; r' <- run f (snd r) xs' ;; Ok (fst r :: fst r', snd r')
  end.

(** std/utility.hpp:22-26, [swap( a, b )]: [tmp = a; a = b; b = tmp]; the new values of [a]
    and [b].  (On the desktop [std::swap], std/utility.hpp:14.) *)
Definition swap_values {A : Type} (a b : A) : A * A :=
  let tmp := a in let a' := b in let b' := tmp in (a', b').

(** biquad.hpp:270-277, [swap( other )]: [this] and [other] afterwards. *)
Definition swap (this other : biquad) : biquad * biquad :=
  let ra := swap_values (bq_a this) (bq_a other) in
  let rb := swap_values (bq_b this) (bq_b other) in
  let rw := swap_values (bq_w this) (bq_w other) in
  ({| bq_a := fst ra; bq_b := fst rb; bq_w := fst rw |},
   {| bq_a := snd ra; bq_b := snd rb; bq_w := snd rw |}).

End Biquad.

Arguments coeff_a T : clear implicits.
Arguments coeff_b T : clear implicits.
Arguments state T : clear implicits.
Arguments biquad T : clear implicits.

(** ** Real coefficients *)

Local Open Scope R_scope.

(** [std::sqrt( complex )]: the square root with non-negative real part; on the negative
    real axis (imaginary part zero, not minus zero) the one with positive imaginary part.
    Standard library function, used by biquad.hpp:83. *)
Definition csqrt (z : C) : C :=
  let m := Cmod z in
  (sqrt ((m + fst z) / 2),
   if Rle_dec 0 (snd z) then sqrt ((m - fst z) / 2) else - sqrt ((m - fst z) / 2)).

(** biquad.hpp:71-90, [solve( a, b, c )], with [SolutionT] (62-67) as a pair.  The
    subtraction [Complex - V], the sum [V + Complex] and the division [Complex / V] act as
    on complex numbers with imaginary part zero. *)
Definition solve (a b c : R) : outcome (C * C) :=
  if Req_EM_T a 0 then Err DivByZero else
  let b := b / a in
  let c := c / a in
  let ds := csqrt (Cminus (b * b, 0) (RtoC (4 * c))) in
  Ok (Cdiv (Cplus (RtoC (- b)) ds) (RtoC 2), Cdiv (Cminus (RtoC (- b)) ds) (RtoC 2)).

(** biquad.hpp:209-212, [poles()]. *)
Definition poles (bq : biquad R) : outcome (C * C) := solve 1 (a1 (bq_a bq)) (a2 (bq_a bq)).

(** biquad.hpp:214-217, [zeros()]. *)
Definition zeros (bq : biquad R) : outcome (C * C) :=
  solve (b0 (bq_b bq)) (b1 (bq_b bq)) (b2 (bq_b bq)).

(** biquad.hpp:221-227, [is_stable()]. *)
Definition is_stable (bq : biquad R) : outcome bool :=
  p <- poles bq ;;
  Ok (if Rle_dec (Cmod (fst p)) 1 then if Rle_dec (Cmod (snd p)) 1 then true else false
      else false).

(** biquad.hpp:303-316, [to_coeff( z )]: [first] and [second] of [Pair]. *)
Definition to_coeff2 (z : C * C) : R * R :=
  let z1r := fst (fst z) in
  let z1i := snd (fst z) in
  let z2r := fst (snd z) in
  if Req_EM_T z1i 0 then (- z1r - z2r, z1r * z2r)
  else (-2 * z1r, z1r * z1r + z1i * z1i).

(** biquad.hpp:186-190 with 285-295, [BiQuadT( z, p, k )]: [to_coeff( z, p, k )] assigned
    through [Tie] (110-130) to the members. *)
Definition biquad_zpk (z p : C * C) (k : R) : biquad R :=
  let b := to_coeff2 z in
  let a := to_coeff2 p in
  {| bq_a := {| a1 := fst a; a2 := snd a |};
     bq_b := {| b0 := k; b1 := k * fst b; b2 := k * snd b |};
     bq_w := {| v1 := 0; v2 := 0 |} |}.

(** [std::polar( r, theta )], standard library function, used by biquad.hpp:338-339. *)
Definition polar (r theta : R) : C := (r * cos theta, r * sin theta).

(** biquad.hpp:329-343, [response( bq, fnorm )]; [num::pi] (num/constants.hpp:14) is the
    exact number.  A zero denominator has no complex result (IEEE: inf or nan). *)
Definition response (bq : biquad R) (fnorm : R) : outcome C :=
  let a := bq_a bq in
  let b := bq_b bq in
  let w := 2 * PI * fnorm in
  let czn1 := polar 1 (- w) in
  let czn2 := polar 1 (- 2 * w) in
  let num := Cplus (Cplus (RtoC (b0 b)) (Cmult (RtoC (b1 b)) czn1)) (Cmult (RtoC (b2 b)) czn2) in
  let den := Cplus (Cplus (RtoC 1) (Cmult (RtoC (a1 a)) czn1)) (Cmult (RtoC (a2 a)) czn2) in
  if Ceq_dec den (RtoC 0) then Err DivByZero else Ok (Cdiv num den).
