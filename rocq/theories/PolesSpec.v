(** * Specification of poles and stability test with rounding *)

From Coq Require Import ZArith Reals.
From Coquelicot Require Import Complex.
From Flocq Require Import Core IEEE754.BinarySingleNaN.
From Verif Require Import BiquadSpec.
Local Open Scope R_scope.

(** All roots of [z^2 + a1 z + a2] lie in the closed unit disc. *)
Definition weakly_stable (a1 a2 : R) : Prop :=
  forall z : C, quadratic 1 a1 a2 z = RtoC 0 -> Cmod z <= 1.

Section Spec.

Context (prec emax : Z).
Notation T := (binary_float prec emax).

(** The library's complex square root of a real number is real or imaginary, with a relative
    error of at most 1 unit in the last place. *)
Definition csqrt_ok (sqrtC : T * T -> T * T) : Prop :=
  forall x y, is_finite x = true -> is_finite y = true -> B2R y = 0 -> Rabs (B2R x) <= bpow radix2 (emax - 4) ->
    let s := sqrtC (x, y) in
    is_finite (fst s) = true /\ is_finite (snd s) = true /\
    if Rle_dec 0 (B2R x)
    then Rabs (B2R (fst s) - sqrt (B2R x)) <= 2 * bpow radix2 (- prec) * sqrt (B2R x) /\ B2R (snd s) = 0
    else B2R (fst s) = 0 /\ Rabs (B2R (snd s) - sqrt (- B2R x)) <= 2 * bpow radix2 (- prec) * sqrt (- B2R x).

(** The library's magnitude has an error of at most 1 unit in the last place, relative to the
    magnitude if that is large, absolute if it is small. *)
Definition cabs_ok (absC : T * T -> T) : Prop :=
  forall x y, is_finite x = true -> is_finite y = true ->
    Rabs (B2R x) <= bpow radix2 (emax - 4) -> Rabs (B2R y) <= bpow radix2 (emax - 4) ->
    let m := Cmod (B2R x, B2R y) in
    is_finite (absC (x, y)) = true /\ Rabs (B2R (absC (x, y)) - m) <= 2 * bpow radix2 (- prec) * (1 + m).

(** The same functions, correctly rounded. *)
Notation rnd := (round radix2 (FLT_exp (3 - emax - prec) prec) ZnearestE).
Definition csqrt_best (sqrtC : T * T -> T * T) : Prop :=
  forall x y, is_finite x = true -> is_finite y = true -> B2R y = 0 -> Rabs (B2R x) <= bpow radix2 (emax - 4) ->
    let s := sqrtC (x, y) in
    is_finite (fst s) = true /\ is_finite (snd s) = true /\
    if Rle_dec 0 (B2R x)
    then B2R (fst s) = rnd (sqrt (B2R x)) /\ B2R (snd s) = 0
    else B2R (fst s) = 0 /\ B2R (snd s) = rnd (sqrt (- B2R x)).
Definition cabs_best (absC : T * T -> T) : Prop :=
  forall x y, is_finite x = true -> is_finite y = true ->
    Rabs (B2R x) <= bpow radix2 (emax - 4) -> Rabs (B2R y) <= bpow radix2 (emax - 4) ->
    is_finite (absC (x, y)) = true /\ B2R (absC (x, y)) = rnd (Cmod (B2R x, B2R y)).

(** The complex number a pair stands for; a pair of finite numbers with both parts at most
    [2^E] in magnitude. *)
Definition val (z : T * T) : C := (B2R (fst z), B2R (snd z)).
Definition fin2 (E : Z) (z : T * T) : Prop :=
  is_finite (fst z) = true /\ is_finite (snd z) = true /\ Rabs (B2R (fst z)) <= bpow radix2 E /\ Rabs (B2R (snd z)) <= bpow radix2 E.

End Spec.
