(** * Specification of the conversion of floating-point to fixed-point numbers *)

From Coq Require Import ZArith Reals.
From Flocq Require Import Core.
Local Open Scope R_scope.

(** The integer stored for the scaled value [y >= 0], a floating-point number of [prec] bits:
    the nearest integer, half way up; but one for the largest number below one half; from
    [2^(prec-1)] on, where all numbers are integers, the same or the next integer, whichever is
    even; from [2^prec] on [y] itself. *)
Definition converted_pos (prec : Z) (y : R) (a : Z) : Prop :=
  (y < bpow radix2 (prec - 1) -> y <> 1/2 - bpow radix2 (- prec - 1) -> IZR a - 1/2 <= y < IZR a + 1/2) /\
  (y = 1/2 - bpow radix2 (- prec - 1) -> a = 1%Z) /\
  (bpow radix2 (prec - 1) <= y < bpow radix2 prec -> Z.even a = true /\ (IZR a = y \/ IZR a = y + 1)) /\
  (bpow radix2 prec <= y -> IZR a = y).


(** The same with the sign. *)
Definition converted (prec : Z) (y : R) (a : Z) : Prop :=
  (0 <= y -> converted_pos prec y a) /\ (y < 0 -> converted_pos prec (- y) (- a)).
