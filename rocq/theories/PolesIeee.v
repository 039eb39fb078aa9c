(** * Model of poles, stability test and construction from zeros and poles in floating point

    include/dsp/biquad.hpp:62-90, 186-190, 209-212, 221-227, 279-316 for [T] = [float] or [double],
    rounding included (compare [Biquad.v], over the reals).  Complex numbers are pairs; the
    library's complex square root and magnitude are parameters. *)

From Coq Require Import ZArith.
From Flocq Require Import Core IEEE754.BinarySingleNaN.
From Verif Require Import Base Ieee Biquad.
Local Open Scope Z_scope.

Section Poles.

Context (prec emax : Z) {Hprec : Prec_gt_0 prec} {Hmax : Prec_lt_emax prec emax}.
(** [sqrt( complex )] (biquad.hpp:83), [abs( complex )] (biquad.hpp:225-226). *)
Context (sqrtC : binary_float prec emax * binary_float prec emax -> binary_float prec emax * binary_float prec emax).
Context (absC : binary_float prec emax * binary_float prec emax -> binary_float prec emax).

Local Notation T := (binary_float prec emax).
Local Notation "x + y" := (Bplus mode_NE x y).
Local Notation "x - y" := (Bminus mode_NE x y).
Local Notation "x * y" := (Bmult mode_NE x y).
Local Notation "x / y" := (Bdiv mode_NE x y).
(** An [int] in an expression with [T] is converted to it (biquad.hpp:83, 314); [V{2}]
    (biquad.hpp:87) is the same. *)
Local Notation int z := (ieee_of_Z prec emax z).

(** biquad.hpp:71-90, [solve( a, b, c )].  A real operand of a complex sum or difference
    changes the real part only, a real divisor divides both parts (libstdc++). *)
Definition ieee_solve (a b c : T) : (T * T) * (T * T) :=
  let b := b / a in
  let c := c / a in
  let ds := sqrtC (b * b - int 4 * c, int 0) in
  ((((Bopp b) + fst ds) / int 2, snd ds / int 2),
   (((Bopp b) - fst ds) / int 2, Bopp (snd ds) / int 2)).

(** biquad.hpp:209-212, [poles()]. *)
Definition ieee_poles (bq : biquad T) : (T * T) * (T * T) :=
  ieee_solve (int 1) (a1 (bq_a bq)) (a2 (bq_a bq)).

(** [x <= y] on floating-point numbers (biquad.hpp:225); false if one is a nan. *)
Definition ieee_le (x y : T) : bool :=
  match Bcompare x y with Some Lt | Some Eq => true | _ => false end.
(** biquad.hpp:221-227, [is_stable()]. *)
Definition ieee_is_stable (bq : biquad T) : bool :=
  let p := ieee_poles bq in
  ieee_le (absC (fst p)) (int 1) && ieee_le (absC (snd p)) (int 1).

(** biquad.hpp:303-316, [to_coeff( z )]; [z1i ? :] tests for a value other than zero. *)
Definition ieee_to_coeff2 (z : (T * T) * (T * T)) : T * T :=
  let z1r := fst (fst z) in
  let z1i := snd (fst z) in
  let z2r := fst (snd z) in
  match z1i with
  | B754_zero _ => (Bopp z1r - z2r, z1r * z2r)
  | _ => (int (-2) * z1r, z1r * z1r + z1i * z1i)
  end.

(** biquad.hpp:186-190 with 285-295, [BiQuadT( z, p, k )]; the state is zero (35-40). *)
Definition ieee_biquad_zpk (z p : (T * T) * (T * T)) (k : T) : biquad T :=
  let b := ieee_to_coeff2 z in
  let a := ieee_to_coeff2 p in
  {| bq_a := {| a1 := fst a; a2 := snd a |};
     bq_b := {| b0 := k; b1 := k * fst b; b2 := k * snd b |};
     bq_w := {| v1 := B754_zero false; v2 := B754_zero false |} |}.

End Poles.
