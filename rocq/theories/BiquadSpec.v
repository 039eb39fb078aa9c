(** * Specifications of second order sections, independent of the model *)

From Coq Require Import Reals List Arith.
From Coquelicot Require Import Complex.
Import ListNotations.
Local Open Scope R_scope.

(** The value of a signal [k] samples before time [n]; signals are zero before time 0. *)
Definition past (xs : list R) (n k : nat) : R := if (k <=? n)%nat then nth (n - k) xs 0 else 0.

(** The difference equation of a second order section with normalised coefficients. *)
Definition difference_equation (b0 b1 b2 a1 a2 : R) (xs ys : list R) : Prop :=
  forall n, (n < length xs)%nat ->
  nth n ys 0 = b0 * past xs n 0 + b1 * past xs n 1 + b2 * past xs n 2
             - a1 * past ys n 1 - a2 * past ys n 2.

(** Pointwise linear combination of two signals of equal length. *)
Definition lin (p : R) (xs : list R) (q : R) (xs' : list R) : list R :=
  map (fun v => p * fst v + q * snd v) (combine xs xs').

(** Quadratic polynomials over the complex numbers. *)
Definition quadratic (a b c : R) (z : C) : C :=
  Cplus (Cplus (Cmult (RtoC a) (Cmult z z)) (Cmult (RtoC b) z)) (RtoC c).

(** [s0] and [s1] are the two roots, with multiplicity. *)
Definition roots_of (a b c : R) (s0 s1 : C) : Prop :=
  forall z : C, quadratic a b c z = Cmult (RtoC a) (Cmult (Cminus z s0) (Cminus z s1)).

(** All roots of [z^2 + a1 z + a2] lie strictly inside the unit circle. *)
Definition strictly_stable (a1 a2 : R) : Prop :=
  forall z : C, quadratic 1 a1 a2 z = RtoC 0 -> Cmod z < 1.

(** A pair of roots that a real polynomial can have. *)
Definition real_or_conjugate (z : C * C) : Prop :=
  (snd (fst z) = 0 /\ snd (snd z) = 0) \/ snd z = Cconj (fst z).
