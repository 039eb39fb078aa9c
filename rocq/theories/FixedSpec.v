(** * Specification vocabulary for fixed-point numbers *)

From Coq Require Import ZArith Reals.
From Verif Require Import Base FixedPoint.
Local Open Scope Z_scope.

(** The configurations that exist: 8, 16 or 32 bit representations, 16 or 32 bit [int],
    [0 <= F < w] (i.e. [0 <= I]). *)
Definition supported (c : fx) : Prop :=
  (fx_w c = 8 \/ fx_w c = 16 \/ fx_w c = 32) /\ (fx_ib c = 16 \/ fx_ib c = 32) /\
  0 <= fx_F c < fx_w c.

(** A value of the implementation type. *)
Definition in_range (c : fx) (v : Z) : Prop :=
  - 2 ^ (fx_w c - 1) <= v < 2 ^ (fx_w c - 1).

(** The number a stored integer stands for, and the size of one step. *)
Definition value (c : fx) (a : Z) : R := (IZR a / IZR (2 ^ fx_F c))%R.
Definition step (c : fx) : R := (1 / IZR (2 ^ fx_F c))%R.

(** [v] and [v'] are the same modulo the number of values of [T]. *)
Definition same_mod (c : fx) (v v' : Z) : Prop := exists k, v' = v + k * 2 ^ fx_w c.

(** A real number that is exactly representable. *)
Definition representable (c : fx) (r : R) : Prop :=
  exists a, in_range c a /\ value c a = r.
