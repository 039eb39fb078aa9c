(** * Specification vocabulary for ranges: no reference to iterators *)

From Coq Require Import ZArith List.
From Verif Require Import Base Range.
Import ListNotations.
Local Open Scope Z_scope.

(** The [n] terms [a], [a+s], ..., [a+(n-1)*s]. *)
Definition progression (a s : Z) (n : nat) : list Z :=
  map (fun k => a + Z.of_nat k * s) (seq 0 n).

(** [v] is a value of the type: [w] bits, two's complement when signed. *)
Definition fits (t : int_type) (v : Z) : Prop :=
  if it_signed t then - 2 ^ (it_w t - 1) <= v < 2 ^ (it_w t - 1) else 0 <= v < 2 ^ it_w t.

(** The platforms' integer types: types narrower than [int] have at most half its width
    (8 of 16, 8 and 16 of 32 bits). *)
Definition platform_type (t : int_type) : Prop :=
  2 <= it_w t /\ 2 <= it_ib t /\ (it_w t < it_ib t -> 2 * it_w t <= it_ib t).

(** Signed types in which arithmetic is not promoted to a wider one. *)
Definition int_like (t : int_type) : Prop := it_signed t = true /\ it_ib t <= it_w t.

(** The other types: arithmetic on them does not overflow as long as it stays small. *)
Definition wraps (t : int_type) : Prop := it_signed t = false \/ it_w t < it_ib t.

Definition greatest (t : int_type) : Z :=
  if it_signed t then 2 ^ (it_w t - 1) - 1 else 2 ^ it_w t - 1.

Definition least (t : int_type) : Z :=
  if it_signed t then - 2 ^ (it_w t - 1) else 0.

(** The unique value of the type congruent to [v]. *)
Definition congruent_value (t : int_type) (v r : Z) : Prop :=
  fits t r /\ exists q, v = r + q * 2 ^ it_w t.
