(** * Spec for PropsConvergence.v: which systems can be observed and are excited *)

From Coq Require Import Reals List.
From Verif Require Import KalmanSpec.
Local Open Scope R_scope.

(** Positive definite. *)
Definition pd (P : mat2) : Prop := sym P /\ forall x, x <> V2 0 0 -> 0 < quad P x.

(** Two measurements in a row, H x and H A x, determine the state. *)
Definition observable (s : sys) : Prop :=
  let h := sH s in let ha := mv (mtr (sA s)) (sH s) in
  mdet (M2 (v0 h) (v1 h) (v0 ha) (v1 ha)) <> 0.

(** The process noise of two steps. *)
Definition reach2 (s : sys) : mat2 := madd (sQ s) (mmul (mmul (sA s) (sQ s)) (mtr (sA s))).

(** It reaches every direction. *)
Definition controllable (s : sys) : Prop := pd (reach2 s).

(** Distance of two states, squared, and size of a matrix, squared. *)
Definition dist2 (x y : vec2) : R := vdot (vsub x y) (vsub x y).
Definition size2 (a : mat2) : R := m00 a * m00 a + m01 a * m01 a + m10 a * m10 a + m11 a * m11 a.

(** Size of a state. *)
Definition norm1 (x : vec2) : R := Rabs (v0 x) + Rabs (v1 x).

(** The process noise and the measurement noise of a history (input, process noise,
    measurement noise) do not exceed [beta]. *)
Definition noise_within (beta : R) (h : list (R * vec2 * R)) : Prop :=
  forall u w v, In (u, w, v) h -> norm1 w <= beta /\ Rabs v <= beta.
