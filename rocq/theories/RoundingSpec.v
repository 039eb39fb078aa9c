(** * Specification of rounding arithmetic, independent of the model of the filters *)

From Coq Require Import Reals List ZArith.
From Verif Require Import Base BiquadSpec.
Import ListNotations.
Local Open Scope R_scope.

(** The arithmetic [S] calculates with real numbers up to rounding: as long as the exact
    result is not larger than [M], an operation is defined, sums and differences have a
    relative error of at most [eps], products a relative error of at most [eps] plus an
    absolute error of at most [eta].  [val] is the number a stored value stands for, [ok]
    tells which stored values stand for a number. *)
Record rounding {T : Type} (S : scalar T) (val : T -> R) (ok : T -> Prop) (eps eta M : R) : Prop := {
  rd_eps : 0 <= eps;
  rd_eta : 0 <= eta;
  rd_zero : ok (sc_zero S) /\ val (sc_zero S) = 0;
  rd_add : forall a b, ok a -> ok b -> Rabs (val a + val b) <= M ->
    exists r, sc_add S a b = Ok r /\ ok r /\
      Rabs (val r - (val a + val b)) <= eps * Rabs (val a + val b);
  rd_sub : forall a b, ok a -> ok b -> Rabs (val a - val b) <= M ->
    exists r, sc_sub S a b = Ok r /\ ok r /\
      Rabs (val r - (val a - val b)) <= eps * Rabs (val a - val b);
  rd_mul : forall a b, ok a -> ok b -> Rabs (val a * val b) <= M ->
    exists r, sc_mul S a b = Ok r /\ ok r /\
      Rabs (val r - val a * val b) <= eps * Rabs (val a * val b) + eta
}.

(** [G] bounds what the recursive part of a second order section makes of any input bounded
    by 1. *)
Definition recursion_gain (a1 a2 G : R) : Prop :=
  forall us ws, length ws = length us -> difference_equation 1 0 0 a1 a2 us ws ->
  (forall u, In u us -> Rabs u <= 1) -> forall w, In w ws -> Rabs w <= G.

(** Two signals of equal length differ nowhere by more than [E]. *)
Definition within (E : R) (ys zs : list R) : Prop :=
  length ys = length zs /\ forall n, (n < length ys)%nat -> Rabs (nth n ys 0 - nth n zs 0) <= E.

(** A second order section with real coefficients and a bound on the gain of its recursive
    part. *)
Record rsection := { rs_b0 : R; rs_b1 : R; rs_b2 : R; rs_a1 : R; rs_a2 : R; rs_gain : R }.
Definition rs_A (s : rsection) : R := Rabs (rs_a1 s) + Rabs (rs_a2 s).
Definition rs_B (s : rsection) : R := Rabs (rs_b0 s) + Rabs (rs_b1 s) + Rabs (rs_b2 s).

(** The signal after a chain of sections. *)
Fixpoint chain_output (l : list rsection) (xs zs : list R) : Prop :=
  match l with
  | [] => zs = xs
  | s :: l' => exists ws, length ws = length xs /\
      difference_equation (rs_b0 s) (rs_b1 s) (rs_b2 s) (rs_a1 s) (rs_a2 s) xs ws /\ chain_output l' ws zs
  end.

(** Every section of the chain has room for signals bounded by [N] when its input is bounded
    by [X]; [u] and [eta] are the absolute and underflow errors of one operation. *)
Fixpoint chain_fits (u eta N X : R) (l : list rsection) : Prop :=
  match l with
  | [] => True
  | s :: l' => let W := rs_gain s * (X + (4 * u + 2 * eta)) in
      recursion_gain (rs_a1 s) (rs_a2 s) (rs_gain s) /\
      X + rs_A s * W + (3 * u + 2 * eta) <= N /\ rs_B s * W + (4 * u + 3 * eta) <= N /\
      chain_fits u eta N (rs_B s * W + (5 * u + 3 * eta)) l'
  end.

(** The accumulated error: each section amplifies the error of its input and adds its own. *)
Fixpoint chain_error (u eta D : R) (l : list rsection) : R :=
  match l with
  | [] => D
  | s :: l' => chain_error u eta
      (rs_B s * (rs_gain s * (D + (4 * u + 2 * eta))) + (5 * u + 3 * eta)) l'
  end.
