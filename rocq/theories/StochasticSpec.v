(** * Random experiments for the Kalman filter

    The probabilistic reading of the filter, written independently of the library: a
    sample space [Om] of any kind, an expectation on it, a random true initial state and
    random noise sequences. *)

From Coq Require Import Reals List.
From Verif Require Import KalmanSpec.
Import ListNotations.
Local Open Scope R_scope.

(** Expectation of real random variables: linear, positive, total mass one. *)
Record expectation {Om : Type} (E : (Om -> R) -> R) : Prop := {
  E_ext : forall f g, (forall o, f o = g o) -> E f = E g;
  E_add : forall f g, E (fun o => f o + g o) = E f + E g;
  E_scale : forall c f, E (fun o => c * f o) = c * E f;
  E_pos : forall f, (forall o, 0 <= f o) -> 0 <= E f;
  E_one : E (fun _ => 1) = 1 }.

(** Mean of a random vector, matrix of second moments of two random vectors, and of a
    random vector with a random number. *)
Definition mean {Om} (E : (Om -> R) -> R) (f : Om -> vec2) : vec2 :=
  V2 (E (fun o => v0 (f o))) (E (fun o => v1 (f o))).
Definition moment {Om} (E : (Om -> R) -> R) (f g : Om -> vec2) : mat2 :=
  M2 (E (fun o => v0 (f o) * v0 (g o))) (E (fun o => v0 (f o) * v1 (g o)))
     (E (fun o => v1 (f o) * v0 (g o))) (E (fun o => v1 (f o) * v1 (g o))).
Definition moment1 {Om} (E : (Om -> R) -> R) (f : Om -> vec2) (g : Om -> R) : vec2 :=
  V2 (E (fun o => v0 (f o) * g o)) (E (fun o => v1 (f o) * g o)).

Definition vzero : vec2 := V2 0 0.
Definition mzero : mat2 := M2 0 0 0 0.

(** The usual noise model over [n] steps: process noise [w i] has covariance Q,
    measurement noise [v i] variance R; all means are zero and the noises at different
    times, the two kinds of noise and the initial error are uncorrelated.  The initial
    estimate [xh] has mean error zero and error covariance [P]. *)
Record noise_model {Om : Type} (E : (Om -> R) -> R) (s : sys) (P : mat2) (xh : vec2)
    (n : nat) (x0 : Om -> vec2) (w : nat -> Om -> vec2) (v : nat -> Om -> R) : Prop := {
  init_mean : mean E (fun o => vsub (x0 o) xh) = vzero;
  init_cov : moment E (fun o => vsub (x0 o) xh) (fun o => vsub (x0 o) xh) = P;
  w_mean : forall i, (i < n)%nat -> mean E (w i) = vzero;
  v_mean : forall i, (i < n)%nat -> E (v i) = 0;
  w_cov : forall i, (i < n)%nat -> moment E (w i) (w i) = sQ s;
  v_var : forall i, (i < n)%nat -> E (fun o => v i o * v i o) = sR s;
  w_white : forall i j, (i < n)%nat -> (j < n)%nat -> i <> j -> moment E (w i) (w j) = mzero;
  v_white : forall i j, (i < n)%nat -> (j < n)%nat -> i <> j ->
    E (fun o => v i o * v j o) = 0;
  w_v : forall i j, (i < n)%nat -> (j < n)%nat -> moment1 E (w i) (v j) = vzero;
  init_w : forall i, (i < n)%nat -> moment E (fun o => vsub (x0 o) xh) (w i) = mzero;
  init_v : forall i, (i < n)%nat -> moment1 E (fun o => vsub (x0 o) xh) (v i) = vzero }.

(** The first [n] steps of the world in outcome [o], for known inputs [u]. *)
Definition world {Om : Type} (u : nat -> R) (w : nat -> Om -> vec2) (v : nat -> Om -> R)
    (n : nat) (o : Om) : list (R * vec2 * R) :=
  map (fun i => (u i, w i o, v i o)) (seq 0 n).

(** The measurement at step [i]. *)
Definition measurement (s : sys) (x : vec2) (h : list (R * vec2 * R)) (i : nat) : R :=
  snd (nth i (observe s x h) (0, 0)).

(** An arbitrary affine estimator: an offset plus weighted measurements. *)
Fixpoint weighted (L : nat -> vec2) (z : nat -> R) (n : nat) : vec2 :=
  match n with
  | O => V2 0 0
  | S n' => vadd (weighted L z n') (vscale (z n') (L n'))
  end.
