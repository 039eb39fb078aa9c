(** * Model of the desktop simulation compiled for fixed-point numbers

    example/desktop/kalman-sim.e.cpp with KE_NUMERIC_TYPE=fp32_t, as
    example/desktop/mk-kalman-sim.py:16-17 builds it. *)

From Coq Require Import List ZArith.
From Flocq Require Import Core BinarySingleNaN.
From Verif Require Import Base Matrix Scalars Kalman FixedPoint FixedFloat Ieee KalmanIeee KalmanSim Output.
Import ListNotations.

(** kalman-sim.e.cpp:39-41 and 46-48: the distributions give [double]s, which are converted to
    [real_t] by fixed-point.hpp:108-110 where they are multiplied.  Here the three of a pass. *)
Definition fixed_draw (c : fx) (d : double * double * double) : outcome (Z * Z * Z) :=
  a <- fx_of_ieee 53 1024 c (fst (fst d)) ;;
  b <- fx_of_ieee 53 1024 c (snd (fst d)) ;;
  e <- fx_of_ieee 53 1024 c (snd d) ;;
  Ok (a, b, e).

(** kalman-sim.e.cpp:39-41 and 46-48: those of all passes.  Simplification: they are converted
    before the loop; if one of them cannot be converted the whole run counts as undefined. *)
Fixpoint fixed_draws (c : fx) (l : list (double * double * double)) : outcome (list (Z * Z * Z)) :=
  match l with
  | [] => Ok []
  | d :: l' => x <- fixed_draw c d ;; xs <- fixed_draws c l' ;; Ok (x :: xs)
  end.

(** kalman-sim.e.cpp:53-155: [main] without its text: what is saved for plotting; [accelnoise]
    is the literal 0.2 (line 63), converted by fixed-point.hpp:108-110. *)
Definition fixed_sim (c : fx) (draws : list (double * double * double))
  : outcome (option (list (Z * plot Z))) :=
  accelnoise <- fx_of_ieee 53 1024 c (literal 2 10) ;;
  s <- sim_setup (fixed_numeric c) accelnoise ;;
  let '(dur, prm, P, x) := s in
  measnoise <- nt_int (fixed_numeric c) 10 ;;
  ds <- fixed_draws c draws ;;
  sim_plots (fixed_numeric c) dur measnoise accelnoise prm 0 x
    (kalman_init (fx_scalar c) false 1 P x) ds.
