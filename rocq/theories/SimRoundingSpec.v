(** * What it means that two runs of the simulation agree *)

From Coq Require Import Reals List.
From Flocq Require Import Core BinarySingleNaN.
From Verif Require Import KalmanSim Ieee.
Local Open Scope R_scope.

(** A random number that is finite and at most 10 in magnitude; a normal distribution gives
    a larger one with a probability of about 10^-23. *)
Definition gauss_ok (g : double) : Prop := is_finite g = true /\ Rabs (B2R g) <= 10.

(** The three random numbers of one pass, and the real numbers they stand for. *)
Definition draw_ok (d : double * double * double) : Prop :=
  gauss_ok (fst (fst d)) /\ gauss_ok (snd (fst d)) /\ gauss_ok (snd d).
Definition to_exact (d : double * double * double) : R * R * R :=
  (B2R (fst (fst d)), B2R (snd (fst d)), B2R (snd d)).

(** A [double] is finite and differs by at most [t] from a real number. *)
Definition agree (t : R) (x : double) (r : R) : Prop := is_finite x = true /\ Rabs (B2R x - r) <= t.

(** What is recorded in one pass agrees: measurement, positions and velocities, true and
    estimated, to [s], gains to [g] and covariances to [c]. *)
Definition records_agree (s g c : R) (p : double * plot double) (q : R * plot R) : Prop :=
  agree s (fst p) (fst q) /\
  agree s (p_pos (snd p)) (p_pos (snd q)) /\ agree s (p_vel (snd p)) (p_vel (snd q)) /\
  agree s (p_poshat (snd p)) (p_poshat (snd q)) /\ agree s (p_velhat (snd p)) (p_velhat (snd q)) /\
  agree g (p_posgain (snd p)) (p_posgain (snd q)) /\ agree g (p_velgain (snd p)) (p_velgain (snd q)) /\
  agree c (p_posecov (snd p)) (p_posecov (snd q)) /\ agree c (p_velecov (snd p)) (p_velecov (snd q)).
