(** * What it means that the simulation in fixed point agrees with exact arithmetic *)

From Coq Require Import Reals List ZArith.
From Verif Require Import KalmanSim.
Local Open Scope R_scope.

(** A fixed-point number with 16 fraction bits differs by at most [t] from a real number. *)
Definition fagree (t : R) (a : Z) (r : R) : Prop := Rabs (IZR a / 65536 - r) <= t.

(** What is recorded in one pass agrees: true position and measurement to [s0], true velocity
    to [s1], estimated position to [e0], estimated velocity to [e1], gains to [g], covariances
    to [c]. *)
Record tolerance := { t_s0 : R; t_s1 : R; t_e0 : R; t_e1 : R; t_g : R; t_c : R }.
Definition fixed_agree (t : tolerance) (p : Z * plot Z) (q : R * plot R) : Prop :=
  fagree (t_s0 t) (fst p) (fst q) /\
  fagree (t_s0 t) (p_pos (snd p)) (p_pos (snd q)) /\ fagree (t_s1 t) (p_vel (snd p)) (p_vel (snd q)) /\
  fagree (t_e0 t) (p_poshat (snd p)) (p_poshat (snd q)) /\
  fagree (t_e1 t) (p_velhat (snd p)) (p_velhat (snd q)) /\
  fagree (t_g t) (p_posgain (snd p)) (p_posgain (snd q)) /\
  fagree (t_g t) (p_velgain (snd p)) (p_velgain (snd q)) /\
  fagree (t_c t) (p_posecov (snd p)) (p_posecov (snd q)) /\
  fagree (t_c t) (p_velecov (snd p)) (p_velecov (snd q)).
