(** * Models of the simulation programs

    example/avr/avr-kalman-sim.e.cpp and example/desktop/kalman-sim.e.cpp; the latter
    without its text output. *)

From Coq Require Import List ZArith Reals.
From Verif Require Import Base Matrix Scalars Kalman FixedPoint.
Import ListNotations.

(** The numeric type the programs are compiled with, [kalman::real_t]
    (avr-kalman-sim.e.cpp:20-30, kalman-sim.e.cpp:21-31): its operators, its implicit
    conversion from [int] and its [operator<]. *)
Record numeric (T : Type) : Type := {
  nt_sc  : scalar T;
  nt_int : Z -> outcome T;
  nt_lt  : T -> T -> bool
}.
Arguments nt_sc {T}. Arguments nt_int {T}. Arguments nt_lt {T}.

(** Without KE_NUMERIC_TYPE: [double] (avr-kalman-sim.e.cpp:25, kalman-sim.e.cpp:26).
    Simplification: idealised as the real numbers (see [R_scalar]). *)
Definition double_numeric : numeric R := {|
  nt_sc := R_scalar;
  nt_int := fun z => Ok (IZR z);
  nt_lt := fun a b => if Rlt_dec a b then true else false
|}.

(** With KE_NUMERIC_TYPE=fp32_t (avr-kalman-sim.e.cpp:16 and mk-avr-kalman-sim.e.py:14,
    kalman-sim.e.cpp:17): [fixed_point<int,15>]; conversion from [int] by
    fixed-point.hpp:99-102, [<] by 199-202. *)
Definition fixed_numeric (c : fx) : numeric Z := {|
  nt_sc := fx_scalar c;
  nt_int := fx_of_int c;
  nt_lt := fx_lt
|}.

(** avr-kalman-sim.e.cpp:16, [num::fixed_point<int,15>] where [int] has [b] bits: the
    number of fraction bits is the default of fixed-point.hpp:63. *)
Definition fp32 (b : Z) : fx :=
  {| fx_w := b; fx_ib := b; fx_F := default_F b 15; fx_cpp20 := false |}.

Section Sim.
Context {T : Type} (nt : numeric T).
Let S := nt_sc nt.

(** avr-kalman-sim.e.cpp:38-83, kalman-sim.e.cpp:57-123: the constants and the arguments
    of the estimator's constructor; [accelnoise] is the value of the literal 0.2.  The
    result: duration, estimator parameters, initial covariance, initial state. *)
Definition sim_setup (accelnoise : T) : outcome (T * kparams T * matrix T * matrix T) :=
  dur <- nt_int nt 50 ;;                                       (* line 38 *)
  dt <- nt_int nt 1 ;;                                         (* line 39 *)
  measnoise <- nt_int nt 10 ;;                                 (* line 43 *)
  zero <- nt_int nt 0 ;; one <- nt_int nt 1 ;;
  two <- nt_int nt 2 ;; four <- nt_int nt 4 ;;
  A <- mat_il S 2 2 [one; dt; zero; one] ;;                    (* line 47 *)
  dt2 <- sc_mul S dt dt ;; b0 <- sc_div S dt2 two ;;
  B <- mat_il S 2 1 [b0; dt] ;;                                (* line 51 *)
  H <- mat_il S 1 2 [one; zero] ;;                             (* line 55 *)
  x <- mat_il S 2 1 [zero; zero] ;;                            (* line 58 *)
  r <- sc_mul S measnoise measnoise ;;                         (* line 62 *)
  aa <- sc_mul S accelnoise accelnoise ;;                      (* line 65 *)
  dt3 <- sc_mul S dt2 dt ;; dt4 <- sc_mul S dt3 dt ;;
  q00 <- sc_div S dt4 four ;; q01 <- sc_div S dt3 two ;;
  Q1 <- mat_il S 2 2 [q00; q01; q01; dt2] ;;                   (* lines 66-67 *)
  Q <- mul_sm S 2 2 aa Q1 ;;
  R <- mat_fill S 1 1 r ;;                                     (* line 80, conversion *)
  Ok (dur, {| kA := A; kB := B; kH := H; kQ := Q; kR := R; kdt := dt |}, Q, x).

(** kalman-sim.e.cpp:130-139: one pass of the loop, with process noise [w] and measurement
    noise [v]; avr-kalman-sim.e.cpp:90-101 is the same without noise ([None]).
    The program's own state is [x]. *)
Definition sim_step (prm : kparams T) (x : matrix T) (st : kstate T)
    (noise : option (matrix T * T)) : outcome (matrix T * matrix T * kstate T) :=
  one <- nt_int nt 1 ;;
  u <- mat_il S 1 1 [one] ;;                                   (* line 90 / 130 *)
  Ax <- mul_mv S 2 2 (kA prm) x ;;                             (* line 93 / 133 *)
  Bu <- mul_Bu S 1 (kB prm) u ;;
  x1 <- add_mm S 2 1 Ax Bu ;;
  x' <- match noise with Some (w, _) => add_mm S 2 1 x1 w | None => Ok x1 end ;;
  Hx <- dot S 2 (kH prm) x' ;;                                 (* line 96 / 136 *)
  z <- match noise with Some (_, v) => sc_add S Hx v | None => Ok Hx end ;;
  zm <- mat_fill S 1 1 z ;;
  st' <- update S 1 1 prm st u zm ;;                           (* line 101 / 139 *)
  Ok (x', zm, st').

(** avr-kalman-sim.e.cpp:87-102, [for ( int i = 0; i*dt < T; ++i )], from iteration [i] on,
    for at most [fuel] iterations; [None]: not finished by then.  The result: number of
    iterations made, the program's state, the estimator. *)
Fixpoint sim_loop (dur : T) (prm : kparams T) (fuel : nat) (i : Z) (x : matrix T)
    (st : kstate T) : outcome (option (Z * matrix T * kstate T)) :=
  iT <- nt_int nt i ;;
  t <- sc_mul S iT (kdt prm) ;;
  if nt_lt nt t dur then
    match fuel with
    | O => Ok None
    | Datatypes.S fuel' =>
        r <- sim_step prm x st None ;;
        sim_loop dur prm fuel' (i + 1) (fst (fst r)) (snd r)
    end
  else Ok (Some (i, x, st)).

(** avr-kalman-sim.e.cpp:34-103, [main]. *)
Definition sim_main (avr : bool) (accelnoise : T) (fuel : nat)
  : outcome (option (Z * matrix T * kstate T)) :=
  s <- sim_setup accelnoise ;;
  let '(dur, prm, P, x) := s in
  sim_loop dur prm fuel 0 x (kalman_init S avr 1 P x).

(** kalman-sim.e.cpp:37-42, [process_noise], with the two draws [g1], [g2] of the normal
    distribution. *)
Definition process_noise (dt accelnoise g1 g2 : T) : outcome (matrix T) :=
  two <- nt_int nt 2 ;;
  dt2 <- sc_mul S dt dt ;; h <- sc_div S dt2 two ;;
  a <- sc_mul S h g1 ;; b <- sc_mul S dt g2 ;;
  m <- mat_il S 2 1 [a; b] ;;
  mul_sm S 2 1 accelnoise m.

(** kalman-sim.e.cpp:44-49, [meas_noise], with the draw [g]. *)
Definition meas_noise (measnoise g : T) : outcome T := sc_mul S measnoise g.

(** kalman-sim.e.cpp:142-154: what is saved for plotting after an update. *)
Record plot := { p_pos : T; p_poshat : T; p_posgain : T; p_posecov : T;
                 p_vel : T; p_velhat : T; p_velgain : T; p_velecov : T }.

(** kalman-sim.e.cpp:146-154; [m(i)] is matrix.hpp:101-104. *)
Definition sim_record (x : matrix T) (st : kstate T) : outcome plot :=
  a <- at1 1 x 0 ;; b <- at1 1 (kx st) 0 ;; c <- at1 1 (kK st) 0 ;; d <- at1 2 (kP st) 0 ;;
  e <- at1 1 x 1 ;; f <- at1 1 (kx st) 1 ;; g <- at1 1 (kK st) 1 ;; h <- at1 2 (kP st) 1 ;;
  Ok {| p_pos := a; p_poshat := b; p_posgain := c; p_posecov := d;
        p_vel := e; p_velhat := f; p_velgain := g; p_velecov := h |}.

End Sim.
Arguments plot T : clear implicits.
Arguments Build_plot {T}.
Arguments p_pos {T}. Arguments p_poshat {T}. Arguments p_posgain {T}. Arguments p_posecov {T}.
Arguments p_vel {T}. Arguments p_velhat {T}. Arguments p_velgain {T}. Arguments p_velecov {T}.
