(** * Model of include/dsp/kalman.hpp

    The only instantiations of [kalman<T,S,M,U>] that compile have [S = 2]
    (matrix.hpp provides [transposed] of a square matrix for 2x2 only, line 469) and
    [M], [U] in {1, 2}.  [M = 1] is the one used by all programs of the repository.
    Every overloaded operator is resolved to the function of Matrix.v that C++ overload
    resolution selects; the selected line is cited. *)

From Coq Require Import List ZArith.
From Verif Require Import Base Matrix.
Import ListNotations.

Section Kalman.

Context {T : Type} (S : scalar T).

(** kalman.hpp:130-134 and 141: the constant members and [dt]. *)
Record kparams := {
  kA : matrix T;   (* 2x2, kalman.hpp:130 *)
  kB : matrix T;   (* 2xU, kalman.hpp:131 *)
  kH : matrix T;   (* Mx2, kalman.hpp:132 *)
  kQ : matrix T;   (* 2x2, kalman.hpp:133 *)
  kR : matrix T;   (* MxM, kalman.hpp:134 *)
  kdt : T          (* kalman.hpp:141 *)
}.

(** kalman.hpp:136-140: the mutable members. *)
Record kstate := {
  kK : matrix T;   (* 2xM, kalman.hpp:136 *)
  kP : matrix T;   (* 2x2, kalman.hpp:137 *)
  kx : matrix T;   (* 2x1, kalman.hpp:138 *)
  kt : T           (* kalman.hpp:140 *)
}.

(** kalman.hpp:51-70, the constructor: [K] is default-initialised (matrix.hpp:57-61),
    [P] and [xhat] are copies of the arguments, [t] is 0. *)
Definition kalman_init (avr : bool) (M : nat) (P x : matrix T) : kstate :=
  {| kK := mat_default S avr 2 M; kP := P; kx := x; kt := sc_zero S |}.

(** kalman.hpp:83, [B * u]: [U = 1] selects [A * A1x1] (matrix.hpp:338), [U = 2]
    selects [A * x] (matrix.hpp:419). *)
Definition mul_Bu (U : nat) (B u : matrix T) : outcome (matrix T) :=
  if Nat.eqb U 1 then mul_m_1x1 S 2 1 B u else mul_mv S 2 2 B u.

(** kalman.hpp:83, [xhat = A * xhat + B * u] (matrix.hpp:419, 338/419, 354). *)
Definition predict_x (U : nat) (prm : kparams) (x u : matrix T) : outcome (matrix T) :=
  Ax <- mul_mv S 2 2 (kA prm) x ;;
  Bu <- mul_Bu U (kB prm) u ;;
  add_mm S 2 1 Ax Bu.

(** kalman.hpp:86, [P = A * P * transposed(A) + Q] (matrix.hpp:382, 469, 382, 354). *)
Definition predict_P (prm : kparams) (P : matrix T) : outcome (matrix T) :=
  AP <- mul_mm S 2 2 (kA prm) P ;;
  At <- transposed_22 (kA prm) ;;
  APAt <- mul_mm S 2 2 AP At ;;
  add_mm S 2 2 APAt (kQ prm).

(** kalman.hpp:92 with [M = 1],
    [K = P * transposed(H) * inverted(H * P * transposed(H) + R)]
    (matrix.hpp:450, 419; 403, 253, 187, 484; 316). *)
Definition gain_1 (prm : kparams) (P : matrix T) : outcome (matrix T) :=
  Ht <- transposed_row S 2 (kH prm) ;;
  PHt <- mul_mv S 2 2 P Ht ;;
  HP <- mul_vm S 2 2 (kH prm) P ;;
  HPHt <- dot S 2 HP Ht ;;
  Sv <- add_s_1x1 S HPHt (kR prm) ;;
  iS <- inverted_s S Sv ;;
  mul_ms S 2 1 PHt iS.

(** kalman.hpp:92 with [M = 2] (matrix.hpp:469, 382, 382, 382, 354, 492, 382). *)
Definition gain_2 (prm : kparams) (P : matrix T) : outcome (matrix T) :=
  Ht <- transposed_22 (kH prm) ;;
  PHt <- mul_mm S 2 2 P Ht ;;
  HP <- mul_mm S 2 2 (kH prm) P ;;
  HPHt <- mul_mm S 2 2 HP Ht ;;
  Sm <- add_mm S 2 2 HPHt (kR prm) ;;
  iS <- inverted_22 S Sm ;;
  mul_mm S 2 2 PHt iS.

(** kalman.hpp:95 with [M = 1], [xhat = xhat + K * (z - H * xhat)]
    (matrix.hpp:253, 195, 316, 354). *)
Definition correct_x_1 (prm : kparams) (K x z : matrix T) : outcome (matrix T) :=
  Hx <- dot S 2 (kH prm) x ;;
  y <- sub_1x1_s S z Hx ;;
  Ky <- mul_ms S 2 1 K y ;;
  add_mm S 2 1 x Ky.

(** kalman.hpp:95 with [M = 2] (matrix.hpp:419, 368, 419, 354). *)
Definition correct_x_2 (prm : kparams) (K x z : matrix T) : outcome (matrix T) :=
  Hx <- mul_mv S 2 2 (kH prm) x ;;
  y <- sub_mm S 2 1 z Hx ;;
  Ky <- mul_mv S 2 2 K y ;;
  add_mm S 2 1 x Ky.

(** kalman.hpp:98 with [M = 1], [P = (I() - K * H) * P]
    (kalman.hpp:124-127, matrix.hpp:267, 368, 382). *)
Definition correct_P_1 (prm : kparams) (K P : matrix T) : outcome (matrix T) :=
  I <- eye S 2 ;;
  KH <- outer S 2 K (kH prm) ;;
  IKH <- sub_mm S 2 2 I KH ;;
  mul_mm S 2 2 IKH P.

(** kalman.hpp:98 with [M = 2] (matrix.hpp:382, 368, 382). *)
Definition correct_P_2 (prm : kparams) (K P : matrix T) : outcome (matrix T) :=
  I <- eye S 2 ;;
  KH <- mul_mm S 2 2 K (kH prm) ;;
  IKH <- sub_mm S 2 2 I KH ;;
  mul_mm S 2 2 IKH P.

(** kalman.hpp:92, the gain for [M] measurements. *)
Definition gain (M : nat) := if Nat.eqb M 1 then gain_1 else gain_2.
(** kalman.hpp:95, the correction of the state for [M] measurements. *)
Definition correct_x (M : nat) := if Nat.eqb M 1 then correct_x_1 else correct_x_2.
(** kalman.hpp:98, the correction of the covariance for [M] measurements. *)
Definition correct_P (M : nat) := if Nat.eqb M 1 then correct_P_1 else correct_P_2.

(** kalman.hpp:74-99, [update( u, z )]. *)
Definition update (M U : nat) (prm : kparams) (st : kstate) (u z : matrix T)
  : outcome kstate :=
  t <- sc_add S (kt st) (kdt prm) ;;          (* line 77 *)
  x <- predict_x U prm (kx st) u ;;           (* line 83 *)
  P <- predict_P prm (kP st) ;;               (* line 86 *)
  K <- gain M prm P ;;                        (* line 92 *)
  x' <- correct_x M prm K x z ;;              (* line 95 *)
  P' <- correct_P M prm K P ;;                (* line 98 *)
  Ok {| kK := K; kP := P'; kx := x'; kt := t |}.

(** kalman.hpp:74-99, a history of calls of [update]. *)
Fixpoint run (M U : nat) (prm : kparams) (st : kstate)
             (h : list (matrix T * matrix T)) : outcome kstate :=
  match h with
  | [] => Ok st
  | (u, z) :: h' => st' <- update M U prm st u z ;; run M U prm st' h'
  end.

(** ** The copy of the estimator in the timing program *)

(** time/avr-kalman-time.cpp:100-128, [update( u, z )] of the variant class: the time
    is not advanced (line 103 is commented out); lines 111-124 run only
    [if ( compute_kalman_gain )] (line 172), and 2c precedes 2b. *)
Definition update_timed (M U : nat) (compute_kalman_gain : bool)
           (prm : kparams) (st : kstate) (u z : matrix T) : outcome kstate :=
  x <- predict_x U prm (kx st) u ;;                    (* line 109 *)
  PK <- (if compute_kalman_gain then
           P <- predict_P prm (kP st) ;;               (* line 114 *)
           K <- gain M prm P ;;                        (* line 120 *)
           P' <- correct_P M prm K P ;;                (* line 123 *)
           Ok (P', K)
         else Ok (kP st, kK st)) ;;
  x' <- correct_x M prm (snd PK) x z ;;                (* line 127 *)
  Ok {| kK := snd PK; kP := fst PK; kx := x'; kt := kt st |}.

(** time/avr-kalman-time.cpp:100-128, a history of calls of the timing variant. *)
Fixpoint run_timed (M U : nat) (g : bool) (prm : kparams) (st : kstate)
             (h : list (matrix T * matrix T)) : outcome kstate :=
  match h with
  | [] => Ok st
  | (u, z) :: h' => st' <- update_timed M U g prm st u z ;; run_timed M U g prm st' h'
  end.

End Kalman.
Arguments kparams T : clear implicits.
Arguments kstate T : clear implicits.
