(** * The simulation and covariance programs in IEEE arithmetic

    example/avr/avr-kalman-sim.e.cpp and example/desktop/kalman-sim.e.cpp with their real
    numeric type, and example/desktop/covariance-error.e.cpp. *)

From Coq Require Import List ZArith Bool.
From Flocq Require Import Core IEEE754.BinarySingleNaN.
From Verif Require Import Base Matrix Kalman KalmanSim Ieee.
Import ListNotations.

(** [kalman::real_t] is a floating-point type (avr-kalman-sim.e.cpp:20-30,
    kalman-sim.e.cpp:21-31; line 25/26: [double]): its operators, conversion from [int] and
    [operator<]. *)
Definition ieee_numeric (prec emax : Z) {Hp : Prec_gt_0 prec} {Hm : Prec_lt_emax prec emax}
  : numeric (binary_float prec emax) := {|
  nt_sc := ieee_scalar prec emax;
  nt_int := fun z => Ok (ieee_of_Z prec emax z);
  nt_lt := fun a b => Bltb a b
|}.

(** A decimal literal with value [n/d], such as 0.2 (kalman-sim.e.cpp:62) as 2/10: the
    nearest [double].  As [n] and [d] are exact, that is their rounded quotient. *)
Definition literal (n d : Z) : double :=
  Bdiv mode_NE (ieee_of_Z 53 1024 n) (ieee_of_Z 53 1024 d).

(** A literal with suffix [f], such as [0.1f] (covariance-error.e.cpp:48). *)
Definition literal_f (n d : Z) : float :=
  Bdiv mode_NE (ieee_of_Z 24 128 n) (ieee_of_Z 24 128 d).

(** Implicit conversion of [double] to [float] (covariance-error.e.cpp:25-26). *)
Definition double_to_float (x : double) : float :=
  match x with
  | B754_zero s => B754_zero s
  | B754_infinity s => B754_infinity s
  | B754_nan => B754_nan
  | B754_finite s m e _ => binary_normalize 24 128 eq_refl eq_refl mode_NE
                             (cond_Zopp s (Zpos m)) e s
  end.

(** Implicit conversion of [float] to [double] (covariance-error.e.cpp:39), exact. *)
Definition float_to_double (x : float) : double :=
  match x with
  | B754_zero s => B754_zero s
  | B754_infinity s => B754_infinity s
  | B754_nan => B754_nan
  | B754_finite s m e _ => binary_normalize 53 1024 eq_refl eq_refl mode_NE
                             (cond_Zopp s (Zpos m)) e s
  end.

(** ** covariance-error.e.cpp *)

Section CovarianceError.
Context {T : Type} (S : scalar T).

(** covariance-error.e.cpp:28-34: measurement matrix [H], measurement noise [R] and initial
    covariance [P], from the noises and the constants 1, 2 and 4.  [A] of line 28 is not used
    otherwise. *)
Definition cov_setup (measnoise accelnoise two four : T)
  : outcome (matrix T * T * matrix T) :=
  let dt := sc_one S in                                        (* line 24 *)
  H <- mat_il S 1 2 [sc_one S; sc_zero S] ;;                   (* lines 30-31 *)
  R <- sc_mul S measnoise measnoise ;;                         (* line 33 *)
  aa <- sc_mul S accelnoise accelnoise ;;                      (* line 34 *)
  dt2 <- sc_mul S dt dt ;; dt3 <- sc_mul S dt2 dt ;; dt4 <- sc_mul S dt3 dt ;;
  q <- sc_div S dt4 four ;; h <- sc_div S dt3 two ;;
  P1 <- mat_il S 2 2 [q; h; h; dt2] ;;                         (* line 35 *)
  P <- mul_sm S 2 2 aa P1 ;;
  Ok (H, R, P).

(** covariance-error.e.cpp:50, [P = P - K * H * P]
    (matrix.hpp:267, 382, 368). *)
Definition cov_short (H K P : matrix T) : outcome (matrix T) :=
  KH <- outer S 2 K H ;;
  KHP <- mul_mm S 2 2 KH P ;;
  sub_mm S 2 2 P KHP.

(** covariance-error.e.cpp:52-53, [A = eye<real_t,S>() - K * H] and
    [PJ = A * PJ * transposed(A) + K * R * transposed(K)]
    (matrix.hpp:267, 368; 382, 469, 382; 316, 438, 267; 354). *)
Definition cov_joseph (H : matrix T) (R : T) (K P : matrix T) : outcome (matrix T) :=
  I <- eye S 2 ;;
  KH <- outer S 2 K H ;;
  A <- sub_mm S 2 2 I KH ;;
  AP <- mul_mm S 2 2 A P ;;
  At <- transposed_22 A ;;
  APAt <- mul_mm S 2 2 AP At ;;
  KR <- mul_ms S 2 1 K R ;;
  Kt <- transposed_col S 2 K ;;
  KRKt <- outer S 2 KR Kt ;;
  add_mm S 2 2 APAt KRKt.

(** covariance-error.e.cpp:48-53, one pass of the loop with [k + 0.1f] given. *)
Definition cov_step (H : matrix T) (R k : T) (PP : matrix T * matrix T)
  : outcome (matrix T * matrix T) :=
  K <- mat_il S 2 1 [k; k] ;;                                  (* line 48 *)
  P <- cov_short H K (fst PP) ;;
  PJ <- cov_joseph H R K (snd PP) ;;
  Ok (P, PJ).

End CovarianceError.

(** covariance-error.e.cpp:39, [for ( auto k = real_t(1.0); k > 0.001; k /= 2, t += dt )],
    from [k] on, for at most [fuel] passes; [None]: not finished by then.  The result: the
    pairs (P, PJ) printed by the passes (lines 43-46, without the text), then the final one. *)
Fixpoint cov_loop (H : matrix float) (R : float) (fuel : nat) (k : float)
    (PP : matrix float * matrix float)
  : outcome (option (list (matrix float * matrix float))) :=
  if Bltb (literal 1 1000) (float_to_double k) then
    match fuel with
    | O => Ok None
    | Datatypes.S fuel' =>
        PP' <- cov_step float_scalar H R (Bplus mode_NE (literal_f 1 10) k) PP ;;
        l <- cov_loop H R fuel' (Bdiv mode_NE k (ieee_of_Z 24 128 2)) PP' ;;
        Ok (option_map (cons PP) l)
    end
  else Ok (Some [PP]).

(** covariance-error.e.cpp:15-55, [main]. *)
Definition cov_main (fuel : nat) : outcome (option (list (matrix float * matrix float))) :=
  s <- cov_setup float_scalar (double_to_float (literal 14 100))
         (double_to_float (literal 2 10)) (ieee_of_Z 24 128 2) (ieee_of_Z 24 128 4) ;;
  let '(H, R, P) := s in
  cov_loop H R fuel (ieee_of_Z 24 128 1) (P, P).
