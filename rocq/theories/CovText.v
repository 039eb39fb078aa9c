(** * covariance-error.e.cpp: the text it prints *)
From Coq Require Import ZArith List Bool Ascii String.
From Flocq Require Import Core IEEE754.BinarySingleNaN.
From Verif Require Import Base Matrix Kalman KalmanSim Ieee KalmanIeee Output.
Import List ListNotations.
Local Open Scope string_scope.

(** covariance-error.e.cpp:43-46, one statement [std::cout << ...]: the time and the matrix
    in the short form, then the time and the matrix in Joseph's form. *)
Definition cov_print (t : float) (PP : matrix float * matrix float) : outcome string :=
  p <- show_matrix show_float 2 2 (fst PP) ;;
  pj <- show_matrix show_float 2 2 (snd PP) ;;
  Ok (nl ++ "dt:" ++ show_float t ++ " P:" ++ nl ++ p
      ++ nl ++ "dt:" ++ show_float t ++ " PJ:" ++ nl ++ pj).

(** covariance-error.e.cpp:39-54, the loop with its output, from [k], [t] and the two
    covariances on; at most [fuel] passes, [None]: not finished by then.  The condition
    compares in [double], as [0.001] is one. *)
Fixpoint cov_text_loop (H : matrix float) (R dt : float) (fuel : nat) (k t : float)
    (PP : matrix float * matrix float) : outcome (option string) :=
  if Bltb (literal 1 1000) (float_to_double k) then
    match fuel with
    | O => Ok None
    | Datatypes.S fuel' =>
        s <- cov_print t PP ;;                                                  (* lines 43-46 *)
        PP' <- cov_step float_scalar H R (Bplus mode_NE (literal_f 1 10) k) PP ;;  (* 48-53 *)
        rest <- cov_text_loop H R dt fuel' (Bdiv mode_NE k (ieee_of_Z 24 128 2))
                  (Bplus mode_NE t dt) PP' ;;                                   (* line 39 *)
        Ok (option_map (append s) rest)
    end
  else Ok (Some "").

(** covariance-error.e.cpp:15-55, [main]: its standard output. *)
Definition cov_text (fuel : nat) : outcome (option string) :=
  s <- cov_setup float_scalar (double_to_float (literal 14 100))
         (double_to_float (literal 2 10)) (ieee_of_Z 24 128 2) (ieee_of_Z 24 128 4) ;;
  let '(H, R, P) := s in
  cov_text_loop H R (ieee_of_Z 24 128 1) fuel (ieee_of_Z 24 128 1) (ieee_of_Z 24 128 0) (P, P).
