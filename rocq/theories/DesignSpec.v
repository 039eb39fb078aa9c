(** * Specification of filter designs: analogue prototypes, independent of the model *)

From Coq Require Import Reals.
From Coquelicot Require Import Complex.
Local Open Scope R_scope.

(** Quadratic polynomial in the Laplace variable. *)
Definition poly2 (c2 c1 c0 : R) (s : C) : C :=
  Cplus (Cplus (Cmult (RtoC c2) (Cmult s s)) (Cmult (RtoC c1) s)) (RtoC c0).

(** Second order transfer functions with corner frequency 1 rad/s. *)
Definition proto_low_pass (Q : R) (s : C) : C := Cdiv (RtoC 1) (poly2 1 (1 / Q) 1 s).
Definition proto_high_pass (Q : R) (s : C) : C := Cdiv (Cmult s s) (poly2 1 (1 / Q) 1 s).
Definition proto_band_pass (Q : R) (s : C) : C := Cdiv (Cmult (RtoC (1 / Q)) s) (poly2 1 (1 / Q) 1 s).
Definition proto_band_stop (Q : R) (s : C) : C := Cdiv (Cplus (Cmult s s) (RtoC 1)) (poly2 1 (1 / Q) 1 s).

(** Shelving and peaking filters that boost by the factor [V]. *)
Definition proto_low_shelf (V : R) (s : C) : C := Cdiv (poly2 1 (sqrt (2 * V)) V s) (poly2 1 (sqrt 2) 1 s).
Definition proto_high_shelf (V : R) (s : C) : C := Cdiv (poly2 V (sqrt (2 * V)) 1 s) (poly2 1 (sqrt 2) 1 s).
Definition proto_peak (V Q : R) (s : C) : C := Cdiv (poly2 1 (V / Q) 1 s) (poly2 1 (1 / Q) 1 s).

(** The point of the imaginary axis that corresponds to the normalised frequency [fnorm] in
    a bilinear transform that maps the corner frequency [f / fs] to 1 rad/s. *)
Definition analogue_frequency (f fs fnorm : R) : C := (0, tan (PI * fnorm) / tan (PI * f / fs)).

(** The same filters when they attenuate by the factor [V]: the reciprocals. *)
Definition proto_low_shelf_cut (V : R) (s : C) : C := Cdiv (poly2 1 (sqrt 2) 1 s) (poly2 1 (sqrt (2 * V)) V s).
Definition proto_high_shelf_cut (V : R) (s : C) : C := Cdiv (poly2 1 (sqrt 2) 1 s) (poly2 V (sqrt (2 * V)) 1 s).
Definition proto_peak_cut (V Q : R) (s : C) : C := Cdiv (poly2 1 (1 / Q) 1 s) (poly2 1 (V / Q) 1 s).
