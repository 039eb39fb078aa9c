(** * Specification of Chebyshev filters *)

From Coq Require Import Reals List.
From Coquelicot Require Import Complex.
From Verif Require Import Base Biquad Design Cascade Chebyshev.
Local Open Scope R_scope.

(** Chebyshev polynomials of the first kind, by their recurrence. *)
Fixpoint cheb_pair (n : nat) (y : R) : R * R :=
  match n with
  | O => (1, y)
  | S n => let p := cheb_pair n y in (snd p, 2 * y * snd p - fst p)
  end.
Definition cheb (n : nat) (y : R) : R := fst (cheb_pair n y).

(** The edges of a meaningful specification: pass band and stop band do not overlap and lie
    below half the sampling frequency. *)
Definition valid_edges (kind : filter_response) (fs fpass fstop : R) : Prop :=
  match kind with
  | low_pass => 0 < fpass < fstop /\ fstop < fs / 2
  | high_pass => 0 < fstop < fpass /\ fpass < fs / 2
  | _ => False
  end.

(** The bands, for a frequency normalised to the sampling frequency. *)
Definition in_pass_band (kind : filter_response) (fs fpass f : R) : Prop :=
  match kind with
  | low_pass => 0 <= f <= fpass / fs
  | high_pass => fpass / fs <= f <= 1 / 2
  | _ => False
  end.
Definition in_stop_band (kind : filter_response) (fs fstop f : R) : Prop :=
  match kind with
  | low_pass => fstop / fs <= f <= 1 / 2
  | high_pass => 0 <= f <= fstop / fs
  | _ => False
  end.

(** The position of the normalised frequency [f] on a frequency axis that is bent by the
    bilinear transform and, for a high pass, reversed.  (Undefined at 1/2 for a low pass and
    at 0 for a high pass, where it is infinite.) *)
Definition warped (kind : filter_response) (f : R) : R :=
  match kind with
  | high_pass => / tan (PI * f)
  | _ => tan (PI * f)
  end.

(** The permitted losses, in dB: at least 0.01. *)
Definition loss (A : R) : R := Rmax A (1 / 100).

(** A loss of [A] dB means the power is divided by 1 + eps^2. *)
Definition power_ratio (A : R) : R := Rpower 10 (- A / 10).
Definition eps (A : R) : R := sqrt (Rpower 10 (A / 10) - 1).

Definition arcosh (x : R) : R := ln (x + sqrt (x * x - 1)).

(** The order that is needed, before rounding up. *)
Definition exact_order (kind : filter_response) (fs fpass fstop Apass Astop : R) : R :=
  arcosh (eps (loss Astop) / eps (loss Apass)) / arcosh (warped kind (fstop / fs) / warped kind (fpass / fs)).

(** Its inverse, also where [warped] is infinite. *)
Definition inverse_warped (kind : filter_response) (f : R) : R :=
  match kind with
  | high_pass => sin (PI * f) / cos (PI * f)
  | _ => cos (PI * f) / sin (PI * f)
  end.

(** The end of the pass band. *)
Definition unit_gain_frequency (kind : filter_response) : R := match kind with high_pass => 1 / 2 | _ => 0 end.

(** At the normalised frequency [f] the cascade multiplies the power of a signal by [p]. *)
Definition power_at (cs : cascade R) (f p : R) : Prop :=
  exists h, cs_response cs f = Ok h /\ (Cmod h) ^ 2 = p.

(** What the sections made of the coefficient lists are. *)
Definition sections_are (c : digital_coeff) (l : list (biquad R)) : Prop :=
  length (dc_b c) = length l /\ length (dc_a c) = length l /\
  forall i bq, nth_error l i = Some bq ->
    nth_error (dc_b c) i = Some (bq_b bq) /\ nth_error (dc_a c) i = Some (bq_a bq) /\ bq_w bq = {| v1 := 0; v2 := 0 |}.
