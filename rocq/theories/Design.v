(** * Model of include/dsp/filter-design.hpp, biquad-design.hpp, onepole-design.hpp, filter.hpp

    The numeric type ([std::common_type_t<float, ...>] of the arguments) is idealised to the
    real numbers.  The library functions [std::tan], [std::log10], [std::pow], [std::exp],
    [std::sqrt], [std::abs] are the mathematical functions; [num::pi] is exact. *)

From Coq Require Import Reals List.
From Coquelicot Require Import Complex.
From Verif Require Import Base Scalars Biquad OnePole.
Import ListNotations.
Local Open Scope R_scope.

(** The built-in division of floating-point numbers (as in biquad-design.hpp:108); no real
    result when dividing by zero. *)
Definition rdiv (x y : R) : outcome R := if Req_EM_T y 0 then Err DivByZero else Ok (x / y).

(** [std::tan] (filter-design.hpp:25). *)
Definition rtan (x : R) : outcome R := rdiv (sin x) (cos x).

(** [std::log10] of a positive argument (filter-design.hpp:35). *)
Definition log10 (x : R) : R := ln x / ln 10.

(** filter-design.hpp:20-26, [prewarp( f, fs )]. *)
Definition prewarp (f fs : R) : outcome R := x <- rdiv (PI * f) fs ;; rtan x.

(** filter-design.hpp:30-36, [dbP( vout, vin )]; for a positive quotient. *)
Definition dbP (vout vin : R) : outcome R := q <- rdiv vout vin ;; Ok (10 * log10 q).

(** filter-design.hpp:40-44, [dbP_factor( dbv )]; [std::pow] with the positive base 10. *)
Definition dbP_factor (dbv : R) : R := Rpower 10 (Rabs dbv / 10).

(** filter-design.hpp:48-52, [dbV( vout, vin )]. *)
Definition dbV (vout vin : R) : outcome R := d <- dbP vout vin ;; Ok (2 * d).

(** filter-design.hpp:56-60, [dbV_factor( dbv )]. *)
Definition dbV_factor (dbv : R) : R := dbP_factor dbv / 2.

(** biquad-design.hpp:80-92, [BiquadCoeffT] with [BBT] and [AAT] (58-76). *)
Record biquad_coeff := { bc_b : coeff_b R; bc_a : coeff_a R }.

(** biquad-design.hpp:115, [BiquadCoeffT<T>{ {b0, b1, b2}, {a1,a2} }]. *)
Definition coeffs (b0 b1 b2 a1 a2 : R) : outcome biquad_coeff :=
  Ok {| bc_b := {| b0 := b0; b1 := b1; b2 := b2 |}; bc_a := {| a1 := a1; a2 := a2 |} |}.

(** biquad-design.hpp:101-117, low pass. *)
Definition design_low_pass (dbGain f fs Q : R) : outcome biquad_coeff :=
  K <- prewarp f fs ;;
  KQ <- rdiv K Q ;;
  norm <- rdiv 1 (1 + KQ + K * K) ;;
  let b0 := K * K * norm in
  let b1 := 2 * b0 in
  let b2 := b0 in
  let a1 := 2 * (K * K - 1) * norm in
  let a2 := (1 - KQ + K * K) * norm in
  coeffs b0 b1 b2 a1 a2.

(** biquad-design.hpp:121-137, high pass. *)
Definition design_high_pass (dbGain f fs Q : R) : outcome biquad_coeff :=
  K <- prewarp f fs ;;
  KQ <- rdiv K Q ;;
  norm <- rdiv 1 (1 + KQ + K * K) ;;
  let b0 := 1 * norm in
  let b1 := -2 * b0 in
  let b2 := b0 in
  let a1 := 2 * (K * K - 1) * norm in
  let a2 := (1 - KQ + K * K) * norm in
  coeffs b0 b1 b2 a1 a2.

(** biquad-design.hpp:141-157, band pass. *)
Definition design_band_pass (dbGain f fs Q : R) : outcome biquad_coeff :=
  K <- prewarp f fs ;;
  KQ <- rdiv K Q ;;
  norm <- rdiv 1 (1 + KQ + K * K) ;;
  let b0 := KQ * norm in
  let b1 := 0 in
  let b2 := - b0 in
  let a1 := 2 * (K * K - 1) * norm in
  let a2 := (1 - KQ + K * K) * norm in
  coeffs b0 b1 b2 a1 a2.

(** biquad-design.hpp:161-177, band stop. *)
Definition design_band_stop (dbGain f fs Q : R) : outcome biquad_coeff :=
  K <- prewarp f fs ;;
  KQ <- rdiv K Q ;;
  norm <- rdiv 1 (1 + KQ + K * K) ;;
  let b0 := (1 + K * K) * norm in
  let b1 := 2 * (K * K - 1) * norm in
  let b2 := b0 in
  let a1 := b1 in
  let a2 := (1 - KQ + K * K) * norm in
  coeffs b0 b1 b2 a1 a2.

(** biquad-design.hpp:181-212, low shelf. *)
Definition design_low_shelf (dbGain f fs Q : R) : outcome biquad_coeff :=
  let V := dbV_factor dbGain in
  K <- prewarp f fs ;;
  if Rge_dec dbGain 0 then
    norm <- rdiv 1 (1 + sqrt 2 * K + K * K) ;;
    let b0 := (1 + sqrt (2 * V) * K + V * K * K) * norm in
    let b1 := 2 * (V * K * K - 1) * norm in
    let b2 := (1 - sqrt (2 * V) * K + V * K * K) * norm in
    let a1 := 2 * (K * K - 1) * norm in
    let a2 := (1 - sqrt 2 * K + K * K) * norm in
    coeffs b0 b1 b2 a1 a2
  else
    norm <- rdiv 1 (1 + sqrt (2 * V) * K + V * K * K) ;;
    let b0 := (1 + sqrt 2 * K + K * K) * norm in
    let b1 := 2 * (K * K - 1) * norm in
    let b2 := (1 - sqrt 2 * K + K * K) * norm in
    let a1 := 2 * (V * K * K - 1) * norm in
    let a2 := (1 - sqrt (2 * V) * K + V * K * K) * norm in
    coeffs b0 b1 b2 a1 a2.

(** biquad-design.hpp:216-247, high shelf. *)
Definition design_high_shelf (dbGain f fs Q : R) : outcome biquad_coeff :=
  let V := dbV_factor dbGain in
  K <- prewarp f fs ;;
  if Rge_dec dbGain 0 then
    norm <- rdiv 1 (1 + sqrt 2 * K + K * K) ;;
    let b0 := (V + sqrt (2 * V) * K + K * K) * norm in
    let b1 := 2 * (K * K - V) * norm in
    let b2 := (V - sqrt (2 * V) * K + K * K) * norm in
    let a1 := 2 * (K * K - 1) * norm in
    let a2 := (1 - sqrt 2 * K + K * K) * norm in
    coeffs b0 b1 b2 a1 a2
  else
    norm <- rdiv 1 (V + sqrt (2 * V) * K + K * K) ;;
    let b0 := (1 + sqrt 2 * K + K * K) * norm in
    let b1 := 2 * (K * K - 1) * norm in
    let b2 := (1 - sqrt 2 * K + K * K) * norm in
    let a1 := 2 * (K * K - V) * norm in
    let a2 := (V - sqrt (2 * V) * K + K * K) * norm in
    coeffs b0 b1 b2 a1 a2.

(** biquad-design.hpp:251-282, peak band equalizer. *)
Definition design_peak_band_eq (dbGain f fs Q : R) : outcome biquad_coeff :=
  let V := dbV_factor dbGain in
  K <- prewarp f fs ;;
  Qi <- rdiv 1 Q ;;
  VQ <- rdiv V Q ;;
  if Rge_dec dbGain 0 then
    norm <- rdiv 1 (1 + Qi * K + K * K) ;;
    let b0 := (1 + VQ * K + K * K) * norm in
    let b1 := 2 * (K * K - 1) * norm in
    let b2 := (1 - VQ * K + K * K) * norm in
    let a1 := b1 in
    let a2 := (1 - Qi * K + K * K) * norm in
    coeffs b0 b1 b2 a1 a2
  else
    norm <- rdiv 1 (1 + VQ * K + K * K) ;;
    let b0 := (1 + Qi * K + K * K) * norm in
    let b1 := 2 * (K * K - 1) * norm in
    let b2 := (1 - Qi * K + K * K) * norm in
    let a1 := b1 in
    let a2 := (1 - VQ * K + K * K) * norm in
    coeffs b0 b1 b2 a1 a2.

(** biquad-design.hpp:26-36, [FilterResponse], without [all_pass], for which there is no
    design method (96-97 is empty). *)
Inductive filter_response :=
| low_pass | high_pass | band_pass | band_stop | low_shelf | high_shelf | peak_band_eq.

(** biquad-design.hpp:286-300, [biquad_design<R>( dbGain, f, fs, Q )]. *)
Definition biquad_design (r : filter_response) : R -> R -> R -> R -> outcome biquad_coeff :=
  match r with
  | low_pass => design_low_pass
  | high_pass => design_high_pass
  | band_pass => design_band_pass
  | band_stop => design_band_stop
  | low_shelf => design_low_shelf
  | high_shelf => design_high_shelf
  | peak_band_eq => design_peak_band_eq
  end.

(** biquad-design.hpp:304-308, [make_biquad( coeff )]. *)
Definition make_biquad (c : biquad_coeff) : biquad R := biquad_ba R_scalar (bc_b c) (bc_a c).

(** filter.hpp:27-29, [Lpf( f3db, fs, Q )]; [operator()] (31-34) is [step] of the section. *)
Definition Lpf (f3db fs Q : R) : outcome (biquad R) :=
  c <- biquad_design low_pass 0 f3db fs Q ;; Ok (make_biquad c).

(** filter.hpp:52-54, [Hpf( f3db, fs, Q )]; [operator()] (56-59) is [step] of the section. *)
Definition Hpf (f3db fs Q : R) : outcome (biquad R) :=
  c <- biquad_design high_pass 0 f3db fs Q ;; Ok (make_biquad c).

(** The unqualified [abs] of onepole-design.hpp:79 and 93 applied to a [double].  Which
    function that is depends on the standard library: [::abs( double )] where the global
    namespace has the overload set, C's [::abs( int )] otherwise (the argument is then
    converted to [int], truncating; |argument| < 2^15 assumed). *)
Inductive abs_overload := abs_double | abs_int.

(** See [abs_overload] (onepole-design.hpp:79, 93). *)
Definition unqualified_abs (o : abs_overload) (x : R) : R :=
  match o with
  | abs_double => Rabs x
  | abs_int => IZR (Int_part (Rabs x))
  end.

(** onepole-design.hpp:73-83, low pass; the pair (b0, a1) is [OnePoleCoeffT] (52-64). *)
Definition onepole_low_pass (o : abs_overload) (f fs : R) : outcome (R * R) :=
  x <- rdiv (-1 * PI * f) fs ;;
  let a1 := - exp x in
  let b0 := 1 - unqualified_abs o a1 in
  Ok (b0, a1).

(** onepole-design.hpp:87-97, high pass. *)
Definition onepole_high_pass (o : abs_overload) (f fs : R) : outcome (R * R) :=
  q <- rdiv f fs ;;
  let a1 := exp (-1 * PI * (1 / 2 - q)) in
  let b0 := 1 - unqualified_abs o a1 in
  Ok (b0, a1).

(** onepole-design.hpp:119-123, [make_onepole( coeff )]. *)
Definition make_onepole (c : R * R) : onepole R := op_of_ba R_scalar (fst c) (snd c).
