(** * Model of include/dsp/chebyshev-design.hpp

    The floating-point type is idealised to the real numbers and the library functions to
    the mathematical ones, as in Design.v.  Integer computations are checked for overflow of
    a 32-bit [int] (the header needs [std::vector] and is not used on AVR). *)

From Coq Require Import Reals List ZArith.
From Coquelicot Require Import Complex.
From Verif Require Import Base Scalars Biquad OnePole Design Cascade.
Import ListNotations.
Local Open Scope R_scope.

(** Result of an [int] operation or of a conversion to [int] (chebyshev-design.hpp:115, 139,
    [core::as<int>], core/shims.hpp:19-37). *)
Definition int_range (z : Z) : outcome Z :=
  if (Z.leb (- 2 ^ 31) z && Z.ltb z (2 ^ 31))%bool then Ok z else Err SignedOverflow.

(** [std::acosh] of a real number (chebyshev-design.hpp:114). *)
Definition acosh (x : R) : outcome R :=
  if Rlt_dec x 1 then Err DomainError else Ok (ln (x + sqrt (x * x - 1))).

(** [std::asinh] (chebyshev-design.hpp:119). *)
Definition asinh (x : R) : R := ln (x + sqrt (x * x + 1)).

(** [std::ceil] (chebyshev-design.hpp:115). *)
Definition ceil (x : R) : Z := (- Int_part (- x))%Z.

(** [cosh( acosh( complex( x ) ) / complex( n ) )] for a real x >= 0, as in
    chebyshev-design.hpp:120 and 196; the imaginary part is zero. *)
Definition cosh_acosh_part (x n : R) : R :=
  if Rle_dec 1 x then cosh (ln (x + sqrt (x * x - 1)) / n) else cos (acos x / n).

(** chebyshev-design.hpp:59-63, [AlgoInfoT]. *)
Record algo_info := {
  ai_Wpass : R; ai_Wstop : R; ai_epass : R; ai_estop : R; ai_Nex : R; ai_N : Z; ai_f3 : R; ai_a : R }.

(** chebyshev-design.hpp:67-86, [DigitalCoeffT]: the vectors [b] and [a], [info]. *)
Record digital_coeff := { dc_b : list (coeff_b R); dc_a : list (coeff_a R); dc_info : algo_info }.

(** chebyshev-design.hpp:77-80, [size()]. *)
Definition dc_size (c : digital_coeff) : nat := length (dc_b c).

(** chebyshev-design.hpp:100, 106: the comparison with [FilterResponse::low_pass]. *)
Definition is_low_pass (kind : filter_response) : bool := match kind with low_pass => true | _ => false end.

(** chebyshev-design.hpp:100: [kind == low_pass || kind == high_pass]. *)
Definition is_low_or_high_pass (kind : filter_response) : bool :=
  match kind with low_pass | high_pass => true | _ => false end.

(** [std::pow( x, s )] for [s] = 1 or -1 (chebyshev-design.hpp:106-109, 121). *)
Definition pow_sign (kind : filter_response) (x : R) : outcome R :=
  if is_low_pass kind then Ok x else rdiv 1 x.

(** [std::sqrt( std::pow<T>( 10, A / 10 ) - 1 )] (chebyshev-design.hpp:111-112). *)
Definition ripple (A : R) : outcome R :=
  let x := Rpower 10 (A / 10) - 1 in
  if Rlt_dec x 0 then Err DomainError else Ok (sqrt x).

(** The common first part of both designs, chebyshev-design.hpp:100-117 and 176-193:
    (s, Wpass, Wstop, epass, estop, Nex, N). *)
Definition cheb_setup (asserts : bool) (kind : filter_response) (fs fpass fstop Apass Astop : R)
  : outcome (R * R * R * R * R * R * Z) :=
  _ <- assert_ asserts (is_low_or_high_pass kind) ;;
  _ <- assert_ asserts (if Rlt_dec fpass (fs / 2) then true else false) ;;
  _ <- assert_ asserts (if Rlt_dec fstop (fs / 2) then true else false) ;;
  let s := if is_low_pass kind then 1 else -1 in
  wp <- prewarp fpass fs ;; Wpass <- pow_sign kind wp ;;
  ws <- prewarp fstop fs ;; Wstop <- pow_sign kind ws ;;
  epass <- ripple Apass ;;
  estop <- ripple Astop ;;
  qe <- rdiv estop epass ;; n <- acosh qe ;;
  qw <- rdiv Wstop Wpass ;; d <- acosh qw ;;
  Nex <- rdiv n d ;;
  N <- int_range (ceil Nex) ;;
  Ok (s, Wpass, Wstop, epass, estop, Nex, N).

(** The section of odd order, chebyshev-design.hpp:131-134 and 207-210. *)
Definition first_order_section (s W0 : R) : outcome (coeff_b R * coeff_a R) :=
  G <- rdiv 1 (1 + W0) ;;
  Ok ({| b0 := G; b1 := s * G; b2 := 0 |}, {| a1 := s * (2 * G - 1); a2 := 0 |}).

(** chebyshev-design.hpp:139 and 215, the angle [th]. *)
Definition section_angle (N i : Z) : outcome R :=
  i2 <- int_range (2 * i) ;; m <- int_range (N - 1 + i2) ;; n2 <- int_range (2 * N) ;;
  rdiv (PI * IZR m) (IZR n2).

(** chebyshev-design.hpp:139-147, one iteration of the loop of type 1. *)
Definition cheb1_section (s Wpass W0 : R) (N i : Z) : outcome (coeff_b R * coeff_a R) :=
  th <- section_angle N i ;;
  let Wi := Wpass * sin th in
  let D := 1 - 2 * W0 * cos th + W0 * W0 + Wi * Wi in
  G <- rdiv (W0 * W0 + Wi * Wi) D ;;
  a1 <- rdiv (2 * (W0 * W0 + Wi * Wi - 1)) D ;;
  a2 <- rdiv (1 + 2 * W0 * cos th + W0 * W0 + Wi * Wi) D ;;
  Ok ({| b0 := G; b1 := G * s * 2; b2 := G |}, {| a1 := s * a1; a2 := a2 |}).

(** chebyshev-design.hpp:215-224, one iteration of the loop of type 2. *)
Definition cheb2_section (s Wstop W0 : R) (N i : Z) : outcome (coeff_b R * coeff_a R) :=
  th <- section_angle N i ;;
  Wi <- rdiv (sin th) Wstop ;;
  let D := 1 - 2 * W0 * cos th + W0 * W0 + Wi * Wi in
  G <- rdiv (1 + Wi * Wi) D ;;
  b1 <- rdiv (2 * (1 - Wi * Wi)) (1 + Wi * Wi) ;;
  a1 <- rdiv (2 * (1 - W0 * W0 - Wi * Wi)) D ;;
  a2 <- rdiv (1 + 2 * W0 * cos th + W0 * W0 + Wi * Wi) D ;;
  Ok ({| b0 := G; b1 := G * s * b1; b2 := G |}, {| a1 := s * a1; a2 := a2 |}).

(** The loop [for( auto i : core::range( 1, K+1 ) )] with its [emplace_back]s,
    chebyshev-design.hpp:137-148 and 213-225: [n] iterations from [i]. *)
Fixpoint section_loop (section : Z -> outcome (coeff_b R * coeff_a R)) (i : Z) (n : nat)
  : outcome (list (coeff_b R * coeff_a R)) :=
  match n with
  | O => Ok []
  | S n' => c <- section i ;; l <- section_loop section (i + 1) n' ;; Ok (c :: l)
  end.

(** The sections: chebyshev-design.hpp:129-148 and 205-225. *)
Definition all_sections (s W0 : R) (N : Z) (section : Z -> outcome (coeff_b R * coeff_a R))
  : outcome (list (coeff_b R * coeff_a R)) :=
  let r := Z.rem N 2 in
  let K := Z.quot (N - r) 2 in
  first <- (if Z.eqb r 1 then c <- first_order_section s W0 ;; Ok [c] else Ok []) ;;
  rest <- section_loop section 1 (Z.to_nat K) ;;
  Ok (first ++ rest).

(** chebyshev-design.hpp:96-151, [chebyshev1_lp_hp_impl]. *)
Definition chebyshev1_lp_hp_impl (asserts : bool) (kind : filter_response) (fs fpass fstop Apass Astop : R)
  : outcome digital_coeff :=
  p <- cheb_setup asserts kind fs fpass fstop Apass Astop ;;
  let '(s, Wpass, Wstop, epass, estop, Nex, N) := p in
  a <- rdiv (asinh estop) (IZR N) ;;
  q <- rdiv 1 epass ;;
  let W3 := Wpass * cosh_acosh_part q (IZR N) in
  w3 <- pow_sign kind W3 ;;
  let f3 := fs / PI * atan w3 in
  let W0 := sinh a * Wpass in
  l <- all_sections s W0 N (cheb1_section s Wpass W0 N) ;;
  Ok {| dc_b := map fst l; dc_a := map snd l;
        dc_info := {| ai_Wpass := Wpass; ai_Wstop := Wstop; ai_epass := epass; ai_estop := estop;
                      ai_Nex := Nex; ai_N := N; ai_f3 := f3; ai_a := a |} |}.

(** chebyshev-design.hpp:155-162, [chebyshev1_lp_hp]. *)
Definition chebyshev1_lp_hp (asserts : bool) (kind : filter_response) (fs fpass fstop Apass Astop : R)
  : outcome digital_coeff :=
  chebyshev1_lp_hp_impl asserts kind fs fpass fstop (Rmax Apass (1 / 100)) (Rmax Astop (1 / 100)).

(** chebyshev-design.hpp:172-235, [chebyshev2_lp_hp_impl]. *)
Definition chebyshev2_lp_hp_impl (asserts : bool) (kind : filter_response) (fs fpass fstop Apass Astop : R)
  : outcome digital_coeff :=
  p <- cheb_setup asserts kind fs fpass fstop Apass Astop ;;
  let '(s, Wpass, Wstop, epass, estop, Nex, N) := p in
  a <- rdiv (asinh estop) (IZR N) ;;
  W3 <- rdiv Wstop (cosh_acosh_part estop (IZR N)) ;;
  w3 <- pow_sign kind W3 ;;
  let f3 := fs / PI * atan w3 in
  W0 <- rdiv (sinh a) Wstop ;;
  l <- all_sections s W0 N (cheb2_section s Wstop W0 N) ;;
  Ok {| dc_b := map fst l; dc_a := map snd l;
        dc_info := {| ai_Wpass := Wpass; ai_Wstop := Wstop; ai_epass := epass; ai_estop := estop;
                      ai_Nex := Nex; ai_N := N; ai_f3 := f3; ai_a := a |} |}.

(** chebyshev-design.hpp:239-246, [chebyshev2_lp_hp]. *)
Definition chebyshev2_lp_hp (asserts : bool) (kind : filter_response) (fs fpass fstop Apass Astop : R)
  : outcome digital_coeff :=
  chebyshev2_lp_hp_impl asserts kind fs fpass fstop (Rmax Apass (1 / 100)) (Rmax Astop (1 / 100)).

(** chebyshev-design.hpp:256-268, [chebyshev2_bs_impl]; the algorithm itself (269-315) is
    compiled out.  [info] is value-initialised. *)
Definition chebyshev2_bs_impl (asserts : bool) (fs fpa fpb fsa fsb Apass Astop : R) : outcome digital_coeff :=
  _ <- assert_ asserts (if Rlt_dec fpa (fs / 2) then true else false) ;;
  _ <- assert_ asserts (if Rlt_dec fpb (fs / 2) then true else false) ;;
  Ok {| dc_b := []; dc_a := [];
        dc_info := {| ai_Wpass := 0; ai_Wstop := 0; ai_epass := 0; ai_estop := 0;
                      ai_Nex := 0; ai_N := 0%Z; ai_f3 := 0; ai_a := 0 |} |}.

(** chebyshev-design.hpp:320-327, [chebyshev2_bs]. *)
Definition chebyshev2_bs (asserts : bool) (fs fpa fpb fsa fsb Apass Astop : R) : outcome digital_coeff :=
  chebyshev2_bs_impl asserts fs fpa fpb fsa fsb (Rmax Apass (1 / 100)) (Rmax Astop (1 / 100)).

(** chebyshev-design.hpp:336-339, the loop of [make_biquad_cascade] from index [i]; the
    vectors are read with [operator[]]. *)
Fixpoint append_loop (asserts : bool) (N : nat) (c : digital_coeff) (i n : nat) (bqc : cascade R)
  : outcome (cascade R) :=
  match n with
  | O => Ok bqc
  | S n' =>
      match nth_error (dc_b c) i, nth_error (dc_a c) i with
      | Some b, Some a =>
          bqc' <- cs_append asserts N bqc (biquad_ba R_scalar b a) ;; append_loop asserts N c (S i) n' bqc'
      | _, _ => Err OutOfBounds
      end
  end.

(** chebyshev-design.hpp:331-342, [make_biquad_cascade<N>( coeff )]. *)
Definition make_biquad_cascade (asserts : bool) (N : nat) (c : digital_coeff) : outcome (cascade R) :=
  append_loop asserts N c 0 (dc_size c) (cascade_of R_scalar N []).
