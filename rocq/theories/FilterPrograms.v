(** * Models of the desktop filter programs

    example/desktop/biquad.e.cpp, biquad-cascade.e.cpp, onepole.e.cpp, biquad-design.e.cpp,
    onepole-design.e.cpp, chebyshev-design.e.cpp and include/dsp/chebyshev-design-io.hpp: the
    text they print, as in Output.v, over the real numbers and with a parameter [show] for the
    text of a number.  The frequency axis [rng] is a parameter; for its values see
    RangeFloat.v. *)

From Coq Require Import Reals ZArith List Ascii String.
From Coquelicot Require Import Complex.
From Verif Require Import Base Scalars Biquad Cascade OnePole Design Chebyshev Text Output.
Import ListNotations.
Local Open Scope string_scope.
Local Open Scope R_scope.

(** The apostrophe (biquad-design.e.cpp:23). *)
Definition apostrophe : string := String "039" "".

(** [replaced] on strings (text.hpp:24-28, see Text.v). *)
Definition replaced_s (text from to : string) : string :=
  string_of_list_ascii
    (replaced (list_ascii_of_string text) (list_ascii_of_string from) (list_ascii_of_string to)).

Section Programs.
(** How a number is printed, and the largest size of a [std::string]. *)
Context (show : R -> string) (max_size : Z).

(** [line( size, chr )] (text.hpp:17-20, see Text.v). *)
Definition line_s (size : Z) (chr : ascii) : outcome string :=
  l <- line max_size size chr ;; Ok (string_of_list_ascii l).

(** One loop over the frequencies: each value and a blank (biquad.e.cpp:32-35, 41-44, 50-53). *)
Fixpoint print_each (f : R -> outcome string) (rng : list R) : outcome string :=
  match rng with
  | [] => Ok ""
  | fn :: rng' => v <- f fn ;; t <- print_each f rng' ;; Ok (v ++ " " ++ t)
  end.

(** [std::cout << dsp::dbV( a, 1 )] for a magnitude [a]: the logarithm of zero is minus
    infinity (biquad.e.cpp:52; filter-design.hpp:48-52). *)
Definition show_dbV (a : R) : outcome string :=
  if Req_EM_T a 0 then Ok "-inf" else d <- dbV a 1 ;; Ok (show d).

(** biquad.e.cpp:28-57: the frequency axis, the magnitude of the response and its decibels.
    biquad-cascade.e.cpp:35-64, onepole.e.cpp:28-57, biquad-design.e.cpp:24-61,
    onepole-design.e.cpp:24-61, chebyshev-design.e.cpp:48-87 and 163-198 are the same. *)
Definition print_response (rng : list R) (resp : R -> outcome C) : outcome string :=
  l65 <- line_s 65 "-" ;;
  fs <- print_each (fun fn => Ok (show fn)) rng ;;
  ys <- print_each (fun fn => h <- resp fn ;; Ok (show (Cmod h))) rng ;;
  ds <- print_each (fun fn => h <- resp fn ;; show_dbV (Cmod h)) rng ;;
  Ok (nl ++ "% " ++ l65 ++
      nl ++ "% Matlab/Octave filter magnitude response for normalized frequency:" ++ nl ++
      nl ++ "fn = [" ++ fs ++ "];" ++ nl ++
      nl ++ "y = [" ++ ys ++ "];" ++ nl ++
      nl ++ "ydbV = [" ++ ds ++ "];" ++ nl ++
      nl ++ "plotyy(fn, y, fn, ydbV);").

(** biquad.e.cpp:58-65 ([name] is bq), biquad-cascade.e.cpp:65-72 (bqc), onepole.e.cpp:58-65,
    biquad-design.e.cpp:62-69, onepole-design.e.cpp:62-69. *)
Definition print_octave (name matlab_design : string) : outcome string :=
  l42 <- line_s 42 "-" ;;
  Ok (nl ++ nl ++ "% " ++ l42 ++
      nl ++ "% Corresponding Matlab/Octave filter design:" ++
      nl ++ nl ++ "pkg load signal" ++ nl ++ matlab_design ++
      nl ++ name ++ " = tf2sos(b,a)" ++ nl ++ "freqz(b,a);" ++ nl).

(** biquad.e.cpp:22-66, [print]; onepole.e.cpp:22-66 and biquad-cascade.e.cpp:29-73 differ in
    the filter only: [shown] is its text, [resp] its response, [name] its name in Octave. *)
Definition print_filter (name : string) (rng : list R) (text design : string)
    (shown : outcome string) (resp : R -> outcome C) : outcome string :=
  l115 <- line_s 115 "=" ;; t <- shown ;; r <- print_response rng resp ;; o <- print_octave name design ;;
  Ok (nl ++ l115 ++ nl ++ text ++ " " ++ design ++ ":" ++ nl ++ t ++ r ++ o).

(** biquad.e.cpp:22-66. *)
Definition print_biquad (rng : list R) (text design : string) (bq : biquad R) : outcome string :=
  print_filter "bq" rng text design (show_biquad show bq) (response bq).

(** biquad-cascade.e.cpp:29-73; [bytes] is the size of the object. *)
Definition print_cascade (bytes : Z) (N : nat) (rng : list R) (text design : string) (bqc : cascade R)
  : outcome string :=
  print_filter "bqc" rng text design (show_cascade show bytes N bqc) (cs_response bqc).

(** onepole.e.cpp:22-66. *)
Definition print_onepole (rng : list R) (text design : string) (op : onepole R) : outcome string :=
  print_filter "bq" rng text design (show_onepole show op) (op_response op).

(** biquad-design.e.cpp:53-57 (with [prefix] "(dsp::biquad_design<FilterResponse::") and
    onepole-design.e.cpp:53-57 ("(dsp::onepole_design<FilterResponse::"). *)
Definition matlab_design (prefix design : string) : string :=
  replaced_s (replaced_s (replaced_s design prefix "") ">(" "(") "))" ")".

(** biquad-design.e.cpp:16-70, [print]. *)
Definition print_biquad_design (rng : list R) (text design : string) (c : biquad_coeff) : outcome string :=
  let bq := make_biquad c in
  l115 <- line_s 115 "=" ;; t <- show_biquad show bq ;; r <- print_response rng (response bq) ;;
  o <- print_octave "bq" (matlab_design "(dsp::biquad_design<FilterResponse::" design) ;;
  Ok (nl ++ l115 ++ nl ++ text ++ " " ++ apostrophe ++ design ++ apostrophe ++ ":" ++ nl ++ t ++ r ++ o).

(** onepole-design.e.cpp:16-70, [print]. *)
Definition print_onepole_design (rng : list R) (text design : string) (c : R * R) : outcome string :=
  let op := make_onepole c in
  l115 <- line_s 115 "=" ;; t <- show_onepole show op ;; r <- print_response rng (op_response op) ;;
  o <- print_octave "bq" (matlab_design "(dsp::onepole_design<FilterResponse::" design) ;;
  Ok (nl ++ l115 ++ nl ++ text ++ " " ++ apostrophe ++ design ++ apostrophe ++ ":" ++ nl ++ t ++ r ++ o).

(** chebyshev-design-io.hpp:17-30, [operator<<( os, AlgoInfoT )]. *)
Definition show_info (ai : algo_info) : string :=
  "[I Wpass:" ++ show (ai_Wpass ai) ++ " Wstop:" ++ show (ai_Wstop ai) ++
  " epass:" ++ show (ai_epass ai) ++ " estop:" ++ show (ai_estop ai) ++
  " Nex:" ++ show (ai_Nex ai) ++ " N:" ++ show_Z (ai_N ai) ++
  " f3:" ++ show (ai_f3 ai) ++ " a:" ++ show (ai_a ai) ++ " ]".

(** chebyshev-design.e.cpp:38-44 and 153-159. *)
Definition print_coeff (c : digital_coeff) : outcome string :=
  e115 <- line_s 115 "=" ;; l115 <- line_s 115 "-" ;;
  Ok (nl ++ e115 ++ nl ++ "ai: " ++ show_info (dc_info c) ++
      nl ++ "b: " ++ show_vector (show_b show) (dc_b c) ++
      nl ++ "a: " ++ show_vector (show_a show) (dc_a c) ++ nl ++ l115 ++ nl).

(** chebyshev-design.e.cpp:77-83. *)
Definition matlab_pass (design : string) : string :=
  replaced_s (replaced_s (replaced_s (replaced_s (replaced_s design "dsp::" "")
    "chebyshev1_lp_hp" "lhcheb1") "chebyshev2_lp_hp" "lhcheb2")
    "FilterResponse::low_pass" "1") "FilterResponse::high_pass" "-1".

(** chebyshev-design.e.cpp:31-104, [print_pass]; [asserts]: assertions are active. *)
Definition print_pass (asserts : bool) (bytes : Z) (rng : list R) (text design : string) (c : digital_coeff)
  : outcome string :=
  bqc <- make_biquad_cascade asserts 7 c ;;
  hd <- print_coeff c ;; t <- show_cascade show bytes 7 bqc ;;
  r <- print_response rng (cs_response bqc) ;; l42 <- line_s 42 "-" ;;
  Ok (hd ++ nl ++ text ++ " " ++ apostrophe ++ design ++ apostrophe ++ ":" ++ nl ++ t ++ r ++
      nl ++ nl ++ "% " ++ l42 ++ nl ++ "% Corresponding Matlab/Octave filter design:" ++
      nl ++ nl ++ "[A,B,P] = " ++ matlab_pass design ++
      nl ++ "% p.1  : s (1:lowpass,-1:highpass)" ++
      nl ++ "% p.2-4: fs, fpass, fstop" ++
      nl ++ "% p.5,6: Apass, Astop amplitude in dB" ++
      nl ++ "% A: matrix of bi-quad a coefficients" ++
      nl ++ "% B: matrix of bi-quad b coefficients" ++
      nl ++ "% P: algorithm internal information" ++
      nl ++ nl ++ "% Concatenate horizontally, convert and plot:" ++
      nl ++ "sos = cat(2,B,A)" ++ nl ++ "[b,a] = sos2tf(sos)" ++ nl ++ "freqz(b,a);" ++ nl).

(** chebyshev-design.e.cpp:192-194. *)
Definition matlab_band (design : string) : string :=
  replaced_s (replaced_s design "dsp::" "") "chebyshev2_bs" "bscheb2".

(** A section of the cascade of chebyshev-design.e.cpp:142-149. *)
Definition section (b0 b1 b2 a1 a2 : R) : biquad R :=
  biquad_ba R_scalar {| b0 := b0; b1 := b1; b2 := b2 |} {| a1 := a1; a2 := a2 |}.

(** chebyshev-design.e.cpp:142-149: the cascade of [print_band]. *)
Definition band_cascade (asserts : bool) : outcome (cascade R) :=
  bqc <- cs_append asserts 7 (cascade_of R_scalar 7 []) (section 0.95000 (-0.00000) (-0.00000) (-0.00000) 0.00000) ;;
  bqc <- cs_append asserts 7 bqc (section 0.81607 (-1.17714) 0.81607 (-1.25009) 0.92530) ;;
  bqc <- cs_append asserts 7 bqc (section 0.40166 (-0.71712) 0.40166 (-0.81244) 0.61293) ;;
  bqc <- cs_append asserts 7 bqc (section 0.81607 0.77782 0.81607 0.69654 0.90931) ;;
  cs_append asserts 7 bqc (section 0.40166 0.62596 0.40166 0.25300 0.56966).

(** chebyshev-design.e.cpp:106-203, [print_band]. *)
Definition print_band (asserts : bool) (bytes : Z) (rng : list R) (text design : string) (c : digital_coeff)
  : outcome string :=
  bqc <- band_cascade asserts ;;
  hd <- print_coeff c ;; t <- show_cascade show bytes 7 bqc ;;
  r <- print_response rng (cs_response bqc) ;; l42 <- line_s 42 "-" ;;
  Ok (hd ++ nl ++ text ++ " " ++ apostrophe ++ design ++ apostrophe ++ ":" ++ nl ++ t ++ r ++
      nl ++ nl ++ "% " ++ l42 ++
      nl ++ nl ++ "[A,B,P] = " ++ matlab_band design ++
      nl ++ "% Corresponding Matlab/Octave filter design:" ++ nl ++ "...TBD...").

End Programs.

(** ** The filters of the programs *)

(** biquad.e.cpp:77, said to be [cheby1(2,3,0.4)]. *)
Definition biquad_cheby1 : biquad R := section 0.14361 0.28721 0.14361 (-0.67993) 0.49133.
(** biquad.e.cpp:78, said to be [cheby2(2,10,0.4)]. *)
Definition biquad_cheby2 : biquad R := section 0.323496 0.017539 0.323496 (-0.66299) 0.32752.

(** biquad-cascade.e.cpp:88-93, said to be [cheby1(6,3,0.4)]. *)
Definition cascade_cheby1 : cascade R := cascade_of R_scalar 7
  [section 0.0025892 0.0051937 0.0026045 (-0.5913597) 0.8879900;
   section 1.0000000 1.9999693 0.9999809 (-0.9156187) 0.6796728;
   section 1.0000000 1.9941195 0.9941310 (-1.3316440) 0.5193180].
(** biquad-cascade.e.cpp:100-105, said to be [cheby2(6,20,0.4)]. *)
Definition cascade_cheby2 : cascade R := cascade_of R_scalar 7
  [section 0.158682 0.245885 0.158682 0.239123 0.084944;
   section 1.000000 0.054217 1.000000 (-0.264548) 0.416971;
   section 1.000000 (-0.554665) 1.000000 (-0.701098) 0.797053].

(** onepole.e.cpp:77. *)
Definition onepole_low : onepole R := op_of_ba R_scalar 0.05 (-0.95).
(** onepole.e.cpp:78. *)
Definition onepole_high : onepole R := op_of_ba R_scalar 0.05 0.95.
