(** * Models of the output operators

    include/num/matrix-io.hpp, include/core/vector-io.hpp, include/num/fixed-point-io.hpp,
    include/dsp/biquad-io.hpp, onepole-io.hpp, biquad-cascade-io.hpp
    and the output of example/desktop/kalman-sim.e.cpp.  The text
    written to a stream in its initial state is a [string]; inserting one item after the
    other ([os << a << b]) is concatenation. *)

From Coq Require Import Reals ZArith List Bool Ascii String.
From Coquelicot Require Import Complex.
From Flocq Require Import Core IEEE754.BinarySingleNaN.
From Verif Require Import Base Matrix Kalman KalmanSim Ieee KalmanIeee FixedPoint Biquad Cascade OnePole.
Import ListNotations.
Local Open Scope string_scope.
Local Open Scope Z_scope.

(** The newline character (matrix-io.hpp:26). *)
Definition nl : string := String "010" "".

(** ** Numbers: the formatting of the standard library, as used by vector-io.hpp:21 *)

(** A decimal digit (library; used by vector-io.hpp:21). *)
Definition digit (d : Z) : ascii := ascii_of_N (Z.to_N (48 + d)).

(** The decimal digits of a non-negative number, at least one, at most [fuel] (library;
    used by biquad-cascade-io.hpp:21-22 for [sizeof] and [size()]). *)
Fixpoint digits (fuel : nat) (n : Z) (tail : string) : string :=
  match fuel with
  | O => tail
  | S fuel' => let tail' := String (digit (n mod 10)) tail in
      if n <? 10 then tail' else digits fuel' (n / 10) tail'
  end.

(** [os << int] (library; used by biquad-cascade-io.hpp:22). *)
Definition show_Z (n : Z) : string :=
  if n <? 0 then String "-" (digits 20 (- n) "") else digits 20 n "".

(** The decimal exponent of num/den > 0, upwards and downwards (library, [%g]; used by
    vector-io.hpp:21). *)
Fixpoint exp_up (fuel : nat) (num den X : Z) : Z :=
  match fuel with
  | O => X
  | S fuel' => if num <? den * 10 then X else exp_up fuel' num (den * 10) (X + 1)
  end.
(** (library; vector-io.hpp:21) *)
Fixpoint exp_down (fuel : nat) (num den X : Z) : Z :=
  match fuel with
  | O => X
  | S fuel' => if den <=? num then X else exp_down fuel' (num * 10) den (X - 1)
  end.
(** The exponent of the first decimal digit of num/den, for what [double] can represent:
    10^-324 to 10^309 (library; vector-io.hpp:21). *)
Definition dec_exp (num den : Z) : Z :=
  if den <=? num then exp_up 310 num den 0 else exp_down 330 num den 0.

(** a/b rounded to an integer, ties to even (library; vector-io.hpp:21). *)
Definition round_half_even (a b : Z) : Z :=
  let q := a / b in let r := a mod b in
  if 2 * r <? b then q else if b <? 2 * r then q + 1 else if Z.even q then q else q + 1.

(** Six significant digits, as a number from 100000 to 999999, and the exponent of the first
    (library, [%.6g]; vector-io.hpp:21). *)
Definition six_digits (num den : Z) : Z * Z :=
  let X := dec_exp num den in
  let D := if X <=? 5 then round_half_even (num * 10 ^ (5 - X)) den
           else round_half_even num (den * 10 ^ (X - 5)) in
  if D =? 1000000 then (100000, X + 1) else (D, X).

(** The six digits of a number (library; vector-io.hpp:21). *)
Definition digit_list (D : Z) : list Z :=
  [D / 100000 mod 10; D / 10000 mod 10; D / 1000 mod 10; D / 100 mod 10; D / 10 mod 10; D mod 10].

(** Without trailing zeros (library, [%g]; vector-io.hpp:21). *)
Fixpoint strip (l : list Z) : list Z :=
  match l with
  | [] => []
  | d :: l' => match strip l' with
               | [] => if d =? 0 then [] else [d]
               | t => d :: t
               end
  end.

(** Digits as text (library; vector-io.hpp:21). *)
Fixpoint text_of (l : list Z) : string :=
  match l with [] => "" | d :: l' => String (digit d) (text_of l') end.

(** Decimal point and fraction, if any (library; vector-io.hpp:21). *)
Definition fraction (l : list Z) : string :=
  match strip l with [] => "" | f => String "." (text_of f) end.

(** Exponent with sign and at least two digits (library; vector-io.hpp:21). *)
Definition exponent (X : Z) : string :=
  String "e" (String (if X <? 0 then "-"%char else "+"%char)
    (let a := Z.abs X in
     if a <? 10 then String "0" (String (digit a) "")
     else digits 20 a "")).

(** A positive number num/den (library, [%g] with precision 6, the initial state of a
    stream; vector-io.hpp:21). *)
Definition show_pos (num den : Z) : string :=
  let '(D, X) := six_digits num den in
  let l := digit_list D in
  if (-4 <=? X) && (X <? 6) then
    if 0 <=? X then text_of (firstn (Z.to_nat (X + 1)) l) ++ fraction (skipn (Z.to_nat (X + 1)) l)
    else "0" ++ fraction (repeat 0 (Z.to_nat (- X - 1)) ++ l)%list
  else text_of (firstn 1 l) ++ fraction (skipn 1 l) ++ exponent X.

(** [os << double] or [os << float] in a stream's initial state (vector-io.hpp:21,
    matrix-io.hpp:24, fixed-point-io.hpp:20).  The sign of a nan, which the model does not
    have, is not printed. *)
Definition show_float {prec emax} (x : binary_float prec emax) : string :=
  match x with
  | B754_zero s => if s then "-0" else "0"
  | B754_infinity s => if s then "-inf" else "inf"
  | B754_nan => "nan"
  | B754_finite s m e _ =>
      let t := if 0 <=? e then show_pos (Zpos m * 2 ^ e) 1 else show_pos (Zpos m) (2 ^ (- e)) in
      if s then String "-" t else t
  end.

(** ** Vectors, matrices, fixed-point numbers *)

(** vector-io.hpp:15-24. *)
Definition show_vector {T} (show : T -> string) (x : list T) : string :=
  "[" ++ fold_right (fun v t => " " ++ show v ++ t) "]" x.

(** matrix-io.hpp:17-29; an entry that was not initialised gives an error. *)
Definition show_matrix {T} (show : T -> string) (N M : nat) (m : matrix T) : outcome string :=
  for_ (rows N M) (fun row os =>
    os' <- for_ (columns N M) (fun col os =>
             v <- at2 M m (Z.of_nat row) (Z.of_nat col) ;; Ok (os ++ " " ++ show v)) os ;;
    Ok (os' ++ nl)) "".

(** fixed-point-io.hpp:17-21 with fixed-point.hpp:129-133, [as<double>()]: the underlying
    value as [double], divided by 2^F. *)
Definition show_fixed (c : fx) (x : Z) : string :=
  show_float (Bdiv mode_NE (ieee_of_Z 53 1024 x) (ieee_of_Z 53 1024 (2 ^ fx_F c))).

(** ** Filters *)

Section Filters.
(** How a number is printed. Simplification: filters are printed with real numbers as
    coefficients, whatever their text. *)
Context (show : R -> string).

(** [os << complex] (library; used by biquad-io.hpp:47, onepole-io.hpp:44). *)
Definition show_complex (z : C) : string := "(" ++ show (fst z) ++ "," ++ show (snd z) ++ ")".

(** biquad-io.hpp:17-21. *)
Definition show_a (a : coeff_a R) : string := "[A " ++ show (a1 a) ++ ", " ++ show (a2 a) ++ " ]".
(** biquad-io.hpp:23-27. *)
Definition show_b (b : coeff_b R) : string :=
  "[B " ++ show (b0 b) ++ ", " ++ show (b1 b) ++ ", " ++ show (b2 b) ++ " ]".
(** biquad-io.hpp:29-33. *)
Definition show_ba (b : coeff_b R) (a : coeff_a R) : string := show_b b ++ show_a a.
(** biquad-io.hpp:35-39. *)
Definition show_w (w : state R) : string := "[W " ++ show (v1 w) ++ ", " ++ show (v2 w) ++ " ]".
(** biquad-io.hpp:41-45. *)
Definition show_solution (s : C * C) : string :=
  "[S " ++ show_complex (fst s) ++ ", " ++ show_complex (snd s) ++ " ]".

(** biquad-io.hpp:47-58. *)
Definition show_biquad (bq : biquad R) : outcome string :=
  st <- is_stable bq ;; p <- poles bq ;; z <- zeros bq ;;
  Ok (nl ++ "BiQuad is " ++ (if st then "stable:" else "NOT stable:") ++
      nl ++ "a: " ++ show_a (bq_a bq) ++ nl ++ "b: " ++ show_b (bq_b bq) ++
      nl ++ "w: " ++ show_w (bq_w bq) ++ nl ++ "p: " ++ show_solution p ++
      nl ++ "z: " ++ show_solution z ++ nl).

(** biquad-cascade-io.hpp:16-31; [bytes] is [sizeof(BiQuadCascadeT<T,N>)]. *)
Definition show_cascade (bytes : Z) (N : nat) (cs : cascade R) : outcome string :=
  st <- cs_is_stable cs ;;
  for_ (Z.to_nat (cs_next cs)) (fun i os =>
    bq <- sec_at (cs_biquad cs) (Z.of_nat i) ;; t <- show_biquad bq ;; Ok (os ++ t))
  (nl ++ "Filter cascade occupies " ++ show_Z bytes ++ " bytes in memory." ++
   nl ++ "filters: " ++ show_Z (cs_next cs) ++ " entries out of " ++ show_Z (cs_reserved N) ++ ", " ++
   (if st then "stable:" else "NOT stable:") ++ nl).

(** onepole-io.hpp:17-58. *)
Definition show_onepole (op : onepole R) : outcome string :=
  p <- op_poles op ;;
  Ok (nl ++ "OnePole is always stable" ++
      nl ++ "a: " ++ "[A " ++ show (op_a1 op) ++ " ]" ++
      nl ++ "b: " ++ "[B " ++ show (op_b0 op) ++ " ]" ++
      nl ++ "w: " ++ "[W " ++ show (op_v1 op) ++ " ]" ++
      nl ++ "p: " ++ "[S " ++ show_complex p ++ " ]" ++
      nl ++ "z: " ++ "[S " ++ show_complex (op_zeros op) ++ " ]" ++ nl).

End Filters.

(** ** The output of the simulation *)

(** kalman-sim.e.cpp:127-155: the loop with the draws of the normal distribution, three per
    pass: two for the process noise and one for the measurement; the measurement and what is
    saved for plotting.  [None]: more draws are needed.  The order in which the first two
    are made is that of the initialiser list, from left to right. *)
Fixpoint sim_plots {T} (nt : numeric T) (dur measnoise accelnoise : T) (prm : kparams T) (i : Z)
    (x : matrix T) (st : kstate T) (draws : list (T * T * T)) : outcome (option (list (T * plot T))) :=
  iT <- nt_int nt i ;;
  t <- sc_mul (nt_sc nt) iT (kdt prm) ;;
  if nt_lt nt t dur then
    match draws with
    | [] => Ok None
    | (g1, g2, g) :: draws' =>
        w <- process_noise nt (kdt prm) accelnoise g1 g2 ;;
        v <- meas_noise nt measnoise g ;;
        r <- sim_step nt prm x st (Some (w, v)) ;;
        let '(x', zm, st') := r in
        z <- at1 1 zm 0 ;;
        p <- sim_record x' st' ;;
        l <- sim_plots nt dur measnoise accelnoise prm (i + 1) x' st' draws' ;;
        Ok (option_map (cons (z, p)) l)
    end
  else Ok (Some []).

(** kalman-sim.e.cpp:53-170, [main]: the text written. *)
Definition sim_text {T} (nt : numeric T) (show : T -> string) (accelnoise : T)
    (draws : list (T * T * T)) : outcome (option string) :=
  s <- sim_setup nt accelnoise ;;
  let '(dur, prm, P, x) := s in
  measnoise <- nt_int nt 10 ;;
  tA <- show_matrix show 2 2 (kA prm) ;; tB <- show_matrix show 2 1 (kB prm) ;;
  tH <- show_matrix show 1 2 (kH prm) ;; tQ <- show_matrix show 2 2 (kQ prm) ;;
  R <- at1 1 (kR prm) 0 ;;
  let head :=                                                         (* lines 90-96 *)
    nl ++ "A = % System dynamics matrix (state-k-1 => state-k)" ++ nl ++ tA ++
    nl ++ "B = % Control input matrix (control => state)" ++ nl ++ tB ++
    nl ++ "H = % Measurement output matrix (state => measurement estimation)" ++ nl ++ tH ++
    nl ++ "R = " ++ show R ++ " % Measurement noise covariance" ++ nl ++
    nl ++ "Q = % Process noise covariance" ++ nl ++ tQ in
  l <- sim_plots nt dur measnoise accelnoise prm 0 x (kalman_init (nt_sc nt) false 1 P x) draws ;;
  match l with
  | None => Ok None
  | Some ps =>
      let column f := show_vector show (map f ps) in
      Ok (Some (head ++                                               (* lines 159-169 *)
        nl ++ "pos = " ++ column (fun p => p_pos (snd p)) ++
        nl ++ "posmeas = " ++ column fst ++
        nl ++ "poshat = " ++ column (fun p => p_poshat (snd p)) ++
        nl ++ "posgain = " ++ column (fun p => p_posgain (snd p)) ++
        nl ++ "posecov = " ++ column (fun p => p_posecov (snd p)) ++
        nl ++ "vel = " ++ column (fun p => p_vel (snd p)) ++
        nl ++ "velhat = " ++ column (fun p => p_velhat (snd p)) ++
        nl ++ "velgain = " ++ column (fun p => p_velgain (snd p)) ++
        nl ++ "velecov = " ++ column (fun p => p_velecov (snd p))))
  end.
