(** * Model of the timing program

    time/avr-kalman-time.cpp: [main] with the blinking light, for any numeric type.  The
    estimator class of this program is [update_timed] of Kalman.v. *)

From Coq Require Import List ZArith.
From Verif Require Import Base Matrix Scalars Kalman KalmanSim Register Atmega AvrExamples.
Import ListNotations.

(** time/avr-kalman-time.cpp:22-25: [bit_mask], a byte. *)
Definition bit_mask (pin : Z) : Z := trunc W8 (Z.shiftl 1 pin).

(** time/avr-kalman-time.cpp:27-31: [init_led]; lines 18-20: [led_port], [led_ddr] and
    [led_bit] are those of the other programs. *)
Definition time_init_led (hw : hardware) (m : machine) : machine :=
  let m := store hw W8 led_port 255 m in
  let (v, m) := load W8 led_ddr m in
  store hw W8 led_ddr (trunc W8 (Z.lor v (bit_mask led_bit))) m.

(** time/avr-kalman-time.cpp:33-36: [blink_led]. *)
Definition time_blink_led (hw : hardware) (m : machine) : machine :=
  let (v, m) := load W8 led_port m in
  store hw W8 led_port (trunc W8 (Z.lxor v (bit_mask led_bit))) m.

Section Time.
Context {T : Type} (nt : numeric T).
Let S := nt_sc nt.

(** time/avr-kalman-time.cpp:206-261: the constants, the arguments of the estimator's
    constructor and the data it is used with; [accelnoise] is the value of the literal 0.2.
    The result: estimator parameters, initial covariance, initial state, input [u] and
    measurement [z]. *)
Definition time_setup (accelnoise : T)
  : outcome (kparams T * matrix T * matrix T * matrix T * matrix T) :=
  dt <- nt_int nt 1 ;;                                         (* line 206 *)
  measnoise <- nt_int nt 10 ;;                                 (* line 210 *)
  zero <- nt_int nt 0 ;; one <- nt_int nt 1 ;;
  two <- nt_int nt 2 ;; four <- nt_int nt 4 ;;
  A <- mat_il S 2 2 [one; dt; zero; one] ;;                    (* line 214 *)
  dt2 <- sc_mul S dt dt ;; b0 <- sc_div S dt2 two ;;
  B <- mat_il S 2 1 [b0; dt] ;;                                (* line 218 *)
  H <- mat_il S 1 2 [one; zero] ;;                             (* line 222 *)
  x <- mat_il S 2 1 [zero; zero] ;;                            (* lines 225-226 *)
  r <- sc_mul S measnoise measnoise ;;                         (* line 229 *)
  aa <- sc_mul S accelnoise accelnoise ;;                      (* line 232 *)
  dt3 <- sc_mul S dt2 dt ;; dt4 <- sc_mul S dt3 dt ;;
  q00 <- sc_div S dt4 four ;; q01 <- sc_div S dt3 two ;;
  Q1 <- mat_il S 2 2 [q00; q01; q01; dt2] ;;                   (* lines 233-234 *)
  Q <- mul_sm S 2 2 aa Q1 ;;
  R <- mat_fill S 1 1 r ;;                                     (* line 247, conversion *)
  u <- mat_fill S 1 1 one ;;                                   (* line 255 *)
  Ax <- mul_mv S 2 2 A x ;;                                    (* line 258 *)
  Bu <- mul_Bu S 1 B u ;;
  x' <- add_mm S 2 1 Ax Bu ;;
  Hx <- dot S 2 H x' ;;                                        (* line 261 *)
  z <- mat_fill S 1 1 Hx ;;                                    (* line 272, conversion *)
  Ok ({| kA := A; kB := B; kH := H; kQ := Q; kR := R; kdt := dt |}, Q, x, u, z).

(** time/avr-kalman-time.cpp:263-273: [n] passes of the endless loop; [g] is the value of
    KE_UPDATE_KALMAN_GAIN (lines 89-95). *)
Fixpoint time_loop (hw : hardware) (g : bool) (prm : kparams T) (u z : matrix T) (n : nat)
    (m : machine) (st : kstate T) : outcome (machine * kstate T) :=
  match n with
  | O => Ok (m, st)
  | Datatypes.S n' =>
      let m := time_blink_led hw m in                          (* line 265 *)
      st' <- update_timed S 1 1 g prm st u z ;;                (* line 272 *)
      time_loop hw g prm u z n' m st'
  end.

(** time/avr-kalman-time.cpp:199-274: [main], up to the end of the n-th pass. *)
Definition time_main (hw : hardware) (avr g : bool) (accelnoise : T) (n : nat) (m : machine)
  : outcome (machine * kstate T) :=
  let m := time_init_led hw m in                               (* line 201 *)
  s <- time_setup accelnoise ;;
  let '(prm, P, x, u, z) := s in
  time_loop hw g prm u z n m (kalman_init S avr 1 P x).

End Time.
