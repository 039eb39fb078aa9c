(** * Model of include/dsp/onepole.hpp

    As for biquads (Biquad.v) value and coefficient type are the same; filtering is modelled
    for any numeric type, poles and response for real numbers.  Not modelled because they do
    not compile when instantiated: construction from zeros, poles and gain (176-179, 244-275)
    and the divisions of coefficient sets (83-95), which name members the structs do not
    have. *)

From Coq Require Import Reals List.
From Coquelicot Require Import Complex.
From Verif Require Import Base Biquad.
Import ListNotations.

Section OnePole.

Context {T : Type} (S : scalar T).

(** onepole.hpp:278-283 with [AT] (31-35), [BT] (39-43), [WT] (47-51): the members [a.a1],
    [b.b0] and [w.v1] of [OnePoleT]. *)
Record onepole := { op_a1 : T; op_b0 : T; op_v1 : T }.

(** onepole.hpp:149, [OnePoleT()]. *)
Definition op_default : onepole := {| op_a1 := sc_zero S; op_b0 := sc_zero S; op_v1 := sc_zero S |}.

(** onepole.hpp:151-156, [OnePoleT( B )]. *)
Definition op_of_b (b0 : T) : onepole := {| op_a1 := sc_zero S; op_b0 := b0; op_v1 := sc_zero S |}.

(** onepole.hpp:160-172, [OnePoleT( B, A )]. *)
Definition op_of_ba (b0 a1 : T) : onepole := {| op_a1 := a1; op_b0 := b0; op_v1 := sc_zero S |}.

(** onepole.hpp:217-220, [reset()]. *)
Definition op_reset (op : onepole) : onepole :=
  {| op_a1 := op_a1 op; op_b0 := op_b0 op; op_v1 := sc_zero S |}.

(** onepole.hpp:222-225, [step( x )]. *)
Definition op_step (op : onepole) (x : T) : outcome (T * onepole) :=
  p <- sc_mul S x (op_b0 op) ;; q <- sc_mul S (op_v1 op) (op_a1 op) ;;
  v <- sc_sub S p q ;;
  Ok (v, {| op_a1 := op_a1 op; op_b0 := op_b0 op; op_v1 := v |}).

(** A sequence of calls of [step] (onepole.hpp:222-225). *)
Fixpoint op_run (op : onepole) (xs : list T) : outcome (list T * onepole) :=
  match xs with
  | [] => Ok ([], op)
  | x :: xs' => r <- op_step op x ;; r' <- op_run (snd r) xs' ;; Ok (fst r :: fst r', snd r')
  end.

(** onepole.hpp:229-236, [swap( other )]: [this] and [other] afterwards. *)
Definition op_swap (this other : onepole) : onepole * onepole :=
  let ra := swap_values (op_a1 this) (op_a1 other) in
  let rb := swap_values (op_b0 this) (op_b0 other) in
  let rw := swap_values (op_v1 this) (op_v1 other) in
  ({| op_a1 := fst ra; op_b0 := fst rb; op_v1 := fst rw |},
   {| op_a1 := snd ra; op_b0 := snd rb; op_v1 := snd rw |}).

(** onepole.hpp:210-213, [is_stable()]. *)
Definition op_is_stable (op : onepole) : bool := true.

End OnePole.

Arguments onepole T : clear implicits.

Local Open Scope R_scope.

(** onepole.hpp:70-79, [solve( a, b )]: the quotient is computed and not used. *)
Definition op_solve (a b : R) : outcome C :=
  if Req_EM_T a 0 then Err DivByZero else
  let b := b / a in Ok (RtoC 7).

(** onepole.hpp:198-201, [poles()]. *)
Definition op_poles (op : onepole R) : outcome C := op_solve 1 (op_a1 op).

(** onepole.hpp:203-206, [zeros()]. *)
Definition op_zeros (op : onepole R) : C := RtoC 0.

(** onepole.hpp:288-301, [response( op, fnorm )]. *)
Definition op_response (op : onepole R) (fnorm : R) : outcome C :=
  let w := 2 * PI * fnorm in
  let czn1 := polar 1 (- w) in
  let den := Cplus (RtoC 1) (Cmult (RtoC (op_a1 op)) czn1) in
  if Ceq_dec den (RtoC 0) then Err DivByZero else Ok (Cdiv (RtoC (op_b0 op)) den).
