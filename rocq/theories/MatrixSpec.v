(** * Specification vocabulary for matrices, independent of the model's loops

    A matrix is specified by a function from (row, column) to values. *)

From Coq Require Import List ZArith Lia Ring.
From Verif Require Import Base Matrix.
Import ListNotations.

(** Numeric types whose operations never fail and form a commutative ring
    (exact arithmetic; also wrapping unsigned arithmetic). *)
Record ring_scalar {T : Type} (S : scalar T) : Type := {
  rs_add : T -> T -> T;
  rs_mul : T -> T -> T;
  rs_sub : T -> T -> T;
  rs_opp : T -> T;
  rs_theory : ring_theory (sc_zero S) (sc_one S) rs_add rs_mul rs_sub rs_opp eq;
  rs_add_ok : forall a b, sc_add S a b = Ok (rs_add a b);
  rs_sub_ok : forall a b, sc_sub S a b = Ok (rs_sub a b);
  rs_mul_ok : forall a b, sc_mul S a b = Ok (rs_mul a b);
  rs_opp_ok : forall a, sc_opp S a = Ok (rs_opp a)
}.
Arguments rs_add {T S}. Arguments rs_mul {T S}. Arguments rs_sub {T S}.
Arguments rs_opp {T S}. Arguments rs_theory {T S}.
Arguments rs_add_ok {T S}. Arguments rs_sub_ok {T S}. Arguments rs_mul_ok {T S}.
Arguments rs_opp_ok {T S}.

(** [sum n f = f 0 + ... + f (n-1)]. *)
Fixpoint sum {T} (zero : T) (add : T -> T -> T) (n : nat) (f : nat -> T) : T :=
  match n with
  | O => zero
  | S n' => add (sum zero add n' f) (f n')
  end.

(** [m] is a fully initialised [matrix<T,N,M>] whose element (r,c), as read by
    [m(r,c)], is [f r c]. *)
Definition repr {T} (N M : nat) (m : matrix T) (f : nat -> nat -> T) : Prop :=
  length m = N * M /\
  forall r c, r < N -> c < M -> at2 M m (Z.of_nat r) (Z.of_nat c) = Ok (f r c).

(** The outcome [o] is a matrix with elements [f]. *)
Definition gives {T} (N M : nat) (o : outcome (matrix T)) (f : nat -> nat -> T) : Prop :=
  exists m, o = Ok m /\ repr N M m f.
