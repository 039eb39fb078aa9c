(** * Base: outcomes, loops and numeric types shared by all models

    Nothing in this file models a particular function of the library; it fixes the
    vocabulary in which the C++ code is transcribed. *)

From Coq Require Import List ZArith Lia.
Import ListNotations.

(** ** Why an evaluation has no defined result (language rules; not modelling a function;
    used for include/num/matrix.hpp, include/num/fixed-point.hpp and all others).

    [OutOfBounds]     access outside an array object (UB, [expr.add]).
    [Indeterminate]   use of an indeterminate value (UB, [dcl.init]/12).
    [SignedOverflow]  signed arithmetic overflow or out-of-range float-to-int (UB).
    [DivByZero]       division by zero: UB for integers; for [double] the idealised
                      real result does not exist (IEEE gives inf or nan).
    [BadShift]        shift by an amount outside the width of the promoted left operand,
                      or (before C++20) left shift of a negative value (UB,
                      [expr.shift]).
    [AssertFailed]    [assert] with a false condition: the program stops.
    [DomainError]     library function outside its domain: no real result exists (IEEE
                      gives nan).
    [Thrown]          an exception leaves the function. *)
Inductive err : Set :=
| OutOfBounds
| Indeterminate
| SignedOverflow
| DivByZero
| BadShift
| AssertFailed
| DomainError
| Thrown.

(** The result of evaluating a C++ expression or statement (language; used for
    include/num/matrix.hpp:44-500 and all others). *)
Inductive outcome (A : Type) : Type :=
| Ok (a : A)
| Err (e : err).
Arguments Ok {A} a.
Arguments Err {A} e.

(** Sequencing: the first failure stops the evaluation (language; used for
    include/num/matrix.hpp:44-500 and all others). *)
Definition bind {A B} (x : outcome A) (f : A -> outcome B) : outcome B :=
  match x with
  | Ok a => f a
  | Err e => Err e
  end.

(** Notation for sequencing (as above, include/num/matrix.hpp:44-500 and others). *)
Notation "x <- e ;; f" := (bind e (fun x => f))
  (at level 61, e at next level, right associativity).

(** [for( int i = k; i < k + n; ++i ) body(i)], the body threading the state [s]: the
    loops of include/num/matrix.hpp, for example 267-280. *)
Fixpoint for_from {St} (k n : nat) (body : nat -> St -> outcome St) (s : St)
  : outcome St :=
  match n with
  | O => Ok s
  | S n' => s' <- body k s ;; for_from (S k) n' body s'
  end.

(** [for( int i = 0; i < n; ++i ) body(i)]: the loops of include/num/matrix.hpp, for
    example 267-280. *)
Definition for_ {St} (n : nat) (body : nat -> St -> outcome St) (s : St)
  : outcome St := for_from 0 n body s.

(** ** The numeric type [T] of [matrix<T,N,M>], [kalman<T,...>]: include/num/matrix.hpp:45,
    include/dsp/kalman.hpp:27.

    [sc_zero] and [sc_one] are [T(0)] and [T(1)]; the operations are the built-in or
    overloaded operators of [T]; [sc_nz v] is [v != 0].  An operation may fail, so
    that integer and fixed-point types with undefined overflow are instances. *)
Record scalar (T : Type) : Type := {
  sc_zero : T;
  sc_one  : T;
  sc_add  : T -> T -> outcome T;
  sc_sub  : T -> T -> outcome T;
  sc_mul  : T -> T -> outcome T;
  sc_div  : T -> T -> outcome T;
  sc_opp  : T -> outcome T;
  sc_nz   : T -> bool
}.
Arguments sc_zero {T}. Arguments sc_one {T}.
Arguments sc_add {T}. Arguments sc_sub {T}. Arguments sc_mul {T}.
Arguments sc_div {T}. Arguments sc_opp {T}. Arguments sc_nz {T}.

(** ** Facts about sequencing and loops (proof library). *)

Lemma bind_Ok {A B} (a : A) (f : A -> outcome B) : bind (Ok a) f = f a.
Proof. reflexivity. Qed.

Lemma bind_Err {A B} (e : err) (f : A -> outcome B) : bind (Err e) f = Err e.
Proof. reflexivity. Qed.

Lemma bind_inv {A B} (x : outcome A) (f : A -> outcome B) b :
  bind x f = Ok b -> exists a, x = Ok a /\ f a = Ok b.
Proof. destruct x; simpl; intros; [eauto | discriminate]. Qed.

Lemma bind_assoc {A B C} (x : outcome A) (f : A -> outcome B) (g : B -> outcome C) :
  bind (bind x f) g = bind x (fun a => bind (f a) g).
Proof. destruct x; reflexivity. Qed.

(** Loop rule with invariant. *)
Lemma for_from_inv {St} (Inv : nat -> St -> Prop) body n : forall k s,
  Inv k s ->
  (forall i s, k <= i < k + n -> Inv i s ->
     exists s', body i s = Ok s' /\ Inv (S i) s') ->
  exists s', for_from k n body s = Ok s' /\ Inv (k + n) s'.
Proof.
  induction n; intros k s H0 Hstep; simpl.
  - rewrite Nat.add_0_r. eauto.
  - destruct (Hstep k s) as (s1 & E & H1); [lia | assumption |].
    rewrite E; simpl.
    destruct (IHn (S k) s1 H1) as (s2 & E2 & H2).
    { intros i s' Hi; apply Hstep; lia. }
    exists s2; split; [assumption|]. now rewrite <- Nat.add_succ_comm.
Qed.

Lemma for_inv {St} (Inv : nat -> St -> Prop) body n s :
  Inv 0 s ->
  (forall i s, i < n -> Inv i s -> exists s', body i s = Ok s' /\ Inv (S i) s') ->
  exists s', for_ n body s = Ok s' /\ Inv n s'.
Proof.
  intros H0 Hs. destruct (for_from_inv Inv body n 0 s H0) as (s' & ? & ?).
  - intros; apply Hs; [lia|assumption].
  - eauto.
Qed.

(** Loops whose bodies agree agree. *)
Lemma for_from_ext {St} (f g : nat -> St -> outcome St) n : forall k s,
  (forall i s, k <= i < k + n -> f i s = g i s) ->
  for_from k n f s = for_from k n g s.
Proof.
  induction n; intros k s H; simpl; [reflexivity|].
  rewrite H by lia. destruct (g k s); simpl; [|reflexivity].
  apply IHn. intros; apply H; lia.
Qed.

Lemma for_from_split {St} (f : nat -> St -> outcome St) a : forall b k s,
  for_from k (a + b) f s = bind (for_from k a f s) (for_from (k + a) b f).
Proof.
  induction a; intros b k s; simpl.
  - now rewrite Nat.add_0_r.
  - destruct (f k s); simpl; [|reflexivity].
    rewrite IHa. now rewrite <- Nat.add_succ_comm.
Qed.
