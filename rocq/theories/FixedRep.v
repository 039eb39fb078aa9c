(** * Model of [to_rep], [from_rep] and [from_value] of include/num/fixed-point.hpp *)

From Coq Require Import ZArith Reals.
From Verif Require Import Base FixedPoint.
Local Open Scope Z_scope.

(** fixed-point.hpp:223-235, [to_rep< fixed_point<T,I,F> >()( x )]. *)
Definition to_rep (c : fx) (a : Z) : Z := fx_rep c a.

(** fixed-point.hpp:237-249, [from_rep< fixed_point<T,I,F> >()( value )]: the parameter is a
    [T], to which the argument is converted. *)
Definition from_rep (c : fx) (value : Z) : Z := fx_construct c (wrap (fx_w c) value).

(** fixed-point.hpp:251-263: the type of the result, [fixed_point<Value,I,F>], for an integer
    type [Value] of [wv] bits; [F] stays that of the original type. *)
Definition from_value_type (c : fx) (wv : Z) : fx :=
  {| fx_w := wv; fx_ib := fx_ib c; fx_F := fx_F c; fx_cpp20 := fx_cpp20 c |}.

(** fixed-point.hpp:251-263, [from_value< fixed_point<T,I,F>, Value >()( value )]. *)
Definition from_value (c : fx) (wv value : Z) : Z :=
  fx_construct (from_value_type c wv) (wrap wv value).
