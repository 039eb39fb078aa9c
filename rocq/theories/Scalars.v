(** * Instances of the numeric type *)

From Coq Require Import Reals ZArith Lia Ring.
From Verif Require Import Base MatrixSpec.

(** Idealised [double], as used by example/desktop/kalman-sim.e.cpp and
    include/dsp/biquad.hpp: the real numbers; dividing by zero has no real result.
    Simplification: rounding, overflow to infinity and nan of IEEE arithmetic are
    not modelled here. *)
Definition R_scalar : scalar R := {|
  sc_zero := 0%R;
  sc_one  := 1%R;
  sc_add  := fun a b => Ok (a + b)%R;
  sc_sub  := fun a b => Ok (a - b)%R;
  sc_mul  := fun a b => Ok (a * b)%R;
  sc_div  := fun a b => if Req_EM_T b 0 then Err DivByZero else Ok (a / b)%R;
  sc_opp  := fun a => Ok (- a)%R;
  sc_nz   := fun a => if Req_EM_T a 0 then false else true
|}.

Definition R_ring : ring_scalar R_scalar.
Proof.
  refine {| rs_add := Rplus : R -> R -> R; rs_mul := Rmult; rs_sub := Rminus;
            rs_opp := Ropp |}; try reflexivity.
  exact RTheory.
Defined.

(** Unbounded integers, for test/matrix.t.cpp's [matrix<int,N,M>]: integer element types as long as nothing overflows; [/]
    truncates. *)
Definition Z_scalar : scalar Z := {|
  sc_zero := 0%Z;
  sc_one  := 1%Z;
  sc_add  := fun a b => Ok (a + b)%Z;
  sc_sub  := fun a b => Ok (a - b)%Z;
  sc_mul  := fun a b => Ok (a * b)%Z;
  sc_div  := fun a b => if Z.eqb b 0 then Err DivByZero else Ok (Z.quot a b);
  sc_opp  := fun a => Ok (- a)%Z;
  sc_nz   := fun a => negb (Z.eqb a 0)
|}.

Definition Z_ring : ring_scalar Z_scalar.
Proof.
  refine {| rs_add := Z.add : Z -> Z -> Z; rs_mul := Z.mul; rs_sub := Z.sub;
            rs_opp := Z.opp |}; try reflexivity.
  exact InitialRing.Zth.
Defined.

(** C++ [int] with [w] bits (language rule, used by fixed-point.hpp:47-165 and
    test/matrix.t.cpp): overflow is undefined behaviour. *)
Definition chk (w : Z) (v : Z) : outcome Z :=
  if ((- 2 ^ (w - 1) <=? v) && (v <? 2 ^ (w - 1)))%Z%bool then Ok v
  else Err SignedOverflow.

(** [int] as element type of include/num/matrix.hpp:45, as in test/matrix.t.cpp. *)
Definition int_scalar (w : Z) : scalar Z := {|
  sc_zero := 0%Z;
  sc_one  := 1%Z;
  sc_add  := fun a b => chk w (a + b)%Z;
  sc_sub  := fun a b => chk w (a - b)%Z;
  sc_mul  := fun a b => chk w (a * b)%Z;
  sc_div  := fun a b => if Z.eqb b 0 then Err DivByZero else chk w (Z.quot a b);
  sc_opp  := fun a => chk w (- a)%Z;
  sc_nz   := fun a => negb (Z.eqb a 0)
|}.
