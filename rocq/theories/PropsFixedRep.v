(** * Properties of [to_rep], [from_rep] and [from_value] (include/num/fixed-point.hpp)

    C146 of properties.jsonl. *)

From Coq Require Import ZArith Reals Lia Lra.
From Verif Require Import Base FixedPoint FixedRep FixedSpec FixedProofs PropsFixed.
Local Open Scope Z_scope.

(** [to_rep] and [from_rep] are inverse to each other. *)
Lemma rep_roundtrip :
  forall c v, supported c -> in_range c v ->
  to_rep c (from_rep c v) = v /\ from_rep c (to_rep c v) = v.
Proof.
  intros c v S Hv. unfold to_rep, from_rep, fx_rep, fx_construct. rewrite !(wrap_in c v) by assumption. auto.
Qed.

(** [from_rep] makes the number [v / 2^F]. *)
Theorem C146_from_rep_value :
  forall c v, supported c -> in_range c v -> fx_as_real c (from_rep c v) = Ok (value c v).
Proof.
  intros c v S Hv. destruct (rep_roundtrip c v S Hv) as [E _]. unfold to_rep in E.
  unfold fx_as_real. rewrite E, power2_F by assumption. reflexivity.
Qed.
Print Assumptions C146_from_rep_value.

(** [from_value] stores its argument unchanged: *)
Theorem C146_from_value_stores :
  forall c wv v, supported c -> 1 <= wv <= 64 -> - 2 ^ (wv - 1) <= v < 2 ^ (wv - 1) ->
  to_rep (from_value_type c wv) (from_value c wv v) = v /\
  fx_as_real (from_value_type c wv) (from_value c wv v) = Ok (IZR v / IZR (2 ^ fx_F c))%R.
Proof.
  intros c wv v S Hwv Hv.
  assert (E : from_value c wv v = v).
  { unfold from_value, fx_construct. cbn [from_value_type fx_w]. rewrite !(wrap_id wv v) by lia. reflexivity. }
  rewrite E. split; [reflexivity|]. unfold fx_as_real. cbn [from_value_type fx_F].
  rewrite power2_F by assumption. reflexivity.
Qed.
Print Assumptions C146_from_value_stores.

(** the number is the argument only where there are no fraction bits (or for zero). *)
Theorem C146_from_value_keeps_number :
  forall c wv v, supported c -> 1 <= wv <= 64 -> - 2 ^ (wv - 1) <= v < 2 ^ (wv - 1) ->
  fx_as_real (from_value_type c wv) (from_value c wv v) = Ok (IZR v) <-> fx_F c = 0 \/ v = 0.
Proof.
  intros c wv v S Hwv Hv. destruct (C146_from_value_stores c wv v S Hwv Hv) as [_ ->].
  destruct S as (_ & _ & HF). split.
  - intros E. injection E as E. destruct (Z.eq_dec v 0) as [|N]; [auto|left].
    assert (P : (0 < IZR (2 ^ fx_F c))%R) by (apply IZR_lt, Z.pow_pos_nonneg; lia).
    assert (Q : (IZR (v * 2 ^ fx_F c) = IZR v)%R).
    { rewrite mult_IZR. rewrite <- E at 1. field. lra. }
    apply eq_IZR in Q. assert (2 ^ fx_F c = 1) by nia.
    destruct (Z.eq_dec (fx_F c) 0); [assumption|].
    pose proof (Z.pow_gt_1 2 (fx_F c) ltac:(lia)). lia.
  - intros [E | ->]; [rewrite E; f_equal; change (2 ^ 0) with 1; lra|].
    f_equal. unfold Rdiv. apply Rmult_0_l.
Qed.
Print Assumptions C146_from_value_keeps_number.

(** The case of test/fixed-point.t.cpp:226-232: 123 is stored as 123 and stands for 123/128. *)
Example C146_case :
  let c := {| fx_w := 16; fx_ib := 32; fx_F := default_F 16 8; fx_cpp20 := false |} in
  supported c /\ to_rep (from_value_type c 32) (from_value c 32 123) = 123 /\
  fx_as_real (from_value_type c 32) (from_value c 32 123) = Ok (123 / 128)%R.
Proof.
  intros c. assert (S : supported c) by (unfold supported, c; cbn; unfold default_F; lia).
  split; [exact S|]. apply (C146_from_value_stores c 32 123); [exact S|lia|lia].
Qed.
