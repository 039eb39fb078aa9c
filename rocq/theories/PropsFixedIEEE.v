(** * C32, IEEE half: conversion from double with rounding *)

From Coq Require Import ZArith Reals Lia Lra Bool.
From Flocq Require Import Core.
From Verif Require Import Base Scalars FixedPoint FixedSpec FixedProofs FixedIEEE PropsFixed.
Local Open Scope Z_scope.

(** For every double [x] whose scaled magnitude is below 2^50 (the type's range is below
    2^31) the conversion computed in binary64 is the exact one, unless the scaled value is
    the double next to one half. *)
Theorem C32_double_exact_except_one :
  forall (c : fx) (x : R),
  supported c -> is_double x ->
  (Rabs (IZR (2 ^ fx_F c) * x) < IZR (2 ^ 50))%R ->
  Rabs (IZR (2 ^ fx_F c) * x) <> (1/2 - bpow radix2 (-54))%R ->
  fx_of_double c x = fx_of_real c x.
Proof.
  intros c x S D B N. pose proof (D_pos c S) as HD.
  rewrite of_real_shape by assumption.
  unfold fx_of_double. rewrite power2_F by assumption. rewrite bind_Ok.
  rewrite fl_product by assumption. f_equal.
  set (y := (IZR (2 ^ fx_F c) * x)%R) in *.
  assert (Dy : is_double y).
  { unfold y. rewrite <- fl_product by assumption. apply generic_format_round;
      [apply FLT_exp_valid; reflexivity|apply valid_rnd_N]. }
  assert (Sy : (if Rle_dec 0 x then 1/2 else - (1/2))%R = (if Rle_dec 0 y then 1/2 else - (1/2))%R).
  { destruct (Rle_dec 0 x) as [L|L], (Rle_dec 0 y) as [M|M]; try reflexivity; exfalso.
    - apply M. apply Rmult_le_pos; lra.
    - apply L. apply Rmult_le_reg_l with (IZR (2 ^ fx_F c)); [assumption|]. unfold y in M. lra. }
  rewrite Sy. clear Sy. clearbody y.
  assert (Main : forall y, is_double y -> (0 <= y)%R -> (y < IZR (2 ^ 50))%R ->
            y <> (1/2 - bpow radix2 (-54))%R -> Rtrunc (fl (y + 1/2)) = Rtrunc (y + 1/2)).
  { clear. intros y D Y U N. destruct (Rtrunc_pos (y + 1/2)) as [T T0]; [lra|].
    set (n := Rtrunc (y + 1/2)) in *.
    assert (n <= 2 ^ 50).
    { apply Z.lt_succ_r, lt_IZR. rewrite succ_IZR. lra. }
    pose proof (fl_half_sum y n D Y ltac:(lia) T N) as F.
    apply Rtrunc_unique_pos; [|exact F]. apply IZR_le in T0. lra. }
  unfold round_away. destruct (Rle_dec 0 y) as [Y|Y].
  - rewrite Rabs_pos_eq in B, N by assumption. now apply Main.
  - rewrite Rabs_left in B, N by lra.
    replace (y + - (1/2))%R with (- (- y + 1/2))%R by ring.
    rewrite fl_opp, !Rtrunc_opp. f_equal. apply Main; [now apply double_opp|lra|assumption|assumption].
Qed.
Print Assumptions C32_double_exact_except_one.

(** For that value the conversion gives one step although zero is the nearest. *)
Theorem C32_double_nearest_refuted :
  ~ (forall (c : fx) (x : R) (a : Z),
       supported c -> is_double x -> fx_of_double c x = Ok a ->
       forall b : Z, (Rabs (value c a - x) <= Rabs (value c b - x))%R).
Proof.
  intros X.
  set (c := fp_avr). set (x := (1/2 - bpow radix2 (-54))%R).
  assert (P : (0 < bpow radix2 (-54))%R) by apply bpow_gt_0.
  assert (Ex : x = (IZR (2 ^ 53 - 1) * bpow radix2 (-54))%R).
  { unfold x. rewrite minus_IZR.
    assert (HH : (1/2 = IZR (2 ^ 53) * bpow radix2 (-54))%R) by (simpl; lra). rewrite HH. ring. }
  assert (Q : (bpow radix2 (-54) < 1/4)%R) by (simpl; lra).
  assert (Dx : is_double x) by (rewrite Ex; apply double_intro; lia).
  assert (E1 : (fl (x + 1/2) = 1)%R).
  { (* the sum is half way between 1 - 2^-53 and 1: ties to even gives 1 *)
    unfold fl. unfold round, F2R. simpl.
    assert (M : mag radix2 (x + 1/2) = 0 :> Z).
    { apply mag_unique_pos. unfold x. simpl bpow at 1 4. simpl in P, Q |- *. lra. }
    unfold scaled_mantissa, cexp. rewrite M. change (b64 0) with (-53).
    replace ((x + 1/2) * bpow radix2 (- (-53)))%R with (IZR (2 ^ 53 - 1) + 1/2)%R.
    - replace (ZnearestE (IZR (2 ^ 53 - 1) + 1/2)) with (2 ^ 53).
      + simpl. lra.
      + unfold ZnearestE, Znearest. rewrite (Zfloor_imp (2 ^ 53 - 1)).
        * replace (IZR (2 ^ 53 - 1) + 1 / 2 - IZR (2 ^ 53 - 1))%R with (/ 2)%R by lra.
          rewrite Rcompare_Eq by reflexivity. simpl Z.even. cbv iota. simpl negb. cbv iota.
          symmetry. apply Zceil_imp. simpl. lra.
        * simpl. lra.
    - unfold x. simpl. lra. }
  assert (E : fx_of_double c x = Ok 1).
  { unfold fx_of_double. change (fx_F c) with 0. change (power2 0) with (Ok 1 : outcome Z).
    rewrite bind_Ok. rewrite Rmult_1_l, (fl_id x) by assumption.
    destruct (Rle_dec 0 x) as [L|L]; [|exfalso; apply L; unfold x; lra].
    rewrite E1. rewrite (Rtrunc_unique_pos 1 1) by lra. reflexivity. }
  specialize (X c x 1 fp_avr_ok Dx E 0).
  unfold value in X. change (2 ^ fx_F c) with 1 in X.
  rewrite Rabs_pos_eq in X by (unfold x; lra). rewrite Rabs_left in X by (unfold x; lra).
  unfold x in X. lra.
Qed.
Print Assumptions C32_double_nearest_refuted.

(** A double meeting the hypotheses of the first theorem. *)
Example C32_double_case :
  is_double (5/2) /\ (Rabs (IZR (2 ^ fx_F fp_avr) * (5/2)) < IZR (2 ^ 50))%R /\
  Rabs (IZR (2 ^ fx_F fp_avr) * (5/2)) <> (1/2 - bpow radix2 (-54))%R /\
  fx_of_double fp_avr (5/2) = Ok 3.
Proof.
  assert (D : is_double (5/2)).
  { replace (5/2)%R with (IZR 5 * bpow radix2 (-1))%R by (simpl; lra). apply double_intro; lia. }
  assert (P : (0 < bpow radix2 (-54))%R) by apply bpow_gt_0.
  assert (A : (Rabs (IZR (2 ^ fx_F fp_avr) * (5/2)) = 5/2)%R).
  { change (2 ^ fx_F fp_avr) with 1. rewrite Rabs_pos_eq; lra. }
  assert (B1 : (Rabs (IZR (2 ^ fx_F fp_avr) * (5/2)) < IZR (2 ^ 50))%R) by (rewrite A; simpl; lra).
  assert (B2 : Rabs (IZR (2 ^ fx_F fp_avr) * (5/2)) <> (1/2 - bpow radix2 (-54))%R)
    by (rewrite A; lra).
  split; [exact D|]. split; [exact B1|]. split; [exact B2|].
  rewrite (C32_double_exact_except_one fp_avr (5/2) fp_avr_ok D B1 B2).
  rewrite of_real_shape by exact fp_avr_ok. change (2 ^ fx_F fp_avr) with 1.
  unfold round_away. destruct (Rle_dec 0 (1 * (5/2))); [|lra].
  rewrite (Rtrunc_unique_pos _ 3) by lra. reflexivity.
Qed.
