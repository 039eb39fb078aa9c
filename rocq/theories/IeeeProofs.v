(** * Lemmas about floating-point numbers *)

From Coq Require Import ZArith Reals Lra Lia List.
From Flocq Require Import Core Relative Plus_error BinarySingleNaN.
From Verif Require Import Base Ieee RoundingSpec.
Local Open Scope R_scope.

Section Ieee.

Context (prec emax : Z) {Hprec : Prec_gt_0 prec} {Hmax : Prec_lt_emax prec emax}.

Notation emin := (3 - emax - prec)%Z.
Notation fmt := (FLT_exp emin prec).
Notation rnd := (round radix2 fmt ZnearestE).

Definition ieee_max : R := bpow radix2 emax - bpow radix2 (emax - prec).

Lemma max_format : generic_format radix2 fmt ieee_max.
Proof.
  pose proof Hprec as HP. pose proof Hmax as HM. unfold Prec_gt_0 in HP. unfold Prec_lt_emax in HM.
  apply generic_format_FLT. exists (Float radix2 (2 ^ prec - 1) (emax - prec)).
  - unfold ieee_max, F2R; cbn [Fnum Fexp]. rewrite minus_IZR.
    change 2%Z with (radix_val radix2) at 1. rewrite IZR_Zpower by lia.
    rewrite Rmult_minus_distr_r, <- bpow_plus. rewrite Rmult_1_l. do 2 f_equal. lia.
  - cbn [Fnum]. change (radix_val radix2) with 2%Z. rewrite Z.abs_eq; [lia|].
    assert (0 < 2 ^ prec)%Z by (apply Z.pow_pos_nonneg; lia). lia.
  - cbn [Fexp]. lia.
Qed.

Lemma rnd_bound x : Rabs x <= ieee_max -> Rlt_bool (Rabs (rnd x)) (bpow radix2 emax) = true.
Proof.
  intros H. apply Rlt_bool_true. apply Rle_lt_trans with ieee_max.
  - apply abs_round_le_generic; [apply FLT_exp_valid; exact Hprec|apply valid_rnd_N|apply max_format|exact H].
  - unfold ieee_max. pose proof (bpow_gt_0 radix2 (emax - prec)). lra.
Qed.

Lemma fin_format (x : binary_float prec emax) : generic_format radix2 fmt (B2R x).
Proof. apply (generic_format_B2R prec emax). Qed.

Lemma half_bpow e : / 2 * bpow radix2 (e + 1) = bpow radix2 e.
Proof. rewrite bpow_plus. change (bpow radix2 1) with 2. field. Qed.

Lemma plus_err x y : generic_format radix2 fmt x -> generic_format radix2 fmt y ->
  Rabs (rnd (x + y) - (x + y)) <= bpow radix2 (- prec) * Rabs (x + y).
Proof.
  intros Fx Fy.
  destruct (FLT_plus_error_N_ex radix2 emin prec (fun z => negb (Z.even z)) x y Fx Fy) as (e & He & E).
  rewrite E. replace ((x + y) * (1 + e) - (x + y)) with (e * (x + y)) by ring.
  rewrite Rabs_mult. apply Rmult_le_compat_r; [apply Rabs_pos|].
  eapply Rle_trans; [exact He|]. unfold u_ro. rewrite half_bpow.
  pose proof (bpow_gt_0 radix2 (- prec)) as P. set (u := bpow radix2 (- prec)) in *.
  apply Rmult_le_reg_r with (1 + u); [lra|]. unfold Rdiv. rewrite Rmult_assoc, Rinv_l by lra. nra.
Qed.

Lemma mult_err x : Rabs (rnd x - x) <= bpow radix2 (- prec) * Rabs x + bpow radix2 (emin - 1).
Proof.
  destruct (error_N_FLT radix2 emin prec Hprec (fun z => negb (Z.even z)) x) as (e & t & He & Ht & _ & E).
  rewrite E. replace (x * (1 + e) + t - x) with (e * x + t) by ring.
  eapply Rle_trans; [apply Rabs_triang|]. rewrite Rabs_mult.
  rewrite half_bpow in He. apply Rplus_le_compat.
  - apply Rmult_le_compat_r; [apply Rabs_pos|exact He].
  - eapply Rle_trans; [exact Ht|]. rewrite <- (half_bpow (emin - 1)). right. do 2 f_equal. lia.
Qed.

Lemma ieee_rounding :
  rounding (ieee_scalar prec emax) B2R (fun x => is_finite x = true)
    (bpow radix2 (- prec)) (bpow radix2 (emin - 1)) ieee_max.
Proof.
  split.
  - apply bpow_ge_0.
  - apply bpow_ge_0.
  - split; reflexivity.
  - intros a b Fa Fb H. exists (Bplus mode_NE a b). split; [reflexivity|].
    pose proof (Bplus_correct prec emax Hprec Hmax mode_NE a b Fa Fb) as C.
    change (round_mode mode_NE) with ZnearestE in C.
    change (SpecFloat.fexp prec emax) with fmt in C. rewrite rnd_bound in C by exact H.
    destruct C as (E & F & _). split; [exact F|]. rewrite E. apply plus_err; apply fin_format.
  - intros a b Fa Fb H. exists (Bminus mode_NE a b). split; [reflexivity|].
    pose proof (Bminus_correct prec emax Hprec Hmax mode_NE a b Fa Fb) as C.
    change (round_mode mode_NE) with ZnearestE in C.
    change (SpecFloat.fexp prec emax) with fmt in C. rewrite rnd_bound in C by exact H.
    destruct C as (E & F & _). split; [exact F|]. rewrite E. unfold Rminus.
    apply plus_err; [apply fin_format|]. apply generic_format_opp, fin_format.
  - intros a b Fa Fb H. exists (Bmult mode_NE a b). split; [reflexivity|].
    pose proof (Bmult_correct prec emax Hprec Hmax mode_NE a b) as C.
    change (round_mode mode_NE) with ZnearestE in C.
    change (SpecFloat.fexp prec emax) with fmt in C. rewrite rnd_bound in C by exact H.
    destruct C as (E & F & _). rewrite Fa, Fb in F. split; [exact F|]. rewrite E. apply mult_err.
Qed.

End Ieee.
