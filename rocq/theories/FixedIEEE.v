(** * Conversion from double with IEEE rounding

    fixed-point.hpp:108-110 computed in binary64: the product with a power of two and the
    addition of one half are each rounded to nearest, ties to even. *)

From Coq Require Import ZArith Reals Lia Lra Bool.
From Flocq Require Import Core Mult_error.
From Verif Require Import Base Scalars FixedPoint FixedSpec FixedProofs.
Local Open Scope Z_scope.

(** binary64 without overflow: precision 53, least exponent -1074 (the [double] of
    fixed-point.hpp:108-110). *)
Definition b64 : Z -> Z := FLT_exp (-1074) 53.
(** The values of [double] (fixed-point.hpp:108-110). *)
Definition is_double (x : R) : Prop := generic_format radix2 b64 x.
(** Rounding of the result of an operation (fixed-point.hpp:108-110). *)
Definition fl (x : R) : R := round radix2 b64 ZnearestE x.

(** fixed-point.hpp:108-110, [fixed_point( double value )]. Simplification: overflow of the
    product to infinity is not modelled (the theorems bound the product). *)
Definition fx_of_double (c : fx) (value : R) : outcome Z :=
  p <- power2 (fx_F c) ;;
  chk (fx_w c) (Rtrunc (fl (fl (IZR p * value) + (if Rle_dec 0 value then 1/2 else - (1/2))))%R).

#[local] Instance prec53 : Prec_gt_0 53.
Proof. reflexivity. Qed.

Lemma double_intro m e :
  Z.abs m < 2 ^ 53 -> -1074 <= e -> is_double (IZR m * bpow radix2 e).
Proof.
  intros Hm He. apply generic_format_FLT. exists (Float radix2 m e); [reflexivity|exact Hm|exact He].
Qed.

Lemma double_Z z : Z.abs z < 2 ^ 53 -> is_double (IZR z).
Proof. intros H. rewrite <- (Rmult_1_r (IZR z)). apply (double_intro z 0); [assumption|lia]. Qed.

Lemma double_half_Z z : Z.abs z < 2 ^ 52 -> is_double (IZR z + 1/2).
Proof.
  intros H. replace (IZR z + 1/2)%R with (IZR (2 * z + 1) * bpow radix2 (-1))%R.
  - apply double_intro; lia.
  - rewrite plus_IZR, mult_IZR. change (bpow radix2 (-1)) with (/ 2)%R. field.
Qed.

Lemma fl_id x : is_double x -> fl x = x.
Proof. intros H. unfold fl. apply round_generic; [apply valid_rnd_N|exact H]. Qed.

Lemma fl_le x y : (x <= y)%R -> (fl x <= fl y)%R.
Proof. intros H. unfold fl. apply round_le; [apply FLT_exp_valid; reflexivity|apply valid_rnd_N|exact H]. Qed.

Lemma fl_opp x : fl (- x) = (- fl x)%R.
Proof. apply round_NE_opp. Qed.

Lemma double_opp x : is_double x -> is_double (- x).
Proof. apply generic_format_opp. Qed.

(** A double in the binade [2^k, 2^(k+1)) is a multiple of [2^(k-52)]. *)
Lemma double_multiple y k :
  is_double y -> -1022 <= k -> (bpow radix2 k <= y < bpow radix2 (k + 1))%R ->
  exists m, y = (IZR m * bpow radix2 (k - 52))%R.
Proof.
  intros D Hk B.
  assert (M : mag radix2 y = (k + 1) :> Z).
  { apply mag_unique_pos. replace (k + 1 - 1) with k by lia. exact B. }
  red in D. red in D. unfold F2R in D. simpl in D. unfold cexp in D. rewrite M in D.
  replace (b64 (k + 1)) with (k - 52) in D; [eauto|].
  unfold b64, FLT_exp. lia.
Qed.

(** Rounding the sum never reaches the next integer, except for the double just below 1/2. *)
Lemma fl_half_sum y n :
  is_double y -> (0 <= y)%R -> 0 <= n < 2 ^ 51 ->
  (IZR n <= y + 1/2 < IZR n + 1)%R ->
  y <> (1/2 - bpow radix2 (-54))%R ->
  (IZR n <= fl (y + 1/2) < IZR n + 1)%R.
Proof.
  intros D Y Hn [L U] N. split.
  { rewrite <- (fl_id (IZR n)) by (apply double_Z; lia). now apply fl_le. }
  destruct (Rle_lt_dec (y + 1/2) (IZR n + 1/2)) as [H|H].
  - apply Rle_lt_trans with (IZR n + 1/2)%R; [|lra].
    rewrite <- (fl_id (IZR n + 1/2)) by (apply double_half_Z; lia). now apply fl_le.
  - destruct (Z.eq_dec n 0) as [->|Hn0].
    + (* y in (0, 1/2), below the last double before 1/2 *)
      assert (X : (y <= 1/2 - 2 * bpow radix2 (-54))%R).
      { destruct (Rle_lt_dec (bpow radix2 (-2)) y) as [Q|Q].
        - destruct (double_multiple y (-2) D) as (m & E); [lia| |].
          + simpl in *. lra.
          + change (-2 - 52) with (-54) in E. rewrite E in U, N |- *.
            assert (P : (0 < bpow radix2 (-54))%R) by apply bpow_gt_0.
            assert (HH : (1/2 = IZR (2 ^ 53) * bpow radix2 (-54))%R) by (simpl; lra).
            rewrite HH in U, N |- *.
            assert (m < 2 ^ 53).
            { apply lt_IZR. apply Rmult_lt_reg_r with (bpow radix2 (-54)); [assumption|].
              rewrite <- HH in U |- *. lra. }
            assert (m <> 2 ^ 53 - 1).
            { intros ->. apply N. rewrite minus_IZR. lra. }
            assert (Hm : m <= 2 ^ 53 - 2) by lia. apply IZR_le in Hm. rewrite minus_IZR in Hm.
            apply Rle_trans with ((IZR (2 ^ 53) - 2) * bpow radix2 (-54))%R; [|lra].
            apply Rmult_le_compat_r; [lra|exact Hm].
        - simpl in *. lra. }
      apply Rle_lt_trans with (IZR (2 ^ 53 - 1) * bpow radix2 (-53))%R.
      * rewrite <- (fl_id (IZR (2 ^ 53 - 1) * bpow radix2 (-53))) by (apply double_intro; lia).
        apply fl_le. simpl in *. lra.
      * simpl. lra.
    + (* y > n >= 1: the sum is exact *)
      set (k := Z.log2 n).
      pose proof (Z.log2_spec n ltac:(lia)) as [K1 K2]. fold k in K1, K2.
      assert (K0 : 0 <= k) by apply Z.log2_nonneg.
      assert (K51 : k < 51) by (apply Z.log2_lt_pow2; lia).
      assert (B1 : bpow radix2 k = IZR (2 ^ k)) by (rewrite <- IZR_Zpower by lia; reflexivity).
      assert (B2 : bpow radix2 (k + 1) = IZR (2 ^ (k + 1))) by (rewrite <- IZR_Zpower by lia; reflexivity).
      replace (Z.succ k) with (k + 1) in K2 by lia.
      assert (Q1 : (IZR (2 ^ k) <= IZR n)%R) by (now apply IZR_le).
      assert (Q2 : (IZR n + 1 <= IZR (2 ^ (k + 1)))%R).
      { replace (IZR n + 1)%R with (IZR (n + 1)) by (now rewrite plus_IZR). apply IZR_le. lia. }
      destruct (double_multiple y k D) as (m & E); [lia| |].
      { rewrite B1, B2. lra. }
      assert (HH : (1/2 = IZR (2 ^ (51 - k)) * bpow radix2 (k - 52))%R).
      { replace (IZR (2 ^ (51 - k))) with (bpow radix2 (51 - k))
          by (rewrite <- IZR_Zpower by lia; reflexivity).
        rewrite <- bpow_plus. replace (51 - k + (k - 52)) with (-1) by lia. simpl. lra. }
      assert (ES : (y + 1/2 = IZR (m + 2 ^ (51 - k)) * bpow radix2 (k - 52))%R).
      { rewrite plus_IZR, E, HH. ring. }
      assert (P : (0 < bpow radix2 (k - 52))%R) by apply bpow_gt_0.
      rewrite fl_id; [lra|]. rewrite ES. apply double_intro; [|lia].
      assert (BB : bpow radix2 (k + 1) = (IZR (2 ^ 53) * bpow radix2 (k - 52))%R).
      { replace (IZR (2 ^ 53)) with (bpow radix2 53)
          by (rewrite <- IZR_Zpower by lia; reflexivity).
        rewrite <- bpow_plus. f_equal. lia. }
      rewrite ES in U, L.
      rewrite Z.abs_eq.
      * apply lt_IZR. apply Rmult_lt_reg_r with (bpow radix2 (k - 52)); [assumption|].
        rewrite <- BB, B2. lra.
      * apply Z.lt_succ_r, lt_IZR. rewrite succ_IZR.
        assert (0 <= IZR (m + 2 ^ (51 - k)))%R; [|lra].
        apply Rmult_le_reg_r with (bpow radix2 (k - 52)); [assumption|].
        rewrite <- ES, Rmult_0_l. lra.
Qed.

Lemma fl_product c x :
  supported c -> is_double x -> fl (IZR (2 ^ fx_F c) * x) = (IZR (2 ^ fx_F c) * x)%R.
Proof.
  intros S D. apply fl_id.
  replace (IZR (2 ^ fx_F c)) with (bpow radix2 (fx_F c))
    by (rewrite <- IZR_Zpower by (pose proof (sup_F c S); lia); reflexivity).
  rewrite Rmult_comm. apply mult_bpow_pos_exact_FLT; [exact D|]. pose proof (sup_F c S). lia.
Qed.

Lemma Rtrunc_unique_pos r n : (0 <= r)%R -> (IZR n <= r < IZR n + 1)%R -> Rtrunc r = n.
Proof.
  intros H B. unfold Rtrunc. destruct (Rle_dec 0 r); [|contradiction]. now apply Int_part_spec.
Qed.
