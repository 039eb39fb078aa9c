(** * C153: conversion between fixed-point and floating-point numbers, bit for bit *)

From Coq Require Import ZArith Reals Lia Lra Bool.
From Flocq Require Import Core Mult_error IEEE754.BinarySingleNaN.
From Verif Require Import Base Scalars FixedPoint FixedSpec FixedProofs FixedIEEE Ieee
  FixedFloat FixedFloatSpec FixedFloatProofs PropsFixed.
Local Open Scope Z_scope.

(** For every floating-point number, of any precision: infinities and nans are undefined
    behaviour; otherwise the stored integer is the described one if it fits, and the
    conversion is undefined if it does not. *)
Theorem C153_conversion : forall prec emax (Hp : Prec_gt_0 prec) (Hm : Prec_lt_emax prec emax) c
    (x : binary_float prec emax),
  3 <= prec -> 64 <= emax -> supported c ->
  (is_finite x = false -> fx_of_ieee prec emax c x = Err SignedOverflow) /\
  (is_finite x = true -> exists a, converted prec (IZR (2 ^ fx_F c) * B2R x) a /\
     (in_range c a -> fx_of_ieee prec emax c x = Ok a) /\
     (~ in_range c a -> fx_of_ieee prec emax c x = Err SignedOverflow)).
Proof.
  intros prec emax Hp Hm c x P E S. split; intros F.
  - now apply of_ieee_not_finite.
  - pose proof (sup_F c S) as HF.
    destruct (product prec emax P E c x S F) as (D & _). rewrite IZR_pow by lia.
    exists (conv prec emax (bpow radix2 (fx_F c) * B2R x)). split; [split|split].
    + intros Y. now apply conv_pos.
    + intros Y. now apply conv_neg.
    + intros I. rewrite of_ieee_finite by assumption. now apply chk_in.
    + intros I. rewrite of_ieee_finite by assumption. now apply chk_out.
Qed.
Print Assumptions C153_conversion.

(** The description determines the integer. *)
Theorem C153_unique : forall prec y a b, 3 <= prec -> converted prec y a -> converted prec y b -> a = b.
Proof.
  intros prec y a b P [A1 A2] [B1 B2].
  assert (X : forall y a b, converted_pos prec y a -> converted_pos prec y b -> a = b).
  { clear. intros y a b (A1 & A2 & A3 & A4) (B1 & B2 & B3 & B4).
    destruct (Rlt_le_dec y (bpow radix2 (prec - 1))) as [L|L].
    - destruct (Req_dec y (1/2 - bpow radix2 (- prec - 1))) as [Q|Q].
      + now rewrite A2, B2.
      + specialize (A1 L Q). specialize (B1 L Q).
        assert (a < b + 1) by (apply lt_IZR; rewrite plus_IZR; lra).
        assert (b < a + 1) by (apply lt_IZR; rewrite plus_IZR; lra). lia.
    - destruct (Rlt_le_dec y (bpow radix2 prec)) as [M|M].
      + destruct (A3 (conj L M)) as [Ea Va], (B3 (conj L M)) as [Eb Vb].
        assert (V : a = b \/ a = b + 1 \/ b = a + 1).
        { destruct Va as [Va|Va], Vb as [Vb|Vb].
          - left. apply eq_IZR. lra.
          - right. right. apply eq_IZR. rewrite plus_IZR. lra.
          - right. left. apply eq_IZR. rewrite plus_IZR. lra.
          - left. apply eq_IZR. lra. }
        destruct V as [V|[->| ->]]; [exact V| |];
          rewrite Z.even_add in *; rewrite ?Ea, ?Eb in *; discriminate.
      + apply eq_IZR. rewrite A4, B4 by assumption. reflexivity. }
  destruct (Rle_lt_dec 0 y) as [L|L].
  - exact (X y a b (A1 L) (B1 L)).
  - apply Z.opp_inj. exact (X (- y)%R (- a) (- b) (A2 L) (B2 L)).
Qed.
Print Assumptions C153_unique.

(** In binary64 it is what FixedIEEE.v has, for every finite double. *)
Theorem C153_double : forall c (x : double), supported c -> is_finite x = true ->
  fx_of_ieee 53 1024 c x = fx_of_double c (B2R x).
Proof.
  intros c x S F. rewrite of_ieee_finite by (try assumption; lia).
  unfold fx_of_double. rewrite power2_F by assumption. rewrite bind_Ok. f_equal.
  rewrite fl_product; [|assumption|exact (generic_format_B2R 53 1024 x)].
  pose proof (sup_F c S) as HF. rewrite IZR_pow by lia.
  pose proof (bpow_gt_0 radix2 (fx_F c)) as Q.
  unfold conv. change (FLT_exp (3 - 1024 - 53) 53) with b64.
  change (round radix2 b64 ZnearestE) with fl.
  destruct (Rle_dec 0 (bpow radix2 (fx_F c) * B2R x)) as [L|L], (Rle_dec 0 (B2R x)) as [M|M].
  - reflexivity.
  - exfalso. assert (0 < bpow radix2 (fx_F c) * - B2R x)%R by (apply Rmult_lt_0_compat; lra). lra.
  - exfalso. apply L. apply Rmult_le_pos; lra.
  - rewrite <- Rtrunc_opp. f_equal. rewrite <- fl_opp. f_equal. lra.
Qed.
Print Assumptions C153_double.

(** With [float], and with [double] on AVR, the result is off by at most one step; by at most
    little more than half a step below [2^23] steps. *)
Theorem C153_float_error : forall c (x : float) a, supported c -> fx_of_ieee 24 128 c x = Ok a ->
  (Rabs (value c a - B2R x) <= step c)%R /\
  ((Rabs (IZR (2 ^ fx_F c) * B2R x) < IZR (2 ^ 23))%R ->
   (Rabs (value c a - B2R x) <= (1/2 + bpow radix2 (-25)) * step c)%R).
Proof.
  intros c x a S H. pose proof (D_pos c S) as HD.
  destruct (C153_conversion 24 128 _ _ c x ltac:(lia) ltac:(lia) S) as [N F].
  destruct (is_finite x) eqn:Fx; [|rewrite N in H by reflexivity; discriminate].
  destruct (F eq_refl) as (a' & (C1 & C2) & I1 & I2). clear N F.
  assert (a' = a).
  { destruct (Z_le_dec (- 2 ^ (fx_w c - 1)) a') as [L1|L1], (Z_lt_dec a' (2 ^ (fx_w c - 1))) as [L2|L2];
      try (rewrite I2 in H by (unfold in_range; lia); discriminate).
    rewrite I1 in H by (unfold in_range; lia). now injection H. }
  subst a'. set (D := IZR (2 ^ fx_F c)) in *.
  assert (X : forall y a, converted_pos 24 y a -> (0 <= y)%R -> (Rabs (IZR a - y) <= 1)%R /\
            ((y < IZR (2 ^ 23))%R -> (Rabs (IZR a - y) <= 1/2 + bpow radix2 (-25))%R)).
  { clear. intros y a (A1 & A2 & A3 & A4) Y. change (24 - 1) with 23 in *. change (-24 - 1) with (-25) in *.
    pose proof (bpow_gt_0 radix2 (-25)) as P. assert (P' : (bpow radix2 (-25) < 1/4)%R) by (simpl; lra).
    rewrite (IZR_pow 23) by lia.
    destruct (Rlt_le_dec y (bpow radix2 23)) as [L|L].
    - assert (E : (Rabs (IZR a - y) <= 1/2 + bpow radix2 (-25))%R); [|split; [eapply Rle_trans; [exact E|lra]|intros _; exact E]].
      destruct (Req_dec y (1/2 - bpow radix2 (-25))) as [Q|Q].
      + rewrite A2 by exact Q. rewrite Q. apply Rabs_le. lra.
      + specialize (A1 L Q). apply Rabs_le. lra.
    - split; [|lra]. destruct (Rlt_le_dec y (bpow radix2 24)) as [M|M].
      + destruct (A3 (conj L M)) as [_ [V|V]]; rewrite V; apply Rabs_le; lra.
      + rewrite A4 by exact M. apply Rabs_le. lra. }
  assert (Y : (Rabs (IZR a - D * B2R x) <= 1)%R /\
     ((Rabs (D * B2R x) < IZR (2 ^ 23))%R -> (Rabs (IZR a - D * B2R x) <= 1/2 + bpow radix2 (-25))%R)).
  { destruct (Rle_lt_dec 0 (D * B2R x)) as [L|L].
    - rewrite (Rabs_pos_eq _ L). apply X; auto.
    - rewrite (Rabs_left _ L). destruct (X (- (D * B2R x))%R (- a) (C2 L)) as [X1 X2]; [lra|].
      rewrite opp_IZR in X1, X2.
      replace (- IZR a - - (D * B2R x))%R with (- (IZR a - D * B2R x))%R in X1, X2 by ring.
      rewrite Rabs_Ropp in X1, X2. now split. }
  assert (E : (Rabs (value c a - B2R x) = Rabs (IZR a - D * B2R x) * step c)%R).
  { unfold value, step. fold D. rewrite <- (Rabs_pos_eq (1 / D)) at 1.
    - rewrite <- Rabs_mult. f_equal. field. lra.
    - apply Rlt_le, Rdiv_lt_0_compat; lra. }
  rewrite E. assert (0 < step c)%R by (unfold step; fold D; apply Rdiv_lt_0_compat; lra).
  destruct Y as [Y1 Y2]. split.
  - rewrite <- (Rmult_1_l (step c)) at 2. apply Rmult_le_compat_r; lra.
  - intros B. apply Rmult_le_compat_r; [lra|]. now apply Y2.
Qed.
Print Assumptions C153_float_error.

Lemma scaled_back c a (f : float) : supported c -> B2R f = (IZR a / IZR (2 ^ fx_F c))%R ->
  (IZR (2 ^ fx_F c) * B2R f = IZR a)%R.
Proof. intros S ->. pose proof (D_pos c S). field. lra. Qed.

Lemma conv_small prec emax a : 3 <= prec -> 64 <= emax -> (Z.abs a <= 2 ^ (prec - 1) \/ 2 ^ prec <= Z.abs a) ->
  Prec_gt_0 prec ->
  generic_format radix2 (FLT_exp (3 - emax - prec) prec) (IZR a) ->
  conv prec emax (IZR a) = a.
Proof.
  intros P E A Hp D.
  assert (PP : (bpow radix2 (prec - 1) < bpow radix2 prec)%R) by (apply bpow_lt; lia).
  pose proof (bpow_gt_0 radix2 (- prec - 1)) as Q.
  assert (Q' : (bpow radix2 (- prec - 1) < bpow radix2 (-1))%R) by (apply bpow_lt; lia).
  change (bpow radix2 (-1)) with (/ 2)%R in Q'.
  assert (X : forall b k, 0 <= b -> (b <= 2 ^ (prec - 1) \/ 2 ^ prec <= b) -> converted_pos prec (IZR b) k -> k = b).
  { intros b k B0 B (A1 & A2 & A3 & A4).
    assert (Nb : IZR b <> (1/2 - bpow radix2 (- prec - 1))%R).
    { intros Z. assert (0 < b) by (apply lt_IZR; lra). assert (b < 1) by (apply lt_IZR; lra). lia. }
    destruct B as [B|B].
    - apply IZR_le in B as B'. rewrite IZR_pow in B' by lia. destruct (Rle_lt_or_eq_dec _ _ B') as [L|L].
      + specialize (A1 L Nb).
        assert (k < b + 1) by (apply lt_IZR; rewrite plus_IZR; lra).
        assert (b < k + 1) by (apply lt_IZR; rewrite plus_IZR; lra). lia.
      + destruct A3 as [V [W|W]]; [lra| |].
        * now apply eq_IZR.
        * assert (k = b + 1) by (apply eq_IZR; rewrite plus_IZR; exact W). subst k.
          rewrite <- IZR_pow in L by lia. apply eq_IZR in L. subst b.
          rewrite Z.even_add, Z.even_pow in V by lia. discriminate.
    - apply IZR_le in B as B'. rewrite IZR_pow in B' by lia. apply eq_IZR. now apply A4. }
  destruct (Z_le_dec 0 a) as [L|L].
  - apply X; [lia|lia|]. apply conv_pos; try assumption. now apply IZR_le.
  - assert (IZR a < 0)%R by (apply IZR_lt; lia).
    assert (- conv prec emax (IZR a) = - a); [|lia].
    apply X; [lia|lia|]. rewrite opp_IZR. now apply conv_neg.
Qed.

(** Up to [2^23] steps a fixed-point number is exact in [float], and converting it back gives
    the same number. *)
Theorem C153_float_round_trip : forall c a, supported c -> in_range c a -> Z.abs a <= 2 ^ 23 ->
  exists f, fx_as_ieee 24 128 c a = Ok f /\ B2R f = value c a /\ fx_of_ieee 24 128 c f = Ok a.
Proof.
  intros c a S I A.
  destruct (as_ieee 24 128 ltac:(lia) ltac:(lia) c a S I) as (f & Ef & Ff & Vf).
  assert (D : generic_format radix2 (FLT_exp (3 - 128 - 24) 24) (IZR a)) by (apply g_Z; lia).
  rewrite (round_generic radix2 _ ZnearestE _ D) in Vf.
  exists f. split; [exact Ef|]. split; [exact Vf|].
  rewrite of_ieee_finite by (try assumption; lia).
  rewrite <- IZR_pow by (pose proof (sup_F c S); lia). rewrite (scaled_back c a f S Vf).
  rewrite conv_small; [now apply chk_in|lia|lia|left; exact A|reflexivity|exact D].
Qed.
Print Assumptions C153_float_round_trip.

(** Between [2^23] and [2^24] steps it is exact in [float] too, but converting an odd number of
    steps back gives the next number. *)
Theorem C153_float_odd_refuted : forall c a, supported c -> in_range c a ->
  2 ^ 23 < Z.abs a < 2 ^ 24 -> Z.odd a = true ->
  exists f, fx_as_ieee 24 128 c a = Ok f /\ B2R f = value c a /\
    fx_of_ieee 24 128 c f = Ok (a + Z.sgn a).
Proof.
  intros c a S I A O. pose proof (sup_F c S) as HF.
  destruct (as_ieee 24 128 ltac:(lia) ltac:(lia) c a S I) as (f & Ef & Ff & Vf).
  assert (D : generic_format radix2 (FLT_exp (3 - 128 - 24) 24) (IZR a)) by (apply g_Z; lia).
  rewrite (round_generic radix2 _ ZnearestE _ D) in Vf.
  exists f. split; [exact Ef|]. split; [exact Vf|].
  rewrite of_ieee_finite by (try assumption; lia).
  rewrite <- IZR_pow by lia. rewrite (scaled_back c a f S Vf).
  assert (C : conv 24 128 (IZR a) = a + Z.sgn a).
  { assert (X : forall b k, 2 ^ 23 < b < 2 ^ 24 -> Z.odd b = true -> converted_pos 24 (IZR b) k -> k = b + 1).
    { clear. intros b k B O (_ & _ & A3 & _). destruct A3 as [V [W|W]].
      - change (24 - 1) with 23. rewrite <- !IZR_pow by lia.
        split; [apply IZR_le|apply IZR_lt]; lia.
      - apply eq_IZR in W. subst. rewrite <- Z.negb_odd, O in V. discriminate.
      - apply eq_IZR. now rewrite plus_IZR. }
    destruct (Z_le_dec 0 a) as [L|L].
    - rewrite (X a (conv 24 128 (IZR a))); [lia|lia|exact O|].
      apply conv_pos; [reflexivity|lia|lia|exact D|now apply IZR_le].
    - assert (Y : - conv 24 128 (IZR a) = - a + 1); [|lia].
      apply X; [lia|now rewrite Z.odd_opp|]. rewrite opp_IZR.
      apply conv_neg; [reflexivity|lia|lia|exact D|apply IZR_lt; lia]. }
  rewrite C. apply chk_in. red in I.
  destruct S as [[W|[W|W]] _]; rewrite W in *; lia.
Qed.
Print Assumptions C153_float_odd_refuted.

(** From [2^24] steps on the conversion to [float] rounds (by at most 64 of up to [2^31] steps),
    and what fits comes back as the rounded number; the largest 32-bit number does not fit. *)
Theorem C153_float_large : forall c a, supported c -> in_range c a -> 2 ^ 24 <= Z.abs a ->
  exists f b, fx_as_ieee 24 128 c a = Ok f /\ B2R f = value c b /\ Z.abs (b - a) <= 64 /\
    (2 ^ 30 <= Z.abs a -> (128 | b)) /\
    (in_range c b -> fx_of_ieee 24 128 c f = Ok b) /\
    (~ in_range c b -> fx_of_ieee 24 128 c f = Err SignedOverflow).
Proof.
  intros c a S I A. pose proof (sup_F c S) as HF. pose proof (sup_w c S) as Hw.
  destruct (as_ieee 24 128 ltac:(lia) ltac:(lia) c a S I) as (f & Ef & Ff & Vf).
  assert (A31 : Z.abs a <= 2 ^ 31).
  { red in I. assert (2 ^ (fx_w c - 1) <= 2 ^ 31) by (apply Z.pow_le_mono_r; lia). lia. }
  set (r := round radix2 (FLT_exp (3 - 128 - 24) 24) ZnearestE (IZR a)) in *.
  assert (V : Valid_exp (FLT_exp (3 - 128 - 24) 24)) by (apply FLT_exp_valid; reflexivity).
  assert (D : generic_format radix2 (FLT_exp (3 - 128 - 24) 24) r)
    by (apply generic_format_round; [exact V|apply valid_rnd_N]).
  assert (B24 : (bpow radix2 24 <= Rabs r)%R).
  { apply abs_round_ge_generic; [exact V|apply valid_rnd_N| |].
    - apply generic_format_bpow. unfold FLT_exp. lia.
    - rewrite <- IZR_pow by lia. rewrite <- abs_IZR. now apply IZR_le. }
  assert (B23 : (bpow radix2 23 < bpow radix2 24)%R) by (apply bpow_lt; lia).
  assert (Ir : exists b, r = IZR b).
  { destruct (Rle_lt_dec 0 r) as [L|L].
    - rewrite Rabs_pos_eq in B24 by exact L. apply (g_large 24 (3 - 128 - 24) r D).
      change (24 - 1) with 23. lra.
    - rewrite Rabs_left in B24 by exact L.
      destruct (g_large 24 (3 - 128 - 24) (- r)) as (m & E); [now apply generic_format_opp| |].
      + change (24 - 1) with 23. lra.
      + exists (- m). rewrite opp_IZR. lra. }
  destruct Ir as (b & Eb).
  assert (Err64 : (Rabs (r - IZR a) <= 64)%R).
  { destruct (Z.eq_dec (Z.abs a) (2 ^ 31)) as [Q|Q].
    - assert (Da : generic_format radix2 (FLT_exp (3 - 128 - 24) 24) (IZR a)).
      { apply generic_format_abs_inv. rewrite <- abs_IZR, Q, IZR_pow by lia.
        apply generic_format_bpow. unfold FLT_exp. lia. }
      unfold r. rewrite (round_generic radix2 _ ZnearestE _ Da). rewrite Rminus_diag_eq by reflexivity.
      rewrite Rabs_R0. lra.
    - pose proof (error_le_half_ulp radix2 (FLT_exp (3 - 128 - 24) 24) (fun z => negb (Z.even z)) (IZR a)) as U.
      fold r in U. eapply Rle_trans; [exact U|].
      assert (ulp radix2 (FLT_exp (3 - 128 - 24) 24) (IZR a) <= 128)%R; [|lra].
      assert (Na : IZR a <> 0%R) by (intros Z; apply eq_IZR in Z; lia).
      rewrite ulp_neq_0 by exact Na. unfold cexp.
      assert (M : mag radix2 (IZR a) <= 31).
      { apply mag_le_bpow; [exact Na|]. rewrite <- abs_IZR, <- IZR_pow by lia. apply IZR_lt. lia. }
      change 128%R with (bpow radix2 7). apply bpow_le. unfold FLT_exp. lia. }
  exists f, b.
  assert (Vb : B2R f = value c b) by (unfold value; rewrite <- Eb; exact Vf).
  split; [exact Ef|]. split; [exact Vb|]. split.
  { apply le_IZR. rewrite abs_IZR, minus_IZR, <- Eb. exact Err64. }
  split.
  { intros A30.
    assert (R30 : (bpow radix2 30 <= Rabs r)%R).
    { apply abs_round_ge_generic; [exact V|apply valid_rnd_N| |].
      - apply generic_format_bpow. unfold FLT_exp. lia.
      - rewrite <- IZR_pow by lia. rewrite <- abs_IZR. now apply IZR_le. }
    destruct (g_multiple 24 (3 - 128 - 24) (Rabs r) 30) as (m & Em); [now apply generic_format_abs|exact R30|].
    change (30 - 24 + 1) with 7 in Em. change (bpow radix2 7) with (IZR 128) in Em.
    rewrite Eb, <- abs_IZR, <- mult_IZR in Em. apply eq_IZR in Em.
    apply Z.divide_abs_r. exists m. exact Em. }
  assert (E : fx_of_ieee 24 128 c f = chk (fx_w c) b).
  { rewrite of_ieee_finite by (try assumption; lia).
    rewrite <- IZR_pow by lia. rewrite (scaled_back c b f S Vb). f_equal.
    rewrite Eb in D, B24. rewrite <- abs_IZR, <- IZR_pow in B24 by lia. apply le_IZR in B24.
    apply conv_small; [lia|lia|right; exact B24|reflexivity|exact D]. }
  rewrite E. split; intros J; [now apply chk_in|now apply chk_out].
Qed.
Print Assumptions C153_float_large.

(** The 63 largest 32-bit numbers do not come back: converting to [float] gives [2^31] steps. *)
Theorem C153_float_max_refuted : forall c a, supported c -> fx_w c = 32 -> 2 ^ 31 - 64 < a < 2 ^ 31 ->
  exists f, fx_as_ieee 24 128 c a = Ok f /\ fx_of_ieee 24 128 c f = Err SignedOverflow.
Proof.
  intros c a S W A.
  destruct (C153_float_large c a S) as (f & b & Ef & _ & D & M & _ & N); [red; rewrite W; lia|lia|].
  exists f. split; [exact Ef|]. apply N. destruct (M ltac:(lia)) as (k & ->). unfold in_range. rewrite W. lia.
Qed.
Print Assumptions C153_float_max_refuted.

(** With [double] of 53 bits every fixed-point number comes back. *)
Theorem C153_double_round_trip : forall c a, supported c -> in_range c a ->
  exists f, fx_as_ieee 53 1024 c a = Ok f /\ B2R f = value c a /\ fx_of_ieee 53 1024 c f = Ok a.
Proof.
  intros c a S I. pose proof (sup_F c S) as HF. pose proof (sup_w c S) as Hw.
  destruct (as_ieee 53 1024 ltac:(lia) ltac:(lia) c a S I) as (f & Ef & Ff & Vf).
  assert (A31 : Z.abs a <= 2 ^ 31).
  { red in I. assert (2 ^ (fx_w c - 1) <= 2 ^ 31) by (apply Z.pow_le_mono_r; lia). lia. }
  assert (D : generic_format radix2 (FLT_exp (3 - 1024 - 53) 53) (IZR a)) by (apply g_Z; lia).
  rewrite (round_generic radix2 _ ZnearestE _ D) in Vf.
  exists f. split; [exact Ef|]. split; [exact Vf|].
  rewrite of_ieee_finite by (try assumption; lia).
  rewrite <- IZR_pow by lia.
  assert (E : (IZR (2 ^ fx_F c) * B2R f = IZR a)%R) by (rewrite Vf; pose proof (D_pos c S); field; lra).
  rewrite E. rewrite conv_small; [now apply chk_in|lia|lia|left; lia|reflexivity|exact D].
Qed.
Print Assumptions C153_double_round_trip.

(** [fixed_point<int, 15>] on the desktop: 128 + 2^-16 is exact in [float] and converted to
    128 + 2^-15; the largest number; and a nan. *)
Example C153_case :
  let c := {| fx_w := 32; fx_ib := 32; fx_F := default_F 32 15; fx_cpp20 := false |} in
  supported c /\ in_range c (2 ^ 23 + 1) /\
  (f <- fx_as_ieee 24 128 c (2 ^ 23 + 1) ;; fx_of_ieee 24 128 c f) = Ok (2 ^ 23 + 2) /\
  (f <- fx_as_ieee 24 128 c (fx_max c) ;; fx_of_ieee 24 128 c f) = Err SignedOverflow /\
  (f <- fx_as_ieee 24 128 c (- 12345) ;; fx_of_ieee 24 128 c f) = Ok (- 12345) /\
  (f <- fx_as_ieee 24 128 c (2 ^ 30 + 65) ;; fx_of_ieee 24 128 c f) = Ok (2 ^ 30 + 128) /\
  (f <- fx_as_ieee 53 1024 c (fx_max c) ;; fx_of_ieee 53 1024 c f) = Ok (fx_max c) /\
  fx_of_ieee 24 128 c B754_nan = Err SignedOverflow.
Proof. vm_compute. intuition congruence. Qed.
