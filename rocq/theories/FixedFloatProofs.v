(** * Lemmas about the conversion of fixed-point numbers from and to floating-point numbers *)

From Coq Require Import ZArith Reals Lia Lra Bool.
From Flocq Require Import Core Mult_error IEEE754.BinarySingleNaN.
From Verif Require Import Base Scalars FixedPoint FixedSpec FixedProofs Ieee FixedFloat FixedFloatSpec.
Local Open Scope R_scope.

Section Rnd.

Context (prec emin : Z) {Hprec : Prec_gt_0 prec}.
Context (Hp : (3 <= prec)%Z).
Context (Hmin : (emin <= - prec - 1)%Z).

Notation fmt := (FLT_exp emin prec).
Notation rnd := (round radix2 fmt ZnearestE).
Notation is_fl := (generic_format radix2 fmt).

Lemma g_intro m e : (Z.abs m < 2 ^ prec)%Z -> (emin <= e)%Z -> is_fl (IZR m * bpow radix2 e).
Proof.
  intros H1 H2. apply generic_format_FLT. exists (Float radix2 m e); [reflexivity|exact H1|exact H2].
Qed.

Lemma IZR_pow k : (0 <= k)%Z -> IZR (2 ^ k) = bpow radix2 k.
Proof. intros H. rewrite <- IZR_Zpower by lia. reflexivity. Qed.

Lemma bp k l : bpow radix2 k = bpow radix2 (k - l) * bpow radix2 l.
Proof. rewrite <- bpow_plus. f_equal. lia. Qed.

Lemma g_Z z : (Z.abs z < 2 ^ prec)%Z -> is_fl (IZR z).
Proof. intros H. rewrite <- (Rmult_1_r (IZR z)). apply (g_intro z 0); [assumption|lia]. Qed.

Lemma g_id x : is_fl x -> rnd x = x.
Proof. intros H. apply round_generic; [apply valid_rnd_N|exact H]. Qed.

Lemma g_le x y : x <= y -> rnd x <= rnd y.
Proof. intros H. apply round_le; [apply FLT_exp_valid; exact Hprec|apply valid_rnd_N|exact H]. Qed.

Lemma g_opp x : rnd (- x) = - rnd x.
Proof. apply round_NE_opp. Qed.

Lemma g_rnd x : is_fl (rnd x).
Proof. apply generic_format_round; [apply FLT_exp_valid; exact Hprec|apply valid_rnd_N]. Qed.

(** A number from [2^k] on is a multiple of [2^(k-prec+1)]. *)
Lemma g_multiple y k : is_fl y -> bpow radix2 k <= y -> exists m, y = IZR m * bpow radix2 (k - prec + 1).
Proof.
  intros D B. red in D. unfold F2R in D. cbn [Fnum Fexp] in D.
  set (m := Ztrunc _) in D. unfold cexp in D.
  assert (M : (k + 1 <= mag radix2 y)%Z).
  { apply mag_ge_bpow. replace (k + 1 - 1)%Z with k by lia. rewrite Rabs_pos_eq; [exact B|].
    pose proof (bpow_gt_0 radix2 k). lra. }
  set (e := fmt (mag radix2 y)) in *.
  assert (He : (k - prec + 1 <= e)%Z) by (unfold e, FLT_exp; lia).
  exists (m * 2 ^ (e - (k - prec + 1)))%Z. rewrite mult_IZR, IZR_pow by lia.
  rewrite Rmult_assoc, <- bpow_plus. rewrite D. do 2 f_equal. lia.
Qed.

Lemma g_large y : is_fl y -> bpow radix2 (prec - 1) <= y -> exists m, y = IZR m.
Proof.
  intros D B. destruct (g_multiple y _ D B) as (m & E). exists m. rewrite E.
  replace (prec - 1 - prec + 1)%Z with 0%Z by lia. simpl. ring.
Qed.

(** Below [2^(prec-1)] the sum with one half stays between the same integers, but for the
    number next to one half. *)
Lemma half_sum y n : is_fl y -> 0 <= y < bpow radix2 (prec - 1) ->
  IZR n <= y + 1/2 < IZR n + 1 -> y <> 1/2 - bpow radix2 (- prec - 1) ->
  IZR n <= rnd (y + 1/2) < IZR n + 1.
Proof.
  intros D [Y Y1] [L U] N.
  assert (Hn0 : (0 <= n)%Z) by (apply Z.lt_succ_r, lt_IZR; rewrite succ_IZR; lra).
  assert (Hn1 : (n <= 2 ^ (prec - 1))%Z).
  { apply Z.lt_succ_r, lt_IZR. rewrite succ_IZR, IZR_pow by lia. lra. }
  assert (P2 : (2 ^ prec = 2 * 2 ^ (prec - 1))%Z).
  { rewrite <- (Z.pow_succ_r 2) by lia. f_equal. lia. }
  assert (P1 : (0 < 2 ^ (prec - 1))%Z) by (apply Z.pow_pos_nonneg; lia).
  split.
  { rewrite <- (g_id (IZR n)) by (apply g_Z; lia). now apply g_le. }
  destruct (Z.eq_dec n 0) as [->|Hn].
  - (* y below 1/2 *)
    assert (X : y <= 1/2 - bpow radix2 (- prec)).
    { destruct (Rle_lt_dec (bpow radix2 (-2)) y) as [Q|Q].
      - destruct (g_multiple y (-2) D Q) as (m & E).
        replace (-2 - prec + 1)%Z with (- prec - 1)%Z in E by lia.
        rewrite E in U, N |- *.
        pose proof (bpow_gt_0 radix2 (- prec - 1)) as P. set (u := bpow radix2 (- prec - 1)) in *.
        assert (HH : 1/2 = IZR (2 ^ prec) * u).
        { unfold u. rewrite IZR_pow by lia. rewrite <- bpow_plus.
          replace (prec + (- prec - 1))%Z with (-1)%Z by lia. simpl. lra. }
        assert (U2 : bpow radix2 (- prec) = 2 * u) by (unfold u; rewrite (bp (- prec) 1); change (bpow radix2 1) with 2; ring).
        rewrite U2.
        assert (m < 2 ^ prec)%Z.
        { apply lt_IZR. apply Rmult_lt_reg_r with u; [assumption|]. lra. }
        assert (m <> 2 ^ prec - 1)%Z.
        { intros ->. apply N. rewrite minus_IZR. lra. }
        assert (Hm : (m <= 2 ^ prec - 2)%Z) by lia. apply IZR_le in Hm. rewrite minus_IZR in Hm.
        apply Rle_trans with ((IZR (2 ^ prec) - 2) * u); [|lra].
        apply Rmult_le_compat_r; [lra|exact Hm].
      - assert (bpow radix2 (- prec) <= bpow radix2 (-3)) by (apply bpow_le; lia).
        simpl in *. lra. }
    apply Rle_lt_trans with (IZR (2 ^ prec - 1) * bpow radix2 (- prec)).
    + rewrite <- (g_id (IZR (2 ^ prec - 1) * _)) by (apply g_intro; lia).
      apply g_le. rewrite minus_IZR, IZR_pow by lia. rewrite Rmult_minus_distr_r, <- bpow_plus.
      replace (prec + - prec)%Z with 0%Z by lia. simpl (bpow radix2 0). lra.
    + rewrite minus_IZR, IZR_pow by lia. rewrite Rmult_minus_distr_r, <- bpow_plus.
      replace (prec + - prec)%Z with 0%Z by lia. simpl (bpow radix2 0).
      pose proof (bpow_gt_0 radix2 (- prec)). lra.
  - (* y at least 1/2: the sum is a number of the format, or at most a power of two *)
    set (k := Z.log2 n).
    pose proof (Z.log2_spec n ltac:(lia)) as [K1 K2]. fold k in K1, K2.
    assert (K0 : (0 <= k)%Z) by apply Z.log2_nonneg.
    assert (K51 : (k <= prec - 1)%Z).
    { apply Z.log2_le_mono in Hn1. rewrite Z.log2_pow2 in Hn1 by lia. exact Hn1. }
    replace (Z.succ k) with (k + 1)%Z in K2 by lia.
    assert (Q1 : IZR (2 ^ k) <= IZR n) by (now apply IZR_le).
    assert (Q2 : IZR n + 1 <= IZR (2 ^ (k + 1))).
    { replace (IZR n + 1) with (IZR (n + 1)) by (now rewrite plus_IZR). apply IZR_le. lia. }
    rewrite IZR_pow in Q1, Q2 by lia.
    assert (C : y <= IZR n \/ IZR n < y) by lra. destruct C as [C|C].
    + (* at most n + 1/2 *)
      destruct (Z.eq_dec k (prec - 1)) as [E|E].
      * (* n = 2^(prec-1), but y is a smaller multiple of 1/2 *)
        assert (n = 2 ^ (prec - 1))%Z by (rewrite E in K1; lia). subst n.
        rewrite IZR_pow in * by lia.
        apply Rle_lt_trans with (bpow radix2 (prec - 1)); [|lra].
        rewrite <- (g_id (bpow radix2 (prec - 1))) by (apply generic_format_bpow; unfold FLT_exp; lia).
        apply g_le.
        assert (QQ : bpow radix2 (prec - 2) <= y).
        { assert (bpow radix2 (prec - 1) = 2 * bpow radix2 (prec - 2)).
          { rewrite (bp (prec - 1) 1). replace (prec - 1 - 1)%Z with (prec - 2)%Z by lia. change (bpow radix2 1) with 2. ring. }
          assert (bpow radix2 1 <= bpow radix2 (prec - 2)) by (apply bpow_le; lia).
          simpl in *. lra. }
        destruct (g_multiple y (prec - 2) D QQ) as (m & Em).
        replace (prec - 2 - prec + 1)%Z with (-1)%Z in Em by lia. simpl in Em.
        assert (Hm : (m < 2 * 2 ^ (prec - 1))%Z).
        { apply lt_IZR. rewrite mult_IZR, IZR_pow by lia. lra. }
        assert (Hm' : (m <= 2 * 2 ^ (prec - 1) - 1)%Z) by lia.
        apply IZR_le in Hm'. rewrite minus_IZR, mult_IZR, IZR_pow in Hm' by lia. lra.
      * apply Rle_lt_trans with (IZR n + 1/2); [|lra].
        rewrite <- (g_id (IZR n + 1/2)).
        -- apply g_le. lra.
        -- replace (IZR n + 1/2) with (IZR (2 * n + 1) * bpow radix2 (-1)).
           ++ apply g_intro; [|lia]. rewrite Z.abs_eq by lia.
              assert (2 ^ (k + 1) <= 2 ^ (prec - 1))%Z by (apply Z.pow_le_mono_r; lia). lia.
           ++ rewrite plus_IZR, mult_IZR. simpl. lra.
    + assert (Kp : (k < prec - 1)%Z).
      { destruct (Z.eq_dec k (prec - 1)) as [E|E]; [|lia]. exfalso. rewrite E in Q1. lra. }
      destruct (g_multiple y k D) as (m & E); [lra|].
      assert (P : 0 < bpow radix2 (k - prec + 1)) by apply bpow_gt_0.
      assert (HH : 1/2 = IZR (2 ^ (prec - 2 - k)) * bpow radix2 (k - prec + 1)).
      { rewrite IZR_pow by lia. rewrite <- bpow_plus.
        replace (prec - 2 - k + (k - prec + 1))%Z with (-1)%Z by lia. simpl. lra. }
      assert (ES : y + 1/2 = IZR (m + 2 ^ (prec - 2 - k)) * bpow radix2 (k - prec + 1)).
      { rewrite plus_IZR, E, HH. ring. }
      rewrite g_id; [exact U|]. rewrite ES. apply g_intro; [|lia].
      assert (BB : bpow radix2 (k + 1) = IZR (2 ^ prec) * bpow radix2 (k - prec + 1)).
      { rewrite IZR_pow by lia. rewrite <- bpow_plus. f_equal. lia. }
      rewrite ES in U, L. rewrite Z.abs_eq.
      * apply lt_IZR. apply Rmult_lt_reg_r with (bpow radix2 (k - prec + 1)); [assumption|].
        rewrite <- BB. lra.
      * apply Z.lt_succ_r, lt_IZR. rewrite succ_IZR.
        assert (0 <= IZR (m + 2 ^ (prec - 2 - k))); [|lra].
        apply Rmult_le_reg_r with (bpow radix2 (k - prec + 1)); [assumption|].
        rewrite <- ES, Rmult_0_l. lra.
Qed.

(** A tie between two integers with unit spacing. *)
Lemma tie m e : (2 ^ (prec - 1) <= m < 2 ^ prec)%Z -> (emin <= e)%Z ->
  rnd ((IZR m + 1/2) * bpow radix2 e) = IZR (if Z.even m then m else m + 1) * bpow radix2 e.
Proof.
  intros [A B] He.
  assert (A' : bpow radix2 (prec - 1) <= IZR m) by (rewrite <- IZR_pow by lia; now apply IZR_le).
  assert (B' : IZR m + 1 <= bpow radix2 prec).
  { rewrite <- IZR_pow by lia. replace (IZR m + 1) with (IZR (m + 1)) by (now rewrite plus_IZR).
    apply IZR_le. lia. }
  pose proof (bpow_gt_0 radix2 e) as P. pose proof (bpow_gt_0 radix2 (prec - 1)) as P'.
  assert (M : mag radix2 ((IZR m + 1/2) * bpow radix2 e) = (prec + e)%Z :> Z).
  { apply mag_unique_pos. replace (prec + e - 1)%Z with (prec - 1 + e)%Z by lia.
    rewrite !bpow_plus. split.
    - apply Rmult_le_compat_r; lra.
    - apply Rmult_lt_compat_r; lra. }
  unfold round, scaled_mantissa, cexp. rewrite M.
  replace (fmt (prec + e)%Z) with e by (unfold FLT_exp; lia).
  rewrite Rmult_assoc, <- bpow_plus. replace (e + - e)%Z with 0%Z by lia.
  simpl (bpow radix2 0). rewrite Rmult_1_r. unfold F2R; cbn [Fnum Fexp]. f_equal. f_equal.
  unfold Znearest. rewrite (Zfloor_imp m) by (rewrite plus_IZR; lra).
  replace (IZR m + 1/2 - IZR m) with (/ 2) by lra. rewrite Rcompare_Eq by reflexivity.
  destruct (Z.even m) eqn:E; cbn [negb]; [reflexivity|].
  apply Zceil_imp. rewrite plus_IZR. replace (m + 1 - 1)%Z with m by lia. lra.
Qed.

Lemma half_sum_next y : y = 1/2 - bpow radix2 (- prec - 1) -> rnd (y + 1/2) = 1.
Proof.
  intros ->.
  assert (P2 : (2 ^ prec = 2 * 2 ^ (prec - 1))%Z).
  { rewrite <- (Z.pow_succ_r 2) by lia. f_equal. lia. }
  assert (P1 : (0 < 2 ^ (prec - 1))%Z) by (apply Z.pow_pos_nonneg; lia).
  replace (1/2 - bpow radix2 (- prec - 1) + 1/2) with ((IZR (2 ^ prec - 1) + 1/2) * bpow radix2 (- prec)).
  - rewrite tie by lia. replace (Z.even (2 ^ prec - 1)) with false.
    + replace (2 ^ prec - 1 + 1)%Z with (2 ^ prec)%Z by lia. rewrite IZR_pow by lia.
      rewrite <- bpow_plus. replace (prec + - prec)%Z with 0%Z by lia. reflexivity.
    + rewrite P2, Z.even_sub, Z.even_mul. reflexivity.
  - rewrite minus_IZR, IZR_pow by lia.
    assert (bpow radix2 (- prec) = 2 * bpow radix2 (- prec - 1)).
    { rewrite (bp (- prec) 1). change (bpow radix2 1) with 2. ring. }
    assert (bpow radix2 prec * bpow radix2 (- prec) = 1).
    { rewrite <- bpow_plus. replace (prec + - prec)%Z with 0%Z by lia. reflexivity. }
    lra.
Qed.

Lemma half_sum_unit m : (2 ^ (prec - 1) <= m < 2 ^ prec)%Z ->
  rnd (IZR m + 1/2) = IZR (if Z.even m then m else m + 1).
Proof.
  intros H. pose proof (tie m 0 H ltac:(lia)) as E. simpl (bpow radix2 0) in E.
  now rewrite !Rmult_1_r in E.
Qed.

Lemma half_sum_large y : is_fl y -> bpow radix2 prec <= y -> rnd (y + 1/2) = y.
Proof.
  intros D B.
  assert (L : y <= rnd (y + 1/2)) by (rewrite <- (g_id y D) at 1; apply g_le; lra).
  destruct (round_N_pt radix2 fmt (fun x => negb (Z.even x)) (y + 1/2)) as [_ G].
  specialize (G y D). change (round radix2 fmt (Znearest (fun x => negb (Z.even x)))) with rnd in G.
  set (r := rnd (y + 1/2)) in *.
  assert (G' : Rabs (y - (y + 1/2)) = 1/2) by (replace (y - (y + 1/2)) with (- (1/2)) by ring; rewrite Rabs_Ropp, Rabs_pos_eq; lra).
  rewrite G' in G. apply Rabs_def2b in G || apply Rabs_le_inv in G.
  assert (Dr : is_fl r) by apply g_rnd.
  destruct (g_multiple y prec D B) as (m & E). destruct (g_multiple r prec Dr ltac:(lra)) as (k & Ek).
  replace (prec - prec + 1)%Z with 1%Z in E, Ek by lia. simpl in E, Ek.
  assert (k = m); [|subst; lra].
  assert (m <= k)%Z by (apply le_IZR; lra). assert (k < m + 1)%Z by (apply lt_IZR; rewrite plus_IZR; lra). lia.
Qed.

End Rnd.

(** ** The conversion *)

Lemma Btrunc_Rtrunc {prec emax} {Hp : Prec_gt_0 prec} {Hm : Prec_lt_emax prec emax}
    (x : binary_float prec emax) : Btrunc x = Rtrunc (B2R x).
Proof.
  pose proof (Btrunc_correct prec emax Hm x) as H. rewrite round_FIX_IZR in H. apply eq_IZR in H.
  rewrite H. unfold Rtrunc. destruct (Rle_dec 0 (B2R x)) as [L|L].
  - now rewrite Ztrunc_floor by assumption.
  - now rewrite Ztrunc_ceil by lra.
Qed.

Section Conversion.

Context (prec emax : Z) {Hprec : Prec_gt_0 prec} {Hmax : Prec_lt_emax prec emax}.
Context (Hp : (3 <= prec)%Z) (He : (64 <= emax)%Z).

Notation emin := (3 - emax - prec)%Z.
Notation fmt := (FLT_exp emin prec).
Notation rnd := (round radix2 fmt ZnearestE).
Notation num := (binary_float prec emax).

Lemma min_ok : (emin <= - prec - 1)%Z.
Proof. lia. Qed.

Lemma pe : (prec < emax)%Z.
Proof. exact Hmax. Qed.

(** Integers below [2^63] are converted with rounding only. *)
Lemma of_Z z : (Z.abs z < 2 ^ 63)%Z ->
  is_finite (ieee_of_Z prec emax z) = true /\ B2R (ieee_of_Z prec emax z) = rnd (IZR z).
Proof.
  intros H. pose proof (binary_normalize_correct prec emax Hprec Hmax mode_NE z 0 false) as C.
  cbv zeta in C. unfold F2R in C. cbn [Fnum Fexp] in C. simpl (bpow radix2 0) in C. rewrite Rmult_1_r in C.
  change (round_mode mode_NE) with ZnearestE in C. change (SpecFloat.fexp prec emax) with fmt in C.
  rewrite Rlt_bool_true in C.
  - destruct C as (A & B & _). now split.
  - apply Rle_lt_trans with (bpow radix2 63); [|apply bpow_lt; lia].
    apply abs_round_le_generic; [apply FLT_exp_valid; exact Hprec|apply valid_rnd_N| |].
    + apply generic_format_bpow. unfold FLT_exp. lia.
    + rewrite <- IZR_pow by lia. rewrite <- abs_IZR. apply IZR_le. lia.
Qed.

Lemma of_pow k : (0 <= k <= 62)%Z ->
  is_finite (ieee_of_Z prec emax (2 ^ k)) = true /\ B2R (ieee_of_Z prec emax (2 ^ k)) = bpow radix2 k.
Proof.
  intros H. assert (0 < 2 ^ k)%Z by (apply Z.pow_pos_nonneg; lia).
  assert (2 ^ k < 2 ^ 63)%Z by (apply Z.pow_lt_mono_r; lia).
  destruct (of_Z (2 ^ k)) as [A B]; [lia|]. split; [exact A|]. rewrite B, IZR_pow by lia.
  apply round_generic; [apply valid_rnd_N|]. apply generic_format_bpow. unfold FLT_exp. lia.
Qed.

Lemma half_val : is_finite (ieee_half prec emax) = true /\ B2R (ieee_half prec emax) = 1/2.
Proof.
  destruct (of_pow 0) as [A1 B1]; [lia|]. destruct (of_pow 1) as [A2 B2]; [lia|].
  change (2 ^ 0)%Z with 1%Z in *. change (2 ^ 1)%Z with 2%Z in *.
  unfold ieee_half. pose proof (Bdiv_correct prec emax Hprec Hmax mode_NE (ieee_of_Z prec emax 1) (ieee_of_Z prec emax 2)) as C.
  rewrite B1, B2 in C. change (round_mode mode_NE) with ZnearestE in C.
  change (SpecFloat.fexp prec emax) with fmt in C. change (bpow radix2 0) with 1 in C. change (bpow radix2 1) with 2 in C.
  assert (E : rnd (1 / 2) = bpow radix2 (-1)).
  { replace (1/2) with (bpow radix2 (-1)) by (simpl; lra).
    apply round_generic; [apply valid_rnd_N|]. apply generic_format_bpow. unfold FLT_exp. lia. }
  rewrite E in C. rewrite Rlt_bool_true in C.
  - destruct C as (X & Y & _); [lra|]. rewrite X, Y. split; [exact A1|simpl; lra].
  - rewrite Rabs_pos_eq by apply bpow_ge_0. apply bpow_lt. lia.
Qed.

Lemma overflow_inf (x : num) s : B2SF x = binary_overflow prec emax mode_NE s -> x = B754_infinity s.
Proof.
  unfold binary_overflow. cbn. destruct x; cbn; try discriminate. intros H. now injection H as ->.
Qed.

Lemma inf_plus s (h : num) : is_finite h = true -> Bplus mode_NE (B754_infinity s) h = B754_infinity s.
Proof. destruct h; try discriminate; reflexivity. Qed.

(** ** Nonnegative scaled values *)

Lemma large_format y : generic_format radix2 fmt y -> bpow radix2 (prec - 1) <= y -> exists m, y = IZR m.
Proof. apply g_large. Qed.

Lemma trunc_pos y : generic_format radix2 fmt y -> 0 <= y ->
  converted_pos prec y (Rtrunc (rnd (y + 1/2))).
Proof.
  intros D Y. unfold converted_pos.
  pose proof (bpow_gt_0 radix2 (- prec - 1)) as PP.
  assert (B1 : bpow radix2 1 <= bpow radix2 (prec - 1)) by (apply bpow_le; lia). change (bpow radix2 1) with 2 in B1.
  assert (B2 : bpow radix2 (prec - 1) < bpow radix2 prec) by (apply bpow_lt; lia).
  repeat split.
  - destruct (Rtrunc_pos (y + 1/2)) as [T T0]; [lra|]. set (n := Rtrunc (y + 1/2)) in *.
    pose proof (half_sum prec emin Hp min_ok y n D (conj Y H) T H0) as F.
    assert (E : Rtrunc (rnd (y + 1/2)) = n).
    { unfold Rtrunc. apply IZR_le in T0. destruct (Rle_dec 0 (rnd (y + 1/2))); [|lra]. now apply Int_part_spec. }
    rewrite E. lra.
  - destruct (Rtrunc_pos (y + 1/2)) as [T T0]; [lra|]. set (n := Rtrunc (y + 1/2)) in *.
    pose proof (half_sum prec emin Hp min_ok y n D (conj Y H) T H0) as F.
    assert (E : Rtrunc (rnd (y + 1/2)) = n).
    { unfold Rtrunc. apply IZR_le in T0. destruct (Rle_dec 0 (rnd (y + 1/2))); [|lra]. now apply Int_part_spec. }
    rewrite E. lra.
  - intros H. rewrite (half_sum_next prec emin Hp min_ok y H). unfold Rtrunc.
    destruct (Rle_dec 0 1); [|lra]. apply Int_part_spec. lra.
  - destruct (large_format y D ltac:(lra)) as (m & ->).
    rewrite half_sum_unit; [|exact Hp|exact min_ok|].
    + unfold Rtrunc. destruct (Rle_dec 0 _) as [L|L].
      * rewrite (Int_part_spec _ (if Z.even m then m else m + 1)%Z) by lra.
        destruct (Z.even m) eqn:E; [exact E|]. rewrite Z.even_add, E. reflexivity.
      * exfalso. apply L. destruct (Z.even m); [lra|rewrite plus_IZR; lra].
    + split; [apply le_IZR|apply lt_IZR]; rewrite IZR_pow by lia; lra.
  - destruct (large_format y D ltac:(lra)) as (m & ->).
    rewrite half_sum_unit; [|exact Hp|exact min_ok|].
    + unfold Rtrunc. destruct (Rle_dec 0 _) as [L|L].
      * rewrite (Int_part_spec _ (if Z.even m then m else m + 1)%Z) by lra.
        destruct (Z.even m) eqn:E; [now left|]. right. now rewrite plus_IZR.
      * exfalso. apply L. destruct (Z.even m); [lra|rewrite plus_IZR; lra].
    + split; [apply le_IZR|apply lt_IZR]; rewrite IZR_pow by lia; lra.
  - intros H. rewrite (half_sum_large prec emin y D H).
    destruct (large_format y D ltac:(lra)) as (m & ->). unfold Rtrunc.
    destruct (Rle_dec 0 _) as [L|L]; [|lra]. now rewrite (Int_part_spec _ m) by lra.
Qed.

Lemma product c (x : num) : supported c -> is_finite x = true ->
  let y := bpow radix2 (fx_F c) * B2R x in
  generic_format radix2 fmt y /\
  ((Rabs y < bpow radix2 emax /\
    is_finite (Bmult mode_NE (ieee_of_Z prec emax (2 ^ fx_F c)) x) = true /\
    B2R (Bmult mode_NE (ieee_of_Z prec emax (2 ^ fx_F c)) x) = y) \/
   (bpow radix2 emax <= Rabs y /\
    exists s, Bmult mode_NE (ieee_of_Z prec emax (2 ^ fx_F c)) x = B754_infinity s)).
Proof.
  intros S Fx y. pose proof (sup_F c S) as HF. pose proof (sup_w c S) as Hw.
  destruct (of_pow (fx_F c)) as [A B]; [lia|].
  assert (D : generic_format radix2 fmt y).
  { unfold y. rewrite Rmult_comm. apply mult_bpow_pos_exact_FLT; [|lia].
    apply (generic_format_B2R prec emax). }
  split; [exact D|].
  pose proof (Bmult_correct prec emax Hprec Hmax mode_NE (ieee_of_Z prec emax (2 ^ fx_F c)) x) as C.
  rewrite B in C. change (round_mode mode_NE) with ZnearestE in C.
  change (SpecFloat.fexp prec emax) with fmt in C. fold y in C.
  rewrite (round_generic radix2 fmt ZnearestE y D) in C.
  destruct (Rlt_bool_spec (Rabs y) (bpow radix2 emax)) as [L|L].
  - left. destruct C as (C1 & C2 & _). rewrite A, Fx in C2. split; [exact L|]. now split.
  - right. split; [exact L|]. eexists. apply overflow_inf. exact C.
Qed.

(** The scaled value with its sign: negative values are converted like positive ones. *)
Definition conv (y : R) : Z :=
  if Rle_dec 0 y then Rtrunc (rnd (y + 1/2)) else (- Rtrunc (rnd (- y + 1/2)))%Z.

Lemma of_ieee_finite c (x : num) : supported c -> is_finite x = true ->
  fx_of_ieee prec emax c x = chk (fx_w c) (conv (bpow radix2 (fx_F c) * B2R x)).
Proof.
  intros S Fx. pose proof (sup_F c S) as HF. pose proof (sup_w c S) as Hw.
  unfold fx_of_ieee. rewrite power2_F by assumption. rewrite bind_Ok.
  destruct (product c x S Fx) as (D & P). set (y := bpow radix2 (fx_F c) * B2R x) in *. cbv zeta in D, P.
  set (m := Bmult mode_NE (ieee_of_Z prec emax (2 ^ fx_F c)) x) in *.
  destruct half_val as [Fh Vh].
  rewrite (Bleb_correct prec emax (B754_zero false) x eq_refl Fx). cbn [B2R].
  set (h := if Rle_bool 0 (B2R x) then _ else _).
  assert (Hh : is_finite h = true /\ B2R h = if Rle_dec 0 y then 1/2 else - (1/2)).
  { unfold h. pose proof (bpow_gt_0 radix2 (fx_F c)) as Q.
    destruct (Rle_bool_spec 0 (B2R x)) as [L|L], (Rle_dec 0 y) as [M|M].
    - now split.
    - exfalso. apply M. unfold y. apply Rmult_le_pos; lra.
    - exfalso. unfold y in M. assert (0 < bpow radix2 (fx_F c) * - B2R x) by (apply Rmult_lt_0_compat; lra). lra.
    - rewrite is_finite_Bopp, B2R_Bopp. split; [exact Fh|]. rewrite Vh. lra. }
  destruct Hh as [Hf Hv].
  assert (Main : conv y = Rtrunc (rnd (y + (if Rle_dec 0 y then 1/2 else - (1/2))))).
  { unfold conv. destruct (Rle_dec 0 y); [reflexivity|].
    rewrite <- Rtrunc_opp. f_equal. rewrite <- round_NE_opp. f_equal. lra. }
  assert (Big : bpow radix2 33 <= Rabs y -> bpow radix2 32 <= Rabs (IZR (conv y))).
  { intros Y. assert (X : forall v, bpow radix2 33 <= v -> bpow radix2 32 <= IZR (Rtrunc (rnd (v + 1/2)))).
    { intros v V. assert (W : bpow radix2 33 <= rnd (v + 1/2)).
      { rewrite <- (round_generic radix2 fmt ZnearestE (bpow radix2 33)) at 1.
        - apply round_le; [apply FLT_exp_valid; exact Hprec|apply valid_rnd_N|lra].
        - apply generic_format_bpow. unfold FLT_exp. lia. }
      assert (bpow radix2 32 + 1 <= bpow radix2 33) by (simpl; lra).
      destruct (Rtrunc_pos (rnd (v + 1/2))) as [T _]; [pose proof (bpow_ge_0 radix2 33); lra|]. lra. }
    unfold conv. destruct (Rle_dec 0 y) as [L|L].
    - rewrite Rabs_pos_eq in Y by exact L. pose proof (X y Y).
      rewrite Rabs_pos_eq; [assumption|]. pose proof (bpow_ge_0 radix2 32); lra.
    - rewrite Rabs_left in Y by lra. pose proof (X (- y) Y).
      rewrite opp_IZR, Rabs_Ropp, Rabs_pos_eq; [assumption|]. pose proof (bpow_ge_0 radix2 32); lra. }
  assert (Out : bpow radix2 33 <= Rabs y -> chk (fx_w c) (conv y) = Err SignedOverflow).
  { intros Y. apply chk_out. intros I. apply Big in Y. rewrite <- abs_IZR, <- IZR_pow in Y by lia.
    apply le_IZR in Y. assert (2 ^ (fx_w c - 1) <= 2 ^ 31)%Z by (apply Z.pow_le_mono_r; lia). lia. }
  destruct P as [(Ly & Fm & Vm)|(Ly & s & ->)].
  - pose proof (Bplus_correct prec emax Hprec Hmax mode_NE m h Fm Hf) as C.
    change (round_mode mode_NE) with ZnearestE in C. change (SpecFloat.fexp prec emax) with fmt in C.
    rewrite Vm, Hv in C.
    destruct (Rlt_bool_spec (Rabs (rnd (y + (if Rle_dec 0 y then 1/2 else - (1/2))))) (bpow radix2 emax)) as [L|L].
    + destruct C as (C1 & C2 & _). rewrite Main, <- C1.
      rewrite <- Btrunc_Rtrunc. destruct (Bplus mode_NE m h); try discriminate; reflexivity.
    + destruct C as (C1 & _). apply overflow_inf in C1. rewrite C1. cbn [ieee_to_int]. symmetry. apply Out.
      destruct (Rle_lt_dec (bpow radix2 33) (Rabs y)) as [Q|Q]; [exact Q|]. exfalso.
      apply (Rlt_irrefl (bpow radix2 emax)). eapply Rle_lt_trans; [exact L|].
      apply Rle_lt_trans with (bpow radix2 34); [|apply bpow_lt; lia].
      apply abs_round_le_generic; [apply FLT_exp_valid; exact Hprec|apply valid_rnd_N| |].
      * apply generic_format_bpow. unfold FLT_exp. lia.
      * eapply Rle_trans; [apply Rabs_triang|].
        assert (Rabs (if Rle_dec 0 y then 1/2 else - (1/2)) = 1/2).
        { destruct (Rle_dec 0 y); [|rewrite Rabs_Ropp]; apply Rabs_pos_eq; lra. }
        rewrite H. assert (bpow radix2 33 + 1/2 <= bpow radix2 34) by (simpl; lra). lra.
  - rewrite inf_plus by exact Hf. cbn [ieee_to_int]. symmetry. apply Out.
    eapply Rle_trans; [|exact Ly]. apply bpow_le. lia.
Qed.

Lemma of_ieee_not_finite c (x : num) : supported c -> is_finite x = false ->
  fx_of_ieee prec emax c x = Err SignedOverflow.
Proof.
  intros S Fx. pose proof (sup_F c S) as HF. pose proof (sup_w c S) as Hw.
  unfold fx_of_ieee. rewrite power2_F by assumption. rewrite bind_Ok.
  destruct (of_pow (fx_F c)) as [A B]; [lia|]. destruct half_val as [Fh _].
  set (p := ieee_of_Z prec emax (2 ^ fx_F c)) in *.
  assert (Hh : is_finite (if Bleb (B754_zero false) x then ieee_half prec emax else Bopp (ieee_half prec emax)) = true).
  { destruct (Bleb _ _); [exact Fh|now rewrite is_finite_Bopp]. }
  set (h := if Bleb (B754_zero false) x then _ else _) in *. clearbody h.
  assert (Hm : Bmult mode_NE p x = B754_nan \/ exists s, Bmult mode_NE p x = B754_infinity s).
  { destruct x; try discriminate.
    - right. destruct p as [|s'| |s' m e Hb]; cbn [B2R] in B; try discriminate.
      + pose proof (bpow_gt_0 radix2 (fx_F c)). lra.
      + eexists; reflexivity.
    - left. destruct p; reflexivity. }
  destruct Hm as [->|(s & ->)].
  - destruct h; reflexivity.
  - rewrite inf_plus by exact Hh. reflexivity.
Qed.

Lemma conv_pos y : generic_format radix2 fmt y -> 0 <= y -> converted_pos prec y (conv y).
Proof. intros D Y. unfold conv. destruct (Rle_dec 0 y); [|contradiction]. now apply trunc_pos. Qed.

Lemma conv_neg y : generic_format radix2 fmt y -> y < 0 -> converted_pos prec (- y) (- conv y).
Proof.
  intros D Y. unfold conv. destruct (Rle_dec 0 y); [lra|]. rewrite Z.opp_involutive.
  apply trunc_pos; [now apply generic_format_opp|lra].
Qed.

(** ** The other direction *)

Lemma as_ieee c a : supported c -> in_range c a ->
  exists f, fx_as_ieee prec emax c a = Ok f /\ is_finite f = true /\
    B2R f = rnd (IZR a) / IZR (2 ^ fx_F c).
Proof.
  intros S A. pose proof (sup_F c S) as HF. pose proof (sup_w c S) as Hw.
  unfold fx_as_ieee. rewrite power2_F by assumption. rewrite bind_Ok. eexists. split; [reflexivity|].
  unfold fx_rep. destruct (of_pow (fx_F c)) as [Fp Vp]; [lia|].
  red in A. assert (A31 : (2 ^ (fx_w c - 1) <= 2 ^ 31)%Z) by (apply Z.pow_le_mono_r; lia).
  destruct (of_Z a) as [Fa Va]; [lia|].
  pose proof (Bdiv_correct prec emax Hprec Hmax mode_NE (ieee_of_Z prec emax a) (ieee_of_Z prec emax (2 ^ fx_F c))) as C.
  rewrite Va, Vp in C. change (round_mode mode_NE) with ZnearestE in C.
  change (SpecFloat.fexp prec emax) with fmt in C.
  rewrite IZR_pow by lia. pose proof (bpow_gt_0 radix2 (fx_F c)) as Q.
  set (r := rnd (IZR a)) in *.
  assert (Dr : generic_format radix2 fmt r) by (apply generic_format_round; [apply FLT_exp_valid; exact Hprec|apply valid_rnd_N]).
  assert (Br : Rabs r <= bpow radix2 31).
  { apply abs_round_le_generic; [apply FLT_exp_valid; exact Hprec|apply valid_rnd_N| |].
    - apply generic_format_bpow. unfold FLT_exp. lia.
    - rewrite <- IZR_pow by lia. rewrite <- abs_IZR. apply IZR_le. lia. }
  assert (Eq : r / bpow radix2 (fx_F c) = r * bpow radix2 (- fx_F c)) by (rewrite bpow_opp; reflexivity).
  assert (Dq : generic_format radix2 fmt (r / bpow radix2 (fx_F c))).
  { rewrite Eq. destruct (Z.eq_dec a 0) as [->|Na].
    - unfold r. rewrite round_0 by apply valid_rnd_N. rewrite Rmult_0_l. apply generic_format_0.
    - apply mult_bpow_exact_FLT; [exact Dr|].
      assert (1 <= mag radix2 r)%Z; [|lia].
      apply mag_ge_bpow. replace (1 - 1)%Z with 0%Z by lia.
      apply abs_round_ge_generic; [apply FLT_exp_valid; exact Hprec|apply valid_rnd_N| |].
      + apply generic_format_bpow. unfold FLT_exp. lia.
      + simpl (bpow radix2 0). rewrite <- abs_IZR. apply IZR_le. lia. }
  rewrite (round_generic radix2 fmt ZnearestE _ Dq) in C. rewrite Rlt_bool_true in C.
  - destruct C as (C1 & C2 & _); [lra|]. rewrite C1, C2. now split.
  - apply Rle_lt_trans with (bpow radix2 31); [|apply bpow_lt; lia].
    rewrite Eq, Rabs_mult, (Rabs_pos_eq (bpow radix2 _)) by apply bpow_ge_0.
    assert (bpow radix2 (- fx_F c) <= 1) by (change 1 with (bpow radix2 0); apply bpow_le; lia).
    rewrite <- (Rmult_1_r (bpow radix2 31)). apply Rmult_le_compat; try assumption; [apply Rabs_pos|apply bpow_ge_0].
Qed.

End Conversion.
