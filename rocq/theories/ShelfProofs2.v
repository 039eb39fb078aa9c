(** * Lemmas about shelf and peak designs with rounding, continued: the factor, the ranges *)

From Coq Require Import ZArith Reals Lra Lia List.
From Flocq Require Import Core Relative Plus_error Mult_error BinarySingleNaN.
From Verif Require Import Base Scalars Ieee RoundingSpec IeeeProofs Biquad BiquadSpec BiquadProofs Design DesignIeee DesignRoundingSpec DesignRoundingProofs DesignRoundingProofs2 ShelfIeee ShelfSpec ShelfProofs.
Import ListNotations.
Local Open Scope R_scope.

Lemma ln10_le : 0 < ln 10 <= 5 / 2.
Proof.
  split; [rewrite <- ln_1; apply ln_increasing; lra|].
  assert (H : 10 <= exp (5 / 2)).
  { replace (5 / 2) with (5 / 4 + 5 / 4) by field. rewrite exp_plus. replace (5 / 4) with (5 / 8 + 5 / 8) by field. rewrite exp_plus.
    replace (5 / 8) with (5 / 16 + 5 / 16) by field. rewrite exp_plus. replace (5 / 16) with (5 / 32 + 5 / 32) by field. rewrite exp_plus.
    pose proof (exp_ineq1_le (5 / 32)) as L. set (x := exp (5 / 32)) in *.
    assert (A1 : 13369 / 10000 <= x * x) by nra. set (x1 := x * x) in *.
    assert (A2 : 1787 / 1000 <= x1 * x1) by nra. set (x2 := x1 * x1) in *.
    assert (A3 : 319 / 100 <= x2 * x2) by nra. set (x3 := x2 * x2) in *. nra. }
  rewrite <- (ln_exp (5 / 2)). destruct H as [H|H]; [left; apply ln_increasing; lra|rewrite H; lra].
Qed.

Section Generic.

Context (prec emax : Z) {Hprec : Prec_gt_0 prec} {Hmax : Prec_lt_emax prec emax}.
Context (P24 : (24 <= prec)%Z) (E128 : (128 <= emax)%Z).
Notation emin := (3 - emax - prec)%Z.
Notation fmt := (FLT_exp emin prec).
Notation rnd := (round radix2 fmt ZnearestE).
Notation u := (bpow radix2 (- prec)).
Notation T := (binary_float prec emax).
Notation near := (near (vv prec)).
Local Notation int z := (ieee_of_Z prec emax z).

(** ** The factor of a gain *)

Lemma power_shift x y : 0 <= y <= 4 -> Rabs (x - y) <= (4 + 1 / 4) * u -> near 11 (Rpower 10 x) (Rpower 10 y).
Proof.
  intros Y H. pose proof ln10_le as L. pose proof (u_small prec P24) as U. pose proof (u_vv prec P24) as UV. pose proof (vv_pos prec P24) as V.
  assert (G : forall t, Rabs t <= (4 + 1 / 4) * u -> Rpower 10 t <= (1 + vv prec) ^ 11).
  { intros t Ht. unfold Rpower. set (z := t * ln 10).
    assert (Z : Rabs z <= 425 / 40 * u).
    { unfold z. rewrite Rabs_mult, (Rabs_pos_eq (ln 10)) by lra. replace (425 / 40 * u) with ((4 + 1 / 4) * u * (5 / 2)) by field.
      apply Rmult_le_compat; try lra. apply Rabs_pos. }
    apply Rabs_le_inv in Z.
    assert (I : exp z * (1 - z) <= 1).
    { pose proof (exp_ineq1_le (- z)) as I. assert (E : exp z * exp (- z) = 1) by (rewrite <- exp_plus; replace (z + - z) with 0 by ring; apply exp_0).
      rewrite <- E. apply Rmult_le_compat_l; [left; apply exp_pos|lra]. }
    assert (P : 1 + 11 * u <= (1 + vv prec) ^ 11).
    { apply Rle_trans with ((1 + u) ^ 11); [|apply pow_incr; lra].
      assert (B : forall n, 1 + INR n * u <= (1 + u) ^ n).
      { induction n as [|n IH]; [cbn; lra|]. cbn [pow]. rewrite S_INR. assert (0 <= INR n * u) by (apply Rmult_le_pos; [apply pos_INR|lra]). nra. }
      specialize (B 11%nat). replace (INR 11) with 11 in B by (cbn; ring). exact B. }
    eapply Rle_trans; [|exact P]. apply Rmult_le_reg_r with (1 - z); [lra|]. eapply Rle_trans; [exact I|]. nra. }
  assert (PP : forall t, 0 < Rpower 10 t) by (intros; apply exp_pos).
  split; [apply PP|]. split.
  - replace y with (x + (y - x)) at 1 by ring. rewrite Rpower_plus. apply Rmult_le_compat_l; [left; apply PP|]. apply G. rewrite Rabs_minus_sym. exact H.
  - replace x with (y + (x - y)) at 1 by ring. rewrite Rpower_plus. apply Rmult_le_compat_l; [left; apply PP|]. apply G. exact H.
Qed.

Context (powT : T -> T -> T) (POW : pow_ok prec emax powT).

Lemma factor_near (g : T) : is_finite g = true -> Rabs (B2R g) <= 40 ->
  let V := ieee_dbV_factor prec emax powT g in
  is_finite V = true /\ near 17 (B2R V) (factor (B2R g)).
Proof.
  intros Fg Rg V. unfold V, ieee_dbV_factor, ieee_dbP_factor. pose proof (u_small prec P24) as U.
  destruct (int_exact prec emax P24 E128 10 ltac:(lia)) as [E10 F10]. destruct (int_exact prec emax P24 E128 2 ltac:(lia)) as [E2 F2].
  assert (FA : is_finite (Babs g) = true) by (rewrite is_finite_Babs; exact Fg).
  set (y := Rabs (B2R g) / 10). pose proof (Rabs_pos (B2R g)) as GP. assert (Y : 0 <= y <= 4) by (unfold y; lra).
  pose proof (Bdiv_correct prec emax Hprec Hmax mode_NE (Babs g) (int 10) ltac:(rewrite E10; lra)) as C.
  change (round_mode mode_NE) with ZnearestE in C. change (SpecFloat.fexp prec emax) with fmt in C. rewrite B2R_Babs, E10 in C. fold y in C.
  rewrite (@rnd_bound prec emax Hprec Hmax) in C.
  2:{ apply (big_max prec emax P24). rewrite Rabs_pos_eq by lra. apply Rle_trans with (bpow radix2 2); [cbn; lra|apply bpow_le; lia]. }
  destruct C as (C1 & C2 & _). rewrite FA in C2. set (x := Bdiv mode_NE (Babs g) (int 10)) in *.
  assert (X : Rabs (B2R x - y) <= (4 + 1 / 4) * u).
  { rewrite C1. eapply Rle_trans; [apply (@mult_err prec emax Hprec)|]. rewrite (Rabs_pos_eq y) by lra.
    assert (B : bpow radix2 (emin - 1) <= / 4 * u).
    { change (/ 4) with (bpow radix2 (-2)). rewrite <- bpow_plus. apply bpow_le. lia. }
    assert (u * y <= u * 4) by (apply Rmult_le_compat_l; lra). lra. }
  assert (X0 : 0 <= B2R x).
  { rewrite C1. rewrite <- (round_0 radix2 fmt ZnearestE). apply round_le; [apply FLT_exp_valid; exact Hprec|apply valid_rnd_N|lra]. }
  pose proof (power_shift _ _ Y X) as NP. apply Rabs_le_inv in X.
  destruct (POW (int 10) x F10 C2 E10 ltac:(lra)) as [FP EP].
  assert (N1 : near (4 + 1) (B2R (powT (int 10) x)) (Rpower 10 (B2R x))).
  { apply near_rel; [exact P24|lia|apply exp_pos|]. replace (INR 4) with 4 by (cbn; ring). exact EP. }
  pose proof (near_trans _ (vv_pos prec P24) _ _ _ _ _ N1 NP) as N2. cbn [Nat.add] in N2.
  assert (PB : 1 <= Rpower 10 y <= 10000).
  { split; [rewrite <- (Rpower_O 10) by lra; apply Rle_Rpower; lra|].
    replace 10000 with (Rpower 10 4). { apply Rle_Rpower; lra. }
    replace 4 with (INR 4) by (cbn; ring). rewrite Rpower_pow by lra. cbn. ring. }
  destruct (div_near prec emax P24 16 0 (powT (int 10) x) (int 2) (Rpower 10 y) 2) as [FD ND]; auto; try lia.
  { rewrite E2. apply near_refl. lra. }
  { apply Rle_trans with (/ 2); [change (/ 2) with (bpow radix2 (-1)); apply bpow_le; lia|lra]. }
  { apply Rle_trans with (bpow radix2 13); [cbn; lra|apply bpow_le; lia]. }
Qed.

Lemma factor_bounds g G vm : Rabs g <= G -> Rpower 10 (G / 10) <= 2 * vm -> 1 / 2 <= factor g <= vm.
Proof.
  intros H L. unfold factor. pose proof (Rabs_pos g). assert (1 <= Rpower 10 (Rabs g / 10)) by (rewrite <- (Rpower_O 10) by lra; apply Rle_Rpower; lra).
  assert (Rpower 10 (Rabs g / 10) <= Rpower 10 (G / 10)) by (apply Rle_Rpower; lra). lra.
Qed.
(** The computed factor. *)
Lemma V_bounds (g : T) G vm : is_finite g = true -> Rabs (B2R g) <= G -> G <= 40 -> Rpower 10 (G / 10) <= 2 * vm ->
  let V := ieee_dbV_factor prec emax powT g in is_finite V = true /\ 49 / 100 <= B2R V <= vm * (1 + / 1000).
Proof.
  intros Fg Rg G40 L V. destruct (factor_near g Fg ltac:(lra)) as [FV NV]. fold V in FV, NV. split; [exact FV|].
  pose proof (factor_bounds _ _ _ Rg L) as B. pose proof (near_abs _ (vv_pos prec P24) _ _ _ NV) as A.
  pose proof (pow_bound prec P24 17 ltac:(lia)) as PB. replace (INR 17) with 17 in PB by (cbn; ring). pose proof (u_small prec P24) as U.
  assert (A2 : Rabs (B2R V - factor (B2R g)) <= / 1000 * factor (B2R g)).
  { eapply Rle_trans; [exact A|]. apply Rmult_le_compat_r; lra. }
  apply Rabs_le_inv in A2. lra.
Qed.

Lemma boosts_sign (g : T) : is_finite g = true -> ieee_boosts prec emax g = true <-> 0 <= B2R g.
Proof.
  intros Fg. unfold ieee_boosts. destruct (int_exact prec emax P24 E128 0 ltac:(lia)) as [E0 F0].
  rewrite (Bcompare_correct prec emax g (int 0) Fg F0), E0. pose proof (Rcompare_spec (B2R g) 0) as C.
  destruct C as [C|C|C]; split; intros H; try reflexivity; try discriminate; lra.
Qed.

End Generic.

(** ** The design over the reals *)
Lemma real_gain_design r g f fs q boost : 0 < f -> f < fs / 2 -> 0 < q -> (boost = true <-> 0 <= g) ->
  let k := tan (PI * f / fs) in let n := upper boost r (factor g) k q in let d := lower boost r (factor g) k q in
  biquad_design (gain_kind r) g f fs q =
  Ok {| bc_b := {| b0 := total n / total d; b1 := middle n / total d; b2 := last n / total d |};
        bc_a := {| a1 := middle d / total d; a2 := last d / total d |} |}.
Proof.
  intros Hf Hfs HQ HB k n d. pose proof PI_RGT_0 as P.
  assert (X : 0 < PI * f / fs < PI / 2).
  { split; [apply Rdiv_lt_0_compat; nra|]. apply Rmult_lt_reg_r with fs; [lra|]. unfold Rdiv. rewrite Rmult_assoc, Rinv_l by lra. nra. }
  assert (C : 0 < cos (PI * f / fs)) by (apply cos_gt_0; lra). pose proof (tan_pos _ X) as T. fold k in T.
  assert (PW : prewarp f fs = Ok k).
  { unfold prewarp, rdiv. destruct (Req_EM_T fs 0); [lra|]. cbn [bind]. unfold rtan, rdiv. destruct (Req_EM_T (cos (PI * f / fs)) 0); [lra|]. reflexivity. }
  change (factor g) with (dbV_factor g) in *. assert (VP : 0 < dbV_factor g).
  { unfold dbV_factor, dbP_factor, Rpower. pose proof (exp_pos (Rabs g / 10 * ln 10)). lra. }
  unfold n, d. set (v := dbV_factor g) in *. assert (KK : 0 < k * k) by nra.
  assert (S2 : 0 < sqrt 2) by (apply sqrt_lt_R0; lra). assert (S2V : 0 < sqrt (2 * v)) by (apply sqrt_lt_R0; lra).
  assert (KQ : 0 < k / q) by (apply Rdiv_lt_0_compat; lra). assert (SK : 0 < sqrt 2 * k) by (apply Rmult_lt_0_compat; lra).
  assert (SVK : 0 < sqrt (2 * v) * k) by (apply Rmult_lt_0_compat; lra). assert (VKK : 0 < v * (k * k)) by (apply Rmult_lt_0_compat; lra).
  assert (VKQ : 0 < v * (k / q)) by (apply Rmult_lt_0_compat; lra).
  assert (EQ1 : 1 / q * k = k / q) by (unfold Rdiv; ring). assert (EQ2 : v / q * k = v * (k / q)) by (unfold Rdiv; ring).
  assert (EQ3 : v * k * k = v * (k * k)) by ring.
  assert (RD : forall x y, y <> 0 -> rdiv x y = Ok (x / y)) by (intros x y Hy; unfold rdiv; destruct (Req_EM_T y 0); [contradiction|reflexivity]).
  assert (BS : (if Rge_dec g 0 then true else false) = boost).
  { destruct (Rge_dec g 0) as [G|G], boost; try reflexivity; [symmetry; apply HB; lra|]. exfalso. apply G, Rle_ge, HB. reflexivity. }
  destruct r; cbn [gain_kind biquad_design]; unfold design_low_shelf, design_high_shelf, design_peak_band_eq; fold v; rewrite PW; cbn [bind];
    rewrite ?(RD 1 q) by lra; cbn [bind]; rewrite ?(RD v q) by lra; cbn [bind]; destruct (Rge_dec g 0), boost; try discriminate BS;
    rewrite ?EQ1, ?EQ2, ?EQ3; rewrite RD by lra; cbn [bind]; unfold coeffs, upper, lower, plain, gained, total, middle, last; cbn [p0 p1 p2];
    do 2 f_equal; f_equal; unfold Rdiv; ring.
Qed.

(** ** When the rounding errors are small enough *)
Lemma resolved3_range prec kap qm vm k q v boost r : (24 <= prec)%Z -> 0 < kap -> kap <= k <= 33 -> 1 / 2 <= q <= qm -> 49 / 100 <= v <= vm -> 1 <= vm ->
  13 * bpow radix2 (- prec) * (41 / 10 * vm) * 1156 < 1 ->
  13 * bpow radix2 (- prec) * (41 / 10 * vm) * ((1 + / kap) * (1 + / kap)) < 1 ->
  9 * bpow radix2 (- prec) * (41 / 10 * vm) * 34 * qm * (1 + / kap) < 1 ->
  resolved3 prec (lower boost r v k q).
Proof.
  intros P24 Hk Rk Rq Rv V1 G0 G1 G2. pose proof (u_small prec P24) as U. set (u := bpow radix2 (- prec)) in *.
  assert (IK : 0 < / kap) by (apply Rinv_0_lt_compat; lra).
  assert (QQ : / q <= 2) by (replace 2 with (/ (1 / 2)) by field; apply Rinv_le; lra).
  assert (IQ : 0 < / q) by (apply Rinv_0_lt_compat; lra).
  assert (KQ : 0 < k / q <= 2 * k).
  { unfold Rdiv. split; [apply Rmult_lt_0_compat; lra|]. rewrite Rmult_comm. apply Rmult_le_compat_r; lra. }
  assert (S2 : 98 / 100 <= sqrt 2 <= 2).
  { split; [rewrite <- (sqrt_square (98 / 100)) by lra; apply sqrt_le_1_alt; lra|]. rewrite <- (sqrt_square 2) at 2 by lra. apply sqrt_le_1_alt; lra. }
  assert (SV : 98 / 100 <= sqrt (2 * v) <= 2 * vm).
  { split; [rewrite <- (sqrt_square (98 / 100)) by lra; apply sqrt_le_1_alt; lra|]. rewrite <- (sqrt_square (2 * vm)) by lra. apply sqrt_le_1_alt; nra. }
  assert (KK : 0 < k * k) by nra. set (w := 1 + / kap) in *.
  assert (K1 : 1 + k <= w * k).
  { unfold w. assert (/ kap * kap <= / kap * k) by (apply Rmult_le_compat_l; lra). rewrite Rinv_l in H by lra. lra. }
  assert (SK : 98 / 100 * k <= sqrt 2 * k <= 2 * k) by (split; apply Rmult_le_compat_r; lra).
  assert (SVK : 98 / 100 * k <= sqrt (2 * v) * k <= 2 * vm * k) by (split; apply Rmult_le_compat_r; lra).
  assert (VKQ : 49 / 100 * (k / q) <= v * (k / q) <= vm * (2 * k)).
  { split; [apply Rmult_le_compat_r; lra|]. apply Rmult_le_compat; lra. }
  assert (VKK : 49 / 100 * (k * k) <= v * (k * k) <= vm * (k * k)) by (split; apply Rmult_le_compat_r; lra).
  assert (VK : 1 * k <= vm * k) by (apply Rmult_le_compat_r; lra).
  assert (VK2 : 1 * (k * k) <= vm * (k * k)) by (apply Rmult_le_compat_r; lra).
  set (d := lower boost r v k q).
  assert (F : total d <= 2 * vm * ((1 + k) * (1 + k)) /\ 49 / 100 <= p0 d /\ 49 / 100 * (k / q) <= p1 d /\ 49 / 100 * (k * k) <= p2 d).
  { unfold d, lower, total. destruct boost, r; cbn [plain gained p0 p1 p2]; repeat split; lra. }
  destruct F as (F & F0 & F1 & F2). set (W := 1 + k) in *. assert (W34 : 1 <= W <= 34) by (unfold W; lra).
  assert (WW : W * W <= 1156) by nra. assert (VW : 0 <= 2 * vm) by lra.
  assert (DP : forall c, 0 <= c -> c * u * total d <= c * u * (2 * vm * (W * W))).
  { intros c Hc. apply Rmult_le_compat_l; [apply Rmult_le_pos; lra|exact F]. }
  unfold resolved3. cbv zeta. fold u. repeat split.
  - eapply Rle_lt_trans; [apply DP; lra|]. eapply Rlt_le_trans; [|exact F0].
    apply Rle_lt_trans with (13 * u * (2 * vm * 1156)); [apply Rmult_le_compat_l; [lra|]; apply Rmult_le_compat_l; lra|].
    replace (13 * u * (2 * vm * 1156)) with (20 / 41 * (13 * u * (41 / 10 * vm) * 1156)) by field. lra.
  - eapply Rle_lt_trans; [apply DP; lra|]. eapply Rlt_le_trans; [|exact F2].
    apply Rle_lt_trans with (20 / 41 * (13 * u * (41 / 10 * vm) * (w * w)) * (k * k)).
    + replace (20 / 41 * (13 * u * (41 / 10 * vm) * (w * w)) * (k * k)) with (13 * u * (2 * vm * ((w * k) * (w * k)))) by field.
      apply Rmult_le_compat_l; [lra|]. apply Rmult_le_compat_l; [lra|]. apply Rmult_le_compat; lra.
    + apply Rmult_lt_compat_r; lra.
  - eapply Rle_lt_trans; [apply DP; lra|]. eapply Rlt_le_trans; [|exact F1].
    apply Rle_lt_trans with (20 / 41 * (9 * u * (41 / 10 * vm) * 34 * qm * w) * (k / q)).
    + replace (20 / 41 * (9 * u * (41 / 10 * vm) * 34 * qm * w) * (k / q)) with (9 * u * (2 * vm * ((w * k) * 34)) * (qm * / q)) by (field; lra).
      rewrite <- (Rmult_1_r (9 * u * (2 * vm * (W * W)))).
      assert (Q1 : 1 <= qm * / q). { apply Rmult_le_reg_r with q; [lra|]. rewrite Rmult_assoc, Rinv_l by lra. lra. }
      assert (WK : W * W <= w * k * 34) by (apply Rmult_le_compat; lra).
      apply Rmult_le_compat; try lra; [apply Rmult_le_pos; [lra|]; apply Rmult_le_pos; nra|]. apply Rmult_le_compat_l; [lra|]. apply Rmult_le_compat_l; lra.
    + apply Rmult_lt_compat_r; lra.
Qed.

(** ** Correctly rounded functions *)
Section Rounded.
Context (prec emax : Z) {Hprec : Prec_gt_0 prec} {Hmax : Prec_lt_emax prec emax}.
Context (P24 : (24 <= prec)%Z) (E128 : (128 <= emax)%Z).
Notation u := (bpow radix2 (- prec)).
Notation fmt := (FLT_exp (3 - emax - prec) prec).

Lemma rounded_pow : pow_ok prec emax (fun _ x => flt_of prec emax (Rpower 10 (B2R x))).
Proof.
  intros b x _ Fx _ R. pose proof (u_small prec P24) as U.
  assert (B : 1 <= Rpower 10 (B2R x) <= 100000).
  { split; [rewrite <- (Rpower_O 10) by lra; apply Rle_Rpower; lra|]. replace 100000 with (Rpower 10 5). { apply Rle_Rpower; lra. }
    replace 5 with (INR 5) by (cbn; ring). rewrite Rpower_pow by lra. cbn. ring. }
  destruct (flt_of_correct prec emax P24 (Rpower 10 (B2R x))) as [F E].
  { rewrite Rabs_pos_eq by lra. apply Rle_trans with (bpow radix2 17); [cbn; lra|apply bpow_le; lia]. }
  split; [exact F|]. rewrite E. eapply Rle_trans; [apply (rel_err prec emax)|apply Rmult_le_compat_r; lra].
  apply Rle_trans with 1; [change 1 with (bpow radix2 0); apply bpow_le; lia|lra].
Qed.
(** The square root of IEEE 754. *)
Lemma ieee_sqrt_ok : sqrt_ok prec emax (Bsqrt mode_NE).
Proof.
  intros x Fx R. pose proof (u_small prec P24) as U. pose proof (Bsqrt_correct prec emax Hprec Hmax mode_NE x) as (C1 & C2 & _).
  change (round_mode mode_NE) with ZnearestE in C1. change (SpecFloat.fexp prec emax) with fmt in C1.
  assert (P : 0 < B2R x) by (pose proof (bpow_gt_0 radix2 (-2)); lra).
  assert (SP : 1 / 2 <= sqrt (B2R x)).
  { rewrite <- (sqrt_square (1 / 2)) by lra. apply sqrt_le_1_alt. change (bpow radix2 (-2)) with (/ 4) in R. lra. }
  split.
  - rewrite C2. destruct x as [| | |[] m e H]; try reflexivity; try discriminate.
    exfalso. apply (Rlt_irrefl 0). eapply Rlt_trans; [exact P|]. apply F2R_lt_0. reflexivity.
  - rewrite C1. eapply Rle_trans; [apply (rel_err prec emax)|apply Rmult_le_compat_r; lra].
    apply Rle_trans with (/ 2); [change (/ 2) with (bpow radix2 (-1)); apply bpow_le; lia|lra].
Qed.
End Rounded.
