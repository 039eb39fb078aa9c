(** * Lemmas about filter designs with rounding, continued: stability, gain, prewarping *)

From Coq Require Import ZArith Reals Lra Lia List.
From Flocq Require Import Core BinarySingleNaN.
From Coquelicot Require Import Complex.
From Verif Require Import Base Scalars Ieee RoundingSpec IeeeProofs Biquad BiquadSpec BiquadProofs Design DesignIeee DesignRoundingSpec DesignRoundingProofs.
Import ListNotations.
Local Open Scope R_scope.

(** ** Stability *)

(** Whether a filter with rounded coefficients is stable depends only on [K], [Q] and the
    precision: it is if [K^2], [1] and [K/Q] are not too small against the rounding errors. *)
Section Generic.

Context (prec emax : Z) {Hprec : Prec_gt_0 prec} {Hmax : Prec_lt_emax prec emax}.
Context (P24 : (24 <= prec)%Z) (E128 : (128 <= emax)%Z) (e0 : Z) (H0 : (4 <= e0)%Z) (H4 : (4 * e0 + 16 <= emax)%Z).
Notation u := (bpow radix2 (- prec)).
Notation T := (binary_float prec emax).

Lemma den_errors (K Q : T) : is_finite K = true -> is_finite Q = true ->
  bpow radix2 (- e0) <= B2R K <= bpow radix2 e0 -> bpow radix2 (- e0) <= B2R Q <= bpow radix2 e0 ->
  let a := ieee_den prec emax K Q in let k := B2R K in let q := B2R Q in
  is_finite (a1 a) = true /\ is_finite (a2 a) = true /\
  Rabs (B2R (a1 a) - exact_a1 k q) <= (8 + 1 / 100) * u * (2 * (k * k + 1) / lead k q) /\
  Rabs (B2R (a2 a) - exact_a2 k q) <= (9 + 1 / 100) * u.
Proof.
  intros FK FQ RK RQ a k q. pose proof (bpow_gt_0 radix2 (- e0)).
  assert (NK : near (vv prec) 0 (B2R K) k) by (apply near_refl; unfold k; lra).
  destruct (a1_off prec emax P24 E128 e0 ltac:(lia) H4 0 ltac:(lia) K Q k FK NK RK RQ) as [F1 [M1 O1]].
  destruct (a2_off prec emax P24 E128 e0 ltac:(lia) H4 0 ltac:(lia) K Q k FK NK RK RQ) as [F2 [M2 O2]].
  split; [exact F1|]. split; [exact F2|].
  pose proof (pow_bound prec P24 8 ltac:(lia)) as B1. pose proof (pow_bound prec P24 9 ltac:(lia)) as B2.
  pose proof (u_small prec P24) as U. cbn [Nat.mul Nat.add] in O1, O2. fold a in O1, O2.
  replace (INR 8) with 8 in B1 by (cbn; ring). replace (INR 9) with 9 in B2 by (cbn; ring).
  pose proof (inv_lead_pos prec emax e0 ltac:(lia) 0 ltac:(lia) Q k RK RQ) as IL.
  fold q in IL. assert (M : 0 <= 2 * (k * k + 1) * (1 / lead k q)). { apply Rmult_le_pos; [nra|lra]. }
  split.
  - eapply Rle_trans; [exact O1|]. replace (2 * (k * k + 1) / lead k q) with (2 * (k * k + 1) * (1 / lead k q)) by (unfold Rdiv; ring).
    apply Rmult_le_compat_r; [exact M|]. lra.
  - eapply Rle_trans; [exact O2|]. rewrite Rmult_1_r. lra.
Qed.

Lemma margins k q : 0 < k / q -> let D := lead k q in
  1 + exact_a1 k q + exact_a2 k q = 4 * (k * k) * / D /\ 1 - exact_a1 k q + exact_a2 k q = 4 * / D /\
  1 - exact_a2 k q = 2 * (k / q) * / D.
Proof.
  cbv zeta. unfold exact_a1, exact_a2, lead. generalize (k / q). intros x H. assert (0 <= k * k) by nra.
  repeat split; field; lra.
Qed.

Lemma den_stable (K Q : T) : is_finite K = true -> is_finite Q = true ->
  bpow radix2 (- e0) <= B2R K <= bpow radix2 e0 -> bpow radix2 (- e0) <= B2R Q <= bpow radix2 e0 ->
  resolved prec (B2R K) (B2R Q) ->
  let a := ieee_den prec emax K Q in strictly_stable (B2R (a1 a)) (B2R (a2 a)).
Proof.
  intros FK FQ RK RQ (S1 & S2 & S3) a. destruct (den_errors K Q FK FQ RK RQ) as (_ & _ & E1 & E2). fold a in E1, E2.
  pose proof (bpow_gt_0 radix2 (- e0)) as P0. pose proof (u_small prec P24) as U.
  set (k := B2R K) in *. set (q := B2R Q) in *. set (A1 := B2R (a1 a)) in *. set (A2 := B2R (a2 a)) in *.
  assert (KQ : 0 < k / q) by (apply Rdiv_lt_0_compat; lra). assert (KK : 0 < k * k) by nra.
  assert (L : 1 < lead k q) by (unfold lead; lra). set (D := lead k q) in *.
  assert (ID : 0 < / D) by (apply Rinv_0_lt_compat; lra).
  assert (C1 : (8 + 1 / 100) * u * (2 * (k * k + 1) / D) <= (16 + 1 / 50) * u).
  { replace ((16 + 1 / 50) * u) with ((8 + 1 / 100) * u * 2) by field. apply Rmult_le_compat_l; [nra|].
    unfold Rdiv. apply Rmult_le_reg_r with D; [lra|]. rewrite Rmult_assoc, Rinv_l by lra. unfold D, lead in *. lra. }
  (* the three exact margins *)
  destruct (margins k q KQ) as (G1 & G2 & G3). fold D in G1, G2, G3.
  assert (M1 : 28 * u < 4 * (k * k) * / D) by (apply Rmult_lt_reg_r with D; [lra|]; rewrite (Rmult_assoc _ (/ D)), Rinv_l by lra; lra).
  assert (M2 : 28 * u < 4 * / D) by (apply Rmult_lt_reg_r with D; [lra|]; rewrite (Rmult_assoc _ (/ D)), Rinv_l by lra; lra).
  assert (M3 : 10 * u < 2 * (k / q) * / D) by (apply Rmult_lt_reg_r with D; [lra|]; rewrite (Rmult_assoc _ (/ D)), Rinv_l by lra; lra).
  apply Rabs_le_inv in E1, E2. apply strict_triangle. split.
  - apply Rabs_def1; lra.
  - apply Rabs_def1; lra.
Qed.

(** Gain of the low pass at frequency 0. *)
Lemma low_gain (K Q : T) : is_finite K = true -> is_finite Q = true ->
  bpow radix2 (- e0) <= B2R K <= bpow radix2 e0 -> bpow radix2 (- e0) <= B2R Q <= bpow radix2 e0 ->
  14 * u * lead (B2R K) (B2R Q) <= B2R K * B2R K ->
  let '(b, a) := ieee_low_pass prec emax K Q in
  Rabs ((B2R (b0 b) + B2R (b1 b) + B2R (b2 b)) / (1 + B2R (a1 a) + B2R (a2 a)) - 1) <= 25 * u * lead (B2R K) (B2R Q) / (B2R K * B2R K) /\
  B2R (b0 b) - B2R (b1 b) + B2R (b2 b) = 0.
Proof.
  intros FK FQ RK RQ S2. destruct (den_errors K Q FK FQ RK RQ) as (_ & _ & E1 & E2).
  pose proof (bpow_gt_0 radix2 (- e0)) as P0. pose proof (u_small prec P24) as U.
  set (k := B2R K) in *. set (q := B2R Q) in *.
  assert (NK : near (vv prec) 0 (B2R K) k) by (apply near_refl; lra).
  destruct (low_b0 prec emax P24 E128 e0 ltac:(lia) H4 0 ltac:(lia) K Q k FK NK RK RQ) as [FB NB].
  cbn [Nat.mul Nat.add] in NB. pose proof (near_pos _ (vv_pos prec P24) _ _ _ NB) as PB. pose proof (near_abs _ (vv_pos prec P24) _ _ _ NB) as AB.
  pose proof (pow_bound prec P24 6 ltac:(lia)) as B1. replace (INR 6) with 6 in B1 by (cbn; ring). fold q in AB.
  assert (KQ : 0 < k / q) by (apply Rdiv_lt_0_compat; lra). assert (KK : 0 < k * k) by nra.
  assert (L : 1 < lead k q) by (unfold lead; lra).
  pose proof (near_half _ P24 _ _ _ NB ltac:(lia)) as [_ HB]. fold q in HB.
  assert (KD : k * k / lead k q <= 1).
  { unfold Rdiv. apply Rmult_le_reg_r with (lead k q); [lra|]. rewrite Rmult_assoc, Rinv_l by lra. unfold lead in *. lra. }
  destruct (twice prec emax P24 E128 0 ltac:(lia) (b0 (fst (ieee_low_pass prec emax K Q))) 2 ltac:(auto) FB) as [_ TB].
  { rewrite Rabs_pos_eq by lra. apply Rle_trans with 2; [lra|]. change 2 with (bpow radix2 1). apply bpow_le. lia. }
  unfold ieee_low_pass in *. cbn [fst b0 b1 b2] in *. rewrite TB. set (B := B2R (Bmult mode_NE (Bmult mode_NE K K) (ieee_norm prec emax K Q))) in *.
  split; [|change (IZR 2) with 2; ring]. change (IZR 2) with 2.
  set (A1 := B2R (a1 (ieee_den prec emax K Q))) in *. set (A2 := B2R (a2 (ieee_den prec emax K Q))) in *.
  assert (C1 : (8 + 1 / 100) * u * (2 * (k * k + 1) / lead k q) <= (16 + 1 / 50) * u).
  { replace ((16 + 1 / 50) * u) with ((8 + 1 / 100) * u * 2) by field. apply Rmult_le_compat_l; [nra|].
    unfold Rdiv. apply Rmult_le_reg_r with (lead k q); [lra|]. rewrite Rmult_assoc, Rinv_l by lra. unfold lead in *. lra. }
  destruct (margins k q KQ) as (G1 & _ & _). replace (4 * (k * k) * / lead k q) with (4 * (k * k / lead k q)) in G1 by (unfold Rdiv; ring).
  set (g := k * k / lead k q) in *.
  assert (M1 : 14 * u <= g) by (unfold g, Rdiv; apply Rmult_le_reg_r with (lead k q); [lra|]; rewrite (Rmult_assoc _ (/ _)), Rinv_l by lra; lra).
  apply Rabs_le_inv in E1, E2.
  assert (AB' : Rabs (B - g) <= 7 * u * g).
  { eapply Rle_trans; [exact AB|]. apply Rmult_le_compat_r; [lra|]. lra. }
  assert (AB2 : 7 * u * g <= 7 * u) by (rewrite <- (Rmult_1_r (7 * u)) at 2; apply Rmult_le_compat_l; lra).
  apply Rabs_le_inv in AB'.
  replace (25 * u * lead k q / (k * k)) with (25 * u / g) by (unfold g; field; split; lra).
  set (den := 1 + A1 + A2) in *.
  assert (DL : 4 * g - (25 + 3 / 100) * u <= den <= 4 * g + (25 + 3 / 100) * u) by (unfold den; lra).
  assert (DP : 2 * g < den) by lra.
  replace ((B + 2 * B + B) / den - 1) with ((4 * B - den) / den) by (field; lra).
  unfold Rdiv at 1. rewrite Rabs_mult, (Rabs_pos_eq (/ den)) by (left; apply Rinv_0_lt_compat; lra).
  assert (N : Rabs (4 * B - den) <= 50 * u).
  { apply Rabs_le. assert (6 * u * g <= 6 * u) by (rewrite <- (Rmult_1_r (6 * u)) at 2; apply Rmult_le_compat_l; lra).
    assert (AB3 : Rabs (B - g) <= (6 + 1 / 100) * u * g).
    { eapply Rle_trans; [exact AB|]. apply Rmult_le_compat_r; [lra|]. lra. }
    apply Rabs_le_inv in AB3. lra. }
  apply Rle_trans with (50 * u * / (2 * g)).
  - apply Rmult_le_compat; [apply Rabs_pos|left; apply Rinv_0_lt_compat; lra|exact N|apply Rinv_le; lra].
  - right. field. lra.
Qed.

(** ** All coefficients *)

Definition ieee_design_K (r : basic_response) (K Q : T) : coeff_b T * coeff_a T :=
  match r with
  | Low => ieee_low_pass prec emax K Q | High => ieee_high_pass prec emax K Q
  | Pass => ieee_band_pass prec emax K Q | Stop => ieee_band_stop prec emax K Q
  end.
Lemma design_den r K Q : snd (ieee_design_K r K Q) = ieee_den prec emax K Q.
Proof. destruct r; reflexivity. Qed.

Lemma coefficients j (K Q : T) k r : (j <= 20)%nat -> is_finite K = true ->
  near (vv prec) j (B2R K) k ->
  bpow radix2 (- e0) <= k <= bpow radix2 e0 -> bpow radix2 (- e0) <= B2R Q <= bpow radix2 e0 ->
  all_finite (ieee_design_K r K Q) /\
  close_to (ieee_design_K r K Q) (exact_b r k (B2R Q)) {| a1 := exact_a1 k (B2R Q); a2 := exact_a2 k (B2R Q) |}
    ((1 + vv prec) ^ (4 * j + 7) - 1) (2 * ((1 + vv prec) ^ (4 * j + 8) - 1)).
Proof.
  intros J FK NK RK RQ. pose proof (vv_pos prec P24) as V.
  destruct (a1_off prec emax P24 E128 e0 ltac:(lia) H4 j J K Q k FK NK RK RQ) as [F1 [M1 O1]].
  destruct (a2_off prec emax P24 E128 e0 ltac:(lia) H4 j J K Q k FK NK RK RQ) as [F2 [M2 O2]].
  pose proof (low_b0 prec emax P24 E128 e0 ltac:(lia) H4 j J K Q k FK NK RK RQ) as [FL NL].
  pose proof (high_b0 prec emax P24 E128 e0 ltac:(lia) H4 j J K Q k FK NK RK RQ) as [FH NH].
  pose proof (band_b0 prec emax P24 E128 e0 ltac:(lia) H4 j J K Q k FK NK RK RQ) as [FP NP].
  pose proof (stop_b0 prec emax P24 E128 e0 ltac:(lia) H4 j J K Q k FK NK RK RQ) as [FS NS].
  pose proof (bpow_gt_0 radix2 (- e0)) as P0. set (q := B2R Q) in *.
  assert (KQ : 0 < k / q) by (apply Rdiv_lt_0_compat; lra). assert (KK : 0 < k * k) by nra.
  assert (L : 1 < lead k q) by (unfold lead; lra).
  assert (B : forall x, 0 <= x <= lead k q -> 0 <= x / lead k q <= 1).
  { intros x Hx. split; [apply Rmult_le_pos; [lra|left; apply Rinv_0_lt_compat; lra]|]. unfold Rdiv. apply Rmult_le_reg_r with (lead k q); [lra|]. rewrite Rmult_assoc, Rinv_l by lra. lra. }
  assert (LL : 1 + k / q + k * k = lead k q) by reflexivity.
  pose proof (B (k * k) ltac:(lra)) as BL. pose proof (B 1 ltac:(lra)) as BH. pose proof (B (k / q) ltac:(lra)) as BP. pose proof (B (1 + k * k) ltac:(lra)) as BS.
  pose proof (pv_mono _ V (4 * j + 6) (4 * j + 7) ltac:(lia)) as Q67. pose proof (pv_mono _ V (4 * j + 7) (4 * j + 8) ltac:(lia)) as Q78.
  pose proof (pv _ V (4 * j + 6)) as Q6.
  set (p6 := (1 + vv prec) ^ (4 * j + 6)) in *. set (p7 := (1 + vv prec) ^ (4 * j + 7)) in *. set (p8 := (1 + vv prec) ^ (4 * j + 8)) in *.
  assert (Q9 : (1 + vv prec) ^ (4 * j + 9) - 1 <= 2 * (p8 - 1)).
  { assert (E9 : (1 + vv prec) ^ (4 * j + 9) = (1 + vv prec) * p8) by (unfold p8; replace (4 * j + 9)%nat with (S (4 * j + 8)) by lia; reflexivity).
    rewrite E9. assert (vv prec * p8 <= p8 - 1); [|lra].
    assert (T2 : 2 * vv prec <= p8 - 1).
    { unfold p8. replace (4 * j + 8)%nat with (S (S (4 * j + 6))) by lia. cbn [pow]. fold p6. nra. }
    assert (p8 <= 2) by (apply pow_2; [exact P24|lia]). nra. }
  assert (AB : forall n x y, (n <= 4 * j + 7)%nat -> near (vv prec) n x y -> 0 <= y <= 1 ->
    Rabs (x - y) <= (p7 - 1) * y /\ Rabs (x - y) <= 2 * (p8 - 1) /\ Rabs (2 * x - 2 * y) <= 2 * (p8 - 1) /\ Rabs (-2 * x - -2 * y) <= 2 * (p8 - 1) /\
    Rabs (- x - - y) <= 2 * (p8 - 1) /\ Rabs x <= bpow radix2 (emax - 2)).
  { intros n x y Ln N Y. assert (N7 : near (vv prec) (4 * j + 7) x y) by (eapply near_le; [exact V| |exact N]; exact Ln).
    pose proof (near_abs _ V _ _ _ N7) as A. fold p7 in A.
    assert (A' : Rabs (x - y) <= p8 - 1). { eapply Rle_trans; [exact A|]. apply Rle_trans with ((p7 - 1) * 1); [apply Rmult_le_compat_l; lra|lra]. }
    destruct (near_half _ P24 _ _ _ N7 ltac:(lia)) as [_ H]. pose proof (near_pos _ V _ _ _ N) as PX.
    split; [exact A|]. apply Rabs_le_inv in A'. repeat split; try (apply Rabs_le; lra).
    rewrite Rabs_pos_eq by lra. apply Rle_trans with 2; [lra|]. change 2 with (bpow radix2 1). apply bpow_le. lia. }
  assert (A1 : Rabs (B2R (a1 (ieee_den prec emax K Q)) - exact_a1 k q) <= 2 * (p8 - 1)).
  { eapply Rle_trans; [exact O1|]. fold p8. apply Rle_trans with ((p8 - 1) * 2); [|lra]. apply Rmult_le_compat_l; [lra|].
    replace (2 * (k * k + 1) * (1 / lead k q)) with (2 * ((1 + k * k) / lead k q)) by (unfold Rdiv; ring). lra. }
  assert (A2 : Rabs (B2R (a2 (ieee_den prec emax K Q)) - exact_a2 k q) <= 2 * (p8 - 1)).
  { eapply Rle_trans; [exact O2|]. rewrite Rmult_1_r. exact Q9. }
  assert (Z0 : 0 <= 2 * (p8 - 1)) by lra.
  destruct r; cbn [ieee_design_K exact_b].
  - destruct (AB (4 * j + 6)%nat _ _ ltac:(lia) NL BL) as (Y1 & Y2 & Y3 & Y4 & Y5 & Y6).
    destruct (twice prec emax P24 E128 0 ltac:(lia) _ 2 ltac:(auto) FL Y6) as [FT ET]. change (IZR 2) with 2 in ET.
    unfold all_finite, close_to, ieee_low_pass in *. cbn [fst snd b0 b1 b2 a1 a2] in *. rewrite ET. repeat split; assumption.
  - destruct (AB (4 * j + 6)%nat _ _ ltac:(lia) NH BH) as (Y1 & Y2 & Y3 & Y4 & Y5 & Y6).
    destruct (twice prec emax P24 E128 0 ltac:(lia) _ (-2) ltac:(auto) FH Y6) as [FT ET]. change (IZR (-2)) with (-2) in ET.
    unfold all_finite, close_to, ieee_high_pass in *. cbn [fst snd b0 b1 b2 a1 a2] in *. rewrite ET. repeat split; assumption.
  - destruct (AB (4 * j + 6)%nat _ _ ltac:(lia) NP BP) as (Y1 & Y2 & Y3 & Y4 & Y5 & Y6).
    destruct (int_exact prec emax P24 E128 0 ltac:(lia)) as [EZ FZ].
    unfold all_finite, close_to, ieee_band_pass in *. cbn [fst snd b0 b1 b2 a1 a2] in *. rewrite EZ, is_finite_Bopp, B2R_Bopp, Rminus_0_r, Rabs_R0.
    repeat split; assumption.
  - destruct (AB (4 * j + 7)%nat _ _ ltac:(lia) NS BS) as (Y1 & Y2 & Y3 & Y4 & Y5 & Y6).
    unfold all_finite, close_to, ieee_band_stop in *. cbn [fst snd b0 b1 b2 a1 a2] in *. repeat split; assumption.
Qed.

(** ** The prewarped frequency *)

Context (pi : T) (FPI : is_finite pi = true) (NPI : near (vv prec) 1 (B2R pi) PI) (tanT : T -> T) (TAN : tan_ok prec emax tanT).

Lemma angle_near (f fs : T) : is_finite f = true -> is_finite fs = true ->
  bpow radix2 (- e0) <= B2R f <= bpow radix2 e0 -> bpow radix2 (- e0) <= B2R fs <= bpow radix2 e0 ->
  let x := Bdiv mode_NE (Bmult mode_NE pi f) fs in
  is_finite x = true /\ near (vv prec) 3 (B2R x) (PI * B2R f / B2R fs).
Proof.
  intros Ff Fs Rf Rs x. pose proof (bpow_gt_0 radix2 (- e0)) as P0. pose proof PI2_3_2 as P2. pose proof PI_4 as P4.
  set (g := B2R f) in *. set (h := B2R fs) in *.
  assert (B2 : PI * g <= bpow radix2 (e0 + 2)). { rewrite bpow_plus. change (bpow radix2 2) with 4. nra. }
  assert (B1 : bpow radix2 (- e0) <= PI * g) by nra.
  destruct (mul_near prec emax P24 1 0 pi f PI g) as [Fm Nm]; auto; try lia.
  { apply near_refl. unfold g in *. lra. }
  { eapply Rle_trans; [|exact B1]. apply bpow_le. lia. }
  { eapply Rle_trans; [exact B2|]. apply bpow_le. lia. }
  assert (IH : bpow radix2 (- e0) <= / h <= bpow radix2 e0).
  { split; [rewrite bpow_opp; apply Rinv_le; lra|]. replace (bpow radix2 e0) with (/ bpow radix2 (- e0)); [apply Rinv_le; lra|]. rewrite <- bpow_opp. f_equal. lia. }
  destruct (div_near prec emax P24 2 0 (Bmult mode_NE pi f) fs (PI * g) h) as [Fd Nd]; auto; try lia.
  { apply near_refl. unfold h in *. lra. }
  { apply Rle_trans with (bpow radix2 (- e0) * bpow radix2 (- e0)); [rewrite <- bpow_plus; apply bpow_le; lia|]. apply Rmult_le_compat; lra. }
  { apply Rle_trans with (bpow radix2 (e0 + 2) * bpow radix2 e0); [|rewrite <- bpow_plus; apply bpow_le; lia]. apply Rmult_le_compat; lra. }
Qed.

Lemma x_le_tan x : 0 < x < PI / 2 -> x <= tan x.
Proof.
  intros H. assert (C : 0 < cos x) by (apply cos_gt_0; lra).
  destruct (MVT_cor2 sin cos 0 x ltac:(lra) (fun c _ => derivable_pt_lim_sin c)) as (c & E1 & Hc).
  rewrite sin_0 in E1. assert (cos x <= cos c) by (apply cos_decr_1; lra).
  unfold tan. apply Rmult_le_reg_r with (cos x); [exact C|]. unfold Rdiv. rewrite Rmult_assoc, Rinv_l by lra. nra.
Qed.
Lemma tan_le_inv x : 0 < x < PI / 2 -> tan x * (PI / 2 - x) <= 1.
Proof.
  intros H. pose proof (x_le_tan (PI / 2 - x) ltac:(lra)) as L. pose proof (tan_pos x H) as P.
  assert (C : 0 < cos x) by (apply cos_gt_0; lra). assert (S : 0 < sin x) by (apply sin_gt_0; lra).
  assert (E : tan x * tan (PI / 2 - x) = 1).
  { unfold tan. rewrite sin_shift, cos_shift. field. split; lra. }
  rewrite <- E. apply Rmult_le_compat_l; lra.
Qed.

(** Bounds for the prewarped frequency. *)
Lemma prewarp_bounds (f fs : T) : is_finite f = true -> is_finite fs = true ->
  bpow radix2 (- e0) <= B2R f <= bpow radix2 e0 -> bpow radix2 (- e0) <= B2R fs <= bpow radix2 e0 ->
  bpow radix2 (- e0) <= B2R f / B2R fs <= 49 / 100 ->
  let K := ieee_prewarp prec emax pi tanT f fs in
  is_finite K = true /\ 3 * (B2R f / B2R fs) <= B2R K <= 33.
Proof.
  intros Ff Fs Rf Rs R K. destruct (angle_near f fs Ff Fs Rf Rs) as [Fx Nx]. cbv zeta in Nx. unfold K, ieee_prewarp.
  set (x := Bdiv mode_NE (Bmult mode_NE pi f) fs) in *. pose proof (bpow_gt_0 radix2 (- e0)) as P0.
  pose proof pi_digits as PD. pose proof (vv_pos prec P24) as V. pose proof (u_small prec P24) as U.
  set (w := B2R f / B2R fs) in *. replace (PI * B2R f / B2R fs) with (PI * w) in Nx by (unfold w, Rdiv; ring).
  assert (PW : 0 < PI * w) by (apply Rmult_lt_0_compat; lra).
  pose proof (near_abs _ V _ _ _ Nx) as A. pose proof (pow_bound prec P24 3 ltac:(lia)) as B. replace (INR 3) with 3 in B by (cbn; ring).
  assert (A2 : Rabs (B2R x - PI * w) <= 4 * u * (PI * w)).
  { eapply Rle_trans; [exact A|]. apply Rmult_le_compat_r; [lra|]. lra. }
  apply Rabs_le_inv in A2. assert (UW : 4 * u * (PI * w) <= / 4194304 * (PI * w)) by (apply Rmult_le_compat_r; lra).
  assert (X1 : 0 < B2R x < PI / 2).
  { split; [lra|]. assert (PI * w <= PI * (49 / 100)) by (apply Rmult_le_compat_l; lra). lra. }
  destruct (TAN x Fx X1) as [FT ET]. split; [exact FT|].
  pose proof (x_le_tan _ X1) as T1. pose proof (tan_le_inv _ X1) as T2. pose proof (tan_pos _ X1) as T3.
  assert (UT : 4 * u * tan (B2R x) <= / 4194304 * tan (B2R x)) by (apply Rmult_le_compat_r; lra).
  apply Rabs_le_inv in ET. split.
  - assert (314 / 100 * w <= PI * w) by (apply Rmult_le_compat_r; lra). lra.
  - assert (M : 31 / 1000 <= PI / 2 - B2R x).
    { assert (PI * w <= PI * (49 / 100)) by (apply Rmult_le_compat_l; lra). lra. }
    assert (tan (B2R x) * (31 / 1000) <= 1). { eapply Rle_trans; [|exact T2]. apply Rmult_le_compat_l; lra. } lra.
Qed.

(** Up to a quarter of the sample frequency it is nearly the exact one. *)
Lemma prewarp_near (f fs : T) : is_finite f = true -> is_finite fs = true ->
  bpow radix2 (- e0) <= B2R f <= bpow radix2 e0 -> bpow radix2 (- e0) <= B2R fs <= bpow radix2 e0 ->
  bpow radix2 (- e0) <= B2R f / B2R fs <= 1 / 4 ->
  let K := ieee_prewarp prec emax pi tanT f fs in let k := tan (PI * B2R f / B2R fs) in
  is_finite K = true /\ near (vv prec) 11 (B2R K) k /\ bpow radix2 (- e0) <= k <= bpow radix2 e0.
Proof.
  intros Ff Fs Rf Rs R K k. destruct (angle_near f fs Ff Fs Rf Rs) as [Fx Nx]. cbv zeta in Nx. unfold K, k, ieee_prewarp.
  set (x := Bdiv mode_NE (Bmult mode_NE pi f) fs) in *. pose proof (bpow_gt_0 radix2 (- e0)) as P0.
  pose proof pi_digits as PD. pose proof (vv_pos prec P24) as V. pose proof (u_small prec P24) as U.
  set (w := B2R f / B2R fs) in *. replace (PI * B2R f / B2R fs) with (PI * w) in * by (unfold w, Rdiv; ring).
  assert (PW : 0 < PI * w) by (apply Rmult_lt_0_compat; lra).
  assert (PW2 : PI * w <= PI * (1 / 4)) by (apply Rmult_le_compat_l; lra).
  pose proof (near_abs _ V _ _ _ Nx) as A. pose proof (pow_bound prec P24 3 ltac:(lia)) as B. replace (INR 3) with 3 in B by (cbn; ring).
  assert (A2 : Rabs (B2R x - PI * w) <= 4 * u * (PI * w)).
  { eapply Rle_trans; [exact A|]. apply Rmult_le_compat_r; [lra|]. lra. }
  apply Rabs_le_inv in A2. assert (UW : 4 * u * (PI * w) <= / 4194304 * (PI * w)) by (apply Rmult_le_compat_r; lra).
  pose proof (near_tan _ 3 _ _ V Nx ltac:(lra) ltac:(lra)) as NT. cbn [Nat.add] in NT.
  destruct (TAN x Fx ltac:(lra)) as [FT ET]. split; [exact FT|].
  assert (TP : 0 < tan (B2R x)) by (apply tan_pos; lra).
  assert (N5 : near (vv prec) 5 (B2R (tanT x)) (tan (B2R x))).
  { pose proof (u_vv prec P24) as UV. pose proof (vv_u prec P24) as VU. apply Rabs_le_inv in ET. split; [exact TP|]. split.
    - assert (L : tan (B2R x) * (1 - 4 * u) <= B2R (tanT x)) by lra.
      apply Rle_trans with (tan (B2R x) * (1 - 4 * u) * (1 + vv prec) ^ 5); [|apply Rmult_le_compat_r; [pose proof (pv _ V 5); lra|exact L]].
      assert (G : 1 <= (1 - 4 * u) * (1 + vv prec) ^ 5).
      { assert (L5 : 1 + 5 * u <= (1 + vv prec) ^ 5).
        { apply Rle_trans with ((1 + u) ^ 5); [cbn [pow]; nra|]. apply pow_incr. lra. }
        apply Rle_trans with ((1 - 4 * u) * (1 + 5 * u)); [nra|]. apply Rmult_le_compat_l; lra. }
      rewrite Rmult_assoc. rewrite <- (Rmult_1_r (tan (B2R x))) at 1. apply Rmult_le_compat_l; lra.
    - assert (L5 : 1 + 4 * u <= (1 + vv prec) ^ 5).
      { apply Rle_trans with ((1 + u) ^ 5); [cbn [pow]; nra|]. apply pow_incr. lra. }
      apply Rle_trans with (tan (B2R x) * (1 + 4 * u)); [lra|]. apply Rmult_le_compat_l; lra. }
  split; [exact (near_trans _ V 5 6 _ _ _ N5 NT)|].
  pose proof (x_le_tan (PI * w) ltac:(lra)) as T1. pose proof (tan_le_inv (PI * w) ltac:(lra)) as T2. pose proof (tan_pos (PI * w) ltac:(lra)) as T3.
  split.
  - assert (314 / 100 * w <= PI * w) by (apply Rmult_le_compat_r; lra). lra.
  - apply Rle_trans with 4; [|change 4 with (bpow radix2 2); apply bpow_le; lia].
    assert (78 / 100 <= PI / 2 - PI * w) by lra.
    assert (tan (PI * w) * (78 / 100) <= 1) by (eapply Rle_trans; [|exact T2]; apply Rmult_le_compat_l; lra). lra.
Qed.

(** The design over the reals. *)
Lemma real_design r f fs Q : 0 < f -> f < fs / 2 -> 0 < Q ->
  biquad_design (kind r) 0 f fs Q =
  Ok {| bc_b := exact_b r (tan (PI * f / fs)) Q;
        bc_a := {| a1 := exact_a1 (tan (PI * f / fs)) Q; a2 := exact_a2 (tan (PI * f / fs)) Q |} |}.
Proof.
  intros Hf Hfs HQ. pose proof PI_RGT_0 as P.
  assert (X : 0 < PI * f / fs < PI / 2).
  { split; [apply Rdiv_lt_0_compat; nra|]. apply Rmult_lt_reg_r with fs; [lra|]. unfold Rdiv. rewrite Rmult_assoc, Rinv_l by lra. nra. }
  assert (C : 0 < cos (PI * f / fs)) by (apply cos_gt_0; lra). pose proof (tan_pos _ X) as T.
  assert (PW : prewarp f fs = Ok (tan (PI * f / fs))).
  { unfold prewarp, rdiv. destruct (Req_EM_T fs 0); [lra|]. cbn [bind]. unfold rtan, rdiv. destruct (Req_EM_T (cos (PI * f / fs)) 0); [lra|]. reflexivity. }
  set (k := tan (PI * f / fs)) in *. assert (KQ : 0 < k / Q) by (apply Rdiv_lt_0_compat; lra). assert (KK : 0 < k * k) by nra.
  assert (RD : forall x y, y <> 0 -> rdiv x y = Ok (x / y)) by (intros x y Hy; unfold rdiv; destruct (Req_EM_T y 0); [contradiction|reflexivity]).
  destruct r; cbn [kind biquad_design]; unfold design_low_pass, design_high_pass, design_band_pass, design_band_stop; rewrite PW; cbn [bind];
    rewrite RD by lra; cbn [bind]; rewrite RD by lra; cbn [bind]; unfold coeffs, exact_b, exact_a1, exact_a2;
    fold (lead k Q); do 2 f_equal; f_equal; unfold Rdiv; ring.
Qed.
End Generic.

(** ** When the rounding errors are small enough *)

Lemma resolved_range prec kap qm k q : (24 <= prec)%Z -> 0 < kap -> kap <= k <= 33 -> 1 / 2 <= q <= qm ->
  7 * bpow radix2 (- prec) * ((1 + / kap) * (1 + / kap)) < 1 -> 5 * bpow radix2 (- prec) * (1 + / kap) * 34 * qm < 1 ->
  resolved prec k q.
Proof.
  intros P24 Hk Rk Rq G1 G2. pose proof (u_small prec P24) as U. set (u := bpow radix2 (- prec)) in *.
  assert (IK : 0 < / kap) by (apply Rinv_0_lt_compat; lra).
  assert (QQ : / q <= 2) by (replace 2 with (/ (1 / 2)) by field; apply Rinv_le; lra).
  assert (IQ : 0 < / q) by (apply Rinv_0_lt_compat; lra).
  assert (L : lead k q <= (1 + k) * (1 + k)).
  { unfold lead, Rdiv. assert (k * / q <= k * 2) by (apply Rmult_le_compat_l; lra). lra. }
  assert (K1 : 1 + k <= (1 + / kap) * k).
  { assert (/ kap * kap <= / kap * k) by (apply Rmult_le_compat_l; lra). rewrite Rinv_l in H by lra. lra. }
  assert (S34 : (1 + k) * (1 + k) <= 1156) by nra.
  assert (C : 0 < 1 + / kap) by lra. set (w := 1 + / kap) in *.
  unfold resolved. cbv zeta. fold u. repeat split.
  - apply Rle_lt_trans with (7 * u * 1156); [apply Rmult_le_compat_l; lra|]. lra.
  - apply Rle_lt_trans with (7 * u * (w * w) * (k * k)).
    + rewrite (Rmult_assoc (7 * u)). apply Rmult_le_compat_l; [lra|]. eapply Rle_trans; [exact L|].
      replace (w * w * (k * k)) with ((w * k) * (w * k)) by ring. apply Rmult_le_compat; lra.
    + assert (0 < k * k) by nra. rewrite <- (Rmult_1_l (k * k)) at 2. apply Rmult_lt_compat_r; lra.
  - apply Rmult_lt_reg_r with q; [lra|]. unfold Rdiv. rewrite (Rmult_assoc k), Rinv_l, Rmult_1_r by lra.
    apply Rle_lt_trans with (5 * u * w * 34 * qm * k).
    + replace (5 * u * w * 34 * qm * k) with (5 * u * ((w * k) * 34) * qm) by ring. apply Rmult_le_compat; try lra.
      * apply Rmult_le_pos; [lra|]. unfold lead. assert (0 < k / q) by (apply Rdiv_lt_0_compat; lra). nra.
      * apply Rmult_le_compat_l; [lra|]. eapply Rle_trans; [exact L|]. apply Rmult_le_compat; lra.
    + rewrite <- (Rmult_1_l k) at 2. apply Rmult_lt_compat_r; lra.
Qed.
Lemma lead_ratio kap k q : 0 < kap -> kap <= k -> 1 / 2 <= q -> lead k q / (k * k) <= (1 + / kap) * (1 + / kap).
Proof.
  intros Hk Rk Rq. assert (IK : 0 < / kap) by (apply Rinv_0_lt_compat; lra).
  assert (QQ : / q <= 2) by (replace 2 with (/ (1 / 2)) by field; apply Rinv_le; lra).
  assert (L : lead k q <= (1 + k) * (1 + k)).
  { unfold lead, Rdiv. assert (k * / q <= k * 2) by (apply Rmult_le_compat_l; lra). lra. }
  assert (K1 : 1 + k <= (1 + / kap) * k).
  { assert (/ kap * kap <= / kap * k) by (apply Rmult_le_compat_l; lra). rewrite Rinv_l in H by lra. lra. }
  assert (0 < k * k) by nra. apply Rmult_le_reg_r with (k * k); [lra|]. unfold Rdiv. rewrite Rmult_assoc, Rinv_l, Rmult_1_r by lra.
  eapply Rle_trans; [exact L|]. replace ((1 + / kap) * (1 + / kap) * (k * k)) with (((1 + / kap) * k) * ((1 + / kap) * k)) by ring.
  apply Rmult_le_compat; lra.
Qed.

(** The constants for pi. *)
Lemma pi_double_near : near (vv 53) 1 (B2R pi_double) PI.
Proof.
  pose proof pi_digits as D. assert (B : B2R pi_double = 7074237752028440 / 2251799813685248) by (cbn; unfold F2R; cbn; lra).
  assert (V : 1 / 10000000000000000 <= vv 53).
  { pose proof (u_vv 53 ltac:(lia)) as V. eapply Rle_trans; [|exact V]. cbn. lra. }
  split; [pose proof PI_RGT_0; lra|]. rewrite B. rewrite pow_1. split; nra.
Qed.
Lemma pi_float_near : near (vv 24) 1 (B2R pi_float) PI.
Proof.
  pose proof pi_digits as D. assert (B : B2R pi_float = 13176795 / 4194304) by (cbn; unfold F2R; cbn; lra).
  assert (V : 5 / 100000000 <= vv 24).
  { pose proof (u_vv 24 ltac:(lia)) as V. eapply Rle_trans; [|exact V]. cbn. lra. }
  split; [pose proof PI_RGT_0; lra|]. rewrite B. rewrite pow_1. split; nra.
Qed.

(** ** A float near a small angle *)

(** A [float] in this binade is a multiple of [2^-36]. *)
Lemma binade_float (K : float) lo hi : is_finite K = true ->
  IZR lo * bpow radix2 (-36) <= B2R K <= IZR hi * bpow radix2 (-36) -> (2 ^ 23 <= lo)%Z -> (hi < 2 ^ 24)%Z ->
  exists m : positive, (lo <= Zpos m <= hi)%Z /\ B2R K = IZR (Zpos m) * bpow radix2 (-36).
Proof.
  intros FK R L H. pose proof (bpow_gt_0 radix2 (-36)) as P.
  assert (L' : IZR (2 ^ 23) <= IZR lo) by (apply IZR_le; exact L). assert (H' : IZR hi + 1 <= IZR (2 ^ 24)) by (rewrite <- plus_IZR; apply IZR_le; lia).
  assert (P2 : 0 < IZR (2 ^ 23)) by (apply IZR_lt; lia).
  assert (KP : 0 < B2R K) by nra.
  assert (F : generic_format radix2 (SpecFloat.fexp 24 128) (B2R K)) by apply generic_format_B2R.
  assert (CE : cexp radix2 (SpecFloat.fexp 24 128) (B2R K) = (-36)%Z).
  { unfold cexp. rewrite (mag_unique radix2 (B2R K) (-12)); [reflexivity|]. rewrite Rabs_pos_eq by lra.
    change (bpow radix2 (-12 - 1)) with (bpow radix2 (23 + -36)). change (bpow radix2 (-12)) with (bpow radix2 (24 + -36)). rewrite 2!bpow_plus.
    change (bpow radix2 23) with (IZR (2 ^ 23)). change (bpow radix2 24) with (IZR (2 ^ 24)). split; nra. }
  unfold generic_format in F. rewrite CE in F. unfold F2R in F. cbn [Fnum Fexp] in F. set (n := Ztrunc _) in F.
  assert (NL : IZR lo <= IZR n) by (apply Rmult_le_reg_r with (bpow radix2 (-36)); lra).
  assert (NH : IZR n <= IZR hi) by (apply Rmult_le_reg_r with (bpow radix2 (-36)); lra).
  apply le_IZR in NL, NH. destruct n as [|m|m] eqn:En; try lia. exists m. split; [lia|exact F].
Qed.

(** ** A first order section *)

Section OnePole.

Context (prec emax : Z) {Hprec : Prec_gt_0 prec} {Hmax : Prec_lt_emax prec emax}.
Context (P24 : (24 <= prec)%Z) (E128 : (128 <= emax)%Z).
Notation u := (bpow radix2 (- prec)).
Notation T := (binary_float prec emax).

Lemma minus_err (a b : T) : is_finite a = true -> is_finite b = true -> Rabs (B2R a - B2R b) <= 4 ->
  is_finite (Bminus mode_NE a b) = true /\
  Rabs (B2R (Bminus mode_NE a b) - (B2R a - B2R b)) <= u * Rabs (B2R a - B2R b).
Proof.
  intros Fa Fb H. destruct (rd_sub _ _ _ _ _ _ (ieee_rounding prec emax) a b Fa Fb) as (r & E & F & X).
  { apply (big_max prec emax P24). eapply Rle_trans; [exact H|]. change 4 with (bpow radix2 2). apply bpow_le. lia. }
  cbn in E. apply (f_equal (fun o => match o with Ok z => z | Err _ => r end)) in E. cbn in E. rewrite E. auto.
Qed.

Lemma one_minus (E : T) : is_finite E = true -> 0 <= B2R E < 1 ->
  let b := Bminus mode_NE (ieee_of_Z prec emax 1) E in
  is_finite b = true /\ 0 < B2R b /\ Rabs (B2R b / (1 - B2R E) - 1) <= u.
Proof.
  intros FE RE b. destruct (int_exact prec emax P24 E128 1 ltac:(lia)) as [I1 I2].
  destruct (minus_err (ieee_of_Z prec emax 1) E I2 FE) as [F X]; [rewrite I1; apply Rabs_le; lra|].
  rewrite I1 in X. fold b in F, X. pose proof (u_small prec P24) as U. rewrite (Rabs_pos_eq (1 - B2R E)) in X by lra.
  split; [exact F|]. split.
  - apply Rabs_le_inv in X. assert (u * (1 - B2R E) <= / 2 * (1 - B2R E)) by (apply Rmult_le_compat_r; lra). lra.
  - replace (B2R b / (1 - B2R E) - 1) with ((B2R b - (1 - B2R E)) / (1 - B2R E)) by (field; lra).
    unfold Rdiv. rewrite Rabs_mult, (Rabs_pos_eq (/ _)) by (left; apply Rinv_0_lt_compat; lra).
    apply Rmult_le_reg_r with (1 - B2R E); [lra|]. rewrite Rmult_assoc, Rinv_l, Rmult_1_r by lra. exact X.
Qed.

Lemma exp_range (expT : T -> T) y : exp_ok prec emax expT -> is_finite y = true -> -4 <= B2R y <= - (5 * u) ->
  is_finite (expT y) = true /\ 0 < B2R (expT y) < 1.
Proof.
  intros EX Fy R. pose proof (u_small prec P24) as U. destruct (EX y Fy ltac:(lra)) as [F X]. split; [exact F|].
  pose proof (exp_pos (B2R y)) as P. pose proof (exp_ineq1 (- B2R y) ltac:(lra)) as L.
  assert (M : exp (B2R y) * exp (- B2R y) = 1) by (rewrite <- exp_plus; replace (B2R y + - B2R y) with 0 by ring; apply exp_0).
  apply Rabs_le_inv in X. set (e := exp (B2R y)) in *. assert (A : e * (1 + 5 * u) <= 1).
  { rewrite <- M. apply Rmult_le_compat_l; lra. }
  assert (0 < e * u) by (apply Rmult_lt_0_compat; lra). assert (e * u <= / 16777216 * e) by (rewrite (Rmult_comm e); apply Rmult_le_compat_r; lra). lra.
Qed.

Lemma neg_mul (a b : T) : is_finite a = true -> is_finite b = true -> Rabs (B2R a * B2R b) <= bpow radix2 (emax - 1) ->
  is_finite (Bmult mode_NE (Bopp a) b) = true /\ B2R (Bmult mode_NE (Bopp a) b) = - B2R (Bmult mode_NE a b).
Proof.
  intros Fa Fb M. apply (big_max prec emax P24) in M.
  pose proof (Bmult_correct prec emax Hprec Hmax mode_NE a b) as C1. pose proof (Bmult_correct prec emax Hprec Hmax mode_NE (Bopp a) b) as C2.
  rewrite B2R_Bopp in C2. change (round_mode mode_NE) with ZnearestE in *. change (SpecFloat.fexp prec emax) with (FLT_exp (3 - emax - prec) prec) in *.
  rewrite (@rnd_bound prec emax Hprec Hmax) in C1 by exact M.
  rewrite (@rnd_bound prec emax Hprec Hmax) in C2 by (rewrite <- Ropp_mult_distr_l, Rabs_Ropp; exact M).
  destruct C1 as (C1 & _). destruct C2 as (C2 & F2 & _). rewrite is_finite_Bopp, Fa, Fb in F2. split; [exact F2|].
  rewrite C1, C2, <- Ropp_mult_distr_l. apply round_NE_opp.
Qed.
Lemma neg_div (a a' b : T) : is_finite a = true -> is_finite a' = true -> B2R a' = - B2R a -> B2R b <> 0 -> Rabs (B2R a / B2R b) <= bpow radix2 (emax - 1) ->
  is_finite (Bdiv mode_NE a' b) = true /\ B2R (Bdiv mode_NE a' b) = - B2R (Bdiv mode_NE a b).
Proof.
  intros Fa Fa' Ea Nb M. apply (big_max prec emax P24) in M.
  pose proof (Bdiv_correct prec emax Hprec Hmax mode_NE a b Nb) as C1. pose proof (Bdiv_correct prec emax Hprec Hmax mode_NE a' b Nb) as C2.
  rewrite Ea in C2. change (round_mode mode_NE) with ZnearestE in *. change (SpecFloat.fexp prec emax) with (FLT_exp (3 - emax - prec) prec) in *.
  replace (- B2R a / B2R b) with (- (B2R a / B2R b)) in C2 by (unfold Rdiv; ring).
  rewrite (@rnd_bound prec emax Hprec Hmax) in C1 by exact M.
  rewrite (@rnd_bound prec emax Hprec Hmax) in C2 by (rewrite Rabs_Ropp; exact M).
  destruct C1 as (C1 & _). destruct C2 as (C2 & F2 & _). rewrite Fa' in F2. split; [exact F2|].
  rewrite C1, C2. apply round_NE_opp.
Qed.

Context (PE : (prec + 4 <= emax)%Z) (e0 : Z) (H0 : (4 <= e0)%Z) (H4 : (4 * e0 + 16 <= emax)%Z).
Context (pi : T) (FPI : is_finite pi = true) (NPI : near (vv prec) 1 (B2R pi) PI).
Context (MPI : Bmult mode_NE (Bopp (ieee_of_Z prec emax 1)) pi = Bopp pi).

Lemma pi_bounds : 314 / 100 < B2R pi < 315 / 100.
Proof.
  pose proof pi_digits as D. pose proof (vv_pos prec P24) as V. pose proof (near_abs _ V _ _ _ NPI) as A.
  pose proof (pow_bound prec P24 1 ltac:(lia)) as B. replace (INR 1) with 1 in B by reflexivity. pose proof (u_small prec P24) as U.
  assert (((1 + vv prec) ^ 1 - 1) * PI <= (/ 10000) * PI) by (apply Rmult_le_compat_r; lra). apply Rabs_le_inv in A. lra.
Qed.

Lemma low_arg (f fs : T) : is_finite f = true -> is_finite fs = true ->
  bpow radix2 (- e0) <= B2R f <= bpow radix2 e0 -> bpow radix2 (- e0) <= B2R fs <= bpow radix2 e0 ->
  2 * u <= B2R f / B2R fs <= 1 ->
  let y := Bdiv mode_NE (Bmult mode_NE (Bmult mode_NE (Bopp (ieee_of_Z prec emax 1)) pi) f) fs in
  is_finite y = true /\ -4 <= B2R y <= - (5 * u).
Proof.
  intros Ff Fs Rf Rs R y. unfold y. rewrite MPI. pose proof (bpow_gt_0 radix2 (- e0)) as P0.
  destruct (angle_near prec emax P24 E128 e0 H4 pi FPI NPI f fs Ff Fs Rf Rs) as [Fx Nx]. cbv zeta in *.
  pose proof pi_bounds as PB. pose proof pi_digits as PD. pose proof (u_small prec P24) as U. pose proof (vv_pos prec P24) as V.
  assert (B2 : Rabs (B2R pi * B2R f) <= bpow radix2 (e0 + 2)).
  { rewrite Rabs_pos_eq by (apply Rmult_le_pos; lra). rewrite bpow_plus, Rmult_comm. change (bpow radix2 2) with 4. apply Rmult_le_compat; lra. }
  destruct (neg_mul pi f FPI Ff) as [F1 E1]; [eapply Rle_trans; [exact B2|apply bpow_le; lia]|].
  destruct (mul_near prec emax P24 1 0 pi f PI (B2R f)) as [Fm Nm]; auto; try lia.
  { apply near_refl. lra. }
  { apply Rle_trans with (1 * bpow radix2 (- e0)); [rewrite Rmult_1_l; apply bpow_le; lia|]. apply Rmult_le_compat; lra. }
  { apply Rle_trans with (4 * bpow radix2 e0); [apply Rmult_le_compat; lra|]. change 4 with (bpow radix2 2). rewrite <- bpow_plus. apply bpow_le. lia. }
  pose proof (near_half _ P24 _ _ _ Nm ltac:(lia)) as [_ HM]. pose proof (near_pos _ V _ _ _ Nm) as PM.
  assert (B3 : PI * B2R f <= 4 * bpow radix2 e0) by (apply Rmult_le_compat; lra).
  assert (IH : 0 < / B2R fs <= bpow radix2 e0).
  { split; [apply Rinv_0_lt_compat; lra|]. replace (bpow radix2 e0) with (/ bpow radix2 (- e0)); [apply Rinv_le; lra|]. rewrite <- bpow_opp. f_equal. lia. }
  destruct (neg_div (Bmult mode_NE pi f) (Bmult mode_NE (Bopp pi) f) fs Fm F1 E1) as [F2 E2]; [lra| |].
  { rewrite Rabs_pos_eq by (unfold Rdiv; apply Rmult_le_pos; lra).
    apply Rle_trans with (8 * bpow radix2 e0 * bpow radix2 e0); [unfold Rdiv; apply Rmult_le_compat; lra|].
    change 8 with (bpow radix2 3). rewrite <- 2!bpow_plus. apply bpow_le. lia. }
  split; [exact F2|]. rewrite E2. clear E2 F2 E1 F1 Nm HM PM.
  set (x := B2R (Bdiv mode_NE (Bmult mode_NE pi f) fs)) in *.
  set (w := B2R f / B2R fs) in *. replace (PI * B2R f / B2R fs) with (PI * w) in Nx by (unfold w, Rdiv; ring).
  assert (PW : PI * (2 * u) <= PI * w <= PI * 1) by (split; apply Rmult_le_compat_l; lra).
  pose proof (near_abs _ V _ _ _ Nx) as A. pose proof (pow_bound prec P24 3 ltac:(lia)) as B. replace (INR 3) with 3 in B by (cbn; ring).
  assert (A2 : Rabs (x - PI * w) <= / 4194304 * (PI * w)).
  { eapply Rle_trans; [exact A|]. assert (314 / 100 * (2 * u) <= PI * (2 * u)) by (apply Rmult_le_compat_r; lra). apply Rmult_le_compat_r; lra. }
  assert (314 / 100 * (2 * u) <= PI * (2 * u)) by (apply Rmult_le_compat_r; lra).
  apply Rabs_le_inv in A2. lra.
Qed.

Lemma high_arg (f fs : T) : is_finite f = true -> is_finite fs = true ->
  bpow radix2 (- e0) <= B2R f <= bpow radix2 e0 -> bpow radix2 (- e0) <= B2R fs <= bpow radix2 e0 ->
  B2R f / B2R fs <= 1 / 2 - 4 * u ->
  let half := Bdiv mode_NE (ieee_of_Z prec emax 1) (ieee_of_Z prec emax 2) in
  is_finite half = true -> B2R half = 1 / 2 ->
  let y := Bmult mode_NE (Bmult mode_NE (Bopp (ieee_of_Z prec emax 1)) pi) (Bminus mode_NE half (Bdiv mode_NE f fs)) in
  is_finite y = true /\ -4 <= B2R y <= - (5 * u).
Proof.
  intros Ff Fs Rf Rs R half FH EH y. unfold y. rewrite MPI. pose proof (bpow_gt_0 radix2 (- e0)) as P0.
  pose proof pi_bounds as PB. pose proof pi_digits as PD. pose proof (u_small prec P24) as U. pose proof (vv_pos prec P24) as V.
  assert (IH : bpow radix2 (- e0) <= / B2R fs <= bpow radix2 e0).
  { split; [rewrite bpow_opp; apply Rinv_le; lra|]. replace (bpow radix2 e0) with (/ bpow radix2 (- e0)); [apply Rinv_le; lra|]. rewrite <- bpow_opp. f_equal. lia. }
  destruct (div_near prec emax P24 0 0 f fs (B2R f) (B2R fs)) as [Fd Nd]; auto; try lia.
  { apply near_refl. lra. } { apply near_refl. lra. }
  { apply Rle_trans with (bpow radix2 (- e0) * bpow radix2 (- e0)); [rewrite <- bpow_plus; apply bpow_le; lia|]. apply Rmult_le_compat; lra. }
  { apply Rle_trans with 1; [unfold Rdiv in *; lra|]. change 1 with (bpow radix2 0). apply bpow_le. lia. }
  set (W := Bdiv mode_NE f fs) in *. set (w := B2R f / B2R fs) in *.
  assert (WP : 0 < w) by (apply Rmult_lt_0_compat; lra).
  pose proof (near_abs _ V _ _ _ Nd) as A. pose proof (pow_bound prec P24 1 ltac:(lia)) as B. cbn [Nat.add] in A. replace (INR 1) with 1 in B by reflexivity.
  assert (A2 : Rabs (B2R W - w) <= u * (1 + / 100000) * (1 / 2)).
  { eapply Rle_trans; [exact A|]. apply Rmult_le_compat; rewrite ?pow_1 in *; lra. }
  apply Rabs_le_inv in A2.
  destruct (minus_err half W FH Fd) as [FM XM]; [rewrite EH; apply Rabs_le; lra|]. rewrite EH in XM. rewrite (Rabs_pos_eq (1 / 2 - B2R W)) in XM by lra.
  set (M := Bminus mode_NE half W) in *. apply Rabs_le_inv in XM.
  assert (u * (1 / 2 - B2R W) <= / 16777216 * (1 / 2 - B2R W)) by (apply Rmult_le_compat_r; lra).
  assert (RM : 3 * u <= B2R M <= 6 / 10) by lra.
  destruct (mul_near prec emax P24 1 0 pi M PI (B2R M)) as [Fm Nm]; auto; try lia.
  { apply near_refl. lra. }
  { apply Rle_trans with (1 * u); [rewrite Rmult_1_l; apply bpow_le; lia|]. apply Rmult_le_compat; lra. }
  { apply Rle_trans with 4; [nra|]. change 4 with (bpow radix2 2). apply bpow_le. lia. }
  destruct (neg_mul pi M FPI FM) as [F1 E1].
  { apply Rle_trans with 4; [rewrite Rabs_pos_eq; nra|]. change 4 with (bpow radix2 2). apply bpow_le. lia. }
  split; [exact F1|]. rewrite E1. pose proof (near_abs _ V _ _ _ Nm) as A3. pose proof (pow_bound prec P24 2 ltac:(lia)) as B3. cbn [Nat.add] in A3. replace (INR 2) with 2 in B3 by (cbn; ring).
  assert (PM : PI * (3 * u) <= PI * B2R M <= PI * (6 / 10)) by (split; apply Rmult_le_compat_l; lra).
  assert (314 / 100 * (3 * u) <= PI * (3 * u)) by (apply Rmult_le_compat_r; lra).
  assert (A4 : Rabs (B2R (Bmult mode_NE pi M) - PI * B2R M) <= / 4194304 * (PI * B2R M)).
  { eapply Rle_trans; [exact A3|]. apply Rmult_le_compat_r; lra. }
  apply Rabs_le_inv in A4. lra.
Qed.

(** Both designs: stable, with gain 1 where they should. *)
Lemma onepole_low expT (f fs : T) : exp_ok prec emax expT -> is_finite f = true -> is_finite fs = true ->
  bpow radix2 (- e0) <= B2R f <= bpow radix2 e0 -> bpow radix2 (- e0) <= B2R fs <= bpow radix2 e0 ->
  2 * u <= B2R f / B2R fs <= 1 ->
  let c := ieee_onepole_low_pass prec emax pi expT f fs in
  is_finite (fst c) = true /\ is_finite (snd c) = true /\ -1 < B2R (snd c) < 0 /\ 0 < B2R (fst c) /\
  Rabs (B2R (fst c) / (1 + B2R (snd c)) - 1) <= u.
Proof.
  intros EX Ff Fs Rf Rs R c. destruct (low_arg f fs Ff Fs Rf Rs R) as [Fy Ry]. cbv zeta in *.
  unfold c, ieee_onepole_low_pass. set (y := Bdiv mode_NE _ fs) in *. destruct (exp_range expT y EX Fy Ry) as [FE RE]. set (E := expT y) in *. cbn [fst snd].
  destruct (one_minus (Babs (Bopp E))) as (B1 & B2 & B3).
  { rewrite is_finite_Babs, is_finite_Bopp. exact FE. }
  { rewrite B2R_Babs, B2R_Bopp, Rabs_Ropp, Rabs_pos_eq by lra. lra. }
  rewrite B2R_Babs, B2R_Bopp, Rabs_Ropp, (Rabs_pos_eq (B2R E)) in B3 by lra. rewrite is_finite_Bopp, B2R_Bopp.
  split; [exact B1|]. split; [exact FE|]. split; [lra|]. split; [exact B2|exact B3].
Qed.
Lemma onepole_high expT (f fs : T) : exp_ok prec emax expT -> is_finite f = true -> is_finite fs = true ->
  bpow radix2 (- e0) <= B2R f <= bpow radix2 e0 -> bpow radix2 (- e0) <= B2R fs <= bpow radix2 e0 ->
  B2R f / B2R fs <= 1 / 2 - 4 * u ->
  let half := Bdiv mode_NE (ieee_of_Z prec emax 1) (ieee_of_Z prec emax 2) in
  is_finite half = true -> B2R half = 1 / 2 ->
  let c := ieee_onepole_high_pass prec emax pi expT f fs in
  is_finite (fst c) = true /\ is_finite (snd c) = true /\ 0 < B2R (snd c) < 1 /\ 0 < B2R (fst c) /\
  Rabs (B2R (fst c) / (1 - B2R (snd c)) - 1) <= u.
Proof.
  intros EX Ff Fs Rf Rs R half FH EH c. destruct (high_arg f fs Ff Fs Rf Rs R FH EH) as [Fy Ry]. cbv zeta in *.
  unfold c, ieee_onepole_high_pass. cbv zeta. fold half in Fy, Ry |- *. set (y := Bmult mode_NE _ (Bminus mode_NE half _)) in *. destruct (exp_range expT y EX Fy Ry) as [FE RE]. set (E := expT y) in *. cbn [fst snd].
  destruct (one_minus (Babs E)) as (B1 & B2 & B3).
  { rewrite is_finite_Babs. exact FE. }
  { rewrite B2R_Babs, Rabs_pos_eq by lra. lra. }
  rewrite B2R_Babs, (Rabs_pos_eq (B2R E)) in B3 by lra.
  split; [exact B1|]. split; [exact FE|]. split; [lra|]. split; [exact B2|exact B3].
Qed.
End OnePole.

Lemma mpi_double : Bmult mode_NE (Bopp (ieee_of_Z 53 1024 1)) pi_double = Bopp pi_double.
Proof. apply B2SF_inj. vm_compute. reflexivity. Qed.
Lemma mpi_float : Bmult mode_NE (Bopp (ieee_of_Z 24 128 1)) pi_float = Bopp pi_float.
Proof. apply B2SF_inj. vm_compute. reflexivity. Qed.
Lemma half_double : let half := Bdiv mode_NE (ieee_of_Z 53 1024 1) (ieee_of_Z 53 1024 2) in is_finite half = true /\ B2R half = 1 / 2.
Proof. cbv zeta. split; [vm_compute; reflexivity|]. rewrite <- SF2R_B2SF. replace (B2SF _) with (SpecFloat.S754_finite false 4503599627370496 (-53)) by (vm_compute; reflexivity). unfold SF2R, F2R. cbn. lra. Qed.
Lemma half_float : let half := Bdiv mode_NE (ieee_of_Z 24 128 1) (ieee_of_Z 24 128 2) in is_finite half = true /\ B2R half = 1 / 2.
Proof. cbv zeta. split; [vm_compute; reflexivity|]. rewrite <- SF2R_B2SF. replace (B2SF _) with (SpecFloat.S754_finite false 8388608 (-24)) by (vm_compute; reflexivity). unfold SF2R, F2R. cbn. lra. Qed.

(** ** Correctly rounded functions *)

Section Rounded.

Context (prec emax : Z) {Hprec : Prec_gt_0 prec} {Hmax : Prec_lt_emax prec emax}.
Context (P24 : (24 <= prec)%Z) (E128 : (128 <= emax)%Z).
Notation u := (bpow radix2 (- prec)).
Notation fmt := (FLT_exp (3 - emax - prec) prec).
Notation rnd := (round radix2 fmt ZnearestE).

Definition flt_of (r : R) : binary_float prec emax :=
  binary_normalize prec emax Hprec Hmax mode_NE (ZnearestE (scaled_mantissa radix2 fmt r)) (cexp radix2 fmt r) false.

Lemma flt_of_correct r : Rabs r <= bpow radix2 (emax - 1) -> is_finite (flt_of r) = true /\ B2R (flt_of r) = rnd r.
Proof.
  intros M. apply (big_max prec emax P24) in M.
  pose proof (binary_normalize_correct prec emax Hprec Hmax mode_NE (ZnearestE (scaled_mantissa radix2 fmt r)) (cexp radix2 fmt r) false) as C.
  cbv zeta in C. change (round_mode mode_NE) with ZnearestE in C. change (SpecFloat.fexp prec emax) with fmt in C.
  change (F2R (Float radix2 (ZnearestE (scaled_mantissa radix2 fmt r)) (cexp radix2 fmt r))) with (rnd r) in C.
  rewrite round_generic in C; [|apply valid_rnd_N|apply generic_format_round; [apply FLT_exp_valid; exact Hprec|apply valid_rnd_N]].
  rewrite (@rnd_bound prec emax Hprec Hmax) in C by exact M. destruct C as (C1 & C2 & _). split; [exact C2|exact C1].
Qed.

Lemma rounded_tan M : (prec + 64 <= emax)%Z -> IZR M * bpow radix2 (1 - prec) + bpow radix2 (-60) <= PI / 2 -> PI / 2 <= (IZR M + 1) * bpow radix2 (1 - prec) ->
  tan_ok prec emax (fun x => flt_of (tan (B2R x))).
Proof.
  intros PE G1 G2 x Fx R. pose proof (x_le_tan _ R) as T1. pose proof (tan_le_inv _ R) as T2. pose proof (tan_pos _ R) as T3.
  pose proof pi_digits as D. pose proof (u_small prec P24) as U. set (X := B2R x) in *. set (t := tan X) in *.
  assert (GAP : bpow radix2 (-60) <= PI / 2 - X).
  { assert (S60 : bpow radix2 (-60) <= / 4) by (change (/ 4) with (bpow radix2 (-2)); apply bpow_le; lia).
    destruct (Rle_lt_dec X 1) as [L|L]; [lra|].
    assert (F : generic_format radix2 fmt X) by apply (fin_format prec emax).
    assert (CE : cexp radix2 fmt X = (1 - prec)%Z).
    { unfold cexp. rewrite (mag_unique radix2 X 1); [unfold FLT_exp; lia|]. rewrite Rabs_pos_eq by lra. change (bpow radix2 (1 - 1)) with 1. change (bpow radix2 1) with 2. lra. }
    unfold generic_format in F. rewrite CE in F. unfold F2R in F. cbn [Fnum Fexp] in F. set (n := Ztrunc _) in F.
    pose proof (bpow_gt_0 radix2 (1 - prec)) as BP.
    assert (N : IZR n < IZR M + 1) by (apply Rmult_lt_reg_r with (bpow radix2 (1 - prec)); lra).
    rewrite <- plus_IZR in N. apply lt_IZR in N. assert (N' : IZR n <= IZR M) by (apply IZR_le; lia).
    assert (IZR n * bpow radix2 (1 - prec) <= IZR M * bpow radix2 (1 - prec)) by (apply Rmult_le_compat_r; lra). lra. }
  assert (TB : t <= bpow radix2 60).
  { pose proof (bpow_gt_0 radix2 (-60)) as B1. assert (B2 : bpow radix2 60 * bpow radix2 (-60) = 1) by (rewrite <- bpow_plus; reflexivity).
    assert (t * bpow radix2 (-60) <= 1) by (eapply Rle_trans; [|exact T2]; apply Rmult_le_compat_l; lra).
    apply Rmult_le_reg_r with (bpow radix2 (-60)); lra. }
  destruct (flt_of_correct t) as [F E].
  { rewrite Rabs_pos_eq by lra. eapply Rle_trans; [exact TB|]. apply bpow_le. lia. }
  split; [exact F|]. fold t. rewrite E.
  destruct (Rle_lt_dec (bpow radix2 (2 - emax)) X) as [L|L].
  - eapply Rle_trans; [apply (rel_err prec emax); lra|]. apply Rmult_le_compat_r; lra.
  - assert (N : Rabs (rnd t - t) <= Rabs (X - t)).
    { pose proof (round_N_pt radix2 fmt (fun z => negb (Z.even z)) t) as [_ H]. apply H. apply (fin_format prec emax). }
    eapply Rle_trans; [exact N|]. rewrite Rabs_left1 by lra.
    assert (S : t * cos X <= X).
    { unfold t, tan. pose proof (sin_le_x X ltac:(lra)). assert (0 < cos X) by (apply cos_gt_0; lra). unfold Rdiv. rewrite Rmult_assoc, Rinv_l, Rmult_1_r by lra. lra. }
    pose proof (cos_ge X ltac:(lra)) as C. assert (XU : X <= u). { apply Rlt_le, Rlt_le_trans with (1 := L), bpow_le. lia. }
    assert (XX : X * X <= u) by nra. assert (C2 : 1 - u <= cos X) by lra.
    assert (t * (1 - u) <= t * cos X) by (apply Rmult_le_compat_l; lra). assert (0 <= t * u) by (apply Rmult_le_pos; lra). lra.
Qed.

Lemma rounded_exp : exp_ok prec emax (fun x => flt_of (exp (B2R x))).
Proof.
  intros x Fx R. set (X := B2R x) in *. pose proof (exp_pos X) as P. pose proof (u_small prec P24) as U.
  assert (LE : exp X <= 1) by (rewrite <- exp_0; left; apply exp_increasing; lra).
  assert (GE : / 81 <= exp X).
  { assert (E4 : exp 4 <= 81).
    { replace 4 with (1 + 1 + (1 + 1)) by ring. rewrite !exp_plus. pose proof exp_le_3 as E3. pose proof (exp_pos 1). set (e := exp 1) in *. assert (e * e <= 9) by nra. nra. }
    assert (M : exp X * exp (- X) = 1) by (rewrite <- exp_plus; replace (X + - X) with 0 by ring; apply exp_0).
    assert (exp (- X) <= exp 4). { destruct (Req_dec (- X) 4) as [->|]; [lra|]. left. apply exp_increasing. lra. }
    apply Rmult_le_reg_r with 81; [lra|]. rewrite Rinv_l by lra. rewrite <- M. apply Rmult_le_compat_l; lra. }
  destruct (flt_of_correct (exp X)) as [F E].
  { rewrite Rabs_pos_eq by lra. apply Rle_trans with 1; [lra|]. change 1 with (bpow radix2 0). apply bpow_le. lia. }
  split; [exact F|]. fold X. rewrite E. eapply Rle_trans; [apply (rel_err prec emax)|apply Rmult_le_compat_r; lra].
  apply Rle_trans with (bpow radix2 (-7)); [apply bpow_le; lia|]. change (bpow radix2 (-7)) with (/ 128). lra.
Qed.

End Rounded.
