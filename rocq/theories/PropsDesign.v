(** * Properties of the biquad designs (C58-C61, C92-C94) *)

From Coq Require Import Reals List Lra Lia Psatz.
From Coquelicot Require Import Complex.
From Verif Require Import Base Scalars Biquad BiquadSpec BiquadProofs BiquadStability OnePole Design
  DesignSpec DesignProofs.
Import ListNotations.
Local Open Scope R_scope.

Lemma design_facts r g f fs Q : 0 < f < fs / 2 -> 0 < Q ->
  exists n2 n1 n0 d2 d1 d0,
    proto_params r (dbV_factor g) Q (boosts g) = ((n2, n1, n0), (d2, d1, d0)) /\
    let c := bil (tan (PI * f / fs)) n2 n1 n0 d2 d1 d0 in
    biquad_design r g f fs Q = Ok c /\
    strictly_stable (a1 (bc_a c)) (a2 (bc_a c)) /\
    response (make_biquad c) 0 = Ok (RtoC (n0 / d0)) /\
    response (make_biquad c) (1 / 2) = Ok (RtoC (n2 / d2)) /\
    (forall fnorm, cos (PI * fnorm) <> 0 ->
       response (make_biquad c) fnorm
       = Ok (Cdiv (poly2 n2 n1 n0 (analogue_frequency f fs fnorm))
                  (poly2 d2 d1 d0 (analogue_frequency f fs fnorm)))).
Proof.
  intros Hf HQ. pose proof (design_bil r g f fs Q Hf HQ) as D. destruct (prewarp_ok f fs Hf) as [_ HK].
  pose proof (proto_params_pos r (dbV_factor g) Q (boosts g) (V_pos g) HQ) as P.
  destruct (proto_params r (dbV_factor g) Q (boosts g)) as [[[n2 n1] n0] [[d2 d1] d0]].
  cbn in P. destruct P as (P2 & P1 & P0).
  exists n2, n1, n0, d2, d1, d0. split; [reflexivity|]. cbn zeta. split; [exact D|].
  split; [now apply (bil_stable (tan (PI * f / fs)) n2 n1 n0 d2 d1 d0)|]. split; [now apply bil_dc|]. split; [now apply bil_nyquist|].
  intros fnorm Hc. now apply bil_response.
Qed.

Lemma corner_cos f fs : 0 < f < fs / 2 -> cos (PI * (f / fs)) <> 0.
Proof.
  intros H. destruct (angle_range f fs H). replace (PI * (f / fs)) with (PI * f / fs) by (unfold Rdiv; ring).
  apply Rgt_not_eq, cos_gt_0; lra.
Qed.

Lemma corner_frequency f fs : 0 < f < fs / 2 -> analogue_frequency f fs (f / fs) = Ci.
Proof.
  intros H. destruct (prewarp_ok f fs H) as [_ HK]. unfold analogue_frequency, Ci.
  replace (PI * (f / fs)) with (PI * f / fs) by (unfold Rdiv; ring). f_equal. field. lra.
Qed.

Lemma poly2_Ci c2 c1 c0 : poly2 c2 c1 c0 Ci = (c0 - c2, c1).
Proof. unfold poly2, Ci, Cplus, Cmult, RtoC; cbn. f_equal; ring. Qed.

Lemma Cdiv_imag a b c : b <> 0 -> Cdiv (a, c) (0, b) = (c / b, - (a / b)).
Proof. intros H. unfold Cdiv, Cinv, Cmult; cbn. f_equal; field; assumption. Qed.

Local Ltac start r g f fs Q Hf HQ :=
  let c := fresh "c" in
  destruct (design_facts r g f fs Q Hf HQ) as (n2 & n1 & n0 & d2 & d1 & d0 & E & D & St & Dc & Ny & Re);
  cbn [proto_params] in E; 
  set (c := bil _ n2 n1 n0 d2 d1 d0) in *; exists c.

(** ** C58: low pass and high pass *)

Theorem C58_low_pass : forall g f fs Q, 0 < f < fs / 2 -> 0 < Q ->
  exists c, biquad_design low_pass g f fs Q = Ok c /\
    strictly_stable (a1 (bc_a c)) (a2 (bc_a c)) /\
    response (make_biquad c) 0 = Ok (RtoC 1) /\
    response (make_biquad c) (1 / 2) = Ok (RtoC 0) /\
    response (make_biquad c) (f / fs) = Ok (0, - Q).
Proof.
  intros g f fs Q Hf HQ. start low_pass g f fs Q Hf HQ.
  injection E as <- <- <- <- <- <-.
  split; [exact D|]. split; [exact St|]. split; [rewrite Dc; do 2 f_equal; lra|].
  split; [rewrite Ny; do 2 f_equal; lra|].
  rewrite Re by now apply corner_cos. rewrite corner_frequency by assumption. rewrite !poly2_Ci.
  replace (1 - 1) with 0 by ring. assert (1 / Q <> 0) by (apply Rgt_not_eq, Rdiv_lt_0_compat; lra).
  rewrite Cdiv_imag by assumption. do 2 f_equal; field; lra.
Qed.
Print Assumptions C58_low_pass.

Theorem C58_high_pass : forall g f fs Q, 0 < f < fs / 2 -> 0 < Q ->
  exists c, biquad_design high_pass g f fs Q = Ok c /\
    strictly_stable (a1 (bc_a c)) (a2 (bc_a c)) /\
    response (make_biquad c) 0 = Ok (RtoC 0) /\
    response (make_biquad c) (1 / 2) = Ok (RtoC 1) /\
    response (make_biquad c) (f / fs) = Ok (0, Q).
Proof.
  intros g f fs Q Hf HQ. start high_pass g f fs Q Hf HQ.
  injection E as <- <- <- <- <- <-.
  split; [exact D|]. split; [exact St|]. split; [rewrite Dc; do 2 f_equal; lra|].
  split; [rewrite Ny; do 2 f_equal; lra|].
  rewrite Re by now apply corner_cos. rewrite corner_frequency by assumption. rewrite !poly2_Ci.
  replace (1 - 1) with 0 by ring. assert (1 / Q <> 0) by (apply Rgt_not_eq, Rdiv_lt_0_compat; lra).
  rewrite Cdiv_imag by assumption. do 2 f_equal; field; lra.
Qed.
Print Assumptions C58_high_pass.

(** The filter classes of filter.hpp are these designs, in their initial state. *)
Theorem C58_filter_classes : forall f fs Q, 0 < f < fs / 2 -> 0 < Q ->
  (exists bq, Lpf f fs Q = Ok bq /\ bq_w bq = {| v1 := 0; v2 := 0 |} /\
     strictly_stable (a1 (bq_a bq)) (a2 (bq_a bq)) /\
     response bq 0 = Ok (RtoC 1) /\ response bq (1 / 2) = Ok (RtoC 0) /\
     response bq (f / fs) = Ok (0, - Q)) /\
  (exists bq, Hpf f fs Q = Ok bq /\ bq_w bq = {| v1 := 0; v2 := 0 |} /\
     strictly_stable (a1 (bq_a bq)) (a2 (bq_a bq)) /\
     response bq 0 = Ok (RtoC 0) /\ response bq (1 / 2) = Ok (RtoC 1) /\
     response bq (f / fs) = Ok (0, Q)).
Proof.
  intros f fs Q Hf HQ. split.
  - destruct (C58_low_pass 0 f fs Q Hf HQ) as (c & D & St & Dc & Ny & Co).
    exists (make_biquad c). unfold Lpf. rewrite D. cbn [bind]. repeat split; try assumption; apply St.
  - destruct (C58_high_pass 0 f fs Q Hf HQ) as (c & D & St & Dc & Ny & Co).
    exists (make_biquad c). unfold Hpf. rewrite D. cbn [bind]. repeat split; try assumption; apply St.
Qed.
Print Assumptions C58_filter_classes.

Example C58_case : 0 < 1000 < 8000 / 2 /\ 0 < / sqrt 2.
Proof. split; [lra|]. apply Rinv_0_lt_compat, sqrt_lt_R0; lra. Qed.

(** ** C59: band pass and band stop *)

Theorem C59_band_pass : forall g f fs Q, 0 < f < fs / 2 -> 0 < Q ->
  exists c, biquad_design band_pass g f fs Q = Ok c /\
    strictly_stable (a1 (bc_a c)) (a2 (bc_a c)) /\
    response (make_biquad c) 0 = Ok (RtoC 0) /\
    response (make_biquad c) (1 / 2) = Ok (RtoC 0) /\
    response (make_biquad c) (f / fs) = Ok (RtoC 1).
Proof.
  intros g f fs Q Hf HQ. start band_pass g f fs Q Hf HQ.
  injection E as <- <- <- <- <- <-.
  split; [exact D|]. split; [exact St|]. split; [rewrite Dc; do 2 f_equal; lra|].
  split; [rewrite Ny; do 2 f_equal; lra|].
  rewrite Re by now apply corner_cos. rewrite corner_frequency by assumption. rewrite !poly2_Ci.
  replace (1 - 1) with 0 by ring. assert (1 / Q <> 0) by (apply Rgt_not_eq, Rdiv_lt_0_compat; lra).
  rewrite Cdiv_imag by assumption. unfold RtoC. do 2 f_equal; field; lra.
Qed.
Print Assumptions C59_band_pass.

Theorem C59_band_stop : forall g f fs Q, 0 < f < fs / 2 -> 0 < Q ->
  exists c, biquad_design band_stop g f fs Q = Ok c /\
    strictly_stable (a1 (bc_a c)) (a2 (bc_a c)) /\
    response (make_biquad c) 0 = Ok (RtoC 1) /\
    response (make_biquad c) (1 / 2) = Ok (RtoC 1) /\
    response (make_biquad c) (f / fs) = Ok (RtoC 0).
Proof.
  intros g f fs Q Hf HQ. start band_stop g f fs Q Hf HQ.
  injection E as <- <- <- <- <- <-.
  split; [exact D|]. split; [exact St|]. split; [rewrite Dc; do 2 f_equal; lra|].
  split; [rewrite Ny; do 2 f_equal; lra|].
  rewrite Re by now apply corner_cos. rewrite corner_frequency by assumption. rewrite !poly2_Ci.
  replace (1 - 1) with 0 by ring. assert (1 / Q <> 0) by (apply Rgt_not_eq, Rdiv_lt_0_compat; lra).
  rewrite Cdiv_imag by assumption. unfold RtoC. do 2 f_equal; field; lra.
Qed.
Print Assumptions C59_band_stop.

Theorem C59_complementary : forall g g' f fs Q, 0 < f < fs / 2 -> 0 < Q ->
  exists p s, biquad_design band_pass g f fs Q = Ok p /\ biquad_design band_stop g' f fs Q = Ok s /\
    forall fnorm, exists hp hs,
      response (make_biquad p) fnorm = Ok hp /\ response (make_biquad s) fnorm = Ok hs /\
      Cplus hp hs = RtoC 1.
Proof.
  intros g g' f fs Q Hf HQ.
  pose proof (design_bil band_pass g f fs Q Hf HQ) as Dp. pose proof (design_bil band_stop g' f fs Q Hf HQ) as Ds.
  cbn [proto_params bil'] in Dp, Ds. destruct (prewarp_ok f fs Hf) as [_ HK].
  set (K := tan (PI * f / fs)) in *.
  assert (HQ1 : 0 < 1 / Q) by (apply Rdiv_lt_0_compat; lra).
  eexists. eexists. split; [exact Dp|]. split; [exact Ds|]. intros fnorm.
  pose proof (bil_stable K 0 (1 / Q) 0 1 (1 / Q) 1 HK Rlt_0_1 HQ1 Rlt_0_1) as St.
  destruct (bil_norm K 1 (1 / Q) 1 HK Rlt_0_1 HQ1 Rlt_0_1) as [_ N].
  pose proof (stable_den _ (2 * PI * fnorm) St) as Dn.
  unfold response. 
  set (P := make_biquad (bil K 0 (1 / Q) 0 1 (1 / Q) 1)) in *.
  set (S := make_biquad (bil K 1 0 1 1 (1 / Q) 1)).
  fold (den (bq_a P) (2 * PI * fnorm)). fold (num (bq_b P) (2 * PI * fnorm)).
  assert (ES : bq_a S = bq_a P) by reflexivity.
  fold (den (bq_a S) (2 * PI * fnorm)). rewrite ES. fold (num (bq_b S) (2 * PI * fnorm)).
  destruct (Ceq_dec (den (bq_a P) (2 * PI * fnorm)) (RtoC 0)) as [X|_]; [contradiction|].
  eexists. eexists. split; [reflexivity|]. split; [reflexivity|].
  assert (A : Cplus (num (bq_b P) (2 * PI * fnorm)) (num (bq_b S) (2 * PI * fnorm)) = den (bq_a P) (2 * PI * fnorm)).
  { unfold num, den, P, S.
    cbn [bq_a bq_b make_biquad biquad_ba bc_a bc_b bil a1 a2 b0 b1 b2].
    set (z := polar 1 (- (2 * PI * fnorm))). set (z2 := polar 1 (-2 * (2 * PI * fnorm))).
    set (n := 1 / (1 + 1 / Q * K + 1 * (K * K))) in *.
    transitivity (Cplus (Cplus (RtoC (n * (1 + 1 / Q * K + 1 * (K * K)))) (Cmult (RtoC (2 * (1 * (K * K) - 1) * n)) z))
                        (Cmult (RtoC ((1 - 1 / Q * K + 1 * (K * K)) * n)) z2)).
    - repeat rewrite ?RtoC_mult, ?RtoC_plus, ?RtoC_minus. ring.
    - now rewrite N. }
  transitivity (Cdiv (Cplus (num (bq_b P) (2 * PI * fnorm)) (num (bq_b S) (2 * PI * fnorm))) (den (bq_a P) (2 * PI * fnorm))).
  - field. exact Dn.
  - rewrite A. field. exact Dn.
Qed.
Print Assumptions C59_complementary.

Example C59_case : 0 < 50 < 44100 / 2 /\ 0 < 10.
Proof. lra. Qed.

(** ** C60: decibels *)

Lemma ln10_pos : 0 < ln 10.
Proof. rewrite <- ln_1. apply ln_increasing; lra. Qed.

Theorem C60_power_factor_inverts_gain : forall vout vin, 0 < vin -> 0 < vout ->
  exists d, dbP vout vin = Ok d /\
    (vin <= vout -> dbP_factor d = vout / vin) /\ (vout < vin -> dbP_factor d = vin / vout).
Proof.
  intros vout vin Hi Ho. unfold dbP. rewrite rdiv_ok by lra. cbn [bind]. eexists. split; [reflexivity|].
  pose proof ln10_pos as L. unfold dbP_factor, log10, Rpower.
  assert (Hq : 0 < vout / vin) by (apply Rdiv_lt_0_compat; lra).
  split; intros H.
  - assert (0 <= ln (vout / vin)).
    { rewrite <- ln_1. apply Rle_lt_or_eq_dec in H. destruct H as [H| ->].
      - left. apply ln_increasing; [lra|]. apply (Rmult_lt_reg_r vin); [lra|]. unfold Rdiv. rewrite Rmult_assoc, Rinv_l; lra.
      - right. f_equal. field. lra. }
    rewrite Rabs_right.
    + replace (10 * (ln (vout / vin) / ln 10) / 10 * ln 10) with (ln (vout / vin)) by (field; lra). now apply exp_ln.
    + apply Rle_ge, Rmult_le_pos; [lra|]. apply Rmult_le_pos; [assumption|]. left. now apply Rinv_0_lt_compat.
  - assert (ln (vout / vin) < 0).
    { rewrite <- ln_1. apply ln_increasing; [lra|]. apply (Rmult_lt_reg_r vin); [lra|]. unfold Rdiv. rewrite Rmult_assoc, Rinv_l; lra. }
    rewrite Rabs_left.
    + replace (- (10 * (ln (vout / vin) / ln 10)) / 10 * ln 10) with (- ln (vout / vin)) by (field; lra).
      rewrite exp_Ropp, exp_ln by assumption. field. lra.
    + assert (0 < / ln 10) by now apply Rinv_0_lt_compat. unfold Rdiv at 1. nra.
Qed.
Print Assumptions C60_power_factor_inverts_gain.

(** The voltage factor is meant to invert [dbV]: it does so for one ratio only. *)
Theorem C60_voltage_factor_right_iff : forall vout vin, 0 < vin -> vin <= vout ->
  exists d, dbV vout vin = Ok d /\ (dbV_factor d = vout / vin <-> vout = 2 * vin).
Proof.
  intros vout vin Hi Ho. unfold dbV.
  assert (Ho' : 0 < vout) by lra.
  unfold dbP. rewrite rdiv_ok by lra. cbn [bind]. eexists. split; [reflexivity|].
  pose proof ln10_pos as L. unfold dbV_factor, dbP_factor, log10, Rpower.
  assert (Hq : 0 < vout / vin) by (apply Rdiv_lt_0_compat; lra).
  assert (0 <= ln (vout / vin)).
  { rewrite <- ln_1. apply Rle_lt_or_eq_dec in Ho. destruct Ho as [H| ->].
    - left. apply ln_increasing; [lra|]. apply (Rmult_lt_reg_r vin); [lra|]. unfold Rdiv. rewrite Rmult_assoc, Rinv_l; lra.
    - right. f_equal. field. lra. }
  rewrite Rabs_right.
  2:{ apply Rle_ge. repeat apply Rmult_le_pos; try lra. left. now apply Rinv_0_lt_compat. }
  replace (2 * (10 * (ln (vout / vin) / ln 10)) / 10 * ln 10) with (ln (vout / vin) + ln (vout / vin)) by (field; lra).
  rewrite exp_plus, exp_ln by assumption. 
  assert (Eq : vout = vout / vin * vin) by (field; lra). set (q := vout / vin) in *. clearbody q.
  split; intros X.
  - assert (q = 2) by nra. subst q. lra.
  - assert (q = 2) by nra. subst q. lra.
Qed.
Print Assumptions C60_voltage_factor_right_iff.

Theorem C60_voltage_factor_at_zero : dbV_factor 0 = 1 / 2.
Proof. unfold dbV_factor, dbP_factor, Rpower. rewrite Rabs_R0. replace (0 / 10 * ln 10) with 0 by (unfold Rdiv; ring). rewrite exp_0. reflexivity. Qed.
Print Assumptions C60_voltage_factor_at_zero.

Example C60_case : 0 < 3 /\ 0 < 7 /\ 3 <= 7.
Proof. lra. Qed.

(** ** C61: shelves and peaks.  The factor the library uses for [g] dB. *)

Definition used_factor (g : R) : R := Rpower 10 (Rabs g / 10) / 2.

Theorem C61_low_shelf : forall g f fs Q, 0 < f < fs / 2 -> 0 < Q ->
  exists c, biquad_design low_shelf g f fs Q = Ok c /\
    strictly_stable (a1 (bc_a c)) (a2 (bc_a c)) /\
    response (make_biquad c) 0 = Ok (RtoC (if Rle_dec 0 g then used_factor g else / used_factor g)) /\
    response (make_biquad c) (1 / 2) = Ok (RtoC 1).
Proof.
  intros g f fs Q Hf HQ. pose proof (V_pos g) as HV. start low_shelf g f fs Q Hf HQ.
  change (used_factor g) with (dbV_factor g).
  unfold boosts in E. destruct (Rge_dec g 0), (Rle_dec 0 g); try lra; injection E as <- <- <- <- <- <-;
  (split; [exact D|]); (split; [exact St|]); (split; [rewrite Dc; do 2 f_equal; field; lra|]);
  rewrite Ny; do 2 f_equal; field; lra.
Qed.
Print Assumptions C61_low_shelf.

Theorem C61_high_shelf : forall g f fs Q, 0 < f < fs / 2 -> 0 < Q ->
  exists c, biquad_design high_shelf g f fs Q = Ok c /\
    strictly_stable (a1 (bc_a c)) (a2 (bc_a c)) /\
    response (make_biquad c) 0 = Ok (RtoC 1) /\
    response (make_biquad c) (1 / 2) = Ok (RtoC (if Rle_dec 0 g then used_factor g else / used_factor g)).
Proof.
  intros g f fs Q Hf HQ. pose proof (V_pos g) as HV. start high_shelf g f fs Q Hf HQ.
  change (used_factor g) with (dbV_factor g).
  unfold boosts in E. destruct (Rge_dec g 0), (Rle_dec 0 g); try lra; injection E as <- <- <- <- <- <-;
  (split; [exact D|]); (split; [exact St|]); (split; [rewrite Dc; do 2 f_equal; field; lra|]);
  rewrite Ny; do 2 f_equal; field; lra.
Qed.
Print Assumptions C61_high_shelf.

Theorem C61_peak : forall g f fs Q, 0 < f < fs / 2 -> 0 < Q ->
  exists c, biquad_design peak_band_eq g f fs Q = Ok c /\
    strictly_stable (a1 (bc_a c)) (a2 (bc_a c)) /\
    response (make_biquad c) 0 = Ok (RtoC 1) /\
    response (make_biquad c) (1 / 2) = Ok (RtoC 1) /\
    response (make_biquad c) (f / fs) = Ok (RtoC (if Rle_dec 0 g then used_factor g else / used_factor g)).
Proof.
  intros g f fs Q Hf HQ. pose proof (V_pos g) as HV. start peak_band_eq g f fs Q Hf HQ.
  change (used_factor g) with (dbV_factor g).
  assert (1 / Q <> 0) by (apply Rgt_not_eq, Rdiv_lt_0_compat; lra).
  assert (dbV_factor g / Q <> 0) by (apply Rgt_not_eq, Rdiv_lt_0_compat; lra).
  unfold boosts in E. destruct (Rge_dec g 0), (Rle_dec 0 g); try lra; injection E as <- <- <- <- <- <-;
  (split; [exact D|]); (split; [exact St|]); (split; [rewrite Dc; do 2 f_equal; field; lra|]);
  (split; [rewrite Ny; do 2 f_equal; field; lra|]);
  rewrite Re by (now apply corner_cos); rewrite corner_frequency by assumption; rewrite !poly2_Ci;
  replace (1 - 1) with 0 by ring; rewrite Cdiv_imag by assumption; unfold RtoC; do 2 f_equal; field; lra.
Qed.
Print Assumptions C61_peak.

(** A shelf or peak of 0 dB should be flat; the library's has gain 1/2. *)
Theorem C61_zero_dB_flat_refuted : forall f fs Q, 0 < f < fs / 2 -> 0 < Q ->
  exists l h p,
    biquad_design low_shelf 0 f fs Q = Ok l /\ response (make_biquad l) 0 = Ok (RtoC (1 / 2)) /\
    biquad_design high_shelf 0 f fs Q = Ok h /\ response (make_biquad h) (1 / 2) = Ok (RtoC (1 / 2)) /\
    biquad_design peak_band_eq 0 f fs Q = Ok p /\ response (make_biquad p) (f / fs) = Ok (RtoC (1 / 2)).
Proof.
  intros f fs Q Hf HQ.
  assert (U : used_factor 0 = 1 / 2) by exact C60_voltage_factor_at_zero.
  destruct (C61_low_shelf 0 f fs Q Hf HQ) as (l & L1 & _ & L2 & _).
  destruct (C61_high_shelf 0 f fs Q Hf HQ) as (h & H1 & _ & _ & H2).
  destruct (C61_peak 0 f fs Q Hf HQ) as (p & P1 & _ & _ & _ & P2).
  destruct (Rle_dec 0 0); [|lra]. rewrite U in *.
  exists l, h, p. repeat split; assumption.
Qed.
Print Assumptions C61_zero_dB_flat_refuted.

(** A gain of [g] dB means an amplitude factor of 10^(g/20): the library has it right for
    exactly one boost. *)
Theorem C61_boost_right_iff : forall g f fs Q, 0 < f < fs / 2 -> 0 < Q -> 0 <= g ->
  exists c, biquad_design peak_band_eq g f fs Q = Ok c /\
    (response (make_biquad c) (f / fs) = Ok (RtoC (Rpower 10 (g / 20))) <-> Rpower 10 (g / 20) = 2).
Proof.
  intros g f fs Q Hf HQ Hg. destruct (C61_peak g f fs Q Hf HQ) as (c & E & _ & _ & _ & P).
  exists c. split; [exact E|]. destruct (Rle_dec 0 g); [|lra]. rewrite P.
  unfold used_factor. rewrite Rabs_right by lra.
  assert (X : Rpower 10 (g / 10) = Rpower 10 (g / 20) * Rpower 10 (g / 20)).
  { rewrite <- Rpower_plus. f_equal. field. }
  rewrite X. assert (0 < Rpower 10 (g / 20)) by apply exp_pos. set (y := Rpower 10 (g / 20)) in *. clearbody y.
  split; intros H1.
  - assert (E1 : RtoC (y * y / 2) = RtoC y) by congruence. apply RtoC_inj in E1. nra.
  - rewrite H1. do 2 f_equal. lra.
Qed.
Print Assumptions C61_boost_right_iff.

Example C61_case : 0 < 1000 < 48000 / 2 /\ 0 < 1 /\ 0 <= 6.
Proof. lra. Qed.

(** ** C92: every design is the bilinear transform of its analogue prototype *)

Theorem C92_prototype_response : forall g f fs Q, 0 < f < fs / 2 -> 0 < Q ->
  let V := used_factor g in
  let proto r := match r with
    | low_pass => proto_low_pass Q | high_pass => proto_high_pass Q
    | band_pass => proto_band_pass Q | band_stop => proto_band_stop Q
    | low_shelf => if Rle_dec 0 g then proto_low_shelf V else proto_low_shelf_cut V
    | high_shelf => if Rle_dec 0 g then proto_high_shelf V else proto_high_shelf_cut V
    | peak_band_eq => if Rle_dec 0 g then proto_peak V Q else proto_peak_cut V Q
    end in
  forall r, exists c, biquad_design r g f fs Q = Ok c /\
    strictly_stable (a1 (bc_a c)) (a2 (bc_a c)) /\
    forall fnorm, cos (PI * fnorm) <> 0 ->
      response (make_biquad c) fnorm = Ok (proto r (analogue_frequency f fs fnorm)).
Proof.
  intros g f fs Q Hf HQ V proto r. 
  destruct (design_facts r g f fs Q Hf HQ) as (n2 & n1 & n0 & d2 & d1 & d0 & E & D & St & Dc & Ny & Re).
  eexists. split; [exact D|]. split; [exact St|]. intros fnorm Hc. rewrite Re by assumption. f_equal.
  set (s := analogue_frequency f fs fnorm). unfold proto, boosts in *. change V with (dbV_factor g).
  destruct r; cbn [proto_params] in E; destruct (Rge_dec g 0), (Rle_dec 0 g); try lra;
    injection E as <- <- <- <- <- <-; try reflexivity;
    unfold proto_low_pass, proto_high_pass, proto_band_pass, proto_band_stop; f_equal; unfold poly2; ring.
Qed.
Print Assumptions C92_prototype_response.

Example C92_case : cos (PI * (1 / 3)) <> 0.
Proof. replace (PI * (1 / 3)) with (PI / 3) by field. rewrite cos_PI3. lra. Qed.

(** ** C93: magnitude of low pass and high pass; Butterworth *)

Lemma mag_den x Q : 0 < Q -> 0 < (1 - x * x) * (1 - x * x) + x / Q * (x / Q).
Proof.
  intros HQ. destruct (Req_dec x 0) as [->|Hx].
  - unfold Rdiv. rewrite !Rmult_0_l. lra.
  - assert (x / Q <> 0). { intros X. apply Hx. replace x with (x / Q * Q) by (field; lra). rewrite X. ring. }
    pose proof (Rle_0_sqr (1 - x * x)). assert (0 < x / Q * (x / Q)) by (apply Rsqr_pos_lt; assumption). unfold Rsqr in *. lra.
Qed.

Lemma lp_mag Q x : 0 < Q ->
  Cmod (proto_low_pass Q (0, x)) * Cmod (proto_low_pass Q (0, x))
  = 1 / ((1 - x * x) * (1 - x * x) + x / Q * (x / Q)).
Proof.
  intros HQ. pose proof (mag_den x Q HQ) as D.
  assert (E : poly2 1 (1 / Q) 1 (0, x) = (1 - x * x, x / Q)).
  { unfold poly2, Cplus, Cmult, RtoC; cbn. f_equal; field; lra. }
  assert (X : (1 - x * x, x / Q) <> RtoC 0) by (intros X; injection X as X1 X2; rewrite X1, X2 in D; lra).
  unfold proto_low_pass. rewrite E. rewrite Cmod_div by exact X.
  rewrite Cmod_R, Rabs_R1.
  assert (Dm : 0 < Cmod (1 - x * x, x / Q)) by now apply Cmod_gt_0.
  transitivity (1 / (Cmod (1 - x * x, x / Q) * Cmod (1 - x * x, x / Q))); [field; lra|].
  rewrite Cmod_sq. reflexivity.
Qed.

Lemma hp_mag Q x : 0 < Q ->
  Cmod (proto_high_pass Q (0, x)) * Cmod (proto_high_pass Q (0, x))
  = x * x * (x * x) / ((1 - x * x) * (1 - x * x) + x / Q * (x / Q)).
Proof.
  intros HQ. pose proof (mag_den x Q HQ) as D.
  assert (E : poly2 1 (1 / Q) 1 (0, x) = (1 - x * x, x / Q)).
  { unfold poly2, Cplus, Cmult, RtoC; cbn. f_equal; field; lra. }
  assert (X : (1 - x * x, x / Q) <> RtoC 0) by (intros X; injection X as X1 X2; rewrite X1, X2 in D; lra).
  unfold proto_high_pass. rewrite E. rewrite Cmod_div by exact X.
  assert (N : Cmult (0, x) (0, x) = RtoC (- (x * x))) by (unfold Cmult, RtoC; cbn; f_equal; ring).
  rewrite N, Cmod_R, Rabs_Ropp.
  rewrite Rabs_right by exact (Rle_ge _ _ (Rle_0_sqr x)).
  assert (Dm : 0 < Cmod (1 - x * x, x / Q)) by now apply Cmod_gt_0.
  transitivity (x * x * (x * x) / (Cmod (1 - x * x, x / Q) * Cmod (1 - x * x, x / Q))); [field; lra|].
  rewrite Cmod_sq. reflexivity.
Qed.

Lemma butter_den x : (1 - x * x) * (1 - x * x) + x / (1 / sqrt 2) * (x / (1 / sqrt 2)) = 1 + x ^ 4.
Proof.
  assert (0 < sqrt 2) by (apply sqrt_lt_R0; lra). assert (sqrt 2 * sqrt 2 = 2) by (apply sqrt_sqrt; lra).
  replace (x / (1 / sqrt 2)) with (x * sqrt 2) by (field; lra).
  replace (x * sqrt 2 * (x * sqrt 2)) with (x * x * (sqrt 2 * sqrt 2)) by ring. rewrite H0. ring.
Qed.

(** Gain of the designs with Q = 1/sqrt 2, as function of the warped frequency ratio. *)
Theorem C93_butterworth : forall f fs, 0 < f < fs / 2 ->
  exists l h, Lpf f fs (1 / sqrt 2) = Ok l /\ Hpf f fs (1 / sqrt 2) = Ok h /\
    forall fnorm, 0 <= fnorm < 1 / 2 ->
      let x := tan (PI * fnorm) / tan (PI * f / fs) in
      exists hl hh, response l fnorm = Ok hl /\ response h fnorm = Ok hh /\
        Cmod hl = sqrt (1 / (1 + x ^ 4)) /\ Cmod hh = sqrt (x ^ 4 / (1 + x ^ 4)) /\
        Cmod hl * Cmod hl + Cmod hh * Cmod hh = 1.
Proof.
  intros f fs Hf. assert (S2 : 0 < sqrt 2) by (apply sqrt_lt_R0; lra).
  assert (HQ : 0 < 1 / sqrt 2) by (apply Rdiv_lt_0_compat; lra).
  destruct (C92_prototype_response 0 f fs (1 / sqrt 2) Hf HQ low_pass) as (l & L & _ & RL).
  destruct (C92_prototype_response 0 f fs (1 / sqrt 2) Hf HQ high_pass) as (h & H & _ & RH).
  exists (make_biquad l), (make_biquad h). unfold Lpf, Hpf. rewrite L, H.
  split; [reflexivity|]. split; [reflexivity|]. intros fnorm Hn. set (x := tan (PI * fnorm) / tan (PI * f / fs)).
  assert (Hc : cos (PI * fnorm) <> 0). { pose proof PI_RGT_0. apply Rgt_not_eq, cos_gt_0; nra. }
  exists (proto_low_pass (1 / sqrt 2) (0, x)), (proto_high_pass (1 / sqrt 2) (0, x)).
  split; [exact (RL fnorm Hc)|]. split; [exact (RH fnorm Hc)|].
  pose proof (lp_mag _ x HQ) as ML. pose proof (hp_mag _ x HQ) as MH. rewrite butter_den in ML, MH.
  replace (x * x * (x * x)) with (x ^ 4) in MH by ring.
  assert (P4 : 0 <= x ^ 4) by (replace (x ^ 4) with (Rsqr (x * x)) by (unfold Rsqr; ring); apply Rle_0_sqr).
  split; [rewrite <- ML; symmetry; apply sqrt_square, Cmod_ge_0|].
  split; [rewrite <- MH; symmetry; apply sqrt_square, Cmod_ge_0|].
  rewrite ML, MH. field. lra.
Qed.
Print Assumptions C93_butterworth.

(** The Butterworth low pass attenuates the more, the higher the frequency, and is at half
    power at the corner frequency. *)
Theorem C93_monotone : forall f fs, 0 < f < fs / 2 ->
  exists l, Lpf f fs (1 / sqrt 2) = Ok l /\
    (exists hc, response l (f / fs) = Ok hc /\ Cmod hc * Cmod hc = 1 / 2) /\
    forall n1 n2, 0 <= n1 < n2 -> n2 < 1 / 2 ->
      exists h1 h2, response l n1 = Ok h1 /\ response l n2 = Ok h2 /\ Cmod h2 < Cmod h1.
Proof.
  intros f fs Hf. destruct (C93_butterworth f fs Hf) as (l & h & L & _ & B). exists l. split; [exact L|].
  assert (S2 : 0 < sqrt 2) by (apply sqrt_lt_R0; lra). assert (S3 : sqrt 2 * sqrt 2 = 2) by (apply sqrt_sqrt; lra).
  assert (HQ : 0 < 1 / sqrt 2) by (apply Rdiv_lt_0_compat; lra).
  split.
  - destruct (C58_filter_classes f fs (1 / sqrt 2) Hf HQ) as [(l' & L' & _ & _ & _ & _ & Co) _].
    assert (l' = l) by congruence. subst l'. eexists. split; [exact Co|]. rewrite Cmod_sq. cbn.
    replace (0 * 0 + - (1 / sqrt 2) * - (1 / sqrt 2)) with (1 / (sqrt 2 * sqrt 2)) by (field; lra). rewrite S3. reflexivity.
  - intros n1 n2 H1 H2.
    destruct (B n1) as (h1 & _ & R1 & _ & M1 & _); [lra|]. destruct (B n2) as (h2 & _ & R2 & _ & M2 & _); [lra|].
    exists h1, h2. split; [exact R1|]. split; [exact R2|]. rewrite M1, M2.
    destruct (prewarp_ok f fs Hf) as [_ HK]. set (K := tan (PI * f / fs)) in *. pose proof PI_RGT_0 as HP.
    assert (T1 : 0 <= tan (PI * n1)).
    { destruct (Req_dec n1 0) as [->|Hn]; [rewrite Rmult_0_r, tan_0; lra|]. left. apply tan_gt_0; nra. }
    assert (T2 : tan (PI * n1) < tan (PI * n2)) by (apply tan_increasing; nra).
    set (x1 := tan (PI * n1) / K). set (x2 := tan (PI * n2) / K).
    assert (X1 : 0 <= x1) by (apply Rmult_le_pos; [assumption|left; now apply Rinv_0_lt_compat]).
    assert (X2 : x1 < x2) by (apply Rmult_lt_compat_r; [now apply Rinv_0_lt_compat|assumption]).
    assert (X4 : 0 <= x1 ^ 4 < x2 ^ 4).
    { assert (0 <= x1 * x1 < x2 * x2) by nra. replace (x1 ^ 4) with (x1 * x1 * (x1 * x1)) by ring.
      replace (x2 ^ 4) with (x2 * x2 * (x2 * x2)) by ring. nra. }
    apply sqrt_lt_1_alt. split; [left; apply Rdiv_lt_0_compat; lra|].
    apply Rmult_lt_compat_l; [lra|]. apply Rinv_lt_contravar; [|lra]. apply Rmult_lt_0_compat; lra.
Qed.
Print Assumptions C93_monotone.

Example C93_case : 0 < 1000 < 8000 / 2 /\ 0 <= 1 / 10 < 1 / 5 /\ 1 / 5 < 1 / 2.
Proof. lra. Qed.

(** ** C94: a cut undoes the boost of the same number of decibels *)

Theorem C94_cut_inverts_boost : forall r g f fs Q, 0 < f < fs / 2 -> 0 < Q -> 0 < g ->
  r = low_shelf \/ r = high_shelf \/ r = peak_band_eq ->
  exists b c, biquad_design r g f fs Q = Ok b /\ biquad_design r (- g) f fs Q = Ok c /\
    forall fnorm, cos (PI * fnorm) <> 0 ->
      exists hb hc, response (make_biquad b) fnorm = Ok hb /\ response (make_biquad c) fnorm = Ok hc /\
        Cmult hb hc = RtoC 1.
Proof.
  intros r g f fs Q Hf HQ Hg Hr.
  destruct (C92_prototype_response g f fs Q Hf HQ r) as (b & B & _ & RB).
  destruct (C92_prototype_response (- g) f fs Q Hf HQ r) as (c & Cc & _ & RC).
  exists b, c. split; [exact B|]. split; [exact Cc|]. intros fnorm Hc.
  eexists. eexists. split; [exact (RB fnorm Hc)|]. split; [exact (RC fnorm Hc)|].
  assert (U : used_factor (- g) = used_factor g) by (unfold used_factor; now rewrite Rabs_Ropp).
  rewrite U. assert (HV : 0 < used_factor g) by exact (V_pos g). set (V := used_factor g) in *. clearbody V.
  assert (NZ : forall c2 c1 c0, 0 < c2 -> 0 < c1 -> 0 < c0 -> poly2 c2 c1 c0 (analogue_frequency f fs fnorm) <> RtoC 0).
  { intros c2 c1 c0 P2 P1 P0 X. unfold analogue_frequency in X. set (t := tan (PI * fnorm) / tan (PI * f / fs)) in X.
    pose proof (f_equal fst X) as E1. pose proof (f_equal snd X) as E2. unfold poly2, Cplus, Cmult, RtoC in E1, E2; cbn in E1, E2.
    assert (t = 0) by nra. subst t. rewrite H in E1. lra. }
  assert (0 < sqrt 2) by (apply sqrt_lt_R0; lra). assert (0 < sqrt (2 * V)) by (apply sqrt_lt_R0; lra).
  assert (0 < 1 / Q) by (apply Rdiv_lt_0_compat; lra). assert (0 < V / Q) by (apply Rdiv_lt_0_compat; lra).
  destruct (Rle_dec 0 g); [|lra]. destruct (Rle_dec 0 (- g)); [lra|].
  destruct Hr as [->|[->| ->]];
    unfold proto_low_shelf, proto_low_shelf_cut, proto_high_shelf, proto_high_shelf_cut, proto_peak, proto_peak_cut;
    field; split; apply NZ; lra.
Qed.
Print Assumptions C94_cut_inverts_boost.

Example C94_case : 0 < 1000 < 48000 / 2 /\ 0 < 1 /\ 0 < 6 /\ cos (PI * (1 / 3)) <> 0.
Proof. repeat split; try lra. exact C92_case. Qed.
