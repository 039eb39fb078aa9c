(** * Filter designs in floating-point arithmetic

    C159 of properties.jsonl: biquad-design.hpp, onepole-design.hpp, filter-design.hpp. *)

From Coq Require Import ZArith Reals Lra Lia List.
From Flocq Require Import Core BinarySingleNaN.
From Coquelicot Require Import Complex.
From Verif Require Import Base Scalars Ieee RoundingSpec IeeeProofs Biquad BiquadSpec BiquadProofs Design DesignIeee DesignRoundingSpec DesignRoundingProofs DesignRoundingProofs2.
Import ListNotations.
Local Open Scope R_scope.

(** ** Accuracy *)

Section Accuracy.

Context (prec emax : Z) {Hprec : Prec_gt_0 prec} {Hmax : Prec_lt_emax prec emax}.
Context (P24 : (24 <= prec)%Z) (E128 : (128 <= emax)%Z) (e0 : Z) (H0 : (6 <= e0)%Z) (H4 : (4 * e0 + 16 <= emax)%Z).
Context (pi : binary_float prec emax) (FPI : is_finite pi = true) (NPI : near (vv prec) 1 (B2R pi) PI).
Notation u := (bpow radix2 (- prec)).

Lemma accuracy tanT r f fs Q : tan_ok prec emax tanT -> is_finite f = true -> is_finite fs = true ->
  bpow radix2 (- e0) <= B2R f <= bpow radix2 e0 -> bpow radix2 (- e0) <= B2R fs <= bpow radix2 e0 ->
  bpow radix2 (- e0) <= B2R f / B2R fs <= 1 / 4 -> bpow radix2 (- e0) <= B2R Q <= bpow radix2 e0 ->
  let k := tan (PI * B2R f / B2R fs) in let q := B2R Q in
  let c := ieee_biquad_design prec emax pi tanT r f fs Q in
  let b := exact_b r k q in let a := {| a1 := exact_a1 k q; a2 := exact_a2 k q |} in
  all_finite c /\ close_to c b a (52 * u) (105 * u) /\
  biquad_design (kind r) 0 (B2R f) (B2R fs) q = Ok {| bc_b := b; bc_a := a |}.
Proof.
  intros TAN Ff Fs Rf Rs R RQ k q c b a. pose proof (bpow_gt_0 radix2 (- e0)) as P0.
  destruct (prewarp_near prec emax P24 E128 e0 ltac:(lia) H4 pi FPI NPI tanT TAN f fs Ff Fs Rf Rs R) as (FK & NK & RK). cbv zeta in *. fold k in NK, RK.
  destruct (coefficients prec emax P24 E128 e0 ltac:(lia) H4 11 _ Q k r ltac:(lia) FK NK RK RQ) as [AF (C0 & C1 & C2 & C3 & C4 & C5)].
  assert (EC : c = ieee_design_K prec emax r (ieee_prewarp prec emax pi tanT f fs) Q) by (destruct r; reflexivity).
  rewrite <- EC in *. fold q b a in C0, C1, C2, C3, C4, C5. split; [exact AF|].
  pose proof (pow_bound prec P24 51 ltac:(lia)) as B1. pose proof (pow_bound prec P24 52 ltac:(lia)) as B2.
  change (4 * 11 + 7)%nat with 51%nat in *. change (4 * 11 + 8)%nat with 52%nat in *.
  replace (INR 51) with 51 in B1 by (rewrite INR_IZR_INZ; reflexivity). replace (INR 52) with 52 in B2 by (rewrite INR_IZR_INZ; reflexivity).
  pose proof (u_small prec P24) as U.
  assert (D : 2 * ((1 + vv prec) ^ 52 - 1) <= 105 * u) by lra.
  assert (BP : 0 <= b0 b).
  { assert (0 < k) by lra. assert (0 < q) by (unfold q; lra). assert (0 < k / q) by (apply Rdiv_lt_0_compat; lra).
    assert (0 < k * k) by nra. assert (0 < / lead k q) by (apply Rinv_0_lt_compat; unfold lead; lra).
    unfold b, exact_b. destruct r; cbn [b0]; unfold Rdiv at 1; apply Rmult_le_pos; lra. }
  split; [repeat split; try (eapply Rle_trans; [eassumption|lra])|].
  - eapply Rle_trans; [exact C0|]. apply Rmult_le_compat_r; lra.
  - apply real_design; try (unfold q; lra).
    apply Rmult_lt_reg_r with (/ B2R fs); [apply Rinv_0_lt_compat; lra|].
    replace (B2R fs / 2 * / B2R fs) with (1 / 2) by (field; lra). change (B2R f / B2R fs < 1 / 2). lra.
Qed.

(** The stability margin. *)
Lemma stable tanT r f fs Q kap qm : tan_ok prec emax tanT -> is_finite f = true -> is_finite fs = true -> is_finite Q = true ->
  bpow radix2 (- e0) <= B2R f <= bpow radix2 e0 -> bpow radix2 (- e0) <= B2R fs <= bpow radix2 e0 ->
  bpow radix2 (- e0) <= kap <= B2R f / B2R fs -> B2R f / B2R fs <= 49 / 100 -> 1 / 2 <= B2R Q <= qm -> qm <= bpow radix2 e0 ->
  7 * u * ((1 + / (3 * kap)) * (1 + / (3 * kap))) < 1 -> 5 * u * (1 + / (3 * kap)) * 34 * qm < 1 ->
  section_stable (ieee_biquad_design prec emax pi tanT r f fs Q) /\
  (14 * u * ((1 + / (3 * kap)) * (1 + / (3 * kap))) <= 1 ->
   let c := ieee_biquad_design prec emax pi tanT Low f fs Q in
   Rabs (dc_gain c - 1) <= 25 * u * ((1 + / (3 * kap)) * (1 + / (3 * kap))) /\ nyquist_numerator c = 0).
Proof.
  intros TAN Ff Fs FQ Rf Rs R1 R2 RQ Qm G1 G2. pose proof (bpow_gt_0 radix2 (- e0)) as P0. pose proof (u_small prec P24) as U.
  destruct (prewarp_bounds prec emax P24 E128 e0 H4 pi FPI NPI tanT TAN f fs Ff Fs Rf Rs ltac:(lra)) as (FK & RK). cbv zeta in *.
  set (K := ieee_prewarp prec emax pi tanT f fs) in *.
  assert (BE : 33 <= bpow radix2 e0).
  { apply Rle_trans with (bpow radix2 6); [cbn; lra|apply bpow_le; lia]. }
  assert (SM : bpow radix2 (- e0) <= 1 / 2).
  { apply Rle_trans with (bpow radix2 (-1)); [apply bpow_le; lia|cbn; lra]. }
  assert (RK' : bpow radix2 (- e0) <= B2R K <= bpow radix2 e0) by lra.
  assert (RQ' : bpow radix2 (- e0) <= B2R Q <= bpow radix2 e0) by lra.
  assert (EC : forall r, ieee_biquad_design prec emax pi tanT r f fs Q = ieee_design_K prec emax r K Q) by (intros []; reflexivity).
  split.
  - unfold section_stable. rewrite EC, design_den. apply (den_stable prec emax P24 E128 e0 ltac:(lia) H4 K Q FK FQ RK' RQ').
    apply (resolved_range prec (3 * kap) qm); auto; lra.
  - intros G3. pose proof (lead_ratio (3 * kap) (B2R K) (B2R Q) ltac:(lra) ltac:(lra) ltac:(lra)) as LR.
    assert (KK : 0 < B2R K * B2R K) by (apply Rmult_lt_0_compat; lra).
    assert (S2 : 14 * u * lead (B2R K) (B2R Q) <= B2R K * B2R K).
    { apply Rmult_le_reg_r with (/ (B2R K * B2R K)); [apply Rinv_0_lt_compat; lra|]. rewrite Rinv_r by lra.
      rewrite Rmult_assoc. change (14 * u * (lead (B2R K) (B2R Q) / (B2R K * B2R K)) <= 1).
      eapply Rle_trans; [|exact G3]. apply Rmult_le_compat_l; lra. }
    pose proof (low_gain prec emax P24 E128 e0 ltac:(lia) H4 K Q FK FQ RK' RQ' S2) as LG.
    unfold dc_gain, nyquist_numerator. rewrite EC. cbn [ieee_design_K]. destruct (ieee_low_pass prec emax K Q) as [b a]. cbn [fst snd].
    destruct LG as [L1 L2]. split; [|exact L2]. eapply Rle_trans; [exact L1|].
    replace (25 * u * lead (B2R K) (B2R Q) / (B2R K * B2R K)) with (25 * u * (lead (B2R K) (B2R Q) / (B2R K * B2R K))) by (unfold Rdiv; ring).
    apply Rmult_le_compat_l; lra.
Qed.
End Accuracy.

(** C159: in [double], for frequencies up to a quarter of the sample frequency, every
    coefficient is within [105 * 2^-53] of the exact one and the first within a relative
    [52 * 2^-53], for any tangent that is accurate to two units in the last place. *)
Theorem C159_accuracy_double tanT r (f fs Q : double) :
  tan_ok 53 1024 tanT -> is_finite f = true -> is_finite fs = true ->
  bpow radix2 (-252) <= B2R f <= bpow radix2 252 -> bpow radix2 (-252) <= B2R fs <= bpow radix2 252 ->
  bpow radix2 (-252) <= B2R f / B2R fs <= 1 / 4 -> bpow radix2 (-252) <= B2R Q <= bpow radix2 252 ->
  let k := tan (PI * B2R f / B2R fs) in let q := B2R Q in
  let c := ieee_biquad_design 53 1024 pi_double tanT r f fs Q in
  let b := exact_b r k q in let a := {| a1 := exact_a1 k q; a2 := exact_a2 k q |} in
  all_finite c /\ close_to c b a (52 * bpow radix2 (-53)) (105 * bpow radix2 (-53)) /\
  biquad_design (kind r) 0 (B2R f) (B2R fs) q = Ok {| bc_b := b; bc_a := a |}.
Proof. exact (accuracy 53 1024 ltac:(lia) ltac:(lia) 252 ltac:(lia) ltac:(lia) pi_double eq_refl pi_double_near tanT r f fs Q). Qed.
Print Assumptions C159_accuracy_double.

(** C159: in [float] (which [double] is on AVR), within [105 * 2^-24]. *)
Theorem C159_accuracy_float tanT r (f fs Q : float) :
  tan_ok 24 128 tanT -> is_finite f = true -> is_finite fs = true ->
  bpow radix2 (-28) <= B2R f <= bpow radix2 28 -> bpow radix2 (-28) <= B2R fs <= bpow radix2 28 ->
  bpow radix2 (-28) <= B2R f / B2R fs <= 1 / 4 -> bpow radix2 (-28) <= B2R Q <= bpow radix2 28 ->
  let k := tan (PI * B2R f / B2R fs) in let q := B2R Q in
  let c := ieee_biquad_design 24 128 pi_float tanT r f fs Q in
  let b := exact_b r k q in let a := {| a1 := exact_a1 k q; a2 := exact_a2 k q |} in
  all_finite c /\ close_to c b a (52 * bpow radix2 (-24)) (105 * bpow radix2 (-24)) /\
  biquad_design (kind r) 0 (B2R f) (B2R fs) q = Ok {| bc_b := b; bc_a := a |}.
Proof. exact (accuracy 24 128 ltac:(lia) ltac:(lia) 28 ltac:(lia) ltac:(lia) pi_float eq_refl pi_float_near tanT r f fs Q). Qed.
Print Assumptions C159_accuracy_float.

(** ** Stability *)

(** C159: rounding keeps the poles within the unit circle if it is fine enough against the
    prewarped frequency, whatever that is. *)
Theorem C159_resolved_double (K Q : double) : is_finite K = true -> is_finite Q = true ->
  bpow radix2 (-252) <= B2R K <= bpow radix2 252 -> bpow radix2 (-252) <= B2R Q <= bpow radix2 252 ->
  resolved 53 (B2R K) (B2R Q) ->
  let a := ieee_den 53 1024 K Q in strictly_stable (B2R (a1 a)) (B2R (a2 a)).
Proof. exact (den_stable 53 1024 ltac:(lia) ltac:(lia) 252 ltac:(lia) ltac:(lia) K Q). Qed.
Print Assumptions C159_resolved_double.

(** C159: in [double] every design from the [2^26]th part of the sample frequency up to 49%
    of it, with a quality from 1/2 to 65536, is stable; from the [2^20]th part up the low
    pass passes a constant within 1/2000, and it blocks half the sample frequency exactly. *)
Theorem C159_stable_double tanT r (f fs Q : double) :
  tan_ok 53 1024 tanT -> is_finite f = true -> is_finite fs = true -> is_finite Q = true ->
  bpow radix2 (-252) <= B2R f <= bpow radix2 252 -> bpow radix2 (-252) <= B2R fs <= bpow radix2 252 ->
  bpow radix2 (-26) <= B2R f / B2R fs <= 49 / 100 -> 1 / 2 <= B2R Q <= 65536 ->
  section_stable (ieee_biquad_design 53 1024 pi_double tanT r f fs Q) /\
  (bpow radix2 (-20) <= B2R f / B2R fs ->
   let c := ieee_biquad_design 53 1024 pi_double tanT Low f fs Q in
   Rabs (dc_gain c - 1) <= 1 / 2000 /\ nyquist_numerator c = 0).
Proof.
  intros TAN Ff Fs FQ Rf Rs R RQ.
  assert (S26 : bpow radix2 (-252) <= bpow radix2 (-26)) by (apply bpow_le; lia).
  assert (S20 : bpow radix2 (-252) <= bpow radix2 (-20)) by (apply bpow_le; lia).
  assert (B : 65536 <= bpow radix2 252). { apply Rle_trans with (bpow radix2 16); [cbn; lra|apply bpow_le; lia]. }
  assert (ST : forall kap r, bpow radix2 (-252) <= kap <= B2R f / B2R fs -> _) by
    exact (fun kap r H => stable 53 1024 ltac:(lia) ltac:(lia) 252 ltac:(lia) ltac:(lia) pi_double eq_refl pi_double_near tanT r f fs Q kap 65536 TAN Ff Fs FQ Rf Rs H ltac:(lra) ltac:(lra) B).
  assert (U : bpow radix2 (Z.opp 53) = / 9007199254740992) by reflexivity. rewrite U in ST.
  split.
  - apply (ST (bpow radix2 (-26)) r ltac:(lra)); change (bpow radix2 (-26)) with (/ 67108864);
      replace (/ (3 * / 67108864)) with (67108864 / 3) by field; lra.
  - intros L. pose proof (ST (bpow radix2 (-20)) Low ltac:(lra)) as S.
    assert (E : / (3 * bpow radix2 (-20)) = 1048576 / 3) by (change (bpow radix2 (-20)) with (/ 1048576); field).
    rewrite E in S. destruct (S ltac:(lra) ltac:(lra)) as [_ G].
    destruct (G ltac:(lra)) as [G1 G2]. split; [|exact G2]. eapply Rle_trans; [exact G1|]. lra.
Qed.
Print Assumptions C159_stable_double.

(** C159: in [float] only from the 4000th part up (quality at most 64); from the 200th part
    up the low pass passes a constant within 1%. *)
Theorem C159_stable_float tanT r (f fs Q : float) :
  tan_ok 24 128 tanT -> is_finite f = true -> is_finite fs = true -> is_finite Q = true ->
  bpow radix2 (-28) <= B2R f <= bpow radix2 28 -> bpow radix2 (-28) <= B2R fs <= bpow radix2 28 ->
  1 / 4000 <= B2R f / B2R fs <= 49 / 100 -> 1 / 2 <= B2R Q <= 64 ->
  section_stable (ieee_biquad_design 24 128 pi_float tanT r f fs Q) /\
  (1 / 200 <= B2R f / B2R fs ->
   let c := ieee_biquad_design 24 128 pi_float tanT Low f fs Q in
   Rabs (dc_gain c - 1) <= 1 / 100 /\ nyquist_numerator c = 0).
Proof.
  intros TAN Ff Fs FQ Rf Rs R RQ.
  assert (S26 : bpow radix2 (-28) <= 1 / 4000) by (cbn; lra).
  assert (B : 64 <= bpow radix2 28). { apply Rle_trans with (bpow radix2 16); [cbn; lra|apply bpow_le; lia]. }
  assert (ST : forall kap r, bpow radix2 (-28) <= kap <= B2R f / B2R fs -> _) by
    exact (fun kap r H => stable 24 128 ltac:(lia) ltac:(lia) 28 ltac:(lia) ltac:(lia) pi_float eq_refl pi_float_near tanT r f fs Q kap 64 TAN Ff Fs FQ Rf Rs H ltac:(lra) ltac:(lra) B).
  assert (U : bpow radix2 (Z.opp 24) = / 16777216) by reflexivity. rewrite U in ST.
  split.
  - apply (ST (1 / 4000) r ltac:(lra)); replace (/ (3 * (1 / 4000))) with (4000 / 3) by field; lra.
  - intros L. pose proof (ST (1 / 200) Low ltac:(lra)) as S.
    replace (/ (3 * (1 / 200))) with (200 / 3) in S by field. destruct (S ltac:(lra) ltac:(lra)) as [_ G].
    destruct (G ltac:(lra)) as [G1 G2]. split; [|exact G2]. eapply Rle_trans; [exact G1|]. lra.
Qed.
Print Assumptions C159_stable_float.

(** Positive floating-point numbers. *)
Definition positive_float {prec emax} (x : binary_float prec emax) : bool :=
  match B2SF x with SpecFloat.S754_finite false _ _ => true | _ => false end.
Lemma positive_float_R {prec emax} (x : binary_float prec emax) : positive_float x = true -> 0 < B2R x.
Proof. destruct x as [[]|[]| |[] m e H]; try discriminate. intros _. apply F2R_gt_0. reflexivity. Qed.

(** The quality 0.7071 in [float]. *)
Definition quality_float : float := @B754_finite 24 128 false 11863169 (-24) eq_refl.

(** C159: in [float] (what [double] is on AVR) not further down: the low pass for 1 Hz at
    20 kHz has a pole outside the unit circle, whatever the last bits of the tangent; its gain
    for constants has the wrong sign as well. *)
Theorem C159_float_refuted tanT : tan_ok 24 128 tanT ->
  let c := ieee_biquad_design 24 128 pi_float tanT Low (ieee_of_Z 24 128 1) (ieee_of_Z 24 128 20000) quality_float in
  ~ section_stable c /\
  (exists z, 1 < z /\ z * z + B2R (a1 (snd c)) * z + B2R (a2 (snd c)) = 0) /\ dc_gain c < 0.
Proof.
  intros TAN c.
  set (x := Bdiv mode_NE (Bmult mode_NE pi_float (ieee_of_Z 24 128 1)) (ieee_of_Z 24 128 20000)).
  assert (BX : B2R x = 10794430 * bpow radix2 (-36)).
  { unfold x. rewrite <- SF2R_B2SF. replace (B2SF _) with (SpecFloat.S754_finite false 10794430 (-36)) by (vm_compute; reflexivity). reflexivity. }
  assert (XV : B2R x = 10794430 / 68719476736) by (rewrite BX; change (bpow radix2 (-36)) with (/ 68719476736); reflexivity).
  assert (FX : is_finite x = true) by (vm_compute; reflexivity).
  pose proof pi_digits as PD. destruct (TAN x FX ltac:(lra)) as [FK XK]. set (K := tanT x) in *.
  pose proof (x_le_tan (B2R x) ltac:(lra)) as TL.
  assert (TU : tan (B2R x) <= B2R x * (1 + 2 / 100000000)).
  { pose proof (sin_le_x (B2R x) ltac:(lra)) as S. pose proof (cos_ge (B2R x) ltac:(lra)) as C. rewrite XV in *.
    unfold tan. set (s := sin _) in *. set (k := cos _) in *. assert (0 < k) by lra.
    apply Rmult_le_reg_r with k; [lra|]. unfold Rdiv at 1. rewrite Rmult_assoc, Rinv_l, Rmult_1_r by lra. lra. }
  change (bpow radix2 (- (24))) with (/ 16777216) in XK. apply Rabs_le_inv in XK.
  destruct (binade_float K 10794427 10794433 FK) as (m & Hm & BK); [|lia|lia|].
  { change (bpow radix2 (-36)) with (/ 68719476736). lra. }
  assert (EC : c = ieee_low_pass 24 128 K quality_float) by reflexivity. clearbody K. clear XK TU TL TAN.
  assert (SC : B2SF (a1 (snd c)) = SpecFloat.S754_finite true 16773491 (-23) /\ B2SF (a2 (snd c)) = SpecFloat.S754_finite false 16769765 (-24) /\
               positive_float (b0 (fst c)) = true /\ positive_float (b1 (fst c)) = true /\ positive_float (b2 (fst c)) = true).
  { assert (CM : forall n, Zpos m = Zpos n -> forall H, K = @B754_finite 24 128 false n (-36) H).
    { intros n E H. apply B2R_inj; [|reflexivity|rewrite BK, E; reflexivity].
      destruct K as [s| | |s k e Hb]; try discriminate FK; [|reflexivity].
      exfalso. cbn in BK. pose proof (bpow_gt_0 radix2 (-36)). assert (0 < IZR (Zpos m)) by (apply IZR_lt; lia). cbn in *. nra. }
    assert (M : (Zpos m = 10794427 \/ Zpos m = 10794428 \/ Zpos m = 10794429 \/ Zpos m = 10794430 \/ Zpos m = 10794431 \/ Zpos m = 10794432 \/ Zpos m = 10794433)%Z) by lia.
    rewrite EC. destruct M as [M|[M|[M|[M|[M|[M|M]]]]]]; rewrite (CM _ M eq_refl); vm_compute; repeat split; reflexivity. }
  destruct SC as (A1 & A2 & B0 & B1 & B2). clear EC BK Hm. clearbody c.
  apply positive_float_R in B0, B1, B2.
  apply (f_equal (SF2R radix2)) in A1, A2. rewrite SF2R_B2SF in A1, A2. 
  assert (V1 : B2R (a1 (snd c)) = - (16773491 / 8388608)) by (rewrite A1; unfold SF2R, F2R; cbn; lra).
  assert (V2 : B2R (a2 (snd c)) = 16769765 / 16777216) by (rewrite A2; unfold SF2R, F2R; cbn; lra).
  assert (ROOT : exists z, 1 < z /\ z * z + B2R (a1 (snd c)) * z + B2R (a2 (snd c)) = 0).
  { rewrite V1, V2. set (p := 16773491 / 8388608). set (q := 16769765 / 16777216).
    assert (DD : 0 <= p * p - 4 * q) by (unfold p, q; lra). pose proof (sqrt_sqrt _ DD) as SS. pose proof (sqrt_pos (p * p - 4 * q)) as SP.
    set (d := sqrt (p * p - 4 * q)) in *. exists ((p + d) / 2). split; [|nra].
    assert (2 - p < d); [|lra]. apply Rsqr_incrst_0; [|unfold p; lra|exact SP]. unfold Rsqr. rewrite SS. unfold p, q. lra. }
  split; [|split; [exact ROOT|]].
  - unfold section_stable. rewrite strict_triangle, V1, V2. intros [_ H]. apply Rabs_def2 in H. lra.
  - unfold dc_gain. rewrite V1, V2. set (n := B2R (b0 (fst c)) + _ + _). assert (0 < n) by (unfold n; lra).
    assert (/ (1 + - (16773491 / 8388608) + 16769765 / 16777216) < 0) by (apply Rinv_lt_0_compat; lra). unfold Rdiv at 1. nra.
Qed.
Print Assumptions C159_float_refuted.

(** ** One pole *)

(** C159: the one-pole designs in [double]: stable, and the low pass passes a constant, the
    high pass half the sample frequency, within [2^-53]. *)
Theorem C159_onepole_double expT (f fs : double) :
  exp_ok 53 1024 expT -> is_finite f = true -> is_finite fs = true ->
  bpow radix2 (-252) <= B2R f <= bpow radix2 252 -> bpow radix2 (-252) <= B2R fs <= bpow radix2 252 ->
  (2 * bpow radix2 (-53) <= B2R f / B2R fs <= 1 ->
   let '(b0, a1) := ieee_onepole_low_pass 53 1024 pi_double expT f fs in
   is_finite b0 = true /\ is_finite a1 = true /\ -1 < B2R a1 < 0 /\ 0 < B2R b0 /\
   Rabs (B2R b0 / (1 + B2R a1) - 1) <= bpow radix2 (-53)) /\
  (B2R f / B2R fs <= 1 / 2 - 4 * bpow radix2 (-53) ->
   let '(b0, a1) := ieee_onepole_high_pass 53 1024 pi_double expT f fs in
   is_finite b0 = true /\ is_finite a1 = true /\ 0 < B2R a1 < 1 /\ 0 < B2R b0 /\
   Rabs (B2R b0 / (1 - B2R a1) - 1) <= bpow radix2 (-53)).
Proof.
  intros EX Ff Fs Rf Rs. destruct half_double as [HF HE]. split; intros R.
  - exact (onepole_low 53 1024 ltac:(lia) ltac:(lia) 252 ltac:(lia) pi_double eq_refl pi_double_near mpi_double expT f fs EX Ff Fs Rf Rs R).
  - exact (onepole_high 53 1024 ltac:(lia) ltac:(lia) ltac:(lia) 252 ltac:(lia) pi_double eq_refl pi_double_near mpi_double expT f fs EX Ff Fs Rf Rs R HF HE).
Qed.
Print Assumptions C159_onepole_double.

(** C159: in [float], within [2^-24]. *)
Theorem C159_onepole_float expT (f fs : float) :
  exp_ok 24 128 expT -> is_finite f = true -> is_finite fs = true ->
  bpow radix2 (-28) <= B2R f <= bpow radix2 28 -> bpow radix2 (-28) <= B2R fs <= bpow radix2 28 ->
  (2 * bpow radix2 (-24) <= B2R f / B2R fs <= 1 ->
   let '(b0, a1) := ieee_onepole_low_pass 24 128 pi_float expT f fs in
   is_finite b0 = true /\ is_finite a1 = true /\ -1 < B2R a1 < 0 /\ 0 < B2R b0 /\
   Rabs (B2R b0 / (1 + B2R a1) - 1) <= bpow radix2 (-24)) /\
  (B2R f / B2R fs <= 1 / 2 - 4 * bpow radix2 (-24) ->
   let '(b0, a1) := ieee_onepole_high_pass 24 128 pi_float expT f fs in
   is_finite b0 = true /\ is_finite a1 = true /\ 0 < B2R a1 < 1 /\ 0 < B2R b0 /\
   Rabs (B2R b0 / (1 - B2R a1) - 1) <= bpow radix2 (-24)).
Proof.
  intros EX Ff Fs Rf Rs. destruct half_float as [HF HE]. split; intros R.
  - exact (onepole_low 24 128 ltac:(lia) ltac:(lia) 28 ltac:(lia) pi_float eq_refl pi_float_near mpi_float expT f fs EX Ff Fs Rf Rs R).
  - exact (onepole_high 24 128 ltac:(lia) ltac:(lia) ltac:(lia) 28 ltac:(lia) pi_float eq_refl pi_float_near mpi_float expT f fs EX Ff Fs Rf Rs R HF HE).
Qed.
Print Assumptions C159_onepole_float.

(** Correctly rounded functions satisfy what is asked of the library... *)
Example C159_library : exists tanT expT tanF expF,
  tan_ok 53 1024 tanT /\ exp_ok 53 1024 expT /\ tan_ok 24 128 tanF /\ exp_ok 24 128 expF.
Proof.
  exists (fun x => flt_of 53 1024 (tan (B2R x))), (fun x => flt_of 53 1024 (exp (B2R x))), (fun x => flt_of 24 128 (tan (B2R x))), (fun x => flt_of 24 128 (exp (B2R x))).
  pose proof pi_digits as D. split; [|split; [|split]].
  - apply (rounded_tan 53 1024 ltac:(lia) ltac:(lia) 7074237752028440%Z ltac:(lia)); change (bpow radix2 (1 - 53)) with (/ 4503599627370496); change (bpow radix2 (-60)) with (/ 1152921504606846976); lra.
  - apply (rounded_exp 53 1024); lia.
  - apply (rounded_tan 24 128 ltac:(lia) ltac:(lia) 13176794%Z ltac:(lia)); change (bpow radix2 (1 - 24)) with (/ 8388608); change (bpow radix2 (-60)) with (/ 1152921504606846976); lra.
  - apply (rounded_exp 24 128); lia.
Qed.

(** ... and a 1 kHz filter at 48 kHz with quality 1 meets the other conditions, in both types. *)
Example C159_case :
  let f := ieee_of_Z 53 1024 1000 in let fs := ieee_of_Z 53 1024 48000 in let Q := ieee_of_Z 53 1024 1 in
  let g := ieee_of_Z 24 128 1000 in let gs := ieee_of_Z 24 128 48000 in let H := ieee_of_Z 24 128 1 in
  (forall tanT, tan_ok 53 1024 tanT ->
   all_finite (ieee_biquad_design 53 1024 pi_double tanT Stop f fs Q) /\
   section_stable (ieee_biquad_design 53 1024 pi_double tanT Pass f fs Q) /\
   Rabs (dc_gain (ieee_biquad_design 53 1024 pi_double tanT Low f fs Q) - 1) <= 1 / 2000) /\
  (forall tanT, tan_ok 24 128 tanT ->
   all_finite (ieee_biquad_design 24 128 pi_float tanT High g gs H) /\
   section_stable (ieee_biquad_design 24 128 pi_float tanT Low g gs H) /\
   Rabs (dc_gain (ieee_biquad_design 24 128 pi_float tanT Low g gs H) - 1) <= 1 / 100) /\
  (forall expT, exp_ok 24 128 expT -> -1 < B2R (snd (ieee_onepole_low_pass 24 128 pi_float expT g gs)) < 0).
Proof.
  cbv zeta.
  destruct (int_exact 53 1024 ltac:(lia) ltac:(lia) 1000 ltac:(lia)) as [E1 F1]. destruct (int_exact 53 1024 ltac:(lia) ltac:(lia) 48000 ltac:(lia)) as [E2 F2].
  destruct (int_exact 53 1024 ltac:(lia) ltac:(lia) 1 ltac:(lia)) as [E3 F3].
  destruct (int_exact 24 128 ltac:(lia) ltac:(lia) 1000 ltac:(lia)) as [G1 I1]. destruct (int_exact 24 128 ltac:(lia) ltac:(lia) 48000 ltac:(lia)) as [G2 I2].
  destruct (int_exact 24 128 ltac:(lia) ltac:(lia) 1 ltac:(lia)) as [G3 I3].
  assert (L : bpow radix2 (-252) <= / 67108864) by (change (/ 67108864) with (bpow radix2 (-26)); apply bpow_le; lia).
  assert (U : 67108864 <= bpow radix2 252) by (change 67108864 with (bpow radix2 26); apply bpow_le; lia).
  assert (L2 : bpow radix2 (-28) = / 268435456) by reflexivity. assert (U2 : bpow radix2 28 = 268435456) by reflexivity.
  split; [|split].
  - intros tanT TAN.
    destruct (C159_accuracy_double tanT Stop _ _ (ieee_of_Z 53 1024 1) TAN F1 F2) as [A _]; rewrite ?E1, ?E2, ?E3; try lra.
    destruct (C159_stable_double tanT Pass _ _ (ieee_of_Z 53 1024 1) TAN F1 F2 F3) as [S G]; rewrite ?E1, ?E2, ?E3; try lra.
    { change (bpow radix2 (-26)) with (/ 67108864). lra. }
    split; [exact A|]. split; [exact S|]. apply G. rewrite E1, E2. change (bpow radix2 (-20)) with (/ 1048576). lra.
  - intros tanT TAN.
    destruct (C159_accuracy_float tanT High _ _ (ieee_of_Z 24 128 1) TAN I1 I2) as [A _]; rewrite ?G1, ?G2, ?G3, ?L2, ?U2; try lra.
    destruct (C159_stable_float tanT Low _ _ (ieee_of_Z 24 128 1) TAN I1 I2 I3) as [S G]; rewrite ?G1, ?G2, ?G3, ?L2, ?U2; try lra.
    split; [exact A|]. split; [exact S|]. apply G. rewrite G1, G2. lra.
  - intros expT EX. destruct (C159_onepole_float expT _ _ EX I1 I2) as [S _]; rewrite ?G1, ?G2, ?G3, ?L2, ?U2; try lra.
    rewrite G1, G2 in S. change (bpow radix2 (-24)) with (/ 16777216) in S. specialize (S ltac:(lra)).
    destruct (ieee_onepole_low_pass _ _ _ _ _ _) as [b a]. apply S.
Qed.
