(** * Shelf and peak designs in floating-point arithmetic

    C161 of properties.jsonl: biquad-design.hpp, filter-design.hpp. *)

From Coq Require Import ZArith Reals Lra Lia List.
From Flocq Require Import Core BinarySingleNaN.
From Verif Require Import Base Scalars Ieee RoundingSpec IeeeProofs Biquad BiquadSpec BiquadProofs Design DesignIeee DesignRoundingSpec DesignRoundingProofs DesignRoundingProofs2 ShelfIeee ShelfSpec ShelfProofs ShelfProofs2.
Import ListNotations.
Local Open Scope R_scope.

Section Generic.

Context (prec emax : Z) {Hprec : Prec_gt_0 prec} {Hmax : Prec_lt_emax prec emax}.
Context (P24 : (24 <= prec)%Z) (E128 : (128 <= emax)%Z) (e0 : Z) (H0 : (6 <= e0)%Z) (H4 : (4 * e0 + 36 <= emax)%Z).
Context (pi : binary_float prec emax) (FPI : is_finite pi = true) (NPI : near (vv prec) 1 (B2R pi) PI).
Notation u := (bpow radix2 (- prec)).
Notation T := (binary_float prec emax).

Context (tanT sqrtT : T -> T) (powT : T -> T -> T) (TAN : tan_ok prec emax tanT) (SQRT : sqrt_ok prec emax sqrtT) (POW : pow_ok prec emax powT).

Lemma design_model r g f fs Q : ieee_gain_design prec emax pi tanT sqrtT powT r g f fs Q =
  model prec emax sqrtT (ieee_prewarp prec emax pi tanT f fs) (ieee_dbV_factor prec emax powT g) Q (ieee_boosts prec emax g) r.
Proof. destruct r; reflexivity. Qed.
Lemma boosts_eq (g : T) boost : is_finite g = true -> (boost = true <-> 0 <= B2R g) -> ieee_boosts prec emax g = boost.
Proof.
  intros Fg HB. pose proof (boosts_sign prec emax P24 E128 g Fg) as BS.
  destruct (ieee_boosts prec emax g), boost; try reflexivity; [symmetry; apply HB, BS; reflexivity|apply BS, HB; reflexivity].
Qed.

Lemma accuracy r (g f fs Q : T) boost : is_finite g = true -> is_finite f = true -> is_finite fs = true -> Rabs (B2R g) <= 40 ->
  bpow radix2 (- e0) <= B2R f <= bpow radix2 e0 -> bpow radix2 (- e0) <= B2R fs <= bpow radix2 e0 ->
  bpow radix2 (- e0) <= B2R f / B2R fs <= 1 / 4 -> bpow radix2 (- e0) <= B2R Q <= bpow radix2 e0 -> (boost = true <-> 0 <= B2R g) ->
  let k := tan (PI * B2R f / B2R fs) in let q := B2R Q in
  let c := ieee_gain_design prec emax pi tanT sqrtT powT r g f fs Q in
  let n := upper boost r (factor (B2R g)) k q in let d := lower boost r (factor (B2R g)) k q in
  all_finite c /\ near_section c n d (90 * u) /\
  biquad_design (gain_kind r) (B2R g) (B2R f) (B2R fs) q =
    Ok {| bc_b := {| b0 := total n / total d; b1 := middle n / total d; b2 := last n / total d |};
          bc_a := {| a1 := middle d / total d; a2 := last d / total d |} |}.
Proof.
  intros Fg Ff Fs Rg Rf Rs R RQ HB k q c n d. pose proof (bpow_gt_0 radix2 (- e0)) as P0.
  destruct (prewarp_near prec emax P24 E128 e0 ltac:(lia) ltac:(lia) pi FPI NPI tanT TAN f fs Ff Fs Rf Rs R) as (FK & NK & RK). cbv zeta in *. fold k in NK, RK.
  destruct (factor_near prec emax P24 E128 powT POW g Fg Rg) as [FV NV]. cbv zeta in *.
  assert (RV : 1 / 2 <= factor (B2R g) <= 5000).
  { apply (factor_bounds (B2R g) 40); [exact Rg|]. replace (40 / 10) with (INR 4) by (cbn; field). rewrite Rpower_pow by lra. cbn. lra. }
  unfold c. rewrite design_model, (boosts_eq g boost Fg HB).
  destruct (model_near prec emax P24 E128 (2 * e0 + 14) ltac:(lia) ltac:(lia) sqrtT SQRT e0 H0 eq_refl 11 17 ltac:(lia) ltac:(lia)
              _ _ Q k (factor (B2R g)) FK NK RK FV NV ltac:(lra) RQ boost r) as [AF (C0 & C1 & C2 & C3 & C4)].
  split; [exact AF|]. cbv zeta in *. fold q n d in C0, C1, C2, C3, C4. change (2 * cnt 11 17 + 7)%nat with 89%nat in *.
  pose proof (pow_bound prec P24 89 ltac:(lia)) as B. replace (INR 89) with 89 in B by (rewrite INR_IZR_INZ; reflexivity).
  pose proof (u_small prec P24) as U. assert (D : (1 + vv prec) ^ 89 - 1 <= 90 * u) by lra. set (e := (1 + vv prec) ^ 89 - 1) in *.
  assert (GP : 0 <= total n / total d).
  { assert (EP : 0 < e).
    { unfold e. assert (1 < (1 + vv prec) ^ 89); [|lra]. apply Rlt_pow_R1; [|lia]. pose proof (u_vv prec P24). lra. }
    apply Rmult_le_reg_l with e; [exact EP|]. rewrite Rmult_0_r. eapply Rle_trans; [apply Rabs_pos|exact C0]. }
  assert (HF : 0 < B2R f) by lra. assert (HS : 0 < B2R fs) by lra.
  split.
  - unfold near_section. cbv zeta. repeat split; (eapply Rle_trans; [eassumption|]).
    + apply Rmult_le_compat_r; lra.
    + apply Rmult_le_compat_r; lra.
    + apply Rmult_le_compat_r; lra.
    + lra.
    + lra.
  - apply real_gain_design; [exact HF| |unfold q; lra|exact HB].
    apply Rmult_lt_reg_r with (/ B2R fs); [apply Rinv_0_lt_compat; lra|].
    replace (B2R fs / 2 * / B2R fs) with (1 / 2) by (field; lra). change (B2R f / B2R fs < 1 / 2). lra.
Qed.

Lemma resolved_stable r (V K Q : T) boost : is_finite V = true -> is_finite K = true ->
  bpow radix2 (- e0) <= B2R K <= bpow radix2 e0 -> bpow radix2 (- e0) <= B2R Q <= bpow radix2 e0 -> 49 / 100 <= B2R V <= 8192 ->
  resolved3 prec (lower boost r (B2R V) (B2R K) (B2R Q)) -> section_stable (model prec emax sqrtT K V Q boost r).
Proof.
  intros FV FK RK RQ RV S. pose proof (bpow_gt_0 radix2 (- e0)) as P0.
  refine (model_stable prec emax P24 E128 (2 * e0 + 14) ltac:(lia) ltac:(lia) sqrtT SQRT e0 H0 eq_refl 0 0 ltac:(lia) ltac:(lia)
              K V Q (B2R K) (B2R V) FK _ RK FV _ RV RQ boost r eq_refl eq_refl S); apply near_refl; lra.
Qed.

Lemma stable r (g f fs Q : T) G vm kap qm : is_finite g = true -> is_finite f = true -> is_finite fs = true ->
  Rabs (B2R g) <= G -> G <= 40 -> Rpower 10 (G / 10) <= 2 * vm -> 1 <= vm <= 5000 ->
  bpow radix2 (- e0) <= B2R f <= bpow radix2 e0 -> bpow radix2 (- e0) <= B2R fs <= bpow radix2 e0 ->
  bpow radix2 (- e0) <= kap <= B2R f / B2R fs -> B2R f / B2R fs <= 49 / 100 -> 1 / 2 <= B2R Q <= qm -> qm <= bpow radix2 e0 ->
  13 * u * (41 / 10 * (vm * (1 + / 1000))) * 1156 < 1 ->
  13 * u * (41 / 10 * (vm * (1 + / 1000))) * ((1 + / (3 * kap)) * (1 + / (3 * kap))) < 1 ->
  9 * u * (41 / 10 * (vm * (1 + / 1000))) * 34 * qm * (1 + / (3 * kap)) < 1 ->
  section_stable (ieee_gain_design prec emax pi tanT sqrtT powT r g f fs Q).
Proof.
  intros Fg Ff Fs Rg G40 GV VM Rf Rs R1 R2 RQ Qm G0 G1 G2. pose proof (bpow_gt_0 radix2 (- e0)) as P0.
  destruct (prewarp_bounds prec emax P24 E128 e0 ltac:(lia) pi FPI NPI tanT TAN f fs Ff Fs Rf Rs ltac:(lra)) as (FK & RK). cbv zeta in *.
  destruct (V_bounds prec emax P24 E128 powT POW g G vm Fg Rg G40 GV) as [FV RV]. cbv zeta in *.
  rewrite design_model. set (K := ieee_prewarp prec emax pi tanT f fs) in *. set (V := ieee_dbV_factor prec emax powT g) in *.
  assert (BE : 33 <= bpow radix2 e0). { apply Rle_trans with (bpow radix2 6); [cbn; lra|apply bpow_le; lia]. }
  assert (SM : bpow radix2 (- e0) <= 1 / 2). { apply Rle_trans with (bpow radix2 (-1)); [apply bpow_le; lia|cbn; lra]. }
  apply resolved_stable; auto; try lra.
  apply (resolved3_range prec (3 * kap) qm (vm * (1 + / 1000))); auto; lra.
Qed.

End Generic.

(** C161: in [double], for gains up to 40 dB and frequencies up to a quarter of the sample
    frequency, the coefficients are within a relative [90 * 2^-53] of the exact ones (those of
    the numerator relative to its first coefficient), for any mathematical library accurate
    to two units in the last place. *)
Theorem C161_accuracy_double tanT sqrtT powT r (g f fs Q : double) boost :
  tan_ok 53 1024 tanT -> sqrt_ok 53 1024 sqrtT -> pow_ok 53 1024 powT ->
  is_finite g = true -> is_finite f = true -> is_finite fs = true -> Rabs (B2R g) <= 40 ->
  bpow radix2 (-247) <= B2R f <= bpow radix2 247 -> bpow radix2 (-247) <= B2R fs <= bpow radix2 247 ->
  bpow radix2 (-247) <= B2R f / B2R fs <= 1 / 4 -> bpow radix2 (-247) <= B2R Q <= bpow radix2 247 ->
  (boost = true <-> 0 <= B2R g) ->
  let k := tan (PI * B2R f / B2R fs) in let q := B2R Q in
  let c := ieee_gain_design 53 1024 pi_double tanT sqrtT powT r g f fs Q in
  let n := upper boost r (factor (B2R g)) k q in let d := lower boost r (factor (B2R g)) k q in
  all_finite c /\ near_section c n d (90 * bpow radix2 (-53)) /\
  biquad_design (gain_kind r) (B2R g) (B2R f) (B2R fs) q =
    Ok {| bc_b := {| b0 := total n / total d; b1 := middle n / total d; b2 := last n / total d |};
          bc_a := {| a1 := middle d / total d; a2 := last d / total d |} |}.
Proof.
  intros TAN SQRT POW.
  exact (accuracy 53 1024 ltac:(lia) ltac:(lia) 247 ltac:(lia) ltac:(lia) pi_double eq_refl pi_double_near tanT sqrtT powT TAN SQRT POW r g f fs Q boost).
Qed.
Print Assumptions C161_accuracy_double.

(** C161: where [double] has 24 bits (as on AVR), within [90 * 2^-24]. *)
Theorem C161_accuracy_float tanT sqrtT powT r (g f fs Q : float) boost :
  tan_ok 24 128 tanT -> sqrt_ok 24 128 sqrtT -> pow_ok 24 128 powT ->
  is_finite g = true -> is_finite f = true -> is_finite fs = true -> Rabs (B2R g) <= 40 ->
  bpow radix2 (-23) <= B2R f <= bpow radix2 23 -> bpow radix2 (-23) <= B2R fs <= bpow radix2 23 ->
  bpow radix2 (-23) <= B2R f / B2R fs <= 1 / 4 -> bpow radix2 (-23) <= B2R Q <= bpow radix2 23 ->
  (boost = true <-> 0 <= B2R g) ->
  let k := tan (PI * B2R f / B2R fs) in let q := B2R Q in
  let c := ieee_gain_design 24 128 pi_float tanT sqrtT powT r g f fs Q in
  let n := upper boost r (factor (B2R g)) k q in let d := lower boost r (factor (B2R g)) k q in
  all_finite c /\ near_section c n d (90 * bpow radix2 (-24)) /\
  biquad_design (gain_kind r) (B2R g) (B2R f) (B2R fs) q =
    Ok {| bc_b := {| b0 := total n / total d; b1 := middle n / total d; b2 := last n / total d |};
          bc_a := {| a1 := middle d / total d; a2 := last d / total d |} |}.
Proof.
  intros TAN SQRT POW.
  exact (accuracy 24 128 ltac:(lia) ltac:(lia) 23 ltac:(lia) ltac:(lia) pi_float eq_refl pi_float_near tanT sqrtT powT TAN SQRT POW r g f fs Q boost).
Qed.
Print Assumptions C161_accuracy_float.

(** C161: whatever the frequency, rounding keeps the poles within the unit circle if it is
    fine enough against the coefficients of the denominator. *)
Theorem C161_resolved_double sqrtT r (V K Q : double) boost :
  sqrt_ok 53 1024 sqrtT -> is_finite V = true -> is_finite K = true ->
  bpow radix2 (-247) <= B2R K <= bpow radix2 247 -> bpow radix2 (-247) <= B2R Q <= bpow radix2 247 ->
  49 / 100 <= B2R V <= 8192 -> resolved3 53 (lower boost r (B2R V) (B2R K) (B2R Q)) ->
  section_stable (match r with
                  | LowShelf => ieee_low_shelf 53 1024 sqrtT boost V K
                  | HighShelf => ieee_high_shelf 53 1024 sqrtT boost V K
                  | Peak => ieee_peak_band_eq 53 1024 boost V K Q
                  end).
Proof.
  intros SQRT. exact (resolved_stable 53 1024 ltac:(lia) ltac:(lia) 247 ltac:(lia) ltac:(lia) sqrtT SQRT r V K Q boost).
Qed.
Print Assumptions C161_resolved_double.

(** C161: in [double] every design from the [2^19]th part of the sample frequency up to 49%
    of it, with gains up to 40 dB and quality from 1/2 to 4096, is stable. *)
Theorem C161_stable_double tanT sqrtT powT r (g f fs Q : double) :
  tan_ok 53 1024 tanT -> sqrt_ok 53 1024 sqrtT -> pow_ok 53 1024 powT ->
  is_finite g = true -> is_finite f = true -> is_finite fs = true -> Rabs (B2R g) <= 40 ->
  bpow radix2 (-247) <= B2R f <= bpow radix2 247 -> bpow radix2 (-247) <= B2R fs <= bpow radix2 247 ->
  bpow radix2 (-19) <= B2R f / B2R fs <= 49 / 100 -> 1 / 2 <= B2R Q <= 4096 ->
  section_stable (ieee_gain_design 53 1024 pi_double tanT sqrtT powT r g f fs Q).
Proof.
  intros TAN SQRT POW Fg Ff Fs Rg Rf Rs R RQ.
  assert (S19 : bpow radix2 (-247) <= bpow radix2 (-19)) by (apply bpow_le; lia).
  assert (B12 : bpow radix2 12 <= bpow radix2 247) by (apply bpow_le; lia). change (bpow radix2 12) with 4096 in B12.
  refine (stable 53 1024 ltac:(lia) ltac:(lia) 247 ltac:(lia) ltac:(lia) pi_double eq_refl pi_double_near tanT sqrtT powT TAN SQRT POW r g f fs Q
            40 5000 (bpow radix2 (-19)) 4096 Fg Ff Fs Rg _ _ _ Rf Rs _ _ RQ B12 _ _ _);
    change (bpow radix2 (- (53))) with (/ 9007199254740992); change (bpow radix2 (- (247))) with (bpow radix2 (-247)); change (bpow radix2 (-19)) with (/ 524288) in *; try lra.
  replace (40 / 10) with (INR 4) by (cbn; field). rewrite Rpower_pow by lra. cbn. lra.
Qed.
Print Assumptions C161_stable_double.

(** C161: where [double] has 24 bits, from the 400th part up, with gains up to 12 dB and
    quality from 1/2 to 10. *)
Theorem C161_stable_float tanT sqrtT powT r (g f fs Q : float) :
  tan_ok 24 128 tanT -> sqrt_ok 24 128 sqrtT -> pow_ok 24 128 powT ->
  is_finite g = true -> is_finite f = true -> is_finite fs = true -> Rabs (B2R g) <= 12 ->
  bpow radix2 (-23) <= B2R f <= bpow radix2 23 -> bpow radix2 (-23) <= B2R fs <= bpow radix2 23 ->
  1 / 400 <= B2R f / B2R fs <= 49 / 100 -> 1 / 2 <= B2R Q <= 10 ->
  section_stable (ieee_gain_design 24 128 pi_float tanT sqrtT powT r g f fs Q).
Proof.
  intros TAN SQRT POW Fg Ff Fs Rg Rf Rs R RQ.
  refine (stable 24 128 ltac:(lia) ltac:(lia) 23 ltac:(lia) ltac:(lia) pi_float eq_refl pi_float_near tanT sqrtT powT TAN SQRT POW r g f fs Q
            12 8 (1 / 400) 10 Fg Ff Fs Rg _ _ _ Rf Rs _ _ RQ _ _ _ _);
    change (bpow radix2 (- (24))) with (/ 16777216); change (bpow radix2 (- (23))) with (/ 8388608); change (bpow radix2 23) with 8388608; try lra.
  replace (2 * 8) with 16 by ring. apply Rnot_lt_le. intros H.
  assert (P : 0 < Rpower 10 (12 / 10)) by apply exp_pos.
  assert (E5 : Rpower 10 (12 / 10) ^ 5 = 1000000).
  { rewrite <- Rpower_pow by exact P. rewrite Rpower_mult. replace (12 / 10 * INR 5) with (INR 6) by (cbn; field). rewrite Rpower_pow by lra. cbn. ring. }
  assert (X : 16 ^ 5 <= Rpower 10 (12 / 10) ^ 5) by (apply pow_incr; lra). rewrite E5 in X. cbn in X. lra.
Qed.
Print Assumptions C161_stable_float.

(** Correctly rounded functions satisfy what is asked of the library (the square root of IEEE
    754 among them)... *)
Example C161_library : exists tanT powT tanF powF,
  tan_ok 53 1024 tanT /\ sqrt_ok 53 1024 (Bsqrt mode_NE) /\ pow_ok 53 1024 powT /\
  tan_ok 24 128 tanF /\ sqrt_ok 24 128 (Bsqrt mode_NE) /\ pow_ok 24 128 powF.
Proof.
  exists (fun x => flt_of 53 1024 (tan (B2R x))), (fun _ x => flt_of 53 1024 (Rpower 10 (B2R x))), (fun x => flt_of 24 128 (tan (B2R x))), (fun _ x => flt_of 24 128 (Rpower 10 (B2R x))).
  pose proof pi_digits as D. repeat match goal with |- _ /\ _ => split end.
  - apply (rounded_tan 53 1024 ltac:(lia) ltac:(lia) 7074237752028440%Z ltac:(lia)); change (bpow radix2 (1 - 53)) with (/ 4503599627370496); change (bpow radix2 (-60)) with (/ 1152921504606846976); lra.
  - apply ieee_sqrt_ok; lia.
  - apply rounded_pow; lia.
  - apply (rounded_tan 24 128 ltac:(lia) ltac:(lia) 13176794%Z ltac:(lia)); change (bpow radix2 (1 - 24)) with (/ 8388608); change (bpow radix2 (-60)) with (/ 1152921504606846976); lra.
  - apply ieee_sqrt_ok; lia.
  - apply rounded_pow; lia.
Qed.

(** ... and a cut of 6 dB at 1 kHz and 48 kHz with quality 1 meets the other conditions. *)
Example C161_case :
  let g := ieee_of_Z 53 1024 (-6) in let f := ieee_of_Z 53 1024 1000 in let fs := ieee_of_Z 53 1024 48000 in let Q := ieee_of_Z 53 1024 1 in
  let g' := ieee_of_Z 24 128 (-6) in let f' := ieee_of_Z 24 128 1000 in let fs' := ieee_of_Z 24 128 48000 in let Q' := ieee_of_Z 24 128 1 in
  (forall tanT sqrtT powT, tan_ok 53 1024 tanT -> sqrt_ok 53 1024 sqrtT -> pow_ok 53 1024 powT ->
   all_finite (ieee_gain_design 53 1024 pi_double tanT sqrtT powT HighShelf g f fs Q) /\
   section_stable (ieee_gain_design 53 1024 pi_double tanT sqrtT powT LowShelf g f fs Q)) /\
  (forall tanT sqrtT powT, tan_ok 24 128 tanT -> sqrt_ok 24 128 sqrtT -> pow_ok 24 128 powT ->
   all_finite (ieee_gain_design 24 128 pi_float tanT sqrtT powT LowShelf g' f' fs' Q') /\
   section_stable (ieee_gain_design 24 128 pi_float tanT sqrtT powT Peak g' f' fs' Q')) /\
  resolved3 53 (lower false HighShelf 2 1 1).
Proof.
  cbv zeta.
  destruct (int_exact 53 1024 ltac:(lia) ltac:(lia) 1000 ltac:(lia)) as [E1 F1]. destruct (int_exact 53 1024 ltac:(lia) ltac:(lia) 48000 ltac:(lia)) as [E2 F2].
  destruct (int_exact 53 1024 ltac:(lia) ltac:(lia) 1 ltac:(lia)) as [E3 F3]. destruct (int_exact 53 1024 ltac:(lia) ltac:(lia) (-6) ltac:(lia)) as [E4 F4].
  destruct (int_exact 24 128 ltac:(lia) ltac:(lia) 1000 ltac:(lia)) as [G1 I1]. destruct (int_exact 24 128 ltac:(lia) ltac:(lia) 48000 ltac:(lia)) as [G2 I2].
  destruct (int_exact 24 128 ltac:(lia) ltac:(lia) 1 ltac:(lia)) as [G3 I3]. destruct (int_exact 24 128 ltac:(lia) ltac:(lia) (-6) ltac:(lia)) as [G4 I4].
  assert (L : bpow radix2 (-247) <= / 67108864) by (change (/ 67108864) with (bpow radix2 (-26)); apply bpow_le; lia).
  assert (U : 67108864 <= bpow radix2 247) by (change 67108864 with (bpow radix2 26); apply bpow_le; lia).
  assert (L2 : bpow radix2 (-23) = / 8388608) by reflexivity. assert (U2 : bpow radix2 23 = 8388608) by reflexivity.
  assert (L3 : bpow radix2 (-19) = / 524288) by reflexivity.
  assert (A6 : Rabs (-6) = 6) by (rewrite Rabs_left; lra).
  split; [|split].
  - intros tanT sqrtT powT TAN SQ POW. split.
    + destruct (C161_accuracy_double tanT sqrtT powT HighShelf _ _ _ (ieee_of_Z 53 1024 1) false TAN SQ POW F4 F1 F2) as [A _]; rewrite ?E1, ?E2, ?E3, ?E4, ?A6; try lra. exact A.
    + apply C161_stable_double; auto; rewrite ?E1, ?E2, ?E3, ?E4, ?A6, ?L3; lra.
  - intros tanT sqrtT powT TAN SQ POW. split.
    + destruct (C161_accuracy_float tanT sqrtT powT LowShelf _ _ _ (ieee_of_Z 24 128 1) false TAN SQ POW I4 I1 I2) as [A _]; rewrite ?G1, ?G2, ?G3, ?G4, ?A6, ?L2, ?U2; try lra. exact A.
    + apply C161_stable_float; auto; rewrite ?G1, ?G2, ?G3, ?G4, ?A6, ?L2, ?U2; lra.
  - unfold resolved3, lower, total. cbn [gained p0 p1 p2]. cbv zeta. change (bpow radix2 (- (53))) with (/ 9007199254740992).
    rewrite sqrt_square by lra. repeat split; lra.
Qed.
