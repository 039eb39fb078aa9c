(** * C168: the constant pi *)
From Coq Require Import QArith Qreals Reals ZArith Lia Lra Psatz Ratan.
From Flocq Require Import Core IEEE754.BinarySingleNaN.
From Verif Require Import Kalman KalmanSim Ieee KalmanIeee DesignIeee DesignRoundingProofs Constants.
Local Open Scope R_scope.

(** Nearest to a real number, and the only such: any other number of the format is farther. *)
Definition nearest {prec emax} (c : binary_float prec emax) (r : R) : Prop :=
  is_finite c = true /\
  forall x : binary_float prec emax, is_finite x = true -> B2R x <> B2R c ->
  Rabs (B2R c - r) < Rabs (B2R x - r).

Lemma nearest_pi prec emax (m : Z) (c : binary_float prec emax) :
  (3 <= prec)%Z -> (Prec_lt_emax prec emax) -> is_finite c = true ->
  B2R c = IZR m * bpow radix2 (2 - prec) -> Rabs (B2R c - PI) < bpow radix2 (2 - prec) / 2 -> nearest c PI.
Proof.
  intros P3 Hm Fc E C. split; [exact Fc|]. intros x Fx N.
  set (w := bpow radix2 (2 - prec)) in *. assert (W : 0 < w) by apply bpow_gt_0.
  pose proof pi_digits as PD.
  assert (W8 : w <= / 2). { unfold w. change (/ 2) with (bpow radix2 (-1)). apply bpow_le. lia. }
  destruct (Rlt_dec (B2R x) 2) as [L|L]; [|destruct (Rle_dec 4 (B2R x)) as [U|U]].
  - rewrite (Rabs_left1 (B2R x - PI)) by lra. lra.
  - rewrite (Rabs_pos_eq (B2R x - PI)) by lra. lra.
  - assert (F : generic_format radix2 (SpecFloat.fexp prec emax) (B2R x)) by apply generic_format_B2R.
    assert (CE : cexp radix2 (SpecFloat.fexp prec emax) (B2R x) = (2 - prec)%Z).
    { unfold cexp. rewrite (mag_unique radix2 (B2R x) 2).
      - unfold SpecFloat.fexp, SpecFloat.emin. unfold Prec_lt_emax in Hm. lia.
      - rewrite Rabs_pos_eq by lra. change (bpow radix2 (2 - 1)) with 2. change (bpow radix2 2) with 4. lra. }
    unfold generic_format in F. rewrite CE in F. unfold F2R in F. cbn [Fnum Fexp] in F. fold w in F.
    set (n := Ztrunc _) in F. assert (NM : n <> m) by (intros ->; apply N; now rewrite F, E).
    assert (D : w <= Rabs (B2R x - B2R c)).
    { rewrite F, E. rewrite <- Rmult_minus_distr_r, Rabs_mult, (Rabs_pos_eq w) by lra.
      rewrite <- minus_IZR, <- abs_IZR. assert (1 <= IZR (Z.abs (n - m))) by (apply IZR_le; lia). nra. }
    assert (T : Rabs (B2R x - B2R c) <= Rabs (B2R x - PI) + Rabs (B2R c - PI)).
    { replace (B2R x - B2R c) with ((B2R x - PI) - (B2R c - PI)) by ring. eapply Rle_trans; [apply Rabs_triang|].
      rewrite Rabs_Ropp. apply Rle_refl. }
    lra.
Qed.

Lemma num_pi_double_eq : num_pi_double = pi_double.
Proof. apply B2SF_inj. vm_compute. reflexivity. Qed.
Lemma num_pi_float_eq : num_pi_float = pi_float.
Proof. apply B2SF_inj. vm_compute. reflexivity. Qed.
Lemma num_pi_avr_eq : num_pi_avr = pi_float.
Proof. apply B2SF_inj. vm_compute. reflexivity. Qed.
Definition pi_extended : extended := @B754_finite 64 16384 false 14488038916154245120 (-62) eq_refl.
Lemma num_pi_extended_eq : num_pi_extended = pi_extended.
Proof. apply B2SF_inj. vm_compute. reflexivity. Qed.

(** The digits of the literal are the first 40 decimals of pi. *)
Theorem C168_digits : IZR pi_num / IZR pi_den <= PI < (IZR pi_num + 1) / IZR pi_den.
Proof.
  destruct (PI_2_3_7_ineq 25) as [H2 H1].
  rewrite <- machin_sum_R in H1, H2.
  assert (A : (machin_sum (2 * 25) < 31415926535897932384626433832795028841972 # 40000000000000000000000000000000000000000)%Q) by (vm_compute; reflexivity).
  assert (B : (31415926535897932384626433832795028841971 # 40000000000000000000000000000000000000000 <= machin_sum (S (2 * 25)))%Q) by (vm_compute; discriminate).
  apply Qlt_Rlt in A. apply Qle_Rle in B. unfold Q2R in A at 2. unfold Q2R in B at 1. cbn [Qnum Qden] in A, B.
  change (IZR pi_den) with 10000000000000000000000000000000000000000.
  change (IZR pi_num) with 31415926535897932384626433832795028841971. lra.
Qed.
Print Assumptions C168_digits.

(** For [double], for [float] (rounded twice), and on AVR, [num::pi<T>] is the nearest number. *)
Theorem C168_nearest :
  nearest num_pi_double PI /\ nearest num_pi_float PI /\ nearest num_pi_avr PI.
Proof.
  rewrite num_pi_double_eq, num_pi_float_eq, num_pi_avr_eq.
  assert (D : nearest pi_double PI).
  { apply (nearest_pi 53 1024 7074237752028440); [lia|reflexivity|reflexivity| |].
    - cbn. unfold F2R. cbn. lra.
    - pose proof pi_digits. replace (B2R pi_double) with (7074237752028440 / 2251799813685248) by (cbn; unfold F2R; cbn; lra).
      change (bpow radix2 (2 - 53)) with (/ 2251799813685248). apply Rabs_lt. lra. }
  assert (F : nearest pi_float PI).
  { apply (nearest_pi 24 128 13176795); [lia|reflexivity|reflexivity| |].
    - cbn. unfold F2R. cbn. lra.
    - pose proof pi_digits. replace (B2R pi_float) with (13176795 / 4194304) by (cbn; unfold F2R; cbn; lra).
      change (bpow radix2 (2 - 24)) with (/ 4194304). apply Rabs_lt. lra. }
  auto.
Qed.
Print Assumptions C168_nearest.

(** For [long double] it is not: it is the [double], off by more than 2^-53. *)
Theorem C168_long_double_refuted :
  is_finite num_pi_extended = true /\ B2R num_pi_extended = B2R num_pi_double /\
  bpow radix2 (-53) < Rabs (B2R num_pi_extended - PI) /\ ~ nearest num_pi_extended PI.
Proof.
  rewrite num_pi_extended_eq, num_pi_double_eq. pose proof pi_digits as D.
  assert (E : B2R pi_extended = 7074237752028440 / 2251799813685248) by (cbn; unfold F2R; cbn; lra).
  assert (Ed : B2R pi_double = 7074237752028440 / 2251799813685248) by (cbn; unfold F2R; cbn; lra).
  split; [reflexivity|]. split; [now rewrite E, Ed|].
  assert (L : Rabs (B2R pi_extended - PI) = PI - 7074237752028440 / 2251799813685248) by (rewrite E, Rabs_left1; lra).
  split.
  - rewrite L. change (bpow radix2 (-53)) with (/ 9007199254740992). lra.
  - intros [_ H]. pose (c := @B754_finite 64 16384 false 14488038916154245685 (-62) eq_refl : extended).
    assert (Ec : B2R c = 14488038916154245685 / 4611686018427387904) by (cbn; unfold F2R; cbn; lra).
    assert (NE : B2R c <> B2R pi_extended) by (rewrite Ec, E; lra).
    specialize (H c eq_refl NE). rewrite L, Ec in H. revert H. apply Rle_not_lt. apply Rabs_le. lra.
Qed.
Print Assumptions C168_long_double_refuted.

(** The neighbours of the [double] are numbers of the format. *)
Example C168_case :
  let x := @B754_finite 53 1024 false 7074237752028441 (-51) eq_refl : double in
  is_finite x = true /\ B2R x <> B2R num_pi_double /\ B2R num_pi_double < PI < B2R x.
Proof.
  cbv zeta. rewrite num_pi_double_eq. pose proof pi_digits as D.
  assert (E : B2R pi_double = 7074237752028440 / 2251799813685248) by (cbn; unfold F2R; cbn; lra).
  assert (Ex : B2R (@B754_finite 53 1024 false 7074237752028441 (-51) eq_refl) = 7074237752028441 / 2251799813685248) by (cbn; unfold F2R; cbn; lra).
  rewrite Ex, E. split; [reflexivity|]. split; lra.
Qed.
