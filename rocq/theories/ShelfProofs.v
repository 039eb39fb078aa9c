(** * Lemmas about shelf and peak designs with rounding *)

From Coq Require Import ZArith Reals Lra Lia List.
From Flocq Require Import Core Relative Plus_error Mult_error BinarySingleNaN.
From Verif Require Import Base Scalars Ieee RoundingSpec IeeeProofs Biquad BiquadSpec BiquadProofs Design DesignIeee DesignRoundingSpec DesignRoundingProofs DesignRoundingProofs2 ShelfIeee ShelfSpec.
Import ListNotations.
Local Open Scope R_scope.

Section Generic.

Context (prec emax : Z) {Hprec : Prec_gt_0 prec} {Hmax : Prec_lt_emax prec emax}.
Context (P24 : (24 <= prec)%Z) (E128 : (128 <= emax)%Z).
Notation emin := (3 - emax - prec)%Z.
Notation fmt := (FLT_exp emin prec).
Notation u := (bpow radix2 (- prec)).
Notation T := (binary_float prec emax).
Notation near := (near (vv prec)).
Notation off := (off (vv prec)).

Local Notation "x [+] y" := (Bplus mode_NE x y) (at level 50, left associativity).
Local Notation "x [-] y" := (Bminus mode_NE x y) (at level 50, left associativity).
Local Notation "x [*] y" := (Bmult mode_NE x y) (at level 40, left associativity).
Local Notation "x [/] y" := (Bdiv mode_NE x y) (at level 40, left associativity).
Local Notation int z := (ieee_of_Z prec emax z).

(** ** A section from two polynomials *)

(** The polynomial as floating-point numbers. *)
Definition fquad : Type := T * T * T.
Definition f_total (p : fquad) : T := let '(x, y, z) := p in x [+] y [+] z.
Definition f_middle (p : fquad) : T := let '(x, y, z) := p in int 2 [*] (z [-] x).
Definition f_last (p : fquad) : T := let '(x, y, z) := p in x [-] y [+] z.
Definition f_section (n d : fquad) : coeff_b T * coeff_a T :=
  let norm := int 1 [/] f_total d in
  ({| b0 := f_total n [*] norm; b1 := f_middle n [*] norm; b2 := f_last n [*] norm |},
   {| a1 := f_middle d [*] norm; a2 := f_last d [*] norm |}).

Context (E : Z) (HE : (0 <= E)%Z) (HE2 : (2 * E + 8 <= emax)%Z).

(** Within range, and near to a polynomial. *)
Definition stands (j : nat) (f : fquad) (p : quad) : Prop :=
  let '(x, y, z) := f in
  is_finite x = true /\ is_finite y = true /\ is_finite z = true /\
  near j (B2R x) (p0 p) /\ near j (B2R y) (p1 p) /\ near j (B2R z) (p2 p) /\
  bpow radix2 (- E) <= p0 p <= bpow radix2 E /\ bpow radix2 (- E) <= p1 p <= bpow radix2 E /\ bpow radix2 (- E) <= p2 p <= bpow radix2 E.

Lemma vv0 : 0 <= vv prec. Proof. apply vv_pos. exact P24. Qed.
Lemma int1s : is_finite (int 1) = true /\ near 0 (B2R (int 1)) 1 /\ B2R (int 1) = 1.
Proof. destruct (int_exact prec emax P24 E128 1 ltac:(lia)) as [X F]. rewrite X. split; [exact F|]. split; [apply near_refl; lra|reflexivity]. Qed.
Lemma E2 : bpow radix2 (E + 2) = 4 * bpow radix2 E.
Proof. rewrite bpow_plus. change (bpow radix2 2) with 4. ring. Qed.
Lemma E1 : 1 <= bpow radix2 E.
Proof. change 1 with (bpow radix2 0). apply bpow_le. exact HE. Qed.

Lemma total_range j f p : stands j f p -> bpow radix2 (- E) <= total p <= bpow radix2 (E + 2).
Proof.
  destruct f as [[x y] z]. intros (_ & _ & _ & _ & _ & _ & R0 & R1 & R2). pose proof (bpow_gt_0 radix2 (- E)).
  rewrite E2. unfold total. lra.
Qed.
Lemma inv_range j f p : stands j f p -> bpow radix2 (- (E + 2)) <= 1 / total p <= bpow radix2 E.
Proof.
  intros S. pose proof (total_range _ _ _ S) as R. pose proof (bpow_gt_0 radix2 (- E)).
  rewrite bpow_opp. unfold Rdiv. rewrite Rmult_1_l. split; [apply Rinv_le; lra|].
  replace (bpow radix2 E) with (/ bpow radix2 (- E)); [apply Rinv_le; lra|]. rewrite bpow_opp. apply Rinv_inv.
Qed.

Lemma total_near j f p : (j <= 50)%nat -> stands j f p ->
  is_finite (f_total f) = true /\ near (S (S j)) (B2R (f_total f)) (total p).
Proof.
  destruct f as [[x y] z]. intros J (Fx & Fy & Fz & Nx & Ny & Nz & R0 & R1 & R2). pose proof (bpow_gt_0 radix2 (- E)) as P.
  assert (B : bpow radix2 (E + 2) <= bpow radix2 (emax - 2)) by (apply bpow_le; lia). rewrite E2 in B. pose proof E1.
  destruct (add_near prec emax P24 j x y (p0 p) (p1 p)) as [Fa Na]; auto; try lia; try lra.
  destruct (add_near prec emax P24 (S j) (x [+] y) z (p0 p + p1 p) (p2 p)) as [Fs Ns]; auto; try lia; try lra.
  eapply near_le; [apply vv0| |exact Nz]. lia.
Qed.

Lemma norm_near3 j f p : (j <= 50)%nat -> stands j f p ->
  is_finite (int 1 [/] f_total f) = true /\ near (j + 3) (B2R (int 1 [/] f_total f)) (1 / total p).
Proof.
  intros J St. destruct (total_near j f p J St) as [Ft Nt]. destruct int1s as (F1 & N1 & _).
  pose proof (inv_range _ _ _ St) as I.
  destruct (div_near prec emax P24 0 (S (S j)) (int 1) (f_total f) 1 (total p)) as [Fd Nd]; auto; try lia.
  { eapply Rle_trans; [|apply I]. apply bpow_le. lia. }
  { eapply Rle_trans; [apply I|]. apply bpow_le. lia. }
  split; [exact Fd|]. replace (j + 3)%nat with (S (0 + S (S j))) by lia. exact Nd.
Qed.

(** Twice a number is exact. *)
Lemma twice (x : T) : is_finite x = true -> Rabs (B2R x) <= bpow radix2 (emax - 2) ->
  B2R (int 2 [*] x) = 2 * B2R x /\ is_finite (int 2 [*] x) = true.
Proof.
  intros Fs H. destruct (int_exact prec emax P24 E128 2 ltac:(lia)) as [E2' F2].
  pose proof (Bmult_correct prec emax Hprec Hmax mode_NE (int 2) x) as C.
  change (round_mode mode_NE) with ZnearestE in C. change (SpecFloat.fexp prec emax) with fmt in C. rewrite E2' in C.
  assert (G : generic_format radix2 fmt (2 * B2R x)).
  { rewrite Rmult_comm. change 2 with (bpow radix2 1). apply mult_bpow_pos_exact_FLT; [apply fin_format|lia]. }
  rewrite (@rnd_bound prec emax Hprec Hmax) in C.
  - rewrite round_generic in C; [|apply valid_rnd_N|exact G]. destruct C as (C1 & C2 & _). rewrite F2, Fs in C2. auto.
  - apply (big_max prec emax P24). rewrite Rabs_mult, (Rabs_pos_eq 2) by lra. apply (half_big emax). exact H.
Qed.

Lemma middle_off j f p : (j <= 50)%nat -> stands j f p ->
  is_finite (f_middle f) = true /\ off (S j) (B2R (f_middle f)) (middle p) (2 * (p2 p + p0 p)).
Proof.
  destruct f as [[x y] z]. intros J (Fx & Fy & Fz & Nx & Ny & Nz & R0 & R1 & R2). cbn [f_middle]. pose proof (bpow_gt_0 radix2 (- E)) as P.
  assert (B : bpow radix2 (E + 2) <= bpow radix2 (emax - 4)) by (apply bpow_le; lia). rewrite E2 in B. pose proof E1.
  assert (B4 : 4 * bpow radix2 (emax - 4) = bpow radix2 (emax - 2)).
  { change 4 with (bpow radix2 2). rewrite <- bpow_plus. f_equal. lia. }
  destruct (sub_off prec emax P24 j z x (p2 p) (p0 p) (p2 p) (p0 p)) as [Fs Os]; auto; try lia; try lra; try (apply near_off; [apply vv0|assumption]).
  pose proof (off_twice prec P24 _ _ _ _ Os ltac:(lia)) as W.
  destruct (twice (z [-] x) Fs ltac:(lra)) as [X2 XF]. split; [exact XF|]. rewrite X2.
  pose proof (off_mult _ vv0 0 _ 2 2 2 _ _ _ ltac:(pose proof (off_exact (vv prec) 2) as Z; rewrite Rabs_pos_eq in Z by lra; exact Z) Os) as Z. exact Z.
Qed.
Lemma last_off j f p : (j <= 50)%nat -> stands j f p ->
  is_finite (f_last f) = true /\ off (S (S j)) (B2R (f_last f)) (last p) (total p).
Proof.
  destruct f as [[x y] z]. intros J (Fx & Fy & Fz & Nx & Ny & Nz & R0 & R1 & R2). cbn [f_last]. pose proof (bpow_gt_0 radix2 (- E)) as P.
  assert (B : bpow radix2 (E + 2) <= bpow radix2 (emax - 2)) by (apply bpow_le; lia). rewrite E2 in B. pose proof E1.
  destruct (sub_off prec emax P24 j x y (p0 p) (p1 p) (p0 p) (p1 p)) as [Fs Os]; auto; try lia; try lra; try (apply near_off; [apply vv0|assumption]).
  destruct (add_off prec emax P24 (S j) (x [-] y) z (p0 p - p1 p) (p2 p) (p0 p + p1 p) (p2 p)) as [Fa Oa]; auto; try lia; try lra.
  apply near_off; [apply vv0|]. eapply near_le; [apply vv0| |exact Nz]. lia.
Qed.

(** All coefficients of a section. *)
Lemma section_near j fn n fd d : (j <= 45)%nat -> stands j fn n -> stands j fd d ->
  let c := f_section fn fd in all_finite c /\ near_section c n d ((1 + vv prec) ^ (2 * j + 7) - 1).
Proof.
  intros J Sn Sd c. destruct (norm_near3 j fd d ltac:(lia) Sd) as [Fi Ni]. pose proof (near_off _ vv0 _ _ _ Ni) as Oi.
  pose proof (total_range _ _ _ Sn) as Rn. pose proof (total_range _ _ _ Sd) as Rd. pose proof (inv_range _ _ _ Sd) as RI.
  pose proof (bpow_gt_0 radix2 (- E)) as PE. pose proof (bpow_gt_0 radix2 (- (E + 2))) as PE2. pose proof E1 as BE.
  set (D := total d) in *. set (I := 1 / D) in *.
  assert (EX : forall z, z / D = z * I) by (intros z; unfold I; field; lra).
  assert (LO : forall m, bpow radix2 (- E) <= m -> bpow radix2 (3 - emax) <= m * I).
  { intros m Hm. apply Rle_trans with (bpow radix2 (- E) * bpow radix2 (- (E + 2))); [rewrite <- bpow_plus; apply bpow_le; lia|].
    apply Rmult_le_compat; lra. }
  assert (LO2 : forall m, bpow radix2 (- E) <= m -> bpow radix2 (2 - emax) <= m * I).
  { intros m Hm. eapply Rle_trans; [|apply (LO m Hm)]. apply bpow_le. lia. }
  assert (HI : forall m, 0 <= m <= 2 * bpow radix2 (E + 2) -> m * I <= bpow radix2 (emax - 2)).
  { intros m Hm. apply Rle_trans with (bpow radix2 (E + 3) * bpow radix2 E).
    - apply Rmult_le_compat; try lra. replace (E + 3)%Z with (1 + (E + 2))%Z by lia. rewrite bpow_plus. change (bpow radix2 1) with 2. lra.
    - rewrite <- bpow_plus. apply bpow_le. lia. }
  assert (MID : forall f p, stands j f p -> bpow radix2 (- E) <= 2 * (p2 p + p0 p) /\ 2 * (p2 p + p0 p) <= 2 * bpow radix2 (E + 2) /\ p2 p + p0 p <= total p).
  { intros [[x y] z] p (_ & _ & _ & _ & _ & _ & R0 & R1 & R2). rewrite E2. unfold total. lra. }
  assert (PW : forall k m, (k <= m)%nat -> (1 + vv prec) ^ k - 1 <= (1 + vv prec) ^ m - 1).
  { intros k m H. pose proof (pv_mono _ vv0 _ _ H). lra. }
  assert (EP : 0 <= (1 + vv prec) ^ (2 * j + 7) - 1) by (pose proof (pv _ vv0 (2 * j + 7)); lra).
  set (e := (1 + vv prec) ^ (2 * j + 7) - 1) in *.
  (* the three forms *)
  assert (TOT : forall f p, stands j f p -> is_finite (f_total f [*] (int 1 [/] f_total fd)) = true /\
            Rabs (B2R (f_total f [*] (int 1 [/] f_total fd)) - total p / D) <= e * (total p / D)).
  { intros f p St. destruct (total_near j f p ltac:(lia) St) as [Ft Nt]. pose proof (total_range _ _ _ St) as R.
    destruct (mul_near prec emax P24 (S (S j)) (j + 3) (f_total f) (int 1 [/] f_total fd) (total p) I) as [Fm Nm]; auto; try lia.
    { apply LO. lra. } { apply HI. lra. }
    split; [exact Fm|]. rewrite EX. eapply Rle_trans; [apply (near_abs _ vv0 _ _ _ Nm)|]. apply Rmult_le_compat_r; [apply Rmult_le_pos; lra|]. apply PW. lia. }
  assert (MDL : forall f p, stands j f p -> is_finite (f_middle f [*] (int 1 [/] f_total fd)) = true /\
            Rabs (B2R (f_middle f [*] (int 1 [/] f_total fd)) - middle p / D) <= 2 * e * (total p / D)).
  { intros f p St. destruct (middle_off j f p ltac:(lia) St) as [Ft Ot]. pose proof (total_range _ _ _ St) as R. destruct (MID f p St) as (M1 & M2 & M3).
    destruct (mul_off prec emax P24 (S j) (j + 3) (f_middle f) (int 1 [/] f_total fd) (middle p) I (2 * (p2 p + p0 p)) I) as [Fm [_ Om]]; auto; try lia.
    { apply HI. lra. }
    split; [exact Fm|]. rewrite !EX. eapply Rle_trans; [exact Om|]. replace (2 * e * (total p * I)) with (e * (2 * total p * I)) by ring.
    apply Rmult_le_compat; [pose proof (pv _ vv0 (S (S (S j + (j + 3))))); lra|apply Rmult_le_pos; lra|apply PW; lia|apply Rmult_le_compat_r; lra]. }
  assert (LST : forall f p, stands j f p -> is_finite (f_last f [*] (int 1 [/] f_total fd)) = true /\
            Rabs (B2R (f_last f [*] (int 1 [/] f_total fd)) - last p / D) <= e * (total p / D)).
  { intros f p St. destruct (last_off j f p ltac:(lia) St) as [Ft Ot]. pose proof (total_range _ _ _ St) as R.
    destruct (mul_off prec emax P24 (S (S j)) (j + 3) (f_last f) (int 1 [/] f_total fd) (last p) I (total p) I) as [Fm [_ Om]]; auto; try lia.
    { apply LO2. lra. } { apply HI. lra. }
    split; [exact Fm|]. rewrite !EX. eapply Rle_trans; [exact Om|]. apply Rmult_le_compat_r; [apply Rmult_le_pos; lra|]. apply PW. lia. }
  destruct (TOT fn n Sn) as [A1 B1]. destruct (MDL fn n Sn) as [A2 B2]. destruct (LST fn n Sn) as [A3 B3].
  destruct (MDL fd d Sd) as [A4 B4]. destruct (LST fd d Sd) as [A5 B5].
  assert (DD : total d / D = 1) by (unfold D; field; fold D; lra). rewrite DD, Rmult_1_r in B4, B5.
  split; [repeat split; assumption|]. unfold near_section. cbv zeta. fold D. cbn [c f_section fst snd b0 b1 b2 a1 a2].
  repeat split; assumption.
Qed.

(** Stability. *)
Lemma section_stable3 j fn n fd d : (j <= 5)%nat -> stands j fn n -> stands j fd d -> resolved3 prec d ->
  section_stable (f_section fn fd).
Proof.
  intros J Sn Sd (S0 & S2 & S1). destruct (section_near j fn n fd d ltac:(lia) Sn Sd) as [_ (_ & _ & _ & E1' & E2')]. cbv zeta in *.
  pose proof (u_small prec P24) as U. pose proof (total_range _ _ _ Sd) as Rd. pose proof (bpow_gt_0 radix2 (- E)) as PE.
  set (c := f_section fn fd) in *. unfold section_stable.
  set (A1 := B2R (a1 (snd c))) in *. set (A2 := B2R (a2 (snd c))) in *. set (D := total d) in *.
  assert (EB : (1 + vv prec) ^ (2 * j + 7) - 1 <= (17 + 1 / 100) * u).
  { pose proof (pv_mono _ vv0 (2 * j + 7) 17 ltac:(lia)). pose proof (pow_bound prec P24 17 ltac:(lia)) as B. replace (INR 17) with 17 in B by (cbn; ring). lra. }
  set (e := (1 + vv prec) ^ (2 * j + 7) - 1) in *.
  assert (ID : 0 < / D) by (apply Rinv_0_lt_compat; lra).
  assert (G : forall x, x * D * / D = x) by (intros; field; lra).
  assert (T1 : 13 * u < p0 d * / D) by (rewrite <- (G (13 * u)); apply Rmult_lt_compat_r; assumption).
  assert (T2 : 13 * u < p2 d * / D) by (rewrite <- (G (13 * u)); apply Rmult_lt_compat_r; assumption).
  assert (T3 : 9 * u < p1 d * / D) by (rewrite <- (G (9 * u)); apply Rmult_lt_compat_r; assumption).
  assert (SUM : p0 d * / D + p1 d * / D + p2 d * / D = 1) by (unfold D, total in *; field; lra).
  assert (M1 : middle d / D = 2 * (p2 d * / D) - 2 * (p0 d * / D)) by (unfold middle, Rdiv; ring).
  assert (M2 : last d / D = p0 d * / D - p1 d * / D + p2 d * / D) by (unfold last, Rdiv; ring).
  rewrite M1 in E1'. rewrite M2 in E2'.
  set (x := p0 d * / D) in *. set (y := p1 d * / D) in *. set (z := p2 d * / D) in *.
  apply Rabs_le_inv in E1', E2'. apply strict_triangle. split; apply Rabs_def1; lra.
Qed.

(** ** The polynomials *)

Lemma near_sqrt k x y : near k x y -> near k (sqrt x) (sqrt y).
Proof.
  intros N. pose proof (near_pos _ vv0 _ _ _ N) as Px. destruct N as (P & A & B). pose proof (pv _ vv0 k) as PV.
  set (w := (1 + vv prec) ^ k) in *.
  assert (SW : sqrt w <= w). { rewrite <- (sqrt_square w) at 2 by lra. apply sqrt_le_1_alt. nra. }
  split; [apply sqrt_lt_R0; exact P|]. split.
  - apply Rle_trans with (sqrt (x * w)); [apply sqrt_le_1_alt; lra|]. rewrite sqrt_mult by lra. apply Rmult_le_compat_l; [apply sqrt_pos|exact SW].
  - apply Rle_trans with (sqrt (y * w)); [apply sqrt_le_1_alt; lra|]. rewrite sqrt_mult by lra. apply Rmult_le_compat_l; [apply sqrt_pos|exact SW].
Qed.
(** A relative error of [m] units. *)
Lemma near_rel (m : nat) x y : (1 <= m <= 8)%nat -> 0 < y -> Rabs (x - y) <= INR m * u * y -> near (m + 1) x y.
Proof.
  intros Hm Py H. pose proof (u_small prec P24) as U. pose proof (u_vv prec P24) as UV. pose proof vv0 as V. apply Rabs_le_inv in H.
  assert (L : 1 + INR (m + 1) * u <= (1 + vv prec) ^ (m + 1)).
  { apply Rle_trans with ((1 + u) ^ (m + 1)); [|apply pow_incr; lra].
    clear -U. generalize (m + 1)%nat. induction n as [|n IH]; [cbn; lra|]. cbn [pow]. rewrite S_INR.
    assert (0 <= INR n * u) by (apply Rmult_le_pos; [apply pos_INR|lra]). nra. }
  rewrite plus_INR in L. cbn [INR] in L. assert (M : 1 <= INR m <= 8).
  { split; [change 1 with (INR 1)|replace 8 with (INR 8) by (cbn; ring)]; apply le_INR; lia. }
  split; [exact Py|]. split.
  - apply Rle_trans with (y * (1 - INR m * u) * (1 + vv prec) ^ (m + 1)); [|apply Rmult_le_compat_r; [pose proof (pv _ V (m + 1)); lra|lra]].
    assert (G : 1 <= (1 - INR m * u) * (1 + vv prec) ^ (m + 1)).
    { assert (MU : INR m * u <= 8 * / 16777216) by (apply Rmult_le_compat; lra).
      apply Rle_trans with ((1 - INR m * u) * (1 + (INR m + 1) * u)).
      { assert (X : INR m * u * (INR m + 1) <= 8 * / 16777216 * 9) by (apply Rmult_le_compat; try lra; apply Rmult_le_pos; lra).
        assert (0 <= u * (1 - INR m * u * (INR m + 1))) by (apply Rmult_le_pos; lra). lra. }
      apply Rmult_le_compat_l; lra. }
    rewrite Rmult_assoc. rewrite <- (Rmult_1_r y) at 1. apply Rmult_le_compat_l; lra.
  - apply Rle_trans with (y * (1 + INR m * u)); [lra|]. apply Rmult_le_compat_l; [lra|]. assert (0 <= u) by lra. lra.
Qed.

Context (sqrtT : T -> T) (SQRT : sqrt_ok prec emax sqrtT).

Lemma sqrt_near k (a : T) x : (k <= 90)%nat -> is_finite a = true -> near k (B2R a) x -> 49 / 50 <= x <= bpow radix2 29 - 1 ->
  is_finite (sqrtT a) = true /\ near (k + 3) (B2R (sqrtT a)) (sqrt x).
Proof.
  intros K F N R. destruct (near_half prec P24 _ _ _ N ltac:(lia)) as [H1 H2]. pose proof (near_pos _ vv0 _ _ _ N) as P.
  assert (RR : bpow radix2 (-2) <= B2R a <= bpow radix2 30).
  { replace (bpow radix2 30) with (2 * bpow radix2 29); [|cbn; lra]. change (bpow radix2 (-2)) with (/ 4). lra. }
  destruct (SQRT a F RR) as [FS ES]. split; [exact FS|].
  replace (k + 3)%nat with ((2 + 1) + k)%nat by lia. eapply near_trans; [apply vv0| |apply near_sqrt; exact N].
  apply near_rel; [lia|apply sqrt_lt_R0; exact P|]. replace (INR 2) with 2 by (cbn; ring). exact ES.
Qed.

(** [K], [V], [Q] stand for [k], [v], [q]. *)
Context (e0 : Z) (H0 : (6 <= e0)%Z) (HEe : E = (2 * e0 + 14)%Z).
Context (jk jv : nat) (JK : (jk <= 11)%nat) (JV : (jv <= 17)%nat) (K V Q : T) (k v : R).
Notation q := (B2R Q).
Context (FK : is_finite K = true) (NK : near jk (B2R K) k) (RK : bpow radix2 (- e0) <= k <= bpow radix2 e0).
Context (FV : is_finite V = true) (NV : near jv (B2R V) v) (RV : 49 / 100 <= v <= 8192).
Context (RQ : bpow radix2 (- e0) <= q <= bpow radix2 e0).

(** Counts of roundings, for all the polynomials. *)
Definition cnt : nat := Nat.max (jv + 2 * jk + 2) (jv + jk + 5).
Lemma cnt_le : (cnt <= 41)%nat. Proof. unfold cnt. lia. Qed.

Lemma b_pos e : 0 < bpow radix2 e. Proof. apply bpow_gt_0. Qed.
Lemma b_1 : 1 <= bpow radix2 e0. Proof. change 1 with (bpow radix2 0). apply bpow_le. lia. Qed.
Lemma b_n1 : bpow radix2 (- e0) <= 1. Proof. change 1 with (bpow radix2 0). apply bpow_le. lia. Qed.
Lemma k_pos : 0 < k. Proof. pose proof (b_pos (- e0)). lra. Qed.
Lemma v_pos : 0 < v. Proof. lra. Qed.
Lemma q_pos : 0 < q. Proof. pose proof (b_pos (- e0)). lra. Qed.
Lemma E_hi : bpow radix2 E = 16384 * (bpow radix2 e0 * bpow radix2 e0).
Proof. rewrite HEe. replace (2 * e0 + 14)%Z with (14 + (e0 + e0))%Z by lia. rewrite !bpow_plus. change (bpow radix2 14) with 16384. ring. Qed.
Lemma E_lo : bpow radix2 (- E) = / 16384 * (bpow radix2 (- e0) * bpow radix2 (- e0)).
Proof.
  rewrite HEe. replace (- (2 * e0 + 14))%Z with (- 14 + (- e0 + - e0))%Z by lia. rewrite !bpow_plus.
  change (bpow radix2 (-14)) with (/ 16384). ring.
Qed.
(** A product of a factor from 1/4 to 16384 and two numbers in range. *)
Lemma in_range c x y : / 4 <= c <= 16384 -> bpow radix2 (- e0) <= x <= bpow radix2 e0 -> bpow radix2 (- e0) <= y <= bpow radix2 e0 ->
  bpow radix2 (- E) <= c * (x * y) <= bpow radix2 E.
Proof.
  intros C X Y. pose proof (b_pos (- e0)). rewrite E_hi, E_lo. split.
  - apply Rmult_le_compat; try lra; [apply Rmult_le_pos; lra|apply Rmult_le_compat; lra].
  - apply Rmult_le_compat; try lra; [apply Rmult_le_pos; lra|apply Rmult_le_compat; lra].
Qed.
Lemma q_inv : bpow radix2 (- e0) <= / q <= bpow radix2 e0.
Proof.
  pose proof (b_pos (- e0)). split.
  - rewrite bpow_opp. apply Rinv_le; [apply q_pos|lra].
  - replace (bpow radix2 e0) with (/ bpow radix2 (- e0)); [apply Rinv_le; lra|]. rewrite bpow_opp. apply Rinv_inv.
Qed.
Lemma one_range : bpow radix2 (- e0) <= 1 <= bpow radix2 e0.
Proof. pose proof b_1. pose proof b_n1. lra. Qed.
Lemma r_E x : bpow radix2 (- E) <= x <= bpow radix2 E -> bpow radix2 (3 - emax) <= x /\ x <= bpow radix2 (emax - 2).
Proof.
  intros [A B]. split; [eapply Rle_trans; [|exact A]|eapply Rle_trans; [exact B|]]; apply bpow_le; lia.
Qed.

Lemma kk_ok : is_finite (K [*] K) = true /\ near (2 * jk + 1) (B2R (K [*] K)) (k * k) /\ bpow radix2 (- E) <= k * k <= bpow radix2 E.
Proof.
  pose proof (in_range 1 k k ltac:(lra) RK RK) as R. rewrite Rmult_1_l in R. destruct (r_E _ R) as [R1 R2].
  destruct (mul_near prec emax P24 jk jk K K k k) as [F N]; auto; try lia.
  split; [exact F|]. split; [|exact R]. replace (2 * jk + 1)%nat with (S (jk + jk)) by lia. exact N.
Qed.
Lemma vkk_ok : is_finite (V [*] K [*] K) = true /\ near (jv + 2 * jk + 2) (B2R (V [*] K [*] K)) (v * (k * k)) /\ bpow radix2 (- E) <= v * (k * k) <= bpow radix2 E.
Proof.
  pose proof (in_range v k 1 ltac:(lra) RK one_range) as R'. rewrite Rmult_1_r in R'. destruct (r_E _ R') as [R1 R2].
  destruct (mul_near prec emax P24 jv jk V K v k) as [F N]; auto; try lia.
  pose proof (in_range v k k ltac:(lra) RK RK) as R. destruct (r_E _ R) as [R3 R4].
  destruct (mul_near prec emax P24 (S (jv + jk)) jk (V [*] K) K (v * k) k) as [F2 N2]; auto; try lia; try (rewrite Rmult_assoc; assumption).
  rewrite Rmult_assoc in N2. split; [exact F2|]. split; [|exact R]. replace (jv + 2 * jk + 2)%nat with (S (S (jv + jk) + jk)) by lia. exact N2.
Qed.
Lemma s2_bounds : 1 <= sqrt 2 <= 2.
Proof. split; [rewrite <- sqrt_1; apply sqrt_le_1_alt; lra|]. rewrite <- (sqrt_square 2) at 2 by lra. apply sqrt_le_1_alt; lra. Qed.
Lemma s2v_bounds : 49 / 50 <= sqrt (2 * v) <= 128.
Proof. split; [rewrite <- (sqrt_square (49 / 50)) by lra; apply sqrt_le_1_alt; lra|]. rewrite <- (sqrt_square 128) by lra. apply sqrt_le_1_alt; lra. Qed.
Lemma s2k_ok : is_finite (sqrtT (int 2) [*] K) = true /\ near (jk + 4) (B2R (sqrtT (int 2) [*] K)) (sqrt 2 * k) /\ bpow radix2 (- E) <= sqrt 2 * k <= bpow radix2 E.
Proof.
  destruct (int_exact prec emax P24 E128 2 ltac:(lia)) as [E2' F2].
  destruct (sqrt_near 0 (int 2) 2 ltac:(lia) F2) as [FS NS]. { rewrite E2'. apply near_refl. lra. } { cbn. lra. }
  pose proof s2_bounds as SB. pose proof (in_range (sqrt 2) k 1 ltac:(lra) RK one_range) as R. rewrite Rmult_1_r in R. destruct (r_E _ R) as [R1 R2].
  destruct (mul_near prec emax P24 (0 + 3) jk (sqrtT (int 2)) K (sqrt 2) k) as [F N]; auto; try lia.
  split; [exact F|]. split; [|exact R]. replace (jk + 4)%nat with (S (0 + 3 + jk)) by lia. exact N.
Qed.
Lemma s2vk_ok : is_finite (sqrtT (int 2 [*] V) [*] K) = true /\ near (jv + jk + 5) (B2R (sqrtT (int 2 [*] V) [*] K)) (sqrt (2 * v) * k) /\ bpow radix2 (- E) <= sqrt (2 * v) * k <= bpow radix2 E.
Proof.
  destruct (int_exact prec emax P24 E128 2 ltac:(lia)) as [E2' F2].
  destruct (mul_near prec emax P24 0 jv (int 2) V 2 v) as [F2v N2v]; auto; try lia.
  { rewrite E2'. apply near_refl. lra. }
  { apply Rle_trans with (/ 2); [change (/ 2) with (bpow radix2 (-1)); apply bpow_le; lia|lra]. }
  { apply Rle_trans with (bpow radix2 14); [cbn; lra|apply bpow_le; lia]. }
  destruct (sqrt_near (S (0 + jv)) (int 2 [*] V) (2 * v) ltac:(lia) F2v N2v) as [FS NS]. { cbn. lra. }
  pose proof s2v_bounds as SB. pose proof (in_range (sqrt (2 * v)) k 1 ltac:(lra) RK one_range) as R. rewrite Rmult_1_r in R. destruct (r_E _ R) as [R1 R2].
  destruct (mul_near prec emax P24 (S (0 + jv) + 3) jk (sqrtT (int 2 [*] V)) K (sqrt (2 * v)) k) as [F N]; auto; try lia.
  split; [exact F|]. split; [|exact R]. replace (jv + jk + 5)%nat with (S (S (0 + jv) + 3 + jk)) by lia. exact N.
Qed.
Lemma kq_ok : is_finite (int 1 [/] Q [*] K) = true /\ near (jk + 2) (B2R (int 1 [/] Q [*] K)) (k / q) /\ bpow radix2 (- E) <= k / q <= bpow radix2 E.
Proof.
  destruct int1s as (F1 & N1 & _). pose proof q_inv as QI.
  pose proof (in_range 1 (/ q) 1 ltac:(lra) QI one_range) as R'. rewrite Rmult_1_r in R'. destruct (r_E _ R') as [R1 R2].
  destruct (div_near prec emax P24 0 0 (int 1) Q 1 q) as [F N]; auto; try lia. { apply near_refl, q_pos. }
  pose proof (in_range 1 k (/ q) ltac:(lra) RK QI) as R. rewrite Rmult_1_l in R. destruct (r_E _ R) as [R3 R4].
  assert (EQ : 1 / q * k = k / q) by (unfold Rdiv; ring).
  destruct (mul_near prec emax P24 1 jk (int 1 [/] Q) K (1 / q) k) as [F2 N2]; auto; try lia; try (rewrite EQ; assumption).
  rewrite EQ in N2. split; [exact F2|]. split; [|exact R]. replace (jk + 2)%nat with (S (1 + jk)) by lia. exact N2.
Qed.
Lemma vkq_ok : is_finite (V [/] Q [*] K) = true /\ near (jv + jk + 2) (B2R (V [/] Q [*] K)) (v * (k / q)) /\ bpow radix2 (- E) <= v * (k / q) <= bpow radix2 E.
Proof.
  pose proof q_inv as QI.
  pose proof (in_range v (/ q) 1 ltac:(lra) QI one_range) as R'. rewrite Rmult_1_r in R'. destruct (r_E _ R') as [R1 R2].
  destruct (div_near prec emax P24 jv 0 V Q v q) as [F N]; auto; try lia. { apply near_refl, q_pos. }
  pose proof (in_range v k (/ q) ltac:(lra) RK QI) as R. destruct (r_E _ R) as [R3 R4]. change (k * / q) with (k / q) in *.
  assert (EQ : v / q * k = v * (k / q)) by (unfold Rdiv; ring).
  destruct (mul_near prec emax P24 (S (jv + 0)) jk (V [/] Q) K (v / q) k) as [F2 N2]; auto; try lia; try (rewrite EQ; assumption).
  rewrite EQ in N2. split; [exact F2|]. split; [|exact R]. replace (jv + jk + 2)%nat with (S (S (jv + 0) + jk)) by lia. exact N2.
Qed.
Lemma one_ok : is_finite (int 1) = true /\ near 0 (B2R (int 1)) 1 /\ bpow radix2 (- E) <= 1 <= bpow radix2 E.
Proof.
  destruct int1s as (F1 & N1 & _). split; [exact F1|]. split; [exact N1|].
  pose proof (in_range 1 1 1 ltac:(lra) one_range one_range). lra.
Qed.
Lemma v_ok : bpow radix2 (- E) <= v <= bpow radix2 E.
Proof. pose proof (in_range v 1 1 ltac:(lra) one_range one_range). lra. Qed.

Definition f_plain (r : gain_response) : fquad :=
  match r with
  | Peak => (int 1, int 1 [/] Q [*] K, K [*] K)
  | _ => (int 1, sqrtT (int 2) [*] K, K [*] K)
  end.
Definition f_gained (r : gain_response) : fquad :=
  match r with
  | LowShelf => (int 1, sqrtT (int 2 [*] V) [*] K, V [*] K [*] K)
  | HighShelf => (V, sqrtT (int 2 [*] V) [*] K, K [*] K)
  | Peak => (int 1, V [/] Q [*] K, K [*] K)
  end.

Ltac le_cnt := match goal with H : DesignRoundingProofs.near _ _ ?x ?y |- DesignRoundingProofs.near _ _ ?x ?y => eapply near_le; [apply vv0| |exact H]; unfold cnt; lia end.
Lemma plain_stands r : stands cnt (f_plain r) (plain r k q).
Proof.
  destruct one_ok as (F1 & N1 & R1). destruct kk_ok as (Fk & Nk & Rk). destruct s2k_ok as (Fs & Ns & Rs). destruct kq_ok as (Fq & Nq & Rq).
  destruct r; cbn [f_plain plain stands p0 p1 p2]; refine (conj _ (conj _ (conj _ (conj _ (conj _ (conj _ (conj _ (conj _ _)))))))); try assumption; le_cnt.
Qed.
Lemma gained_stands r : stands cnt (f_gained r) (gained r v k q).
Proof.
  destruct one_ok as (F1 & N1 & R1). destruct kk_ok as (Fk & Nk & Rk). destruct s2vk_ok as (Fs & Ns & Rs). destruct vkq_ok as (Fq & Nq & Rq).
  destruct vkk_ok as (Fv & Nv & Rv). pose proof v_ok as RV'.
  destruct r; cbn [f_gained gained stands p0 p1 p2]; refine (conj _ (conj _ (conj _ (conj _ (conj _ (conj _ (conj _ (conj _ _)))))))); try assumption; le_cnt.
Qed.

Definition model (boost : bool) (r : gain_response) : coeff_b T * coeff_a T :=
  match r with
  | LowShelf => ieee_low_shelf prec emax sqrtT boost V K
  | HighShelf => ieee_high_shelf prec emax sqrtT boost V K
  | Peak => ieee_peak_band_eq prec emax boost V K Q
  end.
Lemma model_section (boost : bool) r : model boost r = f_section (if boost then f_gained r else f_plain r) (if boost then f_plain r else f_gained r).
Proof. destruct boost, r; reflexivity. Qed.

Lemma upper_stands (boost : bool) r : stands cnt (if boost then f_gained r else f_plain r) (upper boost r v k q).
Proof. destruct boost; [apply gained_stands|apply plain_stands]. Qed.
Lemma lower_stands (boost : bool) r : stands cnt (if boost then f_plain r else f_gained r) (lower boost r v k q).
Proof. destruct boost; [apply plain_stands|apply gained_stands]. Qed.

Lemma model_near boost r : all_finite (model boost r) /\
  near_section (model boost r) (upper boost r v k q) (lower boost r v k q) ((1 + vv prec) ^ (2 * cnt + 7) - 1).
Proof.
  rewrite model_section. apply section_near; [pose proof cnt_le; lia|apply upper_stands|apply lower_stands].
Qed.
Lemma model_stable boost r : jk = O -> jv = O -> resolved3 prec (lower boost r v k q) -> section_stable (model boost r).
Proof.
  intros EK EV S. rewrite model_section. eapply (section_stable3 cnt); [unfold cnt; rewrite EK, EV; cbn; lia|apply upper_stands|apply lower_stands|exact S].
Qed.

End Generic.
