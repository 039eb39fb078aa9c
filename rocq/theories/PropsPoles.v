(** * Poles, stability test and construction from zeros and poles in floating point

    C162 of properties.jsonl: biquad.hpp. *)

From Coq Require Import ZArith Reals Lra Lia Bool.
From Coquelicot Require Import Complex.
From Flocq Require Import Core BinarySingleNaN.
From Verif Require Import Base Ieee IeeeProofs Biquad BiquadSpec BiquadProofs DesignRoundingProofs PolesIeee PolesSpec PolesProofs PolesProofs2 PolesProofs3.
Local Open Scope R_scope.

Notation double := (binary_float 53 1024).
Notation float := (binary_float 24 128).

(** ** The stability test *)

(** If all polynomials with coefficients within 32 units of rounding are stable, the test
    accepts; if none within 64 units is, it rejects. *)
Theorem C162_test_double sqrtC absC (bq : biquad double) : csqrt_ok 53 1024 sqrtC -> cabs_ok 53 1024 absC ->
  is_finite (a1 (bq_a bq)) = true -> is_finite (a2 (bq_a bq)) = true ->
  Rabs (B2R (a1 (bq_a bq))) <= bpow radix2 508 -> Rabs (B2R (a2 (bq_a bq))) <= bpow radix2 508 ->
  ((forall c1 c2, Rabs (c1 - B2R (a1 (bq_a bq))) <= 32 * bpow radix2 (-53) -> Rabs (c2 - B2R (a2 (bq_a bq))) <= 32 * bpow radix2 (-53) -> weakly_stable c1 c2) ->
   ieee_is_stable 53 1024 sqrtC absC bq = true) /\
  ((forall c1 c2, Rabs (c1 - B2R (a1 (bq_a bq))) <= 64 * bpow radix2 (-53) -> Rabs (c2 - B2R (a2 (bq_a bq))) <= 64 * bpow radix2 (-53) -> ~ weakly_stable c1 c2) ->
   ieee_is_stable 53 1024 sqrtC absC bq = false).
Proof. apply (test 53 1024 ltac:(lia) ltac:(lia) ltac:(lia) 508 ltac:(lia) ltac:(lia)). Qed.
Print Assumptions C162_test_double.

Theorem C162_test_float sqrtC absC (bq : biquad float) : csqrt_ok 24 128 sqrtC -> cabs_ok 24 128 absC ->
  is_finite (a1 (bq_a bq)) = true -> is_finite (a2 (bq_a bq)) = true ->
  Rabs (B2R (a1 (bq_a bq))) <= bpow radix2 60 -> Rabs (B2R (a2 (bq_a bq))) <= bpow radix2 60 ->
  ((forall c1 c2, Rabs (c1 - B2R (a1 (bq_a bq))) <= 32 * bpow radix2 (-24) -> Rabs (c2 - B2R (a2 (bq_a bq))) <= 32 * bpow radix2 (-24) -> weakly_stable c1 c2) ->
   ieee_is_stable 24 128 sqrtC absC bq = true) /\
  ((forall c1 c2, Rabs (c1 - B2R (a1 (bq_a bq))) <= 64 * bpow radix2 (-24) -> Rabs (c2 - B2R (a2 (bq_a bq))) <= 64 * bpow radix2 (-24) -> ~ weakly_stable c1 c2) ->
   ieee_is_stable 24 128 sqrtC absC bq = false).
Proof. apply (test 24 128 ltac:(lia) ltac:(lia) ltac:(lia) 60 ltac:(lia) ltac:(lia)). Qed.
Print Assumptions C162_test_float.

(** Without a margin the test is wrong: with correctly rounded library functions it accepts a
    filter that has a pole outside the closed unit disc. *)
Definition dbl (m e : Z) : double := binary_normalize 53 1024 eq_refl eq_refl mode_NE m e false.
Definition flt (m e : Z) : float := binary_normalize 24 128 eq_refl eq_refl mode_NE m e false.

Lemma B2R_sf prec emax (x : binary_float prec emax) f : B2SF x = f -> B2R x = SF2R radix2 f.
Proof. intros <-. symmetry. apply SF2R_B2SF. Qed.

Lemma strict prec emax (x : binary_float prec emax) : is_finite x = true -> B2R x <> 0 -> is_finite_strict x = true.
Proof. destruct x; cbn; congruence. Qed.
Local Ltac num := unfold SF2R, F2R; cbn [Fnum Fexp cond_Zopp]; unfold bpow; cbn [radix_val radix2 Z.pow_pos Pos.iter]; repeat match goal with |- context [IZR ?z] => let w := eval vm_compute in z in progress change (IZR z) with (IZR w) end.

Theorem C162_exact_refuted sqrtC absC : csqrt_best 53 1024 sqrtC -> cabs_best 53 1024 absC ->
  ~ (forall bq : biquad double, is_finite (a1 (bq_a bq)) = true -> is_finite (a2 (bq_a bq)) = true ->
     ieee_is_stable 53 1024 sqrtC absC bq = true -> weakly_stable (B2R (a1 (bq_a bq))) (B2R (a2 (bq_a bq)))).
Proof.
  intros HS HA W. set (cb := dbl (- (2 ^ 52 + 1)) (-53)). set (ca := dbl (-1) (-1)).
  specialize (W {| bq_a := {| a1 := cb; a2 := ca |}; bq_b := {| b0 := cb; b1 := cb; b2 := cb |}; bq_w := {| v1 := cb; v2 := cb |} |} eq_refl eq_refl).
  cbn [bq_a a1 a2] in W.
  assert (VB : B2R cb = - (1 / 2 + bpow radix2 (-53))).
  { rewrite (B2R_sf _ _ cb (SpecFloat.S754_finite true (2 ^ 52 + 1) (-53)) ltac:(vm_compute; reflexivity)). num. first [lra | field]. }
  assert (VC : B2R ca = - (1 / 2)).
  { rewrite (B2R_sf _ _ ca (SpecFloat.S754_finite true (2 ^ 52) (-53)) ltac:(vm_compute; reflexivity)). num. first [lra | field]. }
  rewrite weak_iff in W. cut (ieee_is_stable 53 1024 sqrtC absC {| bq_a := {| a1 := cb; a2 := ca |}; bq_b := {| b0 := cb; b1 := cb; b2 := cb |}; bq_w := {| v1 := cb; v2 := cb |} |} = true).
  { intros T. apply W in T. destruct T as (_ & T). rewrite VB, VC in T. pose proof (bpow_gt_0 radix2 (-53)) as P. apply Rabs_le_inv in T. lra. }
  clear W. unfold ieee_is_stable, ieee_poles. cbn [bq_a a1 a2]. unfold ieee_solve.
  set (zero := ieee_of_Z 53 1024 0). set (one := ieee_of_Z 53 1024 1). set (two := ieee_of_Z 53 1024 2).
  set (d := Bminus mode_NE _ _). assert (ED : d = dbl 9 (-2)) by (apply B2SF_inj; vm_compute; reflexivity).
  assert (VD : B2R (dbl 9 (-2)) = 9 / 4).
  { rewrite (B2R_sf _ _ (dbl 9 (-2)) (SpecFloat.S754_finite false (9 * 2 ^ 49) (-51)) ltac:(vm_compute; reflexivity)). num. first [lra | field]. }
  assert (Q : sqrt (9 / 4) = 3 / 2). { replace (9 / 4) with (3 / 2 * (3 / 2)) by field. apply sqrt_square. lra. }
  assert (LB : forall e, (2 <= e)%Z -> 4 <= bpow radix2 e). { intros e He. change 4 with (bpow radix2 2). apply bpow_le. exact He. }
  pose proof (LB (1024 - 4)%Z ltac:(lia)) as LB1.
  specialize (HS d zero). rewrite ED in *. clear ED. rewrite VD in HS.
  destruct (HS eq_refl eq_refl eq_refl) as (F1 & F2 & H2). { rewrite Rabs_pos_eq; lra. }
  destruct (Rle_dec 0 (9 / 4)) as [_|N]; [|lra]. destruct H2 as (H1 & H2). rewrite Q in H1.
  assert (V3 : B2R (dbl 3 (-1)) = 3 / 2).
  { rewrite (B2R_sf _ _ (dbl 3 (-1)) (SpecFloat.S754_finite false (3 * 2 ^ 51) (-52)) ltac:(vm_compute; reflexivity)). num. first [lra | field]. }
  assert (E1 : fst (sqrtC (dbl 9 (-2), zero)) = dbl 3 (-1)).
  { rewrite <- V3, round_generic in H1; [|apply valid_rnd_N|apply (fin_format 53 1024)].
    apply B2R_inj; [|reflexivity|exact H1]. apply strict; [exact F1|]. rewrite H1, V3. lra. }
  destruct (is_zero 53 1024 _ F2 H2) as (sg & E2). rewrite E1, E2. cbn [fst snd].
  assert (L : forall (x y : double), is_finite x = true -> is_finite y = true -> B2R y = 0 -> Rabs (B2R x) <= 1 -> ieee_le 53 1024 (absC (x, y)) one = true).
  { intros x y Fx Fy Vy Vx. destruct (HA x y Fx Fy) as (FA & VA); [lra|rewrite Vy, Rabs_R0; lra|].
    assert (V1 : B2R one = 1). { unfold one. apply (int_val 53 1024 ltac:(lia) ltac:(lia) 1 ltac:(lia)). }
    apply (le_true 53 1024 ltac:(lia) ltac:(lia)); [exact FA|]. rewrite VA, Vy. change (B2R x, 0) with (RtoC (B2R x)). rewrite Cmod_R.
    apply Rle_trans with (round radix2 (FLT_exp (3 - 1024 - 53) 53) ZnearestE (B2R one)).
    - apply round_le; [apply FLT_exp_valid; reflexivity|apply valid_rnd_N|]. rewrite V1. exact Vx.
    - rewrite round_generic; [lra|apply valid_rnd_N|apply (fin_format 53 1024)]. }
  apply andb_true_intro. split; apply L; try (destruct sg; vm_compute; reflexivity).
  - rewrite <- SF2R_B2SF; match goal with |- context [SF2R radix2 ?f] => let w := eval vm_compute in f in change f with w end. num. rewrite Rabs_pos_eq; lra.
  - rewrite <- SF2R_B2SF; match goal with |- context [SF2R radix2 ?f] => let w := eval vm_compute in f in change f with w end. num. rewrite Rabs_left; lra.
Qed.
Print Assumptions C162_exact_refuted.

(** ** Construction from zeros and poles *)

(** The coefficients are those of the polynomials with the given roots, up to rounding. *)
Theorem C162_zpk_double (z p : (double * double) * (double * double)) (k : double) zl1 zl2 pl1 pl2 :
  fin2 53 1024 508 (fst z) -> fin2 53 1024 508 (snd z) -> fin2 53 1024 508 (fst p) -> fin2 53 1024 508 (snd p) ->
  is_finite k = true -> Rabs (B2R k) <= 1 ->
  real_or_conjugate (val 53 1024 (fst z), val 53 1024 (snd z)) -> real_or_conjugate (val 53 1024 (fst p), val 53 1024 (snd p)) ->
  roots_of 1 zl1 zl2 (val 53 1024 (fst z)) (val 53 1024 (snd z)) -> roots_of 1 pl1 pl2 (val 53 1024 (fst p)) (val 53 1024 (snd p)) ->
  let bq := ieee_biquad_zpk 53 1024 z p k in
  bq_w bq = {| v1 := B754_zero false; v2 := B754_zero false |} /\ b0 (bq_b bq) = k /\
  Rabs (B2R (b1 (bq_b bq)) - B2R k * zl1) <= 3 * bpow radix2 (-53) * Rabs (B2R k * zl1) + bpow radix2 (-1072) /\
  Rabs (B2R (b2 (bq_b bq)) - B2R k * zl2) <= 5 * bpow radix2 (-53) * Rabs (B2R k * zl2) + bpow radix2 (-1072) /\
  Rabs (B2R (a1 (bq_a bq)) - pl1) <= bpow radix2 (-53) * Rabs pl1 /\
  Rabs (B2R (a2 (bq_a bq)) - pl2) <= 3 * bpow radix2 (-53) * Rabs pl2 + bpow radix2 (-1072).
Proof.
  intros. replace (bpow radix2 (-1072)) with (8 * bpow radix2 (3 - 1024 - 53 - 1)) by (change 8 with (bpow radix2 3); rewrite <- bpow_plus; reflexivity).
  apply (zpk 53 1024 ltac:(lia) ltac:(lia) ltac:(lia) 508 ltac:(lia) ltac:(lia)); assumption.
Qed.
Print Assumptions C162_zpk_double.

Theorem C162_zpk_float (z p : (float * float) * (float * float)) (k : float) zl1 zl2 pl1 pl2 :
  fin2 24 128 60 (fst z) -> fin2 24 128 60 (snd z) -> fin2 24 128 60 (fst p) -> fin2 24 128 60 (snd p) ->
  is_finite k = true -> Rabs (B2R k) <= 1 ->
  real_or_conjugate (val 24 128 (fst z), val 24 128 (snd z)) -> real_or_conjugate (val 24 128 (fst p), val 24 128 (snd p)) ->
  roots_of 1 zl1 zl2 (val 24 128 (fst z)) (val 24 128 (snd z)) -> roots_of 1 pl1 pl2 (val 24 128 (fst p)) (val 24 128 (snd p)) ->
  let bq := ieee_biquad_zpk 24 128 z p k in
  bq_w bq = {| v1 := B754_zero false; v2 := B754_zero false |} /\ b0 (bq_b bq) = k /\
  Rabs (B2R (b1 (bq_b bq)) - B2R k * zl1) <= 3 * bpow radix2 (-24) * Rabs (B2R k * zl1) + bpow radix2 (-147) /\
  Rabs (B2R (b2 (bq_b bq)) - B2R k * zl2) <= 5 * bpow radix2 (-24) * Rabs (B2R k * zl2) + bpow radix2 (-147) /\
  Rabs (B2R (a1 (bq_a bq)) - pl1) <= bpow radix2 (-24) * Rabs pl1 /\
  Rabs (B2R (a2 (bq_a bq)) - pl2) <= 3 * bpow radix2 (-24) * Rabs pl2 + bpow radix2 (-147).
Proof.
  intros. replace (bpow radix2 (-147)) with (8 * bpow radix2 (3 - 128 - 24 - 1)) by (change 8 with (bpow radix2 3); rewrite <- bpow_plus; reflexivity).
  apply (zpk 24 128 ltac:(lia) ltac:(lia) ltac:(lia) 60 ltac:(lia) ltac:(lia)); assumption.
Qed.
Print Assumptions C162_zpk_float.

(** A filter made from poles at some distance from the unit circle passes the test. *)
Theorem C162_zpk_stable_double sqrtC absC (z p : (double * double) * (double * double)) (k : double) :
  csqrt_ok 53 1024 sqrtC -> cabs_ok 53 1024 absC -> fin2 53 1024 508 (fst p) -> fin2 53 1024 508 (snd p) ->
  real_or_conjugate (val 53 1024 (fst p), val 53 1024 (snd p)) ->
  Cmod (val 53 1024 (fst p)) <= 1 - bpow radix2 (-23) -> Cmod (val 53 1024 (snd p)) <= 1 - bpow radix2 (-23) ->
  ieee_is_stable 53 1024 sqrtC absC (ieee_biquad_zpk 53 1024 z p k) = true.
Proof.
  intros Sok Aok F1 F2 RC M1 M2. destruct z as [z1 z2], p as [p1 p2]. cbn [fst snd] in *.
  eapply (zpk_stable 53 1024 ltac:(lia) ltac:(lia) ltac:(lia) 508 ltac:(lia) ltac:(lia) sqrtC absC Sok Aok z1 z2 p1 p2 k (bpow radix2 (-23))); auto; try lia.
  - split; [apply bpow_ge_0|]. change 1 with (bpow radix2 0). apply bpow_le. lia.
  - rewrite <- bpow_plus. apply Rle_trans with (bpow radix2 6 * bpow radix2 (-53)).
    + apply Rmult_le_compat_r; [apply bpow_ge_0|]. cbn. lra.
    + rewrite <- bpow_plus. apply bpow_le. lia.
Qed.
Print Assumptions C162_zpk_stable_double.

Theorem C162_zpk_stable_float sqrtC absC (z p : (float * float) * (float * float)) (k : float) :
  csqrt_ok 24 128 sqrtC -> cabs_ok 24 128 absC -> fin2 24 128 60 (fst p) -> fin2 24 128 60 (snd p) ->
  real_or_conjugate (val 24 128 (fst p), val 24 128 (snd p)) ->
  Cmod (val 24 128 (fst p)) <= 1 - bpow radix2 (-9) -> Cmod (val 24 128 (snd p)) <= 1 - bpow radix2 (-9) ->
  ieee_is_stable 24 128 sqrtC absC (ieee_biquad_zpk 24 128 z p k) = true.
Proof.
  intros Sok Aok F1 F2 RC M1 M2. destruct z as [z1 z2], p as [p1 p2]. cbn [fst snd] in *.
  eapply (zpk_stable 24 128 ltac:(lia) ltac:(lia) ltac:(lia) 60 ltac:(lia) ltac:(lia) sqrtC absC Sok Aok z1 z2 p1 p2 k (bpow radix2 (-9))); auto; try lia.
  - split; [apply bpow_ge_0|]. change 1 with (bpow radix2 0). apply bpow_le. lia.
  - rewrite <- bpow_plus. apply Rle_trans with (bpow radix2 6 * bpow radix2 (-24)).
    + apply Rmult_le_compat_r; [apply bpow_ge_0|]. cbn. lra.
    + rewrite <- bpow_plus. apply bpow_le. lia.
Qed.
Print Assumptions C162_zpk_stable_float.

(** Closer to the circle it need not even be stable: two real poles inside can make a filter
    with a pole outside the closed unit disc. *)
Theorem C162_zpk_refuted :
  ~ (forall (z p : (double * double) * (double * double)) (k : double),
     fin2 53 1024 508 (fst p) -> fin2 53 1024 508 (snd p) ->
     real_or_conjugate (val 53 1024 (fst p), val 53 1024 (snd p)) ->
     Cmod (val 53 1024 (fst p)) <= 1 - bpow radix2 (-30) -> Cmod (val 53 1024 (snd p)) <= 1 - bpow radix2 (-30) ->
     let bq := ieee_biquad_zpk 53 1024 z p k in
     weakly_stable (B2R (a1 (bq_a bq))) (B2R (a2 (bq_a bq)))) /\
  ~ (forall (z p : (float * float) * (float * float)) (k : float),
     fin2 24 128 60 (fst p) -> fin2 24 128 60 (snd p) ->
     real_or_conjugate (val 24 128 (fst p), val 24 128 (snd p)) ->
     Cmod (val 24 128 (fst p)) <= 1 - bpow radix2 (-13) -> Cmod (val 24 128 (snd p)) <= 1 - bpow radix2 (-13) ->
     let bq := ieee_biquad_zpk 24 128 z p k in
     weakly_stable (B2R (a1 (bq_a bq))) (B2R (a2 (bq_a bq)))).
Proof.
  split; intros W.
  - set (p := dbl (2 ^ 53 - 2 ^ 23 - 1) (-53)). set (q := dbl (2 ^ 30 - 1) (-30)). set (o := dbl 0 0).
    assert (VP : B2R p = 1 - / 2 ^ 30 - / 2 ^ 53). { unfold p. rewrite <- SF2R_B2SF; match goal with |- context [SF2R radix2 ?f] => let w := eval vm_compute in f in change f with w end. num. lra. }
    assert (VQ : B2R q = 1 - / 2 ^ 30). { unfold q. rewrite <- SF2R_B2SF; match goal with |- context [SF2R radix2 ?f] => let w := eval vm_compute in f in change f with w end. num. lra. }
    assert (VO : B2R o = 0) by reflexivity.
    assert (BG : 1 <= bpow radix2 508) by (change 1 with (bpow radix2 0); apply bpow_le; lia).
    assert (B30 : bpow radix2 (-30) = / 2 ^ 30) by (num; lra).
    specialize (W ((o, o), (o, o)) ((p, o), (q, o)) o). cbn [fst snd] in W.
    assert (FP : fin2 53 1024 508 (p, o)). { repeat split; cbn [fst snd]; rewrite ?VP, ?VO; apply Rabs_le; lra. }
    assert (FQ : fin2 53 1024 508 (q, o)). { repeat split; cbn [fst snd]; rewrite ?VQ, ?VO; apply Rabs_le; lra. }
    specialize (W FP FQ (or_introl (conj eq_refl eq_refl))).
    unfold val in W. cbn [fst snd] in W. rewrite VO, VP, VQ, B30 in W. change (?x, 0) with (RtoC x) in W. rewrite !Cmod_R in W.
    specialize (W ltac:(apply Rabs_le; lra) ltac:(apply Rabs_le; lra)). apply weak_iff in W. destruct W as (_ & W). revert W.
    set (x1 := a1 _). set (x2 := a2 _).
    assert (V1 : B2R x1 = - (2 - / 2 ^ 29)). { rewrite <- SF2R_B2SF; match goal with |- context [SF2R radix2 ?f] => let w := eval vm_compute in f in change f with w end. num. lra. }
    assert (V2 : B2R x2 = 1 - / 2 ^ 29 - / 2 ^ 53). { rewrite <- SF2R_B2SF; match goal with |- context [SF2R radix2 ?f] => let w := eval vm_compute in f in change f with w end. num. lra. }
    rewrite V1, V2. intros W. apply Rabs_le_inv in W. lra.
  - set (p := flt (2 ^ 24 - 2 ^ 11 - 1) (-24)). set (q := flt (2 ^ 13 - 1) (-13)). set (o := flt 0 0).
    assert (VP : B2R p = 1 - / 2 ^ 13 - / 2 ^ 24). { unfold p. rewrite <- SF2R_B2SF; match goal with |- context [SF2R radix2 ?f] => let w := eval vm_compute in f in change f with w end. num. lra. }
    assert (VQ : B2R q = 1 - / 2 ^ 13). { unfold q. rewrite <- SF2R_B2SF; match goal with |- context [SF2R radix2 ?f] => let w := eval vm_compute in f in change f with w end. num. lra. }
    assert (VO : B2R o = 0) by reflexivity.
    assert (BG : 1 <= bpow radix2 60) by (change 1 with (bpow radix2 0); apply bpow_le; lia).
    assert (B30 : bpow radix2 (-13) = / 2 ^ 13) by (num; lra).
    specialize (W ((o, o), (o, o)) ((p, o), (q, o)) o). cbn [fst snd] in W.
    assert (FP : fin2 24 128 60 (p, o)). { repeat split; cbn [fst snd]; rewrite ?VP, ?VO; apply Rabs_le; lra. }
    assert (FQ : fin2 24 128 60 (q, o)). { repeat split; cbn [fst snd]; rewrite ?VQ, ?VO; apply Rabs_le; lra. }
    specialize (W FP FQ (or_introl (conj eq_refl eq_refl))).
    unfold val in W. cbn [fst snd] in W. rewrite VO, VP, VQ, B30 in W. change (?x, 0) with (RtoC x) in W. rewrite !Cmod_R in W.
    specialize (W ltac:(apply Rabs_le; lra) ltac:(apply Rabs_le; lra)). apply weak_iff in W. destruct W as (_ & W). revert W.
    set (x1 := a1 _). set (x2 := a2 _).
    assert (V1 : B2R x1 = - (2 - / 2 ^ 12)). { rewrite <- SF2R_B2SF; match goal with |- context [SF2R radix2 ?f] => let w := eval vm_compute in f in change f with w end. num. lra. }
    assert (V2 : B2R x2 = 1 - / 2 ^ 12 - / 2 ^ 24). { rewrite <- SF2R_B2SF; match goal with |- context [SF2R radix2 ?f] => let w := eval vm_compute in f in change f with w end. num. lra. }
    rewrite V1, V2. intros W. apply Rabs_le_inv in W. lra.
Qed.
Print Assumptions C162_zpk_refuted.

(** Correctly rounded functions exist and meet the hypotheses. *)
Example C162_library :
  (exists s a, csqrt_best 53 1024 s /\ cabs_best 53 1024 a) /\ (exists s a, csqrt_best 24 128 s /\ cabs_best 24 128 a) /\
  (forall s a, csqrt_best 53 1024 s -> cabs_best 53 1024 a -> csqrt_ok 53 1024 s /\ cabs_ok 53 1024 a) /\
  (forall s a, csqrt_best 24 128 s -> cabs_best 24 128 a -> csqrt_ok 24 128 s /\ cabs_ok 24 128 a).
Proof.
  split; [|split; [|split]].
  - do 2 eexists. apply (lib_best 53 1024 ltac:(lia) ltac:(lia)).
  - do 2 eexists. apply (lib_best 24 128 ltac:(lia) ltac:(lia)).
  - apply (best_ok 53 1024 ltac:(lia) ltac:(lia) ltac:(lia)).
  - apply (best_ok 24 128 ltac:(lia) ltac:(lia) ltac:(lia)).
Qed.

(** Poles at [1/2 +- i/2], a double zero at -1: stable, and the coefficients are as expected. *)
Example C162_case :
  let h := dbl 1 (-1) in let n := dbl (-1) 0 in let o := dbl 0 0 in
  let p := ((h, h), (h, Bopp h)) in let z := ((n, o), (n, o)) in
  (forall sqrtC absC, csqrt_ok 53 1024 sqrtC -> cabs_ok 53 1024 absC -> ieee_is_stable 53 1024 sqrtC absC (ieee_biquad_zpk 53 1024 z p h) = true) /\
  ieee_biquad_zpk 53 1024 z p h =
    {| bq_a := {| a1 := n; a2 := h |}; bq_b := {| b0 := h; b1 := dbl 1 0; b2 := h |}; bq_w := {| v1 := o; v2 := o |} |}.
Proof.
  intros h n o p z. assert (VH : B2R h = 1 / 2). { unfold h. rewrite <- SF2R_B2SF; match goal with |- context [SF2R radix2 ?f] => let w := eval vm_compute in f in change f with w end. num. lra. }
  assert (VM : B2R (Bopp h) = - (1 / 2)) by (rewrite B2R_Bopp, VH; reflexivity). split.
  - intros sqrtC absC Sok Aok. assert (BG : 1 <= bpow radix2 508) by (change 1 with (bpow radix2 0); apply bpow_le; lia).
    assert (B23 : bpow radix2 (-23) = / 2 ^ 23) by (num; lra).
    assert (CM : forall y, y * y = 1 / 4 -> Cmod (1 / 2, y) <= 1 - bpow radix2 (-23)).
    { intros y Hy. unfold Cmod. cbn [fst snd]. replace ((1 / 2) ^ 2 + y ^ 2) with (1 / 2) by (cbn; lra).
      rewrite B23. apply Rle_trans with (sqrt ((3 / 4) * (3 / 4))); [apply sqrt_le_1_alt; lra|]. rewrite sqrt_square; lra. }
    apply C162_zpk_stable_double; auto; unfold p, fin2, val; cbn [fst snd]; rewrite ?VH, ?VM.
    + repeat split; apply Rabs_le; lra.
    + repeat split; apply Rabs_le; lra.
    + right. unfold Cconj. cbn. reflexivity.
    + apply CM. lra.
    + apply CM. lra.
  - unfold ieee_biquad_zpk. repeat f_equal; apply B2SF_inj; vm_compute; reflexivity.
Qed.
