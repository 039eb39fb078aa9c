(** * Lemmas about poles and stability test with rounding *)

From Coq Require Import ZArith Reals Lra Lia Bool.
From Coquelicot Require Import Complex.
From Flocq Require Import Core Relative Mult_error BinarySingleNaN.
From Verif Require Import Base Ieee IeeeProofs Biquad BiquadSpec BiquadProofs DesignRoundingProofs PolesIeee PolesSpec PolesReal.
Local Open Scope R_scope.

Section Poles.

Context (prec emax : Z) {Hprec : Prec_gt_0 prec} {Hmax : Prec_lt_emax prec emax}.
Context (P24 : (24 <= prec)%Z) (P4 : (4 * prec <= emax)%Z) (E128 : (128 <= emax)%Z).
Notation T := (binary_float prec emax).
Notation emin := (3 - emax - prec)%Z.
Notation fmt := (FLT_exp emin prec).
Notation rnd := (round radix2 fmt ZnearestE).
Notation u := (bpow radix2 (- prec)).
Notation eta := (bpow radix2 (emin - 1)).
Notation big := (bpow radix2 (emax - 1)).
Local Notation "x [+] y" := (Bplus mode_NE x y) (at level 50, left associativity).
Local Notation "x [-] y" := (Bminus mode_NE x y) (at level 50, left associativity).
Local Notation "x [*] y" := (Bmult mode_NE x y) (at level 40, left associativity).
Local Notation "x [/] y" := (Bdiv mode_NE x y) (at level 40, left associativity).
Local Notation int z := (ieee_of_Z prec emax z).

Lemma u_range : 0 < u <= / 16777216.
Proof.
  split; [apply bpow_gt_0|]. replace (/ 16777216) with (bpow radix2 (-24)) by (cbn; lra). apply bpow_le. lia.
Qed.
Lemma eta_range : 0 <= eta <= u * u * u.
Proof.
  split; [apply bpow_ge_0|]. rewrite <- !bpow_plus. apply bpow_le. lia.
Qed.

Lemma badd (x y : T) : is_finite x = true -> is_finite y = true -> Rabs (B2R x + B2R y) <= big ->
  is_finite (x [+] y) = true /\ Rabs (B2R (x [+] y) - (B2R x + B2R y)) <= u * Rabs (B2R x + B2R y).
Proof.
  intros Fx Fy H. pose proof (Bplus_correct prec emax Hprec Hmax mode_NE x y Fx Fy) as C.
  change (round_mode mode_NE) with ZnearestE in C. change (SpecFloat.fexp prec emax) with fmt in C.
  rewrite (@rnd_bound prec emax Hprec Hmax) in C by (apply (big_max prec emax P24); exact H).
  destruct C as (E & F & _). split; [exact F|]. rewrite E. apply (@plus_err prec emax Hprec); apply fin_format.
Qed.
Lemma bsub (x y : T) : is_finite x = true -> is_finite y = true -> Rabs (B2R x - B2R y) <= big ->
  is_finite (x [-] y) = true /\ Rabs (B2R (x [-] y) - (B2R x - B2R y)) <= u * Rabs (B2R x - B2R y).
Proof.
  intros Fx Fy H. pose proof (Bminus_correct prec emax Hprec Hmax mode_NE x y Fx Fy) as C.
  change (round_mode mode_NE) with ZnearestE in C. change (SpecFloat.fexp prec emax) with fmt in C.
  rewrite (@rnd_bound prec emax Hprec Hmax) in C by (apply (big_max prec emax P24); exact H).
  destruct C as (E & F & _). split; [exact F|]. rewrite E. unfold Rminus.
  apply (@plus_err prec emax Hprec); [|apply generic_format_opp]; apply fin_format.
Qed.
Lemma bmul (x y : T) : is_finite x = true -> is_finite y = true -> Rabs (B2R x * B2R y) <= big ->
  is_finite (x [*] y) = true /\ Rabs (B2R (x [*] y) - B2R x * B2R y) <= u * Rabs (B2R x * B2R y) + eta.
Proof.
  intros Fx Fy H. pose proof (Bmult_correct prec emax Hprec Hmax mode_NE x y) as C.
  change (round_mode mode_NE) with ZnearestE in C. change (SpecFloat.fexp prec emax) with fmt in C.
  rewrite (@rnd_bound prec emax Hprec Hmax) in C by (apply (big_max prec emax P24); exact H).
  destruct C as (E & F & _). rewrite Fx, Fy in F. split; [exact F|]. rewrite E. apply (@mult_err prec emax Hprec).
Qed.
Lemma int_val z : (Z.abs z < 2 ^ 24)%Z -> B2R (int z) = IZR z /\ is_finite (int z) = true.
Proof. apply int_exact; lia. Qed.

(** Multiplication by a power of two is exact. *)
Lemma bmul_pow k z (x : T) : (0 <= k)%Z -> (Z.abs z < 2 ^ 24)%Z -> Rabs (IZR z) = bpow radix2 k -> is_finite x = true ->
  Rabs (IZR z * B2R x) <= big -> is_finite (int z [*] x) = true /\ B2R (int z [*] x) = IZR z * B2R x.
Proof.
  intros K Z1 Z2 Fx H. destruct (int_val z Z1) as (Ez & Fz).
  pose proof (Bmult_correct prec emax Hprec Hmax mode_NE (int z) x) as C.
  change (round_mode mode_NE) with ZnearestE in C. change (SpecFloat.fexp prec emax) with fmt in C. rewrite Ez in C.
  assert (G : generic_format radix2 fmt (IZR z * B2R x)).
  { assert (G0 : generic_format radix2 fmt (B2R x * bpow radix2 k)) by (apply mult_bpow_pos_exact_FLT; [apply fin_format|exact K]).
    rewrite Rmult_comm. unfold Rabs in Z2. destruct Rcase_abs in Z2; rewrite <- Z2 in G0; [|exact G0].
    replace (B2R x * IZR z) with (- (B2R x * - IZR z)) by ring. apply generic_format_opp. exact G0. }
  rewrite (@rnd_bound prec emax Hprec Hmax) in C by (apply (big_max prec emax P24); exact H).
  rewrite round_generic in C; [|apply valid_rnd_N|exact G]. destruct C as (C1 & C2 & _). rewrite Fz, Fx in C2. auto.
Qed.
Lemma bdiv1 (x : T) : is_finite x = true -> Rabs (B2R x) <= big -> is_finite (x [/] int 1) = true /\ B2R (x [/] int 1) = B2R x.
Proof.
  intros Fx H. destruct (int_val 1 ltac:(lia)) as (E1 & F1).
  pose proof (Bdiv_correct prec emax Hprec Hmax mode_NE x (int 1) ltac:(rewrite E1; lra)) as C.
  change (round_mode mode_NE) with ZnearestE in C. change (SpecFloat.fexp prec emax) with fmt in C. rewrite E1 in C.
  replace (B2R x / 1) with (B2R x) in C by field.
  rewrite (@rnd_bound prec emax Hprec Hmax) in C by (apply (big_max prec emax P24); exact H).
  rewrite round_generic in C; [|apply valid_rnd_N|apply fin_format]. destruct C as (C1 & C2 & _). rewrite Fx in C2. auto.
Qed.
Lemma bdiv2 (x : T) : is_finite x = true -> Rabs (B2R x) <= big ->
  is_finite (x [/] int 2) = true /\ Rabs (B2R (x [/] int 2) - B2R x / 2) <= u * Rabs (B2R x / 2) + eta.
Proof.
  intros Fx H. destruct (int_val 2 ltac:(lia)) as (E1 & F1).
  pose proof (Bdiv_correct prec emax Hprec Hmax mode_NE x (int 2) ltac:(rewrite E1; lra)) as C.
  change (round_mode mode_NE) with ZnearestE in C. change (SpecFloat.fexp prec emax) with fmt in C. rewrite E1 in C.
  rewrite (@rnd_bound prec emax Hprec Hmax) in C.
  - destruct C as (E & F & _). rewrite Fx in F. split; [exact F|]. rewrite E. apply (@mult_err prec emax Hprec).
  - apply (big_max prec emax P24). unfold Rdiv. rewrite Rabs_mult, (Rabs_pos_eq (/ 2)) by lra. pose proof (Rabs_pos (B2R x)). lra.
Qed.

Lemma le_true (x : T) : is_finite x = true -> (ieee_le prec emax x (int 1) = true <-> B2R x <= 1).
Proof.
  intros Fx. destruct (int_val 1 ltac:(lia)) as (E1 & F1). unfold ieee_le. rewrite Bcompare_correct by assumption. rewrite E1.
  destruct (Rcompare_spec (B2R x) 1); split; intros; try lra; try discriminate; reflexivity.
Qed.

(** ** The test *)

Context (sqrtC : T * T -> T * T) (absC : T * T -> T).
Context (Sok : csqrt_ok prec emax sqrtC) (Aok : cabs_ok prec emax absC).
Context (E : Z) (E8 : (2 * E + 8 <= emax)%Z) (E0 : (0 <= E)%Z).
Context (ca cb : T) (Fb : is_finite cb = true) (Fc : is_finite ca = true).
Context (Bb : Rabs (B2R cb) <= bpow radix2 E) (Bc : Rabs (B2R ca) <= bpow radix2 E).

Notation b := (B2R cb).
Notation c := (B2R ca).
Notation BH := (bpow radix2 E).

Lemma H1 : 1 <= BH.
Proof. change 1 with (bpow radix2 0). apply bpow_le. exact E0. Qed.
Lemma HH : 16 * (BH * BH) <= bpow radix2 (emax - 4).
Proof. change 16 with (bpow radix2 4). rewrite <- !bpow_plus. apply bpow_le. lia. Qed.
Lemma big8 : 8 * bpow radix2 (emax - 4) = big.
Proof. change 8 with (bpow radix2 3). rewrite <- bpow_plus. f_equal. lia. Qed.

Definition fb := cb [/] int 1.
Definition fc := ca [/] int 1.
Definition disc := fb [*] fb [-] int 4 [*] fc.

Lemma HH1 : BH <= BH * BH.
Proof. pose proof H1. rewrite <- (Rmult_1_r BH) at 1. apply Rmult_le_compat_l; lra. Qed.

Lemma fb_val : is_finite fb = true /\ B2R fb = b.
Proof. apply bdiv1; [exact Fb|]. pose proof HH. pose proof HH1. pose proof big8. pose proof H1. lra. Qed.
Lemma fc_val : is_finite fc = true /\ B2R fc = c.
Proof. apply bdiv1; [exact Fc|]. pose proof HH. pose proof HH1. pose proof big8. pose proof H1. lra. Qed.

Lemma bb_bound : 0 <= b * b <= BH * BH.
Proof.
  split; [apply Rle_0_sqr|]. replace (b * b) with (Rabs b * Rabs b) by (rewrite <- Rabs_mult; apply Rabs_pos_eq, Rle_0_sqr).
  pose proof (Rabs_pos b). apply Rmult_le_compat; lra.
Qed.

Lemma disc_val : exists m1, Rabs (m1 - b * b) <= u * (b * b) + eta /\ is_finite disc = true /\
  Rabs (B2R disc - (m1 - 4 * c)) <= u * Rabs (m1 - 4 * c) /\ Rabs (B2R disc) <= 8 * (BH * BH).
Proof.
  destruct fb_val as (F1 & V1). destruct fc_val as (F2 & V2). pose proof bb_bound as BB. pose proof HH as G1. pose proof HH1 as G2. pose proof big8 as G3. pose proof H1 as G4.
  pose proof u_range as U. pose proof eta_range as Et. pose proof (eta_u _ U _ Et) as Eu.
  destruct (bmul fb fb F1 F1) as (F3 & V3). { rewrite V1, Rabs_pos_eq; lra. }
  rewrite V1 in V3. rewrite (Rabs_pos_eq (b * b)) in V3 by lra.
  assert (C4 : Rabs (4 * c) <= 4 * (BH * BH)). { rewrite Rabs_mult, (Rabs_pos_eq 4) by lra. lra. }
  destruct (bmul_pow 2 4 fc ltac:(lia) ltac:(lia) ltac:(cbn; rewrite Rabs_pos_eq; lra) F2) as (F4 & V4). { rewrite V2. lra. }
  rewrite V2 in V4. exists (B2R (fb [*] fb)). split; [exact V3|].
  assert (UB : u * (b * b) <= u * (BH * BH)) by (apply Rmult_le_compat_l; lra).
  assert (UH : u * (BH * BH) <= / 16777216 * (BH * BH)) by (apply Rmult_le_compat_r; lra).
  pose proof (Rabs_le_inv _ _ V3) as V3'.
  assert (Dm : Rabs (B2R (fb [*] fb) - 4 * c) <= 6 * (BH * BH)).
  { apply Rabs_le_inv in C4. apply Rabs_le. lra. }
  destruct (bsub (fb [*] fb) (int 4 [*] fc) F3 F4) as (F5 & V5). { rewrite V4. lra. }
  rewrite V4 in V5. split; [exact F5|]. split; [exact V5|].
  replace (B2R disc) with ((B2R disc - (B2R (fb [*] fb) - 4 * c)) + (B2R (fb [*] fb) - 4 * c)) by ring.
  eapply Rle_trans; [apply Rabs_triang|]. unfold disc.
  assert (u * Rabs (B2R (fb [*] fb) - 4 * c) <= / 16777216 * Rabs (B2R (fb [*] fb) - 4 * c)).
  { apply Rmult_le_compat_r; [apply Rabs_pos|lra]. } lra.
Qed.

Notation sq := (sqrtC (disc, int 0)).
Notation bqd bb0 w0 := {| bq_a := {| a1 := cb; a2 := ca |}; bq_b := bb0; bq_w := w0 |}.

Lemma sqrt_8 x : 0 <= x <= 8 * (BH * BH) -> 0 <= sqrt x <= 3 * BH.
Proof.
  intros X. pose proof H1. split; [apply sqrt_pos|]. rewrite <- (sqrt_square (3 * BH)) by lra. apply sqrt_le_1_alt. lra.
Qed.

Lemma abs_val (x y : T) : is_finite x = true -> is_finite y = true -> Rabs (B2R x) <= 16 * (BH * BH) -> Rabs (B2R y) <= 16 * (BH * BH) ->
  is_finite (absC (x, y)) = true /\ Rabs (B2R (absC (x, y)) - Cmod (B2R x, B2R y)) <= 2 * u * (1 + Cmod (B2R x, B2R y)).
Proof. intros. pose proof HH. apply Aok; auto; lra. Qed.

(** Half of a rounded sum. *)
Lemma half_val (r : T) t : is_finite r = true -> Rabs (B2R r - t) <= u * Rabs t -> Rabs t <= 8 * (BH * BH) ->
  is_finite (r [/] int 2) = true /\ Rabs (B2R (r [/] int 2)) <= (1 + 3 * u) * (Rabs t / 2) + eta /\
  (1 - 3 * u) * (Rabs t / 2) - eta <= Rabs (B2R (r [/] int 2)) /\ Rabs (B2R (r [/] int 2)) <= 16 * (BH * BH).
Proof.
  intros Fr V Bt. pose proof HH as G1. pose proof HH1 as G2. pose proof big8 as G3. pose proof H1 as G4.
  pose proof u_range as U. pose proof eta_range as Et. pose proof (eta_u _ U _ Et) as Eu. pose proof (uu _ U) as UU.
  assert (Tp := Rabs_pos t). assert (UT : u * Rabs t <= / 16777216 * Rabs t) by (apply Rmult_le_compat_r; lra).
  assert (A1 : Rabs (B2R r) <= (1 + u) * Rabs t).
  { replace (B2R r) with ((B2R r - t) + t) by ring. eapply Rle_trans; [apply Rabs_triang|]. lra. }
  assert (A2 : (1 - u) * Rabs t <= Rabs (B2R r)).
  { pose proof (Rabs_triang (B2R r) (t - B2R r)) as Tr. replace (B2R r + (t - B2R r)) with t in Tr by ring.
    rewrite (Rabs_minus_sym t) in Tr. lra. }
  destruct (bdiv2 r Fr ltac:(lra)) as (F2 & V2). split; [exact F2|].
  set (h := B2R (r [/] int 2)) in *.
  assert (R2 : Rabs (B2R r / 2) = Rabs (B2R r) / 2).
  { unfold Rdiv. rewrite Rabs_mult, (Rabs_pos_eq (/ 2)) by lra. reflexivity. }
  assert (A3 : Rabs h <= (1 + u) * (Rabs (B2R r) / 2) + eta).
  { replace h with ((h - B2R r / 2) + B2R r / 2) by ring. eapply Rle_trans; [apply Rabs_triang|]. rewrite R2 in *. lra. }
  assert (A4 : (1 - u) * (Rabs (B2R r) / 2) - eta <= Rabs h).
  { pose proof (Rabs_triang h (B2R r / 2 - h)) as Tr. replace (h + (B2R r / 2 - h)) with (B2R r / 2) in Tr by ring.
    rewrite (Rabs_minus_sym (B2R r / 2)) in Tr. rewrite R2 in *. lra. }
  assert (P1 : (1 + u) * Rabs (B2R r) <= (1 + u) * ((1 + u) * Rabs t)) by (apply Rmult_le_compat_l; lra).
  assert (P2 : (1 - u) * ((1 - u) * Rabs t) <= (1 - u) * Rabs (B2R r)) by (apply Rmult_le_compat_l; lra).
  assert (P3 : u * u * Rabs t <= u / 16777216 * Rabs t) by (apply Rmult_le_compat_r; lra).
  assert (P4' : 0 <= u * u * Rabs t) by (apply Rmult_le_pos; [apply Rle_0_sqr|lra]).
  assert (P5 : 0 <= u * Rabs t) by (apply Rmult_le_pos; lra).
  clear V2. repeat split; lra.
Qed.

Lemma opp_fin (x : T) : is_finite x = true -> is_finite (Bopp x) = true.
Proof. now rewrite is_finite_Bopp. Qed.

Lemma Cmod_re x y : y = 0 -> Cmod (x, y) = Rabs x.
Proof. intros ->. exact (Cmod_R x). Qed.
Lemma zero_half (x : T) : is_finite x = true -> B2R x = 0 -> is_finite (x [/] int 2) = true /\ B2R (x [/] int 2) = 0.
Proof.
  intros Fx Z. destruct (int_val 2 ltac:(lia)) as (E1 & F1).
  pose proof (Bdiv_correct prec emax Hprec Hmax mode_NE x (int 2) ltac:(rewrite E1; lra)) as C.
  change (round_mode mode_NE) with ZnearestE in C. change (SpecFloat.fexp prec emax) with fmt in C. rewrite Z in C.
  replace (0 / B2R (int 2)) with 0 in C by (rewrite E1; field). rewrite round_0 in C by apply valid_rnd_N.
  rewrite Rabs_R0, Rlt_bool_true in C by apply bpow_gt_0. destruct C as (C1 & C2 & _). rewrite Fx in C2. auto.
Qed.

(** ** Real poles *)
Lemma real_case bb0 w0 : 0 <= B2R disc ->
  exists s, Rabs (s - sqrt (B2R disc)) <= 2 * u * sqrt (B2R disc) /\
    (Rabs b + s <= 2 - 20 * u -> ieee_is_stable prec emax sqrtC absC (bqd bb0 w0) = true) /\
    (2 + 15 * u <= Rabs b + s -> ieee_is_stable prec emax sqrtC absC (bqd bb0 w0) = false).
Proof.
  intros Dp. destruct disc_val as (m1 & M & FD & VD & BD). destruct (int_val 0 ltac:(lia)) as (Z0 & FZ0).
  pose proof HH as G1. pose proof HH1 as G2. pose proof big8 as G3. pose proof H1 as G4.
  pose proof u_range as U. pose proof eta_range as Et. pose proof (eta_u _ U _ Et) as Eu. pose proof (uu _ U) as UU.
  destruct (Sok disc (int 0) FD FZ0 Z0 ltac:(lra)) as (Fs & Fi & Val). destruct (Rle_dec 0 (B2R disc)) as [_|N]; [|contradiction].
  destruct Val as (Vs & Vi). exists (B2R (fst sq)). split; [exact Vs|].
  rewrite Rabs_pos_eq in BD by lra. pose proof (sqrt_8 _ (conj Dp BD)) as S8. destruct (s_range _ U _ Dp _ Vs) as (Sp & _).
  set (s := B2R (fst sq)) in *. pose proof (Rabs_le_inv _ _ Vs) as Vs'.
  assert (Us : u * sqrt (B2R disc) <= / 16777216 * sqrt (B2R disc)) by (apply Rmult_le_compat_r; lra).
  assert (S4 : s <= 4 * BH) by lra.
  destruct fb_val as (F1 & V1). pose proof (opp_fin _ F1) as F1o.
  assert (V1o : B2R (Bopp fb) = - b) by (rewrite B2R_Bopp, V1; reflexivity).
  assert (T1 : Rabs (- b + s) <= Rabs b + s).
  { eapply Rle_trans; [apply Rabs_triang|]. rewrite Rabs_Ropp, (Rabs_pos_eq s); lra. }
  assert (T2 : Rabs (- b - s) <= Rabs b + s).
  { unfold Rminus. eapply Rle_trans; [apply Rabs_triang|]. rewrite !Rabs_Ropp, (Rabs_pos_eq s); lra. }
  destruct (badd (Bopp fb) (fst sq) F1o Fs) as (Fp & Vp). { rewrite V1o. fold s. lra. }
  destruct (bsub (Bopp fb) (fst sq) F1o Fs) as (Fm & Vm). { rewrite V1o. fold s. lra. }
  rewrite V1o in Vp, Vm. fold s in Vp, Vm.
  destruct (half_val _ _ Fp Vp ltac:(lra)) as (Fp2 & P2 & P3 & P4').
  destruct (half_val _ _ Fm Vm ltac:(lra)) as (Fm2 & M2 & M3 & M4).
  destruct (zero_half _ Fi Vi) as (Fi2 & Vi2).
  destruct (zero_half (Bopp (snd sq))) as (Fi3 & Vi3). { now apply opp_fin. } { rewrite B2R_Bopp, Vi. lra. }
  destruct (abs_val _ _ Fp2 Fi2 P4') as (Fa1 & A1). { rewrite Vi2, Rabs_R0. lra. }
  destruct (abs_val _ _ Fm2 Fi3 M4) as (Fa2 & A2). { rewrite Vi3, Rabs_R0. lra. }
  rewrite (Cmod_re _ _ Vi2) in A1. rewrite (Cmod_re _ _ Vi3) in A2.
  assert (Eq : ieee_is_stable prec emax sqrtC absC (bqd bb0 w0) =
    ieee_le prec emax (absC ((Bopp fb [+] fst sq) [/] int 2, snd sq [/] int 2)) (int 1) &&
    ieee_le prec emax (absC ((Bopp fb [-] fst sq) [/] int 2, Bopp (snd sq) [/] int 2)) (int 1)) by reflexivity.
  rewrite Eq. clear Eq. set (h1 := Rabs (B2R ((Bopp fb [+] fst sq) [/] int 2))) in *. set (h2 := Rabs (B2R ((Bopp fb [-] fst sq) [/] int 2))) in *.
  assert (h1p : 0 <= h1) by apply Rabs_pos. assert (h2p : 0 <= h2) by apply Rabs_pos. split.
  - intros G. apply andb_true_intro.
    assert (Q1 : u * Rabs (- b + s) <= u * 2) by (apply Rmult_le_compat_l; lra).
    assert (Q2 : u * Rabs (- b - s) <= u * 2) by (apply Rmult_le_compat_l; lra).
    split; apply le_true; auto.
    + apply (accept u U h1); auto. lra.
    + apply (accept u U h2); auto. lra.
  - intros G. apply andb_false_iff.
    assert (Cs : Rabs (- b + s) = Rabs b + s \/ Rabs (- b - s) = Rabs b + s).
    { unfold Rabs. repeat destruct Rcase_abs; lra. }
    assert (Q : 2 - 6 * u <= (1 - 3 * u) * 2) by lra.
    assert (Q3 : (1 - 3 * u) * (2 + 15 * u) <= (1 - 3 * u) * (Rabs b + s)) by (apply Rmult_le_compat_l; lra).
    destruct Cs as [Cs|Cs]; [left|right].
    + apply not_true_iff_false. intros L. apply le_true in L; [|auto].
      pose proof (reject u U h1 _ ltac:(rewrite Cs in P3; lra) A1). lra.
    + apply not_true_iff_false. intros L. apply le_true in L; [|auto].
      pose proof (reject u U h2 _ ltac:(rewrite Cs in M3; lra) A2). lra.
Qed.

(** ** Complex poles *)
Lemma complex_case bb0 w0 : B2R disc < 0 ->
  exists s x y, Rabs (s - sqrt (- B2R disc)) <= 2 * u * sqrt (- B2R disc) /\
    Rabs (x - - b / 2) <= u * Rabs (- b / 2) + eta /\ Rabs (y - s / 2) <= u * Rabs (s / 2) + eta /\
    (x * x + y * y <= 1 - 12 * u -> ieee_is_stable prec emax sqrtC absC (bqd bb0 w0) = true) /\
    (1 + 9 * u <= x * x + y * y -> ieee_is_stable prec emax sqrtC absC (bqd bb0 w0) = false).
Proof.
  intros Dn. destruct disc_val as (m1 & M & FD & VD & BD). destruct (int_val 0 ltac:(lia)) as (Z0 & FZ0).
  pose proof HH as G1. pose proof HH1 as G2. pose proof big8 as G3. pose proof H1 as G4.
  pose proof u_range as U. pose proof eta_range as Et. pose proof (eta_u _ U _ Et) as Eu. pose proof (uu _ U) as UU.
  destruct (Sok disc (int 0) FD FZ0 Z0 ltac:(lra)) as (Fs & Fi & Val). destruct (Rle_dec 0 (B2R disc)) as [N|_]; [lra|].
  destruct Val as (Vs & Vi). set (s := B2R (snd sq)) in *.
  rewrite Rabs_left in BD by lra. assert (Dp : 0 <= - B2R disc) by lra. pose proof (sqrt_8 _ (conj Dp BD)) as S8.
  pose proof (Rabs_le_inv _ _ Vi) as Vi'.
  assert (Us : u * sqrt (- B2R disc) <= / 16777216 * sqrt (- B2R disc)) by (apply Rmult_le_compat_r; lra).
  assert (S4 : 0 <= s <= 4 * BH) by lra.
  destruct fb_val as (F1 & V1). pose proof (opp_fin _ F1) as F1o.
  assert (V1o : B2R (Bopp fb) = - b) by (rewrite B2R_Bopp, V1; reflexivity).
  assert (Ab : Rabs (- b) <= BH) by (rewrite Rabs_Ropp; exact Bb).
  destruct (badd (Bopp fb) (fst sq) F1o Fs) as (Fp & _). { rewrite V1o, Vs, Rplus_0_r. lra. }
  destruct (bsub (Bopp fb) (fst sq) F1o Fs) as (Fm & _). { rewrite V1o, Vs, Rminus_0_r. lra. }
  assert (Gb : generic_format radix2 fmt (- b)) by (apply generic_format_opp, fin_format).
  assert (Vp : B2R (Bopp fb [+] fst sq) = - b).
  { pose proof (Bplus_correct prec emax Hprec Hmax mode_NE _ _ F1o Fs) as C.
    change (round_mode mode_NE) with ZnearestE in C. change (SpecFloat.fexp prec emax) with fmt in C. rewrite V1o, Vs, Rplus_0_r in C.
    rewrite (@rnd_bound prec emax Hprec Hmax) in C by (apply (big_max prec emax P24); lra).
    rewrite round_generic in C; [apply C|apply valid_rnd_N|exact Gb]. }
  assert (Vm : B2R (Bopp fb [-] fst sq) = - b).
  { pose proof (Bminus_correct prec emax Hprec Hmax mode_NE _ _ F1o Fs) as C.
    change (round_mode mode_NE) with ZnearestE in C. change (SpecFloat.fexp prec emax) with fmt in C. rewrite V1o, Vs, Rminus_0_r in C.
    rewrite (@rnd_bound prec emax Hprec Hmax) in C by (apply (big_max prec emax P24); lra).
    rewrite round_generic in C; [apply C|apply valid_rnd_N|exact Gb]. }
  assert (As : Rabs s <= 4 * BH) by (rewrite Rabs_pos_eq; lra).
  assert (Fio : is_finite (Bopp (snd sq)) = true) by now apply opp_fin.
  assert (Vio : B2R (Bopp (snd sq)) = - s) by (rewrite B2R_Bopp; reflexivity).
  destruct (bdiv2 _ Fp) as (Fx & Vx). { rewrite Vp. lra. }
  destruct (bdiv2 _ Fm) as (Fx' & Vx'). { rewrite Vm. lra. }
  destruct (bdiv2 _ Fi) as (Fy & Vy). { fold s. lra. }
  destruct (bdiv2 _ Fio) as (Fy' & Vy'). { rewrite Vio, Rabs_Ropp. lra. }
  rewrite Vp in Vx. rewrite Vm in Vx'. rewrite Vio in Vy'. fold s in Vy.
  exists s, (B2R ((Bopp fb [+] fst sq) [/] int 2)), (B2R (snd sq [/] int 2)).
  assert (Q2 : Rabs (- b / 2) <= BH). { unfold Rdiv. rewrite Rabs_mult, (Rabs_pos_eq (/ 2)); pose proof (Rabs_pos (- b)); lra. }
  assert (Q3 : Rabs (s / 2) <= 2 * BH). { rewrite Rabs_pos_eq; lra. }
  assert (Q4 : u * Rabs (- b / 2) <= / 16777216 * Rabs (- b / 2)) by (apply Rmult_le_compat_r; [apply Rabs_pos|lra]).
  assert (Q5 : u * Rabs (s / 2) <= / 16777216 * Rabs (s / 2)) by (apply Rmult_le_compat_r; [apply Rabs_pos|lra]).
  assert (small : forall x t, Rabs (x - t) <= u * Rabs t + eta -> u * Rabs t <= / 16777216 * Rabs t -> Rabs t <= 2 * BH -> Rabs x <= 16 * (BH * BH)).
  { intros x t X1 X2 X3. replace x with ((x - t) + t) by ring. eapply Rle_trans; [apply Rabs_triang|]. lra. }
  assert (same : B2R ((Bopp fb [+] fst sq) [/] int 2) = B2R ((Bopp fb [-] fst sq) [/] int 2)).
  { destruct (int_val 2 ltac:(lia)) as (Ez & _).
    pose proof (Bdiv_correct prec emax Hprec Hmax mode_NE (Bopp fb [+] fst sq) (int 2) ltac:(rewrite Ez; lra)) as C.
    pose proof (Bdiv_correct prec emax Hprec Hmax mode_NE (Bopp fb [-] fst sq) (int 2) ltac:(rewrite Ez; lra)) as C'.
    change (round_mode mode_NE) with ZnearestE in C, C'. change (SpecFloat.fexp prec emax) with fmt in C, C'. rewrite Vp in C. rewrite Vm in C'.
    assert (Bd : Rabs (- b / B2R (int 2)) <= ieee_max prec emax) by (apply (big_max prec emax P24); rewrite Ez; lra).
    rewrite (@rnd_bound prec emax Hprec Hmax) in C, C' by exact Bd. destruct C as (-> & _). destruct C' as (-> & _). reflexivity. }
  assert (anti : B2R (Bopp (snd sq) [/] int 2) = - B2R (snd sq [/] int 2)).
  { destruct (int_val 2 ltac:(lia)) as (Ez & _).
    pose proof (Bdiv_correct prec emax Hprec Hmax mode_NE (snd sq) (int 2) ltac:(rewrite Ez; lra)) as C.
    pose proof (Bdiv_correct prec emax Hprec Hmax mode_NE (Bopp (snd sq)) (int 2) ltac:(rewrite Ez; lra)) as C'.
    change (round_mode mode_NE) with ZnearestE in C, C'. change (SpecFloat.fexp prec emax) with fmt in C, C'. rewrite Vio in C'. fold s in C.
    assert (Bd : Rabs (s / B2R (int 2)) <= ieee_max prec emax) by (apply (big_max prec emax P24); rewrite Ez; lra).
    replace (- s / B2R (int 2)) with (- (s / B2R (int 2))) in C' by (rewrite Ez; field).
    rewrite (@rnd_bound prec emax Hprec Hmax) in C by exact Bd. rewrite (@rnd_bound prec emax Hprec Hmax) in C' by (rewrite Rabs_Ropp; exact Bd).
    rewrite round_NE_opp in C'. destruct C as (-> & _). destruct C' as (-> & _). reflexivity. }
  split; [exact Vi|]. split; [exact Vx|]. split; [exact Vy|].
  destruct (abs_val _ _ Fx Fy) as (Fa1 & A1). { exact (small _ _ Vx Q4 ltac:(lra)). } { exact (small _ _ Vy Q5 Q3). }
  destruct (abs_val _ _ Fx' Fy') as (Fa2 & A2). { rewrite <- same. exact (small _ _ Vx Q4 ltac:(lra)). } { rewrite anti, Rabs_Ropp. exact (small _ _ Vy Q5 Q3). }
  rewrite <- same, anti in A2.
  assert (Eq : ieee_is_stable prec emax sqrtC absC (bqd bb0 w0) =
    ieee_le prec emax (absC ((Bopp fb [+] fst sq) [/] int 2, snd sq [/] int 2)) (int 1) &&
    ieee_le prec emax (absC ((Bopp fb [-] fst sq) [/] int 2, Bopp (snd sq) [/] int 2)) (int 1)) by reflexivity.
  rewrite Eq. clear Eq. set (x := B2R ((Bopp fb [+] fst sq) [/] int 2)) in *. set (y := B2R (snd sq [/] int 2)) in *.
  assert (M1 : Cmod (x, y) = sqrt (x * x + y * y)). { unfold Cmod. cbn [fst snd]. f_equal. ring. }
  assert (M2 : Cmod (x, - y) = sqrt (x * x + y * y)). { unfold Cmod. cbn [fst snd]. f_equal. ring. }
  rewrite M1 in A1. rewrite M2 in A2. pose proof (sqrt_pos (x * x + y * y)) as Sp. split.
  - intros G. pose proof (sqrt_in u U _ G). apply andb_true_intro. split; apply le_true; auto; eapply (accept u U (sqrt (x * x + y * y))); eauto.
  - intros G. pose proof (sqrt_out u U _ G). apply andb_false_iff. left. apply not_true_iff_false. intros L. apply le_true in L; [|auto].
    pose proof (reject u U _ _ ltac:(eassumption) A1). lra.
Qed.

Lemma test_in bb0 w0 : Rabs b <= 1 + c - 32 * u -> c <= 1 - 32 * u ->
  ieee_is_stable prec emax sqrtC absC (bqd bb0 w0) = true.
Proof.
  intros I1 I2. destruct disc_val as (m1 & M & _ & VD & _). pose proof u_range as U. pose proof eta_range as Et.
  destruct (Rle_dec 0 (B2R disc)) as [Dp|Dn].
  - destruct (real_case bb0 w0 Dp) as (s & Vs & A & _). apply A. eapply real_in; eauto.
  - apply Rnot_le_lt in Dn. destruct (complex_case bb0 w0 Dn) as (s & x & y & Vs & Vx & Vy & A & _). apply A. eapply complex_in; eauto.
Qed.
Lemma test_out bb0 w0 : 1 + c + 32 * u <= Rabs b \/ 1 + 32 * u <= c ->
  ieee_is_stable prec emax sqrtC absC (bqd bb0 w0) = false.
Proof.
  intros I. destruct disc_val as (m1 & M & _ & VD & _). pose proof u_range as U. pose proof eta_range as Et.
  destruct (Rle_dec 0 (B2R disc)) as [Dp|Dn].
  - destruct (real_case bb0 w0 Dp) as (s & Vs & _ & A). apply A. destruct I; [eapply real_out_1|eapply real_out_2]; eauto.
  - apply Rnot_le_lt in Dn. destruct (complex_case bb0 w0 Dn) as (s & x & y & Vs & Vx & Vy & _ & A). apply A.
    eapply complex_out; eauto. destruct I as [I|I]; [|exact I]. eapply no_real_out; eauto.
Qed.

End Poles.
