(** * Structure of the Kalman recursion (include/dsp/kalman.hpp)

    C111 - C116 of properties.jsonl: monotonicity and bounds of the covariance, the
    information form, scaling of the noise parameters, changes of state coordinates,
    repeated measurements of a constant, two measurements one after the other. *)

From Coq Require Import Reals List Lra Lia Psatz ZArith.
From Verif Require Import Base Matrix Scalars Kalman KalmanSpec KalmanProofs PropsKalman
  StochasticSpec StochasticProofs.
Import ListNotations.
Local Open Scope R_scope.

(** ** C111: more uncertainty in, more uncertainty out *)

Lemma pstep_mono s1 s2 P1 P2 :
  sA s1 = sA s2 -> sH s1 = sH s2 ->
  loewner_le (sQ s1) (sQ s2) -> sR s1 <= sR s2 -> loewner_le P1 P2 ->
  covariances_ok s1 P1 -> covariances_ok s2 P2 ->
  loewner_le (pstep s1 P1) (pstep s2 P2).
Proof.
  intros EA EH LQ LR LP C1 C2.
  pose proof (covariances_ok_pred _ _ C1) as (a1 & b1 & _ & _ & c1).
  pose proof (covariances_ok_pred _ _ C2) as (a2 & b2 & _ & _ & c2).
  assert (LPm : loewner_le (Ppred s1 P1) (Ppred s2 P2)).
  { intros x.
    assert (X : forall s P, quad (Ppred s P) x = quad P (mv (mtr (sA s)) x) + quad (sQ s) x).
    { clear. intros s P. unfold quad, vdot, mv. destruct s as [[] ? ? [] ? ?], P, x. simpl. ring. }
    rewrite !X, EA. pose proof (LP (mv (mtr (sA s2)) x)). pose proof (LQ x). lra. }
  unfold pstep. set (K2 := kgain s2 (Ppred s2 P2)).
  assert (X : loewner_le (Pcorr s1 (kgain s1 (Ppred s1 P1)) (Ppred s1 P1))
                         (Pjoseph s1 K2 (Ppred s1 P1)))
    by (apply loewner_joseph; auto using kgain_normal, Sinn_nonneg).
  assert (Y : Pcorr s2 K2 (Ppred s2 P2) = Pjoseph s2 K2 (Ppred s2 P2))
    by (apply Pcorr_joseph; [assumption|]; apply kgain_normal; auto).
  rewrite Y. intros x. apply Rle_trans with (1 := X x).
  rewrite !quad_joseph, EH.
  pose proof (LPm (mv (mtr (msub mI (vouter K2 (sH s2)))) x)).
  assert (0 <= vdot K2 x * vdot K2 x) by nra. nra.
Qed.

Lemma pseq_mono s1 s2 P1 P2 n :
  sA s1 = sA s2 -> sH s1 = sH s2 ->
  loewner_le (sQ s1) (sQ s2) -> sR s1 <= sR s2 -> loewner_le P1 P2 ->
  covariances_ok s1 P1 -> covariances_ok s2 P2 ->
  loewner_le (pseq s1 P1 n) (pseq s2 P2 n).
Proof.
  intros. induction n; simpl; [assumption|]. apply pstep_mono; auto using pseq_ok.
Qed.

Theorem C111_covariance_monotone :
  forall (s1 s2 : sys) (P1 P2 : mat2) (x1 x2 : vec2) (h1 h2 : list (R * R)) e1 e2,
  sA s1 = sA s2 -> sH s1 = sH s2 ->
  loewner_le (sQ s1) (sQ s2) -> sR s1 <= sR s2 -> loewner_le P1 P2 ->
  covariances_ok s1 P1 -> covariances_ok s2 P2 -> length h1 = length h2 ->
  run R_scalar 1 1 (enc_sys s1) (kalman_init R_scalar false 1 (enc2 P1) (encv x1)) (enc_hist h1)
    = Ok (enc_est e1) ->
  run R_scalar 1 1 (enc_sys s2) (kalman_init R_scalar false 1 (enc2 P2) (encv x2)) (enc_hist h2)
    = Ok (enc_est e2) ->
  loewner_le (eP e1) (eP e2).
Proof.
  intros s1 s2 P1 P2 x1 x2 h1 h2 e1 e2 EA EH LQ LR LP C1 C2 L H1 H2.
  rewrite (run_init_reach _ _ _ _ _ H1), (run_init_reach _ _ _ _ _ H2), !krun_pseq, L.
  now apply pseq_mono.
Qed.
Print Assumptions C111_covariance_monotone.

(** A covariance that one update does not increase bounds all later ones. *)
Theorem C111_covariance_bounded :
  forall (s : sys) (P Pbar : mat2) (x : vec2) (h : list (R * R)) e,
  covariances_ok s P -> covariances_ok s Pbar -> loewner_le P Pbar ->
  (forall eb, update R_scalar 1 1 (enc_sys s) (enc_est (fresh Pbar x)) (enc1 0) (enc1 0)
              = Ok (enc_est eb) -> loewner_le (eP eb) Pbar) ->
  run R_scalar 1 1 (enc_sys s) (kalman_init R_scalar false 1 (enc2 P) (encv x)) (enc_hist h)
    = Ok (enc_est e) ->
  loewner_le (eP e) Pbar.
Proof.
  intros s P Pb x h e C Cb L S H.
  specialize (S _ (update_enc s (fresh Pb x) 0 0)).
  change (loewner_le (pstep s Pb) Pb) in S.
  rewrite (run_init_reach _ _ _ _ _ H), krun_pseq. cbn [fresh eP]. clear H.
  generalize (length h). intros n. induction n as [|n IH]; simpl; [assumption|].
  intros y. apply Rle_trans with (quad (pstep s Pb) y); [|apply S].
  apply pstep_mono; auto using pseq_ok; try (intros ?); apply Rle_refl.
Qed.
Print Assumptions C111_covariance_bounded.

(** If the first update does not increase the covariance, no later one does. *)
Theorem C111_covariance_decreasing :
  forall (s : sys) (P : mat2) (x : vec2) (h : list (R * R)) e u z e' e1,
  covariances_ok s P ->
  update R_scalar 1 1 (enc_sys s) (enc_est (fresh P x)) (enc1 0) (enc1 0) = Ok (enc_est e1) ->
  loewner_le (eP e1) P ->
  run R_scalar 1 1 (enc_sys s) (kalman_init R_scalar false 1 (enc2 P) (encv x)) (enc_hist h)
    = Ok (enc_est e) ->
  update R_scalar 1 1 (enc_sys s) (enc_est e) (enc1 u) (enc1 z) = Ok (enc_est e') ->
  loewner_le (eP e') (eP e).
Proof.
  intros s P x h e u z e' e1 C H1 L H HU.
  apply update_reach in H1 as ->. apply update_reach in HU as ->.
  change (loewner_le (pstep s P) P) in L.
  rewrite (run_init_reach _ _ _ _ _ H).
  change (loewner_le (pstep s (eP (krun s (fresh P x) h))) (eP (krun s (fresh P x) h))).
  rewrite krun_pseq. cbn [fresh eP]. clear H.
  generalize (length h). intros n. induction n as [|n IH]; simpl; [assumption|].
  apply pstep_mono; auto using pseq_ok, pstep_ok; try (intros ?); apply Rle_refl.
Qed.
Print Assumptions C111_covariance_decreasing.

(** The simulation programs (example/desktop/kalman-sim.e.cpp, example/avr/avr-kalman-sim.e.cpp):
    A = {1,1,0,1}, R = 100, Q = P = 0.04 {1/4,1/2,1/2,1}.  The bound below is reproduced by
    an update up to a smaller covariance: whatever is measured, for however long, the position
    variance reported stays below 19.1 (the sensor's is 100) and the velocity variance
    below 0.45. *)
Definition sim_Q : mat2 := mscale (4/100) (M2 (1/4) (1/2) (1/2) 1).
Definition sim_sys : sys := Sys (M2 1 1 0 1) (V2 (1/2) 1) (V2 1 0) sim_Q 100 1.
Definition sim_bar : mat2 := M2 (191/10) (201/100) (201/100) (9/20).

Lemma psd_2x2 a b c x y : 0 <= a -> 0 <= c -> b * b <= a * c ->
  0 <= x * (a * x + b * y) + y * (b * x + c * y).
Proof.
  intros A C D. destruct (Req_EM_T a 0) as [->|N].
  - assert (b = 0).
    { destruct (Req_EM_T b 0) as [|B]; [assumption|exfalso].
      assert (0 < b * b) by (apply Rsqr_pos_lt; assumption). lra. }
    subst b. assert (0 <= c * (y * y))
      by (apply Rmult_le_pos; [lra|exact (Rle_0_sqr _)]). lra.
  - assert (0 < a) by lra.
    apply (Rmult_le_reg_l a); [assumption|]. rewrite Rmult_0_r.
    replace (a * (x * (a * x + b * y) + y * (b * x + c * y)))
      with ((a * x + b * y) * (a * x + b * y) + (a * c - b * b) * (y * y)) by ring.
    assert (0 <= (a * x + b * y) * (a * x + b * y)) by exact (Rle_0_sqr _).
    assert (0 <= (a * c - b * b) * (y * y))
      by (apply Rmult_le_pos; [lra|exact (Rle_0_sqr _)]). lra.
Qed.

Lemma sim_ok : covariances_ok sim_sys sim_Q.
Proof.
  unfold covariances_ok, sym, psd, sim_sys, sim_Q, quad, vdot, mv. simpl.
  repeat split; try lra; intros [x y]; simpl;
    pose proof (psd_2x2 (1/100) (2/100) (4/100) x y ltac:(lra) ltac:(lra) ltac:(lra)); lra.
Qed.

Theorem C111_simulation_bounded :
  forall (x : vec2) (h : list (R * R)) e,
  run R_scalar 1 1 (enc_sys sim_sys) (kalman_init R_scalar false 1 (enc2 sim_Q) (encv x))
      (enc_hist h) = Ok (enc_est e) ->
  0 <= m00 (eP e) <= 191/10 /\ 0 <= m11 (eP e) <= 9/20.
Proof.
  intros x h e H.
  destruct (C15_variances _ _ _ _ _ sim_ok H) as (V0 & V1 & _).
  assert (OB : covariances_ok sim_sys sim_bar).
  { destruct sim_ok as (_ & _ & a & b & c). repeat split; auto.
    intros [y0 y1]. unfold quad, vdot, mv, sim_bar; simpl. apply psd_2x2; lra. }
  assert (B : loewner_le (eP e) sim_bar).
  { apply (C111_covariance_bounded sim_sys sim_Q sim_bar x h e); auto using sim_ok.
    - intros [y0 y1]. unfold quad, vdot, mv, sim_Q, sim_bar; simpl.
      pose proof (psd_2x2 (191/10 - 1/100) (201/100 - 2/100) (9/20 - 4/100) y0 y1 ltac:(lra) ltac:(lra) ltac:(lra)).
      lra.
    - intros eb U. apply update_reach in U as ->.
      change (loewner_le (pstep sim_sys sim_bar) sim_bar).
      unfold pstep, kgain. destruct (Req_EM_T _ 0) as [Z|Z].
      + exfalso. revert Z. unfold Sinn, Ppred, quad, vdot, mv, sim_sys, sim_Q, sim_bar; simpl. lra.
      + clear Z. intros [y0 y1].
        unfold Kopt, Sinn, Pcorr, Ppred, quad, vdot, mv, sim_sys, sim_Q, sim_bar; simpl.
        pose proof (psd_2x2 (1189/61790) (1979/617900) (1509/154475) y0 y1
          ltac:(lra) ltac:(lra) ltac:(lra)) as D.
        lra. }
  pose proof (B (V2 1 0)) as B0. pose proof (B (V2 0 1)) as B1. revert B0 B1.
  unfold quad, vdot, mv, sim_bar; simpl. intros. lra.
Qed.
Print Assumptions C111_simulation_bounded.

(** The hypotheses of the monotonicity theorem with two different systems. *)
Example C111_case :
  let s2 := Sys (sA ex_sys) (V2 0 7) (sH ex_sys) (mscale 2 (sQ ex_sys)) 400 (1/2) in
  covariances_ok ex_sys ex_P /\ covariances_ok s2 (mscale 3 ex_P) /\
  loewner_le (sQ ex_sys) (sQ s2) /\ sR ex_sys <= sR s2 /\ loewner_le ex_P (mscale 3 ex_P) /\
  ~ loewner_le (mscale 3 ex_P) ex_P.
Proof.
  assert (X : forall k : R, 0 <= k -> forall x : vec2,
    0 <= v0 x * (k * (1 / 4) * v0 x + k * (1 / 2) * v1 x)
         + v1 x * (k * (1 / 2) * v0 x + k * 1 * v1 x)).
  { intros k Hk [x y]. simpl.
    pose proof (psd_2x2 (k * (1/4)) (k * (1/2)) (k * 1) x y ltac:(lra) ltac:(lra)) as D.
    apply D. assert (0 <= k * k) by nra. lra. }
  split; [exact ex_ok|]. split.
  { unfold covariances_ok, sym, psd, ex_sys, ex_P, quad, vdot, mv. simpl.
    repeat split; try lra; intros x; [pose proof (X 3 ltac:(lra) x)|pose proof (X 2 ltac:(lra) x)]; lra. }
  unfold loewner_le, ex_sys, ex_P, quad, vdot, mv. simpl. split; [|split; [lra|split]].
  - intros x. pose proof (X 1 ltac:(lra) x). lra.
  - intros x. pose proof (X 2 ltac:(lra) x). lra.
  - intros H. specialize (H (V2 0 1)). simpl in H. lra.
Qed.

(** ** C112: information form, determinant, alternative gain *)

(** The inverse covariance ("information") grows by H^T H / R with every measurement; the
    determinant shrinks by the factor R / S; the gain is the corrected covariance times
    H^T / R. *)
Theorem C112_information_form :
  forall (s : sys) (e e' : est) (u z : R) (K : vec2),
  let Pm := Ppred s (eP e) in
  sR s <> 0 -> Sinn s Pm <> 0 ->
  update R_scalar 1 1 (enc_sys s) (enc_est e) (enc1 u) (enc1 z) = Ok (enc_est e') ->
  eK e' = Some K ->
  mdet (eP e') = mdet Pm * sR s / Sinn s Pm /\
  vscale (sR s) K = mv (eP e') (sH s) /\
  (mdet Pm <> 0 ->
   mdet (eP e') <> 0 /\
   minv (eP e') = madd (minv Pm) (mscale (/ sR s) (vouter (sH s) (sH s)))).
Proof.
  intros s e e' u z K Pm HR HS HU HK.
  apply update_reach in HU as ->. cbn [kstep eP eK] in *. fold Pm in HK |- *.
  injection HK as <-.
  assert (G : kgain s Pm = Kopt s Pm).
  { unfold kgain. destruct (Req_EM_T _ 0); [contradiction|reflexivity]. }
  rewrite G.
  assert (ED : mdet (Pcorr s (Kopt s Pm) Pm) = mdet Pm * sR s / Sinn s Pm).
  { revert HS. unfold Kopt, Pcorr, Sinn, quad, vdot, mv, mdet.
    destruct Pm as [a b c d], s as [? ? [h0 h1] ? r ?]; simpl. intros. field. assumption. }
  split; [exact ED|]. split.
  { revert HS. unfold Kopt, Pcorr, Sinn, quad, vdot, mv, mdet.
    destruct Pm as [a b c d], s as [? ? [h0 h1] ? r ?]; simpl. intros.
    apply vec2_eq; simpl; field; assumption. }
  intros HD.
  assert (D' : mdet (Pcorr s (Kopt s Pm) Pm) <> 0).
  { rewrite ED. unfold Rdiv. repeat apply Rmult_integral_contrapositive_currified;
      try assumption. now apply Rinv_neq_0_compat. }
  split; [exact D'|]. unfold minv at 1. rewrite ED.
  revert HS HD HR. unfold minv, Kopt, Pcorr, Sinn, quad, vdot, mv, mdet.
  destruct Pm as [a b c d], s as [? ? [h0 h1] ? r ?]; simpl. intros.
  apply mat2_eq; simpl; field; auto.
Qed.
Print Assumptions C112_information_form.

Example C112_case :
  sR ex_sys <> 0 /\ Sinn ex_sys (Ppred ex_sys ex_P) <> 0 /\ mdet (Ppred ex_sys ex_P) <> 0.
Proof.
  unfold Sinn, Ppred, quad, mdet, vdot, mv, ex_sys, ex_P; simpl. repeat split; lra.
Qed.

(** ** C113: only the ratios of the noise parameters matter *)

Definition scale_sys (c : R) (s : sys) : sys :=
  Sys (sA s) (sB s) (sH s) (mscale c (sQ s)) (c * sR s) (sdt s).

Theorem C113_noise_scale :
  forall (c : R) (s : sys) (P : mat2) (x : vec2) (h : list (R * R)) e e',
  c <> 0 ->
  run R_scalar 1 1 (enc_sys s) (kalman_init R_scalar false 1 (enc2 P) (encv x)) (enc_hist h)
    = Ok (enc_est e) ->
  run R_scalar 1 1 (enc_sys (scale_sys c s))
      (kalman_init R_scalar false 1 (enc2 (mscale c P)) (encv x)) (enc_hist h)
    = Ok (enc_est e') ->
  ex e' = ex e /\ eK e' = eK e /\ et e' = et e /\ eP e' = mscale c (eP e).
Proof.
  intros c s P x h e e' Hc H H'.
  rewrite (run_init_reach _ _ _ _ _ H), (run_init_reach _ _ _ _ _ H'). clear H H' e e'.
  set (f := fun e : est => Est (eK e) (mscale c (eP e)) (ex e) (et e)).
  assert (X : forall h e, krun (scale_sys c s) (f e) h = f (krun s e h)).
  { clear - Hc. induction h as [|[u z] h IH]; intros e; [reflexivity|]. cbn [krun].
    rewrite <- IH. f_equal. unfold f, kstep. cbn [eP ex eK et].
    assert (EP : Ppred (scale_sys c s) (mscale c (eP e)) = mscale c (Ppred s (eP e))).
    { unfold Ppred, scale_sys. destruct s as [[] ? ? [] ? ?], (eP e). apply mat2_eq; simpl; ring. }
    rewrite EP. set (Pm := Ppred s (eP e)).
    assert (ES : Sinn (scale_sys c s) (mscale c Pm) = c * Sinn s Pm).
    { unfold Sinn, quad, vdot, mv, scale_sys. destruct Pm; simpl. ring. }
    assert (EK : kgain (scale_sys c s) (mscale c Pm) = kgain s Pm).
    { unfold kgain, Kopt. rewrite ES.
      destruct (Req_EM_T (c * Sinn s Pm) 0) as [Z|Z], (Req_EM_T (Sinn s Pm) 0) as [Z'|Z'];
        try reflexivity.
      - apply Rmult_integral in Z as [|]; contradiction.
      - rewrite Z' in Z. rewrite Rmult_0_r in Z. contradiction.
      - change (sH (scale_sys c s)) with (sH s). generalize dependent (Sinn s Pm). intros.
        unfold mv, mscale, vscale. destruct Pm. apply vec2_eq; simpl; field; auto. }
    rewrite EK. f_equal.
    generalize (kgain s Pm). intros [k0 k1]. unfold Pcorr, scale_sys. destruct Pm.
    apply mat2_eq; simpl; ring. }
  specialize (X h (fresh P x)). change (f (fresh P x)) with (fresh (mscale c P) x) in X.
  rewrite X. repeat split.
Qed.
Print Assumptions C113_noise_scale.

Example C113_case :
  scale_sys (1/100) ex_sys =
  Sys (M2 1 1 0 1) (V2 (1/2) 1) (V2 1 0) (mscale (1/100) (M2 (1/4) (1/2) (1/2) 1)) (1/100 * 100) 1
  /\ sR (scale_sys (1/100) ex_sys) = 1 /\ 1/100 <> 0.
Proof. split; [reflexivity|]. simpl. split; lra. Qed.

(** ** C114: changing the state coordinates *)

(** The same system written in coordinates y = T x. *)
Definition change_sys (T : mat2) (s : sys) : sys :=
  Sys (mmul (mmul T (sA s)) (minv T)) (mv T (sB s)) (mv (mtr (minv T)) (sH s))
      (mmul (mmul T (sQ s)) (mtr T)) (sR s) (sdt s).

Lemma mmul_assoc a b c : mmul (mmul a b) c = mmul a (mmul b c).
Proof. destruct a, b, c; apply mat2_eq; simpl; ring. Qed.
Lemma mmul_I_l a : mmul mI a = a.
Proof. destruct a; apply mat2_eq; simpl; ring. Qed.
Lemma mmul_I_r a : mmul a mI = a.
Proof. destruct a; apply mat2_eq; simpl; ring. Qed.
Lemma minv_l T : mdet T <> 0 -> mmul (minv T) T = mI.
Proof. unfold mdet. intros. destruct T; simpl in *. apply mat2_eq; unfold minv, mmul, mdet; simpl; field; assumption. Qed.
Lemma minv_r T : mdet T <> 0 -> mmul T (minv T) = mI.
Proof. unfold mdet. intros. destruct T; simpl in *. apply mat2_eq; unfold minv, mmul, mdet; simpl; field; assumption. Qed.
Lemma mv_mmul a b x : mv (mmul a b) x = mv a (mv b x).
Proof. destruct a, b, x; apply vec2_eq; simpl; ring. Qed.
Lemma mv_I x : mv mI x = x.
Proof. destruct x; apply vec2_eq; simpl; ring. Qed.
Lemma mv_vadd a x y : mv a (vadd x y) = vadd (mv a x) (mv a y).
Proof. apply vec2_eq; simpl; ring. Qed.
Lemma mv_vscale a c x : mv a (vscale c x) = vscale c (mv a x).
Proof. apply vec2_eq; simpl; ring. Qed.
Lemma vdot_mtr a x y : vdot (mv (mtr a) x) y = vdot x (mv a y).
Proof. unfold vdot; simpl; ring. Qed.
Lemma mmul_madd_l a b c : mmul a (madd b c) = madd (mmul a b) (mmul a c).
Proof. apply mat2_eq; simpl; ring. Qed.
Lemma mmul_madd_r a b c : mmul (madd a b) c = madd (mmul a c) (mmul b c).
Proof. apply mat2_eq; simpl; ring. Qed.

Lemma Ppred_change T s P : mdet T <> 0 ->
  Ppred (change_sys T s) (mmul (mmul T P) (mtr T)) = mmul (mmul T (Ppred s P)) (mtr T).
Proof.
  intros HT. unfold Ppred, change_sys. cbn [sA sQ].
  rewrite mmul_madd_l, mmul_madd_r. f_equal.
  rewrite !mtr_mmul, !mmul_assoc. do 2 f_equal.
  rewrite <- (mmul_assoc (minv T)), minv_l, mmul_I_l by assumption. f_equal.
  rewrite <- (mmul_assoc (mtr T)), <- mtr_mmul, minv_l by assumption.
  change (mtr mI) with mI. now rewrite mmul_I_l.
Qed.

Lemma mv_change T s Pm : mdet T <> 0 ->
  mv (mmul (mmul T Pm) (mtr T)) (sH (change_sys T s)) = mv T (mv Pm (sH s)).
Proof.
  intros HT. cbn [change_sys sH]. rewrite !mv_mmul. do 2 f_equal.
  rewrite <- mv_mmul, <- mtr_mmul, minv_l by assumption. apply mv_I.
Qed.

Lemma Sinn_change T s Pm : mdet T <> 0 ->
  Sinn (change_sys T s) (mmul (mmul T Pm) (mtr T)) = Sinn s Pm.
Proof.
  intros HT. unfold Sinn, quad. rewrite mv_change by assumption. cbn [change_sys sH sR].
  rewrite vdot_mtr, <- mv_mmul, minv_l, mv_I by assumption. reflexivity.
Qed.

Lemma kgain_change T s Pm : mdet T <> 0 ->
  kgain (change_sys T s) (mmul (mmul T Pm) (mtr T)) = mv T (kgain s Pm).
Proof.
  intros HT. unfold kgain, Kopt. rewrite Sinn_change, mv_change by assumption.
  destruct (Req_EM_T _ 0); [apply vec2_eq; simpl; ring|]. now rewrite mv_vscale.
Qed.

Lemma vouter_mv T K h : vouter (mv T K) h = mmul T (vouter K h).
Proof. apply mat2_eq; simpl; ring. Qed.
Lemma vouter_mtr M K h : vouter K (mv (mtr M) h) = mmul (vouter K h) M.
Proof. apply mat2_eq; simpl; ring. Qed.
Lemma mmul_msub_l a b c : mmul a (msub b c) = msub (mmul a b) (mmul a c).
Proof. apply mat2_eq; simpl; ring. Qed.
Lemma mmul_msub_r a b c : mmul (msub a b) c = msub (mmul a c) (mmul b c).
Proof. apply mat2_eq; simpl; ring. Qed.

Lemma Pcorr_change T s K Pm : mdet T <> 0 ->
  Pcorr (change_sys T s) (mv T K) (mmul (mmul T Pm) (mtr T))
  = mmul (mmul T (Pcorr s K Pm)) (mtr T).
Proof.
  intros HT. unfold Pcorr. cbn [change_sys sH]. rewrite vouter_mtr, vouter_mv.
  replace (msub mI (mmul (mmul T (vouter K (sH s))) (minv T)))
    with (mmul (mmul T (msub mI (vouter K (sH s)))) (minv T)).
  - rewrite !mmul_assoc. do 2 f_equal.
    rewrite <- (mmul_assoc (minv T)), minv_l, mmul_I_l by assumption. reflexivity.
  - rewrite mmul_msub_l, mmul_msub_r, mmul_I_r, minv_r by assumption. reflexivity.
Qed.

Theorem C114_coordinate_change :
  forall (T : mat2) (s : sys) (P : mat2) (x : vec2) (h : list (R * R)) e e',
  mdet T <> 0 ->
  run R_scalar 1 1 (enc_sys s) (kalman_init R_scalar false 1 (enc2 P) (encv x)) (enc_hist h)
    = Ok (enc_est e) ->
  run R_scalar 1 1 (enc_sys (change_sys T s))
      (kalman_init R_scalar false 1 (enc2 (mmul (mmul T P) (mtr T))) (encv (mv T x)))
      (enc_hist h) = Ok (enc_est e') ->
  ex e' = mv T (ex e) /\ eP e' = mmul (mmul T (eP e)) (mtr T) /\
  (forall K, eK e = Some K -> eK e' = Some (mv T K)) /\ et e' = et e.
Proof.
  intros T s P x h e e' HT H H'.
  rewrite (run_init_reach _ _ _ _ _ H), (run_init_reach _ _ _ _ _ H'). clear H H' e e'.
  set (f := fun e : est => Est (option_map (mv T) (eK e)) (mmul (mmul T (eP e)) (mtr T))
                               (mv T (ex e)) (et e)).
  assert (X : forall h e, krun (change_sys T s) (f e) h = f (krun s e h)).
  { clear - HT. induction h as [|[u z] h IH]; intros e; [reflexivity|]. cbn [krun].
    rewrite <- IH. f_equal. unfold f, kstep. cbn [eP ex eK et].
    rewrite Ppred_change, kgain_change, Pcorr_change by assumption. cbn [option_map]. f_equal.
    unfold xcorr, xpred. rewrite !mv_vadd, !mv_vscale. cbn [change_sys sA sB sH].
    rewrite !mv_mmul, vdot_mtr, mv_vadd, !mv_vscale.
    rewrite <- (mv_mmul (minv T) T (ex e)), minv_l, mv_I by assumption.
    rewrite <- (mv_mmul (minv T) T (mv (sA s) (ex e))), minv_l, mv_I by assumption.
    rewrite <- (mv_mmul (minv T) T (sB s)), minv_l, mv_I by assumption. reflexivity. }
  specialize (X h (fresh P x)).
  change (f (fresh P x)) with (fresh (mmul (mmul T P) (mtr T)) (mv T x)) in X.
  rewrite X. unfold f. cbn [ex eP eK et]. repeat split.
  intros K ->. reflexivity.
Qed.
Print Assumptions C114_coordinate_change.

(** Position in kilometres and velocity per hour instead of metres and seconds; states
    exchanged. *)
Example C114_case :
  mdet (M2 (1/1000) 0 0 (36/10)) <> 0 /\ mdet (M2 0 1 1 0) <> 0 /\
  sH (change_sys (M2 0 1 1 0) ex_sys) = V2 0 1.
Proof.
  unfold change_sys, minv, mdet; simpl. repeat split; try lra. apply vec2_eq; simpl; field.
Qed.

(** ** C115: repeated measurements of a constant *)

(** A state that neither changes by itself, nor by inputs, nor by noise. *)
Definition constant_sys (s : sys) : Prop := sA s = mI /\ sB s = V2 0 0 /\ sQ s = M2 0 0 0 0.
Definition with_R (s : sys) (r : R) : sys := Sys (sA s) (sB s) (sH s) (sQ s) r (sdt s).
Definition sumz (h : list (R * R)) : R := fold_right (fun uz a => snd uz + a) 0 h.

(** Closed form after [n] measurements with sum [t]. *)
Definition const_P (s : sys) (P : mat2) (n : R) : mat2 :=
  msub P (mscale (n / (sR s + n * quad P (sH s))) (vouter (mv P (sH s)) (mv P (sH s)))).
Definition const_x (s : sys) (P : mat2) (x : vec2) (n t : R) : vec2 :=
  vadd x (vscale ((t - n * vdot (sH s) x) / (sR s + n * quad P (sH s))) (mv P (sH s))).

Lemma Ppred_constant s P : constant_sys s -> Ppred s P = P.
Proof.
  intros (A & _ & Q). unfold Ppred. rewrite A, Q. destruct P. apply mat2_eq; simpl; ring.
Qed.
Lemma xpred_constant s x u : constant_sys s -> xpred s x u = x.
Proof.
  intros (A & B & _). unfold xpred. rewrite A, B. destruct x. apply vec2_eq; simpl; ring.
Qed.

Lemma constant_step s P x n t K0 t0 u z :
  constant_sys s -> sym P -> 0 <= quad P (sH s) -> 0 < sR s -> 0 <= n ->
  exists K1, kstep s (Est K0 (const_P s P n) (const_x s P x n t) t0) u z
  = Est (Some K1) (const_P s P (n + 1)) (const_x s P x (n + 1) (z + t)) (t0 + sdt s).
Proof.
  intros C HP Hq HR Hn. unfold kstep. cbn [eP ex et].
  rewrite Ppred_constant, xpred_constant by assumption.
  exists (kgain s (const_P s P n)). set (q := quad P (sH s)) in *. set (r := sR s) in *.
  assert (D : 0 < r + n * q) by nra. assert (D1 : 0 < r + (n + 1) * q) by nra.
  assert (PH : mv (const_P s P n) (sH s) = vscale (r / (r + n * q)) (mv P (sH s))).
  { unfold const_P. fold q r. unfold sym in HP.
    assert (Eq : q = vdot (sH s) (mv P (sH s))) by reflexivity. clearbody q r.
    destruct P as [a b b' c], s as [? ? [h0 h1] ? ? ?]. simpl in HP. subst b'.
    unfold vdot, mv in Eq. simpl in *.
    apply vec2_eq; unfold mscale, vouter, msub, mv, vscale; simpl.
    - transitivity ((a * h0 + b * h1) * (1 - n / (r + n * q) * q)); [generalize (n / (r + n * q)); intros; rewrite Eq; ring|].
      field. lra.
    - transitivity ((b * h0 + c * h1) * (1 - n / (r + n * q) * q)); [generalize (n / (r + n * q)); intros; rewrite Eq; ring|].
      field. lra. }
  assert (ES : Sinn s (const_P s P n) = r * (r + (n + 1) * q) / (r + n * q)).
  { unfold Sinn, quad at 1. rewrite PH.
    transitivity (r / (r + n * q) * q + r).
    - unfold q, quad, vdot, vscale. simpl. fold r. ring.
    - field. lra. }
  assert (EK : kgain s (const_P s P n) = vscale (/ (r + (n + 1) * q)) (mv P (sH s))).
  { unfold kgain, Kopt. rewrite ES, PH. destruct (Req_EM_T _ 0) as [Z|Z].
    - exfalso. revert Z. apply Rgt_not_eq. unfold Rdiv.
      apply Rmult_lt_0_compat; [apply Rmult_lt_0_compat; assumption|].
      now apply Rinv_0_lt_compat.
    - unfold vscale. apply vec2_eq; simpl; field; lra. }
  rewrite EK. f_equal.
  - unfold Pcorr.
    assert (X : mmul (vouter (vscale (/ (r + (n + 1) * q)) (mv P (sH s))) (sH s)) (const_P s P n)
      = mscale (/ (r + (n + 1) * q)) (vouter (mv P (sH s)) (mv (mtr (const_P s P n)) (sH s)))).
    { generalize (mv P (sH s)) (const_P s P n). intros [] []. apply mat2_eq; simpl; ring. }
    assert (Y : mtr (const_P s P n) = const_P s P n).
    { unfold const_P. unfold sym in HP. destruct P as [a b b' c]. simpl in HP. subst b'.
      apply mat2_eq; simpl; ring. }
    assert (Z : mmul (msub mI (vouter (vscale (/ (r + (n + 1) * q)) (mv P (sH s))) (sH s)))
                  (const_P s P n)
              = msub (const_P s P n) (mmul (vouter (vscale (/ (r + (n + 1) * q)) (mv P (sH s)))
                  (sH s)) (const_P s P n))).
    { rewrite mmul_msub_r, mmul_I_l. reflexivity. }
    rewrite Z, X, Y, PH. unfold const_P. fold q r. generalize (mv P (sH s)). intros [g0 g1].
    destruct P. apply mat2_eq; simpl; field; lra.
  - unfold xcorr.
    assert (X : vdot (sH s) (const_x s P x n t)
                = vdot (sH s) x + (t - n * vdot (sH s) x) / (r + n * q) * q).
    { unfold const_x, q, quad, vdot, vadd, vscale. simpl. fold r. ring. }
    rewrite X. unfold const_x. fold q r. generalize (mv P (sH s)) (vdot (sH s) x).
    intros [g0 g1] hx. apply vec2_eq; simpl; field; lra.
Qed.

Lemma constant_run s P x h :
  constant_sys s -> sym P -> 0 <= quad P (sH s) -> 0 < sR s ->
  forall n t K0 t0, 0 <= n ->
  exists K1 t1, krun s (Est K0 (const_P s P n) (const_x s P x n t) t0) h
  = Est K1 (const_P s P (n + INR (length h))) (const_x s P x (n + INR (length h)) (sumz h + t)) t1.
Proof.
  intros C HP Hq HR. induction h as [|[u z] h IH]; intros n t K0 t0 Hn.
  - exists K0, t0. simpl. rewrite Rplus_0_r, Rplus_0_l. reflexivity.
  - cbn [krun]. destruct (constant_step s P x n t K0 t0 u z C HP Hq HR Hn) as [K1 ->].
    destruct (IH (n + 1) (z + t) (Some K1) (t0 + sdt s) ltac:(lra)) as (K2 & t2 & ->).
    exists K2, t2. cbn [length]. rewrite S_INR. cbn [sumz fold_right snd]. fold (sumz h).
    do 2 f_equal; ring.
Qed.

Lemma const_0 s P x : 0 < sR s -> const_P s P 0 = P /\ const_x s P x 0 0 = x.
Proof.
  intros HR. unfold const_P, const_x. split; [destruct P; apply mat2_eq|destruct x; apply vec2_eq];
    simpl; unfold Rdiv; ring.
Qed.

Theorem C115_repeated_measurement :
  forall (s : sys) (P : mat2) (x : vec2) (h : list (R * R)) e e1 u,
  constant_sys s -> sym P -> psd P -> 0 < sR s -> h <> [] ->
  run R_scalar 1 1 (enc_sys s) (kalman_init R_scalar false 1 (enc2 P) (encv x)) (enc_hist h)
    = Ok (enc_est e) ->
  update R_scalar 1 1 (enc_sys (with_R s (sR s / INR (length h)))) (enc_est (fresh P x))
    (enc1 u) (enc1 (sumz h / INR (length h))) = Ok (enc_est e1) ->
  ex e = ex e1 /\ eP e = eP e1 /\
  quad (eP e) (sH s) <= sR s / INR (length h).
Proof.
  intros s P x h e e1 u C HP Hp HR Hh H H1.
  rewrite (run_init_reach _ _ _ _ _ H). clear H e.
  apply update_reach in H1 as ->.
  pose proof (Hp (sH s)) as Hq.
  set (n := INR (length h)) in *.
  assert (Hn : 0 < n).
  { unfold n. apply (lt_INR 0). destruct h; [congruence|simpl; lia]. }
  destruct (const_0 s P x HR) as [E0 E0'].
  destruct (constant_run s P x h C HP Hq HR 0 0 None 0 (Rle_refl 0)) as (K1 & t1 & E).
  rewrite E0, E0', Rplus_0_l, Rplus_0_r in E. fold n in E.
  unfold fresh. rewrite E. cbn [ex eP].
  set (s1 := with_R s (sR s / n)).
  assert (C1 : constant_sys s1) by exact C.
  assert (R1 : 0 < sR s1) by (simpl; apply Rdiv_lt_0_compat; assumption).
  destruct (const_0 s1 P x R1) as [F0 F0'].
  destruct (constant_step s1 P x 0 0 None 0 u (sumz h / n) C1 HP Hq R1 (Rle_refl 0)) as [K2 E2].
  rewrite F0, F0', Rplus_0_l, Rplus_0_r in E2.
  rewrite E2. cbn [ex eP].
  assert (D : 0 < sR s + n * quad P (sH s)) by nra.
  assert (D1 : 0 < sR s / n + quad P (sH s)).
  { assert (0 < sR s / n) by (apply Rdiv_lt_0_compat; assumption). lra. }
  assert (Q : forall k, k / (sR s / n + quad P (sH s)) = k * n / (sR s + n * quad P (sH s))).
  { intros k. field. repeat split; lra. }
  split; [|split].
  - unfold const_x. change (sH s1) with (sH s). change (sR s1) with (sR s / n).
    do 2 f_equal. rewrite !Rmult_1_l, Q. f_equal. field. lra.
  - unfold const_P. change (sH s1) with (sH s). change (sR s1) with (sR s / n).
    do 2 f_equal. rewrite !Rmult_1_l, Q. f_equal. ring.
  - assert (X : quad (const_P s P n) (sH s) =
                quad P (sH s) * sR s / (sR s + n * quad P (sH s))).
    { transitivity (quad P (sH s) - n / (sR s + n * quad P (sH s))
                       * (quad P (sH s) * quad P (sH s))).
      - unfold const_P. generalize (n / (sR s + n * quad P (sH s))). intros k.
        unfold quad, vdot, mv. destruct P as [? b b' ?]. unfold sym in HP. simpl in *. subst. ring.
      - field. lra. }
    rewrite X. apply (Rmult_le_reg_r (sR s + n * quad P (sH s))); [assumption|].
    unfold Rdiv. rewrite Rmult_assoc, Rinv_l, Rmult_1_r by lra.
    apply (Rmult_le_reg_r n); [assumption|].
    replace (sR s * / n * (sR s + n * quad P (sH s)) * n) with (sR s * (sR s + n * quad P (sH s)))
      by (field; lra).
    nra.
Qed.
Print Assumptions C115_repeated_measurement.

(** The order of the measurements does not matter, and inputs do not either. *)
Theorem C115_order_irrelevant :
  forall (s : sys) (P : mat2) (x : vec2) (h h' : list (R * R)) e e',
  constant_sys s -> sym P -> psd P -> 0 < sR s ->
  length h = length h' -> sumz h = sumz h' ->
  run R_scalar 1 1 (enc_sys s) (kalman_init R_scalar false 1 (enc2 P) (encv x)) (enc_hist h)
    = Ok (enc_est e) ->
  run R_scalar 1 1 (enc_sys s) (kalman_init R_scalar false 1 (enc2 P) (encv x)) (enc_hist h')
    = Ok (enc_est e') ->
  ex e = ex e' /\ eP e = eP e'.
Proof.
  intros s P x h h' e e' C HP Hp HR EL ES H H'.
  rewrite (run_init_reach _ _ _ _ _ H), (run_init_reach _ _ _ _ _ H'). clear H H'.
  pose proof (Hp (sH s)) as Hq.
  destruct (const_0 s P x HR) as [E0 E0'].
  destruct (constant_run s P x h C HP Hq HR 0 0 None 0 (Rle_refl 0)) as (K1 & t1 & E).
  destruct (constant_run s P x h' C HP Hq HR 0 0 None 0 (Rle_refl 0)) as (K2 & t2 & E').
  rewrite E0, E0' in E, E'. unfold fresh. rewrite E, E', EL, ES. split; reflexivity.
Qed.
Print Assumptions C115_order_irrelevant.

Example C115_case :
  let s := Sys mI (V2 0 0) (V2 1 0) (M2 0 0 0 0) 4 1 in
  let P := M2 2 1 1 3 in
  constant_sys s /\ sym P /\ psd P /\ 0 < sR s /\
  sumz [(0, 5); (0, 7); (0, 3)] = 15 /\ sumz [(1, 7); (2, 3); (0, 5)] = 15.
Proof.
  unfold constant_sys, sym, psd, quad, vdot, mv, sumz. simpl. repeat split; try lra.
  intros [x y]. simpl. pose proof (psd_2x2 2 1 3 x y ltac:(lra) ltac:(lra) ltac:(lra)). lra.
Qed.

(** ** C116: two measurements at once or one after the other *)

(** With uncorrelated measurement errors, the two-measurement estimator does the same as
    the one-measurement estimator fed with the first measurement and then, without
    any time passing, with the second. *)
Theorem C116_sequential_measurements :
  forall (A : mat2) (B : vec2) (Q : mat2) (dt : R) (h1 h2 : vec2) (r1 r2 : R)
         (P : mat2) (x : vec2) (t u u2 : R) (z : vec2) (K0 : mat2) e e1 e2,
  let s2 := Sys2 A B (M2 (v0 h1) (v1 h1) (v0 h2) (v1 h2)) Q (M2 r1 0 0 r2) dt in
  let sa := Sys A B h1 Q r1 dt in
  let sb := Sys mI (V2 0 0) h2 (M2 0 0 0 0) r2 0 in
  sym P -> sym Q ->
  Sinn sa (Ppred sa P) <> 0 -> mdet (Sinn2 s2 (Ppred2 s2 P)) <> 0 ->
  update R_scalar 2 1 (enc_sys2 s2) (enc_est2 (Est2 K0 P x t)) (enc1 u) (encv z)
    = Ok (enc_est2 e) ->
  update R_scalar 1 1 (enc_sys sa) (enc_est (Est None P x t)) (enc1 u) (enc1 (v0 z))
    = Ok (enc_est e1) ->
  update R_scalar 1 1 (enc_sys sb) (enc_est e1) (enc1 u2) (enc1 (v1 z)) = Ok (enc_est e2) ->
  fx e = ex e2 /\ fP e = eP e2 /\ ft e = et e2.
Proof.
  intros A B Q dt h1 h2 r1 r2 P x t u u2 z K0 e e1 e2 s2 sa sb HP HQ HS HD H H1 H2.
  apply update_reach in H1. apply update_reach in H2.
  rewrite update2_enc in H. cbn [fP fx ft] in H.
  destruct (Req_EM_T _ 0) as [|_]; [contradiction|]. apply Ok_inj in H.
  rewrite sym_minv in H by (apply sym_Sinn2; try assumption; reflexivity).
  set (st := step2_with _ _ _ _ _ _ _) in H.
  assert (EP : fP e = fP st) by (apply enc2_inj; exact (eq_sym (f_equal (@kP R) H))).
  assert (EX : fx e = fx st) by (apply encv_inj; exact (eq_sym (f_equal (@kx R) H))).
  assert (ET : ft e = ft st) by exact (eq_sym (f_equal (@kt R) H)).
  rewrite EP, EX, ET. clear H EP EX ET e. subst e1.
  cbn [kstep eP ex] in H2.
  set (Pm := Ppred sa P) in *. set (xm := xpred sa x u) in *.
  assert (G : kgain sa Pm = Kopt sa Pm).
  { unfold kgain. destruct (Req_EM_T _ 0); [contradiction|reflexivity]. }
  assert (CB : constant_sys sb) by (repeat split).
  unfold kstep in H2. cbn [eP ex et] in H2. fold Pm in H2. fold xm in H2.
  rewrite Ppred_constant, xpred_constant, G in H2 by assumption.
  set (P1 := Pcorr sa (Kopt sa Pm) Pm) in *.
  assert (SPm : sym Pm) by (now apply sym_Ppred).
  assert (E2 : Ppred2 s2 P = Pm) by reflexivity.
  assert (ED : mdet (Sinn2 s2 Pm) = Sinn sa Pm * Sinn sb P1).
  { subst P1. revert HS SPm. unfold Kopt, sym, mdet, Sinn2, Sinn, Pcorr, quad, vdot, mv. clearbody Pm.
    destruct Pm as [a b b' c], h1 as [h0 h1], h2 as [g0 g1]; simpl. intros HS ->.
    field. assumption. }
  rewrite E2 in HD.
  assert (HS2 : Sinn sb P1 <> 0).
  { intros Z. apply HD. rewrite ED, Z. ring. }
  assert (G2 : kgain sb P1 = Kopt sb P1).
  { unfold kgain. destruct (Req_EM_T _ 0); [contradiction|reflexivity]. }
  rewrite G2 in H2. subst e2. cbn [ex eP et].
  unfold st, step2_with. cbn [fP fx ft]. rewrite E2.
  change (vadd (mv (tA s2) x) (vscale u (tB s2))) with xm.
  clearbody Pm xm. subst st.
  assert (EM : minv (Sinn2 s2 Pm) =
    let d := Sinn sa Pm * Sinn sb P1 in
    M2 (m11 (Sinn2 s2 Pm) / d) (- m01 (Sinn2 s2 Pm) / d)
       (- m10 (Sinn2 s2 Pm) / d) (m00 (Sinn2 s2 Pm) / d)).
  { unfold minv. rewrite ED. reflexivity. }
  rewrite EM. clear EM ED HD E2 G G2 CB.
  set (S1 := Sinn sa Pm) in *. set (S2 := Sinn sb P1) in *.
  assert (ES1 : S1 = quad Pm h1 + r1) by reflexivity.
  assert (ES2 : S2 = quad Pm h2 - vdot h2 (mv Pm h1) * vdot h2 (mv Pm h1) / S1 + r2).
  { unfold S2, P1, Kopt. fold S1. clearbody S1.
    unfold Sinn, Pcorr, quad, vdot, mv. unfold sym in SPm.
    destruct Pm as [a b b' c], h1 as [h0 h1], h2 as [g0 g1]; simpl in *. subst b'.
    unfold Rdiv. ring. }
  unfold Kopt. fold S1. fold S2. unfold P1, Kopt. fold S1.
  clearbody S1 S2. clear P1.
  unfold sym in SPm.
  destruct Pm as [a b b' c], h1 as [h0 h1], h2 as [g0 g1], xm as [x0 x1], z as [z0 z1].
  simpl in SPm. subst b'.
  unfold quad, vdot, mv in ES1, ES2. simpl in ES1, ES2.
  assert (ER1 : r1 = S1 - (h0 * (a * h0 + b * h1) + h1 * (b * h0 + c * h1))) by lra.
  assert (ER2 : r2 = S2 - (g0 * (a * g0 + b * g1) + g1 * (b * g0 + c * g1)) +
     (g0 * (a * h0 + b * h1) + g1 * (b * h0 + c * h1)) *
     (g0 * (a * h0 + b * h1) + g1 * (b * h0 + c * h1)) / S1) by lra.
  unfold s2, sa, sb. clear s2 sa sb.
  unfold Sinn2. cbn [tR tH tA tQ]. rewrite ER1, ER2. clear ER1 ER2 ES1 ES2.
  unfold xcorr, Pcorr, vdot, mv. cbn [sH sR sA sB].
  split; [|split].
  - apply vec2_eq; simpl; field; auto.
  - apply mat2_eq; simpl; field; auto.
  - simpl. ring.
Qed.
Print Assumptions C116_sequential_measurements.

Example C116_case :
  let s2 := Sys2 (M2 1 1 0 1) (V2 0 1) (M2 1 0 1 2) (M2 1 0 0 1) (M2 4 0 0 2) 1 in
  let sa := Sys (M2 1 1 0 1) (V2 0 1) (V2 1 0) (M2 1 0 0 1) 4 1 in
  sym ex_P /\ Sinn sa (Ppred sa ex_P) <> 0 /\ mdet (Sinn2 s2 (Ppred2 s2 ex_P)) <> 0.
Proof.
  unfold sym, mdet, Sinn2, Sinn, Ppred2, Ppred, quad, vdot, mv, ex_P; simpl. repeat split; lra.
Qed.
