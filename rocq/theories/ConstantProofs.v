(** * Lemmas for constant inputs and measurements *)

From Coq Require Import Reals List Lra Lia Psatz ZArith.
From Verif Require Import Base Matrix Scalars Kalman KalmanSpec KalmanProofs PropsKalman
  StochasticSpec StochasticProofs PropsRiccati ConvergenceSpec ConvergenceProofs PropsConvergence.
Import ListNotations.
Local Open Scope R_scope.

(** A difference driven by [k 0], [k 1], ... *)
Fixpoint seqd (s : sys) (P : mat2) (d : vec2) (k : nat -> vec2) (n : nat) : vec2 :=
  match n with
  | O => d
  | S n' => seqd s (pstep s P) (vadd (mv (fmat s P) d) (k O)) (fun i => k (S i)) n'
  end.

Lemma seqd_linear s n : forall P d k,
  seqd s P d k n = vadd (mv (phi s P n) d) (seqd s P (V2 0 0) k n).
Proof.
  induction n as [|n IH]; intros P d k; cbn [seqd phi].
  - rewrite mv_mI. destruct d. unfold vadd. apply vec2_eq; simpl; ring.
  - rewrite (IH (pstep s P) (vadd (mv (fmat s P) d) (k O))).
    rewrite (IH (pstep s P) (vadd (mv (fmat s P) (V2 0 0)) (k O))).
    rewrite mv_mmul. generalize (seqd s (pstep s P) (V2 0 0) (fun i => k (S i)) n) (phi s (pstep s P) n) (fmat s P) (k O).
    intros [] [] [] []. destruct d. unfold vadd, mv. apply vec2_eq; simpl; ring.
Qed.

Lemma seqd_ext s n : forall P d k k', (forall i, k i = k' i) -> seqd s P d k n = seqd s P d k' n.
Proof.
  induction n as [|n IH]; intros P d k k' E; cbn [seqd]; [reflexivity|]. rewrite E. apply IH. intros i. apply E.
Qed.

Lemma seqd_add s m : forall P d k n,
  seqd s P d k (m + n) = seqd s (pseq s P m) (seqd s P d k m) (fun i => k (m + i)%nat) n.
Proof.
  induction m as [|m IH]; intros P d k n; cbn [seqd Nat.add]; [reflexivity|].
  rewrite IH. rewrite pseq_shift. reflexivity.
Qed.

Lemma seqd_short s N : forall P k, exists C, 0 < C /\ forall n d, (n <= N)%nat ->
  norm1 (seqd s P d k n) <= C * (norm1 d + 1).
Proof.
  induction N as [|N IH]; intros P k.
  - exists 1. split; [lra|]. intros [|n] d Hn; [|lia]. simpl. lra.
  - destruct (IH (pstep s P) (fun i => k (S i))) as (c & Hc & L). destruct (norm1_mv_ex (fmat s P)) as (f & Hf & Lf).
    pose proof (norm1_nonneg (k O)) as K0.
    exists (1 + c * (f + norm1 (k O) + 1)). assert (0 < c * (f + norm1 (k O) + 1)) by (apply Rmult_lt_0_compat; lra).
    split; [lra|]. intros [|n] d Hn; pose proof (norm1_nonneg d) as D; cbn [seqd].
    + assert (0 <= c * (f + norm1 (k O) + 1) * (norm1 d + 1)) by (apply Rmult_le_pos; lra). lra.
    + apply Rle_trans with (1 := L n _ ltac:(lia)).
      pose proof (norm1_vadd (mv (fmat s P) d) (k O)) as T. pose proof (Lf d) as F.
      assert (norm1 (vadd (mv (fmat s P) d) (k O)) + 1 <= (f + norm1 (k O) + 1) * (norm1 d + 1)).
      { assert (0 <= norm1 (k O) * norm1 d) by now apply Rmult_le_pos. lra. }
      assert (c * (norm1 (vadd (mv (fmat s P) d) (k O)) + 1) <= c * ((f + norm1 (k O) + 1) * (norm1 d + 1)))
        by (apply Rmult_le_compat_l; lra). lra.
Qed.

Lemma init_run s P x h :
  run R_scalar 1 1 (enc_sys s) (kalman_init R_scalar false 1 (enc2 P) (encv x)) (enc_hist h)
    = Ok (enc_est (krun s (fresh P x) h)).
Proof. rewrite kalman_init_enc. apply run_enc. Qed.

(** What input and measurement add to the state in an update from covariance [P]. *)
Definition drive (s : sys) (P : mat2) (u z : R) : vec2 :=
  let K := kgain s (Ppred s P) in
  vadd (mv (msub mI (vouter K (sH s))) (vscale u (sB s))) (vscale z K).

Lemma kstep_affine s e u z :
  ex (kstep s e u z) = vadd (mv (fmat s (eP e)) (ex e)) (drive s (eP e) u z).
Proof.
  unfold kstep, xcorr, xpred, fmat, drive. cbn [ex]. set (K := kgain s (Ppred s (eP e))).
  destruct K, (ex e), s as [[] [] [] ? ? ?]. unfold vadd, mv, mmul, msub, mI, vouter, vscale, vdot. apply vec2_eq; simpl; ring.
Qed.

Section Constant.

Context (s : sys) (HR : 0 < sR s) (HQ : sym (sQ s)) (HQp : psd (sQ s)) (Ho : observable s) (Hc : controllable s).

Lemma seqd_decays : exists r c, 0 < r < 1 /\ 0 < c /\
  forall q, r < q < 1 -> forall P, settled s P -> forall n d k b, 0 <= b ->
  (forall i, norm1 (k i) <= b * q ^ i) ->
  norm1 (seqd s P d k n) <= c * r ^ n * norm1 d + c * b / (q - r) * q ^ n.
Proof.
  destruct (phi_uniform s HR HQ HQp Ho Hc) as (r & c & Hr & Hc' & L). exists r, c. do 2 (split; [assumption|]).
  intros q Hq.
  assert (Z : forall n P, settled s P -> forall k b, 0 <= b -> (forall i, norm1 (k i) <= b * q ^ i) ->
     norm1 (seqd s P (V2 0 0) k n) <= c * b / (q - r) * (q ^ n - r ^ n)).
  { induction n as [|n IH]; intros P HP k b Hb HK.
    - cbn [seqd pow]. unfold norm1. cbn [v0 v1]. rewrite Rabs_R0. lra.
    - cbn [seqd]. rewrite seqd_linear. apply Rle_trans with (1 := norm1_vadd _ _).
      replace (vadd (mv (fmat s P) (V2 0 0)) (k O)) with (k O)
        by (generalize (k O) (fmat s P); intros [] []; unfold vadd, mv; apply vec2_eq; simpl; ring).
      pose proof (L _ (settled_pstep s P HP) n (k O)) as L1. pose proof (HK O) as K0. simpl in K0. rewrite Rmult_1_r in K0.
      assert (HK' : forall i, norm1 (k (S i)) <= b * q * q ^ i) by (intros i; specialize (HK (S i)); simpl in HK; lra).
      assert (Hbq : 0 <= b * q) by (apply Rmult_le_pos; lra).
      pose proof (IH (pstep s P) (settled_pstep s P HP) (fun i => k (S i)) (b * q) Hbq HK') as L2.
      assert (Rn : 0 < r ^ n) by (apply pow_lt; lra).
      assert (c * r ^ n * norm1 (k O) <= c * r ^ n * b) by (apply Rmult_le_compat_l; [apply Rmult_le_pos; lra|assumption]).
      cbn [pow].
      replace (c * b / (q - r) * (q * q ^ n - r * r ^ n)) with (c * r ^ n * b + c * (b * q) / (q - r) * (q ^ n - r ^ n))
        by (field; lra). lra. }
  intros P HP n d k b Hb HK. rewrite seqd_linear. apply Rle_trans with (1 := norm1_vadd _ _).
  pose proof (L P HP n d). pose proof (Z n P HP k b Hb HK).
  assert (Rn : 0 < r ^ n) by (apply pow_lt; lra).
  assert (0 <= c * b / (q - r)).
  { apply Rmult_le_pos; [apply Rmult_le_pos; lra|]. left. apply Rinv_0_lt_compat. lra. }
  assert (c * b / (q - r) * (q ^ n - r ^ n) <= c * b / (q - r) * q ^ n) by (apply Rmult_le_compat_l; lra). lra.
Qed.

(** The same from any initial covariance. *)
Lemma seqd_tends : exists r, 0 < r < 1 /\
  forall q, r < q < 1 -> forall P, covariances_ok s P -> forall k b, 0 <= b ->
  (forall i, norm1 (k i) <= b * q ^ i) -> exists C, 0 < C /\ forall n d,
  norm1 (seqd s P d k n) <= C * q ^ n * (norm1 d + 1).
Proof.
  destruct seqd_decays as (r & c & Hr & Hc' & L). exists r. split; [assumption|]. intros q Hq P CP k b Hb HK.
  destruct (seqd_short s 3 P k) as (C & HC & LC).
  assert (q3 : 0 < q ^ 3) by (apply pow_lt; lra).
  assert (S3 : settled s (pseq s P 3)).
  { exists (pseq s P 2). split; [|reflexivity]. exists P. split; [assumption|reflexivity]. }
  set (B := c * (b * q ^ 3) / (q - r)).
  assert (B0 : 0 <= B).
  { unfold B. apply Rmult_le_pos; [apply Rmult_le_pos; [lra|apply Rmult_le_pos; lra]|]. left. apply Rinv_0_lt_compat. lra. }
  assert (cC : 0 < c * C) by now apply Rmult_lt_0_compat.
  set (D := C / q ^ 3 + (c * C + B) / q ^ 3). exists D.
  assert (D1 : 0 < C / q ^ 3) by now apply Rdiv_lt_0_compat.
  assert (D2 : 0 < (c * C + B) / q ^ 3) by (apply Rdiv_lt_0_compat; lra).
  split; [unfold D; lra|]. intros n d. pose proof (norm1_nonneg d) as N.
  assert (Qn : 0 < q ^ n) by (apply pow_lt; lra).
  destruct (le_lt_dec n 3) as [Hn|Hn].
  - apply Rle_trans with (1 := LC n d Hn). apply Rmult_le_compat_r; [lra|].
    assert (Q3 : q ^ 3 <= q ^ n).
    { replace 3%nat with (n + (3 - n))%nat by lia. rewrite pow_add.
      assert (q ^ (3 - n) <= 1) by (rewrite <- (pow1 (3 - n)); apply pow_incr; lra). nra. }
    apply Rle_trans with (C / q ^ 3 * q ^ 3); [right; field; lra|].
    apply Rle_trans with (C / q ^ 3 * q ^ n); [apply Rmult_le_compat_l; lra|].
    apply Rmult_le_compat_r; [lra|]. unfold D. lra.
  - replace n with (3 + (n - 3))%nat by lia. set (m := (n - 3)%nat). rewrite seqd_add, pow_add.
    assert (HK' : forall i, norm1 (k (3 + i)%nat) <= b * q ^ 3 * q ^ i).
    { intros i. specialize (HK (3 + i)%nat). rewrite pow_add in HK. lra. }
    assert (Hb3 : 0 <= b * q ^ 3) by (apply Rmult_le_pos; lra).
    pose proof (L q Hq _ S3 m (seqd s P d k 3) (fun i => k (3 + i)%nat) _ Hb3 HK') as X. fold B in X.
    pose proof (LC 3%nat d (le_n 3)) as Y.
    assert (Qm : 0 < q ^ m) by (apply pow_lt; lra). assert (Rm : 0 < r ^ m) by (apply pow_lt; lra).
    assert (Rq : r ^ m <= q ^ m) by (apply pow_incr; lra).
    assert (c * r ^ m * norm1 (seqd s P d k 3) <= c * q ^ m * (C * (norm1 d + 1))).
    { apply Rmult_le_compat; [apply Rmult_le_pos; lra|apply norm1_nonneg| |assumption]. apply Rmult_le_compat_l; lra. }
    assert (E : D * (q ^ 3 * q ^ m) * (norm1 d + 1) = (C + (c * C + B)) * q ^ m * (norm1 d + 1)) by (unfold D; field; lra).
    rewrite E.
    assert (0 <= C * q ^ m * (norm1 d + 1)) by (apply Rmult_le_pos; [apply Rmult_le_pos|]; lra).
    assert (0 <= B * q ^ m * norm1 d) by (apply Rmult_le_pos; [apply Rmult_le_pos|]; lra). lra.
Qed.

(** The evolution matrix of the steady state does not have the eigenvalue 1. *)
Lemma steady_phi P n : pstep s P = P -> phi s P (S n) = mmul (phi s P n) (fmat s P).
Proof. intros E. cbn [phi]. now rewrite E. Qed.

Lemma kernel_vector a : mdet a = 0 -> exists x, x <> V2 0 0 /\ mv a x = V2 0 0.
Proof.
  destruct a as [a b c d]. unfold mdet. simpl. intros D.
  destruct (Req_EM_T a 0) as [A|A]; [destruct (Req_EM_T b 0) as [B|B]|].
  - destruct (Req_EM_T c 0) as [C|C].
    + exists (V2 1 0). split; [intros E; injection E; lra|]. subst. unfold mv. apply vec2_eq; simpl; ring.
    + exists (V2 d (- c)). split; [intros E; injection E; lra|]. subst. unfold mv. apply vec2_eq; simpl; ring.
  - exists (V2 b (- a)). split; [intros E; injection E; lra|]. unfold mv. apply vec2_eq; simpl; [ring|lra].
  - exists (V2 b (- a)). split; [intros E; injection E; lra|]. unfold mv. apply vec2_eq; simpl; [ring|lra].
Qed.

Lemma norm1_zero x : norm1 x = 0 -> x = V2 0 0.
Proof.
  unfold norm1. intros N. pose proof (Rabs_pos (v0 x)). pose proof (Rabs_pos (v1 x)).
  destruct x as [a b]; simpl in *. f_equal.
  - destruct (Req_EM_T a 0) as [|n]; [assumption|apply Rabs_pos_lt in n; lra].
  - destruct (Req_EM_T b 0) as [|n]; [assumption|apply Rabs_pos_lt in n; lra].
Qed.

Lemma no_eigenvalue_1 P : covariances_ok s P -> pstep s P = P -> mdet (msub mI (fmat s P)) <> 0.
Proof.
  intros CP E D. destruct (kernel_vector _ D) as (x & Nx & Kx).
  destruct (phi_uniform s HR HQ HQp Ho Hc) as (r & c & Hr & Hc' & L).
  assert (SP : settled s P).
  { exists P. split; [|now symmetry]. exists P. split; [assumption|]. now rewrite !E. }
  assert (F : mv (fmat s P) x = x).
  { revert Kx. generalize (fmat s P). intros [] K. destruct x. unfold mv, msub, mI in *. simpl in *. injection K as K0 K1.
    apply vec2_eq; simpl; lra. }
  assert (X : forall n, mv (phi s P n) x = x).
  { induction n as [|n IH]; [apply mv_mI|]. rewrite steady_phi by assumption. now rewrite mv_mmul, F. }
  assert (N0 : 0 < norm1 x).
  { pose proof (norm1_nonneg x). destruct (Req_EM_T (norm1 x) 0) as [Z|Z]; [now apply norm1_zero in Z|lra]. }
  destruct (pow_lt_1_zero r ltac:(rewrite Rabs_pos_eq; lra) (/ (c + 1)) ltac:(apply Rinv_0_lt_compat; lra)) as (n & Hn).
  specialize (Hn n (le_n n)). rewrite Rabs_pos_eq in Hn by (apply pow_le; lra).
  specialize (L P SP n x). rewrite X in L.
  assert (c * r ^ n < 1).
  { apply Rle_lt_trans with ((c + 1) * r ^ n); [assert (0 < r ^ n) by (apply pow_lt; lra); lra|].
    apply (Rmult_lt_compat_l (c + 1)) in Hn; [|lra]. rewrite Rinv_r in Hn by lra. assumption. }
  assert (c * r ^ n * norm1 x < 1 * norm1 x) by (apply Rmult_lt_compat_r; lra). lra.
Qed.

(** The state that an update with covariance [P] leaves as it is. *)
Definition rest (P : mat2) (u z : R) : vec2 := mv (minv (msub mI (fmat s P))) (drive s P u z).

Lemma rest_iff P u z x : covariances_ok s P -> pstep s P = P ->
  vadd (mv (fmat s P) x) (drive s P u z) = x <-> x = rest P u z.
Proof.
  intros CP E. pose proof (no_eigenvalue_1 P CP E) as D. unfold rest.
  assert (X : mv (msub mI (fmat s P)) x = vsub x (mv (fmat s P) x)).
  { generalize (fmat s P). intros []. destruct x. unfold mv, msub, mI, vsub. apply vec2_eq; simpl; ring. }
  split; intros H.
  - rewrite <- (minv_mv (msub mI (fmat s P)) x D). rewrite X. f_equal.
    rewrite <- H at 1. generalize (mv (fmat s P) x) (drive s P u z). intros [] []. unfold vsub, vadd. apply vec2_eq; simpl; ring.
  - assert (Y : mv (msub mI (fmat s P)) x = drive s P u z) by (rewrite H; now apply mv_minv).
    rewrite <- Y, X. generalize (mv (fmat s P) x). intros []. destruct x. unfold vsub, vadd. apply vec2_eq; simpl; ring.
Qed.

(** Difference to the state of rest. *)
Lemma const_diff Pi u z xi : vadd (mv (fmat s Pi) xi) (drive s Pi u z) = xi -> forall n e,
  vsub (ex (krun s e (repeat (u, z) n))) xi =
  seqd s (eP e) (vsub (ex e) xi)
    (fun i => vscale (z - vdot (sH s) (vadd (mv (sA s) xi) (vscale u (sB s))))
                (vsub (kgain s (Ppred s (pseq s (eP e) i))) (kgain s (Ppred s Pi)))) n.
Proof.
  intros F. induction n as [|n IH]; intros e; [reflexivity|]. cbn [repeat krun seqd]. rewrite IH.
  change (eP (kstep s e u z)) with (pstep s (eP e)).
  match goal with |- seqd _ _ ?a _ _ = seqd _ _ ?b _ _ => assert (E : a = b) end.
  { rewrite kstep_affine. rewrite <- F at 1. unfold fmat, drive. cbn [pseq].
    generalize (kgain s (Ppred s (eP e))) (kgain s (Ppred s Pi)). intros [] [].
    destruct (ex e), xi, s as [[] [] [] ? ? ?]. unfold vadd, vsub, mv, mmul, msub, mI, vouter, vscale, vdot. apply vec2_eq; simpl; ring. }
  rewrite E. apply seqd_ext. intros i. now rewrite <- pseq_shift.
Qed.

(** The gain approaches that of the steady state. *)
Lemma gain_tends : exists r, 0 < r < 1 /\ forall Pi, covariances_ok s Pi -> pstep s Pi = Pi ->
  forall P, covariances_ok s P -> exists C, 0 < C /\ forall i,
  norm1 (vsub (kgain s (Ppred s (pseq s P i))) (kgain s (Ppred s Pi))) <= C * r ^ i.
Proof.
  destruct (steady_tends s HR HQ HQp Ho Hc) as (Pj & Cj & Fj & r & Hr & T). exists r. split; [assumption|].
  intros Pi Ci Fi P CP. rewrite (steady_unique s HR HQ HQp Ho Hc Pi Pj Ci Cj Fi Fj).
  destruct (T P CP) as (C & HC & L). exists (2 * C). split; [lra|]. intros i.
  destruct (L (V2 0 0) (repeat (0, 0) (S i)) _ (init_run s P (V2 0 0) _)) as (_ & _ & _ & _ & G).
  destruct (G ltac:(discriminate)) as (K & EK & N0 & N1). clear L G T.
  rewrite gain_last in EK by discriminate. rewrite repeat_length in EK, N0, N1. cbn [fresh eP pred] in EK.
  injection EK as <-. unfold close in N0, N1. cbn [pow] in N0, N1.
  assert (Rn : 0 < r ^ i) by (apply pow_lt; lra).
  assert (C * (r * r ^ i) <= C * r ^ i) by (apply Rmult_le_compat_l; [lra|]; nra).
  unfold norm1, vsub. cbn [v0 v1]. lra.
Qed.

Lemma constant_tends : exists q, 0 < q < 1 /\ forall Pi, covariances_ok s Pi -> pstep s Pi = Pi ->
  forall u z P, covariances_ok s P -> exists C, 0 < C /\ forall n x,
  norm1 (vsub (ex (krun s (fresh P x) (repeat (u, z) n))) (rest Pi u z))
    <= C * q ^ n * (norm1 (vsub x (rest Pi u z)) + 1).
Proof.
  destruct seqd_tends as (r & Hr & L). destruct gain_tends as (g & Hg & G).
  set (q := (1 + Rmax r g) / 2). pose proof (Rmax_l r g). pose proof (Rmax_r r g).
  assert (Rmax r g < 1) by (apply Rmax_lub_lt; lra).
  exists q. split; [unfold q; lra|]. intros Pi Ci Fi u z P CP.
  pose proof (proj2 (rest_iff Pi u z _ Ci Fi) eq_refl) as F. set (xi := rest Pi u z) in *.
  destruct (G Pi Ci Fi P CP) as (C & HC & GC).
  set (c := z - vdot (sH s) (vadd (mv (sA s) xi) (vscale u (sB s)))).
  destruct (L q ltac:(unfold q; lra) P CP
    (fun i => vscale c (vsub (kgain s (Ppred s (pseq s P i))) (kgain s (Ppred s Pi)))) (Rabs c * C)) as (D & HD & LD).
  - apply Rmult_le_pos; [apply Rabs_pos|lra].
  - intros i. rewrite norm1_vscale, Rmult_assoc. apply Rmult_le_compat_l; [apply Rabs_pos|].
    apply Rle_trans with (1 := GC i). apply Rmult_le_compat_l; [lra|]. apply pow_incr. unfold q. lra.
  - exists D. split; [assumption|]. intros n x. rewrite (const_diff Pi u z xi F). apply LD.
Qed.

End Constant.
