(** * Bounds, contraction and convergence of the Kalman recursion: lemmas for PropsConvergence.v *)

From Coq Require Import Reals List Lra Lia Psatz.
From Verif Require Import Base Matrix Scalars Kalman KalmanSpec KalmanProofs PropsKalman
  StochasticSpec StochasticProofs PropsRiccati ConvergenceSpec.
Import ListNotations.
Local Open Scope R_scope.

Ltac mats := repeat match goal with
  | a : mat2 |- _ => destruct a | a : vec2 |- _ => destruct a end.
Ltac unf := unfold quad, vdot, mv, msub, madd, mmul, mtr, mscale, vsub, vadd, vscale, vouter, mI in *; cbn [m00 m01 m10 m11 v0 v1] in *.

(** ** Quadratic forms *)

Lemma quad_madd P Q x : quad (madd P Q) x = quad P x + quad Q x.
Proof. mats. unf. ring. Qed.
Lemma quad_mscale c P x : quad (mscale c P) x = c * quad P x.
Proof. mats. unf. ring. Qed.
Lemma quad_cong A P x : quad (mmul (mmul A P) (mtr A)) x = quad P (mv (mtr A) x).
Proof. mats. unf. ring. Qed.
Lemma quad_Ppred s P x : quad (Ppred s P) x = quad P (mv (mtr (sA s)) x) + quad (sQ s) x.
Proof. destruct s as [[] ? ? [] ? ?]. unfold Ppred. mats. unf. ring. Qed.

Lemma cauchy_schwarz P x y : sym P -> psd P -> vdot x (mv P y) * vdot x (mv P y) <= quad P x * quad P y.
Proof.
  intros Hs Hp. set (b := vdot x (mv P y)). set (a := quad P x). set (c := quad P y).
  assert (X : forall t u, 0 <= t * t * a + 2 * t * u * b + u * u * c).
  { intros t u. specialize (Hp (vadd (vscale t x) (vscale u y))).
    replace (quad P (vadd (vscale t x) (vscale u y))) with (t * t * a + 2 * t * u * b + u * u * c) in Hp; [exact Hp|].
    unfold a, b, c, sym in *. mats. unf. subst. ring. }
  assert (A : 0 <= a) by (pose proof (X 1 0); lra). assert (C : 0 <= c) by (pose proof (X 0 1); lra).
  destruct (Req_EM_T a 0) as [E|N].
  - pose proof (X (- (c + 1)) (2 * b)) as Y. rewrite E in *. lra.
  - pose proof (X (- b) a) as Y. assert (0 < a) by lra.
    apply (Rmult_le_reg_l a); [assumption|]. lra.
Qed.

(** Positive definite. *)
Lemma pd_psd P : pd P -> psd P.
Proof.
  intros [_ H] x. destruct (Req_EM_T (v0 x) 0) as [E0|N0].
  - destruct (Req_EM_T (v1 x) 0) as [E1|N1].
    + mats. unf. subst. lra.
    + left. apply H. intros ->. apply N1. reflexivity.
  - left. apply H. intros ->. apply N0. reflexivity.
Qed.

Lemma pd_mono P Q : sym Q -> pd P -> loewner_le P Q -> pd Q.
Proof. intros Hs [_ Hp] L. split; [assumption|]. intros x Hx. specialize (Hp x Hx). specialize (L x). lra. Qed.

Lemma pd_scale c P : 0 < c -> pd P -> pd (mscale c P).
Proof.
  intros Hc [Hs Hp]. split.
  - unfold sym in *. mats. unf. now rewrite Hs.
  - intros x Hx. rewrite quad_mscale. apply Rmult_lt_0_compat; auto.
Qed.

Lemma pd_det P : pd P -> 0 < m00 P /\ 0 < mdet P.
Proof.
  intros [Hs Hp]. assert (A : 0 < m00 P).
  { specialize (Hp (V2 1 0)). assert (X : V2 1 0 <> V2 0 0) by (intros X; injection X; lra).
    specialize (Hp X). mats. unf. lra. }
  split; [assumption|]. specialize (Hp (V2 (- m01 P) (m00 P))).
  assert (X : V2 (- m01 P) (m00 P) <> V2 0 0) by (intros X; injection X; lra).
  specialize (Hp X). unfold mdet, sym in *. mats. unf. subst. nra.
Qed.

Lemma pd_ge P : pd P -> exists c, 0 < c /\ forall x, c * vdot x x <= quad P x.
Proof.
  intros Hp. destruct (pd_det P Hp) as [A D]. destruct Hp as [Hs Hp]. unfold sym, mdet in *.
  destruct P as [a b b' d]. cbn [m00 m01 m10 m11] in *. subst b'.
  assert (Dd : 0 < d). { assert (0 < a * d) by nra. nra. }
  exists ((a * d - b * b) / (a + d)). assert (S : 0 < a + d) by lra.
  split; [apply Rdiv_lt_0_compat; lra|]. intros [x y]. unf.
  apply (Rmult_le_reg_l (a + d)); [assumption|].
  replace ((a + d) * ((a * d - b * b) / (a + d) * (x * x + y * y))) with ((a * d - b * b) * (x * x + y * y)) by (field; lra).
  assert (0 <= (a * x + b * y) * (a * x + b * y)) by apply Rle_0_sqr.
  assert (0 <= (b * x + d * y) * (b * x + d * y)) by apply Rle_0_sqr. nra.
Qed.

Lemma quad_le P : exists c, 0 < c /\ forall x, quad P x <= c * vdot x x.
Proof.
  destruct P as [a b b' d]. exists (Rabs a + Rabs b + Rabs b' + Rabs d + 1).
  pose proof (Rabs_pos a). pose proof (Rabs_pos b). pose proof (Rabs_pos b'). pose proof (Rabs_pos d).
  split; [lra|]. intros [x y]. unf.
  pose proof (Rle_abs a). pose proof (Rle_abs d).
  assert (B : (b + b') * (x * y) <= (Rabs b + Rabs b') * (x * x + y * y)).
  { assert (Y : Rabs (x * y) <= x * x + y * y).
    { assert (0 <= (x + y) * (x + y)) by apply Rle_0_sqr. assert (0 <= (x - y) * (x - y)) by apply Rle_0_sqr.
      apply Rabs_le. nra. }
    apply Rle_trans with (Rabs ((b + b') * (x * y))); [apply Rle_abs|]. rewrite Rabs_mult.
    apply Rle_trans with (Rabs (b + b') * (x * x + y * y)); [apply Rmult_le_compat_l; [apply Rabs_pos|assumption]|].
    apply Rmult_le_compat_r; [nra|apply Rabs_triang]. }
  assert (0 <= x * x) by apply Rle_0_sqr. assert (0 <= y * y) by apply Rle_0_sqr. nra.
Qed.

Lemma vdot_nonneg x : 0 <= vdot x x.
Proof. mats. unf. nra. Qed.

Lemma pd_dominates P D : pd D -> exists c, 1 <= c /\ loewner_le P (mscale c D).
Proof.
  intros HD. destruct (pd_ge D HD) as (e & He & E). destruct (quad_le P) as (m & Hm & M).
  exists (m / e + 1). split; [assert (0 < m / e) by (apply Rdiv_lt_0_compat; assumption); lra|].
  intros x. rewrite quad_mscale. specialize (E x). specialize (M x).
  pose proof (vdot_nonneg x).
  apply Rle_trans with (m / e * quad D x).
  - apply Rle_trans with (1 := M). apply (Rmult_le_compat_l (m / e)) in E; [|left; apply Rdiv_lt_0_compat; assumption].
    replace (m * vdot x x) with (m / e * (e * vdot x x)) by (field; lra). exact E.
  - assert (0 <= quad D x) by (apply (pd_psd D HD)). lra.
Qed.

(** ** C142: upper bound *)

Definition dead1 (s : sys) : vec2 := vscale (/ vdot (sH s) (sH s)) (sH s).
Definition dead2 (s : sys) : vec2 :=
  let v := V2 (- v1 (sH s)) (v0 (sH s)) in vscale (/ vdot (sH s) (mv (sA s) v)) (mv (sA s) v).
Definition ceiling (s : sys) : mat2 :=
  Pjoseph s (dead2 s) (Ppred s (Pjoseph s (dead1 s) (sQ s))).

Lemma pstep_joseph s L P : covariances_ok s P -> loewner_le (pstep s P) (Pjoseph s L (Ppred s P)).
Proof.
  intros C. pose proof (covariances_ok_pred _ _ C) as (a & b & _ & _ & c). unfold pstep.
  apply loewner_joseph; auto using kgain_normal, Sinn_nonneg.
Qed.

Lemma dead_zero s x : observable s ->
  mv (mtr (msub mI (vouter (dead1 s) (sH s)))) (mv (mtr (sA s)) (mv (mtr (msub mI (vouter (dead2 s) (sH s)))) x)) = V2 0 0.
Proof.
  unfold observable, mdet, dead1, dead2. destruct s as [[a b c d] B [h0 h1] Q r dt], x as [x0 x1].
  cbn [sA sH v0 v1 m00 m01 m10 m11 mv mtr vdot vscale].
  intros O. unf.
  assert (N : h0 * h0 + h1 * h1 <> 0).
  { intros N. assert (h0 = 0) by nra. assert (h1 = 0) by nra. subst. apply O. ring. }
  assert (N' : h0 * (a * - h1 + b * h0) + h1 * (c * - h1 + d * h0) <> 0).
  { intros N'. apply O. lra. }
  apply vec2_eq; cbn [v0 v1]; field; split; assumption.
Qed.

Lemma ceiling_bound s P : observable s -> covariances_ok s P ->
  loewner_le (pstep s (pstep s P)) (ceiling s).
Proof.
  intros O C x. apply Rle_trans with (1 := pstep_joseph s (dead2 s) (pstep s P) (pstep_ok _ _ C) x).
  unfold ceiling. rewrite !quad_joseph, !quad_Ppred. set (y := mv (mtr (sA s)) _).
  pose proof (pstep_joseph s (dead1 s) P C y) as X. rewrite quad_joseph, quad_Ppred in X. rewrite quad_joseph.
  replace (quad P (mv (mtr (sA s)) (mv (mtr (msub mI (vouter (dead1 s) (sH s)))) y))) with 0 in X; [lra|].
  unfold y. rewrite dead_zero by assumption. destruct P, (sA s). unf. ring.
Qed.

Lemma ceiling_ok s P : covariances_ok s P -> covariances_ok s (ceiling s).
Proof.
  intros (_ & _ & a & b & c). unfold ceiling. repeat split; auto.
  - apply sym_joseph, sym_Ppred; [|assumption]. now apply sym_joseph.
  - apply psd_joseph; [|assumption]. apply psd_Ppred; [|assumption]. now apply psd_joseph.
Qed.

(** ** Lower bound *)

Lemma quad_corr s Pm K x : sym Pm -> vscale (Sinn s Pm) K = mv Pm (sH s) ->
  quad (Pcorr s K Pm) x = quad Pm x - Sinn s Pm * (vdot K x * vdot K x).
Proof.
  intros Hs HK. unfold Pcorr. 
  assert (E : vdot (mv Pm (sH s)) x = Sinn s Pm * vdot K x) by (rewrite <- HK; mats; unf; ring).
  replace (Sinn s Pm * (vdot K x * vdot K x)) with (vdot K x * vdot (mv Pm (sH s)) x) by (rewrite E; ring).
  destruct s as [? ? [] ? ? ?]. unfold sym in Hs. cbn [sH]. mats. unf. subst. ring.
Qed.

Lemma corr_lower s Pm : sym Pm -> psd Pm -> 0 < sR s ->
  forall x, sR s * quad Pm x <= Sinn s Pm * quad (Pcorr s (kgain s Pm) Pm) x.
Proof.
  intros Hs Hp HR x. pose proof (kgain_normal s Pm Hs Hp (Rlt_le _ _ HR)) as HK.
  rewrite quad_corr by assumption. set (K := kgain s Pm) in *. pose proof (Hp (sH s)) as Hh.
  assert (E : vdot x (mv Pm (sH s)) = Sinn s Pm * vdot K x) by (rewrite <- HK; mats; unf; ring).
  pose proof (cauchy_schwarz Pm x (sH s) Hs Hp) as CS. rewrite E in CS.
  replace (Sinn s Pm * (quad Pm x - Sinn s Pm * (vdot K x * vdot K x)))
    with (Sinn s Pm * quad Pm x - Sinn s Pm * vdot K x * (Sinn s Pm * vdot K x)) by ring.
  unfold Sinn at 1. lra.
Qed.

Definition zero2 : mat2 := M2 0 0 0 0.
Lemma zero_ok s P : covariances_ok s P -> covariances_ok s zero2.
Proof. intros (_ & _ & a & b & c). repeat split; auto. intros x. mats. unfold zero2. unf. lra. Qed.
Lemma zero_le s P : covariances_ok s P -> loewner_le zero2 P.
Proof.
  intros (_ & b & _) x. specialize (b x). replace (quad zero2 x) with 0; [assumption|]. unfold zero2. mats. unf. ring.
Qed.
Lemma Ppred_zero s : Ppred s zero2 = sQ s.
Proof. destruct s as [[] ? ? [] ? ?]. unfold Ppred, zero2. unf. apply mat2_eq; simpl; ring. Qed.

(** After an update the process noise is not more than [kappa] times the covariance. *)
Definition kappa (s : sys) : R := Sinn s (sQ s) / sR s.
Lemma kappa_ge s P : covariances_ok s P -> 0 < sR s -> 1 <= kappa s.
Proof.
  intros (_ & _ & _ & q & _) HR. unfold kappa, Sinn. specialize (q (sH s)).
  apply (Rmult_le_reg_r (sR s)); [assumption|]. unfold Rdiv. rewrite Rmult_assoc, Rinv_l by lra. lra.
Qed.
Lemma Q_le_pstep s P : covariances_ok s P -> 0 < sR s -> forall x, quad (sQ s) x <= kappa s * quad (pstep s P) x.
Proof.
  intros C HR x. pose proof C as (_ & _ & qs & qp & _).
  assert (M : loewner_le (pstep s zero2) (pstep s P)).
  { apply pstep_mono; auto; try (intros y; apply Rle_refl); try apply Rle_refl.
    - now apply (zero_le s).
    - now apply (zero_ok s P). }
  specialize (M x). pose proof (corr_lower s (sQ s) qs qp HR x) as L.
  unfold pstep in M at 1. rewrite Ppred_zero in M.
  pose proof (kappa_ge s P C HR) as K1. unfold kappa in *.
  pose proof (qp (sH s)) as qh. assert (S0 : 0 < Sinn s (sQ s)) by (unfold Sinn; lra).
  apply (Rmult_le_reg_l (sR s)); [assumption|]. apply Rle_trans with (1 := L).
  replace (sR s * (Sinn s (sQ s) / sR s * quad (pstep s P) x)) with (Sinn s (sQ s) * quad (pstep s P) x) by (field; lra).
  apply Rmult_le_compat_l; lra.
Qed.

Lemma D_le_Ppred s P : covariances_ok s P -> 0 < sR s ->
  forall x, quad (reach2 s) x <= kappa s * quad (Ppred s (pstep s P)) x.
Proof.
  intros C HR x. unfold reach2. rewrite quad_madd, quad_cong, quad_Ppred.
  pose proof (Q_le_pstep s P C HR (mv (mtr (sA s)) x)). pose proof (kappa_ge s P C HR).
  pose proof C as (_ & _ & _ & qp & _). specialize (qp x). nra.
Qed.

Lemma pd_Ppred2 s P : covariances_ok s P -> 0 < sR s -> controllable s -> pd (Ppred s (pstep s P)).
Proof.
  intros C HR D. pose proof (covariances_ok_pred _ _ (pstep_ok _ _ C)) as (a & _).
  pose proof (kappa_ge s P C HR) as K.
  apply (pd_mono (mscale (/ kappa s) (reach2 s))); [assumption| |].
  - apply pd_scale; [apply Rinv_0_lt_compat; lra|assumption].
  - intros x. rewrite quad_mscale. pose proof (D_le_Ppred s P C HR x).
    apply (Rmult_le_reg_l (kappa s)); [lra|]. rewrite <- Rmult_assoc, Rinv_r by lra. lra.
Qed.

Lemma pd_corr s Pm : pd Pm -> 0 < sR s -> pd (Pcorr s (kgain s Pm) Pm).
Proof.
  intros D HR. pose proof (pd_psd _ D) as Hp. pose proof D as [Hs _].
  pose proof (kgain_normal s Pm Hs Hp (Rlt_le _ _ HR)) as HK. pose proof (Hp (sH s)) as Hh.
  assert (S0 : 0 < Sinn s Pm) by (unfold Sinn; lra).
  apply (pd_mono (mscale (sR s / Sinn s Pm) Pm)).
  - rewrite Pcorr_joseph by assumption. now apply sym_joseph.
  - apply pd_scale; [apply Rdiv_lt_0_compat; assumption|assumption].
  - intros x. rewrite quad_mscale. pose proof (corr_lower s Pm Hs Hp HR x).
    apply (Rmult_le_reg_l (Sinn s Pm)); [assumption|].
    replace (Sinn s Pm * (sR s / Sinn s Pm * quad Pm x)) with (sR s * quad Pm x) by (field; lra). assumption.
Qed.

Lemma pd_pstep2 s P : covariances_ok s P -> 0 < sR s -> controllable s -> pd (pstep s (pstep s P)).
Proof. intros C HR D. apply pd_corr; [now apply pd_Ppred2|assumption]. Qed.

(** ** Contraction *)

(** The error's evolution: what an update does to a difference of estimates. *)
Definition fmat (s : sys) (P : mat2) : mat2 :=
  mmul (msub mI (vouter (kgain s (Ppred s P)) (sH s))) (sA s).

Lemma mv_minv P x : mdet P <> 0 -> mv P (mv (minv P) x) = x.
Proof.
  intros D. unfold minv, mdet in *. destruct P as [a b c d], x. unf.
  apply vec2_eq; simpl; field; assumption.
Qed.
Lemma minv_mv P x : mdet P <> 0 -> mv (minv P) (mv P x) = x.
Proof.
  intros D. unfold minv, mdet in *. destruct P as [a b c d], x. unf.
  apply vec2_eq; simpl; field; assumption.
Qed.
Lemma quad_minv P w : sym P -> mdet P <> 0 -> quad (minv P) (mv P w) = quad P w.
Proof.
  intros Hs D. unfold quad at 1. rewrite minv_mv by assumption. unfold sym in Hs. mats. unf. subst. ring.
Qed.

(** The loss in one step. *)
Lemma one_step s P w : covariances_ok s P -> 0 < sR s -> pd (Ppred s P) ->
  exists w1, mv (fmat s P) (mv P w) = mv (pstep s P) w1 /\
    mv (Ppred s P) w1 = mv (sA s) (mv P w) /\
    quad (pstep s P) w1 <= quad (Ppred s P) w1 /\
    quad (pstep s P) w1 + quad P (vsub w (mv (mtr (sA s)) w1)) + quad (sQ s) w1 <= quad P w.
Proof.
  intros C HR Dm. pose proof (pd_det _ Dm) as [_ Det]. pose proof (pd_psd _ Dm) as Hp. pose proof Dm as [Hs _].
  pose proof (kgain_normal s _ Hs Hp (Rlt_le _ _ HR)) as HK.
  exists (mv (minv (Ppred s P)) (mv (sA s) (mv P w))). set (w1 := mv (minv _) _).
  assert (E : mv (Ppred s P) w1 = mv (sA s) (mv P w)) by (apply mv_minv; lra).
  clearbody w1. pose proof (Hp (sH s)) as Hh. assert (S0 : 0 < Sinn s (Ppred s P)) by (unfold Sinn; lra).
  assert (Q1 : quad (pstep s P) w1 = quad (Ppred s P) w1 - Sinn s (Ppred s P) * (vdot (kgain s (Ppred s P)) w1 * vdot (kgain s (Ppred s P)) w1))
    by (apply quad_corr; assumption).
  assert (Sq : 0 <= Sinn s (Ppred s P) * (vdot (kgain s (Ppred s P)) w1 * vdot (kgain s (Ppred s P)) w1))
    by (apply Rmult_le_pos; [lra|apply Rle_0_sqr]).
  split; [|split; [assumption|split; [lra|]]].
  - unfold fmat, pstep, Pcorr. set (M := msub mI _).
    replace (mv (mmul M (sA s)) (mv P w)) with (mv M (mv (sA s) (mv P w))) by (generalize (sA s); intros; mats; unf; f_equal; ring).
    rewrite <- E. generalize (Ppred s P). intros; mats; unf; f_equal; ring.
  - assert (X : quad P (vsub w (mv (mtr (sA s)) w1)) = quad P w - 2 * vdot w1 (mv (sA s) (mv P w)) + quad P (mv (mtr (sA s)) w1)).
    { destruct C as (Ps & _). unfold sym in Ps. generalize (sA s); intros; mats; unf; subst; ring. }
    pose proof (quad_Ppred s P w1) as Y. rewrite <- E in X. fold (quad (Ppred s P) w1) in X. lra.
Qed.

(** In two steps a fixed fraction is lost. *)
Lemma two_steps s P w mu : covariances_ok s P -> 0 < sR s -> pd (Ppred s P) -> pd (Ppred s (pstep s P)) -> 1 <= mu ->
  loewner_le (Ppred s (pstep s P)) (mscale mu (reach2 s)) ->
  exists w1 w2, mv (fmat s P) (mv P w) = mv (pstep s P) w1 /\
    mv (fmat s (pstep s P)) (mv (pstep s P) w1) = mv (pstep s (pstep s P)) w2 /\
    quad (pstep s P) w1 <= quad P w /\
    (1 + 2 * kappa s * mu) * quad (pstep s (pstep s P)) w2 <= 2 * kappa s * mu * quad P w.
Proof.
  intros C HR D1 D2 Hmu Lmu.
  destruct (one_step s P w C HR D1) as (w1 & A1 & B1 & C1 & E1).
  destruct (one_step s (pstep s P) w1 (pstep_ok _ _ C) HR D2) as (w2 & A2 & B2 & C2 & E2).
  exists w1, w2. split; [assumption|]. split; [assumption|].
  pose proof C as (Ps & Pp & Qs & Qp & _). set (g := vsub w1 (mv (mtr (sA s)) w2)) in *.
  pose proof (Pp (vsub w (mv (mtr (sA s)) w1))) as N1. pose proof (Qp w1) as N2. pose proof (Qp w2) as N3.
  split; [lra|].
  pose proof (Lmu w2) as L. rewrite quad_mscale in L. unfold reach2 in L. rewrite quad_madd, quad_cong in L.
  assert (T : quad (sQ s) (mv (mtr (sA s)) w2) <= 2 * quad (sQ s) w1 + 2 * quad (sQ s) g).
  { pose proof (Qp (vadd w1 g)) as X. unfold g in *. unfold sym in Qs.
    replace (2 * quad (sQ s) w1 + 2 * quad (sQ s) (vsub w1 (mv (mtr (sA s)) w2)))
      with (quad (sQ s) (vadd w1 (vsub w1 (mv (mtr (sA s)) w2))) + quad (sQ s) (mv (mtr (sA s)) w2));
      [lra|]. generalize dependent (sQ s). generalize (sA s). intros; mats; unf; subst; ring. }
  pose proof (Q_le_pstep s P C HR g) as G. pose proof (kappa_ge s P C HR) as K.
  pose proof (pstep_ok _ _ C) as (_ & Pp1 & _). pose proof (Pp1 g) as N4.
  set (k := kappa s) in *. set (V0 := quad P w) in *. set (V1 := quad (pstep s P) w1) in *.
  set (V2' := quad (pstep s (pstep s P)) w2) in *. set (q1 := quad (sQ s) w1) in *. set (q2 := quad (sQ s) w2) in *.
  set (gg := quad (pstep s P) g) in *.
  assert (Z : quad (sQ s) w2 + quad (sQ s) (mv (mtr (sA s)) w2) <= 2 * k * (V0 - V2')).
  { fold q2. assert (q2 + quad (sQ s) (mv (mtr (sA s)) w2) <= q2 + 2 * q1 + 2 * (k * gg)) by lra.
    assert (q2 + 2 * q1 + 2 * (k * gg) <= 2 * k * (q1 + q2 + gg)) by nra.
    assert (2 * k * (q1 + q2 + gg) <= 2 * k * (V0 - V2')) by (apply Rmult_le_compat_l; lra). lra. }
  assert (Y : V2' <= mu * (2 * k * (V0 - V2'))).
  { apply Rle_trans with (1 := C2). apply Rle_trans with (1 := L).
    apply Rmult_le_compat_l; [lra|]. fold q2 in Z |- *. lra. }
  lra.
Qed.

(** The evolution of a difference over [n] updates. *)
Fixpoint phi (s : sys) (P : mat2) (n : nat) : mat2 :=
  match n with O => mI | S n' => mmul (phi s (pstep s P) n') (fmat s P) end.

Lemma mv_mmul a b x : mv (mmul a b) x = mv a (mv b x).
Proof. mats. unf. f_equal; ring. Qed.
Lemma mv_mI x : mv mI x = x.
Proof. mats. unf. f_equal; ring. Qed.
Lemma mmul_assoc a b c : mmul (mmul a b) c = mmul a (mmul b c).
Proof. mats. unf. f_equal; ring. Qed.

Lemma phi_add s n : forall P m, phi s P (n + m) = mmul (phi s (pseq s P n) m) (phi s P n).
Proof.
  induction n as [|n IH]; intros P m; simpl.
  - generalize (phi s P m). intros; mats; unf; f_equal; ring.
  - rewrite IH, mmul_assoc. f_equal. f_equal. rewrite pseq_shift. reflexivity.
Qed.

Lemma krun_diff s h : forall e e', eP e = eP e' ->
  vsub (ex (krun s e h)) (ex (krun s e' h)) = mv (phi s (eP e) (length h)) (vsub (ex e) (ex e')).
Proof.
  induction h as [|[u z] h IH]; intros e e' E; cbn [krun length phi]; [now rewrite mv_mI|].
  rewrite IH; [|unfold kstep; cbn [eP]; now rewrite E]. rewrite mv_mmul. f_equal.
  unfold kstep, fmat, xcorr, xpred. cbn [ex]. rewrite <- E. generalize (kgain s (Ppred s (eP e))).
  intros K. generalize (ex e) (ex e'). destruct s as [[] [] [] ? ? ?]. cbn [sA sB sH]. intros; mats; unf; f_equal; ring.
Qed.

(** Covariances that have been updated twice. *)
Definition good (s : sys) (P : mat2) : Prop := exists P', covariances_ok s P' /\ P = pstep s (pstep s P').

Lemma good_ok s P : good s P -> covariances_ok s P.
Proof. intros (P' & C & ->). now apply pstep_ok, pstep_ok. Qed.
Lemma good_pstep s P : good s P -> good s (pstep s P).
Proof. intros (P' & C & ->). exists (pstep s P'). split; [now apply pstep_ok|reflexivity]. Qed.
Lemma good_pseq s P n : good s P -> good s (pseq s P n).
Proof. intros G. induction n; simpl; auto using good_pstep. Qed.
Lemma good_pd s P : 0 < sR s -> controllable s -> good s P -> pd P.
Proof. intros HR D (P' & C & ->). now apply pd_pstep2. Qed.
Lemma good_pred s P : 0 < sR s -> controllable s -> good s P -> pd (Ppred s P).
Proof. intros HR D (P' & C & ->). apply pd_Ppred2; auto. now apply pstep_ok. Qed.
Lemma good_ceiling s P : observable s -> good s P -> loewner_le P (ceiling s).
Proof. intros O (P' & C & ->). now apply ceiling_bound. Qed.

Section Contraction.

Context (s : sys) (HR : 0 < sR s) (HQ : sym (sQ s)) (HQp : psd (sQ s)) (Ho : observable s) (Hc : controllable s).

Lemma any_ok : covariances_ok s zero2.
Proof. repeat split; auto; [|lra]. intros x. unfold zero2. mats. unf. lra. Qed.

Lemma contraction : exists rho, 0 < rho < 1 /\
  forall k P w, good s P -> exists w', mv (phi s P k) (mv P w) = mv (pseq s P k) w' /\
    rho * quad (pseq s P k) w' <= rho ^ k * quad P w.
Proof.
  destruct (pd_dominates (Ppred s (ceiling s)) (reach2 s) Hc) as (mu & Hmu & Lmu).
  set (c := 2 * kappa s * mu). pose proof (kappa_ge s zero2 any_ok HR) as K.
  assert (C0 : 0 < c) by (unfold c; nra).
  set (q := c / (1 + c)). assert (Q0 : 0 < q < 1).
  { unfold q. split; [apply Rdiv_lt_0_compat; lra|]. apply (Rmult_lt_reg_r (1 + c)); [lra|].
    unfold Rdiv. rewrite Rmult_assoc, Rinv_l by lra. lra. }
  exists (sqrt q). set (r := sqrt q). assert (Rr : r * r = q) by (apply sqrt_sqrt; lra).
  assert (R0 : 0 < r) by (apply sqrt_lt_R0; lra). assert (R1 : r < 1) by nra.
  split; [lra|]. 
  assert (G : forall n k, (k < n)%nat -> forall P w, good s P -> exists w', mv (phi s P k) (mv P w) = mv (pseq s P k) w' /\
    r * quad (pseq s P k) w' <= r ^ k * quad P w).
  { induction n as [|n IH]; intros k Hk P w G; [lia|].
    pose proof (good_ok s P G) as Ok1. pose proof Ok1 as (_ & Pp & _). pose proof (Pp w) as V0.
    assert (Lm : loewner_le (Ppred s (pstep s P)) (mscale mu (reach2 s))).
    { intros x. apply Rle_trans with (2 := Lmu x). rewrite !quad_Ppred.
      pose proof (good_ceiling s _ Ho (good_pstep s P G) (mv (mtr (sA s)) x)). lra. }
    destruct (two_steps s P w mu Ok1 HR (good_pred s P HR Hc G) (good_pred s _ HR Hc (good_pstep s P G)) Hmu Lm)
      as (w1 & w2 & E1 & E2 & L1 & L2).
    destruct k as [|[|k]].
    - exists w. simpl. rewrite mv_mI. split; [reflexivity|]. nra.
    - exists w1. simpl. rewrite mv_mmul, mv_mI. split; [assumption|]. rewrite Rmult_1_r. apply Rmult_le_compat_l; lra.
    - destruct (IH k ltac:(lia) (pstep s (pstep s P)) w2 (good_pstep s _ (good_pstep s P G))) as (w' & E & L).
      exists w'. rewrite <- !pseq_shift. simpl phi. rewrite !mv_mmul, E1, E2. split; [assumption|].
      apply Rle_trans with (1 := L). replace (r ^ S (S k) * quad P w) with (r ^ k * (q * quad P w)) by (rewrite <- Rr; simpl; ring).
      apply Rmult_le_compat_l; [apply pow_le; lra|]. fold c in L2.
      apply (Rmult_le_reg_l (1 + c)); [lra|]. apply Rle_trans with (1 := L2). unfold q.
      right. field. lra. }
  intros k P w. apply (G (S k)); lia.
Qed.

Lemma mv_le M : exists c, 0 < c /\ forall x, vdot (mv M x) (mv M x) <= c * vdot x x.
Proof.
  destruct (quad_le (mmul (mtr M) M)) as (c & Hc' & L). exists c. split; [assumption|]. intros x.
  specialize (L x). replace (vdot (mv M x) (mv M x)) with (quad (mmul (mtr M) M) x); [assumption|]. mats. unf. ring.
Qed.

Lemma norm_by_quad P om w : sym P -> psd P -> (forall x, quad P x <= om * vdot x x) ->
  vdot (mv P w) (mv P w) <= om * quad P w.
Proof.
  intros Ps Pp L. set (y := mv P w). pose proof (cauchy_schwarz P y w Ps Pp) as CS. fold y in CS.
  pose proof (L y) as Ly. pose proof (Pp w) as W. pose proof (Pp y) as Y. pose proof (vdot_nonneg y) as N.
  set (n := vdot y y) in *. destruct (Req_EM_T n 0) as [E|E].
  - rewrite E. assert (0 <= om) by (specialize (L (V2 1 0)); specialize (Pp (V2 1 0)); replace (vdot (V2 1 0) (V2 1 0)) with 1 in L by (unf; ring); lra).
    apply Rmult_le_pos; lra.
  - apply (Rmult_le_reg_l n); [lra|]. apply Rle_trans with (1 := CS).
    replace (n * (om * quad P w)) with (om * n * quad P w) by ring. apply Rmult_le_compat_r; lra.
Qed.

Lemma forgetting : exists rho, 0 < rho < 1 /\ forall P, covariances_ok s P -> exists C, 0 < C /\
  forall n x, vdot (mv (phi s P n) x) (mv (phi s P n) x) <= C * rho ^ n * vdot x x.
Proof.
  destruct contraction as (r & Hr & Ct). exists r. split; [assumption|]. intros P Ok1.
  set (P2 := pseq s P 2). assert (G : good s P2) by (exists P; split; [assumption|reflexivity]).
  destruct (quad_le (ceiling s)) as (om & Hom & Lom).
  destruct (pd_det P2 (good_pd s P2 HR Hc G)) as [_ Det].
  destruct (quad_le (minv P2)) as (a & Ha & La). destruct (mv_le (phi s P 2)) as (b & Hb & Lb).
  destruct (mv_le (phi s P 1)) as (b1 & Hb1 & Lb1).
  assert (T : forall k x, vdot (mv (phi s P (2 + k)) x) (mv (phi s P (2 + k)) x) <= om * a * b / r * r ^ k * vdot x x).
  { intros k x. rewrite phi_add, mv_mmul. fold P2. set (d := mv (phi s P 2) x).
    destruct (Ct k P2 (mv (minv P2) d) G) as (w' & E & L). rewrite mv_minv in E by lra. rewrite E.
    pose proof (good_ok s _ (good_pseq s P2 k G)) as (Ps & Pp & _).
    apply Rle_trans with (om * quad (pseq s P2 k) w').
    - apply norm_by_quad; auto. intros y. apply Rle_trans with (2 := Lom y). apply good_ceiling; [assumption|]. now apply good_pseq.
    - assert (V : quad P2 (mv (minv P2) d) = quad (minv P2) d).
      { destruct (good_ok s P2 G) as (Ps2 & _). rewrite <- (mv_minv P2 d) at 2 by lra. symmetry. apply quad_minv; [assumption|lra]. }
      rewrite V in L. specialize (La d). specialize (Lb x). fold d in Lb.
      assert (U : quad (pseq s P2 k) w' <= / r * (r ^ k * (a * (b * vdot x x)))).
      { apply (Rmult_le_reg_l r); [lra|]. rewrite <- Rmult_assoc, Rinv_r, Rmult_1_l by lra. apply Rle_trans with (1 := L).
        apply Rmult_le_compat_l; [apply pow_le; lra|]. apply Rle_trans with (1 := La). apply Rmult_le_compat_l; lra. }
      replace (om * a * b / r * r ^ k * vdot x x) with (om * (/ r * (r ^ k * (a * (b * vdot x x))))) by (field; lra).
      apply Rmult_le_compat_l; lra. }
  exists (1 + b1 / r + om * a * b / r / (r * r)).
  assert (B1 : 0 < b1 / r) by (apply Rdiv_lt_0_compat; lra).
  assert (B2 : 0 < om * a * b / r / (r * r)) by (repeat apply Rdiv_lt_0_compat; repeat apply Rmult_lt_0_compat; lra).
  split; [lra|]. intros n x. pose proof (vdot_nonneg x) as N. destruct n as [|[|k]].
  - simpl phi. rewrite mv_mI. simpl. rewrite Rmult_1_r. nra.
  - apply Rle_trans with (1 := Lb1 x). apply Rmult_le_compat_r; [assumption|]. simpl. rewrite Rmult_1_r.
    replace b1 with (b1 / r * r) at 1 by (field; lra). apply Rmult_le_compat_r; lra.
  - apply Rle_trans with (1 := T k x). apply Rmult_le_compat_r; [assumption|].
    replace (om * a * b / r * r ^ k) with (om * a * b / r / (r * r) * r ^ S (S k)) by (simpl; field; lra).
    apply Rmult_le_compat_r; [apply pow_le; lra|lra].
Qed.

(** ** Differences of covariances *)

Lemma gain_post P : covariances_ok s P ->
  vscale (sR s) (kgain s (Ppred s P)) = mv (pstep s P) (sH s).
Proof.
  intros C. pose proof (covariances_ok_pred _ _ C) as (Ps & Pp & _).
  pose proof (kgain_normal s _ Ps Pp (Rlt_le _ _ HR)) as HK. unfold pstep, Pcorr.
  set (K := kgain s (Ppred s P)) in *. set (Pm := Ppred s P) in *.
  unfold Sinn in HK. replace (mv (mmul (msub mI (vouter K (sH s))) Pm) (sH s))
    with (vsub (mv Pm (sH s)) (vscale (quad Pm (sH s)) K)).
  - rewrite <- HK. generalize (quad Pm (sH s)) (sR s). intros; mats; unf; f_equal; ring.
  - generalize (sH s). intros; mats; unf; f_equal; ring.
Qed.

Lemma pstep_sym P : covariances_ok s P -> sym (pstep s P).
Proof. intros C. now apply pstep_ok in C as (a & _). Qed.

Lemma mtr_sym P : sym P -> mtr P = P.
Proof. unfold sym. intros H. mats. unf. now subst. Qed.

Lemma pstep_diff Pa Pb : covariances_ok s Pa -> covariances_ok s Pb ->
  msub (pstep s Pa) (pstep s Pb) = mmul (mmul (fmat s Pa) (msub Pa Pb)) (mtr (fmat s Pb)).
Proof.
  intros Ca Cb. pose proof (gain_post Pa Ca) as Ga. pose proof (gain_post Pb Cb) as Gb.
  pose proof (pstep_sym Pb Cb) as Sb. pose proof (mtr_sym _ Sb) as Tb.
  pose proof (covariances_ok_pred _ _ Cb) as (Pbs & _). pose proof (mtr_sym _ Pbs) as Tm.
  unfold fmat. set (Ka := kgain s (Ppred s Pa)) in *. set (Kb := kgain s (Ppred s Pb)) in *.
  set (Ma := msub mI (vouter Ka (sH s))). set (Mb := msub mI (vouter Kb (sH s))).
  transitivity (msub (mmul (pstep s Pa) (mtr Mb)) (mmul Ma (pstep s Pb))).
  - unfold sym in Sb. revert Ga Gb Sb. unfold Ma, Mb. clearbody Ka Kb.
    generalize (pstep s Pa) (pstep s Pb). clear - HR. destruct s as [A B H Q r dt]. cbn [sH sR] in *.
    intros [a00 a01 a10 a11] [b00 b01 b10 b11]. destruct Ka as [ka0 ka1], Kb as [kb0 kb1], H as [h0 h1].
    unf. intros Ga Gb ->. injection Ga as Ga0 Ga1. injection Gb as Gb0 Gb1.
    assert (X0 : ka0 = (a00 * h0 + a01 * h1) / r) by (rewrite <- Ga0; field; lra).
    assert (X1 : ka1 = (a10 * h0 + a11 * h1) / r) by (rewrite <- Ga1; field; lra).
    assert (Y0 : kb0 = (b00 * h0 + b10 * h1) / r) by (rewrite <- Gb0; field; lra).
    assert (Y1 : kb1 = (b10 * h0 + b11 * h1) / r) by (rewrite <- Gb1; field; lra).
    subst. apply mat2_eq; simpl; field; lra.
  - rewrite <- Tb. change (pstep s Pa) with (mmul Ma (Ppred s Pa)). change (pstep s Pb) with (mmul Mb (Ppred s Pb)).
    replace (mtr (mmul Mb (Ppred s Pb))) with (mmul (mtr (Ppred s Pb)) (mtr Mb)) by (generalize (Ppred s Pb); intros; mats; unf; f_equal; ring).
    rewrite Tm. unfold Ppred. clearbody Ma Mb. clear. destruct s as [A B H Q r dt]. cbn [sA sQ]. clear s B H r dt.
    replace (mmul (mmul (mmul Ma A) (msub Pa Pb)) (mtr (mmul Mb A)))
      with (mmul (mmul Ma (mmul (mmul A (msub Pa Pb)) (mtr A))) (mtr Mb)).
    + replace (mmul (mmul A (msub Pa Pb)) (mtr A)) with (msub (mmul (mmul A Pa) (mtr A)) (mmul (mmul A Pb) (mtr A)))
        by (mats; unf; f_equal; ring).
      generalize (mmul (mmul A Pa) (mtr A)) (mmul (mmul A Pb) (mtr A)). intros X Y. mats. unf. f_equal; ring.
    + generalize (msub Pa Pb). intros D. replace (mtr (mmul Mb A)) with (mmul (mtr A) (mtr Mb)) by (mats; unf; f_equal; ring).
      now rewrite !mmul_assoc.
Qed.

Lemma mtr_mmul a b : mtr (mmul a b) = mmul (mtr b) (mtr a).
Proof. mats. unf. f_equal; ring. Qed.

Lemma pseq_diff n : forall Pa Pb, covariances_ok s Pa -> covariances_ok s Pb ->
  msub (pseq s Pa n) (pseq s Pb n) = mmul (mmul (phi s Pa n) (msub Pa Pb)) (mtr (phi s Pb n)).
Proof.
  induction n as [|n IH]; intros Pa Pb Ca Cb.
  - simpl. mats. unf. f_equal; ring.
  - rewrite <- !pseq_shift, IH by now apply pstep_ok. simpl phi. rewrite pstep_diff by assumption.
    rewrite mtr_mmul. now rewrite !mmul_assoc.
Qed.

Lemma size2_mmul a b : size2 (mmul a b) <= size2 a * size2 b.
Proof.
  assert (X : forall p q r t, (p * q + r * t) * (p * q + r * t) <= (p * p + r * r) * (q * q + t * t)).
  { intros p q r t. assert (0 <= (p * t - r * q) * (p * t - r * q)) by apply Rle_0_sqr. lra. }
  destruct a as [a b' c d], b as [e f g h]. unfold size2, mmul. cbn [m00 m01 m10 m11].
  pose proof (X a e b' g). pose proof (X a f b' h). pose proof (X c e d g). pose proof (X c f d h). lra.
Qed.
Lemma size2_mtr a : size2 (mtr a) = size2 a.
Proof. mats. unfold size2. unf. ring. Qed.
Lemma size2_nonneg a : 0 <= size2 a.
Proof. unfold size2. nra. Qed.

Lemma phi_size : exists rho, 0 < rho < 1 /\ forall P, covariances_ok s P -> exists C, 0 < C /\
  forall n, size2 (phi s P n) <= C * rho ^ n.
Proof.
  destruct forgetting as (r & Hr & F). exists r. split; [assumption|]. intros P C.
  destruct (F P C) as (c & Hc' & L). exists (2 * c). split; [lra|]. intros n.
  pose proof (L n (V2 1 0)) as L1. pose proof (L n (V2 0 1)) as L2.
  unfold size2. destruct (phi s P n). unf. lra.
Qed.

Lemma cov_close : exists rho, 0 < rho < 1 /\ forall Pa Pb, covariances_ok s Pa -> covariances_ok s Pb ->
  exists C, 0 < C /\ forall n, size2 (msub (pseq s Pa n) (pseq s Pb n)) <= C * (rho ^ n * rho ^ n).
Proof.
  destruct phi_size as (r & Hr & F). exists r. split; [assumption|]. intros Pa Pb Ca Cb.
  destruct (F Pa Ca) as (c & Hc' & L), (F Pb Cb) as (c' & Hc'' & L').
  pose proof (size2_nonneg (msub Pa Pb)) as N0.
  exists (c * (size2 (msub Pa Pb) + 1) * c'). split; [repeat apply Rmult_lt_0_compat; lra|]. intros n.
  rewrite pseq_diff by assumption. apply Rle_trans with (1 := size2_mmul _ _). rewrite size2_mtr.
  pose proof (size2_mmul (phi s Pa n) (msub Pa Pb)) as X. specialize (L n). specialize (L' n).
  pose proof (size2_nonneg (phi s Pa n)). pose proof (size2_nonneg (phi s Pb n)).
  assert (0 < r ^ n) by (apply pow_lt; lra).
  apply Rle_trans with ((c * r ^ n * (size2 (msub Pa Pb) + 1)) * (c' * r ^ n)).
  - apply Rmult_le_compat; [apply size2_nonneg|assumption| |assumption].
    apply Rle_trans with (1 := X). apply Rmult_le_compat; lra.
  - right. ring.
Qed.

End Contraction.

(** ** Limits *)

Lemma geometric_limit (u : nat -> R) C r : 0 < r < 1 -> 0 <= C ->
  (forall n, Rabs (u (S n) - u n) <= C * r ^ n) ->
  exists l, forall n, Rabs (u n - l) <= C / (1 - r) * r ^ n.
Proof.
  intros Hr HC H.
  assert (T : forall n k, Rabs (u (n + k)%nat - u n) <= C / (1 - r) * r ^ n).
  { intros n k. apply Rle_trans with (C / (1 - r) * r ^ n * (1 - r ^ k)).
    - induction k as [|k IH].
      + rewrite Nat.add_0_r, Rminus_diag_eq, Rabs_R0 by reflexivity. simpl. lra.
      + rewrite Nat.add_succ_r. replace (u (S (n + k)) - u n) with ((u (S (n + k)) - u (n + k)%nat) + (u (n + k)%nat - u n)) by ring.
        apply Rle_trans with (1 := Rabs_triang _ _). specialize (H (n + k)%nat). rewrite pow_add in H. simpl pow.
        replace (C / (1 - r) * r ^ n * (1 - r * r ^ k)) with (C * (r ^ n * r ^ k) + C / (1 - r) * r ^ n * (1 - r ^ k)) by (field; lra).
        lra.
    - rewrite <- (Rmult_1_r (C / (1 - r) * r ^ n)) at 2. apply Rmult_le_compat_l.
      + apply Rmult_le_pos; [|apply pow_le; lra]. apply Rmult_le_pos; [assumption|]. left. apply Rinv_0_lt_compat. lra.
      + assert (0 < r ^ k) by (apply pow_lt; lra). lra. }
  set (D := C / (1 - r)) in *.
  assert (D0 : 0 <= D) by (apply Rmult_le_pos; [assumption|]; left; apply Rinv_0_lt_compat; lra).
  assert (Cy : Cauchy_crit u).
  { intros eps He. destruct (pow_lt_1_zero r) with (y := eps / (2 * D + 1)) as (N & HN).
    - rewrite Rabs_pos_eq; lra.
    - apply Rdiv_lt_0_compat; lra.
    - exists N. intros n m Hn Hm. specialize (HN N (le_n _)). rewrite Rabs_pos_eq in HN by (apply pow_le; lra).
      pose proof (T N (n - N)%nat) as A. pose proof (T N (m - N)%nat) as B.
      replace (N + (n - N))%nat with n in A by lia. replace (N + (m - N))%nat with m in B by lia.
      unfold R_dist. replace (u n - u m) with ((u n - u N) - (u m - u N)) by ring.
      apply Rle_lt_trans with (Rabs (u n - u N) + Rabs (u m - u N)).
      + unfold Rminus at 1. apply Rle_trans with (1 := Rabs_triang _ _). rewrite Rabs_Ropp. lra.
      + apply Rle_lt_trans with (2 * D * r ^ N); [lra|].
        apply Rle_lt_trans with ((2 * D) * (eps / (2 * D + 1))); [apply Rmult_le_compat_l; lra|].
        apply (Rmult_lt_reg_r (2 * D + 1)); [lra|].
        replace (2 * D * (eps / (2 * D + 1)) * (2 * D + 1)) with (2 * D * eps) by (field; lra). nra. }
  destruct (R_complete u Cy) as (l & Hl). exists l. intros n.
  destruct (Rle_lt_dec (Rabs (u n - l)) (D * r ^ n)) as [L|L]; [assumption|exfalso].
  set (eps := Rabs (u n - l) - D * r ^ n) in *. destruct (Hl eps ltac:(unfold eps; lra)) as (N & HN).
  specialize (HN (n + N)%nat ltac:(lia)). unfold R_dist in HN. pose proof (T n N) as A.
  assert (Rabs (u n - l) <= Rabs (u (n + N)%nat - l) + Rabs (u (n + N)%nat - u n)).
  { replace (u n - l) with ((u (n + N)%nat - l) - (u (n + N)%nat - u n)) by ring.
    unfold Rminus at 1. apply Rle_trans with (1 := Rabs_triang _ _). rewrite Rabs_Ropp. lra. }
  unfold eps in *. lra.
Qed.

(** ** The steady state *)

Section Steady.

Context (s : sys) (HR : 0 < sR s) (HQ : sym (sQ s)) (HQp : psd (sQ s)) (Ho : observable s) (Hc : controllable s).

Lemma size2_entries a c : 0 <= c -> size2 a <= c * c ->
  Rabs (m00 a) <= c /\ Rabs (m01 a) <= c /\ Rabs (m10 a) <= c /\ Rabs (m11 a) <= c.
Proof.
  intros Hc' H. unfold size2 in H. assert (X : forall y, y * y <= c * c -> Rabs y <= c).
  { intros y Hy. rewrite <- (Rabs_pos_eq c) by assumption. apply Rsqr_le_abs_0. exact Hy. }
  repeat split; apply X; nra.
Qed.

Lemma close_le P Q C r : 0 < r < 1 ->
  (forall n, size2 (msub (P n) (Q n)) <= C * (r ^ n * r ^ n)) -> 0 <= C ->
  forall x c, (forall n, quad (P n) x <= c) -> forall e, 0 < e -> exists N, forall n, (N <= n)%nat -> quad (Q n) x <= c + e.
Proof.
  intros Hr H HC x c Hx e He. set (K := sqrt C). assert (K0 : 0 <= K) by apply sqrt_pos.
  assert (KK : K * K = C) by now apply sqrt_sqrt.
  set (B := 4 * K * (Rabs (v0 x) + Rabs (v1 x)) * (Rabs (v0 x) + Rabs (v1 x))).
  assert (B0 : 0 <= B).
  { unfold B. pose proof (Rabs_pos (v0 x)). pose proof (Rabs_pos (v1 x)).
    repeat apply Rmult_le_pos; lra. }
  destruct (pow_lt_1_zero r) with (y := e / (B + 1)) as (N & HN).
  - rewrite Rabs_pos_eq; lra.
  - apply Rdiv_lt_0_compat; lra.
  - exists N. intros n Hn. specialize (HN n Hn). assert (Rn : 0 < r ^ n) by (apply pow_lt; lra).
    rewrite Rabs_pos_eq in HN by lra.
    destruct (size2_entries (msub (P n) (Q n)) (K * r ^ n)) as (E0 & E1 & E2 & E3).
    { apply Rmult_le_pos; lra. }
    { specialize (H n). rewrite <- KK in H. lra. }
    assert (D : Rabs (quad (P n) x - quad (Q n) x) <= B * r ^ n).
    { specialize (Hx n). revert E0 E1 E2 E3. unfold B. generalize (P n) (Q n) (r ^ n) Rn. clear - K0. intros [a b c d] [a' b' c' d'] y Hy.
      destruct x as [x0 x1]. unf. intros E0 E1 E2 E3.
      set (p := Rabs x0). set (q := Rabs x1). assert (p0 : 0 <= p) by apply Rabs_pos. assert (q0 : 0 <= q) by apply Rabs_pos.
      replace (x0 * (a * x0 + b * x1) + x1 * (c * x0 + d * x1) - (x0 * (a' * x0 + b' * x1) + x1 * (c' * x0 + d' * x1)))
        with ((a - a') * (x0 * x0) + (b - b') * (x0 * x1) + ((c - c') * (x1 * x0) + (d - d') * (x1 * x1))) by ring.
      assert (T : forall m f g, Rabs m <= K * y -> Rabs f <= p + q -> Rabs g <= p + q -> Rabs (m * (f * g)) <= K * y * ((p + q) * (p + q))).
      { intros m f g H1 H2 H3. rewrite !Rabs_mult. apply Rmult_le_compat; auto using Rabs_pos.
        - apply Rmult_le_pos; apply Rabs_pos.
        - apply Rmult_le_compat; auto using Rabs_pos. }
      assert (F0 : Rabs x0 <= p + q) by (fold p; lra). assert (F1 : Rabs x1 <= p + q) by (fold q; lra).
      pose proof (T _ x0 x0 E0 F0 F0). pose proof (T _ x0 x1 E1 F0 F1). pose proof (T _ x1 x0 E2 F1 F0). pose proof (T _ x1 x1 E3 F1 F1).
      eapply Rle_trans; [apply Rabs_triang|]. 
      eapply Rle_trans; [apply Rplus_le_compat; apply Rabs_triang|]. lra. }
    specialize (Hx n). rewrite Rabs_minus_sym in D. pose proof (Rle_abs (quad (Q n) x - quad (P n) x)).
    assert (B * r ^ n <= B * (e / (B + 1))) by (apply Rmult_le_compat_l; lra).
    assert (B * (e / (B + 1)) <= e).
    { apply (Rmult_le_reg_r (B + 1)); [lra|]. replace (B * (e / (B + 1)) * (B + 1)) with (B * e) by (field; lra). nra. }
    lra.
Qed.

Lemma size2_msub_comm a b : size2 (msub a b) = size2 (msub b a).
Proof. mats. unfold size2. unf. ring. Qed.
Lemma size2_triangle a b c : size2 (msub a c) <= 2 * size2 (msub a b) + 2 * size2 (msub b c).
Proof.
  assert (X : forall x y z, (x - z) * (x - z) <= 2 * ((x - y) * (x - y)) + 2 * ((y - z) * (y - z))).
  { intros x y z. assert (0 <= (x - y - (y - z)) * (x - y - (y - z))) by apply Rle_0_sqr. lra. }
  destruct a as [a0 a1 a2 a3], b as [b0 b1 b2 b3], c as [c0 c1 c2 c3]. unfold size2. unf.
  pose proof (X a0 b0 c0). pose proof (X a1 b1 c1). pose proof (X a2 b2 c2). pose proof (X a3 b3 c3). lra.
Qed.

Lemma loewner_eq P Q : sym P -> sym Q -> loewner_le P Q -> loewner_le Q P -> P = Q.
Proof.
  intros Ps Qs A B. assert (E : forall x, quad P x = quad Q x) by (intros x; apply Rle_antisym; auto).
  pose proof (E (V2 1 0)) as E1. pose proof (E (V2 0 1)) as E2. pose proof (E (V2 1 1)) as E3.
  unfold sym in *. mats. unf. f_equal; lra.
Qed.

Lemma steady : exists Pinf rho, covariances_ok s Pinf /\ pstep s Pinf = Pinf /\ 0 < rho < 1 /\
  forall P, covariances_ok s P -> exists C, 0 < C /\ forall n, size2 (msub (pseq s P n) Pinf) <= C * (rho ^ n * rho ^ n).
Proof.
  destruct (cov_close s HR HQ HQp Ho Hc) as (r & Hr & CC). pose proof (any_ok s HR HQ HQp) as Z0.
  destruct (CC (pstep s zero2) zero2 (pstep_ok _ _ Z0) Z0) as (C0 & HC0 & L0).
  assert (Inc : forall n, size2 (msub (pseq s zero2 (S n)) (pseq s zero2 n)) <= C0 * (r ^ n * r ^ n)).
  { intros n. rewrite <- pseq_shift. apply L0. }
  set (K := sqrt C0). assert (K0 : 0 <= K) by apply sqrt_pos. assert (KK : K * K = C0) by (apply sqrt_sqrt; lra).
  assert (Ent : forall n, let d := msub (pseq s zero2 (S n)) (pseq s zero2 n) in
     Rabs (m00 d) <= K * r ^ n /\ Rabs (m01 d) <= K * r ^ n /\ Rabs (m10 d) <= K * r ^ n /\ Rabs (m11 d) <= K * r ^ n).
  { intros n d. apply size2_entries; [apply Rmult_le_pos; [assumption|apply pow_le; lra]|].
    specialize (Inc n). fold d in Inc. rewrite <- KK in Inc. lra. }
  destruct (geometric_limit (fun n => m00 (pseq s zero2 n)) K r Hr K0 (fun n => proj1 (Ent n))) as (l0 & H0).
  destruct (geometric_limit (fun n => m01 (pseq s zero2 n)) K r Hr K0 (fun n => proj1 (proj2 (Ent n)))) as (l1 & H1).
  destruct (geometric_limit (fun n => m10 (pseq s zero2 n)) K r Hr K0 (fun n => proj1 (proj2 (proj2 (Ent n))))) as (l2 & H2).
  destruct (geometric_limit (fun n => m11 (pseq s zero2 n)) K r Hr K0 (fun n => proj2 (proj2 (proj2 (Ent n))))) as (l3 & H3).
  set (Pinf := M2 l0 l1 l2 l3). set (D := K / (1 - r)) in *.
  assert (D0 : 0 <= D) by (apply Rmult_le_pos; [assumption|]; left; apply Rinv_0_lt_compat; lra).
  assert (Lim : forall n, size2 (msub (pseq s zero2 n) Pinf) <= 4 * D * D * (r ^ n * r ^ n)).
  { intros n. specialize (H0 n). specialize (H1 n). specialize (H2 n). specialize (H3 n). cbv beta in *.
    assert (Dn : 0 <= D * r ^ n) by (apply Rmult_le_pos; [assumption|apply pow_le; lra]).
    assert (Sq : forall y, Rabs y <= D * r ^ n -> y * y <= D * r ^ n * (D * r ^ n)).
    { intros y Hy. rewrite <- (Rabs_pos_eq (D * r ^ n)) in Hy by assumption. apply Rsqr_le_abs_1 in Hy. exact Hy. }
    apply Sq in H0, H1, H2, H3. unfold size2, Pinf. destruct (pseq s zero2 n). unf. lra. }
  assert (DD : 0 <= 4 * D * D) by (clearbody D; nra).
  assert (General : forall P, covariances_ok s P -> exists C, 0 < C /\ forall n, size2 (msub (pseq s P n) Pinf) <= C * (r ^ n * r ^ n)).
  { intros P C. destruct (CC P zero2 C Z0) as (c & Hc' & L). exists (2 * c + 2 * (4 * D * D)). split; [lra|]. intros n.
    apply Rle_trans with (1 := size2_triangle _ (pseq s zero2 n) _). specialize (L n). specialize (Lim n).
    rewrite Rmult_plus_distr_r. lra. }
  (* limits of bounds *)
  assert (Sup : forall P, covariances_ok s P -> forall x c, (forall n, quad (pseq s P n) x <= c) -> quad Pinf x <= c).
  { intros P C x c H. destruct (General P C) as (c' & Hc' & L).
    destruct (Rle_lt_dec (quad Pinf x) c) as [|G]; [assumption|exfalso].
    destruct (close_le (pseq s P) (fun _ => Pinf) c' r Hr L (Rlt_le _ _ Hc') x c H ((quad Pinf x - c) / 2)) as (N & HN); [lra|].
    specialize (HN N (le_n _)). lra. }
  assert (Inf : forall x c N, (forall n, (N <= n)%nat -> c <= quad (pseq s zero2 n) x) -> c <= quad Pinf x).
  { intros x c N H. destruct (Rle_lt_dec c (quad Pinf x)) as [|G]; [assumption|exfalso].
    assert (L : forall n, size2 (msub Pinf (pseq s zero2 n)) <= 4 * D * D * (r ^ n * r ^ n))
      by (intros n; rewrite size2_msub_comm; apply Lim).
    destruct (close_le (fun _ => Pinf) (pseq s zero2) _ r Hr L DD x (quad Pinf x) (fun _ => Rle_refl _) ((c - quad Pinf x) / 2))
      as (M & HM); [lra|].
    specialize (HM (N + M)%nat ltac:(lia)). specialize (H (N + M)%nat ltac:(lia)). lra. }
  assert (Symm : l1 = l2).
  { assert (E : forall n, m01 (pseq s zero2 n) = m10 (pseq s zero2 n)) by (intros n; now destruct (pseq_ok s zero2 n Z0) as (a & _)).
    apply Rminus_diag_uniq. destruct (Req_EM_T (l1 - l2) 0) as [|N]; [assumption|exfalso].
    assert (B : forall n, Rabs (l1 - l2) <= 2 * D * r ^ n).
    { intros n. specialize (H1 n). specialize (H2 n). cbv beta in *. rewrite E in H1.
      replace (l1 - l2) with ((m10 (pseq s zero2 n) - l2) - (m10 (pseq s zero2 n) - l1)) by ring.
      unfold Rminus at 1. apply Rle_trans with (1 := Rabs_triang _ _). rewrite Rabs_Ropp. lra. }
    assert (A : 0 < Rabs (l1 - l2)) by now apply Rabs_pos_lt.
    destruct (pow_lt_1_zero r) with (y := Rabs (l1 - l2) / (2 * D + 1)) as (M & HM).
    - rewrite Rabs_pos_eq; lra.
    - apply Rdiv_lt_0_compat; lra.
    - specialize (HM M (le_n _)). rewrite Rabs_pos_eq in HM by (apply pow_le; lra). specialize (B M).
      assert (2 * D * r ^ M <= 2 * D * (Rabs (l1 - l2) / (2 * D + 1))) by (apply Rmult_le_compat_l; lra).
      assert (2 * D * (Rabs (l1 - l2) / (2 * D + 1)) < Rabs (l1 - l2)).
      { apply (Rmult_lt_reg_r (2 * D + 1)); [lra|].
        replace (2 * D * (Rabs (l1 - l2) / (2 * D + 1)) * (2 * D + 1)) with (2 * D * Rabs (l1 - l2)) by (field; lra). nra. }
      lra. }
  assert (OkI : covariances_ok s Pinf).
  { repeat split; auto; [|lra]. intros x. apply (Inf x 0 0%nat). intros n _.
    destruct (pseq_ok s zero2 n Z0) as (_ & p & _). apply p. }
  exists Pinf, r. split; [assumption|]. split; [|split; [assumption|exact General]].
  (* increasing from zero *)
  assert (Mono : forall n x, quad (pseq s zero2 n) x <= quad (pseq s zero2 (S n)) x).
  { intros n x. rewrite <- pseq_shift. apply pseq_mono; auto using pstep_ok; try (intros y; apply Rle_refl); try apply Rle_refl.
    now apply (zero_le s), pstep_ok. }
  assert (Below : forall n, loewner_le (pseq s zero2 n) Pinf).
  { intros n x. apply (Inf x _ n). intros m Hm. induction Hm as [|m Hm IH]; [apply Rle_refl|].
    apply Rle_trans with (1 := IH). apply Mono. }
  assert (Up : loewner_le Pinf (pstep s Pinf)).
  { intros x. apply (Sup zero2 Z0). intros n. apply Rle_trans with (quad (pseq s zero2 (S n)) x); [apply Mono|].
    simpl. apply pstep_mono; auto using pseq_ok; try (intros y; apply Rle_refl); try apply Rle_refl. }
  apply loewner_eq; [now apply pstep_ok in OkI as (a & _)|now destruct OkI| |assumption].
  intros x.
  assert (MonoI : forall n, quad (pstep s Pinf) x <= quad (pseq s Pinf (S n)) x).
  { induction n as [|n IH]; [apply Rle_refl|]. apply Rle_trans with (1 := IH).
    rewrite <- !pseq_shift.
    apply pseq_mono; auto using pstep_ok; try (intros y; apply Rle_refl); try apply Rle_refl.
    apply pstep_mono; auto using pstep_ok; try (intros y; apply Rle_refl); try apply Rle_refl. }
  destruct (General Pinf OkI) as (c & Hc' & L).
  destruct (Rle_lt_dec (quad (pstep s Pinf) x) (quad Pinf x)) as [|G]; [assumption|exfalso].
  assert (L' : forall n, size2 (msub Pinf (pseq s Pinf n)) <= c * (r ^ n * r ^ n))
    by (intros n; rewrite size2_msub_comm; apply L).
  destruct (close_le (fun _ => Pinf) (pseq s Pinf) c r Hr L' (Rlt_le _ _ Hc') x (quad Pinf x) (fun _ => Rle_refl _)
              ((quad (pstep s Pinf) x - quad Pinf x) / 2)) as (N & HN); [lra|].
  specialize (HN (S N) ltac:(lia)). specialize (MonoI N). lra.
Qed.

Lemma steady_unique P Q : covariances_ok s P -> covariances_ok s Q -> pstep s P = P -> pstep s Q = Q -> P = Q.
Proof.
  intros CP CQ FP FQ. destruct (cov_close s HR HQ HQp Ho Hc) as (r & Hr & CC).
  destruct (CC P Q CP CQ) as (C & HC & L).
  assert (E : forall X n, pstep s X = X -> pseq s X n = X) by (intros X n H; induction n; simpl; [|rewrite IHn]; auto).
  assert (S0 : size2 (msub P Q) <= 0).
  { destruct (Rle_lt_dec (size2 (msub P Q)) 0) as [|G]; [assumption|exfalso].
    destruct (pow_lt_1_zero r) with (y := size2 (msub P Q) / C) as (N & HN).
    - rewrite Rabs_pos_eq; lra.
    - apply Rdiv_lt_0_compat; assumption.
    - specialize (HN N (le_n _)). assert (Rn : 0 < r ^ N) by (apply pow_lt; lra). rewrite Rabs_pos_eq in HN by lra.
      specialize (L N). rewrite !E in L by assumption.
      assert (r ^ N <= 1) by (rewrite <- (pow1 N); apply pow_incr; lra).
      assert (C * (r ^ N * r ^ N) <= C * r ^ N) by (apply Rmult_le_compat_l; nra).
      assert (C * r ^ N < C * (size2 (msub P Q) / C)) by (apply Rmult_lt_compat_l; assumption).
      replace (C * (size2 (msub P Q) / C)) with (size2 (msub P Q)) in * by (field; lra). lra. }
  unfold size2 in S0. destruct P as [a b c d], Q as [a' b' c' d']. unf.
  assert (Z : forall y, y * y <= 0 -> y = 0) by (intros y Hy; nra).
  pose proof (Rle_0_sqr (a - a')). pose proof (Rle_0_sqr (b - b')). pose proof (Rle_0_sqr (c - c')). pose proof (Rle_0_sqr (d - d')).
  unfold Rsqr in *. f_equal; apply Rminus_diag_uniq, Z; lra.
Qed.

End Steady.

(** ** Bounded noise *)

Lemma norm1_nonneg x : 0 <= norm1 x.
Proof. unfold norm1. pose proof (Rabs_pos (v0 x)). pose proof (Rabs_pos (v1 x)). lra. Qed.
Lemma norm1_vadd x y : norm1 (vadd x y) <= norm1 x + norm1 y.
Proof.
  unfold norm1, vadd. cbn [v0 v1]. pose proof (Rabs_triang (v0 x) (v0 y)). pose proof (Rabs_triang (v1 x) (v1 y)). lra.
Qed.
Lemma norm1_vscale c x : norm1 (vscale c x) = Rabs c * norm1 x.
Proof. unfold norm1, vscale. cbn [v0 v1]. rewrite !Rabs_mult. ring. Qed.
Lemma norm1_vsub x y : norm1 (vsub x y) <= norm1 x + norm1 y.
Proof.
  replace (vsub x y) with (vadd x (vscale (-1) y)) by (mats; unf; f_equal; ring).
  apply Rle_trans with (1 := norm1_vadd _ _). rewrite norm1_vscale.
  replace (Rabs (-1)) with 1 by (rewrite Rabs_left; lra). lra.
Qed.
Lemma norm1_mv M c x :
  Rabs (m00 M) <= c -> Rabs (m01 M) <= c -> Rabs (m10 M) <= c -> Rabs (m11 M) <= c ->
  norm1 (mv M x) <= 2 * c * norm1 x.
Proof.
  intros H0 H1 H2 H3. unfold norm1, mv. cbn [v0 v1].
  assert (T : forall m y, Rabs m <= c -> Rabs (m * y) <= c * Rabs y)
    by (intros m y H; rewrite Rabs_mult; apply Rmult_le_compat_r; [apply Rabs_pos|assumption]).
  pose proof (T _ (v0 x) H0). pose proof (T _ (v1 x) H1). pose proof (T _ (v0 x) H2). pose proof (T _ (v1 x) H3).
  pose proof (Rabs_triang (m00 M * v0 x) (m01 M * v1 x)). pose proof (Rabs_triang (m10 M * v0 x) (m11 M * v1 x)). lra.
Qed.
Lemma norm1_mv_ex M : exists c, 0 < c /\ forall x, norm1 (mv M x) <= c * norm1 x.
Proof.
  set (c := Rabs (m00 M) + Rabs (m01 M) + Rabs (m10 M) + Rabs (m11 M) + 1).
  pose proof (Rabs_pos (m00 M)). pose proof (Rabs_pos (m01 M)). pose proof (Rabs_pos (m10 M)). pose proof (Rabs_pos (m11 M)).
  exists (2 * c). split; [unfold c; lra|]. intros x. apply norm1_mv; unfold c; lra.
Qed.

(** What the noise of one update adds to the error. *)
Definition kick (s : sys) (P : mat2) (w : vec2) (v : R) : vec2 :=
  let K := kgain s (Ppred s P) in
  vsub (mv (msub mI (vouter K (sH s))) w) (vscale v K).
(** The error after a history. *)
Fixpoint errs (s : sys) (P : mat2) (d : vec2) (h : list (R * vec2 * R)) : vec2 :=
  match h with
  | [] => d
  | (_, w, v) :: h' => errs s (pstep s P) (vadd (mv (fmat s P) d) (kick s P w v)) h'
  end.

Lemma errs_spec s h : forall e x,
  vsub (evolve s x h) (ex (krun s e (observe s x h))) = errs s (eP e) (vsub x (ex e)) h.
Proof.
  induction h as [|[[u w] v] h IH]; intros e x; [reflexivity|]. cbn [evolve observe krun errs]. rewrite IH.
  f_equal. unfold kstep. cbn [ex eP]. unfold kick, fmat. generalize (kgain s (Ppred s (eP e))). intros [k0 k1].
  unfold true_next, xcorr, xpred. destruct s as [[] [] [] ? ? ?], (ex e), x, w. cbn [sA sB sH]. unf. apply vec2_eq; simpl; ring.
Qed.

Lemma errs_linear s h : forall P d,
  errs s P d h = vadd (mv (phi s P (length h)) d) (errs s P (V2 0 0) h).
Proof.
  induction h as [|[[u w] v] h IH]; intros P d; cbn [errs phi length].
  - rewrite mv_mI. destruct d. unf. apply vec2_eq; simpl; ring.
  - rewrite IH, (IH _ (vadd (mv (fmat s P) (V2 0 0)) _)), mv_mmul.
    generalize (errs s (pstep s P) (V2 0 0) h) (phi s (pstep s P) (length h)) (fmat s P) (kick s P w v).
    intros [] [] [] []. destruct d. unf. apply vec2_eq; simpl; ring.
Qed.

Lemma errs_app s h : forall P d h', errs s P d (h ++ h') = errs s (pseq s P (length h)) (errs s P d h) h'.
Proof.
  induction h as [|[[u w] v] h IH]; intros P d h'; [reflexivity|]. cbn [errs length app]. rewrite IH, <- pseq_shift. reflexivity.
Qed.

Section Noise.

Context (s : sys) (HR : 0 < sR s) (HQ : sym (sQ s)) (HQp : psd (sQ s)) (Ho : observable s) (Hc : controllable s).

(** Covariances that have been updated three times. *)
Definition settled (P : mat2) : Prop := exists G, good s G /\ P = pstep s G.
Lemma settled_good P : settled P -> good s P.
Proof. intros (G & H & ->). now apply good_pstep. Qed.
Lemma settled_pstep P : settled P -> settled (pstep s P).
Proof. intros H. exists P. split; [now apply settled_good|reflexivity]. Qed.
Lemma settled_pseq P n : settled P -> settled (pseq s P n).
Proof. intros G. induction n; simpl; auto using settled_pstep. Qed.

Lemma lower_uniform : exists c, 0 < c /\ forall P, settled P -> forall x, c * vdot x x <= quad P x.
Proof.
  destruct (pd_ge (reach2 s) Hc) as (a & Ha & La).
  pose proof (kappa_ge s zero2 (any_ok s HR HQ HQp) HR) as K.
  set (S := Sinn s (Ppred s (ceiling s))).
  assert (S0 : 0 < S).
  { unfold S, Sinn. pose proof (ceiling_ok s zero2 (any_ok s HR HQ HQp)) as C.
    destruct (covariances_ok_pred _ _ C) as (_ & b & _). specialize (b (sH s)). lra. }
  exists (sR s * a / (kappa s * S)). split.
  { apply Rdiv_lt_0_compat; apply Rmult_lt_0_compat; lra. }
  intros P (G & HG & ->) x. pose proof HG as (P' & C' & EG).
  pose proof (good_ok s G HG) as CG. pose proof (covariances_ok_pred _ _ CG) as (ms & mp & _).
  pose proof (corr_lower s (Ppred s G) ms mp HR x) as L1. fold (pstep s G) in L1.
  pose proof (D_le_Ppred s (pstep s P') (pstep_ok _ _ C') HR x) as L2. rewrite <- EG in L2.
  assert (LS : Sinn s (Ppred s G) <= S).
  { unfold S, Sinn. rewrite !quad_Ppred. pose proof (good_ceiling s G Ho HG (mv (mtr (sA s)) (sH s))). lra. }
  destruct (pstep_ok _ _ CG) as (_ & pp & _). specialize (pp x). specialize (La x).
  assert (L3 : sR s * quad (Ppred s G) x <= S * quad (pstep s G) x).
  { apply Rle_trans with (1 := L1). now apply Rmult_le_compat_r. }
  apply (Rmult_le_reg_l (kappa s * S)); [apply Rmult_lt_0_compat; lra|].
  replace (kappa s * S * (sR s * a / (kappa s * S) * vdot x x)) with (sR s * (a * vdot x x)) by (field; lra).
  apply Rle_trans with (sR s * (kappa s * quad (Ppred s G) x)); [apply Rmult_le_compat_l; lra|].
  replace (kappa s * S * quad (pstep s G) x) with (kappa s * (S * quad (pstep s G) x)) by ring.
  replace (sR s * (kappa s * quad (Ppred s G) x)) with (kappa s * (sR s * quad (Ppred s G) x)) by ring.
  apply Rmult_le_compat_l; lra.
Qed.

Lemma phi_uniform : exists rho c, 0 < rho < 1 /\ 0 < c /\
  forall P, settled P -> forall n x, norm1 (mv (phi s P n) x) <= c * rho ^ n * norm1 x.
Proof.
  destruct (contraction s HR HQ HQp Ho Hc) as (r & Hr & Ct). destruct lower_uniform as (a & Ha & La).
  destruct (quad_le (ceiling s)) as (om & Hom & Lom).
  assert (T : forall P, settled P -> forall n x, vdot (mv (phi s P n) x) (mv (phi s P n) x) <= om / (a * r) * r ^ n * vdot x x).
  { intros P HP n x. pose proof (settled_good P HP) as HG.
    destruct (pd_det P (good_pd s P HR Hc HG)) as [_ Det].
    set (w := mv (minv P) x). assert (Ew : mv P w = x) by (apply mv_minv; lra).
    destruct (Ct n P w HG) as (w' & E & L). rewrite Ew in E. rewrite E.
    pose proof (good_ok s _ (good_pseq s P n HG)) as (Ps & Pp & _).
    apply Rle_trans with (om * quad (pseq s P n) w').
    - apply norm_by_quad; auto. intros y. apply Rle_trans with (2 := Lom y). apply good_ceiling; [assumption|]. now apply good_pseq.
    - assert (V : a * quad P w <= vdot x x).
      { pose proof (La P HP w) as L1. destruct (good_ok s P HG) as (Ps0 & Pp0 & _).
        assert (EQ : quad P w = vdot w x) by (unfold quad; now rewrite Ew).
        specialize (Pp0 w). pose proof (vdot_nonneg x). pose proof (vdot_nonneg w).
        assert (CS : vdot w x * vdot w x <= vdot w w * vdot x x).
        { clear. destruct w as [p q], x as [y z]. unf. pose proof (Rle_0_sqr (p * z - q * y)) as Y. unfold Rsqr in Y. lra. }
        rewrite EQ in *. destruct (Req_EM_T (vdot w x) 0) as [Z|Z]; [rewrite Z; lra|].
        apply (Rmult_le_reg_l (vdot w x)); [lra|].
        replace (vdot w x * (a * vdot w x)) with (a * (vdot w x * vdot w x)) by ring.
        apply Rle_trans with (a * (vdot w w * vdot x x)); [apply Rmult_le_compat_l; lra|].
        replace (a * (vdot w w * vdot x x)) with (a * vdot w w * vdot x x) by ring. now apply Rmult_le_compat_r. }
      apply (Rmult_le_reg_l (a * r)); [apply Rmult_lt_0_compat; lra|].
      replace (a * r * (om / (a * r) * r ^ n * vdot x x)) with (om * r ^ n * vdot x x) by (field; lra).
      replace (a * r * (om * quad (pseq s P n) w')) with (om * a * (r * quad (pseq s P n) w')) by ring.
      apply Rle_trans with (om * a * (r ^ n * quad P w)); [apply Rmult_le_compat_l; [apply Rmult_le_pos; lra|assumption]|].
      replace (om * a * (r ^ n * quad P w)) with (om * r ^ n * (a * quad P w)) by ring.
      apply Rmult_le_compat_l; [apply Rmult_le_pos; [lra|apply pow_le; lra]|assumption]. }
  set (c := om / (a * r)) in *. assert (c0 : 0 < c) by (apply Rdiv_lt_0_compat; [lra|apply Rmult_lt_0_compat; lra]).
  exists (sqrt r), (2 * sqrt c). assert (Rr : sqrt r * sqrt r = r) by (apply sqrt_sqrt; lra).
  assert (Rc : sqrt c * sqrt c = c) by (apply sqrt_sqrt; lra).
  assert (R0 : 0 < sqrt r) by (apply sqrt_lt_R0; lra). assert (R1 : sqrt r < 1) by nra.
  assert (C0 : 0 < sqrt c) by (apply sqrt_lt_R0; lra).
  split; [lra|]. split; [lra|]. intros P HP n x.
  assert (Rn : sqrt r ^ n * sqrt r ^ n = r ^ n) by (rewrite <- Rpow_mult_distr, Rr; reflexivity).
  assert (P0 : 0 < sqrt r ^ n) by (apply pow_lt; lra).
  assert (N : forall y, vdot y y <= norm1 y * norm1 y).
  { intros y. unfold norm1, vdot. pose proof (Rabs_pos (v0 y)). pose proof (Rabs_pos (v1 y)).
    assert (A : forall t, t * t = Rabs t * Rabs t) by (intros t; rewrite <- Rabs_mult, Rabs_pos_eq; [reflexivity|apply Rle_0_sqr]).
    rewrite (A (v0 y)), (A (v1 y)). nra. }
  set (y := mv (phi s P n) x).
  assert (Y : vdot y y <= (sqrt c * sqrt r ^ n * norm1 x) * (sqrt c * sqrt r ^ n * norm1 x)).
  { apply Rle_trans with (1 := T P HP n x).
    replace ((sqrt c * sqrt r ^ n * norm1 x) * (sqrt c * sqrt r ^ n * norm1 x))
      with ((sqrt c * sqrt c) * (sqrt r ^ n * sqrt r ^ n) * (norm1 x * norm1 x)) by ring.
    rewrite Rc, Rn. apply Rmult_le_compat_l; [apply Rmult_le_pos; [lra|apply pow_le; lra]|apply N]. }
  assert (Z : 0 <= sqrt c * sqrt r ^ n * norm1 x) by (apply Rmult_le_pos; [apply Rmult_le_pos; lra|apply norm1_nonneg]).
  assert (A : forall t, t * t <= vdot y y -> Rabs t <= sqrt c * sqrt r ^ n * norm1 x).
  { intros t Ht. rewrite <- (Rabs_pos_eq (sqrt c * sqrt r ^ n * norm1 x)) by assumption. apply Rsqr_le_abs_0. unfold Rsqr. lra. }
  pose proof (Rle_0_sqr (v0 y)) as Q0. pose proof (Rle_0_sqr (v1 y)) as Q1. unfold Rsqr in *.
  assert (A0 : Rabs (v0 y) <= sqrt c * sqrt r ^ n * norm1 x) by (apply A; unfold vdot; lra).
  assert (A1 : Rabs (v1 y) <= sqrt c * sqrt r ^ n * norm1 x) by (apply A; unfold vdot; lra).
  unfold norm1 at 1. lra.
Qed.

Lemma kick_bound P : exists g, 0 < g /\ forall w v b, norm1 w <= b -> Rabs v <= b -> norm1 (kick s P w v) <= g * b.
Proof.
  set (K := kgain s (Ppred s P)). destruct (norm1_mv_ex (msub mI (vouter K (sH s)))) as (c & Hc' & L).
  exists (c + norm1 K). pose proof (norm1_nonneg K). split; [lra|]. intros w v b Hw Hv. unfold kick. fold K.
  apply Rle_trans with (1 := norm1_vsub _ _). rewrite norm1_vscale. specialize (L w).
  assert (c * norm1 w <= c * b) by (apply Rmult_le_compat_l; lra).
  assert (Rabs v * norm1 K <= b * norm1 K) by (apply Rmult_le_compat_r; lra). lra.
Qed.

Lemma entry_bound P W : sym P -> psd P -> loewner_le P W ->
  let c := m00 W + m11 W in Rabs (m00 P) <= c /\ Rabs (m01 P) <= c /\ Rabs (m10 P) <= c /\ Rabs (m11 P) <= c.
Proof.
  intros Ps Pp L c. pose proof (Pp (V2 1 0)) as a0. pose proof (Pp (V2 0 1)) as a1. pose proof (Pp (V2 1 1)) as a2.
  pose proof (Pp (V2 1 (-1))) as a3. pose proof (L (V2 1 0)) as b0. pose proof (L (V2 0 1)) as b1.
  unfold c, sym in *. clear - Ps a0 a1 a2 a3 b0 b1. mats. unf. subst.
  repeat split; apply Rabs_le; lra.
Qed.

Lemma kick_uniform : exists g, 0 < g /\ forall P, settled P -> forall w v b,
  norm1 w <= b -> Rabs v <= b -> norm1 (kick s P w v) <= g * b.
Proof.
  set (W := ceiling s). set (c := m00 W + m11 W). set (H := sH s).
  set (k := 2 * c * norm1 H / sR s).
  assert (KB : forall P, settled P -> norm1 (kgain s (Ppred s P)) <= k).
  { intros P HP. pose proof (settled_good _ HP) as HG. pose proof (good_ok _ _ HG) as CP.
    pose proof (gain_post s HR P CP) as G. pose proof (good_pstep s P HG) as HG'.
    pose proof (good_ok _ _ HG') as (Ps & Pp & _).
    destruct (entry_bound (pstep s P) W Ps Pp (good_ceiling s _ Ho HG')) as (E0 & E1 & E2 & E3). fold c in E0, E1, E2, E3.
    pose proof (norm1_mv (pstep s P) c (sH s) E0 E1 E2 E3) as N. rewrite <- G, norm1_vscale, Rabs_pos_eq in N by lra.
    apply (Rmult_le_reg_l (sR s)); [assumption|]. unfold k. replace (sR s * (2 * c * norm1 H / sR s)) with (2 * c * norm1 H) by (field; lra).
    exact N. }
  exists (1 + Rabs k * norm1 H + Rabs k). pose proof (norm1_nonneg H) as NH. pose proof (Rabs_pos k) as K0.
  assert (0 <= Rabs k * norm1 H) by now apply Rmult_le_pos.
  split; [lra|]. intros P HP w v b Hw Hv. unfold kick. set (K := kgain s (Ppred s P)).
  assert (KK : norm1 K <= Rabs k) by (apply Rle_trans with k; [now apply KB|apply Rle_abs]).
  pose proof (norm1_nonneg K) as NK. pose proof (norm1_nonneg w) as Nw.
  apply Rle_trans with (1 := norm1_vsub _ _). rewrite norm1_vscale.
  replace (mv (msub mI (vouter K (sH s))) w) with (vsub w (vscale (vdot H w) K)).
  2:{ unfold H. destruct (sH s), w. generalize K. intros []. unf. apply vec2_eq; simpl; ring. }
  pose proof (norm1_vsub w (vscale (vdot H w) K)) as T. rewrite norm1_vscale in T.
  assert (D : Rabs (vdot H w) <= norm1 H * b).
  { unfold vdot. apply Rle_trans with (1 := Rabs_triang _ _). rewrite !Rabs_mult. unfold norm1 in Hw |- *.
    pose proof (Rabs_pos (v0 H)). pose proof (Rabs_pos (v1 H)). pose proof (Rabs_pos (v0 w)). pose proof (Rabs_pos (v1 w)).
    assert (Rabs (v0 H) * Rabs (v0 w) <= Rabs (v0 H) * b) by (apply Rmult_le_compat_l; lra).
    assert (Rabs (v1 H) * Rabs (v1 w) <= Rabs (v1 H) * b) by (apply Rmult_le_compat_l; lra). lra. }
  assert (Rabs (vdot H w) * norm1 K <= norm1 H * b * Rabs k).
  { apply Rmult_le_compat; auto using Rabs_pos. }
  assert (Rabs v * norm1 K <= b * Rabs k).
  { apply Rmult_le_compat; auto using Rabs_pos. }
  lra.
Qed.

Lemma noise_cons b a h : noise_within b (a :: h) -> noise_within b h.
Proof. intros H u w v I. apply (H u w v). now right. Qed.

Lemma errs_noise : exists rho B c, 0 < rho < 1 /\ 0 < B /\ 0 < c /\
  forall P, settled P -> forall b h d, 0 <= b -> noise_within b h ->
  norm1 (errs s P d h) <= c * rho ^ length h * norm1 d + B * b.
Proof.
  destruct phi_uniform as (r & c & Hr & Hc' & L). destruct kick_uniform as (g & Hg & Lg).
  assert (B0 : 0 < c * g / (1 - r)) by (apply Rdiv_lt_0_compat; [apply Rmult_lt_0_compat; lra|lra]).
  exists r, (c * g / (1 - r)), c. do 3 (split; [lra|]).
  assert (Z : forall h P b, settled P -> 0 <= b -> noise_within b h ->
    norm1 (errs s P (V2 0 0) h) <= c * g / (1 - r) * b * (1 - r ^ length h)).
  { induction h as [|[[u w] v] h IH]; intros P b HP Hb HN.
    - cbn [errs length pow]. unfold norm1. cbn [v0 v1]. rewrite Rabs_R0. lra.
    - cbn [errs]. rewrite errs_linear. apply Rle_trans with (1 := norm1_vadd _ _).
      replace (vadd (mv (fmat s P) (V2 0 0)) (kick s P w v)) with (kick s P w v)
        by (generalize (kick s P w v) (fmat s P); intros [] []; unf; apply vec2_eq; simpl; ring).
      pose proof (L _ (settled_pstep P HP) (length h) (kick s P w v)) as L1.
      destruct (HN u w v (or_introl eq_refl)) as [Hw Hv]. pose proof (Lg P HP w v b Hw Hv) as L2.
      pose proof (IH _ b (settled_pstep P HP) Hb (noise_cons _ _ _ HN)) as L3.
      assert (Rn : 0 < r ^ length h) by (apply pow_lt; lra).
      assert (c * r ^ length h * norm1 (kick s P w v) <= c * r ^ length h * (g * b))
        by (apply Rmult_le_compat_l; [apply Rmult_le_pos; lra|assumption]).
      cbn [length pow].
      replace (c * g / (1 - r) * b * (1 - r * r ^ length h))
        with (c * r ^ length h * (g * b) + c * g / (1 - r) * b * (1 - r ^ length h)) by (field; lra). lra. }
  intros P HP b h d Hb HN. rewrite errs_linear. apply Rle_trans with (1 := norm1_vadd _ _).
  pose proof (L P HP (length h) d). pose proof (Z h P b HP Hb HN) as L3.
  assert (Rn : 0 < r ^ length h) by (apply pow_lt; lra).
  assert (c * g / (1 - r) * b * (1 - r ^ length h) <= c * g / (1 - r) * b * 1).
  { apply Rmult_le_compat_l; [apply Rmult_le_pos; lra|lra]. }
  lra.
Qed.

Lemma errs_short n : forall P, exists c, 0 < c /\
  forall b h d, 0 <= b -> noise_within b h -> (length h <= n)%nat -> norm1 (errs s P d h) <= c * (norm1 d + b).
Proof.
  induction n as [|n IH]; intros P.
  - exists 1. split; [lra|]. intros b [|a h] d Hb _ Hl; [|simpl in Hl; lia]. simpl. lra.
  - destruct (IH (pstep s P)) as (c & Hc' & L). destruct (norm1_mv_ex (fmat s P)) as (f & Hf & Lf).
    destruct (kick_bound P) as (g & Hg & Lg).
    exists (1 + c * (f + g + 1)). assert (0 < c * (f + g + 1)) by (apply Rmult_lt_0_compat; lra). split; [lra|].
    intros b [|[[u w] v] h] d Hb HN Hl; pose proof (norm1_nonneg d) as N.
    + simpl. assert (0 <= c * (f + g + 1) * (norm1 d + b)) by (apply Rmult_le_pos; lra). lra.
    + cbn [errs]. destruct (HN u w v (or_introl eq_refl)) as [Hw Hv].
      apply Rle_trans with (1 := L b h _ Hb (noise_cons _ _ _ HN) ltac:(simpl in Hl; lia)).
      pose proof (norm1_vadd (mv (fmat s P) d) (kick s P w v)) as T. pose proof (Lf d). pose proof (Lg w v b Hw Hv).
      assert (norm1 (vadd (mv (fmat s P) d) (kick s P w v)) + b <= (f + g + 1) * (norm1 d + b)).
      { assert (0 <= f * b) by (apply Rmult_le_pos; lra). assert (0 <= g * norm1 d) by (apply Rmult_le_pos; lra). lra. }
      apply Rle_trans with (c * ((f + g + 1) * (norm1 d + b))); [apply Rmult_le_compat_l; lra|]. lra.
Qed.

Lemma errs_bounded : exists rho B, 0 < rho < 1 /\ 0 < B /\
  forall P, covariances_ok s P -> exists C, 0 < C /\
  forall b h d, 0 <= b -> noise_within b h ->
  norm1 (errs s P d h) <= C * rho ^ length h * (norm1 d + b) + B * b.
Proof.
  destruct errs_noise as (r & B & c & Hr & HB & Hc' & L). exists r, B. do 2 (split; [lra|]). intros P CP.
  destruct (errs_short 3 P) as (k & Hk & Lk).
  assert (r3 : 0 < r ^ 3) by (apply pow_lt; lra).
  exists ((1 + c) * k / r ^ 3). split.
  { apply Rdiv_lt_0_compat; [apply Rmult_lt_0_compat; lra|assumption]. }
  intros b h d Hb HN. pose proof (norm1_nonneg d) as N.
  destruct (le_lt_dec (length h) 3) as [S|S].
  - pose proof (Lk b h d Hb HN S) as X. assert (0 <= B * b) by (apply Rmult_le_pos; lra).
    assert (r ^ 3 <= r ^ length h).
    { replace 3%nat with (length h + (3 - length h))%nat by lia. rewrite pow_add.
      assert (r ^ (3 - length h) <= 1) by (rewrite <- (pow1 (3 - length h)); apply pow_incr; lra).
      assert (0 < r ^ length h) by (apply pow_lt; lra). nra. }
    assert (k * (norm1 d + b) <= (1 + c) * k / r ^ 3 * r ^ length h * (norm1 d + b)).
    { apply Rmult_le_compat_r; [lra|]. apply Rle_trans with ((1 + c) * k / r ^ 3 * r ^ 3).
      - replace ((1 + c) * k / r ^ 3 * r ^ 3) with ((1 + c) * k) by (field; lra).
        assert (0 < c * k) by (apply Rmult_lt_0_compat; lra). lra.
      - apply Rmult_le_compat_l; [|assumption]. left. apply Rdiv_lt_0_compat; [apply Rmult_lt_0_compat; lra|assumption]. }
    lra.
  - rewrite <- (firstn_skipn 3 h) in HN |- *. set (h1 := firstn 3 h) in *. set (h2 := skipn 3 h) in *.
    assert (L1 : length h1 = 3%nat) by (apply firstn_length_le; lia).
    rewrite errs_app, app_length, L1.
    assert (HS : settled (pseq s P 3)).
    { exists (pseq s P 2). split; [|reflexivity]. exists P. split; [assumption|reflexivity]. }
    assert (N1 : noise_within b h1) by (intros u w v I; apply (HN u w v), in_or_app; now left).
    assert (N2 : noise_within b h2) by (intros u w v I; apply (HN u w v), in_or_app; now right).
    pose proof (L _ HS b h2 (errs s P d h1) Hb N2) as X. pose proof (Lk b h1 d Hb N1 ltac:(lia)) as Y.
    assert (Rn : 0 < r ^ length h2) by (apply pow_lt; lra).
    assert (c * r ^ length h2 * norm1 (errs s P d h1) <= c * r ^ length h2 * (k * (norm1 d + b)))
      by (apply Rmult_le_compat_l; [apply Rmult_le_pos; lra|assumption]).
    rewrite pow_add.
    replace ((1 + c) * k / r ^ 3 * (r ^ 3 * r ^ length h2) * (norm1 d + b))
      with (c * r ^ length h2 * (k * (norm1 d + b)) + r ^ length h2 * (k * (norm1 d + b))) by (field; lra).
    assert (0 <= r ^ length h2 * (k * (norm1 d + b))) by (apply Rmult_le_pos; [lra|apply Rmult_le_pos; lra]). lra.
Qed.

End Noise.
