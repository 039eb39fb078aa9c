(** * Long-run behaviour of the Kalman estimator (include/dsp/kalman.hpp)

    C142 - C145 of properties.jsonl: the covariance is bounded after two updates, the initial
    state is forgotten, covariance and gain tend to a steady state, bounded noise leads to a
    bounded error. *)

From Coq Require Import Reals List Lra Lia Psatz ZArith.
From Verif Require Import Base Matrix Scalars Kalman KalmanSpec KalmanProofs PropsKalman
  StochasticSpec StochasticProofs PropsRiccati ConvergenceSpec ConvergenceProofs.
Import ListNotations.
Local Open Scope R_scope.

(** ** C142: two measurements bound the covariance *)

(** When two successive measurements determine the state, there is one bound that the
    covariance respects from the second update on, whatever it was initially. *)
Theorem C142_covariance_bounded :
  forall s : sys, observable s ->
  exists W : mat2, forall (P : mat2) (x : vec2) (h : list (R * R)) e,
  covariances_ok s P -> (2 <= length h)%nat ->
  run R_scalar 1 1 (enc_sys s) (kalman_init R_scalar false 1 (enc2 P) (encv x)) (enc_hist h)
    = Ok (enc_est e) ->
  loewner_le (eP e) W.
Proof.
  intros s Ho. exists (ceiling s). intros P x h e C L H.
  rewrite (run_init_reach _ _ _ _ _ H), krun_pseq. cbn [fresh eP].
  destruct (length h) as [|[|n]]; [lia..|]. simpl. apply ceiling_bound; auto using pseq_ok.
Qed.
Print Assumptions C142_covariance_bounded.

(** The same with numbers for the simulation programs: also with an initial covariance that is
    arbitrarily large, the position variance is at most 100 (the sensor's) and the velocity variance at most
    200.01 from the second update on. *)
Theorem C142_simulation_bounded :
  forall (P : mat2) (x : vec2) (h : list (R * R)) e,
  covariances_ok sim_sys P -> (2 <= length h)%nat ->
  run R_scalar 1 1 (enc_sys sim_sys) (kalman_init R_scalar false 1 (enc2 P) (encv x)) (enc_hist h)
    = Ok (enc_est e) ->
  0 <= m00 (eP e) <= 100 /\ 0 <= m11 (eP e) <= 20001 / 100.
Proof.
  intros P x h e C L H. destruct (C15_variances _ _ _ _ _ C H) as (V0 & V1 & _).
  assert (B : loewner_le (eP e) (ceiling sim_sys)).
  { rewrite (run_init_reach _ _ _ _ _ H), krun_pseq. cbn [fresh eP].
    destruct (length h) as [|[|n]]; [lia..|]. simpl. apply ceiling_bound; auto using pseq_ok.
    unfold observable, mdet, sim_sys. simpl. lra. }
  assert (D1 : dead1 sim_sys = V2 1 0) by (unfold dead1, vdot, sim_sys; apply vec2_eq; simpl; field).
  assert (D2 : dead2 sim_sys = V2 1 1) by (unfold dead2, vdot, sim_sys; apply vec2_eq; simpl; field).
  assert (J1 : Ppred sim_sys (Pjoseph sim_sys (V2 1 0) (sQ sim_sys)) = M2 (10005/100) (6/100) (6/100) (8/100))
    by (unfold Ppred, Pjoseph, sim_sys, sim_Q; apply mat2_eq; simpl; field).
  assert (J2 : ceiling sim_sys = M2 100 100 100 (20001/100)).
  { unfold ceiling. rewrite D1, D2, J1. unfold Pjoseph, sim_sys. apply mat2_eq; simpl; field. }
  rewrite J2 in B. pose proof (B (V2 1 0)) as B0. pose proof (B (V2 0 1)) as B1.
  unfold quad, vdot, mv in B0, B1. cbn [m00 m01 m10 m11 v0 v1] in B0, B1. lra.
Qed.
Print Assumptions C142_simulation_bounded.

(** Without observability there is no such bound: the second component of a state that stands
    still and is never measured keeps its initial variance. *)
Theorem C142_unobservable_unbounded :
  let s := Sys mI (V2 0 0) (V2 1 0) (M2 0 0 0 0) 1 1 in
  ~ observable s /\
  forall b, exists P, covariances_ok s P /\
  forall x h e,
  run R_scalar 1 1 (enc_sys s) (kalman_init R_scalar false 1 (enc2 P) (encv x)) (enc_hist h)
    = Ok (enc_est e) ->
  b < m11 (eP e).
Proof.
  intros s. split; [unfold observable, s, mdet, mI; simpl; lra|].
  intros b. set (c := Rabs b + 1). assert (B : b < c) by (unfold c; pose proof (Rle_abs b); lra).
  assert (c0 : 0 <= c) by (unfold c; pose proof (Rabs_pos b); lra).
  exists (M2 0 0 0 c). split.
  { unfold covariances_ok, sym, psd, s, quad, vdot, mv. simpl.
    repeat split; try lra; intros x; simpl; [|lra].
    assert (0 <= c * (v1 x * v1 x)) by (apply Rmult_le_pos; [assumption|apply Rle_0_sqr]). lra. }
  intros x h e H. rewrite (run_init_reach _ _ _ _ _ H), krun_pseq. cbn [fresh eP].
  assert (E : forall n, pseq s (M2 0 0 0 c) n = M2 0 0 0 c).
  { induction n as [|n IH]; [reflexivity|]. simpl. rewrite IH. unfold pstep.
    assert (EP : Ppred s (M2 0 0 0 c) = M2 0 0 0 c) by (unfold Ppred, s, mI; apply mat2_eq; simpl; ring).
    rewrite EP. assert (EK : kgain s (M2 0 0 0 c) = V2 0 0).
    { unfold kgain, Sinn, quad, vdot, mv, s. simpl. destruct (Req_EM_T _ 0) as [Z|Z]; [reflexivity|].
      unfold Kopt, vscale, mv. apply vec2_eq; simpl; ring. }
    rewrite EK. unfold Pcorr, s, mI. apply mat2_eq; simpl; ring. }
  now rewrite E.
Qed.
Print Assumptions C142_unobservable_unbounded.

(** ** C143: the initial state is forgotten *)

(** Two estimators given the same inputs and measurements, started from different states: their
    estimates approach each other at a geometric rate that depends on the system only. *)
Theorem C143_initial_state_forgotten :
  forall s : sys,
  0 < sR s -> sym (sQ s) -> psd (sQ s) -> observable s -> controllable s ->
  exists rho, 0 < rho < 1 /\
  forall P : mat2, covariances_ok s P -> exists C, 0 < C /\
  forall (x y : vec2) (h : list (R * R)) e e',
  run R_scalar 1 1 (enc_sys s) (kalman_init R_scalar false 1 (enc2 P) (encv x)) (enc_hist h)
    = Ok (enc_est e) ->
  run R_scalar 1 1 (enc_sys s) (kalman_init R_scalar false 1 (enc2 P) (encv y)) (enc_hist h)
    = Ok (enc_est e') ->
  dist2 (ex e) (ex e') <= C * rho ^ length h * dist2 x y.
Proof.
  intros s HR HQ HQp Ho Hc. destruct (forgetting s HR HQ HQp Ho Hc) as (r & Hr & F).
  exists r. split; [assumption|]. intros P CP. destruct (F P CP) as (C & HC & L).
  exists C. split; [assumption|]. intros x y h e e' H H'.
  rewrite (run_init_reach _ _ _ _ _ H), (run_init_reach _ _ _ _ _ H'). unfold dist2.
  rewrite krun_diff by reflexivity. apply L.
Qed.
Print Assumptions C143_initial_state_forgotten.

(** Without process noise the estimator need not forget, even when the state can be observed:
    here the estimator is certain (P = 0, Q = 0) and differences in the first component double
    with every update. *)
Theorem C143_not_excited_not_forgotten :
  let s := Sys (M2 2 1 0 2) (V2 0 0) (V2 1 0) (M2 0 0 0 0) 1 1 in
  let P := M2 0 0 0 0 in
  observable s /\ covariances_ok s P /\
  forall x y h e e', v1 x = v1 y ->
  run R_scalar 1 1 (enc_sys s) (kalman_init R_scalar false 1 (enc2 P) (encv x)) (enc_hist h)
    = Ok (enc_est e) ->
  run R_scalar 1 1 (enc_sys s) (kalman_init R_scalar false 1 (enc2 P) (encv y)) (enc_hist h)
    = Ok (enc_est e') ->
  dist2 (ex e) (ex e') = 4 ^ length h * dist2 x y.
Proof.
  intros s P. split; [unfold observable, mdet, s; simpl; lra|]. split.
  { unfold covariances_ok, sym, psd, s, P, quad, vdot, mv. simpl. repeat split; try lra; intros; lra. }
  intros x y h e e' E1 H H'. rewrite (run_init_reach _ _ _ _ _ H), (run_init_reach _ _ _ _ _ H'). clear H H' e e'.
  unfold dist2. rewrite krun_diff by reflexivity. cbn [fresh eP ex].
  assert (EP : pstep s P = P).
  { unfold pstep, kgain, Sinn, Ppred, Pcorr, Kopt. destruct (Req_EM_T _ 0); unfold s, P; apply mat2_eq; simpl; ring. }
  assert (EF : fmat s P = M2 2 1 0 2).
  { unfold fmat, kgain, Sinn, Ppred, Kopt. destruct (Req_EM_T _ 0); unfold s, P; apply mat2_eq; simpl; ring. }
  assert (E : forall n d, mv (phi s P n) (V2 d 0) = V2 (2 ^ n * d) 0).
  { induction n as [|n IH]; intros d; simpl phi; [rewrite mv_mI; simpl; f_equal; ring|].
    rewrite EP, EF, ConvergenceProofs.mv_mmul.
    replace (mv (M2 2 1 0 2) (V2 d 0)) with (V2 (2 * d) 0) by (apply vec2_eq; simpl; ring).
    rewrite IH. f_equal. simpl. ring. }
  replace (vsub x y) with (V2 (v0 x - v0 y) 0) by (unfold vsub; rewrite E1; f_equal; ring).
  rewrite E. unfold vdot. cbn [v0 v1]. replace 4 with (2 * 2) by ring. rewrite Rpow_mult_distr. ring.
Qed.
Print Assumptions C143_not_excited_not_forgotten.

(** ** C144: steady state *)

(** Covariance and gain converge, whatever the initial covariance, to a covariance that an
    update reproduces and to the gain of that update.  The entries differ from the limits by
    at most a constant (which may depend on the initial covariance) times rho^n after n
    updates. *)
Definition close (c : R) (a b : R) : Prop := Rabs (a - b) <= c.

Definition tends_to (s : sys) (Pinf : mat2) (Kinf : vec2) : Prop :=
  exists rho, 0 < rho < 1 /\
  forall P : mat2, covariances_ok s P -> exists C, 0 < C /\
  forall (x : vec2) (h : list (R * R)) e,
  run R_scalar 1 1 (enc_sys s) (kalman_init R_scalar false 1 (enc2 P) (encv x)) (enc_hist h)
    = Ok (enc_est e) ->
  let near := close (C * rho ^ length h) in
  near (m00 (eP e)) (m00 Pinf) /\ near (m01 (eP e)) (m01 Pinf) /\
  near (m10 (eP e)) (m10 Pinf) /\ near (m11 (eP e)) (m11 Pinf) /\
  (h <> [] -> exists K, eK e = Some K /\ near (v0 K) (v0 Kinf) /\ near (v1 K) (v1 Kinf)).

(** [Pinf] is reproduced by an update, which uses the gain [Kinf]. *)
Definition steady_state (s : sys) (Pinf : mat2) (Kinf : vec2) : Prop :=
  covariances_ok s Pinf /\
  forall e u z e', eP e = Pinf ->
  update R_scalar 1 1 (enc_sys s) (enc_est e) (enc1 u) (enc1 z) = Ok (enc_est e') ->
  eP e' = Pinf /\ eK e' = Some Kinf.

Lemma steady_pstep s Pinf Kinf : steady_state s Pinf Kinf ->
  covariances_ok s Pinf /\ pstep s Pinf = Pinf /\ kgain s (Ppred s Pinf) = Kinf.
Proof.
  intros (C & F). destruct (F (fresh Pinf (V2 0 0)) 0 0 _ eq_refl (update_enc _ _ _ _)) as (a & b).
  repeat split; auto; try apply C. now injection b.
Qed.

Lemma gain_last s h : forall e, h <> [] ->
  eK (krun s e h) = Some (kgain s (Ppred s (pseq s (eP e) (pred (length h))))).
Proof.
  induction h as [|[u z] h IH]; intros e Hn; [congruence|]. destruct h as [|uz h].
  - reflexivity.
  - change (krun s e ((u, z) :: uz :: h)) with (krun s (kstep s e u z) (uz :: h)). rewrite IH by congruence.
    do 3 f_equal. change (eP (kstep s e u z)) with (pstep s (eP e)). simpl pred. rewrite pseq_shift. reflexivity.
Qed.

Lemma steady_tends s : 0 < sR s -> sym (sQ s) -> psd (sQ s) -> observable s -> controllable s ->
  exists Pinf, covariances_ok s Pinf /\ pstep s Pinf = Pinf /\ tends_to s Pinf (kgain s (Ppred s Pinf)).
Proof.
  intros HR HQ HQp Ho Hc. destruct (steady s HR HQ HQp Ho Hc) as (Pi & r & CI & FI & Hr & G).
  exists Pi. split; [assumption|]. split; [assumption|]. exists r. split; [assumption|].
  intros P CP. destruct (G P CP) as (C & HC & L).
  set (K := sqrt C). assert (K0 : 0 <= K) by apply sqrt_pos. assert (KK : K * K = C) by (apply sqrt_sqrt; lra).
  set (g := (Rabs (v0 (sH s)) + Rabs (v1 (sH s))) / sR s).
  assert (g0 : 0 <= g).
  { apply Rmult_le_pos; [pose proof (Rabs_pos (v0 (sH s))); pose proof (Rabs_pos (v1 (sH s))); lra|].
    left. now apply Rinv_0_lt_compat. }
  exists (K + K * g + 1). split; [assert (0 <= K * g) by (now apply Rmult_le_pos); lra|].
  intros x h e H near. rewrite (run_init_reach _ _ _ _ _ H). clear H e. unfold near. clear near.
  rewrite krun_pseq. cbn [fresh eP]. set (n := length h).
  assert (rn : 0 < r ^ n) by (apply pow_lt; lra).
  assert (Kg : 0 <= K * g) by now apply Rmult_le_pos.
  assert (W : K * r ^ n <= (K + K * g + 1) * r ^ n) by (apply Rmult_le_compat_r; lra).
  destruct (size2_entries (msub (pseq s P n) Pi) (K * r ^ n)) as (E0 & E1 & E2 & E3).
  { apply Rmult_le_pos; lra. }
  { specialize (L n). rewrite <- KK in L. lra. }
  unfold msub in *. cbn [m00 m01 m10 m11] in E0, E1, E2, E3. unfold close.
  do 4 (split; [eapply Rle_trans; eassumption|]). intros Hn.
  exists (kgain s (Ppred s (pseq s P (pred n)))). split; [now rewrite gain_last|].
  assert (Hn' : n = S (pred n)) by (unfold n; destruct h; [congruence|reflexivity]).
  pose proof (gain_post s HR (pseq s P (pred n)) (pseq_ok _ _ _ CP)) as G1.
  pose proof (gain_post s HR Pi CI) as G2. rewrite FI in G2.
  change (pstep s (pseq s P (pred n))) with (pseq s P (S (pred n))) in G1. rewrite <- Hn' in G1.
  set (k := kgain s (Ppred s (pseq s P (pred n)))) in *. set (ki := kgain s (Ppred s Pi)) in *.
  assert (X : forall a b c d p q, sR s * p = a * v0 (sH s) + b * v1 (sH s) -> sR s * q = c * v0 (sH s) + d * v1 (sH s) ->
     Rabs (a - c) <= K * r ^ n -> Rabs (b - d) <= K * r ^ n -> Rabs (p - q) <= (K + K * g + 1) * r ^ n).
  { intros a b c d p q H1 H2 H3 H4. apply Rle_trans with (K * g * r ^ n); [|apply Rmult_le_compat_r; lra].
    assert (E : p - q = ((a - c) * v0 (sH s) + (b - d) * v1 (sH s)) / sR s).
    { apply (Rmult_eq_reg_l (sR s)); [|lra].
      replace (sR s * (((a - c) * v0 (sH s) + (b - d) * v1 (sH s)) / sR s))
        with ((a - c) * v0 (sH s) + (b - d) * v1 (sH s)) by (field; lra). lra. }
    rewrite E. unfold Rdiv. rewrite Rabs_mult, (Rabs_pos_eq (/ sR s)) by (left; now apply Rinv_0_lt_compat).
    replace (K * g * r ^ n) with (K * r ^ n * (Rabs (v0 (sH s)) + Rabs (v1 (sH s))) * / sR s) by (unfold g; field; lra).
    apply Rmult_le_compat_r; [left; now apply Rinv_0_lt_compat|].
    apply Rle_trans with (1 := Rabs_triang _ _). rewrite !Rabs_mult.
    pose proof (Rabs_pos (v0 (sH s))). pose proof (Rabs_pos (v1 (sH s))).
    assert (Rabs (a - c) * Rabs (v0 (sH s)) <= K * r ^ n * Rabs (v0 (sH s))) by now apply Rmult_le_compat_r.
    assert (Rabs (b - d) * Rabs (v1 (sH s)) <= K * r ^ n * Rabs (v1 (sH s))) by now apply Rmult_le_compat_r. lra. }
  split.
  - apply (X (m00 (pseq s P n)) (m01 (pseq s P n)) (m00 Pi) (m01 Pi)); auto.
    + exact (f_equal v0 G1).
    + exact (f_equal v0 G2).
  - apply (X (m10 (pseq s P n)) (m11 (pseq s P n)) (m10 Pi) (m11 Pi)); auto.
    + exact (f_equal v1 G1).
    + exact (f_equal v1 G2).
Qed.

Theorem C144_steady_state :
  forall s : sys,
  0 < sR s -> sym (sQ s) -> psd (sQ s) -> observable s -> controllable s ->
  exists Pinf Kinf, steady_state s Pinf Kinf /\ tends_to s Pinf Kinf.
Proof.
  intros s HR HQ HQp Ho Hc. destruct (steady_tends s HR HQ HQp Ho Hc) as (Pi & CI & FI & T).
  exists Pi, (kgain s (Ppred s Pi)). split; [|assumption]. split; [assumption|].
  intros e u z e' E H. apply update_reach in H as ->. unfold kstep. cbn [eP eK]. rewrite E. split; [exact FI|reflexivity].
Qed.
Print Assumptions C144_steady_state.

(** There is only one. *)
Theorem C144_steady_state_unique :
  forall (s : sys) P K P' K',
  0 < sR s -> observable s -> controllable s ->
  steady_state s P K -> steady_state s P' K' -> P = P' /\ K = K'.
Proof.
  intros s P K P' K' HR Ho Hc H H'. apply steady_pstep in H as (C & F & <-). apply steady_pstep in H' as (C' & F' & <-).
  assert (E : P = P').
  { destruct C as (a & b & c & d & _). apply (steady_unique s HR c d Ho Hc); auto.
    repeat split; auto. lra. }
  now subst.
Qed.
Print Assumptions C144_steady_state_unique.

(** The simulation programs: the limits in closed form. *)
Definition sim_Pinf : mat2 :=
  let t := sqrt 401 in M2 ((201 * t - 401) / 200) ((201 - t) / 100) ((201 - t) / 100) ((t - 1) / 50).
Definition sim_Kinf : vec2 :=
  let t := sqrt 401 in V2 ((201 * t - 401) / 20000) ((201 - t) / 10000).

Lemma sim_observable : observable sim_sys.
Proof. unfold observable, mdet, sim_sys. simpl. lra. Qed.
Lemma sim_controllable : controllable sim_sys.
Proof.
  split; [unfold sym, reach2, sim_sys, sim_Q; simpl; lra|]. intros [x y] N.
  unfold quad, reach2, sim_sys, sim_Q, vdot, mv, madd, mmul, mtr, mscale. simpl.
  assert (D : x <> 0 \/ y <> 0) by (destruct (Req_EM_T x 0), (Req_EM_T y 0); subst; auto; congruence).
  pose proof (Rle_0_sqr (x / 2 + y)) as A. pose proof (Rle_0_sqr (3 * x / 2 + y)) as B. unfold Rsqr in *.
  assert (S : 0 < (x / 2 + y) * (x / 2 + y) + (3 * x / 2 + y) * (3 * x / 2 + y)).
  { destruct (Req_EM_T (x / 2 + y) 0) as [E|E].
    - destruct (Req_EM_T (3 * x / 2 + y) 0) as [E'|E']; [exfalso; destruct D; lra|].
      apply Rsqr_pos_lt in E'. unfold Rsqr in E'. lra.
    - apply Rsqr_pos_lt in E. unfold Rsqr in E. lra. }
  lra.
Qed.

Theorem C144_simulation :
  steady_state sim_sys sim_Pinf sim_Kinf /\ tends_to sim_sys sim_Pinf sim_Kinf /\
  18.12 < m00 sim_Pinf < 18.13 /\ 0.38 < m11 sim_Pinf < 0.381 /\
  0.1812 < v0 sim_Kinf < 0.1813 /\ 0.01809 < v1 sim_Kinf < 0.0181.
Proof.
  set (t := sqrt 401). assert (T : t * t = 401) by (apply sqrt_sqrt; lra).
  assert (B : 20.0249 < t < 20.0250).
  { assert (0 <= t) by apply sqrt_pos. split.
    - apply Rnot_le_lt. intros X. nra.
    - apply Rnot_le_lt. intros X. nra. }
  destruct sim_ok as (_ & _ & q1 & q2 & _).
  assert (CI : covariances_ok sim_sys sim_Pinf).
  { repeat split; auto; [|simpl; lra]. intros [x y]. unfold quad, vdot, mv, sim_Pinf. simpl. fold t. apply psd_2x2; nra. }
  assert (EP : Ppred sim_sys sim_Pinf = M2 (m00 sim_Pinf + 2 * m01 sim_Pinf + m11 sim_Pinf + 1/100)
     (m01 sim_Pinf + m11 sim_Pinf + 2/100) (m01 sim_Pinf + m11 sim_Pinf + 2/100) (m11 sim_Pinf + 4/100)).
  { unfold Ppred, sim_sys, sim_Q, sim_Pinf. apply mat2_eq; simpl; fold t; field. }
  assert (EK : kgain sim_sys (Ppred sim_sys sim_Pinf) = sim_Kinf).
  { unfold kgain. rewrite EP. unfold Sinn, quad, vdot, mv, sim_sys, sim_Pinf. simpl. fold t.
    destruct (Req_EM_T _ 0) as [Z|Z]; [exfalso; lra|].
    unfold Kopt, Sinn, quad, vdot, mv, vscale, sim_Kinf. cbn [sH sR v0 v1 m00 m01 m10 m11]. fold t.
    apply vec2_eq; cbn [v0 v1]; fold t.
    - apply (Rmult_eq_reg_l ((201 * t - 401) / 200 + 2 * ((201 - t) / 100) + (t - 1) / 50 + 1 / 100 + 100)); [|lra].
      rewrite <- Rmult_assoc. field_simplify_eq; [|lra]. nra.
    - apply (Rmult_eq_reg_l ((201 * t - 401) / 200 + 2 * ((201 - t) / 100) + (t - 1) / 50 + 1 / 100 + 100)); [|lra].
      rewrite <- Rmult_assoc. field_simplify_eq; [|lra]. nra. }
  assert (FI : pstep sim_sys sim_Pinf = sim_Pinf).
  { unfold pstep. rewrite EK, EP. unfold Pcorr, sim_sys, sim_Pinf, sim_Kinf. apply mat2_eq; simpl; fold t; nra. }
  split; [|split].
  - split; [assumption|]. intros e u z e' E H. apply update_reach in H as ->. unfold kstep. cbn [eP eK]. rewrite E, EK.
    split; [|reflexivity]. rewrite <- FI at 2. unfold pstep. now rewrite EK.
  - destruct (steady_tends sim_sys) as (Pi & Ci & Fi & Ti); auto using sim_observable, sim_controllable; [simpl; lra|].
    assert (Pi = sim_Pinf).
    { apply (steady_unique sim_sys); auto using sim_observable, sim_controllable. simpl; lra. }
    subst Pi. now rewrite EK in Ti.
  - unfold sim_Pinf, sim_Kinf; cbn [m00 m11 v0 v1]; fold t. lra.
Qed.
Print Assumptions C144_simulation.

(** The hypotheses: the system of the simulation programs has process noise of rank one, its
    two-step noise reaches every direction; another system has noise in every direction and
    an unstable state. *)
Definition unstable_sys : sys := Sys (M2 2 1 0 3) (V2 0 1) (V2 1 0) mI 1 1.

Example C142_case :
  observable sim_sys /\ covariances_ok sim_sys (M2 1000000 0 0 1000000).
Proof.
  split; [exact sim_observable|]. destruct sim_ok as (_ & _ & a & b & c). repeat split; auto.
  intros [x y]. unfold quad, vdot, mv. simpl.
  pose proof (Rle_0_sqr x) as A. pose proof (Rle_0_sqr y) as B. unfold Rsqr in *. lra.
Qed.

Example C143_case :
  0 < sR unstable_sys /\ sym (sQ unstable_sys) /\ psd (sQ unstable_sys) /\
  observable unstable_sys /\ controllable unstable_sys /\ covariances_ok unstable_sys mI.
Proof.
  assert (S : psd mI).
  { intros [x y]. unfold quad, vdot, mv, mI. simpl.
    pose proof (Rle_0_sqr x) as A. pose proof (Rle_0_sqr y) as B. unfold Rsqr in *. lra. }
  assert (H : controllable unstable_sys).
  { split; [unfold sym, reach2; simpl; lra|]. intros [x y] N.
    unfold quad, reach2, vdot, mv, madd, mmul, mtr, mI. simpl.
    assert (D : x <> 0 \/ y <> 0) by (destruct (Req_EM_T x 0), (Req_EM_T y 0); subst; auto; congruence).
    pose proof (Rle_0_sqr x) as A. pose proof (Rle_0_sqr y) as B.
    pose proof (Rle_0_sqr (2 * x)) as A'. pose proof (Rle_0_sqr (x + 3 * y)) as B'.
    assert (0 < x * x \/ 0 < y * y) by (destruct D as [D|D]; apply Rsqr_pos_lt in D; unfold Rsqr in D; auto).
    unfold Rsqr in *. destruct H; lra. }
  repeat split; try exact S; try apply H; try reflexivity; try (simpl; lra).
  unfold observable, mdet; simpl; lra.
Qed.

Example C144_case :
  0 < sR sim_sys /\ sym (sQ sim_sys) /\ psd (sQ sim_sys) /\ observable sim_sys /\
  controllable sim_sys /\ ~ pd (sQ sim_sys) /\ covariances_ok sim_sys sim_Q.
Proof.
  destruct sim_ok as (a & b & c & d & _).
  repeat split; auto using sim_observable; try apply sim_controllable; try (simpl; lra).
  intros (_ & X). specialize (X (V2 2 (-1))). unfold quad, vdot, mv, sim_sys, sim_Q in X. simpl in X.
  assert (V2 2 (-1) <> V2 0 0) by (intros E; injection E; lra). specialize (X H). lra.
Qed.

(** ** C145: bounded noise, bounded error *)

(** The true state is disturbed and the sensor is wrong by at most [beta] in every step - not
    necessarily at random.  The error of the estimate stays within a multiple [B beta] that
    depends on the system only, up to a term that decays geometrically. *)
Theorem C145_error_bounded :
  forall s : sys,
  0 < sR s -> sym (sQ s) -> psd (sQ s) -> observable s -> controllable s ->
  exists rho B, 0 < rho < 1 /\ 0 < B /\
  forall P : mat2, covariances_ok s P -> exists C, 0 < C /\
  forall (beta : R) (xt x : vec2) (h : list (R * vec2 * R)) e,
  0 <= beta -> noise_within beta h ->
  run R_scalar 1 1 (enc_sys s) (kalman_init R_scalar false 1 (enc2 P) (encv x))
      (enc_hist (observe s xt h)) = Ok (enc_est e) ->
  norm1 (vsub (evolve s xt h) (ex e))
    <= C * rho ^ length h * (norm1 (vsub xt x) + beta) + B * beta.
Proof.
  intros s HR HQ HQp Ho Hc. destruct (errs_bounded s HR HQ HQp Ho Hc) as (r & B & Hr & HB & L).
  exists r, B. split; [assumption|]. split; [assumption|]. intros P CP. destruct (L P CP) as (C & HC & LC).
  exists C. split; [assumption|]. intros b xt x h e Hb HN H.
  rewrite (run_init_reach _ _ _ _ _ H), errs_spec. now apply LC.
Qed.
Print Assumptions C145_error_bounded.

(** An estimator told that there is no process noise (Q = 0) and that its initial state is
    exact (P = 0) lets the error grow without bound under a constant disturbance. *)
Theorem C145_overconfident_diverges :
  let s := Sys (M2 1 1 0 1) (V2 (1/2) 1) (V2 1 0) (M2 0 0 0 0) 100 1 in
  let P := M2 0 0 0 0 in
  observable s /\ covariances_ok s P /\
  forall n u (x : vec2) e,
  let h := repeat (u, V2 1 0, 0) n in
  noise_within 1 h /\
  (run R_scalar 1 1 (enc_sys s) (kalman_init R_scalar false 1 (enc2 P) (encv x))
       (enc_hist (observe s x h)) = Ok (enc_est e) ->
   norm1 (vsub (evolve s x h) (ex e)) = INR n).
Proof.
  intros s P. split; [unfold observable, mdet, s; simpl; lra|]. split.
  { unfold covariances_ok, sym, psd, s, P, quad, vdot, mv. simpl. repeat split; try lra; intros; lra. }
  intros n u x e h. split.
  { intros u' w v I. apply repeat_spec in I. injection I as -> -> ->. unfold norm1. cbn [v0 v1].
    rewrite Rabs_R0, Rabs_R1. lra. }
  intros H. rewrite (run_init_reach _ _ _ _ _ H), errs_spec. cbn [fresh eP ex].
  assert (EP : pstep s P = P).
  { unfold pstep, kgain, Sinn, Ppred, Pcorr, Kopt. destruct (Req_EM_T _ 0); unfold s, P; apply mat2_eq; simpl; ring. }
  assert (EF : fmat s P = M2 1 1 0 1).
  { unfold fmat, kgain, Sinn, Ppred, Kopt. destruct (Req_EM_T _ 0); unfold s, P; apply mat2_eq; simpl; ring. }
  assert (EK : kick s P (V2 1 0) 0 = V2 1 0).
  { unfold kick, kgain, Sinn, Ppred, Kopt. destruct (Req_EM_T _ 0); unfold s, P; apply vec2_eq; simpl; ring. }
  replace (vsub x x) with (V2 0 0) by (apply vec2_eq; simpl; ring).
  assert (X : forall m d, errs s P (V2 d 0) (repeat (u, V2 1 0, 0) m) = V2 (d + INR m) 0).
  { induction m as [|m IH]; intros d; cbn [repeat errs]; [simpl; f_equal; ring|].
    rewrite EP, EF, EK. replace (vadd (mv (M2 1 1 0 1) (V2 d 0)) (V2 1 0)) with (V2 (d + 1) 0) by (apply vec2_eq; simpl; ring).
    rewrite IH, S_INR. f_equal. ring. }
  unfold h. rewrite X. unfold norm1. cbn [v0 v1]. rewrite Rabs_R0, Rplus_0_l, Rabs_pos_eq; [ring|apply pos_INR].
Qed.
Print Assumptions C145_overconfident_diverges.

Example C145_case :
  noise_within (1/10) [(1, V2 (1/20) (1/20), - (1/10)); (1, V2 0 (-1/10), 0)] /\
  evolve sim_sys (V2 0 0) [(1, V2 (1/20) (1/20), - (1/10)); (1, V2 0 (-1/10), 0)] = V2 (21/10) (39/20).
Proof.
  split.
  - intros u w v [E|[E|[]]]; injection E as <- <- <-; unfold norm1; cbn [v0 v1]; split;
      unfold Rabs; repeat destruct (Rcase_abs _); lra.
  - unfold evolve, true_next, sim_sys. apply vec2_eq; simpl; lra.
Qed.
