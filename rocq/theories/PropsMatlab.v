(** * The C++ estimator and simulation against the MATLAB programs

    C147 and C148 of properties.jsonl: example/matlab/kalman.m and kalman-sim.m. *)

From Coq Require Import Reals List Lra Lia ZArith.
From Verif Require Import Base Matrix Scalars Kalman KalmanSpec KalmanProofs PropsKalman
  PropsRiccati KalmanSim PropsKalmanSim Output Matlab.
Import ListNotations.
Local Open Scope R_scope.

(** How 2x2 matrices, columns, rows and numbers are written in MATLAB. *)
Definition m_of (a : mat2) : mat := [[m00 a; m01 a]; [m10 a; m11 a]].
Definition col (v : vec2) : mat := [[v0 v]; [v1 v]].
Definition row (v : vec2) : mat := [[v0 v; v1 v]].
Definition num (r : R) : mat := [[r]].

(** ** C147: one step *)

Ltac mcomp := cbv -[Rplus Rminus Rmult Rdiv Ropp Rinv Req_EM_T IZR].
Ltac mentries :=
  repeat match goal with
  | |- Ok _ = Ok _ => f_equal
  | |- (_, _) = (_, _) => apply f_equal2
  | |- _ :: _ = _ :: _ => apply f_equal2
  | |- ?a = ?a => reflexivity
  end.

Lemma line31 s x u :
  mtimes (m_of (sA s)) (col x) = Ok (col (mv (sA s) x)) /\
  mtimes (col (sB s)) (num u) = Ok (col (vscale u (sB s))).
Proof. split; mcomp; mentries; ring. Qed.

Lemma plus_col x y : plus (col x) (col y) = Ok (col (vadd x y)).
Proof. mcomp. reflexivity. Qed.
Lemma mtimes_m a b : mtimes (m_of a) (m_of b) = Ok (m_of (mmul a b)).
Proof. mcomp. mentries; ring. Qed.
Lemma transpose_m a : transpose (m_of a) = m_of (mtr a).
Proof. reflexivity. Qed.
Lemma transpose_row h : transpose (row h) = col h.
Proof. reflexivity. Qed.
Lemma plus_m a b : plus (m_of a) (m_of b) = Ok (m_of (madd a b)).
Proof. reflexivity. Qed.
Lemma minus_m a b : minus (m_of a) (m_of b) = Ok (m_of (msub a b)).
Proof. reflexivity. Qed.
Lemma mtimes_mc a x : mtimes (m_of a) (col x) = Ok (col (mv a x)).
Proof. mcomp. mentries; ring. Qed.
Lemma mtimes_rm h a : mtimes (row h) (m_of a) = Ok (row (mv (mtr a) h)).
Proof. mcomp. mentries; ring. Qed.
Lemma mtimes_rc h x : mtimes (row h) (col x) = Ok (num (vdot h x)).
Proof. mcomp. mentries; ring. Qed.
Lemma mtimes_cr x h : mtimes (col x) (row h) = Ok (m_of (vouter x h)).
Proof. mcomp. mentries; ring. Qed.
Lemma mtimes_cn x r : mtimes (col x) (num r) = Ok (col (vscale r x)).
Proof. mcomp. mentries; ring. Qed.
Lemma plus_n a b : plus (num a) (num b) = Ok (num (a + b)).
Proof. reflexivity. Qed.
Lemma minus_n a b : minus (num a) (num b) = Ok (num (a - b)).
Proof. reflexivity. Qed.
Lemma minus_col x y : minus (col x) (col y) = Ok (col (vsub x y)).
Proof. reflexivity. Qed.
Lemma eye_2 x : eye (length_of (col x)) = m_of mI.
Proof. reflexivity. Qed.
Lemma inv_m a : mdet a <> 0 -> inv (m_of a) = Ok (m_of (minv a)).
Proof.
  intros N. unfold inv, m_of. fold (mdet a). cbv zeta. destruct (Req_EM_T _ 0) as [E|_]; [contradiction|reflexivity].
Qed.

Lemma quad_tr P h : vdot (mv (mtr P) h) h = quad P h.
Proof. destruct P, h. unfold vdot, quad, mv; simpl. unfold vdot; simpl. ring. Qed.

Lemma kalman_m_1 s P x u z :
  kalman_m (num u) (num z) (m_of (sA s)) (col (sB s)) (row (sH s)) (m_of (sQ s)) (num (sR s)) (m_of P) (col x)
  = let Pm := Ppred s P in
    if Req_EM_T (Sinn s Pm) 0 then Err DivByZero
    else Ok (col (Kopt s Pm), col (xcorr s (Kopt s Pm) (xpred s x u) z), m_of (Pcorr s (Kopt s Pm) Pm)).
Proof.
  unfold kalman_m.
  rewrite mtimes_mc, bind_Ok, mtimes_cn, bind_Ok, plus_col, bind_Ok, mtimes_m, bind_Ok, transpose_m,
    mtimes_m, bind_Ok, plus_m, bind_Ok.
  fold (Ppred s P). fold (xpred s x u). set (Pm := Ppred s P). set (xm := xpred s x u).
  rewrite transpose_row, mtimes_mc, bind_Ok, mtimes_rm, bind_Ok, mtimes_rc, bind_Ok, plus_n, bind_Ok.
  rewrite quad_tr. fold (Sinn s Pm). cbv zeta.
  unfold inv, num at 1. destruct (Req_EM_T (Sinn s Pm) 0) as [E|N]; [reflexivity|].
  rewrite bind_Ok. fold (num (/ Sinn s Pm)).
  rewrite mtimes_cn, bind_Ok. fold (Kopt s Pm).
  rewrite mtimes_rc, bind_Ok, minus_n, bind_Ok, mtimes_cn, bind_Ok, plus_col, bind_Ok.
  fold (xcorr s (Kopt s Pm) xm z).
  rewrite mtimes_cr, bind_Ok, eye_2, minus_m, bind_Ok, mtimes_m, bind_Ok. reflexivity.
Qed.

(** Where the innovation variance is not zero, the C++ estimator and the MATLAB function
    give the same gain, the same estimate and the same error covariance. *)
Theorem C147_same_step :
  forall (s : sys) (e : est) (u z : R), Sinn s (Ppred s (eP e)) <> 0 ->
  exists K x P,
    kalman_m (num u) (num z) (m_of (sA s)) (col (sB s)) (row (sH s)) (m_of (sQ s)) (num (sR s))
      (m_of (eP e)) (col (ex e)) = Ok (col K, col x, m_of P) /\
    update R_scalar 1 1 (enc_sys s) (enc_est e) (enc1 u) (enc1 z)
      = Ok (enc_est (Est (Some K) P x (et e + sdt s))).
Proof.
  intros s e u z N. eexists _, _, _. split.
  - rewrite kalman_m_1. cbv zeta. destruct (Req_EM_T _ 0) as [E|_]; [contradiction|reflexivity].
  - rewrite update_enc. unfold kstep, kgain. cbv zeta.
    destruct (Req_EM_T _ 0) as [E|_]; [contradiction|reflexivity].
Qed.
Print Assumptions C147_same_step.

(** Where it is zero they part: the MATLAB function inverts zero and has no finite result, the
    C++ estimator keeps its prediction. *)
Theorem C147_zero_innovation :
  forall (s : sys) (e : est) (u z : R), Sinn s (Ppred s (eP e)) = 0 ->
  kalman_m (num u) (num z) (m_of (sA s)) (col (sB s)) (row (sH s)) (m_of (sQ s)) (num (sR s))
    (m_of (eP e)) (col (ex e)) = Err DivByZero /\
  update R_scalar 1 1 (enc_sys s) (enc_est e) (enc1 u) (enc1 z)
    = Ok (enc_est (Est (Some (V2 0 0)) (Ppred s (eP e)) (xpred s (ex e) u) (et e + sdt s))).
Proof.
  intros s e u z E. split.
  - rewrite kalman_m_1. cbv zeta. destruct (Req_EM_T _ 0) as [_|N]; [reflexivity|contradiction].
  - rewrite update_enc. unfold kstep, kgain. cbv zeta.
    destruct (Req_EM_T _ 0) as [_|N]; [|contradiction]. do 3 f_equal.
    + generalize (Ppred s (eP e)). intros [p q r t]. unfold Pcorr. destruct (sH s).
      apply mat2_eq; simpl; ring.
    + generalize (xpred s (ex e) u). intros [p q]. unfold xcorr. apply vec2_eq; simpl; ring.
Qed.
Print Assumptions C147_zero_innovation.

Lemma kalman_m_2 s P x t u z : mdet (Sinn2 s (Ppred2 s P)) <> 0 ->
  let r := step2_with (minv (Sinn2 s (Ppred2 s P))) s P x t u z in
  kalman_m (num u) (col z) (m_of (tA s)) (col (tB s)) (m_of (tH s)) (m_of (tQ s)) (m_of (tR s)) (m_of P) (col x)
  = Ok (m_of (fK r), col (fx r), m_of (fP r)).
Proof.
  intros N r. unfold kalman_m.
  rewrite mtimes_mc, bind_Ok, mtimes_cn, bind_Ok, plus_col, bind_Ok, mtimes_m, bind_Ok, transpose_m,
    mtimes_m, bind_Ok, plus_m, bind_Ok.
  fold (Ppred2 s P). rewrite transpose_m, mtimes_m, bind_Ok, mtimes_m, bind_Ok, mtimes_m, bind_Ok, plus_m, bind_Ok.
  fold (Sinn2 s (Ppred2 s P)). rewrite inv_m by assumption. rewrite bind_Ok, mtimes_m, bind_Ok.
  rewrite mtimes_mc, bind_Ok, minus_col, bind_Ok, mtimes_mc, bind_Ok, plus_col, bind_Ok.
  rewrite mtimes_m, bind_Ok, eye_2, minus_m, bind_Ok, mtimes_m, bind_Ok. reflexivity.
Qed.

(** The same for two measurements, for symmetric covariances. *)
Theorem C147_two_measurements :
  forall (s : sys2) (e : est2) (u : R) (z : vec2),
  sym (fP e) -> sym (tQ s) -> sym (tR s) -> mdet (Sinn2 s (Ppred2 s (fP e))) <> 0 ->
  exists K x P,
    kalman_m (num u) (col z) (m_of (tA s)) (col (tB s)) (m_of (tH s)) (m_of (tQ s)) (m_of (tR s))
      (m_of (fP e)) (col (fx e)) = Ok (m_of K, col x, m_of P) /\
    update R_scalar 2 1 (enc_sys2 s) (enc_est2 e) (enc1 u) (encv z)
      = Ok (enc_est2 (Est2 K P x (ft e + tdt s))).
Proof.
  intros s e u z HP HQ HR N.
  eexists _, _, _. split; [apply (kalman_m_2 s (fP e) (fx e) (ft e) u z N)|].
  rewrite (proj2 (C26_two_measurements s e u z HP HQ HR N)). reflexivity.
Qed.
Print Assumptions C147_two_measurements.

(** Without symmetric [R] they differ. *)
Theorem C147_needs_symmetric_R_refuted :
  ~ (forall (s : sys2) (e : est2) (u : R) (z : vec2),
     sym (fP e) -> sym (tQ s) -> mdet (Sinn2 s (Ppred2 s (fP e))) <> 0 ->
     exists K x P,
       kalman_m (num u) (col z) (m_of (tA s)) (col (tB s)) (m_of (tH s)) (m_of (tQ s)) (m_of (tR s))
         (m_of (fP e)) (col (fx e)) = Ok (m_of K, col x, m_of P) /\
       update R_scalar 2 1 (enc_sys2 s) (enc_est2 e) (enc1 u) (encv z)
         = Ok (enc_est2 (Est2 K P x (ft e + tdt s)))).
Proof.
  intros X. apply C26_needs_symmetric_R_refuted. intros s e u z HP HQ Sm N.
  destruct (X s e u z HP HQ N) as (K & x & P & EM & ->).
  rewrite (kalman_m_2 s (fP e) (fx e) (ft e) u z N) in EM. apply Ok_inj in EM.
  fold Sm in EM. set (r := step2_with (minv Sm) s (fP e) (fx e) (ft e) u z) in *.
  assert (ft r = ft e + tdt s) by reflexivity. clearbody r. destruct r as [k p q t].
  cbn [fK fx fP ft] in *. subst t. destruct k, q, p, K, x, P. unfold m_of, col in EM. simpl in EM.
  injection EM as -> -> -> -> -> -> -> -> -> ->. reflexivity.
Qed.
Print Assumptions C147_needs_symmetric_R_refuted.

Example C147_case :
  kalman_m (num 0) (num 4) (m_of (M2 1 1 0 1)) (col (V2 0 0)) (row (V2 1 0)) (m_of (M2 0 0 0 0)) (num 2)
    (m_of mI) (col (V2 0 0)) = Ok (col (V2 (1/2) (1/4)), col (V2 2 1), m_of (M2 1 (1/2) (1/2) (3/4))).
Proof.
  pose proof (kalman_m_1 (Sys (M2 1 1 0 1) (V2 0 0) (V2 1 0) (M2 0 0 0 0) 2 1) mI (V2 0 0) 0 4) as X.
  cbn [sA sB sH sQ sR] in X. rewrite X. clear X. cbv zeta.
  assert (E : Sinn (Sys (M2 1 1 0 1) (V2 0 0) (V2 1 0) (M2 0 0 0 0) 2 1)
                (Ppred (Sys (M2 1 1 0 1) (V2 0 0) (V2 1 0) (M2 0 0 0 0) 2 1) mI) = 4)
    by (unfold Sinn, Ppred, quad, vdot, mv; simpl; lra).
  unfold Kopt. rewrite E. destruct (Req_EM_T 4 0); [lra|].
  unfold m_of, col, xcorr, xpred, Pcorr, Ppred, vdot; simpl. mentries; lra.
Qed.

(** ** C148: the simulation *)

Lemma process_noise_R g1 g2 :
  process_noise double_numeric (kdt (enc_sys sim_sys)) (1/5) g1 g2
  = Ok (encv (V2 (2/10 * (1 * 1 / 2 * g1)) (2/10 * (1 * g2)))).
Proof.
  kcomp. destruct (Req_EM_T 2 0); [lra|]. kentries; field.
Qed.

(** One pass of each loop, from the same states. *)
Definition world (x : vec2) (g1 g2 : R) : vec2 :=
  vadd (vadd (mv (sA sim_sys) x) (vscale 1 (sB sim_sys))) (V2 (2/10 * (1 * 1 / 2 * g1)) (2/10 * (1 * g2))).

Lemma sim_step_noise x e g1 g2 g :
  let x' := world x g1 g2 in
  let z := v0 x' + 10 * g in
  sim_step double_numeric (enc_sys sim_sys) (encv x) (enc_est e)
    (Some (encv (V2 (2/10 * (1 * 1 / 2 * g1)) (2/10 * (1 * g2))), 10 * g))
  = Ok (encv x', enc1 z, enc_est (kstep sim_sys e 1 z)).
Proof.
  intros x' z. unfold sim_step. cbn [nt_int nt_sc double_numeric]. rewrite bind_Ok.
  change (mat_il R_scalar 1 1 [IZR 1]) with (Ok (enc1 1)). rewrite bind_Ok.
  assert (X1 : exists Ax Bu y,
    mul_mv R_scalar 2 2 (kA (enc_sys sim_sys)) (encv x) = Ok Ax /\
    mul_Bu R_scalar 1 (kB (enc_sys sim_sys)) (enc1 1) = Ok Bu /\
    add_mm R_scalar 2 1 Ax Bu = Ok y /\
    add_mm R_scalar 2 1 y (encv (V2 (2/10 * (1 * 1 / 2 * g1)) (2/10 * (1 * g2)))) = Ok (encv x')).
  { eexists _, _, _. split; [kcomp; reflexivity|]. split; [kcomp; reflexivity|]. split; [kcomp; reflexivity|].
    subst x' z. destruct x. kcomp. kentries; lra. }
  destruct X1 as (Ax & Bu & y & EA & EB & EY & EX).
  rewrite EA, bind_Ok, EB, bind_Ok, EY, bind_Ok, EX, bind_Ok.
  assert (EH : dot R_scalar 2 (kH (enc_sys sim_sys)) (encv x') = Ok (v0 x'))
    by (clearbody x'; destruct x' as [p q]; kcomp; f_equal; ring).
  rewrite EH, !bind_Ok. change (sc_add R_scalar (v0 x') (10 * g)) with (Ok z). rewrite bind_Ok.
  change (mat_fill R_scalar 1 1 z) with (Ok (enc1 z)). rewrite bind_Ok, update_enc. reflexivity.
Qed.

Lemma sim_sys_innovation e : cov_inv sim_sys e -> Sinn sim_sys (Ppred sim_sys (eP e)) <> 0.
Proof.
  intros H. apply covariances_ok_pred in H as (_ & Hp & _).
  unfold Sinn. specialize (Hp (sH sim_sys)). change (sR sim_sys) with 100. lra.
Qed.

Lemma index_col v : index (col v) 1 = Ok (v0 v) /\ index (col v) 2 = Ok (v1 v).
Proof. split; reflexivity. Qed.

Lemma sim_m_pass t ts x e g1 g2 g draws : cov_inv sim_sys e ->
  let x' := world x g1 g2 in
  let z := v0 x' + 10 * g in
  let e' := kstep sim_sys e 1 z in
  exists k, eK e' = Some k /\
  sim_m_loop (t :: ts) 1 (2/10) 10 (m_of (sA sim_sys)) (col (sB sim_sys)) (row (sH sim_sys))
    (m_of (sQ sim_sys)) (num (sR sim_sys)) (m_of (eP e)) (col x) (col (ex e)) ((g1, g2, g) :: draws)
  = (l <- sim_m_loop ts 1 (2/10) 10 (m_of (sA sim_sys)) (col (sB sim_sys)) (row (sH sim_sys))
            (m_of (sQ sim_sys)) (num (sR sim_sys)) (m_of (eP e')) (col x') (col (ex e')) draws ;;
     Ok (option_map (cons (z, {| p_pos := v0 x'; p_poshat := v0 (ex e'); p_posgain := v0 k; p_posecov := m00 (eP e');
           p_vel := v1 x'; p_velhat := v1 (ex e'); p_velgain := v1 k; p_velecov := m10 (eP e') |})) l)).
Proof.
  intros HC x' z e'. pose proof (sim_sys_innovation e HC) as N.
  assert (EK : kgain sim_sys (Ppred sim_sys (eP e)) = Kopt sim_sys (Ppred sim_sys (eP e)))
    by (unfold kgain; destruct (Req_EM_T _ 0); [contradiction|reflexivity]).
  exists (Kopt sim_sys (Ppred sim_sys (eP e))). split; [unfold e', kstep; cbn [eK]; now rewrite EK|].
  cbn [sim_m_loop]. fold (num 1).
  rewrite mtimes_mc, bind_Ok, mtimes_cn, bind_Ok, plus_col, bind_Ok.
  change (times_number (2/10) [[1 * 1 / 2 * g1]; [1 * g2]])
    with (col (V2 (2/10 * (1 * 1 / 2 * g1)) (2/10 * (1 * g2)))).
  rewrite plus_col, bind_Ok. fold (world x g1 g2). fold x'.
  rewrite mtimes_rc, bind_Ok. fold (num (10 * g)). rewrite plus_n, bind_Ok.
  assert (EZ : vdot (sH sim_sys) x' + 10 * g = z)
    by (unfold z; clearbody x'; destruct x'; unfold vdot; simpl; ring).
  rewrite EZ, kalman_m_1. cbv zeta. destruct (Req_EM_T _ 0) as [E|_]; [contradiction|].
  rewrite bind_Ok. rewrite <- EK.
  change (Pcorr sim_sys (kgain sim_sys (Ppred sim_sys (eP e))) (Ppred sim_sys (eP e))) with (eP e').
  change (xcorr sim_sys (kgain sim_sys (Ppred sim_sys (eP e))) (xpred sim_sys (ex e) 1) z) with (ex e').
  reflexivity.
Qed.

Lemma both n : forall i x e ts draws,
  (0 <= i)%Z -> Z.of_nat n = (50 - i)%Z -> length ts = S n -> (S n <= length draws)%nat -> cov_inv sim_sys e ->
  exists l last, length l = n /\
    sim_m_loop ts 1 (2/10) 10 (m_of (sA sim_sys)) (col (sB sim_sys)) (row (sH sim_sys))
      (m_of (sQ sim_sys)) (num (sR sim_sys)) (m_of (eP e)) (col x) (col (ex e)) draws
      = Ok (Some (l ++ [last])) /\
    sim_plots double_numeric 50 10 (1/5) (enc_sys sim_sys) i (encv x) (enc_est e) draws = Ok (Some l).
Proof.
  induction n as [|n IH]; intros i x e ts draws Hi Hn Ht Hd HC;
    destruct ts as [|t ts]; try discriminate; destruct draws as [|[[g1 g2] g] draws]; cbn [length] in Hd; try lia.
  - destruct ts; [|discriminate].
    destruct (sim_m_pass t [] x e g1 g2 g draws HC) as (k & _ & ->). cbn [sim_m_loop bind option_map].
    eexists [], _. split; [reflexivity|]. split; [reflexivity|].
    cbn [sim_plots nt_int double_numeric nt_sc nt_lt]. rewrite bind_Ok.
    change (sc_mul R_scalar (IZR i) (kdt (enc_sys sim_sys))) with (Ok (IZR i * 1)). rewrite bind_Ok.
    replace i with 50%Z by lia. destruct (Rlt_dec (50 * 1) 50); [lra|reflexivity].
  - destruct (sim_m_pass t ts x e g1 g2 g draws HC) as (k & EK & ->).
    pose proof (kstep_cov sim_sys e 1 (v0 (world x g1 g2) + 10 * g) HC) as HC'.
    assert (HS : sym (eP (kstep sim_sys e 1 (v0 (world x g1 g2) + 10 * g)))) by apply HC'.
    set (x' := world x g1 g2) in *. set (z := v0 x' + 10 * g) in *. set (e' := kstep sim_sys e 1 z) in *.
    destruct (IH (i + 1)%Z x' e' ts draws ltac:(lia) ltac:(lia) ltac:(cbn in Ht; lia) ltac:(lia) HC')
      as (l & last & EL & -> & EP).
    rewrite bind_Ok. cbn [option_map]. rewrite app_comm_cons. eexists _, _. split; [|split; [reflexivity|]].
    { cbn [length]. now rewrite EL. }
    cbn [sim_plots]. cbn [nt_int double_numeric nt_sc nt_lt]. rewrite bind_Ok.
    change (sc_mul R_scalar (IZR i) (kdt (enc_sys sim_sys))) with (Ok (IZR i * 1)). rewrite bind_Ok.
    assert (L : IZR i * 1 < 50) by (rewrite Rmult_1_r; apply IZR_lt; lia).
    destruct (Rlt_dec (IZR i * 1) 50); [|contradiction].
    fold double_numeric. rewrite process_noise_R, bind_Ok.
    change (meas_noise double_numeric 10 g) with (Ok (10 * g)). rewrite bind_Ok, sim_step_noise.
    cbv zeta. fold x'. fold z. fold e'. rewrite bind_Ok. change (at1 1 (enc1 z) 0) with (Ok z).
    rewrite bind_Ok, (C120_plot x' e' k EK), bind_Ok, EP, bind_Ok. unfold sym in HS. rewrite HS. reflexivity.
Qed.

(** With the same draws, the script collects what the C++ program collects and one record
    more: 51 against 50. *)
Theorem C148_same_curves :
  forall draws : list (R * R * R), (51 <= length draws)%nat ->
  exists l last dur prm P x,
    length l = 50%nat /\
    sim_m draws = Ok (Some (l ++ [last])) /\
    sim_setup double_numeric (1/5) = Ok (dur, prm, P, x) /\
    sim_plots double_numeric dur 10 (1/5) prm 0 x (kalman_init R_scalar false 1 P x) draws = Ok (Some l).
Proof.
  intros draws HD.
  destruct (both 50 0 (V2 0 0) (Est None sim_Q (V2 0 0) 0) (colon 0 1 50) draws) as (l & last & EL & EM & EP);
    try lia; [reflexivity| |].
  { unfold cov_inv. cbn [eP]. apply sim_ok. }
  exists l, last. eexists _, _, _, _. split; [exact EL|]. split; [|split; [apply sim_setup_R|rewrite kalman_init_enc; exact EP]].
  rewrite <- EM. unfold sim_m. 
  unfold m_of, col, row, num, sim_sys, sim_Q, mscale, times_number. cbn [map eP ex sA sB sH sQ sR m00 m01 m10 m11 v0 v1].
  replace (1 * 1 / 2) with (1 / 2) by lra.
  replace (10 * 10) with 100 by lra.
  replace (2 / 10 * (2 / 10) * (1 * 1 * 1 * 1 / 4)) with (4 / 100 * (1 / 4)) by lra.
  replace (2 / 10 * (2 / 10) * (1 * 1 * 1 / 2)) with (4 / 100 * (1 / 2)) by lra.
  replace (2 / 10 * (2 / 10) * (1 * 1)) with (4 / 100 * 1) by lra.
  reflexivity.
Qed.
Print Assumptions C148_same_curves.

(** A case: in the first pass the draws 1, -1 and 2 give the measurement 20.6. *)
Example C148_case :
  let draws := repeat (1, -1, 2) 51 in
  (51 <= length draws)%nat /\
  exists r rest, sim_m draws = Ok (Some (r :: rest)) /\ fst r = 206/10 /\ length rest = 50%nat.
Proof.
  intros draws. assert (HD : (51 <= length draws)%nat) by (unfold draws; rewrite repeat_length; lia).
  split; [exact HD|].
  destruct (C148_same_curves draws HD) as (l & last & dur & prm & P & x & EL & EM & ES & EP).
  destruct l as [|r l]; [discriminate|]. exists r, (l ++ [last]). split; [exact EM|]. split.
  - rewrite sim_setup_R in ES. injection ES as <- <- <- <-. clear EM HD. unfold draws in EP. clear draws.
    revert EP. change (repeat (1, -1, 2) 51) with ((1, -1, 2) :: repeat (1, -1, 2) 50).
    generalize (repeat (1, -1, 2) 50). intros draws EP.
    cbn [sim_plots] in EP. cbn [nt_int double_numeric nt_sc nt_lt] in EP. rewrite bind_Ok in EP.
    change (sc_mul R_scalar 0 (kdt (enc_sys sim_sys))) with (Ok (0 * 1)) in EP. rewrite bind_Ok in EP.
    destruct (Rlt_dec (0 * 1) 50); [|lra].
    fold double_numeric in EP. rewrite process_noise_R, bind_Ok in EP.
    change (meas_noise double_numeric 10 2) with (Ok (10 * 2)) in EP.
    rewrite bind_Ok, kalman_init_enc, sim_step_noise in EP.
    cbv zeta in EP. rewrite bind_Ok in EP.
    match type of EP with context [at1 1 (enc1 ?z) 0] => set (zz := z) in * end.
    change (at1 1 (enc1 zz) 0) with (Ok zz) in EP. rewrite bind_Ok in EP.
    destruct (sim_record _ _) as [p|]; [|discriminate]. rewrite bind_Ok in EP.
    destruct (sim_plots _ _ _ _ _ _ _ _ _) as [[q|]|]; try discriminate. rewrite bind_Ok in EP.
    cbn [option_map] in EP. injection EP as <- _. unfold zz, world. cbn. lra.
  - rewrite app_length. cbn [length] in EL |- *. lia.
Qed.

(** The values [t] takes in the script: what MATLAB defines [first : step : last] to be,
    the numbers [first], [first + step], ... not beyond [last], in this order. *)
Theorem C148_colon :
  forall first step last, (0 < step)%Z ->
  (forall t, In t (colon first step last) <->
     (first <= t <= last)%Z /\ ((t - first) mod step = 0)%Z)
  /\ (forall i, (S i < length (colon first step last))%nat ->
       nth (S i) (colon first step last) 0%Z = (nth i (colon first step last) 0 + step)%Z).
Proof.
  intros a s b S. unfold colon. set (n := Z.to_nat ((b - a) / s + 1)).
  assert (N : forall k : nat, (k < n)%nat <-> (a + s * Z.of_nat k <= b)%Z).
  { intros k. unfold n. pose proof (Z.div_mod (b - a) s ltac:(lia)) as D.
    pose proof (Z.mod_pos_bound (b - a) s S) as M. split; intros H.
    - assert (Z.of_nat k <= (b - a) / s)%Z by lia. nia.
    - assert (Z.of_nat k <= (b - a) / s)%Z by (apply Z.div_le_lower_bound; lia). lia. }
  split.
  - intros t. rewrite in_map_iff. split.
    + intros (k & <- & I). apply in_seq in I. assert (B : (k < n)%nat) by lia. apply N in B.
      split; [nia|]. replace (a + s * Z.of_nat k - a)%Z with (Z.of_nat k * s)%Z by ring.
      apply Z.mod_mul. lia.
    + intros ([L U] & M). exists (Z.to_nat ((t - a) / s)).
      pose proof (Z.div_mod (t - a) s ltac:(lia)) as D. rewrite M in D.
      assert (0 <= (t - a) / s)%Z by (apply Z.div_pos; lia).
      rewrite Z2Nat.id by assumption. split; [lia|]. apply in_seq. split; [lia|].
      apply N. rewrite Z2Nat.id by assumption. lia.
  - intros i. rewrite map_length, seq_length. intros H.
    assert (E : forall j, (j < n)%nat ->
      nth j (map (fun k : nat => (a + s * Z.of_nat k)%Z) (seq 0 n)) 0%Z = (a + s * Z.of_nat j)%Z).
    { intros j J. rewrite (nth_indep _ 0%Z (a + s * Z.of_nat 0)%Z)
        by (rewrite map_length, seq_length; exact J).
      rewrite (map_nth (fun k => (a + s * Z.of_nat k)%Z)), seq_nth by exact J. reflexivity. }
    rewrite !E by lia. lia.
Qed.
Print Assumptions C148_colon.

Example C148_colon_case : colon 2 3 10 = [2; 5; 8]%Z.
Proof. reflexivity. Qed.
