(** * What the Kalman estimator's covariance means (include/dsp/kalman.hpp)

    C108 - C110 of properties.jsonl: in a world with random noise, as described by
    StochasticSpec.v, the library's error covariance is the covariance of the actual
    error, its estimate is the best linear one, and its innovations are uncorrelated. *)

From Coq Require Import Reals List Lra Lia Psatz ZArith.
From Verif Require Import Base Matrix Scalars Kalman KalmanSpec KalmanProofs PropsKalman
  StochasticSpec StochasticProofs.
Import ListNotations.
Local Open Scope R_scope.

(** A world for the examples: five fair coins; the system of the simulation program, two
    steps.  The initial error and the accelerations are +-1, the measurement errors
    +-10. *)
Definition coins := (bool * bool * bool * bool * bool)%type.
Definition flip (f : bool -> R) : R := (f true + f false) / 2.
Definition fair (f : coins -> R) : R :=
  flip (fun a => flip (fun b => flip (fun c => flip (fun d => flip (fun e => f (a, b, c, d, e)))))).
Definition sg (b : bool) : R := if b then 1 else -1.
Definition ex_x0 (o : coins) : vec2 := let '(a, _, _, _, _) := o in V2 (sg a / 2) (sg a).
Definition ex_w (i : nat) (o : coins) : vec2 :=
  let '(_, b, c, _, _) := o in let k := match i with O => sg b | _ => sg c end in V2 (k / 2) k.
Definition ex_v (i : nat) (o : coins) : R :=
  let '(_, _, _, d, e) := o in 10 * match i with O => sg d | _ => sg e end.

Lemma fair_expectation : expectation fair.
Proof.
  assert (X : forall f g : bool -> R, (forall b, 0 <= f b) -> 0 <= flip f).
  { intros f _ H. unfold flip. pose proof (H true). pose proof (H false). lra. }
  constructor; unfold fair.
  - intros f g H. unfold flip. rewrite !H. reflexivity.
  - intros f g. unfold flip. lra.
  - intros c f. unfold flip. lra.
  - intros f H. apply X; [exact (fun _ => 0)|intros a].
    apply X; [exact (fun _ => 0)|intros b]. apply X; [exact (fun _ => 0)|intros c].
    apply X; [exact (fun _ => 0)|intros d]. apply X; [exact (fun _ => 0)|intros e]. apply H.
  - unfold flip. lra.
Qed.

Lemma fair_noise : noise_model fair ex_sys ex_P (V2 0 0) 2 ex_x0 ex_w ex_v.
Proof.
  constructor; intros; repeat match goal with
    | H : (?i < 2)%nat |- _ => destruct i as [|[|]]; [| |exfalso; lia]; clear H
    end; try congruence;
    unfold mean, moment, moment1, fair, flip, sg, ex_x0, ex_w, ex_v, vsub, ex_P, ex_sys,
      vzero, mzero; simpl; try (apply mat2_eq; simpl); try (apply vec2_eq; simpl); lra.
Qed.

(** ** C108: the covariance is the covariance of the error *)

Theorem C108_error_covariance :
  forall (Om : Type) (E : (Om -> R) -> R) (s : sys) (P : mat2) (xh : vec2) (n : nat)
         (x0 : Om -> vec2) (w : nat -> Om -> vec2) (v : nat -> Om -> R) (u : nat -> R)
         (e : Om -> est),
  expectation E ->
  noise_model E s P xh n x0 w v ->
  (forall o, run R_scalar 1 1 (enc_sys s) (kalman_init R_scalar false 1 (enc2 P) (encv xh))
               (enc_hist (observe s (x0 o) (world u w v n o))) = Ok (enc_est (e o))) ->
  let err o := vsub (evolve s (x0 o) (world u w v n o)) (ex (e o)) in
  mean E err = vzero /\ forall o, moment E err err = eP (e o).
Proof.
  intros Om E s P xh n x0 w v u e HE HN HR err.
  assert (X : forall o, e o = krun s (fresh P xh) (observe s (x0 o) (world u w v n o)))
    by (intros o; exact (run_init_reach _ _ _ _ _ (HR o))).
  pose proof (err_mean HE s P xh n x0 w v u HN n (le_n n)) as M.
  pose proof (err_cov HE s P xh n x0 w v u HN n (le_n n)) as C.
  unfold err. split.
  - rewrite <- M. unfold mean. f_equal; apply (E_ext E HE); intros o; now rewrite X.
  - intros o. rewrite X, krun_pseq, observe_length, world_length.
    cbn [fresh eP]. rewrite <- C.
    apply (moment_ext HE); intros o'; now rewrite X.
Qed.
Print Assumptions C108_error_covariance.

(** The coins satisfy the hypotheses, and the final covariance is not the initial one. *)
Example C108_case :
  expectation fair /\ noise_model fair ex_sys ex_P (V2 0 0) 2 ex_x0 ex_w ex_v /\
  ex_x0 (true, false, true, true, false) = V2 (1/2) 1 /\
  m00 (pseq ex_sys ex_P 1) <> m00 ex_P.
Proof.
  split; [exact fair_expectation|]. split; [exact fair_noise|]. split; [reflexivity|].
  cbn [pseq]. unfold pstep, kgain.
  destruct (Req_EM_T _ 0) as [Z|Z]; revert Z;
    unfold Pcorr, Kopt, Sinn, Ppred, quad, vdot, mv, ex_sys, ex_P; simpl; intros; lra.
Qed.

(** ** C109: the estimate is the best linear one *)

(** No estimator that adds an offset [d] to a weighted sum of all the measurements has a
    smaller error in any direction; the weights [L] may be chosen with full knowledge of
    the system and of the noise statistics. *)
Theorem C109_best_linear_estimate :
  forall (Om : Type) (E : (Om -> R) -> R) (s : sys) (P : mat2) (xh : vec2) (n : nat)
         (x0 : Om -> vec2) (w : nat -> Om -> vec2) (v : nat -> Om -> R) (u : nat -> R)
         (e : Om -> est) (d : vec2) (L : nat -> vec2),
  expectation E ->
  noise_model E s P xh n x0 w v ->
  (forall o, run R_scalar 1 1 (enc_sys s) (kalman_init R_scalar false 1 (enc2 P) (encv xh))
               (enc_hist (observe s (x0 o) (world u w v n o))) = Ok (enc_est (e o))) ->
  let true_state o := evolve s (x0 o) (world u w v n o) in
  let err o := vsub (true_state o) (ex (e o)) in
  let other o := vsub (true_state o)
                   (vadd d (weighted L (measurement s (x0 o) (world u w v n o)) n)) in
  loewner_le (moment E err err) (moment E other other) /\
  mtrace (moment E err err) <= mtrace (moment E other other).
Proof.
  intros Om E s P xh n x0 w v u e d L HE HN HR ts err other.
  assert (X : forall o, e o = krun s (fresh P xh) (observe s (x0 o) (world u w v n o)))
    by (intros o; exact (run_init_reach _ _ _ _ _ (HR o))).
  assert (C : moment E err err = pseq s P n).
  { rewrite <- (err_cov HE s P xh n x0 w v u HN n (le_n n)).
    apply (moment_ext HE); intros o; unfold err, ts; now rewrite X. }
  assert (LE : loewner_le (moment E err err) (moment E other other)).
  { rewrite C.
    pose proof (vpast_weighted s x0 w v u n L) as [W0 W1].
    set (zz := fun k o => vdot (sH s) (evolve s (x0 o) (world u w v (S k) o)) + v k o) in *.
    set (g := fun o => vadd d (weighted L (fun i => zz i o) n)).
    assert (G : vpast s x0 w v u n g).
    { split; apply past_add; try apply past_const; assumption. }
    pose proof (err_best HE s P xh n x0 w v u HN n g (le_n n) G) as B.
    intros x. rewrite (moment_ext HE other (fun o => vsub (ts o) (g o))
                         other (fun o => vsub (ts o) (g o))); [apply B| |];
      (intros o; unfold other, g; do 2 f_equal; apply weighted_ext; intros i Li;
       exact (measurement_zz s x0 w v u n o i Li)). }
  split; [exact LE|].
  pose proof (LE (V2 1 0)) as X1. pose proof (LE (V2 0 1)) as X2.
  unfold quad, vdot, mv, mtrace in *. cbn [v0 v1] in *. lra.
Qed.
Print Assumptions C109_best_linear_estimate.

(** In the coin world a competitor that takes the last measurement for the position and
    does not estimate the velocity is strictly worse. *)
Example C109_case :
  let other o := vsub (evolve ex_sys (ex_x0 o) (world (fun _ => 0) ex_w ex_v 2 o))
     (vadd (V2 0 0) (weighted (fun i => match i with O => V2 0 0 | _ => V2 1 0 end)
        (measurement ex_sys (ex_x0 o) (world (fun _ => 0) ex_w ex_v 2 o)) 2)) in
  m00 (moment fair other other) = 100 /\ m00 (pseq ex_sys ex_P 2) < 10.
Proof.
  split.
  - unfold moment, fair, flip, sg, measurement, world, ex_x0, ex_w, ex_v, vsub, vadd, ex_P, ex_sys,
      weighted, vscale; simpl. unfold vdot, true_next, mv, vadd, vscale; simpl. lra.
  - destruct (pseq_ok ex_sys ex_P 1 ex_ok) as (_ & p & _).
    cbn [pseq] in *. set (P1 := pstep ex_sys ex_P) in *.
    assert (B : loewner_le (pstep ex_sys P1) (Ppred ex_sys P1)).
    { destruct (covariances_ok_pred ex_sys P1) as (a & b & _ & _ & c).
      { exact (pseq_ok ex_sys ex_P 1 ex_ok). }
      unfold pstep. rewrite <- (joseph_zero ex_sys (Ppred ex_sys P1)) at 3.
      apply loewner_joseph; auto using kgain_normal, Sinn_nonneg. }
    pose proof (B (V2 1 0)) as B0.
    assert (B1 : m00 P1 + m01 P1 + m10 P1 + m11 P1 <= 9).
    { assert (BB : loewner_le P1 (Ppred ex_sys ex_P)).
      { destruct (covariances_ok_pred ex_sys ex_P ex_ok) as (a & b & _ & _ & c).
        unfold P1, pstep. rewrite <- (joseph_zero ex_sys (Ppred ex_sys ex_P)) at 3.
        apply loewner_joseph; auto using kgain_normal, Sinn_nonneg. }
      pose proof (BB (V2 1 1)) as BB1. clearbody P1. clear - BB1.
      unfold Ppred, quad, vdot, mv, ex_sys, ex_P in *; simpl in *. lra. }
    clearbody P1. clear - B0 B1.
    set (P2 := pstep _ _) in *. clearbody P2. unfold Ppred, quad, vdot, mv, ex_sys in *; simpl in *. lra.
Qed.

(** ** C110: the innovations are uncorrelated *)

(** [e i] is the estimator after [i] updates; the innovation at step [i] is what the next
    measurement adds to its prediction. *)
Theorem C110_innovations_white :
  forall (Om : Type) (E : (Om -> R) -> R) (s : sys) (P : mat2) (xh : vec2) (n : nat)
         (x0 : Om -> vec2) (w : nat -> Om -> vec2) (v : nat -> Om -> R) (u : nat -> R)
         (e : nat -> Om -> est),
  expectation E ->
  noise_model E s P xh n x0 w v ->
  (forall i o, (i <= n)%nat ->
     run R_scalar 1 1 (enc_sys s) (kalman_init R_scalar false 1 (enc2 P) (encv xh))
         (enc_hist (observe s (x0 o) (world u w v i o))) = Ok (enc_est (e i o))) ->
  let y i o := measurement s (x0 o) (world u w v n o) i
               - vdot (sH s) (xpred s (ex (e i o)) (u i)) in
  forall i j, (i < n)%nat -> (j < n)%nat ->
  E (y i) = 0 /\
  (i <> j -> E (fun o => y i o * y j o) = 0) /\
  (forall o, E (fun o => y i o * y i o) = Sinn s (Ppred s (eP (e i o)))).
Proof.
  intros Om E s P xh n x0 w v u e HE HN HR y i j Li Lj.
  assert (X : forall i o, (i <= n)%nat ->
    e i o = krun s (fresh P xh) (observe s (x0 o) (world u w v i o)))
    by (intros k o Lk; exact (run_init_reach _ _ _ _ _ (HR k o Lk))).
  set (inn := fun k o => vdot (sH s)
     (vadd (mv (sA s) (vsub (evolve s (x0 o) (world u w v k o))
       (ex (krun s (fresh P xh) (observe s (x0 o) (world u w v k o)))))) (w k o)) + v k o).
  assert (Y : forall k o, (k < n)%nat -> y k o = inn k o).
  { intros k o Lk. unfold y, inn. rewrite (inn_eq s P xh x0 w v u k o), (X k o) by lia.
    now rewrite (measurement_zz s x0 w v u n o k Lk). }
  split; [|split].
  - rewrite <- (inn_mean HE s P xh n x0 w v u HN i Li). apply (E_ext E HE). intros; now apply Y.
  - intros D. destruct (Nat.lt_total i j) as [L|[L|L]]; [|contradiction|].
    + rewrite <- (inn_white HE s P xh n x0 w v u HN i j L Lj).
      apply (E_ext E HE). intros o. rewrite !Y by assumption. apply Rmult_comm.
    + rewrite <- (inn_white HE s P xh n x0 w v u HN j i L Li).
      apply (E_ext E HE). intros o. rewrite !Y by assumption. reflexivity.
  - intros o. rewrite X, krun_pseq, observe_length, world_length by lia. cbn [fresh eP].
    rewrite <- (inn_inn HE s P xh n x0 w v u HN i Li).
    + apply (E_ext E HE). intros o'. rewrite !Y by assumption. reflexivity.
    + apply Iv_all; try assumption. lia.
Qed.
Print Assumptions C110_innovations_white.

Example C110_case :
  noise_model fair ex_sys ex_P (V2 0 0) 2 ex_x0 ex_w ex_v /\
  Sinn ex_sys (Ppred ex_sys ex_P) <> 0 /\
  measurement ex_sys (V2 1 1) (world (fun _ => 0) ex_w ex_v 2 (true, true, false, true, false)) 1
  <> measurement ex_sys (V2 1 1) (world (fun _ => 0) ex_w ex_v 2 (true, true, false, true, true)) 1.
Proof.
  split; [exact fair_noise|]. split.
  - unfold Sinn, Ppred, quad, vdot, mv, ex_sys, ex_P; simpl. lra.
  - unfold measurement, world, ex_w, ex_v, sg; simpl. lra.
Qed.
