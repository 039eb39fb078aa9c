(** * The simulation in [double] against exact arithmetic

    C156 of properties.jsonl: example/desktop/kalman-sim.e.cpp. *)

From Coq Require Import Reals List Arith ZArith Lia Lra.
From Flocq Require Import Core BinarySingleNaN.
From Verif Require Import Base Matrix Scalars Kalman KalmanSpec KalmanProofs PropsRiccati
  KalmanSim PropsKalmanSim Ieee KalmanIeee Output PropsOutputSim PropsMatlab SimRoundingSpec SimRoundingProofs.
Import ListNotations.
Local Open Scope R_scope.

(** C156. With the same random numbers, the program compiled for [double] and the program
    calculating exactly record 50 passes each, everything recorded in [double] is finite,
    and no signal differs by more than 10^-9, no gain by more than 2 10^-16 and no
    covariance by more than 2 10^-14. *)
Theorem C156_double_simulation :
  forall draws : list (double * double * double),
  (50 <= length draws)%nat -> Forall draw_ok draws ->
  exists (ps : list (double * plot double)) (qs : list (R * plot R)) dur prm P x dur' prm' P' x',
    sim_setup DN (literal 2 10) = Ok (dur, prm, P, x) /\
    sim_plots DN dur (dint 10) (literal 2 10) prm 0 x (kalman_init double_scalar false 1 P x) draws = Ok (Some ps) /\
    sim_setup double_numeric (1/5) = Ok (dur', prm', P', x') /\
    sim_plots double_numeric dur' 10 (1/5) prm' 0 x' (kalman_init R_scalar false 1 P' x') (map to_exact draws) = Ok (Some qs) /\
    length ps = 50%nat /\
    Forall2 (records_agree (1 / 10^9) (2 / 10^16) (2 / 10^14)) ps qs.
Proof.
  intros draws LD FD.
  destruct (d_cov_run d_prm2 50 (d_q (literal 2 10))) as [l|] eqn:EL.
  2:{ pose proof checked as C. rewrite EL in C. discriminate. }
  assert (EC : check l start_cov b_start b_start b_start b_start = true)
    by (pose proof checked as C; rewrite EL in C; exact C).
  assert (N0 : near (dint 0) 0 b_start).
  { destruct (dint_value 0 ltac:(lia)) as (F & E). cbn [near b_start]. rewrite E, Rminus_diag_eq, Rabs_R0 by reflexivity.
    split; [exact F|]. lra. }
  assert (HC : cov_in sim_Q start_cov).
  { unfold cov_in, sim_Q, mscale, start_cov. cbn [m00 m01 m10 m11 i00 i01 i11].
    replace (4 / 100 * (1 / 4)) with (1 / 100) by lra. replace (4 / 100 * (1 / 2)) with (2 / 100) by lra.
    replace (4 / 100 * 1) with (4 / 100) by lra.
    split; [apply (i_ratio_ok 1 100); reflexivity|]. split; [apply (i_ratio_ok 2 100); reflexivity|].
    split; [reflexivity|apply (i_ratio_ok 4 100); reflexivity]. }
  destruct (together 50 l 0 draws (d_q (literal 2 10))
    (kK (kalman_init double_scalar false 1 (cells (d_q (literal 2 10))) [Some (dint 0); Some (dint 0)]))
    (dint 0) (dint 0) (dint 0) (dint 0)
    (kt (kalman_init double_scalar false 1 (cells (d_q (literal 2 10))) [Some (dint 0); Some (dint 0)]))
    start_cov b_start b_start b_start b_start 0 0 None sim_Q 0 0 0 EL EC ltac:(lia) ltac:(lia) N0 N0 N0 N0 HC LD FD)
    as (ps & qs & EP & EQ & LP & AG).
  exists ps, qs. eexists _, _, _, _, _, _, _, _.
  split; [exact (setup_total (B754_zero false) (dint 1) (Bplus mode_NE) (Bminus mode_NE) (Bmult mode_NE) (Bdiv mode_NE)
    Bopp (fun a : double => match a with B754_zero _ => false | _ => true end) dint (fun a b => Bltb a b) (literal 2 10))|].
  split; [exact EP|]. split; [apply sim_setup_R|]. split; [rewrite kalman_init_enc; exact EQ|].
  split; [exact LP|]. 
  replace (10^9) with (IZR (10 ^ 9)) by lra. replace (10^16) with (IZR (10 ^ 16)) by lra.
  replace (10^14) with (IZR (10 ^ 14)) by lra. exact AG.
Qed.
Print Assumptions C156_double_simulation.

(** ** It is not exact, ever: the first gain is 1/1001, which no [double] is *)

Lemma pow2_mod7 n : (2 ^ Z.of_nat n mod 7 <> 0)%Z.
Proof.
  assert (H : (2 ^ Z.of_nat n mod 7 = 1 \/ 2 ^ Z.of_nat n mod 7 = 2 \/ 2 ^ Z.of_nat n mod 7 = 4)%Z).
  { induction n as [|n IH]; [left; reflexivity|].
    rewrite Nat2Z.inj_succ, Z.pow_succ_r by lia. rewrite Z.mul_mod by lia.
    destruct IH as [-> |[-> | ->]]; cbn; auto. }
  destruct H as [-> |[-> | ->]]; discriminate.
Qed.

Lemma no_double (x : double) : B2R x <> 1 / 1001.
Proof.
  destruct x as [s|s| |s m e B]; cbn [B2R]; try lra.
  set (M := SpecFloat.cond_Zopp s (Z.pos m)). unfold F2R; cbn [Fnum Fexp]. intros H.
  assert (E : IZR M * 1001 * bpow radix2 e = 1) by lra. clear H B.
  destruct (Z.le_gt_cases 0 e) as [P|N].
  - rewrite <- IZR_Zpower in E by exact P. rewrite <- !mult_IZR in E. apply eq_IZR in E.
    assert (D : (1001 | 1)%Z) by (exists (M * radix2 ^ e)%Z; lia).
    apply Z.divide_1_r_nonneg in D; lia.
  - assert (E2 : IZR (M * 1001) = IZR (2 ^ (- e))).
    { change 2%Z with (radix_val radix2). rewrite IZR_Zpower by lia. rewrite mult_IZR.
      apply Rmult_eq_reg_r with (bpow radix2 e); [|apply Rgt_not_eq, bpow_gt_0].
      rewrite E, <- bpow_plus. replace (- e + e)%Z with 0%Z by lia. reflexivity. }
    apply eq_IZR in E2. apply (pow2_mod7 (Z.to_nat (- e))). rewrite Z2Nat.id by lia. rewrite <- E2.
    replace (M * 1001)%Z with (M * 143 * 7)%Z by lia. apply Z.mod_mul. lia.
Qed.

Theorem C156_exact_refuted :
  ~ (exists draws : list (double * double * double), (50 <= length draws)%nat /\ Forall draw_ok draws /\
     exists (ps : list (double * plot double)) (qs : list (R * plot R)) dur prm P x dur' prm' P' x',
       sim_setup DN (literal 2 10) = Ok (dur, prm, P, x) /\
       sim_plots DN dur (dint 10) (literal 2 10) prm 0 x (kalman_init double_scalar false 1 P x) draws = Ok (Some ps) /\
       sim_setup double_numeric (1/5) = Ok (dur', prm', P', x') /\
       sim_plots double_numeric dur' 10 (1/5) prm' 0 x' (kalman_init R_scalar false 1 P' x') (map to_exact draws) = Ok (Some qs) /\
       Forall2 (records_agree 0 0 0) ps qs).
Proof.
  intros (draws & LD & FD & ps & qs & dur & prm & P & x & dur' & prm' & P' & x' & _ & _ & ES & EQ & AG).
  rewrite sim_setup_R in ES. injection ES as <- <- <- <-. rewrite kalman_init_enc in EQ.
  destruct draws as [|[[g1 g2] g] draws]; [cbn in LD; lia|]. cbn [map] in EQ.
  change (to_exact (g1, g2, g)) with (B2R g1, B2R g2, B2R g) in EQ.
  set (x1 := V2 (v0 (V2 0 0) + v1 (V2 0 0) + 1/2 + 1/2 * B2R g1 * (1/5)) (v1 (V2 0 0) + 1 + B2R g2 * (1/5))) in *.
  pose proof (kstep_sim None (1/100) (2/100) (4/100) 0 0 0 (v0 x1 + 10 * B2R g) ltac:(lra)) as KS. cbv zeta in KS.
  assert (EQQ : sim_Q = M2 (1/100) (2/100) (2/100) (4/100)) by (unfold sim_Q; apply mat2_eq; simpl; lra).
  rewrite EQQ in EQ.
  pose proof (pass_R 0 (V2 0 0) (Est None (M2 (1/100) (2/100) (2/100) (4/100)) (V2 0 0) 0)
    (B2R g1) (B2R g2) (B2R g) (map to_exact draws) ltac:(lia)) as PR.
  cbv zeta in PR. fold x1 in PR. rewrite KS in PR. specialize (PR _ eq_refl).
  match type of EQ with ?s = _ => match type of PR with ?t = _ => change s with t in EQ end end.
  rewrite PR in EQ. destruct (sim_plots _ _ _ _ _ _ _ _ _) as [[l|]|] in EQ; try discriminate.
  rewrite bind_Ok in EQ. cbn [option_map] in EQ.
  assert (exists q, qs = q :: l /\ p_posgain (snd q) = 1 / 1001) as (q & -> & G).
  { eexists. split; [symmetry; apply some_inj; apply Ok_inj; exact EQ|]. cbn [snd p_posgain v0]. lra. }
  inversion AG as [|p ? ps' ? HA]; subst. destruct HA as (_ & _ & _ & _ & _ & (_ & HG) & _).
  rewrite G in HG. apply (no_double (p_posgain (snd p))).
  pose proof (Rabs_pos (B2R (p_posgain (snd p)) - 1 / 1001)) as A.
  destruct (Req_dec (B2R (p_posgain (snd p)) - 1 / 1001) 0) as [E|N]; [lra|]. apply Rabs_pos_lt in N. lra.
Qed.
Print Assumptions C156_exact_refuted.

(** A case: the draws 1, -1 and 2 in each pass. *)
Example C156_case :
  let draws := repeat (dint 1, dint (-1), dint 2) 50 in
  (50 <= length draws)%nat /\ Forall draw_ok draws /\ map to_exact draws = repeat (1, -1, 2) 50.
Proof.
  assert (I : forall n, (Z.abs n <= 10)%Z -> gauss_ok (dint n) /\ B2R (dint n) = IZR n).
  { intros n Hn. destruct (dint_value n ltac:(lia)) as (F & E). split; [|exact E]. split; [exact F|].
    rewrite E, <- abs_IZR. now apply IZR_le. }
  destruct (I 1%Z ltac:(lia)) as (A1 & B1). destruct (I (-1)%Z ltac:(lia)) as (A2 & B2).
  destruct (I 2%Z ltac:(lia)) as (A3 & B3).
  intros draws. split; [unfold draws; rewrite repeat_length; lia|]. split.
  - apply Forall_forall. intros d H. apply repeat_spec in H. subst d. unfold draw_ok. cbn [fst snd]. auto.
  - assert (X : to_exact (dint 1, dint (-1), dint 2) = (1, -1, 2)).
    { unfold to_exact. cbn [fst snd]. rewrite B1, B2, B3. reflexivity. }
    unfold draws. rewrite <- X. generalize (dint 1, dint (-1), dint 2). intros d. generalize 50%nat. intros n.
    induction n as [|n IH]; cbn [repeat map]; [reflexivity|]. now rewrite IH.
Qed.
