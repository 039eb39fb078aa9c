(** * The desktop simulation in fixed point against exact arithmetic

    C157 of properties.jsonl: example/desktop/kalman-sim.e.cpp, built with
    KE_NUMERIC_TYPE=fp32_t by example/desktop/mk-kalman-sim.py. *)

From Coq Require Import Reals List Arith ZArith Lia Lra.
From Flocq Require Import Core BinarySingleNaN.
From Verif Require Import Base Matrix Scalars Kalman KalmanSpec KalmanProofs PropsRiccati FixedPoint FixedFloat
  KalmanSim PropsKalmanSim Ieee KalmanIeee Output PropsOutputSim PropsMatlab PropsSimRounding SimRoundingSpec SimRoundingProofs
  FixedSim FixedSimSpec FixedSimBounds FixedSimProofs.
Import ListNotations.
Local Open Scope R_scope.

(** What the program records when it calculates exactly with the same random numbers. *)
Definition exact_run (draws : list (double * double * double)) (qs : list (R * plot R)) : Prop :=
  exists dur prm P x, sim_setup double_numeric (1/5) = Ok (dur, prm, P, x) /\
    sim_plots double_numeric dur 10 (1/5) prm 0 x (kalman_init R_scalar false 1 P x) (map to_exact draws) = Ok (Some qs).

Lemma converts_all : forall draws, Forall draw_ok draws ->
  exists ds, fixed_draws c32 draws = Ok ds /\ Forall2 converts draws ds.
Proof.
  induction draws as [|[[g1 g2] g] draws IH]; intros H; [exists []; split; [reflexivity|constructor]|].
  inversion H as [|? ? HG FD']; subst. destruct (IH FD') as (ds & E & F).
  destruct HG as (G1 & G2 & G3). cbn [fst snd] in G1, G2, G3.
  destruct (draw32 g1 G1) as (b1 & Q1 & _). destruct (draw32 g2 G2) as (b2 & Q2 & _). destruct (draw32 g G3) as (b & Q3 & _).
  assert (C : fixed_draw c32 (g1, g2, g) = Ok (b1, b2, b)).
  { unfold fixed_draw. cbn [fst snd]. rewrite Q1, bind_Ok, Q2, bind_Ok, Q3, bind_Ok. reflexivity. }
  exists ((b1, b2, b) :: ds). split; [cbn [fixed_draws]; rewrite C, bind_Ok, E, bind_Ok; reflexivity|].
  constructor; [exact C|exact F].
Qed.

Lemma acc_literal : fx_of_ieee 53 1024 c32 (literal 2 10) = Ok acc.
Proof. vm_compute. reflexivity. Qed.

Lemma both draws : (50 <= length draws)%nat -> Forall draw_ok draws ->
  exists l ps qs, frun 50 fQ = Some l /\ fixed_sim c32 draws = Ok (Some ps) /\ exact_run draws qs /\
    length ps = 50%nat /\ Forall2 (fixed_agree ftol) ps qs /\ map fgains ps = map fgains_of l /\
    Forall2 (fun (q : R * plot R) j => inside (p_posecov (snd q)) j) qs (iposecov 50 start_cov).
Proof.
  intros LD FD.
  destruct (frun 50 fQ) as [l|] eqn:EL.
  2:{ pose proof fchecked as C. rewrite EL in C. discriminate. }
  assert (EC : fcheck l start_cov 0 0 0 0 [] [] = true)
    by (pose proof fchecked as C; rewrite EL in C; exact C).
  assert (HC : cov_in sim_Q start_cov).
  { unfold cov_in, sim_Q, mscale, start_cov. cbn [m00 m01 m10 m11 i00 i01 i11].
    replace (4 / 100 * (1 / 4)) with (1 / 100) by lra. replace (4 / 100 * (1 / 2)) with (2 / 100) by lra.
    replace (4 / 100 * 1) with (4 / 100) by lra.
    split; [apply (i_ratio_ok 1 100); reflexivity|]. split; [apply (i_ratio_ok 2 100); reflexivity|].
    split; [reflexivity|apply (i_ratio_ok 4 100); reflexivity]. }
  destruct (converts_all draws FD) as (ds & ED & CD).
  assert (Z0 : Rabs (IZR 0 - 65536 * 0) <= IZR 0) by (rewrite Rmult_0_r, Rminus_0_r, Rabs_R0; lra).
  assert (I0 : in28 0) by (unfold in28; lia).
  destruct (ftogether 50 l 0 draws ds fQ
    (kK (kalman_init (fx_scalar c32) false 1 (cells fQ) [Some 0; Some 0]%Z)) 0 0 0 0 start_cov 0 0 0 0 [] []
    0 0 None sim_Q 0 0 0 EL EC ltac:(lia) ltac:(lia) Z0 Z0 ltac:(lia) ltac:(lia) ltac:(lia) ltac:(lia) ltac:(lia) ltac:(lia)
    I0 I0 I0 I0) as (ps & qs & EP & EQ & LP & AG & EG & IP); try assumption.
  - cbn [zon]. rewrite Z.sub_0_r. auto.
  - cbn [zon]. split; ring.
  - exists l, ps, qs. split; [reflexivity|]. split; [|split; [|auto]].
    + unfold fixed_sim. rewrite acc_literal, bind_Ok, setup_fixed, bind_Ok.
      change (nt_int FN 10) with (Ok 655360%Z). rewrite bind_Ok, ED, bind_Ok. exact EP.
    + unfold exact_run. eexists _, _, _, _. split; [apply sim_setup_R|]. rewrite kalman_init_enc. exact EQ.
Qed.

(** C157. With random numbers up to 10 in magnitude, no operation of the program compiled
    for [fp32_t] overflows; it records 50 passes, in which position and measurement differ
    from exact arithmetic by at most 0.08 m, the velocity by 0.004 m/s, the estimates by
    0.45 m and 0.07 m/s, the gains by 0.0003 and the covariances by 0.025. *)
Theorem C157_fixed_simulation :
  forall draws : list (double * double * double),
  (50 <= length draws)%nat -> Forall draw_ok draws ->
  exists ps qs, fixed_sim (fp32 32) draws = Ok (Some ps) /\ exact_run draws qs /\ length ps = 50%nat /\
    Forall2 (fixed_agree {| t_s0 := 8/100; t_s1 := 4/1000; t_e0 := 45/100; t_e1 := 7/100;
                            t_g := 3/10000; t_c := 25/1000 |}) ps qs.
Proof.
  intros draws LD FD. destruct (both draws LD FD) as (l & ps & qs & _ & EP & EQ & LP & AG & _).
  exists ps, qs. auto.
Qed.
Print Assumptions C157_fixed_simulation.

(** Gains and covariances recorded are the same for all random numbers. *)
Theorem C157_gains :
  exists l : list (Z * Z * (Z * Z)), length l = 50%nat /\
    nth 0 l (0, 0, (0, 0))%Z = (65, 52, (6544, 5235))%Z /\
    nth 49 l (0, 0, (0, 0))%Z = (11872, 1185, (1188630, 118651))%Z /\
  forall draws : list (double * double * double), (50 <= length draws)%nat -> Forall draw_ok draws ->
  exists ps, fixed_sim (fp32 32) draws = Ok (Some ps) /\
    map (fun p => (p_posgain (snd p), p_velgain (snd p), (p_posecov (snd p), p_velecov (snd p)))) ps = l.
Proof.
  destruct (frun 50 fQ) as [l|] eqn:EL.
  2:{ pose proof fchecked as C. rewrite EL in C. discriminate. }
  assert (CK : match frun 50 fQ with
    | Some l => length (map fgains_of l) = 50%nat /\ nth 0 (map fgains_of l) (0, 0, (0, 0))%Z = (65, 52, (6544, 5235))%Z /\
        nth 49 (map fgains_of l) (0, 0, (0, 0))%Z = (11872, 1185, (1188630, 118651))%Z
    | None => False end) by (vm_compute; auto).
  rewrite EL in CK. destruct CK as (A & B & C).
  exists (map fgains_of l). split; [exact A|]. split; [exact B|]. split; [exact C|].
  intros draws LD FD. destruct (both draws LD FD) as (l' & ps & qs & EL' & EP & _ & _ & _ & EG & _).
  rewrite EL in EL'. apply some_inj in EL'. subst l'. exists ps. split; [exact EP|exact EG].
Qed.
Print Assumptions C157_gains.

(** ** The covariances are not closer than that *)

Lemma nth_Forall2 {A B : Type} (Q : A -> B -> Prop) da db : forall l m n, Forall2 Q l m -> (n < length l)%nat ->
  Q (nth n l da) (nth n m db).
Proof.
  intros l m n F. revert n. induction F as [|a b l m H F IH]; intros n Hn; [cbn in Hn; lia|].
  destruct n as [|n]; [exact H|]. apply IH. cbn in Hn. lia.
Qed.

Lemma F2_length {A B : Type} (Q : A -> B -> Prop) l m : Forall2 Q l m -> length l = length m.
Proof. induction 1 as [|a b l m H F IH]; [reflexivity|]. cbn. now rewrite IH. Qed.

Theorem C157_tight : forall t : tolerance, t_c t <= 21/1000 ->
  forall draws : list (double * double * double), (50 <= length draws)%nat -> Forall draw_ok draws ->
  ~ exists ps qs, fixed_sim (fp32 32) draws = Ok (Some ps) /\ exact_run draws qs /\ Forall2 (fixed_agree t) ps qs.
Proof.
  intros t Ht draws LD FD (ps & qs & EP & EQ & AG).
  destruct (both draws LD FD) as (l & ps' & qs' & EL & EP' & EQ' & LP & AG' & EG & IP).
  rewrite EP in EP'. apply Ok_inj, some_inj in EP'. subst ps'.
  destruct EQ as (dur & prm & P & x & ES & EQ). destruct EQ' as (dur' & prm' & P' & x' & ES' & EQ').
  rewrite sim_setup_R in ES, ES'. apply Ok_inj in ES, ES'. apply (eq_trans (eq_sym ES)) in ES'.
  apply pair_equal_spec in ES' as [ES' <-]. apply pair_equal_spec in ES' as [ES' <-].
  apply pair_equal_spec in ES' as [<- <-]. rewrite EQ in EQ'. apply Ok_inj, some_inj in EQ'. subst qs'.
  assert (LQ : length qs = 50%nat) by (rewrite <- (F2_length _ _ _ AG); exact LP).
  set (dp := (0%Z, Build_plot 0 0 0 0 0 0 0 0)%Z : Z * plot Z).
  set (dq := (0, Build_plot 0 0 0 0 0 0 0 0) : R * plot R).
  assert (CK : match frun 50 fQ with
    | Some l => (snd (nth 38 (iposecov 50 start_cov) (0, 0)) * 1000 + 21 * one_z <? fz (fst (snd (nth 38 (map fgains_of l) (0, 0, (0, 0))))) * 1000)%Z
    | None => false end = true) by (vm_compute; reflexivity).
  rewrite EL in CK. apply Z.ltb_lt, IZR_lt in CK.
  pose proof (nth_Forall2 _ dq (0, 0)%Z qs (iposecov 50 start_cov) 38 IP ltac:(lia)) as [_ H].
  pose proof (nth_Forall2 _ dp dq ps qs 38 AG ltac:(lia)) as (_ & _ & _ & _ & _ & _ & _ & HA & _).
  unfold fagree in HA. rewrite <- fz_unit in HA.
  assert (E : p_posecov (snd (nth 38 ps dp)) = fst (snd (nth 38 (map fgains_of l) (0, 0, (0, 0))%Z))).
  { rewrite <- EG. change (0, 0, (0, 0))%Z with (fgains dp). rewrite map_nth. reflexivity. }
  rewrite E in HA. set (f := fz (fst (snd (nth 38 (map fgains_of l) (0, 0, (0, 0))%Z)))) in *.
  set (h := snd (nth 38 (iposecov 50 start_cov) (0, 0)%Z)) in *.
  clearbody f h. rewrite plus_IZR, !mult_IZR in CK.
  apply Rabs_le_inv in HA. pose proof unit_pos as U. pose proof one_unit as O.
  apply Rmult_lt_compat_r with (r := unit) in CK; [|exact U]. nra.
Qed.
Print Assumptions C157_tight.

(** ** Without the bound on the random numbers the run is undefined *)
Theorem C157_range_refuted :
  ~ (forall draws : list (double * double * double), (50 <= length draws)%nat ->
     Forall (fun d => is_finite (fst (fst d)) = true /\ is_finite (snd (fst d)) = true /\ is_finite (snd d) = true) draws ->
     exists ps, fixed_sim (fp32 32) draws = Ok (Some ps)).
Proof.
  intros H. destruct (H (repeat (dint 32768, dint 0, dint 0) 50)) as (ps & E).
  - rewrite repeat_length. lia.
  - apply Forall_forall. intros d HD. apply repeat_spec in HD. subst d. cbn [fst snd].
    split; [|split]; apply dint_value; lia.
  - unfold fixed_sim in E. rewrite acc_literal, bind_Ok, setup_fixed, bind_Ok in E.
    change (nt_int FN 10) with (Ok 655360%Z) in E. rewrite bind_Ok in E.
    assert (X : exists e, fixed_draws c32 (repeat (dint 32768, dint 0, dint 0) 50) = Err e).
    { eexists. vm_compute. reflexivity. }
    destruct X as (e & X). rewrite X in E. cbn [bind] in E. clear - E. discriminate.
Qed.
Print Assumptions C157_range_refuted.

(** A case: the draws 1, -1 and 2 in each pass; its first record. *)
Example C157_case :
  let draws := repeat (dint 1, dint (-1), dint 2) 50 in
  (50 <= length draws)%nat /\ Forall draw_ok draws /\
  exists ps, fixed_sim (fp32 32) draws = Ok (Some ps) /\
    option_map (fun p => (fst p, p_pos (snd p), p_vel (snd p), p_poshat (snd p), p_velhat (snd p))) (hd_error ps)
    = Some (1350041, 39321, 52429, 34074, 66581)%Z.
Proof.
  destruct C156_case as (L & F & _). intros draws. split; [exact L|]. split; [exact F|].
  destruct (fixed_sim (fp32 32) draws) as [[ps|]|e] eqn:E.
  - exists ps. split; [reflexivity|].
    assert (X : match fixed_sim (fp32 32) draws with
       | Ok (Some ps) => option_map (fun p => (fst p, p_pos (snd p), p_vel (snd p), p_poshat (snd p), p_velhat (snd p))) (hd_error ps)
       | _ => None end = Some (1350041, 39321, 52429, 34074, 66581)%Z) by (vm_compute; reflexivity).
    rewrite E in X. exact X.
  - destruct (C157_fixed_simulation draws L F) as (ps & _ & X & _). rewrite E in X. discriminate.
  - destruct (C157_fixed_simulation draws L F) as (ps & _ & X & _). rewrite E in X. discriminate.
Qed.
