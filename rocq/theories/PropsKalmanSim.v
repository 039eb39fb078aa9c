(** * Properties of the simulation programs

    C117 - C120 of properties.jsonl: example/avr/avr-kalman-sim.e.cpp and
    example/desktop/kalman-sim.e.cpp. *)

From Coq Require Import Reals List Lra Lia Psatz ZArith.
From Verif Require Import Base Matrix MatrixSpec MatrixProofs Scalars Kalman KalmanSpec
  KalmanProofs PropsKalman FixedPoint FixedSpec FixedProofs StochasticSpec StochasticProofs
  PropsStochastic PropsRiccati KalmanSim.
Import ListNotations.

(** ** C117: with perfect data the estimate is exact, bit by bit *)

Lemma zero_in c : supported c -> in_range c 0.
Proof.
  intros SC. pose proof (sup_w c SC) as W. unfold in_range.
  assert (0 < 2 ^ (fx_w c - 1))%Z by (apply Z.pow_pos_nonneg; lia). lia.
Qed.

(** What is needed of the numeric type: whatever is defined of a - a, a * 0 and
    (a + b) + 0 has the expected value. *)
Definition cancels {T} (S : scalar T) : Prop :=
  (forall a d, sc_sub S a a = Ok d -> d = sc_zero S) /\
  (forall a p, sc_mul S a (sc_zero S) = Ok p -> p = sc_zero S) /\
  (forall a b s r, sc_add S a b = Ok s -> sc_add S s (sc_zero S) = Ok r -> r = s).

(** A simulation in the same arithmetic: the state follows the model exactly, the sensor
    reports H x. *)
Fixpoint simulate {T} (S : scalar T) (U : nat) (prm : kparams T) (x : matrix T)
    (us : list (matrix T)) : outcome (list (matrix T * matrix T) * matrix T) :=
  match us with
  | [] => Ok ([], x)
  | u :: us' =>
      Ax <- mul_mv S 2 2 (kA prm) x ;;
      Bu <- mul_Bu S U (kB prm) u ;;
      x' <- add_mm S 2 1 Ax Bu ;;
      z <- dot S 2 (kH prm) x' ;;
      r <- simulate S U prm x' us' ;;
      Ok ((u, [Some z]) :: fst r, snd r)
  end.

Section Exact.
Context {T : Type} (S : scalar T).

Lemma add_mm_21_inv a b m : add_mm S 2 1 a b = Ok m ->
  exists a0 a1 b0 b1 s0 s1,
  at1 1 a 0 = Ok a0 /\ at1 1 a 1 = Ok a1 /\ at1 1 b 0 = Ok b0 /\ at1 1 b 1 = Ok b1 /\
  sc_add S a0 b0 = Ok s0 /\ sc_add S a1 b1 = Ok s1 /\ m = [Some s0; Some s1].
Proof.
  unfold add_mm. change (mat_fill S 2 1 (sc_zero S)) with
    (Ok [Some (sc_zero S); Some (sc_zero S)]). rewrite bind_Ok.
  change (size 2 1) with 2%nat. unfold for_. cbn [for_from]. intros H.
  apply bind_inv in H as (m1 & H1 & H).
  apply bind_inv in H1 as (a0 & A0 & H1). apply bind_inv in H1 as (b0 & B0 & H1).
  apply bind_inv in H1 as (s0 & S0 & H1).
  apply bind_inv in H as (m2 & H2 & H).
  apply bind_inv in H2 as (a1 & A1 & H2). apply bind_inv in H2 as (b1 & B1 & H2).
  apply bind_inv in H2 as (s1 & S1 & H2).
  cbv in H1. injection H1 as <-. cbv in H2. injection H2 as <-. injection H as <-.
  exists a0, a1, b0, b1, s0, s1. repeat split; assumption.
Qed.

Lemma mul_ms_21_inv a v m : mul_ms S 2 1 a v = Ok m ->
  exists a0 a1 s0 s1,
  at1 1 a 0 = Ok a0 /\ at1 1 a 1 = Ok a1 /\
  sc_mul S a0 v = Ok s0 /\ sc_mul S a1 v = Ok s1 /\ m = [Some s0; Some s1].
Proof.
  unfold mul_ms. change (mat_fill S 2 1 (sc_zero S)) with
    (Ok [Some (sc_zero S); Some (sc_zero S)]). rewrite bind_Ok.
  change (size 2 1) with 2%nat. unfold for_. cbn [for_from]. intros H.
  apply bind_inv in H as (m1 & H1 & H).
  apply bind_inv in H1 as (a0 & A0 & H1). apply bind_inv in H1 as (s0 & S0 & H1).
  apply bind_inv in H as (m2 & H2 & H).
  apply bind_inv in H2 as (a1 & A1 & H2). apply bind_inv in H2 as (s1 & S1 & H2).
  cbv in H1. injection H1 as <-. cbv in H2. injection H2 as <-. injection H as <-.
  exists a0, a1, s0, s1. repeat split; assumption.
Qed.

(** A correction by an exactly predicted measurement changes nothing. *)
Lemma correct_nothing prm K a b x z x' :
  cancels S -> add_mm S 2 1 a b = Ok x -> dot S 2 (kH prm) x = Ok z ->
  correct_x_1 S prm K x [Some z] = Ok x' -> x' = x.
Proof.
  intros (C1 & C2 & C3) HX HZ H. unfold correct_x_1 in H. rewrite HZ, bind_Ok in H.
  apply bind_inv in H as (y & Hy & H).
  unfold sub_1x1_s in Hy. change (at1 1 [Some z] 0) with (Ok z) in Hy. rewrite bind_Ok in Hy.
  apply C1 in Hy. subst y.
  apply bind_inv in H as (Ky & HK & H).
  apply mul_ms_21_inv in HK as (k0 & k1 & p0 & p1 & _ & _ & P0 & P1 & ->).
  apply C2 in P0, P1. subst p0 p1.
  apply add_mm_21_inv in HX as (a0 & a1 & b0 & b1 & s0 & s1 & _ & _ & _ & _ & S0 & S1 & ->).
  apply add_mm_21_inv in H as (c0 & c1 & d0 & d1 & r0 & r1 & A0 & A1 & B0 & B1 & R0 & R1 & ->).
  cbv in A0, A1, B0, B1. injection A0 as <-. injection A1 as <-. injection B0 as <-.
  injection B1 as <-.
  rewrite (C3 _ _ _ _ S0 R0), (C3 _ _ _ _ S1 R1). reflexivity.
Qed.

End Exact.

Theorem C117_exact_tracking_every_type :
  forall (T : Type) (S : scalar T) (U : nat) (prm : kparams T) (us : list (matrix T))
         (h : list (matrix T * matrix T)) (x : matrix T) (st st' : kstate T) (x' : matrix T),
  cancels S ->
  simulate S U prm x us = Ok (h, x') ->
  kx st = x ->
  run S 1 U prm st h = Ok st' ->
  kx st' = x'.
Proof.
  intros T S U prm us. induction us as [|u us IH]; intros h x st st' x' C HS HX HR.
  - injection HS as <- <-. injection HR as <-. exact HX.
  - cbn [simulate] in HS.
    apply bind_inv in HS as (Ax & EA & HS). apply bind_inv in HS as (Bu & EB & HS).
    apply bind_inv in HS as (x1 & E1 & HS). apply bind_inv in HS as (z & EZ & HS).
    apply bind_inv in HS as ([h1 x2] & ER & HS). cbn [fst snd] in HS. injection HS as <- <-.
    cbn [run] in HR. apply bind_inv in HR as (st1 & EU & HR).
    apply (IH h1 x1 st1 st' x2 C ER); [|exact HR].
    unfold update in EU. apply bind_inv in EU as (t & _ & EU).
    rewrite HX in EU. unfold predict_x in EU. rewrite EA, bind_Ok, EB, bind_Ok, E1, bind_Ok in EU.
    apply bind_inv in EU as (P & _ & EU). apply bind_inv in EU as (K & _ & EU).
    apply bind_inv in EU as (xc & EX & EU). apply bind_inv in EU as (P' & _ & EU).
    injection EU as <-. cbn [kx].
    exact (correct_nothing S prm K Ax Bu x1 z xc C E1 EZ EX).
Qed.
Print Assumptions C117_exact_tracking_every_type.

(** The numeric types of the repository qualify: fixed point, idealised double, int. *)
Theorem C117_types_qualify :
  (forall c, supported c -> cancels (fx_scalar c)) /\ cancels R_scalar /\
  (forall w, cancels (int_scalar w)).
Proof.
  split; [|split].
  - intros c SC. split; [|split].
    + intros a d H. cbn [sc_sub fx_scalar] in H. unfold fx_sub in H.
      rewrite Z.sub_diag in H. apply bind_inv in H as (v & H1 & H2). apply chk_Ok in H1 as [-> _].
      injection H2 as <-. apply wrap_in; [assumption|]. apply zero_in; assumption.
    + intros a p H. cbn [sc_mul sc_zero fx_scalar] in H. unfold fx_mul in H.
      rewrite Z.mul_0_r in H. apply bind_inv in H as (v & H1 & H2). apply chk_Ok in H1 as [-> _].
      apply bind_inv in H2 as (q & H1 & H2). unfold sshr in H1.
      destruct (_ && _)%bool; [|discriminate]. injection H1 as <-. injection H2 as <-.
      rewrite Z.div_0_l by (pose proof (pow_F_pos c SC); lia).
      apply wrap_in; [assumption|]. apply zero_in; assumption.
    + intros a b s r H1 H2. cbn [sc_add sc_zero fx_scalar] in *.
      apply fx_add_range in H1; [|assumption].
      rewrite add_exact in H2 by (rewrite ?Z.add_0_r; assumption).
      injection H2 as <-. apply Z.add_0_r.
  - split; [|split]; cbn [sc_add sc_sub sc_mul sc_zero R_scalar].
    + intros a d H. injection H as <-. ring.
    + intros a d H. injection H as <-. ring.
    + intros a b s r _ H. injection H as <-. ring.
  - intros w. split; [|split]; cbn [sc_add sc_sub sc_mul sc_zero int_scalar].
    + intros a d H. apply chk_Ok in H as [-> _]. lia.
    + intros a d H. apply chk_Ok in H as [-> _]. lia.
    + intros a b s r _ H. apply chk_Ok in H as [-> _]. lia.
Qed.
Print Assumptions C117_types_qualify.

(** 32-bit fixed point with 16 fraction bits: two steps with inputs 1.3 and -0.7 and a
    dynamic with fractions; products are rounded, the estimate is exact all the same. *)
Definition frac_prm : kparams Z :=
  {| kA := [Some 65536; Some 6554; Some (-1234); Some 64000]; kB := [Some 327; Some 6554];
     kH := [Some 65536; Some 21845]; kQ := [Some 655; Some 100; Some 100; Some 655];
     kR := [Some 65536]; kdt := 6554 |}%Z.
Definition c117_st : kstate Z :=
  kalman_init (fx_scalar (fp32 32)) false 1 [Some 655; Some 0; Some 0; Some 655]%Z
    [Some 100000; Some (-7)]%Z.
Example C117_case :
  exists h x' st',
    simulate (fx_scalar (fp32 32)) 1 frac_prm [Some 100000; Some (-7)]%Z
      [[Some 85197]; [Some (-45875)]]%Z = Ok (h, x') /\
    run (fx_scalar (fp32 32)) 1 1 frac_prm c117_st h = Ok st' /\
    x' = [Some 100858; Some (-5)]%Z /\ kx st' = x' /\ cancels (fx_scalar (fp32 32)).
Proof.
  destruct (simulate (fx_scalar (fp32 32)) 1 frac_prm [Some 100000; Some (-7)]%Z
      [[Some 85197]; [Some (-45875)]]%Z) as [[h x']|e] eqn:E; [|vm_compute in E; discriminate].
  destruct (run (fx_scalar (fp32 32)) 1 1 frac_prm c117_st h) as [st'|e] eqn:E2.
  - exists h, x', st'. split; [reflexivity|]. split; [exact E2|].
    assert (C : cancels (fx_scalar (fp32 32)))
      by (apply C117_types_qualify; unfold supported, fp32, default_F; cbn; lia).
    pose proof (C117_exact_tracking_every_type _ _ _ _ _ _ _ c117_st _ _ C E eq_refl E2) as X.
    split; [|split; assumption].
    vm_compute in E. congruence.
  - exfalso. vm_compute in E. injection E as <- <-. vm_compute in E2. discriminate.
Qed.

(** ** C118: the simulation program *)

(** Its parameters over the real numbers are those of C111. *)
Lemma sim_setup_R :
  sim_setup double_numeric (1/5)%R
  = Ok (50%R, enc_sys sim_sys, enc2 sim_Q, encv (V2 0 0)%R).
Proof.
  unfold enc_sys, sim_sys, sim_Q, mscale, enc2, encv, enc1. cbn [m00 m01 m10 m11 v0 v1 sA sB sH sQ sR sdt].
  cbv -[Rplus Rminus Rmult Rdiv Ropp Rinv Req_EM_T IZR].
  repeat match goal with |- context [Req_EM_T ?a ?b] =>
    destruct (Req_EM_T a b) as [?E|?E]; [exfalso; lra|] end.
  apply f_equal.
  repeat match goal with
  | |- (_, _) = (_, _) => apply f_equal2
  | |- _ :: _ = _ :: _ => apply f_equal2
  | |- Some _ = Some _ => apply f_equal
  | |- {| kA := _ |} = {| kA := _ |} => f_equal
  | |- ?a = ?a => reflexivity
  end; lra.
Qed.

Lemma fp32_32 : supported (fp32 32).
Proof. unfold supported, fp32, default_F; cbn; lia. Qed.
Lemma fp32_16 : supported (fp32 16).
Proof. unfold supported, fp32, default_F; cbn; lia. Qed.

Lemma of_real_near c x k : supported c -> (0 <= x)%R ->
  (IZR k - 1/2 <= IZR (2 ^ fx_F c) * x < IZR k + 1/2)%R -> in_range c k ->
  fx_of_real c x = Ok k.
Proof.
  intros SC HX HK HR. rewrite of_real_shape by assumption.
  assert (0 <= IZR (2 ^ fx_F c) * x)%R.
  { apply Rmult_le_pos; [|assumption]. apply IZR_le. pose proof (pow_F_pos c SC). lia. }
  pose proof (round_away_pos _ H) as N.
  assert (round_away (IZR (2 ^ fx_F c) * x) = k) as ->.
  { assert (round_away (IZR (2 ^ fx_F c) * x) < k + 1)%Z by (apply lt_IZR; rewrite plus_IZR; lra).
    assert (k < round_away (IZR (2 ^ fx_F c) * x) + 1)%Z by (apply lt_IZR; rewrite plus_IZR; lra).
    lia. }
  apply chk_in. exact HR.
Qed.

(** The trajectory: constant acceleration 1 from rest. *)
Definition ballistic (k : Z) : vec2 := V2 (IZR k * IZR k / 2) (IZR k).

Lemma sim_step_R e k :
  ex e = ballistic k -> exists e', 
  sim_step double_numeric (enc_sys sim_sys) (encv (ballistic k)) (enc_est e) None
    = Ok (encv (ballistic (k + 1)), enc1 (v0 (ballistic (k + 1))), enc_est e') /\
  ex e' = ballistic (k + 1) /\ et e' = (et e + 1)%R.
Proof.
  intros HX. exists (kstep sim_sys e 1 (v0 (ballistic (k + 1)))).
  split; [|split].
  - unfold sim_step. cbn [nt_int nt_sc double_numeric]. rewrite bind_Ok.
    change (mat_il R_scalar 1 1 [IZR 1]) with (Ok (enc1 1)). rewrite bind_Ok.
    assert (X1 : exists Ax Bu,
      mul_mv R_scalar 2 2 (kA (enc_sys sim_sys)) (encv (ballistic k)) = Ok Ax /\
      mul_Bu R_scalar 1 (kB (enc_sys sim_sys)) (enc1 1) = Ok Bu /\
      add_mm R_scalar 2 1 Ax Bu = Ok (encv (ballistic (k + 1)))).
    { eexists _, _. split; [kcomp; reflexivity|]. split; [kcomp; reflexivity|].
      unfold ballistic. rewrite plus_IZR. generalize (IZR k). intros r.
      kcomp. kentries; lra. }
    destruct X1 as (Ax & Bu & EA & EB & EX).
    rewrite EA, bind_Ok, EB, bind_Ok, EX, bind_Ok, bind_Ok.
    generalize (ballistic (k + 1)). intros [p q].
    replace (dot R_scalar 2 (kH (enc_sys sim_sys)) (encv (V2 p q))) with (Ok p)
      by (kcomp; f_equal; ring).
    rewrite !bind_Ok.
    change (mat_fill R_scalar 1 1 p) with (Ok (enc1 p)). rewrite bind_Ok, update_enc.
    reflexivity.
  - unfold kstep. cbn [ex]. rewrite HX.
    generalize (kgain sim_sys (Ppred sim_sys (eP e))). intros [g0 g1].
    unfold xcorr, xpred, ballistic, vadd, vscale, mv, vdot, sim_sys. rewrite plus_IZR.
    generalize (IZR k). intros r.
    apply vec2_eq; simpl; lra.
  - reflexivity.
Qed.

Lemma sim_loop_R fuel : forall k e,
  (0 <= k <= 50)%Z -> (50 - k <= Z.of_nat fuel)%Z -> ex e = ballistic k -> et e = IZR k ->
  exists e', sim_loop double_numeric 50%R (enc_sys sim_sys) fuel k (encv (ballistic k)) (enc_est e)
             = Ok (Some (50%Z, encv (ballistic 50), enc_est e')) /\
    ex e' = ballistic 50 /\ et e' = 50%R.
Proof.
  induction fuel as [|fuel IH]; intros k e HK HF HX HT.
  - assert (k = 50)%Z by lia. subst k. exists e. split; [|auto].
    unfold sim_loop. cbn [nt_int nt_sc nt_lt double_numeric].
    rewrite !bind_Ok. cbn [sc_mul R_scalar]. rewrite bind_Ok. cbn [kdt enc_sys sdt sim_sys].
    destruct (Rlt_dec _ _) as [L|L]; [exfalso; lra|reflexivity].
  - cbn [sim_loop]. cbn [nt_int nt_sc nt_lt double_numeric].
    rewrite !bind_Ok. cbn [sc_mul R_scalar]. rewrite bind_Ok.
    change (kdt (enc_sys sim_sys)) with 1%R.
    destruct (Rlt_dec _ _) as [L|L].
    + assert (k < 50)%Z by (apply lt_IZR; lra).
      destruct (sim_step_R e k HX) as (e1 & E1 & X1 & T1). rewrite E1, bind_Ok. cbn [fst snd].
      apply IH; [lia|lia|exact X1|]. rewrite T1, HT, plus_IZR. reflexivity.
    + assert (~ (k < 50)%Z) by (intros C; apply L; apply IZR_lt in C; lra).
      assert (k = 50)%Z by lia. subst k. exists e. auto.
Qed.

Theorem C118_simulation :
  (* double, idealised: 50 updates, then the estimate equals the state, 1250 m and 50 m/s *)
  (forall fuel, (50 <= fuel)%nat ->
   exists st, sim_main double_numeric false (1/5)%R fuel
     = Ok (Some (50%Z, encv (V2 1250 50), st)) /\
     kx st = encv (V2 1250 50) /\ kt st = 50%R) /\
  (* 32-bit fixed point on the desktop: the same, exactly *)
  (exists a st, fx_of_real (fp32 32) (1/5)%R = Ok a /\
   sim_main (fixed_numeric (fp32 32)) false a 50
     = Ok (Some (50%Z, [Some (1250 * 65536); Some (50 * 65536)]%Z, st)) /\
   kx st = [Some (1250 * 65536); Some (50 * 65536)]%Z /\ kt st = (50 * 65536)%Z).
Proof.
  split.
  - intros fuel HF. unfold sim_main. rewrite sim_setup_R, bind_Ok.
    cbn [nt_sc double_numeric]. rewrite kalman_init_enc.
    destruct (sim_loop_R fuel 0 (Est None sim_Q (V2 0 0) 0)) as (e' & E & X & T); [lia|lia| | |].
    + cbn [ex]. unfold ballistic. apply vec2_eq; simpl; lra.
    + reflexivity.
    + exists (enc_est e'). replace (V2 0 0) with (ballistic 0) at 1
        by (unfold ballistic; apply vec2_eq; simpl; lra).
      assert (EQ : ballistic 50 = V2 1250 50)
        by (unfold ballistic; apply vec2_eq; simpl; lra).
      rewrite EQ in E, X. split; [exact E|]. unfold enc_est; cbn [kx kt]. rewrite X, T. auto.
  - assert (F : fx_of_real (fp32 32) (1/5)%R = Ok 13107%Z)
      by (apply of_real_near; [apply fp32_32|lra| |unfold in_range; cbn; lia];
          change (IZR (2 ^ fx_F (fp32 32))) with 65536%R; lra).
    destruct (sim_main (fixed_numeric (fp32 32)) false 13107%Z 50) as [[[[n x] st]|]|] eqn:E;
      vm_compute in E; try discriminate.
    exists 13107%Z, st. split; [exact F|].
    injection E as <- <- <-. repeat split.
Qed.
Print Assumptions C118_simulation.

Example C118_case :
  exists st, sim_main double_numeric false (1/5)%R 50 = Ok (Some (50%Z, encv (V2 1250 50), st)).
Proof.
  destruct C118_simulation as [H _]. destruct (H 50%nat (Nat.le_refl _)) as (st & E & _).
  exists st. exact E.
Qed.

(** ** C119: the program as built for the microcontroller (fp32_t with 16-bit int) *)

(** No fraction bits: the trajectory the estimator follows by itself. *)
Fixpoint dead_reckoning (p v : Z) (us : list Z) : Z * Z :=
  match us with [] => (p, v) | u :: us' => dead_reckoning (p + v)%Z (v + u)%Z us' end.

Definition avr_setup : outcome (Z * kparams Z * matrix Z * matrix Z) :=
  a <- fx_of_real (fp32 16) (1/5)%R ;; sim_setup (fixed_numeric (fp32 16)) a.

(** The parameters that remain of 0.2, dt*dt/2, ... *)
Definition avr_prm : kparams Z :=
  {| kA := [Some 1; Some 1; Some 0; Some 1]; kB := [Some 0; Some 1];
     kH := [Some 1; Some 0]; kQ := [Some 0; Some 0; Some 0; Some 0];
     kR := [Some 100]; kdt := 1 |}%Z.
Definition zero4 : matrix Z := [Some 0; Some 0; Some 0; Some 0]%Z.

Lemma avr_setup_is : avr_setup = Ok (50%Z, avr_prm, zero4, [Some 0; Some 0]%Z).
Proof.
  unfold avr_setup. rewrite (of_real_near (fp32 16) (1/5)%R 0 fp32_16).
  - reflexivity.
  - lra.
  - change (IZR (2 ^ fx_F (fp32 16))) with 1%R. lra.
  - unfold in_range. cbn. lia.
Qed.

Lemma chk_bind {B} w v (k : Z -> outcome B) r :
  bind (chk w v) k = Ok r -> k v = Ok r /\ (- 2 ^ (w - 1) <= v < 2 ^ (w - 1))%Z.
Proof.
  intros H. apply bind_inv in H as (x & H1 & H2). apply chk_Ok in H1 as [-> R]. auto.
Qed.

Lemma mul16_1 v : in_range (fp32 16) v -> fx_mul (fp32 16) 1 v = Ok v.
Proof.
  intros R. rewrite mul_shape; [|apply fp32_16|unfold in_range; cbn; lia|assumption].
  change (2 ^ fx_F (fp32 16))%Z with 1%Z. rewrite Z.div_1_r, Z.mul_1_l.
  rewrite wrap_in by (assumption || apply fp32_16). reflexivity.
Qed.

Lemma mul16_0 v : in_range (fp32 16) v -> fx_mul (fp32 16) 0 v = Ok 0%Z.
Proof.
  intros R. rewrite mul_shape; [|apply fp32_16|unfold in_range; cbn; lia|assumption].
  reflexivity.
Qed.

Lemma add16 a b r : fx_add (fp32 16) a b = Ok r -> r = (a + b)%Z /\ in_range (fp32 16) (a + b).
Proof.
  intros H. assert (X : in_range (fp32 16) (a + b)).
  { unfold fx_add in H. apply bind_inv in H as (x & H & _). apply chk_Ok in H as [_ H]. exact H. }
  rewrite add_exact in H by (assumption || apply fp32_16). split; [congruence|assumption].
Qed.

Lemma add16_0 a : in_range (fp32 16) a -> fx_add (fp32 16) 0 a = Ok a.
Proof.
  intros R. rewrite add_exact by (assumption || apply fp32_16). reflexivity.
Qed.

Lemma add16_0_r a : in_range (fp32 16) a -> fx_add (fp32 16) a 0 = Ok a.
Proof.
  intros R. rewrite add_exact by (rewrite ?Z.add_0_r; assumption || apply fp32_16).
  rewrite Z.add_0_r. reflexivity.
Qed.

Ltac r16 :=
  repeat (first [rewrite mul16_1 by assumption | rewrite mul16_0 by assumption
                |rewrite add16_0 by assumption | rewrite add16_0_r by assumption];
          cbv -[fx_mul fx_add fp32 in_range]).

Lemma avr_update st u z p v st' :
  kP st = zero4 -> kx st = [Some p; Some v] ->
  in_range (fp32 16) p -> in_range (fp32 16) v -> in_range (fp32 16) u ->
  update (fx_scalar (fp32 16)) 1 1 avr_prm st [Some u] [Some z] = Ok st' ->
  kP st' = zero4 /\ kx st' = [Some (p + v); Some (v + u)]%Z /\
  in_range (fp32 16) (p + v) /\ in_range (fp32 16) (v + u) /\ kK st' = [Some 0; Some 0]%Z.
Proof.
  intros HP HX RP RV RU H. pose proof (zero_in (fp32 16) fp32_16) as R0. unfold update in H. rewrite HP, HX in H.
  apply bind_inv in H as (t & _ & H).
  apply bind_inv in H as (xm & EX & H).
  apply bind_inv in H as (Pm & EP & H). vm_compute in EP. injection EP as <-.
  apply bind_inv in H as (K & EK & H). vm_compute in EK. injection EK as <-.
  apply bind_inv in H as (xc & EC & H).
  apply bind_inv in H as (Pc & EPc & H). vm_compute in EPc. injection EPc as <-.
  injection H as <-. cbn [kP kx kK].
  assert (EM : exists s1 s2, fx_add (fp32 16) p v = Ok s1 /\ fx_add (fp32 16) v u = Ok s2 /\
    xm = [Some s1; Some s2]).
  { revert EX. cbv -[fx_mul fx_add fp32 in_range]. r16.
    destruct (fx_add (fp32 16) p v) as [s1|] eqn:E1; [|intros EX; discriminate EX].
    destruct (add16 _ _ _ E1) as [D1 R1]. rewrite <- D1 in R1. clear D1. r16.
    destruct (fx_add (fp32 16) v u) as [s2|] eqn:E2; [|intros EX; discriminate EX].
    intros EX. injection EX as <-. eauto. }
  destruct EM as (s1 & s2 & E1 & E2 & ->).
  apply add16 in E1 as [-> R1]. apply add16 in E2 as [-> R2]. clear EX.
  generalize dependent (p + v)%Z. generalize dependent (v + u)%Z. intros s2 R2 s1 EC R1.
  assert (xc = [Some s1; Some s2]%Z) as ->; [|auto].
  apply bind_inv in EC as (hx & _ & EC). apply bind_inv in EC as (y & _ & EC).
  apply bind_inv in EC as (Ky & EK & EC).
  apply mul_ms_21_inv in EK as (k0 & k1 & q0 & q1 & K0 & K1 & Q0 & Q1 & ->).
  injection K0 as <-. injection K1 as <-.
  assert (Z0 : forall q, fx_mul (fp32 16) 0 y = Ok q -> q = 0%Z).
  { intros q Hq. unfold fx_mul in Hq. rewrite Z.mul_0_l in Hq. cbn in Hq. congruence. }
  apply Z0 in Q0. apply Z0 in Q1. subst q0 q1. revert EC.
  cbv -[fx_mul fx_add fp32 in_range]. r16. congruence.
Qed.

(** Every run of the estimator with the parameters of that build, whatever is measured:
    the gain is 0 and the estimate is what dead reckoning gives. *)
Theorem C119_measurements_ignored :
  forall dur prm P x, avr_setup = Ok (dur, prm, P, x) ->
  forall (us zs : list Z) st',
  length us = length zs -> Forall (in_range (fp32 16)) us ->
  run (fx_scalar (fp32 16)) 1 1 prm (kalman_init (fx_scalar (fp32 16)) true 1 P x)
      (combine (map (fun u => [Some u]) us) (map (fun z => [Some z]) zs)) = Ok st' ->
  kx st' = [Some (fst (dead_reckoning 0 0 us)); Some (snd (dead_reckoning 0 0 us))] /\
  kK st' = [Some 0; Some 0]%Z.
Proof.
  intros dur prm P x HS. rewrite avr_setup_is in HS. injection HS as <- <- <- <-.
  assert (G : forall us zs st p v st',
    length us = length zs -> Forall (in_range (fp32 16)) us ->
    kP st = zero4 -> kK st = [Some 0; Some 0]%Z -> kx st = [Some p; Some v] ->
    in_range (fp32 16) p -> in_range (fp32 16) v ->
    run (fx_scalar (fp32 16)) 1 1 avr_prm st
      (combine (map (fun u => [Some u]) us) (map (fun z => [Some z]) zs)) = Ok st' ->
    kx st' = [Some (fst (dead_reckoning p v us)); Some (snd (dead_reckoning p v us))] /\
    kK st' = [Some 0; Some 0]%Z).
  { induction us as [|u us IH]; intros [|z zs] st p v st' L F HP HK HX Rp Rv H;
      try discriminate L.
    - injection H as <-. auto.
    - cbn [map combine run] in H. apply bind_inv in H as (st1 & E1 & H).
      inversion F as [|? ? Fu Fus]; subst.
      apply (avr_update st u z p v st1) in E1 as (P1 & X1 & R1 & R2 & K1); [|assumption..].
      cbn [dead_reckoning]. apply (IH zs st1); auto. }
  intros us zs st' L F. apply G; auto; unfold in_range; cbn; lia.
Qed.
Print Assumptions C119_measurements_ignored.

(** The program ends at 1225 instead of 1250, and with a measurement 1000 m off the
    estimator does not move. *)
Theorem C119_wrong_position :
  exists a st, fx_of_real (fp32 16) (1/5)%R = Ok a /\
  sim_main (fixed_numeric (fp32 16)) true a 50
    = Ok (Some (50, [Some 1225; Some 50], st))%Z /\ kx st = [Some 1225; Some 50]%Z.
Proof.
  exists 0%Z.
  destruct (sim_main (fixed_numeric (fp32 16)) true 0%Z 50) as [[[[n x] st]|]|] eqn:E;
    vm_compute in E; try discriminate.
  exists st. split.
  - apply of_real_near; [apply fp32_16|lra| |unfold in_range; cbn; lia].
    change (IZR (2 ^ fx_F (fp32 16))) with 1%R. lra.
  - injection E as <- <- <-. auto.
Qed.
Print Assumptions C119_wrong_position.

Example C119_case :
  (exists dur prm P x, avr_setup = Ok (dur, prm, P, x)) /\
  match run (fx_scalar (fp32 16)) 1 1 avr_prm
    (kalman_init (fx_scalar (fp32 16)) true 1 zero4 [Some 0; Some 0]%Z)
    [([Some 1], [Some 1000]); ([Some 1], [Some (-1000)]); ([Some 3], [Some 7])]%Z with
  | Ok st => kx st = [Some 3; Some 5]%Z
  | Err _ => False
  end.
Proof.
  split.
  - rewrite avr_setup_is. eauto.
  - vm_compute. reflexivity.
Qed.

(** ** C120: the desktop simulation *)

(** Rounding destroys the symmetry of the covariance (C14 does not carry over). *)
Theorem C120_fixed_symmetry_refuted :
  exists a P0 x0 prm dur n x st p00 p01 p10 p11,
  fx_of_real (fp32 32) (1/5)%R = Ok a /\
  sim_setup (fixed_numeric (fp32 32)) a = Ok (dur, prm, P0, x0) /\
  (exists q00 q01 q11, P0 = [Some q00; Some q01; Some q01; Some q11]) /\
  sim_main (fixed_numeric (fp32 32)) false a 50 = Ok (Some (n, x, st)) /\
  kP st = [Some p00; Some p01; Some p10; Some p11] /\ p01 <> p10.
Proof.
  exists 13107%Z.
  destruct (sim_setup (fixed_numeric (fp32 32)) 13107%Z) as [[[[dur prm] P0] x0]|] eqn:E0;
    vm_compute in E0; [|discriminate].
  destruct (sim_main (fixed_numeric (fp32 32)) false 13107%Z 50) as [[[[n x] st]|]|] eqn:E;
    vm_compute in E; try discriminate.
  injection E0 as <- <- <- <-. injection E as <- <- <-.
  eexists _, _, _, _, _, _, _, _, _, _, _.
  split; [apply of_real_near; [apply fp32_32|lra| |unfold in_range; cbn; lia];
          change (IZR (2 ^ fx_F (fp32 32))) with 65536%R; lra|].
  split; [reflexivity|]. split; [eexists _, _, _; reflexivity|]. split; [reflexivity|].
  split; [reflexivity|]. lia.
Qed.
Print Assumptions C120_fixed_symmetry_refuted.

(** What is plotted: everything is as labelled, except that the "error covariance of the
    velocity" is the covariance of position and velocity. *)
Theorem C120_plot :
  forall (x : vec2) (e : est) (k : vec2), eK e = Some k ->
  sim_record (encv x) (enc_est e) = Ok {|
    p_pos := v0 x; p_poshat := v0 (ex e); p_posgain := v0 k; p_posecov := m00 (eP e);
    p_vel := v1 x; p_velhat := v1 (ex e); p_velgain := v1 k; p_velecov := m01 (eP e) |}.
Proof.
  intros [a b] [K [p q r t] [xp xv] tt] [k0 k1] HK. cbn [eK] in HK. subst K. reflexivity.
Qed.
Print Assumptions C120_plot.

Theorem C120_velocity_variance_refuted :
  ~ (forall (h : list (R * R)) e pl,
     run R_scalar 1 1 (enc_sys sim_sys)
       (kalman_init R_scalar false 1 (enc2 sim_Q) (encv (V2 0 0))) (enc_hist h) = Ok (enc_est e) ->
     sim_record (encv (V2 0 0)) (enc_est e) = Ok pl -> p_velecov pl = m11 (eP e)).
Proof.
  intros H.
  specialize (H [(0, 0)]%R (krun sim_sys (Est None sim_Q (V2 0 0) 0) [(0, 0)]%R)).
  rewrite kalman_init_enc in H. specialize (fun pl => H pl (run_enc _ _ _)).
  rewrite (C120_plot _ _ (kgain sim_sys (Ppred sim_sys sim_Q))) in H by reflexivity.
  specialize (H _ eq_refl). revert H.
  cbn [p_velecov krun kstep eP]. unfold kgain. destruct (Req_EM_T _ 0) as [E|E].
  - exfalso. revert E. unfold Sinn, Ppred, quad, vdot, mv, sim_sys, sim_Q; simpl. lra.
  - clear E. unfold Kopt, Sinn, Pcorr, Ppred, quad, vdot, mv, sim_sys, sim_Q; simpl. lra.
Qed.
Print Assumptions C120_velocity_variance_refuted.

(** The process noise it adds, from two independent draws of mean 0 and variance 1: its
    covariance is accelnoise^2 * diag (dt^4/4, dt^2), not the matrix Q given to the
    estimator. *)
Theorem C120_process_noise :
  forall (Om : Type) (E : (Om -> R) -> R) (g1 g2 : Om -> R) (dt a : R),
  expectation E ->
  E g1 = 0%R -> E g2 = 0%R -> E (fun o => g1 o * g1 o)%R = 1%R ->
  E (fun o => g2 o * g2 o)%R = 1%R -> E (fun o => g1 o * g2 o)%R = 0%R ->
  exists w : Om -> vec2,
    (forall o, process_noise double_numeric dt a (g1 o) (g2 o) = Ok (encv (w o))) /\
    mean E w = V2 0 0 /\
    moment E w w = mscale (a * a) (M2 (dt * dt * dt * dt / 4) 0 0 (dt * dt)) /\
    (a <> 0 -> dt <> 0 -> moment E w w <>
       mscale (a * a) (M2 (dt * dt * dt * dt / 4) (dt * dt * dt / 2)
                          (dt * dt * dt / 2) (dt * dt)))%R.
Proof.
  intros Om E g1 g2 dt a HE H1 H2 H11 H22 H12.
  exists (fun o => V2 (dt * dt / 2 * g1 o * a) (dt * g2 o * a))%R.
  assert (X : moment E (fun o => V2 (dt * dt / 2 * g1 o * a) (dt * g2 o * a))%R
                (fun o => V2 (dt * dt / 2 * g1 o * a) (dt * g2 o * a))%R
              = mscale (a * a) (M2 (dt * dt * dt * dt / 4) 0 0 (dt * dt))).
  { unfold moment, mscale; cbn [v0 v1 m00 m01 m10 m11]. f_equal.
    - rewrite (E_lin' HE (dt * dt / 2 * a * (dt * dt / 2 * a)) 0 (fun o => g1 o * g1 o)%R g1)
        by (intros; ring). rewrite H11. field.
    - rewrite (E_lin' HE (dt * dt / 2 * a * (dt * a)) 0 (fun o => g1 o * g2 o)%R g1)
        by (intros; ring). rewrite H12. field.
    - rewrite (E_lin' HE (dt * dt / 2 * a * (dt * a)) 0 (fun o => g1 o * g2 o)%R g1)
        by (intros; ring). rewrite H12. field.
    - rewrite (E_lin' HE (dt * a * (dt * a)) 0 (fun o => g2 o * g2 o)%R g1)
        by (intros; ring). rewrite H22. field. }
  split; [|split; [|split; [exact X|]]].
  - intros o. generalize (g1 o) (g2 o). intros r1 r2.
    cbv -[Rplus Rminus Rmult Rdiv Ropp Rinv Req_EM_T IZR].
    destruct (Req_EM_T 2 0) as [C|_]; [exfalso; lra|]. reflexivity.
  - unfold mean; cbn [v0 v1]. f_equal.
    + rewrite (E_lin' HE (dt * dt / 2 * a) 0 g1 g2) by (intros; ring). rewrite H1. ring.
    + rewrite (E_lin' HE (dt * a) 0 g2 g1) by (intros; ring). rewrite H2. ring.
  - intros Ha Hd. rewrite X. intros C. apply (f_equal m01) in C. cbn [m01 mscale] in C.
    assert (D : (a * a * (dt * dt * dt) <> 0)%R)
      by (repeat apply Rmult_integral_contrapositive_currified; assumption).
    apply D. lra.
Qed.
Print Assumptions C120_process_noise.

Example C120_case :
  exists g1 g2 : coins -> R, expectation fair /\
  fair g1 = 0%R /\ fair g2 = 0%R /\ fair (fun o => g1 o * g1 o)%R = 1%R /\
  fair (fun o => g2 o * g2 o)%R = 1%R /\ fair (fun o => g1 o * g2 o)%R = 0%R.
Proof.
  exists (fun c => v1 (ex_w 0 c)), (fun c => v1 (ex_w 1 c)). split; [exact fair_expectation|].
  unfold fair, flip, ex_w, sg; cbn [v1]. repeat split; lra.
Qed.
