(** * Constant data, and the timing program (time/avr-kalman-time.cpp)

    C154 and C155 of properties.jsonl. *)

From Verif Require Import Register RegisterSpec RegisterProofs Atmega AtmegaSpec AtmegaProofs
  AdcDac PropsAdcDac AvrExamples PropsAvrExamples.
From Coq Require Import Reals List Lra Lia Psatz ZArith.
From Verif Require Import Base Matrix Scalars Kalman KalmanSpec KalmanProofs PropsKalman
  StochasticSpec StochasticProofs PropsRiccati ConvergenceSpec ConvergenceProofs PropsConvergence
  ConstantProofs FixedPoint FixedSpec FixedProofs KalmanSim PropsKalmanSim TimeProgram.
Import ListNotations.
Local Open Scope R_scope.

(** ** C154: constant data *)

(** An update in the steady state [Pinf] leaves the estimate [x] as it is. *)
Definition rests (s : sys) (Pinf : mat2) (u z : R) (x : vec2) : Prop :=
  forall e e', eP e = Pinf -> ex e = x ->
  update R_scalar 1 1 (enc_sys s) (enc_est e) (enc1 u) (enc1 z) = Ok (enc_est e') ->
  ex e' = x.

(** When input and measurement stay the same, whatever they are and whether or not they are
    consistent with each other, the estimate converges geometrically to a state that does not
    depend on where it started: the only one that the steady state leaves as it is. *)
Theorem C154_constant_data :
  forall s : sys,
  0 < sR s -> sym (sQ s) -> psd (sQ s) -> observable s -> controllable s ->
  exists rho, 0 < rho < 1 /\
  forall Pinf Kinf, steady_state s Pinf Kinf ->
  forall u z : R, exists xinf,
  (forall x, rests s Pinf u z x <-> x = xinf) /\
  forall P : mat2, covariances_ok s P -> exists C, 0 < C /\
  forall (n : nat) (x : vec2) e,
  run R_scalar 1 1 (enc_sys s) (kalman_init R_scalar false 1 (enc2 P) (encv x))
      (enc_hist (repeat (u, z) n)) = Ok (enc_est e) ->
  norm1 (vsub (ex e) xinf) <= C * rho ^ n * (norm1 (vsub x xinf) + 1).
Proof.
  intros s HR HQ HQp Ho Hc. destruct (constant_tends s HR HQ HQp Ho Hc) as (q & Hq & L).
  exists q. split; [assumption|]. intros Pi Ki SS u z. destruct (steady_pstep s Pi Ki SS) as (Ci & Fi & _).
  exists (rest s Pi u z). split.
  - intros x. rewrite <- (rest_iff s HR HQ HQp Ho Hc Pi u z x Ci Fi). split.
    + intros Hx. specialize (Hx (fresh Pi x) _ eq_refl eq_refl (update_enc _ _ _ _)).
      rewrite kstep_affine in Hx. exact Hx.
    + intros Hx e e' E1 E2 H. apply update_reach in H as ->. rewrite kstep_affine, E1, E2. exact Hx.
  - intros P CP. destruct (L Pi Ci Fi u z P CP) as (C & HC & LC). exists C. split; [assumption|].
    intros n x e H. rewrite (run_init_reach _ _ _ _ _ H). apply LC.
Qed.
Print Assumptions C154_constant_data.

(** When the data are those of a state that does not move, that is the state found. *)
Theorem C154_consistent :
  forall s : sys,
  0 < sR s -> sym (sQ s) -> psd (sQ s) -> observable s -> controllable s ->
  forall (u : R) (x0 : vec2),
  vadd (mv (sA s) x0) (vscale u (sB s)) = x0 ->
  exists rho, 0 < rho < 1 /\
  forall P : mat2, covariances_ok s P -> exists C, 0 < C /\
  forall (n : nat) (x : vec2) e,
  run R_scalar 1 1 (enc_sys s) (kalman_init R_scalar false 1 (enc2 P) (encv x))
      (enc_hist (repeat (u, vdot (sH s) x0) n)) = Ok (enc_est e) ->
  norm1 (vsub (ex e) x0) <= C * rho ^ n * (norm1 (vsub x x0) + 1).
Proof.
  intros s HR HQ HQp Ho Hc u x0 E0. destruct (constant_tends s HR HQ HQp Ho Hc) as (q & Hq & L).
  exists q. split; [assumption|]. intros P CP.
  destruct (steady_tends s HR HQ HQp Ho Hc) as (Pi & Ci & Fi & _).
  assert (X : x0 = rest s Pi u (vdot (sH s) x0)).
  { apply (rest_iff s HR HQ HQp Ho Hc Pi u _ x0 Ci Fi).
    pose proof (kstep_affine s (fresh Pi x0) u (vdot (sH s) x0)) as K. cbn [fresh eP ex] in K. rewrite <- K.
    unfold kstep, xcorr, xpred. cbn [ex fresh]. rewrite E0.
    generalize (kgain s (Ppred s Pi)). intros []. destruct x0, (sH s). unfold vadd, vscale, vdot. apply vec2_eq; simpl; ring. }
  destruct (L Pi Ci Fi u (vdot (sH s) x0) P CP) as (C & HC & LC). exists C. split; [assumption|].
  intros n x e H. rewrite (run_init_reach _ _ _ _ _ H). specialize (LC n x). rewrite <- X in LC. exact LC.
Qed.
Print Assumptions C154_consistent.

(** A system at rest: position 3, velocity 0, no acceleration; and data that are not
    consistent. *)
Example C154_case :
  vadd (mv (sA sim_sys) (V2 3 0)) (vscale 0 (sB sim_sys)) = V2 3 0 /\
  steady_state sim_sys sim_Pinf sim_Kinf /\ covariances_ok sim_sys sim_Q /\
  observable sim_sys /\ controllable sim_sys.
Proof.
  split; [unfold sim_sys, vadd, mv, vscale; apply vec2_eq; simpl; ring|].
  split; [apply C144_simulation|]. split; [apply C144_case|]. split; [apply sim_observable|apply sim_controllable].
Qed.

(** ** C155: the timing program *)

Lemma time_loop_split {T} (nt : numeric T) hw g prm u z n : forall m st,
  time_loop nt hw g prm u z n m st =
  (st' <- run_timed (nt_sc nt) 1 1 g prm st (repeat (u, z) n) ;; Ok (Nat.iter n (time_blink_led hw) m, st')).
Proof.
  induction n as [|n IH]; intros m st; [reflexivity|]. cbn [time_loop repeat run_timed].
  destruct (update_timed (nt_sc nt) 1 1 g prm st u z) as [st1|e]; [|reflexivity]. cbn [bind]. rewrite IH.
  destruct (run_timed _ _ _ _ _ _ _); [|reflexivity]. cbn [bind]. do 2 f_equal.
  clear. induction n as [|n IH]; [reflexivity|].
  change (Nat.iter (S n) (time_blink_led hw) (time_blink_led hw m))
    with (time_blink_led hw (Nat.iter n (time_blink_led hw) (time_blink_led hw m))).
  change (Nat.iter (S (S n)) (time_blink_led hw) m) with (time_blink_led hw (Nat.iter (S n) (time_blink_led hw) m)).
  now rewrite IH.
Qed.

(** The light changes once in each pass of the loop: it is on (the port bit is set) after an
    even number of passes; nothing else but its direction and the pull-ups of its port is
    changed.  So a period of the light is two passes. *)
Theorem C155_light :
  forall (T : Type) (nt : numeric T) avr g a n m m' st, bytes_ok (byte m) ->
  time_main nt atmega avr g a n m = Ok (m', st) ->
  byte m' 0x25%Z = (if Nat.even n then 0xff else 0xdf)%Z /\
  byte m' 0x24%Z = Z.lor (byte m 0x24%Z) 0x20 /\
  same_but [0x24; 0x25]%Z (byte m) (byte m').
Proof.
  intros T nt avr g a n m m' st Hm H. unfold time_main in H.
  apply bind_inv in H as ([[[[prm P] x] u] z] & _ & H). rewrite time_loop_split in H.
  apply bind_inv in H as (st' & _ & H). injection H as <- <-.
  destruct (C123_blink n m Hm) as (_ & B). cbv zeta in B.
  assert (E : Nat.iter n (time_blink_led atmega) (time_init_led atmega m) = snd (blink_main atmega n m)).
  { clear. induction n as [|n IH]; [reflexivity|].
    change (Nat.iter (S n) (time_blink_led atmega) (time_init_led atmega m))
      with (time_blink_led atmega (Nat.iter n (time_blink_led atmega) (time_init_led atmega m))).
    change (blink_main atmega (S n) m) with (blink_round atmega (blink_main atmega n m)).
    rewrite IH. destruct (blink_main atmega n m). reflexivity. }
  rewrite E. exact B.
Qed.
Print Assumptions C155_light.

(** The constants over the reals. *)
Lemma time_setup_R :
  time_setup double_numeric (1/5)
  = Ok (enc_sys sim_sys, enc2 sim_Q, encv (V2 0 0), enc1 1, enc1 (1/2)).
Proof.
  unfold enc_sys, sim_sys, sim_Q, mscale, enc2, encv, enc1. cbn [m00 m01 m10 m11 v0 v1 sA sB sH sQ sR sdt].
  cbv -[Rplus Rminus Rmult Rdiv Ropp Rinv Req_EM_T IZR].
  repeat match goal with |- context [Req_EM_T ?a ?b] =>
    destruct (Req_EM_T a b) as [?E|?E]; [exfalso; lra|] end.
  apply f_equal.
  repeat match goal with
  | |- (_, _) = (_, _) => apply f_equal2
  | |- _ :: _ = _ :: _ => apply f_equal2
  | |- Some _ = Some _ => apply f_equal
  | |- {| kA := _ |} = {| kA := _ |} => f_equal
  | |- ?a = ?a => reflexivity
  end; lra.
Qed.

Lemma enc_hist_repeat u z n : repeat (enc1 u, enc1 z) n = enc_hist (repeat (u, z) n).
Proof. induction n as [|n IH]; [reflexivity|]. cbn [repeat]. rewrite IH. reflexivity. Qed.

(** The measurement is made once, before the loop, while the input says that the state keeps
    accelerating: the estimate comes to rest where both pull equally,
    at 45.7 m and 9.5 m/s. *)
Definition time_rest : vec2 :=
  V2 (1/2 + (1 - v0 sim_Kinf) / v1 sim_Kinf) (v0 sim_Kinf / v1 sim_Kinf - 1/2).

Theorem C155_settles :
  exists C rho, 0 < rho < 1 /\ 0 < C /\
  forall avr n m, exists m' st x,
  time_main double_numeric atmega avr true (1/5) n m = Ok (m', st) /\ kx st = encv x /\
  Rabs (v0 x - v0 time_rest) <= C * rho ^ n /\ Rabs (v1 x - v1 time_rest) <= C * rho ^ n /\
  45.7 < v0 time_rest < 45.8 /\ 9.5 < v1 time_rest < 9.6.
Proof.
  destruct C144_simulation as (SS & _ & _ & _ & B0 & B1). unfold Q2R in B0, B1. cbn [QArith_base.Qnum QArith_base.Qden] in B0, B1.
  destruct (steady_pstep _ _ _ SS) as (Ci & Fi & Ki).
  destruct sim_ok as (_ & _ & q1 & q2 & _).
  assert (HR : 0 < sR sim_sys) by (simpl; lra).
  destruct (constant_tends sim_sys HR q1 q2 sim_observable sim_controllable) as (q & Hq & L).
  destruct (L _ Ci Fi 1 (1/2) sim_Q ltac:(apply C144_case)) as (C & HC & LC).
  assert (K1 : v1 sim_Kinf <> 0) by lra.
  assert (E : time_rest = rest sim_sys sim_Pinf 1 (1/2)).
  { apply (rest_iff sim_sys HR q1 q2 sim_observable sim_controllable sim_Pinf 1 (1/2) _ Ci Fi).
    unfold drive, fmat. rewrite Ki. unfold time_rest. destruct sim_Kinf as [a b]. cbn [v0 v1] in *.
    unfold sim_sys, vadd, mv, mmul, msub, mI, vouter, vscale. apply vec2_eq; simpl; field; assumption. }
  rewrite <- E in LC.
  set (D := norm1 (vsub (V2 0 0) time_rest) + 1). assert (D0 : 0 < D) by (unfold D; pose proof (norm1_nonneg (vsub (V2 0 0) time_rest)); lra).
  exists (C * D), q. split; [assumption|]. split; [now apply Rmult_lt_0_compat|]. intros avr n m.
  assert (RR : exists st e, run R_scalar 1 1 (enc_sys sim_sys) (kalman_init R_scalar avr 1 (enc2 sim_Q) (encv (V2 0 0)))
     (repeat (enc1 1, enc1 (1/2)) n) = Ok st /\ kx st = encv (ex e) /\ ex e = ex (krun sim_sys (fresh sim_Q (V2 0 0)) (repeat (1, 1/2) n))).
  { rewrite enc_hist_repeat. destruct avr.
    - set (e0 := {| eK := Some (V2 0 0); eP := sim_Q; ex := V2 0 0; et := 0 |}).
      change (kalman_init R_scalar true 1 (enc2 sim_Q) (encv (V2 0 0))) with (enc_est e0).
      exists (enc_est (krun sim_sys e0 (repeat (1, 1/2) n))), (krun sim_sys e0 (repeat (1, 1/2) n)).
      split; [apply run_enc|]. split; [reflexivity|].
      assert (X : forall h e e', eP e = eP e' -> ex e = ex e' -> ex (krun sim_sys e h) = ex (krun sim_sys e' h)).
      { induction h as [|[u z] h IH]; intros e e' E1 E2; [exact E2|]. cbn [krun]. apply IH; unfold kstep; cbn [eP ex]; now rewrite E1, ?E2. }
      now apply X.
    - exists (enc_est (krun sim_sys (fresh sim_Q (V2 0 0)) (repeat (1, 1/2) n))), (krun sim_sys (fresh sim_Q (V2 0 0)) (repeat (1, 1/2) n)).
      split; [apply init_run|]. split; reflexivity. }
  destruct RR as (st & e & R1 & R2 & R3).
  destruct (C23_timed_variant_agrees _ _ _ _ _ _ _ _ _ _ R1) as (st' & T1 & _ & _ & T2 & _).
  exists (Nat.iter n (time_blink_led atmega) (time_init_led atmega m)), st', (ex e).
  split; [|split; [congruence|]].
  - unfold time_main. rewrite time_setup_R, bind_Ok. rewrite time_loop_split. change (nt_sc double_numeric) with R_scalar.
    rewrite T1. reflexivity.
  - rewrite R3. specialize (LC n (V2 0 0)). fold D in LC.
    set (d := vsub (ex (krun sim_sys (fresh sim_Q (V2 0 0)) (repeat (1, 1/2) n))) time_rest) in LC.
    assert (N : norm1 d <= C * D * q ^ n) by lra. unfold norm1 in N.
    pose proof (Rabs_pos (v0 d)). pose proof (Rabs_pos (v1 d)).
    change (v0 (ex (krun sim_sys (fresh sim_Q (V2 0 0)) (repeat (1, 1/2) n))) - v0 time_rest) with (v0 d).
    change (v1 (ex (krun sim_sys (fresh sim_Q (V2 0 0)) (repeat (1, 1/2) n))) - v1 time_rest) with (v1 d).
    split; [lra|]. split; [lra|].
    unfold time_rest, sim_Kinf. cbn [v0 v1].
    set (t := sqrt 401). assert (T : t * t = 401) by (apply sqrt_sqrt; lra).
    assert (B : 20.02498 < t < 20.02499).
    { assert (0 <= t) by apply sqrt_pos. split; apply Rnot_le_lt; intros X.
      - assert (t * t <= 20.02498 * 20.02498) by (apply Rmult_le_compat; lra). lra.
      - assert (20.02499 * 20.02499 <= t * t) by (apply Rmult_le_compat; lra). lra. }
    assert (H1 : 0 < (201 - t) / 10000) by lra.
    assert (Q : forall a lo hi, lo * ((201 - t) / 10000) < a < hi * ((201 - t) / 10000) -> lo < a / ((201 - t) / 10000) < hi).
    { generalize ((201 - t) / 10000) H1. clear. intros k Hk a lo hi [X Y].
      assert (E : a / k * k = a) by (field; lra).
      split; apply (Rmult_lt_reg_r k); lra. }
    destruct (Q (1 - (201 * t - 401) / 20000) (4521/100) (4529/100)) as [X1 X2]; [lra|].
    destruct (Q ((201 * t - 401) / 20000) (1001/100) (1005/100)) as [X3 X4]; [lra|]. lra.
Qed.
Print Assumptions C155_settles.

(** Without gain updating on AVR the gain stays zero, and the estimate runs away as the input
    says. *)
Theorem C155_runs_away :
  forall n m, exists m' st,
  time_main double_numeric atmega true false (1/5) n m = Ok (m', st) /\
  kx st = encv (V2 (INR n * INR n / 2) (INR n)).
Proof.
  intros n m. unfold time_main. rewrite time_setup_R, bind_Ok. rewrite time_loop_split.
  change (nt_sc double_numeric) with R_scalar. rewrite enc_hist_repeat.
  change (kalman_init R_scalar true 1 (enc2 sim_Q) (encv (V2 0 0)))
    with {| kK := encv (V2 0 0); kP := enc2 sim_Q; kx := encv (V2 0 0); kt := 0 |}.
  rewrite run_timed_avr, bind_Ok. eexists. eexists. split; [reflexivity|]. cbn [kx]. f_equal.
  assert (G : forall k p v, predict_only sim_sys (V2 p v) (repeat (1, 1/2) k)
     = V2 (p + INR k * v + INR k * INR k / 2) (v + INR k)).
  { induction k as [|k IH]; intros p v; [simpl; f_equal; lra|]. cbn [repeat predict_only].
    replace (xpred sim_sys (V2 p v) 1) with (V2 (p + v + 1/2) (v + 1))
      by (unfold xpred, sim_sys; apply vec2_eq; simpl; ring).
    rewrite IH, S_INR. f_equal; field. }
  rewrite G. f_equal; lra.
Qed.
Print Assumptions C155_runs_away.

(** As built for the microcontroller with fp32_t (mk-avr-kalman-time.py), with or without gain
    updating: no fraction bits, a gain of zero; after [n] passes the position is
    [n (n - 1) / 2], and pass 257 overflows, which is undefined. *)
Definition int_state (n : Z) : kstate Z :=
  {| kK := [Some 0; Some 0]; kP := zero4; kx := [Some (n * (n - 1) / 2); Some n]; kt := 0 |}%Z.

Lemma time_setup_16 a : fx_of_real (fp32 16) (1/5) = Ok a ->
  time_setup (fixed_numeric (fp32 16)) a = Ok (avr_prm, zero4, [Some 0; Some 0], [Some 1], [Some 0])%Z.
Proof.
  rewrite (of_real_near (fp32 16) (1/5) 0 fp32_16).
  - intros H. injection H as <-. vm_compute. reflexivity.
  - lra.
  - change (IZR (2 ^ fx_F (fp32 16))) with 1. lra.
  - unfold in_range. cbn. lia.
Qed.

Lemma int_steps g : forall n, (n < 256)%nat ->
  update_timed (fx_scalar (fp32 16)) 1 1 g avr_prm (int_state (Z.of_nat n)) [Some 1%Z] [Some 0%Z]
  = Ok (int_state (Z.of_nat (S n))).
Proof.
  assert (B : map (fun n => update_timed (fx_scalar (fp32 16)) 1 1 g avr_prm (int_state (Z.of_nat n)) [Some 1%Z] [Some 0%Z])
       (seq 0 256) = map (fun n => Ok (int_state (Z.of_nat (S n)))) (seq 0 256)).
  { destruct g; vm_compute; reflexivity. }
  intros n Hn. apply (ext_in_map B n). apply in_seq. lia.
Qed.

Theorem C155_fixed_point :
  forall a g n m, fx_of_real (fp32 16) (1/5) = Ok a ->
  ((n <= 256)%nat -> exists m' st,
     time_main (fixed_numeric (fp32 16)) atmega true g a n m = Ok (m', st) /\
  kx st = [Some (Z.of_nat n * (Z.of_nat n - 1) / 2); Some (Z.of_nat n)]%Z) /\
  ((257 <= n)%nat ->
     time_main (fixed_numeric (fp32 16)) atmega true g a n m = Err SignedOverflow).
Proof.
  intros a g n m Ha. unfold time_main. rewrite (time_setup_16 a Ha), bind_Ok. rewrite time_loop_split.
  change (nt_sc (fixed_numeric (fp32 16))) with (fx_scalar (fp32 16)).
  change (kalman_init (fx_scalar (fp32 16)) true 1 zero4 [Some 0%Z; Some 0%Z]) with (int_state (Z.of_nat 0)).
  assert (G : forall k j, (j + k <= 256)%nat -> forall h,
     run_timed (fx_scalar (fp32 16)) 1 1 g avr_prm (int_state (Z.of_nat j)) (repeat ([Some 1%Z], [Some 0%Z]) k ++ h)
     = run_timed (fx_scalar (fp32 16)) 1 1 g avr_prm (int_state (Z.of_nat (j + k))) h).
  { induction k as [|k IH]; intros j Hj h; [now rewrite Nat.add_0_r|].
    cbn [repeat app run_timed]. rewrite int_steps by lia. rewrite bind_Ok, IH by lia. do 3 f_equal. lia. }
  split; intros Hn.
  - rewrite <- (app_nil_r (repeat _ n)). rewrite G by lia. cbn [run_timed]. rewrite bind_Ok.
    eexists. eexists. split; reflexivity.
  - replace n with (256 + S (n - 257))%nat by lia. rewrite repeat_app, (G 256%nat 0%nat) by lia.
    cbn [repeat run_timed].
    assert (E : update_timed (fx_scalar (fp32 16)) 1 1 g avr_prm (int_state (Z.of_nat (0 + 256))) [Some 1%Z] [Some 0%Z]
      = Err SignedOverflow) by (destruct g; vm_compute; reflexivity).
    rewrite E. reflexivity.
Qed.
Print Assumptions C155_fixed_point.

Example C155_case :
  bytes_ok (byte (Machine (fun _ => 0%Z) [])) /\
  fx_of_real (fp32 16) (1/5) = Ok 0%Z /\
  match time_main (fixed_numeric (fp32 16)) atmega true true 0%Z 5 (Machine (fun _ => 0%Z) []) with
  | Ok (m, st) => byte m 0x25%Z = 0xdf%Z /\ kx st = [Some 10; Some 5]%Z
  | Err _ => False
  end.
Proof.
  split; [intros c; cbn; lia|]. split.
  - apply of_real_near; [apply fp32_16|lra| |unfold in_range; cbn; lia].
    change (IZR (2 ^ fx_F (fp32 16))) with 1. lra.
  - vm_compute. split; reflexivity.
Qed.
