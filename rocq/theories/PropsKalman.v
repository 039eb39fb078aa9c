(** * Properties of the Kalman estimator (include/dsp/kalman.hpp)

    C11 - C26 of properties.jsonl.  Real-number statements use the textbook
    formulation of KalmanSpec.v; [enc_*] is how its values look in the library's
    objects. *)

From Coq Require Import Reals List Lra Lia Psatz ZArith.
From Verif Require Import Base Matrix MatrixSpec MatrixProofs Scalars Kalman KalmanSpec KalmanProofs.
Import ListNotations.
Local Open Scope R_scope.

(** A system used in the examples: the one of example/desktop/kalman.e.cpp with
    dt = 1, measurement noise 10, acceleration noise 1. *)
Definition ex_sys : sys :=
  Sys (M2 1 1 0 1) (V2 (1/2) 1) (V2 1 0) (M2 (1/4) (1/2) (1/2) 1) 100 1.
Definition ex_P : mat2 := M2 (1/4) (1/2) (1/2) 1.

Lemma ex_ok : covariances_ok ex_sys ex_P.
Proof.
  unfold covariances_ok, sym, psd, ex_sys, ex_P, quad, vdot, mv. simpl.
  assert (X : forall x : vec2,
    0 <= v0 x * (1 / 4 * v0 x + 1 / 2 * v1 x) + v1 x * (1 / 2 * v0 x + 1 * v1 x)).
  { intros x. replace (_ + _) with ((v0 x / 2 + v1 x) * (v0 x / 2 + v1 x)) by field.
    exact (Rle_0_sqr _). }
  repeat split; auto; lra.
Qed.

(** ** C11: one update is one textbook step *)

Theorem C11_textbook_step :
  forall (s : sys) (e : est) (u z : R),
  Sinn s (Ppred s (eP e)) <> 0 ->
  update R_scalar 1 1 (enc_sys s) (enc_est e) (enc1 u) (enc1 z)
  = Ok (enc_est (textbook_step s e u z)).
Proof.
  intros s e u z H. rewrite update_enc. unfold kstep, kgain, textbook_step.
  destruct (Req_EM_T _ 0); [contradiction|reflexivity].
Qed.
Print Assumptions C11_textbook_step.

(** No history of updates has undefined behaviour, whatever the system. *)
Theorem C11_no_undefined_behaviour :
  forall (s : sys) (P : mat2) (x : vec2) (h : list (R * R)),
  exists e, run R_scalar 1 1 (enc_sys s)
              (kalman_init R_scalar false 1 (enc2 P) (encv x)) (enc_hist h)
            = Ok (enc_est e).
Proof. intros. rewrite kalman_init_enc, run_enc. eauto. Qed.
Print Assumptions C11_no_undefined_behaviour.

Example C11_case :
  Sinn ex_sys (Ppred ex_sys ex_P) <> 0 /\
  vdot (sH ex_sys) (Kopt ex_sys (Ppred ex_sys ex_P)) <> 0.
Proof. unfold Kopt, Sinn, Ppred, quad, vdot, mv, ex_sys, ex_P; simpl. split; lra. Qed.

(** Two control inputs: the same step with [B u] a matrix-vector product. *)
Theorem C11_two_inputs :
  forall (s : sys) (B : mat2) (e : est) (u : vec2) (z : R),
  let prm := {| kA := enc2 (sA s); kB := enc2 B; kH := encv (sH s); kQ := enc2 (sQ s);
                kR := enc1 (sR s); kdt := sdt s |} in
  let Pm := Ppred s (eP e) in
  let K := Kopt s Pm in
  Sinn s Pm <> 0 ->
  update R_scalar 1 2 prm (enc_est e) (encv u) (enc1 z)
  = Ok (enc_est (Est (Some K) (Pcorr s K Pm)
       (xcorr s K (vadd (mv (sA s) (ex e)) (mv B u)) z) (et e + sdt s))).
Proof.
  intros s B e u z prm Pm K HS.
  assert (Ex : predict_x R_scalar 2 prm (encv (ex e)) (encv u) =
               Ok (encv (vadd (mv (sA s) (ex e)) (mv B u)))).
  { subst prm. kcomp. kentries; ring. }
  pose proof (predict_P_ext R_scalar prm (enc_sys s) (enc2 (eP e)) eq_refl eq_refl) as EP.
  pose proof (gain_ext R_scalar 1 prm (enc_sys s) (enc2 Pm) eq_refl eq_refl) as EK.
  assert (Ek : kgain s Pm = K).
  { unfold kgain. destruct (Req_EM_T (Sinn s Pm) 0); [contradiction|reflexivity]. }
  unfold update. unfold enc_est at 1 2 3. cbn [kt kx kP].
  change (sc_add R_scalar (et e) (kdt prm)) with (Ok (et e + sdt s)).
  rewrite bind_Ok, Ex, bind_Ok, EP, predict_P_enc, bind_Ok. fold Pm. rewrite EK.
  change (gain R_scalar 1) with (gain_1 R_scalar). rewrite gain_1_enc, bind_Ok, Ek.
  change (correct_x R_scalar 1 prm) with (correct_x_1 R_scalar (enc_sys s)).
  change (correct_P R_scalar 1 prm) with (correct_P_1 R_scalar (enc_sys s)).
  rewrite correct_x_1_enc, bind_Ok, correct_P_1_enc, bind_Ok. reflexivity.
Qed.
Print Assumptions C11_two_inputs.

(** ** C12: elapsed time *)

Theorem C12_elapsed_time :
  forall (s : sys) (P : mat2) (x : vec2) (h : list (R * R)) st,
  run R_scalar 1 1 (enc_sys s) (kalman_init R_scalar false 1 (enc2 P) (encv x)) (enc_hist h)
    = Ok st ->
  kt st = INR (length h) * sdt s.
Proof.
  intros s P x h st H. rewrite kalman_init_enc, run_enc in H. injection H as <-.
  assert (X : forall h e, et (krun s e h) = et e + INR (length h) * sdt s).
  { clear. induction h as [|[u z] h IH]; intros e; cbn [krun length].
    - simpl. ring.
    - rewrite IH, S_INR. simpl. ring. }
  unfold enc_est; cbn [kt]. rewrite X. simpl. ring.
Qed.
Print Assumptions C12_elapsed_time.

Example C12_case :
  exists st, run R_scalar 1 1 (enc_sys ex_sys)
    (kalman_init R_scalar false 1 (enc2 ex_P) (encv (V2 0 0))) (enc_hist [(1, 2); (1, 5); (0, 7)])
    = Ok st /\ kt st = 3.
Proof.
  rewrite kalman_init_enc, run_enc. eexists. split; [reflexivity|]. simpl. lra.
Qed.

(** ** C13: gain and covariance do not depend on the data *)

(** For every numeric type, every number of measurements and inputs; initial state, inputs
    and measurements, control matrix and time step may all differ. *)
Theorem C13_data_independence :
  forall (T : Type) (S : scalar T) (avr : bool) (M U : nat) (p1 p2 : kparams T) P x1 x2 h1 h2 r1 r2,
  kA p1 = kA p2 -> kH p1 = kH p2 -> kQ p1 = kQ p2 -> kR p1 = kR p2 ->
  length h1 = length h2 ->
  run S M U p1 (kalman_init S avr M P x1) h1 = Ok r1 ->
  run S M U p2 (kalman_init S avr M P x2) h2 = Ok r2 ->
  kP r1 = kP r2 /\ kK r1 = kK r2.
Proof.
  intros T S avr M U p1 p2 P x1 x2 h1 h2 r1 r2 EA EH EQ ER L R1 R2.
  assert (X : kP r1 = kP r2 /\ (h1 <> [] -> kK r1 = kK r2)).
  { exact (run_cov S M U U p1 p2 h1 h2 (kalman_init S avr M P x1)
               (kalman_init S avr M P x2) r1 r2 EA EQ EH ER eq_refl L R1 R2). }
  destruct X as [X Y]. split; [exact X|].
  destruct h1 as [|a h1]; [|apply Y; congruence].
  destruct h2; [|discriminate]. simpl in R1, R2. injection R1 as <-. injection R2 as <-.
  reflexivity.
Qed.
Print Assumptions C13_data_independence.

Example C13_case :
  exists r1 r2,
  run Z_scalar 1 1 {| kA := [Some 1; Some 1; Some 0; Some 1]; kB := [Some 0; Some 1];
      kH := [Some 1; Some 0]; kQ := [Some 1; Some 0; Some 0; Some 1]; kR := [Some 0]; kdt := 1 |}%Z
    (kalman_init Z_scalar false 1 [Some 0; Some 0; Some 0; Some 0]%Z [Some 0; Some 0]%Z)
    [([Some 1]%Z, [Some 5]%Z)] = Ok r1 /\
  run Z_scalar 1 1 {| kA := [Some 1; Some 1; Some 0; Some 1]; kB := [Some 0; Some 3];
      kH := [Some 1; Some 0]; kQ := [Some 1; Some 0; Some 0; Some 1]; kR := [Some 0]; kdt := 2 |}%Z
    (kalman_init Z_scalar false 1 [Some 0; Some 0; Some 0; Some 0]%Z [Some 7; Some (-2)]%Z)
    [([Some 9]%Z, [Some (-4)]%Z)] = Ok r2 /\
  kx r1 <> kx r2 /\ kK r1 = [Some 1; Some 0]%Z /\ kP r1 = [Some 0; Some 0; Some 0; Some 1]%Z.
Proof.
  eexists. eexists. split; [reflexivity|]. split; [reflexivity|].
  split; [discriminate|]. split; reflexivity.
Qed.

(** ** C14: symmetry *)

Theorem C14_symmetric :
  forall (s : sys) (P : mat2) (x : vec2) (h : list (R * R)) e,
  sym P -> sym (sQ s) ->
  run R_scalar 1 1 (enc_sys s) (kalman_init R_scalar false 1 (enc2 P) (encv x)) (enc_hist h)
    = Ok (enc_est e) ->
  sym (eP e).
Proof.
  intros s P x h e HP HQ H. rewrite (run_init_reach _ _ _ _ _ H).
  apply krun_inv with (I := fun e => sym (eP e)); [|exact HP].
  intros. now apply kstep_sym.
Qed.
Print Assumptions C14_symmetric.

Example C14_case : sym ex_P /\ sym (sQ ex_sys) /\ m01 ex_P <> 0.
Proof. unfold sym, ex_P, ex_sys; simpl. repeat split; lra. Qed.

(** ** C15: positive semidefiniteness *)

Theorem C15_positive_semidefinite :
  forall (s : sys) (P : mat2) (x : vec2) (h : list (R * R)) e,
  covariances_ok s P ->
  run R_scalar 1 1 (enc_sys s) (kalman_init R_scalar false 1 (enc2 P) (encv x)) (enc_hist h)
    = Ok (enc_est e) ->
  psd (eP e) /\ sym (eP e).
Proof.
  intros s P x h e H0 H. rewrite (run_init_reach _ _ _ _ _ H).
  destruct (krun_cov s (fresh P x) h H0) as (a & b & _). auto.
Qed.
Print Assumptions C15_positive_semidefinite.

(** In particular variances are never negative and the off-diagonal element is bounded by
    them. *)
Corollary C15_variances :
  forall (s : sys) (P : mat2) (x : vec2) (h : list (R * R)) e,
  covariances_ok s P ->
  run R_scalar 1 1 (enc_sys s) (kalman_init R_scalar false 1 (enc2 P) (encv x)) (enc_hist h)
    = Ok (enc_est e) ->
  0 <= m00 (eP e) /\ 0 <= m11 (eP e) /\ 0 <= mdet (eP e).
Proof.
  intros s P x h e H0 H.
  destruct (C15_positive_semidefinite s P x h e H0 H) as [Hp Hs].
  generalize dependent (eP e). clear. intros [a b b' c] Hp Hs.
  unfold psd, sym, quad, vdot, mv, mdet in *. simpl in *. subst b'.
  pose proof (Hp (V2 1 0)) as H1. pose proof (Hp (V2 0 1)) as H2. simpl in *.
  assert (0 <= a) by lra. assert (0 <= c) by lra. split; [assumption|]. split; [assumption|].
  pose proof (Hp (V2 b (- a))) as H3. pose proof (Hp (V2 c (- b))) as H4. simpl in *.
  destruct (Rle_lt_dec 0 (a * c - b * b)) as [L|L]; [assumption|exfalso].
  assert (a = 0) by nra. assert (c = 0) by nra. subst a c.
  pose proof (Hp (V2 1 1)) as H5. pose proof (Hp (V2 1 (-1))) as H6. simpl in *.
  assert (b = 0) by lra. subst b. lra.
Qed.
Print Assumptions C15_variances.

Example C15_case : covariances_ok ex_sys ex_P.
Proof. exact ex_ok. Qed.

(** ** C16: a measurement never increases the uncertainty *)

Theorem C16_measurement_reduces_uncertainty :
  forall (s : sys) (P : mat2) (x : vec2) (h : list (R * R)) e u z e',
  covariances_ok s P ->
  run R_scalar 1 1 (enc_sys s) (kalman_init R_scalar false 1 (enc2 P) (encv x)) (enc_hist h)
    = Ok (enc_est e) ->
  update R_scalar 1 1 (enc_sys s) (enc_est e) (enc1 u) (enc1 z) = Ok (enc_est e') ->
  loewner_le (eP e') (Ppred s (eP e)).
Proof.
  intros s P x h e u z e' H0 H HU. rewrite (run_init_reach _ _ _ _ _ H) in *. clear H.
  apply update_reach in HU as ->.
  pose proof (covariances_ok_pred _ _ (krun_cov s (fresh P x) h H0)) as (a & b & _ & _ & c).
  set (Pm := Ppred s (eP (krun s (fresh P x) h))) in *.
  cbn [kstep eP]. fold Pm.
  assert (X : loewner_le (Pcorr s (kgain s Pm) Pm) (Pjoseph s (V2 0 0) Pm))
    by (apply loewner_joseph; auto using kgain_normal, Sinn_nonneg).
  now rewrite joseph_zero in X.
Qed.
Print Assumptions C16_measurement_reduces_uncertainty.

Example C16_case :
  let Pm := Ppred ex_sys ex_P in
  quad (eP (textbook_step ex_sys (fresh ex_P (V2 0 0)) 0 0)) (V2 1 0) < quad Pm (V2 1 0).
Proof.
  unfold textbook_step, fresh, Kopt, Sinn, Ppred, quad, vdot, mv, ex_sys, ex_P. simpl. lra.
Qed.

(** ** C17: short and Joseph form agree exactly for the computed gain *)

Theorem C17_joseph_at_computed_gain :
  forall (s : sys) (e e' : est) (u z : R) (K : vec2),
  sym (eP e) -> sym (sQ s) -> Sinn s (Ppred s (eP e)) <> 0 ->
  update R_scalar 1 1 (enc_sys s) (enc_est e) (enc1 u) (enc1 z) = Ok (enc_est e') ->
  eK e' = Some K ->
  eP e' = Pjoseph s K (Ppred s (eP e)).
Proof.
  intros s e e' u z K HP HQ HS HU HK.
  apply update_reach in HU as ->.
  cbn [kstep eP eK] in *. injection HK as <-.
  apply Pcorr_joseph; [now apply sym_Ppred|]. now apply kgain_normal_nz.
Qed.
Print Assumptions C17_joseph_at_computed_gain.

(** For an arbitrary gain [L] the two forms agree iff [L] is zero or satisfies the normal
    equation [L S = P H^T], i.e. is the computed gain. *)
Theorem C17_joseph_only_at_computed_gain :
  forall (s : sys) (Pm : mat2) (L : vec2),
  sym Pm -> Sinn s Pm <> 0 ->
  (Pcorr s L Pm = Pjoseph s L Pm <-> L = V2 0 0 \/ L = Kopt s Pm).
Proof.
  intros s Pm L Hs HS. pose proof (joseph_minus_short s Pm L Hs) as D. split.
  - intros E. rewrite E in D.
    set (d := vsub (vscale (Sinn s Pm) L) (mv Pm (sH s))) in *.
    assert (D' : vouter d L = M2 0 0 0 0).
    { rewrite <- D. apply mat2_eq; simpl; ring. }
    destruct (Req_EM_T (v0 L) 0) as [L0|L0]; [destruct (Req_EM_T (v1 L) 0) as [L1|L1]|].
    + left. apply vec2_eq; simpl; assumption.
    + right. injection D' as _ D1 _ D2.
      assert (v0 d = 0) by (apply Rmult_integral in D1 as [|]; [assumption|contradiction]).
      assert (v1 d = 0) by (apply Rmult_integral in D2 as [|]; [assumption|contradiction]).
      unfold d, vsub in *. cbn [v0 v1 vscale] in *. unfold Kopt.
      apply vec2_eq; unfold vscale; cbn [v0 v1];
        apply (Rmult_eq_reg_l (Sinn s Pm)); try assumption;
        rewrite <- Rmult_assoc, Rinv_r by assumption; lra.
    + right. injection D' as D1 _ D2 _.
      assert (v0 d = 0) by (apply Rmult_integral in D1 as [|]; [assumption|contradiction]).
      assert (v1 d = 0) by (apply Rmult_integral in D2 as [|]; [assumption|contradiction]).
      unfold d, vsub in *. cbn [v0 v1 vscale] in *. unfold Kopt.
      apply vec2_eq; unfold vscale; cbn [v0 v1];
        apply (Rmult_eq_reg_l (Sinn s Pm)); try assumption;
        rewrite <- Rmult_assoc, Rinv_r by assumption; lra.
  - intros [-> | ->].
    + now rewrite joseph_zero, Pcorr_zero.
    + apply Pcorr_joseph; [assumption|]. unfold Kopt.
      apply vec2_eq; unfold vscale; cbn [v0 v1]; field; assumption.
Qed.
Print Assumptions C17_joseph_only_at_computed_gain.

(** The first iteration of example/desktop/covariance-error.e.cpp: gain {1.1, 1.1} is not
    the optimal one, so the two expressions it compares differ. *)
Example C17_case :
  let s := Sys (M2 1 1 0 1) (V2 0 0) (V2 1 0) (M2 0 0 0 0) (14/100 * (14/100)) 1 in
  let P := mscale (4/100) (M2 (1/4) (1/2) (1/2) 1) in
  let L := V2 (11/10) (11/10) in
  Sinn s P <> 0 /\ sym P /\ m00 (Pcorr s L P) <> m00 (Pjoseph s L P).
Proof.
  unfold sym, Sinn, quad, vdot, mv. simpl. repeat split; lra.
Qed.

(** ** C18: the gain is optimal *)

Theorem C18_gain_optimal :
  forall (s : sys) (P : mat2) (x : vec2) (h : list (R * R)) e u z e' (L : vec2),
  covariances_ok s P ->
  run R_scalar 1 1 (enc_sys s) (kalman_init R_scalar false 1 (enc2 P) (encv x)) (enc_hist h)
    = Ok (enc_est e) ->
  update R_scalar 1 1 (enc_sys s) (enc_est e) (enc1 u) (enc1 z) = Ok (enc_est e') ->
  loewner_le (eP e') (Pjoseph s L (Ppred s (eP e))) /\
  mtrace (eP e') <= mtrace (Pjoseph s L (Ppred s (eP e))).
Proof.
  intros s P x h e u z e' L H0 H HU. rewrite (run_init_reach _ _ _ _ _ H) in *. clear H.
  apply update_reach in HU as ->.
  pose proof (covariances_ok_pred _ _ (krun_cov s (fresh P x) h H0)) as (a & b & _ & _ & c).
  set (Pm := Ppred s (eP (krun s (fresh P x) h))) in *.
  cbn [kstep eP]. fold Pm.
  assert (X : loewner_le (Pcorr s (kgain s Pm) Pm) (Pjoseph s L Pm))
    by (apply loewner_joseph; auto using kgain_normal, Sinn_nonneg).
  split; [exact X|].
  pose proof (X (V2 1 0)) as X1. pose proof (X (V2 0 1)) as X2.
  unfold quad, vdot, mv, mtrace in *. cbn [v0 v1] in *. lra.
Qed.
Print Assumptions C18_gain_optimal.

(** With positive innovation variance it is the only optimal gain. *)
Theorem C18_gain_unique :
  forall (s : sys) (e e' : est) (u z : R) (K L : vec2),
  sym (eP e) -> sym (sQ s) -> 0 < Sinn s (Ppred s (eP e)) ->
  update R_scalar 1 1 (enc_sys s) (enc_est e) (enc1 u) (enc1 z) = Ok (enc_est e') ->
  eK e' = Some K -> L <> K ->
  mtrace (eP e') < mtrace (Pjoseph s L (Ppred s (eP e))).
Proof.
  intros s e e' u z K L HP HQ HS HU HK HL.
  apply update_reach in HU as ->.
  cbn [kstep eP eK] in *. injection HK as <-.
  set (Pm := Ppred s (eP e)) in *.
  rewrite (joseph_square s Pm (kgain s Pm) L)
    by (try apply sym_Ppred; try apply kgain_normal_nz; auto; lra).
  set (K := kgain s Pm) in *. set (Sv := Sinn s Pm) in *.
  assert (D : 0 < vdot (vsub L K) (vsub L K)).
  { destruct L as [l0 l1], K as [k0 k1]. unfold vdot; simpl.
    destruct (Req_EM_T l0 k0) as [->|N0].
    - destruct (Req_EM_T l1 k1) as [->|N1]; [congruence|].
      assert (0 < (l1 - k1) * (l1 - k1)) by (apply Rsqr_pos_lt; lra). lra.
    - assert (0 < (l0 - k0) * (l0 - k0)) by (apply Rsqr_pos_lt; lra).
      pose proof (Rle_0_sqr (l1 - k1)). unfold Rsqr in *. lra. }
  unfold mtrace, madd, mscale, vouter. cbn [m00 m11].
  unfold vdot in D. assert (0 < Sv * (v0 (vsub L K) * v0 (vsub L K) + v1 (vsub L K) * v1 (vsub L K)))
    by (now apply Rmult_lt_0_compat). lra.
Qed.
Print Assumptions C18_gain_unique.

Example C18_case :
  covariances_ok ex_sys ex_P /\ 0 < Sinn ex_sys (Ppred ex_sys ex_P) /\
  V2 0 0 <> Kopt ex_sys (Ppred ex_sys ex_P).
Proof.
  split; [exact ex_ok|]. split.
  - unfold Sinn, Ppred, quad, vdot, mv, ex_sys, ex_P; simpl. lra.
  - unfold Kopt, Sinn, Ppred, quad, vdot, mv, ex_sys, ex_P; simpl. intros H. injection H as H _. lra.
Qed.

(** ** C19: tracking *)

(** Error recursion, in every state and for every noise. *)
Theorem C19_error_recursion :
  forall (s : sys) (e e' : est) (x w : vec2) (u v : R) (K : vec2),
  let x' := true_next s x u w in
  update R_scalar 1 1 (enc_sys s) (enc_est e) (enc1 u) (enc1 (vdot (sH s) x' + v))
    = Ok (enc_est e') ->
  eK e' = Some K ->
  vsub x' (ex e') =
  vsub (mv (msub mI (vouter K (sH s))) (vadd (mv (sA s) (vsub x (ex e))) w)) (vscale v K).
Proof.
  intros s e e' x w u v K x' HU HK.
  apply update_reach in HU as ->.
  cbn [kstep eP eK ex] in *. injection HK as <-. apply err_step.
Qed.
Print Assumptions C19_error_recursion.

(** No noise and exact initial estimate: exact tracking forever, for every system, every
    covariance parameters, every input sequence. *)
Theorem C19_exact_tracking :
  forall (s : sys) (P : mat2) (x : vec2) (h : list (R * vec2 * R)) e,
  Forall (fun uwv => snd (fst uwv) = V2 0 0 /\ snd uwv = 0) h ->
  run R_scalar 1 1 (enc_sys s) (kalman_init R_scalar false 1 (enc2 P) (encv x))
      (enc_hist (observe s x h)) = Ok (enc_est e) ->
  ex e = evolve s x h.
Proof.
  intros s P x h e F H. rewrite (run_init_reach _ _ _ _ _ H). now apply track_exact.
Qed.
Print Assumptions C19_exact_tracking.

Example C19_case :
  evolve ex_sys (V2 0 0) [(1, V2 0 0, 0); (1, V2 0 0, 0)] = V2 2 2 /\
  observe ex_sys (V2 0 0) [(1, V2 0 0, 0); (1, V2 0 0, 0)] = [(1, 1/2); (1, 2)].
Proof.
  unfold evolve, observe, true_next, vdot, ex_sys. simpl. split.
  - apply vec2_eq; simpl; lra.
  - apply (f_equal2 (fun a b => [(1, a); (1, b)])); lra.
Qed.

(** ** C20: zero innovation covariance *)

Theorem C20_zero_innovation_covariance :
  forall (s : sys) (e : est) (u z : R),
  Sinn s (Ppred s (eP e)) = 0 ->
  update R_scalar 1 1 (enc_sys s) (enc_est e) (enc1 u) (enc1 z)
  = Ok (enc_est (Est (Some (V2 0 0)) (Ppred s (eP e)) (xpred s (ex e) u) (et e + sdt s))).
Proof.
  intros s e u z H. rewrite update_enc. unfold kstep, kgain.
  destruct (Req_EM_T _ 0); [|contradiction]. rewrite Pcorr_zero.
  do 3 f_equal. apply vec2_eq; simpl; ring.
Qed.
Print Assumptions C20_zero_innovation_covariance.

(** A fully trusted position and a perfect sensor: zero innovation covariance, although the
    velocity is uncertain. *)
Example C20_case :
  let s := Sys mI (V2 0 1) (V2 1 0) (M2 0 0 0 0) 0 1 in
  let P := M2 0 0 0 5 in
  covariances_ok s P /\ Sinn s (Ppred s P) = 0 /\ m11 (Ppred s P) = 5.
Proof.
  unfold covariances_ok, sym, psd, Sinn, Ppred, quad, vdot, mv. simpl.
  repeat split; try lra; intros x; [|lra].
  pose proof (Rle_0_sqr (v1 x)). unfold Rsqr in *. lra.
Qed.

(** ** C21: superposition *)

Theorem C21_superposition :
  forall (s : sys) (P : mat2) (a b : R) (x1 x2 : vec2) (h1 h2 : list (R * R)) e e1 e2,
  length h1 = length h2 ->
  run R_scalar 1 1 (enc_sys s) (kalman_init R_scalar false 1 (enc2 P) (encv x1)) (enc_hist h1)
    = Ok (enc_est e1) ->
  run R_scalar 1 1 (enc_sys s) (kalman_init R_scalar false 1 (enc2 P) (encv x2)) (enc_hist h2)
    = Ok (enc_est e2) ->
  run R_scalar 1 1 (enc_sys s)
      (kalman_init R_scalar false 1 (enc2 P) (encv (vadd (vscale a x1) (vscale b x2))))
      (enc_hist (map (fun p => (a * fst (fst p) + b * fst (snd p),
                                a * snd (fst p) + b * snd (snd p))) (combine h1 h2)))
    = Ok (enc_est e) ->
  ex e = vadd (vscale a (ex e1)) (vscale b (ex e2)).
Proof.
  intros s P a b x1 x2 h1 h2 e e1 e2 L H1 H2 H.
  rewrite (run_init_reach _ _ _ _ _ H), (run_init_reach _ _ _ _ _ H1), (run_init_reach _ _ _ _ _ H2).
  replace (map _ (combine h1 h2)) with (comb_hist a b h1 h2).
  - exact (krun_comb s a b h1 h2 (fresh P (comb a b x1 x2)) (fresh P x1) (fresh P x2) L eq_refl eq_refl eq_refl).
  - clear. revert h2. induction h1 as [|[u z] h1 IH]; intros [|[u2 z2] h2]; simpl; try reflexivity.
    now rewrite IH.
Qed.
Print Assumptions C21_superposition.

Example C21_case :
  (* innovation gain is not trivial: doubling the measurement doubles the estimate *)
  let K := Kopt ex_sys (Ppred ex_sys ex_P) in
  ex (textbook_step ex_sys (fresh ex_P (V2 0 0)) 0 2) = vscale 2 K /\ v0 K <> 0.
Proof.
  split.
  - unfold textbook_step, fresh. cbn [ex eP].
    generalize (Kopt ex_sys (Ppred ex_sys ex_P)). intros K.
    unfold xcorr, xpred, vdot, mv, ex_sys; simpl. apply vec2_eq; simpl; ring.
  - unfold Kopt, Sinn, Ppred, quad, vdot, mv, ex_sys, ex_P; simpl. lra.
Qed.

(** ** C22: the gain before and after the first update *)

Theorem C22_gain_before_update :
  forall (T : Type) (S : scalar T) (M : nat) (P x : matrix T) (r c : nat),
  (r < 2)%nat -> (c < M)%nat ->
  at2 M (kK (kalman_init S false M P x)) (Z.of_nat r) (Z.of_nat c) = Err Indeterminate /\
  at2 M (kK (kalman_init S true M P x)) (Z.of_nat r) (Z.of_nat c) = Ok (sc_zero S).
Proof.
  intros T S M P x r c Hr Hc. unfold kalman_init, mat_default, at2, at_. cbn [kK].
  replace (Z.of_nat r * Z.of_nat M + Z.of_nat c)%Z with (Z.of_nat (r * M + c)) by lia.
  destruct (Z.ltb_spec (Z.of_nat (r * M + c)) 0); [lia|]. rewrite Nat2Z.id.
  assert (r * M + c < 2 * M)%nat by nia.
  now rewrite !nth_error_repeat by assumption.
Qed.
Print Assumptions C22_gain_before_update.

Theorem C22_gain_after_update :
  forall (T : Type) (S : scalar T) (avr : bool) (M U : nat) prm (P x : matrix T) h st (r c : nat),
  M = 1%nat \/ M = 2%nat -> h <> [] ->
  run S M U prm (kalman_init S avr M P x) h = Ok st ->
  (r < 2)%nat -> (c < M)%nat ->
  exists v, at2 M (kK st) (Z.of_nat r) (Z.of_nat c) = Ok v.
Proof.
  intros T S avr M U prm P x h st r c HM Hh H Hr Hc.
  apply (all_defined_at2 _ 2); try assumption.
  generalize dependent (kalman_init S avr M P x). intros s0 H.
  assert (X : forall h s, h <> [] \/ all_defined (2 * M) (kK s) ->
     run S M U prm s h = Ok st -> all_defined (2 * M) (kK st)).
  { clear - HM. induction h as [|[u z] h IH]; intros s D H; simpl in H.
    - injection H as <-. destruct D; [congruence|assumption].
    - apply bind_inv in H as (s1 & E & H). apply (IH s1); [|assumption].
      right. eapply update_gain_defined; eassumption. }
  eauto.
Qed.
Print Assumptions C22_gain_after_update.

Example C22_case :
  at2 1 (kK (kalman_init Z_scalar false 1 [Some 1; Some 0; Some 0; Some 1]%Z [Some 0; Some 0]%Z)) 0 0
  = Err Indeterminate /\
  at2 1 (kK (kalman_init Z_scalar true 1 [Some 1; Some 0; Some 0; Some 1]%Z [Some 0; Some 0]%Z)) 1 0
  = Ok 0%Z.
Proof. split; reflexivity. Qed.

(** ** C23: the timing program's copy *)

(** Gain updating enabled: same gain, covariance, state for every numeric type; the clock
    stands still. *)
Theorem C23_timed_variant_agrees :
  forall (T : Type) (S : scalar T) (avr : bool) (M U : nat) prm (P x : matrix T) h st,
  run S M U prm (kalman_init S avr M P x) h = Ok st ->
  exists st', run_timed S M U true prm (kalman_init S avr M P x) h = Ok st' /\
    kK st' = kK st /\ kP st' = kP st /\ kx st' = kx st /\ kt st' = sc_zero S.
Proof.
  intros. eexists. split; [exact (run_timed_on S M U prm h _ _ (sc_zero S) H)|].
  repeat split.
Qed.
Print Assumptions C23_timed_variant_agrees.

(** Gain updating disabled: gain and covariance never change. *)
Theorem C23_timed_variant_frozen :
  forall (T : Type) (S : scalar T) (avr : bool) (M U : nat) prm (P x : matrix T) h st,
  run_timed S M U false prm (kalman_init S avr M P x) h = Ok st ->
  kP st = P /\ kK st = mat_default S avr 2 M.
Proof.
  intros T S avr M U prm P x h st H. apply run_timed_off in H as (-> & -> & _). split; reflexivity.
Qed.
Print Assumptions C23_timed_variant_frozen.

(** On AVR the measurements are then ignored; on a desktop the first update reads the
    indeterminate gain. *)
Theorem C23_timed_variant_ignores_measurements :
  forall (s : sys) (P : mat2) (x : vec2) (h1 h2 : list (R * R)),
  map fst h1 = map fst h2 ->
  run_timed R_scalar 1 1 false (enc_sys s) (kalman_init R_scalar true 1 (enc2 P) (encv x)) (enc_hist h1) =
  run_timed R_scalar 1 1 false (enc_sys s) (kalman_init R_scalar true 1 (enc2 P) (encv x)) (enc_hist h2)
  /\ exists st, run_timed R_scalar 1 1 false (enc_sys s)
       (kalman_init R_scalar true 1 (enc2 P) (encv x)) (enc_hist h1) = Ok st.
Proof.
  intros s P x h1 h2 E.
  change (kalman_init R_scalar true 1 (enc2 P) (encv x))
    with {| kK := encv (V2 0 0); kP := enc2 P; kx := encv x; kt := 0 |}.
  rewrite !run_timed_avr. split; [|eauto].
  do 3 f_equal. revert h2 x E.
  induction h1 as [|[u z] h1 IH]; intros [|[u2 z2] h2] x E; try discriminate; [reflexivity|].
  simpl in *. injection E as -> E. now apply IH.
Qed.
Print Assumptions C23_timed_variant_ignores_measurements.

Theorem C23_timed_variant_desktop_undefined :
  forall (s : sys) (P : mat2) (x : vec2) (u z : R) (h : list (R * R)),
  run_timed R_scalar 1 1 false (enc_sys s) (kalman_init R_scalar false 1 (enc2 P) (encv x))
    (enc_hist ((u, z) :: h)) = Err Indeterminate.
Proof.
  intros. unfold enc_hist. cbn [map run_timed fst snd].
  unfold update_timed. rewrite kalman_init_enc. cbn [kx kP kK kt enc_est fresh ex eP eK].
  rewrite predict_x_enc, !bind_Ok. reflexivity.
Qed.
Print Assumptions C23_timed_variant_desktop_undefined.

Example C23_case :
  exists st, run R_scalar 1 1 (enc_sys ex_sys)
    (kalman_init R_scalar true 1 (enc2 ex_P) (encv (V2 0 0))) (enc_hist [(1, 2); (1, 5)]) = Ok st.
Proof.
  change (kalman_init R_scalar true 1 (enc2 ex_P) (encv (V2 0 0)))
    with (enc_est (Est (Some (V2 0 0)) ex_P (V2 0 0) 0)).
  rewrite run_enc. eauto.
Qed.

(** ** C24: the corrected output lies between prediction and measurement *)

Theorem C24_convex_combination :
  forall (s : sys) (P : mat2) (x : vec2) (h : list (R * R)) e u z e',
  covariances_ok s P ->
  run R_scalar 1 1 (enc_sys s) (kalman_init R_scalar false 1 (enc2 P) (encv x)) (enc_hist h)
    = Ok (enc_est e) ->
  update R_scalar 1 1 (enc_sys s) (enc_est e) (enc1 u) (enc1 z) = Ok (enc_est e') ->
  exists k, 0 <= k <= 1 /\
  vdot (sH s) (ex e') = (1 - k) * vdot (sH s) (xpred s (ex e) u) + k * z.
Proof.
  intros s P x h e u z e' H0 H HU. rewrite (run_init_reach _ _ _ _ _ H) in *. clear H.
  apply update_reach in HU as ->.
  pose proof (covariances_ok_pred _ _ (krun_cov s (fresh P x) h H0)) as (a & b & _ & _ & c).
  set (e1 := krun s (fresh P x) h) in *.
  set (Pm := Ppred s (eP e1)) in *.
  exists (vdot (sH s) (kgain s Pm)). split.
  - pose proof (kgain_normal s Pm a b c) as N.
    assert (E : Sinn s Pm * vdot (sH s) (kgain s Pm) = quad Pm (sH s)).
    { unfold quad. rewrite <- N. unfold vdot, vscale. cbn [v0 v1]. ring. }
    pose proof (b (sH s)) as Hq. pose proof (Sinn_nonneg s Pm b c) as HS.
    destruct (Req_EM_T (Sinn s Pm) 0) as [Z|Z].
    + unfold kgain. destruct (Req_EM_T (Sinn s Pm) 0); [|contradiction].
      unfold vdot; simpl. lra.
    + assert (0 < Sinn s Pm) by lra. unfold Sinn in *.
      split; nra.
  - cbn [kstep ex]. fold Pm. unfold xcorr, vdot, vadd, vscale. cbn [v0 v1]. ring.
Qed.
Print Assumptions C24_convex_combination.

Example C24_case : covariances_ok ex_sys ex_P /\
  0 < vdot (sH ex_sys) (Kopt ex_sys (Ppred ex_sys ex_P)) < 1.
Proof.
  split; [exact ex_ok|].
  unfold Kopt, Sinn, Ppred, quad, vdot, mv, ex_sys, ex_P; simpl. lra.
Qed.

(** ** C25: perfect measurements *)

Theorem C25_perfect_measurement :
  forall (s : sys) (e : est) u z e',
  sR s = 0 -> Sinn s (Ppred s (eP e)) <> 0 ->
  update R_scalar 1 1 (enc_sys s) (enc_est e) (enc1 u) (enc1 z) = Ok (enc_est e') ->
  vdot (sH s) (ex e') = z /\ quad (eP e') (sH s) = 0.
Proof.
  intros s e u z e' HR HS HU.
  apply update_reach in HU as ->.
  cbn [kstep ex eP]. set (Pm := Ppred s (eP e)) in *.
  pose proof (kgain_normal_nz s Pm HS) as N.
  assert (E : vdot (sH s) (kgain s Pm) = 1).
  { assert (E : Sinn s Pm * vdot (sH s) (kgain s Pm) = quad Pm (sH s)).
    { unfold quad. rewrite <- N. unfold vdot, vscale. cbn [v0 v1]. ring. }
    apply (Rmult_eq_reg_l (Sinn s Pm)); [|assumption]. rewrite E. unfold Sinn. rewrite HR. ring. }
  split.
  - unfold xcorr. set (xm := xpred s (ex e) u).
    transitivity (vdot (sH s) xm + (z - vdot (sH s) xm) * vdot (sH s) (kgain s Pm)).
    + unfold vdot, vadd, vscale. cbn [v0 v1]. ring.
    + rewrite E. ring.
  - transitivity ((1 - vdot (sH s) (kgain s Pm)) * quad Pm (sH s)).
    + unfold quad, Pcorr, vdot, mv. generalize (kgain s Pm). intros [].
      destruct Pm. destruct s as [? ? [] ? ? ?]. simpl. ring.
    + rewrite E. ring.
Qed.
Print Assumptions C25_perfect_measurement.

Example C25_case :
  let s := Sys (M2 1 1 0 1) (V2 (1/2) 1) (V2 1 0) (M2 (1/4) (1/2) (1/2) 1) 0 1 in
  sR s = 0 /\ Sinn s (Ppred s ex_P) <> 0.
Proof. unfold Sinn, Ppred, quad, vdot, mv, ex_P; simpl. split; lra. Qed.

(** ** C26: two measurements *)

Lemma sym_Sinn2 s P : sym P -> sym (tQ s) -> sym (tR s) -> sym (Sinn2 s (Ppred2 s P)).
Proof. unfold sym. destruct s as [[] ? [] [] [] ?], P; simpl. intros -> -> ->. ring. Qed.

Lemma sym_minv a : sym a -> mtr (minv a) = minv a.
Proof. unfold sym. destruct a; simpl. intros ->. reflexivity. Qed.

Theorem C26_two_measurements :
  forall (s : sys2) (e : est2) (u : R) (z : vec2),
  sym (fP e) -> sym (tQ s) -> sym (tR s) ->
  let Sm := Sinn2 s (Ppred2 s (fP e)) in
  mdet Sm <> 0 ->
  mmul Sm (minv Sm) = mI /\
  update R_scalar 2 1 (enc_sys2 s) (enc_est2 e) (enc1 u) (encv z)
  = Ok (enc_est2 (step2_with (minv Sm) s (fP e) (fx e) (ft e) u z)).
Proof.
  intros s e u z HP HQ HR Sm HD. split.
  - destruct Sm as [a b c d]. unfold mdet in HD. simpl in HD.
    apply mat2_eq; unfold mmul, minv, mdet; simpl; field; assumption.
  - rewrite update2_enc. fold Sm. destruct (Req_EM_T (mdet Sm) 0); [contradiction|].
    now rewrite (sym_minv Sm) by (apply sym_Sinn2; assumption).
Qed.
Print Assumptions C26_two_measurements.

(** The covariance stays symmetric, so the statement applies again after each update. *)
Theorem C26_symmetric_preserved :
  forall (s : sys2) (e e' : est2) (u : R) (z : vec2),
  sym (fP e) -> sym (tQ s) -> sym (tR s) ->
  update R_scalar 2 1 (enc_sys2 s) (enc_est2 e) (enc1 u) (encv z) = Ok (enc_est2 e') ->
  sym (fP e').
Proof.
  intros s e e' u z HP HQ HR H. rewrite update2_enc in H.
  destruct (Req_EM_T _ 0) as [|HD]; [discriminate|]. apply Ok_inj in H.
  rewrite sym_minv in H by (apply sym_Sinn2; assumption).
  assert (E : fP e' = fP (step2_with (minv (Sinn2 s (Ppred2 s (fP e)))) s (fP e) (fx e) (ft e) u z)).
  { apply enc2_inj. exact (eq_sym (f_equal (@kP R) H)). }
  rewrite E. clear E H. cbn [step2_with fP].
  pose proof (sym_Sinn2 s (fP e) HP HQ HR) as HS.
  assert (HPm : sym (Ppred2 s (fP e))).
  { revert HP HQ. unfold sym. destruct s as [[] ? [] [] [] ?], (fP e); simpl. intros -> ->. ring. }
  set (Sm := Sinn2 s (Ppred2 s (fP e))) in *. clearbody Sm.
  set (Pm := Ppred2 s (fP e)) in *. clearbody Pm.
  revert HD HPm HS. unfold sym, mdet, minv, mdet.
  destruct Sm as [sa sb sb' sc], Pm as [pa pb pb' pc], s as [? ? [h0 h1 h2 h3] ? ? ?]. simpl.
  intros HD -> ->. field. assumption.
Qed.
Print Assumptions C26_symmetric_preserved.

(** Singular innovation covariance: the division by the determinant is not guarded (unlike
    the single-measurement case, C20). *)
Theorem C26_singular_innovation_divides_by_zero :
  forall (s : sys2) (e : est2) (u : R) (z : vec2),
  mdet (Sinn2 s (Ppred2 s (fP e))) = 0 ->
  update R_scalar 2 1 (enc_sys2 s) (enc_est2 e) (enc1 u) (encv z) = Err DivByZero.
Proof.
  intros s e u z H. rewrite update2_enc. destruct (Req_EM_T _ 0); [reflexivity|contradiction].
Qed.
Print Assumptions C26_singular_innovation_divides_by_zero.

(** Without symmetric [R] the result is not the textbook step. *)
Theorem C26_needs_symmetric_R_refuted :
  ~ (forall (s : sys2) (e : est2) (u : R) (z : vec2),
     sym (fP e) -> sym (tQ s) ->
     let Sm := Sinn2 s (Ppred2 s (fP e)) in
     mdet Sm <> 0 ->
     update R_scalar 2 1 (enc_sys2 s) (enc_est2 e) (enc1 u) (encv z)
     = Ok (enc_est2 (step2_with (minv Sm) s (fP e) (fx e) (ft e) u z))).
Proof.
  intros X.
  set (s := Sys2 mI (V2 0 0) mI (M2 0 0 0 0) (M2 0 1 0 0) 1).
  set (e := Est2 mI mI (V2 0 0) 0).
  assert (HD : mdet (Sinn2 s (Ppred2 s (fP e))) <> 0)
    by (unfold mdet, Sinn2, Ppred2; simpl; lra).
  specialize (X s e 0 (V2 0 0) eq_refl eq_refl HD).
  rewrite update2_enc in X. destruct (Req_EM_T _ 0) as [|_]; [contradiction|].
  apply Ok_inj in X. apply (f_equal (@kK R)) in X. apply (f_equal (fun l => match l with _ :: Some c :: _ => c | _ => 0 end)) in X.
  revert X. unfold minv, mdet. simpl. lra.
Qed.
Print Assumptions C26_needs_symmetric_R_refuted.

Example C26_case :
  let s := Sys2 (M2 1 1 0 1) (V2 0 0) mI (M2 1 0 0 1) (M2 4 1 1 2) 1 in
  sym ex_P /\ sym (tQ s) /\ sym (tR s) /\ mdet (Sinn2 s (Ppred2 s ex_P)) <> 0.
Proof. unfold sym, mdet, Sinn2, Ppred2, ex_P; simpl. repeat split; lra. Qed.
