(** * Proofs about the Kalman model over the reals *)

From Coq Require Import Reals List Lra Lia Psatz ZArith.
From Verif Require Import Base Matrix MatrixSpec MatrixProofs Scalars Kalman KalmanSpec.
Import ListNotations.
Local Open Scope R_scope.

(** Evaluate model code down to real arithmetic. *)
Ltac kcomp :=
  cbv -[Rplus Rminus Rmult Rdiv Ropp Rinv Req_EM_T IZR].
Ltac kentries :=
  repeat match goal with
  | |- Ok _ = Ok _ => f_equal
  | |- _ :: _ = _ :: _ => f_equal
  | |- Some _ = Some _ => f_equal
  end.

Lemma predict_x_enc s x u :
  predict_x R_scalar 1 (enc_sys s) (encv x) (enc1 u) = Ok (encv (xpred s x u)).
Proof. kcomp. kentries; ring. Qed.

Lemma predict_P_enc s P :
  predict_P R_scalar (enc_sys s) (enc2 P) = Ok (enc2 (Ppred s P)).
Proof. kcomp. kentries; ring. Qed.

(** The gain the code computes: the textbook gain, or 0 for zero innovation
    covariance. *)
Definition kgain (s : sys) (Pm : mat2) : vec2 :=
  if Req_EM_T (Sinn s Pm) 0 then V2 0 0 else Kopt s Pm.

Lemma gain_1_enc s P :
  gain_1 R_scalar (enc_sys s) (enc2 P) = Ok (encv (kgain s P)).
Proof.
  unfold kgain, Kopt.
  remember (Sinn s P) as Sv eqn:ES.
  destruct s as [[a00 a01 a10 a11] [b0 b1] [h0 h1] Q r dt], P as [p00 p01 p10 p11].
  cbv -[Rplus Rminus Rmult Rdiv Ropp Rinv Req_EM_T IZR] in *.
  match goal with |- context [if Req_EM_T ?a 0 then false else true] =>
    replace a with Sv by (rewrite ES; ring)
  end.
  destruct (Req_EM_T Sv 0) as [E|E]; kentries; try ring; field; assumption.
Qed.

Lemma correct_x_1_enc s K x z :
  correct_x_1 R_scalar (enc_sys s) (encv K) (encv x) (enc1 z) = Ok (encv (xcorr s K x z)).
Proof. kcomp. kentries; ring. Qed.

Lemma correct_P_1_enc s K P :
  correct_P_1 R_scalar (enc_sys s) (encv K) (enc2 P) = Ok (enc2 (Pcorr s K P)).
Proof. kcomp. kentries; ring. Qed.

Definition kstep (s : sys) (e : est) (u z : R) : est :=
  let Pm := Ppred s (eP e) in
  let K := kgain s Pm in
  Est (Some K) (Pcorr s K Pm) (xcorr s K (xpred s (ex e) u) z) (et e + sdt s).

Lemma update_enc s e u z :
  update R_scalar 1 1 (enc_sys s) (enc_est e) (enc1 u) (enc1 z)
  = Ok (enc_est (kstep s e u z)).
Proof.
  unfold update, gain, correct_x, correct_P. simpl Nat.eqb. cbv iota.
  unfold enc_est at 1 2 3. cbn [kt kx kP].
  change (sc_add R_scalar (et e) (kdt (enc_sys s))) with (Ok (et e + sdt s)).
  rewrite bind_Ok, predict_x_enc, bind_Ok, predict_P_enc, bind_Ok, gain_1_enc, bind_Ok.
  rewrite correct_x_1_enc, bind_Ok, correct_P_1_enc, bind_Ok.
  reflexivity.
Qed.

Fixpoint krun (s : sys) (e : est) (h : list (R * R)) : est :=
  match h with
  | [] => e
  | (u, z) :: h' => krun s (kstep s e u z) h'
  end.

Lemma run_enc s h : forall e,
  run R_scalar 1 1 (enc_sys s) (enc_est e) (enc_hist h) = Ok (enc_est (krun s e h)).
Proof.
  induction h as [|[u z] h IH]; intros e; [reflexivity|].
  simpl. rewrite update_enc. simpl. apply IH.
Qed.

Lemma kalman_init_enc P x :
  kalman_init R_scalar false 1 (enc2 P) (encv x) = enc_est (Est None P x 0).
Proof. reflexivity. Qed.

Lemma krun_app s h1 : forall e h2, krun s e (h1 ++ h2) = krun s (krun s e h1) h2.
Proof. induction h1 as [|[u z] h IH]; intros; simpl; auto. Qed.

(** An invariant of [kstep] holds after every history. *)
Lemma krun_inv s (I : est -> Prop) :
  (forall e u z, I e -> I (kstep s e u z)) ->
  forall h e, I e -> I (krun s e h).
Proof. intros H h. induction h as [|[u z] h IH]; simpl; auto. Qed.

(** ** Algebra of the covariance *)

Lemma sym_Ppred s P : sym P -> sym (sQ s) -> sym (Ppred s P).
Proof. unfold sym. destruct s as [[] [] [] [] ? ?], P; simpl. intros -> ->. ring. Qed.

Lemma psd_Ppred s P : psd P -> psd (sQ s) -> psd (Ppred s P).
Proof.
  unfold psd. intros HP HQ x.
  specialize (HP (mv (mtr (sA s)) x)). specialize (HQ x).
  replace (quad (Ppred s P) x)
    with (quad P (mv (mtr (sA s)) x) + quad (sQ s) x); [lra|].
  unfold quad, vdot, mv, Ppred. destruct s as [[] [] [] [] ? ?], P, x; simpl. ring.
Qed.

(** Innovation covariance is non-negative. *)
Lemma Sinn_nonneg s Pm : psd Pm -> 0 <= sR s -> 0 <= Sinn s Pm.
Proof. intros H HR. unfold Sinn. specialize (H (sH s)). lra. Qed.

(** A positive semidefinite symmetric form vanishing at [h] kills [h]. *)
Lemma psd_kernel p h : sym p -> psd p -> quad p h = 0 -> mv p h = V2 0 0.
Proof.
  intros Hs Hp Hq. set (g := mv p h).
  (* quad p (h + t g) = 2 t |g|^2 + t^2 quad p g >= 0 for all t *)
  assert (X : forall t, 0 <= 2 * t * vdot g g + t * t * quad p g).
  { intros t. specialize (Hp (vadd h (vscale t g))).
    replace (quad p (vadd h (vscale t g)))
      with (quad p h + 2 * t * vdot g g + t * t * quad p g) in Hp; [lra|].
    unfold g, quad, vdot, mv, vadd, vscale, sym in *.
    destruct p, h; simpl in *. rewrite Hs. ring. }
  assert (G : vdot g g = 0).
  { destruct (Rle_lt_dec (vdot g g) 0) as [L|L].
    - unfold vdot in *. nra.
    - exfalso. pose proof (X (-1)) as X1.
      assert (0 < quad p g) by lra.
      pose proof (X (- (vdot g g / quad p g))) as X2.
      replace (2 * - (vdot g g / quad p g) * vdot g g +
               - (vdot g g / quad p g) * - (vdot g g / quad p g) * quad p g)
        with (- (vdot g g * vdot g g / quad p g)) in X2 by (field; lra).
      assert (0 < vdot g g * vdot g g / quad p g)
        by (apply Rdiv_lt_0_compat; nra).
      lra. }
  unfold vdot in G. destruct g as [a b]; simpl in *. f_equal; nra.
Qed.

Lemma Sinn_zero s Pm :
  sym Pm -> psd Pm -> 0 <= sR s -> Sinn s Pm = 0 ->
  sR s = 0 /\ quad Pm (sH s) = 0 /\ mv Pm (sH s) = V2 0 0.
Proof.
  intros Hs Hp HR H0. unfold Sinn in H0. pose proof (Hp (sH s)).
  assert (sR s = 0) by lra. assert (quad Pm (sH s) = 0) by lra.
  repeat split; auto. apply psd_kernel; auto.
Qed.

Lemma vec2_eq a b : v0 a = v0 b -> v1 a = v1 b -> a = b.
Proof. destruct a, b; simpl; intros -> ->; reflexivity. Qed.

Lemma mat2_eq a b :
  m00 a = m00 b -> m01 a = m01 b -> m10 a = m10 b -> m11 a = m11 b -> a = b.
Proof. destruct a, b; simpl; intros -> -> -> ->; reflexivity. Qed.

(** The gain satisfies the normal equation K S = P H^T, also for S = 0. *)
Lemma kgain_normal s Pm :
  sym Pm -> psd Pm -> 0 <= sR s ->
  vscale (Sinn s Pm) (kgain s Pm) = mv Pm (sH s).
Proof.
  intros Hs Hp HR. unfold kgain. destruct (Req_EM_T (Sinn s Pm) 0) as [E|E].
  - destruct (Sinn_zero s Pm Hs Hp HR E) as (_ & _ & ->).
    unfold vscale; simpl. f_equal; ring.
  - unfold Kopt, vscale. apply vec2_eq; cbn [v0 v1]; field; assumption.
Qed.

Lemma kgain_normal_nz s Pm :
  Sinn s Pm <> 0 -> vscale (Sinn s Pm) (kgain s Pm) = mv Pm (sH s).
Proof.
  intros E. unfold kgain. destruct (Req_EM_T (Sinn s Pm) 0); [contradiction|].
  unfold Kopt, vscale. apply vec2_eq; cbn [v0 v1]; field; assumption.
Qed.

(** Completion of the square: for every gain [L], and [K] satisfying the normal
    equation, joseph(L) = corr(K) + S (L-K)(L-K)^T. *)
Lemma joseph_square s Pm K L :
  sym Pm -> vscale (Sinn s Pm) K = mv Pm (sH s) ->
  Pjoseph s L Pm =
  madd (Pcorr s K Pm) (mscale (Sinn s Pm) (vouter (vsub L K) (vsub L K))).
Proof.
  intros Hs HK.
  assert (E0 : Sinn s Pm * v0 K = v0 (mv Pm (sH s))) by (rewrite <- HK; reflexivity).
  assert (E1 : Sinn s Pm * v1 K = v1 (mv Pm (sH s))) by (rewrite <- HK; reflexivity).
  clear HK.
  assert (ES : Sinn s Pm = quad Pm (sH s) + sR s) by reflexivity.
  set (Sv := Sinn s Pm) in *. clearbody Sv.
  unfold quad, vdot, mv in *. unfold sym in Hs.
  destruct s as [A B [h0 h1] Q r dt]. destruct Pm as [a b b' c]. simpl in *. subst b'.
  destruct K as [k0 k1], L as [l0 l1]. simpl in *.
  apply mat2_eq; simpl.
  - replace r with (Sv - (h0 * (a * h0 + b * h1) + h1 * (b * h0 + c * h1))) by lra.
    replace (a * h0 + b * h1) with (Sv * k0) by lra.
    transitivity (a - l0 * (Sv * k0) - l0 * (Sv * k0) + Sv * l0 * l0).
    + rewrite E0. ring_simplify. nra.
    + replace ((1 - k0 * h0) * a + (0 - k0 * h1) * b) with (a - k0 * (a * h0 + b * h1)) by ring.
      rewrite <- E0. ring.
  - replace r with (Sv - (h0 * (a * h0 + b * h1) + h1 * (b * h0 + c * h1))) by lra.
    transitivity (b - l0 * (Sv * k1) - l1 * (Sv * k0) + Sv * l0 * l1).
    + rewrite E0, E1. ring.
    + replace ((1 - k0 * h0) * b + (0 - k0 * h1) * c) with (b - k0 * (b * h0 + c * h1)) by ring.
      rewrite <- E1. ring.
  - replace r with (Sv - (h0 * (a * h0 + b * h1) + h1 * (b * h0 + c * h1))) by lra.
    transitivity (b - l1 * (Sv * k0) - l0 * (Sv * k1) + Sv * l0 * l1).
    + rewrite E0, E1. ring.
    + replace ((0 - k1 * h0) * a + (1 - k1 * h1) * b) with (b - k1 * (a * h0 + b * h1)) by ring.
      rewrite <- E0. ring.
  - replace r with (Sv - (h0 * (a * h0 + b * h1) + h1 * (b * h0 + c * h1))) by lra.
    transitivity (c - l1 * (Sv * k1) - l1 * (Sv * k1) + Sv * l1 * l1).
    + rewrite E1. ring.
    + replace ((0 - k1 * h0) * b + (1 - k1 * h1) * c) with (c - k1 * (b * h0 + c * h1)) by ring.
      rewrite <- E1. ring.
Qed.

(** ** Reachable states *)

Lemma run_reach s e h st :
  run R_scalar 1 1 (enc_sys s) (enc_est e) (enc_hist h) = Ok st -> st = enc_est (krun s e h).
Proof. rewrite run_enc. congruence. Qed.

Lemma encv_inj a b : encv a = encv b -> a = b.
Proof. unfold encv. destruct a, b; simpl. congruence. Qed.

Lemma enc2_inj a b : enc2 a = enc2 b -> a = b.
Proof. unfold enc2. destruct a, b; simpl. congruence. Qed.

Lemma enc_est_inj a b : enc_est a = enc_est b -> a = b.
Proof.
  intros H.
  pose proof (f_equal (@kt R) H) as Et. pose proof (f_equal (@kx R) H) as Ex.
  pose proof (f_equal (@kP R) H) as Ep. pose proof (f_equal (@kK R) H) as Ek.
  destruct a as [ka pa xa ta], b as [kb pb xb tb].
  unfold enc_est in *; cbn [eK eP ex et kt kx kP kK] in *.
  apply encv_inj in Ex. apply enc2_inj in Ep.
  assert (ka = kb).
  { destruct ka, kb; cbn in Ek; try discriminate; [|reflexivity].
    apply f_equal, encv_inj. exact Ek. }
  congruence.
Qed.

Definition cov_inv (s : sys) (e : est) : Prop := covariances_ok s (eP e).

(** The corrected covariance is the Joseph form of the computed gain. *)
Lemma vsub_self K : vsub K K = V2 0 0.
Proof. apply vec2_eq; simpl; ring. Qed.

Lemma Pcorr_joseph s Pm K :
  sym Pm -> vscale (Sinn s Pm) K = mv Pm (sH s) -> Pcorr s K Pm = Pjoseph s K Pm.
Proof.
  intros Hs HK. rewrite (joseph_square s Pm K K Hs HK), vsub_self.
  apply mat2_eq; simpl; ring.
Qed.

Lemma sym_joseph s L Pm : sym Pm -> sym (Pjoseph s L Pm).
Proof. unfold sym. destruct s as [? ? [] ? ? ?], Pm, L; simpl. intros ->. ring. Qed.

Lemma quad_joseph s L Pm x :
  quad (Pjoseph s L Pm) x =
  quad Pm (mv (mtr (msub mI (vouter L (sH s)))) x) + sR s * (vdot L x * vdot L x).
Proof. unfold quad, vdot, mv. destruct s as [? ? [] ? ? ?], Pm, L, x; simpl. ring. Qed.

Lemma psd_joseph s L Pm : psd Pm -> 0 <= sR s -> psd (Pjoseph s L Pm).
Proof.
  intros Hp HR x. rewrite quad_joseph.
  pose proof (Hp (mv (mtr (msub mI (vouter L (sH s)))) x)).
  assert (0 <= vdot L x * vdot L x) by nra. nra.
Qed.

Lemma covariances_ok_pred s P : covariances_ok s P -> covariances_ok s (Ppred s P).
Proof.
  intros (a & b & c & d & e). repeat split; auto using sym_Ppred, psd_Ppred.
Qed.

Lemma kstep_cov s e u z : cov_inv s e -> cov_inv s (kstep s e u z).
Proof.
  intros H. apply covariances_ok_pred in H as (a & b & c & d & f).
  unfold cov_inv, kstep. cbn [eP].
  rewrite Pcorr_joseph by (auto using kgain_normal).
  repeat split; auto using sym_joseph, psd_joseph.
Qed.

Lemma krun_cov s e h : cov_inv s e -> cov_inv s (krun s e h).
Proof. apply krun_inv. intros; now apply kstep_cov. Qed.

(** Symmetry alone needs no positivity: for S <> 0 the normal equation holds, for S = 0
    nothing is corrected. *)
Lemma Pcorr_zero s Pm : Pcorr s (V2 0 0) Pm = Pm.
Proof. apply mat2_eq; simpl; ring. Qed.

Lemma kstep_sym s e u z : sym (sQ s) -> sym (eP e) -> sym (eP (kstep s e u z)).
Proof.
  intros HQ HP. cbn [kstep eP]. pose proof (sym_Ppred s _ HP HQ) as Hs.
  destruct (Req_EM_T (Sinn s (Ppred s (eP e))) 0) as [E|E].
  - unfold kgain. destruct (Req_EM_T _ 0); [|contradiction]. now rewrite Pcorr_zero.
  - rewrite Pcorr_joseph by (auto using kgain_normal_nz). now apply sym_joseph.
Qed.

Lemma loewner_joseph s Pm K L :
  sym Pm -> vscale (Sinn s Pm) K = mv Pm (sH s) -> 0 <= Sinn s Pm ->
  loewner_le (Pcorr s K Pm) (Pjoseph s L Pm).
Proof.
  intros Hs HK HS x. rewrite (joseph_square s Pm K L Hs HK).
  replace (quad (madd (Pcorr s K Pm) (mscale (Sinn s Pm) (vouter (vsub L K) (vsub L K)))) x)
    with (quad (Pcorr s K Pm) x + Sinn s Pm * (vdot (vsub L K) x * vdot (vsub L K) x)).
  - assert (0 <= vdot (vsub L K) x * vdot (vsub L K) x) by nra. nra.
  - unfold quad, vdot, mv. generalize (Sinn s Pm). intro Sv.
    generalize (Pcorr s K Pm) (vsub L K). intros [] []. destruct x. simpl. ring.
Qed.

Lemma joseph_zero s Pm : Pjoseph s (V2 0 0) Pm = Pm.
Proof. apply mat2_eq; simpl; ring. Qed.

(** Difference between the Joseph and the short form for an arbitrary gain. *)
Lemma joseph_minus_short s Pm L :
  sym Pm ->
  msub (Pjoseph s L Pm) (Pcorr s L Pm) =
  vouter (vsub (vscale (Sinn s Pm) L) (mv Pm (sH s))) L.
Proof.
  unfold sym. intros Hs. unfold Sinn, quad, vdot, mv.
  destruct s as [? ? [] ? ? ?], Pm as [a b b' c], L; simpl in *. subst b'.
  apply mat2_eq; simpl; ring.
Qed.

(** ** Data independence, for every numeric type *)

Section Generic.
Context {T : Type} (S : scalar T).

Lemma predict_P_ext (p1 p2 : kparams T) P :
  kA p1 = kA p2 -> kQ p1 = kQ p2 -> predict_P S p1 P = predict_P S p2 P.
Proof. unfold predict_P. now intros -> ->. Qed.

Lemma gain_ext M (p1 p2 : kparams T) P :
  kH p1 = kH p2 -> kR p1 = kR p2 -> gain S M p1 P = gain S M p2 P.
Proof.
  unfold gain. intros E1 E2. destruct (Nat.eqb M 1); unfold gain_1, gain_2; now rewrite E1, E2.
Qed.

Lemma correct_P_ext M (p1 p2 : kparams T) K P :
  kH p1 = kH p2 -> correct_P S M p1 K P = correct_P S M p2 K P.
Proof.
  unfold correct_P. intros E. destruct (Nat.eqb M 1);
    unfold correct_P_1, correct_P_2; now rewrite E.
Qed.

(** The part of [update] that concerns gain and covariance. *)
Definition cov_update (M : nat) (prm : kparams T) (P : matrix T)
  : outcome (matrix T * matrix T) :=
  P <- predict_P S prm P ;;
  K <- gain S M prm P ;;
  P' <- correct_P S M prm K P ;;
  Ok (P', K).

Lemma update_cov M U prm st u z st' :
  update S M U prm st u z = Ok st' -> cov_update M prm (kP st) = Ok (kP st', kK st').
Proof.
  unfold update, cov_update. intros H.
  apply bind_inv in H as (t & _ & H). apply bind_inv in H as (x & _ & H).
  apply bind_inv in H as (P & -> & H). apply bind_inv in H as (K & EK & H).
  apply bind_inv in H as (x' & _ & H). apply bind_inv in H as (P' & EP & H).
  simpl. rewrite EK. simpl. rewrite EP. simpl. now injection H as <-.
Qed.

Lemma cov_update_ext M p1 p2 P :
  kA p1 = kA p2 -> kQ p1 = kQ p2 -> kH p1 = kH p2 -> kR p1 = kR p2 ->
  cov_update M p1 P = cov_update M p2 P.
Proof.
  intros. unfold cov_update. rewrite (predict_P_ext p1 p2) by assumption.
  destruct (predict_P S p2 P); [|reflexivity]. simpl.
  rewrite (gain_ext M p1 p2) by assumption.
  destruct (gain S M p2 a); [|reflexivity]. simpl.
  now rewrite (correct_P_ext M p1 p2) by assumption.
Qed.

Lemma run_cov M1 U1 U2 p1 p2 h1 : forall h2 s1 s2 s1' s2',
  kA p1 = kA p2 -> kQ p1 = kQ p2 -> kH p1 = kH p2 -> kR p1 = kR p2 ->
  kP s1 = kP s2 -> length h1 = length h2 ->
  run S M1 U1 p1 s1 h1 = Ok s1' -> run S M1 U2 p2 s2 h2 = Ok s2' ->
  kP s1' = kP s2' /\ (h1 <> [] -> kK s1' = kK s2').
Proof.
  induction h1 as [|[u1 z1] h1 IH]; intros [|[u2 z2] h2] s1 s2 s1' s2' EA EQ EH ER EP L R1 R2;
    try discriminate; simpl in *.
  - injection R1 as <-. injection R2 as <-. split; [assumption|congruence].
  - apply bind_inv in R1 as (t1 & U1' & R1). apply bind_inv in R2 as (t2 & U2' & R2).
    apply update_cov in U1', U2'.
    rewrite EP in U1'. rewrite (cov_update_ext M1 p1 p2) in U1' by assumption.
    rewrite U2' in U1'. injection U1' as E1 E2.
    destruct (IH h2 t1 t2 s1' s2') as [X Y]; try assumption; try congruence; try lia.
    split; [assumption|]. intros _.
    destruct h1 as [|a h1].
    + destruct h2; [|discriminate]. simpl in *. congruence.
    + apply Y. congruence.
Qed.


(** ** The timing variant *)

Lemma update_timed_on M U prm st u z st' :
  update S M U prm st u z = Ok st' ->
  update_timed S M U true prm st u z =
  Ok {| kK := kK st'; kP := kP st'; kx := kx st'; kt := kt st |}.
Proof.
  unfold update, update_timed. intros H.
  apply bind_inv in H as (t & _ & H). apply bind_inv in H as (x & -> & H).
  apply bind_inv in H as (P & -> & H). apply bind_inv in H as (K & EK & H).
  apply bind_inv in H as (x' & EX & H). apply bind_inv in H as (P' & EP & H).
  simpl. rewrite EK. simpl. rewrite EP. simpl. rewrite EX. simpl.
  now injection H as <-.
Qed.

Lemma update_time_irrelevant M U prm st u z st' t :
  update S M U prm st u z = Ok st' ->
  forall t', sc_add S t (kdt prm) = Ok t' ->
  update S M U prm {| kK := kK st; kP := kP st; kx := kx st; kt := t |} u z =
  Ok {| kK := kK st'; kP := kP st'; kx := kx st'; kt := t' |}.
Proof.
  unfold update. intros H t' Et. cbn [kt kx kP].
  apply bind_inv in H as (t0 & _ & H). rewrite Et, bind_Ok.
  apply bind_inv in H as (x & -> & H).
  apply bind_inv in H as (P & -> & H). apply bind_inv in H as (K & EK & H).
  apply bind_inv in H as (x' & EX & H). apply bind_inv in H as (P' & EP & H).
  rewrite !bind_Ok, EK, bind_Ok, EX, bind_Ok, EP, bind_Ok. now injection H as <-.
Qed.

Lemma update_timed_time M U g prm st u z st' t :
  update_timed S M U g prm st u z = Ok st' ->
  update_timed S M U g prm {| kK := kK st; kP := kP st; kx := kx st; kt := t |} u z =
  Ok {| kK := kK st'; kP := kP st'; kx := kx st'; kt := t |}.
Proof.
  unfold update_timed. cbn [kt kx kP kK]. intros H.
  apply bind_inv in H as (x & -> & H). apply bind_inv in H as (PK & EP & H).
  apply bind_inv in H as (x' & EX & H). injection H as <-.
  rewrite bind_Ok, EP, bind_Ok, EX. reflexivity.
Qed.

Lemma run_timed_on M U prm h : forall st st' t,
  run S M U prm st h = Ok st' ->
  run_timed S M U true prm {| kK := kK st; kP := kP st; kx := kx st; kt := t |} h =
  Ok {| kK := kK st'; kP := kP st'; kx := kx st'; kt := t |}.
Proof.
  induction h as [|[u z] h IH]; intros st st' t H; simpl in *.
  - now injection H as <-.
  - apply bind_inv in H as (s1 & E & H).
    rewrite (update_timed_time _ _ _ _ _ _ _ _ t (update_timed_on _ _ _ _ _ _ _ E)).
    simpl. now apply IH.
Qed.

Lemma run_timed_off M U prm h : forall st st',
  run_timed S M U false prm st h = Ok st' ->
  kP st' = kP st /\ kK st' = kK st /\ kt st' = kt st.
Proof.
  induction h as [|[u z] h IH]; intros st st' H; simpl in *.
  - injection H as <-. auto.
  - apply bind_inv in H as (s1 & E & H). apply IH in H as (-> & -> & ->).
    unfold update_timed in E.
    apply bind_inv in E as (x & _ & E). simpl in E. apply bind_inv in E as (x' & _ & E).
    injection E as <-. auto.
Qed.

End Generic.

(** ** Superposition *)

Definition comb (a b : R) (x y : vec2) : vec2 := vadd (vscale a x) (vscale b y).
Fixpoint comb_hist (a b : R) (h1 h2 : list (R * R)) : list (R * R) :=
  match h1, h2 with
  | (u1, z1) :: t1, (u2, z2) :: t2 => (a * u1 + b * u2, a * z1 + b * z2) :: comb_hist a b t1 t2
  | _, _ => []
  end.

Lemma xcorr_comb s K a b x1 x2 u1 u2 z1 z2 :
  xcorr s K (xpred s (comb a b x1 x2) (a * u1 + b * u2)) (a * z1 + b * z2) =
  comb a b (xcorr s K (xpred s x1 u1) z1) (xcorr s K (xpred s x2 u2) z2).
Proof.
  unfold xcorr, xpred, comb, vdot, mv.
  destruct s as [[] [] [] [] ? ?], K, x1, x2; simpl. apply vec2_eq; simpl; ring.
Qed.

Lemma krun_comb s a b h1 : forall h2 e e1 e2,
  length h1 = length h2 ->
  eP e1 = eP e -> eP e2 = eP e -> ex e = comb a b (ex e1) (ex e2) ->
  ex (krun s e (comb_hist a b h1 h2)) = comb a b (ex (krun s e1 h1)) (ex (krun s e2 h2)).
Proof.
  induction h1 as [|[u1 z1] h1 IH]; intros [|[u2 z2] h2] e e1 e2 L P1 P2 X;
    try discriminate; simpl; [assumption|].
  apply IH; cbn [kstep eP ex].
  - simpl in L; lia.
  - now rewrite P1.
  - now rewrite P2.
  - rewrite P1, P2, X. apply xcorr_comb.
Qed.

(** ** Tracking *)

Lemma err_step s K x xh u w v :
  let x' := true_next s x u w in
  vsub x' (xcorr s K (xpred s xh u) (vdot (sH s) x' + v)) =
  vsub (mv (msub mI (vouter K (sH s))) (vadd (mv (sA s) (vsub x xh)) w)) (vscale v K).
Proof.
  unfold xcorr, xpred, true_next, vdot, mv.
  destruct s as [[] [] [] [] ? ?], K, x, xh, w; simpl. apply vec2_eq; simpl; ring.
Qed.

Lemma track_exact s h : forall e x,
  Forall (fun uwv => snd (fst uwv) = V2 0 0 /\ snd uwv = 0) h ->
  ex e = x -> ex (krun s e (observe s x h)) = evolve s x h.
Proof.
  induction h as [|[[u w] v] h IH]; intros e x F E; simpl; [assumption|].
  inversion F as [|? ? [Fw Fv] F']; subst. simpl in Fw, Fv. subst w v.
  apply IH; [assumption|]. cbn [kstep ex].
  generalize (kgain s (Ppred s (eP e))). intros K.
  unfold xcorr, xpred, true_next, vdot, mv. generalize (ex e). intros x.
  destruct s as [[] [] [] [] ? ?], K, x; simpl. apply vec2_eq; simpl; ring.
Qed.

(** ** Two measurements *)

Lemma predict_P2_enc s P :
  predict_P R_scalar (enc_sys2 s) (enc2 P) = Ok (enc2 (Ppred2 s P)).
Proof. kcomp. kentries; ring. Qed.

Lemma predict_x2_enc s x u :
  predict_x R_scalar 1 (enc_sys2 s) (encv x) (enc1 u)
  = Ok (encv (vadd (mv (tA s) x) (vscale u (tB s)))).
Proof. kcomp. kentries; ring. Qed.

(** The matrix [inverted] returns: the transpose of the inverse. *)
Lemma inverted_22_enc a :
  inverted_22 R_scalar (enc2 a) =
  if Req_EM_T (mdet a) 0 then Err DivByZero else Ok (enc2 (mtr (minv a))).
Proof.
  remember (mdet a) as d eqn:Ed. destruct a as [p q r t].
  cbv -[Rplus Rminus Rmult Rdiv Ropp Rinv Req_EM_T IZR] in *.
  match goal with |- context [Req_EM_T ?a 0] => replace a with d by (rewrite Ed; ring) end.
  destruct (Req_EM_T d 0) as [E|E]; [reflexivity|].
  kentries; field; assumption.
Qed.

Lemma gain_2_enc s P :
  gain_2 R_scalar (enc_sys2 s) (enc2 P) =
  if Req_EM_T (mdet (Sinn2 s P)) 0 then Err DivByZero
  else Ok (enc2 (mmul (mmul P (mtr (tH s))) (mtr (minv (Sinn2 s P))))).
Proof.
  assert (X : gain_2 R_scalar (enc_sys2 s) (enc2 P) =
    bind (inverted_22 R_scalar (enc2 (Sinn2 s P))) (fun iS =>
      mul_mm R_scalar 2 2 (enc2 (mmul P (mtr (tH s)))) iS)).
  { unfold gain_2.
    change (transposed_22 (kH (enc_sys2 s))) with (Ok (enc2 (mtr (tH s)))). rewrite bind_Ok.
    replace (mul_mm R_scalar 2 2 (enc2 P) (enc2 (mtr (tH s))))
      with (Ok (enc2 (mmul P (mtr (tH s))))) by (kcomp; kentries; ring). rewrite bind_Ok.
    replace (mul_mm R_scalar 2 2 (kH (enc_sys2 s)) (enc2 P))
      with (Ok (enc2 (mmul (tH s) P))) by (kcomp; kentries; ring). rewrite bind_Ok.
    replace (mul_mm R_scalar 2 2 (enc2 (mmul (tH s) P)) (enc2 (mtr (tH s))))
      with (Ok (enc2 (mmul (mmul (tH s) P) (mtr (tH s))))) by (kcomp; kentries; ring).
    rewrite bind_Ok.
    replace (add_mm R_scalar 2 2 (enc2 (mmul (mmul (tH s) P) (mtr (tH s)))) (kR (enc_sys2 s)))
      with (Ok (enc2 (Sinn2 s P))) by (kcomp; kentries; ring). reflexivity. }
  rewrite X, inverted_22_enc. destruct (Req_EM_T (mdet (Sinn2 s P)) 0); [reflexivity|].
  rewrite bind_Ok. generalize (mmul P (mtr (tH s))) (mtr (minv (Sinn2 s P))). intros a b.
  kcomp; kentries; ring.
Qed.

Lemma correct_x_2_enc s K x z :
  correct_x_2 R_scalar (enc_sys2 s) (enc2 K) (encv x) (encv z) =
  Ok (encv (vadd x (mv K (vsub z (mv (tH s) x))))).
Proof. kcomp. kentries; ring. Qed.

Lemma correct_P_2_enc s K P :
  correct_P_2 R_scalar (enc_sys2 s) (enc2 K) (enc2 P) =
  Ok (enc2 (mmul (msub mI (mmul K (tH s))) P)).
Proof. kcomp. kentries; ring. Qed.

Lemma update2_enc s e u z :
  update R_scalar 2 1 (enc_sys2 s) (enc_est2 e) (enc1 u) (encv z) =
  if Req_EM_T (mdet (Sinn2 s (Ppred2 s (fP e)))) 0 then Err DivByZero
  else Ok (enc_est2 (step2_with (mtr (minv (Sinn2 s (Ppred2 s (fP e))))) s (fP e) (fx e) (ft e) u z)).
Proof.
  unfold update, gain, correct_x, correct_P. simpl Nat.eqb. cbv iota.
  unfold enc_est2 at 1 2 3. cbn [kt kx kP].
  change (sc_add R_scalar (ft e) (kdt (enc_sys2 s))) with (Ok (ft e + tdt s)).
  rewrite bind_Ok, predict_x2_enc, bind_Ok, predict_P2_enc, bind_Ok, gain_2_enc.
  destruct (Req_EM_T (mdet (Sinn2 s (Ppred2 s (fP e)))) 0); [reflexivity|].
  rewrite bind_Ok, correct_x_2_enc, bind_Ok, correct_P_2_enc, bind_Ok. reflexivity.
Qed.

(** ** The gain is defined after an update *)

Ltac binds :=
  repeat match goal with
  | H : bind _ _ = Ok _ |- _ =>
      let a := fresh "a" in let E := fresh "E" in
      apply bind_inv in H as (a & E & H)
  | H : Ok _ = Ok _ |- _ => injection H as <-
  end.

Definition all_defined {T} (n : nat) (m : matrix T) : Prop :=
  length m = n /\ Forall (fun c => c <> None) m.

Lemma all_defined_replace {T} (m : matrix T) i v n :
  all_defined n m -> all_defined n (replace_nth m i (Some v)).
Proof.
  intros [L F]. split; [now rewrite replace_nth_length|].
  revert i. clear L. induction F as [|c m Hc F IH]; intros [|i]; simpl; constructor; auto.
  congruence.
Qed.

Lemma set_all_defined {T} (m m' : matrix T) i v n :
  set_ m i v = Ok m' -> all_defined n m -> all_defined n m'.
Proof.
  unfold set_. destruct (i <? 0)%Z; [discriminate|].
  destruct (Z.to_nat i <? length m)%nat; [|discriminate].
  intros [= <-]. apply all_defined_replace.
Qed.

Lemma for_pres {St} (I : St -> Prop) body n : forall k (s s' : St),
  (forall i s s', body i s = Ok s' -> I s -> I s') ->
  for_from k n body s = Ok s' -> I s -> I s'.
Proof.
  induction n; intros k s s' Hb H; simpl in H.
  - now injection H as <-.
  - apply bind_inv in H as (s1 & E & H). intros H0.
    exact (IHn _ _ _ Hb H (Hb _ _ _ E H0)).
Qed.

Lemma fill_from_all_defined {T} n : forall pos (v : T) (m m' : matrix T) k,
  fill_from n pos v m = Ok m' -> all_defined k m -> all_defined k m'.
Proof.
  induction n; intros pos v m m' k H D; simpl in H.
  - now injection H as <-.
  - apply bind_inv in H as (m1 & E & H). eauto using set_all_defined.
Qed.

Lemma mat_fill_all_defined {T} (S : scalar T) N M v m :
  mat_fill S N M v = Ok m -> all_defined (N * M) m.
Proof.
  intros H. eapply fill_from_all_defined; [exact H|]. split; [apply repeat_length|].
  apply Forall_forall. intros c Hc. apply repeat_spec in Hc. congruence.
Qed.

Lemma mul_ms_all_defined {T} (S : scalar T) N M A v m :
  mul_ms S N M A v = Ok m -> all_defined (N * M) m.
Proof.
  unfold mul_ms. intros H. apply bind_inv in H as (m0 & E & H).
  eapply for_pres; [|exact H|eapply mat_fill_all_defined; exact E].
  intros i s s' Hb D. cbv beta in Hb. binds. unfold set1, set2 in Hb. exact (set_all_defined _ _ _ _ _ Hb D).
Qed.

Lemma mul_mm_all_defined {T} (S : scalar T) N M A B m :
  mul_mm S N M A B = Ok m -> all_defined (N * M) m.
Proof.
  unfold mul_mm. intros H. apply bind_inv in H as (m0 & E & H).
  eapply for_pres; [|exact H|eapply mat_fill_all_defined; exact E].
  intros i s s' Hb D. eapply for_pres; [|exact Hb|exact D]. clear.
  intros j s s' Hb D. eapply for_pres; [|exact Hb|exact D]. clear.
  intros k s s' Hb D. cbv beta in Hb. binds. unfold set1, set2 in Hb. exact (set_all_defined _ _ _ _ _ Hb D).
Qed.

Lemma update_gain_defined {T} (S : scalar T) M U prm st u z st' :
  M = 1%nat \/ M = 2%nat ->
  update S M U prm st u z = Ok st' -> all_defined (2 * M) (kK st').
Proof.
  intros HM H. apply update_cov in H. unfold cov_update in H.
  apply bind_inv in H as (P & _ & H). apply bind_inv in H as (K & EK & H).
  apply bind_inv in H as (P' & _ & H). injection H as _ <-.
  destruct HM as [-> | ->].
  - change (gain_1 S prm P = Ok K) in EK. unfold gain_1 in EK.
    repeat match type of EK with bind _ _ = Ok _ => apply bind_inv in EK as (? & _ & EK) end.
    now apply mul_ms_all_defined in EK.
  - change (gain_2 S prm P = Ok K) in EK. unfold gain_2 in EK.
    repeat match type of EK with bind _ _ = Ok _ => apply bind_inv in EK as (? & _ & EK) end.
    now apply mul_mm_all_defined in EK.
Qed.

Lemma all_defined_at2 {T} (m : matrix T) N M r c :
  all_defined (N * M) m -> (r < N)%nat -> (c < M)%nat ->
  exists v, at2 M m (Z.of_nat r) (Z.of_nat c) = Ok v.
Proof.
  intros [L F] Hr Hc. unfold at2, at_.
  replace (Z.of_nat r * Z.of_nat M + Z.of_nat c)%Z with (Z.of_nat (r * M + c)) by lia.
  destruct (Z.ltb_spec (Z.of_nat (r * M + c)) 0); [lia|]. rewrite Nat2Z.id.
  destruct (nth_error m (r * M + c)) as [[v|]|] eqn:E.
  - eauto.
  - apply nth_error_In in E. rewrite Forall_forall in F. now apply F in E.
  - apply nth_error_None in E. nia.
Qed.

(** ** Zero gain: the variant without gain computation on AVR *)

Lemma update_timed_avr s x u z P t :
  update_timed R_scalar 1 1 false (enc_sys s)
    {| kK := encv (V2 0 0); kP := enc2 P; kx := encv x; kt := t |} (enc1 u) (enc1 z) =
  Ok {| kK := encv (V2 0 0); kP := enc2 P; kx := encv (xpred s x u); kt := t |}.
Proof.
  unfold update_timed. cbn [kx kP kK kt]. rewrite predict_x_enc, !bind_Ok.
  unfold correct_x. simpl Nat.eqb. cbv iota. cbn [snd fst].
  rewrite correct_x_1_enc, bind_Ok. do 3 f_equal.
  apply vec2_eq; simpl; ring.
Qed.

Fixpoint predict_only (s : sys) (x : vec2) (h : list (R * R)) : vec2 :=
  match h with
  | [] => x
  | (u, _) :: h' => predict_only s (xpred s x u) h'
  end.

Lemma run_timed_avr s P t h : forall x,
  run_timed R_scalar 1 1 false (enc_sys s)
    {| kK := encv (V2 0 0); kP := enc2 P; kx := encv x; kt := t |} (enc_hist h) =
  Ok {| kK := encv (V2 0 0); kP := enc2 P; kx := encv (predict_only s x h); kt := t |}.
Proof.
  induction h as [|[u z] h IH]; intros x; [reflexivity|].
  unfold enc_hist in *. cbn [run_timed map fst snd predict_only].
  rewrite update_timed_avr. apply IH.
Qed.

Lemma run_init_reach s P x h e :
  run R_scalar 1 1 (enc_sys s) (kalman_init R_scalar false 1 (enc2 P) (encv x)) (enc_hist h)
    = Ok (enc_est e) ->
  e = krun s (fresh P x) h.
Proof.
  rewrite kalman_init_enc. intros H. apply run_reach in H. now apply enc_est_inj.
Qed.

Lemma Ok_inj {A} (a b : A) : Ok a = Ok b -> a = b.
Proof. congruence. Qed.

Lemma update_reach s e u z e' :
  update R_scalar 1 1 (enc_sys s) (enc_est e) (enc1 u) (enc1 z) = Ok (enc_est e') ->
  e' = kstep s e u z.
Proof. rewrite update_enc. intros H. symmetry. apply enc_est_inj. now apply Ok_inj. Qed.
