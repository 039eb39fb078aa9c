(** * Properties of the one-pole filter and its designs (C55-C57, C95) *)

From Coq Require Import Reals ZArith List Lra Lia Psatz.
From Coquelicot Require Import Complex.
From Verif Require Import Base Scalars Biquad BiquadProofs BiquadStability OnePole Design DesignProofs OnePoleProofs.
Import ListNotations.
Local Open Scope R_scope.

Definition ex_op : onepole R := {| op_a1 := - 1 / 2; op_b0 := 3; op_v1 := 5 |}.

(** ** C55: the difference equation and its bound *)

Theorem C55_difference_equation : forall (op : onepole R) (xs : list R),
  exists ys op', op_run R_scalar op xs = Ok (ys, op') /\ length ys = length xs /\
    forall n, (n < length xs)%nat ->
      nth n ys 0 = op_b0 op * nth n xs 0
                   - op_a1 op * match n with O => op_v1 op | Datatypes.S m => nth m ys 0 end.
Proof.
  intros op xs. destruct (op_run_out xs op) as [op' E]. exists (op_out (op_b0 op) (op_a1 op) (op_v1 op) xs), op'.
  split; [exact E|]. split; [apply op_out_length|]. intros n Hn. now apply op_out_rec.
Qed.
Print Assumptions C55_difference_equation.

Example C55_difference_case : exists op', op_run R_scalar ex_op [1; 2] = Ok ([1 * 3 - 5 * (- 1 / 2); 2 * 3 - (1 * 3 - 5 * (- 1 / 2)) * (- 1 / 2)], op').
Proof. eexists. reflexivity. Qed.

Theorem C55_bounded : forall (op : onepole R) (X : R) (xs : list R),
  Rabs (op_a1 op) < 1 -> (forall x, In x xs -> Rabs x <= X) ->
  exists ys op', op_run R_scalar op xs = Ok (ys, op') /\
    forall n, (n < length xs)%nat ->
      Rabs (nth n ys 0) <= Rabs (op_a1 op) ^ (n + 1) * Rabs (op_v1 op)
                           + Rabs (op_b0 op) * X / (1 - Rabs (op_a1 op)).
Proof.
  intros op X xs Ha Hx. destruct (op_run_out xs op) as [op' E]. eexists. exists op'. split; [exact E|].
  intros n Hn. rewrite Nat.add_1_r. apply op_out_bound; try assumption.
  destruct xs as [|x xs]; [cbn in Hn; lia|]. apply Rle_trans with (Rabs x); [apply Rabs_pos|]. apply Hx. now left.
Qed.
Print Assumptions C55_bounded.

Example C55_bounded_case : Rabs (op_a1 ex_op) < 1 /\ (forall x, In x [1; -2; 2] -> Rabs x <= 2).
Proof.
  split; [cbn; apply Rabs_def1; lra|]. intros x [<-|[<-|[<-|[]]]]; apply Rabs_le; lra.
Qed.

(** The bound cannot be improved: inputs of alternating or constant sign come as near to it
    as desired. *)
Theorem C55_bound_is_sharp : forall (b a X : R), Rabs a < 1 -> 0 < X -> b <> 0 ->
  forall eps, 0 < eps ->
  exists xs ys op' n, (forall x, In x xs -> Rabs x <= X) /\
    op_run R_scalar (op_of_ba R_scalar b a) xs = Ok (ys, op') /\ (n < length ys)%nat /\
    Rabs b * X / (1 - Rabs a) - eps < Rabs (nth n ys 0).
Proof.
  intros b a X Ha HX Hb eps He.
  set (s := if Rle_dec 0 a then - 1 else 1).
  assert (Ss : s * s = 1) by (unfold s; destruct (Rle_dec 0 a); lra).
  assert (As : a * s = - Rabs a).
  { unfold s. destruct (Rle_dec 0 a); [rewrite Rabs_right by lra|rewrite Rabs_left by lra]; lra. }
  assert (As1 : Rabs s = 1) by (unfold s; destruct (Rle_dec 0 a); [rewrite Rabs_left by lra|rewrite Rabs_right by lra]; lra).
  pose proof (Rabs_pos a) as Ap. set (r := Rabs a) in *.
  set (G := Rabs b * X / (1 - r)).
  assert (HG : 0 < G).
  { unfold G. apply Rdiv_lt_0_compat; [|lra]. apply Rmult_lt_0_compat; [now apply Rabs_pos_lt|assumption]. }
  destruct (pow_lt_1_zero r) with (y := eps / G) as [N HN].
  { unfold r. rewrite Rabs_Rabsolu. exact Ha. }
  { now apply Rdiv_lt_0_compat. }
  destruct (op_run_out (powers X s (Datatypes.S N)) (op_of_ba R_scalar b a)) as [op' E].
  exists (powers X s (Datatypes.S N)). eexists. exists op', N.
  assert (HA : forall i, Rabs (s ^ i) = 1) by (intros i; rewrite <- RPow_abs, As1; apply pow1).
  split.
  { intros x Hin. unfold powers in Hin. apply in_map_iff in Hin. destruct Hin as (i & <- & _).
    rewrite Rabs_mult, HA, Rabs_right by lra. lra. }
  split; [exact E|]. split.
  { rewrite op_out_length. unfold powers. rewrite map_length, seq_length. lia. }
  cbn [op_of_ba op_b0 op_a1 op_v1 sc_zero R_scalar].
  rewrite op_out_powers; [|assumption|lra|lia]. rewrite As, Ropp_involutive.
  replace (1 + - r) with (1 - r) by ring.
  specialize (HN (Datatypes.S N) ltac:(lia)).
  assert (Pp : 0 <= r ^ Datatypes.S N) by now apply pow_le.
  rewrite Rabs_right in HN by lra. set (p := r ^ Datatypes.S N) in *.
  assert (Lt : p * G < eps). { replace eps with (eps / G * G) by (field; lra). apply Rmult_lt_compat_r; assumption. }
  replace (b * X * s ^ N * (1 - p) / (1 - r)) with (b * (X * s ^ N * ((1 - p) / (1 - r)))) by (field; lra).
  rewrite !Rabs_mult, HA, (Rabs_right X) by lra.
  assert (Hg : eps / G * G = eps) by (field; lra).
  replace (Rabs b * (X * 1 * Rabs ((1 - p) / (1 - r)))) with (Rabs b * X * Rabs ((1 - p) / (1 - r))) by ring.
  assert (Hle : (1 - p) / (1 - r) <= Rabs ((1 - p) / (1 - r))) by apply Rle_abs.
  assert (0 < Rabs b * X) by (apply Rmult_lt_0_compat; [now apply Rabs_pos_lt|assumption]).
  apply Rlt_le_trans with (Rabs b * X * ((1 - p) / (1 - r))); [|apply Rmult_le_compat_l; lra].
  replace (Rabs b * X * ((1 - p) / (1 - r))) with (G - p * G) by (unfold G; field; lra). lra.
Qed.
Print Assumptions C55_bound_is_sharp.

Example C55_sharp_case : Rabs (1 / 2) < 1 /\ 0 < 2 /\ 3 <> 0.
Proof. repeat split; try lra. apply Rabs_def1; lra. Qed.

(** [reset] makes the filter forget its past, for every numeric type. *)
Theorem C55_reset_forgets : forall (T : Type) (S : scalar T) (b a : T) (op op' : onepole T) (xs xs' : list T) r,
  op_b0 op = b -> op_a1 op = a ->
  op_run S op xs = Ok (r, op') ->
  op_run S (op_reset S op') xs' = op_run S (op_of_ba S b a) xs'.
Proof.
  intros T S b a op op' xs xs' r Hb Ha E.
  assert (K : op_b0 op' = b /\ op_a1 op' = a).
  { revert op op' r Hb Ha E. induction xs as [|x xs IH]; intros op op' r Hb Ha E; cbn [op_run] in E.
    - assert (op = op') by congruence. subst op'. split; assumption.
    - destruct (op_step S op x) as [[y op1]|] eqn:Es; cbn [bind fst snd] in E; [|discriminate].
      destruct (op_run S op1 xs) as [[ys op2]|] eqn:Er; cbn [bind fst snd] in E; [|discriminate].
      assert (op2 = op') by congruence. subst op2.
      apply (IH op1 op' ys); try assumption; unfold op_step in Es;
        destruct (sc_mul S x (op_b0 op)); cbn [bind] in Es; try discriminate;
        destruct (sc_mul S (op_v1 op) (op_a1 op)); cbn [bind] in Es; try discriminate;
        destruct (sc_sub S _ _); cbn [bind] in Es; try discriminate;
        match type of Es with Ok (_, ?o) = _ => assert (o = op1) by congruence; subst op1; assumption end. }
  destruct K as [Kb Ka]. unfold op_reset, op_of_ba. now rewrite Kb, Ka.
Qed.
Print Assumptions C55_reset_forgets.

Example C55_reset_case : exists r op', op_run R_scalar ex_op [1; 2] = Ok (r, op').
Proof. eexists. eexists. reflexivity. Qed.

(** ** C56: pole and stability report *)

(** The pole of the filter is the root -a1 of z + a1; what is reported is right only when
    that happens to be 7. *)
Theorem C56_pole_report : forall (op : onepole R),
  op_poles op = Ok (RtoC 7) /\
  (op_poles op = Ok (RtoC (- op_a1 op)) <-> op_a1 op = - 7).
Proof.
  intros op. assert (E : op_poles op = Ok (RtoC 7)).
  { unfold op_poles, op_solve. destruct (Req_EM_T 1 0); [lra|reflexivity]. }
  split; [exact E|]. rewrite E. split; intros H.
  - assert (X : RtoC 7 = RtoC (- op_a1 op)) by congruence. apply RtoC_inj in X. lra.
  - rewrite H. do 2 f_equal. lra.
Qed.
Print Assumptions C56_pole_report.

Theorem C56_reported_stable_refuted : forall (b a : R), 1 < Rabs a -> b <> 0 ->
  op_is_stable (op_of_ba R_scalar b a) = true /\
  forall B, exists n ys op',
    op_run R_scalar (op_of_ba R_scalar b a) (1 :: repeat 0 n) = Ok (ys, op') /\
    exists i, (i < length ys)%nat /\ B < Rabs (nth i ys 0).
Proof.
  intros b a Ha Hb. split; [reflexivity|]. intros B.
  destruct (Pow_x_infinity (- a)) with (b := (Rabs B + 1) / Rabs b) as [N HN].
  { rewrite Rabs_Ropp. lra. }
  exists (Datatypes.S N).
  destruct (op_run_out (1 :: repeat 0 (Datatypes.S N)) (op_of_ba R_scalar b a)) as [op' E].
  eexists. exists op'. split; [exact E|]. exists (Datatypes.S N). split.
  { rewrite op_out_length. cbn [length]. rewrite repeat_length. lia. }
  cbn [op_of_ba op_b0 op_a1 op_v1 sc_zero R_scalar].
  change (op_out b a 0 (1 :: repeat 0 (Datatypes.S N)))
    with ((1 * b - 0 * a) :: op_out b a (1 * b - 0 * a) (repeat 0 (Datatypes.S N))).
  change (nth (Datatypes.S N) (?x :: ?l) 0) with (nth N l 0).
  cbn [nth]. rewrite op_out_impulse by lia.
  replace (Nat.eqb N (Datatypes.S N)) with false by (symmetry; apply Nat.eqb_neq; lia).
  replace (1 * b - 0 * a) with b by ring. rewrite Rabs_mult.
  specialize (HN (Datatypes.S N) ltac:(lia)).
  assert (Hb' : 0 < Rabs b) by now apply Rabs_pos_lt.
  apply Rge_le in HN. apply (Rmult_le_compat_r (Rabs b)) in HN; [|lra].
  replace ((Rabs B + 1) / Rabs b * Rabs b) with (Rabs B + 1) in HN by (field; lra).
  pose proof (Rle_abs B). lra.
Qed.
Print Assumptions C56_reported_stable_refuted.

Example C56_case : 1 < Rabs (-3) /\ 1 <> 0.
Proof. split; [|lra]. rewrite Rabs_left; lra. Qed.

(** ** C57: the designs *)

Lemma op_response_dc b a : Rabs a < 1 -> op_response (op_of_ba R_scalar b a) 0 = Ok (RtoC (b / (1 + a))).
Proof.
  intros Ha. apply Rabs_def2 in Ha. unfold op_response. cbn [op_of_ba op_a1 op_b0].
  assert (Z : polar 1 (- (2 * PI * 0)) = RtoC 1).
  { rewrite Rmult_0_r, Ropp_0. unfold polar, RtoC. rewrite cos_0, sin_0. f_equal; ring. }
  rewrite Z, <- RtoC_mult, <- RtoC_plus. destruct (Ceq_dec _ _) as [X|_].
  - apply RtoC_inj in X. lra.
  - rewrite <- RtoC_div by lra. do 3 f_equal. ring.
Qed.

Lemma op_response_nyquist b a : Rabs a < 1 -> op_response (op_of_ba R_scalar b a) (1 / 2) = Ok (RtoC (b / (1 - a))).
Proof.
  intros Ha. apply Rabs_def2 in Ha. unfold op_response. cbn [op_of_ba op_a1 op_b0].
  assert (Z : polar 1 (- (2 * PI * (1 / 2))) = RtoC (-1)).
  { replace (2 * PI * (1 / 2)) with PI by field. unfold polar, RtoC. rewrite cos_neg, sin_neg, cos_PI, sin_PI. f_equal; ring. }
  rewrite Z, <- RtoC_mult, <- RtoC_plus. destruct (Ceq_dec _ _) as [X|_].
  - apply RtoC_inj in X. lra.
  - rewrite <- RtoC_div by lra. do 3 f_equal. ring.
Qed.

Lemma exp_neg_range t : 0 < t -> 0 < exp (- t) < 1.
Proof. intros H. split; [apply exp_pos|]. rewrite <- exp_0. apply exp_increasing. lra. Qed.

Lemma low_pass_value o f fs : 0 < f < fs / 2 ->
  onepole_low_pass o f fs = Ok (1 - unqualified_abs o (- exp (- (PI * f / fs))), - exp (- (PI * f / fs))).
Proof.
  intros H. unfold onepole_low_pass. rewrite rdiv_ok by lra. cbn [bind].
  replace (-1 * PI * f / fs) with (- (PI * f / fs)) by (field; lra). reflexivity.
Qed.

Lemma high_pass_value o f fs : 0 < f < fs / 2 ->
  onepole_high_pass o f fs = Ok (1 - unqualified_abs o (exp (- (PI / 2 - PI * f / fs))), exp (- (PI / 2 - PI * f / fs))).
Proof.
  intros H. unfold onepole_high_pass. rewrite rdiv_ok by lra. cbn [bind].
  replace (-1 * PI * (1 / 2 - f / fs)) with (- (PI / 2 - PI * f / fs)) by (field; lra). reflexivity.
Qed.

(** With the absolute value of floating-point numbers. *)
Theorem C57_low_pass : forall f fs, 0 < f < fs / 2 ->
  exists c, onepole_low_pass abs_double f fs = Ok c /\
    Rabs (op_a1 (make_onepole c)) < 1 /\ op_response (make_onepole c) 0 = Ok (RtoC 1).
Proof.
  intros f fs H. destruct (angle_range f fs H) as [A _]. rewrite (low_pass_value _ _ _ H).
  eexists. split; [reflexivity|]. pose proof (exp_neg_range _ A) as R. set (r := exp (- (PI * f / fs))) in *.
  cbn [unqualified_abs]. rewrite Rabs_Ropp, (Rabs_right r) by lra. unfold make_onepole; cbn [fst snd].
  assert (Ra : Rabs (- r) < 1) by (rewrite Rabs_Ropp, Rabs_right; lra).
  split; [exact Ra|]. rewrite op_response_dc by exact Ra. do 2 f_equal. field. lra.
Qed.
Print Assumptions C57_low_pass.

Theorem C57_high_pass : forall f fs, 0 < f < fs / 2 ->
  exists c, onepole_high_pass abs_double f fs = Ok c /\
    Rabs (op_a1 (make_onepole c)) < 1 /\ op_response (make_onepole c) (1 / 2) = Ok (RtoC 1).
Proof.
  intros f fs H. destruct (angle_range f fs H) as [_ A]. rewrite (high_pass_value _ _ _ H).
  eexists. split; [reflexivity|]. assert (A' : 0 < PI / 2 - PI * f / fs) by lra.
  pose proof (exp_neg_range _ A') as R. set (r := exp (- (PI / 2 - PI * f / fs))) in *.
  cbn [unqualified_abs]. rewrite (Rabs_right r) by lra. unfold make_onepole; cbn [fst snd].
  assert (Ra : Rabs r < 1) by (rewrite Rabs_right; lra).
  split; [exact Ra|]. rewrite op_response_nyquist by exact Ra. do 2 f_equal. field. lra.
Qed.
Print Assumptions C57_high_pass.

(** If the unqualified [abs] is C's function for [int], the gain is not normalised. *)
Theorem C57_unit_gain_with_int_abs_refuted : forall f fs, 0 < f < fs / 2 ->
  exists l h gl gh, onepole_low_pass abs_int f fs = Ok l /\ onepole_high_pass abs_int f fs = Ok h /\
    fst l = 1 /\ fst h = 1 /\
    op_response (make_onepole l) 0 = Ok (RtoC gl) /\ op_response (make_onepole h) (1 / 2) = Ok (RtoC gh) /\
    1 < gl /\ 1 < gh.
Proof.
  intros f fs H. destruct (angle_range f fs H) as [A B]. assert (A' : 0 < PI / 2 - PI * f / fs) by lra.
  rewrite (low_pass_value _ _ _ H), (high_pass_value _ _ _ H).
  pose proof (exp_neg_range _ A) as R. pose proof (exp_neg_range _ A') as R'.
  set (r := exp (- (PI * f / fs))) in *. set (r' := exp (- (PI / 2 - PI * f / fs))) in *.
  assert (I : forall x, 0 < x < 1 -> Int_part x = 0%Z).
  { intros x Hx. destruct (base_Int_part x) as [I1 I2]. apply Z.le_antisymm; apply Z.lt_succ_r, lt_IZR; rewrite ?succ_IZR; lra. }
  cbn [unqualified_abs]. rewrite Rabs_Ropp, !Rabs_right by lra. rewrite (I r R), (I r' R').
  exists (1 - 0, - r), (1 - 0, r'), (1 / (1 - r)), (1 / (1 - r')).
  assert (Ra : Rabs (- r) < 1) by (rewrite Rabs_Ropp, Rabs_right; lra).
  assert (Ra' : Rabs r' < 1) by (rewrite Rabs_right; lra).
  unfold make_onepole; cbn [fst snd]. rewrite op_response_dc by exact Ra. rewrite op_response_nyquist by exact Ra'.
  repeat split; try lra; try (do 2 f_equal; field; lra).
  - apply (Rmult_lt_reg_r (1 - r)); [lra|]. unfold Rdiv. rewrite Rmult_assoc, Rinv_l; lra.
  - apply (Rmult_lt_reg_r (1 - r')); [lra|]. unfold Rdiv. rewrite Rmult_assoc, Rinv_l; lra.
Qed.
Print Assumptions C57_unit_gain_with_int_abs_refuted.

(** The requested frequency is not the half-power frequency: the power is always below half
    there. *)
Theorem C57_corner_is_half_power_refuted : forall f fs, 0 < f < fs / 2 ->
  exists l h gl gh, onepole_low_pass abs_double f fs = Ok l /\ onepole_high_pass abs_double f fs = Ok h /\
    op_response (make_onepole l) (f / fs) = Ok gl /\ op_response (make_onepole h) (f / fs) = Ok gh /\
    Cmod gl * Cmod gl < 1 / 2 /\ Cmod gh * Cmod gh < 1 / 2.
Proof.
  intros f fs H. destruct (angle_range f fs H) as [A B]. assert (A' : 0 < PI / 2 - PI * f / fs) by lra.
  rewrite (low_pass_value _ _ _ H), (high_pass_value _ _ _ H).
  set (t := PI * f / fs) in *. set (t' := PI / 2 - t) in *.
  pose proof (exp_neg_range _ A) as R. pose proof (exp_neg_range _ A') as R'.
  pose proof (half_power t ltac:(lra)) as P. pose proof (half_power t' ltac:(unfold t'; lra)) as P'.
  set (r := exp (- t)) in *. set (r' := exp (- t')) in *.
  cbn [unqualified_abs]. rewrite Rabs_Ropp, !Rabs_right by lra.
  assert (Ang : 2 * PI * (f / fs) = 2 * t) by (unfold t; field; lra).
  assert (C' : cos (2 * t) = - cos (2 * t')).
  { unfold t'. replace (2 * (PI / 2 - t)) with (- (2 * t) + PI) by field. rewrite neg_cos, cos_neg. ring. }
  assert (G : forall b a, 2 * (b * b) < 1 + 2 * a * cos (2 * t) + a * a ->
     exists g, op_response (make_onepole (b, a)) (f / fs) = Ok g /\ Cmod g * Cmod g < 1 / 2).
  { intros b a Hb. unfold op_response, make_onepole. cbn [fst snd op_of_ba op_a1 op_b0]. rewrite Ang.
    assert (E : Cplus (RtoC 1) (Cmult (RtoC a) (polar 1 (- (2 * t)))) = (1 + a * cos (2 * t), - (a * sin (2 * t)))).
    { unfold polar, Cplus, Cmult, RtoC; cbn. rewrite cos_neg, sin_neg. f_equal; ring. }
    rewrite E. set (d := (1 + a * cos (2 * t), - (a * sin (2 * t)))) in *.
    assert (M : Cmod d * Cmod d = 1 + 2 * a * cos (2 * t) + a * a).
    { rewrite Cmod_sq. unfold d; cbn [fst snd]. pose proof (sin2_cos2 (2 * t)) as S. unfold Rsqr in S.
      set (c := cos (2 * t)) in *. set (s := sin (2 * t)) in *. clearbody c s.
      transitivity (1 + 2 * a * c + a * a * (s * s + c * c)); [ring|rewrite S; ring]. }
    assert (Pos : 0 < Cmod d * Cmod d). { rewrite M. pose proof (Rle_0_sqr b). unfold Rsqr in *. lra. }
    destruct (Ceq_dec d (RtoC 0)) as [X|X].
    - rewrite X, Cmod_0 in Pos. lra.
    - eexists. split; [reflexivity|]. rewrite Cmod_div by exact X. rewrite Cmod_R.
      assert (0 < Cmod d) by now apply Cmod_gt_0.
      replace (Rabs b / Cmod d * (Rabs b / Cmod d)) with (Rabs b * Rabs b / (Cmod d * Cmod d)) by (field; lra).
      rewrite <- Rabs_mult, Rabs_right by exact (Rle_ge _ _ (Rle_0_sqr b)).
      apply (Rmult_lt_reg_r (Cmod d * Cmod d)); [assumption|].
      unfold Rdiv at 1. rewrite Rmult_assoc, Rinv_l by lra. rewrite M. lra. }
  destruct (G (1 - r) (- r)) as (gl & L1 & L2). { nra. }
  destruct (G (1 - r') r') as (gh & H1 & H2). { rewrite C'. nra. }
  do 2 eexists. exists gl, gh. repeat split; try reflexivity; assumption.
Qed.
Print Assumptions C57_corner_is_half_power_refuted.

Example C57_case : 0 < 100 < 1000 / 2.
Proof. lra. Qed.

(** ** C95: [response] is the steady state *)

Theorem C95_response_is_steady_state : forall (op : onepole R) (f X phi : R) (h : C) (n : nat),
  op_response op f = Ok h ->
  exists ys op', op_run R_scalar op (map (fun i => X * cos (2 * PI * f * INR i + phi)) (seq 0 n)) = Ok (ys, op') /\
    length ys = n /\
    forall i, (i < n)%nat ->
      Rabs (nth i ys 0 - fst (Cmult h (polar X (2 * PI * f * INR i + phi))))
      = Rabs (op_a1 op) ^ (i + 1) * Rabs (op_v1 op - fst (Cmult h (polar X (- (2 * PI * f) + phi)))).
Proof.
  intros op f X phi h n Hr.
  set (x := fun i => X * cos (2 * PI * f * INR i + phi)).
  destruct (op_run_out (map x (seq 0 n)) op) as [op' E]. eexists. exists op'. split; [exact E|].
  split; [rewrite op_out_length, map_length, seq_length; reflexivity|].
  set (w := 2 * PI * f) in *. set (a := op_a1 op) in *. set (b := op_b0 op) in *. set (v := op_v1 op) in *.
  assert (Hh : Cmult h (Cplus (RtoC 1) (Cmult (RtoC a) (polar 1 (- w)))) = RtoC b).
  { unfold op_response in Hr. fold w a b in Hr.
    destruct (Ceq_dec _ _) as [|NZ]; [discriminate|]. 
    assert (Eh : h = Cdiv (RtoC b) (Cplus (RtoC 1) (Cmult (RtoC a) (polar 1 (- w))))) by congruence.
    rewrite Eh. field. exact NZ. }
  assert (St : forall th, fst (Cmult h (polar X th)) = b * (X * cos th) - a * fst (Cmult h (polar X (th - w)))).
  { intros th.
    assert (Pm : Cmult (polar 1 (- w)) (polar X th) = polar X (th - w)).
    { unfold polar, Cmult; cbn. unfold Rminus. rewrite cos_plus, sin_plus. f_equal; ring. }
    assert (E1 : Cplus (Cmult h (polar X th)) (Cmult (RtoC a) (Cmult h (polar X (th - w)))) = Cmult (RtoC b) (polar X th)).
    { rewrite <- Hh, <- Pm. ring. }
    apply (f_equal fst) in E1. unfold Cplus in E1; cbn [fst] in E1.
    assert (F1 : forall k z, fst (Cmult (RtoC k) z) = k * fst z) by (intros k [z1 z2]; cbn; ring).
    rewrite !F1 in E1. cbn [polar fst] in E1. cbn [polar fst]. lra. }
  assert (Hx : forall i, (i < n)%nat -> nth i (map x (seq 0 n)) 0 = X * cos (w * INR i + phi)).
  { intros i Hi. rewrite (nth_indep _ 0 (x 0%nat)) by (rewrite map_length, seq_length; assumption).
    rewrite map_nth, seq_nth by assumption. reflexivity. }
  induction i as [|i IH]; intros Hi;
    (rewrite op_out_rec by (rewrite map_length, seq_length; assumption)); rewrite Hx by assumption; rewrite St.
  - change (0 + 1)%nat with 1%nat. rewrite pow_1, <- Rabs_mult. cbn [INR].
    replace (w * 0 + phi - w) with (- w + phi) by ring.
    rewrite <- Rabs_Ropp. f_equal. ring.
  - specialize (IH ltac:(lia)).
    replace (w * INR (Datatypes.S i) + phi - w) with (w * INR i + phi) by (rewrite S_INR; ring).
    set (y := nth i (op_out b a v (map x (seq 0 n))) 0) in *.
    set (q := fst (Cmult h (polar X (w * INR i + phi)))) in *.
    set (c := X * cos (w * INR (Datatypes.S i) + phi)).
    replace (b * c - a * y - (b * c - a * q)) with (- (a * (y - q))) by ring.
    rewrite Rabs_Ropp, Rabs_mult, IH. cbn [Nat.add pow]. ring.
Qed.
Print Assumptions C95_response_is_steady_state.

Example C95_case : exists h, op_response ex_op (1 / 2) = Ok h.
Proof.
  pose proof (op_response_nyquist 3 (- 1 / 2) ltac:(apply Rabs_def1; lra)) as H. eexists. exact H.
Qed.
