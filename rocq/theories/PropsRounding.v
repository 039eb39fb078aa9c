(** * Filters in fixed-point and floating-point arithmetic *)

From Coq Require Import Reals List Arith ZArith Lra Lia Psatz.
From Flocq Require Import Core BinarySingleNaN.
From Verif Require Import Base Scalars FixedPoint FixedSpec FixedProofs PropsFixed Biquad BiquadSpec BiquadProofs
  OnePole Ieee RoundingSpec RoundingProofs IeeeProofs.
Import ListNotations.
Local Open Scope R_scope.

(** ** C126: the numeric types calculate with real numbers up to rounding *)

Theorem C126_fixed_point : forall c, supported c ->
  rounding (fx_scalar c) (value c) (in_range c) 0 (FixedSpec.step c) (value c (fx_max c)).
Proof.
  intros c S. pose proof (sup_w c S) as Hw.
  assert (P : (0 < 2 ^ (fx_w c - 1))%Z) by (apply Z.pow_pos_nonneg; lia).
  assert (B : forall z, Rabs (value c z) <= value c (fx_max c) -> in_range c z).
  { intros z H. apply Rabs_ge2 in H. rewrite <- value_opp in H. destruct H as [L U].
    rewrite value_le in L, U by assumption. unfold in_range, fx_max in *. lia. }
  split.
  - lra.
  - unfold FixedSpec.step. apply Rlt_le, Rdiv_lt_0_compat; [lra|]. apply D_pos, S.
  - split; [cbn; unfold in_range; lia|]. unfold value. cbn. lra.
  - intros a b Ra Rb H. rewrite <- value_add in *. apply B in H.
    destruct (C28_exact_when_representable c a b S Ra Rb) as [C _].
    destruct C as (r & E & Rr & V); [exists (a + b)%Z; split; [exact H|apply value_add]|].
    exists r. repeat split; try assumption; try apply Rr. rewrite V, value_add. rewrite Rminus_diag_eq by reflexivity. rewrite Rabs_R0. lra.
  - intros a b Ra Rb H. rewrite <- value_sub in *. apply B in H.
    destruct (C28_exact_when_representable c a b S Ra Rb) as [_ C].
    destruct C as (r & E & Rr & V); [exists (a - b)%Z; split; [exact H|apply value_sub]|].
    exists r. repeat split; try assumption; try apply Rr. rewrite V, value_sub. rewrite Rminus_diag_eq by reflexivity. rewrite Rabs_R0. lra.
  - intros a b Ra Rb H. apply Rabs_ge2 in H.
    assert (PS : 0 < FixedSpec.step c) by (unfold FixedSpec.step; apply Rdiv_lt_0_compat; [lra|apply D_pos, S]).
    assert (L : value c (fx_min c) <= - value c (fx_max c)).
    { rewrite <- value_opp, value_le by assumption. unfold fx_min, fx_max. lia. }
    destruct (C29_mul_when_in_range c a b S Ra Rb) as (r & E & Rr & V); [lra|].
    exists r. repeat split; try assumption; try apply Rr. apply Rabs_le. lra.
Qed.
Print Assumptions C126_fixed_point.

Theorem C126_double :
  rounding double_scalar B2R (fun x => is_finite x = true)
    (powerRZ 2 (-53)) (powerRZ 2 (-1075)) ((powerRZ 2 53 - 1) * powerRZ 2 971).
Proof.
  pose proof (ieee_rounding 53 1024) as R. unfold ieee_max in R. rewrite !bpow_powerRZ in R.
  replace ((powerRZ 2 53 - 1) * powerRZ 2 971) with (powerRZ (IZR radix2) 1024 - powerRZ (IZR radix2) (1024 - 53)); [exact R|].
  change (IZR radix2) with 2. change (1024 - 53)%Z with 971%Z. change 1024%Z with (53 + 971)%Z.
  rewrite powerRZ_add by lra. ring.
Qed.
Print Assumptions C126_double.

Theorem C126_float :
  rounding float_scalar B2R (fun x => is_finite x = true)
    (powerRZ 2 (-24)) (powerRZ 2 (-150)) ((powerRZ 2 24 - 1) * powerRZ 2 104).
Proof.
  pose proof (ieee_rounding 24 128) as R. unfold ieee_max in R. rewrite !bpow_powerRZ in R.
  replace ((powerRZ 2 24 - 1) * powerRZ 2 104) with (powerRZ (IZR radix2) 128 - powerRZ (IZR radix2) (128 - 24)); [exact R|].
  change (IZR radix2) with 2. change (128 - 24)%Z with 104%Z. change 128%Z with (24 + 104)%Z.
  rewrite powerRZ_add by lra. ring.
Qed.
Print Assumptions C126_float.

(** The bounds on the errors cannot be improved by more than the rounding of half a unit: for
    fixed-point numbers a product can be off by nearly a step. *)
Theorem C126_fixed_point_sharp : forall c, supported c -> (0 < fx_F c)%Z ->
  exists a b r, in_range c a /\ in_range c b /\ fx_mul c a b = Ok r /\
    value c a * value c b - value c r = FixedSpec.step c - FixedSpec.step c * FixedSpec.step c.
Proof.
  intros c S HF. pose proof (sup_w c S) as Hw. pose proof (sup_F c S) as HF2. pose proof (pow_F_pos c S) as PF.
  assert (P : (2 ^ fx_F c <= 2 ^ (fx_w c - 1))%Z) by (apply Z.pow_le_mono_r; lia).
  assert (P1 : (2 ^ 1 <= 2 ^ fx_F c)%Z) by (apply Z.pow_le_mono_r; lia).
  exists (2 ^ fx_F c - 1)%Z, 1%Z, 0%Z.
  assert (Q : ((2 ^ fx_F c - 1) * 1 / 2 ^ fx_F c = 0)%Z) by (apply Z.div_small; lia).
  split; [unfold in_range; lia|]. split; [unfold in_range; lia|]. split.
  - rewrite mul_shape by (try assumption; unfold in_range; lia). rewrite Q, wrap_in; [reflexivity|assumption|unfold in_range; lia].
  - pose proof (D_pos c S). unfold value, FixedSpec.step. rewrite minus_IZR. field. lra.
Qed.
Print Assumptions C126_fixed_point_sharp.

(** A sum, a difference and a product of doubles with rounding. *)
Example C126_case :
  is_finite (ieee_of_Z 53 1024 9007199254740993) = true /\
  B2SF (Bplus mode_NE (ieee_of_Z 53 1024 9007199254740992) (ieee_of_Z 53 1024 1)) =
  B2SF (ieee_of_Z 53 1024 9007199254740992).
Proof. split; vm_compute; reflexivity. Qed.

(** ** C127: one pole *)

(** A filter with |a1| < 1 never leaves the range of numbers and its outputs stay within a
    fixed distance of those of the exact filter with the same coefficients, however long it
    runs.  [N] bounds all intermediate results, [W] the outputs. *)
Theorem C127_one_pole : forall {T} (S : scalar T) val ok eps eta M,
  rounding S val ok eps eta M ->
  forall b a (X W N : R), ok b -> ok a -> Rabs (val a) < 1 -> 0 <= X -> 0 <= W -> 0 <= N <= M ->
  Rabs (val b) * X + Rabs (val a) * W + (2 * (eps * N) + 2 * eta) <= N ->
  Rabs (val b) * X + Rabs (val a) * W + (3 * (eps * N) + 2 * eta) <= W ->
  forall xs, (forall x, In x xs -> ok x /\ Rabs (val x) <= X) ->
  exists ys op', op_run S (op_of_ba S b a) xs = Ok (ys, op') /\
    (forall y, In y ys -> ok y /\ Rabs (val y) <= W) /\
    forall zs, length zs = length xs -> difference_equation (val b) 0 0 (val a) 0 (map val xs) zs ->
    within ((3 * (eps * N) + 2 * eta) / (1 - Rabs (val a))) (map val ys) zs.
Proof.
  intros T S val ok eps eta M RD b a X W N Ob Oa Ha X0 W0 NM HN HW xs FX.
  destruct (rd_zero _ _ _ _ _ _ RD) as [Oz Vz].
  assert (DP : 0 <= 3 * (eps * N) + 2 * eta).
  { pose proof (rd_eps _ _ _ _ _ _ RD). pose proof (rd_eta _ _ _ _ _ _ RD).
    assert (0 <= eps * N) by (apply Rmult_le_pos; lra). lra. }
  destruct (op_run_rounded S val ok eps eta M N RD NM a b Oa Ob X W X0 HN HW Ha xs (sc_zero S) 0 Oz) as
    (ys & op' & E & Oys & L & Bys & K).
  - rewrite Vz, Rabs_R0. exact W0.
  - rewrite Vz, Rminus_0_r, Rabs_R0. apply Rmult_le_pos; [exact DP|]. left. apply Rinv_0_lt_compat. lra.
  - apply Forall_forall. exact FX.
  - exists ys, op'. split; [exact E|]. rewrite Forall_forall in Oys, Bys. split; [auto|].
    intros zs Lz D. split; [now rewrite map_length, L, Lz|]. rewrite map_length, L. apply K; [exact Lz|].
    intros n Hn. rewrite (D n) by (now rewrite map_length). unfold past. rewrite Nat.sub_0_r. cbn [Nat.leb].
    destruct n as [|n]; cbn [Nat.leb].
    + ring.
    + replace (Datatypes.S n - 1)%nat with n by lia. ring.
Qed.
Print Assumptions C127_one_pole.

(** In fixed point: two steps divided by 1 - |a1|, as long as the inputs leave that much
    room. *)
Theorem C127_one_pole_fixed : forall c b a (X : R), supported c ->
  in_range c b -> in_range c a -> Rabs (value c a) < 1 -> 0 <= X ->
  (Rabs (value c b) * X + 2 * FixedSpec.step c) / (1 - Rabs (value c a)) <= value c (fx_max c) ->
  forall xs, (forall x, In x xs -> in_range c x /\ Rabs (value c x) <= X) ->
  exists ys op', op_run (fx_scalar c) (op_of_ba (fx_scalar c) b a) xs = Ok (ys, op') /\
    (forall y, In y ys -> in_range c y) /\
    forall zs, length zs = length xs ->
    difference_equation (value c b) 0 0 (value c a) 0 (map (value c) xs) zs ->
    within (2 * FixedSpec.step c / (1 - Rabs (value c a))) (map (value c) ys) zs.
Proof.
  intros c b a X S Rb Ra Ha X0 H xs FX.
  set (W := (Rabs (value c b) * X + 2 * FixedSpec.step c) / (1 - Rabs (value c a))) in *.
  pose proof (C126_fixed_point c S) as RD. pose proof (rd_eta _ _ _ _ _ _ RD) as PS.
  assert (P : 0 <= Rabs (value c b) * X) by (apply Rmult_le_pos; auto using Rabs_pos).
  assert (EW : Rabs (value c b) * X + Rabs (value c a) * W + 2 * FixedSpec.step c = W) by (unfold W; field; lra).
  assert (PW : 0 <= W).
  { unfold W. apply Rmult_le_pos; [lra|]. left. apply Rinv_0_lt_compat. lra. }
  destruct (C127_one_pole (fx_scalar c) _ _ _ _ _ RD b a X W (value c (fx_max c)) Rb Ra Ha X0 PW) with (xs := xs)
    as (ys & op' & E & F & K); try assumption; try lra.
  exists ys, op'. split; [exact E|]. split; [intros y Hy; now apply F|].
  intros zs Lz D. specialize (K zs Lz D). rewrite Rmult_0_l, Rmult_0_r, Rplus_0_l in K. exact K.
Qed.
Print Assumptions C127_one_pole_fixed.

(** In double. *)
Theorem C127_one_pole_double : forall (b a : double) (X W : R),
  is_finite b = true -> is_finite a = true -> 0 <= X -> 0 <= W <= (powerRZ 2 53 - 1) * powerRZ 2 971 ->
  Rabs (B2R b) * X + 2 * powerRZ 2 (-1075) <= (1 - Rabs (B2R a) - 3 * powerRZ 2 (-53)) * W ->
  Rabs (B2R a) < 1 ->
  forall xs : list double, (forall x, In x xs -> is_finite x = true /\ Rabs (B2R x) <= X) ->
  exists ys op', op_run double_scalar (op_of_ba double_scalar b a) xs = Ok (ys, op') /\
    (forall y, In y ys -> is_finite y = true /\ Rabs (B2R y) <= W) /\
    forall zs, length zs = length xs -> difference_equation (B2R b) 0 0 (B2R a) 0 (map B2R xs) zs ->
    within ((3 * powerRZ 2 (-53) * W + 2 * powerRZ 2 (-1075)) / (1 - Rabs (B2R a))) (map B2R ys) zs.
Proof.
  intros b a X W Fb Fa X0 HW H Ha xs FX.
  pose proof C126_double as RD. pose proof (rd_eps _ _ _ _ _ _ RD) as PE. pose proof (rd_eta _ _ _ _ _ _ RD) as PT.
  set (M := (powerRZ 2 53 - 1) * powerRZ 2 971) in *. set (u := powerRZ 2 (-53)) in *. set (t := powerRZ 2 (-1075)) in *.
  assert (0 <= u * W) by (apply Rmult_le_pos; lra).
  destruct (C127_one_pole double_scalar _ _ _ _ _ RD b a X W W Fb Fa Ha X0) with (xs := xs)
    as (ys & op' & E & F & K); try assumption; try lra.
  exists ys, op'. split; [exact E|]. split; [exact F|]. intros zs Lz D. specialize (K zs Lz D).
  replace (3 * u * W) with (3 * (u * W)) by ring. exact K.
Qed.
Print Assumptions C127_one_pole_double.

(** 16 bits with 8 fraction bits, b0 = 1/4, a1 = -3/4: inputs up to 16 never overflow and the
    output is never off by more than 8 steps. *)
Example C127_case :
  let c := {| fx_w := 16; fx_ib := 16; fx_F := 8; fx_cpp20 := true |} in
  forall xs, (forall x, In x xs -> (-4096 <= x <= 4096)%Z) ->
  exists ys op', op_run (fx_scalar c) (op_of_ba (fx_scalar c) 64%Z (-192)%Z) xs = Ok (ys, op') /\
    forall zs, length zs = length xs ->
    difference_equation (1 / 4) 0 0 (- (3 / 4)) 0 (map (value c) xs) zs ->
    within (8 / 256) (map (value c) ys) zs.
Proof.
  intros c xs FX. assert (Sc : supported c) by (unfold supported, c; cbn; lia).
  assert (V : forall z, value c z = IZR z / 256) by reflexivity.
  assert (St : FixedSpec.step c = 1 / 256) by reflexivity.
  assert (VM : value c (fx_max c) = 32767 / 256) by reflexivity.
  destruct (C127_one_pole_fixed c 64 (-192) 16 Sc) with (xs := xs) as (ys & op' & E & _ & K);
    rewrite ?VM, ?St, ?V, ?(Rabs_right (64 / 256)), ?(Rabs_left (-192 / 256)) by lra; try lra;
    try (unfold in_range; cbn; lia).
  - replace ((64 / 256 * 16 + 2 * (1 / 256)) / (1 - - (-192 / 256))) with (4104 / 256) by field. lra.
  - intros x Hx. specialize (FX x Hx). split; [unfold in_range; cbn; lia|]. rewrite V.
    assert (-4096 <= IZR x <= 4096) by (split; apply IZR_le; lia). apply Rabs_le. lra.
  - exists ys, op'. split; [exact E|]. intros zs Lz D. specialize (K zs Lz).
    rewrite St, !V, (Rabs_left (-192 / 256)) in K by lra.
    replace (64 / 256) with (1 / 4) in K by field. replace (-192 / 256) with (- (3 / 4)) in K by field.
    specialize (K D). replace (8 / 256) with (2 * (1 / 256) / (1 - - - (3 / 4))) by field. exact K.
Qed.

(** ** C128: second order sections *)

(** Strictly stable sections have a gain, so the theorems below apply to them; a simple
    bound is 1 / (1 - |a1| - |a2|). *)
Theorem C128_gain_exists : forall a1 a2, strictly_stable a1 a2 -> exists G, recursion_gain a1 a2 G.
Proof. exact stable_gain. Qed.
Print Assumptions C128_gain_exists.

Theorem C128_gain_small : forall a1 a2, Rabs a1 + Rabs a2 < 1 ->
  recursion_gain a1 a2 (1 / (1 - Rabs a1 - Rabs a2)).
Proof. exact small_gain. Qed.
Print Assumptions C128_gain_small.

Theorem C128_direct_form : forall {T} (S : scalar T) val ok eps eta M,
  rounding S val ok eps eta M ->
  forall (ca : coeff_a T) (cb : coeff_b T) (G X W N : R),
  ok (a1 ca) -> ok (a2 ca) -> ok (b0 cb) -> ok (b1 cb) -> ok (b2 cb) ->
  recursion_gain (val (a1 ca)) (val (a2 ca)) G -> 0 <= X -> 0 <= N <= M ->
  let A := Rabs (val (a1 ca)) + Rabs (val (a2 ca)) in
  let B := Rabs (val (b0 cb)) + Rabs (val (b1 cb)) + Rabs (val (b2 cb)) in
  G * (X + (4 * (eps * N) + 2 * eta)) <= W ->
  X + A * W + (3 * (eps * N) + 2 * eta) <= N ->
  B * W + (4 * (eps * N) + 3 * eta) <= N ->
  forall xs, (forall x, In x xs -> ok x /\ Rabs (val x) <= X) ->
  exists ys bq', run (Biquad.step S) (biquad_ba S cb ca) xs = Ok (ys, bq') /\
    (forall y, In y ys -> ok y /\ Rabs (val y) <= B * W + (5 * (eps * N) + 3 * eta)) /\
    forall zs, length zs = length xs ->
    difference_equation (val (b0 cb)) (val (b1 cb)) (val (b2 cb)) (val (a1 ca)) (val (a2 ca)) (map val xs) zs ->
    within (B * (G * (4 * (eps * N) + 2 * eta)) + (5 * (eps * N) + 3 * eta)) (map val ys) zs.
Proof.
  intros T S val ok eps eta M RD ca cb G X W N Oa1 Oa2 Ob0 Ob1 Ob2 HG X0 NM A B HW HA HB xs FX.
  destruct (rd_zero _ _ _ _ _ _ RD) as [Oz Vz].
  destruct (df2_run_rounded S val ok eps eta M N RD NM ca cb (conj Oa1 Oa2) (conj Ob0 (conj Ob1 Ob2)) X W X0 HA HB G HG HW
    xs [] (zero_w S)) as (ys & bq' & us' & E & Oys & F1 & F2); try assumption.
  - constructor.
  - apply state_eq; exact Vz.
  - now apply Forall_forall.
  - exists ys, bq'. split; [exact E|]. rewrite Forall_forall in Oys.
    assert (DP : 0 <= 4 * (eps * N) + 2 * eta).
    { pose proof (rd_eps _ _ _ _ _ _ RD). pose proof (rd_eta _ _ _ _ _ _ RD).
      assert (0 <= eps * N) by (apply Rmult_le_pos; lra). lra. }
    assert (Ew : vw val (zero_w S) = w0) by (apply state_eq; exact Vz). rewrite Ew in F2.
    split.
    { intros y Hy. split; [now apply Oys|].
      assert (FU : Forall (fun u => Rabs u <= X + (4 * (eps * N) + 2 * eta)) us').
      { clear - F1 FX. revert FX. induction F1 as [|x u xs us H F IH]; intros FX; constructor.
        - destruct (FX x (or_introl eq_refl)) as [_ Bx]. apply Rabs_ge2 in H, Bx. apply Rabs_le. lra.
        - apply IH. intros z Hz. apply FX. now right. }
      pose proof (df2_bounded_by (va val ca) (vb val cb) G (X + (4 * (eps * N) + 2 * eta)) us' HG ltac:(lra) FU) as FB.
      destruct (In_nth _ _ (sc_zero S) Hy) as (n & Hn & <-).
      destruct (Forall2_nth_le _ _ _ (sc_zero S) 0 F2) as [L2 K2]. specialize (K2 n Hn).
      rewrite Forall_forall in FB. specialize (FB (nth n (fst (df2_run (va val ca) (vb val cb) w0 us')) 0)
        (nth_In _ _ ltac:(rewrite <- L2; exact Hn))). cbn [vb b0 b1 b2] in FB. fold B in FB.
      assert (PB : 0 <= B).
      { unfold B. pose proof (Rabs_pos (val (b0 cb))). pose proof (Rabs_pos (val (b1 cb))). pose proof (Rabs_pos (val (b2 cb))). lra. }
      pose proof (Rmult_le_compat_l _ _ _ PB HW). apply Rabs_ge2 in K2, FB. apply Rabs_le. lra. }
    intros zs Lz D.
    assert (F1' : Forall2 (fun x u => Rabs (u - x) <= 4 * (eps * N) + 2 * eta) (map val xs) us').
    { clear - F1. induction F1; cbn; constructor; assumption. }
    pose proof (df2_perturbed (va val ca) (vb val cb) G _ us' (map val xs) HG DP F1') as F3.
    assert (Ez : zs = fst (df2_run (va val ca) (vb val cb) w0 (map val xs))).
    { eapply difference_unique; [|rewrite df2_run_length; reflexivity|exact D|apply (rest_df2 (va val ca) (vb val cb))].
      now rewrite map_length. }
    rewrite <- Ez in F3.
    destruct (Forall2_nth_le _ _ _ 0 0 F3) as [L3 K3].
    destruct (Forall2_nth_le _ _ _ (sc_zero S) 0 F2) as [L2 K2].
    split; [rewrite map_length; congruence|]. rewrite map_length. intros n Hn.
    specialize (K2 n Hn). specialize (K3 n). rewrite <- L2 in K3. specialize (K3 Hn).
    rewrite (nth_indep (map val ys) 0 (val (sc_zero S))) by (now rewrite map_length). rewrite map_nth.
    cbn [va vb a1 a2 b0 b1 b2] in K3. fold B in K3. apply Rabs_ge2 in K2, K3. apply Rabs_le. lra.
Qed.
Print Assumptions C128_direct_form.

Theorem C128_transposed_form : forall {T} (S : scalar T) val ok eps eta M,
  rounding S val ok eps eta M ->
  forall (ca : coeff_a T) (cb : coeff_b T) (G X W N : R),
  ok (a1 ca) -> ok (a2 ca) -> ok (b0 cb) -> ok (b1 cb) -> ok (b2 cb) ->
  recursion_gain (val (a1 ca)) (val (a2 ca)) G -> 0 <= X -> 0 <= N <= M ->
  let A := Rabs (val (a1 ca)) + Rabs (val (a2 ca)) in
  let B := Rabs (val (b0 cb)) + Rabs (val (b1 cb)) + Rabs (val (b2 cb)) in
  G * (B * X + (9 * (eps * N) + 5 * eta)) <= W ->
  B * X + A * W + (9 * (eps * N) + 5 * eta) <= N ->
  forall xs, (forall x, In x xs -> ok x /\ Rabs (val x) <= X) ->
  exists ys bq', run (step_df2_transposed S) (biquad_ba S cb ca) xs = Ok (ys, bq') /\
    (forall y, In y ys -> ok y /\ Rabs (val y) <= W) /\
    forall zs, length zs = length xs ->
    difference_equation (val (b0 cb)) (val (b1 cb)) (val (b2 cb)) (val (a1 ca)) (val (a2 ca)) (map val xs) zs ->
    within (G * (9 * (eps * N) + 5 * eta)) (map val ys) zs.
Proof.
  intros T S val ok eps eta M RD ca cb G X W N Oa1 Oa2 Ob0 Ob1 Ob2 HG X0 NM A B HW HN xs FX.
  destruct (rd_zero _ _ _ _ _ _ RD) as [Oz Vz].
  assert (PE := rd_eps _ _ _ _ _ _ RD). assert (PT := rd_eta _ _ _ _ _ _ RD).
  assert (PU : 0 <= eps * N) by (apply Rmult_le_pos; lra).
  destruct (t_run_rounded S val ok eps eta M N RD NM ca cb (conj Oa1 Oa2) (conj Ob0 (conj Ob1 Ob2)) X W X0 HN G HG HW
    xs [] (zero_w S) 0 0 0 0 0 0) as (ys & bq' & gs' & E & Oys & F1 & F2); try assumption;
    try (rewrite Rabs_R0; lra); try (cbn [zero_w v1 v2]; rewrite Vz; ring).
  - constructor.
  - reflexivity.
  - now apply Forall_forall.
  - exists ys, bq'. split; [exact E|]. rewrite Forall_forall in Oys.
    assert (DP : 0 <= 9 * (eps * N) + 5 * eta) by lra.
    assert (PB : 0 <= B * X).
    { apply Rmult_le_pos; [|exact X0]. unfold B. pose proof (Rabs_pos (val (b0 cb))). pose proof (Rabs_pos (val (b1 cb))).
      pose proof (Rabs_pos (val (b2 cb))). lra. }
    split.
    { intros y Hy. split; [now apply Oys|].
      assert (FU : Forall (fun u => Rabs u <= B * X + (9 * (eps * N) + 5 * eta)) gs').
      { assert (FW : Forall (fun g => Rabs g <= B * X) (weighted (vb val cb) 0 0 (map val xs))).
        { apply (weighted_bounded (vb val cb) X); rewrite ?Rabs_R0; try lra. apply Forall_forall. intros v Hv.
          apply in_map_iff in Hv. destruct Hv as (x & <- & Hx). now apply FX. }
        clear - F1 FW. revert FW. induction F1 as [|g u gl us H F IH]; intros FW; constructor.
        - apply Forall_inv in FW. apply Rabs_ge2 in H, FW. apply Rabs_le. lra.
        - apply IH. now apply Forall_inv_tail in FW. }
      pose proof (df2_bounded_by (va val ca) pure G (B * X + (9 * (eps * N) + 5 * eta)) gs' HG ltac:(lra) FU) as FB.
      change {| v1 := 0; v2 := 0 |} with w0 in F2. rewrite <- F2 in FB.
      rewrite Forall_forall in FB. specialize (FB (val y) (in_map val _ _ Hy)).
      cbn [pure b0 b1 b2] in FB. rewrite Rabs_R1, Rabs_R0, !Rplus_0_r, Rmult_1_l in FB. lra. }
    intros zs Lz D.
    pose proof (df2_perturbed (va val ca) pure G _ gs' _ HG DP F1) as F3.
    assert (Ez : zs = fst (df2_run (va val ca) pure w0 (weighted (vb val cb) 0 0 (map val xs)))).
    { apply weighted_difference; [now rewrite map_length|exact D]. }
    change {| v1 := 0; v2 := 0 |} with w0 in F2. rewrite <- Ez, <- F2 in F3.
    destruct (Forall2_nth_le _ _ _ 0 0 F3) as [L3 K3]. split; [exact L3|]. intros n Hn. specialize (K3 n Hn).
    cbn [pure b0 b1 b2] in K3. rewrite Rabs_R1, Rabs_R0, !Rplus_0_r, Rmult_1_l in K3. exact K3.
Qed.
Print Assumptions C128_transposed_form.

(** In fixed point. *)
Theorem C128_direct_form_fixed : forall c (ca : coeff_a Z) (cb : coeff_b Z) (G X : R), supported c ->
  in_range c (a1 ca) -> in_range c (a2 ca) -> in_range c (b0 cb) -> in_range c (b1 cb) -> in_range c (b2 cb) ->
  recursion_gain (value c (a1 ca)) (value c (a2 ca)) G -> 0 <= X ->
  let A := Rabs (value c (a1 ca)) + Rabs (value c (a2 ca)) in
  let B := Rabs (value c (b0 cb)) + Rabs (value c (b1 cb)) + Rabs (value c (b2 cb)) in
  let s := FixedSpec.step c in
  X + A * (G * (X + 2 * s)) + 2 * s <= value c (fx_max c) ->
  B * (G * (X + 2 * s)) + 3 * s <= value c (fx_max c) ->
  forall xs, (forall x, In x xs -> in_range c x /\ Rabs (value c x) <= X) ->
  exists ys bq', run (Biquad.step (fx_scalar c)) (biquad_ba (fx_scalar c) cb ca) xs = Ok (ys, bq') /\
    (forall y, In y ys -> in_range c y) /\
    forall zs, length zs = length xs ->
    difference_equation (value c (b0 cb)) (value c (b1 cb)) (value c (b2 cb)) (value c (a1 ca)) (value c (a2 ca))
      (map (value c) xs) zs ->
    within ((2 * B * G + 3) * s) (map (value c) ys) zs.
Proof.
  intros c ca cb G X S R1 R2 R3 R4 R5 HG X0 A B s HA HB xs FX.
  pose proof (C126_fixed_point c S) as RD. pose proof (rd_eta _ _ _ _ _ _ RD) as PS. fold s in PS, RD.
  assert (PM : 0 <= value c (fx_max c)).
  { pose proof (sup_w c S) as Hw. assert (0 < 2 ^ (fx_w c - 1))%Z by (apply Z.pow_pos_nonneg; lia).
    replace 0 with (value c 0) by (unfold value; cbn; lra). rewrite value_le by assumption. unfold fx_max. lia. }
  destruct (C128_direct_form (fx_scalar c) _ _ _ _ _ RD ca cb G X (G * (X + 2 * s)) (value c (fx_max c))) with (xs := xs)
    as (ys & bq' & E & F & K); try assumption; rewrite ?Rmult_0_l, ?Rmult_0_r, ?Rplus_0_l; try lra; try assumption.
  exists ys, bq'. split; [exact E|]. split; [intros y Hy; now apply F|]. intros zs Lz D. specialize (K zs Lz D).
  rewrite Rmult_0_l, !Rmult_0_r, !Rplus_0_l in K. fold B in K.
  replace ((2 * B * G + 3) * s) with (B * (G * (2 * s)) + 3 * s) by ring. exact K.
Qed.
Print Assumptions C128_direct_form_fixed.

Theorem C128_transposed_form_fixed : forall c (ca : coeff_a Z) (cb : coeff_b Z) (G X : R), supported c ->
  in_range c (a1 ca) -> in_range c (a2 ca) -> in_range c (b0 cb) -> in_range c (b1 cb) -> in_range c (b2 cb) ->
  recursion_gain (value c (a1 ca)) (value c (a2 ca)) G -> 0 <= X ->
  let A := Rabs (value c (a1 ca)) + Rabs (value c (a2 ca)) in
  let B := Rabs (value c (b0 cb)) + Rabs (value c (b1 cb)) + Rabs (value c (b2 cb)) in
  let s := FixedSpec.step c in
  B * X + A * (G * (B * X + 5 * s)) + 5 * s <= value c (fx_max c) ->
  forall xs, (forall x, In x xs -> in_range c x /\ Rabs (value c x) <= X) ->
  exists ys bq', run (step_df2_transposed (fx_scalar c)) (biquad_ba (fx_scalar c) cb ca) xs = Ok (ys, bq') /\
    (forall y, In y ys -> in_range c y) /\
    forall zs, length zs = length xs ->
    difference_equation (value c (b0 cb)) (value c (b1 cb)) (value c (b2 cb)) (value c (a1 ca)) (value c (a2 ca))
      (map (value c) xs) zs ->
    within (5 * G * s) (map (value c) ys) zs.
Proof.
  intros c ca cb G X S R1 R2 R3 R4 R5 HG X0 A B s HA xs FX.
  pose proof (C126_fixed_point c S) as RD. pose proof (rd_eta _ _ _ _ _ _ RD) as PS. fold s in PS, RD.
  assert (PM : 0 <= value c (fx_max c)).
  { pose proof (sup_w c S) as Hw. assert (0 < 2 ^ (fx_w c - 1))%Z by (apply Z.pow_pos_nonneg; lia).
    replace 0 with (value c 0) by (unfold value; cbn; lra). rewrite value_le by assumption. unfold fx_max. lia. }
  destruct (C128_transposed_form (fx_scalar c) _ _ _ _ _ RD ca cb G X (G * (B * X + 5 * s)) (value c (fx_max c))) with (xs := xs)
    as (ys & bq' & E & F & K); try assumption; rewrite ?Rmult_0_l, ?Rmult_0_r, ?Rplus_0_l; try lra; try assumption.
  { fold B. lra. }
  exists ys, bq'. split; [exact E|]. split; [intros y Hy; now apply F|]. intros zs Lz D. specialize (K zs Lz D).
  rewrite Rmult_0_l, !Rmult_0_r, !Rplus_0_l in K.
  replace (5 * G * s) with (G * (5 * s)) by ring. exact K.
Qed.
Print Assumptions C128_transposed_form_fixed.

(** In double. *)
Theorem C128_direct_form_double : forall (ca : coeff_a double) (cb : coeff_b double) (G X W N : R),
  is_finite (a1 ca) = true -> is_finite (a2 ca) = true -> is_finite (b0 cb) = true ->
  is_finite (b1 cb) = true -> is_finite (b2 cb) = true ->
  recursion_gain (B2R (a1 ca)) (B2R (a2 ca)) G -> 0 <= X ->
  0 <= N <= (powerRZ 2 53 - 1) * powerRZ 2 971 ->
  let A := Rabs (B2R (a1 ca)) + Rabs (B2R (a2 ca)) in
  let B := Rabs (B2R (b0 cb)) + Rabs (B2R (b1 cb)) + Rabs (B2R (b2 cb)) in
  let u := powerRZ 2 (-53) * N in
  let t := powerRZ 2 (-1075) in
  G * (X + (4 * u + 2 * t)) <= W ->
  X + A * W + (3 * u + 2 * t) <= N ->
  B * W + (4 * u + 3 * t) <= N ->
  forall xs : list double, (forall x, In x xs -> is_finite x = true /\ Rabs (B2R x) <= X) ->
  exists ys bq', run (Biquad.step double_scalar) (biquad_ba double_scalar cb ca) xs = Ok (ys, bq') /\
    (forall y, In y ys -> is_finite y = true /\ Rabs (B2R y) <= B * W + (5 * u + 3 * t)) /\
    forall zs, length zs = length xs ->
    difference_equation (B2R (b0 cb)) (B2R (b1 cb)) (B2R (b2 cb)) (B2R (a1 ca)) (B2R (a2 ca)) (map B2R xs) zs ->
    within (B * (G * (4 * u + 2 * t)) + (5 * u + 3 * t)) (map B2R ys) zs.
Proof.
  intros ca cb G X W N F1 F2 F3 F4 F5 HG X0 HN A B u t HW HA HB xs FX.
  exact (C128_direct_form double_scalar B2R _ _ _ _ C126_double ca cb G X W N F1 F2 F3 F4 F5 HG X0 HN HW HA HB xs FX).
Qed.
Print Assumptions C128_direct_form_double.

(** The same format, b = (1/4, 1/2, 1/4), a = (-1/2, 1/4), inputs up to 4. *)
Example C128_case :
  let c := {| fx_w := 16; fx_ib := 16; fx_F := 8; fx_cpp20 := true |} in
  let ca := {| a1 := -128; a2 := 64 |}%Z in
  let cb := {| b0 := 64; b1 := 128; b2 := 64 |}%Z in
  forall xs, (forall x, In x xs -> (-1024 <= x <= 1024)%Z) ->
  exists ys zs bq bq',
    run (Biquad.step (fx_scalar c)) (biquad_ba (fx_scalar c) cb ca) xs = Ok (ys, bq) /\
    run (step_df2_transposed (fx_scalar c)) (biquad_ba (fx_scalar c) cb ca) xs = Ok (zs, bq') /\
    forall rs, length rs = length xs ->
    difference_equation (1 / 4) (1 / 2) (1 / 4) (- (1 / 2)) (1 / 4) (map (value c) xs) rs ->
    within (11 / 256) (map (value c) ys) rs /\ within (20 / 256) (map (value c) zs) rs.
Proof.
  intros c ca cb xs FX. assert (Sc : supported c) by (unfold supported, c; cbn; lia).
  assert (V : forall z, value c z = IZR z / 256) by reflexivity.
  assert (St : FixedSpec.step c = 1 / 256) by reflexivity.
  assert (VM : value c (fx_max c) = 32767 / 256) by reflexivity.
  assert (HG : recursion_gain (value c (-128)) (value c 64) 4).
  { pose proof (C128_gain_small (value c (-128)) (value c 64)) as Q. rewrite !V in *.
    rewrite (Rabs_left (-128 / 256)), (Rabs_right (64 / 256)) in Q by lra.
    replace (1 / (1 - - (-128 / 256) - 64 / 256)) with 4 in Q by field. apply Q. lra. }
  assert (FX' : forall x, In x xs -> in_range c x /\ Rabs (value c x) <= 4).
  { intros x Hx. specialize (FX x Hx). split; [unfold in_range; cbn; lia|]. rewrite V.
    assert (-1024 <= IZR x <= 1024) by (split; apply IZR_le; lia). apply Rabs_le. lra. }
  destruct (C128_direct_form_fixed c ca cb 4 4 Sc) with (xs := xs) as (ys & bq & E & _ & K);
    try exact HG; try exact FX'; try (unfold in_range; cbn; lia); try lra;
    try (cbn [ca cb a1 a2 b0 b1 b2]; rewrite ?VM, ?St, ?V, ?(Rabs_right (64 / 256)), ?(Rabs_right (128 / 256)), ?(Rabs_left (-128 / 256)) by lra; lra).
  destruct (C128_transposed_form_fixed c ca cb 4 4 Sc) with (xs := xs) as (zs & bq' & E' & _ & K');
    try exact HG; try exact FX'; try (unfold in_range; cbn; lia); try lra;
    try (cbn [ca cb a1 a2 b0 b1 b2]; rewrite ?VM, ?St, ?V, ?(Rabs_right (64 / 256)), ?(Rabs_right (128 / 256)), ?(Rabs_left (-128 / 256)) by lra; lra).
  exists ys, zs, bq, bq'. split; [exact E|]. split; [exact E'|]. intros rs Lr D.
  specialize (K rs Lr). specialize (K' rs Lr). cbn [ca cb a1 a2 b0 b1 b2] in K, K'. rewrite St, !V in K, K'.
  rewrite (Rabs_right (64 / 256)), (Rabs_right (128 / 256)) in K by lra.
  replace (64 / 256) with (1 / 4) in K, K' by field. replace (-128 / 256) with (- (1 / 2)) in K, K' by field.
  replace (128 / 256) with (1 / 2) in K, K' by field. specialize (K D). specialize (K' D).
  split.
  - replace (11 / 256) with ((2 * (1 / 4 + 1 / 2 + 1 / 4) * 4 + 3) * (1 / 256)) by field. exact K.
  - replace (20 / 256) with (5 * 4 * (1 / 256)) by field. exact K'.
Qed.

(** ** C129: without input the rounded filters do not come to rest *)

(** One pole at 1 - step: the exact filter decays, the fixed-point filter keeps every state
    between 0 and 1 for ever. *)
Theorem C129_one_pole_decays_refuted : forall c b v n, supported c -> (0 < fx_F c)%Z ->
  in_range c b -> (0 < v < 2 ^ fx_F c)%Z ->
  let a := (- (2 ^ fx_F c - 1))%Z in
  in_range c a /\ Rabs (value c a) < 1 /\
  op_run (fx_scalar c) {| op_a1 := a; op_b0 := b; op_v1 := v |} (repeat 0%Z n) =
    Ok (repeat v n, {| op_a1 := a; op_b0 := b; op_v1 := v |}).
Proof.
  intros c b v n S HF Rb Hv a. pose proof (sup_w c S) as Hw. pose proof (sup_F c S) as HF2. pose proof (pow_F_pos c S) as PF.
  assert (P : (2 ^ fx_F c <= 2 ^ (fx_w c - 1))%Z) by (apply Z.pow_le_mono_r; lia).
  assert (P1 : (2 ^ 1 <= 2 ^ fx_F c)%Z) by (apply Z.pow_le_mono_r; lia).
  assert (Ra : in_range c a) by (unfold in_range, a; lia).
  assert (Rv : in_range c v) by (unfold in_range; lia).
  assert (R0 : in_range c 0) by (unfold in_range; lia).
  split; [exact Ra|]. split.
  { pose proof (D_pos c S) as PD. unfold a. rewrite value_opp, Rabs_Ropp. unfold value. rewrite minus_IZR.
    rewrite Rabs_right.
    - apply Rmult_lt_reg_r with (IZR (2 ^ fx_F c)); [exact PD|]. unfold Rdiv. rewrite Rmult_assoc, Rinv_l by lra. lra.
    - apply Rle_ge. apply Rmult_le_pos; [|left; now apply Rinv_0_lt_compat].
      assert (2 <= IZR (2 ^ fx_F c)) by (apply IZR_le; lia). lra. }
  induction n as [|n IH]; [reflexivity|]. cbn [repeat op_run].
  assert (ES : op_step (fx_scalar c) {| op_a1 := a; op_b0 := b; op_v1 := v |} 0%Z =
    Ok (v, {| op_a1 := a; op_b0 := b; op_v1 := v |})).
  { unfold op_step. cbn [op_a1 op_b0 op_v1 sc_mul sc_sub fx_scalar].
    rewrite mul_shape by assumption. rewrite Z.mul_0_l, Z.div_0_l by lia. rewrite wrap_in by assumption. cbn [bind].
    rewrite mul_shape by assumption.
    assert (Q : (v * a / 2 ^ fx_F c = - v)%Z).
    { symmetry. apply Z.div_unique with v; [left; lia|]. unfold a. ring. }
    rewrite Q, wrap_in by (try assumption; unfold in_range; lia). cbn [bind].
    destruct (C28_exact_when_representable c 0 (- v) S R0 ltac:(unfold in_range; lia)) as [_ C].
    destruct C as (r & E & Rr & V); [exists v; split; [exact Rv|rewrite value_opp; unfold value; cbn; lra]|].
    rewrite E. cbn [bind].
    assert (r = v) by (apply (value_inj c); [exact S|]; rewrite V, value_opp; unfold value; cbn; lra). now subst r. }
  rewrite ES. cbn [bind fst snd]. rewrite IH. reflexivity.
Qed.
Print Assumptions C129_one_pole_decays_refuted.

(** The same in double: at the smallest positive number a factor of 3/4 has no effect. *)
Theorem C129_double_decays_refuted :
  exists (a v : double), is_finite a = true /\ is_finite v = true /\ Rabs (B2R a) < 1 /\ 0 < B2R v /\
  forall (b : double) n, is_finite b = true -> exists ys,
    op_run double_scalar {| op_a1 := a; op_b0 := b; op_v1 := v |} (repeat (B754_zero false) n) =
    Ok (ys, {| op_a1 := a; op_b0 := b; op_v1 := v |}) /\ ys = repeat v n.
Proof.
  set (a := @B754_finite 53 1024 true 6755399441055744 (-53) eq_refl : double). set (v := @B754_finite 53 1024 false 1 (-1074) eq_refl : double).
  exists a, v.
  split; [reflexivity|]. split; [reflexivity|]. split.
  { unfold a. cbn [B2R F2R cond_Zopp]. unfold F2R; cbn [Fnum Fexp]. cbn [Z.opp].
    change (bpow radix2 (-53)) with (/ 9007199254740992). rewrite Rabs_left; lra. }
  split. { unfold v. cbn [B2R cond_Zopp]. unfold F2R; cbn [Fnum Fexp]. rewrite Rmult_1_l. apply bpow_gt_0. }
  intros b n Fb. exists (repeat v n). split; [|reflexivity].
  induction n as [|n IH]; [reflexivity|]. cbn [repeat op_run].
  assert (ES : op_step double_scalar {| op_a1 := a; op_b0 := b; op_v1 := v |} (B754_zero false) =
    Ok (v, {| op_a1 := a; op_b0 := b; op_v1 := v |})).
  { unfold op_step. cbn [op_a1 op_b0 op_v1 sc_mul sc_sub double_scalar ieee_scalar bind].
    assert (E : Bminus mode_NE (Bmult mode_NE (B754_zero false) b) (Bmult mode_NE v a) = v).
    { apply B2SF_inj. destruct b as [[]|[]| |[] ? ? ?]; try discriminate Fb; vm_compute; reflexivity. }
    rewrite E. reflexivity. }
  rewrite ES. cbn [bind fst snd]. rewrite IH. reflexivity.
Qed.
Print Assumptions C129_double_decays_refuted.

(** 8 bits with 4 fraction bits: the state 1/2 stays for ever although the pole is 15/16. *)
Example C129_case : forall n,
  op_run (fx_scalar {| fx_w := 8; fx_ib := 16; fx_F := 4; fx_cpp20 := true |})
    {| op_a1 := -15; op_b0 := 16; op_v1 := 8 |}%Z (repeat 0%Z n) =
  Ok (repeat 8%Z n, {| op_a1 := -15; op_b0 := 16; op_v1 := 8 |}%Z).
Proof.
  intros n. apply (C129_one_pole_decays_refuted {| fx_w := 8; fx_ib := 16; fx_F := 4; fx_cpp20 := true |} 16 8 n);
    unfold supported, in_range; cbn; lia.
Qed.
