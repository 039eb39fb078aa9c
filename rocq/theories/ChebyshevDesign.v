(** * Chebyshev designs as a whole *)

From Coq Require Import Reals List ZArith Lra Lia Psatz.
From Coquelicot Require Import Complex.
From Verif Require Import Base Scalars Biquad BiquadSpec BiquadProofs BiquadStability OnePole Design DesignSpec
  DesignProofs Cascade CascadeSpec CascadeProofs PropsCascade ChebyshevSpec ChebProduct Chebyshev ChebyshevProofs.
Import ListNotations.
Local Open Scope R_scope.

(** ** Hyperbolic functions *)

Lemma cosh_arcosh x : 1 <= x -> cosh (arcosh x) = x.
Proof.
  intros H. unfold cosh, arcosh. rewrite exp_Ropp.
  assert (S0 : 0 <= x * x - 1) by nra. pose proof (sqrt_pos (x * x - 1)) as S1. pose proof (sqrt_sqrt _ S0) as S2.
  rewrite exp_ln by lra. set (s := sqrt (x * x - 1)) in *. clearbody s.
  replace (/ (x + s)) with (x - s). { field. }
  apply (Rmult_eq_reg_l (x + s)); [|lra]. rewrite Rinv_r by lra. lra.
Qed.

Lemma arcosh_nonneg x : 1 <= x -> 0 <= arcosh x.
Proof.
  intros H. unfold arcosh. rewrite <- ln_1. pose proof (sqrt_pos (x * x - 1)).
  destruct (Req_dec (x + sqrt (x * x - 1)) 1) as [->|N]; [lra|]. left. apply ln_increasing; lra.
Qed.

Lemma arcosh_pos x : 1 < x -> 0 < arcosh x.
Proof. intros H. unfold arcosh. rewrite <- ln_1. pose proof (sqrt_pos (x * x - 1)). apply ln_increasing; lra. Qed.

Lemma sinh_asinh x : sinh (asinh x) = x.
Proof.
  unfold sinh, asinh. rewrite exp_Ropp. assert (S0 : 0 <= x * x + 1) by nra.
  pose proof (sqrt_pos (x * x + 1)) as S1. pose proof (sqrt_sqrt _ S0) as S2.
  set (s := sqrt (x * x + 1)) in *. clearbody s.
  assert (P : 0 < x + s). { destruct (Rlt_dec 0 x); [lra|]. assert (- x < s); [|lra]. apply Rsqr_incrst_0; unfold Rsqr; lra. }
  rewrite exp_ln by lra. replace (/ (x + s)) with (s - x). { field. }
  apply (Rmult_eq_reg_l (x + s)); [|lra]. rewrite Rinv_r by lra. lra.
Qed.

Lemma asinh_pos x : 0 < x -> 0 < asinh x.
Proof.
  intros H. unfold asinh. rewrite <- ln_1. apply ln_increasing; [lra|].
  assert (1 <= sqrt (x * x + 1)); [|lra]. rewrite <- sqrt_1 at 1. apply sqrt_le_1; nra.
Qed.

Lemma sinh_pos a : 0 < a -> 0 < sinh a.
Proof. intros H. unfold sinh. assert (exp (- a) < exp a) by (apply exp_increasing; lra). lra. Qed.

Lemma cosh_mono a b : 0 <= a -> a <= b -> cosh a <= cosh b.
Proof.
  intros H1 H2. unfold cosh. rewrite !exp_Ropp.
  assert (E1 : 1 <= exp a). { rewrite <- exp_0. destruct H1 as [H1| <-]; [left; now apply exp_increasing|lra]. }
  assert (E2 : exp a <= exp b). { destruct H2 as [H2| ->]; [left; now apply exp_increasing|lra]. }
  set (x := exp a) in *. set (y := exp b) in *. clearbody x y.
  assert (I : / x - / y = (y - x) * / (x * y)) by (field; lra).
  assert (/ (x * y) <= 1). { apply (Rle_trans _ (/ 1)); [apply Rinv_le_contravar; nra|rewrite Rinv_1; lra]. }
  assert (0 < / (x * y)) by (apply Rinv_0_lt_compat; nra). nra.
Qed.

Lemma cosh_ge_1 a : 0 <= a -> 1 <= cosh a.
Proof. intros H. rewrite <- cosh_0. now apply cosh_mono; [lra|]. Qed.

(** Monotonicity of the polynomials beyond 1. *)
Lemma cheb_mono n x y : 1 <= x -> x <= y -> cheb n x <= cheb n y.
Proof.
  intros H1 H2. rewrite <- (cosh_arcosh x), <- (cosh_arcosh y), !cheb_cosh by lra.
  pose proof (arcosh_nonneg x H1). pose proof (pos_INR n).
  apply cosh_mono; [nra|]. apply Rmult_le_compat_l; [assumption|].
  destruct H2 as [H2| ->]; [|lra]. left. unfold arcosh.
  pose proof (sqrt_pos (x * x - 1)). apply ln_increasing; [lra|].
  assert (sqrt (x * x - 1) <= sqrt (y * y - 1)) by (apply sqrt_le_1; nra). lra.
Qed.

Lemma ceil_spec x : IZR (ceil x) - 1 < x <= IZR (ceil x).
Proof. unfold ceil. rewrite opp_IZR. destruct (base_Int_part (- x)). lra. Qed.

(** ** Ripple *)

Lemma loss_pos A : 0 < loss A.
Proof. unfold loss. pose proof (Rmax_r A (1 / 100)). lra. Qed.

Lemma Rpower_gt_1 x : 0 < x -> 1 < Rpower 10 x.
Proof. intros H. rewrite <- (Rpower_O 10) by lra. apply Rpower_lt; lra. Qed.

Lemma eps_sq A : 0 < A -> eps A * eps A = Rpower 10 (A / 10) - 1.
Proof. intros H. unfold eps. apply sqrt_sqrt. pose proof (Rpower_gt_1 (A / 10)). lra. Qed.

Lemma eps_pos A : 0 < A -> 0 < eps A.
Proof. intros H. unfold eps. apply sqrt_lt_R0. pose proof (Rpower_gt_1 (A / 10)). lra. Qed.

Lemma eps_lt A B : 0 < A -> A < B -> eps A < eps B.
Proof.
  intros H1 H2. unfold eps. apply sqrt_lt_1.
  - pose proof (Rpower_gt_1 (A / 10)). lra.
  - pose proof (Rpower_gt_1 (B / 10)). lra.
  - assert (Rpower 10 (A / 10) < Rpower 10 (B / 10)) by (apply Rpower_lt; lra). lra.
Qed.

Lemma power_ratio_eps A : 0 < A -> power_ratio A = / (1 + eps A * eps A).
Proof.
  intros H. rewrite eps_sq by assumption. unfold power_ratio. replace (- A / 10) with (- (A / 10)) by field.
  rewrite Rpower_Ropp. f_equal. ring.
Qed.

Lemma ripple_ok A : 0 < A -> ripple A = Ok (eps A).
Proof. intros H. unfold ripple. pose proof (Rpower_gt_1 (A / 10)). destruct (Rlt_dec _ 0); [lra|reflexivity]. Qed.

(** ** Frequencies *)

Lemma tan_mono f1 f2 fs : 0 < f1 -> f1 < f2 -> f2 < fs / 2 -> 0 < tan (PI * f1 / fs) < tan (PI * f2 / fs).
Proof.
  intros H1 H2 H3. destruct (angle_range f1 fs) as [A1 A2]; [lra|]. destruct (angle_range f2 fs) as [B1 B2]; [lra|].
  split; [apply tan_gt_0; lra|]. apply tan_increasing; try lra.
  unfold Rdiv. apply Rmult_lt_compat_r; [apply Rinv_0_lt_compat; lra|]. pose proof PI_RGT_0. nra.
Qed.

Lemma warped_edges kind fs fpass fstop : valid_edges kind fs fpass fstop ->
  0 < warped kind (fpass / fs) < warped kind (fstop / fs).
Proof.
  intros H. unfold warped, valid_edges in *. replace (PI * (fpass / fs)) with (PI * fpass / fs) by (unfold Rdiv; ring).
  replace (PI * (fstop / fs)) with (PI * fstop / fs) by (unfold Rdiv; ring).
  destruct kind; try contradiction.
  - apply tan_mono; lra.
  - destruct (tan_mono fstop fpass fs) as [A B]; try lra. split; [apply Rinv_0_lt_compat; lra|].
    apply Rinv_lt_contravar; nra.
Qed.

Lemma edge_range kind fs fpass fstop : valid_edges kind fs fpass fstop -> 0 < fpass < fs / 2 /\ 0 < fstop < fs / 2.
Proof. unfold valid_edges. destruct kind; try contradiction; lra. Qed.

Lemma setup_ok asserts kind fs fpass fstop Apass Astop :
  valid_edges kind fs fpass fstop -> loss Apass < loss Astop ->
  exact_order kind fs fpass fstop Apass Astop <= IZR (2 ^ 30 - 1) ->
  cheb_setup asserts kind fs fpass fstop (loss Apass) (loss Astop)
  = Ok (sgn kind, warped kind (fpass / fs), warped kind (fstop / fs), eps (loss Apass), eps (loss Astop),
        exact_order kind fs fpass fstop Apass Astop, ceil (exact_order kind fs fpass fstop Apass Astop)) /\
  0 < exact_order kind fs fpass fstop Apass Astop.
Proof.
  intros V L B. pose proof (warped_edges _ _ _ _ V) as [W1 W2]. destruct (edge_range _ _ _ _ V) as [R1 R2].
  pose proof (eps_pos _ (loss_pos Apass)) as E1. pose proof (eps_lt _ _ (loss_pos Apass) L) as E2.
  destruct (prewarp_ok fpass fs R1) as [P1 T1]. destruct (prewarp_ok fstop fs R2) as [P2 T2].
  assert (K : is_low_or_high_pass kind = true) by (destruct kind; try contradiction; reflexivity).
  assert (PW : forall f, 0 < tan (PI * f / fs) -> pow_sign kind (tan (PI * f / fs)) = Ok (warped kind (f / fs))).
  { intros f Hf. unfold pow_sign, warped. replace (PI * (f / fs)) with (PI * f / fs) by (unfold Rdiv; ring).
    destruct kind; try contradiction; cbn [is_low_pass]; [reflexivity|]. rewrite rdiv_ok by lra. f_equal. unfold Rdiv. ring. }
  assert (Q1 : 1 < eps (loss Astop) / eps (loss Apass)).
  { apply (Rmult_lt_reg_r (eps (loss Apass))); [assumption|]. unfold Rdiv. rewrite Rmult_assoc, Rinv_l by lra. lra. }
  assert (Q2 : 1 < warped kind (fstop / fs) / warped kind (fpass / fs)).
  { apply (Rmult_lt_reg_r (warped kind (fpass / fs))); [assumption|]. unfold Rdiv at 2. rewrite Rmult_assoc, Rinv_l by lra. lra. }
  assert (X : 0 < exact_order kind fs fpass fstop Apass Astop).
  { unfold exact_order. apply Rdiv_lt_0_compat; now apply arcosh_pos. }
  split; [|exact X].
  unfold cheb_setup. rewrite K. destruct (Rlt_dec fpass (fs / 2)) as [_|]; [|lra]. destruct (Rlt_dec fstop (fs / 2)) as [_|]; [|lra].
  replace (assert_ asserts true) with (Ok tt) by (unfold assert_; destruct asserts; reflexivity). cbn [bind].
  rewrite P1, P2. cbn [bind]. rewrite !PW by assumption. cbn [bind].
  rewrite !ripple_ok by apply loss_pos. cbn [bind]. rewrite rdiv_ok by lra. cbn [bind].
  unfold acosh. destruct (Rlt_dec (eps (loss Astop) / eps (loss Apass)) 1) as [|_]; [lra|]. cbn [bind].
  rewrite rdiv_ok by lra. cbn [bind]. destruct (Rlt_dec (warped kind (fstop / fs) / warped kind (fpass / fs)) 1) as [|_]; [lra|].
  cbn [bind]. fold (arcosh (eps (loss Astop) / eps (loss Apass))) (arcosh (warped kind (fstop / fs) / warped kind (fpass / fs))).
  rewrite rdiv_ok by (pose proof (arcosh_pos _ Q2); lra). cbn [bind].
  change (arcosh (eps (loss Astop) / eps (loss Apass)) / arcosh (warped kind (fstop / fs) / warped kind (fpass / fs)))
    with (exact_order kind fs fpass fstop Apass Astop).
  set (x := exact_order kind fs fpass fstop Apass Astop) in *. pose proof (ceil_spec x) as [C1 C2].
  rewrite int_range_ok; [reflexivity|].
  assert (ceil x - 1 < 2 ^ 30 - 1)%Z by (apply lt_IZR; rewrite minus_IZR; lra).
  assert (0 < ceil x)%Z by (apply lt_IZR; lra). lia.
Qed.

Lemma order_nat x : 0 < x -> x <= IZR (2 ^ 30 - 1) ->
  exists N, ceil x = Z.of_nat N /\ (0 < N)%nat /\ (Z.of_nat N < 2 ^ 30)%Z /\ INR N - 1 < x <= INR N.
Proof.
  intros H1 H2. pose proof (ceil_spec x) as [C1 C2]. exists (Z.to_nat (ceil x)).
  assert (0 < ceil x)%Z by (apply lt_IZR; lra).
  assert (ceil x - 1 < 2 ^ 30 - 1)%Z by (apply lt_IZR; rewrite minus_IZR; lra).
  rewrite INR_IZR_INZ, Z2Nat.id by lia. repeat split; try lia; assumption.
Qed.

(** ** The half-power formula *)

Lemma acos_pos x : 0 < x -> x < 1 -> 0 < acos x < PI / 2.
Proof.
  intros H1 H2. pose proof (acos_bound x) as [B1 B2]. assert (C : cos (acos x) = x) by (apply cos_acos; lra).
  split.
  - destruct B1 as [B|B]; [assumption|]. rewrite <- B, cos_0 in C. lra.
  - destruct (Rlt_dec (acos x) (PI / 2)) as [|N]; [assumption|]. exfalso.
    assert (cos (acos x) <= 0) by (apply cos_le_0; lra). lra.
Qed.

Lemma cosh_acosh_part_spec x N : 0 < x -> (0 < N)%nat ->
  0 < cosh_acosh_part x (INR N) /\ cheb N (cosh_acosh_part x (INR N)) = x.
Proof.
  intros Hx HN. assert (P : 0 < INR N) by (apply lt_0_INR; lia). assert (P1 : 1 <= INR N) by (apply (le_INR 1); lia).
  unfold cosh_acosh_part. destruct (Rle_dec 1 x) as [H|H].
  - fold (arcosh x). pose proof (arcosh_nonneg x H) as A. split.
    + assert (1 <= cosh (arcosh x / INR N)); [|lra]. apply cosh_ge_1. apply Rmult_le_pos; [assumption|]. left. now apply Rinv_0_lt_compat.
    + rewrite cheb_cosh. replace (INR N * (arcosh x / INR N)) with (arcosh x) by (field; lra). now apply cosh_arcosh.
  - assert (Hx1 : x < 1) by lra. pose proof (acos_pos x Hx Hx1) as [A1 A2]. split.
    + assert (0 < acos x / INR N) by (apply Rdiv_lt_0_compat; lra).
      assert (acos x / INR N <= acos x).
      { apply (Rmult_le_reg_r (INR N)); [assumption|]. unfold Rdiv. rewrite Rmult_assoc, Rinv_l by lra. nra. }
      apply cos_gt_0; lra.
    + rewrite cheb_cos. replace (INR N * (acos x / INR N)) with (acos x) by (field; lra). apply cos_acos; lra.
Qed.

Lemma pow_sign_pos kind x : 0 < x -> pow_sign kind x = Ok (if is_low_pass kind then x else / x).
Proof. intros H. unfold pow_sign. destruct (is_low_pass kind); [reflexivity|]. rewrite rdiv_ok by lra. f_equal. unfold Rdiv. ring. Qed.

(** ** Type 2 *)

Lemma hq_quartic S c x y : x <> 0 -> hq S c x y = x * x * (x * x) * quartic (y / x) c S.
Proof. intros H. unfold hq, quartic. field. assumption. Qed.

Lemma quartic_pos y c S : 0 < c < 1 -> 0 < S -> 0 < quartic y c S.
Proof.
  intros Hc HS. unfold quartic. assert (0 < S * S) by nra. assert (0 < 1 - c * c) by nra.
  assert (0 <= y * y) by apply Rle_0_sqr. set (z := y * y) in *.
  assert (0 <= (z - S * S - c * c) * (z - S * S - c * c)) by apply Rle_0_sqr.
  destruct (Req_dec z 0) as [->|Nz].
  - assert (0 < (0 - S * S - c * c) * (0 - S * S - c * c)) by nra. lra.
  - assert (0 < 4 * (S * S) * (1 - c * c) * z); [|lra]. apply Rmult_lt_0_compat; [|lra]. apply Rmult_lt_0_compat; lra.
Qed.

Lemma cos_theta_01 N k : (2 * k + 1 < N)%nat -> 0 < cos (theta N k) < 1.
Proof.
  intros H. pose proof (theta_left N k H) as [A B]. pose proof PI_RGT_0. split; [apply cos_gt_0; lra|].
  rewrite <- cos_0. apply cos_decreasing_1; lra.
Qed.

(** Cancellation of the common factor. *)
Lemma ratio_cancel p a b u v : p <> 0 -> b <> 0 -> p * a = 4 * u -> p * b = 4 * v -> a / b = u / v.
Proof.
  intros Hp Hb Ea Eb. assert (v <> 0). { intros ->. rewrite Rmult_0_r in Eb. apply Rmult_integral in Eb. tauto. }
  assert (a = 4 * u / p). { apply (Rmult_eq_reg_l p); [|assumption]. rewrite Ea. field. assumption. }
  assert (b = 4 * v / p). { apply (Rmult_eq_reg_l p); [|assumption]. rewrite Eb. field. assumption. }
  subst a b. field. split; assumption.
Qed.

Lemma type2_power kind w S K r f a : 0 < w -> (r = 0 \/ r = 1)%nat -> (0 < 2 * K + r)%nat -> 0 < a -> S = sinh a ->
  let N := (2 * K + r)%nat in
  let c := xc kind f in let q := xs kind f in
  let P := middle r (c * c / (c * c + S / w * (S / w) * (q * q))) *
           prodn (fun k => hq 0 (cos (theta N k)) q (w * c) / hq S (cos (theta N k)) q (w * c)) K in
  (q = 0 -> P = 1) /\
  (q <> 0 -> let T := cheb N (w * c / q) in P = T * T / (T * T + sinh (INR N * a) * sinh (INR N * a))).
Proof.
  intros Hw Hr HN Ha ES N c q P. pose proof (xc_xs kind f) as Py. fold c q in Py.
  assert (HS : 0 < S) by (rewrite ES; now apply sinh_pos).
  assert (Hk : forall k, (k < K)%nat -> (2 * k + 1 < N)%nat) by (intros; unfold N; lia).
  split.
  - intros Q0. rewrite Q0 in Py. assert (C1 : c * c = 1) by lra. assert (C0 : c <> 0) by (intros X; rewrite X in C1; lra).
    unfold P. rewrite Q0, C1.
    rewrite (prodn_ext _ (fun _ => 1)).
    + rewrite prodn_const, pow1. unfold middle. destruct (Nat.eqb r 1); field. lra.
    + intros k Hk'. unfold hq. field. repeat split; (assumption || lra).
  - intros Q0 T. set (y := w * c / q) in *.
    assert (QQ : 0 < q * q) by (assert (0 <= q * q) by apply Rle_0_sqr; assert (q * q <> 0) by (apply Rmult_integral_contrapositive_currified; assumption); lra).
    assert (Pos : forall k, (k < K)%nat -> 0 < quartic y (cos (theta N k)) S).
    { intros k Hk'. apply quartic_pos; [apply cos_theta_01; auto|assumption]. }
    assert (E1 : prodn (fun k => hq 0 (cos (theta N k)) q (w * c) / hq S (cos (theta N k)) q (w * c)) K
       = prodn (fun k => quartic y (cos (theta N k)) 0) K / prodn (fun k => quartic y (cos (theta N k)) S) K).
    { rewrite <- prodn_div. 2:{ intros k Hk'. pose proof (Pos k Hk'). lra. }
      apply prodn_ext. intros k Hk'. rewrite !hq_quartic by assumption. fold y. field. split; [|assumption].
      pose proof (Pos k Hk'). lra. }
    assert (E2 : c * c / (c * c + S / w * (S / w) * (q * q)) = y * y / (y * y + S * S)).
    { unfold y. field. repeat split; try assumption; try lra.
      all: assert (0 < S * S) by nra; assert (0 <= (w * c) * (w * c)) by apply Rle_0_sqr; nra. }
    pose proof (chebyshev_pairs K r y 0 Hr HN) as Z0. cbn zeta in Z0. fold N in Z0. rewrite !Rmult_0_r, sinh_0, !Rmult_0_l, !Rplus_0_r in Z0.
    pose proof (chebyshev_pairs K r y a Hr HN) as Za. cbn zeta in Za. fold N in Za. rewrite <- ES in Za. fold T in Z0, Za.
    unfold P. rewrite E1, E2.
    assert (Mp : 0 < middle r (y * y + S * S)).
    { unfold middle. destruct (Nat.eqb r 1); [|lra]. assert (0 < S * S) by nra. assert (0 <= y * y) by apply Rle_0_sqr. lra. }
    assert (Dp : 0 < prodn (fun k => quartic y (cos (theta N k)) S) K) by now apply prodn_pos.
    rewrite <- (ratio_cancel (4 ^ N) (prodn (fun k => quartic y (cos (theta N k)) 0) K * middle r (y * y))
        (prodn (fun k => quartic y (cos (theta N k)) S) K * middle r (y * y + S * S)) (T * T) (T * T + sinh (INR N * a) * sinh (INR N * a))).
    + unfold middle in *. destruct (Nat.eqb r 1).
      * field. split; lra.
      * field. lra.
    + apply pow_nonzero. lra.
    + assert (0 < prodn (fun k => quartic y (cos (theta N k)) S) K * middle r (y * y + S * S)) by (apply Rmult_lt_0_compat; assumption). lra.
    + exact Z0.
    + exact Za.
Qed.

(** ** Type 1 *)

Lemma type1_power kind w S K r f a : 0 < w -> (r = 0 \/ r = 1)%nat -> (0 < 2 * K + r)%nat -> 0 < a -> S = sinh a ->
  let N := (2 * K + r)%nat in
  let c := xc kind f in let q := xs kind f in
  let P := middle r (c * c / (c * c + S * w * (S * w) * (q * q))) *
           prodn (fun k => hq S (cos (theta N k)) (w * c) 0 / hq S (cos (theta N k)) (w * c) q) K in
  (c = 0 -> P = 0) /\
  (c <> 0 -> let x := q / (w * c) in let e := sinh (INR N * a) in
     P = (cheb N 0 * cheb N 0 + e * e) / (cheb N x * cheb N x + e * e)
         * middle r ((x * x + S * S) / (S * S) / (1 + S * S * (w * w * (w * w)) * (x * x)))).
Proof.
  intros Hw Hr HN Ha ES N c q P. pose proof (xc_xs kind f) as Py. fold c q in Py.
  assert (HS : 0 < S) by (rewrite ES; now apply sinh_pos). assert (SS : 0 < S * S) by nra.
  assert (Hk : forall k, (k < K)%nat -> (2 * k + 1 < N)%nat) by (intros; unfold N; lia).
  split.
  - intros C0. unfold P. rewrite C0 in Py |- *. assert (Q1 : q * q = 1) by lra.
    destruct Hr as [-> | ->].
    + destruct K as [|K]; [lia|]. cbn [prodn]. replace (hq S _ (w * 0) 0) with 0 by (unfold hq; ring).
      unfold middle, Rdiv. cbn [Nat.eqb]. now rewrite Rmult_0_l, !Rmult_0_r.
    + unfold middle. cbn [Nat.eqb]. unfold Rdiv. now rewrite !Rmult_0_l.
  - intros C0 x e.
    assert (WC : w * c <> 0) by (apply Rmult_integral_contrapositive_currified; lra).
    assert (Pos : forall y k, (k < K)%nat -> 0 < quartic y (cos (theta N k)) S).
    { intros y k Hk'. apply quartic_pos; [apply cos_theta_01; auto|assumption]. }
    assert (E1 : prodn (fun k => hq S (cos (theta N k)) (w * c) 0 / hq S (cos (theta N k)) (w * c) q) K
       = prodn (fun k => quartic 0 (cos (theta N k)) S) K / prodn (fun k => quartic x (cos (theta N k)) S) K).
    { rewrite <- prodn_div. 2:{ intros k Hk'. pose proof (Pos x k Hk'). lra. }
      apply prodn_ext. intros k Hk'. rewrite !hq_quartic by assumption. fold x. unfold Rdiv at 2. rewrite Rmult_0_l.
      field. split; [|split; lra]. pose proof (Pos x k Hk'). lra. }
    assert (X0 : 0 <= x * x) by apply Rle_0_sqr.
    assert (W4 : 0 < w * w * (w * w)) by (assert (0 < w * w) by nra; nra).
    assert (D0 : 0 < 1 + S * S * (w * w * (w * w)) * (x * x)).
    { assert (0 <= S * S * (w * w * (w * w)) * (x * x)); [|lra]. apply Rmult_le_pos; [|assumption]. apply Rmult_le_pos; lra. }
    assert (E2 : c * c / (c * c + S * w * (S * w) * (q * q)) = 1 / (1 + S * S * (w * w * (w * w)) * (x * x))).
    { assert (Q : q = x * (w * c)) by (unfold x; field; split; lra). rewrite Q.
      replace (c * c + S * w * (S * w) * (x * (w * c) * (x * (w * c)))) with (c * c * (1 + S * S * (w * w * (w * w)) * (x * x))) by ring.
      field. split; lra. }
    pose proof (chebyshev_pairs K r 0 a Hr HN) as Z0. cbn zeta in Z0. fold N in Z0.
    pose proof (chebyshev_pairs K r x a Hr HN) as Zx. cbn zeta in Zx. fold N in Zx.
    rewrite <- ES in Z0, Zx. fold e in Z0, Zx. rewrite Rmult_0_l, Rplus_0_l in Z0.
    unfold P. rewrite E1, E2.
    assert (Mp : 0 < middle r (x * x + S * S)) by (unfold middle; destruct (Nat.eqb r 1); lra).
    assert (Dp : 0 < prodn (fun k => quartic x (cos (theta N k)) S) K) by (apply prodn_pos; auto).
    rewrite <- (ratio_cancel (4 ^ N) (prodn (fun k => quartic 0 (cos (theta N k)) S) K * middle r (S * S))
        (prodn (fun k => quartic x (cos (theta N k)) S) K * middle r (x * x + S * S)) (cheb N 0 * cheb N 0 + e * e) (cheb N x * cheb N x + e * e)).
    + unfold middle in *. destruct (Nat.eqb r 1); field; repeat split; lra.
    + apply pow_nonzero. lra.
    + assert (0 < prodn (fun k => quartic x (cos (theta N k)) S) K * middle r (x * x + S * S)) by (apply Rmult_lt_0_compat; assumption). lra.
    + exact Z0.
    + exact Zx.
Qed.

Lemma cheb_zero_even K : cheb (2 * K) 0 * cheb (2 * K) 0 = 1.
Proof.
  rewrite <- cos_PI2, cheb_cos. replace (INR (2 * K) * (PI / 2)) with (INR K * PI) by (rewrite mult_INR; cbn [INR]; field).
  assert (sin (INR K * PI) = 0). { apply sin_eq_0_1. exists (Z.of_nat K). now rewrite INR_IZR_INZ. }
  pose proof (sin2_cos2 (INR K * PI)) as E. unfold Rsqr in E. rewrite H in E. lra.
Qed.

Lemma cheb_zero_odd K : cheb (2 * K + 1) 0 = 0.
Proof.
  rewrite <- cos_PI2 at 1. rewrite cheb_cos. apply cos_eq_0_1. exists (Z.of_nat K).
  rewrite plus_INR, mult_INR, <- INR_IZR_INZ. cbn [INR]. field.
Qed.

(** ** The complete designs *)

Definition design_facts (kind : filter_response) (c : digital_coeff) (N : nat) (power : R -> R -> Prop) : Prop :=
  length (dc_b c) = length (dc_a c) /\ (2 * length (dc_b c) = N + N mod 2)%nat /\
  Forall (fun bq => strictly_stable (a1 (bq_a bq)) (a2 (bq_a bq)) /\ response bq (ref kind) = Ok (RtoC 1)) (sections c) /\
  forall f, exists hs, Forall2 (fun bq h => response bq f = Ok h) (sections c) hs /\
    power f (Cmod (fold_right Cmult (RtoC 1) hs) * Cmod (fold_right Cmult (RtoC 1) hs)).

Lemma map_forall2 {A B C} (g : A -> B) (Q : B -> C -> Prop) l hs :
  Forall2 (fun p h => Q (g p) h) l hs -> Forall2 Q (map g l) hs.
Proof. induction 1; cbn; constructor; assumption. Qed.

Lemma mod2 K r : (r = 0 \/ r = 1)%nat -> ((2 * K + r) mod 2 = r)%nat.
Proof. intros [-> | ->]; rewrite Nat.add_comm, Nat.mul_comm, Nat.mod_add; reflexivity || lia. Qed.

Section designs.
  Variables (asserts : bool) (kind : filter_response) (fs fpass fstop Apass Astop : R).
  Hypotheses (V : valid_edges kind fs fpass fstop) (L : loss Apass < loss Astop)
    (B : exact_order kind fs fpass fstop Apass Astop <= IZR (2 ^ 30 - 1)).
  Let x := exact_order kind fs fpass fstop Apass Astop.
  Let wp := warped kind (fpass / fs).
  Let ws := warped kind (fstop / fs).
  Let ep := eps (loss Apass).
  Let es := eps (loss Astop).

  Lemma cheb2_design : exists N c,
    chebyshev2_lp_hp asserts kind fs fpass fstop Apass Astop = Ok c /\
    (0 < N)%nat /\ INR N - 1 < x <= INR N /\ ai_N (dc_info c) = Z.of_nat N /\
    (exists w3, 0 < w3 /\ ai_f3 (dc_info c) = fs / PI * atan (if is_low_pass kind then w3 else / w3) /\
       0 < ws / w3 /\ cheb N (ws / w3) = es) /\
    design_facts kind c N (fun f p => (xs kind f = 0 -> p = 1) /\
      (xs kind f <> 0 -> let T := cheb N (ws * xc kind f / xs kind f) in p = T * T / (T * T + es * es))).
  Proof.
    destruct (setup_ok asserts kind fs fpass fstop Apass Astop V L B) as [Su X]. fold x in X.
    destruct (warped_edges _ _ _ _ V) as [W1 W2]. fold wp ws in W1, W2.
    destruct (order_nat x X B) as (N & EN & HN & BN & ON).
    destruct (div2 N) as (K & r & Nr & Hr).
    pose proof (eps_pos _ (loss_pos Astop)) as E1. fold es in E1.
    assert (PN : 0 < INR N) by (apply lt_0_INR; lia).
    set (a := asinh es / INR N). assert (Pa : 0 < a) by (apply Rdiv_lt_0_compat; [now apply asinh_pos|assumption]).
    assert (Na : sinh (INR N * a) = es).
    { unfold a. replace (INR N * (asinh es / INR N)) with (asinh es) by (field; lra). apply sinh_asinh. }
    destruct (cosh_acosh_part_spec es N E1 HN) as [C1 C2]. set (cp := cosh_acosh_part es (INR N)) in *.
    assert (W3 : 0 < ws / cp) by (apply Rdiv_lt_0_compat; lra).
    destruct (all_sections_ok kind (sinh a / ws) (cheb2_section (sgn kind) ws (sinh a / ws) (Z.of_nat N))
       (fun k f => hq 0 (cos (theta N k)) (xs kind f) (ws * xc kind f) / hq (sinh a) (cos (theta N k)) (xs kind f) (ws * xc kind f)) K r)
      as (l & El & Ll & St & Rs).
    - apply Rdiv_lt_0_compat; [now apply sinh_pos|lra].
    - assumption.
    - intros k Hk. destruct (cheb2_section_ok kind ws (sinh a) N k) as (b & a' & E & G & P); [lra|now apply sinh_pos|lia|assumption|].
      exists (b, a'). split; [exact E|]. split; [exact G|]. intros f. destruct (P f) as (_ & h & Eh & Mh). exists h. now split.
    - exists N. eexists. split; [|split; [assumption|split; [assumption|]]].
      + unfold chebyshev2_lp_hp, chebyshev2_lp_hp_impl. fold (loss Apass) (loss Astop). rewrite Su. cbn [bind].
        fold x wp ws ep es. rewrite EN, <- INR_IZR_INZ. rewrite rdiv_ok by lra. cbn [bind]. fold a cp.
        rewrite rdiv_ok by lra. cbn [bind]. rewrite pow_sign_pos by assumption. cbn [bind]. rewrite rdiv_ok by lra. cbn [bind].
        rewrite <- Nr in El. rewrite El. cbn [bind]. reflexivity.
      + cbn [dc_info ai_N ai_f3]. split; [reflexivity|]. split.
        * exists (ws / cp). split; [assumption|]. split; [reflexivity|]. replace (ws / (ws / cp)) with cp by (field; lra). now split.
        * unfold design_facts. cbn [dc_b dc_a]. rewrite !map_length, Ll, sections_of. split; [reflexivity|].
          split; [rewrite Nr, mod2 by assumption; lia|]. split.
          { apply Forall_map. cbn [bq_a biquad_ba]. exact St. }
          intros f. destruct (Rs f) as (hs & F & M). exists hs. split; [now apply map_forall2|].
          rewrite M. rewrite Nr in Na |- *. rewrite <- Na.
          apply (type2_power kind ws (sinh a) K r f a); try assumption; try reflexivity; lra || lia.
  Qed.

  Lemma cheb1_design : exists N c a,
    chebyshev1_lp_hp asserts kind fs fpass fstop Apass Astop = Ok c /\
    (0 < N)%nat /\ INR N - 1 < x <= INR N /\ ai_N (dc_info c) = Z.of_nat N /\
    0 < a /\ sinh (INR N * a) = es /\
    (exists w3, 0 < w3 /\ ai_f3 (dc_info c) = fs / PI * atan (if is_low_pass kind then w3 else / w3) /\
       cheb N (w3 / wp) = 1 / ep) /\
    design_facts kind c N (fun f p => (xc kind f = 0 -> p = 0) /\
      (xc kind f <> 0 -> let y := xs kind f / (wp * xc kind f) in
        p = (cheb N 0 * cheb N 0 + es * es) / (cheb N y * cheb N y + es * es)
          * middle (N mod 2) ((y * y + sinh a * sinh a) / (sinh a * sinh a) / (1 + sinh a * sinh a * (wp * wp * (wp * wp)) * (y * y))))).
  Proof.
    destruct (setup_ok asserts kind fs fpass fstop Apass Astop V L B) as [Su X]. fold x in X.
    destruct (warped_edges _ _ _ _ V) as [W1 W2]. fold wp ws in W1, W2.
    destruct (order_nat x X B) as (N & EN & HN & BN & ON).
    destruct (div2 N) as (K & r & Nr & Hr).
    pose proof (eps_pos _ (loss_pos Astop)) as E1. fold es in E1.
    pose proof (eps_pos _ (loss_pos Apass)) as E0. fold ep in E0.
    assert (PN : 0 < INR N) by (apply lt_0_INR; lia).
    set (a := asinh es / INR N). assert (Pa : 0 < a) by (apply Rdiv_lt_0_compat; [now apply asinh_pos|assumption]).
    assert (Na : sinh (INR N * a) = es).
    { unfold a. replace (INR N * (asinh es / INR N)) with (asinh es) by (field; lra). apply sinh_asinh. }
    assert (E0' : 0 < 1 / ep) by (apply Rdiv_lt_0_compat; lra).
    destruct (cosh_acosh_part_spec (1 / ep) N E0' HN) as [C1 C2]. set (cp := cosh_acosh_part (1 / ep) (INR N)) in *.
    assert (W3 : 0 < wp * cp) by nra.
    destruct (all_sections_ok kind (sinh a * wp) (cheb1_section (sgn kind) wp (sinh a * wp) (Z.of_nat N))
       (fun k f => hq (sinh a) (cos (theta N k)) (wp * xc kind f) 0 / hq (sinh a) (cos (theta N k)) (wp * xc kind f) (xs kind f)) K r)
      as (l & El & Ll & St & Rs).
    - apply Rmult_lt_0_compat; [now apply sinh_pos|lra].
    - assumption.
    - intros k Hk. destruct (cheb1_section_ok kind wp (sinh a) N k) as (b & a' & E & G & P); [lra|now apply sinh_pos|lia|assumption|].
      exists (b, a'). split; [exact E|]. split; [exact G|]. intros f. destruct (P f) as (_ & h & Eh & Mh). exists h. now split.
    - exists N. eexists. exists a. split; [|split; [assumption|split; [assumption|]]].
      + unfold chebyshev1_lp_hp, chebyshev1_lp_hp_impl. fold (loss Apass) (loss Astop). rewrite Su. cbn [bind].
        fold x wp ws ep es. rewrite EN, <- INR_IZR_INZ. rewrite rdiv_ok by lra. cbn [bind].
        rewrite rdiv_ok by lra. cbn [bind]. fold a cp. rewrite pow_sign_pos by assumption. cbn [bind].
        rewrite <- Nr in El. rewrite El. cbn [bind]. reflexivity.
      + cbn [dc_info ai_N ai_f3]. split; [reflexivity|]. split; [assumption|]. split; [assumption|]. split.
        * exists (wp * cp). split; [assumption|]. split; [reflexivity|]. replace (wp * cp / wp) with cp by (field; lra). assumption.
        * unfold design_facts. cbn [dc_b dc_a]. rewrite !map_length, Ll, sections_of. split; [reflexivity|].
          split; [rewrite Nr, mod2 by assumption; lia|]. split.
          { apply Forall_map. cbn [bq_a biquad_ba]. exact St. }
          intros f. destruct (Rs f) as (hs & F & M). exists hs. split; [now apply map_forall2|].
          rewrite M. rewrite Nr in Na |- *. rewrite <- Na. rewrite (mod2 K r Hr).
          apply (type1_power kind wp (sinh a) K r f a); try assumption; try reflexivity; lra || lia.
  Qed.
End designs.
