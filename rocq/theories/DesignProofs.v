(** * Lemmas about designs *)

From Coq Require Import Reals List Lra Lia Psatz.
From Coquelicot Require Import Complex.
From Verif Require Import Base Scalars Biquad BiquadSpec BiquadProofs BiquadStability OnePole Design DesignSpec.
Import ListNotations.
Local Open Scope R_scope.

(** ** Prewarping *)

Lemma angle_range f fs : 0 < f < fs / 2 -> 0 < PI * f / fs < PI / 2.
Proof.
  intros [H1 H2]. assert (0 < fs) by lra. pose proof PI_RGT_0.
  assert (E : f / fs < / 2). { apply (Rmult_lt_reg_r fs); [lra|]. unfold Rdiv. rewrite Rmult_assoc, Rinv_l by lra. lra. }
  assert (P : 0 < f / fs) by (apply Rdiv_lt_0_compat; lra).
  replace (PI * f / fs) with (PI * (f / fs)) by (unfold Rdiv; ring). split; nra.
Qed.

Lemma prewarp_ok f fs : 0 < f < fs / 2 -> prewarp f fs = Ok (tan (PI * f / fs)) /\ 0 < tan (PI * f / fs).
Proof.
  intros H. pose proof (angle_range f fs H) as [A1 A2]. unfold prewarp, rtan, rdiv.
  destruct (Req_EM_T fs 0); [lra|]. cbn [bind].
  assert (0 < cos (PI * f / fs)) by (apply cos_gt_0; lra).
  destruct (Req_EM_T (cos (PI * f / fs)) 0); [lra|]. split; [reflexivity|]. apply tan_gt_0; lra.
Qed.

Lemma rdiv_ok x y : y <> 0 -> rdiv x y = Ok (x / y).
Proof. intros H. unfold rdiv. destruct (Req_EM_T y 0); [contradiction|reflexivity]. Qed.

(** ** Bilinear transform of a second order prototype *)

Definition bil (K n2 n1 n0 d2 d1 d0 : R) : biquad_coeff :=
  let norm := 1 / (d2 + d1 * K + d0 * (K * K)) in
  {| bc_b := {| b0 := (n2 + n1 * K + n0 * (K * K)) * norm;
                b1 := 2 * (n0 * (K * K) - n2) * norm;
                b2 := (n2 - n1 * K + n0 * (K * K)) * norm |};
     bc_a := {| a1 := 2 * (d0 * (K * K) - d2) * norm;
                a2 := (d2 - d1 * K + d0 * (K * K)) * norm |} |}.

Section Bil.
Variables K n2 n1 n0 d2 d1 d0 : R.
Hypothesis HK : 0 < K.
Hypothesis D2 : 0 < d2.
Hypothesis D1 : 0 < d1.
Hypothesis D0 : 0 < d0.

Let bq := make_biquad (bil K n2 n1 n0 d2 d1 d0).
Let norm := 1 / (d2 + d1 * K + d0 * (K * K)).

Lemma bil_norm : 0 < norm /\ norm * (d2 + d1 * K + d0 * (K * K)) = 1.
Proof.
  assert (0 < d1 * K) by nra. assert (0 < d0 * (K * K)) by (apply Rmult_lt_0_compat; nra).
  unfold norm. split; [apply Rdiv_lt_0_compat; lra|field; lra].
Qed.

Lemma bil_stable : strictly_stable (a1 (bq_a bq)) (a2 (bq_a bq)).
Proof.
  apply strict_triangle. cbn. fold norm. destruct bil_norm as [N E].
  assert (P1 : 0 < d1 * K) by nra. assert (P0 : 0 < d0 * (K * K)) by (apply Rmult_lt_0_compat; nra).
  set (x := d1 * K) in *. set (y := d0 * (K * K)) in *.
  assert (0 < norm * x) by nra. assert (0 < norm * y) by nra. assert (0 < norm * d2) by nra.
  split; apply Rabs_def1; nra.
Qed.

Lemma bil_response fnorm : cos (PI * fnorm) <> 0 ->
  response bq fnorm = Ok (Cdiv (poly2 n2 n1 n0 (0, tan (PI * fnorm) / K)) (poly2 d2 d1 d0 (0, tan (PI * fnorm) / K))).
Proof.
  intros Hc. unfold response.
  fold (den (bq_a bq) (2 * PI * fnorm)). fold (num (bq_b bq) (2 * PI * fnorm)).
  pose proof (stable_den (bq_a bq) (2 * PI * fnorm) bil_stable) as Dn.
  destruct (Ceq_dec (den (bq_a bq) (2 * PI * fnorm)) (RtoC 0)) as [X|_]; [contradiction|]. f_equal.
  set (z := polar 1 (- (2 * PI * fnorm))).
  assert (Z2 : polar 1 (-2 * (2 * PI * fnorm)) = Cmult z z).
  { unfold z. rewrite polar_add. f_equal. ring. }
  set (s := (0, tan (PI * fnorm) / K) : C).
  assert (W : Cminus (RtoC 1) z = Cmult (Cmult (RtoC K) s) (Cplus (RtoC 1) z)).
  { unfold z, s, polar, Cminus, Cplus, Cmult, Copp, RtoC; cbn.
    replace (2 * PI * fnorm) with (2 * (PI * fnorm)) by ring. rewrite cos_neg, sin_neg.
    rewrite cos_2a, sin_2a. set (c := cos (PI * fnorm)) in *. set (q := sin (PI * fnorm)).
    assert (E1 : q * q + c * c = 1) by exact (sin2_cos2 (PI * fnorm)).
    unfold tan. fold c q.
    replace (K * 0 - 0 * (q / c / K)) with 0 by ring.
    replace (K * (q / c / K) + 0 * 0) with (q / c) by (field; split; lra).
    set (u := q / c). assert (Hu : q = u * c) by (unfold u; field; assumption).
    clearbody u. rewrite Hu in E1 |- *. clear Hu.
    apply injective_projections; cbn; rewrite !Rmult_1_l; rewrite <- E1; ring. }
  assert (P : Cplus (RtoC 1) z <> RtoC 0).
  { intros X. rewrite X in W.
    assert (E1 : Cminus (RtoC 1) z = RtoC 0) by (rewrite W; ring).
    assert (E2 : RtoC 2 = RtoC 0).
    { transitivity (Cplus (Cplus (RtoC 1) z) (Cminus (RtoC 1) z)).
      - rewrite (RtoC_plus 1 1 : RtoC 2 = _) || (replace (RtoC 2) with (Cplus (RtoC 1) (RtoC 1)) by (rewrite <- RtoC_plus; f_equal; lra)). ring.
      - rewrite X, E1. ring. }
    injection E2. lra. }
  assert (NK : RtoC norm <> RtoC 0). { intros X. injection X. destruct bil_norm. lra. }
  assert (KK : RtoC K <> RtoC 0). { intros X. injection X. lra. }
  assert (Q : forall c2 c1 c0,
     Cplus (Cplus (RtoC ((c2 + c1 * K + c0 * (K * K)) * norm)) (Cmult (RtoC (2 * (c0 * (K * K) - c2) * norm)) z))
       (Cmult (RtoC ((c2 - c1 * K + c0 * (K * K)) * norm)) (Cmult z z))
     = Cmult (Cmult (RtoC norm) (Cmult (Cmult (RtoC K) (RtoC K)) (Cmult (Cplus (RtoC 1) z) (Cplus (RtoC 1) z)))) (poly2 c2 c1 c0 s)).
  { intros c2 c1 c0.
    transitivity (Cmult (RtoC norm) (Cplus (Cplus
       (Cmult (RtoC c2) (Cmult (Cminus (RtoC 1) z) (Cminus (RtoC 1) z)))
       (Cmult (Cmult (RtoC c1) (RtoC K)) (Cmult (Cminus (RtoC 1) z) (Cplus (RtoC 1) z))))
       (Cmult (Cmult (RtoC c0) (Cmult (RtoC K) (RtoC K))) (Cmult (Cplus (RtoC 1) z) (Cplus (RtoC 1) z))))).
    - replace (2 * (c0 * (K * K) - c2) * norm) with ((c0 * (K * K) - c2 + (c0 * (K * K) - c2)) * norm) by ring.
      repeat rewrite ?RtoC_mult, ?RtoC_plus, ?RtoC_minus. ring.
    - rewrite W. unfold poly2. ring. }
  assert (DD : den (bq_a bq) (2 * PI * fnorm) =
     Cmult (Cmult (RtoC norm) (Cmult (Cmult (RtoC K) (RtoC K)) (Cmult (Cplus (RtoC 1) z) (Cplus (RtoC 1) z)))) (poly2 d2 d1 d0 s)).
  { rewrite <- Q. unfold den. cbn [bq bq_a make_biquad biquad_ba bc_a bil a1 a2]. fold norm z. rewrite Z2.
    do 2 f_equal. f_equal. destruct bil_norm as [_ E]. lra. }
  assert (NN : num (bq_b bq) (2 * PI * fnorm) =
     Cmult (Cmult (RtoC norm) (Cmult (Cmult (RtoC K) (RtoC K)) (Cmult (Cplus (RtoC 1) z) (Cplus (RtoC 1) z)))) (poly2 n2 n1 n0 s)).
  { rewrite <- Q. unfold num. cbn [bq bq_b make_biquad biquad_ba bc_b bil b0 b1 b2]. fold norm z. rewrite Z2. reflexivity. }
  rewrite DD in Dn |- *. rewrite NN.
  assert (PD : poly2 d2 d1 d0 s <> RtoC 0). { intros X. rewrite X in Dn. apply Dn. ring. }
  field. repeat split; assumption.
Qed.

Lemma bil_nyquist : response bq (1 / 2) = Ok (RtoC (n2 / d2)).
Proof.
  unfold response. pose proof (stable_den (bq_a bq) (2 * PI * (1 / 2)) bil_stable) as Dn. unfold den in Dn.
  replace (- 2 * (2 * PI * (1 / 2))) with (- (2 * PI)) in * by field.
  replace (- (2 * PI * (1 / 2))) with (- PI) in * by field.
  assert (Z1 : polar 1 (- PI) = RtoC (-1)).
  { unfold polar, RtoC. rewrite cos_neg, sin_neg, cos_PI, sin_PI. f_equal; ring. }
  assert (Z2 : polar 1 (- (2 * PI)) = RtoC 1).
  { unfold polar, RtoC. rewrite cos_neg, sin_neg, cos_2PI, sin_2PI. f_equal; ring. }
  rewrite Z1, Z2 in *. destruct (Ceq_dec _ _) as [X|_]; [contradiction|].
  rewrite <- !RtoC_mult, <- !RtoC_plus in *.
  rewrite <- RtoC_div; [|intros X; apply Dn; now rewrite X].
  do 2 f_equal. cbn [bq bq_a bq_b make_biquad biquad_ba bc_a bc_b bil a1 a2 b0 b1 b2] in Dn |- *. fold norm in Dn |- *.
  destruct bil_norm as [N E].
  replace (1 + 2 * (d0 * (K * K) - d2) * norm * -1 + (d2 - d1 * K + d0 * (K * K)) * norm * 1)
    with (4 * d2 * norm) by (rewrite <- E at 1; ring).
  field. lra.
Qed.

Lemma bil_dc : response bq 0 = Ok (RtoC (n0 / d0)).
Proof.
  unfold response. pose proof (stable_den (bq_a bq) (2 * PI * 0) bil_stable) as Dn. unfold den in Dn.
  rewrite !Rmult_0_r, Ropp_0 in *.
  assert (Z1 : polar 1 0 = RtoC 1).
  { unfold polar, RtoC. rewrite cos_0, sin_0. f_equal; ring. }
  rewrite Z1 in *. destruct (Ceq_dec _ _) as [X|_]; [contradiction|].
  rewrite <- !RtoC_mult, <- !RtoC_plus in *.
  rewrite <- RtoC_div; [|intros X; apply Dn; now rewrite X].
  do 2 f_equal. cbn [bq bq_a bq_b make_biquad biquad_ba bc_a bc_b bil a1 a2 b0 b1 b2] in Dn |- *. fold norm in Dn |- *.
  destruct bil_norm as [N E].
  replace (1 + 2 * (d0 * (K * K) - d2) * norm * 1 + (d2 - d1 * K + d0 * (K * K)) * norm * 1)
    with (4 * d0 * (K * K) * norm) by (rewrite <- E at 1; ring).
  field. repeat split; try lra. 
Qed.
End Bil.

(** ** The seven designs are bilinear transforms *)

Lemma V_pos g : 0 < dbV_factor g.
Proof. unfold dbV_factor, dbP_factor, Rpower. pose proof (exp_pos (Rabs g / 10 * ln 10)). lra. Qed.

Definition proto_params (r : filter_response) (V Q : R) (boost : bool) : (R * R * R) * (R * R * R) :=
  let q := (1, 1 / Q, 1) in
  match r, boost with
  | low_pass, _ => ((0, 0, 1), q)
  | high_pass, _ => ((1, 0, 0), q)
  | band_pass, _ => ((0, 1 / Q, 0), q)
  | band_stop, _ => ((1, 0, 1), q)
  | low_shelf, true => ((1, sqrt (2 * V), V), (1, sqrt 2, 1))
  | low_shelf, false => ((1, sqrt 2, 1), (1, sqrt (2 * V), V))
  | high_shelf, true => ((V, sqrt (2 * V), 1), (1, sqrt 2, 1))
  | high_shelf, false => ((1, sqrt 2, 1), (V, sqrt (2 * V), 1))
  | peak_band_eq, true => ((1, V / Q, 1), q)
  | peak_band_eq, false => (q, (1, V / Q, 1))
  end.

Definition boosts (g : R) : bool := if Rge_dec g 0 then true else false.

Definition bil' (K : R) (p : (R * R * R) * (R * R * R)) : biquad_coeff :=
  match p with ((n2, n1, n0), (d2, d1, d0)) => bil K n2 n1 n0 d2 d1 d0 end.

Definition den_positive (p : (R * R * R) * (R * R * R)) : Prop :=
  match p with (_, (d2, d1, d0)) => 0 < d2 /\ 0 < d1 /\ 0 < d0 end.

Lemma proto_params_pos r V Q b : 0 < V -> 0 < Q -> den_positive (proto_params r V Q b).
Proof.
  intros HV HQ. assert (0 < 1 / Q) by (apply Rdiv_lt_0_compat; lra).
  assert (0 < V / Q) by (apply Rdiv_lt_0_compat; lra).
  assert (0 < sqrt 2) by (apply sqrt_lt_R0; lra). assert (0 < sqrt (2 * V)) by (apply sqrt_lt_R0; lra).
  destruct r, b; cbn; lra.
Qed.

Lemma coeff_eq x0 x1 x2 u1 u2 y0 y1 y2 v1 v2 :
  x0 = y0 -> x1 = y1 -> x2 = y2 -> u1 = v1 -> u2 = v2 ->
  coeffs x0 x1 x2 u1 u2
  = Ok {| bc_b := {| b0 := y0; b1 := y1; b2 := y2 |}; bc_a := {| a1 := v1; a2 := v2 |} |}.
Proof. intros; subst; reflexivity. Qed.

Lemma design_bil r g f fs Q : 0 < f < fs / 2 -> 0 < Q ->
  biquad_design r g f fs Q = Ok (bil' (tan (PI * f / fs)) (proto_params r (dbV_factor g) Q (boosts g))).
Proof.
  intros Hf HQ. destruct (prewarp_ok f fs Hf) as [E K0]. set (K := tan (PI * f / fs)) in *.
  pose proof (V_pos g) as HV. set (V := dbV_factor g) in *.
  pose proof (proto_params_pos r V Q (boosts g) HV HQ) as HP.
  assert (0 < sqrt 2) by (apply sqrt_lt_R0; lra). assert (0 < sqrt (2 * V)) by (apply sqrt_lt_R0; lra).
  assert (0 < K / Q) by (apply Rdiv_lt_0_compat; lra).
  assert (0 < 1 / Q * K) by (apply Rmult_lt_0_compat; [apply Rdiv_lt_0_compat|]; lra).
  assert (0 < V / Q * K) by (apply Rmult_lt_0_compat; [apply Rdiv_lt_0_compat|]; lra).
  assert (0 < K * K) by nra. assert (0 < V * K * K) by (rewrite Rmult_assoc; nra).
  assert (0 < sqrt 2 * K) by nra. assert (0 < sqrt (2 * V) * K) by nra.
  unfold boosts in *.
  destruct r; cbn [biquad_design]; unfold design_low_pass, design_high_pass, design_band_pass,
    design_band_stop, design_low_shelf, design_high_shelf, design_peak_band_eq;
    fold V; rewrite E; cbn [bind]; try (destruct (Rge_dec g 0));
    repeat (rewrite rdiv_ok by lra; cbn [bind]);
    cbn [proto_params bil']; unfold bil; apply coeff_eq; 
    repeat match goal with |- context [1 / ?d] => progress (replace (1 / Q) with (/ Q) by (field; lra)) end;
    try (field; repeat split; nra); unfold Rdiv in *; rewrite ?Rmult_1_l in *; field; repeat split; nra.
Qed.

Lemma Cmod_sq z : Cmod z * Cmod z = fst z * fst z + snd z * snd z.
Proof. unfold Cmod. rewrite sqrt_sqrt; [simpl; ring|]. simpl. pose proof (Rle_0_sqr (fst z)). pose proof (Rle_0_sqr (snd z)). unfold Rsqr in *. lra. Qed.
