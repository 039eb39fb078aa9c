(** * Lemmas about Chebyshev designs *)

From Coq Require Import Reals List ZArith Lra Lia Psatz.
From Coquelicot Require Import Complex.
From Verif Require Import Base Scalars Biquad BiquadSpec BiquadProofs BiquadStability OnePole Design DesignSpec
  DesignProofs Cascade CascadeSpec CascadeProofs PropsCascade ChebyshevSpec ChebProduct Chebyshev.
Import ListNotations.
Local Open Scope R_scope.

(** ** The squared magnitude of a second order section at every frequency *)

Definition hom (n0 n1 n2 c q : R) : R := (n0 * c * c - n2 * q * q) * (n0 * c * c - n2 * q * q) + (n1 * c * q) * (n1 * c * q).

Lemma polar_neg_1 f : polar 1 (- (2 * PI * f)) =
  (cos (PI * f) * cos (PI * f) - sin (PI * f) * sin (PI * f), - (2 * sin (PI * f) * cos (PI * f))).
Proof.
  unfold polar. rewrite !Rmult_1_l, cos_neg, sin_neg. replace (2 * PI * f) with (2 * (PI * f)) by ring.
  now rewrite cos_2a, sin_2a.
Qed.

Lemma trig_power k0 k1 k2 f :
  let z := Cplus (Cplus (RtoC k0) (Cmult (RtoC k1) (polar 1 (- (2 * PI * f))))) (Cmult (RtoC k2) (polar 1 (- 2 * (2 * PI * f)))) in
  fst z * fst z + snd z * snd z
  = hom (k0 + k1 + k2) (2 * (k0 - k2)) (k0 - k1 + k2) (cos (PI * f)) (sin (PI * f)).
Proof.
  intros z. unfold z.
  assert (Z2 : polar 1 (-2 * (2 * PI * f)) = Cmult (polar 1 (- (2 * PI * f))) (polar 1 (- (2 * PI * f)))).
  { rewrite polar_add. f_equal. ring. }
  rewrite Z2, polar_neg_1. unfold hom, Cplus, Cmult, RtoC. cbn [fst snd].
  pose proof (sin2_cos2 (PI * f)) as E1. unfold Rsqr in E1. set (c := cos (PI * f)) in *. set (q := sin (PI * f)) in *.
  (* |k0 + k1 w + k2 w^2|^2 with |w| = 1 *)
  assert (W : (c * c - q * q) * (c * c - q * q) + (2 * q * c) * (2 * q * c) = 1).
  { transitivity ((q * q + c * c) * (q * q + c * c)); [ring|rewrite E1; ring]. }
  set (C := c * c - q * q) in *. set (S := 2 * q * c) in *.
  replace ((k0 + k1 + k2) * c * c - (k0 - k1 + k2) * q * q) with ((k0 + k2) * C + k1 * (q * q + c * c)) by (unfold C; ring).
  replace (2 * (k0 - k2) * c * q) with ((k0 - k2) * S) by (unfold S; ring).
  rewrite E1. replace (q * q + c * c) with 1 in * by lra. clearbody C S.
  assert (SS : S * S = 1 - C * C) by lra.
  transitivity (k0 * k0 + k1 * k1 * (C * C + S * S) + k2 * k2 * ((C * C + S * S) * (C * C + S * S)) + 2 * k0 * k1 * C
     + 2 * k0 * k2 * (C * C - S * S) + 2 * k1 * k2 * C * (C * C + S * S)); [ring|].
  transitivity ((k0 + k2) * (k0 + k2) * (C * C) + k1 * k1 + 2 * k1 * (k0 + k2) * C + (k0 - k2) * (k0 - k2) * (S * S)); [|ring].
  rewrite SS. ring.
Qed.

Lemma section_power (b : coeff_b R) (a : coeff_a R) f : strictly_stable (a1 a) (a2 a) ->
  let c := cos (PI * f) in let q := sin (PI * f) in
  0 < hom (1 + a1 a + a2 a) (2 * (1 - a2 a)) (1 - a1 a + a2 a) c q /\
  exists h, response (biquad_ba R_scalar b a) f = Ok h /\
    Cmod h * Cmod h = hom (b0 b + b1 b + b2 b) (2 * (b0 b - b2 b)) (b0 b - b1 b + b2 b) c q
                      / hom (1 + a1 a + a2 a) (2 * (1 - a2 a)) (1 - a1 a + a2 a) c q.
Proof.
  intros St c q. unfold response. cbn [bq_a bq_b biquad_ba].
  pose proof (stable_den a (2 * PI * f) St) as Dn.
  fold (den a (2 * PI * f)). fold (num b (2 * PI * f)).
  pose proof (trig_power 1 (a1 a) (a2 a) f) as PD. cbn zeta in PD. fold (den a (2 * PI * f)) in PD.
  pose proof (trig_power (b0 b) (b1 b) (b2 b) f) as PN. cbn zeta in PN. fold (num b (2 * PI * f)) in PN.
  fold c q in PD, PN. rewrite <- PD, <- PN.
  destruct (Ceq_dec (den a (2 * PI * f)) (RtoC 0)) as [X|_]; [contradiction|].
  assert (D0 : Cmod (den a (2 * PI * f)) <> 0). { intros X. apply Cmod_eq_0 in X. contradiction. }
  rewrite <- !Cmod_sq. split.
  - pose proof (Cmod_ge_0 (den a (2 * PI * f))). apply Rmult_lt_0_compat; lra.
  - eexists. split; [reflexivity|]. rewrite Cmod_div by assumption. field. assumption.
Qed.

(** ** Products over the sections *)

Definition quartic (y c S : R) : R :=
  (y * y - S * S - c * c) * (y * y - S * S - c * c) + 4 * (S * S) * (1 - c * c) * (y * y).

Lemma theta_mirror N k : (k < N)%nat -> theta N (N - 1 - k) = PI - theta N k.
Proof.
  intros H. unfold theta. rewrite !minus_INR by lia. cbn [INR]. assert (0 < INR N) by (apply lt_0_INR; lia). field. lra.
Qed.

Lemma cosh_sinh a : cosh a * cosh a = 1 + sinh a * sinh a.
Proof.
  unfold cosh, sinh. assert (E : exp a * exp (- a) = 1) by (rewrite <- exp_plus, Rplus_opp_r; apply exp_0).
  transitivity ((exp a * exp a + exp (- a) * exp (- a) + 2 * (exp a * exp (- a))) / 4); [field|]. rewrite E.
  transitivity (1 + (exp a * exp a + exp (- a) * exp (- a) - 2 * (exp a * exp (- a))) / 4); [rewrite E; field|field].
Qed.

Lemma ellipse_pair y a t : ellipse y a t * ellipse y a (PI - t) = quartic y (cos t) (sinh a).
Proof.
  unfold ellipse, quartic. rewrite Rtrigo_facts.cos_pi_minus, Rtrigo_facts.sin_pi_minus.
  pose proof (sin2_cos2 t) as E1. unfold Rsqr in E1. pose proof (cosh_sinh a) as E2.
  set (c := cos t) in *. set (s := sin t) in *. set (S := sinh a) in *. set (K := cosh a) in *. clearbody c s S K.
  assert (SS : s * s = 1 - c * c) by lra.
  transitivity ((y * y + c * c * (K * K) + s * s * (S * S)) * (y * y + c * c * (K * K) + s * s * (S * S)) - 4 * (y * y) * (c * c) * (K * K)); [ring|].
  rewrite E2, SS. ring.
Qed.

Lemma ellipse_middle N K a y : N = (2 * K + 1)%nat -> ellipse y a (theta N K) = y * y + sinh a * sinh a.
Proof.
  intros ->. unfold theta. assert (0 < INR (2 * K + 1)) by (apply lt_0_INR; lia).
  replace ((2 * INR K + 1) * PI / (2 * INR (2 * K + 1))) with (PI / 2).
  - unfold ellipse. rewrite cos_PI2, sin_PI2. ring.
  - rewrite plus_INR, mult_INR in *. cbn [INR] in *. field. lra.
Qed.

Lemma prodn_pairs f K r : (r = 0 \/ r = 1)%nat ->
  prodn f (2 * K + r) = prodn (fun k => f k * f (2 * K + r - 1 - k)%nat) K * (if Nat.eqb r 1 then f K else 1).
Proof.
  intros Hr. rewrite prodn_mult. replace (2 * K + r)%nat with (K + (r + K))%nat at 1 by lia. rewrite prodn_plus, prodn_plus.
  rewrite Rmult_assoc. f_equal. rewrite Rmult_comm. f_equal.
  - rewrite prodn_rev. apply prodn_ext. intros k Hk. f_equal. lia.
  - destruct Hr as [-> | ->]; cbn; [reflexivity|]. rewrite Nat.add_0_r. ring.
Qed.

Definition middle (r : nat) (x : R) : R := if Nat.eqb r 1 then x else 1.

Lemma chebyshev_pairs K r y a : (r = 0 \/ r = 1)%nat -> (0 < 2 * K + r)%nat ->
  let N := (2 * K + r)%nat in
  4 ^ N * (prodn (fun k => quartic y (cos (theta N k)) (sinh a)) K * middle r (y * y + sinh a * sinh a))
  = 4 * (cheb N y * cheb N y + sinh (INR N * a) * sinh (INR N * a)).
Proof.
  intros Hr HN N. rewrite <- (ellipse_product N y a HN), prodn_mult, prodn_const. f_equal.
  unfold N. rewrite prodn_pairs by assumption. f_equal.
  - apply prodn_ext. intros k Hk. rewrite <- ellipse_pair. f_equal. f_equal. symmetry. apply theta_mirror. lia.
  - unfold middle. destruct Hr as [-> | ->]; cbn [Nat.eqb]; [reflexivity|]. symmetry. now apply ellipse_middle.
Qed.

(** ** The sections *)

Lemma hom_swap n0 n1 n2 c q : hom n0 n1 n2 c q = hom n2 n1 n0 q c.
Proof. unfold hom. ring. Qed.

Lemma hom_scale k n0 n1 n2 c q : hom (k * n0) (k * n1) (k * n2) c q = k * k * hom n0 n1 n2 c q.
Proof. unfold hom. ring. Qed.

(** The roles of cosine and sine are exchanged in a high pass. *)
Definition sgn (kind : filter_response) : R := if is_low_pass kind then 1 else -1.
Definition xc (kind : filter_response) (f : R) : R := if is_low_pass kind then cos (PI * f) else sin (PI * f).
Definition xs (kind : filter_response) (f : R) : R := if is_low_pass kind then sin (PI * f) else cos (PI * f).

Lemma xc_xs kind f : xs kind f * xs kind f + xc kind f * xc kind f = 1.
Proof. pose proof (sin2_cos2 (PI * f)) as E. unfold Rsqr in E. unfold xs, xc. destruct (is_low_pass kind); lra. Qed.

(** The frequency of unit gain. *)
Definition ref (kind : filter_response) : R := if is_low_pass kind then 0 else 1 / 2.

Definition good (kind : filter_response) (p : coeff_b R * coeff_a R) : Prop :=
  strictly_stable (a1 (snd p)) (a2 (snd p)) /\ response (biquad_ba R_scalar (fst p) (snd p)) (ref kind) = Ok (RtoC 1).

Lemma response_ref kind (b : coeff_b R) (a : coeff_a R) : strictly_stable (a1 a) (a2 a) ->
  b0 b + sgn kind * b1 b + b2 b = 1 + sgn kind * a1 a + a2 a -> 0 < 1 + sgn kind * a1 a + a2 a ->
  response (biquad_ba R_scalar b a) (ref kind) = Ok (RtoC 1).
Proof.
  intros St E P. unfold response. cbn [bq_a bq_b biquad_ba].
  pose proof (stable_den a (2 * PI * ref kind) St) as Dn. unfold den in Dn.
  assert (Z1 : polar 1 (- (2 * PI * ref kind)) = RtoC (sgn kind)).
  { unfold ref, sgn. destruct (is_low_pass kind).
    - rewrite Rmult_0_r, Ropp_0. unfold polar, RtoC. rewrite cos_0, sin_0. f_equal; ring.
    - replace (- (2 * PI * (1 / 2))) with (- PI) by field. unfold polar, RtoC. rewrite cos_neg, sin_neg, cos_PI, sin_PI. f_equal; ring. }
  assert (Z2 : polar 1 (- 2 * (2 * PI * ref kind)) = RtoC 1).
  { unfold ref. destruct (is_low_pass kind).
    - rewrite !Rmult_0_r. unfold polar, RtoC. rewrite cos_0, sin_0. f_equal; ring.
    - replace (-2 * (2 * PI * (1 / 2))) with (- (2 * PI)) by field. unfold polar, RtoC. rewrite cos_neg, sin_neg, cos_2PI, sin_2PI. f_equal; ring. }
  rewrite Z1, Z2 in *.
  match goal with |- (if Ceq_dec ?x ?y then _ else _) = _ => destruct (Ceq_dec x y) as [X|X]; [contradiction|] end.
  f_equal. repeat rewrite <- ?RtoC_mult, <- ?RtoC_plus.
  replace (b0 b + b1 b * sgn kind + b2 b * 1) with (1 + sgn kind * a1 a + a2 a) by lra.
  replace (1 + a1 a * sgn kind + a2 a * 1) with (1 + sgn kind * a1 a + a2 a) by ring.
  rewrite <- RtoC_div by lra. f_equal. field. lra.
Qed.

(** A section given by its analogue coefficients. *)
Lemma analogue_section kind (b : coeff_b R) (a : coeff_a R) (k n0 n1 n2 d0 d1 d2 : R) :
  0 < k -> 0 < d0 -> 0 < d1 -> 0 < d2 ->
  b0 b + sgn kind * b1 b + b2 b = k * n0 -> 2 * (b0 b - b2 b) = k * n1 -> b0 b - sgn kind * b1 b + b2 b = k * n2 ->
  1 + sgn kind * a1 a + a2 a = k * d0 -> 2 * (1 - a2 a) = k * d1 -> 1 - sgn kind * a1 a + a2 a = k * d2 ->
  (strictly_stable (a1 a) (a2 a) /\ (n0 = d0 -> good kind (b, a))) /\
  forall f, 0 < hom d0 d1 d2 (xc kind f) (xs kind f) /\
    exists h, response (biquad_ba R_scalar b a) f = Ok h /\
      Cmod h * Cmod h = hom n0 n1 n2 (xc kind f) (xs kind f) / hom d0 d1 d2 (xc kind f) (xs kind f).
Proof.
  intros Hk H0 H1 H2 N0 N1 N2 D0 D1 D2.
  assert (P0 : 0 < k * d0) by (apply Rmult_lt_0_compat; lra).
  assert (P1 : 0 < k * d1) by (apply Rmult_lt_0_compat; lra).
  assert (P2 : 0 < k * d2) by (apply Rmult_lt_0_compat; lra).
  assert (St : strictly_stable (a1 a) (a2 a)).
  { apply strict_triangle. unfold sgn in *. destruct (is_low_pass kind); split; apply Rabs_def1; lra. }
  split. { split; [assumption|]. intros ->. split; [assumption|]. apply response_ref; cbn [fst snd]; [assumption|lra|lra]. }
  intros f.
  destruct (section_power b a f St) as (Dp & h & E & M). cbn zeta in *.
  assert (HD : hom (1 + a1 a + a2 a) (2 * (1 - a2 a)) (1 - a1 a + a2 a) (cos (PI * f)) (sin (PI * f))
               = k * k * hom d0 d1 d2 (xc kind f) (xs kind f)).
  { rewrite <- hom_scale, <- D0, <- D1, <- D2. unfold sgn, xc, xs. destruct (is_low_pass kind).
    - unfold hom. ring.
    - rewrite hom_swap. unfold hom. ring. }
  assert (HN : hom (b0 b + b1 b + b2 b) (2 * (b0 b - b2 b)) (b0 b - b1 b + b2 b) (cos (PI * f)) (sin (PI * f))
               = k * k * hom n0 n1 n2 (xc kind f) (xs kind f)).
  { rewrite <- hom_scale, <- N0, <- N1, <- N2. unfold sgn, xc, xs. destruct (is_low_pass kind).
    - unfold hom. ring.
    - rewrite hom_swap. unfold hom. ring. }
  rewrite HD in Dp, M. rewrite HN in M.
  assert (KK : 0 < k * k) by nra.
  assert (PD : 0 < hom d0 d1 d2 (xc kind f) (xs kind f)).
  { apply (Rmult_lt_reg_l (k * k)); [assumption|]. lra. }
  split; [assumption|]. exists h. split; [assumption|]. rewrite M. field. lra.
Qed.

(** The first-order section. *)
Lemma first_order_ok kind W0 : 0 < W0 ->
  exists b a, first_order_section (sgn kind) W0 = Ok (b, a) /\ good kind (b, a) /\
  forall f, 0 < xc kind f * xc kind f + W0 * W0 * (xs kind f * xs kind f) /\
    exists h, response (biquad_ba R_scalar b a) f = Ok h /\
      Cmod h * Cmod h = xc kind f * xc kind f / (xc kind f * xc kind f + W0 * W0 * (xs kind f * xs kind f)).
Proof.
  intros H. unfold first_order_section. rewrite rdiv_ok by lra. cbn [bind].
  eexists. eexists. split; [reflexivity|].
  assert (SS : sgn kind * sgn kind = 1) by (unfold sgn; destruct (is_low_pass kind); ring).
  set (G := 1 / (1 + W0)). assert (HG : G * (1 + W0) = 1) by (unfold G; field; lra).
  assert (G0 : 0 < G) by (unfold G; apply Rdiv_lt_0_compat; lra).
  assert (E1 : forall x, sgn kind * (sgn kind * x) = x).
  { intros x. transitivity (sgn kind * sgn kind * x); [ring|rewrite SS; ring]. }
  destruct (analogue_section kind {| b0 := G; b1 := sgn kind * G; b2 := 0 |} {| a1 := sgn kind * (2 * G - 1); a2 := 0 |}
     (2 * G) 1 1 0 1 (1 + W0) W0) as ([_ St] & P); cbn [b0 b1 b2 a1 a2]; rewrite ?E1; try lra.
  - split; [exact (St eq_refl)|]. intros f. destruct (P f) as (Dp & h & Eh & M).
    set (c := xc kind f) in *. set (q := xs kind f) in *. pose proof (xc_xs kind f) as Pyth. fold c q in Pyth.
    assert (F1 : hom 1 (1 + W0) W0 c q = (c * c + W0 * W0 * (q * q)) * (q * q + c * c)) by (unfold hom; ring).
    assert (F2 : hom 1 1 0 c q = c * c * (q * q + c * c)) by (unfold hom; ring).
    rewrite Pyth, Rmult_1_r in F1, F2. rewrite F1 in Dp, M. rewrite F2 in M.
    split; [assumption|]. exists h. now split.
Qed.

Lemma int_range_ok z : (- 2 ^ 31 <= z < 2 ^ 31)%Z -> int_range z = Ok z.
Proof.
  intros H. unfold int_range. replace (Z.leb (- 2 ^ 31) z) with true by (symmetry; apply Z.leb_le; lia).
  replace (Z.ltb z (2 ^ 31)) with true by (symmetry; apply Z.ltb_lt; lia). reflexivity.
Qed.

(** The angle of section k + 1. *)
Lemma angle_ok N k : (2 * k + 1 < N)%nat -> (Z.of_nat N < 2 ^ 30)%Z ->
  section_angle (Z.of_nat N) (Z.of_nat k + 1) = Ok (PI / 2 + theta N k).
Proof.
  intros Hk HN. unfold section_angle. rewrite !int_range_ok by lia. cbn [bind]. rewrite int_range_ok by lia. cbn [bind].
  assert (P : 0 < INR N) by (apply lt_0_INR; lia).
  rewrite rdiv_ok.
  - f_equal. unfold theta. rewrite !plus_IZR, !minus_IZR, !mult_IZR, <- !INR_IZR_INZ.
    replace (IZR (Z.of_nat k + 1)) with (INR k + 1) by (rewrite plus_IZR, <- INR_IZR_INZ; ring). field. lra.
  - rewrite mult_IZR, <- INR_IZR_INZ. lra.
Qed.

Lemma theta_left N k : (2 * k + 1 < N)%nat -> 0 < theta N k < PI / 2.
Proof.
  intros H. unfold theta. pose proof PI_RGT_0. assert (P : 0 < INR N) by (apply lt_0_INR; lia).
  pose proof (pos_INR k). assert (L : 2 * INR k + 1 < INR N).
  { apply lt_INR in H. rewrite plus_INR, mult_INR in H. cbn [INR] in H. lra. }
  split.
  - apply Rdiv_lt_0_compat; nra.
  - apply (Rmult_lt_reg_r (2 * INR N)); [lra|]. unfold Rdiv at 1. rewrite Rmult_assoc, Rinv_l by lra. nra.
Qed.

(** The homogeneous form of [quartic]. *)
Definition hq (S c x y : R) : R :=
  (y * y - (S * S + c * c) * (x * x)) * (y * y - (S * S + c * c) * (x * x)) + 4 * (S * S) * (1 - c * c) * (y * y) * (x * x).

Section pair.
  Variables (kind : filter_response) (w S : R) (N k : nat).
  Hypotheses (Hw : 0 < w) (HS : 0 < S) (Hk : (2 * k + 1 < N)%nat) (HN : (Z.of_nat N < 2 ^ 30)%Z).
  Let t := theta N k.

  Lemma ct : 0 < cos t.
  Proof. pose proof (theta_left N k Hk). fold t in H. apply cos_gt_0; lra. Qed.

  Lemma st : 0 < sin t.
  Proof. pose proof (theta_left N k Hk). pose proof PI_RGT_0. fold t in H. apply sin_gt_0; lra. Qed.

  Lemma sin_th : sin (PI / 2 + t) = cos t. Proof. now rewrite sin_plus, sin_PI2, cos_PI2, Rmult_1_l, Rmult_0_l, Rplus_0_r. Qed.
  Lemma cos_th : cos (PI / 2 + t) = - sin t. Proof. rewrite cos_plus, sin_PI2, cos_PI2. ring. Qed.

  Lemma sgn_sgn x : sgn kind * (sgn kind * x) = x.
  Proof. unfold sgn. destruct (is_low_pass kind); ring. Qed.

  (** Type 2, with W0 = S / w. *)
  Lemma cheb2_section_ok :
    exists b a, cheb2_section (sgn kind) w (S / w) (Z.of_nat N) (Z.of_nat k + 1) = Ok (b, a) /\
      good kind (b, a) /\
      forall f, 0 < hq S (cos t) (xs kind f) (w * xc kind f) /\
        exists h, response (biquad_ba R_scalar b a) f = Ok h /\
        Cmod h * Cmod h = hq 0 (cos t) (xs kind f) (w * xc kind f) / hq S (cos t) (xs kind f) (w * xc kind f).
  Proof.
    unfold cheb2_section. rewrite angle_ok by assumption. cbn [bind]. fold t. rewrite sin_th, cos_th.
    rewrite rdiv_ok by lra. cbn [bind]. pose proof ct as C0. pose proof st as S0.
    set (Wi := cos t / w). set (W0 := S / w). set (D := 1 - 2 * W0 * - sin t + W0 * W0 + Wi * Wi).
    assert (PW0 : 0 < W0) by (unfold W0; apply Rdiv_lt_0_compat; assumption).
    assert (PWi : 0 < Wi) by (unfold Wi; apply Rdiv_lt_0_compat; assumption).
    assert (PD : 0 < D). { unfold D. assert (0 < W0 * sin t) by nra. nra. }
    rewrite (rdiv_ok (1 + Wi * Wi) D) by lra. cbn [bind].
    rewrite (rdiv_ok _ (1 + Wi * Wi)) by nra. cbn [bind].
    rewrite !rdiv_ok by lra. cbn [bind]. eexists. eexists. split; [reflexivity|].
    destruct (analogue_section kind
      {| b0 := (1 + Wi * Wi) / D; b1 := (1 + Wi * Wi) / D * sgn kind * (2 * (1 - Wi * Wi) / (1 + Wi * Wi)); b2 := (1 + Wi * Wi) / D |}
      {| a1 := sgn kind * (2 * (1 - W0 * W0 - Wi * Wi) / D); a2 := (1 + 2 * W0 * - sin t + W0 * W0 + Wi * Wi) / D |}
      (4 / D) 1 0 (Wi * Wi) 1 (2 * W0 * sin t) (W0 * W0 + Wi * Wi)) as ([_ St] & P); cbn [b0 b1 b2 a1 a2];
      try lra; try nra.
    - apply Rdiv_lt_0_compat; lra.
    - transitivity ((1 + Wi * Wi) / D + sgn kind * (sgn kind * ((1 + Wi * Wi) / D * (2 * (1 - Wi * Wi) / (1 + Wi * Wi)))) + (1 + Wi * Wi) / D); [ring|].
      rewrite sgn_sgn. field. split; [lra|nra].
    - transitivity ((1 + Wi * Wi) / D - sgn kind * (sgn kind * ((1 + Wi * Wi) / D * (2 * (1 - Wi * Wi) / (1 + Wi * Wi)))) + (1 + Wi * Wi) / D); [ring|].
      rewrite sgn_sgn. field. split; [lra|nra].
    - rewrite sgn_sgn. apply (Rmult_eq_reg_r D); [|lra]. transitivity (D + 2 * (1 - W0 * W0 - Wi * Wi) + (1 + 2 * W0 * - sin t + W0 * W0 + Wi * Wi)); [field; lra|].
      transitivity 4; [unfold D; ring|field; lra].
    - apply (Rmult_eq_reg_r D); [|lra]. transitivity (2 * (D - (1 + 2 * W0 * - sin t + W0 * W0 + Wi * Wi))); [field; lra|].
      transitivity (4 * (2 * W0 * sin t)); [unfold D; ring|field; lra].
    - rewrite sgn_sgn. apply (Rmult_eq_reg_r D); [|lra]. transitivity (D - 2 * (1 - W0 * W0 - Wi * Wi) + (1 + 2 * W0 * - sin t + W0 * W0 + Wi * Wi)); [field; lra|].
      transitivity (4 * (W0 * W0 + Wi * Wi)); [unfold D; ring|field; lra].
    - split; [exact (St eq_refl)|]. intros f. destruct (P f) as (Dp & h & E & M).
      set (c := xc kind f) in *. set (q := xs kind f) in *.
      pose proof (sin2_cos2 t) as Py. unfold Rsqr in Py.
      assert (N1 : hq 0 (cos t) q (w * c) = w * w * (w * w) * hom 1 0 (Wi * Wi) c q).
      { unfold hq, hom, Wi. field. lra. }
      assert (D1 : hq S (cos t) q (w * c) = w * w * (w * w) * hom 1 (2 * W0 * sin t) (W0 * W0 + Wi * Wi) c q).
      { unfold hq, hom, W0, Wi. replace (1 - cos t * cos t) with (sin t * sin t) by lra. field. lra. }
      assert (W4 : 0 < w * w * (w * w)) by (apply Rmult_lt_0_compat; nra).
      rewrite N1, D1. split; [apply Rmult_lt_0_compat; assumption|]. exists h. split; [assumption|]. rewrite M. field. split; lra.
  Qed.

  (** Type 1, with W0 = S w. *)
  Lemma cheb1_section_ok :
    exists b a, cheb1_section (sgn kind) w (S * w) (Z.of_nat N) (Z.of_nat k + 1) = Ok (b, a) /\
      good kind (b, a) /\
      forall f, 0 < hq S (cos t) (w * xc kind f) (xs kind f) /\
        exists h, response (biquad_ba R_scalar b a) f = Ok h /\
        Cmod h * Cmod h = hq S (cos t) (w * xc kind f) 0 / hq S (cos t) (w * xc kind f) (xs kind f).
  Proof.
    unfold cheb1_section. rewrite angle_ok by assumption. cbn [bind]. fold t. rewrite sin_th, cos_th.
    pose proof ct as C0. pose proof st as S0.
    set (Wi := w * cos t). set (W0 := S * w). set (D := 1 - 2 * W0 * - sin t + W0 * W0 + Wi * Wi).
    assert (PW0 : 0 < W0) by (unfold W0; nra).
    assert (PWi : 0 < Wi) by (unfold Wi; nra).
    assert (PD : 0 < D). { unfold D. assert (0 < W0 * sin t) by nra. nra. }
    rewrite !rdiv_ok by lra. cbn [bind]. eexists. eexists. split; [reflexivity|].
    destruct (analogue_section kind
      {| b0 := (W0 * W0 + Wi * Wi) / D; b1 := (W0 * W0 + Wi * Wi) / D * sgn kind * 2; b2 := (W0 * W0 + Wi * Wi) / D |}
      {| a1 := sgn kind * (2 * (W0 * W0 + Wi * Wi - 1) / D); a2 := (1 + 2 * W0 * - sin t + W0 * W0 + Wi * Wi) / D |}
      (4 / D) (W0 * W0 + Wi * Wi) 0 0 (W0 * W0 + Wi * Wi) (2 * W0 * sin t) 1) as ([_ St] & P); cbn [b0 b1 b2 a1 a2];
      try lra; try nra.
    - apply Rdiv_lt_0_compat; lra.
    - transitivity ((W0 * W0 + Wi * Wi) / D + sgn kind * (sgn kind * ((W0 * W0 + Wi * Wi) / D * 2)) + (W0 * W0 + Wi * Wi) / D); [ring|].
      rewrite sgn_sgn. field. lra.
    - transitivity ((W0 * W0 + Wi * Wi) / D - sgn kind * (sgn kind * ((W0 * W0 + Wi * Wi) / D * 2)) + (W0 * W0 + Wi * Wi) / D); [ring|].
      rewrite sgn_sgn. field. lra.
    - rewrite sgn_sgn. apply (Rmult_eq_reg_r D); [|lra]. transitivity (D + 2 * (W0 * W0 + Wi * Wi - 1) + (1 + 2 * W0 * - sin t + W0 * W0 + Wi * Wi)); [field; lra|].
      transitivity (4 * (W0 * W0 + Wi * Wi)); [unfold D; ring|field; lra].
    - apply (Rmult_eq_reg_r D); [|lra]. transitivity (2 * (D - (1 + 2 * W0 * - sin t + W0 * W0 + Wi * Wi))); [field; lra|].
      transitivity (4 * (2 * W0 * sin t)); [unfold D; ring|field; lra].
    - rewrite sgn_sgn. apply (Rmult_eq_reg_r D); [|lra]. transitivity (D - 2 * (W0 * W0 + Wi * Wi - 1) + (1 + 2 * W0 * - sin t + W0 * W0 + Wi * Wi)); [field; lra|].
      transitivity 4; [unfold D; ring|field; lra].
    - split; [exact (St eq_refl)|]. intros f. destruct (P f) as (Dp & h & E & M).
      set (c := xc kind f) in *. set (q := xs kind f) in *.
      pose proof (sin2_cos2 t) as Py. unfold Rsqr in Py.
      assert (N1 : hq S (cos t) (w * c) 0 = hom (W0 * W0 + Wi * Wi) 0 0 c q).
      { unfold hq, hom, Wi, W0. ring. }
      assert (D1 : hq S (cos t) (w * c) q = hom (W0 * W0 + Wi * Wi) (2 * W0 * sin t) 1 c q).
      { unfold hq, hom, W0, Wi. replace (1 - cos t * cos t) with (sin t * sin t) by lra. ring. }
      rewrite N1, D1. split; [assumption|]. exists h. now split.
  Qed.
End pair.

(** ** Loops *)

Lemma section_loop_ok (section : Z -> outcome (coeff_b R * coeff_a R)) (P : nat -> coeff_b R * coeff_a R -> Prop) K :
  forall j, (forall k, (k < K)%nat -> exists p, section (Z.of_nat (j + k) + 1)%Z = Ok p /\ P (j + k)%nat p) ->
  exists l, section_loop section (Z.of_nat j + 1) K = Ok l /\ length l = K /\
    forall k, (k < K)%nat -> exists p, nth_error l k = Some p /\ P (j + k)%nat p.
Proof.
  induction K as [|K IH]; intros j H.
  - exists []. split; [reflexivity|]. split; [reflexivity|]. intros; lia.
  - destruct (H O) as (p & E & Hp); [lia|]. rewrite Nat.add_0_r in E, Hp.
    destruct (IH (S j)) as (l & El & Ll & Hl).
    { intros k Hk. destruct (H (S k)) as (p' & E' & H'); [lia|]. exists p'.
      replace (S j + k)%nat with (j + S k)%nat by lia. split; assumption. }
    exists (p :: l). split; [|split].
    + cbn [section_loop]. rewrite E. cbn [bind]. replace (Z.of_nat j + 1 + 1)%Z with (Z.of_nat (S j) + 1)%Z by lia.
      rewrite El. reflexivity.
    + cbn. now rewrite Ll.
    + intros [|k] Hk; cbn [nth_error].
      * exists p. rewrite Nat.add_0_r. now split.
      * replace (j + S k)%nat with (S j + k)%nat by lia. apply Hl. lia.
Qed.

Lemma responses_product (l : list (coeff_b R * coeff_a R)) f : forall (g : nat -> R),
  (forall k, (k < length l)%nat -> exists p, nth_error l k = Some p /\
     exists h, response (biquad_ba R_scalar (fst p) (snd p)) f = Ok h /\ Cmod h * Cmod h = g k) ->
  exists hs, Forall2 (fun p h => response (biquad_ba R_scalar (fst p) (snd p)) f = Ok h) l hs /\
    Cmod (fold_right Cmult (RtoC 1) hs) * Cmod (fold_right Cmult (RtoC 1) hs) = prodn g (length l).
Proof.
  induction l as [|p l IH]; intros g H.
  - exists []. split; [constructor|]. cbn. rewrite Cmod_1. ring.
  - destruct (H O) as (p' & E & h & Eh & Mh); [cbn; lia|]. injection E as <-.
    destruct (IH (fun k => g (S k))) as (hs & F & M).
    { intros k Hk. apply (H (S k)). cbn. lia. }
    exists (h :: hs). split; [constructor; assumption|].
    cbn [fold_right length]. rewrite prodn_S_l, <- M, <- Mh, Cmod_mult. ring.
Qed.

Lemma div2 N : exists K r, N = (2 * K + r)%nat /\ (r = 0 \/ r = 1)%nat.
Proof. exists (N / 2)%nat, (N mod 2)%nat. pose proof (Nat.div_mod N 2). pose proof (Nat.mod_upper_bound N 2). lia. Qed.

Lemma all_sections_ok (kind : filter_response) (W0 : R) (section : Z -> outcome (coeff_b R * coeff_a R)) (g : nat -> R -> R) K r :
  0 < W0 -> (r = 0 \/ r = 1)%nat ->
  (forall k, (k < K)%nat -> exists p, section (Z.of_nat k + 1)%Z = Ok p /\ good kind p /\
     forall f, exists h, response (biquad_ba R_scalar (fst p) (snd p)) f = Ok h /\ Cmod h * Cmod h = g k f) ->
  exists l, all_sections (sgn kind) W0 (Z.of_nat (2 * K + r)) section = Ok l /\ length l = (K + r)%nat /\
    Forall (fun p => good kind p) l /\
    forall f, exists hs, Forall2 (fun p h => response (biquad_ba R_scalar (fst p) (snd p)) f = Ok h) l hs /\
      Cmod (fold_right Cmult (RtoC 1) hs) * Cmod (fold_right Cmult (RtoC 1) hs) =
      middle r (xc kind f * xc kind f / (xc kind f * xc kind f + W0 * W0 * (xs kind f * xs kind f))) * prodn (fun k => g k f) K.
Proof.
  intros HW Hr HS.
  destruct (section_loop_ok section (fun k p => good kind p /\
     forall f, exists h, response (biquad_ba R_scalar (fst p) (snd p)) f = Ok h /\ Cmod h * Cmod h = g k f) K 0)
    as (l & El & Ll & Hl).
  { intros k Hk. cbn [Nat.add]. now apply HS. }
  assert (St : Forall (fun p => good kind p) l).
  { apply Forall_forall. intros p Hp. destruct (In_nth_error _ _ Hp) as (k & Ek).
    destruct (Hl k) as (p' & Ep & S & _). { rewrite <- Ll. apply nth_error_Some. congruence. }
    cbn [Nat.add] in Ep. assert (p = p') by congruence; subst p'; exact S. }
  assert (Rs : forall f, exists hs, Forall2 (fun p h => response (biquad_ba R_scalar (fst p) (snd p)) f = Ok h) l hs /\
      Cmod (fold_right Cmult (RtoC 1) hs) * Cmod (fold_right Cmult (RtoC 1) hs) = prodn (fun k => g k f) K).
  { intros f. rewrite <- Ll. apply (responses_product l f (fun k => g k f)). rewrite Ll. intros k Hk.
    destruct (Hl k Hk) as (p & Ep & _ & G). exists p. split; [exact Ep|apply G]. }
  unfold all_sections.
  assert (Rem : Z.rem (Z.of_nat (2 * K + r)) 2 = Z.of_nat r).
  { rewrite Z.rem_mod_nonneg by lia. rewrite Nat2Z.inj_add, Nat2Z.inj_mul, Z.add_comm, Z.mul_comm. rewrite Z.mod_add by lia.
    destruct Hr as [-> | ->]; reflexivity. }
  rewrite Rem.
  assert (Quo : Z.quot (Z.of_nat (2 * K + r) - Z.of_nat r) 2 = Z.of_nat K).
  { replace (Z.of_nat (2 * K + r) - Z.of_nat r)%Z with (Z.of_nat K * 2)%Z by lia. apply Z.quot_mul. lia. }
  rewrite Quo, Nat2Z.id. cbn [Z.of_nat] in El. change (0 + 1)%Z with 1%Z in El.
  destruct Hr as [-> | ->]; cbn [Z.of_nat Z.eqb Pos.eqb Pos.of_succ_nat bind]; cbn zeta.
  - rewrite El. cbn [bind]. exists l. split; [reflexivity|]. split; [lia|]. split; [assumption|].
    intros f. destruct (Rs f) as (hs & F & M). exists hs. split; [assumption|]. unfold middle. cbn [Nat.eqb]. now rewrite Rmult_1_l.
  - destruct (first_order_ok kind W0 HW) as (b & a & Eb & Sb & Pb). rewrite Eb. cbn [bind]. rewrite El. cbn [bind].
    exists ((b, a) :: l). split; [reflexivity|]. split; [cbn; lia|]. split; [constructor; assumption|].
    intros f. destruct (Rs f) as (hs & F & M). destruct (Pb f) as (_ & h & Eh & Mh).
    exists (h :: hs). split; [constructor; assumption|]. unfold middle. cbn [Nat.eqb fold_right].
    rewrite <- M, <- Mh, Cmod_mult. ring.
Qed.

(** ** Building the cascade *)

Definition sections (c : digital_coeff) : list (biquad R) :=
  map (fun p => biquad_ba R_scalar (fst p) (snd p)) (combine (dc_b c) (dc_a c)).

Lemma sections_of l i : sections {| dc_b := map fst l; dc_a := map snd l; dc_info := i |}
  = map (fun p => biquad_ba R_scalar (fst p) (snd p)) l.
Proof.
  unfold sections. cbn [dc_b dc_a]. f_equal. induction l as [|[b a] l IH]; [reflexivity|]. cbn. now rewrite IH.
Qed.

Lemma append_loop_calls asserts N c : length (dc_b c) = length (dc_a c) ->
  forall n i bqc, (i + n = length (dc_b c))%nat ->
  append_loop asserts N c i n bqc
  = cs_calls R_scalar asserts N bqc (map OpAppend (skipn i (sections c))).
Proof.
  intros L. induction n as [|n IH]; intros i bqc E.
  - rewrite skipn_all2. { reflexivity. } unfold sections. rewrite map_length, combine_length. lia.
  - cbn [append_loop].
    destruct (nth_error (dc_b c) i) as [b|] eqn:Eb; [|apply nth_error_None in Eb; lia].
    destruct (nth_error (dc_a c) i) as [a|] eqn:Ea; [|apply nth_error_None in Ea; lia].
    assert (Es : skipn i (sections c) = biquad_ba R_scalar b a :: skipn (S i) (sections c)).
    { unfold sections. revert L Eb Ea. clear. generalize (dc_b c), (dc_a c). revert i.
      induction i as [|i IH]; intros [|x lb] [|y la] L Eb Ea; cbn in *; try discriminate.
      - congruence.
      - apply IH; [lia|assumption|assumption]. }
    rewrite Es. cbn [map cs_calls cs_call]. destruct (cs_append asserts N bqc (biquad_ba R_scalar b a)) as [bqc'|e]; cbn [bind]; [|reflexivity].
    apply IH. lia.
Qed.

Lemma appends_list (l : list (biquad R)) N : forall l0, (length l0 + length l <= N)%nat ->
  list_ops R_scalar N l0 (map OpAppend l) = Some (l0 ++ l).
Proof.
  induction l as [|b l IH]; intros l0 H; cbn [map list_ops]; [now rewrite app_nil_r|].
  cbn in H. unfold list_op. replace (length l0 <? N)%nat with true by (symmetry; apply Nat.ltb_lt; lia).
  rewrite IH by (rewrite app_length; cbn; lia). now rewrite <- app_assoc.
Qed.

Lemma appends_too_many (l : list (biquad R)) N : forall l0, (length l0 <= N)%nat -> (N < length l0 + length l)%nat ->
  list_ops R_scalar N l0 (map OpAppend l) = None.
Proof.
  induction l as [|b l IH]; intros l0 H0 H; cbn [map list_ops]; cbn in H; [lia|].
  unfold list_op. destruct (Nat.ltb_spec (length l0) N); [|reflexivity].
  apply IH; rewrite app_length; cbn; lia.
Qed.
