(** * Properties of Chebyshev designs (C62-C64, C96-C98) *)

From Coq Require Import Reals List ZArith Lra Lia Psatz.
From Coquelicot Require Import Complex.
From Verif Require Import Base Scalars Biquad BiquadSpec BiquadProofs BiquadStability OnePole Design DesignSpec
  DesignProofs Cascade CascadeSpec CascadeProofs PropsCascade ChebyshevSpec ChebProduct Chebyshev ChebyshevProofs ChebyshevDesign.
Import ListNotations.
Local Open Scope R_scope.

(** ** From the lists of sections to the cascade *)

Lemma sections_spec c : length (dc_b c) = length (dc_a c) -> sections_are c (sections c).
Proof.
  intros L. assert (LS : length (sections c) = length (dc_b c)) by (unfold sections; rewrite map_length, combine_length; lia).
  split; [congruence|]. split; [congruence|]. intros i bq H. unfold sections in H.
  rewrite nth_error_map in H. destruct (nth_error (combine (dc_b c) (dc_a c)) i) as [[b a]|] eqn:E; [|discriminate].
  cbn in H. injection H as <-. cbn [bq_b bq_a bq_w biquad_ba].
  revert E. generalize (dc_b c), (dc_a c). clear.
  induction i as [|i IH]; intros [|x lb] [|y la] E; cbn in *; try discriminate.
  - injection E as -> ->. repeat split.
  - destruct (IH lb la E) as (A & B & _). repeat split; assumption.
Qed.

Lemma make_ok asserts cap c : length (dc_b c) = length (dc_a c) -> (dc_size c <= cap)%nat ->
  exists cs, make_biquad_cascade asserts cap c = Ok cs /\ shows cs (sections c) /\ length (cs_biquad cs) = cap.
Proof.
  intros L H. unfold make_biquad_cascade, dc_size in *. rewrite append_loop_calls by (assumption || lia). cbn [skipn].
  destruct (C47_construction R R_scalar cap [] (Nat.le_0_l _)) as [Sh Lc].
  destruct (C47_list_semantics R R_scalar asserts cap _ (map OpAppend (sections c)) [] ([] ++ sections c) Lc Sh) as (cs & E & S & L').
  - apply appends_list. cbn. unfold sections. rewrite map_length, combine_length. lia.
  - exists cs. now split.
Qed.

Lemma appends_overrun (l : list (biquad R)) N : forall cs l0, length (cs_biquad cs) = N -> shows cs l0 -> (length l0 <= N)%nat ->
  (N < length l0 + length l)%nat -> cs_calls R_scalar false N cs (map OpAppend l) = Err OutOfBounds.
Proof.
  induction l as [|b l IH]; intros cs l0 Lc Sh H0 H; cbn in H; [lia|]. cbn [map cs_calls cs_call].
  destruct (Nat.eq_dec (length l0) N) as [F|F].
  - destruct (C48_avr_append_overruns R N cs l0 b Lc Sh F) as [-> _]. reflexivity.
  - destruct (C47_list_semantics R R_scalar false N cs [OpAppend b] l0 (l0 ++ [b]) Lc Sh) as (cs' & E & S & L').
    + cbn [list_ops list_op]. replace (length l0 <? N)%nat with true by (symmetry; apply Nat.ltb_lt; lia). reflexivity.
    + cbn [cs_calls cs_call bind] in E. destruct (cs_append false N cs b) as [cs2|e]; cbn [bind] in E |- *; [|discriminate].
      injection E as <-. apply (IH cs2 (l0 ++ [b]) L' S); rewrite app_length; cbn; lia.
Qed.

Lemma make_power asserts cap c N P kind : (dc_size c <= cap)%nat -> design_facts kind c N P ->
  exists cs, make_biquad_cascade asserts cap c = Ok cs /\
    forall f, exists p, power_at cs f p /\ P f p.
Proof.
  intros H (L & _ & _ & F). destruct (make_ok asserts cap c L H) as (cs & E & S & Lc). exists cs. split; [assumption|].
  intros f. destruct (F f) as (hs & F2 & Hp). eexists. split; [|exact Hp].
  exists (fold_right Cmult (RtoC 1) hs). split.
  - now apply (C51_response_is_product cap cs (sections c) hs f).
  - ring.
Qed.

Lemma power_unique cs f p q : power_at cs f p -> power_at cs f q -> p = q.
Proof. intros (h & E & <-) (h' & E' & <-). congruence. Qed.

Lemma low_pass_kind kind fs fpass fstop : valid_edges kind fs fpass fstop -> kind = low_pass \/ kind = high_pass.
Proof. destruct kind; cbn; tauto. Qed.

(** ** C62: stability and reference gain *)

Definition c62_claim (design : bool -> filter_response -> R -> R -> R -> R -> R -> outcome digital_coeff) : Prop :=
  forall asserts kind fs fpass fstop Apass Astop,
  valid_edges kind fs fpass fstop -> loss Apass < loss Astop ->
  exact_order kind fs fpass fstop Apass Astop <= 2 ^ 30 - 1 ->
  exists c, design asserts kind fs fpass fstop Apass Astop = Ok c /\ length (dc_b c) = length (dc_a c) /\
  forall i b a, nth_error (dc_b c) i = Some b -> nth_error (dc_a c) i = Some a ->
    strictly_stable (a1 a) (a2 a) /\ response (biquad_ba R_scalar b a) (unit_gain_frequency kind) = Ok (RtoC 1).

Lemma bound_IZR x : x <= 2 ^ 30 - 1 -> x <= IZR (2 ^ 30 - 1).
Proof. intros H. rewrite minus_IZR. replace (IZR (2 ^ 30)) with (2 ^ 30); [assumption|]. rewrite (pow_IZR 2 30). reflexivity. Qed.

Lemma c62_from kind c N P : kind = low_pass \/ kind = high_pass -> design_facts kind c N P ->
  length (dc_b c) = length (dc_a c) /\
  forall i b a, nth_error (dc_b c) i = Some b -> nth_error (dc_a c) i = Some a ->
    strictly_stable (a1 a) (a2 a) /\ response (biquad_ba R_scalar b a) (unit_gain_frequency kind) = Ok (RtoC 1).
Proof.
  intros K (L & _ & F & _). split; [assumption|]. intros i b a Hb Ha.
  assert (E : nth_error (sections c) i = Some (biquad_ba R_scalar b a)).
  { unfold sections. rewrite nth_error_map. revert Hb Ha. generalize (dc_b c), (dc_a c). clear.
    induction i as [|i IH]; intros [|x lb] [|y la] Hb Ha; cbn in *; try discriminate; [congruence|now apply IH]. }
  rewrite Forall_forall in F. pose proof (F _ (nth_error_In _ _ E)) as [S R]. cbn [bq_a biquad_ba] in S. split; [assumption|].
  destruct K as [-> | ->]; exact R.
Qed.

Theorem C62_type1_stable_unit_gain : c62_claim chebyshev1_lp_hp.
Proof.
  intros asserts kind fs fpass fstop Apass Astop V L B. apply bound_IZR in B.
  destruct (cheb1_design asserts kind fs fpass fstop Apass Astop V L B) as (N & c & a & E & _ & _ & _ & _ & _ & _ & D).
  exists c. split; [assumption|]. apply (c62_from _ _ _ _ (low_pass_kind _ _ _ _ V) D).
Qed.
Print Assumptions C62_type1_stable_unit_gain.

Theorem C62_type2_stable_unit_gain : c62_claim chebyshev2_lp_hp.
Proof.
  intros asserts kind fs fpass fstop Apass Astop V L B. apply bound_IZR in B.
  destruct (cheb2_design asserts kind fs fpass fstop Apass Astop V L B) as (N & c & E & _ & _ & _ & _ & D).
  exists c. split; [assumption|]. apply (c62_from _ _ _ _ (low_pass_kind _ _ _ _ V) D).
Qed.
Print Assumptions C62_type2_stable_unit_gain.

(** ** C63: order, number of sections and capacity *)

Definition c63_claim (design : bool -> filter_response -> R -> R -> R -> R -> R -> outcome digital_coeff) : Prop :=
  forall asserts kind fs fpass fstop Apass Astop,
  valid_edges kind fs fpass fstop -> loss Apass < loss Astop ->
  exact_order kind fs fpass fstop Apass Astop <= 2 ^ 30 - 1 ->
  exists c, design asserts kind fs fpass fstop Apass Astop = Ok c /\
    IZR (ai_N (dc_info c)) - 1 < exact_order kind fs fpass fstop Apass Astop <= IZR (ai_N (dc_info c)) /\
    (ai_N (dc_info c) <= 2 * Z.of_nat (dc_size c) <= ai_N (dc_info c) + 1)%Z.

Lemma size_bounds kind c N P : design_facts kind c N P -> ai_N (dc_info c) = Z.of_nat N ->
  (ai_N (dc_info c) <= 2 * Z.of_nat (dc_size c) <= ai_N (dc_info c) + 1)%Z.
Proof.
  intros (_ & S & _) ->. unfold dc_size. pose proof (Nat.mod_upper_bound N 2). lia.
Qed.

Theorem C63_type1_order : c63_claim chebyshev1_lp_hp.
Proof.
  intros asserts kind fs fpass fstop Apass Astop V L B. apply bound_IZR in B.
  destruct (cheb1_design asserts kind fs fpass fstop Apass Astop V L B) as (N & c & a & E & _ & O & I & _ & _ & _ & D).
  exists c. split; [assumption|]. split; [rewrite I, <- INR_IZR_INZ; assumption|]. exact (size_bounds _ _ _ _ D I).
Qed.
Print Assumptions C63_type1_order.

Theorem C63_type2_order : c63_claim chebyshev2_lp_hp.
Proof.
  intros asserts kind fs fpass fstop Apass Astop V L B. apply bound_IZR in B.
  destruct (cheb2_design asserts kind fs fpass fstop Apass Astop V L B) as (N & c & E & _ & O & I & _ & D).
  exists c. split; [assumption|]. split; [rewrite I, <- INR_IZR_INZ; assumption|]. exact (size_bounds _ _ _ _ D I).
Qed.
Print Assumptions C63_type2_order.

(** The cascade holds all the sections, or the program stops, or (without assertions) writes
    outside of the array. *)
Theorem C63_cascade_capacity : forall asserts cap c, length (dc_b c) = length (dc_a c) ->
  ((dc_size c <= cap)%nat ->
     exists cs l, make_biquad_cascade asserts cap c = Ok cs /\ shows cs l /\ sections_are c l) /\
  ((cap < dc_size c)%nat ->
     make_biquad_cascade true cap c = Err AssertFailed /\ make_biquad_cascade false cap c = Err OutOfBounds).
Proof.
  intros asserts cap c L. split.
  - intros H. destruct (make_ok asserts cap c L H) as (cs & E & S & _). exists cs, (sections c).
    split; [assumption|]. split; [assumption|now apply sections_spec].
  - intros H. unfold make_biquad_cascade, dc_size in *. rewrite !append_loop_calls by (assumption || lia). cbn [skipn].
    destruct (C47_construction R R_scalar cap [] (Nat.le_0_l _)) as [Sh Lc].
    assert (LS : length (sections c) = length (dc_b c)) by (unfold sections; rewrite map_length, combine_length; lia).
    split.
    + apply (C48_violations_stop R R_scalar cap _ _ []); [assumption|assumption|].
      apply appends_too_many; cbn; lia.
    + apply (appends_overrun (sections c) cap _ []); cbn; (assumption || lia).
Qed.
Print Assumptions C63_cascade_capacity.

(** A specification in which the stop band overlaps the pass band has no order: acosh is
    evaluated outside of its domain.  Touching bands give a division by zero. *)
Theorem C63_overlapping_bands : forall asserts kind fs fpass fstop Apass Astop,
  0 < fpass < fs / 2 -> 0 < fstop < fs / 2 -> kind = low_pass \/ kind = high_pass ->
  (loss Apass < loss Astop -> match kind with low_pass => fstop < fpass | _ => fpass < fstop end ->
     chebyshev1_lp_hp asserts kind fs fpass fstop Apass Astop = Err DomainError /\
     chebyshev2_lp_hp asserts kind fs fpass fstop Apass Astop = Err DomainError) /\
  (loss Apass <= loss Astop -> fpass = fstop ->
     chebyshev1_lp_hp asserts kind fs fpass fstop Apass Astop = Err DivByZero /\
     chebyshev2_lp_hp asserts kind fs fpass fstop Apass Astop = Err DivByZero) /\
  (loss Astop < loss Apass ->
     chebyshev1_lp_hp asserts kind fs fpass fstop Apass Astop = Err DomainError /\
     chebyshev2_lp_hp asserts kind fs fpass fstop Apass Astop = Err DomainError).
Proof.
  intros asserts kind fs fpass fstop Apass Astop R1 R2 K.
  destruct (prewarp_ok fpass fs R1) as [P1 T1]. destruct (prewarp_ok fstop fs R2) as [P2 T2].
  pose proof (eps_pos _ (loss_pos Apass)) as E1. pose proof (eps_pos _ (loss_pos Astop)) as E2.
  assert (K' : is_low_or_high_pass kind = true) by (destruct K as [-> | ->]; reflexivity).
  assert (Setup : forall e,
    (n <- acosh (eps (loss Astop) / eps (loss Apass)) ;;
     d <- acosh ((if is_low_pass kind then tan (PI * fstop / fs) else / tan (PI * fstop / fs)) /
            (if is_low_pass kind then tan (PI * fpass / fs) else / tan (PI * fpass / fs))) ;;
     rdiv n d) = Err e ->
    cheb_setup asserts kind fs fpass fstop (loss Apass) (loss Astop) = Err e).
  { intros e H. unfold cheb_setup. rewrite K'. destruct (Rlt_dec fpass (fs / 2)) as [_|]; [|lra]. destruct (Rlt_dec fstop (fs / 2)) as [_|]; [|lra].
    replace (assert_ asserts true) with (Ok tt) by (unfold assert_; destruct asserts; reflexivity). cbn [bind].
    rewrite P1, P2. cbn [bind]. rewrite !pow_sign_pos by assumption. cbn [bind]. rewrite !ripple_ok by apply loss_pos. cbn [bind].
    rewrite rdiv_ok by lra. cbn [bind]. destruct (acosh (eps (loss Astop) / eps (loss Apass))) as [n|]; cbn [bind] in H |- *; [|congruence].
    rewrite rdiv_ok.
    2:{ destruct (is_low_pass kind); [lra|]. apply Rinv_neq_0_compat. lra. }
    cbn [bind]. destruct (acosh _) as [d|]; cbn [bind] in H |- *; [|congruence]. rewrite H. reflexivity. }
  assert (Both : forall e, cheb_setup asserts kind fs fpass fstop (loss Apass) (loss Astop) = Err e ->
     chebyshev1_lp_hp asserts kind fs fpass fstop Apass Astop = Err e /\
     chebyshev2_lp_hp asserts kind fs fpass fstop Apass Astop = Err e).
  { intros e H. unfold chebyshev1_lp_hp, chebyshev2_lp_hp, chebyshev1_lp_hp_impl, chebyshev2_lp_hp_impl.
    fold (loss Apass) (loss Astop). rewrite H. now split. }
  assert (Q : eps (loss Apass) <= eps (loss Astop) -> acosh (eps (loss Astop) / eps (loss Apass)) = Ok (arcosh (eps (loss Astop) / eps (loss Apass)))).
  { intros H. unfold acosh. destruct (Rlt_dec _ 1) as [X|_]; [|reflexivity].
    exfalso. apply (Rmult_lt_compat_r (eps (loss Apass))) in X; [|assumption]. unfold Rdiv in X. rewrite Rmult_assoc, Rinv_l in X by lra. lra. }
  repeat split.
  1,2: apply Both, Setup; pose proof (eps_lt _ _ (loss_pos Apass) H); rewrite Q by lra; cbn [bind].
  1,2: unfold acosh; destruct (Rlt_dec _ 1) as [_|X]; [reflexivity|exfalso; apply X; clear X].
  1,2: assert (G : forall u v, 0 < u -> u < v -> u / v < 1)
         by (intros u v Hu Hv; apply (Rmult_lt_reg_r v); [lra|]; unfold Rdiv; rewrite Rmult_assoc, Rinv_l by lra; lra).
  1,2: destruct K as [-> | ->]; cbn [is_low_pass]; (apply G; [lra || now apply Rinv_0_lt_compat|]).
  1,3: apply (tan_mono fstop fpass fs); lra.
  1,2: apply Rinv_lt_contravar; [now apply Rmult_lt_0_compat|]; apply (tan_mono fpass fstop fs); lra.
  1,2: apply Both, Setup; rewrite Q by (destruct H as [H| ->]; [pose proof (eps_lt _ _ (loss_pos Apass) H)|]; lra); cbn [bind]; subst fstop.
  1,2: replace ((if is_low_pass kind then tan (PI * fpass / fs) else / tan (PI * fpass / fs)) /
            (if is_low_pass kind then tan (PI * fpass / fs) else / tan (PI * fpass / fs))) with 1
         by (destruct (is_low_pass kind); field; lra).
  1,2: unfold acosh; destruct (Rlt_dec 1 1) as [X|_]; [lra|]; cbn [bind];
       replace (1 * 1 - 1) with 0 by ring; rewrite sqrt_0, Rplus_0_r, ln_1; unfold rdiv; destruct (Req_EM_T 0 0); [reflexivity|contradiction].
  1,2: apply Both, Setup; unfold acosh at 1; destruct (Rlt_dec _ 1) as [_|X]; [reflexivity|exfalso; apply X; clear X].
  1,2: pose proof (eps_lt _ _ (loss_pos Astop) H); apply (Rmult_lt_reg_r (eps (loss Apass))); [assumption|];
       unfold Rdiv; rewrite Rmult_assoc, Rinv_l by lra; lra.
Qed.
Print Assumptions C63_overlapping_bands.

(** Designs are refused (assertion) for an edge at or above half the sampling frequency and
    for responses other than low pass and high pass; without assertions those responses are
    designed as a high pass. *)
Theorem C63_edge_assertions : forall kind fs fpass fstop Apass Astop,
  fs / 2 <= fpass \/ fs / 2 <= fstop \/ (kind <> low_pass /\ kind <> high_pass) ->
  chebyshev1_lp_hp true kind fs fpass fstop Apass Astop = Err AssertFailed /\
  chebyshev2_lp_hp true kind fs fpass fstop Apass Astop = Err AssertFailed.
Proof.
  intros kind fs fpass fstop Apass Astop H.
  assert (E : forall A B, cheb_setup true kind fs fpass fstop A B = Err AssertFailed).
  { intros A B. unfold cheb_setup.
    destruct (is_low_or_high_pass kind) eqn:K; [|reflexivity]. cbn [assert_ andb negb bind].
    destruct (Rlt_dec fpass (fs / 2)); [|reflexivity]. cbn [assert_ andb negb bind].
    destruct (Rlt_dec fstop (fs / 2)); [|reflexivity]. exfalso.
    destruct H as [H | [H | [H1 H2]]]; [lra|lra|].
    destruct kind; cbn in K; congruence. }
  unfold chebyshev1_lp_hp, chebyshev2_lp_hp, chebyshev1_lp_hp_impl, chebyshev2_lp_hp_impl.
  rewrite !E. split; reflexivity.
Qed.
Print Assumptions C63_edge_assertions.

Example C63_edge_assertions_case :
  chebyshev2_lp_hp true low_pass 2 (1/2) 1 1 20 = Err AssertFailed.
Proof. apply C63_edge_assertions. right; left. lra. Qed.

Theorem C63_other_responses_without_assertions : forall kind fs fpass fstop Apass Astop,
  kind <> low_pass -> 0 < fpass < fs / 2 -> 0 < fstop < fs / 2 ->
  chebyshev1_lp_hp false kind fs fpass fstop Apass Astop
    = chebyshev1_lp_hp true high_pass fs fpass fstop Apass Astop /\
  chebyshev2_lp_hp false kind fs fpass fstop Apass Astop
    = chebyshev2_lp_hp true high_pass fs fpass fstop Apass Astop.
Proof.
  intros kind fs fpass fstop Apass Astop K H1 H2.
  assert (L : is_low_pass kind = false) by (destruct kind; cbn; congruence).
  assert (P : forall x, pow_sign kind x = pow_sign high_pass x)
    by (intros; unfold pow_sign; rewrite L; reflexivity).
  assert (E : forall A B, cheb_setup false kind fs fpass fstop A B
                        = cheb_setup true high_pass fs fpass fstop A B).
  { intros A B. unfold cheb_setup. cbn [assert_ andb negb bind is_low_or_high_pass is_low_pass orb].
    destruct (Rlt_dec fpass (fs / 2)); [|lra]. cbn [assert_ andb negb bind].
    destruct (Rlt_dec fstop (fs / 2)); [|lra]. cbn [assert_ andb negb bind].
    rewrite L. destruct (prewarp fpass fs); [|reflexivity]. cbn [bind]. rewrite P.
    destruct (pow_sign high_pass a); [|reflexivity]. cbn [bind].
    destruct (prewarp fstop fs); [|reflexivity]. cbn [bind]. rewrite P. reflexivity. }
  unfold chebyshev1_lp_hp, chebyshev2_lp_hp, chebyshev1_lp_hp_impl, chebyshev2_lp_hp_impl.
  rewrite !E. split.
  - destruct (cheb_setup _ _ _ _ _ _ _) as [[[[[[[s wp] ws] ep] es] nx] n]|]; [|reflexivity].
    cbn [bind]. destruct (rdiv (asinh es) (IZR n)); [|reflexivity]. cbn [bind].
    destruct (rdiv 1 ep); [|reflexivity]. cbn [bind]. rewrite P. reflexivity.
  - destruct (cheb_setup _ _ _ _ _ _ _) as [[[[[[[s wp] ws] ep] es] nx] n]|]; [|reflexivity].
    cbn [bind]. destruct (rdiv (asinh es) (IZR n)); [|reflexivity]. cbn [bind].
    destruct (rdiv ws _); [|reflexivity]. cbn [bind]. rewrite P. reflexivity.
Qed.
Print Assumptions C63_other_responses_without_assertions.

Example C63_other_responses_case :
  chebyshev2_lp_hp false band_stop 8 2 1 1 20 = chebyshev2_lp_hp true high_pass 8 2 1 1 20.
Proof. apply C63_other_responses_without_assertions; try discriminate; lra. Qed.

(** ** Frequencies in the range of interest *)

Lemma half_angle f : 0 <= f <= 1 / 2 -> 0 <= PI * f <= PI / 2.
Proof. intros H. pose proof PI_RGT_0. split; nra. Qed.

Lemma sin_zero f : 0 <= f <= 1 / 2 -> 0 <= sin (PI * f) /\ (sin (PI * f) = 0 <-> f = 0).
Proof.
  intros H. pose proof (half_angle f H). pose proof PI_RGT_0. split; [apply sin_ge_0; lra|]. split; intros E.
  - destruct (Req_dec f 0) as [|N]; [assumption|]. assert (0 < PI * f) by (apply Rmult_lt_0_compat; lra).
    assert (0 < sin (PI * f)) by (apply sin_gt_0; lra). lra.
  - rewrite E, Rmult_0_r. apply sin_0.
Qed.

Lemma cos_zero f : 0 <= f <= 1 / 2 -> 0 <= cos (PI * f) /\ (cos (PI * f) = 0 <-> f = 1 / 2).
Proof.
  intros H. pose proof (half_angle f H). pose proof PI_RGT_0. split; [apply cos_ge_0; lra|]. split; intros E.
  - destruct (Req_dec f (1 / 2)) as [|N]; [assumption|]. assert (PI * f < PI / 2) by nra.
    assert (0 < cos (PI * f)) by (apply cos_gt_0; lra). lra.
  - rewrite E. replace (PI * (1 / 2)) with (PI / 2) by field. apply cos_PI2.
Qed.

Lemma xs_zero kind f : kind = low_pass \/ kind = high_pass -> 0 <= f <= 1 / 2 ->
  0 <= xs kind f /\ (xs kind f = 0 <-> f = unit_gain_frequency kind).
Proof. intros [-> | ->] H; [now apply sin_zero|now apply cos_zero]. Qed.

Lemma inverse_warped_x kind f : kind = low_pass \/ kind = high_pass -> inverse_warped kind f = xc kind f / xs kind f.
Proof. intros [-> | ->]; reflexivity. Qed.

Lemma warped_x kind f : kind = low_pass \/ kind = high_pass -> xc kind f <> 0 -> warped kind f = xs kind f / xc kind f.
Proof.
  intros [-> | ->] H; cbn in *; [reflexivity|]. unfold tan, xs, xc in *. cbn in *. unfold Rdiv. rewrite Rinv_mult, Rinv_inv. ring.
Qed.

Lemma inverse_warped_inv kind f : kind = low_pass \/ kind = high_pass -> xc kind f <> 0 -> xs kind f <> 0 ->
  inverse_warped kind f = / warped kind f.
Proof. intros K H1 H2. rewrite inverse_warped_x, warped_x by assumption. field. split; assumption. Qed.

(** The inverse is monotone: decreasing for a low pass, increasing for a high pass. *)
Lemma cot_mono f g : 0 < f -> f <= g -> g <= 1 / 2 -> cos (PI * g) / sin (PI * g) <= cos (PI * f) / sin (PI * f).
Proof.
  intros H1 H2 H3. pose proof PI_RGT_0. assert (A : 0 < PI * f <= PI * g /\ PI * g <= PI / 2) by (split; [split|]; nra).
  assert (S1 : 0 < sin (PI * f)) by (apply sin_gt_0; lra). assert (S2 : 0 < sin (PI * g)) by (apply sin_gt_0; lra).
  assert (D : 0 <= sin (PI * g - PI * f)) by (apply sin_ge_0; lra). rewrite sin_minus in D.
  set (c := cos (PI * f)) in *. set (s := sin (PI * f)) in *. set (c' := cos (PI * g)) in *. set (s' := sin (PI * g)) in *.
  assert (I : c / s - c' / s' = (s' * c - c' * s) / (s * s')) by (field; lra).
  assert (0 <= (s' * c - c' * s) / (s * s')); [|lra]. apply Rmult_le_pos; [assumption|]. left. apply Rinv_0_lt_compat. nra.
Qed.

Lemma tan_mono_le f g : 0 <= f -> f <= g -> g < 1 / 2 -> sin (PI * f) / cos (PI * f) <= sin (PI * g) / cos (PI * g).
Proof.
  intros H1 H2 H3. pose proof PI_RGT_0. assert (A : 0 <= PI * f <= PI * g /\ PI * g < PI / 2) by (split; [split|]; nra).
  assert (S1 : 0 < cos (PI * f)) by (apply cos_gt_0; lra). assert (S2 : 0 < cos (PI * g)) by (apply cos_gt_0; lra).
  assert (D : 0 <= sin (PI * g - PI * f)) by (apply sin_ge_0; lra). rewrite sin_minus in D.
  set (c := cos (PI * f)) in *. set (s := sin (PI * f)) in *. set (c' := cos (PI * g)) in *. set (s' := sin (PI * g)) in *.
  assert (I : s' / c' - s / c = (s' * c - c' * s) / (c * c')) by (field; lra).
  assert (0 <= (s' * c - c' * s) / (c * c')); [|lra]. apply Rmult_le_pos; [assumption|]. left. apply Rinv_0_lt_compat. nra.
Qed.

Lemma edge_norm f fs : 0 < f < fs / 2 -> 0 < f / fs < 1 / 2.
Proof.
  intros H. split; [apply Rdiv_lt_0_compat; lra|]. apply (Rmult_lt_reg_r fs); [lra|]. unfold Rdiv. rewrite Rmult_assoc, Rinv_l by lra. lra.
Qed.

Lemma edge_x kind f : kind = low_pass \/ kind = high_pass -> 0 < f < 1 / 2 -> 0 < xc kind f /\ 0 < xs kind f.
Proof.
  intros K H. assert (H' : 0 <= f <= 1 / 2) by lra. destruct (sin_zero f H') as [S1 S2]. destruct (cos_zero f H') as [C1 C2].
  assert (sin (PI * f) <> 0) by (intros E; apply S2 in E; lra). assert (cos (PI * f) <> 0) by (intros E; apply C2 in E; lra).
  destruct K as [-> | ->]; cbn; lra.
Qed.

Lemma pass_inverse kind fs fpass fstop f : valid_edges kind fs fpass fstop -> in_pass_band kind fs fpass f -> xs kind f <> 0 ->
  0 <= f <= 1 / 2 /\ / warped kind (fpass / fs) <= inverse_warped kind f.
Proof.
  intros V P X. pose proof (low_pass_kind _ _ _ _ V) as K. destruct (edge_range _ _ _ _ V) as [R1 R2].
  pose proof (edge_norm _ _ R1) as N1. destruct (edge_x kind _ K N1) as [X1 X2].
  rewrite <- inverse_warped_inv by (assumption || lra).
  assert (H : 0 <= f <= 1 / 2) by (destruct K as [-> | ->]; cbn in P; lra). split; [assumption|].
  destruct (xs_zero kind f K H) as [_ Z].
  destruct K as [-> | ->]; cbn in *.
  - apply cot_mono; lra.
  - apply tan_mono_le; lra.
Qed.

Lemma stop_inverse kind fs fpass fstop f : valid_edges kind fs fpass fstop -> in_stop_band kind fs fstop f ->
  0 <= f <= 1 / 2 /\ xs kind f <> 0 /\ 0 <= inverse_warped kind f <= / warped kind (fstop / fs).
Proof.
  intros V P. pose proof (low_pass_kind _ _ _ _ V) as K. destruct (edge_range _ _ _ _ V) as [R1 R2].
  pose proof (edge_norm _ _ R2) as N1. destruct (edge_x kind _ K N1) as [X1 X2].
  rewrite <- inverse_warped_inv by (assumption || lra).
  assert (H : 0 <= f <= 1 / 2) by (destruct K as [-> | ->]; cbn in P; lra). split; [assumption|].
  assert (X : xs kind f <> 0).
  { destruct (xs_zero kind f K H) as [_ Z]. intros E. apply Z in E. destruct K as [-> | ->]; cbn in *; lra. }
  split; [assumption|]. destruct (xs_zero kind f K H) as [Z0 _].
  assert (C0 : 0 <= xc kind f) by (destruct K as [-> | ->]; [now apply cos_zero|now apply sin_zero]).
  split.
  - rewrite inverse_warped_x by assumption. apply Rmult_le_pos; [assumption|]. left. apply Rinv_0_lt_compat. lra.
  - destruct K as [-> | ->]; cbn in *; [apply cot_mono; lra|apply tan_mono_le; lra].
Qed.

(** ** C96: the response of a type 2 filter is the Chebyshev function *)

Theorem C96_type2_response : forall asserts kind fs fpass fstop Apass Astop,
  valid_edges kind fs fpass fstop -> loss Apass < loss Astop ->
  exact_order kind fs fpass fstop Apass Astop <= 2 ^ 30 - 1 ->
  exists N c, chebyshev2_lp_hp asserts kind fs fpass fstop Apass Astop = Ok c /\
    INR N - 1 < exact_order kind fs fpass fstop Apass Astop <= INR N /\
    forall cap, (dc_size c <= cap)%nat -> exists cs, make_biquad_cascade asserts cap c = Ok cs /\
    forall f, 0 <= f <= 1 / 2 ->
      let T := cheb N (warped kind (fstop / fs) * inverse_warped kind f) in
      power_at cs f (if Req_EM_T f (unit_gain_frequency kind) then 1 else T ^ 2 / (T ^ 2 + eps (loss Astop) ^ 2)).
Proof.
  intros asserts kind fs fpass fstop Apass Astop V L B. apply bound_IZR in B.
  pose proof (low_pass_kind _ _ _ _ V) as K.
  destruct (cheb2_design asserts kind fs fpass fstop Apass Astop V L B) as (N & c & E & _ & O & _ & _ & D).
  exists N, c. split; [assumption|]. split; [assumption|]. intros cap Hc.
  destruct (make_power asserts cap c N _ kind Hc D) as (cs & M & P). exists cs. split; [assumption|].
  intros f Hf T. destruct (P f) as (p & Pp & P0 & P1). destruct (xs_zero kind f K Hf) as [_ Z].
  destruct (Req_EM_T f (unit_gain_frequency kind)) as [U|U].
  - rewrite <- P0; [assumption|]. now apply Z.
  - assert (X : xs kind f <> 0) by (intros X; apply U, Z, X). specialize (P1 X). cbn zeta in P1.
    replace (warped kind (fstop / fs) * xc kind f / xs kind f) with (warped kind (fstop / fs) * inverse_warped kind f) in P1
      by (rewrite inverse_warped_x by assumption; unfold Rdiv; ring).
    fold T in P1. replace (T ^ 2 / (T ^ 2 + eps (loss Astop) ^ 2)) with p; [assumption|]. rewrite P1. cbn [pow]. rewrite !Rmult_1_r. reflexivity.
Qed.
Print Assumptions C96_type2_response.

(** ** C97: type 2 filters meet their specification *)

Theorem C97_type2_meets_specification : forall asserts kind fs fpass fstop Apass Astop,
  valid_edges kind fs fpass fstop -> loss Apass < loss Astop ->
  exact_order kind fs fpass fstop Apass Astop <= 2 ^ 30 - 1 ->
  exists c, chebyshev2_lp_hp asserts kind fs fpass fstop Apass Astop = Ok c /\
    forall cap, (dc_size c <= cap)%nat -> exists cs, make_biquad_cascade asserts cap c = Ok cs /\
    (forall f, in_pass_band kind fs fpass f -> exists p, power_at cs f p /\ power_ratio (loss Apass) <= p <= 1) /\
    (forall f, in_stop_band kind fs fstop f -> exists p, power_at cs f p /\ 0 <= p <= power_ratio (loss Astop)).
Proof.
  intros asserts kind fs fpass fstop Apass Astop V L B. pose proof (low_pass_kind _ _ _ _ V) as K.
  destruct (C96_type2_response asserts kind fs fpass fstop Apass Astop V L B) as (N & c & E & O & C).
  exists c. split; [assumption|]. intros cap Hc. destruct (C cap Hc) as (cs & M & P). exists cs. split; [assumption|].
  pose proof (eps_pos _ (loss_pos Apass)) as E1. pose proof (eps_lt _ _ (loss_pos Apass) L) as E2.
  rewrite !power_ratio_eps by apply loss_pos.
  destruct (warped_edges _ _ _ _ V) as [W1 W2].
  set (wp := warped kind (fpass / fs)) in *. set (ws := warped kind (fstop / fs)) in *.
  set (ep := eps (loss Apass)) in *. set (es := eps (loss Astop)) in *.
  assert (Q : forall t, 0 <= t / (t + es ^ 2) <= 1 \/ t < 0).
  { intros t. destruct (Rlt_dec t 0); [tauto|left]. assert (0 < es ^ 2) by (apply pow_lt; lra).
    split; [apply Rmult_le_pos; [lra|left; apply Rinv_0_lt_compat; lra]|].
    apply (Rmult_le_reg_r (t + es ^ 2)); [lra|]. unfold Rdiv. rewrite Rmult_assoc, Rinv_l by lra. lra. }
  split.
  - intros f Pf.
    assert (Hf : 0 <= f <= 1 / 2).
    { destruct (edge_range _ _ _ _ V) as [R1 R2]. pose proof (edge_norm _ _ R1). destruct K as [-> | ->]; cbn in Pf; lra. }
    specialize (P f Hf). cbn zeta in P. eexists. split; [exact P|].
    assert (EE : / (1 + ep * ep) <= 1).
    { apply (Rmult_le_reg_l (1 + ep * ep)); [nra|]. rewrite Rinv_r by nra. nra. }
    destruct (Req_EM_T f (unit_gain_frequency kind)) as [U|U]; [lra|].
    destruct (xs_zero kind f K Hf) as [_ Z]. assert (X : xs kind f <> 0) by (intros X; apply U, Z, X).
    destruct (pass_inverse _ _ _ _ _ V Pf X) as [_ I]. fold wp in I.
    assert (Y : ws / wp <= ws * inverse_warped kind f) by (unfold Rdiv; apply Rmult_le_compat_l; lra).
    assert (Y1 : 1 < ws / wp).
    { apply (Rmult_lt_reg_r wp); [assumption|]. unfold Rdiv. rewrite Rmult_assoc, Rinv_l by lra. lra. }
    assert (Q1 : 1 < es / ep).
    { apply (Rmult_lt_reg_r ep); [assumption|]. unfold Rdiv. rewrite Rmult_assoc, Rinv_l by lra. lra. }
    assert (T1 : es / ep <= cheb N (ws / wp)).
    { rewrite <- (cosh_arcosh (ws / wp)), cheb_cosh by lra. rewrite <- (cosh_arcosh (es / ep)) at 1 by lra.
      pose proof (arcosh_pos _ Y1). pose proof (arcosh_pos _ Q1).
      apply cosh_mono; [lra|]. apply (Rmult_le_reg_r (/ arcosh (ws / wp))); [now apply Rinv_0_lt_compat|].
      rewrite Rmult_assoc, Rinv_r by lra. rewrite Rmult_1_r. apply O. }
    assert (T2 : cheb N (ws / wp) <= cheb N (ws * inverse_warped kind f)) by (apply cheb_mono; lra).
    set (T := cheb N (ws * inverse_warped kind f)) in *. assert (T3 : es / ep <= T) by lra.
    assert (T4 : es <= T * ep).
    { apply (Rmult_le_reg_r (/ ep)); [now apply Rinv_0_lt_compat|]. rewrite Rmult_assoc, Rinv_r by lra. unfold Rdiv in T3. lra. }
    assert (T0 : 0 < T) by lra. assert (T5 : es ^ 2 <= (T * ep) ^ 2) by (apply pow_incr; lra).
    destruct (Q (T ^ 2)) as [[Q0 Q2]|]; [|assert (0 <= T ^ 2) by apply pow2_ge_0; lra]. split; [|assumption].
    assert (0 < T ^ 2) by (apply pow_lt; lra). assert (0 < es ^ 2) by (apply pow_lt; lra).
    apply (Rmult_le_reg_r (T ^ 2 + es ^ 2)); [lra|]. unfold Rdiv. rewrite Rmult_assoc, Rinv_l, Rmult_1_r by lra.
    apply (Rmult_le_reg_l (1 + ep * ep)); [nra|]. rewrite <- Rmult_assoc, Rinv_r by nra. nra.
  - intros f Pf. destruct (stop_inverse _ _ _ _ _ V Pf) as (Hf & X & I). fold ws in I.
    specialize (P f Hf). cbn zeta in P. eexists. split; [exact P|].
    destruct (xs_zero kind f K Hf) as [_ Z].
    destruct (Req_EM_T f (unit_gain_frequency kind)) as [U|U]; [tauto|].
    assert (Y : -1 <= ws * inverse_warped kind f <= 1).
    { split; [assert (0 <= ws * inverse_warped kind f) by (apply Rmult_le_pos; lra); lra|].
      rewrite <- (Rinv_r ws) by lra. apply Rmult_le_compat_l; lra. }
    pose proof (cheb_bounded N _ Y) as T1. set (T := cheb N (ws * inverse_warped kind f)) in *.
    assert (T2 : T ^ 2 <= 1) by nra. assert (0 < es ^ 2) by (apply pow_lt; lra). pose proof (pow2_ge_0 T).
    destruct (Q (T ^ 2)) as [[Q0 Q2]|]; [|lra]. split; [assumption|].
    apply (Rmult_le_reg_r (T ^ 2 + es ^ 2)); [lra|]. unfold Rdiv. rewrite Rmult_assoc, Rinv_l, Rmult_1_r by lra.
    apply (Rmult_le_reg_l (1 + es * es)); [nra|]. rewrite <- Rmult_assoc, Rinv_r by nra. nra.
Qed.
Print Assumptions C97_type2_meets_specification.

(** The frequency reported as -3 dB point is the half-power frequency. *)
Theorem C97_type2_f3_half_power : forall asserts kind fs fpass fstop Apass Astop,
  valid_edges kind fs fpass fstop -> loss Apass < loss Astop ->
  exact_order kind fs fpass fstop Apass Astop <= 2 ^ 30 - 1 ->
  exists c, chebyshev2_lp_hp asserts kind fs fpass fstop Apass Astop = Ok c /\
    0 < ai_f3 (dc_info c) < fs / 2 /\
    forall cap, (dc_size c <= cap)%nat -> exists cs, make_biquad_cascade asserts cap c = Ok cs /\
      power_at cs (ai_f3 (dc_info c) / fs) (1 / 2).
Proof.
  intros asserts kind fs fpass fstop Apass Astop V L B. apply bound_IZR in B.
  pose proof (low_pass_kind _ _ _ _ V) as K. destruct (edge_range _ _ _ _ V) as [R1 R2].
  destruct (cheb2_design asserts kind fs fpass fstop Apass Astop V L B) as (N & c & E & _ & _ & _ & (w3 & W & F3 & _ & T3) & D).
  pose proof (eps_pos _ (loss_pos Astop)) as E1. pose proof PI_RGT_0 as PI0.
  exists c. split; [assumption|].
  set (t := if is_low_pass kind then w3 else / w3) in *.
  assert (T0 : 0 < t) by (unfold t; destruct (is_low_pass kind); [assumption|now apply Rinv_0_lt_compat]).
  pose proof (atan_bound t) as [_ A2]. assert (A1 : 0 < atan t) by (rewrite <- atan_0; now apply atan_increasing).
  assert (FN : ai_f3 (dc_info c) / fs = atan t / PI) by (rewrite F3; field; lra).
  assert (An : PI * (atan t / PI) = atan t) by (field; lra).
  assert (N3 : 0 < atan t / PI < 1 / 2).
  { split; [apply Rdiv_lt_0_compat; lra|]. apply (Rmult_lt_reg_l PI); [assumption|]. rewrite An. lra. }
  split.
  { rewrite F3. replace (fs / PI * atan t) with (fs * (atan t / PI)) by (field; lra). split; [apply Rmult_lt_0_compat; lra|]. nra. }
  intros cap Hc. destruct (make_power asserts cap c N _ kind Hc D) as (cs & M & P). exists cs. split; [assumption|].
  rewrite FN. destruct (P (atan t / PI)) as (p & Pp & _ & P1).
  destruct (edge_x kind _ K N3) as [X1 X2]. specialize (P1 (Rgt_not_eq _ _ X2)). cbn zeta in P1.
  replace (warped kind (fstop / fs) * xc kind (atan t / PI) / xs kind (atan t / PI)) with (warped kind (fstop / fs) / w3) in P1.
  - rewrite T3 in P1. replace (1 / 2) with p; [assumption|]. rewrite P1. assert (0 < eps (loss Astop) * eps (loss Astop)) by nra. field. nra.
  - transitivity (warped kind (fstop / fs) * / (xs kind (atan t / PI) / xc kind (atan t / PI))); [|field; lra].
    unfold Rdiv at 1. f_equal. rewrite <- warped_x by (assumption || lra). unfold warped. rewrite An, tan_atan.
    unfold t. destruct K as [-> | ->]; cbn [is_low_pass]; [reflexivity|]. now rewrite Rinv_inv.
Qed.
Print Assumptions C97_type2_f3_half_power.

(** ** C64: type 1 filters *)

(** The response, for even and for odd order.  [a] is determined by [sinh (N a) = eps (loss Astop)].
    A type 1 filter should have the response 1 / (1 + eps (loss Apass)^2 T^2). *)
Theorem C64_type1_response : forall asserts kind fs fpass fstop Apass Astop,
  valid_edges kind fs fpass fstop -> loss Apass < loss Astop ->
  exact_order kind fs fpass fstop Apass Astop <= 2 ^ 30 - 1 ->
  exists N a c, chebyshev1_lp_hp asserts kind fs fpass fstop Apass Astop = Ok c /\
    INR N - 1 < exact_order kind fs fpass fstop Apass Astop <= INR N /\
    0 < a /\ sinh (INR N * a) = eps (loss Astop) /\
    forall cap, (dc_size c <= cap)%nat -> exists cs, make_biquad_cascade asserts cap c = Ok cs /\
    power_at cs (1 / 2 - unit_gain_frequency kind) 0 /\
    forall f, 0 <= f <= 1 / 2 -> f <> 1 / 2 - unit_gain_frequency kind ->
      let w := warped kind (fpass / fs) in
      let x := warped kind f / w in
      let e := eps (loss Astop) in
      (Nat.Even N -> power_at cs f ((1 + e ^ 2) / (cheb N x ^ 2 + e ^ 2))) /\
      (Nat.Odd N -> power_at cs f (e ^ 2 / (cheb N x ^ 2 + e ^ 2) *
         ((1 + (x / sinh a) ^ 2) / (1 + (sinh a * w ^ 2 * x) ^ 2)))).
Proof.
  intros asserts kind fs fpass fstop Apass Astop V L B. apply bound_IZR in B.
  pose proof (low_pass_kind _ _ _ _ V) as K. pose proof (warped_edges _ _ _ _ V) as [W1 _].
  destruct (cheb1_design asserts kind fs fpass fstop Apass Astop V L B) as (N & c & a & E & _ & O & _ & Pa & Na & _ & D).
  exists N, a, c. split; [assumption|]. split; [assumption|]. split; [assumption|]. split; [assumption|]. intros cap Hc.
  destruct (make_power asserts cap c N _ kind Hc D) as (cs & M & P). exists cs. split; [assumption|].
  assert (XZ : forall f, 0 <= f <= 1 / 2 -> (xc kind f = 0 <-> f = 1 / 2 - unit_gain_frequency kind)).
  { intros f Hf. destruct K as [-> | ->]; cbn.
    - rewrite Rminus_0_r. now apply cos_zero.
    - replace (1 / 2 - 1 / 2) with 0 by field. now apply sin_zero. }
  split.
  - destruct (P (1 / 2 - unit_gain_frequency kind)) as (p & Pp & P0 & _). rewrite <- P0; [assumption|].
    apply XZ; [|reflexivity]. destruct K as [-> | ->]; cbn; lra.
  - intros f Hf U w x e. destruct (P f) as (p & Pp & _ & P1).
    assert (X : xc kind f <> 0) by (intros X; apply U, XZ; assumption). specialize (P1 X). cbn zeta in P1. fold w e in P1.
    replace (xs kind f / (w * xc kind f)) with x in P1.
    2:{ unfold x. rewrite warped_x by assumption. fold w in W1. field. repeat split; (assumption || lra). }
    pose proof (sinh_pos a Pa) as Sp. split.
    + intros [k ->]. match goal with |- power_at _ _ ?q => assert (EQ : p = q); [|rewrite <- EQ; exact Pp] end. rewrite P1.
      rewrite cheb_zero_even. replace ((2 * k) mod 2)%nat with 0%nat by (rewrite Nat.mul_comm, Nat.mod_mul by lia; reflexivity).
      unfold middle. cbn [Nat.eqb pow]. rewrite !Rmult_1_r. reflexivity.
    + intros [k ->]. match goal with |- power_at _ _ ?q => assert (EQ : p = q); [|rewrite <- EQ; exact Pp] end. rewrite P1.
      rewrite cheb_zero_odd. replace ((2 * k + 1) mod 2)%nat with 1%nat by (symmetry; apply mod2; tauto).
      unfold middle. cbn [Nat.eqb]. rewrite Rmult_0_l, Rplus_0_l. cbn [pow]. rewrite !Rmult_1_r.
      assert (0 < sinh a * sinh a) by nra. assert (0 < e) by (apply eps_pos, loss_pos). assert (0 < e * e) by nra.
      assert (0 <= cheb (2 * k + 1) x * cheb (2 * k + 1) x) by apply Rle_0_sqr.
      assert (0 <= sinh a * (w * w) * x * (sinh a * (w * w) * x)) by apply Rle_0_sqr.
      field. repeat split; lra.
Qed.
Print Assumptions C64_type1_response.

(** In the pass band an even-order filter amplifies instead of attenuating. *)
Theorem C64_even_pass_band : forall asserts kind fs fpass fstop Apass Astop,
  valid_edges kind fs fpass fstop -> loss Apass < loss Astop ->
  exact_order kind fs fpass fstop Apass Astop <= 2 ^ 30 - 1 ->
  exists N c, chebyshev1_lp_hp asserts kind fs fpass fstop Apass Astop = Ok c /\
    INR N - 1 < exact_order kind fs fpass fstop Apass Astop <= INR N /\
    (Nat.Even N -> forall cap, (dc_size c <= cap)%nat -> exists cs, make_biquad_cascade asserts cap c = Ok cs /\
       forall f, in_pass_band kind fs fpass f -> exists p, power_at cs f p /\ 1 <= p <= 1 + / eps (loss Astop) ^ 2).
Proof.
  intros asserts kind fs fpass fstop Apass Astop V L B.
  destruct (C64_type1_response asserts kind fs fpass fstop Apass Astop V L B) as (N & a & c & E & O & _ & _ & H).
  exists N, c. split; [assumption|]. split; [assumption|]. intros Ev cap Hc. destruct (H cap Hc) as (cs & M & _ & P).
  exists cs. split; [assumption|]. intros f Pf.
  pose proof (low_pass_kind _ _ _ _ V) as K. destruct (edge_range _ _ _ _ V) as [R1 _]. pose proof (edge_norm _ _ R1) as N1.
  destruct (warped_edges _ _ _ _ V) as [W1 _].
  assert (Hf : 0 <= f <= 1 / 2) by (destruct K as [-> | ->]; cbn in Pf; lra).
  destruct (P f) as [P1 _]; [assumption|destruct K as [-> | ->]; cbn in Pf |- *; lra|]. specialize (P1 Ev).
  eexists. split; [exact P1|]. set (e := eps (loss Astop)).
  assert (e0 : 0 < e) by (apply eps_pos, loss_pos). assert (0 < e ^ 2) by (apply pow_lt; lra).
  assert (T1 : cheb N (warped kind f / warped kind (fpass / fs)) ^ 2 <= 1).
  { assert (Q : -1 <= warped kind f / warped kind (fpass / fs) <= 1).
    { assert (X : xc kind f <> 0).
      { destruct K as [-> | ->]; cbn in Pf |- *; [pose proof (cos_zero f Hf) as [_ Z]|pose proof (sin_zero f Hf) as [_ Z]];
        intros X; apply Z in X; lra. }
      destruct (Req_dec (xs kind f) 0) as [X0|X0].
      - rewrite warped_x by assumption. rewrite X0. unfold Rdiv. rewrite !Rmult_0_l. lra.
      - destruct (pass_inverse _ _ _ _ _ V Pf X0) as [_ I]. rewrite inverse_warped_inv in I by assumption.
        assert (Wf : 0 < warped kind f).
        { apply Rnot_le_lt. intros Le. assert (0 < / warped kind (fpass / fs)) by now apply Rinv_0_lt_compat.
          destruct (Req_dec (warped kind f) 0) as [Z|Z]; [rewrite Z, Rinv_0 in I; lra|].
          assert (/ warped kind f < 0) by (apply Rinv_lt_0_compat; lra). lra. }
        assert (Le : warped kind f <= warped kind (fpass / fs)).
        { apply Rnot_lt_le. intros Lt. assert (/ warped kind f < / warped kind (fpass / fs)); [|lra].
          apply Rinv_lt_contravar; [now apply Rmult_lt_0_compat|assumption]. }
        assert (0 < warped kind f / warped kind (fpass / fs)) by (apply Rdiv_lt_0_compat; assumption). split; [lra|].
        apply (Rmult_le_reg_r (warped kind (fpass / fs))); [assumption|]. unfold Rdiv. rewrite Rmult_assoc, Rinv_l by lra. lra. }
    pose proof (cheb_bounded N _ Q). nra. }
  set (t := cheb N _ ^ 2) in *. assert (0 <= t) by apply pow2_ge_0. set (u := e ^ 2) in *. split.
  - apply (Rmult_le_reg_r (t + u)); [lra|]. unfold Rdiv. rewrite Rmult_assoc, Rinv_l by lra. lra.
  - apply (Rmult_le_reg_r (t + u)); [lra|]. unfold Rdiv. rewrite Rmult_assoc, Rinv_l by lra.
    replace ((1 + / u) * (t + u)) with (t + u + t * / u + 1) by (field; lra).
    assert (0 < / u) by (apply Rinv_0_lt_compat; lra). assert (0 <= t * / u) by (apply Rmult_le_pos; lra). lra.
Qed.
Print Assumptions C64_even_pass_band.

(** An even-order filter meets the stop-band specification at the edge only if its order is
    far higher than the order that is computed. *)
Theorem C64_even_stop_edge_iff : forall asserts kind fs fpass fstop Apass Astop,
  valid_edges kind fs fpass fstop -> loss Apass < loss Astop ->
  exact_order kind fs fpass fstop Apass Astop <= 2 ^ 30 - 1 ->
  exists N c, chebyshev1_lp_hp asserts kind fs fpass fstop Apass Astop = Ok c /\
    INR N - 1 < exact_order kind fs fpass fstop Apass Astop <= INR N /\
    (Nat.Even N -> forall cap, (dc_size c <= cap)%nat -> exists cs p, make_biquad_cascade asserts cap c = Ok cs /\
       power_at cs (fstop / fs) p /\
       let e := eps (loss Astop) in
       (p <= power_ratio (loss Astop) <->
        1 + e ^ 2 + e ^ 4 <= cheb N (warped kind (fstop / fs) / warped kind (fpass / fs)) ^ 2)).
Proof.
  intros asserts kind fs fpass fstop Apass Astop V L B.
  destruct (C64_type1_response asserts kind fs fpass fstop Apass Astop V L B) as (N & a & c & E & O & _ & _ & H).
  exists N, c. split; [assumption|]. split; [assumption|]. intros Ev cap Hc. destruct (H cap Hc) as (cs & M & _ & P).
  pose proof (low_pass_kind _ _ _ _ V) as K. destruct (edge_range _ _ _ _ V) as [_ R2]. pose proof (edge_norm _ _ R2) as N2.
  destruct (P (fstop / fs)) as [P1 _]; [lra|destruct K as [-> | ->]; cbn; lra|]. specialize (P1 Ev).
  exists cs. eexists. split; [assumption|]. split; [exact P1|]. intros e. rewrite power_ratio_eps by apply loss_pos. fold e.
  set (T := cheb N _). assert (0 < e) by (apply eps_pos, loss_pos). assert (0 < e ^ 2) by (apply pow_lt; lra).
  pose proof (pow2_ge_0 T). replace (e * e) with (e ^ 2) by ring. replace (e ^ 4) with (e ^ 2 * e ^ 2) by ring.
  set (u := e ^ 2) in *. set (t := T ^ 2) in *. split; intros H'.
  - apply (Rmult_le_compat_r ((t + u) * (1 + u))) in H'; [|nra].
    replace ((1 + u) / (t + u) * ((t + u) * (1 + u))) with ((1 + u) * (1 + u)) in H' by (field; lra).
    replace (/ (1 + u) * ((t + u) * (1 + u))) with (t + u) in H' by (field; lra). lra.
  - apply (Rmult_le_reg_r ((t + u) * (1 + u))); [nra|].
    replace ((1 + u) / (t + u) * ((t + u) * (1 + u))) with ((1 + u) * (1 + u)) by (field; lra).
    replace (/ (1 + u) * ((t + u) * (1 + u))) with (t + u) by (field; lra). lra.
Qed.
Print Assumptions C64_even_stop_edge_iff.

(** The frequency reported as -3 dB point of an even-order filter is the half-power frequency
    only for one particular pair of losses. *)
Theorem C64_even_f3_half_power_iff : forall asserts kind fs fpass fstop Apass Astop,
  valid_edges kind fs fpass fstop -> loss Apass < loss Astop ->
  exact_order kind fs fpass fstop Apass Astop <= 2 ^ 30 - 1 ->
  exists N c, chebyshev1_lp_hp asserts kind fs fpass fstop Apass Astop = Ok c /\
    INR N - 1 < exact_order kind fs fpass fstop Apass Astop <= INR N /\
    (Nat.Even N -> forall cap, (dc_size c <= cap)%nat -> exists cs p, make_biquad_cascade asserts cap c = Ok cs /\
       power_at cs (ai_f3 (dc_info c) / fs) p /\
       (p = 1 / 2 <-> / eps (loss Apass) ^ 2 = 2 + eps (loss Astop) ^ 2)).
Proof.
  intros asserts kind fs fpass fstop Apass Astop V L B.
  destruct (C64_type1_response asserts kind fs fpass fstop Apass Astop V L B) as (N & a & c & E & O & _ & _ & H).
  apply bound_IZR in B. pose proof (low_pass_kind _ _ _ _ V) as K. destruct (edge_range _ _ _ _ V) as [R1 R2].
  destruct (cheb1_design asserts kind fs fpass fstop Apass Astop V L B) as (N' & c' & a' & E' & _ & O' & _ & _ & _ & (w3 & W & F3 & T3) & _).
  assert (c' = c) by congruence. subst c'.
  assert (N' = N).
  { apply Nat.le_antisymm; apply Nat.lt_succ_r; apply INR_lt; rewrite S_INR; lra. }
  subst N'. exists N, c. split; [assumption|]. split; [assumption|]. intros Ev cap Hc. destruct (H cap Hc) as (cs & M & _ & P).
  pose proof PI_RGT_0 as PI0.
  set (t := if is_low_pass kind then w3 else / w3) in *.
  assert (T0 : 0 < t) by (unfold t; destruct (is_low_pass kind); [assumption|now apply Rinv_0_lt_compat]).
  pose proof (atan_bound t) as [_ A2]. assert (A1 : 0 < atan t) by (rewrite <- atan_0; now apply atan_increasing).
  assert (FN : ai_f3 (dc_info c) / fs = atan t / PI) by (rewrite F3; field; lra).
  assert (An : PI * (atan t / PI) = atan t) by (field; lra).
  assert (N3 : 0 < atan t / PI < 1 / 2).
  { split; [apply Rdiv_lt_0_compat; lra|]. apply (Rmult_lt_reg_l PI); [assumption|]. rewrite An. lra. }
  exists cs. eexists. split; [assumption|]. rewrite FN. split.
  { assert (Ug : unit_gain_frequency kind = 0 \/ unit_gain_frequency kind = 1 / 2) by (clear - K; destruct K as [-> | ->]; cbn; tauto).
    destruct (P (atan t / PI)) as [P1 _]; [lra|destruct Ug as [-> | ->]; lra|]. exact (P1 Ev). }
  replace (warped kind (atan t / PI)) with w3.
  2:{ unfold warped. rewrite An, tan_atan. unfold t. destruct K as [-> | ->]; cbn [is_low_pass]; [reflexivity|]. now rewrite Rinv_inv. }
  rewrite T3. assert (0 < eps (loss Apass)) by (apply eps_pos, loss_pos). assert (0 < eps (loss Astop)) by (apply eps_pos, loss_pos).
  replace ((1 / eps (loss Apass)) ^ 2) with (/ eps (loss Apass) ^ 2) by (field; lra).
  assert (0 < / eps (loss Apass) ^ 2) by (apply Rinv_0_lt_compat, pow_lt; assumption).
  assert (0 < eps (loss Astop) ^ 2) by (apply pow_lt; assumption).
  set (u := / eps (loss Apass) ^ 2) in *. set (v := eps (loss Astop) ^ 2) in *. clearbody u v. split; intros X.
  - apply (f_equal (fun z => z * (2 * (u + v)))) in X.
    replace ((1 + v) / (u + v) * (2 * (u + v))) with (2 * (1 + v)) in X by (field; lra). lra.
  - rewrite X. field. lra.
Qed.
Print Assumptions C64_even_f3_half_power_iff.

(** Decibels for the counterexamples. *)
Lemma loss_log k : 1 < k -> 2 <= k -> loss (10 * log10 k) = 10 * log10 k.
Proof.
  intros _ H. unfold loss. apply Rmax_left. unfold log10.
  assert (L10 : 0 < ln 10) by (rewrite <- ln_1; apply ln_increasing; lra).
  assert (L2 : ln 10 < 4 * ln 2).
  { replace (4 * ln 2) with (ln (2 ^ 4)). { apply ln_increasing; simpl; lra. } rewrite <- Rpower_pow by lra. unfold Rpower. rewrite ln_exp. simpl. ring. }
  assert (ln 2 <= ln k) by (destruct H as [H| <-]; [left; apply ln_increasing; lra|lra]).
  apply (Rmult_le_reg_r (ln 10)); [assumption|]. unfold Rdiv. replace (10 * (ln k * / ln 10) * ln 10) with (10 * ln k) by (field; lra). lra.
Qed.

Lemma eps_log k : 0 < k -> eps (10 * log10 k) = sqrt (k - 1).
Proof.
  intros H. unfold eps, log10, Rpower. assert (L10 : 0 < ln 10) by (rewrite <- ln_1; apply ln_increasing; lra).
  replace (10 * (ln k / ln 10) / 10 * ln 10) with (ln k) by (field; lra). now rewrite exp_ln.
Qed.

Lemma arcosh_eq x y n : 1 <= x -> 1 <= y -> cheb n x = y -> arcosh y = INR n * arcosh x.
Proof.
  intros Hx Hy E. rewrite <- (cosh_arcosh x), cheb_cosh in E by assumption. rewrite <- E.
  pose proof (arcosh_nonneg x Hx). pose proof (pos_INR n). assert (0 <= INR n * arcosh x) by nra.
  set (b := INR n * arcosh x) in *. clearbody b. unfold arcosh.
  replace (cosh b * cosh b - 1) with (sinh b * sinh b) by (rewrite cosh_sinh; ring).
  rewrite sqrt_square. { unfold cosh, sinh. replace ((exp b + exp (- b)) / 2 + (exp b - exp (- b)) / 2) with (exp b) by field. apply ln_exp. }
  unfold sinh. assert (exp (- b) <= exp b); [|lra]. destruct (Req_dec b 0) as [-> |]; [rewrite Ropp_0; lra|]. left. apply exp_increasing. lra.
Qed.

Lemma arcosh_lt x y : 1 <= x -> x < y -> arcosh x < arcosh y.
Proof.
  intros Hx H. unfold arcosh. pose proof (sqrt_pos (x * x - 1)). apply ln_increasing; [lra|].
  assert (sqrt (x * x - 1) <= sqrt (y * y - 1)) by (apply sqrt_le_1; nra). lra.
Qed.

Lemma tan_12 : warped low_pass (2 / 12) = / sqrt 3 /\ warped low_pass (3 / 12) = 1 /\ warped low_pass (4 / 12) = sqrt 3.
Proof.
  unfold warped. replace (PI * (2 / 12)) with (PI / 6) by field. replace (PI * (3 / 12)) with (PI / 4) by field.
  replace (PI * (4 / 12)) with (PI / 3) by field. rewrite tan_PI6, tan_PI4, tan_PI3.
  repeat split. unfold Rdiv. ring.
Qed.

Lemma sqrt3 : 1 < sqrt 3 < 2 /\ sqrt 3 * sqrt 3 = 3.
Proof.
  split; [|apply sqrt_sqrt; lra]. split.
  - rewrite <- sqrt_1 at 1. apply sqrt_lt_1; lra.
  - replace 2 with (sqrt 4). { apply sqrt_lt_1; lra. } replace 4 with (2 * 2) by ring. apply sqrt_square. lra.
Qed.

(** Second order, 12 Hz: the pass band up to 2 Hz may lose half of the power, the stop band
    from 3 Hz has to lose nine tenths.  At 3 Hz the filter passes 10/34 of the power. *)
Definition cx1_Apass : R := 10 * log10 2.
Definition cx1_Astop : R := 10 * log10 10.

Lemma cx1_valid : valid_edges low_pass 12 2 3 /\ loss cx1_Apass < loss cx1_Astop /\
  1 < exact_order low_pass 12 2 3 cx1_Apass cx1_Astop <= 2 /\ eps (loss cx1_Astop) = 3.
Proof.
  destruct sqrt3 as [[S1 S2] S3]. destruct tan_12 as (W1 & W2 & _).
  assert (L10 : 0 < ln 10) by (rewrite <- ln_1; apply ln_increasing; lra).
  assert (E1 : eps (loss cx1_Apass) = 1).
  { unfold cx1_Apass. rewrite loss_log, eps_log by lra. replace (2 - 1) with 1 by ring. apply sqrt_1. }
  assert (E2 : eps (loss cx1_Astop) = 3).
  { unfold cx1_Astop. rewrite loss_log, eps_log by lra. replace (10 - 1) with (3 * 3) by ring. apply sqrt_square. lra. }
  split; [cbn; lra|]. split.
  { unfold cx1_Apass, cx1_Astop. rewrite !loss_log by lra. unfold log10. apply Rmult_lt_compat_l; [lra|].
    apply Rmult_lt_compat_r; [now apply Rinv_0_lt_compat|]. apply ln_increasing; lra. }
  split; [|assumption].
  unfold exact_order. rewrite E1, E2, W1, W2.
  replace (3 / 1) with 3 by field. replace (1 / / sqrt 3) with (sqrt 3) by (field; lra).
  assert (A : arcosh 5 = INR 2 * arcosh (sqrt 3)).
  { apply arcosh_eq; try lra. rewrite cheb_SS, cheb_0, cheb_1. lra. }
  assert (A0 : 0 < arcosh (sqrt 3)) by (apply arcosh_pos; lra).
  assert (A1 : arcosh (sqrt 3) < arcosh 3) by (apply arcosh_lt; lra).
  assert (A2 : arcosh 3 < arcosh 5) by (apply arcosh_lt; lra). cbn [INR] in A.
  split; apply (Rmult_lt_reg_r (arcosh (sqrt 3))) || apply (Rmult_le_reg_r (arcosh (sqrt 3))); try assumption;
  unfold Rdiv; rewrite Rmult_assoc, Rinv_l by lra; lra.
Qed.

Theorem C64_stop_band_specification_refuted :
  exists c cs p, chebyshev1_lp_hp true low_pass 12 2 3 cx1_Apass cx1_Astop = Ok c /\
    make_biquad_cascade true 1 c = Ok cs /\ in_stop_band low_pass 12 3 (3 / 12) /\
    power_at cs (3 / 12) p /\ p = 10 / 34 /\ power_ratio (loss cx1_Astop) = 1 / 10.
Proof.
  destruct cx1_valid as (V & L & [O1 O2] & E).
  destruct (C64_type1_response true low_pass 12 2 3 cx1_Apass cx1_Astop V L) as (N & a & c & D & O & _ & _ & H); [lra|].
  assert (N2 : N = 2%nat).
  { assert (2 <= N)%nat by (apply Nat.nlt_ge; intros X; assert (X1 : (N <= 1)%nat) by lia; apply le_INR in X1; cbn in X1; lra).
    assert (N < 3)%nat by (apply INR_lt; cbn; lra). lia. }
  subst N.
  destruct (C63_type1_order true low_pass 12 2 3 cx1_Apass cx1_Astop V L) as (c' & D' & O' & S); [lra|].
  assert (c' = c) by congruence. subst c'.
  assert (N3 : ai_N (dc_info c) = 2%Z).
  { assert (1 < ai_N (dc_info c))%Z by (apply lt_IZR; lra). assert (ai_N (dc_info c) < 3)%Z by (apply lt_IZR; lra). lia. }
  destruct (H 1%nat) as (cs & M & _ & P); [lia|].
  destruct (P (3 / 12)) as [P1 _]; [lra|cbn; lra|].
  exists c, cs. eexists. split; [assumption|]. split; [assumption|]. split; [cbn; lra|].
  split; [apply P1; now exists 1%nat|]. destruct tan_12 as (W1 & W2 & _). destruct sqrt3 as [[S1 S2] S3].
  rewrite W1, W2, E. split.
  - replace (1 / / sqrt 3) with (sqrt 3) by (field; lra). rewrite cheb_SS, cheb_0, cheb_1.
    replace (2 * sqrt 3 * sqrt 3 - 1) with 5 by lra. field.
  - rewrite power_ratio_eps by apply loss_pos. rewrite E. field.
Qed.
Print Assumptions C64_stop_band_specification_refuted.

(** First order, 12 Hz: the pass band up to 3 Hz may lose half of the power, the stop band from
    4 Hz has to lose three quarters.  At 3 Hz the filter loses three quarters. *)
Definition cx2_Astop : R := 10 * log10 4.

Lemma cx2_valid : valid_edges low_pass 12 3 4 /\ loss cx1_Apass < loss cx2_Astop /\
  exact_order low_pass 12 3 4 cx1_Apass cx2_Astop = 1 /\ eps (loss cx2_Astop) = sqrt 3 /\ eps (loss cx1_Apass) = 1.
Proof.
  destruct sqrt3 as [[S1 S2] S3]. destruct tan_12 as (_ & W2 & W3).
  assert (L10 : 0 < ln 10) by (rewrite <- ln_1; apply ln_increasing; lra).
  assert (E1 : eps (loss cx1_Apass) = 1).
  { unfold cx1_Apass. rewrite loss_log, eps_log by lra. replace (2 - 1) with 1 by ring. apply sqrt_1. }
  assert (E2 : eps (loss cx2_Astop) = sqrt 3).
  { unfold cx2_Astop. rewrite loss_log, eps_log by lra. f_equal. ring. }
  split; [cbn; lra|]. split.
  { unfold cx1_Apass, cx2_Astop. rewrite !loss_log by lra. unfold log10. apply Rmult_lt_compat_l; [lra|].
    apply Rmult_lt_compat_r; [now apply Rinv_0_lt_compat|]. apply ln_increasing; lra. }
  split; [|now split].
  unfold exact_order. rewrite E1, E2, W2, W3. replace (sqrt 3 / 1) with (sqrt 3) by field.
  assert (A0 : 0 < arcosh (sqrt 3)) by (apply arcosh_pos; lra). field. lra.
Qed.

Theorem C64_pass_band_specification_refuted :
  exists c cs p, chebyshev1_lp_hp true low_pass 12 3 4 cx1_Apass cx2_Astop = Ok c /\
    make_biquad_cascade true 1 c = Ok cs /\ in_pass_band low_pass 12 3 (3 / 12) /\
    power_at cs (3 / 12) p /\ p = 1 / 4 /\ power_ratio (loss cx1_Apass) = 1 / 2.
Proof.
  destruct cx2_valid as (V & L & O1 & E & E1).
  destruct (C64_type1_response true low_pass 12 3 4 cx1_Apass cx2_Astop V L) as (N & a & c & D & O & Pa & Na & H); [lra|].
  assert (N2 : N = 1%nat).
  { assert (1 <= N)%nat by (apply Nat.nlt_ge; intros X; assert (X1 : (N <= 0)%nat) by lia; apply le_INR in X1; cbn in X1; lra).
    assert (N < 2)%nat by (apply INR_lt; cbn; lra). lia. }
  subst N. cbn [INR] in Na. rewrite Rmult_1_l in Na.
  destruct (C63_type1_order true low_pass 12 3 4 cx1_Apass cx2_Astop V L) as (c' & D' & O' & S); [lra|].
  assert (c' = c) by congruence. subst c'.
  assert (N3 : ai_N (dc_info c) = 1%Z).
  { assert (0 < ai_N (dc_info c))%Z by (apply lt_IZR; lra). assert (ai_N (dc_info c) < 2)%Z by (apply lt_IZR; lra). lia. }
  destruct (H 1%nat) as (cs & M & _ & P); [lia|].
  destruct (P (3 / 12)) as [_ P1]; [lra|cbn; lra|].
  exists c, cs. eexists. split; [assumption|]. split; [assumption|]. split; [cbn; lra|].
  split; [apply P1; now exists 0%nat|]. destruct tan_12 as (_ & W2 & _). destruct sqrt3 as [[S1 S2] S3].
  rewrite W2, Na, E. split.
  - rewrite cheb_1. replace (1 / 1) with 1 by field. cbn [pow]. rewrite !Rmult_1_r.
    replace (1 / sqrt 3 * (1 / sqrt 3)) with (1 / (sqrt 3 * sqrt 3)) by (field; lra). rewrite S3. field.
  - rewrite power_ratio_eps by apply loss_pos. rewrite E1. field.
Qed.
Print Assumptions C64_pass_band_specification_refuted.

Example C96_case : valid_edges low_pass 12 2 3 /\ loss cx1_Apass < loss cx1_Astop /\
  exact_order low_pass 12 2 3 cx1_Apass cx1_Astop <= 2 ^ 30 - 1.
Proof. destruct cx1_valid as (V & L & O & _). split; [assumption|]. split; [assumption|]. lra. Qed.

(** A high pass that meets the hypotheses of the theorems. *)
Example C97_case : valid_edges high_pass 12 3 2 /\ loss cx1_Apass < loss cx1_Astop /\
  exact_order high_pass 12 3 2 cx1_Apass cx1_Astop <= 2 ^ 30 - 1.
Proof.
  destruct cx1_valid as (V & L & [_ O] & _). split; [cbn; lra|]. split; [assumption|].
  replace (exact_order high_pass 12 3 2 cx1_Apass cx1_Astop) with (exact_order low_pass 12 2 3 cx1_Apass cx1_Astop); [lra|].
  unfold exact_order. f_equal. f_equal. destruct tan_12 as (W1 & W2 & _). destruct sqrt3 as [[S1 S2] S3].
  unfold warped in *. rewrite W1, W2. field. lra.
Qed.

Example C62_case := C97_case.
Example C63_case := C97_case.
Example C64_case := C96_case.

(** ** C98: the band-stop design designs nothing *)

Theorem C98_band_stop_is_identity : forall asserts fs fpa fpb fsa fsb Apass Astop,
  fpa < fs / 2 -> fpb < fs / 2 ->
  exists c, chebyshev2_bs asserts fs fpa fpb fsa fsb Apass Astop = Ok c /\
  (let i := dc_info c in ai_N i = 0%Z /\ Forall (fun x => x = 0) [ai_Wpass i; ai_Wstop i; ai_epass i; ai_estop i; ai_Nex i; ai_f3 i; ai_a i]) /\
  forall cap, exists cs, make_biquad_cascade asserts cap c = Ok cs /\
    (forall f, cs_response cs f = Ok (RtoC 1)) /\ (forall x, cs_step R_scalar cs x = Ok (x, cs)).
Proof.
  intros asserts fs fpa fpb fsa fsb Apass Astop H1 H2. unfold chebyshev2_bs, chebyshev2_bs_impl.
  destruct (Rlt_dec fpa (fs / 2)) as [_|]; [|contradiction]. destruct (Rlt_dec fpb (fs / 2)) as [_|]; [|contradiction].
  replace (assert_ asserts true) with (Ok tt) by (unfold assert_; destruct asserts; reflexivity). cbn [bind].
  eexists. split; [reflexivity|]. split; [split; [reflexivity|repeat constructor]|]. intros cap. eexists. split; [reflexivity|]. split; [reflexivity|].
  intros x. reflexivity.
Qed.
Print Assumptions C98_band_stop_is_identity.

Example C98_case : 10 < 100 / 2 /\ 20 < 100 / 2.
Proof. lra. Qed.
