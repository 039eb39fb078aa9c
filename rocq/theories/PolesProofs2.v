(** * Lemmas about construction from zeros and poles with rounding *)

From Coq Require Import ZArith Reals Lra Lia Bool.
From Coquelicot Require Import Complex.
From Flocq Require Import Core Relative Mult_error BinarySingleNaN.
From Verif Require Import Base Ieee IeeeProofs Biquad BiquadSpec BiquadProofs BiquadStability DesignRoundingProofs PolesIeee PolesSpec PolesReal PolesProofs.
Local Open Scope R_scope.

Lemma weak_iff a1 a2 : weakly_stable a1 a2 <-> Rabs a2 <= 1 /\ Rabs a1 <= 1 + a2.
Proof.
  destruct (solve_roots 1 a1 a2 ltac:(lra)) as (p & q & _ & HR). rewrite <- (weak_triangle _ _ _ _ HR). split.
  - intros W. split; apply W; rewrite (HR _); ring.
  - intros [Wp Wq] z E. rewrite (HR z) in E.
    assert (E' : Cmult (Cminus z p) (Cminus z q) = RtoC 0) by (rewrite <- E; ring).
    destruct (Ceq_dec (Cminus z p) (RtoC 0)) as [X|X].
    + replace z with p; [exact Wp|]. rewrite <- (Cplus_0_l p), <- X. ring.
    + destruct (Ceq_dec (Cminus z q) (RtoC 0)) as [Y|Y].
      * replace z with q; [exact Wq|]. rewrite <- (Cplus_0_l q), <- Y. ring.
      * exfalso. exact (Cmult_neq_0 _ _ X Y E').
Qed.

(** A filter all of whose neighbours are stable, or none. *)
Lemma margin_in d a1 a2 : 0 <= d ->
  (forall a1' a2', Rabs (a1' - a1) <= d -> Rabs (a2' - a2) <= d -> weakly_stable a1' a2') ->
  Rabs a1 <= 1 + a2 - d /\ a2 <= 1 - d.
Proof.
  intros D W.
  assert (W1 : weakly_stable a1 (a2 - d)). { apply W; [rewrite Rminus_eq_0, Rabs_R0; lra|]. replace (a2 - d - a2) with (- d) by ring. rewrite Rabs_Ropp, Rabs_pos_eq; lra. }
  assert (W2 : weakly_stable a1 (a2 + d)). { apply W; [rewrite Rminus_eq_0, Rabs_R0; lra|]. replace (a2 + d - a2) with d by ring. rewrite Rabs_pos_eq; lra. }
  apply weak_iff in W1, W2. destruct W1 as [_ W1]. destruct W2 as [W2 _]. apply Rabs_le_inv in W2. lra.
Qed.
Lemma margin_out d a1 a2 : 0 <= d <= 1 / 10 ->
  (forall a1' a2', Rabs (a1' - a1) <= 2 * d -> Rabs (a2' - a2) <= 2 * d -> ~ weakly_stable a1' a2') ->
  1 + a2 + d <= Rabs a1 \/ 1 + d <= a2.
Proof.
  intros D W. destruct (Rle_dec (1 + a2 + d) (Rabs a1)) as [L|L]; [now left|]. destruct (Rle_dec (1 + d) a2) as [L'|L']; [now right|].
  apply Rnot_le_lt in L, L'. exfalso. pose proof (Rabs_pos a1) as P.
  assert (exists c, -1 <= c <= 1 /\ Rabs (c - a2) <= 2 * d /\ Rabs a1 <= 1 + c + 2 * d) as (c & C1 & C2 & C3).
  { destruct (Rle_dec a2 1) as [X|X]; [destruct (Rle_dec (-1) a2) as [Y|Y]|].
    - exists a2. rewrite Rminus_eq_0, Rabs_R0. repeat split; lra.
    - exists (-1). rewrite Rabs_pos_eq by lra. repeat split; lra.
    - exists 1. rewrite Rabs_left1 by lra. repeat split; lra. }
  destruct (Rle_dec (Rabs a1) (1 + c)) as [X|X].
  - apply (W a1 c); auto; [rewrite Rminus_eq_0, Rabs_R0; lra|]. apply weak_iff. split; [apply Rabs_le; lra|lra].
  - apply Rnot_le_lt in X. destruct (Rle_dec 0 a1) as [S1|S1].
    + rewrite Rabs_pos_eq in * by lra. apply (W (1 + c) c); auto; [rewrite Rabs_left1; lra|]. apply weak_iff. split; [apply Rabs_le; lra|]. rewrite Rabs_pos_eq; lra.
    + rewrite Rabs_left1 in * by lra. apply (W (- (1 + c)) c); auto; [rewrite Rabs_pos_eq; lra|]. apply weak_iff. split; [apply Rabs_le; lra|]. rewrite Rabs_Ropp, Rabs_pos_eq; lra.
Qed.

(** The coefficients of a polynomial from its roots. *)
Lemma of_roots a1 a2 x y x' y' : roots_of 1 a1 a2 (x, y) (x', y') ->
  a1 = - (x + x') /\ a2 = x * x' - y * y' /\ y + y' = 0.
Proof.
  intros HR. destruct (vieta _ _ _ _ HR) as [E1 E2]. 
  apply (f_equal fst) in E1 as A. apply (f_equal snd) in E1 as B. apply (f_equal fst) in E2 as C. cbn in A, B, C. lra.
Qed.

Section Zpk.

Context (prec emax : Z) {Hprec : Prec_gt_0 prec} {Hmax : Prec_lt_emax prec emax}.
Context (P24 : (24 <= prec)%Z) (P4 : (4 * prec <= emax)%Z) (E128 : (128 <= emax)%Z).
Notation T := (binary_float prec emax).
Notation emin := (3 - emax - prec)%Z.
Notation u := (bpow radix2 (- prec)).
Notation eta := (bpow radix2 (emin - 1)).
Notation big := (bpow radix2 (emax - 1)).
Local Notation "x [+] y" := (Bplus mode_NE x y) (at level 50, left associativity).
Local Notation "x [-] y" := (Bminus mode_NE x y) (at level 50, left associativity).
Local Notation "x [*] y" := (Bmult mode_NE x y) (at level 40, left associativity).
Local Notation int z := (ieee_of_Z prec emax z).
Context (E : Z) (E8 : (2 * E + 8 <= emax)%Z) (E0 : (0 <= E)%Z).
Notation BH := (bpow radix2 E).

Notation val := (val prec emax).
Notation fin2 := (fin2 prec emax E).

Lemma prod_bound (x y : R) : Rabs x <= BH -> Rabs y <= BH -> Rabs (x * y) <= BH * BH.
Proof. intros. rewrite Rabs_mult. apply Rmult_le_compat; auto using Rabs_pos. Qed.

Lemma is_zero (x : T) : is_finite x = true -> B2R x = 0 -> exists s, x = B754_zero s.
Proof.
  destruct x as [s| | |s m e Hb]; cbn; try discriminate; [eauto|]. intros _ Z. exfalso. revert Z.
  apply F2R_neq_0. cbn. destruct s; discriminate.
Qed.

Lemma coeff2 (z1 z2 : T * T) al1 al2 : fin2 z1 -> fin2 z2 -> roots_of 1 al1 al2 (val z1) (val z2) ->
  real_or_conjugate (val z1, val z2) ->
  let c := ieee_to_coeff2 prec emax (z1, z2) in
  is_finite (fst c) = true /\ is_finite (snd c) = true /\
  Rabs (B2R (fst c) - al1) <= u * Rabs al1 /\ Rabs (B2R (snd c) - al2) <= 3 * u * Rabs al2 + 4 * eta.
Proof.
  intros (Fx & Fy & Bx & By) (Fx' & Fy' & Bx' & By') HR RC. destruct z1 as [x y], z2 as [x' y']. cbn [fst snd] in *. unfold val in HR. cbn [fst snd] in HR.
  destruct (of_roots _ _ _ _ _ _ HR) as (E1 & E2 & E3). clear HR.
  pose proof (HH emax E E8) as G1. pose proof (HH1 E E0) as G2. pose proof (big8 emax) as G3. pose proof (H1 E E0) as G4.
  pose proof (u_range prec P24) as U. pose proof (eta_range prec emax P4 E128) as Et. pose proof (eta_u _ U _ Et) as Eu. pose proof (uu _ U) as UU.
  assert (Dec : (exists s, y = B754_zero s) \/ B2R y <> 0 /\
    ieee_to_coeff2 prec emax ((x, y), (x', y')) = (int (-2) [*] x, x [*] x [+] y [*] y)).
  { destruct y as [s| | |s m e Hb]; try discriminate; [left; eauto|right]. split; [|reflexivity]. cbn. apply F2R_neq_0. cbn. destruct s; discriminate. }
  destruct Dec as [(s & ->)|(Ny & Eq)].
  - (* real *)
    cbn [ieee_to_coeff2 fst snd]. cbn [B2R] in *. rewrite Rmult_0_l, Rminus_0_r in E2.
    assert (Fo : is_finite (Bopp x) = true) by now rewrite is_finite_Bopp.
    destruct (bsub prec emax P24 (Bopp x) x' Fo Fx') as (F1 & V1).
    { rewrite B2R_Bopp. unfold Rminus. eapply Rle_trans; [apply Rabs_triang|]. rewrite !Rabs_Ropp. lra. }
    destruct (bmul prec emax P24 x x' Fx Fx') as (F2 & V2). { pose proof (prod_bound _ _ Bx Bx'). lra. }
    rewrite B2R_Bopp in V1. replace (- B2R x - B2R x') with al1 in V1 by lra. rewrite <- E2 in V2.
    assert (0 <= u * Rabs al2) by (apply Rmult_le_pos; [lra|apply Rabs_pos]).
    split; [exact F1|]. split; [exact F2|]. split; [exact V1|]. lra.
  - (* conjugate *)
    assert (E4 : B2R x' = B2R x /\ B2R y' = - B2R y).
    { destruct RC as [(Z & _)|Cj]; unfold val in *; cbn [fst snd] in *; [contradiction|]. unfold Cconj in Cj. cbn in Cj. injection Cj as -> ->. auto. }
    destruct E4 as (E4 & E5). rewrite E4, E5 in E2. rewrite E4 in E1. rewrite Eq. cbn [fst snd].
    destruct (bmul_pow prec emax P24 E128 1 (-2) x ltac:(lia) ltac:(lia) ltac:(rewrite Rabs_left; cbn; lra) Fx) as (F1 & V1).
    { rewrite Rabs_mult, Rabs_left by lra. lra. }
    destruct (bmul prec emax P24 x x Fx Fx) as (F2 & V2). { pose proof (prod_bound _ _ Bx Bx). lra. }
    destruct (bmul prec emax P24 y y Fy Fy) as (F3 & V3). { pose proof (prod_bound _ _ By By). lra. }
    set (xx := B2R x * B2R x) in *. set (yy := B2R y * B2R y) in *.
    assert (X0 : 0 <= xx) by apply Rle_0_sqr. assert (Y0 : 0 <= yy) by apply Rle_0_sqr.
    assert (X1 : xx <= BH * BH) by (pose proof (prod_bound _ _ Bx Bx) as Q; fold xx in Q; rewrite Rabs_pos_eq in Q; lra).
    assert (Y1 : yy <= BH * BH) by (pose proof (prod_bound _ _ By By) as Q; fold yy in Q; rewrite Rabs_pos_eq in Q; lra).
    rewrite (Rabs_pos_eq xx) in V2 by lra. rewrite (Rabs_pos_eq yy) in V3 by lra. apply Rabs_le_inv in V2, V3.
    assert (Q1 : u * xx <= / 16777216 * xx) by (apply Rmult_le_compat_r; lra).
    assert (Q2 : u * yy <= / 16777216 * yy) by (apply Rmult_le_compat_r; lra).
    assert (Q5 : 0 <= u * xx) by (apply Rmult_le_pos; lra). assert (Q6 : 0 <= u * yy) by (apply Rmult_le_pos; lra).
    set (p := B2R (x [*] x)) in *. set (q := B2R (y [*] y)) in *.
    destruct (badd prec emax P24 (x [*] x) (y [*] y) F2 F3) as (F4 & V4). { fold p q. apply Rabs_le. lra. }
    fold p q in V4.
    assert (A2 : al2 = xx + yy) by (rewrite E2; unfold xx, yy; ring). clear E2. subst al2. set (al2 := xx + yy) in *. assert (A2 : u * al2 = u * xx + u * yy) by (unfold al2; ring). assert (A3 : al2 = xx + yy) by reflexivity.
    assert (Pq : Rabs (p + q) <= (1 + u) * al2 + 2 * eta) by (apply Rabs_le; lra).
    assert (Q3 : u * Rabs (p + q) <= u * ((1 + u) * al2 + 2 * eta)) by (apply Rmult_le_compat_l; lra).
    assert (Q4 : u * u * al2 <= u / 16777216 * al2) by (apply Rmult_le_compat_r; lra).
    assert (Q7 : u * eta <= / 16777216 * eta) by (apply Rmult_le_compat_r; lra).
    split; [exact F1|]. split; [exact F4|]. split.
    + rewrite V1, E1. replace (-2 * B2R x - - (B2R x + B2R x)) with 0 by ring. rewrite Rabs_R0. apply Rmult_le_pos; [lra|apply Rabs_pos].
    + apply Rabs_le_inv in V4. rewrite (Rabs_pos_eq al2) by lra. apply Rabs_le. lra.
Qed.

(** ** Poles well inside *)
Lemma inside_real x x' e : 0 <= e <= 1 -> Rabs x <= 1 - e -> Rabs x' <= 1 - e -> e * e <= 1 + x * x' - Rabs (x + x') /\ Rabs (x * x') <= 1 - e.
Proof.
  intros H A B. apply Rabs_le_inv in A, B. split.
  - assert (e * e <= (1 - x) * (1 - x')) by (apply Rmult_le_compat; lra).
    assert (e * e <= (1 + x) * (1 + x')) by (apply Rmult_le_compat; lra). unfold Rabs. destruct Rcase_abs; lra.
  - assert (Rabs x * Rabs x' <= (1 - e) * 1). { apply Rmult_le_compat; try apply Rabs_pos; apply Rabs_le; lra. }
    rewrite Rabs_mult. lra.
Qed.
Lemma inside_conj x y e : 0 <= e <= 1 -> Cmod (x, y) <= 1 - e -> e * e <= 1 + (x * x + y * y) - Rabs (x + x) /\ Rabs (x * x + y * y) <= 1 - e.
Proof.
  intros H A. pose proof (Cmod_ge_0 (x, y)) as P. assert (S2 : Cmod (x, y) * Cmod (x, y) = x * x + y * y).
  { unfold Cmod. cbn [fst snd]. rewrite sqrt_sqrt; [ring|]. pose proof (Rle_0_sqr x). pose proof (Rle_0_sqr y). unfold Rsqr in *. lra. }
  assert (X : Rabs x <= Cmod (x, y)).
  { pose proof (Rmax_Cmod (x, y)) as M. cbn [fst snd] in M. eapply Rle_trans; [apply Rmax_l|exact M]. }
  rewrite <- S2. set (r := Cmod (x, y)) in *. split.
  - assert (e * e <= (1 - r) * (1 - r)) by (apply Rmult_le_compat; lra).
    assert (Rabs (x + x) <= 2 * r). { eapply Rle_trans; [apply Rabs_triang|]. lra. } lra.
  - rewrite Rabs_pos_eq by (apply Rle_0_sqr). assert (r * r <= (1 - e) * 1) by (apply Rmult_le_compat; lra). lra.
Qed.

Context (sqrtC : T * T -> T * T) (absC : T * T -> T).
Context (Sok : csqrt_ok prec emax sqrtC) (Aok : cabs_ok prec emax absC).

Lemma zpk_stable (z1 z2 p1 p2 : T * T) k e : (2 <= E)%Z -> fin2 p1 -> fin2 p2 -> real_or_conjugate (val p1, val p2) ->
  0 <= e <= 1 -> 40 * u <= e * e -> Cmod (val p1) <= 1 - e -> Cmod (val p2) <= 1 - e ->
  ieee_is_stable prec emax sqrtC absC (ieee_biquad_zpk prec emax (z1, z2) (p1, p2) k) = true.
Proof.
  intros E2 Fp Fq RC He1 He2 Mp Mq. assert (B1 : 4 <= BH) by (change 4 with (bpow radix2 2); apply bpow_le; lia).
  pose proof (u_range prec P24) as U. pose proof (eta_range prec emax P4 E128) as Et. pose proof (eta_u _ U _ Et) as Eu.
  set (al1 := - (fst (val p1) + fst (val p2))). set (al2 := fst (val p1) * fst (val p2) - snd (val p1) * snd (val p2)).
  assert (Z0 : snd (val p1) + snd (val p2) = 0 /\ fst (val p1) * snd (val p2) + snd (val p1) * fst (val p2) = 0).
  { destruct RC as [(Z1 & Z2)|Cj]; cbn [fst snd] in *; [rewrite Z1, Z2; lra|]. rewrite Cj. unfold Cconj. cbn. lra. }
  assert (HR : roots_of 1 al1 al2 (val p1) (val p2)).
  { intros [a b]. unfold quadratic, al1, al2. destruct (val p1) as [x y], (val p2) as [x' y']. cbn [fst snd] in *. destruct Z0 as (Z0 & Z1).
    assert (y' = - y) by lra. subst y'. unfold Cmult, Cminus, Cplus, Copp, RtoC. cbn. f_equal; nra. }
  destruct (coeff2 p1 p2 al1 al2 Fp Fq HR RC) as (F1 & F2 & V1 & V2).
  assert (In : e * e <= 1 + al2 - Rabs al1 /\ Rabs al2 <= 1 - e).
  { unfold al1, al2. rewrite Rabs_Ropp. destruct RC as [(Z1 & Z2)|Cj]; cbn [fst snd] in *.
    - rewrite Z1, Z2, Rmult_0_l, Rminus_0_r.
      assert (A1 : Rabs (fst (val p1)) <= 1 - e) by (eapply Rle_trans; [|exact Mp]; eapply Rle_trans; [apply Rmax_l|apply (Rmax_Cmod (val p1))]).
      assert (A2 : Rabs (fst (val p2)) <= 1 - e) by (eapply Rle_trans; [|exact Mq]; eapply Rle_trans; [apply Rmax_l|apply (Rmax_Cmod (val p2))]).
      destruct (inside_real _ _ e He1 A1 A2). lra.
    - rewrite Cj. unfold Cconj. cbn [fst snd]. replace (val p1) with (fst (val p1), snd (val p1)) in Mp by (destruct (val p1); reflexivity).
      destruct (inside_conj _ _ e He1 Mp) as (I1 & I2).
      replace (fst (val p1) * fst (val p1) - snd (val p1) * - snd (val p1)) with (fst (val p1) * fst (val p1) + snd (val p1) * snd (val p1)) by ring. lra. }
  destruct In as (I1 & I2).
  pose proof (Rabs_pos al1) as P1. pose proof (Rabs_pos al2) as P2. pose proof (Rle_abs al2) as P3.
  assert (Q1 : u * Rabs al1 <= u * 2) by (apply Rmult_le_compat_l; lra).
  assert (Q2 : u * Rabs al2 <= u * 1) by (apply Rmult_le_compat_l; lra).
  set (c := ieee_to_coeff2 prec emax (p1, p2)) in *.
  assert (N1 : Rabs (B2R (fst c)) <= Rabs al1 + 2 * u).
  { replace (B2R (fst c)) with ((B2R (fst c) - al1) + al1) by ring. eapply Rle_trans; [apply Rabs_triang|]. lra. }
  apply Rabs_le_inv in V2 as V2'.
  assert (N2 : Rabs (B2R (snd c)) <= 1).
  { assert (e * e <= e * 1) by (apply Rmult_le_compat_l; lra). pose proof (Rabs_le_inv _ _ I2). apply Rabs_le. lra. }
  unfold ieee_biquad_zpk. fold c. assert (e * e <= e * 1) by (apply Rmult_le_compat_l; lra).
  apply Rabs_le_inv in I2 as I2'.
  apply (test_in prec emax P24 P4 E128 sqrtC absC Sok Aok E E8 E0); auto; lra.
Qed.

End Zpk.
