(** * Auxiliary: theorems on poles in a generic precision, and correctly rounded functions *)

From Coq Require Import ZArith Reals Lra Lia Bool.
From Coquelicot Require Import Complex.
From Flocq Require Import Core BinarySingleNaN.
From Verif Require Import Base Ieee IeeeProofs Biquad BiquadSpec BiquadProofs DesignRoundingProofs DesignRoundingProofs2 PolesIeee PolesSpec PolesReal PolesProofs PolesProofs2.
Local Open Scope R_scope.

Section Generic.

Context (prec emax : Z) {Hprec : Prec_gt_0 prec} {Hmax : Prec_lt_emax prec emax}.
Context (P24 : (24 <= prec)%Z) (P4 : (4 * prec <= emax)%Z) (E128 : (128 <= emax)%Z).
Context (E : Z) (E8 : (2 * E + 8 <= emax)%Z) (E2 : (2 <= E)%Z).
Notation T := (binary_float prec emax).
Notation emin := (3 - emax - prec)%Z.
Notation u := (bpow radix2 (- prec)).
Notation eta := (bpow radix2 (emin - 1)).
Notation int z := (ieee_of_Z prec emax z).

Lemma test sqrtC absC (bq : biquad T) : csqrt_ok prec emax sqrtC -> cabs_ok prec emax absC ->
  is_finite (a1 (bq_a bq)) = true -> is_finite (a2 (bq_a bq)) = true ->
  Rabs (B2R (a1 (bq_a bq))) <= bpow radix2 E -> Rabs (B2R (a2 (bq_a bq))) <= bpow radix2 E ->
  ((forall c1 c2, Rabs (c1 - B2R (a1 (bq_a bq))) <= 32 * u -> Rabs (c2 - B2R (a2 (bq_a bq))) <= 32 * u -> weakly_stable c1 c2) ->
   ieee_is_stable prec emax sqrtC absC bq = true) /\
  ((forall c1 c2, Rabs (c1 - B2R (a1 (bq_a bq))) <= 64 * u -> Rabs (c2 - B2R (a2 (bq_a bq))) <= 64 * u -> ~ weakly_stable c1 c2) ->
   ieee_is_stable prec emax sqrtC absC bq = false).
Proof.
  intros Sok Aok F1 F2 B1 B2. destruct bq as [[c1 c2] bb w]. cbn [bq_a a1 a2] in *. pose proof (u_range prec P24) as U. assert (E0 : (0 <= E)%Z) by lia. split.
  - intros W. destruct (margin_in (32 * u) _ _ ltac:(lra) W) as (M1 & M2).
    apply (test_in prec emax P24 P4 E128 sqrtC absC Sok Aok E E8 E0); assumption.
  - intros W. apply (test_out prec emax P24 P4 E128 sqrtC absC Sok Aok E E8 E0); auto. apply margin_out; [lra|].
    intros d1 d2 D1 D2. apply W; lra.
Qed.

Lemma zpk (z p : (T * T) * (T * T)) (k : T) zl1 zl2 pl1 pl2 :
  fin2 prec emax E (fst z) -> fin2 prec emax E (snd z) -> fin2 prec emax E (fst p) -> fin2 prec emax E (snd p) ->
  is_finite k = true -> Rabs (B2R k) <= 1 ->
  real_or_conjugate (val prec emax (fst z), val prec emax (snd z)) -> real_or_conjugate (val prec emax (fst p), val prec emax (snd p)) ->
  roots_of 1 zl1 zl2 (val prec emax (fst z)) (val prec emax (snd z)) -> roots_of 1 pl1 pl2 (val prec emax (fst p)) (val prec emax (snd p)) ->
  let bq := ieee_biquad_zpk prec emax z p k in
  bq_w bq = {| v1 := B754_zero false; v2 := B754_zero false |} /\ b0 (bq_b bq) = k /\
  Rabs (B2R (b1 (bq_b bq)) - B2R k * zl1) <= 3 * u * Rabs (B2R k * zl1) + 8 * eta /\
  Rabs (B2R (b2 (bq_b bq)) - B2R k * zl2) <= 5 * u * Rabs (B2R k * zl2) + 8 * eta /\
  Rabs (B2R (a1 (bq_a bq)) - pl1) <= u * Rabs pl1 /\
  Rabs (B2R (a2 (bq_a bq)) - pl2) <= 3 * u * Rabs pl2 + 8 * eta.
Proof.
  destruct z as [z1 z2], p as [p1 p2]. cbn [fst snd]. intros Fz1 Fz2 Fp1 Fp2 Fk Bk RZ RP HZ HP.
  assert (E0 : (0 <= E)%Z) by lia.
  pose proof (u_range prec P24) as U. pose proof (eta_range prec emax P4 E128) as Et. pose proof (eta_u _ U _ Et) as Eu. pose proof (uu _ U) as UU.
  pose proof (HH emax E E8) as G1. pose proof (HH1 E E0) as G2. pose proof (big8 emax) as G3. pose proof (H1 E E0) as G4.
  destruct (coeff2 prec emax P24 P4 E128 E E8 E0 z1 z2 zl1 zl2 Fz1 Fz2 HZ RZ) as (F1 & F2 & V1 & V2).
  destruct (coeff2 prec emax P24 P4 E128 E E8 E0 p1 p2 pl1 pl2 Fp1 Fp2 HP RP) as (_ & _ & V3 & V4).
  set (c := ieee_to_coeff2 prec emax (z1, z2)) in *.
  assert (L : Rabs zl1 <= 2 * bpow radix2 E /\ Rabs zl2 <= 2 * (bpow radix2 E * bpow radix2 E)).
  { destruct Fz1 as (_ & _ & X1 & Y1). destruct Fz2 as (_ & _ & X2 & Y2). unfold val in HZ. destruct (of_roots _ _ _ _ _ _ HZ) as (-> & -> & _). split.
    - rewrite Rabs_Ropp. eapply Rle_trans; [apply Rabs_triang|]. lra.
    - unfold Rminus. eapply Rle_trans; [apply Rabs_triang|]. rewrite Rabs_Ropp.
      pose proof (prod_bound E _ _ X1 X2). pose proof (prod_bound E _ _ Y1 Y2). lra. }
  destruct L as (L1 & L2).
  assert (K : forall (x : T) al n, (0 <= n <= 4)%R -> is_finite x = true -> Rabs (B2R x - al) <= n * u * Rabs al + 4 * eta -> Rabs al <= 2 * (bpow radix2 E * bpow radix2 E) ->
    is_finite (Bmult mode_NE k x) = true /\ Rabs (B2R (Bmult mode_NE k x) - B2R k * al) <= (n + 2) * u * Rabs (B2R k * al) + 8 * eta).
  { intros x al n N Fx V L. pose proof (Rabs_pos al) as Pa.
    assert (Q1 : u * Rabs al <= / 16777216 * Rabs al) by (apply Rmult_le_compat_r; lra).
    assert (Q0 : 0 <= u * Rabs al) by (apply Rmult_le_pos; lra).
    assert (Q2 : n * (u * Rabs al) <= 4 * (u * Rabs al)) by (apply Rmult_le_compat_r; lra).
    assert (Ax : Rabs (B2R x) <= 3 * (bpow radix2 E * bpow radix2 E)).
    { replace (B2R x) with ((B2R x - al) + al) by ring. eapply Rle_trans; [apply Rabs_triang|]. lra. }
    pose proof (Rabs_pos (B2R k)) as Pk. pose proof (Rabs_pos (B2R x)) as Px.
    assert (Akx : Rabs (B2R k * B2R x) <= 1 * (3 * (bpow radix2 E * bpow radix2 E))) by (rewrite Rabs_mult; apply Rmult_le_compat; lra).
    destruct (bmul prec emax P24 k x Fk Fx ltac:(lra)) as (F & W). split; [exact F|].
    set (r := B2R (Bmult mode_NE k x)) in *. set (kk := B2R k) in *. set (xx := B2R x) in *.
    assert (D1 : Rabs (kk * xx - kk * al) <= n * u * Rabs (kk * al) + 4 * eta).
    { replace (kk * xx - kk * al) with (kk * (xx - al)) by ring. rewrite !Rabs_mult.
      assert (Rabs kk * Rabs (xx - al) <= Rabs kk * (n * u * Rabs al + 4 * eta)) by (apply Rmult_le_compat_l; lra).
      assert (Rabs kk * eta <= 1 * eta) by (apply Rmult_le_compat_r; lra). lra. }
    assert (A2 : Rabs (kk * xx) <= Rabs (kk * al) + (n * u * Rabs (kk * al) + 4 * eta)).
    { replace (kk * xx) with ((kk * xx - kk * al) + kk * al) by ring. eapply Rle_trans; [apply Rabs_triang|]. rewrite (Rabs_mult kk al) in *. rewrite <- (Rabs_mult kk al) in *. lra. }
    set (m := Rabs (kk * al)) in *. assert (Pm : 0 <= m) by apply Rabs_pos.
    assert (Q3 : u * Rabs (kk * xx) <= u * (m + (n * u * m + 4 * eta))) by (apply Rmult_le_compat_l; lra).
    assert (Q4 : 0 <= u * m) by (apply Rmult_le_pos; lra).
    assert (Q5 : u * u * m <= u / 16777216 * m) by (apply Rmult_le_compat_r; lra).
    assert (Q6 : 0 <= u * u * m) by (apply Rmult_le_pos; [apply Rle_0_sqr|lra]).
    assert (Q7 : n * (u * u * m) <= 4 * (u * u * m)) by (apply Rmult_le_compat_r; lra).
    assert (Q8 : u * eta <= / 16777216 * eta) by (apply Rmult_le_compat_r; lra).
    replace (r - kk * al) with ((r - kk * xx) + (kk * xx - kk * al)) by ring. eapply Rle_trans; [apply Rabs_triang|]. lra. }
  destruct (K (fst c) zl1 1 ltac:(lra) F1 ltac:(lra) ltac:(lra)) as (_ & K1).
  destruct (K (snd c) zl2 3 ltac:(lra) F2 ltac:(lra) ltac:(lra)) as (_ & K2).
  replace (1 + 2) with 3 in K1 by ring. replace (3 + 2) with 5 in K2 by ring.
  unfold ieee_biquad_zpk. fold c. cbn [bq_b bq_a bq_w b0 b1 b2 a1 a2].
  split; [reflexivity|]. split; [reflexivity|]. split; [exact K1|]. split; [exact K2|]. split; [exact V3|]. lra.
Qed.

(** Correctly rounded functions. *)
Definition lib_sqrt (z : T * T) : T * T :=
  if Rle_dec 0 (B2R (fst z)) then (flt_of prec emax (sqrt (B2R (fst z))), int 0) else (int 0, flt_of prec emax (sqrt (- B2R (fst z)))).
Definition lib_abs (z : T * T) : T := flt_of prec emax (Cmod (B2R (fst z), B2R (snd z))).

Lemma big_sqrt x : 0 <= x <= bpow radix2 (emax - 4) -> 0 <= sqrt x <= bpow radix2 (emax - 1).
Proof.
  intros H. split; [apply sqrt_pos|]. pose proof (big8 emax) as G3.
  assert (1 <= bpow radix2 (emax - 1)) by (change 1 with (bpow radix2 0); apply bpow_le; lia).
  rewrite <- (sqrt_square (bpow radix2 (emax - 1))) by lra. apply sqrt_le_1_alt.
  assert (bpow radix2 (emax - 1) * 1 <= bpow radix2 (emax - 1) * bpow radix2 (emax - 1)) by (apply Rmult_le_compat_l; lra). pose proof (bpow_gt_0 radix2 (emax - 4)). lra.
Qed.
Lemma round_sqrt (f : T) x : B2R f = x \/ B2R f = - x -> 0 <= x ->
  Rabs (round radix2 (FLT_exp emin prec) ZnearestE (sqrt x) - sqrt x) <= 2 * u * sqrt x.
Proof.
  intros F B. pose proof (u_range prec P24) as U. pose proof (sqrt_pos x) as S. destruct (Rle_lt_dec x 0) as [L|L].
  - replace x with 0 by lra. rewrite sqrt_0, round_0 by apply valid_rnd_N. rewrite Rminus_0_r, Rabs_R0. lra.
  - assert (G : generic_format radix2 (FLT_exp emin prec) x).
    { destruct F as [F|F]; [rewrite <- F; apply fin_format|]. replace x with (- B2R f) by lra. apply generic_format_opp, fin_format. }
    assert (L1 : bpow radix2 emin <= x).
    { apply (generic_format_ge_bpow radix2 (FLT_exp emin prec)); [intros e; unfold FLT_exp; lia|exact L|exact G]. }
    assert (L2 : bpow radix2 (2 - emax) <= sqrt x).
    { rewrite <- (sqrt_square (bpow radix2 (2 - emax))) by apply bpow_ge_0. apply sqrt_le_1_alt. rewrite <- bpow_plus.
      eapply Rle_trans; [|exact L1]. apply bpow_le. lia. }
    pose proof (@rel_err prec emax Hprec (sqrt x) L2) as R. assert (0 <= u * sqrt x) by (apply Rmult_le_pos; lra). lra.
Qed.
Lemma Cmod_big x y : Rabs x <= bpow radix2 (emax - 4) -> Rabs y <= bpow radix2 (emax - 4) -> 0 <= Cmod (x, y) <= bpow radix2 (emax - 1).
Proof.
  intros Bx By. split; [apply Cmod_ge_0|].
  replace (x, y) with (Cplus (RtoC x) (Cmult Ci (RtoC y))) by (unfold Cplus, Cmult, RtoC, Ci; cbn; f_equal; ring).
  eapply Rle_trans; [apply Cmod_triangle|]. rewrite Cmod_mult, !Cmod_R.
  replace (Cmod Ci) with 1. 2: { unfold Cmod, Ci. cbn. replace (0 * (0 * 1) + 1 * (1 * 1)) with 1 by ring. now rewrite sqrt_1. }
  pose proof (big8 emax) as G3. pose proof (bpow_gt_0 radix2 (emax - 4)). lra.
Qed.
Lemma lib_best : csqrt_best prec emax lib_sqrt /\ cabs_best prec emax lib_abs.
Proof.
  destruct (int_val prec emax P24 E128 0 ltac:(cbn; lia)) as (Z0 & FZ0). split.
  - intros x y Fx Fy Ey B. unfold lib_sqrt. cbn [fst snd]. apply Rabs_le_inv in B. destruct (Rle_dec 0 (B2R x)) as [L|L]; cbn [fst snd].
    + pose proof (big_sqrt (B2R x) ltac:(lra)) as S. destruct (flt_of_correct prec emax P24 (sqrt (B2R x))) as (F & V); [rewrite Rabs_pos_eq; lra|]. auto.
    + apply Rnot_le_lt in L. pose proof (big_sqrt (- B2R x) ltac:(lra)) as S.
      destruct (flt_of_correct prec emax P24 (sqrt (- B2R x))) as (F & V); [rewrite Rabs_pos_eq; lra|]. auto.
  - intros x y Fx Fy Bx By. unfold lib_abs. cbn [fst snd]. pose proof (Cmod_big _ _ Bx By) as M.
    apply (flt_of_correct prec emax P24). rewrite Rabs_pos_eq; lra.
Qed.
Lemma best_ok sqrtC absC : csqrt_best prec emax sqrtC -> cabs_best prec emax absC -> csqrt_ok prec emax sqrtC /\ cabs_ok prec emax absC.
Proof.
  intros HS HA. pose proof (u_range prec P24) as U. pose proof (eta_range prec emax P4 E128) as Et. pose proof (eta_u _ U _ Et) as Eu. split.
  - intros x y Fx Fy Ey B. specialize (HS x y Fx Fy Ey B). destruct (Rle_dec 0 (B2R x)) as [L|L]; cbn [fst snd].
    + destruct HS as (F1 & F2 & -> & V). pose proof (round_sqrt x (B2R x) ltac:(now left) L). auto.
    + destruct HS as (F1 & F2 & V & ->). pose proof (round_sqrt x (- B2R x) ltac:(right; ring) ltac:(lra)). auto.
  - intros x y Fx Fy Bx By m. destruct (HA x y Fx Fy Bx By) as (F & V). split; [exact F|]. rewrite V. fold m.
    pose proof (Cmod_big _ _ Bx By) as M. fold m in M.
    eapply Rle_trans; [apply (@mult_err prec emax Hprec)|]. rewrite Rabs_pos_eq by lra.
    assert (0 <= u * m) by (apply Rmult_le_pos; lra). lra.
Qed.

End Generic.
