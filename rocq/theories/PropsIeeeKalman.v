(** * The estimator in IEEE arithmetic

    C131 and C132 of properties.jsonl. *)

From Coq Require Import Reals List Lra Lia ZArith Bool.
From Flocq Require Import Core Relative Plus_error IEEE754.BinarySingleNaN.
From Verif Require Import Base Matrix MatrixProofs Kalman KalmanProofs KalmanSim PropsKalmanSim Ieee IeeeProofs KalmanIeee.
Import ListNotations.

Section Numbers.

Context (prec emax : Z) {Hprec : Prec_gt_0 prec} {Hmax : Prec_lt_emax prec emax}.
Notation num := (binary_float prec emax).
Notation nzero := (@B754_zero prec emax true).
Notation pzero := (@B754_zero prec emax false).

Lemma zero_sign (x : num) : is_finite x = true -> B2R x = 0%R -> x = B754_zero (Bsign x).
Proof.
  destruct x as [s| | |s m e B]; try discriminate; [reflexivity|]. intros _ E.
  cbn [B2R] in E. apply eq_0_F2R in E. destruct s; discriminate.
Qed.

Lemma neg_value (x : num) : is_finite x = true -> Bsign x = true -> (B2R x <= 0)%R.
Proof.
  destruct x as [s| | |s m e B]; try discriminate; intros _ H; cbn [Bsign] in H; cbn [B2R].
  - lra.
  - subst s. apply F2R_le_0. cbn. lia.
Qed.

(** A sum is -0 only if both terms are. *)
Lemma plus_not_nzero (a b : num) : a <> nzero -> Bplus mode_NE a b <> nzero.
Proof.
  intros Ha.
  destruct (is_finite a) eqn:Fa; [destruct (is_finite b) eqn:Fb|].
  - pose proof (Bplus_correct prec emax Hprec Hmax mode_NE a b Fa Fb) as C.
    change (round_mode mode_NE) with ZnearestE in C.
    destruct (Rlt_bool _ _).
    + destruct C as (E & F & Sg). intros Z. rewrite Z in E, Sg. cbn [B2R Bsign] in E, Sg.
      assert (Sum : (B2R a + B2R b = 0)%R).
      { destruct (Req_dec (B2R a + B2R b) 0) as [X|X]; [exact X|exfalso].
        symmetry in E. revert E.
        change (SpecFloat.fexp prec emax) with (FLT_exp (3 - emax - prec) prec).
        apply round_plus_neq_0; [typeclasses eauto..|apply fin_format|apply fin_format|exact X]. }
      rewrite Sum, Rcompare_Eq in Sg by reflexivity. symmetry in Sg. apply andb_prop in Sg as [Sa Sb].
      pose proof (neg_value a Fa Sa). pose proof (neg_value b Fb Sb).
      apply Ha. rewrite (zero_sign a Fa) by lra. now rewrite Sa.
    + destruct C as (E & _). intros Z. rewrite Z in E. cbn in E. destruct (Bsign a); discriminate.
  - destruct a as [s|s| |s m e B]; try discriminate; destruct b as [s'|s'| |s' m' e' B']; try discriminate.
  - destruct a as [s|s| |s m e B]; try discriminate; destruct b as [s'|s'| |s' m' e' B']; try discriminate.
    destruct s, s'; discriminate.
Qed.

Lemma minus_self (a : num) : is_finite a = true -> Bminus mode_NE a a = pzero.
Proof.
  intros F. pose proof (Bminus_correct prec emax Hprec Hmax mode_NE a a F F) as C.
  change (round_mode mode_NE) with ZnearestE in C. replace (B2R a - B2R a)%R with 0%R in C by ring.
  rewrite round_0, Rabs_R0 in C by apply valid_rnd_N.
  rewrite Rlt_bool_true in C by apply bpow_gt_0. rewrite Rcompare_Eq in C by reflexivity.
  destruct C as (E & F' & Sg). rewrite (zero_sign _ F' E), Sg. destruct (Bsign a); reflexivity.
Qed.

Lemma minus_self_nan (a : num) : is_finite a = false -> Bminus mode_NE a a = B754_nan.
Proof. destruct a as [s|s| |s m e B]; try discriminate; intros _; [destruct s|]; reflexivity. Qed.

Lemma mult_pzero (a : num) : Bmult mode_NE a pzero = B754_nan \/ exists s, Bmult mode_NE a pzero = B754_zero s.
Proof. destruct a as [s|s| |s m e B]; cbn; eauto. Qed.

Lemma plus_any_zero (a : num) s : a <> nzero -> Bplus mode_NE a (B754_zero s) = a.
Proof.
  intros H. destruct a as [s'|s'| |s' m e B]; try reflexivity.
  destruct s'; [congruence|]. destruct s; reflexivity.
Qed.

Lemma plus_nan_l (a : num) : Bplus mode_NE B754_nan a = B754_nan.
Proof. reflexivity. Qed.
Lemma plus_nan_r (a : num) : Bplus mode_NE a B754_nan = B754_nan.
Proof. destruct a; reflexivity. Qed.
Lemma mult_nan_r (a : num) : Bmult mode_NE a B754_nan = B754_nan.
Proof. destruct a; reflexivity. Qed.

End Numbers.

(** ** C131: with perfect data the estimate is exact, bit by bit *)

Section Track.

Context (prec emax : Z) {Hprec : Prec_gt_0 prec} {Hmax : Prec_lt_emax prec emax}.
Notation num := (binary_float prec emax).
Notation S := (ieee_scalar prec emax).
Notation "a + b" := (Bplus mode_NE a b).
Notation "a * b" := (Bmult mode_NE a b).
Notation pzero := (@B754_zero prec emax false).

Lemma mul_mv_22_inv (A x : matrix num) m : mul_mv S 2 2 A x = Ok m ->
  exists a00 a01 a10 a11 x0 x1, at1 1 x 0 = Ok x0 /\ at1 1 x 1 = Ok x1 /\
  m = [Some (pzero + a00 * x0 + a01 * x1); Some (pzero + a10 * x0 + a11 * x1)].
Proof.
  unfold mul_mv. change (mat_fill S 2 1 (sc_zero S)) with
    (Ok [Some (sc_zero S); Some (sc_zero S)]). rewrite bind_Ok.
  change (rows 2 2) with 2%nat. change (columns 2 2) with 2%nat.
  unfold for_. cbn [for_from]. intros H.
  apply bind_inv in H as (m1 & H1 & H).
  apply bind_inv in H1 as (n1 & G1 & H1). apply bind_inv in H1 as (n2 & G2 & H1).
  injection H1 as <-.
  apply bind_inv in H as (m2 & H2 & H). injection H as <-.
  apply bind_inv in H2 as (n3 & G3 & H2). apply bind_inv in H2 as (n4 & G4 & H2).
  injection H2 as <-.
  apply bind_inv in G1 as (a00 & _ & G1). apply bind_inv in G1 as (x0 & X0 & G1).
  apply bind_inv in G2 as (a01 & _ & G2). apply bind_inv in G2 as (x1 & X1 & G2).
  apply bind_inv in G3 as (a10 & _ & G3). apply bind_inv in G3 as (x0' & X0' & G3).
  apply bind_inv in G4 as (a11 & _ & G4). apply bind_inv in G4 as (x1' & X1' & G4).
  cbn [Z.of_nat] in X0, X1, X0', X1'. change (Z.of_nat 1) with 1%Z in *.
  assert (x0' = x0) by congruence. assert (x1' = x1) by congruence. subst x0' x1'.
  exists a00, a01, a10, a11, x0, x1. split; [exact X0|]. split; [exact X1|].
  cbn [sc_mul sc_add ieee_scalar] in *. rewrite bind_Ok in *.
  change (Ok [Some ((pzero + a00 * x0)); Some pzero] = Ok n1) in G1. apply Ok_inj in G1. subst n1.
  change (Ok [Some ((pzero + a00 * x0 + a01 * x1)); Some pzero] = Ok n2) in G2. apply Ok_inj in G2. subst n2.
  change (Ok [Some ((pzero + a00 * x0 + a01 * x1)); Some (pzero + a10 * x0)] = Ok n3) in G3. apply Ok_inj in G3. subst n3.
  change (Ok [Some ((pzero + a00 * x0 + a01 * x1)); Some (pzero + a10 * x0 + a11 * x1)] = Ok n4) in G4. apply Ok_inj in G4. subst n4.
  reflexivity.
Qed.

Definition nan_free (m : matrix num) : Prop := forall v, In (Some v) m -> v <> B754_nan.

Lemma predict_inv U prm x u xp : predict_x S U prm x u = Ok xp ->
  exists x0 x1 s0 s1, at1 1 x 0 = Ok x0 /\ at1 1 x 1 = Ok x1 /\ xp = [Some s0; Some s1] /\
  s0 <> B754_zero true /\ s1 <> B754_zero true /\
  (x0 = B754_nan \/ x1 = B754_nan -> s0 = B754_nan /\ s1 = B754_nan).
Proof.
  unfold predict_x. intros H.
  apply bind_inv in H as (Ax & EA & H). apply bind_inv in H as (Bu & _ & H).
  apply mul_mv_22_inv in EA as (a00 & a01 & a10 & a11 & x0 & x1 & X0 & X1 & ->).
  apply add_mm_21_inv in H as (c0 & c1 & b0 & b1 & s0 & s1 & C0 & C1 & _ & _ & S0 & S1 & ->).
  change (Ok (pzero + a00 * x0 + a01 * x1) = Ok c0) in C0. apply Ok_inj in C0. subst c0.
  change (Ok (pzero + a10 * x0 + a11 * x1) = Ok c1) in C1. apply Ok_inj in C1. subst c1.
  cbn [sc_add ieee_scalar] in S0, S1. apply Ok_inj in S0, S1.
  exists x0, x1, s0, s1. split; [exact X0|]. split; [exact X1|]. split; [reflexivity|].
  subst s0 s1. split; [|split].
  - do 3 apply plus_not_nzero. discriminate.
  - do 3 apply plus_not_nzero. discriminate.
  - intros [-> | ->]; rewrite !mult_nan_r, ?plus_nan_r; auto.
Qed.

Lemma correct_inv prm K s0 s1 z x' : correct_x_1 S prm K [Some s0; Some s1] [Some z] = Ok x' ->
  exists k0 k1 y, x' = [Some (s0 + k0 * y); Some (s1 + k1 * y)] /\
  exists hx, dot S 2 (kH prm) [Some s0; Some s1] = Ok hx /\ y = Bminus mode_NE z hx.
Proof.
  unfold correct_x_1. intros H. apply bind_inv in H as (hx & EH & H).
  apply bind_inv in H as (y & Hy & H). apply bind_inv in H as (Ky & HK & H).
  apply mul_ms_21_inv in HK as (k0 & k1 & p0 & p1 & _ & _ & P0 & P1 & ->).
  apply add_mm_21_inv in H as (c0 & c1 & d0 & d1 & r0 & r1 & A0 & A1 & B0 & B1 & R0 & R1 & ->).
  change (Ok s0 = Ok c0) in A0. change (Ok s1 = Ok c1) in A1.
  change (Ok p0 = Ok d0) in B0. change (Ok p1 = Ok d1) in B1.
  cbn [sc_add sc_mul ieee_scalar] in *. apply Ok_inj in A0, A1, B0, B1, P0, P1, R0, R1. subst.
  exists k0, k1, y. split; [reflexivity|]. exists hx. split; [exact EH|].
  change (Ok (Bminus mode_NE z hx) = Ok y) in Hy. apply Ok_inj in Hy. auto.
Qed.

Lemma update_inv U prm st u z st1 : update S 1 U prm st u z = Ok st1 ->
  exists K xp, predict_x S U prm (kx st) u = Ok xp /\ correct_x_1 S prm K xp z = Ok (kx st1).
Proof.
  unfold update. intros H.
  apply bind_inv in H as (t & _ & H). apply bind_inv in H as (xp & EX & H).
  apply bind_inv in H as (P & _ & H). apply bind_inv in H as (K & _ & H).
  apply bind_inv in H as (xc & EC & H). apply bind_inv in H as (P' & _ & H).
  apply Ok_inj in H. subst st1. cbn [kx]. exists K, xp. auto.
Qed.

(** Once the estimate contains a nan, it does so for ever. *)
Lemma nan_stays U prm us x : forall h x' st st', simulate S U prm x us = Ok (h, x') ->
  run S 1 U prm st h = Ok st' -> nan_free (kx st') -> us <> [] ->
  forall x0 x1, at1 1 (kx st) 0 = Ok x0 -> at1 1 (kx st) 1 = Ok x1 ->
  x0 <> B754_nan /\ x1 <> B754_nan.
Proof.
  revert x. induction us as [|u us IH]; [congruence|].
  intros x h x' st st' HS HR NF _ x0 x1 X0 X1.
  cbn [simulate] in HS.
  apply bind_inv in HS as (Ax & EA & HS). apply bind_inv in HS as (Bu & EB & HS).
  apply bind_inv in HS as (x2 & E1 & HS). apply bind_inv in HS as (z & EZ & HS).
  apply bind_inv in HS as ([h1 x3] & ER & HS). cbn [fst snd] in HS. apply Ok_inj in HS.
  assert (h = (u, [Some z]) :: h1) by congruence. subst h.
  cbn [run] in HR. apply bind_inv in HR as (st1 & EU & HR).
  apply update_inv in EU as (K & xp & EP & EC).
  apply predict_inv in EP as (y0 & y1 & s0 & s1 & Y0 & Y1 & -> & _ & _ & N).
  assert (y0 = x0) by congruence. assert (y1 = x1) by congruence. subst y0 y1.
  apply correct_inv in EC as (k0 & k1 & y & EX & _).
  assert (J : s0 <> B754_nan \/ s1 <> B754_nan).
  { destruct us as [|u2 us].
    - cbn [simulate] in ER. apply Ok_inj in ER. assert (h1 = []) by congruence. subst h1.
      cbn [run] in HR. apply Ok_inj in HR. subst st'.
      left. intros ->. rewrite EX in NF. apply (NF (B754_nan + k0 * y)); [now left|reflexivity].
    - destruct (IH _ _ _ _ _ ER HR NF ltac:(discriminate) (s0 + k0 * y) (s1 + k1 * y)) as [Q _];
        try (rewrite EX; reflexivity).
      left. intros ->. apply Q. reflexivity. }
  split; intros ->; destruct N as [-> ->]; auto; destruct J; congruence.
Qed.

End Track.

Theorem C131_exact_tracking_ieee :
  forall (prec emax : Z) (Hp : Prec_gt_0 prec) (Hm : Prec_lt_emax prec emax) (U : nat)
         (prm : kparams (binary_float prec emax)) (us : list (matrix (binary_float prec emax)))
         (h : list (matrix (binary_float prec emax) * matrix (binary_float prec emax)))
         (x x' : matrix (binary_float prec emax)) (st st' : kstate (binary_float prec emax)),
  simulate (ieee_scalar prec emax) U prm x us = Ok (h, x') ->
  kx st = x ->
  run (ieee_scalar prec emax) 1 U prm st h = Ok st' ->
  (forall v, In (Some v) (kx st') -> v <> B754_nan) ->
  kx st' = x'.
Proof.
  intros prec emax Hp Hm U prm us.
  induction us as [|u us IH]; intros h x x' st st' HS HX HR NF.
  - cbn [simulate] in HS. apply Ok_inj in HS. assert (h = []) by congruence. subst h.
    cbn [run] in HR. apply Ok_inj in HR. congruence.
  - cbn [simulate] in HS.
    apply bind_inv in HS as (Ax & EA & HS). apply bind_inv in HS as (Bu & EB & HS).
    apply bind_inv in HS as (x1 & E1 & HS). apply bind_inv in HS as (z & EZ & HS).
    apply bind_inv in HS as ([h1 x2] & ER & HS). cbn [fst snd] in HS. apply Ok_inj in HS.
    assert (h = (u, [Some z]) :: h1) by congruence. assert (x' = x2) by congruence. subst h x'.
    cbn [run] in HR. apply bind_inv in HR as (st1 & EU & HR).
    apply (IH h1 x1 x2 st1 st' ER); [|exact HR|exact NF].
    apply update_inv in EU as (K & xp & EP & EC).
    assert (EP1 : predict_x (ieee_scalar prec emax) U prm (kx st) u = Ok x1)
      by (unfold predict_x; rewrite HX, EA, bind_Ok, EB, bind_Ok; exact E1).
    rewrite EP1 in EP. apply Ok_inj in EP. subst xp.
    apply predict_inv in EP1 as (y0 & y1 & s0 & s1 & Y0 & Y1 & -> & N0 & N1 & _).
    apply correct_inv in EC as (k0 & k1 & y & EX & hx & EH & Hy).
    assert (hx = z) by congruence. subst hx.
    assert (NN : Bplus mode_NE s0 (Bmult mode_NE k0 y) <> B754_nan /\
                 Bplus mode_NE s1 (Bmult mode_NE k1 y) <> B754_nan).
    { destruct us as [|u2 us].
      - cbn [simulate] in ER. apply Ok_inj in ER. assert (h1 = []) by congruence. subst h1.
        cbn [run] in HR. apply Ok_inj in HR. subst st'. rewrite EX in NF.
        split; apply NF; [now left|right; now left].
      - apply (nan_stays prec emax U prm (u2 :: us) _ _ _ _ _ ER HR NF); try discriminate;
          rewrite EX; reflexivity. }
    destruct NN as [M0 M1]. rewrite EX.
    destruct (is_finite z) eqn:FZ.
    + rewrite minus_self in Hy by exact FZ. subst y.
      destruct (mult_pzero prec emax k0) as [E0|[t0 E0]]; rewrite E0 in *;
        [rewrite plus_nan_r in M0; congruence|].
      destruct (mult_pzero prec emax k1) as [F1|[t1 F1]]; rewrite F1 in *;
        [rewrite plus_nan_r in M1; congruence|].
      rewrite !plus_any_zero by assumption. reflexivity.
    + rewrite minus_self_nan in Hy by exact FZ. subst y.
      rewrite mult_nan_r, plus_nan_r in M0. congruence.
Qed.
Print Assumptions C131_exact_tracking_ieee.

(** Without the condition on nan the claim is false: the guard of [inverted] against 0 does
    not keep the inverse of a very small number from being infinite. *)
Theorem C131_inverse_overflows : forall v : double,
  is_finite v = true -> (0 < Rabs (B2R v) < bpow radix2 (-1024))%R ->
  inverted_s double_scalar v = Ok (B754_infinity (Bsign v)).
Proof.
  intros v F [L U]. unfold inverted_s.
  assert (NZ : sc_nz double_scalar v = true).
  { destruct v as [s| | |s m e B]; try reflexivity. cbn [B2R] in L. rewrite Rabs_R0 in L. lra. }
  rewrite NZ. cbn [sc_div sc_one double_scalar ieee_scalar]. f_equal.
  assert (V : B2R v <> 0%R) by (intros E; rewrite E, Rabs_R0 in L; lra).
  pose proof (Bdiv_correct 53 1024 double_prec double_emax mode_NE (ieee_of_Z 53 1024 1) v V) as C.
  assert (O1 : B2R (ieee_of_Z 53 1024 1) = 1%R)
    by (rewrite <- SF2R_B2SF; replace (B2SF (ieee_of_Z 53 1024 1)) with
          (SpecFloat.S754_finite false 4503599627370496 (-52)) by (vm_compute; reflexivity);
        unfold SF2R, F2R; cbn; lra).
  rewrite O1 in C.
  rewrite Rlt_bool_false in C.
  - apply B2SF_inj. rewrite C. cbn. destruct (Bsign v); reflexivity.
  - apply abs_round_ge_generic; [apply (FLT_exp_valid (3 - 1024 - 53) 53)|apply valid_rnd_N| |].
    + apply generic_format_bpow. cbn. lia.
    + unfold Rdiv. rewrite Rmult_1_l, Rabs_inv. change 1024%Z with (- -1024)%Z at 1. rewrite bpow_opp.
      apply Rinv_le; lra.
Qed.
Print Assumptions C131_inverse_overflows.

(** Entries as sign, mantissa and exponent. *)
Definition shown {p e} (m : matrix (binary_float p e)) : list (option SpecFloat.spec_float) :=
  map (option_map B2SF) m.
Lemma shown_inj {p e} (a b : matrix (binary_float p e)) : shown a = shown b -> a = b.
Proof.
  revert b. induction a as [|[x|] a IH]; intros [|[y|] b] H; try discriminate; try reflexivity.
  - unfold shown in H. cbn [map option_map] in H.
    assert (Q : B2SF x = B2SF y /\ map (option_map B2SF) a = map (option_map B2SF) b)
      by (split; congruence).
    destruct Q as [Q1 Q2]. apply B2SF_inj in Q1. subst y. f_equal. apply IH. exact Q2.
  - unfold shown in H. cbn [map option_map] in H.
    assert (Q : map (option_map B2SF) a = map (option_map B2SF) b) by congruence.
    f_equal. apply IH. exact Q.
Qed.

(** The smallest positive double. *)
Definition tiny : double := @B754_finite 53 1024 false 1 (-1074) eq_refl.
Definition d_one : double := ieee_of_Z 53 1024 1.
Definition d_zero : double := B754_zero false.

(** A perfect sensor (variance 2^-1074) of a known constant. *)
Definition tiny_prm : kparams double :=
  {| kA := [Some d_one; Some d_zero; Some d_zero; Some d_one]; kB := [Some d_zero; Some d_zero];
     kH := [Some d_one; Some d_zero]; kQ := [Some d_zero; Some d_zero; Some d_zero; Some d_zero];
     kR := [Some tiny]; kdt := d_one |}.
Definition tiny_st : kstate double :=
  kalman_init double_scalar false 1 [Some d_zero; Some d_zero; Some d_zero; Some d_zero]
    [Some d_one; Some d_one].

Theorem C131_without_nan_condition_refuted :
  exists h x' st',
    simulate double_scalar 1 tiny_prm (kx tiny_st) [[Some d_zero]] = Ok (h, x') /\
    run double_scalar 1 1 tiny_prm tiny_st h = Ok st' /\
    x' = [Some d_one; Some d_one] /\ kx st' = [Some B754_nan; Some B754_nan].
Proof.
  destruct (simulate double_scalar 1 tiny_prm (kx tiny_st) [[Some d_zero]]) as [[h x']|e] eqn:E.
  - destruct (run double_scalar 1 1 tiny_prm tiny_st h) as [st'|e] eqn:E2.
    + exists h, x', st'. split; [reflexivity|]. split; [exact E2|].
      assert (X : match simulate double_scalar 1 tiny_prm (kx tiny_st) [[Some d_zero]] with
                  | Ok (h, x') => match run double_scalar 1 1 tiny_prm tiny_st h with
                    | Ok st' => Some (@shown 53 1024 x', @shown 53 1024 (kx st')) | Err _ => None end
                  | Err _ => None end
                = Some (@shown 53 1024 [Some d_one; Some d_one], @shown 53 1024 [Some B754_nan; Some B754_nan]))
        by (vm_compute; reflexivity).
      rewrite E, E2 in X. split; apply shown_inj; congruence.
    + exfalso. assert (X : match simulate double_scalar 1 tiny_prm (kx tiny_st) [[Some d_zero]] with
                  | Ok (h, x') => match run double_scalar 1 1 tiny_prm tiny_st h with
                    | Ok st' => true | Err _ => false end
                  | Err _ => false end = true) by (vm_compute; reflexivity).
      rewrite E, E2 in X. discriminate.
  - exfalso. assert (X : match simulate double_scalar 1 tiny_prm (kx tiny_st) [[Some d_zero]] with
                  | Ok _ => true | Err _ => false end = true) by (vm_compute; reflexivity).
    rewrite E in X. discriminate.
Qed.
Print Assumptions C131_without_nan_condition_refuted.

(** Thirds, tenths and sevenths: every product is rounded, the estimate is exact all the same. *)
Definition third_prm : kparams double :=
  {| kA := [Some d_one; Some (literal 1 10); Some (literal (-1) 7); Some (literal 1 3)];
     kB := [Some (literal 1 200); Some (literal 1 10)];
     kH := [Some (literal 2 3); Some (literal 1 7)];
     kQ := [Some (literal 1 10); Some d_zero; Some d_zero; Some (literal 1 10)];
     kR := [Some (literal 1 3)]; kdt := literal 1 10 |}.
Definition third_st : kstate double :=
  kalman_init double_scalar false 1 [Some d_one; Some d_zero; Some d_zero; Some d_one]
    [Some (literal 1 3); Some (literal (-1) 7)].
Definition third_us : list (matrix double) := [[Some (literal 1 10)]; [Some (literal (-7) 10)]; [Some (literal 1 3)]].
Definition third_result : option (matrix double * matrix double) :=
  match simulate double_scalar 1 third_prm (kx third_st) third_us with
  | Ok (h, x') => match run double_scalar 1 1 third_prm third_st h with
                  | Ok st' => Some (x', kx st') | Err _ => None end
  | Err _ => None end.
Example C131_case :
  exists h x' st',
    simulate double_scalar 1 third_prm (kx third_st) third_us = Ok (h, x') /\
    run double_scalar 1 1 third_prm third_st h = Ok st' /\
    (forall v, In (Some v) (kx st') -> v <> B754_nan) /\ kx st' = x'.
Proof.
  assert (X : match third_result with
              | Some (a, b) => forallb (fun c => match c with Some v => is_finite v | None => false end) b
              | None => false end = true) by (vm_compute; reflexivity).
  unfold third_result in X.
  destruct (simulate double_scalar 1 third_prm (kx third_st) third_us) as [[h x']|e] eqn:E;
    [|discriminate].
  destruct (run double_scalar 1 1 third_prm third_st h) as [st'|e] eqn:E2; [|discriminate].
  assert (NF : forall v, In (Some v) (kx st') -> v <> B754_nan).
  { intros v Hv ->. rewrite forallb_forall in X. apply X in Hv. discriminate. }
  exists h, x', st'. split; [reflexivity|]. split; [exact E2|]. split; [exact NF|].
  exact (C131_exact_tracking_ieee _ _ _ _ _ _ _ _ _ _ _ _ E eq_refl E2 NF).
Qed.

(** ** C132: the simulation program in double and float *)

Definition sim_result (prec emax : Z) {Hp : Prec_gt_0 prec} {Hm : Prec_lt_emax prec emax} accelnoise :=
  match sim_main (ieee_numeric prec emax) false accelnoise 50 with
  | Ok (Some (n, x, st)) => Some (n, shown x, shown (kx st), shown (kP st), B2SF (kt st))
  | _ => None
  end.

Lemma sim_result_inv prec emax (Hp : Prec_gt_0 prec) (Hm : Prec_lt_emax prec emax) a n lx lx' lP lt :
  sim_result prec emax a = Some (n, lx, lx', lP, lt) ->
  exists st x, sim_main (ieee_numeric prec emax) false a 50 = Ok (Some (n, x, st)) /\
    shown x = lx /\ shown (kx st) = lx' /\ shown (kP st) = lP /\ B2SF (kt st) = lt.
Proof.
  unfold sim_result. intros X.
  destruct (sim_main (ieee_numeric prec emax) false a 50) as [[[[m x] st]|]|]; [|discriminate..].
  exists st, x. assert (m = n) by congruence. subst m. split; [reflexivity|].
  split; [congruence|]. split; [congruence|]. split; congruence.
Qed.

Lemma entries {p e} (m : matrix (binary_float p e)) l : shown m = map Some l ->
  exists vs, m = map Some vs /\ map B2SF vs = l.
Proof.
  revert l. induction m as [|[x|] m IH]; intros [|y l] H; try discriminate.
  - exists []. auto.
  - unfold shown in H. cbn [map option_map] in H.
    assert (B2SF x = y /\ shown m = map Some l) as [E1 E2] by (unfold shown; split; congruence).
    destruct (IH l E2) as (vs & -> & <-). exists (x :: vs). cbn [map]. rewrite E1. auto.
Qed.

Lemma sf_real {p e} (x : binary_float p e) s m ex : B2SF x = SpecFloat.S754_finite s m ex ->
  is_finite x = true /\ B2R x = F2R (Float radix2 (cond_Zopp s (Zpos m)) ex).
Proof.
  destruct x; try discriminate. cbn [B2SF B2R is_finite]. intros H.
  split; [reflexivity|]. congruence.
Qed.

Lemma sim_loop_more {T} (nt : numeric T) dur prm f : forall f' i x st r, (f <= f')%nat ->
  sim_loop nt dur prm f i x st = Ok (Some r) -> sim_loop nt dur prm f' i x st = Ok (Some r).
Proof.
  induction f as [|f IH]; intros f' i x st r L H.
  - destruct f' as [|f']; [exact H|]. cbn [sim_loop] in *.
    apply bind_inv in H as (a & Ha & H); rewrite Ha, bind_Ok.
    apply bind_inv in H as (b & Hb & H); rewrite Hb, bind_Ok.
    destruct (nt_lt nt b dur); [discriminate|exact H].
  - destruct f' as [|f']; [lia|]. cbn [sim_loop] in *.
    apply bind_inv in H as (a & Ha & H); rewrite Ha, bind_Ok.
    apply bind_inv in H as (b & Hb & H); rewrite Hb, bind_Ok.
    destruct (nt_lt nt b dur); [|exact H].
    apply bind_inv in H as (c & Hc & H); rewrite Hc, bind_Ok. apply IH; [lia|exact H].
Qed.

Lemma sim_main_more {T} (nt : numeric T) avr a f f' r : (f <= f')%nat ->
  sim_main nt avr a f = Ok (Some r) -> sim_main nt avr a f' = Ok (Some r).
Proof.
  intros L H. unfold sim_main in *. apply bind_inv in H as ([[[dur prm] P] x] & Hs & H).
  rewrite Hs, bind_Ok. exact (sim_loop_more _ _ _ _ _ _ _ _ _ L H).
Qed.

Ltac sf_values :=
  repeat match goal with
  | H : B2SF ?x = SpecFloat.S754_finite _ _ _ |- _ => apply sf_real in H; destruct H
  end.

Lemma sim_double : sim_result 53 1024 (literal 2 10) = Some (50%Z,
      map Some [SpecFloat.S754_finite false 5497558138880000 (-42);
                SpecFloat.S754_finite false 7036874417766400 (-47)],
      map Some [SpecFloat.S754_finite false 5497558138880000 (-42);
                SpecFloat.S754_finite false 7036874417766400 (-47)],
      map Some [SpecFloat.S754_finite false 5100155603813045 (-48);
                SpecFloat.S754_finite false 8150076989549791 (-52);
                SpecFloat.S754_finite false 8150076989549789 (-52);
                SpecFloat.S754_finite false 6853431701119932 (-54)],
      SpecFloat.S754_finite false 7036874417766400 (-47)).
Proof. vm_compute. reflexivity. Qed.

(** The program in double: 50 updates; state and estimate are exactly 1250 m and 50 m/s.
    The covariance is positive definite but, through rounding, no longer symmetric. *)
Theorem C132_simulation_double :
  forall fuel, (50 <= fuel)%nat ->
  exists x0 x1 st p00 p01 p10 p11,
  sim_main (ieee_numeric 53 1024) false (literal 2 10) fuel
    = Ok (Some (50%Z, [Some x0; Some x1], st)) /\
  (B2R x0 = 1250 /\ B2R x1 = 50 /\ kx st = [Some x0; Some x1] /\ B2R (kt st) = 50)%R /\
  kP st = [Some p00; Some p01; Some p10; Some p11] /\
  (0 < B2R p00 /\ 0 < B2R p11 /\ 0 < B2R p00 * B2R p11 - B2R p01 * B2R p10)%R /\
  (0 < B2R p01 - B2R p10 < / 10 ^ 15)%R.
Proof.
  intros fuel HF.
  destruct (sim_result_inv _ _ _ _ _ _ _ _ _ _ sim_double) as (st & x & E & S1 & S2 & S3 & S4).
  rewrite <- S1 in S2. symmetry in S2.
  apply (sim_main_more _ _ _ 50 fuel) in E; [|exact HF].
  apply shown_inj in S2. subst x.
  apply entries in S1 as (vs & V & M). apply entries in S3 as (ps & Q & N).
  destruct vs as [|x0 [|x1 [|]]]; try discriminate M.
  destruct ps as [|p00 [|p01 [|p10 [|p11 [|]]]]]; try discriminate N.
  cbn [map] in V, M, Q, N. rewrite V in *.
  exists x0, x1, st, p00, p01, p10, p11. split; [exact E|].
  assert (B2SF x0 = SpecFloat.S754_finite false 5497558138880000 (-42)) by congruence.
  assert (B2SF x1 = SpecFloat.S754_finite false 7036874417766400 (-47)) by congruence.
  assert (B2SF p00 = SpecFloat.S754_finite false 5100155603813045 (-48)) by congruence.
  assert (B2SF p01 = SpecFloat.S754_finite false 8150076989549791 (-52)) by congruence.
  assert (B2SF p10 = SpecFloat.S754_finite false 8150076989549789 (-52)) by congruence.
  assert (B2SF p11 = SpecFloat.S754_finite false 6853431701119932 (-54)) by congruence.
  clear M N E. sf_values.
  repeat match goal with H : B2R _ = _ |- _ => rewrite H end.
  unfold F2R; cbn [Fnum Fexp cond_Zopp].
  change (bpow radix2 (-42)) with (/ 4398046511104)%R.
  change (bpow radix2 (-47)) with (/ 140737488355328)%R.
  change (bpow radix2 (-48)) with (/ 281474976710656)%R.
  change (bpow radix2 (-52)) with (/ 4503599627370496)%R.
  change (bpow radix2 (-54)) with (/ 18014398509481984)%R.
  split; [split; [lra|split; [lra|split; [exact V|lra]]]|].
  split; [exact Q|]. split; [split; [lra|split; lra]|split; lra].
Qed.
Print Assumptions C132_simulation_double.

Lemma sim_float : sim_result 24 128 (double_to_float (literal 2 10)) = Some (50%Z,
      map Some [SpecFloat.S754_finite false 10240000 (-13);
                SpecFloat.S754_finite false 13107200 (-18)],
      map Some [SpecFloat.S754_finite false 10240000 (-13);
                SpecFloat.S754_finite false 13107200 (-18)],
      map Some [SpecFloat.S754_finite false 9499780 (-19);
                SpecFloat.S754_finite false 15180700 (-23);
                SpecFloat.S754_finite false 15180700 (-23);
                SpecFloat.S754_finite false 12765511 (-25)],
      SpecFloat.S754_finite false 13107200 (-18)).
Proof. vm_compute. reflexivity. Qed.

(** The same in float; here the covariance stays symmetric. *)
Theorem C132_simulation_float :
  forall fuel, (50 <= fuel)%nat ->
  exists x0 x1 st p00 p01 p11,
  sim_main (ieee_numeric 24 128) false (double_to_float (literal 2 10)) fuel
    = Ok (Some (50%Z, [Some x0; Some x1], st)) /\
  (B2R x0 = 1250 /\ B2R x1 = 50 /\ kx st = [Some x0; Some x1] /\ B2R (kt st) = 50)%R /\
  kP st = [Some p00; Some p01; Some p01; Some p11] /\
  (0 < B2R p00 /\ 0 < B2R p11 /\ 0 < B2R p00 * B2R p11 - B2R p01 * B2R p01)%R.
Proof.
  intros fuel HF.
  destruct (sim_result_inv _ _ _ _ _ _ _ _ _ _ sim_float) as (st & x & E & S1 & S2 & S3 & S4).
  rewrite <- S1 in S2. symmetry in S2.
  apply (sim_main_more _ _ _ 50 fuel) in E; [|exact HF].
  apply shown_inj in S2. subst x.
  apply entries in S1 as (vs & V & M). apply entries in S3 as (ps & Q & N).
  destruct vs as [|x0 [|x1 [|]]]; try discriminate M.
  destruct ps as [|p00 [|p01 [|p10 [|p11 [|]]]]]; try discriminate N.
  cbn [map] in V, M, Q, N. rewrite V in *.
  assert (B2SF x0 = SpecFloat.S754_finite false 10240000 (-13)) by congruence.
  assert (B2SF x1 = SpecFloat.S754_finite false 13107200 (-18)) by congruence.
  assert (B2SF p00 = SpecFloat.S754_finite false 9499780 (-19)) by congruence.
  assert (B2SF p01 = SpecFloat.S754_finite false 15180700 (-23)) by congruence.
  assert (p10 = p01) by (apply B2SF_inj; congruence). subst p10.
  assert (B2SF p11 = SpecFloat.S754_finite false 12765511 (-25)) by congruence.
  exists x0, x1, st, p00, p01, p11. split; [exact E|].
  clear M N E. sf_values.
  repeat match goal with H : B2R _ = _ |- _ => rewrite H end.
  unfold F2R; cbn [Fnum Fexp cond_Zopp].
  change (bpow radix2 (-13)) with (/ 8192)%R.
  change (bpow radix2 (-18)) with (/ 262144)%R.
  change (bpow radix2 (-19)) with (/ 524288)%R.
  change (bpow radix2 (-23)) with (/ 8388608)%R.
  change (bpow radix2 (-25)) with (/ 33554432)%R.
  split; [split; [lra|split; [lra|split; [exact V|lra]]]|].
  split; [exact Q|]. split; [lra|split; lra].
Qed.
Print Assumptions C132_simulation_float.

(** The condition is met by 50 and by no smaller number: 49 rounds are not enough. *)
Example C132_case : (50 <= 50)%nat /\
  match sim_main (ieee_numeric 53 1024) false (literal 2 10) 49 with Ok None => true | _ => false end = true.
Proof. split; [apply le_n|]. vm_compute. reflexivity. Qed.
