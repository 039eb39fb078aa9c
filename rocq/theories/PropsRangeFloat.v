(** * Ranges of floating-point numbers

    C140 and C141 of properties.jsonl. *)

From Coq Require Import ZArith Reals Bool List Lra Lia.
From Flocq Require Import Core Relative Plus_error Mult_error IEEE754.BinarySingleNaN.
From Verif Require Import Base Range Ieee IeeeProofs RangeFloat.
Import ListNotations.
Local Open Scope R_scope.

Section Format.

Context (prec emax : Z) {Hprec : Prec_gt_0 prec} {Hmax : Prec_lt_emax prec emax}.

Local Notation flt := (binary_float prec emax).
Local Notation emin := (3 - emax - prec)%Z.
Local Notation fmt := (FLT_exp emin prec).
Local Notation fin x := (is_finite x = true).

(** Rounding to the nearest number of the format, ties to even. *)
Definition nearest_float (x : R) : R := round radix2 fmt ZnearestE x.
Local Notation rnd := nearest_float.

(** It is small enough for the format. *)
Definition in_format (x : R) : Prop := Rabs x < bpow radix2 emax.

(** The element of number [k]: two roundings. *)
Definition element (first step : R) (k : Z) : R := rnd (first + rnd (IZR k * step)).

Lemma prec_pos : (0 < prec < emax)%Z.
Proof. split; [exact Hprec|exact Hmax]. Qed.

Instance fmt_valid : Valid_exp fmt := FLT_exp_valid emin prec.

Lemma rnd_le x y : x <= y -> rnd x <= rnd y.
Proof. apply round_le; [typeclasses eauto|apply valid_rnd_N]. Qed.
Lemma rnd_id x : generic_format radix2 fmt x -> rnd x = x.
Proof. apply round_generic. apply valid_rnd_N. Qed.
Lemma rnd_float (x : flt) : rnd (B2R x) = B2R x.
Proof. apply rnd_id. apply (generic_format_B2R prec emax). Qed.
Lemma rnd_format x : generic_format radix2 fmt (rnd x).
Proof. apply generic_format_round; [typeclasses eauto|apply valid_rnd_N]. Qed.

Lemma int_format z : (Z.abs z <= 2 ^ prec)%Z -> generic_format radix2 fmt (IZR z).
Proof.
  intros Hz. pose proof prec_pos as PP. destruct (Z.eq_dec (Z.abs z) (2 ^ prec)) as [E|N].
  - apply generic_format_abs_inv. rewrite <- abs_IZR, E.
    change 2%Z with (radix_val radix2). rewrite IZR_Zpower by lia.
    apply generic_format_bpow. unfold FLT_exp. lia.
  - apply generic_format_FLT. exists (Float radix2 z 0).
    + unfold F2R. cbn. ring.
    + cbn [Fnum]. change (radix_val radix2) with 2%Z. lia.
    + cbn [Fexp]. lia.
Qed.
Lemma int_small z : (Z.abs z <= 2 ^ prec)%Z -> in_format (IZR z).
Proof.
  intros Hz. pose proof prec_pos as PP. unfold in_format. rewrite <- abs_IZR.
  apply Rle_lt_trans with (bpow radix2 prec); [|apply bpow_lt; lia].
  rewrite <- IZR_Zpower by lia. change (radix_val radix2) with 2%Z. now apply IZR_le.
Qed.

Lemma of_Z z : (Z.abs z <= 2 ^ prec)%Z ->
  B2R (ieee_of_Z prec emax z) = IZR z /\ fin (ieee_of_Z prec emax z).
Proof.
  intros Hz. pose proof (binary_normalize_correct prec emax Hprec Hmax mode_NE z 0 false) as C.
  cbv zeta in C. unfold F2R in C. cbn [Fnum Fexp] in C. rewrite Rmult_1_r in C.
  change (round radix2 (SpecFloat.fexp prec emax) (round_mode mode_NE) (IZR z)) with (rnd (IZR z)) in C.
  rewrite rnd_id in C by now apply int_format. rewrite Rlt_bool_true in C by now apply int_small.
  split; apply C.
Qed.

Lemma plus_in (x y : flt) : fin x -> fin y -> in_format (rnd (B2R x + B2R y)) ->
  B2R (Bplus mode_NE x y) = rnd (B2R x + B2R y) /\ fin (Bplus mode_NE x y).
Proof.
  intros Fx Fy H. pose proof (Bplus_correct prec emax Hprec Hmax mode_NE x y Fx Fy) as C.
  change (round radix2 (SpecFloat.fexp prec emax) (round_mode mode_NE) ?a) with (rnd a) in C.
  rewrite Rlt_bool_true in C by exact H. split; apply C.
Qed.
Lemma mult_in (x y : flt) : fin x -> fin y -> in_format (rnd (B2R x * B2R y)) ->
  B2R (Bmult mode_NE x y) = rnd (B2R x * B2R y) /\ fin (Bmult mode_NE x y).
Proof.
  intros Fx Fy H. pose proof (Bmult_correct prec emax Hprec Hmax mode_NE x y) as C.
  change (round radix2 (SpecFloat.fexp prec emax) (round_mode mode_NE) ?a) with (rnd a) in C.
  rewrite Rlt_bool_true in C by exact H. rewrite Fx, Fy in C. split; apply C.
Qed.

(** ** C140: stepped ranges *)

(** The iterator after [k] increments. *)
Definition at_step (inf : bool) (first step : flt) (i : fstep_iter prec emax) (k : Z) : Prop :=
  B2R (fs_factor _ _ i) = IZR k /\ fin (fs_factor _ _ i) /\
  B2R (fs_current _ _ i) = element (B2R first) (B2R step) k /\ fin (fs_current _ _ i) /\
  fs_first _ _ i = first /\ fs_step _ _ i = step /\ fs_infinite _ _ i = inf.

Lemma element_0 (first step : flt) : element (B2R first) (B2R step) 0 = B2R first.
Proof.
  unfold element. rewrite Rmult_0_l. unfold nearest_float at 2. rewrite round_0 by apply valid_rnd_N.
  rewrite Rplus_0_r. apply rnd_float.
Qed.

Lemma at_step_0 inf first step : fin first -> at_step inf first step (fstep_iter_of prec emax first step inf) 0.
Proof.
  intros F. unfold at_step, fstep_iter_of. cbn [fs_factor fs_current fs_first fs_step fs_infinite].
  pose proof prec_pos as PP. pose proof (Z.pow_pos_nonneg 2 prec ltac:(lia) ltac:(lia)).
  destruct (of_Z 0 ltac:(lia)) as [E Fz]. rewrite element_0. auto 10.
Qed.

Lemma at_step_factor inf first step i k k' : fin first -> fin step -> at_step inf first step i k ->
  in_format (rnd (IZR k + 1)) -> rnd (IZR k + 1) = IZR k' ->
  in_format (rnd (IZR k' * B2R step)) -> in_format (element (B2R first) (B2R step) k') ->
  exists j, fs_incr prec emax i = Ok j /\ at_step inf first step j k'.
Proof.
  intros F1 F2 (Ef & Ff & Ec & Fc & E1 & E2 & E3) O1 EK O2 O3.
  eexists. split; [reflexivity|]. unfold at_step. cbn [fs_factor fs_current fs_first fs_step fs_infinite].
  pose proof prec_pos as PP. pose proof (Z.pow_pos_nonneg 2 prec ltac:(lia) ltac:(lia)).
  destruct (of_Z 1 ltac:(lia)) as [E Fz].
  destruct (plus_in (fs_factor _ _ i) (ieee_of_Z prec emax 1) Ff Fz) as [P1 P2]; [now rewrite Ef, E|].
  rewrite Ef, E, EK in P1.
  destruct (mult_in (Bplus mode_NE (fs_factor _ _ i) (ieee_of_Z prec emax 1)) step P2 F2) as [M1 M2]; [now rewrite P1|].
  rewrite P1 in M1. rewrite E1, E2.
  destruct (plus_in first (Bmult mode_NE (Bplus mode_NE (fs_factor _ _ i) (ieee_of_Z prec emax 1)) step) F1 M2) as [S1 S2];
    [now rewrite M1|].
  rewrite M1 in S1. auto 10.
Qed.

Lemma at_step_incr inf first step i k : fin first -> fin step -> at_step inf first step i k ->
  (0 <= k < 2 ^ prec)%Z ->
  in_format (rnd (IZR (k + 1) * B2R step)) -> in_format (element (B2R first) (B2R step) (k + 1)) ->
  exists j, fs_incr prec emax i = Ok j /\ at_step inf first step j (k + 1).
Proof.
  intros F1 F2 A Hk O2 O3.
  assert (E : rnd (IZR k + 1) = IZR (k + 1)).
  { rewrite <- plus_IZR. apply rnd_id, int_format. lia. }
  apply (at_step_factor inf first step i k); auto. rewrite E. apply int_small. lia.
Qed.

Lemma ne_at first step last i k : at_step false first step i k -> fin last ->
  fs_ne prec emax i (fstep_iter_of prec emax last step false) = Rlt_bool (element (B2R first) (B2R step) k) (B2R last).
Proof.
  intros (Ef & Ff & Ec & Fc & E1 & E2 & E3) Fl. unfold fs_ne. rewrite E3. cbn [negb andb fstep_iter_of fs_current].
  rewrite Bleb_correct by assumption. rewrite Ec. unfold Rlt_bool, Rle_bool.
  destruct (Rcompare_spec (element (B2R first) (B2R step) k) (B2R last));
  destruct (Rcompare_spec (B2R last) (element (B2R first) (B2R step) k)); try reflexivity; lra.
Qed.

(** The values the loop sees, if nothing overflows: the elements before the first one that
    reaches [last]. *)
Theorem C140_stepped_range :
  forall (first last step : flt) (n : nat), fin first -> fin last -> fin step ->
  (Z.of_nat n <= 2 ^ prec)%Z ->
  (forall k, (0 <= k <= Z.of_nat n)%Z ->
     in_format (rnd (IZR k * B2R step)) /\ in_format (element (B2R first) (B2R step) k)) ->
  (forall k, (0 <= k < Z.of_nat n)%Z -> element (B2R first) (B2R step) k < B2R last) ->
  B2R last <= element (B2R first) (B2R step) (Z.of_nat n) ->
  forall fuel, (n <= fuel)%nat ->
  exists l, float_loop_step prec emax first last step false fuel = (l, Finished) /\
    map B2R l = map (fun k => element (B2R first) (B2R step) (Z.of_nat k)) (seq 0 n) /\
    Forall (fun x => fin x) l.
Proof.
  intros first last step n F1 F2 F3 Hn In Lt Ge fuel Hf. unfold float_loop_step.
  assert (G : forall m k i fuel, at_step false first step i (Z.of_nat k) -> (k + m = n)%nat -> (m <= fuel)%nat ->
    exists l, for_range (fs_ne prec emax) (fs_current prec emax) (fs_incr prec emax) fuel i
                (fstep_iter_of prec emax last step false) = (l, Finished) /\
      map B2R l = map (fun k => element (B2R first) (B2R step) (Z.of_nat k)) (seq k m) /\
      Forall (fun x => fin x) l).
  { clear fuel Hf. induction m as [|m IH]; intros k i fuel A E Hf.
    - exists []. split; [|split; [reflexivity|constructor]].
      assert (K : k = n) by lia. subst k.
      destruct fuel; cbn [for_range]; rewrite (ne_at first step last i _ A F2), Rlt_bool_false by exact Ge; reflexivity.
    - destruct fuel as [|fuel]; [lia|]. cbn [for_range].
      rewrite (ne_at first step last i _ A F2), Rlt_bool_true by (apply Lt; lia).
      destruct (In (Z.of_nat k + 1)%Z ltac:(lia)) as [I1 I2].
      destruct (at_step_incr false first step i (Z.of_nat k) F1 F3 A ltac:(lia) I1 I2) as (j & Ej & Aj).
      rewrite Ej. replace (Z.of_nat k + 1)%Z with (Z.of_nat (S k)) in Aj by lia.
      destruct (IH (S k) j fuel Aj ltac:(lia) ltac:(lia)) as (l & El & Ml & Fl). rewrite El.
      exists (fs_current prec emax i :: l). split; [reflexivity|]. destruct A as (_ & _ & Ec & Fc & _).
      split; [|now constructor]. cbn [map seq]. now rewrite Ec, Ml. }
  apply (G n 0%nat); auto. apply at_step_0, F1.
Qed.

(** A range without end has no end, whatever the data; *)
Theorem C140_infinite :
  forall (first step : flt) (fuel : nat),
  exists l, float_loop_infinite prec emax first step fuel = (l, Running) /\ length l = fuel.
Proof.
  intros first step fuel. unfold float_loop_infinite, float_loop_step.
  generalize (fstep_iter_of prec emax first step true) at 2. intros e.
  assert (I : fs_infinite _ _ (fstep_iter_of prec emax first step true) = true) by reflexivity.
  revert I. generalize (fstep_iter_of prec emax first step true). 
  induction fuel as [|fuel IH]; intros i I; cbn [for_range]; unfold fs_ne; rewrite I; cbn [negb andb].
  - exists []. auto.
  - edestruct IH as (l & E & L); [|unfold fs_incr at 1; rewrite E; eexists; split; [reflexivity|]; cbn; now rewrite L].
    exact I.
Qed.

(** its values are the elements as long as they fit. *)
Theorem C140_infinite_values :
  forall (first step : flt) (n : nat), fin first -> fin step -> (Z.of_nat n <= 2 ^ prec)%Z ->
  (forall k, (0 <= k <= Z.of_nat n)%Z ->
     in_format (rnd (IZR k * B2R step)) /\ in_format (element (B2R first) (B2R step) k)) ->
  exists l, float_loop_infinite prec emax first step n = (l, Running) /\
    map B2R l = map (fun k => element (B2R first) (B2R step) (Z.of_nat k)) (seq 0 n) /\
    Forall (fun x => fin x) l.
Proof.
  intros first step n F1 F3 Hn In. unfold float_loop_infinite, float_loop_step.
  assert (G : forall m k i, at_step true first step i (Z.of_nat k) -> (k + m = n)%nat ->
    exists l, for_range (fs_ne prec emax) (fs_current prec emax) (fs_incr prec emax) m i
                (fstep_iter_of prec emax first step true) = (l, Running) /\
      map B2R l = map (fun k => element (B2R first) (B2R step) (Z.of_nat k)) (seq k m) /\
      Forall (fun x => fin x) l).
  { induction m as [|m IH]; intros k i A E; cbn [for_range];
    (assert (X : fs_ne prec emax i (fstep_iter_of prec emax first step true) = true)
      by (destruct A as (_ & _ & _ & _ & _ & _ & A); unfold fs_ne; now rewrite A)); rewrite X.
    - exists []. auto.
    - destruct (In (Z.of_nat k + 1)%Z ltac:(lia)) as [I1 I2].
      destruct (at_step_incr true first step i (Z.of_nat k) F1 F3 A ltac:(lia) I1 I2) as (j & Ej & Aj).
      rewrite Ej. replace (Z.of_nat k + 1)%Z with (Z.of_nat (S k)) in Aj by lia.
      destruct (IH (S k) j Aj ltac:(lia)) as (l & El & Ml & Fl). rewrite El.
      exists (fs_current prec emax i :: l). split; [reflexivity|]. destruct A as (_ & _ & Ec & Fc & _).
      split; [|now constructor]. cbn [map seq]. now rewrite Ec, Ml. }
  apply (G n 0%nat); [apply at_step_0, F1|reflexivity].
Qed.

Lemma element_error :
  forall (first step : flt) (k : Z),
  Rabs (element (B2R first) (B2R step) k - (B2R first + IZR k * B2R step)) <=
  bpow radix2 (- prec) * (Rabs (B2R first) + 3 * Rabs (IZR k * B2R step)) + 2 * bpow radix2 (emin - 1).
Proof.
  intros first step k. set (p := IZR k * B2R step).
  pose proof (mult_err prec emax p) as E1. fold (rnd p) in E1. change (round radix2 fmt ZnearestE p) with (rnd p) in E1.
  pose proof (plus_err prec emax (B2R first) (rnd p) (generic_format_B2R prec emax first) (rnd_format p)) as E2.
  change (round radix2 fmt ZnearestE ?a) with (rnd a) in E2. unfold element. fold p.
  set (u := bpow radix2 (- prec)) in *. set (t := bpow radix2 (emin - 1)) in *.
  assert (U : 0 < u <= / 2).
  { split; [apply bpow_gt_0|]. change (/ 2) with (bpow radix2 (-1)). apply bpow_le. pose proof prec_pos. lia. }
  assert (T : 0 < t) by apply bpow_gt_0.
  set (s := rnd (B2R first + rnd p)) in *. set (q := rnd p) in *. clearbody s q p u t.
  assert (A1 : Rabs q <= Rabs p + (u * Rabs p + t)).
  { replace q with (p + (q - p)) by ring. eapply Rle_trans; [apply Rabs_triang|]. lra. }
  assert (A2 : Rabs (B2R first + q) <= Rabs (B2R first) + Rabs q) by apply Rabs_triang.
  assert (A3 : Rabs (s - (B2R first + p)) <= Rabs (s - (B2R first + q)) + Rabs (q - p)).
  { replace (s - (B2R first + p)) with ((s - (B2R first + q)) + (q - p)) by ring. apply Rabs_triang. }
  pose proof (Rabs_pos p). pose proof (Rabs_pos (B2R first)).
  assert (A4 : u * Rabs (B2R first + q) <= u * (Rabs (B2R first) + (Rabs p + (u * Rabs p + t)))).
  { apply Rmult_le_compat_l; lra. }
  assert (A5 : u * (u * Rabs p) <= u * (/ 2 * Rabs p)) by (apply Rmult_le_compat_l; [lra|apply Rmult_le_compat_r; lra]).
  assert (A6 : u * t <= / 2 * t) by (apply Rmult_le_compat_r; lra).
  assert (A7 : 0 <= u * Rabs p) by (apply Rmult_le_pos; lra).
  lra.
Qed.

(** Each value the loop sees is off by at most two roundings, however far the loop has come. *)
Theorem C140_element_error :
  forall (first last step : flt) (n : nat), fin first -> fin last -> fin step ->
  (Z.of_nat n <= 2 ^ prec)%Z ->
  (forall k, (0 <= k <= Z.of_nat n)%Z ->
     in_format (rnd (IZR k * B2R step)) /\ in_format (element (B2R first) (B2R step) k)) ->
  (forall k, (0 <= k < Z.of_nat n)%Z -> element (B2R first) (B2R step) k < B2R last) ->
  B2R last <= element (B2R first) (B2R step) (Z.of_nat n) ->
  forall fuel, (n <= fuel)%nat ->
  exists l, float_loop_step prec emax first last step false fuel = (l, Finished) /\ length l = n /\
    forall k, (k < n)%nat ->
    Rabs (B2R (nth k l (B754_zero false)) - (B2R first + INR k * B2R step)) <=
    bpow radix2 (- prec) * (Rabs (B2R first) + 3 * Rabs (INR k * B2R step)) + 2 * bpow radix2 (emin - 1).
Proof.
  intros first last step n F1 F2 F3 Hn In Lt Ge fuel Hf.
  destruct (C140_stepped_range first last step n F1 F2 F3 Hn In Lt Ge fuel Hf) as (l & E & M & _).
  exists l. split; [exact E|].
  assert (L : length l = n) by (rewrite <- (map_length (B2R (prec:=prec) (emax:=emax)) l), M, map_length; apply seq_length).
  split; [exact L|]. intros k Hk.
  replace (B2R (nth k l (B754_zero false))) with (element (B2R first) (B2R step) (Z.of_nat k)).
  - rewrite INR_IZR_INZ. apply element_error.
  - rewrite <- (map_nth (B2R (prec:=prec) (emax:=emax))), M.
    rewrite (nth_indep _ _ (element (B2R first) (B2R step) (Z.of_nat 0))) by (rewrite map_length, seq_length; exact Hk).
    rewrite (map_nth (fun k => element (B2R first) (B2R step) (Z.of_nat k))), seq_nth by exact Hk. reflexivity.
Qed.

(** The factor stops at 2^prec: ++ does nothing any more. *)
Lemma factor_stops : (2 <= prec)%Z -> rnd (IZR (2 ^ prec) + 1) = IZR (2 ^ prec).
Proof.
  intros H2. pose proof prec_pos as PP.
  assert (B : IZR (2 ^ prec) = bpow radix2 prec) by (change 2%Z with (radix_val radix2); rewrite IZR_Zpower; [reflexivity|lia]).
  assert (M : mag radix2 (IZR (2 ^ prec) + 1) = (prec + 1)%Z :> Z).
  { apply mag_unique_pos. rewrite B. replace (prec + 1 - 1)%Z with prec by ring.
    rewrite bpow_plus. change (bpow radix2 1) with 2. 
    assert (2 <= bpow radix2 prec) by (change 2 with (bpow radix2 1); apply bpow_le; lia). lra. }
  unfold nearest_float, round, scaled_mantissa, cexp. rewrite M.
  replace (fmt (prec + 1)) with 1%Z by (unfold FLT_exp; lia).
  set (m := (2 ^ (prec - 1))%Z).
  assert (EM : (IZR (2 ^ prec) + 1) * bpow radix2 (- (1)) = IZR m + / 2).
  { change (bpow radix2 (- (1))) with (/ 2).
    assert (2 ^ prec = 2 * m)%Z by (unfold m; rewrite <- Z.pow_succ_r by lia; f_equal; lia).
    rewrite H, mult_IZR. field. }
  rewrite EM. assert (FL : Zfloor (IZR m + / 2) = m) by (apply Zfloor_imp; rewrite plus_IZR; lra).
  assert (EV : Z.even m = true).
  { unfold m. replace (prec - 1)%Z with (Z.succ (prec - 2)) by lia. rewrite Z.pow_succ_r by lia.
    rewrite Z.even_mul. reflexivity. }
  assert (ZN : ZnearestE (IZR m + / 2) = m).
  { unfold Znearest. rewrite FL. replace (IZR m + / 2 - IZR m) with (/ 2) by ring.
    rewrite Rcompare_Eq by reflexivity. rewrite EV. reflexivity. }
  rewrite ZN. unfold F2R. cbn [Fnum Fexp]. rewrite B. unfold m.
  change 2%Z with (radix_val radix2) at 1. rewrite IZR_Zpower by lia. rewrite <- bpow_plus. f_equal. lia.
Qed.

(** So a range with more than 2^prec steps has no end. *)
Theorem C140_too_many_steps :
  forall (first last step : flt), fin first -> fin last -> fin step -> (2 <= prec)%Z ->
  0 < B2R step -> IZR (2 ^ prec) * B2R step < bpow radix2 emax ->
  element (B2R first) (B2R step) (2 ^ prec) < B2R last ->
  forall fuel, exists l, float_loop_step prec emax first last step false fuel = (l, Running) /\ length l = fuel.
Proof.
  intros first last step F1 F2 F3 H2 Sp Ov El fuel. unfold float_loop_step.
  pose proof prec_pos as PP. assert (P2 : (0 < 2 ^ prec)%Z) by (apply Z.pow_pos_nonneg; lia).
  assert (PF : generic_format radix2 fmt (IZR (2 ^ prec) * B2R step)).
  { change 2%Z with (radix_val radix2). rewrite IZR_Zpower by lia. rewrite Rmult_comm.
    apply mult_bpow_pos_exact_FLT; [apply (generic_format_B2R prec emax)|lia]. }
  assert (EL : forall k, (0 <= k <= 2 ^ prec)%Z -> in_format (rnd (IZR k * B2R step)) /\
      element (B2R first) (B2R step) k < B2R last /\ in_format (element (B2R first) (B2R step) k)).
  { intros k Hk. destruct Hk as [K0 K1]. apply IZR_le in K0, K1.
    assert (B1 : 0 <= IZR k * B2R step) by (apply Rmult_le_pos; lra).
    assert (B2 : IZR k * B2R step <= IZR (2 ^ prec) * B2R step) by (apply Rmult_le_compat_r; lra).
    assert (R1 : 0 <= rnd (IZR k * B2R step)).
    { rewrite <- (round_0 radix2 fmt ZnearestE). now apply rnd_le. }
    assert (R2 : rnd (IZR k * B2R step) <= IZR (2 ^ prec) * B2R step) by (rewrite <- (rnd_id _ PF); now apply rnd_le).
    split; [unfold in_format; rewrite Rabs_pos_eq; lra|].
    assert (L1 : element (B2R first) (B2R step) k <= element (B2R first) (B2R step) (2 ^ prec)).
    { unfold element. apply rnd_le. apply Rplus_le_compat_l. now apply rnd_le. }
    assert (L2 : B2R first <= element (B2R first) (B2R step) k).
    { rewrite <- (rnd_float first) at 1. unfold element. apply rnd_le. lra. }
    split; [lra|]. unfold in_format. 
    pose proof (abs_B2R_lt_emax prec emax first) as X1. pose proof (abs_B2R_lt_emax prec emax last) as X2.
    apply Rabs_lt_inv in X1, X2. apply Rabs_lt. lra. }
  assert (G : forall fuel k i, at_step false first step i k -> (0 <= k <= 2 ^ prec)%Z ->
    exists l, for_range (fs_ne prec emax) (fs_current prec emax) (fs_incr prec emax) fuel i
                (fstep_iter_of prec emax last step false) = (l, Running) /\ length l = fuel).
  { clear fuel. induction fuel as [|fuel IH]; intros k i A Hk.
    - exists []. split; [|reflexivity]. cbn [for_range].
      rewrite (ne_at first step last i _ A F2), Rlt_bool_true by now apply EL. reflexivity.
    - cbn [for_range]. rewrite (ne_at first step last i _ A F2), Rlt_bool_true by now apply EL.
      assert (N : exists j k', fs_incr prec emax i = Ok j /\ at_step false first step j k' /\ (0 <= k' <= 2 ^ prec)%Z).
      { destruct (Z.eq_dec k (2 ^ prec)) as [->|Nk].
        - destruct (at_step_factor false first step i (2 ^ prec) (2 ^ prec) F1 F3 A) as (j & E & Aj).
          + rewrite factor_stops by assumption. apply int_small. lia.
          + now apply factor_stops.
          + now apply EL.
          + now apply EL.
          + exists j, (2 ^ prec)%Z. auto.
        - destruct (at_step_incr false first step i k F1 F3 A ltac:(lia)) as (j & E & Aj); try (apply EL; lia).
          exists j, (k + 1)%Z. split; [assumption|]. split; [assumption|lia]. }
      destruct N as (j & k' & Ej & Aj & Hk'). rewrite Ej.
      destruct (IH k' j Aj Hk') as (l & E & L). rewrite E. eexists. split; [reflexivity|]. cbn. now rewrite L. }
  apply (G fuel 0%Z); [apply at_step_0, F1|lia].
Qed.

(** A step that is zero or negative, from below [last]: no end. *)
Theorem C140_step_not_positive :
  forall (first last step : flt), fin first -> fin last -> fin step -> (2 <= prec)%Z ->
  B2R step <= 0 -> B2R first < B2R last ->
  forall fuel, exists l, float_loop_step prec emax first last step false fuel = (l, Running) /\ length l = fuel.
Proof.
  intros first last step F1 F2 F3 H2 Sn Lt fuel. unfold float_loop_step.
  pose proof prec_pos as PP. assert (P2 : (0 < 2 ^ prec)%Z) by (apply Z.pow_pos_nonneg; lia).
  destruct (of_Z 1 ltac:(lia)) as [E1 Fo].
  assert (G : forall fuel k i, B2R (fs_factor _ _ i) = IZR k -> fin (fs_factor _ _ i) -> (0 <= k <= 2 ^ prec)%Z ->
    fs_first _ _ i = first -> fs_step _ _ i = step -> fs_infinite _ _ i = false ->
    (fin (fs_current _ _ i) /\ B2R (fs_current _ _ i) <= B2R first) \/ fs_current _ _ i = B754_infinity true ->
    exists l, for_range (fs_ne prec emax) (fs_current prec emax) (fs_incr prec emax) fuel i
                (fstep_iter_of prec emax last step false) = (l, Running) /\ length l = fuel).
  { clear fuel. induction fuel as [|fuel IH]; intros k i Ef Ff Hk I1 I2 I3 C;
    (assert (X : fs_ne prec emax i (fstep_iter_of prec emax last step false) = true);
     [unfold fs_ne; rewrite I3; cbn [negb andb fs_current fstep_iter_of]; destruct C as [[C1 C2]|C];
       [rewrite Bleb_correct by assumption; rewrite Rle_bool_false by lra; reflexivity
       |rewrite C; destruct last as [[]|[]| |[]]; try discriminate F2; reflexivity]|]);
    cbn [for_range]; rewrite X.
    - exists []. auto.
    - cbn [fs_incr].
      assert (R : exists k', rnd (IZR k + 1) = IZR k' /\ (0 <= k' <= 2 ^ prec)%Z).
      { destruct (Z.eq_dec k (2 ^ prec)) as [->|N].
        - exists (2 ^ prec)%Z. split; [now apply factor_stops|lia].
        - exists (k + 1)%Z. split; [|lia]. rewrite <- plus_IZR. apply rnd_id, int_format. lia. }
      destruct R as (k' & R & Hk').
      destruct (plus_in (fs_factor _ _ i) (ieee_of_Z prec emax 1) Ff Fo) as [P1 P3];
        [rewrite Ef, E1, R; apply int_small; lia|].
      rewrite Ef, E1, R in P1. 
      edestruct (IH k') as (l & E & L); [| | | | | | |unfold fs_incr; rewrite E; eexists; split; [reflexivity|]; cbn; now rewrite L];
        cbn [fs_factor fs_first fs_step fs_infinite fs_current]; try eassumption.
      rewrite I1, I2. set (f := Bplus mode_NE (fs_factor _ _ i) (ieee_of_Z prec emax 1)) in *.
      assert (K0 : 0 <= IZR k') by (apply IZR_le; lia).
      assert (Pn : IZR k' * B2R step <= 0) by (pose proof (Rmult_le_compat_l (IZR k') (B2R step) 0 K0 Sn); lra).
      assert (Rn : rnd (IZR k' * B2R step) <= 0) by (rewrite <- (round_0 radix2 fmt ZnearestE); now apply rnd_le).
      assert (M : (fin (Bmult mode_NE f step) /\ B2R (Bmult mode_NE f step) <= 0) \/
                  Bmult mode_NE f step = B754_infinity true).
      { pose proof (Bmult_correct prec emax Hprec Hmax mode_NE f step) as M.
        change (round radix2 (SpecFloat.fexp prec emax) (round_mode mode_NE) ?a) with (rnd a) in M.
        rewrite P1, P3, F3 in M. destruct (Rlt_bool_spec (Rabs (rnd (IZR k' * B2R step))) (bpow radix2 emax)) as [O|O].
        - left. destruct M as (M1 & M2 & _). rewrite M1, M2. auto.
        - right. 
          assert (Nz : IZR k' <> 0 /\ B2R step <> 0).
          { pose proof (bpow_gt_0 radix2 emax). split; intros Z0; rewrite Z0 in O; 
            rewrite ?Rmult_0_l, ?Rmult_0_r in O; unfold nearest_float in O; rewrite round_0, Rabs_R0 in O by apply valid_rnd_N; lra. }
          assert (Sf : Bsign f = false).
          { rewrite <- P1 in K0, Nz. destruct Nz as [Nz _]. clear - K0 Nz P3.
            destruct f as [s|s| |s m e He]; try discriminate; try (cbn in Nz; lra).
            destruct s; [|reflexivity]. exfalso. cbn in K0, Nz.
            pose proof (F2R_lt_0 radix2 (Float radix2 (Z.neg m) e) eq_refl) as Q. cbn in Q. unfold F2R in *; cbn in *. lra. }
          assert (Ss : Bsign step = true).
          { destruct Nz as [_ Nz]. clear - Sn Nz F3.
            destruct step as [s|s| |s m e He]; try discriminate; try (cbn in Nz; lra).
            destruct s; [reflexivity|]. exfalso.
            pose proof (F2R_gt_0 radix2 (Float radix2 (Z.pos m) e) eq_refl) as Q. cbn in *. unfold F2R in *; cbn in *. lra. }
          rewrite Sf, Ss in M. destruct (Bmult mode_NE f step); cbn in M; try discriminate M. now injection M as ->. }
      destruct M as [[M1 M2]|M].
      + assert (Sm : B2R first + B2R (Bmult mode_NE f step) <= B2R first) by lra.
        pose proof (rnd_le _ _ Sm) as Sr. rewrite rnd_float in Sr.
        pose proof (Bplus_correct prec emax Hprec Hmax mode_NE first (Bmult mode_NE f step) F1 M1) as C'.
        change (round radix2 (SpecFloat.fexp prec emax) (round_mode mode_NE) ?a) with (rnd a) in C'.
        destruct (Rlt_bool_spec (Rabs (rnd (B2R first + B2R (Bmult mode_NE f step)))) (bpow radix2 emax)) as [O|O].
        * left. destruct C' as (C1 & C2 & _). rewrite C1, C2. auto.
        * right. destruct C' as (C1 & C2).
          assert (Sg : Bsign first = true).
          { destruct (Bsign first) eqn:Sg; [reflexivity|]. exfalso.
            assert (Sb : Bsign (Bmult mode_NE f step) = false) by (symmetry; exact C2).
            assert (Q1 : 0 <= B2R first).
            { clear - Sg F1. destruct first as [s|s| |s m e He]; try discriminate; cbn in Sg; subst; cbn; try lra.
              apply (F2R_ge_0 radix2 (Float radix2 (Z.pos m) e)). cbn. lia. }
            assert (Q2 : 0 <= B2R (Bmult mode_NE f step)).
            { clear - Sb M1. destruct (Bmult mode_NE f step) as [s|s| |s m e He]; try discriminate; cbn in Sb; subst; cbn; try lra.
              apply (F2R_ge_0 radix2 (Float radix2 (Z.pos m) e)). cbn. lia. }
            replace (B2R first + B2R (Bmult mode_NE f step)) with (B2R first) in O by lra.
            rewrite rnd_float in O. pose proof (abs_B2R_lt_emax prec emax first). lra. }
          rewrite Sg in C1. destruct (Bplus mode_NE first (Bmult mode_NE f step)); cbn in C1; try discriminate C1.
          now injection C1 as ->.
      + right. rewrite M. destruct first as [[]|[]| |[]]; try discriminate F1; reflexivity. }
  destruct (of_Z 0 ltac:(lia)) as [E0 F0].
  apply (G fuel 0%Z); cbn [fs_factor fs_first fs_step fs_infinite fs_current fstep_iter_of]; auto; [lia|].
  left. split; [assumption|lra].
Qed.

(** With a nan as first or last there is no end either. *)
Theorem C140_nan :
  forall (first last step : flt), is_nan first = true \/ is_nan last = true ->
  forall fuel, exists l, float_loop_step prec emax first last step false fuel = (l, Running) /\ length l = fuel.
Proof.
  intros first last step N fuel. unfold float_loop_step.
  assert (G : forall fuel i, (is_nan (fs_current _ _ i) = true /\ is_nan (fs_first _ _ i) = true) \/ is_nan last = true ->
    exists l, for_range (fs_ne prec emax) (fs_current prec emax) (fs_incr prec emax) fuel i
                (fstep_iter_of prec emax last step false) = (l, Running) /\ length l = fuel).
  { clear fuel. induction fuel as [|fuel IH]; intros i H.
    - exists []. cbn [for_range]. split; [|reflexivity].
      unfold fs_ne. cbn [fs_current fstep_iter_of].
      replace (Bleb last (fs_current prec emax i)) with false; [now rewrite andb_false_r|].
      destruct H as [[H _]|H]; [destruct (fs_current prec emax i); try discriminate; now destruct last as [[]|[]| |[]]|].
      destruct last; try discriminate; reflexivity.
    - cbn [for_range].
      assert (X : fs_ne prec emax i (fstep_iter_of prec emax last step false) = true).
      { unfold fs_ne. cbn [fs_current fstep_iter_of].
        replace (Bleb last (fs_current prec emax i)) with false; [now rewrite andb_false_r|].
        destruct H as [[H _]|H]; [destruct (fs_current prec emax i); try discriminate; now destruct last as [[]|[]| |[]]|].
        destruct last; try discriminate; reflexivity. }
      rewrite X. cbn [fs_incr]. 
      edestruct IH as (l & E & L); [|rewrite E; eexists; split; [reflexivity|]; cbn; now rewrite L].
      destruct H as [[_ H]|H]; [left|now right]. cbn [fs_current fs_first].
      split; [|assumption]. destruct (fs_first prec emax i); try discriminate. reflexivity. }
  apply G. cbn. tauto.
Qed.

(** ** Unit steps *)

(** Integers: as for integer types. *)
Theorem C140_unit_range :
  forall (a b : Z), (a <= b)%Z -> (Z.abs a <= 2 ^ prec)%Z -> (Z.abs b <= 2 ^ prec)%Z ->
  forall fuel, (Z.to_nat (b - a) <= fuel)%nat ->
  exists l, float_loop prec emax (ieee_of_Z prec emax a) (ieee_of_Z prec emax b) fuel = (l, Finished) /\
    map B2R l = map (fun k => IZR (a + Z.of_nat k)) (seq 0 (Z.to_nat (b - a))).
Proof.
  intros a b Hab Ha Hb. unfold float_loop. destruct (of_Z b Hb) as [Eb Fb].
  pose proof prec_pos as PP. pose proof (Z.pow_pos_nonneg 2 prec ltac:(lia) ltac:(lia)) as P2.
  destruct (of_Z 1 ltac:(lia)) as [E1 F1].
  assert (G : forall m k x fuel, fin x -> B2R x = IZR (a + Z.of_nat k) -> (a + Z.of_nat (k + m) = b)%Z -> (m <= fuel)%nat ->
    exists l, for_range (fi_ne prec emax) (fun i => i) (fi_incr prec emax) fuel x (ieee_of_Z prec emax b) = (l, Finished) /\
      map B2R l = map (fun k => IZR (a + Z.of_nat k)) (seq k m)).
  { induction m as [|m IH]; intros k x fuel Fx Ex E Hf.
    - exists []. split; [|reflexivity].
      assert (X : fi_ne prec emax x (ieee_of_Z prec emax b) = false).
      { unfold fi_ne. rewrite Beqb_correct, Ex, Eb by assumption. rewrite Req_bool_true; [reflexivity|]. f_equal. lia. }
      destruct fuel; cbn [for_range]; rewrite X; reflexivity.
    - destruct fuel as [|fuel]; [lia|]. cbn [for_range].
      assert (X : fi_ne prec emax x (ieee_of_Z prec emax b) = true).
      { unfold fi_ne. rewrite Beqb_correct, Ex, Eb by assumption. rewrite Req_bool_false; [reflexivity|].
        intros C. apply eq_IZR in C. lia. }
      rewrite X. unfold fi_incr at 1.
      assert (R : rnd (B2R x + B2R (ieee_of_Z prec emax 1)) = IZR (a + Z.of_nat (S k))).
      { rewrite Ex, E1, <- plus_IZR. replace (a + Z.of_nat k + 1)%Z with (a + Z.of_nat (S k))%Z by lia.
        apply rnd_id, int_format. lia. }
      destruct (plus_in x (ieee_of_Z prec emax 1) Fx F1) as [P1 P3]; [rewrite R; apply int_small; lia|].
      rewrite R in P1.
      destruct (IH (S k) _ fuel P3 P1 ltac:(lia) ltac:(lia)) as (l & El & Ml). rewrite El.
      eexists. split; [reflexivity|]. cbn [map seq]. now rewrite Ex, Ml. }
  intros fuel Hf. destruct (of_Z a Ha) as [Ea Fa]. apply (G (Z.to_nat (b - a)) 0%nat); auto.
  - rewrite Ea. f_equal. lia.
  - lia.
Qed.

Lemma rnd_int z : exists z', rnd (IZR z) = IZR z'.
Proof.
  pose proof prec_pos as PP. destruct (Z_le_gt_dec (cexp radix2 fmt (IZR z)) 0) as [L|L].
  - exists z. apply rnd_id. replace (IZR z) with (F2R (Float radix2 z 0)) by (unfold F2R; cbn; ring).
    apply generic_format_F2R. intros _. replace (F2R (Float radix2 z 0)) with (IZR z) by (unfold F2R; cbn; ring). exact L.
  - unfold nearest_float, round, F2R. cbn [Fnum Fexp]. set (c := cexp radix2 fmt (IZR z)) in *.
    rewrite <- (IZR_Zpower radix2 c) by lia. rewrite <- mult_IZR. eauto.
Qed.

(** From an integer to a number that is none: no end. *)
Theorem C140_unit_never_meets :
  forall (first last : flt) (a : Z), fin first -> B2R first = IZR a -> fin last ->
  (forall z, B2R last <> IZR z) ->
  forall fuel, exists l, float_loop prec emax first last fuel = (l, Running) /\ length l = fuel.
Proof.
  intros first last a Ff Ef Fl Hl fuel. unfold float_loop.
  pose proof prec_pos as PP. pose proof (Z.pow_pos_nonneg 2 prec ltac:(lia) ltac:(lia)) as P2.
  destruct (of_Z 1 ltac:(lia)) as [E1 F1].
  assert (G : forall fuel x, (fin x /\ exists z, B2R x = IZR z) \/ (exists s, x = B754_infinity s) ->
    exists l, for_range (fi_ne prec emax) (fun i => i) (fi_incr prec emax) fuel x last = (l, Running) /\ length l = fuel).
  { clear fuel. induction fuel as [|fuel IH]; intros x H;
    (assert (X : fi_ne prec emax x last = true);
     [unfold fi_ne; destruct H as [(Fx & z & Ez)|(s & ->)];
       [rewrite Beqb_correct, Ez, Req_bool_false by auto; reflexivity
       |destruct last as [[]|[]| |[]]; try discriminate Fl; now destruct s]|]); cbn [for_range]; rewrite X.
    - exists []. auto.
    - unfold fi_incr at 1. edestruct IH as (l & E & L); [|rewrite E; eexists; split; [reflexivity|]; cbn; now rewrite L].
      destruct H as [(Fx & z & Ez)|(s & ->)].
      + pose proof (Bplus_correct prec emax Hprec Hmax mode_NE x (ieee_of_Z prec emax 1) Fx F1) as C.
        change (round radix2 (SpecFloat.fexp prec emax) (round_mode mode_NE) ?a) with (rnd a) in C.
        destruct (Rlt_bool _ _).
        * left. split; [apply C|]. destruct C as (C & _). rewrite C, Ez, E1, <- plus_IZR. apply rnd_int.
        * right. destruct C as (C & _). unfold binary_overflow in C. cbn [overflow_to_inf] in C.
          exists (Bsign x). destruct (Bplus mode_NE x (ieee_of_Z prec emax 1)); cbn in C; congruence.
      + right. exists s. destruct (ieee_of_Z prec emax 1) as [[]|[]| |[]]; try discriminate F1; now destruct s. }
  apply G. left. eauto.
Qed.

(** Past 2^prec: no end. *)
Theorem C140_unit_too_far :
  forall (a b : Z) (last : flt), (2 <= prec)%Z -> (- 2 ^ prec <= a <= 2 ^ prec)%Z -> (2 ^ prec < b)%Z ->
  fin last -> B2R last = IZR b ->
  forall fuel, exists l, float_loop prec emax (ieee_of_Z prec emax a) last fuel = (l, Running) /\ length l = fuel.
Proof.
  intros a b last H2 Ha Hb Fl El fuel. unfold float_loop.
  pose proof prec_pos as PP. pose proof (Z.pow_pos_nonneg 2 prec ltac:(lia) ltac:(lia)) as P2.
  destruct (of_Z 1 ltac:(lia)) as [E1 F1].
  assert (G : forall fuel x z, fin x -> B2R x = IZR z -> (- 2 ^ prec <= z <= 2 ^ prec)%Z ->
    exists l, for_range (fi_ne prec emax) (fun i => i) (fi_incr prec emax) fuel x last = (l, Running) /\ length l = fuel).
  { clear fuel. induction fuel as [|fuel IH]; intros x z Fx Ez Hz;
    (assert (X : fi_ne prec emax x last = true);
     [unfold fi_ne; rewrite Beqb_correct, Ez, El, Req_bool_false; try assumption; [reflexivity|];
      intros C; apply eq_IZR in C; lia|]); cbn [for_range]; rewrite X.
    - exists []. auto.
    - unfold fi_incr at 1.
      assert (R : exists z', rnd (B2R x + B2R (ieee_of_Z prec emax 1)) = IZR z' /\ (- 2 ^ prec <= z' <= 2 ^ prec)%Z).
      { rewrite Ez, E1. destruct (Z.eq_dec z (2 ^ prec)) as [->|N].
        - exists (2 ^ prec)%Z. split; [now apply factor_stops|lia].
        - exists (z + 1)%Z. split; [|lia]. rewrite <- plus_IZR. apply rnd_id, int_format. lia. }
      destruct R as (z' & R & Hz').
      destruct (plus_in x (ieee_of_Z prec emax 1) Fx F1) as [P1 P3]; [rewrite R; apply int_small; lia|].
      rewrite R in P1. destruct (IH _ z' P3 P1 Hz') as (l & E & L). rewrite E.
      eexists. split; [reflexivity|]. cbn. now rewrite L. }
  destruct (of_Z a ltac:(lia)) as [Ea Fa]. apply (G fuel _ a); auto.
Qed.

End Format.

Print Assumptions C140_stepped_range.
Print Assumptions C140_infinite.
Print Assumptions C140_infinite_values.
Print Assumptions C140_element_error.
Print Assumptions C140_too_many_steps.
Print Assumptions C140_step_not_positive.
Print Assumptions C140_nan.
Print Assumptions C140_unit_range.
Print Assumptions C140_unit_never_meets.
Print Assumptions C140_unit_too_far.

(** Cases: the hypotheses hold for 1, 3 with step 2 up to 5. *)
Lemma element_int prec emax {Hp : Prec_gt_0 prec} {Hm : Prec_lt_emax prec emax} a b k :
  (Z.abs (k * b) <= 2 ^ prec)%Z -> (Z.abs (a + k * b) <= 2 ^ prec)%Z ->
  nearest_float prec emax (IZR k * IZR b) = IZR (k * b) /\ element prec emax (IZR a) (IZR b) k = IZR (a + k * b).
Proof.
  intros H1 H2. unfold element. rewrite <- mult_IZR.
  rewrite (rnd_id prec emax) by (apply (int_format prec emax); assumption). split; [reflexivity|].
  rewrite <- plus_IZR. apply (rnd_id prec emax), (int_format prec emax). assumption.
Qed.

Example C140_stepped_case :
  exists l, float_loop_step 24 128 (ieee_of_Z 24 128 1) (ieee_of_Z 24 128 5) (ieee_of_Z 24 128 2) false 9 = (l, Finished) /\
    map B2R l = [1; 3].
Proof.
  assert (I : forall z, (Z.abs z <= 2 ^ 24)%Z -> B2R (ieee_of_Z 24 128 z) = IZR z /\ is_finite (ieee_of_Z 24 128 z) = true)
    by (intros z Hz; now apply of_Z).
  destruct (I 1%Z ltac:(lia)) as [E1 F1], (I 5%Z ltac:(lia)) as [E5 F5], (I 2%Z ltac:(lia)) as [E2 F2].
  assert (K : forall k, (0 <= k <= 2)%Z -> nearest_float 24 128 (IZR k * 2) = IZR (k * 2) /\ element 24 128 1 2 k = IZR (1 + k * 2))
    by (intros k Hk; apply (element_int 24 128 1 2 k); lia).
  destruct (C140_stepped_range 24 128 _ _ _ 2 F1 F5 F2) with (fuel := 9%nat) as (l & El & Ml & _); rewrite ?E1, ?E5, ?E2.
  - lia.
  - intros k Hk. destruct (K k ltac:(lia)) as [K1 K2]. rewrite K1, K2. split; apply (int_small 24 128); lia.
  - intros k Hk. destruct (K k ltac:(lia)) as [_ K2]. rewrite K2. apply IZR_lt. lia.
  - destruct (K (Z.of_nat 2) ltac:(lia)) as [_ K2]. rewrite K2. apply IZR_le. lia.
  - lia.
  - exists l. split; [exact El|]. rewrite Ml, E1, E2. cbn [map seq].
    destruct (K (Z.of_nat 0) ltac:(lia)) as [_ K0], (K (Z.of_nat 1) ltac:(lia)) as [_ K1]. rewrite K0, K1. reflexivity.
Qed.

(** 1, 3, 5, ... *)
Example C140_infinite_case :
  exists l, float_loop_infinite 24 128 (ieee_of_Z 24 128 1) (ieee_of_Z 24 128 2) 3 = (l, Running) /\ map B2R l = [1; 3; 5].
Proof.
  assert (I : forall z, (Z.abs z <= 2 ^ 24)%Z -> B2R (ieee_of_Z 24 128 z) = IZR z /\ is_finite (ieee_of_Z 24 128 z) = true)
    by (intros z Hz; now apply of_Z).
  destruct (I 1%Z ltac:(lia)) as [E1 F1], (I 2%Z ltac:(lia)) as [E2 F2].
  assert (K : forall k, (0 <= k <= 3)%Z -> nearest_float 24 128 (IZR k * 2) = IZR (k * 2) /\ element 24 128 1 2 k = IZR (1 + k * 2))
    by (intros k Hk; apply (element_int 24 128 1 2 k); lia).
  destruct (C140_infinite_values 24 128 _ _ 3 F1 F2) as (l & El & Ml & _); rewrite ?E1, ?E2.
  - lia.
  - intros k Hk. destruct (K k ltac:(lia)) as [K1 K2]. rewrite K1, K2. split; apply (int_small 24 128); lia.
  - exists l. split; [exact El|]. rewrite Ml, E1, E2. cbn [map seq].
    destruct (K (Z.of_nat 0) ltac:(lia)) as [_ K0], (K (Z.of_nat 1) ltac:(lia)) as [_ K1], (K (Z.of_nat 2) ltac:(lia)) as [_ K2].
    rewrite K0, K1, K2. reflexivity.
Qed.

(** In [float], a range from 0 to a hundred million with step 1 never ends. *)
Example C140_too_many_steps_case : forall fuel, exists l,
  float_loop_step 24 128 (ieee_of_Z 24 128 0) (ieee_of_Z 24 128 100000000) (ieee_of_Z 24 128 1) false fuel = (l, Running) /\
  length l = fuel.
Proof.
  destruct (of_Z 24 128 0 ltac:(lia)) as [E0 F0], (of_Z 24 128 1 ltac:(lia)) as [E1 F1].
  assert (El : B2R (ieee_of_Z 24 128 100000000) = IZR 100000000).
  { assert (X : B2R (ieee_of_Z 24 128 100000000) = F2R (Float radix2 12500000 3)) by reflexivity.
    rewrite X. unfold F2R. cbn. lra. }
  apply C140_too_many_steps; rewrite ?E0, ?E1, ?El; try reflexivity; try lia; try lra.
  - rewrite <- mult_IZR. change (bpow radix2 128) with (IZR (2 ^ 128)). apply IZR_lt. reflexivity.
  - destruct (element_int 24 128 0 1 (2 ^ 24)) as [_ ->]; try lia. apply IZR_lt. reflexivity.
Qed.

(** A step of zero. *)
Example C140_step_not_positive_case : forall fuel, exists l,
  float_loop_step 53 1024 (ieee_of_Z 53 1024 0) (ieee_of_Z 53 1024 1) (ieee_of_Z 53 1024 0) false fuel = (l, Running) /\
  length l = fuel.
Proof.
  destruct (of_Z 53 1024 0 ltac:(lia)) as [E0 F0], (of_Z 53 1024 1 ltac:(lia)) as [E1 F1].
  apply C140_step_not_positive; rewrite ?E0, ?E1; try assumption; lia || lra.
Qed.

(** 3, 4, 5, 6. *)
Example C140_unit_case : exists l,
  float_loop 53 1024 (ieee_of_Z 53 1024 3) (ieee_of_Z 53 1024 7) 9 = (l, Finished) /\ map B2R l = [3; 4; 5; 6].
Proof.
  destruct (C140_unit_range 53 1024 3 7 ltac:(lia) ltac:(lia) ltac:(lia) 9 ltac:(lia)) as (l & E & M).
  exists l. split; [exact E|]. rewrite M. reflexivity.
Qed.

(** From 0 to one half. *)
Example C140_unit_never_meets_case : forall fuel, exists l,
  float_loop 53 1024 (ieee_of_Z 53 1024 0) (Bdiv mode_NE (ieee_of_Z 53 1024 1) (ieee_of_Z 53 1024 2)) fuel = (l, Running) /\
  length l = fuel.
Proof.
  apply (C140_unit_never_meets 53 1024 _ _ 0); try reflexivity. intros z H.
  change (B2R (Bdiv mode_NE (ieee_of_Z 53 1024 1) (ieee_of_Z 53 1024 2) : double)) with (F2R (Float radix2 4503599627370496 (-53))) in H.
  assert (X : IZR (2 * z) = IZR 1) by (rewrite mult_IZR, <- H; unfold F2R; cbn; lra). apply eq_IZR in X. lia.
Qed.

(** From 0 to ten to the sixteen. *)
Example C140_unit_too_far_case : forall fuel, exists l,
  float_loop 53 1024 (ieee_of_Z 53 1024 0) (ieee_of_Z 53 1024 (10 ^ 16)) fuel = (l, Running) /\ length l = fuel.
Proof.
  apply (C140_unit_too_far 53 1024 0 (10 ^ 16)); try lia; try reflexivity.
  assert (X : B2R (ieee_of_Z 53 1024 (10 ^ 16)) = F2R (Float radix2 5000000000000000 1)) by reflexivity.
  rewrite X. unfold F2R. cbn. lra.
Qed.

(** ** C141: the frequency axis of the desktop programs *)

Lemma loop_more {It V} (ne : It -> It -> bool) (deref : It -> V) incr n m i e l :
  for_range ne deref incr n i e = (l, Finished) -> (n <= m)%nat ->
  for_range ne deref incr m i e = (l, Finished).
Proof.
  revert m i l. induction n as [|n IH]; intros m i l H L.
  - cbn [for_range] in H. destruct m; cbn [for_range]; destruct (ne i e); congruence.
  - destruct m as [|m]; [lia|]. cbn [for_range] in *. destruct (ne i e); [|assumption].
    destruct (incr i) as [j|x]; [|discriminate].
    destruct (for_range ne deref incr n j e) as [l' s'] eqn:E. injection H as <- ->.
    now rewrite (IH m j l' E) by lia.
Qed.

Local Notation u53 := (/ 9007199254740992).

(** Shorthand for this part of the proof only. *)
Local Notation step_of N := (nearest_float 53 1024 (/ 2 / IZR (N - 1))).

(** Between a bound on a number and its rounding. *)
Lemma near64 x : Rabs (nearest_float 53 1024 x - x) <= u53 * Rabs x + bpow radix2 (-1075).
Proof.
  pose proof (@mult_err 53 1024 eq_refl x) as E. unfold nearest_float.
  change (bpow radix2 (- (53))) with u53 in E. exact E.
Qed.

Lemma tiny_small : 0 < bpow radix2 (-1075) <= / 2 ^ 200.
Proof.
  split; [apply bpow_gt_0|]. replace (/ 2 ^ 200) with (bpow radix2 (-200)).
  - apply bpow_le. lia.
  - rewrite <- (Rinv_inv (bpow radix2 (-200))).
    rewrite <- bpow_opp. f_equal. change (- (-200))%Z with (Z.of_nat 200). now rewrite bpow_powerRZ, <- pow_powerRZ.
Qed.

(** The size of the elements relative to the end of the range. *)
Lemma axis_bounds (m : Z) (s : R) : (1 <= m < 2 ^ 40)%Z -> s = nearest_float 53 1024 (/ 2 / IZR m) ->
  0 < s < 1 /\
  (forall k, (0 <= k <= m + 2)%Z ->
     Rabs (nearest_float 53 1024 (IZR k * s) - IZR k * (/ 2 / IZR m)) <= bpow radix2 (-51) /\
     Rabs (nearest_float 53 1024 (IZR k * s)) < 4) /\
  nearest_float 53 1024 (IZR m * s) < nearest_float 53 1024 (/ 2 + s) /\
  nearest_float 53 1024 (/ 2 + s) <= nearest_float 53 1024 (IZR (m + 2) * s) /\
  nearest_float 53 1024 (/ 2 + s) < 4.
Proof.
  intros Hm ->. set (h := / 2 / IZR m). set (s := nearest_float 53 1024 h).
  assert (M1 : 1 <= IZR m <= 1099511627776) by (split; apply IZR_le; lia).
  assert (Hh : IZR m * h = / 2) by (unfold h; field; lra).
  assert (H1 : / 2199023255552 <= h <= / 2).
  { unfold h. split.
    - replace (/ 2199023255552) with (/ 2 * / 1099511627776) by field. apply Rmult_le_compat_l; [lra|].
      apply Rinv_le; lra.
    - rewrite <- (Rmult_1_r (/ 2)) at 2. apply Rmult_le_compat_l; [lra|]. rewrite <- Rinv_1. apply Rinv_le; lra. }
  pose proof tiny_small as T. set (t := bpow radix2 (-1075)) in *.
  assert (T' : 0 < t <= / 1606938044258990275541962092341162602522202993782792835301376).
  { replace (/ 1606938044258990275541962092341162602522202993782792835301376) with (/ 2 ^ 200); [exact T|f_equal; ring]. }
  clear T. pose proof (near64 h) as Es. fold s t in Es. rewrite (Rabs_pos_eq h) in Es by lra. apply Rabs_le_inv in Es.
  assert (S1 : / 4398046511104 <= s <= 3 / 4) by lra.
  assert (K : forall k, (0 <= k <= m + 2)%Z -> exists a, 0 <= a <= IZR m + 2 /\ IZR k = a).
  { intros k Hk. exists (IZR k). split; [|reflexivity]. rewrite <- plus_IZR. split; apply IZR_le; lia. }
  assert (E : forall a, 0 <= a <= IZR m + 2 ->
    a * h - (u53 * (a * h) + a * t) <= a * s <= a * h + (u53 * (a * h) + a * t) /\ 0 <= a * h <= 3 / 2 /\
    0 <= a * t <= / 2 ^ 100).
  { intros a Ha.
    assert (a * (s - h) <= a * (u53 * h + t)) by (apply Rmult_le_compat_l; lra).
    assert (a * (- (u53 * h + t)) <= a * (s - h)) by (apply Rmult_le_compat_l; lra).
    assert (0 <= a * h) by (apply Rmult_le_pos; lra).
    assert (a * h <= (IZR m + 2) * h) by (apply Rmult_le_compat_r; lra).
    assert (0 <= a * t) by (apply Rmult_le_pos; lra).
    assert (a * t <= 1099511627779 * t) by (apply Rmult_le_compat_r; lra).
    repeat split; try lra. }
  assert (P100 : / 2 ^ 100 = / 1267650600228229401496703205376) by (f_equal; ring).
  rewrite P100 in E.
  assert (EL : forall a, 0 <= a <= IZR m + 2 ->
    Rabs (nearest_float 53 1024 (a * s) - a * s) <= u53 * (a * s) + t).
  { intros a Ha. pose proof (near64 (a * s)) as X. fold t in X. rewrite (Rabs_pos_eq (a * s)) in X; [exact X|].
    apply Rmult_le_pos; lra. }
  assert (B51 : bpow radix2 (-51) = / 2251799813685248) by reflexivity.
  split; [lra|]. split; [|split; [|split]].
  - intros k Hk. destruct (K k Hk) as (a & Ha & ->). pose proof (E a Ha) as (E1 & E2 & E3).
    pose proof (EL a Ha) as E4. apply Rabs_le_inv in E4. rewrite B51. split; [apply Rabs_le; lra|apply Rabs_lt; lra].
  - pose proof (E (IZR m) ltac:(lra)) as (E1 & E2 & E3). pose proof (EL (IZR m) ltac:(lra)) as E4. apply Rabs_le_inv in E4.
    pose proof (near64 (/ 2 + s)) as E5. fold t in E5. rewrite (Rabs_pos_eq (/ 2 + s)) in E5 by lra. apply Rabs_le_inv in E5.
    rewrite Hh in *. lra.
  - rewrite plus_IZR.
    pose proof (E (IZR m + 2) ltac:(lra)) as (E1 & E2 & E3). pose proof (EL (IZR m + 2) ltac:(lra)) as E4. apply Rabs_le_inv in E4.
    pose proof (near64 (/ 2 + s)) as E5. fold t in E5. rewrite (Rabs_pos_eq (/ 2 + s)) in E5 by lra. apply Rabs_le_inv in E5.
    rewrite (Rmult_plus_distr_r _ _ h), Hh in *. lra.
  - pose proof (near64 (/ 2 + s)) as E5. fold t in E5. rewrite (Rabs_pos_eq (/ 2 + s)) in E5 by lra. apply Rabs_le_inv in E5. lra.
Qed.

Lemma small_in x : Rabs x < 4 -> in_format 1024 x.
Proof. intros H. unfold in_format. eapply Rlt_trans; [exact H|]. change 4 with (bpow radix2 2). apply bpow_lt. lia. Qed.

(** The number of samples is the intended one or one more, and every sample is where it
    should be up to rounding. *)
Theorem C141_samples :
  forall N : Z, (2 <= N <= 2 ^ 40)%Z -> forall fuel, (Z.to_nat N < fuel)%nat ->
  exists l, frequencies N fuel = (l, Finished) /\
    (length l = Z.to_nat N \/ length l = S (Z.to_nat N)) /\
    forall k x, nth_error l k = Some x ->
      is_finite x = true /\ Rabs (B2R x - IZR (Z.of_nat k) * (/ 2 / IZR (N - 1))) <= bpow radix2 (-51).
Proof.
  intros N HN fuel Hf. unfold frequencies.
  set (lo := ieee_of_Z 53 1024 0). set (hi := Bdiv mode_NE (ieee_of_Z 53 1024 1) (ieee_of_Z 53 1024 2)).
  assert (Elo : B2R lo = 0 /\ is_finite lo = true) by (apply (of_Z 53 1024); cbn; lia).
  assert (Ehi : B2R hi = / 2 /\ is_finite hi = true).
  { assert (X : B2R hi = F2R (Float radix2 4503599627370496 (-53))) by reflexivity.
    split; [rewrite X; unfold F2R; cbn; lra|reflexivity]. }
  assert (Edf : B2R (Bminus mode_NE hi lo) = / 2 /\ is_finite (Bminus mode_NE hi lo) = true).
  { assert (X : B2R (Bminus mode_NE hi lo) = F2R (Float radix2 4503599627370496 (-53))) by reflexivity.
    split; [rewrite X; unfold F2R; cbn; lra|reflexivity]. }
  set (df := Bminus mode_NE hi lo) in *. clearbody lo hi df.
  destruct Elo as [Elo Flo], Ehi as [Ehi Fhi], Edf as [Edf Fdf].
  destruct (of_Z 53 1024 (N - 1)) as [Em Fm]; [cbn; lia|].
  set (m := (N - 1)%Z) in *. assert (Hm : (1 <= m < 2 ^ 40)%Z) by lia.
  set (s := nearest_float 53 1024 (/ 2 / IZR m)).
  destruct (axis_bounds m s Hm eq_refl) as (S1 & EL & L1 & L2 & L3).
  pose proof (Bdiv_correct 53 1024 eq_refl eq_refl mode_NE df (ieee_of_Z 53 1024 m)) as D.
  rewrite Em, Edf, Fdf in D. specialize (D ltac:(apply not_0_IZR; lia)).
  change (round radix2 (SpecFloat.fexp 53 1024) (round_mode mode_NE) (/ 2 / IZR m)) with s in D.
  rewrite Rlt_bool_true in D by (apply small_in; rewrite Rabs_pos_eq; lra). destruct D as (D1 & D2 & _).
  set (st := Bdiv mode_NE df (ieee_of_Z 53 1024 m)) in *. clearbody st.
  destruct (plus_in 53 1024 hi st Fhi D2) as [P1 P2].
  { rewrite Ehi, D1. apply small_in. rewrite Rabs_pos_eq; [exact L3|].
    rewrite <- (round_0 radix2 (FLT_exp (3 - 1024 - 53) 53) ZnearestE). apply rnd_le; [reflexivity|lra]. }
  rewrite Ehi, D1 in P1. set (la := Bplus mode_NE hi st) in *. clearbody la.
  assert (Ek : forall k, element 53 1024 (B2R lo) (B2R st) k = nearest_float 53 1024 (IZR k * s)).
  { intros k. unfold element. rewrite Elo, D1, Rplus_0_l. apply rnd_id. apply rnd_format. reflexivity. }
  assert (In : forall k, (0 <= k <= m + 2)%Z ->
     in_format 1024 (nearest_float 53 1024 (IZR k * B2R st)) /\ in_format 1024 (element 53 1024 (B2R lo) (B2R st) k)).
  { intros k Hk. rewrite Ek, D1. split; apply small_in, EL; assumption. }
  assert (Mono : forall j k, (j <= k)%Z -> nearest_float 53 1024 (IZR j * s) <= nearest_float 53 1024 (IZR k * s)).
  { intros j k H. apply rnd_le; [reflexivity|]. apply Rmult_le_compat_r; [lra|]. now apply IZR_le. }
  assert (Fin : forall n, (Z.of_nat n <= m + 2)%Z -> (n <= fuel)%nat ->
    (forall k, (0 <= k < Z.of_nat n)%Z -> element 53 1024 (B2R lo) (B2R st) k < B2R la) ->
    B2R la <= element 53 1024 (B2R lo) (B2R st) (Z.of_nat n) ->
    exists l, float_loop_step 53 1024 lo la st false fuel = (l, Finished) /\ length l = n /\
      forall k x, nth_error l k = Some x ->
      is_finite x = true /\ Rabs (B2R x - IZR (Z.of_nat k) * (/ 2 / IZR m)) <= bpow radix2 (-51)).
  { intros n Hn Hfn Lt Ge.
    destruct (C140_stepped_range 53 1024 lo la st n Flo P2 D2) with (fuel := fuel) as (l & El & Ml & Fl); auto.
    - change (2 ^ 53)%Z with 9007199254740992%Z. lia.
    - intros k Hk. apply In. lia.
    - exists l. split; [exact El|].
      assert (Ln : length l = n) by (rewrite <- (map_length B2R), Ml, map_length, seq_length; reflexivity).
      split; [exact Ln|]. intros k x Hx.
      assert (Hk : (k < n)%nat) by (rewrite <- Ln; apply nth_error_Some; congruence).
      split; [rewrite Forall_forall in Fl; apply Fl; eapply nth_error_In; eassumption|].
      apply (map_nth_error B2R) in Hx. rewrite Ml in Hx.
      assert (Sq : nth_error (seq 0 n) k = Some k).
      { rewrite (nth_error_nth' _ 0%nat) by (rewrite seq_length; lia). now rewrite seq_nth. }
      apply (map_nth_error (fun k => element 53 1024 (B2R lo) (B2R st) (Z.of_nat k))) in Sq. rewrite Sq in Hx.
      injection Hx as <-. rewrite Ek. apply EL. lia. }
  destruct (Rlt_le_dec (nearest_float 53 1024 (IZR (m + 1) * s)) (B2R la)) as [C|C].
  - destruct (Fin (S (Z.to_nat N))) as (l & E1 & E2 & E3); try lia.
    + intros k Hk. rewrite Ek. eapply Rle_lt_trans; [apply (Mono k (m + 1)%Z); lia|exact C].
    + rewrite Ek. replace (Z.of_nat (S (Z.to_nat N))) with (m + 2)%Z by lia. rewrite P1. exact L2.
    + exists l. auto.
  - destruct (Fin (Z.to_nat N)) as (l & E1 & E2 & E3); try lia.
    + intros k Hk. rewrite Ek. eapply Rle_lt_trans; [apply (Mono k m); lia|]. rewrite P1. exact L1.
    + rewrite Ek. replace (Z.of_nat (Z.to_nat N)) with (m + 1)%Z by lia. exact C.
    + exists l. auto.
Qed.
Print Assumptions C141_samples.

(** "Always the intended number" is false: 8 samples instead of 7, the last one beyond half
    the sampling frequency. *)
Theorem C141_intended_number_refuted :
  ~ (forall N : Z, (2 <= N <= 2 ^ 40)%Z -> forall fuel l, frequencies N fuel = (l, Finished) -> length l = Z.to_nat N).
Proof.
  intros H.
  assert (X : let '(l, st) := frequencies 7 9 in st = Finished /\ length l = 8%nat) by (vm_compute; auto).
  specialize (H 7%Z ltac:(lia) 9%nat). destruct (frequencies 7 9) as [l st]. destruct X as [-> L].
  specialize (H l eq_refl). rewrite L in H. vm_compute in H. discriminate.
Qed.
Print Assumptions C141_intended_number_refuted.

(** The programs' numbers of samples, 101 and 201, are met and the last sample is one half
    exactly. *)
Theorem C141_programs :
  forall N : Z, N = 101%Z \/ N = 201%Z -> forall fuel, (Z.to_nat N <= fuel)%nat ->
  exists l, frequencies N fuel = (l, Finished) /\ length l = Z.to_nat N /\
    exists x, nth_error l (Z.to_nat N - 1) = Some x /\ B2R x = / 2.
Proof.
  assert (Hf : forall x : double, B2SF x = SpecFloat.S754_finite false 4503599627370496 (-53) -> B2R x = / 2).
  { intros x E. destruct x as [| | |b m e He]; try discriminate. cbn in E. injection E as -> -> ->. cbn. unfold F2R. cbn. lra. }
  intros N HN fuel Hfl.
  assert (X : let '(l, st) := frequencies N (Z.to_nat N) in st = Finished /\ length l = Z.to_nat N /\
    option_map B2SF (nth_error l (Z.to_nat N - 1)) = Some (SpecFloat.S754_finite false 4503599627370496 (-53))).
  { destruct HN as [-> | ->]; vm_compute; auto. }
  destruct (frequencies N (Z.to_nat N)) as [l st] eqn:E. destruct X as (-> & Ln & La).
  exists l. split; [unfold frequencies, float_loop_step in *; eapply loop_more; eassumption|]. split; [exact Ln|].
  destruct (nth_error l (Z.to_nat N - 1)) as [x|]; [|discriminate]. injection La as La. eauto.
Qed.
Print Assumptions C141_programs.

(** The inner range leaves out both ends. *)
Theorem C141_inner :
  forall fuel, (99 <= fuel)%nat ->
  exists l, inner_frequencies 101 fuel = (l, Finished) /\ length l = 99%nat /\
    Forall (fun x => is_finite x = true /\ 0 < B2R x < / 2) l.
Proof.
  intros fuel Hfl.
  assert (X : let '(l, st) := inner_frequencies 101 99 in st = Finished /\ length l = 99%nat /\
    forallb (fun x => is_finite x && Bltb (ieee_of_Z 53 1024 0) x &&
                      Bltb x (Bdiv mode_NE (ieee_of_Z 53 1024 1) (ieee_of_Z 53 1024 2))) l = true).
  { vm_compute; auto. }
  destruct (inner_frequencies 101 99) as [l st] eqn:E. destruct X as (-> & Ln & La).
  exists l. split; [unfold inner_frequencies, float_loop_step in *; eapply loop_more; eassumption|]. split; [exact Ln|].
  rewrite forallb_forall in La. apply Forall_forall. intros x Hx. specialize (La x Hx).
  apply andb_prop in La. destruct La as [La L3]. apply andb_prop in La. destruct La as [L1 L2].
  assert (F0 : B2R (ieee_of_Z 53 1024 0) = 0) by reflexivity.
  assert (F1 : B2R (Bdiv mode_NE (ieee_of_Z 53 1024 1) (ieee_of_Z 53 1024 2) : double) = / 2).
  { change (B2R (Bdiv mode_NE (ieee_of_Z 53 1024 1) (ieee_of_Z 53 1024 2) : double)) with (F2R (Float radix2 4503599627370496 (-53))).
    unfold F2R. cbn. lra. }
  rewrite Bltb_correct in L2 by (reflexivity || assumption). rewrite Bltb_correct in L3 by (reflexivity || assumption).
  rewrite F0 in L2. rewrite F1 in L3. split; [assumption|].
  destruct (Rlt_bool_spec 0 (B2R x)); [|discriminate]. destruct (Rlt_bool_spec (B2R x) (/ 2)); [|discriminate]. lra.
Qed.
Print Assumptions C141_inner.

(** The case N = 7: the last of the 8 samples is larger than one half. *)
Example C141_case :
  let '(l, st) := frequencies 7 9 in
  st = Finished /\ length l = 8%nat /\
  option_map (fun x => Bltb (Bdiv mode_NE (ieee_of_Z 53 1024 1) (ieee_of_Z 53 1024 2)) x) (nth_error l 7) = Some true.
Proof. vm_compute. auto. Qed.
