(** * Lemmas: the simulation in [double] against exact arithmetic *)

From Coq Require Import Reals List Arith ZArith Bool Lia Lra.
From Flocq Require Import Core BinarySingleNaN.
From Verif Require Import Base Matrix MatrixSpec Scalars Kalman KalmanSpec KalmanProofs PropsKalman PropsRiccati
  KalmanSim PropsKalmanSim Ieee IeeeProofs KalmanIeee Output PropsOutputSim PropsMatlab SimRoundingSpec.
Import ListNotations.

(** ** One pass of the loop, in any arithmetic without undefined operations *)

Section Pass.
Context {T : Type} (zero one : T) (add sub mul div : T -> T -> T) (opp : T -> T) (nz : T -> bool)
  (of_int : Z -> T) (lt : T -> T -> bool).
Let S : scalar T := {| sc_zero := zero; sc_one := one;
  sc_add := fun a b => Ok (add a b); sc_sub := fun a b => Ok (sub a b);
  sc_mul := fun a b => Ok (mul a b); sc_div := fun a b => Ok (div a b);
  sc_opp := fun a => Ok (opp a); sc_nz := nz |}.
Let nt : numeric T := {| nt_sc := S; nt_int := fun z => Ok (of_int z); nt_lt := lt |}.

Definition t_half : T := div (mul (of_int 1) (of_int 1)) (of_int 2).
(** Prediction of the two components of the state. *)
Definition t_pred0 (x y : T) : T :=
  add (add (add zero (mul (of_int 1) x)) (mul (of_int 1) y)) (mul t_half (of_int 1)).
Definition t_pred1 (x y : T) : T :=
  add (add (add zero (mul (of_int 0) x)) (mul (of_int 1) y)) (mul (of_int 1) (of_int 1)).
Definition t_pos (a x y g1 : T) : T := add (t_pred0 x y) (mul (mul t_half g1) a).
Definition t_vel (a x y g2 : T) : T := add (t_pred1 x y) (mul (mul (of_int 1) g2) a).
Definition t_see (x y : T) : T := add (add zero (mul (of_int 1) x)) (mul (of_int 0) y).
Definition t_meas (m x y g : T) : T := add (t_see x y) (mul m g).
Definition t_corr (p k i : T) : T := add p (mul k i).

Lemma pass a i P k0 k1 P' K x y c d t g1 g2 g draws :
  cov_next zero one add sub mul div opp nz (sim_prm mul div of_int a) P = Ok ([Some k0; Some k1], cells P') ->
  lt (mul (of_int i) (of_int 1)) (of_int 50) = true ->
  let x' := t_pos a x y g1 in let y' := t_vel a x y g2 in
  let z := t_meas (of_int 10) x' y' g in
  let p0 := t_pred0 c d in let p1 := t_pred1 c d in
  let v := sub z (t_see p0 p1) in
  let c' := t_corr p0 k0 v in let d' := t_corr p1 k1 v in
  exists t', sim_plots nt (of_int 50) (of_int 10) a (sim_prm mul div of_int a) i [Some x; Some y]
    (st_of K P c d t) ((g1, g2, g) :: draws)
  = (l <- sim_plots nt (of_int 50) (of_int 10) a (sim_prm mul div of_int a) (i + 1) [Some x'; Some y']
        (st_of [Some k0; Some k1] P' c' d' t') draws ;;
     Ok (option_map (cons (z, {| p_pos := x'; p_poshat := c'; p_posgain := k0; p_posecov := e00 P';
       p_vel := y'; p_velhat := d'; p_velgain := k1; p_velecov := e01 P' |})) l)).
Proof.
  intros E L x' y' z p0 p1 v c' d'. unfold cov_next in E. fold S in E.
  apply bind_inv in E as (P1 & E1 & E). apply bind_inv in E as (K2 & E2 & E).
  apply bind_inv in E as (P2 & E3 & E). apply Ok_inj in E.
  assert (K2 = [Some k0; Some k1]) by congruence. assert (P2 = cells P') by congruence. subst K2 P2.
  exists (add t (of_int 1)).
  cbn [sim_plots]. change (nt_int nt i) with (@Ok T (of_int i)); change (nt_lt nt) with lt. rewrite bind_Ok.
  change (sc_mul (nt_sc nt) (of_int i) (kdt (sim_prm mul div of_int a))) with (@Ok T (mul (of_int i) (of_int 1))).
  rewrite bind_Ok, L.
  change (process_noise nt (kdt (sim_prm mul div of_int a)) a g1 g2)
    with (@Ok (matrix T) [Some (mul (mul t_half g1) a); Some (mul (mul (of_int 1) g2) a)]).
  rewrite bind_Ok. change (meas_noise nt (of_int 10) g) with (@Ok T (mul (of_int 10) g)). rewrite bind_Ok.
  set (prm := sim_prm mul div of_int a) in *.
  assert (ES : sim_step nt prm [Some x; Some y] (st_of K P c d t)
      (Some ([Some (mul (mul t_half g1) a); Some (mul (mul (of_int 1) g2) a)], mul (of_int 10) g))
    = Ok ([Some x'; Some y'], [Some z], st_of [Some k0; Some k1] P' c' d' (add t (of_int 1)))).
  { unfold sim_step. change (nt_int nt 1) with (@Ok T (of_int 1)). rewrite bind_Ok.
    change (mat_il (nt_sc nt) 1 1 [of_int 1]) with (@Ok (matrix T) [Some (of_int 1)]). rewrite bind_Ok.
    eassert (X2 : mul_mv (nt_sc nt) 2 2 (kA prm) [Some x; Some y] = Ok [Some _; Some _]) by (cbv; reflexivity).
    rewrite X2, bind_Ok.
    eassert (X3 : mul_Bu (nt_sc nt) 1 (kB prm) [Some (of_int 1)] = Ok [Some _; Some _]) by (cbv; reflexivity).
    rewrite X3, bind_Ok. clear X2 X3.
    match goal with |- context [add_mm (nt_sc nt) 2 1 ?p ?q] =>
      change (add_mm (nt_sc nt) 2 1 p q) with (@Ok (matrix T) [Some (t_pred0 x y); Some (t_pred1 x y)]) end.
    rewrite bind_Ok.
    match goal with |- context [add_mm (nt_sc nt) 2 1 ?p ?q] =>
      change (add_mm (nt_sc nt) 2 1 p q) with (@Ok (matrix T) [Some x'; Some y']) end.
    rewrite bind_Ok. clearbody x' y'.
    change (dot (nt_sc nt) 2 (kH prm) [Some x'; Some y']) with (@Ok T (t_see x' y')). rewrite bind_Ok.
    change (sc_add (nt_sc nt) (t_see x' y') (mul (of_int 10) g)) with (@Ok T z). rewrite bind_Ok.
    clearbody z. change (mat_fill (nt_sc nt) 1 1 z) with (@Ok (matrix T) [Some z]). rewrite bind_Ok.
    unfold update. change (kt (st_of K P c d t)) with t. change (kx (st_of K P c d t)) with [Some c; Some d].
    change (kP (st_of K P c d t)) with (cells P).
    change (sc_add (nt_sc nt) t (kdt prm)) with (@Ok T (add t (of_int 1))). rewrite bind_Ok.
    change (predict_x (nt_sc nt) 1 prm [Some c; Some d] [Some (of_int 1)])
      with (@Ok (matrix T) [Some p0; Some p1]). rewrite bind_Ok. clearbody p0 p1.
    change (nt_sc nt) with S. rewrite E1, bind_Ok, E2, bind_Ok.
    change (correct_x S 1 prm [Some k0; Some k1] [Some p0; Some p1] [Some z])
      with (@Ok (matrix T) [Some c'; Some d']). rewrite bind_Ok, E3, bind_Ok, bind_Ok. reflexivity. }
  match goal with |- context [sim_step ?q1 ?q2 ?q3 ?q4 ?q5] =>
    assert (ES' : sim_step q1 q2 q3 q4 q5
        = Ok ([Some x'; Some y'], [Some z], st_of [Some k0; Some k1] P' c' d' (add t (of_int 1)))) by exact ES;
    rewrite ES', bind_Ok; clear ES ES' end.
  change (at1 1 [Some z] 0) with (@Ok T z). rewrite bind_Ok.
  change (sim_record [Some x'; Some y'] (st_of [Some k0; Some k1] P' c' d' (add t (of_int 1))))
    with (@Ok (plot T) {| p_pos := x'; p_poshat := c'; p_posgain := k0; p_posecov := e00 P';
       p_vel := y'; p_velhat := d'; p_velgain := k1; p_velecov := e01 P' |}).
  rewrite bind_Ok. reflexivity.
Qed.

Lemma pass_end a i K P x y c d t draws :
  lt (mul (of_int i) (of_int 1)) (of_int 50) = false ->
  sim_plots nt (of_int 50) (of_int 10) a (sim_prm mul div of_int a) i [Some x; Some y]
    (st_of K P c d t) draws = Ok (Some []).
Proof.
  intros L. destruct draws as [|[[g1 g2] g] draws]; cbn [sim_plots];
    change (nt_int nt i) with (@Ok T (of_int i)); change (nt_lt nt) with lt; rewrite bind_Ok;
    change (sc_mul (nt_sc nt) (of_int i) (kdt (sim_prm mul div of_int a))) with (@Ok T (mul (of_int i) (of_int 1)));
    rewrite bind_Ok, L; reflexivity.
Qed.

Lemma cov_run_S prm n P k0 k1 P' l :
  cov_next zero one add sub mul div opp nz prm P = Ok ([Some k0; Some k1], cells P') ->
  cov_run zero one add sub mul div opp nz prm (Datatypes.S n) P = Some l ->
  exists l', cov_run zero one add sub mul div opp nz prm n P' = Some l' /\ l = (k0, k1, P') :: l'.
Proof.
  intros E EL. cbn [cov_run] in EL. rewrite E in EL. cbn [cells] in EL.
  replace (M4 (e00 P') (e01 P') (e10 P') (e11 P')) with P' in EL by now destruct P'.
  destruct (cov_run zero one add sub mul div opp nz prm n P') as [l'|]; [|discriminate].
  exists l'. split; [reflexivity|]. cbn [option_map] in EL. congruence.
Qed.
End Pass.

(** ** Bounds on errors and magnitudes, in integers: [e] stands for [e / 2^128] *)

Definition scale : Z := 128.
Definition cap : Z := (2 ^ 400)%Z.
(** A number not smaller than [z / 2^k]. *)
Definition up (k z : Z) : Z := (Z.shiftr z k + 1)%Z.
(** Error and magnitude; [None]: too large. *)
Definition bound := option (Z * Z).
Definition b_round (e m : Z) : bound :=
  if Z.leb (m + e) cap then Some (e + up 53 (m + e) + 1, m)%Z else None.
Definition b_add (a b : bound) : bound :=
  match a, b with Some (e, m), Some (f, n) => b_round (e + f) (m + n) | _, _ => None end.
Definition b_mul (a b : bound) : bound :=
  match a, b with
  | Some (e, m), Some (f, n) => b_round (up scale ((m + e) * f + n * e)) (up scale (m * n))
  | _, _ => None
  end.
(** A gain: lower and upper bound of the exact one, error of the calculated one. *)
Definition b_corr (p : bound) (klo khi ek : Z) (z : bound) : bound :=
  match p, z with
  | Some (ep, mp), Some (ez, mz) =>
      let D := (mz + mp + ez + ep)%Z in
      let E := up scale ((2 ^ scale - klo) * ep + khi * ez + ek * D)%Z in
      let w := up scale ((khi + ek) * D)%Z in
      let Y := up scale ((2 ^ scale - klo) * mp + khi * mz)%Z in
      if Z.leb (Z.max D (2 * w)) cap then b_round (E + (2 * up 53 w + up 106 w + 1)) Y else None
  | _, _ => None
  end.

Local Open Scope R_scope.
Definition unit : R := bpow radix2 (- scale).
Definition near (x : double) (r : R) (b : bound) : Prop :=
  match b with
  | Some (e, m) => is_finite x = true /\ Rabs (B2R x - r) <= IZR e * unit /\ Rabs r <= IZR m * unit
  | None => True
  end.

Lemma unit_pos : 0 < unit.
Proof. apply bpow_gt_0. Qed.

Lemma up_le k z : (0 <= k)%Z -> IZR z * bpow radix2 (- k) <= IZR (up k z).
Proof.
  intros K. unfold up. rewrite Z.shiftr_div_pow2 by exact K.
  pose proof (bpow_gt_0 radix2 k) as P.
  assert (E : bpow radix2 k = IZR (2 ^ k)).
  { rewrite <- IZR_Zpower by exact K. reflexivity. }
  apply Rmult_le_reg_r with (bpow radix2 k); [exact P|].
  rewrite Rmult_assoc, <- bpow_plus. replace (- k + k)%Z with 0%Z by lia. cbn [bpow]. rewrite Rmult_1_r, E, <- mult_IZR.
  apply IZR_le. assert (0 < 2 ^ k)%Z by (apply Z.pow_pos_nonneg; lia).
  pose proof (Z.div_mod z (2 ^ k) ltac:(lia)). pose proof (Z.mod_pos_bound z (2 ^ k) ltac:(lia)). nia.
Qed.

(** A product of two scaled numbers. *)
Lemma up_unit z : IZR z * (unit * unit) <= IZR (up scale z) * unit.
Proof.
  rewrite <- Rmult_assoc. apply Rmult_le_compat_r; [apply Rlt_le, unit_pos|].
  apply up_le. unfold scale; lia.
Qed.

Lemma up_ulp z : bpow radix2 (-53) * (IZR z * unit) <= IZR (up 53 z) * unit.
Proof.
  rewrite <- Rmult_assoc. apply Rmult_le_compat_r; [apply Rlt_le, unit_pos|].
  rewrite Rmult_comm. apply (up_le 53); lia.
Qed.
Lemma up_ulp2 z : bpow radix2 (-53) * (bpow radix2 (-53) * (IZR z * unit)) <= IZR (up 106 z) * unit.
Proof.
  rewrite <- !Rmult_assoc. apply Rmult_le_compat_r; [apply Rlt_le, unit_pos|].
  rewrite Rmult_comm, <- bpow_plus. apply (up_le 106); lia.
Qed.

Lemma tiny : bpow radix2 (3 - 1024 - 53 - 1) <= unit.
Proof. apply bpow_le. unfold scale. lia. Qed.

Lemma cap_ok z : (z <= cap)%Z -> IZR z * unit <= ieee_max 53 1024.
Proof.
  intros H. apply Rle_trans with (IZR cap * unit).
  { apply Rmult_le_compat_r; [apply Rlt_le, unit_pos|now apply IZR_le]. }
  assert (E : IZR cap = bpow radix2 400) by (unfold cap; rewrite <- IZR_Zpower by lia; reflexivity).
  rewrite E. unfold unit. rewrite <- bpow_plus. unfold ieee_max.
  assert (bpow radix2 (400 + - scale) <= bpow radix2 971) by (apply bpow_le; unfold scale; lia).
  change (1024 - 53)%Z with 971%Z. replace (bpow radix2 1024) with (bpow radix2 971 * bpow radix2 53) by (rewrite <- bpow_plus; reflexivity).
  assert (2 <= bpow radix2 53) by (change 2 with (bpow radix2 1); apply bpow_le; lia).
  pose proof (bpow_gt_0 radix2 971).
  set (a := bpow radix2 (400 + - scale)) in *. set (b := bpow radix2 971) in *. set (c := bpow radix2 53) in *. clearbody a b c. nra.
Qed.

Section Ops.
Notation u := (bpow radix2 (-53)).
Let RD : RoundingSpec.rounding double_scalar B2R (fun x => is_finite x = true) u
    (bpow radix2 (3 - 1024 - 53 - 1)) (ieee_max 53 1024) := ieee_rounding 53 1024.

(** What an operation does to a value [v] near [r]. *)
Lemma rounded x v r e m : is_finite x = true ->
  Rabs (B2R x - v) <= u * Rabs v + bpow radix2 (3 - 1024 - 53 - 1) ->
  Rabs (v - r) <= IZR e * unit -> Rabs r <= IZR m * unit -> near x r (b_round e m).
Proof.
  intros F H E M. unfold b_round. destruct (Z.leb_spec (m + e) cap) as [C|C]; [|exact I].
  cbn [near]. split; [exact F|split; [|exact M]].
  assert (V : Rabs v <= IZR (m + e) * unit).
  { rewrite plus_IZR, Rmult_plus_distr_r. replace v with (r + (v - r)) by ring.
    eapply Rle_trans; [apply Rabs_triang|]. lra. }
  replace (B2R x - r) with ((B2R x - v) + (v - r)) by ring.
  eapply Rle_trans; [apply Rabs_triang|].
  pose proof (up_ulp (m + e)). pose proof tiny.
  assert (u * Rabs v <= u * (IZR (m + e) * unit)) by (apply Rmult_le_compat_l; [apply bpow_ge_0|exact V]).
  rewrite !plus_IZR in *. lra.
Qed.

Lemma small v r e m : Rabs (v - r) <= IZR e * unit -> Rabs r <= IZR m * unit -> (m + e <= cap)%Z ->
  Rabs v <= ieee_max 53 1024.
Proof.
  intros E M C. apply Rle_trans with (IZR (m + e) * unit); [|now apply cap_ok].
  rewrite plus_IZR, Rmult_plus_distr_r. replace v with (r + (v - r)) by ring.
  eapply Rle_trans; [apply Rabs_triang|]. lra.
Qed.

Lemma near_add x y r s a b : near x r a -> near y s b -> near (Bplus mode_NE x y) (r + s) (b_add a b).
Proof.
  destruct a as [[e m]|]; [|intros; exact I]. destruct b as [[f n]|]; [|intros; exact I].
  intros (Fx & Ex & Mx) (Fy & Ey & My). cbn [b_add].
  assert (E : Rabs (B2R x + B2R y - (r + s)) <= IZR (e + f) * unit).
  { replace (B2R x + B2R y - (r + s)) with ((B2R x - r) + (B2R y - s)) by ring.
    eapply Rle_trans; [apply Rabs_triang|]. rewrite plus_IZR. lra. }
  assert (M : Rabs (r + s) <= IZR (m + n) * unit).
  { eapply Rle_trans; [apply Rabs_triang|]. rewrite plus_IZR. lra. }
  unfold b_round at 1. destruct (Z.leb_spec (m + n + (e + f)) cap) as [C|C]; [|exact I].
  destruct (RoundingSpec.rd_add _ _ _ _ _ _ RD x y Fx Fy (small _ _ _ _ E M C)) as (q & Eq & Fq & Hq).
  apply Ok_inj in Eq. subst q.
  pose proof (rounded (Bplus mode_NE x y) (B2R x + B2R y) (r + s) (e + f) (m + n) Fq) as Z.
  unfold b_round in Z. rewrite (proj2 (Z.leb_le _ _) C) in Z. apply Z; [|exact E|exact M].
  pose proof (bpow_ge_0 radix2 (3 - 1024 - 53 - 1)). lra.
Qed.

Lemma near_sub x y r s a b : near x r a -> near y s b -> near (Bminus mode_NE x y) (r - s) (b_add a b).
Proof.
  destruct a as [[e m]|]; [|intros; exact I]. destruct b as [[f n]|]; [|intros; exact I].
  intros (Fx & Ex & Mx) (Fy & Ey & My). cbn [b_add].
  assert (E : Rabs (B2R x - B2R y - (r - s)) <= IZR (e + f) * unit).
  { replace (B2R x - B2R y - (r - s)) with ((B2R x - r) + - (B2R y - s)) by ring.
    eapply Rle_trans; [apply Rabs_triang|]. rewrite Rabs_Ropp, plus_IZR. lra. }
  assert (M : Rabs (r - s) <= IZR (m + n) * unit).
  { unfold Rminus. eapply Rle_trans; [apply Rabs_triang|]. rewrite Rabs_Ropp, plus_IZR. lra. }
  unfold b_round at 1. destruct (Z.leb_spec (m + n + (e + f)) cap) as [C|C]; [|exact I].
  destruct (RoundingSpec.rd_sub _ _ _ _ _ _ RD x y Fx Fy (small _ _ _ _ E M C)) as (q & Eq & Fq & Hq).
  apply Ok_inj in Eq. subst q.
  pose proof (rounded (Bminus mode_NE x y) (B2R x - B2R y) (r - s) (e + f) (m + n) Fq) as Z.
  unfold b_round in Z. rewrite (proj2 (Z.leb_le _ _) C) in Z. apply Z; [|exact E|exact M].
  pose proof (bpow_ge_0 radix2 (3 - 1024 - 53 - 1)). lra.
Qed.

Lemma near_mul x y r s a b : near x r a -> near y s b -> near (Bmult mode_NE x y) (r * s) (b_mul a b).
Proof.
  destruct a as [[e m]|]; [|intros; exact I]. destruct b as [[f n]|]; [|intros; exact I].
  intros (Fx & Ex & Mx) (Fy & Ey & My). cbn [b_mul].
  pose proof unit_pos as U.
  assert (Vx : Rabs (B2R x) <= IZR (m + e) * unit).
  { replace (B2R x) with (r + (B2R x - r)) by ring. eapply Rle_trans; [apply Rabs_triang|]. rewrite plus_IZR. lra. }
  assert (E : Rabs (B2R x * B2R y - r * s) <= IZR (up scale ((m + e) * f + n * e)) * unit).
  { replace (B2R x * B2R y - r * s) with (B2R x * (B2R y - s) + s * (B2R x - r)) by ring.
    eapply Rle_trans; [|apply up_unit].
    eapply Rle_trans; [apply Rabs_triang|]. rewrite !Rabs_mult.
    rewrite (plus_IZR ((m + e) * f)), (mult_IZR (m + e)), (mult_IZR n).
    pose proof (Rmult_le_compat _ _ _ _ (Rabs_pos _) (Rabs_pos _) Vx Ey).
    pose proof (Rmult_le_compat _ _ _ _ (Rabs_pos _) (Rabs_pos _) My Ex). lra. }
  assert (M : Rabs (r * s) <= IZR (up scale (m * n)) * unit).
  { eapply Rle_trans; [|apply up_unit]. rewrite Rabs_mult, mult_IZR.
    pose proof (Rmult_le_compat _ _ _ _ (Rabs_pos _) (Rabs_pos _) Mx My). lra. }
  set (E' := up scale ((m + e) * f + n * e)) in *. set (M' := up scale (m * n)) in *.
  unfold b_round at 1. destruct (Z.leb_spec (M' + E') cap) as [C|C]; [|exact I].
  destruct (RoundingSpec.rd_mul _ _ _ _ _ _ RD x y Fx Fy (small _ _ _ _ E M C)) as (q & Eq & Fq & Hq).
  apply Ok_inj in Eq. subst q.
  pose proof (rounded (Bmult mode_NE x y) (B2R x * B2R y) (r * s) E' M' Fq) as Z.
  unfold b_round in Z. rewrite (proj2 (Z.leb_le _ _) C) in Z. apply Z; [exact Hq|exact E|exact M].
Qed.

(** Operations that do not round. *)
Lemma same x y r b : near x r b -> (is_finite x = true -> is_finite y = true /\ B2R y = B2R x) -> near y r b.
Proof.
  destruct b as [[e m]|]; [|auto]. intros (F & E & M) H. destruct (H F) as (F' & E'). cbn [near]. rewrite E'. auto.
Qed.

Lemma small_fin (x : double) : Rlt_bool (Rabs (round radix2 (FLT_exp (3 - 1024 - 53) 53) ZnearestE (B2R x)))
  (bpow radix2 1024) = true.
Proof.
  rewrite round_generic by (try apply valid_rnd_N; apply fin_format).
  apply Rlt_bool_true. apply abs_B2R_lt_emax.
Qed.

Lemma near_zero_plus x y r b : near y r b -> is_finite x = true -> B2R x = 0 -> near (Bplus mode_NE x y) r b.
Proof.
  intros H Fx Ex. eapply same; [exact H|]. intros F.
  pose proof (Bplus_correct 53 1024 _ _ mode_NE x y Fx F) as C.
  change (round_mode mode_NE) with ZnearestE in C. change (SpecFloat.fexp 53 1024) with (FLT_exp (3 - 1024 - 53) 53) in C.
  rewrite Ex, Rplus_0_l, small_fin in C. destruct C as (C & F' & _).
  rewrite round_generic in C by (try apply valid_rnd_N; apply fin_format). auto.
Qed.

Lemma near_plus_zero x y r b : near x r b -> is_finite y = true -> B2R y = 0 -> near (Bplus mode_NE x y) r b.
Proof.
  intros H Fy Ey. eapply same; [exact H|]. intros F.
  pose proof (Bplus_correct 53 1024 _ _ mode_NE x y F Fy) as C.
  change (round_mode mode_NE) with ZnearestE in C. change (SpecFloat.fexp 53 1024) with (FLT_exp (3 - 1024 - 53) 53) in C.
  rewrite Ey, Rplus_0_r, small_fin in C. destruct C as (C & F' & _).
  rewrite round_generic in C by (try apply valid_rnd_N; apply fin_format). auto.
Qed.

Lemma dint_value n : (Z.abs n <= 2 ^ 53)%Z -> is_finite (dint n) = true /\ B2R (dint n) = IZR n.
Proof.
  intros H. pose proof (binary_normalize_correct 53 1024 _ _ mode_NE n 0 false) as C.
  change (round_mode mode_NE) with ZnearestE in C. change (SpecFloat.fexp 53 1024) with (FLT_exp (3 - 1024 - 53) 53) in C.
  assert (EF : F2R (Float radix2 n 0) = IZR n) by (unfold F2R; cbn [Fnum Fexp bpow]; ring).
  rewrite EF in C. cbv zeta in C.
  assert (G : generic_format radix2 (FLT_exp (3 - 1024 - 53) 53) (IZR n)).
  { destruct (Z.eq_dec (Z.abs n) (2 ^ 53)) as [E|N].
    - rewrite <- EF. apply generic_format_FLT.
      assert (n = 2 ^ 53 \/ n = - 2 ^ 53)%Z as [->| ->] by lia.
      + exists (Float radix2 1 53); [rewrite EF; unfold F2R; cbn; lra|cbn; lia|cbn; lia].
      + exists (Float radix2 (-1) 53); [rewrite EF; unfold F2R; cbn; lra|cbn; lia|cbn; lia].
    - apply generic_format_FLT. exists (Float radix2 n 0); [symmetry; exact EF|cbn [Fnum]; change (radix_val radix2) with 2%Z; lia|cbn; lia]. }
  rewrite round_generic in C by (try apply valid_rnd_N; exact G).
  rewrite Rlt_bool_true in C.
  - destruct C as (E & F & _). split; [exact F|exact E].
  - rewrite <- abs_IZR. apply Rle_lt_trans with (IZR (2 ^ 53)); [now apply IZR_le|].
    change (2 ^ 53)%Z with (radix_val radix2 ^ 53)%Z. rewrite IZR_Zpower by lia. apply bpow_lt. lia.
Qed.

Lemma near_one_times x r b : near x r b -> near (Bmult mode_NE (dint 1) x) r b.
Proof.
  intros H. eapply same; [exact H|]. intros F. destruct (dint_value 1 ltac:(lia)) as (F1 & E1).
  pose proof (Bmult_correct 53 1024 _ _ mode_NE (dint 1) x) as C.
  change (round_mode mode_NE) with ZnearestE in C. change (SpecFloat.fexp 53 1024) with (FLT_exp (3 - 1024 - 53) 53) in C.
  rewrite E1, Rmult_1_l, small_fin in C. destruct C as (C & F' & _).
  rewrite round_generic in C by (try apply valid_rnd_N; apply fin_format). rewrite F', F1, F. auto.
Qed.

Lemma zero_times x : is_finite x = true ->
  is_finite (Bmult mode_NE (dint 0) x) = true /\ B2R (Bmult mode_NE (dint 0) x) = 0.
Proof.
  intros F. destruct (dint_value 0 ltac:(lia)) as (F1 & E1).
  pose proof (Bmult_correct 53 1024 _ _ mode_NE (dint 0) x) as C.
  change (round_mode mode_NE) with ZnearestE in C. change (SpecFloat.fexp 53 1024) with (FLT_exp (3 - 1024 - 53) 53) in C.
  rewrite E1, Rmult_0_l, round_0, Rabs_R0, Rlt_bool_true in C by (try apply bpow_gt_0; apply valid_rnd_N).
  destruct C as (C & F' & _). rewrite F', F1, F. auto.
Qed.

Lemma near_fin x r b : near x r b -> b <> None -> is_finite x = true.
Proof. destruct b as [[e m]|]; [|congruence]. intros (F & _) _. exact F. Qed.

(** The correction, whose error does not grow like that of a sum. *)
Lemma near_corr p p' k z P K Z bp klo khi ek bz :
  near p P bp -> (is_finite p = true -> is_finite p' = true /\ B2R p' = B2R p) ->
  near z Z bz -> is_finite k = true ->
  IZR klo * unit <= K <= IZR khi * unit -> 0 <= K <= 1 -> Rabs (B2R k - K) <= IZR ek * unit ->
  near (Bplus mode_NE p (Bmult mode_NE k (Bminus mode_NE z p'))) (P + K * (Z - P)) (b_corr bp klo khi ek bz).
Proof.
  destruct bp as [[ep mp]|]; [|intros; exact I]. destruct bz as [[ez mz]|]; [|intros; exact I].
  intros (Fp & Ep & Mp) Sp (Fz & Ez & Mz) Fk Kb K1 Ek. destruct (Sp Fp) as (Fp' & Ep'). unfold b_corr.
  set (D := (mz + mp + ez + ep)%Z). cbv zeta.
  set (E := up scale ((2 ^ scale - klo) * ep + khi * ez + ek * D)).
  set (w := up scale ((khi + ek) * D)).
  set (Y := up scale ((2 ^ scale - klo) * mp + khi * mz)).
  destruct (Z.leb_spec (Z.max D (2 * w)) cap) as [C|C]; [|exact I].
  pose proof unit_pos as U.
  assert (U1 : IZR (2 ^ scale) * unit = 1).
  { unfold unit. change (2 ^ scale)%Z with (radix_val radix2 ^ scale)%Z. rewrite IZR_Zpower by (unfold scale; lia).
    rewrite <- bpow_plus. replace (scale + - scale)%Z with 0%Z by lia. reflexivity. }
  set (d := B2R z - B2R p).
  assert (Hd : Rabs d <= IZR D * unit).
  { unfold d, D. replace (B2R z - B2R p) with ((Z + (B2R z - Z)) + - (P + (B2R p - P))) by ring.
    eapply Rle_trans; [apply Rabs_triang|]. rewrite Rabs_Ropp. rewrite !plus_IZR.
    pose proof (Rabs_triang Z (B2R z - Z)). pose proof (Rabs_triang P (B2R p - P)). lra. }
  assert (Pd : 0 <= IZR D * unit) by (pose proof (Rabs_pos d); lra).
  assert (Pk : 0 <= IZR khi * unit) by lra.
  assert (Pek : 0 <= IZR ek * unit) by (pose proof (Rabs_pos (B2R k - K)); lra).
  assert (Hk : Rabs (B2R k) <= IZR (khi + ek) * unit).
  { replace (B2R k) with (K + (B2R k - K)) by ring. eapply Rle_trans; [apply Rabs_triang|].
    rewrite plus_IZR, (Rabs_pos_eq K) by lra. lra. }
  assert (Hw : Rabs (B2R k) * Rabs d <= IZR w * unit).
  { eapply Rle_trans; [|apply up_unit]. rewrite mult_IZR.
    pose proof (Rmult_le_compat _ _ _ _ (Rabs_pos _) (Rabs_pos _) Hk Hd). lra. }
  assert (Pw : 0 <= IZR w * unit) by (pose proof (Rmult_le_pos _ _ (Rabs_pos (B2R k)) (Rabs_pos d)); lra).
  (* the main part *)
  assert (HE : Rabs (B2R p + B2R k * d - (P + K * (Z - P))) <= IZR E * unit).
  { replace (B2R p + B2R k * d - (P + K * (Z - P)))
      with ((1 - K) * (B2R p - P) + K * (B2R z - Z) + (B2R k - K) * d) by (unfold d; ring).
    eapply Rle_trans; [|apply up_unit].
    eapply Rle_trans; [apply Rabs_triang|]. eapply Rle_trans; [apply Rplus_le_compat_r, Rabs_triang|].
    rewrite !Rabs_mult, (Rabs_pos_eq (1 - K)), (Rabs_pos_eq K) by lra.
    rewrite !plus_IZR, !mult_IZR, minus_IZR.
    assert (A1 : (1 - K) * Rabs (B2R p - P) <= (1 - IZR klo * unit) * (IZR ep * unit))
      by (apply Rmult_le_compat; [lra|apply Rabs_pos|lra|exact Ep]).
    assert (A2 : K * Rabs (B2R z - Z) <= (IZR khi * unit) * (IZR ez * unit))
      by (apply Rmult_le_compat; [lra|apply Rabs_pos|lra|exact Ez]).
    assert (A3 : Rabs (B2R k - K) * Rabs d <= (IZR ek * unit) * (IZR D * unit))
      by (apply Rmult_le_compat; [apply Rabs_pos|apply Rabs_pos|exact Ek|exact Hd]).
    rewrite <- U1 in A1 at 2. lra. }
  assert (HY : Rabs (P + K * (Z - P)) <= IZR Y * unit).
  { replace (P + K * (Z - P)) with ((1 - K) * P + K * Z) by ring.
    eapply Rle_trans; [|apply up_unit].
    eapply Rle_trans; [apply Rabs_triang|].
    rewrite !Rabs_mult, (Rabs_pos_eq (1 - K)), (Rabs_pos_eq K) by lra.
    rewrite !plus_IZR, !mult_IZR, minus_IZR.
    assert (A1 : (1 - K) * Rabs P <= (1 - IZR klo * unit) * (IZR mp * unit))
      by (apply Rmult_le_compat; [lra|apply Rabs_pos|lra|exact Mp]).
    assert (A2 : K * Rabs Z <= (IZR khi * unit) * (IZR mz * unit))
      by (apply Rmult_le_compat; [lra|apply Rabs_pos|lra|exact Mz]).
    rewrite <- U1 in A1 at 2. lra. }
  set (G := (2 * up 53 w + up 106 w + 1)%Z).
  unfold b_round at 1. destruct (Z.leb_spec (Y + (E + G)) cap) as [C'|C']; [|exact I].
  assert (U53 : 0 <= u <= 1).
  { split; [apply bpow_ge_0|]. change 1 with (bpow radix2 0). apply bpow_le. lia. }
  destruct (RoundingSpec.rd_sub _ _ _ _ _ _ RD z p' Fz Fp') as (i & Ei & Fi & Hi).
  { rewrite Ep'. fold d. eapply Rle_trans; [exact Hd|]. apply cap_ok. lia. }
  apply Ok_inj in Ei. rewrite Ep' in Hi. fold d in Hi. rewrite Ei.
  assert (Hi' : Rabs (B2R i) <= (1 + u) * Rabs d).
  { replace (B2R i) with ((B2R i - d) + d) by ring. eapply Rle_trans; [apply Rabs_triang|]. lra. }
  assert (Hki : Rabs (B2R k * B2R i) <= (1 + u) * (IZR w * unit)).
  { rewrite Rabs_mult. apply Rle_trans with (Rabs (B2R k) * ((1 + u) * Rabs d)).
    - apply Rmult_le_compat_l; [apply Rabs_pos|exact Hi'].
    - replace (Rabs (B2R k) * ((1 + u) * Rabs d)) with ((1 + u) * (Rabs (B2R k) * Rabs d)) by ring.
      apply Rmult_le_compat_l; [lra|exact Hw]. }
  destruct (RoundingSpec.rd_mul _ _ _ _ _ _ RD k i Fk Fi) as (t & Et & Ft & Ht).
  { eapply Rle_trans; [exact Hki|]. eapply Rle_trans; [|apply (cap_ok (2 * w)); lia].
    rewrite mult_IZR. assert (u * (IZR w * unit) <= 1 * (IZR w * unit)) by (apply Rmult_le_compat_r; lra). lra. }
  apply Ok_inj in Et. rewrite Et.
  assert (HG : Rabs (B2R t - B2R k * d) <= IZR G * unit).
  { replace (B2R t - B2R k * d) with ((B2R t - B2R k * B2R i) + B2R k * (B2R i - d)) by ring.
    eapply Rle_trans; [apply Rabs_triang|]. rewrite Rabs_mult.
    assert (A1 : Rabs (B2R k) * Rabs (B2R i - d) <= u * (IZR w * unit)).
    { apply Rle_trans with (Rabs (B2R k) * (u * Rabs d)); [apply Rmult_le_compat_l; [apply Rabs_pos|exact Hi]|].
      replace (Rabs (B2R k) * (u * Rabs d)) with (u * (Rabs (B2R k) * Rabs d)) by ring.
      apply Rmult_le_compat_l; [lra|exact Hw]. }
    assert (A2 : u * Rabs (B2R k * B2R i) <= u * (IZR w * unit) + u * (u * (IZR w * unit))).
    { eapply Rle_trans; [apply Rmult_le_compat_l; [lra|exact Hki]|]. lra. }
    pose proof (up_ulp w). pose proof (up_ulp2 w). pose proof tiny.
    unfold G. rewrite !plus_IZR, mult_IZR. 
    change (bpow radix2 (- (53))) with u in Ht. lra. }
  assert (HV : Rabs (B2R p + B2R t - (P + K * (Z - P))) <= IZR (E + G) * unit).
  { replace (B2R p + B2R t - (P + K * (Z - P)))
      with ((B2R p + B2R k * d - (P + K * (Z - P))) + (B2R t - B2R k * d)) by ring.
    eapply Rle_trans; [apply Rabs_triang|]. rewrite plus_IZR. lra. }
  destruct (RoundingSpec.rd_add _ _ _ _ _ _ RD p t Fp Ft (small _ _ _ _ HV HY C')) as (q & Eq & Fq & Hq).
  apply Ok_inj in Eq. subst q.
  pose proof (rounded (Bplus mode_NE p t) (B2R p + B2R t) (P + K * (Z - P)) (E + G)%Z Y Fq) as X.
  unfold b_round in X. rewrite (proj2 (Z.leb_le _ _) C') in X. apply X; [|exact HV|exact HY].
  pose proof (bpow_ge_0 radix2 (3 - 1024 - 53 - 1)). lra.
Qed.
End Ops.

(** ** Enclosures of the exact gains and covariances *)

Definition inside (r : R) (i : Z * Z) : Prop := IZR (fst i) * unit <= r <= IZR (snd i) * unit.
Definition one_z : Z := (2 ^ scale)%Z.
Lemma one_unit : IZR one_z * unit = 1.
Proof.
  unfold unit, one_z. change (2 ^ scale)%Z with (radix_val radix2 ^ scale)%Z. rewrite IZR_Zpower by (unfold scale; lia).
  rewrite <- bpow_plus. replace (scale + - scale)%Z with 0%Z by lia. reflexivity.
Qed.

Definition i_add (a b : Z * Z) : Z * Z := (fst a + fst b, snd a + snd b)%Z.
Definition i_ratio (n d : Z) : Z * Z := (n * one_z / d, n * one_z / d + 1)%Z.

Lemma i_add_ok a b i j : inside a i -> inside b j -> inside (a + b) (i_add i j).
Proof. unfold inside, i_add; cbn [fst snd]. rewrite !plus_IZR. lra. Qed.

(** The quotient of integers, rounded down and up. *)
Lemma div_low n d : (0 < d)%Z -> IZR (n / d) * IZR d <= IZR n.
Proof. intros D. rewrite <- mult_IZR. apply IZR_le. pose proof (Z.mul_div_le n d D). lia. Qed.
Lemma div_high n d : (0 < d)%Z -> IZR n <= IZR (n / d + 1) * IZR d.
Proof. intros D. rewrite <- mult_IZR. apply IZR_le. pose proof (Z.mul_succ_div_gt n d D). lia. Qed.

Lemma i_ratio_ok n d : (0 < d)%Z -> inside (IZR n / IZR d) (i_ratio n d).
Proof.
  intros D. pose proof (IZR_lt _ _ D) as D'. unfold inside, i_ratio; cbn [fst snd].
  pose proof (div_low (n * one_z) d D) as L. pose proof (div_high (n * one_z) d D) as H.
  pose proof unit_pos as U. pose proof one_unit as O. rewrite mult_IZR in L, H.
  assert (X : IZR n * IZR one_z * unit = IZR n) by (rewrite Rmult_assoc, O; ring).
  split; apply Rmult_le_reg_r with (IZR d); try assumption; unfold Rdiv; rewrite ?(Rmult_assoc (IZR n)), ?Rinv_l, ?Rmult_1_r by lra.
  - apply Rmult_le_compat_r with (r := unit) in L; [|lra]. rewrite X in L. lra.
  - apply Rmult_le_compat_r with (r := unit) in H; [|lra]. rewrite X in H. lra.
Qed.

(** The covariance: position, position and velocity, velocity. *)
Record icov := ICov { i00 : Z * Z; i01 : Z * Z; i11 : Z * Z }.
Definition cov_in (P : mat2) (c : icov) : Prop :=
  inside (m00 P) (i00 c) /\ inside (m01 P) (i01 c) /\ m10 P = m01 P /\ inside (m11 P) (i11 c).

Definition i_step (c : icov) : option ((Z * Z) * (Z * Z) * icov) :=
  let a := i_add (i_add (i_add (i_add (i00 c) (i01 c)) (i01 c)) (i11 c)) (i_ratio 1 100) in
  let b := i_add (i_add (i01 c) (i11 c)) (i_ratio 2 100) in
  let d := i_add (i11 c) (i_ratio 4 100) in
  if Z.leb 0 (fst a) && Z.leb 0 (fst b) then
    let slo := (fst a + 100 * one_z)%Z in let shi := (snd a + 100 * one_z)%Z in
    let k0 := (fst a * one_z / slo, snd a * one_z / shi + 1)%Z in
    let k1 := (fst b * one_z / shi, snd b * one_z / slo + 1)%Z in
    Some (k0, k1, ICov (100 * fst k0, 100 * snd k0)%Z (100 * fst k1, 100 * snd k1)%Z
      (fst d - up scale (snd b * snd k1), snd d - (Z.shiftr (fst b * fst k1) scale))%Z)
  else None.

Lemma shift_le z : IZR (Z.shiftr z scale) * unit <= IZR z * (unit * unit).
Proof.
  rewrite Z.shiftr_div_pow2 by (unfold scale; lia). fold one_z.
  pose proof (div_low z one_z ltac:(unfold one_z, scale; lia)) as L.
  pose proof unit_pos as U. pose proof one_unit as O.
  apply Rmult_le_compat_r with (r := unit * unit) in L; [|apply Rmult_le_pos; lra].
  replace (IZR (z / one_z) * IZR one_z * (unit * unit)) with (IZR (z / one_z) * (IZR one_z * unit) * unit) in L by ring.
  rewrite O in L. lra.
Qed.

Lemma kstep_sim K p q t Y0 Y1 tt z : 0 <= p + q + q + t + 1/100 ->
  let a := p + q + q + t + 1/100 in let b := q + t + 2/100 in let d := t + 4/100 in
  let k0 := a / (a + 100) in let k1 := b / (a + 100) in
  let p0 := Y0 + Y1 + 1/2 in let p1 := Y1 + 1 in
  kstep sim_sys (Est K (M2 p q q t) (V2 Y0 Y1) tt) 1 z
  = Est (Some (V2 k0 k1)) (M2 (100 * k0) (100 * k1) (100 * k1) (d - b * k1))
      (V2 (p0 + k0 * (z - p0)) (p1 + k1 * (z - p0))) (tt + 1).
Proof.
  intros A a b d k0 k1 p0 p1. fold a in A.
  assert (EP : Ppred sim_sys (M2 p q q t) = M2 a b b d).
  { unfold Ppred, sim_sys, sim_Q, a, b, d. apply mat2_eq; simpl; lra. }
  unfold kstep. cbn [eP ex et]. rewrite EP. cbv zeta. 
  assert (ES : Sinn sim_sys (M2 a b b d) = a + 100).
  { unfold Sinn, quad, vdot, mv, sim_sys; simpl. clearbody a b d. ring. }
  assert (EK : kgain sim_sys (M2 a b b d) = V2 k0 k1).
  { unfold kgain. rewrite ES. destruct (Req_EM_T (a + 100) 0) as [E|_]; [lra|].
    unfold Kopt. rewrite ES. unfold k0, k1, Rdiv. apply vec2_eq; unfold mv, vscale, sim_sys; simpl; clearbody a b d; ring. }
  rewrite EK. f_equal.
  - unfold Pcorr, k0, k1, sim_sys. apply mat2_eq; simpl; clearbody a b d; field; lra.
  - unfold xcorr, xpred, vdot, sim_sys, p0, p1. apply vec2_eq; simpl; lra.
Qed.

Lemma some_inj {A} (x y : A) : Some x = Some y -> x = y.
Proof. congruence. Qed.

Lemma i_step_ok K P Y0 Y1 tt z c k0 k1 c' :
  cov_in P c -> i_step c = Some (k0, k1, c') ->
  exists K0 K1, inside K0 k0 /\ 0 <= K0 <= 1 /\ inside K1 k1 /\ 0 <= K1 /\
    let p0 := Y0 + Y1 + 1/2 in let p1 := Y1 + 1 in
    let e' := kstep sim_sys (Est K P (V2 Y0 Y1) tt) 1 z in
    eK e' = Some (V2 K0 K1) /\ cov_in (eP e') c' /\ ex e' = V2 (p0 + K0 * (z - p0)) (p1 + K1 * (z - p0)).
Proof.
  destruct P as [p q q' t]. intros (I0 & I1 & Q & I2). cbn [m00 m01 m10 m11] in *. subst q'.
  unfold i_step.
  assert (IA : inside (p + q + q + t + 1/100) (i_add (i_add (i_add (i_add (i00 c) (i01 c)) (i01 c)) (i11 c)) (i_ratio 1 100)))
    by (apply i_add_ok; [apply i_add_ok; [apply i_add_ok; [apply i_add_ok; assumption|assumption]|assumption]|]; apply (i_ratio_ok 1 100); reflexivity).
  assert (IB : inside (q + t + 2/100) (i_add (i_add (i01 c) (i11 c)) (i_ratio 2 100)))
    by (apply i_add_ok; [apply i_add_ok; assumption|]; apply (i_ratio_ok 2 100); reflexivity).
  assert (ID : inside (t + 4/100) (i_add (i11 c) (i_ratio 4 100)))
    by (apply i_add_ok; [assumption|]; apply (i_ratio_ok 4 100); reflexivity).
  set (ia := i_add (i_add _ _) _) in *. set (ib := i_add (i_add _ _) (i_ratio 2 100)) in *.
  set (id := i_add _ (i_ratio 4 100)) in *. clearbody ia ib id.
  destruct ia as [alo ahi], ib as [blo bhi], id as [dlo dhi]. cbn [fst snd] in *.
  destruct (Z.leb_spec 0 alo) as [PA|]; [|discriminate].
  destruct (Z.leb_spec 0 blo) as [PB|]; [|discriminate]. cbn [andb].
  intros E. apply some_inj in E. apply pair_equal_spec in E as [E E3]. apply pair_equal_spec in E as [E1 E2].
  subst k0 k1 c'.
  pose proof (kstep_sim K p q t Y0 Y1 tt z) as KS. cbv zeta in KS.
  set (a := p + q + q + t + 1/100) in *. set (b := q + t + 2/100) in *. set (d := t + 4/100) in *.
  unfold inside in IA, IB, ID. cbn [fst snd] in IA, IB, ID.
  pose proof unit_pos as U. pose proof one_unit as O.
  assert (O1 : (0 < one_z)%Z) by (unfold one_z, scale; lia).
  pose proof (IZR_le _ _ PA) as PA'. pose proof (IZR_le _ _ PB) as PB'.
  assert (A0 : 0 <= IZR alo * unit) by (apply Rmult_le_pos; lra).
  assert (B0 : 0 <= IZR blo * unit) by (apply Rmult_le_pos; lra).
  rewrite KS by lra. clear KS. clearbody a b d.
  assert (PAH : (0 <= ahi)%Z).
  { apply le_IZR. apply Rmult_le_reg_r with unit; [exact U|]. lra. }
  assert (PBH : (0 <= bhi)%Z).
  { apply le_IZR. apply Rmult_le_reg_r with unit; [exact U|]. lra. }
  set (slo := (alo + 100 * one_z)%Z) in *. set (shi := (ahi + 100 * one_z)%Z) in *.
  assert (SL : IZR slo * unit = IZR alo * unit + 100) by (unfold slo; rewrite plus_IZR, mult_IZR; lra).
  assert (SH : IZR shi * unit = IZR ahi * unit + 100) by (unfold shi; rewrite plus_IZR, mult_IZR; lra).
  assert (SLp : (0 < slo)%Z) by (unfold slo; lia). assert (SHp : (0 < shi)%Z) by (unfold shi; lia).
  (* a quotient of scaled numbers *)
  assert (QL : forall n s, (0 < s)%Z -> IZR (n * one_z / s) * unit * (IZR s * unit) <= IZR n * unit).
  { intros n s S. pose proof (div_low (n * one_z) s S) as L. rewrite mult_IZR in L.
    apply Rmult_le_compat_r with (r := unit * unit) in L; [|apply Rmult_le_pos; lra].
    replace (IZR n * IZR one_z * (unit * unit)) with (IZR n * (IZR one_z * unit) * unit) in L by ring.
    rewrite O in L. lra. }
  assert (QH : forall n s, (0 < s)%Z -> IZR n * unit <= IZR (n * one_z / s + 1) * unit * (IZR s * unit)).
  { intros n s S. pose proof (div_high (n * one_z) s S) as L. rewrite mult_IZR in L.
    apply Rmult_le_compat_r with (r := unit * unit) in L; [|apply Rmult_le_pos; lra].
    replace (IZR n * IZR one_z * (unit * unit)) with (IZR n * (IZR one_z * unit) * unit) in L by ring.
    rewrite O in L. lra. }
  pose proof (QL alo slo SLp) as L0. pose proof (QH ahi shi SHp) as H0.
  pose proof (QL blo shi SHp) as L1. pose proof (QH bhi slo SLp) as H1.
  assert (N0 : (0 <= ahi * one_z / shi)%Z) by (apply Z.div_pos; nia).
  assert (N1 : (0 <= bhi * one_z / slo)%Z) by (apply Z.div_pos; nia).
  assert (N2 : (0 <= blo * one_z / shi)%Z) by (apply Z.div_pos; nia).
  set (k0l := (alo * one_z / slo)%Z) in *. set (k0h := (ahi * one_z / shi + 1)%Z) in *.
  set (k1l := (blo * one_z / shi)%Z) in *. set (k1h := (bhi * one_z / slo + 1)%Z) in *.
  assert (N0' : 0 <= IZR k0h * unit) by (apply Rmult_le_pos; [apply IZR_le; unfold k0h; lia|lra]).
  assert (N1' : 0 <= IZR k1h * unit) by (apply Rmult_le_pos; [apply IZR_le; unfold k1h; lia|lra]).
  assert (N2' : 0 <= IZR k1l * unit) by (apply Rmult_le_pos; [apply IZR_le; unfold k1l; lia|lra]).
  rewrite SL in L0, H1. rewrite SH in L1, H0.
  clearbody k0l k0h k1l k1h slo shi.
  set (AL := IZR alo * unit) in *. set (AH := IZR ahi * unit) in *.
  set (BL := IZR blo * unit) in *. set (BH := IZR bhi * unit) in *.
  assert (S0 : 0 < a + 100) by lra.
  assert (K0b : inside (a / (a + 100)) (k0l, k0h)).
  { unfold inside; cbn [fst snd]. split.
    - apply Rmult_le_reg_r with (a + 100); [exact S0|]. unfold Rdiv. rewrite (Rmult_assoc a), Rinv_l, Rmult_1_r by lra.
      set (k := IZR k0l * unit) in *. clearbody k AL AH BL BH.
      assert (k <= 1) by (apply Rmult_le_reg_r with (AL + 100); lra). nra.
    - apply Rmult_le_reg_r with (a + 100); [exact S0|]. unfold Rdiv. rewrite (Rmult_assoc a), Rinv_l, Rmult_1_r by lra.
      set (k := IZR k0h * unit) in *. clearbody k AL AH BL BH.
      destruct (Rle_dec 1 k); nra. }
  assert (K0r : 0 <= a / (a + 100) <= 1).
  { split; [apply Rmult_le_pos; [lra|apply Rlt_le, Rinv_0_lt_compat; lra]|].
    apply Rmult_le_reg_r with (a + 100); [exact S0|]. unfold Rdiv. rewrite (Rmult_assoc a), Rinv_l, Rmult_1_r by lra. lra. }
  assert (K1b : inside (b / (a + 100)) (k1l, k1h)).
  { unfold inside; cbn [fst snd]. split.
    - apply Rmult_le_reg_r with (a + 100); [exact S0|]. unfold Rdiv. rewrite (Rmult_assoc b), Rinv_l, Rmult_1_r by lra.
      set (k := IZR k1l * unit) in *. clearbody k AL AH BL BH. nra.
    - apply Rmult_le_reg_r with (a + 100); [exact S0|]. unfold Rdiv. rewrite (Rmult_assoc b), Rinv_l, Rmult_1_r by lra.
      set (k := IZR k1h * unit) in *. clearbody k AL AH BL BH. nra. }
  assert (K1r : 0 <= b / (a + 100)) by (apply Rmult_le_pos; [lra|apply Rlt_le, Rinv_0_lt_compat; lra]).
  exists (a / (a + 100)), (b / (a + 100)). split; [exact K0b|]. split; [exact K0r|]. split; [exact K1b|].
  split; [exact K1r|]. cbn [eK eP ex]. split; [reflexivity|]. split; [|reflexivity].
  unfold inside in K0b, K1b. cbn [fst snd] in K0b, K1b.
  set (K0 := a / (a + 100)) in *. set (K1 := b / (a + 100)) in *. clearbody K0 K1.
  unfold cov_in; cbn [m00 m01 m10 m11 i00 i01 i11]. unfold inside; cbn [fst snd].
  rewrite !mult_IZR, !minus_IZR. repeat split; try lra.
  - pose proof (up_unit (bhi * k1h)) as W. rewrite mult_IZR in W.
    replace (IZR bhi * IZR k1h * (unit * unit)) with (BH * (IZR k1h * unit)) in W by (unfold BH; ring).
    assert (b * K1 <= BH * (IZR k1h * unit)) by (apply Rmult_le_compat; lra). lra.
  - pose proof (shift_le (blo * k1l)) as W. rewrite mult_IZR in W.
    replace (IZR blo * IZR k1l * (unit * unit)) with (BL * (IZR k1l * unit)) in W by (unfold BL; ring).
    assert (BL * (IZR k1l * unit) <= b * K1) by (apply Rmult_le_compat; lra). lra.
Qed.

(** ** The loop *)

(** The calculated gains and covariances, as integers. *)
Definition dz (x : double) : option Z :=
  match x with
  | B754_finite false m e _ => if Z.leb 0 (e + scale) then Some (Zpos m * 2 ^ (e + scale))%Z else None
  | _ => None
  end.

Lemma dz_ok x v : dz x = Some v -> is_finite x = true /\ B2R x = IZR v * unit.
Proof.
  destruct x as [s|s| |[] m e H]; try discriminate. cbn [dz].
  destruct (Z.leb_spec 0 (e + scale)) as [L|L]; [|discriminate]. intros E. apply some_inj in E. subst v.
  split; [reflexivity|]. unfold B2R, F2R; cbn [Fnum Fexp cond_Zopp]. rewrite mult_IZR, Rmult_assoc. f_equal.
  change (2 ^ (e + scale))%Z with (radix_val radix2 ^ (e + scale))%Z. rewrite IZR_Zpower by exact L.
  unfold unit. rewrite <- bpow_plus. f_equal. lia.
Qed.

(** The distance of [v] from any number in the interval. *)
Definition dist (v : Z) (i : Z * Z) : Z := Z.max (snd i - v) (v - fst i).
Lemma dist_ok x v r i : dz x = Some v -> inside r i -> Rabs (B2R x - r) <= IZR (dist v i) * unit.
Proof.
  intros D (L & H). apply dz_ok in D as (_ & ->). unfold dist. pose proof unit_pos as U.
  assert (A1 : IZR (snd i - v) * unit <= IZR (Z.max (snd i - v) (v - fst i)) * unit)
    by (apply Rmult_le_compat_r; [lra|apply IZR_le; lia]).
  assert (A2 : IZR (v - fst i) * unit <= IZR (Z.max (snd i - v) (v - fst i)) * unit)
    by (apply Rmult_le_compat_r; [lra|apply IZR_le; lia]).
  rewrite minus_IZR in A1, A2. apply Rabs_le. lra.
Qed.

Definition b_half : bound := Some (0, 2 ^ 127)%Z.
Definition b_one : bound := Some (0, 2 ^ 128)%Z.
Definition b_ten : bound := Some (0, 10 * 2 ^ 128)%Z.
Definition b_lit : bound := Some (2 ^ 74, 2 ^ 126)%Z.
Definition b_need (b x : bound) : bound := match x with Some _ => b | None => None end.
Definition b_pred0 (x y : bound) : bound := b_add (b_add x y) b_half.
Definition b_pred1 (x y : bound) : bound := b_add (b_need y x) b_one.
Definition b_pos (x y : bound) : bound := b_add (b_pred0 x y) (b_mul (b_mul b_half b_ten) b_lit).
Definition b_vel (x y : bound) : bound := b_add (b_pred1 x y) (b_mul b_ten b_lit).
Definition b_meas (x y : bound) : bound := b_add (b_need x y) (b_mul b_ten b_ten).

(** Whether the error is at most [t]. *)
Definition fine (t : Z) (b : bound) : bool := match b with Some (e, _) => Z.leb e t | None => false end.

Definition tol_signal : Z := (one_z / 10 ^ 9)%Z.
Definition tol_gain : Z := (2 * one_z / 10 ^ 16)%Z.
Definition tol_cov : Z := (2 * one_z / 10 ^ 14)%Z.

Fixpoint check (l : list (double * double * @m4 double)) (c : icov) (x y p v : bound) : bool :=
  match l with
  | [] => true
  | (k0d, k1d, Pd) :: l' =>
      match i_step c, dz k0d, dz k1d, dz (e00 Pd), dz (e01 Pd) with
      | Some (k0, k1, c'), Some k0z, Some k1z, Some p00z, Some p01z =>
          let ek0 := dist k0z k0 in let ek1 := dist k1z k1 in
          let x' := b_pos x y in let y' := b_vel x y in
          let z := b_meas x' y' in
          let q0 := b_pred0 p v in let q1 := b_pred1 p v in
          let p' := b_need (b_corr q0 (fst k0) (snd k0) ek0 z) q1 in
          let v' := b_add q1 (b_mul (Some (ek1, snd k1)) (b_add z (b_need q0 q1))) in
          Z.leb ek0 tol_gain && Z.leb ek1 tol_gain &&
          Z.leb (dist p00z (i00 c')) tol_cov && Z.leb (dist p01z (i01 c')) tol_cov &&
          fine tol_signal x' && fine tol_signal y' && fine tol_signal z && fine tol_signal p' && fine tol_signal v' &&
          check l' c' x' y' p' v'
      | _, _, _, _, _ => false
      end
  end.

Definition start_cov : icov := ICov (i_ratio 1 100) (i_ratio 2 100) (i_ratio 4 100).
Definition b_start : bound := Some (0, 0)%Z.

Lemma checked : match d_cov_run (d_prm (literal 2 10)) 50 (d_q (literal 2 10)) with
  | Some l => check l start_cov b_start b_start b_start b_start | None => false end = true.
Proof. vm_compute. reflexivity. Qed.

(** Constants. *)
Lemma near_int n : (Z.abs n <= 2 ^ 53)%Z -> near (dint n) (IZR n) (Some (0, Z.abs n * one_z)%Z).
Proof.
  intros H. destruct (dint_value n H) as (F & E). cbn [near]. split; [exact F|]. rewrite E. split.
  - rewrite Rminus_diag_eq, Rabs_R0 by reflexivity. lra.
  - rewrite mult_IZR, Rmult_assoc, one_unit, <- abs_IZR. lra.
Qed.

Notation d_half := (@t_half double (Bmult mode_NE) (Bdiv mode_NE) dint).
Lemma near_half : near d_half (1/2) b_half.
Proof.
  assert (E : dz d_half = Some (2 ^ 127)%Z) by (vm_compute; reflexivity).
  apply dz_ok in E as (F & E). cbn [near b_half]. split; [exact F|]. rewrite E.
  assert (X : IZR (2 ^ 127) * unit = 1/2).
  { pose proof one_unit as O. change one_z with (2 ^ 127 * 2)%Z in O. rewrite mult_IZR in O. lra. }
  rewrite X. rewrite Rminus_diag_eq, Rabs_R0, Rabs_pos_eq by lra. lra.
Qed.

Lemma near_lit : near (literal 2 10) (1/5) b_lit.
Proof.
  destruct (dz (literal 2 10)) as [v|] eqn:E; [|vm_compute in E; discriminate].
  assert (B : (- (2 ^ 74) * 5 <= v * 5 - one_z <= 2 ^ 74 * 5)%Z).
  { assert (E' : Some v = Some 68056473384187696470568107782069813248%Z) by (rewrite <- E; vm_compute; reflexivity).
    apply some_inj in E'. subst v. unfold one_z, scale. lia. }
  apply dz_ok in E as (F & E). cbn [near b_lit]. split; [exact F|]. rewrite E.
  pose proof one_unit as O. pose proof unit_pos as U. split.
  - destruct B as [B1 B2]. apply IZR_le in B1, B2. rewrite minus_IZR, !mult_IZR in *. rewrite opp_IZR in B1.
    apply Rmult_le_compat_r with (r := unit) in B1, B2; try lra.
    apply Rabs_le. lra.
  - rewrite Rabs_pos_eq by lra.
    assert (X : IZR (2 ^ 126) * unit = 1/4).
    { change one_z with (2 ^ 126 * 4)%Z in O. rewrite mult_IZR in O. lra. }
    lra.
Qed.

Lemma near_need x r b c : near x r b -> near x r (b_need b c).
Proof. destruct c; [auto|intros; exact I]. Qed.

Notation d_pred0 := (@t_pred0 double (B754_zero false) (Bplus mode_NE) (Bmult mode_NE) (Bdiv mode_NE) dint).
Notation d_pred1 := (@t_pred1 double (B754_zero false) (Bplus mode_NE) (Bmult mode_NE) dint).
Notation d_see := (@t_see double (B754_zero false) (Bplus mode_NE) (Bmult mode_NE) dint).
Notation d_pos := (@t_pos double (B754_zero false) (Bplus mode_NE) (Bmult mode_NE) (Bdiv mode_NE) dint).
Notation d_vel := (@t_vel double (B754_zero false) (Bplus mode_NE) (Bmult mode_NE) dint).
Notation d_meas := (@t_meas double (B754_zero false) (Bplus mode_NE) (Bmult mode_NE) dint).
Notation d_corr := (@t_corr double (Bplus mode_NE) (Bmult mode_NE)).

Lemma near_times_one x r b : near x r b -> near (Bmult mode_NE x (dint 1)) r b.
Proof.
  intros H. eapply same; [exact H|]. intros F. destruct (dint_value 1 ltac:(lia)) as (F1 & E1).
  pose proof (Bmult_correct 53 1024 _ _ mode_NE x (dint 1)) as C.
  change (round_mode mode_NE) with ZnearestE in C. change (SpecFloat.fexp 53 1024) with (FLT_exp (3 - 1024 - 53) 53) in C.
  rewrite E1, Rmult_1_r, small_fin in C. destruct C as (C & F' & _).
  rewrite round_generic in C by (try apply valid_rnd_N; apply fin_format). rewrite F', F1, F. auto.
Qed.

Lemma near_pred0 x y X Y a b : near x X a -> near y Y b -> near (d_pred0 x y) (X + Y + 1/2) (b_pred0 a b).
Proof.
  intros Hx Hy. unfold t_pred0, b_pred0. apply near_add; [apply near_add|].
  - apply near_zero_plus; [now apply near_one_times|reflexivity|reflexivity].
  - now apply near_one_times.
  - apply near_times_one, near_half.
Qed.

Lemma near_pred1 x y X Y a b : near x X a -> near y Y b -> near (d_pred1 x y) (Y + 1) (b_pred1 a b).
Proof.
  intros Hx Hy. unfold t_pred1, b_pred1. destruct a as [a|]; [|exact I]. cbn [b_need].
  assert (Fx : is_finite x = true) by (eapply near_fin; [exact Hx|discriminate]).
  destruct (zero_times x Fx) as (F0 & E0). apply near_add.
  - apply near_zero_plus; [now apply near_one_times| |].
    + destruct (near_plus_zero (B754_zero false) (Bmult mode_NE (dint 0) x) 0 (Some (0, 0)%Z)) as (F & _);
        try assumption. cbn. rewrite Rminus_diag_eq, Rabs_R0 by reflexivity. repeat split; lra.
    + destruct (near_plus_zero (B754_zero false) (Bmult mode_NE (dint 0) x) 0 (Some (0, 0)%Z)) as (_ & E & _);
        try assumption. { cbn. rewrite Rminus_diag_eq, Rabs_R0 by reflexivity. repeat split; lra. }
      rewrite Rminus_0_r, Rmult_0_l in E. pose proof (Rabs_pos (B2R (Bplus mode_NE (B754_zero false) (Bmult mode_NE (dint 0) x)))) as P.
      destruct (Req_dec (B2R (Bplus mode_NE (B754_zero false) (Bmult mode_NE (dint 0) x))) 0) as [|N]; [assumption|].
      apply Rabs_pos_lt in N. lra.
  - apply near_times_one. exact (near_int 1 ltac:(lia)).
Qed.

Lemma see_value x y : is_finite x = true -> is_finite y = true ->
  is_finite (d_see x y) = true /\ B2R (d_see x y) = B2R x.
Proof.
  intros Fx Fy. unfold t_see. destruct (zero_times y Fy) as (F0 & E0).
  assert (H : near (Bplus mode_NE (Bplus mode_NE (B754_zero false) (Bmult mode_NE (dint 1) x)) (Bmult mode_NE (dint 0) y))
    (B2R x) (Some (0, up 0 (up 0 (Z.abs (Zceil (Rabs (B2R x)) * one_z))))%Z)).
  { apply near_plus_zero; [|assumption|assumption]. apply near_zero_plus; [|reflexivity|reflexivity].
    apply near_one_times. cbn [near]. split; [assumption|]. rewrite Rminus_diag_eq, Rabs_R0 by reflexivity.
    split; [lra|]. unfold up. rewrite !Z.shiftr_0_r. rewrite Z.abs_mul, (Z.abs_eq (Zceil _)), (Z.abs_eq one_z).
    - rewrite !plus_IZR, mult_IZR, !Rmult_plus_distr_r, Rmult_assoc, one_unit. pose proof (Zceil_ub (Rabs (B2R x))). pose proof unit_pos. lra.
    - unfold one_z, scale. lia.
    - rewrite <- (Zceil_IZR 0). apply Zceil_le, Rabs_pos. }
  destruct H as (F & E & _). split; [exact F|]. rewrite Rmult_0_l in E.
  match type of E with Rabs ?t <= 0 => destruct (Req_dec t 0) as [N|N]; [lra|] end.
  apply Rabs_pos_lt in N. lra.
Qed.

Lemma near_gauss g : gauss_ok g -> near g (B2R g) b_ten.
Proof.
  intros (F & H). cbn [near b_ten]. split; [exact F|]. rewrite Rminus_diag_eq, Rabs_R0 by reflexivity.
  change (2 ^ 128)%Z with one_z. rewrite mult_IZR, Rmult_assoc, one_unit. lra.
Qed.

Lemma near_pos x y X Y a b g : near x X a -> near y Y b -> gauss_ok g ->
  near (d_pos (literal 2 10) x y g) (X + Y + 1/2 + 1/2 * B2R g * (1/5)) (b_pos a b).
Proof.
  intros Hx Hy Hg. unfold t_pos, b_pos. apply near_add; [now apply near_pred0|].
  apply near_mul; [apply near_mul; [apply near_half|now apply near_gauss]|apply near_lit].
Qed.
Lemma near_vel x y X Y a b g : near x X a -> near y Y b -> gauss_ok g ->
  near (d_vel (literal 2 10) x y g) (Y + 1 + B2R g * (1/5)) (b_vel a b).
Proof.
  intros Hx Hy Hg. unfold t_vel, b_vel. apply near_add; [now apply near_pred1 with X|].
  apply near_mul; [apply near_one_times; now apply near_gauss|apply near_lit].
Qed.
Lemma near_meas x y X Y a b g : near x X a -> near y Y b -> gauss_ok g ->
  near (d_meas (dint 10) x y g) (X + 10 * B2R g) (b_meas a b).
Proof.
  intros Hx Hy Hg. unfold t_meas, b_meas. destruct b as [b|]; [|exact I]. cbn [b_need].
  assert (Fy : is_finite y = true) by (eapply near_fin; [exact Hy|discriminate]).
  apply near_add.
  - eapply same; [exact Hx|]. intros Fx. now apply see_value.
  - apply near_mul; [exact (near_int 10 ltac:(lia))|now apply near_gauss].
Qed.

(** Both programs pass through the loop. *)
Lemma pass_R i x e g1 g2 g draws : (i < 50)%Z ->
  let x' := V2 (v0 x + v1 x + 1/2 + 1/2 * g1 * (1/5)) (v1 x + 1 + g2 * (1/5)) in
  let z := v0 x' + 10 * g in
  let e' := kstep sim_sys e 1 z in
  forall k, eK e' = Some k ->
  sim_plots double_numeric 50 10 (1/5) (enc_sys sim_sys) i (encv x) (enc_est e) ((g1, g2, g) :: draws)
  = (l <- sim_plots double_numeric 50 10 (1/5) (enc_sys sim_sys) (i + 1) (encv x') (enc_est e') draws ;;
     Ok (option_map (cons (z, {| p_pos := v0 x'; p_poshat := v0 (ex e'); p_posgain := v0 k; p_posecov := m00 (eP e');
           p_vel := v1 x'; p_velhat := v1 (ex e'); p_velgain := v1 k; p_velecov := m01 (eP e') |})) l)).
Proof.
  intros L x' z e' k EK.
  cbn [sim_plots]. cbn [nt_int double_numeric nt_sc nt_lt]. rewrite bind_Ok.
  change (sc_mul R_scalar (IZR i) (kdt (enc_sys sim_sys))) with (Ok (IZR i * 1)). rewrite bind_Ok.
  assert (L' : IZR i * 1 < 50) by (rewrite Rmult_1_r; now apply IZR_lt).
  destruct (Rlt_dec (IZR i * 1) 50); [|contradiction].
  fold double_numeric. rewrite process_noise_R, bind_Ok.
  change (meas_noise double_numeric 10 g) with (Ok (10 * g)). rewrite bind_Ok, sim_step_noise.
  assert (EW : world x g1 g2 = x').
  { unfold world, x', sim_sys. destruct x. apply vec2_eq; simpl; lra. }
  rewrite EW. cbv zeta. fold z. fold e'. rewrite bind_Ok. change (at1 1 (enc1 z) 0) with (Ok z).
  rewrite bind_Ok, (C120_plot x' e' k EK), bind_Ok. reflexivity.
Qed.

Lemma fine_ok t T b x r : near x r b -> fine t b = true -> IZR t * unit <= T -> agree T x r.
Proof.
  destruct b as [[e m]|]; [|discriminate]. intros (F & E & _) H HT. cbn [fine] in H. apply Z.leb_le in H.
  split; [exact F|]. apply IZR_le in H. pose proof unit_pos as U.
  apply Rmult_le_compat_r with (r := unit) in H; lra.
Qed.
Lemma gain_ok t T x v i r : dz x = Some v -> inside r i -> Z.leb (dist v i) t = true -> IZR t * unit <= T -> agree T x r.
Proof.
  intros D H L HT. apply Z.leb_le, IZR_le in L. pose proof unit_pos as U. split; [now apply dz_ok in D|].
  pose proof (dist_ok x v r i D H). apply Rmult_le_compat_r with (r := unit) in L; lra.
Qed.
Lemma tol_ok n d : (0 < d)%Z -> IZR (n * one_z / d) * unit <= IZR n / IZR d.
Proof. intros D. exact (proj1 (i_ratio_ok n d D)). Qed.

Notation S9 := (1 / IZR (10 ^ 9)).
Notation G16 := (2 / IZR (10 ^ 16)).
Notation C14 := (2 / IZR (10 ^ 14)).
Notation d_prm2 := (d_prm (literal 2 10)).

Lemma last_time : Bltb (Bmult mode_NE (dint 50) (dint 1)) (dint 50) = false.
Proof. vm_compute. reflexivity. Qed.

Notation d_cov_next := (@cov_next double (B754_zero false) (dint 1) (Bplus mode_NE) (Bminus mode_NE) (Bmult mode_NE)
  (Bdiv mode_NE) Bopp (fun a => match a with B754_zero _ => false | _ => true end)).
Lemma d_cov_total (P : @m4 double) : exists (k0 k1 : double) (P' : @m4 double),
  d_cov_next d_prm2 P = Ok ([Some k0; Some k1], cells P').
Proof.
  exact (cov_next_total (B754_zero false) (dint 1) (Bplus mode_NE) (Bminus mode_NE) (Bmult mode_NE) (Bdiv mode_NE) Bopp
      (fun a : double => match a with B754_zero _ => false | _ => true end)
      (M4 (dint 1) (dint 1) (dint 0) (dint 1)) (d_q (literal 2 10))
      (Bdiv mode_NE (Bmult mode_NE (dint 1) (dint 1)) (dint 2)) (dint 1) (dint 1) (dint 0)
      (Bmult mode_NE (dint 10) (dint 10)) (dint 1) P).
Qed.
Lemma d_cov_run_S n (P : @m4 double) (k0 k1 : double) (P' : @m4 double) l :
  d_cov_next d_prm2 P = Ok ([Some k0; Some k1], cells P') -> d_cov_run d_prm2 (S n) P = Some l ->
  exists l' : list (double * double * @m4 double), d_cov_run d_prm2 n P' = Some l' /\ l = (k0, k1, P') :: l'.
Proof.
  exact (cov_run_S (B754_zero false) (dint 1) (Bplus mode_NE) (Bminus mode_NE) (Bmult mode_NE) (Bdiv mode_NE) Bopp
      (fun a : double => match a with B754_zero _ => false | _ => true end) d_prm2 n P k0 k1 P' l).
Qed.

Lemma together : forall n l i draws P K x y c d t ci bx by_ bp bv X Y Ke Pe C D te,
  d_cov_run d_prm2 n P = Some l -> check l ci bx by_ bp bv = true ->
  (0 <= i)%Z -> Z.of_nat n = (50 - i)%Z ->
  near x X bx -> near y Y by_ -> near c C bp -> near d D bv -> cov_in Pe ci ->
  (n <= length draws)%nat -> Forall draw_ok draws ->
  exists ps qs,
    sim_plots DN (dint 50) (dint 10) (literal 2 10) d_prm2 i [Some x; Some y] (st_of K P c d t) draws = Ok (Some ps) /\
    sim_plots double_numeric 50 10 (1/5) (enc_sys sim_sys) i (encv (V2 X Y)) (enc_est (Est Ke Pe (V2 C D) te))
      (map to_exact draws) = Ok (Some qs) /\
    length ps = n /\ Forall2 (records_agree S9 G16 C14) ps qs.
Proof.
  induction n as [|n IH]; intros l i draws P K x y c d t ci bx by_ bp bv X Y Ke Pe C D te EL EC Hi Hn Hx Hy Hc Hd HP LD FD.
  - assert (i = 50)%Z by lia. subst i. exists [], []. split; [|split; [|split; [reflexivity|constructor]]].
    + exact (pass_end (B754_zero false) (dint 1) (Bplus mode_NE) (Bminus mode_NE) (Bmult mode_NE) (Bdiv mode_NE) Bopp
      (fun a : double => match a with B754_zero _ => false | _ => true end) dint (fun a b => Bltb a b) (literal 2 10) 50 K P x y c d t draws last_time).
    + destruct (map to_exact draws) as [|[[g1 g2] g] ds]; cbn [sim_plots nt_int double_numeric nt_sc nt_lt]; rewrite bind_Ok;
        change (sc_mul R_scalar 50 (kdt (enc_sys sim_sys))) with (Ok (50 * 1)); rewrite bind_Ok;
        (destruct (Rlt_dec (50 * 1) 50); [lra|reflexivity]).
  - destruct draws as [|[[g1 g2] g] draws]; [cbn in LD; lia|]. inversion FD as [|? ? HG FD']; subst.
    destruct HG as (G1 & G2 & G3). cbn [fst snd] in G1, G2, G3.
    destruct (d_cov_total P) as (k0 & k1 & P' & ECN).
    destruct (d_cov_run_S n P k0 k1 P' l ECN EL) as (l' & EL' & ->).
    cbn [check] in EC. destruct (i_step ci) as [[[ik0 ik1] ci']|] eqn:EI; [|discriminate].
    destruct (dz k0) as [k0z|] eqn:D0; [|discriminate]. destruct (dz k1) as [k1z|] eqn:D1; [|discriminate].
    destruct (dz (e00 P')) as [p00z|] eqn:D2; [|discriminate]. destruct (dz (e01 P')) as [p01z|] eqn:D3; [|discriminate].
    cbv zeta in EC. rewrite !andb_true_iff in EC.
    destruct EC as (((((((((T1 & T2) & T3) & T4) & T5) & T6) & T7) & T8) & T9) & T10).
    assert (LT : Bltb (Bmult mode_NE (dint i) (dint 1)) (dint 50) = true).
    { pose proof (proj1 (forallb_forall _ _) tested_time (Z.to_nat i)) as X1. cbv beta in X1.
      rewrite Z2Nat.id in X1 by lia. specialize (X1 ltac:(apply in_seq; lia)).
      apply eqb_prop in X1. rewrite X1. destruct (Nat.eqb_spec (Z.to_nat i) 50); [lia|reflexivity]. }
    destruct (pass (B754_zero false) (dint 1) (Bplus mode_NE) (Bminus mode_NE) (Bmult mode_NE) (Bdiv mode_NE) Bopp
      (fun a : double => match a with B754_zero _ => false | _ => true end) dint (fun a b => Bltb a b) (literal 2 10) i P k0 k1 P' K x y c d t g1 g2 g draws ECN LT)
      as (t' & PS).
    pose proof (near_pos x y X Y bx by_ g1 Hx Hy G1) as Hx'.
    pose proof (near_vel x y X Y bx by_ g2 Hx Hy G2) as Hy'.
    set (x' := d_pos (literal 2 10) x y g1) in *. set (y' := d_vel (literal 2 10) x y g2) in *.
    set (X' := X + Y + 1/2 + 1/2 * B2R g1 * (1/5)) in *. set (Y' := Y + 1 + B2R g2 * (1/5)) in *.
    pose proof (near_meas x' y' X' Y' (b_pos bx by_) (b_vel bx by_) g Hx' Hy' G3) as Hz.
    set (z := d_meas (dint 10) x' y' g) in *. set (Z := X' + 10 * B2R g) in *.
    pose proof (near_pred0 c d C D bp bv Hc Hd) as Hp0. pose proof (near_pred1 c d C D bp bv Hc Hd) as Hp1.
    set (p0 := d_pred0 c d) in *. set (p1 := d_pred1 c d) in *.
    destruct (i_step_ok Ke Pe C D te Z ci ik0 ik1 ci' HP EI) as (K0 & K1 & B0 & R0 & B1 & R1 & EK & HP' & EX).
    cbv zeta in EX. set (q0 := C + D + 1/2) in *. set (q1 := D + 1) in *.
    pose proof (pass_R i (V2 X Y) (Est Ke Pe (V2 C D) te) (B2R g1) (B2R g2) (B2R g) (map to_exact draws) ltac:(lia)) as PR.
    cbv zeta in PR. cbn [v0 v1] in PR. fold X' Y' Z in PR. specialize (PR (V2 K0 K1) EK).
    set (e' := kstep sim_sys (Est Ke Pe (V2 C D) te) 1 Z) in *.
    set (v := Bminus mode_NE z (d_see p0 p1)) in *.
    (* the estimates *)
    assert (Hc' : near (d_corr p0 k0 v) (q0 + K0 * (Z - q0))
       (b_need (b_corr (b_pred0 bp bv) (fst ik0) (snd ik0) (dist k0z ik0) (b_meas (b_pos bx by_) (b_vel bx by_)))
         (b_pred1 bp bv))).
    { destruct (b_pred1 bp bv) as [bb|] eqn:EB; [|exact I]. cbn [b_need]. unfold t_corr, v.
      apply near_corr; try assumption.
      - intros F0. apply see_value; [exact F0|]. eapply near_fin; [exact Hp1|discriminate].
      - exact (proj1 (dz_ok _ _ D0)).
      - exact (dist_ok _ _ _ _ D0 B0). }
    assert (Hd' : near (d_corr p1 k1 v) (q1 + K1 * (Z - q0))
       (b_add (b_pred1 bp bv) (b_mul (Some (dist k1z ik1, snd ik1))
          (b_add (b_meas (b_pos bx by_) (b_vel bx by_)) (b_need (b_pred0 bp bv) (b_pred1 bp bv)))))).
    { destruct (b_pred1 bp bv) as [bb|] eqn:EB; [|exact I]. cbn [b_need]. unfold t_corr, v.
      apply near_add; [exact Hp1|]. apply near_mul.
      - cbn [near]. split; [exact (proj1 (dz_ok _ _ D1))|]. split; [exact (dist_ok _ _ _ _ D1 B1)|].
        destruct B1 as [_ B1]. rewrite Rabs_pos_eq; assumption.
      - apply near_sub; [exact Hz|]. eapply same; [exact Hp0|]. intros F0. apply see_value; [exact F0|].
        eapply near_fin; [exact Hp1|discriminate]. }
    set (c' := d_corr p0 k0 v) in *. set (d' := d_corr p1 k1 v) in *.
    set (C' := q0 + K0 * (Z - q0)) in *. set (D' := q1 + K1 * (Z - q0)) in *.
    assert (EE : e' = Est (Some (V2 K0 K1)) (eP e') (V2 C' D') (te + 1)).
    { clearbody C' D'. clear - EK EX. assert (ET : et e' = te + 1) by reflexivity. clearbody e'.
      destruct e' as [ek ep exx ett]. cbn [eK eP ex et] in *. subst. reflexivity. }
    destruct (IH l' (i + 1)%Z draws P' [Some k0; Some k1] x' y' c' d' t' ci'
      (b_pos bx by_) (b_vel bx by_) _ _ X' Y' (Some (V2 K0 K1)) (eP e') C' D' (te + 1)
      EL' T10 ltac:(lia) ltac:(lia) Hx' Hy' Hc' Hd' HP' ltac:(cbn in LD; lia) FD') as (ps & qs & EPS & EQS & LP & AG).
    rewrite <- EE in EQS.
    eexists _, _. split; [|split; [|split]].
    + etransitivity; [exact PS|].
      match goal with |- bind ?s _ = _ => assert (EPS' : s = Ok (Some ps)) by exact EPS; rewrite EPS' end.
      rewrite bind_Ok. reflexivity.
    + cbn [map]. change (to_exact (g1, g2, g)) with (B2R g1, B2R g2, B2R g).
      rewrite PR, EQS, bind_Ok. reflexivity.
    + cbn [length]. now rewrite LP.
    + constructor; [|exact AG]. unfold records_agree. cbn [fst snd p_pos p_poshat p_posgain p_posecov p_vel p_velhat p_velgain p_velecov].
      rewrite EX. cbn [v0 v1].
      destruct HP' as (H00 & H01 & _ & _).
      assert (TS : IZR tol_signal * unit <= S9) by (pose proof (tol_ok 1 (10 ^ 9) ltac:(lia)) as W; rewrite Z.mul_1_l in W; exact W).
      assert (TG : IZR tol_gain * unit <= G16) by exact (tol_ok 2 (10 ^ 16) ltac:(lia)).
      assert (TC : IZR tol_cov * unit <= C14) by exact (tol_ok 2 (10 ^ 14) ltac:(lia)).
      split; [exact (fine_ok _ _ _ _ _ Hz T7 TS)|]. split; [exact (fine_ok _ _ _ _ _ Hx' T5 TS)|].
      split; [exact (fine_ok _ _ _ _ _ Hy' T6 TS)|]. split; [exact (fine_ok _ _ _ _ _ Hc' T8 TS)|].
      split; [exact (fine_ok _ _ _ _ _ Hd' T9 TS)|]. split; [exact (gain_ok _ _ _ _ _ _ D0 B0 T1 TG)|].
      split; [exact (gain_ok _ _ _ _ _ _ D1 B1 T2 TG)|]. split; [exact (gain_ok _ _ _ _ _ _ D2 H00 T3 TC)|].
      exact (gain_ok _ _ _ _ _ _ D3 H01 T4 TC).
Qed.
