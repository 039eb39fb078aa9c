(** * Boundedness, decay and steady state of strictly stable sections *)

From Coq Require Import Reals List Arith Lra Lia Psatz ZArith.
From Coquelicot Require Import Complex.
From Verif Require Import Base Scalars Biquad BiquadSpec BiquadProofs.
Import ListNotations.
Local Open Scope R_scope.

Lemma vieta a1 a2 p q : roots_of 1 a1 a2 p q ->
  RtoC a1 = Copp (Cplus p q) /\ RtoC a2 = Cmult p q.
Proof.
  intros H. pose proof (H (RtoC 0)) as H0. pose proof (H (RtoC 1)) as H1. unfold quadratic in H0, H1.
  assert (E : RtoC a2 = Cmult p q).
  { transitivity (Cmult (RtoC 1) (Cmult (Cminus (RtoC 0) p) (Cminus (RtoC 0) q))); [|ring].
    rewrite <- H0. ring. }
  split; [|exact E].
  transitivity (Cminus (Cminus (Cmult (RtoC 1) (Cmult (Cminus (RtoC 1) p) (Cminus (RtoC 1) q))) (RtoC 1)) (RtoC a2)).
  - rewrite <- H1. ring.
  - rewrite E. ring.
Qed.

Lemma roots_exist a1 a2 : exists p q, roots_of 1 a1 a2 p q.
Proof. destruct (solve_roots 1 a1 a2 ltac:(lra)) as (p & q & _ & H). eauto. Qed.

Lemma root_is_root a1 a2 p q : roots_of 1 a1 a2 p q ->
  quadratic 1 a1 a2 p = RtoC 0 /\ quadratic 1 a1 a2 q = RtoC 0.
Proof. intros H. rewrite !H. split; ring. Qed.

Lemma df2_nth a b xs : forall w n, (n < length xs)%nat ->
  nth n (fst (df2_run a b w xs)) 0 = df2_y a b (snd (df2_run a b w (firstn n xs))) (nth n xs 0).
Proof.
  induction xs as [|x xs IH]; intros w [|n] H; cbn in H; try lia; [reflexivity|].
  cbn. apply IH. lia.
Qed.

Lemma Cmod_R (x : R) : Cmod (RtoC x) = Rabs x.
Proof. apply Cmod_R. Qed.

Lemma df2_bounded a b X : strictly_stable (a1 a) (a2 a) -> 0 <= X -> forall w, exists V,
  forall xs, Forall (fun x => Rabs x <= X) xs ->
  Rabs (v1 (snd (df2_run a b w xs))) <= V /\ Rabs (v2 (snd (df2_run a b w xs))) <= V.
Proof.
  intros S HX w.
  destruct (roots_exist (a1 a) (a2 a)) as (p & q & HR).
  destruct (root_is_root _ _ _ _ HR) as [Rp Rq]. apply S in Rp. apply S in Rq.
  destruct (vieta _ _ _ _ HR) as [E1 E2].
  pose proof (Cmod_ge_0 p) as Gp. pose proof (Cmod_ge_0 q) as Gq.
  set (u := fun w : state R => Cmod (Cminus (RtoC (v1 w)) (Cmult q (RtoC (v2 w))))).
  set (U := Rmax (X / (1 - Cmod p)) (u w)).
  set (V := Rmax (U / (1 - Cmod q)) (Rmax (Rabs (v1 w)) (Rabs (v2 w)))).
  assert (U1 : X <= (1 - Cmod p) * U).
  { apply Rle_trans with ((1 - Cmod p) * (X / (1 - Cmod p))).
    - apply Req_le. field. lra.
    - apply Rmult_le_compat_l; [lra|]. apply Rmax_l. }
  assert (V1 : U <= (1 - Cmod q) * V).
  { apply Rle_trans with ((1 - Cmod q) * (U / (1 - Cmod q))).
    - apply Req_le. field. lra.
    - apply Rmult_le_compat_l; [lra|]. apply Rmax_l. }
  assert (I0 : u w <= U /\ Rabs (v1 w) <= V /\ Rabs (v2 w) <= V).
  { repeat split; [apply Rmax_r| |]; unfold V; eapply Rle_trans; [|apply Rmax_r| |apply Rmax_r];
      [apply Rmax_l|apply Rmax_r]. }
  exists V. clearbody U V. intros xs. revert w I0.
  induction xs as [|x xs IH]; intros w (I1 & I2 & I3) F; cbn; [auto|].
  inversion F; subst. apply IH; [|assumption].
  assert (A : u (df2_w a w x) <= U).
  { unfold u, df2_w. cbn [v1 v2].
    replace (Cminus (RtoC (x - a1 a * v1 w - a2 a * v2 w)) (Cmult q (RtoC (v1 w))))
      with (Cplus (RtoC x) (Cmult p (Cminus (RtoC (v1 w)) (Cmult q (RtoC (v2 w)))))).
    - eapply Rle_trans; [apply Cmod_triangle|]. rewrite Cmod_mult, Cmod_R.
      fold (u w). apply Rle_trans with (X + Cmod p * U); [|lra].
      apply Rplus_le_compat; [assumption|]. apply Rmult_le_compat_l; assumption.
    - rewrite !RtoC_minus, !RtoC_mult, E1, E2. ring. }
  split; [exact A|]. unfold df2_w; cbn [v1 v2]. split; [|assumption].
  rewrite <- Cmod_R.
  replace (RtoC (x - a1 a * v1 w - a2 a * v2 w))
    with (Cplus (Cminus (RtoC (v1 (df2_w a w x))) (Cmult q (RtoC (v2 (df2_w a w x))))) (Cmult q (RtoC (v1 w))))
    by (unfold df2_w; cbn [v1 v2]; ring).
  eapply Rle_trans; [apply Cmod_triangle|]. rewrite Cmod_mult, Cmod_R.
  fold (u (df2_w a w x)). apply Rle_trans with (U + Cmod q * V); [|lra].
  apply Rplus_le_compat; [assumption|]. apply Rmult_le_compat_l; assumption.
Qed.

Lemma exists_INR_gt (y : R) : exists n, y < INR n.
Proof.
  exists (Z.to_nat (up y)). destruct (archimed y) as [H _].
  rewrite INR_IZR_INZ. eapply Rlt_le_trans; [exact H|]. apply IZR_le. lia.
Qed.

Lemma nth_Forall {A} (P : A -> Prop) d xs : Forall P xs -> forall n, (n < length xs)%nat -> P (nth n xs d).
Proof. intros F n H. rewrite Forall_forall in F. apply F, nth_In, H. Qed.

Lemma firstn_Forall {A} (P : A -> Prop) (xs : list A) n : Forall P xs -> Forall P (firstn n xs).
Proof. intros F. rewrite <- (firstn_skipn n xs) in F. now apply Forall_app in F. Qed.

Lemma df2_output_bounded a b X : strictly_stable (a1 a) (a2 a) -> 0 <= X -> forall w, exists Y,
  forall xs, Forall (fun x => Rabs x <= X) xs -> Forall (fun y => Rabs y <= Y) (fst (df2_run a b w xs)).
Proof.
  intros S HX w. destruct (df2_bounded a b X S HX w) as [V HV].
  exists (Rabs (b0 b) * (X + Rabs (a1 a) * V + Rabs (a2 a) * V) + Rabs (b1 b) * V + Rabs (b2 b) * V).
  intros xs F. apply Forall_forall. intros y Hy. destruct (In_nth _ _ 0 Hy) as (n & Hn & <-).
  rewrite df2_run_length in Hn. rewrite df2_nth by assumption.
  destruct (HV (firstn n xs) (firstn_Forall _ _ _ F)) as [B1 B2].
  set (w' := snd _) in *. pose proof (nth_Forall _ 0 _ F n Hn) as Bx. cbn beta in Bx.
  set (x := nth n xs 0) in *. unfold df2_y.
  assert (M : forall k v, Rabs v <= V -> Rabs (k * v) <= Rabs k * V).
  { intros. rewrite Rabs_mult. apply Rmult_le_compat_l; [apply Rabs_pos|assumption]. }
  assert (W : Rabs (x - a1 a * v1 w' - a2 a * v2 w') <= X + Rabs (a1 a) * V + Rabs (a2 a) * V).
  { eapply Rle_trans; [apply Rabs_triang|]. rewrite Rabs_Ropp.
    apply Rplus_le_compat; [|now apply M].
    eapply Rle_trans; [apply Rabs_triang|]. rewrite Rabs_Ropp.
    apply Rplus_le_compat; [assumption|now apply M]. }
  eapply Rle_trans; [apply Rabs_triang|]. apply Rplus_le_compat; [|now apply M].
  eapply Rle_trans; [apply Rabs_triang|]. apply Rplus_le_compat; [|now apply M].
  rewrite Rabs_mult. apply Rmult_le_compat_l; [apply Rabs_pos|assumption].
Qed.

(** ** Geometric decay without input *)

Lemma scaled_stable a1 a2 : strictly_stable a1 a2 ->
  exists r, 0 < r < 1 /\ strictly_stable (a1 / r) (a2 / (r * r)).
Proof.
  intros S. destruct (roots_exist a1 a2) as (p & q & HR).
  destruct (root_is_root _ _ _ _ HR) as [Rp Rq]. apply S in Rp. apply S in Rq.
  pose proof (Cmod_ge_0 p) as Gp. pose proof (Cmod_ge_0 q) as Gq.
  set (m := Rmax (Cmod p) (Cmod q)).
  assert (Hm : m < 1) by (apply Rmax_lub_lt; assumption).
  assert (H0 : 0 <= m) by (eapply Rle_trans; [exact Gp|apply Rmax_l]).
  exists ((1 + m) / 2). set (r := (1 + m) / 2). assert (Hr : 0 < r < 1 /\ m < r) by (unfold r; lra).
  split; [tauto|]. intros z Z.
  assert (Z' : quadratic 1 a1 a2 (Cmult (RtoC r) z) = RtoC 0).
  { transitivity (Cmult (RtoC (r * r)) (quadratic 1 (a1 / r) (a2 / (r * r)) z)).
    - unfold quadratic. rewrite !RtoC_div, !RtoC_mult by nra. field. apply RtoC_neq0. lra.
    - rewrite Z. ring. }
  rewrite HR in Z'.
  assert (M : Cmod (Cmult (RtoC r) z) <= m).
  { destruct (Ceq_dec (Cminus (Cmult (RtoC r) z) p) (RtoC 0)) as [X|X].
    - replace (Cmult (RtoC r) z) with p; [apply Rmax_l|]. rewrite <- (Cplus_0_l p), <- X. ring.
    - destruct (Ceq_dec (Cminus (Cmult (RtoC r) z) q) (RtoC 0)) as [Y|Y].
      + replace (Cmult (RtoC r) z) with q; [apply Rmax_r|]. rewrite <- (Cplus_0_l q), <- Y. ring.
      + exfalso. apply (Cmult_neq_0 _ _ X Y). rewrite <- Z'. ring. }
  rewrite Cmod_mult, Cmod_R, Rabs_pos_eq in M by lra.
  pose proof (Cmod_ge_0 z). nra.
Qed.

Lemma scaled_run a b r n : 0 < r -> forall c w w',
  v1 w = c * v1 w' -> v2 w = c / r * v2 w' ->
  let z := snd (df2_run a b w (repeat 0 n)) in
  let z' := snd (df2_run {| a1 := a1 a / r; a2 := a2 a / (r * r) |} b w' (repeat 0 n)) in
  v1 z = c * r ^ n * v1 z' /\ v2 z = c * r ^ n / r * v2 z'.
Proof.
  intros Hr. induction n as [|n IH]; intros c w w' H1 H2; cbn.
  - rewrite H1, H2. split; [ring|field; lra].
  - destruct (IH (c * r) (df2_w a w 0) (df2_w {| a1 := a1 a / r; a2 := a2 a / (r * r) |} w' 0)) as [E1 E2].
    + unfold df2_w; cbn. rewrite H1, H2. field. lra.
    + unfold df2_w; cbn. rewrite H1. field. lra.
    + rewrite E1, E2. split; [ring|field; lra].
Qed.

Lemma Forall_repeat {A} (P : A -> Prop) x n : P x -> Forall P (repeat x n).
Proof. intros H. apply Forall_forall. intros y Hy. apply repeat_spec in Hy. now subst. Qed.

Lemma zero_input_decay a b w : strictly_stable (a1 a) (a2 a) ->
  exists r B, 0 < r < 1 /\ 0 <= B /\
  forall n, Rabs (v1 (snd (df2_run a b w (repeat 0 n)))) <= B * r ^ n /\
            Rabs (v2 (snd (df2_run a b w (repeat 0 n)))) <= B * r ^ n.
Proof.
  intros S. destruct (scaled_stable _ _ S) as (r & Hr & S').
  set (a' := {| a1 := a1 a / r; a2 := a2 a / (r * r) |}).
  set (w' := {| v1 := v1 w; v2 := r * v2 w |}).
  destruct (df2_bounded a' b 0 S' ltac:(lra) w') as [V HV].
  assert (V0 : 0 <= V).
  { destruct (HV [] (Forall_nil _)) as [X _]. eapply Rle_trans; [apply Rabs_pos|exact X]. }
  exists r, (V / r). split; [assumption|]. split.
  { apply Rmult_le_pos; [assumption|]. left. apply Rinv_0_lt_compat. lra. }
  intros n.
  destruct (scaled_run a b r n ltac:(lra) 1 w w') as [E1 E2].
  { cbn. ring. } { cbn. field. lra. }
  fold a' in E1, E2. rewrite E1, E2.
  destruct (HV (repeat 0 n)) as [X1 X2].
  { apply Forall_repeat. rewrite Rabs_R0. lra. }
  assert (P : 0 < r ^ n) by (apply pow_lt; lra).
  assert (Ri : 1 <= / r). { rewrite <- Rinv_1 at 1. apply Rinv_le_contravar; lra. }
  split; rewrite Rabs_mult.
  - rewrite Rabs_pos_eq by lra.
    apply Rle_trans with (1 * r ^ n * V); [apply Rmult_le_compat_l; [lra|assumption]|].
    unfold Rdiv. assert (0 <= r ^ n * V) by nra. nra.
  - rewrite Rabs_pos_eq.
    + apply Rle_trans with (1 * r ^ n / r * V); [|apply Req_le; field; lra].
      apply Rmult_le_compat_l; [|assumption].
      unfold Rdiv. apply Rmult_le_pos; [nra|left; apply Rinv_0_lt_compat; lra].
    + unfold Rdiv. apply Rmult_le_pos; [nra|left; apply Rinv_0_lt_compat; lra].
Qed.

(** ** Sinusoidal steady state *)

Lemma polar_add s t : Cmult (polar 1 s) (polar 1 t) = polar 1 (s + t).
Proof. unfold polar, Cmult. cbn [fst snd]. rewrite cos_plus, sin_plus. f_equal; ring. Qed.

Definition den (a : coeff_a R) (w : R) : C :=
  Cplus (Cplus (RtoC 1) (Cmult (RtoC (a1 a)) (polar 1 (- w)))) (Cmult (RtoC (a2 a)) (polar 1 (- 2 * w))).
Definition num (b : coeff_b R) (w : R) : C :=
  Cplus (Cplus (RtoC (b0 b)) (Cmult (RtoC (b1 b)) (polar 1 (- w)))) (Cmult (RtoC (b2 b)) (polar 1 (- 2 * w))).

Lemma fst_scal c (z : C) : fst (Cmult (RtoC c) z) = c * fst z.
Proof. unfold Cmult, RtoC; cbn. ring. Qed.

(** The internal signal in steady state. *)
Definition wss (A : R) (G : C) (t : R) : R := A * fst (Cmult G (polar 1 t)).

Lemma wss_rec A a w G t : Cmult G (den a w) = RtoC 1 ->
  wss A G t = A * cos t - a1 a * wss A G (t - w) - a2 a * wss A G (t - w - w).
Proof.
  intros E. unfold wss.
  assert (X : fst (Cmult (Cmult G (den a w)) (polar 1 t)) = cos t).
  { rewrite E. unfold Cmult, RtoC, polar; cbn. ring. }
  assert (Y : Cmult (Cmult G (den a w)) (polar 1 t) =
     Cplus (Cplus (Cmult G (polar 1 t)) (Cmult (RtoC (a1 a)) (Cmult G (polar 1 (t - w)))))
       (Cmult (RtoC (a2 a)) (Cmult G (polar 1 (t - w - w))))).
  { replace (t - w - w) with (-2 * w + t) by ring. replace (t - w) with (- w + t) by ring.
    rewrite <- !polar_add. unfold den. ring. }
  rewrite Y in X. unfold Cplus in X. cbn [fst] in X. rewrite !fst_scal in X. rewrite <- X. ring.
Qed.

Lemma wss_out A b w G t :
  b0 b * wss A G t + b1 b * wss A G (t - w) + b2 b * wss A G (t - w - w) =
  A * fst (Cmult (Cmult G (num b w)) (polar 1 t)).
Proof.
  unfold wss.
  assert (Y : Cmult (Cmult G (num b w)) (polar 1 t) =
     Cplus (Cplus (Cmult (RtoC (b0 b)) (Cmult G (polar 1 t))) (Cmult (RtoC (b1 b)) (Cmult G (polar 1 (t - w)))))
       (Cmult (RtoC (b2 b)) (Cmult G (polar 1 (t - w - w))))).
  { replace (t - w - w) with (-2 * w + t) by ring. replace (t - w) with (- w + t) by ring.
    rewrite <- !polar_add. unfold num. ring. }
  rewrite Y. unfold Cplus. cbn [fst]. rewrite !fst_scal. ring.
Qed.

Definition tones (A w : R) (t : R) (k n : nat) : list R := map (fun i => A * cos (t + w * INR i)) (seq k n).

Lemma wss_run A a b w G t n : Cmult G (den a w) = RtoC 1 -> forall k,
  fst (df2_run a b {| v1 := wss A G (t + w * INR k - w); v2 := wss A G (t + w * INR k - w - w) |} (tones A w t k n)) =
  map (fun i => A * fst (Cmult (Cmult G (num b w)) (polar 1 (t + w * INR i)))) (seq k n).
Proof.
  intros E. induction n as [|n IH]; intros k; [reflexivity|].
  unfold tones in *. cbn [seq map df2_run fst].
  assert (W : A * cos (t + w * INR k) - a1 a * wss A G (t + w * INR k - w)
              - a2 a * wss A G (t + w * INR k - w - w) = wss A G (t + w * INR k))
    by (symmetry; now apply wss_rec).
  f_equal.
  - unfold df2_y; cbn [v1 v2]. rewrite W. apply wss_out.
  - rewrite <- (IH (S k)). do 2 f_equal. unfold df2_w; cbn [v1 v2]. rewrite W. rewrite S_INR.
    f_equal; f_equal; ring.
Qed.

Lemma lin_1_0 xs : lin 1 xs 1 (repeat 0 (length xs)) = xs.
Proof.
  induction xs as [|x xs IH]; [reflexivity|]. cbn. unfold lin in IH. rewrite IH. f_equal. ring.
Qed.

Lemma lin_nth p xs q ys n : length xs = length ys -> (n < length xs)%nat ->
  nth n (lin p xs q ys) 0 = p * nth n xs 0 + q * nth n ys 0.
Proof.
  unfold lin. revert ys n. induction xs as [|x xs IH]; intros [|y ys] [|n] L H; cbn in *; try lia; [reflexivity|].
  apply IH; lia.
Qed.

Lemma nth_map_seq (f : nat -> R) n : nth n (map f (seq 0 (S n))) 0 = f n.
Proof.
  rewrite (nth_indep _ 0 (f 0%nat)) by (rewrite map_length, seq_length; lia).
  rewrite map_nth, seq_nth by lia. reflexivity.
Qed.

Lemma firstn_repeat {A} (x : A) n m : firstn n (repeat x m) = repeat x (min n m).
Proof. revert m. induction n; intros [|m]; cbn; [reflexivity..|]. now rewrite IHn. Qed.

Lemma steady_state A a b w t w0 : strictly_stable (a1 a) (a2 a) -> den a w <> RtoC 0 ->
  exists r B, 0 < r < 1 /\ forall n,
  Rabs (nth n (fst (df2_run a b w0 (tones A w t 0 (S n)))) 0 -
        A * fst (Cmult (Cdiv (num b w) (den a w)) (polar 1 (t + w * INR n)))) <= B * r ^ n.
Proof.
  intros S D. set (G := Cinv (den a w)).
  assert (E : Cmult G (den a w) = RtoC 1) by (unfold G; rewrite Cmult_comm; now apply Cinv_r).
  set (ws := {| v1 := wss A G (t + w * INR 0 - w); v2 := wss A G (t + w * INR 0 - w - w) |}).
  set (we := lin_w 1 w0 (-1) ws).
  destruct (zero_input_decay a b we S) as (r & B & Hr & HB & Hdec).
  exists r, ((Rabs (b0 b) * (Rabs (a1 a) + Rabs (a2 a)) + Rabs (b1 b) + Rabs (b2 b)) * B).
  split; [assumption|]. intros n.
  set (xs := tones A w t 0 (Datatypes.S n)).
  assert (L : length xs = Datatypes.S n) by (unfold xs, tones; now rewrite map_length, seq_length).
  assert (F : fst (df2_run a b w0 xs) =
    lin 1 (fst (df2_run a b ws xs)) 1 (fst (df2_run a b we (repeat 0 (length xs))))).
  { rewrite <- df2_lin by now rewrite repeat_length. rewrite lin_1_0. do 2 f_equal.
    unfold we. apply state_eq; cbn; ring. }
  rewrite F, lin_nth by (rewrite ?df2_run_length, ?repeat_length; lia).
  unfold ws, xs at 1. rewrite wss_run by assumption.
  rewrite nth_map_seq.
  rewrite df2_nth by (rewrite repeat_length; lia).
  rewrite firstn_repeat, L, Nat.min_l by lia. rewrite nth_repeat.
  replace (Cmult G (num b w)) with (Cdiv (num b w) (den a w)) by (unfold Cdiv, G; apply Cmult_comm).
  set (q := A * _).
  replace (1 * q + 1 * df2_y a b (snd (df2_run a b we (repeat 0 n))) 0 - q)
    with (df2_y a b (snd (df2_run a b we (repeat 0 n))) 0) by ring.
  destruct (Hdec n) as [D1 D2]. set (wn := snd _) in *. unfold df2_y.
  set (Q := B * r ^ n) in *.
  assert (M : forall k v, Rabs v <= Q -> Rabs (k * v) <= Rabs k * Q).
  { intros. rewrite Rabs_mult. apply Rmult_le_compat_l; [apply Rabs_pos|assumption]. }
  replace ((Rabs (b0 b) * (Rabs (a1 a) + Rabs (a2 a)) + Rabs (b1 b) + Rabs (b2 b)) * B * r ^ n)
    with (Rabs (b0 b) * (0 + Rabs (a1 a) * Q + Rabs (a2 a) * Q) + Rabs (b1 b) * Q + Rabs (b2 b) * Q)
    by (unfold Q; ring).
  assert (W : Rabs (0 - a1 a * v1 wn - a2 a * v2 wn) <= 0 + Rabs (a1 a) * Q + Rabs (a2 a) * Q).
  { eapply Rle_trans; [apply Rabs_triang|]. rewrite Rabs_Ropp.
    apply Rplus_le_compat; [|now apply M].
    eapply Rle_trans; [apply Rabs_triang|]. rewrite Rabs_Ropp.
    apply Rplus_le_compat; [rewrite Rabs_R0; lra|now apply M]. }
  eapply Rle_trans; [apply Rabs_triang|]. apply Rplus_le_compat; [|now apply M].
  eapply Rle_trans; [apply Rabs_triang|]. apply Rplus_le_compat; [|now apply M].
  rewrite Rabs_mult. apply Rmult_le_compat_l; [apply Rabs_pos|assumption].
Qed.

(** A strictly stable section has no pole on the unit circle. *)
Lemma stable_den a w : strictly_stable (a1 a) (a2 a) -> den a w <> RtoC 0.
Proof.
  intros S Z.
  assert (Q : quadratic 1 (a1 a) (a2 a) (polar 1 w) = RtoC 0).
  { transitivity (Cmult (polar 1 (2 * w)) (den a w)); [|rewrite Z; ring].
    unfold quadratic, den.
    replace (polar 1 (2 * w)) with (Cmult (polar 1 w) (polar 1 w)) by (rewrite polar_add; f_equal; ring).
    assert (E1 : Cmult (polar 1 w) (polar 1 (- w)) = RtoC 1).
    { rewrite polar_add. replace (w + - w) with 0 by ring. unfold polar. rewrite cos_0, sin_0. unfold RtoC. f_equal; ring. }
    assert (E2 : Cmult (Cmult (polar 1 w) (polar 1 w)) (polar 1 (-2 * w)) = RtoC 1).
    { rewrite !polar_add. replace (w + w + -2 * w) with 0 by ring. unfold polar. rewrite cos_0, sin_0. unfold RtoC. f_equal; ring. }
    transitivity (Cplus (Cplus (Cmult (polar 1 w) (polar 1 w))
       (Cmult (RtoC (a1 a)) (Cmult (polar 1 w) (Cmult (polar 1 w) (polar 1 (- w))))))
       (Cmult (RtoC (a2 a)) (Cmult (Cmult (polar 1 w) (polar 1 w)) (polar 1 (-2 * w))))).
    - rewrite E1, E2. ring.
    - ring. }
  apply S in Q. rewrite Cmod_lt1 in Q. unfold polar in Q; cbn [fst snd] in Q.
  pose proof (sin2_cos2 w) as T. unfold Rsqr in T. nra.
Qed.
