(** * Decaying and sinusoidal signals through stable sections *)

From Coq Require Import Reals List Arith Lra Lia.
From Coquelicot Require Import Complex.
From Verif Require Import Base Scalars Biquad BiquadSpec BiquadProofs BiquadStability.
Import ListNotations.
Local Open Scope R_scope.

(** Stable enough to remain stable after scaling by [r]. *)
Lemma stable_margin a1 a2 : strictly_stable a1 a2 ->
  exists r0, 0 < r0 < 1 /\ forall r, r0 <= r < 1 -> strictly_stable (a1 / r) (a2 / (r * r)).
Proof.
  intros S. destruct (scaled_stable a1 a2 S) as (r0 & Hr & S0). exists r0. split; [assumption|].
  intros r H z Hz.
  (* z root of scaled by r  ->  (r / r0) z root of scaled by r0 *)
  set (k := r / r0). assert (K : 1 <= k) by (apply (Rmult_le_reg_r r0); [lra|]; unfold k; field_simplify; lra).
  assert (Q : quadratic 1 (a1 / r0) (a2 / (r0 * r0)) (Cmult (RtoC k) z) = RtoC 0).
  { transitivity (Cmult (RtoC (k * k)) (quadratic 1 (a1 / r) (a2 / (r * r)) z)); [|rewrite Hz; ring].
    unfold quadratic, k.
    replace (a1 / r0) with ((r / r0) * (a1 / r)) by (field; lra).
    replace (a2 / (r0 * r0)) with ((r / r0) * (r / r0) * (a2 / (r * r))) by (field; lra).
    rewrite !RtoC_mult. ring. }
  apply S0 in Q. rewrite Cmod_mult, Cmod_R, Rabs_pos_eq in Q by lra.
  pose proof (Cmod_ge_0 z). nra.
Qed.

(** Scaling time by a geometric factor. *)
Fixpoint stretch (c r : R) (xs : list R) : list R :=
  match xs with [] => [] | x :: xs' => x / (c * r) :: stretch (c * r) r xs' end.

Lemma stretched_run a b r xs : 0 < r -> forall c w w', 0 < c ->
  v1 w = c * v1 w' -> v2 w = c / r * v2 w' ->
  let z := snd (df2_run a b w xs) in
  let z' := snd (df2_run {| a1 := a1 a / r; a2 := a2 a / (r * r) |} b w' (stretch c r xs)) in
  v1 z = c * r ^ length xs * v1 z' /\ v2 z = c * r ^ length xs / r * v2 z'.
Proof.
  intros Hr. induction xs as [|x xs IH]; intros c w w' Hc H1 H2; cbn.
  - rewrite H1, H2. split; [ring|field; lra].
  - assert (Hcr : 0 < c * r) by nra.
    match goal with |- context [df2_run a b ?u xs] => match goal with
      |- context [df2_run _ b ?u' (stretch (c * r) r xs)] => destruct (IH (c * r) u u' Hcr) as [I1 I2] end end.
    + unfold df2_w; cbn. rewrite H1, H2. field. lra.
    + unfold df2_w; cbn. rewrite H1. field. lra.
    + rewrite I1, I2. split; [ring|field; lra].
Qed.

Lemma stretch_bounded r X xs : 0 < r -> forall c, 0 < c ->
  (forall n, (n < length xs)%nat -> Rabs (nth n xs 0) <= X * (c * r ^ n)) ->
  Forall (fun x => Rabs x <= X / r) (stretch c r xs).
Proof.
  intros Hr. induction xs as [|x xs IH]; intros c Hc H; cbn; constructor.
  - specialize (H O ltac:(cbn; lia)). cbn in H. unfold Rdiv.
    rewrite Rabs_mult, Rabs_inv, (Rabs_pos_eq (c * r)) by nra.
    apply (Rmult_le_reg_r (c * r)); [nra|]. rewrite Rmult_assoc, Rinv_l by nra.
    apply Rle_trans with (1 := Req_le _ _ (Rmult_1_r _)). apply Rle_trans with (1 := H).
    apply Req_le. field. lra.
  - apply IH; [nra|]. intros n Hn. specialize (H (S n) ltac:(cbn; lia)). cbn [nth] in H.
    replace (X * (c * r * r ^ n)) with (X * (c * r ^ S n)) by (cbn; ring). exact H.
Qed.

Lemma firstn_nth {A} (l : list A) d : forall n m, (n < m)%nat -> nth n (firstn m l) d = nth n l d.
Proof.
  induction l as [|x l IH]; intros n m H; [now rewrite firstn_nil|].
  destruct m; [lia|]. destruct n; [reflexivity|]. cbn. apply IH. lia.
Qed.

(** Geometrically decaying input gives geometrically decaying output. *)
Lemma decaying a b : strictly_stable (a1 a) (a2 a) -> exists r0, 0 < r0 < 1 /\
  forall r, r0 <= r < 1 -> forall X w, 0 <= X -> exists Y, 0 <= Y /\ forall xs,
    (forall n, (n < length xs)%nat -> Rabs (nth n xs 0) <= X * r ^ n) ->
    forall n, (n < length xs)%nat -> Rabs (nth n (fst (df2_run a b w xs)) 0) <= Y * r ^ n.
Proof.
  intros S. destruct (stable_margin _ _ S) as (r0 & Hr0 & M). exists r0. split; [assumption|].
  intros r Hr X w HX.
  set (a' := {| a1 := a1 a / r; a2 := a2 a / (r * r) |}).
  set (w' := {| v1 := v1 w; v2 := r * v2 w |}).
  assert (XR : 0 <= X / r) by (apply Rmult_le_pos; [lra|]; left; apply Rinv_0_lt_compat; lra).
  destruct (df2_bounded a' b (X / r) (M r Hr) XR w') as [V HV].
  assert (V0 : 0 <= V). { destruct (HV [] (Forall_nil _)) as [H _]. pose proof (Rabs_pos (v1 (snd (df2_run a' b w' [])))). lra. }
  set (A := Rabs (a1 a)). set (A2 := Rabs (a2 a)).
  exists (Rabs (b0 b) * (X + A * V + A2 * (V / r)) + Rabs (b1 b) * V + Rabs (b2 b) * (V / r)).
  assert (Vr : 0 <= V / r) by (apply Rmult_le_pos; [lra|]; left; apply Rinv_0_lt_compat; lra).
  assert (PA : 0 <= A) by apply Rabs_pos. assert (PA2 : 0 <= A2) by apply Rabs_pos.
  pose proof (Rabs_pos (b0 b)) as P0. pose proof (Rabs_pos (b1 b)) as P1. pose proof (Rabs_pos (b2 b)) as P2.
  assert (PI0 : 0 <= X + A * V + A2 * (V / r)).
  { assert (0 <= A * V) by now apply Rmult_le_pos. assert (0 <= A2 * (V / r)) by now apply Rmult_le_pos. lra. }
  split.
  { assert (0 <= Rabs (b0 b) * (X + A * V + A2 * (V / r))) by now apply Rmult_le_pos.
    assert (0 <= Rabs (b1 b) * V) by now apply Rmult_le_pos.
    assert (0 <= Rabs (b2 b) * (V / r)) by now apply Rmult_le_pos. lra. }
  intros xs H n Hn. rewrite df2_nth by assumption.
  destruct (stretched_run a b r (firstn n xs) ltac:(lra) 1 w w' ltac:(lra)) as [E1 E2].
  { cbn. ring. } { cbn. field. lra. }
  fold a' in E1, E2. rewrite firstn_length, Nat.min_l in E1, E2 by lia.
  destruct (HV (stretch 1 r (firstn n xs))) as [B1 B2].
  { apply stretch_bounded; [lra..|]. rewrite firstn_length, Nat.min_l by lia.
    intros i Hi. rewrite firstn_nth by lia. rewrite Rmult_1_l. apply H. lia. }
  set (z := snd (df2_run a b w (firstn n xs))) in *.
  set (z' := snd (df2_run a' b w' (stretch 1 r (firstn n xs)))) in *.
  assert (Rn : 0 <= r ^ n) by (apply pow_le; lra).
  assert (C1 : Rabs (v1 z) <= V * r ^ n).
  { rewrite E1, Rmult_1_l, Rabs_mult, (Rabs_pos_eq (r ^ n)) by assumption.
    rewrite (Rmult_comm V). now apply Rmult_le_compat_l. }
  assert (C2 : Rabs (v2 z) <= V / r * r ^ n).
  { rewrite E2, Rmult_1_l. unfold Rdiv. rewrite !Rabs_mult, (Rabs_pos_eq (r ^ n)), Rabs_inv, (Rabs_pos_eq r) by (try assumption; lra).
    replace (V * / r * r ^ n) with (r ^ n * / r * V) by ring. apply Rmult_le_compat_l; [|assumption].
    apply Rmult_le_pos; [assumption|]. left; apply Rinv_0_lt_compat; lra. }
  specialize (H n Hn). unfold df2_y.
  assert (T3 : forall p q s, Rabs (p + q + s) <= Rabs p + Rabs q + Rabs s).
  { intros p q s. pose proof (Rabs_triang (p + q) s). pose proof (Rabs_triang p q). lra. }
  assert (I : Rabs (nth n xs 0 - a1 a * v1 z - a2 a * v2 z) <= (X + A * V + A2 * (V / r)) * r ^ n).
  { replace (nth n xs 0 - a1 a * v1 z - a2 a * v2 z) with (nth n xs 0 + - a1 a * v1 z + - a2 a * v2 z) by ring.
    eapply Rle_trans; [apply T3|]. rewrite !Rabs_mult, !Rabs_Ropp. fold A A2.
    assert (A * Rabs (v1 z) <= A * (V * r ^ n)) by now apply Rmult_le_compat_l.
    assert (A2 * Rabs (v2 z) <= A2 * (V / r * r ^ n)) by now apply Rmult_le_compat_l.
    replace ((X + A * V + A2 * (V / r)) * r ^ n) with (X * r ^ n + A * (V * r ^ n) + A2 * (V / r * r ^ n)) by ring. lra. }
  set (u := nth n xs 0 - a1 a * v1 z - a2 a * v2 z) in *.
  match goal with |- Rabs ?e <= _ => replace e with (b0 b * u + b1 b * v1 z + b2 b * v2 z) by (unfold u; ring) end.
  eapply Rle_trans; [apply T3|]. rewrite !Rabs_mult.
  assert (Rabs (b0 b) * Rabs u <= Rabs (b0 b) * ((X + A * V + A2 * (V / r)) * r ^ n)) by now apply Rmult_le_compat_l.
  assert (Rabs (b1 b) * Rabs (v1 z) <= Rabs (b1 b) * (V * r ^ n)) by now apply Rmult_le_compat_l.
  assert (Rabs (b2 b) * Rabs (v2 z) <= Rabs (b2 b) * (V / r * r ^ n)) by now apply Rmult_le_compat_l.
  match goal with |- _ <= ?g => replace g with (Rabs (b0 b) * ((X + A * V + A2 * (V / r)) * r ^ n) +
    Rabs (b1 b) * (V * r ^ n) + Rabs (b2 b) * (V / r * r ^ n)) by ring end. lra.
Qed.

(** A sinusoid with complex amplitude [Z] at angular frequency [w]. *)
Definition tone (Z : C) (w : R) (n : nat) : R := fst (Cmult Z (polar 1 (w * INR n))).

Definition ss (G : C) (t : R) : R := fst (Cmult G (polar 1 t)).

Lemma ss_rec a w G t :
  ss G t = ss (Cmult G (den a w)) t - a1 a * ss G (t - w) - a2 a * ss G (t - w - w).
Proof.
  unfold ss.
  assert (Y : Cmult (Cmult G (den a w)) (polar 1 t) =
     Cplus (Cplus (Cmult G (polar 1 t)) (Cmult (RtoC (a1 a)) (Cmult G (polar 1 (t - w)))))
       (Cmult (RtoC (a2 a)) (Cmult G (polar 1 (t - w - w))))).
  { unfold den. replace (t - w) with (- w + t) by ring. replace (- w + t - w) with (- 2 * w + t) by ring.
    rewrite <- !polar_add. ring. }
  rewrite Y. cbn. ring.
Qed.

Lemma ss_out b w G t :
  b0 b * ss G t + b1 b * ss G (t - w) + b2 b * ss G (t - w - w) = ss (Cmult G (num b w)) t.
Proof.
  unfold ss.
  assert (Y : Cmult (Cmult G (num b w)) (polar 1 t) =
     Cplus (Cplus (Cmult (RtoC (b0 b)) (Cmult G (polar 1 t))) (Cmult (RtoC (b1 b)) (Cmult G (polar 1 (t - w)))))
       (Cmult (RtoC (b2 b)) (Cmult G (polar 1 (t - w - w))))).
  { unfold num. replace (t - w) with (- w + t) by ring. replace (- w + t - w) with (- 2 * w + t) by ring.
    rewrite <- !polar_add. ring. }
  rewrite Y. cbn. ring.
Qed.

Lemma ss_run a b w G n : forall k,
  fst (df2_run a b {| v1 := ss G (w * INR k - w); v2 := ss G (w * INR k - w - w) |}
         (map (tone (Cmult G (den a w)) w) (seq k n))) =
  map (tone (Cmult G (num b w)) w) (seq k n).
Proof.
  induction n as [|n IH]; intros k; [reflexivity|].
  cbn [seq map df2_run fst].
  assert (W : tone (Cmult G (den a w)) w k - a1 a * ss G (w * INR k - w) - a2 a * ss G (w * INR k - w - w)
              = ss G (w * INR k)) by (symmetry; apply ss_rec).
  f_equal.
  - unfold df2_y; cbn [v1 v2]. rewrite W. apply ss_out.
  - rewrite <- (IH (S k)). do 3 f_equal. unfold df2_w; cbn [v1 v2]. rewrite W.
    f_equal; f_equal; rewrite S_INR; ring.
Qed.

(** A nearly sinusoidal input gives a nearly sinusoidal output. *)
Lemma section_steady a b w : strictly_stable (a1 a) (a2 a) -> exists r0, 0 < r0 < 1 /\
  forall r, r0 <= r < 1 -> forall Z X w0, 0 <= X -> exists Y, 0 <= Y /\ forall xs,
    (forall n, (n < length xs)%nat -> Rabs (nth n xs 0 - tone Z w n) <= X * r ^ n) ->
    forall n, (n < length xs)%nat ->
      Rabs (nth n (fst (df2_run a b w0 xs)) 0 - tone (Cmult Z (Cdiv (num b w) (den a w))) w n) <= Y * r ^ n.
Proof.
  intros S. destruct (decaying a b S) as (r0 & Hr0 & D). exists r0. split; [assumption|].
  intros r Hr Z X w0 HX. pose proof (stable_den a w S) as Dn.
  set (G := Cdiv Z (den a w)).
  assert (GD : Cmult G (den a w) = Z) by (unfold G; field; assumption).
  assert (GN : Cmult G (num b w) = Cmult Z (Cdiv (num b w) (den a w))) by (unfold G; field; assumption).
  set (ws := {| v1 := ss G (w * INR 0 - w); v2 := ss G (w * INR 0 - w - w) |}).
  set (we := lin_w 1 w0 (-1) ws).
  destruct (D r Hr X we HX) as (Y & HY & HD). exists Y. split; [assumption|]. intros xs H n Hn.
  set (ts := map (tone Z w) (seq 0 (length xs))).
  assert (Lt : length xs = length ts) by (unfold ts; now rewrite map_length, seq_length).
  assert (Nt : forall i, (i < length xs)%nat -> nth i ts 0 = tone Z w i).
  { intros i Hi. unfold ts. rewrite (nth_indep _ 0 (tone Z w 0)) by (now rewrite map_length, seq_length).
    rewrite map_nth, seq_nth by lia. reflexivity. }
  pose proof (df2_lin a b 1 (-1) xs ts w0 ws Lt) as L.
  pose proof (ss_run a b w G (length xs) 0) as SR. rewrite GD, GN in SR. fold ts ws in SR.
  rewrite SR in L. fold we in L.
  specialize (HD (lin 1 xs (-1) ts)).
  assert (Ll : length (lin 1 xs (-1) ts) = length xs) by (unfold lin; rewrite map_length, combine_length; lia).
  rewrite Ll in HD. rewrite L in HD.
  assert (Q : forall i, (i < length xs)%nat -> Rabs (nth i (lin 1 xs (-1) ts) 0) <= X * r ^ i).
  { intros i Hi. rewrite lin_nth by assumption. rewrite Nt by assumption.
    replace (1 * nth i xs 0 + -1 * tone Z w i) with (nth i xs 0 - tone Z w i) by ring. now apply H. }
  specialize (HD Q n Hn). rewrite lin_nth in HD;
    [|now rewrite df2_run_length, map_length, seq_length|now rewrite df2_run_length].
  rewrite (nth_indep (map _ _) 0 (tone (Cmult Z (Cdiv (num b w) (den a w))) w 0)) in HD
    by (now rewrite map_length, seq_length).
  rewrite map_nth, seq_nth in HD by lia. rewrite Nat.add_0_l in HD.
  match type of HD with Rabs ?e <= _ => match goal with |- Rabs ?g <= _ => replace g with e by ring end end.
  exact HD.
Qed.
