(** * Lemmas about second order sections *)

From Coq Require Import Reals List Arith Lra Lia Psatz.
From Coquelicot Require Import Complex.
From Verif Require Import Base Scalars Biquad BiquadSpec.
Import ListNotations.
Local Open Scope R_scope.

(** ** Filtering over the reals as a total function *)

Definition df2_y (a : coeff_a R) (b : coeff_b R) (w : state R) (x : R) : R :=
  b0 b * (x - a1 a * v1 w - a2 a * v2 w) + b1 b * v1 w + b2 b * v2 w.
Definition df2_w (a : coeff_a R) (w : state R) (x : R) : state R :=
  {| v1 := x - a1 a * v1 w - a2 a * v2 w; v2 := v1 w |}.
Definition t_y (b : coeff_b R) (w : state R) (x : R) : R := b0 b * x + v1 w.
Definition t_w (a : coeff_a R) (b : coeff_b R) (w : state R) (x : R) : state R :=
  {| v1 := b1 b * x - a1 a * t_y b w x + v2 w; v2 := b2 b * x - a2 a * t_y b w x |}.

Fixpoint df2_run a b w xs : list R * state R :=
  match xs with
  | [] => ([], w)
  | x :: xs' => let r := df2_run a b (df2_w a w x) xs' in (df2_y a b w x :: fst r, snd r)
  end.
Fixpoint t_run a b w xs : list R * state R :=
  match xs with
  | [] => ([], w)
  | x :: xs' => let r := t_run a b (t_w a b w x) xs' in (t_y b w x :: fst r, snd r)
  end.

Lemma run_df2_R bq xs :
  run (step_df2 R_scalar) bq xs =
  Ok (fst (df2_run (bq_a bq) (bq_b bq) (bq_w bq) xs),
      {| bq_a := bq_a bq; bq_b := bq_b bq; bq_w := snd (df2_run (bq_a bq) (bq_b bq) (bq_w bq) xs) |}).
Proof.
  revert bq. induction xs as [|x xs IH]; intros bq; [destruct bq; reflexivity|].
  cbn -[step_df2]. unfold step_df2 at 1. cbn. rewrite IH. cbn. reflexivity.
Qed.

Lemma run_step_R bq xs : run (step R_scalar) bq xs = run (step_df2 R_scalar) bq xs.
Proof. reflexivity. Qed.

Lemma run_t_R bq xs :
  run (step_df2_transposed R_scalar) bq xs =
  Ok (fst (t_run (bq_a bq) (bq_b bq) (bq_w bq) xs),
      {| bq_a := bq_a bq; bq_b := bq_b bq; bq_w := snd (t_run (bq_a bq) (bq_b bq) (bq_w bq) xs) |}).
Proof.
  revert bq. induction xs as [|x xs IH]; intros bq; [destruct bq; reflexivity|].
  cbn -[step_df2_transposed]. unfold step_df2_transposed at 1. cbn. rewrite IH. cbn. reflexivity.
Qed.

Lemma df2_run_length a b xs : forall w, length (fst (df2_run a b w xs)) = length xs.
Proof. induction xs; intros; cbn; [reflexivity|now rewrite IHxs]. Qed.
Lemma t_run_length a b xs : forall w, length (fst (t_run a b w xs)) = length xs.
Proof. induction xs; intros; cbn; [reflexivity|now rewrite IHxs]. Qed.

Lemma df2_run_app a b xs : forall w ys,
  df2_run a b w (xs ++ ys) =
  (fst (df2_run a b w xs) ++ fst (df2_run a b (snd (df2_run a b w xs)) ys),
   snd (df2_run a b (snd (df2_run a b w xs)) ys)).
Proof.
  induction xs as [|x xs IH]; intros; cbn; [now destruct (df2_run a b w ys)|].
  rewrite IH. reflexivity.
Qed.

(** The state of the transposed form that corresponds to a state of direct form 2. *)
Definition to_transposed (a : coeff_a R) (b : coeff_b R) (w : state R) : state R :=
  let c1 := b1 b - a1 a * b0 b in
  let c2 := b2 b - a2 a * b0 b in
  {| v1 := c1 * v1 w + c2 * v2 w; v2 := c2 * v1 w + (a1 a * c2 - a2 a * c1) * v2 w |}.

Lemma state_eq (w w' : state R) : v1 w = v1 w' -> v2 w = v2 w' -> w = w'.
Proof. destruct w, w'; cbn; now intros -> ->. Qed.

Lemma df2_t a b xs : forall w,
  fst (df2_run a b w xs) = fst (t_run a b (to_transposed a b w) xs) /\
  to_transposed a b (snd (df2_run a b w xs)) = snd (t_run a b (to_transposed a b w) xs).
Proof.
  induction xs as [|x xs IH]; intros w; cbn; [auto|].
  assert (Y : df2_y a b w x = t_y b (to_transposed a b w) x)
    by (unfold df2_y, t_y, to_transposed; cbn; ring).
  assert (W : to_transposed a b (df2_w a w x) = t_w a b (to_transposed a b w) x)
    by (apply state_eq; unfold df2_w, t_w, t_y, to_transposed; cbn; ring).
  destruct (IH (df2_w a w x)) as [H1 H2]. rewrite W in H1, H2. rewrite Y, H1. auto.
Qed.

(** ** The difference equation *)

Definition past_h (h1 h2 : R) (xs : list R) (n k : nat) : R :=
  if (k <=? n)%nat then nth (n - k) xs 0 else if (k - n =? 1)%nat then h1 else h2.

Lemma t_difference a b xs : forall x1 x2 y1 y2 w,
  v1 w = b1 b * x1 - a1 a * y1 + (b2 b * x2 - a2 a * y2) ->
  v2 w = b2 b * x1 - a2 a * y1 ->
  forall n, (n < length xs)%nat ->
  let ys := fst (t_run a b w xs) in
  nth n ys 0 = b0 b * past_h x1 x2 xs n 0 + b1 b * past_h x1 x2 xs n 1 + b2 b * past_h x1 x2 xs n 2
             - a1 a * past_h y1 y2 ys n 1 - a2 a * past_h y1 y2 ys n 2.
Proof.
  induction xs as [|x xs IH]; intros x1 x2 y1 y2 w H1 H2 n Hn ys; [cbn in Hn; lia|].
  cbn in Hn. unfold ys. cbn [t_run fst]. set (y := t_y b w x).
  destruct n as [|n].
  - unfold past_h; cbn. unfold y, t_y. rewrite H1. ring.
  - specialize (IH x x1 y y1 (t_w a b w x)). cbn [nth].
    rewrite IH by (try lia; unfold t_w; cbn [v1 v2]; fold y; rewrite ?H2; ring).
    unfold past_h. destruct n as [|[|n]]; cbn [Nat.leb Nat.sub nth Nat.eqb]; rewrite ?Nat.sub_0_r; try ring.
Qed.

Lemma past_h_0 xs n k : (k <= 2)%nat -> past_h 0 0 xs n k = past xs n k.
Proof. unfold past_h, past. intros. destruct (k <=? n)%nat; [reflexivity|]. now destruct (k - n =? 1)%nat. Qed.

Lemma to_transposed_zero a b : to_transposed a b {| v1 := 0; v2 := 0 |} = {| v1 := 0; v2 := 0 |}.
Proof. apply state_eq; cbn; ring. Qed.

Lemma rest_difference a b xs :
  difference_equation (b0 b) (b1 b) (b2 b) (a1 a) (a2 a) xs
    (fst (t_run a b {| v1 := 0; v2 := 0 |} xs)).
Proof.
  intros n Hn.
  rewrite (t_difference a b xs 0 0 0 0 {| v1 := 0; v2 := 0 |}) by (cbn; try ring; assumption).
  now rewrite !past_h_0 by lia.
Qed.

(** A causal second order recursion determines its output. *)
Lemma difference_unique b0 b1 b2 a1 a2 xs ys ys' :
  length ys = length xs -> length ys' = length xs ->
  difference_equation b0 b1 b2 a1 a2 xs ys -> difference_equation b0 b1 b2 a1 a2 xs ys' -> ys = ys'.
Proof.
  intros L L' D D'. apply nth_ext with 0 0; [congruence|]. rewrite L.
  intros n. induction n as [n IH] using lt_wf_ind. intros Hn.
  rewrite D, D' by assumption.
  assert (P : forall k, (0 < k)%nat -> past ys n k = past ys' n k).
  { intros k Hk. unfold past. destruct (Nat.leb_spec k n); [|reflexivity]. apply IH; lia. }
  rewrite !P by lia. reflexivity.
Qed.

(** ** Superposition *)

Definition lin_w (p : R) (w : state R) (q : R) (w' : state R) : state R :=
  {| v1 := p * v1 w + q * v1 w'; v2 := p * v2 w + q * v2 w' |}.

Lemma df2_lin a b p q xs : forall xs' w w', length xs = length xs' ->
  fst (df2_run a b (lin_w p w q w') (lin p xs q xs')) =
  lin p (fst (df2_run a b w xs)) q (fst (df2_run a b w' xs')).
Proof.
  induction xs as [|x xs IH]; intros [|x' xs'] w w' L; try discriminate; [reflexivity|].
  cbn. f_equal.
  - unfold df2_y, lin_w; cbn. ring.
  - unfold lin in IH. rewrite <- IH by now injection L. do 2 f_equal.
    apply state_eq; unfold df2_w, lin_w; cbn; ring.
Qed.

Lemma t_lin a b p q xs : forall xs' w w', length xs = length xs' ->
  fst (t_run a b (lin_w p w q w') (lin p xs q xs')) =
  lin p (fst (t_run a b w xs)) q (fst (t_run a b w' xs')).
Proof.
  induction xs as [|x xs IH]; intros [|x' xs'] w w' L; try discriminate; [reflexivity|].
  cbn. f_equal.
  - unfold t_y, lin_w; cbn. ring.
  - unfold lin in IH. rewrite <- IH by now injection L. do 2 f_equal.
    apply state_eq; unfold t_w, t_y, lin_w; cbn; ring.
Qed.

Lemma df2_delay a b k xs :
  fst (df2_run a b {| v1 := 0; v2 := 0 |} (repeat 0 k ++ xs)) =
  repeat 0 k ++ fst (df2_run a b {| v1 := 0; v2 := 0 |} xs).
Proof.
  induction k as [|k IH]; [reflexivity|]. cbn. f_equal.
  - unfold df2_y; cbn; ring.
  - rewrite <- IH. do 2 f_equal. apply state_eq; cbn; ring.
Qed.
Lemma t_delay a b k xs :
  fst (t_run a b {| v1 := 0; v2 := 0 |} (repeat 0 k ++ xs)) =
  repeat 0 k ++ fst (t_run a b {| v1 := 0; v2 := 0 |} xs).
Proof.
  induction k as [|k IH]; [reflexivity|]. cbn. f_equal.
  - unfold t_y; cbn; ring.
  - rewrite <- IH. do 2 f_equal. apply state_eq; unfold t_w, t_y; cbn; unfold t_y; cbn; ring.
Qed.

(** ** Quadratic polynomials *)

Lemma Cmod_sqr (z : C) : Cmod z * Cmod z = fst z * fst z + snd z * snd z.
Proof.
  unfold Cmod. rewrite sqrt_sqrt; [ring|]. nra.
Qed.

Lemma Cmod_ge_re (z : C) : Rabs (fst z) <= Cmod z.
Proof.
  apply Rsqr_incr_0_var; [|apply Cmod_ge_0].
  rewrite <- Rsqr_abs. unfold Rsqr. rewrite Cmod_sqr. nra.
Qed.

Lemma csqrt_sqr (z : C) : Cmult (csqrt z) (csqrt z) = z.
Proof.
  pose proof (Cmod_ge_re z) as G. pose proof (Cmod_sqr z) as Q.
  destruct z as [x y]. cbn [fst snd] in *.
  set (m := Cmod (x, y)) in *.
  assert (A1 : 0 <= (m + x) / 2). { unfold Rabs in G. destruct (Rcase_abs x); lra. }
  assert (A2 : 0 <= (m - x) / 2). { unfold Rabs in G. destruct (Rcase_abs x); lra. }
  unfold csqrt, Cmult. cbn [fst snd]. fold m.
  assert (E : sqrt ((m + x) / 2) * sqrt ((m - x) / 2) = Rabs y / 2).
  { rewrite <- sqrt_mult by assumption.
    replace ((m + x) / 2 * ((m - x) / 2)) with (Rsqr (y / 2)).
    - rewrite sqrt_Rsqr_abs. unfold Rdiv. rewrite Rabs_mult, (Rabs_pos_eq (/ 2)); lra.
    - unfold Rsqr. nra. }
  pose proof (sqrt_sqrt _ A1) as S1. pose proof (sqrt_sqrt _ A2) as S2.
  destruct (Rle_dec 0 y) as [Y|Y].
  - rewrite Rabs_pos_eq in E by assumption. f_equal; nra.
  - rewrite Rabs_left in E by lra. f_equal; nra.
Qed.

Lemma csqrt_real (m : R) : csqrt (RtoC m) = if Rle_dec 0 m then RtoC (sqrt m) else (0, sqrt (- m)).
Proof.
  unfold csqrt. rewrite Cmod_R. cbn [fst snd RtoC]. destruct (Rle_dec 0 0); [|lra].
  destruct (Rle_dec 0 m) as [M|M].
  - rewrite Rabs_pos_eq by assumption. replace ((m + m) / 2) with m by lra.
    replace ((m - m) / 2) with 0 by lra. now rewrite sqrt_0.
  - rewrite Rabs_left by lra. replace ((- m + m) / 2) with 0 by lra.
    replace ((- m - m) / 2) with (- m) by lra. now rewrite sqrt_0.
Qed.

Lemma RtoC_neq0 a : a <> 0 -> RtoC a <> RtoC 0.
Proof. intros H X. apply H. now injection X. Qed.

Lemma solve_roots a b c : a <> 0 ->
  exists s0 s1, solve a b c = Ok (s0, s1) /\ roots_of a b c s0 s1.
Proof.
  intros Ha. unfold solve. destruct (Req_EM_T a 0) as [X|X]; [contradiction|].
  eexists _, _. split; [reflexivity|]. intros z.
  set (ds := csqrt _). assert (D : Cmult ds ds = Cminus (b / a * (b / a), 0) (RtoC (4 * (c / a))))
    by apply csqrt_sqr. clearbody ds.
  unfold quadratic.
  replace ((b / a * (b / a), 0) : C) with (Cmult (RtoC (b / a)) (RtoC (b / a))) in D
    by (rewrite <- RtoC_mult; reflexivity).
  assert (N2 : RtoC 2 <> RtoC 0) by (apply RtoC_neq0; lra).
  assert (Na : RtoC a <> RtoC 0) by (now apply RtoC_neq0).
  transitivity (Cmult (RtoC a) (Cplus (Cplus (Cmult z z) (Cmult (RtoC (b / a)) z)) (RtoC (c / a)))).
  - rewrite !RtoC_div by assumption. field. assumption.
  - f_equal. rewrite RtoC_opp.
    transitivity (Cplus (Cplus (Cmult z z) (Cmult (RtoC (b / a)) z))
       (Cdiv (Cminus (Cmult (RtoC (b / a)) (RtoC (b / a))) (Cmult ds ds)) (RtoC 4))).
    + f_equal. rewrite D, RtoC_mult. field. apply RtoC_neq0; lra.
    + replace (RtoC 4) with (Cmult (RtoC 2) (RtoC 2)) by (rewrite <- RtoC_mult; f_equal; ring).
      replace (RtoC 2) with (Cplus (RtoC 1) (RtoC 1)) in * by (rewrite <- RtoC_plus; f_equal; ring).
      field. split; intros X1; injection X1; intros; lra.
Qed.

(** Roots in coordinates. *)
Lemma quadratic_coords a1 a2 x y :
  quadratic 1 a1 a2 (x, y) = RtoC 0 <->
  x * x - y * y + a1 * x + a2 = 0 /\ y * (2 * x + a1) = 0.
Proof.
  unfold quadratic, Cmult, Cplus, RtoC; cbn [fst snd]. split.
  - intros H. injection H as H1 H2. split; lra.
  - intros [H1 H2]. f_equal; lra.
Qed.

Lemma Cmod_lt1 z : Cmod z < 1 <-> fst z * fst z + snd z * snd z < 1.
Proof.
  rewrite <- Cmod_sqr. pose proof (Cmod_ge_0 z). split; intros; nra.
Qed.
Lemma Cmod_le1 z : Cmod z <= 1 <-> fst z * fst z + snd z * snd z <= 1.
Proof.
  rewrite <- Cmod_sqr. pose proof (Cmod_ge_0 z). split; intros; nra.
Qed.

(** Schur-Cohn triangle, strict. *)
Lemma strict_triangle a1 a2 :
  strictly_stable a1 a2 <-> Rabs a2 < 1 /\ Rabs a1 < 1 + a2.
Proof.
  split.
  - intros S. destruct (Rle_dec 0 (a1 * a1 - 4 * a2)) as [D|D].
    + set (d := sqrt (a1 * a1 - 4 * a2)).
      assert (Hd : d * d = a1 * a1 - 4 * a2) by now apply sqrt_sqrt.
      assert (Hp : 0 <= d) by apply sqrt_pos.
      assert (P1 := S ((- a1 + d) / 2, 0)). assert (P2 := S ((- a1 - d) / 2, 0)).
      rewrite quadratic_coords, Cmod_lt1 in P1, P2. cbn [fst snd] in P1, P2.
      assert (Q1 : ((- a1 + d) / 2) * ((- a1 + d) / 2) < 1) by (specialize (P1 ltac:(split; nra)); nra).
      assert (Q2 : ((- a1 - d) / 2) * ((- a1 - d) / 2) < 1) by (specialize (P2 ltac:(split; nra)); nra).
      assert (R1 : -2 < - a1 + d < 2) by nra. assert (R2 : -2 < - a1 - d < 2) by nra.
      split; unfold Rabs; destruct Rcase_abs; nra.
    + assert (P := S (- a1 / 2, sqrt (- (a1 * a1 - 4 * a2)) / 2)).
      set (d := sqrt _) in P.
      assert (Hd : d * d = - (a1 * a1 - 4 * a2)) by (apply sqrt_sqrt; lra).
      rewrite quadratic_coords, Cmod_lt1 in P. cbn [fst snd] in P.
      specialize (P ltac:(split; nra)).
      split; unfold Rabs; destruct Rcase_abs; nra.
  - intros [B1 B2] [x y] Z. rewrite quadratic_coords in Z. rewrite Cmod_lt1. cbn [fst snd].
    destruct Z as [Z1 Z2].
    apply Rabs_def2 in B1. apply Rabs_def2 in B2.
    apply Rmult_integral in Z2. destruct Z2 as [Z2|Z2].
    + subst y. assert (-1 < x < 1); [|nra].
      (* p(1) > 0, p(-1) > 0, product of roots below 1 *)
      split.
      * apply Rnot_le_lt. intros X. assert (0 < (x - (-1)) * (x - 1) + (a1 * (x+1)) + (1 + a2 - a1)); nra.
      * apply Rnot_le_lt. intros X. nra.
    + assert (x = - a1 / 2) by lra. subst x. nra.
Qed.

Lemma weak_triangle a1 a2 s0 s1 : roots_of 1 a1 a2 s0 s1 ->
  (Cmod s0 <= 1 /\ Cmod s1 <= 1 <-> Rabs a2 <= 1 /\ Rabs a1 <= 1 + a2).
Proof.
  intros H.
  assert (Z : forall z, quadratic 1 a1 a2 z = RtoC 0 <-> z = s0 \/ z = s1).
  { intros z. rewrite (H z). split.
    - intros E.
      assert (E' : Cmult (Cminus z s0) (Cminus z s1) = RtoC 0).
      { rewrite <- E. ring. }
      destruct (Ceq_dec (Cminus z s0) (RtoC 0)) as [X|X].
      + left. rewrite <- (Cplus_0_l s0), <- X. ring.
      + right. destruct (Ceq_dec (Cminus z s1) (RtoC 0)) as [Y|Y].
        * rewrite <- (Cplus_0_l s1), <- Y. ring.
        * exfalso. now apply (Cmult_neq_0 _ _ X Y).
    - intros [->| ->]; ring. }
  split.
  - intros [M0 M1].
    assert (S : forall z, quadratic 1 a1 a2 z = RtoC 0 -> Cmod z <= 1)
      by (intros z Q; apply Z in Q; destruct Q as [->| ->]; assumption).
    destruct (Rle_dec 0 (a1 * a1 - 4 * a2)) as [D|D].
    + set (d := sqrt (a1 * a1 - 4 * a2)).
      assert (Hd : d * d = a1 * a1 - 4 * a2) by now apply sqrt_sqrt.
      assert (Hp : 0 <= d) by apply sqrt_pos.
      assert (P1 := S ((- a1 + d) / 2, 0)). assert (P2 := S ((- a1 - d) / 2, 0)).
      rewrite quadratic_coords, Cmod_le1 in P1, P2. cbn [fst snd] in P1, P2.
      assert (Q1 : ((- a1 + d) / 2) * ((- a1 + d) / 2) <= 1) by (specialize (P1 ltac:(split; nra)); nra).
      assert (Q2 : ((- a1 - d) / 2) * ((- a1 - d) / 2) <= 1) by (specialize (P2 ltac:(split; nra)); nra).
      assert (R1 : -2 <= - a1 + d <= 2) by nra. assert (R2 : -2 <= - a1 - d <= 2) by nra.
      split; unfold Rabs; destruct Rcase_abs; nra.
    + assert (P := S (- a1 / 2, sqrt (- (a1 * a1 - 4 * a2)) / 2)).
      set (d := sqrt _) in P.
      assert (Hd : d * d = - (a1 * a1 - 4 * a2)) by (apply sqrt_sqrt; lra).
      rewrite quadratic_coords, Cmod_le1 in P. cbn [fst snd] in P.
      specialize (P ltac:(split; nra)).
      split; unfold Rabs; destruct Rcase_abs; nra.
  - intros [B1 B2].
    assert (C1 : -1 <= a2 <= 1) by (unfold Rabs in B1; destruct (Rcase_abs a2); lra).
    assert (C2 : - (1 + a2) <= a1 <= 1 + a2) by (unfold Rabs in B2; destruct (Rcase_abs a1); lra).
    assert (S : forall z, quadratic 1 a1 a2 z = RtoC 0 -> Cmod z <= 1).
    { intros [x y] Q. rewrite quadratic_coords in Q. rewrite Cmod_le1. cbn [fst snd].
      destruct Q as [Z1 Z2]. apply Rmult_integral in Z2. destruct Z2 as [Z2|Z2].
      - subst y. assert (-1 <= x <= 1); [|nra]. split; apply Rnot_lt_le; intros X; nra.
      - assert (x = - a1 / 2) by lra. subst x. nra. }
    split; apply S, Z; auto.
Qed.
