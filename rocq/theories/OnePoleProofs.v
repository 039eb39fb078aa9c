(** * Lemmas about one-pole filters *)

From Coq Require Import Reals List Lra Lia Psatz.
From Coquelicot Require Import Complex.
From Verif Require Import Base Scalars Biquad BiquadProofs BiquadStability OnePole Design DesignProofs.
Import ListNotations.
Local Open Scope R_scope.

(** ** Runs of real filters *)

Fixpoint op_out (b a v : R) (xs : list R) : list R :=
  match xs with
  | [] => []
  | x :: xs' => let y := x * b - v * a in y :: op_out b a y xs'
  end.

Lemma op_run_out : forall xs op,
  exists op', op_run R_scalar op xs = Ok (op_out (op_b0 op) (op_a1 op) (op_v1 op) xs, op').
Proof.
  induction xs as [|x xs IH]; intros [a b v].
  - eexists. reflexivity.
  - cbn [op_run op_out]. unfold op_step. cbn [sc_mul sc_sub R_scalar bind op_b0 op_a1 op_v1 fst snd].
    destruct (IH {| op_a1 := a; op_b0 := b; op_v1 := x * b - v * a |}) as [op' E].
    rewrite E. eexists. reflexivity.
Qed.

Lemma op_out_length b a xs : forall v, length (op_out b a v xs) = length xs.
Proof. induction xs as [|x xs IH]; intros v; cbn; [reflexivity|now rewrite IH]. Qed.

Lemma op_out_rec b a : forall xs v n, (n < length xs)%nat ->
  nth n (op_out b a v xs) 0
  = b * nth n xs 0 - a * match n with O => v | Datatypes.S m => nth m (op_out b a v xs) 0 end.
Proof.
  induction xs as [|x xs IH]; intros v n Hn; [cbn in Hn; lia|].
  destruct n as [|n]; cbn [op_out nth].
  - ring.
  - rewrite IH by (cbn in Hn; lia). destruct n; reflexivity.
Qed.

Lemma op_out_bound b a X : Rabs a < 1 -> 0 <= X -> forall xs v,
  (forall x, In x xs -> Rabs x <= X) ->
  forall n, (n < length xs)%nat ->
  Rabs (nth n (op_out b a v xs) 0) <= Rabs a ^ Datatypes.S n * Rabs v + Rabs b * X / (1 - Rabs a).
Proof.
  intros Ha HX xs v Hx. set (B := Rabs b * X / (1 - Rabs a)).
  assert (EB : Rabs b * X = B * (1 - Rabs a)) by (unfold B; field; lra).
  induction n as [|n IH]; intros Hn.
  - rewrite op_out_rec by assumption.
    assert (Rabs (nth 0 xs 0) <= X) by (apply Hx, nth_In; assumption).
    pose proof (Rabs_pos a). pose proof (Rabs_pos b).
    assert (0 <= B). { unfold B. apply Rmult_le_pos; [apply Rmult_le_pos; assumption|left; apply Rinv_0_lt_compat; lra]. }
    eapply Rle_trans; [apply Rabs_triang|]. rewrite Rabs_Ropp, !Rabs_mult. cbn [pow]. rewrite Rmult_1_r. nra.
  - rewrite op_out_rec by assumption. specialize (IH ltac:(lia)).
    assert (Rabs (nth (Datatypes.S n) xs 0) <= X) by (apply Hx, nth_In; assumption).
    pose proof (Rabs_pos a). pose proof (Rabs_pos b).
    eapply Rle_trans; [apply Rabs_triang|]. rewrite Rabs_Ropp, !Rabs_mult.
    set (y := nth n (op_out b a v xs) 0) in *.
    replace (Rabs a ^ Datatypes.S (Datatypes.S n) * Rabs v) with (Rabs a * (Rabs a ^ Datatypes.S n * Rabs v)) by (cbn; ring).
    set (e := Rabs a ^ Datatypes.S n * Rabs v) in *.
    assert (Rabs a * Rabs y <= Rabs a * (e + B)) by (apply Rmult_le_compat_l; assumption).
    assert (Rabs b * Rabs (nth (Datatypes.S n) xs 0) <= Rabs b * X) by (apply Rmult_le_compat_l; assumption).
    nra.
Qed.

(** Powers of a sign as input. *)
Definition powers (X s : R) (n : nat) : list R := map (fun i => X * s ^ i) (seq 0 n).

Lemma nth_powers X s n i : (i < n)%nat -> nth i (powers X s n) 0 = X * s ^ i.
Proof.
  intros H. unfold powers. rewrite (nth_indep _ 0 (X * s ^ 0)) by (rewrite map_length, seq_length; assumption).
  rewrite (map_nth (fun i => X * s ^ i) (seq 0 n) 0%nat i), seq_nth by assumption. reflexivity.
Qed.

Lemma op_out_powers b a X s n : s * s = 1 -> a * s <> -1 ->
  forall i, (i < n)%nat ->
  nth i (op_out b a 0 (powers X s n)) 0 = b * X * s ^ i * (1 - (- (a * s)) ^ Datatypes.S i) / (1 + a * s).
Proof.
  intros Hs Ha. induction i as [|i IH]; intros Hi;
    (rewrite op_out_rec by (unfold powers; rewrite map_length, seq_length; assumption)); rewrite nth_powers by assumption.
  - cbn [pow]. field. lra.
  - rewrite IH by lia. set (p := (- (a * s)) ^ Datatypes.S i).
    change ((- (a * s)) ^ Datatypes.S (Datatypes.S i)) with (- (a * s) * p). cbn [pow].
    set (q := s ^ i). clearbody p q.
    assert (E : q = s * (s * q)) by (rewrite <- Rmult_assoc, Hs; ring).
    rewrite E at 2. field. lra.
Qed.

Lemma op_out_impulse b a : forall n v i, (i <= n)%nat ->
  nth i (op_out b a v (repeat 0 n)) 0 = if Nat.eqb i n then 0 else (- a) ^ Datatypes.S i * v.
Proof.
  induction n as [|n IH]; intros v i Hi.
  - assert (i = 0)%nat by lia. subst. reflexivity.
  - destruct i as [|i]; cbn [repeat op_out nth Nat.eqb].
    + cbn [pow]. ring.
    + rewrite IH by lia. destruct (Nat.eqb i n); [reflexivity|]. cbn [pow]. ring.
Qed.

(** ** Comparison of sine and hyperbolic sine *)

Lemma increasing_pos f f' m :
  f 0 = 0 -> (forall c, derivable_pt_lim f c (f' c)) -> (forall c, 0 < c < m -> 0 <= f' c) ->
  forall x, 0 <= x <= m -> 0 <= f x.
Proof.
  intros F0 D P x [H1 H2]. apply Rle_lt_or_eq_dec in H1. destruct H1 as [H1|<-]; [|lra].
  destruct (MVT_cor2 f f' 0 x H1) as (c & E & Hc); [intros; apply D|].
  assert (0 <= f' c) by (apply P; lra). nra.
Qed.

Lemma exp_4_5 : exp (4 / 5) <= 241 / 100.
Proof.
  set (x := exp (4 / 5)). assert (Hx : 0 < x) by apply exp_pos.
  assert (E : x * x * x * x * x = exp 1 * exp 1 * exp 1 * exp 1).
  { unfold x. rewrite <- !exp_plus. f_equal. lra. }
  pose proof exp_le_3 as H3. pose proof (exp_pos 1) as H0.
  assert (exp 1 * exp 1 <= 9) by nra.
  assert (exp 1 * exp 1 * exp 1 * exp 1 <= 81) by nra.
  destruct (Rle_dec x (241 / 100)) as [|N]; [assumption|exfalso].
  assert (58081 / 10000 < x * x) by nra. assert (33.5 < x * x * (x * x)) by nra.
  assert (33.5 * (241/100) < x * x * (x * x) * x) by nra. 
  assert (x * x * (x * x) * x = x * x * x * x * x) by ring. nra.
Qed.

Lemma cosh_le u : 0 <= u <= 4 / 5 -> cosh u <= 3 / 2.
Proof.
  intros [H1 H2]. unfold cosh.
  assert (L : exp u <= 241 / 100).
  { eapply Rle_trans; [|exact exp_4_5]. apply Rle_lt_or_eq_dec in H2. destruct H2 as [H2| ->]; [left; now apply exp_increasing|lra]. }
  assert (G : 1 <= exp u).
  { rewrite <- exp_0. apply Rle_lt_or_eq_dec in H1. destruct H1 as [H1|<-]; [left; now apply exp_increasing|lra]. }
  assert (E : exp u * exp (- u) = 1) by (rewrite <- exp_plus, Rplus_opp_r; apply exp_0).
  pose proof (exp_pos (- u)). set (x := exp u) in *. set (y := exp (- u)) in *. clearbody x y.
  assert (x + y <= 3); [|lra]. nra.
Qed.

Lemma d_sinh c : derivable_pt_lim sinh c (cosh c).
Proof. apply derivable_pt_lim_sinh. Qed.
Lemma d_cosh c : derivable_pt_lim cosh c (sinh c).
Proof. apply derivable_pt_lim_cosh. Qed.

Lemma d_scale k c : derivable_pt_lim (fun x => k * x) c k.
Proof.
  pose proof (derivable_pt_lim_scal id k c 1 (derivable_pt_lim_id c)) as H. rewrite Rmult_1_r in H. exact H.
Qed.
Lemma d_pow k n c : derivable_pt_lim (fun x => k * x ^ n) c (k * (INR n * c ^ pred n)).
Proof. apply (derivable_pt_lim_scal (fun x => x ^ n)), derivable_pt_lim_pow. Qed.

Lemma sinh_le_lin u : 0 <= u <= 4 / 5 -> sinh u <= 3 / 2 * u.
Proof.
  intros H. enough (0 <= 3 / 2 * u - sinh u) by lra.
  apply (increasing_pos (fun x => 3 / 2 * x - sinh x) (fun x => 3 / 2 - cosh x) (4 / 5)); try assumption.
  - cbn. rewrite sinh_0. ring.
  - intros c. apply (derivable_pt_lim_minus (fun x => 3 / 2 * x) sinh); [apply d_scale|apply d_sinh].
  - intros c Hc. pose proof (cosh_le c ltac:(lra)). lra.
Qed.

Lemma cosh_le_quad u : 0 <= u <= 4 / 5 -> cosh u <= 1 + 3 / 4 * u ^ 2.
Proof.
  intros H. enough (0 <= 3 / 4 * u ^ 2 - (cosh u - 1)) by lra.
  apply (increasing_pos (fun x => 3 / 4 * x ^ 2 - (cosh x - 1)) (fun x => 3 / 4 * (INR 2 * x ^ 1) - (sinh x - 0)) (4 / 5)); try assumption.
  - cbn. rewrite cosh_0. ring.
  - intros c. apply (derivable_pt_lim_minus (fun x => 3 / 4 * x ^ 2) (fun x => cosh x - 1)); [apply d_pow|].
    apply (derivable_pt_lim_minus cosh (fun _ => 1)); [apply d_cosh|apply derivable_pt_lim_const].
  - intros c Hc. pose proof (sinh_le_lin c ltac:(lra)). cbn. lra.
Qed.

Lemma sinh_le_cubic u : 0 <= u <= 4 / 5 -> sinh u <= u + 1 / 4 * u ^ 3.
Proof.
  intros H. enough (0 <= 1 / 4 * u ^ 3 + (1 * u - sinh u)) by lra.
  apply (increasing_pos (fun x => 1 / 4 * x ^ 3 + (1 * x - sinh x)) (fun x => 1 / 4 * (INR 3 * x ^ 2) + (1 - cosh x)) (4 / 5)); try assumption.
  - cbn. rewrite sinh_0. ring.
  - intros c. apply (derivable_pt_lim_plus (fun x => 1 / 4 * x ^ 3) (fun x => 1 * x - sinh x)); [apply d_pow|].
    apply (derivable_pt_lim_minus (fun x => 1 * x) sinh); [apply d_scale|apply d_sinh].
  - intros c Hc. pose proof (cosh_le_quad c ltac:(lra)). cbn in *. lra.
Qed.

Lemma sin_le_lin x : 0 <= x <= 2 -> 0 <= 1 * x - sin x.
Proof.
  apply (increasing_pos (fun x => 1 * x - sin x) (fun x => 1 - cos x)).
  - rewrite sin_0. ring.
  - intros c. apply (derivable_pt_lim_minus (fun x => 1 * x) sin); [apply d_scale|apply derivable_pt_lim_sin].
  - intros c Hc. pose proof (COS_bound c). lra.
Qed.

Lemma cos_ge_quad x : 0 <= x <= 2 -> 0 <= 1 / 2 * x ^ 2 + (cos x - 1).
Proof.
  apply (increasing_pos (fun x => 1 / 2 * x ^ 2 + (cos x - 1)) (fun x => 1 / 2 * (INR 2 * x ^ 1) + (- sin x - 0))).
  - rewrite cos_0. cbn. ring.
  - intros c. apply (derivable_pt_lim_plus (fun x => 1 / 2 * x ^ 2) (fun x => cos x - 1)); [apply d_pow|].
    apply (derivable_pt_lim_minus cos (fun _ => 1)); [apply derivable_pt_lim_cos|apply derivable_pt_lim_const].
  - intros c Hc. pose proof (sin_le_lin c ltac:(lra)). cbn. lra.
Qed.

Lemma sin_ge_cubic x : 0 <= x <= 2 -> x - 1 / 6 * x ^ 3 <= sin x.
Proof.
  intros H. enough (0 <= 1 / 6 * x ^ 3 + (sin x - 1 * x)) by lra.
  apply (increasing_pos (fun x => 1 / 6 * x ^ 3 + (sin x - 1 * x)) (fun x => 1 / 6 * (INR 3 * x ^ 2) + (cos x - 1)) 2); try assumption.
  - rewrite sin_0. cbn. ring.
  - intros c. apply (derivable_pt_lim_plus (fun x => 1 / 6 * x ^ 3) (fun x => sin x - 1 * x)); [apply d_pow|].
    apply (derivable_pt_lim_minus sin (fun x => 1 * x)); [apply derivable_pt_lim_sin|apply d_scale].
  - intros c Hc. pose proof (cos_ge_quad c ltac:(lra)). cbn in *. lra.
Qed.

Lemma PI_upper : PI < 317 / 100.
Proof.
  destruct (Rlt_dec PI (317 / 100)) as [|N]; [assumption|exfalso].
  assert (H : 1585 / 1000 <= PI / 2) by lra.
  pose proof (cos_bound (1585 / 1000) 1) as [_ B]; [lra|lra|].
  assert (C : 0 <= cos (1585 / 1000)) by (apply cos_ge_0; lra).
  unfold cos_approx, cos_term in B. change (2 * (1 + 1))%nat with 4%nat in B. cbn [sum_f_R0] in B.
  rewrite !INR_IZR_INZ in B.
  change (2 * 0)%nat with 0%nat in B. change (2 * 1)%nat with 2%nat in B.
  change (2 * 2)%nat with 4%nat in B. change (2 * 3)%nat with 6%nat in B. change (2 * 4)%nat with 8%nat in B.
  replace (Z.of_nat (fact 0)) with 1%Z in B by reflexivity. replace (Z.of_nat (fact 2)) with 2%Z in B by reflexivity.
  replace (Z.of_nat (fact 4)) with 24%Z in B by reflexivity. replace (Z.of_nat (fact 6)) with 720%Z in B by reflexivity.
  replace (Z.of_nat (fact 8)) with 40320%Z in B by (vm_compute; reflexivity).
  cbn [pow] in B. lra.
Qed.

Lemma sinh_lt_sin t : 0 < t < PI / 2 -> sinh (t / 2) < sin t.
Proof.
  intros [H1 H2]. pose proof PI_upper as HP.
  pose proof (sinh_le_cubic (t / 2) ltac:(lra)) as A. pose proof (sin_ge_cubic t ltac:(lra)) as B.
  assert (T : t * t < 2.52) by nra. cbn [pow] in *.
  assert (t * (t * t) < t * 2.52) by (apply Rmult_lt_compat_l; lra). lra.
Qed.

(** The squared gain of (1 - r) / (1 - r e^{jw}). *)
Lemma half_power t : 0 < t < PI / 2 ->
  2 * ((1 - exp (- t)) * (1 - exp (- t))) < 1 - 2 * exp (- t) * cos (2 * t) + exp (- t) * exp (- t).
Proof.
  intros H. pose proof (sinh_lt_sin t H) as L.
  assert (S0 : 0 < sinh (t / 2)).
  { unfold sinh. assert (exp (- (t / 2)) < exp (t / 2)) by (apply exp_increasing; lra). lra. }
  assert (Q : sinh (t / 2) * sinh (t / 2) < sin t * sin t) by nra.
  unfold sinh in Q.
  set (e := exp (t / 2)) in *. set (r := exp (- (t / 2))) in *.
  assert (E : e * r = 1) by (unfold e, r; rewrite <- exp_plus, Rplus_opp_r; apply exp_0).
  assert (R : exp (- t) = r * r) by (unfold r; rewrite <- exp_plus; f_equal; lra).
  rewrite R, cos_2a_sin. set (s := sin t) in *.
  assert (r0 : 0 < r) by apply exp_pos. clearbody e r s. 
  (* (e - r)^2 / 4 < s^2, multiplied by r^2 * 4 *)
  assert (M : (1 - r * r) * (1 - r * r) < 4 * (r * r) * (s * s)).
  { replace (1 - r * r) with (r * (e - r)) by (rewrite <- E; ring).
    assert (0 < r * r) by nra. nra. }
  nra.
Qed.
