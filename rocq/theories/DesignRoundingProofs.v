(** * Lemmas about filter designs with rounding *)

From Coq Require Import ZArith QArith Qreals Reals Lra Lia List Machin Ratan.
From Flocq Require Import Core Relative Plus_error Mult_error BinarySingleNaN.
From Verif Require Import Base Ieee RoundingSpec IeeeProofs Biquad BiquadSpec DesignIeee DesignRoundingSpec.
Local Open Scope R_scope.

(** ** Counting roundings

    [near k x y]: the positive number [x] is [y] after at most [k] roundings; [off k x y m]:
    the number [x] is [y] but for [k] roundings of numbers not larger than [m]. *)
Section Near.

Context (v : R) (Hv : 0 <= v).

Definition near (k : nat) (x y : R) : Prop := 0 < y /\ y <= x * (1 + v) ^ k /\ x <= y * (1 + v) ^ k.
Definition off (k : nat) (x y m : R) : Prop := Rabs y <= m /\ Rabs (x - y) <= ((1 + v) ^ k - 1) * m.

Lemma pv k : 1 <= (1 + v) ^ k.
Proof. apply pow_R1_Rle. lra. Qed.
Lemma pv_mono k j : (k <= j)%nat -> (1 + v) ^ k <= (1 + v) ^ j.
Proof. intros H. apply Rle_pow; [lra|exact H]. Qed.

Lemma near_pos k x y : near k x y -> 0 < x.
Proof.
  intros (P & A & _). pose proof (pv k). destruct (Rlt_dec 0 x) as [X|X]; [exact X|].
  nra.
Qed.
Lemma near_refl x : 0 < x -> near 0 x x.
Proof. intros H. unfold near. cbn. lra. Qed.
Lemma near_le k j x y : (k <= j)%nat -> near k x y -> near j x y.
Proof.
  intros L N. pose proof (near_pos _ _ _ N) as Px. destruct N as (P & A & B). pose proof (pv_mono _ _ L) as M.
  split; [exact P|]. split.
  - eapply Rle_trans; [exact A|]. apply Rmult_le_compat_l; lra.
  - eapply Rle_trans; [exact B|]. apply Rmult_le_compat_l; lra.
Qed.
Lemma near_trans k j x y z : near k x y -> near j y z -> near (k + j) x z.
Proof.
  intros (P & A & B) (P' & A' & B'). pose proof (pv k). pose proof (pv j). split; [exact P'|]. rewrite pow_add. split.
  - eapply Rle_trans; [exact A'|]. rewrite <- Rmult_assoc. apply Rmult_le_compat_r; [lra|exact A].
  - eapply Rle_trans; [exact B|]. rewrite (Rmult_comm ((1 + v) ^ k)), <- Rmult_assoc. apply Rmult_le_compat_r; [lra|exact B'].
Qed.
Lemma near_mult k j x y x' y' : near k x y -> near j x' y' -> near (k + j) (x * x') (y * y').
Proof.
  intros N N'. pose proof (near_pos _ _ _ N) as Px. pose proof (near_pos _ _ _ N') as Px'.
  destruct N as (P & A & B), N' as (P' & A' & B'). split; [now apply Rmult_lt_0_compat|]. rewrite pow_add. split.
  - replace (x * x' * ((1 + v) ^ k * (1 + v) ^ j)) with ((x * (1 + v) ^ k) * (x' * (1 + v) ^ j)) by ring.
    apply Rmult_le_compat; lra.
  - replace (y * y' * ((1 + v) ^ k * (1 + v) ^ j)) with ((y * (1 + v) ^ k) * (y' * (1 + v) ^ j)) by ring.
    apply Rmult_le_compat; lra.
Qed.
Lemma near_inv k x y : near k x y -> near k (/ x) (/ y).
Proof.
  intros N. pose proof (near_pos _ _ _ N) as Px. destruct N as (P & A & B). pose proof (pv k) as PV.
  split; [now apply Rinv_0_lt_compat|]. split.
  - apply Rmult_le_reg_l with y; [exact P|]. apply Rmult_le_reg_l with x; [exact Px|].
    replace (x * (y * / y)) with x by (field; lra). replace (x * (y * (/ x * (1 + v) ^ k))) with (y * (1 + v) ^ k) by (field; lra). exact B.
  - apply Rmult_le_reg_l with y; [exact P|]. apply Rmult_le_reg_l with x; [exact Px|].
    replace (x * (y * / x)) with y by (field; lra). replace (x * (y * (/ y * (1 + v) ^ k))) with (x * (1 + v) ^ k) by (field; lra). exact A.
Qed.
Lemma near_div k j x y x' y' : near k x y -> near j x' y' -> near (k + j) (x / x') (y / y').
Proof. intros N N'. apply near_mult; [exact N|apply near_inv; exact N']. Qed.
Lemma near_plus k x y x' y' : near k x y -> near k x' y' -> near k (x + x') (y + y').
Proof. intros (P & A & B) (P' & A' & B'). split; [lra|]. split; lra. Qed.

(** The error factor applied to both sides. *)
Lemma near_abs k x y : near k x y -> Rabs (x - y) <= ((1 + v) ^ k - 1) * y.
Proof.
  intros N. pose proof (near_pos _ _ _ N) as Px. destruct N as (P & A & B). pose proof (pv k) as PV. apply Rabs_le. split; [|lra].
  apply Rmult_le_reg_r with ((1 + v) ^ k); [lra|].
  assert (0 <= y * (((1 + v) ^ k - 1) * ((1 + v) ^ k - 1))) by (apply Rmult_le_pos; [lra|]; apply Rmult_le_pos; lra). nra.
Qed.
Lemma near_off k x y : near k x y -> off k x y y.
Proof. intros N. split; [rewrite Rabs_pos_eq; [lra|destruct N; lra]|apply near_abs; exact N]. Qed.

Lemma off_pos k x y m : off k x y m -> 0 <= m.
Proof. intros [A _]. pose proof (Rabs_pos y). lra. Qed.
Lemma off_le k j x y m : (k <= j)%nat -> off k x y m -> off j x y m.
Proof.
  intros L O. pose proof (off_pos _ _ _ _ O). destruct O as [A B]. split; [exact A|]. eapply Rle_trans; [exact B|].
  apply Rmult_le_compat_r; [lra|]. pose proof (pv_mono _ _ L). lra.
Qed.
Lemma off_m k x y m m' : m <= m' -> off k x y m -> off k x y m'.
Proof.
  intros L [A B]. split; [lra|]. eapply Rle_trans; [exact B|]. apply Rmult_le_compat_l; [|exact L]. pose proof (pv k). lra.
Qed.
Lemma off_exact x : off 0 x x (Rabs x).
Proof. split; [lra|]. rewrite Rminus_diag_eq by reflexivity. rewrite Rabs_R0. cbn. lra. Qed.
Lemma off_plus k x y m x' y' m' : off k x y m -> off k x' y' m' -> off k (x + x') (y + y') (m + m').
Proof.
  intros [A B] [A' B']. split; [eapply Rle_trans; [apply Rabs_triang|lra]|].
  replace (x + x' - (y + y')) with ((x - y) + (x' - y')) by ring. eapply Rle_trans; [apply Rabs_triang|]. lra.
Qed.
Lemma off_opp k x y m : off k x y m -> off k (- x) (- y) m.
Proof. intros [A B]. split; [rewrite Rabs_Ropp; exact A|]. replace (- x - - y) with (- (x - y)) by ring. rewrite Rabs_Ropp. exact B. Qed.
Lemma off_minus k x y m x' y' m' : off k x y m -> off k x' y' m' -> off k (x - x') (y - y') (m + m').
Proof. intros O O'. unfold Rminus. apply off_plus; [exact O|apply off_opp; exact O']. Qed.
Lemma off_x k x y m : off k x y m -> Rabs x <= (1 + v) ^ k * m.
Proof.
  intros [A B]. replace x with ((x - y) + y) by ring. eapply Rle_trans; [apply Rabs_triang|]. lra.
Qed.
Lemma off_mult k j x y m x' y' m' : off k x y m -> off j x' y' m' -> off (k + j) (x * x') (y * y') (m * m').
Proof.
  intros O O'. pose proof (off_x _ _ _ _ O) as X. pose proof (off_pos _ _ _ _ O) as M. pose proof (off_pos _ _ _ _ O') as M'.
  destruct O as [A B], O' as [A' B']. pose proof (pv k). pose proof (pv j). split.
  - rewrite Rabs_mult. apply Rmult_le_compat; auto using Rabs_pos.
  - replace (x * x' - y * y') with (x * (x' - y') + (x - y) * y') by ring. eapply Rle_trans; [apply Rabs_triang|].
    rewrite !Rabs_mult. rewrite pow_add.
    apply Rle_trans with (((1 + v) ^ k * m) * (((1 + v) ^ j - 1) * m') + (((1 + v) ^ k - 1) * m) * m').
    + apply Rplus_le_compat; apply Rmult_le_compat; auto using Rabs_pos.
    + right. ring.
Qed.

(** Rounding. *)
Lemma near_round k x y r u : 0 <= u -> u < 1 -> u <= v * (1 - u) -> near k x y -> Rabs (r - x) <= u * x -> near (S k) r y.
Proof.
  intros U0 U1 UV N H. pose proof (near_pos _ _ _ N) as Px. replace (S k) with (1 + k)%nat by lia. eapply near_trans; [|exact N].
  apply Rabs_le_inv in H. split; [exact Px|]. cbn [pow]. rewrite Rmult_1_r. split; [|nra].
  assert (x * (1 - u) <= r) by lra. apply Rle_trans with ((x * (1 - u)) * (1 + v)); [|apply Rmult_le_compat_r; lra].
  assert (0 <= x * (v * (1 - u) - u)) by (apply Rmult_le_pos; lra). lra.
Qed.
Lemma off_round k x y m r u : 0 <= u -> u <= v -> off k x y m -> Rabs (r - x) <= u * Rabs x -> off (S k) r y m.
Proof.
  intros U0 UV O H. pose proof (off_x _ _ _ _ O) as X. pose proof (off_pos _ _ _ _ O) as M. destruct O as [A B]. split; [exact A|].
  replace (r - y) with ((r - x) + (x - y)) by ring. eapply Rle_trans; [apply Rabs_triang|].
  assert (u * Rabs x <= v * ((1 + v) ^ k * m)) by (apply Rmult_le_compat; auto using Rabs_pos). cbn [pow]. lra.
Qed.
(** Also an absolute error that is small against [m]. *)
Lemma off_round2 k x y m r u eta : 0 <= u -> u <= v -> eta <= u * m -> off k x y m ->
  Rabs (r - x) <= u * Rabs x + eta -> off (S (S k)) r y m.
Proof.
  intros U0 UV E O H. pose proof (off_x _ _ _ _ O) as X. pose proof (off_pos _ _ _ _ O) as M. destruct O as [A B]. split; [exact A|].
  replace (r - y) with ((r - x) + (x - y)) by ring. eapply Rle_trans; [apply Rabs_triang|].
  assert (u * Rabs x <= v * ((1 + v) ^ k * m)) by (apply Rmult_le_compat; auto using Rabs_pos).
  assert (u * m <= v * m) by (apply Rmult_le_compat_r; lra). cbn [pow].
  pose proof (pv k) as P. assert (0 <= v * m * ((1 + v) ^ k - 1)) by (apply Rmult_le_pos; [apply Rmult_le_pos|]; lra).
  assert (0 <= v * v * ((1 + v) ^ k * m)). { apply Rmult_le_pos; [apply Rmult_le_pos; lra|apply Rmult_le_pos; lra]. } nra.
Qed.

End Near.

(** ** The tangent of nearly the same angle *)
Lemma sin_le_x x : 0 <= x -> sin x <= x.
Proof. intros [H|<-]; [left; now apply sin_lt_x|rewrite sin_0; lra]. Qed.
Lemma cos_ge x : 0 <= x -> 1 - x * x / 2 <= cos x.
Proof.
  intros H. replace x with (2 * (x / 2)) at 3 by field. rewrite cos_2a_sin.
  destruct (Rle_dec (x / 2) PI) as [L|L].
  - assert (0 <= sin (x / 2)) by (apply sin_ge_0; lra). pose proof (sin_le_x (x / 2)). nra.
  - pose proof (SIN_bound (x / 2)). pose proof PI2_3_2. pose proof PI_RGT_0. nra.
Qed.

Lemma tan_square x y : 0 < x -> x <= y -> y <= 8 / 10 -> tan y * (x * x) <= tan x * (y * y).
Proof.
  intros X XY Y. pose proof PI2_3_2 as P2.
  assert (Cx : 0 < cos x) by (apply cos_gt_0; lra). assert (Cy : 0 < cos y) by (apply cos_gt_0; lra).
  assert (Sx : 0 < sin x) by (apply sin_gt_0; lra). assert (Sy : 0 < sin y) by (apply sin_gt_0; lra).
  assert (SY : sin y <= y) by (apply sin_le_x; lra).
  assert (CY : 1 - y * y / 2 <= cos y) by (apply cos_ge; lra).
  assert (H1 : sin y * x <= sin x * y).
  { assert (E : sin y - sin x <= (y - x) * cos x).
    { rewrite form4. assert (0 <= sin ((y - x) / 2)) by (apply sin_ge_0; lra). pose proof (sin_le_x ((y - x) / 2)).
      assert (cos ((y + x) / 2) <= cos x) by (apply cos_decr_1; lra).
      assert (0 < cos ((y + x) / 2)) by (apply cos_gt_0; lra).
      assert (cos ((y + x) / 2) * sin ((y - x) / 2) <= cos x * ((y - x) / 2)) by (apply Rmult_le_compat; lra). lra. }
    assert (T : x * cos x <= sin x).
    { destruct (MVT_cor2 sin cos 0 x X (fun c _ => derivable_pt_lim_sin c)) as (c & E1 & Hc).
      rewrite sin_0 in E1. assert (cos x <= cos c) by (apply cos_decr_1; lra). nra. }
    nra. }
  assert (H2 : cos x * x <= cos y * y).
  { assert (E : cos x - cos y <= (y - x) * sin y).
    { rewrite form2. assert (0 <= sin ((y - x) / 2)) by (apply sin_ge_0; lra). pose proof (sin_le_x ((y - x) / 2)).
      replace ((x - y) / 2) with (- ((y - x) / 2)) by field. rewrite sin_neg.
      assert (sin ((x + y) / 2) <= sin y) by (apply sin_incr_1; lra).
      assert (0 < sin ((x + y) / 2)) by (apply sin_gt_0; lra).
      assert (sin ((y - x) / 2) * sin ((x + y) / 2) <= ((y - x) / 2) * sin y) by (apply Rmult_le_compat; lra). lra. }
    assert (T : x * sin y <= cos y). { assert (x * sin y <= y * y) by (apply Rmult_le_compat; lra). nra. }
    assert (x * (cos x - cos y) <= x * ((y - x) * sin y)) by (apply Rmult_le_compat_l; lra).
    assert ((y - x) * (x * sin y) <= (y - x) * cos y) by (apply Rmult_le_compat_l; lra). lra. }
  unfold tan. apply Rmult_le_reg_r with (cos x * cos y); [now apply Rmult_lt_0_compat|].
  replace (sin y / cos y * (x * x) * (cos x * cos y)) with ((sin y * x) * (cos x * x)) by (field; lra).
  replace (sin x / cos x * (y * y) * (cos x * cos y)) with ((sin x * y) * (cos y * y)) by (field; lra).
  apply Rmult_le_compat; try assumption; apply Rmult_le_pos; lra.
Qed.

Lemma tan_mono_le x y : 0 < x -> x <= y -> y < PI / 2 -> tan x <= tan y.
Proof. intros X [H|<-] Y; [left; apply tan_increasing; lra|lra]. Qed.
Lemma tan_pos x : 0 < x < PI / 2 -> 0 < tan x.
Proof. intros H. apply tan_gt_0; lra. Qed.

Lemma near_tan v k x y : 0 <= v -> near v k x y -> x <= 8 / 10 -> y <= 8 / 10 -> near v (k + k) (tan x) (tan y).
Proof.
  intros V N X Y. pose proof (near_pos _ V _ _ _ N) as Px. destruct N as (Py & A & B). pose proof PI2_3_2 as P2.
  assert (Tx : 0 < tan x) by (apply tan_pos; lra). assert (Ty : 0 < tan y) by (apply tan_pos; lra).
  pose proof (pv v V k) as P. split; [exact Ty|]. rewrite pow_add.
  destruct (Rle_dec x y) as [L|L].
  - pose proof (tan_square x y Px L Y) as S. pose proof (tan_mono_le x y Px L ltac:(lra)) as M. split.
    + apply Rmult_le_reg_r with (x * x); [now apply Rmult_lt_0_compat|]. eapply Rle_trans; [exact S|].
      replace (tan x * ((1 + v) ^ k * (1 + v) ^ k) * (x * x)) with (tan x * ((x * (1 + v) ^ k) * (x * (1 + v) ^ k))) by ring.
      apply Rmult_le_compat_l; [lra|]. apply Rmult_le_compat; lra.
    + apply Rle_trans with (tan y * (1 * 1)); [lra|]. apply Rmult_le_compat_l; [lra|]. apply Rmult_le_compat; lra.
  - pose proof (tan_square y x Py ltac:(lra) X) as S. pose proof (tan_mono_le y x Py ltac:(lra) ltac:(lra)) as M. split.
    + apply Rle_trans with (tan x * (1 * 1)); [lra|]. apply Rmult_le_compat_l; [lra|]. apply Rmult_le_compat; lra.
    + apply Rmult_le_reg_r with (y * y); [now apply Rmult_lt_0_compat|]. eapply Rle_trans; [exact S|].
      replace (tan y * ((1 + v) ^ k * (1 + v) ^ k) * (y * y)) with (tan y * ((y * (1 + v) ^ k) * (y * (1 + v) ^ k))) by ring.
      apply Rmult_le_compat_l; [lra|]. apply Rmult_le_compat; lra.
Qed.

(** ** Digits of pi *)
Definition machin_term (n : nat) : Q :=
  let d := Z.of_nat (2 * n + 1) in
  (2 # Z.to_pos (3 ^ d * d)) + (1 # Z.to_pos (7 ^ d * d)).
Fixpoint machin_sum (n : nat) : Q :=
  match n with
  | O => machin_term 0
  | S m => Qred (machin_sum m + (if Nat.even n then machin_term n else - machin_term n))
  end.

Lemma inv_pos_Q a n : (0 < n)%Z -> Q2R (a # Z.to_pos n) = IZR a / IZR n.
Proof. intros H. unfold Q2R. cbn [Qnum Qden]. rewrite Z2Pos.id by exact H. reflexivity. Qed.
Lemma machin_term_R n : Q2R (machin_term n) = PI_2_3_7_tg n.
Proof.
  unfold machin_term, PI_2_3_7_tg, Ratan_seq.
  assert (D : (0 < Z.of_nat (2 * n + 1))%Z) by lia.
  assert (P3 : (0 < 3 ^ Z.of_nat (2 * n + 1))%Z) by (apply Z.pow_pos_nonneg; lia).
  assert (P7 : (0 < 7 ^ Z.of_nat (2 * n + 1))%Z) by (apply Z.pow_pos_nonneg; lia).
  rewrite Q2R_plus, !inv_pos_Q by nia.
  rewrite !mult_IZR, <- !pow_IZR, <- INR_IZR_INZ.
  assert (INR (2 * n + 1) <> 0) by (apply not_0_INR; lia).
  assert (3 ^ (2 * n + 1) <> 0) by (apply pow_nonzero; lra). assert (7 ^ (2 * n + 1) <> 0) by (apply pow_nonzero; lra).
  rewrite !pow_inv. field. auto.
Qed.
Lemma machin_sum_R n : Q2R (machin_sum n) = sum_f_R0 (tg_alt PI_2_3_7_tg) n.
Proof.
  induction n as [|n IH].
  - cbn [machin_sum sum_f_R0]. rewrite machin_term_R. unfold tg_alt. cbn [pow]. ring.
  - cbn [sum_f_R0]. rewrite <- IH. cbn [machin_sum]. rewrite (Qeq_eqR _ _ (Qred_correct _)), Q2R_plus. f_equal.
    unfold tg_alt. rewrite <- machin_term_R. destruct (Nat.even (S n)) eqn:E.
    + apply Nat.even_spec in E. destruct E as [k E]. rewrite E at 2. rewrite pow_1_even. ring.
    + rewrite <- Nat.negb_odd in E. apply Bool.negb_false_iff, Nat.odd_spec in E. destruct E as [k E]. rewrite E at 2.
      replace (2 * k + 1)%nat with (S (2 * k)) by lia. rewrite pow_1_odd, Q2R_opp. ring.
Qed.

Lemma pi_digits : 31415926535897932384 / 10000000000000000000 <= PI <= 31415926535897932385 / 10000000000000000000.
Proof.
  destruct (PI_2_3_7_ineq 20) as [_ H1]. destruct (PI_2_3_7_ineq 20) as [H2 _].
  rewrite <- machin_sum_R in H1, H2.
  assert (A : (machin_sum (2 * 20) <= 31415926535897932385 # 40000000000000000000)%Q) by (vm_compute; discriminate).
  assert (B : (31415926535897932384 # 40000000000000000000 <= machin_sum (S (2 * 20)))%Q) by (vm_compute; discriminate).
  apply Qle_Rle in A, B. unfold Q2R in A at 2. unfold Q2R in B at 1. cbn [Qnum Qden] in A, B. lra.
Qed.

(** ** One operation *)
Section Ops.

Context (prec emax : Z) {Hprec : Prec_gt_0 prec} {Hmax : Prec_lt_emax prec emax}.
Context (P24 : (24 <= prec)%Z) (E128 : (128 <= emax)%Z).

Notation emin := (3 - emax - prec)%Z.
Notation fmt := (FLT_exp emin prec).
Notation rnd := (round radix2 fmt ZnearestE).
Notation u := (bpow radix2 (- prec)).
Notation T := (binary_float prec emax).

Definition vv : R := u / (1 - u).
Notation near := (near vv).
Notation off := (off vv).

Lemma u_small : 0 < u <= / 16777216.
Proof.
  split; [apply bpow_gt_0|]. apply Rle_trans with (bpow radix2 (-24)); [apply bpow_le; lia|]. right. reflexivity.
Qed.
Lemma vv_pos : 0 <= vv.
Proof. pose proof u_small. unfold vv. apply Rlt_le, Rdiv_lt_0_compat; lra. Qed.
Lemma u_vv : u <= vv.
Proof.
  pose proof u_small. unfold vv. apply Rmult_le_reg_r with (1 - u); [lra|]. unfold Rdiv. rewrite Rmult_assoc, Rinv_l by lra. nra.
Qed.
Lemma vv_u : u <= vv * (1 - u).
Proof. pose proof u_small. unfold vv. unfold Rdiv. rewrite Rmult_assoc, Rinv_l by lra. lra. Qed.
Lemma vv_small : vv <= u * (1 + / 1000000).
Proof.
  pose proof u_small as H. unfold vv. apply Rmult_le_reg_r with (1 - u); [lra|]. unfold Rdiv. rewrite Rmult_assoc, Rinv_l by lra. nra.
Qed.

(** [(1 + v)^k - 1] is little more than [k u]. *)
Lemma pow_bound k : (k <= 100)%nat -> (1 + vv) ^ k - 1 <= INR k * u * (1 + / 100000).
Proof.
  intros H. pose proof u_small as U. pose proof vv_small as V. pose proof vv_pos as V0.
  assert (G : forall j, (j <= 100)%nat -> (1 + vv) ^ j <= 1 + INR j * vv * (1 + / 100000 - / 500000)).
  { induction j as [|j IH]; intros L; [cbn; lra|]. cbn [pow]. specialize (IH ltac:(lia)).
    rewrite S_INR. assert (J : 0 <= INR j <= 100). { split; [apply pos_INR|]. apply le_INR in L. rewrite S_INR in L. replace (INR 100) with 100 in L by (cbn; lra). lra. }
    apply Rle_trans with ((1 + vv) * (1 + INR j * vv * (1 + / 100000 - / 500000))); [apply Rmult_le_compat_l; lra|].
    assert (vv * (INR j * vv * (1 + / 100000 - / 500000)) <= vv * (/ 100000 - / 500000)); [|lra].
    apply Rmult_le_compat_l; [lra|].
    assert (INR j * vv <= 100 * (/ 16777216 * (1 + / 1000000))). { apply Rmult_le_compat; lra. } nra. }
  specialize (G k H). pose proof (pos_INR k). assert (INR k * vv <= INR k * (u * (1 + / 1000000))) by (apply Rmult_le_compat_l; lra).
  assert (0 <= INR k * u) by (apply Rmult_le_pos; lra). nra.
Qed.
Lemma pow_2 k : (k <= 100)%nat -> (1 + vv) ^ k <= 2.
Proof.
  intros H. pose proof (pow_bound k H). pose proof u_small. assert (INR k <= 100). { apply le_INR in H. replace (INR 100) with 100 in H by (cbn; lra). lra. }
  assert (INR k * u <= 100 * / 16777216) by (apply Rmult_le_compat; try lra; apply pos_INR). lra.
Qed.

Lemma big_max x : Rabs x <= bpow radix2 (emax - 1) -> Rabs x <= ieee_max prec emax.
Proof.
  intros H. eapply Rle_trans; [exact H|]. unfold ieee_max.
  replace (bpow radix2 emax) with (2 * bpow radix2 (emax - 1)).
  - assert (bpow radix2 (emax - prec) <= bpow radix2 (emax - 1)) by (apply bpow_le; lia). lra.
  - change 2 with (bpow radix2 1). rewrite <- bpow_plus. f_equal. lia.
Qed.
Lemma half_big x : x <= bpow radix2 (emax - 2) -> 2 * x <= bpow radix2 (emax - 1).
Proof.
  intros H. replace (emax - 1)%Z with (1 + (emax - 2))%Z by lia. rewrite bpow_plus. change (bpow radix2 1) with 2. lra.
Qed.
Lemma twice_small : 2 * bpow radix2 (2 - emax) = bpow radix2 (3 - emax).
Proof. change 2 with (bpow radix2 1) at 1. rewrite <- bpow_plus. f_equal. lia. Qed.

Lemma near_half k x y : near k x y -> (k <= 100)%nat -> y <= 2 * x /\ x <= 2 * y.
Proof.
  intros N H. pose proof (near_pos _ vv_pos _ _ _ N). destruct N as (P & A & B). pose proof (pow_2 k H). split.
  - eapply Rle_trans; [exact A|]. rewrite Rmult_comm. apply Rmult_le_compat_r; lra.
  - eapply Rle_trans; [exact B|]. rewrite Rmult_comm. apply Rmult_le_compat_r; lra.
Qed.
Lemma off_twice k x y m : off k x y m -> (k <= 100)%nat -> Rabs x <= 2 * m.
Proof.
  intros O H. pose proof (off_x _ _ _ _ _ O). pose proof (off_pos _ _ _ _ _ O). pose proof (pow_2 k H).
  eapply Rle_trans; [eassumption|]. apply Rmult_le_compat_r; lra.
Qed.

(** Relative error of a normal result. *)
Lemma rel_err x : bpow radix2 (2 - emax) <= x -> Rabs (rnd x - x) <= u * x.
Proof.
  intros H. pose proof (bpow_gt_0 radix2 (2 - emax)).
  assert (L : bpow radix2 (emin + prec - 1) <= Rabs x). { rewrite Rabs_pos_eq by lra. replace (emin + prec - 1)%Z with (2 - emax)%Z by lia. exact H. }
  pose proof (relative_error_N_FLT radix2 emin prec Hprec (fun z => negb (Z.even z)) x L) as E.
  rewrite half_bpow in E. rewrite (Rabs_pos_eq x) in E by lra. exact E.
Qed.

Lemma add_near k (a b : T) x y : (k <= 99)%nat -> is_finite a = true -> is_finite b = true ->
  near k (B2R a) x -> near k (B2R b) y -> x + y <= bpow radix2 (emax - 2) ->
  is_finite (Bplus mode_NE a b) = true /\ near (S k) (B2R (Bplus mode_NE a b)) (x + y).
Proof.
  intros K Fa Fb Na Nb M. pose proof (near_plus _ _ _ _ _ _ Na Nb) as N.
  destruct (near_half _ _ _ N ltac:(lia)) as [_ H]. pose proof (near_pos _ vv_pos _ _ _ N) as P.
  destruct (rd_add _ _ _ _ _ _ (ieee_rounding prec emax) a b Fa Fb) as (r & E & F & X).
  { apply big_max. rewrite Rabs_pos_eq by lra. pose proof (half_big _ M). lra. }
  cbn in E. apply (f_equal (fun o => match o with Ok z => z | Err _ => r end)) in E. cbn in E. rewrite E.
  split; [exact F|]. rewrite (Rabs_pos_eq (B2R a + B2R b)) in X by lra.
  pose proof u_small. apply (near_round _ vv_pos _ _ _ _ u ltac:(lra) ltac:(lra) vv_u N X).
Qed.
Lemma mul_near k j (a b : T) x y : (k + j <= 99)%nat -> is_finite a = true -> is_finite b = true ->
  near k (B2R a) x -> near j (B2R b) y -> bpow radix2 (3 - emax) <= x * y -> x * y <= bpow radix2 (emax - 2) ->
  is_finite (Bmult mode_NE a b) = true /\ near (S (k + j)) (B2R (Bmult mode_NE a b)) (x * y).
Proof.
  intros K Fa Fb Na Nb L M. pose proof (near_mult _ vv_pos _ _ _ _ _ _ Na Nb) as N.
  destruct (near_half _ _ _ N ltac:(lia)) as [H' H]. pose proof (near_pos _ vv_pos _ _ _ N) as P.
  pose proof (Bmult_correct prec emax Hprec Hmax mode_NE a b) as C.
  change (round_mode mode_NE) with ZnearestE in C. change (SpecFloat.fexp prec emax) with fmt in C.
  rewrite (@rnd_bound prec emax Hprec Hmax) in C; [|apply big_max; rewrite Rabs_pos_eq by lra; pose proof (half_big _ M); lra].
  destruct C as (E & F & _). rewrite Fa, Fb in F. split; [exact F|]. rewrite E.
  pose proof u_small. apply (near_round _ vv_pos _ _ _ _ u ltac:(lra) ltac:(lra) vv_u N). apply rel_err. pose proof twice_small. lra.
Qed.
Lemma div_near k j (a b : T) x y : (k + j <= 99)%nat -> is_finite a = true ->
  near k (B2R a) x -> near j (B2R b) y -> bpow radix2 (3 - emax) <= x / y -> x / y <= bpow radix2 (emax - 2) ->
  is_finite (Bdiv mode_NE a b) = true /\ near (S (k + j)) (B2R (Bdiv mode_NE a b)) (x / y).
Proof.
  intros K Fa Na Nb L M. pose proof (near_div _ vv_pos _ _ _ _ _ _ Na Nb) as N.
  destruct (near_half _ _ _ N ltac:(lia)) as [H' H]. pose proof (near_pos _ vv_pos _ _ _ N) as P.
  pose proof (near_pos _ vv_pos _ _ _ Nb) as Pb.
  pose proof (Bdiv_correct prec emax Hprec Hmax mode_NE a b ltac:(lra)) as C.
  change (round_mode mode_NE) with ZnearestE in C. change (SpecFloat.fexp prec emax) with fmt in C.
  rewrite (@rnd_bound prec emax Hprec Hmax) in C; [|apply big_max; rewrite Rabs_pos_eq by lra; pose proof (half_big _ M); lra].
  destruct C as (E & F & _). rewrite Fa in F. split; [exact F|]. rewrite E.
  pose proof u_small. apply (near_round _ vv_pos _ _ _ _ u ltac:(lra) ltac:(lra) vv_u N). apply rel_err. pose proof twice_small. lra.
Qed.

Lemma sub_off k (a b : T) x y m m' : (k <= 99)%nat -> is_finite a = true -> is_finite b = true ->
  off k (B2R a) x m -> off k (B2R b) y m' -> m + m' <= bpow radix2 (emax - 2) ->
  is_finite (Bminus mode_NE a b) = true /\ off (S k) (B2R (Bminus mode_NE a b)) (x - y) (m + m').
Proof.
  intros K Fa Fb Oa Ob M. pose proof (off_minus _ _ _ _ _ _ _ _ Oa Ob) as O.
  pose proof (off_twice _ _ _ _ O ltac:(lia)) as H.
  destruct (rd_sub _ _ _ _ _ _ (ieee_rounding prec emax) a b Fa Fb) as (r & E & F & X).
  { apply big_max. pose proof (half_big _ M). lra. }
  cbn in E. apply (f_equal (fun o => match o with Ok z => z | Err _ => r end)) in E. cbn in E. rewrite E.
  split; [exact F|]. pose proof u_small. apply (off_round _ _ _ _ _ _ u ltac:(lra) u_vv O X).
Qed.
Lemma add_off k (a b : T) x y m m' : (k <= 99)%nat -> is_finite a = true -> is_finite b = true ->
  off k (B2R a) x m -> off k (B2R b) y m' -> m + m' <= bpow radix2 (emax - 2) ->
  is_finite (Bplus mode_NE a b) = true /\ off (S k) (B2R (Bplus mode_NE a b)) (x + y) (m + m').
Proof.
  intros K Fa Fb Oa Ob M. pose proof (off_plus _ _ _ _ _ _ _ _ Oa Ob) as O.
  pose proof (off_twice _ _ _ _ O ltac:(lia)) as H.
  destruct (rd_add _ _ _ _ _ _ (ieee_rounding prec emax) a b Fa Fb) as (r & E & F & X).
  { apply big_max. pose proof (half_big _ M). lra. }
  cbn in E. apply (f_equal (fun o => match o with Ok z => z | Err _ => r end)) in E. cbn in E. rewrite E.
  split; [exact F|]. pose proof u_small. apply (off_round _ _ _ _ _ _ u ltac:(lra) u_vv O X).
Qed.
Lemma mul_off k j (a b : T) x y m m' : (k + j <= 99)%nat -> is_finite a = true -> is_finite b = true ->
  off k (B2R a) x m -> off j (B2R b) y m' -> bpow radix2 (2 - emax) <= m * m' -> m * m' <= bpow radix2 (emax - 2) ->
  is_finite (Bmult mode_NE a b) = true /\ off (S (S (k + j))) (B2R (Bmult mode_NE a b)) (x * y) (m * m').
Proof.
  intros K Fa Fb Oa Ob L M. pose proof (off_mult _ vv_pos _ _ _ _ _ _ _ _ Oa Ob) as O.
  pose proof (off_twice _ _ _ _ O ltac:(lia)) as H.
  pose proof (Bmult_correct prec emax Hprec Hmax mode_NE a b) as C.
  change (round_mode mode_NE) with ZnearestE in C. change (SpecFloat.fexp prec emax) with fmt in C.
  rewrite (@rnd_bound prec emax Hprec Hmax) in C; [|apply big_max; pose proof (half_big _ M); lra].
  destruct C as (E & F & _). rewrite Fa, Fb in F. split; [exact F|]. rewrite E.
  pose proof u_small. apply (off_round2 _ vv_pos (k + j) (B2R a * B2R b) (x * y) (m * m') _ u (bpow radix2 (emin - 1)) ltac:(lra) u_vv).
  - replace (emin - 1)%Z with (- prec + (2 - emax))%Z by lia. rewrite bpow_plus. apply Rmult_le_compat_l; lra.
  - exact O.
  - apply (@mult_err prec emax Hprec).
Qed.

Lemma int_exact z : (Z.abs z < 2 ^ 24)%Z -> B2R (ieee_of_Z prec emax z) = IZR z /\ is_finite (ieee_of_Z prec emax z) = true.
Proof.
  intros H. unfold ieee_of_Z. pose proof (binary_normalize_correct prec emax Hprec Hmax mode_NE z 0 false) as C.
  cbv zeta in C. change (round_mode mode_NE) with ZnearestE in C. change (SpecFloat.fexp prec emax) with fmt in C.
  replace (F2R (Float radix2 z 0)) with (IZR z) in C by (unfold F2R; cbn; ring).
  assert (Q : (2 ^ 24 <= 2 ^ prec)%Z) by (apply Z.pow_le_mono_r; lia).
  assert (G : generic_format radix2 fmt (IZR z)).
  { apply generic_format_FLT. exists (Float radix2 z 0).
    - unfold F2R; cbn; ring.
    - cbn [Fnum]. change (radix_val radix2) with 2%Z. lia.
    - cbn [Fexp]. lia. }
  assert (B : Rabs (IZR z) <= bpow radix2 (emax - 1)).
  { rewrite <- abs_IZR. apply Rle_trans with (bpow radix2 24); [|apply bpow_le; lia].
    change (bpow radix2 24) with (IZR (2 ^ 24)). apply IZR_le. lia. }
  rewrite (@rnd_bound prec emax Hprec Hmax) in C by (apply big_max; exact B).
  rewrite round_generic in C; [|apply valid_rnd_N|exact G]. destruct C as (C1 & C2 & _). auto.
Qed.

(** ** The designs *)

(** [K] stands for the exact number [k]. *)
Context (e0 : Z) (H0 : (0 <= e0)%Z) (H4 : (4 * e0 + 16 <= emax)%Z).
Context (j : nat) (J : (j <= 20)%nat) (K Q : T) (k : R).
Notation q := (B2R Q).
Context (FK : is_finite K = true) (FQ : is_finite Q = true) (NK : near j (B2R K) k).
Context (RK : bpow radix2 (- e0) <= k <= bpow radix2 e0) (RQ : bpow radix2 (- e0) <= q <= bpow radix2 e0).

Local Notation "x [+] y" := (Bplus mode_NE x y) (at level 50, left associativity).
Local Notation "x [-] y" := (Bminus mode_NE x y) (at level 50, left associativity).
Local Notation "x [*] y" := (Bmult mode_NE x y) (at level 40, left associativity).
Local Notation "x [/] y" := (Bdiv mode_NE x y) (at level 40, left associativity).
Local Notation int z := (ieee_of_Z prec emax z).

Lemma bp_pos e : 0 < bpow radix2 e.
Proof. apply bpow_gt_0. Qed.
Lemma bp_inv e : / bpow radix2 (- e) = bpow radix2 e.
Proof. rewrite <- bpow_opp. f_equal. lia. Qed.
Lemma bp_1 e : (0 <= e)%Z -> 1 <= bpow radix2 e.
Proof. intros H. change 1 with (bpow radix2 0). now apply bpow_le. Qed.
Lemma kp : 0 < k. Proof. pose proof (bp_pos (- e0)). lra. Qed.
Lemma qp : 0 < q. Proof. pose proof (bp_pos (- e0)). lra. Qed.

(** Ranges of the exact quantities. *)
Lemma kk_range : bpow radix2 (- (2 * e0)) <= k * k <= bpow radix2 (2 * e0).
Proof.
  replace (- (2 * e0))%Z with (- e0 + - e0)%Z by lia. replace (2 * e0)%Z with (e0 + e0)%Z by lia. rewrite !bpow_plus.
  pose proof (bp_pos (- e0)). split; apply Rmult_le_compat; lra.
Qed.
Lemma kq_range : bpow radix2 (- (2 * e0)) <= k / q <= bpow radix2 (2 * e0).
Proof.
  replace (- (2 * e0))%Z with (- e0 + - e0)%Z by lia. replace (2 * e0)%Z with (e0 + e0)%Z by lia. rewrite !bpow_plus.
  pose proof (bp_pos (- e0)). pose proof qp. unfold Rdiv. split; apply Rmult_le_compat; try lra.
  - rewrite bpow_opp. apply Rinv_le; lra.
  - left. apply Rinv_0_lt_compat. lra.
  - rewrite <- bp_inv. apply Rinv_le; lra.
Qed.
Lemma lead_range : 1 < lead k q <= bpow radix2 (2 * e0 + 2).
Proof.
  pose proof kk_range as A. pose proof kq_range as B. pose proof (bp_pos (- (2 * e0))). unfold lead. split; [lra|].
  rewrite bpow_plus. change (bpow radix2 2) with 4. pose proof (bp_1 (2 * e0) ltac:(lia)). lra.
Qed.
Lemma inv_lead_range : bpow radix2 (- (2 * e0 + 2)) <= 1 / lead k q <= 1.
Proof.
  destruct lead_range as [A B]. rewrite bpow_opp. unfold Rdiv. rewrite Rmult_1_l. split; [apply Rinv_le; lra|].
  rewrite <- Rinv_1. apply Rinv_le; lra.
Qed.

Lemma le_big e : (e <= emax - 2)%Z -> bpow radix2 e <= bpow radix2 (emax - 2).
Proof. intros H. now apply bpow_le. Qed.
Lemma ge_small e : (3 - emax <= e)%Z -> bpow radix2 (3 - emax) <= bpow radix2 e.
Proof. intros H. now apply bpow_le. Qed.

Lemma int1 : is_finite (int 1) = true /\ near 0 (B2R (int 1)) 1 /\ B2R (int 1) = 1.
Proof. destruct (int_exact 1 ltac:(lia)) as [E F]. rewrite E. split; [exact F|]. split; [apply near_refl; lra|reflexivity]. Qed.

Lemma kk_near : is_finite (K [*] K) = true /\ near (2 * j + 1) (B2R (K [*] K)) (k * k).
Proof.
  pose proof kk_range as A. destruct (mul_near j j K K k k) as [F N]; auto; try lia.
  - eapply Rle_trans; [apply (ge_small (- (2 * e0))); lia|lra].
  - eapply Rle_trans; [|apply (le_big (2 * e0)); lia]. lra.
  - split; [exact F|]. replace (2 * j + 1)%nat with (S (j + j)) by lia. exact N.
Qed.
Lemma kq_near : is_finite (K [/] Q) = true /\ near (j + 1) (B2R (K [/] Q)) (k / q).
Proof.
  pose proof kq_range as A. destruct (div_near j 0 K Q k q) as [F N]; auto; try lia.
  - apply near_refl, qp.
  - eapply Rle_trans; [apply (ge_small (- (2 * e0))); lia|lra].
  - eapply Rle_trans; [|apply (le_big (2 * e0)); lia]. lra.
  - split; [exact F|]. replace (j + 1)%nat with (S (j + 0)) by lia. exact N.
Qed.
Lemma norm_near : is_finite (ieee_norm prec emax K Q) = true /\ near (2 * j + 4) (B2R (ieee_norm prec emax K Q)) (1 / lead k q).
Proof.
  unfold ieee_norm. destruct int1 as (F1 & N1 & E1). destruct kk_near as [Fkk Nkk]. destruct kq_near as [Fkq Nkq].
  pose proof kk_range as A. pose proof kq_range as B. pose proof lead_range as D. unfold lead in D. pose proof inv_lead_range as I.
  pose proof (bp_pos (- (2 * e0))).
  destruct (add_near (j + 1) (int 1) (K [/] Q) 1 (k / q)) as [Fa Na]; auto; try lia.
  { eapply near_le; [apply vv_pos| |exact N1]. lia. }
  { eapply Rle_trans; [|apply (le_big (2 * e0 + 2)); lia]. lra. }
  destruct (add_near (2 * j + 2) (int 1 [+] K [/] Q) (K [*] K) (1 + k / q) (k * k)) as [Fs Ns]; auto; try lia.
  { eapply near_le; [apply vv_pos| |exact Na]. lia. }
  { eapply near_le; [apply vv_pos| |exact Nkk]. lia. }
  { eapply Rle_trans; [|apply (le_big (2 * e0 + 2)); lia]. lra. }
  destruct (div_near 0 (S (2 * j + 2)) (int 1) (int 1 [+] K [/] Q [+] K [*] K) 1 (1 + k / q + k * k)) as [Fd Nd]; auto; try lia.
  { eapply Rle_trans; [apply (ge_small (- (2 * e0 + 2))); lia|]. apply I. }
  { eapply Rle_trans; [apply I|]. change 1 with (bpow radix2 0). apply bpow_le. lia. }
  split; [exact Fd|]. replace (2 * j + 4)%nat with (S (0 + S (2 * j + 2))) by lia. exact Nd.
Qed.

Lemma inv_lead_pos : 0 < 1 / lead k q.
Proof. pose proof lead_range. apply Rdiv_lt_0_compat; lra. Qed.

Lemma a1_off : is_finite (a1 (ieee_den prec emax K Q)) = true /\
  off (4 * j + 8) (B2R (a1 (ieee_den prec emax K Q))) (exact_a1 k q) (2 * (k * k + 1) * (1 / lead k q)).
Proof.
  unfold ieee_den. cbn [a1]. destruct int1 as (F1 & N1 & E1). destruct (int_exact 2 ltac:(lia)) as [E2 F2].
  destruct kk_near as [Fkk Nkk]. destruct norm_near as [Fn Nn].
  pose proof kk_range as A. pose proof kq_range as B. pose proof lead_range as D. unfold lead in D. pose proof inv_lead_range as I. pose proof inv_lead_pos as IP.
  pose proof (bp_pos (- (2 * e0))).
  destruct (sub_off (2 * j + 1) (K [*] K) (int 1) (k * k) 1 (k * k) 1) as [Fs Os]; auto; try lia.
  { apply near_off; [apply vv_pos|exact Nkk]. }
  { apply near_off; [apply vv_pos|]. eapply near_le; [apply vv_pos| |exact N1]. lia. }
  { eapply Rle_trans; [|apply (le_big (2 * e0 + 2)); lia]. lra. }
  assert (X2 : B2R (int 2 [*] (K [*] K [-] int 1)) = 2 * B2R (K [*] K [-] int 1) /\ is_finite (int 2 [*] (K [*] K [-] int 1)) = true).
  { pose proof (Bmult_correct prec emax Hprec Hmax mode_NE (int 2) (K [*] K [-] int 1)) as C.
    change (round_mode mode_NE) with ZnearestE in C. change (SpecFloat.fexp prec emax) with fmt in C. rewrite E2 in C.
    assert (G : generic_format radix2 fmt (2 * B2R (K [*] K [-] int 1))).
    { rewrite Rmult_comm. change 2 with (bpow radix2 1). apply mult_bpow_pos_exact_FLT; [apply fin_format|lia]. }
    rewrite (@rnd_bound prec emax Hprec Hmax) in C; [|].
    - rewrite round_generic in C; [|apply valid_rnd_N|exact G]. destruct C as (C1 & C2 & _). rewrite F2, Fs in C2. auto.
    - apply big_max. rewrite Rabs_mult, (Rabs_pos_eq 2) by lra. apply half_big.
      pose proof (off_twice _ _ _ _ Os ltac:(lia)) as H1. eapply Rle_trans; [exact H1|].
      apply Rle_trans with (2 * bpow radix2 (2 * e0 + 2)); [lra|]. change 2 with (bpow radix2 1) at 1. rewrite <- bpow_plus. apply bpow_le. lia. }
  destruct X2 as [X2 XF].
  assert (O2 : off (S (2 * j + 1)) (B2R (int 2 [*] (K [*] K [-] int 1))) (2 * (k * k - 1)) (2 * (k * k + 1))).
  { rewrite X2. pose proof (off_mult _ vv_pos 0 _ 2 2 2 _ _ _ ltac:(pose proof (off_exact vv 2) as Z; rewrite Rabs_pos_eq in Z by lra; exact Z) Os) as Z. exact Z. }
  destruct (mul_off (S (2 * j + 1)) (2 * j + 4) (int 2 [*] (K [*] K [-] int 1)) (ieee_norm prec emax K Q) (2 * (k * k - 1)) (1 / lead k q) (2 * (k * k + 1)) (1 / lead k q)) as [Fm Om]; auto; try lia.
  { apply near_off; [apply vv_pos|exact Nn]. }
  { apply Rle_trans with (1 * (1 / lead k q)); [|apply Rmult_le_compat_r; lra]. rewrite Rmult_1_l.
    eapply Rle_trans; [|apply I]. apply bpow_le. lia. }
  { apply Rle_trans with (2 * (k * k + 1) * 1); [apply Rmult_le_compat_l; lra|].
    eapply Rle_trans; [|apply (le_big (2 * e0 + 2)); lia]. rewrite bpow_plus. change (bpow radix2 2) with 4. pose proof (bp_1 (2 * e0) ltac:(lia)). lra. }
  split; [exact Fm|]. replace (4 * j + 8)%nat with (S (S (S (2 * j + 1) + (2 * j + 4)))) by lia.
  unfold exact_a1. replace (2 * (k * k - 1) / lead k q) with (2 * (k * k - 1) * (1 / lead k q)) by (unfold Rdiv; ring). exact Om.
Qed.

Lemma a2_off : is_finite (a2 (ieee_den prec emax K Q)) = true /\
  off (4 * j + 9) (B2R (a2 (ieee_den prec emax K Q))) (exact_a2 k q) 1.
Proof.
  unfold ieee_den. cbn [a2]. destruct int1 as (F1 & N1 & E1).
  destruct kk_near as [Fkk Nkk]. destruct kq_near as [Fkq Nkq]. destruct norm_near as [Fn Nn].
  pose proof kk_range as A. pose proof kq_range as B. pose proof lead_range as D. unfold lead in D. pose proof inv_lead_range as I. pose proof inv_lead_pos as IP.
  pose proof (bp_pos (- (2 * e0))).
  destruct (sub_off (j + 1) (int 1) (K [/] Q) 1 (k / q) 1 (k / q)) as [Fs Os]; auto; try lia.
  { apply near_off; [apply vv_pos|]. eapply near_le; [apply vv_pos| |exact N1]. lia. }
  { apply near_off; [apply vv_pos|exact Nkq]. }
  { eapply Rle_trans; [|apply (le_big (2 * e0 + 2)); lia]. lra. }
  destruct (add_off (2 * j + 2) (int 1 [-] K [/] Q) (K [*] K) (1 - k / q) (k * k) (1 + k / q) (k * k)) as [Fa Oa]; auto; try lia.
  { eapply off_le; [apply vv_pos| |exact Os]. lia. }
  { apply near_off; [apply vv_pos|]. eapply near_le; [apply vv_pos| |exact Nkk]. lia. }
  { eapply Rle_trans; [|apply (le_big (2 * e0 + 2)); lia]. lra. }
  fold (lead k q) in Oa.
  assert (M1 : lead k q * (1 / lead k q) = 1) by (field; unfold lead; lra).
  destruct (mul_off (S (2 * j + 2)) (2 * j + 4) (int 1 [-] K [/] Q [+] K [*] K) (ieee_norm prec emax K Q) (1 - k / q + k * k) (1 / lead k q) (lead k q) (1 / lead k q)) as [Fm Om]; auto; try lia.
  { apply near_off; [apply vv_pos|exact Nn]. }
  { rewrite M1. change 1 with (bpow radix2 0). apply bpow_le. lia. }
  { rewrite M1. change 1 with (bpow radix2 0). apply bpow_le. lia. }
  rewrite M1 in Om. split; [exact Fm|]. replace (4 * j + 9)%nat with (S (S (S (2 * j + 2) + (2 * j + 4)))) by lia.
  unfold exact_a2. replace ((1 - k / q + k * k) / lead k q) with ((1 - k / q + k * k) * (1 / lead k q)) by (unfold Rdiv; ring). exact Om.
Qed.

(** The leading coefficients of the four numerators. *)
Lemma low_b0 : is_finite (b0 (fst (ieee_low_pass prec emax K Q))) = true /\
  near (4 * j + 6) (B2R (b0 (fst (ieee_low_pass prec emax K Q)))) (k * k / lead k q).
Proof.
  unfold ieee_low_pass. cbn [fst b0]. destruct kk_near as [Fkk Nkk]. destruct norm_near as [Fn Nn].
  pose proof kk_range as A. pose proof inv_lead_range as I. pose proof inv_lead_pos as IP. pose proof (bp_pos (- (2 * e0))).
  destruct (mul_near (2 * j + 1) (2 * j + 4) (K [*] K) (ieee_norm prec emax K Q) (k * k) (1 / lead k q)) as [Fm Nm]; auto; try lia.
  { apply Rle_trans with (bpow radix2 (- (2 * e0)) * bpow radix2 (- (2 * e0 + 2))); [rewrite <- bpow_plus; apply ge_small; lia|].
    pose proof (bp_pos (- (2 * e0 + 2))). apply Rmult_le_compat; lra. }
  { apply Rle_trans with (bpow radix2 (2 * e0) * 1); [apply Rmult_le_compat; lra|]. rewrite Rmult_1_r. apply le_big. lia. }
  split; [exact Fm|]. replace (k * k / lead k q) with (k * k * (1 / lead k q)) by (unfold Rdiv; ring).
  replace (4 * j + 6)%nat with (S (2 * j + 1 + (2 * j + 4))) by lia. exact Nm.
Qed.
Lemma high_b0 : is_finite (b0 (fst (ieee_high_pass prec emax K Q))) = true /\
  near (4 * j + 6) (B2R (b0 (fst (ieee_high_pass prec emax K Q)))) (1 / lead k q).
Proof.
  unfold ieee_high_pass. cbn [fst b0]. destruct int1 as (F1 & N1 & E1). destruct norm_near as [Fn Nn].
  pose proof inv_lead_range as I. pose proof inv_lead_pos as IP.
  destruct (mul_near 0 (2 * j + 4) (int 1) (ieee_norm prec emax K Q) 1 (1 / lead k q)) as [Fm Nm]; auto; try lia.
  { rewrite Rmult_1_l. eapply Rle_trans; [|apply I]. apply ge_small. lia. }
  { rewrite Rmult_1_l. eapply Rle_trans; [apply I|]. change 1 with (bpow radix2 0). apply bpow_le. lia. }
  split; [exact Fm|]. rewrite Rmult_1_l in Nm. eapply near_le; [apply vv_pos| |exact Nm]. lia.
Qed.
Lemma band_b0 : is_finite (b0 (fst (ieee_band_pass prec emax K Q))) = true /\
  near (4 * j + 6) (B2R (b0 (fst (ieee_band_pass prec emax K Q)))) (k / q / lead k q).
Proof.
  unfold ieee_band_pass. cbn [fst b0]. destruct kq_near as [Fkk Nkk]. destruct norm_near as [Fn Nn].
  pose proof kq_range as A. pose proof inv_lead_range as I. pose proof inv_lead_pos as IP. pose proof (bp_pos (- (2 * e0))).
  destruct (mul_near (j + 1) (2 * j + 4) (K [/] Q) (ieee_norm prec emax K Q) (k / q) (1 / lead k q)) as [Fm Nm]; auto; try lia.
  { apply Rle_trans with (bpow radix2 (- (2 * e0)) * bpow radix2 (- (2 * e0 + 2))); [rewrite <- bpow_plus; apply ge_small; lia|].
    pose proof (bp_pos (- (2 * e0 + 2))). apply Rmult_le_compat; lra. }
  { apply Rle_trans with (bpow radix2 (2 * e0) * 1); [apply Rmult_le_compat; lra|]. rewrite Rmult_1_r. apply le_big. lia. }
  split; [exact Fm|]. replace (k / q / lead k q) with (k / q * (1 / lead k q)) by (unfold Rdiv; ring).
  eapply near_le; [apply vv_pos| |exact Nm]. lia.
Qed.
Lemma stop_b0 : is_finite (b0 (fst (ieee_band_stop prec emax K Q))) = true /\
  near (4 * j + 7) (B2R (b0 (fst (ieee_band_stop prec emax K Q)))) ((1 + k * k) / lead k q).
Proof.
  unfold ieee_band_stop. cbn [fst b0]. destruct int1 as (F1 & N1 & E1). destruct kk_near as [Fkk Nkk]. destruct norm_near as [Fn Nn].
  pose proof kk_range as A. pose proof inv_lead_range as I. pose proof inv_lead_pos as IP. pose proof (bp_pos (- (2 * e0))).
  assert (B : 1 + k * k <= bpow radix2 (2 * e0 + 1)).
  { rewrite bpow_plus. change (bpow radix2 1) with 2. pose proof (bp_1 (2 * e0) ltac:(lia)). lra. }
  destruct (add_near (2 * j + 1) (int 1) (K [*] K) 1 (k * k)) as [Fa Na]; auto; try lia.
  { eapply near_le; [apply vv_pos| |exact N1]. lia. }
  { eapply Rle_trans; [exact B|]. apply le_big. lia. }
  destruct (mul_near (S (2 * j + 1)) (2 * j + 4) (int 1 [+] K [*] K) (ieee_norm prec emax K Q) (1 + k * k) (1 / lead k q)) as [Fm Nm]; auto; try lia.
  { apply Rle_trans with (1 * bpow radix2 (- (2 * e0 + 2))); [rewrite Rmult_1_l; apply ge_small; lia|].
    pose proof (bp_pos (- (2 * e0 + 2))). apply Rmult_le_compat; lra. }
  { apply Rle_trans with (bpow radix2 (2 * e0 + 1) * 1); [apply Rmult_le_compat; lra|]. rewrite Rmult_1_r. apply le_big. lia. }
  split; [exact Fm|]. replace ((1 + k * k) / lead k q) with ((1 + k * k) * (1 / lead k q)) by (unfold Rdiv; ring).
  replace (4 * j + 7)%nat with (S (S (2 * j + 1) + (2 * j + 4))) by lia. exact Nm.
Qed.

(** Multiplication by 2 and -2 is exact. *)
Lemma twice (x : T) s : (s = 2 \/ s = -2)%Z -> is_finite x = true -> Rabs (B2R x) <= bpow radix2 (emax - 2) ->
  is_finite (int s [*] x) = true /\ B2R (int s [*] x) = IZR s * B2R x.
Proof.
  intros S Fx Bx. destruct (int_exact s) as [E2 F2]; [lia|].
  pose proof (Bmult_correct prec emax Hprec Hmax mode_NE (int s) x) as C.
  change (round_mode mode_NE) with ZnearestE in C. change (SpecFloat.fexp prec emax) with fmt in C. rewrite E2 in C.
  assert (G : generic_format radix2 fmt (IZR s * B2R x)).
  { assert (G2 : generic_format radix2 fmt (B2R x * bpow radix2 1)) by (apply mult_bpow_pos_exact_FLT; [apply fin_format|lia]).
    change (bpow radix2 1) with 2 in G2. destruct S as [-> | ->].
    - rewrite Rmult_comm. exact G2.
    - replace (-2 * B2R x) with (- (B2R x * 2)) by ring. now apply generic_format_opp. }
  rewrite (@rnd_bound prec emax Hprec Hmax) in C; [|].
  - rewrite round_generic in C; [|apply valid_rnd_N|exact G]. destruct C as (C1 & C2 & _). rewrite F2, Fx in C2. auto.
  - apply big_max. rewrite Rabs_mult. apply half_big in Bx. replace (Rabs (IZR s)) with 2; [exact Bx|].
    destruct S as [-> | ->]; rewrite Rabs_Zabs; reflexivity.
Qed.

End Ops.
