(** * Real inequalities for the stability test with rounding *)

From Coq Require Import Reals Lra.
From Flocq Require Import Core.Raux.
Local Open Scope R_scope.

Section Core.

Context (u : R) (U : 0 < u <= / 16777216) (eta : R) (E0 : 0 <= eta <= u * u * u).

Lemma uu : u * u <= u / 16777216.
Proof. nra. Qed.
Lemma eta_u : eta <= u / 1000000.
Proof. pose proof uu. nra. Qed.

Lemma Rabs_le_sq y : -2 <= y <= 2 -> y * y <= 2 * 2.
Proof. nra. Qed.

Lemma sq_up x t : Rabs (x - t) <= u * Rabs t + eta -> x * x <= (1 + 4 * u) * (t * t) + u / 100.
Proof.
  intros H. pose proof (Rabs_pos t) as P. pose proof eta_u as Ee. pose proof uu as UU.
  assert (X : Rabs x <= (1 + u) * Rabs t + eta).
  { replace x with ((x - t) + t) by ring. eapply Rle_trans; [apply Rabs_triang|]. lra. }
  assert (Q : x * x = Rabs x * Rabs x) by (rewrite <- Rabs_mult; symmetry; apply Rabs_pos_eq; nra).
  assert (Qt : t * t = Rabs t * Rabs t) by (rewrite <- Rabs_mult; symmetry; apply Rabs_pos_eq; nra).
  rewrite Q, Qt. pose proof (Rabs_pos x) as A. clear H Q Qt. set (t' := Rabs t) in *. set (a := Rabs x) in *. clearbody t' a.
  assert (a * a <= ((1 + u) * t' + eta) * ((1 + u) * t' + eta)) by nra.
  assert (Q0 : t' <= 1 + t' * t') by nra. assert (Q1 : eta * t' <= u / 1000000 * t') by (apply Rmult_le_compat_r; lra).
  assert (Q2 : u * t' <= u * (1 + t' * t')) by (apply Rmult_le_compat_l; [lra|exact Q0]). assert (Q4 : 0 <= u * t') by (apply Rmult_le_pos; lra). assert (Q3 : eta * t' <= u / 1000 * (1 + t' * t')) by lra. clear Q0 Q1 Q2 Q4. nra.
Qed.

Lemma sq_down x t : Rabs (x - t) <= u * Rabs t + eta -> (1 - 4 * u) * (t * t) - u / 100 <= x * x.
Proof.
  intros H. pose proof (Rabs_pos t) as P. pose proof eta_u as Ee. pose proof uu as UU.
  assert (X : (1 - u) * Rabs t - eta <= Rabs x).
  { pose proof (Rabs_triang x (t - x)) as Tr. replace (x + (t - x)) with t in Tr by ring.
    rewrite (Rabs_minus_sym t x) in Tr. lra. }
  assert (Q : x * x = Rabs x * Rabs x) by (rewrite <- Rabs_mult; symmetry; apply Rabs_pos_eq; nra).
  assert (Qt : t * t = Rabs t * Rabs t) by (rewrite <- Rabs_mult; symmetry; apply Rabs_pos_eq; nra).
  rewrite Q, Qt. pose proof (Rabs_pos x) as A. clear H Q Qt. set (t' := Rabs t) in *. set (a := Rabs x) in *. clearbody t' a.
  destruct (Rle_dec ((1 - u) * t' - eta) 0) as [L|L].
  - assert (t' <= 2 * eta) by nra. assert (t' * t' <= u / 100) by nra. nra.
  - apply Rnot_le_lt in L.
    assert (((1 - u) * t' - eta) * ((1 - u) * t' - eta) <= a * a) by nra.
    assert (Q0 : t' <= 1 + t' * t') by nra. assert (Q1 : eta * t' <= u / 1000000 * t') by (apply Rmult_le_compat_r; lra).
  assert (Q2 : u * t' <= u * (1 + t' * t')) by (apply Rmult_le_compat_l; [lra|exact Q0]). assert (Q4 : 0 <= u * t') by (apply Rmult_le_pos; lra). assert (Q3 : eta * t' <= u / 1000 * (1 + t' * t')) by lra. clear Q0 Q1 Q2 Q4. nra.
Qed.

(** The discriminant. *)
Context (b c m1 D : R) (M : Rabs (m1 - b * b) <= u * (b * b) + eta)
  (HD : Rabs (D - (m1 - 4 * c)) <= u * Rabs (m1 - 4 * c)).

Lemma m1_range : (1 - u) * (b * b) - eta <= m1 <= (1 + u) * (b * b) + eta.
Proof. apply Rabs_le_inv in M. lra. Qed.

Lemma D_pos : 0 <= D -> 0 <= m1 - 4 * c /\ (1 - u) * (m1 - 4 * c) <= D <= (1 + u) * (m1 - 4 * c).
Proof.
  intros H. apply Rabs_le_inv in HD. unfold Rabs in HD. destruct Rcase_abs as [L|L] in HD; [exfalso; nra|]. split; [lra|]. lra.
Qed.
Lemma D_neg : D < 0 -> m1 - 4 * c < 0 /\ (1 - u) * (4 * c - m1) <= - D <= (1 + u) * (4 * c - m1).
Proof.
  intros H. apply Rabs_le_inv in HD. unfold Rabs in HD. destruct Rcase_abs as [L|L] in HD; [|exfalso; nra]. split; [lra|]. lra.
Qed.

(** Real poles. *)
Section Real.

Context (Dp : 0 <= D) (s : R) (Hs : Rabs (s - sqrt D) <= 2 * u * sqrt D).

Lemma s_range : 0 <= s /\ (1 - 5 * u) * D <= s * s <= (1 + 5 * u) * D.
Proof.
  pose proof (sqrt_pos D) as P. pose proof (sqrt_sqrt D Dp) as Q. pose proof uu. apply Rabs_le_inv in Hs.
  set (q := sqrt D) in *. rewrite <- Q. assert ((1 - 2 * u) * q <= s <= (1 + 2 * u) * q) by lra.
  assert (0 <= (1 - 2 * u) * q) by nra.
  split; [lra|]. assert (0 <= q * q) by nra.
  split; [assert ((1 - 2 * u) * q * ((1 - 2 * u) * q) <= s * s) by nra|assert (s * s <= (1 + 2 * u) * q * ((1 + 2 * u) * q)) by nra]; nra.
Qed.

Lemma real_in : Rabs b <= 1 + c - 32 * u -> c <= 1 - 32 * u -> Rabs b + s <= 2 - 20 * u.
Proof.
  intros H1 H2. destruct (D_pos Dp) as (Wp & DW). destruct s_range as (Sp & S2). pose proof m1_range as MR. pose proof eta_u. pose proof uu.
  pose proof (Rabs_pos b) as Bp.
  assert (Qb : b * b = Rabs b * Rabs b) by (rewrite <- Rabs_mult; symmetry; apply Rabs_pos_eq; apply Rle_0_sqr).
  rewrite Qb in *. set (B := Rabs b) in *. set (y := 2 - B) in *.
  assert (Y : 64 * u <= y <= 2) by (unfold y; lra).
  assert (EB : B * B = y * y - 4 + 4 * B) by (unfold y; ring).
  assert (P1 : u * (B * B) <= u * (2 * 2)) by (apply Rmult_le_compat_l; [lra|]; apply Rmult_le_compat; lra).
  assert (yy : y * y <= 2 * 2) by (apply Rmult_le_compat; lra).
  assert (W : m1 - 4 * c <= y * y - 123 * u) by lra.
  assert (P2 : u * (m1 - 4 * c) <= u * 4) by (apply Rmult_le_compat_l; lra).
  assert (D1 : D <= y * y - 119 * u) by lra.
  assert (P3 : u * D <= u * 4) by (apply Rmult_le_compat_l; lra).
  assert (S3 : s * s <= y * y - 99 * u) by lra.
  assert (s <= y - 20 * u); [|unfold y in *; lra].
  apply Rnot_lt_le. intros L.
  assert ((y - 20 * u) * (y - 20 * u) <= s * s) by (apply Rmult_le_compat; lra).
  assert (P4 : u * y <= u * 2) by (apply Rmult_le_compat_l; lra). pose proof (Rle_0_sqr u) as P5. unfold Rsqr in P5. lra.
Qed.

Lemma real_out_1 : 1 + c + 32 * u <= Rabs b -> 2 + 15 * u <= Rabs b + s.
Proof.
  intros H1. destruct (D_pos Dp) as (Wp & DW). destruct s_range as (Sp & S2). pose proof m1_range as MR. pose proof eta_u. pose proof uu.
  pose proof (Rabs_pos b) as Bp.
  assert (Qb : b * b = Rabs b * Rabs b) by (rewrite <- Rabs_mult; symmetry; apply Rabs_pos_eq; apply Rle_0_sqr).
  rewrite Qb in *. set (B := Rabs b) in *.
  destruct (Rle_dec (2 + 15 * u) B) as [L|L]; [lra|]. apply Rnot_le_lt in L.
  set (y := 2 - B) in *. assert (Y : - (15 * u) <= y <= 2) by (unfold y; lra).
  assert (EB : B * B = y * y - 4 + 4 * B) by (unfold y; ring).
  assert (P1 : u * (B * B) <= u * (3 * 3)) by (apply Rmult_le_compat_l; [lra|]; apply Rmult_le_compat; lra).
  assert (yy : y * y <= 2 * 2) by (apply Rabs_le_sq; unfold y in *; lra).
  assert (W : y * y + 118 * u <= m1 - 4 * c) by lra.
  assert (W2 : (1 - u) * (y * y + 118 * u) <= (1 - u) * (m1 - 4 * c)) by (apply Rmult_le_compat_l; lra).
  assert (P2 : u * (y * y) <= u * 4) by (apply Rmult_le_compat_l; lra).
  assert (D1 : y * y + 113 * u <= D) by lra.
  assert (D2 : (1 - 5 * u) * (y * y + 113 * u) <= (1 - 5 * u) * D) by (apply Rmult_le_compat_l; lra).
  assert (S3 : y * y + 92 * u <= s * s) by lra.
  assert (y + 15 * u <= s); [|unfold y in *; lra].
  apply Rnot_lt_le. intros L'. assert (s * s <= (y + 15 * u) * (y + 15 * u)) by (apply Rmult_le_compat; lra).
  assert (P4 : u * y <= u * 2) by (apply Rmult_le_compat_l; lra). lra.
Qed.

Lemma real_out_2 : 1 + 32 * u <= c -> 2 + 15 * u <= Rabs b + s.
Proof.
  intros H1. destruct (D_pos Dp) as (Wp & DW). destruct s_range as (Sp & S2). pose proof m1_range as MR. pose proof eta_u as H0. pose proof uu as H2. clear HD M Hs.
  pose proof (Rabs_pos b) as Bp.
  assert (Qb : b * b = Rabs b * Rabs b) by (rewrite <- Rabs_mult; symmetry; apply Rabs_pos_eq; apply Rle_0_sqr).
  rewrite Qb in *. set (B := Rabs b) in *. clearbody B. clear Qb.
  apply Rnot_lt_le. intros L.
  assert (Q1 : B * B <= (2 + 15 * u) * (2 + 15 * u)) by (apply Rmult_le_compat; lra).
  assert (Q2 : u * (B * B) <= u * 5) by (apply Rmult_le_compat_l; lra). lra.
Qed.

End Real.

(** Complex poles: half the coefficient and half the root, both rounded. *)
Section Complex.

Context (Dn : D < 0) (s : R) (Hs : Rabs (s - sqrt (- D)) <= 2 * u * sqrt (- D)).
Context (x y : R) (Hx : Rabs (x - - b / 2) <= u * Rabs (- b / 2) + eta) (Hy : Rabs (y - s / 2) <= u * Rabs (s / 2) + eta).

Lemma sn_range : (1 - 5 * u) * (- D) <= s * s <= (1 + 5 * u) * (- D).
Proof.
  assert (Dp : 0 <= - D) by lra. pose proof (sqrt_pos (- D)) as P. pose proof (sqrt_sqrt (- D) Dp) as Q. pose proof uu. apply Rabs_le_inv in Hs.
  set (q := sqrt (- D)) in *. rewrite <- Q. assert ((1 - 2 * u) * q <= s <= (1 + 2 * u) * q) by lra.
  assert (0 <= (1 - 2 * u) * q) by nra. assert (0 <= q * q) by nra.
  split; [assert ((1 - 2 * u) * q * ((1 - 2 * u) * q) <= s * s) by nra|assert (s * s <= (1 + 2 * u) * q * ((1 + 2 * u) * q)) by nra]; nra.
Qed.

Lemma complex_in : c <= 1 - 32 * u -> x * x + y * y <= 1 - 12 * u.
Proof.
  intros H. destruct (D_neg Dn) as (Wn & DW). pose proof sn_range as S2. pose proof m1_range as MR. pose proof eta_u as H0. pose proof uu as H1.
  pose proof (sq_up _ _ Hx) as X. pose proof (sq_up _ _ Hy) as Y. clear Hx Hy Hs HD M.
  assert (BB : 0 <= b * b) by apply Rle_0_sqr.
  assert (Ew : exists w, w = 4 * c - m1) by eauto. destruct Ew as (w & Ew). rewrite <- Ew in DW. assert (Wp : 0 < w) by lra. clear Wn.
  replace (- b / 2 * (- b / 2)) with (b * b / 4) in X by field. replace (s / 2 * (s / 2)) with (s * s / 4) in Y by field.
  set (bb := b * b) in *. set (ss := s * s) in *. set (xx := x * x) in *. set (yy := y * y) in *. set (d := - D) in *. clearbody bb ss xx yy d.
  assert (B5 : bb <= 9 / 2).
  { apply Rnot_lt_le. intros L. assert ((1 - u) * (9 / 2) <= (1 - u) * bb) by (apply Rmult_le_compat_l; lra). lra. }
  assert (B6 : u * bb <= u * (9 / 2)) by (apply Rmult_le_compat_l; lra).
  assert (W5 : w <= 5) by lra. assert (B7 : u * w <= u * 5) by (apply Rmult_le_compat_l; lra).
  assert (D1 : d <= w + 5 * u) by lra. assert (B8 : u * d <= u * 6) by (apply Rmult_le_compat_l; lra).
  assert (D2 : ss <= 6) by lra. assert (B9 : u * ss <= u * 6) by (apply Rmult_le_compat_l; lra).
  assert (U1 : u * d <= u * (w + 5 * u)) by (apply Rmult_le_compat_l; lra).
  assert (U2 : u * ss <= u * (w + 35 * u)) by (apply Rmult_le_compat_l; lra).
  assert (U3 : u * (bb + w) <= u * (4 * c + 10 * u)) by (apply Rmult_le_compat_l; lra).
  assert (U4 : u * c <= u * 1) by (apply Rmult_le_compat_l; lra). lra.
Qed.

Lemma complex_out : 1 + 32 * u <= c -> 1 + 9 * u <= x * x + y * y.
Proof.
  intros H. destruct (D_neg Dn) as (Wn & DW). pose proof sn_range as S2. pose proof m1_range as MR. pose proof eta_u as H0. pose proof uu as H1.
  pose proof (sq_down _ _ Hx) as X. pose proof (sq_down _ _ Hy) as Y. clear Hx Hy Hs HD M.
  assert (BB : 0 <= b * b) by apply Rle_0_sqr.
  assert (Ew : exists w, w = 4 * c - m1) by eauto. destruct Ew as (w & Ew). rewrite <- Ew in DW. assert (Wp : 0 < w) by lra. clear Wn.
  replace (- b / 2 * (- b / 2)) with (b * b / 4) in X by field. replace (s / 2 * (s / 2)) with (s * s / 4) in Y by field.
  set (bb := b * b) in *. set (ss := s * s) in *. set (xx := x * x) in *. set (yy := y * y) in *. set (d := - D) in *. clearbody bb ss xx yy d.
  assert (B4 : bb <= (4 + 5 * u) * c).
  { apply Rnot_lt_le. intros L. assert ((1 - u) * ((4 + 5 * u) * c) <= (1 - u) * bb) by (apply Rmult_le_compat_l; lra).
    assert (0 <= u * c * (1 / 2 - 5 * u)) by (apply Rmult_le_pos; [apply Rmult_le_pos|]; lra).
    assert (u <= u * c) by (rewrite <- (Rmult_1_r u) at 1; apply Rmult_le_compat_l; lra). lra. }
  assert (S1 : (1 - 5 * u) * ((1 - u) * w) <= (1 - 5 * u) * d) by (apply Rmult_le_compat_l; lra).
  assert (P0 : 0 <= u * u * w) by (apply Rmult_le_pos; [apply Rle_0_sqr|lra]).
  assert (S3 : (1 - 6 * u) * w <= ss) by lra.
  assert (S4 : (1 - 4 * u) * ((1 - 6 * u) * w) <= (1 - 4 * u) * ss) by (apply Rmult_le_compat_l; lra).
  assert (S5 : (1 - 10 * u) * w <= (1 - 4 * u) * ss) by lra.
  assert (P1 : 0 <= u * bb) by (apply Rmult_le_pos; lra).
  assert (Tt : (1 - 10 * u) * ((bb + w) / 4) - u / 50 <= xx + yy) by lra.
  assert (K2 : u * bb <= u * ((4 + 5 * u) * c)) by (apply Rmult_le_compat_l; lra).
  assert (K6 : u * (u * c) <= u * (1 / 16777216 * c)).
  { apply Rmult_le_compat_l; [lra|]. apply Rmult_le_compat_r; lra. }
  assert (K3 : c * (1 - 2 * u) - u <= (bb + w) / 4) by lra.
  assert (K4 : (1 - 10 * u) * (c * (1 - 2 * u) - u) <= (1 - 10 * u) * ((bb + w) / 4)) by (apply Rmult_le_compat_l; lra).
  assert (K7 : 0 <= u * u * c) by (apply Rmult_le_pos; [apply Rle_0_sqr|lra]).
  assert (K5 : (1 - 12 * u) * (1 + 32 * u) <= (1 - 12 * u) * c) by (apply Rmult_le_compat_l; lra).
  assert (P2 : 0 <= u * u) by apply Rle_0_sqr. lra.
Qed.

(** A computed negative discriminant belongs to a filter with [c >= 0]; real poles far enough
    outside make it positive. *)
Lemma no_real_out : 1 + c + 32 * u <= Rabs b -> 1 + 32 * u <= c.
Proof.
  intros H. destruct (D_neg Dn) as (Wn & _). pose proof m1_range as MR. pose proof eta_u as H0. pose proof uu as H1. clear Hx Hy Hs HD M.
  pose proof (Rabs_pos b) as Bp.
  assert (Qb : b * b = Rabs b * Rabs b) by (rewrite <- Rabs_mult; symmetry; apply Rabs_pos_eq; apply Rle_0_sqr).
  rewrite Qb in *. set (B := Rabs b) in *. clearbody B. clear Qb.
  apply Rnot_lt_le. intros L.
  assert (Q0 : 0 <= B * B) by apply Rle_0_sqr. assert (Q1 : u * (B * B) <= 1 / 2 * (B * B)) by (apply Rmult_le_compat_r; lra).
  destruct (Rle_dec 0 c) as [Cp|Cp].
  - assert (Q2 : (1 + c + 32 * u) * (1 + c + 32 * u) <= B * B) by (apply Rmult_le_compat; lra).
    assert (Q3 : B * B <= 10) by lra. assert (Q4 : u * (B * B) <= u * 10) by (apply Rmult_le_compat_l; lra).
    assert (Q5 : 0 <= (1 - c) * (1 - c)) by apply Rle_0_sqr. assert (Q6 : 0 <= u * c) by (apply Rmult_le_pos; lra).
    assert (Q7 : 0 <= u * u) by apply Rle_0_sqr. lra.
  - apply Rnot_le_lt in Cp. assert (Q2 : 1 / 2 * (1 / 2) <= B * B) by (apply Rmult_le_compat; lra). lra.
Qed.

End Complex.

(** Comparing the computed magnitude with 1. *)
Lemma accept h a : 0 <= h -> h <= 1 - 5 * u -> Rabs (a - h) <= 2 * u * (1 + h) -> a <= 1.
Proof. intros H0 H A. clear E0 M HD. apply Rabs_le_inv in A. nra. Qed.
Lemma reject h a : 1 + 17 / 4 * u <= h -> Rabs (a - h) <= 2 * u * (1 + h) -> 1 < a.
Proof. intros H A. apply Rabs_le_inv in A. pose proof uu. nra. Qed.
Lemma sqrt_in t : t <= 1 - 12 * u -> sqrt t <= 1 - 5 * u.
Proof.
  intros H. pose proof uu. replace (1 - 5 * u) with (sqrt ((1 - 5 * u) * (1 - 5 * u))) by (apply sqrt_square; lra).
  apply sqrt_le_1_alt. nra.
Qed.
Lemma sqrt_out t : 1 + 9 * u <= t -> 1 + 17 / 4 * u <= sqrt t.
Proof.
  intros H. pose proof uu. rewrite <- (sqrt_square (1 + 17 / 4 * u)) by lra. apply sqrt_le_1_alt. nra.
Qed.

End Core.
