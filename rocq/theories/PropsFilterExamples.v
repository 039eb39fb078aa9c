(** * The filters of the desktop programs and what they are said to be (C150, C151) *)

From Coq Require Import Reals ZArith List QArith Qreals Lra Lia Psatz.
From Coquelicot Require Import Complex.
From Verif Require Import Base Scalars Biquad BiquadSpec BiquadProofs Cascade CascadeSpec OnePole Chebyshev FilterPrograms
  PolyPositive ChebyshevProofs PropsBiquad PropsCascade PropsChebyshev PropsOutput PropsFilterPrograms.
Import ListNotations.
Local Open Scope R_scope.

(** ** What a filter is said to be *)

(** The ratio of amplitudes that is [db] decibel. *)
Definition ratio (db : R) : R := Rpower 10 (db / 20).

(** The gains of a response at the normalized frequencies from [lo] to [hi] lie between [least]
    and [most]; the coefficients are given with five to seven digits, so up to 0.0001. *)
Definition gains_within (resp : R -> outcome C) (lo hi least most : R) : Prop :=
  forall f, lo <= f <= hi -> exists h, resp f = Ok h /\ least - 0.0001 <= Cmod h <= most + 0.0001.

(** Octave's cheby1(n,Rp,W), a low pass: the gains in the pass band, up to W/2, reach 0 and -Rp
    decibel and no further, -Rp at its end and, for even n, at 0. *)
Definition is_cheby1_low_pass (resp : R -> outcome C) (Rp W : R) : Prop :=
  gains_within resp 0 (W / 2) (ratio (- Rp)) 1 /\
  gains_within resp 0 0 0 (ratio (- Rp)) /\ gains_within resp (W / 2) (W / 2) 0 (ratio (- Rp)) /\
  exists f, 0 <= f <= W / 2 /\ gains_within resp f f 1 1.

(** Octave's cheby2(n,Rs,W), a low pass: gain 1 at 0 and nowhere more, from W/2 at least Rs
    decibel less, Rs at W/2. *)
Definition is_cheby2_low_pass (resp : R -> outcome C) (Rs W : R) : Prop :=
  gains_within resp 0 0 1 1 /\ gains_within resp 0 (1 / 2) 0 1 /\
  gains_within resp (W / 2) (1 / 2) 0 (ratio (- Rs)) /\ gains_within resp (W / 2) (W / 2) (ratio (- Rs)) 1.

(** ** Gains as quotients of polynomials in cos 2 pi f *)

(** d, b0, b1, b2, a1, a2: the coefficients times d. *)
Definition quint : Type := Z * Z * Z * Z * Z * Z.
Definition sec (q : quint) : biquad R :=
  let '(d, b0, b1, b2, a1, a2) := q in
  section (IZR b0 / IZR d) (IZR b1 / IZR d) (IZR b2 / IZR d) (IZR a1 / IZR d) (IZR a2 / IZR d).
(** |k0 + k1 z + k2 z^2|^2 for |z| = 1. *)
Definition square_poly (k0 k1 k2 : Z) : list Z :=
  [k1 * k1 + (k0 - k2) * (k0 - k2); 2 * k1 * (k0 + k2); 4 * k0 * k2]%Z.
Definition num_poly (q : quint) : list Z := let '(d, b0, b1, b2, a1, a2) := q in square_poly b0 b1 b2.
Definition den_poly (q : quint) : list Z := let '(d, b0, b1, b2, a1, a2) := q in square_poly d a1 a2.
Definition product (ps : list (list Z)) : list Z := fold_right pmul [1%Z] ps.

Lemma square_eval k0 k1 k2 d f : IZR d <> 0 ->
  peval (rp (square_poly k0 k1 k2)) (cos (2 * PI * f))
  = IZR d * IZR d * hom (IZR k0 / IZR d + IZR k1 / IZR d + IZR k2 / IZR d) (2 * (IZR k0 / IZR d - IZR k2 / IZR d))
      (IZR k0 / IZR d - IZR k1 / IZR d + IZR k2 / IZR d) (cos (PI * f)) (sin (PI * f)).
Proof.
  intros Hd. unfold square_poly. cbn [map peval]. rewrite !plus_IZR, !mult_IZR, !plus_IZR, !minus_IZR.
  set (x := IZR k0). set (y := IZR k1). set (z := IZR k2). set (e := IZR d) in *.
  replace (2 * PI * f) with (2 * (PI * f)) by ring. rewrite cos_2a.
  pose proof (sin2_cos2 (PI * f)) as E. unfold Rsqr in E. set (c := cos (PI * f)) in *. set (s := sin (PI * f)) in *.
  assert (Es : s * s = 1 - c * c) by lra. unfold hom.
  replace (e * e * (((x / e + y / e + z / e) * c * c - (x / e - y / e + z / e) * s * s) * ((x / e + y / e + z / e) * c * c - (x / e - y / e + z / e) * s * s)
      + 2 * (x / e - z / e) * c * s * (2 * (x / e - z / e) * c * s)))
    with (((x + y + z) * (c * c) - (x - y + z) * (s * s)) * ((x + y + z) * (c * c) - (x - y + z) * (s * s))
      + 4 * (x - z) * (x - z) * (c * c) * (s * s)) by (field; assumption).
  rewrite Es. ring.
Qed.

Definition stable_q (q : quint) : bool :=
  let '(d, _, _, _, a1, a2) := q in (Z.abs a2 <? d)%Z && (Z.abs a1 <? d + a2)%Z.

Lemma abs_div a d : 0 < d -> Rabs (a / d) = Rabs a / d.
Proof. intros H. unfold Rdiv. rewrite Rabs_mult. f_equal. apply Rabs_pos_eq, Rlt_le, Rinv_0_lt_compat, H. Qed.
Lemma stable_q_ok q : stable_q q = true ->
  (let '(d, _, _, _, _, _) := q in 0 < IZR d) /\ strictly_stable (a1 (bq_a (sec q))) (a2 (bq_a (sec q))).
Proof.
  destruct q as [[[[[d x] y] z] u] v]. cbn. intros H. apply andb_prop in H. destruct H as [H1 H2].
  apply Z.ltb_lt, IZR_lt in H1, H2. rewrite abs_IZR in H1, H2. rewrite plus_IZR in H2.
  assert (D : 0 < IZR d) by (pose proof (Rabs_pos (IZR v)); lra). split; [assumption|].
  apply strict_triangle. rewrite !abs_div by assumption. split.
  - apply (Rmult_lt_reg_r (IZR d)); [assumption|]. unfold Rdiv. rewrite Rmult_assoc, Rinv_l by lra. lra.
  - apply (Rmult_lt_reg_r (IZR d)); [assumption|]. replace (Rabs (IZR u) / IZR d * IZR d) with (Rabs (IZR u)) by (field; lra).
    replace ((1 + IZR v / IZR d) * IZR d) with (IZR d + IZR v) by (field; lra). assumption.
Qed.

Lemma sec_power q f : stable_q q = true ->
  exists h, response (sec q) f = Ok h /\ 0 < peval (rp (den_poly q)) (cos (2 * PI * f)) /\
    Cmod h * Cmod h * peval (rp (den_poly q)) (cos (2 * PI * f)) = peval (rp (num_poly q)) (cos (2 * PI * f)).
Proof.
  intros St. apply stable_q_ok in St. destruct q as [[[[[d x] y] z] u] v]. destruct St as (D & St).
  cbn [sec section bq_a biquad_ba a1 a2] in St.
  destruct (section_power {| b0 := IZR x / IZR d; b1 := IZR y / IZR d; b2 := IZR z / IZR d |}
    {| a1 := IZR u / IZR d; a2 := IZR v / IZR d |} f St) as (P & h & E & S).
  cbn [b0 b1 b2 a1 a2] in *. cbn [num_poly den_poly sec].
  exists h. rewrite !(square_eval _ _ _ d) by lra. replace (IZR d / IZR d) with 1 by (field; lra). split; [exact E|].
  assert (DD : 0 < IZR d * IZR d) by nra. split; [apply Rmult_lt_0_compat; [exact DD|exact P]|]. rewrite S. field. lra.
Qed.

Lemma sections_power (qs : list quint) f : forallb stable_q qs = true ->
  exists hs, Forall2 (fun bq h => response bq f = Ok h) (map sec qs) hs /\
    0 < peval (rp (product (map den_poly qs))) (cos (2 * PI * f)) /\
    Cmod (fold_right Cmult (RtoC 1) hs) * Cmod (fold_right Cmult (RtoC 1) hs) * peval (rp (product (map den_poly qs))) (cos (2 * PI * f))
    = peval (rp (product (map num_poly qs))) (cos (2 * PI * f)).
Proof.
  induction qs as [|q qs IH]; intros H.
  - exists []. split; [constructor|]. cbn. rewrite Cmod_1. lra.
  - cbn [forallb] in H. apply andb_prop in H. destruct H as [Hq H]. destruct (IH H) as (hs & F & P & E).
    destruct (sec_power q f Hq) as (h & Eh & Ph & Sh). exists (h :: hs). split; [now constructor|].
    cbn [map product fold_right]. change (fold_right pmul [1%Z] ?l) with (product l). rewrite !pmul_eval, Cmod_mult.
    split; [now apply Rmult_lt_0_compat|]. rewrite <- Sh, <- E. ring.
Qed.

(** A bound from below and above of a gain, as a computation. *)
Definition positive_between (fuel : nat) (p : list Z) (lo hi : Q) : bool :=
  if (Qden lo =? Qden hi)%positive then positive_on fuel p (Qnum lo) (Qnum hi) (Zpos (Qden lo))
  else positive_on fuel p (Qnum lo * Zpos (Qden hi)) (Qnum hi * Zpos (Qden lo)) (Zpos (Qden lo) * Zpos (Qden hi)).
Definition num2 (q : Q) : Z := (Qnum q * Qnum q)%Z.
Definition den2 (q : Q) : Z := (Zpos (Qden q) * Zpos (Qden q))%Z.
Definition above (fuel : nat) (num den : list Z) (least lo hi : Q) : bool :=
  positive_between fuel (psub (pscale (den2 least) num) (pscale (num2 least) den)) lo hi.
Definition below (fuel : nat) (num den : list Z) (most lo hi : Q) : bool :=
  positive_between fuel (psub (pscale (num2 most) den) (pscale (den2 most) num)) lo hi.

Lemma positive_between_ok fuel p lo hi x : positive_between fuel p lo hi = true -> Q2R lo <= x <= Q2R hi -> 0 < peval (rp p) x.
Proof.
  unfold positive_between, Q2R. intros H Hx.
  assert (P : forall k, 0 < IZR (Zpos k)) by (intros k; apply (IZR_lt 0); reflexivity).
  pose proof (P (Qden lo)) as Pl. pose proof (P (Qden hi)) as Ph.
  destruct (Pos.eqb_spec (Qden lo) (Qden hi)) as [E|E].
  - rewrite <- E in *. exact (positive_on_sound _ _ _ _ _ H ltac:(reflexivity) x Hx).
  - apply (positive_on_sound _ _ _ _ _ H); [reflexivity|]. rewrite !mult_IZR. split.
    + apply Rle_trans with (2 := proj1 Hx). right. field. lra.
    + apply Rle_trans with (1 := proj2 Hx). right. field. lra.
Qed.
Lemma square_Q q : IZR (num2 q) = Q2R q * Q2R q * IZR (den2 q) /\ 0 < IZR (den2 q).
Proof.
  unfold num2, den2, Q2R. rewrite !mult_IZR. assert (P : 0 < IZR (Zpos (Qden q))) by (apply (IZR_lt 0); reflexivity).
  split; [field; lra|now apply Rmult_lt_0_compat].
Qed.

Lemma above_ok fuel num den least lo hi c g : above fuel num den least lo hi = true -> Q2R lo <= c <= Q2R hi ->
  0 <= g -> 0 < peval (rp den) c -> g * g * peval (rp den) c = peval (rp num) c -> Q2R least <= g.
Proof.
  intros H Hc Hg P E. pose proof (positive_between_ok _ _ _ _ c H Hc) as X. destruct (square_Q least) as (Sq & Pd).
  rewrite psub_eval, !pscale_eval, Sq, <- E in X.
  destruct (Rle_dec (Q2R least) g) as [|N]; [assumption|]. exfalso.
  assert (G : g * g <= Q2R least * Q2R least) by (apply Rmult_le_compat; lra).
  apply (Rmult_le_compat_r (IZR (den2 least) * peval (rp den) c)) in G; [lra|]. apply Rmult_le_pos; lra.
Qed.
Lemma below_ok fuel num den most lo hi c g : below fuel num den most lo hi = true -> Q2R lo <= c <= Q2R hi ->
  0 <= Q2R most -> 0 <= g -> 0 < peval (rp den) c -> g * g * peval (rp den) c = peval (rp num) c -> g <= Q2R most.
Proof.
  intros H Hc Hm Hg P E. pose proof (positive_between_ok _ _ _ _ c H Hc) as X. destruct (square_Q most) as (Sq & Pd).
  rewrite psub_eval, !pscale_eval, Sq, <- E in X.
  destruct (Rle_dec g (Q2R most)) as [|N]; [assumption|]. exfalso.
  assert (G : Q2R most * Q2R most <= g * g) by (apply Rmult_le_compat; lra).
  apply (Rmult_le_compat_r (IZR (den2 most) * peval (rp den) c)) in G; [lra|]. apply Rmult_le_pos; lra.
Qed.

(** ** From bounds of polynomials to gains *)

Definition has_power (resp : R -> outcome C) (num den : list Z) : Prop :=
  forall f, exists h, resp f = Ok h /\ 0 < peval (rp den) (cos (2 * PI * f)) /\
    Cmod h * Cmod h * peval (rp den) (cos (2 * PI * f)) = peval (rp num) (cos (2 * PI * f)).

Lemma within_both fuel resp num den lo hi least most l m clo chi : has_power resp num den ->
  (forall f, lo <= f <= hi -> Q2R clo <= cos (2 * PI * f) <= Q2R chi) ->
  above fuel num den l clo chi = true -> below fuel num den m clo chi = true ->
  0 <= Q2R m -> least - 0.0001 <= Q2R l -> Q2R m <= most + 0.0001 -> gains_within resp lo hi least most.
Proof.
  intros P B A U Hm Hl Hu f Hf. destruct (P f) as (h & E & D & S). exists h. split; [assumption|].
  pose proof (Cmod_ge_0 h) as G. specialize (B f Hf).
  pose proof (above_ok _ _ _ _ _ _ _ _ A B G D S). pose proof (below_ok _ _ _ _ _ _ _ _ U B Hm G D S). lra.
Qed.
Lemma within_below fuel resp num den lo hi most m clo chi : has_power resp num den ->
  (forall f, lo <= f <= hi -> Q2R clo <= cos (2 * PI * f) <= Q2R chi) ->
  below fuel num den m clo chi = true -> 0 <= Q2R m -> Q2R m <= most + 0.0001 -> gains_within resp lo hi 0 most.
Proof.
  intros P B U Hm Hu f Hf. destruct (P f) as (h & E & D & S). exists h. split; [assumption|].
  pose proof (Cmod_ge_0 h) as G. specialize (B f Hf).
  pose proof (below_ok _ _ _ _ _ _ _ _ U B Hm G D S). lra.
Qed.

Lemma section_has_power q : stable_q q = true -> has_power (response (sec q)) (num_poly q) (den_poly q).
Proof. intros St f. now apply sec_power. Qed.
Lemma cascade_has_power N cs qs : forallb stable_q qs = true -> length (cs_biquad cs) = N -> shows cs (map sec qs) ->
  has_power (cs_response cs) (product (map num_poly qs)) (product (map den_poly qs)).
Proof.
  intros St L Sh f. destruct (sections_power qs f St) as (hs & F & P & E).
  exists (fold_right Cmult (RtoC 1) hs). split; [|now split]. now apply (C51_response_is_product N cs (map sec qs)).
Qed.

(** *** Cosines *)

Lemma cos_between lo hi f : 0 <= lo -> hi <= 1 / 2 -> lo <= f <= hi ->
  cos (2 * PI * hi) <= cos (2 * PI * f) <= cos (2 * PI * lo).
Proof.
  intros H1 H2 Hf. pose proof PI_RGT_0. split; apply cos_decr_1; nra.
Qed.

Lemma cos_0' : cos (2 * PI * 0) = 1. Proof. rewrite Rmult_0_r. apply cos_0. Qed.
Lemma cos_half : cos (2 * PI * (1 / 2)) = -1.
Proof. replace (2 * PI * (1 / 2)) with PI by lra. apply cos_PI. Qed.

(** cos 2pi/5 *)
Lemma cos_72 : 0.30901699 <= cos (2 * PI * (0.4 / 2)) <= 0.30901700.
Proof.
  replace (2 * PI * (0.4 / 2)) with (2 * PI / 5) by lra. set (x := 2 * PI / 5). pose proof PI_RGT_0.
  assert (E : cos (3 * x) = cos (2 * x)). { replace (3 * x) with (2 * PI - 2 * x) by (unfold x; lra).
    rewrite cos_minus, cos_2PI, sin_2PI. ring. }
  replace (3 * x) with (2 * x + x) in E by ring. rewrite cos_plus, cos_2a_cos, sin_2a in E.
  pose proof (sin2_cos2 x) as Q. unfold Rsqr in Q. set (c := cos x) in *. set (s := sin x) in *.
  assert (P : 0 < c) by (apply cos_gt_0; unfold x; lra).
  assert (L : c < 1). { unfold c. rewrite <- cos_0. apply cos_decreasing_1; unfold x; lra. }
  assert (F : (c - 1) * (4 * c * c + 2 * c - 1) = 0).
  { replace (2 * s * c * s) with (2 * c * (s * s)) in E by ring. replace (s * s) with (1 - c * c) in E by lra. nra. }
  apply Rmult_integral in F. destruct F; [lra|]. split; nra.
Qed.
(** cos 3pi/10 *)
Lemma cos_54 : 0.58778524 <= cos (2 * PI * 0.15) <= 0.58778526.
Proof.
  pose proof PI_RGT_0. pose proof cos_72 as B. replace (2 * PI * (0.4 / 2)) with (2 * (PI / 5)) in B by lra.
  rewrite cos_2a_sin in B. replace (2 * PI * 0.15) with (PI / 2 - PI / 5) by lra. rewrite cos_shift.
  assert (0 < sin (PI / 5)) by (apply sin_gt_0; lra). set (s := sin (PI / 5)) in *. split; nra.
Qed.
(** cos 3pi/5 *)
Lemma cos_108 : -0.30901700 <= cos (2 * PI * 0.3) <= -0.30901699.
Proof.
  replace (2 * PI * 0.3) with (- (2 * PI * (0.4 / 2)) + PI) by lra. rewrite neg_cos, cos_neg. pose proof cos_72. lra.
Qed.
Lemma cos_45 : 0.70710678 <= cos (2 * PI * 0.125) <= 0.70710679.
Proof.
  replace (2 * PI * 0.125) with (PI / 4) by lra. rewrite cos_PI4.
  assert (0 < sqrt 2) by (apply sqrt_lt_R0; lra). pose proof (sqrt_sqrt 2 ltac:(lra)) as S. set (r := sqrt 2) in *.
  assert (H1 : 1.41421356 <= r <= 1.41421357) by (split; nra).
  replace (1 / r) with (r / 2); [lra|]. apply (Rmult_eq_reg_r r); [|lra]. field_simplify; [|lra]. nra.
Qed.
(** cos 13pi/20 *)
Lemma cos_117 : -0.45399051 <= cos (2 * PI * 0.325) <= -0.45399049.
Proof.
  pose proof PI_RGT_0. pose proof cos_54 as B. replace (2 * PI * 0.15) with (2 * (3 * PI / 20)) in B by lra.
  rewrite cos_2a_sin in B. replace (2 * PI * 0.325) with (PI / 2 + 3 * PI / 20) by lra. rewrite cos_plus, cos_PI2, sin_PI2.
  assert (0 < sin (3 * PI / 20)) by (apply sin_gt_0; lra). set (s := sin (3 * PI / 20)) in *. split; nra.
Qed.

(** *** Decibels *)

Lemma ratio_bounds (k : nat) l m : 0 <= l -> 0 <= m -> l ^ 20 * 10 ^ k < 1 -> 1 < m ^ 20 * 10 ^ k -> l <= ratio (- INR k) <= m.
Proof.
  intros Hl Hm H1 H2. assert (T : 0 < 10 ^ k) by (apply pow_lt; lra). set (x := ratio (- INR k)).
  assert (Px : 0 < x) by (apply exp_pos).
  assert (X : x ^ 20 * 10 ^ k = 1).
  { unfold x, ratio. rewrite <- Rpower_pow by apply exp_pos. rewrite Rpower_mult.
    replace (- INR k / 20 * INR 20) with (- INR k) by (cbn [INR]; field). rewrite Rpower_Ropp, Rpower_pow by lra. field. lra. }
  split.
  - destruct (Rle_dec l x) as [|N]; [assumption|]. exfalso. assert (x ^ 20 <= l ^ 20) by (apply pow_incr; lra). nra.
  - destruct (Rle_dec x m) as [|N]; [assumption|]. exfalso. assert (m ^ 20 <= x ^ 20) by (apply pow_incr; lra). nra.
Qed.
Lemma ratio_3 : 0.70794 <= ratio (- (3)) <= 0.70795.
Proof. replace (- (3)) with (- INR 3) by (cbn; lra). apply ratio_bounds; try lra. Qed.
Lemma ratio_1 : 0.89125 <= ratio (- (1)) <= 0.89126.
Proof. replace (- (1)) with (- INR 1) by (cbn; lra). apply ratio_bounds; try lra. Qed.
Lemma ratio_10 : 0.31622 <= ratio (- (10)) <= 0.31623.
Proof. replace (- (10)) with (- INR 10) by (cbn; lra). apply ratio_bounds; try lra. Qed.
Lemma ratio_20 : ratio (- (20)) = 0.1.
Proof. unfold ratio. replace (- (20) / 20) with (- (1)) by field. rewrite Rpower_Ropp, Rpower_1; lra. Qed.

(** ** C150: the filters of biquad.e.cpp, biquad-cascade.e.cpp and onepole.e.cpp *)

Lemma section_eq b0 b1 b2 a1 a2 b0' b1' b2' a1' a2' : b0 = b0' -> b1 = b1' -> b2 = b2' -> a1 = a1' -> a2 = a2' ->
  section b0 b1 b2 a1 a2 = section b0' b1' b2' a1' a2'.
Proof. now intros -> -> -> -> ->. Qed.
Ltac literal := unfold Q2R in *; cbn [Qnum Qden] in *; lra.
Ltac sections_literal qs := unfold qs; cbn [map sec]; repeat (apply cons_eq; [apply section_eq; literal|]); reflexivity.

Definition q_cheby1 : quint := (100000, 14361, 28721, 14361, -67993, 49133)%Z.
Definition q_cheby2 : quint := (1000000, 323496, 17539, 323496, -662990, 327520)%Z.
Definition qs_cheby1 : list quint :=
  [(10000000, 25892, 51937, 26045, -5913597, 8879900);
   (10000000, 10000000, 19999693, 9999809, -9156187, 6796728);
   (10000000, 10000000, 19941195, 9941310, -13316440, 5193180)]%Z.
Definition qs_cheby2 : list quint :=
  [(1000000, 158682, 245885, 158682, 239123, 84944);
   (1000000, 1000000, 54217, 1000000, -264548, 416971);
   (1000000, 1000000, -554665, 1000000, -701098, 797053)]%Z.

Lemma power_1 : has_power (response biquad_cheby1) (num_poly q_cheby1) (den_poly q_cheby1).
Proof. replace biquad_cheby1 with (sec q_cheby1); [now apply section_has_power|]. apply section_eq; literal. Qed.
Lemma power_2 : has_power (response biquad_cheby2) (num_poly q_cheby2) (den_poly q_cheby2).
Proof. replace biquad_cheby2 with (sec q_cheby2); [now apply section_has_power|]. apply section_eq; literal. Qed.
Lemma power_of_list cs l qs : cs = cascade_of R_scalar 7 l -> l = map sec qs -> (length qs <= 7)%nat -> forallb stable_q qs = true ->
  has_power (cs_response cs) (product (map num_poly qs)) (product (map den_poly qs)).
Proof.
  intros -> -> H St. destruct (C47_construction R R_scalar 7 (map sec qs)) as (Sh & L); [now rewrite map_length|].
  now apply (cascade_has_power 7).
Qed.
Lemma power_cs1 : has_power (cs_response cascade_cheby1) (product (map num_poly qs_cheby1)) (product (map den_poly qs_cheby1)).
Proof. eapply power_of_list; [reflexivity|sections_literal qs_cheby1|cbn; lia|reflexivity]. Qed.
Lemma power_cs2 : has_power (cs_response cascade_cheby2) (product (map num_poly qs_cheby2)) (product (map den_poly qs_cheby2)).
Proof. eapply power_of_list; [reflexivity|sections_literal qs_cheby2|cbn; lia|reflexivity]. Qed.

Definition c72_lo : Q := 30901699 # 100000000.
Definition c72_hi : Q := 30901700 # 100000000.

Lemma at_0 f : 0 <= f <= 0 -> Q2R 1 <= cos (2 * PI * f) <= Q2R 1.
Proof. intros H. replace f with 0 by lra. rewrite cos_0'. literal. Qed.
Lemma at_72 f : 0.4 / 2 <= f <= 0.4 / 2 -> Q2R c72_lo <= cos (2 * PI * f) <= Q2R c72_hi.
Proof. intros H. replace f with (0.4 / 2) by lra. pose proof cos_72. unfold c72_lo, c72_hi. literal. Qed.
Lemma to_72 f : 0 <= f <= 0.4 / 2 -> Q2R c72_lo <= cos (2 * PI * f) <= Q2R 1.
Proof.
  intros H. pose proof cos_72. pose proof (cos_between 0 (0.4 / 2) f ltac:(lra) ltac:(lra) H) as B. rewrite cos_0' in B.
  unfold c72_lo. literal.
Qed.
Lemma from_72 f : 0.4 / 2 <= f <= 1 / 2 -> Q2R (-1) <= cos (2 * PI * f) <= Q2R c72_hi.
Proof.
  intros H. pose proof cos_72. pose proof (cos_between (0.4 / 2) (1 / 2) f ltac:(lra) ltac:(lra) H) as B. rewrite cos_half in B.
  unfold c72_hi. literal.
Qed.
Lemma everywhere f : 0 <= f <= 1 / 2 -> Q2R (-1) <= cos (2 * PI * f) <= Q2R 1.
Proof. intros _. pose proof (COS_bound (2 * PI * f)). literal. Qed.

(** A frequency in the pass band with a given cosine. *)
Lemma inside c0 : 0.30901700 < c0 <= 1 -> exists f, 0 <= f <= 0.4 / 2 /\ cos (2 * PI * f) = c0.
Proof.
  intros H. pose proof PI_RGT_0. exists (acos c0 / (2 * PI)).
  pose proof (acos_bound c0) as B. pose proof (cos_acos c0 ltac:(lra)) as E.
  assert (E2 : 2 * PI * (acos c0 / (2 * PI)) = acos c0) by (field; lra). rewrite E2. split; [|assumption].
  split.
  - apply Rmult_le_pos; [lra|]. apply Rlt_le, Rinv_0_lt_compat. lra.
  - destruct (Rle_dec (acos c0) (2 * PI * (0.4 / 2))) as [L|N].
    + apply (Rmult_le_reg_l (2 * PI)); [lra|]. rewrite E2. exact L.
    + exfalso. pose proof cos_72. assert (cos (acos c0) < cos (2 * PI * (0.4 / 2))) by (apply cos_decreasing_1; lra). lra.
Qed.

Theorem C150_biquad_cheby1 : is_cheby1_low_pass (response biquad_cheby1) 3 0.4.
Proof.
  pose proof ratio_3. split; [|split; [|split]].
  - eapply (within_both 20 _ _ _ _ _ _ _ (7079 # 10000) (10001 # 10000) _ _ power_1 to_72); try (vm_compute; reflexivity); literal.
  - eapply (within_below 20 _ _ _ _ _ _ (7080 # 10000) _ _ power_1 at_0); try (vm_compute; reflexivity); literal.
  - eapply (within_below 20 _ _ _ _ _ _ (7080 # 10000) _ _ power_1 at_72); try (vm_compute; reflexivity); literal.
  - destruct (inside (Q2R (582363 # 1000000)) ltac:(literal)) as (f & Hf & E). exists f. split; [assumption|].
    eapply (within_both 20 _ _ _ _ _ _ _ (9999 # 10000) (10001 # 10000) (582363 # 1000000) (582363 # 1000000) power_1);
      try (vm_compute; reflexivity); try literal.
    intros g Hg. replace g with f by lra. rewrite E. lra.
Qed.
Print Assumptions C150_biquad_cheby1.

Theorem C150_biquad_cheby2 : is_cheby2_low_pass (response biquad_cheby2) 10 0.4.
Proof.
  pose proof ratio_10. split; [|split; [|split]].
  - eapply (within_both 20 _ _ _ _ _ _ _ (9999 # 10000) (10001 # 10000) _ _ power_2 at_0); try (vm_compute; reflexivity); literal.
  - eapply (within_below 20 _ _ _ _ _ _ (10001 # 10000) _ _ power_2 everywhere); try (vm_compute; reflexivity); literal.
  - eapply (within_below 20 _ _ _ _ _ _ (3163 # 10000) _ _ power_2 from_72); try (vm_compute; reflexivity); literal.
  - eapply (within_both 20 _ _ _ _ _ _ _ (31617 # 100000) (10001 # 10000) _ _ power_2 at_72); try (vm_compute; reflexivity); literal.
Qed.
Print Assumptions C150_biquad_cheby2.

Theorem C150_cascade_cheby2 : is_cheby2_low_pass (cs_response cascade_cheby2) 20 0.4.
Proof.
  unfold is_cheby2_low_pass. rewrite ratio_20. split; [|split; [|split]].
  - eapply (within_both 20 _ _ _ _ _ _ _ (9999 # 10000) (10001 # 10000) _ _ power_cs2 at_0); try (vm_compute; reflexivity); literal.
  - eapply (within_below 20 _ _ _ _ _ _ (10001 # 10000) _ _ power_cs2 everywhere); try (vm_compute; reflexivity); literal.
  - eapply (within_below 20 _ _ _ _ _ _ (1001 # 10000) _ _ power_cs2 from_72); try (vm_compute; reflexivity); literal.
  - eapply (within_both 20 _ _ _ _ _ _ _ (999 # 10000) (10001 # 10000) _ _ power_cs2 at_72); try (vm_compute; reflexivity); literal.
Qed.
Print Assumptions C150_cascade_cheby2.

(** The first cascade of biquad-cascade.e.cpp is said to be cheby1(6,3,0.4); it is
    cheby1(6,1,0.4). *)
Theorem C150_cascade_cheby1_refuted :
  ~ is_cheby1_low_pass (cs_response cascade_cheby1) 3 0.4 /\ is_cheby1_low_pass (cs_response cascade_cheby1) 1 0.4.
Proof.
  pose proof ratio_3 as R3. pose proof ratio_1 as R1.
  assert (B : gains_within (cs_response cascade_cheby1) 0 (0.4 / 2) (ratio (- (1))) 1).
  { eapply (within_both 20 _ _ _ _ _ _ _ (8912 # 10000) (10001 # 10000) _ _ power_cs1 to_72); try (vm_compute; reflexivity); literal. }
  split.
  - intros (_ & H & _). destruct (H 0 ltac:(lra)) as (h & E & L). destruct (B 0 ltac:(lra)) as (h' & E' & L').
    rewrite E in E'. injection E' as <-. lra.
  - split; [exact B|]. split; [|split].
    + eapply (within_below 20 _ _ _ _ _ _ (89131 # 100000) _ _ power_cs1 at_0); try (vm_compute; reflexivity); literal.
    + eapply (within_below 20 _ _ _ _ _ _ (89131 # 100000) _ _ power_cs1 at_72); try (vm_compute; reflexivity); literal.
    + destruct (inside (Q2R (340028 # 1000000)) ltac:(literal)) as (f & Hf & E). exists f. split; [assumption|].
      eapply (within_both 20 _ _ _ _ _ _ _ (9999 # 10000) (10001 # 10000) (340028 # 1000000) (340028 # 1000000) power_cs1);
        try (vm_compute; reflexivity); try literal.
      intros g Hg. replace g with f by lra. rewrite E. lra.
Qed.
Print Assumptions C150_cascade_cheby1_refuted.

(** The sections are strictly stable: what the programs' filters do with a bounded signal is
    bounded (C90), and their gains are those of sinusoids (C89, C91). *)
Theorem C150_stable :
  (forall bq, In bq [biquad_cheby1; biquad_cheby2] -> strictly_stable (a1 (bq_a bq)) (a2 (bq_a bq))) /\
  (forall cs, In cs [cascade_cheby1; cascade_cheby2] -> exists l, length (cs_biquad cs) = 7%nat /\ length l = 3%nat /\
     shows cs l /\ all_strictly_stable l).
Proof.
  split.
  - intros bq [<-|[<-|[]]]; apply strict_triangle; cbn; split; split_Rabs; lra.
  - intros cs [<-|[<-|[]]]; (eexists; split; [reflexivity|]; split; [|split; [apply (C47_construction R R_scalar 7); cbn; lia|]];
      [reflexivity|]); repeat constructor; cbn; apply strict_triangle; split; split_Rabs; lra.
Qed.
Print Assumptions C150_stable.

(** The one-pole filters: a low pass and a high pass, with gain 1 at the end of the pass band
    and 1/39 at the other end, strictly monotonic between; mirror images of each other. *)
Lemma onepole_power b a f : Rabs a < 1 -> exists h, op_response (op_of_ba R_scalar b a) f = Ok h /\
  0 < 1 + a * a + 2 * a * cos (2 * PI * f) /\
  Cmod h * Cmod h * (1 + a * a + 2 * a * cos (2 * PI * f)) = b * b.
Proof.
  intros Ha. unfold op_response, op_of_ba. cbn [op_a1 op_b0]. set (w := 2 * PI * f).
  set (d := Cplus (RtoC 1) (Cmult (RtoC a) (polar 1 (- w)))).
  assert (N : Cmod d * Cmod d = 1 + a * a + 2 * a * cos w).
  { rewrite <- Cmod_sq || idtac. unfold Cmod. rewrite sqrt_sqrt by (unfold d; nra).
    unfold d, Cplus, Cmult, RtoC, polar. cbn [fst snd]. rewrite cos_neg, sin_neg.
    pose proof (sin2_cos2 w) as Q. unfold Rsqr in Q.
    replace (1 + a * a + 2 * a * cos w) with (1 + a * a * (sin w * sin w + cos w * cos w) + 2 * a * cos w) by (rewrite Q; ring). ring. }
  assert (P : 0 < 1 + a * a + 2 * a * cos w).
  { pose proof (COS_bound w). apply Rabs_def2 in Ha.
    assert (0 < (1 - a) * (1 - a)) by nra. assert (0 < (1 + a) * (1 + a)) by nra.
    destruct (Rle_dec 0 a); nra. }
  destruct (Ceq_dec d (RtoC 0)) as [X|X].
  { exfalso. rewrite X, Cmod_0 in N. lra. }
  eexists. split; [reflexivity|]. split; [assumption|]. rewrite Cmod_div by assumption. rewrite <- N.
  assert (D : Cmod d <> 0). { intros Z. apply Cmod_eq_0 in Z. contradiction. }
  rewrite Cmod_R. replace (Rabs b / Cmod d * (Rabs b / Cmod d) * (Cmod d * Cmod d)) with (Rabs b * Rabs b) by (field; assumption).
  unfold Rabs. destruct (Rcase_abs b); ring.
Qed.

Theorem C150_onepole :
  op_response onepole_low 0 = Ok (RtoC 1) /\ op_response onepole_high (1 / 2) = Ok (RtoC 1) /\
  op_response onepole_low (1 / 2) = Ok (RtoC (1 / 39)) /\ op_response onepole_high 0 = Ok (RtoC (1 / 39)) /\
  (forall f f', 0 <= f -> f < f' -> f' <= 1 / 2 -> exists h h', op_response onepole_low f = Ok h /\
     op_response onepole_low f' = Ok h' /\ Cmod h' < Cmod h) /\
  (forall f, exists h h', op_response onepole_low f = Ok h /\ op_response onepole_high (1 / 2 - f) = Ok h' /\ Cmod h' = Cmod h).
Proof.
  assert (V : forall b a w c s g, polar 1 (- (2 * PI * w)) = (c, s) -> s = 0 -> 1 + a * c <> 0 -> b = g * (1 + a * c) ->
    op_response (op_of_ba R_scalar b a) w = Ok (RtoC g)).
  { intros b a w c s g Ep -> N Eb. unfold op_response, op_of_ba. cbn [op_a1 op_b0]. rewrite Ep.
    assert (Ed : Cplus (RtoC 1) (Cmult (RtoC a) (c, 0)) = RtoC (1 + a * c)).
    { unfold Cplus, Cmult, RtoC. cbn [fst snd]. f_equal; ring. }
    rewrite Ed. destruct (Ceq_dec _ _) as [X|_]; [injection X; lra|]. f_equal. rewrite Eb, RtoC_mult.
    field. intros X. injection X. lra. }
  assert (P0 : polar 1 (- (2 * PI * 0)) = (1, 0)).
  { unfold polar. rewrite Rmult_0_r, Ropp_0, cos_0, sin_0. f_equal; ring. }
  assert (P1 : polar 1 (- (2 * PI * (1 / 2))) = (-1, 0)).
  { unfold polar. replace (2 * PI * (1 / 2)) with PI by field. rewrite cos_neg, sin_neg, cos_PI, sin_PI. f_equal; ring. }
  assert (A1 : Rabs (- 0.95) < 1) by (split_Rabs; lra). assert (A2 : Rabs 0.95 < 1) by (split_Rabs; lra).
  split; [|split; [|split; [|split; [|split]]]].
  - eapply V; [exact P0|reflexivity|lra|lra].
  - eapply V; [exact P1|reflexivity|lra|lra].
  - eapply V; [exact P1|reflexivity|lra|lra].
  - eapply V; [exact P0|reflexivity|lra|lra].
  - intros f f' H1 H2 H3. destruct (onepole_power 0.05 (-0.95) f A1) as (h & E & P & S).
    destruct (onepole_power 0.05 (-0.95) f' A1) as (h' & E' & P' & S'). exists h, h'. split; [exact E|]. split; [exact E'|].
    pose proof PI_RGT_0. assert (Cs : cos (2 * PI * f') < cos (2 * PI * f)) by (apply cos_decreasing_1; nra).
    pose proof (Cmod_ge_0 h) as G. pose proof (Cmod_ge_0 h') as G'.
    set (d := 1 + -0.95 * -0.95 + 2 * -0.95 * cos (2 * PI * f)) in *.
    set (d' := 1 + -0.95 * -0.95 + 2 * -0.95 * cos (2 * PI * f')) in *.
    assert (D : d < d') by (unfold d, d'; lra).
    destruct (Rlt_dec (Cmod h') (Cmod h)) as [|N]; [assumption|]. exfalso.
    assert (M : Cmod h * Cmod h <= Cmod h' * Cmod h') by (apply Rmult_le_compat; lra).
    assert (0 < Cmod h * Cmod h). { destruct (Req_dec (Cmod h) 0) as [Z|Z]; [rewrite Z in S; lra|nra]. }
    assert (Cmod h * Cmod h * d < Cmod h * Cmod h * d') by (apply Rmult_lt_compat_l; lra).
    assert (Cmod h * Cmod h * d' <= Cmod h' * Cmod h' * d') by (apply Rmult_le_compat_r; lra). lra.
  - intros f. destruct (onepole_power 0.05 (-0.95) f A1) as (h & E & P & S).
    destruct (onepole_power 0.05 0.95 (1 / 2 - f) A2) as (h' & E' & P' & S'). exists h, h'. split; [exact E|]. split; [exact E'|].
    assert (Cs : cos (2 * PI * (1 / 2 - f)) = - cos (2 * PI * f)).
    { replace (2 * PI * (1 / 2 - f)) with (- (2 * PI * f) + PI) by field. now rewrite neg_cos, cos_neg. }
    rewrite Cs in *. set (d := 1 + -0.95 * -0.95 + 2 * -0.95 * cos (2 * PI * f)) in *.
    replace (1 + 0.95 * 0.95 + 2 * 0.95 * - cos (2 * PI * f)) with d in * by (unfold d; lra).
    assert (Q : Cmod h' * Cmod h' = Cmod h * Cmod h) by (apply (Rmult_eq_reg_r d); lra).
    apply Rsqr_inj; [apply Cmod_ge_0|apply Cmod_ge_0|exact Q].
Qed.
Print Assumptions C150_onepole.

(** ** C151: the cascade that is printed for the band designs *)

Definition qs_band : list quint :=
  [(100, 95, 0, 0, 0, 0);
   (100000, 81607, -117714, 81607, -125009, 92530); (100000, 40166, -71712, 40166, -81244, 61293);
   (100000, 81607, 77782, 81607, 69654, 90931); (100000, 40166, 62596, 40166, 25300, 56966)]%Z.
Lemma power_band asserts cs : band_cascade asserts = Ok cs ->
  has_power (cs_response cs) (product (map num_poly qs_band)) (product (map den_poly qs_band)).
Proof.
  intros E. destruct (band_ok asserts) as (cs' & E' & Sh & L). rewrite E in E'. injection E' as <-.
  apply (cascade_has_power 7); [reflexivity|assumption|].
  replace (map sec qs_band) with band_sections; [assumption|]. unfold band_sections. sections_literal qs_band.
Qed.

Lemma band_pass_cos f : 3 / 20 <= f <= 6 / 20 -> Q2R (-30901700 # 100000000) <= cos (2 * PI * f) <= Q2R (58778526 # 100000000).
Proof.
  intros H. pose proof cos_54. pose proof cos_108. pose proof (cos_between 0.15 0.3 f ltac:(lra) ltac:(lra) ltac:(lra)). literal.
Qed.
Lemma band_low_cos f : 0 <= f <= 2.5 / 20 -> Q2R (70710678 # 100000000) <= cos (2 * PI * f) <= Q2R 1.
Proof.
  intros H. pose proof cos_45. pose proof (cos_between 0 0.125 f ltac:(lra) ltac:(lra) ltac:(lra)) as B. rewrite cos_0' in B. literal.
Qed.
Lemma band_high_cos f : 6.5 / 20 <= f <= 1 / 2 -> Q2R (-1) <= cos (2 * PI * f) <= Q2R (-45399049 # 100000000).
Proof.
  intros H. pose proof cos_117. pose proof (cos_between 0.325 (1 / 2) f ltac:(lra) ltac:(lra) ltac:(lra)) as B. rewrite cos_half in B. literal.
Qed.

(** It is the band pass of the comment above it (chebyshev-design.e.cpp:113-141): gain at least
    0.95 from 3 to 6, at most 0.05 up to 2.5 and from 6.5, for 20 samples per unit of time. *)
Theorem C151_band_pass : forall asserts, exists cs, band_cascade asserts = Ok cs /\
  gains_within (cs_response cs) (3 / 20) (6 / 20) 0.95 1 /\
  gains_within (cs_response cs) 0 (2.5 / 20) 0 0.05 /\
  gains_within (cs_response cs) (6.5 / 20) (1 / 2) 0 0.05.
Proof.
  intros asserts. destruct (band_ok asserts) as (cs & E & _). exists cs. split; [assumption|].
  pose proof (power_band asserts cs E) as P. split; [|split].
  - eapply (within_both 20 _ _ _ _ _ _ _ (9499 # 10000) (10001 # 10000) _ _ P band_pass_cos); try (vm_compute; reflexivity); literal.
  - eapply (within_below 20 _ _ _ _ _ _ (501 # 10000) _ _ P band_low_cos); try (vm_compute; reflexivity); literal.
  - eapply (within_below 20 _ _ _ _ _ _ (501 # 10000) _ _ P band_high_cos); try (vm_compute; reflexivity); literal.
Qed.
Print Assumptions C151_band_pass.

(** It is printed as the design chebyshev2_bs( 100, 15, 35, 20, 30, 1, 10 ) of
    chebyshev-design.e.cpp:217, which asks for at least 10 decibel less from 20 to 30 and at
    most 1 less up to 15 and from 35, for 100 samples per unit of time; it is neither that nor
    the cascade of the coefficients printed above it, which changes nothing (C98). *)
Theorem C151_band_stop_refuted : forall asserts, exists cs, band_cascade asserts = Ok cs /\
  ~ gains_within (cs_response cs) (20 / 100) (30 / 100) 0 (ratio (- (10))) /\
  ~ gains_within (cs_response cs) 0 (15 / 100) (ratio (- (1))) 1 /\
  ~ gains_within (cs_response cs) (35 / 100) (1 / 2) (ratio (- (1))) 1 /\
  exists c cs', chebyshev2_bs asserts 100 15 35 20 30 1 10 = Ok c /\ make_biquad_cascade asserts 7 c = Ok cs' /\
    (forall f, cs_response cs' f = Ok (RtoC 1)) /\
    exists f h, 0 <= f <= 1 / 2 /\ cs_response cs f = Ok h /\ Cmod h <= 0.0501.
Proof.
  intros asserts. destruct (C151_band_pass asserts) as (cs & E & P & L & U). exists cs. split; [assumption|].
  pose proof ratio_10 as R10. pose proof ratio_1 as R1.
  destruct (P (1 / 4) ltac:(lra)) as (h & Eh & Bh). destruct (L 0 ltac:(lra)) as (h0 & E0 & B0).
  destruct (U (1 / 2) ltac:(lra)) as (h1 & E1 & B1).
  split; [|split; [|split]].
  - intros X. destruct (X (1 / 4) ltac:(lra)) as (h' & E' & B'). rewrite Eh in E'. injection E' as <-. lra.
  - intros X. destruct (X 0 ltac:(lra)) as (h' & E' & B'). rewrite E0 in E'. injection E' as <-. lra.
  - intros X. destruct (X (1 / 2) ltac:(lra)) as (h' & E' & B'). rewrite E1 in E'. injection E' as <-. lra.
  - destruct (C98_band_stop_is_identity asserts 100 15 35 20 30 1 10 ltac:(lra) ltac:(lra)) as (c & Ec & _ & H).
    destruct (H 7%nat) as (cs' & E' & I & _). exists c, cs'. split; [assumption|]. split; [assumption|]. split; [assumption|].
    exists 0, h0. split; [lra|]. split; [assumption|]. lra.
Qed.
Print Assumptions C151_band_stop_refuted.

(** ** Cases *)

(** Ten cycles in a hundred samples pass; thirty do not. *)
Example C150_case :
  (exists h, response biquad_cheby1 (10 / 100) = Ok h /\ 0.7 < Cmod h) /\
  (exists h, cs_response cascade_cheby2 (30 / 100) = Ok h /\ Cmod h < 0.11).
Proof.
  pose proof ratio_3. split.
  - destruct C150_biquad_cheby1 as (B & _). destruct (B (10 / 100)) as (h & E & L); [lra|]. exists h. split; [assumption|]. lra.
  - destruct C150_cascade_cheby2 as (_ & _ & B & _). destruct (B (30 / 100)) as (h & E & L); [lra|].
    rewrite ratio_20 in L. exists h. split; [assumption|]. lra.
Qed.

Example C150_onepole_case : exists h h', op_response onepole_low (1 / 10) = Ok h /\ op_response onepole_low (2 / 10) = Ok h' /\ Cmod h' < Cmod h.
Proof. apply C150_onepole; lra. Qed.

(** In the middle of what is said to be stopped almost everything passes. *)
Example C151_case : exists cs h, band_cascade true = Ok cs /\ cs_response cs (25 / 100) = Ok h /\ 0.94 < Cmod h.
Proof.
  destruct (C151_band_pass true) as (cs & E & P & _). destruct (P (25 / 100)) as (h & Eh & B); [lra|].
  exists cs, h. split; [assumption|]. split; [assumption|]. lra.
Qed.
