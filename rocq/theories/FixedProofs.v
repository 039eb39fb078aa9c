(** * Proofs about the fixed-point model *)

From Coq Require Import ZArith Reals List Lia Lra Psatz Bool.
From Verif Require Import Base Scalars FixedPoint FixedSpec.
Local Open Scope Z_scope.

Lemma chk_in w v : - 2 ^ (w - 1) <= v < 2 ^ (w - 1) -> chk w v = Ok v.
Proof.
  intros H. unfold chk.
  destruct (Z.leb_spec (- 2 ^ (w - 1)) v); [|lia].
  destruct (Z.ltb_spec v (2 ^ (w - 1))); [reflexivity|lia].
Qed.

Lemma chk_out w v : ~ (- 2 ^ (w - 1) <= v < 2 ^ (w - 1)) -> chk w v = Err SignedOverflow.
Proof.
  intros H. unfold chk.
  destruct (Z.leb_spec (- 2 ^ (w - 1)) v); [|reflexivity].
  destruct (Z.ltb_spec v (2 ^ (w - 1))); [lia|reflexivity].
Qed.

Lemma chk_Ok w v r : chk w v = Ok r -> r = v /\ - 2 ^ (w - 1) <= v < 2 ^ (w - 1).
Proof.
  unfold chk. destruct (Z.leb_spec (- 2 ^ (w - 1)) v); [|discriminate].
  destruct (Z.ltb_spec v (2 ^ (w - 1))); [|discriminate]. intros [= <-]. lia.
Qed.

Lemma pow2_half w : 0 < w -> 2 ^ w = 2 * 2 ^ (w - 1).
Proof.
  intros H. replace w with (Z.succ (w - 1)) at 1 by lia.
  rewrite Z.pow_succ_r by lia. reflexivity.
Qed.

Lemma wrap_range w v : 0 < w -> - 2 ^ (w - 1) <= wrap w v < 2 ^ (w - 1).
Proof.
  intros H. unfold wrap. pose proof (pow2_half w H).
  assert (0 < 2 ^ (w - 1)) by (apply Z.pow_pos_nonneg; lia).
  pose proof (Z.mod_pos_bound (v + 2 ^ (w - 1)) (2 ^ w)). lia.
Qed.

Lemma wrap_id w v : 0 < w -> - 2 ^ (w - 1) <= v < 2 ^ (w - 1) -> wrap w v = v.
Proof.
  intros H R. unfold wrap. pose proof (pow2_half w H).
  rewrite Z.mod_small by lia. lia.
Qed.

Lemma wrap_mod w v : 0 < w -> exists k, wrap w v = v + k * 2 ^ w.
Proof.
  intros H. unfold wrap.
  assert (0 < 2 ^ w) by (apply Z.pow_pos_nonneg; lia).
  exists (- ((v + 2 ^ (w - 1)) / 2 ^ w)).
  pose proof (Z.div_mod (v + 2 ^ (w - 1)) (2 ^ w)). nia.
Qed.

Lemma wrap_unique w v r k :
  0 < w -> - 2 ^ (w - 1) <= r < 2 ^ (w - 1) -> r = v + k * 2 ^ w -> wrap w v = r.
Proof.
  intros H R E. unfold wrap. pose proof (pow2_half w H).
  replace (v + 2 ^ (w - 1)) with (r + 2 ^ (w - 1) + (- k) * 2 ^ w) by lia.
  rewrite Z.mod_add by lia. rewrite Z.mod_small by lia. lia.
Qed.

Lemma wrap_add_wrap w a b : 0 < w -> wrap w (wrap w a + b) = wrap w (a + b).
Proof.
  intros H. destruct (wrap_mod w a H) as [k Ek]. destruct (wrap_mod w (a + b) H) as [j Ej].
  apply wrap_unique with (k := j - k); [assumption|apply wrap_range; assumption|].
  rewrite Ek, Ej. ring.
Qed.

Lemma sup_w c : supported c -> 8 <= fx_w c <= 32.
Proof. intros (H & _ & _). lia. Qed.

Lemma sup_F c : supported c -> 0 <= fx_F c < fx_w c.
Proof. intros (_ & _ & H). exact H. Qed.

Lemma power2_loop_ok n : forall r k,
  0 <= k -> r = 2 ^ k -> Z.of_nat n + k <= 62 -> power2_loop n r = Ok (2 ^ (Z.of_nat n + k)).
Proof.
  induction n; intros r k Hk -> Hn.
  - reflexivity.
  - simpl power2_loop.
    assert (2 ^ (k + 1) = 2 ^ k * 2) by (rewrite Z.pow_add_r by lia; reflexivity).
    assert (2 ^ (k + 1) <= 2 ^ 62) by (apply Z.pow_le_mono_r; lia).
    assert (0 < 2 ^ k) by (apply Z.pow_pos_nonneg; lia).
    rewrite chk_in.
    + simpl bind. rewrite (IHn _ (k + 1)); [|lia|lia|lia].
      do 2 f_equal. lia.
    + change (2 ^ (64 - 1)) with (2 * 2 ^ 62). lia.
Qed.

Lemma power2_ok n : 0 <= n <= 62 -> power2 n = Ok (2 ^ n).
Proof.
  intros H. unfold power2. rewrite (power2_loop_ok _ 1 0) by (try reflexivity; lia).
  do 2 f_equal. lia.
Qed.

Lemma power2_F c : supported c -> power2 (fx_F c) = Ok (2 ^ fx_F c).
Proof. intros H. apply power2_ok. pose proof (sup_w c H). pose proof (sup_F c H). lia. Qed.

Lemma pow_F_pos c : supported c -> 0 < 2 ^ fx_F c.
Proof. intros H. apply Z.pow_pos_nonneg; [lia|]. pose proof (sup_F c H). lia. Qed.

Lemma pow_F_le c : supported c -> 2 ^ fx_F c <= 2 ^ (fx_w c - 1).
Proof.
  intros H. apply Z.pow_le_mono_r; [lia|]. pose proof (sup_F c H). lia.
Qed.

(** Width facts, by cases on the supported widths. *)
Ltac widths c :=
  let Hw := fresh in let Hi := fresh in let HF := fresh in
  match goal with H : supported c |- _ =>
    destruct H as (Hw & Hi & HF);
    unfold arith_width, promote_width, in_range in *;
    destruct c as [w ib F cpp]; simpl in *;
    destruct Hw as [->|[->| ->]]; destruct Hi as [->| ->]; simpl in *
  end.

(** ** Addition, subtraction, negation *)

Lemma add_narrow c a b :
  supported c -> fx_w c < fx_ib c -> in_range c a -> in_range c b ->
  fx_add c a b = Ok (wrap (fx_w c) (a + b)).
Proof. intros S N A B. unfold fx_add. rewrite chk_in; [reflexivity|]. widths c; lia. Qed.

Lemma sub_narrow c a b :
  supported c -> fx_w c < fx_ib c -> in_range c a -> in_range c b ->
  fx_sub c a b = Ok (wrap (fx_w c) (a - b)).
Proof. intros S N A B. unfold fx_sub. rewrite chk_in; [reflexivity|]. widths c; lia. Qed.

Lemma neg_narrow c a :
  supported c -> fx_w c < fx_ib c -> in_range c a ->
  fx_neg c a = Ok (wrap (fx_w c) (- a)).
Proof. intros S N A. unfold fx_neg. rewrite chk_in; [reflexivity|]. widths c; lia. Qed.

Lemma arith_width_wide c : fx_ib c <= fx_w c -> arith_width c (fx_w c) = fx_w c.
Proof. unfold arith_width. lia. Qed.

Lemma in_range_arith c v :
  supported c -> in_range c v ->
  - 2 ^ (arith_width c (fx_w c) - 1) <= v < 2 ^ (arith_width c (fx_w c) - 1).
Proof. intros S A. widths c; lia. Qed.

Lemma wrap_in c v : supported c -> in_range c v -> wrap (fx_w c) v = v.
Proof. intros S A. apply wrap_id; [pose proof (sup_w c S); lia|exact A]. Qed.

Lemma wrap_in_range c v : supported c -> in_range c (wrap (fx_w c) v).
Proof. intros S. apply wrap_range. pose proof (sup_w c S); lia. Qed.

Lemma add_exact c a b : supported c -> in_range c (a + b) -> fx_add c a b = Ok (a + b).
Proof.
  intros S A. unfold fx_add. rewrite chk_in by now apply in_range_arith.
  simpl. now rewrite wrap_in.
Qed.

Lemma sub_exact c a b : supported c -> in_range c (a - b) -> fx_sub c a b = Ok (a - b).
Proof.
  intros S A. unfold fx_sub. rewrite chk_in by now apply in_range_arith.
  simpl. now rewrite wrap_in.
Qed.

Lemma neg_exact c a : supported c -> in_range c (- a) -> fx_neg c a = Ok (- a).
Proof.
  intros S A. unfold fx_neg, fx_construct. rewrite chk_in by now apply in_range_arith.
  simpl. now rewrite wrap_in.
Qed.

(** ** Multiplication and division *)

Lemma mul_shape c a b :
  supported c -> in_range c a -> in_range c b ->
  fx_mul c a b = Ok (wrap (fx_w c) (a * b / 2 ^ fx_F c)).
Proof.
  intros S A B. unfold fx_mul. rewrite chk_in.
  - simpl. unfold sshr.
    destruct (Z.leb_spec 0 (fx_F c)); [|widths c; lia].
    destruct (Z.ltb_spec (fx_F c) (arith_width c (promote_width (fx_w c)))); [|widths c; lia].
    reflexivity.
  - widths c; nia.
Qed.

Lemma quot_range n b m : 0 <= m -> - m <= n <= m -> b <> 0 -> - m <= Z.quot n b <= m.
Proof.
  intros Hm Hn Hb. pose proof (Z.quot_abs n b Hb) as E.
  pose proof (Z.quot_le_upper_bound (Z.abs n) (Z.abs b) m).
  assert (Z.abs n <= Z.abs b * m) by nia.
  assert (Z.quot (Z.abs n) (Z.abs b) <= m) by (apply H; lia). lia.
Qed.

Lemma shifted_range c a :
  supported c -> in_range c a ->
  - 2 ^ (2 * fx_w c - 2) <= a * 2 ^ fx_F c <= 2 ^ (2 * fx_w c - 2).
Proof.
  intros S [A1 A2]. pose proof (pow_F_le c S). pose proof (pow_F_pos c S).
  pose proof (sup_w c S).
  replace (2 * fx_w c - 2) with ((fx_w c - 1) + (fx_w c - 1)) by lia.
  rewrite Z.pow_add_r by lia. assert (0 < 2 ^ (fx_w c - 1)) by (apply Z.pow_pos_nonneg; lia).
  nia.
Qed.

Lemma wide_bound c :
  supported c ->
  2 ^ (2 * fx_w c - 2) < 2 ^ (arith_width c (promote_width (fx_w c)) - 1).
Proof. intros S. widths c; reflexivity. Qed.

Lemma div_shape c a b :
  supported c -> in_range c a -> in_range c b -> b <> 0 -> fx_cpp20 c = true \/ 0 <= a ->
  fx_div c a b = Ok (wrap (fx_w c) (Z.quot (a * 2 ^ fx_F c) b)).
Proof.
  intros S A B Hb Hs. unfold fx_div, sshl.
  pose proof (shifted_range c a S A) as Hn. pose proof (wide_bound c S) as Hw.
  destruct (Z.leb_spec 0 (fx_F c)); [|widths c; lia].
  destruct (Z.ltb_spec (fx_F c) (arith_width c (promote_width (fx_w c)))); [|widths c; lia].
  simpl andb. simpl negb. cbv iota.
  assert (E : ((a <? 0) && negb (fx_cpp20 c))%bool = false).
  { destruct Hs as [->|Hs]; [apply andb_false_r|].
    destruct (Z.ltb_spec a 0); [lia|reflexivity]. }
  rewrite E. rewrite chk_in by lia. rewrite bind_Ok.
  destruct (Z.eqb_spec b 0); [contradiction|].
  assert (0 <= 2 ^ (2 * fx_w c - 2)) by (apply Z.pow_nonneg; lia).
  pose proof (quot_range (a * 2 ^ fx_F c) b _ H1 Hn Hb).
  rewrite chk_in by lia. reflexivity.
Qed.

Lemma div_zero c a :
  supported c -> in_range c a -> fx_cpp20 c = true \/ 0 <= a -> fx_div c a 0 = Err DivByZero.
Proof.
  intros S A Hs. unfold fx_div, sshl.
  pose proof (shifted_range c a S A) as Hn. pose proof (wide_bound c S) as Hw.
  destruct (Z.leb_spec 0 (fx_F c)); [|widths c; lia].
  destruct (Z.ltb_spec (fx_F c) (arith_width c (promote_width (fx_w c)))); [|widths c; lia].
  simpl andb. simpl negb. cbv iota.
  assert (E : ((a <? 0) && negb (fx_cpp20 c))%bool = false).
  { destruct Hs as [->|Hs]; [apply andb_false_r|].
    destruct (Z.ltb_spec a 0); [lia|reflexivity]. }
  rewrite E. rewrite chk_in by lia. reflexivity.
Qed.

Lemma div_negative c a b :
  supported c -> fx_cpp20 c = false -> a < 0 -> fx_div c a b = Err BadShift.
Proof.
  intros S Hc Ha. unfold fx_div, sshl. rewrite Hc.
  destruct (Z.ltb_spec a 0); [|lia].
  destruct (negb _); reflexivity.
Qed.

(** Every successful operation stays in range. *)
Lemma fx_add_range c a b r : supported c -> fx_add c a b = Ok r -> in_range c r.
Proof.
  intros S H. apply bind_inv in H as (v & _ & H). injection H as <-. now apply wrap_in_range.
Qed.
Lemma fx_sub_range c a b r : supported c -> fx_sub c a b = Ok r -> in_range c r.
Proof.
  intros S H. apply bind_inv in H as (v & _ & H). injection H as <-. now apply wrap_in_range.
Qed.
Lemma fx_neg_range c a r : supported c -> fx_neg c a = Ok r -> in_range c r.
Proof.
  intros S H. apply bind_inv in H as (v & _ & H). injection H as <-. now apply wrap_in_range.
Qed.
Lemma fx_mul_range c a b r : supported c -> fx_mul c a b = Ok r -> in_range c r.
Proof.
  intros S H. apply bind_inv in H as (v & _ & H). apply bind_inv in H as (q & _ & H).
  injection H as <-. now apply wrap_in_range.
Qed.
Lemma fx_div_range c a b r : supported c -> fx_div c a b = Ok r -> in_range c r.
Proof.
  intros S H. apply bind_inv in H as (v & _ & H). destruct (b =? 0); [discriminate|].
  apply bind_inv in H as (q & _ & H). injection H as <-. now apply wrap_in_range.
Qed.
Lemma fx_of_int_range c n r : supported c -> fx_of_int c n = Ok r -> in_range c r.
Proof.
  intros S H. apply bind_inv in H as (v & _ & H). apply bind_inv in H as (q & _ & H).
  injection H as <-. now apply wrap_in_range.
Qed.
Lemma fx_of_real_range c x r : supported c -> fx_of_real c x = Ok r -> in_range c r.
Proof.
  intros S H. apply bind_inv in H as (v & _ & H). apply chk_Ok in H as [-> H]. exact H.
Qed.

(** The constants of [fx_scalar] are what the constructor gives. *)
Lemma fx_of_int_0 c : supported c -> fx_of_int c 0 = Ok (sc_zero (fx_scalar c)).
Proof.
  intros S. unfold fx_of_int. rewrite power2_F by assumption. rewrite bind_Ok, Z.mul_0_r.
  simpl. rewrite wrap_in; [reflexivity|assumption|]. unfold in_range.
  pose proof (sup_w c S). assert (0 < 2 ^ (fx_w c - 1)) by (apply Z.pow_pos_nonneg; lia). lia.
Qed.
Lemma fx_of_int_1 c : supported c -> fx_of_int c 1 = Ok (sc_one (fx_scalar c)).
Proof.
  intros S. unfold fx_of_int. rewrite power2_F by assumption. rewrite bind_Ok, Z.mul_1_r.
  rewrite chk_in; [reflexivity|]. pose proof (pow_F_pos c S). pose proof (pow_F_le c S).
  assert (2 ^ (fx_w c - 1) < 2 ^ (64 - 1)); [|lia].
  apply Z.pow_lt_mono_r; pose proof (sup_w c S); lia.
Qed.

(** ** Values *)

Lemma D_pos c : supported c -> (0 < IZR (2 ^ fx_F c))%R.
Proof. intros S. apply IZR_lt. now apply pow_F_pos. Qed.

Lemma value_inj c a b : supported c -> value c a = value c b -> a = b.
Proof.
  intros S E. pose proof (D_pos c S). unfold value, Rdiv in E.
  apply Rmult_eq_reg_r in E; [now apply eq_IZR|].
  apply Rinv_neq_0_compat. lra.
Qed.

Lemma value_le c a b : supported c -> (value c a <= value c b)%R <-> a <= b.
Proof.
  intros S. pose proof (Rinv_0_lt_compat _ (D_pos c S)) as H. unfold value, Rdiv. split; intros E.
  - apply le_IZR. apply Rmult_le_reg_r in E; assumption.
  - apply Rmult_le_compat_r; [lra|]. now apply IZR_le.
Qed.

Lemma value_lt c a b : supported c -> (value c a < value c b)%R <-> a < b.
Proof.
  intros S. pose proof (Rinv_0_lt_compat _ (D_pos c S)) as H. unfold value, Rdiv. split; intros E.
  - apply lt_IZR. apply Rmult_lt_reg_r in E; assumption.
  - apply Rmult_lt_compat_r; [lra|]. now apply IZR_lt.
Qed.

Lemma value_add c a b : value c (a + b) = (value c a + value c b)%R.
Proof. unfold value. rewrite plus_IZR. unfold Rdiv. ring. Qed.
Lemma value_sub c a b : value c (a - b) = (value c a - value c b)%R.
Proof. unfold value. rewrite minus_IZR. unfold Rdiv. ring. Qed.
Lemma value_opp c a : value c (- a) = (- value c a)%R.
Proof. unfold value. rewrite opp_IZR. unfold Rdiv. ring. Qed.
Lemma value_step c a : value c (a + 1) = (value c a + step c)%R.
Proof. rewrite value_add. unfold value, step. reflexivity. Qed.

(** The real interval of a rounded-down quotient. *)
Lemma value_floor c p r :
  supported c ->
  r = p / 2 ^ fx_F c -> (value c r <= IZR p / IZR (2 ^ fx_F c) / IZR (2 ^ fx_F c) < value c r + step c)%R.
Proof.
  intros S ->. pose proof (pow_F_pos c S) as HD. pose proof (D_pos c S) as HR.
  pose proof (Z.div_mod p (2 ^ fx_F c) ltac:(lia)) as E.
  pose proof (Z.mod_pos_bound p _ HD) as B.
  set (D := 2 ^ fx_F c) in *. set (q := p / D) in *.
  assert (L : (IZR q * IZR D <= IZR p)%R) by (rewrite <- mult_IZR; apply IZR_le; lia).
  assert (U : (IZR p < (IZR q + 1) * IZR D)%R).
  { replace (IZR q + 1)%R with (IZR (q + 1)) by (rewrite plus_IZR; reflexivity).
    rewrite <- mult_IZR. apply IZR_lt. nia. }
  unfold value, step. fold D. split.
  - apply Rmult_le_compat_r; [left; now apply Rinv_0_lt_compat|].
    apply Rmult_le_reg_r with (IZR D); [assumption|]. unfold Rdiv.
    rewrite Rmult_assoc, Rinv_l by lra. lra.
  - unfold Rdiv. rewrite <- Rmult_plus_distr_r.
    apply Rmult_lt_compat_r; [now apply Rinv_0_lt_compat|].
    apply Rmult_lt_reg_r with (IZR D); [assumption|].
    rewrite Rmult_assoc, Rinv_l by lra. lra.
Qed.

Lemma value_mul_real c a b :
  (value c a * value c b = IZR (a * b) / IZR (2 ^ fx_F c) / IZR (2 ^ fx_F c))%R.
Proof. unfold value. rewrite mult_IZR. unfold Rdiv. ring. Qed.

(** ** Conversion from real numbers *)

Lemma Int_part_spec r z : (IZR z <= r < IZR z + 1)%R -> Int_part r = z.
Proof.
  intros H. unfold Int_part.
  assert (up r = z + 1); [|lia].
  symmetry. apply tech_up; rewrite plus_IZR; lra.
Qed.

Lemma Int_part_bounds r : (IZR (Int_part r) <= r < IZR (Int_part r) + 1)%R.
Proof.
  pose proof (base_Int_part r). lra.
Qed.

Lemma Rtrunc_pos r : (0 <= r)%R -> (IZR (Rtrunc r) <= r < IZR (Rtrunc r) + 1)%R /\ 0 <= Rtrunc r.
Proof.
  intros H. unfold Rtrunc. destruct (Rle_dec 0 r); [|contradiction].
  pose proof (Int_part_bounds r) as B. split; [exact B|].
  apply Z.lt_succ_r, lt_IZR. rewrite succ_IZR. lra.
Qed.

Lemma Rtrunc_neg r : (r <= 0)%R -> (IZR (Rtrunc r) - 1 < r <= IZR (Rtrunc r))%R /\ Rtrunc r <= 0.
Proof.
  intros H. unfold Rtrunc. destruct (Rle_dec 0 r) as [L|L].
  - assert (r = 0)%R by lra. subst r.
    rewrite (Int_part_spec 0 0) by lra. split; [lra|lia].
  - pose proof (Int_part_bounds (- r)) as B. rewrite opp_IZR. split; [lra|].
    assert (0 <= Int_part (- r)); [|lia].
    apply Z.lt_succ_r, lt_IZR. rewrite succ_IZR. lra.
Qed.

Lemma Rtrunc_opp r : Rtrunc (- r) = - Rtrunc r.
Proof.
  unfold Rtrunc. destruct (Rle_dec 0 r) as [L|L], (Rle_dec 0 (- r)) as [M|M]; try lra.
  - assert (r = 0)%R by lra. subst r. rewrite Ropp_0, (Int_part_spec 0 0) by lra. reflexivity.
  - now rewrite Ropp_involutive.
  - now rewrite Z.opp_involutive.
Qed.

Lemma Rtrunc_mono r q : (r <= q)%R -> Rtrunc r <= Rtrunc q.
Proof.
  intros H. destruct (Rle_dec 0 r) as [L|L].
  - destruct (Rtrunc_pos r L) as [A _]. destruct (Rtrunc_pos q) as [B _]; [lra|].
    apply Z.lt_succ_r, lt_IZR. rewrite succ_IZR. lra.
  - destruct (Rtrunc_neg r) as [A A']; [lra|]. destruct (Rle_dec 0 q) as [M|M].
    + destruct (Rtrunc_pos q M) as [_ B]. lia.
    + destruct (Rtrunc_neg q) as [B _]; [lra|].
      apply Z.lt_succ_r, lt_IZR. rewrite succ_IZR. lra.
Qed.

(** The integer the rounding of a real scaled value gives (round half away from zero). *)
Definition round_away (x : R) : Z := Rtrunc (x + (if Rle_dec 0 x then 1/2 else - (1/2)))%R.

Lemma round_away_pos x : (0 <= x)%R -> (IZR (round_away x) - 1/2 <= x < IZR (round_away x) + 1/2)%R.
Proof.
  intros H. unfold round_away. destruct (Rle_dec 0 x); [|contradiction].
  destruct (Rtrunc_pos (x + 1/2)) as [A _]; lra.
Qed.

Lemma round_away_neg x : (x < 0)%R -> (IZR (round_away x) - 1/2 < x <= IZR (round_away x) + 1/2)%R.
Proof.
  intros H. unfold round_away. destruct (Rle_dec 0 x); [lra|].
  destruct (Rtrunc_neg (x + - (1/2))) as [A _]; lra.
Qed.

Lemma round_away_near x : (Rabs (IZR (round_away x) - x) <= 1/2)%R.
Proof.
  destruct (Rle_dec 0 x) as [L|L].
  - pose proof (round_away_pos x L). apply Rabs_le. lra.
  - pose proof (round_away_neg x ltac:(lra)). apply Rabs_le. lra.
Qed.

Lemma round_away_opp x : round_away (- x) = - round_away x.
Proof.
  unfold round_away. destruct (Rle_dec 0 x) as [L|L], (Rle_dec 0 (- x)) as [M|M]; try lra.
  - assert (x = 0)%R by lra. subst x. rewrite Ropp_0, Rplus_0_l.
    assert (Rtrunc (1/2) = 0); [|lia]. unfold Rtrunc. destruct (Rle_dec 0 (1/2)); [|lra].
    apply Int_part_spec. lra.
  - rewrite <- Rtrunc_opp. f_equal. lra.
  - rewrite <- Rtrunc_opp. f_equal. lra.
Qed.

Lemma round_away_mono x y : (x <= y)%R -> round_away x <= round_away y.
Proof.
  intros H. unfold round_away. apply Rtrunc_mono.
  destruct (Rle_dec 0 x), (Rle_dec 0 y); lra.
Qed.

Lemma round_away_IZR z : round_away (IZR z) = z.
Proof.
  pose proof (round_away_near (IZR z)) as H. rewrite <- minus_IZR in H.
  assert (X : Z.abs (round_away (IZR z) - z) < 1).
  { apply lt_IZR. rewrite abs_IZR. lra. }
  lia.
Qed.

Lemma of_real_shape c x :
  supported c -> fx_of_real c x = chk (fx_w c) (round_away (IZR (2 ^ fx_F c) * x)).
Proof.
  intros S. unfold fx_of_real. rewrite power2_F by assumption. rewrite bind_Ok.
  f_equal. unfold round_away. do 2 f_equal. pose proof (D_pos c S).
  destruct (Rle_dec 0 x) as [L|L], (Rle_dec 0 (IZR (2 ^ fx_F c) * x)) as [M|M]; try reflexivity; exfalso.
  - apply M. apply Rmult_le_pos; lra.
  - apply L. apply Rmult_le_reg_l with (IZR (2 ^ fx_F c)); [assumption|]. lra.
Qed.

(** ** Truncating division over the reals *)

Lemma quot_abs_bounds n b :
  b <> 0 -> Z.abs b * Z.abs (Z.quot n b) <= Z.abs n < Z.abs b * (Z.abs (Z.quot n b) + 1).
Proof.
  intros Hb. rewrite <- Z.quot_abs by assumption.
  rewrite Z.quot_div_nonneg by lia.
  pose proof (Z.div_mod (Z.abs n) (Z.abs b) ltac:(lia)).
  pose proof (Z.mod_pos_bound (Z.abs n) (Z.abs b) ltac:(lia)). nia.
Qed.

Lemma quot_sign n b : b <> 0 -> 0 <= Z.quot n b * n * b.
Proof.
  intros Hb. pose proof (Z.quot_rem n b Hb) as Q. pose proof (Z.rem_sign_mul n b Hb) as RS.
  assert (RL : Z.abs (Z.rem n b) <= Z.abs n).
  { rewrite <- Z.rem_abs by assumption. rewrite Z.rem_mod_nonneg by lia.
    apply Z.mod_le; lia. }
  set (q := Z.quot n b) in *. set (m := Z.rem n b) in *.
  replace (q * n * b) with ((n - m) * n) by (rewrite Q at 1; ring). nia.
Qed.

Lemma quot_real n b :
  b <> 0 ->
  (Rabs (IZR (Z.quot n b)) <= Rabs (IZR n / IZR b) < Rabs (IZR (Z.quot n b)) + 1)%R /\
  (0 <= IZR (Z.quot n b) * (IZR n / IZR b))%R.
Proof.
  intros Hb. assert (HbR : IZR b <> 0%R) by (now apply not_0_IZR).
  pose proof (quot_abs_bounds n b Hb) as [L U]. pose proof (quot_sign n b Hb) as Sg.
  set (q := Z.quot n b) in *.
  apply IZR_le in L, Sg. apply IZR_lt in U.
  rewrite !mult_IZR, ?plus_IZR, !abs_IZR in *.
  assert (P : (0 < Rabs (IZR b))%R) by (now apply Rabs_pos_lt).
  assert (E : (Rabs (IZR n / IZR b) = Rabs (IZR n) / Rabs (IZR b))%R).
  { unfold Rdiv. rewrite Rabs_mult, Rabs_inv. reflexivity. }
  rewrite E. split; [split|].
  - apply Rmult_le_reg_r with (Rabs (IZR b)); [assumption|]. unfold Rdiv.
    rewrite Rmult_assoc, Rinv_l by lra. lra.
  - apply Rmult_lt_reg_r with (Rabs (IZR b)); [assumption|]. unfold Rdiv.
    rewrite Rmult_assoc, Rinv_l by lra. lra.
  - replace (IZR q * (IZR n / IZR b))%R with (IZR q * IZR n * IZR b * (/ IZR b * / IZR b))%R
      by (field; assumption).
    apply Rmult_le_pos; [assumption|].
    pose proof (Rle_0_sqr (/ IZR b)). exact H.
Qed.
