(** * Proofs about ranges *)

From Coq Require Import ZArith List Bool Lia.
From Verif Require Import Base Scalars Range RangeSpec.
Import ListNotations.
Local Open Scope Z_scope.

Lemma chk_ok w v : - 2 ^ (w - 1) <= v < 2 ^ (w - 1) -> chk w v = Ok v.
Proof.
  intros [H1 H2]. unfold chk.
  replace (- 2 ^ (w - 1) <=? v) with true by (symmetry; apply Z.leb_le; lia).
  replace (v <? 2 ^ (w - 1)) with true by (symmetry; apply Z.ltb_lt; lia). reflexivity.
Qed.

Lemma chk_bad w v : ~ (- 2 ^ (w - 1) <= v < 2 ^ (w - 1)) -> chk w v = Err SignedOverflow.
Proof.
  intros H. unfold chk.
  destruct (Z.leb_spec (- 2 ^ (w - 1)) v), (Z.ltb_spec v (2 ^ (w - 1))); simpl; try reflexivity.
  exfalso; apply H; lia.
Qed.

Lemma pow_half w : 1 <= w -> 2 ^ w = 2 * 2 ^ (w - 1).
Proof. intros. replace w with (1 + (w - 1)) at 1 by lia. rewrite Z.pow_add_r by lia. reflexivity. Qed.

Lemma conv_fits t v : 1 <= it_w t -> fits t v -> conv t v = v.
Proof.
  intros W. pose proof (pow_half _ W) as P. pose proof (Z.pow_pos_nonneg 2 (it_w t - 1)).
  unfold fits, conv. destruct (it_signed t); intros H0.
  - rewrite Z.mod_small by lia. lia.
  - apply Z.mod_small; lia.
Qed.

Lemma fits_conv t v : 1 <= it_w t -> fits t (conv t v).
Proof.
  intros W. pose proof (pow_half _ W) as P. pose proof (Z.pow_pos_nonneg 2 (it_w t - 1)).
  unfold fits, conv. destruct (it_signed t).
  - pose proof (Z.mod_pos_bound (v + 2 ^ (it_w t - 1)) (2 ^ it_w t)). lia.
  - apply Z.mod_pos_bound. lia.
Qed.

Lemma conv_spec t v : 1 <= it_w t -> exists q, v = conv t v + q * 2 ^ it_w t.
Proof.
  intros W. unfold conv. destruct (it_signed t).
  - exists ((v + 2 ^ (it_w t - 1)) / 2 ^ it_w t).
    pose proof (Z.pow_pos_nonneg 2 (it_w t)).
    pose proof (Z.div_mod (v + 2 ^ (it_w t - 1)) (2 ^ it_w t)). lia.
  - exists (v / 2 ^ it_w t). pose proof (Z.pow_pos_nonneg 2 (it_w t)).
    pose proof (Z.div_mod v (2 ^ it_w t)). lia.
Qed.

Lemma congruent_unique t v r : 1 <= it_w t -> congruent_value t v r -> conv t v = r.
Proof.
  intros W (F & q & E).
  destruct (conv_spec t v W) as (q' & E'). pose proof (fits_conv t v W) as F'.
  pose proof (pow_half _ W) as P. pose proof (Z.pow_pos_nonneg 2 (it_w t - 1)).
  assert (Hd : conv t v - r = (q - q') * 2 ^ it_w t) by lia.
  assert (Hb : - 2 ^ it_w t < conv t v - r < 2 ^ it_w t)
    by (unfold fits in *; destruct (it_signed t); lia).
  rewrite Hd in Hb. assert (q = q') by nia. subst q'. lia.
Qed.

Lemma conv_congr t v q : 1 <= it_w t -> conv t (v + q * 2 ^ it_w t) = conv t v.
Proof.
  intros W. apply congruent_unique; [assumption|]. split; [now apply fits_conv|].
  destruct (conv_spec t v W) as (q' & E). exists (q + q'). lia.
Qed.

(** ** Arithmetic in a type *)

Lemma arith_int_like t v : int_like t -> arith t v = chk (it_w t) v.
Proof.
  intros (S & W). unfold arith. replace (it_w t <? it_ib t) with false
    by (symmetry; apply Z.ltb_ge; lia). now rewrite S.
Qed.

Lemma fits_int_like t v : int_like t -> fits t v <-> - 2 ^ (it_w t - 1) <= v < 2 ^ (it_w t - 1).
Proof. intros (S & W). unfold fits. rewrite S. tauto. Qed.

(** A result that stays in the type is exact. *)
Lemma arith_fits t v : platform_type t -> fits t v -> arith t v = Ok v.
Proof.
  intros (W & I & N). unfold arith, fits.
  destruct (Z.ltb_spec (it_w t) (it_ib t)) as [L | L].
  - specialize (N L). intros F. apply chk_ok.
    pose proof (Z.pow_le_mono_r 2 (it_w t) (it_ib t - 1) ltac:(lia) ltac:(lia)).
    pose proof (pow_half (it_w t) ltac:(lia)).
    pose proof (Z.pow_pos_nonneg 2 (it_w t - 1) ltac:(lia) ltac:(lia)).
    destruct (it_signed t); lia.
  - destruct (it_signed t); intros F; [now apply chk_ok|]. f_equal. apply Z.mod_small; lia.
Qed.

(** In a wrapping type adding one to a value never fails and is modular. *)
Lemma arith_wraps_succ t v : platform_type t -> wraps t -> fits t v ->
  exists r, arith t (v + 1) = Ok r /\ conv t r = conv t (v + 1).
Proof.
  intros (W & I & N) Wr F. unfold arith.
  destruct (Z.ltb_spec (it_w t) (it_ib t)) as [L | L].
  - specialize (N L). exists (v + 1). split; [|reflexivity]. apply chk_ok.
    pose proof (Z.pow_le_mono_r 2 (it_w t) (it_ib t - 1) ltac:(lia) ltac:(lia)) as M.
    pose proof (pow_half (it_w t) ltac:(lia)).
    pose proof (Z.pow_pos_nonneg 2 (it_w t - 1) ltac:(lia) ltac:(lia)).
    pose proof (Z.pow_lt_mono_r 2 (it_w t) (it_ib t - 1) ltac:(lia) ltac:(lia) ltac:(lia)).
    clear Wr. unfold fits in F. destruct (it_signed t); lia.
  - destruct Wr as [S | ?]; [|lia]. rewrite S. eexists; split; [reflexivity|].
    unfold conv. rewrite S. apply Z.mod_mod.
    pose proof (Z.pow_pos_nonneg 2 (it_w t)); lia.
Qed.

(** ** The plain loop *)

Lemma progression_S a s n : progression a s (S n) = a :: progression (a + s) s n.
Proof.
  unfold progression. simpl. f_equal; [lia|]. rewrite <- seq_shift, map_map.
  apply map_ext. intros. lia.
Qed.

Lemma progression_snoc a s n : progression a s (S n) = progression a s n ++ [a + Z.of_nat n * s].
Proof. unfold progression. rewrite seq_S, map_app. reflexivity. Qed.

Lemma progression_app a s m n :
  progression a s (m + n) = progression a s m ++ progression (a + Z.of_nat m * s) s n.
Proof.
  revert a. induction m; intros a; simpl plus.
  - cbn [progression seq map app]. f_equal. lia.
  - rewrite !progression_S, IHm. cbn [app].
    replace (a + s + Z.of_nat m * s) with (a + Z.of_nat (S m) * s) by lia. reflexivity.
Qed.

Lemma length_progression a s n : length (progression a s n) = n.
Proof. unfold progression. now rewrite map_length, seq_length. Qed.

Definition at_ (v : Z) : iter := {| it_current := v |}.

Lemma it_incr_fits t v : platform_type t -> fits t (v + 1) -> it_incr t (at_ v) = Ok (at_ (v + 1)).
Proof.
  intros P F. unfold it_incr. cbn [it_current at_]. rewrite (arith_fits t _ P F). cbn [bind].
  rewrite conv_fits by (destruct P; assumption || lia). reflexivity.
Qed.

Lemma it_ne_at i j : it_ne (at_ i) (at_ j) = negb (i =? j).
Proof. reflexivity. Qed.

(** Counting up without passing the end. *)
Lemma loop_up t (P : platform_type t) e : fits t e -> forall n a fuel,
  fits t a -> a + Z.of_nat n = e -> (n <= fuel)%nat ->
  for_range it_ne it_deref (it_incr t) fuel (at_ a) (at_ e) = (progression a 1 n, Finished).
Proof.
  intros Fe. induction n as [|n IH]; intros a fuel Fa E Hf.
  - assert (a = e) as -> by lia. destruct fuel; cbn [for_range]; rewrite it_ne_at, Z.eqb_refl;
      reflexivity.
  - destruct fuel as [|fuel]; [lia|]. cbn [for_range]. rewrite it_ne_at.
    replace (a =? e) with false by (symmetry; apply Z.eqb_neq; lia). cbn [negb].
    assert (F1 : fits t (a + 1)) by (unfold fits in *; destruct (it_signed t); lia).
    rewrite (it_incr_fits t a P F1). rewrite (IH (a + 1) fuel F1 ltac:(lia) ltac:(lia)).
    rewrite progression_S. reflexivity.
Qed.

(** Counting up to the greatest value when the end lies behind. *)
Lemma loop_to_greatest t (P : platform_type t) e : forall n a fuel,
  fits t a -> a + Z.of_nat n = greatest t -> e < a -> (n <= fuel)%nat ->
  for_range it_ne it_deref (it_incr t) fuel (at_ a) (at_ e) =
  let '(l, s) := for_range it_ne it_deref (it_incr t) (fuel - n) (at_ (greatest t)) (at_ e) in
  (progression a 1 n ++ l, s).
Proof.
  induction n as [|n IH]; intros a fuel Fa E Hlt Hf.
  - assert (a = greatest t) as -> by lia. rewrite Nat.sub_0_r.
    destruct (for_range _ _ _ _ _ _); reflexivity.
  - destruct fuel as [|fuel]; [lia|]. cbn [for_range]. rewrite it_ne_at.
    replace (a =? e) with false by (symmetry; apply Z.eqb_neq; lia). cbn [negb].
    assert (F1 : fits t (a + 1)).
    { unfold fits, greatest in *. destruct (it_signed t); lia. }
    rewrite (it_incr_fits t a P F1). rewrite (IH (a + 1) fuel F1 ltac:(lia) ltac:(lia) ltac:(lia)).
    replace (S fuel - S n)%nat with (fuel - n)%nat by lia.
    destruct (for_range _ _ _ (fuel - n) _ _). rewrite progression_S. reflexivity.
Qed.

Lemma it_incr_greatest_wraps t : platform_type t -> wraps t ->
  it_incr t (at_ (greatest t)) = Ok (at_ (least t)).
Proof.
  intros P Wr. pose proof P as (W & I & N).
  assert (F : fits t (greatest t)).
  { unfold fits, greatest. pose proof (Z.pow_pos_nonneg 2 (it_w t - 1)).
    pose proof (Z.pow_pos_nonneg 2 (it_w t)). destruct (it_signed t); lia. }
  unfold it_incr. cbn [it_current at_].
  destruct (arith_wraps_succ t _ P Wr F) as (r & E & C). rewrite E. cbn [bind].
  rewrite C. unfold at_. do 2 f_equal. apply congruent_unique; [lia|]. split.
  - unfold fits, least. pose proof (Z.pow_pos_nonneg 2 (it_w t - 1)).
    pose proof (Z.pow_pos_nonneg 2 (it_w t)). destruct (it_signed t); lia.
  - exists 1. unfold greatest, least. pose proof (pow_half (it_w t)).
    destruct (it_signed t); lia.
Qed.

Lemma it_incr_greatest_stuck t : int_like t ->
  it_incr t (at_ (greatest t)) = Err SignedOverflow.
Proof.
  intros I. unfold it_incr. cbn [it_current at_]. rewrite (arith_int_like t _ I).
  destruct I as (S & W). unfold greatest. rewrite S. rewrite chk_bad; [reflexivity|]. lia.
Qed.

(** ** The stepping loop *)

(** The iterator after [k] steps, in a type without promotion. *)
Definition step_at (a s : Z) (inf : bool) (k : Z) : step_iter :=
  {| si_current := a + k * s; si_factor := k; si_first := a; si_step := s;
     si_infinite := inf |}.

Lemma si_incr_fits t a s inf k : platform_type t ->
  fits t (k + 1) -> fits t ((k + 1) * s) -> fits t (a + (k + 1) * s) ->
  si_incr t (step_at a s inf k) = Ok (step_at a s inf (k + 1)).
Proof.
  intros P F1 F2 F3. assert (W : 1 <= it_w t) by (destruct P; lia).
  unfold si_incr. cbn [si_factor si_step si_first si_infinite step_at].
  rewrite (arith_fits t _ P F1). cbn [bind]. rewrite (conv_fits t _ W F1).
  rewrite (arith_fits t _ P F2). cbn [bind]. rewrite (arith_fits t _ P F3). cbn [bind].
  rewrite (conv_fits t _ W F3). reflexivity.
Qed.

Lemma si_incr_stuck t a s inf k : platform_type t -> int_like t ->
  ~ (fits t (k + 1) /\ fits t ((k + 1) * s) /\ fits t (a + (k + 1) * s)) ->
  si_incr t (step_at a s inf k) = Err SignedOverflow.
Proof.
  intros P I H. assert (W : 1 <= it_w t) by (destruct P; lia).
  unfold si_incr. cbn [si_factor si_step si_first si_infinite step_at].
  rewrite !(arith_int_like t _ I). rewrite !(fits_int_like t _ I) in H.
  destruct (Z_lt_dec (k + 1) (2 ^ (it_w t - 1))) as [A1|A1];
    destruct (Z_le_dec (- 2 ^ (it_w t - 1)) (k + 1)) as [A2|A2];
    try (rewrite chk_bad by lia; reflexivity).
  rewrite chk_ok by lia. cbn [bind]. rewrite conv_fits; [|assumption|apply (fits_int_like t _ I); lia].
  rewrite !(arith_int_like t _ I).
  destruct (Z_lt_dec ((k + 1) * s) (2 ^ (it_w t - 1))) as [B1|B1];
    destruct (Z_le_dec (- 2 ^ (it_w t - 1)) ((k + 1) * s)) as [B2|B2];
    try (rewrite chk_bad by lia; reflexivity).
  rewrite chk_ok by lia. cbn [bind]. rewrite (arith_int_like t _ I). rewrite chk_bad by lia.
  reflexivity.
Qed.

Lemma si_ne_step a s inf k b s' inf' k' :
  si_ne (step_at a s inf k) (step_at b s' inf' k') =
  (inf || (a + k * s <? b + k' * s')).
Proof.
  unfold si_ne, si_eq. cbn [si_infinite si_current step_at].
  rewrite negb_andb, negb_involutive. f_equal. rewrite Z.geb_leb, Z.ltb_antisym. reflexivity.
Qed.

Lemma step_iter_of_at a s inf : step_iter_of a s inf = step_at a s inf 0.
Proof. unfold step_iter_of, step_at. f_equal; lia. Qed.

(** [n] passes in which the loop neither ends nor fails. *)
Lemma step_passes t a s inf e : platform_type t -> forall n k fuel,
  (forall j, 0 <= j < Z.of_nat n -> si_ne (step_at a s inf (k + j)) e = true) ->
  (forall j, 1 <= j <= Z.of_nat n ->
     fits t (k + j) /\ fits t ((k + j) * s) /\ fits t (a + (k + j) * s)) ->
  (n <= fuel)%nat ->
  for_range si_ne si_deref (si_incr t) fuel (step_at a s inf k) e =
  let '(l, st) := for_range si_ne si_deref (si_incr t) (fuel - n)
                    (step_at a s inf (k + Z.of_nat n)) e in
  (progression (a + k * s) s n ++ l, st).
Proof.
  intros P. induction n as [|n IH]; intros k fuel Hne Hfit Hf.
  - rewrite Nat.sub_0_r. replace (k + Z.of_nat 0) with k by lia.
    destruct (for_range _ _ _ _ _ _); reflexivity.
  - destruct fuel as [|fuel]; [lia|]. cbn [for_range].
    replace k with (k + 0) at 1 by lia. rewrite (Hne 0) by lia.
    destruct (Hfit 1 ltac:(lia)) as (F1 & F2 & F3).
    rewrite (si_incr_fits t a s inf k P F1 F2 F3).
    rewrite (IH (k + 1) fuel).
    + replace (S fuel - S n)%nat with (fuel - n)%nat by lia.
      replace (k + 1 + Z.of_nat n) with (k + Z.of_nat (S n)) by lia.
      destruct (for_range _ _ _ (fuel - n) _ _). rewrite progression_S. cbn [app si_deref si_current step_at].
      replace (a + (k + 1) * s) with (a + k * s + s) by ring. reflexivity.
    + intros j Hj. rewrite <- Z.add_assoc. apply Hne. lia.
    + intros j Hj. rewrite <- Z.add_assoc. apply Hfit. lia.
    + lia.
Qed.

(** ** Types that wrap: the iterator is known modulo [2^w]. *)

Lemma conv_mul_step t a s m : 1 <= it_w t ->
  conv t (a + conv t m * s) = conv t (a + m * s).
Proof.
  intros W. destruct (conv_spec t m W) as (q & E).
  rewrite E at 2. replace (a + (conv t m + q * 2 ^ it_w t) * s)
    with (a + conv t m * s + (q * s) * 2 ^ it_w t) by ring.
  now rewrite conv_congr.
Qed.

Definition step_mod (t : int_type) (a s : Z) (inf : bool) (k : Z) : step_iter :=
  {| si_current := conv t (a + k * s); si_factor := conv t k; si_first := a; si_step := s;
     si_infinite := inf |}.

(** Unsigned types at least as wide as [int], and narrow signed types, never fail. *)
Definition never_fails (t : int_type) : Prop :=
  if it_signed t then it_w t < it_ib t else it_ib t <= it_w t.

Lemma conv_arith_unsigned t v : it_signed t = false -> it_ib t <= it_w t ->
  arith t v = Ok (conv t v).
Proof.
  intros S W. unfold arith, conv. rewrite S.
  replace (it_w t <? it_ib t) with false by (symmetry; apply Z.ltb_ge; lia). reflexivity.
Qed.

Lemma conv_conv t v : 1 <= it_w t -> conv t (conv t v) = conv t v.
Proof. intros W. apply conv_fits; [assumption|]. now apply fits_conv. Qed.

Lemma si_incr_mod t a s inf k : platform_type t -> never_fails t -> fits t a -> fits t s ->
  si_incr t (step_mod t a s inf k) = Ok (step_mod t a s inf (k + 1)).
Proof.
  intros P Nf Fa Fs. pose proof P as (W & I & N). assert (W1 : 1 <= it_w t) by lia.
  unfold si_incr. cbn [si_factor si_step si_first si_infinite step_mod].
  assert (Ek : conv t (conv t k + 1) = conv t (k + 1)).
  { destruct (conv_spec t k W1) as (q & E). rewrite E at 2.
    replace (conv t k + q * 2 ^ it_w t + 1) with (conv t k + 1 + q * 2 ^ it_w t) by ring.
    now rewrite conv_congr. }
  unfold never_fails in Nf. destruct (it_signed t) eqn:S.
  - specialize (N Nf).
    assert (Wr : wraps t) by (right; assumption).
    destruct (arith_wraps_succ t (conv t k) P Wr (fits_conv t k W1)) as (r & E & C).
    rewrite E. cbn [bind]. rewrite C, Ek.
    pose proof (fits_conv t (k + 1) W1) as Fk.
    unfold fits in Fa, Fs, Fk. rewrite S in Fa, Fs, Fk.
    assert (Hp : 2 ^ (it_w t - 1) * 2 ^ (it_w t - 1) = 2 ^ (2 * it_w t - 2)).
    { rewrite <- Z.pow_add_r by lia. f_equal. lia. }
    pose proof (Z.pow_le_mono_r 2 (2 * it_w t - 1) (it_ib t - 1) ltac:(lia) ltac:(lia)) as M.
    rewrite (pow_half (2 * it_w t - 1)) in M by lia.
    replace (2 * it_w t - 1 - 1) with (2 * it_w t - 2) in M by lia.
    pose proof (Z.pow_lt_mono_r 2 (it_w t - 1) (2 * it_w t - 2 + 1) ltac:(lia) ltac:(lia) ltac:(lia)).
    assert (2 <= 2 ^ (it_w t - 1)).
    { change 2 with (2 ^ 1) at 1. apply Z.pow_le_mono_r; lia. }
    set (h := 2 ^ (it_w t - 1)) in *. set (H2 := 2 ^ (2 * it_w t - 2)) in *.
    set (u := conv t (k + 1)) in *.
    assert (- H2 <= u * s <= H2) by nia.
    assert (h <= H2) by nia.
    unfold arith. replace (it_w t <? it_ib t) with true by (symmetry; apply Z.ltb_lt; lia).
    assert (h < H2 \/ h = 2 \/ True) by tauto.
    rewrite chk_ok by nia. cbn [bind].
    rewrite chk_ok by nia. cbn [bind]. unfold step_mod, u. f_equal. f_equal.
    now apply conv_mul_step.
  - rewrite (conv_arith_unsigned t _ S Nf). cbn [bind].
    rewrite conv_conv by assumption. rewrite Ek.
    rewrite (conv_arith_unsigned t _ S Nf). cbn [bind].
    rewrite (conv_arith_unsigned t _ S Nf). cbn [bind].
    unfold step_mod. do 2 f_equal. rewrite conv_conv by assumption.
    destruct (conv_spec t (conv t (k + 1) * s) W1) as (q & E).
    transitivity (conv t (a + conv t (k + 1) * s)).
    + rewrite E at 2. rewrite Z.add_assoc. now rewrite conv_congr.
    + now apply conv_mul_step.
Qed.

Lemma step_mod_0 t a s inf : 1 <= it_w t -> fits t a -> step_iter_of a s inf = step_mod t a s inf 0.
Proof.
  intros W F. unfold step_iter_of, step_mod. f_equal.
  - replace (a + 0 * s) with a by ring. symmetry. now apply conv_fits.
  - symmetry. apply conv_fits; [assumption|]. pose proof (Z.pow_pos_nonneg 2 (it_w t - 1)).
    pose proof (Z.pow_pos_nonneg 2 (it_w t)). unfold fits. destruct (it_signed t); lia.
Qed.

(** Passes of a loop that never fails. *)
Lemma mod_passes t a s inf e : platform_type t -> never_fails t -> fits t a -> fits t s ->
  forall n k,
  (forall j, 0 <= j -> si_ne (step_mod t a s inf (k + j)) e = true) ->
  for_range si_ne si_deref (si_incr t) n (step_mod t a s inf k) e =
  (map (fun j => conv t (a + (k + Z.of_nat j) * s)) (seq 0 n), Running).
Proof.
  intros P Nf Fa Fs. induction n as [|n IH]; intros k Hne; cbn [for_range].
  - replace k with (k + 0) by lia. rewrite (Hne 0) by lia. reflexivity.
  - replace k with (k + 0) at 1 by lia. rewrite (Hne 0) by lia.
    rewrite (si_incr_mod t a s inf k P Nf Fa Fs).
    rewrite IH. 2: { intros j Hj. rewrite <- Z.add_assoc. apply Hne. lia. }
    cbn [seq map si_deref si_current step_mod].
    rewrite <- seq_shift, map_map. f_equal. f_equal; [do 2 f_equal; lia|].
    apply map_ext. intros j. do 2 f_equal. lia.
Qed.

(** Same, for a bounded number of passes that stay below the end. *)
Lemma mod_passes_n t a s inf e : platform_type t -> never_fails t -> fits t a -> fits t s ->
  forall n k fuel,
  (forall j, 0 <= j < Z.of_nat n -> si_ne (step_mod t a s inf (k + j)) e = true) ->
  (n <= fuel)%nat ->
  for_range si_ne si_deref (si_incr t) fuel (step_mod t a s inf k) e =
  let '(l, st) := for_range si_ne si_deref (si_incr t) (fuel - n)
                    (step_mod t a s inf (k + Z.of_nat n)) e in
  (map (fun j => conv t (a + (k + Z.of_nat j) * s)) (seq 0 n) ++ l, st).
Proof.
  intros P Nf Fa Fs. induction n as [|n IH]; intros k fuel Hne Hf.
  - rewrite Nat.sub_0_r. replace (k + Z.of_nat 0) with k by lia.
    destruct (for_range _ _ _ _ _ _); reflexivity.
  - destruct fuel as [|fuel]; [lia|]. cbn [for_range].
    replace k with (k + 0) at 1 by lia. rewrite (Hne 0) by lia.
    rewrite (si_incr_mod t a s inf k P Nf Fa Fs).
    rewrite (IH (k + 1) fuel).
    + replace (S fuel - S n)%nat with (fuel - n)%nat by lia.
      replace (k + 1 + Z.of_nat n) with (k + Z.of_nat (S n)) by lia.
      destruct (for_range _ _ _ (fuel - n) _ _).
      cbn [seq map app si_deref si_current step_mod]. f_equal.
      rewrite <- seq_shift, map_map. f_equal; [do 2 f_equal; lia|]. f_equal.
      apply map_ext. intros j. do 2 f_equal. lia.
    + intros j Hj. rewrite <- Z.add_assoc. apply Hne. lia.
    + lia.
Qed.
