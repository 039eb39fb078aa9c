(** * Properties C65-C67: integer ranges *)

From Coq Require Import ZArith List Bool Lia.
From Verif Require Import Base Scalars Range RangeSpec RangeProofs.
Import ListNotations.
Local Open Scope Z_scope.

(** Integer types used in the examples (64-bit desktop, AVR). *)
Definition t_int : int_type := {| it_w := 32; it_signed := true; it_ib := 32 |}.
Definition t_uint : int_type := {| it_w := 32; it_signed := false; it_ib := 32 |}.
Definition t_int8 : int_type := {| it_w := 8; it_signed := true; it_ib := 32 |}.
Definition t_size : int_type := {| it_w := 64; it_signed := false; it_ib := 32 |}.

Lemma range2_fits p q a b : let t := common_type p q in 1 <= it_w t -> fits t a -> fits t b ->
  snd (range2 p q a b) = range_impl a b.
Proof. intros t W Fa Fb. unfold range2. cbn [snd]. fold t. now rewrite !conv_fits. Qed.

(** C65. Iterating over [range(a,b)], [a <= b], sees [a], ..., [b-1] and ends, for all argument
    types whose common type holds both bounds. *)
Theorem C65_unit_range : forall p q a b fuel,
  platform_type (common_type p q) ->
  fits (common_type p q) a -> fits (common_type p q) b -> a <= b ->
  (Z.to_nat (b - a) <= fuel)%nat ->
  loop_over (common_type p q) (snd (range2 p q a b)) fuel
    = (progression a 1 (Z.to_nat (b - a)), Finished).
Proof.
  intros p q a b fuel P Fa Fb L Hf. rewrite range2_fits by (assumption || destruct P; lia).
  apply (loop_up _ P b Fb); try assumption. lia.
Qed.
Print Assumptions C65_unit_range.

Example C65_case : loop_over (common_type t_int8 t_int) (snd (range2 t_int8 t_int (-2) 3)) 9
  = ([-2; -1; 0; 1; 2], Finished).
Proof. reflexivity. Qed.

(** The bounds fit whenever each fits its own type and the types have the same signedness. *)
Theorem C65_same_signedness : forall p q a b,
  it_signed p = it_signed q -> it_ib p = it_ib q -> platform_type p -> platform_type q ->
  fits p a -> fits q b ->
  platform_type (common_type p q) /\ fits (common_type p q) a /\ fits (common_type p q) b.
Proof.
  intros p q a b S I (W1 & I1 & N1) (W2 & I2 & N2) Fa Fb.
  assert (Up : forall x y v, it_w x <= it_w y -> it_signed x = it_signed y -> 2 <= it_w x ->
                fits x v -> fits y v).
  { intros x y v L E W F. unfold fits in *. rewrite <- E.
    pose proof (Z.pow_le_mono_r 2 (it_w x) (it_w y) ltac:(lia) L).
    pose proof (Z.pow_le_mono_r 2 (it_w x - 1) (it_w y - 1) ltac:(lia) ltac:(lia)).
    destruct (it_signed x); lia. }
  assert (Upp : forall x v, 2 <= it_w x -> (it_w x < it_ib x -> 2 * it_w x <= it_ib x) ->
                 fits x v -> fits (promoted x) v).
  { intros x v W N F. unfold promoted. destruct (Z.ltb_spec (it_w x) (it_ib x)); [|assumption].
    specialize (N H). unfold fits in *. cbn [it_signed it_w].
    pose proof (Z.pow_le_mono_r 2 (it_w x) (it_ib x - 1) ltac:(lia) ltac:(lia)).
    pose proof (pow_half (it_w x) ltac:(lia)).
    pose proof (Z.pow_pos_nonneg 2 (it_w x - 1) ltac:(lia) ltac:(lia)).
    destruct (it_signed x); lia. }
  assert (Pp : forall x, 2 <= it_w x -> 2 <= it_ib x -> (it_w x < it_ib x -> 2 * it_w x <= it_ib x) ->
                platform_type (promoted x) /\ it_ib (promoted x) = it_ib x /\
                it_ib x <= it_w (promoted x)).
  { intros x W Ix N. unfold promoted. destruct (Z.ltb_spec (it_w x) (it_ib x)).
    - unfold platform_type; cbn. lia.
    - unfold platform_type. lia. }
  unfold common_type. rewrite <- S. rewrite eqb_reflx, andb_true_r.
  destruct (Z.eqb_spec (it_w p) (it_w q)) as [E | E].
  - repeat split; try assumption. apply (Up q p); auto; lia.
  - specialize (Upp p a W1 N1 Fa) as Fa'. specialize (Upp q b W2 N2 Fb) as Fb'.
    destruct (Pp p W1 I1 N1) as (P1 & J1 & K1). destruct (Pp q W2 I2 N2) as (P2 & J2 & K2).
    clear Upp Pp.
    destruct (Bool.eqb (it_signed (promoted p)) (it_signed (promoted q))) eqn:Es.
    + apply eqb_prop in Es.
      destruct (Z.ltb_spec (it_w (promoted p)) (it_w (promoted q))).
      * repeat split; try apply P2; try assumption.
        apply (Up (promoted p)); auto; first [lia | apply P1].
      * repeat split; try apply P1; try assumption.
        apply (Up (promoted q)); auto; first [lia | apply P2].
    + (* one of the two is narrow, the other unsigned and wide *)
      assert (it_signed p = false).
      { unfold promoted in Es. destruct (it_w p <? it_ib p), (it_w q <? it_ib q);
          cbn [it_signed] in Es; rewrite <- ?S in Es; destruct (it_signed p); cbn in Es;
          congruence. }
      assert (Nn : forall x v, it_signed x = false -> fits x v -> 0 <= v).
      { intros x v Ex Fx. unfold fits in Fx. rewrite Ex in Fx. lia. }
      pose proof (Nn p a H Fa) as A0.
      pose proof (Nn q b ltac:(congruence) Fb) as B0.
      assert (Cross : forall x y v, it_w x <= it_w y -> it_signed x = true ->
                 2 <= it_w x -> 0 <= v -> fits x v -> it_signed y = false -> fits y v).
      { intros x y v L Ex Wx V F Ey. unfold fits in *. rewrite Ex in F. rewrite Ey.
        pose proof (Z.pow_le_mono_r 2 (it_w x) (it_w y) ltac:(lia) L).
        pose proof (pow_half (it_w x) ltac:(lia)). lia. }
      assert (forall x, it_signed x = false -> it_signed (promoted x) = true ->
                it_w (promoted x) = it_ib x).
      { intros x Ex Exp. unfold promoted in *. destruct (it_w x <? it_ib x); [reflexivity|].
        congruence. }
      destruct (it_signed (promoted p)) eqn:Sp, (it_signed (promoted q)) eqn:Sq;
        cbn in Es; try discriminate.
      * rewrite (H0 p H Sp) in *.
        replace (it_ib p <=? it_w (promoted q)) with true by (symmetry; apply Z.leb_le; lia).
        repeat split; try apply P2; try assumption.
        apply (Cross (promoted p)); auto; rewrite ?(H0 p H Sp); lia.
      * assert (Hq : it_signed q = false) by congruence. rewrite (H0 q Hq Sq) in *.
        replace (it_ib q <=? it_w (promoted p)) with true by (symmetry; apply Z.leb_le; lia).
        repeat split; try apply P1; try assumption.
        apply (Cross (promoted q)); auto; rewrite ?(H0 q Hq Sq); lia.
Qed.
Print Assumptions C65_same_signedness.

Example C65_same_signedness_case :
  fits (common_type t_int8 t_int) (-128) /\ fits (common_type t_int8 t_int) 100000.
Proof. apply (C65_same_signedness t_int8 t_int); unfold platform_type, fits; cbn; lia. Qed.

(** [indices(c)] sees [0], ..., [size-1]. *)
Theorem C65_indices : forall t size fuel,
  platform_type t -> it_signed t = false -> fits t size -> (Z.to_nat size <= fuel)%nat ->
  loop_over t (indices size) fuel = (map Z.of_nat (seq 0 (Z.to_nat size)), Finished).
Proof.
  intros t size fuel P S F Hf.
  assert (0 <= size) by (unfold fits in F; rewrite S in F; lia).
  assert (F0 : fits t 0) by (unfold fits in *; rewrite S in *; lia).
  unfold loop_over, indices, range_impl. cbn [rp_begin rp_end].
  change {| it_current := 0 |} with (at_ 0). change {| it_current := size |} with (at_ size).
  rewrite (loop_up t P size F (Z.to_nat size) 0 fuel F0 ltac:(lia) Hf).
  f_equal. unfold progression. apply map_ext. intros. lia.
Qed.
Print Assumptions C65_indices.

Example C65_indices_case : loop_over t_size (indices 3) 7 = ([0; 1; 2], Finished).
Proof. reflexivity. Qed.

(** The one-argument [range(a)] starts at [a] and does not end: for [unsigned] and wider it
    goes on modulo [2^w] ... *)
Theorem C65_open_range_unsigned : forall t a n,
  platform_type t -> it_signed t = false -> it_ib t <= it_w t -> fits t a ->
  loop_over_step t (range1 a) n
    = (map (fun k => (a + Z.of_nat k) mod 2 ^ it_w t) (seq 0 n), Running).
Proof.
  intros t a n P S W F.
  assert (W1 : 1 <= it_w t) by (destruct P; lia).
  assert (F1 : fits t 1).
  { unfold fits. rewrite S. pose proof (Z.pow_gt_1 2 (it_w t)). lia. }
  assert (Nf : never_fails t) by (unfold never_fails; rewrite S; assumption).
  unfold loop_over_step, range1, infinite_range, step_range_impl. cbn [sp_begin sp_end].
  rewrite (step_mod_0 t a 1 true W1 F).
  rewrite (mod_passes t a 1 true _ P Nf F F1).
  - f_equal. apply map_ext. intros k. unfold conv. rewrite S. f_equal. lia.
  - intros j _. reflexivity.
Qed.
Print Assumptions C65_open_range_unsigned.

Example C65_open_range_unsigned_case :
  loop_over_step t_uint (range1 4294967294) 4 = ([4294967294; 4294967295; 0; 1], Running).
Proof. reflexivity. Qed.

(** ... for [int] and wider it goes on until its counter or its value would pass the
    greatest value: after [2^(w-1)] values when [a <= 0], after fewer when [a > 0]. *)
Theorem C65_open_range_int : forall t a n,
  platform_type t -> int_like t -> fits t a ->
  let last := Z.min (greatest t) (greatest t - a) in
  (Z.of_nat n <= last -> loop_over_step t (range1 a) n = (progression a 1 n, Running)) /\
  (last < Z.of_nat n -> loop_over_step t (range1 a) n
                        = (progression a 1 (Z.to_nat (last + 1)), Stuck SignedOverflow)).
Proof.
  intros t a n P I F last.
  assert (W : 2 <= it_w t) by (destruct P; lia).
  pose proof (Z.pow_pos_nonneg 2 (it_w t - 1) ltac:(lia) ltac:(lia)) as Pp.
  assert (G : greatest t = 2 ^ (it_w t - 1) - 1) by (unfold greatest; destruct I as [-> _]; reflexivity).
  pose proof F as F'. rewrite (fits_int_like t a I) in F'.
  unfold loop_over_step, range1, infinite_range, step_range_impl. cbn [sp_begin sp_end].
  rewrite !step_iter_of_at.
  assert (Go : forall m, Z.of_nat m <= last -> forall f, (m <= f)%nat ->
    for_range si_ne si_deref (si_incr t) f (step_at a 1 true 0) (step_at a 1 true 0) =
    let '(l, st) := for_range si_ne si_deref (si_incr t) (f - m)
                      (step_at a 1 true (0 + Z.of_nat m)) (step_at a 1 true 0) in
    (progression a 1 m ++ l, st)).
  { intros m Hm f Hf. rewrite (step_passes t a 1 true _ P m 0 f); [|intros; reflexivity| |assumption].
    - replace (a + 0 * 1) with a by ring. reflexivity.
    - intros j Hj. rewrite !(fits_int_like t _ I). lia. }
  split; intros Hn.
  - rewrite (Go n Hn n (le_n _)). rewrite Nat.sub_diag. cbn [for_range].
    rewrite si_ne_step. cbn [orb]. now rewrite app_nil_r.
  - rewrite (Go (Z.to_nat last)) by lia.
    destruct (n - Z.to_nat last)%nat as [|f] eqn:Ef; [lia|]. cbn [for_range].
    rewrite si_ne_step. cbn [orb].
    rewrite (si_incr_stuck t a 1 true _ P I).
    + replace (Z.to_nat (last + 1)) with (S (Z.to_nat last)) by lia.
      rewrite progression_snoc. cbn [si_deref si_current step_at]. f_equal.
    + rewrite !(fits_int_like t _ I). lia.
Qed.
Print Assumptions C65_open_range_int.

Example C65_open_range_int_case :
  loop_over_step t_int (range1 2147483645) 9
    = ([2147483645; 2147483646; 2147483647], Stuck SignedOverflow).
Proof. reflexivity. Qed.

(** [range(a).step(s)] in [unsigned]. *)
Theorem C65_open_range_step : forall t a s n,
  platform_type t -> it_signed t = false -> it_ib t <= it_w t -> fits t a -> fits t s ->
  loop_over_step t (infinite_step (range1 a) s) n
    = (map (fun k => (a + Z.of_nat k * s) mod 2 ^ it_w t) (seq 0 n), Running).
Proof.
  intros t a s n P S W F Fs.
  assert (W1 : 1 <= it_w t) by (destruct P; lia).
  assert (Nf : never_fails t) by (unfold never_fails; rewrite S; assumption).
  unfold loop_over_step, infinite_step, range1, infinite_range, step_range_impl.
  cbn [sp_begin sp_end si_deref si_current step_iter_of].
  change (si_deref (step_iter_of a 1 true)) with a.
  rewrite (step_mod_0 t a s true W1 F).
  rewrite (mod_passes t a s true _ P Nf F Fs).
  - f_equal. apply map_ext. intros k. unfold conv. rewrite S. reflexivity.
  - intros j _. reflexivity.
Qed.
Print Assumptions C65_open_range_step.

Example C65_open_range_step_case :
  loop_over_step t_uint (infinite_step (range1 5) 10) 3 = ([5; 15; 25], Running).
Proof. reflexivity. Qed.

(** ** C66. Stepped ranges *)

(** [range(a,b,s)] with [s > 0] sees exactly the [a + k*s] below [b], in order: [n] is the
    least number of steps that reach [b].  The value that ends the loop has to be
    representable, and in [int] also the product [n*s]. *)
Theorem C66_stepped_range : forall t a b s n fuel,
  platform_type t -> fits t a -> fits t b -> fits t s -> 0 < s ->
  (forall k, 0 <= k < Z.of_nat n -> a + k * s < b) -> b <= a + Z.of_nat n * s ->
  fits t (a + Z.of_nat n * s) -> (int_like t -> Z.of_nat n * s <= greatest t) ->
  (n <= fuel)%nat ->
  loop_over_step t (step_range_impl a b s false) fuel = (progression a s n, Finished).
Proof.
  intros t a b s n fuel P Fa Fb Fs Hs Hlt Hge Fn Hp Hf.
  pose proof P as (W & I & N). assert (W1 : 1 <= it_w t) by lia.
  unfold loop_over_step, step_range_impl. cbn [sp_begin sp_end].
  assert (Mid : forall k, 0 <= k <= Z.of_nat n -> fits t (a + k * s)).
  { intros k Hk. assert (a <= a + k * s <= a + Z.of_nat n * s) by nia.
    unfold fits in *. destruct (it_signed t); lia. }
  assert (Cases : never_fails t \/ int_like t \/ (it_signed t = false)).
  { unfold never_fails, int_like. destruct (it_signed t) eqn:S; [|tauto].
    destruct (Z_lt_dec (it_w t) (it_ib t)); [tauto|]. right; left; split; [reflexivity|lia]. }
  destruct Cases as [Nf | Cases].
  - rewrite (step_mod_0 t a s false W1 Fa).
    rewrite (mod_passes_n t a s false _ P Nf Fa Fs n 0 fuel); [| |assumption].
    + destruct (fuel - n)%nat; cbn [for_range]; unfold si_ne, si_eq;
        cbn [si_infinite si_current step_mod step_iter_of];
        rewrite conv_fits by (try apply Mid; lia || assumption);
        replace (_ >=? b) with true by (symmetry; rewrite Z.geb_leb; apply Z.leb_le; lia);
        cbn [negb andb]; rewrite app_nil_r; f_equal; unfold progression;
        apply map_ext_in; intros k Hk; apply in_seq in Hk; rewrite conv_fits by (try apply Mid; lia);
        f_equal; lia.
    + intros j Hj. unfold si_ne, si_eq. cbn [si_infinite si_current step_mod step_iter_of].
      rewrite conv_fits by (try apply Mid; lia).
      replace (_ >=? b) with false; [reflexivity|].
      symmetry. rewrite Z.geb_leb. apply Z.leb_gt. apply Hlt. lia.
  - assert (Prod : forall k, 0 <= k <= Z.of_nat n -> fits t (k * s) /\ fits t k).
    { intros k Hk. assert (0 <= k * s <= Z.of_nat n * s) by nia. assert (k <= k * s) by nia.
      destruct Cases as [C | C].
      - specialize (Hp C). pose proof (Z.pow_pos_nonneg 2 (it_w t - 1)).
        rewrite !(fits_int_like t _ C).
        unfold greatest in Hp. destruct C as [C _]. rewrite C in Hp. lia.
      - unfold fits in *. rewrite C in *. lia. }
    rewrite !step_iter_of_at.
    rewrite (step_passes t a s false _ P n 0 fuel); [| | |assumption].
    + replace (a + 0 * s) with a by ring.
      destruct (fuel - n)%nat; cbn [for_range]; rewrite si_ne_step; cbn [orb];
        replace (_ <? _) with false by (symmetry; apply Z.ltb_ge; lia);
        now rewrite app_nil_r.
    + intros j Hj. rewrite si_ne_step. cbn [orb]. apply Z.ltb_lt.
      specialize (Hlt j ltac:(lia)). lia.
    + intros j Hj. destruct (Prod j ltac:(lia)). replace (0 + j) with j by lia.
      split; [assumption|]. split; [assumption|]. apply Mid; lia.
Qed.
Print Assumptions C66_stepped_range.

Example C66_case :
  loop_over_step t_int (step_range_impl (-3) 9 5 false) 5 = ([-3; 2; 7], Finished).
Proof.
  apply (C66_stepped_range t_int (-3) 9 5 3 5);
    unfold platform_type, fits, greatest, int_like; cbn -[Z.add Z.mul Z.pow]; lia.
Qed.

(** The same for [range(a,b,s)] with arguments of three types: the elements have their common
    type, taken from the left. *)
Theorem C66_common_type : forall p q r a b s n fuel,
  let t := common_type (common_type p q) r in
  platform_type t -> fits t a -> fits t b -> fits t s -> 0 < s ->
  (forall k, 0 <= k < Z.of_nat n -> a + k * s < b) -> b <= a + Z.of_nat n * s ->
  fits t (a + Z.of_nat n * s) -> (int_like t -> Z.of_nat n * s <= greatest t) ->
  (n <= fuel)%nat ->
  fst (range3 p q r a b s) = t /\
  loop_over_step t (snd (range3 p q r a b s)) fuel = (progression a s n, Finished).
Proof.
  intros p q r a b s n fuel t P Fa Fb Fs Hs Hlt Hge Fn Hp Hf. split; [reflexivity|].
  unfold range3. cbn [snd]. fold t.
  assert (W : 1 <= it_w t) by (destruct P; lia).
  rewrite !conv_fits by assumption. now apply C66_stepped_range.
Qed.
Print Assumptions C66_common_type.

Example C66_common_type_case :
  loop_over_step t_int (snd (range3 t_int8 t_int t_int8 (-3) 9 5)) 5 = ([-3; 2; 7], Finished).
Proof.
  apply (C66_common_type t_int8 t_int t_int8 (-3) 9 5 3 5);
    unfold platform_type, fits, greatest, int_like; cbn -[Z.add Z.mul Z.pow]; lia.
Qed.

(** In [int] a positive step whose product or last value is not representable ends in
    undefined behaviour instead, although every value seen is in range: [k] is the first
    such step. *)
Theorem C66_overflow : forall t a b s k fuel,
  platform_type t -> int_like t -> fits t a -> 0 < s ->
  (forall j, 0 <= j <= Z.of_nat k -> a + j * s < b /\ j * s <= greatest t) ->
  fits t b -> (greatest t < (Z.of_nat k + 1) * s \/ greatest t < a + (Z.of_nat k + 1) * s) ->
  (k < fuel)%nat ->
  loop_over_step t (step_range_impl a b s false) fuel
    = (progression a s (S k), Stuck SignedOverflow).
Proof.
  intros t a b s k fuel P I Fa Hs Hlt Fb Hov Hf.
  pose proof (Z.pow_pos_nonneg 2 (it_w t - 1) ltac:(lia) ltac:(destruct P; lia)) as Pp.
  assert (G : greatest t = 2 ^ (it_w t - 1) - 1) by (unfold greatest; destruct I as [-> _]; reflexivity).
  rewrite (fits_int_like t a I) in Fa. rewrite (fits_int_like t b I) in Fb.
  unfold loop_over_step, step_range_impl. cbn [sp_begin sp_end]. rewrite !step_iter_of_at.
  rewrite (step_passes t a s false _ P k 0 fuel); [| | |lia].
  - destruct (fuel - k)%nat as [|f] eqn:E; [lia|]. cbn [for_range].
    rewrite si_ne_step. cbn [orb].
    replace (_ <? _) with true.
    + rewrite (si_incr_stuck t a s false _ P I).
      * rewrite progression_snoc. replace (a + 0 * s) with a by ring.
        cbn [si_deref si_current step_at]. f_equal.
      * rewrite !(fits_int_like t _ I). replace (0 + Z.of_nat k + 1) with (Z.of_nat k + 1) by lia. lia.
    + symmetry. apply Z.ltb_lt. pose proof (Hlt (Z.of_nat k)). lia.
  - intros j Hj. rewrite si_ne_step. cbn [orb]. apply Z.ltb_lt. pose proof (Hlt j). lia.
  - intros j Hj. rewrite !(fits_int_like t _ I). pose proof (Hlt j ltac:(lia)).
    replace (0 + j) with j by lia. assert (j <= j * s) by nia. lia.
Qed.
Print Assumptions C66_overflow.

Example C66_overflow_case :
  loop_over_step t_int (step_range_impl 0 2147483647 2000000000 false) 5
    = ([0; 2000000000], Stuck SignedOverflow).
Proof.
  apply (C66_overflow t_int 0 2147483647 2000000000 1 5);
    unfold platform_type, fits, greatest, int_like; cbn -[Z.add Z.mul Z.pow]; lia.
Qed.

(** Nothing is seen when the bounds are not in order, whatever the step: a range cannot count
    down. *)
Theorem C66_empty : forall t a b s fuel,
  b <= a -> loop_over_step t (step_range_impl a b s false) fuel = ([], Finished).
Proof.
  intros t a b s fuel H. unfold loop_over_step, step_range_impl. cbn [sp_begin sp_end].
  rewrite !step_iter_of_at. destruct fuel; cbn [for_range]; rewrite si_ne_step; cbn [orb];
    replace (_ <? _) with false by (symmetry; apply Z.ltb_ge; lia); reflexivity.
Qed.
Print Assumptions C66_empty.

Example C66_empty_case : loop_over_step t_int (step_range_impl 10 0 (-2) false) 5 = ([], Finished).
Proof. reflexivity. Qed.

(** With step 0 the loop repeats [a]: without end in unsigned and in narrow signed types ... *)
Theorem C66_zero_step_forever : forall t a b n,
  platform_type t -> never_fails t -> fits t a -> a < b ->
  loop_over_step t (step_range_impl a b 0 false) n = (repeat a n, Running).
Proof.
  intros t a b n P Nf Fa H. assert (W1 : 1 <= it_w t) by (destruct P; lia).
  assert (F0 : fits t 0).
  { unfold fits. pose proof (Z.pow_pos_nonneg 2 (it_w t - 1)).
    pose proof (Z.pow_pos_nonneg 2 (it_w t)). destruct (it_signed t); lia. }
  assert (Ea : forall k, conv t (a + k * 0) = a).
  { intros k. replace (a + k * 0) with a by ring. now apply conv_fits. }
  unfold loop_over_step, step_range_impl. cbn [sp_begin sp_end].
  rewrite (step_mod_0 t a 0 false W1 Fa).
  rewrite (mod_passes t a 0 false _ P Nf Fa F0).
  - f_equal. rewrite (map_ext _ (fun _ => a)) by (intros; apply Ea).
    clear. generalize 0%nat. induction n; intros m; cbn [seq map repeat]; [reflexivity|].
    now rewrite IHn.
  - intros j _. unfold si_ne, si_eq. cbn [si_infinite si_current step_mod step_iter_of].
    rewrite Ea. replace (a >=? b) with false; [reflexivity|].
    symmetry. rewrite Z.geb_leb. apply Z.leb_gt. assumption.
Qed.
Print Assumptions C66_zero_step_forever.

Example C66_zero_step_forever_case :
  loop_over_step t_uint (step_range_impl 4 5 0 false) 3 = ([4; 4; 4], Running).
Proof. reflexivity. Qed.

(** ... and [2^(w-1)] times in [int], when the step counter overflows. *)
Theorem C66_zero_step_int : forall t a b n,
  platform_type t -> int_like t -> fits t a -> a < b -> greatest t < Z.of_nat n ->
  loop_over_step t (step_range_impl a b 0 false) n
    = (repeat a (Z.to_nat (greatest t + 1)), Stuck SignedOverflow).
Proof.
  intros t a b n P I Fa H Hn.
  pose proof (Z.pow_pos_nonneg 2 (it_w t - 1) ltac:(lia) ltac:(destruct P; lia)) as Pp.
  assert (G : greatest t = 2 ^ (it_w t - 1) - 1) by (unfold greatest; destruct I as [-> _]; reflexivity).
  rewrite (fits_int_like t a I) in Fa.
  unfold loop_over_step, step_range_impl. cbn [sp_begin sp_end]. rewrite !step_iter_of_at.
  rewrite (step_passes t a 0 false _ P (Z.to_nat (greatest t)) 0 n); [| | |lia].
  - destruct (n - Z.to_nat (greatest t))%nat as [|f] eqn:E; [lia|]. cbn [for_range].
    rewrite si_ne_step. cbn [orb].
    replace (_ <? _) with true by (symmetry; apply Z.ltb_lt; lia).
    rewrite (si_incr_stuck t a 0 false _ P I) by (rewrite !(fits_int_like t _ I); lia).
    f_equal. cbn [si_deref si_current step_at].
    replace (Z.to_nat (greatest t + 1)) with (Z.to_nat (greatest t) + 1)%nat by lia.
    rewrite repeat_app. cbn [repeat]. f_equal; [|f_equal; lia].
    generalize (Z.to_nat (greatest t)). clear. intros m. unfold progression.
    rewrite (map_ext _ (fun _ => a)) by (intros; lia).
    generalize 0%nat. induction m; intros x; cbn [seq map repeat]; [reflexivity|]. now rewrite IHm.
  - intros j Hj. rewrite si_ne_step. cbn [orb]. apply Z.ltb_lt. lia.
  - intros j Hj. rewrite !(fits_int_like t _ I). lia.
Qed.
Print Assumptions C66_zero_step_int.

Example C66_zero_step_int_case :
  let t := {| it_w := 3; it_signed := true; it_ib := 3 |} in
  loop_over_step t (step_range_impl 1 2 0 false) 9 = ([1; 1; 1; 1], Stuck SignedOverflow).
Proof. reflexivity. Qed.

(** A negative step with the bounds in order counts down, away from the end, until the next
    value is not representable. *)
Theorem C66_negative_step : forall t a b s k fuel,
  platform_type t -> int_like t -> fits t a -> s < 0 -> a < b ->
  (forall j, 0 <= j <= Z.of_nat k -> fits t j /\ fits t (j * s) /\ fits t (a + j * s)) ->
  ~ (fits t (Z.of_nat k + 1) /\ fits t ((Z.of_nat k + 1) * s) /\ fits t (a + (Z.of_nat k + 1) * s)) ->
  (k < fuel)%nat ->
  loop_over_step t (step_range_impl a b s false) fuel
    = (progression a s (S k), Stuck SignedOverflow).
Proof.
  intros t a b s k fuel P I Fa Hs Hlt Hj Hov Hf.
  unfold loop_over_step, step_range_impl. cbn [sp_begin sp_end]. rewrite !step_iter_of_at.
  rewrite (step_passes t a s false _ P k 0 fuel); [| | |lia].
  - destruct (fuel - k)%nat as [|f] eqn:E; [lia|]. cbn [for_range].
    rewrite si_ne_step. cbn [orb].
    replace (_ <? _) with true by (symmetry; apply Z.ltb_lt; nia).
    replace (0 + Z.of_nat k) with (Z.of_nat k) by lia.
    rewrite (si_incr_stuck t a s false _ P I Hov).
    rewrite progression_snoc. replace (a + 0 * s) with a by ring.
    cbn [si_deref si_current step_at]. reflexivity.
  - intros j Hk. rewrite si_ne_step. cbn [orb]. apply Z.ltb_lt. nia.
  - intros j Hk. replace (0 + j) with j by lia. apply Hj. lia.
Qed.
Print Assumptions C66_negative_step.

Example C66_negative_step_case :
  loop_over_step t_int (step_range_impl 0 5 (-1500000000) false) 5
    = ([0; -1500000000], Stuck SignedOverflow).
Proof.
  apply (C66_negative_step t_int 0 5 (-1500000000) 1 5);
    unfold platform_type, fits, greatest, int_like; cbn -[Z.add Z.mul Z.pow]; lia.
Qed.

(** In [unsigned] the sequence wraps around when the value after the last one is not
    representable: the loop sees a value below the end again. *)
Theorem C66_unsigned_wraps : forall t a b s n fuel,
  platform_type t -> it_signed t = false -> it_ib t <= it_w t ->
  fits t a -> fits t b -> fits t s ->
  (forall k, 0 <= k < Z.of_nat n -> a + k * s < b) ->
  2 ^ it_w t <= a + Z.of_nat n * s < 2 ^ it_w t + b ->
  (n < fuel)%nat ->
  exists rest status,
    loop_over_step t (step_range_impl a b s false) fuel
      = (progression a s n ++ (a + Z.of_nat n * s - 2 ^ it_w t) :: rest, status).
Proof.
  intros t a b s n fuel P S W Fa Fb Fs Hlt Hw Hf.
  assert (W1 : 1 <= it_w t) by (destruct P; lia).
  assert (Nf : never_fails t) by (unfold never_fails; rewrite S; assumption).
  assert (Mid : forall k, 0 <= k < Z.of_nat n -> conv t (a + k * s) = a + k * s).
  { intros k Hk. apply conv_fits; [assumption|]. specialize (Hlt k Hk).
    unfold fits in *. rewrite S in *. nia. }
  unfold loop_over_step, step_range_impl. cbn [sp_begin sp_end].
  rewrite (step_mod_0 t a s false W1 Fa).
  rewrite (mod_passes_n t a s false _ P Nf Fa Fs n 0 fuel); [| |lia].
  - destruct (fuel - n)%nat as [|f] eqn:E; [lia|]. cbn [for_range].
    assert (C : conv t (a + (0 + Z.of_nat n) * s) = a + Z.of_nat n * s - 2 ^ it_w t).
    { apply congruent_unique; [assumption|]. split.
      - unfold fits in *. rewrite S in *. lia.
      - exists 1. lia. }
    unfold si_ne at 1, si_eq at 1. cbn [si_infinite si_current step_mod step_iter_of].
    rewrite C. replace (_ >=? b) with false
      by (symmetry; rewrite Z.geb_leb; apply Z.leb_gt; lia). cbn [negb andb].
    rewrite (si_incr_mod t a s false _ P Nf Fa Fs).
    destruct (for_range _ _ _ f _ _) as [rest status]. exists rest, status.
    cbn [si_deref si_current step_mod]. rewrite C. f_equal. f_equal.
    unfold progression. apply map_ext_in. intros k Hk. apply in_seq in Hk. rewrite Mid by lia.
    f_equal.
  - intros j Hj. unfold si_ne, si_eq. cbn [si_infinite si_current step_mod step_iter_of].
    rewrite Mid by lia. replace (_ >=? b) with false; [reflexivity|].
    symmetry. rewrite Z.geb_leb. apply Z.leb_gt. apply Hlt. lia.
Qed.
Print Assumptions C66_unsigned_wraps.

Example C66_unsigned_wraps_case :
  loop_over_step t_uint (step_range_impl 4294967290 4294967295 3 false) 4
    = ([4294967290; 4294967293; 0; 3], Running).
Proof. reflexivity. Qed.

(** ** C67. Bounds in the wrong order *)

(** [range(a,b)], [a > b], does not stop at once: in [int] it runs up to the greatest value
    and overflows, *)
Theorem C67_reversed_int : forall t a b fuel,
  platform_type t -> int_like t -> fits t a -> fits t b -> b < a ->
  (Z.to_nat (greatest t - a) < fuel)%nat ->
  loop_over t (range_impl a b) fuel
    = (progression a 1 (S (Z.to_nat (greatest t - a))), Stuck SignedOverflow).
Proof.
  intros t a b fuel P I Fa Fb H Hf.
  assert (a <= greatest t).
  { unfold greatest, fits in *. destruct I as [S _]. rewrite S in *. lia. }
  unfold loop_over, range_impl. cbn [rp_begin rp_end].
  change {| it_current := a |} with (at_ a). change {| it_current := b |} with (at_ b).
  rewrite (loop_to_greatest t P b (Z.to_nat (greatest t - a))) by (assumption || lia).
  destruct (fuel - Z.to_nat (greatest t - a))%nat as [|f] eqn:E; [lia|].
  cbn [for_range]. rewrite it_ne_at.
  replace (greatest t =? b) with false by (symmetry; apply Z.eqb_neq; lia). cbn [negb].
  rewrite (it_incr_greatest_stuck t I). rewrite progression_snoc. f_equal. f_equal.
  cbn [it_deref at_ it_current]. f_equal. lia.
Qed.
Print Assumptions C67_reversed_int.

Example C67_case :
  loop_over t_int (range_impl 2147483646 5) 9 = ([2147483646; 2147483647], Stuck SignedOverflow).
Proof. reflexivity. Qed.

(** in unsigned types and types narrower than [int] it wraps around and ends. *)
Theorem C67_reversed_wraps : forall t a b fuel,
  platform_type t -> wraps t -> fits t a -> fits t b -> b < a ->
  (Z.to_nat (greatest t - a) + 1 + Z.to_nat (b - least t) <= fuel)%nat ->
  loop_over t (range_impl a b) fuel
    = (progression a 1 (S (Z.to_nat (greatest t - a)))
       ++ progression (least t) 1 (Z.to_nat (b - least t)), Finished).
Proof.
  intros t a b fuel P I Fa Fb H Hf.
  assert (a <= greatest t /\ least t <= b /\ fits t (least t)).
  { unfold greatest, least, fits in *. destruct (it_signed t); lia. }
  unfold loop_over, range_impl. cbn [rp_begin rp_end].
  change {| it_current := a |} with (at_ a). change {| it_current := b |} with (at_ b).
  rewrite (loop_to_greatest t P b (Z.to_nat (greatest t - a))) by (assumption || lia).
  destruct (fuel - Z.to_nat (greatest t - a))%nat as [|f] eqn:E; [lia|].
  cbn [for_range]. rewrite it_ne_at.
  replace (greatest t =? b) with false by (symmetry; apply Z.eqb_neq; lia). cbn [negb].
  rewrite (it_incr_greatest_wraps t P I).
  rewrite (loop_up t P b Fb (Z.to_nat (b - least t))) by (tauto || lia).
  rewrite progression_snoc, <- app_assoc. cbn [app it_deref at_ it_current].
  f_equal. f_equal. f_equal. lia.
Qed.
Print Assumptions C67_reversed_wraps.

Example C67_reversed_wraps_case :
  loop_over t_int8 (range_impl 126 (-126)) 9 = ([126; 127; -128; -127], Finished).
Proof. reflexivity. Qed.

(** A negative first bound with an unsigned second one of the same width is such a case. *)
Theorem C67_mixed_signs : forall p q a b fuel,
  it_signed p = true -> it_signed q = false -> it_w p = it_w q -> it_ib p = it_ib q ->
  2 <= it_ib p <= it_w p ->
  fits p a -> fits q b -> a < 0 -> b < 2 ^ it_w q + a ->
  (Z.to_nat (- a) + Z.to_nat b <= fuel)%nat ->
  loop_over (fst (range2 p q a b)) (snd (range2 p q a b)) fuel
    = (progression (2 ^ it_w q + a) 1 (Z.to_nat (- a)) ++ progression 0 1 (Z.to_nat b), Finished).
Proof.
  intros p q a b fuel Sp Sq Ew Ei Hi Fa Fb Ha Hb Hf.
  assert (Ct : common_type p q = q).
  { unfold common_type. rewrite Ew, Z.eqb_refl, Sp, Sq. cbn [Bool.eqb andb].
    unfold promoted. rewrite Ew, Ei.
    replace (it_w q <? it_ib q) with false by (symmetry; apply Z.ltb_ge; lia).
    rewrite Sp, Sq. cbn [Bool.eqb]. rewrite Ew, Z.leb_refl. reflexivity. }
  assert (Pq : platform_type q) by (unfold platform_type; lia).
  pose proof (pow_half (it_w q) ltac:(lia)) as Ph.
  assert (Fa' : fits q (2 ^ it_w q + a)).
  { unfold fits in *. rewrite Sp, Ew in Fa. rewrite Sq in *. lia. }
  unfold range2. rewrite Ct. cbn [fst snd].
  replace (conv q a) with (2 ^ it_w q + a).
  2: { symmetry. apply congruent_unique; [lia|]. split; [assumption|]. exists (-1). lia. }
  rewrite (conv_fits q b) by (assumption || lia).
  assert (G : greatest q = 2 ^ it_w q - 1) by (unfold greatest; now rewrite Sq).
  assert (L : least q = 0) by (unfold least; now rewrite Sq).
  pose proof (C67_reversed_wraps q (2 ^ it_w q + a) b fuel Pq (or_introl Sq) Fa' Fb Hb) as T.
  rewrite G, L in T.
  replace (S (Z.to_nat (2 ^ it_w q - 1 - (2 ^ it_w q + a)))) with (Z.to_nat (- a)) in T by lia.
  replace (b - 0) with b in T by lia. apply T. lia.
Qed.
Print Assumptions C67_mixed_signs.

Example C67_mixed_signs_case :
  loop_over (fst (range2 t_int t_uint (-1) 2)) (snd (range2 t_int t_uint (-1) 2)) 9
    = ([4294967295; 0; 1], Finished).
Proof. reflexivity. Qed.
