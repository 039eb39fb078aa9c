(** Proofs about register accesses. *)

From Coq Require Import ZArith List Bool Lia.
From Verif Require Import Base Register RegisterSpec.
Import ListNotations.
Open Scope Z_scope.

Lemma Some_eq {A} (x y : A) : Some x = Some y -> x = y.
Proof. congruence. Qed.

(** ** Numbers as bits *)

Lemma bits_nbits w : bits w = nbits w.
Proof. destruct w; reflexivity. Qed.

Lemma nbits_pos w : 0 < nbits w <= 16.
Proof. destruct w; cbn; lia. Qed.

Lemma testbit_trunc w v i :
  0 <= i -> Z.testbit (trunc w v) i = (i <? nbits w) && Z.testbit v i.
Proof.
  intros H. unfold trunc. rewrite bits_nbits.
  destruct (Z.ltb_spec i (nbits w)).
  - rewrite Z.mod_pow2_bits_low by lia. reflexivity.
  - rewrite Z.mod_pow2_bits_high; [reflexivity|]. pose proof (nbits_pos w); lia.
Qed.

Lemma trunc_range w v : 0 <= trunc w v < 2 ^ nbits w.
Proof.
  unfold trunc. rewrite bits_nbits. apply Z.mod_pos_bound.
  apply Z.pow_pos_nonneg; pose proof (nbits_pos w); lia.
Qed.

Lemma trunc_small w v : 0 <= v < 2 ^ nbits w -> trunc w v = v.
Proof. intros H. unfold trunc. rewrite bits_nbits. apply Z.mod_small, H. Qed.

Lemma bits_ext a b n :
  0 <= n -> 0 <= a < 2 ^ n -> 0 <= b < 2 ^ n ->
  (forall i, 0 <= i < n -> Z.testbit a i = Z.testbit b i) -> a = b.
Proof.
  intros Hn Ha Hb H. apply Z.bits_inj'. intros i Hi.
  destruct (Z_lt_ge_dec i n); [apply H; lia|].
  rewrite <- (Z.mod_small a (2 ^ n)) by lia.
  rewrite <- (Z.mod_small b (2 ^ n)) by lia.
  rewrite !Z.mod_pow2_bits_high by lia. reflexivity.
Qed.

Lemma testbit_above v n i : 0 <= n <= i -> 0 <= v < 2 ^ n -> Z.testbit v i = false.
Proof.
  intros Hi Hv. rewrite <- (Z.mod_small v (2 ^ n)) by lia.
  apply Z.mod_pow2_bits_high. lia.
Qed.

Lemma testbit_int_bit b i :
  0 <= b < 16 -> 0 <= i < 16 -> Z.testbit (int_bit b) i = (i =? b).
Proof.
  intros Hb Hi.
  assert (E : Z.testbit (int_bit b) i = Z.testbit (2 ^ b mod 2 ^ 16) i).
  { unfold int_bit. destruct (Z.ltb_spec (2 ^ b mod 2 ^ 16) (2 ^ 15)); [reflexivity|].
    rewrite <- (Z.mod_pow2_bits_low (2 ^ b mod 2 ^ 16 - 2 ^ 16) 16 i) by lia.
    rewrite <- (Z.mod_pow2_bits_low (2 ^ b mod 2 ^ 16) 16 i) by lia.
    f_equal. rewrite <- (Z_mod_plus_full (2 ^ b mod 2 ^ 16 - 2 ^ 16) 1 (2 ^ 16)).
    f_equal. lia. }
  rewrite E, Z.mod_pow2_bits_low by lia.
  rewrite Z.pow2_bits_eqb by lia. apply Z.eqb_sym.
Qed.

Lemma testbit_bitmask w bs i :
  Forall (fun b => 0 <= b < 16) bs -> 0 <= i ->
  Z.testbit (bitmask w bs) i = (i <? nbits w) && existsb (Z.eqb i) bs.
Proof.
  intros H Hi. unfold bitmask. rewrite testbit_trunc by lia.
  destruct (Z.ltb_spec i (nbits w)); [|reflexivity]. cbn [andb].
  pose proof (nbits_pos w).
  induction H as [|b bs Hb _ IH]; [apply Z.bits_0|].
  cbn [map fold_right existsb]. rewrite Z.lor_spec, IH, testbit_int_bit by lia.
  reflexivity.
Qed.

Lemma testbit_bitmask1 w b i :
  0 <= b < nbits w -> 0 <= i -> Z.testbit (bitmask w [b]) i = (i =? b).
Proof.
  intros Hb Hi. pose proof (nbits_pos w). rewrite testbit_bitmask.
  - cbn [existsb]. rewrite orb_false_r.
    destruct (Z.ltb_spec i (nbits w)), (Z.eqb_spec i b); cbn; try reflexivity; lia.
  - constructor; [lia|constructor].
  - exact Hi.
Qed.

Lemma testbit_bitmask_n w bs i :
  Forall (fun b => 0 <= b < 16) bs -> 0 <= i ->
  Z.testbit (bitmask_n w bs) i = (i <? nbits w) && negb (existsb (Z.eqb i) bs).
Proof.
  intros H Hi. unfold bitmask_n. rewrite testbit_trunc, Z.lnot_spec, testbit_bitmask
    by (lia || assumption).
  destruct (i <? nbits w); reflexivity.
Qed.

Lemma testbit_rngmask_loop w n lo r i :
  0 <= lo -> lo + Z.of_nat n <= 16 -> 0 <= i -> 0 <= r < 2 ^ nbits w ->
  Z.testbit (rngmask_loop w lo n r) i
  = Z.testbit r i || ((i <? nbits w) && ((lo <=? i) && (i <? lo + Z.of_nat n))).
Proof.
  revert lo r. induction n as [|n IH]; intros lo r Hlo Hn Hi Hr; cbn [rngmask_loop].
  - replace (lo + Z.of_nat 0) with lo by lia.
    destruct (Z.leb_spec lo i), (Z.ltb_spec i lo); try lia; cbn;
      rewrite ?andb_false_r, orb_false_r; reflexivity.
  - rewrite IH; try lia; [|apply trunc_range].
    rewrite testbit_trunc, Z.lor_spec, testbit_bitmask by
      (first [lia | constructor; [lia|constructor]]).
    cbn [existsb]. rewrite orb_false_r.
    destruct (Z.ltb_spec i (nbits w)); cbn [andb].
    + destruct (Z.testbit r i); [reflexivity|]; cbn [orb].
      destruct (Z.eqb_spec i lo), (Z.leb_spec (lo + 1) i), (Z.leb_spec lo i),
        (Z.ltb_spec i (lo + 1 + Z.of_nat n)), (Z.ltb_spec i (lo + Z.of_nat (S n)));
        cbn; try reflexivity; lia.
    + rewrite !orb_false_r. symmetry. apply (testbit_above r (nbits w)); [|exact Hr].
      pose proof (nbits_pos w); lia.
Qed.

Lemma testbit_rngmask w hi lo i :
  0 <= lo <= hi -> hi < nbits w -> 0 <= i ->
  Z.testbit (rngmask w hi lo) i = (lo <=? i) && (i <=? hi).
Proof.
  intros H1 H2 Hi. pose proof (nbits_pos w). unfold rngmask.
  rewrite testbit_rngmask_loop;
    [| lia | lia | lia | split; [lia|apply Z.pow_pos_nonneg; lia]].
  rewrite Z.bits_0. cbn [orb]. rewrite Z2Nat.id by lia.
  destruct (Z.ltb_spec i (nbits w)), (Z.leb_spec lo i), (Z.leb_spec i hi),
    (Z.ltb_spec i (lo + (hi - lo + 1))); cbn; try reflexivity; lia.
Qed.

Lemma testbit_rngmask_n w hi lo i :
  0 <= lo <= hi -> hi < nbits w -> 0 <= i ->
  Z.testbit (rngmask_n w hi lo) i = (i <? nbits w) && negb ((lo <=? i) && (i <=? hi)).
Proof.
  intros H1 H2 Hi. unfold rngmask_n. rewrite testbit_trunc, Z.lnot_spec, testbit_rngmask
    by lia. reflexivity.
Qed.

Lemma testbit_shl w v n i :
  0 <= n -> 0 <= i ->
  Z.testbit (shl w v n) i = (i <? nbits w) && ((n <=? i) && Z.testbit v (i - n)).
Proof.
  intros Hn Hi. unfold shl. rewrite testbit_trunc, Z.shiftl_spec by lia.
  destruct (Z.leb_spec n i); [reflexivity|].
  rewrite (Z.testbit_neg_r v (i - n)) by lia. reflexivity.
Qed.

(** ** Memory *)

Lemma content_range w a mem : bytes_ok mem -> 0 <= content w a mem < 2 ^ nbits w.
Proof.
  intros H. pose proof (H a). pose proof (H (a + 1)).
  destruct w; unfold content, nbits;
    [change (2 ^ 8) with 256 | change (2 ^ 16) with 65536]; lia.
Qed.

Lemma load_value w a m : fst (load w a m) = content w a (byte m).
Proof. destruct w; reflexivity. Qed.

Lemma load_byte w a m : byte (snd (load w a m)) = byte m.
Proof. reflexivity. Qed.

Lemma load_eq w a m :
  load w a m = (content w a (byte m), Machine (byte m) (bus m ++ [Rd w a])).
Proof. destruct w; reflexivity. Qed.

Section Store.

Context {hw : hardware} {w : width} {a : Z}.
Hypothesis HP : plain hw w a.

Lemma store_bytes v m c :
  byte (store hw w a v m) c
  = match w with
    | W8 => if c =? a then v else byte m c
    | W16 => if c =? a then v mod 256 else if c =? a + 1 then v / 256 else byte m c
    end.
Proof.
  destruct w; cbn.
  - apply HP. left; reflexivity.
  - change (Z.pow_pos 2 8) with 256. rewrite HP by (left; reflexivity).
    rewrite HP by (right; split; reflexivity). reflexivity.
Qed.

Lemma store_content v m :
  0 <= v < 2 ^ nbits w -> content w a (byte (store hw w a v m)) = v.
Proof.
  intros H. pose proof store_bytes as SB. unfold content.
  destruct w; rewrite !SB.
  - rewrite Z.eqb_refl. reflexivity.
  - rewrite Z.eqb_refl. replace (a + 1 =? a) with false by (symmetry; apply Z.eqb_neq; lia).
    rewrite Z.eqb_refl. pose proof (Z_div_mod_eq_full v 256). lia.
Qed.

Lemma store_elsewhere v m : same_elsewhere w a (byte m) (byte (store hw w a v m)).
Proof.
  intros c Hc. rewrite store_bytes. unfold part_of in Hc.
  destruct w; destruct (Z.eqb_spec c a); try (exfalso; apply Hc; left; assumption);
    [reflexivity|].
  destruct (Z.eqb_spec c (a + 1)); [exfalso; apply Hc; right; auto|reflexivity].
Qed.

Lemma store_ok v m :
  0 <= v < 2 ^ nbits w -> bytes_ok (byte m) -> bytes_ok (byte (store hw w a v m)).
Proof.
  intros Hv H c. rewrite store_bytes. specialize (H c).
  destruct w; cbn in Hv; destruct (c =? a); try lia.
  - apply Z.mod_pos_bound. lia.
  - destruct (c =? a + 1); [|lia]. split; [apply Z.div_pos; lia|].
    apply Z.div_lt_upper_bound; lia.
Qed.

Lemma store_bus v m : bus (store hw w a v m) = bus m ++ [Wr w a v].
Proof. reflexivity. Qed.

(** Reading the register, changing its content and writing it back. *)
Definition updated (m m' : machine) (v : Z) : Prop :=
  content w a (byte m') = v
  /\ same_elsewhere w a (byte m) (byte m')
  /\ bytes_ok (byte m')
  /\ bus m' = bus m ++ [Rd w a; Wr w a v].

Lemma rmw v m :
  bytes_ok (byte m) -> 0 <= v < 2 ^ nbits w ->
  updated m (store hw w a v (snd (load w a m))) v.
Proof.
  intros H Hv. repeat split.
  - apply store_content, Hv.
  - intros c Hc. rewrite (store_elsewhere v (snd (load w a m)) c Hc). reflexivity.
  - apply (store_ok v (snd (load w a m)) Hv H).
  - apply (store_ok v (snd (load w a m)) Hv H).
  - rewrite store_bus, load_eq. cbn. rewrite <- app_assoc. reflexivity.
Qed.

Lemma set_bit_updated b m :
  bytes_ok (byte m) -> 0 <= b < nbits w ->
  let v := trunc w (Z.lor (content w a (byte m)) (bitmask w [b])) in
  updated m (set_bit hw w a b m) v
  /\ forall i, 0 <= i < nbits w ->
     Z.testbit v i = if i =? b then true else Z.testbit (content w a (byte m)) i.
Proof.
  intros H Hb v. split.
  - unfold set_bit. rewrite load_eq. apply (rmw v m H (trunc_range w _)).
  - intros i Hi. unfold v. rewrite testbit_trunc, Z.lor_spec, testbit_bitmask1 by lia.
    replace (i <? nbits w) with true by (symmetry; apply Z.ltb_lt; lia). cbn [andb].
    destruct (i =? b); [apply orb_true_r|apply orb_false_r].
Qed.

Lemma clear_bit_w0_updated b m :
  bytes_ok (byte m) -> 0 <= b < nbits w ->
  let v := trunc w (Z.land (content w a (byte m)) (bitmask_n w [b])) in
  updated m (clear_bit_w0 hw w a b m) v
  /\ forall i, 0 <= i < nbits w ->
     Z.testbit v i = if i =? b then false else Z.testbit (content w a (byte m)) i.
Proof.
  intros H Hb v. pose proof (nbits_pos w). split.
  - unfold clear_bit_w0. rewrite load_eq. apply (rmw v m H (trunc_range w _)).
  - intros i Hi. unfold v. rewrite testbit_trunc, Z.land_spec, testbit_bitmask_n by
      (first [lia | constructor; [lia|constructor]]).
    replace (i <? nbits w) with true by (symmetry; apply Z.ltb_lt; lia). cbn [andb existsb].
    rewrite orb_false_r. destruct (i =? b); [apply andb_false_r|apply andb_true_r].
Qed.

Lemma toggle_bit_updated b m :
  bytes_ok (byte m) -> 0 <= b < nbits w ->
  let v := trunc w (Z.lxor (content w a (byte m)) (bitmask w [b])) in
  updated m (toggle_bit hw w a b m) v
  /\ forall i, 0 <= i < nbits w ->
     Z.testbit v i = if i =? b then negb (Z.testbit (content w a (byte m)) i)
                     else Z.testbit (content w a (byte m)) i.
Proof.
  intros H Hb v. split.
  - unfold toggle_bit. rewrite load_eq. apply (rmw v m H (trunc_range w _)).
  - intros i Hi. unfold v. rewrite testbit_trunc, Z.lxor_spec, testbit_bitmask1 by lia.
    replace (i <? nbits w) with true by (symmetry; apply Z.ltb_lt; lia). cbn [andb].
    destruct (i =? b); [apply xorb_true_r|apply xorb_false_r].
Qed.

Lemma write_mask_updated mask value m :
  bytes_ok (byte m) ->
  let v := trunc w (Z.lor (Z.land (content w a (byte m)) (Z.lnot mask))
                          (Z.land value mask)) in
  updated m (write_mask hw w a mask value m) v
  /\ forall i, 0 <= i < nbits w ->
     Z.testbit v i = if Z.testbit mask i then Z.testbit value i
                     else Z.testbit (content w a (byte m)) i.
Proof.
  intros H v. split.
  - unfold write_mask. rewrite load_eq. apply (rmw v m H (trunc_range w _)).
  - intros i Hi. unfold v.
    rewrite testbit_trunc, Z.lor_spec, !Z.land_spec, Z.lnot_spec by lia.
    replace (i <? nbits w) with true by (symmetry; apply Z.ltb_lt; lia). cbn [andb].
    destruct (Z.testbit mask i); cbn.
    + rewrite andb_false_r, andb_true_r. reflexivity.
    + rewrite andb_false_r, andb_true_r, orb_false_r. reflexivity.
Qed.

End Store.

(** ** Fields *)

(** Bits of the number a field holds. *)
Lemma field_value_bits f mem j :
  valid_field f -> 0 <= j ->
  Z.testbit (field_value f mem) j
  = (j <? field_bits f) && Z.testbit (content (f_w f) (f_addr f) mem) (j + f_lo f).
Proof.
  intros [H1 H2] Hj. unfold field_value.
  destruct (Z.ltb_spec j (field_bits f)); cbn [andb].
  - rewrite Z.mod_pow2_bits_low by lia. rewrite Z.div_pow2_bits by lia. reflexivity.
  - unfold field_bits in *. rewrite Z.mod_pow2_bits_high by lia. reflexivity.
Qed.

Lemma field_value_range f mem : valid_field f -> 0 <= field_value f mem < 2 ^ field_bits f.
Proof.
  intros [H1 H2]. apply Z.mod_pos_bound, Z.pow_pos_nonneg; unfold field_bits; lia.
Qed.

Lemma get_bit_value w a b m :
  bytes_ok (byte m) -> 0 <= b < nbits w ->
  get_bit w a b m
  = (if Z.testbit (content w a (byte m)) b then 1 else 0,
     Machine (byte m) (bus m ++ [Rd w a])).
Proof.
  intros H Hb. unfold get_bit. rewrite load_eq. f_equal.
  destruct (Z.eqb_spec (Z.land (content w a (byte m)) (bitmask w [b])) 0) as [E|E].
  - assert (B : Z.testbit (Z.land (content w a (byte m)) (bitmask w [b])) b = false)
      by (rewrite E; apply Z.bits_0).
    rewrite Z.land_spec, testbit_bitmask1, Z.eqb_refl, andb_true_r in B by lia.
    rewrite B. reflexivity.
  - destruct (Z.testbit (content w a (byte m)) b) eqn:B; [reflexivity|].
    exfalso. apply E. apply Z.bits_inj'. intros i Hi.
    rewrite Z.land_spec, testbit_bitmask1, Z.bits_0 by lia.
    destruct (Z.eqb_spec i b) as [->|]; [rewrite B|apply andb_false_r]. reflexivity.
Qed.

Lemma field_read_value f m :
  f_io f = RW \/ f_io f = R -> valid_field f -> bytes_ok (byte m) ->
  field_read f m = Some (field_value f (byte m),
                         Machine (byte m) (bus m ++ [Rd (f_w f) (f_addr f)])).
Proof.
  intros Hio HV H. destruct f as [w io a hi lo]. unfold valid_field in HV.
  cbn [f_io f_w f_addr f_hi f_lo] in *.
  assert (G : has_get io = true) by (destruct Hio; subst; reflexivity).
  assert (G' : has_read io = true) by (destruct Hio; subst; reflexivity).
  pose proof (content_range w a _ H) as CR. pose proof (nbits_pos w) as NB.
  unfold field_read. cbn [f_io f_w f_addr f_hi f_lo]. rewrite G, G'. cbn [negb].
  unfold is_single_bit; cbn [f_hi f_lo].
  destruct (Z.eqb_spec hi lo) as [->|NE].
  - rewrite get_bit_value by (try assumption; lia). do 2 f_equal.
    symmetry. unfold field_value, field_bits; cbn [f_io f_w f_addr f_hi f_lo].
    replace (lo - lo + 1) with 1 by lia. rewrite <- Z.testbit_spec' by lia.
    destruct (Z.testbit _ lo); reflexivity.
  - unfold is_all_bits; cbn [f_hi f_lo f_w]. rewrite bits_nbits.
    destruct (Z.eqb_spec (hi - lo + 1) (nbits w)) as [E|E].
    + rewrite load_eq. do 2 f_equal.
      unfold field_value, field_bits; cbn [f_io f_w f_addr f_hi f_lo].
      rewrite E. replace lo with 0 by lia.
      rewrite Z.div_1_r, Z.mod_small by lia. reflexivity.
    + unfold read_mask. rewrite load_eq. do 2 f_equal.
      apply (bits_ext _ _ (nbits w)); [lia | apply trunc_range | |].
      * pose proof (field_value_range (Field w io a hi lo) (byte m)) as R.
        unfold valid_field, field_bits in R; cbn [f_w f_hi f_lo] in R.
        specialize (R (conj (proj1 HV) (proj2 HV))).
        assert (2 ^ (hi - lo + 1) <= 2 ^ nbits w) by (apply Z.pow_le_mono_r; lia). lia.
      * intros i Hi. rewrite field_value_bits by (unfold valid_field; cbn; lia).
        unfold shr, field_bits; cbn [f_w f_hi f_lo f_addr].
        rewrite testbit_trunc, Z.shiftr_spec, testbit_trunc, Z.land_spec,
          testbit_rngmask by lia.
        destruct (Z.ltb_spec i (nbits w)), (Z.ltb_spec (i + lo) (nbits w)),
          (Z.leb_spec lo (i + lo)), (Z.leb_spec (i + lo) hi),
          (Z.ltb_spec i (hi - lo + 1)); try lia; cbn [andb];
          rewrite ?andb_true_r, ?andb_false_r; reflexivity.
Qed.

Lemma get_field_value f m :
  has_get (f_io f) = true -> f_hi f = f_lo f -> valid_field f -> bytes_ok (byte m) ->
  field_read f m = Some (field_value f (byte m),
                         Machine (byte m) (bus m ++ [Rd (f_w f) (f_addr f)])).
Proof.
  intros G E HV H. destruct f as [w io a hi lo]. cbn [f_io f_hi f_lo] in *. subst hi.
  unfold field_read, is_single_bit. cbn [f_io f_w f_addr f_hi f_lo].
  rewrite Z.eqb_refl, G. unfold valid_field in HV; cbn in HV.
  rewrite get_bit_value by (try assumption; lia). do 2 f_equal.
  symmetry. unfold field_value, field_bits; cbn [f_io f_w f_addr f_hi f_lo].
  replace (lo - lo + 1) with 1 by lia. rewrite <- Z.testbit_spec' by lia.
  destruct (Z.testbit _ lo); reflexivity.
Qed.

(** The value a field receives on a write. *)
Definition written (f : field) (v : Z) : Z :=
  if f_hi f =? f_lo f then (if v mod 2 ^ nbits (f_w f) =? 0 then 0 else 1) else v.

Lemma field_write_updated hw f v m :
  f_io f = RW -> valid_field f -> plain hw (f_w f) (f_addr f) -> bytes_ok (byte m) ->
  exists m' c,
    field_write hw f v m = Some m'
    /\ content (f_w f) (f_addr f) (byte m') = c
    /\ same_elsewhere (f_w f) (f_addr f) (byte m) (byte m')
    /\ bytes_ok (byte m')
    /\ (exists before, bus m' = bus m ++ before ++ [Wr (f_w f) (f_addr f) c]
        /\ (before = [] \/ before = [Rd (f_w f) (f_addr f)]))
    /\ forall i, 0 <= i < nbits (f_w f) ->
       Z.testbit c i
       = if (f_lo f <=? i) && (i <=? f_hi f) then Z.testbit (written f v) (i - f_lo f)
         else Z.testbit (content (f_w f) (f_addr f) (byte m)) i.
Proof.
  intros Hio HV HP H. destruct f as [w io a hi lo]. unfold valid_field in HV.
  cbn [f_io f_w f_addr f_hi f_lo] in *. subst io.
  pose proof (nbits_pos w) as NB.
  unfold field_write, written, is_single_bit, is_all_bits.
  cbn [f_io f_w f_addr f_hi f_lo has_set policy_clear has_write negb].
  destruct (Z.eqb_spec hi lo) as [->|NE].
  - unfold trunc at 1. rewrite bits_nbits.
    destruct (Z.eqb_spec (v mod 2 ^ nbits w) 0) as [Z0|Z0].
    + destruct (clear_bit_w0_updated HP lo m H ltac:(lia)) as [(U1 & U2 & U3 & U4) B].
      exists (clear_bit_w0 hw w a lo m). eexists. split; [reflexivity|].
      split; [exact U1|]. split; [exact U2|]. split; [exact U3|]. split.
      { exists [Rd w a]. split; [exact U4|right; reflexivity]. }
      intros i Hi. rewrite B by exact Hi.
      destruct (Z.eqb_spec i lo), (Z.leb_spec lo i), (Z.leb_spec i lo);
        try lia; cbn [andb]; try reflexivity.
      rewrite Z.bits_0. reflexivity.
    + destruct (set_bit_updated HP lo m H ltac:(lia)) as [(U1 & U2 & U3 & U4) B].
      exists (set_bit hw w a lo m). eexists. split; [reflexivity|].
      split; [exact U1|]. split; [exact U2|]. split; [exact U3|]. split.
      { exists [Rd w a]. split; [exact U4|right; reflexivity]. }
      intros i Hi. rewrite B by exact Hi.
      destruct (Z.eqb_spec i lo), (Z.leb_spec lo i), (Z.leb_spec i lo);
        try lia; cbn [andb]; try reflexivity.
      replace (i - lo) with 0 by lia. reflexivity.
  - rewrite bits_nbits. destruct (Z.eqb_spec (hi - lo + 1) (nbits w)) as [E|E].
    + assert (T := trunc_range w v).
      exists (store hw w a (trunc w v) m), (trunc w v). split; [reflexivity|].
      split; [apply (store_content HP); exact T|].
      split; [apply (store_elsewhere HP)|].
      split; [apply (store_ok HP); assumption|].
      split; [exists []; split; [reflexivity|left; reflexivity]|].
      intros i Hi. rewrite testbit_trunc by lia.
      destruct (Z.ltb_spec i (nbits w)), (Z.leb_spec lo i), (Z.leb_spec i hi);
        try lia; cbn [andb].
      replace (i - lo) with i by lia. reflexivity.
    + destruct (write_mask_updated HP (rngmask w hi lo) (shl w (trunc w v) lo) m H)
        as [(U1 & U2 & U3 & U4) B].
      eexists. eexists. split; [reflexivity|].
      split; [exact U1|]. split; [exact U2|]. split; [exact U3|]. split.
      { exists [Rd w a]. split; [exact U4|right; reflexivity]. }
      intros i Hi. rewrite B by exact Hi. rewrite testbit_rngmask by lia.
      destruct (Z.leb_spec lo i), (Z.leb_spec i hi); try reflexivity; cbn [andb].
      rewrite testbit_shl, testbit_trunc by lia.
      destruct (Z.ltb_spec i (nbits w)), (Z.leb_spec lo i), (Z.ltb_spec (i - lo) (nbits w));
        try lia; reflexivity.
Qed.

(** The number a field holds, from the bits of the register. *)
Lemma field_value_of f mem v :
  valid_field f ->
  (forall i, 0 <= i < nbits (f_w f) -> in_field f i ->
   Z.testbit (content (f_w f) (f_addr f) mem) i = Z.testbit v (i - f_lo f)) ->
  field_value f mem = v mod 2 ^ field_bits f.
Proof.
  intros HV H. pose proof HV as [V1 V2].
  apply (bits_ext _ _ (field_bits f)).
  - unfold field_bits; lia.
  - apply field_value_range, HV.
  - apply Z.mod_pos_bound, Z.pow_pos_nonneg; unfold field_bits; lia.
  - intros i Hi. rewrite field_value_bits by (assumption || lia).
    destruct (Z.ltb_spec i (field_bits f)); [|lia]. cbn [andb].
    rewrite Z.mod_pow2_bits_low by lia. unfold field_bits in *.
    rewrite H by (unfold in_field; lia). f_equal. lia.
Qed.

(** ** Lazy writes *)

(** The bits of a proxy's mask and value are those of the joined fields. *)
Definition represents (w : width) (fvs : list (field * Z)) (mask value : Z) : Prop :=
  (forall i, 0 <= i < nbits w -> (Z.testbit mask i = true <-> covered fvs i))
  /\ (forall i, 0 <= i < nbits w -> (Z.testbit value i = true <-> joined_bit fvs i)).

Lemma lazy_represents w a f v p :
  f_w f = w -> f_addr f = a -> f_io f = RW -> valid_field f ->
  write_lazy f v = Some p ->
  p_w p = w /\ p_io p = RW /\ p_addr p = a /\ p_apply p = true
  /\ represents w [(f, v)] (p_mask p) (p_value p).
Proof.
  intros Hw Ha Hio [V1 V2] E. unfold write_lazy in E. rewrite Hio in E. cbn in E.
  apply Some_eq in E. subst p. cbn [p_w p_io p_addr p_apply p_mask p_value].
  split; [exact Hw|]. split; [reflexivity|]. split; [exact Ha|]. split; [reflexivity|].
  subst w. split; intros i Hi.
  - rewrite testbit_rngmask by lia. rewrite andb_true_iff. split.
    + intros [B1 B2]. apply Exists_cons_hd. unfold in_field; cbn [fst]. lia.
    + intros C. inversion C as [? ? C'|? ? C']; subst; [|inversion C'].
      unfold in_field in C'; cbn [fst] in C'. lia.
  - rewrite testbit_shl by lia. split.
    + intros B. apply andb_true_iff in B. destruct B as [_ B].
      apply andb_true_iff in B. destruct B as [B1 B2]. apply Z.leb_le in B1.
      rewrite testbit_trunc in B2 by lia. apply andb_true_iff in B2. destruct B2 as [_ B2].
      apply Exists_cons_hd. cbn [fst snd]. split; [lia|exact B2].
    + intros C. inversion C as [? ? C'|? ? C']; subst; [|inversion C'].
      cbn [fst snd] in C'. destruct C' as [C1 C2]. rewrite testbit_trunc by lia.
      rewrite C2. destruct (Z.ltb_spec i (nbits (f_w f))), (Z.leb_spec (f_lo f) i),
        (Z.ltb_spec (i - f_lo f) (nbits (f_w f))); try lia; reflexivity.
Qed.

Lemma Exists_app_iff {A} (P : A -> Prop) l1 l2 :
  Exists P (l1 ++ l2) <-> Exists P l1 \/ Exists P l2.
Proof. apply Exists_app. Qed.

Lemma represents_app w l1 l2 m1 v1 m2 v2 :
  represents w l1 m1 v1 -> represents w l2 m2 v2 ->
  represents w (l1 ++ l2) (Z.lor m1 m2) (trunc w (Z.lor v1 v2)).
Proof.
  intros [A1 B1] [A2 B2]. split; intros i Hi.
  - unfold covered. rewrite Exists_app_iff, Z.lor_spec, orb_true_iff.
    rewrite (A1 i Hi), (A2 i Hi). reflexivity.
  - unfold joined_bit. rewrite Exists_app_iff, testbit_trunc, Z.lor_spec by lia.
    replace (i <? nbits w) with true by (symmetry; apply Z.ltb_lt; lia). cbn [andb].
    rewrite orb_true_iff, (B1 i Hi), (B2 i Hi). reflexivity.
Qed.

Lemma same_target_true p q :
  p_w p = p_w q -> p_io p = p_io q -> p_addr p = p_addr q -> same_target p q = true.
Proof.
  intros A B C. unfold same_target. rewrite A, B, C, Z.eqb_refl.
  destruct (p_w q), (p_io q); reflexivity.
Qed.

Lemma chain_represents hw w a p done rest ps m :
  p_w p = w -> p_io p = RW -> p_addr p = a -> p_apply p = true ->
  represents w done (p_mask p) (p_value p) ->
  fields_of w a rest -> lazies rest = Some ps ->
  exists mask value,
    represents w (done ++ rest) mask value
    /\ chain hw p ps m = Some (write_mask hw w a mask value m).
Proof.
  revert p done ps. induction rest as [|[f v] rest IH]; intros p done ps Hw Hio Ha Hap HR HF HL.
  - cbn in HL. apply Some_eq in HL. subst ps. exists (p_mask p), (p_value p).
    rewrite app_nil_r. split; [exact HR|]. cbn [chain]. unfold destroy.
    rewrite Hap, Hw, Ha. reflexivity.
  - inversion HF as [|? ? [F1 [F2 [F3 F4]]] HF']; subst. cbn [fst] in *.
    cbn [lazies] in HL. destruct (write_lazy f v) as [q|] eqn:EQ; [|discriminate].
    destruct (lazies rest) as [qs|] eqn:ES; [|discriminate].
    apply Some_eq in HL. subst ps.
    destruct (lazy_represents (p_w p) (p_addr p) f v q F1 F2 F3 F4 EQ)
      as (Q1 & Q2 & Q3 & Q4 & Q5).
    pose proof (represents_app (p_w p) done [(f, v)] _ _ _ _ HR Q5) as RA.
    cbn [chain]. unfold comma.
    rewrite same_target_true by congruence.
    cbn [discard p_w p_io p_addr p_mask p_value p_apply destroy].
    edestruct (IH (Proxy (p_w p) (p_io p) (p_addr p) (Z.lor (p_mask p) (p_mask q))
                     (trunc (p_w p) (Z.lor (p_value p) (p_value q))) true)
                  (done ++ [(f, v)]) qs) as (mask & value & R & C);
      [reflexivity | exact Hio | reflexivity | reflexivity | exact RA | exact HF' | reflexivity |].
    exists mask, value. rewrite <- app_assoc in R. cbn [app] in R. split; [exact R|].
    exact C.
Qed.

Lemma lazies_some w a fvs : fields_of w a fvs -> exists ps, lazies fvs = Some ps /\ length ps = length fvs.
Proof.
  induction 1 as [|[f v] fvs (F1 & F2 & F3 & F4) HF IH]; [exists []; split; reflexivity|].
  destruct IH as (ps & E & L). cbn [lazies fst] in *. unfold write_lazy at 1. rewrite F3.
  cbn [has_write]. rewrite E. eexists. split; [reflexivity|]. cbn. rewrite L. reflexivity.
Qed.

Lemma lazy_statement_updated hw w a fvs m :
  fvs <> [] -> fields_of w a fvs -> plain hw w a -> bytes_ok (byte m) ->
  exists m' c,
    lazy_statement hw fvs m = Some m'
    /\ content w a (byte m') = c
    /\ same_elsewhere w a (byte m) (byte m')
    /\ bytes_ok (byte m')
    /\ bus m' = bus m ++ [Rd w a; Wr w a c]
    /\ forall i, 0 <= i < nbits w ->
       (covered fvs i -> (Z.testbit c i = true <-> joined_bit fvs i))
       /\ (~ covered fvs i -> Z.testbit c i = Z.testbit (content w a (byte m)) i).
Proof.
  intros NE HF HP H. destruct fvs as [|[f v] rest]; [contradiction|].
  destruct (lazies_some w a _ HF) as (ps & EL & _).
  inversion HF as [|? ? (F1 & F2 & F3 & F4) HF']; subst. cbn [fst] in *.
  unfold lazy_statement. cbn [lazies] in EL |- *.
  destruct (write_lazy f v) as [p|] eqn:EP; [|discriminate].
  destruct (lazies rest) as [qs|] eqn:EQ; [|discriminate].
  destruct (lazy_represents _ _ f v p eq_refl eq_refl F3 F4 EP) as (Q1 & Q2 & Q3 & Q4 & Q5).
  destruct (chain_represents hw _ _ p [(f, v)] rest qs m Q1 Q2 Q3 Q4 Q5 HF' EQ)
    as (mask & value & [R1 R2] & C).
  cbn [app] in R1, R2.
  destruct (write_mask_updated HP mask value m H) as [(U1 & U2 & U3 & U4) B].
  eexists. eexists. split; [exact C|]. split; [exact U1|]. split; [exact U2|].
  split; [exact U3|]. split; [exact U4|].
  intros i Hi. rewrite B by exact Hi. specialize (R1 i Hi). specialize (R2 i Hi).
  destruct (Z.testbit mask i) eqn:EM.
  - split; [intros _; exact R2|]. intros NC. exfalso. apply NC, R1. reflexivity.
  - split; [|reflexivity]. intros CV. apply R1 in CV. discriminate.
Qed.

(** ** Writes one after another *)

Lemma covered_dec fvs i : covered fvs i \/ ~ covered fvs i.
Proof.
  induction fvs as [|[f v] fvs IH]; [right; intros C; inversion C|].
  destruct (Z_le_dec (f_lo f) i) as [L|L].
  - destruct (Z_le_dec i (f_hi f)) as [L'|L'].
    + left. apply Exists_cons_hd. split; assumption.
    + destruct IH as [IH|IH]; [left; apply Exists_cons_tl, IH|right].
      intros C. inversion C as [? ? C'|? ? C']; subst; [unfold in_field in C'; cbn in C'; lia|].
      apply IH, C'.
  - destruct IH as [IH|IH]; [left; apply Exists_cons_tl, IH|right].
    intros C. inversion C as [? ? C'|? ? C']; subst; [unfold in_field in C'; cbn in C'; lia|].
    apply IH, C'.
Qed.

Lemma written_bit f v i :
  valid_field f -> 0 <= v < 2 ^ field_bits f ->
  Z.testbit (written f v) (i - f_lo f) = Z.testbit v (i - f_lo f).
Proof.
  intros [V1 V2] Hv. unfold written. destruct (Z.eqb_spec (f_hi f) (f_lo f)) as [E|E];
    [|reflexivity].
  unfold field_bits in Hv. rewrite E in Hv. replace (f_lo f - f_lo f + 1) with 1 in Hv by lia.
  pose proof (nbits_pos (f_w f)).
  assert (2 ^ 1 <= 2 ^ nbits (f_w f)) by (apply Z.pow_le_mono_r; lia).
  rewrite Z.mod_small by lia. destruct (Z.eqb_spec v 0) as [->|]; [reflexivity|].
  replace v with 1 by lia. reflexivity.
Qed.

(** The bits of the register after writing the fields one after another. *)
Lemma write_statements_updated hw w a fvs m :
  fields_of w a fvs -> all_disjoint (map fst fvs) -> values_fit fvs ->
  plain hw w a -> bytes_ok (byte m) ->
  exists m',
    write_statements hw fvs m = Some m'
    /\ same_elsewhere w a (byte m) (byte m')
    /\ bytes_ok (byte m')
    /\ forall i, 0 <= i < nbits w ->
       (covered fvs i -> (Z.testbit (content w a (byte m')) i = true <-> joined_bit fvs i))
       /\ (~ covered fvs i ->
           Z.testbit (content w a (byte m')) i = Z.testbit (content w a (byte m)) i).
Proof.
  intros HF HD HV HP. revert m HD HV. induction HF as [|[f v] fvs (F1 & F2 & F3 & F4) HF IH];
    intros m HD HV H.
  - exists m. split; [reflexivity|]. split; [intros c _; reflexivity|]. split; [exact H|].
    intros i Hi. split; [intros C; inversion C|reflexivity].
  - cbn [fst map] in *. inversion HD as [|? ? D1 D2]; subst. inversion HV as [|? ? V1 V2]; subst.
    cbn [fst snd] in V1.
    destruct (field_write_updated hw f v m F3 F4 HP H)
      as (m1 & c & W1 & W2 & W3 & W4 & _ & W6).
    destruct (IH m1 D2 V2 W4) as (m2 & X1 & X2 & X3 & X4).
    exists m2. cbn [write_statements]. rewrite W1. split; [exact X1|].
    split; [intros k Hk; rewrite (X2 k Hk); apply W3, Hk|]. split; [exact X3|].
    intros i Hi. specialize (X4 i Hi). specialize (W6 i Hi). rewrite W2 in X4.
    destruct (covered_dec fvs i) as [C|NC].
    + destruct X4 as [X4 _]. specialize (X4 C). split.
      * intros _. rewrite X4. split; [apply Exists_cons_tl|].
        intros J. inversion J as [? ? [J1 J2]|? ? J']; subst; [|exact J'].
        cbn [fst snd] in J1, J2. exfalso.
        (* the value of [f] fits, so the bit belongs to [f] *)
        assert (IF : in_field f i).
        { unfold in_field. split; [exact J1|]. destruct (Z_le_dec i (f_hi f)); [assumption|].
          rewrite (testbit_above v (field_bits f)) in J2; [discriminate| |exact V1].
          unfold field_bits. destruct F4. lia. }
        apply Exists_exists in C. destruct C as ([g u] & G1 & G2). cbn [fst] in G2.
        rewrite Forall_forall in D1.
        apply (D1 g) with (i := i); [apply (in_map fst) in G1; exact G1|split; assumption].
      * intros NC. exfalso. apply NC, Exists_cons_tl, C.
    + destruct X4 as [_ X4]. specialize (X4 NC). rewrite X4.
      destruct (Z.leb_spec (f_lo f) i) as [L|L], (Z.leb_spec i (f_hi f)) as [L'|L'];
        cbn [andb] in W6.
      * rewrite W6, written_bit by assumption. split.
        -- intros _. split.
           ++ intros B. apply Exists_cons_hd. split; assumption.
           ++ intros J. inversion J as [? ? [J1 J2]|? ? J']; subst; [exact J2|].
              (* no later value reaches this bit: it would cover it *)
              exfalso. apply NC. unfold joined_bit in J'. unfold covered.
              apply Exists_exists in J'. destruct J' as ([g u] & G1 & G2 & G3).
              cbn [fst snd] in G2, G3. apply Exists_exists. exists (g, u). split; [exact G1|].
              unfold in_field; cbn [fst]. split; [exact G2|].
              destruct (Z_le_dec i (f_hi g)); [assumption|].
              unfold values_fit in V2. rewrite Forall_forall in V2.
              specialize (V2 _ G1). cbn [fst snd] in V2.
              unfold fields_of in HF. rewrite Forall_forall in HF.
              destruct (HF _ G1) as (_ & _ & _ & [Y1 Y2]). cbn [fst] in Y1, Y2.
              rewrite (testbit_above u (field_bits g)) in G3; [discriminate| |exact V2].
              unfold field_bits. lia.
        -- intros N. exfalso. apply N, Exists_cons_hd. split; assumption.
      * split; [intros C; inversion C as [? ? C'|? ? C']; subst;
                [unfold in_field in C'; cbn in C'; lia|contradiction]|intros _; exact W6].
      * split; [intros C; inversion C as [? ? C'|? ? C']; subst;
                [unfold in_field in C'; cbn in C'; lia|contradiction]|intros _; exact W6].
      * split; [intros C; inversion C as [? ? C'|? ? C']; subst;
                [unfold in_field in C'; cbn in C'; lia|contradiction]|intros _; exact W6].
Qed.

(** A register's bytes from its content. *)
Lemma content_bytes w a mem mem' :
  bytes_ok mem -> bytes_ok mem' -> content w a mem = content w a mem' ->
  forall c, part_of w a c -> mem c = mem' c.
Proof.
  intros H H' E c [->|[-> ->]].
  - pose proof (H a); pose proof (H' a); pose proof (H (a + 1)); pose proof (H' (a + 1)).
    destruct w; unfold content in E; lia.
  - pose proof (H a); pose proof (H' a); pose proof (H (a + 1)); pose proof (H' (a + 1)).
    unfold content in E. lia.
Qed.

Lemma part_of_dec w a c : part_of w a c \/ ~ part_of w a c.
Proof.
  unfold part_of. destruct (Z.eq_dec c a); [left; left; assumption|].
  destruct w; [right; intros [|[]]; congruence|].
  destruct (Z.eq_dec c (a + 1)); [left; right; auto|right; intros [|[]]; congruence].
Qed.
