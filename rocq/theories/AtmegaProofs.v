(** Proofs about the functions of the ATmega328 header. *)

From Coq Require Import ZArith List Bool Lia.
From Verif Require Import Base Register RegisterSpec RegisterProofs.
From Verif Require Import AtmegaRegs Atmega AtmegaSpec.
Import ListNotations.
Open Scope Z_scope.

(** ** The hardware *)

Lemma flag_bits_range a : 0 <= flag_bits a < 256.
Proof. unfold flag_bits. repeat (destruct (_ =? _); [lia|]). lia. Qed.

Lemma byte_bits_range v : 0 <= v -> (forall i, 8 <= i -> Z.testbit v i = false) -> 0 <= v < 256.
Proof.
  intros H0 H. split; [exact H0|].
  destruct (Z_lt_ge_dec v 256) as [L|G]; [exact L|exfalso].
  assert (P : 0 < v) by lia.
  assert (B := Z.bit_log2 v P). rewrite H in B; [discriminate|].
  change 8 with (Z.log2 256). apply Z.log2_le_mono. lia.
Qed.

Lemma w1c_bits mask v old i :
  Z.testbit (Z.lor (Z.land v (Z.lnot mask)) (Z.land (Z.land old mask) (Z.lnot v))) i
  = if 0 <=? i then
      if Z.testbit mask i then Z.testbit old i && negb (Z.testbit v i) else Z.testbit v i
    else false.
Proof.
  destruct (Z.leb_spec 0 i) as [P|P].
  - rewrite Z.lor_spec, !Z.land_spec, !Z.lnot_spec by lia.
    destruct (Z.testbit mask i), (Z.testbit v i), (Z.testbit old i); reflexivity.
  - apply Z.testbit_neg_r. lia.
Qed.

Lemma atmega_flag_register a :
  is_pin a = false -> flag_register atmega a (flag_bits a).
Proof.
  intros NP v mem Hv H. unfold atmega. rewrite NP. split; [|split].
  - intros c Hc. destruct (Z.eqb_spec c a); [contradiction|reflexivity].
  - rewrite Z.eqb_refl. pose proof (H a) as Ha. pose proof (flag_bits_range a) as Hm.
    apply byte_bits_range.
    + apply Z.lor_nonneg. split; apply Z.land_nonneg; [left; lia|left].
      apply Z.land_nonneg. left; lia.
    + intros i Hi. rewrite w1c_bits.
      destruct (0 <=? i); [|reflexivity].
      rewrite (testbit_above v 8 i), (testbit_above (mem a) 8 i) by lia.
      destruct (Z.testbit _ i); reflexivity.
  - intros i Hi. rewrite Z.eqb_refl, w1c_bits.
    destruct (Z.leb_spec 0 i); [reflexivity|lia].
Qed.

Lemma atmega_plain w a :
  (forall b, part_of w a b -> is_pin b = false /\ flag_bits b = 0) -> plain atmega w a.
Proof.
  intros H b Hb v mem c. destruct (H b Hb) as [NP F]. unfold atmega. rewrite NP, F.
  destruct (c =? b); [|reflexivity].
  rewrite Z.land_0_r, Z.land_0_l, Z.lor_0_r. change (Z.lnot 0) with (-1).
  apply Z.land_m1_r.
Qed.

(** ** Accesses to 8-bit registers with flags *)

Definition after (mask : Z) (old : Z -> bool) (new : Z -> bool) (i : Z) : bool :=
  if Z.testbit mask i then old i && negb (new i) else new i.

Lemma byte_becomes_ok a mem mem' new :
  bytes_ok mem -> byte_becomes a mem mem' new -> bytes_ok mem'.
Proof.
  intros H (E & R & _) c. destruct (Z.eq_dec c a) as [->|N]; [exact R|].
  rewrite E by exact N. apply H.
Qed.

Lemma byte_becomes_ext a mem mem' new new' :
  (forall i, 0 <= i < 8 -> new i = new' i) ->
  byte_becomes a mem mem' new -> byte_becomes a mem mem' new'.
Proof.
  intros X (E & R & B). split; [exact E|]. split; [exact R|].
  intros i Hi. rewrite B, X by exact Hi. reflexivity.
Qed.

Lemma store_flags hw a mask c m l :
  flag_register hw a mask -> bytes_ok (byte m) -> 0 <= c < 256 ->
  byte_becomes a (byte m) (byte (store hw W8 a c (Machine (byte m) l)))
    (after mask (Z.testbit (byte m a)) (Z.testbit c)).
Proof.
  intros HF H Hc. cbn [store byte]. exact (HF c (byte m) Hc H).
Qed.

Definition in_fieldb (f : field) (i : Z) : bool := (f_lo f <=? i) && (i <=? f_hi f).

Lemma in_fieldb_spec f i : in_fieldb f i = true <-> in_field f i.
Proof.
  unfold in_fieldb, in_field. rewrite andb_true_iff, !Z.leb_le. reflexivity.
Qed.

Lemma storing_plain' w a : plain (fun a v mem c => if c =? a then v else mem c) w a.
Proof. intros b _ v mem c. reflexivity. Qed.

Lemma field_write_form f v m :
  f_io f = RW ->
  exists c l, forall hw,
    field_write hw f v m
    = Some (store hw (f_w f) (f_addr f) c (Machine (byte m) (bus m ++ l))).
Proof.
  intros Hio. destruct f as [w io a hi lo]. cbn [f_io f_w f_addr] in *. subst io.
  unfold field_write, is_single_bit, is_all_bits, field_clear, field_set.
  cbn [f_io f_w f_addr f_hi f_lo has_set policy_clear has_write negb].
  destruct (hi =? lo).
  - destruct (trunc w v =? 0).
    + eexists. exists [Rd w a]. intros hw. reflexivity.
    + eexists. exists [Rd w a]. intros hw. reflexivity.
  - destruct (hi - lo + 1 =? bits w).
    + exists (trunc w v), []. intros hw. rewrite app_nil_r. destruct m; reflexivity.
    + eexists. exists [Rd w a]. intros hw. reflexivity.
Qed.

Lemma app_last_inj {A} (l l' : list A) x y : l ++ [x] = l' ++ [y] -> x = y.
Proof. intros H. apply app_inj_tail in H. apply H. Qed.

(** Writing a read-write field of a register with flags. *)
Lemma field_write_flags hw f v m mask :
  f_io f = RW -> f_w f = W8 -> valid_field f -> flag_register hw (f_addr f) mask ->
  bytes_ok (byte m) ->
  exists m', field_write hw f v m = Some m'
    /\ byte_becomes (f_addr f) (byte m) (byte m')
         (after mask (Z.testbit (byte m (f_addr f)))
            (fun i => if in_fieldb f i then Z.testbit (written f v) (i - f_lo f)
                      else Z.testbit (byte m (f_addr f)) i)).
Proof.
  intros Hio Hw HV HF H.
  destruct (field_write_form f v m Hio) as (c & l & FW).
  destruct (field_write_updated _ f v m Hio HV (storing_plain' _ _) H)
    as (m' & c' & W1 & W2 & W3 & W4 & (bf & W5 & _) & W6).
  rewrite FW in W1. apply Some_eq in W1.
  assert (EC' : c = c').
  { rewrite <- W1 in W5. cbn [store bus] in W5.
    rewrite app_assoc in W5. apply app_last_inj in W5. congruence. }
  rewrite <- EC' in *. clear EC' c'. rewrite Hw in *.
  assert (R : 0 <= c < 256).
  { rewrite <- W2. exact (content_range W8 (f_addr f) (byte m') W4). }
  eexists. split; [apply FW|].
  refine (byte_becomes_ext _ _ _ _ _ _ (store_flags hw _ mask c m (bus m ++ l) HF H R)).
  intros i Hi. unfold after. cbn [content nbits] in W6.
  rewrite !(W6 i) by exact Hi. reflexivity.
Qed.

(** Setting, clearing and toggling one bit. *)
Lemma set_bit_flags hw a mask b m :
  flag_register hw a mask -> bytes_ok (byte m) -> 0 <= b < 8 ->
  byte_becomes a (byte m) (byte (set_bit hw W8 a b m))
    (after mask (Z.testbit (byte m a))
       (fun i => if i =? b then true else Z.testbit (byte m a) i)).
Proof.
  intros HF H Hb.
  destruct (set_bit_updated (storing_plain' W8 a) b m H Hb) as [_ B].
  unfold set_bit. rewrite load_eq.
  refine (byte_becomes_ext _ _ _ _ _ _
            (store_flags hw a mask _ m _ HF H (trunc_range W8 _))).
  intros i Hi. unfold after. rewrite !(B i) by exact Hi. reflexivity.
Qed.

Lemma clear_bit_w0_flags hw a mask b m :
  flag_register hw a mask -> bytes_ok (byte m) -> 0 <= b < 8 ->
  byte_becomes a (byte m) (byte (clear_bit_w0 hw W8 a b m))
    (after mask (Z.testbit (byte m a))
       (fun i => if i =? b then false else Z.testbit (byte m a) i)).
Proof.
  intros HF H Hb.
  destruct (clear_bit_w0_updated (storing_plain' W8 a) b m H Hb) as [_ B].
  unfold clear_bit_w0. rewrite load_eq.
  refine (byte_becomes_ext _ _ _ _ _ _
            (store_flags hw a mask _ m _ HF H (trunc_range W8 _))).
  intros i Hi. unfold after. rewrite !(B i) by exact Hi. reflexivity.
Qed.

Lemma clear_bit_w1_flags hw a mask b m :
  flag_register hw a mask -> bytes_ok (byte m) -> 0 <= b < 8 ->
  byte_becomes a (byte m) (byte (clear_bit_w1 hw W8 a b m))
    (after mask (Z.testbit (byte m a))
       (fun i => if i =? b then true else Z.testbit (byte m a) i)).
Proof. exact (set_bit_flags hw a mask b m). Qed.

Lemma toggle_bit_flags hw a mask b m :
  flag_register hw a mask -> bytes_ok (byte m) -> 0 <= b < 8 ->
  byte_becomes a (byte m) (byte (toggle_bit hw W8 a b m))
    (after mask (Z.testbit (byte m a))
       (fun i => if i =? b then negb (Z.testbit (byte m a) i)
                 else Z.testbit (byte m a) i)).
Proof.
  intros HF H Hb.
  destruct (toggle_bit_updated (storing_plain' W8 a) b m H Hb) as [_ B].
  unfold toggle_bit. rewrite load_eq.
  refine (byte_becomes_ext _ _ _ _ _ _
            (store_flags hw a mask _ m _ HF H (trunc_range W8 _))).
  intros i Hi. unfold after. rewrite !(B i) by exact Hi. reflexivity.
Qed.

(** Lazy writes joined by commas. *)
Definition joinedb (fvs : list (field * Z)) (i : Z) : bool :=
  existsb (fun fv => (f_lo (fst fv) <=? i)
                     && Z.testbit (snd fv) (i - f_lo (fst fv))) fvs.

Definition coveredb (fvs : list (field * Z)) (i : Z) : bool :=
  existsb (fun fv => in_fieldb (fst fv) i) fvs.

Lemma joinedb_spec fvs i : joinedb fvs i = true <-> joined_bit fvs i.
Proof.
  unfold joinedb, joined_bit. rewrite existsb_exists, Exists_exists.
  split; intros (x & I & P); exists x; split; try exact I.
  - apply andb_true_iff in P. rewrite Z.leb_le in P. exact P.
  - apply andb_true_iff. rewrite Z.leb_le. exact P.
Qed.

Lemma coveredb_spec fvs i : coveredb fvs i = true <-> covered fvs i.
Proof.
  unfold coveredb, covered. rewrite existsb_exists, Exists_exists.
  split; intros (x & I & P); exists x; split; try exact I; apply in_fieldb_spec, P.
Qed.

Lemma lazy_statement_form w a fvs m :
  fvs <> [] -> fields_of w a fvs ->
  exists c, forall hw,
    lazy_statement hw fvs m
    = Some (store hw w a c (Machine (byte m) (bus m ++ [Rd w a]))).
Proof.
  intros NE HF. destruct fvs as [|[f v] rest]; [contradiction|].
  destruct (lazies_some w a _ HF) as (ps & EL & _).
  inversion HF as [|? ? (F1 & F2 & F3 & F4) HF']; subst. cbn [fst] in *.
  unfold lazy_statement. cbn [lazies] in EL |- *.
  destruct (write_lazy f v) as [p|] eqn:EP; [|discriminate].
  destruct (lazies rest) as [qs|] eqn:EQ; [|discriminate].
  destruct (lazy_represents _ _ f v p eq_refl eq_refl F3 F4 EP) as (Q1 & Q2 & Q3 & Q4 & Q5).
  clear ps EL HF F3 F4 EP NE.
  assert (G : forall rest qs p m,
    p_w p = f_w f -> p_io p = RW -> p_addr p = f_addr f -> p_apply p = true ->
    fields_of (f_w f) (f_addr f) rest -> lazies rest = Some qs ->
    exists mask value, forall hw,
      chain hw p qs m = Some (write_mask hw (f_w f) (f_addr f) mask value m)).
  { clear. induction rest as [|[g u] rest IH]; intros qs p m W I A Ap HF EQ.
    - cbn in EQ. apply Some_eq in EQ. subst qs. exists (p_mask p), (p_value p).
      intros hw. cbn [chain]. unfold destroy. rewrite Ap, W, A. reflexivity.
    - inversion HF as [|? ? (F1 & F2 & F3 & F4) HF']; subst. cbn [fst] in *.
      cbn [lazies] in EQ.
      destruct (write_lazy g u) as [q|] eqn:EP; [|discriminate].
      destruct (lazies rest) as [rs|] eqn:ER; [|discriminate].
      apply Some_eq in EQ. subst qs.
      destruct (lazy_represents _ _ g u q eq_refl eq_refl F3 F4 EP)
        as (Q1 & Q2 & Q3 & Q4 & _).
      pose (r := Proxy (p_w p) (p_io p) (p_addr p) (Z.lor (p_mask p) (p_mask q))
                   (trunc (p_w p) (Z.lor (p_value p) (p_value q))) true).
      destruct (IH rs r m W I A eq_refl HF' eq_refl) as (mask & value & C).
      exists mask, value. intros hw. cbn [chain]. unfold comma.
      rewrite same_target_true by congruence. exact (C hw). }
  destruct (G rest qs p m Q1 Q2 Q3 Q4 HF' EQ) as (mask & value & C).
  eexists. intros hw. rewrite C. reflexivity.
Qed.

Lemma lazy_statement_flags hw a fvs m mask :
  fvs <> [] -> fields_of W8 a fvs -> flag_register hw a mask -> bytes_ok (byte m) ->
  exists m', lazy_statement hw fvs m = Some m'
    /\ byte_becomes a (byte m) (byte m')
         (after mask (Z.testbit (byte m a))
            (fun i => if coveredb fvs i then joinedb fvs i else Z.testbit (byte m a) i)).
Proof.
  intros NE HFs HF H.
  destruct (lazy_statement_form W8 a fvs m NE HFs) as (c & FW).
  destruct (lazy_statement_updated _ W8 a fvs m NE HFs (storing_plain' _ _) H)
    as (m' & c' & W1 & W2 & W3 & W4 & W5 & W6).
  rewrite FW in W1. apply Some_eq in W1.
  assert (EC' : c = c').
  { rewrite <- W1 in W5. cbn [store bus] in W5. rewrite <- app_assoc in W5.
    change ([Rd W8 a; Wr W8 a c']) with ([Rd W8 a] ++ [Wr W8 a c']) in W5.
    rewrite !app_assoc in W5. apply app_last_inj in W5. congruence. }
  rewrite <- EC' in *. clear EC' c'.
  assert (R : 0 <= c < 256).
  { rewrite <- W2. exact (content_range W8 a (byte m') W4). }
  eexists. split; [apply FW|].
  refine (byte_becomes_ext _ _ _ _ _ _ (store_flags hw _ mask c m _ HF H R)).
  intros i Hi. destruct (W6 i Hi) as [X Y].
  assert (E : Z.testbit c i
              = if coveredb fvs i then joinedb fvs i else Z.testbit (byte m a) i).
  { destruct (coveredb fvs i) eqn:EC.
    - apply coveredb_spec in EC. specialize (X EC).
      destruct (joinedb fvs i) eqn:EJ.
      + apply X, joinedb_spec, EJ.
      + destruct (Z.testbit c i); [|reflexivity].
        assert (J : joined_bit fvs i) by (apply X; reflexivity).
        apply joinedb_spec in J. congruence.
    - apply Y. intros CV. apply coveredb_spec in CV. congruence. }
  unfold after. rewrite E. reflexivity.
Qed.

(** Values that fit fields without common bits do not disturb one another. *)
Lemma fits_outside g u i :
  valid_field g -> 0 <= u < 2 ^ field_bits g -> ~ in_field g i ->
  (f_lo g <=? i) && Z.testbit u (i - f_lo g) = false.
Proof.
  intros [V1 V2] U N. destruct (Z.leb_spec (f_lo g) i) as [L|L]; [|reflexivity].
  cbn [andb]. apply (testbit_above u (field_bits g)); [|exact U].
  unfold field_bits, in_field in *. lia.
Qed.

Lemma joinedb_own w a fvs f v i :
  fields_of w a fvs -> all_disjoint (map fst fvs) -> values_fit fvs ->
  In (f, v) fvs -> in_field f i -> joinedb fvs i = Z.testbit v (i - f_lo f).
Proof.
  intros HF. induction HF as [|[g u] rest (F1 & F2 & F3 & F4) HF IH];
    intros AD VF I IFD; [contradiction|].
  cbn [map fst] in AD. inversion AD as [|? ? AD1 AD2]; subst.
  inversion VF as [|? ? VF1 VF2]; subst. cbn [fst snd] in *.
  cbn [joinedb existsb fst snd]. fold (joinedb rest i).
  destruct I as [I|I].
  - assert (E1 : g = f) by congruence. assert (E2 : u = v) by congruence. subst g u.
    assert (R : joinedb rest i = false).
    { clear - HF AD1 VF2 IFD. induction HF as [|[h x] rest (F1 & F2 & F3 & F4) HF IH];
        [reflexivity|].
      cbn [map fst] in AD1. inversion AD1 as [|? ? D1 D2]; subst.
      inversion VF2 as [|? ? X1 X2]; subst. cbn [fst snd] in *.
      cbn [joinedb existsb fst snd]. fold (joinedb rest i).
      rewrite (fits_outside h x i F4 X1), IH; [reflexivity|assumption|assumption|].
      intros IH'. apply (D1 i). split; assumption. }
    rewrite R, orb_false_r. destruct IFD as [L _].
    destruct (Z.leb_spec (f_lo f) i); [reflexivity|lia].
  - rewrite IH by assumption.
    rewrite fits_outside; [reflexivity|assumption|assumption|].
    intros IG. rewrite Forall_forall in AD1.
    refine (AD1 f _ i (conj IG IFD)).
    change f with (fst (f, v)). apply in_map, I.
Qed.

Lemma coveredb_in fvs f v i : In (f, v) fvs -> in_field f i -> coveredb fvs i = true.
Proof.
  intros I IFD. apply coveredb_spec, Exists_exists. exists (f, v). split; assumption.
Qed.

(** A statement of fitting lazy writes: every field holds its value, every other bit
    that is no flag is kept, every flag outside the fields is cleared. *)
Lemma lazy_statement_fields hw a fvs m mask :
  fvs <> [] -> fields_of W8 a fvs -> all_disjoint (map fst fvs) -> values_fit fvs ->
  (forall i, covered fvs i -> Z.testbit mask i = false) ->
  flag_register hw a mask -> bytes_ok (byte m) ->
  exists m', lazy_statement hw fvs m = Some m'
    /\ bytes_ok (byte m')
    /\ (forall c, c <> a -> byte m' c = byte m c)
    /\ (forall f v i, In (f, v) fvs -> in_field f i ->
        Z.testbit (byte m' a) i = Z.testbit v (i - f_lo f))
    /\ (forall i, 0 <= i < 8 -> ~ covered fvs i ->
        Z.testbit (byte m' a) i
        = if Z.testbit mask i then false else Z.testbit (byte m a) i).
Proof.
  intros NE HFs AD VF HM HF H.
  destruct (lazy_statement_flags hw a fvs m mask NE HFs HF H) as (m' & E & B).
  exists m'. split; [exact E|]. split; [exact (byte_becomes_ok _ _ _ _ H B)|].
  destruct B as (B1 & B2 & B3). split; [exact B1|]. split.
  - intros f v i I IFD.
    assert (R : 0 <= i < 8).
    { unfold fields_of in HFs. rewrite Forall_forall in HFs.
      destruct (HFs _ I) as (W & _ & _ & V1 & V2). cbn [fst] in *. rewrite W in V2.
      cbn [nbits] in V2. unfold in_field in IFD. lia. }
    rewrite B3 by exact R. unfold after. rewrite HM.
    + rewrite (coveredb_in _ _ _ _ I IFD). apply (joinedb_own W8 a); assumption.
    + apply coveredb_spec, (coveredb_in _ _ _ _ I IFD).
  - intros i Hi NC. rewrite B3 by exact Hi. unfold after.
    replace (coveredb fvs i) with false.
    + destruct (Z.testbit mask i), (Z.testbit (byte m a) i); reflexivity.
    + symmetry. destruct (coveredb fvs i) eqn:EC; [|reflexivity].
      apply coveredb_spec in EC. contradiction.
Qed.

(** The number a group of bits of a byte holds. *)
Lemma byte_field x v hi lo :
  0 <= lo <= hi ->
  (forall i, lo <= i <= hi -> Z.testbit x i = Z.testbit v (i - lo)) ->
  x / 2 ^ lo mod 2 ^ (hi - lo + 1) = v mod 2 ^ (hi - lo + 1).
Proof.
  intros Hlo H. apply Z.bits_inj'. intros j Hj.
  destruct (Z_lt_ge_dec j (hi - lo + 1)) as [L|G].
  - rewrite !Z.mod_pow2_bits_low by lia. rewrite Z.div_pow2_bits by lia.
    rewrite H by lia. f_equal. lia.
  - rewrite !Z.mod_pow2_bits_high by lia. reflexivity.
Qed.

Lemma byte_field_fit x v hi lo :
  0 <= lo <= hi -> 0 <= v < 2 ^ (hi - lo + 1) ->
  (forall i, lo <= i <= hi -> Z.testbit x i = Z.testbit v (i - lo)) ->
  x / 2 ^ lo mod 2 ^ (hi - lo + 1) = v.
Proof. intros A B C. rewrite (byte_field x v hi lo A C). apply Z.mod_small, B. Qed.

Lemma field_value_byte f mem :
  f_w f = W8 ->
  field_value f mem = mem (f_addr f) / 2 ^ f_lo f mod 2 ^ (f_hi f - f_lo f + 1).
Proof. intros W. unfold field_value, field_bits. rewrite W. reflexivity. Qed.

Lemma field_read_byte f m :
  f_io f = RW -> f_w f = W8 -> valid_field f -> bytes_ok (byte m) ->
  exists m', byte m' = byte m
    /\ field_read f m
       = Some (byte m (f_addr f) / 2 ^ f_lo f mod 2 ^ (f_hi f - f_lo f + 1), m').
Proof.
  intros I W V H. rewrite (field_read_value f m (or_introl I) V H).
  rewrite field_value_byte by exact W. eexists. split; [|reflexivity]. reflexivity.
Qed.
