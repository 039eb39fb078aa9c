(** Properties of the functions of the ATmega328 header: C76 to C80. *)

From Coq Require Import ZArith List Bool Lia.
From Verif Require Import Base Register RegisterSpec RegisterProofs.
From Verif Require Import AtmegaRegs Atmega AtmegaSpec AtmegaProofs.
Import ListNotations.
Open Scope Z_scope.

(** A machine whose byte at [a] holds [v] and whose other bytes are zero. *)
Definition holding (a v : Z) : machine := Machine (fun c => if c =? a then v else 0) [].

Lemma holding_ok a v : 0 <= v < 256 -> bytes_ok (byte (holding a v)).
Proof. intros H c. cbn. destruct (c =? a); lia. Qed.

(** ** C76: clearing flags *)

(** The byte at [a] loses bit [k] and keeps all others; nothing else changes. *)
Definition loses_only (a k : Z) (mem mem' : Z -> Z) : Prop :=
  byte_becomes a mem mem' (fun i => if i =? k then false else Z.testbit (mem a) i).

(** Clearing a flag of the kind cleared by writing a one clears every flag of its
    register. *)
Theorem C76_clear_clears_all :
  forall hw f mask m,
  f_io f = RC_W1 -> f_w f = W8 -> valid_field f -> Z.testbit mask (f_hi f) = true ->
  flag_register hw (f_addr f) mask -> bytes_ok (byte m) ->
  exists m', field_clear hw f m = Some m'
    /\ byte_becomes (f_addr f) (byte m) (byte m')
         (fun i => Z.testbit (byte m (f_addr f)) i && negb (Z.testbit mask i)).
Proof.
  intros hw f mask m Hio Hw [V1 V2] HM HF H. unfold field_clear. rewrite Hio. cbn [policy_clear].
  rewrite Hw in *. cbn [nbits] in V2. eexists. split; [reflexivity|].
  refine (byte_becomes_ext _ _ _ _ _ _
            (clear_bit_w1_flags hw (f_addr f) mask (f_hi f) m HF H ltac:(lia))).
  intros i Hi. unfold after. cbv beta.
  destruct (Z.eqb_spec i (f_hi f)) as [E|N].
  - subst i. rewrite HM. cbn. destruct (Z.testbit (byte m (f_addr f)) (f_hi f)); reflexivity.
  - destruct (Z.testbit mask i), (Z.testbit (byte m (f_addr f)) i); reflexivity.
Qed.
Print Assumptions C76_clear_clears_all.

Example C76_clear_clears_all_case :
  flag_register atmega 0x35 0x07
  /\ exists m', field_clear atmega tifr0_tov0 (holding 0x35 0x07) = Some m'
     /\ byte m' 0x35 = 0.
Proof.
  split; [apply (atmega_flag_register 0x35 eq_refl)|].
  eexists. split; [reflexivity|]. reflexivity.
Qed.

(** The flags with their places according to the data sheet: address of the register,
    number of the bit, all flags of the register. *)
Definition shared_flags : list (flag * Z * Z * list Z) :=
  [(flag_tc0_overflow, 0x35, 0, [0; 1; 2]); (flag_tc0_a, 0x35, 1, [0; 1; 2]);
   (flag_tc0_b, 0x35, 2, [0; 1; 2]);
   (flag_tc1_overflow, 0x36, 0, [0; 1; 2; 5]); (flag_tc1_a, 0x36, 1, [0; 1; 2; 5]);
   (flag_tc1_b, 0x36, 2, [0; 1; 2; 5]); (flag_tc1_capture, 0x36, 5, [0; 1; 2; 5]);
   (flag_ei_external 0, 0x3c, 0, [0; 1]); (flag_ei_external 1, 0x3c, 1, [0; 1])].

(** The flags that are the only one of their register. *)
Definition single_flags : list (flag * Z * Z) :=
  [(flag_adc, 0x7a, 4); (flag_ac, 0x50, 4); (flag_twi, 0xbc, 7)].

Lemma flag_clear_atmega x a k mask m :
  fl_clear x = bit8 RC_W1 a k -> is_pin a = false -> mask = flag_bits a ->
  0 <= k < 8 -> Z.testbit mask k = true -> bytes_ok (byte m) ->
  exists m', flag_clear atmega x m = Some m'
    /\ byte_becomes a (byte m) (byte m')
         (fun i => Z.testbit (byte m a) i && negb (Z.testbit mask i)).
Proof.
  intros Hf NP -> Hk HM H. unfold flag_clear. rewrite Hf.
  apply (C76_clear_clears_all atmega (bit8 RC_W1 a k) (flag_bits a) m);
    try reflexivity; try assumption.
  - unfold valid_field, bit8; cbn; lia.
  - apply atmega_flag_register, NP.
Qed.

Definition mask_of (l : list Z) (i : Z) : bool := existsb (Z.eqb i) l.

Lemma small_bits (P : Z -> Prop) :
  P 0 -> P 1 -> P 2 -> P 3 -> P 4 -> P 5 -> P 6 -> P 7 -> forall i, 0 <= i < 8 -> P i.
Proof.
  intros H0 H1 H2 H3 H4 H5 H6 H7 i Hi.
  assert (C : i = 0 \/ i = 1 \/ i = 2 \/ i = 3 \/ i = 4 \/ i = 5 \/ i = 6 \/ i = 7) by lia.
  destruct C as [->|[->|[->|[->|[->|[->|[->| ->]]]]]]]; assumption.
Qed.

(** Clearing a flag of timer 0, timer 1 or the external interrupts clears all flags of
    the register and changes nothing else. *)
Theorem C76_shared_flags_all_cleared :
  forall x a k l m,
  In (x, a, k, l) shared_flags -> bytes_ok (byte m) ->
  exists m', flag_clear atmega x m = Some m'
    /\ byte_becomes a (byte m) (byte m')
         (fun i => if existsb (Z.eqb i) l then false else Z.testbit (byte m a) i).
Proof.
  intros x a k l m HI H.
  assert (G : fl_clear x = bit8 RC_W1 a k /\ is_pin a = false /\ 0 <= k < 8
              /\ Z.testbit (flag_bits a) k = true
              /\ forall i, 0 <= i < 8 -> Z.testbit (flag_bits a) i = mask_of l i).
  { unfold shared_flags in HI. cbn [In] in HI.
    repeat (destruct HI as [HI|HI];
            [injection HI as <- <- <- <-;
             split; [reflexivity|]; split; [reflexivity|]; split; [lia|];
             split; [reflexivity|]; apply small_bits; reflexivity|]).
    contradiction. }
  destruct G as (G1 & G2 & G3 & G4 & G5).
  destruct (flag_clear_atmega x a k (flag_bits a) m G1 G2 eq_refl G3 G4 H)
    as (m' & E & B).
  exists m'. split; [exact E|]. refine (byte_becomes_ext _ _ _ _ _ _ B).
  intros i Hi. cbv beta. rewrite G5 by exact Hi. fold (mask_of l i).
  destruct (mask_of l i); [apply andb_false_r|apply andb_true_r].
Qed.
Print Assumptions C76_shared_flags_all_cleared.

Example C76_shared_flags_all_cleared_case :
  In (flag_tc0_a, 0x35, 1, [0; 1; 2]) shared_flags
  /\ exists m', flag_clear atmega flag_tc0_a (holding 0x35 0x07) = Some m'
     /\ byte m' 0x35 = 0.
Proof. split; [cbn; tauto|]. eexists. split; reflexivity. Qed.

(** So a pending flag is lost when another flag of the register is cleared. *)
Theorem C76_pending_flag_lost :
  forall x y a k j l m,
  In (x, a, k, l) shared_flags -> In (y, a, j, l) shared_flags -> bytes_ok (byte m) ->
  exists m' r, flag_clear atmega x m = Some m' /\ flag_current y m' = Some (false, r).
Proof.
  intros x y a k j l m HX HY H.
  destruct (C76_shared_flags_all_cleared x a k l m HX H) as (m' & E & B).
  pose proof (byte_becomes_ok _ _ _ _ H B) as OK.
  assert (G : fl_current y = bit8 RC_W1 a j /\ 0 <= j < 8
              /\ existsb (Z.eqb j) l = true).
  { unfold shared_flags in HY. cbn [In] in HY.
    repeat (destruct HY as [HY|HY];
            [injection HY as <- <- <- <-; repeat split; lia|]). contradiction. }
  destruct G as (G1 & G2 & G3). destruct B as (_ & _ & B).
  specialize (B j G2). rewrite G3 in B.
  exists m'. unfold flag_current. rewrite G1.
  rewrite get_field_value; [|reflexivity|reflexivity|unfold valid_field, bit8; cbn; lia|exact OK].
  replace (field_value (bit8 RC_W1 a j) (byte m')) with 0.
  - eexists. split; [exact E|reflexivity].
  - symmetry. unfold field_value, field_bits, bit8, content. cbn [f_w f_addr f_hi f_lo].
    replace (j - j + 1) with 1 by lia. rewrite <- Z.testbit_spec' by lia.
    rewrite B. reflexivity.
Qed.
Print Assumptions C76_pending_flag_lost.

Example C76_pending_flag_lost_case :
  In (flag_tc1_a, 0x36, 1, [0; 1; 2; 5]) shared_flags
  /\ In (flag_tc1_capture, 0x36, 5, [0; 1; 2; 5]) shared_flags
  /\ flag_current flag_tc1_capture (holding 0x36 0x22)
     = Some (true, Machine (byte (holding 0x36 0x22)) [Rd W8 0x36])
  /\ exists m', flag_clear atmega flag_tc1_a (holding 0x36 0x22) = Some m'
     /\ byte m' 0x36 = 0.
Proof.
  split; [cbn; tauto|]. split; [cbn; tauto|]. split; [reflexivity|].
  eexists. split; reflexivity.
Qed.

(** The intended effect, losing the one flag only, is not what these functions have. *)
Theorem C76_exact_clear_refuted :
  forall x a k l, In (x, a, k, l) shared_flags ->
  exists m m', bytes_ok (byte m) /\ flag_clear atmega x m = Some m'
    /\ ~ loses_only a k (byte m) (byte m').
Proof.
  intros x a k l HI.
  assert (G : exists j, 0 <= j < 8 /\ j <> k /\ existsb (Z.eqb j) l = true).
  { unfold shared_flags in HI. cbn [In] in HI.
    repeat (destruct HI as [HI|HI]; [injection HI as <- <- <- <-|]); [..|contradiction].
    all: first [exists 0; repeat split; lia | exists 1; repeat split; lia]. }
  destruct G as (j & J1 & J2 & J3).
  pose (m := Machine (fun _ => 2 ^ j) []).
  assert (OK : bytes_ok (byte m)).
  { intros c. cbn. split; [apply Z.pow_nonneg; lia|].
    apply (Z.pow_lt_mono_r 2 j 8); lia. }
  destruct (C76_shared_flags_all_cleared x a k l m HI OK) as (m' & E & (_ & _ & B)).
  exists m, m'. split; [exact OK|]. split; [exact E|]. intros (_ & _ & L).
  specialize (B j J1). specialize (L j J1). rewrite J3 in B. rewrite B in L.
  destruct (Z.eqb_spec j k); [contradiction|].
  cbn [byte m] in L. rewrite Z.pow2_bits_true in L by lia. discriminate.
Qed.
Print Assumptions C76_exact_clear_refuted.

Example C76_exact_clear_refuted_case :
  In (flag_ei_external 1, 0x3c, 1, [0; 1]) shared_flags.
Proof. cbn; tauto. Qed.

(** The flags of the converter, the comparator and the two-wire interface, being alone
    in their registers, are cleared exactly. *)
Theorem C76_single_flags_exactly_cleared :
  forall x a k m, In (x, a, k) single_flags -> bytes_ok (byte m) ->
  exists m', flag_clear atmega x m = Some m' /\ loses_only a k (byte m) (byte m').
Proof.
  intros x a k m HI H.
  assert (G : fl_clear x = bit8 RC_W1 a k /\ is_pin a = false /\ 0 <= k < 8
              /\ forall i, 0 <= i < 8 -> Z.testbit (flag_bits a) i = (i =? k)).
  { unfold single_flags in HI. cbn [In] in HI.
    repeat (destruct HI as [HI|HI];
            [injection HI as <- <- <-;
             split; [reflexivity|]; split; [reflexivity|]; split; [lia|];
             apply small_bits; reflexivity|]).
    contradiction. }
  destruct G as (G1 & G2 & G3 & G4).
  destruct (flag_clear_atmega x a k (flag_bits a) m G1 G2 eq_refl G3) as (m' & E & B);
    [rewrite G4 by lia; apply Z.eqb_refl|exact H|].
  exists m'. split; [exact E|]. refine (byte_becomes_ext _ _ _ _ _ _ B).
  intros i Hi. cbv beta. rewrite G4 by exact Hi.
  destruct (i =? k); [apply andb_false_r|apply andb_true_r].
Qed.
Print Assumptions C76_single_flags_exactly_cleared.

Example C76_single_flags_exactly_cleared_case :
  In (flag_adc, 0x7a, 4) single_flags
  /\ exists m', flag_clear atmega flag_adc (holding 0x7a 0xff) = Some m'
     /\ byte m' 0x7a = 0xef.
Proof. split; [cbn; tauto|]. eexists. split; reflexivity. Qed.

(** ** C77: pin change flags *)

(** Clearing the pin change flag [k] leaves it as it is and clears the other two. *)
Theorem C77_pin_change_flags :
  forall k m, 0 <= k < 3 -> bytes_ok (byte m) ->
  exists m', flag_clear atmega (flag_ei_pin_change k) m = Some m'
    /\ byte_becomes 0x3b (byte m) (byte m')
         (fun i => if (i <? 3) && negb (i =? k) then false
                   else Z.testbit (byte m 0x3b) i).
Proof.
  intros k m Hk H. unfold flag_clear, field_clear. cbn [fl_clear flag_ei_pin_change].
  change (policy_clear (f_io (ei_pcifr k))) with (Some clear_bit_w0). cbv iota.
  eexists. split; [reflexivity|].
  pose proof (atmega_flag_register 0x3b eq_refl) as HF.
  refine (byte_becomes_ext _ _ _ _ _ _
            (clear_bit_w0_flags atmega 0x3b (flag_bits 0x3b) k m HF H ltac:(lia))).
  intros i Hi. unfold after. cbv beta.
  assert (E : Z.testbit (flag_bits 0x3b) i = (i <? 3)).
  { revert i Hi. apply small_bits; reflexivity. }
  rewrite E. destruct (i <? 3); cbn [andb].
  - destruct (i =? k); cbn [negb]; destruct (Z.testbit (byte m 0x3b) i); reflexivity.
  - destruct (Z.eqb_spec i k) as [->|]; [|reflexivity].
    exfalso. assert (C : k = 0 \/ k = 1 \/ k = 2) by lia.
    destruct C as [C|[C|C]]; rewrite C in *; discriminate.
Qed.
Print Assumptions C77_pin_change_flags.

Example C77_pin_change_flags_case :
  exists m', flag_clear atmega (flag_ei_pin_change 1) (holding 0x3b 0x07) = Some m'
    /\ byte m' 0x3b = 0x02.
Proof. eexists. split; reflexivity. Qed.

(** The flag asked to be cleared stays pending. *)
Theorem C77_clear_refuted :
  forall k m, 0 <= k < 3 -> bytes_ok (byte m) -> Z.testbit (byte m 0x3b) k = true ->
  exists m', flag_clear atmega (flag_ei_pin_change k) m = Some m'
    /\ Z.testbit (byte m' 0x3b) k = true
    /\ ~ loses_only 0x3b k (byte m) (byte m').
Proof.
  intros k m Hk H P. destruct (C77_pin_change_flags k m Hk H) as (m' & E & B).
  exists m'. split; [exact E|].
  assert (T : Z.testbit (byte m' 0x3b) k = true).
  { destruct B as (_ & _ & B). rewrite B by lia. rewrite Z.eqb_refl, andb_false_r. exact P. }
  split; [exact T|]. intros (_ & _ & L). rewrite L in T by lia.
  rewrite Z.eqb_refl in T. discriminate.
Qed.
Print Assumptions C77_clear_refuted.

Example C77_clear_refuted_case :
  bytes_ok (byte (holding 0x3b 0x04)) /\ Z.testbit (byte (holding 0x3b 0x04) 0x3b) 2 = true.
Proof. split; [apply holding_ok; lia|reflexivity]. Qed.

(** ** C78: waveforms *)

Lemma plain_flags a : is_pin a = false -> flag_bits a = 0 -> flag_register atmega a 0.
Proof. intros P F. rewrite <- F. apply atmega_flag_register, P. Qed.

Lemma waveform_low hw a f w m :
  f = bitfield8 RW a 1 0 -> 0 <= w < 256 -> flag_register hw a 0 -> bytes_ok (byte m) ->
  exists m1, field_write hw f (Z.land w (bitmask W8 [1; 0])) m = Some m1
    /\ bytes_ok (byte m1)
    /\ (forall c, c <> a -> byte m1 c = byte m c)
    /\ byte m1 a mod 4 = w mod 4
    /\ forall i, 2 <= i < 8 -> Z.testbit (byte m1 a) i = Z.testbit (byte m a) i.
Proof.
  intros -> Hw HF H.
  destruct (field_write_flags hw (bitfield8 RW a 1 0) (Z.land w (bitmask W8 [1; 0])) m 0
              eq_refl eq_refl) as (m1 & E & B);
    [unfold valid_field; cbn; lia|exact HF|exact H|].
  exists m1. split; [exact E|]. split; [exact (byte_becomes_ok _ _ _ _ H B)|].
  destruct B as (B1 & B2 & B3). split; [exact B1|].
  cbn [f_addr bitfield8 f_lo] in *. split.
  - change 4 with (2 ^ (1 - 0 + 1)).
    rewrite <- (Z.div_1_r (byte m1 a)). change 1 with (2 ^ 0) at 1.
    apply byte_field; [lia|]. intros i Hi. rewrite B3 by lia. unfold after.
    rewrite Z.bits_0. unfold in_fieldb. cbn [f_lo f_hi bitfield8].
    destruct (Z.leb_spec 0 i), (Z.leb_spec i 1); try lia. cbn [andb].
    unfold written. cbn [f_hi f_lo bitfield8]. change (1 =? 0) with false. cbv iota.
    change (bitmask W8 [1; 0]) with (Z.ones 2). rewrite Z.land_ones by lia.
    rewrite Z.mod_pow2_bits_low by lia. reflexivity.
  - intros i Hi. rewrite B3 by lia. unfold after. rewrite Z.bits_0. unfold in_fieldb.
    cbn [f_lo f_hi bitfield8].
    destruct (Z.leb_spec i 1); [lia|]. rewrite andb_false_r. reflexivity.
Qed.

Lemma then_set_statement hw f v g u l m m1 :
  field_write hw f v m = Some m1 ->
  then_set hw (match field_write hw f v m, write_lazy g u with
               | Some m1, Some p => Some (p, m1)
               | _, _ => None
               end) l
  = lazy_statement hw ((g, u) :: map (fun sv => (s_set (fst sv), snd sv)) l) m1.
Proof.
  intros ->. unfold then_set, lazy_statement. cbn [lazies].
  destruct (write_lazy g u); [|reflexivity].
  destruct (lazies _); reflexivity.
Qed.

Lemma shr_small w : 0 <= w < 256 -> shr W8 w 2 = w / 4.
Proof.
  intros H. unfold shr, trunc. rewrite Z.shiftr_div_pow2 by lia.
  change (2 ^ 2) with 4. change (2 ^ bits W8) with 256. apply Z.mod_small.
  split; [apply Z.div_pos; lia|]. apply Z.div_lt_upper_bound; lia.
Qed.

(** Setting the waveform of timer 0 in one statement with the clock: the low two bits
    of the waveform go to bits 1:0 of TCCR0A, its third bit to bit 3 of TCCR0B, the
    clock to bits 2:0 of TCCR0B, and nothing else changes. *)
Theorem C78_tc0_set_waveform_and_clock :
  forall w k m, 0 <= w < 8 -> 0 <= k < 8 -> bytes_ok (byte m) ->
  exists m',
    then_set atmega (tc0_set_waveform atmega w m) [(set_tc0_input_clock, k)] = Some m'
    /\ bytes_ok (byte m')
    /\ same_but [0x44; 0x45] (byte m) (byte m')
    /\ byte m' 0x44 mod 4 = w mod 4
    /\ (forall i, 2 <= i < 8 -> Z.testbit (byte m' 0x44) i = Z.testbit (byte m 0x44) i)
    /\ byte m' 0x45 / 8 mod 2 = w / 4
    /\ byte m' 0x45 mod 8 = k
    /\ (forall i, 4 <= i < 8 -> Z.testbit (byte m' 0x45) i = Z.testbit (byte m 0x45) i).
Proof.
  intros w k m Hw Hk H.
  destruct (waveform_low atmega 0x44 tccr0a_wgm0 w m eq_refl ltac:(lia)
              (plain_flags 0x44 eq_refl eq_refl) H) as (m1 & E1 & O1 & S1 & L1 & K1).
  unfold tc0_set_waveform. rewrite (then_set_statement _ _ _ _ _ _ _ _ E1).
  rewrite shr_small by lia. cbn [map fst snd s_set set_tc0_input_clock].
  assert (Q : 0 <= w / 4 < 2)
    by (split; [apply Z.div_pos; lia|apply Z.div_lt_upper_bound; lia]).
  set (fvs := [(tccr0b_wgm02, w / 4); (tccr0b_cs0, k)]).
  assert (FO : fields_of W8 0x45 fvs).
  { repeat constructor; unfold valid_field; cbn; lia. }
  destruct (lazy_statement_fields atmega 0x45 fvs m1 0) as (m' & E & O & S & F & N);
    [discriminate|exact FO| | |intros; apply Z.bits_0
    |exact (plain_flags 0x45 eq_refl eq_refl)|exact O1|].
  { repeat constructor. intros i. unfold in_field; cbn. lia. }
  { repeat constructor; cbn; lia. }
  exists m'. split; [exact E|]. split; [exact O|].
  split; [|split; [|split; [|split; [|split]]]].
  - intros c NI. cbn [In] in NI. rewrite S, S1 by lia. reflexivity.
  - rewrite S by lia. exact L1.
  - intros i Hi. rewrite S by lia. apply K1, Hi.
  - change 8 with (2 ^ 3). change 2 with (2 ^ (3 - 3 + 1)) at 2.
    apply byte_field_fit; [lia|exact Q|]. intros i Hi.
    apply (F tccr0b_wgm02); [left; reflexivity|unfold in_field; cbn; lia].
  - rewrite <- (Z.div_1_r (byte m' 0x45)). change 1 with (2 ^ 0).
    change 8 with (2 ^ (2 - 0 + 1)).
    apply byte_field_fit; [lia|exact Hk|]. intros i Hi.
    apply (F tccr0b_cs0); [right; left; reflexivity|unfold in_field; cbn; lia].
  - intros i Hi. rewrite N; [|lia|].
    + rewrite Z.bits_0, S1 by lia. reflexivity.
    + intros CV. apply coveredb_spec in CV. unfold fvs, coveredb, in_fieldb in CV.
      cbn [existsb fst f_lo f_hi tccr0b_wgm02 tccr0b_cs0 bit8 bitfield8] in CV.
      destruct (Z.leb_spec i 3), (Z.leb_spec i 2); try lia.
Qed.
Print Assumptions C78_tc0_set_waveform_and_clock.

Example C78_tc0_set_waveform_and_clock_case :
  exists m', then_set atmega (tc0_set_waveform atmega 7 (Machine (fun _ => 0xf0) []))
               [(set_tc0_input_clock, 3)] = Some m'
    /\ byte m' 0x44 = 0xf3 /\ byte m' 0x45 = 0xfb.
Proof. eexists. split; [reflexivity|]. split; reflexivity. Qed.

(** Setting the waveform alone keeps the clock as well. *)
Theorem C78_tc0_set_waveform :
  forall w m, 0 <= w < 8 -> bytes_ok (byte m) ->
  exists m',
    then_set atmega (tc0_set_waveform atmega w m) [] = Some m'
    /\ bytes_ok (byte m')
    /\ same_but [0x44; 0x45] (byte m) (byte m')
    /\ byte m' 0x44 mod 4 = w mod 4
    /\ (forall i, 2 <= i < 8 -> Z.testbit (byte m' 0x44) i = Z.testbit (byte m 0x44) i)
    /\ byte m' 0x45 / 8 mod 2 = w / 4
    /\ (forall i, 0 <= i < 8 -> i <> 3 ->
        Z.testbit (byte m' 0x45) i = Z.testbit (byte m 0x45) i).
Proof.
  intros w m Hw H.
  destruct (waveform_low atmega 0x44 tccr0a_wgm0 w m eq_refl ltac:(lia)
              (plain_flags 0x44 eq_refl eq_refl) H) as (m1 & E1 & O1 & S1 & L1 & K1).
  unfold tc0_set_waveform. rewrite (then_set_statement _ _ _ _ _ _ _ _ E1).
  rewrite shr_small by lia. cbn [map].
  assert (Q : 0 <= w / 4 < 2)
    by (split; [apply Z.div_pos; lia|apply Z.div_lt_upper_bound; lia]).
  set (fvs := [(tccr0b_wgm02, w / 4)]).
  assert (FO : fields_of W8 0x45 fvs).
  { repeat constructor; unfold valid_field; cbn; lia. }
  destruct (lazy_statement_fields atmega 0x45 fvs m1 0) as (m' & E & O & S & F & N);
    [discriminate|exact FO| | |intros; apply Z.bits_0
    |exact (plain_flags 0x45 eq_refl eq_refl)|exact O1|].
  { repeat constructor. }
  { repeat constructor; cbn; lia. }
  exists m'. split; [exact E|]. split; [exact O|].
  split; [|split; [|split; [|split]]].
  - intros c NI. cbn [In] in NI. rewrite S, S1 by lia. reflexivity.
  - rewrite S by lia. exact L1.
  - intros i Hi. rewrite S by lia. apply K1, Hi.
  - change 8 with (2 ^ 3). change 2 with (2 ^ (3 - 3 + 1)) at 2.
    apply byte_field_fit; [lia|exact Q|]. intros i Hi.
    apply (F tccr0b_wgm02); [left; reflexivity|unfold in_field; cbn; lia].
  - intros i Hi N3. rewrite N; [|lia|].
    + rewrite Z.bits_0, S1 by lia. reflexivity.
    + intros CV. apply coveredb_spec in CV. unfold fvs, coveredb, in_fieldb in CV.
      cbn [existsb fst f_lo f_hi tccr0b_wgm02 bit8] in CV.
      destruct (Z.leb_spec i 3), (Z.leb_spec 3 i); try lia; discriminate.
Qed.
Print Assumptions C78_tc0_set_waveform.

Example C78_tc0_set_waveform_case :
  exists m', then_set atmega (tc0_set_waveform atmega 5 (Machine (fun _ => 0xf7) [])) []
             = Some m'
    /\ byte m' 0x44 = 0xf5 /\ byte m' 0x45 = 0xff.
Proof. eexists. split; [reflexivity|]. split; reflexivity. Qed.

(** Reading the waveform of timer 0 gives eight, not four, times the third bit plus the
    low two. *)
Theorem C78_tc0_current_waveform :
  forall m, bytes_ok (byte m) ->
  exists m', byte m' = byte m
    /\ tc0_current_waveform m
       = Some (8 * (byte m 0x45 / 8 mod 2) + byte m 0x44 mod 4, m').
Proof.
  intros m H. unfold tc0_current_waveform.
  destruct (field_read_byte tccr0b_wgm02 m eq_refl eq_refl) as (m1 & B1 & R1);
    [unfold valid_field; cbn; lia|exact H|]. rewrite R1.
  destruct (field_read_byte tccr0a_wgm0 m1 eq_refl eq_refl) as (m2 & B2 & R2);
    [unfold valid_field; cbn; lia|rewrite B1; exact H|]. rewrite R2, B1.
  exists m2. split; [congruence|].
  cbn [f_addr f_lo f_hi tccr0b_wgm02 tccr0a_wgm0 bit8 bitfield8].
  change (2 ^ 3) with 8. change (2 ^ (3 - 3 + 1)) with 2. change (2 ^ 0) with 1.
  change (2 ^ (1 - 0 + 1)) with 4. rewrite Z.div_1_r.
  pose proof (Z.mod_pos_bound (byte m 0x45 / 8) 2 ltac:(lia)).
  pose proof (Z.mod_pos_bound (byte m 0x44) 4 ltac:(lia)).
  unfold shl, trunc. rewrite Z.shiftl_mul_pow2 by lia. change (2 ^ 3) with 8.
  change (2 ^ bits W8) with 256. rewrite (Z.mod_small (_ * 8)) by lia.
  rewrite Z.mod_small by lia. do 2 f_equal. lia.
Qed.
Print Assumptions C78_tc0_current_waveform.

Example C78_tc0_current_waveform_case :
  tc0_current_waveform (Machine (fun c => if c =? 0x45 then 8 else 3) [])
  = Some (11, Machine (fun c => if c =? 0x45 then 8 else 3) [Rd W8 0x45; Rd W8 0x44]).
Proof. reflexivity. Qed.

(** So a waveform set reads back as itself exactly if it is below four. *)
Theorem C78_tc0_round_trip :
  forall w m, 0 <= w < 8 -> bytes_ok (byte m) ->
  exists m' m'' r,
    then_set atmega (tc0_set_waveform atmega w m) [] = Some m'
    /\ tc0_current_waveform m' = Some (r, m'')
    /\ r = (if w <? 4 then w else w + 4)
    /\ (r = w <-> w < 4).
Proof.
  intros w m Hw H.
  destruct (C78_tc0_set_waveform w m Hw H) as (m' & E & O & _ & L & _ & U & _).
  destruct (C78_tc0_current_waveform m' O) as (m'' & _ & R).
  rewrite U, L in R. exists m', m''. eexists. split; [exact E|]. split; [exact R|].
  pose proof (Z.div_mod w 4 ltac:(lia)). pose proof (Z.mod_pos_bound w 4 ltac:(lia)).
  destruct (Z.ltb_spec w 4); lia.
Qed.
Print Assumptions C78_tc0_round_trip.

Example C78_tc0_round_trip_case :
  exists m' m'',
    then_set atmega (tc0_set_waveform atmega 7 (Machine (fun _ => 0) [])) [] = Some m'
    /\ tc0_current_waveform m' = Some (11, m'').
Proof. eexists. eexists. split; reflexivity. Qed.

(** Timer 1: the low two bits of the waveform go to bits 1:0 of TCCR1A, the high two to
    bits 4:3 of TCCR1B, the clock to bits 2:0 of TCCR1B. *)
Theorem C78_tc1_set_waveform_and_clock :
  forall w k m, 0 <= w < 16 -> 0 <= k < 8 -> bytes_ok (byte m) ->
  exists m',
    then_set atmega (tc1_set_waveform atmega w m) [(set_tc1_input_clock, k)] = Some m'
    /\ bytes_ok (byte m')
    /\ same_but [0x80; 0x81] (byte m) (byte m')
    /\ byte m' 0x80 mod 4 = w mod 4
    /\ (forall i, 2 <= i < 8 -> Z.testbit (byte m' 0x80) i = Z.testbit (byte m 0x80) i)
    /\ byte m' 0x81 / 8 mod 4 = w / 4
    /\ byte m' 0x81 mod 8 = k
    /\ (forall i, 5 <= i < 8 -> Z.testbit (byte m' 0x81) i = Z.testbit (byte m 0x81) i).
Proof.
  intros w k m Hw Hk H.
  destruct (waveform_low atmega 0x80 tccr1a_wgm1 w m eq_refl ltac:(lia)
              (plain_flags 0x80 eq_refl eq_refl) H) as (m1 & E1 & O1 & S1 & L1 & K1).
  unfold tc1_set_waveform. rewrite (then_set_statement _ _ _ _ _ _ _ _ E1).
  rewrite shr_small by lia. cbn [map fst snd s_set set_tc1_input_clock].
  assert (Q : 0 <= w / 4 < 4)
    by (split; [apply Z.div_pos; lia|apply Z.div_lt_upper_bound; lia]).
  set (fvs := [(tccr1b_wgm1, w / 4); (tccr1b_cs1, k)]).
  assert (FO : fields_of W8 0x81 fvs).
  { repeat constructor; unfold valid_field; cbn; lia. }
  destruct (lazy_statement_fields atmega 0x81 fvs m1 0) as (m' & E & O & S & F & N);
    [discriminate|exact FO| | |intros; apply Z.bits_0
    |exact (plain_flags 0x81 eq_refl eq_refl)|exact O1|].
  { repeat constructor. intros i. unfold in_field; cbn. lia. }
  { repeat constructor; cbn; lia. }
  exists m'. split; [exact E|]. split; [exact O|].
  split; [|split; [|split; [|split; [|split]]]].
  - intros c NI. cbn [In] in NI. rewrite S, S1 by lia. reflexivity.
  - rewrite S by lia. exact L1.
  - intros i Hi. rewrite S by lia. apply K1, Hi.
  - change 8 with (2 ^ 3). change 4 with (2 ^ (4 - 3 + 1)) at 1.
    apply byte_field_fit; [lia|exact Q|]. intros i Hi.
    apply (F tccr1b_wgm1); [left; reflexivity|unfold in_field; cbn; lia].
  - rewrite <- (Z.div_1_r (byte m' 0x81)). change 1 with (2 ^ 0).
    change 8 with (2 ^ (2 - 0 + 1)).
    apply byte_field_fit; [lia|exact Hk|]. intros i Hi.
    apply (F tccr1b_cs1); [right; left; reflexivity|unfold in_field; cbn; lia].
  - intros i Hi. rewrite N; [|lia|].
    + rewrite Z.bits_0, S1 by lia. reflexivity.
    + intros CV. apply coveredb_spec in CV. unfold fvs, coveredb, in_fieldb in CV.
      cbn [existsb fst f_lo f_hi tccr1b_wgm1 tccr1b_cs1 bit8 bitfield8] in CV.
      destruct (Z.leb_spec i 4), (Z.leb_spec i 2); try lia.
Qed.
Print Assumptions C78_tc1_set_waveform_and_clock.

Example C78_tc1_set_waveform_and_clock_case :
  exists m', then_set atmega (tc1_set_waveform atmega 14 (Machine (fun _ => 0xf0) []))
               [(set_tc1_input_clock, 1)] = Some m'
    /\ byte m' 0x80 = 0xf2 /\ byte m' 0x81 = 0xf9.
Proof. eexists. split; [reflexivity|]. split; reflexivity. Qed.

(** Reading the waveform of timer 1. *)
Theorem C78_tc1_current_waveform :
  forall m, bytes_ok (byte m) ->
  exists m', byte m' = byte m
    /\ tc1_current_waveform m
       = Some (8 * (byte m 0x81 / 8 mod 4) + byte m 0x80 mod 4, m').
Proof.
  intros m H. unfold tc1_current_waveform.
  destruct (field_read_byte tccr1b_wgm1 m eq_refl eq_refl) as (m1 & B1 & R1);
    [unfold valid_field; cbn; lia|exact H|]. rewrite R1.
  destruct (field_read_byte tccr1a_wgm1 m1 eq_refl eq_refl) as (m2 & B2 & R2);
    [unfold valid_field; cbn; lia|rewrite B1; exact H|]. rewrite R2, B1.
  exists m2. split; [congruence|].
  cbn [f_addr f_lo f_hi tccr1b_wgm1 tccr1a_wgm1 bit8 bitfield8].
  change (2 ^ 3) with 8. change (2 ^ (4 - 3 + 1)) with 4. change (2 ^ 0) with 1.
  change (2 ^ (1 - 0 + 1)) with 4. rewrite Z.div_1_r.
  pose proof (Z.mod_pos_bound (byte m 0x81 / 8) 4 ltac:(lia)).
  pose proof (Z.mod_pos_bound (byte m 0x80) 4 ltac:(lia)).
  unfold shl, trunc. rewrite Z.shiftl_mul_pow2 by lia. change (2 ^ 3) with 8.
  change (2 ^ bits W8) with 256. rewrite (Z.mod_small (_ * 8)) by lia.
  rewrite Z.mod_small by lia. do 2 f_equal. lia.
Qed.
Print Assumptions C78_tc1_current_waveform.

Example C78_tc1_current_waveform_case :
  exists m', tc1_current_waveform (Machine (fun c => if c =? 0x81 then 0x08 else 2) [])
             = Some (10, m').
Proof. eexists. reflexivity. Qed.

(** A waveform of timer 1 reads back as itself exactly if it is below four; waveforms
    four to seven read back as the valid waveforms eight to eleven. *)
Theorem C78_tc1_round_trip :
  forall w k m, 0 <= w < 16 -> 0 <= k < 8 -> bytes_ok (byte m) ->
  exists m' m'' r,
    then_set atmega (tc1_set_waveform atmega w m) [(set_tc1_input_clock, k)] = Some m'
    /\ tc1_current_waveform m' = Some (r, m'')
    /\ r = 8 * (w / 4) + w mod 4
    /\ (r = w <-> w < 4)
    /\ (4 <= w < 8 -> r = w + 4).
Proof.
  intros w k m Hw Hk H.
  destruct (C78_tc1_set_waveform_and_clock w k m Hw Hk H)
    as (m' & E & O & _ & L & _ & U & _).
  destruct (C78_tc1_current_waveform m' O) as (m'' & _ & R).
  rewrite U, L in R. exists m', m''. eexists. split; [exact E|]. split; [exact R|].
  pose proof (Z.div_mod w 4 ltac:(lia)). pose proof (Z.mod_pos_bound w 4 ltac:(lia)).
  lia.
Qed.
Print Assumptions C78_tc1_round_trip.

Example C78_tc1_round_trip_case :
  exists m' m'',
    then_set atmega (tc1_set_waveform atmega 7 (Machine (fun _ => 0) []))
      [(set_tc1_input_clock, 1)] = Some m'
    /\ tc1_current_waveform m' = Some (11, m'').
Proof. eexists. eexists. split; reflexivity. Qed.

(** ** C79: forcing a compare *)

(** Forcing a compare of timer 1 sets a bit of the compare output mode of output a in
    TCCR1A; the register with the force bits, TCCR1C at 0x82, is not touched. *)
Theorem C79_tc1_force :
  forall m, bytes_ok (byte m) ->
  (exists m', tc1_force_a atmega m = Some m'
     /\ byte m' 0x82 = byte m 0x82
     /\ byte_becomes 0x80 (byte m) (byte m')
          (fun i => if i =? 7 then true else Z.testbit (byte m 0x80) i)
     /\ bus m' = bus m ++ [Rd W8 0x80; Wr W8 0x80 (byte m' 0x80)])
  /\ (exists m', tc1_force_b atmega m = Some m'
     /\ byte m' 0x82 = byte m 0x82
     /\ byte_becomes 0x80 (byte m) (byte m')
          (fun i => if i =? 6 then true else Z.testbit (byte m 0x80) i)
     /\ bus m' = bus m ++ [Rd W8 0x80; Wr W8 0x80 (byte m' 0x80)]).
Proof.
  intros m H.
  assert (HF := plain_flags 0x80 eq_refl eq_refl).
  assert (P : plain atmega W8 0x80).
  { apply atmega_plain. intros b [->|[D _]]; [split; reflexivity|discriminate]. }
  assert (G : forall k, 0 <= k < 8 ->
    exists m', Some (set_bit atmega W8 0x80 k m) = Some m'
     /\ byte m' 0x82 = byte m 0x82
     /\ byte_becomes 0x80 (byte m) (byte m')
          (fun i => if i =? k then true else Z.testbit (byte m 0x80) i)
     /\ bus m' = bus m ++ [Rd W8 0x80; Wr W8 0x80 (byte m' 0x80)]).
  { intros k Hk. eexists. split; [reflexivity|].
    assert (B : byte_becomes 0x80 (byte m) (byte (set_bit atmega W8 0x80 k m))
                  (fun i => if i =? k then true else Z.testbit (byte m 0x80) i)).
    { refine (byte_becomes_ext _ _ _ _ _ _ (set_bit_flags atmega 0x80 0 k m HF H Hk)).
      intros i Hi. unfold after. rewrite Z.bits_0. reflexivity. }
    split; [apply B; lia|]. split; [exact B|].
    destruct (set_bit_updated P k m H Hk) as [(U1 & _ & _ & U4) _].
    cbn [content] in U1. rewrite U4, U1. reflexivity. }
  split; [exact (G 7 ltac:(lia))|exact (G 6 ltac:(lia))].
Qed.
Print Assumptions C79_tc1_force.

Example C79_tc1_force_case :
  exists m', tc1_force_b atmega (Machine (fun _ => 0) []) = Some m'
    /\ byte m' 0x80 = 0x40 /\ byte m' 0x82 = 0.
Proof. eexists. split; [reflexivity|]. split; reflexivity. Qed.

(** Forcing a compare of timer 0 sets the right bit of TCCR0B and no other. *)
Theorem C79_tc0_force :
  forall m, bytes_ok (byte m) ->
  (exists m', tc0_force_a atmega m = Some m'
     /\ byte_becomes 0x45 (byte m) (byte m')
          (fun i => if i =? 7 then true else Z.testbit (byte m 0x45) i))
  /\ (exists m', tc0_force_b atmega m = Some m'
     /\ byte_becomes 0x45 (byte m) (byte m')
          (fun i => if i =? 6 then true else Z.testbit (byte m 0x45) i)).
Proof.
  intros m H. assert (HF := plain_flags 0x45 eq_refl eq_refl).
  split; (eexists; split; [reflexivity|]);
    [refine (byte_becomes_ext _ _ _ _ _ _ (set_bit_flags atmega 0x45 0 7 m HF H ltac:(lia)))
    |refine (byte_becomes_ext _ _ _ _ _ _ (set_bit_flags atmega 0x45 0 6 m HF H ltac:(lia)))];
    intros i Hi; unfold after; rewrite Z.bits_0; reflexivity.
Qed.
Print Assumptions C79_tc0_force.

Example C79_tc0_force_case :
  exists m', tc0_force_a atmega (Machine (fun _ => 0x0b) []) = Some m'
    /\ byte m' 0x45 = 0x8b.
Proof. eexists. split; reflexivity. Qed.

(** ** C80: writing other fields of a register with a flag *)

(** Reading a register with flags, changing bits of it and writing it back clears every
    flag that is not among the bits changed: writing a field, setting, clearing or
    toggling a bit, or joined lazy writes. *)
Theorem C80_writes_clear_flags :
  forall hw a mask m, flag_register hw a mask -> bytes_ok (byte m) ->
  (forall f v i, f_io f = RW -> f_w f = W8 -> f_addr f = a -> valid_field f ->
     0 <= i < 8 -> Z.testbit mask i = true -> ~ in_field f i ->
     (exists m', field_write hw f v m = Some m' /\ Z.testbit (byte m' a) i = false)
     /\ (exists m', field_set hw f m = Some m' /\ Z.testbit (byte m' a) i = false)
     /\ (exists m', field_clear hw f m = Some m' /\ Z.testbit (byte m' a) i = false)
     /\ (exists m', field_toggle hw f m = Some m' /\ Z.testbit (byte m' a) i = false))
  /\ (forall fvs i, fvs <> [] -> fields_of W8 a fvs -> 0 <= i < 8 ->
      Z.testbit mask i = true -> ~ covered fvs i ->
      exists m', lazy_statement hw fvs m = Some m' /\ Z.testbit (byte m' a) i = false).
Proof.
  intros hw a mask m HF H. split.
  - intros f v i Hio Hw Ha HV Hi HM NI. subst a. split.
    + destruct (field_write_flags hw f v m mask Hio Hw HV HF H) as (m' & E & (_ & _ & B)).
      exists m'. split; [exact E|]. rewrite B by exact Hi. unfold after. rewrite HM.
      destruct (in_fieldb f i) eqn:IB; [apply in_fieldb_spec in IB; contradiction|].
      destruct (Z.testbit (byte m (f_addr f)) i); reflexivity.
    + destruct HV as [V1 V2].
      assert (NH : i <> f_hi f) by (unfold in_field in NI; lia). rewrite Hw in V2. cbn [nbits] in V2.
      unfold field_set, field_clear, field_toggle. rewrite Hio, Hw.
      cbn [has_set policy_clear has_toggle].
      assert (Hb : 0 <= f_hi f < 8) by lia.
      split; [|split].
      * eexists. split; [reflexivity|].
        destruct (set_bit_flags hw (f_addr f) mask (f_hi f) m HF H Hb) as (_ & _ & B).
        rewrite B by exact Hi. unfold after. rewrite HM.
        destruct (Z.eqb_spec i (f_hi f)); [contradiction|].
        destruct (Z.testbit (byte m (f_addr f)) i); reflexivity.
      * eexists. split; [reflexivity|].
        destruct (clear_bit_w0_flags hw (f_addr f) mask (f_hi f) m HF H Hb) as (_ & _ & B).
        rewrite B by exact Hi. unfold after. rewrite HM.
        destruct (Z.eqb_spec i (f_hi f)); [contradiction|].
        destruct (Z.testbit (byte m (f_addr f)) i); reflexivity.
      * eexists. split; [reflexivity|].
        destruct (toggle_bit_flags hw (f_addr f) mask (f_hi f) m HF H Hb) as (_ & _ & B).
        rewrite B by exact Hi. unfold after. rewrite HM.
        destruct (Z.eqb_spec i (f_hi f)); [contradiction|].
        destruct (Z.testbit (byte m (f_addr f)) i); reflexivity.
  - intros fvs i NE FO Hi HM NC.
    destruct (lazy_statement_flags hw a fvs m mask NE FO HF H) as (m' & E & (_ & _ & B)).
    exists m'. split; [exact E|]. rewrite B by exact Hi. unfold after. rewrite HM.
    destruct (coveredb fvs i) eqn:CB; [apply coveredb_spec in CB; contradiction|].
    destruct (Z.testbit (byte m a) i); reflexivity.
Qed.
Print Assumptions C80_writes_clear_flags.

Example C80_writes_clear_flags_case :
  flag_register atmega 0x7a 0x10 /\ bytes_ok (byte (holding 0x7a 0xff))
  /\ valid_field adcsra_adps /\ ~ in_field adcsra_adps 4
  /\ exists m', field_write atmega adcsra_adps 3 (holding 0x7a 0xff) = Some m'
     /\ byte m' 0x7a = 0xeb.
Proof.
  split; [apply (atmega_flag_register 0x7a eq_refl)|].
  split; [apply holding_ok; lia|]. split; [unfold valid_field; cbn; lia|].
  split; [unfold in_field; cbn; lia|]. eexists. split; reflexivity.
Qed.

(** The settings living in a register with a flag, with address and bit of the flag. *)
Definition beside_flag : list (setting * Z * Z) :=
  [(set_adc_enable_adc, 0x7a, 4); (set_adc_enable_interrupt, 0x7a, 4);
   (set_adc_enable_auto_trigger, 0x7a, 4); (set_adc_prescale_factor, 0x7a, 4);
   (adc_start, 0x7a, 4);
   (set_ac_input_select_bandgap_ref, 0x50, 4); (set_ac_output_interrupt_on, 0x50, 4);
   (set_ac_enable_interrupt, 0x50, 4); (set_ac_enable_input_capture, 0x50, 4);
   (set_ac_disable_analog_comparator, 0x50, 4);
   (set_twi_enable_interface, 0xbc, 7); (set_twi_enable_interrupt, 0xbc, 7)].

(** Making any setting of the converter, the comparator or the two-wire interface that
    lives in the register of its interrupt flag loses a pending interrupt; for the
    two-wire interface it makes the next bus action start. *)
Theorem C80_settings_lose_pending_interrupt :
  forall s a k v m, In (s, a, k) beside_flag -> bytes_ok (byte m) ->
  exists m', set_statement atmega [(s, v)] m = Some m'
    /\ Z.testbit (byte m' a) k = false.
Proof.
  intros s a k v m HI H.
  assert (G : is_pin a = false /\ Z.testbit (flag_bits a) k = true /\ 0 <= k < 8
              /\ f_w (s_set s) = W8 /\ f_addr (s_set s) = a /\ f_io (s_set s) = RW
              /\ valid_field (s_set s) /\ ~ in_field (s_set s) k).
  { unfold beside_flag in HI. cbn [In] in HI.
    repeat (destruct HI as [HI|HI];
            [injection HI as <- <- <-;
             split; [reflexivity|]; split; [reflexivity|]; split; [lia|];
             split; [reflexivity|]; split; [reflexivity|]; split; [reflexivity|];
             unfold valid_field, in_field; cbn; lia|]).
    contradiction. }
  destruct G as (G1 & G2 & G3 & G4 & G5 & G6 & G7 & G8).
  destruct (C80_writes_clear_flags atmega a (flag_bits a) m
              (atmega_flag_register a G1) H) as [_ L].
  apply (L [(s_set s, v)] k); [discriminate| |exact G3|exact G2|].
  - constructor; [|constructor]. cbn [fst]. auto.
  - intros C. inversion C as [? ? C1|? ? C1]; subst; [exact (G8 C1)|inversion C1].
Qed.
Print Assumptions C80_settings_lose_pending_interrupt.

Example C80_settings_lose_pending_interrupt_case :
  In (set_twi_enable_interrupt, 0xbc, 7) beside_flag
  /\ exists m', set_statement atmega [(set_twi_enable_interrupt, 1)] (holding 0xbc 0x84)
                = Some m' /\ byte m' 0xbc = 0x05.
Proof. split; [cbn; tauto|]. eexists. split; reflexivity. Qed.
