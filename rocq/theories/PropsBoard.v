(** Properties of the initialisations, LEDs, pins and whole flag registers: C101 to
    C104. *)

From Coq Require Import ZArith List Bool Lia.
From Verif Require Import Base Register RegisterSpec RegisterProofs.
From Verif Require Import AtmegaRegs Atmega AtmegaSpec AtmegaProofs.
From Verif Require Import PropsAtmega PropsSettings.
Import ListNotations.
Open Scope Z_scope.

(** ** C101: initialisations *)

Lemma seq_some a b m m1 : a m = Some m1 -> seq a b m = b m1.
Proof. intros E. unfold seq. rewrite E. reflexivity. Qed.

Lemma set_dir p n m :
  0 <= n < 8 -> bytes_ok (byte m) ->
  exists m1, field_set atmega (gpio_dir p n) m = Some m1
    /\ byte_becomes (ddr_addr p) (byte m) (byte m1)
         (fun i => if i =? n then true else Z.testbit (byte m (ddr_addr p)) i).
Proof.
  intros Hn H. eexists. split; [reflexivity|].
  assert (HF : flag_register atmega (ddr_addr p) 0)
    by (destruct p; apply plain_flags; reflexivity).
  refine (byte_becomes_ext _ _ _ _ _ _ (set_bit_flags atmega (ddr_addr p) 0 n m HF H Hn)).
  intros i Hi. unfold after. rewrite Z.bits_0. reflexivity.
Qed.

(** The initialisation of the pulse width modulation: pin PB1 becomes an output, output
    a of timer 1 is in mode 2, the waveform is 7, the clock is not divided; no other
    register or bit changes. *)
Theorem C101_pwm_init :
  forall m, bytes_ok (byte m) ->
  exists m', pwm_init atmega m = Some m'
    /\ same_but [0x24; 0x80; 0x81] (byte m) (byte m')
    /\ (forall i, 0 <= i < 8 ->
        Z.testbit (byte m' 0x24) i = if i =? 1 then true else Z.testbit (byte m 0x24) i)
    /\ byte m' 0x80 / 64 = 2 /\ byte m' 0x80 mod 4 = 3
    /\ (forall i, 2 <= i < 6 -> Z.testbit (byte m' 0x80) i = Z.testbit (byte m 0x80) i)
    /\ byte m' 0x81 / 8 mod 4 = 1 /\ byte m' 0x81 mod 8 = 1
    /\ (forall i, 5 <= i < 8 -> Z.testbit (byte m' 0x81) i = Z.testbit (byte m 0x81) i).
Proof.
  intros m H. unfold pwm_init.
  destruct (set_dir PortB 1 m ltac:(lia) H) as (m1 & E1 & B1).
  rewrite (seq_some _ _ _ _ E1).
  pose proof (byte_becomes_ok _ _ _ _ H B1) as O1.
  change (ddr_addr PortB) with 0x24 in B1.
  destruct (C99_setting set_tc1_output_a_mode 0x80 7 6 2 m1) as (_ & m2 & m2' & E2 & Q2 & B2 & _);
    [cbn; tauto|cbn; lia|exact O1|].
  rewrite (seq_some _ _ _ _ E2).
  pose proof (byte_becomes_ok _ _ _ _ O1 B2) as O2.
  destruct (C78_tc1_set_waveform_and_clock 7 1 m2 ltac:(lia) ltac:(lia) O2)
    as (m3 & E3 & O3 & S3 & L3 & K3 & U3 & C3 & R3).
  exists m3. split; [exact E3|].
  destruct B1 as (N1 & _ & T1). destruct B2 as (N2 & _ & T2).
  split; [|split; [|split; [|split; [|split; [|split; [|split]]]]]].
  - intros c NI. cbn [In] in NI. rewrite S3 by (cbn [In]; lia).
    rewrite N2, N1 by lia. reflexivity.
  - intros i Hi. rewrite S3 by (cbn [In]; lia). rewrite N2 by lia. apply T1, Hi.
  - assert (Q : byte m3 0x80 / 2 ^ 6 mod 2 ^ (7 - 6 + 1) = 2).
    { apply byte_field_fit; [lia|lia|]. intros i Hi. rewrite K3, T2 by lia.
      destruct (Z.leb_spec 6 i), (Z.leb_spec i 7); try lia. reflexivity. }
    change (2 ^ 6) with 64 in Q. change (2 ^ (7 - 6 + 1)) with 4 in Q.
    pose proof (O3 0x80). rewrite Z.mod_small in Q; [exact Q|].
    split; [apply Z.div_pos; lia|apply Z.div_lt_upper_bound; lia].
  - rewrite L3. reflexivity.
  - intros i Hi. rewrite K3, T2 by lia.
    destruct (Z.leb_spec 6 i); [lia|]. cbn [andb].
    change (flag_of 0x80 i) with false. cbn [negb]. rewrite andb_true_r, N1 by lia.
    reflexivity.
  - rewrite U3. reflexivity.
  - exact C3.
  - intros i Hi. rewrite R3, N2, N1 by lia. reflexivity.
Qed.
Print Assumptions C101_pwm_init.

Example C101_pwm_init_case :
  exists m', pwm_init atmega (Machine (fun _ => 0) []) = Some m'
    /\ byte m' 0x24 = 0x02 /\ byte m' 0x80 = 0x83 /\ byte m' 0x81 = 0x09.
Proof. eexists. split; [reflexivity|]. repeat split. Qed.

(** The initialisation of the converter: reference AVcc, channel 0, free running, and
    ADCSRA exactly 0xef: prescaler 128, everything on, conversion started, the flag
    cleared.  The adjustment of the result is left as it was. *)
Theorem C101_adc_init :
  forall m, bytes_ok (byte m) ->
  exists m', adc_init atmega m = Some m'
    /\ same_but [0x7a; 0x7b; 0x7c] (byte m) (byte m')
    /\ byte m' 0x7a = 0xef
    /\ byte m' 0x7b mod 8 = 0
    /\ (forall i, 3 <= i < 8 -> Z.testbit (byte m' 0x7b) i = Z.testbit (byte m 0x7b) i)
    /\ byte m' 0x7c / 64 = 1 /\ byte m' 0x7c mod 16 = 0
    /\ Z.testbit (byte m' 0x7c) 5 = Z.testbit (byte m 0x7c) 5
    /\ Z.testbit (byte m' 0x7c) 4 = Z.testbit (byte m 0x7c) 4.
Proof.
  intros m H. unfold adc_init.
  set (l1 := [(admux_refs, 1); (admux_mux, 0)]).
  destruct (lazy_statement_fields atmega 0x7c l1 m (flag_bits 0x7c))
    as (m1 & E1 & O1 & S1 & F1 & N1);
    [discriminate|repeat constructor; unfold valid_field; cbn; lia
    |repeat constructor; intros i; unfold in_field; cbn; lia
    |repeat constructor; cbn; lia|intros i _; apply Z.bits_0
    |apply atmega_flag_register; reflexivity|exact H|].
  assert (E1' : set_statement atmega
                  [(set_adc_input_reference, 1); (set_adc_input_channel, 0)] m = Some m1)
    by exact E1.
  rewrite (seq_some _ _ _ _ E1').
  destruct (C99_setting set_adc_trigger_on 0x7b 2 0 0 m1) as (_ & m2 & m2' & E2 & Q2 & B2 & _);
    [cbn; tauto|cbn; lia|exact O1|].
  rewrite (seq_some _ _ _ _ E2).
  pose proof (byte_becomes_ok _ _ _ _ O1 B2) as O2.
  destruct B2 as (N2 & _ & T2).
  set (l3 := [(adcsra_adps, 7); (adcsra_aden, 1); (adcsra_adie, 1); (adcsra_adate, 1);
              (adcsra_adsc, 1)]).
  destruct (lazy_statement_fields atmega 0x7a l3 m2 (flag_bits 0x7a))
    as (m3 & E3 & O3 & S3 & F3 & N3);
    [discriminate|repeat constructor; unfold valid_field; cbn; lia
    |repeat constructor; intros i; unfold in_field; cbn; lia
    |repeat constructor; cbn; lia| |apply atmega_flag_register; reflexivity|exact O2|].
  { intros i C. apply coveredb_spec in C. unfold l3, coveredb, in_fieldb in C.
    cbn [existsb fst f_lo f_hi adcsra_adps adcsra_aden adcsra_adie adcsra_adate
         adcsra_adsc bit8 bitfield8] in C.
    destruct (Z_lt_ge_dec i 0) as [G|G]; [apply Z.testbit_neg_r; exact G|].
    destruct (Z_lt_ge_dec i 8) as [L|L].
    - assert (R : 0 <= i < 8) by lia. revert C. pattern i. apply small_bits;
        try (intros _; reflexivity); [discriminate|exact R].
    - change (flag_bits 0x7a) with 16. apply (testbit_above 16 8); lia. }
  exists m3. split; [exact E3|].
  split; [|split; [|split; [|split; [|split; [|split; [|split]]]]]].
  - intros c NI. cbn [In] in NI. rewrite S3, N2, S1 by lia. reflexivity.
  - apply (bits_ext _ _ 8); [lia|exact (O3 0x7a)|lia|]. apply small_bits.
    + rewrite (F3 adcsra_adps 7 0); [reflexivity|cbn; tauto|unfold in_field; cbn; lia].
    + rewrite (F3 adcsra_adps 7 1); [reflexivity|cbn; tauto|unfold in_field; cbn; lia].
    + rewrite (F3 adcsra_adps 7 2); [reflexivity|cbn; tauto|unfold in_field; cbn; lia].
    + rewrite (F3 adcsra_adie 1 3); [reflexivity|cbn; tauto|unfold in_field; cbn; lia].
    + rewrite (N3 4); [reflexivity|lia|].
      intros C. apply coveredb_spec in C. discriminate.
    + rewrite (F3 adcsra_adate 1 5); [reflexivity|cbn; tauto|unfold in_field; cbn; lia].
    + rewrite (F3 adcsra_adsc 1 6); [reflexivity|cbn; tauto|unfold in_field; cbn; lia].
    + rewrite (F3 adcsra_aden 1 7); [reflexivity|cbn; tauto|unfold in_field; cbn; lia].
  - rewrite S3 by lia. change (2 ^ 0) with 1 in Q2. rewrite Z.div_1_r in Q2. exact Q2.
  - intros i Hi. rewrite S3, T2 by lia. destruct (Z.leb_spec i 2); [lia|].
    rewrite andb_false_r. change (flag_of 0x7b i) with false. cbn [negb].
    rewrite andb_true_r, S1 by lia. reflexivity.
  - rewrite S3, N2 by lia.
    assert (Q : byte m1 0x7c / 2 ^ 6 mod 2 ^ (7 - 6 + 1) = 1).
    { apply byte_field_fit; [lia|lia|]. intros i Hi.
      apply (F1 admux_refs 1 i); [cbn; tauto|unfold in_field; cbn; lia]. }
    change (2 ^ 6) with 64 in Q. change (2 ^ (7 - 6 + 1)) with 4 in Q.
    pose proof (O1 0x7c). rewrite Z.mod_small in Q; [exact Q|].
    split; [apply Z.div_pos; lia|apply Z.div_lt_upper_bound; lia].
  - rewrite S3, N2 by lia.
    rewrite <- (Z.div_1_r (byte m1 0x7c)). change 1 with (2 ^ 0).
    change 16 with (2 ^ (3 - 0 + 1)). apply byte_field_fit; [lia|lia|]. intros i Hi.
    apply (F1 admux_mux 0 i); [cbn; tauto|unfold in_field; cbn; lia].
  - rewrite S3, N2 by lia. rewrite N1; [reflexivity|lia|].
    intros C. apply coveredb_spec in C. discriminate.
  - rewrite S3, N2 by lia. rewrite N1; [reflexivity|lia|].
    intros C. apply coveredb_spec in C. discriminate.
Qed.
Print Assumptions C101_adc_init.

Example C101_adc_init_case :
  exists m', adc_init atmega (Machine (fun _ => 0xff) []) = Some m'
    /\ byte m' 0x7a = 0xef /\ byte m' 0x7b = 0xf8 /\ byte m' 0x7c = 0x70.
Proof. eexists. split; [reflexivity|]. repeat split. Qed.

(** The initialisation of the heartbeat: interrupt on compare match a, compare value
    250, waveform 2 (count to the compare value and start again), clock divided by
    64. *)
Theorem C101_beat_init :
  forall m, bytes_ok (byte m) ->
  exists m', beat_init atmega m = Some m'
    /\ same_but [0x44; 0x45; 0x47; 0x6e] (byte m) (byte m')
    /\ byte m' 0x47 = 250
    /\ byte m' 0x44 mod 4 = 2
    /\ (forall i, 2 <= i < 8 -> Z.testbit (byte m' 0x44) i = Z.testbit (byte m 0x44) i)
    /\ byte m' 0x45 mod 16 = 3
    /\ (forall i, 4 <= i < 8 -> Z.testbit (byte m' 0x45) i = Z.testbit (byte m 0x45) i)
    /\ (forall i, 0 <= i < 8 ->
        Z.testbit (byte m' 0x6e) i = if i =? 1 then true else Z.testbit (byte m 0x6e) i).
Proof.
  intros m H. unfold beat_init.
  destruct (C99_setting set_tc0_enable_interrupt_on_match_a 0x6e 1 1 1 m)
    as (_ & m1 & m1' & E1 & Q1 & B1 & _); [cbn; tauto|cbn; lia|exact H|].
  rewrite (seq_some _ _ _ _ E1).
  pose proof (byte_becomes_ok _ _ _ _ H B1) as O1. destruct B1 as (N1 & _ & T1).
  destruct (C100_compare_values Tc0A 250 m1 O1 ltac:(lia)) as (m2 & m2' & E2 & V2 & S2 & _).
  change count1ms with 250. rewrite (seq_some _ _ _ _ E2).
  assert (O2 : bytes_ok (byte m2)).
  { intros c. destruct (Z.eq_dec c 0x47) as [->|NE]; [rewrite V2; lia|].
    rewrite S2 by (cbn; lia). apply O1. }
  destruct (C78_tc0_set_waveform_and_clock 2 3 m2 ltac:(lia) ltac:(lia) O2)
    as (m3 & E3 & O3 & S3 & L3 & K3 & U3 & C3 & R3).
  exists m3. split; [exact E3|].
  split; [|split; [|split; [|split; [|split; [|split]]]]].
  - intros c NI. cbn [In] in NI. rewrite S3, S2, N1 by (cbn [In]; lia). reflexivity.
  - rewrite S3 by (cbn [In]; lia). exact V2.
  - exact L3.
  - intros i Hi. rewrite K3, S2, N1 by (cbn [In]; lia). reflexivity.
  - change (2 / 4) with 0 in U3. pose proof (O3 0x45).
    pose proof (Z.div_mod (byte m3 0x45) 8 ltac:(lia)).
    pose proof (Z.div_mod (byte m3 0x45 / 8) 2 ltac:(lia)).
    pose proof (Z.div_mod (byte m3 0x45) 16 ltac:(lia)).
    pose proof (Z.mod_pos_bound (byte m3 0x45) 16 ltac:(lia)).
    lia.
  - intros i Hi. rewrite R3, S2, N1 by (cbn [In]; lia). reflexivity.
  - intros i Hi. rewrite S3, S2, T1 by (cbn [In]; lia).
    destruct (Z.eqb_spec i 1) as [->|NE]; [reflexivity|].
    destruct (Z.leb_spec 1 i), (Z.leb_spec i 1); try lia; cbn [andb];
      change (flag_of 0x6e i) with false; apply andb_true_r.
Qed.
Print Assumptions C101_beat_init.

Example C101_beat_init_case :
  exists m', beat_init atmega (Machine (fun _ => 0x80) []) = Some m'
    /\ byte m' 0x44 = 0x82 /\ byte m' 0x45 = 0x83 /\ byte m' 0x47 = 250
    /\ byte m' 0x6e = 0x82.
Proof. eexists. split; [reflexivity|]. repeat split. Qed.

(** A counter that counts to a compare value and starts again. *)
Definition ctc_next (top x : Z) : Z := if x =? top then 0 else x + 1.

Lemma iter_S {A} n (f : A -> A) x : Nat.iter (Datatypes.S n) f x = f (Nat.iter n f x).
Proof. reflexivity. Qed.

(** It takes one more count than the compare value to come back to zero. *)
Lemma ctc_run top n : 0 <= Z.of_nat n <= top -> Nat.iter n (ctc_next top) 0 = Z.of_nat n.
Proof.
  induction n as [|n IH]; intros H; [reflexivity|].
  rewrite iter_S, IH by lia. unfold ctc_next. destruct (Z.eqb_spec (Z.of_nat n) top); lia.
Qed.

(** The heartbeat is slower than a millisecond: with the compare value the
    initialisation leaves in the register, the timer needs more than a thousandth of
    the clock frequency for a round, for every clock frequency the static assertion
    accepts; with 16 MHz a round takes 1.004 ms. *)
Theorem C101_heartbeat_slow :
  forall m f, bytes_ok (byte m) -> f / 1000 / 64 = 250 ->
  exists m' rounds,
    beat_init atmega m = Some m'
    /\ (forall n, 0 < n -> (Nat.iter (Z.to_nat n) (ctc_next (byte m' 0x47)) 0 = 0
                            /\ forall k, 0 < k < n ->
                               Nat.iter (Z.to_nat k) (ctc_next (byte m' 0x47)) 0 <> 0)
        <-> n = rounds)
    /\ f < rounds * 64 * 1000
    /\ (f = 16000000 -> rounds * 64 * 1000 = 16064000).
Proof.
  intros m f H Hf. destruct (C101_beat_init m H) as (m' & E & _ & V & _).
  exists m', 251. split; [exact E|]. rewrite V.
  assert (R : forall k, 0 <= k <= 250 -> Nat.iter (Z.to_nat k) (ctc_next 250) 0 = k).
  { intros k Hk. rewrite ctc_run by lia. lia. }
  assert (L : Nat.iter (Z.to_nat 251) (ctc_next 250) 0 = 0).
  { change (Z.to_nat 251) with (Datatypes.S (Z.to_nat 250)). rewrite iter_S, R by lia. reflexivity. }
  split; [|split].
  - intros n Hn. split.
    + intros [Z0 NZ]. destruct (Z_lt_ge_dec n 251) as [LT|GE].
      * rewrite R in Z0 by lia. lia.
      * destruct (Z.eq_dec n 251) as [EQ|NE]; [exact EQ|exfalso].
        apply (NZ 251); [lia|exact L].
    + intros ->. split; [exact L|]. intros k Hk. rewrite R by lia. lia.
  - pose proof (Z.div_mod f 1000 ltac:(lia)). pose proof (Z.mod_pos_bound f 1000 ltac:(lia)).
    pose proof (Z.div_mod (f / 1000) 64 ltac:(lia)).
    pose proof (Z.mod_pos_bound (f / 1000) 64 ltac:(lia)). lia.
  - intros _. reflexivity.
Qed.
Print Assumptions C101_heartbeat_slow.

Example C101_heartbeat_slow_case : 16000000 / 1000 / 64 = 250.
Proof. reflexivity. Qed.

(** ** C102: LEDs *)

(** Addresses of the port and direction registers in the data sheet. *)
Definition port_at (p : port) : Z := match p with PortB => 0x25 | PortC => 0x28 | PortD => 0x2b end.
Definition ddr_at (p : port) : Z := match p with PortB => 0x24 | PortC => 0x27 | PortD => 0x2a end.
Definition pin_at (p : port) : Z := match p with PortB => 0x23 | PortC => 0x26 | PortD => 0x29 end.

(** Switching an LED changes the bit of its pin in the port register, enabling it the
    bit in the direction register; nothing else. *)
Theorem C102_led :
  forall p n m, 0 <= n < 8 -> bytes_ok (byte m) ->
  (exists m', led_on atmega p n m = Some m'
     /\ byte_becomes (port_at p) (byte m) (byte m')
          (fun i => if i =? n then true else Z.testbit (byte m (port_at p)) i))
  /\ (exists m', led_off atmega p n m = Some m'
     /\ byte_becomes (port_at p) (byte m) (byte m')
          (fun i => if i =? n then false else Z.testbit (byte m (port_at p)) i))
  /\ (exists m', led_toggle atmega p n m = Some m'
     /\ byte_becomes (port_at p) (byte m) (byte m')
          (fun i => if i =? n then negb (Z.testbit (byte m (port_at p)) i)
                    else Z.testbit (byte m (port_at p)) i))
  /\ (exists m', led_enable atmega p n m = Some m'
     /\ byte_becomes (ddr_at p) (byte m) (byte m')
          (fun i => if i =? n then true else Z.testbit (byte m (ddr_at p)) i)).
Proof.
  intros p n m Hn H.
  assert (HF : flag_register atmega (port_at p) 0)
    by (destruct p; apply plain_flags; reflexivity).
  assert (AP : port_addr p = port_at p) by (destruct p; reflexivity).
  assert (AD : ddr_addr p = ddr_at p) by (destruct p; reflexivity).
  unfold led_on, led_off, led_toggle, led_enable.
  split; [|split; [|split]].
  - exists (set_bit atmega W8 (port_addr p) n m). split; [reflexivity|]. rewrite AP.
    refine (byte_becomes_ext _ _ _ _ _ _ (set_bit_flags atmega _ 0 n m HF H Hn)).
    intros i Hi. unfold after. rewrite Z.bits_0. reflexivity.
  - exists (clear_bit_w0 atmega W8 (port_addr p) n m). split; [reflexivity|]. rewrite AP.
    refine (byte_becomes_ext _ _ _ _ _ _ (clear_bit_w0_flags atmega _ 0 n m HF H Hn)).
    intros i Hi. unfold after. rewrite Z.bits_0. reflexivity.
  - exists (toggle_bit atmega W8 (port_addr p) n m). split; [reflexivity|]. rewrite AP.
    refine (byte_becomes_ext _ _ _ _ _ _ (toggle_bit_flags atmega _ 0 n m HF H Hn)).
    intros i Hi. unfold after. rewrite Z.bits_0. reflexivity.
  - rewrite <- AD. exact (set_dir p n m Hn H).
Qed.
Print Assumptions C102_led.

Example C102_led_case :
  exists m', led_toggle atmega PortB 5 (Machine (fun _ => 0x21) []) = Some m'
    /\ byte m' 0x25 = 0x01.
Proof. eexists. split; reflexivity. Qed.

(** Toggling an LED twice restores everything. *)
Theorem C102_toggle_twice :
  forall p n m, 0 <= n < 8 -> bytes_ok (byte m) ->
  exists m1 m2, led_toggle atmega p n m = Some m1 /\ led_toggle atmega p n m1 = Some m2
    /\ forall c, byte m2 c = byte m c.
Proof.
  intros p n m Hn H.
  destruct (C102_led p n m Hn H) as (_ & _ & (m1 & E1 & B1) & _).
  pose proof (byte_becomes_ok _ _ _ _ H B1) as O1.
  destruct (C102_led p n m1 Hn O1) as (_ & _ & (m2 & E2 & B2) & _).
  exists m1, m2. split; [exact E1|]. split; [exact E2|]. intros c.
  destruct B1 as (N1 & R1 & T1). destruct B2 as (N2 & R2 & T2).
  destruct (Z.eq_dec c (port_at p)) as [->|NE]; [|rewrite N2, N1 by exact NE; reflexivity].
  apply (bits_ext _ _ 8); [lia|exact R2|exact (H _)|]. intros i Hi.
  rewrite T2, T1 by exact Hi. destruct (i =? n); [apply negb_involutive|reflexivity].
Qed.
Print Assumptions C102_toggle_twice.

Example C102_toggle_twice_case : bytes_ok (byte (Machine (fun _ => 0x55) [])).
Proof. intros c. cbn. lia. Qed.

(** ** C103: pins *)

(** Setting, clearing or toggling a bit through the pin register reads the levels of
    the pins and toggles every bit of the port whose bit is written as one. *)
Theorem C103_pin_writes :
  forall p n m, 0 <= n < 8 -> bytes_ok (byte m) ->
  (exists m', field_set atmega (gpio_inp p n) m = Some m'
     /\ byte_becomes (port_at p) (byte m) (byte m')
          (fun i => xorb (Z.testbit (byte m (port_at p)) i)
                      (if i =? n then true else Z.testbit (byte m (pin_at p)) i)))
  /\ (exists m', field_clear atmega (gpio_inp p n) m = Some m'
     /\ byte_becomes (port_at p) (byte m) (byte m')
          (fun i => xorb (Z.testbit (byte m (port_at p)) i)
                      (if i =? n then false else Z.testbit (byte m (pin_at p)) i)))
  /\ (exists m', field_toggle atmega (gpio_inp p n) m = Some m'
     /\ byte_becomes (port_at p) (byte m) (byte m')
          (fun i => xorb (Z.testbit (byte m (port_at p)) i)
                      (if i =? n then negb (Z.testbit (byte m (pin_at p)) i)
                       else Z.testbit (byte m (pin_at p)) i))).
Proof.
  intros p n m Hn H.
  assert (AP : pin_addr p = pin_at p) by (destruct p; reflexivity).
  assert (IP : is_pin (pin_at p) = true) by (destruct p; reflexivity).
  assert (A2 : pin_at p + 2 = port_at p) by (destruct p; reflexivity).
  assert (ST : forall v l, 0 <= v < 256 ->
    byte_becomes (port_at p) (byte m)
      (byte (store atmega W8 (pin_at p) v (Machine (byte m) l)))
      (fun i => xorb (Z.testbit (byte m (port_at p)) i) (Z.testbit v i))).
  { intros v l Hv. cbn [store byte]. unfold atmega. rewrite IP, A2.
    split; [|split].
    - intros c NE. destruct (Z.eqb_spec c (port_at p)); [contradiction|reflexivity].
    - rewrite Z.eqb_refl. pose proof (H (port_at p)). apply byte_bits_range.
      + apply Z.lxor_nonneg. lia.
      + intros i Hi. rewrite Z.lxor_spec, !(testbit_above _ 8 i) by lia. reflexivity.
    - intros i Hi. rewrite Z.eqb_refl. apply Z.lxor_spec. }
  assert (PL : plain (fun a v mem c => if c =? a then v else mem c) W8 (pin_at p))
    by apply storing_plain'.
  unfold field_set, field_clear, field_toggle, gpio_inp, bit8.
  cbn [f_io f_w f_addr f_hi has_set policy_clear has_toggle]. rewrite AP.
  split; [|split]; eexists; (split; [reflexivity|]).
  - destruct (set_bit_updated PL n m H Hn) as [_ B].
    unfold set_bit. rewrite load_eq.
    refine (byte_becomes_ext _ _ _ _ _ _ (ST _ _ (trunc_range W8 _))).
    intros i Hi. cbv beta. rewrite (B i) by exact Hi. reflexivity.
  - destruct (clear_bit_w0_updated PL n m H Hn) as [_ B].
    unfold clear_bit_w0. rewrite load_eq.
    refine (byte_becomes_ext _ _ _ _ _ _ (ST _ _ (trunc_range W8 _))).
    intros i Hi. cbv beta. rewrite (B i) by exact Hi. reflexivity.
  - destruct (toggle_bit_updated PL n m H Hn) as [_ B].
    unfold toggle_bit. rewrite load_eq.
    refine (byte_becomes_ext _ _ _ _ _ _ (ST _ _ (trunc_range W8 _))).
    intros i Hi. cbv beta. rewrite (B i) by exact Hi. reflexivity.
Qed.
Print Assumptions C103_pin_writes.

Example C103_pin_writes_case :
  exists m', field_set atmega (gpio_inp PortC 4)
               (Machine (fun c => if c =? 0x26 then 0x03 else 0x10) []) = Some m'
    /\ byte m' 0x28 = 0x03.
Proof. eexists. split; reflexivity. Qed.

(** So "set" of a pin disturbs every other bit of the port whose pin is high, and turns
    the bit itself off if it was on. *)
Theorem C103_pin_set_disturbs :
  forall p n i m, 0 <= n < 8 -> 0 <= i < 8 -> bytes_ok (byte m) ->
  (i <> n /\ Z.testbit (byte m (pin_at p)) i = true)
  \/ (i = n /\ Z.testbit (byte m (port_at p)) n = true) ->
  exists m', field_set atmega (gpio_inp p n) m = Some m'
    /\ Z.testbit (byte m' (port_at p)) i = negb (Z.testbit (byte m (port_at p)) i).
Proof.
  intros p n i m Hn Hi H C.
  destruct (C103_pin_writes p n m Hn H) as ((m' & E & (_ & _ & B)) & _ & _).
  exists m'. split; [exact E|]. rewrite B by exact Hi.
  destruct C as [[NE P]|[EQ P]].
  - destruct (Z.eqb_spec i n); [contradiction|]. rewrite P. apply xorb_true_r.
  - rewrite EQ, Z.eqb_refl. apply xorb_true_r.
Qed.
Print Assumptions C103_pin_set_disturbs.

Example C103_pin_set_disturbs_case :
  0 <> 4 /\ Z.testbit (byte (Machine (fun c => if c =? 0x26 then 0x03 else 0) []) (pin_at PortC)) 0
            = true.
Proof. split; [lia|reflexivity]. Qed.

(** ** C104: whole flag registers *)

(** Writing the whole flag register of timer 0 clears exactly the flags written as
    ones. *)
Theorem C104_tifr0_whole :
  forall v m, 0 <= v < 256 -> bytes_ok (byte m) ->
  exists m', field_write atmega tifr0_whole v m = Some m'
    /\ byte_becomes 0x35 (byte m) (byte m')
         (fun i => if i <? 3 then Z.testbit (byte m 0x35) i && negb (Z.testbit v i)
                   else Z.testbit v i).
Proof.
  intros v m Hv H.
  destruct (field_write_flags atmega tifr0_whole v m (flag_bits 0x35) eq_refl eq_refl)
    as (m' & E & B);
    [unfold valid_field; cbn; lia|apply atmega_flag_register; reflexivity|exact H|].
  exists m'. split; [exact E|]. refine (byte_becomes_ext _ _ _ _ _ _ B).
  intros i Hi. unfold after, in_fieldb, written.
  cbn [f_addr f_lo f_hi tifr0_whole register8].
  change (7 =? 0) with false. cbv iota.
  destruct (Z.leb_spec 0 i), (Z.leb_spec i 7); try lia. cbn [andb].
  replace (i - 0) with i by lia.
  assert (E3 : forall j, 0 <= j < 8 -> Z.testbit (flag_bits 0x35) j = (j <? 3))
    by (apply small_bits; reflexivity).
  rewrite E3 by exact Hi. reflexivity.
Qed.
Print Assumptions C104_tifr0_whole.

Example C104_tifr0_whole_case :
  exists m', field_write atmega tifr0_whole 0x02 (holding 0x35 0x07) = Some m'
    /\ byte m' 0x35 = 0x05.
Proof. eexists. split; reflexivity. Qed.

(** The whole flag register of timer 1, declared with another policy, can be neither
    read nor written: the functions do not compile; setting and toggling a flag of
    either register does not compile. *)
Theorem C104_tifr1_whole_unusable :
  forall hw v m,
  field_read tifr1_whole m = None /\ field_write hw tifr1_whole v m = None
  /\ write_lazy tifr1_whole v = None
  /\ forall f, In f [tifr0_ocf0b; tifr0_ocf0a; tifr0_tov0; tifr1_icf1; tifr1_ocf1b;
                     tifr1_ocf1a; tifr1_tov1] ->
     field_set hw f m = None /\ field_toggle hw f m = None /\ field_write hw f v m = None
     /\ exists r, field_read f m = Some r.
Proof.
  intros hw v m. split; [reflexivity|]. split; [reflexivity|]. split; [reflexivity|].
  intros f I. cbn [In] in I.
  repeat (destruct I as [I|I];
          [subst f; split; [reflexivity|]; split; [reflexivity|]; split; [reflexivity|];
           eexists; reflexivity|]).
  contradiction.
Qed.
Print Assumptions C104_tifr1_whole_unusable.

Example C104_tifr1_whole_unusable_case : In tifr1_icf1 [tifr0_tov0; tifr1_icf1].
Proof. cbn; tauto. Qed.
