(** Properties of the small example programs for the microcontroller: C123 to C125. *)

From Coq Require Import ZArith List Bool Lia.
From Verif Require Import Base Register RegisterSpec RegisterProofs.
From Verif Require Import Atmega AtmegaSpec AtmegaProofs AdcDac PropsAdcDac AvrExamples.
Import ListNotations.
Open Scope Z_scope.

(** ** Accesses to registers *)

Lemma lor_byte a b : 0 <= a < 256 -> 0 <= b < 256 -> 0 <= Z.lor a b < 256.
Proof.
  intros Ha Hb. split; [apply Z.lor_nonneg; lia|].
  assert (E : Z.lor a b = trunc W8 (Z.lor a b)).
  { apply Z.bits_inj'. intros i Hi. rewrite testbit_trunc by exact Hi. cbn [nbits].
    destruct (Z.ltb_spec i 8) as [L|L]; cbn [andb]; [reflexivity|].
    rewrite Z.lor_spec, !(testbit_above _ 8 i) by (cbn; lia). reflexivity. }
  rewrite E. apply (trunc_range W8).
Qed.

Lemma lxor_byte a b : 0 <= a < 256 -> 0 <= b < 256 -> 0 <= Z.lxor a b < 256.
Proof.
  intros Ha Hb. split; [apply Z.lxor_nonneg; lia|].
  assert (E : Z.lxor a b = trunc W8 (Z.lxor a b)).
  { apply Z.bits_inj'. intros i Hi. rewrite testbit_trunc by exact Hi. cbn [nbits].
    destruct (Z.ltb_spec i 8) as [L|L]; cbn [andb]; [reflexivity|].
    rewrite Z.lxor_spec, !(testbit_above _ 8 i) by (cbn; lia). reflexivity. }
  rewrite E. apply (trunc_range W8).
Qed.

Lemma land_byte a b : 0 <= a < 256 -> 0 <= Z.land a b < 256.
Proof.
  intros Ha. split; [apply Z.land_nonneg; lia|].
  assert (E : Z.land a b = trunc W8 (Z.land a b)).
  { apply Z.bits_inj'. intros i Hi. rewrite testbit_trunc by exact Hi. cbn [nbits].
    destruct (Z.ltb_spec i 8) as [L|L]; cbn [andb]; [reflexivity|].
    rewrite Z.land_spec, (testbit_above a 8 i) by (cbn; lia). reflexivity. }
  rewrite E. apply (trunc_range W8).
Qed.

(** An address at which what is written is stored. *)
Definition ordinary (a : Z) : Prop := is_pin a = false /\ flag_bits a = 0.

Lemma ordinary_plain a : ordinary a -> plain atmega W8 a.
Proof.
  intros O. apply atmega_plain. intros b Hb. destruct Hb as [->|[E _]]; [exact O|discriminate E].
Qed.

Lemma put8 a v m c : ordinary a ->
  byte (store atmega W8 a v m) c = if c =? a then v else byte m c.
Proof. intros O. apply (store_bytes (ordinary_plain a O)). Qed.

Lemma put16 a v m c : ordinary a -> ordinary (a + 1) ->
  byte (store atmega W16 a v m) c
  = if c =? a then v mod 256 else if c =? a + 1 then v / 256 else byte m c.
Proof.
  intros [P F] [P1 F1]. cbn [store byte]. unfold atmega. rewrite P, F, P1, F1.
  rewrite !Z.land_0_r, !Z.land_0_l, !Z.lor_0_r. change (Z.lnot 0) with (-1).
  rewrite !Z.land_m1_r.
  destruct (c =? a); [reflexivity|]. destruct (c =? a + 1); reflexivity.
Qed.

Lemma setmsk_byte a k m c : ordinary a -> bytes_ok (byte m) -> 0 <= k < 256 ->
  byte (setmsk atmega a k m) c = if c =? a then Z.lor (byte m a) k else byte m c.
Proof.
  intros O H Hk. unfold setmsk. cbn [load]. rewrite put8 by exact O. cbn [byte].
  rewrite trunc_small by (apply lor_byte; [apply H|exact Hk]). reflexivity.
Qed.

Lemma xormsk_byte a k m c : ordinary a -> bytes_ok (byte m) -> 0 <= k < 256 ->
  byte (xormsk atmega a k m) c = if c =? a then Z.lxor (byte m a) k else byte m c.
Proof.
  intros O H Hk. unfold xormsk. cbn [load]. rewrite put8 by exact O. cbn [byte].
  rewrite trunc_small by (apply lxor_byte; [apply H|exact Hk]). reflexivity.
Qed.

Lemma clrmsk_byte a k m c : ordinary a -> bytes_ok (byte m) ->
  byte (clrmsk atmega a k m) c = if c =? a then Z.land (byte m a) (Z.lnot k) else byte m c.
Proof.
  intros O H. unfold clrmsk. cbn [load]. rewrite put8 by exact O. cbn [byte].
  rewrite trunc_small by (apply land_byte, H). reflexivity.
Qed.

Lemma changed_ok (mem mem' : Z -> Z) a v :
  (forall c, mem' c = if c =? a then v else mem c) ->
  bytes_ok mem -> 0 <= v < 256 -> bytes_ok mem'.
Proof. intros E H Hv c. rewrite E. destruct (c =? a); [exact Hv|apply H]. Qed.

Lemma setmsk_ok a k m : ordinary a -> bytes_ok (byte m) -> 0 <= k < 256 ->
  bytes_ok (byte (setmsk atmega a k m)).
Proof.
  intros O H Hk. eapply changed_ok; [intros c; apply setmsk_byte; assumption|exact H|].
  apply lor_byte; [apply H|exact Hk].
Qed.

Lemma xormsk_ok a k m : ordinary a -> bytes_ok (byte m) -> 0 <= k < 256 ->
  bytes_ok (byte (xormsk atmega a k m)).
Proof.
  intros O H Hk. eapply changed_ok; [intros c; apply xormsk_byte; assumption|exact H|].
  apply lxor_byte; [apply H|exact Hk].
Qed.

Lemma clrmsk_ok a k m : ordinary a -> bytes_ok (byte m) ->
  bytes_ok (byte (clrmsk atmega a k m)).
Proof.
  intros O H. eapply changed_ok; [intros c; apply clrmsk_byte; assumption|exact H|].
  apply land_byte, H.
Qed.

Lemma put8_ok a v m : ordinary a -> bytes_ok (byte m) -> 0 <= v < 256 ->
  bytes_ok (byte (store atmega W8 a v m)).
Proof.
  intros O H Hv. eapply changed_ok; [intros c; apply put8, O|exact H|exact Hv].
Qed.

Ltac ord := split; reflexivity.
Ltac ok := repeat first
  [ assumption
  | apply setmsk_ok; [ord| |cbn; lia]
  | apply xormsk_ok; [ord| |cbn; lia]
  | apply clrmsk_ok; [ord|]
  | apply put8_ok; [ord| |cbn; lia] ].
Ltac bytes := repeat (first
  [ rewrite setmsk_byte by (first [ord | solve [ok] | cbn; lia])
  | rewrite xormsk_byte by (first [ord | solve [ok] | cbn; lia])
  | rewrite clrmsk_byte by (first [ord | solve [ok]])
  | rewrite put8 by ord ]; cbn [Z.eqb Pos.eqb]).

(** ** C123: blinking *)

Lemma blink_init_byte m c : bytes_ok (byte m) ->
  byte (blink_init_led atmega m) c
  = if c =? 0x24 then Z.lor (byte m 0x24) 0x20 else if c =? 0x25 then 0xff else byte m c.
Proof.
  intros H. unfold blink_init_led, led_ddr, led_port, led_bit.
  change (mask8 [5]) with 0x20. bytes. reflexivity.
Qed.

Lemma blink_init_ok m : bytes_ok (byte m) -> bytes_ok (byte (blink_init_led atmega m)).
Proof.
  intros H. unfold blink_init_led, led_ddr, led_port, led_bit.
  change (mask8 [5]) with 0x20. ok.
Qed.

Lemma iter_succ n x : Nat.iter n Z.succ x = x + Z.of_nat n.
Proof.
  induction n as [|n IH]; [change (x = x + 0); lia|].
  change (Z.succ (Nat.iter n Z.succ x) = x + Z.of_nat (Datatypes.S n)). rewrite IH. lia.
Qed.

Lemma iter_plus {A} (f : A -> A) a b x :
  Nat.iter (a + b) f x = Nat.iter a f (Nat.iter b f x).
Proof.
  induction a as [|a IH]; [reflexivity|].
  change (f (Nat.iter (a + b) f x) = f (Nat.iter a f (Nat.iter b f x))). rewrite IH. reflexivity.
Qed.

Lemma iter_iter {A} (f : A -> A) a b x :
  Nat.iter a (Nat.iter b f) x = Nat.iter (a * b) f x.
Proof.
  induction a as [|a IH]; [reflexivity|].
  change (Nat.iter (Datatypes.S a) (Nat.iter b f) x)
    with (Nat.iter b f (Nat.iter a (Nat.iter b f) x)).
  rewrite IH. cbn [Nat.mul]. rewrite iter_plus. reflexivity.
Qed.

(** The light changes after every 457000 executions of [nop], 200 times 2285, and is on
    before the first change; nothing but it and its direction is changed. *)
Theorem C123_blink :
  forall n m, bytes_ok (byte m) ->
  let nops := fst (blink_main atmega n m) in
  let m' := snd (blink_main atmega n m) in
  nops = Z.of_nat n * 457000
  /\ byte m' 0x25 = (if Nat.even n then 0xff else 0xdf)
  /\ byte m' 0x24 = Z.lor (byte m 0x24) 0x20
  /\ same_but [0x24; 0x25] (byte m) (byte m').
Proof.
  intros n m H. cbv zeta.
  enough (G : fst (blink_main atmega n m) = Z.of_nat n * 457000
    /\ bytes_ok (byte (snd (blink_main atmega n m)))
    /\ forall c, byte (snd (blink_main atmega n m)) c
       = if c =? 0x24 then Z.lor (byte m 0x24) 0x20
         else if c =? 0x25 then (if Nat.even n then 0xff else 0xdf) else byte m c).
  { destruct G as (G1 & _ & G2). split; [exact G1|]. rewrite !G2. cbn [Z.eqb Pos.eqb].
    split; [reflexivity|]. split; [reflexivity|].
    intros c NI. rewrite G2. cbn [In] in NI.
    destruct (Z.eqb_spec c 0x24); [lia|]. destruct (Z.eqb_spec c 0x25); [lia|]. reflexivity. }
  induction n as [|n IH].
  - change (blink_main atmega 0 m) with (0, blink_init_led atmega m). cbn [fst snd]. split; [reflexivity|]. split; [apply blink_init_ok, H|].
    intros c. rewrite blink_init_byte by exact H. reflexivity.
  - destruct IH as (I1 & I2 & I3).
    change (blink_main atmega (Datatypes.S n) m) with (blink_round atmega (blink_main atmega n m)).
    destruct (blink_main atmega n m) as [t m1]. cbn [fst snd] in *.
    unfold blink_round. cbn [fst snd]. split; [|split].
    + unfold blink_delay_ms. rewrite iter_iter, iter_succ, I1, Nat2Z.inj_mul.
      rewrite !Z2Nat.id by (vm_compute; discriminate).
      change (led_FEATURE_BLINK_MS * blink_ms_count) with 457000. lia.
    + unfold led_port, led_bit. change (mask8 [5]) with 0x20. ok.
    + intros c. unfold led_port, led_bit. change (mask8 [5]) with 0x20. bytes.
      rewrite (I3 0x25). cbn [Z.eqb Pos.eqb].
      rewrite Nat.even_succ, <- Nat.negb_even.
      destruct (Z.eqb_spec c 0x25) as [->|N].
      * cbn [Z.eqb Pos.eqb]. destruct (Nat.even n); reflexivity.
      * rewrite I3. destruct (Z.eqb_spec c 0x24); [reflexivity|].
        destruct (Z.eqb_spec c 0x25); [contradiction|reflexivity].
Qed.
Print Assumptions C123_blink.

Example C123_blink_case :
  let m := Machine (fun _ => 0) [] in
  let '(t, m') := blink_main atmega 3 m in
  bytes_ok (byte m) /\ byte m' 0x25 = 0xdf /\ byte m' 0x24 = 0x20.
Proof. split; [intros c; cbn; lia|]. vm_compute. split; reflexivity. Qed.

Lemma blink_isr_counts n m : 0 <= n ->
  blink_isr atmega (counts_at n, m)
  = (counts_at (n + 1), if (n + 1) mod 1000 =? 0 then toggle_led atmega m else m).
Proof.
  intros Hn.
  pose proof (Z.mod_pos_bound n 10). pose proof (Z.mod_pos_bound (n / 10) 10).
  pose proof (Z.mod_pos_bound (n / 100) 10).
  unfold blink_isr. cbn [counts_at cnt_10ms cnt_100ms cnt_1000ms].
  rewrite !dec8_small by lia. pose proof (due_1000 n Hn) as D.
  destruct (Z.ltb_spec 0 (10 - n mod 10 - 1)) as [L1|L1].
  - rewrite eqb_false by lia. f_equal. unfold counts_at. f_equal; Z.div_mod_to_equations; lia.
  - destruct (Z.ltb_spec 0 (10 - n / 10 mod 10 - 1)) as [L2|L2].
    + rewrite eqb_false by lia. f_equal. unfold counts_at.
      f_equal; Z.div_mod_to_equations; lia.
    + destruct (Z.ltb_spec 0 (10 - n / 100 mod 10 - 1)) as [L3|L3].
      * rewrite eqb_false by lia. f_equal. unfold counts_at.
        f_equal; Z.div_mod_to_equations; lia.
      * replace ((n + 1) mod 1000) with 0 by (symmetry; apply D; lia). f_equal.
        unfold counts_at. f_equal; Z.div_mod_to_equations; lia.
Qed.

Lemma even_1000 n : 0 <= n ->
  Z.even ((n + 1) / 1000)
  = if (n + 1) mod 1000 =? 0 then negb (Z.even (n / 1000)) else Z.even (n / 1000).
Proof.
  intros Hn. destruct (Z.eqb_spec ((n + 1) mod 1000) 0) as [E|E].
  - replace ((n + 1) / 1000) with (Z.succ (n / 1000)) by (Z.div_mod_to_equations; lia).
    rewrite Z.even_succ, <- Z.negb_even. reflexivity.
  - f_equal. Z.div_mod_to_equations; lia.
Qed.

Lemma timer0_1ms_byte m c : bytes_ok (byte m) ->
  byte (init_timer0_1ms atmega m) c
  = if c =? 0x45 then Z.lor (byte m 0x45) 3
    else if c =? 0x6e then Z.lor (byte m 0x6e) 2
    else if c =? 0x47 then 250
    else if c =? 0x44 then Z.lor (byte m 0x44) 2
    else byte m c.
Proof.
  intros H. unfold init_timer0_1ms. change (mask8 [1]) with 2.
  change (mask8 [1; 0]) with 3. change count1ms with 250. bytes.
  cbn [Z.eqb Pos.eqb]. reflexivity.
Qed.

Lemma timer0_1ms_ok m : bytes_ok (byte m) -> bytes_ok (byte (init_timer0_1ms atmega m)).
Proof.
  intros H. unfold init_timer0_1ms. change (mask8 [1]) with 2.
  change (mask8 [1; 0]) with 3. change count1ms with 250. ok.
Qed.

(** When [n] interrupts have been served the light has been changed once per thousand of
    them; timer 0 is told to clear on compare match with 250 and to count every 64th
    cycle, its compare interrupt is enabled, and nothing else is changed. *)
Theorem C123_blink_isr :
  forall n m, bytes_ok (byte m) ->
  let m' := snd (blink_isr_main atmega n m) in
  byte m' 0x25 = (if Z.even (Z.of_nat n / 1000) then 0xff else 0xdf)
  /\ byte m' 0x24 = Z.lor (byte m 0x24) 0x20
  /\ byte m' 0x44 = Z.lor (byte m 0x44) 0x02
  /\ byte m' 0x45 = Z.lor (byte m 0x45) 0x03
  /\ byte m' 0x47 = 250
  /\ byte m' 0x6e = Z.lor (byte m 0x6e) 0x02
  /\ same_but [0x24; 0x25; 0x44; 0x45; 0x47; 0x6e] (byte m) (byte m').
Proof.
  intros n m H. cbv zeta.
  enough (G : fst (blink_isr_main atmega n m) = counts_at (Z.of_nat n)
    /\ bytes_ok (byte (snd (blink_isr_main atmega n m)))
    /\ forall c, byte (snd (blink_isr_main atmega n m)) c
       = if c =? 0x25 then (if Z.even (Z.of_nat n / 1000) then 0xff else 0xdf)
         else byte (init_timer0_1ms atmega (blink_init_led atmega m)) c).
  { destruct G as (_ & _ & G).
    assert (G' : forall c, byte (snd (blink_isr_main atmega n m)) c
      = if c =? 0x25 then (if Z.even (Z.of_nat n / 1000) then 0xff else 0xdf)
        else if c =? 0x45 then Z.lor (byte m 0x45) 3
        else if c =? 0x6e then Z.lor (byte m 0x6e) 2
        else if c =? 0x47 then 250
        else if c =? 0x44 then Z.lor (byte m 0x44) 2
        else if c =? 0x24 then Z.lor (byte m 0x24) 0x20 else byte m c).
    { intros c. rewrite G. destruct (Z.eqb_spec c 0x25) as [->|N]; [reflexivity|].
      rewrite timer0_1ms_byte by (apply blink_init_ok, H).
      rewrite !blink_init_byte by exact H. cbn [Z.eqb Pos.eqb].
      destruct (Z.eqb_spec c 0x25); [contradiction|]. reflexivity. }
    rewrite !G'. cbn [Z.eqb Pos.eqb]. repeat (split; [reflexivity|]).
    intros c NI. rewrite G'. cbn [In] in NI.
    repeat match goal with
    | |- context [c =? ?k] => destruct (Z.eqb_spec c k); [exfalso; lia|]
    end. reflexivity. }
  induction n as [|n IH].
  - change (blink_isr_main atmega 0 m)
      with (blink_counters, init_timer0_1ms atmega (blink_init_led atmega m)).
    cbn [fst snd]. split; [reflexivity|].
    split; [apply timer0_1ms_ok, blink_init_ok, H|].
    intros c. destruct (Z.eqb_spec c 0x25) as [->|N]; [|reflexivity].
    rewrite timer0_1ms_byte by (apply blink_init_ok, H).
    rewrite !blink_init_byte by exact H. reflexivity.
  - destruct IH as (I1 & I2 & I3).
    change (blink_isr_main atmega (Datatypes.S n) m)
      with (blink_isr atmega (blink_isr_main atmega n m)).
    destruct (blink_isr_main atmega n m) as [k m1]. cbn [fst snd] in *. subst k.
    rewrite blink_isr_counts by lia. cbn [fst snd].
    replace (Z.of_nat (Datatypes.S n)) with (Z.of_nat n + 1) by lia.
    rewrite even_1000 by lia. split; [reflexivity|].
    destruct ((Z.of_nat n + 1) mod 1000 =? 0); [|split; assumption].
    unfold toggle_led, led_port, led_bit. change (mask8 [5]) with 0x20.
    split; [ok|]. intros c. bytes. rewrite (I3 0x25). cbn [Z.eqb Pos.eqb].
    destruct (Z.eqb_spec c 0x25) as [->|N].
    + destruct (Z.even (Z.of_nat n / 1000)); reflexivity.
    + rewrite I3. destruct (Z.eqb_spec c 0x25); [contradiction|reflexivity].
Qed.
Print Assumptions C123_blink_isr.

Example C123_blink_isr_case :
  let m := Machine (fun _ => 0x40) [] in
  let m' := snd (blink_isr_main atmega 1000 m) in
  bytes_ok (byte m) /\ byte m' 0x25 = 0xdf /\ byte m' 0x44 = 0x42 /\ byte m' 0x47 = 250
  /\ byte (snd (blink_isr_main atmega 999 m)) 0x25 = 0xff.
Proof. split; [intros c; cbn; lia|]. vm_compute. repeat split. Qed.

(** Cycles of the clock from one compare match to the next when the timer is cleared on
    compare match, as the data sheet has it: it counts from 0 to the compare value. *)
Definition cycles_per_match (prescale compare : Z) : Z := prescale * (1 + compare).

(** The light is meant to change once per second; with the compare value the program
    sets it takes 64000 cycles, four milliseconds, longer. *)
Theorem C123_second_refuted :
  forall n m, bytes_ok (byte m) ->
  1000 * cycles_per_match 64 (byte (snd (blink_isr_main atmega n m)) 0x47)
  = 16000000 + 64000.
Proof.
  intros n m H. destruct (C123_blink_isr n m H) as (_ & _ & _ & _ & E & _).
  rewrite E. reflexivity.
Qed.
Print Assumptions C123_second_refuted.

(** ** C124: fading *)

(** The triangle wave that rises from 0 to 1023 in steps of one and falls again. *)
Definition triangle (k : Z) : Z := Z.min (k mod 2046) (2046 - k mod 2046).

(** Where the loops are when [k] bodies have been executed. *)
Definition pc_at (k : Z) : fade_pc :=
  let r := k mod 2046 in if r <? 1023 then FadeUp r else FadeDown (2046 - r).

Lemma fade_i_at k : fade_i (pc_at k) = triangle k.
Proof.
  unfold pc_at, triangle. pose proof (Z.mod_pos_bound k 2046).
  destruct (Z.ltb_spec (k mod 2046) 1023); cbn [fade_i]; lia.
Qed.

Lemma fade_next_at k : 0 <= k -> fade_next (pc_at k) = pc_at (k + 1).
Proof.
  intros Hk. unfold pc_at. pose proof (Z.mod_pos_bound k 2046 ltac:(lia)) as B.
  set (r := k mod 2046) in *.
  assert (E : (k + 1) mod 2046 = if r =? 2045 then 0 else r + 1).
  { subst r. destruct (Z.eqb_spec (k mod 2046) 2045); Z.div_mod_to_equations; lia. }
  rewrite E. clearbody r. unfold fade_next, fade_top, enter_down.
  destruct (Z.ltb_spec r 1023) as [L|L].
  - rewrite trunc_small by (cbn; lia). destruct (Z.eqb_spec r 2045); [lia|].
    change (0 <? 1023) with true. cbv iota.
    destruct (Z.ltb_spec (r + 1) 1023) as [L1|L1]; [reflexivity|]. f_equal. lia.
  - rewrite trunc_small by (change (2 ^ nbits W16) with 65536; lia).
    destruct (Z.eqb_spec r 2045) as [->|N]; [reflexivity|].
    destruct (Z.ltb_spec (r + 1) 1023); [lia|].
    destruct (Z.ltb_spec 0 (2046 - r - 1)); [f_equal; lia|lia].
Qed.

Lemma led_bit_set a : 0 <= a < 256 -> forall i, 0 <= i < 8 ->
  Z.testbit (Z.lor a 32) i = if i =? 5 then true else Z.testbit a i.
Proof.
  intros Ha i Hi. rewrite Z.lor_spec.
  assert (E : Z.testbit 32 i = (i =? 5)).
  { change 32 with (bitmask W8 [5]). apply testbit_bitmask1; cbn; lia. }
  rewrite E. destruct (i =? 5); [apply orb_true_r|apply orb_false_r].
Qed.

Lemma led_bit_clear a : 0 <= a < 256 -> forall i, 0 <= i < 8 ->
  Z.testbit (Z.land a (Z.lnot 32)) i = if i =? 5 then false else Z.testbit a i.
Proof.
  intros Ha i Hi. rewrite Z.land_spec, Z.lnot_spec by lia.
  assert (E : Z.testbit 32 i = (i =? 5)).
  { change 32 with (bitmask W8 [5]). apply testbit_bitmask1; cbn; lia. }
  rewrite E. destruct (i =? 5); [apply andb_false_r|apply andb_true_r].
Qed.

Lemma land_1 p : (Z.land p 1 =? 0) = negb (Z.testbit p 0).
Proof.
  change 1 with (Z.ones 1). rewrite Z.land_ones by lia.
  rewrite Z.bit0_odd, Zodd_mod. change (2 ^ 1) with 2.
  pose proof (Z.mod_pos_bound p 2). 
  destruct (Z.eqb_spec (p mod 2) 0) as [->|N]; [reflexivity|].
  replace (p mod 2) with 1 by lia. reflexivity.
Qed.

(** One sample: the pins are what they are driven to, the light is bit 0 of them. *)
Lemma sample_byte p m : bytes_ok (byte m) -> 0 <= p < 256 ->
  let m' := fade_sample atmega p m in
  bytes_ok (byte m')
  /\ byte m' 0x29 = p
  /\ (forall c, c <> 0x25 -> c <> 0x29 -> byte m' c = byte m c)
  /\ forall i, 0 <= i < 8 ->
     Z.testbit (byte m' 0x25) i
     = if i =? 5 then Z.testbit p 0 else Z.testbit (byte m 0x25) i.
Proof.
  intros H Hp. cbv zeta.
  set (m1 := Machine (upd (byte m) 0x29 p) (bus m ++ [Rd W8 0x29])).
  assert (E : fade_sample atmega p m
    = if Z.testbit p 0 then setmsk atmega 0x25 32 m1 else clrmsk atmega 0x25 32 m1).
  { rewrite <- (negb_involutive (Z.testbit p 0)), <- land_1. reflexivity. }
  rewrite E.
  assert (O : bytes_ok (byte m1)).
  { intros c. cbn [m1 byte]. unfold upd. destruct (c =? 0x29); [exact Hp|apply H]. }
  destruct (Z.testbit p 0) eqn:T.
  - split; [ok|]. split; [bytes; reflexivity|]. split.
    + intros c N1 N2. bytes. destruct (Z.eqb_spec c 0x25); [contradiction|].
      cbn [m1 byte]. unfold upd. destruct (Z.eqb_spec c 0x29); [contradiction|reflexivity].
    + intros i Hi. bytes. change (0x25 =? 0x25) with true. cbv iota.
      rewrite led_bit_set by (apply O || exact Hi). reflexivity.
  - split; [ok|]. split; [bytes; reflexivity|]. split.
    + intros c N1 N2. bytes. destruct (Z.eqb_spec c 0x25); [contradiction|].
      cbn [m1 byte]. unfold upd. destruct (Z.eqb_spec c 0x29); [contradiction|reflexivity].
    + intros i Hi. bytes. change (0x25 =? 0x25) with true. cbv iota.
      rewrite led_bit_clear by (apply O || exact Hi). reflexivity.
Qed.

Lemma samples pins k m : bytes_ok (byte m) -> (forall j, 0 <= pins j < 256) ->
  let s := Nat.iter k (fun s => (Datatypes.S (fst s), fade_sample atmega (pins (fst s)) (snd s))) (O, m) in
  fst s = k
  /\ bytes_ok (byte (snd s))
  /\ (forall c, c <> 0x25 -> c <> 0x29 -> byte (snd s) c = byte m c)
  /\ forall i, 0 <= i < 8 ->
     Z.testbit (byte (snd s) 0x25) i
     = if (i =? 5) && negb (Nat.eqb k 0) then Z.testbit (pins (pred k)) 0
       else Z.testbit (byte m 0x25) i.
Proof.
  intros H HP. cbv zeta.
  set (f := fun s : nat * machine => (Datatypes.S (fst s), fade_sample atmega (pins (fst s)) (snd s))).
  induction k as [|k IH].
  - change (Nat.iter 0 f (O, m)) with (O, m). cbn [fst snd Nat.eqb negb].
    split; [reflexivity|]. split; [exact H|]. split; [reflexivity|].
    intros i Hi. rewrite andb_false_r. reflexivity.
  - change (Nat.iter (Datatypes.S k) f (O, m)) with (f (Nat.iter k f (O, m))).
    destruct (Nat.iter k f (O, m)) as [k' m1]. cbn [fst snd] in IH.
    destruct IH as (-> & O1 & S1 & T1). unfold f. cbn [fst snd].
    destruct (sample_byte (pins k) m1 O1 (HP k)) as (O2 & _ & S2 & T2).
    split; [reflexivity|]. split; [exact O2|]. split.
    + intros c N1 N2. rewrite S2, S1 by assumption. reflexivity.
    + intros i Hi. rewrite T2 by exact Hi. cbn [Nat.eqb negb pred]. rewrite andb_true_r.
      destruct (i =? 5) eqn:E; [reflexivity|]. rewrite T1 by exact Hi. rewrite E. reflexivity.
Qed.

Lemma delay_byte pins m : bytes_ok (byte m) -> (forall j, 0 <= pins j < 256) ->
  let m' := fade_delay_ms atmega 2 pins m in
  bytes_ok (byte m')
  /\ (forall c, c <> 0x25 -> c <> 0x29 -> byte m' c = byte m c)
  /\ forall i, 0 <= i < 8 ->
     Z.testbit (byte m' 0x25) i
     = if i =? 5 then Z.testbit (pins 913%nat) 0 else Z.testbit (byte m 0x25) i.
Proof.
  intros H HP. cbv zeta. unfold fade_delay_ms. rewrite iter_iter.
  change (Z.to_nat 2 * Z.to_nat fade_ms_count)%nat with 914%nat.
  destruct (samples pins 914 m H HP) as (_ & O1 & S1 & T1).
  split; [exact O1|]. split; [exact S1|].
  intros i Hi. rewrite T1 by exact Hi. change (negb (Nat.eqb 914 0)) with true.
  rewrite andb_true_r. reflexivity.
Qed.

Lemma put16_ok a v m : ordinary a -> ordinary (a + 1) -> bytes_ok (byte m) ->
  0 <= v < 2 ^ 16 -> bytes_ok (byte (store atmega W16 a v m)).
Proof.
  intros O O1 H Hv c. rewrite put16 by assumption.
  destruct (c =? a); [apply Z.mod_pos_bound; lia|].
  destruct (c =? a + 1); [|apply H]. change (2 ^ 16) with 65536 in Hv.
  Z.div_mod_to_equations; lia.
Qed.

Lemma body_byte pins i m : bytes_ok (byte m) -> (forall j, 0 <= pins j < 256) ->
  0 <= i <= 1023 ->
  let m' := fade_body atmega pins i m in
  bytes_ok (byte m')
  /\ byte m' 0x47 = i / 4
  /\ content W16 0x88 (byte m') = i
  /\ content W16 0x8a (byte m') = 1023 - i
  /\ (forall c, ~ In c [0x25; 0x29; 0x47; 0x88; 0x89; 0x8a; 0x8b] -> byte m' c = byte m c)
  /\ forall j, 0 <= j < 8 ->
     Z.testbit (byte m' 0x25) j
     = if j =? 5 then Z.testbit (pins 913%nat) 0 else Z.testbit (byte m 0x25) j.
Proof.
  intros H HP Hi. cbv zeta. unfold fade_body, fade_top.
  rewrite !trunc_small
    by (cbn [nbits]; change (2 ^ 8) with 256; change (2 ^ 16) with 65536;
        Z.div_mod_to_equations; lia).
  set (m1 := store atmega W8 0x47 (i / 4) m).
  set (m2 := store atmega W16 0x88 i m1).
  set (m3 := store atmega W16 0x8a (1023 - i) m2).
  assert (O1 : bytes_ok (byte m1)).
  { apply put8_ok; [ord|exact H|Z.div_mod_to_equations; lia]. }
  assert (O2 : bytes_ok (byte m2)).
  { apply put16_ok; [ord|ord|exact O1|]. change (2 ^ 16) with 65536. lia. }
  assert (O3 : bytes_ok (byte m3)).
  { apply put16_ok; [ord|ord|exact O2|]. change (2 ^ 16) with 65536. lia. }
  assert (B3 : forall c, byte m3 c
    = if c =? 0x8a then (1023 - i) mod 256 else if c =? 0x8b then (1023 - i) / 256
      else if c =? 0x88 then i mod 256 else if c =? 0x89 then i / 256
      else if c =? 0x47 then i / 4 else byte m c).
  { intros c. unfold m3. rewrite put16 by ord. unfold m2. rewrite put16 by ord.
    unfold m1. rewrite put8 by ord. reflexivity. }
  destruct (delay_byte pins m3 O3 HP) as (O4 & S4 & T4).
  split; [exact O4|]. split; [rewrite S4, B3 by lia; reflexivity|].
  split.
  { cbn [content]. change (0x88 + 1) with 0x89. rewrite !S4, !B3 by lia. cbn [Z.eqb Pos.eqb].
    Z.div_mod_to_equations; lia. }
  split.
  { cbn [content]. change (0x8a + 1) with 0x8b. rewrite !S4, !B3 by lia. cbn [Z.eqb Pos.eqb].
    Z.div_mod_to_equations; lia. }
  split.
  - intros c NI. cbn [In] in NI. rewrite S4, B3 by lia.
    repeat match goal with
    | |- context [c =? ?k] => destruct (Z.eqb_spec c k); [exfalso; lia|]
    end. reflexivity.
  - intros j Hj. rewrite T4 by exact Hj. rewrite B3. reflexivity.
Qed.

Definition fade_init_m (m : machine) : machine :=
  init_timer1_pwm atmega (init_timer0_pwm atmega (fade_init_led atmega m)).

Lemma fade_init_spec m : bytes_ok (byte m) ->
  bytes_ok (byte (fade_init_m m))
  /\ forall c, byte (fade_init_m m) c
     = if c =? 0x81 then Z.lor (byte m 0x81) 0x09
       else if c =? 0x80 then Z.lor (byte m 0x80) 0xa3
       else if c =? 0x24 then Z.lor (byte m 0x24) 0x26
       else if c =? 0x45 then Z.lor (byte m 0x45) 0x03
       else if c =? 0x44 then Z.lor (byte m 0x44) 0x83
       else if c =? 0x2a then Z.lor (byte m 0x2a) 0x40
       else if c =? 0x25 then Z.lor (byte m 0x25) 0x20
       else byte m c.
Proof.
  intros H. unfold fade_init_m, init_timer1_pwm, init_timer0_pwm, fade_init_led, setbit,
    led_ddr, led_port, led_bit.
  change (mask8 [5]) with 0x20. change (mask8 [6]) with 0x40. change (mask8 [7]) with 0x80.
  change (mask8 [1; 0]) with 3. change (mask8 [1; 2]) with 6. change (mask8 [7; 5]) with 0xa0.
  change (mask8 [3]) with 8. change (mask8 [0]) with 1.
  split; [ok|]. intros c. bytes. cbn [Z.eqb Pos.eqb]. rewrite <- !Z.lor_assoc. cbn [Z.lor Pos.lor].
  repeat match goal with
  | |- context [c =? ?k] => destruct (Z.eqb_spec c k) as [->|]; [reflexivity|]
  end. reflexivity.
Qed.

(** When the body of a loop has been executed [n + 1] times, the compare values follow the
    triangle wave at [n], output B of timer 1 being the complement, the light is the last of
    the 914 samples of pin 0 of port D taken meanwhile, the timers are set up as said,
    and nothing else is changed. *)
Theorem C124_fade :
  forall n pins m, bytes_ok (byte m) -> (forall k j, 0 <= pins k j < 256) ->
  let m' := snd (fade_main atmega pins (Datatypes.S n) m) in
  let v := triangle (Z.of_nat n) in
  byte m' 0x47 = v / 4
  /\ content W16 0x88 (byte m') = v
  /\ content W16 0x8a (byte m') = 1023 - v
  /\ (forall j, 0 <= j < 8 ->
      Z.testbit (byte m' 0x25) j
      = if j =? 5 then Z.testbit (pins n 913%nat) 0 else Z.testbit (byte m 0x25) j)
  /\ byte m' 0x24 = Z.lor (byte m 0x24) 0x26
  /\ byte m' 0x2a = Z.lor (byte m 0x2a) 0x40
  /\ byte m' 0x44 = Z.lor (byte m 0x44) 0x83
  /\ byte m' 0x45 = Z.lor (byte m 0x45) 0x03
  /\ byte m' 0x80 = Z.lor (byte m 0x80) 0xa3
  /\ byte m' 0x81 = Z.lor (byte m 0x81) 0x09
  /\ same_but [0x24; 0x25; 0x29; 0x2a; 0x44; 0x45; 0x47; 0x80; 0x81; 0x88; 0x89; 0x8a; 0x8b]
       (byte m) (byte m').
Proof.
  intros n pins m H HP. cbv zeta.
  destruct (fade_init_spec m H) as (O0 & B0).
  assert (G : forall k,
    fst (fade_main atmega pins k m) = pc_at (Z.of_nat k)
    /\ bytes_ok (byte (snd (fade_main atmega pins k m)))
    /\ (forall c, ~ In c [0x25; 0x29; 0x47; 0x88; 0x89; 0x8a; 0x8b] ->
        byte (snd (fade_main atmega pins k m)) c = byte (fade_init_m m) c)
    /\ forall j, 0 <= j < 8 -> j <> 5 ->
       Z.testbit (byte (snd (fade_main atmega pins k m)) 0x25) j = Z.testbit (byte m 0x25) j).
  { induction k as [|k IH].
    - cbn [fade_main fst snd]. split; [reflexivity|]. split; [exact O0|].
      split; [reflexivity|]. intros j Hj N.
      change (init_timer1_pwm atmega _) with (fade_init_m m). rewrite B0. cbn [Z.eqb Pos.eqb].
      rewrite led_bit_set by (apply H || exact Hj).
      destruct (Z.eqb_spec j 5); [contradiction|reflexivity].
    - cbn [fade_main]. destruct (fade_main atmega pins k m) as [p m1]. cbn [fst snd] in *.
      destruct IH as (-> & O1 & S1 & T1).
      assert (R : 0 <= fade_i (pc_at (Z.of_nat k)) <= 1023).
      { rewrite fade_i_at. unfold triangle. pose proof (Z.mod_pos_bound (Z.of_nat k) 2046). lia. }
      destruct (body_byte (pins k) _ m1 O1 (HP k) R) as (O2 & _ & _ & _ & S2 & T2).
      split; [rewrite fade_next_at by lia; f_equal; lia|]. split; [exact O2|]. split.
      + intros c NI. rewrite S2, S1 by exact NI. reflexivity.
      + intros j Hj N. rewrite T2 by exact Hj.
        destruct (Z.eqb_spec j 5); [contradiction|]. apply T1; assumption. }
  destruct (G n) as (P & O1 & S1 & T1). cbn [fade_main].
  destruct (fade_main atmega pins n m) as [p m1]. cbn [fst snd] in *. subst p.
  assert (R : 0 <= fade_i (pc_at (Z.of_nat n)) <= 1023).
  { rewrite fade_i_at. unfold triangle. pose proof (Z.mod_pos_bound (Z.of_nat n) 2046). lia. }
  destruct (body_byte (pins n) _ m1 O1 (HP n) R) as (O2 & V0 & VA & VB & S2 & T2).
  rewrite fade_i_at in *.
  split; [exact V0|]. split; [exact VA|]. split; [exact VB|]. split.
  { intros j Hj. rewrite T2 by exact Hj. destruct (Z.eqb_spec j 5) as [E|N]; [reflexivity|].
    apply T1; assumption. }
  rewrite !S2, !S1, !B0 by (cbn [In]; lia). cbn [Z.eqb Pos.eqb].
  repeat (split; [reflexivity|]).
  intros c NI. cbn [In] in NI. rewrite S2, S1, B0 by (cbn [In]; lia).
  repeat match goal with
  | |- context [c =? ?k] => destruct (Z.eqb_spec c k); [exfalso; lia|]
  end. reflexivity.
Qed.
Print Assumptions C124_fade.

Example C124_fade_case :
  let m := Machine (fun _ => 0) [] in
  let pins := fun k j : nat => if Nat.even k then 1 else 0xfe in
  let m' := snd (fade_main atmega pins 1501 m) in
  bytes_ok (byte m) /\ (forall k j, 0 <= pins k j < 256)
  /\ content W16 0x88 (byte m') = 546 /\ content W16 0x8a (byte m') = 477
  /\ byte m' 0x47 = 136 /\ Z.testbit (byte m' 0x25) 5 = true /\ byte m' 0x24 = 0x26.
Proof.
  cbv zeta.
  assert (H : bytes_ok (byte (Machine (fun _ => 0) []))) by (intros c; cbn; lia).
  assert (P : forall k j : nat, 0 <= (if Nat.even k then 1 else 0xfe) < 256)
    by (intros k j; destruct (Nat.even k); lia).
  split; [exact H|]. split; [exact P|].
  destruct (C124_fade 1500 _ _ H P) as (E1 & E2 & E3 & E4 & E5 & _).
  specialize (E4 5 ltac:(lia)).
  split; [exact E2|]. split; [exact E3|]. split; [exact E1|]. split; [exact E4|exact E5].
Qed.

(** The brightness changes by exactly one from step to step, reaches every value of the
    converter from 0 to 1023, both ends included, and repeats after 2046 steps and not
    earlier. *)
Theorem C124_triangle :
  forall pins m, bytes_ok (byte m) -> (forall k j, 0 <= pins k j < 256) ->
  let brightness n := content W16 0x88 (byte (snd (fade_main atmega pins (Datatypes.S n) m))) in
  brightness 0%nat = 0
  /\ (forall n, 0 <= brightness n <= 1023)
  /\ (forall n, Z.abs (brightness (Datatypes.S n) - brightness n) = 1)
  /\ (forall v, 0 <= v <= 1023 -> exists n, (n <= 1023)%nat /\ brightness n = v)
  /\ (forall n, brightness (n + 2046)%nat = brightness n)
  /\ forall p, (0 < p < 2046)%nat -> exists n, brightness (n + p)%nat <> brightness n.
Proof.
  intros pins m H HP. cbv zeta.
  assert (B : forall n, content W16 0x88 (byte (snd (fade_main atmega pins (Datatypes.S n) m)))
    = triangle (Z.of_nat n)).
  { intros n. apply (C124_fade n pins m H HP). }
  split; [rewrite B; reflexivity|].
  split; [|split; [|split; [|split]]].
  - intros n. rewrite B. unfold triangle. pose proof (Z.mod_pos_bound (Z.of_nat n) 2046). lia.
  - intros n. rewrite !B. unfold triangle. rewrite Nat2Z.inj_succ.
    pose proof (Z.mod_pos_bound (Z.of_nat n) 2046 ltac:(lia)).
    assert (E : Z.succ (Z.of_nat n) mod 2046
      = if Z.of_nat n mod 2046 =? 2045 then 0 else Z.of_nat n mod 2046 + 1).
    { destruct (Z.eqb_spec (Z.of_nat n mod 2046) 2045); Z.div_mod_to_equations; lia. }
    rewrite E. destruct (Z.eqb_spec (Z.of_nat n mod 2046) 2045); lia.
  - intros v Hv. exists (Z.to_nat v). split; [lia|]. rewrite B, Z2Nat.id by lia.
    unfold triangle. rewrite Z.mod_small by lia. lia.
  - intros n. rewrite !B. unfold triangle. rewrite Nat2Z.inj_add.
    change (Z.of_nat 2046) with (1 * 2046). rewrite Z.mod_add by lia. reflexivity.
  - intros p Hp. exists O. rewrite !B. cbn [Nat.add]. unfold triangle.
    rewrite (Z.mod_small (Z.of_nat p)) by lia. change (Z.of_nat 0 mod 2046) with 0. lia.
Qed.
Print Assumptions C124_triangle.

(** ** C125: a conversion in an interrupt *)

Lemma setmsk_adcsra k m : bytes_ok (byte m) -> 0 <= k < 256 ->
  forall c, byte (setmsk atmega 0x7a k m) c
  = if c =? 0x7a then Z.land (Z.lor (byte m 0x7a) k) 0xef else byte m c.
Proof.
  intros H Hk c. unfold setmsk. cbn [load]. cbn [store byte].
  rewrite trunc_small by (apply lor_byte; [apply H|exact Hk]).
  unfold atmega. change (is_pin 0x7a) with false. change (flag_bits 0x7a) with 0x10.
  cbv iota. destruct (c =? 0x7a); [|reflexivity].
  apply Z.bits_inj'. intros i Hi.
  rewrite !Z.lor_spec, !Z.land_spec, !Z.lor_spec, !Z.lnot_spec, !Z.lor_spec by exact Hi.
  destruct (Z.ltb_spec i 8) as [L|L].
  - assert (C : i = 0 \/ i = 1 \/ i = 2 \/ i = 3 \/ i = 4 \/ i = 5 \/ i = 6 \/ i = 7) by lia.
    destruct C as [->|[->|[->|[->|[->|[->|[->| ->]]]]]]];
      destruct (Z.testbit (byte m 0x7a) _), (Z.testbit k _); reflexivity.
  - rewrite (testbit_above (byte m 0x7a) 8 i), (testbit_above k 8 i) by (lia || apply H || exact Hk).
    reflexivity.
Qed.

(** Afterwards the converter runs by itself, slowest clock, interrupt enabled, started and
    no interrupt pending, whatever it did before; the light's pin is an output and high. *)
Theorem C125_init :
  forall r1 r2 r3 m, bytes_ok (byte m) ->
  let m' := a_mem (adc_start atmega r1 r2 r3 m) in
  byte m' 0x7a = 0xef
  /\ byte m' 0x7b = 0
  /\ byte m' 0x7c = Z.lor (Z.land (byte m 0x7c) 0xf2) 0x40
  /\ byte m' 0x24 = Z.lor (byte m 0x24) 0x20
  /\ byte m' 0x25 = Z.lor (byte m 0x25) 0x20
  /\ same_but [0x24; 0x25; 0x7a; 0x7b; 0x7c] (byte m) (byte m').
Proof.
  intros r1 r2 r3 m H. cbv zeta. cbn [adc_start a_mem].
  unfold adc_init_led, adc_init_adc, setbit, led_ddr, led_port, led_bit.
  change (mask8 [5]) with 0x20. change (mask8 [6]) with 0x40.
  change (mask8 [3; 2; 2; 0]) with 0x0d.
  change (mask8 [2; 1; 0; 5; 7; 3; 6]) with 0xef.
  set (m1 := setmsk atmega 0x7c 0x40 (clrmsk atmega 0x7c 0x0d m)).
  assert (O1 : bytes_ok (byte m1)) by (unfold m1; ok).
  set (m2 := setmsk atmega 0x7a 0xef m1).
  assert (B2 : forall c, byte m2 c
    = if c =? 0x7a then 0xef
      else if c =? 0x7c then Z.lor (Z.land (byte m 0x7c) 0xf2) 0x40 else byte m c).
  { intros c. unfold m2. rewrite setmsk_adcsra by (exact O1 || lia).
    destruct (Z.eqb_spec c 0x7a) as [->|N].
    - apply Z.bits_inj'. intros i Hi. rewrite Z.land_spec, Z.lor_spec.
      destruct (Z.testbit 0xef i); [rewrite orb_true_r; reflexivity|apply andb_false_r].
    - unfold m1. bytes. destruct (Z.eqb_spec c 0x7c) as [->|N1]; [|reflexivity].
      cbn [Z.eqb Pos.eqb]. f_equal.
      apply Z.bits_inj'. intros i Hi. rewrite !Z.land_spec.
      destruct (Z.ltb_spec i 8) as [L|L].
      + assert (C : i = 0 \/ i = 1 \/ i = 2 \/ i = 3 \/ i = 4 \/ i = 5 \/ i = 6 \/ i = 7) by lia.
        destruct C as [->|[->|[->|[->|[->|[->|[->| ->]]]]]]]; reflexivity.
      + rewrite (testbit_above (byte m 0x7c) 8 i) by (lia || apply H). reflexivity. }
  assert (O2 : bytes_ok (byte m2)).
  { intros c. rewrite B2. destruct (c =? 0x7a); [lia|]. destruct (c =? 0x7c); [|apply H].
    apply lor_byte; [apply land_byte, H|lia]. }
  assert (B : forall c, byte (setmsk atmega 0x24 0x20 (setmsk atmega 0x25 0x20 (store atmega W8 0x7b 0 m2))) c
    = if c =? 0x24 then Z.lor (byte m 0x24) 0x20
      else if c =? 0x25 then Z.lor (byte m 0x25) 0x20
      else if c =? 0x7b then 0
      else if c =? 0x7a then 0xef
      else if c =? 0x7c then Z.lor (Z.land (byte m 0x7c) 0xf2) 0x40 else byte m c).
  { intros c. bytes. rewrite !B2. cbn [Z.eqb Pos.eqb]. reflexivity. }
  rewrite !B. cbn [Z.eqb Pos.eqb]. repeat (split; [reflexivity|]).
  intros c NI. rewrite B. cbn [In] in NI.
  repeat match goal with
  | |- context [c =? ?k] => destruct (Z.eqb_spec c k); [exfalso; lia|]
  end. reflexivity.
Qed.
Print Assumptions C125_init.

(** Channel 0 is meant to be selected; bit 1 of the channel number is not cleared, the mask
    names bit 2 twice, so that the channel is 0 or 2, whichever that bit says.  Neither is
    the high bit of the reference selection. *)
Theorem C125_channel_refuted :
  forall r1 r2 r3 m, bytes_ok (byte m) ->
  let admux := byte (a_mem (adc_start atmega r1 r2 r3 m)) 0x7c in
  admux mod 16 = (if Z.testbit (byte m 0x7c) 1 then 2 else 0)
  /\ admux / 64 = (if Z.testbit (byte m 0x7c) 7 then 3 else 1).
Proof.
  intros r1 r2 r3 m H. cbv zeta.
  destruct (C125_init r1 r2 r3 m H) as (_ & _ & E & _). rewrite E.
  generalize (H 0x7c). generalize (byte m 0x7c). intros x Hx.
  assert (X : forallb (fun k =>
    let x := Z.of_nat k in
    (Z.lor (Z.land x 0xf2) 0x40 mod 16 =? (if Z.testbit x 1 then 2 else 0))
    && (Z.lor (Z.land x 0xf2) 0x40 / 64 =? (if Z.testbit x 7 then 3 else 1)))
    (List.seq 0 256) = true) by (vm_compute; reflexivity).
  rewrite forallb_forall in X. specialize (X (Z.to_nat x)).
  cbv zeta in X. rewrite Z2Nat.id in X by lia.
  destruct (andb_prop _ _ (X ltac:(apply in_seq; lia))) as [X1 X2].
  split; apply Z.eqb_eq; assumption.
Qed.

Example C125_init_case :
  let m := Machine (fun _ => 0x12) [] in
  let m' := a_mem (adc_start atmega 7 8 9 m) in
  bytes_ok (byte m) /\ byte m' 0x7c = 0x52 /\ byte m' 0x7a = 0xef /\ byte m' 0x25 = 0x32.
Proof. split; [intros c; cbn; lia|]. vm_compute. repeat split. Qed.

(** [led] is meant to put the light on or off; it puts it on either way. *)
Theorem C125_led_refuted :
  forall on m, bytes_ok (byte m) -> Z.testbit (byte (adc_led atmega on m) 0x25) 5 = true.
Proof.
  intros on m H. unfold adc_led, setbit, led_port, led_bit. change (mask8 [5]) with 0x20.
  bytes. cbn [Z.eqb Pos.eqb]. rewrite led_bit_set by (apply H || lia). reflexivity.
Qed.
Print Assumptions C125_led_refuted.

Example C125_led_case :
  let m := Machine (fun _ => 0) [] in
  bytes_ok (byte m) /\ Z.testbit (byte (adc_led atmega false m) 0x25) 5 = true.
Proof. split; [intros c; cbn; lia|reflexivity]. Qed.

(** The last value the converter gave, [v0] if none. *)
Fixpoint last_value (evs : list adc_event) (v0 : Z) : Z :=
  match evs with
  | [] => v0
  | AdcDone v :: evs' => last_value evs' v
  | AdcStep :: evs' => last_value evs' v0
  end.

(** How many instructions [main] executes. *)
Fixpoint steps (evs : list adc_event) : nat :=
  match evs with
  | [] => O
  | AdcDone _ :: evs' => steps evs'
  | AdcStep :: evs' => Datatypes.S (steps evs')
  end.

(** The values are of ten bits. *)
Definition ten_bits (evs : list adc_event) : Prop :=
  Forall (fun e => match e with AdcDone v => 0 <= v < 1024 | AdcStep => True end) evs.

(** The light. *)
Definition light (s : adc_sys) : bool := Z.testbit (byte (a_mem s) 0x25) 5.

Lemma last_value_snoc evs e v0 :
  last_value (evs ++ [e]) v0 = match e with AdcDone v => v | AdcStep => last_value evs v0 end.
Proof.
  revert v0. induction evs as [|e1 evs IH]; intros v0; [destruct e; reflexivity|].
  destruct e1; cbn [app last_value]; apply IH.
Qed.

Lemma steps_snoc evs e :
  steps (evs ++ [e]) = match e with AdcDone _ => steps evs | AdcStep => Datatypes.S (steps evs) end.
Proof.
  induction evs as [|e1 evs IH]; [destruct e; reflexivity|].
  destruct e1; cbn [app steps]; rewrite IH; destruct e; reflexivity.
Qed.

Lemma adc_run_app hw a b s :
  adc_run hw (a ++ b) s
  = match adc_run hw a s with Some s' => adc_run hw b s' | None => None end.
Proof.
  revert s. induction a as [|e a IH]; intros s; [reflexivity|].
  cbn [app adc_run]. destruct (adc_happens hw e s); [apply IH|reflexivity].
Qed.

Lemma last_value_range evs : ten_bits evs -> 0 <= last_value evs 0 < 1024.
Proof.
  assert (G : forall v0, 0 <= v0 < 1024 -> ten_bits evs -> 0 <= last_value evs v0 < 1024).
  { induction evs as [|e evs IH]; intros v0 H0 H; [exact H0|].
    inversion H; subst. destruct e; cbn [last_value]; apply IH; assumption. }
  apply G. lia.
Qed.

(** [x] was [f] of the value last converted at a moment after which [main] executed
    at most [k] instructions. *)
Definition was {A} (f : Z -> A) (k : nat) (evs : list adc_event) (x : A) : Prop :=
  exists e1 e2, evs = e1 ++ e2 /\ (steps e2 <= k)%nat /\ x = f (last_value e1 0).

Lemma was_now {A} (f : Z -> A) evs : was f 0 evs (f (last_value evs 0)).
Proof.
  exists evs, []. split; [symmetry; apply app_nil_r|]. split; [cbn; lia|reflexivity].
Qed.

Lemma was_snoc {A} (f : Z -> A) k evs x e :
  was f k evs x ->
  was f (match e with AdcStep => Datatypes.S k | AdcDone _ => k end) (evs ++ [e]) x.
Proof.
  intros (e1 & e2 & -> & L & E). exists e1, (e2 ++ [e]).
  split; [symmetry; apply app_assoc|]. split; [|exact E].
  rewrite steps_snoc. destruct e; lia.
Qed.

Lemma was_weaken {A} (f : Z -> A) k k' evs x : (k <= k')%nat -> was f k evs x -> was f k' evs x.
Proof. intros L (e1 & e2 & E & L1 & X). exists e1, e2. repeat split; [exact E|lia|exact X]. Qed.

Lemma was_map {A B} (f : Z -> A) (g : A -> B) k evs x :
  was f k evs x -> was (fun v => g (f v)) k evs (g x).
Proof. intros (e1 & e2 & E & L & X). exists e1, e2. rewrite X. repeat split; assumption. Qed.

(** More than half of the range, from ten bits and from the upper eight. *)
Definition above (v : Z) : bool := 512 <? v.
Definition above8 (v : Z) : bool := 128 <? v / 4.

(** How long ago the light has been decided on at most, by where [main] is. *)
Definition old16 (pc : adc_pc) : option nat :=
  match pc with A_read8 => Some 2%nat | A_put8 => Some 3%nat | _ => None end.
Definition old8 (pc : adc_pc) : nat :=
  match pc with A_cli => 1 | A_low => 2 | A_high => 3 | A_sei => 4 | _ => 5 end%nat.

Definition first_round (pc : adc_pc) : nat :=
  match pc with A_cli => 0 | A_low => 1 | A_high => 2 | A_sei => 3 | _ => 4 end%nat.

Record adc_inv (evs : list adc_event) (s : adc_sys) : Prop := {
  i_ok : bytes_ok (byte (a_mem s));
  i_value : a_lo s = last_value evs 0 mod 256 /\ a_hi s = last_value evs 0 / 256
            /\ a_v8 s = last_value evs 0 / 4;
  i_int : a_int s = match a_pc s with A_low | A_high | A_sei => false | _ => true end;
  i_reg : match a_pc s with
          | A_high => a_rlo s = last_value evs 0 mod 256
          | A_sei => a_rlo s + 256 * a_rhi s = last_value evs 0
          | A_put => was (fun v => v) 1 evs (a_rlo s + 256 * a_rhi s)
          | A_put8 => was (fun v => v / 4) 0 evs (a_r8 s)
          | _ => True
          end;
  i_light : match old16 (a_pc s) with
            | Some k => was above k evs (light s)
            | None => was above8 (old8 (a_pc s)) evs (light s)
                      \/ (steps evs <= first_round (a_pc s))%nat /\ light s = true
            end }.

Lemma putbit_light b m : bytes_ok (byte m) ->
  let m' := putbit atmega led_port led_bit b m in
  bytes_ok (byte m') /\ Z.testbit (byte m' 0x25) 5 = b.
Proof.
  intros H. cbv zeta. unfold putbit, setbit, clrbit, led_port, led_bit.
  change (mask8 [5]) with 0x20. destruct b; (split; [ok|]); bytes; cbn [Z.eqb Pos.eqb].
  - rewrite led_bit_set by (apply H || lia). reflexivity.
  - rewrite led_bit_clear by (apply H || lia). reflexivity.
Qed.

Lemma whole_value v : v mod 256 + 256 * (v / 256) = v.
Proof. pose proof (Z.div_mod v 256). lia. Qed.

Lemma adc_inv_start r1 r2 r3 m : bytes_ok (byte m) -> adc_inv [] (adc_start atmega r1 r2 r3 m).
Proof.
  intros H. destruct (C125_init r1 r2 r3 m H) as (E1 & E2 & E3 & E4 & E5 & S).
  constructor.
  - intros c. destruct (in_dec Z.eq_dec c [0x24; 0x25; 0x7a; 0x7b; 0x7c]) as [I|I].
    + cbn [In] in I. destruct I as [<-|[<-|[<-|[<-|[<-|[]]]]]].
      * rewrite E4. apply lor_byte; [apply H|lia].
      * rewrite E5. apply lor_byte; [apply H|lia].
      * rewrite E1. lia.
      * rewrite E2. lia.
      * rewrite E3. apply lor_byte; [apply land_byte, H|lia].
    + rewrite (S c I). apply H.
  - repeat split.
  - reflexivity.
  - exact I.
  - right. split; [cbn; lia|]. unfold light. rewrite E5.
    rewrite led_bit_set by (apply H || lia). reflexivity.
Qed.

Lemma adc_inv_step evs s : ten_bits evs -> adc_inv evs s ->
  adc_inv (evs ++ [AdcStep]) (adc_step atmega s).
Proof.
  intros HV [OK (VL & VH & V8) INT REG LI].
  pose proof (last_value_range evs HV) as RG.
  destruct s as [e lo hi v8 rlo rhi r8 pc m].
  cbn [a_mem a_lo a_hi a_v8 a_int a_pc a_rlo a_rhi a_r8] in *.
  unfold light in LI. cbn [a_mem] in LI.
  destruct pc; cbn [adc_step]; cbn [old16 old8 first_round] in LI.
  - constructor; cbn [a_mem a_lo a_hi a_v8 a_int a_pc a_rlo a_rhi a_r8 old16 old8 first_round];
      rewrite ?last_value_snoc.
    + exact OK.
    + repeat split; assumption.
    + reflexivity.
    + exact I.
    + unfold light; cbn [a_mem]. destruct LI as [L|[L1 L2]].
      * left. apply (was_snoc above8 1 evs _ AdcStep L).
      * right. split; [rewrite steps_snoc; lia|exact L2].
  - constructor; cbn [a_mem a_lo a_hi a_v8 a_int a_pc a_rlo a_rhi a_r8 old16 old8 first_round];
      rewrite ?last_value_snoc.
    + exact OK.
    + repeat split; assumption.
    + exact INT.
    + exact VL.
    + unfold light; cbn [a_mem]. destruct LI as [L|[L1 L2]].
      * left. apply (was_snoc above8 2 evs _ AdcStep L).
      * right. split; [rewrite steps_snoc; lia|exact L2].
  - constructor; cbn [a_mem a_lo a_hi a_v8 a_int a_pc a_rlo a_rhi a_r8 old16 old8 first_round];
      rewrite ?last_value_snoc.
    + exact OK.
    + repeat split; assumption.
    + exact INT.
    + rewrite REG, VH. apply whole_value.
    + unfold light; cbn [a_mem]. destruct LI as [L|[L1 L2]].
      * left. apply (was_snoc above8 3 evs _ AdcStep L).
      * right. split; [rewrite steps_snoc; lia|exact L2].
  - constructor; cbn [a_mem a_lo a_hi a_v8 a_int a_pc a_rlo a_rhi a_r8 old16 old8 first_round];
      rewrite ?last_value_snoc.
    + exact OK.
    + repeat split; assumption.
    + reflexivity.
    + rewrite REG. apply (was_snoc (fun v => v) 0 evs _ AdcStep), was_now.
    + unfold light; cbn [a_mem]. destruct LI as [L|[L1 L2]].
      * left. apply (was_snoc above8 4 evs _ AdcStep L).
      * right. split; [rewrite steps_snoc; lia|exact L2].
  - destruct (putbit_light (adc_level <? rlo + 2 ^ 8 * rhi) m OK) as (O1 & L1).
    constructor; cbn [a_mem a_lo a_hi a_v8 a_int a_pc a_rlo a_rhi a_r8 old16 old8 first_round];
      rewrite ?last_value_snoc.
    + exact O1.
    + repeat split; assumption.
    + exact INT.
    + exact I.
    + unfold light; cbn [a_mem]. rewrite L1.
      apply (was_snoc above 1 evs _ AdcStep), (was_map (fun v => v) above), REG.
  - constructor; cbn [a_mem a_lo a_hi a_v8 a_int a_pc a_rlo a_rhi a_r8 old16 old8 first_round];
      rewrite ?last_value_snoc.
    + exact OK.
    + repeat split; assumption.
    + exact INT.
    + rewrite V8.
      pose proof (was_now (fun v => v / 4) (evs ++ [AdcStep])) as W.
      rewrite last_value_snoc in W. exact W.
    + unfold light; cbn [a_mem]. apply (was_snoc above 2 evs _ AdcStep), LI.
  - destruct (putbit_light (adc_level8 <? r8) m OK) as (O1 & L1).
    constructor; cbn [a_mem a_lo a_hi a_v8 a_int a_pc a_rlo a_rhi a_r8 old16 old8 first_round];
      rewrite ?last_value_snoc.
    + exact O1.
    + repeat split; assumption.
    + exact INT.
    + exact I.
    + left. unfold light; cbn [a_mem]. rewrite L1.
      apply (was_snoc above8 0 evs _ AdcStep),
        (was_map (fun v => v / 4) (fun q => 128 <? q)), REG.
Qed.

Lemma adc_inv_done evs s v : 0 <= v < 1024 -> a_int s = true -> adc_inv evs s ->
  adc_inv (evs ++ [AdcDone v]) (adc_isr v s).
Proof.
  intros Hv HI [OK (VL & VH & V8) INT REG LI].
  constructor; cbn [adc_isr a_mem a_lo a_hi a_v8 a_int a_pc a_rlo a_rhi a_r8];
    rewrite ?last_value_snoc.
  - exact OK.
  - repeat split. change (2 ^ 8) with 256. rewrite whole_value.
    rewrite Z.shiftr_div_pow2 by lia. change (2 ^ 2) with 4.
    apply trunc_small. change (2 ^ nbits W8) with 256. Z.div_mod_to_equations; lia.
  - exact INT.
  - rewrite HI in INT. destruct (a_pc s); try exact I; try discriminate INT.
    + apply (was_snoc (fun v => v) 1 evs _ (AdcDone v) REG).
    + apply (was_snoc (fun v => v / 4) 0 evs _ (AdcDone v) REG).
  - change (light (adc_isr v s)) with (light s). destruct (old16 (a_pc s)) as [k|].
    + apply (was_snoc above k evs _ (AdcDone v) LI).
    + destruct LI as [L|[L1 L2]].
      * left. apply (was_snoc above8 _ evs _ (AdcDone v) L).
      * right. split; [rewrite steps_snoc; exact L1|exact L2].
Qed.

Lemma adc_inv_run r1 r2 r3 m evs s : bytes_ok (byte m) -> ten_bits evs ->
  adc_run atmega evs (adc_start atmega r1 r2 r3 m) = Some s -> adc_inv evs s.
Proof.
  intros H. revert s. induction evs as [|e evs IH] using rev_ind; intros s HV E.
  - cbn [adc_run] in E. apply Some_eq in E. subst s. apply adc_inv_start, H.
  - rewrite adc_run_app in E.
    unfold ten_bits in HV. rewrite Forall_app in HV. destruct HV as [HV He].
    destruct (adc_run atmega evs (adc_start atmega r1 r2 r3 m)) as [s1|]; [|discriminate E].
    specialize (IH s1 HV eq_refl). cbn [adc_run] in E.
    destruct e as [|v]; cbn [adc_happens] in E.
    + apply Some_eq in E. subst s. apply adc_inv_step; assumption.
    + destruct (a_int s1) eqn:I; [|discriminate E]. apply Some_eq in E. subst s.
      inversion He; subst. apply adc_inv_done; assumption.
Qed.

(** However conversions and instructions interleave, the light tells whether a value the
    converter really gave was above half of the range, judged from all ten bits or the
    upper eight, and [main] has executed at most five instructions since that value was
    its latest; only before the fifth instruction of all the light is what it was set to
    initially. *)
Theorem C125_light :
  forall r1 r2 r3 m evs s, bytes_ok (byte m) -> ten_bits evs ->
  adc_run atmega evs (adc_start atmega r1 r2 r3 m) = Some s ->
  (steps evs <= 4)%nat /\ light s = true
  \/ exists e1 e2, evs = e1 ++ e2 /\ (steps e2 <= 5)%nat
     /\ (light s = (512 <? last_value e1 0) \/ light s = (128 <? last_value e1 0 / 4)).
Proof.
  intros r1 r2 r3 m evs s H HV E.
  destruct (adc_inv_run r1 r2 r3 m evs s H HV E) as [_ _ _ _ LI].
  destruct (a_pc s); cbn [old16 old8 first_round] in LI.
  1-5: destruct LI as [(e1 & e2 & X & L & Y)|[L1 L2]];
    [right; exists e1, e2; repeat split; [exact X|lia|right; exact Y]|left; split; [lia|exact L2]].
  all: destruct LI as (e1 & e2 & X & L & Y); right; exists e1, e2;
    repeat split; [exact X|lia|left; exact Y].
Qed.
Print Assumptions C125_light.

(** [main] can always go on: interrupts are never left off for good. *)
Theorem C125_interrupts_on :
  forall r1 r2 r3 m evs s, bytes_ok (byte m) -> ten_bits evs ->
  adc_run atmega evs (adc_start atmega r1 r2 r3 m) = Some s ->
  exists k s', (k <= 3)%nat /\ adc_run atmega (repeat AdcStep k) s = Some s' /\ a_int s' = true.
Proof.
  intros r1 r2 r3 m evs s H HV E.
  destruct (adc_inv_run r1 r2 r3 m evs s H HV E) as [_ _ INT _ _].
  destruct s as [e lo hi v8 rlo rhi r8 pc mm]. cbn [a_int a_pc] in INT.
  destruct pc; subst e.
  - exists 0%nat. eexists. repeat split; lia.
  - exists 3%nat. eexists. repeat split; lia.
  - exists 2%nat. eexists. repeat split; lia.
  - exists 1%nat. eexists. repeat split; lia.
  - exists 0%nat. eexists. repeat split; lia.
  - exists 0%nat. eexists. repeat split; lia.
  - exists 0%nat. eexists. repeat split; lia.
Qed.
Print Assumptions C125_interrupts_on.

Example C125_light_case :
  let evs := [AdcStep; AdcStep; AdcStep; AdcStep; AdcDone 700; AdcStep; AdcStep; AdcDone 255;
              AdcStep; AdcStep] in
  let m := Machine (fun _ => 0) [] in
  bytes_ok (byte m) /\ ten_bits evs
  /\ exists s, adc_run atmega evs (adc_start atmega 1 2 3 m) = Some s
     /\ light s = true /\ a_int s = false /\ a_hi s = 0 /\ a_lo s = 255.
Proof.
  split; [intros c; cbn; lia|]. split; [repeat constructor; lia|].
  eexists. split; [vm_compute; reflexivity|]. repeat split.
Qed.

(** The converter has been giving the same value [v] while [main] executed at least six
    instructions. *)
Definition steady (v : Z) (evs : list adc_event) : Prop :=
  exists e1 e2, evs = e1 ++ e2 /\ (6 <= steps e2)%nat /\ last_value e1 0 = v
    /\ Forall (fun e => match e with AdcDone w => w = v | AdcStep => True end) e2.

Lemma steps_app a b : steps (a ++ b) = (steps a + steps b)%nat.
Proof. induction a as [|[|w] a IH]; cbn [app steps]; rewrite ?IH; reflexivity. Qed.

Lemma last_value_app a b v0 : last_value (a ++ b) v0 = last_value b (last_value a v0).
Proof. revert v0. induction a as [|[|w] a IH]; intros v0; cbn [app last_value]; auto. Qed.

Lemma last_value_same v e :
  Forall (fun e => match e with AdcDone w => w = v | AdcStep => True end) e -> last_value e v = v.
Proof.
  induction e as [|[|w] e IH]; intros H; cbn [last_value]; [reflexivity| |];
    inversion H; subst; auto.
Qed.

Lemma suffix_of {A} (a b c d : list A) :
  a ++ b = c ++ d -> (exists x, c = a ++ x /\ b = x ++ d) \/ (exists x, d = x ++ b).
Proof.
  revert c. induction a as [|h a IH]; intros c E; cbn [app] in E.
  - left. exists c. split; [reflexivity|exact E].
  - destruct c as [|h' c].
    + right. exists (h :: a). exact (eq_sym E).
    + cbn [app] in E. injection E as -> E.
      destruct (IH c E) as [(x & -> & X)|(x & X)].
      * left. exists x. split; [reflexivity|exact X].
      * right. exists x. exact X.
Qed.

Lemma steady_was {A} (f : Z -> A) v k evs x :
  steady v evs -> (k <= 5)%nat -> was f k evs x -> x = f v.
Proof.
  intros (e1 & e2 & -> & L & V & F) K (d1 & d2 & E & L2 & ->).
  destruct (suffix_of _ _ _ _ E) as [(y & -> & Y)|(y & ->)].
  - rewrite last_value_app, V. f_equal. apply last_value_same.
    subst e2. rewrite Forall_app in F. apply F.
  - rewrite steps_app in L2. lia.
Qed.

Lemma steady_steps v evs : steady v evs -> (6 <= steps evs)%nat.
Proof. intros (e1 & e2 & -> & L & _). rewrite steps_app. lia. Qed.

Lemma steady_more v evs k : steady v evs -> steady v (evs ++ repeat AdcStep k).
Proof.
  intros (e1 & e2 & -> & L & V & F). exists e1, (e2 ++ repeat AdcStep k).
  split; [symmetry; apply app_assoc|]. split; [rewrite steps_app; lia|].
  split; [exact V|]. rewrite Forall_app. split; [exact F|].
  clear. induction k; cbn [repeat]; constructor; [exact I|assumption].
Qed.

(** If the value does not change, the light is steady and tells whether it is more than
    half of the range, unless it is 513, 514 or 515. *)
Theorem C125_steady_light :
  forall r1 r2 r3 m evs s v, bytes_ok (byte m) -> ten_bits evs ->
  adc_run atmega evs (adc_start atmega r1 r2 r3 m) = Some s ->
  steady v evs -> 0 <= v <= 512 \/ 516 <= v < 1024 ->
  light s = (512 <? v).
Proof.
  intros r1 r2 r3 m evs s v H HV E ST R.
  assert (D : above8 v = above v).
  { unfold above, above8.
    destruct (Z.ltb_spec 512 v), (Z.ltb_spec 128 (v / 4)); try reflexivity;
      Z.div_mod_to_equations; lia. }
  change (512 <? v) with (above v).
  pose proof (steady_steps v evs ST) as K.
  destruct (adc_inv_run r1 r2 r3 m evs s H HV E) as [_ _ _ _ LI].
  destruct (a_pc s); cbn [old16 old8 first_round] in LI.
  1-5: rewrite <- D; destruct LI as [W|[L1 L2]];
    [refine (steady_was above8 v _ evs _ ST _ W)|]; lia.
  all: refine (steady_was above v _ evs _ ST _ LI); lia.
Qed.
Print Assumptions C125_steady_light.

Lemma run_steps k s : exists s', adc_run atmega (repeat AdcStep k) s = Some s'.
Proof.
  revert s. induction k as [|k IH]; intros s; [exists s; reflexivity|].
  cbn [repeat adc_run adc_happens]. apply IH.
Qed.

Lemma ten_bits_more evs k : ten_bits evs -> ten_bits (evs ++ repeat AdcStep k).
Proof.
  intros H. unfold ten_bits. rewrite Forall_app. split; [exact H|].
  clear. induction k; cbn [repeat]; constructor; [exact I|assumption].
Qed.

Definition to_read8 (pc : adc_pc) : nat :=
  match pc with A_cli => 5 | A_low => 4 | A_high => 3 | A_sei => 2 | A_put => 1
              | A_read8 => 0 | A_put8 => 6 end%nat.
Definition to_cli (pc : adc_pc) : nat :=
  match pc with A_cli => 0 | A_low => 6 | A_high => 5 | A_sei => 4 | A_put => 3
              | A_read8 => 2 | A_put8 => 1 end%nat.

Lemma reach_read8 s s' :
  adc_run atmega (repeat AdcStep (to_read8 (a_pc s))) s = Some s' -> a_pc s' = A_read8.
Proof.
  destruct s as [e lo hi v8 rlo rhi r8 pc m]. cbn [a_pc].
  destruct pc; cbn [to_read8 repeat adc_run adc_happens adc_step]; intros E;
    apply Some_eq in E; subst s'; reflexivity.
Qed.

Lemma reach_cli s s' :
  adc_run atmega (repeat AdcStep (to_cli (a_pc s))) s = Some s' -> a_pc s' = A_cli.
Proof.
  destruct s as [e lo hi v8 rlo rhi r8 pc m]. cbn [a_pc].
  destruct pc; cbn [to_cli repeat adc_run adc_happens adc_step]; intros E;
    apply Some_eq in E; subst s'; reflexivity.
Qed.

(** The light is meant to tell whether the value is more than half of the range; if the
    value stays 513, 514 or 515, it keeps going on and off: from every state each of the
    two is reached within six instructions. *)
Theorem C125_flicker_refuted :
  forall r1 r2 r3 m evs s v b, bytes_ok (byte m) -> ten_bits evs ->
  adc_run atmega evs (adc_start atmega r1 r2 r3 m) = Some s ->
  steady v evs -> 513 <= v <= 515 ->
  exists k s', (k <= 6)%nat /\ adc_run atmega (repeat AdcStep k) s = Some s' /\ light s' = b.
Proof.
  intros r1 r2 r3 m evs s v b H HV E ST R.
  destruct b.
  - exists (to_read8 (a_pc s)). destruct (run_steps (to_read8 (a_pc s)) s) as (s' & E').
    exists s'. split; [destruct (a_pc s); cbn; lia|]. split; [exact E'|].
    assert (E2 : adc_run atmega (evs ++ repeat AdcStep (to_read8 (a_pc s)))
      (adc_start atmega r1 r2 r3 m) = Some s') by (rewrite adc_run_app, E; exact E').
    destruct (adc_inv_run r1 r2 r3 m _ s' H (ten_bits_more _ _ HV) E2) as [_ _ _ _ LI].
    rewrite (reach_read8 s s' E') in LI. cbn [old16] in LI.
    pose proof (fun L => steady_was above v _ _ _ (steady_more v evs _ ST) L LI) as W.
    rewrite W by lia.
    unfold above. apply Z.ltb_lt. lia.
  - exists (to_cli (a_pc s)). destruct (run_steps (to_cli (a_pc s)) s) as (s' & E').
    exists s'. split; [destruct (a_pc s); cbn; lia|]. split; [exact E'|].
    assert (E2 : adc_run atmega (evs ++ repeat AdcStep (to_cli (a_pc s)))
      (adc_start atmega r1 r2 r3 m) = Some s') by (rewrite adc_run_app, E; exact E').
    destruct (adc_inv_run r1 r2 r3 m _ s' H (ten_bits_more _ _ HV) E2) as [_ _ _ _ LI].
    rewrite (reach_cli s s' E') in LI. cbn [old16 old8 first_round] in LI.
    destruct LI as [LI|[L1 _]].
    + pose proof (fun L => steady_was above8 v _ _ _ (steady_more v evs _ ST) L LI) as W.
      rewrite W by lia.
      unfold above8. apply Z.ltb_ge. Z.div_mod_to_equations; lia.
    + pose proof (steady_steps v _ (steady_more v evs (to_cli (a_pc s)) ST)). lia.
Qed.
Print Assumptions C125_flicker_refuted.

Example C125_flicker_case :
  let evs := AdcDone 514 :: repeat AdcStep 7 ++ [AdcDone 514] in
  let m := Machine (fun _ => 0) [] in
  bytes_ok (byte m) /\ ten_bits evs /\ steady 514 evs
  /\ exists s, adc_run atmega evs (adc_start atmega 1 2 3 m) = Some s /\ light s = false
     /\ exists s', adc_run atmega (repeat AdcStep 5) s = Some s' /\ light s' = true.
Proof.
  split; [intros c; cbn; lia|]. split; [repeat constructor; lia|]. split.
  - exists [AdcDone 514], (repeat AdcStep 7 ++ [AdcDone 514]). split; [reflexivity|].
    split; [cbn; lia|]. split; [reflexivity|]. repeat constructor.
  - eexists. split; [vm_compute; reflexivity|]. split; [reflexivity|].
    eexists. split; [vm_compute; reflexivity|]. reflexivity.
Qed.

Example C125_steady_case :
  let evs := AdcDone 600 :: repeat AdcStep 7 in
  let m := Machine (fun _ => 0) [] in
  bytes_ok (byte m) /\ ten_bits evs /\ steady 600 evs
  /\ exists s, adc_run atmega evs (adc_start atmega 1 2 3 m) = Some s /\ light s = true.
Proof.
  split; [intros c; cbn; lia|]. split; [repeat constructor; lia|]. split.
  - exists [AdcDone 600], (repeat AdcStep 7). split; [reflexivity|].
    split; [cbn; lia|]. split; [reflexivity|]. repeat constructor.
  - eexists. split; [vm_compute; reflexivity|]. reflexivity.
Qed.
