(** The small example programs for the microcontroller:
    example/avr/avr-blink-led.e.cpp, example/avr/avr-blink-led-isr.e.cpp,
    example/avr/avr-fade-led.e.cpp and example/avr/avr-adc-isr.e.cpp. *)

From Coq Require Import ZArith List Bool.
From Verif Require Import Base Register AdcDac.
Import ListNotations.
Open Scope Z_scope.

(** ** Accesses to registers *)

(** example/avr/avr-adc-isr.e.cpp:73-77; example/avr/avr-fade-led.e.cpp:47: [setmsk]. *)
Definition setmsk (hw : hardware) (sfr msk : Z) (m : machine) : machine :=
  let (v, m1) := load W8 sfr m in store hw W8 sfr (trunc W8 (Z.lor v msk)) m1.

(** example/avr/avr-adc-isr.e.cpp:79-83; example/avr/avr-fade-led.e.cpp:48: [xormsk]. *)
Definition xormsk (hw : hardware) (sfr msk : Z) (m : machine) : machine :=
  let (v, m1) := load W8 sfr m in store hw W8 sfr (trunc W8 (Z.lxor v msk)) m1.

(** example/avr/avr-adc-isr.e.cpp:85-89; example/avr/avr-fade-led.e.cpp:49: [clrmsk]. *)
Definition clrmsk (hw : hardware) (sfr msk : Z) (m : machine) : machine :=
  let (v, m1) := load W8 sfr m in store hw W8 sfr (trunc W8 (Z.land v (Z.lnot msk))) m1.

(** example/avr/avr-adc-isr.e.cpp:28-32; example/avr/avr-fade-led.e.cpp:51-55;
    example/avr/avr-blink-led-isr.e.cpp:20-24; example/avr/avr-blink-led.e.cpp:20-23:
    [bitmask] of the programs, a byte. *)
Definition mask8 (bs : list Z) : Z := bitmask W8 bs.

(** example/avr/avr-adc-isr.e.cpp:40-44; example/avr/avr-fade-led.e.cpp:42: [setbit]. *)
Definition setbit (hw : hardware) (sfr b : Z) : machine -> machine := setmsk hw sfr (mask8 [b]).

(** example/avr/avr-adc-isr.e.cpp:46-50; example/avr/avr-fade-led.e.cpp:43: [xorbit]. *)
Definition xorbit (hw : hardware) (sfr b : Z) : machine -> machine := xormsk hw sfr (mask8 [b]).

(** example/avr/avr-adc-isr.e.cpp:52-56; example/avr/avr-fade-led.e.cpp:44: [clrbit]. *)
Definition clrbit (hw : hardware) (sfr b : Z) : machine -> machine := clrmsk hw sfr (mask8 [b]).

(** example/avr/avr-adc-isr.e.cpp:58-65: [putbit]. *)
Definition putbit (hw : hardware) (sfr b : Z) (on : bool) : machine -> machine :=
  if on then setbit hw sfr b else clrbit hw sfr b.

(** example/avr/avr-fade-led.e.cpp:41: [tstbit]; [bit_is_set] is the C library's. *)
Definition tstbit (sfr b : Z) (m : machine) : bool * machine :=
  let (v, m1) := load W8 sfr m in (negb (Z.land v (mask8 [b]) =? 0), m1).

(** example/avr/avr-adc-isr.e.cpp:24-26; example/avr/avr-fade-led.e.cpp:21-23;
    example/avr/avr-blink-led-isr.e.cpp:16-18; example/avr/avr-blink-led.e.cpp:16-18:
    [led_ddr], address of DDRB. *)
Definition led_ddr : Z := 0x24.

(** example/avr/avr-adc-isr.e.cpp:25; example/avr/avr-fade-led.e.cpp:22;
    example/avr/avr-blink-led-isr.e.cpp:17; example/avr/avr-blink-led.e.cpp:17:
    [led_port], address of PORTB. *)
Definition led_port : Z := 0x25.

(** example/avr/avr-adc-isr.e.cpp:26; example/avr/avr-fade-led.e.cpp:23;
    example/avr/avr-blink-led-isr.e.cpp:18; example/avr/avr-blink-led.e.cpp:18:
    [led_bit], PB5. *)
Definition led_bit : Z := 5.

(** example/avr/avr-blink-led.e.cpp:27; example/avr/avr-fade-led.e.cpp:139:
    [F_CPU_HZ], given by the build; the programs are written for 16 MHz
    (example/avr/avr-blink-led-isr.e.cpp:44). *)
Definition F_CPU_HZ : Z := 16000000.

(** ** Blinking, timed by a loop *)

(** example/avr/avr-blink-led.e.cpp:27: [ms_count]. *)
Definition blink_ms_count : Z := F_CPU_HZ / (7 * 1000).

(** example/avr/avr-blink-led.e.cpp:25-32: [delay_ms]; the number of [nop]s executed
    is increased by one for each. *)
Definition blink_delay_ms (ms : Z) (nops : Z) : Z :=
  Nat.iter (Z.to_nat ms) (Nat.iter (Z.to_nat blink_ms_count) Z.succ) nops.

(** example/avr/avr-blink-led.e.cpp:36-37; example/avr/avr-blink-led-isr.e.cpp:31-35:
    [init_led]. *)
Definition blink_init_led (hw : hardware) (m : machine) : machine :=
  let m := store hw W8 led_port 255 m in
  setmsk hw led_ddr (mask8 [led_bit]) m.

(** example/avr/avr-blink-led.e.cpp:12-14: [led_FEATURE_BLINK_MS] if not set. *)
Definition led_FEATURE_BLINK_MS : Z := 200.

(** example/avr/avr-blink-led.e.cpp:40-45: one round of the loop. *)
Definition blink_round (hw : hardware) (s : Z * machine) : Z * machine :=
  let (nops, m) := s in
  (blink_delay_ms led_FEATURE_BLINK_MS nops, xormsk hw led_port (mask8 [led_bit]) m).

(** example/avr/avr-blink-led.e.cpp:34-46: [main], up to the end of the n-th round. *)
Definition blink_main (hw : hardware) (n : nat) (m : machine) : Z * machine :=
  Nat.iter n (blink_round hw) (0, blink_init_led hw m).

(** ** Blinking, timed by an interrupt *)

(** example/avr/avr-blink-led-isr.e.cpp:26-29: [toggle_led]. *)
Definition toggle_led (hw : hardware) : machine -> machine :=
  xormsk hw led_port (mask8 [led_bit]).

(** example/avr/avr-blink-led-isr.e.cpp:41-42: [count1ms]. *)
Definition count1ms : Z := F_CPU_HZ / 1000 / 64.

(** example/avr/avr-blink-led-isr.e.cpp:39-50: [init_timer0_1ms]: TCCR0A, OCR0A,
    TIMSK0, TCCR0B. *)
Definition init_timer0_1ms (hw : hardware) (m : machine) : machine :=
  let m := setmsk hw 0x44 (mask8 [1]) m in
  let m := store hw W8 0x47 count1ms m in
  let m := setmsk hw 0x6e (mask8 [1]) m in
  setmsk hw 0x45 (mask8 [1; 0]) m.

(** example/avr/avr-blink-led-isr.e.cpp:56, 63, 70: the static counters. *)
Definition blink_counters : counters := Counters 10 10 10.

(** example/avr/avr-blink-led-isr.e.cpp:54-78: the interrupt routine. *)
Definition blink_isr (hw : hardware) (s : counters * machine) : counters * machine :=
  let (c, m) := s in
  let c10 := dec8 (cnt_10ms c) in
  if 0 <? c10 then (Counters c10 (cnt_100ms c) (cnt_1000ms c), m) else
  let c100 := dec8 (cnt_100ms c) in
  if 0 <? c100 then (Counters 10 c100 (cnt_1000ms c), m) else
  let c1000 := dec8 (cnt_1000ms c) in
  if 0 <? c1000 then (Counters 10 10 c1000, m) else
  (Counters 10 10 10, toggle_led hw m).

(** example/avr/avr-blink-led-isr.e.cpp:80-91: [main], which only waits after the
    initialisation, when [n] interrupts have been served. *)
Definition blink_isr_main (hw : hardware) (n : nat) (m : machine) : counters * machine :=
  Nat.iter n (blink_isr hw) (blink_counters, init_timer0_1ms hw (blink_init_led hw m)).

(** ** Fading *)

(** example/avr/avr-fade-led.e.cpp:86-90: [init_led]. *)
Definition fade_init_led (hw : hardware) (m : machine) : machine :=
  setbit hw led_ddr led_bit (setbit hw led_port led_bit m).

(** example/avr/avr-fade-led.e.cpp:97-112: [init_timer0_pwm]: DDRD, TCCR0A, TCCR0B. *)
Definition init_timer0_pwm (hw : hardware) (m : machine) : machine :=
  let m := setbit hw 0x2a 6 m in
  let m := setmsk hw 0x44 (mask8 [7]) m in
  let m := setmsk hw 0x44 (mask8 [1; 0]) m in
  setmsk hw 0x45 (mask8 [1; 0]) m.

(** example/avr/avr-fade-led.e.cpp:114-135: [init_timer1_pwm]: DDRB, TCCR1A, TCCR1B. *)
Definition init_timer1_pwm (hw : hardware) (m : machine) : machine :=
  let m := setmsk hw 0x24 (mask8 [1; 2]) m in
  let m := setmsk hw 0x80 (mask8 [7; 5]) m in
  let m := setmsk hw 0x80 (mask8 [1; 0]) m in
  let m := setmsk hw 0x81 (mask8 [3]) m in
  setbit hw 0x81 0 m.

(** example/avr/avr-fade-led.e.cpp:139: [ms_count]. *)
Definition fade_ms_count : Z := F_CPU_HZ / (7 * 1000) / 5.

(** example/avr/avr-fade-led.e.cpp:37-39: what the pins of port D are changed to from
    outside. *)
Definition drive_pins (v : Z) (m : machine) : machine :=
  Machine (upd (byte m) 0x29 v) (bus m).

(** example/avr/avr-fade-led.e.cpp:146-149: the body of the loops of [delay_ms],
    the pins having the given state. *)
Definition fade_sample (hw : hardware) (pins : Z) (m : machine) : machine :=
  let (b, m) := tstbit 0x29 0 (drive_pins pins m) in
  if b then setbit hw led_port led_bit m else clrbit hw led_port led_bit m.

(** example/avr/avr-fade-led.e.cpp:137-152: [delay_ms]; the k-th time the body is
    executed the pins are in state [pins k].  The two nested loops execute it
    [ms * ms_count] times. *)
Definition fade_delay_ms (hw : hardware) (ms : Z) (pins : nat -> Z) (m : machine) : machine :=
  snd (Nat.iter (Z.to_nat ms)
         (Nat.iter (Z.to_nat fade_ms_count)
            (fun s => (S (fst s), fade_sample hw (pins (fst s)) (snd s))))
         (O, m)).

(** example/avr/avr-fade-led.e.cpp:163: [top]. *)
Definition fade_top : Z := 0x3ff.

(** example/avr/avr-fade-led.e.cpp:169-172, 179-182: the body of the two loops of
    [main]; OCR0A has eight bits, OCR1A and OCR1B sixteen. *)
Definition fade_body (hw : hardware) (pins : nat -> Z) (i : Z) (m : machine) : machine :=
  let m := store hw W8 0x47 (trunc W8 (i / 4)) m in
  let m := store hw W16 0x88 i m in
  let m := store hw W16 0x8a (trunc W16 (fade_top - i)) m in
  fade_delay_ms hw 2 pins m.

(** example/avr/avr-fade-led.e.cpp:161-184: where [main] is: in which of the two loops,
    and with which [i]. *)
Inductive fade_pc : Type := FadeUp (i : Z) | FadeDown (i : Z).

(** example/avr/avr-fade-led.e.cpp:176: entering the second loop. *)
Definition enter_down (i : Z) : fade_pc :=
  if 0 <? i then FadeDown i else FadeUp 0.

(** example/avr/avr-fade-led.e.cpp:166, 176: the loops' increments and tests after the
    body; [i] is a [uint16_t].  Simplified: the tests passed on entering the loops are
    not made again, [0 < top] and [top > 0]. *)
Definition fade_next (p : fade_pc) : fade_pc :=
  match p with
  | FadeUp i =>
      let i' := trunc W16 (i + 1) in
      if i' <? fade_top then FadeUp i' else enter_down fade_top
  | FadeDown i => enter_down (trunc W16 (i - 1))
  end.

(** example/avr/avr-fade-led.e.cpp:166-183: the value of [i] in the body. *)
Definition fade_i (p : fade_pc) : Z := match p with FadeUp i | FadeDown i => i end.

(** example/avr/avr-fade-led.e.cpp:155-185: [main], when a body has been executed [n]
    times; in the k-th the pins are in states [pins k]. *)
Fixpoint fade_main (hw : hardware) (pins : nat -> nat -> Z) (n : nat) (m : machine)
  : fade_pc * machine :=
  match n with
  | O => (FadeUp 0, init_timer1_pwm hw (init_timer0_pwm hw (fade_init_led hw m)))
  | S n' =>
      let (p, m) := fade_main hw pins n' m in
      (fade_next p, fade_body hw (pins n') (fade_i p) m)
  end.

(** ** A conversion in an interrupt *)

(** example/avr/avr-adc-isr.e.cpp:109-133: [init_adc]: ADMUX, ADCSRA, ADCSRB. *)
Definition adc_init_adc (hw : hardware) (m : machine) : machine :=
  let m := clrmsk hw 0x7c (mask8 [3; 2; 2; 0]) m in
  let m := setmsk hw 0x7c (mask8 [6]) m in
  let m := setmsk hw 0x7a (mask8 [2; 1; 0; 5; 7; 3; 6]) m in
  store hw W8 0x7b 0 m.

(** example/avr/avr-adc-isr.e.cpp:135-139: [init_led]. *)
Definition adc_init_led (hw : hardware) (m : machine) : machine :=
  setbit hw led_ddr led_bit (setbit hw led_port led_bit m).

(** example/avr/avr-adc-isr.e.cpp:141-144: [led]. *)
Definition adc_led (hw : hardware) (on : bool) (m : machine) : machine :=
  setbit hw led_port led_bit m.

(** example/avr/avr-adc-isr.e.cpp:146: [adc_level]. *)
Definition adc_level : Z := 512.

(** example/avr/avr-adc-isr.e.cpp:147: [adc_level8]. *)
Definition adc_level8 : Z := 128.

(** example/avr/avr-adc-isr.e.cpp:160-164: the instruction [main] executes next: the
    five of [guarded( adc_value )] and the change of the light, then those for
    [adc_value8]. *)
Inductive adc_pc : Type := A_cli | A_low | A_high | A_sei | A_put | A_read8 | A_put8.

(** example/avr/avr-adc-isr.e.cpp:149-151, 160-164: the interrupt enable bit, the two
    bytes of [adc_value], [adc_value8], the registers [main] has read them to, where
    it is, and the memory of the peripherals. *)
Record adc_sys : Type := AdcSys {
  a_int : bool;
  a_lo : Z; a_hi : Z; a_v8 : Z;
  a_rlo : Z; a_rhi : Z; a_r8 : Z;
  a_pc : adc_pc;
  a_mem : machine }.

(** example/avr/avr-adc-isr.e.cpp:155-158: the state after [sei] in [main]; the two
    variables are static and so zero; the registers hold anything. *)
Definition adc_start (hw : hardware) (r1 r2 r3 : Z) (m : machine) : adc_sys :=
  AdcSys true 0 0 0 r1 r2 r3 A_cli (adc_init_led hw (adc_init_adc hw m)).

(** example/avr/avr-adc-isr.e.cpp:94-107, 160-164: one instruction of the loop of
    [main]; [guarded] reads the two bytes of [adc_value] between [cli] and [sei] and
    the one byte of [adc_value8] without. *)
Definition adc_step (hw : hardware) (s : adc_sys) : adc_sys :=
  let '(AdcSys e lo hi v8 rlo rhi r8 pc m) := s in
  match pc with
  | A_cli => AdcSys false lo hi v8 rlo rhi r8 A_low m
  | A_low => AdcSys e lo hi v8 lo rhi r8 A_high m
  | A_high => AdcSys e lo hi v8 rlo hi r8 A_sei m
  | A_sei => AdcSys true lo hi v8 rlo rhi r8 A_put m
  | A_put => AdcSys e lo hi v8 rlo rhi r8 A_read8
               (putbit hw led_port led_bit (adc_level <? rlo + 2 ^ 8 * rhi) m)
  | A_read8 => AdcSys e lo hi v8 rlo rhi v8 A_put8 m
  | A_put8 => AdcSys e lo hi v8 rlo rhi r8 A_cli
               (putbit hw led_port led_bit (adc_level8 <? r8) m)
  end.

(** example/avr/avr-adc-isr.e.cpp:167-171: the interrupt routine, the converter having
    given [v]. *)
Definition adc_isr (v : Z) (s : adc_sys) : adc_sys :=
  let lo := v mod 2 ^ 8 in
  let hi := v / 2 ^ 8 in
  AdcSys (a_int s) lo hi (trunc W8 (Z.shiftr (lo + 2 ^ 8 * hi) 2))
         (a_rlo s) (a_rhi s) (a_r8 s) (a_pc s) (a_mem s).

(** example/avr/avr-adc-isr.e.cpp:153-171: what happens: [main] executes an
    instruction, or the interrupt of a finished conversion is served. *)
Inductive adc_event : Type := AdcStep | AdcDone (v : Z).

(** example/avr/avr-adc-isr.e.cpp:153-171: an event; an interrupt is not served while
    interrupts are off. *)
Definition adc_happens (hw : hardware) (e : adc_event) (s : adc_sys) : option adc_sys :=
  match e with
  | AdcStep => Some (adc_step hw s)
  | AdcDone v => if a_int s then Some (adc_isr v s) else None
  end.

(** example/avr/avr-adc-isr.e.cpp:153-171: a run. *)
Fixpoint adc_run (hw : hardware) (evs : list adc_event) (s : adc_sys) : option adc_sys :=
  match evs with
  | [] => Some s
  | e :: evs' =>
      match adc_happens hw e s with
      | Some s' => adc_run hw evs' s'
      | None => None
      end
  end.
