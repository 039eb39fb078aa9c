(** The example program that measures, blinks and drives a converter:
    example/avr/avr-adc-dac-isr-atmega.e.cpp. *)

From Coq Require Import ZArith List Bool.
From Verif Require Import Base Interrupt.
Import ListNotations.
Open Scope Z_scope.

(** ** Functions *)

(** example/avr/avr-adc-dac-isr-atmega.e.cpp:21-25: [clamp]. *)
Definition clamp (v lo hi : Z) : Z := if v <? lo then lo else if hi <? v then hi else v.

(** include/mcu/atmega328.hpp:2608: [tc1_pwm_on_a_pb1::value_min]. *)
Definition value_min : Z := 3.

(** include/mcu/atmega328.hpp:2609: [tc1_pwm_on_a_pb1::value_max]. *)
Definition value_max : Z := 1023.

(** example/avr/avr-adc-dac-isr-atmega.e.cpp:53-56, include/mcu/atmega328.hpp:2628-2631:
    [dac::write], an atomic assignment to OCR1A, two bytes at 0x88. *)
Definition dac_write (ord : list nat) (value : Z) : list instr :=
  atomic_write 2 ord 0x88 (clamp value value_min value_max).

(** ** Mailboxes *)

(** example/avr/avr-adc-dac-isr-atmega.e.cpp:143-146: the four mailboxes. *)
Inductive mailbox : Type := M1 | M10 | M100 | M1000.

(** example/avr/avr-adc-dac-isr-atmega.e.cpp:119: equality of mailboxes, to update the
    flag of one. *)
Definition mailbox_eqb (a b : mailbox) : bool :=
  match a, b with
  | M1, M1 | M10, M10 | M100, M100 | M1000, M1000 => true
  | _, _ => false
  end.

(** example/avr/avr-adc-dac-isr-atmega.e.cpp:121-124: [operator=], the flags with one
    changed. *)
Definition put_flag (box : mailbox -> bool) (m : mailbox) (x : bool) : mailbox -> bool :=
  fun m' => if mailbox_eqb m' m then x else box m'.

(** ** The heartbeat *)

(** example/avr/avr-adc-dac-isr-atmega.e.cpp:182-184: the counters of the routine. *)
Record counters : Type := Counters { cnt_10ms : Z; cnt_100ms : Z; cnt_1000ms : Z }.

(** example/avr/avr-adc-dac-isr-atmega.e.cpp:182-184: their initial values. *)
Definition counters_init : counters := Counters 10 10 10.

(** example/avr/avr-adc-dac-isr-atmega.e.cpp:188, 194, 200: [--cnt] of a [uint8_t]. *)
Definition dec8 (x : Z) : Z := (x - 1) mod 2 ^ 8.

(** example/avr/avr-adc-dac-isr-atmega.e.cpp:176-205: [ISR( TIMER0_COMPA_vect )]. *)
Definition beat_isr (c : counters) (box : mailbox -> bool) : counters * (mailbox -> bool) :=
  let box := put_flag box M1 true in
  let c10 := dec8 (cnt_10ms c) in
  if 0 <? c10 then (Counters c10 (cnt_100ms c) (cnt_1000ms c), box)
  else
    let box := put_flag box M10 true in
    let c100 := dec8 (cnt_100ms c) in
    if 0 <? c100 then (Counters 10 c100 (cnt_1000ms c), box)
    else
      let box := put_flag box M100 true in
      let c1000 := dec8 (cnt_1000ms c) in
      if 0 <? c1000 then (Counters 10 10 c1000, box)
      else (Counters 10 10 10, put_flag box M1000 true).

(** ** Polling *)

(** example/avr/avr-adc-dac-isr-atmega.e.cpp:126-140: where the conversion to [bool] of a
    mailbox is: before the flag is read, or after it was read as true and before it is
    reset. *)
Inductive poll_point : Type := BeforeRead | BeforeReset.

(** example/avr/avr-adc-dac-isr-atmega.e.cpp:121-140: one thing that happens to a
    mailbox: an interrupt routine raises it, or the polling program takes its next
    step. *)
Inductive mbx_event : Type := Raise | PollStep.

(** example/avr/avr-adc-dac-isr-atmega.e.cpp:121-140: the flag, the point the polling
    program is at, and what its polls have reported, oldest first. *)
Record mbx_state : Type :=
  MbxState { mbx_flag : bool; mbx_point : poll_point; mbx_reports : list bool }.

(** example/avr/avr-adc-dac-isr-atmega.e.cpp:121-140: a step. *)
Definition mbx_step (s : mbx_state) (e : mbx_event) : mbx_state :=
  match e with
  | Raise => MbxState true (mbx_point s) (mbx_reports s)
  | PollStep =>
    match mbx_point s with
    | BeforeRead =>
      if mbx_flag s then MbxState true BeforeReset (mbx_reports s)
      else MbxState false BeforeRead (mbx_reports s ++ [false])
    | BeforeReset => MbxState false BeforeRead (mbx_reports s ++ [true])
    end
  end.

(** ** The whole program *)

(** example/avr/avr-adc-dac-isr-atmega.e.cpp:232, 269, 274, 276: what the program does to
    the outside. *)
Inductive output : Type := LedToggle | LedOn | LedOff | Dac (value : Z).

(** example/avr/avr-adc-dac-isr-atmega.e.cpp:66, 119, 182-184, 227: state of the program:
    interrupt enable bit, counters, mailboxes, the two bytes of [adc_result], the two
    bytes of a value just read, the high byte waiting to be written to OCR1A, the loop
    counter; and what it has done: the mailboxes found raised and the outputs, newest
    first; and what has been done to it: the conversion results, newest first, and the
    number of timer interrupts. *)
Record sys : Type := Sys {
  on : bool;
  cnts : counters;
  box : mailbox -> bool;
  adc_lo : Z; adc_hi : Z;
  reg_lo : Z; reg_hi : Z;
  ocr_hi : Z;
  blinks : Z;
  found : list mailbox;
  outs : list output;
  adcs : list Z;
  beats : nat }.

(** example/avr/avr-adc-dac-isr-atmega.e.cpp:103, 176: the interrupts. *)
Inductive interrupt : Type := AdcReady (v : Z) | Beat.

(** example/avr/avr-adc-dac-isr-atmega.e.cpp:103-108, 176-205: an interrupt routine, run as
    a whole since interrupts are off in it; [scoped_sreg] leaves the status register. *)
Definition isr (e : interrupt) (s : sys) : sys :=
  match e with
  | AdcReady v =>
    Sys (on s) (cnts s) (box s) (v mod 2 ^ 8) (v / 2 ^ 8) (reg_lo s) (reg_hi s) (ocr_hi s)
      (blinks s) (found s) (outs s) (v :: adcs s) (beats s)
  | Beat =>
    let (c, b) := beat_isr (cnts s) (box s) in
    Sys (on s) c b (adc_lo s) (adc_hi s) (reg_lo s) (reg_hi s) (ocr_hi s)
      (blinks s) (found s) (outs s) (adcs s) (S (beats s))
  end.

(** example/avr/avr-adc-dac-isr-atmega.e.cpp:221, include/mcu/register.hpp:534-535: [sei()]
    and [cli()]. *)
Definition set_on (x : bool) (s : sys) : sys :=
  Sys x (cnts s) (box s) (adc_lo s) (adc_hi s) (reg_lo s) (reg_hi s) (ocr_hi s)
    (blinks s) (found s) (outs s) (adcs s) (beats s).

(** example/avr/avr-adc-dac-isr-atmega.e.cpp:132: the reset of a mailbox found raised. *)
Definition reset (m : mailbox) (s : sys) : sys :=
  Sys (on s) (cnts s) (put_flag (box s) m false) (adc_lo s) (adc_hi s) (reg_lo s) (reg_hi s)
    (ocr_hi s) (blinks s) (m :: found s) (outs s) (adcs s) (beats s).

(** include/mcu/register.hpp:543: reading the low byte of [adc_result]. *)
Definition read_lo (s : sys) : sys :=
  Sys (on s) (cnts s) (box s) (adc_lo s) (adc_hi s) (adc_lo s) (reg_hi s) (ocr_hi s)
    (blinks s) (found s) (outs s) (adcs s) (beats s).

(** include/mcu/register.hpp:543: reading the high byte of [adc_result]. *)
Definition read_hi (s : sys) : sys :=
  Sys (on s) (cnts s) (box s) (adc_lo s) (adc_hi s) (reg_lo s) (adc_hi s) (ocr_hi s)
    (blinks s) (found s) (outs s) (adcs s) (beats s).

(** include/mcu/register.hpp:543: the value read. *)
Definition value_read (s : sys) : Z := reg_lo s + 2 ^ 8 * reg_hi s.

(** example/avr/avr-adc-dac-isr-atmega.e.cpp:53-56, include/mcu/register.hpp:550: writing the
    high byte of the value for OCR1A; the hardware keeps it until the low byte is
    written. *)
Definition write_hi (s : sys) : sys :=
  Sys (on s) (cnts s) (box s) (adc_lo s) (adc_hi s) (reg_lo s) (reg_hi s)
    (clamp (value_read s) value_min value_max / 2 ^ 8)
    (blinks s) (found s) (outs s) (adcs s) (beats s).

(** example/avr/avr-adc-dac-isr-atmega.e.cpp:53-56, include/mcu/register.hpp:550: writing the
    low byte, with which the hardware takes over both. *)
Definition write_lo (s : sys) : sys :=
  Sys (on s) (cnts s) (box s) (adc_lo s) (adc_hi s) (reg_lo s) (reg_hi s) (ocr_hi s)
    (blinks s) (found s)
    (Dac (clamp (value_read s) value_min value_max mod 2 ^ 8 + 2 ^ 8 * ocr_hi s) :: outs s)
    (adcs s) (beats s).

(** example/avr/avr-adc-dac-isr-atmega.e.cpp:232, 269, 274: [led::toggle], [on], [off], one
    instruction each. *)
Definition emit (o : output) (s : sys) : sys :=
  Sys (on s) (cnts s) (box s) (adc_lo s) (adc_hi s) (reg_lo s) (reg_hi s) (ocr_hi s)
    (blinks s) (found s) (o :: outs s) (adcs s) (beats s).

(** example/avr/avr-adc-dac-isr-atmega.e.cpp:227: the loop counter, a register. *)
Definition set_blinks (f : Z -> Z) (s : sys) : sys :=
  Sys (on s) (cnts s) (box s) (adc_lo s) (adc_hi s) (reg_lo s) (reg_hi s) (ocr_hi s)
    (f (blinks s)) (found s) (outs s) (adcs s) (beats s).

(** example/avr/avr-adc-dac-isr-atmega.e.cpp:210-279: commands; an action or the evaluation
    of a condition is one access of memory, before which interrupts can happen. *)
Inductive cmd : Type :=
| Skip
| Act (f : sys -> sys)
| Seq (p q : cmd)
| Cond (c : sys -> bool) (p q : cmd)
| While (c : sys -> bool) (p : cmd).

(** example/avr/avr-adc-dac-isr-atmega.e.cpp:210-279: one step of the program; [None] at
    its end. *)
Fixpoint next (p : cmd) (s : sys) : option (cmd * sys) :=
  match p with
  | Skip => None
  | Act f => Some (Skip, f s)
  | Seq p q =>
    match next p s with
    | Some (p', s') => Some (Seq p' q, s')
    | None => Some (q, s)
    end
  | Cond c p q => Some (if c s then p else q, s)
  | While c p => Some (if c s then Seq p (While c p) else Skip, s)
  end.

(** example/avr/avr-adc-dac-isr-atmega.e.cpp:103, 176: executions; the results of the
    converter have 10 bits. *)
Inductive reach : cmd -> sys -> cmd -> sys -> Prop :=
| reach_here : forall p s, reach p s p s
| reach_step : forall p s p1 s1 p' s',
    next p s = Some (p1, s1) -> reach p1 s1 p' s' -> reach p s p' s'
| reach_beat : forall p s p' s',
    on s = true -> reach p (isr Beat s) p' s' -> reach p s p' s'
| reach_adc : forall p s v p' s',
    on s = true -> 0 <= v < 2 ^ 10 -> reach p (isr (AdcReady v) s) p' s' -> reach p s p' s'.

(** example/avr/avr-adc-dac-isr-atmega.e.cpp:126-140: [if( mbx ) p]. *)
Definition if_raised (m : mailbox) (p : cmd) : cmd :=
  Cond (fun s => box s m) (Seq (Act (reset m)) p) Skip.

(** example/avr/avr-adc-dac-isr-atmega.e.cpp:229-230: [while( ! mbx ) ;]. *)
Definition wait_raised (m : mailbox) : cmd :=
  Seq (While (fun s => negb (box s m)) Skip) (Act (reset m)).

(** example/avr/avr-adc-dac-isr-atmega.e.cpp:96-99, include/mcu/register.hpp:540-545:
    [adc::result()]. *)
Definition result : cmd :=
  Seq (Act (set_on false)) (Seq (Act read_lo) (Seq (Act read_hi) (Act (set_on true)))).

(** example/avr/avr-adc-dac-isr-atmega.e.cpp:53-56, include/mcu/register.hpp:547-552:
    [dac::write] of the value read. *)
Definition write_dac : cmd :=
  Seq (Act (set_on false)) (Seq (Act write_hi) (Seq (Act write_lo) (Act (set_on true)))).

(** example/avr/avr-adc-dac-isr-atmega.e.cpp:13, 227-233: the blinking. *)
Definition blink : cmd :=
  Seq (Act (set_blinks (fun _ => 2 * 3)))
      (While (fun s => negb (blinks s =? 0))
         (Seq (wait_raised M100)
         (Seq (Act (emit LedToggle)) (Act (set_blinks dec8))))).

(** example/avr/avr-adc-dac-isr-atmega.e.cpp:256-278: one round of the loop;
    [result_max / 2] is 511. *)
Definition round : cmd :=
  Seq (if_raised M1 Skip)
  (Seq (if_raised M10 Skip)
  (Seq (if_raised M100
          (Seq result (Cond (fun s => 1023 / 2 <? value_read s) (Act (emit LedOn)) Skip)))
       (if_raised M1000
          (Seq (Act (emit LedOff)) (Seq result write_dac))))).

(** example/avr/avr-adc-dac-isr-atmega.e.cpp:210-279: [main] after the initialisations,
    which are modelled in Atmega.v. *)
Definition main : cmd :=
  Seq (Act (set_on true)) (Seq blink (While (fun _ => true) round)).

(** example/avr/avr-adc-dac-isr-atmega.e.cpp:66, 119, 182-184: initial values; the
    registers hold anything. *)
Definition sys_init (r1 r2 r3 r4 : Z) : sys :=
  Sys false counters_init (fun _ => false) 0 0 r1 r2 r3 r4 [] [] [] 0.
