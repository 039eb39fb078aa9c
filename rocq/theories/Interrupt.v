(** Interrupts, guards against them and accesses of several bytes:
    include/mcu/register.hpp:528-552, include/mcu/atmega328.hpp:79-93. *)

From Coq Require Import ZArith List Bool.
From Verif Require Import Base Register AtmegaRegs Atmega.
Import ListNotations.
Open Scope Z_scope.

(** ** Accesses byte by byte *)

(** include/mcu/register.hpp:532-552: the instructions the guard and the accesses
    consist of on an 8-bit processor: switching interrupts off and on, writing one
    byte, reading one byte of a value into a register. *)
Inductive instr : Type :=
| Cli
| Sei
| Put (address value : Z)
| Get (address : Z) (k : nat).

(** include/mcu/register.hpp:532-552: interrupt enable bit, memory, and the registers
    holding the bytes read. *)
Record cpu : Type := Cpu { ie : bool; mem : Z -> Z; got : nat -> Z }.

(** include/mcu/register.hpp:532-552: execution of one instruction. *)
Definition exec (i : instr) (s : cpu) : cpu :=
  match i with
  | Cli => Cpu false (mem s) (got s)
  | Sei => Cpu true (mem s) (got s)
  | Put a v => Cpu (ie s) (upd (mem s) a v) (got s)
  | Get a k => Cpu (ie s) (mem s) (fun j => if Nat.eqb j k then mem s a else got s j)
  end.

(** include/mcu/register.hpp:528-529: an interrupt routine as the interrupted program
    sees it, an arbitrary change of memory.  It runs to its end: the processor switches
    interrupts off on entry and on again on return, and saves the registers. *)
Definition routine : Type := (Z -> Z) -> (Z -> Z).

(** include/mcu/register.hpp:528-552: an execution of a program from a state to another
    one, in which the routines listed ran, in this order, between any instructions,
    also before the first and after the last one, but only with interrupts on.
    Simplified: the instruction after [sei] can also be preceded by a routine. *)
Inductive runs : list instr -> cpu -> list routine -> cpu -> Prop :=
| runs_end : forall s, runs [] s [] s
| runs_instr : forall i p s rs s', runs p (exec i s) rs s' -> runs (i :: p) s rs s'
| runs_interrupt : forall p s r rs s',
    ie s = true -> runs p (Cpu true (r (mem s)) (got s)) rs s' -> runs p s (r :: rs) s'.

(** include/mcu/register.hpp:550, 551: [dest = value] for a [dest] of several bytes:
    one store for each byte, in an order [ord] that the compiler chooses. *)
Definition assign (ord : list nat) (a v : Z) : list instr :=
  map (fun k => Put (a + Z.of_nat k) (v / 2 ^ (8 * Z.of_nat k) mod 2 ^ 8)) ord.

(** include/mcu/register.hpp:543, 544: reading [value], one load for each byte. *)
Definition fetch (ord : list nat) (a : Z) : list instr :=
  map (fun k => Get (a + Z.of_nat k) k) ord.

(** include/mcu/register.hpp:532-536: [scoped_interrupt_guard], constructor, the rest of
    the full expression, destructor. *)
Definition guarded (p : list instr) : list instr := Cli :: p ++ [Sei].

(** include/mcu/register.hpp:547-552: [atomic( dest, value )] for a [dest] of [size]
    bytes. *)
Definition atomic_write (size : nat) (ord : list nat) (a v : Z) : list instr :=
  if Nat.ltb 1 size then guarded (assign ord a v) else assign ord a v.

(** include/mcu/register.hpp:540-545: [atomic( value )]; the result is made before the
    temporary guard is destroyed at the end of the full expression. *)
Definition atomic_read (size : nat) (ord : list nat) (a : Z) : list instr :=
  if Nat.ltb 1 size then guarded (fetch ord a) else fetch ord a.

(** ** Scopes *)

(** include/mcu/register.hpp:534, include/mcu/atmega328.hpp:55: [sei()], avr-libc:
    bit 7 of SREG is set; an instruction, not a bus access. *)
Definition sei (m : machine) : machine :=
  Machine (upd (byte m) 0x5f (Z.lor (byte m 0x5f) 0x80)) (bus m).

(** include/mcu/register.hpp:535: [cli()], bit 7 of SREG is cleared. *)
Definition cli (m : machine) : machine :=
  Machine (upd (byte m) 0x5f (Z.land (byte m 0x5f) 0x7f)) (bus m).

(** include/mcu/register.hpp:532-536, include/mcu/atmega328.hpp:79-93: code that uses
    the two scope guards: arbitrary steps, sequences, decisions, repetition, returns
    and the guards as local variables of a scope. *)
Inductive code : Type :=
| Step (f : machine -> machine)
| Then (p q : code)
| If (c : machine -> bool) (p q : code)
| Repeat (n : nat) (p : code)
| Return
| InterruptGuard (p : code)
| ScopedSreg (p : code).

(** include/mcu/register.hpp:532-536, include/mcu/atmega328.hpp:87-93: the effect of
    code, and whether it ended with a return; [None] if it does not compile.  Leaving a
    scope, also with a return, runs the destructor. *)
Fixpoint run (p : code) (m : machine) : option (machine * bool) :=
  match p with
  | Step f => Some (f m, false)
  | Then p q =>
    match run p m with
    | Some (m1, false) => run q m1
    | other => other
    end
  | If c p q => if c m then run p m else run q m
  | Repeat n p =>
    Nat.iter n (fun k m => match run p m with
                           | Some (m1, false) => k m1
                           | other => other
                           end) (fun m => Some (m, false)) m
  | Return => Some (m, true)
  | InterruptGuard p =>
    match run p (cli m) with
    | Some (m1, r) => Some (sei m1, r)
    | None => None
    end
  | ScopedSreg p =>
    match field_read sreg_whole m with
    | Some (cache, m0) =>
      match run p m0 with
      | Some (m1, r) =>
        match field_write atmega sreg_whole cache m1 with
        | Some m2 => Some (m2, r)
        | None => None
        end
      | None => None
      end
    | None => None
    end
  end.
