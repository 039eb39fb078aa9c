(** How the ATmega328 answers register accesses, in terms of the bits of the memory,
    stated without the functions of the model. *)

From Coq Require Import ZArith List Bool.
From Verif Require Import Register RegisterSpec.
Import ListNotations.
Open Scope Z_scope.

(** The byte at [a] is a register in which the bits of [mask] are flags: writing a one
    clears a flag, writing a zero leaves it alone; the other bits hold what is written
    to them. *)
Definition flag_register (hw : hardware) (a mask : Z) : Prop :=
  forall v mem, 0 <= v < 256 -> bytes_ok mem ->
  (forall c, c <> a -> hw a v mem c = mem c)
  /\ 0 <= hw a v mem a < 256
  /\ forall i, 0 <= i < 8 ->
     Z.testbit (hw a v mem a) i
     = if Z.testbit mask i then Z.testbit (mem a) i && negb (Z.testbit v i)
       else Z.testbit v i.

(** Only the byte at [a] differs, and there the bits are those of [new]. *)
Definition byte_becomes (a : Z) (mem mem' : Z -> Z) (new : Z -> bool) : Prop :=
  (forall c, c <> a -> mem' c = mem c)
  /\ 0 <= mem' a < 256
  /\ forall i, 0 <= i < 8 -> Z.testbit (mem' a) i = new i.

(** The memories agree but for the bytes at the given addresses. *)
Definition same_but (l : list Z) (mem mem' : Z -> Z) : Prop :=
  forall c, ~ In c l -> mem' c = mem c.
