(** What the properties of guarded accesses speak about. *)

From Coq Require Import ZArith List.
Import ListNotations.
Open Scope Z_scope.

(** Little-endian number of [n] bytes at address [a]. *)
Fixpoint number_at (n : nat) (a : Z) (m : Z -> Z) : Z :=
  match n with
  | O => 0
  | S n' => m a + 2 ^ 8 * number_at n' (a + 1) m
  end.

(** Effect of routines run one after the other, first one first. *)
Definition one_after_other {A} (rs : list (A -> A)) (m : A) : A :=
  fold_left (fun m r => r m) rs m.

(** Whether the interrupt enable bit of a status register is set. *)
Definition interrupts_on (sreg : Z) : Prop := Z.testbit sreg 7 = true.
