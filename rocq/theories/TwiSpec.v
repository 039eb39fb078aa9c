(** What happens on the two wires, as the data sheet describes it. *)

From Coq Require Import ZArith List Bool.
From Verif Require Import Twi.
Import ListNotations.
Open Scope Z_scope.

(** A start condition, a byte or a stop condition. *)
Inductive on_bus : Type := StartCondition | Byte (v : Z) | StopCondition.

(** Writing 1 to bit 7 of register 0xbc with bit 2 (enable) set makes the interface act:
    with bit 5 it sends a start condition, otherwise with bit 4 a stop condition,
    otherwise the byte last written to register 0xbb. *)
Fixpoint bus_events (byte_to_send : Z) (h : list twi_access) : list on_bus :=
  match h with
  | [] => []
  | TwiWrite a v :: h' =>
    if a =? 0xbb then bus_events v h'
    else if (a =? 0xbc) && Z.testbit v 7 && Z.testbit v 2 then
      (if Z.testbit v 5 then StartCondition
       else if Z.testbit v 4 then StopCondition
       else Byte byte_to_send) :: bus_events byte_to_send h'
    else bus_events byte_to_send h'
  | TwiRead _ _ :: h' => bus_events byte_to_send h'
  end.

(** The status codes the program read: register 0xb9 without its lowest three bits. *)
Fixpoint statuses (h : list twi_access) : list Z :=
  match h with
  | [] => []
  | TwiRead a v :: h' => if a =? 0xb9 then 8 * (v / 8) :: statuses h' else statuses h'
  | TwiWrite _ _ :: h' => statuses h'
  end.
