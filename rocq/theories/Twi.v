(** The two-wire interface: include/mcu/atmega328.hpp:1967-2096. *)

From Coq Require Import ZArith List Bool.
From Verif Require Import Base Register AtmegaRegs Atmega.
Import ListNotations.
Open Scope Z_scope.

(** include/mcu/atmega328.hpp:1733-1738: addresses of TWBR, TWSR, TWDR and TWCR; the
    code below uses the names avr-libc gives them. *)
Definition TWBR : Z := 0xb8.
(** include/mcu/atmega328.hpp:1734. *)
Definition TWSR : Z := 0xb9.
(** include/mcu/atmega328.hpp:1736. *)
Definition TWDR : Z := 0xbb.
(** include/mcu/atmega328.hpp:1737. *)
Definition TWCR : Z := 0xbc.

(** include/mcu/atmega328.hpp:1773: [TWINT], bit number in TWCR. *)
Definition TWINT : Z := 7.
(** include/mcu/atmega328.hpp:1775: [TWSTA]. *)
Definition TWSTA : Z := 5.
(** include/mcu/atmega328.hpp:1776: [TWSTO]. *)
Definition TWSTO : Z := 4.
(** include/mcu/atmega328.hpp:1778: [TWEN]. *)
Definition TWEN : Z := 2.

(** include/mcu/atmega328.hpp:2028-2066: an access of a register of the interface, with
    the value read or written. *)
Inductive twi_access : Type := TwiRead (address value : Z) | TwiWrite (address value : Z).

(** include/mcu/atmega328.hpp:2028-2066: what the interface answers when a register is
    read: it may depend on everything that has been read and written so far, oldest
    first.  This includes the progress of time: the number of times the flag was
    read. *)
Definition device : Type := list twi_access -> Z -> Z.

(** include/mcu/atmega328.hpp:2033-2042: [wait], reading the flag until it is set; [None]
    if it has not been set after [fuel] reads. *)
Fixpoint wait (fuel : nat) (dev : device) (h : list twi_access) : option (list twi_access) :=
  match fuel with
  | O => None
  | S fuel' =>
    let v := dev h TWCR in
    let h1 := h ++ [TwiRead TWCR v] in
    if Z.land v (Z.shiftl 1 TWINT) =? 0 then wait fuel' dev h1 else Some h1
  end.

(** include/mcu/atmega328.hpp:2028-2031: [status]. *)
Definition status (dev : device) (h : list twi_access) : Z * list twi_access :=
  let v := dev h TWSR in (Z.land v 0xf8, h ++ [TwiRead TWSR v]).

(** include/mcu/atmega328.hpp:2044-2047: [expect_status], true if the status is another
    one. *)
Definition expect_status (fuel : nat) (dev : device) (s : Z) (h : list twi_access)
  : option (bool * list twi_access) :=
  match wait fuel dev h with
  | Some h1 => let (st, h2) := status dev h1 in Some (negb (st =? s), h2)
  | None => None
  end.

(** include/mcu/atmega328.hpp:2049-2052: [start]. *)
Definition start (h : list twi_access) : list twi_access :=
  h ++ [TwiWrite TWCR (Z.lor (Z.lor (Z.shiftl 1 TWINT) (Z.shiftl 1 TWSTA)) (Z.shiftl 1 TWEN))].

(** include/mcu/atmega328.hpp:2054-2057: [stop]. *)
Definition stop (h : list twi_access) : list twi_access :=
  h ++ [TwiWrite TWCR (Z.lor (Z.lor (Z.shiftl 1 TWINT) (Z.shiftl 1 TWSTO)) (Z.shiftl 1 TWEN))].

(** include/mcu/atmega328.hpp:2062-2066: [data]. *)
Definition data (b : Z) (h : list twi_access) : list twi_access :=
  h ++ [TwiWrite TWDR b; TwiWrite TWCR (Z.lor (Z.shiftl 1 TWINT) (Z.shiftl 1 TWEN))].

(** include/mcu/atmega328.hpp:2070-2090: [write], true if there was an error; the second
    argument is not used.  [None]: still waiting after [fuel] reads of a flag. *)
Definition write (fuel : nat) (dev : device) (address b : Z) (h : list twi_access)
  : option (bool * list twi_access) :=
  match expect_status fuel dev 0x08 (start h) with
  | Some (false, h1) =>
    match expect_status fuel dev 0x18 (data address h1) with
    | Some (false, h2) =>
      match expect_status fuel dev 0x28 (data address h2) with
      | Some (false, h3) => Some (false, stop h3)
      | other => other
      end
    | other => other
    end
  | other => other
  end.

(** include/mcu/atmega328.hpp:2013-2026: [init], with bit rate [br] and prescaler [ps],
    the latter not used. *)
Definition twi_init (hw : hardware) (br ps : Z) : machine -> option machine :=
  seq (field_set hw (gpio_inp PortC 4))
  (seq (field_set hw (gpio_inp PortC 5))
  (seq (fun m => Some (store hw W8 TWSR 0x00 m))
  (seq (fun m => Some (store hw W8 TWBR br m))
       (fun m => Some (store hw W8 TWCR (Z.shiftl 1 TWEN) m))))).

(** include/mcu/atmega328.hpp:1991, 1953-1956, 1814-1817: [detail_x::start], the functions
    that use the register fields: [set( flag ), set( start )]. *)
Definition x_start (hw : hardware) : machine -> option machine :=
  lazy_statement hw [(twcr_twint, 1); (twcr_twsta, 1)].

(** include/mcu/atmega328.hpp:1995, 1854-1857, 1958-1961: [detail_x::data]. *)
Definition x_data (hw : hardware) (b : Z) : machine -> option machine :=
  seq (field_write hw twi_twdr b) (field_clear hw twcr_twintc).
