(** Memory-mapped registers of the microcontroller:
    include/mcu/register.hpp. *)

From Coq Require Import ZArith List Bool.
From Verif Require Import Base.
Import ListNotations.
Open Scope Z_scope.

(** include/mcu/register.hpp:503-526: the two data types registers are accessed
    with, [uint8_t] and [uint16_t]. *)
Inductive width : Type := W8 | W16.

(** include/mcu/register.hpp:36-42: [bits], number of bits in the type. *)
Definition bits (w : width) : Z := match w with W8 => 8 | W16 => 16 end.

(** include/mcu/register.hpp:50, 174, 185, 196, 207, 244, 249: [static_cast<T>] to
    the unsigned type of the given width, also the implicit conversion on
    assignment to a [T]. *)
Definition trunc (w : width) (v : Z) : Z := v mod 2 ^ bits w.

(** include/mcu/register.hpp:50: [1 << b] in the 16-bit [int] of the AVR; the bit
    shifted into the sign position gives the negative number with that bit
    pattern.  Simplified: shifting by 16 or more, which is undefined, is given the
    value of the wrapped pattern; no field of a valid register asks for it. *)
Definition int_bit (b : Z) : Z :=
  let r := 2 ^ b mod 2 ^ 16 in if r <? 2 ^ 15 then r else r - 2 ^ 16.

(** include/mcu/register.hpp:45-51: [bitmask], the disjunction of the bits
    converted to the data type. *)
Definition bitmask (w : width) (bs : list Z) : Z :=
  trunc w (fold_right Z.lor 0 (map int_bit bs)).

(** include/mcu/register.hpp:53-59: [bitmask_n]. *)
Definition bitmask_n (w : width) (bs : list Z) : Z := trunc w (Z.lnot (bitmask w bs)).

(** include/mcu/register.hpp:66-70: the loop of [rngmask], [n] iterations from
    index [i] on. *)
Fixpoint rngmask_loop (w : width) (i : Z) (n : nat) (result : Z) : Z :=
  match n with
  | O => result
  | S n' => rngmask_loop w (i + 1) n' (trunc w (Z.lor result (bitmask w [i])))
  end.

(** include/mcu/register.hpp:61-72: [rngmask].  Simplified: for [hi = 255] the
    8-bit index would wrap around and the loop would not stop; no register has
    such a bit. *)
Definition rngmask (w : width) (hi lo : Z) : Z :=
  rngmask_loop w lo (Z.to_nat (hi - lo + 1)) 0.

(** include/mcu/register.hpp:74-80: [rngmask_n]. *)
Definition rngmask_n (w : width) (hi lo : Z) : Z := trunc w (Z.lnot (rngmask w hi lo)).

(** include/mcu/register.hpp:82-88: [shl]. *)
Definition shl (w : width) (value n : Z) : Z := trunc w (Z.shiftl value n).

(** include/mcu/register.hpp:90-96: [shr]. *)
Definition shr (w : width) (value n : Z) : Z := trunc w (Z.shiftr value n).

(** include/mcu/register.hpp:98-104: an access through the volatile pointer
    [to_pointer] gives; volatile accesses are observable, so they are recorded. *)
Inductive access : Type :=
| Rd (w : width) (address : Z)
| Wr (w : width) (address value : Z).

(** include/mcu/register.hpp:98-104: the memory the pointers point into, one byte
    per address, and the accesses made so far, oldest first. *)
Record machine : Type := Machine { byte : Z -> Z; bus : list access }.

(** include/mcu/register.hpp:106-118: what a write of a byte to an address does to
    the memory.  Most registers store what is written; a bit of the kind the source
    calls [rc_w1] is cleared by writing a one to it and keeps its value otherwise. *)
Definition hardware : Type := Z -> Z -> (Z -> Z) -> (Z -> Z).

(** include/mcu/register.hpp:98-104: memory with one byte changed. *)
Definition upd (f : Z -> Z) (a v : Z) : Z -> Z := fun b => if b =? a then v else f b.

(** include/mcu/register.hpp:244, 249: reading through the volatile pointer; a
    16-bit register has its low byte at the lower address. *)
Definition load (w : width) (a : Z) (m : machine) : Z * machine :=
  (match w with
   | W8 => byte m a
   | W16 => byte m a + 2 ^ 8 * byte m (a + 1)
   end,
   Machine (byte m) (bus m ++ [Rd w a])).

(** include/mcu/register.hpp:262, 267: writing through the volatile pointer.  The
    two bytes of a 16-bit register are written high byte first, as the AVR
    requires. *)
Definition store (hw : hardware) (w : width) (a v : Z) (m : machine) : machine :=
  Machine
    (match w with
     | W8 => hw a v (byte m)
     | W16 => hw a (v mod 2 ^ 8) (hw (a + 1) (v / 2 ^ 8) (byte m))
     end)
    (bus m ++ [Wr w a v]).

(** include/mcu/register.hpp:167-176: [getbit_t::get]. *)
Definition get_bit (w : width) (a b : Z) (m : machine) : Z * machine :=
  let (v, m1) := load w a m in
  (if Z.land v (bitmask w [b]) =? 0 then 0 else 1, m1).

(** include/mcu/register.hpp:178-187: [setbit_t::set]. *)
Definition set_bit (hw : hardware) (w : width) (a b : Z) (m : machine) : machine :=
  let (v, m1) := load w a m in
  store hw w a (trunc w (Z.lor v (bitmask w [b]))) m1.

(** include/mcu/register.hpp:189-198: [togglebit_t::toggle]. *)
Definition toggle_bit (hw : hardware) (w : width) (a b : Z) (m : machine) : machine :=
  let (v, m1) := load w a m in
  store hw w a (trunc w (Z.lxor v (bitmask w [b]))) m1.

(** include/mcu/register.hpp:200-209: [clearbit_w1_t::clear]. *)
Definition clear_bit_w1 (hw : hardware) (w : width) (a b : Z) (m : machine) : machine :=
  let (v, m1) := load w a m in
  store hw w a (trunc w (Z.lor v (bitmask w [b]))) m1.

(** include/mcu/register.hpp:211-220: [clearbit_w0_t::clear]. *)
Definition clear_bit_w0 (hw : hardware) (w : width) (a b : Z) (m : machine) : machine :=
  let (v, m1) := load w a m in
  store hw w a (trunc w (Z.land v (bitmask_n w [b]))) m1.

(** include/mcu/register.hpp:222-231: [trigger_t::trigger]. *)
Definition trigger_bit (hw : hardware) (w : width) (a b : Z) (m : machine) : machine :=
  let (v, m1) := load w a m in
  store hw w a (trunc w (Z.lor v (bitmask w [b]))) m1.

(** include/mcu/register.hpp:106-118: [Mutability], naming also the io policies of
    lines 235-317. *)
Inductive policy : Type := RW | R | W | RC_W1 | RC_W0 | RC_R | RS | RT_W.

(** include/mcu/register.hpp:247-250: [r_t::read] with mask. *)
Definition read_mask (w : width) (a mask : Z) (m : machine) : Z * machine :=
  let (v, m1) := load w a m in (trunc w (Z.land v mask), m1).

(** include/mcu/register.hpp:265-268: [w_t::write] with mask. *)
Definition write_mask (hw : hardware) (w : width) (a mask value : Z) (m : machine)
  : machine :=
  let (v, m1) := load w a m in
  store hw w a (trunc w (Z.lor (Z.land v (Z.lnot mask)) (Z.land value mask))) m1.

(** include/mcu/register.hpp:237, 274, 282, 290, 298, 306, 314: the policies with a
    member [get]. *)
Definition has_get (p : policy) : bool := match p with W => false | _ => true end.

(** include/mcu/register.hpp:237-251, 274: the policies with a member [read]. *)
Definition has_read (p : policy) : bool :=
  match p with R | RW => true | _ => false end.

(** include/mcu/register.hpp:256-269, 274: the policies with a member [write]. *)
Definition has_write (p : policy) : bool :=
  match p with W | RW => true | _ => false end.

(** include/mcu/register.hpp:256, 274, 306: the policies with a member [set]. *)
Definition has_set (p : policy) : bool :=
  match p with W | RW | RS => true | _ => false end.

(** include/mcu/register.hpp:256, 274, 282, 290: the member [clear] of a policy, if
    it has one. *)
Definition policy_clear (p : policy)
  : option (hardware -> width -> Z -> Z -> machine -> machine) :=
  match p with
  | W | RW | RC_W0 => Some clear_bit_w0
  | RC_W1 => Some clear_bit_w1
  | _ => None
  end.

(** include/mcu/register.hpp:274: the policies with a member [toggle]. *)
Definition has_toggle (p : policy) : bool := match p with RW => true | _ => false end.

(** include/mcu/register.hpp:314: the policies with a member [trigger]. *)
Definition has_trigger (p : policy) : bool := match p with RT_W => true | _ => false end.

(** include/mcu/register.hpp:382-387: the template arguments of [bitfield_t]. *)
Record field : Type :=
  Field { f_w : width; f_io : policy; f_addr : Z; f_hi : Z; f_lo : Z }.

(** include/mcu/register.hpp:503-506: [bitfield8_t]; with one bit index [lo = hi]. *)
Definition bitfield8 (io : policy) (a hi lo : Z) : field := Field W8 io a hi lo.

(** include/mcu/register.hpp:505: [bitfield8_t] with the default for [lo]. *)
Definition bit8 (io : policy) (a b : Z) : field := Field W8 io a b b.

(** include/mcu/register.hpp:508-511: [bitfield16_t]. *)
Definition bitfield16 (io : policy) (a hi lo : Z) : field := Field W16 io a hi lo.

(** include/mcu/register.hpp:513-516: [register8_t]. *)
Definition register8 (io : policy) (a : Z) : field := Field W8 io a 7 0.

(** include/mcu/register.hpp:518-521: [register16_t]. *)
Definition register16 (io : policy) (a : Z) : field := Field W16 io a 15 0.

(** include/mcu/register.hpp:487-490: [is_single_bit]. *)
Definition is_single_bit (f : field) : bool := f_hi f =? f_lo f.

(** include/mcu/register.hpp:492-495: [is_all_bits]. *)
Definition is_all_bits (f : field) : bool := f_hi f - f_lo f + 1 =? bits (f_w f).

(** include/mcu/register.hpp:401-419: [bitfield_t::read].  [None] stands for a call
    that does not compile, because the policy lacks the member used. *)
Definition field_read (f : field) (m : machine) : option (Z * machine) :=
  if is_single_bit f then
    if has_get (f_io f) then Some (get_bit (f_w f) (f_addr f) (f_hi f) m) else None
  else if negb (has_read (f_io f)) then None
  else if is_all_bits f then Some (load (f_w f) (f_addr f) m)
  else
    let (v, m1) := read_mask (f_w f) (f_addr f) (rngmask (f_w f) (f_hi f) (f_lo f)) m in
    Some (shr (f_w f) v (f_lo f), m1).

(** include/mcu/register.hpp:450-457: [bitfield_t::set]; [None]: does not compile. *)
Definition field_set (hw : hardware) (f : field) (m : machine) : option machine :=
  if has_set (f_io f) then Some (set_bit hw (f_w f) (f_addr f) (f_hi f) m) else None.

(** include/mcu/register.hpp:459-466: [bitfield_t::clear]; [None]: does not
    compile. *)
Definition field_clear (hw : hardware) (f : field) (m : machine) : option machine :=
  match policy_clear (f_io f) with
  | Some clear => Some (clear hw (f_w f) (f_addr f) (f_hi f) m)
  | None => None
  end.

(** include/mcu/register.hpp:468-475: [bitfield_t::toggle]; [None]: does not
    compile. *)
Definition field_toggle (hw : hardware) (f : field) (m : machine) : option machine :=
  if has_toggle (f_io f) then Some (toggle_bit hw (f_w f) (f_addr f) (f_hi f) m)
  else None.

(** include/mcu/register.hpp:477-484: [bitfield_t::trigger]; [None]: does not
    compile. *)
Definition field_trigger (hw : hardware) (f : field) (m : machine) : option machine :=
  if has_trigger (f_io f) then Some (trigger_bit hw (f_w f) (f_addr f) (f_hi f) m)
  else None.

(** include/mcu/register.hpp:421-441: [bitfield_t::write]; the argument is
    converted to the data type by the call.  [None]: does not compile; both branches
    of the single-bit case are compiled. *)
Definition field_write (hw : hardware) (f : field) (value : Z) (m : machine)
  : option machine :=
  let value := trunc (f_w f) value in
  if is_single_bit f then
    match has_set (f_io f), policy_clear (f_io f) with
    | true, Some _ => if value =? 0 then field_clear hw f m else field_set hw f m
    | _, _ => None
    end
  else if negb (has_write (f_io f)) then None
  else if is_all_bits f then Some (store hw (f_w f) (f_addr f) value m)
  else Some (write_mask hw (f_w f) (f_addr f) (rngmask (f_w f) (f_hi f) (f_lo f))
               (shl (f_w f) value (f_lo f)) m).

(** include/mcu/register.hpp:319-325: [write_proxy], its template arguments and
    its members.  The set mask, zero everywhere and never used, is left out. *)
Record proxy : Type :=
  Proxy { p_w : width; p_io : policy; p_addr : Z; p_mask : Z; p_value : Z;
          p_apply : bool }.

(** include/mcu/register.hpp:327-335: the destructor of [write_proxy]. *)
Definition destroy (hw : hardware) (p : proxy) (m : machine) : machine :=
  if p_apply p then write_mask hw (p_w p) (p_addr p) (p_mask p) (p_value p) m else m.

(** include/mcu/register.hpp:337-342: [write_proxy::discard]. *)
Definition discard (p : proxy) : proxy :=
  Proxy (p_w p) (p_io p) (p_addr p) (p_mask p) (p_value p) false.

(** include/mcu/register.hpp:443-448: [bitfield_t::write_lazy]; [None]: does not
    compile, as the destructor of the proxy needs [io::write]. *)
Definition write_lazy (f : field) (value : Z) : option proxy :=
  if has_write (f_io f) then
    Some (Proxy (f_w f) (f_io f) (f_addr f) (rngmask (f_w f) (f_hi f) (f_lo f))
            (shl (f_w f) (trunc (f_w f) value) (f_lo f)) true)
  else None.

(** include/mcu/register.hpp:366-368: the static assertions of the comma operator;
    equality of the data types and of the io policies. *)
Definition same_target (a b : proxy) : bool :=
  (p_addr a =? p_addr b)
  && match p_w a, p_w b with W8, W8 | W16, W16 => true | _, _ => false end
  && match p_io a, p_io b with
     | RW, RW | R, R | W, W | RC_W1, RC_W1 | RC_W0, RC_W0 | RC_R, RC_R | RS, RS
     | RT_W, RT_W => true
     | _, _ => false
     end.

(** include/mcu/register.hpp:345-380: the comma operator.  The parameters are
    destroyed when it returns, in the reverse order of their construction.  [None]:
    does not compile. *)
Definition comma (hw : hardware) (a b : proxy) (m : machine)
  : option (proxy * machine) :=
  if same_target a b then
    let a := discard a in
    let b := discard b in
    let r := Proxy (p_w a) (p_io a) (p_addr a) (Z.lor (p_mask a) (p_mask b))
               (trunc (p_w a) (Z.lor (p_value a) (p_value b))) true in
    Some (r, destroy hw a (destroy hw b m))
  else None.

(** include/mcu/register.hpp:345-380: lazy writes joined with commas, grouped from
    the left; the proxy that results is destroyed at the end of the statement. *)
Fixpoint chain (hw : hardware) (p : proxy) (ps : list proxy) (m : machine)
  : option machine :=
  match ps with
  | [] => Some (destroy hw p m)
  | q :: ps' =>
    match comma hw p q m with
    | Some (r, m1) => chain hw r ps' m1
    | None => None
    end
  end.

(** include/mcu/register.hpp:443-448: lazily writing several fields, each with a
    value, in one statement. *)
Fixpoint lazies (fvs : list (field * Z)) : option (list proxy) :=
  match fvs with
  | [] => Some []
  | (f, v) :: fvs' =>
    match write_lazy f v, lazies fvs' with
    | Some p, Some ps => Some (p :: ps)
    | _, _ => None
    end
  end.

(** include/mcu/register.hpp:345-380, 443-448: the statement
    [f1::write_lazy(v1), f2::write_lazy(v2), ...;]. *)
Definition lazy_statement (hw : hardware) (fvs : list (field * Z)) (m : machine)
  : option machine :=
  match lazies fvs with
  | Some (p :: ps) => chain hw p ps m
  | _ => None
  end.

(** include/mcu/register.hpp:421-441: the statements
    [f1::write(v1); f2::write(v2); ...]. *)
Fixpoint write_statements (hw : hardware) (fvs : list (field * Z)) (m : machine)
  : option machine :=
  match fvs with
  | [] => Some m
  | (f, v) :: fvs' =>
    match field_write hw f v m with
    | Some m1 => write_statements hw fvs' m1
    | None => None
    end
  end.
