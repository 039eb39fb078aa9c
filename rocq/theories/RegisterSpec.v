(** What register accesses are to do, in terms of the bits of the memory, stated
    without the functions of the model. *)

From Coq Require Import ZArith List Bool.
From Verif Require Import Register.
Import ListNotations.
Open Scope Z_scope.

(** The number of bits of a data type. *)
Definition nbits (w : width) : Z := match w with W8 => 8 | W16 => 16 end.

(** The addresses of the bytes of a register. *)
Definition part_of (w : width) (a c : Z) : Prop :=
  c = a \/ (w = W16 /\ c = a + 1).

(** The content of a register as a number. *)
Definition content (w : width) (a : Z) (mem : Z -> Z) : Z :=
  match w with W8 => mem a | W16 => mem a + 256 * mem (a + 1) end.

(** Every byte of the memory is one. *)
Definition bytes_ok (mem : Z -> Z) : Prop := forall c, 0 <= mem c < 256.

(** A register whose bytes hold what is written to them. *)
Definition plain (hw : hardware) (w : width) (a : Z) : Prop :=
  forall b, part_of w a b ->
  forall v mem c, hw b v mem c = if c =? b then v else mem c.

(** The bit positions of a field are bits of the register. *)
Definition valid_field (f : field) : Prop :=
  0 <= f_lo f <= f_hi f /\ f_hi f < nbits (f_w f).

(** Bit [i] belongs to the field. *)
Definition in_field (f : field) (i : Z) : Prop := f_lo f <= i <= f_hi f.

(** The number of bits of a field. *)
Definition field_bits (f : field) : Z := f_hi f - f_lo f + 1.

(** The number a field holds. *)
Definition field_value (f : field) (mem : Z -> Z) : Z :=
  content (f_w f) (f_addr f) mem / 2 ^ f_lo f mod 2 ^ field_bits f.

(** Two memories differ only in the given register. *)
Definition same_elsewhere (w : width) (a : Z) (mem mem' : Z -> Z) : Prop :=
  forall c, ~ part_of w a c -> mem' c = mem c.

(** Two fields have no bit in common. *)
Definition disjoint (f g : field) : Prop := forall i, ~ (in_field f i /\ in_field g i).

(** Every two fields of the list have no bit in common. *)
Definition all_disjoint (fs : list field) : Prop := ForallOrdPairs disjoint fs.

(** The fields are read-write fields of the register of width [w] at [a]. *)
Definition fields_of (w : width) (a : Z) (fvs : list (field * Z)) : Prop :=
  Forall (fun fv => f_w (fst fv) = w /\ f_addr (fst fv) = a /\ f_io (fst fv) = RW
                    /\ valid_field (fst fv)) fvs.

(** Every value fits its field. *)
Definition values_fit (fvs : list (field * Z)) : Prop :=
  Forall (fun fv => 0 <= snd fv < 2 ^ field_bits (fst fv)) fvs.

(** Bit [i] of [b] is what the disjunction of the values, each moved to the place of
    its field, has there. *)
Definition joined_bit (fvs : list (field * Z)) (i : Z) : Prop :=
  Exists (fun fv => f_lo (fst fv) <= i /\ Z.testbit (snd fv) (i - f_lo (fst fv)) = true)
         fvs.

(** Bit [i] belongs to one of the fields. *)
Definition covered (fvs : list (field * Z)) (i : Z) : Prop :=
  Exists (fun fv => in_field (fst fv) i) fvs.
