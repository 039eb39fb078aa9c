(** * Model of include/core/range.hpp for floating-point element types, and the ranges of
    the desktop programs *)

From Coq Require Import ZArith List Bool.
From Flocq Require Import Core IEEE754.BinarySingleNaN.
From Verif Require Import Base Range Ieee.
Import ListNotations.
Local Open Scope Z_scope.

Section RangeFloat.

Context (prec emax : Z) {Hprec : Prec_gt_0 prec} {Hmax : Prec_lt_emax prec emax}.

(** The element type [T] of range.hpp:28-192: [float] or [double]. *)
Local Notation flt := (binary_float prec emax).

(** range.hpp:52-55: [++current]; the iterator is its member [current]. *)
Definition fi_incr (current : flt) : outcome flt :=
  Ok (Bplus mode_NE current (ieee_of_Z prec emax 1)).

(** range.hpp:62-70: [!( current == other.current )]. *)
Definition fi_ne (i j : flt) : bool := negb (Beqb i j).

(** The loop over [range( first, last )] (range.hpp:78-99, 172-176, 198-204). *)
Definition float_loop (first last : flt) (fuel : nat) : list flt * loop_status :=
  for_range fi_ne (fun i => i) fi_incr fuel first last.

(** range.hpp:106-113 and 135-140, the stepping iterator. *)
Record fstep_iter :=
  { fs_current : flt; fs_factor : flt; fs_first : flt; fs_step : flt; fs_infinite : bool }.

(** range.hpp:108-113; [factor] has initialiser 0 (line 136). *)
Definition fstep_iter_of (current step : flt) (infinite : bool) : fstep_iter :=
  {| fs_current := current; fs_factor := ieee_of_Z prec emax 0; fs_first := current; fs_step := step;
     fs_infinite := infinite |}.

(** range.hpp:115-118: [current = first + ++factor * step]. *)
Definition fs_incr (i : fstep_iter) : outcome fstep_iter :=
  let factor := Bplus mode_NE (fs_factor i) (ieee_of_Z prec emax 1) in
  Ok {| fs_current := Bplus mode_NE (fs_first i) (Bmult mode_NE factor (fs_step i)); fs_factor := factor;
        fs_first := fs_first i; fs_step := fs_step i; fs_infinite := fs_infinite i |}.

(** range.hpp:125-133: [!( !infinite && current >= other.current )]. *)
Definition fs_ne (i j : fstep_iter) : bool :=
  negb (negb (fs_infinite i) && Bleb (fs_current j) (fs_current i)).

(** The loop over [range( first, last, step )] (range.hpp:142-148, 180-184, 208-214);
    [infinite] is the fourth argument of the constructor (142). *)
Definition float_loop_step (first last step : flt) (infinite : bool) (fuel : nat) : list flt * loop_status :=
  for_range fs_ne fs_current fs_incr fuel (fstep_iter_of first step infinite) (fstep_iter_of last step infinite).

(** The loop over [range( first )] or [range( first ).step( step )] (range.hpp:157-168,
    188-192, 218-222). *)
Definition float_loop_infinite (first step : flt) (fuel : nat) : list flt * loop_status :=
  float_loop_step first first step true fuel.

End RangeFloat.

(** example/desktop/biquad.e.cpp:72-78, biquad-cascade.e.cpp:79-98, chebyshev-design.e.cpp:238-259,
    onepole.e.cpp:72-78 (Nsamp = 201) and biquad-design.e.cpp:92-172, onepole-design.e.cpp:84-100
    (Nsamp = 101): the loop over [range( Flo, Fhi + Fstep, Fstep )]. *)
Definition frequencies (Nsamp : Z) (fuel : nat) : list double * loop_status :=
  let Flo : double := ieee_of_Z 53 1024 0 in
  let Fhi : double := Bdiv mode_NE (ieee_of_Z 53 1024 1) (ieee_of_Z 53 1024 2) in
  let Fstep := Bdiv mode_NE (Bminus mode_NE Fhi Flo) (ieee_of_Z 53 1024 (Nsamp - 1)) in
  float_loop_step 53 1024 Flo (Bplus mode_NE Fhi Fstep) Fstep false fuel.

(** biquad-design.e.cpp:92-95, 148 and 156: the loop over
    [range( Flo + Fstep, Fhi, Fstep )]. *)
Definition inner_frequencies (Nsamp : Z) (fuel : nat) : list double * loop_status :=
  let Flo : double := ieee_of_Z 53 1024 0 in
  let Fhi : double := Bdiv mode_NE (ieee_of_Z 53 1024 1) (ieee_of_Z 53 1024 2) in
  let Fstep := Bdiv mode_NE (Bminus mode_NE Fhi Flo) (ieee_of_Z 53 1024 (Nsamp - 1)) in
  float_loop_step 53 1024 (Bplus mode_NE Flo Fstep) Fhi Fstep false fuel.
