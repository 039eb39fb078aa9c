(** * Model of include/core/range.hpp for integer element types *)

From Coq Require Import ZArith List Bool.
From Verif Require Import Base Scalars.
Import ListNotations.
Local Open Scope Z_scope.

(** A built-in integer type other than [bool] (language; the element type [T] of
    range.hpp:28-192): its width, whether it is signed, and the width of [int] on the
    platform (32 on the desktop, 16 on AVR). *)
Record int_type := { it_w : Z; it_signed : bool; it_ib : Z }.

(** Conversion of an integer to the type: modulo [2^w] (language; implementation-defined
    for signed types before C++20, modular in gcc).  Used wherever range.hpp initialises or
    assigns a [T], lines 38-40, 54, 117, 203, 213. *)
Definition conv (t : int_type) (v : Z) : Z :=
  if it_signed t then (v + 2 ^ (it_w t - 1)) mod 2 ^ it_w t - 2 ^ (it_w t - 1)
  else v mod 2 ^ it_w t.

(** Result of an arithmetic operation on operands of the type, with exact result [v]
    (language; operators of range.hpp:54, 117): a type narrower than [int] is promoted to
    [int]; signed overflow is undefined; unsigned arithmetic is modular. *)
Definition arith (t : int_type) (v : Z) : outcome Z :=
  if it_w t <? it_ib t then chk (it_ib t) v
  else if it_signed t then chk (it_w t) v
  else Ok (v mod 2 ^ it_w t).

(** Integer promotion of a type (language; used by [std::common_type_t], range.hpp:201,
    211). *)
Definition promoted (t : int_type) : int_type :=
  if it_w t <? it_ib t then {| it_w := it_ib t; it_signed := true; it_ib := it_ib t |}
  else t.

(** [std::common_type_t<P,Q>] (range.hpp:201): the type itself when both agree, otherwise
    the usual arithmetic conversions of the promoted types. Simplification: types of equal
    width and signedness are identified. *)
Definition common_type (p q : int_type) : int_type :=
  if (it_w p =? it_w q) && Bool.eqb (it_signed p) (it_signed q) then p
  else
    let p' := promoted p in
    let q' := promoted q in
    if Bool.eqb (it_signed p') (it_signed q') then (if it_w p' <? it_w q' then q' else p')
    else
      let '(u, s) := if it_signed p' then (q', p') else (p', q') in
      if it_w s <=? it_w u then u else s.

(** range.hpp:28-74 and 81-86, [range_iter_base] and the plain iterator: the member
    [current]. *)
Record iter := { it_current : Z }.

(** range.hpp:42-45. *)
Definition it_deref (i : iter) : Z := it_current i.

(** range.hpp:52-55: [++current]. *)
Definition it_incr (t : int_type) (i : iter) : outcome iter :=
  v <- arith t (it_current i + 1) ;; Ok {| it_current := conv t v |}.

(** range.hpp:57-60, postfix increment: the iterator before, and the incremented one. *)
Definition it_incr_post (t : int_type) (i : iter) : outcome (iter * iter) :=
  j <- it_incr t i ;; Ok (i, j).

(** range.hpp:62-65. *)
Definition it_eq (i j : iter) : bool := it_current i =? it_current j.

(** range.hpp:67-70. *)
Definition it_ne (i j : iter) : bool := negb (it_eq i j).

(** range.hpp:78-99, [range_proxy]: [begin()] and [end()]. *)
Record range_proxy := { rp_begin : iter; rp_end : iter }.

(** range.hpp:88-91 and 172-176, constructing it. *)
Definition range_impl (first last : Z) : range_proxy :=
  {| rp_begin := {| it_current := first |}; rp_end := {| it_current := last |} |}.

(** range.hpp:106-113 and 135-140, the stepping iterator. *)
Record step_iter :=
  { si_current : Z; si_factor : Z; si_first : Z; si_step : Z; si_infinite : bool }.

(** range.hpp:108-113, constructor; [factor] has initialiser 0 (line 136). *)
Definition step_iter_of (current step : Z) (infinite : bool) : step_iter :=
  {| si_current := current; si_factor := 0; si_first := current; si_step := step;
     si_infinite := infinite |}.

(** range.hpp:42-45, inherited. *)
Definition si_deref (i : step_iter) : Z := si_current i.

(** range.hpp:115-118: [current = first + ++factor * step]. *)
Definition si_incr (t : int_type) (i : step_iter) : outcome step_iter :=
  f <- arith t (si_factor i + 1) ;;
  let factor := conv t f in
  p <- arith t (factor * si_step i) ;;
  s <- arith t (si_first i + p) ;;
  Ok {| si_current := conv t s; si_factor := factor; si_first := si_first i;
        si_step := si_step i; si_infinite := si_infinite i |}.

(** range.hpp:120-123, postfix increment. *)
Definition si_incr_post (t : int_type) (i : step_iter) : outcome (step_iter * step_iter) :=
  j <- si_incr t i ;; Ok (i, j).

(** range.hpp:125-128. *)
Definition si_eq (i j : step_iter) : bool :=
  negb (si_infinite i) && (si_current i >=? si_current j).

(** range.hpp:130-133. *)
Definition si_ne (i j : step_iter) : bool := negb (si_eq i j).

(** range.hpp:103-153, [step_range_proxy]: [begin()] and [end()]. *)
Record step_range_proxy := { sp_begin : step_iter; sp_end : step_iter }.

(** range.hpp:142-145 and 180-184. *)
Definition step_range_impl (first last step : Z) (infinite : bool) : step_range_proxy :=
  {| sp_begin := step_iter_of first step infinite; sp_end := step_iter_of last step infinite |}.

(** range.hpp:157-162, [infinite_range_proxy]. *)
Definition infinite_range (first step : Z) : step_range_proxy :=
  step_range_impl first first step true.

(** range.hpp:164-167, [infinite_range_proxy::step]. *)
Definition infinite_step (r : step_range_proxy) (step : Z) : step_range_proxy :=
  infinite_range (si_deref (sp_begin r)) step.

(** range.hpp:198-204: the arguments are converted to the common type. *)
Definition range2 (p q : int_type) (first last : Z) : int_type * range_proxy :=
  let t := common_type p q in (t, range_impl (conv t first) (conv t last)).

(** range.hpp:208-214; [std::common_type_t] of three types is taken from the left. *)
Definition range3 (p q r : int_type) (first last step : Z) : int_type * step_range_proxy :=
  let t := common_type (common_type p q) r in
  (t, step_range_impl (conv t first) (conv t last) (conv t step) false).

(** range.hpp:218-222. *)
Definition range1 (begin : Z) : step_range_proxy := infinite_range begin 1.

(** range.hpp:226-230, 245-253 and 257-261, [indices]: the element type is the unsigned
    [size_type]. *)
Definition indices (size : Z) : range_proxy := range_impl 0 size.

(** ** The range-based [for] loop over a proxy (language; used with range.hpp:93-94,
    147-148), observed for at most [fuel]
    executions of its body: the values the body sees and how the loop stands then. *)
Inductive loop_status : Set :=
| Finished            (* the loop has ended *)
| Running             (* it would go on *)
| Stuck (e : err).    (* evaluating the increment is undefined *)

(** [for ( auto x : range )] with iterators of type [It] to values of type [V] (language; used with
    range.hpp:93-94, 147-148). *)
Fixpoint for_range {It V} (ne : It -> It -> bool) (deref : It -> V) (incr : It -> outcome It)
    (fuel : nat) (i e : It) : list V * loop_status :=
  if ne i e then
    match fuel with
    | O => ([], Running)
    | S n =>
        match incr i with
        | Ok j => let '(l, s) := for_range ne deref incr n j e in (deref i :: l, s)
        | Err x => ([deref i], Stuck x)
        end
    end
  else ([], Finished).

(** The loop over a [range_proxy<T>] (range.hpp:42-70, 93-94). *)
Definition loop_over (t : int_type) (r : range_proxy) (fuel : nat) : list Z * loop_status :=
  for_range it_ne it_deref (it_incr t) fuel (rp_begin r) (rp_end r).

(** The loop over a [step_range_proxy<T>] (range.hpp:115-133, 147-148). *)
Definition loop_over_step (t : int_type) (r : step_range_proxy) (fuel : nat)
  : list Z * loop_status :=
  for_range si_ne si_deref (si_incr t) fuel (sp_begin r) (sp_end r).
