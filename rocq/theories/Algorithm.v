(** * Model of include/std/algorithm.hpp and of [swap] of include/std/utility.hpp

    The memory is one array of elements; an iterator is an index into it, so that source and
    destination may be distinct or overlap.  Reading or writing outside the array is
    undefined. *)

From Coq Require Import List Arith.
From Verif Require Import Base.
Import ListNotations.

Section Algorithm.
Context {T : Type}.

(** Reading through an iterator (language; [*first] of algorithm.hpp:18, 37, 50). *)
Definition load (m : list T) (i : nat) : outcome T :=
  match nth_error m i with Some v => Ok v | None => Err OutOfBounds end.

(** Writing through an iterator (language; algorithm.hpp:18, 28 and utility.hpp:25, 50). *)
Definition store (m : list T) (i : nat) (v : T) : outcome (list T) :=
  if i <? length m then Ok (firstn i m ++ v :: skipn (S i) m) else Err OutOfBounds.

(** algorithm.hpp:13-21: [while ( first != last ) *d_first++ = *first++; return d_first].
    Each pass reads one cell and moves up, so that at most [length m] passes succeed; [fuel]
    counts them. *)
Fixpoint copy_loop (fuel : nat) (m : list T) (first last d_first : nat)
  : outcome (list T * nat) :=
  if first =? last then Ok (m, d_first)
  else match fuel with
       | O => Err OutOfBounds
       | S n =>
           v <- load m first ;;
           m' <- store m d_first v ;;
           copy_loop n m' (S first) last (S d_first)
       end.

(** algorithm.hpp:13-21, [copy]. *)
Definition copy (m : list T) (first last d_first : nat) : outcome (list T * nat) :=
  copy_loop (S (length m)) m first last d_first.

(** algorithm.hpp:25-28, the loop of [fill]. *)
Fixpoint fill_loop (fuel : nat) (m : list T) (first last : nat) (value : T) : outcome (list T) :=
  if first =? last then Ok m
  else match fuel with
       | O => Err OutOfBounds
       | S n => m' <- store m first value ;; fill_loop n m' (S first) last value
       end.

(** algorithm.hpp:23-30, [fill]. *)
Definition fill (m : list T) (first last : nat) (value : T) : outcome (list T) :=
  fill_loop (S (length m)) m first last value.

(** algorithm.hpp:48-55, the loop of [equal] with a predicate. *)
Fixpoint equal_loop (fuel : nat) (m : list T) (first1 last1 first2 : nat) (p : T -> T -> bool)
  : outcome bool :=
  if first1 =? last1 then Ok true
  else match fuel with
       | O => Err OutOfBounds
       | S n =>
           x <- load m first1 ;;
           y <- load m first2 ;;
           if negb (p x y) then Ok false else equal_loop n m (S first1) last1 (S first2) p
       end.

(** algorithm.hpp:45-56, [equal] with a predicate. *)
Definition equal_pred (m : list T) (first1 last1 first2 : nat) (p : T -> T -> bool)
  : outcome bool := equal_loop (S (length m)) m first1 last1 first2 p.

(** algorithm.hpp:32-43, [equal] with the elements' [operator==]. *)
Definition equal (eqb : T -> T -> bool) (m : list T) (first1 last1 first2 : nat)
  : outcome bool := equal_pred m first1 last1 first2 eqb.

(** utility.hpp:22-26 and 47-51: [T t{move(a)}; a = move(b); b = move(t);] for types
    whose move is a copy (the library's are). *)
Definition swap (m : list T) (a b : nat) : outcome (list T) :=
  t <- load m a ;;
  vb <- load m b ;;
  m1 <- store m a vb ;;
  store m1 b t.

End Algorithm.
