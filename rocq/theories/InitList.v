(** * Model of the AVR [std::initializer_list] and of construction of a matrix from it

    include/std/utility.hpp:57-113 and include/num/matrix.hpp:73-77, 150-171.  The memory is one
    array of elements as in [Algorithm.v]; a pointer is an index into it or null. *)

From Coq Require Import List Arith.
From Verif Require Import Base Algorithm.
Import ListNotations.

(** utility.hpp:67, 68: [iterator], [const_iterator], both [const T*] (language: pointers). *)
Definition pointer : Type := option nat.

(** utility.hpp:97-98, the data members. *)
Record init_list : Type := { il_array : pointer; il_count : nat }.

(** utility.hpp:70-73, [initializer_list()]. *)
Definition il_default : init_list := {| il_array := None; il_count := 0 |}.
(** utility.hpp:91-94, [initializer_list( arr, len )]; the compiler calls it for a list in
    braces, with the array that holds the elements. *)
Definition il_make (arr : pointer) (len : nat) : init_list := {| il_array := arr; il_count := len |}.

(** utility.hpp:75-78, [size()]. *)
Definition il_size (l : init_list) : nat := il_count l.
(** utility.hpp:80-83, [begin()]. *)
Definition il_begin (l : init_list) : pointer := il_array l.
(** Adding to a pointer (language; utility.hpp:87): a null pointer allows only 0. *)
Definition pointer_add (p : pointer) (n : nat) : outcome pointer :=
  match p, n with
  | Some i, _ => Ok (Some (i + n))
  | None, O => Ok None
  | None, S _ => Err OutOfBounds
  end.
(** utility.hpp:85-88, [end()]. *)
Definition il_end (l : init_list) : outcome pointer := pointer_add (il_begin l) (il_size l).
(** utility.hpp:101-105, [begin( il )]. *)
Definition free_begin (l : init_list) : pointer := il_begin l.
(** utility.hpp:107-111, [end( il )]. *)
Definition free_end (l : init_list) : outcome pointer := il_end l.

Section InitList.
Context {T : Type}.

(** algorithm.hpp:13-21, [copy] with pointers, to [d]: for null pointers the loop ends at once. *)
Definition copy_pointers (m : list T) (first last : pointer) (d : nat) : outcome (list T) :=
  match first, last with
  | Some f, Some l => r <- copy m f l d ;; Ok (fst r)
  | None, None => Ok m
  | _, _ => Err OutOfBounds
  end.

(** matrix.hpp:73-77, [matrix( std::initializer_list<T> il )] of a [matrix<T,N,M>] whose
    [storage] (171) is at [q]: [storage()] sets the elements to [T()], then they are copied;
    [begin()] (150-153) is [&storage[0]]. *)
Definition matrix_from_list (zero : T) (m : list T) (q N M : nat) (l : init_list) : outcome (list T) :=
  m1 <- fill m q (q + N * M) zero ;;
  e <- il_end l ;;
  copy_pointers m1 (il_begin l) e q.

End InitList.
