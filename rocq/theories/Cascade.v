(** * Model of include/dsp/biquad-cascade.hpp

    A cascade is its storage, an array of [N] sections, and the insertion point.  The
    parameter [asserts] tells whether [assert] is active: it is on the desktop and empty on
    AVR (biquad.hpp:19-23).  [int] overflow of [next] is not modelled: [next] stays between
    0 and [N] (see C48). *)

From Coq Require Import Reals List ZArith Bool.
From Coquelicot Require Import Complex.
From Verif Require Import Base Biquad.
Import ListNotations.
Local Open Scope Z_scope.

Section Cascade.

Context {T : Type} (S : scalar T).

(** biquad-cascade.hpp:142-147, the members [biquad[N]] and [next]. *)
Record cascade := { cs_biquad : list (biquad T); cs_next : Z }.

(** biquad-cascade.hpp:30-34, construction from [sizeof...(Bq)] sections: the remaining
    array elements are default constructed.  More than [N] sections do not compile. *)
Definition cascade_of (N : nat) (bqs : list (biquad T)) : cascade :=
  {| cs_biquad := bqs ++ repeat (biquad_default S) (N - length bqs);
     cs_next := Z.of_nat (length bqs) |}.

(** [assert( c )] (biquad.hpp:19-23 and <cassert>). *)
Definition assert_ (asserts c : bool) : outcome unit :=
  if asserts && negb c then Err AssertFailed else Ok tt.

(** Reading the array element [biquad[i]] (biquad-cascade.hpp:143). *)
Definition sec_at (a : list (biquad T)) (i : Z) : outcome (biquad T) :=
  if i <? 0 then Err OutOfBounds else
  match nth_error a (Z.to_nat i) with
  | Some bq => Ok bq
  | None => Err OutOfBounds
  end.

(** Replacing the [i]-th element of a list (helper of [sec_set]; biquad-cascade.hpp:143). *)
Fixpoint list_set {A : Type} (l : list A) (i : nat) (x : A) : list A :=
  match l, i with
  | [], _ => []
  | _ :: r, O => x :: r
  | y :: r, Datatypes.S i' => y :: list_set r i' x
  end.

(** Assigning the array element [biquad[i]] (biquad-cascade.hpp:143). *)
Definition sec_set (a : list (biquad T)) (i : Z) (bq : biquad T) : outcome (list (biquad T)) :=
  if (0 <=? i) && (i <? Z.of_nat (length a)) then Ok (list_set a (Z.to_nat i) bq)
  else Err OutOfBounds.

(** biquad-cascade.hpp:38-41, [size()]. *)
Definition cs_size (cs : cascade) : Z := cs_next cs.

(** biquad-cascade.hpp:43-46, [reserved()]. *)
Definition cs_reserved (N : nat) : Z := Z.of_nat N.

(** biquad-cascade.hpp:48-53, [coeff_a( i )]. *)
Definition cs_coeff_a (asserts : bool) (cs : cascade) (i : Z) : outcome (coeff_a T) :=
  _ <- assert_ asserts ((0 <=? i) && (i <? cs_next cs)) ;;
  bq <- sec_at (cs_biquad cs) i ;; Ok (bq_a bq).

(** biquad-cascade.hpp:55-60, [coeff_b( i )]. *)
Definition cs_coeff_b (asserts : bool) (cs : cascade) (i : Z) : outcome (coeff_b T) :=
  _ <- assert_ asserts ((0 <=? i) && (i <? cs_next cs)) ;;
  bq <- sec_at (cs_biquad cs) i ;; Ok (bq_b bq).

(** biquad-cascade.hpp:62-67, [state( i )]. *)
Definition cs_state (asserts : bool) (cs : cascade) (i : Z) : outcome (state T) :=
  _ <- assert_ asserts ((0 <=? i) && (i <? cs_next cs)) ;;
  bq <- sec_at (cs_biquad cs) i ;; Ok (bq_w bq).

(** biquad-cascade.hpp:71-74, [clear()]. *)
Definition cs_clear (cs : cascade) : cascade := {| cs_biquad := cs_biquad cs; cs_next := 0 |}.

(** biquad-cascade.hpp:76-81, [append( bq )]. *)
Definition cs_append (asserts : bool) (N : nat) (cs : cascade) (bq : biquad T) : outcome cascade :=
  _ <- assert_ asserts (cs_next cs <? cs_reserved N) ;;
  a <- sec_set (cs_biquad cs) (cs_next cs) bq ;;
  Ok {| cs_biquad := a; cs_next := cs_next cs + 1 |}.

(** biquad-cascade.hpp:88-91, the loop of [remove]: [for( k = i; k != next; ++k )].  Every
    iteration accesses element [k + 1], so the loop leaves the array after at most as many
    iterations as there are elements; [fuel] is that number plus one. *)
Fixpoint remove_loop (fuel : nat) (a : list (biquad T)) (k next : Z) : outcome (list (biquad T)) :=
  match fuel with
  | O => Err OutOfBounds
  | Datatypes.S fuel' =>
      if k =? next then Ok a else
      bq <- sec_at a (k + 1) ;; a' <- sec_set a k bq ;; remove_loop fuel' a' (k + 1) next
  end.

(** biquad-cascade.hpp:83-92, [remove( i )]. *)
Definition cs_remove (asserts : bool) (cs : cascade) (i : Z) : outcome cascade :=
  _ <- assert_ asserts ((0 <=? i) && (i <? cs_next cs)) ;;
  let next := cs_next cs - 1 in
  a <- remove_loop (Datatypes.S (length (cs_biquad cs))) (cs_biquad cs) i next ;;
  Ok {| cs_biquad := a; cs_next := next |}.

(** biquad-cascade.hpp:98-101, the loop of [insert]: [for( k = next; k != i; --k )]; [fuel]
    as for [remove_loop]. *)
Fixpoint insert_loop (fuel : nat) (a : list (biquad T)) (k i : Z) : outcome (list (biquad T)) :=
  match fuel with
  | O => Err OutOfBounds
  | Datatypes.S fuel' =>
      if k =? i then Ok a else
      bq <- sec_at a (k - 1) ;; a' <- sec_set a k bq ;; insert_loop fuel' a' (k - 1) i
  end.

(** biquad-cascade.hpp:94-105, [insert( i, bq )]. *)
Definition cs_insert (asserts : bool) (N : nat) (cs : cascade) (i : Z) (bq : biquad T) : outcome cascade :=
  _ <- assert_ asserts ((0 <=? i) && (i <? cs_next cs) && (cs_next cs <? cs_reserved N)) ;;
  a <- insert_loop (Datatypes.S (length (cs_biquad cs))) (cs_biquad cs) (cs_next cs) i ;;
  a' <- sec_set a i bq ;;
  Ok {| cs_biquad := a'; cs_next := cs_next cs + 1 |}.

(** biquad-cascade.hpp:109-116, [replace( i, bq )]: the previous section and the cascade
    afterwards; [bq.swap( biquad[i] )]. *)
Definition cs_replace (asserts : bool) (cs : cascade) (i : Z) (bq : biquad T)
  : outcome (biquad T * cascade) :=
  _ <- assert_ asserts ((0 <=? i) && (i <? cs_next cs)) ;;
  old <- sec_at (cs_biquad cs) i ;;
  let r := swap bq old in
  a <- sec_set (cs_biquad cs) i (snd r) ;;
  Ok (fst r, {| cs_biquad := a; cs_next := cs_next cs |}).

(** biquad-cascade.hpp:180-187, [reset( filters )]: a loop over [begin()] .. [end()]
    (120-138). *)
Definition cs_reset (cs : cascade) : outcome cascade :=
  a <- for_ (Z.to_nat (cs_next cs)) (fun i a =>
         bq <- sec_at a (Z.of_nat i) ;; sec_set a (Z.of_nat i) (reset S bq)) (cs_biquad cs) ;;
  Ok {| cs_biquad := a; cs_next := cs_next cs |}.

(** biquad-cascade.hpp:191-223, [step], [step_df2], [step_df2_transposed]: the loops differ
    only in the member function [f] called on each section. *)
Definition cs_step_with (f : biquad T -> T -> outcome (T * biquad T)) (cs : cascade) (v : T)
  : outcome (T * cascade) :=
  r <- for_ (Z.to_nat (cs_next cs)) (fun i (r : T * list (biquad T)) =>
         bq <- sec_at (snd r) (Z.of_nat i) ;;
         s <- f bq (fst r) ;;
         a <- sec_set (snd r) (Z.of_nat i) (snd s) ;;
         Ok (fst s, a)) (v, cs_biquad cs) ;;
  Ok (fst r, {| cs_biquad := snd r; cs_next := cs_next cs |}).

(** biquad-cascade.hpp:191-199. *)
Definition cs_step := cs_step_with (step S).
(** biquad-cascade.hpp:203-211. *)
Definition cs_step_df2 := cs_step_with (step_df2 S).
(** biquad-cascade.hpp:215-223. *)
Definition cs_step_df2_transposed := cs_step_with (step_df2_transposed S).

(** A sequence of calls of a step function (biquad-cascade.hpp:191-223): the outputs and the
    cascade afterwards. *)
Fixpoint cs_run (f : cascade -> T -> outcome (T * cascade)) (cs : cascade) (xs : list T)
  : outcome (list T * cascade) :=
  match xs with
  | [] => Ok ([], cs)
  | x :: xs' => r <- f cs x ;; r' <- cs_run f (snd r) xs' ;; Ok (fst r :: fst r', snd r')
  end.

(** A call of a modifier (biquad-cascade.hpp:71-116 and 180-187). *)
Inductive cs_op : Type :=
| OpClear                          (* 71-74 *)
| OpAppend (bq : biquad T)         (* 76-81 *)
| OpRemove (i : Z)                 (* 83-92 *)
| OpInsert (i : Z) (bq : biquad T) (* 94-105 *)
| OpReplace (i : Z) (bq : biquad T) (* 109-116, the result is dropped *)
| OpReset.                         (* 180-187 *)

(** Performing it (biquad-cascade.hpp:71-116 and 180-187). *)
Definition cs_call (asserts : bool) (N : nat) (cs : cascade) (o : cs_op) : outcome cascade :=
  match o with
  | OpClear => Ok (cs_clear cs)
  | OpAppend bq => cs_append asserts N cs bq
  | OpRemove i => cs_remove asserts cs i
  | OpInsert i bq => cs_insert asserts N cs i bq
  | OpReplace i bq => r <- cs_replace asserts cs i bq ;; Ok (snd r)
  | OpReset => cs_reset cs
  end.

(** A history of calls (biquad-cascade.hpp:71-116 and 180-187). *)
Fixpoint cs_calls (asserts : bool) (N : nat) (cs : cascade) (os : list cs_op) : outcome cascade :=
  match os with
  | [] => Ok cs
  | o :: os' => cs' <- cs_call asserts N cs o ;; cs_calls asserts N cs' os'
  end.

End Cascade.

Arguments cs_op T : clear implicits.
Arguments cascade T : clear implicits.

(** biquad-cascade.hpp:152-161, [is_stable( filters )]; [result && bq.is_stable()]
    evaluates the second operand only when [result] is true. *)
Definition cs_is_stable (cs : cascade R) : outcome bool :=
  for_ (Z.to_nat (cs_next cs)) (fun i (result : bool) =>
    bq <- sec_at (cs_biquad cs) (Z.of_nat i) ;;
    if result then is_stable bq else Ok false) true.

(** biquad-cascade.hpp:165-176, [response( filters, fnorm )]. *)
Definition cs_response (cs : cascade R) (fnorm : R) : outcome C :=
  for_ (Z.to_nat (cs_next cs)) (fun i (result : C) =>
    bq <- sec_at (cs_biquad cs) (Z.of_nat i) ;;
    h <- response bq fnorm ;;
    Ok (Cmult result h)) (RtoC 1).
