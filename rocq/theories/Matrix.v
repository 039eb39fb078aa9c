(** * Model of include/num/matrix.hpp, function by function

    A [matrix<T,N,M>] object is its storage: a list of [N*M] cells (matrix.hpp:171).
    A cell is [None] while its value is indeterminate.  The template parameters [N]
    and [M] are explicit arguments.  Indices are C++ [int]s, here [Z] (their own
    overflow is not modelled: [row * M + col] stays far below 2^31 in every
    instantiation of the repository). *)

From Coq Require Import List ZArith Lia.
From Verif Require Import Base.
Import ListNotations.
Local Open Scope Z_scope.

Section Matrix.

Context {T : Type} (S : scalar T).

(** matrix.hpp:170-171, [value_type storage[ N * M ]]. *)
Definition matrix := list (option T).

(** A well-formed object of type [matrix<T,N,M>] has [N*M] cells (matrix.hpp:171). *)
Definition wf (N M : nat) (m : matrix) : Prop := length m = (N * M)%nat.

(** matrix.hpp:106-109, [at( int ndx ) const]: [storage[ ndx ]], no bounds check. *)
Definition at_ (m : matrix) (ndx : Z) : outcome T :=
  if ndx <? 0 then Err OutOfBounds else
  match nth_error m (Z.to_nat ndx) with
  | None => Err OutOfBounds
  | Some None => Err Indeterminate
  | Some (Some v) => Ok v
  end.

(** Replace the [i]-th cell of the storage (helper of [set_]; matrix.hpp:138-141). *)
Fixpoint replace_nth (m : matrix) (i : nat) (v : option T) : matrix :=
  match m, i with
  | [], _ => []
  | _ :: r, O => v :: r
  | c :: r, Datatypes.S i' => c :: replace_nth r i' v
  end.

(** matrix.hpp:138-141, assignment through [at( int ndx )]. *)
Definition set_ (m : matrix) (ndx : Z) (v : T) : outcome matrix :=
  if ndx <? 0 then Err OutOfBounds else
  if (Z.to_nat ndx <? length m)%nat
  then Ok (replace_nth m (Z.to_nat ndx) (Some v))
  else Err OutOfBounds.

(** matrix.hpp:116-119 and 111-114, [at(row,col) const], [operator()(row,col) const]. *)
Definition at2 (M : nat) (m : matrix) (row col : Z) : outcome T :=
  at_ m (row * Z.of_nat M + col).

(** matrix.hpp:143-146 and 133-136, assignment through [at(row,col)],
    [operator()(row,col)]. *)
Definition set2 (M : nat) (m : matrix) (row col : Z) (v : T) : outcome matrix :=
  set_ m (row * Z.of_nat M + col) v.

(** matrix.hpp:96-104, [operator[]( int ndx ) const], [operator()( int ndx ) const]. *)
Definition at1 (M : nat) (m : matrix) (ndx : Z) : outcome T := at2 M m 0 ndx.

(** matrix.hpp:123-131, assignment through [operator[]( int )], [operator()( int )]. *)
Definition set1 (M : nat) (m : matrix) (ndx : Z) (v : T) : outcome matrix :=
  set2 M m 0 ndx v.

(** matrix.hpp:81-84, [rows()]. *)
Definition rows (N M : nat) : nat := N.
(** matrix.hpp:86-89, [columns()]. *)
Definition columns (N M : nat) : nat := M.
(** matrix.hpp:91-94, [size()]. *)
Definition size (N M : nat) : nat := (rows N M * columns N M)%nat.

(** matrix.hpp:57-61, [matrix()]: value-initialised on AVR, defaulted (hence
    indeterminate) elsewhere. *)
Definition mat_default (avr : bool) (N M : nat) : matrix :=
  repeat (if avr then Some (sc_zero S) else None) (N * M).

(** std/algorithm.hpp:13-21, [copy( first, last, out )] with [out = begin()]:
    [while( first != last ) *out++ = *first++]. *)
Fixpoint copy_to (src : list T) (out : Z) (m : matrix) : outcome matrix :=
  match src with
  | [] => Ok m
  | x :: src' => m' <- set_ m out x ;; copy_to src' (out + 1) m'
  end.

(** std/algorithm.hpp:23-30, [fill( begin(), end(), v )] over the whole storage:
    [while( first != last ) *first++ = v]. *)
Fixpoint fill_from (n : nat) (pos : Z) (v : T) (m : matrix) : outcome matrix :=
  match n with
  | O => Ok m
  | Datatypes.S n' => m' <- set_ m pos v ;; fill_from n' (pos + 1) v m'
  end.

(** matrix.hpp:67-71, [matrix( value_type v )]: [storage()] zero-initialises, then
    [fill]. *)
Definition mat_fill (N M : nat) (v : T) : outcome matrix :=
  fill_from (N * M) 0 v (repeat (Some (sc_zero S)) (N * M)).

(** matrix.hpp:73-77, [matrix( std::initializer_list<T> il )]: [storage()]
    zero-initialises, then [copy] of the whole list. *)
Definition mat_il (N M : nat) (il : list T) : outcome matrix :=
  copy_to il 0 (repeat (Some (sc_zero S)) (N * M)).

(** ** 1x1 matrix algorithms *)

(** matrix.hpp:179-183, [vec_1x1 + v]. *)
Definition add_1x1_s (A : matrix) (v : T) : outcome T :=
  a <- at1 1 A 0 ;; sc_add S a v.

(** matrix.hpp:187-191, [v + vec_1x1] (computes [A(0) + v]). *)
Definition add_s_1x1 (v : T) (A : matrix) : outcome T :=
  a <- at1 1 A 0 ;; sc_add S a v.

(** matrix.hpp:195-199, [vec_1x1 - v]. *)
Definition sub_1x1_s (A : matrix) (v : T) : outcome T :=
  a <- at1 1 A 0 ;; sc_sub S a v.

(** matrix.hpp:203-207, [v - vec_1x1]. *)
Definition sub_s_1x1 (v : T) (A : matrix) : outcome T :=
  a <- at1 1 A 0 ;; sc_sub S v a.

(** matrix.hpp:211-215, [vec_1x1 * v]. *)
Definition mul_1x1_s (A : matrix) (v : T) : outcome T :=
  a <- at1 1 A 0 ;; sc_mul S a v.

(** matrix.hpp:219-223, [v * vec_1x1] (computes [A * v]). *)
Definition mul_s_1x1 (v : T) (A : matrix) : outcome T := mul_1x1_s A v.

(** matrix.hpp:242-246, [A1x1 * A1x1]. *)
Definition mul_1x1_1x1 (A B : matrix) : outcome matrix :=
  a <- at1 1 A 0 ;; b <- at1 1 B 0 ;; p <- sc_mul S a b ;; mat_il 1 1 [p].

(** ** Vector algorithms *)

(** matrix.hpp:253-263, [rowvec * colvec] (dot product). *)
Definition dot (N : nat) (a b : matrix) : outcome T :=
  for_ (size 1 N) (fun i result =>
    x <- at1 N a (Z.of_nat i) ;; y <- at1 1 b (Z.of_nat i) ;;
    p <- sc_mul S x y ;; sc_add S result p) (sc_zero S).

(** matrix.hpp:267-280, [colvec * rowvec]. *)
Definition outer (N : nat) (a b : matrix) : outcome matrix :=
  result <- mat_fill N N (sc_zero S) ;;
  for_ (rows N 1) (fun row result =>
    for_ (columns 1 N) (fun col result =>
      x <- at1 1 a (Z.of_nat row) ;; y <- at1 N b (Z.of_nat col) ;;
      p <- sc_mul S x y ;;
      set2 N result (Z.of_nat row) (Z.of_nat col) p) result) result.

(** ** Matrix algorithms *)

(** matrix.hpp:286-296, [A + v]. *)
Definition add_ms (N M : nat) (A : matrix) (v : T) : outcome matrix :=
  result <- mat_fill N M (sc_zero S) ;;
  for_ (size N M) (fun i result =>
    x <- at1 M A (Z.of_nat i) ;; s <- sc_add S x v ;;
    set1 M result (Z.of_nat i) s) result.

(** matrix.hpp:300-304, [v + A] (computes [A + v]). *)
Definition add_sm (N M : nat) (v : T) (A : matrix) : outcome matrix :=
  add_ms N M A v.

(** matrix.hpp:308-312, [A - v] (computes [A + -v]). *)
Definition sub_ms (N M : nat) (A : matrix) (v : T) : outcome matrix :=
  w <- sc_opp S v ;; add_ms N M A w.

(** matrix.hpp:316-326, [A * v]. *)
Definition mul_ms (N M : nat) (A : matrix) (v : T) : outcome matrix :=
  result <- mat_fill N M (sc_zero S) ;;
  for_ (size N M) (fun i result =>
    x <- at1 M A (Z.of_nat i) ;; s <- sc_mul S x v ;;
    set1 M result (Z.of_nat i) s) result.

(** matrix.hpp:330-334, [v * A] (computes [A * v]). *)
Definition mul_sm (N M : nat) (v : T) (A : matrix) : outcome matrix :=
  mul_ms N M A v.

(** matrix.hpp:227-231, [A + B1x1]. *)
Definition add_m_1x1 (N M : nat) (A B : matrix) : outcome matrix :=
  b <- at1 1 B 0 ;; add_ms N M A b.

(** matrix.hpp:235-239, [A1x1 + B]. *)
Definition add_1x1_m (N M : nat) (A B : matrix) : outcome matrix :=
  a <- at1 1 A 0 ;; add_sm N M a B.

(** matrix.hpp:338-342, [A * A1x1]. *)
Definition mul_m_1x1 (N M : nat) (A v : matrix) : outcome matrix :=
  x <- at1 1 v 0 ;; mul_ms N M A x.

(** matrix.hpp:346-350, [A1x1 * A]. *)
Definition mul_1x1_m (N M : nat) (v A : matrix) : outcome matrix :=
  x <- at1 1 v 0 ;; mul_ms N M A x.

(** matrix.hpp:354-364, [A + A]. *)
Definition add_mm (N M : nat) (a b : matrix) : outcome matrix :=
  result <- mat_fill N M (sc_zero S) ;;
  for_ (size N M) (fun i result =>
    x <- at1 M a (Z.of_nat i) ;; y <- at1 M b (Z.of_nat i) ;;
    s <- sc_add S x y ;; set1 M result (Z.of_nat i) s) result.

(** matrix.hpp:368-378, [A - A]. *)
Definition sub_mm (N M : nat) (a b : matrix) : outcome matrix :=
  result <- mat_fill N M (sc_zero S) ;;
  for_ (size N M) (fun i result =>
    x <- at1 M a (Z.of_nat i) ;; y <- at1 M b (Z.of_nat i) ;;
    s <- sc_sub S x y ;; set1 M result (Z.of_nat i) s) result.

(** matrix.hpp:382-399, [A * B] (both operands of type [matrix<T,N,M>]). *)
Definition mul_mm (N M : nat) (A B : matrix) : outcome matrix :=
  result <- mat_fill N M (sc_zero S) ;;
  for_ (rows N M) (fun row result =>
    for_ (columns N M) (fun col result =>
      for_ (columns N M) (fun k result =>
        x <- at2 M A (Z.of_nat row) (Z.of_nat k) ;;
        y <- at2 M B (Z.of_nat k) (Z.of_nat col) ;;
        p <- sc_mul S x y ;;
        r <- at2 M result (Z.of_nat row) (Z.of_nat col) ;;
        s <- sc_add S r p ;;
        set2 M result (Z.of_nat row) (Z.of_nat col) s) result) result) result.

(** matrix.hpp:403-415, [x * A] ([rowvec<T,N>] times [matrix<T,N,M>], result
    [rowvec<T,N>]). *)
Definition mul_vm (N M : nat) (x A : matrix) : outcome matrix :=
  result <- mat_fill 1 N (sc_zero S) ;;
  for_ (rows N M) (fun row result =>
    for_ (columns N M) (fun col result =>
      a <- at2 M A (Z.of_nat row) (Z.of_nat col) ;;
      y <- at1 N x (Z.of_nat row) ;;
      p <- sc_mul S a y ;;
      r <- at1 N result (Z.of_nat col) ;;
      s <- sc_add S r p ;;
      set1 N result (Z.of_nat col) s) result) result.

(** matrix.hpp:419-431, [A * x] ([matrix<T,N,M>] times [colvec<T,N>], result
    [colvec<T,N>]). *)
Definition mul_mv (N M : nat) (A x : matrix) : outcome matrix :=
  result <- mat_fill N 1 (sc_zero S) ;;
  for_ (rows N M) (fun row result =>
    for_ (columns N M) (fun col result =>
      a <- at2 M A (Z.of_nat row) (Z.of_nat col) ;;
      y <- at1 1 x (Z.of_nat col) ;;
      p <- sc_mul S a y ;;
      r <- at1 1 result (Z.of_nat row) ;;
      s <- sc_add S r p ;;
      set1 1 result (Z.of_nat row) s) result) result.

(** ** Transposition *)

(** std/algorithm.hpp:13-21 as used by [transposed]: copy [x.begin()..x.end()]
    ([n] cells) to [result.begin()]. *)
Definition copy_cells (n : nat) (x result : matrix) : outcome matrix :=
  for_ n (fun i result =>
    v <- at_ x (Z.of_nat i) ;; set_ result (Z.of_nat i) v) result.

(** matrix.hpp:438-446, [transposed( colvec<T,N> )]. *)
Definition transposed_col (N : nat) (x : matrix) : outcome matrix :=
  result <- mat_fill 1 N (sc_zero S) ;; copy_cells (N * 1) x result.

(** matrix.hpp:450-458, [transposed( rowvec<T,N> )]. *)
Definition transposed_row (N : nat) (x : matrix) : outcome matrix :=
  result <- mat_fill N 1 (sc_zero S) ;; copy_cells (1 * N) x result.

(** matrix.hpp:469-477, [transposed( matrix<T,2,2> )]: copy, then [std20::swap]
    (std/utility.hpp:22-26: [tmp = a; a = b; b = tmp]). *)
Definition transposed_22 (A : matrix) : outcome matrix :=
  tmp <- at2 2 A 0 1 ;;
  b   <- at2 2 A 1 0 ;;
  r   <- set2 2 A 0 1 b ;;
  set2 2 r 1 0 tmp.

(** ** Inversion *)

(** matrix.hpp:484-488, [v != 0 ? 1 / v : 0]. *)
Definition inverted_s (v : T) : outcome T :=
  if sc_nz S v then sc_div S (sc_one S) v else Ok (sc_zero S).

(** matrix.hpp:492-505, [inverted( matrix<T,2,2> )]; [+ det * A(3)] is [(+det) * A(3)],
    [- det * A(2)] is [(-det) * A(2)]. *)
Definition inverted_22 (A : matrix) : outcome matrix :=
  result <- mat_fill 2 2 (sc_zero S) ;;
  a0 <- at1 2 A 0 ;; a3 <- at1 2 A 3 ;; p <- sc_mul S a0 a3 ;;
  a1 <- at1 2 A 1 ;; a2 <- at1 2 A 2 ;; q <- sc_mul S a1 a2 ;;
  d <- sc_sub S p q ;;
  det <- sc_div S (sc_one S) d ;;
  r0 <- sc_mul S det a3 ;; result <- set1 2 result 0 r0 ;;
  n1 <- sc_opp S det ;; r1 <- sc_mul S n1 a2 ;; result <- set1 2 result 1 r1 ;;
  n2 <- sc_opp S det ;; r2 <- sc_mul S n2 a1 ;; result <- set1 2 result 2 r2 ;;
  r3 <- sc_mul S det a0 ;; set1 2 result 3 r3.

(** ** Other *)

(** matrix.hpp:512-522, [eye<T,N>()]. *)
Definition eye (N : nat) : outcome matrix :=
  result <- mat_fill N N (sc_zero S) ;;
  for_ N (fun i result =>
    set2 N result (Z.of_nat i) (Z.of_nat i) (sc_one S)) result.

End Matrix.
Arguments matrix T : clear implicits.
