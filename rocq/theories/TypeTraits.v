(** * Model of the replacement of <type_traits> on AVR

    std/type_traits.hpp:38-106, std/limits.hpp:23-146, num/fixed-point.hpp:27-43 and 65,
    std/utility.hpp:38-42.  The functions work on a datatype of C++ types; a type or value
    that does not exist ("does not compile") is [None]. *)

From Coq Require Import List Bool Arith.
Import ListNotations.

(** The fundamental types and, numbered, classes and enumerations (language rule; the
    arguments of the templates of std/type_traits.hpp:40-104). *)
Inductive base :=
  | Void | Nullptr | Bool | Char | SChar | UChar | Wchar | Short | UShort | Int | UInt
  | Long | ULong | LLong | ULLong | Float | Double | LDouble | Class (n : nat) | Enum (n : nat).

(** C++ types: const and volatile qualify objects and pointers; an array is qualified as its
    elements are (language rule; the arguments of the templates of
    std/type_traits.hpp:40-104).  Left out: functions, pointers to members, arrays of unknown
    bound. *)
Inductive ty :=
  | Obj (c v : bool) (b : base)
  | Ptr (c v : bool) (t : ty)
  | Arr (n : nat) (t : ty)
  | LRef (t : ty)
  | RRef (t : ty).

(** Deduction of [T] from [const T] (language rule; used by std/type_traits.hpp:45). *)
Fixpoint match_const (t : ty) : option ty :=
  match t with
  | Obj true v b => Some (Obj false v b)
  | Ptr true v t' => Some (Ptr false v t')
  | Arr n t' => option_map (Arr n) (match_const t')
  | _ => None
  end.
(** Deduction of [T] from [volatile T] (language rule; used by std/type_traits.hpp:48). *)
Fixpoint match_volatile (t : ty) : option ty :=
  match t with
  | Obj c true b => Some (Obj c false b)
  | Ptr c true t' => Some (Ptr c false t')
  | Arr n t' => option_map (Arr n) (match_volatile t')
  | _ => None
  end.

(** std/type_traits.hpp:40-42. *)
Definition remove_reference (t : ty) : ty :=
  match t with LRef t' => t' | RRef t' => t' | _ => t end.
(** std/type_traits.hpp:44-45. *)
Definition remove_const (t : ty) : ty := match match_const t with Some t' => t' | None => t end.
(** std/type_traits.hpp:47-48. *)
Definition remove_volatile (t : ty) : ty := match match_volatile t with Some t' => t' | None => t end.
(** std/type_traits.hpp:50-54. *)
Definition remove_cv (t : ty) : ty := remove_volatile (remove_const t).

(** The types behind the macros __INT8_TYPE__ and so on of std/limits.hpp and std/cstdint.hpp:
    [avr]: 16-bit [int]; otherwise gcc on 64-bit Linux. *)
Definition int_type (avr : bool) (bits : nat) (signed : bool) : option base :=
  match bits, signed with
  | 8, true => Some SChar | 8, false => Some UChar
  | 16, true => Some (if avr then Int else Short) | 16, false => Some (if avr then UInt else UShort)
  | 32, true => Some (if avr then Long else Int) | 32, false => Some (if avr then ULong else UInt)
  | 64, true => Some (if avr then LLong else Long) | 64, false => Some (if avr then ULLong else ULong)
  | _, _ => None
  end.

(** Equality of fundamental types (language rule; used where specialisations are selected,
    std/limits.hpp:25-146). *)
Definition base_eqb (a b : base) : bool :=
  match a, b with
  | Void, Void | Nullptr, Nullptr | Bool, Bool | Char, Char | SChar, SChar | UChar, UChar | Wchar, Wchar
  | Short, Short | UShort, UShort | Int, Int | UInt, UInt | Long, Long | ULong, ULong | LLong, LLong
  | ULLong, ULLong | Float, Float | Double, Double | LDouble, LDouble => true
  | Class n, Class m | Enum n, Enum m => Nat.eqb n m
  | _, _ => false
  end.
(** Equality of types (language rule; used by std/type_traits.hpp:91-92). *)
Fixpoint ty_eqb (t u : ty) : bool :=
  match t, u with
  | Obj c v b, Obj c' v' b' => Bool.eqb c c' && Bool.eqb v v' && base_eqb b b'
  | Ptr c v t', Ptr c' v' u' => Bool.eqb c c' && Bool.eqb v v' && ty_eqb t' u'
  | Arr n t', Arr m u' => Nat.eqb n m && ty_eqb t' u'
  | LRef t', LRef u' | RRef t', RRef u' => ty_eqb t' u'
  | _, _ => false
  end.

(** std/limits.hpp:23-146: [is_signed] and [is_integer] of the specialisations, of which
    there are ten; the primary template is declared only. *)
Definition limits (t : ty) : option (bool * bool) :=
  let is bits signed := match int_type true bits signed with
                        | Some b => ty_eqb t (Obj false false b) | None => false end in
  if ty_eqb t (Obj false false Float) || ty_eqb t (Obj false false Double) then Some (true, false)
  else if is 8 true || is 8 false || is 16 true || is 16 false || is 32 true || is 32 false
          || is 64 true || is 64 false
  then Some (true, true)
  else None.

(** std/type_traits.hpp:76-80, [is_integral_v]. *)
Definition is_integral (t : ty) : option bool := option_map snd (limits t).
(** std/type_traits.hpp:82-86, [is_signed_v]. *)
Definition is_signed (t : ty) : option bool := option_map fst (limits t).
(** std/type_traits.hpp:88-95, [is_same_v]. *)
Definition is_same (t u : ty) : bool := ty_eqb t u.
(** std/type_traits.hpp:97-104, [enable_if_t]. *)
Definition enable_if (b : bool) (t : ty) : option ty := if b then Some t else None.

(** num/fixed-point.hpp:27-28 and 65: whether [fixed_point<T,I,F>] is a type on AVR. *)
Definition fixed_point_ok (t : ty) : bool :=
  match is_signed t, is_integral t with
  | Some s, Some i => match enable_if (s && i) (Obj false false Void) with Some _ => true | None => false end
  | _, _ => false
  end.

(** num/fixed-point.hpp:34-43, [promote_t]. *)
Definition promote (avr : bool) (t : ty) : option ty :=
  let is bits := match int_type avr bits true with
                 | Some b => ty_eqb t (Obj false false b) | None => false end in
  let to bits := option_map (Obj false false) (int_type avr bits true) in
  if is 8 then to 16 else if is 16 then to 32 else if is 32 then to 64 else None.

(** Reference collapsing (language rule; used by std/utility.hpp:39). *)
Definition add_rref (t : ty) : ty := match t with LRef _ | RRef _ => t | _ => RRef t end.
(** Deduction of [T] for a parameter [T &&] from an argument of type [t] (language rule; used
    by std/utility.hpp:39). *)
Definition deduce (lvalue : bool) (t : ty) : ty := if lvalue then LRef t else t.
(** std/utility.hpp:38-42: type of [move( x )] for [x] of type [t]. *)
Definition move_type (lvalue : bool) (t : ty) : ty := add_rref (remove_reference (deduce lvalue t)).
