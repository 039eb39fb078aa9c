(** * Model of include/std/limits.hpp and the traits built on it (AVR) *)

From Coq Require Import ZArith Bool.
From Verif Require Import Base.
Local Open Scope Z_scope.

(** The types with a specialisation (limits.hpp:26-144). *)
Inductive ctype := tfloat | tdouble | tint (bits : Z) | tuint (bits : Z).

(** The members of a specialisation, limits.hpp:26-144; [digits], [min()], [max()] exist for
    the integer types only. *)
Record limits := { is_signed : bool; is_integer : bool; digits : Z; lim_min : Z; lim_max : Z }.

(** limits.hpp:42-53, 68-79, 94-105, 120-131: [__CHAR_BIT__ * sizeof(T) - 1],
    [-__INTn_MAX__ - 1], [__INTn_MAX__]. *)
Definition limits_int (bits : Z) : limits :=
  let intmax := 2 ^ (bits - 1) - 1 in
  {| is_signed := true; is_integer := true; digits := 8 * (bits / 8) - 1;
     lim_min := - intmax - 1; lim_max := intmax |}.

(** limits.hpp:55-66, 81-92, 107-118, 133-144: [__CHAR_BIT__ * sizeof(T)], 0,
    [__UINTn_MAX__]; [is_signed] is written [true]. *)
Definition limits_uint (bits : Z) : limits :=
  {| is_signed := true; is_integer := true; digits := 8 * (bits / 8);
     lim_min := 0; lim_max := 2 ^ bits - 1 |}.

(** limits.hpp:24-144, [numeric_limits<T>]; [None] where there is no specialisation. *)
Definition numeric_limits (t : ctype) : option limits :=
  match t with
  | tfloat | tdouble =>  (* 26-40 *)
      Some {| is_signed := true; is_integer := false; digits := 0; lim_min := 0; lim_max := 0 |}
  | tint b => if (b =? 8) || (b =? 16) || (b =? 32) || (b =? 64) then Some (limits_int b) else None
  | tuint b => if (b =? 8) || (b =? 16) || (b =? 32) || (b =? 64) then Some (limits_uint b) else None
  end.

(** std/type_traits.hpp:76-80, [is_integral_v]; a type without specialisation is a
    compilation error ([None]). *)
Definition is_integral_v (t : ctype) : option bool := option_map is_integer (numeric_limits t).

(** std/type_traits.hpp:82-86, [is_signed_v]. *)
Definition is_signed_v (t : ctype) : option bool := option_map is_signed (numeric_limits t).

(** fixed-point.hpp:65, the requirement on the implementation type: whether
    [fixed_point<T,I>] can be named on AVR. *)
Definition fixed_point_accepts (t : ctype) : bool :=
  match is_signed_v t, is_integral_v t with
  | Some s, Some i => s && i
  | _, _ => false
  end.

(** fixed-point.hpp:36-43, [promote_t<T>]: whether multiplication and division exist. *)
Definition promotes (t : ctype) : bool :=
  match t with tint b => (b =? 8) || (b =? 16) || (b =? 32) | _ => false end.

(** fixed-point.hpp:62-64, the default number of fraction bits. *)
Definition default_fraction (t : ctype) (I : Z) : option Z :=
  option_map (fun l => digits l - I) (numeric_limits t).
