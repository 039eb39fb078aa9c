(** * What the standard says about the type traits *)

From Coq Require Import List Bool.
From Verif Require Import TypeTraits.
Import ListNotations.

(** There are no references to references and no pointers to or arrays of references. *)
Definition is_ref (t : ty) : bool := match t with LRef _ | RRef _ => true | _ => false end.
Fixpoint wf (t : ty) : Prop :=
  match t with
  | Obj _ _ _ => True
  | Ptr _ _ t' | Arr _ t' | LRef t' | RRef t' => is_ref t' = false /\ wf t'
  end.

(** The type written with [const] and [volatile] in front; references ignore them. *)
Fixpoint add_cv (c v : bool) (t : ty) : ty :=
  match t with
  | Obj c' v' b => Obj (c || c') (v || v') b
  | Ptr c' v' t' => Ptr (c || c') (v || v') t'
  | Arr n t' => Arr n (add_cv c v t')
  | LRef _ | RRef _ => t
  end.
(** Qualified. *)
Fixpoint has_const (t : ty) : bool :=
  match t with Obj c _ _ | Ptr c _ _ => c | Arr _ t' => has_const t' | _ => false end.
Fixpoint has_volatile (t : ty) : bool :=
  match t with Obj _ v _ | Ptr _ v _ => v | Arr _ t' => has_volatile t' | _ => false end.

(** Integral and signed, whatever the qualification. *)
Definition std_integral (t : ty) : bool :=
  match t with
  | Obj _ _ b => match b with
      | Bool | Char | SChar | UChar | Wchar | Short | UShort | Int | UInt
      | Long | ULong | LLong | ULLong => true | _ => false end
  | _ => false
  end.
(** [char] and [wchar_t] as gcc has them on AVR: signed. *)
Definition std_signed (t : ty) : bool :=
  match t with
  | Obj _ _ b => match b with
      | Char | SChar | Wchar | Short | Int | Long | LLong | Float | Double | LDouble => true | _ => false end
  | _ => false
  end.

(** Bits of the signed integer types, on AVR and with gcc on 64-bit Linux. *)
Definition width (avr : bool) (b : base) : nat :=
  match b with SChar => 8 | Short => 16 | Int => if avr then 16 else 32 | Long => if avr then 32 else 64 | LLong => 64 | _ => 0 end.
