(** * std/complex.hpp, the branch for AVR: the class [std20::complex]

    The functions of the header as data: which are defined, what their bodies do, which other
    functions they call.  An interpreter runs the bodies; a function that is only declared
    makes the program fail to link, and a function that reaches its end without [return]
    although it returns a value makes the call undefined.  [constexpr] and the type [X] of
    the converting constructor other than [T] are left out. *)
From Coq Require Import List Bool Arith.
Import ListNotations.

(** complex.hpp:102-103, the data members. *)
Inductive field := Re | Im.

(** complex.hpp:84-99, 116-186: the four operators [+ - * /]. *)
Inductive op := Add | Sub | Mul | Div.

(** complex.hpp:32-189, the functions of the header. *)
Inductive fn :=
| Ctor                  (* 32: complex( re, im ) *)
| CopyCtor              (* 37 *)
| ConvCtor              (* 39-40: from complex<X> *)
| AssignT               (* 45: operator=( T ) *)
| AssignC               (* 51: operator=( complex ) *)
| AssignX               (* 57-58: operator=( complex<X> ) *)
| Get (f : field)       (* 64, 69 *)
| Set_ (f : field)      (* 74, 79 *)
| CompT (o : op)        (* 84-87: operator o= ( T ) *)
| CompX (o : op)        (* 89-99: operator o= ( complex<X> ) *)
| UnaryPlus             (* 108-109 *)
| UnaryMinus            (* 111-112 *)
| BinCT (o : op)        (* 116-138: complex o T *)
| BinTC (o : op)        (* 140-162: T o complex *)
| BinCC (o : op)        (* 164-186: complex o complex *)
| Abs                   (* 188-189 *)
| Sqrt.                 (* 191-192 *)

(** complex.hpp:33-82, the scalar expressions in the bodies: the parameter of type [T] with
    the given number, [T()], a member of [*this], [cx.real()] or [cx.imag()] of the
    parameter of class type, a member of that parameter. *)
Inductive sexp := Param (n : nat) | Zero | Member (f : field) | OfArg (f : field)
  | ArgMember (f : field).

(** complex.hpp:33-186, the statements in the bodies: a member set (by assignment or by the
    constructor's initialiser), [return] of a scalar, and the returns of the binary
    operators: [complex( lhs ) o= rhs] with [lhs] and [rhs] a [T] or a [complex]. *)
Inductive stmt :=
| SetMember (f : field) (e : sexp)
| ReturnT (e : sexp)
| ReturnCompound (lhs_complex : bool) (o : op) (rhs_complex : bool).

(** complex.hpp:32-192, the bodies; [None]: declared and not defined. *)
Definition body (g : fn) : option (list stmt) :=
  match g with
  | Ctor => Some [SetMember Re (Param 0); SetMember Im (Param 1)]
  | CopyCtor => Some [SetMember Re (ArgMember Re); SetMember Im (ArgMember Im)]   (* = default *)
  | ConvCtor => Some [SetMember Re (OfArg Re); SetMember Im (OfArg Im)]
  | AssignT => Some [SetMember Re (Param 0); SetMember Im Zero]
  | AssignC => Some [SetMember Re (OfArg Re); SetMember Im (OfArg Im)]
  | AssignX => Some [SetMember Re (OfArg Re); SetMember Im (OfArg Im)]
  | Get f => Some [ReturnT (Member f)]
  | Set_ f => Some [SetMember f (Param 0)]
  | CompT _ | CompX _ => None
  | UnaryPlus | UnaryMinus => None
  | BinCT o => Some [ReturnCompound true o false]
  | BinTC o => Some [ReturnCompound false o true]
  | BinCC o => Some [ReturnCompound true o true]
  | Abs | Sqrt => None
  end.

(** complex.hpp:32-192, whether the declared result is a value or reference, so that reaching
    the end of the body is undefined: not for constructors and for the setters ([void]). *)
Definition must_return (g : fn) : bool :=
  match g with Ctor | CopyCtor | ConvCtor | Set_ _ => false | _ => true end.

(** complex.hpp:33-186, the functions an expression or a statement calls.  The defaulted
    copy constructor (line 37) copies the members without calls. *)
Definition calls_e (e : sexp) : list fn := match e with OfArg f => [Get f] | _ => [] end.
(** complex.hpp:33-186, of a statement. *)
Definition calls_s (s : stmt) : list fn :=
  match s with
  | SetMember _ e | ReturnT e => calls_e e
  | ReturnCompound l o r => [if l then CopyCtor else Ctor; if r then CompX o else CompT o; CopyCtor]
  end.

(** Whether everything that [g] calls, to the given depth, is defined (complex.hpp:32-192): what the
    linker needs once [g] is used. *)
Fixpoint links (depth : nat) (g : fn) : bool :=
  match body g with
  | None => false
  | Some b =>
      match depth with
      | 0 => false
      | S d => forallb (links d) (flat_map calls_s b)
      end
  end.

(** The functions without definition that the linker misses once [g] is used
    (complex.hpp:32-192), for calls to the given depth. *)
Fixpoint missing (depth : nat) (g : fn) : list fn :=
  match body g with
  | None => [g]
  | Some b =>
      match depth with
      | 0 => []
      | S d => flat_map (missing d) (flat_map calls_s b)
      end
  end.

Section Run.
Variable T : Type.
Variable zero : T.   (* T() *)

(** complex.hpp:102-103, an object; before its constructor ran a member has no value. *)
Record obj := Obj { re_ : option T; im_ : option T }.

(** complex.hpp:64-72, a member read. *)
Definition member (z : obj) (f : field) : option T := match f with Re => re_ z | Im => im_ z end.

(** complex.hpp:45-62, 74-82, a member is set. *)
Definition set_member (z : obj) (f : field) (v : T) : obj :=
  match f with Re => Obj (Some v) (im_ z) | Im => Obj (re_ z) (Some v) end.

(** What a call gives (complex.hpp:32-192): the object afterwards and, for the getters, a value; undefined:
    the end is reached without [return], or a member without value is read. *)
Inductive result := Done (this : obj) (value : option T) | Undefined (this : obj).

(** complex.hpp:33-82, the value of a scalar expression; [arg] is the parameter of class type. *)
Definition eval (this arg : obj) (ps : list T) (e : sexp) : option T :=
  match e with
  | Param n => nth_error ps n
  | Zero => Some zero
  | Member f => member this f
  | OfArg f => member arg f
  | ArgMember f => member arg f
  end.

(** complex.hpp:33-82, the statements of a body in order. *)
Fixpoint run (must : bool) (this arg : obj) (ps : list T) (b : list stmt) : result :=
  match b with
  | [] => if must then Undefined this else Done this None
  | SetMember f e :: b' =>
      match eval this arg ps e with
      | Some v => run must (set_member this f v) arg ps b'
      | None => Undefined this
      end
  | ReturnT e :: _ =>
      match eval this arg ps e with Some v => Done this (Some v) | None => Undefined this end
  | ReturnCompound _ _ _ :: _ => Undefined this   (* calls a function without body: does not link *)
  end.

(** A call of a function of complex.hpp:32-82 on [this]; if [this] is also the argument
    ([z = z]) the members are read before they are set to the same values. *)
Definition call (g : fn) (this arg : obj) (ps : list T) : result :=
  match body g with
  | None => Undefined this
  | Some b => run (must_return g) this arg ps b
  end.

(** Programs that use the class: declarations of variables (numbered from 0), setters,
    assignments, operators.  These are not in the source; they stand for the callers of
    complex.hpp:32-192. *)
Inductive scalar_use := Value (v : T) | PartOf (f : field) (i : nat) | AbsOf (i : nat).
(** Statements that use complex.hpp:32-192. *)
Inductive use :=
| Declare (re im : scalar_use)            (* complex<T> z( re, im ); *)
| DeclareReal (re : scalar_use)           (* complex<T> z( re ); *)
| DeclareDefault                          (* complex<T> z; *)
| DeclareCopy (i : nat)                   (* complex<T> z( x ); *)
| SetPart (f : field) (i : nat) (v : scalar_use)   (* x.real( v ); x.imag( v ); *)
| AssignVar (i j : nat)                   (* x = y; *)
| AssignReal (i : nat) (v : scalar_use)   (* x = v; *)
| Compound (o : op) (i j : nat)           (* x o= y; *)
| CompoundReal (o : op) (i : nat) (v : scalar_use) (* x o= v; *)
| Binary (o : op) (i j : nat)             (* complex<T> z( x o y ); *)
| BinaryReal (o : op) (i : nat) (v : scalar_use)   (* complex<T> z( x o v ); *)
| RealBinary (o : op) (v : scalar_use) (i : nat)   (* complex<T> z( v o x ); *)
| Negate (i : nat)                        (* complex<T> z( -x ); *)
| Root (i : nat).                         (* complex<T> z( sqrt( x ) ); *)

(** The functions of complex.hpp:32-192 that overload resolution selects for a use. *)
Definition selects_v (v : scalar_use) : list fn :=
  match v with Value _ => [] | PartOf f _ => [Get f] | AbsOf _ => [Abs] end.
(** complex.hpp:32-192, for a statement. *)
Definition selects (u : use) : list fn :=
  match u with
  | Declare re im => Ctor :: selects_v re ++ selects_v im
  | DeclareReal re => Ctor :: selects_v re
  | DeclareDefault => [Ctor]
  | DeclareCopy _ => [CopyCtor]
  | SetPart f _ v => Set_ f :: selects_v v
  | AssignVar _ _ => [AssignC]
  | AssignReal _ v => AssignT :: selects_v v
  | Compound o _ _ => [CompX o]
  | CompoundReal o _ v => CompT o :: selects_v v
  | Binary o _ _ => [BinCC o]
  | BinaryReal o _ v => BinCT o :: selects_v v
  | RealBinary o v _ => BinTC o :: selects_v v
  | Negate _ => [UnaryMinus]
  | Root _ => [Sqrt]
  end.

(** What becomes of a program that uses complex.hpp:32-192: it does not link, its behaviour is
    undefined, or it ends with these variables. *)
Inductive fate := NotLinked | UndefinedBehaviour | Ends (vars : list obj).

(** An object before its constructor ran (complex.hpp:32-43). *)
Definition raw : obj := Obj None None.

(** The value of an argument, by the getters (complex.hpp:64-72). *)
Definition arg_value (vars : list obj) (v : scalar_use) : option T :=
  match v with
  | Value x => Some x
  | PartOf f i =>
      match call (Get f) (nth i vars raw) raw [] with Done _ r => r | Undefined _ => None end
  | AbsOf _ => None
  end.

(** [vars] with the variable [i] replaced, as calls on it (complex.hpp:45-82) do. *)
Definition update (vars : list obj) (i : nat) (z : obj) : list obj :=
  firstn i vars ++ match skipn i vars with [] => [] | _ :: r => z :: r end.

(** One use of complex.hpp:32-82; the default arguments of line 32 are [T()].  [None]: undefined. *)
Definition step (vars : list obj) (u : use) : option (list obj) :=
  let on i r := match r with Done z _ => Some (update vars i z) | Undefined _ => None end in
  let new r := match r with Done z _ => Some (vars ++ [z]) | Undefined _ => None end in
  match u with
  | Declare re im =>
      match arg_value vars re, arg_value vars im with
      | Some a, Some b => new (call Ctor raw raw [a; b])
      | _, _ => None
      end
  | DeclareReal re =>
      match arg_value vars re with Some a => new (call Ctor raw raw [a; zero]) | None => None end
  | DeclareDefault => new (call Ctor raw raw [zero; zero])
  | DeclareCopy i => new (call CopyCtor raw (nth i vars raw) [])
  | SetPart f i v =>
      match arg_value vars v with Some a => on i (call (Set_ f) (nth i vars raw) raw [a]) | None => None end
  | AssignVar i j => on i (call AssignC (nth i vars raw) (nth j vars raw) [])
  | AssignReal i v =>
      match arg_value vars v with Some a => on i (call AssignT (nth i vars raw) raw [a]) | None => None end
  | _ => None
  end.

(** The uses in order (complex.hpp:32-82). *)
Fixpoint steps (vars : list obj) (p : list use) : option (list obj) :=
  match p with
  | [] => Some vars
  | u :: p' => match step vars u with Some vars' => steps vars' p' | None => None end
  end.

(** A program that uses complex.hpp:32-192: linked as a whole, then run.  No function of the header calls
    itself; 3 is the depth of its calls. *)
Definition build_and_run (p : list use) : fate :=
  if forallb (links 3) (flat_map selects p) then
    match steps [] p with Some vars => Ends vars | None => UndefinedBehaviour end
  else NotLinked.

End Run.
