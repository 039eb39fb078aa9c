(** * Reading text: what the output of a program says, independent of how it was written *)

From Coq Require Import Reals ZArith List Bool Ascii String.
Import ListNotations.
Local Open Scope string_scope.
Local Open Scope Z_scope.

(** The character [c] does not occur in [s]. *)
Definition lacks (c : ascii) (s : string) : Prop := ~ In c (list_ascii_of_string s).

(** The pieces of a text between the separators [c]. *)
Fixpoint split (c : ascii) (s : string) : list string :=
  match s with
  | "" => [""]
  | String a s' => if (a =? c)%char then "" :: split c s'
                   else match split c s' with [] => [String a ""] | h :: t => String a h :: t end
  end.

Definition lines (s : string) : list string := split "010" s.
Definition words (s : string) : list string := split " " s.

(** A decimal number: optional minus sign, digits, optional fraction, optional exponent; the
    result is mantissa and exponent of ten. *)
Definition digit_value (a : ascii) : option Z :=
  let v := Z.of_N (N_of_ascii a) - 48 in if (0 <=? v) && (v <=? 9) then Some v else None.

(** Number read so far, digits read so far, rest of the text. *)
Fixpoint read_digits (acc : Z) (k : nat) (s : string) : Z * nat * string :=
  match s with
  | "" => (acc, k, "")
  | String a s' => match digit_value a with
                   | Some v => read_digits (10 * acc + v) (S k) s'
                   | None => (acc, k, s)
                   end
  end.

Definition read_exponent (s : string) : option Z :=
  match s with
  | "" => Some 0
  | String "e" (String "+" t) =>
      match read_digits 0 0 t with (v, S _, "") => Some v | _ => None end
  | String "e" (String "-" t) =>
      match read_digits 0 0 t with (v, S _, "") => Some (- v) | _ => None end
  | _ => None
  end.

Definition read_unsigned (s : string) : option (Z * Z) :=
  match read_digits 0 0 s with
  | (_, O, _) => None
  | (n, S _, String "." t) =>
      match read_digits n 0 t with
      | (_, O, _) => None
      | (n', k, r) => match read_exponent r with Some e => Some (n', e - Z.of_nat k) | None => None end
      end
  | (n, S _, r) => match read_exponent r with Some e => Some (n, e) | None => None end
  end.

Definition read_decimal (s : string) : option (Z * Z) :=
  match s with
  | String "-" t => match read_unsigned t with Some (n, e) => Some (- n, e) | None => None end
  | _ => read_unsigned s
  end.

(** The real number a text denotes. *)
Definition denotes (s : string) (r : R) : Prop :=
  exists n e, read_decimal s = Some (n, e) /\ r = (IZR n * powerRZ 10 e)%R.
