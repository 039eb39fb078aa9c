(** * Specification of a bounded list of sections, independent of the model's storage *)

From Coq Require Import Reals List ZArith Bool.
From Coquelicot Require Import Complex.
From Verif Require Import Base Biquad Cascade.
Import ListNotations.

(** What the operations do to the list of sections; [None]: the precondition is violated.
    [insert] requires an existing position: it cannot extend the list. *)
Definition list_op {T} (S : scalar T) (N : nat) (l : list (biquad T)) (o : cs_op T)
  : option (list (biquad T)) :=
  let valid i := ((0 <=? i) && (i <? Z.of_nat (length l)))%Z in
  match o with
  | OpClear => Some []
  | OpAppend bq => if (length l <? N)%nat then Some (l ++ [bq]) else None
  | OpRemove i => if valid i then Some (firstn (Z.to_nat i) l ++ skipn (Datatypes.S (Z.to_nat i)) l) else None
  | OpInsert i bq => if valid i && (length l <? N)%nat
                     then Some (firstn (Z.to_nat i) l ++ bq :: skipn (Z.to_nat i) l) else None
  | OpReplace i bq => if valid i then Some (firstn (Z.to_nat i) l ++ bq :: skipn (Datatypes.S (Z.to_nat i)) l) else None
  | OpReset => Some (map (reset S) l)
  end.

Fixpoint list_ops {T} (S : scalar T) (N : nat) (l : list (biquad T)) (os : list (cs_op T))
  : option (list (biquad T)) :=
  match os with
  | [] => Some l
  | o :: os' => match list_op S N l o with Some l' => list_ops S N l' os' | None => None end
  end.

(** What a user can observe of a cascade holding the sections [l]: its size and, for every
    index, coefficients and state; an index outside the list trips the assertion. *)
Definition shows {T} (cs : cascade T) (l : list (biquad T)) : Prop :=
  cs_size cs = Z.of_nat (length l) /\
  forall i : Z,
    match (if (i <? 0)%Z then None else nth_error l (Z.to_nat i)) with
    | Some bq => cs_coeff_a true cs i = Ok (bq_a bq) /\ cs_coeff_b true cs i = Ok (bq_b bq) /\
                 cs_state true cs i = Ok (bq_w bq)
    | None => cs_coeff_a true cs i = Err AssertFailed /\ cs_coeff_b true cs i = Err AssertFailed /\
              cs_state true cs i = Err AssertFailed
    end.

(** One after the other: the whole sequence through the first section, its output through
    the second one, and so on; the output of the last one and the sections afterwards. *)
Fixpoint one_after_the_other {T} (f : biquad T -> T -> outcome (T * biquad T))
         (l : list (biquad T)) (xs : list T) : outcome (list T * list (biquad T)) :=
  match l with
  | [] => Ok (xs, [])
  | bq :: l' =>
      r <- run f bq xs ;; r' <- one_after_the_other f l' (fst r) ;; Ok (fst r', snd r :: snd r')
  end.
