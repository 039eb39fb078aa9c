(** * example/desktop/matrix.e.cpp and range.e.cpp: the text they print *)
From Coq Require Import ZArith List Bool Ascii String.
From Flocq Require Import Core IEEE754.BinarySingleNaN.
From Verif Require Import Base Matrix Scalars Kalman KalmanSim Ieee KalmanIeee Range RangeFloat Output.
Import List ListNotations.
Local Open Scope string_scope.
Local Open Scope Z_scope.

(** ** matrix.e.cpp *)

(** matrix.e.cpp:14-46, an int literal converted to [double]. *)
Definition d (n : Z) : double := ieee_of_Z 53 1024 n.

(** matrix.e.cpp:16-46, [... << caption << m]: an N x M matrix after its caption. *)
Definition item {T} (show : T -> string) (N M : nat) (caption : string) (m : outcome (matrix T))
  : outcome string :=
  v <- m ;; s <- show_matrix show N M v ;; Ok (nl ++ caption ++ s).

(** matrix.e.cpp:15-46, the texts inserted one after the other. *)
Fixpoint insert_all (l : list (outcome string)) : outcome string :=
  match l with
  | [] => Ok ""
  | x :: r => s <- x ;; t <- insert_all r ;; Ok (s ++ t)
  end.

(** matrix.e.cpp:12-47, [main]. *)
Definition matrix_main : outcome string :=
  let S := double_scalar in
  let show := @show_float 53 1024 in
  x <- mat_il S 2 1 [d 1; d 2] ;;                                          (* line 14 *)
  y <- mat_il S 1 2 [d 1; d 2] ;;                                          (* line 22 *)
  A <- mat_il S 2 2 [d 1; d 2; d 3; d 4] ;;                                (* lines 28-29 *)
  insert_all
    [ item show 2 1 ("x =" ++ nl) (Ok x);                                  (* lines 16-20 *)
      item show 2 1 ("x + x =" ++ nl) (add_mm S 2 1 x x);
      item show 2 1 ("x * 2 =" ++ nl) (mul_ms S 2 1 x (d 2));
      item show 2 1 ("2 * x =" ++ nl) (mul_sm S 2 1 (d 2) x);
      item show 1 2 ("transposed(x) =" ++ nl) (transposed_col S 2 x);
      item show 1 2 ("y =" ++ nl) (Ok y);                                  (* lines 24-26 *)
      item show 2 2 ("x * y =" ++ nl) (outer S 2 x y);
      (v <- dot S 2 y x ;; Ok (nl ++ "y * x =" ++ nl ++ " " ++ show v ++ nl));
      item show 2 2 ("A =" ++ nl) (Ok A);                                  (* lines 31-38 *)
      item show 2 2 ("A + A =" ++ nl) (add_mm S 2 2 A A);
      item show 2 2 ("A * 2 =" ++ nl) (mul_ms S 2 2 A (d 2));
      item show 2 2 ("2 * A =" ++ nl) (mul_sm S 2 2 (d 2) A);
      item show 2 1 ("A * x =" ++ nl ++ " ") (mul_mv S 2 2 A x);
      item show 1 2 ("y * A =" ++ nl ++ " ") (mul_vm S 2 2 y A);
      item show 2 2 ("transposed(A) =" ++ nl) (transposed_22 A);
      item show 2 2 ("inverted(A) =" ++ nl) (inverted_22 S A);
      item show 2 1 ("r =" ++ nl) (mul_mv S 2 2 A x);                      (* lines 40-43 *)
      item show_Z 3 3 ("eye<3,int>() =" ++ nl) (eye (int_scalar 32) 3) ].  (* lines 45-46 *)

(** ** range.e.cpp *)

(** range.e.cpp:20-26 and 30-36: a loop over a range whose body prints and then, if [stop],
    breaks; before it breaks, the iterator is not incremented again.  The fuel bounds the
    number of passes. *)
Fixpoint for_break {It V} (ne : It -> It -> bool) (deref : It -> V) (incr : It -> outcome It)
    (stop : V -> bool) (fuel : nat) (i e : It) : list V * loop_status :=
  if ne i e then
    match fuel with
    | O => ([], Running)
    | S n =>
        if stop (deref i) then ([deref i], Finished)
        else
          match incr i with
          | Ok j => let '(l, s) := for_break ne deref incr stop n j e in (deref i :: l, s)
          | Err x => ([deref i], Stuck x)
          end
    end
  else ([], Finished).

(** range.e.cpp:18-90, a caption and the values of a loop, each followed by a space; [None]:
    the loop has not ended. *)
Definition loop_text {V} (caption : string) (show : V -> string) (l : list V * loop_status)
  : outcome (option string) :=
  match snd l with
  | Finished => Ok (Some (nl ++ caption ++ fold_right (fun v r => show v ++ " " ++ r) "" (fst l)))
  | Running => Ok None
  | Stuck e => Err e
  end.

(** range.e.cpp:20-55, [int]; [std::size_t] for 69-87, the [size()] of an array, vector and
    initializer list.  On a platform with 32 and 64 bits. *)
Definition int32_ : int_type := {| it_w := 32; it_signed := true; it_ib := 32 |}.
(** (range.e.cpp:69-87) *)
Definition size64 : int_type := {| it_w := 64; it_signed := false; it_ib := 32 |}.

(** range.e.cpp:18-92, the texts of the loops in order. *)
Fixpoint loops (l : list (outcome (option string))) : outcome (option string) :=
  match l with
  | [] => Ok (Some nl)                                                     (* line 92 *)
  | x :: r => s <- x ;; t <- loops r ;;
      Ok (match s, t with Some s, Some t => Some (s ++ t) | _, _ => None end)
  end.

(** range.e.cpp:14-93, [main].  The arguments of line 54 have the common type [double]. *)
Definition range_main (fuel : nat) : outcome (option string) :=
  let i3 := range1 20 in
  let i4 := infinite_step (range1 0) 2 in
  let r2 := range2 int32_ int32_ 0 10 in
  let r3 := range3 int32_ int32_ int32_ 0 10 3 in
  loops
    [ loop_text "range( 20 ), infinite, break at 42: " show_Z
        (for_break si_ne si_deref (si_incr int32_) (fun i => i =? 42) fuel (sp_begin i3) (sp_end i3));
      loop_text "range( 0 ).step( 2 ), infinite, break at 7: " show_Z
        (for_break si_ne si_deref (si_incr int32_) (fun i => 7 <=? i) fuel (sp_begin i4) (sp_end i4));
      loop_text "range( 0, 10 ): " show_Z (loop_over (fst r2) (snd r2) fuel);
      loop_text "range( 0, 10, 3 ): " show_Z (loop_over_step (fst r3) (snd r3) fuel);
      loop_text "range( -5, 5.5, 0.5 ): " (@show_float 53 1024)
        (float_loop_step 53 1024 (d (-5)) (literal 11 2) (literal 1 2) false fuel);
      loop_text "indices( c_arr ): " show_Z (loop_over size64 (indices 3) fuel);
      loop_text "indices( std_vec ): " show_Z (loop_over size64 (indices 4) fuel);
      loop_text "indices({ 1,2,4,6,8 }): " show_Z (loop_over size64 (indices 5) fuel) ].
