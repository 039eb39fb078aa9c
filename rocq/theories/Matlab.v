(** * Model of example/matlab/kalman.m and kalman-sim.m

    The programs the C++ code is meant to reproduce.  Numbers are real numbers
    (simplification: no rounding). *)

From Coq Require Import Reals List ZArith.
From Verif Require Import Base Matrix KalmanSim.
Import ListNotations.
Local Open Scope R_scope.

(** A matrix: its rows, all of one length (language; all variables of kalman.m:8-23). *)
Definition mat := list (list R).

(** The number of columns (language; used for the products of kalman.m:31-47). *)
Definition columns (a : mat) : nat := length (hd [] a).

(** [a'] (language; kalman.m:34, 40). *)
Definition transpose (a : mat) : mat :=
  map (fun j => map (fun r => nth j r 0) a) (seq 0 (columns a)).

(** The sum of products of two rows of numbers (language; [*] of kalman.m:31-47). *)
Definition sum_of_products (r c : list R) : R :=
  fold_right Rplus 0 (map (fun p => fst p * snd p) (combine r c)).

(** [a * b] (language; kalman.m:31-47): nonconformant operands are an error.
    Simplification: no product with a 1x1 matrix of other than conformant sizes (the
    programs have none). *)
Definition mtimes (a b : mat) : outcome mat :=
  if Nat.eqb (columns a) (length b)
  then Ok (map (fun r => map (fun c => sum_of_products r c) (transpose b)) a)
  else Err DomainError.

(** Element by element; operands of different size are an error (language; kalman.m:31-47).
    Simplification: no automatic broadcasting (the programs do not use it). *)
Definition elementwise (f : R -> R -> R) (a b : mat) : outcome mat :=
  if (Nat.eqb (length a) (length b) && Nat.eqb (columns a) (columns b))%bool
  then Ok (map (fun p => map (fun q => f (fst q) (snd q)) (combine (fst p) (snd p))) (combine a b))
  else Err DomainError.

(** [a + b] (language; kalman.m:31-43; kalman-sim.m:70, 73). *)
Definition plus := elementwise Rplus.
(** [a - b] (language; kalman.m:43, 47). *)
Definition minus := elementwise Rminus.
(** [c * a] with a number [c] (language; kalman-sim.m:37, 70). *)
Definition times_number (c : R) (a : mat) : mat := map (map (Rmult c)) a.

(** [inv( a )] (library; kalman.m:40) for 1x1 and 2x2: the inverse; for a singular matrix
    the result is infinite (with a warning) and has no real value. *)
Definition inv (a : mat) : outcome mat :=
  match a with
  | [[x]] => if Req_EM_T x 0 then Err DivByZero else Ok [[/ x]]
  | [[x; y]; [z; w]] =>
      let det := x * w - y * z in
      if Req_EM_T det 0 then Err DivByZero
      else Ok [[w / det; - y / det]; [- z / det; x / det]]
  | _ => Err DomainError
  end.

(** [eye( n )] (library; kalman.m:46). *)
Definition eye (n : nat) : mat :=
  map (fun i => map (fun j => if Nat.eqb i j then 1 else 0) (seq 0 n)) (seq 0 n).

(** [length( a )]: the larger of the numbers of rows and columns (library; kalman.m:46). *)
Definition length_of (a : mat) : nat := Nat.max (length a) (columns a).

(** kalman.m:8-48, [ [K, xhat, P] = kalman( u, z, A, B, H, Q, R, P, xhat ) ]. *)
Definition kalman_m (u z A B H Q R P xhat : mat) : outcome (mat * mat * mat) :=
  Ax <- mtimes A xhat ;; Bu <- mtimes B u ;;
  xhat <- plus Ax Bu ;;                                          (* line 31 *)
  AP <- mtimes A P ;; APA <- mtimes AP (transpose A) ;;
  P <- plus APA Q ;;                                             (* line 34 *)
  PH <- mtimes P (transpose H) ;;
  HP <- mtimes H P ;; HPH <- mtimes HP (transpose H) ;;
  S <- plus HPH R ;; iS <- inv S ;;
  K <- mtimes PH iS ;;                                           (* line 40 *)
  Hx <- mtimes H xhat ;; y <- minus z Hx ;; Ky <- mtimes K y ;;
  xhat <- plus xhat Ky ;;                                        (* line 43 *)
  let I := eye (length_of xhat) in                               (* line 46 *)
  KH <- mtimes K H ;; IKH <- minus I KH ;;
  P <- mtimes IKH P ;;                                           (* line 47 *)
  Ok (K, xhat, P).

(** [a(i)] with one index counts from 1 down the columns (language; kalman-sim.m:78-86). *)
Definition index (a : mat) (i : nat) : outcome R :=
  match nth_error (concat (transpose a)) (i - 1) with Some v => Ok v | None => Err OutOfBounds end.

(** [first : step : last] (language; kalman-sim.m:65), for integers and a positive step. *)
Definition colon (first step last : Z) : list Z :=
  map (fun k => (first + step * Z.of_nat k)%Z) (seq 0 (Z.to_nat ((last - first) / step + 1))).

(** kalman-sim.m:65-87: the loop, for the values of [t] left, with three draws of [randn]
    per pass: two for the process noise, one for the measurement; the measurement and what
    is collected for plotting.  [None]: more draws are needed. *)
Fixpoint sim_m_loop (ts : list Z) (dt accelnoise measnoise : R) (A B H Q Rn P x xhat : mat)
    (draws : list (R * R * R)) : outcome (option (list (R * plot R))) :=
  match ts, draws with
  | [], _ => Ok (Some [])
  | _ :: _, [] => Ok None
  | _ :: ts, (g1, g2, g) :: draws =>
      let u := [[1]] in                                                              (* line 67 *)
      Ax <- mtimes A x ;; Bu <- mtimes B u ;; s <- plus Ax Bu ;;
      x <- plus s (times_number accelnoise [[dt * dt / 2 * g1]; [dt * g2]]) ;;        (* line 70 *)
      Hx <- mtimes H x ;;
      z <- plus Hx [[measnoise * g]] ;;                                              (* line 73 *)
      r <- kalman_m u z A B H Q Rn P xhat ;;                                          (* line 76 *)
      let '(K, xhat, P) := r in
      x1 <- index x 1 ;; h1 <- index xhat 1 ;; z1 <- index z 1 ;; k1 <- index K 1 ;; p1 <- index P 1 ;;
      x2 <- index x 2 ;; h2 <- index xhat 2 ;; k2 <- index K 2 ;; p2 <- index P 2 ;; (* lines 78-86 *)
      l <- sim_m_loop ts dt accelnoise measnoise A B H Q Rn P x xhat draws ;;
      Ok (option_map (cons (z1, {| p_pos := x1; p_poshat := h1; p_posgain := k1; p_posecov := p1;
                                   p_vel := x2; p_velhat := h2; p_velgain := k2; p_velecov := p2 |})) l)
  end.

(** kalman-sim.m:10-87, the script up to the end of its loop. *)
Definition sim_m (draws : list (R * R * R)) : outcome (option (list (R * plot R))) :=
  let dt := 1 in                                                   (* line 11 *)
  let measnoise := 10 in                                           (* line 15 *)
  let accelnoise := 2 / 10 in                                      (* line 16 *)
  let A := [[1; dt]; [0; 1]] in                                    (* lines 19-20 *)
  let B := [[dt * dt / 2]; [dt]] in                                (* lines 23-24 *)
  let H := [[1; 0]] in                                             (* line 27 *)
  let x := [[0]; [0]] in                                           (* lines 30-31 *)
  let Rn := [[measnoise * measnoise]] in                            (* line 34 *)
  let Q := times_number (accelnoise * accelnoise)                  (* lines 37-39 *)
             [[dt * dt * dt * dt / 4; dt * dt * dt / 2]; [dt * dt * dt / 2; dt * dt]] in
  sim_m_loop (colon 0 1 50)  (* T = 50, dt = 1 *) dt accelnoise measnoise A B H Q Rn Q x x draws.
