(** * Textbook Kalman filter over the reals, 2 states

    Written independently of the library's matrix code: explicit 2x2 algebra. *)

From Coq Require Import Reals List.
From Verif Require Import Base Matrix Scalars Kalman.
Import ListNotations.
Local Open Scope R_scope.

Record mat2 := M2 { m00 : R; m01 : R; m10 : R; m11 : R }.
Record vec2 := V2 { v0 : R; v1 : R }.

Definition madd (a b : mat2) : mat2 :=
  M2 (m00 a + m00 b) (m01 a + m01 b) (m10 a + m10 b) (m11 a + m11 b).
Definition msub (a b : mat2) : mat2 :=
  M2 (m00 a - m00 b) (m01 a - m01 b) (m10 a - m10 b) (m11 a - m11 b).
Definition mmul (a b : mat2) : mat2 :=
  M2 (m00 a * m00 b + m01 a * m10 b) (m00 a * m01 b + m01 a * m11 b)
     (m10 a * m00 b + m11 a * m10 b) (m10 a * m01 b + m11 a * m11 b).
Definition mtr (a : mat2) : mat2 := M2 (m00 a) (m10 a) (m01 a) (m11 a).
Definition mI : mat2 := M2 1 0 0 1.
Definition mscale (c : R) (a : mat2) : mat2 :=
  M2 (c * m00 a) (c * m01 a) (c * m10 a) (c * m11 a).
Definition mdet (a : mat2) : R := m00 a * m11 a - m01 a * m10 a.
(** The inverse (meaningful for [mdet a <> 0]). *)
Definition minv (a : mat2) : mat2 :=
  M2 (m11 a / mdet a) (- m01 a / mdet a) (- m10 a / mdet a) (m00 a / mdet a).
Definition mv (a : mat2) (x : vec2) : vec2 :=
  V2 (m00 a * v0 x + m01 a * v1 x) (m10 a * v0 x + m11 a * v1 x).
Definition vadd (x y : vec2) : vec2 := V2 (v0 x + v0 y) (v1 x + v1 y).
Definition vsub (x y : vec2) : vec2 := V2 (v0 x - v0 y) (v1 x - v1 y).
Definition vscale (c : R) (x : vec2) : vec2 := V2 (c * v0 x) (c * v1 x).
Definition vdot (x y : vec2) : R := v0 x * v0 y + v1 x * v1 y.
Definition vouter (x y : vec2) : mat2 :=
  M2 (v0 x * v0 y) (v0 x * v1 y) (v1 x * v0 y) (v1 x * v1 y).

(** Symmetry, positive semidefiniteness (quadratic form) and the Loewner order. *)
Definition sym (p : mat2) : Prop := m01 p = m10 p.
Definition quad (p : mat2) (x : vec2) : R := vdot x (mv p x).
Definition psd (p : mat2) : Prop := forall x, 0 <= quad p x.
Definition loewner_le (p q : mat2) : Prop := forall x, quad p x <= quad q x.

(** ** Single measurement, single input *)

(** System description: x' = A x + B u + process noise (covariance Q),
    z = H x + measurement noise (variance R). *)
Record sys := Sys { sA : mat2; sB : vec2; sH : vec2; sQ : mat2; sR : R; sdt : R }.
Record est := Est { eK : option vec2; eP : mat2; ex : vec2; et : R }.

(** Predicted state and covariance, innovation covariance. *)
Definition xpred (s : sys) (x : vec2) (u : R) : vec2 :=
  vadd (mv (sA s) x) (vscale u (sB s)).
Definition Ppred (s : sys) (P : mat2) : mat2 :=
  madd (mmul (mmul (sA s) P) (mtr (sA s))) (sQ s).
Definition Sinn (s : sys) (Pm : mat2) : R := quad Pm (sH s) + sR s.

(** Textbook gain, for non-zero innovation covariance. *)
Definition Kopt (s : sys) (Pm : mat2) : vec2 := vscale (/ Sinn s Pm) (mv Pm (sH s)).

(** Correction of state and covariance with a gain [K]. *)
Definition xcorr (s : sys) (K xm : vec2) (z : R) : vec2 :=
  vadd xm (vscale (z - vdot (sH s) xm) K).
Definition Pcorr (s : sys) (K : vec2) (Pm : mat2) : mat2 :=
  mmul (msub mI (vouter K (sH s))) Pm.
(** Joseph form: the error covariance resulting from an arbitrary gain. *)
Definition Pjoseph (s : sys) (K : vec2) (Pm : mat2) : mat2 :=
  madd (mmul (mmul (msub mI (vouter K (sH s))) Pm) (mtr (msub mI (vouter K (sH s)))))
       (mscale (sR s) (vouter K K)).

(** ** How specification values appear in the library's objects *)

Definition enc2 (a : mat2) : matrix R :=
  [Some (m00 a); Some (m01 a); Some (m10 a); Some (m11 a)].
Definition encv (x : vec2) : matrix R := [Some (v0 x); Some (v1 x)].
Definition enc1 (r : R) : matrix R := [Some r].

Definition enc_sys (s : sys) : kparams R :=
  {| kA := enc2 (sA s); kB := encv (sB s); kH := encv (sH s); kQ := enc2 (sQ s);
     kR := enc1 (sR s); kdt := sdt s |}.
Definition enc_est (e : est) : kstate R :=
  {| kK := match eK e with
           | Some k => encv k | None => mat_default R_scalar false 2 1 end;
     kP := enc2 (eP e); kx := encv (ex e); kt := et e |}.
Definition enc_hist (h : list (R * R)) : list (matrix R * matrix R) :=
  map (fun uz => (enc1 (fst uz), enc1 (snd uz))) h.

(** One textbook step. *)
Definition textbook_step (s : sys) (e : est) (u z : R) : est :=
  let Pm := Ppred s (eP e) in
  let K := Kopt s Pm in
  Est (Some K) (Pcorr s K Pm) (xcorr s K (xpred s (ex e) u) z) (et e + sdt s).

(** A freshly constructed estimator: the gain has no value yet, the time is zero. *)
Definition fresh (P : mat2) (x : vec2) : est := Est None P x 0.

(** The usual modelling assumptions: covariances are symmetric positive semidefinite. *)
Definition covariances_ok (s : sys) (P : mat2) : Prop :=
  sym P /\ psd P /\ sym (sQ s) /\ psd (sQ s) /\ 0 <= sR s.

(** The real world: state [x] evolves under inputs [u] and process noise [w]; the sensor
    adds noise [v].  [observe] lists what the estimator gets to see, [evolve] is the true
    final state. *)
Definition true_next (s : sys) (x : vec2) (u : R) (w : vec2) : vec2 :=
  vadd (vadd (mv (sA s) x) (vscale u (sB s))) w.
Fixpoint evolve (s : sys) (x : vec2) (h : list (R * vec2 * R)) : vec2 :=
  match h with
  | [] => x
  | (u, w, _) :: h' => evolve s (true_next s x u w) h'
  end.
Fixpoint observe (s : sys) (x : vec2) (h : list (R * vec2 * R)) : list (R * R) :=
  match h with
  | [] => []
  | (u, w, v) :: h' =>
      let x' := true_next s x u w in
      (u, vdot (sH s) x' + v) :: observe s x' h'
  end.

Definition mtrace (a : mat2) : R := m00 a + m11 a.

(** ** Two measurements *)

Record sys2 := Sys2 { tA : mat2; tB : vec2; tH : mat2; tQ : mat2; tR : mat2; tdt : R }.
Record est2 := Est2 { fK : mat2; fP : mat2; fx : vec2; ft : R }.

Definition Ppred2 (s : sys2) (P : mat2) : mat2 :=
  madd (mmul (mmul (tA s) P) (mtr (tA s))) (tQ s).
Definition Sinn2 (s : sys2) (Pm : mat2) : mat2 :=
  madd (mmul (mmul (tH s) Pm) (mtr (tH s))) (tR s).

(** Textbook step with two measurements, given the matrix [W] used as inverse of the
    innovation covariance. *)
Definition step2_with (W : mat2) (s : sys2) (P : mat2) (x : vec2) (t : R) (u : R) (z : vec2)
  : est2 :=
  let Pm := Ppred2 s P in
  let K := mmul (mmul Pm (mtr (tH s))) W in
  let xm := vadd (mv (tA s) x) (vscale u (tB s)) in
  Est2 K (mmul (msub mI (mmul K (tH s))) Pm)
       (vadd xm (mv K (vsub z (mv (tH s) xm)))) (t + tdt s).

Definition enc_sys2 (s : sys2) : kparams R :=
  {| kA := enc2 (tA s); kB := encv (tB s); kH := enc2 (tH s); kQ := enc2 (tQ s);
     kR := enc2 (tR s); kdt := tdt s |}.
Definition enc_est2 (e : est2) : kstate R :=
  {| kK := enc2 (fK e); kP := enc2 (fP e); kx := encv (fx e); kt := ft e |}.
