(** * The project's own unit tests on the model

    The expectations of test/*.t.cpp, evaluated on the model. They are no claims and prove
    nothing for other inputs; they compare the model with what the project's authors have
    observed of the code. Left out: cases without expectations (printing, copying and moving
    objects) and the cases on types other than those modelled ([std::complex]). *)

From Coq Require Import ZArith Reals List Bool Lra Lia.
From Coquelicot Require Import Complex.
From Flocq Require Import Core BinarySingleNaN.
From Verif Require Import Base Scalars Matrix FixedPoint Range RangeFloat Limits Algorithm
  Ieee Biquad Cascade KalmanIeee PropsBiquad.
Import ListNotations.
Local Open Scope Z_scope.

(** Floating-point numbers are compared by sign, mantissa and exponent (or nan, infinity,
    zero), the result of an operation by its outcome (the comparisons of test/*.t.cpp). *)
Definition sf {p e} (x : binary_float p e) := B2SF x.
Definition omap {A B} (f : A -> B) (o : outcome A) : outcome B := x <- o ;; Ok (f x).

(** ** test/matrix.t.cpp ([int] of 32 bits) *)

Definition I32 : scalar Z := int_scalar 32.   (* [matrix<int,...>], matrix.t.cpp:56-609 *)

(** 74-96: construction from a single value. *)
Example t_fill_row : mat_fill I32 1 2 7 = Ok [Some 7; Some 7].
Proof. reflexivity. Qed.
Example t_fill : mat_fill I32 2 2 7 = Ok [Some 7; Some 7; Some 7; Some 7].
Proof. reflexivity. Qed.

(** [matrix<int,2,2> A = { 1, 2, 3, 4 }] (matrix.t.cpp:114, and most cases below). *)
Definition A1234 : matrix Z := [Some 1; Some 2; Some 3; Some 4].
(** 98-119: construction from an initializer list. *)
Example t_il : mat_il I32 2 2 [1; 2; 3; 4] = Ok A1234.
Proof. reflexivity. Qed.
Example t_il_row : mat_il I32 1 2 [1; 2] = Ok [Some 1; Some 2].
Proof. reflexivity. Qed.

(** 56-72, 179-195: sizes. *)
Example t_sizes : rows 2 3 = 2%nat /\ columns 2 3 = 3%nat /\ size 2 3 = 6%nat /\ size 3 3 = 9%nat.
Proof. repeat split. Qed.

(** 197-240: observing elements. *)
Example t_at : map (at_ A1234) [0; 1; 2; 3] = map Ok [1; 2; 3; 4] /\
  map (at1 2 A1234) [0; 1; 2; 3] = map Ok [1; 2; 3; 4] /\
  map (fun p => at2 2 A1234 (fst p) (snd p)) [(0, 0); (0, 1); (1, 0); (1, 1)] = map Ok [1; 2; 3; 4].
Proof. repeat split. Qed.

(** 242-285: changing elements. *)
Example t_set : (A <- set_ A1234 2 7 ;; at_ A 2) = Ok 7 /\
  (A <- set1 2 A1234 2 7 ;; at1 2 A 2) = Ok 7 /\ (A <- set2 2 A1234 1 0 7 ;; at2 2 A 1 0) = Ok 7.
Proof. repeat split. Qed.

(** 306-358: vectors of one element and values. *)
Example t_1x1 :
  add_1x1_s I32 [Some 2] 7 = Ok 9 /\ add_s_1x1 I32 7 [Some 3] = Ok 10 /\
  sub_1x1_s I32 [Some 2] 7 = Ok (-5) /\ sub_s_1x1 I32 7 [Some 3] = Ok 4 /\
  mul_1x1_s I32 [Some 2] 3 = Ok 6 /\ mul_s_1x1 I32 3 [Some 3] = Ok 9.
Proof. repeat split. Qed.

(** 360-386: vectors times values. *)
Example t_vs : mul_ms I32 1 2 [Some 1; Some 2] 3 = Ok [Some 3; Some 6] /\
  mul_sm I32 2 1 3 [Some 1; Some 2] = Ok [Some 3; Some 6].
Proof. repeat split. Qed.

(** 388-403: the products of two vectors. *)
Example t_vv : dot I32 2 [Some 1; Some 2] [Some 1; Some 2] = Ok 5 /\
  outer I32 2 [Some 1; Some 2] [Some 1; Some 2] = Ok [Some 1; Some 2; Some 2; Some 4].
Proof. repeat split. Qed.

(** 405-463: matrices and values, sums and differences. *)
Example t_ms :
  add_ms I32 2 2 A1234 7 = Ok [Some 8; Some 9; Some 10; Some 11] /\
  add_sm I32 2 2 7 A1234 = Ok [Some 8; Some 9; Some 10; Some 11] /\
  mul_ms I32 2 2 A1234 7 = Ok [Some 7; Some 14; Some 21; Some 28] /\
  mul_sm I32 2 2 7 A1234 = Ok [Some 7; Some 14; Some 21; Some 28] /\
  add_mm I32 2 2 A1234 A1234 = Ok [Some 2; Some 4; Some 6; Some 8] /\
  sub_mm I32 2 2 A1234 A1234 = Ok [Some 0; Some 0; Some 0; Some 0].
Proof. repeat split. Qed.

(** 465-521: products of matrices. *)
Example t_mm :
  mul_1x1_m I32 2 2 [Some 2] A1234 = Ok [Some 2; Some 4; Some 6; Some 8] /\
  mul_m_1x1 I32 2 2 A1234 [Some 2] = Ok [Some 2; Some 4; Some 6; Some 8] /\
  mul_mm I32 2 2 A1234 A1234 = Ok [Some 7; Some 10; Some 15; Some 22] /\
  mul_vm I32 2 2 [Some 1; Some 2] A1234 = Ok [Some 7; Some 10] /\
  mul_mv I32 2 2 A1234 [Some 1; Some 2] = Ok [Some 5; Some 11].
Proof. repeat split. Qed.

(** 523-551: transposition. *)
Example t_transposed :
  transposed_row I32 2 [Some 1; Some 2] = Ok [Some 1; Some 2] /\
  transposed_col I32 2 [Some 1; Some 2] = Ok [Some 1; Some 2] /\
  transposed_22 A1234 = Ok [Some 1; Some 3; Some 2; Some 4].
Proof. repeat split. Qed.

(** 567-584: the inverse, in [double]. The expected matrix (line 579) is the transpose of the
    inverse of (1 2; 3 4), which is (-2 1; 1.5 -0.5): see C09. *)
Example t_inverted :
  omap sf (inverted_s double_scalar (literal 1 2)) = Ok (sf (literal 2 1)) /\
  omap (map (option_map sf))
    (inverted_22 double_scalar [Some (literal 1 1); Some (literal 2 1); Some (literal 3 1); Some (literal 4 1)]) =
  Ok (map (fun x => Some (sf x)) [literal (-2) 1; literal 3 2; literal 1 1; literal (-1) 2]).
Proof. split; vm_compute; reflexivity. Qed.

(** 600-609: the identity. *)
Example t_eye : eye I32 3 =
  Ok [Some 1; Some 0; Some 0; Some 0; Some 1; Some 0; Some 0; Some 0; Some 1].
Proof. reflexivity. Qed.

(** ** test/fixed-point.t.cpp *)

(** [fixed_point<T,I>] on the desktop, [T] of [w] bits (fixed-point.t.cpp:61, 116, 131-133). *)
Definition desktop w I := {| fx_w := w; fx_ib := 32; fx_F := default_F w I; fx_cpp20 := false |}.
(** [fixed_point<int,15>], [fp32_t] (fixed-point.t.cpp:49). *)
Definition fp32 : fx := desktop 32 15.

(** 59-64, 80-112: construction from an integer and observing it. *)
Example t_fx_int : (a <- fx_of_int fp32 42 ;; fx_as_int fp32 32 a) = Ok 42.
Proof. reflexivity. Qed.

(** lest::approx (test/lest/lest.hpp:429-473): relative error below 100 epsilon of [float]. *)
Definition approx (a b : R) : Prop :=
  (Rabs (a - b) < 100 * bpow radix2 (-23) * (1 + Rmin (Rabs a) (Rabs b)))%R.

Lemma of_real_stored c v p z : power2 (fx_F c) = Ok p -> chk (fx_w c) z = Ok z ->
  (0 <= v)%R -> (IZR z <= IZR p * v + 1/2 < IZR z + 1)%R -> fx_of_real c v = Ok z.
Proof.
  intros Hp Hz Hv B. unfold fx_of_real. rewrite Hp. cbn [bind]. destruct (Rle_dec 0 v); [|lra].
  replace (Rtrunc (IZR p * v + 1/2)) with z; [exact Hz|].
  destruct (archimed (IZR p * v + 1/2)) as [U1 U2].
  assert (P0 : (0 <= IZR p * v + 1/2)%R).
  { assert (0 <= p) by (clear - Hp; unfold power2 in Hp; revert Hp; 
      assert (G : forall n r p, 0 <= r -> power2_loop n r = Ok p -> 0 <= p);
      [induction n as [|n IH]; cbn [power2_loop]; intros r q Hr E; [injection E; lia|];
       unfold chk in E; destruct (_ : bool); cbn in E; [eapply (IH _ _ _ E)|discriminate]
      |intros; eapply G; [|eassumption]; lia]).
    apply IZR_le in H. pose proof (Rmult_le_pos _ _ H Hv). lra. }
  unfold Rtrunc. destruct (Rle_dec 0 _); [|lra]. unfold Int_part.
  rewrite <- (up_tech _ z) by (rewrite ?plus_IZR; lra). lia.
  Unshelve. all: lia.
Qed.

(** 66-78: construction from [float] and [double] (exact arithmetic). *)
Example t_fx_real :
  (exists a r, fx_of_real fp32 (123 / 100) = Ok a /\ fx_as_real fp32 a = Ok r /\ approx r (123 / 100)) /\
  (exists a r, fx_of_real fp32 (314 / 100) = Ok a /\ fx_as_real fp32 a = Ok r /\ approx r (314 / 100)).
Proof.
  split.
  - exists 80609, (IZR 80609 / IZR 65536)%R. split; [apply (of_real_stored _ _ 65536); [reflexivity|reflexivity|lra|lra]|].
    split; [reflexivity|]. unfold approx, fx_rep. change (bpow radix2 (-23)) with (/ 8388608)%R.
    replace (Rabs (IZR 80609 / IZR 65536 - 123 / 100)) with (123/100 - IZR 80609 / IZR 65536)%R by (rewrite Rabs_left; lra).
    rewrite !Rabs_pos_eq by lra. rewrite Rmin_left by lra. lra.
  - exists 205783, (IZR 205783 / IZR 65536)%R. split; [apply (of_real_stored _ _ 65536); [reflexivity|reflexivity|lra|lra]|].
    split; [reflexivity|]. unfold approx, fx_rep. change (bpow radix2 (-23)) with (/ 8388608)%R.
    replace (Rabs (IZR 205783 / IZR 65536 - 314 / 100)) with (314/100 - IZR 205783 / IZR 65536)%R by (rewrite Rabs_left; lra).
    rewrite !Rabs_pos_eq by lra. rewrite Rmin_left by lra. lra.
Qed.

(** 114-127: minimum and maximum of [fixed_point<char,3>]. *)
Example t_fx_minmax : Ok (fx_min (desktop 8 3)) = fx_of_int (desktop 8 3) (-8) /\
  Ok (fx_max (desktop 8 3)) = fx_of_real (desktop 8 3) (79375 / 10000) /\
  fx_as_real (desktop 8 3) (fx_max (desktop 8 3)) = Ok (79375 / 10000)%R.
Proof.
  split; [reflexivity|]. split.
  - symmetry. apply (of_real_stored _ _ 16); [reflexivity|reflexivity|lra|cbn; lra].
  - change (Ok (IZR 127 / IZR 16)%R = Ok (79375 / 10000)%R). f_equal. lra.
Qed.

(** 129-138: the underlying value. *)
Example t_fx_underlying : fx_of_int (desktop 16 15) 42 = Ok (Z.shiftl 42 (16 - 1 - 15)) /\
  fx_of_int (desktop 16 14) 42 = Ok (Z.shiftl 42 (16 - 1 - 14)) /\
  fx_of_int (desktop 16 3) 4 = Ok (Z.shiftl 4 (16 - 1 - 3)).
Proof. repeat split. Qed.

(** Both operands of a test case converted from integers. *)
Definition with2 {A} (x y : Z) (f : Z -> Z -> A) : outcome A :=   (* fixed-point.t.cpp:142-143 and on *)
  a <- fx_of_int fp32 x ;; b <- fx_of_int fp32 y ;; Ok (f a b).

(** 140-170: comparisons. *)
Example t_fx_compare :
  with2 4 4 fx_eq = Ok true /\ with2 4 2 fx_ne = Ok true /\
  map (with2 2 4) [fx_lt; fx_le; fx_gt; fx_ge] = map Ok [true; true; false; false] /\
  map (with2 4 2) [fx_lt; fx_le; fx_gt; fx_ge] = map Ok [false; false; true; true] /\
  map (with2 4 4) [fx_le; fx_ge] = map Ok [true; true].
Proof. repeat split. Qed.

(** 172-184: unary plus and minus. *)
Example t_fx_unary : (a <- fx_of_int fp32 42 ;; fx_pos fp32 a) = fx_of_int fp32 42 /\
  (a <- fx_of_int fp32 42 ;; fx_neg fp32 a) = fx_of_int fp32 (-42).
Proof. repeat split. Qed.

(** 186-209: arithmetic. *)
Example t_fx_arith :
  with2 4 2 (fx_add fp32) = Ok (fx_of_int fp32 6) /\ with2 4 2 (fx_sub fp32) = Ok (fx_of_int fp32 2) /\
  with2 4 2 (fx_mul fp32) = Ok (fx_of_int fp32 8) /\ with2 4 2 (fx_div fp32) = Ok (fx_of_int fp32 2).
Proof. repeat split. Qed.

(** 211-224: from_rep. *)
Example t_fx_rep : fx_rep fp32 (fx_construct fp32 123) = 123.
Proof. reflexivity. Qed.

(** 234-241: power2. *)
Example t_power2 : map power2 [0; 1; 2; 3; 4] = map Ok [1; 2; 4; 8; 16].
Proof. reflexivity. Qed.

(** ** test/core.t.cpp *)

Definition int32 : int_type := {| it_w := 32; it_signed := true; it_ib := 32 |}.  (* [int], core.t.cpp:56 *)
Definition usize : int_type := {| it_w := 64; it_signed := false; it_ib := 32 |}.  (* [size_type], core.t.cpp:117 *)
(** The integers 0, 1, ..., n - 1. *)
Definition upto (n : nat) : list Z := map Z.of_nat (seq 0 n).   (* core.t.cpp:66-68 *)

(** 54-69: [range(0)], left after 43 rounds. *)
Example t_range1 : loop_over_step int32 (range1 0) 43 = (upto 43, Running).
Proof. reflexivity. Qed.

(** 71-84: [range(0).step(3)], left after four rounds. *)
Example t_range1_step : loop_over_step int32 (infinite_step (range1 0) 3) 4 = ([0; 3; 6; 9], Running).
Proof. reflexivity. Qed.

(** 86-102. *)
Example t_range : let '(t, r) := range2 int32 int32 0 4 in
  (fst (loop_over t r 100), snd (loop_over t r 100)) = ([0; 1; 2; 3], Finished).
Proof. reflexivity. Qed.
Example t_range_step : let '(t, r) := range3 int32 int32 int32 0 10 3 in
  loop_over_step t r 100 = ([0; 3; 6; 9], Finished).
Proof. reflexivity. Qed.

(** 104-111: [range(-2, 2.5, 0.5)] in [double]. *)
Example t_range_float :
  let '(l, s) := float_loop_step 53 1024 (literal (-2) 1) (literal 5 2) (literal 1 2) false 100 in
  s = Finished /\ map sf l = map (fun h => sf (literal h 2)) [-4; -3; -2; -1; 0; 1; 2; 3; 4].
Proof. vm_compute. auto. Qed.

(** 113-142: [indices]. *)
Example t_indices : map (fun n => loop_over usize (indices n) 100) [3; 4; 5] =
  [(upto 3, Finished); (upto 4, Finished); (upto 5, Finished)].
Proof. reflexivity. Qed.

(** ** test/biquad.t.cpp ([float]) *)

(** A [float] with value [n/d] (the literals of biquad.t.cpp). *)
Definition lit (n d : Z) : float := Bdiv mode_NE (ieee_of_Z 24 128 n) (ieee_of_Z 24 128 d).
(** [BiQuadT<float> bq{{ b0, b1, b2 }}] (biquad.t.cpp:34 and others). *)
Definition bq_of (b0 b1 b2 : Z) : biquad float :=
  biquad_b float_scalar {| b0 := lit b0 1; b1 := lit b1 1; b2 := lit b2 1 |}.

(** The coefficients of a biquad: a1, a2, b0, b1, b2 (biquad.t.cpp:23-27). *)
Definition coeffs (bq : biquad float) :=
  map sf [a1 (bq_a bq); a2 (bq_a bq); b0 (bq_b bq); b1 (bq_b bq); b2 (bq_b bq)].
(** Its state: v1, v2 (biquad.t.cpp:28-29). *)
Definition st (w : state float) := map sf [v1 w; v2 w].
(** Numbers to compare with. *)
Definition are (l : list Z) := map (fun n => sf (lit n 1)) l.   (* biquad.t.cpp:36-49 *)

(** 19-30: default construction. *)
Example t_bq_default : coeffs (biquad_default float_scalar) = are [0; 0; 0; 0; 0] /\
  st (bq_w (biquad_default float_scalar)) = are [0; 0].
Proof. vm_compute. auto. Qed.

(** 32-50, 78-93: construction from coefficients and obtaining them. *)
Example t_bq_coeff :
  coeffs (biquad_ba float_scalar {| b0 := lit 1 1; b1 := lit 2 1; b2 := lit 3 1 |} {| a1 := lit 4 1; a2 := lit 5 1 |}) =
  are [4; 5; 1; 2; 3].
Proof. vm_compute. reflexivity. Qed.

(** 95-110 and 143-159: the state after eight steps, and after [reset]. *)
Example t_bq_state :
  match run (step float_scalar) (bq_of 7 0 0) (repeat (lit 123 100) 8) with
  | Ok (ys, bq) => option_map sf (nth_error ys 7) = Some (sf (Bmult mode_NE (lit 7 1) (lit 123 100))) /\
                   st (bq_w bq) = [sf (lit 123 100); sf (lit 123 100)] /\
                   st (bq_w (reset float_scalar bq)) = are [0; 0]
  | Err _ => False
  end.
Proof. vm_compute. auto. Qed.

(** 52-63, 112-130 and 193-202: zeros, poles and [solve] (exact arithmetic). *)
Lemma sqrt_real x : (0 <= x)%R -> csqrt (x * x, 0)%R = RtoC x.
Proof.
  intros H. unfold csqrt. cbn [fst snd].
  assert (M : Cmod (x * x, 0)%R = (x * x)%R).
  { change (x * x, 0)%R with (RtoC (x * x)). rewrite Cmod_R. apply Rabs_pos_eq. nra. }
  rewrite M. destruct (Rle_dec 0 0); [|lra].
  replace ((x * x + x * x) / 2)%R with (x * x)%R by lra. replace ((x * x - x * x) / 2)%R with 0%R by lra.
  now rewrite sqrt_square, sqrt_0.
Qed.

Lemma solve_real b c r s : (s <= r)%R -> (b = - (r + s))%R -> (c = r * s)%R ->
  solve 1 b c = Ok (RtoC r, RtoC s).
Proof.
  intros Hrs Hb Hc. unfold solve. destruct (Req_EM_T 1 0); [lra|].
  replace (Cminus (b / 1 * (b / 1), 0)%R (RtoC (4 * (c / 1)))) with (((r - s) * (r - s)), 0)%R.
  - rewrite sqrt_real by lra. unfold Cdiv, Cinv, Cmult, Cminus, Cplus, Copp, RtoC; cbn [fst snd].
    f_equal. apply injective_projections; apply injective_projections; cbn [fst snd]; subst; field.
  - unfold Cminus, Cplus, Copp, RtoC; cbn [fst snd]. subst. f_equal; field.
Qed.

Lemma solve_scaled a b c : (a <> 0)%R -> solve a b c = solve 1 (b / a) (c / a).
Proof.
  intros H. unfold solve. destruct (Req_EM_T a 0); [lra|]. destruct (Req_EM_T 1 0); [lra|].
  assert (D : forall x, (x / 1 = x)%R) by (intros; field). rewrite !D. reflexivity.
Qed.

Example t_bq_zpk :
  let bq := biquad_zpk (RtoC (7/10), RtoC (5/10)) (RtoC (4/10), RtoC (-3/10)) 10 in
  zeros bq = Ok (RtoC (7/10), RtoC (5/10)) /\ poles bq = Ok (RtoC (4/10), RtoC (-3/10)) /\ b0 (bq_b bq) = 10%R.
Proof.
  intros bq. repeat split.
  - unfold zeros, bq, biquad_zpk, to_coeff2. cbn [fst snd RtoC bq_b b0 b1 b2]. destruct (Req_EM_T 0 0); [|lra].
    cbn [fst snd]. rewrite solve_scaled by lra. apply solve_real; lra.
  - unfold poles, bq, biquad_zpk, to_coeff2. cbn [fst snd RtoC bq_a a1 a2]. destruct (Req_EM_T 0 0); [|lra].
    cbn [fst snd]. apply solve_real; lra.
Qed.

Example t_solve : solve 10 (-12) (7/2) = Ok (RtoC (7/10), RtoC (5/10)).
Proof. rewrite solve_scaled by lra. apply solve_real; lra. Qed.

(** 132-141: [is_stable]. *)
Example t_bq_stable :
  is_stable (biquad_ba R_scalar {| b0 := 1%R; b1 := 0%R; b2 := 0%R |} {| a1 := (2/10)%R; a2 := (-2/10)%R |}) = Ok true /\
  is_stable (biquad_ba R_scalar {| b0 := 1%R; b1 := 0%R; b2 := 0%R |} {| a1 := (12/10)%R; a2 := (-9/10)%R |}) = Ok false.
Proof.
  split.
  - apply C44_is_stable_iff. cbn. split; unfold Rabs; destruct Rcase_abs; lra.
  - destruct (C44_is_stable_answers (biquad_ba R_scalar {| b0 := 1%R; b1 := 0%R; b2 := 0%R |} {| a1 := (12/10)%R; a2 := (-9/10)%R |})) as [[] E];
      [|exact E].
    apply C44_is_stable_iff in E. cbn in E. destruct E as [_ E]. revert E. unfold Rabs. destruct Rcase_abs; lra.
Qed.

(** 161-166: the response at frequency zero. *)
Lemma response_0 (x : R) : response (biquad_b R_scalar {| b0 := x%R; b1 := 0%R; b2 := 0%R |}) 0 = Ok (RtoC x).
Proof.
  unfold response, polar. cbn. destruct (Ceq_dec _ _) as [E|E].
  - exfalso. apply (f_equal fst) in E. cbn in E. lra.
  - f_equal. unfold Cdiv, Cinv, Cmult, Cplus, RtoC; cbn. f_equal; field; lra.
Qed.
Example t_bq_response : exists h, response (biquad_b R_scalar {| b0 := 7%R; b1 := 0%R; b2 := 0%R |}) 0 = Ok h /\ Cmod h = 7%R.
Proof. exists (RtoC 7). split; [apply response_0|]. rewrite Cmod_R. apply Rabs_pos_eq. lra. Qed.

(** 168-190: the three forms of the step. *)
Definition outputs {A} (o : outcome (list float * A)) := omap (fun r => map sf (fst r)) o. (* biquad.t.cpp:172-173 *)
Example t_bq_step :
  map (fun f => outputs (run f (bq_of 7 0 0) [lit 0 1; lit 1 1]))
    [step float_scalar; step_df2 float_scalar; step_df2_transposed float_scalar] =
  repeat (Ok (are [0; 7])) 3.
Proof. vm_compute. reflexivity. Qed.

(** ** test/biquad-cascade.t.cpp ([float]) *)

(** [BiQuad{{ b, 0, 0 }}] (biquad-cascade.t.cpp:110-112 and others). *)
Definition sec (b : Z) : biquad float := bq_of b 0 0.
(** The cascade of three sections of most cases (biquad-cascade.t.cpp:129-134). *)
Definition bqc : cascade float := cascade_of float_scalar 3 [sec 1; sec 2; sec 3].
(** Size and all [b0] of a cascade. *)
Definition b0s (cs : cascade float) :=  (* biquad-cascade.t.cpp:41-45 *)
  (cs_size cs, map (fun i => omap (fun c => sf (b0 c)) (cs_coeff_b true cs (Z.of_nat i))) (seq 0 (Z.to_nat (cs_size cs)))).
(** The same numbers as written in the tests. *)
Definition nums (l : list Z) :=  (* biquad-cascade.t.cpp:41-45 *)
  (Z.of_nat (length l), map Ok (are l)).

(** 18-46, 68-84: construction, [size], [reserved]. *)
Example t_cs_construct : cs_size (cascade_of float_scalar 7 []) = 0 /\ cs_reserved 7 = 7 /\ cs_reserved 3 = 3 /\
  b0s bqc = nums [1; 2; 3] /\ cs_size (cascade_of float_scalar 7 (repeat (biquad_default float_scalar) 5)) = 5.
Proof. vm_compute. auto. Qed.

(** 86-102: append. *)
Example t_cs_append :
  (cs <- cs_append true 3 (cascade_of float_scalar 3 []) (sec 1) ;; Ok (b0s cs)) = Ok (nums [1]) /\
  (cs <- cs_append true 3 (cascade_of float_scalar 3 []) (sec 1) ;;
   cs <- cs_append true 3 cs (sec 2) ;; Ok (b0s cs)) = Ok (nums [1; 2]).
Proof. vm_compute. auto. Qed.

(** 104-123: insert; the test does not look at the last element. *)
Example t_cs_insert :
  (cs <- cs_insert true 4 (cascade_of float_scalar 4 [sec 1; sec 2; sec 3]) 1 (sec 7) ;; Ok (b0s cs)) =
  Ok (nums [1; 7; 2; 3]).
Proof. vm_compute. auto. Qed.

(** 125-142: replace. *)
Example t_cs_replace :
  (r <- cs_replace true bqc 1 (sec 7) ;; Ok (sf (b0 (bq_b (fst r))), b0s (snd r))) = Ok (sf (lit 2 1), nums [1; 7; 3]).
Proof. vm_compute. auto. Qed.

(** 144-162: remove. *)
Example t_cs_remove : (cs <- cs_remove true bqc 0 ;; Ok (b0s cs)) = Ok (nums [2; 3]).
Proof. vm_compute. auto. Qed.

(** 164-180: clear. *)
Example t_cs_clear : cs_size bqc = 3 /\ cs_size (cs_clear bqc) = 0.
Proof. split; reflexivity. Qed.

(** 182-212: coefficients of a section. *)
Example t_cs_coeff_a :
  let s n := biquad_ba float_scalar (zero_b float_scalar) {| a1 := lit (- n) 1; a2 := lit (- (11 * n)) 1 |} in
  map (fun i => omap (fun c => map sf [a1 c; a2 c]) (cs_coeff_a true (cascade_of float_scalar 3 [s 1; s 2; s 3]) i)) [0; 1; 2] =
  map (fun n => Ok (are [- n; - (11 * n)])) [1; 2; 3].
Proof. vm_compute. reflexivity. Qed.
Example t_cs_coeff_b :
  let s n := bq_of n (11 * n) (111 * n) in
  map (fun i => omap (fun c => map sf [b0 c; b1 c; b2 c]) (cs_coeff_b true (cascade_of float_scalar 3 [s 1; s 2; s 3]) i)) [0; 1; 2] =
  map (fun n => Ok (are [n; 11 * n; 111 * n])) [1; 2; 3].
Proof. vm_compute. reflexivity. Qed.

(** 214-235 and 280-303: the state of a section after seven steps, and after [reset]. *)
Example t_cs_state :
  omap st (cs_state true bqc 1) = Ok (are [0; 0]) /\
  match cs_run (cs_step float_scalar) bqc (repeat (lit 123 100) 7) with
  | Ok (_, cs) =>
      (match cs_state true cs 1 with Ok s => sc_nz float_scalar (v1 s) && sc_nz float_scalar (v2 s) | Err _ => false end) = true /\
      (cs <- cs_reset float_scalar cs ;; omap st (cs_state true cs 1)) = Ok (are [0; 0])
  | Err _ => False
  end.
Proof. vm_compute. auto. Qed.

(** A section with real coefficients. *)
Definition rsec (b a1_ a2_ : R) : biquad R :=   (* biquad-cascade.t.cpp:264, 272, 311-313 *)
  biquad_ba R_scalar {| b0 := b; b1 := 0%R; b2 := 0%R |} {| a1 := a1_; a2 := a2_ |}.

(** 257-278: [is_stable]. *)
Example t_cs_stable :
  cs_is_stable (cascade_of R_scalar 3 [rsec 1 0 0; rsec 2 0 0]) = Ok true /\
  cs_is_stable (cascade_of R_scalar 3 [rsec 1 (12/10) (-12/10); rsec 2 0 0]) = Ok false.
Proof.
  assert (S : forall b, is_stable (rsec b 0 0) = Ok true).
  { intros b. apply C44_is_stable_iff. cbn. rewrite Rabs_R0. lra. }
  assert (U : forall x y, cs_is_stable (cascade_of R_scalar 3 [x; y]) =
    (r <- is_stable x ;; if r then is_stable y else Ok false)).
  { intros x y. unfold cs_is_stable. change (Z.to_nat _) with 2%nat. unfold for_. cbn [for_from].
    change (sec_at _ (Z.of_nat 0)) with (Ok x). change (sec_at _ (Z.of_nat 1)) with (Ok y). cbn [bind].
    destruct (is_stable x) as [[]|]; cbn [bind]; try reflexivity. now destruct (is_stable y). }
  split; rewrite U.
  - rewrite S. cbn [bind]. now rewrite S.
  - destruct (C44_is_stable_answers (rsec 1 (12/10) (-12/10))) as [[] E]; rewrite E; [|reflexivity].
    apply C44_is_stable_iff in E. cbn in E. destruct E as [E _]. revert E. unfold Rabs. destruct Rcase_abs; lra.
Qed.

(** 305-317: the response at frequency zero. *)
Example t_cs_response : exists h,
  cs_response (cascade_of R_scalar 3 [rsec 1 0 0; rsec 2 0 0; rsec 3 0 0]) 0 = Ok h /\ Cmod h = 6%R.
Proof.
  exists (RtoC 6). split; [|rewrite Cmod_R; apply Rabs_pos_eq; lra].
  assert (U : forall x y z, cs_response (cascade_of R_scalar 3 [x; y; z]) 0 =
    (h1 <- response x 0 ;; h2 <- response y 0 ;; h3 <- response z 0 ;; Ok (Cmult (Cmult (Cmult (RtoC 1) h1) h2) h3))).
  { intros x y z. unfold cs_response. change (Z.to_nat _) with 3%nat. unfold for_. cbn [for_from].
    change (sec_at _ (Z.of_nat 0)) with (Ok x). change (sec_at _ (Z.of_nat 1)) with (Ok y).
    change (sec_at _ (Z.of_nat 2)) with (Ok z). cbn [bind].
    destruct (response x 0); cbn [bind]; [|reflexivity]. destruct (response y 0); cbn [bind]; [|reflexivity].
    now destruct (response z 0). }
  rewrite U. change (rsec ?x 0 0) with (biquad_b R_scalar {| b0 := x; b1 := 0%R; b2 := 0%R |}).
  rewrite !response_0. cbn [bind]. f_equal. rewrite <- !RtoC_mult. f_equal. lra.
Qed.

(** 319-362: the three forms of the step. *)
Example t_cs_step :
  map (fun f => outputs (cs_run f bqc [lit 0 1; lit 1 1]))
    [cs_step float_scalar; cs_step_df2 float_scalar; cs_step_df2_transposed float_scalar] =
  repeat (Ok (are [0; 6])) 3.
Proof. vm_compute. reflexivity. Qed.

(** ** test/stdcpp.t.cpp *)

(** 42-52: copy; [a] and [b] are cells 0 to 2 and 3 to 5. *)
Example t_copy : copy [1; 2; 3; 0; 0; 0] 0 3 3 = Ok ([1; 2; 3; 1; 2; 3], 6%nat).
Proof. reflexivity. Qed.

(** 68-109: numeric_limits. *)
Example t_limits :
  map (fun t => option_map is_signed (numeric_limits t)) [tfloat; tdouble; tint 8; tint 16; tint 32; tint 64] =
    repeat (Some true) 6 /\
  map (fun t => option_map is_integer (numeric_limits t)) [tfloat; tdouble; tint 8; tint 16; tint 32; tint 64] =
    [Some false; Some false; Some true; Some true; Some true; Some true] /\
  map (fun t => option_map digits (numeric_limits t)) [tint 8; tint 16; tint 32; tint 64] =
    [Some 7; Some 15; Some 31; Some 63] /\
  map (fun t => option_map lim_min (numeric_limits t)) [tint 8; tint 16; tint 32; tint 64] =
    [Some (-128); Some (-32768); Some (-2147483648); Some (-0x8000000000000000)] /\
  map (fun t => option_map lim_max (numeric_limits t)) [tint 8; tint 16; tint 32; tint 64] =
    [Some 127; Some 32767; Some 2147483647; Some 0x7fffffffffffffff].
Proof. repeat split. Qed.

(** 116-124: swap. *)
Example t_swap : Algorithm.swap [7; 42] 0 1 = Ok [42; 7].
Proof. reflexivity. Qed.
