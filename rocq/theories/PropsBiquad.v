(** * Properties of second order sections (C38-C46, C88, C89) *)

From Coq Require Import Reals List Arith Lra Lia ZArith.
From Coquelicot Require Import Complex.
From Verif Require Import Base Scalars FixedPoint FixedSpec PropsFixed.
From Verif Require Import Biquad BiquadSpec BiquadProofs BiquadStability.
Import ListNotations.
Local Open Scope R_scope.

(** ** C38: direct form 2 realises the difference equation *)

Theorem C38_difference_equation :
  forall (bq : biquad R) (xs : list R),
  exists ys bq',
    run (step R_scalar) (reset R_scalar bq) xs = Ok (ys, bq') /\
    length ys = length xs /\
    difference_equation (b0 (bq_b bq)) (b1 (bq_b bq)) (b2 (bq_b bq)) (a1 (bq_a bq)) (a2 (bq_a bq)) xs ys.
Proof.
  intros bq xs. rewrite run_step_R, run_df2_R. eexists _, _. split; [reflexivity|].
  cbn [reset bq_a bq_b bq_w]. rewrite df2_run_length. split; [reflexivity|].
  unfold zero_w. cbn [sc_zero R_scalar].
  destruct (df2_t (bq_a bq) (bq_b bq) xs {| v1 := 0; v2 := 0 |}) as [E _].
  rewrite E, to_transposed_zero. apply rest_difference.
Qed.
Print Assumptions C38_difference_equation.

(** The equation determines the output: nothing else than [ys] satisfies it. *)
Theorem C38_equation_determines_output :
  forall (bq bq' : biquad R) (xs ys ys' : list R),
  run (step R_scalar) (reset R_scalar bq) xs = Ok (ys, bq') ->
  length ys' = length xs ->
  difference_equation (b0 (bq_b bq)) (b1 (bq_b bq)) (b2 (bq_b bq)) (a1 (bq_a bq)) (a2 (bq_a bq)) xs ys' ->
  ys' = ys.
Proof.
  intros bq bq' xs ys ys' H L D.
  destruct (C38_difference_equation bq xs) as (zs & bq2 & H2 & L2 & D2).
  rewrite H2 in H. injection H as <- _.
  eapply difference_unique; eassumption.
Qed.
Print Assumptions C38_equation_determines_output.

Definition ex_bq : biquad R :=
  {| bq_a := {| a1 := -1/2; a2 := 1/4 |}; bq_b := {| b0 := 1; b1 := 2; b2 := 3 |};
     bq_w := {| v1 := 5; v2 := 7 |} |}.

Ltac list_eq := repeat (apply (f_equal2 cons); [lra|]); reflexivity.
Example C38_case :
  exists bq', run (step R_scalar) (reset R_scalar ex_bq) [1; 0; 0] = Ok ([1; 5/2; 4], bq').
Proof. eexists. rewrite run_step_R, run_df2_R. cbn. unfold df2_y. cbn. f_equal. apply f_equal2; [list_eq|reflexivity]. Qed.

(** ** C39: direct form 2 and its transposed form agree from rest *)

Theorem C39_forms_agree_from_rest :
  forall (bq : biquad R) (xs : list R),
  exists ys bq1 bq2,
    run (step_df2 R_scalar) (reset R_scalar bq) xs = Ok (ys, bq1) /\
    run (step_df2_transposed R_scalar) (reset R_scalar bq) xs = Ok (ys, bq2).
Proof.
  intros bq xs. rewrite run_df2_R, run_t_R. cbn [reset bq_a bq_b bq_w]. unfold zero_w. cbn [sc_zero R_scalar].
  destruct (df2_t (bq_a bq) (bq_b bq) xs {| v1 := 0; v2 := 0 |}) as [E _]. rewrite to_transposed_zero in E.
  rewrite E. eauto.
Qed.
Print Assumptions C39_forms_agree_from_rest.

(** In fixed point they do not: the forms round different products. *)
Theorem C39_forms_agree_fixed_refuted :
  ~ (forall (bq bq1 bq2 : biquad Z) (xs ys1 ys2 : list Z),
       run (step_df2 (fx_scalar q3_4)) (reset (fx_scalar q3_4) bq) xs = Ok (ys1, bq1) ->
       run (step_df2_transposed (fx_scalar q3_4)) (reset (fx_scalar q3_4) bq) xs = Ok (ys2, bq2) ->
       ys1 = ys2).
Proof.
  intros H.
  pose (bq := {| bq_a := {| a1 := 8; a2 := 0 |}; bq_b := {| b0 := 8; b1 := 0; b2 := 0 |};
                 bq_w := {| v1 := 0; v2 := 0 |} |}%Z : biquad Z).
  pose (r1 := run (step_df2 (fx_scalar q3_4)) (reset (fx_scalar q3_4) bq) [3; 0]%Z).
  pose (r2 := run (step_df2_transposed (fx_scalar q3_4)) (reset (fx_scalar q3_4) bq) [3; 0]%Z).
  vm_compute in r1. vm_compute in r2.
  specialize (H bq _ _ [3; 0]%Z _ _ eq_refl eq_refl). discriminate H.
Qed.
Print Assumptions C39_forms_agree_fixed_refuted.

Example C39_case :
  exists ys bq1 bq2, ys = [1; 5/2; 4] /\
    run (step_df2 R_scalar) (reset R_scalar ex_bq) [1; 0; 0] = Ok (ys, bq1) /\
    run (step_df2_transposed R_scalar) (reset R_scalar ex_bq) [1; 0; 0] = Ok (ys, bq2) /\ bq1 <> bq2.
Proof.
  rewrite run_df2_R, run_t_R. cbn. eexists [1; 5/2; 4], _, _. split; [reflexivity|].
  split; [unfold df2_y; cbn; f_equal; apply f_equal2; [list_eq|reflexivity]|].
  split; [repeat (unfold t_y; cbn); f_equal; apply f_equal2; [list_eq|reflexivity]|].
  intros X. apply (f_equal (fun b => v1 (bq_w b))) in X. repeat (unfold t_y in X; cbn in X). lra.
Qed.

(** ** C40: linear and time invariant *)

Theorem C40_linear :
  forall (bq : biquad R) (p q : R) (xs xs' : list R),
  length xs = length xs' ->
  exists ys ys' zs f f' g,
    run (step R_scalar) (reset R_scalar bq) xs = Ok (ys, f) /\
    run (step R_scalar) (reset R_scalar bq) xs' = Ok (ys', f') /\
    run (step R_scalar) (reset R_scalar bq) (lin p xs q xs') = Ok (zs, g) /\
    zs = lin p ys q ys'.
Proof.
  intros bq p q xs xs' L. rewrite !run_step_R, !run_df2_R. eexists _, _, _, _, _, _.
  repeat split. rewrite <- df2_lin by assumption. do 2 f_equal.
  apply state_eq; cbn; ring.
Qed.
Print Assumptions C40_linear.

Theorem C40_linear_transposed :
  forall (bq : biquad R) (p q : R) (xs xs' : list R),
  length xs = length xs' ->
  exists ys ys' zs f f' g,
    run (step_df2_transposed R_scalar) (reset R_scalar bq) xs = Ok (ys, f) /\
    run (step_df2_transposed R_scalar) (reset R_scalar bq) xs' = Ok (ys', f') /\
    run (step_df2_transposed R_scalar) (reset R_scalar bq) (lin p xs q xs') = Ok (zs, g) /\
    zs = lin p ys q ys'.
Proof.
  intros bq p q xs xs' L. rewrite !run_t_R. eexists _, _, _, _, _, _.
  repeat split. rewrite <- t_lin by assumption. do 2 f_equal.
  apply state_eq; cbn; ring.
Qed.
Print Assumptions C40_linear_transposed.

Theorem C40_time_invariant :
  forall (bq : biquad R) (k : nat) (xs : list R),
  exists ys f g,
    run (step R_scalar) (reset R_scalar bq) xs = Ok (ys, f) /\
    run (step R_scalar) (reset R_scalar bq) (repeat 0 k ++ xs) = Ok (repeat 0 k ++ ys, g).
Proof.
  intros bq k xs. rewrite !run_step_R, !run_df2_R. cbn [reset bq_a bq_b bq_w].
  unfold zero_w; cbn [sc_zero R_scalar]. rewrite df2_delay. eauto.
Qed.
Print Assumptions C40_time_invariant.

Example C40_case : length [1; 2; 3] = length [4; 5; 6] /\ lin 2 [1; 2; 3] 1 [4; 5; 6] = [6; 9; 12].
Proof. split; [reflexivity|]. unfold lin; cbn. list_eq. Qed.

(** ** C41: reset restores the power-on behaviour (any numeric type) *)

(** One call on a filter: which form, and the input. *)
Definition any_step {T} (S : scalar T) (transposed : bool) :=
  if transposed then step_df2_transposed S else step_df2 S.

Theorem C41_reset_is_new :
  forall {T} (S : scalar T) (calls : list (bool * T)) (bq bq' : biquad T),
  fold_left (fun s c => b <- s ;; r <- any_step S (fst c) b (snd c) ;; Ok (snd r)) calls (Ok bq) = Ok bq' ->
  reset S bq' = biquad_ba S (bq_b bq) (bq_a bq).
Proof.
  intros T S calls. induction calls as [|[t x] calls IH]; intros bq bq' H; cbn in H.
  - injection H as ->. reflexivity.
  - assert (K : forall b r, any_step S t b x = Ok r -> bq_a (snd r) = bq_a b /\ bq_b (snd r) = bq_b b).
    { intros b r. unfold any_step. destruct t; unfold step_df2, step_df2_transposed; intros Q;
      repeat match type of Q with bind _ _ = Ok _ => apply bind_inv in Q; destruct Q as (? & _ & Q); cbv beta in Q end;
      injection Q as <-; split; reflexivity. }
    destruct (any_step S t bq x) as [r|e] eqn:E; cbn in H.
    + apply IH in H. rewrite H. destruct (K bq r E) as [-> ->]. reflexivity.
    + exfalso. clear -H. induction calls; cbn in H; [discriminate|auto].
Qed.
Print Assumptions C41_reset_is_new.

Example C41_case :
  exists bq', fold_left (fun s c => b <- s ;; r <- any_step Z_scalar (fst c) b (snd c) ;; Ok (snd r))
     [(false, 3%Z); (true, 4%Z)]
     (Ok {| bq_a := {| a1 := 1; a2 := 2 |}; bq_b := {| b0 := 3; b1 := 4; b2 := 5 |}; bq_w := {| v1 := 6; v2 := 7 |} |}%Z)
   = Ok bq' /\ bq_w bq' <> {| v1 := 0; v2 := 0 |}%Z.
Proof. eexists. split; [vm_compute; reflexivity|]. discriminate. Qed.

(** ** C42: the states of the two forms are not interchangeable *)

(** Switching from direct form 2 to the transposed form after some history and continuing
    goes unnoticed for every history exactly for the filters with
    [a2 = -1], [b1 = 1 + a1 b0], [b2 = - b0]. *)
Theorem C42_switching_harmless_iff :
  forall (bq : biquad R),
  (forall (hist xs ys ys1 ys2 : list R) (bq' f g : biquad R),
     run (step_df2 R_scalar) (reset R_scalar bq) hist = Ok (ys, bq') ->
     run (step_df2 R_scalar) bq' xs = Ok (ys1, f) ->
     run (step_df2_transposed R_scalar) bq' xs = Ok (ys2, g) ->
     ys1 = ys2)
  <->
  a2 (bq_a bq) = -1 /\ b1 (bq_b bq) = 1 + a1 (bq_a bq) * b0 (bq_b bq) /\ b2 (bq_b bq) = - b0 (bq_b bq).
Proof.
  intros bq. destruct bq as [[A1 A2] [B0 B1 B2] w]. cbn [bq_a bq_b a1 a2 b0 b1 b2].
  set (a := {| a1 := A1; a2 := A2 |}). set (b := {| b0 := B0; b1 := B1; b2 := B2 |}).
  split.
  - intros H.
    assert (K : forall hist xs, let w' := snd (df2_run a b {| v1 := 0; v2 := 0 |} hist) in
              fst (df2_run a b w' xs) = fst (t_run a b w' xs)).
    { intros hist xs. cbn zeta. eapply H.
      - rewrite run_df2_R. reflexivity.
      - rewrite run_df2_R. reflexivity.
      - rewrite run_t_R. reflexivity. }
    (* the states (1,0) and (0,1) are reachable *)
    pose proof (K [1] [0; 0]) as K1. pose proof (K [1; A1] [0; 0]) as K2.
    cbn in K1, K2. unfold df2_w, df2_y, t_w, t_y in K1, K2. cbn in K1, K2. unfold t_y in K1, K2; cbn in K1, K2.
    injection K1 as P1 P2. injection K2 as Q1 Q2.
    assert (P : B1 = 1 + A1 * B0) by lra. assert (Q : B2 = A2 * B0) by lra.
    assert (R : A2 = -1) by (rewrite P, Q in Q2; lra).
    rewrite R in Q |- *. repeat split; lra.
  - intros (H1 & H2 & H3) hist xs ys ys1 ys2 bq' f g R1 R2 R3.
    rewrite run_df2_R in R1. injection R1 as _ <-. rewrite run_df2_R in R2. rewrite run_t_R in R3.
    injection R2 as <- _. injection R3 as <- _. cbn [bq_a bq_b bq_w reset].
    set (w' := snd _). clearbody w'. revert w'.
    assert (T : forall w, to_transposed a b w = w).
    { intros w'. apply state_eq; unfold to_transposed, a, b; cbn; rewrite H1, H2, H3; ring. }
    intros w'. destruct (df2_t a b xs w') as [E _]. rewrite E, T. reflexivity.
Qed.
Print Assumptions C42_switching_harmless_iff.

(** In particular no strictly stable filter allows it. *)
Theorem C42_stable_filters_notice :
  forall (bq : biquad R), strictly_stable (a1 (bq_a bq)) (a2 (bq_a bq)) ->
  exists (hist xs ys ys1 ys2 : list R) (bq' f g : biquad R),
     run (step_df2 R_scalar) (reset R_scalar bq) hist = Ok (ys, bq') /\
     run (step_df2 R_scalar) bq' xs = Ok (ys1, f) /\
     run (step_df2_transposed R_scalar) bq' xs = Ok (ys2, g) /\
     ys1 <> ys2.
Proof.
  intros bq St. apply strict_triangle in St. destruct St as [B _].
  destruct bq as [[A1 A2] [B0 B1 B2] w]. cbn [bq_a a2] in B.
  set (a := {| a1 := A1; a2 := A2 |}). set (b := {| b0 := B0; b1 := B1; b2 := B2 |}).
  assert (N : A2 <> -1). { intros ->. rewrite Rabs_left in B; lra. }
  destruct (list_eq_dec Req_EM_T (fst (df2_run a b {| v1 := 1; v2 := 0 |} [0; 0]))
             (fst (t_run a b {| v1 := 1; v2 := 0 |} [0; 0]))) as [E|E].
  - exists [1; A1], [0; 0]. rewrite run_df2_R. eexists _, _, _, _, _, _. split; [reflexivity|].
    rewrite run_df2_R, run_t_R. split; [reflexivity|]. split; [reflexivity|]. cbn [bq_a bq_b bq_w reset].
    fold a b. cbn in E |- *. unfold df2_w, df2_y, t_w, t_y in *. cbn in *. unfold t_y in *; cbn in *.
    intros X. injection E as P1 P2. injection X as Q1 Q2. apply N.
    assert (P : B1 = 1 + A1 * B0) by lra. assert (Q : B2 = A2 * B0) by lra.
    rewrite P, Q in Q2; lra.
  - exists [1], [0; 0]. rewrite run_df2_R. eexists _, _, _, _, _, _. split; [reflexivity|].
    rewrite run_df2_R, run_t_R. split; [reflexivity|]. split; [reflexivity|]. cbn [bq_a bq_b bq_w reset].
    fold a b. intros X. apply E.
    replace ({| v1 := 1; v2 := 0 |}) with (snd (df2_run a b (zero_w R_scalar) [1])); [exact X|].
    cbn. unfold df2_w; cbn. apply state_eq; cbn; ring.
Qed.
Print Assumptions C42_stable_filters_notice.

Example C42_case : strictly_stable (a1 (bq_a ex_bq)) (a2 (bq_a ex_bq)).
Proof. apply strict_triangle. cbn. split; unfold Rabs; destruct Rcase_abs; lra. Qed.

(** ** C43: poles and zeros are the roots *)

Theorem C43_poles :
  forall bq : biquad R, exists p q,
  poles bq = Ok (p, q) /\ roots_of 1 (a1 (bq_a bq)) (a2 (bq_a bq)) p q.
Proof. intros bq. apply solve_roots. lra. Qed.
Print Assumptions C43_poles.

Theorem C43_zeros :
  forall bq : biquad R, b0 (bq_b bq) <> 0 -> exists p q,
  zeros bq = Ok (p, q) /\ roots_of (b0 (bq_b bq)) (b1 (bq_b bq)) (b2 (bq_b bq)) p q.
Proof. intros bq H. now apply solve_roots. Qed.
Print Assumptions C43_zeros.

Theorem C43_zeros_without_b0 :
  forall bq : biquad R, b0 (bq_b bq) = 0 -> zeros bq = Err DivByZero.
Proof.
  intros bq H. unfold zeros, solve. destruct (Req_EM_T (b0 (bq_b bq)) 0); [reflexivity|contradiction].
Qed.
Print Assumptions C43_zeros_without_b0.

(** Sum and product of the poles. *)
Theorem C43_vieta :
  forall (bq : biquad R) (p q : C), poles bq = Ok (p, q) ->
  Cplus p q = RtoC (- a1 (bq_a bq)) /\ Cmult p q = RtoC (a2 (bq_a bq)).
Proof.
  intros bq p q H. destruct (C43_poles bq) as (p' & q' & E & HR). rewrite E in H. injection H as -> ->.
  destruct (vieta _ _ _ _ HR) as [E1 E2]. rewrite RtoC_opp, E1, E2. split; ring.
Qed.
Print Assumptions C43_vieta.

Example C43_case :
  poles {| bq_a := {| a1 := -3; a2 := 2 |}; bq_b := {| b0 := 1; b1 := 0; b2 := 0 |}; bq_w := {| v1 := 0; v2 := 0 |} |}
  = Ok (RtoC 2, RtoC 1).
Proof.
  unfold poles, solve. cbn [bq_a a1 a2]. destruct (Req_EM_T 1 0); [lra|].
  replace (-3 / 1) with (-3) by field. replace (2 / 1) with 2 by field.
  replace (Cminus (-3 * -3, 0) (RtoC (4 * 2))) with (RtoC 1) by (unfold Cminus, Cplus, Copp, RtoC; cbn; f_equal; lra).
  replace (csqrt (RtoC 1)) with (RtoC 1).
  - f_equal. unfold Cdiv, Cminus, Cplus, Copp, Cinv, Cmult, RtoC; cbn. repeat f_equal; lra.
  - unfold csqrt. rewrite Cmod_R, Rabs_R1. cbn. destruct (Rle_dec 0 0); [|lra].
    replace ((1 + 1) / 2) with 1 by lra. replace ((1 - 1) / 2) with 0 by lra.
    rewrite sqrt_1, sqrt_0. reflexivity.
Qed.

(** ** C44: the stability test *)

Theorem C44_is_stable_iff :
  forall bq : biquad R,
  is_stable bq = Ok true <-> Rabs (a2 (bq_a bq)) <= 1 /\ Rabs (a1 (bq_a bq)) <= 1 + a2 (bq_a bq).
Proof.
  intros bq. destruct (C43_poles bq) as (p & q & E & HR). unfold is_stable. rewrite E. cbn [bind fst snd].
  rewrite <- (weak_triangle _ _ _ _ HR).
  destruct (Rle_dec (Cmod p) 1); destruct (Rle_dec (Cmod q) 1); split; intros H; try discriminate; try tauto; auto.
Qed.
Print Assumptions C44_is_stable_iff.

(** The test always answers. *)
Theorem C44_is_stable_answers :
  forall bq : biquad R, exists r, is_stable bq = Ok r.
Proof.
  intros bq. destruct (C43_poles bq) as (p & q & E & _). unfold is_stable. rewrite E. cbn. eauto.
Qed.
Print Assumptions C44_is_stable_answers.

(** It accepts every strictly stable filter ... *)
Theorem C44_accepts_stable :
  forall bq : biquad R, strictly_stable (a1 (bq_a bq)) (a2 (bq_a bq)) -> is_stable bq = Ok true.
Proof.
  intros bq St. apply C44_is_stable_iff. apply strict_triangle in St. lra.
Qed.
Print Assumptions C44_accepts_stable.

(** ... and a filter with an unbounded response to a constant input. *)
Theorem C44_bounded_output_refuted :
  ~ (forall bq : biquad R, is_stable bq = Ok true ->
     forall X, exists Y, forall xs ys bq', Forall (fun x => Rabs x <= X) xs ->
       run (step R_scalar) (reset R_scalar bq) xs = Ok (ys, bq') -> Forall (fun y => Rabs y <= Y) ys).
Proof.
  intros H.
  set (a := {| a1 := -1; a2 := 0 |}). set (b := {| b0 := 1; b1 := 0; b2 := 0 |}).
  set (bq := {| bq_a := a; bq_b := b; bq_w := {| v1 := 0; v2 := 0 |} |}).
  assert (S : is_stable bq = Ok true).
  { apply C44_is_stable_iff. cbn. split; unfold Rabs; destruct Rcase_abs; lra. }
  destruct (H bq S 1) as [Y HY].
  assert (G : forall n k, nth n (fst (df2_run a b {| v1 := INR k; v2 := INR k - 1 |} (repeat 1 (Datatypes.S n)))) 0
     = INR (k + n + 1)).
  { induction n as [|n IH]; intros k.
    - cbn. unfold df2_y; cbn. rewrite plus_INR, plus_INR. cbn. ring.
    - change (repeat 1 (Datatypes.S (Datatypes.S n))) with (1 :: repeat 1 (Datatypes.S n)).
      cbn [df2_run fst nth].
      replace (df2_w a {| v1 := INR k; v2 := INR k - 1 |} 1)
        with {| v1 := INR (Datatypes.S k); v2 := INR (Datatypes.S k) - 1 |}.
      + rewrite IH. f_equal. lia.
      + rewrite S_INR. apply state_eq; cbn; ring. }
  destruct (exists_INR_gt Y) as [n Hn].
  specialize (HY (repeat 1 (Datatypes.S n)) _ _ ltac:(apply Forall_repeat; rewrite Rabs_R1; lra) (run_df2_R _ _)).
  cbn [bq_a bq_b bq_w reset bq] in HY.
  pose proof (nth_Forall _ 0 _ HY n) as B. cbn beta in B. rewrite df2_run_length, repeat_length in B.
  specialize (B ltac:(lia)).
  assert (F : forall xs, fst (df2_run a b (zero_w R_scalar) xs) = fst (df2_run a b {| v1 := INR 0; v2 := INR 0 - 1 |} xs)).
  { clear. intros [|x xs]; [reflexivity|]. cbn [df2_run fst]. f_equal.
    - unfold df2_y; cbn. ring.
    - do 2 f_equal. apply state_eq; cbn; ring. }
  rewrite F, G in B. rewrite Rabs_pos_eq in B by apply pos_INR.
  rewrite !plus_INR in B. cbn in B. lra.
Qed.
Print Assumptions C44_bounded_output_refuted.

Example C44_case : is_stable ex_bq = Ok true.
Proof. apply C44_accepts_stable, C42_case. Qed.

(** ** C45: zero/pole/gain construction *)

(** The polynomials of the constructed filter have the given roots. *)
Theorem C45_zpk :
  forall (z p : C * C) (k : R),
  real_or_conjugate z -> real_or_conjugate p ->
  let bq := biquad_zpk z p k in
  (forall s, quadratic (b0 (bq_b bq)) (b1 (bq_b bq)) (b2 (bq_b bq)) s =
             Cmult (RtoC k) (Cmult (Cminus s (fst z)) (Cminus s (snd z)))) /\
  roots_of 1 (a1 (bq_a bq)) (a2 (bq_a bq)) (fst p) (snd p) /\
  bq_w bq = zero_w R_scalar.
Proof.
  intros z p k Hz Hp bq.
  assert (K : forall z, real_or_conjugate z -> forall s,
     Cplus (Cplus (Cmult s s) (Cmult (RtoC (fst (to_coeff2 z))) s)) (RtoC (snd (to_coeff2 z))) =
     Cmult (Cminus s (fst z)) (Cminus s (snd z))).
  { clear. intros [[zr zi] [yr yi]] H [x y]. unfold real_or_conjugate, Cconj in H. cbn [fst snd] in H.
    unfold to_coeff2. cbn [fst snd]. destruct (Req_EM_T zi 0) as [E|E].
    - destruct H as [[_ H]|H].
      + subst. unfold Cmult, Cminus, Cplus, Copp, RtoC; cbn. f_equal; ring.
      + injection H as -> ->. subst. unfold Cmult, Cminus, Cplus, Copp, RtoC; cbn. f_equal; ring.
    - destruct H as [[H _]|H]; [contradiction|]. injection H as -> ->.
      unfold Cmult, Cminus, Cplus, Copp, RtoC; cbn. f_equal; ring. }
  split; [|split; [|reflexivity]].
  - intros s. rewrite <- K by assumption. unfold quadratic, bq, biquad_zpk. cbn [bq_b b0 b1 b2].
    rewrite !RtoC_mult. ring.
  - intros s. rewrite <- K by assumption. unfold quadratic, bq, biquad_zpk. cbn [bq_a a1 a2]. ring.
Qed.
Print Assumptions C45_zpk.

(** With a non-real first root the second one is not looked at. *)
Theorem C45_second_root_ignored :
  forall (z1 z2 z2' p1 p2 p2' : C) (k : R),
  snd z1 <> 0 -> snd p1 <> 0 ->
  biquad_zpk (z1, z2) (p1, p2) k = biquad_zpk (z1, z2') (p1, p2') k.
Proof.
  intros. unfold biquad_zpk, to_coeff2. cbn [fst snd].
  destruct (Req_EM_T (snd z1) 0); [contradiction|]. destruct (Req_EM_T (snd p1) 0); [contradiction|]. reflexivity.
Qed.
Print Assumptions C45_second_root_ignored.

(** Constructing from the poles of a filter gives its denominator back. *)
Theorem C45_round_trip :
  forall (bq : biquad R) (z p : C * C), b0 (bq_b bq) <> 0 ->
  zeros bq = Ok z -> poles bq = Ok p ->
  biquad_zpk z p (b0 (bq_b bq)) = reset R_scalar bq.
Proof.
  intros bq z p Hb Hz Hp.
  assert (K : forall a b c z, a <> 0 -> solve a b c = Ok z -> to_coeff2 z = (b / a, c / a)).
  { clear. intros a b c z Ha H. unfold solve in H. destruct (Req_EM_T a 0); [contradiction|].
    injection H as <-. set (B := b / a). set (D := c / a).
    replace (Cminus (B * B, 0) (RtoC (4 * D))) with (RtoC (B * B - 4 * D))
      by (unfold Cminus, Cplus, Copp, RtoC; cbn; f_equal; ring).
    set (m := B * B - 4 * D). rewrite csqrt_real.
    unfold to_coeff2, Cdiv, Cminus, Cplus, Copp, Cinv, Cmult, RtoC; cbn [fst snd].
    destruct (Rle_dec 0 m) as [M|M]; cbn [fst snd].
    - pose proof (sqrt_sqrt _ M) as Q. set (d := sqrt m) in *.
      destruct (Req_EM_T _ 0) as [_|N]; [|exfalso; apply N; field].
      f_equal; [field|]. transitivity ((B * B - d * d) / 4); [field|]. rewrite Q. unfold m. field.
    - assert (P : 0 < - m) by lra. pose proof (sqrt_sqrt (- m) ltac:(lra)) as Q.
      pose proof (sqrt_lt_R0 _ P). set (d := sqrt (- m)) in *.
      destruct (Req_EM_T _ 0) as [N|_].
      + exfalso. assert (d = 0); [|lra]. transitivity (2 * (d / 2)); [field|]. rewrite <- (Rmult_0_r 2).
        f_equal. rewrite <- N. field.
      + f_equal; [field|]. transitivity ((B * B + d * d) / 4); [field|]. rewrite Q. unfold m. field. }
  unfold zeros in Hz. unfold poles in Hp. apply K in Hz; [|assumption]. apply K in Hp; [|lra].
  unfold biquad_zpk. rewrite Hz, Hp. cbn [fst snd]. destruct bq as [[? ?] [? ? ?] w]. cbn in *.
  unfold reset, zero_w. cbn. f_equal; [f_equal; field|f_equal; field; assumption].
Qed.
Print Assumptions C45_round_trip.

Example C45_case :
  real_or_conjugate ((1/2, 1/2), (1/2, -1/2)) /\ real_or_conjugate ((1/3, 0), (1/4, 0)).
Proof.
  split; [right; unfold Cconj; cbn; f_equal; lra|left; split; reflexivity].
Qed.

(** ** C46: swap (any numeric type) *)

Theorem C46_swap :
  forall {T} (x y : biquad T), swap x y = (y, x) /\ swap (fst (swap x y)) (snd (swap x y)) = (x, y).
Proof. intros T [? ? ?] [? ? ?]. split; reflexivity. Qed.
Print Assumptions C46_swap.

Example C46_case : swap ex_bq (reset R_scalar ex_bq) = (reset R_scalar ex_bq, ex_bq) /\ ex_bq <> reset R_scalar ex_bq.
Proof.
  split; [apply C46_swap|]. intros X. apply (f_equal (fun b => v1 (bq_w b))) in X. cbn in X. lra.
Qed.

(** ** C88: strictly stable filters have bounded output for ever *)

Theorem C88_bounded_output :
  forall (bq : biquad R) (X : R),
  strictly_stable (a1 (bq_a bq)) (a2 (bq_a bq)) -> 0 <= X ->
  exists Y, forall xs ys bq', Forall (fun x => Rabs x <= X) xs ->
    run (step R_scalar) bq xs = Ok (ys, bq') -> Forall (fun y => Rabs y <= Y) ys.
Proof.
  intros bq X St HX. destruct (df2_output_bounded (bq_a bq) (bq_b bq) X St HX (bq_w bq)) as [Y HY].
  exists Y. intros xs ys bq' F H. rewrite run_step_R, run_df2_R in H. injection H as <- _. now apply HY.
Qed.
Print Assumptions C88_bounded_output.

(** Without input the output dies out geometrically, whatever the state. *)
Theorem C88_zero_input_decays :
  forall (bq : biquad R), strictly_stable (a1 (bq_a bq)) (a2 (bq_a bq)) ->
  exists r B, 0 < r < 1 /\ forall n ys bq',
    run (step R_scalar) bq (repeat 0 (S n)) = Ok (ys, bq') -> Rabs (nth n ys 0) <= B * r ^ n.
Proof.
  intros bq St.
  destruct (steady_state 0 (bq_a bq) (bq_b bq) 0 0 (bq_w bq) St (stable_den _ _ St)) as (r & B & Hr & H).
  exists r, B. split; [assumption|]. intros n ys bq' E. rewrite run_step_R, run_df2_R in E. injection E as <- _.
  specialize (H n). rewrite Rmult_0_l, Rminus_0_r in H.
  assert (T : forall m k, tones 0 0 0 k m = repeat 0 m).
  { unfold tones. intros m. induction m; intros k; cbn; [reflexivity|]. rewrite IHm. f_equal. ring. }
  rewrite T in H. exact H.
Qed.
Print Assumptions C88_zero_input_decays.

Example C88_case : strictly_stable (a1 (bq_a ex_bq)) (a2 (bq_a ex_bq)).
Proof. exact C42_case. Qed.

(** ** C89: [response] is the steady state response to a sinusoid *)

(** The input [A cos(2 pi f n + phi)], [n] = 0, 1, ... *)
Definition sinusoid (A f phi : R) (n : nat) : R := A * cos (phi + 2 * PI * f * INR n).

(** The signal with amplitude and phase changed by the complex factor [H]. *)
Definition through (H : C) (A f phi : R) (n : nat) : R :=
  A * (fst H * cos (phi + 2 * PI * f * INR n) - snd H * sin (phi + 2 * PI * f * INR n)).

Theorem C89_response_is_steady_state :
  forall (bq : biquad R) (A f phi : R),
  strictly_stable (a1 (bq_a bq)) (a2 (bq_a bq)) ->
  exists H r B, response bq f = Ok H /\ 0 < r < 1 /\
  forall n ys bq',
    run (step R_scalar) bq (map (sinusoid A f phi) (seq 0 (S n))) = Ok (ys, bq') ->
    Rabs (nth n ys 0 - through H A f phi n) <= B * r ^ n.
Proof.
  intros bq A f phi St.
  destruct (steady_state A (bq_a bq) (bq_b bq) (2 * PI * f) phi (bq_w bq) St (stable_den _ _ St)) as (r & B & Hr & HB).
  unfold response. fold (den (bq_a bq) (2 * PI * f)). fold (num (bq_b bq) (2 * PI * f)).
  destruct (Ceq_dec (den (bq_a bq) (2 * PI * f)) (RtoC 0)) as [X|_]; [now apply stable_den in X|].
  eexists _, r, B. split; [reflexivity|]. split; [assumption|].
  intros n ys bq' E. rewrite run_step_R, run_df2_R in E. injection E as <- _.
  specialize (HB n). unfold tones in HB. unfold through.
  set (H := Cdiv _ _) in *.
  replace (A * (fst H * cos (phi + 2 * PI * f * INR n) - snd H * sin (phi + 2 * PI * f * INR n)))
    with (A * fst (Cmult H (polar 1 (phi + 2 * PI * f * INR n)))); [exact HB|].
  unfold Cmult, polar; cbn [fst snd]. ring.
Qed.
Print Assumptions C89_response_is_steady_state.

Example C89_case :
  strictly_stable (a1 (bq_a ex_bq)) (a2 (bq_a ex_bq)) /\ sinusoid 3 (1/4) 0 0 = 3.
Proof.
  split; [exact C42_case|]. unfold sinusoid. cbn. rewrite Rmult_0_r, Rplus_0_r, cos_0. ring.
Qed.
