(** * Properties of fixed-point numbers (include/num/fixed-point.hpp)

    C27 - C37 of properties.jsonl, and the fixed-point halves of C12 and C14. *)

From Coq Require Import ZArith Reals List Lia Lra Psatz Bool.
From Verif Require Import Base Matrix Scalars FixedPoint FixedSpec FixedProofs Kalman.
Import ListNotations.
Local Open Scope Z_scope.

(** Configurations used in the examples: [fixed_point<int8_t,3>] (4 fraction bits) and
    [fixed_point<int,15>] on the desktop and on AVR. *)
Definition q3_4 : fx := {| fx_w := 8; fx_ib := 32; fx_F := 4; fx_cpp20 := true |}.
Definition fp_desktop : fx :=
  {| fx_w := 32; fx_ib := 32; fx_F := default_F 32 15; fx_cpp20 := true |}.
Definition fp_avr : fx :=
  {| fx_w := 16; fx_ib := 16; fx_F := default_F 16 15; fx_cpp20 := true |}.

Lemma q3_4_ok : supported q3_4.
Proof. unfold supported; simpl. lia. Qed.
Lemma fp_desktop_ok : supported fp_desktop.
Proof. unfold supported; simpl. unfold default_F. lia. Qed.
Lemma fp_avr_ok : supported fp_avr.
Proof. unfold supported; simpl. unfold default_F. lia. Qed.

(** ** C27: values stay in range *)

(** Programs computing with fixed-point variables: a variable is assigned the result of a
    constructor or operator applied to variables. *)
Inductive instr :=
| IInt (n : Z) | IReal (r : R) | IMin | IMax
| INeg (i : nat) | IAdd (i j : nat) | ISub (i j : nat) | IMul (i j : nat) | IDiv (i j : nat).

Definition exec (c : fx) (env : list Z) (i : instr) : outcome Z :=
  let v k := nth k env 0 in
  match i with
  | IInt n => fx_of_int c n
  | IReal r => fx_of_real c r
  | IMin => Ok (fx_min c)
  | IMax => Ok (fx_max c)
  | INeg a => fx_neg c (v a)
  | IAdd a b => fx_add c (v a) (v b)
  | ISub a b => fx_sub c (v a) (v b)
  | IMul a b => fx_mul c (v a) (v b)
  | IDiv a b => fx_div c (v a) (v b)
  end.

Fixpoint exec_all (c : fx) (env : list Z) (p : list instr) : outcome (list Z) :=
  match p with
  | [] => Ok env
  | i :: p' => r <- exec c env i ;; exec_all c (env ++ [r]) p'
  end.

Lemma in_range_min_max c : supported c -> in_range c (fx_min c) /\ in_range c (fx_max c).
Proof.
  intros S. unfold in_range, fx_min, fx_max.
  assert (0 < 2 ^ (fx_w c - 1)) by (apply Z.pow_pos_nonneg; pose proof (sup_w c S); lia). lia.
Qed.

Theorem C27_values_in_range :
  forall (c : fx) (p : list instr) (env env' : list Z),
  supported c -> Forall (in_range c) env ->
  exec_all c env p = Ok env' ->
  Forall (in_range c) env'.
Proof.
  intros c p. induction p as [|i p IH]; intros env env' S F H; simpl in H.
  - now injection H as <-.
  - apply bind_inv in H as (r & E & H). apply (IH _ _ S) in H; [assumption|].
    apply Forall_app. split; [assumption|]. constructor; [|constructor].
    destruct i; simpl in E.
    + eapply fx_of_int_range; eassumption.
    + eapply fx_of_real_range; eassumption.
    + injection E as <-. now apply in_range_min_max.
    + injection E as <-. now apply in_range_min_max.
    + eapply fx_neg_range; eassumption.
    + eapply fx_add_range; eassumption.
    + eapply fx_sub_range; eassumption.
    + eapply fx_mul_range; eassumption.
    + eapply fx_div_range; eassumption.
Qed.
Print Assumptions C27_values_in_range.

Example C27_case :
  exec_all q3_4 [] [IInt 7; IInt 6; IAdd 0 1; IMul 0 1; IDiv 0 1] = Ok [112; 96; -48; -96; 18].
Proof. vm_compute. reflexivity. Qed.

(** ** C28: addition and subtraction *)

Theorem C28_exact_when_representable :
  forall (c : fx) (a b : Z),
  supported c -> in_range c a -> in_range c b ->
  (representable c (value c a + value c b) ->
     exists r, fx_add c a b = Ok r /\ in_range c r /\ value c r = (value c a + value c b)%R) /\
  (representable c (value c a - value c b) ->
     exists r, fx_sub c a b = Ok r /\ in_range c r /\ value c r = (value c a - value c b)%R).
Proof.
  intros c a b S A B. split; intros (r & R & E); exists r.
  - rewrite <- value_add in E. apply value_inj in E; [|assumption]. subst r.
    rewrite add_exact by assumption. now rewrite value_add.
  - rewrite <- value_sub in E. apply value_inj in E; [|assumption]. subst r.
    rewrite sub_exact by assumption. now rewrite value_sub.
Qed.
Print Assumptions C28_exact_when_representable.

Theorem C28_wraps_when_narrow :
  forall (c : fx) (a b : Z),
  supported c -> fx_w c < fx_ib c -> in_range c a -> in_range c b ->
  (exists r, fx_add c a b = Ok r /\ in_range c r /\ same_mod c (a + b) r) /\
  (exists r, fx_sub c a b = Ok r /\ in_range c r /\ same_mod c (a - b) r).
Proof.
  intros c a b S N A B. rewrite add_narrow, sub_narrow by assumption.
  pose proof (sup_w c S).
  split; eexists; (split; [reflexivity|]); (split; [now apply wrap_in_range|]);
    apply wrap_mod; lia.
Qed.
Print Assumptions C28_wraps_when_narrow.

Theorem C28_overflow_undefined_when_wide :
  forall (c : fx) (a b : Z),
  supported c -> fx_ib c <= fx_w c ->
  (~ in_range c (a + b) -> fx_add c a b = Err SignedOverflow) /\
  (~ in_range c (a - b) -> fx_sub c a b = Err SignedOverflow).
Proof.
  intros c a b S W. unfold fx_add, fx_sub. rewrite (arith_width_wide c W).
  split; intros O; now rewrite chk_out by exact O.
Qed.
Print Assumptions C28_overflow_undefined_when_wide.

Example C28_case :
  fx_add q3_4 112 96 = Ok (-48) /\                           (* 7 + 6 = -3 modulo 16 *)
  fx_add q3_4 112 (-96) = Ok 16 /\                           (* 7 - 6 = 1 *)
  fx_add fp_desktop 2147483647 1 = Err SignedOverflow /\
  fx_add fp_avr 32767 1 = Err SignedOverflow.
Proof. repeat split. Qed.

(** ** C29: multiplication *)

Theorem C29_mul_rounds_down :
  forall (c : fx) (a b : Z),
  supported c -> in_range c a -> in_range c b ->
  in_range c (a * b / 2 ^ fx_F c) ->
  exists r, fx_mul c a b = Ok r /\
    (value c r <= value c a * value c b < value c r + step c)%R.
Proof.
  intros c a b S A B R. exists (a * b / 2 ^ fx_F c). rewrite mul_shape by assumption.
  rewrite wrap_in by assumption. split; [reflexivity|].
  rewrite value_mul_real. now apply value_floor.
Qed.
Print Assumptions C29_mul_rounds_down.

(** The representability hypothesis in terms of the represented numbers: the product lies
    between the smallest value and one step above the largest. *)
Theorem C29_mul_when_in_range :
  forall (c : fx) (a b : Z),
  supported c -> in_range c a -> in_range c b ->
  (value c (fx_min c) <= value c a * value c b < value c (fx_max c) + step c)%R ->
  exists r, fx_mul c a b = Ok r /\ in_range c r /\
    (value c r <= value c a * value c b < value c r + step c)%R.
Proof.
  intros c a b S A B [L U].
  pose proof (value_floor c (a * b) _ S eq_refl) as F. rewrite <- value_mul_real in F.
  assert (R : in_range c (a * b / 2 ^ fx_F c)).
  { unfold in_range. split.
    - assert (X : (value c (fx_min c) < value c (a * b / 2 ^ fx_F c + 1))%R)
        by (rewrite value_step; lra).
      apply value_lt in X; [|assumption]. unfold fx_min in X. lia.
    - assert (X : (value c (a * b / 2 ^ fx_F c) < value c (fx_max c + 1))%R)
        by (rewrite value_step; lra).
      apply value_lt in X; [|assumption]. unfold fx_max in X. lia. }
  destruct (C29_mul_rounds_down c a b S A B R) as (r & E & V). exists r.
  split; [assumption|]. split; [|assumption]. eapply fx_mul_range; eassumption.
Qed.
Print Assumptions C29_mul_when_in_range.

Theorem C29_mul_never_undefined :
  forall (c : fx) (a b : Z),
  supported c -> in_range c a -> in_range c b ->
  exists r, fx_mul c a b = Ok r /\ in_range c r /\ same_mod c (a * b / 2 ^ fx_F c) r /\
            fx_mul c b a = Ok r.
Proof.
  intros c a b S A B. rewrite !mul_shape by assumption. rewrite (Z.mul_comm b a).
  eexists. split; [reflexivity|]. split; [now apply wrap_in_range|]. split; [|reflexivity].
  apply wrap_mod. pose proof (sup_w c S). lia.
Qed.
Print Assumptions C29_mul_never_undefined.

(** [T(1)] is neutral as soon as there is an integer bit. *)
Theorem C29_one_neutral :
  forall (c : fx) (a one : Z),
  supported c -> fx_F c < fx_w c - 1 -> in_range c a -> fx_of_int c 1 = Ok one ->
  value c one = 1%R /\ fx_mul c a one = Ok a /\ fx_mul c one a = Ok a.
Proof.
  intros c a one S HF A H1. rewrite fx_of_int_1 in H1 by assumption. injection H1 as <-.
  pose proof (pow_F_pos c S) as HD. pose proof (sup_F c S).
  assert (R : in_range c (2 ^ fx_F c)).
  { unfold in_range. assert (2 ^ fx_F c < 2 ^ (fx_w c - 1)) by (apply Z.pow_lt_mono_r; lia). lia. }
  simpl. rewrite (wrap_in c) by assumption. rewrite !mul_shape by assumption.
  rewrite (Z.mul_comm (2 ^ fx_F c) a), Z.div_mul by lia. rewrite wrap_in by assumption.
  split; [|split; reflexivity]. unfold value. pose proof (D_pos c S). field. lra.
Qed.
Print Assumptions C29_one_neutral.

(** Without integer bits (I = 0) the constant one is minus one. *)
Theorem C29_one_without_integer_bits :
  forall c, supported c -> fx_F c = fx_w c - 1 ->
  exists one, fx_of_int c 1 = Ok one /\ value c one = (-1)%R.
Proof.
  intros c S HF. eexists. split; [now apply fx_of_int_1|]. simpl. rewrite HF.
  pose proof (sup_w c S) as Hw.
  assert (0 < 2 ^ (fx_w c - 1)) by (apply Z.pow_pos_nonneg; lia).
  rewrite (wrap_unique (fx_w c) _ (- 2 ^ (fx_w c - 1)) (-1)); [|lia|lia|].
  - unfold value. rewrite HF, opp_IZR. field. apply IZR_lt in H. lra.
  - rewrite (pow2_half (fx_w c)) by lia. ring.
Qed.
Print Assumptions C29_one_without_integer_bits.

Example C29_case :
  fx_mul q3_4 20 20 = Ok 25 /\           (* 1.25 * 1.25 = 1.5625 -> 1.5625 *)
  fx_mul q3_4 (-3) 5 = Ok (-1) /\        (* -15/256 -> -1/16: rounds down *)
  fx_mul q3_4 112 112 = Ok 16 /\         (* 49 wraps to 1 *)
  in_range q3_4 (20 * 20 / 2 ^ fx_F q3_4).
Proof. repeat split; vm_compute; congruence. Qed.

(** ** C30: division *)

Theorem C30_div_rounds_to_zero :
  forall (c : fx) (a b : Z),
  supported c -> in_range c a -> in_range c b -> b <> 0 ->
  fx_cpp20 c = true \/ 0 <= a ->
  in_range c (Z.quot (a * 2 ^ fx_F c) b) ->
  exists r, fx_div c a b = Ok r /\
    (Rabs (value c r) <= Rabs (value c a / value c b) < Rabs (value c r) + step c)%R /\
    (0 <= value c r * (value c a / value c b))%R.
Proof.
  intros c a b S A B Hb Hs R. exists (Z.quot (a * 2 ^ fx_F c) b).
  rewrite div_shape by assumption. rewrite wrap_in by assumption. split; [reflexivity|].
  set (D := 2 ^ fx_F c). set (n := a * D). set (q := Z.quot n b).
  assert (HD : (0 < IZR D)%R) by (now apply D_pos).
  assert (HbR : IZR b <> 0%R) by (now apply not_0_IZR).
  assert (E : (value c a / value c b = IZR n / IZR b / IZR D)%R).
  { unfold value. fold D. unfold n. rewrite mult_IZR. field. split; lra || assumption. }
  destruct (quot_real n b Hb) as [[L U] G]. fold q in L, U, G.
  rewrite E. unfold value, step. fold D.
  assert (P : (0 < / IZR D)%R) by (now apply Rinv_0_lt_compat).
  assert (AD : forall x, (Rabs (x / IZR D) = Rabs x * / IZR D)%R).
  { intros x. unfold Rdiv. rewrite Rabs_mult, (Rabs_pos_eq (/ IZR D)) by lra. reflexivity. }
  rewrite !AD. split; [split|].
  - apply Rmult_le_compat_r; lra.
  - replace (Rabs (IZR q) * / IZR D + 1 / IZR D)%R with ((Rabs (IZR q) + 1) * / IZR D)%R
      by (unfold Rdiv; ring).
    apply Rmult_lt_compat_r; lra.
  - replace (IZR q / IZR D * (IZR n / IZR b / IZR D))%R
      with (IZR q * (IZR n / IZR b) * (/ IZR D * / IZR D))%R by (unfold Rdiv; ring).
    apply Rmult_le_pos; [assumption|]. apply Rmult_le_pos; lra.
Qed.
Print Assumptions C30_div_rounds_to_zero.

Theorem C30_div_undefined :
  forall (c : fx) (a : Z),
  supported c -> in_range c a -> fx_cpp20 c = true \/ 0 <= a ->
  fx_div c a 0 = Err DivByZero.
Proof. exact div_zero. Qed.
Print Assumptions C30_div_undefined.

(** Every other division is defined (and wraps if the result is not representable), except
    that C++17, the standard the repository is compiled with, leaves dividing a negative
    value undefined, because it is shifted left. *)
Theorem C30_div_otherwise_defined :
  forall (c : fx) (a b : Z),
  supported c -> in_range c a -> in_range c b -> b <> 0 ->
  (fx_cpp20 c = true \/ 0 <= a ->
     exists r, fx_div c a b = Ok r /\ in_range c r /\
               same_mod c (Z.quot (a * 2 ^ fx_F c) b) r) /\
  (fx_cpp20 c = false -> a < 0 -> fx_div c a b = Err BadShift).
Proof.
  intros c a b S A B Hb. split.
  - intros Hs. rewrite div_shape by assumption. eexists. split; [reflexivity|].
    split; [now apply wrap_in_range|]. apply wrap_mod. pose proof (sup_w c S). lia.
  - intros Hc Ha. now apply div_negative.
Qed.
Print Assumptions C30_div_otherwise_defined.

Example C30_case :
  fx_div q3_4 (-7) 32 = Ok (-3) /\        (* -7/32 -> -3/16: towards zero *)
  fx_div q3_4 16 48 = Ok 5 /\             (* 1/3 -> 5/16 *)
  fx_div q3_4 112 8 = Ok (-32) /\         (* 14 wraps *)
  fx_div q3_4 16 0 = Err DivByZero.
Proof. repeat split. Qed.

(** ** C31: integer conversion *)

Theorem C31_integer_round_trip :
  forall (c : fx) (n wu : Z),
  supported c -> fx_w c <= wu ->
  representable c (IZR n) ->
  exists a, fx_of_int c n = Ok a /\ value c a = IZR n /\ fx_as_int c wu a = Ok n.
Proof.
  intros c n wu S Hwu (a & A & V). exists a.
  pose proof (pow_F_pos c S) as HD. pose proof (D_pos c S) as HDR. pose proof (sup_w c S) as Hw.
  assert (E : a = 2 ^ fx_F c * n).
  { apply eq_IZR. rewrite mult_IZR. rewrite <- V. unfold value. field. lra. }
  split; [|split; [assumption|]].
  - unfold fx_of_int. rewrite power2_F by assumption. rewrite bind_Ok, <- E.
    assert (2 ^ (fx_w c - 1) <= 2 ^ (64 - 1)) by (apply Z.pow_le_mono_r; lia).
    unfold in_range in A.
    rewrite chk_in by lia. rewrite bind_Ok, wrap_in by assumption. reflexivity.
  - unfold fx_as_int, fx_rep. rewrite power2_F by assumption. rewrite bind_Ok.
    assert (2 ^ (fx_w c - 1) <= 2 ^ (wu - 1)) by (apply Z.pow_le_mono_r; lia).
    rewrite wrap_id; [|lia|unfold in_range in A; lia].
    rewrite E, Z.mul_comm, Z.quot_mul by lia. reflexivity.
Qed.
Print Assumptions C31_integer_round_trip.

(** Outside the representable integers the result is congruent modulo the range. *)
Theorem C31_integer_wraps :
  forall (c : fx) (n : Z),
  supported c -> - 2 ^ 31 <= n < 2 ^ 31 ->
  exists a, fx_of_int c n = Ok a /\ in_range c a /\ same_mod c (2 ^ fx_F c * n) a.
Proof.
  intros c n S Hn. unfold fx_of_int. rewrite power2_F by assumption. rewrite bind_Ok.
  pose proof (pow_F_pos c S). pose proof (pow_F_le c S). pose proof (sup_w c S).
  assert (2 ^ (fx_w c - 1) <= 2 ^ 31) by (apply Z.pow_le_mono_r; lia).
  rewrite chk_in.
  - eexists. split; [reflexivity|]. split; [now apply wrap_in_range|]. apply wrap_mod. lia.
  - change (2 ^ (64 - 1)) with (2 ^ 31 * 2 ^ 32). change (2 ^ 32) with (2 * 2 ^ 31). nia.
Qed.
Print Assumptions C31_integer_wraps.

(** [as<integer>] truncates towards zero, provided the stored integer fits. *)
Theorem C31_as_truncates :
  forall (c : fx) (a wu : Z),
  supported c -> in_range c a -> fx_w c <= wu ->
  exists n, fx_as_int c wu a = Ok n /\
    (Rabs (IZR n) <= Rabs (value c a) < Rabs (IZR n) + 1)%R /\ (0 <= IZR n * value c a)%R.
Proof.
  intros c a wu S A Hwu. exists (Z.quot a (2 ^ fx_F c)).
  pose proof (pow_F_pos c S) as HD. pose proof (sup_w c S) as Hw.
  unfold fx_as_int, fx_rep. rewrite power2_F by assumption. rewrite bind_Ok.
  assert (2 ^ (fx_w c - 1) <= 2 ^ (wu - 1)) by (apply Z.pow_le_mono_r; lia).
  rewrite wrap_id; [|lia|unfold in_range in A; lia]. split; [reflexivity|].
  apply (quot_real a (2 ^ fx_F c)). lia.
Qed.
Print Assumptions C31_as_truncates.

Example C31_case :
  fx_of_int q3_4 (-5) = Ok (-80) /\ fx_as_int q3_4 32 (-80) = Ok (-5) /\
  fx_as_int q3_4 32 (-40) = Ok (-2) /\      (* -2.5 -> -2 *)
  fx_of_int q3_4 9 = Ok (-112).              (* 9 wraps to -7 *)
Proof. repeat split. Qed.

(** ** C32: floating-point conversion *)

(** Nearest representable value, ties away from zero. *)
Theorem C32_nearest :
  forall (c : fx) (x : R) (a : Z),
  supported c -> fx_of_real c x = Ok a ->
  (Rabs (value c a - x) <= step c / 2)%R /\
  (forall b : Z, (Rabs (value c a - x) <= Rabs (value c b - x))%R) /\
  (forall b : Z, b <> a -> Rabs (value c b - x) = Rabs (value c a - x) ->
                 (Rabs (value c b) < Rabs (value c a))%R).
Proof.
  intros c x a S H. rewrite of_real_shape in H by assumption.
  apply chk_Ok in H as [-> _]. pose proof (D_pos c S) as HD.
  set (D := IZR (2 ^ fx_F c)) in *. set (y := (D * x)%R).
  assert (P : (0 < / D)%R) by (now apply Rinv_0_lt_compat).
  assert (V : forall b, (Rabs (value c b - x) = Rabs (IZR b - y) * / D)%R).
  { intros b. unfold value. fold D. unfold y.
    replace (IZR b / D - x)%R with ((IZR b - D * x) * / D)%R by (field; lra).
    rewrite Rabs_mult, (Rabs_pos_eq (/ D)) by lra. reflexivity. }
  assert (VA : forall b, (Rabs (value c b) = Rabs (IZR b) * / D)%R).
  { intros b. unfold value, Rdiv. fold D. rewrite Rabs_mult, (Rabs_pos_eq (/ D)) by lra. reflexivity. }
  pose proof (round_away_near y) as N. set (a := round_away y) in *.
  assert (Far : forall b, b <> a -> (1/2 <= Rabs (IZR b - y))%R).
  { intros b Hb. assert (X : (1 <= Rabs (IZR b - IZR a))%R).
    { rewrite <- minus_IZR, <- abs_IZR. apply IZR_le. lia. }
    replace (IZR b - IZR a)%R with ((IZR b - y) + (y - IZR a))%R in X by ring.
    pose proof (Rabs_triang (IZR b - y) (y - IZR a)).
    rewrite (Rabs_minus_sym y (IZR a)) in H. lra. }
  split; [|split].
  - rewrite V. unfold step. fold D. replace (1 / D / 2)%R with (1/2 * / D)%R by (field; lra).
    apply Rmult_le_compat_r; lra.
  - intros b. rewrite !V. apply Rmult_le_compat_r; [lra|].
    destruct (Z.eq_dec b a) as [->|Hb]; [lra|]. specialize (Far b Hb). lra.
  - intros b Hb E. rewrite !V in E. rewrite !VA.
    apply Rmult_lt_compat_r; [assumption|].
    apply Rmult_eq_reg_r in E; [|lra].
    specialize (Far b Hb).
    destruct (Rle_dec 0 y) as [Y|Y].
    + pose proof (round_away_pos y Y) as B. fold a in B.
      assert (A0 : 0 <= a).
      { assert (-1 < a); [|lia]. apply lt_IZR. lra. }
      assert (EA : (Rabs (IZR a - y) = 1/2)%R) by lra.
      (* y = a - 1/2, b = a - 1 *)
      assert (Ey : (y = IZR a - 1/2)%R).
      { unfold Rabs in EA. destruct (Rcase_abs (IZR a - y)); lra. }
      assert (Eb : b = a - 1).
      { rewrite EA, Ey in E. unfold Rabs in E. destruct (Rcase_abs _).
        - assert (IZR b = IZR (a - 1)) by (rewrite minus_IZR; lra). now apply eq_IZR.
        - assert (IZR b = IZR a) by lra. apply eq_IZR in H. contradiction. }
      subst b. assert (1 <= a).
      { assert (0 < a \/ a = 0) as [|Z] by lia; [lia|]. rewrite Z in Ey. lra. }
      rewrite !Rabs_pos_eq by (apply IZR_le; lia). apply IZR_lt. lia.
    + pose proof (round_away_neg y ltac:(lra)) as B. fold a in B.
      assert (EA : (Rabs (IZR a - y) = 1/2)%R) by lra.
      assert (Ey : (y = IZR a + 1/2)%R).
      { unfold Rabs in EA. destruct (Rcase_abs (IZR a - y)); lra. }
      assert (Eb : b = a + 1).
      { rewrite EA, Ey in E. unfold Rabs in E. destruct (Rcase_abs _).
        - assert (IZR b = IZR a) by lra. apply eq_IZR in H. contradiction.
        - assert (IZR b = IZR (a + 1)) by (rewrite plus_IZR; lra). now apply eq_IZR. }
      subst b. assert (a <= -1).
      { assert (a < 0); [|lia]. apply lt_IZR. lra. }
      rewrite !Rabs_left1 by (apply IZR_le; lia). apply Ropp_lt_contravar, IZR_lt. lia.
Qed.
Print Assumptions C32_nearest.

(** Defined exactly for the reals that round into the range; odd; monotone. *)
Theorem C32_defined_odd_monotone :
  forall (c : fx), supported c ->
  (forall x, (value c (fx_min c) - step c / 2 < x < value c (fx_max c) + step c / 2)%R ->
     exists a, fx_of_real c x = Ok a) /\
  (forall x, (x <= value c (fx_min c) - step c / 2 \/ value c (fx_max c) + step c / 2 <= x)%R ->
     fx_of_real c x = Err SignedOverflow) /\
  (forall x a b, fx_of_real c x = Ok a -> fx_of_real c (- x) = Ok b -> b = - a) /\
  (forall x y a b, (x <= y)%R -> fx_of_real c x = Ok a -> fx_of_real c y = Ok b -> a <= b).
Proof.
  intros c S. pose proof (D_pos c S) as HD.
  set (D := IZR (2 ^ fx_F c)) in *.
  assert (HM : (0 < IZR (2 ^ (fx_w c - 1)))%R).
  { apply IZR_lt. apply Z.pow_pos_nonneg; pose proof (sup_w c S); lia. }
  set (M := 2 ^ (fx_w c - 1)) in *.
  assert (Vmin : (value c (fx_min c) - step c / 2 = (- IZR M - 1/2) / D)%R).
  { unfold value, step, fx_min. fold D M. rewrite opp_IZR. field. lra. }
  assert (Vmax : (value c (fx_max c) + step c / 2 = (IZR M - 1/2) / D)%R).
  { unfold value, step, fx_max. fold D M. rewrite minus_IZR. field. lra. }
  assert (Sc : forall x y, (x < y / D -> D * x < y)%R).
  { intros x y H. apply Rmult_lt_compat_r with (r := D) in H; [|assumption].
    unfold Rdiv in H. rewrite Rmult_assoc, Rinv_l in H by lra. lra. }
  assert (Sc2 : forall x y, (y / D < x -> y < D * x)%R).
  { intros x y H. apply Rmult_lt_compat_r with (r := D) in H; [|assumption].
    unfold Rdiv in H. rewrite Rmult_assoc, Rinv_l in H by lra. lra. }
  assert (Sc3 : forall x y, (x <= y / D -> D * x <= y)%R).
  { intros x y H. apply Rmult_le_compat_r with (r := D) in H; [|lra].
    unfold Rdiv in H. rewrite Rmult_assoc, Rinv_l in H by lra. lra. }
  assert (Sc4 : forall x y, (y / D <= x -> y <= D * x)%R).
  { intros x y H. apply Rmult_le_compat_r with (r := D) in H; [|lra].
    unfold Rdiv in H. rewrite Rmult_assoc, Rinv_l in H by lra. lra. }
  rewrite Vmin, Vmax.
  split; [|split; [|split]].
  - intros x [L U]. apply Sc2 in L. apply Sc in U.
    exists (round_away (D * x)). rewrite of_real_shape by assumption. fold D.
    apply chk_in. fold M. destruct (Rle_dec 0 (D * x)) as [Y|Y].
    + pose proof (round_away_pos _ Y) as B. split; [|apply lt_IZR; lra].
      assert (-1 < round_away (D * x)) by (apply lt_IZR; lra).
      assert (0 < M) by (now apply lt_IZR). lia.
    + pose proof (round_away_neg (D * x) ltac:(lra)) as B. split.
      * assert (- M - 1 < round_away (D * x)); [|lia].
        apply lt_IZR. rewrite minus_IZR, opp_IZR. lra.
      * assert (round_away (D * x) < 1) by (apply lt_IZR; lra).
        assert (0 < M) by (now apply lt_IZR). lia.
  - intros x [L|U]; rewrite of_real_shape by assumption; fold D; apply chk_out; fold M; intros [R1 R2].
    + apply Sc3 in L. pose proof (round_away_neg (D * x) ltac:(lra)) as B.
      apply IZR_le in R1. rewrite opp_IZR in R1. lra.
    + apply Sc4 in U. assert (Y : (0 <= D * x)%R).
      { assert (1 <= IZR M)%R; [|lra]. apply IZR_le. apply lt_IZR in HM. lia. }
      pose proof (round_away_pos (D * x) Y) as B.
      assert (R3 : round_away (D * x) <= M - 1) by lia.
      apply IZR_le in R3. rewrite minus_IZR in R3. lra.
  - intros x a b Ha Hb. rewrite of_real_shape in Ha, Hb by assumption.
    apply chk_Ok in Ha as [-> _]. apply chk_Ok in Hb as [-> _].
    rewrite <- round_away_opp. f_equal. ring.
  - intros x y a b L Ha Hb. rewrite of_real_shape in Ha, Hb by assumption.
    apply chk_Ok in Ha as [-> _]. apply chk_Ok in Hb as [-> _].
    apply round_away_mono. apply Rmult_le_compat_l; [|assumption]. fold D. lra.
Qed.
Print Assumptions C32_defined_odd_monotone.

Example C32_case :
  (* 0.2 with 16 fraction bits is 13107/65536 *)
  fx_of_real fp_desktop (2/10) = Ok 13107.
Proof.
  rewrite of_real_shape by exact fp_desktop_ok. simpl fx_w. simpl fx_F.
  assert (E : round_away (IZR (2 ^ default_F 32 15) * (2/10)) = 13107).
  { pose proof (round_away_pos (IZR (2 ^ default_F 32 15) * (2/10))) as B.
    change (2 ^ default_F 32 15) with 65536 in *.
    specialize (B ltac:(lra)). set (r := round_away _) in *.
    assert (13106 < r) by (apply lt_IZR; lra). assert (r < 13108) by (apply lt_IZR; lra). lia. }
  rewrite E. reflexivity.
Qed.

(** ** C33: comparisons *)

Theorem C33_comparisons :
  forall (c : fx) (a b : Z), supported c ->
  (fx_eq a b = true <-> value c a = value c b) /\
  (fx_ne a b = true <-> value c a <> value c b) /\
  (fx_lt a b = true <-> (value c a < value c b)%R) /\
  (fx_le a b = true <-> (value c a <= value c b)%R) /\
  (fx_gt a b = true <-> (value c a > value c b)%R) /\
  (fx_ge a b = true <-> (value c a >= value c b)%R).
Proof.
  intros c a b S.
  assert (E : value c a = value c b <-> a = b).
  { split; [now apply value_inj|congruence]. }
  unfold fx_ne, fx_le, fx_gt, fx_ge, fx_eq, fx_lt, Rgt, Rge.
  rewrite E, !value_lt by assumption.
  rewrite value_le by assumption. rewrite !negb_true_iff.
  split; [apply Z.eqb_eq|]. split; [apply Z.eqb_neq|]. split; [apply Z.ltb_lt|].
  split; [rewrite Z.ltb_ge; lia|]. split; [apply Z.ltb_lt|].
  rewrite Z.ltb_ge. unfold Rgt. rewrite value_lt by assumption. lia.
Qed.
Print Assumptions C33_comparisons.

(** Exactly one of <, ==, > holds; addition and subtraction preserve the order when they
    do not overflow. *)
Theorem C33_order :
  forall (c : fx) (a b d : Z), supported c ->
  (fx_lt a b = true /\ fx_eq a b = false /\ fx_gt a b = false \/
   fx_lt a b = false /\ fx_eq a b = true /\ fx_gt a b = false \/
   fx_lt a b = false /\ fx_eq a b = false /\ fx_gt a b = true) /\
  (fx_le a b = true -> fx_le b d = true -> fx_le a d = true) /\
  (in_range c (a + d) -> in_range c (b + d) ->
   exists x y, fx_add c a d = Ok x /\ fx_add c b d = Ok y /\ fx_lt x y = fx_lt a b).
Proof.
  intros c a b d S. unfold fx_le, fx_gt, fx_lt, fx_eq. split; [|split].
  - destruct (Z.ltb_spec a b), (Z.eqb_spec a b), (Z.ltb_spec b a); lia.
  - rewrite !negb_true_iff, !Z.ltb_ge. lia.
  - intros A B. exists (a + d), (b + d). rewrite !add_exact by assumption.
    split; [reflexivity|]. split; [reflexivity|].
    destruct (Z.ltb_spec (a + d) (b + d)), (Z.ltb_spec a b); lia.
Qed.
Print Assumptions C33_order.

(** Overflow destroys monotonicity. *)
Example C33_case :
  fx_lt 100 120 = true /\
  exists x y, fx_add q3_4 100 20 = Ok x /\ fx_add q3_4 120 20 = Ok y /\ fx_lt x y = false.
Proof. split; [reflexivity|]. eexists. eexists. repeat split. Qed.

(** ** C34: negation *)

Theorem C34_negation :
  forall (c : fx) (a : Z), supported c -> in_range c a ->
  (a <> fx_min c ->
     exists r, fx_neg c a = Ok r /\ in_range c r /\ value c r = (- value c a)%R /\
               fx_neg c r = Ok a) /\
  (fx_w c < fx_ib c -> fx_neg c (fx_min c) = Ok (fx_min c)) /\
  (fx_ib c <= fx_w c -> fx_neg c (fx_min c) = Err SignedOverflow).
Proof.
  intros c a S A. pose proof (sup_w c S) as Hw.
  assert (HM : 0 < 2 ^ (fx_w c - 1)) by (apply Z.pow_pos_nonneg; lia).
  split; [|split].
  - intros N. unfold fx_min in N. assert (R : in_range c (- a)) by (unfold in_range in *; lia).
    exists (- a). rewrite neg_exact by assumption. split; [reflexivity|]. split; [assumption|].
    split; [apply value_opp|]. rewrite neg_exact; [f_equal; lia|assumption|].
    now rewrite Z.opp_involutive.
  - intros W. rewrite neg_narrow by (try assumption; apply in_range_min_max; assumption).
    f_equal. apply wrap_unique with (k := -1); [lia| |].
    + unfold fx_min. lia.
    + unfold fx_min. rewrite (pow2_half (fx_w c)) by lia. ring.
  - intros W. unfold fx_neg. rewrite (arith_width_wide c W), chk_out; [reflexivity|].
    unfold fx_min. lia.
Qed.
Print Assumptions C34_negation.

Example C34_case :
  fx_neg q3_4 37 = Ok (-37) /\ fx_neg q3_4 (-128) = Ok (-128) /\
  fx_neg fp_avr (-32768) = Err SignedOverflow.
Proof. repeat split. Qed.

(** ** C35: representation round trip *)

Theorem C35_representation :
  forall (c : fx) (a v : Z), supported c -> in_range c a -> in_range c v ->
  fx_construct c (fx_rep c a) = a /\
  fx_rep c (fx_construct c v) = v /\
  (exists r, fx_as_real c a = Ok r /\ r = value c a /\ fx_of_real c r = Ok a) /\
  (fx_as_real c a = fx_as_real c v -> a = v).
Proof.
  intros c a v S A V. pose proof (D_pos c S) as HD.
  assert (E : forall x, fx_as_real c x = Ok (value c x)).
  { intros x. unfold fx_as_real, fx_rep. rewrite power2_F by assumption. reflexivity. }
  unfold fx_construct. split; [|split; [|split]].
  - unfold fx_rep. now rewrite wrap_in.
  - unfold fx_rep. now rewrite wrap_in.
  - exists (value c a). rewrite E. split; [reflexivity|]. split; [reflexivity|].
    rewrite of_real_shape by assumption.
    replace (IZR (2 ^ fx_F c) * value c a)%R with (IZR a) by (unfold value; field; lra).
    rewrite round_away_IZR. now apply chk_in.
  - rewrite !E. intros [= H]. eapply value_inj; eassumption.
Qed.
Print Assumptions C35_representation.

Example C35_case : in_range q3_4 (-77) /\ fx_construct q3_4 (fx_rep q3_4 (-77)) = -77.
Proof. repeat split; vm_compute; congruence. Qed.

(** ** C36: not a ring *)

(** Distributivity holds up to one step, in one direction. *)
Theorem C36_distribution_error :
  forall (c : fx) (a b d s p q t : Z),
  supported c -> in_range c a -> in_range c b -> in_range c d ->
  in_range c (b + d) ->
  in_range c (a * (b + d) / 2 ^ fx_F c) ->
  in_range c (a * b / 2 ^ fx_F c) -> in_range c (a * d / 2 ^ fx_F c) ->
  in_range c (a * b / 2 ^ fx_F c + a * d / 2 ^ fx_F c) ->
  fx_add c b d = Ok s -> fx_mul c a b = Ok p -> fx_mul c a d = Ok q -> fx_add c p q = Ok t ->
  exists l, fx_mul c a s = Ok l /\
    (value c l = value c t \/ value c l = (value c t + step c)%R).
Proof.
  intros c a b d s p q t S A B D R1 R2 R3 R4 R5 E1 E2 E3 E4.
  rewrite add_exact in E1 by assumption. injection E1 as <-.
  rewrite mul_shape, wrap_in in E2 by assumption. injection E2 as <-.
  rewrite mul_shape, wrap_in in E3 by assumption. injection E3 as <-.
  rewrite add_exact in E4 by assumption. injection E4 as <-.
  exists (a * (b + d) / 2 ^ fx_F c). rewrite mul_shape, wrap_in by assumption.
  split; [reflexivity|]. rewrite <- value_step.
  pose proof (pow_F_pos c S) as HD. set (K := 2 ^ fx_F c) in *.
  assert (X : a * (b + d) / K = a * b / K + a * d / K \/
              a * (b + d) / K = a * b / K + a * d / K + 1).
  { pose proof (Z.div_mod (a * (b + d)) K ltac:(lia)).
    pose proof (Z.mod_pos_bound (a * (b + d)) K HD).
    pose proof (Z.div_mod (a * b) K ltac:(lia)). pose proof (Z.mod_pos_bound (a * b) K HD).
    pose proof (Z.div_mod (a * d) K ltac:(lia)). pose proof (Z.mod_pos_bound (a * d) K HD).
    nia. }
  destruct X as [-> | ->]; auto.
Qed.
Print Assumptions C36_distribution_error.

(** The ring laws fail without any overflow. *)
Theorem C36_ring_laws_refuted :
  ~ (forall c a b d x y, supported c -> in_range c a -> in_range c b -> in_range c d ->
       bind (fx_mul c a b) (fun p => fx_mul c p d) = Ok x ->
       bind (fx_mul c b d) (fun p => fx_mul c a p) = Ok y ->
       (value c a * value c b * value c d < 1)%R -> x = y) /\
  ~ (forall c a b d x y, supported c -> in_range c a -> in_range c b -> in_range c d ->
       bind (fx_add c b d) (fun p => fx_mul c a p) = Ok x ->
       bind (fx_mul c a b) (fun p => bind (fx_mul c a d) (fun q => fx_add c p q)) = Ok y ->
       (value c a * (value c b + value c d) < 1)%R -> x = y).
Proof.
  assert (R : forall v, -128 <= v < 128 -> in_range q3_4 v) by (intros; unfold in_range; simpl; lia).
  split; intros X.
  - specialize (X q3_4 3 8 30 1 2 q3_4_ok).
    assert (1 = 2); [|discriminate].
    apply X; try (apply R; lia); try reflexivity.
    unfold value. change (2 ^ fx_F q3_4) with 16. lra.
  - specialize (X q3_4 8 1 1 1 0 q3_4_ok).
    assert (1 = 0); [|discriminate].
    apply X; try (apply R; lia); try reflexivity.
    unfold value. change (2 ^ fx_F q3_4) with 16. lra.
Qed.
Print Assumptions C36_ring_laws_refuted.

Example C36_case :
  fx_mul q3_4 8 (1 + 1) = Ok 1 /\ fx_mul q3_4 8 1 = Ok 0 /\ fx_add q3_4 0 0 = Ok 0.
Proof. repeat split. Qed.

(** ** C37: fixed_point<int,15> on AVR *)

(** With [int] of 16 bits there are no fraction bits: every conversion gives an integer. *)
Theorem C37_avr_has_no_fraction :
  fx_F fp_desktop = 16 /\ fx_F fp_avr = 0 /\
  (forall a, exists n, value fp_avr a = IZR n) /\
  (forall x, (Rabs x < 1/2)%R -> fx_of_real fp_avr x = Ok 0) /\
  (forall a b, in_range fp_avr a -> in_range fp_avr b -> in_range fp_avr (a * b) ->
     fx_mul fp_avr a b = Ok (a * b)) /\
  (forall a b, in_range fp_avr a -> in_range fp_avr b -> Z.abs a < Z.abs b ->
     fx_div fp_avr a b = Ok 0).
Proof.
  split; [reflexivity|]. split; [reflexivity|]. split; [|split; [|split]].
  - intros a. exists a. unfold value. change (2 ^ fx_F fp_avr) with 1. field.
  - intros x H. rewrite of_real_shape by exact fp_avr_ok. change (2 ^ fx_F fp_avr) with 1.
    assert (E : round_away (1 * x) = 0).
    { rewrite Rmult_1_l. apply Rabs_def2 in H as [U L].
      destruct (Rle_dec 0 x) as [Y|Y].
      - pose proof (round_away_pos x Y). assert (-1 < round_away x) by (apply lt_IZR; lra).
        assert (round_away x < 1) by (apply lt_IZR; lra). lia.
      - pose proof (round_away_neg x ltac:(lra)). assert (-1 < round_away x) by (apply lt_IZR; lra).
        assert (round_away x < 1) by (apply lt_IZR; lra). lia. }
    rewrite E. reflexivity.
  - intros a b A B R. rewrite mul_shape by (try assumption; exact fp_avr_ok).
    change (2 ^ fx_F fp_avr) with 1. rewrite Z.div_1_r, wrap_in by (try assumption; exact fp_avr_ok).
    reflexivity.
  - intros a b A B L. rewrite (div_shape fp_avr a b fp_avr_ok A B ltac:(lia) (or_introl eq_refl)).
    change (2 ^ fx_F fp_avr) with 1. rewrite Z.mul_1_r.
    assert (E : Z.quot a b = 0).
    { pose proof (quot_abs_bounds a b ltac:(lia)). nia. }
    rewrite E. reflexivity.
Qed.
Print Assumptions C37_avr_has_no_fraction.

(** The acceleration noise 0.2 of time/avr-kalman-time.cpp is 0 on AVR, 0.19999... on the
    desktop; dt*dt/2 with dt = 1 is 0. *)
Example C37_case :
  fx_of_real fp_avr (2/10) = Ok 0 /\ fx_of_real fp_desktop (2/10) = Ok 13107 /\
  fx_div fp_avr 1 2 = Ok 0.
Proof.
  split; [|split; [exact C32_case|reflexivity]].
  apply C37_avr_has_no_fraction. rewrite Rabs_pos_eq; lra.
Qed.

(** ** C12, fixed-point half: elapsed time *)

(** After [n] updates without undefined behaviour the time is [n] times the stored time
    step, modulo the range; exactly that when it is representable. *)
Theorem C12_elapsed_time_fixed :
  forall (c : fx) (avr : bool) (M U : nat) prm (P x : matrix Z) h st,
  supported c -> in_range c (kdt prm) ->
  run (fx_scalar c) M U prm (kalman_init (fx_scalar c) avr M P x) h = Ok st ->
  let n := Z.of_nat (length h) in
  same_mod c (n * kdt prm) (kt st) /\ in_range c (kt st) /\
  (in_range c (n * kdt prm) -> value c (kt st) = (IZR n * value c (kdt prm))%R).
Proof.
  intros c avr M U prm P x h st S D H n. pose proof (sup_w c S) as Hw.
  assert (X : forall h s st, in_range c (kt s) -> run (fx_scalar c) M U prm s h = Ok st ->
            kt st = wrap (fx_w c) (kt s + Z.of_nat (length h) * kdt prm)).
  { clear - S Hw. induction h as [|[u z] h IH]; intros s st R H; simpl in H.
    - injection H as <-. simpl. rewrite Z.add_0_r, wrap_in; auto.
    - apply bind_inv in H as (s1 & E & H).
      unfold update in E. apply bind_inv in E as (t & Et & E).
      repeat (apply bind_inv in E as (? & _ & E)). injection E as <-.
      simpl in Et. pose proof (fx_add_range c _ _ _ S Et) as Rt.
      apply bind_inv in Et as (v & Ev & Et). apply chk_Ok in Ev as [-> _]. injection Et as Et.
      rewrite (IH {| kK := x1; kP := x3; kx := x2; kt := t |} _ Rt H). cbn [kt]. rewrite <- Et, wrap_add_wrap by lia.
      f_equal. simpl length. lia. }
  assert (R0 : in_range c (kt (kalman_init (fx_scalar c) avr M P x))).
  { unfold in_range. simpl. assert (0 < 2 ^ (fx_w c - 1)) by (apply Z.pow_pos_nonneg; lia). lia. }
  rewrite (X h _ _ R0 H). simpl kt. rewrite Z.add_0_l. fold n.
  split; [apply wrap_mod; lia|]. split; [now apply wrap_in_range|].
  intros R. rewrite wrap_in by assumption. unfold value. rewrite mult_IZR. unfold Rdiv. ring.
Qed.
Print Assumptions C12_elapsed_time_fixed.

(** ** C14, fixed-point half: symmetry is lost *)

(** The system of the timing program with [fixed_point<int,15>] on the desktop. *)
Definition fx_prm : kparams Z :=
  {| kA := [Some 65536; Some 65536; Some 0; Some 65536]; kB := [Some 32768; Some 65536];
     kH := [Some 65536; Some 0]; kQ := [Some 655; Some 1311; Some 1311; Some 2621];
     kR := [Some 6553600]; kdt := 65536 |}.
Definition fx_P : matrix Z := [Some 655; Some 1311; Some 1311; Some 2621].

Example C12_case_fixed :
  exists st, run (fx_scalar fp_desktop) 1 1 fx_prm
    (kalman_init (fx_scalar fp_desktop) false 1 fx_P [Some 0; Some 0])
    (repeat ([Some 65536], [Some 65536]) 6) = Ok st /\ kt st = 6 * 65536.
Proof. eexists. split; [vm_compute; reflexivity|reflexivity]. Qed.

Theorem C14_symmetric_fixed_refuted :
  ~ (forall (c : fx) prm a b d x h st e00 e01 e10 e11,
     supported c ->
     (exists q r s, kQ prm = [Some q; Some r; Some r; Some s]) ->
     run (fx_scalar c) 1 1 prm
       (kalman_init (fx_scalar c) false 1 [Some a; Some b; Some b; Some d] x) h = Ok st ->
     kP st = [Some e00; Some e01; Some e10; Some e11] -> e01 = e10).
Proof.
  intros X.
  assert (58753 = 58757); [|discriminate].
  refine (X fp_desktop fx_prm 655 1311 2621 [Some 0; Some 0]
    (repeat ([Some 65536], [Some 65536]) 6)
    {| kK := [Some 2711; Some 587]; kP := [Some 271249; Some 58753; Some 58757; Some 17232];
       kx := [Some 1093876; Some 375532]; kt := 393216 |} 271249 _ _ 17232 fp_desktop_ok _ _ eq_refl).
  - repeat eexists.
  - vm_compute. reflexivity.
Qed.
Print Assumptions C14_symmetric_fixed_refuted.
