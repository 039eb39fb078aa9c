(** * The two forms of the covariance correction

    C133 of properties.jsonl: example/desktop/covariance-error.e.cpp. *)

From Coq Require Import QArith Qreals Reals List Lra Lia Psatz ZArith Bool.
From Flocq Require Import Core IEEE754.BinarySingleNaN.
From Verif Require Import Base Matrix Scalars Kalman KalmanSpec KalmanProofs Ieee KalmanSim KalmanIeee.
Import ListNotations.
Local Open Scope R_scope.

(** What the two statements of the program compute, for every gain. *)
Theorem C133_forms : forall (s : sys) (K : vec2) (P : mat2),
  cov_short R_scalar (encv (sH s)) (encv K) (enc2 P) = Ok (enc2 (Pcorr s K P)) /\
  cov_joseph R_scalar (encv (sH s)) (sR s) (encv K) (enc2 P) = Ok (enc2 (Pjoseph s K P)).
Proof.
  intros [A B [h0 h1] Q R dt] [k0 k1] [p q r t]. split; kcomp; kentries; ring.
Qed.
Print Assumptions C133_forms.

(** The Joseph form keeps a covariance a covariance, whatever gains are used. *)
Fixpoint joseph_steps (H : matrix R) (r : R) (P : matrix R) (Ks : list (matrix R)) : outcome (matrix R) :=
  match Ks with
  | [] => Ok P
  | K :: Ks' => P' <- cov_joseph R_scalar H r K P ;; joseph_steps H r P' Ks'
  end.

Theorem C133_joseph_any_gain : forall (H : vec2) (r : R) (Ks : list vec2) (P : mat2),
  0 <= r -> sym P -> psd P ->
  exists P', joseph_steps (encv H) r (enc2 P) (map encv Ks) = Ok (enc2 P') /\ sym P' /\ psd P'.
Proof.
  intros H r Ks. induction Ks as [|K Ks IH]; intros P Hr HS HP.
  - exists P. auto.
  - cbn [map joseph_steps].
    destruct (C133_forms (Sys mI H H mI r 1) K P) as [_ E]. cbn [sH sR] in E. rewrite E, bind_Ok.
    apply IH; [exact Hr|now apply sym_joseph|]. apply psd_joseph; [exact HP|exact Hr].
Qed.
Print Assumptions C133_joseph_any_gain.

(** For a symmetric covariance the two forms agree exactly if the gain is zero or solves the
    equation of the optimal gain. *)
Theorem C133_forms_agree : forall (H K : vec2) (r : R) (P : mat2), sym P ->
  cov_short R_scalar (encv H) (encv K) (enc2 P) = cov_joseph R_scalar (encv H) r (encv K) (enc2 P) <->
  (K = V2 0 0 \/ vscale (vdot H (mv P H) + r) K = mv P H).
Proof.
  intros H K r P HS.
  destruct (C133_forms (Sys mI H H mI r 1) K P) as [E1 E2]. cbn [sH sR] in E1, E2. rewrite E1, E2.
  destruct H as [h0 h1], K as [k0 k1], P as [a b c d]. unfold sym in HS. cbn [m01 m10] in HS. subst c.
  unfold Pcorr, Pjoseph, enc2, mmul, msub, madd, mtr, mI, mscale, vouter, vscale, vdot, mv.
  cbn [m00 m01 m10 m11 v0 v1 sH sR].
  set (s := h0 * (a * h0 + b * h1) + h1 * (b * h0 + d * h1) + r).
  set (e0 := s * k0 - (a * h0 + b * h1)). set (e1 := s * k1 - (b * h0 + d * h1)).
  split.
  - intros E. apply Ok_inj in E.
    assert (e0 * k0 = 0 /\ e0 * k1 = 0 /\ e1 * k0 = 0 /\ e1 * k1 = 0) as (Z1 & Z2 & Z3 & Z4).
    { injection E as X1 X2 X3 X4. unfold e0, e1, s. repeat split; lra. }
    destruct (Req_dec k0 0) as [N0|N0]; [destruct (Req_dec k1 0) as [N1|N1]|].
    + left. now subst.
    + right. apply Rmult_integral in Z2 as [Z2|Z2]; [|contradiction].
      apply Rmult_integral in Z4 as [Z4|Z4]; [|contradiction].
      f_equal; unfold e0, e1 in *; lra.
    + right. apply Rmult_integral in Z1 as [Z1|Z1]; [|contradiction].
      apply Rmult_integral in Z3 as [Z3|Z3]; [|contradiction].
      f_equal; unfold e0, e1 in *; lra.
  - intros D. assert (e0 * k0 = 0 /\ e0 * k1 = 0 /\ e1 * k0 = 0 /\ e1 * k1 = 0) as (Z1 & Z2 & Z3 & Z4).
    { destruct D as [D|D].
      - injection D as -> ->. repeat split; ring.
      - injection D as D0 D1.
        assert (e0 = 0) by (unfold e0; lra). assert (e1 = 0) by (unfold e1; lra).
        rewrite H, H0. repeat split; ring. }
    unfold e0, e1, s in *.
    kentries; lra.
Qed.
Print Assumptions C133_forms_agree.

(** The short form with another gain: after the first pass of the program (gain 1.1) the
    variance of the position is negative and the covariance asymmetric. *)
Theorem C133_short_form_refuted :
  let P := mscale (1/5 * (1/5)) (M2 (1/4) (1/2) (1/2) 1) in
  sym P /\ psd P /\
  exists P', cov_short R_scalar (encv (V2 1 0)) (encv (V2 (11/10) (11/10))) (enc2 P) = Ok (enc2 P') /\
    ~ sym P' /\ ~ psd P' /\ m00 P' < 0.
Proof.
  intros P. split; [reflexivity|]. split.
  - intros [x y]. unfold P, quad, vdot, mv, mscale; cbn [m00 m01 m10 m11 v0 v1].
    pose proof (Rle_0_sqr (x / 2 + y)) as Q. unfold Rsqr in Q. lra.
  - exists (Pcorr (Sys mI (V2 1 0) (V2 1 0) mI 0 1) (V2 (11/10) (11/10)) P).
    split; [exact (proj1 (C133_forms (Sys mI (V2 1 0) (V2 1 0) mI 0 1) (V2 (11/10) (11/10)) P))|].
    unfold P, Pcorr, mmul, msub, mI, mscale, vouter. cbn [m00 m01 m10 m11 v0 v1 sH]. split; [|split].
    + unfold sym. cbn [m00 m01 m10 m11]. lra.
    + intros H. specialize (H (V2 1 0)). revert H.
      unfold quad, vdot, mv; cbn [m00 m01 m10 m11 v0 v1]. lra.
    + lra.
Qed.
Print Assumptions C133_short_form_refuted.

(** ** The program in float *)

(** 2^60 times the value, if that is an integer. *)
Definition scaled (x : float) : option Z :=
  match x with
  | B754_finite s m e _ => if (-60 <=? e)%Z then Some (cond_Zopp s (Zpos m) * 2 ^ (e + 60))%Z else None
  | B754_zero _ => Some 0%Z
  | _ => None
  end.

Lemma scaled_value x z : scaled x = Some z -> is_finite x = true /\ B2R x = IZR z * bpow radix2 (-60).
Proof.
  destruct x as [s| | |s m e B]; try discriminate; cbn [scaled B2R is_finite].
  - intros E. assert (z = 0%Z) by congruence. subst z. split; [reflexivity|ring].
  - destruct (Z.leb_spec (-60) e) as [L|L]; [|discriminate]. intros E.
    assert (z = (cond_Zopp s (Z.pos m) * 2 ^ (e + 60))%Z) by congruence. subst z. split; [reflexivity|].
    rewrite mult_IZR. unfold F2R; cbn [Fnum Fexp].
    change 2%Z with (radix_val radix2). rewrite IZR_Zpower by lia.
    rewrite Rmult_assoc, <- bpow_plus. do 2 f_equal. lia.
Qed.

Definition scaled4 (m : matrix float) : option (Z * Z * Z * Z) :=
  match m with
  | [Some a; Some b; Some c; Some d] =>
      match scaled a, scaled b, scaled c, scaled d with
      | Some x, Some y, Some z, Some w => Some (x, y, z, w)
      | _, _, _, _ => None
      end
  | _ => None
  end.

Lemma scaled4_inv m x y z w : scaled4 m = Some (x, y, z, w) -> exists a b c d,
  m = [Some a; Some b; Some c; Some d] /\
  B2R a = IZR x * bpow radix2 (-60) /\ B2R b = IZR y * bpow radix2 (-60) /\
  B2R c = IZR z * bpow radix2 (-60) /\ B2R d = IZR w * bpow radix2 (-60) /\
  is_finite a = true /\ is_finite b = true /\ is_finite c = true /\ is_finite d = true.
Proof.
  unfold scaled4. destruct m as [|[a|] [|[b|] [|[c|] [|[d|] [|]]]]]; try discriminate.
  destruct (scaled a) as [x'|] eqn:Ea; [|discriminate]. destruct (scaled b) as [y'|] eqn:Eb; [|discriminate].
  destruct (scaled c) as [z'|] eqn:Ec; [|discriminate]. destruct (scaled d) as [w'|] eqn:Ed; [|discriminate].
  intros E. assert (x' = x /\ y' = y /\ z' = z /\ w' = w) as (-> & -> & -> & ->) by (repeat split; congruence).
  apply scaled_value in Ea as [Fa Va], Eb as [Fb Vb], Ec as [Fc Vc], Ed as [Fd Vd].
  exists a, b, c, d. repeat (split; [assumption || reflexivity|]). assumption.
Qed.

Definition bad_good (PP : matrix float * matrix float) : bool :=
  match scaled4 (fst PP), scaled4 (snd PP) with
  | Some (a, b, c, d), Some (a', b', c', d') =>
      (a <? 0)%Z && negb (b =? c)%Z && (0 <? a')%Z && (0 <? d')%Z &&
      (0 <? 4 * a' * d' - (b' + c') * (b' + c'))%Z
  | _, _ => false
  end.

Definition cov_check (fuel : nat) : bool :=
  match cov_main fuel with
  | Ok (Some (P0 :: l)) => Nat.eqb (length l) 10 && forallb bad_good l &&
      match scaled4 (fst P0) with Some (a, b, c, d) => (b =? c)%Z | None => false end &&
      match scaled4 (snd (last l P0)) with Some (a, b, c, d) => (c <? b)%Z | None => false end
  | _ => false
  end.

Lemma cov_check_10 : cov_check 10 = true.
Proof. vm_compute. reflexivity. Qed.

Lemma cov_loop_more H r f : forall f' k PP l, (f <= f')%nat ->
  cov_loop H r f k PP = Ok (Some l) -> cov_loop H r f' k PP = Ok (Some l).
Proof.
  induction f as [|f IH]; intros f' k PP l L E.
  - cbn [cov_loop] in E. destruct f'; cbn [cov_loop]; destruct (Bltb _ _); (discriminate || exact E).
  - destruct f' as [|f']; [lia|]. cbn [cov_loop] in *. destruct (Bltb _ _); [|exact E].
    apply bind_inv in E as (PP' & E1 & E). apply bind_inv in E as ([l'|] & E2 & E); [|discriminate].
    rewrite E1, bind_Ok. rewrite (IH f' _ _ l' ltac:(lia) E2), bind_Ok. exact E.
Qed.

Lemma cov_main_more f f' l : (f <= f')%nat -> cov_main f = Ok (Some l) -> cov_main f' = Ok (Some l).
Proof.
  intros L E. unfold cov_main in *. apply bind_inv in E as ([[H r] P] & ES & E). rewrite ES, bind_Ok.
  exact (cov_loop_more _ _ _ _ _ _ _ L E).
Qed.

Lemma cov_check_inv f : cov_check f = true -> exists P0 PJ0 l, cov_main f = Ok (Some ((P0, PJ0) :: l)) /\
  length l = 10%nat /\ forallb bad_good l = true /\
  match scaled4 P0 with Some (a, b, c, d) => (b =? c)%Z | None => false end = true /\
  match scaled4 (snd (last l (P0, PJ0))) with Some (a, b, c, d) => (c <? b)%Z | None => false end = true.
Proof.
  unfold cov_check. intros C.
  destruct (cov_main f) as [[[|[P0 PJ0] l]|]|] eqn:E; try discriminate C.
  apply andb_prop in C as [C C4]. apply andb_prop in C as [C C3]. apply andb_prop in C as [C1 C2].
  apply Nat.eqb_eq in C1. exists P0, PJ0, l. auto.
Qed.

(** Ten passes.  From the first on the short form has a negative variance of the position and
    is asymmetric.  The Joseph form is positive definite throughout; at the end rounding has
    made it asymmetric, too. *)
Theorem C133_program : forall fuel, (10 <= fuel)%nat ->
  exists P0 PJ0 l, cov_main fuel = Ok (Some ((P0, PJ0) :: l)) /\ length l = 10%nat /\
  (exists a b c d, P0 = [Some a; Some b; Some c; Some d] /\ B2R b = B2R c) /\
  (forall P PJ, In (P, PJ) l ->
     (exists a b c d, P = [Some a; Some b; Some c; Some d] /\ B2R a < 0 /\ B2R b <> B2R c) /\
     (exists a b c d, PJ = [Some a; Some b; Some c; Some d] /\
        (* the symmetric part is positive definite *)
        0 < B2R a /\ 0 < B2R d /\ 0 < 4 * B2R a * B2R d - (B2R b + B2R c) ^ 2)) /\
  (exists a b c d, snd (last l (P0, PJ0)) = [Some a; Some b; Some c; Some d] /\ B2R b <> B2R c).
Proof.
  intros fuel HF. destruct (cov_check_inv 10 cov_check_10) as (P0 & PJ0 & l & E & C1 & C2 & C3 & C4).
  apply (cov_main_more _ fuel) in E; [|exact HF].
  pose proof (bpow_gt_0 radix2 (-60)) as PB. set (u := bpow radix2 (-60)) in *.
  exists P0, PJ0, l. split; [exact E|]. split; [exact C1|]. split; [|split].
  - destruct (scaled4 P0) as [[[[x y] z] w]|] eqn:S4; [|discriminate].
    apply scaled4_inv in S4 as (a & b & c & d & -> & Va & Vb & Vc & Vd & _).
    exists a, b, c, d. split; [reflexivity|]. apply Z.eqb_eq in C3. subst z. congruence.
  - intros P PJ HI. rewrite forallb_forall in C2. apply C2 in HI. unfold bad_good in HI.
    cbn [fst snd] in HI.
    destruct (scaled4 P) as [[[[x y] z] w]|] eqn:S4; [|discriminate].
    destruct (scaled4 PJ) as [[[[x' y'] z'] w']|] eqn:S5; [|discriminate].
    apply scaled4_inv in S4 as (a & b & c & d & -> & Va & Vb & Vc & Vd & _).
    apply scaled4_inv in S5 as (a' & b' & c' & d' & -> & Va' & Vb' & Vc' & Vd' & _).
    fold u in Va, Vb, Vc, Vd, Va', Vb', Vc', Vd'.
    repeat (apply andb_prop in HI as [HI ?]).
    apply Z.ltb_lt, IZR_lt in HI.
    apply Z.ltb_lt, IZR_lt in H, H0, H1. apply negb_true_iff, Z.eqb_neq in H2.
    split.
    + exists a, b, c, d. split; [reflexivity|]. rewrite Va, Vb, Vc. split; [nra|].
      intros Q. apply Rmult_eq_reg_r in Q; [|lra]. apply eq_IZR in Q. contradiction.
    + exists a', b', c', d'. split; [reflexivity|]. rewrite Va', Vb', Vc', Vd'.
      split; [nra|]. split; [nra|].
      rewrite minus_IZR, !mult_IZR, plus_IZR in H. 
      replace (4 * (IZR x' * u) * (IZR w' * u) - (IZR y' * u + IZR z' * u) ^ 2)
        with ((4 * IZR x' * IZR w' - (IZR y' + IZR z') * (IZR y' + IZR z')) * (u * u)) by ring.
      apply Rmult_lt_0_compat; nra.
  - destruct (scaled4 (snd (last l (P0, PJ0)))) as [[[[x y] z] w]|] eqn:S4; [|discriminate].
    apply scaled4_inv in S4 as (a & b & c & d & -> & Va & Vb & Vc & Vd & _).
    exists a, b, c, d. split; [reflexivity|]. apply Z.ltb_lt, IZR_lt in C4. fold u in Vb, Vc.
    rewrite Vb, Vc. intros Q. apply Rmult_eq_reg_r in Q; [|lra]. lra.
Qed.
Print Assumptions C133_program.

(** What the program computes, in rational numbers: starting from 0.2^2 times the matrix
    [1/4, 1/2; 1/2, 1], with the gain [k; k], k = 1/10 + 1/2^i, in pass [i], the covariance
    [(I - K H) P] of the short form and [(I - K H) P (I - K H)' + K R K'] of Joseph's, with
    H = [1, 0] and R = 0.14^2. *)
Definition exact_short (k : Q) (p : Q * Q * Q * Q) : Q * Q * Q * Q :=
  let '(a, b, c, d) := p in
  (Qred ((1 - k) * a), Qred ((1 - k) * b), Qred (c - k * a), Qred (d - k * b))%Q.

Definition exact_joseph (k : Q) (p : Q * Q * Q * Q) : Q * Q * Q * Q :=
  let '(a, b, c, d) := exact_short k p in
  let n := ((14 # 100) * (14 # 100) * (k * k))%Q in
  (Qred ((1 - k) * a + n), Qred (b - k * a + n), Qred ((1 - k) * c + n), Qred (d - k * c + n))%Q.

Fixpoint exact_passes (n : nat) (half : Q) (p pj : Q * Q * Q * Q)
  : list ((Q * Q * Q * Q) * (Q * Q * Q * Q)) :=
  match n with
  | O => [(p, pj)]
  | Datatypes.S n' =>
    let k := ((1 # 10) + half)%Q in
    (p, pj) :: exact_passes n' (Qred (half * (1 # 2)))%Q (exact_short k p) (exact_joseph k pj)
  end.

Definition exact_start : Q * Q * Q * Q := (1 # 100, 2 # 100, 2 # 100, 4 # 100)%Q.

(** Within a tenth of a millionth. *)
Definition near4 (m : matrix float) (q : Q * Q * Q * Q) : Prop :=
  let '(x, y, z, w) := q in
  exists a b c d, m = [Some a; Some b; Some c; Some d] /\
  Rabs (B2R a - Q2R x) <= / 10000000 /\ Rabs (B2R b - Q2R y) <= / 10000000 /\
  Rabs (B2R c - Q2R z) <= / 10000000 /\ Rabs (B2R d - Q2R w) <= / 10000000.

Definition nearZ (a : Z) (x : Q) : bool :=
  (Z.abs (a * QDen x - Qnum x * 2 ^ 60) * 10000000 <=? QDen x * 2 ^ 60)%Z.

Lemma nearZ_near a x v : v = IZR a * bpow radix2 (-60) -> nearZ a x = true ->
  Rabs (v - Q2R x) <= / 10000000.
Proof.
  intros -> N. unfold nearZ in N. apply Z.leb_le, IZR_le in N.
  rewrite !mult_IZR, abs_IZR, minus_IZR, !mult_IZR in N.
  change (2 ^ 60)%Z with (radix2 ^ 60)%Z in N. rewrite IZR_Zpower in N by lia.
  replace (bpow radix2 (-60)) with (/ bpow radix2 60) by (symmetry; apply (bpow_opp radix2 60)).
  pose proof (bpow_gt_0 radix2 60) as B. set (u := bpow radix2 60) in *. clearbody u.
  unfold Q2R. assert (D : 0 < IZR (QDen x)) by (apply IZR_lt; reflexivity).
  set (n := IZR (Qnum x)) in *. set (e := IZR (QDen x)) in *. clearbody n e.
  replace (IZR a * / u - n * / e) with ((IZR a * e - n * u) * / (e * u)) by (field; lra).
  assert (E : 0 < e * u) by nra.
  rewrite Rabs_mult, (Rabs_right (/ (e * u))) by (apply Rle_ge, Rlt_le, Rinv_0_lt_compat, E).
  apply (Rmult_le_reg_r (e * u)); [exact E|]. rewrite Rmult_assoc, Rinv_l by lra. lra.
Qed.

Definition near4b (m : matrix float) (q : Q * Q * Q * Q) : bool :=
  let '(x, y, z, w) := q in
  match scaled4 m with
  | Some (a, b, c, d) => nearZ a x && nearZ b y && nearZ c z && nearZ d w
  | None => false
  end.

Lemma near4b_near m q : near4b m q = true -> near4 m q.
Proof.
  destruct q as [[[x y] z] w]. unfold near4b, near4.
  destruct (scaled4 m) as [[[[a b] c] d]|] eqn:E; [|discriminate].
  apply scaled4_inv in E as (a' & b' & c' & d' & -> & Va & Vb & Vc & Vd & _).
  intros N. repeat (apply andb_prop in N as [N ?]).
  exists a', b', c', d'. split; [reflexivity|].
  repeat split; eapply nearZ_near; eassumption.
Qed.

Fixpoint all2 {A B} (f : A -> B -> bool) (l : list A) (m : list B) : bool :=
  match l, m with
  | [], [] => true
  | x :: l, y :: m => f x y && all2 f l m
  | _, _ => false
  end.

Lemma all2_Forall2 {A B} (f : A -> B -> bool) (P : A -> B -> Prop) :
  (forall x y, f x y = true -> P x y) -> forall l m, all2 f l m = true -> Forall2 P l m.
Proof.
  intros F. induction l as [|x l IH]; intros [|y m] E; try discriminate; constructor;
    cbn in E; apply andb_prop in E as [E1 E2]; auto.
Qed.

Definition values_check (fuel : nat) : bool :=
  match cov_main fuel with
  | Ok (Some l) => all2 (fun PP ex => near4b (fst PP) (fst ex) && near4b (snd PP) (snd ex))
                     l (exact_passes 10 1 exact_start exact_start)
  | _ => false
  end.

Lemma values_check_10 : values_check 10 = true.
Proof. vm_compute. reflexivity. Qed.

Lemma values_check_inv f : values_check f = true -> exists l, cov_main f = Ok (Some l) /\
  all2 (fun PP ex => near4b (fst PP) (fst ex) && near4b (snd PP) (snd ex))
    l (exact_passes 10 1 exact_start exact_start) = true.
Proof.
  unfold values_check. intros C. destruct (cov_main f) as [[l|]|]; try discriminate C.
  exists l. auto.
Qed.

(** Every covariance of both forms, in every pass, is within 10^-7 of the exact one. *)
Theorem C133_program_values : forall fuel, (10 <= fuel)%nat ->
  exists l, cov_main fuel = Ok (Some l) /\
  Forall2 (fun PP ex => near4 (fst PP) (fst ex) /\ near4 (snd PP) (snd ex))
    l (exact_passes 10 1 exact_start exact_start).
Proof.
  intros fuel HF. destruct (values_check_inv 10 values_check_10) as (l & E & C).
  apply (cov_main_more _ fuel) in E; [|exact HF]. exists l. split; [exact E|].
  revert C. generalize (exact_passes 10 1 exact_start exact_start). intros ex C.
  apply (all2_Forall2 _ _) with (2 := C). intros PP e B. apply andb_prop in B as [B1 B2].
  split; apply near4b_near; assumption.
Qed.
Print Assumptions C133_program_values.

(** After the first pass: -1/1000 for the short form, 1/10000 + 0.14^2 * 1.1^2 for Joseph's. *)
Example C133_program_values_case :
  match nth 1 (exact_passes 10 1 exact_start exact_start) (exact_start, exact_start) with
  | ((a, _, _, _), (a', _, _, _)) => (a == -1 # 1000 /\ a' == (1 # 10000) + (14 # 100) * (14 # 100) * (11 # 10) * (11 # 10))%Q
  end.
Proof. vm_compute. split; reflexivity. Qed.

(** A system, a gain that is not optimal and one that is. *)
Example C133_case :
  sym (M2 2 1 1 1) /\ psd (M2 2 1 1 1) /\
  cov_short R_scalar (encv (V2 1 0)) (encv (V2 (1/2) (1/2))) (enc2 (M2 2 1 1 1))
    <> cov_joseph R_scalar (encv (V2 1 0)) 2 (encv (V2 (1/2) (1/2))) (enc2 (M2 2 1 1 1)) /\
  cov_short R_scalar (encv (V2 1 0)) (encv (V2 (1/2) (1/4))) (enc2 (M2 2 1 1 1))
    = cov_joseph R_scalar (encv (V2 1 0)) 2 (encv (V2 (1/2) (1/4))) (enc2 (M2 2 1 1 1)).
Proof.
  split; [reflexivity|]. split; [|split].
  - intros [x y]. unfold quad, vdot, mv; cbn [m00 m01 m10 m11 v0 v1]. nra.
  - intros E. apply C133_forms_agree in E; [|reflexivity]. destruct E as [E|E].
    + injection E as E _. lra.
    + revert E. unfold vscale, vdot, mv; cbn [m00 m01 m10 m11 v0 v1]. intros E. injection E as E1 E2. lra.
  - apply C133_forms_agree; [reflexivity|]. right.
    unfold vscale, vdot, mv; cbn [m00 m01 m10 m11 v0 v1]. f_equal; lra.
Qed.
