(** * Lemmas about filters in rounding arithmetic *)

From Coq Require Import Reals List Arith Lra Lia Psatz.
From Coquelicot Require Import Complex.
From Verif Require Import Base Scalars Biquad BiquadSpec BiquadProofs BiquadStability OnePole RoundingSpec.
Import ListNotations.
Local Open Scope R_scope.

Lemma Rabs_diff_le x y e : Rabs (x - y) <= e -> Rabs x <= Rabs y + e.
Proof. unfold Rabs; repeat destruct Rcase_abs; lra. Qed.

Lemma Rabs_mul_le x y A B : Rabs x <= A -> Rabs y <= B -> Rabs (x * y) <= A * B.
Proof. intros. rewrite Rabs_mult. apply Rmult_le_compat; auto using Rabs_pos. Qed.

(** ** One operation *)

Section Ops.
Context {T : Type} (S : scalar T) (val : T -> R) (ok : T -> Prop) (eps eta M N : R).
Hypothesis RD : rounding S val ok eps eta M.
Hypothesis NM : N <= M.

Lemma op_add a b B : ok a -> ok b -> Rabs (val a + val b) <= B -> B <= N ->
  exists r e, sc_add S a b = Ok r /\ ok r /\ val r = val a + val b + e /\ Rabs e <= eps * N.
Proof.
  intros Oa Ob H HB. destruct (rd_add _ _ _ _ _ _ RD a b Oa Ob) as (r & E & O & D); [lra|].
  exists r, (val r - (val a + val b)). repeat split; try assumption; [ring|].
  eapply Rle_trans; [exact D|]. apply Rmult_le_compat_l; [apply (rd_eps _ _ _ _ _ _ RD)|lra].
Qed.

Lemma op_sub a b B : ok a -> ok b -> Rabs (val a - val b) <= B -> B <= N ->
  exists r e, sc_sub S a b = Ok r /\ ok r /\ val r = val a - val b + e /\ Rabs e <= eps * N.
Proof.
  intros Oa Ob H HB. destruct (rd_sub _ _ _ _ _ _ RD a b Oa Ob) as (r & E & O & D); [lra|].
  exists r, (val r - (val a - val b)). repeat split; try assumption; [ring|].
  eapply Rle_trans; [exact D|]. apply Rmult_le_compat_l; [apply (rd_eps _ _ _ _ _ _ RD)|lra].
Qed.

Lemma op_mul a b A B : ok a -> ok b -> Rabs (val a) <= A -> Rabs (val b) <= B -> A * B <= N ->
  exists r e, sc_mul S a b = Ok r /\ ok r /\ val r = val a * val b + e /\ Rabs e <= eps * N + eta.
Proof.
  intros Oa Ob HA HB H. pose proof (Rabs_mul_le _ _ _ _ HA HB).
  destruct (rd_mul _ _ _ _ _ _ RD a b Oa Ob) as (r & E & O & D); [lra|].
  exists r, (val r - val a * val b). repeat split; try assumption; [ring|].
  eapply Rle_trans; [exact D|]. apply Rplus_le_compat_r, Rmult_le_compat_l; [apply (rd_eps _ _ _ _ _ _ RD)|lra].
Qed.
End Ops.

(** ** The recursive part *)

Definition w0 : state R := {| v1 := 0; v2 := 0 |}.
Definition pure : coeff_b R := {| b0 := 1; b1 := 0; b2 := 0 |}.

Lemma rest_df2 a b xs :
  difference_equation (b0 b) (b1 b) (b2 b) (a1 a) (a2 a) xs (fst (df2_run a b w0 xs)).
Proof.
  destruct (df2_t a b xs w0) as [E _]. rewrite E. unfold w0. rewrite to_transposed_zero. apply rest_difference.
Qed.

Lemma df2_state_b a b b' xs : forall w, snd (df2_run a b w xs) = snd (df2_run a b' w xs).
Proof. induction xs as [|x xs IH]; intros w; cbn; [reflexivity|]. apply IH. Qed.

Lemma df2_run_snoc a b w xs x : snd (df2_run a b w (xs ++ [x])) = df2_w a (snd (df2_run a b w xs)) x.
Proof. now rewrite df2_run_app. Qed.

Lemma df2_lin_state a b p q xs : forall xs' w w', length xs = length xs' ->
  snd (df2_run a b (lin_w p w q w') (lin p xs q xs')) =
  lin_w p (snd (df2_run a b w xs)) q (snd (df2_run a b w' xs')).
Proof.
  induction xs as [|x xs IH]; intros [|x' xs'] w w' L; try discriminate; [reflexivity|].
  cbn. rewrite <- IH by (cbn in L; lia). do 2 f_equal.
  unfold df2_w, lin_w; cbn. apply state_eq; cbn; ring.
Qed.

Lemma gain_ge_1 c1 c2 G : recursion_gain c1 c2 G -> 1 <= G.
Proof.
  intros H. specialize (H [1] [1] eq_refl).
  assert (Rabs 1 <= G).
  { apply H; [|intros u [<-|[]]; rewrite Rabs_R1; lra|now left].
    intros [|n] Hn; cbn in *; [|lia]. unfold past; cbn. ring. }
  rewrite Rabs_R1 in *. lra.
Qed.

Lemma gain_scaled c1 c2 G U us ws : recursion_gain c1 c2 G -> length ws = length us ->
  difference_equation 1 0 0 c1 c2 us ws -> (forall u, In u us -> Rabs u <= U) -> 0 <= U ->
  forall w, In w ws -> Rabs w <= G * U.
Proof.
  intros HG L D HU P w Hw. pose proof (gain_ge_1 _ _ _ HG) as G1.
  assert (K : forall V, 0 < V -> U <= V -> Rabs w <= G * V).
  { intros V PV UV.
    pose proof (HG (map (Rmult (/ V)) us) (map (Rmult (/ V)) ws)) as Q.
    assert (nthm : forall l n, nth n (map (Rmult (/ V)) l) 0 = / V * nth n l 0).
    { intros l n. rewrite <- (Rmult_0_r (/ V)) at 1. apply map_nth. }
    assert (Rabs (/ V * w) <= G).
    { apply Q.
      - now rewrite !map_length.
      - intros n Hn. rewrite map_length in Hn. rewrite nthm, (D n Hn).
        unfold past. rewrite !nthm. repeat destruct (_ <=? _)%nat; ring.
      - intros u Hu. apply in_map_iff in Hu. destruct Hu as (u' & <- & Hu'). apply HU in Hu'.
        rewrite Rabs_mult, Rabs_right by (left; now apply Rinv_0_lt_compat).
        apply Rmult_le_reg_l with V; [assumption|]. rewrite <- Rmult_assoc, Rinv_r by lra. lra.
      - apply in_map_iff. eauto. }
    rewrite Rabs_mult, Rabs_right in H by (left; now apply Rinv_0_lt_compat).
    apply Rmult_le_reg_l with (/ V); [now apply Rinv_0_lt_compat|].
    replace (/ V * (G * V)) with G by (field; lra). exact H. }
  destruct (Req_dec U 0) as [->|N]; [|apply K; lra].
  apply Rnot_lt_le. intros C. rewrite Rmult_0_r in C.
  specialize (K (Rabs w / (2 * G)) ltac:(apply Rdiv_lt_0_compat; lra) ltac:(left; apply Rdiv_lt_0_compat; lra)).
  replace (G * (Rabs w / (2 * G))) with (Rabs w / 2) in K by (field; lra). lra.
Qed.

Lemma gain_state a b G U us : recursion_gain (a1 a) (a2 a) G -> 0 <= U -> Forall (fun u => Rabs u <= U) us ->
  Rabs (v1 (snd (df2_run a b w0 us))) <= G * U /\ Rabs (v2 (snd (df2_run a b w0 us))) <= G * U.
Proof.
  intros HG P F. pose proof (gain_ge_1 _ _ _ HG) as G1.
  assert (Z : Rabs 0 <= G * U) by (rewrite Rabs_R0; nra).
  rewrite (df2_state_b a b pure us w0).
  assert (K : forall us, Forall (fun u => Rabs u <= U) us -> Rabs (v1 (snd (df2_run a pure w0 us))) <= G * U).
  { clear F us. intros us F. destruct us as [|u us] using rev_ind; [exact Z|]. clear IHus.
    eapply (gain_scaled (a1 a) (a2 a) G U (us ++ [u]) (fst (df2_run a pure w0 (us ++ [u]))) HG).
    - apply df2_run_length.
    - apply (rest_df2 a pure).
    - now apply Forall_forall.
    - exact P.
    - rewrite df2_run_app. cbn [fst df2_run]. apply in_or_app. right. left. cbn. unfold df2_y, df2_w, pure; cbn. ring. }
  split; [now apply K|].
  destruct us as [|u us] using rev_ind; [exact Z|]. rewrite df2_run_snoc. cbn [v2 df2_w].
  apply K. apply Forall_app in F. apply F.
Qed.

(** A strictly stable section has a gain. *)
Lemma stable_gain c1 c2 : strictly_stable c1 c2 -> exists G, recursion_gain c1 c2 G.
Proof.
  intros S. destruct (df2_output_bounded {| a1 := c1; a2 := c2 |} pure 1 S ltac:(lra) w0) as [Y HY].
  exists Y. intros us ws L D F w Hw.
  assert (E : ws = fst (df2_run {| a1 := c1; a2 := c2 |} pure w0 us)).
  { eapply difference_unique; [exact L|apply df2_run_length|exact D|apply (rest_df2 {| a1 := c1; a2 := c2 |} pure)]. }
  subst ws. specialize (HY us). rewrite !Forall_forall in HY. apply HY; [|exact Hw]. exact F.
Qed.

(** The sum of the coefficients gives one. *)
Lemma small_gain c1 c2 : Rabs c1 + Rabs c2 < 1 -> recursion_gain c1 c2 (1 / (1 - Rabs c1 - Rabs c2)).
Proof.
  intros H us ws L D F.
  set (G := 1 / (1 - Rabs c1 - Rabs c2)).
  assert (PG : 0 < G) by (unfold G; apply Rdiv_lt_0_compat; lra).
  assert (EG : G = 1 + Rabs c1 * G + Rabs c2 * G) by (unfold G; field; lra).
  assert (K : forall n, (n < length us)%nat -> Rabs (nth n ws 0) <= G).
  { intros n. induction n as [n IH] using lt_wf_ind. intros Hn. rewrite D by assumption.
    assert (P : forall k, (0 < k)%nat -> Rabs (past ws n k) <= G).
    { intros k Hk. unfold past. destruct (Nat.leb_spec k n); [|rewrite Rabs_R0; lra]. apply IH; lia. }
    pose proof (P 1%nat ltac:(lia)) as P1. pose proof (P 2%nat ltac:(lia)) as P2.
    assert (PU : Rabs (past us n 0) <= 1).
    { unfold past. cbn [Nat.leb]. apply F, nth_In. lia. }
    replace (1 * past us n 0 + 0 * past us n 1 + 0 * past us n 2 - c1 * past ws n 1 - c2 * past ws n 2)
      with (past us n 0 + - (c1 * past ws n 1) + - (c2 * past ws n 2)) by ring.
    eapply Rle_trans; [apply Rabs_triang|]. rewrite Rabs_Ropp, Rabs_mult.
    pose proof (Rabs_triang (past us n 0) (- (c1 * past ws n 1))) as T1. rewrite Rabs_Ropp, Rabs_mult in T1.
    pose proof (Rabs_pos c1). pose proof (Rabs_pos c2).
    assert (Rabs c1 * Rabs (past ws n 1) <= Rabs c1 * G) by (apply Rmult_le_compat_l; assumption).
    assert (Rabs c2 * Rabs (past ws n 2) <= Rabs c2 * G) by (apply Rmult_le_compat_l; assumption).
    rewrite EG. lra. }
  intros w Hw. destruct (In_nth _ _ 0 Hw) as (n & Hn & <-). apply K. lia.
Qed.

(** ** Direct form 2 *)

Lemma Rabs_ge2 x A : Rabs x <= A -> - A <= x <= A.
Proof. intros H. unfold Rabs in H. destruct (Rcase_abs x); lra. Qed.

Section Df2.
Context {T : Type} (S : scalar T) (val : T -> R) (ok : T -> Prop) (eps eta M N : R).
Hypothesis RD : rounding S val ok eps eta M.
Hypothesis NM : 0 <= N <= M.
Variables (ka : coeff_a T) (kb : coeff_b T).
Hypothesis Oa : ok (a1 ka) /\ ok (a2 ka).
Hypothesis Ob : ok (b0 kb) /\ ok (b1 kb) /\ ok (b2 kb).

Definition va : coeff_a R := {| a1 := val (a1 ka); a2 := val (a2 ka) |}.
Definition vb : coeff_b R := {| b0 := val (b0 kb); b1 := val (b1 kb); b2 := val (b2 kb) |}.
Definition vw (w : state T) : state R := {| v1 := val (v1 w); v2 := val (v2 w) |}.

Variables X W : R.
Let A := Rabs (val (a1 ka)) + Rabs (val (a2 ka)).
Let B := Rabs (val (b0 kb)) + Rabs (val (b1 kb)) + Rabs (val (b2 kb)).
Let E := 4 * (eps * N) + 2 * eta.
Let F := 5 * (eps * N) + 3 * eta.
Hypothesis X0 : 0 <= X.
Hypothesis HA : X + A * W + (3 * (eps * N) + 2 * eta) <= N.
Hypothesis HB : B * W + (4 * (eps * N) + 3 * eta) <= N.

Lemma df2_step_rounded w x : ok (v1 w) -> ok (v2 w) -> ok x ->
  Rabs (val (v1 w)) <= W -> Rabs (val (v2 w)) <= W -> Rabs (val x) <= X ->
  (forall e, Rabs e <= E -> Rabs (v1 (df2_w va (vw w) (val x + e))) <= W) ->
  exists y n e f, step_df2 S {| bq_a := ka; bq_b := kb; bq_w := w |} x =
      Ok (y, {| bq_a := ka; bq_b := kb; bq_w := {| v1 := n; v2 := v1 w |} |}) /\
    ok y /\ ok n /\ Rabs e <= E /\ Rabs f <= F /\
    val n = v1 (df2_w va (vw w) (val x + e)) /\
    val y = df2_y va vb (vw w) (val x + e) + f.
Proof.
  intros O1 O2 Ox W1 W2 Bx HW. destruct Oa as [Oa1 Oa2]. destruct Ob as (Ob0 & Ob1 & Ob2).
  pose proof (rd_eps _ _ _ _ _ _ RD) as PE. pose proof (rd_eta _ _ _ _ _ _ RD) as PT.
  assert (PN : 0 <= eps * N) by (apply Rmult_le_pos; lra). set (u := eps * N) in *.
  assert (PW : 0 <= W) by (eapply Rle_trans; [apply Rabs_pos|exact W1]).
  pose proof (Rabs_pos (val (a1 ka))) as P1. pose proof (Rabs_pos (val (a2 ka))) as P2.
  pose proof (Rabs_pos (val (b0 kb))) as Q0. pose proof (Rabs_pos (val (b1 kb))) as Q1. pose proof (Rabs_pos (val (b2 kb))) as Q2.
  assert (A1W : 0 <= Rabs (val (a1 ka)) * W) by nra. assert (A2W : 0 <= Rabs (val (a2 ka)) * W) by nra.
  assert (B0W : 0 <= Rabs (val (b0 kb)) * W) by nra. assert (B1W : 0 <= Rabs (val (b1 kb)) * W) by nra.
  assert (B2W : 0 <= Rabs (val (b2 kb)) * W) by nra.
  unfold A in HA. unfold B in HB. rewrite !Rmult_plus_distr_r in HA, HB.
  pose proof (Rabs_mul_le _ _ _ _ (Rle_refl (Rabs (val (a1 ka)))) W1) as M1.
  pose proof (Rabs_mul_le _ _ _ _ (Rle_refl (Rabs (val (a2 ka)))) W2) as M2.
  apply Rabs_ge2 in M1, M2. pose proof (Rabs_ge2 _ _ Bx) as Bx'.
  destruct NM as [N0 NM'].
  destruct (op_mul S val ok eps eta M N RD NM' (a1 ka) (v1 w) _ W Oa1 O1 (Rle_refl _) W1) as (p1 & e1 & E1 & Op1 & V1 & D1); [lra|].
  fold u in D1. apply Rabs_ge2 in D1.
  destruct (op_sub S val ok eps eta M N RD NM' x p1 N Ox Op1) as (d1 & e2 & E2 & Od1 & V2 & D2); [apply Rabs_le; rewrite V1; lra|lra|].
  fold u in D2. apply Rabs_ge2 in D2.
  destruct (op_mul S val ok eps eta M N RD NM' (a2 ka) (v2 w) _ W Oa2 O2 (Rle_refl _) W2) as (p2 & e3 & E3 & Op2 & V3 & D3); [lra|].
  fold u in D3. apply Rabs_ge2 in D3.
  destruct (op_sub S val ok eps eta M N RD NM' d1 p2 N Od1 Op2) as (n & e4 & E4 & On & V4 & D4); [apply Rabs_le; rewrite V2, V3, V1; lra|lra|].
  fold u in D4. apply Rabs_ge2 in D4.
  set (e := - e1 + e2 - e3 + e4).
  assert (De : Rabs e <= E) by (apply Rabs_le; unfold e, E; lra).
  assert (Vn : val n = v1 (df2_w va (vw w) (val x + e))).
  { rewrite V4, V2, V3, V1. unfold df2_w, va, vw, e; cbn. ring. }
  assert (Wn : Rabs (val n) <= W) by (rewrite Vn; now apply HW).
  pose proof (Rabs_mul_le _ _ _ _ (Rle_refl (Rabs (val (b0 kb)))) Wn) as N0'.
  pose proof (Rabs_mul_le _ _ _ _ (Rle_refl (Rabs (val (b1 kb)))) W1) as N1'.
  pose proof (Rabs_mul_le _ _ _ _ (Rle_refl (Rabs (val (b2 kb)))) W2) as N2'.
  apply Rabs_ge2 in N0', N1', N2'.
  destruct (op_mul S val ok eps eta M N RD NM' (b0 kb) n _ W Ob0 On (Rle_refl _) Wn) as (q0 & f1 & E5 & Oq0 & V5 & D5); [lra|].
  fold u in D5. apply Rabs_ge2 in D5.
  destruct (op_mul S val ok eps eta M N RD NM' (b1 kb) (v1 w) _ W Ob1 O1 (Rle_refl _) W1) as (q1 & f2 & E6 & Oq1 & V6 & D6); [lra|].
  fold u in D6. apply Rabs_ge2 in D6.
  destruct (op_add S val ok eps eta M N RD NM' q0 q1 N Oq0 Oq1) as (s1 & f3 & E7 & Os1 & V7 & D7); [apply Rabs_le; rewrite V5, V6; lra|lra|].
  fold u in D7. apply Rabs_ge2 in D7.
  destruct (op_mul S val ok eps eta M N RD NM' (b2 kb) (v2 w) _ W Ob2 O2 (Rle_refl _) W2) as (q2 & f4 & E8 & Oq2 & V8 & D8); [lra|].
  fold u in D8. apply Rabs_ge2 in D8.
  destruct (op_add S val ok eps eta M N RD NM' s1 q2 N Os1 Oq2) as (y & f5 & E9 & Oy & V9 & D9); [apply Rabs_le; rewrite V7, V5, V6, V8; lra|lra|].
  fold u in D9. apply Rabs_ge2 in D9.
  exists y, n, e, (f1 + f2 + f3 + f4 + f5).
  split. { unfold step_df2. cbn [bq_a bq_b bq_w]. rewrite E1. cbn [bind]. rewrite E2. cbn [bind]. rewrite E3. cbn [bind].
    rewrite E4. cbn [bind]. rewrite E5. cbn [bind]. rewrite E6. cbn [bind]. rewrite E7. cbn [bind]. rewrite E8. cbn [bind].
    rewrite E9. reflexivity. }
  repeat (split; [assumption|]). split; [apply Rabs_le; unfold F; lra|]. split; [exact Vn|].
  rewrite V9, V7, V8, V5, V6, Vn. unfold df2_y, df2_w, va, vb, vw; cbn. ring.
Qed.

Variable G : R.
Hypothesis HG : recursion_gain (val (a1 ka)) (val (a2 ka)) G.
Hypothesis HW : G * (X + E) <= W.

Lemma E_pos : 0 <= E /\ 0 <= F.
Proof.
  pose proof (rd_eps _ _ _ _ _ _ RD) as PE. pose proof (rd_eta _ _ _ _ _ _ RD) as PT.
  assert (PN : 0 <= eps * N) by (apply Rmult_le_pos; lra). unfold E, F. lra.
Qed.

(** The rounded run is the exact run for slightly different inputs. *)
Lemma df2_run_rounded xs : forall us w,
  Forall (fun u => Rabs u <= X + E) us -> vw w = snd (df2_run va vb w0 us) -> ok (v1 w) -> ok (v2 w) ->
  Forall (fun x => ok x /\ Rabs (val x) <= X) xs ->
  exists ys bq' us', run (step_df2 S) {| bq_a := ka; bq_b := kb; bq_w := w |} xs = Ok (ys, bq') /\
    Forall ok ys /\ Forall2 (fun x u => Rabs (u - val x) <= E) xs us' /\
    Forall2 (fun y z => Rabs (val y - z) <= F) ys (fst (df2_run va vb (vw w) us')).
Proof.
  induction xs as [|x xs IH]; intros us w FU EW O1 O2 FX.
  { exists [], {| bq_a := ka; bq_b := kb; bq_w := w |}, []. repeat split; constructor. }
  apply Forall_cons_iff in FX. destruct FX as [[Ox Bx] FX]. destruct E_pos as [EP FP].
  assert (GS : forall us, Forall (fun u => Rabs u <= X + E) us ->
    Rabs (v1 (snd (df2_run va vb w0 us))) <= W /\ Rabs (v2 (snd (df2_run va vb w0 us))) <= W).
  { intros l Fl. destruct (gain_state va vb G (X + E) l HG ltac:(lra) Fl). split; lra. }
  destruct (GS us FU) as [G1 G2]. rewrite <- EW in G1, G2.
  assert (FE : forall e, Rabs e <= E -> Forall (fun u => Rabs u <= X + E) (us ++ [val x + e])).
  { intros e De. apply Forall_app. split; [exact FU|]. constructor; [|constructor].
    eapply Rle_trans; [apply Rabs_triang|lra]. }
  assert (SE : forall e, snd (df2_run va vb w0 (us ++ [val x + e])) = df2_w va (vw w) (val x + e)).
  { intros e. now rewrite df2_run_snoc, EW. }
  destruct (df2_step_rounded w x O1 O2 Ox G1 G2 Bx) as (y & n & e & f & ES & Oy & On & De & Df & Vn & Vy).
  { intros e De. rewrite <- SE. apply GS, FE, De. }
  destruct (IH (us ++ [val x + e]) {| v1 := n; v2 := v1 w |}) as (ys & bq' & us' & ER & Oys & F1 & F2); try assumption.
  { now apply FE. }
  { rewrite SE. apply state_eq; [exact Vn|reflexivity]. }
  exists (y :: ys), bq', ((val x + e) :: us').
  split. { cbn [run]. rewrite ES. cbn [bind fst snd]. rewrite ER. reflexivity. }
  split; [now constructor|]. split.
  - constructor; [|exact F1]. replace (val x + e - val x) with e by ring. exact De.
  - cbn [df2_run fst]. constructor.
    + rewrite Vy. replace (df2_y va vb (vw w) (val x + e) + f - df2_y va vb (vw w) (val x + e)) with f by ring. exact Df.
    + replace (df2_w va (vw w) (val x + e)) with (vw {| v1 := n; v2 := v1 w |}); [exact F2|].
      apply state_eq; [exact Vn|reflexivity].
Qed.

End Df2.

(** Inputs that differ little give outputs that differ little. *)
Lemma df2_perturbed a b G D us xs : recursion_gain (a1 a) (a2 a) G -> 0 <= D ->
  Forall2 (fun x u => Rabs (u - x) <= D) xs us ->
  Forall2 (fun y z => Rabs (y - z) <= (Rabs (b0 b) + Rabs (b1 b) + Rabs (b2 b)) * (G * D))
    (fst (df2_run a b w0 us)) (fst (df2_run a b w0 xs)).
Proof.
  intros HG D0 H.
  assert (K : forall xs us, Forall2 (fun x u => Rabs (u - x) <= D) xs us ->
     forall ds w w', Forall (fun d => Rabs d <= D) ds ->
     lin_w 1 w (-1) w' = snd (df2_run a b w0 ds) ->
     Forall2 (fun y z => Rabs (y - z) <= (Rabs (b0 b) + Rabs (b1 b) + Rabs (b2 b)) * (G * D))
       (fst (df2_run a b w us)) (fst (df2_run a b w' xs))).
  { clear xs us H. induction 1 as [|x u xs us Hx H IH]; intros ds w w' Fd Ew; [constructor|].
    cbn [df2_run fst].
    assert (Fd' : Forall (fun d => Rabs d <= D) (ds ++ [u - x])) by (apply Forall_app; split; auto).
    assert (Ew' : lin_w 1 (df2_w a w u) (-1) (df2_w a w' x) = snd (df2_run a b w0 (ds ++ [u - x]))).
    { rewrite df2_run_snoc, <- Ew. apply state_eq; unfold df2_w, lin_w; cbn; ring. }
    constructor; [|eapply IH; [exact Fd'|exact Ew']].
    destruct (gain_state a b G D ds HG D0 Fd) as [g1 g2].
    destruct (gain_state a b G D _ HG D0 Fd') as [g0 _]. rewrite <- Ew' in g0. rewrite <- Ew in g1, g2.
    replace (df2_y a b w u - df2_y a b w' x)
      with (b0 b * v1 (lin_w 1 (df2_w a w u) (-1) (df2_w a w' x)) + b1 b * v1 (lin_w 1 w (-1) w') + b2 b * v2 (lin_w 1 w (-1) w'))
      by (unfold df2_y, df2_w, lin_w; cbn; ring).
    pose proof (Rabs_mul_le _ _ _ _ (Rle_refl (Rabs (b0 b))) g0) as m0.
    pose proof (Rabs_mul_le _ _ _ _ (Rle_refl (Rabs (b1 b))) g1) as m1.
    pose proof (Rabs_mul_le _ _ _ _ (Rle_refl (Rabs (b2 b))) g2) as m2.
    apply Rabs_ge2 in m0, m1, m2. apply Rabs_le. rewrite !Rmult_plus_distr_r. lra. }
  apply (K xs us H [] w0 w0); [constructor|]. apply state_eq; cbn; ring.
Qed.

Lemma df2_zero a b n : fst (df2_run a b w0 (repeat 0 n)) = repeat 0 n.
Proof.
  induction n as [|n IH]; [reflexivity|]. cbn [repeat df2_run fst]. f_equal; [unfold df2_y, w0; cbn; ring|].
  rewrite <- IH at 2. do 2 f_equal. apply state_eq; cbn; ring.
Qed.

Lemma df2_bounded_by a b G D us : recursion_gain (a1 a) (a2 a) G -> 0 <= D ->
  Forall (fun u => Rabs u <= D) us ->
  Forall (fun y => Rabs y <= (Rabs (b0 b) + Rabs (b1 b) + Rabs (b2 b)) * (G * D)) (fst (df2_run a b w0 us)).
Proof.
  intros HG D0 F.
  assert (F2 : Forall2 (fun x u => Rabs (u - x) <= D) (repeat 0 (length us)) us).
  { clear - F. induction F; cbn; constructor; [|assumption]. now rewrite Rminus_0_r. }
  pose proof (df2_perturbed a b G D us _ HG D0 F2) as K. rewrite df2_zero in K.
  clear - K. remember (fst (df2_run a b w0 us)) as ys. clear Heqys.
  remember (length us) as n. clear Heqn. revert n K. induction ys as [|y ys IH]; intros n K; [constructor|].
  inversion K as [|? z ? zs H F E1 E2]; subst. destruct n as [|n]; [discriminate|]. cbn in E2.
  assert (z = 0 /\ zs = repeat 0 n) as [-> ->] by (split; congruence).
  constructor; [now rewrite Rminus_0_r in H|]. now apply (IH n).
Qed.

Lemma Forall2_nth_le {A B} (P : A -> B -> Prop) (l : list A) (m : list B) d e :
  Forall2 P l m -> length l = length m /\ forall n, (n < length l)%nat -> P (nth n l d) (nth n m e).
Proof.
  induction 1; cbn; [split; [reflexivity|intros; lia]|]. destruct IHForall2 as [L IH].
  split; [now rewrite L|]. intros [|n] Hn; [assumption|]. apply IH. lia.
Qed.

(** ** The transposed form *)

Fixpoint weighted (b : coeff_b R) (x1 x2 : R) (xs : list R) : list R :=
  match xs with
  | [] => []
  | x :: xs' => (b0 b * x + b1 b * x1 + b2 b * x2) :: weighted b x x1 xs'
  end.

Lemma weighted_length b xs : forall x1 x2, length (weighted b x1 x2 xs) = length xs.
Proof. induction xs; intros; cbn; [reflexivity|]. now rewrite IHxs. Qed.

Lemma weighted_nth b xs : forall x1 x2 n, (n < length xs)%nat ->
  nth n (weighted b x1 x2 xs) 0 =
  b0 b * past_h x1 x2 xs n 0 + b1 b * past_h x1 x2 xs n 1 + b2 b * past_h x1 x2 xs n 2.
Proof.
  induction xs as [|x xs IH]; intros x1 x2 n Hn; [cbn in Hn; lia|]. cbn in Hn.
  destruct n as [|n]; [unfold past_h; cbn; ring|]. cbn [weighted nth]. rewrite IH by lia.
  unfold past_h. destruct n as [|[|n]]; cbn [Nat.leb Nat.sub nth Nat.eqb]; rewrite ?Nat.sub_0_r; ring.
Qed.

Lemma weighted_bounded b X xs : forall x1 x2, Rabs x1 <= X -> Rabs x2 <= X -> Forall (fun x => Rabs x <= X) xs ->
  Forall (fun g => Rabs g <= (Rabs (b0 b) + Rabs (b1 b) + Rabs (b2 b)) * X) (weighted b x1 x2 xs).
Proof.
  induction xs as [|x xs IH]; intros x1 x2 H1 H2 F; cbn; constructor.
  - apply Forall_inv in F.
    pose proof (Rabs_mul_le _ _ _ _ (Rle_refl (Rabs (b0 b))) F) as m0.
    pose proof (Rabs_mul_le _ _ _ _ (Rle_refl (Rabs (b1 b))) H1) as m1.
    pose proof (Rabs_mul_le _ _ _ _ (Rle_refl (Rabs (b2 b))) H2) as m2.
    apply Rabs_ge2 in m0, m1, m2. apply Rabs_le. rewrite !Rmult_plus_distr_r. lra.
  - apply IH; [now apply Forall_inv in F|exact H1|now apply Forall_inv_tail in F].
Qed.

Lemma weighted_difference b c1 c2 xs zs :
  length zs = length xs ->
  difference_equation (b0 b) (b1 b) (b2 b) c1 c2 xs zs ->
  zs = fst (df2_run {| a1 := c1; a2 := c2 |} pure w0 (weighted b 0 0 xs)).
Proof.
  intros L D. eapply (difference_unique 1 0 0 c1 c2 (weighted b 0 0 xs)).
  - now rewrite weighted_length.
  - apply df2_run_length.
  - intros n Hn. rewrite weighted_length in Hn. rewrite (D n Hn).
    unfold past at 6. cbn [Nat.leb]. rewrite Nat.sub_0_r, weighted_nth by assumption.
    rewrite !past_h_0 by lia. ring.
  - apply (rest_df2 {| a1 := c1; a2 := c2 |} pure).
Qed.

Section Transposed.
Context {T : Type} (S : scalar T) (val : T -> R) (ok : T -> Prop) (eps eta M N : R).
Hypothesis RD : rounding S val ok eps eta M.
Hypothesis NM : 0 <= N <= M.
Variables (ka : coeff_a T) (kb : coeff_b T).
Hypothesis Oa : ok (a1 ka) /\ ok (a2 ka).
Hypothesis Ob : ok (b0 kb) /\ ok (b1 kb) /\ ok (b2 kb).
Variables X W : R.
Let A := Rabs (val (a1 ka)) + Rabs (val (a2 ka)).
Let B := Rabs (val (b0 kb)) + Rabs (val (b1 kb)) + Rabs (val (b2 kb)).
Let u := eps * N.
Let D := 9 * u + 5 * eta.
Hypothesis X0 : 0 <= X.
Hypothesis HN : B * X + A * W + (9 * u + 5 * eta) <= N.

Notation ra := (va val ka).
Notation rb := (vb val kb).

Lemma t_step_rounded w x x1 x2 y1 y2 r1 r2 : ok (v1 w) -> ok (v2 w) -> ok x ->
  Rabs (val x) <= X -> Rabs x1 <= X -> Rabs x2 <= X -> Rabs y1 <= W -> Rabs y2 <= W ->
  val (v1 w) = b1 rb * x1 + b2 rb * x2 - a1 ra * y1 - a2 ra * y2 + r1 -> Rabs r1 <= 7 * u + 4 * eta ->
  val (v2 w) = b2 rb * x1 - a2 ra * y1 + r2 -> Rabs r2 <= 3 * u + 2 * eta ->
  (forall e, Rabs e <= D -> Rabs (b0 rb * val x + b1 rb * x1 + b2 rb * x2 + e - a1 ra * y1 - a2 ra * y2) <= W) ->
  exists y n1 n2 e s1 s2, step_df2_transposed S {| bq_a := ka; bq_b := kb; bq_w := w |} x =
      Ok (y, {| bq_a := ka; bq_b := kb; bq_w := {| v1 := n1; v2 := n2 |} |}) /\
    ok y /\ ok n1 /\ ok n2 /\ Rabs e <= D /\
    val y = b0 rb * val x + b1 rb * x1 + b2 rb * x2 + e - a1 ra * y1 - a2 ra * y2 /\
    val n1 = b1 rb * val x + b2 rb * x1 - a1 ra * val y - a2 ra * y1 + s1 /\ Rabs s1 <= 7 * u + 4 * eta /\
    val n2 = b2 rb * val x - a2 ra * val y + s2 /\ Rabs s2 <= 3 * u + 2 * eta.
Proof.
  intros O1 O2 Ox Bx Bx1 Bx2 By1 By2 V1 R1 V2 R2 HW. destruct Oa as [Oa1 Oa2]. destruct Ob as (Ob0 & Ob1 & Ob2).
  pose proof (rd_eps _ _ _ _ _ _ RD) as PE. pose proof (rd_eta _ _ _ _ _ _ RD) as PT.
  assert (PN : 0 <= u) by (apply Rmult_le_pos; lra).
  assert (PW : 0 <= W) by (eapply Rle_trans; [apply Rabs_pos|exact By1]).
  destruct NM as [N0 NM']. unfold va, vb in *. cbn [a1 a2 b0 b1 b2] in *.
  set (ca1 := val (a1 ka)) in *. set (ca2 := val (a2 ka)) in *.
  set (cb0 := val (b0 kb)) in *. set (cb1 := val (b1 kb)) in *. set (cb2 := val (b2 kb)) in *.
  assert (forall c, 0 <= Rabs c * W) as PW' by (intros; apply Rmult_le_pos; auto using Rabs_pos).
  assert (forall c, 0 <= Rabs c * X) as PX' by (intros; apply Rmult_le_pos; auto using Rabs_pos).
  pose proof (PW' ca1). pose proof (PW' ca2). pose proof (PX' cb0). pose proof (PX' cb1). pose proof (PX' cb2).
  unfold A, B in HN. rewrite !Rmult_plus_distr_r in HN.
  assert (MX : forall c x, Rabs x <= X -> - (Rabs c * X) <= c * x <= Rabs c * X).
  { intros c z Hz. apply Rabs_ge2, Rabs_mul_le; [apply Rle_refl|assumption]. }
  assert (MW : forall c x, Rabs x <= W -> - (Rabs c * W) <= c * x <= Rabs c * W).
  { intros c z Hz. apply Rabs_ge2, Rabs_mul_le; [apply Rle_refl|assumption]. }
  apply Rabs_ge2 in R1, R2.
  pose proof (MX cb0 _ Bx). pose proof (MX cb1 _ Bx). pose proof (MX cb2 _ Bx).
  pose proof (MX cb1 _ Bx1). pose proof (MX cb2 _ Bx1). pose proof (MX cb2 _ Bx2).
  pose proof (MW ca1 _ By1). pose proof (MW ca2 _ By1). pose proof (MW ca2 _ By2).
  destruct (op_mul S val ok eps eta M N RD NM' (b0 kb) x _ X Ob0 Ox (Rle_refl _) Bx) as (p0 & e1 & E1 & Op0 & Vp0 & D1);
    [fold cb0; lra|]. fold u in D1. fold cb0 in Vp0. apply Rabs_ge2 in D1.
  destruct (op_add S val ok eps eta M N RD NM' p0 (v1 w) N Op0 O1) as (y & e2 & E2 & Oy & Vy & D2);
    [apply Rabs_le; rewrite Vp0, V1; lra|lra|]. fold u in D2. apply Rabs_ge2 in D2.
  assert (EQy : val y = cb0 * val x + cb1 * x1 + cb2 * x2 + (e1 + e2 + r1) - ca1 * y1 - ca2 * y2)
    by (rewrite Vy, Vp0, V1; ring).
  assert (De : Rabs (e1 + e2 + r1) <= D) by (apply Rabs_le; unfold D; lra).
  assert (By : Rabs (val y) <= W) by (rewrite EQy; now apply HW).
  pose proof (MW ca1 _ By). pose proof (MW ca2 _ By).
  destruct (op_mul S val ok eps eta M N RD NM' (b1 kb) x _ X Ob1 Ox (Rle_refl _) Bx) as (p1 & e3 & E3 & Op1 & Vp1 & D3);
    [fold cb1; lra|]. fold u in D3. fold cb1 in Vp1. apply Rabs_ge2 in D3.
  destruct (op_mul S val ok eps eta M N RD NM' (a1 ka) y _ W Oa1 Oy (Rle_refl _) By) as (q1 & e4 & E4 & Oq1 & Vq1 & D4);
    [fold ca1; lra|]. fold u in D4. fold ca1 in Vq1. apply Rabs_ge2 in D4.
  destruct (op_sub S val ok eps eta M N RD NM' p1 q1 N Op1 Oq1) as (d1 & e5 & E5 & Od1 & Vd1 & D5);
    [apply Rabs_le; rewrite Vp1, Vq1; lra|lra|]. fold u in D5. apply Rabs_ge2 in D5.
  destruct (op_add S val ok eps eta M N RD NM' d1 (v2 w) N Od1 O2) as (n1 & e6 & E6 & On1 & Vn1 & D6);
    [apply Rabs_le; rewrite Vd1, Vp1, Vq1, V2; lra|lra|]. fold u in D6. apply Rabs_ge2 in D6.
  destruct (op_mul S val ok eps eta M N RD NM' (b2 kb) x _ X Ob2 Ox (Rle_refl _) Bx) as (p2 & e7 & E7 & Op2 & Vp2 & D7);
    [fold cb2; lra|]. fold u in D7. fold cb2 in Vp2. apply Rabs_ge2 in D7.
  destruct (op_mul S val ok eps eta M N RD NM' (a2 ka) y _ W Oa2 Oy (Rle_refl _) By) as (q2 & e8 & E8 & Oq2 & Vq2 & D8);
    [fold ca2; lra|]. fold u in D8. fold ca2 in Vq2. apply Rabs_ge2 in D8.
  destruct (op_sub S val ok eps eta M N RD NM' p2 q2 N Op2 Oq2) as (n2 & e9 & E9 & On2 & Vn2 & D9);
    [apply Rabs_le; rewrite Vp2, Vq2; lra|lra|]. fold u in D9. apply Rabs_ge2 in D9.
  exists y, n1, n2, (e1 + e2 + r1), (e3 - e4 + e5 + e6 + r2), (e7 - e8 + e9).
  split. { unfold step_df2_transposed. cbn [bq_a bq_b bq_w]. rewrite E1. cbn [bind]. rewrite E2. cbn [bind]. rewrite E3. cbn [bind].
    rewrite E4. cbn [bind]. rewrite E5. cbn [bind]. rewrite E6. cbn [bind]. rewrite E7. cbn [bind]. rewrite E8. cbn [bind].
    rewrite E9. reflexivity. }
  repeat (split; [assumption|]).
  split; [rewrite Vn1, Vd1, Vp1, Vq1, V2; ring|]. split; [apply Rabs_le; lra|].
  split; [rewrite Vn2, Vp2, Vq2; ring|]. apply Rabs_le; lra.
Qed.

Variable G : R.
Hypothesis HG : recursion_gain (val (a1 ka)) (val (a2 ka)) G.
Hypothesis HW : G * (B * X + D) <= W.

Lemma t_run_rounded xs : forall gs w x1 x2 y1 y2 r1 r2,
  Forall (fun g => Rabs g <= B * X + D) gs -> snd (df2_run ra pure w0 gs) = {| v1 := y1; v2 := y2 |} ->
  ok (v1 w) -> ok (v2 w) -> Rabs x1 <= X -> Rabs x2 <= X ->
  val (v1 w) = b1 rb * x1 + b2 rb * x2 - a1 ra * y1 - a2 ra * y2 + r1 -> Rabs r1 <= 7 * u + 4 * eta ->
  val (v2 w) = b2 rb * x1 - a2 ra * y1 + r2 -> Rabs r2 <= 3 * u + 2 * eta ->
  Forall (fun x => ok x /\ Rabs (val x) <= X) xs ->
  exists ys bq' gs', run (step_df2_transposed S) {| bq_a := ka; bq_b := kb; bq_w := w |} xs = Ok (ys, bq') /\
    Forall ok ys /\ Forall2 (fun g g' => Rabs (g' - g) <= D) (weighted rb x1 x2 (map val xs)) gs' /\
    map val ys = fst (df2_run ra pure {| v1 := y1; v2 := y2 |} gs').
Proof.
  induction xs as [|x xs IH]; intros gs w x1 x2 y1 y2 r1 r2 FG SG O1 O2 Bx1 Bx2 V1 R1 V2 R2 FX.
  { exists [], {| bq_a := ka; bq_b := kb; bq_w := w |}, []. repeat split; constructor. }
  apply Forall_cons_iff in FX. destruct FX as [[Ox Bx] FX].
  assert (DP : 0 <= D).
  { pose proof (rd_eps _ _ _ _ _ _ RD) as PE. pose proof (rd_eta _ _ _ _ _ _ RD) as PT.
    assert (PN : 0 <= u) by (apply Rmult_le_pos; lra). unfold D. lra. }
  assert (BP : 0 <= B * X).
  { apply Rmult_le_pos; [|exact X0]. unfold B. pose proof (Rabs_pos (val (b0 kb))). pose proof (Rabs_pos (val (b1 kb))).
    pose proof (Rabs_pos (val (b2 kb))). lra. }
  assert (GS : forall gs, Forall (fun u => Rabs u <= B * X + D) gs ->
    Rabs (v1 (snd (df2_run ra pure w0 gs))) <= W /\ Rabs (v2 (snd (df2_run ra pure w0 gs))) <= W).
  { intros l Fl. destruct (gain_state ra pure G (B * X + D) l HG ltac:(lra) Fl). split; lra. }
  destruct (GS gs FG) as [By1 By2]. rewrite SG in By1, By2. cbn [v1 v2] in By1, By2.
  set (g := b0 rb * val x + b1 rb * x1 + b2 rb * x2).
  assert (Bg : Rabs g <= B * X).
  { unfold g, B. cbn [vb b0 b1 b2]. rewrite !Rmult_plus_distr_r.
    pose proof (Rabs_mul_le _ _ _ _ (Rle_refl (Rabs (val (b0 kb)))) Bx) as m0.
    pose proof (Rabs_mul_le _ _ _ _ (Rle_refl (Rabs (val (b1 kb)))) Bx1) as m1.
    pose proof (Rabs_mul_le _ _ _ _ (Rle_refl (Rabs (val (b2 kb)))) Bx2) as m2.
    apply Rabs_ge2 in m0, m1, m2. apply Rabs_le. lra. }
  assert (FE : forall e, Rabs e <= D -> Forall (fun u => Rabs u <= B * X + D) (gs ++ [g + e])).
  { intros e De. apply Forall_app. split; [exact FG|]. constructor; [|constructor].
    eapply Rle_trans; [apply Rabs_triang|lra]. }
  assert (SE : forall e, snd (df2_run ra pure w0 (gs ++ [g + e])) = {| v1 := g + e - a1 ra * y1 - a2 ra * y2; v2 := y1 |}).
  { intros e. rewrite df2_run_snoc, SG. reflexivity. }
  destruct (t_step_rounded w x x1 x2 y1 y2 r1 r2 O1 O2 Ox Bx Bx1 Bx2 By1 By2 V1 R1 V2 R2)
    as (y & n1 & n2 & e & s1 & s2 & ES & Oy & On1 & On2 & De & Vy & Vn1 & S1 & Vn2 & S2).
  { intros e De. destruct (GS _ (FE e De)) as [Q _]. rewrite SE in Q. exact Q. }
  destruct (IH (gs ++ [g + e]) {| v1 := n1; v2 := n2 |} (val x) x1 (val y) y1 s1 s2) as (ys & bq' & gs' & ER & Oys & F1 & F2);
    try assumption.
  { now apply FE. }
  { rewrite SE. apply state_eq; [|reflexivity]. cbn [v1]. rewrite Vy. reflexivity. }
  exists (y :: ys), bq', ((g + e) :: gs').
  split. { cbn [run]. rewrite ES. cbn [bind fst snd]. rewrite ER. reflexivity. }
  split; [now constructor|]. split.
  - cbn [map weighted]. constructor; [|exact F1]. fold g. replace (g + e - g) with e by ring. exact De.
  - cbn [df2_run fst map]. f_equal.
    + rewrite Vy. unfold df2_y, pure, g; cbn [v1 v2 b0 b1 b2]. ring.
    + rewrite F2. do 2 f_equal. unfold df2_w; cbn [v1 v2]. apply state_eq; [|reflexivity]. cbn [v1]. rewrite Vy. reflexivity.
Qed.

End Transposed.

(** ** One pole *)

Section OnePole.
Context {T : Type} (S : scalar T) (val : T -> R) (ok : T -> Prop) (eps eta M N : R).
Hypothesis RD : rounding S val ok eps eta M.
Hypothesis NM : 0 <= N <= M.
Variables ka kb : T.
Hypothesis Oa : ok ka.
Hypothesis Ob : ok kb.
Variables X W : R.
Let u := eps * N.
Let D := 3 * u + 2 * eta.
Hypothesis X0 : 0 <= X.
Hypothesis HN : Rabs (val kb) * X + Rabs (val ka) * W + (2 * u + 2 * eta) <= N.
Hypothesis HW : Rabs (val kb) * X + Rabs (val ka) * W + D <= W.

Lemma op_step_rounded v x : ok v -> ok x -> Rabs (val v) <= W -> Rabs (val x) <= X ->
  exists y e, op_step S {| op_a1 := ka; op_b0 := kb; op_v1 := v |} x =
      Ok (y, {| op_a1 := ka; op_b0 := kb; op_v1 := y |}) /\
    ok y /\ Rabs e <= D /\ Rabs (val y) <= W /\ val y = val kb * val x - val ka * val v + e.
Proof.
  intros Ov Ox Bv Bx. destruct NM as [N0 NM'].
  pose proof (rd_eps _ _ _ _ _ _ RD) as PE. pose proof (rd_eta _ _ _ _ _ _ RD) as PT.
  assert (PN : 0 <= u) by (apply Rmult_le_pos; lra).
  assert (PW : 0 <= W) by (eapply Rle_trans; [apply Rabs_pos|exact Bv]).
  assert (0 <= Rabs (val kb) * X) by (apply Rmult_le_pos; auto using Rabs_pos).
  assert (0 <= Rabs (val ka) * W) by (apply Rmult_le_pos; auto using Rabs_pos).
  pose proof (Rabs_mul_le _ _ _ _ (Rle_refl (Rabs (val kb))) Bx) as m0.
  pose proof (Rabs_mul_le _ _ _ _ (Rle_refl (Rabs (val ka))) Bv) as m1.
  apply Rabs_ge2 in m0, m1.
  destruct (op_mul S val ok eps eta M N RD NM' x kb X _ Ox Ob Bx (Rle_refl _)) as (p & e1 & E1 & Op & Vp & D1);
    [rewrite Rmult_comm; lra|]. fold u in D1. apply Rabs_ge2 in D1.
  destruct (op_mul S val ok eps eta M N RD NM' v ka W _ Ov Oa Bv (Rle_refl _)) as (q & e2 & E2 & Oq & Vq & D2);
    [rewrite Rmult_comm; lra|]. fold u in D2. apply Rabs_ge2 in D2.
  destruct (op_sub S val ok eps eta M N RD NM' p q N Op Oq) as (y & e3 & E3 & Oy & Vy & D3);
    [apply Rabs_le; rewrite Vp, Vq; lra|lra|]. fold u in D3. apply Rabs_ge2 in D3.
  exists y, (e1 - e2 + e3).
  split. { unfold op_step. cbn [op_a1 op_b0 op_v1]. rewrite E1. cbn [bind]. rewrite E2. cbn [bind]. rewrite E3. reflexivity. }
  split; [assumption|]. split; [apply Rabs_le; unfold D; lra|].
  unfold D in HW. split; [apply Rabs_le; rewrite Vy, Vp, Vq; lra|]. rewrite Vy, Vp, Vq. ring.
Qed.

Hypothesis Ha : Rabs (val ka) < 1.

Lemma op_run_rounded xs : forall v z, ok v -> Rabs (val v) <= W ->
  Rabs (val v - z) <= D / (1 - Rabs (val ka)) ->
  Forall (fun x => ok x /\ Rabs (val x) <= X) xs ->
  exists ys op', op_run S {| op_a1 := ka; op_b0 := kb; op_v1 := v |} xs = Ok (ys, op') /\
    Forall ok ys /\ length ys = length xs /\ Forall (fun y => Rabs (val y) <= W) ys /\
    forall zs, length zs = length xs ->
      (forall n, (n < length xs)%nat -> nth n zs 0 =
         val kb * nth n (map val xs) 0 - val ka * match n with O => z | Datatypes.S m => nth m zs 0 end) ->
      forall n, (n < length xs)%nat -> Rabs (nth n (map val ys) 0 - nth n zs 0) <= D / (1 - Rabs (val ka)).
Proof.
  induction xs as [|x xs IH]; intros v z Ov Bv Bd FX.
  { exists [], {| op_a1 := ka; op_b0 := kb; op_v1 := v |}. split; [reflexivity|]. split; [constructor|]. split; [reflexivity|].
    split; [constructor|]. cbn. intros; lia. }
  apply Forall_cons_iff in FX. destruct FX as [[Ox Bx] FX].
  destruct (op_step_rounded v x Ov Ox Bv Bx) as (y & e & ES & Oy & De & By & Vy).
  set (z' := val kb * val x - val ka * z).
  assert (Bd' : Rabs (val y - z') <= D / (1 - Rabs (val ka))).
  { replace (val y - z') with (e + - (val ka * (val v - z))) by (rewrite Vy; unfold z'; ring).
    eapply Rle_trans; [apply Rabs_triang|]. rewrite Rabs_Ropp, Rabs_mult.
    replace (D / (1 - Rabs (val ka))) with (D + Rabs (val ka) * (D / (1 - Rabs (val ka)))) by (field; lra).
    apply Rplus_le_compat; [exact De|]. apply Rmult_le_compat_l; [apply Rabs_pos|exact Bd]. }
  destruct (IH y z' Oy By Bd' FX) as (ys & op' & ER & Oys & L & Bys & K).
  exists (y :: ys), op'. split. { cbn [op_run]. rewrite ES. cbn [bind fst snd]. rewrite ER. reflexivity. }
  split; [now constructor|]. split; [cbn; now rewrite L|]. split; [now constructor|].
  intros zs Lz Hz n Hn. destruct zs as [|z0 zs]; [discriminate|].
  assert (E0 : z0 = z') by (specialize (Hz 0%nat ltac:(cbn; lia)); cbn in Hz; exact Hz). subst z0.
  destruct n as [|n]; [exact Bd'|]. cbn [map nth]. apply K; [cbn in Lz; lia| |cbn in Hn; lia].
  intros m Hm. specialize (Hz (Datatypes.S m) ltac:(cbn; lia)). cbn [nth map] in Hz. rewrite Hz.
  destruct m; reflexivity.
Qed.

End OnePole.
