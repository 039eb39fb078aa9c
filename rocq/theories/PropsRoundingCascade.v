(** * Cascades in fixed-point and floating-point arithmetic *)

From Coq Require Import Reals List Arith ZArith Lra Lia Psatz.
From Flocq Require Import Core BinarySingleNaN.
From Verif Require Import Base Scalars FixedPoint FixedSpec FixedProofs Biquad BiquadSpec BiquadProofs
  Cascade CascadeSpec CascadeProofs PropsCascade Ieee RoundingSpec RoundingProofs PropsRounding.
Import ListNotations.
Local Open Scope R_scope.

(** The real section a stored section stands for. *)
Definition real_section {T} (val : T -> R) (bq : biquad T) (G : R) : rsection :=
  {| rs_b0 := val (b0 (bq_b bq)); rs_b1 := val (b1 (bq_b bq)); rs_b2 := val (b2 (bq_b bq));
     rs_a1 := val (a1 (bq_a bq)); rs_a2 := val (a2 (bq_a bq)); rs_gain := G |}.

(** All coefficients of a section stand for numbers. *)
Definition section_ok {T} (ok : T -> Prop) (bq : biquad T) : Prop :=
  ok (a1 (bq_a bq)) /\ ok (a2 (bq_a bq)) /\ ok (b0 (bq_b bq)) /\ ok (b1 (bq_b bq)) /\ ok (b2 (bq_b bq)).

Lemma within_add E E' xs ys zs : within E xs ys -> within E' ys zs -> within (E + E') xs zs.
Proof.
  intros [L H] [L' H']. split; [congruence|]. intros n Hn. specialize (H n Hn). rewrite L in Hn. specialize (H' n Hn).
  apply Rabs_ge2 in H, H'. apply Rabs_le. lra.
Qed.

Lemma within_Forall2 E xs ys : within E xs ys <-> Forall2 (fun x u => Rabs (u - x) <= E) ys xs.
Proof.
  split.
  - intros [L H]. revert ys L H. induction xs as [|x xs IH]; intros [|y ys] L H; try discriminate; constructor.
    + apply (H 0%nat). cbn. lia.
    + apply IH; [cbn in L; lia|]. intros n Hn. apply (H (Datatypes.S n)). cbn. lia.
  - intros F. destruct (Forall2_nth_le _ _ _ 0 0 F) as [L K]. split; [congruence|]. rewrite <- L. exact K.
Qed.

Section Chain.
Context {T : Type} (S : scalar T) (val : T -> R) (ok : T -> Prop) (eps eta M N : R).
Hypothesis RD : rounding S val ok eps eta M.
Hypothesis NM : 0 <= N <= M.

Lemma chain_rounded l : forall Gs X D xs zs0,
  length Gs = length l -> 0 <= X -> 0 <= D ->
  Forall (fun bq => section_ok ok bq /\ bq_w bq = zero_w S) l ->
  chain_fits (eps * N) eta N X (map (fun p => real_section val (fst p) (snd p)) (combine l Gs)) ->
  (forall x, In x xs -> ok x /\ Rabs (val x) <= X) ->
  within D (map val xs) zs0 ->
  exists ys m, one_after_the_other (Biquad.step S) l xs = Ok (ys, m) /\ (forall y, In y ys -> ok y) /\
  forall zs, chain_output (map (fun p => real_section val (fst p) (snd p)) (combine l Gs)) zs0 zs ->
    within (chain_error (eps * N) eta D (map (fun p => real_section val (fst p) (snd p)) (combine l Gs))) (map val ys) zs.
Proof.
  assert (PE := rd_eps _ _ _ _ _ _ RD). assert (PT := rd_eta _ _ _ _ _ _ RD).
  assert (PU : 0 <= eps * N) by (apply Rmult_le_pos; lra).
  induction l as [|bq l IH]; intros [|G Gs] X D xs zs0 LG X0 D0 FL CF FX WI; try discriminate.
  - exists xs, []. split; [reflexivity|]. split; [intros y Hy; now apply FX|]. intros zs ->. exact WI.
  - cbn [combine map fst snd chain_fits chain_output chain_error] in *.
    apply Forall_cons_iff in FL. destruct FL as [[(O1 & O2 & O3 & O4 & O5) Ew] FL].
    destruct CF as (HG & HA & HB & CF).
    unfold rs_A, rs_B in HA, HB. cbn [real_section rs_a1 rs_a2 rs_b0 rs_b1 rs_b2 rs_gain] in *.
    pose proof (gain_ge_1 _ _ _ HG) as G1.
    destruct (C128_direct_form S val ok eps eta M RD (bq_a bq) (bq_b bq) G X _ N O1 O2 O3 O4 O5 HG X0 NM
      (Rle_refl _) HA HB xs FX) as (ys & bq' & ER & Fy & K).
    assert (Eb : biquad_ba S (bq_b bq) (bq_a bq) = bq) by (unfold biquad_ba; rewrite <- Ew; destruct bq; reflexivity).
    rewrite Eb in ER.
    set (B := Rabs (val (b0 (bq_b bq))) + Rabs (val (b1 (bq_b bq))) + Rabs (val (b2 (bq_b bq)))) in *.
    assert (PB : 0 <= B).
    { unfold B. pose proof (Rabs_pos (val (b0 (bq_b bq)))). pose proof (Rabs_pos (val (b1 (bq_b bq)))).
      pose proof (Rabs_pos (val (b2 (bq_b bq)))). lra. }
    assert (EB : rs_B (real_section val bq G) = B) by reflexivity. rewrite EB in *.
    assert (PGX : 0 <= G * (X + (4 * (eps * N) + 2 * eta))) by (apply Rmult_le_pos; lra).
    assert (PGD : 0 <= G * (D + (4 * (eps * N) + 2 * eta))) by (apply Rmult_le_pos; lra).
    pose proof (Rmult_le_pos _ _ PB PGX). pose proof (Rmult_le_pos _ _ PB PGD).
    (* the exact output of this section on the exact input *)
    set (ws := fst (df2_run (va val (bq_a bq)) (vb val (bq_b bq)) w0 zs0)).
    assert (Lz0 : length zs0 = length xs) by (destruct WI as [L _]; rewrite map_length in L; congruence).
    assert (W1 : within (B * (G * (D + (4 * (eps * N) + 2 * eta))) + (5 * (eps * N) + 3 * eta)) (map val ys) ws).
    { set (es := fst (df2_run (va val (bq_a bq)) (vb val (bq_b bq)) w0 (map val xs))).
      assert (Wa : within (B * (G * (4 * (eps * N) + 2 * eta)) + (5 * (eps * N) + 3 * eta)) (map val ys) es).
      { apply K; [unfold es; rewrite df2_run_length; apply map_length|].
        apply (rest_df2 (va val (bq_a bq)) (vb val (bq_b bq))). }
      assert (Wb : within (B * (G * D)) es ws).
      { apply within_Forall2. unfold es, ws, B.
        pose proof (proj1 (within_Forall2 D _ _) WI) as F.
        pose proof (df2_perturbed (va val (bq_a bq)) (vb val (bq_b bq)) G D (map val xs) zs0 HG D0 F) as Q.
        clear - Q. cbn [vb b0 b1 b2] in Q. induction Q; constructor; assumption. }
      pose proof (within_add _ _ _ _ _ Wa Wb) as Wc.
      replace (B * (G * (D + (4 * (eps * N) + 2 * eta))) + (5 * (eps * N) + 3 * eta))
        with (B * (G * (4 * (eps * N) + 2 * eta)) + (5 * (eps * N) + 3 * eta) + B * (G * D)) by ring. exact Wc. }
    destruct (IH Gs (B * (G * (X + (4 * (eps * N) + 2 * eta))) + (5 * (eps * N) + 3 * eta))
      (B * (G * (D + (4 * (eps * N) + 2 * eta))) + (5 * (eps * N) + 3 * eta)) ys ws
      ltac:(cbn in LG; lia) ltac:(lra) ltac:(lra) FL CF Fy W1) as (ys' & m & E' & F' & K').
    exists ys', (bq' :: m). split; [|split; [exact F'|]].
    + cbn [one_after_the_other]. rewrite ER. cbn [bind fst snd]. rewrite E'. reflexivity.
    + intros zs (ws' & Lw & Dw & Cz). apply K'.
      assert (ws' = ws) as ->.
      { eapply difference_unique; [exact Lw|unfold ws; apply df2_run_length|exact Dw|].
        apply (rest_df2 (va val (bq_a bq)) (vb val (bq_b bq))). }
      exact Cz.
Qed.
End Chain.

(** ** C130 *)

(** A cascade of sections at rest, in any rounding arithmetic: as long as every section has
    room for its signals the cascade is defined for ever, and its output stays within the
    accumulated error of the output of the exact sections one after the other. *)
Theorem C130_cascade : forall {T} (S : scalar T) val ok eps eta M,
  rounding S val ok eps eta M ->
  forall (n : nat) (cs : cascade T) (l : list (biquad T)) (Gs : list R) (X N : R),
  length (cs_biquad cs) = n -> shows cs l -> length Gs = length l -> 0 <= X -> 0 <= N <= M ->
  (forall bq, In bq l -> section_ok ok bq /\ bq_w bq = zero_w S) ->
  let rl := map (fun p => real_section val (fst p) (snd p)) (combine l Gs) in
  chain_fits (eps * N) eta N X rl ->
  forall xs, (forall x, In x xs -> ok x /\ Rabs (val x) <= X) ->
  exists ys cs', cs_run (cs_step S) cs xs = Ok (ys, cs') /\ (forall y, In y ys -> ok y) /\
    forall zs, chain_output rl (map val xs) zs ->
    within (chain_error (eps * N) eta 0 rl) (map val ys) zs.
Proof.
  intros T S val ok eps eta M RD n cs l Gs X N Ln Sh LG X0 NM FL rl CF xs FX.
  destruct (chain_rounded S val ok eps eta M N RD NM l Gs X 0 xs (map val xs) LG X0 (Rle_refl _)) as (ys & m & E & F & K);
    try assumption.
  - now apply Forall_forall.
  - split; [reflexivity|]. intros k _. rewrite Rminus_diag_eq by reflexivity. rewrite Rabs_R0. lra.
  - destruct (C50_step_composes T S n cs l m xs ys Ln Sh) as [[_ C] _].
    destruct (C E) as (cs' & E' & _). exists ys, cs'. split; [exact E'|]. split; [exact F|exact K].
Qed.
Print Assumptions C130_cascade.

(** Two sections of 16 bits with 8 fraction bits. *)
Example C130_case :
  let c := {| fx_w := 16; fx_ib := 16; fx_F := 8; fx_cpp20 := true |} in
  let bq := {| bq_a := {| a1 := -128; a2 := 64 |}; bq_b := {| b0 := 64; b1 := 128; b2 := 64 |};
               bq_w := {| v1 := 0; v2 := 0 |} |}%Z in
  forall xs, (forall x, In x xs -> (-512 <= x <= 512)%Z) ->
  exists ys cs', cs_run (cs_step (fx_scalar c)) (cascade_of (fx_scalar c) 3 [bq; bq]) xs = Ok (ys, cs') /\
    forall zs, chain_output (map (fun p => real_section (value c) (fst p) (snd p)) (combine [bq; bq] [4; 4]))
                 (map (value c) xs) zs -> within (55 / 256) (map (value c) ys) zs.
Proof.
  intros c bq xs FX.
  assert (Sc : supported c) by (unfold supported, c; cbn; lia).
  assert (V : forall z, value c z = IZR z / 256) by reflexivity.
  assert (St : FixedSpec.step c = 1 / 256) by reflexivity.
  pose proof (C126_fixed_point c Sc) as RD. rewrite St in RD.
  assert (VM : value c (fx_max c) = 32767 / 256) by reflexivity. rewrite VM in RD.
  assert (HG : recursion_gain (value c (-128)) (value c 64) 4).
  { pose proof (C128_gain_small (value c (-128)) (value c 64)) as Q. rewrite !V in *.
    rewrite (Rabs_left (-128 / 256)), (Rabs_right (64 / 256)) in Q by lra.
    replace (1 / (1 - - (-128 / 256) - 64 / 256)) with 4 in Q by field. apply Q. lra. }
  destruct (C130_cascade (fx_scalar c) _ _ _ _ _ RD 3 (cascade_of (fx_scalar c) 3 [bq; bq]) [bq; bq] [4; 4] 2 (32767 / 256))
    with (xs := xs) as (ys & cs' & E & _ & K).
  - reflexivity.
  - apply (C47_construction Z (fx_scalar c) 3 [bq; bq]). cbn. lia.
  - reflexivity.
  - lra.
  - lra.
  - intros b [<-|[<-|[]]]; (split; [|reflexivity]); unfold section_ok, in_range; cbn; lia.
  - cbn [combine map fst snd chain_fits]. unfold rs_A, rs_B. cbn [real_section rs_a1 rs_a2 rs_b0 rs_b1 rs_b2 rs_gain bq bq_a bq_b a1 a2 b0 b1 b2].
    rewrite !V. rewrite (Rabs_left (-128 / 256)), (Rabs_right (64 / 256)), (Rabs_right (128 / 256)) by lra.
    rewrite !V in HG. repeat split; try exact HG; lra.
  - intros x Hx. specialize (FX x Hx). split; [unfold in_range; cbn; lia|]. rewrite V.
    assert (-512 <= IZR x <= 512) by (split; apply IZR_le; lia). apply Rabs_le. lra.
  - exists ys, cs'. split; [exact E|]. intros zs Hz. specialize (K zs Hz).
    cbn [combine map fst snd chain_error] in K. unfold rs_B in K. cbn [real_section rs_a1 rs_a2 rs_b0 rs_b1 rs_b2 rs_gain bq bq_a bq_b a1 a2 b0 b1 b2] in K.
    rewrite !V in K. rewrite (Rabs_right (64 / 256)), (Rabs_right (128 / 256)) in K by lra.
    destruct K as [L K]. split; [exact L|]. intros k Hk. specialize (K k Hk). lra.
Qed.
