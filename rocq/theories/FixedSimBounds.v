(** * Lemmas: bounds on two errors that are mixed and corrected again and again *)

From Coq Require Import Reals List ZArith Lia Lra.
From Verif Require Import Base SimRoundingProofs.
Import ListNotations.
Local Open Scope R_scope.

(** A pair of errors is a combination, with factors between -1 and 1, of the listed pairs;
    their unit is [2^-32]. *)
Definition zu : R := / 4294967296.
Fixpoint zon (L : list (Z * Z)) (a b : R) : Prop :=
  match L with
  | [] => a = 0 /\ b = 0
  | (p, q) :: L' => exists s, Rabs s <= 1 /\ zon L' (a - s * (IZR p * zu)) (b - s * (IZR q * zu))
  end.

Fixpoint w0 (L : list (Z * Z)) : Z := match L with [] => 0%Z | (p, q) :: L' => (Z.abs p + w0 L')%Z end.
Fixpoint w1 (L : list (Z * Z)) : Z := match L with [] => 0%Z | (p, q) :: L' => (Z.abs q + w1 L')%Z end.
Fixpoint w2 (L : list (Z * Z)) : Z := match L with [] => 0%Z | (p, q) :: L' => (Z.abs (p + q) + w2 L')%Z end.

Lemma zu_pos : 0 < zu. Proof. unfold zu. lra. Qed.

Lemma part s z : Rabs s <= 1 -> Rabs (s * (IZR z * zu)) <= IZR (Z.abs z) * zu.
Proof.
  intros H. rewrite !Rabs_mult, abs_IZR, (Rabs_pos_eq zu) by (pose proof zu_pos; lra).
  pose proof (Rabs_pos (IZR z)) as P. pose proof zu_pos as U.
  apply Rmult_le_pos with (r2 := zu) in P; [|lra].
  apply Rmult_le_compat_r with (r := Rabs (IZR z) * zu) in H; lra.
Qed.

Lemma zon_w0 : forall L a b, zon L a b -> Rabs a <= IZR (w0 L) * zu.
Proof.
  induction L as [|[p q] L IH]; intros a b H; cbn [zon w0] in *.
  - destruct H as [-> _]. rewrite Rabs_R0. lra.
  - destruct H as (s & Hs & H). apply IH in H. pose proof (part s p Hs) as P. rewrite plus_IZR.
    replace a with ((a - s * (IZR p * zu)) + s * (IZR p * zu)) by ring.
    eapply Rle_trans; [apply Rabs_triang|]. lra.
Qed.
Lemma zon_w1 : forall L a b, zon L a b -> Rabs b <= IZR (w1 L) * zu.
Proof.
  induction L as [|[p q] L IH]; intros a b H; cbn [zon w1] in *.
  - destruct H as [_ ->]. rewrite Rabs_R0. lra.
  - destruct H as (s & Hs & H). apply IH in H. pose proof (part s q Hs) as P. rewrite plus_IZR.
    replace b with ((b - s * (IZR q * zu)) + s * (IZR q * zu)) by ring.
    eapply Rle_trans; [apply Rabs_triang|]. lra.
Qed.
Lemma zon_w2 : forall L a b, zon L a b -> Rabs (a + b) <= IZR (w2 L) * zu.
Proof.
  induction L as [|[p q] L IH]; intros a b H; cbn [zon w2] in *.
  - destruct H as [-> ->]. rewrite Rplus_0_r, Rabs_R0. lra.
  - destruct H as (s & Hs & H). apply IH in H. pose proof (part s (p + q) Hs) as P. rewrite plus_IZR in P |- *.
    replace (a + b) with ((a - s * (IZR p * zu) + (b - s * (IZR q * zu))) + s * ((IZR p + IZR q) * zu)) by ring.
    eapply Rle_trans; [apply Rabs_triang|]. lra.
Qed.

(** Factors. *)
Lemma factor e P : 0 <= P -> Rabs e <= P -> exists s, Rabs s <= 1 /\ e = s * P.
Proof.
  intros HP H. destruct (Req_dec P 0) as [->|N].
  - exists 0. rewrite Rabs_R0. split; [lra|]. destruct (Req_dec e 0) as [->|M]; [ring|].
    apply Rabs_pos_lt in M. lra.
  - exists (e / P). split; [|field; exact N]. unfold Rdiv. rewrite Rabs_mult, (Rabs_pos_eq (/ P)).
    + apply Rmult_le_reg_r with P; [lra|]. rewrite Rmult_assoc, Rinv_l by exact N. lra.
    + left. apply Rinv_0_lt_compat. lra.
Qed.

Lemma zon_box0 L a b e P : (0 <= P)%Z -> Rabs e <= IZR P * zu -> zon L a b -> zon ((P, 0%Z) :: L) (a + e) b.
Proof.
  intros HP H Z. destruct (factor e (IZR P * zu)) as (s & Hs & ->); [|exact H|].
  - apply Rmult_le_pos; [now apply IZR_le|pose proof zu_pos; lra].
  - exists s. split; [exact Hs|].
    replace (a + s * (IZR P * zu) - s * (IZR P * zu)) with a by ring.
    replace (b - s * (0 * zu)) with b by ring. exact Z.
Qed.
Lemma zon_box1 L a b e P : (0 <= P)%Z -> Rabs e <= IZR P * zu -> zon L a b -> zon ((0%Z, P) :: L) a (b + e).
Proof.
  intros HP H Z. destruct (factor e (IZR P * zu)) as (s & Hs & ->); [|exact H|].
  - apply Rmult_le_pos; [now apply IZR_le|pose proof zu_pos; lra].
  - exists s. split; [exact Hs|].
    replace (b + s * (IZR P * zu) - s * (IZR P * zu)) with b by ring.
    replace (a - s * (0 * zu)) with a by ring. exact Z.
Qed.

(** A common error [e], with weights in units of [2^-16]. *)
Definition dir (p q E : Z) : Z * Z := (p * E * 65536, q * E * 65536)%Z.
Lemma zon_dir L a b p q e E : (0 <= E)%Z -> Rabs e <= IZR E -> zon L a b ->
  zon (dir p q E :: L) (a + IZR p / 65536 * e) (b + IZR q / 65536 * e).
Proof.
  intros HE H Z. destruct (factor e (IZR E)) as (s & Hs & ->); [now apply IZR_le|exact H|].
  exists s. split; [exact Hs|]. rewrite !mult_IZR.
  replace (a + IZR p / 65536 * (s * IZR E) - s * (IZR p * IZR E * 65536 * zu)) with a by (unfold zu; field).
  replace (b + IZR q / 65536 * (s * IZR E) - s * (IZR q * IZR E * 65536 * zu)) with b by (unfold zu; field).
  exact Z.
Qed.

(** Prediction and correction with the gains [k0] and [k1], in units of [2^-16]. *)
Definition turn (k0 k1 : Z) (pq : Z * Z) : Z * Z :=
  let s := (fst pq + snd pq)%Z in ((65536 - k0) * s / 65536, snd pq - k1 * s / 65536)%Z.

Lemma floor_16 n : 0 <= IZR n / 65536 - IZR (n / 65536) < 1.
Proof.
  pose proof (div_low n 65536 ltac:(lia)) as L.
  assert (H : (n < (n / 65536 + 1) * 65536)%Z).
  { pose proof (Z.mod_pos_bound n 65536 ltac:(lia)). pose proof (Z.div_mod n 65536 ltac:(lia)). lia. }
  apply IZR_lt in H. rewrite mult_IZR, plus_IZR in H. split; lra.
Qed.

Lemma zon_turn k0 k1 : forall L a b, zon L a b ->
  exists r0 r1, Rabs r0 <= IZR (Z.of_nat (length L)) * zu /\ Rabs r1 <= IZR (Z.of_nat (length L)) * zu /\
  zon (map (turn k0 k1) L) ((1 - IZR k0 / 65536) * (a + b) - r0) (b - IZR k1 / 65536 * (a + b) - r1).
Proof.
  pose proof zu_pos as U.
  induction L as [|[p q] L IH]; intros a b H.
  - cbn [zon] in H. destruct H as [-> ->]. exists 0, 0. cbn [length map zon]. rewrite Rabs_R0.
    change (Z.of_nat 0) with 0%Z. split; [lra|]. split; [lra|]. split; ring.
  - destruct H as (s & Hs & H). apply IH in H as (r0 & r1 & B0 & B1 & H).
    set (n := ((65536 - k0) * (p + q))%Z). set (m := (k1 * (p + q))%Z).
    pose proof (floor_16 n) as F0. pose proof (floor_16 m) as F1.
    set (t0 := IZR n / 65536 - IZR (n / 65536)) in *. set (t1 := IZR m / 65536 - IZR (m / 65536)) in *.
    exists (r0 + s * (t0 * zu)), (r1 - s * (t1 * zu)).
    assert (G : forall r t, Rabs r <= IZR (Z.of_nat (length L)) * zu -> 0 <= t < 1 ->
       Rabs (r + s * (t * zu)) <= IZR (Z.of_nat (length ((p, q) :: L))) * zu /\
       Rabs (r - s * (t * zu)) <= IZR (Z.of_nat (length ((p, q) :: L))) * zu).
    { intros r t Hr Ht. cbn [length]. rewrite Nat2Z.inj_succ, succ_IZR.
      assert (Q : Rabs (s * (t * zu)) <= 1 * zu).
      { rewrite Rabs_mult, (Rabs_pos_eq (t * zu)) by (apply Rmult_le_pos; lra).
        assert (t * zu <= 1 * zu) by (apply Rmult_le_compat_r; lra).
        assert (0 <= t * zu) by (apply Rmult_le_pos; lra).
        apply Rmult_le_compat_r with (r := t * zu) in Hs; lra. }
      split; (eapply Rle_trans; [first [apply Rabs_triang | unfold Rminus; apply Rabs_triang]|]); rewrite ?Rabs_Ropp; lra. }
    split; [now apply G|]. split; [now apply G|].
    cbn [map]. unfold turn at 1. cbn [fst snd]. fold n m. exists s. split; [exact Hs|].
    assert (N : IZR (n / 65536) = (1 - IZR k0 / 65536) * (IZR p + IZR q) - t0).
    { unfold t0, n. rewrite mult_IZR, minus_IZR, plus_IZR. field. }
    assert (M : IZR (q - m / 65536) = IZR q - IZR k1 / 65536 * (IZR p + IZR q) + t1).
    { unfold t1, m. rewrite minus_IZR, mult_IZR, plus_IZR. field. }
    rewrite N, M. clearbody t0 t1 n m.
    match type of H with zon _ ?x ?y => match goal with |- zon _ ?u ?v =>
      replace u with x by ring; replace v with y by ring; exact H end end.
Qed.

(** A common error [e], with weights in units of [2^-128]. *)
Definition dir_fine (p q E : Z) : Z * Z := (Z.shiftr (p * E) 96, Z.shiftr (q * E) 96).
Lemma shift_96 z : 0 <= IZR z * unit - IZR (Z.shiftr z 96) * zu <= zu.
Proof.
  rewrite Z.shiftr_div_pow2 by lia.
  pose proof (div_low z (2 ^ 96) ltac:(lia)) as L. pose proof (div_high z (2 ^ 96) ltac:(lia)) as H.
  rewrite plus_IZR in H.
  assert (E : IZR (2 ^ 96) * unit = zu).
  { pose proof one_unit as O. change one_z with (2 ^ 96 * 4294967296)%Z in O. rewrite mult_IZR in O. unfold zu. lra. }
  pose proof unit_pos as U.
  apply Rmult_le_compat_r with (r := unit) in L, H; try lra.
  rewrite Rmult_assoc, E in L. rewrite Rmult_assoc, E in H. lra.
Qed.
Lemma zon_dir_fine L a b p q e E : (0 <= E)%Z -> Rabs e <= IZR E -> zon L a b ->
  exists r0 r1, Rabs r0 <= zu /\ Rabs r1 <= zu /\
  zon (dir_fine p q E :: L) (a + IZR p * unit * e - r0) (b + IZR q * unit * e - r1).
Proof.
  intros HE H Z. destruct (factor e (IZR E)) as (s & Hs & ->); [now apply IZR_le|exact H|].
  pose proof (shift_96 (p * E)) as F0. pose proof (shift_96 (q * E)) as F1.
  set (t0 := IZR (p * E) * unit - IZR (Z.shiftr (p * E) 96) * zu) in *.
  set (t1 := IZR (q * E) * unit - IZR (Z.shiftr (q * E) 96) * zu) in *.
  exists (s * t0), (s * t1).
  assert (G : forall t, 0 <= t <= zu -> Rabs (s * t) <= zu).
  { intros t Ht. rewrite Rabs_mult, (Rabs_pos_eq t) by lra. apply Rmult_le_compat_r with (r := t) in Hs; lra. }
  split; [now apply G|]. split; [now apply G|].
  unfold dir_fine. exists s. split; [exact Hs|].
  assert (N0 : IZR (Z.shiftr (p * E) 96) * zu = IZR p * IZR E * unit - t0) by (unfold t0; rewrite mult_IZR; ring).
  assert (N1 : IZR (Z.shiftr (q * E) 96) * zu = IZR q * IZR E * unit - t1) by (unfold t1; rewrite mult_IZR; ring).
  rewrite N0, N1. clearbody t0 t1.
  match goal with |- zon _ ?u ?v => replace u with a by ring; replace v with b by ring; exact Z end.
Qed.
