(** * Positivity of a polynomial with integer coefficients on an interval

    A computation that proves it: the interval is mapped to [0, 1] and halved until all
    coefficients of (1 + s)^n p( 1 / (1 + s) ) are positive.  Only additions, multiplications
    and shifts of integers.  A tool for proofs; it models nothing. *)

From Coq Require Import Reals List ZArith Lra Lia.
Import ListNotations.
Local Open Scope R_scope.

(** Coefficients from the constant one up. *)
Fixpoint peval (p : list R) (x : R) : R :=
  match p with [] => 0 | a :: p' => a + x * peval p' x end.

Fixpoint padd (p q : list Z) : list Z :=
  match p, q with
  | [], _ => q
  | _, [] => p
  | a :: p', b :: q' => (a + b)%Z :: padd p' q'
  end.
Definition pscale (c : Z) (p : list Z) : list Z := map (Z.mul c) p.
Fixpoint pmul (p q : list Z) : list Z :=
  match p with [] => [] | a :: p' => padd (pscale a q) (0%Z :: pmul p' q) end.
Definition psub (p q : list Z) : list Z := padd p (pscale (-1) q).

(** p( 1 + y ) *)
Fixpoint shift1 (p : list Z) : list Z :=
  match p with [] => [] | a :: p' => let q := shift1 p' in padd (a :: q) q end.
(** 2^n p( y / 2 ) *)
Fixpoint half (p : list Z) : list Z :=
  match p with [] => [] | a :: p' => Z.shiftl a (Z.of_nat (length p')) :: half p' end.

Definition all_positive (p : list Z) : bool :=
  match p with [] => false | _ => forallb (Z.ltb 0) p end.

Fixpoint positive_01 (fuel : nat) (p : list Z) : bool :=
  if all_positive (shift1 (rev p)) then true
  else match fuel with
       | O => false
       | S f => let l := half p in if positive_01 f l then positive_01 f (shift1 l) else false
       end.

(** E^n p( (a + w y) / E ) *)
Fixpoint on_unit (p : list Z) (a w E : Z) : list Z :=
  match p with
  | [] => []
  | c :: p' => let q := on_unit p' a w E in
      padd [(c * E ^ Z.of_nat (length p'))%Z] (padd (pscale a q) (0%Z :: pscale w q))
  end.

(** On the interval from a / E to b / E. *)
Definition positive_on (fuel : nat) (p : list Z) (a b E : Z) : bool :=
  positive_01 fuel (on_unit p a (b - a) E).

Notation rp p := (map IZR p).

Lemma padd_eval p : forall q x, peval (rp (padd p q)) x = peval (rp p) x + peval (rp q) x.
Proof.
  induction p as [|a p IH]; intros q x; [cbn; lra|]. destruct q as [|b q]; [cbn; lra|].
  cbn [padd map peval]. rewrite IH, plus_IZR. lra.
Qed.
Lemma pscale_eval c p x : peval (rp (pscale c p)) x = IZR c * peval (rp p) x.
Proof.
  induction p as [|a p IH]; [cbn; lra|]. cbn [pscale map peval] in *. unfold pscale in IH. rewrite IH, mult_IZR. lra.
Qed.
Lemma pmul_eval p : forall q x, peval (rp (pmul p q)) x = peval (rp p) x * peval (rp q) x.
Proof.
  induction p as [|a p IH]; intros q x; [cbn; lra|].
  cbn [pmul]. rewrite padd_eval, pscale_eval. cbn [map peval]. rewrite IH. lra.
Qed.
Lemma psub_eval p q x : peval (rp (psub p q)) x = peval (rp p) x - peval (rp q) x.
Proof. unfold psub. rewrite padd_eval, pscale_eval. lra. Qed.
Lemma shift1_eval p y : peval (rp (shift1 p)) y = peval (rp p) (1 + y).
Proof.
  induction p as [|a p IH]; [reflexivity|]. cbn [shift1]. cbv zeta. rewrite padd_eval. cbn [map peval]. rewrite IH. ring.
Qed.
Lemma half_eval p y : 2 * peval (rp (half p)) y = 2 ^ length p * peval (rp p) (y / 2).
Proof.
  induction p as [|a p IH]; [cbn; lra|]. cbn [half map peval length].
  rewrite Z.shiftl_mul_pow2 by lia. rewrite mult_IZR, <- pow_IZR. change (2 ^ S (length p)) with (2 * 2 ^ length p).
  replace (2 * (IZR a * 2 ^ length p + y * peval (rp (half p)) y))
    with (2 * (IZR a * 2 ^ length p) + y * (2 * peval (rp (half p)) y)) by ring.
  rewrite IH. field.
Qed.
Lemma on_unit_eval p a w E y : IZR E <> 0 ->
  IZR E * peval (rp (on_unit p a w E)) y = IZR E ^ length p * peval (rp p) ((IZR a + IZR w * y) / IZR E).
Proof.
  intros HE. induction p as [|c p IH]; [cbn; lra|]. cbn [on_unit]. cbv zeta.
  rewrite !padd_eval, pscale_eval. cbn [map peval length]. rewrite pscale_eval, mult_IZR, <- pow_IZR.
  change (IZR E ^ S (length p)) with (IZR E * IZR E ^ length p).
  set (v := peval (rp (on_unit p a w E)) y) in *.
  replace (IZR E * (IZR c * IZR E ^ length p + y * 0 + (IZR a * v + (0 + y * (IZR w * v)))))
    with (IZR E * (IZR c * IZR E ^ length p) + (IZR a + IZR w * y) * (IZR E * v)) by ring.
  rewrite IH. field. assumption.
Qed.

Lemma peval_app p q x : peval (p ++ q) x = peval p x + x ^ length p * peval q x.
Proof. induction p as [|a p IH]; [cbn; ring|]. cbn [app peval length pow]. rewrite IH. ring. Qed.
Lemma rev_eval p y : y <> 0 -> y * peval p y = y ^ length p * peval (rev p) (/ y).
Proof.
  intros Hy. induction p as [|a p IH]; [cbn; ring|]. cbn [rev peval length]. rewrite peval_app, rev_length. cbn [peval].
  change (y ^ S (length p)) with (y * y ^ length p).
  replace (y * (a + y * peval p y)) with (y * a + y * (y * peval p y)) by ring. rewrite IH.
  assert (X : y ^ length p * (/ y) ^ length p = 1) by (rewrite <- Rpow_mult_distr, Rinv_r by assumption; apply pow1).
  replace (y * y ^ length p * (peval (rev p) (/ y) + (/ y) ^ length p * (a + / y * 0)))
    with (y * (y ^ length p * (/ y) ^ length p) * a + y * (y ^ length p * peval (rev p) (/ y))) by ring.
  rewrite X. ring.
Qed.

Lemma all_positive_eval p s : all_positive p = true -> 0 <= s -> 0 < peval (rp p) s.
Proof.
  unfold all_positive. destruct p as [|a p]; [discriminate|]. revert a.
  induction p as [|b p IH]; intros a H Hs; cbn [forallb] in H; apply andb_prop in H as [Ha H]; apply Z.ltb_lt, IZR_lt in Ha.
  - cbn. lra.
  - specialize (IH b H Hs). cbn [map peval] in *. assert (0 <= s * (IZR b + s * peval (rp p) s)) by (apply Rmult_le_pos; lra). lra.
Qed.

Lemma shift1_last p a : exists q, shift1 (p ++ [a]) = q ++ [a].
Proof.
  assert (L : forall p q, (length q < length p)%nat -> forall b r, p = r ++ [b] -> exists t, padd p q = t ++ [b]).
  { clear. induction p as [|x p IH]; intros q Hq b r E; [destruct r; discriminate|].
    destruct q as [|y q]; [exists r; exact E|]. destruct r as [|z r].
    - injection E as -> ->. cbn in Hq. lia.
    - injection E as -> E. destruct (IH q) with (b := b) (r := r) as (t & Et); [cbn in Hq; lia|assumption|].
      exists ((z + y)%Z :: t). cbn. now rewrite Et. }
  induction p as [|c p (q & IH)]; [exists []; cbn; reflexivity|].
  cbn [app shift1]. cbv zeta. rewrite IH. apply (L (c :: q ++ [a]) (q ++ [a]) ltac:(cbn; lia) a (c :: q)). reflexivity.
Qed.

Lemma positive_01_sound : forall fuel p, positive_01 fuel p = true ->
  forall y, 0 <= y <= 1 -> 0 < peval (rp p) y.
Proof.
  assert (B : forall p, all_positive (shift1 (rev p)) = true -> forall y, 0 <= y <= 1 -> 0 < peval (rp p) y).
  { intros p H y Hy. destruct (Req_dec y 0) as [->|N].
    - destruct p as [|a p]; [discriminate|]. cbn [rev] in H. destruct (shift1_last (rev p) a) as (q & E). rewrite E in H.
      cbn. assert (X : (0 < a)%Z); [|apply IZR_lt in X; lra].
      assert (F : forallb (Z.ltb 0) (q ++ [a]) = true) by (unfold all_positive in H; destruct (q ++ [a]); [discriminate|assumption]).
      rewrite forallb_app in F. apply andb_prop in F as [_ F]. cbn in F. rewrite Bool.andb_true_r in F. now apply Z.ltb_lt.
    - assert (P : 0 < y) by lra. pose proof (rev_eval (rp p) y N) as E. rewrite <- map_rev in E.
      assert (I : 1 <= / y) by (rewrite <- Rinv_1; apply Rinv_le_contravar; lra).
      pose proof (all_positive_eval _ (/ y - 1) H ltac:(lra)) as X. rewrite shift1_eval in X.
      replace (1 + (/ y - 1)) with (/ y) in X by ring.
      apply (Rmult_lt_reg_l y); [assumption|]. rewrite Rmult_0_r, E. apply Rmult_lt_0_compat; [now apply pow_lt|assumption]. }
  induction fuel as [|f IH]; intros p H y Hy; cbn [positive_01] in H;
    destruct (all_positive (shift1 (rev p))) eqn:E; try (now apply B); try discriminate.
  cbv zeta in H. destruct (positive_01 f (half p)) eqn:E1; [|discriminate].
  assert (T : 0 < 2 ^ length p) by (apply pow_lt; lra).
  destruct (Rle_dec y (1 / 2)) as [L|L].
  - pose proof (IH _ E1 (2 * y) ltac:(lra)) as X. pose proof (half_eval p (2 * y)) as Q.
    replace (2 * y / 2) with y in Q by field. apply (Rmult_lt_reg_l (2 ^ length p)); lra.
  - pose proof (IH _ H (2 * y - 1) ltac:(lra)) as X. rewrite shift1_eval in X.
    replace (1 + (2 * y - 1)) with (2 * y) in X by ring. pose proof (half_eval p (2 * y)) as Q.
    replace (2 * y / 2) with y in Q by field. apply (Rmult_lt_reg_l (2 ^ length p)); lra.
Qed.

Lemma positive_on_sound : forall fuel p a b E, positive_on fuel p a b E = true -> (0 < E)%Z ->
  forall x, IZR a / IZR E <= x <= IZR b / IZR E -> 0 < peval (rp p) x.
Proof.
  intros fuel p a b E H HE x Hx. apply IZR_lt in HE. unfold positive_on in H.
  assert (M : IZR a <= x * IZR E <= IZR b).
  { destruct Hx as [H1 H2]. apply (Rmult_le_compat_r (IZR E)) in H1, H2; try lra.
    replace (IZR a / IZR E * IZR E) with (IZR a) in H1 by (field; lra).
    replace (IZR b / IZR E * IZR E) with (IZR b) in H2 by (field; lra). lra. }
  assert (Y : exists y, 0 <= y <= 1 /\ x = (IZR a + IZR (b - a) * y) / IZR E).
  { rewrite minus_IZR. destruct (Req_dec (IZR a) (IZR b)) as [Q|Q].
    - exists 0. split; [lra|]. rewrite Rmult_0_r, Rplus_0_r. replace (IZR a) with (x * IZR E) by lra. field. lra.
    - exists ((x * IZR E - IZR a) / (IZR b - IZR a)). split.
      + split; [apply Rmult_le_pos; [lra|apply Rlt_le, Rinv_0_lt_compat; lra]|].
        apply (Rmult_le_reg_r (IZR b - IZR a)); [lra|]. unfold Rdiv. rewrite Rmult_assoc, Rinv_l by lra. lra.
      + field. lra. }
  destruct Y as (y & Hy & ->). pose proof (positive_01_sound _ _ H y Hy) as X.
  pose proof (on_unit_eval p a (b - a) E y ltac:(lra)) as Q.
  apply (Rmult_lt_reg_l (IZR E ^ length p)); [now apply pow_lt|]. rewrite Rmult_0_r, <- Q. now apply Rmult_lt_0_compat.
Qed.
