(** * Matrix products in every numeric type and with rounding

    C134 and C135 of properties.jsonl: include/num/matrix.hpp. *)

From Coq Require Import Reals List Arith ZArith Lra Lia Psatz.
From Flocq Require Import Core BinarySingleNaN.
From Verif Require Import Base Matrix MatrixSpec MatrixProofs FixedPoint FixedSpec FixedProofs
  Ieee RoundingSpec RoundingProofs IeeeProofs PropsRounding.
Import ListNotations.

(** The sum of products, from the left, starting at zero: a specification that fixes the
    order of the operations. *)
Fixpoint left_sum {T} (S : scalar T) (n : nat) (f g : nat -> T) : outcome T :=
  match n with
  | O => Ok (sc_zero S)
  | Datatypes.S n' => s <- left_sum S n' f g ;; p <- sc_mul S (f n') (g n') ;; sc_add S s p
  end.

Section Any.
Context {T : Type} (S : scalar T).

Lemma left_sum_prefix n f g s : left_sum S n f g = Ok s ->
  forall k, (k <= n)%nat -> exists s', left_sum S k f g = Ok s'.
Proof.
  revert s. induction n as [|n IH]; intros s E k L.
  - assert (k = 0%nat) by lia. subst. eauto.
  - destruct (Nat.eq_dec k (Datatypes.S n)) as [->|N]; [eauto|].
    cbn [left_sum] in E. apply bind_inv in E as (s' & E & _). apply (IH s' E). lia.
Qed.

Lemma accumulate_any (body : nat -> matrix T -> outcome (matrix T)) (f g : nat -> T) idx n m v :
  (idx < length m)%nat -> cell m idx (sc_zero S) -> left_sum S n f g = Ok v ->
  (forall k r, (k < n)%nat -> length r = length m ->
     (forall j, j <> idx -> nth_error r j = nth_error m j) ->
     body k r = (p <- sc_mul S (f k) (g k) ;; o <- at_ r (Z.of_nat idx) ;;
                 s <- sc_add S o p ;; set_ r (Z.of_nat idx) s)) ->
  exists m', for_ n body m = Ok m' /\ length m' = length m /\ cell m' idx v /\
    (forall j, j <> idx -> nth_error m' j = nth_error m j).
Proof.
  intros Hi Hc Hv Hb.
  destruct (for_inv (fun k r => length r = length m /\
               (exists s, left_sum S k f g = Ok s /\ cell r idx s) /\
               (forall j, j <> idx -> nth_error r j = nth_error m j))
              body n m) as (m' & E & L & (s & Es & C) & O').
  - split; [reflexivity|]. split; [|auto]. exists (sc_zero S). auto.
  - intros k r Hk (L & (s & Es & C) & O'). rewrite Hb by assumption.
    destruct (left_sum_prefix n f g v Hv (Datatypes.S k) ltac:(lia)) as (s' & Es').
    pose proof Es' as Es2. cbn [left_sum] in Es2. rewrite Es, bind_Ok in Es2.
    apply bind_inv in Es2 as (p & Ep & Ea). rewrite Ep, bind_Ok.
    rewrite (cell_at _ _ _ C), bind_Ok, Ea, bind_Ok. rewrite set_nat by lia.
    eexists; split; [reflexivity|]. rewrite replace_nth_length.
    split; [auto|split].
    + exists s'. split; [exact Es'|]. apply cell_replace_same. lia.
    + intros j Hj. rewrite nth_error_replace_nth. destruct (Nat.eqb_spec idx j); [congruence|]. auto.
  - exists m'. split; [exact E|]. split; [exact L|]. split; [|exact O'].
    rewrite Hv in Es. assert (s = v) by congruence. now subst s.
Qed.

Lemma dot_any N a b f g v : repr 1 N a f -> repr N 1 b g ->
  left_sum S N (fun k => f 0%nat k) (fun k => g k 0%nat) = Ok v -> dot S N a b = Ok v.
Proof.
  intros Ha Hb Hv. unfold dot, size, rows, columns. rewrite Nat.mul_1_l.
  destruct (for_inv (fun i s => left_sum S i (fun k => f 0%nat k) (fun k => g k 0%nat) = Ok s)
    (fun i result =>
      x <- at1 N a (Z.of_nat i) ;; y <- at1 1 b (Z.of_nat i) ;;
      p <- sc_mul S x y ;; sc_add S result p) N (sc_zero S)) as (s & E & Es).
  - reflexivity.
  - intros i s Hi Es.
    pose proof (proj2 Ha 0%nat i ltac:(lia) Hi) as Xa. rewrite at2_nat in Xa. simpl in Xa.
    pose proof (proj2 Hb i 0%nat Hi ltac:(lia)) as Xb. rewrite at2_nat in Xb.
    rewrite Nat.mul_1_r, Nat.add_0_r in Xb.
    rewrite !at1_nat, Xa, Xb, !bind_Ok.
    destruct (left_sum_prefix N _ _ v Hv (Datatypes.S i) ltac:(lia)) as (s' & Es').
    exists s'. split; [|exact Es']. cbn [left_sum] in Es'. now rewrite Es, bind_Ok in Es'.
  - rewrite E. congruence.
Qed.

Lemma mul_mm_any N M A B f g h : (M <= N)%nat -> repr N M A f -> repr N M B g ->
  (forall r c, (r < N)%nat -> (c < M)%nat ->
     left_sum S M (fun k => f r k) (fun k => g k c) = Ok (h r c)) ->
  gives N M (mul_mm S N M A B) h.
Proof.
  intros HMN HA HB HH. unfold mul_mm, rows, columns.
  destruct (mat_fill_gives S N M (sc_zero S)) as (m0 & E0 & R0). rewrite E0. simpl.
  apply repr_cell in R0. destruct R0 as [L0 C0].
  destruct (for2_inv N M
    (fun row col r => length r = Nat.mul N M /\
       forall i j, (i < N)%nat -> (j < M)%nat ->
         cell r (Nat.add (Nat.mul i M) j)
           (if (Nat.ltb i row || (Nat.eqb i row && Nat.ltb j col))%bool
            then h i j else sc_zero S))
    (fun row col result =>
      for_ M (fun k result =>
        x <- at2 M A (Z.of_nat row) (Z.of_nat k) ;;
        y <- at2 M B (Z.of_nat k) (Z.of_nat col) ;;
        p <- sc_mul S x y ;;
        r <- at2 M result (Z.of_nat row) (Z.of_nat col) ;;
        s <- sc_add S r p ;;
        set2 M result (Z.of_nat row) (Z.of_nat col) s) result) m0)
    as (m & E & L & C).
  - split; auto. intros i j Hi Hj.
    destruct (Nat.ltb_spec i 0); [lia|]. destruct (Nat.ltb_spec j 0); [lia|].
    rewrite Bool.andb_false_r. simpl. auto.
  - intros row col r Hr Hc (L & C).
    pose proof (index_lt row col N M Hr Hc).
    destruct (accumulate_any
      (fun k result =>
        x <- at2 M A (Z.of_nat row) (Z.of_nat k) ;;
        y <- at2 M B (Z.of_nat k) (Z.of_nat col) ;;
        p <- sc_mul S x y ;;
        r <- at2 M result (Z.of_nat row) (Z.of_nat col) ;;
        s <- sc_add S r p ;;
        set2 M result (Z.of_nat row) (Z.of_nat col) s)
      (fun k => f row k) (fun k => g k col) (Nat.add (Nat.mul row M) col) M r (h row col))
      as (r' & E & L' & C' & O').
    + lia.
    + specialize (C row col Hr Hc).
      rewrite !Nat.ltb_irrefl, Bool.andb_false_r in C. exact C.
    + now apply HH.
    + intros k s Hk Ls Os.
      rewrite (proj2 HA row k Hr Hk), (proj2 HB k col ltac:(lia) Hc), !bind_Ok.
      rewrite at2_nat. destruct (sc_mul S (f row k) (g k col)); [|reflexivity]. rewrite !bind_Ok.
      destruct (at_ s _); [|reflexivity]. rewrite !bind_Ok.
      destruct (sc_add S _ _); [|reflexivity]. rewrite !bind_Ok. now rewrite set2_nat.
    + exists r'. split; [exact E|]. split; [lia|]. intros i j Hi Hj.
      destruct (Nat.eq_dec (Nat.add (Nat.mul i M) j) (Nat.add (Nat.mul row M) col))
        as [e|ne].
      * destruct (index_inj _ _ _ _ _ Hj Hc e) as [-> ->].
        rewrite Nat.eqb_refl, Nat.ltb_irrefl. simpl.
        destruct (Nat.leb_spec (Datatypes.S col) (Datatypes.S col)); [|lia].
        destruct (Nat.ltb_spec col (Datatypes.S col)); [|lia]. exact C'.
      * unfold cell. rewrite O' by assumption. fold (cell r (Nat.add (Nat.mul i M) j)).
        specialize (C i j Hi Hj). unfold cell in C.
        rewrite C. do 2 f_equal.
        destruct (Nat.ltb_spec i row), (Nat.eqb_spec i row),
                 (Nat.ltb_spec j col), (Nat.ltb_spec j (Datatypes.S col));
          simpl; try reflexivity; try lia.
  - intros row r Hrow (L & C). split; auto. intros i j Hi Hj.
    specialize (C i j Hi Hj).
    destruct (Nat.ltb_spec i row), (Nat.eqb_spec i row), (Nat.ltb_spec j M),
       (Nat.ltb_spec i (Datatypes.S row)), (Nat.eqb_spec i (Datatypes.S row)),
       (Nat.ltb_spec j 0); simpl in *; try lia; assumption.
  - exists m. split; [exact E|]. apply repr_cell. split; auto. intros i j Hi Hj.
    specialize (C i j Hi Hj). destruct (Nat.ltb_spec i N); [|lia]. exact C.
Qed.

Lemma mul_mv_any N M A x f g h : (M <= N)%nat -> repr N M A f -> repr N 1 x g ->
  (forall r, (r < N)%nat -> left_sum S M (fun k => f r k) (fun k => g k 0%nat) = Ok (h r)) ->
  gives N 1 (mul_mv S N M A x) (fun r _ => h r).
Proof.
  intros HMN HA Hx HH. unfold mul_mv, rows, columns.
  destruct (mat_fill_gives S N 1 (sc_zero S)) as (m0 & E0 & R0). rewrite E0. simpl.
  apply repr_cell in R0. destruct R0 as [L0 C0].
  destruct (for_inv
    (fun row r => length r = Nat.mul N 1 /\
       forall i, (i < N)%nat -> cell r i (if Nat.ltb i row then h i else sc_zero S))
    (fun row result =>
      for_ M (fun col result =>
        a <- at2 M A (Z.of_nat row) (Z.of_nat col) ;;
        y <- at1 1 x (Z.of_nat col) ;;
        p <- sc_mul S a y ;;
        r <- at1 1 result (Z.of_nat row) ;;
        s <- sc_add S r p ;;
        set1 1 result (Z.of_nat row) s) result) N m0)
    as (m & E & L & C).
  - split; auto. intros i Hi. specialize (C0 i 0%nat Hi ltac:(lia)).
    rewrite Nat.mul_1_r, Nat.add_0_r in C0. exact C0.
  - intros row r Hr (L & C).
    destruct (accumulate_any
      (fun col result =>
        a <- at2 M A (Z.of_nat row) (Z.of_nat col) ;;
        y <- at1 1 x (Z.of_nat col) ;;
        p <- sc_mul S a y ;;
        r <- at1 1 result (Z.of_nat row) ;;
        s <- sc_add S r p ;;
        set1 1 result (Z.of_nat row) s)
      (fun k => f row k) (fun k => g k 0%nat) row M r (h row)) as (r' & E & L' & C' & O').
    + lia.
    + specialize (C row Hr). rewrite Nat.ltb_irrefl in C. exact C.
    + now apply HH.
    + intros k s Hk Ls Os. rewrite (proj2 HA row k Hr Hk), bind_Ok.
      pose proof (proj2 Hx k 0%nat ltac:(lia) ltac:(lia)) as X. rewrite at2_nat in X.
      rewrite Nat.mul_1_r, Nat.add_0_r in X. rewrite at1_nat, X, bind_Ok.
      destruct (sc_mul S _ _); [|reflexivity]. rewrite !bind_Ok, at1_nat.
      destruct (at_ s _); [|reflexivity]. rewrite !bind_Ok.
      destruct (sc_add S _ _); [|reflexivity]. rewrite !bind_Ok. now rewrite set1_nat.
    + exists r'. split; [exact E|]. split; [lia|]. intros i Hi.
      destruct (Nat.eq_dec i row) as [->|ne].
      * destruct (Nat.ltb_spec row (Datatypes.S row)); [|lia]. exact C'.
      * unfold cell. rewrite O' by assumption. specialize (C i Hi). unfold cell in C.
        rewrite C. do 2 f_equal.
        destruct (Nat.ltb_spec i row), (Nat.ltb_spec i (Datatypes.S row));
          reflexivity || lia.
  - exists m. split; [exact E|]. apply repr_cell. split; auto. intros i j Hi Hj.
    specialize (C i Hi). destruct (Nat.ltb_spec i N); [|lia].
    replace (Nat.add (Nat.mul i 1) j) with i by lia. exact C.
Qed.


Lemma mul_vm_any N M x A g f h : (M <= N)%nat -> repr 1 N x g -> repr N M A f ->
  (forall c, (c < M)%nat -> left_sum S N (fun k => f k c) (fun k => g 0%nat k) = Ok (h c)) ->
  gives 1 N (mul_vm S N M x A) (fun _ c => if Nat.ltb c M then h c else sc_zero S).
Proof.
  intros HMN Hx HA HH. unfold mul_vm, rows, columns.
  destruct (mat_fill_gives S 1 N (sc_zero S)) as (m0 & E0 & R0). rewrite E0. simpl.
  apply repr_cell in R0. destruct R0 as [L0 C0].
  destruct (for2_inv N M
    (fun row col r => length r = Nat.mul 1 N /\
       forall j, (j < N)%nat ->
         if Nat.ltb j M
         then exists s, left_sum S (if Nat.ltb j col then Datatypes.S row else row)
                          (fun k => f k j) (fun k => g 0%nat k) = Ok s /\ cell r j s
         else cell r j (sc_zero S))
    (fun row col result =>
      a <- at2 M A (Z.of_nat row) (Z.of_nat col) ;;
      y <- at1 N x (Z.of_nat row) ;;
      p <- sc_mul S a y ;;
      r <- at1 N result (Z.of_nat col) ;;
      s <- sc_add S r p ;;
      set1 N result (Z.of_nat col) s) m0)
    as (m & E & L & C).
  - split; auto. intros j Hj. specialize (C0 0%nat j ltac:(lia) Hj). simpl in C0.
    destruct (Nat.ltb j M); [|exact C0].
    destruct (Nat.ltb_spec j 0); [lia|]. exists (sc_zero S). auto.
  - intros row col r Hr Hc (L & C).
    pose proof (proj2 Hx 0%nat row ltac:(lia) Hr) as Xx. rewrite at2_nat in Xx. simpl in Xx.
    rewrite (proj2 HA row col Hr Hc), !at1_nat, Xx, !bind_Ok.
    pose proof (C col ltac:(lia)) as X. rewrite Nat.ltb_irrefl in X.
    destruct (Nat.ltb_spec col M); [|lia]. destruct X as (s & Es & X).
    destruct (left_sum_prefix N _ _ _ (HH col Hc) (Datatypes.S row) ltac:(lia)) as (s' & Es').
    pose proof Es' as E2. cbn [left_sum] in E2. rewrite Es, bind_Ok in E2.
    apply bind_inv in E2 as (p & Ep & Ea). rewrite Ep, bind_Ok, (cell_at _ _ _ X), bind_Ok, Ea, bind_Ok.
    rewrite set1_nat, set_nat by lia.
    eexists; split; [reflexivity|]. rewrite replace_nth_length. split; auto.
    intros j Hj. destruct (Nat.eq_dec j col) as [->|ne].
    + destruct (Nat.ltb_spec col M); [|lia].
      destruct (Nat.ltb_spec col (Datatypes.S col)); [|lia].
      exists s'. split; [exact Es'|]. apply cell_replace_same. lia.
    + specialize (C j Hj). destruct (Nat.ltb_spec j M).
      * destruct C as (t & Et & Ct). exists t. split; [|apply cell_replace_other; auto].
        rewrite <- Et. destruct (Nat.ltb_spec j col), (Nat.ltb_spec j (Datatypes.S col)); reflexivity || lia.
      * apply cell_replace_other; auto.
  - intros row r Hrow (L & C). split; auto. intros j Hj. specialize (C j Hj).
    destruct (Nat.ltb_spec j M); [|exact C].
    destruct (Nat.ltb_spec j 0); [lia|]. exact C.
  - exists m. split; [exact E|]. apply repr_cell. split; auto. intros i j Hi Hj.
    specialize (C j Hj). replace (Nat.add (Nat.mul i N) j) with j by lia.
    destruct (Nat.ltb_spec j M); [|exact C].
    destruct (Nat.ltb_spec j 0); [lia|]. destruct C as (s & Es & C).
    rewrite HH in Es by assumption. assert (h j = s) by congruence. now subst s.
Qed.

End Any.

(** C134. In every numeric type each entry of a product is the sum of the products of a row
    and a column, taken from the left; it is defined if these sums are. *)
Theorem C134_products_every_type : forall {T} (S : scalar T) N M A B x y u f g p q r hm hv hu d,
  (M <= N)%nat -> repr N M A f -> repr N M B g -> repr N 1 x p -> repr 1 N y q -> repr N 1 u r ->
  (forall i j, (i < N)%nat -> (j < M)%nat -> left_sum S M (fun k => f i k) (fun k => g k j) = Ok (hm i j)) ->
  (forall i, (i < N)%nat -> left_sum S M (fun k => f i k) (fun k => p k 0%nat) = Ok (hv i)) ->
  (forall j, (j < M)%nat -> left_sum S N (fun k => f k j) (fun k => q 0%nat k) = Ok (hu j)) ->
  left_sum S N (fun k => q 0%nat k) (fun k => r k 0%nat) = Ok d ->
  gives N M (mul_mm S N M A B) hm /\
  gives N 1 (mul_mv S N M A x) (fun i _ => hv i) /\
  gives 1 N (mul_vm S N M y A) (fun _ j => if Nat.ltb j M then hu j else sc_zero S) /\
  dot S N y u = Ok d.
Proof.
  intros T S N M A B x y u f g p q r hm hv hu d L HA HB Hx Hy Hu Hm Hv Hh Hd. split; [|split; [|split]].
  - eapply mul_mm_any; eassumption.
  - eapply mul_mv_any; eassumption.
  - eapply mul_vm_any; eassumption.
  - eapply dot_any; eassumption.
Qed.
Print Assumptions C134_products_every_type.

Local Open Scope R_scope.

(** Exact sum of [n] terms. *)
Fixpoint rsum (n : nat) (t : nat -> R) : R :=
  match n with O => 0 | Datatypes.S n' => rsum n' t + t n' end.

Lemma rsum_abs n t : Rabs (rsum n t) <= rsum n (fun k => Rabs (t k)).
Proof.
  induction n as [|n IH]; cbn [rsum]; [rewrite Rabs_R0; lra|].
  eapply Rle_trans; [apply Rabs_triang|]. lra.
Qed.

Lemma rsum_pos n t : 0 <= rsum n (fun k => Rabs (t k)).
Proof. induction n as [|n IH]; cbn [rsum]; [lra|]. pose proof (Rabs_pos (t n)). lra. Qed.

(** Error of a sum of [n] products whose absolute values add up to [A]. *)
Definition product_error (eps eta : R) (n : nat) (A : R) : R :=
  ((1 + eps) ^ (n + 1) - 1) * A + INR n * (1 + eps) ^ n * eta.

Lemma product_error_mono eps eta n A A' : 0 <= eps -> A <= A' -> product_error eps eta n A <= product_error eps eta n A'.
Proof.
  intros He HA. unfold product_error. apply Rplus_le_compat_r, Rmult_le_compat_l; [|exact HA].
  pose proof (pow_R1_Rle (1 + eps) (n + 1) ltac:(lra)). lra.
Qed.

Section Sum.
Context {T : Type} (S : scalar T) (val : T -> R) (ok : T -> Prop) (eps eta M : R)
  (RD : rounding S val ok eps eta M).

Lemma left_sum_rounded n (f g : nat -> T) :
  (forall k, (k < n)%nat -> ok (f k) /\ ok (g k)) ->
  let A := rsum n (fun k => Rabs (val (f k) * val (g k))) in
  A + product_error eps eta n A <= M ->
  exists s, left_sum S n f g = Ok s /\ ok s /\
    Rabs (val s - rsum n (fun k => val (f k) * val (g k))) <= product_error eps eta n A.
Proof.
  pose proof (rd_eps _ _ _ _ _ _ RD) as He. pose proof (rd_eta _ _ _ _ _ _ RD) as Hn.
  induction n as [|n IH]; intros Hok A HM.
  - exists (sc_zero S). destruct (rd_zero _ _ _ _ _ _ RD) as [Z0 Z1]. split; [reflexivity|]. split; [exact Z0|].
    cbn [rsum] in *. subst A. unfold product_error. rewrite Z1. cbn. rewrite Rminus_0_r, Rabs_R0. lra.
  - set (A' := rsum n (fun k => Rabs (val (f k) * val (g k)))) in *.
    set (c := Rabs (val (f n) * val (g n))) in *.
    assert (EA : A = A' + c) by reflexivity. clearbody A.
    assert (PA : 0 <= A') by apply rsum_pos. assert (Pc : 0 <= c) by apply Rabs_pos.
    set (q := (1 + eps) ^ n) in *.
    assert (Pq : 1 <= q) by (apply pow_R1_Rle; lra).
    assert (PI : 0 <= INR n) by apply pos_INR.
    assert (Q1 : product_error eps eta n A' = (q * (1 + eps) - 1) * A' + INR n * q * eta)
      by (unfold product_error, q; rewrite pow_add; ring).
    assert (Q2 : product_error eps eta (Datatypes.S n) A
              = (q * (1 + eps) * (1 + eps) - 1) * (A' + c) + (INR n + 1) * (q * (1 + eps)) * eta).
    { unfold product_error, q. rewrite S_INR. replace (Datatypes.S n + 1)%nat with (n + 2)%nat by lia.
      rewrite pow_add. cbn [pow]. rewrite EA. ring. }
    assert (B1 : 0 <= q * eps) by (apply Rmult_le_pos; lra).
    assert (B2 : 0 <= INR n * q * eta) by (apply Rmult_le_pos; [apply Rmult_le_pos|]; lra).
    assert (B3 : 0 <= q * eps * eps) by (apply Rmult_le_pos; lra).
    (* the recurrence *)
    set (E1 := product_error eps eta n A') in *.
    assert (Rec : (1 + eps) * (E1 + (eps * c + eta)) + eps * (A' + c) <= product_error eps eta (Datatypes.S n) A).
    { rewrite Q2, Q1.
      assert (X1 : 0 <= (q - 1) * c) by (apply Rmult_le_pos; lra).
      assert (X2 : 0 <= (q - 1) * c * eps) by (apply Rmult_le_pos; lra).
      assert (X3 : 0 <= (q - 1) * c * eps * eps) by (apply Rmult_le_pos; lra).
      assert (X4 : 0 <= (q - 1) * eta) by (apply Rmult_le_pos; lra).
      assert (X5 : 0 <= (q - 1) * eta * eps) by (apply Rmult_le_pos; lra).
      nra. }
    assert (PE : 0 <= E1). { rewrite Q1. pose proof (Rmult_le_pos (q * (1 + eps) - 1) A' ltac:(lra) PA). lra. }
    assert (Pec : 0 <= eps * c + eta) by (pose proof (Rmult_le_pos eps c He Pc); lra).
    assert (PeA : 0 <= eps * (A' + c)) by (apply Rmult_le_pos; lra).
    assert (Pz : 0 <= eps * (E1 + (eps * c + eta))) by (apply Rmult_le_pos; lra).
    destruct IH as (s & Es & Os & Bs).
    { intros k Hk. apply Hok. lia. }
    { fold A' E1. lra. }
    fold A' E1 in Bs.
    destruct (Hok n ltac:(lia)) as [Of Og].
    destruct (rd_mul _ _ _ _ _ _ RD (f n) (g n) Of Og) as (p & Ep & Op & Bp). { fold c. lra. }
    fold c in Bp.
    pose proof (rsum_abs n (fun k => val (f k) * val (g k))) as Bt. cbn beta in Bt. fold A' in Bt.
    set (t := rsum n (fun k => val (f k) * val (g k))) in *.
    assert (Bc : Rabs (val (f n) * val (g n)) <= c) by (unfold c; lra).
    set (v := val (f n) * val (g n)) in *.
    assert (ER : rsum (Datatypes.S n) (fun k => val (f k) * val (g k)) = t + v) by reflexivity.
    clearbody v t.
    apply Rabs_ge2 in Bs, Bp, Bt, Bc.
    assert (Bsum : Rabs (val s + val p) <= A' + c + E1 + (eps * c + eta)) by (apply Rabs_le; lra).
    destruct (rd_add _ _ _ _ _ _ RD s p Os Op) as (r & Er & Or & Br). { lra. }
    exists r. cbn [left_sum]. rewrite Es, bind_Ok, Ep, bind_Ok. split; [exact Er|]. split; [exact Or|].
    rewrite ER.
    pose proof (Rmult_le_compat_l eps _ _ He Bsum) as Bm.
    assert (Br2 : Rabs (val r - (val s + val p)) <= eps * (A' + c + E1 + (eps * c + eta))) by lra.
    apply Rabs_ge2 in Br2. apply Rabs_le. lra.
Qed.
End Sum.

(** C135. Products of matrices and vectors in rounding arithmetic: if there is room for the
    sums of the absolute values and the error, products are defined, and each entry differs
    from the exact one by at most [product_error]. *)
Theorem C135_products_rounding : forall {T} (S : scalar T) val ok eps eta Max,
  rounding S val ok eps eta Max ->
  forall N M A B x f g p (a : R), (M <= N)%nat -> repr N M A f -> repr N M B g -> repr N 1 x p ->
  (forall i j, (i < N)%nat -> (j < M)%nat -> ok (f i j) /\ ok (g i j) /\ ok (p i 0%nat)) ->
  (forall i j, (i < N)%nat -> (j < M)%nat -> rsum M (fun k => Rabs (val (f i k) * val (g k j))) <= a) ->
  (forall i, (i < N)%nat -> rsum M (fun k => Rabs (val (f i k) * val (p k 0%nat))) <= a) ->
  a + product_error eps eta M a <= Max ->
  exists hm hv, gives N M (mul_mm S N M A B) hm /\ gives N 1 (mul_mv S N M A x) (fun i _ => hv i) /\
    (forall i j, (i < N)%nat -> (j < M)%nat -> ok (hm i j) /\
       Rabs (val (hm i j) - rsum M (fun k => val (f i k) * val (g k j))) <= product_error eps eta M a) /\
    (forall i, (i < N)%nat -> ok (hv i) /\
       Rabs (val (hv i) - rsum M (fun k => val (f i k) * val (p k 0%nat))) <= product_error eps eta M a).
Proof.
  intros T S val ok eps eta Max RD N M A B x f g p a L HA HB Hx Hok Hm Hv Ha.
  pose proof (rd_eps _ _ _ _ _ _ RD) as He.
  pose (get := fun o : outcome T => match o with Ok v => v | Err _ => sc_zero S end).
  pose (hm := fun i j => get (left_sum S M (fun k => f i k) (fun k => g k j))).
  pose (hv := fun i => get (left_sum S M (fun k => f i k) (fun k => p k 0%nat))).
  assert (Gm : forall i j, (i < N)%nat -> (j < M)%nat ->
    left_sum S M (fun k => f i k) (fun k => g k j) = Ok (hm i j) /\ ok (hm i j) /\
    Rabs (val (hm i j) - rsum M (fun k => val (f i k) * val (g k j))) <= product_error eps eta M a).
  { intros i j Hi Hj.
    pose proof (product_error_mono eps eta M _ _ He (Hm i j Hi Hj)) as Mo. specialize (Hm i j Hi Hj).
    destruct (left_sum_rounded S val ok eps eta Max RD M (fun k => f i k) (fun k => g k j)) as (s & Es & Os & Bs).
    - intros k Hk. split; [apply (Hok i k Hi Hk)|apply (Hok k j); lia].
    - cbn beta. lra.
    - cbn beta in Bs. unfold hm, get. rewrite Es. split; [reflexivity|]. split; [exact Os|]. lra. }
  assert (Gv : forall i, (i < N)%nat ->
    left_sum S M (fun k => f i k) (fun k => p k 0%nat) = Ok (hv i) /\ ok (hv i) /\
    Rabs (val (hv i) - rsum M (fun k => val (f i k) * val (p k 0%nat))) <= product_error eps eta M a).
  { intros i Hi.
    pose proof (product_error_mono eps eta M _ _ He (Hv i Hi)) as Mo. specialize (Hv i Hi).
    destruct (left_sum_rounded S val ok eps eta Max RD M (fun k => f i k) (fun k => p k 0%nat)) as (s & Es & Os & Bs).
    - intros k Hk. split; [apply (Hok i k Hi Hk)|apply (Hok k k); lia].
    - cbn beta. lra.
    - cbn beta in Bs. unfold hv, get. rewrite Es. split; [reflexivity|]. split; [exact Os|]. lra. }
  exists hm, hv. split; [|split; [|split]].
  - apply (mul_mm_any S N M A B f g hm L HA HB). intros i j Hi Hj. apply (Gm i j Hi Hj).
  - apply (mul_mv_any S N M A x f p hv L HA Hx). intros i Hi. apply (Gv i Hi).
  - intros i j Hi Hj. split; apply (Gm i j Hi Hj).
  - intros i Hi. split; apply (Gv i Hi).
Qed.
Print Assumptions C135_products_rounding.

(** In fixed point a product of matrices with [M] columns is off by at most [M] steps. *)
Theorem C135_products_fixed : forall c, supported c ->
  forall N M A B x f g p (a : R), (M <= N)%nat -> repr N M A f -> repr N M B g -> repr N 1 x p ->
  (forall i j, (i < N)%nat -> (j < M)%nat -> in_range c (f i j) /\ in_range c (g i j) /\ in_range c (p i 0%nat)) ->
  (forall i j, (i < N)%nat -> (j < M)%nat -> rsum M (fun k => Rabs (value c (f i k) * value c (g k j))) <= a) ->
  (forall i, (i < N)%nat -> rsum M (fun k => Rabs (value c (f i k) * value c (p k 0%nat))) <= a) ->
  a + INR M * FixedSpec.step c <= value c (fx_max c) ->
  exists hm hv, gives N M (mul_mm (fx_scalar c) N M A B) hm /\
    gives N 1 (mul_mv (fx_scalar c) N M A x) (fun i _ => hv i) /\
    (forall i j, (i < N)%nat -> (j < M)%nat -> in_range c (hm i j) /\
       Rabs (value c (hm i j) - rsum M (fun k => value c (f i k) * value c (g k j))) <= INR M * FixedSpec.step c) /\
    (forall i, (i < N)%nat -> in_range c (hv i) /\
       Rabs (value c (hv i) - rsum M (fun k => value c (f i k) * value c (p k 0%nat))) <= INR M * FixedSpec.step c).
Proof.
  intros c Sc N M A B x f g p a L HA HB Hx Hok Hm Hv Ha.
  assert (E : product_error 0 (FixedSpec.step c) M a = INR M * FixedSpec.step c).
  { unfold product_error. rewrite Rplus_0_r, !pow1. ring. }
  rewrite <- E in *.
  exact (C135_products_rounding _ _ _ _ _ _ (C126_fixed_point c Sc) N M A B x f g p a L HA HB Hx Hok Hm Hv Ha).
Qed.
Print Assumptions C135_products_fixed.

(** In [double] the relative error, measured by the sum of the absolute values, is at most
    2 (M + 1) 2^-53, up to underflow, for up to 2^20 columns. *)
Theorem C135_products_double :
  forall N M A B x (f g p : nat -> nat -> double) (a : R), (M <= N)%nat -> (INR M <= 2 ^ 20) ->
  repr N M A f -> repr N M B g -> repr N 1 x p ->
  (forall i j, (i < N)%nat -> (j < M)%nat ->
     is_finite (f i j) = true /\ is_finite (g i j) = true /\ is_finite (p i 0%nat) = true) ->
  (forall i j, (i < N)%nat -> (j < M)%nat -> rsum M (fun k => Rabs (B2R (f i k) * B2R (g k j))) <= a) ->
  (forall i, (i < N)%nat -> rsum M (fun k => Rabs (B2R (f i k) * B2R (p k 0%nat))) <= a) ->
  0 <= a <= powerRZ 2 1023 ->
  let err := 2 * (INR M + 1) * powerRZ 2 (-53) * a + 2 * INR M * powerRZ 2 (-1075) in
  exists hm hv, gives N M (mul_mm double_scalar N M A B) hm /\
    gives N 1 (mul_mv double_scalar N M A x) (fun i _ => hv i) /\
    (forall i j, (i < N)%nat -> (j < M)%nat -> is_finite (hm i j) = true /\
       Rabs (B2R (hm i j) - rsum M (fun k => B2R (f i k) * B2R (g k j))) <= err) /\
    (forall i, (i < N)%nat -> is_finite (hv i) = true /\
       Rabs (B2R (hv i) - rsum M (fun k => B2R (f i k) * B2R (p k 0%nat))) <= err).
Proof.
  intros N M A B x f g p a L LM HA HB Hx Hok Hm Hv Ha err.
  set (e := powerRZ 2 (-53)) in *. set (n := powerRZ 2 (-1075)) in *.
  assert (He : 0 < e) by (apply powerRZ_lt; lra).
  assert (Hn : 0 < n) by (apply powerRZ_lt; lra).
  assert (PM : 0 <= INR M) by apply pos_INR.
  assert (E53 : e * 2 ^ 53 = 1).
  { unfold e. rewrite pow_powerRZ, <- powerRZ_add by lra. reflexivity. }
  (* Bernoulli the other way round: (1+e)^k <= 1 + 2 k e for k e <= 1/2 *)
  assert (Bn : forall k, INR k * e <= / 2 -> (1 + e) ^ k <= 1 + 2 * (INR k * e)).
  { induction k as [|k IH]; intros Hk; [cbn; lra|]. rewrite S_INR in *. cbn [pow].
    assert (0 <= INR k * e) by (apply Rmult_le_pos; [apply pos_INR|lra]).
    specialize (IH ltac:(lra)). set (y := (1 + e) ^ k) in *. nra. }
  assert (Small : (INR M + 1) * e <= / 2 ^ 32).
  { apply Rmult_le_reg_r with (2 ^ 53); [apply pow_lt; lra|]. rewrite Rmult_assoc, E53. 
    replace (/ 2 ^ 32 * 2 ^ 53) with (2 ^ 21) by (field_simplify; lra). lra. }
  assert (T32 : / 2 ^ 32 <= / 8) by lra.
  assert (P1 : (1 + e) ^ (M + 1) <= 1 + 2 * ((INR M + 1) * e)).
  { pose proof (Bn (M + 1)%nat) as X. rewrite plus_INR in X. cbn [INR] in X. apply X. lra. }
  assert (P2 : (1 + e) ^ M <= 2).
  { pose proof (Bn M) as X. assert (INR M * e <= (INR M + 1) * e) by lra. lra. }
  assert (Eb : product_error e n M a <= err).
  { unfold product_error, err.
    pose proof (Rmult_le_compat_r a _ _ (proj1 Ha) P1) as X1.
    pose proof (Rmult_le_compat_l (INR M * n) _ _ (Rmult_le_pos _ _ PM (Rlt_le _ _ Hn)) P2) as X2. lra. }
  assert (Room : a + product_error e n M a <= (powerRZ 2 53 - 1) * powerRZ 2 971).
  { apply Rle_trans with (a + err); [lra|].
    assert (K1 : (INR M + 1) * e * a <= / 8 * powerRZ 2 1023).
    { apply Rmult_le_compat; try lra. apply Rmult_le_pos; lra. }
    assert (K2 : INR M * n <= 2 ^ 20 * n) by (apply Rmult_le_compat_r; lra).
    assert (K3 : 2 ^ 20 * n <= 1).
    { unfold n. rewrite pow_powerRZ, <- powerRZ_add by lra. change 1 with (powerRZ 2 0).
      rewrite <- !(bpow_powerRZ radix2). apply bpow_le. cbn. lia. }
    replace (powerRZ 2 1023) with (2 ^ 52 * powerRZ 2 971) in *
      by (rewrite pow_powerRZ, <- powerRZ_add by lra; reflexivity).
    replace (powerRZ 2 53) with (2 ^ 53) by (rewrite pow_powerRZ; reflexivity).
    assert (K4 : 1 <= powerRZ 2 971).
    { change 1 with (powerRZ 2 0). rewrite <- !(bpow_powerRZ radix2). apply bpow_le. lia. }
    unfold err. lra. }
  destruct (C135_products_rounding _ _ _ _ _ _ C126_double N M A B x f g p a L HA HB Hx Hok Hm Hv Room)
    as (hm & hv & G1 & G2 & G3 & G4). fold e n in G3, G4.
  exists hm, hv. split; [exact G1|]. split; [exact G2|]. split.
  - intros i j Hi Hj. destruct (G3 i j Hi Hj) as [F X]. split; [exact F|]. lra.
  - intros i Hi. destruct (G4 i Hi) as [F X]. split; [exact F|]. lra.
Qed.
Print Assumptions C135_products_double.

(** The order matters: in [double] the scalar product of (2^53, 1, -2^53) and (1, 1, 1),
    exactly 1, is 0. *)
Example C134_case :
  let two53 := ieee_of_Z 53 1024 (2 ^ 53) in let one := ieee_of_Z 53 1024 1 in
  let zero := ieee_of_Z 53 1024 0 in
  exists d, dot double_scalar 3 [Some two53; Some one; Some (Bopp two53)] [Some one; Some one; Some one] = Ok d /\
    B2SF d = B2SF zero.
Proof.
  intros two53 one zero.
  assert (C : match left_sum double_scalar 3 (fun k => nth k [two53; one; Bopp two53] zero) (fun k => one) with
              | Ok d => B2SF d = B2SF zero | Err _ => False end) by (vm_compute; reflexivity).
  destruct (left_sum double_scalar 3 (fun k => nth k [two53; one; Bopp two53] zero) (fun k => one)) as [d|] eqn:E;
    [|contradiction].
  exists d. split; [|exact C].
  apply (dot_any double_scalar 3 _ _ (fun _ k => nth k [two53; one; Bopp two53] zero) (fun k _ => one)); [| |exact E].
  - split; [reflexivity|]. intros r k Hr Hk. assert (r = 0%nat) by lia. subst r.
    destruct k as [|[|[|k]]]; try lia; reflexivity.
  - split; [reflexivity|]. intros r k Hr Hk. assert (k = 0%nat) by lia. subst k.
    destruct r as [|[|[|r]]]; try lia; reflexivity.
Qed.

(** A 16-bit format with 8 fraction bits: the product of any matrix with entries up to 4 and
    any other is off by at most 2/256. *)
Example C135_case :
  let c := {| fx_w := 16; fx_ib := 16; fx_F := 8; fx_cpp20 := true |} in
  forall a b d e a' b' d' e',
  Forall (fun z => (-1024 <= z <= 1024)%Z) [a; b; d; e; a'; b'; d'; e'] ->
  exists m00 m01 m10 m11,
    mul_mm (fx_scalar c) 2 2 [Some a; Some b; Some d; Some e] [Some a'; Some b'; Some d'; Some e'] =
      Ok [Some m00; Some m01; Some m10; Some m11] /\
    Rabs (value c m00 - (value c a * value c a' + value c b * value c d')) <= 2 / 256.
Proof.
  intros c a b d e a' b' d' e' FA. assert (Sc : supported c) by (unfold supported, c; cbn; lia).
  pose (f := fun i j : nat => nth j (nth i [[a; b]; [d; e]] []) 0%Z).
  pose (g := fun i j : nat => nth j (nth i [[a'; b']; [d'; e']] []) 0%Z).
  assert (V : forall z, (-1024 <= z <= 1024)%Z -> Rabs (value c z) <= 4).
  { intros z [L U]. apply IZR_le in L, U. change (value c z) with (IZR z / 256). apply Rabs_le. lra. }
  assert (B2 : forall u v, (-1024 <= u <= 1024)%Z -> (-1024 <= v <= 1024)%Z -> Rabs (value c u * value c v) <= 16).
  { intros u v Hu Hv. pose proof (Rabs_mul_le _ _ 4 4 (V u Hu) (V v Hv)). lra. }
  assert (RF : forall i j, (i < 2)%nat -> (j < 2)%nat -> (-1024 <= f i j <= 1024)%Z /\ (-1024 <= g i j <= 1024)%Z).
  { repeat match goal with H : Forall _ (_ :: _) |- _ => inversion H; clear H; subst end.
    intros [|[|i]] [|[|j]] Hi Hj; try (exfalso; lia); cbn; auto. }
  destruct (C135_products_fixed c Sc 2 2 [Some a; Some b; Some d; Some e] [Some a'; Some b'; Some d'; Some e']
    [Some a; Some b] f g (fun i _ => f 0%nat i) 32) as (hm & hv & G & _ & Er & _).
  - lia.
  - split; [reflexivity|]. intros [|[|i]] [|[|j]] Hi Hj; try (exfalso; lia); reflexivity.
  - split; [reflexivity|]. intros [|[|i]] [|[|j]] Hi Hj; try (exfalso; lia); reflexivity.
  - split; [reflexivity|]. intros [|[|i]] [|j] Hi Hj; try (exfalso; lia); reflexivity.
  - intros i j Hi Hj. destruct (RF i j Hi Hj) as [P Q]. destruct (RF 0%nat i ltac:(lia) Hi) as [R _].
    unfold in_range. cbn in *. lia.
  - intros i j Hi Hj. cbn [rsum].
    pose proof (B2 _ _ (proj1 (RF i 0%nat Hi ltac:(lia))) (proj2 (RF 0%nat j ltac:(lia) Hj))).
    pose proof (B2 _ _ (proj1 (RF i 1%nat Hi ltac:(lia))) (proj2 (RF 1%nat j ltac:(lia) Hj))). lra.
  - intros i Hi. cbn [rsum].
    pose proof (B2 _ _ (proj1 (RF i 0%nat Hi ltac:(lia))) (proj1 (RF 0%nat 0%nat ltac:(lia) ltac:(lia)))).
    pose proof (B2 _ _ (proj1 (RF i 1%nat Hi ltac:(lia))) (proj1 (RF 0%nat 1%nat ltac:(lia) ltac:(lia)))). lra.
  - change (value c (fx_max c)) with (32767 / 256). change (FixedSpec.step c) with (1 / 256). cbn [INR]. lra.
  - destruct G as (m & E & RM). apply repr_cell in RM as [L C].
    exists (hm 0%nat 0%nat), (hm 0%nat 1%nat), (hm 1%nat 0%nat), (hm 1%nat 1%nat). split.
    + rewrite E. f_equal.
      pose proof (C 0%nat 0%nat ltac:(lia) ltac:(lia)) as C1. pose proof (C 0%nat 1%nat ltac:(lia) ltac:(lia)) as C2.
      pose proof (C 1%nat 0%nat ltac:(lia) ltac:(lia)) as C3. pose proof (C 1%nat 1%nat ltac:(lia) ltac:(lia)) as C4.
      unfold cell in C1, C2, C3, C4.
      destruct m as [|w0 [|w1 [|w2 [|w3 [|w4 m]]]]]; try discriminate L. cbn in C1, C2, C3, C4. congruence.
    + destruct (Er 0%nat 0%nat ltac:(lia) ltac:(lia)) as [_ X]. cbn [rsum] in X.
      cbn [INR] in X. change (FixedSpec.step c) with (1 / 256) in X.
      replace (value c a * value c a' + value c b * value c d')
        with (0 + value c (f 0%nat 0%nat) * value c (g 0%nat 0%nat) + value c (f 0%nat 1%nat) * value c (g 1%nat 0%nat))
        by (cbn; ring).
      replace (2 / 256) with ((1 + 1) * (1 / 256)) by lra. exact X.
Qed.
