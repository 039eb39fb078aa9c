(** * Proofs about the matrix model *)

From Coq Require Import List ZArith Lia Ring.
From Verif Require Import Base Matrix MatrixSpec.
Import ListNotations.

(** ** Cells *)

Lemma replace_nth_length {T} (m : matrix T) : forall i v,
  length (replace_nth m i v) = length m.
Proof. induction m; destruct i; simpl; intros; auto. Qed.

Lemma nth_error_replace_nth {T} (m : matrix T) : forall i j v,
  nth_error (replace_nth m i v) j =
  if Nat.eqb i j then (if Nat.ltb i (length m) then Some v else nth_error m j)
  else nth_error m j.
Proof.
  induction m; intros i j v.
  - simpl. destruct j; destruct (Nat.eqb i _); reflexivity.
  - destruct i, j; simpl; try reflexivity.
    rewrite IHm. reflexivity.
Qed.

Lemma at_nat {T} (m : matrix T) i :
  at_ m (Z.of_nat i) =
  match nth_error m i with
  | None => Err OutOfBounds | Some None => Err Indeterminate | Some (Some v) => Ok v
  end.
Proof.
  unfold at_. destruct (Z.ltb_spec (Z.of_nat i) 0); [lia|]. now rewrite Nat2Z.id.
Qed.

Lemma set_nat {T} (m : matrix T) i v :
  i < length m -> set_ m (Z.of_nat i) v = Ok (replace_nth m i (Some v)).
Proof.
  intros. unfold set_. destruct (Z.ltb_spec (Z.of_nat i) 0); [lia|].
  rewrite Nat2Z.id. destruct (Nat.ltb_spec i (length m)); [reflexivity|lia].
Qed.

Lemma idx_nat r c M : (Z.of_nat r * Z.of_nat M + Z.of_nat c)%Z = Z.of_nat (r * M + c).
Proof. lia. Qed.

Lemma at2_nat {T} M (m : matrix T) r c :
  at2 M m (Z.of_nat r) (Z.of_nat c) = at_ m (Z.of_nat (r * M + c)).
Proof. unfold at2. now rewrite idx_nat. Qed.

Lemma set2_nat {T} M (m : matrix T) r c v :
  set2 M m (Z.of_nat r) (Z.of_nat c) v = set_ m (Z.of_nat (r * M + c)) v.
Proof. unfold set2. now rewrite idx_nat. Qed.

Lemma at1_nat {T} M (m : matrix T) i :
  at1 M m (Z.of_nat i) = at_ m (Z.of_nat i).
Proof. unfold at1, at2. f_equal. Qed.

Lemma set1_nat {T} M (m : matrix T) i v :
  set1 M m (Z.of_nat i) v = set_ m (Z.of_nat i) v.
Proof. unfold set1, set2. f_equal. Qed.

(** Cell view: the [i]-th cell holds [v]. *)
Definition cell {T} (m : matrix T) (i : nat) (v : T) : Prop :=
  nth_error m i = Some (Some v).

Lemma cell_at {T} (m : matrix T) i v : cell m i v -> at_ m (Z.of_nat i) = Ok v.
Proof. unfold cell. intros H. now rewrite at_nat, H. Qed.

Lemma at_cell {T} (m : matrix T) i v : at_ m (Z.of_nat i) = Ok v -> cell m i v.
Proof.
  rewrite at_nat. unfold cell.
  destruct (nth_error m i) as [[?|]|]; congruence.
Qed.

Lemma cell_replace_same {T} (m : matrix T) i v :
  i < length m -> cell (replace_nth m i (Some v)) i v.
Proof.
  intros. unfold cell. rewrite nth_error_replace_nth, Nat.eqb_refl.
  destruct (Nat.ltb_spec i (length m)); [reflexivity|lia].
Qed.

Lemma cell_replace_other {T} (m : matrix T) i j v w :
  i <> j -> cell m j w -> cell (replace_nth m i (Some v)) j w.
Proof.
  intros. unfold cell in *. rewrite nth_error_replace_nth.
  destruct (Nat.eqb_spec i j); [congruence|assumption].
Qed.

Lemma index_lt r c N M : r < N -> c < M -> r * M + c < N * M.
Proof. intros. nia. Qed.

Lemma index_inj r c r' c' M :
  c < M -> c' < M -> r * M + c = r' * M + c' -> r = r' /\ c = c'.
Proof.
  intros H H' E.
  assert (r = r').
  { destruct (Nat.lt_trichotomy r r') as [L | [L | L]]; [nia | assumption | nia]. }
  subst; lia.
Qed.

Lemma repr_cell {T} N M (m : matrix T) f :
  repr N M m f <->
  length m = N * M /\ forall r c, r < N -> c < M -> cell m (r * M + c) (f r c).
Proof.
  split; intros [HL H]; split; auto; intros r c Hr Hc; specialize (H r c Hr Hc).
  - rewrite at2_nat in H. now apply at_cell.
  - rewrite at2_nat. now apply cell_at.
Qed.

(** Linear indexing of a represented matrix. *)
Lemma repr_lin {T} N M (m : matrix T) f i :
  repr N M m f -> i < N * M -> at1 M m (Z.of_nat i) = Ok (f (i / M) (i mod M)).
Proof.
  intros [HL H] Hi. assert (M <> 0) by nia.
  assert (Hd : i / M < N) by (apply Nat.div_lt_upper_bound; lia).
  assert (Hm : i mod M < M) by (apply Nat.mod_upper_bound; lia).
  rewrite at1_nat, <- (H _ _ Hd Hm), at2_nat. f_equal. f_equal.
  rewrite (Nat.div_mod i M) at 1 by assumption. lia.
Qed.

(** ** Uniqueness: [repr] determines the storage. *)
Lemma repr_unique {T} N M (m m' : matrix T) f f' :
  repr N M m f -> repr N M m' f' ->
  (forall r c, r < N -> c < M -> f r c = f' r c) -> m = m'.
Proof.
  intros H H' E.
  apply repr_cell in H. apply repr_cell in H'.
  destruct H as [HL H], H' as [HL' H'].
  assert (X : forall i, nth_error m i = nth_error m' i).
  { intros i. destruct (Nat.lt_ge_cases i (N * M)) as [Hi|Hi].
    - assert (M <> 0) by nia.
      assert (Hd : i / M < N) by (apply Nat.div_lt_upper_bound; lia).
      assert (Hm : i mod M < M) by (apply Nat.mod_upper_bound; lia).
      assert (Ei : i = i / M * M + i mod M)
        by (rewrite (Nat.div_mod i M) at 1 by assumption; lia).
      rewrite Ei. unfold cell in *. rewrite H, H', E by assumption. reflexivity.
    - rewrite (proj2 (nth_error_None m i)) by lia.
      now rewrite (proj2 (nth_error_None m' i)) by lia. }
  clear - X. revert m' X. induction m as [|a m IH]; intros [|b m'] X; auto.
  - specialize (X 0); discriminate.
  - specialize (X 0); discriminate.
  - f_equal; [specialize (X 0); simpl in X; congruence|].
    apply IH. intros i. apply (X (S i)).
Qed.

Lemma repr_ext {T} N M (m : matrix T) f g :
  repr N M m f -> (forall r c, r < N -> c < M -> f r c = g r c) -> repr N M m g.
Proof. intros [L H] E. split; auto. intros. rewrite H, E by assumption. reflexivity. Qed.

Lemma gives_ext {T} N M (o : outcome (matrix T)) f g :
  gives N M o f -> (forall r c, r < N -> c < M -> f r c = g r c) -> gives N M o g.
Proof. intros (m & E & H) X. exists m; split; auto. eapply repr_ext; eauto. Qed.

Lemma gives_unique {T} N M (o o' : outcome (matrix T)) f f' :
  gives N M o f -> gives N M o' f' ->
  (forall r c, r < N -> c < M -> f r c = f' r c) -> o = o'.
Proof.
  intros (m & E & H) (m' & E' & H') X. subst. f_equal. eapply repr_unique; eauto.
Qed.

(** ** Access laws (C01) *)

Lemma set2_at2_same {T} N M (m : matrix T) r c v :
  wf N M m -> r < N -> c < M ->
  exists m', set2 M m (Z.of_nat r) (Z.of_nat c) v = Ok m' /\ wf N M m' /\
             at2 M m' (Z.of_nat r) (Z.of_nat c) = Ok v.
Proof.
  unfold wf. intros L Hr Hc. pose proof (index_lt r c N M Hr Hc).
  exists (replace_nth m (r * M + c) (Some v)). repeat split.
  - rewrite set2_nat, set_nat by lia. reflexivity.
  - now rewrite replace_nth_length.
  - rewrite at2_nat. apply cell_at, cell_replace_same. lia.
Qed.

Lemma set2_at2_other {T} N M (m m' : matrix T) r c r' c' v :
  wf N M m -> r < N -> c < M -> r' < N -> c' < M -> (r, c) <> (r', c') ->
  set2 M m (Z.of_nat r) (Z.of_nat c) v = Ok m' ->
  at2 M m' (Z.of_nat r') (Z.of_nat c') = at2 M m (Z.of_nat r') (Z.of_nat c').
Proof.
  unfold wf. intros L Hr Hc Hr' Hc' D.
  pose proof (index_lt r c N M Hr Hc).
  rewrite set2_nat, set_nat by lia. intros [= <-].
  rewrite !at2_nat, !at_nat, nth_error_replace_nth.
  destruct (Nat.eqb_spec (r * M + c) (r' * M + c')); [|reflexivity].
  destruct (index_inj r c r' c' M) as [-> ->]; auto. congruence.
Qed.

(** An access is out of bounds exactly when its linear index is. *)
Lemma at2_oob {T} N M (m : matrix T) (r c : Z) :
  wf N M m ->
  (at2 M m r c = Err OutOfBounds <->
   ~ (0 <= r * Z.of_nat M + c < Z.of_nat (N * M))%Z).
Proof.
  unfold wf, at2. intros L. set (i := (r * Z.of_nat M + c)%Z).
  unfold at_. destruct (Z.ltb_spec i 0).
  - split; [lia|reflexivity].
  - destruct (nth_error m (Z.to_nat i)) as [[v|]|] eqn:E.
    + assert (Z.to_nat i < length m) by (apply nth_error_Some; congruence).
      split; [discriminate|lia].
    + assert (Z.to_nat i < length m) by (apply nth_error_Some; congruence).
      split; [discriminate|lia].
    + apply nth_error_None in E. split; [lia|reflexivity].
Qed.

Lemma set2_oob {T} N M (m : matrix T) (r c : Z) v :
  wf N M m ->
  (set2 M m r c v = Err OutOfBounds <->
   ~ (0 <= r * Z.of_nat M + c < Z.of_nat (N * M))%Z).
Proof.
  unfold wf, set2. intros L. set (i := (r * Z.of_nat M + c)%Z).
  unfold set_. destruct (Z.ltb_spec i 0).
  - split; [lia|reflexivity].
  - destruct (Nat.ltb_spec (Z.to_nat i) (length m)).
    + split; [discriminate|lia].
    + split; [lia|reflexivity].
Qed.

(** ** Construction (C02) *)

Lemma fill_from_spec {T} (v : T) n : forall pos (m : matrix T),
  pos + n <= length m ->
  exists m', fill_from n (Z.of_nat pos) v m = Ok m' /\ length m' = length m /\
    (forall i, pos <= i < pos + n -> cell m' i v) /\
    (forall i, ~ (pos <= i < pos + n) -> nth_error m' i = nth_error m i).
Proof.
  induction n; intros pos m H; simpl.
  - exists m; repeat split; auto; intros; lia.
  - rewrite set_nat by lia. simpl.
    replace (Z.of_nat pos + 1)%Z with (Z.of_nat (S pos)) by lia.
    destruct (IHn (S pos) (replace_nth m pos (Some v))) as (m' & E & L & C & O).
    { rewrite replace_nth_length. lia. }
    rewrite replace_nth_length in L.
    exists m'. repeat split; auto.
    + intros i Hi. destruct (Nat.eq_dec i pos) as [->|].
      * unfold cell. rewrite O by lia. apply cell_replace_same. lia.
      * apply C. lia.
    + intros i Hi. rewrite O by lia. rewrite nth_error_replace_nth.
      destruct (Nat.eqb_spec pos i); [lia|reflexivity].
Qed.

Lemma mat_fill_gives {T} (S : scalar T) N M v :
  gives N M (mat_fill S N M v) (fun _ _ => v).
Proof.
  unfold mat_fill.
  destruct (fill_from_spec v (N * M) 0 (repeat (Some (sc_zero S)) (N * M)))
    as (m & E & L & C & _).
  { rewrite repeat_length. lia. }
  exists m. split; [exact E|]. apply repr_cell. rewrite L, repeat_length.
  split; [reflexivity|]. intros. apply C.
  pose proof (index_lt r c N M H H0). lia.
Qed.

Lemma copy_to_spec {T} (src : list T) : forall pos (m : matrix T),
  pos + length src <= length m ->
  exists m', copy_to src (Z.of_nat pos) m = Ok m' /\ length m' = length m /\
    (forall i x, nth_error src i = Some x -> cell m' (pos + i) x) /\
    (forall i, ~ (pos <= i < pos + length src) -> nth_error m' i = nth_error m i).
Proof.
  induction src as [|x src IH]; intros pos m H; simpl in *.
  - exists m; repeat split; auto. intros [|]; discriminate.
  - rewrite set_nat by lia. simpl.
    replace (Z.of_nat pos + 1)%Z with (Z.of_nat (S pos)) by lia.
    destruct (IH (S pos) (replace_nth m pos (Some x))) as (m' & E & L & C & O).
    { rewrite replace_nth_length. lia. }
    rewrite replace_nth_length in L.
    exists m'. repeat split; auto.
    + intros [|i] y Hy; simpl in Hy.
      * injection Hy as <-. unfold cell. rewrite O by lia.
        rewrite Nat.add_0_r. apply cell_replace_same. lia.
      * replace (pos + S i) with (S pos + i) by lia. now apply C.
    + intros i Hi. rewrite O by lia. rewrite nth_error_replace_nth.
      destruct (Nat.eqb_spec pos i); [lia|reflexivity].
Qed.

Lemma copy_to_oob {T} (src : list T) : forall pos (m : matrix T),
  pos <= length m -> length m < pos + length src ->
  copy_to src (Z.of_nat pos) m = Err OutOfBounds.
Proof.
  induction src as [|x src IH]; intros pos m H H'; simpl in *; [lia|].
  destruct (Nat.eq_dec pos (length m)) as [->|].
  - unfold set_. destruct (Z.ltb_spec (Z.of_nat (length m)) 0); [lia|].
    rewrite Nat2Z.id, Nat.ltb_irrefl. reflexivity.
  - rewrite set_nat by lia. simpl.
    replace (Z.of_nat pos + 1)%Z with (Z.of_nat (S pos)) by lia.
    apply IH; rewrite replace_nth_length; lia.
Qed.

Lemma mat_il_spec {T} (S : scalar T) N M il :
  length il <= N * M ->
  gives N M (mat_il S N M il) (fun r c => nth (r * M + c) il (sc_zero S)).
Proof.
  intros H. unfold mat_il.
  destruct (copy_to_spec il 0 (repeat (Some (sc_zero S)) (N * M)))
    as (m & E & L & C & O).
  { rewrite repeat_length. lia. }
  exists m. split; [exact E|]. apply repr_cell. rewrite L, repeat_length.
  split; [reflexivity|]. intros r c Hr Hc.
  pose proof (index_lt r c N M Hr Hc) as Hi.
  destruct (Nat.lt_ge_cases (r * M + c) (length il)).
  - apply (C (r * M + c)). now apply nth_error_nth'.
  - rewrite nth_overflow by assumption. unfold cell. rewrite O by lia.
    rewrite nth_error_repeat by assumption. reflexivity.
Qed.

Lemma mat_il_oob {T} (S : scalar T) N M il :
  N * M < length il -> mat_il S N M il = Err OutOfBounds.
Proof.
  intros. unfold mat_il. apply (copy_to_oob il 0); rewrite repeat_length; lia.
Qed.

Lemma mat_default_avr {T} (S : scalar T) N M :
  repr N M (mat_default S true N M) (fun _ _ => sc_zero S).
Proof.
  unfold mat_default. apply repr_cell. rewrite repeat_length. split; auto.
  intros. unfold cell. rewrite nth_error_repeat; auto using index_lt.
Qed.

Lemma mat_default_desktop {T} (S : scalar T) N M r c :
  r < N -> c < M ->
  at2 M (mat_default S false N M) (Z.of_nat r) (Z.of_nat c) = Err Indeterminate.
Proof.
  intros. rewrite at2_nat, at_nat. unfold mat_default.
  rewrite nth_error_repeat; auto using index_lt.
Qed.

(** ** Element-wise loops (C03) *)

(** A loop that stores [h i] at linear position [i] for [i < N*M]. *)
Lemma for_store {T} (S : scalar T) N M (body : nat -> matrix T -> outcome (matrix T))
      (h : nat -> T) :
  (forall i r, i < N * M -> length r = N * M ->
     body i r = set1 M r (Z.of_nat i) (h i)) ->
  gives N M (bind (mat_fill S N M (sc_zero S)) (for_ (N * M) body))
        (fun r c => h (r * M + c)).
Proof.
  intros Hb.
  destruct (mat_fill_gives S N M (sc_zero S)) as (m0 & E0 & R0).
  rewrite E0. simpl.
  destruct (for_inv (fun i r => length r = N * M /\ forall j, j < i -> cell r j (h j))
                    body (N * M) m0) as (m & E & L & C).
  - split; [apply R0|]. intros; lia.
  - intros i s Hi [L C]. rewrite Hb by assumption.
    rewrite set1_nat, set_nat by lia. eexists; split; [reflexivity|].
    rewrite replace_nth_length. split; auto.
    intros j Hj. destruct (Nat.eq_dec j i) as [->|].
    + apply cell_replace_same. lia.
    + apply cell_replace_other; auto. apply C. lia.
  - exists m. split; [exact E|]. apply repr_cell. split; auto.
    intros. apply C. now apply index_lt.
Qed.

Lemma dm r c N M : r < N -> c < M ->
  (r * M + c) / M = r /\ (r * M + c) mod M = c.
Proof.
  intros. split.
  - rewrite Nat.div_add_l by lia. rewrite Nat.div_small by lia. lia.
  - rewrite Nat.add_comm, Nat.mod_add by lia. now apply Nat.mod_small.
Qed.

Section Ring.

Context {T : Type} {S : scalar T} (RS : ring_scalar S).

Notation z0 := (sc_zero S).
Notation z1 := (sc_one S).
Notation "a + b" := (rs_add RS a b).
Notation "a * b" := (rs_mul RS a b).
Notation "a - b" := (rs_sub RS a b).
Notation "- a" := (rs_opp RS a).
Notation sum := (sum (sc_zero S) (rs_add RS)).

Add Ring T_ring : (rs_theory RS).

Lemma add_mm_gives N M a b f g :
  repr N M a f -> repr N M b g ->
  gives N M (add_mm S N M a b) (fun r c => f r c + g r c).
Proof.
  intros Ha Hb. unfold add_mm.
  eapply gives_ext.
  - apply (for_store S N M _ (fun i => f (i / M) (i mod M) + g (i / M) (i mod M))).
    intros i r Hi _.
    rewrite (repr_lin _ _ _ _ _ Ha Hi), (repr_lin _ _ _ _ _ Hb Hi). simpl.
    rewrite (rs_add_ok RS). reflexivity.
  - intros r c Hr Hc. simpl. destruct (dm r c N M Hr Hc) as [-> ->]. reflexivity.
Qed.

Lemma sub_mm_gives N M a b f g :
  repr N M a f -> repr N M b g ->
  gives N M (sub_mm S N M a b) (fun r c => f r c - g r c).
Proof.
  intros Ha Hb. unfold sub_mm.
  eapply gives_ext.
  - apply (for_store S N M _ (fun i => f (i / M) (i mod M) - g (i / M) (i mod M))).
    intros i r Hi _.
    rewrite (repr_lin _ _ _ _ _ Ha Hi), (repr_lin _ _ _ _ _ Hb Hi). simpl.
    rewrite (rs_sub_ok RS). reflexivity.
  - intros r c Hr Hc. simpl. destruct (dm r c N M Hr Hc) as [-> ->]. reflexivity.
Qed.

Lemma add_ms_gives N M a f v :
  repr N M a f -> gives N M (add_ms S N M a v) (fun r c => f r c + v).
Proof.
  intros Ha. unfold add_ms.
  eapply gives_ext.
  - apply (for_store S N M _ (fun i => f (i / M) (i mod M) + v)).
    intros i r Hi _. rewrite (repr_lin _ _ _ _ _ Ha Hi). simpl.
    rewrite (rs_add_ok RS). reflexivity.
  - intros r c Hr Hc. simpl. destruct (dm r c N M Hr Hc) as [-> ->]. reflexivity.
Qed.

Lemma mul_ms_gives N M a f v :
  repr N M a f -> gives N M (mul_ms S N M a v) (fun r c => f r c * v).
Proof.
  intros Ha. unfold mul_ms.
  eapply gives_ext.
  - apply (for_store S N M _ (fun i => f (i / M) (i mod M) * v)).
    intros i r Hi _. rewrite (repr_lin _ _ _ _ _ Ha Hi). simpl.
    rewrite (rs_mul_ok RS). reflexivity.
  - intros r c Hr Hc. simpl. destruct (dm r c N M Hr Hc) as [-> ->]. reflexivity.
Qed.

Lemma sub_ms_gives N M a f v :
  repr N M a f -> gives N M (sub_ms S N M a v) (fun r c => f r c - v).
Proof.
  intros Ha. unfold sub_ms. rewrite (rs_opp_ok RS). simpl.
  eapply gives_ext; [apply add_ms_gives; eauto|]. intros; simpl. ring.
Qed.

(** The 1x1 element. *)
Lemma repr_11 (m : matrix T) f : repr 1 1 m f -> at1 1 m Z0 = Ok (f O O).
Proof. intros H. exact (repr_lin 1 1 m f O H ltac:(lia)). Qed.

(** ** Accumulating loops *)

(** [for k < n: result(idx) += g k]. *)
Lemma for_accumulate (body : nat -> matrix T -> outcome (matrix T)) (g : nat -> T)
      idx n m v :
  idx < length m -> cell m idx v ->
  (forall k r, k < n -> length r = length m ->
     (forall j, j <> idx -> nth_error r j = nth_error m j) ->
     body k r = (o <- at_ r (Z.of_nat idx) ;; set_ r (Z.of_nat idx) (o + g k))) ->
  exists m', for_ n body m = Ok m' /\ length m' = length m /\
    cell m' idx (v + sum n g) /\
    (forall j, j <> idx -> nth_error m' j = nth_error m j).
Proof.
  intros Hi Hc Hb.
  destruct (for_inv (fun k r => length r = length m /\ cell r idx (v + sum k g) /\
               (forall j, j <> idx -> nth_error r j = nth_error m j))
              body n m) as (m' & E & L & C & O).
  - split; [auto|split; [|auto]]. simpl. replace (v + z0) with v by ring. assumption.
  - intros k r Hk (L & C & O). rewrite Hb by assumption.
    rewrite (cell_at _ _ _ C). simpl. rewrite set_nat by lia.
    eexists; split; [reflexivity|]. rewrite replace_nth_length.
    split; [auto|split].
    + replace (v + (sum k g + g k)) with (v + sum k g + g k) by ring.
      apply cell_replace_same. lia.
    + intros j Hj. rewrite nth_error_replace_nth.
      destruct (Nat.eqb_spec idx j); [congruence|]. auto.
  - exists m'. auto.
Qed.

(** ** Products *)

Lemma dot_gives N a b f g :
  repr 1 N a f -> repr N 1 b g ->
  dot S N a b = Ok (sum N (fun i => f O i * g i O)).
Proof.
  intros Ha Hb. unfold dot, size, rows, columns. rewrite Nat.mul_1_l.
  destruct (for_inv (fun i s => s = sum i (fun i => f O i * g i O))
    (fun i result =>
      x <- at1 N a (Z.of_nat i) ;; y <- at1 1 b (Z.of_nat i) ;;
      p <- sc_mul S x y ;; sc_add S result p) N z0) as (s & E & ->).
  - reflexivity.
  - intros i s Hi ->.
    pose proof (proj2 Ha O i ltac:(lia) Hi) as Xa. rewrite at2_nat in Xa. simpl in Xa.
    pose proof (proj2 Hb i O Hi ltac:(lia)) as Xb. rewrite at2_nat in Xb.
    rewrite Nat.mul_1_r, Nat.add_0_r in Xb.
    rewrite !at1_nat, Xa, Xb. simpl. rewrite (rs_mul_ok RS). simpl.
    rewrite (rs_add_ok RS). eauto.
  - assumption.
Qed.

(** Nested loops that fill row by row. *)
Lemma for2_inv (N M : nat) (Inv : nat -> nat -> matrix T -> Prop)
      (body : nat -> nat -> matrix T -> outcome (matrix T)) m :
  Inv O O m ->
  (forall row col r, row < N -> col < M -> Inv row col r ->
     exists r', body row col r = Ok r' /\ Inv row (Datatypes.S col) r') ->
  (forall row r, row < N -> Inv row M r -> Inv (Datatypes.S row) O r) ->
  exists m', for_ N (fun row r => for_ M (body row) r) m = Ok m' /\ Inv N O m'.
Proof.
  intros H0 Hs Hn.
  apply (for_inv (fun row r => Inv row O r)); [assumption|].
  intros row r Hrow HI.
  destruct (for_inv (fun col r => Inv row col r) (body row) M r HI) as (r' & E & HI').
  - intros; apply Hs; auto.
  - exists r'; auto.
Qed.

Lemma outer_gives N a b f g :
  repr N 1 a f -> repr 1 N b g ->
  gives N N (outer S N a b) (fun r c => f r O * g O c).
Proof.
  intros Ha Hb. unfold outer, rows, columns.
  destruct (mat_fill_gives S N N z0) as (m0 & E0 & R0). rewrite E0. simpl.
  destruct (for2_inv N N
    (fun row col r => length r = Nat.mul N N /\
       forall i j, (i < row \/ i = row /\ j < col) -> i < N -> j < N ->
         cell r (Nat.add (Nat.mul i N) j) (f i O * g O j))
    (fun row col result =>
      x <- at1 1 a (Z.of_nat row) ;; y <- at1 N b (Z.of_nat col) ;;
      p <- sc_mul S x y ;; set2 N result (Z.of_nat row) (Z.of_nat col) p) m0)
    as (m & E & L & C).
  - split; [apply R0|]. intros; lia.
  - intros row col r Hr Hc (L & C).
    pose proof (proj2 Ha row O Hr ltac:(lia)) as Xa. rewrite at2_nat in Xa.
    rewrite Nat.mul_1_r, Nat.add_0_r in Xa.
    pose proof (proj2 Hb O col ltac:(lia) Hc) as Xb. rewrite at2_nat in Xb. simpl in Xb.
    rewrite !at1_nat, Xa, Xb. simpl. rewrite (rs_mul_ok RS). simpl.
    pose proof (index_lt row col N N Hr Hc).
    rewrite set2_nat, set_nat by lia. eexists; split; [reflexivity|].
    rewrite replace_nth_length. split; auto. intros i j D Hi Hj.
    destruct (Nat.eq_dec (Nat.add (Nat.mul row N) col) (Nat.add (Nat.mul i N) j)) as [e|ne].
    + destruct (index_inj _ _ _ _ _ Hc Hj e) as [-> ->]. apply cell_replace_same. lia.
    + apply cell_replace_other; auto. apply C; auto.
      destruct D as [?|[-> ?]]; [auto|]. right; split; auto.
      destruct (Nat.eq_dec j col); [subst; congruence|lia].
  - intros row r Hrow (L & C). split; auto. intros i j [D|[D D']] Hi Hj; [|lia].
    apply C; auto. lia.
  - exists m. split; [exact E|]. apply repr_cell. split; auto.
Qed.

(** [A * B] of NxM matrices with M <= N: no undefined behaviour; for square matrices
    the mathematical product. *)
Lemma mul_mm_gives N M A B f g :
  M <= N -> repr N M A f -> repr N M B g ->
  gives N M (mul_mm S N M A B) (fun r c => sum M (fun k => f r k * g k c)).
Proof.
  intros HMN HA HB. unfold mul_mm, rows, columns.
  destruct (mat_fill_gives S N M z0) as (m0 & E0 & R0). rewrite E0. simpl.
  apply repr_cell in R0. destruct R0 as [L0 C0].
  destruct (for2_inv N M
    (fun row col r => length r = Nat.mul N M /\
       forall i j, i < N -> j < M ->
         cell r (Nat.add (Nat.mul i M) j)
           (if (Nat.ltb i row || (Nat.eqb i row && Nat.ltb j col))%bool
            then sum M (fun k => f i k * g k j) else z0))
    (fun row col result =>
      for_ M (fun k result =>
        x <- at2 M A (Z.of_nat row) (Z.of_nat k) ;;
        y <- at2 M B (Z.of_nat k) (Z.of_nat col) ;;
        p <- sc_mul S x y ;;
        r <- at2 M result (Z.of_nat row) (Z.of_nat col) ;;
        s <- sc_add S r p ;;
        set2 M result (Z.of_nat row) (Z.of_nat col) s) result) m0)
    as (m & E & L & C).
  - split; auto. intros i j Hi Hj.
    destruct (Nat.ltb_spec i O); [lia|]. destruct (Nat.ltb_spec j O); [lia|].
    rewrite Bool.andb_false_r. simpl. auto.
  - intros row col r Hr Hc (L & C).
    pose proof (index_lt row col N M Hr Hc).
    destruct (for_accumulate
      (fun k result =>
        x <- at2 M A (Z.of_nat row) (Z.of_nat k) ;;
        y <- at2 M B (Z.of_nat k) (Z.of_nat col) ;;
        p <- sc_mul S x y ;;
        r <- at2 M result (Z.of_nat row) (Z.of_nat col) ;;
        s <- sc_add S r p ;;
        set2 M result (Z.of_nat row) (Z.of_nat col) s)
      (fun k => f row k * g k col) (Nat.add (Nat.mul row M) col) M r z0)
      as (r' & E & L' & C' & O').
    + lia.
    + specialize (C row col Hr Hc).
      rewrite !Nat.ltb_irrefl, Bool.andb_false_r in C. exact C.
    + intros k s Hk Ls Os.
      rewrite (proj2 HA row k Hr Hk), (proj2 HB k col ltac:(lia) Hc). simpl.
      rewrite (rs_mul_ok RS). simpl. rewrite at2_nat.
      destruct (at_ s _); simpl; [|reflexivity].
      rewrite (rs_add_ok RS). simpl. now rewrite set2_nat.
    + exists r'. split; [exact E|]. split; [lia|]. intros i j Hi Hj.
      destruct (Nat.eq_dec (Nat.add (Nat.mul i M) j) (Nat.add (Nat.mul row M) col))
        as [e|ne].
      * destruct (index_inj _ _ _ _ _ Hj Hc e) as [-> ->].
        rewrite Nat.eqb_refl, Nat.ltb_irrefl. simpl.
        destruct (Nat.leb_spec (Datatypes.S col) (Datatypes.S col)); [|lia].
        destruct (Nat.ltb_spec col (Datatypes.S col)); [|lia].
        replace (sum M (fun k => f row k * g k col)) with
          (z0 + sum M (fun k => f row k * g k col)) by ring. exact C'.
      * unfold cell. rewrite O' by assumption. fold (cell r (Nat.add (Nat.mul i M) j)).
        specialize (C i j Hi Hj). unfold cell in C.
        rewrite C. do 2 f_equal.
        destruct (Nat.ltb_spec i row), (Nat.eqb_spec i row),
                 (Nat.ltb_spec j col), (Nat.ltb_spec j (Datatypes.S col));
          simpl; try reflexivity; try lia.
  - intros row r Hrow (L & C). split; auto. intros i j Hi Hj.
    specialize (C i j Hi Hj).
    destruct (Nat.ltb_spec i row), (Nat.eqb_spec i row), (Nat.ltb_spec j M),
       (Nat.ltb_spec i (Datatypes.S row)), (Nat.eqb_spec i (Datatypes.S row)),
       (Nat.ltb_spec j O); simpl in *; try lia; assumption.
  - exists m. split; [exact E|]. apply repr_cell. split; auto. intros i j Hi Hj.
    specialize (C i j Hi Hj). destruct (Nat.ltb_spec i N); [|lia]. exact C.
Qed.

(** [A * x], A an NxM matrix with M <= N. *)
Lemma mul_mv_gives N M A x f g :
  M <= N -> repr N M A f -> repr N 1 x g ->
  gives N 1 (mul_mv S N M A x) (fun r _ => sum M (fun k => f r k * g k O)).
Proof.
  intros HMN HA Hx. unfold mul_mv, rows, columns.
  destruct (mat_fill_gives S N 1 z0) as (m0 & E0 & R0). rewrite E0. simpl.
  apply repr_cell in R0. destruct R0 as [L0 C0].
  destruct (for_inv
    (fun row r => length r = Nat.mul N 1 /\
       forall i, i < N ->
         cell r i (if Nat.ltb i row then sum M (fun k => f i k * g k O) else z0))
    (fun row result =>
      for_ M (fun col result =>
        a <- at2 M A (Z.of_nat row) (Z.of_nat col) ;;
        y <- at1 1 x (Z.of_nat col) ;;
        p <- sc_mul S a y ;;
        r <- at1 1 result (Z.of_nat row) ;;
        s <- sc_add S r p ;;
        set1 1 result (Z.of_nat row) s) result) N m0)
    as (m & E & L & C).
  - split; auto. intros i Hi. specialize (C0 i O Hi ltac:(lia)).
    rewrite Nat.mul_1_r, Nat.add_0_r in C0. exact C0.
  - intros row r Hr (L & C).
    destruct (for_accumulate
      (fun col result =>
        a <- at2 M A (Z.of_nat row) (Z.of_nat col) ;;
        y <- at1 1 x (Z.of_nat col) ;;
        p <- sc_mul S a y ;;
        r <- at1 1 result (Z.of_nat row) ;;
        s <- sc_add S r p ;;
        set1 1 result (Z.of_nat row) s)
      (fun k => f row k * g k O) row M r z0) as (r' & E & L' & C' & O').
    + lia.
    + specialize (C row Hr). rewrite Nat.ltb_irrefl in C. exact C.
    + intros k s Hk Ls Os. rewrite (proj2 HA row k Hr Hk). simpl.
      pose proof (proj2 Hx k O ltac:(lia) ltac:(lia)) as X. rewrite at2_nat in X.
      rewrite Nat.mul_1_r, Nat.add_0_r in X. rewrite at1_nat, X. simpl.
      rewrite (rs_mul_ok RS). simpl. rewrite at1_nat.
      destruct (at_ s _); simpl; [|reflexivity].
      rewrite (rs_add_ok RS). simpl. now rewrite set1_nat.
    + exists r'. split; [exact E|]. split; [lia|]. intros i Hi.
      destruct (Nat.eq_dec i row) as [->|ne].
      * destruct (Nat.ltb_spec row (Datatypes.S row)); [|lia].
        replace (sum M (fun k => f row k * g k O)) with
          (z0 + sum M (fun k => f row k * g k O)) by ring. exact C'.
      * unfold cell. rewrite O' by assumption. specialize (C i Hi). unfold cell in C.
        rewrite C. do 2 f_equal.
        destruct (Nat.ltb_spec i row), (Nat.ltb_spec i (Datatypes.S row));
          reflexivity || lia.
  - exists m. split; [exact E|]. apply repr_cell. split; auto. intros i j Hi Hj.
    specialize (C i Hi). destruct (Nat.ltb_spec i N); [|lia].
    replace (Nat.add (Nat.mul i 1) j) with i by lia. exact C.
Qed.

(** [x * A], A an NxM matrix with M <= N; columns beyond M of the result stay 0. *)
Lemma mul_vm_gives N M x A g f :
  M <= N -> repr 1 N x g -> repr N M A f ->
  gives 1 N (mul_vm S N M x A)
    (fun _ c => if Nat.ltb c M then sum N (fun k => f k c * g O k) else z0).
Proof.
  intros HMN Hx HA. unfold mul_vm, rows, columns.
  destruct (mat_fill_gives S 1 N z0) as (m0 & E0 & R0). rewrite E0. simpl.
  apply repr_cell in R0. destruct R0 as [L0 C0].
  destruct (for2_inv N M
    (fun row col r => length r = Nat.mul 1 N /\
       forall j, j < N ->
         cell r j (if Nat.ltb j M
                   then sum (if Nat.ltb j col then Datatypes.S row else row)
                            (fun k => f k j * g O k)
                   else z0))
    (fun row col result =>
      a <- at2 M A (Z.of_nat row) (Z.of_nat col) ;;
      y <- at1 N x (Z.of_nat row) ;;
      p <- sc_mul S a y ;;
      r <- at1 N result (Z.of_nat col) ;;
      s <- sc_add S r p ;;
      set1 N result (Z.of_nat col) s) m0)
    as (m & E & L & C).
  - split; auto. intros j Hj. specialize (C0 O j ltac:(lia) Hj). simpl in C0.
    destruct (Nat.ltb j M); [|exact C0].
    destruct (Nat.ltb_spec j O); [lia|]. simpl. exact C0.
  - intros row col r Hr Hc (L & C).
    pose proof (proj2 Hx O row ltac:(lia) Hr) as Xx. rewrite at2_nat in Xx. simpl in Xx.
    rewrite (proj2 HA row col Hr Hc), !at1_nat, Xx. simpl. rewrite (rs_mul_ok RS). simpl.
    pose proof (C col ltac:(lia)) as X. rewrite Nat.ltb_irrefl in X.
    destruct (Nat.ltb_spec col M); [|lia].
    rewrite (cell_at _ _ _ X). simpl.
    rewrite (rs_add_ok RS). simpl. rewrite set1_nat, set_nat by lia.
    eexists; split; [reflexivity|]. rewrite replace_nth_length. split; auto.
    intros j Hj. destruct (Nat.eq_dec j col) as [->|ne].
    + destruct (Nat.ltb_spec col M); [|lia].
      destruct (Nat.ltb_spec col (Datatypes.S col)); [|lia].
      simpl. apply cell_replace_same. lia.
    + apply cell_replace_other; auto. specialize (C j Hj).
      destruct (Nat.ltb_spec j M); [|exact C].
      destruct (Nat.ltb_spec j col), (Nat.ltb_spec j (Datatypes.S col));
        try lia; exact C.
  - intros row r Hrow (L & C). split; auto. intros j Hj. specialize (C j Hj).
    destruct (Nat.ltb_spec j M); [|exact C].
    destruct (Nat.ltb_spec j O); [lia|]. exact C.
  - exists m. split; [exact E|]. apply repr_cell. split; auto. intros i j Hi Hj.
    specialize (C j Hj). replace (Nat.add (Nat.mul i N) j) with j by lia.
    destruct (Nat.ltb_spec j M); [|exact C].
    destruct (Nat.ltb_spec j O); [lia|]. exact C.
Qed.

(** ** Products with M > N leave their operands (C05) *)

Lemma for_fails_at {St} (body : nat -> St -> outcome St) n k s e :
  k < n ->
  (exists s', for_ k body s = Ok s' /\ body k s' = Err e) ->
  for_ n body s = Err e.
Proof.
  intros Hk (s' & E & F). unfold for_ in *.
  replace n with (Nat.add k (Datatypes.S (Nat.sub (Nat.sub n k) 1))) by lia.
  rewrite for_from_split, E. simpl. rewrite F. reflexivity.
Qed.

Lemma for_first_fails {St} (body : nat -> St -> outcome St) n s e :
  0%nat < n -> body 0%nat s = Err e -> for_ n body s = Err e.
Proof. intros. eapply for_fails_at; [eassumption|]. exists s; auto. Qed.

Lemma at_past_end (m : matrix T) i : length m <= i -> at_ m (Z.of_nat i) = Err OutOfBounds.
Proof. intros. rewrite at_nat, (proj2 (nth_error_None m i)) by lia. reflexivity. Qed.

Lemma mul_mm_oob N M A B f g :
  0%nat < N -> N < M -> repr N M A f -> repr N M B g ->
  mul_mm S N M A B = Err OutOfBounds.
Proof.
  intros HN HM HA HB. unfold mul_mm, rows, columns.
  destruct (mat_fill_gives S N M z0) as (m0 & E0 & R0). rewrite E0. simpl.
  apply repr_cell in R0. destruct R0 as [L0 C0].
  apply for_first_fails; [lia|]. apply for_first_fails; [lia|].
  apply for_fails_at with (k := N); [lia|].
  destruct (for_accumulate
    (fun k result =>
        x <- at2 M A (Z.of_nat 0%nat) (Z.of_nat k) ;;
        y <- at2 M B (Z.of_nat k) (Z.of_nat 0%nat) ;;
        p <- sc_mul S x y ;;
        r <- at2 M result (Z.of_nat 0%nat) (Z.of_nat 0%nat) ;;
        s <- sc_add S r p ;;
        set2 M result (Z.of_nat 0%nat) (Z.of_nat 0%nat) s)
    (fun k => f 0%nat k * g k 0%nat) (Nat.add (Nat.mul 0%nat M) 0%nat) N m0 z0)
    as (r' & E & L' & C' & O').
  - nia.
  - apply C0; lia.
  - intros k s Hk Ls Os.
    rewrite (proj2 HA 0%nat k ltac:(lia) ltac:(lia)),
            (proj2 HB k 0%nat ltac:(lia) ltac:(lia)).
    cbv beta iota delta [bind]. rewrite (rs_mul_ok RS). rewrite at2_nat.
    destruct (at_ s _); [|reflexivity].
    rewrite (rs_add_ok RS). now rewrite set2_nat.
  - exists r'. split; [exact E|].
    rewrite (proj2 HA 0%nat N ltac:(lia) ltac:(lia)).
    rewrite (at2_nat M B N 0%nat). rewrite at_past_end; [reflexivity|].
    rewrite (proj1 HB). lia.
Qed.

Lemma mul_mv_oob N M A x f g :
  0%nat < N -> N < M -> repr N M A f -> repr N 1 x g ->
  mul_mv S N M A x = Err OutOfBounds.
Proof.
  intros HN HM HA Hx. unfold mul_mv, rows, columns.
  destruct (mat_fill_gives S N 1 z0) as (m0 & E0 & R0). rewrite E0. simpl.
  apply repr_cell in R0. destruct R0 as [L0 C0].
  apply for_first_fails; [lia|].
  apply for_fails_at with (k := N); [lia|].
  destruct (for_accumulate
    (fun col result =>
        a <- at2 M A (Z.of_nat 0%nat) (Z.of_nat col) ;;
        y <- at1 1 x (Z.of_nat col) ;;
        p <- sc_mul S a y ;;
        r <- at1 1 result (Z.of_nat 0%nat) ;;
        s <- sc_add S r p ;;
        set1 1 result (Z.of_nat 0%nat) s)
    (fun k => f 0%nat k * g k 0%nat) 0%nat N m0 z0) as (r' & E & L' & C' & O').
  - lia.
  - specialize (C0 0%nat 0%nat ltac:(lia) ltac:(lia)). exact C0.
  - intros k s Hk Ls Os. rewrite (proj2 HA 0%nat k ltac:(lia) ltac:(lia)).
    pose proof (proj2 Hx k 0%nat ltac:(lia) ltac:(lia)) as X. rewrite at2_nat in X.
    rewrite Nat.mul_1_r, Nat.add_0_r in X. rewrite at1_nat, X.
    cbv beta iota delta [bind]. rewrite (rs_mul_ok RS). rewrite at1_nat.
    destruct (at_ s _); [|reflexivity].
    rewrite (rs_add_ok RS). now rewrite set1_nat.
  - exists r'. split; [exact E|].
    rewrite (proj2 HA 0%nat N ltac:(lia) ltac:(lia)).
    rewrite (at1_nat 1 x N). rewrite at_past_end; [reflexivity|].
    rewrite (proj1 Hx). lia.
Qed.

Lemma mul_vm_oob N M x A g f :
  0%nat < N -> N < M -> repr 1 N x g -> repr N M A f ->
  mul_vm S N M x A = Err OutOfBounds.
Proof.
  intros HN HM Hx HA. unfold mul_vm, rows, columns.
  destruct (mat_fill_gives S 1 N z0) as (m0 & E0 & R0). rewrite E0. simpl.
  apply repr_cell in R0. destruct R0 as [L0 C0].
  apply for_first_fails; [lia|].
  apply for_fails_at with (k := N); [lia|].
  destruct (for_inv (fun (col : nat) (r : matrix T) => length r = N /\
                       forall j, j < N -> exists v, cell r j v)
    (fun col result =>
      a <- at2 M A (Z.of_nat 0%nat) (Z.of_nat col) ;;
      y <- at1 N x (Z.of_nat 0%nat) ;;
      p <- sc_mul S a y ;;
      r <- at1 N result (Z.of_nat col) ;;
      s <- sc_add S r p ;;
      set1 N result (Z.of_nat col) s) N m0) as (r' & E & L' & _).
  - split; [lia|]. intros j Hj. exists z0. specialize (C0 0%nat j ltac:(lia) Hj). exact C0.
  - intros k s Hk (Ls & Cs).
    rewrite (proj2 HA 0%nat k ltac:(lia) ltac:(lia)).
    pose proof (proj2 Hx 0%nat 0%nat ltac:(lia) ltac:(lia)) as X. rewrite at2_nat in X.
    cbn [Nat.mul Nat.add] in X.
    rewrite !at1_nat, X. cbv beta iota delta [bind]. rewrite (rs_mul_ok RS).
    destruct (Cs k Hk) as (v & Hv). rewrite (cell_at _ _ _ Hv).
    rewrite (rs_add_ok RS). rewrite set1_nat, set_nat by lia.
    eexists; split; [reflexivity|]. rewrite replace_nth_length. split; [lia|].
    intros j Hj. destruct (Nat.eq_dec k j) as [->|].
    + eexists. apply cell_replace_same. lia.
    + destruct (Cs j Hj) as (w & Hw). exists w. now apply cell_replace_other.
  - exists r'. split; [exact E|].
    rewrite (proj2 HA 0%nat N ltac:(lia) ltac:(lia)).
    pose proof (proj2 Hx 0%nat 0%nat ltac:(lia) ltac:(lia)) as X. rewrite at2_nat in X.
    cbn [Nat.mul Nat.add] in X.
    rewrite !at1_nat, X. cbv beta iota delta [bind]. rewrite (rs_mul_ok RS).
    rewrite at_past_end; [reflexivity|]. lia.
Qed.

(** ** Identity (C10) and transposition (C07) *)

Lemma eye_gives N :
  gives N N (eye S N) (fun r c => if Nat.eqb r c then z1 else z0).
Proof.
  unfold eye.
  destruct (mat_fill_gives S N N z0) as (m0 & E0 & R0). rewrite E0. simpl.
  apply repr_cell in R0. destruct R0 as [L0 C0].
  destruct (for_inv (fun i r => length r = Nat.mul N N /\
      forall a b, a < N -> b < N ->
        cell r (Nat.add (Nat.mul a N) b)
             (if (Nat.eqb a b && Nat.ltb a i)%bool then z1 else z0))
    (fun i result => set2 N result (Z.of_nat i) (Z.of_nat i) z1) N m0)
    as (m & E & L & C).
  - split; auto. intros. destruct (Nat.ltb_spec a O); [lia|].
    rewrite Bool.andb_false_r. auto.
  - intros i r Hi (L & C). pose proof (index_lt i i N N Hi Hi).
    rewrite set2_nat, set_nat by lia. eexists; split; [reflexivity|].
    rewrite replace_nth_length. split; auto. intros a b Ha Hb.
    destruct (Nat.eq_dec (Nat.add (Nat.mul i N) i) (Nat.add (Nat.mul a N) b)) as [e|ne].
    + destruct (index_inj _ _ _ _ _ Hi Hb e) as [<- <-].
      rewrite Nat.eqb_refl. destruct (Nat.ltb_spec i (Datatypes.S i)); [|lia].
      apply cell_replace_same. lia.
    + apply cell_replace_other; auto. specialize (C a b Ha Hb).
      destruct (Nat.eqb_spec a b); simpl in *; [|exact C]. subst.
      destruct (Nat.ltb_spec b i), (Nat.ltb_spec b (Datatypes.S i)); try lia; try exact C.
      assert (b = i) by lia. subst; congruence.
  - exists m. split; [exact E|]. apply repr_cell. split; auto. intros a b Ha Hb.
    specialize (C a b Ha Hb). destruct (Nat.ltb_spec a N); [|lia].
    rewrite Bool.andb_true_r in C. exact C.
Qed.

End Ring.

Lemma copy_cells_spec {T} n : forall (x r : matrix T) (h : nat -> T),
  n <= length r -> (forall i, i < n -> cell x i (h i)) ->
  exists m, copy_cells n x r = Ok m /\ length m = length r /\
            forall i, i < n -> cell m i (h i).
Proof.
  intros x r h L H. unfold copy_cells.
  destruct (for_inv (fun i s => length s = length r /\ forall j, j < i -> cell s j (h j))
    (fun i result => v <- at_ x (Z.of_nat i) ;; set_ result (Z.of_nat i) v) n r)
    as (m & E & Lm & C).
  - split; auto. intros; lia.
  - intros i s Hi (Ls & C). rewrite (cell_at _ _ _ (H i Hi)). simpl.
    rewrite set_nat by lia. eexists; split; [reflexivity|].
    rewrite replace_nth_length. split; auto. intros j Hj.
    destruct (Nat.eq_dec i j) as [->|]; [apply cell_replace_same; lia|].
    apply cell_replace_other; auto. apply C. lia.
  - eauto.
Qed.

Lemma transposed_col_gives {T} (S : scalar T) N x f :
  repr N 1 x f -> gives 1 N (transposed_col S N x) (fun r c => f c r).
Proof.
  intros H. apply repr_cell in H. destruct H as [L C]. unfold transposed_col.
  destruct (mat_fill_gives S 1 N (sc_zero S)) as (m0 & E0 & R0). rewrite E0. simpl.
  destruct (copy_cells_spec (N * 1) x m0 (fun i => f i 0)) as (m & E & Lm & Cm).
  - rewrite (proj1 R0). lia.
  - intros i Hi. specialize (C i 0 ltac:(lia) ltac:(lia)).
    rewrite Nat.mul_1_r, Nat.add_0_r in C. exact C.
  - exists m. split; [exact E|]. apply repr_cell. split; [rewrite Lm; apply R0|].
    intros r c Hr Hc. assert (r = 0) by lia. subst r. simpl. apply Cm. lia.
Qed.

Lemma transposed_row_gives {T} (S : scalar T) N x f :
  repr 1 N x f -> gives N 1 (transposed_row S N x) (fun r c => f c r).
Proof.
  intros H. apply repr_cell in H. destruct H as [L C]. unfold transposed_row.
  destruct (mat_fill_gives S N 1 (sc_zero S)) as (m0 & E0 & R0). rewrite E0. simpl.
  destruct (copy_cells_spec (1 * N) x m0 (fun i => f 0 i)) as (m & E & Lm & Cm).
  - rewrite (proj1 R0). lia.
  - intros i Hi. apply (C 0 i); lia.
  - exists m. split; [exact E|]. apply repr_cell. split; [rewrite Lm; apply R0|].
    intros r c Hr Hc. assert (c = 0) by lia. subst c.
    rewrite Nat.mul_1_r, Nat.add_0_r. apply Cm. lia.
Qed.

(** A represented 2x2 matrix is its four cells. *)
Lemma repr_22 {T} (m : matrix T) f :
  repr 2 2 m f <-> m = [Some (f 0 0); Some (f 0 1); Some (f 1 0); Some (f 1 1)].
Proof.
  split.
  - intros H. apply repr_cell in H. destruct H as [L C].
    destruct m as [|a [|b [|c [|d [|]]]]]; try discriminate L.
    pose proof (C 0 0 ltac:(lia) ltac:(lia)) as C00.
    pose proof (C 0 1 ltac:(lia) ltac:(lia)) as C01.
    pose proof (C 1 0 ltac:(lia) ltac:(lia)) as C10.
    pose proof (C 1 1 ltac:(lia) ltac:(lia)) as C11.
    unfold cell in *. simpl in *. congruence.
  - intros ->. apply repr_cell. split; [reflexivity|].
    intros [|[|r]] [|[|c]] Hr Hc; try lia; reflexivity.
Qed.

Lemma transposed_22_gives {T} (A : matrix T) f :
  repr 2 2 A f -> gives 2 2 (transposed_22 A) (fun r c => f c r).
Proof.
  intros H. apply repr_22 in H. subst A.
  eexists; split; [reflexivity|]. apply repr_22. reflexivity.
Qed.

(** ** Algebra of sums, for associativity *)

Section Sums.
Context {T : Type} {S : scalar T} (RS : ring_scalar S).
Notation z0 := (sc_zero S).
Notation z1 := (sc_one S).
Notation "a + b" := (rs_add RS a b).
Notation "a * b" := (rs_mul RS a b).
Notation sum := (sum (sc_zero S) (rs_add RS)).
Add Ring T_ring2 : (rs_theory RS).

Lemma rs_mul_0_l x : z0 * x = z0.
Proof. ring. Qed.

Lemma sum_ext n f g : (forall i, i < n -> f i = g i) -> sum n f = sum n g.
Proof. induction n; simpl; intros; [reflexivity|]. rewrite IHn, H; auto. Qed.

Lemma sum_zero n : sum n (fun _ => z0) = z0.
Proof. induction n; simpl; [reflexivity|]. rewrite IHn. ring. Qed.

Lemma sum_add n f g : sum n (fun i => f i + g i) = sum n f + sum n g.
Proof. induction n; simpl; [ring|]. rewrite IHn. ring. Qed.

Lemma sum_mul_l n a f : a * sum n f = sum n (fun i => a * f i).
Proof. induction n; simpl; [ring|]. rewrite <- IHn. ring. Qed.

Lemma sum_mul_r n a f : sum n f * a = sum n (fun i => f i * a).
Proof. induction n; simpl; [ring|]. rewrite <- IHn. ring. Qed.

Lemma sum_swap n m (f : nat -> nat -> T) :
  sum n (fun i => sum m (fun j => f i j)) = sum m (fun j => sum n (fun i => f i j)).
Proof.
  induction n; simpl.
  - now rewrite sum_zero.
  - rewrite IHn, <- sum_add. reflexivity.
Qed.

Lemma sum_single n i f :
  i < n -> sum n (fun k => if Nat.eqb k i then f k else z0) = f i.
Proof.
  induction n; intros H; [lia|]. simpl.
  destruct (Nat.eq_dec n i) as [->|ne].
  - rewrite Nat.eqb_refl.
    rewrite (sum_ext _ _ (fun _ => z0)).
    + rewrite sum_zero. ring.
    + intros k Hk. destruct (Nat.eqb_spec k i); [lia|reflexivity].
  - rewrite IHn by lia. destruct (Nat.eqb_spec n i); [congruence|]. ring.
Qed.

Lemma sum_assoc n (f g h : nat -> nat -> T) (r c : nat) :
  sum n (fun k => sum n (fun j => f r j * g j k) * h k c) =
  sum n (fun j => f r j * sum n (fun k => g j k * h k c)).
Proof.
  rewrite (sum_ext n _ (fun k => sum n (fun j => f r j * (g j k * h k c)))).
  - rewrite sum_swap. apply sum_ext. intros. now rewrite sum_mul_l.
  - intros. rewrite sum_mul_r. apply sum_ext. intros. ring.
Qed.
End Sums.
