(** * Matrices of [int]: exact or undefined

    C163 of properties.jsonl: matrix.hpp with elements of type [int]. *)

From Coq Require Import List ZArith Lia Bool.
From Verif Require Import Base Matrix MatrixSpec Scalars MatrixProofs.
Import ListNotations.

(** ** Specification *)

(** [v] is a value of a signed integer type of [w] bits. *)
Definition fits (w v : Z) : Prop := (- 2 ^ (w - 1) <= v < 2 ^ (w - 1))%Z.

(** The first [n] terms [f 0 + ... + f (n-1)]. *)
Definition partial_sum (n : nat) (f : nat -> Z) : Z := fold_right Z.add 0%Z (map f (seq 0 n)).

(** [o] is what arithmetic without bounds gives, or signed overflow occurs. *)
Definition exact_or_overflow {X} (o exact : outcome X) : Prop := o = exact \/ o = Err SignedOverflow.

(** ** Agreement of all operations *)

Section Agree.

Context (w : Z).
Notation I := (int_scalar w).
Notation "a ~ b" := (exact_or_overflow a b) (at level 70).

Lemma same {X} (a : outcome X) : a ~ a. Proof. now left. Qed.
Lemma chk_ok v : chk w v ~ Ok v. Proof. unfold chk. destruct (_ && _)%bool; [left|right]; reflexivity. Qed.
Lemma bind_ok {X Y} (a b : outcome X) (f g : X -> outcome Y) : a ~ b -> (forall x, f x ~ g x) -> bind a f ~ bind b g.
Proof. intros [->| ->] H; [|right; reflexivity]. destruct b; cbn; [apply H|left; reflexivity]. Qed.
Lemma for_from_ok {X} n (f g : nat -> X -> outcome X) : (forall k s, f k s ~ g k s) -> forall k s, for_from k n f s ~ for_from k n g s.
Proof. intros H. induction n; intros k s; [apply same|]. cbn. apply bind_ok; auto. Qed.
Lemma for_ok {X} n (f g : nat -> X -> outcome X) s : (forall k s, f k s ~ g k s) -> for_ n f s ~ for_ n g s.
Proof. intros H. now apply for_from_ok. Qed.
Lemma add_ok a b : sc_add I a b ~ sc_add Z_scalar a b. Proof. apply chk_ok. Qed.
Lemma sub_ok a b : sc_sub I a b ~ sc_sub Z_scalar a b. Proof. apply chk_ok. Qed.
Lemma mul_ok a b : sc_mul I a b ~ sc_mul Z_scalar a b. Proof. apply chk_ok. Qed.
Lemma opp_ok a : sc_opp I a ~ sc_opp Z_scalar a. Proof. apply chk_ok. Qed.
Lemma div_ok a b : sc_div I a b ~ sc_div Z_scalar a b.
Proof. cbn. destruct (Z.eqb b 0); [apply same|apply chk_ok]. Qed.

End Agree.

Ltac agree := repeat first
  [ apply same | apply add_ok | apply sub_ok | apply mul_ok | apply opp_ok | apply div_ok
  | apply bind_ok; [|intros ?] | apply for_ok; intros ? ? ].

(** Every operation on matrices of [int] does what it does on integers without bounds, or
    overflows. *)
Theorem C163_exact_or_overflow : forall w N M A B v,
  let i := int_scalar w in let z := Z_scalar in
  exact_or_overflow (add_mm i N M A B) (add_mm z N M A B) /\
  exact_or_overflow (sub_mm i N M A B) (sub_mm z N M A B) /\
  exact_or_overflow (mul_mm i N M A B) (mul_mm z N M A B) /\
  exact_or_overflow (mul_mv i N M A B) (mul_mv z N M A B) /\
  exact_or_overflow (mul_vm i N M A B) (mul_vm z N M A B) /\
  exact_or_overflow (dot i N A B) (dot z N A B) /\
  exact_or_overflow (outer i N A B) (outer z N A B) /\
  exact_or_overflow (add_ms i N M A v) (add_ms z N M A v) /\
  exact_or_overflow (sub_ms i N M A v) (sub_ms z N M A v) /\
  exact_or_overflow (mul_ms i N M A v) (mul_ms z N M A v) /\
  exact_or_overflow (inverted_s i v) (inverted_s z v) /\
  exact_or_overflow (inverted_22 i A) (inverted_22 z A) /\
  eye i N = eye z N.
Proof.
  intros w N M A B v i z. repeat apply conj; try reflexivity.
  all: unfold add_mm, sub_mm, mul_mm, mul_mv, mul_vm, dot, outer, sub_ms, add_ms, mul_ms, inverted_s, inverted_22, z, i; cbv zeta; agree.
  change (sc_nz (int_scalar w) v) with (sc_nz Z_scalar v). destruct (sc_nz Z_scalar v); agree.
Qed.
Print Assumptions C163_exact_or_overflow.

(** ** When a product is defined *)

Lemma partial_sum_S n f : partial_sum (S n) f = (partial_sum n f + f n)%Z.
Proof.
  unfold partial_sum. rewrite seq_S, map_app, fold_right_app. cbn. generalize (map f (seq 0 n)).
  intros l. induction l as [|x l IH]; cbn; lia.
Qed.
Lemma partial_sum_spec n f : partial_sum n f = sum 0%Z Z.add n f.
Proof. induction n; [reflexivity|]. rewrite partial_sum_S, IHn. reflexivity. Qed.
Lemma chk_iff w v r : chk w v = Ok r <-> r = v /\ fits w v.
Proof.
  unfold chk, fits. destruct (Z.leb_spec (- 2 ^ (w - 1)) v), (Z.ltb_spec v (2 ^ (w - 1))); cbn; split; intros H1; try discriminate; try lia;
    try (injection H1 as <-; lia). destruct H1 as [-> _]. reflexivity.
Qed.
Lemma chk_fits w v : fits w v -> chk w v = Ok v.
Proof. intros F. apply chk_iff. auto. Qed.

Lemma for_from_all {X} (Inv : nat -> X -> Prop) (P : nat -> Prop) body : forall n k s s',
  Inv k s -> (forall i t t', (k <= i < k + n)%nat -> Inv i t -> body i t = Ok t' -> Inv (S i) t' /\ P i) -> for_from k n body s = Ok s' ->
  Inv (k + n)%nat s' /\ forall i, (k <= i < k + n)%nat -> P i.
Proof.
  induction n as [|n IH]; intros k s s' H0 Hs E.
  - cbn in E. injection E as <-. rewrite Nat.add_0_r. split; [exact H0|]. intros. lia.
  - cbn in E. destruct (body k s) as [t|] eqn:Eb; [|discriminate]. cbn in E. destruct (Hs k s t ltac:(lia) H0 Eb) as (H1 & P1).
    destruct (IH (S k) t s' H1) as (H2 & P2); [intros i u u' Hi; apply Hs; lia|exact E|].
    replace (k + S n)%nat with (S k + n)%nat by lia. split; [exact H2|]. intros i Hi. destruct (Nat.eq_dec i k) as [->|]; [exact P1|]. apply P2. lia.
Qed.
Lemma for_all {X} (Inv : nat -> X -> Prop) (P : nat -> Prop) body n s s' :
  Inv O s -> (forall i t t', (i < n)%nat -> Inv i t -> body i t = Ok t' -> Inv (S i) t' /\ P i) -> for_ n body s = Ok s' ->
  Inv n s' /\ forall i, (i < n)%nat -> P i.
Proof.
  intros H0 Hs E. destruct (for_from_all Inv P body n 0 s s' H0) as (H1 & H2); [intros i t t' Hi; apply Hs; lia|exact E|].
  split; [exact H1|]. intros i Hi. apply H2. lia.
Qed.

(** One element of the product. *)
Section Element.

Context (w : Z) (N M : nat) (A B : matrix Z) (f g : nat -> nat -> Z).
Context (HMN : (M <= N)%nat) (HA : repr N M A f) (HB : repr N M B g) (row col : nat) (Hr : (row < N)%nat) (Hc : (col < M)%nat).
Notation S_ := (int_scalar w).
Notation term := (fun k => (f row k * g k col)%Z).
Notation idx := (row * M + col)%nat.
Notation body := (fun k result =>
        x <- at2 M A (Z.of_nat row) (Z.of_nat k) ;;
        y <- at2 M B (Z.of_nat k) (Z.of_nat col) ;;
        p <- sc_mul S_ x y ;;
        r <- at2 M result (Z.of_nat row) (Z.of_nat col) ;;
        s <- sc_add S_ r p ;;
        set2 M result (Z.of_nat row) (Z.of_nat col) s).
Notation good := (forall k, (k < M)%nat -> fits w (term k) /\ fits w (partial_sum (S k) term)).

Lemma body_eq k r v : (k < M)%nat -> (idx < length r)%nat -> cell r idx v ->
  body k r = (p <- chk w (term k) ;; s <- chk w (v + p)%Z ;; Ok (replace_nth r idx (Some s))).
Proof.
  intros Hk L C. cbv beta. rewrite (proj2 HA row k Hr Hk), (proj2 HB k col ltac:(lia) Hc). cbn [bind sc_mul sc_add int_scalar].
  destruct (chk w _) as [p|]; [|reflexivity]. cbn [bind]. rewrite at2_nat, (cell_at _ _ _ C). cbn [bind].
  destruct (chk w (v + p)%Z) as [s|]; [|reflexivity]. cbn [bind]. rewrite set2_nat, set_nat by lia. reflexivity.
Qed.

Lemma element_ok m : good -> (idx < length m)%nat -> cell m idx 0%Z ->
  exists m', for_ M body m = Ok m' /\ length m' = length m /\ cell m' idx (partial_sum M term) /\
    (forall j, j <> idx -> nth_error m' j = nth_error m j).
Proof.
  intros G L0 C0. destruct (for_inv (fun k r => length r = length m /\ cell r idx (partial_sum k term) /\
               (forall j, j <> idx -> nth_error r j = nth_error m j)) body M m) as (m' & E & L & C & O).
  - split; [auto|split; [|auto]]. exact C0.
  - intros k r Hk (L & C & O). destruct (G k Hk) as (G1 & G2). rewrite partial_sum_S in G2.
    rewrite (body_eq k r _ Hk ltac:(lia) C), (chk_fits _ _ G1). cbn [bind]. rewrite (chk_fits _ _ G2). cbn [bind].
    eexists; split; [reflexivity|]. rewrite replace_nth_length. split; [auto|split].
    + rewrite partial_sum_S. apply cell_replace_same. lia.
    + intros j Hj. rewrite nth_error_replace_nth. destruct (Nat.eqb_spec idx j); [congruence|]. auto.
  - exists m'. auto.
Qed.

Lemma element_fits m m' : (idx < length m)%nat -> cell m idx 0%Z -> for_ M body m = Ok m' ->
  length m' = length m /\ (forall j, j <> idx -> nth_error m' j = nth_error m j) /\ good.
Proof.
  intros L0 C0 E. destruct (for_all (fun k r => length r = length m /\ cell r idx (partial_sum k term) /\
               (forall j, j <> idx -> nth_error r j = nth_error m j))
      (fun k => fits w (term k) /\ fits w (partial_sum (S k) term)) body M m m') as ((L & C & O) & P).
  - split; [auto|split; [|auto]]. exact C0.
  - intros k r r' Hk (L & C & O) Eb. rewrite (body_eq k r _ Hk ltac:(lia) C) in Eb.
    destruct (chk w (term k)) as [p|] eqn:E1; [|discriminate]. cbn [bind] in Eb. apply chk_iff in E1. destruct E1 as (-> & G1).
    destruct (chk w (_ + _)%Z) as [q|] eqn:E2; [|discriminate]. cbn [bind] in Eb. apply chk_iff in E2. destruct E2 as (-> & G2).
    injection Eb as <-. rewrite partial_sum_S, replace_nth_length. split; [|split; assumption]. split; [exact L|]. split.
    + apply cell_replace_same. lia.
    + intros j Hj. rewrite nth_error_replace_nth. destruct (Nat.eqb_spec idx j); [congruence|]. auto.
  - exact E.
  - split; [exact L|]. split; [exact O|exact P].
Qed.

End Element.

Theorem C163_product_defined : forall w N M A B f g,
  (M <= N)%nat -> repr N M A f -> repr N M B g ->
  (forall r c k, (r < N)%nat -> (c < M)%nat -> (k < M)%nat ->
     fits w (f r k * g k c) /\ fits w (partial_sum (S k) (fun k => f r k * g k c)%Z)) ->
  gives N M (mul_mm (int_scalar w) N M A B) (fun r c => partial_sum M (fun k => f r k * g k c)%Z).
Proof.
  intros w N M A B f g HMN HA HB G.
  assert (GZ : gives N M (mul_mm Z_scalar N M A B) (fun r c => partial_sum M (fun k => f r k * g k c)%Z)).
  { eapply gives_ext; [apply (mul_mm_gives Z_ring); eassumption|]. intros. cbn. symmetry. apply partial_sum_spec. }
  destruct (C163_exact_or_overflow w N M A B 0) as (_ & _ & [E|E] & _); [rewrite E; exact GZ|].
  exfalso. revert E. unfold mul_mm, rows, columns. cbn [sc_zero int_scalar].
  destruct (mat_fill_gives (int_scalar w) N M 0%Z) as (m0 & E0 & R0). rewrite E0. cbn [bind].
  apply repr_cell in R0. destruct R0 as [L0 C0].
  match goal with |- for_ N ?b m0 = _ -> _ =>
  destruct (for_inv (fun row r => length r = (N * M)%nat /\ forall i j, (row <= i < N)%nat -> (j < M)%nat -> cell r (i * M + j) 0%Z) b N m0) as (m & E & _) end.
  - split; [exact L0|]. intros i j Hi Hj. apply C0; lia.
  - intros row r Hrow (L & C).
    match goal with |- exists s', for_ M ?b r = _ /\ _ =>
    destruct (for_inv (fun col s => length s = (N * M)%nat /\ forall i j, ((row < i < N) \/ (i = row /\ col <= j))%nat -> (j < M)%nat -> cell s (i * M + j) 0%Z) b M r) as (s & E & L' & C') end.
    + split; [exact L|]. intros i j Hi Hj. apply C; lia.
    + intros col s Hcol (L' & C'). pose proof (index_lt row col N M Hrow Hcol) as IL.
      destruct (element_ok w N M A B f g HMN HA HB row col Hrow Hcol s) as (s' & E & L2 & _ & O2).
      * intros k Hk. apply G; assumption.
      * lia.
      * apply C'; lia.
      * exists s'. split; [exact E|]. split; [lia|]. intros i j Hi Hj. unfold cell. rewrite O2; [apply C'; lia|].
        intros e. destruct (index_inj _ _ _ _ _ Hj Hcol e) as [-> ->]. lia.
    + exists s. split; [exact E|]. split; [exact L'|]. intros i j Hi Hj. apply C'; lia.
  - intros E'. pose proof (eq_trans (eq_sym E) E') as D. discriminate D.
Qed.
Print Assumptions C163_product_defined.

(** If a product or a partial sum does not fit, multiplying is undefined, even if the result
    fits. *)
Theorem C163_product_overflows : forall w N M A B f g r c k,
  (M <= N)%nat -> repr N M A f -> repr N M B g -> (r < N)%nat -> (c < M)%nat -> (k < M)%nat ->
  ~ (fits w (f r k * g k c) /\ fits w (partial_sum (S k) (fun k => f r k * g k c)%Z)) ->
  mul_mm (int_scalar w) N M A B = Err SignedOverflow.
Proof.
  intros w N M A B f g r0 c0 k0 HMN HA HB Hr0 Hc0 Hk0 NF.
  assert (GZ : gives N M (mul_mm Z_scalar N M A B) (fun r c => partial_sum M (fun k => f r k * g k c)%Z)).
  { eapply gives_ext; [apply (mul_mm_gives Z_ring); eassumption|]. intros. cbn. symmetry. apply partial_sum_spec. }
  destruct (C163_exact_or_overflow w N M A B 0) as (_ & _ & [E|E] & _); [|exact E].
  exfalso. destruct GZ as (mz & EZ & _). rewrite EZ in E. revert E. unfold mul_mm, rows, columns. cbn [sc_zero int_scalar].
  destruct (mat_fill_gives (int_scalar w) N M 0%Z) as (m0 & E0 & R0). rewrite E0. cbn [bind].
  apply repr_cell in R0. destruct R0 as [L0 C0]. intros E. apply NF.
  match type of E with for_ N ?b m0 = _ =>
  destruct (for_all (fun row r => length r = (N * M)%nat /\ forall i j, (row <= i < N)%nat -> (j < M)%nat -> cell r (i * M + j) 0%Z)
    (fun row => forall col k, (col < M)%nat -> (k < M)%nat -> fits w (f row k * g k col) /\ fits w (partial_sum (S k) (fun k => f row k * g k col)%Z)) b N m0 mz) as (_ & P) end.
  - split; [exact L0|]. intros i j Hi Hj. apply C0; lia.
  - intros row t t' Hrow (L & C) Eb.
    match type of Eb with for_ M ?b t = _ =>
    destruct (for_all (fun col s => length s = (N * M)%nat /\ forall i j, ((row < i < N) \/ (i = row /\ col <= j))%nat -> (j < M)%nat -> cell s (i * M + j) 0%Z)
      (fun col => forall k, (k < M)%nat -> fits w (f row k * g k col) /\ fits w (partial_sum (S k) (fun k => f row k * g k col)%Z)) b M t t') as ((L' & C') & P) end.
    + split; [exact L|]. intros i j Hi Hj. apply C; lia.
    + intros col s s' Hcol (L' & C') Ee. pose proof (index_lt row col N M Hrow Hcol) as IL.
      destruct (element_fits w N M A B f g HMN HA HB row col Hrow Hcol s s' ltac:(lia) (C' row col ltac:(lia) Hcol) Ee) as (L2 & O2 & G).
      split; [|exact G]. split; [lia|]. intros i j Hi Hj. unfold cell. rewrite O2; [apply C'; lia|].
      intros e. destruct (index_inj _ _ _ _ _ Hj Hcol e) as [-> ->]. lia.
    + exact Eb.
    + split; [split; [exact L'|]|].
      * intros i j Hi Hj. apply C'; lia.
      * intros col k Hcol Hk. apply P; assumption.
  - exact E.
  - apply P; assumption.
Qed.
Print Assumptions C163_product_overflows.

(** The identity matrix is neutral for all matrices of [int]. *)
Theorem C163_eye_neutral : forall w N A f, (2 <= w)%Z -> repr N N A f ->
  (forall r c, (r < N)%nat -> (c < N)%nat -> fits w (f r c)) ->
  (I <- eye (int_scalar w) N ;; mul_mm (int_scalar w) N N I A) = Ok A /\
  (I <- eye (int_scalar w) N ;; mul_mm (int_scalar w) N N A I) = Ok A.
Proof.
  intros w N A f W HA F. destruct (eye_gives N (S := int_scalar w)) as (I & E & RI). rewrite E. cbn [bind sc_one sc_zero int_scalar] in *.
  assert (P : (2 <= 2 ^ (w - 1))%Z) by (change 2%Z with (2 ^ 1)%Z at 1; apply Z.pow_le_mono_r; lia).
  assert (Z0 : fits w 0) by (unfold fits; lia).
  assert (K : forall n i (h : nat -> Z) (b : bool), partial_sum n (fun k => if Nat.eqb k i then h k else 0%Z) = if Nat.ltb i n then h i else 0%Z).
  { intros n i h _. induction n as [|n IH]; [reflexivity|]. rewrite partial_sum_S, IH.
    destruct (Nat.ltb_spec i n), (Nat.ltb_spec i (S n)), (Nat.eqb_spec n i); subst; try lia. }
  assert (X : forall n h h', (forall k, h k = h' k) -> partial_sum n h = partial_sum n h').
  { intros n h h' H. unfold partial_sum. f_equal. apply map_ext. exact H. }
  split.
  - destruct (C163_product_defined w N N I A _ f (le_n N) RI HA) as (m & E1 & R1).
    + intros r c k Hr Hc Hk. cbv beta. split; [destruct (Nat.eqb r k); [rewrite Z.mul_1_l; auto|rewrite Z.mul_0_l; auto]|].
      rewrite (X _ _ (fun k => if Nat.eqb k r then f k c else 0%Z)).
      2: { intros i. rewrite Nat.eqb_sym. destruct (Nat.eqb i r); lia. }
      rewrite K by exact true. destruct (Nat.ltb r (S k)); auto.
    + rewrite E1. f_equal. eapply repr_unique; [exact R1|exact HA|]. intros r c Hr Hc. cbv beta.
      rewrite (X _ _ (fun k => if Nat.eqb k r then f k c else 0%Z)).
      2: { intros i. rewrite Nat.eqb_sym. destruct (Nat.eqb i r); lia. }
      rewrite K by exact true. destruct (Nat.ltb_spec r N); [reflexivity|lia].
  - destruct (C163_product_defined w N N A I f _ (le_n N) HA RI) as (m & E1 & R1).
    + intros r c k Hr Hc Hk. cbv beta. split; [destruct (Nat.eqb k c); [rewrite Z.mul_1_r; auto|rewrite Z.mul_0_r; auto]|].
      rewrite (X _ _ (fun k => if Nat.eqb k c then f r k else 0%Z)).
      2: { intros i. destruct (Nat.eqb i c); lia. }
      rewrite K by exact true. destruct (Nat.ltb c (S k)); auto.
    + rewrite E1. f_equal. eapply repr_unique; [exact R1|exact HA|]. intros r c Hr Hc. cbv beta.
      rewrite (X _ _ (fun k => if Nat.eqb k c then f r k else 0%Z)).
      2: { intros i. destruct (Nat.eqb i c); lia. }
      rewrite K by exact true. destruct (Nat.ltb_spec c N); [reflexivity|lia].
Qed.
Print Assumptions C163_eye_neutral.

(** A product; an overflow; an overflow although all elements of the exact result fit. *)
Example C163_case :
  mul_mm (int_scalar 32) 2 2 [Some 1; Some 2; Some 3; Some 4]%Z [Some 0; Some 1; Some 5; Some (-2)]%Z
    = Ok [Some 10; Some (-3); Some 20; Some (-5)]%Z /\
  mul_mm (int_scalar 32) 1 1 [Some 65536]%Z [Some 65536]%Z = Err SignedOverflow /\
  mul_mm (int_scalar 16) 2 2 [Some 200; Some 200; Some 0; Some 0]%Z [Some 200; Some 0; Some (-200); Some 0]%Z = Err SignedOverflow /\
  mul_mm Z_scalar 2 2 [Some 200; Some 200; Some 0; Some 0]%Z [Some 200; Some 0; Some (-200); Some 0]%Z = Ok [Some 0; Some 0; Some 0; Some 0]%Z /\
  fits 32 (-2147483648).
Proof. repeat split; unfold fits; cbn; lia. Qed.
