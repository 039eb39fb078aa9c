(** * Properties C01-C10: matrix.hpp *)

From Coq Require Import List ZArith Lia Ring Reals Lra.
From Verif Require Import Base Matrix MatrixSpec MatrixProofs Scalars.
Import ListNotations.

(** ** C01: element addressing *)

(** Read-back, frame, row-major position and exact bounds, for reads and writes. *)
Theorem C01_matrix_addressing :
  forall (T : Type) (N M : nat) (m : matrix T), wf N M m ->
  (* read back and frame *)
  (forall r c v, r < N -> c < M ->
     exists m', set2 M m (Z.of_nat r) (Z.of_nat c) v = Ok m' /\ wf N M m' /\
       at2 M m' (Z.of_nat r) (Z.of_nat c) = Ok v /\
       forall r' c', r' < N -> c' < M -> (r, c) <> (r', c') ->
         at2 M m' (Z.of_nat r') (Z.of_nat c') = at2 M m (Z.of_nat r') (Z.of_nat c')) /\
  (* linear access is row-major *)
  (forall r c : Z, at1 M m (r * Z.of_nat M + c) = at2 M m r c) /\
  (* columns past the end of a row alias the next row *)
  (forall r c : Z, at2 M m r (c + Z.of_nat M) = at2 M m (r + 1) c) /\
  (* undefined exactly outside the object *)
  (forall r c : Z, at2 M m r c = Err OutOfBounds <->
     ~ (0 <= r * Z.of_nat M + c < Z.of_nat (N * M))%Z) /\
  (forall (r c : Z) v, set2 M m r c v = Err OutOfBounds <->
     ~ (0 <= r * Z.of_nat M + c < Z.of_nat (N * M))%Z).
Proof.
  intros T N M m W. split; [|split; [|split; [|split]]].
  - intros r c v Hr Hc.
    destruct (set2_at2_same N M m r c v W Hr Hc) as (m' & E & W' & A).
    exists m'. repeat split; auto. intros.
    eapply (set2_at2_other N M m m' r c); eauto.
  - intros. unfold at1, at2. f_equal.
  - intros. unfold at2. f_equal; lia.
  - intros. now apply at2_oob.
  - intros. now apply set2_oob.
Qed.
Print Assumptions C01_matrix_addressing.

Example C01_case :
  let m := [Some 1; Some 2; Some 3; Some 4; Some 5; Some 6]%Z in
  wf 2 3 m /\ at2 3 m 1 2 = Ok 6%Z /\ at2 3 m 0 4 = Ok 5%Z /\
  at2 3 m 2 0 = Err OutOfBounds /\ at2 3 m (-1) 2 = Err OutOfBounds /\
  set2 3 m 1 0 9%Z = Ok [Some 1; Some 2; Some 3; Some 9; Some 5; Some 6]%Z.
Proof. repeat split. Qed.

(** ** C02: construction *)

Theorem C02_matrix_construction :
  forall (T : Type) (S : scalar T) (N M : nat) (il : list T),
  (length il <= N * M ->
   gives N M (mat_il S N M il) (fun r c => nth (r * M + c) il (sc_zero S))) /\
  (N * M < length il -> mat_il S N M il = Err OutOfBounds) /\
  (forall v, gives N M (mat_fill S N M v) (fun _ _ => v)) /\
  repr N M (mat_default S true N M) (fun _ _ => sc_zero S) /\
  (forall r c, r < N -> c < M ->
     at2 M (mat_default S false N M) (Z.of_nat r) (Z.of_nat c) = Err Indeterminate).
Proof.
  intros. split; [|split; [|split; [|split]]]; intros.
  - now apply mat_il_spec.
  - now apply mat_il_oob.
  - apply mat_fill_gives.
  - apply mat_default_avr.
  - now apply mat_default_desktop.
Qed.
Print Assumptions C02_matrix_construction.

Example C02_case :
  mat_il Z_scalar 2 2 [7; 8; 9]%Z = Ok [Some 7; Some 8; Some 9; Some 0]%Z /\
  mat_il Z_scalar 2 2 [1; 2; 3; 4; 5]%Z = Err OutOfBounds /\
  mat_fill Z_scalar 1 3 5%Z = Ok [Some 5; Some 5; Some 5]%Z.
Proof. repeat split. Qed.

(** ** C03: element-wise operators *)

Theorem C03_matrix_elementwise :
  forall (T : Type) (S : scalar T) (RS : ring_scalar S) (N M : nat)
         (A B V : matrix T) (f g w : nat -> nat -> T) (v : T),
  repr N M A f -> repr N M B g -> repr 1 1 V w ->
  gives N M (add_mm S N M A B) (fun r c => rs_add RS (f r c) (g r c)) /\
  gives N M (sub_mm S N M A B) (fun r c => rs_sub RS (f r c) (g r c)) /\
  gives N M (add_ms S N M A v) (fun r c => rs_add RS (f r c) v) /\
  gives N M (add_sm S N M v A) (fun r c => rs_add RS v (f r c)) /\
  gives N M (sub_ms S N M A v) (fun r c => rs_sub RS (f r c) v) /\
  gives N M (mul_ms S N M A v) (fun r c => rs_mul RS (f r c) v) /\
  gives N M (mul_sm S N M v A) (fun r c => rs_mul RS v (f r c)) /\
  gives N M (add_m_1x1 S N M A V) (fun r c => rs_add RS (f r c) (w 0 0)) /\
  gives N M (add_1x1_m S N M V A) (fun r c => rs_add RS (w 0 0) (f r c)) /\
  gives N M (mul_m_1x1 S N M A V) (fun r c => rs_mul RS (f r c) (w 0 0)) /\
  gives N M (mul_1x1_m S N M V A) (fun r c => rs_mul RS (w 0 0) (f r c)) /\
  add_1x1_s S V v = Ok (rs_add RS (w 0 0) v) /\
  add_s_1x1 S v V = Ok (rs_add RS v (w 0 0)) /\
  sub_1x1_s S V v = Ok (rs_sub RS (w 0 0) v) /\
  sub_s_1x1 S v V = Ok (rs_sub RS v (w 0 0)) /\
  mul_1x1_s S V v = Ok (rs_mul RS (w 0 0) v) /\
  mul_s_1x1 S v V = Ok (rs_mul RS v (w 0 0)) /\
  gives 1 1 (mul_1x1_1x1 S V V) (fun _ _ => rs_mul RS (w 0 0) (w 0 0)).
Proof.
  intros T S RS N M A B V f g w v HA HB HV.
  assert (Ca : forall x y, rs_add RS x y = rs_add RS y x) by apply (Radd_comm (rs_theory RS)).
  assert (Cm : forall x y, rs_mul RS x y = rs_mul RS y x) by apply (Rmul_comm (rs_theory RS)).
  pose proof (repr_11 V w HV) as E.
  repeat split.
  - now apply add_mm_gives.
  - now apply sub_mm_gives.
  - now apply add_ms_gives.
  - eapply gives_ext; [now apply (add_ms_gives RS); eauto|]. intros; apply Ca.
  - now apply sub_ms_gives.
  - now apply mul_ms_gives.
  - eapply gives_ext; [now apply (mul_ms_gives RS); eauto|]. intros; apply Cm.
  - unfold add_m_1x1. rewrite E. now apply add_ms_gives.
  - unfold add_1x1_m, add_sm. rewrite E.
    eapply gives_ext; [now apply (add_ms_gives RS); eauto|]. intros; apply Ca.
  - unfold mul_m_1x1. rewrite E. now apply mul_ms_gives.
  - unfold mul_1x1_m. rewrite E.
    eapply gives_ext; [now apply (mul_ms_gives RS); eauto|]. intros; apply Cm.
  - unfold add_1x1_s. rewrite E. apply (rs_add_ok RS).
  - unfold add_s_1x1. rewrite E. simpl. rewrite (rs_add_ok RS), Ca. reflexivity.
  - unfold sub_1x1_s. rewrite E. apply (rs_sub_ok RS).
  - unfold sub_s_1x1. rewrite E. apply (rs_sub_ok RS).
  - unfold mul_1x1_s. rewrite E. apply (rs_mul_ok RS).
  - unfold mul_s_1x1, mul_1x1_s. rewrite E. simpl. rewrite (rs_mul_ok RS), Cm. reflexivity.
  - unfold mul_1x1_1x1. rewrite E. simpl. rewrite (rs_mul_ok RS). simpl.
    eapply gives_ext; [apply mat_il_spec; simpl; lia|].
    intros [|] [|]; simpl; intros; try lia. reflexivity.
Qed.
Print Assumptions C03_matrix_elementwise.

Example C03_case :
  let A := [Some 1; Some 2; Some 3; Some 4; Some 5; Some 6]%Z in
  repr 2 3 A (fun r c => Z.of_nat (r * 3 + c + 1)) /\
  sub_ms Z_scalar 2 3 A 10%Z = Ok [Some (-9); Some (-8); Some (-7); Some (-6); Some (-5); Some (-4)]%Z.
Proof.
  split; [|reflexivity]. split; [reflexivity|].
  intros [|[|r]] [|[|[|c]]]; intros; try lia; reflexivity.
Qed.

(** ** C04: the square product *)

Section SquareProduct.
Context {T : Type} {S : scalar T} (RS : ring_scalar S).
Notation sum := (sum (sc_zero S) (rs_add RS)).

(** The product of square matrices is the mathematical one. *)
Theorem C04_square_product N A B f g :
  repr N N A f -> repr N N B g ->
  gives N N (mul_mm S N N A B) (fun r c => sum N (fun k => rs_mul RS (f r k) (g k c))).
Proof. intros. now apply mul_mm_gives. Qed.

Theorem C04_product_associative N A B C f g h :
  repr N N A f -> repr N N B g -> repr N N C h ->
  exists m, (AB <- mul_mm S N N A B ;; mul_mm S N N AB C) = Ok m /\
            (BC <- mul_mm S N N B C ;; mul_mm S N N A BC) = Ok m.
Proof.
  intros HA HB HC.
  destruct (C04_square_product N A B f g HA HB) as (AB & E1 & R1).
  destruct (C04_square_product N B C g h HB HC) as (BC & E2 & R2).
  rewrite E1, E2. simpl.
  destruct (C04_square_product N AB C _ h R1 HC) as (m & E3 & R3).
  destruct (C04_square_product N A BC f _ HA R2) as (m' & E4 & R4).
  exists m. split; auto. rewrite E4. f_equal. symmetry.
  eapply repr_unique; eauto. intros. simpl. apply (sum_assoc RS).
Qed.

Theorem C04_product_distributes N A B C f g h :
  repr N N A f -> repr N N B g -> repr N N C h ->
  (exists m, (BC <- add_mm S N N B C ;; mul_mm S N N A BC) = Ok m /\
             (AB <- mul_mm S N N A B ;; AC <- mul_mm S N N A C ;; add_mm S N N AB AC) = Ok m) /\
  (exists m, (BC <- add_mm S N N B C ;; mul_mm S N N BC A) = Ok m /\
             (BA <- mul_mm S N N B A ;; CA <- mul_mm S N N C A ;; add_mm S N N BA CA) = Ok m).
Proof.
  intros HA HB HC.
  destruct (add_mm_gives RS N N B C g h HB HC) as (BC & E1 & R1).
  rewrite E1. simpl. split.
  - destruct (C04_square_product N A BC f _ HA R1) as (m & E2 & R2).
    destruct (C04_square_product N A B f g HA HB) as (AB & E3 & R3).
    destruct (C04_square_product N A C f h HA HC) as (AC & E4 & R4).
    rewrite E2, E3, E4. simpl.
    destruct (add_mm_gives RS N N AB AC _ _ R3 R4) as (m' & E5 & R5).
    exists m. split; auto. rewrite E5. f_equal. symmetry.
    eapply repr_unique; eauto. intros. simpl. rewrite <- (sum_add RS).
    apply sum_ext. intros.
    rewrite (Rmul_comm (rs_theory RS)), (Rdistr_l (rs_theory RS)).
    f_equal; apply (Rmul_comm (rs_theory RS)).
  - destruct (C04_square_product N BC A _ f R1 HA) as (m & E2 & R2).
    destruct (C04_square_product N B A g f HB HA) as (AB & E3 & R3).
    destruct (C04_square_product N C A h f HC HA) as (AC & E4 & R4).
    rewrite E2, E3, E4. simpl.
    destruct (add_mm_gives RS N N AB AC _ _ R3 R4) as (m' & E5 & R5).
    exists m. split; auto. rewrite E5. f_equal. symmetry.
    eapply repr_unique; eauto. intros. simpl. rewrite <- (sum_add RS).
    apply sum_ext. intros. apply (Rdistr_l (rs_theory RS)).
Qed.

Theorem C04_eye_neutral N A f :
  repr N N A f ->
  (I <- eye S N ;; mul_mm S N N I A) = Ok A /\
  (I <- eye S N ;; mul_mm S N N A I) = Ok A.
Proof.
  intros HA. destruct (eye_gives N (S := S)) as (I & E & R). rewrite E. simpl.
  pose proof (rs_theory RS) as RT.
  split.
  - destruct (C04_square_product N I A _ f R HA) as (m & E1 & R1). rewrite E1. f_equal.
    eapply repr_unique; eauto. intros r c Hr Hc. simpl.
    rewrite <- (sum_single RS N r (fun k => f k c) Hr). apply sum_ext. intros k Hk.
    rewrite (Nat.eqb_sym k r). destruct (Nat.eqb r k).
    + apply (Rmul_1_l RT).
    + apply (rs_mul_0_l RS).
  - destruct (C04_square_product N A I f _ HA R) as (m & E1 & R1). rewrite E1. f_equal.
    eapply repr_unique; eauto. intros r c Hr Hc. simpl.
    rewrite <- (sum_single RS N c (fun k => f r k) Hc). apply sum_ext. intros k Hk.
    rewrite (Rmul_comm RT). destruct (Nat.eqb k c).
    + apply (Rmul_1_l RT).
    + apply (rs_mul_0_l RS).
Qed.

End SquareProduct.
Print Assumptions C04_square_product.
Print Assumptions C04_product_associative.
Print Assumptions C04_product_distributes.
Print Assumptions C04_eye_neutral.

Example C04_case :
  let A := [Some 1; Some 2; Some 3; Some 4]%Z in
  let B := [Some 0; Some 1; Some 5; Some (-2)]%Z in
  mul_mm Z_scalar 2 2 A B = Ok [Some 10; Some (-3); Some 20; Some (-5)]%Z /\
  mul_mm Z_scalar 2 2 B A = Ok [Some 3; Some 4; Some (-1); Some 2]%Z.
Proof. repeat split. Qed.

(** ** C05: rectangular products *)

Theorem C05_rectangular_products :
  forall (T : Type) (S : scalar T) (RS : ring_scalar S) (N M : nat)
         (A B x y : matrix T) (f g u v : nat -> nat -> T),
  0 < N -> repr N M A f -> repr N M B g -> repr 1 N x u -> repr N 1 y v ->
  (* more columns than rows: undefined whatever the elements *)
  (N < M ->
     mul_mm S N M A B = Err OutOfBounds /\
     mul_vm S N M x A = Err OutOfBounds /\
     mul_mv S N M A y = Err OutOfBounds) /\
  (* otherwise defined: the rows of the second operand beyond the M-th take no part, nor
     the elements of the column vector beyond the M-th, and the row vector that results is
     filled up with zeros *)
  (M <= N ->
     gives N M (mul_mm S N M A B)
       (fun r c => sum (sc_zero S) (rs_add RS) M (fun k => rs_mul RS (f r k) (g k c))) /\
     gives 1 N (mul_vm S N M x A)
       (fun _ c => if Nat.ltb c M
                   then sum (sc_zero S) (rs_add RS) N (fun k => rs_mul RS (u 0 k) (f k c))
                   else sc_zero S) /\
     gives N 1 (mul_mv S N M A y)
       (fun r _ => sum (sc_zero S) (rs_add RS) M (fun k => rs_mul RS (f r k) (v k 0)))).
Proof.
  intros T S RS N M A B x y f g u v HN HA HB Hx Hy. split; intros HM; repeat split.
  - eapply (mul_mm_oob RS); eauto.
  - eapply (mul_vm_oob RS); eauto.
  - eapply (mul_mv_oob RS); eauto.
  - exact (mul_mm_gives RS N M A B f g HM HA HB).
  - eapply gives_ext; [exact (mul_vm_gives RS N M x A u f HM Hx HA)|].
    intros r c Hr Hc. cbn beta. destruct (Nat.ltb c M); [|reflexivity].
    apply sum_ext. intros. apply (Rmul_comm (rs_theory RS)).
  - exact (mul_mv_gives RS N M A y f v HM HA Hy).
Qed.
Print Assumptions C05_rectangular_products.

Example C05_case :
  let A := [Some 1; Some 2; Some 3; Some 4; Some 5; Some 6]%Z in
  repr 2 3 A (fun r c => Z.of_nat (r * 3 + c + 1)) /\
  mul_mm Z_scalar 2 3 A A = Err OutOfBounds /\
  mul_mm Z_scalar 3 2 A A = Ok [Some 7; Some 10; Some 15; Some 22; Some 23; Some 34]%Z.
Proof.
  split; [|split; reflexivity]. split; [reflexivity|].
  intros [|[|r]] [|[|[|c]]]; intros; try lia; reflexivity.
Qed.

(** ** C06: vectors *)

Section Vectors.
Context {T : Type} {S : scalar T} (RS : ring_scalar S).
Notation sum := (sum (sc_zero S) (rs_add RS)).

Theorem C06_vector_products N A x y f u v :
  repr N N A f -> repr 1 N x u -> repr N 1 y v ->
  dot S N x y = Ok (sum N (fun i => rs_mul RS (u 0 i) (v i 0))) /\
  gives N N (outer S N y x) (fun r c => rs_mul RS (v r 0) (u 0 c)) /\
  gives 1 N (mul_vm S N N x A) (fun _ c => sum N (fun k => rs_mul RS (u 0 k) (f k c))) /\
  gives N 1 (mul_mv S N N A y) (fun r _ => sum N (fun k => rs_mul RS (f r k) (v k 0))).
Proof.
  intros HA Hx Hy. split; [|split; [|split]].
  - now apply dot_gives.
  - now apply outer_gives.
  - eapply gives_ext; [now apply (mul_vm_gives RS N N x A u f)|].
    intros r c Hr Hc. simpl. destruct (Nat.ltb_spec c N); [|lia].
    apply sum_ext. intros. apply (Rmul_comm (rs_theory RS)).
  - now apply mul_mv_gives.
Qed.

Theorem C06_matrix_vector_associative N A B x y f g u v :
  repr N N A f -> repr N N B g -> repr 1 N x u -> repr N 1 y v ->
  (exists m, (AB <- mul_mm S N N A B ;; mul_mv S N N AB y) = Ok m /\
             (By <- mul_mv S N N B y ;; mul_mv S N N A By) = Ok m) /\
  (exists m, (AB <- mul_mm S N N A B ;; mul_vm S N N x AB) = Ok m /\
             (xA <- mul_vm S N N x A ;; mul_vm S N N xA B) = Ok m) /\
  (exists s, (Ay <- mul_mv S N N A y ;; dot S N x Ay) = Ok s /\
             (xA <- mul_vm S N N x A ;; dot S N xA y) = Ok s).
Proof.
  intros HA HB Hx Hy.
  destruct (C04_square_product RS N A B f g HA HB) as (AB & E1 & R1). rewrite E1. simpl.
  destruct (C06_vector_products N A x y f u v HA Hx Hy)
    as (_ & _ & (xA & E2 & R2) & (Ay & E3 & R3)).
  destruct (C06_vector_products N B x y g u v HB Hx Hy)
    as (_ & _ & _ & (By & E4 & R4)).
  rewrite E2, E3, E4. simpl. split; [|split].
  - destruct (C06_vector_products N AB x y _ u v R1 Hx Hy)
      as (_ & _ & _ & (m & E5 & R5)).
    destruct (C06_vector_products N A x By f u _ HA Hx R4)
      as (_ & _ & _ & (m' & E6 & R6)).
    exists m. split; auto. rewrite E6. f_equal. symmetry.
    eapply repr_unique; eauto. intros. simpl. apply (sum_assoc RS).
  - destruct (C06_vector_products N AB x y _ u v R1 Hx Hy)
      as (_ & _ & (m & E5 & R5) & _).
    destruct (C06_vector_products N B xA y g _ v HB R2 Hy)
      as (_ & _ & (m' & E6 & R6) & _).
    exists m. split; auto. rewrite E6. f_equal. symmetry.
    eapply repr_unique; eauto. intros r c Hr Hc. simpl.
    symmetry. apply (sum_assoc RS N u f g 0 c).
  - rewrite (dot_gives RS N x Ay u _ Hx R3), (dot_gives RS N xA y _ v R2 Hy).
    eexists. split; [reflexivity|]. f_equal.
    apply (sum_assoc RS N u f v 0 0).
Qed.
End Vectors.
Print Assumptions C06_vector_products.
Print Assumptions C06_matrix_vector_associative.

Example C06_case :
  let A := [Some 1; Some 2; Some 3; Some 4]%Z in
  let x := [Some 5; Some 7]%Z in
  dot Z_scalar 2 x x = Ok 74%Z /\
  mul_mv Z_scalar 2 2 A x = Ok [Some 19; Some 43]%Z /\
  mul_vm Z_scalar 2 2 x A = Ok [Some 26; Some 38]%Z /\
  outer Z_scalar 2 x x = Ok [Some 25; Some 35; Some 35; Some 49]%Z.
Proof. repeat split. Qed.

(** ** C07: transposition *)

Section Transposition.
Context {T : Type} {S : scalar T} (RS : ring_scalar S).

Theorem C07_transposed N (A x y : matrix T) f u v :
  repr 2 2 A f -> repr 1 N x u -> repr N 1 y v ->
  gives 2 2 (transposed_22 A) (fun r c => f c r) /\
  gives N 1 (transposed_row S N x) (fun r c => u c r) /\
  gives 1 N (transposed_col S N y) (fun r c => v c r) /\
  (* involution *)
  (At <- transposed_22 A ;; transposed_22 At) = Ok A /\
  (xt <- transposed_row S N x ;; transposed_col S N xt) = Ok x /\
  (yt <- transposed_col S N y ;; transposed_row S N yt) = Ok y.
Proof.
  intros HA Hx Hy.
  destruct (transposed_22_gives A f HA) as (At & E1 & R1).
  destruct (transposed_row_gives S N x u Hx) as (xt & E2 & R2).
  destruct (transposed_col_gives S N y v Hy) as (yt & E3 & R3).
  rewrite E1, E2, E3. simpl.
  destruct (transposed_22_gives At _ R1) as (A' & E4 & R4).
  destruct (transposed_col_gives S N xt _ R2) as (x' & E5 & R5).
  destruct (transposed_row_gives S N yt _ R3) as (y' & E6 & R6).
  rewrite E4, E5, E6. repeat split.
  - exists At; auto.
  - exists xt; auto.
  - exists yt; auto.
  - f_equal. eapply repr_unique; eauto.
  - f_equal. eapply repr_unique; eauto.
  - f_equal. eapply repr_unique; eauto.
Qed.

Theorem C07_transposed_product (A B : matrix T) f g :
  repr 2 2 A f -> repr 2 2 B g ->
  (exists m, (AB <- mul_mm S 2 2 A B ;; transposed_22 AB) = Ok m /\
             (At <- transposed_22 A ;; Bt <- transposed_22 B ;; mul_mm S 2 2 Bt At) = Ok m) /\
  (exists m, (AB <- add_mm S 2 2 A B ;; transposed_22 AB) = Ok m /\
             (At <- transposed_22 A ;; Bt <- transposed_22 B ;; add_mm S 2 2 At Bt) = Ok m).
Proof.
  intros HA HB.
  destruct (transposed_22_gives A f HA) as (At & E1 & R1).
  destruct (transposed_22_gives B g HB) as (Bt & E2 & R2).
  destruct (C04_square_product RS 2 A B f g HA HB) as (AB & E3 & R3).
  destruct (add_mm_gives RS 2 2 A B f g HA HB) as (AB' & E4 & R4).
  rewrite E1, E2, E3, E4. simpl.
  destruct (transposed_22_gives AB _ R3) as (m & E5 & R5).
  destruct (transposed_22_gives AB' _ R4) as (m' & E6 & R6).
  destruct (C04_square_product RS 2 Bt At _ _ R2 R1) as (n & E7 & R7).
  destruct (add_mm_gives RS 2 2 At Bt _ _ R1 R2) as (n' & E8 & R8).
  split.
  - exists m; split; auto. rewrite E7. f_equal. symmetry. eapply repr_unique; eauto.
    intros. simpl. rewrite !(Rmul_comm (rs_theory RS) (f c _)). reflexivity.
  - exists m'; split; auto. rewrite E8. f_equal. symmetry. eapply repr_unique; eauto.
Qed.
End Transposition.
Print Assumptions C07_transposed.
Print Assumptions C07_transposed_product.

Example C07_case :
  transposed_22 [Some 1; Some 2; Some 3; Some 4]%Z = Ok [Some 1; Some 3; Some 2; Some 4]%Z.
Proof. reflexivity. Qed.

(** ** C08: scalar inversion *)

Theorem C08_scalar_inverse :
  forall v : R,
  exists w, inverted_s R_scalar v = Ok w /\
    (v <> 0 -> w * v = 1 /\ v * w = 1)%R /\ (v = 0 -> w = 0)%R.
Proof.
  intros v. unfold inverted_s. simpl. destruct (Req_EM_T v 0) as [e|ne].
  - exists 0%R. repeat split; intros; lra.
  - exists (1 / v)%R. repeat split; intros; try (field; assumption). congruence.
Qed.
Print Assumptions C08_scalar_inverse.

(** For every numeric type: a value that compares equal to zero is never used as a
    divisor. *)
Theorem C08_no_division_by_zero :
  forall (T : Type) (S : scalar T) (v : T),
  sc_nz S v = false -> inverted_s S v = Ok (sc_zero S).
Proof. intros. unfold inverted_s. now rewrite H. Qed.
Print Assumptions C08_no_division_by_zero.

Example C08_case : inverted_s R_scalar 4%R = Ok (1 / 4)%R.
Proof. unfold inverted_s. simpl. destruct (Req_EM_T 4 0); [lra|reflexivity]. Qed.

(** ** C09: 2x2 inversion *)

(** Specification: [g] is the two-sided inverse of [f]. *)
Definition prod22 (f g : nat -> nat -> R) (r c : nat) : R :=
  (f r 0%nat * g 0%nat c + f r 1%nat * g 1%nat c)%R.
Definition is_inverse22 (f g : nat -> nat -> R) : Prop :=
  forall r c, r < 2 -> c < 2 ->
    prod22 f g r c = (if Nat.eqb r c then 1 else 0)%R /\
    prod22 g f r c = (if Nat.eqb r c then 1 else 0)%R.
Definition det22 (f : nat -> nat -> R) : R :=
  (f 0%nat 0%nat * f 1%nat 1%nat - f 0%nat 1%nat * f 1%nat 0%nat)%R.

Lemma inverted_22_gives A f :
  repr 2 2 A f -> det22 f <> 0%R ->
  gives 2 2 (inverted_22 R_scalar A)
    (fun r c => match r, c with
       | O, O => ((1 / det22 f) * f 1%nat 1%nat)%R
       | O, _ => (- (1 / det22 f) * f 1%nat 0%nat)%R
       | _, O => (- (1 / det22 f) * f 0%nat 1%nat)%R
       | _, _ => ((1 / det22 f) * f 0%nat 0%nat)%R end).
Proof.
  intros H D. apply repr_22 in H. subst A. unfold inverted_22.
  cbv -[Rplus Rminus Rmult Rdiv Ropp Req_EM_T det22 gives IZR].
  fold (det22 f).
  destruct (Req_EM_T (det22 f) 0); [contradiction|].
  eexists; split; [reflexivity|]. apply repr_22. reflexivity.
Qed.

(** The result, transposed, is the inverse; the result itself is the inverse exactly
    for symmetric matrices; singular matrices divide by zero. *)
Theorem C09_inverted_22_is_transposed_inverse :
  forall (A : matrix R) (f : nat -> nat -> R),
  repr 2 2 A f ->
  (det22 f = 0%R -> inverted_22 R_scalar A = Err DivByZero) /\
  (det22 f <> 0%R ->
     exists g, gives 2 2 (inverted_22 R_scalar A) g /\
       is_inverse22 f (fun r c => g c r) /\
       (is_inverse22 f g <-> f 0 1 = f 1 0)).
Proof.
  intros A f H. split; intros D.
  - apply repr_22 in H. subst A. unfold inverted_22.
    cbv -[Rplus Rminus Rmult Rdiv Ropp Req_EM_T det22 IZR].
    fold (det22 f). destruct (Req_EM_T (det22 f) 0); [reflexivity|contradiction].
  - eexists. split; [exact (inverted_22_gives A f H D)|].
    assert (Dx : (f 0%nat 0%nat * f 1%nat 1%nat - f 0%nat 1%nat * f 1%nat 0%nat)%R <> 0%R)
      by exact D.
    split.
    + intros [|[|r]] [|[|c]] Hr Hc; try lia; unfold prod22, det22; simpl;
        split; field; exact Dx.
    + split.
      * intros I. destruct (I 0 1 ltac:(lia) ltac:(lia)) as [E1 E2].
        destruct (I 0 0 ltac:(lia) ltac:(lia)) as [E3 E4].
        destruct (I 1 0 ltac:(lia) ltac:(lia)) as [E5 E6].
        destruct (I 1 1 ltac:(lia) ltac:(lia)) as [E7 E8].
        unfold prod22 in *. simpl in *.
        set (d := (1 / det22 f)%R) in *.
        assert (Hd : (d * det22 f = 1)%R) by (unfold d; field; exact D).
        unfold det22 in Hd.
        set (a := f 0 0) in *. set (b := f 0 1) in *. set (c := f 1 0) in *.
        set (e := f 1 1) in *.
        assert (dn : d <> 0%R) by (intros Z; rewrite Z in Hd; lra).
        (* E1: a*(-d*c) + b*(d*a) = 0, E5: c*(d*e)+e*(-d*b) = 0 *)
        assert (X1 : (a * (b - c) = 0)%R)
          by (apply (Rmult_eq_reg_l d); [|assumption]; rewrite Rmult_0_r; rewrite <- E1; ring).
        assert (X2 : (e * (c - b) = 0)%R)
          by (apply (Rmult_eq_reg_l d); [|assumption]; rewrite Rmult_0_r; rewrite <- E5; ring).
        destruct (Req_dec (b - c) 0) as [Z|Z]; [lra|]. exfalso.
        assert (a = 0)%R by (apply Rmult_integral in X1; destruct X1; auto; contradiction).
        assert (e = 0)%R by (apply Rmult_integral in X2; destruct X2; auto; lra).
        (* E3: a*d*e + b*(-d*b) = 1 *)
        assert (X3 : (b * (b - c) = 0)%R).
        { apply (Rmult_eq_reg_l d); [|assumption]. rewrite Rmult_0_r.
          replace (d * (b * (b - c)))%R with
            (d * (a * e - b * c) - (a * (d * e) + b * (- d * b)))%R by ring.
          rewrite Hd, E3. ring. }
        assert (b = 0)%R by (apply Rmult_integral in X3; destruct X3; auto; contradiction).
        clear - Hd H0 H1 H2. rewrite H0, H1, H2 in Hd. lra.
      * intros E. intros [|[|r]] [|[|c]] Hr Hc; try lia; unfold prod22, det22; simpl;
        rewrite E in *; split; field; exact Dx.
Qed.
Print Assumptions C09_inverted_22_is_transposed_inverse.

(** The claim the function's name makes is false: the library's own test matrix. *)
Theorem C09_inverted_22_refuted :
  ~ (forall A f g, repr 2 2 A f -> det22 f <> 0%R ->
       gives 2 2 (inverted_22 R_scalar A) g -> is_inverse22 f g).
Proof.
  intros X.
  set (f := fun r c : nat => match r, c with
                             | O, O => 1 | O, _ => 2 | _, O => 3 | _, _ => 4 end%R).
  set (A := [Some (f 0 0); Some (f 0 1); Some (f 1 0); Some (f 1 1)]).
  assert (HA : repr 2 2 A f) by (apply repr_22; reflexivity).
  assert (D : det22 f <> 0%R) by (unfold det22, f; lra).
  destruct (C09_inverted_22_is_transposed_inverse A f HA) as [_ Y].
  destruct (Y D) as (g & G & _ & I).
  pose proof (proj1 I (X A f g HA D G)) as E. unfold f in E. lra.
Qed.
Print Assumptions C09_inverted_22_refuted.

Example C09_case :
  gives 2 2 (inverted_22 R_scalar [Some 1; Some 2; Some 3; Some 4]%R)
    (fun r c => match r, c with O, O => -2 | O, _ => 3 / 2 | _, O => 1 | _, _ => - (1 / 2) end%R).
Proof.
  set (f := fun r c : nat => match r, c with
                             | O, O => 1 | O, _ => 2 | _, O => 3 | _, _ => 4 end%R).
  assert (HA : repr 2 2 [Some 1; Some 2; Some 3; Some 4]%R f) by (apply repr_22; reflexivity).
  eapply gives_ext; [apply (inverted_22_gives _ f HA); unfold det22, f; lra|].
  intros [|[|r]] [|[|c]] Hr Hc; try lia; unfold det22, f; simpl; lra.
Qed.

(** ** C10: identity matrix *)

Theorem C10_eye :
  forall (T : Type) (S : scalar T) (N : nat),
  gives N N (eye S N) (fun r c => if Nat.eqb r c then sc_one S else sc_zero S).
Proof. intros. apply eye_gives. Qed.
Print Assumptions C10_eye.

Example C10_case :
  eye Z_scalar 3 = Ok [Some 1; Some 0; Some 0; Some 0; Some 1; Some 0; Some 0; Some 0; Some 1]%Z.
Proof. reflexivity. Qed.
