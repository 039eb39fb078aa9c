(** * Lemmas: the simulation in fixed point against exact arithmetic *)

From Coq Require Import Reals List Arith ZArith Bool Lia Lra Psatz.
From Flocq Require Import Core BinarySingleNaN.
From Verif Require Import Base Matrix MatrixSpec Scalars Kalman KalmanSpec KalmanProofs PropsKalman PropsRiccati
  FixedPoint FixedSpec FixedProofs FixedFloat FixedFloatSpec PropsFixedFloat
  KalmanSim PropsKalmanSim Ieee IeeeProofs KalmanIeee Output PropsOutputSim SimRoundingSpec SimRoundingProofs
  FixedSim FixedSimSpec FixedSimBounds.
Import ListNotations.

(** ** The matrix operations of a pass as single operations *)

Section Single.
Context {T : Type} (zero one : T) (add sub mul div : T -> T -> outcome T) (opp : T -> outcome T) (nz : T -> bool).
Let S : scalar T := {| sc_zero := zero; sc_one := one; sc_add := add; sc_sub := sub; sc_mul := mul; sc_div := div;
  sc_opp := opp; sc_nz := nz |}.

Ltac steps := cbv; repeat match goal with |- context [match ?e with Ok _ => _ | Err _ => _ end] =>
  match e with context [match _ with Ok _ => _ | Err _ => _ end] => fail 1 | _ => destruct e; try reflexivity end end;
  try reflexivity.

Lemma single_mul_ms a b v : mul_ms S 2 1 [Some a; Some b] v
  = (p <- mul a v ;; q <- mul b v ;; Ok [Some p; Some q]).
Proof. steps. Qed.
Lemma single_add a b c d : add_mm S 2 1 [Some a; Some b] [Some c; Some d]
  = (p <- add a c ;; q <- add b d ;; Ok [Some p; Some q]).
Proof. steps. Qed.
Lemma single_mul_mv a b c d x y : mul_mv S 2 2 [Some a; Some b; Some c; Some d] [Some x; Some y]
  = (p <- mul a x ;; p' <- add zero p ;; q <- mul b y ;; q' <- add p' q ;;
     r <- mul c x ;; r' <- add zero r ;; s <- mul d y ;; s' <- add r' s ;; Ok [Some q'; Some s']).
Proof. steps. Qed.
Lemma single_mul_Bu a b u : mul_Bu S 1 [Some a; Some b] [Some u]
  = (p <- mul a u ;; q <- mul b u ;; Ok [Some p; Some q]).
Proof. steps. Qed.
Lemma single_dot a b x y : dot S 2 [Some a; Some b] [Some x; Some y]
  = (p <- mul a x ;; p' <- add zero p ;; q <- mul b y ;; add p' q).
Proof. steps. Qed.
End Single.

(** ** The arithmetic, as long as nothing overflows *)

Notation c32 := (fp32 32).
Notation FN := (fixed_numeric c32).
Definition big : Z := (2 ^ 31)%Z.
Definition in31 (a : Z) : Prop := (- big < a < big)%Z.

Lemma wrap32 a : in31 a -> wrap 32 a = a.
Proof.
  unfold in31, big, wrap. intros H. change (2 ^ (32 - 1))%Z with 2147483648%Z. change (2 ^ 32)%Z with 4294967296%Z.
  change (2 ^ 31)%Z with 2147483648%Z in H. rewrite Z.mod_small by lia. lia.
Qed.
Lemma chk_in w a : (- 2 ^ (w - 1) <= a < 2 ^ (w - 1))%Z -> chk w a = Ok a.
Proof.
  intros H. unfold chk. destruct (Z.leb_spec (- 2 ^ (w - 1)) a), (Z.ltb_spec a (2 ^ (w - 1))); cbn; try reflexivity; lia.
Qed.
Lemma add32 a b : in31 (a + b) -> fx_add c32 a b = Ok (a + b)%Z.
Proof.
  intros H. unfold fx_add. change (arith_width c32 (fx_w c32)) with 32%Z. rewrite chk_in, bind_Ok.
  - f_equal. now apply wrap32.
  - unfold in31, big in H. change (32 - 1)%Z with 31%Z. lia.
Qed.
Lemma sub32 a b : in31 (a - b) -> fx_sub c32 a b = Ok (a - b)%Z.
Proof.
  intros H. unfold fx_sub. change (arith_width c32 (fx_w c32)) with 32%Z. rewrite chk_in, bind_Ok.
  - f_equal. now apply wrap32.
  - unfold in31, big in H. change (32 - 1)%Z with 31%Z. lia.
Qed.
Lemma mul32 a b : (- 3 * 2 ^ 45 < a * b < 3 * 2 ^ 45)%Z -> fx_mul c32 a b = Ok (a * b / 65536)%Z.
Proof.
  intros H. unfold fx_mul. change (arith_width c32 (promote_width (fx_w c32))) with 64%Z.
  rewrite chk_in by (change (64 - 1)%Z with 63%Z; lia). rewrite bind_Ok.
  change (sshr 64 (a * b) (fx_F c32)) with (@Ok Z (a * b / 65536)%Z). rewrite bind_Ok. f_equal. apply wrap32.
  unfold in31, big. change (2 ^ 45)%Z with (536870912 * 65536)%Z in H.
  assert (a * b / 65536 < 1610612736)%Z by (apply Z.div_lt_upper_bound; lia).
  assert (- 1610612736 <= a * b / 65536)%Z by (apply Z.div_le_lower_bound; lia). lia.
Qed.
Definition in30 (a : Z) : Prop := (- 2 ^ 30 < a < 2 ^ 30)%Z.
Lemma one_times a : in30 a -> fx_mul c32 65536 a = Ok a.
Proof.
  unfold in30. intros H. rewrite mul32 by lia. f_equal. rewrite Z.mul_comm. now apply Z.div_mul.
Qed.
Lemma times_one a : in30 a -> fx_mul c32 a 65536 = Ok a.
Proof.
  unfold in30. intros H. rewrite mul32 by lia. f_equal. now apply Z.div_mul.
Qed.
Lemma zero_times32 a : fx_mul c32 0 a = Ok 0%Z.
Proof. rewrite mul32 by lia. f_equal. Qed.

(** ** One pass of the loop *)

Definition acc : Z := 13107.
Definition fprm : kparams Z :=
  {| kA := [Some 65536; Some 65536; Some 0; Some 65536]; kB := [Some 32768; Some 65536];
     kH := [Some 65536; Some 0]; kQ := [Some 655; Some 1310; Some 1310; Some 2621]; kR := [Some 6553600];
     kdt := 65536 |}%Z.
Definition fQ : @m4 Z := M4 655%Z 1310%Z 1310%Z 2621%Z.
Lemma setup_fixed : sim_setup FN acc = Ok (3276800%Z, fprm, cells fQ, [Some 0; Some 0]%Z).
Proof. vm_compute. reflexivity. Qed.

(** One update of the covariance alone. *)
Definition fcov (P : @m4 Z) : outcome (matrix Z * matrix Z) :=
  P1 <- predict_P (fx_scalar c32) fprm (cells P) ;;
  K <- gain (fx_scalar c32) 1 fprm P1 ;;
  P2 <- correct_P (fx_scalar c32) 1 fprm K P1 ;;
  Ok (K, P2).


Definition f_n1 (g1 : Z) : Z := (32768 * g1 / 65536 * acc / 65536)%Z.
Definition f_n2 (g2 : Z) : Z := (g2 * acc / 65536)%Z.
Definition gmax : Z := 655361.
Definition in_g (g : Z) : Prop := (- gmax <= g <= gmax)%Z.
Definition in28 (a : Z) : Prop := (- 2 ^ 28 < a < 2 ^ 28)%Z.

Ltac rng := unfold in28, in30, in31, in_g, gmax, big, acc in *; lia.

Lemma div_bounds a b n m : (0 < b)%Z -> (n * b <= a <= m * b)%Z -> (n <= a / b <= m)%Z.
Proof. intros B H. split; [apply Z.div_le_lower_bound; lia|apply Z.div_le_upper_bound; lia]. Qed.
Lemma n1_bound g1 : in_g g1 -> (- 65537 <= f_n1 g1 <= 65537)%Z.
Proof.
  intros H. unfold f_n1. apply div_bounds; [lia|].
  assert ((- 327681 <= 32768 * g1 / 65536 <= 327681)%Z) by (apply div_bounds; [lia|rng]). rng.
Qed.
Lemma n2_bound g2 : in_g g2 -> (- 131073 <= f_n2 g2 <= 131073)%Z.
Proof. intros H. unfold f_n2. apply div_bounds; [lia|rng]. Qed.

Lemma process_fixed g1 g2 : in_g g1 -> in_g g2 ->
  process_noise FN 65536%Z acc g1 g2 = Ok [Some (f_n1 g1); Some (f_n2 g2)].
Proof.
  intros H1 H2. unfold process_noise.
  change (nt_int FN 2) with (@Ok Z 131072%Z). rewrite bind_Ok.
  change (sc_mul (nt_sc FN) 65536%Z 65536%Z) with (@Ok Z 65536%Z). rewrite bind_Ok.
  change (sc_div (nt_sc FN) 65536%Z 131072%Z) with (@Ok Z 32768%Z). rewrite bind_Ok.
  change (sc_mul (nt_sc FN)) with (fx_mul c32).
  rewrite mul32 by rng. rewrite bind_Ok. rewrite one_times by rng. rewrite bind_Ok.
  assert (HH : (- 327681 <= 32768 * g1 / 65536 <= 327681)%Z) by (apply div_bounds; [lia|rng]).
  unfold f_n1. set (h := (32768 * g1 / 65536)%Z) in *. clearbody h.
  change (mat_il (nt_sc FN) 2 1 [h; g2]) with (@Ok (matrix Z) [Some h; Some g2]). rewrite bind_Ok.
  unfold mul_sm. etransitivity; [exact (single_mul_ms _ _ _ _ _ _ _ _ h g2 acc)|].
  rewrite mul32 by rng. rewrite bind_Ok. rewrite mul32 by rng. reflexivity.
Qed.

Definition f_corr (p k v : Z) : Z := (p + k * v / 65536)%Z.

Lemma pass_fixed i P k0 k1 P' K x y c d t g1 g2 g draws :
  fcov P = Ok ([Some k0; Some k1], cells P') ->
  (0 <= i < 50)%Z -> t = (i * 65536)%Z -> (0 <= k0 <= 65536)%Z -> (0 <= k1 <= 65536)%Z ->
  in28 x -> in28 y -> in28 c -> in28 d -> in_g g1 -> in_g g2 -> in_g g ->
  let x' := (x + y + 32768 + f_n1 g1)%Z in let y' := (y + 65536 + f_n2 g2)%Z in
  let z := (x' + 10 * g)%Z in
  let p0 := (c + d + 32768)%Z in let p1 := (d + 65536)%Z in let v := (z - p0)%Z in
  in30 v ->
  let c' := f_corr p0 k0 v in let d' := f_corr p1 k1 v in
  sim_plots FN 3276800%Z 655360%Z acc fprm i [Some x; Some y] (st_of K P c d t) ((g1, g2, g) :: draws)
  = (l <- sim_plots FN 3276800%Z 655360%Z acc fprm (i + 1) [Some x'; Some y']
        (st_of [Some k0; Some k1] P' c' d' ((i + 1) * 65536)%Z) draws ;;
     Ok (option_map (cons (z, {| p_pos := x'; p_poshat := c'; p_posgain := k0; p_posecov := e00 P';
       p_vel := y'; p_velhat := d'; p_velgain := k1; p_velecov := e01 P' |})) l)).
Proof.
  intros E Hi Ht HK0 HK1 Hx Hy Hc Hd H1 H2 H3 x' y' z p0 p1 v Hv c' d'.
  unfold fcov in E.
  apply bind_inv in E as (P1 & E1 & E). apply bind_inv in E as (K2 & E2 & E).
  apply bind_inv in E as (P2 & E3 & E). apply Ok_inj in E.
  assert (K2 = [Some k0; Some k1]) by congruence. assert (P2 = cells P') by congruence. subst K2 P2.
  pose proof (n1_bound g1 H1) as B1. pose proof (n2_bound g2 H2) as B2.
  assert (Hx' : in30 x') by (unfold x'; rng). assert (Hy' : in30 y') by (unfold y'; rng).
  assert (Hz : in31 z) by (unfold z; rng).
  assert (Hp0 : in30 p0) by (unfold p0; rng). assert (Hp1 : in30 p1) by (unfold p1; rng).
  cbn [sim_plots].
  assert (EI : nt_int FN i = Ok (i * 65536)%Z).
  { change (nt_int FN i) with (fx_of_int c32 i). unfold fx_of_int. change (power2 (fx_F c32)) with (@Ok Z 65536%Z).
    rewrite bind_Ok, chk_in by (change (2 ^ (64 - 1))%Z with 9223372036854775808%Z; lia). rewrite bind_Ok.
    rewrite wrap32 by rng. f_equal. lia. }
  rewrite EI, bind_Ok. change (kdt fprm) with 65536%Z. change (sc_mul (nt_sc FN)) with (fx_mul c32).
  rewrite times_one by rng. rewrite bind_Ok.
  assert (EL : nt_lt FN (i * 65536)%Z 3276800%Z = true).
  { change (nt_lt FN (i * 65536)%Z 3276800%Z) with (Z.ltb (i * 65536) 3276800). apply Z.ltb_lt. lia. }
  rewrite EL, process_fixed by assumption. rewrite bind_Ok.
  assert (EM : meas_noise FN 655360%Z g = Ok (10 * g)%Z).
  { unfold meas_noise. change (sc_mul (nt_sc FN)) with (fx_mul c32). rewrite mul32 by rng. f_equal.
    change 655360%Z with (10 * 65536)%Z. rewrite <- Z.mul_assoc, (Z.mul_comm 65536), Z.mul_assoc. now apply Z.div_mul. }
  rewrite EM, bind_Ok.
  assert (ES : sim_step FN fprm [Some x; Some y] (st_of K P c d t) (Some ([Some (f_n1 g1); Some (f_n2 g2)], (10 * g)%Z))
    = Ok ([Some x'; Some y'], [Some z], st_of [Some k0; Some k1] P' c' d' ((i + 1) * 65536)%Z)).
  { unfold sim_step. change (nt_int FN 1) with (@Ok Z 65536%Z). rewrite bind_Ok.
    change (mat_il (nt_sc FN) 1 1 [65536%Z]) with (@Ok (matrix Z) [Some 65536%Z]). rewrite bind_Ok.
    assert (SEE : forall a b, in30 a -> dot (nt_sc FN) 2 (kH fprm) [Some a; Some b] = Ok a).
    { intros a b A. etransitivity; [exact (single_dot _ _ _ _ _ _ _ _ 65536%Z 0%Z a b)|].
      rewrite one_times by exact A. rewrite bind_Ok, add32 by rng. rewrite bind_Ok, zero_times32, bind_Ok, add32 by rng.
      f_equal. cbn [sc_zero fx_scalar]. lia. }
    assert (AX : forall a b, in28 a -> in28 b ->
       mul_mv (nt_sc FN) 2 2 (kA fprm) [Some a; Some b] = Ok [Some (a + b); Some b]%Z).
    { intros a b A B. etransitivity; [exact (single_mul_mv _ _ _ _ _ _ _ _ 65536%Z 65536%Z 0%Z 65536%Z a b)|].
      rewrite (one_times a) by rng. rewrite bind_Ok, add32 by rng. rewrite bind_Ok. rewrite (one_times b) by rng.
      rewrite bind_Ok, add32 by rng. rewrite bind_Ok, zero_times32, bind_Ok, add32 by rng.
      rewrite bind_Ok, bind_Ok, add32 by rng. rewrite bind_Ok. repeat f_equal; lia. }
    assert (BU : mul_Bu (nt_sc FN) 1 (kB fprm) [Some 65536%Z] = Ok [Some 32768; Some 65536]%Z) by (vm_compute; reflexivity).
    assert (PX : forall a b, in28 a -> in28 b -> predict_x (nt_sc FN) 1 fprm [Some a; Some b] [Some 65536%Z]
       = Ok [Some (a + b + 32768); Some (b + 65536)]%Z).
    { intros a b A B. unfold predict_x. rewrite AX, bind_Ok, BU, bind_Ok by assumption.
      etransitivity; [exact (single_add _ _ _ _ _ _ _ _ (a + b)%Z b 32768%Z 65536%Z)|].
      rewrite add32 by rng. rewrite bind_Ok, add32 by rng. reflexivity. }
    rewrite AX, bind_Ok, BU, bind_Ok by assumption.
    assert (X1 : add_mm (nt_sc FN) 2 1 [Some (x + y)%Z; Some y] [Some 32768; Some 65536]%Z
      = Ok [Some (x + y + 32768); Some (y + 65536)]%Z).
    { etransitivity; [exact (single_add _ _ _ _ _ _ _ _ (x + y)%Z y 32768%Z 65536%Z)|].
      rewrite add32 by rng. rewrite bind_Ok, add32 by rng. reflexivity. }
    rewrite X1, bind_Ok.
    assert (X2 : add_mm (nt_sc FN) 2 1 [Some (x + y + 32768)%Z; Some (y + 65536)%Z] [Some (f_n1 g1); Some (f_n2 g2)]
      = Ok [Some x'; Some y']).
    { etransitivity; [exact (single_add _ _ _ _ _ _ _ _ (x + y + 32768)%Z (y + 65536)%Z (f_n1 g1) (f_n2 g2))|].
      rewrite add32 by rng. rewrite bind_Ok, add32 by rng. reflexivity. }
    rewrite X2, bind_Ok, SEE, bind_Ok by assumption.
    change (sc_add (nt_sc FN)) with (fx_add c32). rewrite add32 by exact Hz. rewrite bind_Ok. fold z.
    change (mat_fill (nt_sc FN) 1 1 z) with (@Ok (matrix Z) [Some z]). rewrite bind_Ok.
    unfold update. change (kt (st_of K P c d t)) with t. change (kx (st_of K P c d t)) with [Some c; Some d].
    change (kP (st_of K P c d t)) with (cells P). change (kdt fprm) with 65536%Z.
    change (sc_add (nt_sc FN)) with (fx_add c32). rewrite add32 by rng. rewrite bind_Ok.
    rewrite PX, bind_Ok by assumption. fold p0 p1.
    change (nt_sc FN) with (fx_scalar c32) in *. rewrite E1, bind_Ok, E2, bind_Ok.
    assert (CX : correct_x (fx_scalar c32) 1 fprm [Some k0; Some k1] [Some p0; Some p1] [Some z] = Ok [Some c'; Some d']).
    { unfold correct_x. cbn [Nat.eqb]. unfold correct_x_1. rewrite SEE, bind_Ok by assumption.
      assert (SB : sub_1x1_s (fx_scalar c32) [Some z] p0 = Ok v).
      { unfold sub_1x1_s. change (at1 1 [Some z] 0) with (@Ok Z z). rewrite bind_Ok.
        change (sc_sub (fx_scalar c32)) with (fx_sub c32). rewrite sub32 by rng. reflexivity. }
      rewrite SB, bind_Ok.
      assert (V0 : (- (2 ^ 30 * 65536) < k0 * v < 2 ^ 30 * 65536)%Z) by (unfold in30 in Hv; clear - Hv HK0; nia).
      assert (V1 : (- (2 ^ 30 * 65536) < k1 * v < 2 ^ 30 * 65536)%Z) by (unfold in30 in Hv; clear - Hv HK1; nia).
      assert (KV : mul_ms (fx_scalar c32) 2 1 [Some k0; Some k1] v = Ok [Some (k0 * v / 65536); Some (k1 * v / 65536)]%Z).
      { etransitivity; [exact (single_mul_ms _ _ _ _ _ _ _ _ k0 k1 v)|].
        rewrite !mul32 by lia. reflexivity. }
      rewrite KV, bind_Ok.
      pose proof (div_bounds (k0 * v) 65536 (- 2 ^ 30) (2 ^ 30) ltac:(lia) ltac:(lia)) as W0.
      pose proof (div_bounds (k1 * v) 65536 (- 2 ^ 30) (2 ^ 30) ltac:(lia) ltac:(lia)) as W1.
      etransitivity; [exact (single_add _ _ _ _ _ _ _ _ p0 p1 (k0 * v / 65536)%Z (k1 * v / 65536)%Z)|].
      assert (in31 (p0 + k0 * v / 65536)%Z) by (unfold p0 in *; rng).
      assert (in31 (p1 + k1 * v / 65536)%Z) by (unfold p1 in *; rng).
      rewrite !add32 by assumption. reflexivity. }
    rewrite CX, bind_Ok, E3, bind_Ok, bind_Ok. unfold st_of. do 3 f_equal. lia. }
  match goal with |- context [sim_step ?q1 ?q2 ?q3 ?q4 ?q5] =>
    assert (ES' : sim_step q1 q2 q3 q4 q5
        = Ok ([Some x'; Some y'], [Some z], st_of [Some k0; Some k1] P' c' d' ((i + 1) * 65536)%Z)) by exact ES;
    rewrite ES', bind_Ok; clear ES ES' end.
  change (at1 1 [Some z] 0) with (@Ok Z z). rewrite bind_Ok.
  change (sim_record [Some x'; Some y'] (st_of [Some k0; Some k1] P' c' d' ((i + 1) * 65536)%Z))
    with (@Ok (plot Z) {| p_pos := x'; p_poshat := c'; p_posgain := k0; p_posecov := e00 P';
       p_vel := y'; p_velhat := d'; p_velgain := k1; p_velecov := e01 P' |}).
  rewrite bind_Ok. reflexivity.
Qed.

(** ** The random numbers *)

Local Open Scope R_scope.

Lemma sup32 : supported c32.
Proof. unfold supported, fp32, default_F. cbn. lia. Qed.

Lemma draw32 (g : double) : gauss_ok g ->
  exists a, fx_of_ieee 53 1024 c32 g = Ok a /\ in_g a /\ Rabs (IZR a - 65536 * B2R g) <= 1.
Proof.
  intros (F & B). destruct (C153_conversion 53 1024 _ _ c32 g ltac:(lia) ltac:(lia) sup32) as [_ H].
  destruct (H F) as (a & (C1 & C2) & I1 & _). clear H.
  change (IZR (2 ^ fx_F c32)) with 65536 in *. set (y := 65536 * B2R g) in *.
  apply Rabs_le_inv in B.
  assert (Y : -655360 <= y <= 655360) by (unfold y; lra).
  assert (P : 655360 < bpow radix2 (53 - 1)).
  { change (53 - 1)%Z with 52%Z. rewrite <- IZR_Zpower by lia. apply IZR_lt. reflexivity. }
  assert (H : forall y a, 0 <= y <= 655360 -> converted_pos 53 y a -> -1 <= IZR a - y <= 1).
  { clear - P. intros y a Y (A1 & A2 & _).
    assert (SM : 0 < bpow radix2 (-53 - 1) <= 1/4).
    { split; [apply bpow_gt_0|]. change (1/4) with (1 * / 4). rewrite Rmult_1_l.
      change (/ 4) with (bpow radix2 (-2)). apply bpow_le. lia. }
    destruct (Req_dec y (1/2 - bpow radix2 (-53 - 1))) as [E|N].
    - rewrite (A2 E). lra.
    - pose proof (A1 ltac:(lra) N). lra. }
  assert (D : Rabs (IZR a - y) <= 1).
  { apply Rabs_le. destruct (Rle_lt_dec 0 y) as [L|L].
    - apply (H y a); [lra|auto].
    - pose proof (H (- y) (- a)%Z ltac:(lra) (C2 L)) as X. rewrite opp_IZR in X. lra. }
  assert (IG : in_g a).
  { unfold in_g, gmax. apply Rabs_le_inv in D. split; apply le_IZR; rewrite ?opp_IZR; lra. }
  exists a. split; [|split; [exact IG|exact D]]. apply I1. unfold in_range, in_g, gmax in *.
  change (fx_w c32) with 32%Z. change (2 ^ (32 - 1))%Z with 2147483648%Z. lia.
Qed.

Lemma n1_near (g : R) a : Rabs g <= 10 -> Rabs (IZR a - 65536 * g) <= 1 ->
  Rabs (IZR (f_n1 a) - 65536 * (1/2 * g * (1/5))) <= 3.
Proof.
  intros G D. apply Rabs_le_inv in G, D. unfold f_n1.
  pose proof (floor_16 (32768 * a)) as F1. set (h := (32768 * a / 65536)%Z) in *. rewrite mult_IZR in F1.
  pose proof (floor_16 (h * acc)) as F2. rewrite mult_IZR in F2. unfold acc in *. apply Rabs_le. lra.
Qed.
Lemma n2_near (g : R) a : Rabs g <= 10 -> Rabs (IZR a - 65536 * g) <= 1 ->
  Rabs (IZR (f_n2 a) - 65536 * (g * (1/5))) <= 4.
Proof.
  intros G D. apply Rabs_le_inv in G, D. unfold f_n2.
  pose proof (floor_16 (a * acc)) as F2. rewrite mult_IZR in F2. unfold acc in *. apply Rabs_le. lra.
Qed.

(** ** How far the estimate is from the state, and from the exact estimate *)

Definition tstep (k0 k1 : Z) (L : list (Z * Z)) : list (Z * Z) :=
  let n := Z.of_nat (length L) in
  ((2 ^ 32 + n, 0) :: (0, 131074 * 2 ^ 32 + n) :: dir (65536 - k0) (- k1) 65537 :: dir k0 k1 (10 * gmax)
  :: map (turn k0 k1) L)%Z.

Lemma zu_32 z : IZR z = IZR (z * 2 ^ 32) * zu.
Proof. rewrite mult_IZR. change (IZR (2 ^ 32)) with 4294967296. unfold zu. field. Qed.

Lemma tstep_ok k0 k1 L x y c d n1 n2 g : zon L (IZR (x - c)) (IZR (y - d)) ->
  (- 65537 <= n1 <= 65537)%Z -> (- 131073 <= n2 <= 131073)%Z -> in_g g ->
  let x' := (x + y + 32768 + n1)%Z in let y' := (y + 65536 + n2)%Z in
  let p0 := (c + d + 32768)%Z in let v := (x' + 10 * g - p0)%Z in
  zon (tstep k0 k1 L) (IZR (x' - f_corr p0 k0 v)) (IZR (y' - f_corr (d + 65536) k1 v)).
Proof.
  intros H H1 H2 H3 x' y' p0 v.
  destruct (zon_turn k0 k1 L _ _ H) as (r0 & r1 & B0 & B1 & Z).
  assert (E3 : Rabs (- IZR (10 * g)) <= IZR (10 * gmax)).
  { rewrite Rabs_Ropp, <- abs_IZR. apply IZR_le. unfold in_g in H3. lia. }
  apply (zon_dir _ _ _ k0 k1 _ (10 * gmax) ltac:(unfold gmax; lia) E3) in Z.
  assert (E1 : Rabs (IZR n1) <= IZR 65537) by (rewrite <- abs_IZR; apply IZR_le; lia).
  apply (zon_dir _ _ _ (65536 - k0) (- k1) _ 65537 ltac:(lia) E1) in Z.
  pose proof (floor_16 (k0 * v)) as F0. pose proof (floor_16 (k1 * v)) as F1.
  set (t0 := IZR (k0 * v) / 65536 - IZR (k0 * v / 65536)) in *.
  set (t1 := IZR (k1 * v) / 65536 - IZR (k1 * v / 65536)) in *.
  pose proof zu_pos as U. set (n := Z.of_nat (length L)) in *. assert (N : (0 <= n)%Z) by (unfold n; lia).
  assert (E2 : Rabs (IZR n2 + t1 + r1) <= IZR (131074 * 2 ^ 32 + n) * zu).
  { rewrite plus_IZR, Rmult_plus_distr_r, <- zu_32. apply Rabs_le_inv in B1. apply Rabs_le.
    destruct H2 as [H2 H2']. apply IZR_le in H2, H2'. lra. }
  apply (zon_box1 _ _ _ _ (131074 * 2 ^ 32 + n) ltac:(lia) E2) in Z.
  assert (E4 : Rabs (t0 + r0) <= IZR (2 ^ 32 + n) * zu).
  { rewrite plus_IZR, Rmult_plus_distr_r. replace (2 ^ 32)%Z with (1 * 2 ^ 32)%Z by lia. rewrite <- zu_32.
    apply Rabs_le_inv in B0. apply Rabs_le. lra. }
  apply (zon_box0 _ _ _ _ (2 ^ 32 + n) ltac:(lia) E4) in Z.
  unfold tstep. fold n. cbv zeta. unfold f_corr.
  match type of Z with zon _ ?u1 ?u2 => match goal with |- zon _ ?v1 ?v2 =>
    replace v1 with u1; [replace v2 with u2; [exact Z|]|] end end.
  - assert (W : IZR (k1 * v / 65536) = IZR k1 * IZR v / 65536 - t1) by (unfold t1; rewrite mult_IZR; ring).
    rewrite !minus_IZR, plus_IZR, W. clearbody t1. unfold v, y', p0, x'.
    rewrite ?minus_IZR, ?plus_IZR, ?mult_IZR, ?minus_IZR, ?plus_IZR, ?opp_IZR. field.
  - assert (W : IZR (k0 * v / 65536) = IZR k0 * IZR v / 65536 - t0) by (unfold t0; rewrite mult_IZR; ring).
    rewrite !minus_IZR, plus_IZR, W. clearbody t0. unfold v, y', p0, x'.
    rewrite ?minus_IZR, ?plus_IZR, ?mult_IZR, ?minus_IZR, ?plus_IZR, ?opp_IZR. field.
Qed.

Definition estep (k0 k1 E m0 m1 V b0 b1 : Z) (L : list (Z * Z)) : list (Z * Z) :=
  let n := Z.of_nat (length L) in
  ((b0 + n + 1, 0) :: (0, b1 + n + 1) :: dir_fine m0 m1 V :: dir k0 k1 E :: map (turn k0 k1) L)%Z.

Lemma estep_ok k0 k1 E m0 m1 V b0 b1 L a b e w r0 r1 : zon L a b -> (0 <= E)%Z -> Rabs e <= IZR E ->
  (0 <= V)%Z -> Rabs w <= IZR V ->
  (0 <= b0)%Z -> (0 <= b1)%Z -> Rabs r0 <= IZR b0 * zu -> Rabs r1 <= IZR b1 * zu ->
  zon (estep k0 k1 E m0 m1 V b0 b1 L)
    ((1 - IZR k0 / 65536) * (a + b) + IZR k0 / 65536 * e + IZR m0 * unit * w + r0)
    (b - IZR k1 / 65536 * (a + b) + IZR k1 / 65536 * e + IZR m1 * unit * w + r1).
Proof.
  intros H HE He HV Hw P0 P1 R0 R1. pose proof zu_pos as U.
  destruct (zon_turn k0 k1 L _ _ H) as (q0 & q1 & B0 & B1 & Z).
  apply (zon_dir _ _ _ k0 k1 _ E HE He) in Z.
  apply (zon_dir_fine _ _ _ m0 m1 _ V HV Hw) in Z as (s0 & s1 & S0 & S1 & Z).
  set (n := Z.of_nat (length L)) in *. assert (N : (0 <= n)%Z) by (unfold n; lia).
  assert (E1 : Rabs (r1 + q1 + s1) <= IZR (b1 + n + 1) * zu).
  { rewrite !plus_IZR, !Rmult_plus_distr_r. eapply Rle_trans; [apply Rabs_triang|].
    pose proof (Rabs_triang r1 q1). lra. }
  apply (zon_box1 _ _ _ _ (b1 + n + 1) ltac:(lia) E1) in Z.
  assert (E0 : Rabs (r0 + q0 + s0) <= IZR (b0 + n + 1) * zu).
  { rewrite !plus_IZR, !Rmult_plus_distr_r. eapply Rle_trans; [apply Rabs_triang|].
    pose proof (Rabs_triang r0 q0). lra. }
  apply (zon_box0 _ _ _ _ (b0 + n + 1) ltac:(lia) E0) in Z.
  unfold estep. fold n. cbv zeta.
  match type of Z with zon _ ?u1 ?u2 => match goal with |- zon _ ?v1 ?v2 =>
    replace v1 with u1 by ring; replace v2 with u2 by ring; exact Z end end.
Qed.

(** ** All passes *)

Definition ft_s0 : Z := (8 * 65536 / 100)%Z.
Definition ft_s1 : Z := (4 * 65536 / 1000)%Z.
Definition ft_e0 : Z := (45 * 65536 * 2 ^ 32 / 100)%Z.
Definition ft_e1 : Z := (7 * 65536 * 2 ^ 32 / 100)%Z.
Definition ft_g : Z := (3 * one_z / 10000)%Z.
Definition ft_c : Z := (25 * one_z / 1000)%Z.
Definition ftol : tolerance :=
  {| t_s0 := 8/100; t_s1 := 4/1000; t_e0 := 45/100; t_e1 := 7/100; t_g := 3/10000; t_c := 25/1000 |}.

(** A fixed-point number in the unit of the enclosures. *)
Definition fz (a : Z) : Z := (a * 2 ^ 112)%Z.

Fixpoint fcheck (l : list (Z * Z * @m4 Z)) (c : icov) (ex ey mx my : Z) (T E : list (Z * Z)) : bool :=
  match l with
  | [] => true
  | (k0, k1, P) :: l' =>
      match i_step c with
      | Some (ik0, ik1, c') =>
          let ex' := (ex + ey + 3)%Z in let ey' := (ey + 4)%Z in let ez := (ex' + 10)%Z in
          let mx' := (mx + my + 98305)%Z in let my' := (my + 196609)%Z in
          let vr := (up 32 (w2 T) + 65537 + 10 * gmax)%Z in
          let vt := (vr + ez + up 32 (w2 E))%Z in
          let d0 := dist (fz k0) ik0 in let d1 := dist (fz k1) ik1 in
          let T' := tstep k0 k1 T in
          let E' := estep k0 k1 ez (fz k0 - fst ik0)%Z (fz k1 - fst ik1)%Z vt
            (up 96 ((snd ik0 - fst ik0) * vt) + 2 ^ 32)%Z (up 96 ((snd ik1 - fst ik1) * vt) + 2 ^ 32)%Z E in
          (0 <=? k0)%Z && (k0 <=? 65536)%Z && (0 <=? k1)%Z && (k1 <=? 65536)%Z && (fst ik0 <=? snd ik0)%Z && (fst ik1 <=? snd ik1)%Z &&
          (mx' + up 32 (w0 T') <? 2 ^ 28)%Z && (my' + up 32 (w1 T') <? 2 ^ 28)%Z && (vr <? 2 ^ 30)%Z &&
          (ez <=? ft_s0)%Z && (ey' <=? ft_s1)%Z && (w0 E' <=? ft_e0)%Z && (w1 E' <=? ft_e1)%Z &&
          (d0 <=? ft_g)%Z && (d1 <=? ft_g)%Z &&
          (dist (fz (e00 P)) (i00 c') <=? ft_c)%Z && (dist (fz (e01 P)) (i01 c') <=? ft_c)%Z &&
          fcheck l' c' ex' ey' mx' my' T' E'
      | None => false
      end
  end.

Fixpoint frun (n : nat) (P : @m4 Z) : option (list (Z * Z * @m4 Z)) :=
  match n with
  | O => Some []
  | S n' =>
      match fcov P with
      | Ok ([Some k0; Some k1], [Some p0; Some p1; Some p2; Some p3]) =>
          option_map (cons (k0, k1, M4 p0 p1 p2 p3)) (frun n' (M4 p0 p1 p2 p3))
      | _ => None
      end
  end.

Lemma fchecked : match frun 50 fQ with
  | Some l => fcheck l start_cov 0 0 0 0 [] [] | None => false end = true.
Proof. vm_compute. reflexivity. Qed.

(** The two programs side by side. *)
Lemma fz_unit a : IZR (fz a) * unit = IZR a / 65536.
Proof.
  unfold fz. rewrite mult_IZR, Rmult_assoc. assert (E : IZR (2 ^ 112) * unit = / 65536).
  { pose proof one_unit as O. change one_z with (2 ^ 112 * 65536)%Z in O. rewrite mult_IZR in O. lra. }
  rewrite E. reflexivity.
Qed.
Lemma fdist_ok a r i : inside r i -> Rabs (IZR a / 65536 - r) <= IZR (dist (fz a) i) * unit.
Proof.
  intros [L H]. rewrite <- fz_unit. unfold dist. pose proof unit_pos as U. set (v := fz a).
  pose proof (IZR_le _ _ (Z.le_max_l (snd i - v) (v - fst i))) as M1.
  pose proof (IZR_le _ _ (Z.le_max_r (snd i - v) (v - fst i))) as M2. rewrite minus_IZR in M1, M2.
  apply Rmult_le_compat_r with (r := unit) in M1, M2; try lra. apply Rabs_le. lra.
Qed.
Lemma fdist_tol a r i t T : inside r i -> (dist (fz a) i <=? t)%Z = true -> IZR t * unit <= T -> fagree T a r.
Proof.
  intros H L HT. apply Z.leb_le, IZR_le in L. pose proof unit_pos as U.
  apply Rmult_le_compat_r with (r := unit) in L; [|lra].
  pose proof (fdist_ok a r i H). unfold fagree. lra.
Qed.
Lemma up_32 z : IZR z * zu <= IZR (up 32 z).
Proof.
  pose proof (up_le 32 z ltac:(lia)) as H. assert (E : bpow radix2 (- (32)) = zu).
  { change (- (32))%Z with (-32)%Z. cbn. unfold zu. reflexivity. }
  rewrite E in H. exact H.
Qed.
Lemma up_96 z : IZR z * unit <= IZR (up 96 z) * zu.
Proof.
  pose proof (up_le 96 z ltac:(lia)) as H. pose proof zu_pos as U.
  apply Rmult_le_compat_r with (r := zu) in H; [|lra].
  assert (E : unit = bpow radix2 (- (96)) * zu).
  { unfold unit, scale. replace zu with (bpow radix2 (-32)) by reflexivity. rewrite <- bpow_plus. reflexivity. }
  rewrite E, <- Rmult_assoc. exact H.
Qed.

Lemma frun_S n P l : frun (S n) P = Some l -> exists k0 k1 P' l',
  fcov P = Ok ([Some k0; Some k1], cells P') /\ frun n P' = Some l' /\ l = (k0, k1, P') :: l'.
Proof.
  cbn [frun]. intros H.
  destruct (fcov P) as [[K Q]|]; [|discriminate].
  destruct K as [|[k0|] [|[k1|] [|]]]; try discriminate.
  destruct Q as [|[p0|] [|[p1|] [|[p2|] [|[p3|] [|]]]]]; try discriminate.
  destruct (frun n (M4 p0 p1 p2 p3)) as [l'|] eqn:E; [|discriminate]. cbn [option_map] in H.
  apply some_inj in H. exists k0, k1, (M4 p0 p1 p2 p3), l'. split; [reflexivity|]. split; [exact E|]. now symmetry.
Qed.

Definition converts (d : double * double * double) (a : Z * Z * Z) : Prop := fixed_draw c32 d = Ok a.

Lemma fixed_end i K P x y c d t draws : i = 50%Z ->
  sim_plots FN 3276800%Z 655360%Z acc fprm i [Some x; Some y] (st_of K P c d t) draws = Ok (Some []).
Proof. intros ->. destruct draws as [|[[g1 g2] g] draws]; reflexivity. Qed.

(** What does not depend on the random numbers: gains and covariances. *)
Definition fgains (p : Z * plot Z) : Z * Z * (Z * Z) :=
  (p_posgain (snd p), p_velgain (snd p), (p_posecov (snd p), p_velecov (snd p))).
Definition fgains_of (r : Z * Z * @m4 Z) : Z * Z * (Z * Z) :=
  (fst (fst r), snd (fst r), (e00 (snd r), e01 (snd r))).
Fixpoint iposecov (n : nat) (ci : icov) : list (Z * Z) :=
  match n with
  | O => []
  | S n' => match i_step ci with Some (_, _, ci') => i00 ci' :: iposecov n' ci' | None => [] end
  end.

Lemma ftogether : forall n l i draws fdraws P K x y c d ci ex ey mx my T E X Y Ke Pe C D te,
  frun n P = Some l -> fcheck l ci ex ey mx my T E = true ->
  (0 <= i)%Z -> Z.of_nat n = (50 - i)%Z ->
  Rabs (IZR x - 65536 * X) <= IZR ex -> Rabs (IZR y - 65536 * Y) <= IZR ey ->
  (Z.abs x <= mx)%Z -> (Z.abs y <= my)%Z -> (0 <= mx)%Z -> (0 <= my)%Z -> (0 <= ex)%Z -> (0 <= ey)%Z ->
  in28 x -> in28 y -> in28 c -> in28 d ->
  zon T (IZR (x - c)) (IZR (y - d)) ->
  zon E (IZR c - 65536 * C) (IZR d - 65536 * D) ->
  cov_in Pe ci ->
  (n <= length draws)%nat -> Forall draw_ok draws -> Forall2 converts draws fdraws ->
  exists ps qs,
    sim_plots FN 3276800%Z 655360%Z acc fprm i [Some x; Some y] (st_of K P c d (i * 65536)%Z) fdraws = Ok (Some ps) /\
    sim_plots double_numeric 50 10 (1/5) (enc_sys sim_sys) i (encv (V2 X Y)) (enc_est (Est Ke Pe (V2 C D) te))
      (map to_exact draws) = Ok (Some qs) /\
    length ps = n /\ Forall2 (fixed_agree ftol) ps qs /\
    map fgains ps = map fgains_of l /\ Forall2 (fun (q : R * plot R) j => inside (p_posecov (snd q)) j) qs (iposecov n ci).
Proof.
  induction n as [|n IH];
    intros l i draws fdraws P K x y c d ci ex ey mx my T E X Y Ke Pe C D te EL EC Hi Hn Hx Hy Bx By Mx My Px Py
      Ix Iy Ic Id HT HE HP LD FD CD.
  - assert (i = 50)%Z by lia. subst i. exists [], []. apply some_inj in EL. subst l.
    split; [|split; [|split; [reflexivity|split; [constructor|split; [reflexivity|constructor]]]]].
    + now apply fixed_end.
    + destruct (map to_exact draws) as [|[[g1 g2] g] ds]; cbn [sim_plots nt_int double_numeric nt_sc nt_lt]; rewrite bind_Ok;
        change (sc_mul R_scalar 50 (kdt (enc_sys sim_sys))) with (Ok (50 * 1)); rewrite bind_Ok;
        (destruct (Rlt_dec (50 * 1) 50); [lra|reflexivity]).
  - destruct draws as [|[[g1 g2] g] draws]; [cbn in LD; lia|]. inversion FD as [|? ? HG FD']; subst.
    inversion CD as [|? [[a1 a2] a] ? fdraws' HC CD']; subst.
    destruct HG as (G1 & G2 & G3). cbn [fst snd] in G1, G2, G3.
    unfold converts, fixed_draw in HC. cbn [fst snd] in HC.
    destruct (draw32 g1 G1) as (b1 & Q1 & I1 & N1). destruct (draw32 g2 G2) as (b2 & Q2 & I2 & N2).
    destruct (draw32 g G3) as (b & Q3 & I3 & N3).
    rewrite Q1, bind_Ok, Q2, bind_Ok, Q3, bind_Ok in HC. apply Ok_inj in HC.
    apply pair_equal_spec in HC as [HC <-]. apply pair_equal_spec in HC as [<- <-].
    destruct (frun_S n P l EL) as (k0 & k1 & P' & l' & EF & EL' & ->).
    cbn [fcheck] in EC. destruct (i_step ci) as [[[ik0 ik1] ci']|] eqn:EI; [|discriminate].
    cbv zeta in EC. rewrite !andb_true_iff in EC.
    destruct EC as (((((((((((((((((C1 & C2) & C3) & C4) & C5) & C6) & C7) & C8) & C9) & C10) & C11) & C12) & C13) & C14) & C15) & C16) & C17) & TEND).
    set (ex' := (ex + ey + 3)%Z) in *. set (ey' := (ey + 4)%Z) in *. set (ez := (ex' + 10)%Z) in *.
    set (mx' := (mx + my + 98305)%Z) in *. set (my' := (my + 196609)%Z) in *.
    set (vr := (up 32 (w2 T) + 65537 + 10 * gmax)%Z) in *. set (vt := (vr + ez + up 32 (w2 E))%Z) in *.
    set (T' := tstep k0 k1 T) in *.
    set (m0 := (fz k0 - fst ik0)%Z) in *. set (m1 := (fz k1 - fst ik1)%Z) in *.
    set (b0 := (up 96 ((snd ik0 - fst ik0) * vt) + 2 ^ 32)%Z) in *.
    set (b1' := (up 96 ((snd ik1 - fst ik1) * vt) + 2 ^ 32)%Z) in *.
    set (E' := estep k0 k1 ez m0 m1 vt b0 b1' E) in *.
    apply Z.leb_le in C1, C2, C3, C4, C5, C6. apply Z.ltb_lt in C7, C8, C9.
    pose proof (n1_bound b1 I1) as NB1. pose proof (n2_bound b2 I2) as NB2.
    pose proof (n1_near (B2R g1) b1 (proj2 G1) N1) as NN1. pose proof (n2_near (B2R g2) b2 (proj2 G2) N2) as NN2.
    set (x' := (x + y + 32768 + f_n1 b1)%Z). set (y' := (y + 65536 + f_n2 b2)%Z).
    set (z := (x' + 10 * b)%Z). set (p0 := (c + d + 32768)%Z). set (p1 := (d + 65536)%Z). set (v := (z - p0)%Z).
    set (X' := X + Y + 1/2 + 1/2 * B2R g1 * (1/5)). set (Y' := Y + 1 + B2R g2 * (1/5)). set (Zm := X' + 10 * B2R g).
    (* the innovation *)
    pose proof (zon_w2 _ _ _ HT) as W2. pose proof (up_32 (w2 T)) as U2.
    assert (VR : (Z.abs v <= vr)%Z).
    { apply le_IZR. rewrite abs_IZR. unfold vr. rewrite !plus_IZR.
      assert (EV : IZR v = IZR (x - c) + IZR (y - d) + IZR (f_n1 b1) + IZR (10 * b)).
      { unfold v, z, x', p0. rewrite <- !plus_IZR. f_equal. lia. }
      rewrite EV. eapply Rle_trans; [apply Rabs_triang|]. apply Rplus_le_compat.
      - eapply Rle_trans; [apply Rabs_triang|]. apply Rplus_le_compat; [lra|].
        rewrite <- abs_IZR. apply IZR_le. lia.
      - rewrite <- abs_IZR. apply IZR_le. unfold in_g in I3. lia. }
    assert (IV : in30 v) by (unfold in30; lia).
    pose proof (pass_fixed i P k0 k1 P' K x y c d (i * 65536)%Z b1 b2 b fdraws' EF ltac:(lia) eq_refl ltac:(lia) ltac:(lia)
      Ix Iy Ic Id I1 I2 I3) as PF. cbv zeta in PF. fold x' y' in PF. fold z p0 p1 in PF. fold v in PF. specialize (PF IV).
    set (c' := f_corr p0 k0 v) in *. set (d' := f_corr p1 k1 v) in *.
    (* the estimate against the state *)
    pose proof (tstep_ok k0 k1 T x y c d (f_n1 b1) (f_n2 b2) b HT NB1 NB2 I3) as HT'. cbv zeta in HT'.
    fold x' y' in HT'. fold p0 p1 in HT'. fold z in HT'. fold v in HT'. fold c' d' in HT'. fold T' in HT'.
    assert (Bx' : (Z.abs x' <= mx')%Z) by (unfold x', mx'; lia).
    assert (By' : (Z.abs y' <= my')%Z) by (unfold y', my'; lia).
    pose proof (zon_w0 _ _ _ HT') as W0. pose proof (up_32 (w0 T')) as U0.
    pose proof (zon_w1 _ _ _ HT') as W1. pose proof (up_32 (w1 T')) as U1.
    assert (TX : (Z.abs (x' - c') <= up 32 (w0 T'))%Z) by (apply le_IZR; rewrite abs_IZR; lra).
    assert (TY : (Z.abs (y' - d') <= up 32 (w1 T'))%Z) by (apply le_IZR; rewrite abs_IZR; lra).
    assert (Ix' : in28 x') by (unfold in28; lia). assert (Iy' : in28 y') by (unfold in28; lia).
    assert (Ic' : in28 c') by (unfold in28; lia). assert (Id' : in28 d') by (unfold in28; lia).
    (* the signals against exact arithmetic *)
    assert (Hx' : Rabs (IZR x' - 65536 * X') <= IZR ex').
    { unfold x', X', ex'. rewrite !plus_IZR. apply Rabs_le_inv in Hx, Hy, NN1. apply Rabs_le. lra. }
    assert (Hy' : Rabs (IZR y' - 65536 * Y') <= IZR ey').
    { unfold y', Y', ey'. rewrite !plus_IZR. apply Rabs_le_inv in Hy, NN2. apply Rabs_le. lra. }
    assert (Hz : Rabs (IZR z - 65536 * Zm) <= IZR ez).
    { unfold z, Zm, ez. rewrite !plus_IZR, mult_IZR. apply Rabs_le_inv in Hx', N3. apply Rabs_le. lra. }
    (* the estimates against exact arithmetic *)
    destruct (i_step_ok Ke Pe C D te Zm ci ik0 ik1 ci' HP EI) as (K0 & K1 & B0 & R0 & B1 & R1 & EK & HP' & EX).
    cbv zeta in EX. set (q0 := C + D + 1/2) in *. set (q1 := D + 1) in *.
    pose proof (zon_w2 _ _ _ HE) as V2'. pose proof (up_32 (w2 E)) as UE2.
    set (Dz := IZR z - 65536 * Zm) in *. set (Dc := IZR c - 65536 * C) in *. set (Dd := IZR d - 65536 * D) in *.
    set (w := 65536 * (Zm - q0)).
    assert (EW : w = IZR v - Dz + (Dc + Dd)).
    { unfold w, v, Dz, Dc, Dd, q0, p0. rewrite minus_IZR, !plus_IZR. field. }
    assert (HW : Rabs w <= IZR vt).
    { rewrite EW. unfold vt. rewrite !plus_IZR. apply IZR_le in VR. rewrite abs_IZR in VR.
      pose proof (Rabs_triang (IZR v - Dz) (Dc + Dd)). pose proof (Rabs_triang (IZR v) (- Dz)) as TT.
      rewrite Rabs_Ropp in TT. unfold Rminus in *. lra. }
    assert (VT : (0 <= vt)%Z) by (apply le_IZR; pose proof (Rabs_pos w); lra).
    assert (EZ : (0 <= ez)%Z) by (unfold ez, ex'; lia).
    pose proof unit_pos as U. pose proof zu_pos as ZU.
    assert (REST : forall k K0 (ik : Z * Z), inside K0 ik -> (fst ik <= snd ik)%Z ->
      exists r, Rabs r <= IZR (up 96 ((snd ik - fst ik) * vt) + 2 ^ 32)%Z * zu /\
        IZR (k * v / 65536) = K0 * w + IZR k / 65536 * (Dz - (Dc + Dd)) + IZR (fz k - fst ik)%Z * unit * w + r).
    { clear - U ZU HW EW VT. intros k K0 ik [L H] LH.
      pose proof (floor_16 (k * v)) as F.
      set (t := IZR (k * v) / 65536 - IZR (k * v / 65536)) in *.
      exists (- ((K0 - IZR (fst ik) * unit) * w) - t). split.
      - pose proof (up_96 ((snd ik - fst ik) * vt)) as UU.
        rewrite plus_IZR, Rmult_plus_distr_r. replace (2 ^ 32)%Z with (1 * 2 ^ 32)%Z by lia. rewrite <- zu_32.
        assert (A : Rabs ((K0 - IZR (fst ik) * unit) * w) <= IZR ((snd ik - fst ik) * vt) * unit).
        { rewrite Rabs_mult, (Rabs_pos_eq (K0 - _)) by lra. rewrite mult_IZR, minus_IZR.
          pose proof (Rabs_pos w) as PW.
          apply Rle_trans with ((IZR (snd ik) * unit - IZR (fst ik) * unit) * IZR vt); [|apply Req_le; ring].
          apply Rmult_le_compat; lra. }
        apply Rabs_le_inv in A. apply Rabs_le. lra.
      - assert (WK : IZR (k * v / 65536) = IZR k * IZR v / 65536 - t) by (unfold t; rewrite mult_IZR; ring).
        rewrite WK. assert (EVV : IZR v = w + Dz - (Dc + Dd)) by lra. rewrite EVV, minus_IZR, Rmult_minus_distr_r, fz_unit. field. }
    destruct (REST k0 K0 ik0 B0 C5) as (r0 & L0 & Q0). destruct (REST k1 K1 ik1 B1 C6) as (r1 & L1 & Q1'). clear REST.
    fold b0 in L0. fold b1' in L1. fold m0 in Q0. fold m1 in Q1'.
    set (C' := q0 + K0 * (Zm - q0)) in *. set (D' := q1 + K1 * (Zm - q0)) in *.
    assert (HE' : zon E' (IZR c' - 65536 * C') (IZR d' - 65536 * D')).
    { assert (NB : forall ik : Z * Z, (fst ik <= snd ik)%Z -> (0 <= up 96 ((snd ik - fst ik) * vt) + 2 ^ 32)%Z).
      { intros ik LE. apply le_IZR. rewrite plus_IZR. pose proof (up_96 ((snd ik - fst ik) * vt)) as UU.
        assert (0 <= IZR ((snd ik - fst ik) * vt)) by (apply IZR_le; apply Z.mul_nonneg_nonneg; [lia|exact VT]).
        assert (0 <= IZR ((snd ik - fst ik) * vt) * unit) by (apply Rmult_le_pos; lra).
        assert (0 <= IZR (up 96 ((snd ik - fst ik) * vt))).
        { apply Rmult_le_reg_r with zu; lra. }
        assert (0 <= IZR (2 ^ 32)) by (apply IZR_le; lia). lra. }
      pose proof (estep_ok k0 k1 ez m0 m1 vt b0 b1' E Dc Dd Dz w r0 r1 HE EZ Hz VT HW (NB _ C5) (NB _ C6) L0 L1) as HS.
      fold E' in HS.
      match type of HS with zon _ ?u1 ?u2 => match goal with |- zon _ ?v1 ?v2 =>
        replace v1 with u1; [replace v2 with u2; [exact HS|]|] end end.
      - unfold d', f_corr. rewrite plus_IZR, Q1'. unfold D', p1, q1, w, Dd. rewrite plus_IZR. field.
      - unfold c', f_corr. rewrite plus_IZR, Q0. unfold C', p0, w, q0, Dc, Dd. rewrite !plus_IZR. field. }
    pose proof (pass_R i (V2 X Y) (Est Ke Pe (V2 C D) te) (B2R g1) (B2R g2) (B2R g) (map to_exact draws) ltac:(lia)) as PR.
    cbv zeta in PR. cbn [v0 v1] in PR. fold X' Y' Zm in PR. specialize (PR (V2 K0 K1) EK).
    set (e' := kstep sim_sys (Est Ke Pe (V2 C D) te) 1 Zm) in *.
    assert (EE : e' = Est (Some (V2 K0 K1)) (eP e') (V2 C' D') (te + 1)).
    { clearbody C' D'. clear - EK EX. assert (ET : et e' = te + 1) by reflexivity. clearbody e'.
      destruct e' as [ek ep exx ett]. cbn [eK eP KalmanSpec.ex et] in *. subst. reflexivity. }
    destruct (IH l' (i + 1)%Z draws fdraws' P' [Some k0; Some k1] x' y' c' d' ci'
      ex' ey' mx' my' T' E' X' Y' (Some (V2 K0 K1)) (eP e') C' D' (te + 1)
      EL' TEND ltac:(lia) ltac:(lia) Hx' Hy' Bx' By' ltac:(unfold mx'; lia) ltac:(unfold my'; lia)
      ltac:(unfold ex'; lia) ltac:(unfold ey'; lia) Ix' Iy' Ic' Id' HT' HE' HP' ltac:(cbn in LD; lia) FD' CD')
      as (ps & qs & EPS & EQS & LP & AG & EG & IP).
    rewrite <- EE in EQS.
    eexists _, _. split; [|split; [|split; [|split; [|split]]]].
    + etransitivity; [exact PF|].
      match goal with |- bind ?s _ = _ => assert (EPS' : s = Ok (Some ps)) by exact EPS; rewrite EPS' end.
      rewrite bind_Ok. reflexivity.
    + cbn [map]. change (to_exact (g1, g2, g)) with (B2R g1, B2R g2, B2R g).
      rewrite PR, EQS, bind_Ok. reflexivity.
    + cbn [length]. now rewrite LP.
    + constructor; [|exact AG]. unfold fixed_agree, ftol.
      cbn [fst snd p_pos p_poshat p_posgain p_posecov p_vel p_velhat p_velgain p_velecov t_s0 t_s1 t_e0 t_e1 t_g t_c].
      rewrite EX. cbn [v0 v1]. fold C' D'.
      destruct HP' as (H00 & H01 & _ & _).
      assert (TG : IZR ft_g * unit <= 3/10000) by exact (tol_ok 3 10000 ltac:(lia)).
      assert (TC : IZR ft_c * unit <= 25/1000) by exact (tol_ok 25 1000 ltac:(lia)).
      apply Z.leb_le in C10, C11, C12, C13.
      assert (RAW : forall (a : Z) (r : R) (t : Z) (B : R), Rabs (IZR a - 65536 * r) <= IZR t -> IZR t <= 65536 * B -> fagree B a r).
      { clear. intros a r t B H HB. unfold fagree. apply Rabs_le_inv in H. apply Rabs_le. lra. }
      assert (F0 : IZR ft_s0 <= 65536 * (8/100)).
      { change ft_s0 with 5242%Z. lra. }
      assert (F1 : IZR ft_s1 <= 65536 * (4/1000)).
      { change ft_s1 with 262%Z. lra. }
      pose proof (zon_w0 _ _ _ HE') as WE0. pose proof (zon_w1 _ _ _ HE') as WE1.
      assert (FE0 : IZR ft_e0 * zu <= 65536 * (45/100)) by (change ft_e0 with 126663739519795%Z; unfold zu; lra).
      assert (FE1 : IZR ft_e1 * zu <= 65536 * (7/100)) by (change ft_e1 with 19703248369745%Z; unfold zu; lra).
      apply IZR_le in C10, C11, C12, C13.
      assert (C12' : IZR (w0 E') * zu <= IZR ft_e0 * zu) by (apply Rmult_le_compat_r; lra).
      assert (C13' : IZR (w1 E') * zu <= IZR ft_e1 * zu) by (apply Rmult_le_compat_r; lra).
      assert (XZ : IZR ex' <= IZR ez) by (apply IZR_le; unfold ez; lia).
      assert (RAW2 : forall (a : Z) (r : R) (B : R), Rabs (IZR a - 65536 * r) <= 65536 * B -> fagree B a r).
      { clear. intros a r B H. unfold fagree. apply Rabs_le_inv in H. apply Rabs_le. lra. }
      split; [apply RAW2; fold Dz; lra|]. split; [apply RAW2; lra|]. split; [apply RAW2; lra|].
      split; [apply RAW2; lra|]. split; [apply RAW2; lra|].
      split; [exact (fdist_tol _ _ _ _ _ B0 C14 TG)|]. split; [exact (fdist_tol _ _ _ _ _ B1 C15 TG)|].
      split; [exact (fdist_tol _ _ _ _ _ H00 C16 TC)|exact (fdist_tol _ _ _ _ _ H01 C17 TC)].
    + cbn [map]. rewrite EG. reflexivity.
    + cbn [iposecov]. rewrite EI. constructor; [|exact IP]. exact (proj1 HP').
Qed.
