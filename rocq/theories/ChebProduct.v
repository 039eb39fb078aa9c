(** * Product formulas for Chebyshev polynomials *)

From Coq Require Import Reals List Lra Lia Psatz Arith.
From Coquelicot Require Import Complex.
From Verif Require Import Biquad ChebyshevSpec.
Import ListNotations.
Local Open Scope R_scope.

Lemma cheb_0 y : cheb 0 y = 1.
Proof. reflexivity. Qed.
Lemma cheb_1 y : cheb 1 y = y.
Proof. reflexivity. Qed.
Lemma cheb_SS n y : cheb (S (S n)) y = 2 * y * cheb (S n) y - cheb n y.
Proof. reflexivity. Qed.

Lemma nat_ind2 (P : nat -> Prop) : P O -> P 1%nat -> (forall n, P n -> P (S n) -> P (S (S n))) -> forall n, P n.
Proof. intros P0 P1 PS n. enough (P n /\ P (S n)) by tauto. induction n as [|n [IH1 IH2]]; auto. Qed.

Lemma cheb_cosh n a : cheb n (cosh a) = cosh (INR n * a).
Proof.
  induction n as [| |n IH1 IH2] using nat_ind2.
  - rewrite cheb_0. cbn [INR]. rewrite Rmult_0_l, cosh_0. reflexivity.
  - rewrite cheb_1. cbn [INR]. now rewrite Rmult_1_l.
  - rewrite cheb_SS, IH1, IH2. rewrite !S_INR. unfold cosh.
    replace ((INR n + 1 + 1) * a) with (INR n * a + a + a) by ring.
    replace ((INR n + 1) * a) with (INR n * a + a) by ring.
    rewrite !Ropp_plus_distr, !exp_plus. set (x := exp (INR n * a)). set (x' := exp (- (INR n * a))).
    assert (E : exp a * exp (- a) = 1) by (rewrite <- exp_plus, Rplus_opp_r; apply exp_0).
    set (e := exp a) in *. set (e' := exp (- a)) in *. clearbody e e' x x'.
    replace x with (x * (e * e')) at 2 by (rewrite E; ring).
    replace x' with (x' * (e * e')) at 2 by (rewrite E; ring). field.
Qed.

Lemma cheb_cos n a : cheb n (cos a) = cos (INR n * a).
Proof.
  induction n as [| |n IH1 IH2] using nat_ind2.
  - rewrite cheb_0. cbn [INR]. rewrite Rmult_0_l, cos_0. reflexivity.
  - rewrite cheb_1. cbn [INR]. now rewrite Rmult_1_l.
  - rewrite cheb_SS, IH1, IH2. rewrite !S_INR.
    replace ((INR n + 1 + 1) * a) with ((INR n + 1) * a + a) by ring.
    replace (INR n * a) with ((INR n + 1) * a - a) by ring.
    rewrite cos_plus, cos_minus. ring.
Qed.

Lemma cheb_one n : cheb n 1 = 1.
Proof. replace 1 with (cos 0) at 1 by apply cos_0. rewrite cheb_cos, Rmult_0_r. apply cos_0. Qed.

Lemma cheb_bounded n y : -1 <= y <= 1 -> -1 <= cheb n y <= 1.
Proof. intros H. rewrite <- (cos_acos y H), cheb_cos. apply COS_bound. Qed.

(** ** Products *)

Fixpoint prodn (f : nat -> R) (n : nat) : R :=
  match n with O => 1 | S n => prodn f n * f n end.

Lemma prodn_ext f g n : (forall k, (k < n)%nat -> f k = g k) -> prodn f n = prodn g n.
Proof.
  induction n as [|n IH]; intros H; cbn; [reflexivity|]. rewrite IH, H by (intros; try apply H; lia). reflexivity.
Qed.

Lemma prodn_mult f g n : prodn (fun k => f k * g k) n = prodn f n * prodn g n.
Proof. induction n as [|n IH]; cbn; [ring|]. rewrite IH. ring. Qed.

Lemma prodn_S_l f n : prodn f (S n) = f O * prodn (fun k => f (S k)) n.
Proof. induction n as [|n IH]; [cbn; ring|]. change (prodn f (S (S n))) with (prodn f (S n) * f (S n)). rewrite IH. cbn. ring. Qed.

Lemma prodn_plus f n m : prodn f (n + m) = prodn f n * prodn (fun k => f (n + k)%nat) m.
Proof. induction m as [|m IH]; [rewrite Nat.add_0_r; cbn; ring|]. rewrite Nat.add_succ_r. cbn. rewrite IH. ring. Qed.

Lemma prodn_rev f n : prodn f n = prodn (fun k => f (n - 1 - k)%nat) n.
Proof.
  induction n as [|n IH]; [reflexivity|]. rewrite (prodn_S_l (fun k => f (S n - 1 - k)%nat)). cbn [prodn].
  rewrite IH. replace (S n - 1 - 0)%nat with n by lia. rewrite Rmult_comm. f_equal.
  apply prodn_ext. intros k Hk. f_equal. lia.
Qed.

Lemma prodn_nonzero f n : (forall k, (k < n)%nat -> f k <> 0) -> prodn f n <> 0.
Proof.
  induction n as [|n IH]; intros H; cbn; [lra|]. apply Rmult_integral_contrapositive_currified; [apply IH; intros; apply H; lia|apply H; lia].
Qed.

Lemma prodn_pos f n : (forall k, (k < n)%nat -> 0 < f k) -> 0 < prodn f n.
Proof.
  induction n as [|n IH]; intros H; cbn; [lra|]. apply Rmult_lt_0_compat; [apply IH; intros; apply H; lia|apply H; lia].
Qed.

Lemma prodn_const c n : prodn (fun _ => c) n = c ^ n.
Proof. induction n as [|n IH]; cbn; [reflexivity|rewrite IH; ring]. Qed.

Lemma prodn_div f g n : (forall k, (k < n)%nat -> g k <> 0) -> prodn (fun k => f k / g k) n = prodn f n / prodn g n.
Proof.
  induction n as [|n IH]; intros H; cbn; [field|]. rewrite IH by (intros; apply H; lia).
  field. split; [apply H; lia|apply prodn_nonzero; intros; apply H; lia].
Qed.

(** ** Polynomials over the complex numbers with known roots *)

Fixpoint cpow (z : C) (n : nat) : C := match n with O => RtoC 1 | S n => Cmult z (cpow z n) end.

Lemma cpow_add z n m : cpow z (n + m) = Cmult (cpow z n) (cpow z m).
Proof. induction n as [|n IH]; cbn [cpow Nat.add]; [ring|rewrite IH; ring]. Qed.

Fixpoint ceval (l : list C) (z : C) : C :=
  match l with [] => RtoC 0 | c :: l => Cplus c (Cmult z (ceval l z)) end.

Fixpoint cdivide (l : list C) (r : C) : list C :=
  match l with
  | [] => []
  | c :: l' => match l' with [] => [] | _ => ceval l' r :: cdivide l' r end
  end.

Lemma cdivide_spec r z : forall l, ceval l z = Cplus (Cmult (Cminus z r) (ceval (cdivide l r) z)) (ceval l r).
Proof.
  induction l as [|c l IH]; [cbn; ring|]. destruct l as [|d l].
  - cbn. ring.
  - change (cdivide (c :: d :: l) r) with (ceval (d :: l) r :: cdivide (d :: l) r).
    set (m := d :: l) in *. change (ceval (c :: m) z) with (Cplus c (Cmult z (ceval m z))).
    change (ceval (c :: m) r) with (Cplus c (Cmult r (ceval m r))).
    change (ceval (ceval m r :: cdivide m r) z) with (Cplus (ceval m r) (Cmult z (ceval (cdivide m r) z))).
    rewrite IH. ring.
Qed.

Lemma cdivide_length r : forall l, length (cdivide l r) = pred (length l).
Proof. induction l as [|c [|d l] IH]; try reflexivity. change (S (length (cdivide (d :: l) r)) = S (length l)). rewrite IH. reflexivity. Qed.

Lemma cdivide_last r : forall l, (2 <= length l)%nat -> last (cdivide l r) (RtoC 0) = last l (RtoC 0).
Proof.
  induction l as [|c [|d l] IH]; cbn [length]; intros H; try lia.
  change (cdivide (c :: d :: l) r) with (ceval (d :: l) r :: cdivide (d :: l) r).
  destruct l as [|e l].
  - cbn. ring.
  - change (last (c :: d :: e :: l) (RtoC 0)) with (last (d :: e :: l) (RtoC 0)).
    rewrite <- IH by (cbn; lia). reflexivity.
Qed.

Fixpoint cprod (rs : list C) (z : C) : C :=
  match rs with [] => RtoC 1 | r :: rs => Cmult (Cminus z r) (cprod rs z) end.

Lemma cprod_app rs rs' z : cprod (rs ++ rs') z = Cmult (cprod rs z) (cprod rs' z).
Proof. induction rs as [|r rs IH]; cbn; [ring|rewrite IH; ring]. Qed.

Lemma roots_product : forall rs l, NoDup rs -> length l = S (length rs) -> last l (RtoC 0) = RtoC 1 ->
  (forall r, In r rs -> ceval l r = RtoC 0) -> forall z, ceval l z = cprod rs z.
Proof.
  induction rs as [|r rs IH]; intros l ND Len La Ro z.
  - destruct l as [|c [|]]; cbn in Len; try lia. cbn in *. rewrite La. ring.
  - rewrite (cdivide_spec r z l). rewrite (Ro r) by now left. cbn [cprod].
    assert (E : ceval (cdivide l r) z = cprod rs z).
    { apply IH.
      - now inversion ND.
      - rewrite cdivide_length, Len. reflexivity.
      - rewrite cdivide_last; [assumption|]. rewrite Len. cbn. lia.
      - intros r' Hr'. pose proof (cdivide_spec r r' l) as D. rewrite (Ro r') in D by now right.
        rewrite (Ro r) in D by now left.
        assert (NZ : Cminus r' r <> RtoC 0).
        { intros X. assert (r' = r). { transitivity (Cplus (Cminus r' r) r); [ring|rewrite X; ring]. }
          subst r'. now inversion ND. }
        assert (P : Cmult (Cminus r' r) (ceval (cdivide l r) r') = RtoC 0) by (rewrite D; ring).
        transitivity (Cmult (Cinv (Cminus r' r)) (Cmult (Cminus r' r) (ceval (cdivide l r) r'))).
        + field. assumption.
        + rewrite P. ring. }
    rewrite E. ring.
Qed.

(** z^M + k *)
Lemma ceval_power k m z : ceval (k :: repeat (RtoC 0) m ++ [RtoC 1]) z = Cplus k (cpow z (S m)).
Proof.
  cbn [ceval]. f_equal. cbn [cpow]. f_equal.
  induction m as [|m IH]; cbn; [ring|]. cbn in IH. rewrite IH. ring.
Qed.

Lemma last_power k m : last (k :: repeat (RtoC 0) m ++ [RtoC 1]) (RtoC 0) = RtoC 1.
Proof. rewrite app_comm_cons. apply last_last. Qed.

(** The angles (2k+1) pi / (2N), k = 0 ... N-1. *)
Definition theta (N k : nat) : R := (2 * INR k + 1) * PI / (2 * INR N).

Lemma theta_range N k : (k < N)%nat -> 0 < theta N k < PI.
Proof.
  intros H. unfold theta. assert (0 < INR N) by (apply lt_0_INR; lia). pose proof (pos_INR k). pose proof PI_RGT_0.
  assert (INR k + 1 <= INR N) by (rewrite <- S_INR; apply le_INR; lia).
  split; [apply Rdiv_lt_0_compat; [apply Rmult_lt_0_compat; lra|lra]|].
  apply (Rmult_lt_reg_r (2 * INR N)); [lra|]. unfold Rdiv. rewrite Rmult_assoc, Rinv_l, Rmult_1_r by lra. nra.
Qed.

Lemma theta_inj N k l : (0 < N)%nat -> theta N k = theta N l -> k = l.
Proof.
  intros HN H. unfold theta in H. assert (0 < INR N) by (apply lt_0_INR; lia). pose proof PI_RGT_0.
  apply INR_eq. assert (E : (2 * INR k + 1) * PI = (2 * INR l + 1) * PI).
  { replace ((2 * INR k + 1) * PI) with ((2 * INR k + 1) * PI / (2 * INR N) * (2 * INR N)) by (field; lra). rewrite H. field. lra. }
  apply Rmult_eq_reg_r in E; lra.
Qed.

Lemma cos_inj_0PI x y : 0 < x < PI -> 0 < y < PI -> cos x = cos y -> x = y.
Proof.
  intros Hx Hy E. destruct (Rtotal_order x y) as [L|[L|L]]; [|assumption|].
  - pose proof (cos_decreasing_1 x y). lra.
  - pose proof (cos_decreasing_1 y x). lra.
Qed.

Definition upper (v : R) (N k : nat) : C := polar v (theta N k).
Definition lower (v : R) (N k : nat) : C := polar v (- theta N k).
Definition all_roots (v : R) (N : nat) : list C := map (upper v N) (seq 0 N) ++ map (lower v N) (seq 0 N).

Lemma NoDup_map_inj {A B} (f : A -> B) l : (forall x y, In x l -> In y l -> f x = f y -> x = y) -> NoDup l -> NoDup (map f l).
Proof.
  intros I ND. induction ND as [|x l N ND IH]; cbn; constructor.
  - intros H. apply in_map_iff in H. destruct H as (y & E & Hy). assert (y = x) by (apply I; [now right|now left|assumption]). now subst.
  - apply IH. intros; apply I; try assumption; now right.
Qed.

Lemma all_roots_NoDup v N : 0 < v -> NoDup (all_roots v N).
Proof.
  intros Hv. unfold all_roots.
  assert (I : forall s k l, (k < N)%nat -> (l < N)%nat -> polar v (s * theta N k) = polar v (s * theta N l) -> (s = 1 \/ s = -1) -> k = l).
  { intros s k l Hk Hl E Hs. apply (theta_inj N); [lia|].
    apply cos_inj_0PI; try (apply theta_range; assumption).
    apply (f_equal fst) in E. unfold polar in E. cbn [fst] in E. apply Rmult_eq_reg_l in E; [|lra].
    destruct Hs as [-> | ->].
    - now rewrite !Rmult_1_l in E.
    - replace (-1 * theta N k) with (- theta N k) in E by ring. replace (-1 * theta N l) with (- theta N l) in E by ring.
      now rewrite !cos_neg in E. }
  assert (A1 : NoDup (map (upper v N) (seq 0 N))).
  { apply NoDup_map_inj; [|apply seq_NoDup]. intros k l Hk Hl E. apply in_seq in Hk, Hl. apply (I 1); try lia.
    - now rewrite !Rmult_1_l.
    - now left. }
  assert (A2 : NoDup (map (lower v N) (seq 0 N))).
  { apply NoDup_map_inj; [|apply seq_NoDup]. intros k l Hk Hl E. apply in_seq in Hk, Hl. apply (I (-1)); try lia.
    - replace (-1 * theta N k) with (- theta N k) by ring. replace (-1 * theta N l) with (- theta N l) by ring. exact E.
    - now right. }
  assert (D : forall x, In x (map (upper v N) (seq 0 N)) -> ~ In x (map (lower v N) (seq 0 N))).
  { intros x H1 H2. apply in_map_iff in H1, H2. destruct H1 as (k & <- & Hk), H2 as (l & E & Hl).
    apply in_seq in Hk, Hl. apply (f_equal snd) in E. unfold upper, lower, polar in E. cbn [snd] in E.
    rewrite sin_neg in E.
    assert (0 < sin (theta N k)) by (destruct (theta_range N k); [lia|apply sin_gt_0; lra]).
    assert (0 < sin (theta N l)) by (destruct (theta_range N l); [lia|apply sin_gt_0; lra]). nra. }
  revert A1 D. generalize (map (upper v N) (seq 0 N)). induction l as [|x l IH]; intros A1 D; [exact A2|].
  cbn. inversion A1; subst. constructor.
  - intros H. apply in_app_or in H. destruct H as [H|H]; [contradiction|]. apply (D x); [now left|assumption].
  - apply IH; [assumption|]. intros y Hy. apply D. now right.
Qed.

Lemma polar_pow v t n : cpow (polar v t) n = polar (v ^ n) (INR n * t).
Proof.
  induction n as [|n IH].
  - cbn. unfold polar. rewrite Rmult_0_l, cos_0, sin_0. unfold RtoC. f_equal; ring.
  - cbn [cpow pow]. rewrite IH, S_INR. unfold polar, Cmult. cbn [fst snd].
    replace ((INR n + 1) * t) with (t + INR n * t) by ring. rewrite cos_plus, sin_plus. f_equal; ring.
Qed.

Lemma odd_pi k : cos ((2 * INR k + 1) * PI) = -1 /\ sin ((2 * INR k + 1) * PI) = 0.
Proof.
  replace ((2 * INR k + 1) * PI) with (PI + 2 * INR k * PI) by ring. rewrite cos_period, sin_period, cos_PI, sin_PI. tauto.
Qed.

Lemma theta_mult N k : (0 < N)%nat -> INR (2 * N) * theta N k = (2 * INR k + 1) * PI.
Proof. intros H. unfold theta. rewrite mult_INR. cbn [INR]. assert (0 < INR N) by (apply lt_0_INR; lia). field. lra. Qed.

Lemma all_roots_product v N z : 0 < v -> (0 < N)%nat ->
  cprod (all_roots v N) z = Cplus (RtoC (v ^ (2 * N))) (cpow z (2 * N)).
Proof.
  intros Hv HN. set (m := pred (2 * N)). replace (2 * N)%nat with (S m) by (unfold m; lia).
  rewrite <- ceval_power. symmetry. apply roots_product.
  - now apply all_roots_NoDup.
  - cbn [length]. rewrite app_length, repeat_length. unfold all_roots. rewrite app_length, !map_length, seq_length. cbn. unfold m. lia.
  - apply last_power.
  - intros r Hr. rewrite ceval_power. unfold all_roots in Hr. apply in_app_or in Hr.
    assert (M : S m = (2 * N)%nat) by (unfold m; lia).
    destruct Hr as [Hr|Hr]; apply in_map_iff in Hr; destruct Hr as (k & <- & Hk); unfold upper, lower; rewrite polar_pow, M.
    + rewrite theta_mult by assumption. unfold polar. destruct (odd_pi k) as [-> ->]. unfold Cplus, RtoC. cbn [fst snd]. f_equal; ring.
    + replace (INR (2 * N) * - theta N k) with (- (INR (2 * N) * theta N k)) by ring. rewrite theta_mult by assumption.
      unfold polar. rewrite cos_neg, sin_neg. destruct (odd_pi k) as [-> ->]. unfold Cplus, RtoC. cbn [fst snd]. f_equal; ring.
Qed.

(** ** The squared distance of a real number to the ellipse points *)

Definition ellipse (y a t : R) : R :=
  (y - cos t * cosh a) * (y - cos t * cosh a) + (sin t * sinh a) * (sin t * sinh a).

Lemma joukowski y : exists u : C, u <> RtoC 0 /\ Cplus u (Cinv u) = RtoC (2 * y).
Proof.
  destruct (Rle_dec (y * y) 1) as [H|H].
  - exists (y, sqrt (1 - y * y)). assert (S : sqrt (1 - y * y) * sqrt (1 - y * y) = 1 - y * y) by (apply sqrt_sqrt; lra).
    set (s := sqrt (1 - y * y)) in *. split.
    + intros X. injection X as X1 X2. rewrite X1, X2 in S. lra.
    + unfold Cplus, Cinv, RtoC. cbn [fst snd]. replace (y ^ 2 + s ^ 2) with 1 by (cbn; nra). f_equal; field.
  - set (u := y + sqrt (y * y - 1)). assert (S : sqrt (y * y - 1) * sqrt (y * y - 1) = y * y - 1) by (apply sqrt_sqrt; lra).
    assert (U : u * (y - sqrt (y * y - 1)) = 1) by (unfold u; nra).
    assert (U0 : u <> 0) by (intros X; rewrite X in U; lra).
    exists (RtoC u). split; [intros X; apply RtoC_inj in X; contradiction|].
    rewrite <- RtoC_inv by assumption. rewrite <- RtoC_plus. f_equal.
    replace (/ u) with (y - sqrt (y * y - 1)). { unfold u. ring. }
    apply (Rmult_eq_reg_l u); [|assumption]. rewrite U. field. assumption.
Qed.

Lemma cpow_inv u n : u <> RtoC 0 -> Cmult (cpow u n) (cpow (Cinv u) n) = RtoC 1.
Proof.
  intros H. induction n as [|n IH]; [cbn; ring|]. cbn [cpow].
  transitivity (Cmult (Cmult u (Cinv u)) (Cmult (cpow u n) (cpow (Cinv u) n))); [ring|]. rewrite IH. field. assumption.
Qed.

Lemma cheb_joukowski u y n : u <> RtoC 0 -> Cplus u (Cinv u) = RtoC (2 * y) ->
  Cplus (cpow u n) (cpow (Cinv u) n) = RtoC (2 * cheb n y).
Proof.
  intros Hu E. induction n as [| |n IH1 IH2] using nat_ind2.
  - cbn [cpow]. rewrite cheb_0, <- RtoC_plus. f_equal. ring.
  - cbn [cpow]. rewrite cheb_1, !Cmult_1_r. exact E.
  - rewrite cheb_SS.
    transitivity (Cminus (Cmult (Cplus u (Cinv u)) (Cplus (cpow u (S n)) (cpow (Cinv u) (S n)))) (Cplus (cpow u n) (cpow (Cinv u) n))).
    + cbn [cpow]. field. assumption.
    + rewrite E, IH1, IH2. rewrite <- RtoC_mult, <- RtoC_minus. f_equal. ring.
Qed.

Lemma ellipse_factors u y a t : u <> RtoC 0 -> Cplus u (Cinv u) = RtoC (2 * y) ->
  Cmult (Cmult u u) (RtoC (4 * ellipse y a t)) =
  Cmult (Cmult (Cminus u (polar (exp a) t)) (Cminus u (polar (exp a) (- t))))
        (Cmult (Cminus u (polar (exp (- a)) t)) (Cminus u (polar (exp (- a)) (- t)))).
Proof.
  intros Hu E.
  set (w := polar (exp a) t). set (w' := polar (exp a) (- t)). set (x := polar (exp (- a)) t). set (x' := polar (exp (- a)) (- t)).
  assert (EE : exp a * exp (- a) = 1) by (rewrite <- exp_plus, Rplus_opp_r; apply exp_0).
  assert (SC : sin t * sin t + cos t * cos t = 1) by exact (sin2_cos2 t).
  assert (P1 : Cmult w x' = RtoC 1).
  { unfold w, x', polar, Cmult, RtoC. cbn [fst snd]. rewrite cos_neg, sin_neg.
    set (e := exp a) in *. set (e' := exp (- a)) in *. set (c := cos t) in *. set (s := sin t) in *. clearbody e e' c s.
    f_equal.
    - transitivity (e * e' * (s * s + c * c)); [ring|]. rewrite EE, SC. ring.
    - ring. }
  assert (P2 : Cmult w' x = RtoC 1).
  { unfold w', x, polar, Cmult, RtoC. cbn [fst snd]. rewrite cos_neg, sin_neg.
    set (e := exp a) in *. set (e' := exp (- a)) in *. set (c := cos t) in *. set (s := sin t) in *. clearbody e e' c s.
    f_equal.
    - transitivity (e * e' * (s * s + c * c)); [ring|]. rewrite EE, SC. ring.
    - ring. }
  assert (F : forall p q, Cmult p q = RtoC 1 ->
     Cmult (Cminus u p) (Cminus u q) = Cmult u (Cminus (RtoC (2 * y)) (Cplus p q))).
  { intros p q H. rewrite <- E. transitivity (Cplus (Cminus (Cmult u u) (Cmult u (Cplus p q))) (Cmult p q)); [ring|].
    rewrite H. field. assumption. }
  transitivity (Cmult (Cmult (Cminus u w) (Cminus u x')) (Cmult (Cminus u w') (Cminus u x))); [|ring].
  rewrite (F _ _ P1), (F _ _ P2).
  transitivity (Cmult (Cmult u u) (Cmult (Cminus (RtoC (2 * y)) (Cplus w x')) (Cminus (RtoC (2 * y)) (Cplus w' x)))); [|ring].
  f_equal. unfold w, w', x, x', polar, ellipse, cosh, sinh, Cmult, Cminus, Cplus, Copp, RtoC. cbn [fst snd]. rewrite cos_neg, sin_neg.
  f_equal; field.
Qed.

(** The product over all points: 4^N prod = 4 (T_N(y)^2 + sinh(Na)^2). *)
Theorem ellipse_product N y a : (0 < N)%nat ->
  prodn (fun k => 4 * ellipse y a (theta N k)) N
  = 4 * (cheb N y * cheb N y + sinh (INR N * a) * sinh (INR N * a)).
Proof.
  intros HN. destruct (joukowski y) as (u & Hu & E).
  assert (CP : forall n, Cmult (cpow (Cmult u u) n) (RtoC (prodn (fun k => 4 * ellipse y a (theta N k)) n)) =
     Cmult (Cmult (cprod (map (upper (exp a) N) (seq 0 n)) u) (cprod (map (lower (exp a) N) (seq 0 n)) u))
           (Cmult (cprod (map (upper (exp (- a)) N) (seq 0 n)) u) (cprod (map (lower (exp (- a)) N) (seq 0 n)) u))).
  { induction n as [|n IH]; [cbn; ring|]. rewrite seq_S, !map_app, !cprod_app. cbn [Nat.add map cprod prodn cpow].
    rewrite RtoC_mult.
    transitivity (Cmult (Cmult (cpow (Cmult u u) n) (RtoC (prodn (fun k => 4 * ellipse y a (theta N k)) n)))
                        (Cmult (Cmult u u) (RtoC (4 * ellipse y a (theta N n))))); [ring|].
    rewrite IH, (ellipse_factors u y a (theta N n) Hu E). unfold upper, lower. ring. }
  specialize (CP N).
  assert (AR : forall v, 0 < v -> Cmult (cprod (map (upper v N) (seq 0 N)) u) (cprod (map (lower v N) (seq 0 N)) u)
     = Cplus (RtoC (v ^ (2 * N))) (cpow u (2 * N))).
  { intros v Hv. rewrite <- cprod_app. now apply all_roots_product. }
  rewrite !AR in CP by apply exp_pos.
  assert (V : forall b n, exp b ^ n = exp (INR n * b)).
  { intros b n. induction n as [|n IH]; [cbn; now rewrite Rmult_0_l, exp_0|]. cbn [pow]. rewrite IH, <- exp_plus, S_INR. f_equal. ring. }
  rewrite !V in CP.
  pose proof (cheb_joukowski u y N Hu E) as J.
  assert (PU : forall n, cpow (Cmult u u) n = Cmult (cpow u n) (cpow u n)).
  { induction n as [|n IH]; cbn [cpow]; [ring|rewrite IH; ring]. }
  assert (PD : cpow u (2 * N) = Cmult (cpow u N) (cpow u N)).
  { replace (2 * N)%nat with (N + N)%nat by lia. rewrite cpow_add. reflexivity. }
  rewrite PU, PD in CP. set (U := cpow u N) in *. set (U' := cpow (Cinv u) N) in *.
  assert (UU : Cmult U U' = RtoC 1) by now apply cpow_inv.
  apply RtoC_inj. 
  set (P := RtoC (prodn (fun k => 4 * ellipse y a (theta N k)) N)) in *.
  replace (INR (2 * N) * a) with (INR N * a + INR N * a) in CP by (rewrite mult_INR; cbn [INR]; ring).
  replace (INR (2 * N) * - a) with (- (INR N * a) + - (INR N * a)) in CP by (rewrite mult_INR; cbn [INR]; ring).
  unfold sinh. set (b := INR N * a) in *. rewrite !exp_plus in CP.
  set (e := exp b) in *. set (e' := exp (- b)) in *.
  assert (EE : e * e' = 1) by (unfold e, e'; rewrite <- exp_plus, Rplus_opp_r; apply exp_0).
  transitivity (Cmult (Cmult U' U') (Cmult (Cmult U U) P)).
  { transitivity (Cmult (Cmult (Cmult U U') (Cmult U U')) P); [rewrite UU; ring|ring]. }
  rewrite CP.
  assert (EC : Cmult (RtoC e) (RtoC e') = RtoC 1) by (rewrite <- RtoC_mult, EE; reflexivity).
  transitivity (Cplus (Cmult (RtoC (2 * cheb N y)) (RtoC (2 * cheb N y))) (Cmult (Cminus (RtoC e) (RtoC e')) (Cminus (RtoC e) (RtoC e')))).
  - rewrite <- J, !RtoC_mult.
    set (E1 := RtoC e) in *. set (E2 := RtoC e') in *.
    transitivity (Cplus (Cplus (Cmult (Cmult (Cmult E1 E2) (Cmult E1 E2)) (Cmult U' U'))
                               (Cmult (Cplus (Cmult E1 E1) (Cmult E2 E2)) (Cmult (Cmult U U') (Cmult U U'))))
                        (Cmult (Cmult (Cmult U U') (Cmult U U')) (Cmult U U))); [ring|].
    transitivity (Cminus (Cplus (Cplus (Cplus (Cmult U U) (Cmult U' U')) (Cplus (Cmult U U') (Cmult U U')))
                                (Cplus (Cmult E1 E1) (Cmult E2 E2)))
                         (Cplus (Cmult E1 E2) (Cmult E1 E2))); [|ring].
    rewrite EC, UU. ring.
  - rewrite <- !RtoC_minus, <- !RtoC_mult, <- RtoC_plus. f_equal. field.
Qed.
