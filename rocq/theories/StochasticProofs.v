(** * Proofs about the Kalman filter under random noise *)

From Coq Require Import Reals List Lra Lia Psatz ZArith.
From Verif Require Import Base Matrix MatrixSpec MatrixProofs Scalars Kalman KalmanSpec
  KalmanProofs StochasticSpec.
Import ListNotations.
Local Open Scope R_scope.

(** ** Snoc views *)

Lemma world_S {Om} u (w : nat -> Om -> vec2) v n o :
  world u w v (S n) o = world u w v n o ++ [(u n, w n o, v n o)].
Proof. unfold world. rewrite seq_S, map_app. reflexivity. Qed.

Lemma world_length {Om} u (w : nat -> Om -> vec2) v n o : length (world u w v n o) = n.
Proof. unfold world. now rewrite map_length, seq_length. Qed.

Lemma evolve_snoc s h : forall x u w v,
  evolve s x (h ++ [(u, w, v)]) = true_next s (evolve s x h) u w.
Proof. induction h as [|[[u' w'] v'] h IH]; intros; simpl; auto. Qed.

Lemma observe_snoc s h : forall x u w v,
  observe s x (h ++ [(u, w, v)]) =
  observe s x h ++ [(u, vdot (sH s) (true_next s (evolve s x h) u w) + v)].
Proof.
  induction h as [|[[u' w'] v'] h IH]; intros; simpl; [reflexivity|]. now rewrite IH.
Qed.

Lemma observe_length s h : forall x, length (observe s x h) = length h.
Proof. induction h as [|[[u w] v] h IH]; intros; simpl; auto. Qed.

(** ** Expectation *)

Section Expect.
Context {Om : Type} {E : (Om -> R) -> R} (HE : expectation E).

Lemma E_zero : E (fun _ => 0) = 0.
Proof.
  rewrite <- (E_ext E HE (fun _ => 0 * 1)) by (intros; ring).
  rewrite (E_scale E HE 0 (fun _ => 1)). ring.
Qed.

Lemma E_lin a b f g : E (fun o => a * f o + b * g o) = a * E f + b * E g.
Proof.
  rewrite (E_add E HE (fun o => a * f o) (fun o => b * g o)).
  now rewrite (E_scale E HE a f), (E_scale E HE b g).
Qed.

(** Whatever equals a linear combination of three others. *)
Lemma E_lin' a b f g k : (forall o, k o = a * f o + b * g o) -> E k = a * E f + b * E g.
Proof. intros H. rewrite (E_ext E HE _ _ H). apply E_lin. Qed.

Lemma moment_tr f g : moment E f g = mtr (moment E g f).
Proof. unfold moment, mtr; simpl. f_equal; apply (E_ext E HE); intros; ring. Qed.

Lemma moment_ext f f' g g' :
  (forall o, f o = f' o) -> (forall o, g o = g' o) -> moment E f g = moment E f' g'.
Proof.
  intros F G. unfold moment. f_equal; apply (E_ext E HE); intros o; rewrite F, G; reflexivity.
Qed.

Lemma moment1_ext f f' g g' :
  (forall o, f o = f' o) -> (forall o, g o = g' o) -> moment1 E f g = moment1 E f' g'.
Proof.
  intros F G. unfold moment1. f_equal; apply (E_ext E HE); intros o; rewrite F, G; reflexivity.
Qed.

Lemma moment_mv M f g : moment E (fun o => mv M (f o)) g = mmul M (moment E f g).
Proof.
  unfold moment, mmul; simpl. f_equal; apply E_lin'; intros; simpl; ring.
Qed.

Lemma moment1_mv M f g : moment1 E (fun o => mv M (f o)) g = mv M (moment1 E f g).
Proof. unfold moment1, mv; simpl. f_equal; apply E_lin'; intros; simpl; ring. Qed.

Lemma moment_add f f' g :
  moment E (fun o => vadd (f o) (f' o)) g = madd (moment E f g) (moment E f' g).
Proof.
  unfold moment, madd; simpl. f_equal;
    (rewrite <- (E_add E HE); apply (E_ext E HE); intros; simpl; ring).
Qed.

Lemma moment1_add f f' g :
  moment1 E (fun o => vadd (f o) (f' o)) g = vadd (moment1 E f g) (moment1 E f' g).
Proof.
  unfold moment1, vadd; simpl. f_equal;
    (rewrite <- (E_add E HE); apply (E_ext E HE); intros; simpl; ring).
Qed.

(** A fixed vector times a random number. *)
Lemma moment_vec K y g :
  moment E (fun o => vscale (y o) K) g = vouter K (moment1 E g y).
Proof.
  unfold moment, moment1, vouter, vscale; simpl.
  f_equal; rewrite <- (E_scale E HE); apply (E_ext E HE); intros; ring.
Qed.

Lemma moment1_vec K y g :
  moment1 E (fun o => vscale (y o) K) g = vscale (E (fun o => y o * g o)) K.
Proof.
  unfold moment1, vscale; simpl.
  f_equal; rewrite Rmult_comm, <- (E_scale E HE); apply (E_ext E HE); intros; ring.
Qed.

(** Moments with a linear form of a random vector. *)
Lemma moment1_dot h f g :
  moment1 E g (fun o => vdot h (f o)) = mv (moment E g f) h.
Proof.
  unfold moment1, moment, mv, vdot; simpl.
  f_equal; rewrite (Rmult_comm _ (v0 h)), (Rmult_comm _ (v1 h));
    apply E_lin'; intros; ring.
Qed.

Lemma E_dot h f g : E (fun o => vdot h (f o) * g o) = vdot h (moment1 E f g).
Proof. unfold vdot, moment1; simpl. apply E_lin'; intros; ring. Qed.

Lemma moment1_addr f g g' :
  moment1 E f (fun o => g o + g' o) = vadd (moment1 E f g) (moment1 E f g').
Proof.
  unfold moment1, vadd; simpl. f_equal;
    (rewrite <- (E_add E HE); apply (E_ext E HE); intros; ring).
Qed.

Lemma moment1_scaler f c g :
  moment1 E f (fun o => c * g o) = vscale c (moment1 E f g).
Proof.
  unfold moment1, vscale; simpl. f_equal;
    (rewrite <- (E_scale E HE); apply (E_ext E HE); intros; ring).
Qed.

(** Second moments form a covariance matrix. *)
Lemma moment_sym f : sym (moment E f f).
Proof. unfold sym, moment; simpl. apply (E_ext E HE); intros; ring. Qed.

Lemma moment_quad f x :
  quad (moment E f f) x = E (fun o => vdot x (f o) * vdot x (f o)).
Proof.
  rewrite E_dot, moment1_dot. reflexivity.
Qed.

Lemma moment_psd f : psd (moment E f f).
Proof.
  intros x. rewrite moment_quad. apply (E_pos E HE). intros o. nra.
Qed.

Lemma mean_moment1 f : mean E f = moment1 E f (fun _ => 1).
Proof. unfold mean, moment1. f_equal; apply (E_ext E HE); intros; ring. Qed.

End Expect.

(** ** The covariances computed by the filter *)

Definition pstep (s : sys) (P : mat2) : mat2 :=
  Pcorr s (kgain s (Ppred s P)) (Ppred s P).
Fixpoint pseq (s : sys) (P : mat2) (n : nat) : mat2 :=
  match n with O => P | S n' => pstep s (pseq s P n') end.

Lemma pseq_shift s n : forall P, pseq s (pstep s P) n = pseq s P (S n).
Proof. induction n; intros; simpl in *; [reflexivity|now rewrite IHn]. Qed.

Lemma krun_pseq s h : forall e, eP (krun s e h) = pseq s (eP e) (length h).
Proof.
  induction h as [|[u z] h IH]; intros e; cbn [krun length]; [reflexivity|].
  rewrite IH, <- pseq_shift. reflexivity.
Qed.

Lemma pstep_ok s P : covariances_ok s P -> covariances_ok s (pstep s P).
Proof. exact (kstep_cov s (Est None P (V2 0 0) 0) 0 0). Qed.

Lemma pseq_ok s P n : covariances_ok s P -> covariances_ok s (pseq s P n).
Proof. intros H; induction n; simpl; auto using pstep_ok. Qed.

(** ** The filter in a random world *)

Section World.
Context {Om : Type} {E : (Om -> R) -> R} (HE : expectation E).
Context (s : sys) (P : mat2) (xh : vec2) (N : nat).
Context (x0 : Om -> vec2) (w : nat -> Om -> vec2) (v : nat -> Om -> R) (u : nat -> R).
Context (HN : noise_model E s P xh N x0 w v).

Let xt k o := evolve s (x0 o) (world u w v k o).
Let es k o := krun s (fresh P xh) (observe s (x0 o) (world u w v k o)).
Let err k o := vsub (xt k o) (ex (es k o)).
Let zz k o := vdot (sH s) (xt (S k) o) + v k o.
Let pre k o := vadd (mv (sA s) (err k o)) (w k o).
Let inn k o := vdot (sH s) (pre k o) + v k o.
Let KK k := kgain s (Ppred s (pseq s P k)).

Lemma xt_S k o : xt (S k) o = true_next s (xt k o) (u k) (w k o).
Proof. unfold xt. now rewrite world_S, evolve_snoc. Qed.

Lemma es_S k o : es (S k) o = kstep s (es k o) (u k) (zz k o).
Proof.
  unfold es at 1. rewrite world_S, observe_snoc, krun_app.
  unfold zz. rewrite xt_S. reflexivity.
Qed.

Lemma es_P k o : eP (es k o) = pseq s P k.
Proof. unfold es. now rewrite krun_pseq, observe_length, world_length. Qed.

Lemma measurement_zz n o i : (i < n)%nat ->
  measurement s (x0 o) (world u w v n o) i = zz i o.
Proof.
  intros L. induction n as [|n IH]; [lia|].
  unfold measurement. rewrite world_S, observe_snoc.
  destruct (Nat.eq_dec i n) as [->|D].
  - rewrite app_nth2; rewrite observe_length, world_length; [|lia].
    rewrite Nat.sub_diag. cbn [nth snd]. unfold zz. now rewrite xt_S.
  - rewrite app_nth1; [|rewrite observe_length, world_length; lia].
    apply IH. lia.
Qed.

Lemma inn_eq k o : inn k o = zz k o - vdot (sH s) (xpred s (ex (es k o)) (u k)).
Proof.
  unfold inn, pre, zz, err. rewrite xt_S. unfold true_next, xpred, vdot, mv, vadd, vsub, vscale.
  simpl. ring.
Qed.

(** The error after step [k], in two forms. *)
Lemma err_S_inn k o : err (S k) o = vadd (pre k o) (vscale (- inn k o) (KK k)).
Proof.
  rewrite inn_eq. unfold err at 1. rewrite es_S, xt_S. unfold pre, err. cbn [kstep ex].
  rewrite es_P. fold (KK k). unfold true_next, xcorr, xpred, mv, vadd, vsub, vscale. simpl.
  f_equal; ring.
Qed.

Lemma err_S k o : err (S k) o =
  vadd (mv (msub mI (vouter (KK k) (sH s))) (pre k o)) (vscale (- v k o) (KK k)).
Proof.
  rewrite err_S_inn. unfold inn, vdot, mv, vadd, vsub, vscale, msub, mI, vouter. simpl.
  f_equal; ring.
Qed.

(** *** Everything known after [k] measurements *)

Inductive past (k : nat) : (Om -> R) -> Prop :=
| past_z i : (i < k)%nat -> past k (zz i)
| past_1 : past k (fun _ => 1)
| past_lin a b f g : past k f -> past k g -> past k (fun o => a * f o + b * g o)
| past_ext f g : past k f -> (forall o, f o = g o) -> past k g.

Lemma past_mono k k' f : (k <= k')%nat -> past k f -> past k' f.
Proof.
  intros L. induction 1; [apply past_z; lia|apply past_1|now apply past_lin|].
  now apply past_ext with f.
Qed.

Lemma past_const k c : past k (fun _ => c).
Proof.
  apply past_ext with (fun o => c * 1 + 0 * 1); [|intros; ring].
  apply past_lin; apply past_1.
Qed.

Lemma past_add k f g : past k f -> past k g -> past k (fun o => f o + g o).
Proof.
  intros. apply past_ext with (fun o => 1 * f o + 1 * g o); [now apply past_lin|intros; ring].
Qed.

Lemma past_scale k c f : past k f -> past k (fun o => c * f o).
Proof.
  intros. apply past_ext with (fun o => c * f o + 0 * f o); [now apply past_lin|intros; ring].
Qed.

Definition vpast k (f : Om -> vec2) : Prop :=
  past k (fun o => v0 (f o)) /\ past k (fun o => v1 (f o)).

Lemma vpast_dot k h f : vpast k f -> past k (fun o => vdot h (f o)).
Proof. intros [A B]. unfold vdot. now apply past_lin. Qed.

Lemma vpast_xpred k : vpast k (fun o => ex (es k o)) ->
  vpast k (fun o => xpred s (ex (es k o)) (u k)).
Proof.
  intros [A B]. unfold xpred, vadd, mv, vscale. split; simpl;
    (apply past_add; [now apply past_lin|apply past_const]).
Qed.

Lemma vpast_x k : vpast k (fun o => ex (es k o)).
Proof.
  induction k as [|k IH].
  - split; [exact (past_const 0 (v0 xh))|exact (past_const 0 (v1 xh))].
  - pose proof (vpast_xpred k IH) as X.
    assert (Z : past (S k) (fun o => zz k o - vdot (sH s) (xpred s (ex (es k o)) (u k)))).
    { apply past_ext with (fun o => 1 * zz k o + (-1) * vdot (sH s) (xpred s (ex (es k o)) (u k)));
        [|intros; ring].
      apply past_lin; [apply past_z; lia|].
      apply (past_mono k); [lia|]. now apply vpast_dot. }
    destruct X as [X0 X1].
    split.
    + apply past_ext with (fun o => v0 (xpred s (ex (es k o)) (u k)) +
        v0 (KK k) * (zz k o - vdot (sH s) (xpred s (ex (es k o)) (u k)))).
      * apply past_add; [apply (past_mono k); [lia|assumption]|]. now apply past_scale.
      * intros o. rewrite es_S. cbn [kstep ex]. rewrite es_P. fold (KK k).
        unfold xcorr, vadd, vscale. cbn [v0 v1]. ring.
    + apply past_ext with (fun o => v1 (xpred s (ex (es k o)) (u k)) +
        v1 (KK k) * (zz k o - vdot (sH s) (xpred s (ex (es k o)) (u k)))).
      * apply past_add; [apply (past_mono k); [lia|assumption]|]. now apply past_scale.
      * intros o. rewrite es_S. cbn [kstep ex]. rewrite es_P. fold (KK k).
        unfold xcorr, vadd, vscale. cbn [v0 v1]. ring.
Qed.

(** *** The invariant *)

Definition Iv (k : nat) : Prop :=
  moment E (err k) (err k) = pseq s P k /\
  (forall i, (k <= i < N)%nat -> moment E (err k) (w i) = mzero) /\
  (forall i, (k <= i < N)%nat -> moment1 E (err k) (v i) = vzero) /\
  (forall f, past k f -> moment1 E (err k) f = vzero) /\
  (forall i f, (k <= i < N)%nat -> past k f -> moment1 E (w i) f = vzero) /\
  (forall i f, (k <= i < N)%nat -> past k f -> E (fun o => v i o * f o) = 0).

Lemma E0 f : (forall o, f o = 0) -> E f = 0.
Proof. intros H. rewrite (E_ext E HE f (fun _ => 0)) by assumption. now apply E_zero. Qed.

(** Orthogonality to the past is closed under the span. *)
Lemma moment1_past_closed k g :
  moment1 E g (fun _ => 1) = vzero ->
  (forall i, (i < k)%nat -> moment1 E g (zz i) = vzero) ->
  forall f, past k f -> moment1 E g f = vzero.
Proof.
  intros H1 Hz f. induction 1 as [| |a b f g' _ IH1 _ IH2|f f' _ IH X]; auto.
  - rewrite (moment1_addr HE), !(moment1_scaler HE), IH1, IH2.
    unfold vadd, vscale, vzero; simpl; f_equal; ring.
  - rewrite (moment1_ext HE g g f' f); auto.
Qed.

Lemma E_past_closed k g :
  E g = 0 ->
  (forall i, (i < k)%nat -> E (fun o => g o * zz i o) = 0) ->
  forall f, past k f -> E (fun o => g o * f o) = 0.
Proof.
  intros H1 Hz f. induction 1 as [| |a b f g' _ IH1 _ IH2|f f' _ IH X]; auto.
  - rewrite <- H1. apply (E_ext E HE). intros; ring.
  - rewrite (E_lin' HE a b (fun o => g o * f o) (fun o => g o * g' o)) by (intros; ring).
    rewrite IH1, IH2. ring.
  - rewrite <- IH. apply (E_ext E HE). intros; now rewrite X.
Qed.

Lemma Iv_0 : Iv 0.
Proof.
  repeat split.
  - exact (init_cov _ _ _ _ _ _ _ _ HN).
  - intros i L. apply (init_w _ _ _ _ _ _ _ _ HN). lia.
  - intros i L. apply (init_v _ _ _ _ _ _ _ _ HN). lia.
  - apply moment1_past_closed; [|lia].
    rewrite <- (mean_moment1 HE). exact (init_mean _ _ _ _ _ _ _ _ HN).
  - intros i f L. apply moment1_past_closed; [|lia].
    rewrite <- (mean_moment1 HE). apply (w_mean _ _ _ _ _ _ _ _ HN). lia.
  - intros i f L. apply E_past_closed; [|lia].
    apply (v_mean _ _ _ _ _ _ _ _ HN). lia.
Qed.

Lemma cov_ok : (0 < N)%nat -> covariances_ok s P.
Proof.
  intros L. pose proof (init_cov _ _ _ _ _ _ _ _ HN) as A.
  pose proof (w_cov _ _ _ _ _ _ _ _ HN 0%nat L) as B.
  pose proof (v_var _ _ _ _ _ _ _ _ HN 0%nat L) as C.
  unfold covariances_ok. rewrite <- A, <- B, <- C.
  repeat split; auto using moment_sym, moment_psd.
  apply (E_pos E HE). intros o. nra.
Qed.

Lemma madd_0_r a : madd a mzero = a.
Proof. destruct a; unfold madd, mzero; simpl; f_equal; ring. Qed.
Lemma madd_0_l a : madd mzero a = a.
Proof. destruct a; unfold madd, mzero; simpl; f_equal; ring. Qed.
Lemma vadd_0_r a : vadd a vzero = a.
Proof. destruct a; unfold vadd, vzero; simpl; f_equal; ring. Qed.
Lemma mmul_0_r a : mmul a mzero = mzero.
Proof. unfold mmul, mzero; simpl; f_equal; ring. Qed.
Lemma mv_0_r a : mv a vzero = vzero.
Proof. unfold mv, vzero; simpl; f_equal; ring. Qed.
Lemma vscale_0 a : vscale 0 a = vzero.
Proof. unfold vscale, vzero; simpl; f_equal; ring. Qed.
Lemma vouter_0 a : vouter a vzero = mzero.
Proof. unfold vouter, mzero, vzero; simpl; f_equal; ring. Qed.
Lemma mv_mzero a : mv mzero a = vzero.
Proof. unfold mv, vzero; simpl; f_equal; ring. Qed.
Lemma mtr_mmul a b : mtr (mmul a b) = mmul (mtr b) (mtr a).
Proof. unfold mtr, mmul; simpl; f_equal; ring. Qed.
Lemma mtr_mtr a : mtr (mtr a) = a.
Proof. destruct a; reflexivity. Qed.

(** Moments of the error before the measurement. *)
Lemma pre_cov k : (k < N)%nat -> Iv k ->
  moment E (pre k) (pre k) = Ppred s (pseq s P k).
Proof.
  intros L (A & B & C & _).
  assert (X : moment E (err k) (pre k) = mmul (pseq s P k) (mtr (sA s))).
  { rewrite (moment_tr HE). unfold pre at 1. rewrite (moment_add HE), (moment_mv HE).
    rewrite (moment_tr HE (w k)), B, A by lia.
    replace (mtr mzero) with mzero by reflexivity. rewrite madd_0_r, mtr_mmul.
    f_equal. rewrite <- A at 1. rewrite <- (moment_tr HE). exact A. }
  assert (Y : moment E (w k) (pre k) = sQ s).
  { rewrite (moment_tr HE). unfold pre at 1. rewrite (moment_add HE), (moment_mv HE), B by lia.
    rewrite mmul_0_r, madd_0_l, <- (moment_tr HE).
    apply (w_cov _ _ _ _ _ _ _ _ HN). exact L. }
  unfold pre at 1. rewrite (moment_add HE), (moment_mv HE), X, Y.
  unfold Ppred. f_equal. destruct (sA s), (pseq s P k). unfold mmul, mtr; simpl; f_equal; ring.
Qed.

Lemma pre_v k i : (k <= i < N)%nat -> Iv k -> moment1 E (pre k) (v i) = vzero.
Proof.
  intros L (A & B & C & _). unfold pre.
  rewrite (moment1_add HE), (moment1_mv HE), C by lia.
  rewrite (w_v _ _ _ _ _ _ _ _ HN) by lia. now rewrite mv_0_r, vadd_0_r.
Qed.

Lemma pre_w k i : (k < i < N)%nat -> Iv k -> moment E (pre k) (w i) = mzero.
Proof.
  intros L (A & B & C & _). unfold pre.
  rewrite (moment_add HE), (moment_mv HE), B by lia.
  rewrite (w_white _ _ _ _ _ _ _ _ HN) by lia. now rewrite mmul_0_r, madd_0_r.
Qed.

Lemma pre_past k f : (k < N)%nat -> Iv k -> past k f -> moment1 E (pre k) f = vzero.
Proof.
  intros L (A & B & C & D & F & G) Hf. unfold pre.
  rewrite (moment1_add HE), (moment1_mv HE), D by assumption.
  rewrite F by (assumption || lia). now rewrite mv_0_r, vadd_0_r.
Qed.

Lemma inn_past k f : (k < N)%nat -> Iv k -> past k f -> E (fun o => inn k o * f o) = 0.
Proof.
  intros L I Hf.
  rewrite (E_lin' HE 1 1 (fun o => vdot (sH s) (pre k o) * f o) (fun o => v k o * f o))
    by (intros; unfold inn; ring).
  rewrite (E_dot HE), pre_past by assumption.
  destruct I as (_ & _ & _ & _ & _ & G). rewrite G by (assumption || lia).
  unfold vdot, vzero; simpl. ring.
Qed.

Lemma pre_inn k : (k < N)%nat -> Iv k ->
  moment1 E (pre k) (inn k) = mv (Ppred s (pseq s P k)) (sH s).
Proof.
  intros L I. unfold inn.
  rewrite (moment1_addr HE), (moment1_dot HE), pre_cov, pre_v by (assumption || lia).
  apply vadd_0_r.
Qed.

Lemma inn_inn k : (k < N)%nat -> Iv k ->
  E (fun o => inn k o * inn k o) = Sinn s (Ppred s (pseq s P k)).
Proof.
  intros L I.
  rewrite (E_lin' HE 1 1 (fun o => vdot (sH s) (pre k o) * inn k o) (fun o => v k o * inn k o))
    by (intros; unfold inn; ring).
  rewrite (E_dot HE), pre_inn by assumption.
  rewrite (E_lin' HE 1 1 (fun o => vdot (sH s) (pre k o) * v k o) (fun o => v k o * v k o))
    by (intros; unfold inn; ring).
  rewrite (E_dot HE), pre_v by (assumption || lia).
  rewrite (v_var _ _ _ _ _ _ _ _ HN) by assumption.
  unfold Sinn, quad, vdot, vzero; simpl. ring.
Qed.

Lemma zz_eq k o : zz k o = inn k o + vdot (sH s) (xpred s (ex (es k o)) (u k)).
Proof. rewrite inn_eq. ring. Qed.

Lemma Iv_S k : (k < N)%nat -> Iv k -> Iv (S k).
Proof.
  intros L I. pose proof (cov_ok ltac:(lia)) as OK.
  pose proof (pseq_ok s P k OK) as OKk.
  pose proof (covariances_ok_pred _ _ OKk) as (a & b & _ & _ & c).
  pose proof (kgain_normal s (Ppred s (pseq s P k)) a b c) as NE. fold (KK k) in NE.
  assert (EC : forall g, moment E (err (S k)) g =
     madd (mmul (msub mI (vouter (KK k) (sH s))) (moment E (pre k) g))
          (vouter (KK k) (moment1 E g (fun o => - v k o)))).
  { intros g. rewrite (moment_ext HE _ _ g g (err_S k)) by reflexivity.
    now rewrite (moment_add HE), (moment_mv HE), (moment_vec HE). }
  assert (NEG : forall g, moment1 E g (fun o => - v k o) = vscale (-1) (moment1 E g (v k))).
  { intros g. rewrite <- (moment1_scaler HE). apply (moment1_ext HE); intros; [reflexivity|ring]. }
  assert (EC1 : forall g, moment1 E (err (S k)) g =
     vadd (mv (msub mI (vouter (KK k) (sH s))) (moment1 E (pre k) g))
          (vscale (E (fun o => - v k o * g o)) (KK k))).
  { intros g. rewrite (moment1_ext HE _ _ g g (err_S k)) by reflexivity.
    now rewrite (moment1_add HE), (moment1_mv HE), (moment1_vec HE). }
  assert (NEG1 : forall g, E (fun o => - v k o * g o) = - E (fun o => v k o * g o)).
  { intros g. rewrite (E_lin' HE (-1) 0 (fun o => v k o * g o) (fun o => 0)) by (intros; ring).
    ring. }
  assert (PV : moment1 E (pre k) (v k) = vzero) by (apply pre_v; [lia|assumption]).
  assert (VV : E (fun o => v k o * v k o) = sR s) by (apply (v_var _ _ _ _ _ _ _ _ HN); lia).
  assert (EV : moment1 E (err (S k)) (v k) = vscale (- sR s) (KK k)).
  { rewrite EC1, PV, mv_0_r, NEG1, VV.
    unfold vadd, vzero, vscale; simpl; f_equal; ring. }
  (* orthogonality to everything measured before *)
  assert (OLD : forall f, past k f -> moment1 E (err (S k)) f = vzero).
  { intros f Hf. rewrite EC1, NEG1, pre_past by assumption.
    destruct I as (_ & _ & _ & _ & _ & G). rewrite G by (assumption || lia).
    rewrite mv_0_r, Ropp_0, vscale_0. apply vadd_0_r. }
  assert (NEW : moment1 E (err (S k)) (zz k) = vzero).
  { rewrite (moment1_ext HE (err (S k)) (err (S k)) (zz k)
               (fun o => inn k o + vdot (sH s) (xpred s (ex (es k o)) (u k))))
      by (auto using zz_eq).
    rewrite (moment1_addr HE).
    rewrite (OLD (fun o => vdot (sH s) (xpred s (ex (es k o)) (u k))))
      by (apply vpast_dot, vpast_xpred, vpast_x).
    rewrite vadd_0_r.
    rewrite (moment1_ext HE _ _ (inn k) (inn k) (err_S_inn k)) by reflexivity.
    rewrite (moment1_add HE), (moment1_vec HE), pre_inn by assumption.
    rewrite (E_lin' HE (-1) 0 (fun o => inn k o * inn k o) (fun o => 0)) by (intros; ring).
    rewrite inn_inn by assumption. rewrite <- NE.
    unfold vadd, vscale, vzero; simpl; f_equal; ring. }
  repeat split.
  - rewrite EC, (NEG (err (S k))), EV, (moment_tr HE (pre k)), EC, (NEG (pre k)), PV.
    rewrite pre_cov by assumption.
    cbn [pseq]. unfold pstep. fold (KK k).
    rewrite Pcorr_joseph by assumption.
    set (Pm := Ppred s (pseq s P k)) in *. clearbody Pm. unfold sym in a.
    generalize (KK k). intros K. clear - a.
    destruct Pm as [p q q' r], K, s as [? ? [] ? ? ?]. simpl in a. subst q'.
    unfold Pjoseph, madd, mmul, mtr, msub, mI, vouter, mscale, vscale, vzero; simpl.
    f_equal; ring.
  - intros i Li. rewrite EC, NEG.
    rewrite pre_w by (assumption || lia).
    rewrite (w_v _ _ _ _ _ _ _ _ HN) by lia.
    unfold vscale, vzero, madd, mmul, mzero, vouter; simpl; f_equal; ring.
  - intros i Li. rewrite EC1, NEG1.
    rewrite pre_v by (assumption || lia).
    rewrite (v_white _ _ _ _ _ _ _ _ HN) by lia.
    rewrite mv_0_r. unfold vadd, vscale, vzero; simpl; f_equal; ring.
  - apply moment1_past_closed.
    + apply OLD. apply past_1.
    + intros i Li. destruct (Nat.eq_dec i k) as [->|D]; [exact NEW|].
      apply OLD. apply past_z. lia.
  - intros i f Li. pose proof I as (A & B & C & D & F & G). apply moment1_past_closed.
    + apply F; [lia|apply past_1].
    + intros j Lj. destruct (Nat.eq_dec j k) as [->|Dj]; [|apply F; [lia|apply past_z; lia]].
      rewrite (moment1_ext HE (w i) (w i) (zz k)
                 (fun o => inn k o + vdot (sH s) (xpred s (ex (es k o)) (u k))))
        by (auto using zz_eq).
      rewrite (moment1_addr HE).
      rewrite (F i (fun o => vdot (sH s) (xpred s (ex (es k o)) (u k))))
        by (try lia; apply vpast_dot, vpast_xpred, vpast_x).
      unfold inn. rewrite (moment1_addr HE), (moment1_dot HE).
      rewrite (moment_tr HE (w i)), pre_w by (assumption || lia).
      rewrite (w_v _ _ _ _ _ _ _ _ HN) by lia.
      change (mtr mzero) with mzero. now rewrite mv_mzero, !vadd_0_r.
  - intros i f Li. apply E_past_closed.
    + apply (v_mean _ _ _ _ _ _ _ _ HN). lia.
    + intros j Lj. pose proof I as (A & B & C & D & F & G).
      destruct (Nat.eq_dec j k) as [->|Dj]; [|apply G; [lia|apply past_z; lia]].
      rewrite (E_lin' HE 1 1 (fun o => vdot (sH s) (pre k o) * v i o)
        (fun o => v i o * (v k o + vdot (sH s) (xpred s (ex (es k o)) (u k)))))
        by (intros; rewrite zz_eq; unfold inn; ring).
      rewrite (E_dot HE), pre_v by (assumption || lia).
      rewrite (E_lin' HE 1 1 (fun o => v i o * v k o)
        (fun o => v i o * vdot (sH s) (xpred s (ex (es k o)) (u k)))) by (intros; ring).
      rewrite (v_white _ _ _ _ _ _ _ _ HN) by lia.
      rewrite (G i (fun o => vdot (sH s) (xpred s (ex (es k o)) (u k))))
        by (try lia; apply vpast_dot, vpast_xpred, vpast_x).
      unfold vdot, vzero; simpl. ring.
Qed.

Lemma Iv_all k : (k <= N)%nat -> Iv k.
Proof. induction k; intros L; [apply Iv_0|]. apply Iv_S; [lia|]. apply IHk. lia. Qed.

(** *** Results *)

Lemma err_cov k : (k <= N)%nat -> moment E (err k) (err k) = pseq s P k.
Proof. intros L. now destruct (Iv_all k L) as (A & _). Qed.

Lemma err_mean k : (k <= N)%nat -> mean E (err k) = vzero.
Proof.
  intros L. destruct (Iv_all k L) as (_ & _ & _ & D & _).
  rewrite (mean_moment1 HE). apply D, past_1.
Qed.

(** Any other estimator built from the same measurements. *)
Lemma err_best k (g : Om -> vec2) : (k <= N)%nat -> vpast k g ->
  loewner_le (pseq s P k)
    (moment E (fun o => vsub (xt k o) (g o)) (fun o => vsub (xt k o) (g o))).
Proof.
  intros L [G0 G1] x. destruct (Iv_all k L) as (A & _ & _ & D & _).
  rewrite (moment_quad HE). rewrite <- A at 1. rewrite (moment_quad HE).
  destruct (vpast_x k) as [X0 X1].
  set (d := fun o => v0 x * (v0 (ex (es k o)) - v0 (g o)) + v1 x * (v1 (ex (es k o)) - v1 (g o))).
  assert (Hd : past k d).
  { apply past_lin.
    - apply past_ext with (fun o => 1 * v0 (ex (es k o)) + (-1) * v0 (g o));
        [now apply past_lin|intros; ring].
    - apply past_ext with (fun o => 1 * v1 (ex (es k o)) + (-1) * v1 (g o));
        [now apply past_lin|intros; ring]. }
  assert (Z : E (fun o => vdot x (err k o) * d o) = 0).
  { rewrite (E_dot HE), D by assumption. unfold vdot, vzero; simpl. ring. }
  rewrite (E_lin' HE 1 1 (fun o => vdot x (err k o) * vdot x (err k o))
     (fun o => 2 * (vdot x (err k o) * d o) + 1 * (d o * d o))
     (fun o => vdot x (vsub (xt k o) (g o)) * vdot x (vsub (xt k o) (g o)))).
  - rewrite (E_lin HE 2 1 (fun o => vdot x (err k o) * d o) (fun o => d o * d o)), Z.
    assert (0 <= E (fun o => d o * d o)) by (apply (E_pos E HE); intros; nra). lra.
  - intros o. unfold d, err, vdot, vsub. simpl. ring.
Qed.

Lemma vpast_weighted k L : vpast k (fun o => weighted L (fun i => zz i o) k).
Proof.
  assert (X : forall j, (j <= k)%nat -> vpast k (fun o => weighted L (fun i => zz i o) j)).
  { induction j as [|j IH]; intros Lj; cbn [weighted].
    - split; simpl; apply past_const.
    - destruct (IH ltac:(lia)) as [A B]. unfold vadd, vscale. split; cbn [v0 v1];
        (apply past_add; [assumption|]);
        (eapply past_ext; [apply (past_scale k); apply (past_z k j); lia|]); intros; apply Rmult_comm. }
  apply X. lia.
Qed.

Lemma weighted_ext L z z' n : (forall i, (i < n)%nat -> z i = z' i) ->
  weighted L z n = weighted L z' n.
Proof.
  induction n; intros H; simpl; [reflexivity|]. rewrite IHn, H by (auto; lia). reflexivity.
Qed.

(** Innovations. *)
Lemma inn_past_S k : past (S k) (inn k).
Proof.
  apply past_ext with (fun o => 1 * zz k o + (-1) * vdot (sH s) (xpred s (ex (es k o)) (u k)));
    [|intros; rewrite inn_eq; ring].
  apply past_lin; [apply past_z; lia|].
  apply (past_mono k); [lia|]. apply vpast_dot, vpast_xpred, vpast_x.
Qed.

Lemma inn_white i j : (i < j)%nat -> (j < N)%nat -> E (fun o => inn j o * inn i o) = 0.
Proof.
  intros L1 L2. apply inn_past; [assumption|apply Iv_all; lia|].
  apply (past_mono (S i)); [lia|apply inn_past_S].
Qed.

Lemma inn_mean k : (k < N)%nat -> E (inn k) = 0.
Proof.
  intros L. rewrite <- (inn_past k (fun _ => 1) L (Iv_all k ltac:(lia)) (past_1 k)).
  apply (E_ext E HE). intros; ring.
Qed.

End World.
