(** * Lemmas about cascades *)

From Coq Require Import Reals List ZArith Bool Lia Permutation Lra.
From Coquelicot Require Import Complex.
From Verif Require Import Base Scalars Biquad Cascade CascadeSpec BiquadSpec BiquadProofs.
Import ListNotations.
Local Open Scope Z_scope.

(** ** Representation *)

(** A well-formed cascade of capacity [N] holding the sections [l]. *)
Definition holds {T} (N : nat) (cs : cascade T) (l : list (biquad T)) : Prop :=
  length (cs_biquad cs) = N /\ cs_next cs = Z.of_nat (length l) /\
  (length l <= N)%nat /\ firstn (length l) (cs_biquad cs) = l.

Lemma holds_split {T} N (cs : cascade T) l : holds N cs l <->
  exists r, cs_biquad cs = l ++ r /\ length (l ++ r) = N /\ cs_next cs = Z.of_nat (length l).
Proof.
  split.
  - intros (H1 & H2 & H3 & H4). exists (skipn (length l) (cs_biquad cs)).
    rewrite <- H4 at 1 3. rewrite firstn_skipn. auto.
  - intros (r & E & L & Nx). unfold holds. rewrite E. rewrite app_length in L.
    split; [now rewrite app_length|]. split; [assumption|]. split; [lia|].
    rewrite firstn_app, Nat.sub_diag, firstn_O, app_nil_r. apply firstn_all.
Qed.

Lemma list_set_app {A} (l : list A) x y r : list_set (l ++ x :: r) (length l) y = l ++ y :: r.
Proof. induction l; cbn; [reflexivity|now rewrite IHl]. Qed.

Lemma sec_at_app {T} (l : list (biquad T)) x r : sec_at (l ++ x :: r) (Z.of_nat (length l)) = Ok x.
Proof.
  unfold sec_at. destruct (Z.ltb_spec (Z.of_nat (length l)) 0); [lia|].
  rewrite Nat2Z.id, nth_error_app2, Nat.sub_diag by lia. reflexivity.
Qed.

Lemma sec_set_app {T} (l : list (biquad T)) x y r :
  sec_set (l ++ x :: r) (Z.of_nat (length l)) y = Ok (l ++ y :: r).
Proof.
  unfold sec_set. rewrite app_length. cbn [length].
  replace ((0 <=? Z.of_nat (length l)) && _) with true.
  - now rewrite Nat2Z.id, list_set_app.
  - symmetry. apply andb_true_intro. split; [apply Z.leb_le|apply Z.ltb_lt]; lia.
Qed.

Lemma sec_at_nth {T} (a : list (biquad T)) i :
  0 <= i -> sec_at a i = match nth_error a (Z.to_nat i) with Some b => Ok b | None => Err OutOfBounds end.
Proof. intros. unfold sec_at. destruct (Z.ltb_spec i 0); [lia|reflexivity]. Qed.

(** ** Modifiers *)

Lemma Some_eq {A} (x y : A) : Some x = Some y -> y = x.
Proof. congruence. Qed.

Lemma remove_loop_spec {T} (m : list (biquad T)) : forall l x r fuel,
  (length m < fuel)%nat ->
  exists y, remove_loop fuel (l ++ x :: m ++ r) (Z.of_nat (length l)) (Z.of_nat (length l + length m))
            = Ok (l ++ m ++ y :: r).
Proof.
  induction m as [|b m IH]; intros l x r fuel F; (destruct fuel as [|fuel]; [cbn in F; lia|]); cbn [remove_loop].
  - cbn [length]. rewrite Nat.add_0_r, Z.eqb_refl. exists x. reflexivity.
  - cbn [length] in *. destruct (Z.eqb_spec (Z.of_nat (length l)) (Z.of_nat (length l + S (length m)))) as [E|_]; [lia|].
    replace (l ++ x :: (b :: m) ++ r) with ((l ++ [x]) ++ b :: (m ++ r)) by (rewrite <- app_assoc; reflexivity).
    replace (Z.of_nat (length l) + 1) with (Z.of_nat (length (l ++ [x]))) by (rewrite app_length; cbn; lia).
    rewrite sec_at_app. cbn [bind].
    rewrite <- app_assoc. cbn [app]. rewrite sec_set_app. cbn [bind].
    replace (l ++ b :: b :: m ++ r) with ((l ++ [b]) ++ b :: m ++ r) by (rewrite <- app_assoc; reflexivity).
    replace (length (l ++ [x])) with (length (l ++ [b])) by (rewrite !app_length; reflexivity).
    replace (length l + S (length m))%nat with (length (l ++ [b]) + length m)%nat by (rewrite app_length; cbn; lia).
    destruct (IH (l ++ [b]) b r fuel ltac:(lia)) as [y Hy]. exists y. rewrite Hy.
    f_equal. rewrite <- app_assoc. reflexivity.
Qed.

Lemma insert_loop_spec {T} (m : list (biquad T)) : forall l x r fuel,
  (length m < fuel)%nat ->
  exists y, insert_loop fuel (l ++ m ++ x :: r) (Z.of_nat (length l + length m)) (Z.of_nat (length l))
            = Ok (l ++ y :: m ++ r).
Proof.
  induction m as [|b m IH] using rev_ind; intros l x r fuel F; (destruct fuel as [|fuel]; [cbn in F; lia|]); cbn [insert_loop].
  - cbn [length]. rewrite Nat.add_0_r, Z.eqb_refl. exists x. reflexivity.
  - rewrite app_length in *. cbn [length] in *.
    destruct (Z.eqb_spec (Z.of_nat (length l + (length m + 1))) (Z.of_nat (length l))) as [E|_]; [lia|].
    replace (l ++ (m ++ [b]) ++ x :: r) with ((l ++ m) ++ b :: (x :: r)) by (rewrite <- !app_assoc; reflexivity).
    replace (Z.of_nat (length l + (length m + 1)) - 1) with (Z.of_nat (length (l ++ m))) by (rewrite app_length; lia).
    rewrite sec_at_app. cbn [bind].
    replace ((l ++ m) ++ b :: x :: r) with ((l ++ m ++ [b]) ++ x :: r) by (rewrite <- !app_assoc; reflexivity).
    replace (Z.of_nat (length l + (length m + 1))) with (Z.of_nat (length (l ++ m ++ [b])))
      by (rewrite !app_length; cbn; lia).
    rewrite sec_set_app. cbn [bind].
    replace ((l ++ m ++ [b]) ++ b :: r) with (l ++ m ++ b :: (b :: r)) by (rewrite <- !app_assoc; reflexivity).
    replace (length (l ++ m)) with (length l + length m)%nat by (rewrite app_length; lia).
    destruct (IH l b (b :: r) fuel ltac:(lia)) as [y Hy]. exists y. rewrite Hy.
    rewrite <- app_assoc. reflexivity.
Qed.

Lemma valid_split {A} (l : list A) i : 0 <= i < Z.of_nat (length l) ->
  exists l1 x l2, l = l1 ++ x :: l2 /\ i = Z.of_nat (length l1).
Proof.
  intros H. destruct (nth_error l (Z.to_nat i)) as [x|] eqn:E.
  - destruct (nth_error_split _ _ E) as (l1 & l2 & -> & L). exists l1, x, l2. split; [reflexivity|]. lia.
  - apply nth_error_None in E. lia.
Qed.

Lemma firstn_len {A} (l r : list A) : firstn (length l) (l ++ r) = l.
Proof. now rewrite firstn_app, Nat.sub_diag, firstn_O, app_nil_r, firstn_all. Qed.
Lemma skipn_len {A} (l r : list A) : skipn (length l) (l ++ r) = r.
Proof. now rewrite skipn_app, Nat.sub_diag, skipn_all. Qed.
Lemma skipn_S_len {A} (l r : list A) x : skipn (S (length l)) (l ++ x :: r) = r.
Proof.
  replace (l ++ x :: r) with ((l ++ [x]) ++ r) by (rewrite <- app_assoc; reflexivity).
  replace (S (length l)) with (length (l ++ [x])) by (rewrite app_length; cbn; lia). apply skipn_len.
Qed.

Lemma valid_true l i : (0 <=? i) && (i <? l) = true -> 0 <= i < l.
Proof. intros H. apply andb_true_iff in H. destruct H as [H1 H2]. apply Z.leb_le in H1. apply Z.ltb_lt in H2. lia. Qed.

Lemma reset_loop {T} (S : scalar T) l : forall k r,
  for_from (length k) (length l) (fun i a => bq <- sec_at a (Z.of_nat i) ;; sec_set a (Z.of_nat i) (reset S bq)) (k ++ l ++ r)
  = Ok (k ++ map (reset S) l ++ r).
Proof.
  induction l as [|b l IH]; intros k r; cbn [length for_from]; [reflexivity|].
  cbn [app]. rewrite sec_at_app. cbn [bind]. rewrite sec_set_app. cbn [bind].
  replace (k ++ reset S b :: l ++ r) with ((k ++ [reset S b]) ++ l ++ r) by (rewrite <- app_assoc; reflexivity).
  replace (Datatypes.S (length k)) with (length (k ++ [reset S b])) by (rewrite app_length; cbn; lia).
  rewrite IH, <- app_assoc. reflexivity.
Qed.

Lemma nat_ltb_Z (a b : nat) : (Z.of_nat a <? Z.of_nat b) = (a <? b)%nat.
Proof.
  destruct (Nat.ltb_spec a b); [apply Z.ltb_lt|apply Z.ltb_ge]; lia.
Qed.

(** Every call refines the list operation, assertions active or not. *)
Lemma call_refines {T} (S : scalar T) asserts N cs l o l' :
  holds N cs l -> list_op S N l o = Some l' ->
  exists cs', cs_call S asserts N cs o = Ok cs' /\ holds N cs' l'.
Proof.
  intros H E. apply holds_split in H. destruct H as (r & Eb & L & Nx). destruct cs as [a next].
  cbn [cs_biquad cs_next] in *. subst a next. rewrite app_length in L.
  assert (AT : assert_ asserts true = Ok tt) by (unfold assert_; now rewrite andb_false_r).
  destruct o as [|bq|i|i bq|i bq|]; cbn [list_op cs_call] in *.
  - apply Some_eq in E; subst l'. eexists. split; [reflexivity|]. apply holds_split. exists (l ++ r).
    cbn. rewrite app_length. auto.
  - destruct (Nat.ltb_spec (length l) N) as [X|X]; [|discriminate]. apply Some_eq in E; subst l'.
    unfold cs_append. cbn [cs_next cs_biquad]. unfold cs_reserved. rewrite nat_ltb_Z.
    replace (length l <? N)%nat with true by (symmetry; now apply Nat.ltb_lt). rewrite AT. cbn [bind].
    destruct r as [|x r]; [cbn in L; lia|]. rewrite sec_set_app. cbn [bind].
    eexists. split; [reflexivity|]. apply holds_split. exists r. cbn [cs_biquad cs_next].
    rewrite <- !app_assoc. cbn [app]. rewrite !app_length in *. cbn [length] in *. repeat split; lia.
  - destruct ((0 <=? i) && (i <? Z.of_nat (length l))) eqn:V; [|discriminate]. apply Some_eq in E; subst l'.
    unfold cs_remove. cbn [cs_next cs_biquad]. rewrite V, AT. cbn [bind]. apply valid_true in V.
    destruct (valid_split l i V) as (l1 & x & l2 & -> & ->). rewrite Nat2Z.id, firstn_len. rewrite skipn_S_len.
    rewrite <- app_assoc. cbn [app].
    replace (Z.of_nat (length (l1 ++ x :: l2)) - 1) with (Z.of_nat (length l1 + length l2))
      by (rewrite app_length; cbn; lia).
    destruct (remove_loop_spec l2 l1 x r (Datatypes.S (length (l1 ++ x :: l2 ++ r)))) as [y Hy].
    { rewrite !app_length; cbn; rewrite app_length; lia. }
    rewrite Hy. cbn [bind]. eexists. split; [reflexivity|]. apply holds_split. exists (y :: r).
    cbn [cs_biquad cs_next]. rewrite <- app_assoc, !app_length in *. cbn [length] in *. repeat split; lia.
  - destruct ((0 <=? i) && (i <? Z.of_nat (length l))) eqn:V; [|discriminate]. cbn [andb] in E.
    destruct (Nat.ltb_spec (length l) N) as [X|X]; [|discriminate]. apply Some_eq in E; subst l'.
    unfold cs_insert. cbn [cs_next cs_biquad]. unfold cs_reserved. rewrite V, nat_ltb_Z.
    replace (length l <? N)%nat with true by (symmetry; now apply Nat.ltb_lt). cbn [andb]. rewrite AT. cbn [bind].
    apply valid_true in V.
    destruct (valid_split l i V) as (l1 & x & l2 & -> & ->). rewrite Nat2Z.id, firstn_len, skipn_len.
    destruct r as [|z r]; [cbn in L; lia|].
    rewrite <- app_assoc.
    replace (length (l1 ++ x :: l2)) with (length l1 + length (x :: l2))%nat by now rewrite app_length.
    destruct (insert_loop_spec (x :: l2) l1 z r (Datatypes.S (length (l1 ++ (x :: l2) ++ z :: r)))) as [y Hy].
    { rewrite !app_length. lia. }
    rewrite Hy. cbn [bind]. rewrite sec_set_app. cbn [bind]. eexists. split; [reflexivity|].
    apply holds_split. exists r. cbn [cs_biquad cs_next]. rewrite <- app_assoc. cbn [app].
    rewrite !app_length in *. cbn [length] in *. rewrite !app_length. cbn [length]. repeat split; lia.
  - destruct ((0 <=? i) && (i <? Z.of_nat (length l))) eqn:V; [|discriminate]. apply Some_eq in E; subst l'.
    unfold cs_replace. cbn [cs_next cs_biquad]. rewrite V, AT. cbn [bind]. apply valid_true in V.
    destruct (valid_split l i V) as (l1 & x & l2 & -> & ->). rewrite Nat2Z.id, firstn_len, skipn_S_len.
    rewrite <- app_assoc. cbn [app]. rewrite sec_at_app. cbn [bind]. rewrite sec_set_app. cbn [bind].
    eexists. split; [reflexivity|]. apply holds_split. exists r. cbn [cs_biquad cs_next snd].
    destruct bq as [[? ?] [? ? ?] [? ?]], x as [[? ?] [? ? ?] [? ?]]. cbn. rewrite <- app_assoc. cbn [app]. 
    rewrite !app_length in *. cbn [length] in *. rewrite ?app_length. repeat split; lia.
  - apply Some_eq in E; subst l'. unfold cs_reset. cbn [cs_next cs_biquad]. rewrite Nat2Z.id. unfold for_.
    pose proof (reset_loop S l [] r) as Hl. cbn [length app] in Hl. rewrite Hl. cbn [bind app]. eexists. split; [reflexivity|]. apply holds_split. exists r.
    cbn [cs_biquad cs_next]. rewrite app_length, map_length. repeat split; lia.
Qed.

Lemma call_asserts {T} (S : scalar T) N cs l o :
  holds N cs l -> list_op S N l o = None -> cs_call S true N cs o = Err AssertFailed.
Proof.
  intros (_ & Nx & Le & _) E.
  destruct o as [|bq|i|i bq|i bq|]; cbn [list_op cs_call] in *; try discriminate.
  - destruct (Nat.ltb_spec (length l) N) as [X|X]; [discriminate|].
    unfold cs_append, cs_reserved. rewrite Nx, nat_ltb_Z.
    replace (length l <? N)%nat with false by (symmetry; apply Nat.ltb_ge; lia). reflexivity.
  - destruct ((0 <=? i) && (i <? Z.of_nat (length l))) eqn:V; [discriminate|].
    unfold cs_remove. rewrite Nx, V. reflexivity.
  - unfold cs_insert, cs_reserved. rewrite Nx, nat_ltb_Z.
    destruct ((0 <=? i) && (i <? Z.of_nat (length l))); cbn [andb] in *; [|reflexivity].
    destruct (Nat.ltb_spec (length l) N); [discriminate|reflexivity].
  - destruct ((0 <=? i) && (i <? Z.of_nat (length l))) eqn:V; [discriminate|].
    unfold cs_replace. rewrite Nx, V. reflexivity.
Qed.

Lemma calls_refine {T} (S : scalar T) asserts N os : forall cs l l',
  holds N cs l -> list_ops S N l os = Some l' ->
  exists cs', cs_calls S asserts N cs os = Ok cs' /\ holds N cs' l'.
Proof.
  induction os as [|o os IH]; intros cs l l' H E; cbn in *.
  - injection E as <-. eauto.
  - destruct (list_op S N l o) as [l1|] eqn:O; [|discriminate].
    destruct (call_refines S asserts N cs l o l1 H O) as (cs1 & C & H1). rewrite C. cbn [bind]. eauto.
Qed.

Lemma calls_assert {T} (S : scalar T) N os : forall cs l,
  holds N cs l -> list_ops S N l os = None -> cs_calls S true N cs os = Err AssertFailed.
Proof.
  induction os as [|o os IH]; intros cs l H E; cbn in *; [discriminate|].
  destruct (list_op S N l o) as [l1|] eqn:O.
  - destruct (call_refines S true N cs l o l1 H O) as (cs1 & C & H1). rewrite C. cbn [bind]. eauto.
  - now rewrite (call_asserts S N cs l o H O).
Qed.

Lemma list_op_length {T} (S : scalar T) N l o l' : (length l <= N)%nat ->
  list_op S N l o = Some l' -> (length l' <= N)%nat.
Proof.
  intros H. destruct o as [|bq|i|i bq|i bq|]; cbn [list_op].
  - intros X; apply Some_eq in X; subst l'. cbn. lia.
  - destruct (Nat.ltb_spec (length l) N); [|discriminate]. intros X; apply Some_eq in X; subst l'. rewrite app_length. cbn. lia.
  - destruct ((0 <=? i) && (i <? Z.of_nat (length l))) eqn:V; [|discriminate]. intros X; apply Some_eq in X; subst l'. apply valid_true in V.
    rewrite app_length, firstn_length, skipn_length. lia.
  - destruct ((0 <=? i) && (i <? Z.of_nat (length l))) eqn:V; [|discriminate]. cbn [andb]. destruct (Nat.ltb_spec (length l) N); [|discriminate].
    intros X; apply Some_eq in X; subst l'. apply valid_true in V.
    rewrite app_length, firstn_length. cbn [length]. rewrite skipn_length. lia.
  - destruct ((0 <=? i) && (i <? Z.of_nat (length l))) eqn:V; [|discriminate]. intros X; apply Some_eq in X; subst l'. apply valid_true in V.
    rewrite app_length, firstn_length. cbn [length]. rewrite skipn_length. lia.
  - intros X; apply Some_eq in X; subst l'. now rewrite map_length.
Qed.

Lemma cascade_of_holds {T} (S : scalar T) N l : (length l <= N)%nat -> holds N (cascade_of S N l) l.
Proof.
  intros H. apply holds_split. exists (repeat (biquad_default S) (N - length l)). cbn.
  rewrite app_length, repeat_length. repeat split; lia.
Qed.

Lemma holds_shows {T} N (cs : cascade T) l : holds N cs l -> shows cs l.
Proof.
  intros H. apply holds_split in H. destruct H as (r & Eb & L & Nx). split; [exact Nx|].
  intros i. unfold cs_coeff_a, cs_coeff_b, cs_state. rewrite Nx, Eb.
  destruct (Z.ltb_spec i 0) as [X|X].
  - replace (0 <=? i) with false by (symmetry; apply Z.leb_gt; lia). auto.
  - replace (0 <=? i) with true by (symmetry; apply Z.leb_le; lia). cbn [andb].
    destruct (nth_error l (Z.to_nat i)) as [bq|] eqn:E.
    + assert (Z.to_nat i < length l)%nat by (apply nth_error_Some; congruence).
      replace (i <? Z.of_nat (length l)) with true by (symmetry; apply Z.ltb_lt; lia).
      cbn. rewrite sec_at_nth, nth_error_app1, E by lia. auto.
    + apply nth_error_None in E.
      replace (i <? Z.of_nat (length l)) with false by (symmetry; apply Z.ltb_ge; lia). auto.
Qed.

(** ** Filtering *)

Fixpoint lstep {T} (f : biquad T -> T -> outcome (T * biquad T)) (l : list (biquad T)) (v : T)
  : outcome (T * list (biquad T)) :=
  match l with
  | [] => Ok (v, [])
  | b :: l' => r <- f b v ;; r' <- lstep f l' (fst r) ;; Ok (fst r', snd r :: snd r')
  end.

Lemma step_loop {T} (f : biquad T -> T -> outcome (T * biquad T)) l : forall k r v,
  for_from (length k) (length l) (fun i (r : T * list (biquad T)) =>
         bq <- sec_at (snd r) (Z.of_nat i) ;;
         s <- f bq (fst r) ;;
         a <- sec_set (snd r) (Z.of_nat i) (snd s) ;;
         Ok (fst s, a)) (v, k ++ l ++ r)
  = (q <- lstep f l v ;; Ok (fst q, k ++ snd q ++ r)).
Proof.
  induction l as [|b l IH]; intros k r v; cbn [length for_from lstep]; [reflexivity|].
  cbn [app snd fst]. rewrite sec_at_app. cbn [bind]. destruct (f b v) as [[y b']|e]; cbn [bind]; [|reflexivity].
  cbn [snd fst]. rewrite sec_set_app. cbn [bind].
  replace (k ++ b' :: l ++ r) with ((k ++ [b']) ++ l ++ r) by (rewrite <- app_assoc; reflexivity).
  replace (Datatypes.S (length k)) with (length (k ++ [b'])) by (rewrite app_length; cbn; lia).
  rewrite IH. destruct (lstep f l y) as [q|e]; cbn; [|reflexivity]. rewrite <- app_assoc. reflexivity.
Qed.

Lemma lstep_length {T} (f : biquad T -> T -> outcome (T * biquad T)) l : forall v q,
  lstep f l v = Ok q -> length (snd q) = length l.
Proof.
  induction l as [|b l IH]; intros v q H; cbn in H.
  - injection H as <-. reflexivity.
  - destruct (f b v) as [r|]; cbn in H; [|discriminate].
    destruct (lstep f l (fst r)) as [r'|] eqn:E; cbn in H; [|discriminate].
    injection H as <-. cbn. now rewrite (IH _ _ E).
Qed.

Lemma step_refines {T} (f : biquad T -> T -> outcome (T * biquad T)) N cs l v : holds N cs l ->
  match lstep f l v with
  | Ok q => exists cs', cs_step_with f cs v = Ok (fst q, cs') /\ holds N cs' (snd q)
  | Err e => cs_step_with f cs v = Err e
  end.
Proof.
  intros H. apply holds_split in H. destruct H as (r & Eb & L & Nx).
  unfold cs_step_with. rewrite Nx, Eb, Nat2Z.id. unfold for_.
  pose proof (step_loop f l [] r v) as Hl. cbn [length app] in Hl. rewrite Hl. destruct (lstep f l v) as [q|e] eqn:E; [|reflexivity].
  cbn [bind fst snd app]. eexists. split; [reflexivity|]. apply holds_split. exists r.
  cbn [cs_biquad cs_next]. rewrite app_length in *. rewrite (lstep_length f l v q E). auto.
Qed.

Fixpoint lrun {T} (f : biquad T -> T -> outcome (T * biquad T)) (l : list (biquad T)) (xs : list T)
  : outcome (list T * list (biquad T)) :=
  match xs with
  | [] => Ok ([], l)
  | x :: xs' => r <- lstep f l x ;; r' <- lrun f (snd r) xs' ;; Ok (fst r :: fst r', snd r')
  end.

Lemma run_refines {T} (f : biquad T -> T -> outcome (T * biquad T)) N xs : forall cs l, holds N cs l ->
  match lrun f l xs with
  | Ok q => exists cs', cs_run (cs_step_with f) cs xs = Ok (fst q, cs') /\ holds N cs' (snd q)
  | Err e => cs_run (cs_step_with f) cs xs = Err e
  end.
Proof.
  induction xs as [|x xs IH]; intros cs l H; cbn [lrun cs_run].
  - eauto.
  - pose proof (step_refines f N cs l x H) as St. destruct (lstep f l x) as [q|e]; cbn [bind].
    + destruct St as (cs1 & E1 & H1). rewrite E1. cbn [bind fst snd]. specialize (IH cs1 (snd q) H1).
      destruct (lrun f (snd q) xs) as [q'|e]; cbn [bind].
      * destruct IH as (cs2 & E2 & H2). rewrite E2. cbn. eauto.
      * now rewrite IH.
    + now rewrite St.
Qed.

Lemma lrun_cons {T} (f : biquad T -> T -> outcome (T * biquad T)) l xs : forall b ys m,
  lrun f (b :: l) xs = Ok (ys, m) <->
  exists zs b' l', run f b xs = Ok (zs, b') /\ lrun f l zs = Ok (ys, l') /\ m = b' :: l'.
Proof.
  revert l. induction xs as [|x xs IH]; intros l b ys m; cbn [lrun run lstep].
  - split.
    + intros H. injection H as <- <-. exists [], b, l. auto.
    + intros (zs & b' & l' & H1 & H2 & ->). injection H1 as <- <-. cbn in H2. injection H2 as <- <-. reflexivity.
  - destruct (f b x) as [[y b1]|e]; cbn [bind fst snd].
    2:{ split; [discriminate|]. intros (zs & b' & l' & H & _). discriminate. }
    split.
    + intros H. destruct (lstep f l y) as [[v l1]|e] eqn:E; cbn [bind fst snd] in H; [|discriminate].
      apply bind_inv in H. destruct H as ([ys' m'] & H1 & H2). cbn in H2. injection H2 as <- <-.
      apply IH in H1. destruct H1 as (zs & b' & l' & R1 & R2 & ->). rewrite R1. cbn [bind fst snd].
      exists (y :: zs), b', l'. split; [reflexivity|]. cbn [lrun]. rewrite E. cbn [bind fst snd]. rewrite R2. auto.
    + intros (zs & b' & l' & H1 & H2 & ->). apply bind_inv in H1. destruct H1 as ([zs' b2] & R1 & R2).
      cbn in R2. injection R2 as <- <-. cbn [lrun] in H2.
      apply bind_inv in H2. destruct H2 as ([v l1] & S1 & S2). apply bind_inv in S2.
      destruct S2 as ([ys' l2] & S3 & S4). cbn in *. injection S4 as <- <-. rewrite S1. cbn [bind fst snd].
      assert (Q : lrun f (b1 :: l1) xs = Ok (ys', b2 :: l2)) by (apply IH; eauto 6).
      now rewrite Q.
Qed.

Lemma lrun_nil {T} (f : biquad T -> T -> outcome (T * biquad T)) xs : lrun f [] xs = Ok (xs, []).
Proof. induction xs; cbn; [reflexivity|]. now rewrite IHxs. Qed.

Lemma lrun_serial {T} (f : biquad T -> T -> outcome (T * biquad T)) l : forall xs ys m,
  lrun f l xs = Ok (ys, m) <-> one_after_the_other f l xs = Ok (ys, m).
Proof.
  induction l as [|b l IH]; intros xs ys m.
  - rewrite lrun_nil. reflexivity.
  - rewrite lrun_cons. cbn [one_after_the_other]. split.
    + intros (zs & b' & l' & H1 & H2 & ->). rewrite H1. cbn [bind fst snd]. apply IH in H2. now rewrite H2.
    + intros H. apply bind_inv in H. destruct H as ([zs b'] & H1 & H2). cbn [fst snd] in H2.
      apply bind_inv in H2. destruct H2 as ([ys' l'] & H2 & H3). cbn in H3. injection H3 as <- <-.
      exists zs, b', l'. split; [assumption|]. split; [|reflexivity]. now apply IH.
Qed.

(** ** Stability and response *)

Lemma stable_loop a l : forall (k r : list (biquad R)) res,
  a = k ++ l ++ r ->
  for_from (length k) (length l) (fun i (result : bool) =>
    bq <- sec_at a (Z.of_nat i) ;; if result then is_stable bq else Ok false) res
  = Ok (res && forallb (fun bq => match is_stable bq with Ok b => b | Err _ => false end) l).
Proof.
  induction l as [|b l IH]; intros k r res E; cbn [length for_from forallb].
  - now rewrite andb_true_r.
  - rewrite E at 1. cbn [app]. rewrite sec_at_app. cbn [bind].
    assert (X : exists c, is_stable b = Ok c).
    { destruct (solve_roots 1 (a1 (bq_a b)) (a2 (bq_a b)) ltac:(lra)) as (p & q & H & _).
      unfold is_stable, poles. rewrite H. cbn. eauto. }
    destruct X as [c X].
    replace (Datatypes.S (length k)) with (length (k ++ [b])) by (rewrite app_length; cbn; lia).
    rewrite X. destruct res; cbn [bind andb]; (rewrite (IH (k ++ [b]) r); [|rewrite E, <- app_assoc; reflexivity]); reflexivity.
Qed.

Fixpoint lresp (l : list (biquad R)) (f : R) (acc : C) : outcome C :=
  match l with
  | [] => Ok acc
  | b :: l' => h <- response b f ;; lresp l' f (Cmult acc h)
  end.

Lemma response_loop a f l : forall (k r : list (biquad R)) acc,
  a = k ++ l ++ r ->
  for_from (length k) (length l) (fun i (result : C) =>
    bq <- sec_at a (Z.of_nat i) ;; h <- response bq f ;; Ok (Cmult result h)) acc
  = lresp l f acc.
Proof.
  induction l as [|b l IH]; intros k r acc E; cbn [length for_from lresp]; [reflexivity|].
  rewrite E at 1. cbn [app]. rewrite sec_at_app. cbn [bind].
  destruct (response b f) as [h|e]; cbn [bind]; [|reflexivity].
  replace (Datatypes.S (length k)) with (length (k ++ [b])) by (rewrite app_length; cbn; lia).
  apply (IH (k ++ [b]) r). rewrite E, <- app_assoc. reflexivity.
Qed.

(** ** Commutation of sections from rest *)
Local Open Scope R_scope.

Definition dl (s : nat -> R) (n : nat) : R := match n with O => 0 | S m => s m end.
Definition fir (c0 c1 c2 : R) (s : nat -> R) (n : nat) : R := c0 * s n + c1 * dl s n + c2 * dl (dl s) n.

Lemma fir_comm c0 c1 c2 d0 d1 d2 s n :
  fir c0 c1 c2 (fir d0 d1 d2 s) n = fir d0 d1 d2 (fir c0 c1 c2 s) n.
Proof. destruct n as [|[|[|[|n]]]]; unfold fir; cbn; ring. Qed.

Lemma fir_ext m c0 c1 c2 s t : (forall i, (i <= m)%nat -> s i = t i) ->
  forall n, (n <= m)%nat -> fir c0 c1 c2 s n = fir c0 c1 c2 t n.
Proof.
  intros H n Hn. unfold fir. destruct n as [|[|n]]; cbn; rewrite ?H by lia; reflexivity.
Qed.

Lemma fir_inj m c1 c2 s t :
  (forall n, (n <= m)%nat -> fir 1 c1 c2 s n = fir 1 c1 c2 t n) ->
  forall n, (n <= m)%nat -> s n = t n.
Proof.
  intros H n. induction n as [n IH] using (well_founded_induction lt_wf). intros Hn.
  specialize (H n Hn). unfold fir in H.
  assert (E1 : dl s n = dl t n) by (destruct n; cbn; [reflexivity|apply IH; lia]).
  assert (E2 : dl (dl s) n = dl (dl t) n) by (destruct n as [|[|n]]; cbn; [reflexivity..|apply IH; lia]).
  rewrite E1, E2 in H. lra.
Qed.

Definition sg (l : list R) (n : nat) : R := nth n l 0.

Lemma past_dl l n : past l n 1 = dl (sg l) n /\ past l n 2 = dl (dl (sg l)) n /\ past l n 0 = sg l n.
Proof.
  unfold past, sg. destruct n as [|[|n]]; cbn; rewrite ?Nat.sub_0_r; auto.
Qed.

Lemma difference_fir b0 b1 b2 a1 a2 xs ys : difference_equation b0 b1 b2 a1 a2 xs ys ->
  forall n, (n < length xs)%nat -> fir 1 a1 a2 (sg ys) n = fir b0 b1 b2 (sg xs) n.
Proof.
  intros D n Hn. specialize (D n Hn). destruct (past_dl xs n) as (P1 & P2 & P0). destruct (past_dl ys n) as (Q1 & Q2 & _).
  rewrite P1, P2, P0, Q1, Q2 in D. unfold fir. fold (sg ys n) in D. rewrite D. ring.
Qed.

Definition rest (bq : biquad R) (xs : list R) : list R := fst (t_run (bq_a bq) (bq_b bq) {| v1 := 0; v2 := 0 |} xs).

Lemma rest_length bq xs : length (rest bq xs) = length xs.
Proof. apply t_run_length. Qed.

Lemma rest_comm p q xs : rest p (rest q xs) = rest q (rest p xs).
Proof.
  apply nth_ext with 0 0; [now rewrite !rest_length|]. rewrite !rest_length. intros n Hn.
  assert (D : forall b zs n, (n < length zs)%nat ->
     fir 1 (a1 (bq_a b)) (a2 (bq_a b)) (sg (rest b zs)) n = fir (b0 (bq_b b)) (b1 (bq_b b)) (b2 (bq_b b)) (sg zs) n).
  { intros b zs i Hi. apply difference_fir; [|assumption]. apply rest_difference. }
  set (m := pred (length xs)). assert (M : forall i, (i <= m)%nat <-> (i < length xs)%nat) by (unfold m; lia).
  change (sg (rest p (rest q xs)) n = sg (rest q (rest p xs)) n).
  assert (G : forall i, (i <= m)%nat ->
    fir 1 (a1 (bq_a p)) (a2 (bq_a p)) (sg (rest p (rest q xs))) i =
    fir 1 (a1 (bq_a p)) (a2 (bq_a p)) (sg (rest q (rest p xs))) i);
    [|apply (fir_inj m _ _ _ _ G), M, Hn].
  apply (fir_inj m (a1 (bq_a q)) (a2 (bq_a q))). intros i Hi.
  (* left: D_q D_p y = D_q N_p u = N_p D_q u = N_p N_q x *)
  rewrite (fir_ext m _ _ _ _ (fir (b0 (bq_b p)) (b1 (bq_b p)) (b2 (bq_b p)) (sg (rest q xs))))
    by (try assumption; intros; apply D; rewrite rest_length; now apply M).
  rewrite fir_comm.
  rewrite (fir_ext m _ _ _ _ (fir (b0 (bq_b q)) (b1 (bq_b q)) (b2 (bq_b q)) (sg xs)))
    by (try assumption; intros; apply D; now apply M).
  rewrite (fir_comm 1 (a1 (bq_a q))).
  rewrite (fir_ext m 1 (a1 (bq_a p)) (a2 (bq_a p)) _ (fir (b0 (bq_b q)) (b1 (bq_b q)) (b2 (bq_b q)) (sg (rest p xs))))
    by (try assumption; intros; apply D; rewrite rest_length; now apply M).
  rewrite (fir_comm 1 (a1 (bq_a p))).
  rewrite (fir_ext m (b0 (bq_b q)) _ _ _ (fir (b0 (bq_b p)) (b1 (bq_b p)) (b2 (bq_b p)) (sg xs)))
    by (try assumption; intros; apply D; now apply M).
  apply fir_comm.
Qed.

Lemma rest_perm l l' : Permutation l l' -> forall xs, fold_left (fun s b => rest b s) l xs = fold_left (fun s b => rest b s) l' xs.
Proof.
  induction 1; intros xs; cbn; [reflexivity|apply IHPermutation|now rewrite rest_comm|].
  rewrite IHPermutation1. apply IHPermutation2.
Qed.

Lemma rest_lin p xs q ys b : length xs = length ys -> rest b (lin p xs q ys) = lin p (rest b xs) q (rest b ys).
Proof.
  intros L. unfold rest. rewrite <- t_lin by assumption. do 2 f_equal. apply state_eq; cbn; ring.
Qed.

(** ** What is shown determines what is held *)

Lemma biquad_eq {T} (p q : biquad T) : bq_a p = bq_a q -> bq_b p = bq_b q -> bq_w p = bq_w q -> p = q.
Proof. destruct p, q; cbn; now intros -> -> ->. Qed.

Lemma shows_nth {T} (cs : cascade T) l n bq : shows cs l -> nth_error l n = Some bq ->
  nth_error (cs_biquad cs) n = Some bq.
Proof.
  intros [Sz H] E. specialize (H (Z.of_nat n)).
  destruct (Z.ltb_spec (Z.of_nat n) 0) as [X|_]; [lia|]. rewrite Nat2Z.id, E in H.
  destruct H as (Ha & Hb & Hw). unfold cs_coeff_a, cs_coeff_b, cs_state in *.
  destruct (assert_ _ _); cbn [bind] in *; [|discriminate].
  unfold sec_at in *. destruct (Z.ltb_spec (Z.of_nat n) 0) as [X|_]; [lia|]. rewrite Nat2Z.id in *.
  destruct (nth_error (cs_biquad cs) n) as [c|]; cbn [bind] in *; [|discriminate].
  f_equal. apply biquad_eq; congruence.
Qed.

Lemma nth_error_prefix {A} (l : list A) : forall a,
  (forall n x, nth_error l n = Some x -> nth_error a n = Some x) -> exists r, a = l ++ r.
Proof.
  induction l as [|x l IH]; intros a H; [now exists a|].
  destruct a as [|y a]; [specialize (H O x eq_refl); discriminate|].
  pose proof (H O x eq_refl) as X. cbn in X. injection X as ->.
  destruct (IH a) as [r ->]; [|now exists r]. intros n z Hz. exact (H (S n) z Hz).
Qed.

Lemma shows_holds {T} N (cs : cascade T) l : length (cs_biquad cs) = N -> shows cs l -> holds N cs l.
Proof.
  intros L Sh. destruct (nth_error_prefix l (cs_biquad cs)) as [r E].
  { intros n x. now apply shows_nth. }
  apply holds_split. exists r. rewrite <- E. split; [reflexivity|]. split; [assumption|]. exact (proj1 Sh).
Qed.

Lemma holds_unique {T} N (cs : cascade T) l l' : holds N cs l -> holds N cs l' -> l = l'.
Proof.
  intros (_ & N1 & _ & E1) (_ & N2 & _ & E2). rewrite N1 in N2. apply Nat2Z.inj in N2.
  rewrite <- E1, <- E2. now rewrite N2.
Qed.

Lemma holds_length {T} N (cs : cascade T) l : holds N cs l -> length (cs_biquad cs) = N.
Proof. now intros [H _]. Qed.

(** ** Serial processing over the reals *)

Lemma serial_t l : forall xs, Forall (fun bq => bq_w bq = {| v1 := 0; v2 := 0 |}) l ->
  exists m, one_after_the_other (step_df2_transposed R_scalar) l xs = Ok (fold_left (fun s b => rest b s) l xs, m).
Proof.
  induction l as [|b l IH]; intros xs F; cbn [one_after_the_other fold_left]; [eauto|].
  inversion F as [|? ? Hb Hl]; subst. rewrite run_t_R. cbn [bind fst snd]. rewrite Hb.
  fold (rest b xs). destruct (IH (rest b xs) Hl) as [m ->]. cbn. eauto.
Qed.

Lemma serial_df2 l : forall xs, Forall (fun bq => bq_w bq = {| v1 := 0; v2 := 0 |}) l ->
  exists m, one_after_the_other (step_df2 R_scalar) l xs = Ok (fold_left (fun s b => rest b s) l xs, m).
Proof.
  induction l as [|b l IH]; intros xs F; cbn [one_after_the_other fold_left]; [eauto|].
  inversion F as [|? ? Hb Hl]; subst. rewrite run_df2_R. cbn [bind fst snd]. rewrite Hb.
  destruct (df2_t (bq_a b) (bq_b b) xs {| v1 := 0; v2 := 0 |}) as [E _]. rewrite E.
  replace (to_transposed _ _ _) with {| v1 := 0; v2 := 0 |} by (apply state_eq; cbn; ring).
  fold (rest b xs). destruct (IH (rest b xs) Hl) as [m ->]. cbn. eauto.
Qed.

Lemma lresp_acc l f : forall acc,
  lresp l f acc = (h <- lresp l f (RtoC 1) ;; Ok (Cmult acc h)).
Proof.
  induction l as [|b l IH]; intros acc; cbn [lresp bind].
  - f_equal. ring.
  - destruct (response b f) as [h|e]; cbn [bind]; [|reflexivity].
    rewrite IH. rewrite (IH (Cmult (RtoC 1) h)). destruct (lresp l f (RtoC 1)); cbn [bind]; [|reflexivity].
    f_equal. ring.
Qed.

Lemma response_err b f e : response b f = Err e -> e = DivByZero.
Proof. unfold response. destruct (Ceq_dec _ _); congruence. Qed.

Lemma lresp_err l f : forall acc e, lresp l f acc = Err e -> e = DivByZero.
Proof.
  induction l as [|b l IH]; intros acc e; cbn [lresp]; [discriminate|].
  destruct (response b f) as [h|e'] eqn:E; cbn [bind]; [apply IH|].
  intros H. injection H as <-. eauto using response_err.
Qed.

Lemma lresp_perm f l l' : Permutation l l' -> forall acc, lresp l f acc = lresp l' f acc.
Proof.
  induction 1 as [|b l l' P IH|b c l|l l' l'' P IH P' IH']; intros acc; cbn [lresp].
  - reflexivity.
  - destruct (response b f); cbn [bind]; [apply IH|reflexivity].
  - destruct (response b f) as [hb|e1] eqn:Eb, (response c f) as [hc|e2] eqn:Ec; cbn [bind]; try reflexivity.
    + f_equal. ring.
    + apply response_err in Eb, Ec. congruence.
  - now rewrite IH.
Qed.
