(** * Properties of cascades of second order sections (C47-C54, C90, C91) *)

From Coq Require Import Reals List ZArith Bool Lia Lra Permutation.
From Coquelicot Require Import Complex.
From Verif Require Import Base Scalars Biquad BiquadSpec BiquadProofs BiquadStability PropsBiquad.
From Verif Require Import Cascade CascadeSpec CascadeProofs CascadeSteady.
Import ListNotations.
Local Open Scope Z_scope.

(** ** C47: a bounded list of sections *)

(** Construction. *)
Theorem C47_construction :
  forall (T : Type) (S : scalar T) (N : nat) (l : list (biquad T)),
  (length l <= N)%nat ->
  shows (cascade_of S N l) l /\ length (cs_biquad (cascade_of S N l)) = N.
Proof.
  intros T S N l H. pose proof (cascade_of_holds S N l H) as C.
  split; [exact (holds_shows N _ _ C)|exact (holds_length _ _ _ C)].
Qed.
Print Assumptions C47_construction.

(** Every history of modifying calls that respects the preconditions acts as on the list,
    whether assertions are compiled in or not. *)
Theorem C47_list_semantics :
  forall (T : Type) (S : scalar T) (asserts : bool) (N : nat) (cs : cascade T) (os : list (cs_op T))
         (l l' : list (biquad T)),
  length (cs_biquad cs) = N -> shows cs l ->
  list_ops S N l os = Some l' ->
  exists cs', cs_calls S asserts N cs os = Ok cs' /\ shows cs' l' /\ length (cs_biquad cs') = N.
Proof.
  intros T S asserts N cs os l l' L Sh E. apply (shows_holds N) in Sh; [|assumption].
  destruct (calls_refine S asserts N os cs l l' Sh E) as (cs' & C & H). exists cs'.
  split; [assumption|]. split; [exact (holds_shows N _ _ H)|exact (holds_length _ _ _ H)].
Qed.
Print Assumptions C47_list_semantics.

(** [replace] hands out the previous section. *)
Theorem C47_replace_returns_previous :
  forall (T : Type) (asserts : bool) (N : nat) (cs : cascade T) (l : list (biquad T)) (i : nat) (bq old : biquad T),
  length (cs_biquad cs) = N -> shows cs l -> nth_error l i = Some old ->
  exists cs', cs_replace asserts cs (Z.of_nat i) bq = Ok (old, cs') /\
    shows cs' (firstn i l ++ bq :: skipn (S i) l).
Proof.
  intros T asserts N cs l i bq old L Sh E. apply (shows_holds N) in Sh; [|assumption].
  apply holds_split in Sh. destruct Sh as (r & Eb & Len & Nx).
  destruct (nth_error_split _ _ E) as (l1 & l2 & -> & Hl). subst i.
  unfold cs_replace. rewrite Nx, Eb.
  replace ((0 <=? _) && _) with true
    by (symmetry; apply andb_true_intro; split; [apply Z.leb_le|apply Z.ltb_lt]; rewrite ?app_length; cbn; lia).
  unfold assert_. rewrite andb_false_r. cbn [bind]. rewrite <- app_assoc. cbn [app].
  rewrite sec_at_app. cbn [bind]. rewrite sec_set_app. cbn [bind].
  eexists. split.
  - destruct bq as [[? ?] [? ? ?] [? ?]], old as [[? ?] [? ? ?] [? ?]]. reflexivity.
  - apply (holds_shows N). apply holds_split. exists r. cbn [cs_biquad cs_next].
    rewrite firstn_len, skipn_S_len. rewrite <- !app_assoc in *. cbn [app] in *.
    rewrite !app_length in *. cbn [length] in *.
    split; [destruct bq as [[? ?] [? ? ?] [? ?]], old as [[? ?] [? ? ?] [? ?]]; reflexivity|]. split; lia.
Qed.
Print Assumptions C47_replace_returns_previous.

(** The list is determined by what is shown. *)
Theorem C47_list_is_observable :
  forall (T : Type) (cs : cascade T) (l l' : list (biquad T)), shows cs l -> shows cs l' -> l = l'.
Proof.
  intros T cs l l' H H'.
  exact (holds_unique (length (cs_biquad cs)) cs l l' (shows_holds _ cs l eq_refl H) (shows_holds _ cs l' eq_refl H')).
Qed.
Print Assumptions C47_list_is_observable.

Definition ex_sec (z : Z) : biquad Z :=
  {| bq_a := {| a1 := z; a2 := z + 1 |}; bq_b := {| b0 := z; b1 := 1; b2 := 2 |}; bq_w := {| v1 := 3; v2 := 4 |} |}.

Example C47_case :
  let s k := ex_sec k in
  list_ops Z_scalar 4 [s 1; s 2] [OpAppend (s 3); OpInsert 0 (s 4); OpRemove 1; OpReplace 2 (s 5)]
  = Some [s 4; s 2; s 5].
Proof. reflexivity. Qed.

(** ** C48: capacity *)

(** With assertions a call succeeds exactly when its precondition holds; the size never
    exceeds the capacity. *)
Theorem C48_violations_stop :
  forall (T : Type) (S : scalar T) (N : nat) (cs : cascade T) (os : list (cs_op T)) (l : list (biquad T)),
  length (cs_biquad cs) = N -> shows cs l ->
  list_ops S N l os = None -> cs_calls S true N cs os = Err AssertFailed.
Proof.
  intros T S N cs os l L Sh E. apply (shows_holds N) in Sh; [|assumption]. eapply calls_assert; eauto.
Qed.
Print Assumptions C48_violations_stop.

Theorem C48_size_within_capacity :
  forall (T : Type) (S : scalar T) (N : nat) (l : list (biquad T)) (os : list (cs_op T)) (cs' : cascade T),
  (length l <= N)%nat ->
  cs_calls S true N (cascade_of S N l) os = Ok cs' -> 0 <= cs_size cs' <= cs_reserved N.
Proof.
  intros T S N l os cs' L H. pose proof (cascade_of_holds S N l L) as C.
  destruct (list_ops S N l os) as [l'|] eqn:E.
  - destruct (calls_refine S true N os _ _ _ C E) as (cs2 & E2 & H2).
    rewrite H in E2. injection E2 as <-. destruct H2 as (_ & Nx & Le & _).
    unfold cs_size, cs_reserved. rewrite Nx. lia.
  - rewrite (calls_assert S N os _ _ C E) in H. discriminate.
Qed.
Print Assumptions C48_size_within_capacity.

(** Without assertions (AVR) appending to a full cascade writes outside the array, and so does
    inserting into one. *)
Theorem C48_avr_append_overruns :
  forall (T : Type) (N : nat) (cs : cascade T) (l : list (biquad T)) (bq : biquad T),
  length (cs_biquad cs) = N -> shows cs l -> length l = N ->
  cs_append false N cs bq = Err OutOfBounds /\
  (forall i, 0 <= i < Z.of_nat N -> cs_insert false N cs i bq = Err OutOfBounds).
Proof.
  intros T N cs l bq L Sh Full. apply (shows_holds N) in Sh; [|assumption]. destruct Sh as (_ & Nx & _ & _).
  assert (X : forall b, sec_set (cs_biquad cs) (cs_next cs) b = Err OutOfBounds).
  { intros b. unfold sec_set. rewrite Nx, L, Full, Z.ltb_irrefl, andb_false_r. reflexivity. }
  split.
  - unfold cs_append. cbn. now rewrite X.
  - intros i Hi. unfold cs_insert. cbn [assert_ andb bind insert_loop].
    destruct (Z.eqb_spec (cs_next cs) i) as [Y|_]; [lia|].
    destruct (sec_at (cs_biquad cs) (cs_next cs - 1)) as [b|e] eqn:E; cbn [bind].
    + now rewrite X.
    + unfold sec_at in E. destruct (_ <? 0); [now injection E as <-|]. destruct (nth_error _ _); [discriminate|now injection E as <-].
Qed.
Print Assumptions C48_avr_append_overruns.

Example C48_case :
  list_ops Z_scalar 2 [ex_sec 1] [OpAppend (ex_sec 2); OpAppend (ex_sec 3)] = None /\
  list_ops Z_scalar 2 [ex_sec 1] [OpAppend (ex_sec 2); OpRemove 2] = None /\
  length (cs_biquad (cascade_of Z_scalar 2 [ex_sec 1; ex_sec 2])) = 2%nat.
Proof. repeat split. Qed.

(** ** C49: [insert] cannot extend *)

Theorem C49_insert_cannot_extend :
  forall (T : Type) (N : nat) (cs : cascade T) (l : list (biquad T)) (i : Z) (bq : biquad T),
  length (cs_biquad cs) = N -> shows cs l ->
  (i < 0 \/ cs_size cs <= i) -> cs_insert true N cs i bq = Err AssertFailed.
Proof.
  intros T N cs l i bq L Sh H. unfold cs_insert. destruct Sh as [Sz _]. unfold cs_size in *.
  replace ((0 <=? i) && (i <? cs_next cs)) with false; [reflexivity|].
  symmetry. apply andb_false_iff. destruct H; [left; apply Z.leb_gt; lia|right; apply Z.ltb_ge; lia].
Qed.
Print Assumptions C49_insert_cannot_extend.

(** Without assertions it does extend. *)
Theorem C49_avr_insert_extends :
  forall (T : Type) (N : nat) (cs : cascade T) (l : list (biquad T)) (bq : biquad T),
  length (cs_biquad cs) = N -> shows cs l -> (length l < N)%nat ->
  exists cs', cs_insert false N cs (cs_size cs) bq = Ok cs' /\ shows cs' (l ++ [bq]).
Proof.
  intros T N cs l bq L Sh Lt. apply (shows_holds N) in Sh; [|assumption]. apply holds_split in Sh.
  destruct Sh as (r & Eb & Len & Nx). unfold cs_insert, cs_size. cbn [assert_ andb bind insert_loop].
  rewrite Z.eqb_refl, Eb, Nx. cbn [bind]. rewrite app_length in Len.
  destruct r as [|x r]; [cbn in Len; lia|]. rewrite sec_set_app. cbn [bind].
  eexists. split; [reflexivity|]. apply (holds_shows N). apply holds_split. exists r. cbn [cs_biquad cs_next].
  rewrite <- !app_assoc. cbn [app]. rewrite !app_length in *. cbn [length] in *. repeat split; lia.
Qed.
Print Assumptions C49_avr_insert_extends.

Example C49_case : cs_insert true 3 (cascade_of Z_scalar 3 []) 0 (ex_sec 1) = Err AssertFailed.
Proof. reflexivity. Qed.

(** ** C50: filtering is section after section *)

(** One sample at a time through all sections is the same as the whole sequence through one
    section after the other: same output, same sections afterwards; one fails exactly when the
    other does.  [f] is the step function called on the sections. *)
Lemma run_composes :
  forall (T : Type) (f : biquad T -> T -> outcome (T * biquad T)) (N : nat) (cs : cascade T)
         (l m : list (biquad T)) (xs ys : list T),
  length (cs_biquad cs) = N -> shows cs l ->
  ((exists cs', cs_run (cs_step_with f) cs xs = Ok (ys, cs') /\ shows cs' m) <->
   one_after_the_other f l xs = Ok (ys, m)).
Proof.
  intros T f N cs l m xs ys L Sh. apply (shows_holds N) in Sh; [|assumption].
  rewrite <- lrun_serial. pose proof (run_refines f N xs cs l Sh) as R.
  split.
  - intros (cs' & E & H). destruct (lrun f l xs) as [[ys' m']|e].
    + destruct R as (cs2 & E2 & H2). rewrite E in E2. injection E2 as <- <-.
      f_equal. cbn [fst snd] in *. f_equal. apply (C47_list_is_observable T cs'); [exact (holds_shows N _ _ H2)|assumption].
    + congruence.
  - intros E. rewrite E in R. destruct R as (cs' & E' & H'). exists cs'. split; [assumption|exact (holds_shows N _ _ H')].
Qed.

Theorem C50_step_composes :
  forall (T : Type) (S : scalar T) (N : nat) (cs : cascade T) (l m : list (biquad T)) (xs ys : list T),
  length (cs_biquad cs) = N -> shows cs l ->
  ((exists cs', cs_run (cs_step S) cs xs = Ok (ys, cs') /\ shows cs' m) <->
   one_after_the_other (step S) l xs = Ok (ys, m)) /\
  ((exists cs', cs_run (cs_step_df2 S) cs xs = Ok (ys, cs') /\ shows cs' m) <->
   one_after_the_other (step_df2 S) l xs = Ok (ys, m)) /\
  ((exists cs', cs_run (cs_step_df2_transposed S) cs xs = Ok (ys, cs') /\ shows cs' m) <->
   one_after_the_other (step_df2_transposed S) l xs = Ok (ys, m)).
Proof. intros T S N cs l m xs ys L Sh. split; [|split]; apply (run_composes T _ N); assumption. Qed.
Print Assumptions C50_step_composes.

(** An empty cascade is the identity. *)
Theorem C50_empty_is_identity :
  forall (T : Type) (S : scalar T) (cs : cascade T) (x : T),
  shows cs [] -> cs_step S cs x = Ok (x, cs) /\ cs_step_df2 S cs x = Ok (x, cs) /\
  cs_step_df2_transposed S cs x = Ok (x, cs).
Proof.
  intros T S cs x [Sz _]. unfold cs_size in Sz. cbn in Sz. destruct cs as [a n]. cbn in Sz. subst n.
  repeat split; reflexivity.
Qed.
Print Assumptions C50_empty_is_identity.

(** Two integer sections: 1 + 2 z^-1 followed by 3. *)
Definition fir_sec (p q : Z) : biquad Z :=
  {| bq_a := {| a1 := 0; a2 := 0 |}; bq_b := {| b0 := p; b1 := q; b2 := 0 |}; bq_w := {| v1 := 0; v2 := 0 |} |}.
Example C50_case :
  exists cs', cs_run (cs_step Z_scalar) (cascade_of Z_scalar 5 [fir_sec 1 2; fir_sec 3 0]) [1; 0; 5; 0]
              = Ok ([3; 6; 15; 30], cs').
Proof. eexists. vm_compute. reflexivity. Qed.

(** ** C51: response *)

Theorem C51_response_is_product :
  forall (N : nat) (cs : cascade R) (l : list (biquad R)) (hs : list C) (f : R),
  length (cs_biquad cs) = N -> shows cs l ->
  Forall2 (fun bq h => response bq f = Ok h) l hs ->
  cs_response cs f = Ok (fold_right Cmult (RtoC 1) hs).
Proof.
  intros N cs l hs f L Sh F. apply (shows_holds N) in Sh; [|assumption]. apply holds_split in Sh.
  destruct Sh as (r & Eb & Len & Nx). unfold cs_response, for_. rewrite Nx, Nat2Z.id.
  pose proof (response_loop (cs_biquad cs) f l [] r (RtoC 1) Eb) as H. cbn [length] in H. rewrite H.
  clear - F. induction F as [|b h l hs Hb F IH]; [reflexivity|].
  cbn [lresp fold_right]. rewrite Hb. cbn [bind]. rewrite lresp_acc, IH. cbn [bind]. f_equal. ring.
Qed.
Print Assumptions C51_response_is_product.

(** The order of the sections is irrelevant, also for failure (a pole at the frequency). *)
Theorem C51_response_order_irrelevant :
  forall (N N' : nat) (cs cs' : cascade R) (l l' : list (biquad R)) (f : R),
  length (cs_biquad cs) = N -> length (cs_biquad cs') = N' ->
  shows cs l -> shows cs' l' -> Permutation l l' ->
  cs_response cs f = cs_response cs' f.
Proof.
  intros N N' cs cs' l l' f L L' Sh Sh' P.
  apply (shows_holds N) in Sh; [|assumption]. apply (shows_holds N') in Sh'; [|assumption].
  apply holds_split in Sh, Sh'. destruct Sh as (r & Eb & Len & Nx), Sh' as (r' & Eb' & Len' & Nx').
  unfold cs_response, for_. rewrite Nx, Nx', !Nat2Z.id.
  pose proof (response_loop (cs_biquad cs) f l [] r (RtoC 1) Eb) as H.
  pose proof (response_loop (cs_biquad cs') f l' [] r' (RtoC 1) Eb') as H'. cbn [length] in H, H'.
  rewrite H, H'. now apply lresp_perm.
Qed.
Print Assumptions C51_response_order_irrelevant.

(** It fails exactly when a section fails, by division by zero. *)
Theorem C51_response_fails_iff :
  forall (N : nat) (cs : cascade R) (l : list (biquad R)) (f : R),
  length (cs_biquad cs) = N -> shows cs l ->
  (cs_response cs f = Err DivByZero <-> Exists (fun bq => response bq f = Err DivByZero) l).
Proof.
  intros N cs l f L Sh. apply (shows_holds N) in Sh; [|assumption]. apply holds_split in Sh.
  destruct Sh as (r & Eb & Len & Nx). unfold cs_response, for_. rewrite Nx, Nat2Z.id.
  pose proof (response_loop (cs_biquad cs) f l [] r (RtoC 1) Eb) as H. cbn [length] in H. rewrite H.
  generalize (RtoC 1). clear - l. induction l as [|b l IH]; intros acc; cbn [lresp].
  - split; [discriminate|intros X; inversion X].
  - destruct (response b f) as [h|e] eqn:E; cbn [bind].
    + rewrite IH. split; [now constructor|]. intros X. inversion X; [congruence|assumption].
    + apply response_err in E as E'. subst e. split; [intros _; now constructor|reflexivity].
Qed.
Print Assumptions C51_response_fails_iff.

Lemma ex_response : response ex_bq 0 = Ok (RtoC 8).
Proof.
  unfold response. cbn [a1 a2 b0 b1 b2 bq_a bq_b ex_bq]. rewrite !Rmult_0_r, Ropp_0.
  replace (polar 1 0) with (RtoC 1) by (unfold polar, RtoC; rewrite cos_0, sin_0; f_equal; ring).
  rewrite <- !RtoC_mult, <- !RtoC_plus.
  destruct (Ceq_dec _ _) as [X|X].
  - injection X. intros. lra.
  - rewrite <- RtoC_div by lra. do 2 f_equal. lra.
Qed.

Example C51_case : cs_response (cascade_of R_scalar 3 [ex_bq; ex_bq]) 0 = Ok (RtoC 64).
Proof.
  rewrite (C51_response_is_product 3 _ [ex_bq; ex_bq] [RtoC 8; RtoC 8]).
  - cbn. rewrite <- !RtoC_mult. do 2 f_equal. lra.
  - reflexivity.
  - apply C47_construction. cbn. lia.
  - repeat constructor; apply ex_response.
Qed.

(** ** C52: stability *)

Theorem C52_stable_iff_all_sections :
  forall (N : nat) (cs : cascade R) (l : list (biquad R)),
  length (cs_biquad cs) = N -> shows cs l ->
  exists b, cs_is_stable cs = Ok b /\ (b = true <-> Forall (fun bq => is_stable bq = Ok true) l).
Proof.
  intros N cs l L Sh. apply (shows_holds N) in Sh; [|assumption]. apply holds_split in Sh.
  destruct Sh as (r & Eb & Len & Nx). unfold cs_is_stable, for_. rewrite Nx, Nat2Z.id.
  pose proof (stable_loop (cs_biquad cs) l [] r true Eb) as H. cbn [length] in H. rewrite H.
  eexists. split; [reflexivity|]. cbn [andb]. rewrite forallb_forall, Forall_forall.
  split; intros F x Hx; specialize (F x Hx).
  - destruct (is_stable x) as [[]|]; try discriminate; reflexivity.
  - now rewrite F.
Qed.
Print Assumptions C52_stable_iff_all_sections.

(** The same in terms of the sections' coefficients: all poles in the closed unit disc. *)
Theorem C52_stable_iff_coefficients :
  forall (N : nat) (cs : cascade R) (l : list (biquad R)),
  length (cs_biquad cs) = N -> shows cs l ->
  cs_is_stable cs = Ok true <->
  Forall (fun bq => Rabs (a2 (bq_a bq)) <= 1 /\ Rabs (a1 (bq_a bq)) <= 1 + a2 (bq_a bq))%R l.
Proof.
  intros N cs l L Sh. destruct (C52_stable_iff_all_sections N cs l L Sh) as (b & E & H). rewrite E.
  rewrite !Forall_forall in *. split.
  - intros X. assert (b = true) by congruence. intros bq Hb. apply C44_is_stable_iff. now apply H.
  - intros X. f_equal. apply H. intros bq Hb. apply C44_is_stable_iff. now apply X.
Qed.
Print Assumptions C52_stable_iff_coefficients.

Example C52_case : cs_is_stable (cascade_of R_scalar 3 [ex_bq; ex_bq]) = Ok true.
Proof.
  destruct (C52_stable_iff_all_sections 3 (cascade_of R_scalar 3 [ex_bq; ex_bq]) [ex_bq; ex_bq]) as (b & E & H).
  - reflexivity.
  - apply C47_construction. cbn. lia.
  - rewrite E. f_equal. apply H. repeat constructor; apply C44_accepts_stable, C42_case.
Qed.

(** ** C53: reset and clear *)

(** [reset] zeroes all states and keeps all coefficients and the number of sections. *)
Theorem C53_reset :
  forall (T : Type) (S : scalar T) (N : nat) (cs : cascade T) (l : list (biquad T)),
  length (cs_biquad cs) = N -> shows cs l ->
  exists cs', cs_reset S cs = Ok cs' /\ cs_size cs' = cs_size cs /\
  forall i : nat, (i < length l)%nat ->
    cs_coeff_a true cs' (Z.of_nat i) = cs_coeff_a true cs (Z.of_nat i) /\
    cs_coeff_b true cs' (Z.of_nat i) = cs_coeff_b true cs (Z.of_nat i) /\
    cs_state true cs' (Z.of_nat i) = Ok {| v1 := sc_zero S; v2 := sc_zero S |}.
Proof.
  intros T S N cs l L Sh.
  destruct (C47_list_semantics T S true N cs [OpReset] l (map (reset S) l) L Sh eq_refl) as (cs' & E & Sh' & L').
  cbn in E. destruct (cs_reset S cs) as [c|]; cbn in E; [|discriminate]. injection E as ->.
  exists cs'. split; [reflexivity|]. destruct Sh as [Sz Sh], Sh' as [Sz' Sh'].
  split; [rewrite Sz, Sz', map_length; reflexivity|]. intros i Hi.
  specialize (Sh (Z.of_nat i)). specialize (Sh' (Z.of_nat i)).
  destruct (Z.ltb_spec (Z.of_nat i) 0) as [X|_]; [lia|]. rewrite Nat2Z.id in *.
  rewrite nth_error_map in Sh'.
  destruct (nth_error l i) as [b|] eqn:En; [|apply nth_error_None in En; lia]. cbn [option_map] in Sh'.
  destruct Sh as (A1 & A2 & A3), Sh' as (B1 & B2 & B3). rewrite A1, A2, B1, B2, B3. auto.
Qed.
Print Assumptions C53_reset.

(** After [reset] the cascade filters as it did when it was built from sections at rest. *)
Theorem C53_reset_forgets :
  forall (T : Type) (S : scalar T) (N : nat) (cs cs' : cascade T) (l l' : list (biquad T)) (xs ys : list T),
  length (cs_biquad cs) = N -> length (cs_biquad cs') = N ->
  shows cs l -> shows cs' l' ->
  Forall2 (fun bq bq' => bq_a bq = bq_a bq' /\ bq_b bq = bq_b bq') l l' ->
  ((exists c c1, cs_reset S cs = Ok c /\ cs_run (cs_step S) c xs = Ok (ys, c1)) <->
   (exists c c1, cs_reset S cs' = Ok c /\ cs_run (cs_step S) c xs = Ok (ys, c1))).
Proof.
  assert (K : forall (T : Type) (S : scalar T) (N : nat) (cs cs' : cascade T) (l l' : list (biquad T)) (xs ys : list T),
    length (cs_biquad cs) = N -> length (cs_biquad cs') = N ->
    shows cs l -> shows cs' l' ->
    Forall2 (fun bq bq' => bq_a bq = bq_a bq' /\ bq_b bq = bq_b bq') l l' ->
    (exists c c1, cs_reset S cs = Ok c /\ cs_run (cs_step S) c xs = Ok (ys, c1)) ->
    (exists c c1, cs_reset S cs' = Ok c /\ cs_run (cs_step S) c xs = Ok (ys, c1))).
  { intros T S N cs cs' l l' xs ys L L' Sh Sh' F (c & c1 & E & Rn).
    destruct (C47_list_semantics T S true N cs [OpReset] l (map (reset S) l) L Sh eq_refl) as (d & D & Sd & Ld).
    destruct (C47_list_semantics T S true N cs' [OpReset] l' (map (reset S) l') L' Sh' eq_refl) as (d' & D' & Sd' & Ld').
    cbn in D, D'. rewrite E in D. cbn in D. injection D as <-.
    destruct (cs_reset S cs') as [q|]; cbn in D'; [|discriminate]. injection D' as ->.
    assert (M : map (reset S) l = map (reset S) l').
    { clear - F. induction F as [|b b' l l' [H1 H2] F IH]; [reflexivity|]. cbn. f_equal; [|assumption].
      unfold reset. now rewrite H1, H2. }
    pose proof (shows_holds N c _ Ld Sd) as Hc. pose proof (run_refines (step S) N xs c _ Hc) as Q.
    pose proof (shows_holds N d' _ Ld' Sd') as Hd. pose proof (run_refines (step S) N xs d' _ Hd) as Q'.
    rewrite M in Q. destruct (lrun (step S) (map (reset S) l') xs) as [q|e].
    - destruct Q as (c2 & Q1 & _). unfold cs_step in Rn. rewrite Rn in Q1. assert (Y : ys = fst q) by congruence. subst ys.
      destruct Q' as (c3 & Q3 & _). exists d', c3. auto.
    - unfold cs_step in Rn. congruence. }
  intros T S N cs cs' l l' xs ys L L' Sh Sh' F. split.
  - eapply K; eauto.
  - eapply K; eauto. clear - F. induction F as [|b b' l l' [H1 H2] F IH]; constructor; auto.
Qed.
Print Assumptions C53_reset_forgets.

Theorem C53_clear :
  forall (T : Type) (cs : cascade T), shows (cs_clear cs) [].
Proof.
  intros T cs. split; [reflexivity|]. intros i. replace (if i <? 0 then None else nth_error [] (Z.to_nat i)) with (@None (biquad T)).
  - unfold cs_coeff_a, cs_coeff_b, cs_state. cbn [cs_clear cs_next].
    replace ((0 <=? i) && (i <? 0)) with false; [auto|].
    symmetry. apply andb_false_iff. destruct (Z_lt_le_dec i 0); [left; apply Z.leb_gt|right; apply Z.ltb_ge]; lia.
  - destruct (i <? 0); [reflexivity|]. now destruct (Z.to_nat i).
Qed.
Print Assumptions C53_clear.

Example C53_case :
  exists cs', cs_reset Z_scalar (cascade_of Z_scalar 2 [ex_sec 5]) = Ok cs' /\
    cs_state true (cascade_of Z_scalar 2 [ex_sec 5]) 0 = Ok {| v1 := 3; v2 := 4 |} /\
    cs_state true cs' 0 = Ok {| v1 := 0; v2 := 0 |} /\ cs_coeff_a true cs' 0 = Ok {| a1 := 5; a2 := 6 |}.
Proof. eexists. vm_compute. repeat split. Qed.

(** ** C54: the order of sections does not matter from rest *)
Local Open Scope R_scope.

Theorem C54_order_irrelevant_from_rest :
  forall (N N' : nat) (cs cs' : cascade R) (l l' : list (biquad R)) (xs : list R),
  length (cs_biquad cs) = N -> length (cs_biquad cs') = N' ->
  shows cs l -> shows cs' l' -> Permutation l l' ->
  Forall (fun bq => bq_w bq = {| v1 := 0; v2 := 0 |}) l ->
  exists ys c c' d d',
    cs_run (cs_step R_scalar) cs xs = Ok (ys, c) /\
    cs_run (cs_step R_scalar) cs' xs = Ok (ys, c') /\
    cs_run (cs_step_df2_transposed R_scalar) cs xs = Ok (ys, d) /\
    cs_run (cs_step_df2_transposed R_scalar) cs' xs = Ok (ys, d').
Proof.
  intros N N' cs cs' l l' xs L L' Sh Sh' P F.
  assert (F' : Forall (fun bq => bq_w bq = {| v1 := 0; v2 := 0 |}) l') by (eapply Permutation_Forall; eauto).
  destruct (serial_df2 l xs F) as [m1 E1]. destruct (serial_df2 l' xs F') as [m2 E2].
  destruct (serial_t l xs F) as [m3 E3]. destruct (serial_t l' xs F') as [m4 E4].
  rewrite (rest_perm l l' P xs) in E1, E3.
  apply (run_composes R _ N cs l m1 xs _ L Sh) in E1. apply (run_composes R _ N' cs' l' m2 xs _ L' Sh') in E2.
  apply (run_composes R _ N cs l m3 xs _ L Sh) in E3. apply (run_composes R _ N' cs' l' m4 xs _ L' Sh') in E4.
  destruct E1 as (c & E1 & _), E2 as (c' & E2 & _), E3 as (d & E3 & _), E4 as (d' & E4 & _).
  exists (fold_left (fun s b => rest b s) l' xs), c, c', d, d'. auto.
Qed.
Print Assumptions C54_order_irrelevant_from_rest.

(** Away from rest the order does matter: integer arithmetic, the states differ. *)
Theorem C54_order_matters_otherwise :
  exists (p q : biquad Z) (xs ys ys' : list Z) c c',
    cs_run (cs_step Z_scalar) (cascade_of Z_scalar 2 [p; q]) xs = Ok (ys, c) /\
    cs_run (cs_step Z_scalar) (cascade_of Z_scalar 2 [q; p]) xs = Ok (ys', c') /\ ys <> ys'.
Proof.
  exists {| bq_a := {| a1 := 0; a2 := 0 |}; bq_b := {| b0 := 1; b1 := 1; b2 := 0 |}; bq_w := {| v1 := 1; v2 := 0 |} |}%Z,
         (fir_sec 2 0), [0%Z]. do 4 eexists. vm_compute. split; [reflexivity|]. split; [reflexivity|]. discriminate.
Qed.
Print Assumptions C54_order_matters_otherwise.

Example C54_case :
  let p := reset R_scalar ex_bq in
  let q := reset R_scalar (biquad_b R_scalar {| b0 := 1; b1 := -1; b2 := 0 |}) in
  Permutation [p; q] [q; p] /\ p <> q /\ Forall (fun bq => bq_w bq = {| v1 := 0; v2 := 0 |}) [p; q].
Proof.
  cbn. split; [constructor|]. split; [|repeat constructor].
  intros X. apply (f_equal (fun b => a1 (bq_a b))) in X. cbn in X. lra.
Qed.

(** ** C90: a cascade of strictly stable sections has bounded output *)

Definition all_strictly_stable (l : list (biquad R)) : Prop :=
  Forall (fun bq => strictly_stable (a1 (bq_a bq)) (a2 (bq_a bq))) l.

Theorem C90_bounded_output :
  forall (N : nat) (cs : cascade R) (l : list (biquad R)) (X : R),
  length (cs_biquad cs) = N -> shows cs l -> all_strictly_stable l -> 0 <= X ->
  exists Y, forall xs, Forall (fun x => Rabs x <= X) xs ->
    exists ys cs', cs_run (cs_step R_scalar) cs xs = Ok (ys, cs') /\
      length ys = length xs /\ Forall (fun y => Rabs y <= Y) ys.
Proof.
  intros N cs l X L Sh St HX.
  assert (G : exists Y, forall xs, Forall (fun x => Rabs x <= X) xs ->
    exists ys m, one_after_the_other (step R_scalar) l xs = Ok (ys, m) /\ length ys = length xs /\
      Forall (fun y => Rabs y <= Y) ys).
  { clear - St HX. revert X HX. induction St as [|b l Hb St IH]; intros X HX.
    - exists X. intros xs F. exists xs, []. auto.
    - destruct (df2_output_bounded (bq_a b) (bq_b b) X Hb HX (bq_w b)) as [Y HY].
      destruct (IH (Rabs Y) (Rabs_pos Y)) as [W HW]. exists W. intros xs F.
      destruct (HW (fst (df2_run (bq_a b) (bq_b b) (bq_w b) xs))) as (ys & m & E & Ln & B).
      { eapply Forall_impl; [|apply HY, F]. intros y Hy. cbn in Hy. pose proof (Rle_abs Y). lra. }
      cbn [one_after_the_other]. rewrite run_step_R, run_df2_R. cbn [bind fst snd]. rewrite E. cbn [bind fst snd].
      eexists _, _. split; [reflexivity|]. split; [rewrite Ln; apply df2_run_length|exact B]. }
  destruct G as [Y HY]. exists Y. intros xs F. destruct (HY xs F) as (ys & m & E & Ln & B).
  apply (run_composes R _ N cs l m xs ys L Sh) in E. destruct E as (cs' & E & _). exists ys, cs'. auto.
Qed.
Print Assumptions C90_bounded_output.

Example C90_case : all_strictly_stable [ex_bq; ex_bq].
Proof. repeat constructor; apply C42_case. Qed.

(** ** C91: [response] of a cascade is its steady state response to a sinusoid *)

Lemma through_tone H A f phi n :
  through H A f phi n = tone (Cmult (RtoC A) (Cmult (polar 1 phi) H)) (2 * PI * f) n.
Proof.
  unfold through, tone.
  replace (Cmult (Cmult (RtoC A) (Cmult (polar 1 phi) H)) (polar 1 (2 * PI * f * INR n)))
    with (Cmult (RtoC A) (Cmult H (polar 1 (phi + 2 * PI * f * INR n)))) by (rewrite <- polar_add; ring).
  cbn. ring.
Qed.

Lemma sinusoid_tone A f phi n : sinusoid A f phi n = tone (Cmult (RtoC A) (polar 1 phi)) (2 * PI * f) n.
Proof.
  unfold sinusoid, tone.
  replace (Cmult (Cmult (RtoC A) (polar 1 phi)) (polar 1 (2 * PI * f * INR n)))
    with (Cmult (RtoC A) (polar 1 (phi + 2 * PI * f * INR n))) by (rewrite <- polar_add; ring).
  cbn. ring.
Qed.

Lemma serial_steady f l : all_strictly_stable l -> exists H r0,
  0 < r0 < 1 /\ (forall acc, lresp l f acc = Ok (Cmult acc H)) /\
  forall r, r0 <= r < 1 -> forall Z X, 0 <= X -> exists Y, 0 <= Y /\ forall xs,
    (forall n, (n < length xs)%nat -> Rabs (nth n xs 0 - tone Z (2 * PI * f) n) <= X * r ^ n) ->
    exists ys m, one_after_the_other (step R_scalar) l xs = Ok (ys, m) /\ length ys = length xs /\
    forall n, (n < length xs)%nat -> Rabs (nth n ys 0 - tone (Cmult Z H) (2 * PI * f) n) <= Y * r ^ n.
Proof.
  induction 1 as [|b l Hb St IH].
  - exists (RtoC 1), (1 / 2). split; [lra|]. split; [intros; cbn; f_equal; ring|].
    intros r Hr Z X HX. exists X. split; [assumption|]. intros xs F. exists xs, [].
    split; [reflexivity|]. split; [reflexivity|]. intros n Hn.
    replace (Cmult Z (RtoC 1)) with Z by ring. now apply F.
  - destruct IH as (H & r1 & Hr1 & HR & D).
    destruct (section_steady (bq_a b) (bq_b b) (2 * PI * f) Hb) as (r2 & Hr2 & D2).
    set (h := Cdiv (num (bq_b b) (2 * PI * f)) (den (bq_a b) (2 * PI * f))) in *.
    exists (Cmult h H), (Rmax r1 r2). split; [|split].
    + split; [eapply Rlt_le_trans; [|apply Rmax_l]; lra|apply Rmax_lub_lt; lra].
    + intros acc. cbn [lresp]. unfold response. fold (den (bq_a b) (2 * PI * f)) (num (bq_b b) (2 * PI * f)).
      destruct (Ceq_dec (den (bq_a b) (2 * PI * f)) (RtoC 0)) as [Q|_]; [now apply stable_den in Q|].
      cbn [bind]. rewrite HR. f_equal. fold h. ring.
    + intros r Hr Z X HX. pose proof (Rmax_l r1 r2). pose proof (Rmax_r r1 r2).
      destruct (D2 r ltac:(lra) Z X (bq_w b) HX) as (Y & HY & F).
      destruct (D r ltac:(lra) (Cmult Z h) Y HY) as (W & HW & F2). exists W. split; [assumption|].
      intros xs Hx. specialize (F xs Hx).
      destruct (F2 (fst (df2_run (bq_a b) (bq_b b) (bq_w b) xs))) as (ys & m & E & Ln & B).
      { rewrite df2_run_length. exact F. }
      rewrite df2_run_length in Ln, B.
      cbn [one_after_the_other]. rewrite run_step_R, run_df2_R. cbn [bind fst snd]. rewrite E. cbn [bind fst snd].
      eexists _, _. split; [reflexivity|]. split; [assumption|].
      intros n Hn. replace (Cmult Z (Cmult h H)) with (Cmult (Cmult Z h) H) by ring. now apply B.
Qed.

Theorem C91_cascade_response_is_steady_state :
  forall (N : nat) (cs : cascade R) (l : list (biquad R)) (A f phi : R),
  length (cs_biquad cs) = N -> shows cs l -> all_strictly_stable l ->
  exists H r B, cs_response cs f = Ok H /\ 0 < r < 1 /\
  forall k, exists ys cs',
    cs_run (cs_step R_scalar) cs (map (sinusoid A f phi) (seq 0 k)) = Ok (ys, cs') /\
    forall n, (n < k)%nat -> Rabs (nth n ys 0 - through H A f phi n) <= B * r ^ n.
Proof.
  intros N cs l A f phi L Sh St. destruct (serial_steady f l St) as (H & r & Hr & HR & D).
  destruct (D r ltac:(lra) (Cmult (RtoC A) (polar 1 phi)) 0 ltac:(lra)) as (B & HB & F).
  exists H, r, B. split; [|split; [assumption|]].
  - pose proof (shows_holds N cs l L Sh) as Hd. apply holds_split in Hd. destruct Hd as (q & Eb & Len & Nx).
    unfold cs_response, for_. rewrite Nx, Nat2Z.id.
    pose proof (response_loop (cs_biquad cs) f l [] q (RtoC 1) Eb) as Q. cbn [length] in Q. rewrite Q, HR. f_equal. ring.
  - intros k. destruct (F (map (sinusoid A f phi) (seq 0 k))) as (ys & m & E & Ln & G).
    { rewrite map_length, seq_length. intros n Hn.
      rewrite (nth_indep _ 0 (sinusoid A f phi 0)) by (rewrite map_length, seq_length; lia).
      rewrite map_nth, seq_nth by lia. rewrite Nat.add_0_l, sinusoid_tone, Rminus_diag_eq by reflexivity.
      rewrite Rabs_R0. lra. }
    rewrite map_length, seq_length in G.
    apply (run_composes R _ N cs l m _ ys L Sh) in E. destruct E as (cs' & E & _). exists ys, cs'.
    split; [exact E|]. intros n Hn. rewrite through_tone.
    replace (Cmult (RtoC A) (Cmult (polar 1 phi) H)) with (Cmult (Cmult (RtoC A) (polar 1 phi)) H) by ring.
    now apply G.
Qed.
Print Assumptions C91_cascade_response_is_steady_state.

Example C91_case :
  shows (cascade_of R_scalar 3 [ex_bq; ex_bq]) [ex_bq; ex_bq] /\ all_strictly_stable [ex_bq; ex_bq] /\
  cs_response (cascade_of R_scalar 3 [ex_bq; ex_bq]) 0 = Ok (RtoC 64).
Proof.
  split; [apply C47_construction; cbn; lia|]. split; [exact C90_case|exact C51_case].
Qed.
