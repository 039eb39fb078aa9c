(** Properties of the example program: C85, C86, C87 and C107. *)

From Coq Require Import ZArith List Bool Lia Permutation.
From Verif Require Import Base Interrupt InterruptSpec PropsInterrupt AdcDac.
Import ListNotations.
Open Scope Z_scope.

(** ** C85: the heartbeat *)

(** When each mailbox is due: every, every tenth, hundredth, thousandth interrupt. *)
Definition period (m : mailbox) : Z :=
  match m with M1 => 1 | M10 => 10 | M100 => 100 | M1000 => 1000 end.

(** Counters after so many interrupts. *)
Definition counts_at (n : Z) : counters :=
  Counters (10 - n mod 10) (10 - n / 10 mod 10) (10 - n / 100 mod 10).

Lemma due_10 n : 0 <= n -> (n + 1) mod 10 = 0 <-> n mod 10 = 9.
Proof. intros H. Z.div_mod_to_equations. lia. Qed.

Lemma due_100 n : 0 <= n -> (n + 1) mod 100 = 0 <-> n mod 10 = 9 /\ n / 10 mod 10 = 9.
Proof. intros H. Z.div_mod_to_equations. lia. Qed.

Lemma due_1000 n : 0 <= n ->
  (n + 1) mod 1000 = 0 <-> n mod 10 = 9 /\ n / 10 mod 10 = 9 /\ n / 100 mod 10 = 9.
Proof. intros H. Z.div_mod_to_equations. lia. Qed.

Lemma dec8_small x : 1 <= x <= 10 -> dec8 x = x - 1.
Proof. intros H. unfold dec8. apply Z.mod_small. lia. Qed.

Lemma eqb_false x : x <> 0 -> (x =? 0) = false.
Proof. apply Z.eqb_neq. Qed.

Lemma beat_counts n b : 0 <= n ->
  fst (beat_isr (counts_at n) b) = counts_at (n + 1)
  /\ forall m, snd (beat_isr (counts_at n) b) m = b m || ((n + 1) mod period m =? 0).
Proof.
  intros Hn.
  assert (R1 : 0 <= n mod 10 < 10) by (apply Z.mod_pos_bound; lia).
  assert (R2 : 0 <= n / 10 mod 10 < 10) by (apply Z.mod_pos_bound; lia).
  assert (R3 : 0 <= n / 100 mod 10 < 10) by (apply Z.mod_pos_bound; lia).
  unfold beat_isr. cbn [counts_at cnt_10ms cnt_100ms cnt_1000ms].
  rewrite !dec8_small by lia.
  pose proof (due_10 n Hn) as D1. pose proof (due_100 n Hn) as D2.
  pose proof (due_1000 n Hn) as D3.
  destruct (Z.ltb_spec 0 (10 - n mod 10 - 1)) as [L1|L1].
  - split.
    + cbn [fst]. unfold counts_at. f_equal; Z.div_mod_to_equations; lia.
    + intros m. cbn [snd]. unfold put_flag. destruct m; cbn [mailbox_eqb period].
      * rewrite Z.mod_1_r. symmetry. apply orb_true_r.
      * rewrite eqb_false by lia. symmetry. apply orb_false_r.
      * rewrite eqb_false by lia. symmetry. apply orb_false_r.
      * rewrite eqb_false by lia. symmetry. apply orb_false_r.
  - assert (E1 : (n + 1) mod 10 = 0) by (apply D1; lia).
    destruct (Z.ltb_spec 0 (10 - n / 10 mod 10 - 1)) as [L2|L2].
    + split.
      * cbn [fst]. unfold counts_at. f_equal; Z.div_mod_to_equations; lia.
      * intros m. cbn [snd]. unfold put_flag. destruct m; cbn [mailbox_eqb period].
        -- rewrite Z.mod_1_r. symmetry. apply orb_true_r.
        -- rewrite E1. symmetry. apply orb_true_r.
        -- rewrite eqb_false by lia. symmetry. apply orb_false_r.
        -- rewrite eqb_false by lia. symmetry. apply orb_false_r.
    + assert (E2 : (n + 1) mod 100 = 0) by (apply D2; lia).
      destruct (Z.ltb_spec 0 (10 - n / 100 mod 10 - 1)) as [L3|L3].
      * split.
        -- cbn [fst]. unfold counts_at. f_equal; Z.div_mod_to_equations; lia.
        -- intros m. cbn [snd]. unfold put_flag. destruct m; cbn [mailbox_eqb period].
           ++ rewrite Z.mod_1_r. symmetry. apply orb_true_r.
           ++ rewrite E1. symmetry. apply orb_true_r.
           ++ rewrite E2. symmetry. apply orb_true_r.
           ++ rewrite eqb_false by lia. symmetry. apply orb_false_r.
      * assert (E3 : (n + 1) mod 1000 = 0) by (apply D3; lia).
        split.
        -- cbn [fst]. unfold counts_at. f_equal; Z.div_mod_to_equations; lia.
        -- intros m. cbn [snd]. unfold put_flag. destruct m; cbn [mailbox_eqb period].
           ++ rewrite Z.mod_1_r. symmetry. apply orb_true_r.
           ++ rewrite E1. symmetry. apply orb_true_r.
           ++ rewrite E2. symmetry. apply orb_true_r.
           ++ rewrite E3. symmetry. apply orb_true_r.
Qed.

(** The routine run [n] times; the mailboxes are emptied by others before each run as
    [between] says. *)
Fixpoint beat_runs (n : nat) (between : nat -> (mailbox -> bool) -> (mailbox -> bool))
  (c : counters) (b : mailbox -> bool) : counters * (mailbox -> bool) :=
  match n with
  | O => (c, b)
  | Datatypes.S n' =>
    let (c', b') := beat_runs n' between c b in beat_isr c' (between n' b')
  end.

(** From the start, for ever, and whatever is done to the mailboxes between the
    interrupts: the [n]-th interrupt (counted from 1) raises a mailbox exactly if its
    period divides [n], and never resets one. *)
Theorem C85_heartbeat :
  forall n between b0 m,
  let before := between n (snd (beat_runs n between counters_init b0)) in
  snd (beat_runs (Datatypes.S n) between counters_init b0) m = true
  <-> before m = true \/ (period m | Z.of_nat n + 1).
Proof.
  intros n between b0 m before.
  assert (C : fst (beat_runs n between counters_init b0) = counts_at (Z.of_nat n)).
  { clear m before. induction n as [|n IH]; [reflexivity|].
    cbn [beat_runs]. destruct (beat_runs n between counters_init b0) as [c b].
    cbn [fst] in IH. rewrite IH.
    replace (Z.of_nat (Datatypes.S n)) with (Z.of_nat n + 1) by lia.
    apply (beat_counts (Z.of_nat n) (between n b)). lia. }
  cbn [beat_runs]. subst before. destruct (beat_runs n between counters_init b0) as [c b].
  cbn [fst snd] in *. rewrite C.
  destruct (beat_counts (Z.of_nat n) (between n b) ltac:(lia)) as [_ B]. rewrite B.
  rewrite orb_true_iff, Z.eqb_eq, <- Z.mod_divide by (destruct m; cbn; lia). reflexivity.
Qed.
Print Assumptions C85_heartbeat.

Example C85_heartbeat_case :
  snd (beat_runs 1000 (fun _ _ _ => false) counters_init (fun _ => false)) M1000 = true
  /\ snd (beat_runs 1001 (fun _ _ _ => false) counters_init (fun _ => false)) M10 = false.
Proof. split; vm_compute; reflexivity. Qed.

(** ** C86: mailboxes *)

Definition mbx_run (es : list mbx_event) (s : mbx_state) : mbx_state := fold_left mbx_step es s.

Definition is_raise (e : mbx_event) : bool := match e with Raise => true | PollStep => false end.

Definition count {A} (f : A -> bool) (l : list A) : nat := List.length (filter f l).

Lemma mbx_reports_grow es : forall s,
  exists l, mbx_reports (mbx_run es s) = mbx_reports s ++ l.
Proof.
  induction es as [|e es IH]; intros s; [exists []; symmetry; apply app_nil_r|].
  cbn. destruct (IH (mbx_step s e)) as (l & E). fold (mbx_run es (mbx_step s e)).
  rewrite E. destruct e; cbn; [eauto|].
  destruct (mbx_point s); [destruct (mbx_flag s)|]; cbn; [eauto| |];
    rewrite <- app_assoc; eauto.
Qed.

(** No event is reported without having been raised: from a state in which the flag is
    not raised and no report is under way, as initially and after every report, all polls
    report nothing as long as nothing is raised. *)
Theorem C86_no_phantom :
  forall es rs,
  Forall (fun e => e = PollStep) es ->
  mbx_reports (mbx_run es (MbxState false BeforeRead rs)) = rs ++ repeat false (List.length es).
Proof.
  induction es as [|e es IH]; intros rs F; [symmetry; apply app_nil_r|].
  inversion F as [|? ? E F']; subst. cbn. fold (mbx_run es (MbxState false BeforeRead (rs ++ [false]))).
  rewrite IH by exact F'. rewrite <- app_assoc. reflexivity.
Qed.
Print Assumptions C86_no_phantom.

Example C86_no_phantom_case :
  mbx_reports (mbx_run [PollStep; PollStep] (MbxState false BeforeRead [])) = [false; false].
Proof. reflexivity. Qed.

(** Every report leaves the mailbox in that state. *)
Theorem C86_after_report :
  forall s e, mbx_reports (mbx_step s e) <> mbx_reports s ->
  mbx_flag (mbx_step s e) = false /\ mbx_point (mbx_step s e) = BeforeRead.
Proof.
  intros s [|] H; cbn in *; [contradiction|].
  destruct (mbx_point s); [destruct (mbx_flag s)|]; cbn in *; [contradiction| |]; split; reflexivity.
Qed.
Print Assumptions C86_after_report.

Example C86_after_report_case :
  mbx_reports (mbx_step (MbxState true BeforeReset []) PollStep) <> [].
Proof. discriminate. Qed.

(** There are never more reports of an event than times it was raised, for every
    interleaving. *)
Theorem C86_no_more_than_raised :
  forall es,
  (count (fun r => r) (mbx_reports (mbx_run es (MbxState false BeforeRead []))) <= count is_raise es)%nat.
Proof.
  assert (G : forall es s, (mbx_point s = BeforeReset -> mbx_flag s = true) ->
    (count (fun r : bool => r) (mbx_reports (mbx_run es s))
     <= count (fun r : bool => r) (mbx_reports s) + (if mbx_flag s then 1 else 0) + count is_raise es)%nat).
  { induction es as [|e es IH]; intros s I; [cbn; lia|].
    cbn [mbx_run fold_left]. fold (mbx_run es (mbx_step s e)).
    assert (CA : forall l (b : bool), count (fun r : bool => r) (l ++ [b])
                 = (count (fun r : bool => r) l + (if b then 1 else 0))%nat).
    { intros l b. unfold count. rewrite filter_app, app_length. destruct b; reflexivity. }
    destruct e.
    - specialize (IH (mbx_step s Raise)). cbn in IH |- *.
      unfold count in *. cbn. specialize (IH (fun _ => eq_refl)).
      destruct (mbx_flag s); lia.
    - unfold count at 3. cbn [filter is_raise]. fold (count is_raise es).
      cbn [mbx_step]. destruct (mbx_point s) eqn:P.
      + destruct (mbx_flag s) eqn:F.
        * specialize (IH (MbxState true BeforeReset (mbx_reports s)) (fun _ => eq_refl)).
          cbn in IH. exact IH.
        * specialize (IH (MbxState false BeforeRead (mbx_reports s ++ [false]))).
          cbn [mbx_reports mbx_flag] in IH. rewrite CA in IH. specialize (IH ltac:(discriminate)). lia.
      + rewrite (I eq_refl).
        specialize (IH (MbxState false BeforeRead (mbx_reports s ++ [true]))).
        cbn [mbx_reports mbx_flag] in IH. rewrite CA in IH. specialize (IH ltac:(discriminate)). lia. }
  intros es. specialize (G es (MbxState false BeforeRead []) ltac:(discriminate)). exact G.
Qed.
Print Assumptions C86_no_more_than_raised.

Example C86_no_more_than_raised_case :
  mbx_reports (mbx_run [Raise; Raise; PollStep; Raise; PollStep; PollStep]
                       (MbxState false BeforeRead [])) = [true; false].
Proof. reflexivity. Qed.

(** Every raised event is reported afterwards: at the latest by the second step of the
    polling program after it, whatever else happens and whatever the state was. *)
Theorem C86_seen :
  forall s es,
  (2 <= count (fun e => negb (is_raise e)) es)%nat ->
  exists l, mbx_reports (mbx_run (Raise :: es) s) = mbx_reports s ++ l /\ In true l.
Proof.
  assert (G1 : forall es rs, (1 <= count (fun e => negb (is_raise e)) es)%nat ->
    exists l, mbx_reports (mbx_run es (MbxState true BeforeReset rs)) = rs ++ true :: l).
  { induction es as [|e es IH]; intros rs C; [cbn in C; lia|].
    destruct e; cbn [mbx_run fold_left mbx_step mbx_point].
    - apply (IH rs). exact C.
    - destruct (mbx_reports_grow es (MbxState false BeforeRead (rs ++ [true]))) as (l & E).
      exists l. etransitivity; [exact E|]. cbn. rewrite <- app_assoc. reflexivity. }
  assert (G2 : forall es rs, (2 <= count (fun e => negb (is_raise e)) es)%nat ->
    exists l, mbx_reports (mbx_run es (MbxState true BeforeRead rs)) = rs ++ true :: l).
  { induction es as [|e es IH]; intros rs C; [cbn in C; lia|].
    destruct e; cbn [mbx_run fold_left mbx_step mbx_point mbx_flag mbx_reports].
    - apply (IH rs). exact C.
    - apply (G1 es rs). unfold count in *. cbn in C. lia. }
  intros s es C. cbn [mbx_run fold_left mbx_step]. fold (mbx_run es).
  destruct (mbx_point s).
  - destruct (G2 es (mbx_reports s) C) as (l & E). exists (true :: l).
    split; [exact E|left; reflexivity].
  - destruct (G1 es (mbx_reports s) ltac:(lia)) as (l & E). exists (true :: l).
    split; [exact E|left; reflexivity].
Qed.
Print Assumptions C86_seen.

Example C86_seen_case :
  mbx_reports (mbx_run [Raise; PollStep; PollStep] (MbxState false BeforeRead [false])) = [false; true].
Proof. reflexivity. Qed.

(** Events raised before a poll are reported as one. *)
Theorem C86_coalesced :
  forall rs k n,
  (0 < k)%nat ->
  mbx_reports (mbx_run (repeat Raise k ++ repeat PollStep (Datatypes.S (Datatypes.S n)))
                       (MbxState false BeforeRead rs))
  = rs ++ true :: repeat false n.
Proof.
  intros rs k n K.
  assert (R : mbx_run (repeat Raise k) (MbxState false BeforeRead rs) = MbxState true BeforeRead rs).
  { destruct k as [|k]; [lia|]. cbn. clear K. induction k as [|k IH]; [reflexivity|exact IH]. }
  unfold mbx_run in *. rewrite fold_left_app, R. cbn.
  pose proof (C86_no_phantom (repeat PollStep n) (rs ++ [true])) as N.
  unfold mbx_run in N. rewrite N.
  - rewrite repeat_length, <- app_assoc. reflexivity.
  - apply Forall_forall. intros e I. apply repeat_spec in I. exact I.
Qed.
Print Assumptions C86_coalesced.

Example C86_coalesced_case :
  mbx_reports (mbx_run (repeat Raise 3 ++ repeat PollStep 4) (MbxState false BeforeRead []))
  = [true; false; false].
Proof. reflexivity. Qed.

(** An event raised between the read and the reset of an earlier one shares its report:
    it is not reported by itself. *)
Theorem C86_raised_during_report :
  forall rs f n,
  mbx_reports (mbx_run (Raise :: PollStep :: repeat PollStep n) (MbxState f BeforeReset rs))
  = rs ++ true :: repeat false n.
Proof.
  intros rs f n. cbn.
  pose proof (C86_no_phantom (repeat PollStep n) (rs ++ [true])) as N.
  unfold mbx_run in N. rewrite N.
  - rewrite repeat_length, <- app_assoc. reflexivity.
  - apply Forall_forall. intros e I. apply repeat_spec in I. exact I.
Qed.
Print Assumptions C86_raised_during_report.

Example C86_raised_during_report_case :
  mbx_reports (mbx_run [Raise; PollStep; Raise; PollStep; PollStep] (MbxState false BeforeRead []))
  = [true; false].
Proof. reflexivity. Qed.

(** ** C87: the converter value *)

(** The result lies between the limits, is the argument if that does, and otherwise the
    limit it passed. *)
Theorem C87_clamp :
  forall v lo hi, lo <= hi ->
  lo <= clamp v lo hi <= hi
  /\ (lo <= v <= hi -> clamp v lo hi = v)
  /\ (v < lo -> clamp v lo hi = lo) /\ (hi < v -> clamp v lo hi = hi)
  /\ (forall w, v <= w -> clamp v lo hi <= clamp w lo hi)
  /\ clamp (clamp v lo hi) lo hi = clamp v lo hi.
Proof.
  intros v lo hi H. unfold clamp.
  repeat split; intros;
    repeat match goal with |- context [?x <? ?y] => destruct (Z.ltb_spec x y) end; lia.
Qed.
Print Assumptions C87_clamp.

Example C87_clamp_case :
  clamp 0 value_min value_max = 3 /\ clamp 700 value_min value_max = 700
  /\ clamp 5000 value_min value_max = 1023.
Proof. repeat split. Qed.

(** With limits in the wrong order the result can be outside. *)
Theorem C87_limits_exchanged :
  forall v lo hi, hi < lo -> clamp v lo hi = if v <? lo then lo else hi.
Proof.
  intros v lo hi H. unfold clamp.
  destruct (Z.ltb_spec v lo); [reflexivity|]. destruct (Z.ltb_spec hi v); lia.
Qed.
Print Assumptions C87_limits_exchanged.

Example C87_limits_exchanged_case : clamp 4 5 3 = 5.
Proof. reflexivity. Qed.

(** [dac::write] changes the two bytes of OCR1A at one point between the interrupt
    routines, to a value from 3 to 1023, the value itself where possible, and nothing
    else. *)
Theorem C87_dac_write :
  forall ord value s rs s',
  0 <= value < 65536 -> Permutation ord (List.seq 0 2) ->
  runs (dac_write ord value) s rs s' ->
  exists before after m2,
    rs = before ++ after
    /\ mem s' = one_after_other after m2
    /\ 3 <= number_at 2 0x88 m2 <= 1023
    /\ (3 <= value <= 1023 -> number_at 2 0x88 m2 = value)
    /\ (forall c, c <> 0x88 -> c <> 0x89 -> m2 c = one_after_other before (mem s) c).
Proof.
  intros ord value s rs s' V P R. unfold dac_write in R.
  destruct (C87_clamp value value_min value_max ltac:(unfold value_min, value_max; lia))
    as (L & E & _). change value_min with 3 in *. change value_max with 1023 in *.
  destruct (C81_atomic_write 2 ord 0x88 _ s rs s' ltac:(lia) P R)
    as (bf & af & m2 & -> & (A1 & _ & A3) & M & _).
  exists bf, af, m2. split; [reflexivity|]. split; [exact M|].
  change (2 ^ (8 * Z.of_nat 2)) with 65536 in A1.
  rewrite Z.mod_small in A1 by lia. rewrite A1.
  split; [exact L|]. split; [exact E|].
  intros c N1 N2. apply A3. lia.
Qed.
Print Assumptions C87_dac_write.

Example C87_dac_write_case :
  exists s', runs (dac_write [1; 0]%nat 5000) (Cpu true (fun _ => 0) (fun _ => 0)) [] s'
    /\ number_at 2 0x88 (mem s') = 1023.
Proof. eexists. split; [do 4 (apply runs_instr; cbn); constructor|reflexivity]. Qed.
