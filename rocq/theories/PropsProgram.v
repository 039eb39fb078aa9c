(** Properties of the whole example program under all interleavings with its interrupt
    routines: C107. *)

From Coq Require Import ZArith List Bool Lia.
From Verif Require Import Base AdcDac PropsAdcDac.
Import ListNotations.
Open Scope Z_scope.

(** ** What is counted *)

Definition is_toggle (o : output) : bool := match o with LedToggle => true | _ => false end.
Definition is_dac (o : output) : bool := match o with Dac _ => true | _ => false end.

(** Number of elements of a list for which [f] is true. *)
Definition number {A} (f : A -> bool) (l : list A) : Z := Z.of_nat (count f l).

Lemma number_cons {A} (f : A -> bool) x l :
  number f (x :: l) = number f l + (if f x then 1 else 0).
Proof. unfold number, count. cbn. destruct (f x); cbn [List.length]; lia. Qed.

Lemma number_nonneg {A} (f : A -> bool) l : 0 <= number f l.
Proof. unfold number. lia. Qed.

Lemma mailbox_eqb_eq a b : mailbox_eqb a b = true <-> a = b.
Proof. destruct a, b; cbn; split; congruence. Qed.

Lemma mailbox_eqb_refl a : mailbox_eqb a a = true.
Proof. destruct a; reflexivity. Qed.

(** ** The invariant *)

Record J (s : sys) : Prop := {
  j_cnt : cnts s = counts_at (Z.of_nat (beats s));
  j_box : forall m, number (mailbox_eqb m) (found s) + (if box s m then 1 else 0)
                    <= Z.of_nat (beats s) / period m;
  j_adc : In (adc_lo s + 2 ^ 8 * adc_hi s) (0 :: adcs s);
  j_dac : forall v, In (Dac v) (outs s) ->
          exists r, In r (0 :: adcs s) /\ v = Z.max 3 (Z.min 1023 r);
  j_on : In LedOn (outs s) -> exists r, In r (adcs s) /\ 512 <= r;
  j_toggles : number is_toggle (outs s) <= number (mailbox_eqb M100) (found s);
  j_dacs : number is_dac (outs s) <= number (mailbox_eqb M1000) (found s);
  j_six : number is_toggle (outs s) <= 6;
  j_phase : (exists o, In o (outs s) /\ is_toggle o = false) -> number is_toggle (outs s) = 6
}.

Lemma J_isr e s : (forall v, e = AdcReady v -> 0 <= v < 2 ^ 10) -> J s -> J (isr e s).
Proof.
  intros V [A B C D E F G H I]. destruct e as [v|].
  - constructor; cbn [isr cnts box found outs adcs beats adc_lo adc_hi];
      try assumption.
    + right. left. pose proof (Z.div_mod v (2 ^ 8) ltac:(lia)). lia.
    + intros w Hw. destruct (D w Hw) as (r & [R|R] & EQ); exists r; split; try exact EQ.
      * left. exact R.
      * right. right. exact R.
    + intros O. destruct (E O) as (r & R & L). exists r. split; [right; exact R|exact L].
  - unfold isr. rewrite A.
    destruct (beat_counts (Z.of_nat (beats s)) (box s) ltac:(lia)) as [C1 C2].
    destruct (beat_isr _ _) as [c b]. cbn [fst snd] in C1, C2.
    assert (EB : Z.of_nat (Datatypes.S (beats s)) = Z.of_nat (beats s) + 1) by lia.
    constructor; cbn [cnts box found outs adcs beats adc_lo adc_hi]; try assumption.
    + rewrite C1, EB. reflexivity.
    + intros m. rewrite EB, C2. specialize (B m).
      set (n := Z.of_nat (beats s)) in *. assert (0 <= n) by lia.
      assert (PP : 1 <= period m) by (destruct m; cbn; lia).
      destruct (Z.eqb_spec ((n + 1) mod period m) 0) as [Z0|NZ].
      * rewrite orb_true_r.
        assert (n / period m + 1 <= (n + 1) / period m).
        { apply Z.div_le_lower_bound; [lia|].
          pose proof (Z.mul_div_le n (period m) ltac:(lia)).
          pose proof (Z.div_mod (n + 1) (period m) ltac:(lia)).
          rewrite Z0 in *.
          assert (period m * (n / period m) < period m * ((n + 1) / period m)) by lia.
          assert (n / period m < (n + 1) / period m) by nia. nia. }
        destruct (box s m); lia.
      * rewrite orb_false_r.
        pose proof (Z.div_le_mono n (n + 1) (period m) ltac:(lia) ltac:(lia)). lia.
Qed.

(** ** Reasoning about executions with interrupts *)

Fixpoint safe (n : nat) (p : cmd) (s : sys) (Q : sys -> Prop) : Prop :=
  match n with
  | O => True
  | Datatypes.S n' =>
    J s
    /\ (next p s = None -> Q s)
    /\ (forall p' s', next p s = Some (p', s') -> safe n' p' s' Q)
    /\ (on s = true -> safe n' p (isr Beat s) Q)
    /\ (on s = true -> forall v, 0 <= v < 2 ^ 10 -> safe n' p (isr (AdcReady v) s) Q)
  end.

Lemma safe_reach p s Q p' s' : reach p s p' s' -> (forall n, safe n p s Q) ->
  J s' /\ (next p' s' = None -> Q s').
Proof.
  induction 1 as [p s|p s p1 s1 p' s' N R IH|p s p' s' O R IH|p s v p' s' O V R IH]; intros S.
  - destruct (S 1%nat) as (A & B & _). split; assumption.
  - apply IH. intros n. destruct (S (Datatypes.S n)) as (_ & _ & A & _). apply A, N.
  - apply IH. intros n. destruct (S (Datatypes.S n)) as (_ & _ & _ & A & _). apply A, O.
  - apply IH. intros n. destruct (S (Datatypes.S n)) as (_ & _ & _ & _ & A). apply A; assumption.
Qed.

(** An assertion: the invariant, and a condition that interrupts do not change. *)
Definition stable (P : sys -> Prop) : Prop :=
  forall s, on s = true -> J s -> P s ->
  P (isr Beat s) /\ forall v, 0 <= v < 2 ^ 10 -> P (isr (AdcReady v) s).

Definition triple (P : sys -> Prop) (p : cmd) (Q : sys -> Prop) : Prop :=
  forall n s, J s -> P s -> safe n p s Q.

Lemma J_beat s : J s -> J (isr Beat s).
Proof. apply J_isr. discriminate. Qed.

Lemma J_adc v s : 0 <= v < 2 ^ 10 -> J s -> J (isr (AdcReady v) s).
Proof. intros V. apply J_isr. intros w E. injection E as ->. exact V. Qed.

Lemma rule_skip (P : sys -> Prop) : stable P -> triple P Skip P.
Proof.
  intros ST n. induction n as [|n IH]; intros s HJ HP; [exact I|].
  split; [exact HJ|]. split; [intros _; exact HP|]. split; [discriminate|]. split.
  - intros O. apply IH; [apply J_beat, HJ|apply (ST s O HJ HP)].
  - intros O v V. apply IH; [apply J_adc; assumption|apply (ST s O HJ HP), V].
Qed.

Lemma rule_act (P Q : sys -> Prop) f : stable P -> stable Q ->
  (forall s, J s -> P s -> J (f s) /\ Q (f s)) -> triple P (Act f) Q.
Proof.
  intros SP SQ F n. induction n as [|n IH]; intros s HJ HP; [exact I|].
  split; [exact HJ|]. split; [discriminate|]. split.
  - intros p' s' E. cbn in E. injection E as <- <-. destruct (F s HJ HP) as [HJ' HQ].
    apply (rule_skip Q SQ n (f s) HJ' HQ).
  - split.
    + intros O. apply IH; [apply J_beat, HJ|apply (SP s O HJ HP)].
    + intros O v V. apply IH; [apply J_adc; assumption|apply (SP s O HJ HP), V].
Qed.

Lemma safe_seq q R Q : forall n p s,
  safe n p s R -> (forall k s, (k < n)%nat -> J s -> R s -> safe k q s Q) ->
  safe n (Seq p q) s Q.
Proof.
  induction n as [|n IH]; intros p s S T; [exact I|].
  destruct S as (HJ & HN & HS & HB & HA).
  split; [exact HJ|]. split; [cbn; destruct (next p s) as [[? ?]|]; discriminate|]. split.
  - intros p' s' E. cbn in E. destruct (next p s) as [[p1 s1]|] eqn:N.
    + injection E as <- <-. apply IH; [apply HS; reflexivity|].
      intros k s2 K. apply T. lia.
    + injection E as <- <-. apply T; [lia|exact HJ|apply HN; reflexivity].
  - split.
    + intros O. apply IH; [apply HB, O|]. intros k s2 K. apply T. lia.
    + intros O v V. apply IH; [apply HA; assumption|]. intros k s2 K. apply T. lia.
Qed.

Lemma rule_seq (P R Q : sys -> Prop) p q : triple P p R -> triple R q Q -> triple P (Seq p q) Q.
Proof.
  intros TP TQ n s HJ HP. apply (safe_seq q R Q n p s); [apply TP; assumption|].
  intros k s2 _. apply TQ.
Qed.

Lemma rule_cond (P P1 P2 Q : sys -> Prop) c p q : stable P ->
  (forall s, J s -> P s -> c s = true -> P1 s) ->
  (forall s, J s -> P s -> c s = false -> P2 s) ->
  triple P1 p Q -> triple P2 q Q -> triple P (Cond c p q) Q.
Proof.
  intros SP H1 H2 T1 T2 n. induction n as [|n IH]; intros s HJ HP; [exact I|].
  split; [exact HJ|]. split; [discriminate|]. split.
  - intros p' s' E. cbn in E. injection E as <- <-. destruct (c s) eqn:C.
    + apply T1; [exact HJ|apply H1; assumption].
    + apply T2; [exact HJ|apply H2; assumption].
  - split.
    + intros O. apply IH; [apply J_beat, HJ|apply (SP s O HJ HP)].
    + intros O v V. apply IH; [apply J_adc; assumption|apply (SP s O HJ HP), V].
Qed.

Lemma rule_while (P P1 Q : sys -> Prop) c p : stable P -> stable Q ->
  (forall s, J s -> P s -> c s = true -> P1 s) ->
  (forall s, J s -> P s -> c s = false -> Q s) ->
  triple P1 p P -> triple P (While c p) Q.
Proof.
  intros SP SQ H1 H2 T n. induction n as [n IH] using (well_founded_induction lt_wf).
  destruct n as [|n]; intros s HJ HP; [exact I|].
  split; [exact HJ|]. split; [discriminate|]. split.
  - intros p' s' E. cbn in E. injection E as <- <-. destruct (c s) eqn:C.
    + apply (safe_seq (While c p) P Q n p s); [apply T; [exact HJ|apply H1; assumption]|].
      intros k s2 K. apply IH. lia.
    + apply (rule_skip Q SQ n s HJ). apply H2; assumption.
  - split.
    + intros O. apply IH; [lia|apply J_beat, HJ|apply (SP s O HJ HP)].
    + intros O v V. apply IH; [lia|apply J_adc; assumption|apply (SP s O HJ HP), V].
Qed.

Lemma rule_weaken (P P' Q : sys -> Prop) p :
  (forall s, J s -> P s -> P' s) -> triple P' p Q -> triple P p Q.
Proof. intros H T n s HJ HP. apply T; [exact HJ|apply H; assumption]. Qed.

(** Conditions on what interrupts leave alone are stable. *)
Definition view (s : sys) := (reg_lo s, reg_hi s, ocr_hi s, blinks s, found s, outs s).

Lemma stable_view (P : sys -> Prop) :
  (forall s s', view s = view s' -> (forall r, In r (adcs s) -> In r (adcs s')) ->
     (forall m, box s m = true -> box s' m = true) -> P s -> P s') -> stable P.
Proof.
  intros H s O HJ HP. split.
  - apply (H s).
    + unfold isr. destruct (beat_isr _ _). reflexivity.
    + unfold isr. destruct (beat_isr _ _). intros r R. exact R.
    + intros m B. unfold isr. rewrite (j_cnt s HJ).
      destruct (beat_counts (Z.of_nat (beats s)) (box s) ltac:(lia)) as [_ C].
      destruct (beat_isr _ _) as [c b]. cbn [fst snd box] in *. rewrite C, B. reflexivity.
    + exact HP.
  - intros v V. apply (H s); [reflexivity| |intros m B; exact B|exact HP].
    intros r R. right. exact R.
Qed.

(** ** The program *)

Definition only_toggles (s : sys) : Prop := Forall (fun o => o = LedToggle) (outs s).

Definition blinking (s : sys) : Prop :=
  only_toggles s /\ 0 <= blinks s <= 6 /\ number is_toggle (outs s) = 6 - blinks s.

Definition looping (s : sys) : Prop := number is_toggle (outs s) = 6.

Definition holds_result (s : sys) : Prop := In (value_read s) (0 :: adcs s).

Ltac views :=
  apply stable_view; intros s s' EV IA IB;
  unfold view in EV;
  pose proof (f_equal (fun x => snd x) EV) as E1; cbn [snd] in E1;
  pose proof (f_equal (fun x => snd (fst x)) EV) as E2; cbn [snd fst] in E2;
  pose proof (f_equal (fun x => snd (fst (fst x))) EV) as E3; cbn [snd fst] in E3;
  pose proof (f_equal (fun x => snd (fst (fst (fst x)))) EV) as E4; cbn [snd fst] in E4;
  pose proof (f_equal (fun x => snd (fst (fst (fst (fst x))))) EV) as E5; cbn [snd fst] in E5;
  pose proof (f_equal (fun x => fst (fst (fst (fst (fst x))))) EV) as E6; cbn [snd fst] in E6;
  clear EV.

Lemma stable_looping : stable looping.
Proof. views. unfold looping. congruence. Qed.

Lemma stable_off (P : sys -> Prop) : (forall s, P s -> on s = false) -> stable P.
Proof. intros H s O _ HP. rewrite (H s HP) in O. discriminate. Qed.

Lemma J_same s s' :
  cnts s' = cnts s -> box s' = box s -> adc_lo s' = adc_lo s -> adc_hi s' = adc_hi s ->
  found s' = found s -> outs s' = outs s -> adcs s' = adcs s -> beats s' = beats s ->
  J s -> J s'.
Proof.
  intros E1 E2 E3 E4 E5 E6 E7 E8 [A B C D E F G H I].
  constructor; rewrite ?E1, ?E2, ?E3, ?E4, ?E5, ?E6, ?E7, ?E8; assumption.
Qed.

Lemma J_reset m s : box s m = true -> J s -> J (reset m s).
Proof.
  intros BX [A B C D E F G H I].
  constructor; cbn [reset cnts box found outs adcs beats adc_lo adc_hi]; try assumption.
  - intros m'. specialize (B m'). rewrite number_cons. unfold put_flag.
    destruct (mailbox_eqb m' m) eqn:Q.
    + apply mailbox_eqb_eq in Q. subst m'. rewrite BX in B. lia.
    + destruct (box s m'); lia.
  - rewrite number_cons. pose proof (number_nonneg (mailbox_eqb M100) (found s)).
    destruct (mailbox_eqb M100 m); lia.
  - rewrite number_cons. destruct (mailbox_eqb M1000 m); lia.
Qed.

Lemma J_toggle s : number is_toggle (outs s) < number (mailbox_eqb M100) (found s) ->
  number is_toggle (outs s) < 6 -> only_toggles s -> J s -> J (emit LedToggle s).
Proof.
  intros L6 LT OT [A B C D E F G H I].
  constructor; cbn [emit cnts box found outs adcs beats adc_lo adc_hi];
    rewrite ?number_cons; cbn [is_toggle is_dac]; try assumption; try lia.
  - intros v [X|X]; [discriminate|]. apply D, X.
  - intros [X|X]; [discriminate|]. apply E, X.
  - intros (o & [<-|X] & Q); [discriminate|]. unfold only_toggles in OT.
    rewrite Forall_forall in OT. rewrite (OT o X) in Q. discriminate.
Qed.

Lemma J_on s : looping s -> holds_result s -> 511 < value_read s -> J s -> J (emit LedOn s).
Proof.
  unfold looping. intros L HR V [A B C D E F G H I].
  constructor; cbn [emit cnts box found outs adcs beats adc_lo adc_hi];
    rewrite ?number_cons; cbn [is_toggle is_dac]; try assumption; try lia.
  - intros v [X|X]; [discriminate|]. apply D, X.
  - intros _. unfold holds_result in HR. cbn [In] in HR. destruct HR as [R|R]; [lia|].
    exists (value_read s). split; [exact R|lia].
Qed.

Lemma J_off s : looping s -> J s -> J (emit LedOff s).
Proof.
  unfold looping. intros L [A B C D E F G H I].
  constructor; cbn [emit cnts box found outs adcs beats adc_lo adc_hi];
    rewrite ?number_cons; cbn [is_toggle is_dac]; try assumption; try lia.
  - intros v [X|X]; [discriminate|]. apply D, X.
  - intros [X|X]; [discriminate|]. apply E, X.
Qed.

Lemma clamp_spec r : clamp r value_min value_max = Z.max 3 (Z.min 1023 r).
Proof.
  unfold clamp, value_min, value_max.
  destruct (Z.ltb_spec r 3), (Z.ltb_spec 1023 r); lia.
Qed.

Lemma J_write s : looping s -> holds_result s ->
  number is_dac (outs s) < number (mailbox_eqb M1000) (found s) ->
  ocr_hi s = clamp (value_read s) value_min value_max / 2 ^ 8 -> J s -> J (write_lo s).
Proof.
  unfold looping. intros L HR N OC [A B C D E F G H I].
  constructor; cbn [write_lo cnts box found outs adcs beats adc_lo adc_hi];
    rewrite ?number_cons; cbn [is_toggle is_dac]; try assumption; try lia.
  - intros v [X|X]; [|apply D, X].
    exists (value_read s). split; [exact HR|]. rewrite OC in X. rewrite <- clamp_spec.
    apply (f_equal (fun o => match o with Dac w => w | _ => 0 end)) in X. rewrite <- X.
    pose proof (Z.div_mod (clamp (value_read s) value_min value_max) (2 ^ 8) ltac:(lia)). lia.
  - intros [X|X]; [discriminate|]. apply E, X.
Qed.

(** *** Reading the result *)

Lemma triple_result (P : sys -> Prop) : stable P ->
  (forall s s', found s' = found s -> outs s' = outs s -> blinks s' = blinks s ->
     (forall r, In r (adcs s) -> In r (adcs s')) -> P s -> P s') ->
  triple P result (fun s => P s /\ holds_result s).
Proof.
  intros SP HP. unfold result.
  assert (SQ : stable (fun s => P s /\ holds_result s)).
  { apply stable_view. intros s s' EV IA IB [A B]. split.
    - unfold view in EV. apply (HP s); try congruence. exact IA.
    - unfold holds_result, value_read in *. unfold view in EV.
      assert (reg_lo s' = reg_lo s) by congruence. assert (reg_hi s' = reg_hi s) by congruence.
      rewrite H, H0. destruct B as [B|B]; [left; exact B|right; apply IA, B]. }
  apply (rule_seq _ (fun s => P s /\ on s = false)).
  { apply rule_act; [exact SP|apply stable_off; tauto|].
    intros s HJ H. split; [apply (J_same s); try reflexivity; exact HJ|].
    split; [apply (HP s); try reflexivity; [auto|exact H]|reflexivity]. }
  apply (rule_seq _ (fun s => P s /\ on s = false /\ reg_lo s = adc_lo s)).
  { apply rule_act; [apply stable_off; tauto|apply stable_off; tauto|].
    intros s HJ [H O]. split; [apply (J_same s); try reflexivity; exact HJ|].
    split; [apply (HP s); try reflexivity; [auto|exact H]|]. split; [exact O|reflexivity]. }
  apply (rule_seq _ (fun s => P s /\ on s = false /\ reg_lo s = adc_lo s /\ reg_hi s = adc_hi s)).
  { apply rule_act; [apply stable_off; tauto|apply stable_off; tauto|].
    intros s HJ (H & O & E). split; [apply (J_same s); try reflexivity; exact HJ|].
    split; [apply (HP s); try reflexivity; [auto|exact H]|].
    split; [exact O|]. split; [exact E|reflexivity]. }
  apply rule_act; [apply stable_off; tauto|exact SQ|].
  intros s HJ (H & O & E1 & E2). split; [apply (J_same s); try reflexivity; exact HJ|].
  split; [apply (HP s); try reflexivity; [auto|exact H]|].
  unfold holds_result, value_read. cbn [set_on reg_lo reg_hi adcs]. rewrite E1, E2.
  apply (j_adc s HJ).
Qed.

(** *** The blinking *)

Lemma stable_blinking : stable blinking.
Proof. views. unfold blinking, only_toggles. rewrite <- E1, <- E3. tauto. Qed.

Lemma triple_blink : triple (fun s => outs s = []) blink looping.
Proof.
  unfold blink. apply (rule_seq _ blinking).
  { apply rule_act; [views; congruence|apply stable_blinking|].
    intros s HJ E. split; [apply (J_same s); try reflexivity; exact HJ|].
    unfold blinking, only_toggles. cbn [set_blinks outs blinks]. rewrite E.
    split; [constructor|]. cbn. lia. }
  set (more := fun s => blinking s /\ 0 < blinks s).
  assert (SM : stable more).
  { views. unfold more, blinking, only_toggles. rewrite <- E1, <- E3. tauto. }
  set (seen := fun s => more s /\ number is_toggle (outs s) < number (mailbox_eqb M100) (found s)).
  assert (SS : stable seen).
  { views. unfold seen, more, blinking, only_toggles. rewrite <- E1, <- E2, <- E3. tauto. }
  set (shown := fun s => only_toggles s /\ 0 < blinks s <= 6
                         /\ number is_toggle (outs s) = 7 - blinks s).
  assert (SH : stable shown).
  { views. unfold shown, only_toggles. rewrite <- E1, <- E3. tauto. }
  apply (rule_while _ more).
  - apply stable_blinking.
  - apply stable_looping.
  - intros s _ B C. split; [exact B|]. destruct B as (_ & R & _).
    apply negb_true_iff, Z.eqb_neq in C. lia.
  - intros s _ (_ & R & N) C. apply negb_false_iff, Z.eqb_eq in C. unfold looping. lia.
  - apply (rule_seq _ seen).
    + set (raised := fun s => more s /\ box s M100 = true).
      assert (SR : stable raised).
      { views. intros [M B]. split; [|apply IB, B]. revert M.
        unfold more, blinking, only_toggles. rewrite <- E1, <- E3. tauto. }
      apply (rule_seq _ raised).
      * apply (rule_while _ more); [exact SM|exact SR|intros s _ H _; exact H| |].
        -- intros s _ H C. apply negb_false_iff in C. split; assumption.
        -- apply rule_skip, SM.
      * apply rule_act; [exact SR|exact SS|]. intros s HJ [M B].
        split; [apply J_reset; assumption|]. split; [exact M|].
        cbn [reset outs found]. rewrite number_cons. pose proof (j_toggles s HJ).
        cbn [mailbox_eqb]. lia.
    + apply (rule_seq _ shown).
      * apply rule_act; [exact SS|exact SH|]. intros s HJ [[(OT & R & N) P] L].
        split; [apply J_toggle; [exact L|lia|exact OT|exact HJ]|].
        unfold shown, only_toggles in *. cbn [emit outs blinks]. rewrite number_cons.
        cbn [is_toggle]. split; [constructor; [reflexivity|exact OT]|]. lia.
      * apply rule_act; [exact SH|apply stable_blinking|]. intros s HJ (OT & R & N).
        split; [apply (J_same s); try reflexivity; exact HJ|].
        unfold blinking, only_toggles in *. cbn [set_blinks outs blinks].
        rewrite dec8_small by lia. split; [exact OT|]. lia.
Qed.

(** *** The loop *)

Lemma looping_same s s' : found s' = found s -> outs s' = outs s -> blinks s' = blinks s ->
  (forall r, In r (adcs s) -> In r (adcs s')) -> looping s -> looping s'.
Proof. intros _ E _ _. unfold looping. rewrite E. tauto. Qed.

Lemma triple_if_raised (m : mailbox) p (Q : sys -> Prop) :
  stable Q -> (forall s, looping s -> Q s) ->
  triple (fun s => looping s /\ (m = M1000 -> number is_dac (outs s) < number (mailbox_eqb M1000) (found s)))
         p Q ->
  triple looping (if_raised m p) Q.
Proof.
  intros SQ LQ T. unfold if_raised.
  set (raised := fun s => looping s /\ box s m = true).
  assert (SR : stable raised).
  { views. intros [L B]. split; [|apply IB, B]. unfold looping in *. congruence. }
  apply (rule_cond _ raised looping); [apply stable_looping|intros s _ L B; split; assumption
                                      |intros s _ L _; exact L| |].
  - eapply rule_seq; [|exact T]. apply rule_act; [exact SR| |].
    + views. unfold looping. rewrite <- E1, <- E2. tauto.
    + intros s HJ [L B]. split; [apply J_reset; assumption|]. split; [exact L|].
      intros ->. cbn [reset outs found]. rewrite number_cons. pose proof (j_dacs s HJ).
      cbn [mailbox_eqb]. lia.
  - apply (rule_weaken _ Q); [intros s _; apply LQ|apply rule_skip, SQ].
Qed.

Lemma triple_write (P : sys -> Prop) :
  (P = fun s => (looping s /\ number is_dac (outs s) < number (mailbox_eqb M1000) (found s))
                /\ holds_result s) ->
  triple P write_dac looping.
Proof.
  intros ->. unfold write_dac.
  set (ready := fun s => (looping s /\ number is_dac (outs s) < number (mailbox_eqb M1000) (found s))
                         /\ holds_result s).
  assert (SR : stable ready).
  { views. unfold ready, looping, holds_result, value_read. rewrite <- E1, <- E2, <- E5, <- E6.
    intros [A [B|B]]; split; try exact A; [left; exact B|right; apply IA, B]. }
  apply (rule_seq _ ready).
  { apply rule_act; [exact SR|exact SR|]. intros s HJ H.
    split; [apply (J_same s); try reflexivity; exact HJ|exact H]. }
  set (half := fun s => ready s /\ ocr_hi s = clamp (value_read s) value_min value_max / 2 ^ 8).
  assert (SH : stable half).
  { views. unfold half, ready, looping, holds_result, value_read.
    rewrite <- E1, <- E2, <- E4, <- E5, <- E6.
    intros [[A [B|B]] O]; (split; [split; [exact A|]|exact O]); [left; exact B|right; apply IA, B]. }
  apply (rule_seq _ half).
  { apply rule_act; [exact SR|exact SH|]. intros s HJ H.
    split; [apply (J_same s); try reflexivity; exact HJ|]. split; [exact H|reflexivity]. }
  apply (rule_seq _ looping).
  { apply rule_act; [exact SH|apply stable_looping|]. intros s HJ (((L & N) & R) & O).
    split; [apply J_write; assumption|].
    unfold looping. cbn [write_lo outs]. rewrite number_cons. cbn [is_toggle].
    unfold looping in L. lia. }
  apply rule_act; [apply stable_looping|apply stable_looping|]. intros s HJ L.
  split; [apply (J_same s); try reflexivity; exact HJ|exact L].
Qed.

Lemma triple_round : triple looping round looping.
Proof.
  unfold round.
  assert (SK : forall m, triple (fun s => looping s /\
      (m = M1000 -> number is_dac (outs s) < number (mailbox_eqb M1000) (found s))) Skip looping).
  { intros m. apply (rule_weaken _ looping); [tauto|apply rule_skip, stable_looping]. }
  apply (rule_seq _ looping).
  { apply triple_if_raised; [apply stable_looping|auto|apply SK]. }
  apply (rule_seq _ looping).
  { apply triple_if_raised; [apply stable_looping|auto|apply SK]. }
  apply (rule_seq _ looping).
  { apply triple_if_raised; [apply stable_looping|auto|].
    apply (rule_weaken _ looping); [tauto|].
    apply (rule_seq _ (fun s => looping s /\ holds_result s)).
    { apply triple_result; [apply stable_looping|apply looping_same]. }
    set (lit := fun s => (looping s /\ holds_result s) /\ 511 < value_read s).
    assert (SL : stable (fun s => looping s /\ holds_result s)).
    { views. unfold looping, holds_result, value_read. rewrite <- E1, <- E5, <- E6.
      intros [A [B|B]]; split; try exact A; [left; exact B|right; apply IA, B]. }
    apply (rule_cond _ lit looping).
    - exact SL.
    - intros s _ H C. split; [exact H|]. apply Z.ltb_lt in C. exact C.
    - intros s _ H _. tauto.
    - apply rule_act; [|apply stable_looping|].
      + views. unfold lit, looping, holds_result, value_read. rewrite <- E1, <- E5, <- E6.
        intros [[A [B|B]] C]; (split; [split; [exact A|]|exact C]);
          [left; exact B|right; apply IA, B].
      + intros s HJ [[L H] V]. split; [apply J_on; assumption|].
        unfold looping in *. cbn [emit outs]. rewrite number_cons. cbn [is_toggle]. lia.
    - apply rule_skip, stable_looping. }
  apply triple_if_raised; [apply stable_looping|auto|].
  set (due := fun s => looping s /\ number is_dac (outs s) < number (mailbox_eqb M1000) (found s)).
  assert (SD : stable due).
  { views. unfold due, looping. rewrite <- E1, <- E2. tauto. }
  apply (rule_weaken _ due); [intros s _ [L N]; split; [exact L|apply N; reflexivity]|].
  apply (rule_seq _ due).
  { apply rule_act; [exact SD|exact SD|]. intros s HJ [L N].
    split; [apply J_off; assumption|]. unfold due, looping in *. cbn [emit outs found].
    rewrite !number_cons. cbn [is_toggle is_dac]. lia. }
  apply (rule_seq _ (fun s => due s /\ holds_result s)).
  { apply triple_result; [exact SD|]. intros s s' E1 E2 _ _. unfold due, looping.
    rewrite E1, E2. tauto. }
  apply triple_write. reflexivity.
Qed.

Lemma triple_main : triple (fun s => outs s = []) main (fun _ => False).
Proof.
  unfold main. apply (rule_seq _ (fun s => outs s = [])).
  { apply rule_act; [views; congruence|views; congruence|]. intros s HJ E.
    split; [apply (J_same s); try reflexivity; exact HJ|exact E]. }
  apply (rule_seq _ looping); [apply triple_blink|].
  apply (rule_while _ looping); [apply stable_looping|views; tauto|auto|discriminate
                                |apply triple_round].
Qed.

Lemma J_init r1 r2 r3 r4 : J (sys_init r1 r2 r3 r4).
Proof.
  constructor.
  - reflexivity.
  - intros m. destruct m; cbn; lia.
  - left. reflexivity.
  - intros v [].
  - intros [].
  - cbn. lia.
  - cbn. lia.
  - cbn. lia.
  - intros (o & [] & _).
Qed.

(** Whatever the interrupt routines do when, in every state the program can reach:
    every value written to the converter is a complete measurement, or the initial zero,
    limited to 3..1023; the light was switched on only if there was a measurement in the
    upper half; there is at most one write in a thousand heartbeats and at most one blink
    in a hundred; the light is toggled at most six times, and exactly six times before
    anything else is done with it or with the converter; and the program never ends. *)
Theorem C107_program :
  forall r1 r2 r3 r4 p s, reach main (sys_init r1 r2 r3 r4) p s ->
  (forall v, In (Dac v) (outs s) ->
     exists r, In r (0 :: adcs s) /\ v = Z.max 3 (Z.min 1023 r))
  /\ (In LedOn (outs s) -> exists r, In r (adcs s) /\ 512 <= r)
  /\ 1000 * number is_dac (outs s) <= Z.of_nat (beats s)
  /\ 100 * number is_toggle (outs s) <= Z.of_nat (beats s)
  /\ number is_toggle (outs s) <= 6
  /\ ((exists o, In o (outs s) /\ is_toggle o = false) -> number is_toggle (outs s) = 6)
  /\ next p s <> None.
Proof.
  intros r1 r2 r3 r4 p s R.
  destruct (safe_reach _ _ _ _ _ R (fun n => triple_main n _ (J_init r1 r2 r3 r4) eq_refl))
    as [[A B C D E F G H I] N].
  split; [exact D|]. split; [exact E|]. split; [|split; [|split; [exact H|split; [exact I|exact N]]]].
  - specialize (B M1000). cbn [period] in B.
    pose proof (Z.mul_div_le (Z.of_nat (beats s)) 1000 ltac:(lia)).
    destruct (box s M1000); lia.
  - specialize (B M100). cbn [period] in B.
    pose proof (Z.mul_div_le (Z.of_nat (beats s)) 100 ltac:(lia)).
    destruct (box s M100); lia.
Qed.
Print Assumptions C107_program.

(** Executions played from a list: [None] is a step of the program. *)
Fixpoint play (l : list (option interrupt)) (p : cmd) (s : sys) : cmd * sys :=
  match l with
  | [] => (p, s)
  | None :: l' => match next p s with Some (p', s') => play l' p' s' | None => (p, s) end
  | Some Beat :: l' => if on s then play l' p (isr Beat s) else (p, s)
  | Some (AdcReady v) :: l' =>
    if on s && (0 <=? v) && (v <? 1024) then play l' p (isr (AdcReady v) s) else (p, s)
  end.

Lemma play_reach l : forall p s, reach p s (fst (play l p s)) (snd (play l p s)).
Proof.
  induction l as [|e l IH]; intros p s; [constructor|]. cbn [play].
  destruct e as [[v|]|].
  - destruct (on s) eqn:O; cbn [andb]; [|constructor].
    destruct (Z.leb_spec 0 v); cbn [andb]; [|constructor].
    destruct (Z.ltb_spec v 1024); [|constructor].
    apply (reach_adc p s v); [exact O|change (2 ^ 10) with 1024; lia|apply IH].
  - destruct (on s) eqn:O; [|constructor]. apply reach_beat; [exact O|apply IH].
  - destruct (next p s) as [[p' s']|] eqn:N; [|constructor].
    apply (reach_step p s p' s'); [exact N|apply IH].
Qed.

(** An execution with six blinks, a measurement of 777 and a write of it. *)
Example C107_program_case :
  exists p s, reach main (sys_init 0 0 0 0) p s
    /\ outs s = [Dac 777; LedOff; LedOn; LedToggle; LedToggle; LedToggle; LedToggle;
                 LedToggle; LedToggle]
    /\ adcs s = [777] /\ beats s = 1000%nat.
Proof.
  set (l := repeat None 3 ++ concat (repeat (repeat (Some Beat) 100 ++ repeat None 16) 6)
            ++ repeat None 30 ++ [Some (AdcReady 777)] ++ repeat (Some Beat) 400
            ++ repeat None 60).
  exists (fst (play l main (sys_init 0 0 0 0))), (snd (play l main (sys_init 0 0 0 0))).
  split; [apply play_reach|]. vm_compute. repeat split.
Qed.

(** *** Interrupts *)

(** The state after [k] steps of the program without an interrupt. *)
Fixpoint state_after (k : nat) (p : cmd) (s : sys) : sys :=
  match k with
  | O => s
  | Datatypes.S k' => match next p s with
                      | Some (p', s') => state_after k' p' s'
                      | None => s
                      end
  end.

(** Programs that begin and end with interrupts on and move bytes with them off. *)
Inductive polite : cmd -> Prop :=
| polite_skip : polite Skip
| polite_act : forall f,
    (forall s, on (f s) = on s /\ reg_lo (f s) = reg_lo s /\ reg_hi (f s) = reg_hi s
               /\ ocr_hi (f s) = ocr_hi s
               /\ number is_dac (outs (f s)) = number is_dac (outs s)) -> polite (Act f)
| polite_seq : forall p q, polite p -> polite q -> polite (Seq p q)
| polite_cond : forall c p q, polite p -> polite q -> polite (Cond c p q)
| polite_while : forall c p, polite p -> polite (While c p)
| polite_move : forall f g,
    (forall s, on (f s) = on s) -> (forall s, on (g s) = on s) ->
    polite (Seq (Act (set_on false)) (Seq (Act f) (Seq (Act g) (Act (set_on true))))).

(** Programs that begin with interrupts off and switch them on with step [k]. *)
Inductive brief : nat -> cmd -> Prop :=
| brief_on : brief 1 (Act (set_on true))
| brief_skip : forall k p, brief k p -> brief (Datatypes.S k) (Seq Skip p)
| brief_act : forall k f p, (forall s, on (f s) = on s) -> brief k p ->
    brief (Datatypes.S (Datatypes.S k)) (Seq (Act f) p)
| brief_seq : forall k p q, brief k p -> polite q -> brief k (Seq p q).

Lemma brief_next k p s : on s = false -> brief k p ->
  exists p' s', next p s = Some (p', s')
    /\ ((k = 1%nat /\ on s' = true /\ polite p')
        \/ exists k', k = Datatypes.S k' /\ on s' = false /\ brief k' p').
Proof.
  intros O B. revert O. induction B as [|k p B IH|k f p F B IH|k p q B IH Q]; intros O.
  - exists Skip, (set_on true s). split; [reflexivity|]. left. repeat split. constructor.
  - exists p, s. split; [reflexivity|]. right. exists k. repeat split; assumption.
  - exists (Seq Skip p), (f s). split; [reflexivity|]. right. exists (Datatypes.S k).
    split; [reflexivity|]. split; [rewrite F; exact O|constructor; exact B].
  - destruct (IH O) as (p' & s' & N & D). exists (Seq p' q), s'. cbn [next]. rewrite N.
    split; [reflexivity|].
    destruct D as [(K & O' & P)|(k' & K & O' & B')].
    + left. repeat split; try assumption. constructor; assumption.
    + right. exists k'. repeat split; try assumption. apply brief_seq; assumption.
Qed.

Lemma brief_after k : forall p s, on s = false -> brief k p ->
  on (state_after k p s) = true.
Proof.
  induction k as [|k IH]; intros p s O B.
  - destruct (brief_next 0 p s O B) as (_ & _ & _ & [(K & _)|(k' & K & _)]); discriminate.
  - destruct (brief_next _ p s O B) as (p' & s' & N & D). cbn [state_after]. rewrite N.
    destruct D as [(K & O' & _)|(k' & K & O' & B')].
    + injection K as ->. exact O'.
    + injection K as <-. apply IH; assumption.
Qed.

Definition bytes_kept (s s' : sys) : Prop :=
  reg_lo s' = reg_lo s /\ reg_hi s' = reg_hi s /\ ocr_hi s' = ocr_hi s
  /\ number is_dac (outs s') = number is_dac (outs s).

Lemma polite_next p s p' s' : on s = true -> polite p -> next p s = Some (p', s') ->
  bytes_kept s s'
  /\ ((on s' = true /\ polite p') \/ (on s' = false /\ exists k, (k <= 6)%nat /\ brief k p')).
Proof.
  intros O P. revert p' s'.
  induction P as [|f F|p q P IHP Q IHQ|c p q P IHP Q IHQ|c p P IHP|f g F G]; intros p' s' N.
  - discriminate.
  - injection N as <- <-. destruct (F s) as (A & B). split; [exact B|].
    left. split; [congruence|constructor].
  - cbn [next] in N. destruct (next p s) as [[p1 s1]|].
    + injection N as <- <-. destruct (IHP p1 s1 eq_refl) as (K & D). split; [exact K|].
      destruct D as [(A & B)|(A & k & L & B)].
      * left. split; [exact A|constructor; assumption].
      * right. split; [exact A|]. exists k. split; [exact L|apply brief_seq; assumption].
    + injection N as <- <-. split; [repeat split|]. left. split; assumption.
  - injection N as <- <-. split; [repeat split|]. left. split; [exact O|].
    destruct (c s); assumption.
  - injection N as <- <-. split; [repeat split|]. left. split; [exact O|].
    destruct (c s); [|constructor]. constructor; [exact P|constructor; exact P].
  - injection N as <- <-. split; [repeat split|]. right. split; [reflexivity|].
    exists 6%nat. split; [lia|]. apply brief_skip, brief_act; [exact F|].
    apply brief_act; [exact G|]. constructor.
Qed.

Lemma polite_round : polite round.
Proof.
  assert (R : forall m p, polite p -> polite (if_raised m p)).
  { intros m p P. apply polite_cond; [|constructor]. apply polite_seq; [|exact P].
    apply polite_act. intros s. repeat split. }
  assert (E : forall o, is_dac o = false -> polite (Act (emit o))).
  { intros o D. apply polite_act. intros s. repeat split. cbn [emit outs].
    rewrite number_cons, D. lia. }
  assert (M : polite result) by (apply polite_move; reflexivity).
  assert (W : polite write_dac) by (apply polite_move; reflexivity).
  unfold round. apply polite_seq; [apply R; constructor|].
  apply polite_seq; [apply R; constructor|].
  apply polite_seq; apply R.
  - apply polite_seq; [exact M|]. apply polite_cond; [apply E; reflexivity|constructor].
  - apply polite_seq; [apply E; reflexivity|]. apply polite_seq; assumption.
Qed.

Lemma polite_blink : polite blink.
Proof.
  unfold blink, wait_raised. apply polite_seq; [apply polite_act; intros s; repeat split|].
  apply polite_while, polite_seq.
  { apply polite_seq; [apply polite_while; constructor|]. apply polite_act.
    intros s. repeat split. }
  apply polite_seq; apply polite_act; intros s; repeat split.
Qed.

Lemma brief_main : brief 1 main.
Proof.
  apply brief_seq; [constructor|]. apply polite_seq; [apply polite_blink|].
  apply polite_while, polite_round.
Qed.

(** Interrupts are off before the first step of the program, which switches them on, so
    nothing happens before it.  In every state the program can reach, interrupts are on
    or the program switches them on with one of its next six steps, so no interrupt has
    to wait for longer.  Bytes of measurements and of values for the converter are moved
    only while interrupts are off. *)
Theorem C107_interrupts :
  forall r1 r2 r3 r4 p s, reach main (sys_init r1 r2 r3 r4) p s ->
  ((p = main /\ s = sys_init r1 r2 r3 r4)
   \/ exists p1 s1, next main (sys_init r1 r2 r3 r4) = Some (p1, s1) /\ on s1 = true
        /\ reach p1 s1 p s)
  /\ (exists k, (k <= 6)%nat /\ on (state_after k p s) = true)
  /\ (forall p' s', next p s = Some (p', s') -> on s = true ->
      reg_lo s' = reg_lo s /\ reg_hi s' = reg_hi s /\ ocr_hi s' = ocr_hi s
      /\ number is_dac (outs s') = number is_dac (outs s)).
Proof.
  intros r1 r2 r3 r4 p s R.
  assert (I : (on s = true /\ polite p) \/ (on s = false /\ exists k, (k <= 6)%nat /\ brief k p)).
  { assert (H : forall p0 s0, reach p0 s0 p s ->
      ((on s0 = true /\ polite p0) \/ (on s0 = false /\ exists k, (k <= 6)%nat /\ brief k p0)) ->
      (on s = true /\ polite p) \/ (on s = false /\ exists k, (k <= 6)%nat /\ brief k p)).
    { clear. induction 1 as [p s|p s p1 s1 p' s' N R IH|p s p' s' O R IH|p s v p' s' O V R IH];
        intros D.
      - exact D.
      - apply IH. destruct D as [(O & P)|(O & k & L & B)].
        + destruct (polite_next p s p1 s1 O P N) as [_ D]. exact D.
        + destruct (brief_next k p s O B) as (p2 & s2 & N2 & D). rewrite N in N2.
          injection N2 as <- <-.
          destruct D as [(_ & O' & P)|(k' & K & O' & B')].
          * left. split; assumption.
          * right. split; [exact O'|]. exists k'. split; [lia|exact B'].
      - apply IH. destruct D as [(_ & P)|(O' & _)]; [|congruence].
        left. split; [|exact P]. unfold isr. destruct (beat_isr _ _). exact O.
      - apply IH. destruct D as [(_ & P)|(O' & _)]; [|congruence].
        left. split; [exact O|exact P]. }
    apply (H _ _ R). right. split; [reflexivity|]. exists 1%nat. split; [lia|apply brief_main]. }
  split; [|split].
  - inversion R as [? ? E1 E2|? ? p1 s1 ? ? N R'|? ? ? ? O|? ? ? ? ? O]; subst.
    + left. split; reflexivity.
    + right. exists p1, s1. split; [exact N|]. split; [|exact R'].
      cbn in N. injection N as <- <-. reflexivity.
    + discriminate O.
    + discriminate O.
  - destruct I as [(O & _)|(O & k & L & B)].
    + exists 0%nat. split; [lia|exact O].
    + exists k. split; [exact L|apply brief_after; assumption].
  - intros p' s' N O. destruct I as [(_ & P)|(O' & _)]; [|congruence].
    destruct (polite_next p s p' s' O P N) as [K _]. exact K.
Qed.
Print Assumptions C107_interrupts.

(** A state in which interrupts are off, between the two bytes of a measurement. *)
Example C107_interrupts_case :
  exists p s, reach main (sys_init 0 0 0 0) p s
    /\ on s = false /\ on (state_after 3 p s) = false /\ on (state_after 4 p s) = true
    /\ reg_lo s = 9 /\ reg_hi s = 0.
Proof.
  set (l := repeat None 3 ++ concat (repeat (repeat (Some Beat) 100 ++ repeat None 16) 6)
            ++ repeat None 30 ++ [Some (AdcReady 777)] ++ repeat (Some Beat) 400
            ++ repeat None 7).
  exists (fst (play l main (sys_init 0 0 0 0))), (snd (play l main (sys_init 0 0 0 0))).
  split; [apply play_reach|]. vm_compute. repeat split.
Qed.
