(** Properties of the two-wire interface: C83 and C84. *)

From Coq Require Import ZArith List Bool Lia.
From Verif Require Import Base Register RegisterSpec RegisterProofs.
From Verif Require Import AtmegaRegs Atmega AtmegaSpec AtmegaProofs.
From Verif Require Import PropsAtmega PropsBoard.
From Verif Require Import Twi TwiSpec.
Import ListNotations.
Open Scope Z_scope.

(** ** Facts about histories *)

(** A device answers with bytes. *)
Definition answers_bytes (dev : device) : Prop := forall h a, 0 <= dev h a < 256.

(** Nothing but reads of the control register. *)
Definition polls (t : list twi_access) : Prop := Forall (fun x => exists v, x = TwiRead 0xbc v) t.

Lemma bus_events_app t : forall u d d',
  (forall a v, In (TwiWrite a v) t -> a <> 0xbb) -> d = d' ->
  bus_events d (t ++ u) = bus_events d t ++ bus_events d' u.
Proof.
  induction t as [|x t IH]; intros u d d' N E; [subst; reflexivity|].
  cbn [app bus_events]. destruct x as [a v|a v].
  - apply IH; [intros a' v' I; apply (N a' v'); right; exact I|exact E].
  - assert (NE : a <> 0xbb) by (apply (N a v); left; reflexivity).
    destruct (Z.eqb_spec a 0xbb); [contradiction|].
    assert (N' : forall a v, In (TwiWrite a v) t -> a <> 0xbb)
      by (intros a' v' I; apply (N a' v'); right; exact I).
    destruct ((a =? 0xbc) && Z.testbit v 7 && Z.testbit v 2);
      [cbn [app]; f_equal|]; apply IH; assumption.
Qed.

Lemma statuses_app t u : statuses (t ++ u) = statuses t ++ statuses u.
Proof.
  induction t as [|x t IH]; [reflexivity|]. cbn [app statuses].
  destruct x as [a v|a v]; [destruct (a =? 0xb9); cbn [app]; [f_equal|]|]; exact IH.
Qed.

Lemma polls_silent t d : polls t -> bus_events d t = [] /\ statuses t = [].
Proof.
  induction 1 as [|x t (v & ->) P IH]; [split; reflexivity|]. exact IH.
Qed.

Lemma polls_no_write t : polls t -> forall a v, ~ In (TwiWrite a v) t.
Proof.
  intros P a v I. unfold polls in P. rewrite Forall_forall in P.
  destruct (P _ I) as (w & E). discriminate.
Qed.

Lemma wait_polls fuel dev : forall h h', wait fuel dev h = Some h' ->
  exists t, h' = h ++ t /\ polls t.
Proof.
  induction fuel as [|fuel IH]; intros h h' E; [discriminate|]. cbn [wait] in E.
  destruct (Z.land _ _ =? 0).
  - destruct (IH _ _ E) as (t & -> & P). exists (TwiRead TWCR (dev h TWCR) :: t).
    rewrite <- app_assoc. split; [reflexivity|]. constructor; [eexists; reflexivity|exact P].
  - injection E as <-. eexists. split; [reflexivity|].
    constructor; [eexists; reflexivity|constructor].
Qed.

Lemma ev_start d u : bus_events d (TwiWrite TWCR 0xa4 :: u) = StartCondition :: bus_events d u.
Proof. reflexivity. Qed.

Lemma ev_stop d u : bus_events d (TwiWrite TWCR 0x94 :: u) = StopCondition :: bus_events d u.
Proof. reflexivity. Qed.

Lemma ev_data d b u :
  bus_events d (TwiWrite TWDR b :: TwiWrite TWCR 0x84 :: u) = Byte b :: bus_events b u.
Proof. reflexivity. Qed.

Lemma ev_quiet t d u : (forall a v, ~ In (TwiWrite a v) t) ->
  (forall d, bus_events d t = []) -> bus_events d (t ++ u) = bus_events d u.
Proof.
  intros N B. rewrite (bus_events_app t u d d), B; [reflexivity| |reflexivity].
  intros a v I. exfalso. exact (N a v I).
Qed.

Lemma st_write a v u : statuses (TwiWrite a v :: u) = statuses u.
Proof. reflexivity. Qed.

Lemma land_f8 v : 0 <= v < 256 -> Z.land v 0xf8 = 8 * (v / 8).
Proof.
  intros Hv. apply Z.bits_inj'. intros i Hi. rewrite Z.land_spec.
  replace (8 * (v / 8)) with (Z.shiftl (Z.shiftr v 3) 3)
    by (rewrite Z.shiftl_mul_pow2, Z.shiftr_div_pow2 by lia; change (2 ^ 3) with 8; lia).
  rewrite Z.shiftl_spec by lia.
  destruct (Z_lt_ge_dec i 3) as [L|G].
  - rewrite (Z.testbit_neg_r _ (i - 3)) by lia.
    assert (i = 0 \/ i = 1 \/ i = 2) as [-> | [-> | ->]] by lia; apply andb_false_r.
  - rewrite Z.shiftr_spec by lia. replace (i - 3 + 3) with i by lia.
    destruct (Z_lt_ge_dec i 8) as [L8|G8].
    + assert (i = 3 \/ i = 4 \/ i = 5 \/ i = 6 \/ i = 7) as [-> | [-> | [-> | [-> | ->]]]] by lia;
        apply andb_true_r.
    + rewrite (testbit_above v 8) by lia. reflexivity.
Qed.

Lemma expect_status_form fuel dev s h r h' :
  answers_bytes dev -> expect_status fuel dev s h = Some (r, h') ->
  exists t st, h' = h ++ t /\ (forall a v, ~ In (TwiWrite a v) t)
    /\ (forall d, bus_events d t = []) /\ statuses t = [st]
    /\ (r = false <-> st = s).
Proof.
  intros D E. unfold expect_status in E.
  destruct (wait fuel dev h) as [h1|] eqn:W; [|discriminate].
  apply wait_polls in W. destruct W as (t & -> & P).
  unfold status in E. injection E as <- <-.
  exists (t ++ [TwiRead TWSR (dev (h ++ t) TWSR)]), (8 * (dev (h ++ t) TWSR / 8)).
  split; [symmetry; apply app_assoc|]. split.
  { intros a v I. apply in_app_or in I. destruct I as [I|[I|[]]]; [|discriminate].
    exact (polls_no_write t P a v I). }
  split.
  { intros d. rewrite (bus_events_app t _ d d);
      [|intros a v I; exfalso; exact (polls_no_write t P a v I)|reflexivity].
    destruct (polls_silent t d P) as [-> _]. reflexivity. }
  split.
  { rewrite statuses_app. destruct (polls_silent t 0 P) as [_ ->]. reflexivity. }
  rewrite land_f8 by apply D. rewrite negb_false_iff. apply Z.eqb_eq.
Qed.

(** ** C83 and C84 *)

(** All that can happen when [write] ends.  It reports success exactly if the three
    status codes read are those of a start, an acknowledged address and an acknowledged
    data byte; then a start condition, the address, the address again, and a stop
    condition have been sent.  With any other status it reports an error at once, and
    does not send a stop condition. *)
Theorem C84_write_outcomes :
  forall fuel dev address b h r h',
  answers_bytes dev -> write fuel dev address b h = Some (r, h') ->
  exists t, h' = h ++ t /\ forall d,
    (r = false /\ statuses t = [0x08; 0x18; 0x28]
       /\ bus_events d t = [StartCondition; Byte address; Byte address; StopCondition])
    \/ (r = true /\ exists st, st <> 0x28 /\ statuses t = [0x08; 0x18; st]
       /\ bus_events d t = [StartCondition; Byte address; Byte address])
    \/ (r = true /\ exists st, st <> 0x18 /\ statuses t = [0x08; st]
       /\ bus_events d t = [StartCondition; Byte address])
    \/ (r = true /\ exists st, st <> 0x08 /\ statuses t = [st]
       /\ bus_events d t = [StartCondition]).
Proof.
  intros fuel dev address b h r h' D E. unfold write in E.
  destruct (expect_status fuel dev 8 (start h)) as [[r1 h1]|] eqn:E1; [|discriminate].
  destruct (expect_status_form _ _ _ _ _ _ D E1) as (t1 & s1 & -> & N1 & B1 & S1 & R1).
  unfold start in E. destruct r1.
  { injection E as <- <-. eexists. rewrite <- app_assoc. split; [reflexivity|].
    intros d. do 3 right. split; [reflexivity|]. exists s1.
    split; [intros EQ; apply R1 in EQ; discriminate|].
    cbn [app]. rewrite ev_start, st_write, S1, B1. split; reflexivity. }
  assert (EQ1 : s1 = 8) by (apply R1; reflexivity). subst s1.
  destruct (expect_status fuel dev 24 _) as [[r2 h2]|] eqn:E2; [|discriminate].
  destruct (expect_status_form _ _ _ _ _ _ D E2) as (t2 & s2 & -> & N2 & B2 & S2 & R2).
  unfold data in E. destruct r2.
  { injection E as <- <-. eexists. rewrite <- !app_assoc. split; [reflexivity|].
    intros d. do 2 right. left. split; [reflexivity|]. exists s2.
    split; [intros EQ; apply R2 in EQ; discriminate|].
    cbn [app]. rewrite ev_start, st_write, statuses_app, S1, (ev_quiet t1), ev_data, !st_write,
      S2, B2 by assumption. split; reflexivity. }
  assert (EQ2 : s2 = 24) by (apply R2; reflexivity). subst s2.
  destruct (expect_status fuel dev 40 _) as [[r3 h3]|] eqn:E3; [|discriminate].
  destruct (expect_status_form _ _ _ _ _ _ D E3) as (t3 & s3 & -> & N3 & B3 & S3 & R3).
  destruct r3.
  { injection E as <- <-. eexists. rewrite <- !app_assoc. split; [reflexivity|].
    intros d. right. left. split; [reflexivity|]. exists s3.
    split; [intros EQ; apply R3 in EQ; discriminate|].
    cbn [app]. rewrite ev_start, st_write, !statuses_app, S1, (ev_quiet t1), ev_data,
      (ev_quiet t2), ev_data, !st_write, statuses_app, S2, !st_write, S3, B3 by assumption.
    split; reflexivity. }
  assert (EQ3 : s3 = 40) by (apply R3; reflexivity). subst s3.
  unfold stop in E. injection E as <- <-. eexists. rewrite <- !app_assoc.
  split; [reflexivity|]. intros d. left. split; [reflexivity|].
  cbn [app]. rewrite ev_start, st_write, !statuses_app, S1, (ev_quiet t1), ev_data,
    (ev_quiet t2), ev_data, (ev_quiet t3), !st_write, statuses_app, S2, !st_write,
    statuses_app, S3, ev_stop by assumption.
  split; reflexivity.
Qed.
Print Assumptions C84_write_outcomes.

(** A device that answers the flag at once and the given status codes in turn. *)
Definition answering (codes : list Z) : device := fun h a =>
  if a =? 0xbc then 0x80 else nth (List.length (statuses h)) codes 0.

Example C84_write_outcomes_case :
  exists h', write 1 (answering [0x08; 0x18; 0x28]) 0x55 0x12 [] = Some (false, h')
    /\ bus_events 0 h' = [StartCondition; Byte 0x55; Byte 0x55; StopCondition].
Proof. eexists. split; reflexivity. Qed.

(** Success means all three acknowledgements. *)
Theorem C84_success_iff_acknowledged :
  forall fuel dev address b h r t,
  answers_bytes dev -> write fuel dev address b h = Some (r, h ++ t) ->
  (r = false <-> statuses t = [0x08; 0x18; 0x28]).
Proof.
  intros fuel dev address b h r t D E.
  destruct (C84_write_outcomes _ _ _ _ _ _ _ D E) as (t' & EQ & C).
  apply app_inv_head in EQ. subst t'. destruct (C 0) as [C1|[C1|[C1|C1]]].
  - tauto.
  - destruct C1 as (-> & st & N & S & _). rewrite S. split; [discriminate|congruence].
  - destruct C1 as (-> & st & N & S & _). rewrite S. split; [discriminate|congruence].
  - destruct C1 as (-> & st & N & S & _). rewrite S. split; [discriminate|congruence].
Qed.
Print Assumptions C84_success_iff_acknowledged.

Example C84_success_iff_acknowledged_case :
  exists t, write 1 (answering [0x08; 0x20; 0x28]) 0x55 0x12 [] = Some (true, [] ++ t)
    /\ statuses t = [0x08; 0x20].
Proof. eexists. split; reflexivity. Qed.

(** After an error there is no stop condition, though there always was a start. *)
Theorem C84_no_stop_after_error :
  forall fuel dev address b h t d,
  answers_bytes dev -> write fuel dev address b h = Some (true, h ++ t) ->
  In StartCondition (bus_events d t) /\ ~ In StopCondition (bus_events d t).
Proof.
  intros fuel dev address b h t d D E.
  destruct (C84_write_outcomes _ _ _ _ _ _ _ D E) as (t' & EQ & C).
  apply app_inv_head in EQ. subst t'. destruct (C d) as [C1|[C1|[C1|C1]]].
  - destruct C1 as [C1 _]. discriminate.
  - destruct C1 as (_ & st & _ & _ & ->). cbn. intuition discriminate.
  - destruct C1 as (_ & st & _ & _ & ->). cbn. intuition discriminate.
  - destruct C1 as (_ & st & _ & _ & ->). cbn. intuition discriminate.
Qed.
Print Assumptions C84_no_stop_after_error.

Example C84_no_stop_after_error_case :
  exists t, write 1 (answering [0x08; 0x20]) 0x55 0x12 [] = Some (true, [] ++ t)
    /\ bus_events 0 t = [StartCondition; Byte 0x55].
Proof. eexists. split; reflexivity. Qed.

(** A device that never sets the flag makes [write] wait for ever: it has no limit. *)
Theorem C84_waits_for_ever :
  forall dev address b h,
  (forall h' , Z.testbit (dev h' 0xbc) 7 = false) ->
  forall fuel, write fuel dev address b h = None.
Proof.
  intros dev address b h N fuel. unfold write, expect_status.
  assert (W : forall h', wait fuel dev h' = None).
  { induction fuel as [|fuel IH]; intros h'; [reflexivity|]. cbn [wait].
    replace (Z.land (dev h' TWCR) (Z.shiftl 1 TWINT)) with 0; [apply IH|].
    symmetry. apply Z.bits_inj'. intros i Hi. rewrite Z.land_spec, Z.bits_0.
    change (Z.shiftl 1 TWINT) with (2 ^ 7). rewrite Z.pow2_bits_eqb by lia.
    destruct (Z.eqb_spec 7 i) as [<-|]; [|apply andb_false_r].
    change TWCR with 0xbc. rewrite N. reflexivity. }
  rewrite W. reflexivity.
Qed.
Print Assumptions C84_waits_for_ever.

Example C84_waits_for_ever_case : forall h : list twi_access,
  Z.testbit ((fun _ _ => 0x7f) h 0xbc) 7 = false.
Proof. reflexivity. Qed.

(** It ends with a device that sets its flag at some time, whatever the status codes:
    after so many reads of the flag without another access the flag is set. *)
Theorem C84_ends :
  forall dev address b h n,
  (forall h' t, polls t -> (n <= List.length t)%nat -> Z.testbit (dev (h' ++ t) 0xbc) 7 = true) ->
  exists r h', write (Datatypes.S n) dev address b h = Some (r, h').
Proof.
  intros dev address b h n N.
  assert (W : forall h0, exists h1, wait (Datatypes.S n) dev h0 = Some h1).
  { intros h0.
    assert (G : forall k t, polls t -> (n <= k + List.length t)%nat ->
                exists h1, wait (Datatypes.S k) dev (h0 ++ t) = Some h1).
    { induction k as [|k IH]; intros t P L.
      - cbn [wait].
        assert (NZ : Z.land (dev (h0 ++ t) TWCR) (Z.shiftl 1 TWINT) <> 0).
        { intros EQ. apply (f_equal (fun x => Z.testbit x 7)) in EQ.
          rewrite Z.land_spec, Z.bits_0 in EQ. change TWCR with 0xbc in EQ.
          rewrite N in EQ by (exact P || lia). discriminate. }
        destruct (Z.eqb_spec (Z.land (dev (h0 ++ t) TWCR) (Z.shiftl 1 TWINT)) 0);
          [contradiction|eexists; reflexivity].
      - cbn [wait]. destruct (Z.land _ _ =? 0); [|eexists; reflexivity].
        rewrite <- app_assoc. apply IH.
        + apply Forall_app. split; [exact P|]. constructor; [eexists; reflexivity|constructor].
        + rewrite app_length. cbn. lia. }
    destruct (G n [] (Forall_nil _) ltac:(lia)) as (h1 & E). rewrite app_nil_r in E. eauto. }
  assert (X : forall s h0, exists r h1, expect_status (Datatypes.S n) dev s h0 = Some (r, h1)).
  { intros s h0. unfold expect_status. destruct (W h0) as (h1 & ->). cbn. eauto. }
  unfold write.
  destruct (X 8 (start h)) as (r1 & h1 & ->). destruct r1; [eauto|].
  destruct (X 24 (data address h1)) as (r2 & h2 & ->). destruct r2; [eauto|].
  destruct (X 40 (data address h2)) as (r3 & h3 & ->). destruct r3; eauto.
Qed.
Print Assumptions C84_ends.

Example C84_ends_case :
  exists h', write 3 (fun h a => if a =? 0xbc then
                                   match rev h with
                                   | TwiRead _ _ :: TwiRead _ _ :: _ => 0x80
                                   | _ => 0
                                   end else 0x08) 0x55 0x12 [] = Some (true, h').
Proof. eexists. reflexivity. Qed.

(** The byte to be written is ignored: it never reaches the bus, whether [write]
    succeeds or not, and a successful [write] sends the address in its place. *)
Theorem C83_byte_never_sent :
  forall fuel dev address b h r t d,
  answers_bytes dev -> write fuel dev address b h = Some (r, h ++ t) ->
  (b <> address -> ~ In (Byte b) (bus_events d t))
  /\ (r = false ->
      bus_events d t = [StartCondition; Byte address; Byte address; StopCondition])
  /\ forall b', write fuel dev address b' h = Some (r, h ++ t).
Proof.
  intros fuel dev address b h r t d D E.
  destruct (C84_write_outcomes _ _ _ _ _ _ _ D E) as (t' & EQ & C).
  apply app_inv_head in EQ. subst t'. split; [|split].
  - intros NE I.
    assert (F : forall e, In e (bus_events d t) ->
                  e = StartCondition \/ e = StopCondition \/ e = Byte address).
    { intros e. destruct (C d) as [C1|[C1|[C1|C1]]].
      - destruct C1 as (_ & _ & ->). cbn. intuition congruence.
      - destruct C1 as (_ & st & _ & _ & ->). cbn. intuition congruence.
      - destruct C1 as (_ & st & _ & _ & ->). cbn. intuition congruence.
      - destruct C1 as (_ & st & _ & _ & ->). cbn. intuition congruence. }
    destruct (F _ I) as [X|[X|X]]; congruence.
  - intros ->. destruct (C d) as [C1|[C1|[C1|C1]]]; [tauto| | |];
      destruct C1 as [C1 _]; discriminate.
  - intros b'. exact E.
Qed.
Print Assumptions C83_byte_never_sent.

Example C83_byte_never_sent_case :
  exists t, write 1 (answering [0x08; 0x18; 0x28]) 0x55 0x12 [] = Some (false, [] ++ t)
    /\ 0x12 <> 0x55.
Proof. eexists. split; [reflexivity|discriminate]. Qed.

(** So a successful [write] of a byte other than the address is never the transfer asked
    for: start, address, byte, stop. *)
Theorem C83_transfer_refuted :
  forall fuel dev address b h t d,
  answers_bytes dev -> b <> address -> write fuel dev address b h = Some (false, h ++ t) ->
  bus_events d t <> [StartCondition; Byte address; Byte b; StopCondition].
Proof.
  intros fuel dev address b h t d D NE E.
  destruct (C83_byte_never_sent _ _ _ _ _ _ _ d D E) as (_ & S & _).
  rewrite S by reflexivity. congruence.
Qed.
Print Assumptions C83_transfer_refuted.

Example C83_transfer_refuted_case : answers_bytes (answering [0x08; 0x18; 0x28]).
Proof.
  intros h a. unfold answering. destruct (a =? 0xbc); [lia|].
  destruct (List.length (statuses h)) as [|[|[|[|n]]]]; cbn; lia.
Qed.

(** ** C105: initialisation *)

(** The initialisation of the interface: the prescaler and with it all of TWSR is zero
    whatever prescaler is asked for, TWBR is the rate, the interface is enabled with its
    other control bits off and a pending flag left pending.  The bits of port C for the
    two wires are not set but end up set exactly if they equalled the level of the pin;
    nothing else changes. *)
Theorem C105_twi_init :
  forall br ps m, 0 <= br < 256 -> bytes_ok (byte m) ->
  exists m', twi_init atmega br ps m = Some m'
    /\ same_but [0x28; 0xb8; 0xb9; 0xbc] (byte m) (byte m')
    /\ byte m' 0xb8 = br /\ byte m' 0xb9 = 0
    /\ (forall i, 0 <= i < 8 ->
        Z.testbit (byte m' 0xbc) i = if i =? 7 then Z.testbit (byte m 0xbc) 7 else (i =? 2))
    /\ (forall i, 0 <= i < 8 ->
        Z.testbit (byte m' 0x28) i
        = if (i =? 4) || (i =? 5)
          then Bool.eqb (Z.testbit (byte m 0x28) i) (Z.testbit (byte m 0x26) i)
          else Z.testbit (byte m 0x28) i).
Proof.
  intros br ps m Hbr H. unfold twi_init.
  destruct (C103_pin_writes PortC 4 m ltac:(lia) H) as ((m1 & E1 & B1) & _ & _).
  rewrite (seq_some _ _ _ _ E1). pose proof (byte_becomes_ok _ _ _ _ H B1) as O1.
  destruct (C103_pin_writes PortC 5 m1 ltac:(lia) O1) as ((m2 & E2 & B2) & _ & _).
  rewrite (seq_some _ _ _ _ E2). pose proof (byte_becomes_ok _ _ _ _ O1 B2) as O2.
  unfold port_at, pin_at in B1, B2.
  destruct B1 as (N1 & _ & T1). destruct B2 as (N2 & _ & T2).
  assert (PL : forall a, In a [0xb8; 0xb9] -> forall v mem c,
                 atmega a v mem c = if c =? a then v else mem c).
  { intros a I. apply (atmega_plain W8 a); [|left; reflexivity].
    intros b [->|[D _]]; [|discriminate D].
    cbn [In] in I. destruct I as [<-|[<-|[]]]; split; reflexivity. }
  eexists. split; [reflexivity|]. cbn [store byte].
  assert (FB : flag_bits 188 = 128) by reflexivity.
  assert (V : forall c, atmega TWCR (Z.shiftl 1 TWEN) (atmega TWBR br (atmega TWSR 0 (byte m2))) c
    = if c =? 0xbc then Z.lor 4 (Z.land (byte m2 0xbc) 128)
      else if c =? 0xb8 then br else if c =? 0xb9 then 0 else byte m2 c).
  { intros c. change TWCR with 0xbc. change TWBR with 0xb8. change TWSR with 0xb9.
    unfold atmega at 1. change (is_pin 0xbc) with false. cbv iota. rewrite FB.
    rewrite !PL by (cbn; tauto).
    destruct (Z.eqb_spec c 0xbc) as [->|NE].
    - change (0xbc =? 0xb8) with false. change (0xbc =? 0xb9) with false. cbv iota.
      change (Z.shiftl 1 TWEN) with 4. change (Z.land 4 (Z.lnot 128)) with 4. f_equal.
      rewrite <- Z.land_assoc. change (Z.land 128 (Z.lnot 4)) with 128. reflexivity.
    - reflexivity. }
  split; [|split; [|split; [|split]]].
  - intros c NI. cbn [In] in NI. rewrite V.
    destruct (Z.eqb_spec c 0xbc), (Z.eqb_spec c 0xb8), (Z.eqb_spec c 0xb9); try lia.
    rewrite N2, N1 by lia. reflexivity.
  - rewrite V. reflexivity.
  - rewrite V. reflexivity.
  - intros i Hi. rewrite V. change (0xbc =? 0xbc) with true. cbv iota.
    rewrite Z.lor_spec, Z.land_spec. rewrite N2, N1 by lia. revert i Hi. apply small_bits;
      rewrite ?andb_false_r, ?andb_true_r; reflexivity.
  - intros i Hi. rewrite V. change (0x28 =? 0xbc) with false. change (0x28 =? 0xb8) with false.
    change (0x28 =? 0xb9) with false. cbv iota. rewrite T2, T1, (N1 0x26) by lia.
    destruct (Z.eqb_spec i 4) as [->|N4]; [|destruct (Z.eqb_spec i 5) as [->|N5]]; cbn [orb Z.eqb Pos.eqb];
      destruct (Z.testbit (byte m 40) _), (Z.testbit (byte m 38) _); reflexivity.
Qed.
Print Assumptions C105_twi_init.

Example C105_twi_init_case :
  exists m', twi_init atmega 0x0c 2 (Machine (fun c => if c =? 0x26 then 0x30 else 0) []) = Some m'
    /\ byte m' 0x28 = 0 /\ byte m' 0xb9 = 0 /\ byte m' 0xb8 = 0x0c.
Proof. eexists. split; [reflexivity|]. repeat split. Qed.

(** So with the wires idle, both high, and their port bits clear, as after a reset, the
    pull-ups are not switched on, and a prescaler other than 1 is never set. *)
Theorem C105_pull_ups_refuted :
  forall br ps m, 0 <= br < 256 -> bytes_ok (byte m) ->
  Z.testbit (byte m 0x26) 4 = true -> Z.testbit (byte m 0x26) 5 = true ->
  Z.testbit (byte m 0x28) 4 = false -> Z.testbit (byte m 0x28) 5 = false ->
  exists m', twi_init atmega br ps m = Some m'
    /\ Z.testbit (byte m' 0x28) 4 = false /\ Z.testbit (byte m' 0x28) 5 = false
    /\ (0 < ps < 4 -> byte m' 0xb9 mod 4 <> ps).
Proof.
  intros br ps m Hb H P4 P5 Q4 Q5.
  destruct (C105_twi_init br ps m Hb H) as (m' & E & _ & _ & S & _ & B).
  exists m'. split; [exact E|]. rewrite (B 4), (B 5) by lia. cbn [Z.eqb Pos.eqb orb].
  rewrite P4, P5, Q4, Q5. repeat split. intros Hp. rewrite S. cbn. lia.
Qed.
Print Assumptions C105_pull_ups_refuted.

Example C105_pull_ups_refuted_case :
  Z.testbit 0x30 4 = true /\ Z.testbit 0x30 5 = true /\ Z.testbit 0x0f 4 = false.
Proof. repeat split. Qed.

(** ** C106: the functions that use register fields *)

(** The register accesses a machine recorded, as a history of the interface. *)
Definition twi_history (l : list access) : list twi_access :=
  map (fun x => match x with Rd _ a => TwiRead a 0 | Wr _ a v => TwiWrite a v end) l.

Lemma lazy_trace a fvs m :
  fvs <> [] -> fields_of W8 a fvs -> bytes_ok (byte m) ->
  exists c, lazy_statement atmega fvs m
            = Some (store atmega W8 a c (Machine (byte m) (bus m ++ [Rd W8 a])))
    /\ 0 <= c < 256
    /\ forall i, 0 <= i < 8 ->
       Z.testbit c i = if coveredb fvs i then joinedb fvs i else Z.testbit (byte m a) i.
Proof.
  intros NE HFs H.
  destruct (lazy_statement_form W8 a fvs m NE HFs) as (c & FW).
  destruct (lazy_statement_updated _ W8 a fvs m NE HFs (storing_plain' _ _) H)
    as (m' & c' & W1 & W2 & W3 & W4 & W5 & W6).
  exists c. split; [apply FW|].
  rewrite FW in W1. apply Some_eq in W1.
  assert (EC : c = c').
  { rewrite <- W1 in W5. cbn [store bus] in W5. rewrite <- app_assoc in W5.
    apply app_inv_head in W5. injection W5 as E. exact E. }
  rewrite EC. split; [rewrite <- W2; exact (W4 a)|].
  intros i Hi. destruct (W6 i Hi) as [A B].
  destruct (coveredb fvs i) eqn:C.
  - apply coveredb_spec in C. specialize (A C).
    destruct (joinedb fvs i) eqn:J.
    + apply A, joinedb_spec, J.
    + destruct (Z.testbit c' i) eqn:T; [|reflexivity].
      exfalso. assert (joinedb fvs i = true) by (apply joinedb_spec, A; reflexivity). congruence.
  - apply B. intros X. apply coveredb_spec in X. congruence.
Qed.

Lemma store_twcr c m : 0 <= c < 256 ->  bytes_ok (byte m) ->
  byte_becomes 0xbc (byte m) (byte (store atmega W8 0xbc c m))
    (fun i => if i =? 7 then Z.testbit (byte m 0xbc) 7 && negb (Z.testbit c 7) else Z.testbit c i).
Proof.
  intros Hc H.
  assert (HF : flag_register atmega 0xbc (flag_bits 0xbc))
    by (apply atmega_flag_register; reflexivity).
  refine (byte_becomes_ext _ _ _ _ _ _ (store_flags atmega 0xbc (flag_bits 0xbc) c m (bus m) HF H Hc)).
  intros i Hi. unfold after.
  assert (FB : forall j, 0 <= j < 8 -> Z.testbit (flag_bits 0xbc) j = (j =? 7))
    by (apply small_bits; reflexivity).
  rewrite FB by exact Hi. destruct (Z.eqb_spec i 7) as [->|]; reflexivity.
Qed.

(** [detail_x::data] after [detail_x::start] does not send the byte but another start
    condition: the start bit is still set in the control register, and clearing the flag
    writes it back.  For every state in which the interface is enabled. *)
Theorem C106_data_sends_start :
  forall b m d, 0 <= b < 256 -> bytes_ok (byte m) -> Z.testbit (byte m 0xbc) 2 = true ->
  exists m1 m2 t,
    x_start atmega m = Some m1 /\ x_data atmega b m1 = Some m2
    /\ bus m2 = bus m ++ t
    /\ bus_events d (twi_history t) = [StartCondition; StartCondition].
Proof.
  intros b m d Hb H EN.
  destruct (lazy_trace 0xbc [(twcr_twint, 1); (twcr_twsta, 1)] m) as (c & E1 & Hc & Bc);
    [discriminate|repeat constructor; unfold valid_field; cbn; lia|exact H|].
  set (m0 := Machine (byte m) (bus m ++ [Rd W8 0xbc])) in *.
  pose proof (store_twcr c m0 Hc H) as B1.
  pose proof (byte_becomes_ok _ _ _ _ H B1) as O1. destruct B1 as (_ & _ & T1).
  set (m1 := store atmega W8 0xbc c m0) in *.
  assert (W : field_write atmega twi_twdr b m1 = Some (store atmega W8 0xbb (trunc W8 b) m1))
    by reflexivity.
  set (m1' := store atmega W8 0xbb (trunc W8 b) m1) in *.
  assert (PL : forall v mem c, atmega 0xbb v mem c = if c =? 0xbb then v else mem c).
  { apply (atmega_plain W8 0xbb); [|left; reflexivity].
    intros x [->|[D _]]; [split; reflexivity|discriminate D]. }
  assert (BC : byte m1' 0xbc = byte m1 0xbc).
  { unfold m1'. cbn [store byte]. rewrite PL. reflexivity. }
  exists m1, (clear_bit_w1 atmega W8 0xbc 7 m1').
  set (v := trunc W8 (Z.lor (content W8 0xbc (byte m1')) (bitmask W8 [7]))).
  exists [Rd W8 0xbc; Wr W8 0xbc c; Wr W8 0xbb (trunc W8 b); Rd W8 0xbc; Wr W8 0xbc v].
  split; [exact E1|]. split; [unfold x_data; rewrite (seq_some _ _ _ _ W); reflexivity|].
  split.
  { unfold clear_bit_w1. rewrite load_eq. cbn [store bus]. unfold m1'. cbn [store bus].
    unfold m1. cbn [store bus]. unfold m0. cbn [bus]. rewrite <- !app_assoc. reflexivity. }
  assert (PL2 : plain (fun a v mem c => if c =? a then v else mem c) W8 0xbc)
    by apply storing_plain'.
  assert (O1' : bytes_ok (byte m1')).
  { intros x. unfold m1'. cbn [store byte]. rewrite PL.
    destruct (x =? 0xbb); [apply (trunc_range W8)|apply O1]. }
  destruct (set_bit_updated PL2 7 m1' O1' ltac:(cbn; lia)) as [_ Bv].
  assert (V7 : Z.testbit v 7 = true) by (apply (Bv 7); cbn; lia).
  assert (V2 : Z.testbit v 2 = true).
  { unfold v. rewrite (Bv 2) by (cbn; lia). cbn [Z.eqb Pos.eqb content].
    rewrite BC, T1 by lia. cbn [Z.eqb Pos.eqb]. rewrite Bc by lia. exact EN. }
  assert (V5 : Z.testbit v 5 = true).
  { unfold v. rewrite (Bv 5) by (cbn; lia). cbn [Z.eqb Pos.eqb content].
    rewrite BC, T1 by lia. cbn [Z.eqb Pos.eqb]. rewrite Bc by lia. reflexivity. }
  assert (C7 : Z.testbit c 7 = true) by (rewrite Bc by lia; reflexivity).
  assert (C5 : Z.testbit c 5 = true) by (rewrite Bc by lia; reflexivity).
  assert (C2 : Z.testbit c 2 = true) by (rewrite Bc by lia; exact EN).
  unfold twi_history. cbn [map bus_events Z.eqb Pos.eqb].
  rewrite C7, C5, C2, V7, V5, V2. reflexivity.
Qed.
Print Assumptions C106_data_sends_start.

Example C106_data_sends_start_case :
  exists m1 m2,
    x_start atmega (Machine (fun c => if c =? 0xbc then 0x04 else 0) []) = Some m1
    /\ x_data atmega 0x55 m1 = Some m2
    /\ bus m2 = [Rd W8 0xbc; Wr W8 0xbc 0xa4; Wr W8 0xbb 0x55; Rd W8 0xbc; Wr W8 0xbc 0xa4].
Proof. eexists _, _. split; [reflexivity|]. split; reflexivity. Qed.
