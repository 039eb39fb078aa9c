(** Properties of the settings of the ATmega328 header: C99 and C100. *)

From Coq Require Import ZArith List Bool Lia.
From Verif Require Import Base Register RegisterSpec RegisterProofs.
From Verif Require Import AtmegaRegs Atmega AtmegaSpec AtmegaProofs.
From Verif Require Import PropsAtmega.
Import ListNotations.
Open Scope Z_scope.

(** ** C99: settings *)

(** Where the data sheet of the ATmega328 has the settings, in the order of
    [settings]: address, high and low bit. *)
Definition places : list (Z * Z * Z) :=
  [ (* EECR *) (0x3f, 5, 4); (0x3f, 2, 2); (0x3f, 1, 1); (0x3f, 0, 0); (0x3f, 3, 3);
    (* TCCR0B, TCCR0A *) (0x45, 2, 0); (0x44, 7, 6); (0x44, 5, 4);
    (* TIMSK0 *) (0x6e, 1, 1); (0x6e, 2, 2); (0x6e, 0, 0);
    (* TCCR1B *) (0x81, 2, 0); (0x81, 6, 6);
    (* TCCR1A *) (0x80, 7, 6); (0x80, 5, 4);
    (* TIMSK1 *) (0x6f, 5, 5); (0x6f, 1, 1); (0x6f, 2, 2); (0x6f, 0, 0);
    (* GTCCR *) (0x43, 7, 7); (0x43, 1, 1); (0x43, 0, 0);
    (* TWAR, TWCR *) (0xba, 7, 1); (0xbc, 2, 2); (0xbc, 0, 0); (0xba, 0, 0);
    (* ACSR *) (0x50, 6, 6); (0x50, 1, 0); (0x50, 3, 3); (0x50, 2, 2); (0x50, 7, 7);
    (* ADMUX *) (0x7c, 5, 5); (0x7c, 7, 6); (0x7c, 3, 0);
    (* ADCSRA, ADCSRB *) (0x7a, 7, 7); (0x7a, 3, 3); (0x7a, 5, 5); (0x7b, 6, 6);
    (0x7b, 2, 0); (0x7a, 2, 0);
    (* EICRA *) (0x69, 1, 0); (0x69, 3, 2);
    (* TCCR1B *) (0x81, 7, 7) ].

(** The bits of a byte that are flags cleared by writing a one, of the registers that
    have settings. *)
Definition flag_of (a i : Z) : bool :=
  ((a =? 0x50) && (i =? 4)) || ((a =? 0x7a) && (i =? 4)) || ((a =? 0xbc) && (i =? 7)).

Definition good_place (sp : setting * (Z * Z * Z)) : bool :=
  let '(s, (a, hi, lo)) := sp in
  match s_set s, s_current s with
  | Field W8 RW a1 hi1 lo1, Field W8 RW a2 hi2 lo2 =>
    (a1 =? a) && (hi1 =? hi) && (lo1 =? lo) && (a2 =? a) && (hi2 =? hi) && (lo2 =? lo)
    && (0 <=? lo) && (lo <=? hi) && (hi <? 8) && (s_count s =? 2 ^ (hi - lo + 1))
    && negb (is_pin a)
    && forallb (fun i => Bool.eqb (Z.testbit (flag_bits a) i) (flag_of a i))
         [0; 1; 2; 3; 4; 5; 6; 7]
    && forallb (fun i => negb ((lo <=? i) && (i <=? hi) && flag_of a i))
         [0; 1; 2; 3; 4; 5; 6; 7]
  | _, _ => false
  end.

Lemma good_places : forallb good_place (combine settings places) = true.
Proof. reflexivity. Qed.

Lemma good_place_spec s a hi lo :
  good_place (s, (a, hi, lo)) = true ->
  s_set s = bitfield8 RW a hi lo /\ s_current s = bitfield8 RW a hi lo
  /\ 0 <= lo <= hi /\ hi < 8 /\ s_count s = 2 ^ (hi - lo + 1) /\ is_pin a = false
  /\ (forall i, 0 <= i < 8 -> Z.testbit (flag_bits a) i = flag_of a i)
  /\ (forall i, lo <= i <= hi -> flag_of a i = false).
Proof.
  unfold good_place. destruct s as [[w1 io1 a1 hi1 lo1] [w2 io2 a2 hi2 lo2] n].
  cbn [s_set s_current s_count].
  destruct w1, io1; try discriminate. destruct w2, io2; try discriminate.
  rewrite !andb_true_iff, negb_true_iff, !Z.eqb_eq, !Z.leb_le, Z.ltb_lt.
  intros ((((((((((((E1 & E2) & E3) & E4) & E5) & E6) & L0) & L1) & L2) & L3) & L4) & L5) & L6).
  subst. rewrite forallb_forall in L5, L6.
  assert (IN : forall i, 0 <= i < 8 -> In i [0; 1; 2; 3; 4; 5; 6; 7])
    by (intros i Hi; cbn [In]; lia).
  split; [reflexivity|]. split; [reflexivity|]. split; [lia|]. split; [lia|].
  split; [lia|]. split; [exact L4|]. split.
  - intros i Hi. apply eqb_prop, L5, IN, Hi.
  - intros i Hi. specialize (L6 i (IN i ltac:(lia))).
    destruct (Z.leb_spec lo i), (Z.leb_spec i hi); try lia. cbn [andb] in L6.
    apply negb_true_iff in L6. exact L6.
Qed.

Lemma in_combine_place s p : In (s, p) (combine settings places) -> good_place (s, p) = true.
Proof. intros I. exact (proj1 (forallb_forall _ _) good_places _ I). Qed.

(** Every setting has a place. *)
Lemma settings_placed : length settings = length places.
Proof. reflexivity. Qed.

(** Making a setting with any of its enumerators puts the number at its place in the
    data sheet; no other register changes, nor any other bit of the register but for
    interrupt flags, which are cleared; [current] gives the enumerator back.  There is an
    enumerator for every number that fits. *)
Theorem C99_setting :
  forall s a hi lo v m,
  In (s, (a, hi, lo)) (combine settings places) -> 0 <= v < 2 ^ (hi - lo + 1) ->
  bytes_ok (byte m) ->
  s_count s = 2 ^ (hi - lo + 1) /\ exists m' m'',
    set_statement atmega [(s, v)] m = Some m'
    /\ byte m' a / 2 ^ lo mod 2 ^ (hi - lo + 1) = v
    /\ byte_becomes a (byte m) (byte m')
         (fun i => if (lo <=? i) && (i <=? hi) then Z.testbit v (i - lo)
                   else Z.testbit (byte m a) i && negb (flag_of a i))
    /\ current s m' = Some (v, m'') /\ byte m'' = byte m'.
Proof.
  intros s a hi lo v m HI Hv H.
  destruct (good_place_spec s a hi lo (in_combine_place _ _ HI))
    as (G1 & G2 & G3 & G4 & G5 & G6 & G7 & G8). split; [exact G5|].
  unfold set_statement, current. cbn [map fst snd]. rewrite G1, G2.
  set (f := bitfield8 RW a hi lo).
  assert (V : valid_field f) by (unfold valid_field; cbn; lia).
  destruct (lazy_statement_fields atmega a [(f, v)] m (flag_bits a))
    as (m' & E & O & S & F & N).
  - discriminate.
  - repeat constructor; cbn; lia.
  - repeat constructor.
  - constructor; [|constructor]. cbn. unfold field_bits; cbn. lia.
  - intros i C. inversion C as [? ? C1|? ? C1]; subst; [|inversion C1].
    unfold in_field in C1. cbn in C1. rewrite G7 by lia. apply G8. lia.
  - apply atmega_flag_register, G6.
  - exact H.
  - assert (B : byte_becomes a (byte m) (byte m')
         (fun i => if (lo <=? i) && (i <=? hi) then Z.testbit v (i - lo)
                   else Z.testbit (byte m a) i && negb (flag_of a i))).
    { assert (KEPT : forall i, 0 <= i < 8 -> ~ (lo <= i <= hi) ->
                Z.testbit (byte m' a) i = Z.testbit (byte m a) i && negb (flag_of a i)).
      { intros i Hi NI. rewrite N, G7; [|exact Hi|exact Hi|].
        - destruct (flag_of a i); cbn [negb];
            [rewrite andb_false_r|rewrite andb_true_r]; reflexivity.
        - intros C. inversion C as [? ? C1|? ? C1]; subst; [exact (NI C1)|inversion C1]. }
      split; [exact S|]. split; [apply O|]. intros i Hi.
      destruct (Z.leb_spec lo i) as [L|L]; [destruct (Z.leb_spec i hi) as [L'|L']|].
      - cbn [andb]. apply (F f v i); [left; reflexivity|]. unfold in_field; cbn; lia.
      - cbn [andb]. apply KEPT; [exact Hi|lia].
      - cbn [andb]. apply KEPT; [exact Hi|lia]. }
    assert (Q : byte m' a / 2 ^ lo mod 2 ^ (hi - lo + 1) = v).
    { apply byte_field_fit; [lia|lia|]. intros i Hi. destruct B as (_ & _ & B).
      rewrite B by lia. destruct (Z.leb_spec lo i), (Z.leb_spec i hi); try lia. reflexivity. }
    destruct (field_read_byte f m' eq_refl eq_refl V O) as (m'' & B'' & R).
    exists m', m''. split; [exact E|]. split; [exact Q|]. split; [exact B|].
    split; [|exact B''].
    cbn [f_addr f_lo f_hi f bitfield8] in R. rewrite Q in R. exact R.
Qed.
Print Assumptions C99_setting.

Example C99_setting_case :
  In (set_adc_input_channel, (0x7c, 3, 0)) (combine settings places)
  /\ exists m', set_statement atmega [(set_adc_input_channel, 14)] (Machine (fun _ => 0xe1) [])
                = Some m' /\ byte m' 0x7c = 0xee.
Proof. split; [cbn; tauto|]. eexists. split; reflexivity. Qed.

(** Settings of one register joined with commas: each takes its value. *)
Theorem C99_joined_settings :
  forall l a m,
  l <> [] ->
  Forall (fun sv => exists hi lo, In (fst sv, (a, hi, lo)) (combine settings places)
                    /\ 0 <= snd sv < s_count (fst sv)) l ->
  ForallOrdPairs (fun x y => disjoint (s_set (fst x)) (s_set (fst y))) l ->
  bytes_ok (byte m) ->
  exists m',
    set_statement atmega l m = Some m'
    /\ (forall c, c <> a -> byte m' c = byte m c)
    /\ (forall s v, In (s, v) l ->
        exists m'', current s m' = Some (v, m'') /\ byte m'' = byte m')
    /\ (forall i, 0 <= i < 8 -> (forall s v, In (s, v) l -> ~ in_field (s_set s) i) ->
        Z.testbit (byte m' a) i = Z.testbit (byte m a) i && negb (flag_of a i)).
Proof.
  intros l a m NE HL HD H. unfold set_statement.
  set (g := fun sv : setting * Z => (s_set (fst sv), snd sv)).
  assert (GP : forall s v, In (s, v) l ->
    exists hi lo, s_set s = bitfield8 RW a hi lo /\ s_current s = bitfield8 RW a hi lo
      /\ 0 <= lo <= hi /\ hi < 8 /\ 0 <= v < 2 ^ (hi - lo + 1) /\ is_pin a = false
      /\ (forall i, 0 <= i < 8 -> Z.testbit (flag_bits a) i = flag_of a i)
      /\ (forall i, lo <= i <= hi -> flag_of a i = false)).
  { intros s v I. rewrite Forall_forall in HL.
    destruct (HL _ I) as (hi & lo & P & R). cbn [fst snd] in *.
    destruct (good_place_spec s a hi lo (in_combine_place _ _ P))
      as (G1 & G2 & G3 & G4 & G5 & G6 & G7 & G8).
    exists hi, lo. repeat (split; [first [assumption|lia]|]). assumption. }
  assert (FO : fields_of W8 a (map g l)).
  { apply Forall_forall. intros [f v] I. apply in_map_iff in I.
    destruct I as ([s u] & E & I). unfold g in E. cbn [fst snd] in E.
    destruct (GP s u I) as (hi & lo & G1 & _ & G3 & G4 & _).
    assert (f = bitfield8 RW a hi lo) by congruence. subst f. cbn.
    unfold valid_field; cbn. repeat split; lia. }
  assert (PIN : is_pin a = false
                /\ forall i, 0 <= i < 8 -> Z.testbit (flag_bits a) i = flag_of a i).
  { destruct l as [|[s v] l]; [contradiction|].
    destruct (GP s v (or_introl eq_refl)) as (hi & lo & _ & _ & _ & _ & _ & G6 & G7 & _).
    split; assumption. }
  destruct PIN as [PIN FL].
  destruct (lazy_statement_fields atmega a (map g l) m (flag_bits a))
    as (m' & E & O & S & F & N).
  - destruct l; [contradiction|discriminate].
  - exact FO.
  - clear - HD. unfold all_disjoint. induction HD as [|x l HX HD IH]; [constructor|].
    cbn [map]. constructor; [|exact IH]. rewrite Forall_forall in HX |- *.
    intros f I. apply in_map_iff in I. destruct I as (fv & <- & I).
    apply in_map_iff in I. destruct I as (y & <- & I). cbn [fst g]. apply HX, I.
  - apply Forall_forall. intros [f v] I. apply in_map_iff in I.
    destruct I as ([s u] & E & I). unfold g in E. cbn [fst snd] in E.
    destruct (GP s u I) as (hi & lo & G1 & _ & _ & _ & G5 & _).
    assert (f = bitfield8 RW a hi lo) by congruence. assert (u = v) by congruence.
    subst f u. cbn. unfold field_bits; cbn. exact G5.
  - intros i C. unfold covered in C. apply Exists_exists in C.
    destruct C as ([f v] & I & IFD). apply in_map_iff in I.
    destruct I as ([s u] & E & I). unfold g in E. cbn [fst snd] in E.
    destruct (GP s u I) as (hi & lo & G1 & _ & G3 & G4 & _ & _ & _ & G8).
    assert (f = bitfield8 RW a hi lo) by congruence. subst f.
    unfold in_field in IFD. cbn in IFD. rewrite FL by lia. apply G8. lia.
  - apply atmega_flag_register, PIN.
  - exact H.
  - exists m'. split; [exact E|]. split; [exact S|]. split.
    + intros s v I. destruct (GP s v I) as (hi & lo & G1 & G2 & G3 & G4 & G5 & _).
      unfold current. rewrite G2.
      destruct (field_read_byte (bitfield8 RW a hi lo) m' eq_refl eq_refl)
        as (m'' & B'' & R); [unfold valid_field; cbn; lia|exact O|].
      exists m''. split; [|exact B'']. cbn [f_addr f_lo f_hi bitfield8] in R. rewrite R.
      do 2 f_equal. apply byte_field_fit; [lia|exact G5|]. intros i Hi.
      apply (F (bitfield8 RW a hi lo) v i); [|unfold in_field; cbn; lia].
      apply in_map_iff. exists (s, v). split; [unfold g; cbn; rewrite G1; reflexivity|exact I].
    + intros i Hi NI. rewrite N, FL; [|exact Hi|exact Hi|].
      * destruct (flag_of a i); cbn [negb]; [rewrite andb_false_r|rewrite andb_true_r]; reflexivity.
      * intros C. apply Exists_exists in C. destruct C as ([f v] & I & IFD).
        apply in_map_iff in I. destruct I as ([s u] & E' & I). unfold g in E'.
        cbn [fst snd] in *. apply (NI s u I). congruence.
Qed.
Print Assumptions C99_joined_settings.

Example C99_joined_settings_case :
  In (set_adc_input_reference, (0x7c, 7, 6)) (combine settings places)
  /\ disjoint (s_set set_adc_input_reference) (s_set set_adc_input_channel)
  /\ exists m', set_statement atmega
                  [(set_adc_input_reference, 3); (set_adc_input_channel, 9)]
                  (Machine (fun _ => 0x20) []) = Some m' /\ byte m' 0x7c = 0xe9.
Proof.
  split; [cbn; tauto|]. split; [intros i; unfold in_field; cbn; lia|].
  eexists. split; reflexivity.
Qed.

(** ** C100: settings written at once *)

(** Their places: width, address, high and low bit. *)
Definition now_places : list (width * Z * Z * Z) :=
  [(W16, 0x41, 15, 0); (W8, 0x40, 7, 0); (W8, 0x3d, 0, 0); (W8, 0x3d, 1, 1);
   (W8, 0x68, 0, 0); (W8, 0x68, 1, 1); (W8, 0x68, 2, 2);
   (W8, 0x6b, 7, 0); (W8, 0x6c, 7, 0); (W8, 0x6d, 7, 0);
   (W8, 0x46, 7, 0); (W16, 0x84, 15, 0); (W8, 0xbb, 7, 0); (W8, 0xb8, 7, 0);
   (W8, 0xb9, 1, 0)].

Lemma now_place s w a hi lo :
  In (s, (w, a, hi, lo)) (combine now_settings now_places) ->
  s_set s = Field w RW a hi lo /\ s_current s = Field w RW a hi lo
  /\ 0 <= lo <= hi /\ hi < nbits w /\ s_count s = 2 ^ (hi - lo + 1)
  /\ plain atmega w a.
Proof.
  intros HI. cbn [combine now_settings now_places In] in HI.
  repeat (destruct HI as [HI|HI];
          [injection HI as <- <- <- <- <-;
           split; [reflexivity|]; split; [reflexivity|]; split; [lia|];
           split; [cbn; lia|]; split; [reflexivity|];
           apply atmega_plain; intros b [->|[D ->]]; try discriminate D;
           split; reflexivity|]).
  contradiction.
Qed.

(** Making such a setting puts the number at its place, changes nothing else, and reads
    back. *)
Theorem C100_immediate_setting :
  forall s w a hi lo v m,
  In (s, (w, a, hi, lo)) (combine now_settings now_places) -> 0 <= v < s_count s ->
  bytes_ok (byte m) ->
  exists m' m'',
    set_now atmega s v m = Some m'
    /\ content w a (byte m') / 2 ^ lo mod 2 ^ (hi - lo + 1) = v
    /\ (forall i, 0 <= i < nbits w -> ~ (lo <= i <= hi) ->
        Z.testbit (content w a (byte m')) i = Z.testbit (content w a (byte m)) i)
    /\ same_elsewhere w a (byte m) (byte m')
    /\ current s m' = Some (v, m'') /\ byte m'' = byte m'.
Proof.
  intros s w a hi lo v m HI Hv H.
  destruct (now_place s w a hi lo HI) as (G1 & G2 & G3 & G4 & G5 & G6).
  unfold set_now, current. rewrite G1, G2. rewrite G5 in Hv.
  set (f := Field w RW a hi lo).
  assert (V : valid_field f) by (unfold valid_field; cbn; lia).
  destruct (field_write_updated atmega f v m eq_refl V G6 H)
    as (m' & c & W1 & W2 & W3 & W4 & _ & W6).
  cbn [f_w f_addr f_lo f_hi f] in *.
  assert (FV : content w a (byte m') / 2 ^ lo mod 2 ^ (hi - lo + 1) = v).
  { apply byte_field_fit; [lia|exact Hv|]. intros i Hi. rewrite W2, W6 by lia.
    destruct (Z.leb_spec lo i), (Z.leb_spec i hi); try lia. cbn [andb].
    apply (written_bit f v i V). exact Hv. }
  exists m', (Machine (byte m') (bus m' ++ [Rd w a])).
  split; [exact W1|]. split; [exact FV|]. split; [|split; [exact W3|]].
  - intros i Hi NI. rewrite W2, W6 by exact Hi.
    destruct (Z.leb_spec lo i), (Z.leb_spec i hi); try lia; reflexivity.
  - rewrite (field_read_value f m' (or_introl eq_refl) V W4).
    split; [|reflexivity]. do 2 f_equal. exact FV.
Qed.
Print Assumptions C100_immediate_setting.

Example C100_immediate_setting_case :
  In (now_tc1_timer, (W16, 0x84, 15, 0)) (combine now_settings now_places)
  /\ exists m', set_now atmega now_tc1_timer 0x1234 (Machine (fun _ => 0) []) = Some m'
     /\ byte m' 0x84 = 0x34 /\ byte m' 0x85 = 0x12.
Proof. split; [cbn; tauto|]. eexists. split; [reflexivity|]. split; reflexivity. Qed.

(** A compare value is stored too, but [current] of it gives nothing back. *)
Theorem C100_compare_values :
  forall c v m, bytes_ok (byte m) ->
  0 <= v < (match c with Tc0A | Tc0B => 256 | Tc1A | Tc1B => 65536 end) ->
  exists m' m'',
    compare_set atmega c v m = Some m'
    /\ (match c with
        | Tc0A => byte m' 0x47
        | Tc0B => byte m' 0x48
        | Tc1A => byte m' 0x88 + 256 * byte m' 0x89
        | Tc1B => byte m' 0x8a + 256 * byte m' 0x8b
        end) = v
    /\ same_but (match c with
                 | Tc0A => [0x47] | Tc0B => [0x48]
                 | Tc1A => [0x88; 0x89] | Tc1B => [0x8a; 0x8b]
                 end) (byte m) (byte m')
    /\ compare_current c m' = Some (tt, m'') /\ byte m'' = byte m'.
Proof.
  intros c v m H Hv.
  assert (G : exists w a, compare_field c = Field w RW a (nbits w - 1) 0
              /\ plain atmega w a /\ 0 <= v < 2 ^ nbits w
              /\ (forall mem, content w a mem
                   = match c with
                     | Tc0A => mem 0x47
                     | Tc0B => mem 0x48
                     | Tc1A => mem 0x88 + 256 * mem 0x89
                     | Tc1B => mem 0x8a + 256 * mem 0x8b
                     end)
              /\ (forall mem mem', same_elsewhere w a mem mem' ->
                  same_but (match c with
                            | Tc0A => [0x47] | Tc0B => [0x48]
                            | Tc1A => [0x88; 0x89] | Tc1B => [0x8a; 0x8b]
                            end) mem mem')).
  { destruct c; [exists W8, 0x47|exists W8, 0x48|exists W16, 0x88|exists W16, 0x8a];
      (split; [reflexivity|]);
      (split; [apply atmega_plain; intros b [->|[D ->]]; try discriminate D;
               split; reflexivity|]);
      (split; [cbn; lia|]); (split; [reflexivity|]);
      intros mem mem' S b NB; apply S; intros [P|[D P]]; try discriminate D; apply NB; cbn; lia. }
  destruct G as (w & a & G1 & G2 & G3 & G4 & G5).
  unfold compare_set, compare_current. rewrite G1.
  set (f := Field w RW a (nbits w - 1) 0).
  pose proof (nbits_pos w) as NB.
  assert (V : valid_field f) by (unfold valid_field; cbn; lia).
  destruct (field_write_updated atmega f v m eq_refl V G2 H)
    as (m' & x & W1 & W2 & W3 & W4 & _ & W6).
  cbn [f_w f_addr f_lo f_hi f] in *.
  exists m', (Machine (byte m') (bus m' ++ [Rd w a])).
  split; [exact W1|]. split; [|split; [exact (G5 _ _ W3)|]].
  - rewrite <- G4. rewrite W2. apply (bits_ext _ _ (nbits w)); [lia| |exact G3|].
    + rewrite <- W2. apply content_range, W4.
    + intros i Hi. rewrite W6 by exact Hi.
      destruct (Z.leb_spec 0 i), (Z.leb_spec i (nbits w - 1)); try lia. cbn [andb].
      replace (Z.testbit v i) with (Z.testbit v (i - 0)) by (f_equal; lia).
      apply (written_bit f v i V). unfold field_bits; cbn [f_hi f_lo f].
      replace (nbits w - 1 - 0 + 1) with (nbits w) by lia. exact G3.
  - rewrite (field_read_value f m' (or_introl eq_refl) V W4).
    split; reflexivity.
Qed.
Print Assumptions C100_compare_values.

Example C100_compare_values_case :
  exists m', compare_set atmega Tc1B 0x3ff (Machine (fun _ => 0) []) = Some m'
    /\ byte m' 0x8a = 0xff /\ byte m' 0x8b = 0x03.
Proof. eexists. split; [reflexivity|]. split; reflexivity. Qed.
