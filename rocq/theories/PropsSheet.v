(** * The register map

    C121 and C122 of properties.jsonl: include/mcu/atmega328.hpp against the data sheet. *)

From Coq Require Import ZArith List String Lia Bool.
From Verif Require Import Base Register RegisterSpec RegisterProofs AtmegaRegs AtmegaSheet.
Import ListNotations.
Open Scope Z_scope.

(** ** C121: every field is where the data sheet says *)

(** The fields of the header with the register and the bits (most and least significant)
    they are named after. *)
Definition named_fields : list (field * (string * string * string)) := [
  (sreg_I, ("SREG", "I", "I"));
  (sreg_T, ("SREG", "T", "T"));
  (sreg_H, ("SREG", "H", "H"));
  (sreg_S, ("SREG", "S", "S"));
  (sreg_V, ("SREG", "V", "V"));
  (sreg_N, ("SREG", "N", "N"));
  (sreg_Z, ("SREG", "Z", "Z"));
  (sreg_C, ("SREG", "C", "C"));
  (eecr_eepm, ("EECR", "EEPM1", "EEPM0")%string);
  (eecr_eerie, ("EECR", "EERIE", "EERIE")%string);
  (eecr_eempe, ("EECR", "EEMPE", "EEMPE")%string);
  (eecr_eepe, ("EECR", "EEPE", "EEPE")%string);
  (eecr_eere, ("EECR", "EERE", "EERE")%string);
  (eicra_ics1, ("EICRA", "ISC11", "ISC10")%string);
  (eicra_ics0, ("EICRA", "ISC01", "ISC00")%string);
  (tccr0a_com0a, ("TCCR0A", "COM0A1", "COM0A0")%string);
  (tccr0a_com0b, ("TCCR0A", "COM0B1", "COM0B0")%string);
  (tccr0a_wgm0, ("TCCR0A", "WGM01", "WGM00")%string);
  (tccr0b_foc0a, ("TCCR0B", "FOC0A", "FOC0A")%string);
  (tccr0b_foc0b, ("TCCR0B", "FOC0B", "FOC0B")%string);
  (tccr0b_wgm02, ("TCCR0B", "WGM02", "WGM02")%string);
  (tccr0b_cs0, ("TCCR0B", "CS02", "CS00")%string);
  (timsk0_ocie0b, ("TIMSK0", "OCIE0B", "OCIE0B")%string);
  (timsk0_ocie0a, ("TIMSK0", "OCIE0A", "OCIE0A")%string);
  (timsk0_toie0, ("TIMSK0", "TOIE0", "TOIE0")%string);
  (tifr0_ocf0b, ("TIFR0", "OCF0B", "OCF0B")%string);
  (tifr0_ocf0a, ("TIFR0", "OCF0A", "OCF0A")%string);
  (tifr0_tov0, ("TIFR0", "TOV0", "TOV0")%string);
  (tccr1a_com1a, ("TCCR1A", "COM1A1", "COM1A0")%string);
  (tccr1a_com1b, ("TCCR1A", "COM1B1", "COM1B0")%string);
  (tccr1a_wgm1, ("TCCR1A", "WGM11", "WGM10")%string);
  (tccr1b_icnc1, ("TCCR1B", "ICNC1", "ICNC1")%string);
  (tccr1b_ices1, ("TCCR1B", "ICES1", "ICES1")%string);
  (tccr1b_wgm1, ("TCCR1B", "WGM13", "WGM12")%string);
  (tccr1b_cs1, ("TCCR1B", "CS12", "CS10")%string);
  (timsk1_icie1, ("TIMSK1", "ICIE1", "ICIE1")%string);
  (timsk1_ocie1b, ("TIMSK1", "OCIE1B", "OCIE1B")%string);
  (timsk1_ocie1a, ("TIMSK1", "OCIE1A", "OCIE1A")%string);
  (timsk1_toie1, ("TIMSK1", "TOIE1", "TOIE1")%string);
  (tifr1_icf1, ("TIFR1", "ICF1", "ICF1")%string);
  (tifr1_ocf1b, ("TIFR1", "OCF1B", "OCF1B")%string);
  (tifr1_ocf1a, ("TIFR1", "OCF1A", "OCF1A")%string);
  (tifr1_tov1, ("TIFR1", "TOV1", "TOV1")%string);
  (gtccr_tsm, ("GTCCR", "TSM", "TSM")%string);
  (gtccr_psrasy, ("GTCCR", "PSRASY", "PSRASY")%string);
  (gtccr_psrsync, ("GTCCR", "PSRSYNC", "PSRSYNC")%string);
  (twsr_tws, ("TWSR", "TWS7", "TWS3")%string);
  (twsr_twps, ("TWSR", "TWPS1", "TWPS0")%string);
  (twar_twa, ("TWAR", "TWA6", "TWA0")%string);
  (twar_twgce, ("TWAR", "TWGCE", "TWGCE")%string);
  (twcr_twintc, ("TWCR", "TWINT", "TWINT")%string);
  (twcr_twint, ("TWCR", "TWINT", "TWINT")%string);
  (twcr_twea, ("TWCR", "TWEA", "TWEA")%string);
  (twcr_twsta, ("TWCR", "TWSTA", "TWSTA")%string);
  (twcr_twsto, ("TWCR", "TWSTO", "TWSTO")%string);
  (twcr_twwc, ("TWCR", "TWWC", "TWWC")%string);
  (twcr_twen, ("TWCR", "TWEN", "TWEN")%string);
  (twcr_twie, ("TWCR", "TWIE", "TWIE")%string);
  (twamr_twam, ("TWAMR", "TWAM6", "TWAM0")%string);
  (acsr_acd, ("ACSR", "ACD", "ACD")%string);
  (acsr_acbg, ("ACSR", "ACBG", "ACBG")%string);
  (acsr_aco, ("ACSR", "ACO", "ACO")%string);
  (acsr_aci, ("ACSR", "ACI", "ACI")%string);
  (acsr_acie, ("ACSR", "ACIE", "ACIE")%string);
  (acsr_acic, ("ACSR", "ACIC", "ACIC")%string);
  (acsr_acis, ("ACSR", "ACIS1", "ACIS0")%string);
  (ac_didr1, ("DIDR1", "AIN1D", "AIN0D")%string);
  (admux_refs, ("ADMUX", "REFS1", "REFS0")%string);
  (admux_adlar, ("ADMUX", "ADLAR", "ADLAR")%string);
  (admux_mux, ("ADMUX", "MUX3", "MUX0")%string);
  (adcsra_aden, ("ADCSRA", "ADEN", "ADEN")%string);
  (adcsra_adsc, ("ADCSRA", "ADSC", "ADSC")%string);
  (adcsra_adate, ("ADCSRA", "ADATE", "ADATE")%string);
  (adcsra_adif, ("ADCSRA", "ADIF", "ADIF")%string);
  (adcsra_adie, ("ADCSRA", "ADIE", "ADIE")%string);
  (adcsra_adps, ("ADCSRA", "ADPS2", "ADPS0")%string);
  (adcsrb_acme, ("ADCSRB", "ACME", "ACME")%string);
  (adcsrb_adts, ("ADCSRB", "ADTS2", "ADTS0")%string);
  (adc_didr0, ("DIDR0", "ADC5D", "ADC0D")%string)].

(** Whole registers, and the register of the high byte for words. *)
Definition named_registers : list (field * (string * option string)) := [
  (sreg_whole, ("SREG"%string, None));
  (sp_whole, ("SPL", Some "SPH")%string);
  (sp_lo, ("SPL"%string, None));
  (sp_hi, ("SPH"%string, None));
  (mem_eear, ("EEARL", Some "EEARH")%string);
  (mem_eedr, ("EEDR"%string, None));
  (eecr_whole, ("EECR"%string, None));
  (eicra_whole, ("EICRA"%string, None));
  (tccr0a_whole, ("TCCR0A"%string, None));
  (tccr0b_whole, ("TCCR0B"%string, None));
  (timsk0_whole, ("TIMSK0"%string, None));
  (tcnt0_whole, ("TCNT0"%string, None));
  (ocr0a_whole, ("OCR0A"%string, None));
  (ocr0b_whole, ("OCR0B"%string, None));
  (tifr0_whole, ("TIFR0"%string, None));
  (tccr1a_whole, ("TCCR1A"%string, None));
  (tccr1b_whole, ("TCCR1B"%string, None));
  (tccr1c_whole, ("TCCR1C"%string, None));
  (tcnt1_whole, ("TCNT1L", Some "TCNT1H")%string);
  (tcnt1_lo, ("TCNT1L"%string, None));
  (tcnt1_hi, ("TCNT1H"%string, None));
  (icr1_whole, ("ICR1L", Some "ICR1H")%string);
  (icr1_lo, ("ICR1L"%string, None));
  (icr1_hi, ("ICR1H"%string, None));
  (ocr1a_whole, ("OCR1AL", Some "OCR1AH")%string);
  (ocr1a_lo, ("OCR1AL"%string, None));
  (ocr1a_hi, ("OCR1AH"%string, None));
  (ocr1b_whole, ("OCR1BL", Some "OCR1BH")%string);
  (ocr1b_lo, ("OCR1BL"%string, None));
  (ocr1b_hi, ("OCR1BH"%string, None));
  (timsk1_whole, ("TIMSK1"%string, None));
  (tifr1_whole, ("TIFR1"%string, None));
  (gtccr_whole, ("GTCCR"%string, None));
  (twi_twbr, ("TWBR"%string, None));
  (twi_twdr, ("TWDR"%string, None));
  (twsr_whole, ("TWSR"%string, None));
  (twar_whole, ("TWAR"%string, None));
  (twcr_whole, ("TWCR"%string, None));
  (twamr_whole, ("TWAMR"%string, None));
  (acsr_whole, ("ACSR"%string, None));
  (adc_whole, ("ADCL", Some "ADCH")%string);
  (adc_adchl, ("ADCL", Some "ADCH")%string);
  (adc_adcl, ("ADCL"%string, None));
  (adc_adch, ("ADCH"%string, None));
  (admux_whole, ("ADMUX"%string, None));
  (adcsra_whole, ("ADCSRA"%string, None));
  (adcsrb_whole, ("ADCSRB"%string, None))].

(** Deciding the statements of the data sheet. *)
Fixpoint find_row (r : string) (s : list (string * Z * list string)) :=
  match s with
  | [] => None
  | (n, a, bits) :: s' => if String.eqb n r then Some (a, bits) else find_row r s'
  end.

Lemma find_row_In r s a bits : find_row r s = Some (a, bits) -> In (r, a, bits) s.
Proof.
  induction s as [|[[n b] l] s IH]; cbn; [discriminate|].
  destruct (String.eqb_spec n r).
  - intros H. injection H as <- <-. subst. now left.
  - intros H. right. auto.
Qed.

Definition register_ok (r : string) (a : Z) : bool :=
  match find_row r sheet with Some (b, _) => b =? a | None => false end.
Definition bit_ok (r b : string) (a i : Z) : bool :=
  match find_row r sheet with
  | Some (c, bits) => (c =? a) && negb (String.eqb b "-") && (Nat.eqb (List.length bits) 8)
      && (0 <=? i) && (i <? 8) && String.eqb (nth (7 - Z.to_nat i) bits "-"%string) b
  | None => false
  end.

Lemma register_ok_sheet r a : register_ok r a = true -> sheet_register r a.
Proof.
  unfold register_ok. destruct (find_row r sheet) as [[b bits]|] eqn:E; [|discriminate].
  intros H%Z.eqb_eq. subst. exists bits. now apply find_row_In.
Qed.

Lemma bit_ok_sheet r b a i : bit_ok r b a i = true -> sheet_bit r b a i.
Proof.
  unfold bit_ok. destruct (find_row r sheet) as [[c bits]|] eqn:E; [|discriminate].
  intros H. repeat (apply andb_prop in H as [H ?H]).
  apply Z.eqb_eq in H. subst c. exists bits. split; [now apply find_row_In|].
  apply negb_true_iff in H4. apply String.eqb_neq in H4. apply Nat.eqb_eq in H3.
  apply Z.leb_le in H2. apply Z.ltb_lt in H1. apply String.eqb_eq in H0. auto.
Qed.

Theorem C121_fields_in_place :
  Forall (fun '(f, (r, hi, lo)) =>
    f_w f = W8 /\ f_lo f <= f_hi f /\
    sheet_bit r hi (f_addr f) (f_hi f) /\ sheet_bit r lo (f_addr f) (f_lo f)) named_fields.
Proof.
  assert (X : forallb (fun '(f, (r, hi, lo)) =>
    match f_w f with W8 => true | W16 => false end && (f_lo f <=? f_hi f) &&
    bit_ok r hi (f_addr f) (f_hi f) && bit_ok r lo (f_addr f) (f_lo f)) named_fields = true)
    by (vm_compute; reflexivity).
  rewrite forallb_forall in X. apply Forall_forall. intros [f [[r hi] lo]] I.
  specialize (X _ I). cbn beta iota in X. repeat (apply andb_prop in X as [X ?H]).
  split; [destruct (f_w f); congruence|]. split; [now apply Z.leb_le|].
  split; now apply bit_ok_sheet.
Qed.
Print Assumptions C121_fields_in_place.

Theorem C121_registers_in_place :
  Forall (fun '(f, (r, high)) =>
    sheet_register r (f_addr f) /\ f_lo f = 0 /\ f_hi f = nbits (f_w f) - 1 /\
    match high with
    | None => f_w f = W8
    | Some r' => f_w f = W16 /\ sheet_register r' (f_addr f + 1)
    end) named_registers.
Proof.
  assert (X : forallb (fun '(f, (r, high)) =>
    register_ok r (f_addr f) && (f_lo f =? 0) && (f_hi f =? nbits (f_w f) - 1) &&
    match high, f_w f with
    | None, W8 => true
    | Some r', W16 => register_ok r' (f_addr f + 1)
    | _, _ => false
    end) named_registers = true) by (vm_compute; reflexivity).
  rewrite forallb_forall in X. apply Forall_forall. intros [f [r high]] I.
  specialize (X _ I). cbn beta iota in X. repeat (apply andb_prop in X as [X ?H]).
  split; [now apply register_ok_sheet|]. split; [now apply Z.eqb_eq|].
  split; [now apply Z.eqb_eq|].
  destruct high, (f_w f); try discriminate; auto using register_ok_sheet.
Qed.
Print Assumptions C121_registers_in_place.

(** Every field with a fixed address is in one of the two tables, but for the general
    purpose registers x, y, z and the two force bits of timer 1. *)
Lemma field_eq_dec (f g : field) : {f = g} + {f <> g}.
Proof. decide equality; try apply Z.eq_dec; decide equality. Defined.

Theorem C121_complete :
  forall f, In f fixed_fields ->
  In f (map fst named_fields) \/ In f (map fst named_registers) \/
  In f [gpwr_x; gpwr_y; gpwr_z; tccr1c_foc1a; tccr1c_foc1b].
Proof.
  assert (X : forallb (fun f =>
    existsb (fun g => if field_eq_dec f g then true else false)
      (map fst named_fields ++ map fst named_registers ++
       [gpwr_x; gpwr_y; gpwr_z; tccr1c_foc1a; tccr1c_foc1b])) fixed_fields = true)
    by (vm_compute; reflexivity).
  rewrite forallb_forall in X. intros f I. specialize (X f I).
  apply existsb_exists in X as (g & J & E). destruct (field_eq_dec f g); [subst g|discriminate].
  rewrite !in_app_iff in J. exact J.
Qed.
Print Assumptions C121_complete.

(** The three pointers X, Y and Z are the pairs R27:R26, R29:R28 and R31:R30: reading one
    reads the low byte from the first and the high byte from the second general purpose
    register. *)
Theorem C121_pointers :
  forall m, Forall (fun '(f, lo) =>
    exists v l h m' m1 m2,
      field_read f m = Some (v, m') /\ field_read (gpwr_r lo) m = Some (l, m1)
      /\ field_read (gpwr_r (lo + 1)) m = Some (h, m2) /\ v = l + 256 * h)
    [(gpwr_x, 26); (gpwr_y, 28); (gpwr_z, 30)].
Proof.
  intros m. repeat constructor; do 6 eexists; repeat split; cbn; lia.
Qed.
Print Assumptions C121_pointers.

Example C121_pointers_case :
  option_map fst (field_read gpwr_x (Machine (fun a => if a =? 27 then 1 else if a =? 26 then 2 else 0) []))
  = Some 258.
Proof. reflexivity. Qed.

(** Fields with parameters: interrupt masks and flags, pin change masks, ports. *)
Theorem C121_parametric_in_place :
  (forall i, i = 0 \/ i = 1 ->
   let n := if i =? 0 then "0"%string else "1"%string in
   sheet_bit "EIMSK" ("INT" ++ n) (f_addr (ei_eimsk i)) (f_hi (ei_eimsk i)) /\
   sheet_bit "EIFR" ("INTF" ++ n) (f_addr (ei_eifr i)) (f_hi (ei_eifr i))) /\
  (forall i, i = 0 \/ i = 1 \/ i = 2 ->
   let n := if i =? 0 then "0"%string else if i =? 1 then "1"%string else "2"%string in
   sheet_bit "PCICR" ("PCIE" ++ n) (f_addr (ei_pcicr i)) (f_hi (ei_pcicr i)) /\
   sheet_bit "PCIFR" ("PCIF" ++ n) (f_addr (ei_pcifr i)) (f_hi (ei_pcifr i)) /\
   sheet_register ("PCMSK" ++ n) (f_addr (ei_pcmsk_whole i))) /\
  (forall p, let l := match p with PortB => "B"%string | PortC => "C"%string | PortD => "D"%string end in
   sheet_register ("PIN" ++ l) (f_addr (gpio_pin p)) /\
   sheet_register ("DDR" ++ l) (f_addr (gpio_ddr p)) /\
   sheet_register ("PORT" ++ l) (f_addr (gpio_port p)) /\
   forall n, gpio_dir p n = bit8 RW (f_addr (gpio_ddr p)) n /\
     gpio_inp p n = bit8 RW (f_addr (gpio_pin p)) n /\
     gpio_out p n = bit8 RW (f_addr (gpio_port p)) n).
Proof.
  split; [|split].
  - intros i [->| ->]; cbn zeta; split; apply bit_ok_sheet; vm_compute; reflexivity.
  - intros i [->|[->| ->]]; cbn zeta; (split; [|split]);
      (apply bit_ok_sheet || apply register_ok_sheet); vm_compute; reflexivity.
  - intros []; cbn zeta; repeat split; apply register_ok_sheet; vm_compute; reflexivity.
Qed.
Print Assumptions C121_parametric_in_place.

(** The force bits of timer 1 are not where the data sheet says: they are addressed in
    TCCR1A (see C79). *)
Theorem C121_force_bits_refuted :
  ~ sheet_register "TCCR1C" (f_addr tccr1c_foc1a) /\
  ~ sheet_register "TCCR1C" (f_addr tccr1c_foc1b) /\
  sheet_register "TCCR1A" (f_addr tccr1c_foc1a) /\ sheet_register "TCCR1A" (f_addr tccr1c_foc1b).
Proof.
  assert (X : forall a, sheet_register "TCCR1C" a -> a = 0x82).
  { intros a [bits I].
    assert (Y : forallb (fun '(r, b, _) => negb (String.eqb r "TCCR1C") || (b =? 0x82)) sheet = true)
      by (vm_compute; reflexivity).
    rewrite forallb_forall in Y. specialize (Y _ I). cbn in Y. now apply Z.eqb_eq. }
  split; [intros H%X; discriminate|]. split; [intros H%X; discriminate|].
  split; apply register_ok_sheet; vm_compute; reflexivity.
Qed.
Print Assumptions C121_force_bits_refuted.

(** Different fields do not overlap; only TWINT has two names. *)
Theorem C121_fields_disjoint :
  forall i j f g n m,
  nth_error named_fields i = Some (f, n) -> nth_error named_fields j = Some (g, m) -> i <> j ->
  f_addr f = f_addr g ->
  f_hi f < f_lo g \/ f_hi g < f_lo f \/
  ((f = twcr_twint \/ f = twcr_twintc) /\ (g = twcr_twint \/ g = twcr_twintc)).
Proof.
  set (tw := fun f => (if field_eq_dec f twcr_twint then true else false)
                      || (if field_eq_dec f twcr_twintc then true else false)).
  assert (X : forallb (fun i => forallb (fun j =>
    Nat.eqb i j ||
    match nth_error named_fields i, nth_error named_fields j with
    | Some (f, _), Some (g, _) => negb (f_addr f =? f_addr g) || (f_hi f <? f_lo g) ||
        (f_hi g <? f_lo f) || (tw f && tw g)
    | _, _ => true
    end) (seq 0 (List.length named_fields))) (seq 0 (List.length named_fields)) = true)
    by (vm_compute; reflexivity).
  assert (T : forall f, tw f = true -> f = twcr_twint \/ f = twcr_twintc).
  { intros f. unfold tw.
    destruct (field_eq_dec f twcr_twint), (field_eq_dec f twcr_twintc); cbn; auto; discriminate. }
  intros i j f g n m Hi Hj N A.
  assert (Li : In i (seq 0 (List.length named_fields)))
    by (apply in_seq; split; [lia|]; apply nth_error_Some; congruence).
  assert (Lj : In j (seq 0 (List.length named_fields)))
    by (apply in_seq; split; [lia|]; apply nth_error_Some; congruence).
  rewrite forallb_forall in X. specialize (X i Li). rewrite forallb_forall in X.
  specialize (X j Lj). rewrite Hi, Hj in X.
  destruct (Nat.eqb_spec i j); [contradiction|]. rewrite A, Z.eqb_refl in X. cbn [negb orb] in X.
  destruct (Z.ltb_spec (f_hi f) (f_lo g)); [now left|].
  destruct (Z.ltb_spec (f_hi g) (f_lo f)); [right; now left|].
  right. right. cbn [orb] in X. apply andb_prop in X as [X Y]. auto.
Qed.
Print Assumptions C121_fields_disjoint.

(** Access: the fields of read-only bits cannot be written, except TWWC; flags are declared
    as flags, except one of the two names of TWINT (and the pin change flags, C77); and
    nothing else is. *)
Theorem C121_access :
  forall f r hi lo, In (f, (r, hi, lo)) named_fields ->
  (In (r, hi) sheet_read_only -> f_io f = R \/ f = twcr_twwc) /\
  (In (r, hi) sheet_flags -> f_io f = RC_W1 \/ f = twcr_twint) /\
  (f_io f = R -> In (r, hi) sheet_read_only /\ In (r, lo) sheet_read_only) /\
  (f_io f = RC_W1 -> In (r, hi) sheet_flags) /\
  (f_io f = R \/ f_io f = RC_W1 \/ f_io f = RW).
Proof.
  set (mem := fun (x : string * string) l =>
    existsb (fun y => String.eqb (fst x) (fst y) && String.eqb (snd x) (snd y)) l).
  assert (M : forall x l, mem x l = true <-> In x l).
  { intros [a b] l. unfold mem. rewrite existsb_exists. cbn [fst snd]. split.
    - intros ([c d] & I & E). apply andb_prop in E as [E1%String.eqb_eq E2%String.eqb_eq].
      cbn in E1, E2. now subst.
    - intros I. exists (a, b). split; [assumption|]. cbn [fst snd]. rewrite !String.eqb_refl. reflexivity. }
  set (is := fun f g => if field_eq_dec f g then true else false).
  assert (I2 : forall f g, is f g = true -> f = g)
    by (intros f g; unfold is; destruct (field_eq_dec f g); [auto|discriminate]).
  assert (X : forallb (fun '(f, (r, hi, lo)) =>
    match f_io f with
    | R => mem (r, hi) sheet_read_only && mem (r, lo) sheet_read_only && negb (mem (r, hi) sheet_flags)
    | RC_W1 => negb (mem (r, hi) sheet_read_only) && mem (r, hi) sheet_flags
    | RW => (negb (mem (r, hi) sheet_read_only) || is f twcr_twwc) &&
            (negb (mem (r, hi) sheet_flags) || is f twcr_twint)
    | _ => false
    end) named_fields = true) by (vm_compute; reflexivity).
  rewrite forallb_forall in X. intros f r hi lo I. specialize (X _ I). cbn beta iota in X.
  destruct (f_io f) eqn:E; try discriminate X.
  - apply andb_prop in X as [X1 X2]. split; [|split; [|split; [|split; [|tauto]]]]; try discriminate.
    + intros Y%M. rewrite Y in X1. right. now apply I2.
    + intros Y%M. rewrite Y in X2. right. now apply I2.
  - apply andb_prop in X as [X X3]. apply andb_prop in X as [X1 X2].
    split; [|split; [|split; [|split; [|tauto]]]]; try discriminate; auto.
    + intros Y%M. rewrite Y in X3. discriminate.
    + intros _. split; now apply M.
  - apply andb_prop in X as [X1 X2]. split; [|split; [|split; [|split; [|tauto]]]]; try discriminate; auto.
    + intros Y%M. rewrite Y in X1. discriminate.
    + intros _. now apply M.
Qed.
Print Assumptions C121_access.

Example C121_case :
  In (adcsra_adif, ("ADCSRA", "ADIF", "ADIF")%string) named_fields /\
  f_addr adcsra_adif = 0x7a /\ f_hi adcsra_adif = 4 /\ List.length named_fields = 79%nat /\
  List.length named_registers = 47%nat /\ List.length fixed_fields = 131%nat.
Proof.
  split; [|repeat split].
  apply nth_error_In with (n := 73%nat). reflexivity.
Qed.

(** ** C122: what a policy allows *)

(** What can be done with a field. *)
Inductive operation := Read | Write | Set_ | Clear | Toggle | Trigger.

(** The documentation of the policies (register.hpp:232-314), for single bits: *)
Definition documented (p : policy) : list operation :=
  match p with
  | R => [Read]                                     (* Read bits *)
  | W => [Write; Set_; Clear]                       (* Write bits *)
  | RW => [Read; Write; Set_; Clear; Toggle]        (* Read and write bits *)
  | RC_W1 | RC_W0 => [Read; Clear]                  (* Read bit, clear bit by write 1, 0 *)
  | RC_R => [Read]                                  (* Read bit, clear bit by read *)
  | RS => [Read; Set_]                              (* Read bit, set bit *)
  | RT_W => [Read; Trigger]                         (* Read bit, trigger event by write *)
  end.

(** Whether the code compiles. *)
Definition compiles (hw : hardware) (f : field) (v : Z) (m : machine) (o : operation) : bool :=
  match o with
  | Read => if field_read f m then true else false
  | Write => if field_write hw f v m then true else false
  | Set_ => if field_set hw f m then true else false
  | Clear => if field_clear hw f m then true else false
  | Toggle => if field_toggle hw f m then true else false
  | Trigger => if field_trigger hw f m then true else false
  end.

Theorem C122_single_bits :
  forall hw f v m o, f_hi f = f_lo f ->
  (compiles hw f v m o = true <-> In o (documented (f_io f))).
Proof.
  intros hw f v m o E.
  assert (SB : is_single_bit f = true) by (unfold is_single_bit; rewrite E; apply Z.eqb_refl).
  destruct o; unfold compiles, field_read, field_write, field_set, field_clear, field_toggle,
    field_trigger; rewrite ?SB;
  destruct (f_io f); cbn [has_get has_set policy_clear has_toggle has_trigger documented];
    try destruct (trunc _ _ =? 0); cbn; intuition (try discriminate; try congruence).
Qed.
Print Assumptions C122_single_bits.

(** Fields of several bits can be read and written only with the policies for reading and
    writing; the single-bit operations are the same. *)
Theorem C122_several_bits :
  forall hw f v m o, f_hi f <> f_lo f ->
  (compiles hw f v m o = true <->
   In o (documented (f_io f)) /\
   (o = Read -> f_io f = R \/ f_io f = RW)).
Proof.
  intros hw f v m o E.
  assert (SB : is_single_bit f = false) by (unfold is_single_bit; now apply Z.eqb_neq).
  destruct o; unfold compiles, field_read, field_write, field_set, field_clear, field_toggle,
    field_trigger; rewrite ?SB;
  destruct (f_io f); cbn [has_read has_write has_get has_set policy_clear has_toggle has_trigger documented negb];
    try destruct (is_all_bits f); cbn; intuition (try discriminate; try congruence).
Qed.
Print Assumptions C122_several_bits.

(** So nothing that compiles changes the memory through a read-only field. *)
Theorem C122_read_only :
  forall hw f v m,
  f_io f = R ->
  field_write hw f v m = None /\ field_set hw f m = None /\ field_clear hw f m = None /\
  field_toggle hw f m = None /\ field_trigger hw f m = None /\
  match field_read f m with Some (_, m') => byte m' = byte m | None => False end.
Proof.
  intros hw f v m E. unfold field_write, field_set, field_clear, field_toggle, field_trigger.
  rewrite E. cbn. split; [destruct (is_single_bit f); reflexivity|].
  repeat (split; [reflexivity|]).
  unfold field_read. rewrite E. cbn [has_get has_read negb].
  destruct (is_single_bit f); [reflexivity|]. destruct (is_all_bits f); [destruct (f_w f); reflexivity|].
  destruct (f_w f); reflexivity.
Qed.
Print Assumptions C122_read_only.

Example C122_case :
  f_io twsr_tws = R /\ f_hi twsr_tws <> f_lo twsr_tws /\ f_hi tifr0_tov0 = f_lo tifr0_tov0 /\
  documented (f_io tifr0_tov0) = [Read; Clear].
Proof. cbn. repeat split. lia. Qed.
