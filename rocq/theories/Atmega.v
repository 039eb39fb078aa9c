(** What the functions of the ATmega328 header do: include/mcu/atmega328.hpp.
    Inside comments, numbers after the file name are lines of that file. *)

From Coq Require Import ZArith List Bool.
From Verif Require Import Base Register AtmegaRegs.
Import ListNotations.
Open Scope Z_scope.

(** ** The hardware *)

(** include/mcu/atmega328.hpp:519, 579, 801-803, 1197-1201, 1772, 2126, 2320: the
    bits of the byte at an address that are cleared by writing a one and that
    otherwise keep their value: the flags declared [rc_w1_t] in the source, and the
    pin change flags, declared [rw_t] there but of the same kind according to the
    data sheet the source follows. *)
Definition flag_bits (a : Z) : Z :=
  if a =? 0x35 then 0x07         (* TIFR0: OCF0B, OCF0A, TOV0 *)
  else if a =? 0x36 then 0x27    (* TIFR1: ICF1, OCF1B, OCF1A, TOV1 *)
  else if a =? 0x3b then 0x07    (* PCIFR: PCIF2, PCIF1, PCIF0 *)
  else if a =? 0x3c then 0x03    (* EIFR: INTF1, INTF0 *)
  else if a =? 0x50 then 0x10    (* ACSR: ACI *)
  else if a =? 0x7a then 0x10    (* ADCSRA: ADIF *)
  else if a =? 0xbc then 0x80    (* TWCR: TWINT *)
  else 0.

(** include/mcu/atmega328.hpp:684: addresses of the pin input registers. *)
Definition is_pin (a : Z) : bool := (a =? 0x23) || (a =? 0x26) || (a =? 0x29).

(** include/mcu/atmega328.hpp:690-692, 801-803: what a write does.  A one written to
    a bit of a pin register toggles the bit of the port register two addresses on;
    flags are cleared by ones; all other bits are stored.  Simplified: bits the
    hardware changes by itself or does not let be written (a conversion ending, the
    comparator output, the status of the two-wire interface, reserved bits) are
    stored like others, and the temporary register through which the two bytes of a
    16-bit timer register pass is not modelled. *)
Definition atmega : hardware := fun a v mem c =>
  if is_pin a then
    if c =? a + 2 then Z.lxor (mem c) v else mem c
  else
    if c =? a then
      Z.lor (Z.land v (Z.lnot (flag_bits a)))
            (Z.land (Z.land (mem a) (flag_bits a)) (Z.lnot v))
    else mem c.

(** ** Settings: a pair of functions [set] and [current] for one type *)

(** include/mcu/atmega328.hpp:825-833, for example: [set] writes a field lazily with
    the number of the enumerator, [current] reads a field and gives the enumerator
    with that number; the third member is the number of enumerators. *)
Record setting : Type :=
  Setting { s_set : field; s_current : field; s_count : Z }.

(** include/mcu/atmega328.hpp:232, 240-243, 245-248: [mem::eeprom::program::set(mode)]
    and [current(mode)]. *)
Definition set_mem_eeprom_program_mode : setting := Setting eecr_eepm eecr_eepm 4.

(** include/mcu/atmega328.hpp:255, 257-260, 262-265:
    [mem::eeprom::enable::set(master_write)] and [current(master_write)]. *)
Definition set_mem_eeprom_enable_master_write : setting :=
  Setting eecr_eempe eecr_eempe 2.

(** include/mcu/atmega328.hpp:254, 267-270, 272-275: [mem::eeprom::enable::set(write)]
    and [current(write)]. *)
Definition set_mem_eeprom_enable_write : setting := Setting eecr_eepe eecr_eepe 2.

(** include/mcu/atmega328.hpp:253, 277-280, 282-285: [mem::eeprom::enable::set(read)]
    and [current(read)]. *)
Definition set_mem_eeprom_enable_read : setting := Setting eecr_eere eecr_eere 2.

(** include/mcu/atmega328.hpp:290, 292-295, 297-300:
    [mem::eeprom::interrupt::set(on_ready)] and [current(on_ready)]. *)
Definition set_mem_eeprom_interrupt_on_ready : setting :=
  Setting eecr_eerie eecr_eerie 2.

(** include/mcu/atmega328.hpp:813, 825-828, 830-833: [tc0::input::set(clock)] and
    [current(clock)]. *)
Definition set_tc0_input_clock : setting := Setting tccr0b_cs0 tccr0b_cs0 8.

(** include/mcu/atmega328.hpp:842, 850-853, 855-858: [tc0::output::a::set(mode)] and
    [current(mode)]. *)
Definition set_tc0_output_a_mode : setting := Setting tccr0a_com0a tccr0a_com0a 4.

(** include/mcu/atmega328.hpp:865, 873-876, 878-881: [tc0::output::b::set(mode)] and
    [current(mode)]. *)
Definition set_tc0_output_b_mode : setting := Setting tccr0a_com0b tccr0a_com0b 4.

(** include/mcu/atmega328.hpp:984, 988-991, 993-996:
    [tc0::enable::interrupt::on::set(match_a)] and [current(match_a)]. *)
Definition set_tc0_enable_interrupt_on_match_a : setting :=
  Setting timsk0_ocie0a timsk0_ocie0a 2.

(** include/mcu/atmega328.hpp:985, 998-1001, 1003-1006:
    [tc0::enable::interrupt::on::set(match_b)] and [current(match_b)]. *)
Definition set_tc0_enable_interrupt_on_match_b : setting :=
  Setting timsk0_ocie0b timsk0_ocie0b 2.

(** include/mcu/atmega328.hpp:986, 1008-1011, 1013-1016:
    [tc0::enable::interrupt::on::set(overflow)] and [current(overflow)]. *)
Definition set_tc0_enable_interrupt_on_overflow : setting :=
  Setting timsk0_toie0 timsk0_toie0 2.

(** include/mcu/atmega328.hpp:1215, 1227-1230, 1232-1235: [tc1::input::set(clock)] and
    [current(clock)]. *)
Definition set_tc1_input_clock : setting := Setting tccr1b_cs1 tccr1b_cs1 8.

(** include/mcu/atmega328.hpp:1239, 1241-1244, 1246-1249:
    [tc1::input::capture::set(edge)] and [current(edge)]. *)
Definition set_tc1_input_capture_edge : setting := Setting tccr1b_ices1 tccr1b_ices1 2.

(** include/mcu/atmega328.hpp:1259, 1267-1270, 1272-1275: [tc1::output::a::set(mode)]
    and [current(mode)]. *)
Definition set_tc1_output_a_mode : setting := Setting tccr1a_com1a tccr1a_com1a 4.

(** include/mcu/atmega328.hpp:1282, 1290-1293, 1295-1298: [tc1::output::b::set(mode)]
    and [current(mode)]. *)
Definition set_tc1_output_b_mode : setting := Setting tccr1a_com1b tccr1a_com1b 4.

(** include/mcu/atmega328.hpp:1423, 1428-1431, 1433-1436:
    [tc1::enable::interrupt::on::set(capture)] and [current(capture)]. *)
Definition set_tc1_enable_interrupt_on_capture : setting :=
  Setting timsk1_icie1 timsk1_icie1 2.

(** include/mcu/atmega328.hpp:1424, 1438-1441, 1443-1446:
    [tc1::enable::interrupt::on::set(match_a)] and [current(match_a)]. *)
Definition set_tc1_enable_interrupt_on_match_a : setting :=
  Setting timsk1_ocie1a timsk1_ocie1a 2.

(** include/mcu/atmega328.hpp:1425, 1448-1451, 1453-1456:
    [tc1::enable::interrupt::on::set(match_b)] and [current(match_b)]. *)
Definition set_tc1_enable_interrupt_on_match_b : setting :=
  Setting timsk1_ocie1b timsk1_ocie1b 2.

(** include/mcu/atmega328.hpp:1426, 1458-1461, 1463-1466:
    [tc1::enable::interrupt::on::set(overflow)] and [current(overflow)]. *)
Definition set_tc1_enable_interrupt_on_overflow : setting :=
  Setting timsk1_toie1 timsk1_toie1 2.

(** include/mcu/atmega328.hpp:1557, 1559-1562, 1564-1567: [tcp::set(synchronization)]
    and [current(synchronization)]. *)
Definition set_tcp_synchronization : setting := Setting gtccr_tsm gtccr_tsm 2.

(** include/mcu/atmega328.hpp:1573, 1576-1579, 1581-1584:
    [tcp::reset::prescaler::set(tc2)] and [current(tc2)]. *)
Definition set_tcp_reset_prescaler_tc2 : setting := Setting gtccr_psrasy gtccr_psrasy 2.

(** include/mcu/atmega328.hpp:1574, 1586-1589, 1591-1594:
    [tcp::reset::prescaler::set(tc01)] and [current(tc01)]. *)
Definition set_tcp_reset_prescaler_tc01 : setting :=
  Setting gtccr_psrsync gtccr_psrsync 2.

(** include/mcu/atmega328.hpp:1723, 1859-1862, 1864-1867:
    [twi::protocol::set(address)] and [current(address)]. *)
Definition set_twi_protocol_address : setting := Setting twar_twa twar_twa (2 ^ 7).

(** include/mcu/atmega328.hpp:1909, 1913-1916, 1918-1921:
    [twi::enable::set(interface)] and [current(interface)]. *)
Definition set_twi_enable_interface : setting := Setting twcr_twen twcr_twen 2.

(** include/mcu/atmega328.hpp:1910, 1923-1926, 1928-1931:
    [twi::enable::set(interrupt)] and [current(interrupt)]. *)
Definition set_twi_enable_interrupt : setting := Setting twcr_twie twcr_twie 2.

(** include/mcu/atmega328.hpp:1911, 1933-1936, 1938-1941:
    [twi::enable::set(general_call)] and [current(general_call)]. *)
Definition set_twi_enable_general_call : setting := Setting twar_twgce twar_twgce 2.

(** include/mcu/atmega328.hpp:2145, 2147-2150, 2152-2155:
    [ac::input::select::set(bandgap_ref)] and [current(bandgap_ref)]. *)
Definition set_ac_input_select_bandgap_ref : setting := Setting acsr_acbg acsr_acbg 2.

(** include/mcu/atmega328.hpp:2172, 2180-2183, 2185-2188:
    [ac::output::interrupt::set(on)] and [current(on)]. *)
Definition set_ac_output_interrupt_on : setting := Setting acsr_acis acsr_acis 4.

(** include/mcu/atmega328.hpp:2194, 2196-2199, 2201-2204: [ac::enable::set(interrupt)]
    and [current(interrupt)]. *)
Definition set_ac_enable_interrupt : setting := Setting acsr_acie acsr_acie 2.

(** include/mcu/atmega328.hpp:2208, 2210-2213, 2215-2218:
    [ac::enable::input::set(capture)] and [current(capture)]. *)
Definition set_ac_enable_input_capture : setting := Setting acsr_acic acsr_acic 2.

(** include/mcu/atmega328.hpp:2226, 2228-2231, 2233-2236:
    [ac::disable::analog::set(comparator)] and [current(comparator)]. *)
Definition set_ac_disable_analog_comparator : setting := Setting acsr_acd acsr_acd 2.

(** include/mcu/atmega328.hpp:2355, 2381-2384, 2386-2389:
    [adc::conversion::set(adjustment)] and [current(adjustment)]. *)
Definition set_adc_conversion_adjustment : setting := Setting admux_adlar admux_adlar 2.

(** include/mcu/atmega328.hpp:2396, 2426-2429, 2431-2434: [adc::input::set(reference)]
    and [current(reference)]. *)
Definition set_adc_input_reference : setting := Setting admux_refs admux_refs 4.

(** include/mcu/atmega328.hpp:2406, 2436-2439, 2441-2444: [adc::input::set(channel)]
    and [current(channel)]. *)
Definition set_adc_input_channel : setting := Setting admux_mux admux_mux 16.

(** include/mcu/atmega328.hpp:2449, 2454-2457, 2459-2462: [adc::enable::set(adc)] and
    [current(adc)]. *)
Definition set_adc_enable_adc : setting := Setting adcsra_aden adcsra_aden 2.

(** include/mcu/atmega328.hpp:2450, 2464-2467, 2469-2472:
    [adc::enable::set(interrupt)] and [current(interrupt)]. *)
Definition set_adc_enable_interrupt : setting := Setting adcsra_adie adcsra_adie 2.

(** include/mcu/atmega328.hpp:2452, 2474-2477, 2479-2482:
    [adc::enable::set(auto_trigger)] and [current(auto_trigger)]. *)
Definition set_adc_enable_auto_trigger : setting := Setting adcsra_adate adcsra_adate 2.

(** include/mcu/atmega328.hpp:2451, 2484-2487, 2489-2492:
    [adc::enable::set(comparator)] and [current(comparator)]. *)
Definition set_adc_enable_comparator : setting := Setting adcsrb_acme adcsrb_acme 2.

(** include/mcu/atmega328.hpp:2514, 2526-2529, 2531-2534: [adc::trigger::set(on)] and
    [current(on)]. *)
Definition set_adc_trigger_on : setting := Setting adcsrb_adts adcsrb_adts 8.

(** include/mcu/atmega328.hpp:2541, 2553-2556, 2558-2561: [adc::prescale::set(factor)]
    and [current(factor)]. *)
Definition set_adc_prescale_factor : setting := Setting adcsra_adps adcsra_adps 8.

(** include/mcu/atmega328.hpp:444-450, 462-488: [ei::interrupt_sense<int0>]. *)
Definition set_ei_sense0 : setting := Setting eicra_ics0 eicra_ics0 4.

(** include/mcu/atmega328.hpp:444-450, 462-488: [ei::interrupt_sense<int1>]. *)
Definition set_ei_sense1 : setting := Setting eicra_ics1 eicra_ics1 4.

(** include/mcu/atmega328.hpp:1408-1416: [tc1::enable::capture::
    input_capture_noise_canceler] without and with argument. *)
Definition set_tc1_noise_canceler : setting := Setting tccr1b_icnc1 tccr1b_icnc1 2.

(** include/mcu/atmega328.hpp:240-2561: the lazily written settings. *)
Definition settings : list setting :=
  [set_mem_eeprom_program_mode; set_mem_eeprom_enable_master_write;
   set_mem_eeprom_enable_write; set_mem_eeprom_enable_read;
   set_mem_eeprom_interrupt_on_ready; set_tc0_input_clock; set_tc0_output_a_mode;
   set_tc0_output_b_mode; set_tc0_enable_interrupt_on_match_a;
   set_tc0_enable_interrupt_on_match_b; set_tc0_enable_interrupt_on_overflow;
   set_tc1_input_clock; set_tc1_input_capture_edge; set_tc1_output_a_mode;
   set_tc1_output_b_mode; set_tc1_enable_interrupt_on_capture;
   set_tc1_enable_interrupt_on_match_a; set_tc1_enable_interrupt_on_match_b;
   set_tc1_enable_interrupt_on_overflow; set_tcp_synchronization;
   set_tcp_reset_prescaler_tc2; set_tcp_reset_prescaler_tc01; set_twi_protocol_address;
   set_twi_enable_interface; set_twi_enable_interrupt; set_twi_enable_general_call;
   set_ac_input_select_bandgap_ref; set_ac_output_interrupt_on;
   set_ac_enable_interrupt; set_ac_enable_input_capture;
   set_ac_disable_analog_comparator; set_adc_conversion_adjustment;
   set_adc_input_reference; set_adc_input_channel; set_adc_enable_adc;
   set_adc_enable_interrupt; set_adc_enable_auto_trigger; set_adc_enable_comparator;
   set_adc_trigger_on; set_adc_prescale_factor;
   set_ei_sense0; set_ei_sense1; set_tc1_noise_canceler].

(** include/mcu/atmega328.hpp:830-833, for example: the statement [set(x1), set(x2),
    ...;] with one or more settings of one register. *)
Definition set_statement (hw : hardware) (l : list (setting * Z)) (m : machine)
  : option machine :=
  lazy_statement hw (map (fun sv => (s_set (fst sv), snd sv)) l) m.

(** include/mcu/atmega328.hpp:825-828, for example: [current]. *)
Definition current (s : setting) (m : machine) : option (Z * machine) :=
  field_read (s_current s) m.

(** ** Settings written at once *)

(** include/mcu/atmega328.hpp:210-218: EEPROM [set(address)] and [current(address)]. *)
Definition now_eeprom_address : setting := Setting mem_eear mem_eear (2 ^ 16).

(** include/mcu/atmega328.hpp:220-228: EEPROM [set(data)] and [current(data)]. *)
Definition now_eeprom_data : setting := Setting mem_eedr mem_eedr (2 ^ 8).

(** include/mcu/atmega328.hpp:496-514: [ei::enable_external_int0] and [int1] and the
    functions reading them back. *)
Definition now_ei_external (i : Z) : setting := Setting (ei_eimsk i) (ei_eimsk i) 2.

(** include/mcu/atmega328.hpp:546-574: [ei::enable_pin_change_int0] to [int2] and the
    functions reading them back. *)
Definition now_ei_pin_change (i : Z) : setting := Setting (ei_pcicr i) (ei_pcicr i) 2.

(** include/mcu/atmega328.hpp:629-657: [ei::pin_change_interrupt_mask0] to [mask2]
    without and with argument. *)
Definition now_ei_mask (n : Z) : setting :=
  Setting (ei_pcmsk_whole n) (ei_pcmsk_whole n) (2 ^ 8).

(** include/mcu/atmega328.hpp:941-949: [tc0::value::set(timer)], [current(timer)]. *)
Definition now_tc0_timer : setting := Setting tcnt0_whole tcnt0_whole (2 ^ 8).

(** include/mcu/atmega328.hpp:1366-1374: [tc1::value::set(timer)], [current(timer)]. *)
Definition now_tc1_timer : setting := Setting tcnt1_whole tcnt1_whole (2 ^ 16).

(** include/mcu/atmega328.hpp:1849-1857: [twi::protocol::set(data)],
    [current(data)]. *)
Definition now_twi_data : setting := Setting twi_twdr twi_twdr (2 ^ 8).

(** include/mcu/atmega328.hpp:1875-1883: [twi::control::set(rate)],
    [current(rate)]. *)
Definition now_twi_rate : setting := Setting twi_twbr twi_twbr (2 ^ 8).

(** include/mcu/atmega328.hpp:1895-1903: [twi::control::prescale::set(factor)],
    [current(factor)]. *)
Definition now_twi_prescale : setting := Setting twsr_twps twsr_twps 4.

(** include/mcu/atmega328.hpp:210-1903: the settings written at once. *)
Definition now_settings : list setting :=
  [now_eeprom_address; now_eeprom_data; now_ei_external 0; now_ei_external 1;
   now_ei_pin_change 0; now_ei_pin_change 1; now_ei_pin_change 2;
   now_ei_mask 0; now_ei_mask 1; now_ei_mask 2; now_tc0_timer; now_tc1_timer;
   now_twi_data; now_twi_rate; now_twi_prescale].

(** include/mcu/atmega328.hpp:215-218, for example: [set(x);] with a setting written
    at once. *)
Definition set_now (hw : hardware) (s : setting) (v : Z) (m : machine) : option machine :=
  field_write hw (s_set s) v m.

(** ** Flags *)

(** include/mcu/atmega328.hpp:1030-1038, for example: the field [current] reads and
    the field [clear] clears. *)
Record flag : Type := Flag { fl_current : field; fl_clear : field }.

(** include/mcu/atmega328.hpp:1030-1038: [tc0::interrupt::compare::flag::a]. *)
Definition flag_tc0_a : flag := Flag tifr0_ocf0a tifr0_ocf0a.
(** include/mcu/atmega328.hpp:1040-1048: [tc0::interrupt::compare::flag::b]. *)
Definition flag_tc0_b : flag := Flag tifr0_ocf0b tifr0_ocf0b.
(** include/mcu/atmega328.hpp:1056-1064: [tc0::interrupt::overflow::flag]. *)
Definition flag_tc0_overflow : flag := Flag tifr0_tov0 tifr0_tov0.
(** include/mcu/atmega328.hpp:1477-1485: [tc1::interrupt::capture::flag]. *)
Definition flag_tc1_capture : flag := Flag tifr1_icf1 tifr1_icf1.
(** include/mcu/atmega328.hpp:1495-1503: [tc1::interrupt::compare::flag::a]. *)
Definition flag_tc1_a : flag := Flag tifr1_ocf1a tifr1_ocf1a.
(** include/mcu/atmega328.hpp:1505-1513: [tc1::interrupt::compare::flag::b]. *)
Definition flag_tc1_b : flag := Flag tifr1_ocf1b tifr1_ocf1b.
(** include/mcu/atmega328.hpp:1521-1529: [tc1::interrupt::overflow::flag]. *)
Definition flag_tc1_overflow : flag := Flag tifr1_tov1 tifr1_tov1.
(** include/mcu/atmega328.hpp:521-539: [ei::external_int0_flag], [int1_flag] and the
    functions clearing them. *)
Definition flag_ei_external (i : Z) : flag := Flag (ei_eifr i) (ei_eifr i).
(** include/mcu/atmega328.hpp:581-609: [ei::pin_change_int0_flag] to [int2_flag] and
    the functions clearing them. *)
Definition flag_ei_pin_change (i : Z) : flag := Flag (ei_pcifr i) (ei_pcifr i).
(** include/mcu/atmega328.hpp:2244-2252: [ac::interrupt::flag]. *)
Definition flag_ac : flag := Flag acsr_aci acsr_aci.
(** include/mcu/atmega328.hpp:2499-2507: [adc::interrupt::flag]. *)
Definition flag_adc : flag := Flag adcsra_adif adcsra_adif.
(** include/mcu/atmega328.hpp:1948-1951, 1958-1961: [twi::interrupt::flag]. *)
Definition flag_twi : flag := Flag twcr_twint twcr_twintc.

(** include/mcu/atmega328.hpp:521-2507: [clear] of a flag. *)
Definition flag_clear (hw : hardware) (x : flag) (m : machine) : option machine :=
  field_clear hw (fl_clear x) m.

(** include/mcu/atmega328.hpp:521-2507: [current] of a flag. *)
Definition flag_current (x : flag) (m : machine) : option (bool * machine) :=
  match field_read (fl_current x) m with
  | Some (v, m1) => Some (negb (v =? 0), m1)
  | None => None
  end.

(** ** Waveforms *)

(** include/mcu/atmega328.hpp:900-903: [tc0::output::current(waveform)]; [WGM02] is
    3.  The reads are made from left to right; the source leaves their order open. *)
Definition tc0_current_waveform (m : machine) : option (Z * machine) :=
  match field_read tccr0b_wgm02 m with
  | Some (u, m1) =>
    match field_read tccr0a_wgm0 m1 with
    | Some (l, m2) => Some (trunc W8 (shl W8 u 3 + l), m2)
    | None => None
    end
  | None => None
  end.

(** include/mcu/atmega328.hpp:905-912: [tc0::output::set(waveform)]: writes one
    register and gives the lazy write of the other. *)
Definition tc0_set_waveform (hw : hardware) (w : Z) (m : machine)
  : option (proxy * machine) :=
  match field_write hw tccr0a_wgm0 (Z.land w (bitmask W8 [1; 0])) m,
        write_lazy tccr0b_wgm02 (shr W8 w 2) with
  | Some m1, Some p => Some (p, m1)
  | _, _ => None
  end.

(** include/mcu/atmega328.hpp:1325-1328: [tc1::output::current(waveform)]; [WGM12] is
    3. *)
Definition tc1_current_waveform (m : machine) : option (Z * machine) :=
  match field_read tccr1b_wgm1 m with
  | Some (u, m1) =>
    match field_read tccr1a_wgm1 m1 with
    | Some (l, m2) => Some (trunc W8 (shl W8 u 3 + l), m2)
    | None => None
    end
  | None => None
  end.

(** include/mcu/atmega328.hpp:1330-1337: [tc1::output::set(waveform)]. *)
Definition tc1_set_waveform (hw : hardware) (w : Z) (m : machine)
  : option (proxy * machine) :=
  match field_write hw tccr1a_wgm1 (Z.land w (bitmask W8 [1; 0])) m,
        write_lazy tccr1b_wgm1 (shr W8 w 2) with
  | Some m1, Some p => Some (p, m1)
  | _, _ => None
  end.

(** include/mcu/register.hpp:345-380, include/mcu/atmega328.hpp:2620-2623: a statement
    that begins with setting a waveform and goes on with settings joined by commas. *)
Definition then_set (hw : hardware) (start : option (proxy * machine))
  (l : list (setting * Z)) : option machine :=
  match start, lazies (map (fun sv => (s_set (fst sv), snd sv)) l) with
  | Some (p, m), Some ps => chain hw p ps m
  | _, _ => None
  end.

(** ** Forcing a compare, and compare values *)

(** include/mcu/atmega328.hpp:924-927: [set(tc0::control::compare::force::a)]. *)
Definition tc0_force_a (hw : hardware) (m : machine) : option machine :=
  field_set hw tccr0b_foc0a m.

(** include/mcu/atmega328.hpp:929-932: [set(tc0::control::compare::force::b)]. *)
Definition tc0_force_b (hw : hardware) (m : machine) : option machine :=
  field_set hw tccr0b_foc0b m.

(** include/mcu/atmega328.hpp:1349-1352: [set(tc1::control::compare::force::a)]. *)
Definition tc1_force_a (hw : hardware) (m : machine) : option machine :=
  field_set hw tccr1c_foc1a m.

(** include/mcu/atmega328.hpp:1354-1357: [set(tc1::control::compare::force::b)]. *)
Definition tc1_force_b (hw : hardware) (m : machine) : option machine :=
  field_set hw tccr1c_foc1b m.

(** include/mcu/atmega328.hpp:961-964, 971-974, 1386-1389, 1396-1399: the registers
    [set] of a compare value writes. *)
Inductive compare : Type := Tc0A | Tc0B | Tc1A | Tc1B.

(** include/mcu/atmega328.hpp:956-974, 1381-1399: the register of a compare value. *)
Definition compare_field (c : compare) : field :=
  match c with
  | Tc0A => ocr0a_whole | Tc0B => ocr0b_whole
  | Tc1A => ocr1a_whole | Tc1B => ocr1b_whole
  end.

(** include/mcu/atmega328.hpp:961-964, 971-974, 1386-1389, 1396-1399: [set] of a
    compare value. *)
Definition compare_set (hw : hardware) (c : compare) (v : Z) (m : machine)
  : option machine := field_write hw (compare_field c) v m.

(** include/mcu/atmega328.hpp:956-959, 966-969, 1381-1384, 1391-1394: [current] of a
    compare value; it reads the register but has no [return], so that its type is
    [void] and nothing is given back. *)
Definition compare_current (c : compare) (m : machine) : option (unit * machine) :=
  match field_read (compare_field c) m with
  | Some (_, m1) => Some (tt, m1)
  | None => None
  end.

(** ** ADC *)

(** include/mcu/atmega328.hpp:2361-2364: [adc::conversion::start], a lazy write of a
    one; [current] of it does not exist. *)
Definition adc_start : setting := Setting adcsra_adsc adcsra_adsc 2.

(** include/mcu/atmega328.hpp:2366-2369: [adc::conversion::result]. *)
Definition adc_result (m : machine) : option (Z * machine) := field_read adc_adchl m.

(** ** LED on a pin *)

(** include/mcu/atmega328.hpp:2596: [led::on]. *)
Definition led_on (hw : hardware) (p : port) (n : Z) (m : machine) : option machine :=
  field_set hw (gpio_out p n) m.

(** include/mcu/atmega328.hpp:2597: [led::off]. *)
Definition led_off (hw : hardware) (p : port) (n : Z) (m : machine) : option machine :=
  field_clear hw (gpio_out p n) m.

(** include/mcu/atmega328.hpp:2598: [led::toggle]. *)
Definition led_toggle (hw : hardware) (p : port) (n : Z) (m : machine)
  : option machine := field_toggle hw (gpio_out p n) m.

(** include/mcu/atmega328.hpp:2599: [led::enable]. *)
Definition led_enable (hw : hardware) (p : port) (n : Z) (m : machine)
  : option machine := field_set hw (gpio_dir p n) m.

(** ** Initialisations *)

(** include/mcu/atmega328.hpp:2613-2624: sequencing of statements; one that does not
    compile makes the function not compile. *)
Definition seq (a b : machine -> option machine) (m : machine) : option machine :=
  match a m with Some m1 => b m1 | None => None end.

(** include/mcu/atmega328.hpp:2613-2624: [tc1_pwm_on_a_pb1::init]; mode [clear] is 2,
    the waveform is 7, the clock [x1] is 1. *)
Definition pwm_init (hw : hardware) : machine -> option machine :=
  seq (field_set hw (gpio_dir PortB 1))
  (seq (set_statement hw [(set_tc1_output_a_mode, 2)])
       (fun m => then_set hw (tc1_set_waveform hw 7 m) [(set_tc1_input_clock, 1)])).

(** example/avr/avr-adc-dac-isr-atmega.e.cpp:73-92: [adc::init]; reference [avcc] is
    1, channel [ch0] 0, trigger [free_run] 0, prescale factor [x128] 7. *)
Definition adc_init (hw : hardware) : machine -> option machine :=
  seq (set_statement hw [(set_adc_input_reference, 1); (set_adc_input_channel, 0)])
  (seq (set_statement hw [(set_adc_trigger_on, 0)])
       (set_statement hw [(set_adc_prescale_factor, 7); (set_adc_enable_adc, 1);
                          (set_adc_enable_interrupt, 1);
                          (set_adc_enable_auto_trigger, 1); (adc_start, 1)])).

(** example/avr/avr-adc-dac-isr-atmega.e.cpp:159-162: [count1ms]; the assertion makes
    the clock frequencies for which the program compiles those with this value. *)
Definition count1ms : Z := 250.

(** example/avr/avr-adc-dac-isr-atmega.e.cpp:155-172: [beat::init]; waveform [ctc] is
    2, clock [x64] is 3. *)
Definition beat_init (hw : hardware) : machine -> option machine :=
  seq (set_statement hw [(set_tc0_enable_interrupt_on_match_a, 1)])
  (seq (compare_set hw Tc0A count1ms)
       (fun m => then_set hw (tc0_set_waveform hw 2 m) [(set_tc0_input_clock, 3)])).
