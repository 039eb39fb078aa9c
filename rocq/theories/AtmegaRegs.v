(** The registers and bit fields of the ATmega328: include/mcu/atmega328.hpp.
    The names of bits come from the device header of avr-libc, which the source
    includes; their numbers are written out here. *)

From Coq Require Import ZArith List.
From Verif Require Import Register.
Import ListNotations.
Open Scope Z_scope.

(** include/mcu/atmega328.hpp:97-130: [core::gpwr::r0] to [r31], the general purpose registers. *)
Definition gpwr_r (n : Z) : field := register8 RW n.

(** include/mcu/atmega328.hpp:66: [core::sreg::whole], address at line 48. *)
Definition sreg_whole : field := register8 RW 0x5f.

(** include/mcu/atmega328.hpp:67: [core::sreg::I], address at line 48. *)
Definition sreg_I : field := bit8 RW 0x5f 7.

(** include/mcu/atmega328.hpp:68: [core::sreg::T], address at line 48. *)
Definition sreg_T : field := bit8 RW 0x5f 6.

(** include/mcu/atmega328.hpp:69: [core::sreg::H], address at line 48. *)
Definition sreg_H : field := bit8 RW 0x5f 5.

(** include/mcu/atmega328.hpp:70: [core::sreg::S], address at line 48. *)
Definition sreg_S : field := bit8 RW 0x5f 4.

(** include/mcu/atmega328.hpp:71: [core::sreg::V], address at line 48. *)
Definition sreg_V : field := bit8 RW 0x5f 3.

(** include/mcu/atmega328.hpp:72: [core::sreg::N], address at line 48. *)
Definition sreg_N : field := bit8 RW 0x5f 2.

(** include/mcu/atmega328.hpp:73: [core::sreg::Z], address at line 48. *)
Definition sreg_Z : field := bit8 RW 0x5f 1.

(** include/mcu/atmega328.hpp:74: [core::sreg::C], address at line 48. *)
Definition sreg_C : field := bit8 RW 0x5f 0.

(** include/mcu/atmega328.hpp:132: [core::gpwr::x]. *)
Definition gpwr_x : field := register16 RW 0x1a.

(** include/mcu/atmega328.hpp:133: [core::gpwr::y]. *)
Definition gpwr_y : field := register16 RW 0x1c.

(** include/mcu/atmega328.hpp:134: [core::gpwr::z]. *)
Definition gpwr_z : field := register16 RW 0x1e.

(** include/mcu/atmega328.hpp:141: [core::sp::whole], address at line 49. *)
Definition sp_whole : field := register16 RW 0x5d.

(** include/mcu/atmega328.hpp:142: [core::sp::lo], address at line 50. *)
Definition sp_lo : field := register8 RW 0x5d.

(** include/mcu/atmega328.hpp:143: [core::sp::hi], address at line 51. *)
Definition sp_hi : field := register8 RW 0x5e.

(** include/mcu/atmega328.hpp:179: [mem::eear], address at line 165. *)
Definition mem_eear : field := register16 RW 0x41.

(** include/mcu/atmega328.hpp:180: [mem::eedr], address at line 166. *)
Definition mem_eedr : field := register8 RW 0x40.

(** include/mcu/atmega328.hpp:192: [mem::eecr::whole], address at line 167. *)
Definition eecr_whole : field := register8 RW 0x3f.

(** include/mcu/atmega328.hpp:193: [mem::eecr::eepm], address at line 167. *)
Definition eecr_eepm : field := bitfield8 RW 0x3f 5 4.

(** include/mcu/atmega328.hpp:194: [mem::eecr::eerie], address at line 167. *)
Definition eecr_eerie : field := bit8 RW 0x3f 3.

(** include/mcu/atmega328.hpp:195: [mem::eecr::eempe], address at line 167. *)
Definition eecr_eempe : field := bit8 RW 0x3f 2.

(** include/mcu/atmega328.hpp:196: [mem::eecr::eepe], address at line 167. *)
Definition eecr_eepe : field := bit8 RW 0x3f 1.

(** include/mcu/atmega328.hpp:197: [mem::eecr::eere], address at line 167. *)
Definition eecr_eere : field := bit8 RW 0x3f 0.

(** include/mcu/atmega328.hpp:456: [ei::eicra::whole], address at line 435. *)
Definition eicra_whole : field := register8 RW 0x69.

(** include/mcu/atmega328.hpp:457: [ei::eicra::ics1], address at line 435. *)
Definition eicra_ics1 : field := bitfield8 RW 0x69 3 2.

(** include/mcu/atmega328.hpp:458: [ei::eicra::ics0], address at line 435. *)
Definition eicra_ics0 : field := bitfield8 RW 0x69 1 0.

(** include/mcu/atmega328.hpp:734: [tc0::tccr0a::whole], address at line 721. *)
Definition tccr0a_whole : field := register8 RW 0x44.

(** include/mcu/atmega328.hpp:735: [tc0::tccr0a::com0a], address at line 721. *)
Definition tccr0a_com0a : field := bitfield8 RW 0x44 7 6.

(** include/mcu/atmega328.hpp:736: [tc0::tccr0a::com0b], address at line 721. *)
Definition tccr0a_com0b : field := bitfield8 RW 0x44 5 4.

(** include/mcu/atmega328.hpp:737: [tc0::tccr0a::wgm0], address at line 721. *)
Definition tccr0a_wgm0 : field := bitfield8 RW 0x44 1 0.

(** include/mcu/atmega328.hpp:746: [tc0::tccr0b::whole], address at line 722. *)
Definition tccr0b_whole : field := register8 RW 0x45.

(** include/mcu/atmega328.hpp:747: [tc0::tccr0b::foc0a], address at line 722. *)
Definition tccr0b_foc0a : field := bit8 RW 0x45 7.

(** include/mcu/atmega328.hpp:748: [tc0::tccr0b::foc0b], address at line 722. *)
Definition tccr0b_foc0b : field := bit8 RW 0x45 6.

(** include/mcu/atmega328.hpp:749: [tc0::tccr0b::wgm02], address at line 722. *)
Definition tccr0b_wgm02 : field := bit8 RW 0x45 3.

(** include/mcu/atmega328.hpp:750: [tc0::tccr0b::cs0], address at line 722. *)
Definition tccr0b_cs0 : field := bitfield8 RW 0x45 2 0.

(** include/mcu/atmega328.hpp:759: [tc0::timsk0::whole], address at line 723. *)
Definition timsk0_whole : field := register8 RW 0x6e.

(** include/mcu/atmega328.hpp:760: [tc0::timsk0::ocie0b], address at line 723. *)
Definition timsk0_ocie0b : field := bit8 RW 0x6e 2.

(** include/mcu/atmega328.hpp:761: [tc0::timsk0::ocie0a], address at line 723. *)
Definition timsk0_ocie0a : field := bit8 RW 0x6e 1.

(** include/mcu/atmega328.hpp:762: [tc0::timsk0::toie0], address at line 723. *)
Definition timsk0_toie0 : field := bit8 RW 0x6e 0.

(** include/mcu/atmega328.hpp:776: [tc0::tcnt0::whole], address at line 725. *)
Definition tcnt0_whole : field := register8 RW 0x46.

(** include/mcu/atmega328.hpp:784: [tc0::ocr0a::whole], address at line 726. *)
Definition ocr0a_whole : field := register8 RW 0x47.

(** include/mcu/atmega328.hpp:792: [tc0::ocr0b::whole], address at line 727. *)
Definition ocr0b_whole : field := register8 RW 0x48.

(** include/mcu/atmega328.hpp:800: [tc0::tifr0::whole], address at line 728. *)
Definition tifr0_whole : field := register8 RW 0x35.

(** include/mcu/atmega328.hpp:801: [tc0::tifr0::ocf0b], address at line 728. *)
Definition tifr0_ocf0b : field := bit8 RC_W1 0x35 2.

(** include/mcu/atmega328.hpp:802: [tc0::tifr0::ocf0a], address at line 728. *)
Definition tifr0_ocf0a : field := bit8 RC_W1 0x35 1.

(** include/mcu/atmega328.hpp:803: [tc0::tifr0::tov0], address at line 728. *)
Definition tifr0_tov0 : field := bit8 RC_W1 0x35 0.

(** include/mcu/atmega328.hpp:1108: [tc1::tccr1a::whole], address at line 1086. *)
Definition tccr1a_whole : field := register8 RW 0x80.

(** include/mcu/atmega328.hpp:1109: [tc1::tccr1a::com1a], address at line 1086. *)
Definition tccr1a_com1a : field := bitfield8 RW 0x80 7 6.

(** include/mcu/atmega328.hpp:1110: [tc1::tccr1a::com1b], address at line 1086. *)
Definition tccr1a_com1b : field := bitfield8 RW 0x80 5 4.

(** include/mcu/atmega328.hpp:1111: [tc1::tccr1a::wgm1], address at line 1086. *)
Definition tccr1a_wgm1 : field := bitfield8 RW 0x80 1 0.

(** include/mcu/atmega328.hpp:1120: [tc1::tccr1b::whole], address at line 1087. *)
Definition tccr1b_whole : field := register8 RW 0x81.

(** include/mcu/atmega328.hpp:1121: [tc1::tccr1b::icnc1], address at line 1087. *)
Definition tccr1b_icnc1 : field := bit8 RW 0x81 7.

(** include/mcu/atmega328.hpp:1122: [tc1::tccr1b::ices1], address at line 1087. *)
Definition tccr1b_ices1 : field := bit8 RW 0x81 6.

(** include/mcu/atmega328.hpp:1123: [tc1::tccr1b::wgm1], address at line 1087. *)
Definition tccr1b_wgm1 : field := bitfield8 RW 0x81 4 3.

(** include/mcu/atmega328.hpp:1124: [tc1::tccr1b::cs1], address at line 1087. *)
Definition tccr1b_cs1 : field := bitfield8 RW 0x81 2 0.

(** include/mcu/atmega328.hpp:1133: [tc1::tccr1c::whole], address at line 1088. *)
Definition tccr1c_whole : field := register8 RW 0x82.

(** include/mcu/atmega328.hpp:1134: [tc1::tccr1c::foc1a], address at line 1086. *)
Definition tccr1c_foc1a : field := bit8 RW 0x80 7.

(** include/mcu/atmega328.hpp:1135: [tc1::tccr1c::foc1b], address at line 1086. *)
Definition tccr1c_foc1b : field := bit8 RW 0x80 6.

(** include/mcu/atmega328.hpp:1144: [tc1::tcnt1::whole], address at line 1089. *)
Definition tcnt1_whole : field := register16 RW 0x84.

(** include/mcu/atmega328.hpp:1145: [tc1::tcnt1::lo], address at line 1090. *)
Definition tcnt1_lo : field := register8 RW 0x84.

(** include/mcu/atmega328.hpp:1146: [tc1::tcnt1::hi], address at line 1091. *)
Definition tcnt1_hi : field := register8 RW 0x85.

(** include/mcu/atmega328.hpp:1155: [tc1::icr1::whole], address at line 1092. *)
Definition icr1_whole : field := register16 RW 0x86.

(** include/mcu/atmega328.hpp:1156: [tc1::icr1::lo], address at line 1093. *)
Definition icr1_lo : field := register8 RW 0x86.

(** include/mcu/atmega328.hpp:1157: [tc1::icr1::hi], address at line 1094. *)
Definition icr1_hi : field := register8 RW 0x87.

(** include/mcu/atmega328.hpp:1166: [tc1::ocr1a::whole], address at line 1095. *)
Definition ocr1a_whole : field := register16 RW 0x88.

(** include/mcu/atmega328.hpp:1167: [tc1::ocr1a::lo], address at line 1096. *)
Definition ocr1a_lo : field := register8 RW 0x88.

(** include/mcu/atmega328.hpp:1168: [tc1::ocr1a::hi], address at line 1097. *)
Definition ocr1a_hi : field := register8 RW 0x89.

(** include/mcu/atmega328.hpp:1177: [tc1::ocr1b::whole], address at line 1098. *)
Definition ocr1b_whole : field := register16 RW 0x8a.

(** include/mcu/atmega328.hpp:1178: [tc1::ocr1b::lo], address at line 1099. *)
Definition ocr1b_lo : field := register8 RW 0x8a.

(** include/mcu/atmega328.hpp:1179: [tc1::ocr1b::hi], address at line 1100. *)
Definition ocr1b_hi : field := register8 RW 0x8b.

(** include/mcu/atmega328.hpp:1188: [tc1::timsk1::whole], address at line 1101. *)
Definition timsk1_whole : field := register8 RW 0x6f.

(** include/mcu/atmega328.hpp:1189: [tc1::timsk1::icie1], address at line 1101. *)
Definition timsk1_icie1 : field := bit8 RW 0x6f 5.

(** include/mcu/atmega328.hpp:1190: [tc1::timsk1::ocie1b], address at line 1101. *)
Definition timsk1_ocie1b : field := bit8 RW 0x6f 2.

(** include/mcu/atmega328.hpp:1191: [tc1::timsk1::ocie1a], address at line 1101. *)
Definition timsk1_ocie1a : field := bit8 RW 0x6f 1.

(** include/mcu/atmega328.hpp:1192: [tc1::timsk1::toie1], address at line 1101. *)
Definition timsk1_toie1 : field := bit8 RW 0x6f 0.

(** include/mcu/atmega328.hpp:1201: [tc1::tifr1::whole], address at line 1102. *)
Definition tifr1_whole : field := register8 RC_W1 0x36.

(** include/mcu/atmega328.hpp:1202: [tc1::tifr1::icf1], address at line 1102. *)
Definition tifr1_icf1 : field := bit8 RC_W1 0x36 5.

(** include/mcu/atmega328.hpp:1203: [tc1::tifr1::ocf1b], address at line 1102. *)
Definition tifr1_ocf1b : field := bit8 RC_W1 0x36 2.

(** include/mcu/atmega328.hpp:1204: [tc1::tifr1::ocf1a], address at line 1102. *)
Definition tifr1_ocf1a : field := bit8 RC_W1 0x36 1.

(** include/mcu/atmega328.hpp:1205: [tc1::tifr1::tov1], address at line 1102. *)
Definition tifr1_tov1 : field := bit8 RC_W1 0x36 0.

(** include/mcu/atmega328.hpp:1547: [tcp::gtccr::whole], address at line 1541. *)
Definition gtccr_whole : field := register8 RW 0x43.

(** include/mcu/atmega328.hpp:1548: [tcp::gtccr::tsm], address at line 1541. *)
Definition gtccr_tsm : field := bit8 RW 0x43 7.

(** include/mcu/atmega328.hpp:1549: [tcp::gtccr::psrasy], address at line 1541. *)
Definition gtccr_psrasy : field := bit8 RW 0x43 1.

(** include/mcu/atmega328.hpp:1550: [tcp::gtccr::psrsync], address at line 1541. *)
Definition gtccr_psrsync : field := bit8 RW 0x43 0.

(** include/mcu/atmega328.hpp:1746: [twi::twbr], address at line 1733. *)
Definition twi_twbr : field := register8 RW 0xb8.

(** include/mcu/atmega328.hpp:1747: [twi::twdr], address at line 1736. *)
Definition twi_twdr : field := register8 RW 0xbb.

(** include/mcu/atmega328.hpp:1753: [twi::twsr::whole], address at line 1734. *)
Definition twsr_whole : field := register8 RW 0xb9.

(** include/mcu/atmega328.hpp:1754: [twi::twsr::tws], address at line 1734. *)
Definition twsr_tws : field := bitfield8 R 0xb9 7 3.

(** include/mcu/atmega328.hpp:1755: [twi::twsr::twps], address at line 1734. *)
Definition twsr_twps : field := bitfield8 RW 0xb9 1 0.

(** include/mcu/atmega328.hpp:1762: [twi::twar::whole], address at line 1735. *)
Definition twar_whole : field := register8 RW 0xba.

(** include/mcu/atmega328.hpp:1763: [twi::twar::twa], address at line 1735. *)
Definition twar_twa : field := bitfield8 RW 0xba 7 1.

(** include/mcu/atmega328.hpp:1764: [twi::twar::twgce], address at line 1735. *)
Definition twar_twgce : field := bit8 RW 0xba 0.

(** include/mcu/atmega328.hpp:1771: [twi::twcr::whole], address at line 1737. *)
Definition twcr_whole : field := register8 RW 0xbc.

(** include/mcu/atmega328.hpp:1772: [twi::twcr::twintc], address at line 1737. *)
Definition twcr_twintc : field := bit8 RC_W1 0xbc 7.

(** include/mcu/atmega328.hpp:1773: [twi::twcr::twint], address at line 1737. *)
Definition twcr_twint : field := bit8 RW 0xbc 7.

(** include/mcu/atmega328.hpp:1774: [twi::twcr::twea], address at line 1737. *)
Definition twcr_twea : field := bit8 RW 0xbc 6.

(** include/mcu/atmega328.hpp:1775: [twi::twcr::twsta], address at line 1737. *)
Definition twcr_twsta : field := bit8 RW 0xbc 5.

(** include/mcu/atmega328.hpp:1776: [twi::twcr::twsto], address at line 1737. *)
Definition twcr_twsto : field := bit8 RW 0xbc 4.

(** include/mcu/atmega328.hpp:1777: [twi::twcr::twwc], address at line 1737. *)
Definition twcr_twwc : field := bit8 RW 0xbc 3.

(** include/mcu/atmega328.hpp:1778: [twi::twcr::twen], address at line 1737. *)
Definition twcr_twen : field := bit8 RW 0xbc 2.

(** include/mcu/atmega328.hpp:1779: [twi::twcr::twie], address at line 1737. *)
Definition twcr_twie : field := bit8 RW 0xbc 0.

(** include/mcu/atmega328.hpp:1786: [twi::twamr::whole], address at line 1738. *)
Definition twamr_whole : field := register8 RW 0xbd.

(** include/mcu/atmega328.hpp:1787: [twi::twamr::twam], address at line 1738. *)
Definition twamr_twam : field := bitfield8 RW 0xbd 7 1.

(** include/mcu/atmega328.hpp:2122: [ac::acsr::whole], address at line 2115. *)
Definition acsr_whole : field := register8 RW 0x50.

(** include/mcu/atmega328.hpp:2123: [ac::acsr::acd], address at line 2115. *)
Definition acsr_acd : field := bit8 RW 0x50 7.

(** include/mcu/atmega328.hpp:2124: [ac::acsr::acbg], address at line 2115. *)
Definition acsr_acbg : field := bit8 RW 0x50 6.

(** include/mcu/atmega328.hpp:2125: [ac::acsr::aco], address at line 2115. *)
Definition acsr_aco : field := bit8 R 0x50 5.

(** include/mcu/atmega328.hpp:2126: [ac::acsr::aci], address at line 2115. *)
Definition acsr_aci : field := bit8 RC_W1 0x50 4.

(** include/mcu/atmega328.hpp:2127: [ac::acsr::acie], address at line 2115. *)
Definition acsr_acie : field := bit8 RW 0x50 3.

(** include/mcu/atmega328.hpp:2128: [ac::acsr::acic], address at line 2115. *)
Definition acsr_acic : field := bit8 RW 0x50 2.

(** include/mcu/atmega328.hpp:2129: [ac::acsr::acis], address at line 2115. *)
Definition acsr_acis : field := bitfield8 RW 0x50 1 0.

(** include/mcu/atmega328.hpp:2137: [ac::didr1], address at line 2116. *)
Definition ac_didr1 : field := bitfield8 RW 0x7f 1 0.

(** include/mcu/atmega328.hpp:2287: [adc::adc::whole], address at line 2272. *)
Definition adc_whole : field := register16 R 0x78.

(** include/mcu/atmega328.hpp:2288: [adc::adc::adchl], address at line 2272. *)
Definition adc_adchl : field := register16 R 0x78.

(** include/mcu/atmega328.hpp:2289: [adc::adc::adcl], address at line 2272. *)
Definition adc_adcl : field := register8 R 0x78.

(** include/mcu/atmega328.hpp:2290: [adc::adc::adch], address at line 2273. *)
Definition adc_adch : field := register8 R 0x79.

(** include/mcu/atmega328.hpp:2299: [adc::admux::whole], address at line 2276. *)
Definition admux_whole : field := register8 RW 0x7c.

(** include/mcu/atmega328.hpp:2300: [adc::admux::refs], address at line 2276. *)
Definition admux_refs : field := bitfield8 RW 0x7c 7 6.

(** include/mcu/atmega328.hpp:2301: [adc::admux::adlar], address at line 2276. *)
Definition admux_adlar : field := bit8 RW 0x7c 5.

(** include/mcu/atmega328.hpp:2302: [adc::admux::mux], address at line 2276. *)
Definition admux_mux : field := bitfield8 RW 0x7c 3 0.

(** include/mcu/atmega328.hpp:2311: [adc::adcsra::whole], address at line 2274. *)
Definition adcsra_whole : field := register8 RW 0x7a.

(** include/mcu/atmega328.hpp:2312: [adc::adcsra::aden], address at line 2274. *)
Definition adcsra_aden : field := bit8 RW 0x7a 7.

(** include/mcu/atmega328.hpp:2313: [adc::adcsra::adsc], address at line 2274. *)
Definition adcsra_adsc : field := bit8 RW 0x7a 6.

(** include/mcu/atmega328.hpp:2314: [adc::adcsra::adate], address at line 2274. *)
Definition adcsra_adate : field := bit8 RW 0x7a 5.

(** include/mcu/atmega328.hpp:2315: [adc::adcsra::adif], address at line 2274. *)
Definition adcsra_adif : field := bit8 RC_W1 0x7a 4.

(** include/mcu/atmega328.hpp:2316: [adc::adcsra::adie], address at line 2274. *)
Definition adcsra_adie : field := bit8 RW 0x7a 3.

(** include/mcu/atmega328.hpp:2317: [adc::adcsra::adps], address at line 2274. *)
Definition adcsra_adps : field := bitfield8 RW 0x7a 2 0.

(** include/mcu/atmega328.hpp:2326: [adc::adcsrb::whole], address at line 2275. *)
Definition adcsrb_whole : field := register8 RW 0x7b.

(** include/mcu/atmega328.hpp:2327: [adc::adcsrb::acme], address at line 2275. *)
Definition adcsrb_acme : field := bit8 RW 0x7b 6.

(** include/mcu/atmega328.hpp:2328: [adc::adcsrb::adts], address at line 2275. *)
Definition adcsrb_adts : field := bitfield8 RW 0x7b 2 0.

(** include/mcu/atmega328.hpp:2336: [adc::didr0], address at line 2278. *)
Definition adc_didr0 : field := bitfield8 RW 0x7e 5 0.

(** include/mcu/atmega328.hpp:169-171, 311-318: [mem::gpio<rn>::whole] for the address of general purpose
    register [rn]. *)
Definition gpior_whole (address : Z) : field := register8 RW address.

(** include/mcu/atmega328.hpp:321-322: [mem::gpio<rn>::bit]. *)
Definition gpior_bit (address b : Z) : field := bit8 RW address b.

(** include/mcu/atmega328.hpp:436, 493-494: [ei::eimsk]. *)
Definition ei_eimsk (i : Z) : field := bit8 RW 0x3d i.

(** include/mcu/atmega328.hpp:437, 518-519: [ei::eifr]. *)
Definition ei_eifr (i : Z) : field := bit8 RC_W1 0x3c i.

(** include/mcu/atmega328.hpp:438, 543-544: [ei::pcicr]. *)
Definition ei_pcicr (i : Z) : field := bit8 RW 0x68 i.

(** include/mcu/atmega328.hpp:439, 578-579: [ei::pcifr]. *)
Definition ei_pcifr (i : Z) : field := bit8 RW 0x3b i.

(** include/mcu/atmega328.hpp:440-442, 615-617: addresses of the pin change mask registers 0 to 2. *)
Definition pcmsk_addr (n : Z) : Z := 0x6b + n.

(** include/mcu/atmega328.hpp:622: [ei::pcmsk::whole]. *)
Definition ei_pcmsk_whole (n : Z) : field := register8 RW (pcmsk_addr n).

(** include/mcu/atmega328.hpp:625-626: [ei::pcmsk::bit]. *)
Definition ei_pcmsk_bit (n b : Z) : field := bit8 RW (pcmsk_addr n) b.

(** include/mcu/atmega328.hpp:678: the io ports. *)
Inductive port : Type := PortB | PortC | PortD.

(** include/mcu/atmega328.hpp:33-37, 678: [to_integral] of a port. *)
Definition port_number (p : port) : Z :=
  match p with PortB => 0 | PortC => 1 | PortD => 2 end.

(** include/mcu/atmega328.hpp:683: [gpio::base_addr]. *)
Definition gpio_base (p : port) : Z := 0x23 + 3 * port_number p.

(** include/mcu/atmega328.hpp:684: [gpio::pin_addr]. *)
Definition pin_addr (p : port) : Z := gpio_base p + 0.

(** include/mcu/atmega328.hpp:685: [gpio::ddr_addr]. *)
Definition ddr_addr (p : port) : Z := gpio_base p + 1.

(** include/mcu/atmega328.hpp:686: [gpio::port_addr]. *)
Definition port_addr (p : port) : Z := gpio_base p + 2.

(** include/mcu/atmega328.hpp:690: [gpio::pin]. *)
Definition gpio_pin (p : port) : field := register8 RW (pin_addr p).

(** include/mcu/atmega328.hpp:691: [gpio::ddr]. *)
Definition gpio_ddr (p : port) : field := register8 RW (ddr_addr p).

(** include/mcu/atmega328.hpp:692: [gpio::port]. *)
Definition gpio_port (p : port) : field := register8 RW (port_addr p).

(** include/mcu/atmega328.hpp:697: [gpio::p::dir]. *)
Definition gpio_dir (p : port) (n : Z) : field := bit8 RW (ddr_addr p) n.

(** include/mcu/atmega328.hpp:698: [gpio::p::inp]. *)
Definition gpio_inp (p : port) (n : Z) : field := bit8 RW (pin_addr p) n.

(** include/mcu/atmega328.hpp:699: [gpio::p::out]. *)
Definition gpio_out (p : port) (n : Z) : field := bit8 RW (port_addr p) n.

(** include/mcu/atmega328.hpp:24-2341: the fields with fixed addresses and bits, in the order of the
    source. *)
Definition fixed_fields : list field :=
  [sreg_whole; sreg_I; sreg_T; sreg_H; sreg_S; sreg_V; sreg_N; sreg_Z; sreg_C; gpwr_x;
   gpwr_y; gpwr_z; sp_whole; sp_lo; sp_hi; mem_eear; mem_eedr; eecr_whole; eecr_eepm;
   eecr_eerie; eecr_eempe; eecr_eepe; eecr_eere; eicra_whole; eicra_ics1; eicra_ics0;
   tccr0a_whole; tccr0a_com0a; tccr0a_com0b; tccr0a_wgm0; tccr0b_whole; tccr0b_foc0a;
   tccr0b_foc0b; tccr0b_wgm02; tccr0b_cs0; timsk0_whole; timsk0_ocie0b; timsk0_ocie0a;
   timsk0_toie0; tcnt0_whole; ocr0a_whole; ocr0b_whole; tifr0_whole; tifr0_ocf0b;
   tifr0_ocf0a; tifr0_tov0; tccr1a_whole; tccr1a_com1a; tccr1a_com1b; tccr1a_wgm1;
   tccr1b_whole; tccr1b_icnc1; tccr1b_ices1; tccr1b_wgm1; tccr1b_cs1; tccr1c_whole;
   tccr1c_foc1a; tccr1c_foc1b; tcnt1_whole; tcnt1_lo; tcnt1_hi; icr1_whole; icr1_lo;
   icr1_hi; ocr1a_whole; ocr1a_lo; ocr1a_hi; ocr1b_whole; ocr1b_lo; ocr1b_hi;
   timsk1_whole; timsk1_icie1; timsk1_ocie1b; timsk1_ocie1a; timsk1_toie1; tifr1_whole;
   tifr1_icf1; tifr1_ocf1b; tifr1_ocf1a; tifr1_tov1; gtccr_whole; gtccr_tsm;
   gtccr_psrasy; gtccr_psrsync; twi_twbr; twi_twdr; twsr_whole; twsr_tws; twsr_twps;
   twar_whole; twar_twa; twar_twgce; twcr_whole; twcr_twintc; twcr_twint; twcr_twea;
   twcr_twsta; twcr_twsto; twcr_twwc; twcr_twen; twcr_twie; twamr_whole; twamr_twam;
   acsr_whole; acsr_acd; acsr_acbg; acsr_aco; acsr_aci; acsr_acie; acsr_acic;
   acsr_acis; ac_didr1; adc_whole; adc_adchl; adc_adcl; adc_adch; admux_whole;
   admux_refs; admux_adlar; admux_mux; adcsra_whole; adcsra_aden; adcsra_adsc;
   adcsra_adate; adcsra_adif; adcsra_adie; adcsra_adps; adcsrb_whole; adcsrb_acme;
   adcsrb_adts; adc_didr0].
