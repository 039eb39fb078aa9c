(** * The register summary of the ATmega328 data sheet

    Written from the register summary of the manufacturer's data sheet, for the registers
    named in include/mcu/atmega328.hpp: name, address in data space, names of the bits from
    bit 7 down to bit 0 ("-": reserved). *)

From Coq Require Import ZArith List String.
Import ListNotations.
Open Scope Z_scope.
Open Scope string_scope.

Definition sheet : list (string * Z * list string) := [
  ("PINB", 0x23, ["PINB7"; "PINB6"; "PINB5"; "PINB4"; "PINB3"; "PINB2"; "PINB1"; "PINB0"]);
  ("DDRB", 0x24, ["DDB7"; "DDB6"; "DDB5"; "DDB4"; "DDB3"; "DDB2"; "DDB1"; "DDB0"]);
  ("PORTB", 0x25, ["PORTB7"; "PORTB6"; "PORTB5"; "PORTB4"; "PORTB3"; "PORTB2"; "PORTB1"; "PORTB0"]);
  ("PINC", 0x26, ["-"; "PINC6"; "PINC5"; "PINC4"; "PINC3"; "PINC2"; "PINC1"; "PINC0"]);
  ("DDRC", 0x27, ["-"; "DDC6"; "DDC5"; "DDC4"; "DDC3"; "DDC2"; "DDC1"; "DDC0"]);
  ("PORTC", 0x28, ["-"; "PORTC6"; "PORTC5"; "PORTC4"; "PORTC3"; "PORTC2"; "PORTC1"; "PORTC0"]);
  ("PIND", 0x29, ["PIND7"; "PIND6"; "PIND5"; "PIND4"; "PIND3"; "PIND2"; "PIND1"; "PIND0"]);
  ("DDRD", 0x2a, ["DDD7"; "DDD6"; "DDD5"; "DDD4"; "DDD3"; "DDD2"; "DDD1"; "DDD0"]);
  ("PORTD", 0x2b, ["PORTD7"; "PORTD6"; "PORTD5"; "PORTD4"; "PORTD3"; "PORTD2"; "PORTD1"; "PORTD0"]);
  ("TIFR0", 0x35, ["-"; "-"; "-"; "-"; "-"; "OCF0B"; "OCF0A"; "TOV0"]);
  ("TIFR1", 0x36, ["-"; "-"; "ICF1"; "-"; "-"; "OCF1B"; "OCF1A"; "TOV1"]);
  ("PCIFR", 0x3b, ["-"; "-"; "-"; "-"; "-"; "PCIF2"; "PCIF1"; "PCIF0"]);
  ("EIFR", 0x3c, ["-"; "-"; "-"; "-"; "-"; "-"; "INTF1"; "INTF0"]);
  ("EIMSK", 0x3d, ["-"; "-"; "-"; "-"; "-"; "-"; "INT1"; "INT0"]);
  ("EECR", 0x3f, ["-"; "-"; "EEPM1"; "EEPM0"; "EERIE"; "EEMPE"; "EEPE"; "EERE"]);
  ("EEDR", 0x40, ["EEDR7"; "EEDR6"; "EEDR5"; "EEDR4"; "EEDR3"; "EEDR2"; "EEDR1"; "EEDR0"]);
  ("EEARL", 0x41, ["EEAR7"; "EEAR6"; "EEAR5"; "EEAR4"; "EEAR3"; "EEAR2"; "EEAR1"; "EEAR0"]);
  ("EEARH", 0x42, ["-"; "-"; "-"; "-"; "-"; "-"; "EEAR9"; "EEAR8"]);
  ("GTCCR", 0x43, ["TSM"; "-"; "-"; "-"; "-"; "-"; "PSRASY"; "PSRSYNC"]);
  ("TCCR0A", 0x44, ["COM0A1"; "COM0A0"; "COM0B1"; "COM0B0"; "-"; "-"; "WGM01"; "WGM00"]);
  ("TCCR0B", 0x45, ["FOC0A"; "FOC0B"; "-"; "-"; "WGM02"; "CS02"; "CS01"; "CS00"]);
  ("TCNT0", 0x46, ["T7"; "T6"; "T5"; "T4"; "T3"; "T2"; "T1"; "T0"]);
  ("OCR0A", 0x47, ["A7"; "A6"; "A5"; "A4"; "A3"; "A2"; "A1"; "A0"]);
  ("OCR0B", 0x48, ["B7"; "B6"; "B5"; "B4"; "B3"; "B2"; "B1"; "B0"]);
  ("ACSR", 0x50, ["ACD"; "ACBG"; "ACO"; "ACI"; "ACIE"; "ACIC"; "ACIS1"; "ACIS0"]);
  ("SPL", 0x5d, ["SP7"; "SP6"; "SP5"; "SP4"; "SP3"; "SP2"; "SP1"; "SP0"]);
  ("SPH", 0x5e, ["-"; "-"; "-"; "-"; "-"; "SP10"; "SP9"; "SP8"]);
  ("SREG", 0x5f, ["I"; "T"; "H"; "S"; "V"; "N"; "Z"; "C"]);
  ("PCICR", 0x68, ["-"; "-"; "-"; "-"; "-"; "PCIE2"; "PCIE1"; "PCIE0"]);
  ("EICRA", 0x69, ["-"; "-"; "-"; "-"; "ISC11"; "ISC10"; "ISC01"; "ISC00"]);
  ("PCMSK0", 0x6b, ["PCINT7"; "PCINT6"; "PCINT5"; "PCINT4"; "PCINT3"; "PCINT2"; "PCINT1"; "PCINT0"]);
  ("PCMSK1", 0x6c, ["-"; "PCINT14"; "PCINT13"; "PCINT12"; "PCINT11"; "PCINT10"; "PCINT9"; "PCINT8"]);
  ("PCMSK2", 0x6d, ["PCINT23"; "PCINT22"; "PCINT21"; "PCINT20"; "PCINT19"; "PCINT18"; "PCINT17"; "PCINT16"]);
  ("TIMSK0", 0x6e, ["-"; "-"; "-"; "-"; "-"; "OCIE0B"; "OCIE0A"; "TOIE0"]);
  ("TIMSK1", 0x6f, ["-"; "-"; "ICIE1"; "-"; "-"; "OCIE1B"; "OCIE1A"; "TOIE1"]);
  ("ADCL", 0x78, ["ADC7"; "ADC6"; "ADC5"; "ADC4"; "ADC3"; "ADC2"; "ADC1"; "ADC0"]);
  ("ADCH", 0x79, ["-"; "-"; "-"; "-"; "-"; "-"; "ADC9"; "ADC8"]);
  ("ADCSRA", 0x7a, ["ADEN"; "ADSC"; "ADATE"; "ADIF"; "ADIE"; "ADPS2"; "ADPS1"; "ADPS0"]);
  ("ADCSRB", 0x7b, ["-"; "ACME"; "-"; "-"; "-"; "ADTS2"; "ADTS1"; "ADTS0"]);
  ("ADMUX", 0x7c, ["REFS1"; "REFS0"; "ADLAR"; "-"; "MUX3"; "MUX2"; "MUX1"; "MUX0"]);
  ("DIDR0", 0x7e, ["-"; "-"; "ADC5D"; "ADC4D"; "ADC3D"; "ADC2D"; "ADC1D"; "ADC0D"]);
  ("DIDR1", 0x7f, ["-"; "-"; "-"; "-"; "-"; "-"; "AIN1D"; "AIN0D"]);
  ("TCCR1A", 0x80, ["COM1A1"; "COM1A0"; "COM1B1"; "COM1B0"; "-"; "-"; "WGM11"; "WGM10"]);
  ("TCCR1B", 0x81, ["ICNC1"; "ICES1"; "-"; "WGM13"; "WGM12"; "CS12"; "CS11"; "CS10"]);
  ("TCCR1C", 0x82, ["FOC1A"; "FOC1B"; "-"; "-"; "-"; "-"; "-"; "-"]);
  ("TCNT1L", 0x84, ["T7"; "T6"; "T5"; "T4"; "T3"; "T2"; "T1"; "T0"]);
  ("TCNT1H", 0x85, ["T15"; "T14"; "T13"; "T12"; "T11"; "T10"; "T9"; "T8"]);
  ("ICR1L", 0x86, ["I7"; "I6"; "I5"; "I4"; "I3"; "I2"; "I1"; "I0"]);
  ("ICR1H", 0x87, ["I15"; "I14"; "I13"; "I12"; "I11"; "I10"; "I9"; "I8"]);
  ("OCR1AL", 0x88, ["A7"; "A6"; "A5"; "A4"; "A3"; "A2"; "A1"; "A0"]);
  ("OCR1AH", 0x89, ["A15"; "A14"; "A13"; "A12"; "A11"; "A10"; "A9"; "A8"]);
  ("OCR1BL", 0x8a, ["B7"; "B6"; "B5"; "B4"; "B3"; "B2"; "B1"; "B0"]);
  ("OCR1BH", 0x8b, ["B15"; "B14"; "B13"; "B12"; "B11"; "B10"; "B9"; "B8"]);
  ("TWBR", 0xb8, ["TWBR7"; "TWBR6"; "TWBR5"; "TWBR4"; "TWBR3"; "TWBR2"; "TWBR1"; "TWBR0"]);
  ("TWSR", 0xb9, ["TWS7"; "TWS6"; "TWS5"; "TWS4"; "TWS3"; "-"; "TWPS1"; "TWPS0"]);
  ("TWAR", 0xba, ["TWA6"; "TWA5"; "TWA4"; "TWA3"; "TWA2"; "TWA1"; "TWA0"; "TWGCE"]);
  ("TWDR", 0xbb, ["TWD7"; "TWD6"; "TWD5"; "TWD4"; "TWD3"; "TWD2"; "TWD1"; "TWD0"]);
  ("TWCR", 0xbc, ["TWINT"; "TWEA"; "TWSTA"; "TWSTO"; "TWWC"; "TWEN"; "-"; "TWIE"]);
  ("TWAMR", 0xbd, ["TWAM6"; "TWAM5"; "TWAM4"; "TWAM3"; "TWAM2"; "TWAM1"; "TWAM0"; "-"])].

(** Bits the data sheet marks as read-only, and flags that are cleared by writing one. *)
Definition sheet_read_only : list (string * string) :=
  [("TWSR", "TWS7"); ("TWSR", "TWS6"); ("TWSR", "TWS5"); ("TWSR", "TWS4"); ("TWSR", "TWS3");
   ("TWCR", "TWWC"); ("ACSR", "ACO");
   ("ADCL", "ADC7"); ("ADCL", "ADC6"); ("ADCL", "ADC5"); ("ADCL", "ADC4"); ("ADCL", "ADC3");
   ("ADCL", "ADC2"); ("ADCL", "ADC1"); ("ADCL", "ADC0"); ("ADCH", "ADC9"); ("ADCH", "ADC8")].
Definition sheet_flags : list (string * string) :=
  [("TIFR0", "OCF0B"); ("TIFR0", "OCF0A"); ("TIFR0", "TOV0");
   ("TIFR1", "ICF1"); ("TIFR1", "OCF1B"); ("TIFR1", "OCF1A"); ("TIFR1", "TOV1");
   ("PCIFR", "PCIF2"); ("PCIFR", "PCIF1"); ("PCIFR", "PCIF0");
   ("EIFR", "INTF1"); ("EIFR", "INTF0");
   ("TWCR", "TWINT"); ("ACSR", "ACI"); ("ADCSRA", "ADIF")].

(** Register [r] is at address [a]; bit [b] of register [r] is bit [i] at address [a]. *)
Definition sheet_register (r : string) (a : Z) : Prop := exists bits, In (r, a, bits) sheet.
Definition sheet_bit (r b : string) (a i : Z) : Prop :=
  exists bits, In (r, a, bits) sheet /\ b <> "-" /\ List.length bits = 8%nat /\ 0 <= i < 8 /\
  nth (7 - Z.to_nat i) bits "-" = b.
