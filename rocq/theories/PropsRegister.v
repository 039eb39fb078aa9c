(** Properties of register accesses: C71 to C75. *)

From Coq Require Import ZArith List Bool Lia.
From Verif Require Import Base Register RegisterSpec RegisterProofs.
Import ListNotations.
Open Scope Z_scope.

(** Memory that stores what is written. *)
Definition storing : hardware := fun a v mem c => if c =? a then v else mem c.

Lemma storing_plain w a : plain storing w a.
Proof. intros b _ v mem c. reflexivity. Qed.

(** A machine all of whose bytes hold the given number. *)
Definition filled (v : Z) : machine := Machine (fun _ => v) [].

Lemma filled_ok v : 0 <= v < 256 -> bytes_ok (byte (filled v)).
Proof. intros H c. exact H. Qed.

(** ** C71: writing and reading back *)

(** Writing a field of a read-write register changes the bits of the field only and
    accesses no other register; a field of several bits then holds the value modulo
    its size, a field of one bit holds whether the value is not zero. *)
Theorem C71_write :
  forall hw f v m,
  f_io f = RW -> valid_field f -> plain hw (f_w f) (f_addr f) -> bytes_ok (byte m) ->
  exists m',
    field_write hw f v m = Some m'
    /\ bytes_ok (byte m')
    /\ same_elsewhere (f_w f) (f_addr f) (byte m) (byte m')
    /\ (forall i, 0 <= i < nbits (f_w f) -> ~ in_field f i ->
        Z.testbit (content (f_w f) (f_addr f) (byte m')) i
        = Z.testbit (content (f_w f) (f_addr f) (byte m)) i)
    /\ (f_lo f < f_hi f -> field_value f (byte m') = v mod 2 ^ field_bits f)
    /\ (f_lo f = f_hi f ->
        field_value f (byte m') = if v mod 2 ^ nbits (f_w f) =? 0 then 0 else 1)
    /\ (exists before, bus m' = bus m ++ before
          ++ [Wr (f_w f) (f_addr f) (content (f_w f) (f_addr f) (byte m'))]
        /\ (before = [] \/ before = [Rd (f_w f) (f_addr f)])).
Proof.
  intros hw f v m Hio HV HP H.
  destruct (field_write_updated hw f v m Hio HV HP H)
    as (m' & c & W1 & W2 & W3 & W4 & W5 & W6).
  assert (FV : field_value f (byte m') = written f v mod 2 ^ field_bits f).
  { apply field_value_of; [exact HV|]. intros i Hi IF. rewrite W2, W6 by exact Hi.
    unfold in_field in IF.
    destruct (Z.leb_spec (f_lo f) i), (Z.leb_spec i (f_hi f)); try lia. reflexivity. }
  exists m'. split; [exact W1|]. split; [exact W4|]. split; [exact W3|]. split; [|split; [|split]].
  - intros i Hi NI. rewrite W2, W6 by exact Hi. unfold in_field in NI.
    destruct (Z.leb_spec (f_lo f) i), (Z.leb_spec i (f_hi f)); try lia; reflexivity.
  - intros L. rewrite FV. unfold written.
    destruct (Z.eqb_spec (f_hi f) (f_lo f)); [lia|reflexivity].
  - intros E. rewrite FV. unfold written, field_bits. rewrite <- E, Z.eqb_refl.
    replace (f_lo f - f_lo f + 1) with 1 by lia.
    destruct (v mod 2 ^ nbits (f_w f) =? 0); reflexivity.
  - rewrite W2. exact W5.
Qed.
Print Assumptions C71_write.

Example C71_write_case :
  let f := bitfield8 RW 68 5 4 in
  (f_io f = RW /\ valid_field f /\ plain storing (f_w f) (f_addr f)
   /\ bytes_ok (byte (filled 255)))
  /\ option_map (fun m => byte m 68) (field_write storing f 6 (filled 255)) = Some 239
  /\ option_map bus (field_write storing f 6 (filled 255)) = Some [Rd W8 68; Wr W8 68 239].
Proof.
  cbn zeta. repeat split; try apply filled_ok; try (cbn; lia).
Qed.

(** Reading a field gives the number its bits form and changes nothing. *)
Theorem C71_read :
  forall f m,
  f_io f = RW \/ f_io f = R -> valid_field f -> bytes_ok (byte m) ->
  exists m', field_read f m = Some (field_value f (byte m), m')
             /\ byte m' = byte m
             /\ bus m' = bus m ++ [Rd (f_w f) (f_addr f)].
Proof.
  intros f m Hio HV H. eexists. split; [apply (field_read_value f m Hio HV H)|].
  split; reflexivity.
Qed.
Print Assumptions C71_read.

Example C71_read_case :
  let f := bitfield16 R 120 9 6 in
  ((f_io f = RW \/ f_io f = R) /\ valid_field f /\ bytes_ok (byte (filled 170)))
  /\ option_map fst (field_read f (filled 170)) = Some 10.
Proof.
  cbn zeta. split; [|reflexivity]. split; [right; reflexivity|].
  split; [unfold valid_field; cbn; lia|apply filled_ok; lia].
Qed.

(** Writing a field and reading it: the value comes back exactly if it fits. *)
Corollary C71_round_trip :
  forall hw f v m,
  f_io f = RW -> valid_field f -> plain hw (f_w f) (f_addr f) -> bytes_ok (byte m) ->
  0 <= v < 2 ^ field_bits f ->
  exists m' m'', field_write hw f v m = Some m' /\ field_read f m' = Some (v, m'').
Proof.
  intros hw f v m Hio HV HP H Hv.
  destruct (C71_write hw f v m Hio HV HP H) as (m' & W1 & W2 & _ & _ & W5 & W6 & _).
  destruct (C71_read f m' (or_introl Hio) HV W2) as (m'' & R1 & _).
  exists m', m''. split; [exact W1|]. rewrite R1. do 2 f_equal.
  destruct HV as [V1 V2].
  destruct (Z.eq_dec (f_lo f) (f_hi f)) as [E|E].
  - rewrite W6 by exact E. unfold field_bits in Hv. rewrite E in Hv.
    replace (f_hi f - f_hi f + 1) with 1 in Hv by lia.
    pose proof (nbits_pos (f_w f)).
    assert (2 ^ 1 <= 2 ^ nbits (f_w f)) by (apply Z.pow_le_mono_r; lia).
    rewrite Z.mod_small by lia. destruct (Z.eqb_spec v 0); lia.
  - rewrite W5 by lia. apply Z.mod_small, Hv.
Qed.
Print Assumptions C71_round_trip.

Example C71_round_trip_case :
  let f := bitfield16 RW 132 11 4 in
  (f_io f = RW /\ valid_field f /\ plain storing (f_w f) (f_addr f)
   /\ bytes_ok (byte (filled 51)) /\ 0 <= 0xA5 < 2 ^ field_bits f)
  /\ match field_write storing f 0xA5 (filled 51) with
     | Some m' => option_map fst (field_read f m') = Some 0xA5
                  /\ content W16 132 (byte m') = 0x3A53
     | None => False
     end.
Proof. cbn zeta. repeat split; try apply filled_ok; try (cbn; lia). Qed.

(** [set], [clear] and [toggle] of a bit of a read-write register change that bit
    only. *)
Theorem C71_bit_operations :
  forall hw f m,
  f_io f = RW -> f_hi f = f_lo f -> valid_field f -> plain hw (f_w f) (f_addr f) ->
  bytes_ok (byte m) ->
  let old i := Z.testbit (content (f_w f) (f_addr f) (byte m)) i in
  let same_but m' b :=
    same_elsewhere (f_w f) (f_addr f) (byte m) (byte m') /\ bytes_ok (byte m')
    /\ forall i, 0 <= i < nbits (f_w f) ->
       Z.testbit (content (f_w f) (f_addr f) (byte m')) i
       = if i =? f_hi f then b else old i in
  (exists m', field_set hw f m = Some m' /\ same_but m' true)
  /\ (exists m', field_clear hw f m = Some m' /\ same_but m' false)
  /\ (exists m', field_toggle hw f m = Some m' /\ same_but m' (negb (old (f_hi f)))).
Proof.
  intros hw f m Hio E [V1 V2] HP H old same_but.
  assert (HB : 0 <= f_hi f < nbits (f_w f)) by lia.
  unfold field_set, field_clear, field_toggle. rewrite Hio.
  cbn [has_set policy_clear has_toggle].
  split; [|split]; eexists; (split; [reflexivity|]).
  - destruct (set_bit_updated HP (f_hi f) m H HB) as [(U1 & U2 & U3 & U4) B].
    split; [exact U2|]. split; [exact U3|]. intros i Hi. rewrite U1. apply B, Hi.
  - destruct (clear_bit_w0_updated HP (f_hi f) m H HB) as [(U1 & U2 & U3 & U4) B].
    split; [exact U2|]. split; [exact U3|]. intros i Hi. rewrite U1. apply B, Hi.
  - destruct (toggle_bit_updated HP (f_hi f) m H HB) as [(U1 & U2 & U3 & U4) B].
    split; [exact U2|]. split; [exact U3|]. intros i Hi. rewrite U1, B by exact Hi.
    destruct (Z.eqb_spec i (f_hi f)) as [->|]; reflexivity.
Qed.
Print Assumptions C71_bit_operations.

Example C71_bit_operations_case :
  let f := bit8 RW 37 5 in
  (f_io f = RW /\ f_hi f = f_lo f /\ valid_field f /\ plain storing (f_w f) (f_addr f)
   /\ bytes_ok (byte (filled 0xF0)))
  /\ option_map (fun m => byte m 37) (field_set storing f (filled 0xC0)) = Some 0xE0
  /\ option_map (fun m => byte m 37) (field_clear storing f (filled 0xF0)) = Some 0xD0
  /\ option_map (fun m => byte m 37) (field_toggle storing f (filled 0xF0)) = Some 0xD0.
Proof. cbn zeta. repeat split; try apply filled_ok; try (cbn; lia). Qed.

(** [trigger] of a bit (write-one-to-start) writes back what it reads with the bit set, whatever the
    register does with what is written; a plain register then holds just that. *)
Theorem C71_trigger :
  forall hw f m,
  f_io f = RT_W -> valid_field f -> bytes_ok (byte m) ->
  let w := f_w f in let a := f_addr f in
  exists m' v, field_trigger hw f m = Some m' /\ bus m' = bus m ++ [Rd w a; Wr w a v]
  /\ (forall i, 0 <= i < nbits w ->
      Z.testbit v i = if i =? f_hi f then true else Z.testbit (content w a (byte m)) i)
  /\ (plain hw w a -> content w a (byte m') = v /\ same_elsewhere w a (byte m) (byte m')).
Proof.
  intros hw f m Hio [V1 V2] H w a. unfold field_trigger. rewrite Hio. cbn [has_trigger].
  assert (HB : 0 <= f_hi f < nbits w) by (unfold w; lia).
  exists (trigger_bit hw w a (f_hi f) m), (trunc w (Z.lor (content w a (byte m)) (bitmask w [f_hi f]))).
  split; [reflexivity|]. split.
  - unfold trigger_bit. rewrite load_eq. cbn [snd store bus load]. rewrite <- app_assoc. reflexivity.
  - split.
    + intros i Hi. rewrite testbit_trunc, Z.lor_spec, testbit_bitmask1 by lia.
      replace (i <? nbits w) with true by (symmetry; apply Z.ltb_lt; lia). cbn [andb].
      destruct (i =? f_hi f); [apply orb_true_r|apply orb_false_r].
    + intros HP. unfold trigger_bit. rewrite load_eq.
      destruct (rmw HP (trunc w (Z.lor (content w a (byte m)) (bitmask w [f_hi f]))) m H (trunc_range w _)) as (U1 & U2 & _). auto.
Qed.
Print Assumptions C71_trigger.

Example C71_trigger_case :
  let f := bit8 RT_W 122 6 in
  (f_io f = RT_W /\ valid_field f /\ bytes_ok (byte (filled 0x83)))
  /\ option_map (fun m => byte m 122) (field_trigger storing f (filled 0x83)) = Some 0xC3.
Proof. cbn zeta. repeat split; try apply filled_ok; try (cbn; lia). Qed.

(** ** C72: masks *)

Theorem C72_masks :
  forall w,
  (forall bs i, Forall (fun b => 0 <= b < nbits w) bs -> 0 <= i < nbits w ->
     (Z.testbit (bitmask w bs) i = true <-> In i bs)
     /\ (Z.testbit (bitmask_n w bs) i = true <-> ~ In i bs))
  /\ (forall hi lo i, 0 <= lo <= hi -> hi < nbits w -> 0 <= i < nbits w ->
     (Z.testbit (rngmask w hi lo) i = true <-> lo <= i <= hi)
     /\ (Z.testbit (rngmask_n w hi lo) i = true <-> ~ (lo <= i <= hi))).
Proof.
  intros w. pose proof (nbits_pos w) as NB. split.
  - intros bs i HB Hi.
    assert (HB' : Forall (fun b => 0 <= b < 16) bs)
      by (eapply Forall_impl; [|exact HB]; cbn; lia).
    assert (EX : existsb (Z.eqb i) bs = true <-> In i bs).
    { rewrite existsb_exists. split.
      - intros (x & I & E). apply Z.eqb_eq in E. subst x. exact I.
      - intros I. exists i. split; [exact I|apply Z.eqb_refl]. }
    rewrite testbit_bitmask, testbit_bitmask_n by (assumption || lia).
    replace (i <? nbits w) with true by (symmetry; apply Z.ltb_lt; lia). cbn [andb].
    split; [exact EX|]. rewrite negb_true_iff, <- EX. destruct (existsb (Z.eqb i) bs).
    + split; [discriminate|intros N; exfalso; apply N; reflexivity].
    + split; [discriminate|reflexivity].
  - intros hi lo i H1 H2 Hi. rewrite testbit_rngmask, testbit_rngmask_n by lia.
    replace (i <? nbits w) with true by (symmetry; apply Z.ltb_lt; lia). cbn [andb].
    rewrite negb_true_iff, andb_true_iff, andb_false_iff, !Z.leb_le, !Z.leb_gt. lia.
Qed.
Print Assumptions C72_masks.

(** The masks are numbers of the register's type: no other bits are set. *)
Theorem C72_masks_fit :
  forall w bs hi lo,
  0 <= bitmask w bs < 2 ^ nbits w /\ 0 <= bitmask_n w bs < 2 ^ nbits w
  /\ 0 <= rngmask w hi lo < 2 ^ nbits w /\ 0 <= rngmask_n w hi lo < 2 ^ nbits w.
Proof.
  intros w bs hi lo.
  assert (P : 0 < 2 ^ nbits w) by (apply Z.pow_pos_nonneg; pose proof (nbits_pos w); lia).
  split; [apply trunc_range|]. split; [apply trunc_range|]. split; [|apply trunc_range].
  unfold rngmask. generalize (Z.to_nat (hi - lo + 1)) as n. intros n.
  assert (L : forall n l r, 0 <= r < 2 ^ nbits w -> 0 <= rngmask_loop w l n r < 2 ^ nbits w).
  { clear n. induction n as [|n IH]; intros l r R; [exact R|].
    cbn [rngmask_loop]. apply IH, trunc_range. }
  apply L. lia.
Qed.
Print Assumptions C72_masks_fit.

Example C72_masks_case :
  bitmask W8 [6; 5; 0] = 0x61 /\ bitmask_n W8 [6; 5; 0] = 0x9E
  /\ bitmask W16 [15; 0] = 0x8001
  /\ rngmask W8 3 0 = 0x0F /\ rngmask_n W8 3 0 = 0xF0 /\ rngmask W16 15 14 = 0xC000.
Proof. repeat split. Qed.

(** ** C73: combined lazy writes *)

(** Joining the lazy writes of any number of disjoint fields of one register, with
    values that fit, has the same effect as writing them one after another and takes
    one read and one write of the register. *)
Theorem C73_combined_write :
  forall hw w a fvs m,
  fvs <> [] -> fields_of w a fvs -> all_disjoint (map fst fvs) -> values_fit fvs ->
  plain hw w a -> bytes_ok (byte m) ->
  exists m1 m2,
    lazy_statement hw fvs m = Some m1
    /\ write_statements hw fvs m = Some m2
    /\ (forall c, byte m1 c = byte m2 c)
    /\ bus m1 = bus m ++ [Rd w a; Wr w a (content w a (byte m2))].
Proof.
  intros hw w a fvs m NE HF HD HV HP H.
  destruct (lazy_statement_updated hw w a fvs m NE HF HP H)
    as (m1 & c & L1 & L2 & L3 & L4 & L5 & L6).
  destruct (write_statements_updated hw w a fvs m HF HD HV HP H) as (m2 & S1 & S2 & S3 & S4).
  assert (EC : c = content w a (byte m2)).
  { apply (bits_ext _ _ (nbits w)); [pose proof (nbits_pos w); lia | | |].
    - rewrite <- L2. apply content_range, L4.
    - apply content_range, S3.
    - intros i Hi. destruct (L6 i Hi) as [A B]. destruct (S4 i Hi) as [C D].
      destruct (covered_dec fvs i) as [K|K].
      + specialize (A K). specialize (C K). destruct (Z.testbit c i);
          destruct (Z.testbit (content w a (byte m2)) i); try reflexivity.
        * symmetry. apply C, A. reflexivity.
        * apply A, C. reflexivity.
      + rewrite (B K), (D K). reflexivity. }
  exists m1, m2. split; [exact L1|]. split; [exact S1|]. split.
  - intros k. destruct (part_of_dec w a k) as [P|P].
    + apply (content_bytes w a _ _ L4 S3); [rewrite L2; exact EC|exact P].
    + rewrite (L3 k P), (S2 k P). reflexivity.
  - rewrite <- EC. exact L5.
Qed.
Print Assumptions C73_combined_write.

Example C73_combined_write_case :
  let fvs := [(bitfield8 RW 122 2 0, 7); (bit8 RW 122 7, 1); (bit8 RW 122 3, 1);
              (bit8 RW 122 5, 1); (bit8 RW 122 6, 0)] in
  (fvs <> [] /\ fields_of W8 122 fvs /\ all_disjoint (map fst fvs) /\ values_fit fvs
   /\ plain storing W8 122 /\ bytes_ok (byte (filled 0x55)))
  /\ option_map (fun m => (byte m 122, bus m)) (lazy_statement storing fvs (filled 0x55))
     = Some (0xBF, [Rd W8 122; Wr W8 122 0xBF])
  /\ option_map (fun m => byte m 122) (write_statements storing fvs (filled 0x55))
     = Some 0xBF.
Proof.
  cbn zeta. split; [|split; reflexivity]. split; [discriminate|].
  split; [repeat constructor; cbn; lia|].
  split; [repeat constructor; intros i [A B]; unfold in_field in *; cbn in *; lia|].
  split; [repeat constructor; cbn; lia|]. split; [apply storing_plain|apply filled_ok; lia].
Qed.

(** ** C74: values that do not fit *)

(** Whatever the fields and values: the bits of the joined fields become the
    disjunction of all values, each moved to its field's place but not cut to its
    field's size; no other bit changes. *)
Theorem C74_combined_bits :
  forall hw w a fvs m,
  fvs <> [] -> fields_of w a fvs -> plain hw w a -> bytes_ok (byte m) ->
  exists m',
    lazy_statement hw fvs m = Some m'
    /\ same_elsewhere w a (byte m) (byte m') /\ bytes_ok (byte m')
    /\ forall i, 0 <= i < nbits w ->
       (covered fvs i ->
        (Z.testbit (content w a (byte m')) i = true <-> joined_bit fvs i))
       /\ (~ covered fvs i ->
           Z.testbit (content w a (byte m')) i = Z.testbit (content w a (byte m)) i).
Proof.
  intros hw w a fvs m NE HF HP H.
  destruct (lazy_statement_updated hw w a fvs m NE HF HP H)
    as (m1 & c & L1 & L2 & L3 & L4 & L5 & L6).
  exists m1. split; [exact L1|]. split; [exact L3|]. split; [exact L4|].
  intros i Hi. rewrite L2. apply L6, Hi.
Qed.
Print Assumptions C74_combined_bits.

Example C74_combined_bits_case :
  let fvs := [(bitfield8 RW 122 2 0, 0x1F); (bit8 RW 122 3, 0); (bit8 RW 122 7, 0)] in
  (fvs <> [] /\ fields_of W8 122 fvs /\ plain storing W8 122 /\ bytes_ok (byte (filled 0xA0)))
  /\ option_map (fun m => byte m 122) (lazy_statement storing fvs (filled 0xA0)) = Some 0x2F.
Proof.
  cbn zeta. split; [|reflexivity]. split; [discriminate|].
  split; [repeat constructor; cbn; lia|]. split; [apply storing_plain|apply filled_ok; lia].
Qed.

(** A lazy write on its own keeps the excess out: the field holds the value modulo
    its size, the other bits stay. *)
Theorem C74_single_lazy_write :
  forall hw f v m,
  f_io f = RW -> valid_field f -> plain hw (f_w f) (f_addr f) -> bytes_ok (byte m) ->
  exists m',
    lazy_statement hw [(f, v)] m = Some m'
    /\ field_value f (byte m') = v mod 2 ^ field_bits f
    /\ forall i, 0 <= i < nbits (f_w f) -> ~ in_field f i ->
       Z.testbit (content (f_w f) (f_addr f) (byte m')) i
       = Z.testbit (content (f_w f) (f_addr f) (byte m)) i.
Proof.
  intros hw f v m Hio HV HP H.
  assert (HF : fields_of (f_w f) (f_addr f) [(f, v)])
    by (constructor; [cbn [fst]; auto|constructor]).
  destruct (C74_combined_bits hw _ _ [(f, v)] m ltac:(discriminate) HF HP H)
    as (m' & L1 & _ & _ & L4).
  exists m'. split; [exact L1|]. split.
  - apply field_value_of; [exact HV|]. intros i Hi IF.
    destruct (L4 i Hi) as [A _].
    assert (CV : covered [(f, v)] i) by (apply Exists_cons_hd; exact IF).
    specialize (A CV).
    destruct IF as [I1 I2].
    destruct (Z.testbit v (i - f_lo f)) eqn:B.
    + apply A. apply Exists_cons_hd. split; assumption.
    + apply not_true_is_false. intros T. apply A in T.
      inversion T as [? ? [T1 T2]|? ? T']; subst; [|inversion T'].
      cbn [fst snd] in T2. congruence.
  - intros i Hi NI. destruct (L4 i Hi) as [_ B]. apply B. intros C.
    inversion C as [? ? C'|? ? C']; subst; [contradiction|inversion C'].
Qed.
Print Assumptions C74_single_lazy_write.

Example C74_single_lazy_write_case :
  let f := bitfield8 RW 122 2 0 in
  (f_io f = RW /\ valid_field f /\ plain storing (f_w f) (f_addr f)
   /\ bytes_ok (byte (filled 0xA0)))
  /\ option_map (fun m => byte m 122) (lazy_statement storing [(f, 0x1E)] (filled 0xA0))
     = Some 0xA6.
Proof. cbn zeta. repeat split; try apply filled_ok; try (cbn; lia). Qed.

(** Joined with the lazy write of a higher field it does not: a bit of the value
    beyond its field sets the bit of the other field that field was to clear, where
    writing the fields one after the other clears it. *)
Theorem C74_leak :
  forall hw f g v m i,
  f_io f = RW -> f_io g = RW -> f_w g = f_w f -> f_addr g = f_addr f ->
  valid_field f -> valid_field g -> f_hi f < f_lo g ->
  plain hw (f_w f) (f_addr f) -> bytes_ok (byte m) ->
  in_field g i -> Z.testbit v (i - f_lo f) = true ->
  exists m1 m2,
    lazy_statement hw [(f, v); (g, 0)] m = Some m1
    /\ write_statements hw [(f, v); (g, 0)] m = Some m2
    /\ Z.testbit (content (f_w f) (f_addr f) (byte m1)) i = true
    /\ Z.testbit (content (f_w f) (f_addr f) (byte m2)) i = false.
Proof.
  intros hw f g v m i F1 G1 EW EA FV GV LT HP H IG B.
  assert (HF : fields_of (f_w f) (f_addr f) [(f, v); (g, 0)])
    by (constructor; [cbn [fst]; auto|constructor; [cbn [fst]; auto|constructor]]).
  pose proof FV as [V1 V2]. pose proof GV as [Y1 Y2]. pose proof IG as [I1 I2].
  rewrite EW in Y2.
  destruct (C74_combined_bits hw _ _ [(f, v); (g, 0)] m ltac:(discriminate) HF HP H)
    as (m1 & L1 & _ & _ & L4).
  destruct (field_write_updated hw f v m F1 FV HP H) as (k & c & W1 & W2 & W3 & W4 & _ & _).
  assert (HP' : plain hw (f_w g) (f_addr g)) by (rewrite EW, EA; exact HP).
  destruct (field_write_updated hw g 0 k G1 GV HP' W4) as (m2 & d & X1 & X2 & _ & _ & _ & X6).
  exists m1, m2. split; [exact L1|]. cbn [write_statements]. rewrite W1, X1.
  split; [reflexivity|]. split.
  - apply (L4 i ltac:(lia)).
    + apply Exists_cons_tl, Exists_cons_hd. exact IG.
    + apply Exists_cons_hd. cbn [fst snd]. split; [lia|exact B].
  - rewrite <- EW, <- EA, X2, X6 by (rewrite EW; lia).
    destruct (Z.leb_spec (f_lo g) i), (Z.leb_spec i (f_hi g)); try lia. cbn [andb].
    unfold written. rewrite Zmod_0_l. cbn [Z.eqb].
    destruct (f_hi g =? f_lo g); apply Z.bits_0.
Qed.
Print Assumptions C74_leak.

Example C74_leak_case :
  let f := bitfield8 RW 69 2 0 in
  let g := bit8 RW 69 3 in
  (f_io f = RW /\ f_io g = RW /\ f_w g = f_w f /\ f_addr g = f_addr f
   /\ valid_field f /\ valid_field g /\ f_hi f < f_lo g
   /\ plain storing (f_w f) (f_addr f) /\ bytes_ok (byte (filled 0))
   /\ in_field g 3 /\ Z.testbit 9 (3 - f_lo f) = true)
  /\ option_map (fun m => byte m 69) (lazy_statement storing [(f, 9); (g, 0)] (filled 0))
     = Some 9
  /\ option_map (fun m => byte m 69) (write_statements storing [(f, 9); (g, 0)] (filled 0))
     = Some 1.
Proof. cbn zeta. unfold valid_field, in_field. repeat split; try apply filled_ok; try (cbn; lia). Qed.

(** ** C75: one-bit fields *)

(** [write] of a one-bit field takes any value but zero for a one, [write_lazy] takes
    the lowest bit of the value. *)
Theorem C75_one_bit :
  forall hw f v m,
  f_io f = RW -> f_hi f = f_lo f -> valid_field f -> plain hw (f_w f) (f_addr f) ->
  bytes_ok (byte m) -> 0 <= v < 2 ^ nbits (f_w f) ->
  exists m1 m2,
    field_write hw f v m = Some m1 /\ lazy_statement hw [(f, v)] m = Some m2
    /\ field_value f (byte m1) = (if v =? 0 then 0 else 1)
    /\ field_value f (byte m2) = (if Z.odd v then 1 else 0)
    /\ ((forall c, byte m1 c = byte m2 c) <-> (v = 0 \/ Z.odd v = true)).
Proof.
  intros hw f v m Hio E HV HP H Hv.
  destruct (field_write_updated hw f v m Hio HV HP H)
    as (m1 & c1 & W1 & W2 & W3 & W4 & _ & W6).
  destruct (C71_write hw f v m Hio HV HP H) as (m1' & X1 & _ & _ & X4 & _ & X6 & _).
  rewrite W1 in X1. apply Some_eq in X1. subst m1'. specialize (X6 (eq_sym E)).
  rewrite Z.mod_small in X6 by exact Hv.
  destruct (C74_single_lazy_write hw f v m Hio HV HP H) as (m2 & Y1 & Y2 & Y3).
  assert (FB : field_bits f = 1) by (unfold field_bits; lia).
  rewrite FB in Y2. change (2 ^ 1) with 2 in Y2.
  assert (Y2' : field_value f (byte m2) = if Z.odd v then 1 else 0).
  { rewrite Y2, Zmod_odd. destruct (Z.odd v); reflexivity. }
  exists m1, m2. split; [exact W1|]. split; [exact Y1|]. split; [exact X6|].
  split; [exact Y2'|].
  assert (HF : fields_of (f_w f) (f_addr f) [(f, v)])
    by (constructor; [cbn [fst]; auto|constructor]).
  destruct (lazy_statement_updated hw _ _ [(f, v)] m ltac:(discriminate) HF HP H)
    as (m2' & c2 & L1 & L2 & L3 & L4 & _ & _).
  rewrite Y1 in L1. apply Some_eq in L1. subst m2'.
  split.
  - intros EQ. assert (FE : field_value f (byte m1) = field_value f (byte m2)).
    { unfold field_value, content. destruct (f_w f); rewrite ?EQ; reflexivity. }
    rewrite X6, Y2' in FE. destruct (Z.eqb_spec v 0); [left; assumption|].
    destruct (Z.odd v); [right; reflexivity|discriminate].
  - intros OK. assert (FE : field_value f (byte m1) = field_value f (byte m2)).
    { rewrite X6, Y2'. destruct OK as [->|O]; [reflexivity|]. rewrite O.
      destruct (Z.eqb_spec v 0); [subst v; discriminate|reflexivity]. }
    assert (CE : content (f_w f) (f_addr f) (byte m1) = content (f_w f) (f_addr f) (byte m2)).
    { apply (bits_ext _ _ (nbits (f_w f))); [pose proof (nbits_pos (f_w f)); lia | | |].
      - apply content_range, W4.
      - apply content_range, L4.
      - intros i Hi. destruct (Z.eq_dec i (f_lo f)) as [->|N].
        + apply (f_equal (fun x => Z.testbit x 0)) in FE.
          rewrite !field_value_bits in FE by (assumption || lia).
          rewrite FB in FE. cbn [Z.ltb Z.compare andb] in FE. exact FE.
        + assert (NI : ~ in_field f i) by (unfold in_field; lia).
          rewrite X4, Y3 by assumption. reflexivity. }
    intros k. destruct (part_of_dec (f_w f) (f_addr f) k) as [P|P].
    + exact (content_bytes _ _ _ _ W4 L4 CE k P).
    + rewrite (W3 k P), (L3 k P). reflexivity.
Qed.
Print Assumptions C75_one_bit.

Example C75_one_bit_case :
  let f := bit8 RW 110 1 in
  (f_io f = RW /\ f_hi f = f_lo f /\ valid_field f /\ plain storing (f_w f) (f_addr f)
   /\ bytes_ok (byte (filled 0)) /\ 0 <= 2 < 2 ^ nbits (f_w f))
  /\ option_map (fun m => byte m 110) (field_write storing f 2 (filled 0)) = Some 2
  /\ option_map (fun m => byte m 110) (lazy_statement storing [(f, 2)] (filled 0)) = Some 0.
Proof. cbn zeta. repeat split; try apply filled_ok; try (cbn; lia). Qed.
