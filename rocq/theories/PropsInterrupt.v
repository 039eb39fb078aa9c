(** Properties of guarded accesses and scope guards: C81 and C82. *)

From Coq Require Import ZArith List Bool Lia Permutation FunctionalExtensionality.
From Verif Require Import Base Register RegisterSpec RegisterProofs.
From Verif Require Import AtmegaRegs Atmega AtmegaSpec AtmegaProofs.
From Verif Require Import Interrupt InterruptSpec.
Import ListNotations.
Open Scope Z_scope.

(** ** Executions *)

Definition exec_all (p : list instr) (s : cpu) : cpu := fold_left (fun s i => exec i s) p s.

Lemma runs_nil : forall s rs s', runs [] s rs s' ->
  mem s' = one_after_other rs (mem s) /\ got s' = got s /\ ie s' = ie s
  /\ (ie s = false -> rs = []).
Proof.
  intros s rs s' R. remember [] as p eqn:E. revert E.
  induction R as [s|i p s rs s' R IH|p s r rs s' I R IH]; intros E.
  - repeat split.
  - discriminate.
  - destruct (IH E) as (A & B & C & _). cbn in A, B, C. split; [exact A|].
    split; [exact B|]. rewrite C, I. split; [reflexivity|discriminate].
Qed.

Lemma runs_app p q s rs s' : runs (p ++ q) s rs s' ->
  exists s1 rs1 rs2, rs = rs1 ++ rs2 /\ runs p s rs1 s1 /\ runs q s1 rs2 s'.
Proof.
  intros R. remember (p ++ q) as pq eqn:E. revert p E.
  induction R as [s|i pq s rs s' R IH|pq s r rs s' I R IH]; intros p E.
  - symmetry in E. apply app_eq_nil in E. destruct E as [-> ->].
    exists s, [], []. repeat split; constructor.
  - destruct p as [|i' p].
    + cbn in E. subst q. exists s, [], rs. repeat split; [constructor|].
      apply runs_instr. exact R.
    + injection E as <- E. destruct (IH p E) as (s1 & r1 & r2 & -> & A & B).
      exists s1, r1, r2. repeat split; [|exact B]. apply runs_instr. exact A.
  - destruct (IH p E) as (s1 & r1 & r2 & -> & A & B).
    exists s1, (r :: r1), r2. repeat split; [|exact B].
    apply runs_interrupt; [exact I|exact A].
Qed.

Lemma runs_app_intro p q s s1 s' r1 r2 :
  runs p s r1 s1 -> runs q s1 r2 s' -> runs (p ++ q) s (r1 ++ r2) s'.
Proof.
  intros R. induction R; intros Q; cbn.
  - exact Q.
  - apply runs_instr. apply IHR, Q.
  - apply runs_interrupt; [assumption|]. apply IHR, Q.
Qed.

Lemma runs_one i s rs s' : runs [i] s rs s' ->
  exists before after,
    rs = before ++ after
    /\ mem s' = one_after_other after
                  (mem (exec i (Cpu (ie s) (one_after_other before (mem s)) (got s))))
    /\ got s' = got (exec i (Cpu (ie s) (one_after_other before (mem s)) (got s)))
    /\ ie s' = ie (exec i s)
    /\ (ie s = false -> before = [])
    /\ (ie s' = false -> after = []).
Proof.
  intros R. remember [i] as p eqn:E. revert E.
  induction R as [s|j p s rs s' R IH|p s r rs s' I R IH]; intros E.
  - discriminate.
  - injection E as -> ->. destruct (runs_nil _ _ _ R) as (A & B & C & D).
    exists [], rs. destruct s. repeat split; try assumption.
    intros F. apply D. cbn in C. congruence.
  - destruct (IH E) as (bf & af & -> & A & B & C & D & D'). exists (r :: bf), af.
    split; [reflexivity|]. cbn in A, B. rewrite I. split; [exact A|]. split; [exact B|].
    split; [|split; [discriminate|exact D']]. rewrite C. destruct i; cbn; try reflexivity; symmetry; exact I.
Qed.

(** Without interrupts and without [sei], exactly the instructions are executed. *)
Lemma runs_off p s rs s' : runs p s rs s' -> ie s = false -> ~ In Sei p ->
  rs = [] /\ s' = exec_all p s.
Proof.
  intros R. induction R as [s|i p s rs s' R IH|p s r rs s' I R IH]; intros F N.
  - split; reflexivity.
  - apply IH; [|intros H; apply N; right; exact H].
    destruct i; cbn; try exact F; [reflexivity|exfalso; apply N; left; reflexivity].
  - rewrite I in F. discriminate.
Qed.

Lemma runs_exec_all p s : runs p s [] (exec_all p s).
Proof.
  revert s. induction p as [|i p IH]; intros s; [constructor|].
  apply runs_instr. apply IH.
Qed.

(** A guarded section acts as a whole between the routines. *)
Lemma runs_guarded p s rs s' : ~ In Sei p -> runs (guarded p) s rs s' ->
  exists before after,
    rs = before ++ after
    /\ (let s1 := exec_all p (Cpu false (one_after_other before (mem s)) (got s)) in
        mem s' = one_after_other after (mem s1) /\ got s' = got s1)
    /\ ie s' = true
    /\ (ie s = false -> before = []).
Proof.
  intros N R. unfold guarded in R. change (Cli :: p ++ [Sei]) with ([Cli] ++ p ++ [Sei]) in R.
  apply runs_app in R. destruct R as (s1 & r1 & r2 & -> & R1 & R).
  apply runs_app in R. destruct R as (s2 & r3 & r4 & -> & R2 & R3).
  apply runs_one in R1. destruct R1 as (b & a & -> & M1 & G1 & I1 & F1 & L1).
  cbn in M1, G1, I1. specialize (L1 I1). subst a. cbn in M1.
  apply runs_off in R2; [|exact I1|exact N]. destruct R2 as [-> E2].
  apply runs_one in R3. destruct R3 as (b3 & a3 & -> & M3 & G3 & I3 & F3 & _).
  cbn [exec mem got ie] in M3, G3, I3.
  assert (I2 : ie s2 = false).
  { rewrite E2. clear -N I1. revert s1 I1. induction p as [|i p IH]; intros s1 I1; [exact I1|].
    cbn. apply IH; [intros H; apply N; right; exact H|].
    destruct i; cbn; try exact I1; [reflexivity|exfalso; apply N; left; reflexivity]. }
  specialize (F3 I2). subst b3. cbn [one_after_other fold_left] in M3.
  exists b, a3. rewrite app_nil_r. split; [reflexivity|].
  assert (S1 : s1 = Cpu false (one_after_other b (mem s)) (got s)).
  { destruct s1. cbn in *. congruence. }
  rewrite <- S1, <- E2. split; [split; assumption|]. split; [exact I3|exact F1].
Qed.

(** ** Bytes of a number *)

Lemma number_at_ext n : forall a m m', (forall c, a <= c < a + Z.of_nat n -> m c = m' c) ->
  number_at n a m = number_at n a m'.
Proof.
  induction n as [|n IH]; intros a m m' H; [reflexivity|].
  cbn [number_at]. rewrite (H a) by lia. rewrite (IH (a + 1) m m'); [reflexivity|].
  intros c Hc. apply H. lia.
Qed.

Lemma number_at_shift n : forall a b m m',
  (forall k, (k < n)%nat -> m (a + Z.of_nat k) = m' (b + Z.of_nat k)) ->
  number_at n a m = number_at n b m'.
Proof.
  induction n as [|n IH]; intros a b m m' H; [reflexivity|].
  cbn [number_at]. pose proof (H 0%nat ltac:(lia)) as H0. cbn [Z.of_nat] in H0.
  rewrite !Z.add_0_r in H0. rewrite H0. rewrite (IH (a + 1) (b + 1) m m'); [reflexivity|].
  intros k Hk. pose proof (H (Datatypes.S k) ltac:(lia)) as HS.
  replace (a + 1 + Z.of_nat k) with (a + Z.of_nat (Datatypes.S k)) by lia.
  replace (b + 1 + Z.of_nat k) with (b + Z.of_nat (Datatypes.S k)) by lia. exact HS.
Qed.

Lemma number_at_bytes n : forall a v m,
  (forall k, (k < n)%nat -> m (a + Z.of_nat k) = v / 2 ^ (8 * Z.of_nat k) mod 2 ^ 8) ->
  number_at n a m = v mod 2 ^ (8 * Z.of_nat n).
Proof.
  induction n as [|n IH]; intros a v m H.
  - cbn. rewrite Z.mod_1_r. reflexivity.
  - cbn [number_at].
    rewrite (IH (a + 1) (v / 2 ^ 8) m).
    + pose proof (H 0%nat ltac:(lia)) as H0. cbn [Z.of_nat] in H0.
      rewrite Z.add_0_r, Z.mul_0_r, Z.pow_0_r, Z.div_1_r in H0. rewrite H0.
      replace (8 * Z.of_nat (Datatypes.S n)) with (8 + 8 * Z.of_nat n) by lia.
      rewrite Z.pow_add_r, Z.rem_mul_r by lia. reflexivity.
    + intros k Hk. replace (a + 1 + Z.of_nat k) with (a + Z.of_nat (Datatypes.S k)) by lia.
      rewrite H by lia. f_equal. rewrite Z.div_div by lia. f_equal.
      rewrite <- Z.pow_add_r by lia. f_equal. lia.
Qed.

(** ** Assignments and fetches *)

Lemma assign_mem ord a v : forall s c,
  NoDup ord ->
  ((forall k, In k ord -> c <> a + Z.of_nat k) ->
     mem (exec_all (assign ord a v) s) c = mem s c)
  /\ (forall k, In k ord -> c = a + Z.of_nat k ->
     mem (exec_all (assign ord a v) s) c = v / 2 ^ (8 * Z.of_nat k) mod 2 ^ 8).
Proof.
  induction ord as [|j ord IH]; intros s c ND; [split; [reflexivity|contradiction]|].
  inversion ND as [|? ? NI ND']; subst. cbn [assign map exec_all fold_left].
  fold (assign ord a v).
  set (s1 := exec _ s). fold (exec_all (assign ord a v) s1).
  destruct (IH s1 c ND') as [A B]. split.
  - intros H. rewrite A by (intros k Hk; apply H; right; exact Hk).
    unfold s1. cbn. unfold upd. destruct (Z.eqb_spec c (a + Z.of_nat j)) as [E|NE]; [|reflexivity].
    exfalso. apply (H j); [left; reflexivity|exact E].
  - intros k [->|Hk] E.
    + rewrite A.
      * unfold s1. cbn. unfold upd. rewrite E, Z.eqb_refl. reflexivity.
      * intros k' Hk' E'. apply NI. replace k with k' by lia. exact Hk'.
    + apply B; assumption.
Qed.

Lemma assign_got ord a v : forall s, got (exec_all (assign ord a v) s) = got s.
Proof.
  induction ord as [|j ord IH]; intros s; [reflexivity|].
  cbn [assign map exec_all fold_left]. fold (assign ord a v).
  etransitivity; [apply IH|reflexivity].
Qed.

Lemma fetch_mem ord a : forall s, mem (exec_all (fetch ord a) s) = mem s.
Proof.
  induction ord as [|j ord IH]; intros s; [reflexivity|].
  cbn [fetch map exec_all fold_left]. fold (fetch ord a).
  etransitivity; [apply IH|reflexivity].
Qed.

Lemma fetch_got ord a : forall s k,
  got (exec_all (fetch ord a) s) k
  = if in_dec Nat.eq_dec k ord then mem s (a + Z.of_nat k) else got s k.
Proof.
  induction ord as [|j ord IH]; intros s k; [reflexivity|].
  cbn [fetch map exec_all fold_left]. fold (fetch ord a).
  set (s1 := exec _ s). fold (exec_all (fetch ord a) s1). rewrite IH.
  unfold s1. cbn [exec mem got].
  destruct (in_dec Nat.eq_dec k ord) as [I|NI].
  - destruct (in_dec Nat.eq_dec k (j :: ord)) as [_|N]; [reflexivity|].
    exfalso. apply N. right. exact I.
  - destruct (Nat.eqb_spec k j) as [->|NE].
    + destruct (in_dec Nat.eq_dec j (j :: ord)) as [_|N]; [reflexivity|].
      exfalso. apply N. left. reflexivity.
    + destruct (in_dec Nat.eq_dec k (j :: ord)) as [[E|I]|_]; congruence.
Qed.

Lemma order_in n ord k : Permutation ord (List.seq 0 n) -> In k ord <-> (k < n)%nat.
Proof.
  intros P. split.
  - intros I. apply (Permutation_in _ P) in I. apply in_seq in I. lia.
  - intros L. apply (Permutation_in _ (Permutation_sym P)). apply in_seq. lia.
Qed.

Lemma order_nodup n ord : Permutation ord (List.seq 0 n) -> NoDup ord.
Proof. intros P. apply (Permutation_NoDup (Permutation_sym P)). apply seq_NoDup. Qed.

Lemma assign_no_sei ord a v : ~ In Sei (assign ord a v).
Proof. unfold assign. rewrite in_map_iff. intros (k & E & _). discriminate. Qed.

Lemma fetch_no_sei ord a : ~ In Sei (fetch ord a).
Proof. unfold fetch. rewrite in_map_iff. intros (k & E & _). discriminate. Qed.

(** The effect an assignment of [n] bytes should have. *)
Definition assigned (n : nat) (a v : Z) (m m' : Z -> Z) : Prop :=
  number_at n a m' = v mod 2 ^ (8 * Z.of_nat n)
  /\ (forall c, a <= c < a + Z.of_nat n -> 0 <= m' c < 256)
  /\ (forall c, ~ a <= c < a + Z.of_nat n -> m' c = m c).

Lemma assign_assigned n ord a v s : Permutation ord (List.seq 0 n) ->
  assigned n a v (mem s) (mem (exec_all (assign ord a v) s)).
Proof.
  intros P. pose proof (order_nodup _ _ P) as ND.
  split; [|split].
  - apply number_at_bytes. intros k Hk. apply (assign_mem ord a v s _ ND); [|reflexivity].
    apply (order_in _ _ _ P). exact Hk.
  - intros c Hc. destruct (assign_mem ord a v s c ND) as [_ B].
    rewrite (B (Z.to_nat (c - a))); [apply Z.mod_pos_bound; lia| |lia].
    apply (order_in _ _ _ P). lia.
  - intros c Hc. destruct (assign_mem ord a v s c ND) as [A _].
    apply A. intros k Hk E. apply (order_in _ _ _ P) in Hk. lia.
Qed.

Lemma single_order ord n : Permutation ord (List.seq 0 n) -> (0 < n)%nat -> Nat.ltb 1 n = false ->
  ord = [0%nat] /\ n = 1%nat.
Proof.
  intros P N L. apply Nat.ltb_ge in L. assert (n = 1%nat) by lia. subst n.
  split; [|reflexivity]. cbn in P. apply Permutation_sym, Permutation_length_1_inv in P.
  exact P.
Qed.

(** ** C81: guarded accesses *)

(** [atomic( dest, value )], for a destination of any size, whatever the order of the
    byte stores and whichever interrupt routines run when: the whole assignment happens
    at one point between the routines, each of which sees the complete old or the
    complete new value. *)
Theorem C81_atomic_write :
  forall n ord a v s rs s',
  (0 < n)%nat -> Permutation ord (List.seq 0 n) ->
  runs (atomic_write n ord a v) s rs s' ->
  exists before after m2,
    rs = before ++ after
    /\ assigned n a v (one_after_other before (mem s)) m2
    /\ mem s' = one_after_other after m2
    /\ (ie s = false -> before = [])
    /\ got s' = got s.
Proof.
  intros n ord a v s rs s' N P R. unfold atomic_write in R.
  destruct (Nat.ltb 1 n) eqn:L.
  - apply runs_guarded in R; [|apply assign_no_sei].
    destruct R as (b & af & -> & (M & G) & I & F).
    eexists b, af, _. split; [reflexivity|].
    split; [|split; [exact M|split; [exact F|exact (eq_trans G (assign_got _ _ _ _))]]].
    exact (assign_assigned n ord a v (Cpu false (one_after_other b (mem s)) (got s)) P).
  - destruct (single_order ord n P N L) as [-> ->].
    apply runs_one in R. destruct R as (b & af & -> & M & G & I & F & _).
    eexists b, af, _. split; [reflexivity|].
    split; [|split; [exact M|split; [exact F|exact G]]].
    exact (assign_assigned 1 [0%nat] a v (Cpu (ie s) (one_after_other b (mem s)) (got s)) P).
Qed.
Print Assumptions C81_atomic_write.

(** Interrupts run in the example: one before, one after the assignment. *)
Example C81_atomic_write_case :
  exists s', runs (atomic_write 2 [1; 0]%nat 0x88 0x1234)
               (Cpu true (fun _ => 0) (fun _ => 0))
               [(fun m => upd m 0x88 0xff); (fun m => upd m 0x100 (m 0x88))] s'
    /\ number_at 2 0x88 (mem s') = 0x1234 /\ mem s' 0x100 = 0x34.
Proof.
  eexists. split.
  - apply runs_interrupt; [reflexivity|]. cbn.
    do 4 (apply runs_instr; cbn). apply runs_interrupt; [reflexivity|]. constructor.
  - split; reflexivity.
Qed.

(** [atomic( value )], for a value of any size: the value read is the complete value
    memory held at one point between the routines. *)
Theorem C81_atomic_read :
  forall n ord a s rs s',
  (0 < n)%nat -> Permutation ord (List.seq 0 n) ->
  runs (atomic_read n ord a) s rs s' ->
  exists before after,
    rs = before ++ after
    /\ number_at n 0 (fun k => got s' (Z.to_nat k))
       = number_at n a (one_after_other before (mem s))
    /\ mem s' = one_after_other rs (mem s)
    /\ (ie s = false -> before = []).
Proof.
  intros n ord a s rs s' N P R. unfold atomic_read in R.
  assert (FG : forall s1 s2, got s2 = got (exec_all (fetch ord a) s1) ->
    number_at n 0 (fun k => got s2 (Z.to_nat k)) = number_at n a (mem s1)).
  { intros s1 s2 E. apply number_at_shift. intros k Hk. rewrite E, fetch_got.
    rewrite Z.add_0_l, Nat2Z.id.
    destruct (in_dec Nat.eq_dec k ord) as [_|NI]; [reflexivity|].
    exfalso. apply NI, (order_in _ _ _ P), Hk. }
  destruct (Nat.ltb 1 n) eqn:L.
  - apply runs_guarded in R; [|apply fetch_no_sei].
    destruct R as (b & af & -> & (M & G) & I & F).
    exists b, af. split; [reflexivity|].
    split; [|split; [|exact F]].
    + rewrite (FG _ _ G). reflexivity.
    + rewrite M, fetch_mem. symmetry. apply fold_left_app.
  - destruct (single_order ord n P N L) as [-> ->].
    apply runs_one in R. destruct R as (b & af & -> & M & G & I & F & _).
    exists b, af. split; [reflexivity|].
    split; [|split; [|exact F]].
    + rewrite (FG (Cpu (ie s) (one_after_other b (mem s)) (got s)) s' G). reflexivity.
    + rewrite M. symmetry. apply fold_left_app.
Qed.
Print Assumptions C81_atomic_read.

Example C81_atomic_read_case :
  exists s', runs (atomic_read 2 [0; 1]%nat 0x100) (Cpu true (fun _ => 0x55) (fun _ => 0))
               [(fun m => upd (upd m 0x100 0x02) 0x101 0x01); (fun m => upd m 0x100 0x77)] s'
    /\ number_at 2 0 (fun k => got s' (Z.to_nat k)) = 0x102.
Proof.
  eexists. split.
  - apply runs_interrupt; [reflexivity|]. cbn.
    do 4 (apply runs_instr; cbn). apply runs_interrupt; [reflexivity|]. constructor.
  - reflexivity.
Qed.

(** Without the guard an interrupt routine can see a value that is neither the old nor
    the new one: for every address, every old and new value of two bytes that differ in
    both bytes, and both orders of the stores. *)
Theorem C81_unguarded_write_torn :
  forall ord a v out s,
  Permutation ord (List.seq 0 2) -> ie s = true ->
  a + 1 < out \/ out + 1 < a ->
  mem s a <> v mod 256 -> mem s (a + 1) <> v / 256 mod 256 ->
  0 <= mem s a < 256 -> 0 <= mem s (a + 1) < 256 -> 0 <= v < 65536 ->
  let observer := fun m => upd (upd m out (m a)) (out + 1) (m (a + 1)) in
  exists s',
    runs (assign ord a v) s [observer] s'
    /\ number_at 2 out (mem s') <> number_at 2 a (mem s)
    /\ number_at 2 out (mem s') <> v.
Proof.
  intros ord a v out s P I D NL NH RL RH RV observer.
  assert (O : ord = [0; 1]%nat \/ ord = [1; 0]%nat).
  { apply Permutation_sym, Permutation_length_2_inv in P. tauto. }
  assert (RM : 0 <= v mod 256 < 256) by (apply Z.mod_pos_bound; lia).
  assert (RD : 0 <= v / 256 < 256).
  { split; [apply Z.div_pos; lia|apply Z.div_lt_upper_bound; lia]. }
  pose proof (Z.div_mod v 256 ltac:(lia)) as DM.
  assert (VM : v / 256 mod 256 = v / 256) by (apply Z.mod_small; exact RD).
  destruct s as [i m g]. cbn [mem got ie] in *. subst i.
  destruct O as [-> | ->]; eexists; (split;
    [cbn [assign map]; apply runs_instr; apply runs_interrupt; [reflexivity|];
     apply runs_instr; constructor|]); subst observer; cbn [exec mem got ie];
    unfold number_at, upd; cbn [Z.of_nat Pos.of_succ_nat Z.mul Pos.mul];
    change (2 ^ 8) with 256; change (2 ^ 0) with 1; change (8 * 1) with 8;
    rewrite ?Z.div_1_r, ?Z.add_0_r;
    repeat match goal with
           | |- context [?x =? ?y] => destruct (Z.eqb_spec x y); try lia
           end.
Qed.
Print Assumptions C81_unguarded_write_torn.

Example C81_unguarded_write_torn_case :
  Permutation [1; 0]%nat (List.seq 0 2) /\ 0x88 + 1 < 0x200
  /\ 0xff <> 0x100 mod 256 /\ 0x00 <> 0x100 / 256 mod 256.
Proof. cbn. split; [constructor|]. repeat split; try lia; discriminate. Qed.

(** Likewise an unguarded read can deliver a value that memory never held. *)
Theorem C81_unguarded_read_torn :
  forall ord a v s,
  Permutation ord (List.seq 0 2) -> ie s = true ->
  mem s a <> v mod 256 -> mem s (a + 1) <> v / 256 ->
  0 <= mem s a < 256 -> 0 <= mem s (a + 1) < 256 -> 0 <= v < 65536 ->
  let updater := fun m => upd (upd m a (v mod 256)) (a + 1) (v / 256) in
  exists s',
    runs (fetch ord a) s [updater] s'
    /\ number_at 2 a (mem s') = v
    /\ number_at 2 0 (fun k => got s' (Z.to_nat k)) <> number_at 2 a (mem s)
    /\ number_at 2 0 (fun k => got s' (Z.to_nat k)) <> v.
Proof.
  intros ord a v s P I NL NH RL RH RV updater.
  assert (O : ord = [0; 1]%nat \/ ord = [1; 0]%nat).
  { apply Permutation_sym, Permutation_length_2_inv in P. tauto. }
  assert (RM : 0 <= v mod 256 < 256) by (apply Z.mod_pos_bound; lia).
  assert (RD : 0 <= v / 256 < 256).
  { split; [apply Z.div_pos; lia|apply Z.div_lt_upper_bound; lia]. }
  pose proof (Z.div_mod v 256 ltac:(lia)) as DM.
  destruct s as [i m g]. cbn [mem got ie] in *. subst i.
  destruct O as [-> | ->]; eexists; (split;
    [cbn [fetch map]; apply runs_instr; apply runs_interrupt; [reflexivity|];
     apply runs_instr; constructor|]); subst updater; cbn [exec mem got ie];
    unfold number_at, upd; change (Z.to_nat 0) with 0%nat;
    change (Z.to_nat (0 + 1)) with 1%nat;
    cbn [Nat.eqb Z.of_nat Pos.of_succ_nat];
    rewrite ?Z.add_0_r; change (2 ^ 8) with 256;
    repeat match goal with
           | |- context [?x =? ?y] => destruct (Z.eqb_spec x y); try lia
           end.
Qed.
Print Assumptions C81_unguarded_read_torn.

Example C81_unguarded_read_torn_case :
  exists s', runs (fetch [0; 1]%nat 0x100)
               (Cpu true (fun c => if c =? 0x100 then 0xff else 0) (fun _ => 0))
               [fun m => upd (upd m 0x100 0) 0x101 1] s'
    /\ number_at 2 0 (fun k => got s' (Z.to_nat k)) = 0x1ff.
Proof.
  eexists. split.
  - cbn. apply runs_instr; cbn. apply runs_interrupt; [reflexivity|].
    apply runs_instr; constructor.
  - reflexivity.
Qed.

(** ** C82: scope guards *)

Lemma sreg_read m :
  field_read sreg_whole m = Some (byte m 0x5f, Machine (byte m) (bus m ++ [Rd W8 0x5f])).
Proof. reflexivity. Qed.

Lemma sreg_write v m : 0 <= v < 256 ->
  exists m', field_write atmega sreg_whole v m = Some m'
    /\ byte m' 0x5f = v /\ forall c, c <> 0x5f -> byte m' c = byte m c.
Proof.
  intros Hv. eexists. split; [reflexivity|].
  assert (PL : forall v mem c, atmega 0x5f v mem c = if c =? 0x5f then v else mem c).
  { apply (atmega_plain W8 0x5f); [|left; reflexivity].
    intros b [->|[D _]]; [split; reflexivity|discriminate D]. }
  cbn [store byte f_w sreg_whole register8 f_addr].
  split; [rewrite PL; cbn; apply Z.mod_small; exact Hv|].
  intros c NE. rewrite PL. destruct (Z.eqb_spec c 0x5f); [contradiction|reflexivity].
Qed.

(** Code always ends, normally or with a return. *)
Lemma run_total p : forall m, exists m' r, run p m = Some (m', r).
Proof.
  induction p as [f|p IHp q IHq|c p IHp q IHq|n p IHp| |p IHp|p IHp]; intros m; cbn [run].
  - eauto.
  - destruct (IHp m) as (m1 & r & E). rewrite E. destruct r; [eauto|apply IHq].
  - destruct (c m); [apply IHp|apply IHq].
  - revert m. induction n as [|n IHn]; intros m; [cbn; eauto|].
    cbn [Nat.iter nat_rect]. destruct (IHp m) as (m1 & r & E). rewrite E.
    destruct r; [eauto|]. apply IHn.
  - eauto.
  - destruct (IHp (cli m)) as (m1 & r & E). rewrite E. eauto.
  - rewrite sreg_read. destruct (IHp (Machine (byte m) (bus m ++ [Rd W8 0x5f]))) as (m1 & r & E).
    rewrite E. cbn. eauto.
Qed.

Lemma sei_bits m i : 0 <= i ->
  Z.testbit (byte (sei m) 0x5f) i = (if i =? 7 then true else Z.testbit (byte m 0x5f) i).
Proof.
  intros Hi. unfold sei, upd. cbn [byte]. rewrite Z.eqb_refl, Z.lor_spec.
  change 0x80 with (2 ^ 7). rewrite Z.pow2_bits_eqb by lia. rewrite (Z.eqb_sym 7 i).
  destruct (i =? 7); [apply orb_true_r|apply orb_false_r].
Qed.

Lemma cli_bits m i : 0 <= i < 8 ->
  Z.testbit (byte (cli m) 0x5f) i = (if i =? 7 then false else Z.testbit (byte m 0x5f) i).
Proof.
  intros Hi. unfold cli, upd. cbn [byte]. rewrite Z.eqb_refl, Z.land_spec.
  change 0x7f with (Z.ones 7). rewrite Z.testbit_ones_nonneg by lia.
  destruct (Z.eqb_spec i 7); destruct (Z.ltb_spec i 7); try lia;
    first [apply andb_false_r|apply andb_true_r].
Qed.

(** A scope with a [scoped_sreg] leaves the status register as it found it, whatever is
    done in it, nested guards and returns included; nothing else is affected. *)
Theorem C82_scoped_sreg_restores :
  forall p m, bytes_ok (byte m) ->
  exists m1 m' r,
    run p (Machine (byte m) (bus m ++ [Rd W8 0x5f])) = Some (m1, r)
    /\ run (ScopedSreg p) m = Some (m', r)
    /\ byte m' 0x5f = byte m 0x5f
    /\ forall c, c <> 0x5f -> byte m' c = byte m1 c.
Proof.
  intros p m H. cbn [run]. rewrite sreg_read.
  destruct (run_total p (Machine (byte m) (bus m ++ [Rd W8 0x5f]))) as (m1 & r & E).
  rewrite E. destruct (sreg_write (byte m 0x5f) m1 (H _)) as (m' & W & B & O).
  rewrite W. exists m1, m', r. repeat split; assumption.
Qed.
Print Assumptions C82_scoped_sreg_restores.

Example C82_scoped_sreg_restores_case :
  exists m', run (ScopedSreg (Then (InterruptGuard (Step (fun m => m)))
                                   (Then Return (Step sei))))
                 (Machine (fun c => if c =? 0x5f then 0x03 else 0) []) = Some (m', true)
    /\ byte m' 0x5f = 0x03.
Proof. eexists. split; reflexivity. Qed.

(** A scope with a [scoped_interrupt_guard] runs its code from a state with interrupts
    off and leaves interrupts on, however it found them and whatever is done in it; the
    other bits of the status register and all else are as the code left them. *)
Theorem C82_guard_leaves_on :
  forall p m,
  exists m0 m1 m' r,
    (forall i, 0 <= i < 8 -> Z.testbit (byte m0 0x5f) i
       = if i =? 7 then false else Z.testbit (byte m 0x5f) i)
    /\ (forall c, c <> 0x5f -> byte m0 c = byte m c) /\ bus m0 = bus m
    /\ run p m0 = Some (m1, r)
    /\ run (InterruptGuard p) m = Some (m', r)
    /\ interrupts_on (byte m' 0x5f)
    /\ (forall i, 0 <= i < 7 -> Z.testbit (byte m' 0x5f) i = Z.testbit (byte m1 0x5f) i)
    /\ (forall c, c <> 0x5f -> byte m' c = byte m1 c) /\ bus m' = bus m1.
Proof.
  intros p m. exists (cli m). destruct (run_total p (cli m)) as (m1 & r & E).
  exists m1, (sei m1), r.
  split; [intros i Hi; apply cli_bits, Hi|]. split.
  { intros c NE. unfold cli, upd. cbn. destruct (Z.eqb_spec c 0x5f); [contradiction|reflexivity]. }
  split; [reflexivity|]. split; [exact E|]. split; [cbn [run]; rewrite E; reflexivity|].
  split; [unfold interrupts_on; rewrite sei_bits by lia; reflexivity|]. split.
  { intros i Hi. rewrite sei_bits by lia. destruct (Z.eqb_spec i 7); [lia|reflexivity]. }
  split; [|reflexivity].
  intros c NE. unfold sei, upd. cbn. destruct (Z.eqb_spec c 0x5f); [contradiction|reflexivity].
Qed.
Print Assumptions C82_guard_leaves_on.

Example C82_guard_leaves_on_case :
  exists m', run (InterruptGuard (Step (fun m => m)))
                 (Machine (fun _ => 0) []) = Some (m', false) /\ byte m' 0x5f = 0x80.
Proof. eexists. split; reflexivity. Qed.

(** So it does not restore what it found: for every code and every state with
    interrupts off, they are on afterwards. *)
Theorem C82_guard_restores_refuted :
  forall p m, ~ interrupts_on (byte m 0x5f) ->
  exists m' r, run (InterruptGuard p) m = Some (m', r)
    /\ Z.testbit (byte m' 0x5f) 7 <> Z.testbit (byte m 0x5f) 7.
Proof.
  intros p m H. destruct (C82_guard_leaves_on p m) as (_ & _ & m' & r & _ & _ & _ & _ & E & I & _).
  exists m', r. split; [exact E|]. unfold interrupts_on in *. congruence.
Qed.
Print Assumptions C82_guard_restores_refuted.

Example C82_guard_restores_refuted_case : ~ interrupts_on 0x7f.
Proof. discriminate. Qed.

(** Code after a nested guard runs with interrupts on although the outer guard, or the
    interrupt routine it is part of, is not at its end: the state in which [q] starts
    has interrupts enabled, unless [p] returned. *)
Theorem C82_code_after_nested_guard :
  forall p q m, 
  (exists m1, run (InterruptGuard p) (cli m) = Some (m1, true)
     /\ run (InterruptGuard (Then (InterruptGuard p) q)) m = Some (sei m1, true))
  \/ (exists m1 m2 r, run (InterruptGuard p) (cli m) = Some (m1, false)
        /\ interrupts_on (byte m1 0x5f)
        /\ run q m1 = Some (m2, r)
        /\ run (InterruptGuard (Then (InterruptGuard p) q)) m = Some (sei m2, r)).
Proof.
  intros p q m. destruct (C82_guard_leaves_on p (cli m))
    as (_ & _ & m1 & r & _ & _ & _ & _ & E & I & _).
  change (run (InterruptGuard (Then (InterruptGuard p) q)) m)
    with (match match run (InterruptGuard p) (cli m) with
                | Some (m1, false) => run q m1
                | other => other
                end with
          | Some (m1, r) => Some (sei m1, r)
          | None => None
          end).
  rewrite E. destruct r.
  - left. exists m1. split; reflexivity.
  - right. destruct (run_total q m1) as (m2 & r & E2). exists m1, m2, r.
    rewrite E2. repeat split; assumption.
Qed.
Print Assumptions C82_code_after_nested_guard.

Example C82_code_after_nested_guard_case :
  run (InterruptGuard (Then (InterruptGuard (Step (fun m => m)))
                            (If (fun m => Z.testbit (byte m 0x5f) 7) Return (Step (fun m => m)))))
      (Machine (fun _ => 0) [])
  = Some (Machine (upd (upd (upd (upd (fun _ => 0) 0x5f 0) 0x5f 0) 0x5f 0x80) 0x5f 0x80) [], true).
Proof. cbn. unfold sei, cli. cbn. reflexivity. Qed.

(** A loop runs its body so many times and goes on with what follows; a return in the
    body, at whatever round, ends the function with all guards left. *)
Theorem C82_loop :
  forall n p q m,
  (forall g, (forall m, run p m = Some (g m, false)) ->
     run (Then (Repeat n p) q) m = run q (Nat.iter n g m)
     /\ run (InterruptGuard (Then (Repeat n p) Return)) m
        = Some (sei (Nat.iter n g (cli m)), true))
  /\ (forall k g m1, (k < n)%nat ->
        (forall j, (j < k)%nat -> run p (Nat.iter j g m) = Some (Nat.iter (Datatypes.S j) g m, false)) ->
        run p (Nat.iter k g m) = Some (m1, true) ->
        run (Then (Repeat n p) q) m = Some (m1, true)).
Proof.
  intros n p q m.
  assert (IS : forall {A} (f : A -> A) k x, Nat.iter k f (f x) = f (Nat.iter k f x)).
  { intros A f k x. symmetry. induction k as [|k IH]; [reflexivity|]. cbn. f_equal. exact IH. }
  split.
  - intros g G.
    assert (E : forall m, run (Repeat n p) m = Some (Nat.iter n g m, false)).
    { cbn [run]. induction n as [|n IH]; intros m'; [reflexivity|].
      change (Nat.iter (Datatypes.S n) g m') with (g (Nat.iter n g m')).
      rewrite <- (IS _ g n m'). cbn [Nat.iter nat_rect]. rewrite G. apply IH. }
    split.
    + cbn [run] in *. rewrite E. reflexivity.
    + cbn [run] in *. rewrite E. reflexivity.
  - intros k. cbn [run]. revert k m.
    induction n as [|n IH]; intros k m g m1 L B R; [lia|].
    change (Nat.iter (Datatypes.S n)) with
      (fun (f : (machine -> option (machine * bool)) -> machine -> option (machine * bool)) x =>
         f (Nat.iter n f x)).
    cbv beta. destruct k as [|k].
    + cbn in R. rewrite R. reflexivity.
    + pose proof (B 0%nat ltac:(lia)) as B0. cbn in B0. rewrite B0.
      apply (IH k (g m) g m1); [lia| |].
      * intros j J. pose proof (B (Datatypes.S j) ltac:(lia)) as BJ.
        change (Nat.iter (Datatypes.S (Datatypes.S j)) g m) with (g (Nat.iter (Datatypes.S j) g m)) in BJ.
        change (Nat.iter (Datatypes.S j) g m) with (g (Nat.iter j g m)) in BJ.
        rewrite <- (IS _ g j m) in BJ. exact BJ.
      * change (Nat.iter (Datatypes.S k) g m) with (g (Nat.iter k g m)) in R.
        rewrite <- (IS _ g k m) in R. exact R.
Qed.
Print Assumptions C82_loop.

(** Three rounds; and a loop left in its second round. *)
Example C82_loop_case :
  let up := fun m => Machine (upd (byte m) 7 (byte m 7 + 1)) (bus m) in
  let body := If (fun m => byte m 7 =? 1) Return (Step up) in
  option_map (fun r => (byte (fst r) 7, snd r))
    (run (Then (Repeat 3 (Step up)) (Step up)) (Machine (fun _ => 0) [])) = Some (4, false)
  /\ option_map (fun r => (byte (fst r) 7, snd r))
    (run (Then (Repeat 3 body) (Step up)) (Machine (fun _ => 0) [])) = Some (1, true).
Proof. split; reflexivity. Qed.

(** The section of the outer guard is therefore open: with an atomic write inside it,
    every interrupt routine can run between that and the rest of the section. *)
Theorem C82_outer_section_open :
  forall n ord a v rest r s,
  (1 < n)%nat -> Permutation ord (List.seq 0 n) ->
  exists m2 s',
    assigned n a v (mem s) m2
    /\ runs (guarded (atomic_write n ord a v ++ rest)) s [r] s'
    /\ mem s' = mem (exec_all rest (Cpu true (r m2) (got s))).
Proof.
  intros n ord a v rest r s N P.
  exists (mem (exec_all (assign ord a v) (Cpu false (mem s) (got s)))).
  set (s1 := exec_all (assign ord a v) (Cpu false (mem s) (got s))).
  exists (exec Sei (exec_all rest (Cpu true (r (mem s1)) (got s)))).
  split; [exact (assign_assigned n ord a v (Cpu false (mem s) (got s)) P)|].
  split; [|reflexivity].
  unfold guarded, atomic_write. apply Nat.ltb_lt in N. rewrite N. unfold guarded.
  apply runs_instr. cbn [exec]. cbn [app]. apply runs_instr. cbn [exec mem got].
  rewrite <- !app_assoc.
  apply (runs_app_intro _ _ _ s1 _ [] [r]); [apply runs_exec_all|].
  cbn [app]. apply runs_instr. apply runs_interrupt; [reflexivity|]. cbn [exec mem got].
  replace (got s1) with (got s)
    by (symmetry; exact (assign_got ord a v (Cpu false (mem s) (got s)))).
  apply (runs_app_intro _ _ _ (exec_all rest (Cpu true (r (mem s1)) (got s))) _ [] []);
    [apply runs_exec_all|].
  apply runs_instr. constructor.
Qed.
Print Assumptions C82_outer_section_open.

Example C82_outer_section_open_case : (1 < 2)%nat /\ Permutation [1; 0]%nat (List.seq 0 2).
Proof. split; [lia|]. cbn. constructor. Qed.
