(** * Proofs about the text of numbers *)

From Coq Require Import Reals ZArith Bool Ascii String List Lia Lra.
From Flocq Require Import Core IEEE754.BinarySingleNaN.
From Verif Require Import Base Output OutputSpec.
Import ListNotations.
Local Open Scope string_scope.
Local Open Scope Z_scope.

(** ** Splitting *)

Lemma split_app c a b : lacks c a -> split c (a ++ String c b) = a :: split c b.
Proof.
  induction a as [|x a IH]; intros H; cbn [append split].
  - now rewrite Ascii.eqb_refl.
  - destruct (Ascii.eqb_spec x c) as [->|_].
    + exfalso. apply H. left. reflexivity.
    + rewrite IH; [reflexivity|]. intros X. apply H. right. exact X.
Qed.
Lemma split_none c a : lacks c a -> split c a = [a].
Proof.
  induction a as [|x a IH]; intros H; cbn [split]; [reflexivity|].
  destruct (Ascii.eqb_spec x c) as [->|_].
  - exfalso. apply H. left. reflexivity.
  - rewrite IH; [reflexivity|]. intros X. apply H. right. exact X.
Qed.

Lemma list_app a b : list_ascii_of_string (a ++ b) = (list_ascii_of_string a ++ list_ascii_of_string b)%list.
Proof. induction a as [|x a IH]; cbn; [reflexivity|now rewrite IH]. Qed.
Lemma lacks_app c a b : lacks c (a ++ b) <-> lacks c a /\ lacks c b.
Proof. unfold lacks. rewrite list_app, in_app_iff. tauto. Qed.
Lemma lacks_nil c : lacks c "".
Proof. intros []. Qed.
Lemma lacks_cons c x s : lacks c (String x s) <-> x <> c /\ lacks c s.
Proof. unfold lacks. cbn. intuition. Qed.
Lemma app_nil_s a : a ++ "" = a.
Proof. induction a as [|x a IH]; cbn; [reflexivity|now rewrite IH]. Qed.
Lemma app_assoc_s a b c : (a ++ b) ++ c = a ++ (b ++ c).
Proof. induction a as [|x a IH]; cbn; [reflexivity|now rewrite IH]. Qed.

(** ** Digits *)

Definition isdig (d : Z) : Prop := 0 <= d <= 9.

Lemma digit_value_digit d : isdig d -> digit_value (digit d) = Some d.
Proof.
  intros [L H].
  assert (E : forall k : nat, (k <= 9)%nat -> digit_value (digit (Z.of_nat k)) = Some (Z.of_nat k)).
  { intros k Hk. do 10 (destruct k as [|k]; [reflexivity|]). lia. }
  rewrite <- (Z2Nat.id d) by lia. apply E. lia.
Qed.

(** The number with the digits [l] after those of [acc]. *)
Definition dval (acc : Z) (l : list Z) : Z := fold_left (fun a d => 10 * a + d) l acc.

Lemma dval_app acc a b : dval acc (a ++ b) = dval (dval acc a) b.
Proof. apply fold_left_app. Qed.
Lemma dval_shift l : forall acc, dval acc l = acc * 10 ^ Z.of_nat (length l) + dval 0 l.
Proof.
  induction l as [|d l IH]; intros acc; cbn [dval fold_left length].
  - rewrite Z.pow_0_r. lia.
  - change (fold_left _ l ?x) with (dval x l). rewrite (IH (10 * acc + d)), (IH (10 * 0 + d)).
    rewrite Nat2Z.inj_succ, Z.pow_succ_r by lia. ring.
Qed.
Lemma dval_zeros k : forall acc, dval acc (repeat 0 k) = acc * 10 ^ Z.of_nat k.
Proof.
  induction k as [|k IH]; intros acc; cbn [repeat dval fold_left].
  - rewrite Z.pow_0_r. lia.
  - change (fold_left _ (repeat 0 k) ?x) with (dval x (repeat 0 k)). rewrite IH.
    rewrite Nat2Z.inj_succ, Z.pow_succ_r by lia. ring.
Qed.
Lemma dval_ge l : Forall isdig l -> 0 <= dval 0 l.
Proof.
  assert (G : Forall isdig l -> forall a, 0 <= a -> 0 <= dval a l).
  { induction 1 as [|d l [D _] F IH]; intros a Ha; cbn [dval fold_left]; [assumption|].
    apply IH. lia. }
  intros F. now apply G.
Qed.

Definition starts_digit (s : string) : Prop :=
  match s with "" => False | String a _ => digit_value a <> None end.

Lemma read_text l : Forall isdig l -> forall acc k s, ~ starts_digit s ->
  read_digits acc k (text_of l ++ s) = (dval acc l, (k + length l)%nat, s).
Proof.
  induction 1 as [|d l D F IH]; intros acc k s Hs; cbn [text_of append length].
  - rewrite Nat.add_0_r. destruct s as [|a s]; cbn [read_digits dval fold_left]; [reflexivity|].
    cbn in Hs. destruct (digit_value a); [exfalso; apply Hs; discriminate|reflexivity].
  - cbn [read_digits]. rewrite (digit_value_digit d D), IH by assumption.
    cbn [dval fold_left]. f_equal. f_equal. lia.
Qed.

Lemma digits_text fuel : forall n tail, 0 <= n < 10 ^ Z.of_nat fuel -> (0 < fuel)%nat ->
  exists l, digits fuel n tail = text_of l ++ tail /\ Forall isdig l /\ l <> [] /\ dval 0 l = n.
Proof.
  induction fuel as [|fuel IH]; intros n tail Hn Hf; [lia|]. cbn [digits].
  assert (M : isdig (n mod 10)) by (pose proof (Z.mod_pos_bound n 10 ltac:(lia)); split; lia).
  destruct (Z.ltb_spec n 10) as [L|L].
  - exists [n mod 10]. split; [reflexivity|]. split; [auto|]. split; [discriminate|].
    cbn. rewrite Z.mod_small by lia. reflexivity.
  - rewrite Nat2Z.inj_succ, Z.pow_succ_r in Hn by lia.
    destruct fuel as [|fuel]; [cbn in Hn; lia|].
    destruct (IH (n / 10) (String (digit (n mod 10)) tail)) as (l & E & F & Ne & V); [|lia|].
    { split; [apply Z.div_pos; lia|]. apply Z.div_lt_upper_bound; lia. }
    exists (l ++ [n mod 10])%list. rewrite E. split; [|split; [|split]].
    + clear. induction l as [|d l IH]; cbn; [reflexivity|now rewrite IH].
    + apply Forall_app. auto.
    + now destruct l.
    + rewrite dval_app, V. unfold dval; cbn [fold_left]. pose proof (Z.div_mod n 10 ltac:(lia)). lia.
Qed.

Lemma strip_zeros l : exists k, l = (strip l ++ repeat 0 k)%list.
Proof.
  induction l as [|d l (k & IH)]; cbn [strip]; [now exists 0%nat|].
  destruct (strip l) as [|x t] eqn:E.
  - destruct (Z.eqb_spec d 0) as [->|_].
    + exists (S k). cbn. now rewrite IH at 1.
    + exists k. cbn. now rewrite IH at 1.
  - exists k. cbn in *. now rewrite IH at 1.
Qed.
Lemma strip_digits l : Forall isdig l -> Forall isdig (strip l).
Proof. intros F. destruct (strip_zeros l) as (k & E). rewrite E in F. now apply Forall_app in F. Qed.

(** ** Reading what was written *)

Local Notation r10 := (Build_radix 10 eq_refl).
Local Notation p10 := (bpow r10).

Lemma p10_IZR k : 0 <= k -> p10 k = IZR (10 ^ k).
Proof. intros H. symmetry. now apply (IZR_Zpower r10). Qed.

(** Digits [p] before the point, [q] after it (printed without trailing zeros), a correct
    exponent: the number with all these digits. *)
Lemma read_mantissa p q t e : p <> [] -> Forall isdig p -> Forall isdig q ->
  read_exponent t = Some e -> ~ starts_digit t -> (forall u, t <> String "." u) ->
  exists n k, read_unsigned (text_of p ++ fraction q ++ t) = Some (n, e - k) /\
    (IZR n * p10 (e - k) = IZR (dval 0 (p ++ q)) * p10 (e - Z.of_nat (length q)))%R /\
    0 <= n <= dval 0 (p ++ q).
Proof.
  intros Np Fp Fq Et St Pt. destruct (strip_zeros q) as (k & Eq). unfold fraction, read_unsigned.
  destruct (strip q) as [|x f] eqn:Es.
  - cbn [append]. rewrite (read_text p Fp) by assumption.
    destruct (0 + length p)%nat eqn:L; [destruct p; [contradiction|discriminate]|].
    exists (dval 0 p), 0. cbn [app] in Eq. rewrite Z.sub_0_r. split; [|split].
    + destruct t as [|a t]; [now rewrite Et|].
      destruct (Ascii.eqb_spec a ".") as [->|N]; [exfalso; exact (Pt t eq_refl)|].
      assert (G : forall A (u v : A) , match a with "."%char => u | _ => v end = v).
      { intros A u v. destruct a as [[] [] [] [] [] [] [] []]; try reflexivity. congruence. }
      rewrite G. now rewrite Et.
    + rewrite Eq, dval_app, dval_zeros, repeat_length, mult_IZR, <- p10_IZR by lia.
      rewrite Rmult_assoc, <- bpow_plus. f_equal. f_equal. lia.
    + rewrite Eq, dval_app, dval_zeros. pose proof (dval_ge p Fp).
      pose proof (Z.pow_pos_nonneg 10 (Z.of_nat k) ltac:(lia) ltac:(lia)). nia.
  - rewrite <- Es in *. pose proof (strip_digits q Fq) as Fs.
    change (String "." (text_of (strip q)) ++ t) with (String "." (text_of (strip q) ++ t)).
    rewrite (read_text p Fp); [|cbn; intros X; now apply X].
    destruct (0 + length p)%nat eqn:L; [destruct p; [contradiction|discriminate]|].
    rewrite (read_text (strip q) Fs) by assumption. cbn [Nat.add].
    destruct (length (strip q)) eqn:L'; [rewrite Es in L'; discriminate|]. rewrite Et.
    exists (dval (dval 0 p) (strip q)), (Z.of_nat (S n0)). split; [reflexivity|].
    assert (D : dval 0 (p ++ q) = dval (dval 0 p) (strip q) * 10 ^ Z.of_nat k).
    { rewrite dval_app, Eq at 1. now rewrite dval_app, dval_zeros. }
    assert (LQ : Z.of_nat (length q) = Z.of_nat (S n0) + Z.of_nat k).
    { rewrite Eq, app_length, repeat_length, L'. lia. }
    split.
    + rewrite D, LQ, mult_IZR, <- p10_IZR by lia. rewrite Rmult_assoc, <- bpow_plus. f_equal. f_equal. lia.
    + rewrite D. assert (0 <= dval (dval 0 p) (strip q)).
      { rewrite <- dval_app. apply dval_ge. apply Forall_app. auto. }
      pose proof (Z.pow_pos_nonneg 10 (Z.of_nat k) ltac:(lia) ltac:(lia)). nia.
Qed.

Lemma read_exponent_written X : Z.abs X < 1000 ->
  read_exponent (exponent X) = Some X /\ ~ starts_digit (exponent X) /\
  (forall u, exponent X <> String "." u).
Proof.
  intros HX. split; [|split; [cbn; intros C; now apply C|discriminate]].
  unfold exponent.
  set (t := let a := Z.abs X in if a <? 10 then String "0" (String (digit a) "") else digits 20 a "").
  assert (R : exists k, read_digits 0 0 t = (Z.abs X, S k, "")).
  { subst t. cbv zeta. destruct (Z.ltb_spec (Z.abs X) 10) as [L|L].
    - exists 1%nat. change (String "0" (String (digit (Z.abs X)) "")) with (text_of [0; Z.abs X] ++ "").
      rewrite read_text; [reflexivity| |intros []].
      constructor; [split; lia|]. constructor; [split; lia|constructor].
    - destruct (digits_text 20 (Z.abs X) "") as (l & E & F & Ne & V); [|lia|].
      { assert (P : 1000 <= 10 ^ Z.of_nat 20) by (vm_compute; discriminate).
        revert P. generalize (10 ^ Z.of_nat 20). lia. }
      rewrite E, read_text; [|assumption|intros []]. rewrite V. destruct l; [contradiction|].
      eexists. reflexivity. }
  destruct R as (k & R). cbn [read_exponent].
  destruct (Z.ltb_spec X 0); rewrite R; f_equal; lia.
Qed.

Lemma digit_list_value D : 100000 <= D <= 999999 ->
  Forall isdig (digit_list D) /\ dval 0 (digit_list D) = D.
Proof.
  intros H. unfold digit_list. split.
  - repeat constructor; try (apply Z.mod_pos_bound; lia);
      match goal with |- ?a mod 10 <= 9 => pose proof (Z.mod_pos_bound a 10 ltac:(lia)); lia end.
  - unfold dval; cbn [fold_left]. Z.div_mod_to_equations. lia.
Qed.

Lemma read_show_pos num den D X : six_digits num den = (D, X) -> 100000 <= D <= 999999 -> Z.abs X < 1000 ->
  exists n e, read_unsigned (show_pos num den) = Some (n, e) /\
    (IZR n * p10 e = IZR D * p10 (X - 5))%R /\ 0 <= n <= D.
Proof.
  intros E HD HX. unfold show_pos. rewrite E. destruct (digit_list_value D HD) as [F V].
  set (l := digit_list D) in *. assert (L : length l = 6%nat) by reflexivity. clearbody l.
  assert (FF : forall k, Forall isdig (firstn k l) /\ Forall isdig (skipn k l)).
  { intros k. rewrite <- (firstn_skipn k l) in F. now apply Forall_app in F. }
  assert (Ne : forall k, firstn (S k) l <> []) by (intros k; destruct l; discriminate).
  assert (RE : read_exponent "" = Some 0) by reflexivity.
  assert (SD : ~ starts_digit "") by (intros []).
  assert (PT : forall u, "" <> String "." u) by discriminate.
  destruct (Z.leb_spec (-4) X) as [L4|L4]; cbn [andb].
  2: { destruct (read_exponent_written X HX) as (R1 & R2 & R3).
       destruct (read_mantissa (firstn 1 l) (skipn 1 l) (exponent X) X) as (n & k & A & B & C); auto; try apply FF.
       rewrite firstn_skipn, V in *. rewrite skipn_length, L in B.
       exists n, (X - k). repeat split; try apply C; assumption. }
  destruct (Z.ltb_spec X 6) as [L6|L6].
  2: { destruct (read_exponent_written X HX) as (R1 & R2 & R3).
       destruct (read_mantissa (firstn 1 l) (skipn 1 l) (exponent X) X) as (n & k & A & B & C); auto; try apply FF.
       rewrite firstn_skipn, V in *. rewrite skipn_length, L in B.
       exists n, (X - k). repeat split; try apply C; assumption. }
  destruct (Z.leb_spec 0 X) as [L0|L0].
  - replace (Z.to_nat (X + 1)) with (S (Z.to_nat X)) by lia.
    destruct (read_mantissa (firstn (S (Z.to_nat X)) l) (skipn (S (Z.to_nat X)) l) "" 0) as (n & k & A & B & C); auto; try apply FF.
    rewrite app_nil_s in A. rewrite firstn_skipn, V in *. rewrite skipn_length, L in B.
    exists n, (0 - k). split; [exact A|]. split; [|exact C]. rewrite B. f_equal. f_equal. lia.
  - destruct (read_mantissa [0] (repeat 0 (Z.to_nat (- X - 1)) ++ l)%list "" 0) as (n & k & A & B & C); auto.
    + discriminate.
    + constructor; [split; lia|constructor].
    + apply Forall_app. split; [|assumption]. clear. induction (Z.to_nat (- X - 1)); cbn; constructor; [split; lia|assumption].
    + rewrite app_nil_s in A. cbn [text_of append] in A.
      assert (DV : dval 0 ([0] ++ repeat 0 (Z.to_nat (- X - 1)) ++ l) = D).
      { rewrite !dval_app, dval_zeros. exact V. }
      rewrite DV, app_length, repeat_length, L in *.
      exists n, (0 - k). split; [exact A|]. split; [|exact C]. rewrite B. f_equal. f_equal. lia.
Qed.

(** ** Six digits *)

Lemma exp_up_spec fuel : forall num den X, 0 < den -> den <= num < den * 10 ^ Z.of_nat fuel ->
  let X' := exp_up fuel num den X in
  X <= X' < X + Z.of_nat fuel /\ den * 10 ^ (X' - X) <= num < den * 10 ^ (X' - X + 1).
Proof.
  induction fuel as [|fuel IH]; intros num den X Hd H; cbn [exp_up]; cbv zeta.
  - cbn in H. lia.
  - destruct (Z.ltb_spec num (den * 10)) as [L|L].
    + rewrite Z.sub_diag. cbn. lia.
    + rewrite Nat2Z.inj_succ, Z.pow_succ_r in H by lia.
      destruct (IH num (den * 10) (X + 1)) as [A B]; [lia|lia|]. split; [lia|].
      set (X' := exp_up fuel num (den * 10) (X + 1)) in *.
      replace (X' - X) with (X' - (X + 1) + 1) by ring.
      rewrite !Z.pow_add_r, !Z.pow_1_r in * by lia. nia.
Qed.
Lemma exp_down_spec fuel : forall num den X, 0 < num -> num < den * 10 -> den <= num * 10 ^ Z.of_nat fuel ->
  let X' := exp_down fuel num den X in
  X - Z.of_nat fuel <= X' <= X /\ den <= num * 10 ^ (X - X') < den * 10.
Proof.
  induction fuel as [|fuel IH]; intros num den X Hn H1 H2; cbn [exp_down]; cbv zeta.
  - cbn in H2. rewrite Z.sub_diag. cbn. lia.
  - destruct (Z.leb_spec den num) as [L|L].
    + rewrite Z.sub_diag. cbn. lia.
    + rewrite Nat2Z.inj_succ, Z.pow_succ_r in H2 by lia.
      destruct (IH (num * 10) den (X - 1)) as [A B]; [lia|lia|lia|]. split; [lia|].
      set (X' := exp_down fuel (num * 10) den (X - 1)) in *.
      replace (X - X') with (X - 1 - X' + 1) by ring.
      rewrite Z.pow_add_r, Z.pow_1_r by lia. lia.
Qed.

Lemma ratio_p10 num den X : 0 < den ->
  (0 <= X -> den * 10 ^ X <= num < den * 10 ^ (X + 1)) ->
  (X < 0 -> den <= num * 10 ^ (- X) < den * 10) ->
  (p10 X <= IZR num / IZR den < p10 (X + 1))%R.
Proof.
  intros Hd H1 H2. assert (Pd : (0 < IZR den)%R) by now apply IZR_lt.
  destruct (Z_lt_le_dec X 0) as [L|L].
  - destruct (H2 L) as [A B]. apply IZR_le in A. apply IZR_lt in B.
    rewrite mult_IZR, <- p10_IZR in A, B by lia. rewrite mult_IZR in B.
    assert (P : (p10 X * p10 (- X) = 1)%R) by (rewrite <- bpow_plus, Z.add_opp_diag_r; reflexivity).
    rewrite bpow_plus. change (p10 1) with 10%R.
    pose proof (bpow_gt_0 r10 X) as PX.
    split.
    + apply Rmult_le_reg_r with (IZR den); [assumption|]. unfold Rdiv. rewrite Rmult_assoc, Rinv_l by lra.
      apply Rmult_le_reg_r with (p10 (- X)); [apply bpow_gt_0|]. nra.
    + apply Rmult_lt_reg_r with (IZR den); [assumption|]. unfold Rdiv. rewrite Rmult_assoc, Rinv_l by lra.
      apply Rmult_lt_reg_r with (p10 (- X)); [apply bpow_gt_0|]. nra.
  - destruct (H1 L) as [A B]. apply IZR_le in A. apply IZR_lt in B.
    rewrite mult_IZR, <- p10_IZR in A, B by lia. split.
    + apply Rmult_le_reg_r with (IZR den); [assumption|]. unfold Rdiv. rewrite Rmult_assoc, Rinv_l by lra. lra.
    + apply Rmult_lt_reg_r with (IZR den); [assumption|]. unfold Rdiv. rewrite Rmult_assoc, Rinv_l by lra. lra.
Qed.

Lemma dec_exp_spec num den : 0 < num -> 0 < den -> num < den * 10 ^ 310 -> den <= num * 10 ^ 330 ->
  -330 <= dec_exp num den < 310 /\
  (p10 (dec_exp num den) <= IZR num / IZR den < p10 (dec_exp num den + 1))%R.
Proof.
  intros Hn Hd U D. unfold dec_exp. destruct (Z.leb_spec den num) as [L|L].
  - destruct (exp_up_spec 310 num den 0) as [A B]; [lia|split; [lia|exact U]|].
    set (X := exp_up 310 num den 0) in *. rewrite Z.sub_0_r in B. split; [lia|].
    apply ratio_p10; [lia|auto|lia].
  - destruct (exp_down_spec 330 num den 0) as [A B]; [lia|lia|exact D|].
    set (X := exp_down 330 num den 0) in *. change (0 - X) with (- X) in B. split; [lia|].
    apply ratio_p10; [lia| |auto]. intros X0. assert (X = 0) by lia. rewrite H in *. cbn in B. cbn. lia.
Qed.

Lemma round_half_even_spec a b : 0 < b -> (Rabs (IZR (round_half_even a b) - IZR a / IZR b) <= /2)%R.
Proof.
  intros Hb. assert (Pb : (0 < IZR b)%R) by now apply IZR_lt.
  assert (G : forall q, (- b <= 2 * (q * b - a) <= b)%Z -> (Rabs (IZR q - IZR a / IZR b) <= /2)%R).
  { intros q [G1 G2]. apply IZR_le in G1, G2. rewrite mult_IZR, minus_IZR, mult_IZR in G1, G2.
    rewrite opp_IZR in G1.
    assert (E : (IZR q - IZR a / IZR b = (IZR q * IZR b - IZR a) / IZR b)%R) by (field; lra).
    rewrite E. apply Rabs_le. split; apply Rmult_le_reg_r with (IZR b); try assumption;
      unfold Rdiv; rewrite Rmult_assoc, Rinv_l by lra; lra. }
  unfold round_half_even. pose proof (Z.div_mod a b ltac:(lia)) as E.
  pose proof (Z.mod_pos_bound a b Hb) as M. set (q := a / b) in *. set (r := a mod b) in *.
  destruct (Z.ltb_spec (2 * r) b); [apply G; nia|].
  destruct (Z.ltb_spec b (2 * r)); [apply G; nia|].
  destruct (Z.even q); apply G; nia.
Qed.

(** The digits are those of the closest number: with y = num/den,
    10^X0 <= y < 10^(X0+1), |D 10^(X-5) - y| <= 10^(X0-5)/2. *)
Lemma six_digits_spec num den : 0 < num -> 0 < den -> num < den * 10 ^ 310 -> den <= num * 10 ^ 330 ->
  exists D X X0, six_digits num den = (D, X) /\ 100000 <= D <= 999999 /\ Z.abs X < 1000 /\
    (p10 X0 <= IZR num / IZR den < p10 (X0 + 1))%R /\
    (Rabs (IZR D * p10 (X - 5) - IZR num / IZR den) <= / 2 * p10 (X0 - 5))%R /\
    (exists D0, IZR D * p10 (X - 5) = IZR D0 * p10 (X0 - 5))%R.
Proof.
  intros Hn Hd U L. destruct (dec_exp_spec num den Hn Hd U L) as [BX B]. unfold six_digits.
  set (X := dec_exp num den) in *. clearbody X.
  set (D := if X <=? 5 then _ else _).
  assert (Pd : (0 < IZR den)%R) by now apply IZR_lt.
  assert (HD : (Rabs (IZR D - IZR num / IZR den * p10 (5 - X)) <= / 2)%R).
  { subst D. destruct (Z.leb_spec X 5) as [L5|L5].
    - pose proof (round_half_even_spec (num * 10 ^ (5 - X)) den Hd) as R.
      rewrite mult_IZR, <- p10_IZR in R by lia.
      replace (IZR num / IZR den * p10 (5 - X))%R with (IZR num * p10 (5 - X) / IZR den)%R by (field; lra).
      exact R.
    - assert (P : 0 < 10 ^ (X - 5)) by (apply Z.pow_pos_nonneg; lia).
      pose proof (round_half_even_spec num (den * 10 ^ (X - 5)) ltac:(nia)) as R.
      rewrite mult_IZR, <- p10_IZR in R by lia.
      assert (I : (p10 (5 - X) = / p10 (X - 5))%R) by (rewrite <- bpow_opp; f_equal; lia).
      rewrite I. pose proof (bpow_gt_0 r10 (X - 5)).
      replace (IZR num / IZR den * / p10 (X - 5))%R with (IZR num / (IZR den * p10 (X - 5)))%R by (field; lra).
      exact R. }
  clearbody D. set (y := (IZR num / IZR den)%R) in *. clearbody y.
  assert (P5 : (p10 (X - 5) * p10 (5 - X) = 1)%R) by (rewrite <- bpow_plus; replace (X - 5 + (5 - X)) with 0 by ring; reflexivity).
  pose proof (bpow_gt_0 r10 (X - 5)) as Pa. pose proof (bpow_gt_0 r10 (5 - X)) as Pb.
  assert (Y : (100000 <= y * p10 (5 - X) < 1000000)%R).
  { assert (E1 : (p10 X * p10 (5 - X) = 100000)%R) by (rewrite <- bpow_plus; replace (X + (5 - X)) with 5 by ring; reflexivity).
    assert (E2 : (p10 (X + 1) * p10 (5 - X) = 1000000)%R) by (rewrite <- bpow_plus; replace (X + 1 + (5 - X)) with 6 by ring; reflexivity).
    destruct B as [B1 B2]. split; [rewrite <- E1|rewrite <- E2]; [apply Rmult_le_compat_r|apply Rmult_lt_compat_r]; lra. }
  apply Rabs_le_inv in HD.
  assert (D1 : (99999 < IZR D)%R) by lra. assert (D2 : (IZR D < 1000001)%R) by lra.
  apply lt_IZR in D1, D2.
  assert (HE : (Rabs (IZR D * p10 (X - 5) - y) <= / 2 * p10 (X - 5))%R).
  { replace (IZR D * p10 (X - 5) - y)%R with ((IZR D - y * p10 (5 - X)) * p10 (X - 5))%R.
    2: { rewrite Rmult_minus_distr_r, Rmult_assoc, (Rmult_comm (p10 (5 - X))), P5. ring. }
    rewrite Rabs_mult, (Rabs_pos_eq (p10 (X - 5))) by lra. apply Rmult_le_compat_r; [lra|].
    apply Rabs_le. lra. }
  destruct (Z.eqb_spec D 1000000) as [->|N].
  - exists 100000, (X + 1), X. split; [reflexivity|]. split; [lia|]. split; [lia|]. split; [assumption|].
    replace (X + 1 - 5) with (X - 5 + 1) by ring. rewrite bpow_plus. change (p10 1) with 10%R.
    replace (100000 * (p10 (X - 5) * 10))%R with (1000000 * p10 (X - 5))%R by ring.
    split; [exact HE|]. exists 1000000. reflexivity.
  - exists D, X, X. split; [reflexivity|]. split; [lia|]. split; [lia|].
    split; [assumption|]. split; [assumption|]. exists D. reflexivity.
Qed.

(** ** Floating point numbers *)

Lemma pow2_pos e : 0 <= e -> 0 < 2 ^ e.
Proof. intros. now apply Z.pow_pos_nonneg. Qed.
Lemma pow2_1024 : 2 ^ 1024 < 10 ^ 310.
Proof. reflexivity. Qed.
Lemma pow2_1074 : 2 ^ 1074 <= 10 ^ 330.
Proof. vm_compute. discriminate. Qed.

(** The fraction which the text of a finite number is made of. *)
Lemma finite_fraction prec emax s m e : 0 < prec <= 53 -> emax <= 1024 ->
  SpecFloat.bounded prec emax m e = true -> 
  exists num den, 0 < num /\ 0 < den /\ num < den * 10 ^ 310 /\ den <= num * 10 ^ 330 /\
    (IZR num / IZR den = IZR (Zpos m) * bpow radix2 e)%R /\
    (forall B : SpecFloat.bounded prec emax m e = true,
     show_float (B754_finite s m e B : binary_float prec emax) =
     if s then String "-" (show_pos num den) else show_pos num den).
Proof.
  intros Hp He B. pose proof (bounded_lt_emax prec emax m e B) as U.
  unfold SpecFloat.bounded in B. apply andb_prop in B. destruct B as [B1 B2].
  apply Z.leb_le in B2. unfold SpecFloat.canonical_mantissa in B1. apply Zeq_bool_eq in B1.
  unfold SpecFloat.fexp, SpecFloat.emin in B1.
  pose proof (Pos2Z.is_pos m) as Pm.
  assert (E0 : - 1074 <= e) by lia.
  unfold F2R in U. cbn [Fnum Fexp] in U.
  destruct (Z.leb_spec 0 e) as [L|L].
  - exists (Zpos m * 2 ^ e), 1. pose proof (pow2_pos e L).
    assert (V : (IZR (Z.pos m * 2 ^ e) = IZR (Z.pos m) * bpow radix2 e)%R).
    { rewrite mult_IZR. f_equal. now apply (IZR_Zpower radix2). }
    split; [nia|]. split; [lia|].
    assert (LT : Z.pos m * 2 ^ e < 2 ^ 1024).
    { apply lt_IZR. rewrite V. eapply Rlt_le_trans; [exact U|].
      change 1024 with (Z.max 1024 0). rewrite (IZR_Zpower radix2) by lia. apply bpow_le. lia. }
    pose proof pow2_1024 as C. pose proof (Z.pow_pos_nonneg 10 330 ltac:(lia) ltac:(lia)).
    split; [|split].
    { rewrite Z.mul_1_l. eapply Z.lt_trans; eassumption. }
    { generalize dependent (10 ^ 330). intros. nia. }
    split; [rewrite V; field|]. intros B. unfold show_float.
    destruct (Z.leb_spec 0 e); [reflexivity|lia].
  - exists (Zpos m), (2 ^ (- e)). pose proof (pow2_pos (- e) ltac:(lia)) as P.
    split; [lia|]. split; [assumption|].
    assert (LT : Z.pos m < 2 ^ 53).
    { assert (DG : Zdigits radix2 (Zpos m) <= 53) by (rewrite <- Digits.Zpos_digits2_pos; lia).
      pose proof (Zdigits_correct radix2 (Zpos m)) as [_ D]. rewrite Z.abs_eq in D by lia.
      eapply Z.lt_le_trans; [exact D|]. apply (Z.pow_le_mono_r 2); lia. }
    assert (C : 2 ^ 53 < 10 ^ 310) by reflexivity.
    assert (D : 2 ^ (- e) <= 10 ^ 330).
    { eapply Z.le_trans; [|exact pow2_1074]. apply Z.pow_le_mono_r; lia. }
    split; [|split].
    { generalize dependent (10 ^ 310). generalize dependent (2 ^ 53). intros. nia. }
    { generalize dependent (10 ^ 330). intros. nia. }
    split.
    { assert (I : bpow radix2 (- e) = IZR (2 ^ (- e))) by (symmetry; apply (IZR_Zpower radix2); lia).
      rewrite <- I, bpow_opp. pose proof (bpow_gt_0 radix2 e). field. lra. }
    intros B. unfold show_float. destruct (Z.leb_spec 0 e); [lia|reflexivity].
Qed.

Lemma powerRZ_p10 e : powerRZ 10 e = p10 e.
Proof. symmetry. exact (bpow_powerRZ r10 e). Qed.

(** No decimal number with six digits is closer. *)
Lemma nearest y D X X0 : 100000 <= D <= 999999 -> (p10 X0 <= y < p10 (X0 + 1))%R ->
  (Rabs (IZR D * p10 (X - 5) - y) <= / 2 * p10 (X0 - 5))%R ->
  (exists D0, IZR D * p10 (X - 5) = IZR D0 * p10 (X0 - 5))%R ->
  forall n' e', Z.abs n' < 1000000 ->
  (Rabs (IZR D * p10 (X - 5) - y) <= Rabs (IZR n' * p10 e' - y))%R.
Proof.
  intros HD HY HE (D0 & ED) n' e' Hn. rewrite ED in *.
  pose proof (bpow_gt_0 r10 (X0 - 5)) as P.
  assert (G : forall k : Z, (Rabs (IZR D0 * p10 (X0 - 5) - y) <= Rabs (IZR k * p10 (X0 - 5) - y))%R).
  { intros k. destruct (Z.eq_dec k D0) as [->|N]; [lra|].
    assert (A : (1 <= Rabs (IZR k - IZR D0))%R).
    { rewrite <- minus_IZR, <- abs_IZR. apply IZR_le. lia. }
    assert (B : (p10 (X0 - 5) <= Rabs (IZR k * p10 (X0 - 5) - IZR D0 * p10 (X0 - 5)))%R).
    { rewrite <- Rmult_minus_distr_r, Rabs_mult, (Rabs_pos_eq (p10 (X0 - 5))) by lra. nra. }
    unfold Rabs in *. repeat destruct Rcase_abs; lra. }
  destruct (Z_le_gt_dec (X0 - 5) e') as [L|L].
  - replace e' with (e' - (X0 - 5) + (X0 - 5)) by ring.
    rewrite (bpow_plus r10 (e' - (X0 - 5)) (X0 - 5)), (p10_IZR (e' - (X0 - 5))) by lia.
    rewrite <- Rmult_assoc, <- mult_IZR. apply G.
  - specialize (G 100000). replace (100000 * p10 (X0 - 5))%R with (p10 X0) in G.
    2: { replace X0 with (5 + (X0 - 5)) at 1 by ring. rewrite bpow_plus. reflexivity. }
    eapply Rle_trans; [exact G|]. rewrite Rabs_left1 by lra.
    assert (U : (IZR n' * p10 e' <= p10 X0)%R).
    { pose proof (bpow_gt_0 r10 e') as Pe. 
      assert (N : (IZR n' <= 1000000)%R) by (apply IZR_le; lia).
      apply Rle_trans with (1000000 * p10 e')%R; [nra|].
      change 1000000%R with (p10 6). rewrite <- bpow_plus. apply bpow_le. lia. }
    rewrite Rabs_left1 by lra. lra.
Qed.

(** A positive fraction. *)
Lemma read_pos num den : 0 < num -> 0 < den -> num < den * 10 ^ 310 -> den <= num * 10 ^ 330 ->
  exists n e, read_unsigned (show_pos num den) = Some (n, e) /\ 0 < n < 1000000 /\
    (Rabs (IZR n * powerRZ 10 e - IZR num / IZR den) <= 5 / 1000000 * (IZR num / IZR den))%R /\
    forall n' e', Z.abs n' < 1000000 ->
      (Rabs (IZR n * powerRZ 10 e - IZR num / IZR den) <= Rabs (IZR n' * powerRZ 10 e' - IZR num / IZR den))%R.
Proof.
  intros Hn Hd U L. destruct (six_digits_spec num den Hn Hd U L) as (D & X & X0 & E & HD & HX & HY & HE & HM).
  destruct (read_show_pos num den D X E HD HX) as (n & e & R & V & B). exists n, e.
  split; [exact R|]. rewrite powerRZ_p10, V. split; [|split].
  - split; [|lia]. destruct (Z.eq_dec n 0) as [->|]; [|lia]. exfalso.
    rewrite Rmult_0_l in V. pose proof (bpow_gt_0 r10 (X - 5)).
    assert (0 < IZR D)%R by (apply IZR_lt; lia). nra.
  - eapply Rle_trans; [exact HE|].
    assert (P5 : (p10 (X0 - 5) = p10 X0 * / 100000)%R) by (unfold Zminus; rewrite bpow_plus; reflexivity).
    rewrite P5. lra.
  - intros n' e' Hn'. rewrite (powerRZ_p10 e'). eapply nearest; eassumption.
Qed.

Lemma read_decimal_unsigned s r : read_unsigned s = Some r -> read_decimal s = Some r.
Proof.
  intros H. unfold read_decimal. destruct s as [|a s]; [exact H|].
  destruct (Ascii.eqb_spec a "-") as [->|N]; [discriminate H|].
  destruct a as [[] [] [] [] [] [] [] []]; try exact H. congruence.
Qed.
Lemma read_decimal_minus s n e : read_unsigned s = Some (n, e) -> read_decimal (String "-" s) = Some (- n, e).
Proof. intros H. cbn. now rewrite H. Qed.

(** ** Characters *)

(** The characters other than digits that occur in the text of numbers. *)
Definition number_char (c : ascii) : bool :=
  existsb (Ascii.eqb c) ["-"; "+"; "."; "e"; "i"; "n"; "f"; "a"]%char ||
  match digit_value c with Some _ => true | None => false end.

Lemma lacks_digit c d : number_char c = false -> isdig d -> digit d <> c.
Proof.
  intros H D E. apply orb_false_elim in H. destruct H as [_ H].
  rewrite <- E, (digit_value_digit d D) in H. discriminate.
Qed.
Lemma lacks_text c l : number_char c = false -> Forall isdig l -> lacks c (text_of l).
Proof.
  intros H. induction 1 as [|d l D F IH]; cbn [text_of]; [apply lacks_nil|].
  apply lacks_cons. split; [now apply lacks_digit|assumption].
Qed.
Lemma mod10 a : isdig (a mod 10).
Proof. pose proof (Z.mod_pos_bound a 10 ltac:(lia)). split; lia. Qed.
Lemma lacks_digits c fuel : number_char c = false -> forall n tail, lacks c tail -> lacks c (digits fuel n tail).
Proof.
  intros H. induction fuel as [|fuel IH]; intros n tail L; cbn [digits]; [assumption|].
  assert (lacks c (String (digit (n mod 10)) tail)).
  { apply lacks_cons. split; [apply lacks_digit; [assumption|apply mod10]|assumption]. }
  destruct (n <? 10); auto.
Qed.
Lemma lacks_char c (a : ascii) s : number_char c = false -> number_char a = true -> lacks c s -> lacks c (String a s).
Proof. intros H A L. apply lacks_cons. split; [congruence|assumption]. Qed.

Lemma lacks_show_Z c n : number_char c = false -> lacks c (show_Z n).
Proof.
  intros H. unfold show_Z. pose proof (lacks_digits c 20 H) as L. pose proof (lacks_nil c).
  destruct (n <? 0); [apply lacks_char; auto|auto].
Qed.

Lemma lacks_show_pos c num den : number_char c = false -> lacks c (show_pos num den).
Proof.
  intros H. unfold show_pos. destruct (six_digits num den) as [D X].
  assert (F : Forall isdig (digit_list D)) by (repeat constructor; apply mod10).
  set (l := digit_list D) in *. clearbody l.
  assert (FF : forall k, Forall isdig (firstn k l) /\ Forall isdig (skipn k l)).
  { intros k. rewrite <- (firstn_skipn k l) in F. now apply Forall_app in F. }
  assert (FR : forall q, Forall isdig q -> lacks c (fraction q)).
  { intros q Hq. unfold fraction. apply strip_digits in Hq. destruct (strip q) as [|x t]; [apply lacks_nil|].
    apply lacks_char; [assumption|reflexivity|]. now apply lacks_text. }
  assert (EX : lacks c (exponent X)).
  { unfold exponent. apply lacks_char; [assumption|reflexivity|].
    apply lacks_char; [assumption|now destruct (X <? 0)|].
    cbv zeta. destruct (Z.ltb_spec (Z.abs X) 10).
    - apply lacks_char; [assumption|reflexivity|]. apply (lacks_text c [Z.abs X]); [assumption|].
      constructor; [split; lia|constructor].
    - apply lacks_digits; [assumption|apply lacks_nil]. }
  destruct ((-4 <=? X) && (X <? 6)).
  - destruct (0 <=? X).
    + apply lacks_app. split; [apply lacks_text; [assumption|apply FF]|apply FR, FF].
    + apply lacks_app. split; [apply lacks_char; [assumption|reflexivity|apply lacks_nil]|].
      apply FR. apply Forall_app. split; [|assumption].
      clear. induction (Z.to_nat (- X - 1)); cbn; constructor; [split; lia|assumption].
  - apply lacks_app. split; [apply lacks_text; [assumption|apply FF]|].
    apply lacks_app. split; [apply FR, FF|exact EX].
Qed.

Lemma lacks_show_float c prec emax (x : binary_float prec emax) : number_char c = false -> lacks c (show_float x).
Proof.
  intros H. pose proof (lacks_nil c) as N.
  destruct x as [s|s| |s m e B]; cbn [show_float];
    repeat match goal with
    | |- lacks _ (if ?b then _ else _) => destruct b
    | |- lacks _ (show_pos _ _) => apply lacks_show_pos; assumption
    | |- lacks _ (String _ _) => apply lacks_char; [assumption|reflexivity|]
    end; try assumption.
Qed.
