(** * What the output operators write

    C136, C137 and C139 of properties.jsonl. *)

From Coq Require Import Reals ZArith Bool Ascii String List Lia Lra.
From Coquelicot Require Import Complex.
From Flocq Require Import Core IEEE754.BinarySingleNaN.
From Verif Require Import Base Scalars Matrix MatrixSpec Ieee FixedPoint FixedSpec Biquad BiquadSpec PropsBiquad
  Cascade CascadeSpec CascadeProofs PropsCascade OnePole PropsOnePole Output OutputSpec OutputProofs.
Import ListNotations.
Local Open Scope string_scope.
Local Open Scope Z_scope.

(** ** C136: vectors and matrices *)

Definition concat_s (l : list string) : string := fold_right append "" l.

(** Printing in a loop. *)
Lemma for_text n g : forall k os body,
  (forall i os, (k <= i < k + n)%nat -> body i os = Ok (os ++ g i)) ->
  for_from k n body os = Ok (os ++ concat_s (map g (seq k n))).
Proof.
  induction n as [|n IH]; intros k os body H; cbn [for_from seq map concat_s fold_right].
  - now rewrite app_nil_s.
  - rewrite H by lia. cbn [bind]. rewrite (IH (S k)); [|intros; apply H; lia].
    now rewrite app_assoc_s.
Qed.

Lemma words_concat l : Forall (lacks " ") l ->
  words (concat_s (map (append " ") l)) = "" :: l.
Proof.
  induction 1 as [|x l Hx F IH]; [reflexivity|]. cbn [map concat_s fold_right].
  change (" " ++ x) with (String " " x). cbn [append]. unfold words in *. cbn [split].
  change ((" " =? " ")%char) with true. cbv iota. f_equal.
  destruct l as [|y l].
  - cbn [map concat_s fold_right]. rewrite app_nil_s. now apply split_none.
  - cbn [map concat_s fold_right] in *. change (" " ++ y) with (String " " y) in *. cbn [append] in *.
    rewrite split_app by assumption. f_equal. cbn [split] in IH.
    change ((" " =? " ")%char) with true in IH. cbv iota in IH. now inversion IH.
Qed.
Lemma lines_concat l : Forall (lacks "010") l ->
  lines (concat_s (map (fun x => x ++ nl) l)) = (l ++ [""])%list.
Proof.
  induction 1 as [|x l Hx F IH]; [reflexivity|]. cbn [map concat_s fold_right].
  rewrite app_assoc_s. unfold nl at 1. cbn [append]. unfold lines in *.
  rewrite split_app by assumption. cbn [app]. f_equal. exact IH.
Qed.
Lemma lacks_concat c l : Forall (lacks c) l -> lacks c (concat_s l).
Proof. induction 1; cbn; [apply lacks_nil|]. now apply lacks_app. Qed.

(** One line for every row, in each line every element after a blank. *)
Theorem C136_matrix :
  forall (T : Type) (show : T -> string), (forall v, lacks " " (show v) /\ lacks "010" (show v)) ->
  forall (N M : nat) (m : matrix T) (f : nat -> nat -> T), repr N M m f ->
  exists t, show_matrix show N M m = Ok t /\
    map words (lines t) =
    (map (fun r => "" :: map (fun c => show (f r c)) (seq 0 M)) (seq 0 N) ++ [[""]])%list.
Proof.
  intros T show Hs N M m f (L & A). unfold show_matrix, for_.
  set (row := fun r => concat_s (map (append " ") (map (fun c => show (f r c)) (seq 0 M)))).
  rewrite (for_text _ (fun r => row r ++ nl)).
  2: { intros r os Hr. unfold rows in Hr. unfold columns.
       rewrite (for_text _ (fun c => " " ++ show (f r c))).
       2: { intros c os' Hc. rewrite A by lia. reflexivity. }
       cbn [bind]. unfold row. rewrite map_map, app_assoc_s. reflexivity. }
  eexists. split; [reflexivity|]. cbn [append]. unfold rows. rewrite <- (map_map row (fun x => x ++ nl)).
  assert (LR : forall r, lacks "010" (row r)).
  { intros r. apply lacks_concat. apply Forall_forall. intros x Hx. apply in_map_iff in Hx.
    destruct Hx as (y & <- & Hy). apply in_map_iff in Hy. destruct Hy as (c & <- & _).
    apply lacks_app. split; [|apply Hs]. cbn. intros [X|[]]; discriminate. }
  rewrite lines_concat.
  2: { apply Forall_forall. intros x Hx. apply in_map_iff in Hx. destruct Hx as (r & <- & _). apply LR. }
  rewrite map_app, map_map. cbn [map]. f_equal. apply map_ext. intros r. apply words_concat.
  apply Forall_forall. intros x Hx. apply in_map_iff in Hx. destruct Hx as (c & <- & _). apply Hs.
Qed.
Print Assumptions C136_matrix.

(** In brackets every element after a blank. *)
Theorem C136_vector :
  forall (T : Type) (show : T -> string), (forall v, lacks " " (show v)) ->
  forall (x : list T),
  exists inner, show_vector show x = "[" ++ inner ++ "]" /\ words inner = "" :: map show x.
Proof.
  intros T show Hs x. exists (concat_s (map (append " ") (map show x))). split.
  - unfold show_vector. f_equal. induction x as [|v x IH]; [reflexivity|].
    cbn [fold_right map concat_s]. rewrite IH. now rewrite !app_assoc_s.
  - apply words_concat. apply Forall_forall. intros y Hy. apply in_map_iff in Hy.
    destruct Hy as (v & <- & _). apply Hs.
Qed.
Print Assumptions C136_vector.

(** So a text determines the shape and the text of every element. *)
Theorem C136_matrix_injective :
  forall (T : Type) (show : T -> string), (forall v, lacks " " (show v) /\ lacks "010" (show v)) ->
  forall (N M N' M' : nat) (m m' : matrix T) (f f' : nat -> nat -> T), (0 < N)%nat ->
  repr N M m f -> repr N' M' m' f' -> show_matrix show N M m = show_matrix show N' M' m' ->
  N = N' /\ M = M' /\ forall r c, (r < N)%nat -> (c < M)%nat -> show (f r c) = show (f' r c).
Proof.
  intros T show Hs N M N' M' m m' f f' HN R R' E.
  destruct (C136_matrix T show Hs N M m f R) as (t & Et & L).
  destruct (C136_matrix T show Hs N' M' m' f' R') as (t' & Et' & L').
  rewrite E, Et' in Et. injection Et as ->. rewrite L in L'. apply app_inj_tail in L'.
  destruct L' as [L' _].
  assert (EN : N = N') by (apply (f_equal (@length _)) in L'; now rewrite !map_length, !seq_length in L').
  subst N'. assert (EL : forall r, (r < N)%nat ->
    map (fun c => show (f r c)) (seq 0 M) = map (fun c => show (f' r c)) (seq 0 M')).
  { intros r Hr. apply (f_equal (fun l => nth r l [])) in L'.
    rewrite !(nth_indep _ _ ("" :: map (fun c => show (f 0%nat c)) (seq 0 M))) in L'
      by (rewrite map_length, seq_length; assumption).
    rewrite (map_nth (fun r => "" :: map (fun c => show (f r c)) (seq 0 M)) (seq 0 N) 0%nat r) in L'.
    rewrite (nth_indep _ _ ("" :: map (fun c => show (f' 0%nat c)) (seq 0 M'))) in L'
      by (rewrite map_length, seq_length; assumption).
    rewrite (map_nth (fun r => "" :: map (fun c => show (f' r c)) (seq 0 M')) (seq 0 N) 0%nat r) in L'.
    rewrite seq_nth in L' by assumption. cbn [Nat.add] in L'. now inversion L'. }
  assert (EM : M = M') by (pose proof (f_equal (@length _) (EL 0%nat HN)) as X; now rewrite !map_length, !seq_length in X).
  subst M'. split; [reflexivity|]. split; [reflexivity|]. intros r c Hr Hc.
  pose proof (f_equal (fun l => nth c l "") (EL r Hr)) as X. cbv beta in X.
  rewrite (nth_indep _ _ (show (f r 0%nat))) in X by (rewrite map_length, seq_length; assumption).
  rewrite (map_nth (fun c => show (f r c))) in X.
  rewrite (nth_indep _ _ (show (f' r 0%nat))) in X by (rewrite map_length, seq_length; assumption).
  rewrite (map_nth (fun c => show (f' r c))) in X. rewrite seq_nth in X by assumption. exact X.
Qed.
Print Assumptions C136_matrix_injective.

(** The text of a floating point number (also in an infinity or a nan) has neither blanks
    nor line ends. *)
Theorem C136_numbers :
  forall (prec emax : Z) (x : binary_float prec emax), lacks " " (show_float x) /\ lacks "010" (show_float x).
Proof. intros. split; now apply lacks_show_float. Qed.
Print Assumptions C136_numbers.

Example C136_case :
  let m := map Some [ieee_of_Z 53 1024 1; ieee_of_Z 53 1024 (-20); ieee_of_Z 53 1024 300;
                     ieee_of_Z 53 1024 4000000; ieee_of_Z 53 1024 0; ieee_of_Z 53 1024 6] in
  show_matrix show_float 2 3 m = Ok (" 1 -20 300" ++ nl ++ " 4e+06 0 6" ++ nl) /\
  show_vector show_float [ieee_of_Z 53 1024 7; ieee_of_Z 53 1024 8] = "[ 7 8]".
Proof. vm_compute. split; reflexivity. Qed.

(** ** C137: numbers *)

(** Six significant digits: no number with six digits is closer. *)
Theorem C137_six_digits :
  forall (prec emax : Z) (x : binary_float prec emax), 0 < prec <= 53 -> emax <= 1024 -> is_finite x = true ->
  exists n e, read_decimal (show_float x) = Some (n, e) /\ Z.abs n < 1000000 /\
    (Rabs (IZR n * powerRZ 10 e - B2R x) <= 5 / 1000000 * Rabs (B2R x))%R /\
    forall n' e', Z.abs n' < 1000000 ->
      (Rabs (IZR n * powerRZ 10 e - B2R x) <= Rabs (IZR n' * powerRZ 10 e' - B2R x))%R.
Proof.
  intros prec emax x Hp He F. destruct x as [s|s| |s m e B]; try discriminate F.
  - exists 0, 0. split; [destruct s; reflexivity|]. split; [reflexivity|].
    cbn [B2R]. rewrite Rmult_0_l, Rminus_0_r, Rabs_R0. split; [lra|]. intros. apply Rabs_pos.
  - destruct (finite_fraction prec emax s m e Hp He B) as (num & den & Hn & Hd & U & L & V & Sh).
    rewrite Sh. destruct (read_pos num den Hn Hd U L) as (n & e' & Rd & Bn & E1 & E2).
    rewrite V in E1, E2. 
    assert (P : (0 < IZR (Z.pos m) * bpow radix2 e)%R)
      by (apply Rmult_lt_0_compat; [apply IZR_lt; lia|apply bpow_gt_0]).
    destruct s.
    + assert (BV : B2R (B754_finite true m e B) = (- (IZR (Z.pos m) * bpow radix2 e))%R)
        by (cbn [B2R]; unfold F2R; cbn [cond_Zopp Fnum Fexp]; rewrite opp_IZR; ring).
      rewrite BV. set (y := (IZR (Z.pos m) * bpow radix2 e)%R) in *.
      exists (- n), e'. split; [now apply read_decimal_minus|]. split; [lia|].
      rewrite opp_IZR, Rabs_Ropp, (Rabs_pos_eq y) by lra.
      assert (N : forall a b : R, (Rabs (- a * b - - y) = Rabs (a * b - y))%R).
      { intros. rewrite <- Rabs_Ropp. f_equal. ring. }
      rewrite N. split; [exact E1|]. intros n' e'' Hn'.
      rewrite <- (Z.opp_involutive n'), opp_IZR, N. apply E2. lia.
    + assert (BV : B2R (B754_finite false m e B) = (IZR (Z.pos m) * bpow radix2 e)%R) by reflexivity.
      rewrite BV. set (y := (IZR (Z.pos m) * bpow radix2 e)%R) in *.
      exists n, e'. split; [now apply read_decimal_unsigned|]. split; [lia|].
      rewrite (Rabs_pos_eq y) by lra. split; assumption.
Qed.
Print Assumptions C137_six_digits.

(** Only finite numbers are numbers in the text. *)
Theorem C137_not_finite :
  forall (prec emax : Z) (x : binary_float prec emax), is_finite x = false -> read_decimal (show_float x) = None.
Proof. intros prec emax [s|s| |s m e B] F; try discriminate F; try destruct s; reflexivity. Qed.
Print Assumptions C137_not_finite.

(** Counts. *)
Theorem C137_integers :
  forall n, Z.abs n < 10 ^ 20 -> read_decimal (show_Z n) = Some (n, 0).
Proof.
  intros n H. unfold show_Z.
  assert (G : forall k, 0 <= k < 10 ^ 20 -> read_unsigned (digits 20 k "") = Some (k, 0)).
  { intros k Hk. destruct (digits_text 20 k "") as (l & E & F & Ne & V); [exact Hk|lia|].
    rewrite E. destruct (read_mantissa l [] "" 0 Ne F (Forall_nil _) eq_refl) as (m & j & R & W & _).
    - intros [].
    - discriminate.
    - assert (RT := read_text l F 0 0%nat "" (fun X => X)). unfold read_unsigned. rewrite RT, V.
      destruct l; [contradiction|]. reflexivity. }
  destruct (Z.ltb_spec n 0).
  - rewrite (read_decimal_minus _ (- n) 0); [now rewrite Z.opp_involutive|]. apply G. split; [lia|].
    revert H. generalize (10 ^ 20). lia.
  - apply read_decimal_unsigned. apply G. split; [lia|]. revert H. generalize (10 ^ 20). lia.
Qed.
Print Assumptions C137_integers.

(** Fixed-point numbers *)

Definition rnd64 := round radix2 (SpecFloat.fexp 53 1024) (round_mode mode_NE).

Lemma rnd_small z k : Z.abs z <= 2 ^ 53 -> -1000 <= k <= 0 ->
  rnd64 (IZR z * bpow radix2 k) = (IZR z * bpow radix2 k)%R.
Proof.
  intros Hz Hk. unfold rnd64. apply round_generic; [typeclasses eauto|].
  change (SpecFloat.fexp 53 1024) with (FLT_exp (-1074) 53).
  destruct (Z.eq_dec (Z.abs z) (2 ^ 53)) as [E|N].
  - assert (EZ : z = 2 ^ 53 \/ z = - 2 ^ 53) by lia.
    apply generic_format_abs_inv. rewrite Rabs_mult, <- abs_IZR, E, (Rabs_pos_eq (bpow _ _)) by apply bpow_ge_0.
    change (IZR (2 ^ 53)) with (bpow radix2 53). rewrite <- bpow_plus. apply generic_format_bpow.
    unfold FLT_exp. lia.
  - apply generic_format_FLT. exists (Float radix2 z k); [reflexivity|cbn; lia|cbn; lia].
Qed.

Lemma small_lt z k : Z.abs z <= 2 ^ 53 -> -1000 <= k <= 0 ->
  Rlt_bool (Rabs (rnd64 (IZR z * bpow radix2 k))) (bpow radix2 1024) = true.
Proof.
  intros Hz Hk. rewrite rnd_small by assumption. apply Rlt_bool_true.
  rewrite Rabs_mult, <- abs_IZR, (Rabs_pos_eq (bpow _ _)) by apply bpow_ge_0.
  apply IZR_le in Hz. change (IZR (2 ^ 53)) with (bpow radix2 53) in Hz.
  apply Rle_lt_trans with (bpow radix2 53 * bpow radix2 k)%R.
  - apply Rmult_le_compat_r; [apply bpow_ge_0|assumption].
  - rewrite <- bpow_plus. apply bpow_lt. lia.
Qed.

Lemma ieee_int z : Z.abs z <= 2 ^ 53 -> B2R (ieee_of_Z 53 1024 z) = IZR z /\ is_finite (ieee_of_Z 53 1024 z) = true.
Proof.
  intros Hz. pose proof (binary_normalize_correct 53 1024 double_prec double_emax mode_NE z 0 false) as C.
  cbv zeta in C. unfold F2R in C. cbn [Fnum Fexp] in C.
  change (round radix2 (SpecFloat.fexp 53 1024) (round_mode mode_NE)) with rnd64 in C.
  rewrite small_lt in C by lia. destruct C as (C1 & C2 & _). rewrite rnd_small in C1 by lia.
  split; [|exact C2]. unfold ieee_of_Z. rewrite C1. cbn. ring.
Qed.

Lemma fixed_double c x : supported c -> in_range c x ->
  let d := Bdiv mode_NE (ieee_of_Z 53 1024 x) (ieee_of_Z 53 1024 (2 ^ fx_F c)) in
  B2R d = value c x /\ is_finite d = true.
Proof.
  intros Sup R. destruct Sup as (W & _ & HF). unfold in_range in R.
  assert (HW : fx_w c <= 32) by lia.
  assert (P31 : 2 ^ (fx_w c - 1) <= 2 ^ 31) by (apply Z.pow_le_mono_r; lia).
  assert (PF : 2 ^ fx_F c <= 2 ^ 31) by (apply Z.pow_le_mono_r; lia).
  pose proof (Z.pow_pos_nonneg 2 (fx_F c) ltac:(lia) ltac:(lia)).
  assert (C53 : 2 ^ 31 <= 2 ^ 53) by (vm_compute; discriminate).
  assert (X53 : Z.abs x <= 2 ^ 53) by (generalize dependent (2 ^ 53); generalize dependent (2 ^ 31); lia).
  assert (F53 : Z.abs (2 ^ fx_F c) <= 2 ^ 53) by (generalize dependent (2 ^ 53); generalize dependent (2 ^ 31); lia).
  destruct (ieee_int x X53) as [Ex Fx]. destruct (ieee_int (2 ^ fx_F c) F53) as [EF FF].
  cbv zeta.
  assert (NZ : B2R (ieee_of_Z 53 1024 (2 ^ fx_F c)) <> 0%R) by (rewrite EF; apply not_0_IZR; lia).
  pose proof (Bdiv_correct 53 1024 double_prec double_emax mode_NE (ieee_of_Z 53 1024 x) _ NZ) as C.
  rewrite Ex, EF in C.
  assert (V : (IZR x / IZR (2 ^ fx_F c) = IZR x * bpow radix2 (- fx_F c))%R).
  { rewrite bpow_opp. unfold Rdiv. f_equal. f_equal. apply (IZR_Zpower radix2). lia. }
  rewrite V in C. change (round radix2 (SpecFloat.fexp 53 1024) (round_mode mode_NE)) with rnd64 in C.
  rewrite small_lt in C by lia. rewrite rnd_small in C by lia. destruct C as (C1 & C2 & _).
  split; [|now rewrite C2]. unfold value. rewrite V. exact C1.
Qed.

(** A fixed-point number is printed with six significant digits of its value. *)
Theorem C137_fixed_point :
  forall (c : fx) (x : Z), supported c -> in_range c x ->
  exists r, denotes (show_fixed c x) r /\ (Rabs (r - value c x) <= 5 / 1000000 * Rabs (value c x))%R.
Proof.
  intros c x Sup R. destruct (fixed_double c x Sup R) as [V F].
  destruct (C137_six_digits 53 1024 _ ltac:(lia) ltac:(lia) F) as (n & e & Rd & _ & E & _).
  rewrite V in E. eexists. split; [exists n, e; split; [exact Rd|reflexivity]|exact E].
Qed.
Print Assumptions C137_fixed_point.

Lemma denotes_unique s r r' : denotes s r -> denotes s r' -> r = r'.
Proof. intros (n & e & E & ->) (n' & e' & E' & ->). congruence. Qed.

(** Up to 16 bits the text determines the number. *)
Theorem C137_fixed_point_injective :
  forall (c : fx) (x y : Z), supported c -> fx_w c <= 16 -> in_range c x -> in_range c y ->
  show_fixed c x = show_fixed c y -> x = y.
Proof.
  intros c x y Sup W Rx Ry E.
  destruct (C137_fixed_point c x Sup Rx) as (r & D & B).
  destruct (C137_fixed_point c y Sup Ry) as (r' & D' & B').
  rewrite E in D. rewrite (denotes_unique _ _ _ D D') in B. clear D D' r E.
  unfold value in *. destruct Sup as (_ & _ & HF).
  assert (PF : (0 < IZR (2 ^ fx_F c))%R) by (apply IZR_lt, Z.pow_pos_nonneg; lia).
  assert (P15 : 2 ^ (fx_w c - 1) <= 32768) by (change 32768 with (2 ^ 15); apply Z.pow_le_mono_r; lia).
  unfold in_range in *. 
  assert (Ax : (Rabs (IZR x) <= 32768)%R) by (rewrite <- abs_IZR; apply IZR_le; lia).
  assert (Ay : (Rabs (IZR y) <= 32768)%R) by (rewrite <- abs_IZR; apply IZR_le; lia).
  unfold Rdiv in *. rewrite Rabs_mult in B, B'. 
  rewrite (Rabs_pos_eq (/ IZR (2 ^ fx_F c))) in B, B' by (left; now apply Rinv_0_lt_compat).
  set (s := (/ IZR (2 ^ fx_F c))%R) in *. assert (Ps : (0 < s)%R) by now apply Rinv_0_lt_compat. clearbody s.
  assert (D : (Rabs (IZR x - IZR y) * s <= (33 / 100) * s)%R).
  { replace (Rabs (IZR x - IZR y) * s)%R with (Rabs (IZR x * s - IZR y * s)).
    2: { rewrite <- Rmult_minus_distr_r, Rabs_mult, (Rabs_pos_eq s) by lra. reflexivity. }
    assert (T : (Rabs (IZR x * s - IZR y * s) <= Rabs (r' - IZR x * s) + Rabs (r' - IZR y * s))%R).
    { unfold Rabs. repeat destruct Rcase_abs; lra. }
    assert (Rabs (IZR x) * s <= 32768 * s)%R by (apply Rmult_le_compat_r; lra).
    assert (Rabs (IZR y) * s <= 32768 * s)%R by (apply Rmult_le_compat_r; lra). lra. }
  apply Rmult_le_reg_r in D; [|assumption]. rewrite <- minus_IZR, <- abs_IZR in D.
  destruct (Z.eq_dec x y); [assumption|]. assert (1 <= Z.abs (x - y)) by lia.
  apply IZR_le in H. lra.
Qed.
Print Assumptions C137_fixed_point_injective.

(** With 32 bits it does not. *)
Theorem C137_fixed_point_32_refuted :
  ~ (forall (c : fx) (x y : Z), supported c -> in_range c x -> in_range c y ->
     show_fixed c x = show_fixed c y -> x = y).
Proof.
  intros H. specialize (H {| fx_w := 32; fx_ib := 32; fx_F := 16; fx_cpp20 := true |} (2 ^ 24) (2 ^ 24 + 1)).
  assert (X : 2 ^ 24 = 2 ^ 24 + 1); [|discriminate X]. apply H.
  - unfold supported. cbn. lia.
  - unfold in_range. cbn. lia.
  - unfold in_range. cbn. lia.
  - vm_compute. reflexivity.
Qed.
Print Assumptions C137_fixed_point_32_refuted.

Example C137_case :
  show_float (Bdiv mode_NE (ieee_of_Z 53 1024 (-2)) (ieee_of_Z 53 1024 3)) = "-0.666667" /\
  read_decimal "-0.666667" = Some (-666667, -6) /\
  show_float (Bdiv mode_NE (ieee_of_Z 53 1024 1) (ieee_of_Z 53 1024 1234567)) = "8.10001e-07" /\
  show_float (ieee_of_Z 24 128 9999995) = "1e+07" /\ read_decimal "1e+07" = Some (1, 7) /\
  show_fixed {| fx_w := 16; fx_ib := 16; fx_F := 8; fx_cpp20 := true |} (-384) = "-1.5".
Proof. vm_compute. repeat split; reflexivity. Qed.

(** ** C139: filters *)

Section FilterText.
Context (show : R -> string) (Hs : forall v, lacks "010" (show v)).


Lemma line_app a b : lacks "010" a -> lines (a ++ nl ++ b) = a :: lines b.
Proof. intros H. unfold nl. cbn [append]. now apply split_app. Qed.
Lemma lacks_b a : existsb (Ascii.eqb "010") (list_ascii_of_string a) = false -> lacks "010" a.
Proof.
  intros H X. assert (Y : existsb (Ascii.eqb "010") (list_ascii_of_string a) = true); [|congruence].
  apply existsb_exists. exists "010"%char. split; [exact X|reflexivity].
Qed.

Lemma cons_eq {A} (a b : A) l l' : a = b -> l = l' -> a :: l = b :: l'.
Proof. now intros -> ->. Qed.
Ltac nrm := repeat first [rewrite app_assoc_s | progress cbn [append]]; reflexivity.
Ltac lk := repeat (apply lacks_app; split); try apply Hs; try (apply lacks_b; reflexivity).

(** The lines of the text of a second order section. *)
Theorem C139_biquad :
  forall bq : biquad R, b0 (bq_b bq) <> 0%R ->
  exists t verdict p q z z', show_biquad show bq = Ok t /\
    lines t = [""; "BiQuad is " ++ verdict;
      "a: [A " ++ show (a1 (bq_a bq)) ++ ", " ++ show (a2 (bq_a bq)) ++ " ]";
      "b: [B " ++ show (b0 (bq_b bq)) ++ ", " ++ show (b1 (bq_b bq)) ++ ", " ++ show (b2 (bq_b bq)) ++ " ]";
      "w: [W " ++ show (v1 (bq_w bq)) ++ ", " ++ show (v2 (bq_w bq)) ++ " ]";
      "p: [S (" ++ show (fst p) ++ "," ++ show (snd p) ++ "), (" ++ show (fst q) ++ "," ++ show (snd q) ++ ") ]";
      "z: [S (" ++ show (fst z) ++ "," ++ show (snd z) ++ "), (" ++ show (fst z') ++ "," ++ show (snd z') ++ ") ]";
      ""] /\
    roots_of 1 (a1 (bq_a bq)) (a2 (bq_a bq)) p q /\
    roots_of (b0 (bq_b bq)) (b1 (bq_b bq)) (b2 (bq_b bq)) z z' /\
    ((Rabs (a2 (bq_a bq)) <= 1 /\ Rabs (a1 (bq_a bq)) <= 1 + a2 (bq_a bq))%R -> verdict = "stable:") /\
    (~ (Rabs (a2 (bq_a bq)) <= 1 /\ Rabs (a1 (bq_a bq)) <= 1 + a2 (bq_a bq))%R -> verdict = "NOT stable:").
Proof.
  intros bq Hb. destruct (C43_poles bq) as (p & q & Ep & Rp). destruct (C43_zeros bq Hb) as (z & z' & Ez & Rz).
  destruct (C44_is_stable_answers bq) as (st & Est). pose proof (C44_is_stable_iff bq) as St.
  unfold show_biquad. rewrite Est, Ep, Ez. cbn [bind].
  exists (nl ++ "BiQuad is " ++ (if st then "stable:" else "NOT stable:") ++
      nl ++ "a: " ++ show_a show (bq_a bq) ++ nl ++ "b: " ++ show_b show (bq_b bq) ++
      nl ++ "w: " ++ show_w show (bq_w bq) ++ nl ++ "p: " ++ show_solution show (p, q) ++
      nl ++ "z: " ++ show_solution show (z, z') ++ nl).
  exists (if st then "stable:" else "NOT stable:"), p, q, z, z'. split; [reflexivity|]. split.
  - unfold show_a, show_b, show_w, show_solution, show_complex. cbn [fst snd].
    change (lines (nl ++ ?x)) with ("" :: lines x). apply cons_eq; [reflexivity|].
    rewrite <- (app_assoc_s "BiQuad is "), line_app by (destruct st; lk). apply cons_eq; [reflexivity|].
    rewrite <- (app_assoc_s "a: "), line_app by lk. apply cons_eq; [nrm|].
    rewrite <- (app_assoc_s "b: "), line_app by lk. apply cons_eq; [nrm|].
    rewrite <- (app_assoc_s "w: "), line_app by lk. apply cons_eq; [nrm|].
    rewrite <- (app_assoc_s "p: "), line_app by lk. apply cons_eq; [nrm|].
    rewrite <- (app_nil_s nl), <- (app_assoc_s "z: "), line_app by lk. apply cons_eq; [nrm|reflexivity].
  - split; [assumption|]. split; [assumption|]. rewrite Est in St. split; intros H.
    + apply St in H. injection H as ->. reflexivity.
    + destruct st; [|reflexivity]. exfalso. apply H. apply St. reflexivity.
Qed.

(** Without [b0] there are no zeros to print. *)
Theorem C139_biquad_without_b0 :
  forall bq : biquad R, b0 (bq_b bq) = 0%R -> show_biquad show bq = Err DivByZero.
Proof.
  intros bq Hb. destruct (C43_poles bq) as (p & q & Ep & _). destruct (C44_is_stable_answers bq) as (st & Est).
  unfold show_biquad. rewrite Est, Ep, (C43_zeros_without_b0 bq Hb). reflexivity.
Qed.

Lemma sections_loop a l ts : Forall2 (fun bq u => show_biquad show bq = Ok u) l ts ->
  forall (k r : list (biquad R)) os, a = (k ++ l ++ r)%list ->
  for_from (length k) (length l) (fun i os =>
    bq <- sec_at a (Z.of_nat i) ;; t <- show_biquad show bq ;; Ok (os ++ t)) os = Ok (os ++ concat_s ts).
Proof.
  induction 1 as [|bq u l ts Hu F IH]; intros k r os E; cbn [length for_from concat_s fold_right].
  - now rewrite app_nil_s.
  - assert (Eat : sec_at a (Z.of_nat (length k)) = Ok bq) by (rewrite E; apply sec_at_app).
    rewrite Eat. cbn [bind]. rewrite Hu. cbn [bind].
    specialize (IH (k ++ [bq])%list r (os ++ u)). rewrite app_length, Nat.add_1_r in IH.
    rewrite IH; [now rewrite app_assoc_s|]. rewrite E, <- app_assoc. reflexivity.
Qed.

(** The text of a cascade: how many sections there are and could be, whether all of them are
    stable, and their texts in order. *)
Theorem C139_cascade :
  forall (bytes : Z) (N : nat) (cs : cascade R) (l : list (biquad R)),
  (Z.of_nat N < 10 ^ 9) -> length (cs_biquad cs) = N -> shows cs l -> Forall (fun bq => b0 (bq_b bq) <> 0%R) l ->
  exists t size room verdict ts, show_cascade show bytes N cs = Ok t /\
    t = concat_s (("" ++ nl) :: ("Filter cascade occupies " ++ show_Z bytes ++ " bytes in memory." ++ nl) ::
                  ("filters: " ++ size ++ " entries out of " ++ room ++ ", " ++ verdict ++ nl) :: ts) /\
    denotes size (IZR (Z.of_nat (length l))) /\ denotes room (IZR (Z.of_nat N)) /\
    Forall2 (fun bq u => show_biquad show bq = Ok u) l ts /\
    (let good := Forall (fun bq => Rabs (a2 (bq_a bq)) <= 1 /\ Rabs (a1 (bq_a bq)) <= 1 + a2 (bq_a bq))%R l in
     (good -> verdict = "stable:") /\ (~ good -> verdict = "NOT stable:")).
Proof.
  intros bytes N cs l HN L Sh Fb.
  pose proof (C52_stable_iff_coefficients N cs l L Sh) as St.
  destruct (C52_stable_iff_all_sections N cs l L Sh) as (st & Est & _). rewrite Est in St.
  apply (shows_holds N) in Sh; [|assumption]. apply holds_split in Sh.
  destruct Sh as (r & Eb & Len & Nx).
  assert (TS : exists ts, Forall2 (fun bq u => show_biquad show bq = Ok u) l ts).
  { clear - Fb Hs. induction Fb as [|bq l Hb Fb (ts & IH)]; [now exists []|].
    destruct (C139_biquad bq Hb) as (t & _ & _ & _ & _ & _ & E & _). exists (t :: ts). now constructor. }
  destruct TS as (ts & F2). unfold show_cascade. rewrite Est. cbn [bind]. unfold for_. rewrite Nx, Nat2Z.id.
  rewrite (sections_loop (cs_biquad cs) l ts F2 [] r _ Eb).
  exists (concat_s (("" ++ nl) :: ("Filter cascade occupies " ++ show_Z bytes ++ " bytes in memory." ++ nl) ::
                  ("filters: " ++ show_Z (Z.of_nat (length l)) ++ " entries out of " ++ show_Z (Z.of_nat N) ++ ", " ++
                   (if st then "stable:" else "NOT stable:") ++ nl) :: ts)).
  exists (show_Z (Z.of_nat (length l))), (show_Z (Z.of_nat N)), (if st then "stable:" else "NOT stable:"), ts.
  split; [|split; [reflexivity|]].
  { f_equal. unfold cs_reserved. cbn [concat_s fold_right]. unfold nl. nrm. }
  assert (C20 : 10 ^ 9 < 10 ^ 20) by reflexivity.
  assert (LN : (length l <= N)%nat) by (rewrite app_length in Len; lia).
  assert (DN : forall n : nat, (n <= N)%nat -> denotes (show_Z (Z.of_nat n)) (IZR (Z.of_nat n))).
  { intros n Hn. exists (Z.of_nat n), 0. split; [|cbn; ring]. apply C137_integers.
    revert C20 HN. generalize (10 ^ 9) (10 ^ 20). lia. }
  split; [now apply DN|]. split; [now apply DN|]. split; [assumption|]. cbv zeta. split; intros H.
  - apply St in H. injection H as ->. reflexivity.
  - destruct st; [|reflexivity]. exfalso. apply H. now apply St.
Qed.

(** A first order section is always called stable, and the printed pole is always 7. *)
Theorem C139_onepole :
  forall op : onepole R, exists t, show_onepole show op = Ok t /\
    lines t = [""; "OnePole is always stable"; "a: [A " ++ show (op_a1 op) ++ " ]"; "b: [B " ++ show (op_b0 op) ++ " ]";
      "w: [W " ++ show (op_v1 op) ++ " ]"; "p: [S (" ++ show 7%R ++ "," ++ show 0%R ++ ") ]";
      "z: [S (" ++ show 0%R ++ "," ++ show 0%R ++ ") ]"; ""].
Proof.
  intros op. unfold show_onepole, op_poles, op_solve. destruct (Req_EM_T 1 0) as [X|_]; [lra|]. cbn [bind].
  eexists. split; [reflexivity|]. unfold show_complex, op_zeros, RtoC. cbn [fst snd].
  change (lines (nl ++ ?x)) with ("" :: lines x). apply cons_eq; [reflexivity|].
  rewrite line_app by lk. apply cons_eq; [reflexivity|].
  assert (G : forall p o q c b, lacks "010" p -> lacks "010" o -> lacks "010" q -> lacks "010" c ->
    lines (p ++ o ++ q ++ c ++ nl ++ b) = (p ++ o ++ q ++ c) :: lines b).
  { intros p o q c b H1 H2 H3 H4. rewrite <- line_app by (now repeat (apply lacks_app; split)).
    now rewrite !app_assoc_s. }
  rewrite G by lk. apply cons_eq; [nrm|]. rewrite G by lk. apply cons_eq; [nrm|].
  rewrite G by lk. apply cons_eq; [nrm|]. rewrite G by lk. apply cons_eq; [nrm|].
  rewrite <- (app_nil_s nl), G by lk. apply cons_eq; [nrm|reflexivity].
Qed.

End FilterText.

Print Assumptions C139_biquad.
Print Assumptions C139_biquad_without_b0.
Print Assumptions C139_cascade.
Print Assumptions C139_onepole.

(** The words "always stable" are not true, nor is the pole: the transfer function
    b z / (z + a) has its pole at -a. *)
Theorem C139_always_stable_refuted :
  forall (show : R -> string), (forall v, lacks "010" (show v)) ->
  forall (b a : R), (1 < Rabs a)%R -> b <> 0%R ->
  exists t, show_onepole show (op_of_ba R_scalar b a) = Ok t /\ nth 1 (lines t) "" = "OnePole is always stable" /\
  forall B, exists n ys op',
    op_run R_scalar (op_of_ba R_scalar b a) (1%R :: repeat 0%R n) = Ok (ys, op') /\
    exists i, (i < length ys)%nat /\ (B < Rabs (nth i ys 0))%R.
Proof.
  intros show Hs b a Ha Hb. destruct (C139_onepole show Hs (op_of_ba R_scalar b a)) as (t & E & L).
  exists t. split; [exact E|]. split; [now rewrite L|]. now apply C56_reported_stable_refuted.
Qed.
Print Assumptions C139_always_stable_refuted.

Example C139_case :
  let show := fun r : R => if Req_EM_T r 7 then "seven" else "other" in
  (forall v, lacks "010" (show v)) /\
  let bq : biquad R := {| bq_a := {| a1 := (-1)%R; a2 := (1 / 2)%R |}; bq_b := {| b0 := 1%R; b1 := 7%R; b2 := 1%R |};
                          bq_w := {| v1 := 0%R; v2 := 0%R |} |} in
  b0 (bq_b bq) <> 0%R /\ (Rabs (1 / 2) <= 1 /\ Rabs (-1) <= 1 + 1 / 2)%R /\
  shows (cascade_of R_scalar 4 [bq; bq]) [bq; bq].
Proof.
  cbv zeta. split; [|split; [cbn; lra|split]].
  - intros v. destruct (Req_EM_T v 7); apply lacks_b; reflexivity.
  - rewrite Rabs_pos_eq, Rabs_left by lra. lra.
  - apply C47_construction. cbn. lia.
Qed.
