(** * C167: what matrix.e.cpp and range.e.cpp print *)
From Coq Require Import ZArith List Bool Ascii String Lia.
From Flocq Require Import Core IEEE754.BinarySingleNaN.
From Verif Require Import Base Matrix Scalars Kalman KalmanSim Ieee KalmanIeee Range RangeSpec RangeProofs RangeFloat Output ExampleText.
Import List ListNotations.
Local Open Scope string_scope.
Local Open Scope Z_scope.

(** The text of lines, each ended by a newline. *)
Definition text (l : list string) : string := fold_right (fun x r => x ++ String "010" r) "" l.

(** The lines of matrix.e.cpp; below "inverted(A) =" stands the transposed inverse. *)
Definition matrix_lines : list string :=
  ["";
   "x =";
   " 1";
   " 2";
   "";
   "x + x =";
   " 2";
   " 4";
   "";
   "x * 2 =";
   " 2";
   " 4";
   "";
   "2 * x =";
   " 2";
   " 4";
   "";
   "transposed(x) =";
   " 1 2";
   "";
   "y =";
   " 1 2";
   "";
   "x * y =";
   " 1 2";
   " 2 4";
   "";
   "y * x =";
   " 5";
   "";
   "A =";
   " 1 2";
   " 3 4";
   "";
   "A + A =";
   " 2 4";
   " 6 8";
   "";
   "A * 2 =";
   " 2 4";
   " 6 8";
   "";
   "2 * A =";
   " 2 4";
   " 6 8";
   "";
   "A * x =";
   "  5";
   " 11";
   "";
   "y * A =";
   "  7 10";
   "";
   "transposed(A) =";
   " 1 3";
   " 2 4";
   "";
   "inverted(A) =";
   " -2 1.5";
   " 1 -0.5";
   "";
   "r =";
   " 5";
   " 11";
   "";
   "eye<3,int>() =";
   " 1 0 0";
   " 0 1 0";
   " 0 0 1"].

(** The lines of range.e.cpp. *)
Definition range_lines : list string :=
  ["";
   "range( 20 ), infinite, break at 42: 20 21 22 23 24 25 26 27 28 29 30 31 32 33 34 35 36 37 38 39 40 41 42 ";
   "range( 0 ).step( 2 ), infinite, break at 7: 0 2 4 6 8 ";
   "range( 0, 10 ): 0 1 2 3 4 5 6 7 8 9 ";
   "range( 0, 10, 3 ): 0 3 6 9 ";
   "range( -5, 5.5, 0.5 ): -5 -4.5 -4 -3.5 -3 -2.5 -2 -1.5 -1 -0.5 0 0.5 1 1.5 2 2.5 3 3.5 4 4.5 5 ";
   "indices( c_arr ): 0 1 2 ";
   "indices( std_vec ): 0 1 2 3 ";
   "indices({ 1,2,4,6,8 }): 0 1 2 3 4 "].

(** matrix.e.cpp is defined and prints these lines. *)
Theorem C167_matrix : matrix_main = Ok (text matrix_lines).
Proof. vm_compute. reflexivity. Qed.
Print Assumptions C167_matrix.

Lemma for_range_more {It V} (ne : It -> It -> bool) (deref : It -> V) incr f f' i e l :
  (f <= f')%nat -> for_range ne deref incr f i e = (l, Finished) ->
  for_range ne deref incr f' i e = (l, Finished).
Proof.
  revert f' i l. induction f as [|f IH]; intros f' i l L E; destruct f' as [|f']; try lia; auto.
  - cbn in *. destruct (ne i e); [discriminate E|exact E].
  - cbn in *. destruct (ne i e); [|exact E]. destruct (incr i) as [j|]; [|discriminate E].
    destruct (for_range ne deref incr f j e) as [l' s] eqn:E'. injection E as E1 E2. subst s.
    rewrite (IH f' j l' ltac:(lia) E'). now rewrite <- E1.
Qed.

Lemma for_break_more {It V} (ne : It -> It -> bool) (deref : It -> V) incr stop f f' i e l :
  (f <= f')%nat -> for_break ne deref incr stop f i e = (l, Finished) ->
  for_break ne deref incr stop f' i e = (l, Finished).
Proof.
  revert f' i l. induction f as [|f IH]; intros f' i l L E; destruct f' as [|f']; try lia; auto.
  - cbn in *. destruct (ne i e); [discriminate E|exact E].
  - cbn in *. destruct (ne i e); [|exact E]. destruct (stop (deref i)); [exact E|].
    destruct (incr i) as [j|]; [|discriminate E].
    destruct (for_break ne deref incr stop f j e) as [l' s] eqn:E'. injection E as E1 E2. subst s.
    rewrite (IH f' j l' ltac:(lia) E'). now rewrite <- E1.
Qed.

Definition le_text (a b : outcome (option string)) : Prop := forall s, a = Ok (Some s) -> b = Ok (Some s).

Lemma loop_text_more {V} c (show : V -> string) p q :
  (forall l, p = (l, Finished) -> q = (l, Finished)) -> le_text (loop_text c show p) (loop_text c show q).
Proof.
  intros M s E. destruct p as [l [| |x]]; cbn in E; try discriminate E.
  now rewrite (M l eq_refl).
Qed.

Lemma loops_more a b : Forall2 le_text a b -> le_text (loops a) (loops b).
Proof.
  induction 1 as [|x y a b L F IH]; intros s E; [exact E|]. cbn [loops] in *.
  destruct x as [[x|]|]; cbn [bind] in E; try discriminate E.
  - destruct (loops a) as [[t|]|] eqn:Ea; cbn [bind] in E; try discriminate E.
    rewrite (L x eq_refl), (IH t eq_refl). exact E.
  - destruct (loops a) as [[t|]|]; discriminate E.
Qed.

Lemma range_main_more f f' : (f <= f')%nat -> le_text (range_main f) (range_main f').
Proof.
  intros L. unfold range_main. apply loops_more.
  repeat constructor; apply loop_text_more; intros l;
    first [apply for_break_more | unfold loop_over, loop_over_step, float_loop_step; apply for_range_more];
    exact L.
Qed.

Lemma range_main_23 : range_main 23 = Ok (Some (text range_lines)).
Proof. vm_compute. reflexivity. Qed.

(** range.e.cpp ends, none of its loops taking more than 23 passes, and prints these lines. *)
Theorem C167_range : forall fuel,
  range_main fuel = Ok (if (23 <=? fuel)%nat then Some (text range_lines) else None).
Proof.
  intros fuel. destruct (Nat.leb_spec 23 fuel) as [L|L].
  - exact (range_main_more 23 fuel L _ range_main_23).
  - do 23 (destruct fuel as [|fuel]; [vm_compute; reflexivity|]). lia.
Qed.
Print Assumptions C167_range.

(** The loops that end by [break], in general: [for ( auto i : range( a ).step( s ) )] whose
    body stops at the first value with [stop]. *)
Section Break.
Context (t : int_type) (P : platform_type t) (a s : Z) (stop : Z -> bool) (e : step_iter).

Lemma break_passes : forall n k fuel,
  (forall j, 1 <= j <= Z.of_nat n ->
     fits t (k + j) /\ fits t ((k + j) * s) /\ fits t (a + (k + j) * s)) ->
  (forall j, 0 <= j < Z.of_nat n -> stop (a + (k + j) * s) = false) ->
  (n <= fuel)%nat ->
  for_break si_ne si_deref (si_incr t) stop fuel (step_at a s true k) e =
  let '(l, st) := for_break si_ne si_deref (si_incr t) stop (fuel - n)
                    (step_at a s true (k + Z.of_nat n)) e in
  (progression (a + k * s) s n ++ l, st)%list.
Proof.
  induction n as [|n IH]; intros k fuel Hfit Hs Hf.
  - rewrite Nat.sub_0_r. replace (k + Z.of_nat 0) with k by lia.
    destruct (for_break _ _ _ _ _ _ _); reflexivity.
  - destruct fuel as [|fuel]; [lia|]. cbn [for_break].
    change (si_ne (step_at a s true k) e) with true. cbv iota.
    change (si_deref (step_at a s true k)) with (a + k * s).
    pose proof (Hs 0 ltac:(lia)) as H0. rewrite Z.add_0_r in H0. rewrite H0.
    destruct (Hfit 1 ltac:(lia)) as (F1 & F2 & F3).
    rewrite (si_incr_fits t a s true k P F1 F2 F3).
    rewrite (IH (k + 1) fuel); [| | |lia].
    + replace (S fuel - S n)%nat with (fuel - n)%nat by lia.
      replace (k + 1 + Z.of_nat n) with (k + Z.of_nat (S n)) by lia.
      destruct (for_break _ _ _ _ _ _ _) as [l st]. rewrite progression_S.
      replace (a + (k + 1) * s) with (a + k * s + s) by ring. reflexivity.
    + intros j Hj. replace (k + 1 + j) with (k + (1 + j)) by ring. apply Hfit. lia.
    + intros j Hj. replace (k + 1 + j) with (k + (1 + j)) by ring. apply Hs. lia.
Qed.
End Break.

(** If the numbers involved fit in the type, the body sees exactly the values up to and with
    the first that stops. *)
Theorem C167_break : forall t a s stop n fuel, platform_type t ->
  (forall k, 1 <= k <= Z.of_nat n -> fits t k /\ fits t (k * s) /\ fits t (a + k * s)) ->
  (forall k, 0 <= k < Z.of_nat n -> stop (a + k * s) = false) -> stop (a + Z.of_nat n * s) = true ->
  (n < fuel)%nat ->
  let r := infinite_step (range1 a) s in
  for_break si_ne si_deref (si_incr t) stop fuel (sp_begin r) (sp_end r)
    = (progression a s (S n), Finished).
Proof.
  intros t a s stop n fuel P F N Y L r. subst r.
  change (sp_begin (infinite_step (range1 a) s)) with (step_iter_of a s true). rewrite step_iter_of_at.
  rewrite (break_passes t P a s stop _ n 0 fuel); [|exact F|exact N|lia].
  destruct (fuel - n)%nat as [|f] eqn:E; [lia|]. cbn [for_break].
  change (si_ne (step_at a s true (0 + Z.of_nat n)) _) with true. cbv iota.
  change (si_deref (step_at a s true (0 + Z.of_nat n))) with (a + (0 + Z.of_nat n) * s).
  rewrite Z.add_0_l, Y. rewrite progression_snoc. f_equal. f_equal. f_equal. lia.
Qed.
Print Assumptions C167_break.

(** If they do not fit before a value stops, the loop does not go on for ever: it overflows. *)
Theorem C167_no_break : forall t a s stop n fuel, platform_type t -> int_like t ->
  (forall k, 1 <= k <= Z.of_nat n -> fits t k /\ fits t (k * s) /\ fits t (a + k * s)) ->
  ~ (fits t (Z.of_nat n + 1) /\ fits t ((Z.of_nat n + 1) * s) /\ fits t (a + (Z.of_nat n + 1) * s)) ->
  (forall k, 0 <= k <= Z.of_nat n -> stop (a + k * s) = false) -> (n < fuel)%nat ->
  let r := infinite_step (range1 a) s in
  for_break si_ne si_deref (si_incr t) stop fuel (sp_begin r) (sp_end r)
    = (progression a s (S n), Stuck SignedOverflow).
Proof.
  intros t a s stop n fuel P I F B N L r. subst r.
  change (sp_begin (infinite_step (range1 a) s)) with (step_iter_of a s true). rewrite step_iter_of_at.
  rewrite (break_passes t P a s stop _ n 0 fuel); [|exact F|intros; apply N; lia|lia].
  destruct (fuel - n)%nat as [|f] eqn:E; [lia|]. cbn [for_break].
  change (si_ne (step_at a s true (0 + Z.of_nat n)) _) with true. cbv iota.
  change (si_deref (step_at a s true (0 + Z.of_nat n))) with (a + (0 + Z.of_nat n) * s).
  rewrite Z.add_0_l, (N (Z.of_nat n)) by lia. rewrite (si_incr_stuck t a s true _ P I B).
  rewrite progression_snoc. f_equal. f_equal. f_equal. lia.
Qed.
Print Assumptions C167_no_break.

(** Of the texts: the line below "inverted(A) =" differs from the inverse, whose first row is
    -2 1.  Of the loops: from 120 in a signed type of 8 bits that is also [int] (w = 8),
    stopping at 125, and never. *)
Example C167_case :
  nth 57 matrix_lines "" = "inverted(A) =" /\ nth 58 matrix_lines "" = " -2 1.5" /\
  range_main 22 = Ok None /\
  let t := {| it_w := 8; it_signed := true; it_ib := 8 |} in
  let r := infinite_step (range1 120) 1 in
  platform_type t /\ int_like t /\
  for_break si_ne si_deref (si_incr t) (fun i => i =? 125) 50 (sp_begin r) (sp_end r)
    = ([120; 121; 122; 123; 124; 125], Finished) /\
  for_break si_ne si_deref (si_incr t) (fun i => i =? 5) 50 (sp_begin r) (sp_end r)
    = ([120; 121; 122; 123; 124; 125; 126; 127], Stuck SignedOverflow).
Proof.
  split; [vm_compute; reflexivity|]. split; [vm_compute; reflexivity|]. split; [vm_compute; reflexivity|].
  cbv zeta. split; [|split; [|split; vm_compute; reflexivity]].
  - unfold platform_type. cbn. lia.
  - split; cbn; [reflexivity|lia].
Qed.
