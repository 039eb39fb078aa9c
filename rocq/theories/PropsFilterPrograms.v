(** * The text of the desktop filter programs (C149, C152) *)

From Coq Require Import Reals ZArith List Bool Lra Lia Psatz Ascii String.
From Coquelicot Require Import Complex.
From Verif Require Import Base Scalars Biquad BiquadSpec BiquadProofs Cascade CascadeSpec CascadeProofs OnePole Design Chebyshev
  Text Output OutputSpec OutputProofs FilterPrograms PropsCore PropsBiquad PropsCascade PropsOnePole PropsOutput
  ChebyshevProofs PropsChebyshev.
Import List ListNotations.
Local Open Scope string_scope.
Local Open Scope R_scope.

(** ** What the text should say *)

(** The filter [out] multiplies sinusoids of normalized frequency [f] by [g], after a
    transient that dies out geometrically: the output after n samples. *)
Definition gain_at (out : list R -> list R -> Prop) (f g : R) : Prop :=
  0 <= g /\ exists shift, forall A phi, exists r B, 0 < r < 1 /\ forall n, exists ys,
    out (map (sinusoid A f phi) (seq 0 (S n))) ys /\
    Rabs (nth n ys 0 - A * g * cos (phi + 2 * PI * f * INR n + shift)) <= B * r ^ n.

Definition biquad_out (bq : biquad R) (xs ys : list R) : Prop :=
  exists bq', run (step R_scalar) bq xs = Ok (ys, bq').
Definition cascade_out (cs : cascade R) (xs ys : list R) : Prop :=
  exists cs', cs_run (cs_step R_scalar) cs xs = Ok (ys, cs').
Definition onepole_out (op : onepole R) (xs ys : list R) : Prop :=
  exists op', op_run R_scalar op xs = Ok (ys, op').

(** Numbers as a row of an Octave matrix; a gain in decibels. *)
Definition row (name : string) (l : list string) : string :=
  name ++ " = [" ++ fold_right (fun s t => s ++ " " ++ t) "" l ++ "];".
Definition decibels (show : R -> string) (g : R) : string :=
  if Req_EM_T g 0 then "-inf" else show (20 * (ln g / ln 10)).
Definition rule (n : nat) (c : ascii) : string := string_of_list_ascii (repeat c n).

Definition response_lines (show : R -> string) (rng gains : list R) : list string :=
  ["% " ++ rule 65 "-"; "% Matlab/Octave filter magnitude response for normalized frequency:"; "";
   row "fn" (map show rng); ""; row "y" (map show gains); ""; row "ydbV" (map (decibels show) gains); "";
   "plotyy(fn, y, fn, ydbV);"].
Definition octave_lines (name design : string) : list string :=
  [""; "% " ++ rule 42 "-"; "% Corresponding Matlab/Octave filter design:"; ""; "pkg load signal"; design;
   name ++ " = tf2sos(b,a)"; "freqz(b,a);"; ""].

(** ** Proofs *)

Lemma lines_app a b : lines (a ++ nl ++ b) = (lines a ++ lines b)%list.
Proof.
  unfold nl, lines. cbn [append]. induction a as [|c a IH]; [reflexivity|].
  cbn [append OutputSpec.split]. destruct (Ascii.eqb c "010") eqn:E; [now rewrite IH|].
  rewrite IH. destruct (OutputSpec.split "010" a) as [|h t] eqn:S; [|reflexivity].
  exfalso. clear - S. destruct a as [|x a]; [discriminate|]. cbn in S.
  destruct (Ascii.eqb x "010"); [discriminate|]. destruct (OutputSpec.split "010" a); discriminate.
Qed.
Lemma lines_one a : lacks "010" a -> lines a = [a].
Proof.
  intros H. induction a as [|c a IH]; [reflexivity|]. unfold lines in *. cbn [OutputSpec.split].
  destruct (Ascii.eqb_spec c "010") as [->|N]; [exfalso; apply H; now left|].
  rewrite IH; [reflexivity|]. intros X. apply H. now right.
Qed.

Lemma phase (h : C) : exists s, fst h = Cmod h * cos s /\ snd h = Cmod h * sin s.
Proof.
  destruct (Req_dec (Cmod h) 0) as [Z|Z].
  { apply Cmod_eq_0 in Z as Z'. exists 0. rewrite Z' at 1 3. cbn [fst snd RtoC]. rewrite Z. lra. }
  pose proof (Cmod_ge_0 h) as P. set (g := Cmod h) in *.
  assert (G : fst h * fst h + snd h * snd h = g * g).
  { unfold g, Cmod. rewrite sqrt_sqrt by nra. ring. }
  set (u := fst h / g). assert (U : u * g = fst h) by (unfold u; field; lra).
  set (v := snd h / g). assert (V : v * g = snd h) by (unfold v; field; lra).
  assert (S : u * u + v * v = 1).
  { apply (Rmult_eq_reg_r (g * g)); [|nra]. replace ((u * u + v * v) * (g * g)) with ((u * g) * (u * g) + (v * g) * (v * g)) by ring.
    rewrite U, V, G. ring. }
  assert (Bu : -1 <= u <= 1) by nra.
  pose proof (sin_acos u Bu) as Sa. pose proof (cos_acos u Bu) as Ca.
  destruct (Rle_dec 0 v) as [Hv|Hv].
  - exists (acos u). rewrite Ca, Sa. split; [lra|]. rewrite <- V.
    replace (1 - Rsqr u) with (v * v) by (unfold Rsqr; lra). rewrite sqrt_square by assumption. ring.
  - exists (- acos u). rewrite cos_neg, sin_neg, Ca, Sa. split; [lra|]. rewrite <- V.
    replace (1 - Rsqr u) with ((- v) * (- v)) by (unfold Rsqr; lra). rewrite sqrt_square by lra. ring.
Qed.

Lemma through_gain h A f phi n s : fst h = Cmod h * cos s -> snd h = Cmod h * sin s ->
  through h A f phi n = A * Cmod h * cos (phi + 2 * PI * f * INR n + s).
Proof. intros H1 H2. unfold through. rewrite H1, H2, (cos_plus (phi + 2 * PI * f * INR n) s). ring. Qed.

Lemma biquad_gain bq f : strictly_stable (a1 (bq_a bq)) (a2 (bq_a bq)) ->
  exists h, response bq f = Ok h /\ gain_at (biquad_out bq) f (Cmod h).
Proof.
  intros St. destruct (C89_response_is_steady_state bq 0 f 0 St) as (h & _ & _ & E & _).
  exists h. split; [assumption|]. split; [apply Cmod_ge_0|]. destruct (phase h) as (s & H1 & H2). exists s. intros A phi.
  destruct (C89_response_is_steady_state bq A f phi St) as (h' & r & B & E' & Hr & H).
  rewrite E in E'. injection E' as <-. exists r, B. split; [assumption|]. intros n.
  assert (exists ys bq', run (step R_scalar) bq (map (sinusoid A f phi) (seq 0 (S n))) = Ok (ys, bq')) as (ys & bq' & X).
  { rewrite run_step_R, run_df2_R. now eexists _, _. }
  exists ys. split; [now exists bq'|]. rewrite <- (through_gain h) by assumption. now apply (H n ys bq').
Qed.

Lemma cascade_gain N cs l f : length (cs_biquad cs) = N -> shows cs l -> all_strictly_stable l ->
  exists h, cs_response cs f = Ok h /\ gain_at (cascade_out cs) f (Cmod h).
Proof.
  intros L Sh St. destruct (C91_cascade_response_is_steady_state N cs l 0 f 0 L Sh St) as (h & _ & _ & E & _).
  exists h. split; [assumption|]. split; [apply Cmod_ge_0|]. destruct (phase h) as (s & H1 & H2). exists s. intros A phi.
  destruct (C91_cascade_response_is_steady_state N cs l A f phi L Sh St) as (h' & r & B & E' & Hr & H).
  rewrite E in E'. injection E' as <-. exists r, B. split; [assumption|]. intros n.
  destruct (H (S n)) as (ys & cs' & X & Y). exists ys. split; [now exists cs'|].
  rewrite <- (through_gain h) by assumption. apply Y. lia.
Qed.

Lemma onepole_gain op f : Rabs (op_a1 op) < 1 ->
  exists h, op_response op f = Ok h /\ gain_at (onepole_out op) f (Cmod h).
Proof.
  intros Ha. assert (exists h, op_response op f = Ok h) as (h & E).
  { unfold op_response. destruct (Ceq_dec _ _) as [X|]; [|now eexists]. exfalso.
    unfold polar, RtoC, Cplus, Cmult in X. cbn [fst snd] in X. injection X as X1 X2.
    set (t := - (2 * PI * f)) in *. pose proof (sin2_cos2 t) as Q. unfold Rsqr in Q.
    assert (op_a1 op * op_a1 op < 1) by (apply Rabs_def2 in Ha; nra).
    assert (op_a1 op * cos t = -1) by lra. assert (op_a1 op * sin t = 0) by lra.
    assert (op_a1 op * op_a1 op * (sin t * sin t + cos t * cos t) = 1) by nra. rewrite Q in *. lra. }
  exists h. split; [assumption|]. split; [apply Cmod_ge_0|]. destruct (phase h) as (s & H1 & H2). exists s. intros A phi.
  set (a := Rabs (op_a1 op)) in *. assert (0 <= a) by apply Rabs_pos.
  exists ((1 + a) / 2). eexists. split; [lra|]. intros n.
  destruct (C95_response_is_steady_state op f A phi h (S n) E) as (ys & op' & X & Ln & Y).
  exists ys. split.
  { exists op'. rewrite <- X. f_equal. apply map_ext. intros i. unfold sinusoid. f_equal. f_equal. ring. }
  specialize (Y n (Nat.lt_succ_diag_r n)). fold a in Y.
  replace (fst (Cmult h (polar A (2 * PI * f * INR n + phi)))) with (A * Cmod h * cos (phi + 2 * PI * f * INR n + s)) in Y.
  2:{ unfold Cmult, polar. cbn [fst snd]. rewrite H1, H2, (Rplus_comm (2 * PI * f * INR n) phi), cos_plus. ring. }
  rewrite Y. set (K := Rabs (op_v1 op - _)). assert (0 <= K) by apply Rabs_pos.
  rewrite Rmult_comm. apply Rmult_le_compat_l; [assumption|]. rewrite pow_add, pow_1.
  apply Rle_trans with (a ^ n). { assert (0 <= a ^ n) by (now apply pow_le). nra. }
  apply pow_incr. lra.
Qed.

Section Lines.
Context (show : R -> string) (Hs : forall v, lacks "010" (show v)) (max_size : Z) (Hm : (115 <= max_size)%Z).

Lemma line_ok n c : (0 <= n <= 115)%Z -> line_s max_size n c = Ok (rule (Z.to_nat n) c).
Proof.
  intros H. unfold line_s, line. rewrite Z.mod_small by lia. destruct (Z.leb_spec n max_size); [reflexivity|lia].
Qed.
Lemma rule_lacks n c : c <> "010"%char -> lacks "010" (rule n c).
Proof.
  intros N X. unfold rule in X. rewrite list_ascii_of_string_of_list_ascii in X. apply repeat_spec in X. congruence.
Qed.
Lemma row_lacks name l : lacks "010" name -> Forall (lacks "010") l -> lacks "010" (row name l).
Proof.
  intros H F. unfold row. repeat (apply lacks_app; split); try assumption; try (apply lacks_b; reflexivity).
  induction F as [|a l Ha F IH]; [apply lacks_b; reflexivity|]. cbn [fold_right].
  repeat (apply lacks_app; split); try assumption; apply lacks_b; reflexivity.
Qed.
Lemma each_ok (f : R -> outcome string) (g : R -> string) rng :
  (forall fn, In fn rng -> f fn = Ok (g fn)) ->
  print_each f rng = Ok (fold_right (fun s t => s ++ " " ++ t) "" (map g rng)).
Proof.
  induction rng as [|fn rng IH]; intros H; [reflexivity|]. cbn [print_each map fold_right].
  rewrite H by now left. cbn [bind]. rewrite IH; [reflexivity|]. intros x X. apply H. now right.
Qed.
Lemma dbV_ok g : 0 <= g -> show_dbV show g = Ok (decibels show g).
Proof.
  intros H. unfold show_dbV, decibels. destruct (Req_EM_T g 0); [reflexivity|].
  unfold dbV, dbP, rdiv. destruct (Req_EM_T 1 0); [lra|]. cbn [bind]. f_equal. f_equal.
  unfold log10. replace (g / 1) with g by (unfold Rdiv; rewrite Rinv_1; ring). ring.
Qed.
Lemma decibels_lacks g : lacks "010" (decibels show g).
Proof. unfold decibels. destruct (Req_EM_T g 0); [apply lacks_b; reflexivity|apply Hs]. Qed.

Lemma response_ok rng resp (gain : R -> R -> Prop) :
  (forall f, exists h, resp f = Ok h /\ gain f (Cmod h)) ->
  exists t gains, print_response show max_size rng resp = Ok (nl ++ t) /\ Forall2 gain rng gains /\
    lines t = response_lines show rng gains.
Proof.
  intros H. set (g := fun f => match resp f with Ok h => Cmod h | Err _ => 0 end).
  assert (G : forall f, exists h, resp f = Ok h /\ gain f (Cmod h) /\ g f = Cmod h).
  { intros f. destruct (H f) as (h & E & Y). exists h. repeat split; try assumption. unfold g. now rewrite E. }
  unfold print_response. rewrite line_ok by lia. cbn [bind].
  rewrite (each_ok (fun fn => Ok (show fn)) show) by reflexivity. cbn [bind].
  rewrite (each_ok _ (fun f => show (g f))).
  2:{ intros f _. destruct (G f) as (h & E & _ & ->). now rewrite E. }
  cbn [bind]. rewrite (each_ok _ (fun f => decibels show (g f))).
  2:{ intros f _. destruct (G f) as (h & E & _ & Y). rewrite E. cbn [bind]. rewrite Y. apply dbV_ok, Cmod_ge_0. }
  cbn [bind]. exists (("% " ++ rule 65 "-") ++ nl ++ "% Matlab/Octave filter magnitude response for normalized frequency:" ++
    nl ++ "" ++ nl ++ row "fn" (map show rng) ++ nl ++ "" ++ nl ++ row "y" (map show (map g rng)) ++ nl ++ "" ++ nl ++
    row "ydbV" (map (decibels show) (map g rng)) ++ nl ++ "" ++ nl ++ "plotyy(fn, y, fn, ydbV);").
  exists (map g rng). split; [|split].
  - f_equal. unfold row. rewrite !map_map. change (Z.to_nat 65) with 65%nat. repeat rewrite app_assoc_s. reflexivity.
  - clear - G. induction rng as [|f rng IH]; [constructor|]. cbn [map]. constructor; [|assumption].
    destruct (G f) as (h & _ & Y & ->). exact Y.
  - assert (F1 : Forall (lacks "010") (map show rng)) by (apply Forall_forall; intros s X; apply in_map_iff in X; destruct X as (? & <- & _); apply Hs).
    assert (F2 : Forall (lacks "010") (map show (map g rng))) by (apply Forall_forall; intros s X; apply in_map_iff in X; destruct X as (? & <- & _); apply Hs).
    assert (F3 : Forall (lacks "010") (map (decibels show) (map g rng))) by (apply Forall_forall; intros s X; apply in_map_iff in X; destruct X as (? & <- & _); apply decibels_lacks).
    rewrite !line_app; try (apply lacks_b; reflexivity); try (apply row_lacks; [apply lacks_b; reflexivity|assumption]).
    rewrite lines_one by (apply lacks_b; reflexivity). reflexivity.
Qed.

Lemma octave_ok name design : lacks "010" name -> lacks "010" design ->
  exists t, print_octave max_size name design = Ok (nl ++ t) /\ lines t = octave_lines name design.
Proof.
  intros H1 H2. unfold print_octave. rewrite line_ok by lia. cbn [bind]. change (Z.to_nat 42) with 42%nat.
  exists ("" ++ nl ++ ("% " ++ rule 42 "-") ++ nl ++ "% Corresponding Matlab/Octave filter design:" ++ nl ++ "" ++
    nl ++ "pkg load signal" ++ nl ++ design ++ nl ++ (name ++ " = tf2sos(b,a)") ++ nl ++ "freqz(b,a);" ++ nl ++ "").
  split; [f_equal; rewrite !app_assoc_s; reflexivity|].
  rewrite !line_app; try (apply lacks_b; reflexivity); try assumption.
  - reflexivity.
  - apply lacks_app. split; [assumption|apply lacks_b; reflexivity].
Qed.

Lemma filter_ok name rng text design t resp gain :
  lacks "010" name -> lacks "010" text -> lacks "010" design ->
  (forall f, exists h, resp f = Ok h /\ gain f (Cmod h)) ->
  exists out gains, print_filter show max_size name rng text design (Ok t) resp = Ok out /\
    Forall2 gain rng gains /\
    lines out = ("" :: rule 115 "=" :: (text ++ " " ++ design ++ ":")%string :: lines t ++
                 response_lines show rng gains ++ octave_lines name design)%list.
Proof.
  intros H1 H2 H3 G. destruct (response_ok rng resp gain G) as (r & gains & E & F & L).
  destruct (octave_ok name design H1 H3) as (o & Eo & Lo).
  unfold print_filter. rewrite line_ok by lia. cbn [bind]. rewrite E, Eo. cbn [bind].
  eexists. exists gains. split; [reflexivity|]. split; [assumption|].
  change (lines (nl ++ ?x)) with ("" :: lines x). apply cons_eq; [reflexivity|].
  change (Z.to_nat 115) with 115%nat. rewrite line_app by (apply rule_lacks; discriminate). apply cons_eq; [reflexivity|].
  replace (text ++ " " ++ design ++ ":" ++ nl ++ t ++ (nl ++ r) ++ nl ++ o)
    with ((text ++ " " ++ design ++ ":") ++ nl ++ t ++ nl ++ r ++ nl ++ o) by (now rewrite !app_assoc_s).
  rewrite line_app. 2:{ repeat (apply lacks_app; split); try assumption; apply lacks_b; reflexivity. }
  apply cons_eq; [reflexivity|]. rewrite !lines_app, L, Lo. reflexivity.
Qed.

(** biquad.e.cpp: after the filter's own text, the frequencies, the gains by which the filter
    multiplies sinusoids of these frequencies, and these gains in decibels. *)
Theorem C149_biquad :
  forall (rng : list R) (text design : string) (bq : biquad R),
  lacks "010" text -> lacks "010" design ->
  b0 (bq_b bq) <> 0 -> strictly_stable (a1 (bq_a bq)) (a2 (bq_a bq)) ->
  exists shown out gains, show_biquad show bq = Ok shown /\
    print_biquad show max_size rng text design bq = Ok out /\
    Forall2 (gain_at (biquad_out bq)) rng gains /\
    lines out = ("" :: rule 115 "=" :: (text ++ " " ++ design ++ ":")%string :: lines shown ++
                 response_lines show rng gains ++ octave_lines "bq" design)%list.
Proof.
  intros rng text design bq H1 H2 Hb St.
  destruct (C139_biquad show Hs bq Hb) as (t & _ & _ & _ & _ & _ & E & _). exists t.
  destruct (filter_ok "bq" rng text design t (response bq) (gain_at (biquad_out bq))) as (out & gains & Eo & F & L);
    try assumption; [apply lacks_b; reflexivity|intros f; now apply biquad_gain|].
  exists out, gains. split; [assumption|]. unfold print_biquad. rewrite E. now split.
Qed.

(** biquad-cascade.e.cpp. *)
Theorem C149_cascade :
  forall (bytes : Z) (N : nat) (rng : list R) (text design : string) (cs : cascade R) (l : list (biquad R)),
  lacks "010" text -> lacks "010" design -> (Z.of_nat N < 10 ^ 9)%Z ->
  length (cs_biquad cs) = N -> shows cs l ->
  Forall (fun bq => b0 (bq_b bq) <> 0) l -> all_strictly_stable l ->
  exists shown out gains, show_cascade show bytes N cs = Ok shown /\
    print_cascade show max_size bytes N rng text design cs = Ok out /\
    Forall2 (gain_at (cascade_out cs)) rng gains /\
    lines out = ("" :: rule 115 "=" :: (text ++ " " ++ design ++ ":")%string :: lines shown ++
                 response_lines show rng gains ++ octave_lines "bqc" design)%list.
Proof.
  intros bytes N rng text design cs l H1 H2 HN L Sh Fb St.
  destruct (C139_cascade show Hs bytes N cs l HN L Sh Fb) as (t & _ & _ & _ & _ & E & _). exists t.
  destruct (filter_ok "bqc" rng text design t (cs_response cs) (gain_at (cascade_out cs))) as (out & gains & Eo & F & Lo);
    try assumption; [apply lacks_b; reflexivity|intros f; now apply (cascade_gain N cs l)|].
  exists out, gains. split; [assumption|]. unfold print_cascade. rewrite E. now split.
Qed.

(** onepole.e.cpp. *)
Theorem C149_onepole :
  forall (rng : list R) (text design : string) (op : onepole R),
  lacks "010" text -> lacks "010" design -> Rabs (op_a1 op) < 1 ->
  exists shown out gains, show_onepole show op = Ok shown /\
    print_onepole show max_size rng text design op = Ok out /\
    Forall2 (gain_at (onepole_out op)) rng gains /\
    lines out = ("" :: rule 115 "=" :: (text ++ " " ++ design ++ ":")%string :: lines shown ++
                 response_lines show rng gains ++ octave_lines "bq" design)%list.
Proof.
  intros rng text design op H1 H2 Ha.
  destruct (C139_onepole show Hs op) as (t & E & _). exists t.
  destruct (filter_ok "bq" rng text design t (op_response op) (gain_at (onepole_out op))) as (out & gains & Eo & F & L);
    try assumption; [apply lacks_b; reflexivity|intros f; now apply onepole_gain|].
  exists out, gains. split; [assumption|]. unfold print_onepole. rewrite E. now split.
Qed.
End Lines.

Print Assumptions C149_biquad.
Print Assumptions C149_cascade.
Print Assumptions C149_onepole.

(** The gain at a frequency is one number: the lists are determined by the filter. *)
Lemma small_pow B r eps : 0 < r < 1 -> 0 < eps -> exists k, forall n, (k <= n)%nat -> Rabs (B * r ^ n) < eps.
Proof.
  intros Hr He. destruct (pow_lt_1_zero r ltac:(rewrite Rabs_pos_eq; lra) (eps / (Rabs B + 1))) as (k & Hk).
  { pose proof (Rabs_pos B). apply Rdiv_lt_0_compat; lra. }
  exists k. intros n Hn. specialize (Hk n Hn). rewrite Rabs_mult. pose proof (Rabs_pos B). pose proof (Rabs_pos (r ^ n)).
  apply Rle_lt_trans with ((Rabs B + 1) * Rabs (r ^ n)); [nra|].
  replace eps with ((Rabs B + 1) * (eps / (Rabs B + 1))) by (field; lra). apply Rmult_lt_compat_l; lra.
Qed.

Lemma gain_unique (out : list R -> list R -> Prop) f g g' :
  (forall xs ys ys', out xs ys -> out xs ys' -> ys = ys') -> gain_at out f g -> gain_at out f g' -> g = g'.
Proof.
  intros Fn (P & s & H) (P' & s' & H').
  set (D := fun phi n => g * cos (phi + 2 * PI * f * INR n + s) - g' * cos (phi + 2 * PI * f * INR n + s')).
  assert (Z : forall phi eps, 0 < eps -> exists k, forall n, (k <= n)%nat -> Rabs (D phi n) < eps).
  { intros phi eps He. destruct (H 1 phi) as (r & B & Hr & K). destruct (H' 1 phi) as (r' & B' & Hr' & K').
    destruct (small_pow B r (eps / 2) Hr ltac:(lra)) as (k & Hk). destruct (small_pow B' r' (eps / 2) Hr' ltac:(lra)) as (k' & Hk').
    exists (Nat.max k k'). intros n Hn. destruct (K n) as (ys & O & U). destruct (K' n) as (ys' & O' & U').
    rewrite (Fn _ _ _ O' O) in U'. specialize (Hk n ltac:(lia)). specialize (Hk' n ltac:(lia)).
    pose proof (Rle_abs (B * r ^ n)). pose proof (Rle_abs (B' * r' ^ n)). unfold D.
    replace (g * cos (phi + 2 * PI * f * INR n + s) - g' * cos (phi + 2 * PI * f * INR n + s'))
      with ((nth n ys 0 - 1 * g' * cos (phi + 2 * PI * f * INR n + s')) - (nth n ys 0 - 1 * g * cos (phi + 2 * PI * f * INR n + s))) by ring.
    eapply Rle_lt_trans; [apply Rabs_triang|]. rewrite Rabs_Ropp. lra. }
  assert (N : forall n, D 0 n * D 0 n + D (PI / 2) n * D (PI / 2) n = g * g + g' * g' - 2 * g * g' * cos (s - s')).
  { intros n. unfold D. set (t := 2 * PI * f * INR n). rewrite Rplus_0_l.
    replace (PI / 2 + t + s) with (PI / 2 + (t + s)) by ring. replace (PI / 2 + t + s') with (PI / 2 + (t + s')) by ring.
    rewrite !(cos_plus (PI / 2)), cos_PI2, sin_PI2.
    replace (s - s') with ((t + s) - (t + s')) by ring. rewrite cos_minus.
    pose proof (sin2_cos2 (t + s)) as Q. pose proof (sin2_cos2 (t + s')) as Q'. unfold Rsqr in *.
    set (c := cos (t + s)) in *. set (d := sin (t + s)) in *. set (c' := cos (t + s')) in *. set (d' := sin (t + s')) in *.
    replace (g * g + g' * g' - _) with (g * g * (d * d + c * c) + g' * g' * (d' * d' + c' * c') - 2 * g * g' * (c * c' + d * d'))
      by (rewrite Q, Q'; ring). ring. }
  set (e := g * g + g' * g' - 2 * g * g' * cos (s - s')) in *.
  assert (E : (g - g') * (g - g') <= e).
  { unfold e. pose proof (COS_bound (s - s')). assert (0 <= g * g') by (now apply Rmult_le_pos). nra. }
  destruct (Req_dec g g') as [|X]; [assumption|]. exfalso.
  assert (0 < (g - g') * (g - g')) by nra. assert (Ep : 0 < e) by lra.
  set (x := sqrt (e / 2)). assert (Xp : 0 < x) by (apply sqrt_lt_R0; lra).
  assert (XX : x * x = e / 2) by (apply sqrt_sqrt; lra).
  destruct (Z 0 x Xp) as (k & Hk). destruct (Z (PI / 2) x Xp) as (k' & Hk').
  specialize (Hk (Nat.max k k') ltac:(lia)). specialize (Hk' (Nat.max k k') ltac:(lia)). specialize (N (Nat.max k k')).
  apply Rabs_def2 in Hk, Hk'. nra.
Qed.

Theorem C149_gain_unique :
  (forall (bq : biquad R) f g g', gain_at (biquad_out bq) f g -> gain_at (biquad_out bq) f g' -> g = g') /\
  (forall (cs : cascade R) f g g', gain_at (cascade_out cs) f g -> gain_at (cascade_out cs) f g' -> g = g') /\
  (forall (op : onepole R) f g g', gain_at (onepole_out op) f g -> gain_at (onepole_out op) f g' -> g = g').
Proof.
  split; [|split]; intros flt f g g'; apply gain_unique; intros xs ys ys' (q & E) (q' & E'); congruence.
Qed.
Print Assumptions C149_gain_unique.

(** ** The design programs *)

Fixpoint joined (l : list string) : string :=
  match l with [] => "" | [a] => a | a :: r => a ++ nl ++ joined r end.
Lemma lines_joined l : l <> [] -> Forall (lacks "010") l -> lines (joined l) = l.
Proof.
  intros N F. induction F as [|a l Ha F IH]; [contradiction|]. destruct l as [|b l]; [now apply lines_one|].
  change (joined (a :: b :: l)) with (a ++ nl ++ joined (b :: l)). rewrite line_app by assumption. now rewrite IH by discriminate.
Qed.
Lemma replaced_lacks c text from to : lacks c text -> lacks c to -> lacks c (replaced_s text from to).
Proof.
  unfold lacks, replaced_s, replaced. intros H1 H2. rewrite list_ascii_of_string_of_list_ascii.
  destruct (find_from _ _ 0) as [p|]; [|assumption]. unfold replace_at. intros X.
  apply in_app_or in X. destruct X as [X|X].
  - apply H1. revert X. generalize p (list_ascii_of_string text). clear. intros p l X.
    rewrite <- (firstn_skipn p l). apply in_or_app. now left.
  - apply in_app_or in X. destruct X as [X|X]; [contradiction|]. apply H1.
    rewrite <- (firstn_skipn (p + length (list_ascii_of_string from)) (list_ascii_of_string text)). apply in_or_app. now right.
Qed.

(** The cascade of chebyshev-design.e.cpp:145-149. *)
Definition band_sections : list (biquad R) :=
  [section 0.95000 (-0.00000) (-0.00000) (-0.00000) 0.00000; section 0.81607 (-1.17714) 0.81607 (-1.25009) 0.92530;
   section 0.40166 (-0.71712) 0.40166 (-0.81244) 0.61293; section 0.81607 0.77782 0.81607 0.69654 0.90931;
   section 0.40166 0.62596 0.40166 0.25300 0.56966].
Lemma band_ok asserts : exists cs, band_cascade asserts = Ok cs /\ shows cs band_sections /\ length (cs_biquad cs) = 7%nat.
Proof.
  destruct (C47_construction R R_scalar 7 [] (Nat.le_0_l _)) as [Sh Lc].
  destruct (C47_list_semantics R R_scalar asserts 7 _ (map OpAppend band_sections) [] band_sections Lc Sh) as (cs & E & S & L'); [reflexivity|].
  exists cs. split; [|now split]. rewrite <- E. unfold band_cascade, band_sections. cbn [map cs_calls cs_call].
  destruct asserts; reflexivity.
Qed.
Lemma band_b0 : Forall (fun bq => b0 (bq_b bq) <> 0) band_sections.
Proof. repeat constructor; cbn; lra. Qed.
Lemma band_stable : all_strictly_stable band_sections.
Proof. repeat constructor; apply strict_triangle; cbn; split_Rabs; lra. Qed.

Section Designs.
Context (show : R -> string) (Hs : forall v, lacks "010" (show v)) (max_size : Z) (Hm : (115 <= max_size)%Z).

Lemma design_ok rng text design t resp gain (m : string) :
  lacks "010" text -> lacks "010" design -> lacks "010" m ->
  (forall f, exists h, resp f = Ok h /\ gain f (Cmod h)) ->
  exists out gains,
  (l115 <- line_s max_size 115 "=" ;; t <- Ok t ;; r <- print_response show max_size rng resp ;;
   o <- print_octave max_size "bq" m ;;
   Ok (nl ++ l115 ++ nl ++ text ++ " " ++ apostrophe ++ design ++ apostrophe ++ ":" ++ nl ++ t ++ r ++ o)) = Ok out /\
    Forall2 gain rng gains /\
    lines out = ("" :: rule 115 "=" :: (text ++ " '" ++ design ++ "':")%string :: lines t ++
                 response_lines show rng gains ++ octave_lines "bq" m)%list.
Proof.
  intros H2 H3 H4 G. destruct (response_ok show Hs max_size Hm rng resp gain G) as (r & gains & E & F & L).
  destruct (octave_ok max_size Hm "bq" m ltac:(apply lacks_b; reflexivity) H4) as (o & Eo & Lo).
  rewrite line_ok by (exact Hm || lia). cbn [bind]. rewrite E, Eo. cbn [bind].
  eexists. exists gains. split; [reflexivity|]. split; [assumption|].
  change (lines (nl ++ ?x)) with ("" :: lines x). apply cons_eq; [reflexivity|].
  change (Z.to_nat 115) with 115%nat. rewrite line_app by (apply rule_lacks; discriminate). apply cons_eq; [reflexivity|].
  replace (text ++ " " ++ apostrophe ++ design ++ apostrophe ++ ":" ++ nl ++ t ++ (nl ++ r) ++ nl ++ o)
    with ((text ++ " '" ++ design ++ "':") ++ nl ++ t ++ nl ++ r ++ nl ++ o) by (rewrite !app_assoc_s; reflexivity).
  rewrite line_app. 2:{ repeat (apply lacks_app; split); try assumption; apply lacks_b; reflexivity. }
  apply cons_eq; [reflexivity|]. rewrite !lines_app, L, Lo. reflexivity.
Qed.

(** *** Replacing the first occurrence *)

Lemma las_app a b : list_ascii_of_string (a ++ b) = (list_ascii_of_string a ++ list_ascii_of_string b)%list.
Proof. induction a as [|c a IH]; [reflexivity|]. cbn. now rewrite IH. Qed.
Lemma sol_app a b : string_of_list_ascii (a ++ b)%list = string_of_list_ascii a ++ string_of_list_ascii b.
Proof. induction a as [|c a IH]; [reflexivity|]. cbn. now rewrite IH. Qed.

(** The first occurrence starts with the first [c]. *)
Lemma replaced_first c from to a b : lacks c a ->
  replaced_s (a ++ String c from ++ b) (String c from) to = a ++ to ++ b.
Proof.
  intros H. unfold replaced_s. set (la := list_ascii_of_string) in *.
  rewrite (proj1 (C68_replaced (la (a ++ String c from ++ b)) (la (String c from)) (la to)) (la a) (la b)).
  - rewrite !sol_app. unfold la. now rewrite !string_of_list_ascii_of_string.
  - unfold la. now rewrite !las_app.
  - intros pre post E. destruct (Nat.le_gt_cases (length (la a)) (length pre)) as [|X]; [assumption|]. exfalso. apply H.
    unfold la in *. rewrite las_app in E. cbn [append] in E. change (list_ascii_of_string (String c (from ++ b))) with (c :: list_ascii_of_string (from ++ b)) in E.
    assert (N : nth_error (list_ascii_of_string a ++ c :: list_ascii_of_string (from ++ b)) (length pre) = Some c).
    { rewrite E. rewrite nth_error_app2, Nat.sub_diag by lia. reflexivity. }
    rewrite nth_error_app1 in N by assumption. now apply nth_error_In in N.
Qed.

(** Nothing is replaced without its first character. *)
Lemma replaced_none c from to a : lacks c a -> replaced_s a (String c from) to = a.
Proof.
  intros H. unfold replaced_s. set (la := list_ascii_of_string) in *.
  rewrite (proj2 (C68_replaced (la a) (la (String c from)) (la to))).
  - unfold la. apply string_of_list_ascii_of_string.
  - intros pre post E. apply H. fold la. rewrite E. apply in_or_app. right. now left.
Qed.

Lemma matlab_text c prefix kind args :
  lacks ">" kind -> lacks ")" kind -> lacks ")" args ->
  matlab_design (String c prefix) (String c prefix ++ kind ++ ">(" ++ args ++ "))") = kind ++ "(" ++ args ++ ")".
Proof.
  intros H1 H2 H3. unfold matlab_design.
  pose proof (replaced_first c prefix "" "" (kind ++ ">(" ++ args ++ "))") (fun x => x)) as E.
  change ("" ++ ?x) with x in E. change ("" ++ ?x) with x in E. rewrite E. clear E.
  rewrite (replaced_first ">" "(" "(" kind (args ++ "))")) by assumption.
  replace (kind ++ "(" ++ args ++ "))") with ((kind ++ "(" ++ args) ++ "))" ++ "") by (now rewrite !app_assoc_s).
  rewrite (replaced_first ")" ")" ")" (kind ++ "(" ++ args) "").
  - now rewrite !app_assoc_s.
  - repeat (apply lacks_app; split); try assumption. intros [X|[]]. discriminate.
Qed.

(** biquad-design.e.cpp: the text of the macros, "(dsp::biquad_design<FilterResponse::kind>(
    arguments))", gives the Octave line "kind( arguments)". *)
Theorem C152_biquad_design :
  forall (rng : list R) (text kind args : string) (c : biquad_coeff),
  lacks "010" text -> lacks "010" kind -> lacks "010" args ->
  lacks ">" kind -> lacks ")" kind -> lacks ")" args ->
  b0 (bc_b c) <> 0 -> strictly_stable (a1 (bc_a c)) (a2 (bc_a c)) ->
  let design := "(dsp::biquad_design<FilterResponse::" ++ kind ++ ">(" ++ args ++ "))" in
  exists shown out gains, show_biquad show (make_biquad c) = Ok shown /\
    print_biquad_design show max_size rng text design c = Ok out /\
    Forall2 (gain_at (biquad_out (make_biquad c))) rng gains /\
    lines out = ("" :: rule 115 "=" :: (text ++ " '" ++ design ++ "':")%string :: lines shown ++
                 response_lines show rng gains ++ octave_lines "bq" (kind ++ "(" ++ args ++ ")"))%list.
Proof.
  intros rng text kind args c H1 H2 H3 H4 H5 H6 Hb St design.
  destruct (C139_biquad show Hs (make_biquad c) Hb) as (t & _ & _ & _ & _ & _ & E & _). exists t.
  destruct (design_ok rng text design t (response (make_biquad c)) (gain_at (biquad_out (make_biquad c))) (kind ++ "(" ++ args ++ ")"))
    as (out & gains & Eo & F & L); try assumption.
  - unfold design. repeat (apply lacks_app; split); try assumption; apply lacks_b; reflexivity.
  - repeat (apply lacks_app; split); try assumption; apply lacks_b; reflexivity.
  - intros f. now apply biquad_gain.
  - exists out, gains. split; [assumption|]. unfold print_biquad_design. cbv zeta. rewrite E.
    unfold design at 1. rewrite (matlab_text "(" "dsp::biquad_design<FilterResponse::" kind args) by assumption. now split.
Qed.

(** onepole-design.e.cpp. *)
Theorem C152_onepole_design :
  forall (rng : list R) (text kind args : string) (c : R * R),
  lacks "010" text -> lacks "010" kind -> lacks "010" args ->
  lacks ">" kind -> lacks ")" kind -> lacks ")" args ->
  Rabs (snd c) < 1 ->
  let design := "(dsp::onepole_design<FilterResponse::" ++ kind ++ ">(" ++ args ++ "))" in
  exists shown out gains, show_onepole show (make_onepole c) = Ok shown /\
    print_onepole_design show max_size rng text design c = Ok out /\
    Forall2 (gain_at (onepole_out (make_onepole c))) rng gains /\
    lines out = ("" :: rule 115 "=" :: (text ++ " '" ++ design ++ "':")%string :: lines shown ++
                 response_lines show rng gains ++ octave_lines "bq" (kind ++ "(" ++ args ++ ")"))%list.
Proof.
  intros rng text kind args c H1 H2 H3 H4 H5 H6 Ha design.
  destruct (C139_onepole show Hs (make_onepole c)) as (t & E & _). exists t.
  destruct (design_ok rng text design t (op_response (make_onepole c)) (gain_at (onepole_out (make_onepole c))) (kind ++ "(" ++ args ++ ")"))
    as (out & gains & Eo & F & L); try assumption.
  - unfold design. repeat (apply lacks_app; split); try assumption; apply lacks_b; reflexivity.
  - repeat (apply lacks_app; split); try assumption; apply lacks_b; reflexivity.
  - intros f. now apply onepole_gain.
  - exists out, gains. split; [assumption|]. unfold print_onepole_design. cbv zeta. rewrite E.
    unfold design at 1. rewrite (matlab_text "(" "dsp::onepole_design<FilterResponse::" kind args) by assumption. now split.
Qed.

(** chebyshev-design.e.cpp: the designed coefficients, then the cascade of them and its gains,
    then the Octave text. *)
Definition coefficient_lines (c : digital_coeff) : list string :=
  let i := dc_info c in
  [""; rule 115 "=";
   "ai: [I Wpass:" ++ show (ai_Wpass i) ++ " Wstop:" ++ show (ai_Wstop i) ++ " epass:" ++ show (ai_epass i) ++
     " estop:" ++ show (ai_estop i) ++ " Nex:" ++ show (ai_Nex i) ++ " N:" ++ show_Z (ai_N i) ++
     " f3:" ++ show (ai_f3 i) ++ " a:" ++ show (ai_a i) ++ " ]";
   "b: [" ++ concat_s (map (fun b => " [B " ++ show (b0 b) ++ ", " ++ show (b1 b) ++ ", " ++ show (b2 b) ++ " ]") (dc_b c)) ++ "]";
   "a: [" ++ concat_s (map (fun a => " [A " ++ show (a1 a) ++ ", " ++ show (a2 a) ++ " ]") (dc_a c)) ++ "]";
   rule 115 "-"; ""].

Definition pass_lines (design : string) : list string :=
  [""; "% " ++ rule 42 "-"; "% Corresponding Matlab/Octave filter design:"; ""; "[A,B,P] = " ++ design;
   "% p.1  : s (1:lowpass,-1:highpass)"; "% p.2-4: fs, fpass, fstop"; "% p.5,6: Apass, Astop amplitude in dB";
   "% A: matrix of bi-quad a coefficients"; "% B: matrix of bi-quad b coefficients"; "% P: algorithm internal information";
   ""; "% Concatenate horizontally, convert and plot:"; "sos = cat(2,B,A)"; "[b,a] = sos2tf(sos)"; "freqz(b,a);"; ""].

Lemma show_Z_lacks z : lacks "010" (show_Z z).
Proof.
  assert (D : forall fuel n tail, lacks "010" tail -> lacks "010" (digits fuel n tail)).
  { induction fuel as [|fuel IH]; intros n tail H; [exact H|]. cbn [digits].
    assert (X : lacks "010" (String (digit (n mod 10)) tail)).
    { intros [E|E]; [|now apply H]. unfold digit in E.
      pose proof (Z.mod_pos_bound n 10 ltac:(lia)) as B. set (d := (n mod 10)%Z) in *.
      apply (f_equal N_of_ascii) in E. rewrite N_ascii_embedding in E by (apply N2Z.inj_lt; rewrite Z2N.id by lia; change (Z.of_N 256) with 256%Z; lia).
      change (N_of_ascii "010") with 10%N in E. apply (f_equal Z.of_N) in E. rewrite Z2N.id in E by lia. change (Z.of_N 10) with 10%Z in E. lia. }
    destruct (n <? 10)%Z; [assumption|now apply IH]. }
  unfold show_Z. destruct (z <? 0)%Z; [|apply D; intros []].
  intros [E|E]; [discriminate|]. revert E. apply D. intros [].
Qed.

Lemma vector_text {T} (sh : T -> string) l :
  show_vector sh l = "[" ++ concat_s (map (fun v => " " ++ sh v) l) ++ "]".
Proof.
  unfold show_vector, concat_s. f_equal. induction l as [|x l IH]; [reflexivity|].
  cbn [map fold_right]. rewrite IH. now rewrite !app_assoc_s.
Qed.

Ltac lk := repeat (apply lacks_app; split); try apply Hs; try apply show_Z_lacks; try assumption; try (apply lacks_b; reflexivity).
Lemma concat_lacks (T : Type) (f : T -> string) l : (forall x, lacks "010" (f x)) -> lacks "010" (concat_s (map f l)).
Proof. intros H. apply lacks_concat. apply Forall_forall. intros s X. apply in_map_iff in X. destruct X as (x & <- & _). apply H. Qed.

Lemma coefficient_ok c : exists t, print_coeff show max_size c = Ok t /\
  forall u, lines (t ++ nl ++ u) = (coefficient_lines c ++ lines u)%list.
Proof.
  unfold print_coeff. rewrite !line_ok by (exact Hm || lia). cbn [bind]. change (Z.to_nat 115) with 115%nat.
  eexists. split; [reflexivity|]. intros u. unfold coefficient_lines. cbv zeta. rewrite !vector_text.
  cbn [app]. unfold show_info.
  match goal with |- lines ?x = _ :: _ :: ?a :: ?b :: ?c :: _ =>
    replace x with ("" ++ nl ++ rule 115 "=" ++ nl ++ a ++ nl ++ b ++ nl ++ c ++ nl ++ rule 115 "-" ++ nl ++ "" ++ nl ++ u) end.
  2:{ rewrite !app_assoc_s. reflexivity. }
  rewrite !line_app; try reflexivity; try (apply rule_lacks; discriminate); lk; apply concat_lacks; intros x; lk.
Qed.

Theorem C149_pass :
  forall (asserts : bool) (bytes : Z) (rng : list R) (text design : string) (c : digital_coeff),
  lacks "010" text -> lacks "010" design ->
  length (dc_b c) = length (dc_a c) -> (length (dc_b c) <= 7)%nat ->
  Forall (fun b => b0 b <> 0) (dc_b c) -> Forall (fun a => strictly_stable (a1 a) (a2 a)) (dc_a c) ->
  exists cs shown out gains, make_biquad_cascade asserts 7 c = Ok cs /\
    show_cascade show bytes 7 cs = Ok shown /\
    print_pass show max_size asserts bytes rng text design c = Ok out /\
    Forall2 (gain_at (cascade_out cs)) rng gains /\
    lines out = (coefficient_lines c ++ (text ++ " '" ++ design ++ "':")%string :: lines shown ++
                 response_lines show rng gains ++ pass_lines (matlab_pass design))%list.
Proof.
  intros asserts bytes rng text design c H1 H2 L S7 Fb Fa.
  destruct (make_ok asserts 7 c L S7) as (cs & Ec & Sh & Lc).
  assert (Fb' : Forall (fun bq => b0 (bq_b bq) <> 0) (sections c)).
  { apply Forall_forall. intros bq X. apply in_map_iff in X. destruct X as ((b, a) & <- & X). cbn.
    rewrite Forall_forall in Fb. apply Fb. now apply in_combine_l in X. }
  assert (St : all_strictly_stable (sections c)).
  { apply Forall_forall. intros bq X. apply in_map_iff in X. destruct X as ((b, a) & <- & X). cbn.
    rewrite Forall_forall in Fa. apply Fa. now apply in_combine_r in X. }
  destruct (C139_cascade show Hs bytes 7 cs (sections c) ltac:(reflexivity) Lc Sh Fb') as (t & _ & _ & _ & _ & E & _).
  destruct (response_ok show Hs max_size Hm rng (cs_response cs) (gain_at (cascade_out cs))) as (r & gains & Er & F & Lr).
  { intros f. now apply (cascade_gain 7 cs (sections c)). }
  destruct (coefficient_ok c) as (hd & Eh & Lh).
  exists cs, t. eexists. exists gains. split; [assumption|]. split; [assumption|].
  unfold print_pass. rewrite Ec. cbn [bind]. rewrite Eh. cbn [bind]. rewrite E. cbn [bind]. rewrite Er. cbn [bind].
  rewrite line_ok by (exact Hm || lia). cbn [bind]. change (Z.to_nat 42) with 42%nat.
  split; [reflexivity|]. split; [assumption|]. rewrite Lh. f_equal.
  replace (text ++ _) with ((text ++ " '" ++ design ++ "':") ++ nl ++ t ++ nl ++ r ++ nl ++ joined (pass_lines (matlab_pass design))).
  2:{ unfold pass_lines. cbn [joined]. rewrite !app_assoc_s. reflexivity. }
  rewrite line_app by lk. cbn [app]. apply cons_eq; [reflexivity|]. rewrite !lines_app, Lr, lines_joined; [reflexivity|discriminate|].
  unfold pass_lines. repeat constructor; lk. unfold matlab_pass.
  repeat (apply replaced_lacks; [|apply lacks_b; reflexivity]). assumption.
Qed.

(** [print_band] does the same with another cascade, whatever the coefficients. *)
Theorem C151_band_text :
  forall (asserts : bool) (bytes : Z) (rng : list R) (text design : string) (c : digital_coeff),
  lacks "010" text -> lacks "010" design ->
  exists cs shown out gains, band_cascade asserts = Ok cs /\
    show_cascade show bytes 7 cs = Ok shown /\
    print_band show max_size asserts bytes rng text design c = Ok out /\
    Forall2 (gain_at (cascade_out cs)) rng gains /\
    lines out = (coefficient_lines c ++ (text ++ " '" ++ design ++ "':")%string :: lines shown ++
                 response_lines show rng gains ++
                 [""; "% " ++ rule 42 "-"; ""; "[A,B,P] = " ++ matlab_band design;
                  "% Corresponding Matlab/Octave filter design:"; "...TBD..."]%string)%list.
Proof.
  intros asserts bytes rng text design c H1 H2.
  destruct (band_ok asserts) as (cs & Ec & Sh & Lc).
  destruct (C139_cascade show Hs bytes 7 cs band_sections ltac:(reflexivity) Lc Sh band_b0) as (t & _ & _ & _ & _ & E & _).
  destruct (response_ok show Hs max_size Hm rng (cs_response cs) (gain_at (cascade_out cs))) as (r & gains & Er & F & Lr).
  { intros f. apply (cascade_gain 7 cs band_sections); try assumption. apply band_stable. }
  destruct (coefficient_ok c) as (hd & Eh & Lh).
  exists cs, t. eexists. exists gains. split; [assumption|]. split; [assumption|].
  unfold print_band. rewrite Ec. cbn [bind]. rewrite Eh. cbn [bind]. rewrite E. cbn [bind]. rewrite Er. cbn [bind].
  rewrite line_ok by (exact Hm || lia). cbn [bind]. change (Z.to_nat 42) with 42%nat.
  split; [reflexivity|]. split; [assumption|]. rewrite Lh. f_equal.
  match goal with |- _ = _ :: (_ ++ _ ++ ?l)%list =>
    replace (text ++ _) with ((text ++ " '" ++ design ++ "':") ++ nl ++ t ++ nl ++ r ++ nl ++ joined l) end.
  2:{ cbn [joined]. rewrite !app_assoc_s. reflexivity. }
  rewrite line_app by lk. cbn [app]. apply cons_eq; [reflexivity|]. rewrite !lines_app, Lr, lines_joined; [reflexivity|discriminate|].
  repeat constructor; lk. unfold matlab_band.
  repeat (apply replaced_lacks; [|apply lacks_b; reflexivity]). assumption.
Qed.
End Designs.
Print Assumptions C152_biquad_design.
Print Assumptions C152_onepole_design.
Print Assumptions C149_pass.
Print Assumptions C151_band_text.

(** *** The Octave text of the Chebyshev designs *)

(** The call of a design, as the macros of chebyshev-design.e.cpp:208-220 spell it; the Octave
    function has the kind 1 or -1 as its first argument (lines 78-92). *)
Definition pass_call (kind : string) (type args : string) : string :=
  "dsp::chebyshev" ++ type ++ "_lp_hp( dsp::FilterResponse::" ++ kind ++ args.
Definition octave_call (s : string) (type args : string) : string := "lhcheb" ++ type ++ "( " ++ s ++ args.

Lemma find_none c from s : lacks c s -> forall n, find_from (c :: from) (list_ascii_of_string s) n = None.
Proof.
  unfold lacks. induction (list_ascii_of_string s) as [|x l IH]; intros H n; [reflexivity|]. cbn [find_from starts_with].
  destruct (Ascii.eqb_spec c x) as [->|_]; [exfalso; apply H; now left|]. cbn [andb]. apply IH. intros X. apply H. now right.
Qed.

(** Computes the innermost replacement in a literal text before [args]. *)
Ltac replace_one :=
  match goal with |- context [replaced_s ?t ?f ?u] =>
    lazymatch t with
    | context [replaced_s] => fail
    | _ => let E := fresh in
        eassert (E : replaced_s t f u = _) by
          (unfold replaced_s, replaced; simpl; rewrite ?find_none by assumption; unfold replace_at; simpl;
           rewrite string_of_list_ascii_of_string; reflexivity);
        rewrite E; clear E
    end
  end.

(** The second "dsp::" stays: the Octave text is not a call of the function. *)
Theorem C152_pass_text_refuted :
  ~ (forall args, lacks "d" args -> lacks "c" args -> lacks "F" args ->
       matlab_pass (pass_call "low_pass" "1" args) = octave_call "1" "1" args) /\
  forall args, lacks "d" args -> lacks "c" args -> lacks "F" args ->
    matlab_pass (pass_call "low_pass" "1" args) = octave_call "dsp::1" "1" args /\
    matlab_pass (pass_call "low_pass" "2" args) = octave_call "dsp::1" "2" args /\
    matlab_pass (pass_call "high_pass" "1" args) = octave_call "dsp::-1" "1" args /\
    matlab_pass (pass_call "high_pass" "2" args) = octave_call "dsp::-1" "2" args.
Proof.
  split.
  - intros H. specialize (H ", 100, 20, 24, 1, 10 )"). vm_compute in H.
    discriminate H; intros X; repeat (destruct X as [X|X]; [discriminate|]); destruct X.
  - intros args Hd Hc HF. unfold matlab_pass, pass_call, octave_call.
    repeat split; cbn [append];
    repeat replace_one; reflexivity.
Qed.
Print Assumptions C152_pass_text_refuted.

(** Nor is the band pass's name replaced, which the program has when CONFIG_USE_BAND_STOP is 0. *)
Theorem C152_band_text :
  forall args, lacks "d" args -> lacks "c" args ->
    matlab_band ("dsp::chebyshev2_bs" ++ args) = "bscheb2" ++ args /\
    matlab_band ("dsp::chebyshev2_bp" ++ args) = "chebyshev2_bp" ++ args.
Proof.
  intros args Hd Hc. unfold matlab_band.
  split; cbn [append];
    repeat replace_one; reflexivity.
Qed.
Print Assumptions C152_band_text.

(** ** Cases *)

Definition ex_show (v : R) : string := "v".
Lemma ex_show_lacks v : lacks "010" (ex_show v). Proof. apply lacks_b. reflexivity. Qed.

(** The filters of biquad.e.cpp:77, biquad-cascade.e.cpp:100-105 and onepole.e.cpp:77. *)
Example C149_case :
  (forall v, lacks "010" (ex_show v)) /\ lacks "010" "[b,a] = cheby1(2,3,0.4)" /\
  (b0 (bq_b biquad_cheby1) <> 0 /\ strictly_stable (a1 (bq_a biquad_cheby1)) (a2 (bq_a biquad_cheby1))) /\
  (exists l, length (cs_biquad cascade_cheby2) = 7%nat /\ length l = 3%nat /\ shows cascade_cheby2 l /\
     Forall (fun bq => b0 (bq_b bq) <> 0) l /\ all_strictly_stable l) /\
  Rabs (op_a1 onepole_low) < 1.
Proof.
  split; [apply ex_show_lacks|]. split; [apply lacks_b; reflexivity|]. split; [|split].
  - cbn. split; [lra|]. apply strict_triangle. split; split_Rabs; lra.
  - eexists. split; [reflexivity|]. split; [|split; [apply (C47_construction R R_scalar 7); cbn; lia|]]; [reflexivity|].
    split; repeat constructor; cbn; try lra; apply strict_triangle; split_Rabs; lra.
  - cbn. split_Rabs; lra.
Qed.

Example C149_pass_case :
  let c := {| dc_b := [{| b0 := 1; b1 := 2; b2 := 1 |}]; dc_a := [{| a1 := 1 / 2; a2 := 1 / 4 |}];
              dc_info := {| ai_Wpass := 1; ai_Wstop := 2; ai_epass := 1; ai_estop := 3; ai_Nex := 1; ai_N := 2; ai_f3 := 1; ai_a := 1 |} |} in
  length (dc_b c) = length (dc_a c) /\ (length (dc_b c) <= 7)%nat /\
  Forall (fun b => b0 b <> 0) (dc_b c) /\ Forall (fun a => strictly_stable (a1 a) (a2 a)) (dc_a c).
Proof.
  cbn. split; [reflexivity|]. split; [lia|]. split; repeat constructor; cbn; try lra.
  apply strict_triangle. split; split_Rabs; lra.
Qed.

(** The constant filter 1 has gain 1 at every frequency: two outputs suffice to see it. *)
Example C149_gain_case : gain_at (biquad_out (section 1 0 0 0 0)) (1 / 8) 1.
Proof.
  destruct (biquad_gain (section 1 0 0 0 0) (1 / 8)) as (h & E & G).
  { apply strict_triangle. cbn. split; split_Rabs; lra. }
  assert (M : Cmod h = 1); [|now rewrite M in G]. unfold response, section in E. cbn in E.
  destruct (Ceq_dec _ _) as [X|_] in E; [discriminate|]. injection E as <-.
  match goal with |- Cmod (_ / ?d)%C = _ => replace d with (RtoC 1) by (unfold Cplus, Cmult, RtoC; cbn; f_equal; ring) end.
  match goal with |- Cmod (?d / _)%C = _ => replace d with (RtoC 1) by (unfold Cplus, Cmult, RtoC; cbn; f_equal; ring) end.
  rewrite Cmod_div by (intros X; injection X; lra). rewrite Cmod_1. field.
Qed.

(** biquad-design.e.cpp:76 and onepole-design.e.cpp:76. *)
Example C152_case :
  matlab_design "(dsp::biquad_design<FilterResponse::" "(dsp::biquad_design<FilterResponse::low_pass >( 0, 25, 100, 0.8f ))"
    = "low_pass ( 0, 25, 100, 0.8f )" /\
  matlab_design "(dsp::onepole_design<FilterResponse::" "(dsp::onepole_design<FilterResponse::low_pass >( 2, 100 ))"
    = "low_pass ( 2, 100 )" /\
  matlab_pass "dsp::chebyshev1_lp_hp( dsp::FilterResponse::low_pass, 100, 20, 24, 1, 10 )" = "lhcheb1( dsp::1, 100, 20, 24, 1, 10 )" /\
  matlab_band "dsp::chebyshev2_bs( 100, 15, 35, 20, 30, 1, 10 )" = "bscheb2( 100, 15, 35, 20, 30, 1, 10 )".
Proof. repeat split; vm_compute; reflexivity. Qed.
