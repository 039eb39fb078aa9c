(** * The output of the simulation program

    C138 of properties.jsonl: example/desktop/kalman-sim.e.cpp compared with the output
    recorded in example/desktop/kalman-sim.out.txt. *)

From Coq Require Import Reals List Arith ZArith Lia Ascii String.
From Flocq Require Import Core BinarySingleNaN.
From Verif Require Import Base Matrix MatrixSpec Kalman KalmanProofs KalmanSim Ieee KalmanIeee FixedPoint Output.
Import ListNotations.
Local Open Scope string_scope.

(** ** Gain and covariance do not depend on the data, in any arithmetic without undefined
    operations *)

Section Total.
Context {T : Type} (zero one : T) (add sub mul div : T -> T -> T) (opp : T -> T) (nz : T -> bool)
  (of_int : Z -> T) (lt : T -> T -> bool).

Let S : scalar T := {| sc_zero := zero; sc_one := one;
  sc_add := fun a b => Ok (add a b); sc_sub := fun a b => Ok (sub a b);
  sc_mul := fun a b => Ok (mul a b); sc_div := fun a b => Ok (div a b);
  sc_opp := fun a => Ok (opp a); sc_nz := nz |}.
Let nt : numeric T := {| nt_sc := S; nt_int := fun z => Ok (of_int z); nt_lt := lt |}.

(** Entries of a 2x2 matrix and of a gain. *)
Record m4 := M4 { e00 : T; e01 : T; e10 : T; e11 : T }.
Definition cells (p : m4) : matrix T := [Some (e00 p); Some (e01 p); Some (e10 p); Some (e11 p)].

(** One update of the covariance alone: the gain and the covariance afterwards. *)
Definition cov_next (prm : kparams T) (P : m4) : outcome (matrix T * matrix T) :=
  P1 <- predict_P S prm (cells P) ;;
  K <- gain S 1 prm P1 ;;
  P2 <- correct_P S 1 prm K P1 ;;
  Ok (K, P2).

Definition prm_of (A Q : m4) (b0 b1 h0 h1 r dt : T) : kparams T :=
  {| kA := cells A; kB := [Some b0; Some b1]; kH := [Some h0; Some h1]; kQ := cells Q; kR := [Some r]; kdt := dt |}.

Lemma cov_next_total A Q b0 b1 h0 h1 r dt P :
  exists k0 k1 P', cov_next (prm_of A Q b0 b1 h0 h1 r dt) P = Ok ([Some k0; Some k1], cells P').
Proof.
  destruct A, Q, P. unfold cov_next.
  eassert (predict_P S (prm_of (M4 _ _ _ _) (M4 _ _ _ _) b0 b1 h0 h1 r dt) (cells (M4 _ _ _ _)) = Ok (cells (M4 _ _ _ _))) as ->.
  { cbv. reflexivity. }
  rewrite bind_Ok.
  match goal with |- context [cells (M4 ?a ?b ?c ?d)] => generalize a b c d end. intros p0 p1 p2 p3.
  assert (exists k0 k1, gain S 1 (prm_of (M4 e02 e03 e12 e13) (M4 e04 e05 e14 e15) b0 b1 h0 h1 r dt) (cells (M4 p0 p1 p2 p3))
     = Ok [Some k0; Some k1]) as (k0 & k1 & ->).
  { cbv.
    match goal with |- context [nz ?v] => destruct (nz v) end; eauto. }
  rewrite bind_Ok. exists k0, k1. eexists (M4 _ _ _ _). cbv. reflexivity.
Qed.

Definition st_of (K : matrix T) (P : m4) (c d t : T) : kstate T :=
  {| kK := K; kP := cells P; kx := [Some c; Some d]; kt := t |}.

(** One pass of the loop: the gain and the covariance are those of [cov_next]. *)
Lemma sim_step_total A Q b0 b1 h0 h1 r dt P k0 k1 P' K x y c d t w0 w1 v :
  cov_next (prm_of A Q b0 b1 h0 h1 r dt) P = Ok ([Some k0; Some k1], cells P') ->
  exists x' y' z c' d' t',
    sim_step nt (prm_of A Q b0 b1 h0 h1 r dt) [Some x; Some y] (st_of K P c d t) (Some ([Some w0; Some w1], v))
    = Ok ([Some x'; Some y'], [Some z], st_of [Some k0; Some k1] P' c' d' t').
Proof.
  set (prm := prm_of A Q b0 b1 h0 h1 r dt). intros E. unfold cov_next in E.
  apply bind_inv in E as (P1 & E1 & E). apply bind_inv in E as (K2 & E2 & E).
  apply bind_inv in E as (P2 & E3 & E). apply Ok_inj in E.
  assert (K2 = [Some k0; Some k1]) by congruence. assert (P2 = cells P') by congruence. subst K2 P2.
  unfold sim_step. change (nt_int nt 1) with (@Ok T (of_int 1)). rewrite bind_Ok.
  assert (X1 : mat_il (nt_sc nt) 1 1 [of_int 1] = Ok [Some (of_int 1)]) by reflexivity.
  rewrite X1, bind_Ok.
  eassert (X2 : mul_mv (nt_sc nt) 2 2 (kA prm) [Some x; Some y] = Ok [Some _; Some _]) by (cbv; reflexivity).
  rewrite X2, bind_Ok.
  eassert (X3 : mul_Bu (nt_sc nt) 1 (kB prm) [Some (of_int 1)] = Ok [Some _; Some _]) by (cbv; reflexivity).
  rewrite X3, bind_Ok. clear X1 X2 X3.
  match goal with |- context [add_mm _ 2 1 [Some ?a; Some ?b] [Some ?c; Some ?d]] => generalize a b c d end.
  intros a1 a2 a3 a4.
  eassert (X4 : add_mm (nt_sc nt) 2 1 [Some a1; Some a2] [Some a3; Some a4] = Ok [Some _; Some _]) by (cbv; reflexivity).
  rewrite X4, bind_Ok. clear X4.
  match goal with |- context [add_mm _ 2 1 [Some ?a; Some ?b] [Some w0; Some w1]] => generalize a b end.
  intros a5 a6.
  eassert (X4 : add_mm (nt_sc nt) 2 1 [Some a5; Some a6] [Some w0; Some w1] = Ok [Some _; Some _]) by (cbv; reflexivity).
  rewrite X4, bind_Ok. clear X4.
  match goal with |- context [dot _ 2 (kH prm) [Some ?a; Some ?b]] => generalize a b end. intros x' y'.
  eassert (X5 : dot (nt_sc nt) 2 (kH prm) [Some x'; Some y'] = Ok _) by (cbv; reflexivity).
  rewrite X5, bind_Ok. clear X5.
  eassert (X6 : sc_add (nt_sc nt) _ v = Ok (add _ v)) by reflexivity. rewrite X6, bind_Ok. clear X6.
  match goal with |- context [mat_fill _ 1 1 ?a] => generalize a end. intros z.
  assert (X7 : mat_fill (nt_sc nt) 1 1 z = Ok [Some z]) by reflexivity. rewrite X7, bind_Ok. clear X7.
  unfold update. change (kt (st_of K P c d t)) with t. change (kx (st_of K P c d t)) with [Some c; Some d].
  change (kP (st_of K P c d t)) with (cells P).
  eassert (X8 : sc_add (nt_sc nt) t (kdt prm) = Ok _) by reflexivity. rewrite X8, bind_Ok. clear X8.
  eassert (X9 : predict_x (nt_sc nt) 1 prm [Some c; Some d] [Some (of_int 1)] = Ok [Some _; Some _]) by (cbv; reflexivity).
  rewrite X9, bind_Ok. clear X9.
  match goal with |- context [correct_x _ _ _ _ [Some ?a; Some ?b]] => generalize a b end. intros s0 s1.
  change (nt_sc nt) with S. rewrite E1, bind_Ok, E2, bind_Ok.
  eassert (Y : correct_x S 1 prm [Some k0; Some k1] [Some s0; Some s1] [Some z] = Ok [Some _; Some _]) by (cbv; reflexivity).
  rewrite Y, bind_Ok, E3, bind_Ok, bind_Ok. clear Y.
  unfold st_of. do 6 eexists. reflexivity.
Qed.

(** The gains and covariances of [n] updates. *)
Fixpoint cov_run (prm : kparams T) (n : nat) (P : m4) : option (list (T * T * m4)) :=
  match n with
  | O => Some []
  | Datatypes.S n' =>
      match cov_next prm P with
      | Ok ([Some k0; Some k1], [Some p0; Some p1; Some p2; Some p3]) =>
          option_map (cons (k0, k1, M4 p0 p1 p2 p3)) (cov_run prm n' (M4 p0 p1 p2 p3))
      | _ => None
      end
  end.

Lemma sim_plots_total A Q b0 b1 h0 h1 r dt dur mn an : forall n draws i P K x y c d t l,
  cov_run (prm_of A Q b0 b1 h0 h1 r dt) n P = Some l ->
  (n <= List.length draws)%nat ->
  (forall k, (k <= n)%nat -> lt (mul (of_int (i + Z.of_nat k)) dt) dur = negb (Nat.eqb k n)) ->
  exists ps, sim_plots nt dur mn an (prm_of A Q b0 b1 h0 h1 r dt) i [Some x; Some y] (st_of K P c d t) draws
      = Ok (Some ps) /\ List.length ps = n /\
    map (fun p => (p_posgain (snd p), p_velgain (snd p), p_posecov (snd p), p_velecov (snd p))) ps
      = map (fun q => (fst (fst q), snd (fst q), e00 (snd q), e01 (snd q))) l.
Proof.
  induction n as [|n IH]; intros draws i P K x y c d t l EL LD LT.
  - cbn [cov_run] in EL. assert (l = []) by congruence. subst l.
    exists []. split; [|split; reflexivity].
    specialize (LT 0%nat ltac:(lia)). cbn [Z.of_nat Nat.eqb negb] in LT. rewrite Z.add_0_r in LT.
    assert (X : forall dr, sim_plots nt dur mn an (prm_of A Q b0 b1 h0 h1 r dt) i [Some x; Some y] (st_of K P c d t) dr
      = if lt (mul (of_int i) dt) dur then sim_plots nt dur mn an (prm_of A Q b0 b1 h0 h1 r dt) i [Some x; Some y] (st_of K P c d t) dr else Ok (Some [])).
    { intros dr. destruct (lt (mul (of_int i) dt) dur) eqn:E; [reflexivity|].
      destruct dr as [|[[g1 g2] g] dr]; cbn [sim_plots]; change (nt_int nt i) with (@Ok T (of_int i)); change (nt_lt nt) with lt; rewrite bind_Ok;
        change (sc_mul (nt_sc nt) (of_int i) (kdt (prm_of A Q b0 b1 h0 h1 r dt))) with (@Ok T (mul (of_int i) dt));
        rewrite bind_Ok, E; reflexivity. }
    rewrite X, LT. reflexivity.
  - destruct draws as [|[[g1 g2] g] draws]; [cbn in LD; lia|].
    cbn [cov_run] in EL.
    destruct (cov_next_total A Q b0 b1 h0 h1 r dt P) as (k0 & k1 & P' & EC).
    rewrite EC in EL. cbn [cells] in EL.
    replace (M4 (e00 P') (e01 P') (e10 P') (e11 P')) with P' in EL by now destruct P'.
    destruct (cov_run (prm_of A Q b0 b1 h0 h1 r dt) n P') as [l'|] eqn:EL'; [|discriminate].
    cbn [option_map] in EL. assert (l = (k0, k1, P') :: l') by congruence. subst l. clear EL.
    cbn [sim_plots]. change (nt_int nt i) with (@Ok T (of_int i)); change (nt_lt nt) with lt. rewrite bind_Ok.
    change (sc_mul (nt_sc nt) (of_int i) (kdt (prm_of A Q b0 b1 h0 h1 r dt))) with (@Ok T (mul (of_int i) dt)).
    rewrite bind_Ok.
    pose proof (LT 0%nat ltac:(lia)) as L0. cbn [Z.of_nat Nat.eqb negb] in L0. rewrite Z.add_0_r in L0. rewrite L0.
    eassert (X1 : process_noise nt (kdt (prm_of A Q b0 b1 h0 h1 r dt)) an g1 g2 = Ok [Some _; Some _]) by (cbv; reflexivity).
    rewrite X1, bind_Ok. clear X1.
    change (meas_noise nt mn g) with (@Ok T (mul mn g)). rewrite bind_Ok.
    match goal with |- context [Some ([Some ?a; Some ?b], ?v)] => generalize a b v end. intros w0 w1 v.
    destruct (sim_step_total A Q b0 b1 h0 h1 r dt P k0 k1 P' K x y c d t w0 w1 v EC)
      as (x' & y' & z & c' & d' & t' & ES).
    match goal with |- context [sim_step ?a ?b ?c ?d ?e] =>
      assert (ES' : sim_step a b c d e = Ok ([Some x'; Some y'], [Some z], st_of [Some k0; Some k1] P' c' d' t'))
        by exact ES; rewrite ES', bind_Ok end.
    change (at1 1 [Some z] 0) with (@Ok T z). rewrite bind_Ok.
    eassert (X2 : sim_record [Some x'; Some y'] (st_of [Some k0; Some k1] P' c' d' t') = Ok _) by (cbv; reflexivity).
    rewrite X2, bind_Ok. clear X2.
    destruct (IH draws (i + 1)%Z P' [Some k0; Some k1] x' y' c' d' t' l' EL') as (ps & EP & LP & MP).
    + cbn in LD. lia.
    + intros k Hk. specialize (LT (Datatypes.S k) ltac:(lia)).
      replace (i + 1 + Z.of_nat k)%Z with (i + Z.of_nat (Datatypes.S k))%Z by lia. exact LT.
    + rewrite EP, bind_Ok. eexists. split; [reflexivity|]. split; [cbn [List.length]; lia|].
      cbn [map]. rewrite MP. reflexivity.
Qed.

Definition q_of (a : T) : m4 :=
  let aa := mul a a in let dt := of_int 1 in
  let dt2 := mul dt dt in let dt3 := mul dt2 dt in let dt4 := mul dt3 dt in
  M4 (mul (div dt4 (of_int 4)) aa) (mul (div dt3 (of_int 2)) aa)
     (mul (div dt3 (of_int 2)) aa) (mul dt2 aa).
Definition sim_prm (a : T) : kparams T :=
  prm_of (M4 (of_int 1) (of_int 1) (of_int 0) (of_int 1)) (q_of a)
    (div (mul (of_int 1) (of_int 1)) (of_int 2)) (of_int 1) (of_int 1) (of_int 0)
    (mul (of_int 10) (of_int 10)) (of_int 1).

Lemma setup_total a :
  sim_setup nt a = Ok (of_int 50, sim_prm a, cells (q_of a), [Some (of_int 0); Some (of_int 0)]).
Proof. cbv. reflexivity. Qed.

(** The whole output: what is printed of the gain and of the covariance is determined by
    [cov_run]. *)
Lemma sim_text_total (show : T -> string) (a : T) draws l :
  cov_run (sim_prm a) 50 (q_of a) = Some l -> (50 <= List.length draws)%nat ->
  (forall k, (k <= 50)%nat -> lt (mul (of_int (Z.of_nat k)) (of_int 1)) (of_int 50) = negb (Nat.eqb k 50)) ->
  exists pos posmeas poshat vel velhat : list T,
    (List.length pos = 50 /\ List.length posmeas = 50 /\ List.length poshat = 50 /\
     List.length vel = 50 /\ List.length velhat = 50)%nat /\
    forall tA tB tH tQ,
    show_matrix show 2 2 (kA (sim_prm a)) = Ok tA -> show_matrix show 2 1 (kB (sim_prm a)) = Ok tB ->
    show_matrix show 1 2 (kH (sim_prm a)) = Ok tH -> show_matrix show 2 2 (kQ (sim_prm a)) = Ok tQ ->
    sim_text nt show a draws = Ok (Some (
     (nl ++ "A = % System dynamics matrix (state-k-1 => state-k)" ++ nl ++ tA ++
      nl ++ "B = % Control input matrix (control => state)" ++ nl ++ tB ++
      nl ++ "H = % Measurement output matrix (state => measurement estimation)" ++ nl ++ tH ++
      nl ++ "R = " ++ show (mul (of_int 10) (of_int 10)) ++ " % Measurement noise covariance" ++ nl ++
      nl ++ "Q = % Process noise covariance" ++ nl ++ tQ) ++
      nl ++ "pos = " ++ show_vector show pos ++ nl ++ "posmeas = " ++ show_vector show posmeas ++
      nl ++ "poshat = " ++ show_vector show poshat ++
      nl ++ "posgain = " ++ show_vector show (map (fun q => fst (fst q)) l) ++
      nl ++ "posecov = " ++ show_vector show (map (fun q => e00 (snd q)) l) ++
      nl ++ "vel = " ++ show_vector show vel ++ nl ++ "velhat = " ++ show_vector show velhat ++
      nl ++ "velgain = " ++ show_vector show (map (fun q => snd (fst q)) l) ++
      nl ++ "velecov = " ++ show_vector show (map (fun q => e01 (snd q)) l))).
Proof.
  intros EL LD LT.
  destruct (sim_plots_total (M4 (of_int 1) (of_int 1) (of_int 0) (of_int 1)) (q_of a)
    (div (mul (of_int 1) (of_int 1)) (of_int 2)) (of_int 1) (of_int 1) (of_int 0)
    (mul (of_int 10) (of_int 10)) (of_int 1) (of_int 50) (of_int 10) a 50 draws 0%Z (q_of a) (kK (kalman_init S false 1 (cells (q_of a)) [Some (of_int 0); Some (of_int 0)]))
    (of_int 0) (of_int 0) (of_int 0) (of_int 0) (kt (kalman_init S false 1 (cells (q_of a)) [Some (of_int 0); Some (of_int 0)])) l EL LD) as (ps & EP & LP & MP).
  { intros k Hk. rewrite Z.add_0_l. exact (LT k Hk). }
  exists (map (fun p => p_pos (snd p)) ps), (map fst ps), (map (fun p => p_poshat (snd p)) ps),
    (map (fun p => p_vel (snd p)) ps), (map (fun p => p_velhat (snd p)) ps).
  split; [rewrite !map_length; auto|]. intros tA tB tH tQ HA HB HH HQ.
  unfold sim_text. rewrite setup_total, bind_Ok.
  change (nt_int nt 10) with (@Ok T (of_int 10)). rewrite bind_Ok.
  rewrite HA, bind_Ok, HB, bind_Ok, HH, bind_Ok, HQ, bind_Ok.
  change (at1 1 (kR (sim_prm a)) 0) with (@Ok T (mul (of_int 10) (of_int 10))). rewrite bind_Ok.
  match goal with |- context [sim_plots ?a1 ?a2 ?a3 ?a4 ?a5 ?a6 ?a7 ?a8 ?a9] =>
    assert (EP' : sim_plots a1 a2 a3 a4 a5 a6 a7 a8 a9 = Ok (Some ps)) by exact EP; rewrite EP', bind_Ok end.
  pose proof (f_equal (map (fun t => fst (fst (fst t)))) MP) as M1.
  pose proof (f_equal (map (fun t => snd (fst (fst t)))) MP) as M2.
  pose proof (f_equal (map (fun t => snd (fst t))) MP) as M3.
  pose proof (f_equal (map (fun t => snd t)) MP) as M4'.
  rewrite !map_map in M1, M2, M3, M4'. cbn [fst snd] in M1, M2, M3, M4'.
  rewrite M1, M2, M3, M4'. reflexivity.
Qed.
End Total.

(** ** The recorded output *)

(** example/desktop/kalman-sim.out.txt:1-17. *)
Definition recorded_head : string :=
  "" ++ nl ++
  "A = % System dynamics matrix (state-k-1 => state-k)" ++ nl ++
  " 1 1" ++ nl ++
  " 0 1" ++ nl ++
  "" ++ nl ++
  "B = % Control input matrix (control => state)" ++ nl ++
  " 0.5" ++ nl ++
  " 1" ++ nl ++
  "" ++ nl ++
  "H = % Measurement output matrix (state => measurement estimation)" ++ nl ++
  " 1 0" ++ nl ++
  "" ++ nl ++
  "R = 100 % Measurement noise covariance" ++ nl ++
  "" ++ nl ++
  "Q = % Process noise covariance" ++ nl ++
  " 0.01 0.02" ++ nl ++
  " 0.02 0.04" ++ nl ++
  "".
(** example/desktop/kalman-sim.out.txt:25. *)
Definition recorded_posgain : string :=
  "[ 0.000999001 0.00348458 0.00829591 0.0160443 0.0270893 0.0413959 0.0584332 0.0771904 " ++
  "0.0963497 0.114574 0.130789 0.144358 0.155093 0.163155 0.168917 0.172834 0.175354 " ++
  "0.176873 0.177713 0.178122 0.178283 0.178322 0.178323 0.178336 0.178387 0.178487 " ++
  "0.178635 0.178822 0.179039 0.179272 0.179512 0.179748 0.179972 0.180179 0.180366 " ++
  "0.18053 0.18067 0.180789 0.180887 0.180965 0.181028 0.181076 0.181113 0.18114 0.18116 " ++
  "0.181173 0.181182 0.181188 0.181192 0.181194]".
(** example/desktop/kalman-sim.out.txt:27. *)
Definition recorded_posecov : string :=
  "[ 0.0999001 0.348458 0.829591 1.60443 2.70893 4.13959 5.84332 7.71904 9.63497 11.4574 " ++
  "13.0789 14.4358 15.5093 16.3155 16.8917 17.2834 17.5354 17.6873 17.7713 17.8122 17.8283 " ++
  "17.8322 17.8323 17.8336 17.8387 17.8487 17.8635 17.8822 17.9039 17.9272 17.9512 17.9748 " ++
  "17.9972 18.0179 18.0366 18.053 18.067 18.0789 18.0887 18.0965 18.1028 18.1076 18.1113 " ++
  "18.114 18.116 18.1173 18.1182 18.1188 18.1192 18.1194]".
(** example/desktop/kalman-sim.out.txt:33. *)
Definition recorded_velgain : string :=
  "[ 0.000799201 0.00179229 0.00316198 0.00486865 0.00684016 0.00896681 0.0111075 " ++
  "0.0131099 0.0148403 0.0162115 0.0171962 0.0178215 0.0181505 0.0182611 0.0182286 " ++
  "0.0181159 0.0179704 0.0178245 0.0176979 0.0176007 0.0175363 0.0175038 0.0174993 " ++
  "0.0175178 0.0175537 0.0176016 0.0176565 0.0177144 0.0177719 0.0178265 0.0178767 " ++
  "0.0179213 0.01796 0.0179925 0.0180193 0.0180408 0.0180577 0.0180705 0.01808 0.0180868 " ++
  "0.0180915 0.0180946 0.0180964 0.0180974 0.0180978 0.0180978 0.0180976 0.0180974 " ++
  "0.0180971 0.0180968]".
(** example/desktop/kalman-sim.out.txt:35. *)
Definition recorded_velecov : string :=
  "[ 0.0799201 0.179229 0.316198 0.486865 0.684016 0.896681 1.11075 1.31099 1.48403 " ++
  "1.62115 1.71962 1.78215 1.81505 1.82611 1.82286 1.81159 1.79704 1.78245 1.76979 1.76007 " ++
  "1.75363 1.75038 1.74993 1.75178 1.75537 1.76016 1.76565 1.77144 1.77719 1.78265 1.78767 " ++
  "1.79213 1.796 1.79925 1.80193 1.80408 1.80577 1.80705 1.808 1.80868 1.80915 1.80946 " ++
  "1.80964 1.80974 1.80978 1.80978 1.80976 1.80974 1.80971 1.80968]".

Notation DN := (ieee_numeric 53 1024).
Notation dint := (ieee_of_Z 53 1024).
Notation d_cov_run := (@cov_run double (B754_zero false) (dint 1) (Bplus mode_NE) (Bminus mode_NE) (Bmult mode_NE)
  (Bdiv mode_NE) Bopp (fun a => match a with B754_zero _ => false | _ => true end)).


Notation d_prm := (@sim_prm double (Bmult mode_NE) (Bdiv mode_NE) dint).
Notation d_q := (@q_of double (Bmult mode_NE) (Bdiv mode_NE) dint).

Lemma printed_cov :
  option_map (fun l => (@show_vector double show_float (map (fun q : double * double * @m4 double => fst (fst q)) l),
                        @show_vector double show_float (map (fun q : double * double * @m4 double => e00 (snd q)) l),
                        @show_vector double show_float (map (fun q : double * double * @m4 double => snd (fst q)) l),
                        @show_vector double show_float (map (fun q : double * double * @m4 double => e01 (snd q)) l)))
    (d_cov_run (d_prm (literal 2 10)) 50 (d_q (literal 2 10)))
  = Some (recorded_posgain, recorded_posecov, recorded_velgain, recorded_velecov).
Proof. vm_compute. reflexivity. Qed.

Lemma printed_A : show_matrix show_float 2 2 (kA (d_prm (literal 2 10))) = Ok (" 1 1" ++ nl ++ " 0 1" ++ nl).
Proof. vm_compute. reflexivity. Qed.
Lemma printed_B : show_matrix show_float 2 1 (kB (d_prm (literal 2 10))) = Ok (" 0.5" ++ nl ++ " 1" ++ nl).
Proof. vm_compute. reflexivity. Qed.
Lemma printed_H : show_matrix show_float 1 2 (kH (d_prm (literal 2 10))) = Ok (" 1 0" ++ nl).
Proof. vm_compute. reflexivity. Qed.
Lemma printed_Q : show_matrix show_float 2 2 (kQ (d_prm (literal 2 10))) = Ok (" 0.01 0.02" ++ nl ++ " 0.02 0.04" ++ nl).
Proof. vm_compute. reflexivity. Qed.
Lemma printed_R : show_float (Bmult mode_NE (dint 10) (dint 10)) = "100".
Proof. vm_compute. reflexivity. Qed.
Lemma tested_time : forallb (fun k => Bool.eqb (Bltb (Bmult mode_NE (dint (Z.of_nat k)) (dint 1)) (dint 50))
    (negb (Nat.eqb k 50))) (seq 0 51) = true.
Proof. vm_compute. reflexivity. Qed.

Lemma printed_inv {A B C D E} (o : option A) (f : A -> B * C * D * E) b c d e :
  option_map f o = Some (b, c, d, e) ->
  exists l, o = Some l /\ fst (fst (fst (f l))) = b /\ snd (fst (fst (f l))) = c /\
    snd (fst (f l)) = d /\ snd (f l) = e.
Proof.
  destruct o as [l|]; cbn [option_map]; [|discriminate]. intros H. exists l.
  assert (X : f l = (b, c, d, e)) by congruence. rewrite X. auto.
Qed.

(** C138. Whatever the random numbers are, the program prints the matrices, gains and
    covariances that are recorded in kalman-sim.out.txt, digit for digit. *)
Theorem C138_recorded_output : forall draws : list (double * double * double),
  (50 <= List.length draws)%nat ->
  exists pos posmeas poshat vel velhat : list double,
    (List.length pos = 50 /\ List.length posmeas = 50 /\ List.length poshat = 50 /\
     List.length vel = 50 /\ List.length velhat = 50)%nat /\
    sim_text DN show_float (literal 2 10) draws = Ok (Some (recorded_head ++
      nl ++ "pos = " ++ show_vector show_float pos ++ nl ++ "posmeas = " ++ show_vector show_float posmeas ++
      nl ++ "poshat = " ++ show_vector show_float poshat ++
      nl ++ "posgain = " ++ recorded_posgain ++ nl ++ "posecov = " ++ recorded_posecov ++
      nl ++ "vel = " ++ show_vector show_float vel ++ nl ++ "velhat = " ++ show_vector show_float velhat ++
      nl ++ "velgain = " ++ recorded_velgain ++ nl ++ "velecov = " ++ recorded_velecov)).
Proof.
  intros draws LD.
  destruct (printed_inv _ _ _ _ _ _ printed_cov) as (l & EL & R1 & R2 & R3 & R4).
  cbn [fst snd] in R1, R2, R3, R4.
  destruct (@sim_text_total double (B754_zero false) (dint 1) (Bplus mode_NE) (Bminus mode_NE) (Bmult mode_NE)
    (Bdiv mode_NE) Bopp (fun a => match a with B754_zero _ => false | _ => true end) dint (fun a b => Bltb a b)
    show_float (literal 2 10) draws l EL LD) as (pos & posmeas & poshat & vel & velhat & LL & E).
  { intros k Hk. pose proof tested_time as X. rewrite forallb_forall in X.
    assert (HI : In k (seq 0 51)) by (apply in_seq; lia).
    apply X in HI. apply Bool.eqb_prop in HI. exact HI. }
  exists pos, posmeas, poshat, vel, velhat. split; [exact LL|].
  pose proof (E _ _ _ _ printed_A printed_B printed_H printed_Q) as E'.
  rewrite R1, R2, R3, R4, printed_R in E'. exact E'.
Qed.
Print Assumptions C138_recorded_output.

(** Fewer random numbers are not enough: the program makes 50 passes. *)
Example C138_case : (50 <= List.length (repeat (dint 1, dint (-1), dint 2) 50))%nat /\
  match sim_text DN show_float (literal 2 10) (repeat (dint 1, dint (-1), dint 2) 49) with
  | Ok None => true | _ => false end = true.
Proof. split; [rewrite repeat_length; lia|]. vm_compute. reflexivity. Qed.

(** ** The recorded estimates *)

(** example/desktop/kalman-sim.out.txt:21, numerators and denominators. *)
Definition recorded_posmeas : list (Z * Z) :=
  [(-182285, 10000); (-62886, 10000); (164017, 10000); (186002, 100000); (383663, 100000); 
   (131817, 10000); (203417, 10000); (306843, 10000); (372684, 10000); (53567, 1000); 
   (430297, 10000); (656315, 10000); (904069, 10000); (775341, 10000); (101701, 1000); 
   (114165, 1000); (153305, 1000); (152981, 1000); (184146, 1000); (204109, 1000); (233352, 1000); 
   (233794, 1000); (263873, 1000); (285221, 1000); (330032, 1000); (336344, 1000); (368444, 1000); 
   (405238, 1000); (408923, 1000); (460571, 1000); (488804, 1000); (516139, 1000); (562987, 1000); 
   (57089, 100); (636275, 1000); (665735, 1000); (690596, 1000); (732202, 1000); (784532, 1000); 
   (818786, 1000); (863582, 1000); (908869, 1000); (943461, 1000); (975954, 1000); (103039, 100); 
   (10687, 10); (110982, 100); (116431, 100); (120333, 100); (124917, 100)]%Z.
(** example/desktop/kalman-sim.out.txt:23, numerators and denominators. *)
Definition recorded_poshat : list (Z * Z) :=
  [(48129, 100000); (193756, 100000); (450729, 100000); (79167, 10000); (121631, 10000); 
   (174005, 10000); (235798, 10000); (309034, 10000); (390521, 10000); (489581, 10000); 
   (572173, 10000); (679409, 10000); (816192, 10000); (920442, 10000); (105258, 1000); 
   (119089, 1000); (138078, 1000); (154776, 1000); (174833, 1000); (195865, 1000); (219329, 1000); 
   (239756, 1000); (262621, 1000); (286059, 1000); (314117, 1000); (339396, 1000); (366661, 1000); 
   (396483, 1000); (422604, 1000); (453875, 1000); (485542, 1000); (51731, 100); (552591, 1000); 
   (583948, 1000); (622024, 1000); (659624, 1000); (695853, 1000); (733777, 1000); (775098, 1000); 
   (81613, 100); (858711, 1000); (90269, 100); (945899, 1000); (987942, 1000); (103283, 100); 
   (10773, 10); (112183, 100); (116877, 100); (1215, 1); (126178, 100)]%Z.
(** example/desktop/kalman-sim.out.txt:31, numerators and denominators. *)
Definition recorded_velhat : list (Z * Z) :=
  [(985032, 1000000); (197024, 100000); (300816, 100000); (397819, 100000); (491965, 100000); 
   (588019, 100000); (684199, 100000); (783888, 100000); (880958, 100000); (989397, 100000); 
   (106133, 10000); (115652, 10000); (12754, 1000); (134373, 10000); (143593, 10000); 
   (152515, 10000); (165833, 10000); (175444, 10000); (187449, 10000); (199214, 10000); 
   (212207, 10000); (220937, 10000); (231204, 10000); (241025, 10000); (254425, 10000); 
   (263771, 10000); (274154, 10000); (286043, 10000); (293081, 10000); (304536, 10000); 
   (315246, 10000); (32499, 1000); (337268, 10000); (344402, 10000); (357535, 10000); 
   (36888, 1000); (377722, 10000); (387374, 10000); (399457, 10000); (410043, 10000); 
   (421119, 10000); (432484, 10000); (441946, 10000); (449296, 10000); (458757, 10000); 
   (466855, 10000); (474201, 10000); (483216, 10000); (490636, 10000); (49785, 1000)]%Z.

Definition rational (p : Z * Z) : double := literal (fst p) (snd p).

(** The estimates the estimator makes of the recorded measurements. *)
Definition estimates : option (list (double * double)) :=
  match sim_setup DN (literal 2 10) with
  | Ok (_, prm, P, x) =>
      (fix go (zs : list (Z * Z)) (st : kstate double) : option (list (double * double)) :=
         match zs with
         | [] => Some []
         | z :: zs' => match update double_scalar 1 1 prm st [Some (dint 1)] [Some (rational z)] with
                       | Ok st' => match kx st' with
                                   | [Some a; Some b] => option_map (cons (a, b)) (go zs' st')
                                   | _ => None end
                       | Err _ => None end
         end) recorded_posmeas (kalman_init double_scalar false 1 P x)
  | Err _ => None
  end.

(** [a] is within n/d of the recorded [p]. *)
Definition close (n d : Z) (a : double) (p : Z * Z) : bool :=
  Bltb (Babs (Bminus mode_NE a (rational p))) (literal n d).

(** The recorded positions and velocities are those the model of the estimator calculates
    from the recorded measurements, as far as the recorded six digits tell: the recorded
    measurements are rounded by up to 0.005. *)
Example C138_recorded_estimates :
  match estimates with
  | Some l => List.length l = 50%nat /\
      forallb (fun q => close 1 100 (fst (fst q)) (snd q)) (combine l recorded_poshat) = true /\
      forallb (fun q => close 1 1000 (snd (fst q)) (snd q)) (combine l recorded_velhat) = true
  | None => False
  end.
Proof. vm_compute. auto. Qed.
