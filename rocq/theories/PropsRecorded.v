(** * The recorded run of the simulation

    C138 of properties.jsonl: the whole of example/desktop/kalman-sim.out.txt is an output of
    the model of example/desktop/kalman-sim.e.cpp. *)

From Coq Require Import Reals Bool Ascii String List ZArith Lia Lra.
From Flocq Require Import Core BinarySingleNaN.
From Verif Require Import Base Matrix Scalars Kalman KalmanProofs KalmanSim Ieee KalmanIeee Output PropsOutputSim SimRoundingSpec SimRoundingProofs.
Import ListNotations.
Local Open Scope bool_scope.
Local Open Scope string_scope.

(** example/desktop/kalman-sim.out.txt, all lines. *)
Definition recorded_file : string :=
  "" ++ nl ++
  "A = % System dynamics matrix (state-k-1 => state-k)" ++ nl ++
  " 1 1" ++ nl ++
  " 0 1" ++ nl ++
  "" ++ nl ++
  "B = % Control input matrix (control => state)" ++ nl ++
  " 0.5" ++ nl ++
  " 1" ++ nl ++
  "" ++ nl ++
  "H = % Measurement output matrix (state => measurement estimation)" ++ nl ++
  " 1 0" ++ nl ++
  "" ++ nl ++
  "R = 100 % Measurement noise covariance" ++ nl ++
  "" ++ nl ++
  "Q = % Process noise covariance" ++ nl ++
  " 0.01 0.02" ++ nl ++
  " 0.02 0.04" ++ nl ++
  "" ++ nl ++
  "pos = [ 0.485362 1.99084 4.65604 8.11278 12.7237 18.0076 24.0517 31.2996 39.7011 49.172 " ++
    "59.8896 71.4555 84.1664 98.0347 112.856 128.963 145.757 163.356 181.713 201.385 222.798 " ++
    "244.606 267.455 291.568 316.46 342.43 369.357 397.385 426.667 456.705 488.04 519.976 " ++
    "552.886 586.381 621.012 656.869 693.419 730.832 769.387 808.954 849.385 890.719 933.305 " ++
    "976.58 1020.89 1066.24 1112.3 1159.03 1206.47 1254.82]" ++ nl ++
  "" ++ nl ++
  "posmeas = [ -18.2285 -6.2886 16.4017 1.86002 3.83663 13.1817 20.3417 30.6843 37.2684 " ++
    "53.567 43.0297 65.6315 90.4069 77.5341 101.701 114.165 153.305 152.981 184.146 204.109 " ++
    "233.352 233.794 263.873 285.221 330.032 336.344 368.444 405.238 408.923 460.571 488.804 " ++
    "516.139 562.987 570.89 636.275 665.735 690.596 732.202 784.532 818.786 863.582 908.869 " ++
    "943.461 975.954 1030.39 1068.7 1109.82 1164.31 1203.33 1249.17]" ++ nl ++
  "" ++ nl ++
  "poshat = [ 0.48129 1.93756 4.50729 7.9167 12.1631 17.4005 23.5798 30.9034 39.0521 " ++
    "48.9581 57.2173 67.9409 81.6192 92.0442 105.258 119.089 138.078 154.776 174.833 195.865 " ++
    "219.329 239.756 262.621 286.059 314.117 339.396 366.661 396.483 422.604 453.875 485.542 " ++
    "517.31 552.591 583.948 622.024 659.624 695.853 733.777 775.098 816.13 858.711 902.69 " ++
    "945.899 987.942 1032.83 1077.3 1121.83 1168.77 1215 1261.78]" ++ nl ++
  "" ++ nl ++
  "posgain = [ 0.000999001 0.00348458 0.00829591 0.0160443 0.0270893 0.0413959 0.0584332 " ++
    "0.0771904 0.0963497 0.114574 0.130789 0.144358 0.155093 0.163155 0.168917 0.172834 " ++
    "0.175354 0.176873 0.177713 0.178122 0.178283 0.178322 0.178323 0.178336 0.178387 " ++
    "0.178487 0.178635 0.178822 0.179039 0.179272 0.179512 0.179748 0.179972 0.180179 " ++
    "0.180366 0.18053 0.18067 0.180789 0.180887 0.180965 0.181028 0.181076 0.181113 0.18114 " ++
    "0.18116 0.181173 0.181182 0.181188 0.181192 0.181194]" ++ nl ++
  "" ++ nl ++
  "posecov = [ 0.0999001 0.348458 0.829591 1.60443 2.70893 4.13959 5.84332 7.71904 9.63497 " ++
    "11.4574 13.0789 14.4358 15.5093 16.3155 16.8917 17.2834 17.5354 17.6873 17.7713 17.8122 " ++
    "17.8283 17.8322 17.8323 17.8336 17.8387 17.8487 17.8635 17.8822 17.9039 17.9272 17.9512 " ++
    "17.9748 17.9972 18.0179 18.0366 18.053 18.067 18.0789 18.0887 18.0965 18.1028 18.1076 " ++
    "18.1113 18.114 18.116 18.1173 18.1182 18.1188 18.1192 18.1194]" ++ nl ++
  "" ++ nl ++
  "vel = [ 1.02691 2.05965 3.06169 4.19383 4.682 5.55621 6.97798 7.76611 8.95118 10.153 " ++
    "11.1273 12.2213 13.2512 14.4668 15.4941 16.1461 17.0006 18.0659 19.1437 20.727 21.308 " ++
    "22.389 23.5742 24.4603 25.5011 26.4251 27.6898 28.7462 29.6918 30.6811 31.6034 32.4234 " ++
    "32.9486 34.1836 35.3958 36.022 36.9358 38.0719 39.064 39.9903 40.9038 41.9534 42.7836 " ++
    "43.7657 44.665 45.4781 46.3206 47.0635 47.9842 49.1751]" ++ nl ++
  "" ++ nl ++
  "velhat = [ 0.985032 1.97024 3.00816 3.97819 4.91965 5.88019 6.84199 7.83888 8.80958 " ++
    "9.89397 10.6133 11.5652 12.754 13.4373 14.3593 15.2515 16.5833 17.5444 18.7449 19.9214 " ++
    "21.2207 22.0937 23.1204 24.1025 25.4425 26.3771 27.4154 28.6043 29.3081 30.4536 31.5246 " ++
    "32.499 33.7268 34.4402 35.7535 36.888 37.7722 38.7374 39.9457 41.0043 42.1119 43.2484 " ++
    "44.1946 44.9296 45.8757 46.6855 47.4201 48.3216 49.0636 49.785]" ++ nl ++
  "" ++ nl ++
  "velgain = [ 0.000799201 0.00179229 0.00316198 0.00486865 0.00684016 0.00896681 " ++
    "0.0111075 0.0131099 0.0148403 0.0162115 0.0171962 0.0178215 0.0181505 0.0182611 " ++
    "0.0182286 0.0181159 0.0179704 0.0178245 0.0176979 0.0176007 0.0175363 0.0175038 " ++
    "0.0174993 0.0175178 0.0175537 0.0176016 0.0176565 0.0177144 0.0177719 0.0178265 " ++
    "0.0178767 0.0179213 0.01796 0.0179925 0.0180193 0.0180408 0.0180577 0.0180705 0.01808 " ++
    "0.0180868 0.0180915 0.0180946 0.0180964 0.0180974 0.0180978 0.0180978 0.0180976 " ++
    "0.0180974 0.0180971 0.0180968]" ++ nl ++
  "" ++ nl ++
  "velecov = [ 0.0799201 0.179229 0.316198 0.486865 0.684016 0.896681 1.11075 1.31099 " ++
    "1.48403 1.62115 1.71962 1.78215 1.81505 1.82611 1.82286 1.81159 1.79704 1.78245 1.76979 " ++
    "1.76007 1.75363 1.75038 1.74993 1.75178 1.75537 1.76016 1.76565 1.77144 1.77719 1.78265 " ++
    "1.78767 1.79213 1.796 1.79925 1.80193 1.80408 1.80577 1.80705 1.808 1.80868 1.80915 " ++
    "1.80946 1.80964 1.80974 1.80978 1.80978 1.80976 1.80974 1.80971 1.80968]" ++ nl ++
  "".

(** Random numbers, in units of 10^-9. *)
Definition recorded_draws : list (double * double * double) :=
  map (fun d : Z * Z * Z => (literal (fst (fst d)) (10 ^ 9), literal (snd (fst d)) (10 ^ 9), literal (snd d) (10 ^ 9)))
  [(-146380000, 134550000, -1871386265); (-214320000, 163700000, -827944149); (1055500000,
   10200000, 1174565730); (-1049500000, 660700000, -625276429); (-829100000, -2559150000,
   -888707411); (1019000000, -628950000, -482590870); (-121100000, 2108850000, -371001154);
   (-2300800000, -1059350000, -61531482); (1353900000, 925350000, -243271854); (197200000,
   1009100000, 439499099); (646000000, -128500000, -1685991072); (-614000000, 470000000,
   -582401254); (-104000000, 149500000, 624048553); (1171000000, 1078000000, -2050061648);
   (-1455000000, 136500000, -1115501854); (1129000000, -1740000000, -1479796763); (1479000000,
   -727500000, 754803532); (984000000, 326500000, -1037496190); (-2089000000, 389000000,
   243304059); (283000000, 2916500000, 272404268); (1860000000, -2095000000, 1055404425); (0,
   405000000, -1081195485); (-400000000, 926000000, -358211318); (388000000, -569500000,
   -634712789); (-683000000, 204000000, 1357185691); (-311000000, -380000000, -608615855);
   (19000000, 1323500000, -91309760); (-1618000000, 282000000, 785289404); (358000000, -272000000,
   -1774411385); (-1538000000, -53500000, 386587901); (1539000000, -388500000, 76387297);
   (-1674000000, -900000000, -383713160); (-134000000, -2374000000, 1010143435); (464000000,
   1175000000, -1549107347); (-526000000, 1061000000, 1526292879); (-388000000, -1869000000,
   886593313); (280000000, -431000000, -282306009); (-228000000, 680500000, 136994951);
   (-169000000, -39500000, 1514496237); (30000000, -368500000, 983197890); (-593000000, -432500000,
   1419699956); (-698000000, 248000000, 1815002481); (1326000000, -849000000, 1015601022);
   (-86000000, -89500000, -62595796); (443000000, -503500000, 950007997); (1850000000, -934500000,
   246012454); (819000000, -787500000, -247982378); (-906000000, -1285500000, 528023544);
   (-1235000000, -396500000, -313969743); (-1342000000, 954500000, -564962213)]%Z.

(** Each closing bracket followed by the end of the line. *)
Fixpoint lines_ended (s : string) : string :=
  match s with
  | EmptyString => ""
  | String c s' => if Ascii.eqb c "]"%char then String c (nl ++ lines_ended s') else String c (lines_ended s')
  end.

Lemma recorded_text : match sim_text DN show_float (literal 2 10) recorded_draws with
  | Ok (Some t) => lines_ended t = recorded_file | _ => False end.
Proof. vm_compute. reflexivity. Qed.

Lemma recorded_small : forallb (fun d : double * double * double =>
    let small x := is_finite x && Bleb (Babs x) (dint 10) in
    small (fst (fst d)) && small (snd (fst d)) && small (snd d)) recorded_draws = true.
Proof. vm_compute. reflexivity. Qed.

Lemma small_ok (x : double) : is_finite x && Bleb (Babs x) (dint 10) = true -> gauss_ok x.
Proof.
  intros H. apply andb_true_iff in H as [F B]. split; [exact F|].
  destruct (dint_value 10 ltac:(lia)) as (F10 & E10).
  rewrite Bleb_correct in B; [|rewrite is_finite_Babs; exact F|exact F10].
  rewrite B2R_Babs, E10 in B. revert B. case Rle_bool_spec; intros H B; [lra|discriminate].
Qed.

(** C138. There are random numbers, none above 10, with which the program prints the recorded
    file, digit for digit, except that the file has an end of line after each vector. *)
Theorem C138_recorded_run :
  exists draws t, List.length draws = 50%nat /\ Forall draw_ok draws /\
    sim_text DN show_float (literal 2 10) draws = Ok (Some t) /\ lines_ended t = recorded_file.
Proof.
  pose proof recorded_text as H.
  destruct (sim_text DN show_float (literal 2 10) recorded_draws) as [[t|]|] eqn:E; try contradiction.
  exists recorded_draws, t. split; [reflexivity|]. split; [|auto].
  apply Forall_forall. intros d HD. pose proof (proj1 (forallb_forall _ _) recorded_small d HD) as X. cbv beta zeta in X.
  apply andb_true_iff in X as [X X3]. apply andb_true_iff in X as [X1 X2].
  split; [now apply small_ok|]. split; now apply small_ok.
Qed.
Print Assumptions C138_recorded_run.

(** ** Without these ends of line the present program cannot print the file *)

Fixpoint last_char (s : string) : option ascii :=
  match s with
  | EmptyString => None
  | String c s' => match last_char s' with Some d => Some d | None => Some c end
  end.
Lemma last_app a b c : last_char b = Some c -> last_char (a ++ b) = Some c.
Proof. intros H. induction a as [|x a IH]; cbn; [exact H|]. now rewrite IH. Qed.

Theorem C138_recorded_file_refuted :
  ~ (exists draws : list (double * double * double), (50 <= List.length draws)%nat /\
     sim_text DN show_float (literal 2 10) draws = Ok (Some recorded_file)).
Proof.
  intros (draws & LD & E).
  destruct (C138_recorded_output draws LD) as (pos & posmeas & poshat & vel & velhat & _ & E').
  rewrite E in E'. apply Ok_inj in E'. apply (f_equal (fun o => match o with Some s => last_char s | None => None end)) in E'.
  cbv beta iota in E'. repeat (rewrite (last_app _ _ "]"%char) in E' by (repeat (apply last_app); vm_compute; reflexivity)).
  assert (X : last_char recorded_file = Some "010"%char) by (vm_compute; reflexivity).
  rewrite X in E'. discriminate.
Qed.
Print Assumptions C138_recorded_file_refuted.

(** A case: the first random numbers. *)
Example C138_recorded_case : option_map (fun d => map show_float [fst (fst d); snd (fst d); snd d]) (hd_error recorded_draws)
  = Some ["-0.14638"; "0.13455"; "-1.87139"].
Proof. vm_compute. reflexivity. Qed.
