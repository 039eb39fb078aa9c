(** * C165: what covariance-error.e.cpp prints *)
From Coq Require Import ZArith List Bool Ascii String Lia.
From Flocq Require Import Core IEEE754.BinarySingleNaN.
From Verif Require Import Base Matrix Kalman KalmanSim Ieee KalmanIeee Output CovText.
Import List ListNotations.
Local Open Scope string_scope.

(** The program has no input; these are the lines it prints. *)
Definition cov_lines : list string :=
  ["";
   "dt:0 P:";
   " 0.01 0.02";
   " 0.02 0.04";
   "";
   "dt:0 PJ:";
   " 0.01 0.02";
   " 0.02 0.04";
   "";
   "dt:1 P:";
   " -0.001 -0.002";
   " 0.009 0.018";
   "";
   "dt:1 PJ:";
   " 0.023816 0.022816";
   " 0.022816 0.031816";
   "";
   "dt:2 P:";
   " -0.0004 -0.0008";
   " 0.0096 0.0192";
   "";
   "dt:2 PJ:";
   " 0.0108666 0.0104666";
   " 0.0104666 0.0200666";
   "";
   "dt:3 P:";
   " -0.00026 -0.00052";
   " 0.00974 0.01948";
   "";
   "dt:3 PJ:";
   " 0.00699212 0.00673212";
   " 0.00673212 0.0164721";
   "";
   "dt:4 P:";
   " -0.0002015 -0.000403";
   " 0.0097985 0.019597";
   "";
   "dt:4 PJ:";
   " 0.00519189 0.00499039";
   " 0.00499039 0.0147889";
   "";
   "dt:5 P:";
   " -0.000168756 -0.000337513";
   " 0.00983124 0.0196625";
   "";
   "dt:5 PJ:";
   " 0.00415919 0.00399043";
   " 0.00399043 0.0138217";
   "";
   "dt:6 P:";
   " -0.000146607 -0.000293214";
   " 0.00985339 0.0197068";
   "";
   "dt:6 PJ:";
   " 0.00347669 0.00333008";
   " 0.00333008 0.0131835";
   "";
   "dt:7 P:";
   " -0.000129656 -0.000259311";
   " 0.00987034 0.0197407";
   "";
   "dt:7 PJ:";
   " 0.00298122 0.00285157";
   " 0.00285157 0.0127219";
   "";
   "dt:8 P:";
   " -0.000115677 -0.000231354";
   " 0.00988432 0.0197686";
   "";
   "dt:8 PJ:";
   " 0.00260087 0.00248519";
   " 0.00248519 0.0123695";
   "";
   "dt:9 P:";
   " -0.000103657 -0.000207315";
   " 0.00989634 0.0197927";
   "";
   "dt:9 PJ:";
   " 0.00230007 0.00219641";
   " 0.00219641 0.0120928"].

(** The text of lines, each ended by a newline. *)
Definition text_of_lines (l : list string) : string :=
  fold_right (fun x r => x ++ String "010" r) "" l.

Lemma cov_text_loop_more H R dt f f' : (f <= f')%nat -> forall k t PP s,
  cov_text_loop H R dt f k t PP = Ok (Some s) -> cov_text_loop H R dt f' k t PP = Ok (Some s).
Proof.
  revert f'. induction f as [|f IH]; intros f' L k t PP s E; destruct f' as [|f']; try lia; auto.
  - cbn [cov_text_loop] in *. destruct (Bltb _ _); [discriminate E|exact E].
  - cbn [cov_text_loop] in *. destruct (Bltb _ _); [|exact E].
    destruct (cov_print t PP) as [p|]; [|discriminate E]. cbn [bind] in *.
    destruct (cov_step _ _ _ _ _) as [PP'|]; [|discriminate E]. cbn [bind] in *.
    destruct (cov_text_loop H R dt f _ _ PP') as [[r|]|] eqn:E'; try discriminate E.
    rewrite (IH f' ltac:(lia) _ _ _ _ E'). exact E.
Qed.

Lemma cov_text_more f f' s : (f <= f')%nat -> cov_text f = Ok (Some s) -> cov_text f' = Ok (Some s).
Proof.
  intros L E. unfold cov_text in *. destruct (cov_setup _ _ _ _ _) as [[[H r] P]|]; [|discriminate E].
  cbn [bind] in *. revert E. apply cov_text_loop_more. exact L.
Qed.

Lemma cov_text_10 : cov_text 10 = Ok (Some (text_of_lines cov_lines)).
Proof. vm_compute. reflexivity. Qed.

(** It ends after ten passes and prints exactly these lines; with fewer it has not ended. *)
Theorem C165_text : forall fuel,
  cov_text fuel = Ok (if (10 <=? fuel)%nat then Some (text_of_lines cov_lines) else None).
Proof.
  intros fuel. destruct (Nat.leb_spec 10 fuel) as [L|L].
  - exact (cov_text_more 10 fuel _ L cov_text_10).
  - do 10 (destruct fuel as [|fuel]; [vm_compute; reflexivity|]). lia.
Qed.
Print Assumptions C165_text.

(** The second block shows a negative variance in the short form, a positive one in Joseph's. *)
Example C165_case :
  nth 9 cov_lines "" = "dt:1 P:" /\ nth 10 cov_lines "" = " -0.001 -0.002" /\
  nth 13 cov_lines "" = "dt:1 PJ:" /\ nth 14 cov_lines "" = " 0.023816 0.022816" /\
  length cov_lines = 80%nat /\ cov_text 3 = Ok None.
Proof. vm_compute. repeat split; reflexivity. Qed.
