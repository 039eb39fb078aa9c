(** * The AVR initializer list and matrices made from it

    C164 of properties.jsonl: utility.hpp, matrix.hpp. *)

From Coq Require Import List Arith ZArith Lia Bool.
From Verif Require Import Base Matrix MatrixSpec Scalars MatrixProofs Algorithm PropsCore InitList.
Import ListNotations.

(** ** Specification *)

(** The memory [m] holds [xs] from [p] on. *)
Definition holds {T} (m : list T) (p : nat) (xs : list T) : Prop :=
  exists before after, m = before ++ xs ++ after /\ length before = p.

Lemma skip_skip {T} a : forall b (l : list T), skipn a (skipn b l) = skipn (b + a) l.
Proof. induction b; intros [|x l]; cbn; try reflexivity; [apply skipn_nil|apply IHb]. Qed.
Lemma holds_iff {T} (m : list T) p xs :
  holds m p xs <-> p + length xs <= length m /\ forall i, i < length xs -> nth_error m (p + i) = nth_error xs i.
Proof.
  split.
  - intros (b & a & -> & <-). rewrite !app_length. split; [lia|]. intros i Hi.
    rewrite nth_error_app2 by lia. replace (length b + i - length b) with i by lia. now rewrite nth_error_app1.
  - intros (L & N). exists (firstn p m), (skipn (p + length xs) m). split; [|rewrite firstn_length; lia].
    rewrite <- (firstn_skipn p m) at 1. f_equal. rewrite <- (firstn_skipn (length xs) (skipn p m)). f_equal.
    + apply same_nth. intros i. destruct (Nat.lt_ge_cases i (length xs)) as [Hi|Hi].
      * rewrite <- N by assumption. rewrite <- (firstn_skipn p m) at 2. rewrite nth_error_app2 by (rewrite firstn_length; lia).
        rewrite firstn_length. replace (p + i - Nat.min p (length m)) with i by lia.
        rewrite <- (firstn_skipn (length xs) (skipn p m)) at 2. rewrite nth_error_app1; [reflexivity|]. rewrite firstn_length, skipn_length. lia.
      * rewrite !(proj2 (nth_error_None _ _)); [reflexivity|assumption|rewrite firstn_length; lia].
    + apply skip_skip.
Qed.

(** A list in braces: from [begin()] to [end()] are its elements, in order; [size()] tells how
    many.  An empty one is as good as a list made by default. *)
Theorem C164_elements : forall T (m : list T) p xs d,
  holds m p xs -> d + length xs <= length m -> (d + length xs <= p \/ p + length xs <= d) ->
  let l := il_make (Some p) (length xs) in
  il_size l = length xs /\ free_begin l = il_begin l /\ free_end l = il_end l /\
  exists e m', il_end l = Ok e /\ copy_pointers m (il_begin l) e d = Ok m' /\
    holds m' d xs /\ holds m' p xs /\ length m' = length m /\
    (forall i, ~ (d <= i < d + length xs) -> nth_error m' i = nth_error m i) /\
  il_size il_default = 0 /\ il_end il_default = Ok (il_begin il_default) /\
  copy_pointers m (il_begin il_default) (il_begin il_default) d = Ok m.
Proof.
  intros T m p xs d Hx Hd Dis l. apply holds_iff in Hx. destruct Hx as (L & N).
  split; [reflexivity|]. split; [reflexivity|]. split; [reflexivity|].
  destruct (C69_copy T m p (p + length xs) d ltac:(lia) ltac:(lia) ltac:(lia)) as (m' & E & L' & I & O).
  replace (p + length xs - p) with (length xs) in * by lia.
  exists (Some (p + length xs)), m'. split; [reflexivity|]. cbn [copy_pointers il_begin il_array l il_make]. rewrite E. split; [reflexivity|].
  split; [|split; [|split; [exact L'|split; [exact O|split; [reflexivity|split; reflexivity]]]]].
  - apply holds_iff. split; [lia|]. intros i Hi. rewrite I by assumption. apply N, Hi.
  - apply holds_iff. split; [lia|]. intros i Hi. rewrite O by lia. apply N, Hi.
Qed.
Print Assumptions C164_elements.

Example C164_elements_case :
  holds [9; 1; 2; 3; 0; 0; 0; 7] 1 [1; 2; 3] /\
  copy_pointers [9; 1; 2; 3; 0; 0; 0; 7] (Some 1) (Some 4) 4 = Ok [9; 1; 2; 3; 1; 2; 3; 7].
Proof. split; [|reflexivity]. exists [9], [0; 0; 0; 7]. split; reflexivity. Qed.

(** A matrix made from a list in braces: element after element, row by row, the rest zero; no
    other memory changes.  This is what the model of matrices says. *)
Theorem C164_matrix : forall T (S : scalar T) (m : list T) p xs q N M,
  holds m p xs -> q + N * M <= length m -> (q + N * M <= p \/ p + length xs <= q) -> length xs <= N * M ->
  exists m', matrix_from_list (sc_zero S) m q N M (il_make (Some p) (length xs)) = Ok m' /\
    holds m' q (xs ++ repeat (sc_zero S) (N * M - length xs)) /\ length m' = length m /\
    (forall i, ~ (q <= i < q + N * M) -> nth_error m' i = nth_error m i) /\
    mat_il S N M xs = Ok (map Some (firstn (N * M) (skipn q m'))) /\
    matrix_from_list (sc_zero S) m q N M il_default = matrix_from_list (sc_zero S) m q N M (il_make (Some q) 0).
Proof.
  intros T S m p xs q N M Hx Hq Dis Hl. apply holds_iff in Hx. destruct Hx as (L & Nx).
  destruct (C69_fill T m q (q + N * M) (sc_zero S) ltac:(lia)) as (m1 & E1 & L1 & N1).
  assert (H1 : holds m1 p xs).
  { apply holds_iff. split; [lia|]. intros i Hi. rewrite N1. destruct (Nat.leb_spec q (p + i)), (Nat.ltb_spec (p + i) (q + N * M)); cbn [andb]; try lia; apply Nx, Hi. }
  destruct (C164_elements T m1 p xs q H1 ltac:(lia) ltac:(lia)) as (_ & _ & _ & e & m' & Ee & Ec & Hq' & Hp' & L' & O' & _).
  exists m'. unfold matrix_from_list. rewrite E1. cbn [bind]. rewrite Ee. cbn [bind]. split; [exact Ec|].
  assert (LR : length (xs ++ repeat (sc_zero S) (N * M - length xs)) = N * M) by (rewrite app_length, repeat_length; lia).
  assert (H3 : holds m' q (xs ++ repeat (sc_zero S) (N * M - length xs))).
  { apply holds_iff. rewrite LR. split; [lia|]. intros i Hi. destruct (Nat.lt_ge_cases i (length xs)) as [Hi'|Hi'].
    - rewrite nth_error_app1 by assumption. apply holds_iff in Hq'. apply Hq', Hi'.
    - rewrite nth_error_app2, nth_error_repeat by lia. rewrite O', N1 by lia.
      destruct (Nat.leb_spec q (q + i)), (Nat.ltb_spec (q + i) (q + N * M)); cbn [andb]; try lia; reflexivity. }
  split; [exact H3|]. split; [lia|]. split; [|split].
  - intros i Hi. rewrite O', N1 by lia. destruct (Nat.leb_spec q i), (Nat.ltb_spec i (q + N * M)); cbn [andb]; try lia; reflexivity.
  - destruct H3 as (b & a & -> & <-). rewrite skipn_app, skipn_all, Nat.sub_diag. cbn [skipn app].
    rewrite firstn_app, LR, Nat.sub_diag. cbn [firstn]. rewrite app_nil_r, firstn_all2 by lia.
    unfold mat_il. destruct (copy_to_spec xs 0 (repeat (Some (sc_zero S)) (N * M))) as (mm & E & Lm & C & O); [rewrite repeat_length; lia|].
    cbn [Nat.add Z.of_nat] in E. rewrite E. f_equal. apply same_nth. intros i. rewrite repeat_length in Lm.
    destruct (Nat.lt_ge_cases i (length xs)) as [Hi|Hi].
    + destruct (nth_error xs i) as [x|] eqn:Ex; [|apply nth_error_None in Ex; lia]. pose proof (C i x Ex) as Cx. unfold cell in Cx. cbn [Nat.add] in Cx.
      rewrite Cx. symmetry. apply map_nth_error. rewrite nth_error_app1 by assumption. exact Ex.
    + rewrite O by lia. destruct (Nat.lt_ge_cases i (N * M)) as [Hi'|Hi'].
      * rewrite nth_error_repeat by assumption. symmetry. apply map_nth_error. rewrite nth_error_app2, nth_error_repeat by lia. reflexivity.
      * rewrite !(proj2 (nth_error_None _ _)); [reflexivity|rewrite map_length, LR; lia|rewrite repeat_length; lia].
  - cbn [bind il_end il_default il_begin il_size il_array il_count pointer_add copy_pointers il_make].
    unfold copy. cbn [copy_loop]. rewrite Nat.add_0_r, Nat.eqb_refl. reflexivity.
Qed.
Print Assumptions C164_matrix.

(** More elements than the matrix has: the memory behind its storage is overwritten with the
    surplus (undefined behaviour, which the model of matrices reports). *)
Theorem C164_surplus : forall T (S : scalar T) (m : list T) p xs q N M,
  holds m p xs -> q + length xs <= length m -> (q + length xs <= p \/ p + length xs <= q) -> N * M < length xs ->
  exists m', matrix_from_list (sc_zero S) m q N M (il_make (Some p) (length xs)) = Ok m' /\
    holds m' q (firstn (N * M) xs) /\ holds m' (q + N * M) (skipn (N * M) xs) /\
    mat_il S N M xs = Err OutOfBounds.
Proof.
  intros T S m p xs q N M Hx Hq Dis Hl. apply holds_iff in Hx. destruct Hx as (L & Nx).
  destruct (C69_fill T m q (q + N * M) (sc_zero S) ltac:(lia)) as (m1 & E1 & L1 & N1).
  assert (H1 : holds m1 p xs).
  { apply holds_iff. split; [lia|]. intros i Hi. rewrite N1. destruct (Nat.leb_spec q (p + i)), (Nat.ltb_spec (p + i) (q + N * M)); cbn [andb]; try lia; apply Nx, Hi. }
  destruct (C164_elements T m1 p xs q H1 ltac:(lia) ltac:(lia)) as (_ & _ & _ & e & m' & Ee & Ec & (b & a & Em & Lb) & _).
  exists m'. unfold matrix_from_list. rewrite E1. cbn [bind]. rewrite Ee. cbn [bind]. split; [exact Ec|].
  split; [|split; [|apply mat_il_oob; exact Hl]].
  - exists b, (skipn (N * M) xs ++ a). split; [|exact Lb]. rewrite (app_assoc (firstn _ xs)), firstn_skipn. exact Em.
  - exists (b ++ firstn (N * M) xs), a. split.
    + rewrite <- app_assoc, (app_assoc (firstn _ xs)), firstn_skipn. exact Em.
    + rewrite app_length, firstn_length. lia.
Qed.
Print Assumptions C164_surplus.

(** A 2x2 matrix at 4 from three elements at 1, and from five. *)
Example C164_case :
  matrix_from_list 0%Z [9; 1; 2; 3; 8; 8; 8; 8; 7]%Z 4 2 2 (il_make (Some 1) 3) = Ok [9; 1; 2; 3; 1; 2; 3; 0; 7]%Z /\
  matrix_from_list 0%Z [1; 2; 3; 4; 5; 8; 8; 8; 8; 7]%Z 5 2 2 (il_make (Some 0) 5) = Ok [1; 2; 3; 4; 5; 1; 2; 3; 4; 5]%Z /\
  holds [1; 2; 3; 4; 5; 8; 8; 8; 8; 7]%Z 0 [1; 2; 3; 4; 5]%Z.
Proof. split; [reflexivity|]. split; [reflexivity|]. exists [], [8; 8; 8; 8; 7]%Z. split; reflexivity. Qed.
