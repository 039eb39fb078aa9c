(** * Properties C68-C70: text, algorithms, numeric limits *)

From Coq Require Import ZArith List Bool Ascii String Lia.
From Verif Require Import Base Text Algorithm Limits.
Import ListNotations.

(** ** C68 *)

Lemma starts_with_spec p : forall s, starts_with p s = true <-> exists post, s = p ++ post.
Proof.
  induction p as [|x p IH]; intros s; cbn [starts_with app].
  - split; [eauto|reflexivity].
  - destruct s as [|y s].
    + split; [discriminate|]. intros (post & E). discriminate.
    + rewrite andb_true_iff, IH, Ascii.eqb_eq. split.
      * intros (-> & post & ->). eauto.
      * intros (post & E). injection E as -> ->. eauto.
Qed.

Lemma find_from_spec from : forall s pos,
  match find_from from s pos with
  | Some q => exists pre post, s = pre ++ from ++ post /\ q = (pos + List.length pre)%nat /\
                forall pre' post', s = pre' ++ from ++ post' -> (List.length pre <= List.length pre')%nat
  | None => forall pre post, s <> pre ++ from ++ post
  end.
Proof.
  induction s as [|c s IH]; intros pos; cbn [find_from].
  - destruct (starts_with from []) eqn:E.
    + apply starts_with_spec in E as (post & E). exists [], post. cbn. repeat split; auto; lia.
    + intros pre post H. destruct pre as [|? ?]; [|discriminate]. cbn in H.
      assert (starts_with from [] = true) by (apply starts_with_spec; eauto). congruence.
  - destruct (starts_with from (c :: s)) eqn:E.
    + apply starts_with_spec in E as (post & E). exists [], post. cbn [app List.length].
      repeat split; auto; lia.
    + assert (Hd : forall post, c :: s <> from ++ post).
      { intros post H. assert (starts_with from (c :: s) = true) by (apply starts_with_spec; eauto).
        congruence. }
      specialize (IH (S pos)). destruct (find_from from s (S pos)) as [q|].
      * destruct IH as (pre & post & -> & -> & Min). exists (c :: pre), post.
        split; [reflexivity|]. split; [cbn; lia|]. intros [|c' pre'] post' H.
        -- now apply Hd in H.
        -- injection H as _ H. apply Min in H. cbn. lia.
      * intros [|c' pre] post H; [now apply Hd in H|]. injection H as _ H. now apply IH in H.
Qed.

(** C68. [replaced( text, from, to )] replaces the leftmost occurrence of [from] and keeps the
    rest; without an occurrence the text is returned unchanged. *)
Theorem C68_replaced : forall text from to,
  (forall pre post, text = pre ++ from ++ post ->
     (forall pre' post', text = pre' ++ from ++ post' -> (List.length pre <= List.length pre')%nat) ->
     replaced text from to = pre ++ to ++ post) /\
  ((forall pre post, text <> pre ++ from ++ post) -> replaced text from to = text).
Proof.
  intros text from to. unfold replaced. pose proof (find_from_spec from text 0) as F.
  destruct (find_from from text 0) as [q|].
  - destruct F as (pre0 & post0 & E0 & -> & Min0). split; [|intros N; now apply N in E0].
    intros pre post E Min. assert (L : List.length pre0 = List.length pre).
    { apply Nat.le_antisymm; [apply (Min0 _ _ E)|apply (Min _ _ E0)]. }
    assert (Hp : pre0 = pre /\ post0 = post).
    { assert (X : pre0 ++ from ++ post0 = pre ++ from ++ post) by congruence.
      assert (pre0 = pre).
      { apply (f_equal (firstn (List.length pre))) in X.
        rewrite <- L in X at 1. rewrite !firstn_app in X. rewrite L, !Nat.sub_diag in X.
        cbn [firstn] in X. rewrite <- L in X at 1. rewrite !firstn_all in X.
        now rewrite !app_nil_r in X. }
      subst pre0. split; [reflexivity|]. apply app_inv_head in X. now apply app_inv_head in X. }
    destruct Hp as [-> ->]. unfold replace_at. cbn [plus]. rewrite E.
    rewrite firstn_app, firstn_all, Nat.sub_diag. cbn [firstn]. rewrite app_nil_r. f_equal. f_equal.
    rewrite <- app_length, app_assoc, skipn_app, skipn_all, Nat.sub_diag. reflexivity.
  - split; [|reflexivity]. intros pre post E. now apply F in E.
Qed.
Print Assumptions C68_replaced.

Example C68_case :
  replaced (list_ascii_of_string "banana") (list_ascii_of_string "an") (list_ascii_of_string "--")
    = list_ascii_of_string "b--ana".
Proof. reflexivity. Qed.

(** One of the two cases always applies, and an empty [from] puts [to] in front. *)
Lemma first_occurrence : forall text from : list ascii,
  (exists pre post, text = pre ++ from ++ post /\
     forall pre' post', text = pre' ++ from ++ post' -> (List.length pre <= List.length pre')%nat) \/
  (forall pre post, text <> pre ++ from ++ post).
Proof.
  intros text from. pose proof (find_from_spec from text 0) as F.
  destruct (find_from from text 0); [left|right; assumption].
  destruct F as (pre & post & E & _ & M). eauto.
Qed.

Theorem C68_replaced_empty : forall text to, replaced text [] to = to ++ text.
Proof.
  intros text to. apply (proj1 (C68_replaced text [] to) [] text); [reflexivity|].
  intros. cbn. lia.
Qed.
Print Assumptions C68_replaced_empty.

Example C68_replaced_empty_case :
  replaced (list_ascii_of_string "text") [] (list_ascii_of_string "con") = list_ascii_of_string "context".
Proof. reflexivity. Qed.

(** Only one occurrence is replaced, also when the replacement contains the pattern. *)
Theorem C68_replaced_length : forall text from to,
  List.length (replaced text from to) = List.length text \/
  (List.length (replaced text from to) + List.length from = List.length text + List.length to)%nat.
Proof.
  intros text from to. destruct (C68_replaced text from to) as [A B].
  destruct (first_occurrence text from) as [(pre & post & E & M) | N].
  - right. rewrite (A pre post E M). rewrite E. rewrite !app_length. lia.
  - left. now rewrite (B N).
Qed.
Print Assumptions C68_replaced_length.

Example C68_replaced_length_case :
  List.length (replaced (list_ascii_of_string "kalman") (list_ascii_of_string "al")
                        (list_ascii_of_string "")) = 4%nat.
Proof. reflexivity. Qed.

(** [line( size, chr )] is [size] copies of [chr]; a negative size throws. *)
Theorem C68_line : forall max_size size chr,
  (2 ^ 31 <= max_size < 2 ^ 63)%Z -> (- 2 ^ 31 <= size < 2 ^ 31)%Z ->
  ((0 <= size)%Z -> exists s, line max_size size chr = Ok s /\ Z.of_nat (List.length s) = size /\
                      forall c, In c s -> c = chr) /\
  ((size < 0)%Z -> line max_size size chr = Err Thrown).
Proof.
  intros M size chr HM Hs. unfold line. split; intros H.
  - rewrite Z.mod_small by lia. replace (size <=? M)%Z with true by (symmetry; apply Z.leb_le; lia).
    exists (repeat chr (Z.to_nat size)). split; [reflexivity|]. split.
    + rewrite repeat_length. lia.
    + intros c Hc. now apply repeat_spec in Hc.
  - replace (size mod 2 ^ 64)%Z with (size + 2 ^ 64)%Z.
    + replace (size + 2 ^ 64 <=? M)%Z with false; [reflexivity|]. symmetry. apply Z.leb_gt. lia.
    + symmetry. rewrite <- (Z_mod_plus_full size 1 (2 ^ 64)). apply Z.mod_small. lia.
Qed.
Print Assumptions C68_line.

Example C68_line_case : line (2 ^ 62) 3 "-" = Ok (list_ascii_of_string "---").
Proof. reflexivity. Qed.

(** ** C69 *)

Section Lemmas.
Context {T : Type}.
Implicit Types m : list T.

Lemma load_lt m i : (i < List.length m)%nat -> exists v, load m i = Ok v /\ nth_error m i = Some v.
Proof.
  intros H. unfold load. destruct (nth_error m i) eqn:E; [eauto|].
  apply nth_error_None in E. lia.
Qed.

Lemma load_ge m i : (List.length m <= i)%nat -> load m i = Err OutOfBounds.
Proof. intros H. unfold load. apply nth_error_None in H. now rewrite H. Qed.

Lemma store_ge m i v : (List.length m <= i)%nat -> store m i v = Err OutOfBounds.
Proof. intros H. unfold store. apply Nat.ltb_ge in H. now rewrite H. Qed.

Lemma store_lt m i v : (i < List.length m)%nat ->
  exists m', store m i v = Ok m' /\ List.length m' = List.length m /\
    forall j, nth_error m' j = if (j =? i)%nat then Some v else nth_error m j.
Proof.
  intros H. unfold store. rewrite (proj2 (Nat.ltb_lt _ _) H). eexists. split; [reflexivity|].
  split.
  - rewrite app_length. cbn [List.length]. rewrite firstn_length, skipn_length. lia.
  - intros j. destruct (Nat.eqb_spec j i) as [->|N].
    + rewrite nth_error_app2; rewrite firstn_length; [|lia].
      replace (i - Nat.min i (List.length m))%nat with 0%nat by lia. reflexivity.
    + destruct (Nat.lt_ge_cases j i).
      * rewrite nth_error_app1 by (rewrite firstn_length; lia).
        clear -H0. revert m i H0. induction j; intros [|x m] [|i] L; cbn; try lia; try reflexivity.
        apply IHj. lia.
      * rewrite nth_error_app2; rewrite firstn_length; [|lia].
        replace (j - Nat.min i (List.length m))%nat with (S (j - S i)) by lia. cbn [nth_error].
        clear - H0 N. assert (E : j = (S i + (j - S i))%nat) by lia. rewrite E at 2.
        generalize (j - S i)%nat as k. generalize (S i) as n. clear. intros n. revert m.
        induction n; intros m k; [reflexivity|]. destruct m; cbn; [now destruct k|apply IHn].
Qed.

Lemma same_nth m1 m2 : (forall i, nth_error m1 i = nth_error m2 i) -> m1 = m2.
Proof.
  revert m2. induction m1 as [|x m1 IH]; intros [|y m2] H; auto.
  - specialize (H 0%nat); discriminate.
  - specialize (H 0%nat); discriminate.
  - f_equal; [specialize (H 0%nat); now injection H|]. apply IH. intros i. apply (H (S i)).
Qed.

(** What is true of [copy] at any overlap: cell [d+i] receives what cell [f+i] holds at that
    time. *)
Lemma copy_loop_spec : forall n fuel m f d,
  (f + n <= List.length m)%nat -> (d + n <= List.length m)%nat -> (n <= fuel)%nat ->
  exists m', copy_loop fuel m f (f + n) d = Ok (m', (d + n)%nat) /\ List.length m' = List.length m /\
    (forall i, ~ (d <= i < d + n)%nat -> nth_error m' i = nth_error m i) /\
    (forall i, (i < n)%nat -> nth_error m' (d + i) =
       if (d <=? f + i)%nat && (f + i <? d + i)%nat then nth_error m' (f + i) else nth_error m (f + i)).
Proof.
  induction n as [|n IH]; intros fuel m f d Hf Hd Hn.
  - exists m. split; [|split; [reflexivity|split; [intros; reflexivity|intros; lia]]].
    rewrite !Nat.add_0_r. destruct fuel; cbn [copy_loop]; rewrite Nat.eqb_refl; reflexivity.
  - destruct fuel as [|fuel]; [lia|]. cbn [copy_loop].
    replace (f =? f + S n)%nat with false by (symmetry; apply Nat.eqb_neq; lia).
    destruct (load_lt m f ltac:(lia)) as (v & -> & Ev). cbn [bind].
    destruct (store_lt m d v ltac:(lia)) as (m1 & -> & L1 & N1). cbn [bind].
    destruct (IH fuel m1 (S f) (S d) ltac:(lia) ltac:(lia) ltac:(lia)) as (m' & E & L' & Out & In).
    exists m'. replace (f + S n)%nat with (S f + n)%nat by lia.
    replace (d + S n)%nat with (S d + n)%nat by lia. rewrite E. split; [reflexivity|].
    split; [congruence|]. split.
    + intros i Hi. rewrite Out by lia. rewrite N1.
      replace (i =? d)%nat with false by (symmetry; apply Nat.eqb_neq; lia). reflexivity.
    + assert (D : nth_error m' d = Some v).
      { rewrite Out by lia. rewrite N1, Nat.eqb_refl. reflexivity. }
      intros [|i] Hi.
      * rewrite !Nat.add_0_r. rewrite D.
        replace ((d <=? f)%nat && (f <? d)%nat) with false; [now symmetry|].
        symmetry. apply andb_false_iff. destruct (Nat.le_gt_cases d f).
        -- right. apply Nat.ltb_ge. lia.
        -- left. apply Nat.leb_gt. lia.
      * specialize (In i ltac:(lia)). rewrite <- !Nat.add_succ_comm. cbn [plus] in *.
        rewrite In. rewrite N1.
        destruct (Nat.leb_spec (S d) (S (f + i))), (Nat.ltb_spec (S (f + i)) (S (d + i))),
                 (Nat.leb_spec d (S (f + i))); cbn [andb]; try lia; try reflexivity.
        all: destruct (Nat.eqb_spec (S (f + i)) d) as [E1|E1]; try lia; try reflexivity.
        all: rewrite E1; now symmetry.
Qed.

Lemma copy_loop_fails : forall n fuel m f l d,
  (f <> l)%nat -> (List.length m - f = n)%nat -> (l < f \/ List.length m < l \/ List.length m < d + (l - f))%nat ->
  copy_loop fuel m f l d = Err OutOfBounds.
Proof.
  induction n as [|n IH]; intros fuel m f l d Hne Hn H; destruct fuel as [|fuel]; cbn [copy_loop];
    replace (f =? l)%nat with false by (symmetry; apply Nat.eqb_neq; lia); try reflexivity.
  - rewrite load_ge by lia. reflexivity.
  - destruct (load_lt m f ltac:(lia)) as (v & -> & _). cbn [bind].
    destruct (Nat.lt_ge_cases d (List.length m)).
    + destruct (store_lt m d v H0) as (m1 & -> & L1 & _). cbn [bind].
      destruct (Nat.eq_dec (S f) l) as [E|N]; [lia|]. apply IH; try lia.
    + rewrite store_ge by lia. reflexivity.
Qed.

End Lemmas.

(** C69. [copy( first, last, d_first )] between ranges inside the memory, the destination not
    starting inside the source: the destination receives the source, nothing else changes,
    and the end of the destination is returned. *)
Theorem C69_copy : forall T (m : list T) first last d,
  (first <= last <= List.length m)%nat -> (d + (last - first) <= List.length m)%nat ->
  (d <= first \/ last <= d)%nat ->
  exists m', copy m first last d = Ok (m', (d + (last - first))%nat) /\
    List.length m' = List.length m /\
    (forall i, (i < last - first)%nat -> nth_error m' (d + i) = nth_error m (first + i)) /\
    (forall i, ~ (d <= i < d + (last - first))%nat -> nth_error m' i = nth_error m i).
Proof.
  intros T m f l d Hl Hd Ov. unfold copy.
  destruct (copy_loop_spec (l - f) (S (List.length m)) m f d ltac:(lia) Hd ltac:(lia))
    as (m' & E & L & Out & Ins).
  replace (f + (l - f))%nat with l in E by lia. exists m'. repeat split; auto.
  intros i Hi. rewrite (Ins i Hi).
  replace ((d <=? f + i)%nat && (f + i <? d + i)%nat) with false; [reflexivity|].
  symmetry. apply andb_false_iff. destruct Ov.
  - right. apply Nat.ltb_ge. lia.
  - left. apply Nat.leb_gt. lia.
Qed.
Print Assumptions C69_copy.

Example C69_case : copy [1; 2; 3; 4; 5] 2 5 1 = Ok ([1; 3; 4; 5; 5], 4)%nat.
Proof. reflexivity. Qed.

(** With the destination starting inside the source the beginning of the source is repeated
    with the distance as period. *)
Theorem C69_copy_overlapping : forall T (m : list T) first last d,
  (first < d < last)%nat -> (last <= List.length m)%nat -> (d + (last - first) <= List.length m)%nat ->
  exists m', copy m first last d = Ok (m', (d + (last - first))%nat) /\
    List.length m' = List.length m /\
    (forall i, (i < last - first)%nat ->
       nth_error m' (d + i) = nth_error m (first + i mod (d - first))) /\
    (forall i, ~ (d <= i < d + (last - first))%nat -> nth_error m' i = nth_error m i).
Proof.
  intros T m f l d Hd Hl Hdl. unfold copy.
  destruct (copy_loop_spec (l - f) (S (List.length m)) m f d ltac:(lia) Hdl ltac:(lia))
    as (m' & E & L & Out & Ins).
  replace (f + (l - f))%nat with l in E by lia. exists m'. repeat split; auto.
  intros i. induction i as [i IH] using (well_founded_induction lt_wf). intros Hi.
  rewrite (Ins i Hi). destruct (Nat.lt_ge_cases i (d - f)) as [H|H].
  - rewrite (Nat.mod_small i (d - f) H).
    replace (d <=? f + i)%nat with false by (symmetry; apply Nat.leb_gt; lia). reflexivity.
  - replace (d <=? f + i)%nat with true by (symmetry; apply Nat.leb_le; lia).
    replace (f + i <? d + i)%nat with true by (symmetry; apply Nat.ltb_lt; lia). cbn [andb].
    replace (f + i)%nat with (d + (i - (d - f)))%nat by lia.
    rewrite (IH (i - (d - f))%nat ltac:(lia) ltac:(lia)). f_equal. f_equal.
    assert (D : (d - f <> 0)%nat) by lia.
    rewrite <- (Nat.mod_add (i - (d - f)) 1 (d - f) D). f_equal. lia.
Qed.
Print Assumptions C69_copy_overlapping.

Example C69_copy_overlapping_case : copy [1; 2; 3; 4; 5; 6; 7] 0 5 2 = Ok ([1; 2; 1; 2; 1; 2; 1], 7)%nat.
Proof. reflexivity. Qed.

(** Outside of these conditions a non-empty copy leaves the memory. *)
Theorem C69_copy_defined_iff : forall T (m : list T) first last d,
  (exists r, copy m first last d = Ok r) <->
  first = last \/ ((first <= last <= List.length m)%nat /\ (d + (last - first) <= List.length m)%nat).
Proof.
  intros T m f l d. split.
  - intros (r & E). destruct (Nat.eq_dec f l) as [->|N]; [now left|right].
    destruct (Nat.lt_ge_cases l f); [|destruct (Nat.lt_ge_cases (List.length m) l);
      [|destruct (Nat.lt_ge_cases (List.length m) (d + (l - f)))]]; try lia;
      unfold copy in E; rewrite (copy_loop_fails (List.length m - f)) in E by lia; discriminate.
  - intros [-> | [H1 H2]].
    + unfold copy. cbn [copy_loop]. rewrite Nat.eqb_refl. eauto.
    + unfold copy. destruct (copy_loop_spec (l - f) (S (List.length m)) m f d ltac:(lia) H2 ltac:(lia))
        as (m' & E & _). replace (f + (l - f))%nat with l in E by lia. eauto.
Qed.
Print Assumptions C69_copy_defined_iff.

Example C69_copy_defined_case : ~ exists r, copy [1; 2; 3]%nat 2 1 0 = Ok r.
Proof. rewrite C69_copy_defined_iff. cbn. lia. Qed.

(** [fill( first, last, value )]. *)
Theorem C69_fill : forall T (m : list T) first last v,
  (first <= last <= List.length m)%nat ->
  exists m', fill m first last v = Ok m' /\ List.length m' = List.length m /\
    forall i, nth_error m' i = if (first <=? i)%nat && (i <? last)%nat then Some v else nth_error m i.
Proof.
  intros T m f l v H. unfold fill.
  assert (G : forall n fuel m f, (f + n <= List.length m)%nat -> (n <= fuel)%nat ->
    exists m', fill_loop fuel m f (f + n) v = Ok m' /\ List.length m' = List.length m /\
    forall i, nth_error m' i = if (f <=? i)%nat && (i <? f + n)%nat then Some v else nth_error m i).
  { clear. induction n as [|n IH]; intros fuel m f Hf Hn.
    - exists m. rewrite Nat.add_0_r. split; [|split; [reflexivity|]].
      + destruct fuel; cbn [fill_loop]; rewrite Nat.eqb_refl; reflexivity.
      + intros i. destruct (Nat.leb_spec f i), (Nat.ltb_spec i f); cbn [andb]; reflexivity || lia.
    - destruct fuel as [|fuel]; [lia|]. cbn [fill_loop].
      replace (f =? f + S n)%nat with false by (symmetry; apply Nat.eqb_neq; lia).
      destruct (store_lt m f v ltac:(lia)) as (m1 & -> & L1 & N1). cbn [bind].
      destruct (IH fuel m1 (S f) ltac:(lia) ltac:(lia)) as (m' & E & L & N').
      replace (f + S n)%nat with (S f + n)%nat by lia. exists m'. split; [assumption|].
      split; [congruence|]. intros i. rewrite N', N1.
      destruct (Nat.eqb_spec i f), (Nat.leb_spec (S f) i), (Nat.leb_spec f i), (Nat.ltb_spec i (S f + n));
        cbn [andb]; reflexivity || lia. }
  destruct (G (l - f)%nat (S (List.length m)) m f ltac:(lia) ltac:(lia)) as (m' & E & L & N).
  replace (f + (l - f))%nat with l in * by lia. eauto.
Qed.
Print Assumptions C69_fill.

Example C69_fill_case : fill [1; 2; 3; 4]%nat 1 3 9%nat = Ok [1; 9; 9; 4]%nat.
Proof. reflexivity. Qed.

(** [equal] answers [true] exactly when all pairs agree, [false] exactly when a pair inside the
    first range disagrees and all before it agree; it reads no further. *)
Theorem C69_equal : forall T (eqb : T -> T -> bool) (m : list T) first1 last1 first2,
  (first1 <= last1)%nat ->
  let pair k x y := nth_error m (first1 + k) = Some x /\ nth_error m (first2 + k) = Some y in
  (equal eqb m first1 last1 first2 = Ok true <->
     forall k, (k < last1 - first1)%nat -> exists x y, pair k x y /\ eqb x y = true) /\
  (equal eqb m first1 last1 first2 = Ok false <->
     exists k, (k < last1 - first1)%nat /\ (exists x y, pair k x y /\ eqb x y = false) /\
       forall j, (j < k)%nat -> exists x y, pair j x y /\ eqb x y = true).
Proof.
  intros T eqb m f1 l1 f2 Hl. unfold equal, equal_pred.
  assert (G : forall n fuel f1 f2, (n < fuel \/ List.length m - f1 < fuel)%nat ->
    let pair k x y := nth_error m (f1 + k) = Some x /\ nth_error m (f2 + k) = Some y in
    (equal_loop fuel m f1 (f1 + n) f2 eqb = Ok true <->
     forall k, (k < n)%nat -> exists x y, pair k x y /\ eqb x y = true) /\
    (equal_loop fuel m f1 (f1 + n) f2 eqb = Ok false <->
     exists k, (k < n)%nat /\ (exists x y, pair k x y /\ eqb x y = false) /\
       forall j, (j < k)%nat -> exists x y, pair j x y /\ eqb x y = true)).
  { clear. induction n as [|n IH]; intros fuel f1 f2 Hf.
    - rewrite Nat.add_0_r. split.
      + split; [intros; lia|]. intros _. destruct fuel; cbn [equal_loop]; rewrite Nat.eqb_refl; reflexivity.
      + split; [|intros (k & H & _); lia]. destruct fuel; cbn [equal_loop]; rewrite Nat.eqb_refl; discriminate.
    - destruct fuel as [|fuel]; [lia|]. cbn [equal_loop].
      replace (f1 =? f1 + S n)%nat with false by (symmetry; apply Nat.eqb_neq; lia).
      unfold load. destruct (nth_error m f1) as [x|] eqn:E1; cbn [bind].
      2:{ split; (split; [discriminate|]).
          - intros H. destruct (H 0%nat ltac:(lia)) as (x & y & (A & _) & _). rewrite Nat.add_0_r in A. congruence.
          - intros (k & H & (x & y & (A & _) & _) & H2). destruct k as [|k].
            + rewrite Nat.add_0_r in A. congruence.
            + destruct (H2 0%nat ltac:(lia)) as (x' & y' & (A' & _) & _). rewrite Nat.add_0_r in A'. congruence. }
      destruct (nth_error m f2) as [y|] eqn:E2; cbn [bind].
      2:{ split; (split; [discriminate|]).
          - intros H. destruct (H 0%nat ltac:(lia)) as (x' & y & (_ & A) & _). rewrite Nat.add_0_r in A. congruence.
          - intros (k & H & (x' & y & (_ & A) & _) & H2). destruct k as [|k].
            + rewrite Nat.add_0_r in A. congruence.
            + destruct (H2 0%nat ltac:(lia)) as (x'' & y' & (_ & A') & _). rewrite Nat.add_0_r in A'. congruence. }
      assert (B : (f1 < List.length m)%nat) by (apply nth_error_Some; congruence).
      destruct (eqb x y) eqn:Exy; cbn [negb].
      + destruct (IH fuel (S f1) (S f2) ltac:(lia)) as [IT IF]. cbn [plus] in IT, IF.
        replace (f1 + S n)%nat with (S (f1 + n)) by lia. split.
        * rewrite IT. split; intros H.
          -- intros [|k] Hk; [exists x, y; rewrite !Nat.add_0_r; auto|].
             destruct (H k ltac:(lia)) as (x' & y' & P & Q). exists x', y'.
             rewrite <- !Nat.add_succ_comm. auto.
          -- intros k Hk. destruct (H (S k) ltac:(lia)) as (x' & y' & P & Q). exists x', y'.
             rewrite <- !Nat.add_succ_comm in P. auto.
        * rewrite IF. split.
          -- intros (k & Hk & (x' & y' & P & Q) & H). exists (S k). split; [lia|]. split.
             ++ exists x', y'. rewrite <- !Nat.add_succ_comm. auto.
             ++ intros [|j] Hj; [exists x, y; rewrite !Nat.add_0_r; auto|].
                destruct (H j ltac:(lia)) as (x2 & y2 & P2 & Q2). exists x2, y2.
                rewrite <- !Nat.add_succ_comm. auto.
          -- intros ([|k] & Hk & (x' & y' & P & Q) & H).
             ++ rewrite !Nat.add_0_r in P. destruct P. congruence.
             ++ exists k. split; [lia|]. split.
                ** exists x', y'. rewrite <- !Nat.add_succ_comm in P. auto.
                ** intros j Hj. destruct (H (S j) ltac:(lia)) as (x2 & y2 & P2 & Q2). exists x2, y2.
                   rewrite <- !Nat.add_succ_comm in P2. auto.
      + split.
        * split; [discriminate|]. intros H. destruct (H 0%nat ltac:(lia)) as (x' & y' & P & Q).
          rewrite !Nat.add_0_r in P. destruct P. congruence.
        * split; [|reflexivity]. intros _. exists 0%nat. split; [lia|]. split; [|intros; lia].
          exists x, y. rewrite !Nat.add_0_r. auto. }
  specialize (G (l1 - f1)%nat (S (List.length m)) f1 f2 ltac:(lia)).
  replace (f1 + (l1 - f1))%nat with l1 in G by lia. exact G.
Qed.
Print Assumptions C69_equal.

Example C69_equal_case :
  equal Nat.eqb [1; 2; 3; 1; 2; 4]%nat 0 2 3 = Ok true /\ equal Nat.eqb [1; 2; 3; 1; 2; 4]%nat 0 3 3 = Ok false.
Proof. split; reflexivity. Qed.

(** [swap( a, b )] exchanges two objects, also one with itself, and changes nothing else. *)
Theorem C69_swap : forall T (m : list T) a b,
  (a < List.length m)%nat -> (b < List.length m)%nat ->
  exists m', swap m a b = Ok m' /\ List.length m' = List.length m /\
    nth_error m' a = nth_error m b /\ nth_error m' b = nth_error m a /\
    (forall i, i <> a -> i <> b -> nth_error m' i = nth_error m i) /\
    swap m' a b = Ok m.
Proof.
  intros T m a b Ha Hb.
  assert (G : forall m : list T, (a < List.length m)%nat -> (b < List.length m)%nat ->
     exists m', swap m a b = Ok m' /\ List.length m' = List.length m /\
     forall i, nth_error m' i = if (i =? b)%nat then nth_error m a
                                else if (i =? a)%nat then nth_error m b else nth_error m i).
  { clear. intros m Ha Hb. unfold swap.
    destruct (load_lt m a Ha) as (x & -> & Ex). destruct (load_lt m b Hb) as (y & -> & Ey).
    cbn [bind]. destruct (store_lt m a y Ha) as (m1 & -> & L1 & N1). cbn [bind].
    destruct (store_lt m1 b x ltac:(lia)) as (m2 & -> & L2 & N2). exists m2.
    split; [reflexivity|]. split; [congruence|]. intros i. rewrite N2, N1, Ex, Ey. reflexivity. }
  destruct (G m Ha Hb) as (m' & E & L & N). exists m'. split; [assumption|]. split; [assumption|].
  split; [|split; [|split]].
  - rewrite N. destruct (Nat.eqb_spec a b) as [->|]; [reflexivity|]. now rewrite Nat.eqb_refl.
  - rewrite N. now rewrite Nat.eqb_refl.
  - intros i Ia Ib. rewrite N. apply Nat.eqb_neq in Ia, Ib. now rewrite Ia, Ib.
  - destruct (G m' ltac:(lia) ltac:(lia)) as (m2 & E2 & L2 & N2). rewrite E2. f_equal.
    apply same_nth. intros i. rewrite N2, !N. rewrite !Nat.eqb_refl.
    destruct (Nat.eqb_spec i b) as [->|]; [destruct (Nat.eqb_spec a b) as [->|]; reflexivity|].
    destruct (Nat.eqb_spec i a) as [->|]; reflexivity.
Qed.
Print Assumptions C69_swap.

Example C69_swap_case : swap [1; 2; 3]%nat 2 0 = Ok [3; 2; 1]%nat.
Proof. reflexivity. Qed.

(** ** C70 *)

(** The values a type can hold, from its definition as a machine integer. *)
Definition holds (t : ctype) (v : Z) : Prop :=
  match t with
  | tint b => (- 2 ^ (b - 1) <= v < 2 ^ (b - 1))%Z
  | tuint b => (0 <= v < 2 ^ b)%Z
  | _ => False
  end.

Definition avr_integer (t : ctype) : Prop :=
  exists b, In b [8; 16; 32; 64]%Z /\ (t = tint b \/ t = tuint b).

(** C70. On AVR [min()] and [max()] are the extreme values of every integer type and
    [digits] its number of value bits, but [is_signed] is [true] for all of them, so it is
    right exactly for those that have a negative value. *)
Theorem C70_avr_limits : forall t, avr_integer t ->
  exists l, numeric_limits t = Some l /\ is_integer l = true /\
    (forall v, holds t v <-> (lim_min l <= v <= lim_max l)%Z) /\
    (lim_max l = 2 ^ digits l - 1)%Z /\
    (is_signed l = true) /\
    ((is_signed l = true <-> exists v, holds t v /\ (v < 0)%Z) <-> exists b, t = tint b).
Proof.
  intros t (b & Hb & H).
  assert (Hd : (8 * (b / 8) = b /\ 8 <= b)%Z) by (cbn in Hb; intuition (subst; try reflexivity; lia)).
  assert (Hs : ((b =? 8) || (b =? 16) || (b =? 32) || (b =? 64))%Z = true)
    by (cbn in Hb; intuition (subst; reflexivity)).
  destruct Hd as [Hd Hb8]. pose proof (Z.pow_pos_nonneg 2 (b - 1) ltac:(lia) ltac:(lia)).
  destruct H as [-> | ->]; cbn [numeric_limits]; rewrite Hs; eexists; (split; [reflexivity|]);
    unfold limits_int, limits_uint; cbn [is_integer is_signed lim_min lim_max digits holds]; rewrite Hd.
  - split; [reflexivity|]. split; [intros; lia|]. split; [lia|]. split; [reflexivity|].
    split; [eauto|]. intros _. split; [|reflexivity]. intros _. exists (-1)%Z. lia.
  - split; [reflexivity|]. split; [intros; lia|]. split; [lia|]. split; [reflexivity|].
    split; [|intros (c & E); discriminate]. intros [F _]. destruct (F eq_refl) as (v & Hv & Hn). lia.
Qed.
Print Assumptions C70_avr_limits.

Example C70_case : option_map (fun l => (lim_min l, lim_max l, digits l, is_signed l)) (numeric_limits (tuint 16))
  = Some (0, 65535, 16, true)%Z.
Proof. reflexivity. Qed.

(** Hence [fixed_point] accepts every integer type on AVR, unsigned ones included, although
    multiplication exists for the signed types up to 32 bits only. *)
Theorem C70_fixed_point_accepts_unsigned : forall t,
  (avr_integer t -> fixed_point_accepts t = true) /\
  (fixed_point_accepts t = true -> avr_integer t) /\
  (avr_integer t -> promotes t = true <-> exists b, t = tint b /\ (b <= 32)%Z).
Proof.
  intros t. split; [|split].
  - intros (b & Hb & H).
    assert (Hs : ((b =? 8) || (b =? 16) || (b =? 32) || (b =? 64))%Z = true)
      by (cbn in Hb; intuition (subst; reflexivity)).
    unfold fixed_point_accepts, is_signed_v, is_integral_v.
    destruct H as [-> | ->]; cbn [numeric_limits]; rewrite Hs; reflexivity.
  - unfold fixed_point_accepts, is_signed_v, is_integral_v, avr_integer.
    destruct t as [ | |b|b]; cbn; try discriminate;
      destruct ((b =? 8) || (b =? 16) || (b =? 32) || (b =? 64))%Z eqn:E; cbn; try discriminate;
      intros _; exists b; (split; [|tauto]);
      rewrite !orb_true_iff, !Z.eqb_eq in E; intuition.
  - intros (b & Hb & H). destruct H as [-> | ->]; cbn [promotes].
    + rewrite !orb_true_iff, !Z.eqb_eq. split.
      * intros H. exists b. split; [reflexivity|]. lia.
      * intros (c & E & L). injection E as <-. cbn in Hb. lia.
    + split; [discriminate|]. intros (c & E & _). discriminate.
Qed.
Print Assumptions C70_fixed_point_accepts_unsigned.

(** C70. The default number of fraction bits is the one with which integer and fraction bits
    together are the value bits of the type; of the floating-point types nothing but 0 is
    within [min()] and [max()]. *)
Theorem C70_default_fraction : forall t,
  (avr_integer t -> forall I F, (0 <= I + F)%Z ->
     default_fraction t I = Some F <->
     holds t (2 ^ (I + F) - 1)%Z /\ (forall v, holds t v -> (v < 2 ^ (I + F))%Z)) /\
  (t = tfloat \/ t = tdouble ->
     exists l, numeric_limits t = Some l /\ forall v, (lim_min l <= v <= lim_max l <-> v = 0)%Z).
Proof.
  intros t. split.
  - intros (b & Hb & H) I F HIF. unfold default_fraction.
    assert (Hd : (8 * (b / 8) = b /\ 8 <= b)%Z) by (cbn in Hb; intuition (subst; try reflexivity; lia)).
    assert (Hs : ((b =? 8) || (b =? 16) || (b =? 32) || (b =? 64))%Z = true)
      by (cbn in Hb; intuition (subst; reflexivity)).
    destruct Hd as [Hd Hb8].
    assert (P : forall n k, (0 <= n)%Z -> (0 <= k)%Z ->
              ((2 ^ n - 1 < 2 ^ k /\ forall v, v < 2 ^ k -> 0 <= v -> v < 2 ^ n) <-> n = k)%Z).
    { intros n k Hn Hk. pose proof (Z.pow_pos_nonneg 2 n ltac:(lia) Hn). pose proof (Z.pow_pos_nonneg 2 k ltac:(lia) Hk). split.
      - intros [A B]. specialize (B (2 ^ k - 1)%Z ltac:(lia) ltac:(lia)). apply (Z.pow_inj_r 2); lia.
      - intros <-. split; [lia|auto]. }
    destruct H as [-> | ->]; cbn [numeric_limits]; rewrite Hs; unfold limits_int, limits_uint; cbn [option_map digits holds]; rewrite Hd.
    + pose proof (P (I + F)%Z (b - 1)%Z HIF ltac:(lia)) as Q.
      pose proof (Z.pow_pos_nonneg 2 (b - 1) ltac:(lia) ltac:(lia)). pose proof (Z.pow_pos_nonneg 2 (I + F) ltac:(lia) HIF).
      split.
      * intros E. injection E as E. destruct (proj2 Q ltac:(lia)) as [Q1 Q2]. split; [lia|].
        intros v Hv. destruct (Z_lt_le_dec v 0); [lia|]. apply Q2; lia.
      * intros [A B]. f_equal. assert (I + F = b - 1)%Z; [|lia]. apply Q. split; [lia|]. intros v V1 V2. apply B. lia.
    + pose proof (P (I + F)%Z b HIF ltac:(lia)) as Q.
      pose proof (Z.pow_pos_nonneg 2 b ltac:(lia) ltac:(lia)). pose proof (Z.pow_pos_nonneg 2 (I + F) ltac:(lia) HIF).
      split.
      * intros E. injection E as E. destruct (proj2 Q ltac:(lia)) as [Q1 Q2]. split; [lia|].
        intros v Hv. apply Q2; lia.
      * intros [A B]. f_equal. assert (I + F = b)%Z; [|lia]. apply Q. split; [lia|]. intros v V1 V2. apply B. lia.
  - intros [-> | ->]; eexists; (split; [reflexivity|]); cbn; intros v; lia.
Qed.
Print Assumptions C70_default_fraction.

Example C70_fixed_point_case : fixed_point_accepts (tuint 8) = true /\ default_fraction (tuint 8) 3 = Some 5%Z.
Proof. split; reflexivity. Qed.
