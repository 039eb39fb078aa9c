(** Proofs about the inclusion of headers. *)

From Coq Require Import ZArith String List Bool Lia.
From Verif Require Import Include IncludeSpec.
Import ListNotations.
Open Scope list_scope.
Open Scope Z_scope.

Lemma mem_header_In h l : mem_header h l = true <-> In h l.
Proof. unfold mem_header. destruct (in_dec header_eq_dec h l); intuition congruence. Qed.

Lemma mem_header_false h l : mem_header h l = false <-> ~ In h l.
Proof. unfold mem_header. destruct (in_dec header_eq_dec h l); intuition congruence. Qed.

Lemma defined_In m l : defined m l = true <-> In m l.
Proof.
  unfold defined. rewrite existsb_exists. split.
  - intros (x & I & E). apply String.eqb_eq in E. now subst.
  - intros I. exists m. split; auto. apply String.eqb_refl.
Qed.

(** ** What each header amounts to *)

Fixpoint seq_include (inc : list string -> header -> option (list (header * Z * Z) * list string))
    (defs : list string) (hs : list header) : option (list (header * Z * Z) * list string) :=
  match hs with
  | [] => Some ([], defs)
  | h :: hs' =>
    match inc defs h with
    | Some (t1, defs1) =>
      match seq_include inc defs1 hs' with
      | Some (t2, defs2) => Some (t1 ++ t2, defs2)
      | None => None
      end
    | None => None
    end
  end.

Lemma include_all_seq fl hs : forall defs,
  include_all fl defs hs = seq_include (include fl 36) defs hs.
Proof. induction hs as [|h hs IH]; intros defs; cbn [include_all seq_include]; auto.
  destruct (include fl 36 defs h) as [[t d]|]; auto. rewrite IH. reflexivity. Qed.

(** Processing of an active body. *)
Fixpoint run (h : header) (inc : list string -> header -> option (list (header * Z * Z) * list string))
    (defs : list string) (b : list line) : option (list (header * Z * Z) * list string) :=
  match b with
  | [] => Some ([], defs)
  | Define m :: b' => run h inc (m :: defs) b'
  | Include x :: b' =>
    match inc defs x with
    | Some (t1, d1) => match run h inc d1 b' with Some (t2, d2) => Some (t1 ++ t2, d2) | None => None end
    | None => None
    end
  | Text a c :: b' => match run h inc defs b' with Some (t, d) => Some ((h, a, c) :: t, d) | None => None end
  | _ :: b' => run h inc defs b'
  end.

Definition all_headers : list header :=
  [core_core_io; core_core; core_range; core_shims; core_text;
   core_traits; core_vector_io; num_constants; num_fixed_point_io; num_fixed_point;
   num_matrix_io; num_matrix; std_algorithm; std_complex; std_cstdint;
   std_limits; std_tuple; std_type_traits; std_utility; dsp_biquad_cascade_io;
   dsp_biquad_cascade; dsp_biquad_design; dsp_biquad_io; dsp_biquad; dsp_chebyshev_design_io;
   dsp_chebyshev_design; dsp_filter_design; dsp_filter; dsp_kalman_io; dsp_kalman;
   dsp_onepole_design; dsp_onepole_io; dsp_onepole; mcu_atmega328; mcu_register].

Lemma all_headers_In h : In h all_headers.
Proof. destruct h; cbv; tauto. Qed.

Lemma guard_inj h1 h2 : guard h1 = guard h2 -> h1 = h2.
Proof.
  assert (C : forallb (fun a => forallb (fun b => implb (String.eqb (guard a) (guard b))
     (if header_eq_dec a b then true else false)) all_headers) all_headers = true) by (vm_compute; reflexivity).
  rewrite forallb_forall in C. specialize (C h1 (all_headers_In h1)).
  rewrite forallb_forall in C. specialize (C h2 (all_headers_In h2)).
  intros E. rewrite E, String.eqb_refl in C. cbn in C. destruct (header_eq_dec h1 h2); congruence.
Qed.

(** Skipping of a header whose guard is defined. *)
Fixpoint inside (es : list bool) (ls : list line) : bool :=
  match ls with
  | [] => false
  | l :: ls' =>
    match l with
    | Ifndef _ | IfFlag _ _ | IfConst _ => inside (false :: es) ls'
    | Else => match es with false :: es' => inside (true :: es') ls' | _ => false end
    | Endif => match es with _ :: es' => inside es' ls' | [] => match ls' with [] => true | _ => false end end
    | _ => inside es ls'
    end
  end.

Lemma inactive_bottom es :
  is_active (map (Group false false) es ++ [Group true false false]) = false.
Proof. destruct es; reflexivity. Qed.

Lemma process_skip fl h inc defs ls : forall es, inside es ls = true ->
  process fl h inc defs (map (Group false false) es ++ [Group true false false]) ls = Some ([], defs).
Proof.
  induction ls as [|l ls IH]; intros es I; [discriminate|].
  destruct l; cbn [process inside] in I |- *; rewrite ?inactive_bottom; cbn [andb].
  - exact (IH (false :: es) I).
  - exact (IH (false :: es) I).
  - exact (IH (false :: es) I).
  - destruct es as [|[|] es]; try discriminate. cbn [map app andb]. exact (IH (true :: es) I).
  - destruct es as [|e es].
    + destruct ls; try discriminate. reflexivity.
    + cbn [map app]. exact (IH es I).
  - apply IH, I.
  - apply IH, I.
  - apply IH, I.
  - rewrite (IH es I). reflexivity.
Qed.

(** An active header: conditionals do not depend on macros defined by headers. *)
Fixpoint balanced (es : list bool) (ls : list line) : bool :=
  match ls with
  | [] => match es with [] => true | _ => false end
  | l :: ls' =>
    match l with
    | Ifndef _ => false
    | IfFlag _ _ | IfConst _ => balanced (false :: es) ls'
    | Else => match es with false :: es' => balanced (true :: es') ls' | _ => false end
    | Endif => match es with _ :: es' => balanced es' ls' | [] => false end
    | _ => balanced es ls'
    end
  end.

Fixpoint consistent (s : list group) : Prop :=
  match s with [] => True | g :: s' => outer g = is_active s' /\ consistent s' end.

Lemma hd_active s : hd true (map active s) = is_active s.
Proof. destruct s; reflexivity. Qed.

Lemma process_body fl h inc ls : forall s defs,
  balanced (map else_seen s) ls = true -> consistent s ->
  process fl h inc defs s ls = run h inc defs (body fl (map active s) ls).
Proof.
  induction ls as [|l ls IH]; intros s defs B C.
  { destruct s; [reflexivity|discriminate]. }
  destruct l; cbn [process balanced body] in B |- *; rewrite ?hd_active.
  - discriminate.
  - rewrite IH; [cbn [map active]; reflexivity|exact B|cbn; auto].
  - rewrite IH; [cbn [map active]; reflexivity|exact B|cbn; auto].
  - destruct s as [|[o a [|]] s]; cbn [map else_seen] in B; try discriminate.
    cbn in C. destruct C as [C1 C2]. rewrite IH; [|exact B|cbn; auto].
    cbn [map active]. rewrite hd_active, C1. reflexivity.
  - destruct s as [|g s]; cbn [map] in B; try discriminate. cbn in C.
    rewrite IH; [reflexivity|exact B|tauto].
  - destruct (is_active s); cbn [run]; apply IH; auto.
  - destruct (is_active s); cbn [run]; [|apply IH; auto].
    destruct (inc defs h0) as [[t d]|]; auto. rewrite IH; auto.
  - apply IH; auto.
  - rewrite IH by auto. destruct (is_active s); cbn [run]; [reflexivity|].
    destruct run as [[t d]|]; reflexivity.
Qed.

Definition shape (h : header) : bool :=
  match lines h with
  | Ifndef _ :: ls => inside [] ls && balanced [false] ls
  | _ => false
  end.

Lemma shape_all h : h <> std_tuple -> shape h = true.
Proof. destruct h; try congruence; intros _; vm_compute; reflexivity. Qed.

Lemma process_guarded fl h inc defs : h <> std_tuple -> defined (guard h) defs = true ->
  process fl h inc defs [] (lines h) = Some ([], defs).
Proof.
  intros N D. pose proof (shape_all h N) as S. unfold shape in S. unfold guard in D.
  destruct (lines h) as [|[m| | | | | | | |] ls]; try discriminate.
  apply andb_true_iff in S as [S _].
  cbn [process is_active andb]. rewrite D. exact (process_skip fl h inc defs ls [] S).
Qed.

Lemma process_open fl h inc defs : h <> std_tuple -> defined (guard h) defs = false ->
  process fl h inc defs [] (lines h) = run h inc defs (body fl [] (lines h)).
Proof.
  intros N D. pose proof (shape_all h N) as S. unfold shape in S. unfold guard in D.
  destruct (lines h) as [|[m| | | | | | | |] ls]; try discriminate.
  apply andb_true_iff in S as [_ S].
  cbn [process is_active andb]. rewrite D. cbn [negb].
  rewrite process_body; [reflexivity|exact S|cbn; auto].
Qed.

(** ** Abstract visits *)

Lemma NoDup_app_one {A} (l : list A) x : NoDup l -> ~ In x l -> NoDup (l ++ [x]).
Proof.
  intros N I. induction N as [|a l N1 N2 IH]; cbn; [repeat constructor; auto|].
  constructor. { rewrite in_app_iff. cbn in *. intuition. } apply IH. cbn in I. tauto.
Qed.

Lemma NoDup_app_disjoint {A} (a b : list A) : NoDup a -> NoDup b ->
  (forall x, In x a -> ~ In x b) -> NoDup (a ++ b).
Proof.
  intros N M D. induction N as [|x a N1 N2 IH]; cbn; auto. constructor.
  - rewrite in_app_iff. intros [I|I]; [auto|]. apply (D x); cbn; auto.
  - apply IH. intros y Y. apply D. now right.
Qed.

Section Visit.
Context (inc : header -> list header).

Fixpoint visits (v : list header -> header -> option (list header * list header))
    (G : list header) (hs : list header) : option (list header * list header) :=
  match hs with
  | [] => Some ([], G)
  | h :: hs' =>
    match v G h with
    | Some (o1, G1) =>
      match visits v G1 hs' with Some (o2, G2) => Some (o1 ++ o2, G2) | None => None end
    | None => None
    end
  end.

Fixpoint visit (f : nat) (G : list header) (h : header) : option (list header * list header) :=
  match f with
  | O => None
  | S f' =>
    if mem_header h G then Some ([], G)
    else match visits (visit f') (h :: G) (inc h) with
         | Some (o, G') => Some (o ++ [h], G')
         | None => None
         end
  end.

Lemma reach_trans a b c : reach inc a b -> reach inc b c -> reach inc a c.
Proof. induction 1; auto. intros. eapply reach_step; eauto. Qed.

(** What a visit does, given sets of headers done and open. *)
Definition good (hs : list header) (D O G o G' : list header) : Prop :=
  (forall x, In x G' <-> In x G \/ In x o) /\
  (forall h, In h hs -> In h G') /\
  (forall w y, In w D \/ In w o -> In y (inc w) -> In y G') /\
  (forall x, In x o -> exists h, In h hs /\ reach inc h x) /\
  NoDup o /\ (forall x, In x o -> ~ In x G) /\
  (forall o1 x o2, o = o1 ++ x :: o2 ->
     exists Ox, (forall z, In z Ox -> In z O \/ reach inc z x) /\
       (forall w y, In w D \/ In w o1 -> In y (inc w) -> In y D \/ In y o1 \/ In y Ox) /\
       (forall y, In y (inc x) -> In y D \/ In y o1 \/ In y Ox)).

Definition pre (D O G : list header) : Prop :=
  (forall x, In x G <-> In x D \/ In x O) /\
  (forall w y, In w D -> In y (inc w) -> In y G).

Lemma app_split {A} (a b o1 : list A) x o2 : a ++ b = o1 ++ x :: o2 ->
  (exists o2', a = o1 ++ x :: o2' /\ o2 = o2' ++ b) \/
  (exists o1', o1 = a ++ o1' /\ b = o1' ++ x :: o2).
Proof.
  revert o1. induction a as [|c a IH]; intros o1 E.
  - right. exists o1. auto.
  - destruct o1 as [|d o1]; cbn in E; injection E as -> E.
    + left. exists a. subst. auto.
    + destruct (IH o1 E) as [(o2' & -> & ->)|(o1' & -> & ->)].
      * left. exists o2'. auto.
      * right. exists o1'. auto.
Qed.

Lemma visits_good v hs : 
  (forall h D O G o G', In h hs -> pre D O G -> v G h = Some (o, G') -> good [h] D O G o G') ->
  forall D O G o G', pre D O G -> visits v G hs = Some (o, G') -> good hs D O G o G'.
Proof.
  induction hs as [|h hs IH]; intros V D O G o G' P E.
  - injection E as <- <-. destruct P as [P1 P2]. repeat split; try tauto.
    + cbn. tauto.
    + cbn; tauto.
    + intros w y [W|[]]. apply P2, W.
    + intros x [].
    + constructor.
    + intros o1 x o2 F. destruct o1; discriminate.
  - cbn [visits] in E. destruct (v G h) as [[o1 G1]|] eqn:E1; [|discriminate].
    destruct (visits v G1 hs) as [[o2 G2]|] eqn:E2; [|discriminate]. injection E as <- <-.
    pose proof (V h D O G o1 G1 (or_introl eq_refl) P E1) as (A1 & A2 & A3 & A4 & A5 & A6 & A7).
    assert (P' : pre (D ++ o1) O G1).
    { destruct P as [P1 P2]. split.
      - intros x. rewrite A1, P1, in_app_iff. tauto.
      - intros w y W Y. rewrite in_app_iff in W. eapply A3; eauto. }
    assert (V' : forall h0 D O G o G', In h0 hs -> pre D O G -> v G h0 = Some (o, G') ->
      good [h0] D O G o G') by (intros; eapply V; eauto; now right).
    destruct (IH V' _ _ _ _ _ P' E2) as (B1 & B2 & B3 & B4 & B5 & B6 & B7).
    split; [|split; [|split; [|split; [|split; [|split]]]]].
    + intros x. rewrite B1, A1, in_app_iff. tauto.
    + intros x [<-|X]; [|auto]. apply B1. left. apply A2. now left.
    + intros w y W Y. rewrite in_app_iff in W. apply (B3 w y); auto. rewrite in_app_iff. tauto.
    + intros x X. rewrite in_app_iff in X. destruct X as [X|X].
      * destruct (A4 x X) as (z & [<-|[]] & R). exists h. split; [now left|auto].
      * destruct (B4 x X) as (z & Z & R). exists z. split; [now right|auto].
    + apply NoDup_app_disjoint; auto. intros x X Y. apply (B6 x Y), A1. auto.
    + intros x X. rewrite in_app_iff in X. destruct X as [X|X]; [now apply A6|].
      intros Y. apply (B6 x X), A1. now left.
    + intros p x q F. apply app_split in F as [(q' & -> & ->)|(p' & -> & ->)].
      * apply (A7 p x q' eq_refl).
      * destruct (B7 p' x q eq_refl) as (Ox & C1 & C2 & C3). exists Ox. split; [exact C1|split].
        -- intros w y W Y. specialize (C2 w y). rewrite !in_app_iff in *. tauto.
        -- intros y Y. specialize (C3 y Y). rewrite !in_app_iff in *. tauto.
Qed.

Lemma visit_good f : forall h D O G o G', pre D O G -> visit f G h = Some (o, G') ->
  good [h] D O G o G'.
Proof.
  induction f as [|f IH]; intros h D O G o G' P E; [discriminate|]. cbn [visit] in E.
  destruct (mem_header h G) eqn:M.
  - injection E as <- <-. apply mem_header_In in M. destruct P as [P1 P2].
    split; [|split; [|split; [|split; [|split; [|split]]]]].
    + cbn; tauto.
    + intros x [<-|[]]. auto.
    + intros w y [W|[]]. apply P2, W.
    + intros x [].
    + constructor.
    + intros x [].
    + intros o1 x o2 F. destruct o1; discriminate.
  - apply mem_header_false in M.
    destruct (visits (visit f) (h :: G) (inc h)) as [[o0 G0]|] eqn:E0; [|discriminate].
    injection E as <- <-.
    assert (P' : pre D (h :: O) (h :: G)).
    { destruct P as [P1 P2]. split.
      - intros x. cbn. rewrite P1. tauto.
      - intros w y W Y. right. eapply P2; eauto. }
    destruct (visits_good (visit f) (inc h) (fun h' D O G o G' _ => IH h' D O G o G')
      D (h :: O) (h :: G) o0 G0 P' E0) as (B1 & B2 & B3 & B4 & B5 & B6 & B7).
    assert (RH : forall x, In x o0 -> reach inc h x).
    { intros x X. destruct (B4 x X) as (z & Z & R). eapply reach_step; eauto. }
    split; [|split; [|split; [|split; [|split; [|split]]]]].
    + intros x. rewrite B1, in_app_iff. cbn. tauto.
    + intros x [<-|[]]. apply B1. left. now left.
    + intros w y W Y. rewrite in_app_iff in W. destruct W as [W|[W|[<-|[]]]].
      * apply (B3 w y); auto.
      * apply (B3 w y); auto.
      * apply B2, Y.
    + intros x X. exists h. split; [now left|]. rewrite in_app_iff in X.
      destruct X as [X|[<-|[]]]; [auto|constructor].
    + apply NoDup_app_one; auto. intros X. apply (B6 h X). now left.
    + intros x X. rewrite in_app_iff in X. destruct X as [X|[<-|[]]]; [|auto].
      intros Y. apply (B6 x X). now right.
    + intros p x q F. apply app_split in F as [(q' & -> & ->)|(p' & -> & F)].
      * destruct (B7 p x q' eq_refl) as (Ox & C1 & C2 & C3). exists Ox. split; [|split; auto].
        intros z Z. destruct (C1 z Z) as [[<-|C]|C]; auto. right. apply RH.
        rewrite in_app_iff. right. now left.
      * destruct p' as [|? [|? ?]]; try discriminate. injection F as <- <-.
        exists (h :: O). rewrite app_nil_r. split; [|split].
        -- intros z [<-|Z]; [right; constructor|auto].
        -- intros w y W Y. pose proof (B3 w y W Y) as C. rewrite B1 in C. cbn in C |- *.
           destruct P as [P1 _]. rewrite P1 in C. tauto.
        -- intros y Y. pose proof (B2 y Y) as C. rewrite B1 in C. cbn in C |- *.
           destruct P as [P1 _]. rewrite P1 in C. tauto.
Qed.

End Visit.

(** *** Visits end *)

Lemma visits_grow inc f hs :
  (forall h (G o G' : list header), visit inc f G h = Some (o, G') -> NoDup G -> NoDup G' /\ (List.length G <= List.length G')%nat) ->
  forall (G o G' : list header), visits (visit inc f) G hs = Some (o, G') -> NoDup G ->
  NoDup G' /\ (List.length G <= List.length G')%nat.
Proof.
  intros V. induction hs as [|h hs IH]; intros G o G' E N; cbn [visits] in E.
  - injection E as <- <-. auto.
  - destruct (visit inc f G h) as [[o1 G1]|] eqn:E1; [|discriminate].
    destruct (visits _ G1 hs) as [[o2 G2]|] eqn:E2; [|discriminate]. injection E as <- <-.
    destruct (V _ _ _ _ E1 N) as [N1 L1]. destruct (IH _ _ _ E2 N1) as [N2 L2]. split; [auto|lia].
Qed.

Lemma visit_grow inc f : forall h (G o G' : list header),
  visit inc f G h = Some (o, G') -> NoDup G -> NoDup G' /\ (List.length G <= List.length G')%nat.
Proof.
  induction f as [|f IH]; intros h G o G' E N; [discriminate|]. cbn [visit] in E.
  destruct (mem_header h G) eqn:M; [injection E as <- <-; auto|]. apply mem_header_false in M.
  destruct (visits _ (h :: G) (inc h)) as [[o0 G0]|] eqn:E0; [|discriminate].
  injection E as <- <-. apply (visits_grow inc f _ IH) in E0; [|now constructor].
  cbn in E0. split; [tauto|lia].
Qed.

Lemma NoDup_headers (G : list header) : NoDup G -> (List.length G <= 35)%nat.
Proof.
  intros N. change 35%nat with (List.length all_headers).
  apply NoDup_incl_length; auto. intros x _. apply all_headers_In.
Qed.

Lemma visit_some inc f : forall h (G : list header), NoDup G -> (35 - List.length G < f)%nat ->
  exists o G', visit inc f G h = Some (o, G').
Proof.
  induction f as [|f IH]; intros h G N L; [lia|]. cbn [visit].
  destruct (mem_header h G) eqn:M; [eauto|]. apply mem_header_false in M.
  assert (N' : NoDup (h :: G)) by now constructor.
  pose proof (NoDup_headers _ N') as B. cbn [List.length] in B.
  assert (V : forall hs G1, NoDup G1 -> (35 - List.length G1 < f)%nat ->
    exists o G', visits (visit inc f) G1 hs = Some (o, G')).
  { induction hs as [|x hs IHs]; intros G1 N1 L1; cbn [visits]; [eauto|].
    destruct (IH x G1 N1 L1) as (o & G' & E). rewrite E.
    destruct (visit_grow _ _ _ _ _ _ E N1) as [N2 L2].
    destruct (IHs G' N2 ltac:(lia)) as (o2 & G2 & E2). rewrite E2. eauto. }
  destruct (V (inc h) (h :: G) N' ltac:(cbn [List.length]; lia)) as (o & G' & E). rewrite E. eauto.
Qed.

Lemma visits_some inc hs : forall G, NoDup G -> exists o G', visits (visit inc 36) G hs = Some (o, G').
Proof.
  induction hs as [|x hs IH]; intros G N; cbn [visits]; [eauto|].
  destruct (visit_some inc 36 x G N ltac:(lia)) as (o & G' & E). rewrite E.
  destruct (visit_grow _ _ _ _ _ _ E N) as [N2 _].
  destruct (IH G' N2) as (o2 & G2 & E2). rewrite E2. eauto.
Qed.

(** *** Visits from the beginning *)

Lemma visits_top inc hs o G' : visits (visit inc 36) [] hs = Some (o, G') ->
  NoDup o /\ (forall x, In x o <-> exists h, In h hs /\ reach inc h x) /\
  (forall o1 x o2 y p, o = o1 ++ x :: o2 -> In y (inc x) -> ~ reach inc y x -> reach inc y p -> In p o1) /\
  (forall o1 x o2 w y, o = o1 ++ x :: o2 -> In w o1 -> In y (inc w) -> ~ reach inc y x -> In y o1).
Proof.
  intros E.
  destruct (visits_good inc (visit inc 36) hs (fun h D O G o G' _ => visit_good inc 36 h D O G o G')
    [] [] [] o G') as (A1 & A2 & A3 & A4 & A5 & A6 & A7).
  { split; [cbn; tauto|intros w y []]. }
  { exact E. }
  split; [exact A5|split; [|split]].
  - intros x. split; [apply A4|]. intros (h & H & R).
    assert (I : In h o). { specialize (A2 h H). apply A1 in A2. destruct A2 as [[]|A2]; auto. }
    clear H. induction R as [h|a b c B R IH]; auto. apply IH.
    pose proof (A3 a b (or_intror I) B) as C. apply A1 in C. destruct C as [[]|C]; auto.
  - intros o1 x o2 y p S Y N R. destruct (A7 o1 x o2 S) as (Ox & C1 & C2 & C3).
    assert (I : In y o1).
    { destruct (C3 y Y) as [[]|[C|C]]; auto. destruct (C1 y C) as [[]|D]; contradiction. }
    clear Y. induction R as [h|a b c B R IH]; auto. apply IH.
    + intros F. apply N. eapply reach_step; eauto.
    + destruct (C2 a b (or_intror I) B) as [[]|[C|C]]; auto.
      destruct (C1 b C) as [[]|D]. exfalso. apply N. eapply reach_step; eauto.
  - intros o1 x o2 w y S W Y N. destruct (A7 o1 x o2 S) as (Ox & C1 & C2 & C3).
    destruct (C2 w y (or_intror W) Y) as [[]|[C|C]]; auto. destruct (C1 y C) as [[]|D]; contradiction.
Qed.

Definition reachable (inc : header -> list header) (h : header) : list header :=
  match visit inc 36 [] h with Some (o, _) => o | None => [] end.

Lemma reachable_In inc h x : In x (reachable inc h) <-> reach inc h x.
Proof.
  unfold reachable. destruct (visit_some inc 36 h [] (NoDup_nil _) ltac:(cbn [List.length]; lia)) as (o & G & E).
  rewrite E. assert (E' : visits (visit inc 36) [] [h] = Some (o, G)).
  { cbn [visits]. rewrite E, app_nil_r. reflexivity. }
  destruct (visits_top inc [h] o G E') as (_ & B & _). rewrite B. split.
  - intros (z & [<-|[]] & R). auto.
  - intros R. exists h. split; [now left|auto].
Qed.

Definition reachb inc a b := mem_header b (reachable inc a).

Lemma reachb_true inc a b : reachb inc a b = true <-> reach inc a b.
Proof. unfold reachb. rewrite mem_header_In. apply reachable_In. Qed.

Lemma reachb_false inc a b : reachb inc a b = false -> ~ reach inc a b.
Proof. intros F R. apply reachb_true in R. congruence. Qed.

(** *** Projection to some headers *)

Section Project.
Context (inc : header -> list header) (keep : header -> bool)
  (Hk : forall h y, keep h = false -> In y (inc h) -> keep y = false).

Lemma keep_reach h x : keep h = false -> reach inc h x -> keep x = false.
Proof. intros K R. revert K. induction R; auto. intros. apply IHR. eapply Hk; eauto. Qed.

Lemma mem_filter h G : keep h = true -> mem_header h (filter keep G) = mem_header h G.
Proof.
  intros K. destruct (mem_header h G) eqn:E.
  - apply mem_header_In in E. apply mem_header_In, filter_In. auto.
  - apply mem_header_false in E. apply mem_header_false. rewrite filter_In. tauto.
Qed.

Definition pv (f : nat) : Prop := forall G h o G', visit inc f G h = Some (o, G') ->
  (keep h = true -> visit (fun x => filter keep (inc x)) f (filter keep G) h = Some (filter keep o, filter keep G')) /\
  (keep h = false -> filter keep o = [] /\ filter keep G' = filter keep G).

Lemma project_visits f : pv f -> forall hs G o G', visits (visit inc f) G hs = Some (o, G') ->
  visits (visit (fun x => filter keep (inc x)) f) (filter keep G) (filter keep hs) =
    Some (filter keep o, filter keep G').
Proof.
  intros V. induction hs as [|h hs IH]; intros G o G' E; cbn [visits] in E.
  - injection E as <- <-. reflexivity.
  - destruct (visit inc f G h) as [[o1 G1]|] eqn:E1; [|discriminate].
    destruct (visits _ G1 hs) as [[o2 G2]|] eqn:E2; [|discriminate]. injection E as <- <-.
    specialize (IH _ _ _ E2). destruct (V _ _ _ _ E1) as [V1 V2]. rewrite filter_app. cbn [filter].
    destruct (keep h) eqn:K.
    + cbn [visits]. rewrite (V1 eq_refl), IH. reflexivity.
    + destruct (V2 eq_refl) as [-> V3]. rewrite V3 in IH. exact IH.
Qed.

Lemma project_visit f : pv f.
Proof.
  induction f as [|f IH]; intros G h o G' E; [discriminate|]. cbn [visit] in E |- *.
  destruct (mem_header h G) eqn:M.
  - injection E as <- <-. split; [|auto]. intros K. rewrite mem_filter, M by auto. reflexivity.
  - destruct (visits _ (h :: G) (inc h)) as [[o0 G0]|] eqn:E0; [|discriminate].
    injection E as <- <-. pose proof (project_visits f IH _ _ _ _ E0) as P. cbn [filter] in P.
    split; intros K; rewrite K in P; rewrite filter_app; cbn [filter]; rewrite K.
    + rewrite mem_filter, M, P by auto. reflexivity.
    + assert (F : filter keep (inc h) = []).
      { specialize (Hk h). clear - Hk K. induction (inc h) as [|y l IHl]; auto. cbn.
        rewrite (Hk y K (or_introl eq_refl)). apply IHl. intros z K' Z. apply Hk; auto. now right. }
      rewrite F in P. cbn [visits] in P. injection P as <- <-. auto.
Qed.

End Project.

(** ** From the preprocessor to visits *)

Definition all_flags : list flags :=
  [Flags false false false; Flags false false true; Flags false true false; Flags false true true;
   Flags true false false; Flags true false true; Flags true true false; Flags true true true].

Lemma all_flags_In fl : In fl all_flags.
Proof. destruct fl as [[|] [|] [|]]; cbv; tauto. Qed.

Definition guards_are (defs : list string) (G : list header) : Prop :=
  forall h, defined (guard h) defs = mem_header h G.

Definition is_guard (m : string) : bool := existsb (fun h => String.eqb (guard h) m) all_headers.

Lemma guards_define m defs G : is_guard m = false -> guards_are defs G -> guards_are (m :: defs) G.
Proof.
  intros N A h. unfold defined. cbn [existsb]. fold (defined (guard h) defs). rewrite (A h).
  destruct (String.eqb (guard h) m) eqn:E; auto.
  exfalso. unfold is_guard in N. assert (T : existsb (fun h => String.eqb (guard h) m) all_headers = true).
  { apply existsb_exists. exists h. split; [apply all_headers_In|exact E]. }
  congruence.
Qed.

Lemma guards_cons h defs G : guards_are defs G -> guards_are (guard h :: defs) (h :: G).
Proof.
  intros A x. unfold defined. cbn [existsb]. fold (defined (guard x) defs). rewrite (A x).
  destruct (header_eq_dec h x) as [<-|N].
  - rewrite String.eqb_refl. symmetry. apply mem_header_In. now left.
  - assert (F : String.eqb (guard x) (guard h) = false).
    { apply String.eqb_neq. intros E. apply N. symmetry. now apply guard_inj. }
    rewrite F. cbn. unfold mem_header.
    destruct (in_dec header_eq_dec x G), (in_dec header_eq_dec x (h :: G)) as [I|I]; auto.
    + exfalso. apply I. now right.
    + destruct I; congruence.
Qed.

Definition text_of (h : header) (b : list line) : list (header * Z * Z) :=
  flat_map (fun l => match l with Text a b => [(h, a, b)] | _ => [] end) b.
Definition incs_of (b : list line) : list header :=
  flat_map (fun l => match l with Include x => [x] | _ => [] end) b.

Fixpoint tidy (b : list line) : bool :=
  match b with
  | [] => true
  | Define m :: b' => negb (is_guard m) && tidy b'
  | Include x :: b' => (if header_eq_dec x std_tuple then false else true) && tidy b'
  | Text _ _ :: b' => match incs_of b' with [] => tidy b' | _ => false end
  | _ :: b' => tidy b'
  end.

Definition tidy_header (fl : flags) (h : header) : bool :=
  match body fl [] (lines h) with
  | Define m :: b => String.eqb m (guard h) && tidy b
  | _ => false
  end.

Lemma tidy_all fl h : tidy_header fl h = true.
Proof.
  assert (C : forallb (fun fl => forallb (tidy_header fl) all_headers) all_flags = true)
    by (vm_compute; reflexivity).
  rewrite forallb_forall in C. specialize (C fl (all_flags_In fl)).
  rewrite forallb_forall in C. apply C, all_headers_In.
Qed.

Definition pairs (fl : flags) (inc : list string -> header -> option (list (header * Z * Z) * list string))
    (v : list header -> header -> option (list header * list header)) : Prop :=
  forall h G o G' defs, h <> std_tuple -> guards_are defs G -> v G h = Some (o, G') ->
  exists d, inc defs h = Some (concat (map (own fl) o), d) /\ guards_are d G'.

Lemma run_pairs fl h inc v : pairs fl inc v -> forall b defs G o G', tidy b = true ->
  guards_are defs G -> visits v G (incs_of b) = Some (o, G') ->
  exists d, run h inc defs b = Some (concat (map (own fl) o) ++ text_of h b, d) /\ guards_are d G'.
Proof.
  intros V. induction b as [|l b IH]; intros defs G o G' T A E.
  - injection E as <- <-. exists defs. auto.
  - destruct l; cbn [tidy run text_of incs_of flat_map app] in T, E |- *;
      fold (incs_of b) in *; fold (text_of h b); try (apply (IH _ G); auto).
    + apply andb_true_iff in T. tauto.
    + apply andb_true_iff in T as [T _]. apply guards_define; auto. now apply negb_true_iff in T.
    + apply andb_true_iff in T as [T1 T2]. cbn [visits] in E.
      destruct (v G h0) as [[o1 G1]|] eqn:E1; [|discriminate].
      destruct (visits v G1 (incs_of b)) as [[o2 G2]|] eqn:E2; [|discriminate]. injection E as <- <-.
      destruct (V h0 G o1 G1 defs) as (d1 & R1 & A1); auto.
      { destruct (header_eq_dec h0 std_tuple); congruence. }
      rewrite R1. destruct (IH d1 G1 o2 G2 T2 A1 E2) as (d2 & R2 & A2). rewrite R2.
      exists d2. split; auto. now rewrite map_app, concat_app, app_assoc.
    + destruct (incs_of b) as [|] eqn:I; [|discriminate]. cbn [visits] in E. injection E as <- <-.
      destruct (IH defs G [] G T A eq_refl) as (d & R & A'). rewrite R. exists d. auto.
Qed.

Lemma include_pairs fl f : pairs fl (include fl f) (visit (includes fl) f).
Proof.
  induction f as [|f IH]; intros h G o G' defs N A E; [discriminate|]. cbn [visit include] in E |- *.
  pose proof (A h) as M. destruct (mem_header h G).
  - injection E as <- <-. rewrite process_guarded by auto. exists defs. auto.
  - rewrite process_open by auto.
    destruct (visits _ (h :: G) (includes fl h)) as [[o0 G0]|] eqn:E0; [|discriminate].
    injection E as <- <-. pose proof (tidy_all fl h) as T. unfold tidy_header in T.
    assert (I : includes fl h = incs_of (body fl [] (lines h))) by reflexivity.
    assert (W : own fl h = text_of h (body fl [] (lines h))) by reflexivity.
    destruct (body fl [] (lines h)) as [|[| | | | |m| | |] b]; try discriminate.
    apply andb_true_iff in T as [T1 T2]. apply String.eqb_eq in T1. subst m.
    cbn [incs_of flat_map app] in I. fold (incs_of b) in I. rewrite I in E0. cbn [run].
    destruct (run_pairs fl h _ _ IH b (guard h :: defs) (h :: G) o0 G0 T2 (guards_cons _ _ _ A) E0)
      as (d & R & A').
    rewrite R. exists d. split; auto. rewrite map_app, concat_app. cbn [map concat].
    rewrite app_nil_r, W. reflexivity.
Qed.

Lemma include_all_visits fl hs : ~ In std_tuple hs -> forall defs G o G', guards_are defs G ->
  visits (visit (includes fl) 36) G hs = Some (o, G') ->
  exists d, include_all fl defs hs = Some (concat (map (own fl) o), d) /\ guards_are d G'.
Proof.
  induction hs as [|h hs IH]; intros N defs G o G' A E; cbn [visits] in E.
  - injection E as <- <-. exists defs. auto.
  - destruct (visit _ 36 G h) as [[o1 G1]|] eqn:E1; [|discriminate].
    destruct (visits _ G1 hs) as [[o2 G2]|] eqn:E2; [|discriminate]. injection E as <- <-.
    destruct (include_pairs fl 36 h G o1 G1 defs) as (d1 & R1 & A1); auto.
    { intros ->. apply N. now left. }
    destruct (IH (fun I => N (or_intror I)) d1 G1 o2 G2 A1 E2) as (d2 & R2 & A2).
    cbn [include_all]. rewrite R1, R2. exists d2. split; auto. now rewrite map_app, concat_app.
Qed.

Lemma include_tuple fl f defs : include fl f defs std_tuple = None.
Proof.
  destruct f; [reflexivity|]. cbn [include lines process is_active andb].
  reflexivity.
Qed.

Lemma include_all_tuple fl hs : In std_tuple hs -> forall defs, include_all fl defs hs = None.
Proof.
  induction hs as [|h hs IH]; intros I defs; [destruct I|]. cbn [include_all].
  destruct (header_eq_dec h std_tuple) as [->|N].
  - rewrite include_tuple. reflexivity.
  - destruct I as [I|I]; [congruence|]. destruct (include fl 36 defs h) as [[t d]|]; auto.
    rewrite IH; auto.
Qed.

Lemma include_all_none fl hs : forall defs, guards_are defs [] -> ~ In std_tuple hs ->
  exists o d, include_all fl defs hs = Some (concat (map (own fl) o), d) /\
    exists G', visits (visit (includes fl) 36) [] hs = Some (o, G').
Proof.
  intros defs A N. destruct (visits_some (includes fl) hs [] (NoDup_nil _)) as (o & G' & E).
  destruct (include_all_visits fl hs N defs [] o G' A E) as (d & R & _). eauto 6.
Qed.

(** ** Names *)

Lemma own_header fl h c : In c (own fl h) -> exists a b, c = (h, a, b).
Proof.
  unfold own. rewrite in_flat_map. intros (l & _ & I). destruct l; cbn in I; try contradiction.
  destruct I as [<-|[]]. eauto.
Qed.

Lemma concat_split fl o : forall before u a b after,
  concat (map (own fl) o) = before ++ (u, a, b) :: after ->
  exists o1 o2, o = o1 ++ u :: o2 /\ incl (concat (map (own fl) o1)) before.
Proof.
  induction o as [|h o IH]; intros before u a b after E; cbn [map concat] in E.
  - destruct before; discriminate.
  - apply app_split in E as [(q & E & _)|(p & -> & E)].
    + assert (I : In (u, a, b) (own fl h)). { rewrite E, in_app_iff. right. now left. }
      apply own_header in I as (a' & b' & I). injection I as <- <- <-.
      exists [], o. split; [reflexivity|]. intros c [].
    + destruct (IH _ _ _ _ _ E) as (o1 & o2 & -> & I). exists (h :: o1), o2. split; [reflexivity|].
      cbn [map concat]. apply incl_app; [now apply incl_appl, incl_refl|now apply incl_appr].
Qed.

Lemma In_text fl o c : In c (concat (map (own fl) o)) -> In (fst (fst c)) o.
Proof.
  rewrite in_concat. intros (l & L & I). apply in_map_iff in L as (h & <- & H).
  apply own_header in I as (a & b & ->). exact H.
Qed.

(** [found], for an order of headers. *)
Definition order_found (need : header -> list string) (fl : flags) (o : list header) : Prop :=
  forall o1 u o2 n, o = o1 ++ u :: o2 -> In n (need u) -> exists p, In p o1 /\ In n (declares fl p).

Definition texts_check (need : header -> list string) (fl : flags) (h : header) : bool :=
  match own fl h with
  | _ :: _ => true
  | [] => match declares fl h, need h with [], [] => true | _, _ => false end
  end.

Lemma found_order need fl o : (forall h, texts_check need fl h = true) ->
  found need fl (concat (map (own fl) o)) <-> order_found need fl o.
Proof.
  intros T. split.
  - intros F o1 u o2 n -> N.
    assert (W : exists a b w, own fl u = (u, a, b) :: w).
    { specialize (T u). unfold texts_check in T. destruct (own fl u) as [|c w] eqn:W.
      - destruct (declares fl u); [|discriminate]. destruct (need u); [destruct N|discriminate].
      - destruct (own_header fl u c) as (a & b & ->); [rewrite W; now left|]. eauto. }
    destruct W as (a & b & w & W).
    destruct (F (concat (map (own fl) o1)) u a b (w ++ concat (map (own fl) o2)) n) as (p & c & d & I & D).
    + rewrite map_app, concat_app. cbn [map concat]. rewrite W. reflexivity.
    + exact N.
    + exists p. split; auto. apply In_text in I. exact I.
  - intros F before u a b after n E N. destruct (concat_split _ _ _ _ _ _ _ E) as (o1 & o2 & -> & I).
    destruct (F o1 u o2 n eq_refl N) as (p & P & D).
    specialize (T p). unfold texts_check in T. destruct (own fl p) as [|c w] eqn:W.
    + destruct (declares fl p); [destruct D|discriminate].
    + destruct (own_header fl p c) as (x & y & ->); [rewrite W; now left|].
      exists p, x, y. split; auto. apply I. apply in_concat. exists (own fl p). split.
      * apply in_map, P.
      * rewrite W. now left.
Qed.

Lemma texts_uses fl h : texts_check uses fl h = true.
Proof. destruct fl as [[|] [|] [|]], h; vm_compute; reflexivity. Qed.
Lemma texts_calls fl h : texts_check calls fl h = true.
Proof. destruct fl as [[|] [|] [|]], h; vm_compute; reflexivity. Qed.

(** A need met by a header included directly that does not lead back. *)
Definition plain (fl : flags) (u : header) (n : string) : bool :=
  existsb (fun y => negb (reachb (includes fl) y u) &&
    existsb (fun p => existsb (String.eqb n) (declares fl p)) (reachable (includes fl) y))
    (includes fl u).

Lemma plain_found fl hs o G' o1 u o2 n :
  visits (visit (includes fl) 36) [] hs = Some (o, G') -> o = o1 ++ u :: o2 ->
  plain fl u n = true -> exists p, In p o1 /\ In n (declares fl p).
Proof.
  intros E S P. destruct (visits_top _ _ _ _ E) as (_ & _ & T & _).
  unfold plain in P. apply existsb_exists in P as (y & Y & P). apply andb_true_iff in P as [P1 P2].
  apply negb_true_iff, reachb_false in P1. apply existsb_exists in P2 as (p & R & P2).
  apply reachable_In in R. apply existsb_exists in P2 as (n' & D & Q). apply String.eqb_eq in Q. subst n'.
  exists p. split; auto. eapply T; eauto.
Qed.

Definition uses_check (fl : flags) (u : header) : bool :=
  forallb (fun n => plain fl u n
    || (AVR fl && String.eqb n "std20::polar" && mem_header u [dsp_biquad; dsp_onepole])
    || (negb (AVR fl) && String.eqb n "std20::is_same_v" && mem_header u [mcu_register])
    || (mem_header u [dsp_filter] &&
        (String.eqb n "dsp::BiQuadT" || existsb (String.eqb n) (declares fl dsp_biquad_design)))) (uses u).

Lemma uses_checked fl u : uses_check fl u = true.
Proof.
  assert (C : forallb (fun fl => forallb (uses_check fl) all_headers) all_flags = true)
    by (vm_compute; reflexivity).
  rewrite forallb_forall in C. specialize (C fl (all_flags_In fl)).
  rewrite forallb_forall in C. apply C, all_headers_In.
Qed.

(** *** The cycle *)

Definition keep (h : header) : bool := mem_header h designs.

Lemma keep_closed fl h y : keep h = false -> In y (includes fl h) -> keep y = false.
Proof.
  assert (C : forallb (fun fl => forallb (fun h => implb (negb (keep h))
     (forallb (fun y => negb (keep y)) (includes fl h))) all_headers) all_flags = true)
    by (vm_compute; reflexivity).
  rewrite forallb_forall in C. specialize (C fl (all_flags_In fl)).
  rewrite forallb_forall in C. specialize (C h (all_headers_In h)).
  intros K Y. rewrite K in C. cbn in C. rewrite forallb_forall in C. specialize (C y Y).
  now apply negb_true_iff in C.
Qed.

Definition cycle_order (h : header) : list header :=
  match h with
  | dsp_filter => [dsp_filter_design; dsp_biquad_design; dsp_filter]
  | dsp_biquad_design => [dsp_filter; dsp_filter_design; dsp_biquad_design]
  | dsp_filter_design => [dsp_biquad_design; dsp_filter; dsp_filter_design]
  | dsp_onepole_design => [dsp_biquad_design; dsp_filter; dsp_filter_design; dsp_onepole_design]
  | dsp_chebyshev_design => [dsp_biquad_design; dsp_filter; dsp_filter_design; dsp_chebyshev_design]
  | dsp_chebyshev_design_io =>
    [dsp_biquad_design; dsp_filter; dsp_filter_design; dsp_chebyshev_design; dsp_chebyshev_design_io]
  | _ => []
  end.

Lemma cycle_visit fl h : keep h = true ->
  exists G, visit (fun x => filter keep (includes fl x)) 36 [] h = Some (cycle_order h, G).
Proof.
  assert (C : forallb (fun fl => forallb (fun h => implb (keep h)
     (match visit (fun x => filter keep (includes fl x)) 36 [] h with
      | Some (o, _) => if list_eq_dec header_eq_dec o (cycle_order h) then true else false
      | None => false end)) all_headers) all_flags = true) by (vm_compute; reflexivity).
  rewrite forallb_forall in C. specialize (C fl (all_flags_In fl)).
  rewrite forallb_forall in C. specialize (C h (all_headers_In h)).
  intros K. rewrite K in C. cbn [implb] in C.
  destruct (visit _ 36 [] h) as [[o G]|]; [|discriminate].
  destruct list_eq_dec; [|discriminate]. subst. eauto.
Qed.

Lemma find_split {A} (f : A -> bool) l x : find f l = Some x ->
  exists l1 l2, l = l1 ++ x :: l2 /\ f x = true /\ (forall y, In y l1 -> f y = false).
Proof.
  induction l as [|a l IH]; cbn; [discriminate|]. destruct (f a) eqn:F; intros E.
  - injection E as <-. exists [], l. split; [reflexivity|]. split; auto. intros y [].
  - destruct (IH E) as (l1 & l2 & -> & K & N). exists (a :: l1), l2. split; [reflexivity|].
    split; auto. intros y [<-|Y]; auto.
Qed.

Lemma filter_none {A} (f : A -> bool) l : (forall x, In x l -> f x = false) -> filter f l = [].
Proof. induction l as [|a l IH]; cbn; auto. intros H. rewrite (H a) by now left. apply IH. intros; apply H; now right. Qed.

Lemma visits_app v a : forall G b, visits v G (a ++ b) =
  match visits v G a with
  | Some (o1, G1) => match visits v G1 b with Some (o2, G2) => Some (o1 ++ o2, G2) | None => None end
  | None => None
  end.
Proof.
  induction a as [|h a IH]; intros G b; cbn [visits app].
  - destruct (visits v G b) as [[o G']|]; reflexivity.
  - destruct (v G h) as [[o1 G1]|]; auto. rewrite IH.
    destruct (visits v G1 a) as [[o2 G2]|]; auto.
    destruct (visits v G2 b) as [[o3 G3]|]; auto. now rewrite app_assoc.
Qed.

Lemma cycle_first fl hs o G' : visits (visit (includes fl) 36) [] hs = Some (o, G') ->
  match first_design hs with
  | Some h => exists rest, filter keep o = cycle_order h ++ rest
  | None => filter keep o = []
  end.
Proof.
  intros E. destruct (first_design hs) as [h|] eqn:F; unfold first_design in F.
  - apply find_split in F as (l1 & l2 & -> & K & N).
    pose proof (project_visits (includes fl) keep 36
      (project_visit (includes fl) keep (keep_closed fl) 36) _ _ _ _ E) as P.
    rewrite filter_app in P. rewrite (filter_none keep l1) in P by exact N. cbn [filter app] in P.
    change (keep h) with (mem_header h designs) in P. rewrite K in P. cbn [visits filter] in P.
    destruct (cycle_visit fl h K) as (G & C). rewrite C in P.
    destruct (visits _ G _) as [[o2 G2]|]; [|discriminate]. injection P as P _. eauto.
  - apply filter_none. intros x X. destruct (visits_top _ _ _ _ E) as (_ & T & _).
    apply T in X as (h & H & R). apply (keep_reach (includes fl) keep (keep_closed fl) h x); auto.
    exact (find_none _ _ F h H).
Qed.

Lemma nodup_split {A} (l : list A) : NoDup l -> forall a x b c d, l = a ++ x :: b -> l = c ++ x :: d -> a = c.
Proof.
  induction 1 as [|y l N1 N2 IH]; intros a x b c d E1 E2; [destruct a; discriminate|].
  destruct a as [|y1 a], c as [|y2 c]; cbn in E1, E2; auto.
  - injection E1 as -> ->. injection E2 as <- E. exfalso. apply N1. rewrite E, in_app_iff. right. now left.
  - injection E2 as -> ->. injection E1 as <- E. exfalso. apply N1. rewrite E, in_app_iff. right. now left.
  - injection E1 as -> E1. injection E2 as -> E2. f_equal. eapply IH; eauto.
Qed.

(** The designs before a header of the cycle. *)
Lemma cycle_before fl hs o G' o1 u o2 h a b :
  visits (visit (includes fl) 36) [] hs = Some (o, G') -> o = o1 ++ u :: o2 ->
  first_design hs = Some h -> keep u = true -> cycle_order h = a ++ u :: b ->
  filter keep o1 = a.
Proof.
  intros E -> F K C. destruct (visits_top _ _ _ _ E) as (N & _).
  pose proof (cycle_first _ _ _ _ E) as P. rewrite F in P. destruct P as (rest & P).
  apply (NoDup_filter keep) in N. rewrite filter_app in P, N. cbn [filter] in P, N. rewrite K in P, N.
  rewrite C, <- app_assoc in P. cbn [app] in P. exact (nodup_split _ N _ _ _ _ _ eq_refl P).
Qed.

Lemma design_in fl hs o G' u : visits (visit (includes fl) 36) [] hs = Some (o, G') ->
  In u o -> keep u = true -> exists h, first_design hs = Some h /\ keep h = true.
Proof.
  intros E U K. pose proof (cycle_first _ _ _ _ E) as P. destruct (first_design hs) as [h|] eqn:F.
  - exists h. split; auto. apply find_some in F. apply F.
  - exfalso. assert (I : In u (filter keep o)) by (apply filter_In; auto). rewrite P in I. destruct I.
Qed.

Lemma keep_cases h : keep h = true -> In h designs.
Proof. unfold keep. apply mem_header_In. Qed.

Lemma declares_only fl n l : 
  forallb (fun p => implb (existsb (String.eqb n) (declares fl p)) (mem_header p l)) all_headers = true ->
  forall p, In n (declares fl p) -> In p l.
Proof.
  intros C p D. rewrite forallb_forall in C. specialize (C p (all_headers_In p)).
  assert (X : existsb (String.eqb n) (declares fl p) = true).
  { apply existsb_exists. exists n. split; auto. apply String.eqb_refl. }
  rewrite X in C. now apply mem_header_In.
Qed.

Lemma filters_reach fl h : In h filters -> reach (includes fl) h dsp_biquad \/ reach (includes fl) h dsp_onepole.
Proof.
  assert (C : forallb (fun fl => forallb (fun h => reachb (includes fl) h dsp_biquad
    || reachb (includes fl) h dsp_onepole) filters) all_flags = true) by (vm_compute; reflexivity).
  rewrite forallb_forall in C. specialize (C fl (all_flags_In fl)). rewrite forallb_forall in C.
  intros I. specialize (C h I). apply orb_true_iff in C. rewrite !reachb_true in C. exact C.
Qed.

Lemma filters_only fl h : reach (includes fl) h dsp_biquad \/ reach (includes fl) h dsp_onepole -> In h filters.
Proof.
  assert (C : forallb (fun fl => forallb (fun h => implb (reachb (includes fl) h dsp_biquad
    || reachb (includes fl) h dsp_onepole) (mem_header h filters)) all_headers) all_flags = true)
    by (vm_compute; reflexivity).
  rewrite forallb_forall in C. specialize (C fl (all_flags_In fl)). rewrite forallb_forall in C.
  specialize (C h (all_headers_In h)). rewrite <- !reachb_true, <- orb_true_iff. intros R. rewrite R in C.
  now apply mem_header_In.
Qed.

Lemma registers_reach fl h : In h registers <-> reach (includes fl) h mcu_register.
Proof.
  assert (C : forallb (fun fl => forallb (fun h => Bool.eqb (reachb (includes fl) h mcu_register)
    (mem_header h registers)) all_headers) all_flags = true) by (vm_compute; reflexivity).
  rewrite forallb_forall in C. specialize (C fl (all_flags_In fl)). rewrite forallb_forall in C.
  specialize (C h (all_headers_In h)). apply Bool.eqb_prop in C.
  rewrite <- mem_header_In, <- reachb_true, C. tauto.
Qed.

Lemma flags_only fl n l :
  forallb (fun fl => forallb (fun p => implb (existsb (String.eqb n) (declares fl p)) (mem_header p (l fl))) all_headers) all_flags = true ->
  forall p, In n (declares fl p) -> In p (l fl).
Proof.
  intros C. rewrite forallb_forall in C. specialize (C fl (all_flags_In fl)). now apply declares_only.
Qed.

Lemma order_uses fl hs o G' : visits (visit (includes fl) 36) [] hs = Some (o, G') ->
  order_found uses fl o <->
    first_design hs <> Some dsp_biquad_design /\
    (forall h, In h hs -> if AVR fl then ~ In h filters else ~ In h registers).
Proof.
  intros E. destruct (visits_top _ _ _ _ E) as (N & T1 & T2 & T3). split.
  - intros F. split.
    + intros D. assert (I : In dsp_filter o).
      { apply T1. exists dsp_biquad_design. split.
        - apply find_some in D. apply D.
        - apply reachb_true. destruct fl as [[|] [|] [|]]; vm_compute; reflexivity. }
      apply in_split in I as (o1 & o2 & S).
      pose proof (cycle_before fl hs o G' o1 dsp_filter o2 dsp_biquad_design [] _ E S D eq_refl eq_refl) as C.
      destruct (F o1 dsp_filter o2 "dsp::FilterResponse"%string S) as (p & P & Q); [cbv; tauto|].
      pose proof (flags_only fl "dsp::FilterResponse" (fun _ => [dsp_biquad_design]) ltac:(vm_compute; reflexivity) p Q) as B.
      destruct B as [<-|[]]. assert (X : In dsp_biquad_design (filter keep o1)) by (apply filter_In; auto).
      rewrite C in X. destruct X.
    + intros h H. destruct (AVR fl) eqn:A; intros B.
      * assert (Z : exists u, In u o /\ (u = dsp_biquad \/ u = dsp_onepole)).
        { destruct (filters_reach fl h B) as [R|R]; eexists; (split; [apply T1; eauto|auto]). }
        destruct Z as (u & I & U). apply in_split in I as (o1 & o2 & S).
        destruct (F o1 u o2 "std20::polar"%string S) as (p & P & Q);
          [destruct U; subst; cbv; tauto|].
        pose proof (flags_only fl "std20::polar" (fun fl => if AVR fl then [] else [std_complex]) ltac:(vm_compute; reflexivity) p Q) as Z.
        cbn beta in Z. rewrite A in Z. destruct Z.
      * apply (registers_reach fl) in B. assert (I : In mcu_register o) by (apply T1; eauto).
        apply in_split in I as (o1 & o2 & S).
        destruct (F o1 mcu_register o2 "std20::is_same_v"%string S) as (p & P & Q); [cbv; tauto|].
        pose proof (flags_only fl "std20::is_same_v" (fun fl => if AVR fl then [std_type_traits] else []) ltac:(vm_compute; reflexivity) p Q) as Z.
        cbn beta in Z. rewrite A in Z. destruct Z.
  - intros [D H] o1 u o2 n S U. pose proof (uses_checked fl u) as C. unfold uses_check in C.
    rewrite forallb_forall in C. specialize (C n U).
    assert (IU : In u o) by (rewrite S, in_app_iff; right; now left).
    apply orb_true_iff in C as [C|C]; [apply orb_true_iff in C as [C|C]; [apply orb_true_iff in C as [C|C]|]|].
    + eapply plain_found; eauto.
    + exfalso. rewrite !andb_true_iff, mem_header_In in C. destruct C as [[A _] M]. rewrite A in H.
      apply T1 in IU as (h & Hh & R). apply (H h Hh). apply (filters_only fl).
      destruct M as [<-|[<-|[]]]; auto.
    + exfalso. rewrite !andb_true_iff, negb_true_iff, mem_header_In in C. destruct C as [[A _] M]. rewrite A in H.
      apply T1 in IU as (h & Hh & R). apply (H h Hh). apply (registers_reach fl).
      destruct M as [<-|[]]; auto.
    + rewrite andb_true_iff, mem_header_In in C. destruct C as [[<-|[]] C].
      destruct (design_in fl hs o G' dsp_filter E IU eq_refl) as (h & Fh & Kh).
      assert (B : In dsp_biquad_design o1).
      { assert (X : In dsp_biquad_design (filter keep o1)); [|now apply filter_In in X].
        apply keep_cases in Kh.
        destruct Kh as [<-|[<-|[<-|[<-|[<-|[<-|[]]]]]]];
          try (rewrite (cycle_before fl hs o G' o1 dsp_filter o2 _ [dsp_biquad_design] _ E S Fh eq_refl eq_refl); now left).
        - rewrite (cycle_before fl hs o G' o1 dsp_filter o2 _ [dsp_filter_design; dsp_biquad_design] _ E S Fh eq_refl eq_refl).
          right; now left.
        - congruence. }
      apply orb_true_iff in C as [C|C].
      * apply String.eqb_eq in C. subst n. exists dsp_biquad. split.
        -- apply (T3 o1 dsp_filter o2 dsp_biquad_design dsp_biquad S B).
           ++ destruct fl as [[|] [|] [|]]; vm_compute; tauto.
           ++ apply reachb_false. destruct fl as [[|] [|] [|]]; vm_compute; reflexivity.
        -- cbv; tauto.
      * apply existsb_exists in C as (n' & C & Q). apply String.eqb_eq in Q. subst n'. eauto.
Qed.

Lemma order_calls fl hs o G' : visits (visit (includes fl) 36) [] hs = Some (o, G') ->
  order_found calls fl o <->
    first_design hs = None \/ first_design hs = Some dsp_filter \/ first_design hs = Some dsp_biquad_design.
Proof.
  intros E. destruct (visits_top _ _ _ _ E) as (N & T1 & T2 & T3).
  assert (X : forall h o1 o2 a b, o = o1 ++ dsp_biquad_design :: o2 -> first_design hs = Some h ->
    cycle_order h = a ++ dsp_biquad_design :: b -> filter keep o1 = a).
  { intros h o1 o2 a b S F C. exact (cycle_before fl hs o G' o1 _ o2 h a b E S F eq_refl C). }
  split.
  - intros F. destruct (first_design hs) as [h|] eqn:D; [|auto]. right.
    assert (K : In h designs) by (apply keep_cases; apply find_some in D; apply D).
    assert (I : In dsp_biquad_design o).
    { apply T1. exists h. split; [apply find_some in D; apply D|].
      apply reachb_true. clear -K. destruct K as [<-|[<-|[<-|[<-|[<-|[<-|[]]]]]]];
        destruct fl as [[|] [|] [|]]; vm_compute; reflexivity. }
    apply in_split in I as (o1 & o2 & S).
    destruct (F o1 dsp_biquad_design o2 "dsp::prewarp"%string S) as (p & P & Q); [cbv; tauto|].
    pose proof (flags_only fl "dsp::prewarp" (fun _ => [dsp_filter_design]) ltac:(vm_compute; reflexivity) p Q) as B.
    destruct B as [<-|[]]. assert (Y : In dsp_filter_design (filter keep o1)) by (apply filter_In; auto).
    destruct K as [<-|[<-|K]]; auto.
    exfalso. assert (Z : filter keep o1 = []).
    { destruct K as [<-|[<-|[<-|[<-|[]]]]]; eapply X; try reflexivity; eauto. }
    rewrite Z in Y. destruct Y.
  - intros D o1 u o2 n S U.
    assert (IU : In u o) by (rewrite S, in_app_iff; right; now left).
    destruct u; cbn in U; try contradiction.
    + assert (Y : In dsp_filter_design o1).
      { assert (Y : In dsp_filter_design (filter keep o1)); [|now apply filter_In in Y].
        destruct D as [D|[D|D]].
        - destruct (design_in fl hs o G' dsp_biquad_design E IU eq_refl) as (h & Fh & _). congruence.
        - rewrite (X dsp_filter o1 o2 [dsp_filter_design] _ S D eq_refl). now left.
        - rewrite (X dsp_biquad_design o1 o2 [dsp_filter; dsp_filter_design] _ S D eq_refl). right; now left. }
      exists dsp_filter_design. split; [exact Y|]. destruct U as [<-|[<-|[]]]; cbv; tauto.
    + destruct U as [<-|[]]. eapply plain_found; eauto.
      destruct fl as [[|] [|] [|]]; vm_compute; reflexivity.
Qed.
