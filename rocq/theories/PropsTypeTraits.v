(** * The replacement of <type_traits> on AVR

    C158 of properties.jsonl: std/type_traits.hpp, std/limits.hpp, num/fixed-point.hpp,
    std/utility.hpp. *)

From Coq Require Import List Bool Arith Lia.
From Verif Require Import TypeTraits TypeTraitsSpec.
Import ListNotations.

(** ** References *)

(** C158. The type without reference: it is no reference, and the given type is it or a
    reference to it; there is only one such type. *)
Theorem C158_remove_reference : forall t, wf t ->
  let r := remove_reference t in
  is_ref r = false /\ wf r /\ (t = r \/ t = LRef r \/ t = RRef r) /\
  (forall s, is_ref s = false -> (t = s \/ t = LRef s \/ t = RRef s) -> s = r).
Proof.
  intros t W r. unfold r. destruct t as [c v b|c v t|n t|t|t]; cbn [remove_reference].
  1-3: split; [reflexivity|]; split; [exact W|]; split; [now left|]; intros s _ [H|[H|H]]; congruence.
  - destruct W as [W1 W2]. split; [exact W1|]. split; [exact W2|]. split; [now right; left|].
    intros s Hs [H|[H|H]]; [subst s; discriminate|congruence|congruence].
  - destruct W as [W1 W2]. split; [exact W1|]. split; [exact W2|]. split; [now right; right|].
    intros s Hs [H|[H|H]]; [subst s; discriminate|congruence|congruence].
Qed.
Print Assumptions C158_remove_reference.

(** ** Qualification *)

Lemma const_none t : match_const t = None <-> has_const t = false.
Proof.
  induction t as [c v b|c v t|n t IH|t|t]; cbn; try (destruct c); split; intros H; try reflexivity; try discriminate.
  - apply IH. destruct (match_const t); [discriminate|reflexivity].
  - apply IH in H. now rewrite H.
Qed.
Lemma volatile_none t : match_volatile t = None <-> has_volatile t = false.
Proof.
  induction t as [c v b|c v t|n t IH|t|t]; cbn; try (destruct v); split; intros H; try reflexivity; try discriminate.
  - apply IH. destruct (match_volatile t); [discriminate|reflexivity].
  - apply IH in H. now rewrite H.
Qed.

Lemma remove_const_props t : has_const (remove_const t) = false /\ has_volatile (remove_const t) = has_volatile t /\
  t = add_cv (has_const t) false (remove_const t).
Proof.
  unfold remove_const.
  induction t as [c v b|c v t|n t IH|t|t]; cbn; try (destruct c; cbn; auto; fail); try (now auto).
  destruct (match_const t) as [u|] eqn:E; cbn in *; destruct IH as (A & B & C); (split; [exact A|]; split; [exact B|]; f_equal; exact C).
Qed.
Lemma remove_volatile_props t : has_volatile (remove_volatile t) = false /\ has_const (remove_volatile t) = has_const t /\
  t = add_cv false (has_volatile t) (remove_volatile t).
Proof.
  unfold remove_volatile.
  induction t as [c v b|c v t|n t IH|t|t]; cbn; try (destruct v; cbn; auto; fail); try (now auto).
  destruct (match_volatile t) as [u|] eqn:E; cbn in *; destruct IH as (A & B & C); (split; [exact A|]; split; [exact B|]; f_equal; exact C).
Qed.
Lemma add_cv_add c v c' v' t : add_cv c v (add_cv c' v' t) = add_cv (c || c') (v || v') t.
Proof. induction t as [a b d|a b d|n t IH|t|t]; cbn; try reflexivity; try (now rewrite !orb_assoc). now rewrite IH. Qed.
Lemma add_cv_inj c v s : has_const s = false -> has_volatile s = false -> forall c' v' s',
  has_const s' = false -> has_volatile s' = false -> add_cv c v s = add_cv c' v' s' -> s = s'.
Proof.
  induction s as [a b d|a b d|n t IH|t|t]; intros H1 H2 c' v' [a' b' d'|a' b' d'|n' t'|t'|t'] H1' H2' E; cbn in *; try discriminate; try congruence.
  injection E as -> E. f_equal. eapply IH; eauto.
Qed.

Theorem C158_remove_cv : forall t,
  let r := remove_cv t in
  has_const r = false /\ has_volatile r = false /\ (exists c v, t = add_cv c v r) /\
  (forall s c v, has_const s = false -> has_volatile s = false -> t = add_cv c v s -> s = r) /\
  remove_const (remove_volatile t) = r.
Proof.
  intros t r. unfold r, remove_cv.
  destruct (remove_const_props t) as (A1 & A2 & A3).
  destruct (remove_volatile_props (remove_const t)) as (B1 & B2 & B3).
  assert (X : exists c v, t = add_cv c v (remove_volatile (remove_const t))).
  { exists (has_const t), (has_volatile t). rewrite A3 at 1. rewrite B3 at 1. rewrite add_cv_add, A2, orb_false_r. reflexivity. }
  assert (U : forall s c v, has_const s = false -> has_volatile s = false -> t = add_cv c v s -> s = remove_volatile (remove_const t)).
  { intros s c v H1 H2 E. destruct X as (c' & v' & X). rewrite X in E at 1.
    symmetry. eapply add_cv_inj; [| |exact H1|exact H2|exact E]; [rewrite B2; exact A1|exact B1]. }
  split; [rewrite B2; exact A1|]. split; [exact B1|]. split; [exact X|]. split; [exact U|].
  destruct (remove_volatile_props t) as (C1 & C2 & C3).
  destruct (remove_const_props (remove_volatile t)) as (D1 & D2 & D3).
  apply (U _ (has_const t) (has_volatile t)); [exact D1|rewrite D2; exact C1|].
  rewrite C3 at 1. rewrite D3 at 1. rewrite add_cv_add, C2, orb_false_r. reflexivity.
Qed.
Print Assumptions C158_remove_cv.

(** [remove_const] and [remove_volatile] take away the one and leave the other. *)
Theorem C158_remove_one : forall t,
  has_const (remove_const t) = false /\ has_volatile (remove_const t) = has_volatile t /\
  t = add_cv (has_const t) false (remove_const t) /\
  has_volatile (remove_volatile t) = false /\ has_const (remove_volatile t) = has_const t /\
  t = add_cv false (has_volatile t) (remove_volatile t).
Proof.
  intros t. destruct (remove_const_props t) as (A & B & C). destruct (remove_volatile_props t) as (D & E & F). auto 10.
Qed.
Print Assumptions C158_remove_one.

(** ** Equality *)
Lemma base_eqb_eq a b : base_eqb a b = true <-> a = b.
Proof.
  destruct a, b; cbn; try rewrite Nat.eqb_eq; split; intros H; try congruence; try discriminate; try reflexivity.
Qed.
Lemma ty_eqb_eq : forall t u, ty_eqb t u = true <-> t = u.
Proof.
  induction t as [c v b|c v t IH|n t IH|t IH|t IH]; intros [c' v' b'|c' v' t'|n' t'|t'|t']; cbn;
    try (split; discriminate);
    rewrite ?andb_true_iff, ?Nat.eqb_eq, ?base_eqb_eq, ?IH, ?eqb_true_iff;
    split; intros H; try (destruct H as [[-> ->] ->] || destruct H as [-> ->] || subst; reflexivity); try (injection H; auto).
  all: try (intros; subst; auto). all: try congruence.
Qed.
Theorem C158_is_same : forall t u, is_same t u = true <-> t = u.
Proof. exact ty_eqb_eq. Qed.
Print Assumptions C158_is_same.

(** ** Integral and signed types *)

Lemma limits_obj c v b : limits (Obj c v b) =
  if c || v then None else
  match b with Float | Double => Some (true, false)
  | SChar | UChar | Int | UInt | Long | ULong | LLong | ULLong => Some (true, true) | _ => None end.
Proof. destruct c, v, b; reflexivity. Qed.
Lemma limits_other t : (forall c v b, t <> Obj c v b) -> limits t = None.
Proof. destruct t as [c v b|c v t|n t|t|t]; intros H; try reflexivity. now destruct (H c v b). Qed.

(** Where [is_integral] exists it is right; it exists for ten unqualified types only, among
    which [bool], [char], [short] and [unsigned short] are not. *)
Theorem C158_is_integral : forall t,
  (forall b, is_integral t = Some b -> b = std_integral t) /\
  (is_integral t <> None <-> exists b, t = Obj false false b /\
     In b [Float; Double; SChar; UChar; Int; UInt; Long; ULong; LLong; ULLong]).
Proof.
  intros t. destruct t as [c v b|c v t|n t|t|t].
  2-5: unfold is_integral; rewrite limits_other by discriminate; split; [discriminate|];
       split; [intros H; now destruct H|intros (b & H & _); discriminate].
  unfold is_integral. rewrite limits_obj. split.
  - intros x. destruct c, v, b; cbn; intros H; try discriminate; now injection H as <-.
  - split.
    + intros H. exists b. destruct c, v; cbn in H; try (now destruct H). split; [reflexivity|].
      destruct b; cbn in H; try (now destruct H); cbn; auto 12.
    + intros (b' & E & I). injection E as -> -> ->. cbn in I. decompose [or] I; subst; try discriminate; contradiction.
Qed.
Print Assumptions C158_is_integral.

(** [is_signed] is right exactly for the signed ones of these types. *)
Theorem C158_is_signed : forall t b, is_signed t = Some b ->
  b = true /\ (b = std_signed t <-> ~ exists u, t = Obj false false u /\ In u [UChar; UInt; ULong; ULLong]).
Proof.
  intros t x H. destruct t as [c v b|c v t|n t|t|t].
  2-5: unfold is_signed in H; rewrite limits_other in H by discriminate; discriminate.
  unfold is_signed in H. rewrite limits_obj in H.
  destruct c, v; cbn in H; try discriminate.
  destruct b; cbn in H; try discriminate; injection H as <-; (split; [reflexivity|]); cbn [std_signed]; split; intros X; try reflexivity;
    try discriminate; try (intros (u & E & I); injection E as <-; cbn in I; decompose [or] I; congruence || contradiction).
  all: exfalso; apply X; eexists; split; [reflexivity|cbn; auto].
Qed.
Print Assumptions C158_is_signed.

(** ** The types of which fixed-point numbers can be made *)

(** On AVR these are eight, four of them unsigned, which the standard traits would reject;
    multiplication and division, which need a wider type, exist for three of them. *)
Theorem C158_fixed_point : forall t,
  (fixed_point_ok t = true <-> exists b, t = Obj false false b /\ In b [SChar; UChar; Int; UInt; Long; ULong; LLong; ULLong]) /\
  (fixed_point_ok t = true /\ promote true t <> None <-> exists b, t = Obj false false b /\ In b [SChar; Int; Long]).
Proof.
  intros t. destruct t as [c v b|c v t|n t|t|t].
  2-5: unfold fixed_point_ok, is_signed; rewrite limits_other by discriminate; cbn [option_map];
       split; split; [discriminate|intros (b & H & _); discriminate|intros [H _]; discriminate|intros (b & H & _); discriminate].
  unfold fixed_point_ok, is_signed, is_integral. rewrite limits_obj. split; split.
  - intros H. exists b. destruct c, v; cbn in H; try discriminate. split; [reflexivity|].
    destruct b; cbn in H; try discriminate; cbn; auto 10.
  - intros (b' & E & I). injection E as -> -> ->. cbn in I. decompose [or] I; subst; try reflexivity; contradiction.
  - intros [H P]. exists b. destruct c, v; cbn in H; try discriminate. split; [reflexivity|].
    destruct b; cbn in H, P; try discriminate; cbn; auto; try (now destruct P).
  - intros (b' & E & I). injection E as -> -> ->. cbn in I. decompose [or] I; subst; try (split; [reflexivity|discriminate]); contradiction.
Qed.
Print Assumptions C158_fixed_point.

(** "require signed integral implementation type", fixed-point.hpp:66, is false in both
    directions. *)
Theorem C158_requirement_refuted :
  ~ (forall t, fixed_point_ok t = true -> std_signed t && std_integral t = true) /\
  ~ (forall t, std_signed t && std_integral t = true -> fixed_point_ok t = true).
Proof.
  split; intros H.
  - specialize (H (Obj false false UInt) eq_refl). discriminate.
  - specialize (H (Obj false false Short) eq_refl). discriminate.
Qed.
Print Assumptions C158_requirement_refuted.

(** [promote_t] is the type of twice the width, for the fixed-width types of the platform;
    [long long] on AVR and [long] on the desktop, both of 64 bits, have none, nor has a
    type of the same width under another name. *)
Theorem C158_promote : forall avr b r, promote avr (Obj false false b) = Some r ->
  exists b', r = Obj false false b' /\ width avr b' = 2 * width avr b /\ In b [SChar; Short; Int; Long].
Proof.
  intros avr b r. destruct avr, b; cbn; intros H; try discriminate; injection H as <-; eexists; (split; [reflexivity|]); cbn; auto 6.
Qed.
Print Assumptions C158_promote.
Theorem C158_promote_refuted :
  ~ (forall avr b, 0 < width avr b < 64 -> promote avr (Obj false false b) <> None).
Proof. intros H. apply (H true Short); [cbn; lia|reflexivity]. Qed.
Print Assumptions C158_promote_refuted.

(** ** move *)
(** Whatever its argument, an object or a value, [move] gives an rvalue reference to the
    argument's type. *)
Theorem C158_move : forall lvalue t, wf t -> is_ref t = false -> move_type lvalue t = RRef t.
Proof. intros lvalue t W H. destruct lvalue, t; cbn in *; try discriminate; reflexivity. Qed.
Print Assumptions C158_move.

(** A case: [volatile int const * const &], and an array of three [const volatile char]. *)
Example C158_case :
  let t := LRef (Ptr true false (Obj true true Int)) in
  wf t /\ remove_reference t = Ptr true false (Obj true true Int) /\
  remove_cv (remove_reference t) = Ptr false false (Obj true true Int) /\
  remove_cv (Arr 3 (Obj true true Char)) = Arr 3 (Obj false false Char) /\
  is_integral (Obj false false Int) = Some true /\ is_integral (Obj true false Int) = None /\
  is_integral (Obj false false Bool) = None /\ is_signed (Obj false false UChar) = Some true /\
  fixed_point_ok (Obj false false UInt) = true /\ promote true (Obj false false Int) = Some (Obj false false Long).
Proof. cbn. auto 12. Qed.
