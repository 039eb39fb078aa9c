(** * C166: the complex numbers for AVR: which programs with them link and are defined *)
From Coq Require Import List Bool Arith Lia.
From Verif Require Import AvrComplex.
Import ListNotations.

(** ** Specification *)

(** A use that calculates: an operator, [abs], [sqrt]. *)
Definition abs_arg {T} (v : scalar_use T) : bool := match v with AbsOf _ _ => true | _ => false end.
Definition calculates {T} (u : use T) : bool :=
  match u with
  | Compound _ _ _ _ | CompoundReal _ _ _ _ | Binary _ _ _ _ | BinaryReal _ _ _ _
  | RealBinary _ _ _ _ | Negate _ _ | Root _ _ => true
  | Declare _ a b => abs_arg a || abs_arg b
  | DeclareReal _ a | SetPart _ _ _ a | AssignReal _ _ a => abs_arg a
  | DeclareDefault _ | DeclareCopy _ _ | AssignVar _ _ _ => false
  end.

(** A use that assigns a whole number. *)
Definition assigns {T} (u : use T) : bool :=
  match u with AssignVar _ _ _ | AssignReal _ _ _ => true | _ => false end.

(** Only variables below [n] occur; how many variables there are afterwards. *)
Definition scoped_v {T} (n : nat) (v : scalar_use T) : Prop :=
  match v with Value _ _ => True | PartOf _ _ i | AbsOf _ i => i < n end.
Definition scoped_u {T} (n : nat) (u : use T) : Prop :=
  match u with
  | Declare _ a b => scoped_v n a /\ scoped_v n b
  | DeclareReal _ a => scoped_v n a
  | DeclareDefault _ => True
  | DeclareCopy _ i | Negate _ i | Root _ i => i < n
  | SetPart _ _ i v | AssignReal _ i v | CompoundReal _ _ i v | BinaryReal _ _ i v
  | RealBinary _ _ v i => i < n /\ scoped_v n v
  | AssignVar _ i j | Compound _ _ i j | Binary _ _ i j => i < n /\ j < n
  end.
Definition declares {T} (u : use T) : nat :=
  match u with
  | Declare _ _ _ | DeclareReal _ _ | DeclareDefault _ | DeclareCopy _ _ | Binary _ _ _ _
  | BinaryReal _ _ _ _ | RealBinary _ _ _ _ | Negate _ _ | Root _ _ => 1
  | _ => 0
  end.
Fixpoint scoped {T} (n : nat) (p : list (use T)) : Prop :=
  match p with [] => True | u :: p' => scoped_u n u /\ scoped (n + declares u) p' end.

(** What declarations and setters mean on pairs: the variables after a use. *)
Definition part {T} (f : field) (z : T * T) : T := match f with Re => fst z | Im => snd z end.
Definition value_of {T} (zero : T) (vars : list (T * T)) (v : scalar_use T) : T :=
  match v with
  | Value _ x => x
  | PartOf _ f i => part f (nth i vars (zero, zero))
  | AbsOf _ _ => zero   (* not used *)
  end.
Definition meaning {T} (zero : T) (vars : list (T * T)) (u : use T) : list (T * T) :=
  match u with
  | Declare _ a b => vars ++ [(value_of zero vars a, value_of zero vars b)]
  | DeclareReal _ a => vars ++ [(value_of zero vars a, zero)]
  | DeclareDefault _ => vars ++ [(zero, zero)]
  | DeclareCopy _ i => vars ++ [nth i vars (zero, zero)]
  | SetPart _ f i v =>
      let x := value_of zero vars v in
      let z := nth i vars (zero, zero) in
      firstn i vars ++ [match f with Re => (x, snd z) | Im => (fst z, x) end] ++ skipn (S i) vars
  | _ => vars   (* not used *)
  end.

(** A pair as an object of the class. *)
Definition as_obj {T} (z : T * T) : obj T := Obj T (Some (fst z)) (Some (snd z)).

(** ** Proofs *)

Lemma links_fn g : links 3 g =
  match g with
  | Ctor | CopyCtor | ConvCtor | AssignT | AssignC | AssignX | Get _ | Set_ _ => true
  | _ => false
  end.
Proof. destruct g; try (destruct f); try (destruct o); reflexivity. Qed.

Lemma links_v {T} (v : scalar_use T) : forallb (links 3) (selects_v T v) = negb (abs_arg v).
Proof. destruct v as [x|[] i|i]; reflexivity. Qed.

Lemma links_use {T} (u : use T) : forallb (links 3) (selects T u) = negb (calculates u).
Proof.
  destruct u; cbn [selects forallb]; rewrite ?forallb_app, ?links_v, ?links_fn; cbn [calculates andb negb];
    rewrite ?negb_orb; reflexivity.
Qed.

Lemma links_program {T} (p : list (use T)) :
  forallb (links 3) (flat_map (selects T) p) = negb (existsb calculates p).
Proof.
  induction p as [|u p IH]; [reflexivity|]. cbn [flat_map existsb].
  rewrite forallb_app, links_use, IH, negb_orb. reflexivity.
Qed.

Section Proofs.
Context {T : Type} (zero : T).

Lemma nth_obj (vars : list (T * T)) i : i < length vars ->
  nth i (map as_obj vars) (raw T) = as_obj (nth i vars (zero, zero)).
Proof.
  intros L. rewrite (nth_indep _ (raw T) (as_obj (zero, zero))) by now rewrite map_length.
  apply map_nth.
Qed.

Lemma arg_obj vars v : scoped_v (length vars) v -> abs_arg v = false ->
  arg_value T zero (map as_obj vars) v = Some (value_of zero vars v).
Proof.
  destruct v as [x|f i|i]; intros W A; [reflexivity| |discriminate A].
  unfold arg_value. rewrite nth_obj by exact W. destruct f; reflexivity.
Qed.

Lemma update_obj (vars : list (T * T)) i z : i < length vars ->
  update T (map as_obj vars) i (as_obj z) = map as_obj (firstn i vars ++ [z] ++ skipn (S i) vars).
Proof.
  revert i. induction vars as [|x vars IH]; intros [|i] L; cbn in L; try lia; [reflexivity|].
  unfold update in *. cbn [map firstn skipn app]. f_equal. apply IH. lia.
Qed.

Lemma step_ok vars u : scoped_u (length vars) u -> calculates u = false ->
  step T zero (map as_obj vars) u =
  if assigns u then None else Some (map as_obj (meaning zero vars u)).
Proof.
  intros W C. destruct u; cbn [calculates] in C; try discriminate C; cbn [scoped_u] in W;
    cbn [assigns step meaning].
  - apply orb_false_elim in C as [C1 C2]. destruct W as [W1 W2].
    rewrite !arg_obj by assumption. rewrite map_app. reflexivity.
  - rewrite arg_obj by assumption. rewrite map_app. reflexivity.
  - rewrite map_app. reflexivity.
  - rewrite nth_obj by exact W. rewrite map_app. cbn. destruct (nth i vars _); reflexivity.
  - destruct W as [W1 W2]. rewrite arg_obj by assumption. rewrite nth_obj by exact W1.
    rewrite <- (update_obj vars) by exact W1. destruct f; reflexivity.
  - destruct W as [W1 W2]. rewrite !nth_obj by assumption. reflexivity.
  - destruct W as [W1 W2]. rewrite arg_obj by assumption. rewrite nth_obj by exact W1. reflexivity.
Qed.

Lemma meaning_length vars u : scoped_u (length vars) u -> calculates u = false -> assigns u = false ->
  length (meaning zero vars u) = length vars + declares u.
Proof.
  intros W C A. destruct u; try discriminate C; try discriminate A; cbn [meaning declares];
    rewrite ?app_length; cbn [length]; try lia.
  cbn [scoped_u] in W. rewrite firstn_length, skipn_length. lia.
Qed.

Lemma steps_ok p : forall vars, scoped (length vars) p -> existsb calculates p = false ->
  steps T zero (map as_obj vars) p =
  if existsb assigns p then None else Some (map as_obj (fold_left (meaning zero) p vars)).
Proof.
  induction p as [|u p IH]; intros vars W C; [reflexivity|].
  cbn [existsb scoped steps fold_left] in *. apply orb_false_elim in C as [C1 C2]. destruct W as [W1 W2].
  rewrite (step_ok vars u W1 C1). destruct (assigns u) eqn:A; [reflexivity|].
  apply IH; [|exact C2]. rewrite meaning_length by assumption. exact W2.
Qed.
End Proofs.

(** ** C166 *)

(** Of the functions, those that link are the constructors, assignments, getters and setters:
    every operator, [abs] and [sqrt] is, or calls, a function without definition. *)
Theorem C166_functions : forall g d, 3 <= d ->
  links d g = match g with
              | Ctor | CopyCtor | ConvCtor | AssignT | AssignC | AssignX | Get _ | Set_ _ => true
              | CompT _ | CompX _ | UnaryPlus | UnaryMinus | BinCT _ | BinTC _ | BinCC _ | Abs | Sqrt => false
              end.
Proof.
  intros g d L. destruct d as [|[|[|d]]]; try lia.
  destruct g; try (destruct f); try (destruct o); reflexivity.
Qed.
Print Assumptions C166_functions.

(** What the linker misses: a binary operator lacks the compound operator of the same sign,
    for a number where the right side is a number, else for a complex number; the other
    functions that do not link lack their own definition. *)
Theorem C166_missing : forall g d, 3 <= d ->
  missing d g = match g with
                | Ctor | CopyCtor | ConvCtor | AssignT | AssignC | AssignX | Get _ | Set_ _ => []
                | CompT _ | CompX _ | UnaryPlus | UnaryMinus | Abs | Sqrt => [g]
                | BinCT o => [CompT o]
                | BinTC o | BinCC o => [CompX o]
                end.
Proof.
  intros g d L. destruct d as [|[|[|d]]]; try lia.
  destruct g; try (destruct f); try (destruct o); reflexivity.
Qed.
Print Assumptions C166_missing.

(** An assignment stores what it should, and then reaches its end without [return], which is
    undefined: from a number, from another complex number, from itself. *)
Theorem C166_assignment : forall (T : Type) (zero : T) (z w : T * T) (x : T),
  call T zero AssignC (as_obj z) (as_obj w) [] = Undefined T (as_obj w) /\
  call T zero AssignX (as_obj z) (as_obj w) [] = Undefined T (as_obj w) /\
  call T zero AssignT (as_obj z) (raw T) [x] = Undefined T (as_obj (x, zero)).
Proof. intros. repeat split; reflexivity. Qed.
Print Assumptions C166_assignment.

(** Construction, from two numbers, from a complex number, and from one of another type (here
    the same, as conversions of numbers are left out): the parts are those given, whatever the
    memory held before. *)
Theorem C166_construction : forall (T : Type) (zero : T) (z : T * T) (before other : obj T),
  call T zero Ctor before other [fst z; snd z] = Done T (as_obj z) None /\
  call T zero CopyCtor before (as_obj z) [] = Done T (as_obj z) None /\
  call T zero ConvCtor before (as_obj z) [] = Done T (as_obj z) None.
Proof. intros. repeat split; reflexivity. Qed.
Print Assumptions C166_construction.

(** All programs: with a calculation they do not link; else with an assignment they are
    undefined; else they end with the variables that the declarations and setters mean. *)
Theorem C166_programs : forall (T : Type) (zero : T) (p : list (use T)), scoped 0 p ->
  build_and_run T zero p =
  if existsb calculates p then NotLinked T
  else if existsb assigns p then UndefinedBehaviour T
  else Ends T (map as_obj (fold_left (meaning zero) p [])).
Proof.
  intros T zero p W. unfold build_and_run. rewrite links_program.
  destruct (existsb calculates p) eqn:C; cbn [negb]; [reflexivity|].
  change (@nil (obj T)) with (map (@as_obj T) []). rewrite (steps_ok zero p [] W C).
  destruct (existsb assigns p); reflexivity.
Qed.
Print Assumptions C166_programs.

(** Three programs: declare 3+4i, copy it, set the copy's imaginary part to the other's real
    part; the same and an assignment; the same and a sum. *)
Example C166_case :
  let p := [Declare nat (Value _ 3) (Value _ 4); DeclareCopy _ 0; SetPart _ Im 1 (PartOf _ Re 0)] in
  scoped 0 (p ++ [AssignVar _ 0 1]) /\ scoped 0 (p ++ [Binary _ Add 0 1]) /\
  build_and_run nat 0 p = Ends nat [as_obj (3, 4); as_obj (3, 3)] /\
  build_and_run nat 0 (p ++ [AssignVar _ 0 1]) = UndefinedBehaviour nat /\
  build_and_run nat 0 (p ++ [Binary _ Add 0 1]) = NotLinked nat.
Proof. cbn. repeat split; lia. Qed.
