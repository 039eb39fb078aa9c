(** C160: inclusion of headers. *)

From Coq Require Import ZArith String List Bool Lia.
From Verif Require Import Include IncludeSpec IncludeProofs.
Import ListNotations.
Open Scope list_scope.
Open Scope Z_scope.

(** For all compiler flags, all macros defined on the command line that guard no header, and
    all sequences of headers without tuple.hpp: preprocessing succeeds, each header reached
    contributes its own text exactly once and others nothing, and a header that is included
    and does not lead back comes, with all it reaches, before the text that includes it. *)
Theorem C160_once : forall fl defs hs,
  (forall h, ~ In (guard h) defs) -> ~ In std_tuple hs ->
  exists order defs',
    include_all fl defs hs = Some (concat (map (own fl) order), defs') /\
    NoDup order /\
    (forall x, In x order <-> exists h, In h hs /\ reach (includes fl) h x) /\
    (forall before x after y p, order = before ++ x :: after ->
       In y (includes fl x) -> ~ reach (includes fl) y x -> reach (includes fl) y p ->
       In p before).
Proof.
  intros fl defs hs D T. destruct (include_all_none fl hs defs) as (o & d & R & G' & E); auto.
  { intros h. destruct (defined (guard h) defs) eqn:F; [|reflexivity].
    apply defined_In in F. exfalso. exact (D h F). }
  exists o, d. destruct (visits_top _ _ _ _ E) as (N & T1 & T2 & _).
  split; [exact R|]. split; [exact N|]. split; [exact T1|exact T2].
Qed.
Print Assumptions C160_once.

(** On AVR, type_traits.hpp includes limits.hpp, so its text comes first. *)
Example C160_once_case :
  include_all (Flags true false true) ["NDEBUG"%string] [std_type_traits; std_limits; std_type_traits] =
    Some ([(std_limits, 22, 146); (std_type_traits, 38, 106)],
          ["STD_LIMITS_INCLUDED"; "STD_TYPE_TRAITS_INCLUDED"; "NDEBUG"]%string) /\
  (forall h, ~ In (guard h) ["NDEBUG"%string]) /\
  includes (Flags true false true) std_type_traits = [std_limits].
Proof.
  split; [reflexivity|]. split; [|reflexivity].
  intros h [E|[]]. destruct h; discriminate.
Qed.

(** A header already reached adds nothing when it is included again. *)
Theorem C160_again : forall fl defs hs h g,
  (forall x, ~ In (guard x) defs) -> ~ In std_tuple hs ->
  In h hs -> reach (includes fl) h g ->
  include_all fl defs (hs ++ [g]) = include_all fl defs hs.
Proof.
  intros fl defs hs h g D T H R.
  assert (A : guards_are defs []).
  { intros x. destruct (defined (guard x) defs) eqn:F; [|reflexivity].
    apply defined_In in F. exfalso. exact (D x F). }
  destruct (visits_some (includes fl) hs [] (NoDup_nil _)) as (o & G' & E).
  destruct (include_all_visits fl hs T defs [] o G' A E) as (d & P & A').
  assert (S : forall a defs b, include_all fl defs (a ++ b) =
    match include_all fl defs a with
    | Some (t1, d1) => match include_all fl d1 b with Some (t2, d2) => Some (t1 ++ t2, d2) | None => None end
    | None => None
    end).
  { induction a as [|x a IH]; intros ds b; cbn [include_all app].
    - destruct (include_all fl ds b) as [[t d']|]; reflexivity.
    - destruct (include fl 36 ds x) as [[t1 d1]|]; auto. rewrite IH.
      destruct (include_all fl d1 a) as [[t2 d2]|]; auto.
      destruct (include_all fl d2 b) as [[t3 d3]|]; auto. now rewrite app_assoc. }
  rewrite S, P. cbn [include_all include].
  destruct (visits_top _ _ _ _ E) as (_ & T1 & _).
  assert (I : In g o) by (apply T1; eauto).
  assert (M : defined (guard g) d = true).
  { rewrite (A' g). apply mem_header_In.
    destruct (visits_good (includes fl) (visit (includes fl) 36) hs
      (fun h D O G o G' _ => visit_good (includes fl) 36 h D O G o G') [] [] [] o G') as (B & _).
    - split; [cbn; tauto|intros w y []].
    - exact E.
    - apply B. now right. }
  assert (N : g <> std_tuple).
  { intros ->. assert (X : forall x, reach (includes fl) x std_tuple -> x = std_tuple).
    { intros x Rx. apply reachb_true in Rx. revert Rx. clear.
      assert (C : forallb (fun fl => forallb (fun x => implb (reachb (includes fl) x std_tuple)
        (if header_eq_dec x std_tuple then true else false)) all_headers) all_flags = true)
        by (vm_compute; reflexivity).
      rewrite forallb_forall in C. specialize (C fl (all_flags_In fl)).
      rewrite forallb_forall in C. specialize (C x (all_headers_In x)). intros Rx. rewrite Rx in C.
      cbn in C. destruct (header_eq_dec x std_tuple); congruence. }
    apply T. rewrite <- (X h R). exact H. }
  rewrite (process_guarded fl g _ d N M). rewrite app_nil_r. reflexivity.
Qed.
Print Assumptions C160_again.

Example C160_again_case :
  reach (includes (Flags false false true)) dsp_kalman std_utility /\
  include_all (Flags false false true) [] ([dsp_kalman] ++ [std_utility]) =
    include_all (Flags false false true) [] [dsp_kalman].
Proof. split; [apply reachb_true; vm_compute; reflexivity|reflexivity]. Qed.

(** tuple.hpp lacks an #endif: no program that includes it is preprocessed. *)
Theorem C160_tuple_refuted : forall fl defs hs,
  In std_tuple hs -> include_all fl defs hs = None.
Proof. intros fl defs hs I. now apply include_all_tuple. Qed.
Print Assumptions C160_tuple_refuted.

Example C160_tuple_case : include_all (Flags false false true) [] [core_core; std_tuple] = None.
Proof. apply C160_tuple_refuted. right. now left. Qed.

(** Which sequences give a text in which every name needed is declared before: on AVR those
    without biquad and onepole filters, otherwise those without registers; and never if the
    cycle of designs is entered at biquad-design.hpp. *)
Theorem C160_names : forall fl defs hs text defs',
  (forall h, ~ In (guard h) defs) ->
  include_all fl defs hs = Some (text, defs') ->
  found uses fl text <->
    first_design hs <> Some dsp_biquad_design /\
    (forall h, In h hs -> if AVR fl then ~ In h filters else ~ In h registers).
Proof.
  intros fl defs hs text defs' D R.
  assert (T : ~ In std_tuple hs).
  { intros I. rewrite (include_all_tuple fl hs I) in R. discriminate. }
  destruct (include_all_none fl hs defs) as (o & d & R' & G' & E); auto.
  { intros h. destruct (defined (guard h) defs) eqn:F; [|reflexivity].
    apply defined_In in F. exfalso. exact (D h F). }
  rewrite R in R'. injection R' as -> ->.
  rewrite (found_order uses fl o (texts_uses fl)). exact (order_uses fl hs o G' E).
Qed.
Print Assumptions C160_names.

Example C160_names_case :
  first_design [dsp_onepole_io; dsp_filter_design; core_core] = Some dsp_filter_design /\
  exists text defs',
    include_all (Flags false false true) [] [dsp_onepole_io; dsp_filter_design; core_core] =
      Some (text, defs') /\ found uses (Flags false false true) text.
Proof.
  split; [reflexivity|].
  destruct (C160_once (Flags false false true) [] [dsp_onepole_io; dsp_filter_design; core_core])
    as (o & d & R & _).
  { intros h []. } { intros [F|[F|[F|[]]]]; discriminate. }
  eexists _, d. split; [exact R|].
  apply (C160_names (Flags false false true) [] _ _ _ (fun h (F : In (guard h) []) => F) R).
  split; [vm_compute; discriminate|]. intros h H. cbn [AVR]. intros [<-|[<-|[]]];
  destruct H as [H|[H|[H|[]]]]; discriminate.
Qed.

(** When the functions called by the designs can be found on instantiation: exactly if the
    cycle is entered at filter.hpp or at biquad-design.hpp (or not at all). *)
Theorem C160_calls : forall fl defs hs text defs',
  (forall h, ~ In (guard h) defs) ->
  include_all fl defs hs = Some (text, defs') ->
  found calls fl text <->
    first_design hs = None \/ first_design hs = Some dsp_filter \/
    first_design hs = Some dsp_biquad_design.
Proof.
  intros fl defs hs text defs' D R.
  assert (T : ~ In std_tuple hs).
  { intros I. rewrite (include_all_tuple fl hs I) in R. discriminate. }
  destruct (include_all_none fl hs defs) as (o & d & R' & G' & E); auto.
  { intros h. destruct (defined (guard h) defs) eqn:F; [|reflexivity].
    apply defined_In in F. exfalso. exact (D h F). }
  rewrite R in R'. injection R' as -> ->.
  rewrite (found_order calls fl o (texts_calls fl)). exact (order_calls fl hs o G' E).
Qed.
Print Assumptions C160_calls.

Example C160_calls_case :
  (exists text defs', include_all (Flags false false true) [] [dsp_filter] = Some (text, defs') /\
    found calls (Flags false false true) text) /\
  (exists text defs', include_all (Flags false false true) [] [dsp_filter_design] = Some (text, defs') /\
    ~ found calls (Flags false false true) text).
Proof.
  split.
  - destruct (C160_once (Flags false false true) [] [dsp_filter]) as (o & d & R & _).
    { intros h []. } { intros [F|[]]; discriminate. }
    eexists _, d. split; [exact R|].
    apply (C160_calls (Flags false false true) [] _ _ _ (fun h (F : In (guard h) []) => F) R).
    right; left; reflexivity.
  - destruct (C160_once (Flags false false true) [] [dsp_filter_design]) as (o & d & R & _).
    { intros h []. } { intros [F|[]]; discriminate. }
    eexists _, d. split; [exact R|]. intros F.
    apply (C160_calls (Flags false false true) [] _ _ _ (fun h (F : In (guard h) []) => F) R) in F.
    destruct F as [F|[F|F]]; discriminate.
Qed.

(** The program biquad-design.e.cpp is ill-formed, whatever the compiler: the text of
    filter.hpp comes before the declarations it uses. *)
Theorem C160_biquad_design_refuted : forall fl defs,
  (forall h, ~ In (guard h) defs) ->
  exists text defs', include_all fl defs biquad_design_program = Some (text, defs') /\
    ~ found uses fl text.
Proof.
  intros fl defs D.
  destruct (C160_once fl defs biquad_design_program D) as (o & d & R & _).
  { intros [F|[F|[F|[]]]]; discriminate. }
  exists (concat (map (own fl) o)), d. split; [exact R|]. intros F.
  apply (C160_names fl defs _ _ _ D R) in F. destruct F as [F _]. apply F. reflexivity.
Qed.
Print Assumptions C160_biquad_design_refuted.

Example C160_biquad_design_case :
  (forall h, ~ In (guard h) ["NDEBUG"%string]) /\
  exists text defs',
    include_all (Flags false false true) ["NDEBUG"%string] biquad_design_program = Some (text, defs') /\
    nth_error text 8 = Some (dsp_filter, 13, 65) /\ nth_error text 10 = Some (dsp_biquad_design, 23, 315).
Proof.
  split; [intros h [E|[]]; destruct h; discriminate|].
  destruct (include_all (Flags false false true) ["NDEBUG"%string] biquad_design_program)
    as [[t d]|] eqn:E; vm_compute in E; [|discriminate].
  injection E as <- <-. eexists _, _. split; [reflexivity|]. split; reflexivity.
Qed.

(** All other programs get texts in which every name needed is declared before. *)
Theorem C160_programs : forall fl defs hs,
  (forall h, ~ In (guard h) defs) ->
  In hs (if AVR fl then avr_programs else desktop_programs) ->
  exists text defs', include_all fl defs hs = Some (text, defs') /\ found uses fl text.
Proof.
  intros fl defs hs D I.
  assert (C : forallb (fun fl => forallb (fun hs =>
     negb (mem_header std_tuple hs) &&
     (match first_design hs with Some h => if header_eq_dec h dsp_biquad_design then false else true | None => true end) &&
     forallb (fun h => negb (mem_header h (if AVR fl then filters else registers))) hs)
     (if AVR fl then avr_programs else desktop_programs)) all_flags = true) by (vm_compute; reflexivity).
  rewrite forallb_forall in C. specialize (C fl (all_flags_In fl)). rewrite forallb_forall in C.
  specialize (C hs I). rewrite !andb_true_iff in C. destruct C as [[C1 C2] C3].
  destruct (C160_once fl defs hs D) as (o & d & R & _).
  { apply mem_header_false. now apply negb_true_iff in C1. }
  exists (concat (map (own fl) o)), d. split; [exact R|].
  apply (C160_names fl defs _ _ _ D R). split.
  - intros F. rewrite F in C2. cbn in C2. discriminate.
  - intros h H. rewrite forallb_forall in C3. specialize (C3 h H). apply negb_true_iff in C3.
    destruct (AVR fl); now apply mem_header_false.
Qed.
Print Assumptions C160_programs.

Example C160_programs_case :
  In [mcu_atmega328] (if AVR (Flags true false true) then avr_programs else desktop_programs) /\
  include_all (Flags true false true) [] [mcu_atmega328] <> None.
Proof. split; [right; now left|vm_compute; discriminate]. Qed.
