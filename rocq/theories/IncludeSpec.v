(** What inclusion of headers should amount to, without a preprocessor: a header is its
    active #include lines followed by its own text. *)

From Coq Require Import ZArith List Bool String.
From Verif Require Import Include.
Import ListNotations.
Open Scope list_scope.
Open Scope Z_scope.

(** The active lines of a header, that is not yet included, for given compiler flags; [s]
    tells for each open conditional whether its group is active. *)
Fixpoint body (fl : flags) (s : list bool) (ls : list line) : list line :=
  match ls with
  | [] => []
  | l :: ls' =>
    match l with
    | Ifndef _ => body fl (hd true s :: s) ls'
    | IfFlag f b => body fl ((hd true s && Bool.eqb (f fl) b) :: s) ls'
    | IfConst b => body fl ((hd true s && b) :: s) ls'
    | Else => match s with a :: s' => body fl ((hd true s' && negb a) :: s') ls' | [] => [] end
    | Endif => body fl (tl s) ls'
    | System _ => body fl s ls'
    | _ => if hd true s then l :: body fl s ls' else body fl s ls'
    end
  end.

(** The headers it includes, and its own text. *)
Definition includes (fl : flags) (h : header) : list header :=
  flat_map (fun l => match l with Include x => [x] | _ => [] end) (body fl [] (lines h)).

Definition own (fl : flags) (h : header) : list (header * Z * Z) :=
  flat_map (fun l => match l with Text a b => [(h, a, b)] | _ => [] end) (body fl [] (lines h)).

(** Directly or indirectly included. *)
Inductive reach (inc : header -> list header) : header -> header -> Prop :=
| reach_refl : forall h, reach inc h h
| reach_step : forall a b c, In b (inc a) -> reach inc b c -> reach inc a c.

(** The macro that guards a header. *)
Definition guard (h : header) : string := match lines h with Ifndef m :: _ => m | _ => "" end.

(** Every name that the text of a header needs has been declared in the text before it. *)
Definition found (need : header -> list string) (fl : flags) (text : list (header * Z * Z)) : Prop :=
  forall before u a b after n,
    text = before ++ (u, a, b) :: after -> In n (need u) ->
    exists p c d, In (p, c, d) before /\ In n (declares fl p).

(** Headers through which the cycle filter, biquad-design, filter-design is entered. *)
Definition designs : list header :=
  [dsp_filter; dsp_biquad_design; dsp_filter_design; dsp_onepole_design;
   dsp_chebyshev_design; dsp_chebyshev_design_io].

Definition first_design (hs : list header) : option header :=
  find (fun h => mem_header h designs) hs.

(** Headers that need biquad.hpp or onepole.hpp. *)
Definition filters : list header :=
  designs ++ [dsp_biquad; dsp_biquad_io; dsp_biquad_cascade; dsp_biquad_cascade_io;
              dsp_onepole; dsp_onepole_io].

Definition registers : list header := [mcu_register; mcu_atmega328].
