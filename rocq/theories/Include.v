(** Conditional inclusion of the headers of the library: the directives of every header in
    include, and what a sequence of #include lines in a program is turned into.

    The lines of a header are its directives, in order, and the pieces of text between them,
    given by line numbers.  The names declared and used are those by which headers of the
    library depend on each other. *)

From Coq Require Import ZArith List Bool String.
Import ListNotations.
Open Scope string_scope.
Open Scope list_scope.
Open Scope Z_scope.

(** The headers: directories include/core, include/num, include/std, include/dsp and
    include/mcu. *)
Inductive header : Type :=
| core_core_io
| core_core
| core_range
| core_shims
| core_text
| core_traits
| core_vector_io
| num_constants
| num_fixed_point_io
| num_fixed_point
| num_matrix_io
| num_matrix
| std_algorithm
| std_complex
| std_cstdint
| std_limits
| std_tuple
| std_type_traits
| std_utility
| dsp_biquad_cascade_io
| dsp_biquad_cascade
| dsp_biquad_design
| dsp_biquad_io
| dsp_biquad
| dsp_chebyshev_design_io
| dsp_chebyshev_design
| dsp_filter_design
| dsp_filter
| dsp_kalman_io
| dsp_kalman
| dsp_onepole_design
| dsp_onepole_io
| dsp_onepole
| mcu_atmega328
| mcu_register.

(** Equality of headers (files of include/), decided. *)
Definition header_eq_dec (a b : header) : {a = b} + {a <> b}.
Proof. decide equality. Defined.

(** Whether a header (a file of include/) is in a list. *)
Definition mem_header (h : header) (l : list header) : bool :=
  if in_dec header_eq_dec h l then true else false.

(** Macros of the compiler on which conditions depend: [__AVR] (include/std/limits.hpp:11 and
    others), [_MSC_VER] (include/core/range.hpp:18, 234, 245) and [__cplusplus >= 201703L]
    (include/dsp/biquad-design.hpp:17).  They are not changed by any header. *)
Record flags : Type := Flags { AVR : bool; MSC : bool; CPP17 : bool }.

(** A line of a header (include/core/core.hpp:11-19 and all others): directives, and the
    pieces of text between them. *)
Inductive line : Type :=
| Ifndef (macro : string)
| IfFlag (flag : flags -> bool) (sense : bool)
| IfConst (value : bool)
| Else
| Endif
| Define (macro : string)
| Include (h : header)
| System (name : string)
| Text (first last : Z).

(** The lines of each header. *)
Definition lines (h : header) : list line :=
  match h with
  (* include/core/core-io.hpp:1-16 *)
  | core_core_io =>
     [Ifndef "CORE_CORE_IO_HPP_INCLUDED"; Define "CORE_CORE_IO_HPP_INCLUDED";
      Include core_vector_io; Endif]
  (* include/core/core.hpp:1-19 *)
  | core_core =>
     [Ifndef "CORE_CORE_HPP_INCLUDED"; Define "CORE_CORE_HPP_INCLUDED"; Include core_range;
      Include core_shims; Include core_text; Include core_traits; Endif]
  (* include/core/range.hpp:1-272 *)
  | core_range =>
     [Ifndef "CORE_RANGE_HPP_INCLUDED"; Define "CORE_RANGE_HPP_INCLUDED"; System "iterator";
      System "type_traits"; IfFlag MSC false; System "experimental/type_traits"; Endif;
      Text 22 230; IfFlag MSC false; Text 236 240; Endif; IfFlag MSC true; Text 246 246; Else;
      Text 248 248; Endif; Text 250 270; Endif]
  (* include/core/shims.hpp:1-42 *)
  | core_shims =>
     [Ifndef "CORE_SHIMS_HPP_INCLUDED"; Define "CORE_SHIMS_HPP_INCLUDED"; Text 14 40; Endif]
  (* include/core/text.hpp:1-32 *)
  | core_text =>
     [Ifndef "CORE_TEXT_HPP_INCLUDED"; Define "CORE_TEXT_HPP_INCLUDED"; Text 11 30; Endif]
  (* include/core/traits.hpp:1-26 *)
  | core_traits =>
     [Ifndef "CORE_TRAITS_HPP_INCLUDED"; Define "CORE_TRAITS_HPP_INCLUDED"; Text 14 24; Endif]
  (* include/core/vector-io.hpp:1-26 *)
  | core_vector_io =>
     [Ifndef "NUM_VECTOR_IO_HPP_INCLUDED"; Define "NUM_VECTOR_IO_HPP_INCLUDED";
      System "vector"; System "iostream"; Text 15 24; Endif]
  (* include/num/constants.hpp:1-18 *)
  | num_constants =>
     [Ifndef "NUM_CONSTANTS_HPP_INCLUDED"; Define "NUM_CONSTANTS_HPP_INCLUDED"; Text 11 16;
      Endif]
  (* include/num/fixed-point-io.hpp:1-24 *)
  | num_fixed_point_io =>
     [Ifndef "NUM_FIXED_POINT_IO_HPP_INCLUDED"; Define "NUM_FIXED_POINT_IO_HPP_INCLUDED";
      Include num_fixed_point; System "iostream"; Text 14 22; Endif]
  (* include/num/fixed-point.hpp:1-267 *)
  | num_fixed_point =>
     [Ifndef "NUM_FIXED_POINT_HPP_INCLUDED"; Define "NUM_FIXED_POINT_HPP_INCLUDED";
      Define "fixed_point_MAJOR"; Define "fixed_point_MINOR"; Define "fixed_point_PATCH";
      Define "fixed_point_VERSION"; Define "fixed_point_STRINGIFY";
      Define "fixed_point_STRINGIFY_"; Include std_cstdint; Include std_limits;
      Include std_type_traits; Include std_utility; Define "num_require"; Text 30 81;
      IfFlag AVR true; Text 86 86; Else; Text 88 88; Endif; Text 90 265; Endif]
  (* include/num/matrix-io.hpp:1-32 *)
  | num_matrix_io =>
     [Ifndef "NUM_MATRIX_IO_HPP_INCLUDED"; Define "NUM_MATRIX_IO_HPP_INCLUDED";
      Include num_matrix; System "iostream"; Text 14 30; Endif]
  (* include/num/matrix.hpp:1-526 *)
  | num_matrix =>
     [Ifndef "NUM_MATRIX_HPP_INCLUDED"; Define "NUM_MATRIX_HPP_INCLUDED";
      Define "matrix_MAJOR"; Define "matrix_MINOR"; Define "matrix_PATCH";
      Define "matrix_VERSION"; Define "matrix_STRINGIFY"; Define "matrix_STRINGIFY_";
      Include std_algorithm; Include std_utility; Text 22 53; IfFlag AVR true; Text 58 58;
      Else; Text 60 60; Endif; Text 62 524; Endif]
  (* include/std/algorithm.hpp:1-60 *)
  | std_algorithm =>
     [Ifndef "STD_ALGORITHM_INCLUDED"; Define "STD_ALGORITHM_INCLUDED"; Text 11 58; Endif]
  (* include/std/complex.hpp:1-198 *)
  | std_complex =>
     [Ifndef "STD_COMPLEX_INCLUDED"; Define "STD_COMPLEX_INCLUDED"; IfFlag AVR false;
      System "complex"; Text 15 20; Else; Text 24 194; Endif; Endif]
  (* include/std/cstdint.hpp:1-35 *)
  | std_cstdint =>
     [Ifndef "STD_CSTDINT_INCLUDED"; Define "STD_CSTDINT_INCLUDED"; IfFlag AVR false;
      System "cstdint"; Text 15 21; Else; Text 25 31; Endif; Endif]
  (* include/std/limits.hpp:1-150 *)
  | std_limits =>
     [Ifndef "STD_LIMITS_INCLUDED"; Define "STD_LIMITS_INCLUDED"; IfFlag AVR false;
      System "limits"; Text 15 18; Else; Text 22 146; Endif; Endif]
  (* include/std/tuple.hpp:1-36 *)
  | std_tuple =>
     [Ifndef "STD_TUPLE_INCLUDED"; Define "STD_TUPLE_INCLUDED"; IfFlag AVR false;
      System "tuple"; Text 15 20; Else; Text 24 34; Endif]
  (* include/std/type_traits.hpp:1-110 *)
  | std_type_traits =>
     [Ifndef "STD_TYPE_TRAITS_INCLUDED"; Define "STD_TYPE_TRAITS_INCLUDED"; IfFlag AVR false;
      System "type_traits"; Text 15 32; Else; Include std_limits; Text 38 106; Endif; Endif]
  (* include/std/utility.hpp:1-117 *)
  | std_utility =>
     [Ifndef "STD_UTILITY_INCLUDED"; Define "STD_UTILITY_INCLUDED"; IfFlag AVR false;
      System "utility"; Text 15 28; Else; Include std_type_traits; Text 34 113; Endif; Endif]
  (* include/dsp/biquad-cascade-io.hpp:1-36 *)
  | dsp_biquad_cascade_io =>
     [Ifndef "DSP_BIQUAD_CASCADE_IO_HPP_INCLUDED"; Define "DSP_BIQUAD_CASCADE_IO_HPP_INCLUDED";
      Include dsp_biquad_cascade; Include dsp_biquad_io; Text 14 34; Endif]
  (* include/dsp/biquad-cascade.hpp:1-231 *)
  | dsp_biquad_cascade =>
     [Ifndef "DSP_BIQUAD_CASCADE_HPP_INCLUDED"; Define "DSP_BIQUAD_CASCADE_HPP_INCLUDED";
      Include dsp_biquad; Text 13 229; Endif]
  (* include/dsp/biquad-design.hpp:1-317 *)
  | dsp_biquad_design =>
     [Ifndef "DSP_BIQUAD_DESIGN_HPP_INCLUDED"; Define "DSP_BIQUAD_DESIGN_HPP_INCLUDED";
      Include dsp_biquad; Include dsp_filter_design; IfFlag CPP17 true;
      Define "dsp_MAYBE_UNUSED"; Else; Define "dsp_MAYBE_UNUSED"; Endif; Text 23 315; Endif]
  (* include/dsp/biquad-io.hpp:1-64 *)
  | dsp_biquad_io =>
     [Ifndef "DSP_BIQUAD_IO_HPP_INCLUDED"; Define "DSP_BIQUAD_IO_HPP_INCLUDED";
      Include dsp_biquad; System "iostream"; Text 15 61; Endif]
  (* include/dsp/biquad.hpp:1-354 *)
  | dsp_biquad =>
     [Ifndef "DSP_BIQUAD_HPP_INCLUDED"; Define "DSP_BIQUAD_HPP_INCLUDED"; Include core_traits;
      Include num_constants; Include std_complex; Include std_utility; IfFlag AVR true;
      Define "assert"; Else; System "cassert"; Endif; Text 25 175; IfConst true; Text 177 178;
      Else; Text 180 181; Endif; Text 183 352; Endif]
  (* include/dsp/chebyshev-design-io.hpp:1-36 *)
  | dsp_chebyshev_design_io =>
     [Ifndef "DSP_CHEBYSHEV_DESIGN_IO_HPP_INCLUDED";
      Define "DSP_CHEBYSHEV_DESIGN_IO_HPP_INCLUDED"; Include dsp_chebyshev_design;
      Include core_vector_io; Text 14 34; Endif]
  (* include/dsp/chebyshev-design.hpp:1-356 *)
  | dsp_chebyshev_design =>
     [Ifndef "DSP_CHEBYSHEV_DESIGN_HPP_INCLUDED"; Define "DSP_CHEBYSHEV_DESIGN_HPP_INCLUDED";
      Include dsp_biquad_cascade; Include dsp_filter_design; Include core_core;
      System "algorithm"; System "cassert"; System "cmath"; System "complex"; System "numeric";
      System "type_traits"; System "vector"; Text 29 266; IfConst false; Text 269 314; Endif;
      Text 316 354; Endif]
  (* include/dsp/filter-design.hpp:1-64 *)
  | dsp_filter_design =>
     [Ifndef "DSP_FILTER_DESIGN_HPP_INCLUDED"; Define "DSP_FILTER_DESIGN_HPP_INCLUDED";
      Include core_shims; Include core_traits; Include dsp_filter; Include num_constants;
      Text 16 62; Endif]
  (* include/dsp/filter.hpp:1-67 *)
  | dsp_filter =>
     [Ifndef "DSP_FILTER_HPP_INCLUDED"; Define "DSP_FILTER_HPP_INCLUDED";
      Include dsp_biquad_design; Text 13 65; Endif]
  (* include/dsp/kalman-io.hpp:1-13 *)
  | dsp_kalman_io =>
     [Ifndef "NUM_KALMAN_IO_HPP_INCLUDED"; Define "NUM_KALMAN_IO_HPP_INCLUDED";
      Include num_matrix_io; Endif]
  (* include/dsp/kalman.hpp:1-146 *)
  | dsp_kalman =>
     [Ifndef "NUM_KALMAN_HPP_INCLUDED"; Define "NUM_KALMAN_HPP_INCLUDED"; Include num_matrix;
      Define "kalman_MAJOR"; Define "kalman_MINOR"; Define "kalman_PATCH";
      Define "kalman_VERSION"; Define "kalman_STRINGIFY"; Define "kalman_STRINGIFY_";
      Text 21 144; Endif]
  (* include/dsp/onepole-design.hpp:1-132 *)
  | dsp_onepole_design =>
     [Ifndef "DSP_ONEPOLE_DESIGN_HPP_INCLUDED"; Define "DSP_ONEPOLE_DESIGN_HPP_INCLUDED";
      System "iostream"; Include dsp_onepole; Include dsp_filter_design; Text 20 130; Endif]
  (* include/dsp/onepole-io.hpp:1-64 *)
  | dsp_onepole_io =>
     [Ifndef "DSP_ONEPOLE_IO_HPP_INCLUDED"; Define "DSP_ONEPOLE_IO_HPP_INCLUDED";
      Include dsp_onepole; System "iostream"; Text 15 61; Endif]
  (* include/dsp/onepole.hpp:1-312 *)
  | dsp_onepole =>
     [Ifndef "DSP_ONEPOLE_HPP_INCLUDED"; Define "DSP_ONEPOLE_HPP_INCLUDED";
      Include core_traits; Include num_constants; Include std_complex; Include std_utility;
      IfFlag AVR true; Define "assert"; Else; System "cassert"; Endif; Text 25 164;
      IfConst true; Text 166 167; Else; Text 169 170; Endif; Text 172 310; Endif]
  (* include/mcu/atmega328.hpp:1-2637 *)
  | mcu_atmega328 =>
     [Ifndef "MCU_ATMEGA328_HPP_INCLUDED"; Define "MCU_ATMEGA328_HPP_INCLUDED";
      Include mcu_register; Text 17 2635; Endif]
  (* include/mcu/register.hpp:1-556 *)
  | mcu_register =>
     [Ifndef "MCU_REGISTER_HPP_INCLUDED"; Define "MCU_REGISTER_HPP_INCLUDED";
      Include std_limits; Include std_type_traits; System "avr/io.h"; System "avr/interrupt.h";
      Text 28 554; Endif]
  end.

(** ** The preprocessor *)

(** One open conditional (language; include/std/limits.hpp:11-148): whether the lines
    around it are active, whether its present group is, whether #else was seen. *)
Record group : Type := Group { outer : bool; active : bool; else_seen : bool }.

(** Whether lines are active inside the open conditionals (language;
    include/std/limits.hpp:8-150). *)
Definition is_active (s : list group) : bool :=
  match s with [] => true | g :: _ => active g end.

(** Whether a macro is defined (language; include/std/limits.hpp:8). *)
Definition defined (m : string) (defs : list string) : bool := existsb (String.eqb m) defs.

(** The lines of one header, with [include] for the #include lines: the pieces of text that
    are active and the macros defined afterwards; [None] if conditionals are not balanced
    (language; include/std/tuple.hpp:8-36 and all others). *)
Fixpoint process (fl : flags) (h : header)
    (include : list string -> header -> option (list (header * Z * Z) * list string))
    (defs : list string) (s : list group) (ls : list line)
  : option (list (header * Z * Z) * list string) :=
  match ls with
  | [] => match s with [] => Some ([], defs) | _ :: _ => None end
  | l :: ls' =>
    match l with
    | Ifndef m =>
      process fl h include defs
        (Group (is_active s) (is_active s && negb (defined m defs)) false :: s) ls'
    | IfFlag f b =>
      process fl h include defs (Group (is_active s) (is_active s && Bool.eqb (f fl) b) false :: s) ls'
    | IfConst b =>
      process fl h include defs (Group (is_active s) (is_active s && b) false :: s) ls'
    | Else =>
      match s with
      | Group o a false :: s' =>
        process fl h include defs (Group o (o && negb a) true :: s') ls'
      | _ => None
      end
    | Endif => match s with _ :: s' => process fl h include defs s' ls' | [] => None end
    | Define m =>
      process fl h include (if is_active s then m :: defs else defs) s ls'
    | Include h' =>
      if is_active s then
        match include defs h' with
        | Some (t1, defs1) =>
          match process fl h include defs1 s ls' with
          | Some (t2, defs2) => Some (t1 ++ t2, defs2)
          | None => None
          end
        | None => None
        end
      else process fl h include defs s ls'
    | System _ => process fl h include defs s ls'
    | Text a b =>
      match process fl h include defs s ls' with
      | Some (t, defs') => Some (if is_active s then (h, a, b) :: t else t, defs')
      | None => None
      end
    end
  end.

(** [#include] of a header (language; include/dsp/filter.hpp:11 and all others), with nesting
    up to [depth]. *)
Fixpoint include (fl : flags) (depth : nat) (defs : list string) (h : header)
  : option (list (header * Z * Z) * list string) :=
  match depth with
  | O => None
  | S depth' => process fl h (include fl depth') defs [] (lines h)
  end.

(** The #include lines of a program (example/desktop/biquad-design.e.cpp:8-10 and all
    others); there are 35 headers. *)
Fixpoint include_all (fl : flags) (defs : list string) (hs : list header)
  : option (list (header * Z * Z) * list string) :=
  match hs with
  | [] => Some ([], defs)
  | h :: hs' =>
    match include fl 36 defs h with
    | Some (t1, defs1) =>
      match include_all fl defs1 hs' with
      | Some (t2, defs2) => Some (t1 ++ t2, defs2)
      | None => None
      end
    | None => None
    end
  end.

(** ** Names *)

(** Names of the library that the text of a header declares. *)
Definition declares (fl : flags) (h : header) : list string :=
  match h with
  (* include/core/range.hpp:267-268 *)
  | core_range =>
    ["core::range"; "core::indices"]
  (* include/core/shims.hpp:35 *)
  | core_shims =>
    ["core::as"]
  (* include/core/text.hpp:13 *)
  | core_text =>
    ["core::Text"]
  (* include/core/traits.hpp:22 *)
  | core_traits =>
    ["core::identity_t"]
  (* include/num/constants.hpp:14 *)
  | num_constants =>
    ["num::pi"]
  (* include/num/fixed-point.hpp:68 *)
  | num_fixed_point =>
    ["num::fixed_point"]
  (* include/num/matrix.hpp:35, 38, 513 *)
  | num_matrix =>
    ["num::matrix"; "num::colvec"; "num::eye"]
  (* include/std/algorithm.hpp:14, 24 *)
  | std_algorithm =>
    ["std20::copy"; "std20::fill"]
  (* include/std/complex.hpp:17-18, 27 *)
  | std_complex =>
    ["std20::complex"] ++ (if AVR fl then [] else ["std20::polar"])
  (* include/std/cstdint.hpp:17-20, 27-30 *)
  | std_cstdint =>
    ["std20::int8_t"; "std20::int16_t"; "std20::int32_t"; "std20::int64_t"]
  (* include/std/limits.hpp:17, 24 *)
  | std_limits =>
    ["std20::numeric_limits"]
  (* include/std/type_traits.hpp:17-31, 40-104 *)
  | std_type_traits =>
    ["std20::remove_reference"; "std20::is_integral_v"; "std20::is_signed_v"; "std20::enable_if_t"] ++ (if AVR fl then ["std20::is_same_v"] else [])
  (* include/std/utility.hpp:17-25, 38-51 *)
  | std_utility =>
    ["std20::move"; "std20::swap"]
  (* include/dsp/biquad.hpp:32, 41, 347 *)
  | dsp_biquad =>
    ["dsp::biquad::AT"; "dsp::biquad::BT"; "dsp::BiQuadT"]
  (* include/dsp/biquad-cascade.hpp:227 *)
  | dsp_biquad_cascade =>
    ["dsp::BiQuadCascadeT"]
  (* include/dsp/biquad-design.hpp:27, 312-313 *)
  | dsp_biquad_design =>
    ["dsp::FilterResponse"; "dsp::biquad_design"; "dsp::make_biquad"]
  (* include/dsp/chebyshev-design.hpp:60 *)
  | dsp_chebyshev_design =>
    ["dsp::chebyshev_design::AlgoInfoT"]
  (* include/dsp/filter.hpp:18, 43 *)
  | dsp_filter =>
    ["dsp::Lpf"; "dsp::Hpf"]
  (* include/dsp/filter-design.hpp:21, 57 *)
  | dsp_filter_design =>
    ["dsp::prewarp"; "dsp::dbV_factor"]
  (* include/dsp/onepole.hpp:32, 40, 305 *)
  | dsp_onepole =>
    ["dsp::onepole::AT"; "dsp::onepole::BT"; "dsp::OnePoleT"]
  (* include/dsp/onepole-design.hpp:127 *)
  | dsp_onepole_design =>
    ["dsp::onepole_design"]
  (* include/dsp/kalman.hpp:33 *)
  | dsp_kalman =>
    ["dsp::kalman"]
  (* include/mcu/register.hpp:516 *)
  | mcu_register =>
    ["mcu::register8_t"]
  | _ => []
  end.

(** Names of other headers that the text of a header uses and that must have been declared
    before: qualified names, base classes, types of parameters. *)
Definition uses (h : header) : list string :=
  match h with
  (* include/num/fixed-point-io.hpp:17 *)
  | num_fixed_point_io =>
    ["num::fixed_point"]
  (* include/num/matrix-io.hpp:17 *)
  | num_matrix_io =>
    ["num::matrix"]
  (* include/num/fixed-point.hpp:28, 38, 39, 40, 63, 65 *)
  | num_fixed_point =>
    ["std20::enable_if_t"; "std20::int8_t"; "std20::int16_t"; "std20::int32_t"; "std20::int64_t"; "std20::numeric_limits"; "std20::is_signed_v"; "std20::is_integral_v"]
  (* include/num/matrix.hpp:76, 70, 474 *)
  | num_matrix =>
    ["std20::copy"; "std20::fill"; "std20::swap"]
  (* include/dsp/kalman.hpp:37, 44, 126 *)
  | dsp_kalman =>
    ["num::matrix"; "num::colvec"; "num::eye"]
  (* include/dsp/biquad.hpp:27, 337, 65, 338, 270 *)
  | dsp_biquad =>
    ["core::identity_t"; "num::pi"; "std20::complex"; "std20::polar"; "std20::swap"]
  (* include/dsp/onepole.hpp:27, 296, 64, 297, 229 *)
  | dsp_onepole =>
    ["core::identity_t"; "num::pi"; "std20::complex"; "std20::polar"; "std20::swap"]
  (* include/dsp/biquad-io.hpp:48 *)
  | dsp_biquad_io =>
    ["dsp::BiQuadT"]
  (* include/dsp/onepole-io.hpp:48 *)
  | dsp_onepole_io =>
    ["dsp::OnePoleT"]
  (* include/dsp/biquad-cascade.hpp:15, 26 *)
  | dsp_biquad_cascade =>
    ["core::identity_t"; "dsp::BiQuadT"]
  (* include/dsp/biquad-cascade-io.hpp:17 *)
  | dsp_biquad_cascade_io =>
    ["dsp::BiQuadCascadeT"]
  (* include/dsp/biquad-design.hpp:53, 54, 307 *)
  | dsp_biquad_design =>
    ["dsp::biquad::AT"; "dsp::biquad::BT"; "dsp::BiQuadT"]
  (* include/dsp/filter.hpp:22, 28 *)
  | dsp_filter =>
    ["dsp::BiQuadT"; "dsp::biquad_design"; "dsp::FilterResponse"]
  (* include/dsp/filter-design.hpp:35, 31, 25 *)
  | dsp_filter_design =>
    ["core::as"; "core::identity_t"; "num::pi"]
  (* include/dsp/chebyshev-design.hpp:97, 32, 33, 334, 103, 137, 336, 121 *)
  | dsp_chebyshev_design =>
    ["dsp::FilterResponse"; "dsp::biquad::AT"; "dsp::biquad::BT"; "dsp::BiQuadCascadeT"; "core::as"; "core::range"; "core::indices"; "num::pi"]
  (* include/dsp/chebyshev-design-io.hpp:19 *)
  | dsp_chebyshev_design_io =>
    ["dsp::chebyshev_design::AlgoInfoT"]
  (* include/dsp/onepole-design.hpp:22, 25, 26, 78, 68 *)
  | dsp_onepole_design =>
    ["core::identity_t"; "dsp::onepole::AT"; "dsp::onepole::BT"; "num::pi"; "dsp::FilterResponse"]
  (* include/mcu/register.hpp:367 *)
  | mcu_register =>
    ["std20::is_same_v"]
  (* include/mcu/atmega328.hpp:66 *)
  | mcu_atmega328 =>
    ["mcu::register8_t"]
  | _ => []
  end.

(** Functions of other headers called by the text of a header with arguments that depend on
    template parameters and without qualification.  They, too, must have been declared
    before if the parameters are arithmetic types, which have no namespace in which to
    look at the point of instantiation; but this matters only when the template is
    instantiated.  dbV_factor is called at include/dsp/biquad-design.hpp:186, 221, 256. *)
Definition calls (h : header) : list string :=
  match h with
  (* include/dsp/biquad-design.hpp:106, 126, 146, 166, 186-187, 221-222, 256-257 *)
  | dsp_biquad_design => ["dsp::prewarp"; "dsp::dbV_factor"]
  (* include/dsp/chebyshev-design.hpp:108-109, 184-185 *)
  | dsp_chebyshev_design => ["dsp::prewarp"]
  | _ => []
  end.

(** ** Programs *)

(** Headers of the library included by example/desktop/biquad-design.e.cpp:8-10. *)
Definition biquad_design_program : list header := [dsp_biquad_design; dsp_biquad_io; core_core].

(** Headers of the library included by the other programs for the desktop. *)
Definition desktop_programs : list (list header) :=
  [ (* example/desktop/biquad.e.cpp:8-10 *) [dsp_biquad_io; dsp_filter_design; core_core];
    (* example/desktop/biquad-cascade.e.cpp:8-11 *)
    [dsp_biquad_cascade_io; dsp_filter_design; core_range; core_text];
    (* example/desktop/chebyshev-design.e.cpp:8-10 *)
    [dsp_chebyshev_design_io; dsp_biquad_cascade_io; core_core];
    (* example/desktop/covariance-error.e.cpp:8 *) [num_matrix_io];
    (* example/desktop/kalman-sim.e.cpp:8-11 *)
    [num_fixed_point_io; dsp_kalman; dsp_kalman_io; core_vector_io];
    (* example/desktop/matrix.e.cpp:8-9, test/matrix.t.cpp:8-9 *) [num_matrix; num_matrix_io];
    (* example/desktop/onepole.e.cpp:8-10 *) [dsp_onepole_io; dsp_filter_design; core_core];
    (* example/desktop/onepole-design.e.cpp:8-10 *) [dsp_onepole_design; dsp_onepole_io; core_core];
    (* example/desktop/range.e.cpp:9 *) [core_range];
    (* test/biquad.t.cpp:8-9 *) [dsp_biquad; dsp_biquad_io];
    (* test/biquad-cascade.t.cpp:8-9 *) [dsp_biquad_cascade; dsp_biquad_cascade_io];
    (* test/core.t.cpp:8 *) [core_core];
    (* test/fixed-point.t.cpp:8-9 *) [num_fixed_point; num_fixed_point_io];
    (* test/main.t.cpp:8-10 *) [num_fixed_point; num_matrix; dsp_kalman];
    (* test/stdcpp.t.cpp:20-24 *)
    [std_algorithm; std_cstdint; std_limits; std_type_traits; std_utility] ].

(** Headers of the library included by the programs for AVR. *)
Definition avr_programs : list (list header) :=
  [ (* example/avr/avr-kalman-sim.e.cpp:10-12, test/main-avr.t.cpp:10-12 *)
    [num_fixed_point; num_matrix; dsp_kalman];
    (* example/avr/avr-adc-dac-isr-atmega.e.cpp:8 *) [mcu_atmega328];
    (* issue/avr-issue-tpl-fun.b.cpp:1-2 *) [num_fixed_point; num_matrix] ].
